(** Lemmas about the string cache model. *)
From Coq Require Import String Ascii List Arith NArith Bool Lia Sorting.Sorted.
From Verif Require Import Str StrFacts Trie TrieProofs StringCache StringCacheSpec.
Import ListNotations.

(** ** Plain strings *)

Lemma sorted_nth l : StronglySorted str_lt l -> forall i j, i < j -> j < length l ->
  str_lt (nth i l []) (nth j l []).
Proof.
  induction l as [|x l IH]; intros H i j Hij Hj; simpl in Hj; [lia|].
  apply StronglySorted_inv in H as [H1 H2]. rewrite Forall_forall in H2.
  destruct j as [|j]; [lia|]. destruct i as [|i]; simpl.
  - apply H2, nth_In. lia.
  - apply IH; auto; lia.
Qed.

Lemma geb_mono l x : StronglySorted str_lt l -> forall i j, i <= j -> j < length l ->
  str_geb (nth i l []) x = true -> str_geb (nth j l []) x = true.
Proof.
  intros Hs i j Hij Hj. destruct (Nat.eq_dec i j) as [->|]; auto.
  pose proof (sorted_nth l Hs i j ltac:(lia) Hj) as Hlt. unfold str_geb, str_lt in *.
  rewrite !negb_true_iff. intros H.
  destruct (str_ltb (nth j l []) x) eqn:E; auto.
  now rewrite (str_ltb_trans _ _ _ Hlt E) in H.
Qed.

Lemma search_sorted l x : StronglySorted str_lt l ->
  let ix := sort_search (length l) (fun i => str_geb (nth i l []) x) in
  ix <= length l /\ (forall i, i < ix -> str_lt (nth i l []) x)
  /\ (ix < length l -> str_le x (nth ix l [])).
Proof.
  intros Hs. destruct (sort_search_spec (length l) (fun i => str_geb (nth i l []) x)) as [H1 [H2 H3]].
  - intros i j. now apply geb_mono.
  - cbv zeta. split; auto. split.
    + intros i Hi. apply H2 in Hi. unfold str_geb in Hi. now apply negb_false_iff in Hi.
    + intros Hi. apply H3 in Hi. unfold str_geb in Hi. now apply negb_true_iff in Hi.
Qed.

Lemma search_found l x : StronglySorted str_lt l ->
  let ix := sort_search (length l) (fun i => str_geb (nth i l []) x) in
  ((ix <? length l) && str_eqb (nth ix l []) x = true <-> In x l).
Proof.
  intros Hs ix. destruct (search_sorted l x Hs) as [H1 [H2 H3]]. fold ix in H1, H2, H3.
  rewrite andb_true_iff, Nat.ltb_lt, str_eqb_eq. split.
  - intros [Hi He]. pose proof (nth_In l [] Hi) as G. now rewrite He in G.
  - intros Hin. apply (In_nth _ _ []) in Hin as [j [Hj Hx]].
    destruct (lt_eq_lt_dec j ix) as [[Hlt|Heq]|Hgt].
    + apply H2 in Hlt. rewrite Hx in Hlt. unfold str_lt in Hlt. now rewrite str_ltb_irrefl in Hlt.
    + rewrite <- Heq. auto.
    + assert (ix < length l) as Hi by lia. split; auto.
      pose proof (sorted_nth l Hs ix j Hgt Hj) as Hlt. rewrite Hx in Hlt.
      specialize (H3 Hi). unfold str_lt, str_le in *. congruence.
Qed.

Lemma nth_firstn_lt {A} (d : A) i n l : i < n -> nth i (firstn n l) d = nth i l d.
Proof.
  revert i l; induction n; intros i l H; [lia|]. destruct l; [now destruct i|].
  destruct i; simpl; auto. apply IHn; lia.
Qed.

Lemma nth_skipn_add {A} (d : A) i n l : nth i (skipn n l) d = nth (n + i) l d.
Proof. revert l; induction n; intros l; simpl; auto. destruct l; [now destruct i|]. apply IHn. Qed.

Lemma SSorted_app l1 l2 : StronglySorted str_lt l1 -> StronglySorted str_lt l2 ->
  (forall x y, In x l1 -> In y l2 -> str_lt x y) -> StronglySorted str_lt (l1 ++ l2).
Proof.
  induction l1 as [|a l1 IH]; simpl; intros H1 H2 H; auto.
  apply StronglySorted_inv in H1 as [S1 F1]. constructor; [apply IH; auto|].
  rewrite Forall_forall in *. intros y Hy. apply in_app_iff in Hy as [|]; auto.
Qed.

Lemma SSorted_firstn l n : StronglySorted str_lt l -> StronglySorted str_lt (firstn n l).
Proof.
  revert n; induction l as [|a l IH]; intros [|n] H; simpl; try constructor;
    apply StronglySorted_inv in H as [S1 F1]; auto.
  rewrite Forall_forall in *. intros y Hy. apply F1.
  rewrite <- (firstn_skipn n l). apply in_app_iff; auto.
Qed.

Lemma SSorted_skipn l n : StronglySorted str_lt l -> StronglySorted str_lt (skipn n l).
Proof.
  revert n; induction l as [|a l IH]; intros [|n] H; simpl; try constructor;
    apply StronglySorted_inv in H as [S1 F1]; auto.
Qed.

Lemma insert_sorted l x : StronglySorted str_lt l -> ~ In x l ->
  let ix := sort_search (length l) (fun i => str_geb (nth i l []) x) in
  StronglySorted str_lt (firstn ix l ++ x :: skipn ix l).
Proof.
  intros Hs Hn ix. destruct (search_sorted l x Hs) as [H1 [H2 H3]]. fold ix in H1, H2, H3.
  assert (forall y, In y (firstn ix l) -> str_lt y x) as Hlow.
  { intros y Hy. apply (In_nth _ _ []) in Hy as [i [Hi <-]]. rewrite firstn_length in Hi.
    rewrite nth_firstn_lt by lia. apply H2. lia. }
  assert (forall y, In y (skipn ix l) -> str_lt x y) as Hhigh.
  { intros y Hy. apply (In_nth _ _ []) in Hy as [i [Hi <-]]. rewrite skipn_length in Hi.
    rewrite nth_skipn_add.
    assert (ix < length l) as Hix by lia. specialize (H3 Hix).
    assert (str_lt x (nth ix l [])) as Hx.
    { apply str_le_lt_or_eq in H3 as [|Hx]; auto. exfalso. apply Hn. rewrite Hx. now apply nth_In. }
    destruct i as [|i]; [now rewrite Nat.add_0_r|].
    eapply str_ltb_trans; [exact Hx|]. apply sorted_nth; auto; lia. }
  apply SSorted_app.
  - now apply SSorted_firstn.
  - constructor; [now apply SSorted_skipn|]. now apply Forall_forall.
  - intros y z Hy [<-|Hz]; auto. eapply str_ltb_trans; [now apply Hlow|now apply Hhigh].
Qed.

Definition sf_inv (f : string_factory) : Prop :=
  NoDup (map fst (sf_tmp f)) /\
  forall n l, mget Nat.eqb n (sf_tmp f) = Some l ->
    StronglySorted str_lt l /\ l <> [] /\ n <> 0 /\ forall x, In x l -> length x = n.

(** The strings held by a factory. *)
Definition sf_holds (f : string_factory) (x : str) : Prop := In x (sf_bucket f (length x)).

Lemma sf_inv_bucket f n : sf_inv f -> StronglySorted str_lt (sf_bucket f n) /\
  forall x, In x (sf_bucket f n) -> length x = n.
Proof.
  intros [_ H]. unfold sf_bucket. destruct (mget Nat.eqb n (sf_tmp f)) as [l|] eqn:E.
  - apply H in E as [? [? [? ?]]]. auto.
  - split; [constructor|]. intros x [].
Qed.

Lemma sf_insert_spec f e : sf_inv f -> e <> [] ->
  sf_inv (sf_insert_string f e) /\
  (forall x, sf_holds (sf_insert_string f e) x <-> sf_holds f x \/ x = to_lower e).
Proof.
  intros Hinv He. unfold sf_insert_string. cbv zeta.
  unfold normalize_entry. set (x0 := to_lower e). set (n := length x0).
  assert (n <> 0) as Hn0.
  { unfold n, x0. rewrite to_lower_length. destruct e; simpl; [congruence|lia]. }
  destruct (sf_inv_bucket f n Hinv) as [Hs Hlen].
  set (b := sf_bucket f n) in *.
  pose proof (search_found b x0 Hs) as Hf. cbv zeta in Hf.
  pose proof (insert_sorted b x0 Hs) as Hi. cbv zeta in Hi.
  set (ix := sort_search (length b) (fun i => str_geb (nth i b []) x0)) in *.
  destruct ((ix <? length b) && str_eqb (nth ix b []) x0).
  - split; auto. intros x. split; auto. intros [H|H]; auto. subst x.
    unfold sf_holds. apply Hf. reflexivity.
  - assert (~ In x0 b) as Hnin by (intro H; apply Hf in H; discriminate).
    set (b' := firstn ix b ++ x0 :: skipn ix b) in *.
    assert (forall y, In y b' <-> In y b \/ y = x0) as Hb'.
    { intro y. unfold b'. rewrite <- (firstn_skipn ix b) at 3. rewrite !in_app_iff. simpl. intuition. }
    split.
    + destruct Hinv as [Hd Hk]. split; simpl.
      * now apply nmput_NoDup.
      * intros m l. rewrite nmget_mput. destruct (Nat.eqb_spec n m).
        -- intros E. injection E as <-. subst m. split; [auto|]. split.
           { unfold b'. destruct (firstn ix b); discriminate. } split; auto.
           intros y Hy. apply Hb' in Hy as [Hy| ->]; auto.
        -- apply Hk.
    + intros x. unfold sf_holds, sf_bucket at 1. simpl. rewrite nmget_mput.
      destruct (Nat.eqb_spec n (length x)).
      * rewrite Hb'. unfold b. rewrite e0. tauto.
      * split; [now left|]. intros [H|H]; auto. subst x. exfalso. apply n0. reflexivity.
Qed.

Lemma sf_inv_cnt f c : sf_inv f -> sf_inv {| sf_tmp := sf_tmp f; sf_cnt := c |}.
Proof. auto. Qed.

Lemma sf_add_spec f e : sf_inv f ->
  sf_inv (fst (sf_add_entry f e)) /\
  (forall x, sf_holds (fst (sf_add_entry f e)) x <-> sf_holds f x \/ (e <> [] /\ x = to_lower e)).
Proof.
  intros H. unfold sf_add_entry. destruct e as [|c e].
  - simpl. split; auto. intuition congruence.
  - cbn [fst]. destruct (sf_insert_spec {| sf_tmp := sf_tmp f; sf_cnt := S (sf_cnt f) |} (c :: e))
      as [H1 H2]; [now apply sf_inv_cnt|discriminate|].
    split; auto. intros x. rewrite H2. unfold sf_holds, sf_bucket. simpl. intuition discriminate.
Qed.

Lemma concat_length n (l : list str) : (forall x, In x l -> length x = n) -> length (concat l) = length l * n.
Proof.
  induction l as [|a l IH]; simpl; intros H; auto.
  rewrite app_length, IH by auto. rewrite (H a) by auto. lia.
Qed.

Lemma chunk_concat n (l : list str) i : (forall x, In x l -> length x = n) -> i < length l ->
  chunk (concat l) n i = nth i l [].
Proof.
  unfold chunk. revert i; induction l as [|a l IH]; intros i H Hi; simpl in Hi; [lia|].
  assert (length a = n) as Ha by (apply H; now left).
  simpl concat. destruct i as [|i]; simpl nth.
  - simpl. rewrite firstn_app, <- Ha, Nat.sub_diag, firstn_all. simpl. apply app_nil_r.
  - rewrite skipn_app. rewrite skipn_all2 by (simpl; lia). simpl app.
    replace (n + i * n - length a) with (i * n) by lia.
    apply IH; [|lia]. intros; apply H; now right.
Qed.

Lemma mget_map_snd {A B} (g : A -> B) n (m : list (nat * A)) :
  mget Nat.eqb n (map (fun kv => (fst kv, g (snd kv))) m) = option_map g (mget Nat.eqb n m).
Proof. induction m as [|[k v] m IH]; simpl; auto. now destruct (n =? k). Qed.

(** What [contains] of the finished cache answers; nil contains nothing. *)
Lemma sf_create_contains f x : sf_inv f ->
  (match sf_create f with Some m => sm_contains m x | None => false end = true
   <-> sf_holds f (to_lower x)).
Proof.
  intros Hinv.
  assert (E : match sf_create f with Some m => sm_contains m x | None => false end
              = sm_contains (map (fun kv => (fst kv, concat (snd kv))) (sf_tmp f)) x).
  { unfold sf_create. destruct (sf_tmp f); auto. simpl. unfold sm_contains.
    destruct (length (normalize_entry x) =? 0) eqn:En; auto.
    unfold sm_bucket. simpl. rewrite Nat.div_0_l; [reflexivity|]. now apply Nat.eqb_neq. }
  rewrite E. clear E. unfold sm_contains. unfold normalize_entry. set (y := to_lower x).
  destruct (Nat.eqb_spec (length y) 0) as [H0|H0].
  - split; [discriminate|]. unfold sf_holds. rewrite H0. intros H.
    unfold sf_bucket in H. destruct (mget Nat.eqb 0 (sf_tmp f)) as [l|] eqn:E; [|destruct H].
    destruct Hinv as [_ Hk]. apply Hk in E as [_ [_ [E _]]]. congruence.
  - destruct (sf_inv_bucket f (length y) Hinv) as [Hs Hlen].
    unfold sf_holds. set (b := sf_bucket f (length y)) in *.
    assert (sm_bucket (map (fun kv => (fst kv, concat (snd kv))) (sf_tmp f)) (length y) = concat b) as Hb.
    { unfold sm_bucket. rewrite mget_map_snd. unfold b, sf_bucket.
      now destruct (mget Nat.eqb (length y) (sf_tmp f)). }
    rewrite Hb. rewrite (concat_length (length y)) by auto. rewrite Nat.div_mul by auto.
    rewrite <- (search_found b y Hs).
    assert (forall f g, (forall i, i < length b -> f i = g i) ->
      sort_search (length b) f = sort_search (length b) g) as Hext.
    { intros f1 f2 Hx. unfold sort_search.
      assert (forall fuel i j, j <= length b -> search_aux fuel i j f1 = search_aux fuel i j f2) as G.
      { induction fuel as [|fuel IH]; intros i j Hj; cbn [search_aux]; auto.
        destruct (Nat.ltb_spec i j); auto.
        assert ((i + j) / 2 < j) by (apply Nat.div_lt_upper_bound; lia).
        rewrite Hx by lia. destruct (f2 ((i + j) / 2)); apply IH; lia. }
      apply G. lia. }
    rewrite (Hext _ (fun i => str_geb (nth i b []) y)).
    2:{ intros i Hi. now rewrite chunk_concat. }
    set (ix := sort_search (length b) (fun i => str_geb (nth i b []) y)).
    destruct (Nat.ltb_spec ix (length b)); simpl.
    + rewrite chunk_concat by auto. tauto.
    + tauto.
Qed.

Lemma sf_inv_new : sf_inv new_string_factory.
Proof. split; simpl; [constructor|discriminate]. Qed.

Lemma sf_holds_new x : ~ sf_holds new_string_factory x.
Proof. intros []. Qed.

(** ** Labels *)

Lemma labels_of_NE n ls : labels_of n ls -> NE n = ls.
Proof.
  induction 1.
  - reflexivity.
  - rewrite NE_nodot by auto. destruct l; [congruence|reflexivity].
  - change (dot :: n) with ([] ++ dot :: n). rewrite NE_app_dot. exact IHlabels_of.
  - rewrite NE_app_dot, NE_nodot by auto. rewrite IHlabels_of. destruct l; [congruence|reflexivity].
Qed.

Lemma labels_of_ex n : labels_of n (NE n).
Proof.
  remember (length n) as k eqn:Hk. revert n Hk.
  induction k as [k IH] using lt_wf_ind. intros n Hk.
  destruct (index_byte dot n) as [i|] eqn:E.
  - apply index_byte_Some in E as [H1 [H2 H3]].
    set (a := firstn i n) in *. set (b := skipn (S i) n) in *. clearbody a b. subst n.
    rewrite NE_app_dot, (NE_nodot a) by auto. rewrite app_length in Hk. simpl in Hk.
    destruct a as [|c a].
    + simpl. constructor. apply (IH (length b)); auto. simpl in Hk. lia.
    + simpl nonempty. cbn [app]. apply (lo_cons (c :: a)); auto; [discriminate|].
      apply (IH (length b)); auto. simpl in Hk. lia.
  - apply index_byte_None in E. rewrite NE_nodot by auto. destruct n as [|c n]; [constructor|].
    simpl. constructor; auto. discriminate.
Qed.

Lemma labels_of_iff n ls : labels_of n ls <-> ls = NE n.
Proof.
  split; intro H.
  - symmetry. now apply labels_of_NE.
  - subst. apply labels_of_ex.
Qed.

Lemma wildcard_matches_iff d n :
  wildcard_matches d n <-> NE (to_lower d) <> [] /\ pre (RL (to_lower d)) (RL n).
Proof.
  unfold wildcard_matches, RL. split.
  - intros [ds [ls [xs [H1 [H2 [H3 H4]]]]]]. apply labels_of_iff in H1, H3. subst ds ls.
    split; auto. rewrite H4, rev_app_distr. now exists (rev xs).
  - intros [H1 [t H2]]. exists (NE (to_lower d)), (NE n), (rev t).
    rewrite !labels_of_iff. repeat split; auto.
    rewrite <- (rev_involutive (NE n)), H2, rev_app_distr, rev_involutive. reflexivity.
Qed.

Lemma proper_name_split n : proper_name n <-> ~ In [] (split_byte dot n).
Proof.
  split.
  - intros [ls [Hne [Hl ->]]]. revert Hne. induction ls as [|l ls IH]; [congruence|]. intros _.
    destruct (Hl l ltac:(now left)) as [Hl1 Hl2].
    destruct ls as [|l' ls].
    + simpl. rewrite split_byte_no by auto. intros [|[]]; congruence.
    + change (dotted (l :: l' :: ls)) with (l ++ dot :: dotted (l' :: ls)).
      rewrite split_byte_app, split_byte_no by auto. intros [H|H]; [congruence|].
      revert H. apply IH; [|discriminate]. intros; apply Hl; now right.
  - intros H. exists (split_byte dot n). split; [apply split_byte_nonempty|]. split.
    + intros l Hin. split; [congruence|]. now apply (split_byte_no_sep dot n).
    + rewrite <- (join_split dot n) at 1.
      assert (forall ls, join [dot] ls = dotted ls) as Hj.
      { induction ls as [|a ls IH]; auto. destruct ls; auto.
        change (join [dot] (a :: l :: ls)) with (a ++ [dot] ++ join [dot] (l :: ls)).
        rewrite IH. reflexivity. }
      apply Hj.
Qed.

Lemma wildcard_matches_proper d n : proper_name (to_lower d) -> proper_name n ->
  (wildcard_matches d n <-> same_or_sub n (to_lower d)).
Proof.
  intros Hd Hn. apply proper_name_split in Hd, Hn. rewrite wildcard_matches_iff.
  rewrite NE_suffix_iff by auto. unfold same_or_sub. split; [tauto|]. intros H. split; auto.
  unfold NE. destruct (split_byte dot (to_lower d)) as [|a l] eqn:E.
  - exfalso. eapply split_byte_nonempty; eauto.
  - simpl. destruct a; [exfalso; apply Hd; now left|]. discriminate.
Qed.

(** ** Wildcards *)

Lemma NE_trim_left k : NE (trim_left dot k) = NE k.
Proof.
  induction k as [|c k IH]; simpl; auto. destruct (Ascii.eqb_spec c dot); auto.
  subst. rewrite IH. change (dot :: k) with ([] ++ dot :: k). rewrite NE_app_dot. reflexivity.
Qed.

Lemma NE_trim_both k : NE (trim dot k) = NE k.
Proof. unfold trim. now rewrite NE_trim, NE_trim_left. Qed.

Lemma to_lower_dot_In a : In dot (to_lower a) <-> In dot a.
Proof.
  unfold to_lower. rewrite in_map_iff. split.
  - intros [x [H1 H2]]. apply lower_ascii_dot in H1. congruence.
  - intros H. exists dot. split; auto.
Qed.

Lemma to_lower_star_In a : In star (to_lower a) <-> In star a.
Proof.
  unfold to_lower. rewrite in_map_iff. split.
  - intros [x [H1 H2]]. apply lower_ascii_star in H1. congruence.
  - intros H. exists star. split; auto.
Qed.

Lemma to_lower_trim_left a : to_lower (trim_left dot a) = trim_left dot (to_lower a).
Proof.
  induction a as [|c a IH]; simpl; auto.
  destruct (Ascii.eqb_spec c dot), (Ascii.eqb_spec (lower_ascii c) dot); auto.
  - subst. exfalso. apply n. reflexivity.
  - apply lower_ascii_dot in e. congruence.
Qed.

Lemma to_lower_trim a : to_lower (trim dot a) = trim dot (to_lower a).
Proof.
  unfold trim, trim_right. rewrite to_lower_rev, to_lower_trim_left, to_lower_rev, to_lower_trim_left.
  reflexivity.
Qed.

Lemma trim_wfk a : wfk (trim dot a).
Proof.
  unfold trim. pose proof (trim_left_hd dot a) as H.
  destruct (trim_right_decomp dot (trim_left dot a)) as [n Hn].
  set (b := trim_left dot a) in *. clearbody b.
  set (c := trim_right dot b) in *. clearbody c. subst b.
  destruct c; simpl in *; auto.
Qed.

Lemma normalize_wildcard_spec d : ~ In star d ->
  normalize_wildcard (star :: dot :: d) = trim dot (to_lower d).
Proof.
  intros H. unfold normalize_wildcard, normalize_entry.
  change (to_lower (star :: dot :: d)) with (star :: dot :: to_lower d).
  simpl trim_left. unfold trim at 1. simpl trim_left. fold (trim dot (to_lower d)).
  rewrite to_lower_trim, to_lower_idem. reflexivity.
Qed.

Lemma wildcard_entry_shape e :
  (count_byte star e =? 0) = false ->
  (negb (has_prefix e $"*.") || (1 <? count_byte star e)) = false ->
  exists d, e = star :: dot :: d /\ ~ In star d.
Proof.
  intros H1 H2. apply orb_false_iff in H2 as [H2 H3]. apply negb_false_iff in H2.
  apply has_prefix_spec in H2 as [d ->]. exists d. split; [reflexivity|].
  simpl in H3. apply Nat.ltb_ge in H3. apply count_byte_0.
  change (S (count_byte star d) <= 1) in H3. lia.
Qed.

Lemma wildcard_shape_entry d : ~ In star d ->
  (count_byte star (star :: dot :: d) =? 0) = false /\
  (negb (has_prefix (star :: dot :: d) $"*.") || (1 <? count_byte star (star :: dot :: d))) = false.
Proof.
  intros H. apply count_byte_0 in H. simpl. rewrite H. split; reflexivity.
Qed.

Definition w_inv (f : wildcard) : Prop := wfC (w_trie f) /\ (w_cnt f = 0 -> w_trie f = empty_trie).

Lemma wf_add_spec f e : w_inv f ->
  w_inv (fst (wf_add_entry f e)) /\
  (snd (wf_add_entry f e) = true <-> In star e) /\
  (forall n, acc (w_trie (fst (wf_add_entry f e))) (RL n) <->
     acc (w_trie f) (RL n) \/
     exists d, e = star :: dot :: d /\ ~ In star d /\ wildcard_matches d n).
Proof.
  intros [Hw Hc]. unfold wf_add_entry.
  destruct (count_byte star e =? 0) eqn:E0.
  { simpl. split; [now split|]. apply Nat.eqb_eq, count_byte_0 in E0. split.
    - split; [discriminate|contradiction].
    - intros n. split; auto. intros [|[d [-> _]]]; auto. exfalso. apply E0. now left. }
  assert (In star e) as Hin.
  { destruct (in_dec Ascii.ascii_dec star e) as [i|i]; auto. apply count_byte_0 in i.
    rewrite i in E0. discriminate. }
  destruct (negb (has_prefix e $"*.") || (1 <? count_byte star e)) eqn:E1.
  { simpl. split; [now split|]. split; [tauto|]. intros n. split; auto.
    intros [|[d [-> [H _]]]]; auto. exfalso.
    destruct (wildcard_shape_entry d H) as [_ H']. congruence. }
  simpl. destruct (wildcard_entry_shape e E0 E1) as [d [-> Hd]].
  rewrite normalize_wildcard_spec by auto.
  destruct (insert_spec (w_trie f) (trim dot (to_lower d)) Hw (trim_wfk _)) as [I1 I2].
  split; [split; simpl; [auto|discriminate]|]. split; [tauto|].
  intros n. rewrite I2. apply or_iff_compat_l.
  assert (RL (trim dot (to_lower d)) = RL (to_lower d)) as HR by (unfold RL; now rewrite NE_trim_both).
  rewrite HR. split.
  - intros [H1 H2]. exists d. split; auto. split; auto. apply wildcard_matches_iff. split; auto.
    intro Hnil. apply (wfk_nonempty_RL _ (trim_wfk _)) in H1. apply H1. unfold RL.
    rewrite NE_trim_both, Hnil. reflexivity.
  - intros [d' [E [_ H]]]. injection E as <-. apply wildcard_matches_iff in H as [H1 H2]. split; auto.
    intro Hnil. apply H1. rewrite <- NE_trim_both, Hnil. reflexivity.
Qed.

Lemma wf_create_contains f n : w_inv f ->
  (match wf_create f with Some c => wc_contains c n | None => false end = true <-> acc (w_trie f) (RL n)).
Proof.
  intros [Hw Hc]. unfold wf_create. destruct (Nat.eqb_spec (w_cnt f) 0).
  - rewrite (Hc e). split; [discriminate|]. intro H. now apply acc_empty in H.
  - unfold wc_contains. now apply has_parent_of_spec.
Qed.

Lemma w_inv_new : w_inv new_wildcard_factory.
Proof. split; simpl; [apply wfC_empty|auto]. Qed.

(** ** Regular expressions *)

Section Regex.
Variable compile : str -> option (str -> bool).

Lemma regex_entry_iff e : regex_entry e <->
  (negb (has_prefix e $"/") || negb (has_suffix e $"/")) = false /\ 2 <= length e.
Proof.
  rewrite orb_false_iff, !negb_false_iff, has_prefix_spec, has_suffix_spec. split.
  - intros [p ->]. split.
    + split; [now exists (p ++ [slash])|]. exists (slash :: p). reflexivity.
    + simpl. rewrite app_length. simpl. lia.
  - intros [[[t ->] [u H]] Hlen].
    change ($"/") with [slash] in *. simpl in *.
    destruct u as [|c u]; simpl in *.
    + injection H as H1. subst t. simpl in Hlen. lia.
    + injection H as H1 H2. subst. now exists u.
Qed.

Lemma regex_strip p : firstn (length (slash :: p ++ [slash]) - 2) (skipn 1 (slash :: p ++ [slash])) = p.
Proof.
  simpl. rewrite app_length. simpl. replace (length p + 1 - 1) with (length p) by lia.
  rewrite firstn_app, Nat.sub_diag, firstn_all. simpl. apply app_nil_r.
Qed.

Definition rc_match_prop (f : regex_cache) (n : str) : Prop := rc_contains compile f n = true.

Lemma rf_add_spec f e : e <> [slash] ->
  exists f' b, rf_add_entry compile f e = Ok (f', b) /\
  (b = true <-> regex_entry e) /\
  (forall n, rc_contains compile f' n = true <->
     rc_contains compile f n = true \/
     exists p m, e = slash :: p ++ [slash] /\ compile (trim_space p) = Some m /\ m n = true).
Proof.
  intros He. unfold rf_add_entry.
  destruct (negb (has_prefix e $"/") || negb (has_suffix e $"/")) eqn:E.
  - exists f, false. split; auto. split.
    + split; [discriminate|]. intro H. apply regex_entry_iff in H as [H _]. congruence.
    + intros n. split; auto. intros [|[p [m [-> _]]]]; auto. exfalso.
      assert (regex_entry (slash :: p ++ [slash])) as H by (now exists p).
      apply regex_entry_iff in H as [H _]. congruence.
  - destruct (Nat.ltb_spec (length e) 2).
    { exfalso. apply orb_false_iff in E as [E _]. apply negb_false_iff, has_prefix_spec in E as [t ->].
      apply He. destruct t; [reflexivity|]. simpl in H. lia. }
    assert (regex_entry e) as Hre by (apply regex_entry_iff; split; auto).
    destruct Hre as [p ->]. rewrite regex_strip.
    destruct (compile (trim_space p)) as [m|] eqn:Ec.
    + eexists _, true. split; [reflexivity|]. split; [split; auto; now exists p|].
      intros n. unfold rc_contains. rewrite existsb_app, orb_true_iff. simpl. rewrite Ec, orb_false_r.
      split; (intros [H1|H1]; [auto|right]).
      * now exists p, m.
      * destruct H1 as [p' [m' [E1 [E2 E3]]]]. injection E1 as E1. apply app_inj_tail in E1 as [-> _].
        congruence.
    + exists f, true. split; auto. split; [split; auto; now exists p|].
      intros n. split; auto. intros [|[p' [m' [E1 [E2 E3]]]]]; auto.
      injection E1 as E1. apply app_inj_tail in E1 as [-> _]. congruence.
Qed.

Lemma rf_create_contains f n :
  match rf_create f with Some c => rc_contains compile c n | None => false end = rc_contains compile f n.
Proof. now destruct f. Qed.

(** ** The three factories together *)

(** Shape of the factories of a list cache, with their invariants. *)
Definition three (r : regex_cache) (w : wildcard) (t : string_factory) : list cache_factory :=
  [CFRegex r; CFWild w; CFString t].

Definition opt_contains (c : option string_cache) (n : str) : bool :=
  match c with Some c => sc_contains compile c n | None => false end.

Definition fs_match (fs : list cache_factory) (n : str) : Prop :=
  exists f, In f fs /\ opt_contains (cf_create f) n = true.

Lemma fs_match_three r w t n : fs_match (three r w t) n <->
  rc_contains compile r n = true
  \/ match wf_create w with Some c => wc_contains c n | None => false end = true
  \/ match sf_create t with Some m => sm_contains m n | None => false end = true.
Proof.
  unfold fs_match, three. rewrite <- (rf_create_contains r n).
  assert (opt_contains (cf_create (CFRegex r)) n = match rf_create r with Some c => rc_contains compile c n | None => false end) as <-
    by (unfold cf_create; now destruct (rf_create r)).
  assert (opt_contains (cf_create (CFWild w)) n = match wf_create w with Some c => wc_contains c n | None => false end) as <-
    by (unfold cf_create; now destruct (wf_create w)).
  assert (opt_contains (cf_create (CFString t)) n = match sf_create t with Some m => sm_contains m n | None => false end) as <-
    by (unfold cf_create; now destruct (sf_create t)).
  split.
  - intros [f [[<-|[<-|[<-|[]]]] H]]; auto.
  - intros [H|[H|H]]; eexists; (split; [|exact H]); simpl; auto.
Qed.

Definition fs_inv (fs : list cache_factory) : Prop :=
  exists r w t, fs = three r w t /\ w_inv w /\ sf_inv t.

Lemma c_add_entry_spec fs e : fs_inv fs -> e <> [slash] ->
  exists fs', c_add_entry compile fs e = Ok (fs', true) /\ fs_inv fs' /\
  forall n, fs_match fs' n <-> fs_match fs n \/ entry_matches compile e n.
Proof.
  intros [r [w [t [-> [Hw Ht]]]]] He.
  destruct (rf_add_spec r e He) as [r' [b [Er [Hb Hr]]]].
  destruct (wf_add_spec w e Hw) as [Hw' [Hbw Hwm]].
  destruct (sf_add_spec t e Ht) as [Ht' Htm].
  unfold three at 1. cbn [c_add_entry cf_add_entry]. rewrite Er.
  assert (Hdisj : forall n, entry_matches compile e n ->
     (regex_entry e -> exists p m, e = slash :: p ++ [slash] /\ compile (trim_space p) = Some m /\ m n = true)).
  { intros n [H|[[H _]|[H _]]] Hre; auto; contradiction. }
  destruct b.
  - exists (three r' w t). split; [reflexivity|]. split; [now exists r', w, t|].
    intros n. rewrite !fs_match_three, Hr. unfold entry_matches. split.
    + intros [[H|H]|[H|H]]; auto.
    + intros [[H|[H|H]]|H]; auto. left; right. apply (Hdisj n); auto. now apply Hb.
  - assert (~ regex_entry e) as Hnre by (intro H; apply Hb in H; discriminate).
    assert (forall n, rc_contains compile r' n = true <-> rc_contains compile r n = true) as Hr'.
    { intros n. rewrite Hr. split; auto. intros [|[p [m [-> _]]]]; auto. exfalso. apply Hnre. now exists p. }
    destruct (wf_add_entry w e) as [w' bw]. cbn [fst snd] in *.
    destruct bw.
    + exists (three r' w' t). split; [reflexivity|]. split; [now exists r', w', t|].
      intros n. rewrite !fs_match_three, Hr'.
      rewrite (wf_create_contains w' n Hw'), (wf_create_contains w n Hw), Hwm. unfold entry_matches.
      split.
      * intros [H|[[H|H]|H]]; auto.
      * intros [[H|[H|H]]|[[p [m [-> _]]]|[[_ H]|[_ [H _]]]]]; auto.
        -- exfalso. apply Hnre. now exists p.
        -- exfalso. apply H. now apply Hbw.
    + assert (~ In star e) as Hns by (intro H; apply Hbw in H; discriminate).
      assert (forall n, acc (w_trie w') (RL n) <-> acc (w_trie w) (RL n)) as Hwm'.
      { intros n. rewrite Hwm. split; auto. intros [|[d [-> _]]]; auto. exfalso. apply Hns. now left. }
      destruct (sf_add_entry t e) as [t' bt] eqn:Est. cbn [fst snd] in *.
      assert (bt = true) as -> by (unfold sf_add_entry in Est; destruct e; congruence).
      exists (three r' w' t'). split; [reflexivity|]. split; [now exists r', w', t'|].
      intros n. rewrite !fs_match_three, Hr'.
      rewrite (wf_create_contains w' n Hw'), (wf_create_contains w n Hw), Hwm'.
      rewrite (sf_create_contains t' n Ht'), (sf_create_contains t n Ht), Htm. unfold entry_matches.
      split.
      * intros [H|[H|[H|[H1 H2]]]]; auto. right; right; right. auto.
      * intros [[H|[H|H]]|[[p [m [-> _]]]|[[_ [d [-> _]]]|[_ [_ [H1 H2]]]]]]; auto.
        -- exfalso. apply Hnre. now exists p.
        -- exfalso. apply Hns. now left.
Qed.

Lemma add_entries_spec es : forall fs has, fs_inv fs -> ~ In [slash] es ->
  exists fs', add_entries compile fs has es = Ok (fs', has || negb (match es with [] => true | _ => false end))
  /\ fs_inv fs' /\
  forall n, fs_match fs' n <-> fs_match fs n \/ list_matches compile es n.
Proof.
  induction es as [|e es IH]; intros fs has Hf Hns; simpl.
  - exists fs. rewrite orb_false_r. split; auto. split; auto.
    intros n. split; auto. intros [|[e [[] _]]]; auto.
  - destruct (c_add_entry_spec fs e Hf) as [fs1 [E1 [I1 M1]]]; [intro; apply Hns; now left|].
    rewrite E1. destruct (IH fs1 (has || true) I1) as [fs2 [E2 [I2 M2]]]; [intro; apply Hns; now right|].
    exists fs2. rewrite E2. split.
    + f_equal. f_equal. destruct has, es; reflexivity.
    + split; auto. intros n. rewrite M2, M1. unfold list_matches. split.
      * intros [[H|H]|[e' [H1 H2]]]; auto; right; eexists; (split; [|eassumption]); simpl; auto.
      * intros [H|[e' [[<-|H1] H2]]]; eauto.
Qed.

Lemma fs_inv_new : fs_inv (three [] new_wildcard_factory new_string_factory).
Proof.
  exists [], new_wildcard_factory, new_string_factory. split; auto. split; [apply w_inv_new|apply sf_inv_new].
Qed.

Lemma fs_match_new n : ~ fs_match (three [] new_wildcard_factory new_string_factory) n.
Proof.
  rewrite fs_match_three. simpl. intros [H|[H|H]]; discriminate.
Qed.

(** ** Grouped caches *)

Definition group_has (c : chained) (grp n : str) : Prop :=
  exists g, In g c /\ opt_contains (mget str_eqb grp (g_caches g)) n = true.

Lemma g_contains_In g n groups x : In x (g_contains compile g n groups) <->
  In x groups /\ opt_contains (mget str_eqb x (g_caches g)) n = true.
Proof. unfold g_contains, opt_contains. rewrite filter_In. reflexivity. Qed.

Lemma bytes_lt_str_lt a b : bytes_lt a b <-> str_lt a b.
Proof.
  unfold str_lt. split.
  - induction 1; simpl; auto.
    + destruct (N.ltb_spec (N_of_ascii c) (N_of_ascii d)); auto; lia.
    + rewrite N.ltb_irrefl, Ascii.eqb_refl. auto.
  - revert b; induction a as [|x a IH]; intros [|y b]; simpl; try discriminate.
    + constructor.
    + destruct (N.ltb_spec (N_of_ascii x) (N_of_ascii y)); [now constructor|].
      destruct (Ascii.eqb_spec x y); [|discriminate]. subst. intros. apply bl_eq. auto.
Qed.

Lemma SSorted_bytes l : StronglySorted str_lt l -> StronglySorted bytes_lt l.
Proof.
  induction 1; constructor; auto. eapply Forall_impl; [|exact H0].
  intros b Hb. now apply bytes_lt_str_lt.
Qed.

Lemma c_contains_spec c n groups :
  sorted_set_of (fun g => In g groups /\ group_has c g n) (c_contains compile c n groups).
Proof.
  unfold c_contains. split.
  - apply SSorted_bytes. apply sorted_NoDup_strict; [apply sort_strs_sorted|].
    apply sort_strs_NoDup, dedup_NoDup.
  - intros x. rewrite sort_strs_In, dedup_In, in_concat. unfold group_has. split.
    + intros [l [Hl Hx]]. apply in_map_iff in Hl as [g [<- Hg]]. apply g_contains_In in Hx as [H1 H2].
      split; auto. now exists g.
    + intros [H1 [g [H2 H3]]]. exists (g_contains compile g n groups). split.
      * apply in_map_iff. now exists g.
      * now apply g_contains_In.
Qed.

Lemma g_finish_get g grp f x : mget str_eqb x (g_caches (g_finish g grp f)) =
  if str_eqb grp x then cf_create f else mget str_eqb x (g_caches g).
Proof.
  unfold g_finish. simpl. destruct (cf_create f) as [sc|].
  - now rewrite mget_mput.
  - destruct (str_eqb_spec grp x).
    + subst. apply mget_mdel_same.
    + now apply mget_mdel_other.
Qed.

Lemma c_finish_other c grp fs x n : grp <> x ->
  (group_has (c_finish c grp fs) x n <-> group_has c x n).
Proof.
  intros Hne. unfold c_finish. generalize (length c) as k. intros k. revert k fs.
  induction c as [|g c IH]; intros [|k] [|f fs]; simpl; try tauto.
  unfold group_has in *. split; intros [g' [[<-|Hin] H]].
  - exists g. rewrite g_finish_get in H. destruct (str_eqb_spec grp x); [congruence|]. simpl; auto.
  - destruct (proj1 (IH k fs)) as [g2 [H1 H2]]; [eauto|]. exists g2. simpl; auto.
  - exists (g_finish g grp f). rewrite g_finish_get. destruct (str_eqb_spec grp x); [congruence|]. simpl; auto.
  - destruct (proj2 (IH k fs)) as [g2 [H1 H2]]; [eauto|]. exists g2. simpl; auto.
Qed.

Lemma c_finish_same c grp fs n : length fs = length c ->
  (group_has (c_finish c grp fs) grp n <-> fs_match fs n).
Proof.
  unfold c_finish. revert fs. induction c as [|g c IH]; intros [|f fs]; simpl; try discriminate.
  - intros _. split; intros [x [[] _]].
  - intros H. injection H as H. specialize (IH fs H). unfold group_has, fs_match in *. split.
    + intros [g' [[<-|Hin] Hg]].
      * rewrite g_finish_get, str_eqb_refl in Hg. exists f. simpl; auto.
      * destruct (proj1 IH) as [f2 [H1 H2]]; [eauto|]. exists f2. simpl; auto.
    + intros [f' [[<-|Hin] Hg]].
      * exists (g_finish g grp f). rewrite g_finish_get, str_eqb_refl. simpl; auto.
      * destruct (proj2 IH) as [g2 [H1 H2]]; [eauto|]. exists g2. simpl; auto.
Qed.

(** A list cache: the three kinds in order. *)
Definition lc_shape (c : chained) : Prop := map g_kind c = [KRegex; KWild; KString].

Lemma lc_shape_new : lc_shape new_list_cache.
Proof. reflexivity. Qed.

Lemma lc_refresh c : lc_shape c -> c_refresh c = three [] new_wildcard_factory new_string_factory.
Proof.
  unfold lc_shape. intros H. unfold c_refresh. rewrite <- (map_map g_kind factory_of), H. reflexivity.
Qed.

Lemma c_finish_kinds c grp fs : map g_kind (c_finish c grp fs) = map g_kind c.
Proof.
  unfold c_finish. generalize (length c) as k. intros k. revert k fs.
  induction c as [|g c IH]; intros [|k] [|f fs]; simpl; auto. now rewrite IH.
Qed.

Lemma lc_shape_length c : lc_shape c -> length c = 3.
Proof. intros H. apply (f_equal (@length _)) in H. now rewrite map_length in H. Qed.

Lemma fs_inv_length fs : fs_inv fs -> length fs = 3.
Proof. intros [r [w [t [-> _]]]]. reflexivity. Qed.

(** Outcome of one group load. *)
Lemma create_cache_spec c grp es err : lc_shape c -> ~ In [slash] es ->
  exists c' failed, create_cache_for_group compile c grp es err = Ok (c', failed) /\
  lc_shape c' /\
  (failed = true <-> err = TransientErr \/ (err = OtherErr /\ es = [])) /\
  (failed = true -> c' = c) /\
  (failed = false -> forall n, group_has c' grp n <-> list_matches compile es n) /\
  (forall x n, x <> grp -> (group_has c' x n <-> group_has c x n)).
Proof.
  intros Hc Hns. unfold create_cache_for_group. rewrite (lc_refresh c Hc).
  destruct (add_entries_spec es (three [] new_wildcard_factory new_string_factory) false fs_inv_new Hns)
    as [fs [E [Hi Hm]]].
  rewrite E. simpl orb.
  assert (Hfin : lc_shape (c_finish c grp fs) /\
    (forall n, group_has (c_finish c grp fs) grp n <-> list_matches compile es n) /\
    (forall x n, x <> grp -> (group_has (c_finish c grp fs) x n <-> group_has c x n))).
  { split; [unfold lc_shape; now rewrite c_finish_kinds|]. split.
    - intros n. rewrite c_finish_same.
      + rewrite Hm. split; auto. intros [H|H]; auto. now apply fs_match_new in H.
      + rewrite (fs_inv_length _ Hi), (lc_shape_length _ Hc). reflexivity.
    - intros. apply c_finish_other. congruence. }
  destruct Hfin as [F1 [F2 F3]].
  destruct err.
  - exists (c_finish c grp fs), false. repeat split; auto; try discriminate; try tauto.
    + intros [|[]]; discriminate.
    + now apply F2.
    + now apply F2.
    + now apply F3.
    + now apply F3.
  - exists c, true. repeat split; auto; try discriminate; try tauto.
  - destruct es as [|e es]; simpl negb.
    + exists c, true. repeat split; auto; try discriminate; try tauto.
    + exists (c_finish c grp fs), false. repeat split; auto; try discriminate; try tauto.
      * intros [|[]]; discriminate.
      * now apply F2.
      * now apply F2.
      * now apply F3.
      * now apply F3.
Qed.

End Regex.

(** ** Histories *)

Section History.
Variable compile : str -> option (str -> bool).

Definition no_bare_slash (hist : list (str * (list str * load_err))) : Prop :=
  forall g es o, In (g, (es, o)) hist -> ~ In [slash] es.

Lemma run_loads_app c h1 h2 : run_loads compile c (h1 ++ h2) =
  match run_loads compile c h1 with Ok c' => run_loads compile c' h2 | Panic => Panic end.
Proof.
  revert c; induction h1 as [|[g [es o]] h1 IH]; intros c; simpl; auto.
  destruct (create_cache_for_group compile c g es o) as [[c' b]|]; auto.
Qed.

Lemma content_fun hist g es1 es2 : content hist g es1 -> content hist g es2 -> es1 = es2.
Proof.
  intros H. revert es2. induction H; intros es2 H2; inversion H2; subst;
    match goal with E : _ ++ [_] = _ ++ [_] |- _ => apply app_inj_tail in E as [-> E]; injection E; intros; subst end;
    try congruence; try contradiction; auto.
Qed.

Lemma content_nil g es : ~ content [] g es.
Proof. inversion 1; destruct hist; discriminate. Qed.

Lemma content_snoc hist g' es' o g es : content (hist ++ [(g', (es', o))]) g es <->
  (g' = g /\ takes_effect o es' /\ es = es') \/
  (g' = g /\ ~ takes_effect o es' /\ content hist g es) \/
  (g' <> g /\ content hist g es).
Proof.
  split.
  - inversion 1; subst;
      match goal with E : _ ++ [_] = _ ++ [_] |- _ => apply app_inj_tail in E as [-> E]; injection E; intros; subst end;
      auto.
  - intros [[-> [H1 ->]]|[[-> [H1 H2]]|[H1 H2]]]; [now constructor|now constructor|].
    now apply content_other.
Qed.

Lemma run_loads_spec hist : no_bare_slash hist ->
  exists c, run_loads compile new_list_cache hist = Ok c /\ lc_shape c /\
  forall g n, group_has compile c g n <-> exists es, content hist g es /\ list_matches compile es n.
Proof.
  induction hist as [|[g' [es' o]] hist IH] using rev_ind; intros Hns.
  - exists new_list_cache. split; auto. split; [apply lc_shape_new|]. intros g n. split.
    + intros [x [[<-|[<-|[<-|[]]]] H]]; simpl in H; discriminate.
    + intros [es [H _]]. now apply content_nil in H.
  - destruct IH as [c [E [Hs Hm]]].
    { intros g es o' Hin. apply (Hns g es o'). apply in_app_iff; auto. }
    rewrite run_loads_app, E. simpl.
    destruct (create_cache_spec compile c g' es' o Hs) as [c' [failed [E' [Hs' [Hf [Hsame [Hnew Hother]]]]]]].
    { apply (Hns g' es' o). apply in_app_iff. right. now left. }
    rewrite E'. exists c'. split; auto. split; auto.
    assert (failed = true <-> ~ takes_effect o es') as Hft.
    { rewrite Hf. unfold takes_effect. destruct o; simpl; split.
      - intros [H|[H _]]; discriminate.
      - intros H. exfalso. apply H. now left.
      - intros _ [H|[H _]]; discriminate.
      - intros _. now left.
      - intros [H|[_ H]]; [discriminate|]. intros [H1|[_ H1]]; [discriminate|contradiction].
      - intros H. right. split; auto. destruct es'; auto. exfalso. apply H. right. split; auto. discriminate. }
    intros g n. destruct (str_eq_dec g' g) as [->|Hne].
    + destruct failed.
      * assert (c' = c) as -> by auto. rewrite Hm. split; intros [es [H1 H2]]; exists es; split; auto.
        -- apply content_snoc. right; left. split; auto. split; auto. now apply Hft.
        -- apply content_snoc in H1 as [[_ [H1 _]]|[[_ [_ H1]]|[H1 _]]]; auto; [|congruence].
           exfalso. apply (proj1 Hft eq_refl). exact H1.
      * rewrite (Hnew eq_refl). 
        assert (takes_effect o es') as Ht.
        { destruct o; [now left| |].
          - exfalso. assert (false = true); [|discriminate]. apply Hft. intros [H|[H _]]; discriminate.
          - destruct es' as [|e es'].
            + exfalso. assert (false = true); [|discriminate]. apply Hft.
              intros [H|[_ H]]; [discriminate|congruence].
            + right. split; auto. discriminate. }
        split.
        -- intros H. exists es'. split; auto. apply content_snoc. left. auto.
        -- intros [es [H1 H2]].
           apply content_snoc in H1 as [[_ [_ ->]]|[[_ [H1 _]]|[H1 _]]]; auto; [contradiction|congruence].
    + rewrite Hother by congruence. rewrite Hm. split; intros [es [H1 H2]]; exists es; split; auto.
      * apply content_snoc. auto.
      * apply content_snoc in H1 as [[H1 _]|[[H1 _]|[_ H1]]]; auto; congruence.
Qed.

End History.

(** ** Lookups during a refresh *)

Section During.
Variable compile : str -> option (str -> bool).

Lemma nth_finish_upto k : forall c grp fs i, length fs = length c ->
  nth_error (c_finish_upto k c grp fs) i =
  if i <? k then nth_error (c_finish c grp fs) i else nth_error c i.
Proof.
  unfold c_finish. induction k as [|k IH]; intros c grp fs i Hl; simpl; auto.
  destruct c as [|g c], fs as [|f fs]; try discriminate.
  - simpl. now destruct (i <? S k), i.
  - destruct i as [|i]; simpl; auto. rewrite IH by (simpl in Hl; congruence). reflexivity.
Qed.

Lemma during_In k c grp fs x g groups : length fs = length c ->
  (In g (c_contains_during compile k c grp fs x groups) <->
   In g groups /\ exists i h,
     nth_error (if i <? k i then c_finish c grp fs else c) i = Some h /\
     opt_contains compile (mget str_eqb g (g_caches h)) x = true).
Proof.
  intros Hl. unfold c_contains_during. rewrite sort_strs_In, dedup_In, in_concat. split.
  - intros [l [H1 H2]]. apply in_map_iff in H1 as [i [<- Hi]].
    rewrite nth_finish_upto in H2 by auto.
    destruct (if i <? k i then nth_error (c_finish c grp fs) i else nth_error c i) as [h|] eqn:E; [|destruct H2].
    apply g_contains_In in H2 as [H2 H3]. split; auto. exists i, h. split; auto.
    now destruct (i <? k i).
  - intros [H1 [i [h [H2 H3]]]].
    assert (length (c_finish c grp fs) = length c) as Hlen.
    { rewrite <- !(map_length g_kind). now rewrite c_finish_kinds. }
    exists (g_contains compile h x groups). split.
    + apply in_map_iff. exists i. rewrite nth_finish_upto by auto. split.
      * destruct (i <? k i); now rewrite H2.
      * apply in_seq. assert (nth_error (if i <? k i then c_finish c grp fs else c) i <> None) as Hn by congruence.
        apply nth_error_Some in Hn. destruct (i <? k i); lia.
    + now apply g_contains_In.
Qed.

Lemma during_partial k c grp fs x : length fs = length c ->
  (In grp (c_contains_during compile k c grp fs x [grp]) ->
     group_has compile c grp x \/ group_has compile (c_finish c grp fs) grp x) /\
  ((exists i h h', nth_error c i = Some h /\ nth_error (c_finish c grp fs) i = Some h' /\
      opt_contains compile (mget str_eqb grp (g_caches h)) x = true /\
      opt_contains compile (mget str_eqb grp (g_caches h')) x = true) ->
     In grp (c_contains_during compile k c grp fs x [grp])).
Proof.
  intros Hl. rewrite during_In by auto. split.
  - intros [_ [i [h [H1 H2]]]]. destruct (i <? k i); [right|left];
      exists h; split; auto; eapply nth_error_In; eauto.
  - intros [i [h [h' [H1 [H2 [H3 H4]]]]]]. split; [now left|].
    destruct (i <? k i) eqn:E; [exists i, h'|exists i, h]; now rewrite E.
Qed.

End During.
