(** Lemmas about the trie model. *)
From Coq Require Import String Ascii List Arith Bool Lia.
From Verif Require Import Str StrFacts Trie.
Import ListNotations.

Definition nonempty (a : str) : bool := match a with [] => false | _ => true end.

(** Non-empty labels of a name, from left to right. *)
Definition NE (k : str) : list str := filter nonempty (split_byte dot k).

Definition RL (k : str) : list str := rev (NE k).

(** A key as left over by [normalizeWildcard] and by splitting: empty, or not
    starting with a dot. *)
Definition wfk (k : str) : Prop := match k with [] => True | c :: _ => c <> dot end.

Definition pre (a b : list str) : Prop := exists t, b = a ++ t.

Lemma NE_app_dot a b : NE (a ++ dot :: b) = NE a ++ NE b.
Proof. unfold NE. rewrite split_byte_app. apply filter_app. Qed.

Lemma NE_trim k : NE (trim_right dot k) = NE k.
Proof.
  destruct (trim_right_decomp dot k) as [n H]. rewrite H at 2.
  generalize (trim_right dot k) as a. clear. intro a.
  induction n; simpl.
  - now rewrite app_nil_r.
  - replace (dot :: repeat dot n) with (repeat dot n ++ [dot]).
    + rewrite app_assoc, NE_app_dot. cbn. now rewrite app_nil_r.
    + clear. induction n; simpl; auto. now f_equal.
Qed.

Lemma NE_nodot k : ~ In dot k -> NE k = if nonempty k then [k] else [].
Proof. intro H. unfold NE. rewrite split_byte_no by auto. simpl. now destruct k. Qed.

Lemma last_index_None c a : last_index_byte c a = None <-> ~ In c a.
Proof.
  unfold last_index_byte. destruct (index_byte c (rev a)) as [i|] eqn:E.
  - split; [discriminate|]. intro H. exfalso.
    assert (index_byte c (rev a) = None) by (apply index_byte_None; rewrite <- in_rev; auto). congruence.
  - apply index_byte_None in E. rewrite <- in_rev in E. tauto.
Qed.

Lemma last_index_Some c a i :
  last_index_byte c a = Some i ->
  a = firstn i a ++ c :: skipn (S i) a /\ ~ In c (skipn (S i) a) /\ i < length a.
Proof.
  unfold last_index_byte. destruct (index_byte c (rev a)) as [j|] eqn:E; [|discriminate].
  intros H. injection H as <-. apply index_byte_Some in E as [H1 [H2 H3]].
  rewrite rev_length in H3.
  set (u := firstn j (rev a)) in *. set (v := skipn (S j) (rev a)) in *.
  assert (length u = j) as Hu by (unfold u; rewrite firstn_length, rev_length; lia).
  assert (a = rev v ++ c :: rev u) as Ha.
  { rewrite <- (rev_involutive a), H1, rev_app_distr. simpl. now rewrite <- app_assoc. }
  assert (length (rev v) = length a - 1 - j) as Hv.
  { apply (f_equal (@length _)) in Ha. rewrite app_length in Ha. simpl in Ha.
    rewrite !rev_length, Hu in Ha. rewrite rev_length. lia. }
  rewrite <- Hv. rewrite Ha.
  assert (firstn (length (rev v)) (rev v ++ c :: rev u) = rev v) as ->.
  { rewrite firstn_app, Nat.sub_diag, firstn_all. simpl. apply app_nil_r. }
  assert (skipn (S (length (rev v))) (rev v ++ c :: rev u) = rev u) as ->.
  { rewrite skipn_app. rewrite skipn_all2 by lia.
    replace (S (length (rev v)) - length (rev v)) with 1 by lia. reflexivity. }
  split; [reflexivity|]. split; [now rewrite <- in_rev|]. rewrite app_length. simpl. lia.
Qed.

(** The effect of [SplitTLD] on the labels. *)
Lemma split_tld_cases k l r : split_tld k = (l, r) ->
  (l = [] /\ r = [] /\ RL k = []) \/
  (l <> [] /\ RL k = l :: RL r /\ length r < length k).
Proof.
  unfold split_tld. intros H.
  pose proof (trim_right_length dot k) as Hlen.
  pose proof (NE_trim k) as HNE. unfold RL. rewrite <- HNE.
  destruct (last_index_byte dot (trim_right dot k)) as [i|] eqn:E.
  - apply pair_equal_spec in H as [Hl Hr]. apply last_index_Some in E as [H1 [H2 H3]].
    set (k' := trim_right dot k) in *. rewrite <- Hl, <- Hr.
    set (b := skipn (S i) k') in *. set (a := firstn i k') in *.
    right. assert (b <> []) as Hb.
    { intro Hb. rewrite Hb in H1.
      eapply (trim_right_last dot k a dot); [|reflexivity]. exact H1. }
    assert (length a < length k) as Ha by (unfold a; rewrite firstn_length; lia).
    split; auto. split; auto. clearbody a b k'.
    rewrite H1, NE_app_dot, (NE_nodot b) by auto.
    rewrite rev_app_distr. destruct b; [congruence|reflexivity].
  - injection H as <- <-. apply last_index_None in E.
    rewrite NE_nodot by auto. destruct (trim_right dot k) eqn:Ek.
    + left. auto.
    + right. split; [discriminate|]. split; [reflexivity|]. simpl in *. lia.
Qed.

Lemma wfk_nonempty_RL k : wfk k -> k <> [] -> RL k <> [].
Proof.
  destruct k as [|c k]; [congruence|]. simpl. intros Hc _.
  unfold RL, NE. simpl. destruct (Ascii.eqb_spec c dot); [congruence|].
  destruct (split_byte dot k); simpl; intro H; apply (f_equal (@length _)) in H;
    rewrite ?app_length in H; simpl in H; lia.
Qed.

Lemma split_tld_wf k l r : wfk k -> split_tld k = (l, r) -> wfk r.
Proof.
  unfold split_tld. intros Hk.
  destruct (last_index_byte dot (trim_right dot k)) as [i|] eqn:E; intro H; injection H as <- <-.
  - apply last_index_Some in E as [H1 [H2 H3]].
    destruct (trim_right_decomp dot k) as [n Hn].
    set (k' := trim_right dot k) in *.
    destruct (firstn i k') as [|c a] eqn:Ea; simpl; auto.
    rewrite H1 in Hn. rewrite Hn in Hk. simpl in Hk. exact Hk.
  - exact I.
Qed.

Lemma split_tld_wf_label k l r : wfk k -> k <> [] -> split_tld k = (l, r) ->
  l <> [] /\ RL k = l :: RL r /\ length r < length k /\ wfk r.
Proof.
  intros H1 H2 H3. pose proof (split_tld_wf _ _ _ H1 H3).
  destruct (split_tld_cases _ _ _ H3) as [[-> [-> HR]]|[? [? ?]]].
  - exfalso. exact (wfk_nonempty_RL _ H1 H2 HR).
  - auto.
Qed.

Lemma pre_nil l : pre [] l.
Proof. now exists l. Qed.

Lemma pre_cons x a y b : pre (x :: a) (y :: b) <-> x = y /\ pre a b.
Proof.
  split.
  - intros [t H]. injection H as -> ->. split; auto. now exists t.
  - intros [-> [t ->]]. now exists t.
Qed.

Lemma pre_cons_nil x a : ~ pre (x :: a) [].
Proof. intros [t H]. discriminate. Qed.

Lemma RL_nil : RL [] = [].
Proof. reflexivity. Qed.

Lemma term_loop_spec fuel : forall t key, wfk t -> t <> [] -> length t < fuel ->
  (term_loop fuel t key = true <-> pre (RL t) (RL key)).
Proof.
  induction fuel as [|fuel IH]; intros t key Hw Hne Hf; [lia|]. simpl.
  destruct (split_tld t) as [tl tr] eqn:Et. destruct (split_tld key) as [sl sr] eqn:Es.
  destruct (split_tld_wf_label _ _ _ Hw Hne Et) as [Htl [HRt [Hlt Hwr]]]. rewrite HRt.
  destruct (split_tld_cases _ _ _ Es) as [[-> [-> HRs]]|[Hsl [HRs Hls]]]; rewrite HRs.
  - destruct (str_eqb_spec [] tl); [congruence|]. simpl. split; [discriminate|].
    intro H. now apply pre_cons_nil in H.
  - rewrite pre_cons. destruct (str_eqb_spec sl tl); simpl; [|split; [discriminate|intros [? ?]; congruence]].
    subst. destruct tr as [|c tr].
    + split; [|auto]. intros _. split; auto. apply pre_nil.
    + assert (RL (c :: tr) <> []) as Hnn by (apply wfk_nonempty_RL; auto; discriminate).
      destruct sr as [|c' sr].
      * split; [discriminate|]. intros [_ [t' H]]. rewrite RL_nil in H. symmetry in H.
        apply app_eq_nil in H as [H _]. contradiction.
      * rewrite IH; auto; [tauto|discriminate|simpl in *; lia].
Qed.

Lemma term_has_parent_of_spec t key : wfk t ->
  (term_has_parent_of t key = true <-> pre (RL t) (RL key)).
Proof.
  intros Hw. unfold term_has_parent_of. destruct t as [|c t].
  - split; auto. intros _. apply pre_nil.
  - apply term_loop_spec; auto. discriminate.
Qed.

(** The label lists accepted by a trie. *)
Inductive acc : children_t -> list str -> Prop :=
| acc_term ch l ls t : mget str_eqb l ch = Some (Terminal t) -> pre (RL t) ls -> acc ch (l :: ls)
| acc_par ch l ls c : mget str_eqb l ch = Some (Parent c) -> acc c ls -> acc ch (l :: ls).

Inductive wfN : node -> Prop :=
| wfN_term t : wfk t -> wfN (Terminal t)
| wfN_par ch : (forall l n, mget str_eqb l ch = Some n -> l <> [] /\ wfN n) -> wfN (Parent ch).

Definition wfC (ch : children_t) : Prop := forall l n, mget str_eqb l ch = Some n -> l <> [] /\ wfN n.

Lemma acc_term_iff ch l t ls : mget str_eqb l ch = Some (Terminal t) -> (acc ch (l :: ls) <-> pre (RL t) ls).
Proof.
  intros E. split.
  - inversion 1; subst; congruence.
  - intros. eapply acc_term; eauto.
Qed.

Lemma acc_par_iff ch l c ls : mget str_eqb l ch = Some (Parent c) -> (acc ch (l :: ls) <-> acc c ls).
Proof.
  intros E. split.
  - inversion 1; subst; congruence.
  - intros. eapply acc_par; eauto.
Qed.

Lemma acc_none ch l ls : mget str_eqb l ch = None -> ~ acc ch (l :: ls).
Proof. intros E. inversion 1; subst; congruence. Qed.

Lemma acc_nil ch : ~ acc ch [].
Proof. inversion 1. Qed.

Lemma parent_loop_spec fuel : forall ch key, wfC ch -> length key < fuel ->
  (parent_loop fuel ch key = true <-> acc ch (RL key)).
Proof.
  induction fuel as [|fuel IH]; intros ch key Hw Hf; [lia|]. simpl.
  destruct (split_tld key) as [l r] eqn:Es.
  destruct (split_tld_cases _ _ _ Es) as [[-> [-> HR]]|[Hl [HR Hlen]]]; rewrite HR.
  - destruct (mget str_eqb [] ch) as [n|] eqn:E.
    + apply Hw in E as [? _]. congruence.
    + split; [discriminate|]. inversion 1.
  - destruct (mget str_eqb l ch) as [[t|c]|] eqn:E.
    + destruct (Hw _ _ E) as [_ Hn]. inversion Hn; subst.
      rewrite term_has_parent_of_spec by auto. now rewrite (acc_term_iff _ _ t).
    + destruct (Hw _ _ E) as [_ Hn]. inversion Hn; subst.
      destruct r as [|x r].
      * split; [discriminate|]. rewrite (acc_par_iff _ _ c) by auto. intro H. now apply acc_nil in H.
      * rewrite IH; auto; [|lia]. now rewrite (acc_par_iff _ _ c).
    + split; [discriminate|]. inversion 1; subst; congruence.
Qed.

Lemma has_parent_of_spec ch key : wfC ch -> (has_parent_of ch key = true <-> acc ch (RL key)).
Proof. intros. apply parent_loop_spec; auto. Qed.

Lemma wfC_mput ch l n : wfC ch -> l <> [] -> wfN n -> wfC (mput str_eqb l n ch).
Proof.
  intros H Hl Hn l' n'. rewrite mget_mput. destruct (str_eqb_spec l l').
  - intros E. injection E as <-. subst; auto.
  - apply H.
Qed.

Lemma acc_mput_other ch l n l' ls : l <> l' -> (acc (mput str_eqb l n ch) (l' :: ls) <-> acc ch (l' :: ls)).
Proof.
  intros Hne. pose proof (mget_mput_other l l' n ch Hne) as E.
  destruct (mget str_eqb l' ch) as [[t|c]|] eqn:E'.
  - now rewrite !(acc_term_iff _ _ t).
  - now rewrite !(acc_par_iff _ _ c).
  - split; intro H; apply acc_none in H; tauto.
Qed.

Lemma insert_loop_spec fuel : forall ch key, wfC ch -> wfk key -> key <> [] -> length key < fuel ->
  wfC (insert_loop fuel ch key) /\
  (forall ls, acc (insert_loop fuel ch key) ls <-> acc ch ls \/ pre (RL key) ls).
Proof.
  induction fuel as [|fuel IH]; intros ch key Hw Hk Hne Hf; [lia|]. simpl.
  destruct (split_tld key) as [l r] eqn:Es.
  destruct (split_tld_wf_label _ _ _ Hk Hne Es) as [Hl [HR [Hlen Hr]]]. rewrite HR.
  (* the cases in which a terminal is stored *)
  assert (Hput : forall (Hsub : forall ls, acc ch (l :: ls) -> pre (RL r) ls),
    wfC (mput str_eqb l (Terminal r) ch) /\
    (forall ls, acc (mput str_eqb l (Terminal r) ch) ls <-> acc ch ls \/ pre (l :: RL r) ls)).
  { intros Hsub. split.
    - apply wfC_mput; auto. now constructor.
    - intros [|l' ls].
      + split; [inversion 1|]. intros [H|H]; [inversion H|now apply pre_cons_nil in H].
      + destruct (str_eq_dec l l').
        * subst. rewrite (acc_term_iff _ _ r) by apply mget_mput_same. rewrite pre_cons.
          split; [tauto|]. intros [H|[_ H]]; auto.
        * rewrite acc_mput_other by auto. rewrite pre_cons. tauto. }
  assert (Hpar : forall c p, mget str_eqb l ch = Some c ->
    wfC p -> r <> [] ->
    (forall ls, acc ch (l :: ls) <-> acc p ls) ->
    wfC (mput str_eqb l (Parent (insert_loop fuel p r)) ch) /\
    (forall ls, acc (mput str_eqb l (Parent (insert_loop fuel p r)) ch) ls
                <-> acc ch ls \/ pre (l :: RL r) ls)).
  { intros c p Hc Hp Hrn Heq. destruct (IH p r Hp Hr Hrn ltac:(lia)) as [I1 I2]. split.
    - apply wfC_mput; auto. now constructor.
    - intros [|l' ls].
      + split; [inversion 1|]. intros [H|H]; [inversion H|now apply pre_cons_nil in H].
      + destruct (str_eq_dec l l').
        * subst. rewrite (acc_par_iff _ _ (insert_loop fuel p r)) by apply mget_mput_same.
          rewrite pre_cons, I2, Heq. tauto.
        * rewrite acc_mput_other by auto. rewrite pre_cons. tauto. }
  destruct (mget str_eqb l ch) as [n|] eqn:E.
  - destruct r as [|x r].
    { assert (forall n', match n' with Terminal _ => mput str_eqb l (Terminal []) ch
                         | Parent _ => mput str_eqb l (Terminal []) ch end = mput str_eqb l (Terminal []) ch)
        as Hsame by (now intros []).
      assert (G : wfC (mput str_eqb l (Terminal []) ch) /\
        (forall ls, acc (mput str_eqb l (Terminal []) ch) ls <-> acc ch ls \/ pre (l :: RL []) ls)).
      { apply Hput. intros. apply pre_nil. }
      destruct n; exact G. }
    destruct (Hw _ _ E) as [_ Hn]. destruct n as [t|c]; inversion Hn; subst.
    + destruct (term_has_parent_of t (x :: r)) eqn:Et.
      * apply term_has_parent_of_spec in Et; auto. split; auto.
        intros ls. split; [tauto|]. intros [H|[u H]]; auto. subst.
        simpl. eapply acc_term; eauto. destruct Et as [v Hv]. rewrite Hv.
        exists (v ++ u). now rewrite app_assoc.
      * destruct t as [|y t].
        { simpl in Et. discriminate. }
        destruct (split_tld (y :: t)) as [l2 r2] eqn:E2.
        destruct (split_tld_wf_label (y :: t) l2 r2 ltac:(auto) ltac:(discriminate) E2) as [Hl2 [HR2 [Hlen2 Hr2]]].
        apply (Hpar (Terminal (y :: t))); auto; try discriminate.
        -- intros l0 n0. simpl. destruct (str_eqb_spec l0 l2); [|discriminate].
           intros Hx. injection Hx as <-. subst. split; auto. now constructor.
        -- intros ls. rewrite (acc_term_iff _ _ (y :: t)) by auto. rewrite HR2.
           destruct ls as [|l0 ls].
           ++ split; [intro H; now apply pre_cons_nil in H|inversion 1].
           ++ rewrite pre_cons. split.
              ** intros [<- H]. eapply acc_term; eauto. simpl. now rewrite str_eqb_refl.
              ** destruct (str_eq_dec l0 l2) as [->|Hd].
                 --- rewrite (acc_term_iff _ _ r2) by (simpl; now rewrite str_eqb_refl). auto.
                 --- intro H. exfalso. revert H. apply acc_none. simpl.
                     destruct (str_eqb_spec l0 l2); congruence.
    + apply (Hpar (Parent c)); auto; try discriminate.
      intros ls. now apply acc_par_iff.
  - assert (G : wfC (mput str_eqb l (Terminal r) ch) /\
        (forall ls, acc (mput str_eqb l (Terminal r) ch) ls <-> acc ch ls \/ pre (l :: RL r) ls)).
    { apply Hput. intros ls H. now apply acc_none in H. }
    destruct r; exact G.
Qed.

Lemma insert_spec ch key : wfC ch -> wfk key ->
  wfC (insert ch key) /\
  (forall ls, acc (insert ch key) ls <-> acc ch ls \/ (key <> [] /\ pre (RL key) ls)).
Proof.
  intros Hw Hk. unfold insert. destruct key as [|c key].
  - split; auto. intros. intuition congruence.
  - destruct (insert_loop_spec (S (length (c :: key))) ch (c :: key)) as [H1 H2];
      auto; try discriminate. split; auto. intros ls. rewrite H2.
    intuition discriminate.
Qed.

Lemma wfC_empty : wfC empty_trie.
Proof. intros l n. simpl. discriminate. Qed.

Lemma acc_empty ls : ~ acc empty_trie ls.
Proof. inversion 1; subst; simpl in *; discriminate. Qed.

(** ** From labels to strings *)

Lemma NE_suffix_iff n d :
  ~ In [] (split_byte dot n) -> ~ In [] (split_byte dot d) ->
  (pre (RL d) (RL n) <-> n = d \/ exists p, n = p ++ dot :: d).
Proof.
  intros Hn Hd.
  assert (forall k, ~ In [] (split_byte dot k) -> NE k = split_byte dot k) as Hall.
  { intros k H. unfold NE. generalize dependent (split_byte dot k). intro l; induction l as [|a l IH]; simpl; auto.
    intros H. destruct a; [exfalso; auto|]. simpl. f_equal. apply IH. intuition. }
  unfold RL. rewrite (Hall n), (Hall d) by auto. split.
  - intros [t H].
    assert (split_byte dot n = rev t ++ split_byte dot d) as H'.
    { rewrite <- (rev_involutive (split_byte dot n)), H, rev_app_distr, rev_involutive. reflexivity. }
    pose proof (join_split dot n) as Jn. pose proof (join_split dot d) as Jd.
    rewrite H' in Jn. destruct (rev t) as [|x u].
    + left. simpl in Jn. congruence.
    + right. exists (join [dot] (x :: u)). rewrite <- Jn.
      assert (forall (l1 l2 : list str), l1 <> [] -> l2 <> [] ->
        join [dot] (l1 ++ l2) = join [dot] l1 ++ dot :: join [dot] l2) as Hj.
      { induction l1 as [|a l1 IH]; intros l2 H1 H2; [congruence|].
        destruct l1 as [|b l1].
        - simpl. destruct l2; [congruence|]. reflexivity.
        - change ((a :: b :: l1) ++ l2) with (a :: (b :: l1) ++ l2).
          specialize (IH l2 ltac:(discriminate) H2).
          change (join [dot] (a :: b :: l1)) with (a ++ [dot] ++ join [dot] (b :: l1)).
          replace (join [dot] (a :: (b :: l1) ++ l2)) with (a ++ [dot] ++ join [dot] ((b :: l1) ++ l2)).
          + rewrite IH. rewrite <- !app_assoc. reflexivity.
          + reflexivity. }
      rewrite Hj, Jd; auto; [discriminate|apply split_byte_nonempty].
  - intros [->|[p ->]].
    + exists []. now rewrite app_nil_r.
    + rewrite split_byte_app, rev_app_distr. now exists (rev (split_byte dot p)).
Qed.
