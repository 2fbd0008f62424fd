(** Lemmas about the blocking resolver. *)
From Coq Require Import String Ascii List Arith Bool NArith ZArith Lia Permutation Sorted.
From Verif Require Import Str StrFacts ParsersSpec ParsersProofs StringCacheSpec StringCacheProofs ExpCache Dns Resolver CachingSpec CachingProofs Blocking BlockingSpec.
Import ListNotations.

(** ** Names *)

Lemma lowered_iff s low : lowered s low <-> low = to_lower s.
Proof.
  unfold lowered. split.
  - intros [H1 H2]. apply to_lower_same in H1. rewrite H1. symmetry. now apply lower_of_no_upper.
  - intros ->. split.
    + apply to_lower_same. now rewrite to_lower_idem.
    + apply Forall_forall. intros c H. apply in_map_iff in H as [x [<- _]]. apply lower_no_upper.
Qed.

Lemma plain_name_iff raw n : plain_name raw n <-> n = extract_domain_only raw.
Proof.
  unfold plain_name. destruct (extract_domain_without_dot raw) as [s [H1 H2]]. split.
  - intros [s' [G1 G2]]. apply lowered_iff in G2. rewrite H2, G2. f_equal. eapply without_dot_fun; eauto.
  - intros ->. exists s. split; auto. now apply lowered_iff.
Qed.

Lemma comma_part_iff s p : comma_part s p <-> In p (split_byte comma s).
Proof.
  unfold comma_part. change ","%char with comma. change ($",") with [comma]. split.
  - intros [Hn [pre [post [-> [H1 H2]]]]].
    assert (forall t, (t = [] \/ exists x, t = [comma] ++ x) -> In p (split_byte comma (p ++ t))) as Hp.
    { intros t [-> |[x ->]].
      - rewrite app_nil_r, split_byte_no by auto. now left.
      - simpl. rewrite split_byte_app, (split_byte_no _ p) by auto. now left. }
    destruct H1 as [-> |[x ->]]; [now apply Hp|]. rewrite <- app_assoc. simpl. rewrite split_byte_app.
    apply in_or_app. right. now apply Hp.
  - intros H. split; [eapply split_byte_no_sep; eauto|].
    apply in_split in H as [l1 [l2 E]]. pose proof (join_split comma s) as J. rewrite E in J. rewrite <- J.
    assert (exists post, join [comma] (p :: l2) = p ++ post /\ (post = [] \/ exists x, post = [comma] ++ x)) as [post [E2 H2]].
    { simpl. destruct l2; [exists []; rewrite app_nil_r; auto|]. eexists. split; [reflexivity|]. right. simpl. eauto. }
    destruct l1 as [|a l1].
    + exists [], post. simpl app. rewrite E2. auto.
    + exists (join [comma] (a :: l1) ++ [comma]), post. split; [|split; auto; right; eauto].
      rewrite <- app_assoc, <- E2. clear. revert a. induction l1 as [|b l1 IH]; intros a; simpl; auto.
      rewrite <- !app_assoc. f_equal. simpl. f_equal. exact (IH b).
Qed.

Lemma trimmed_iff s t : trimmed s t <-> t = trim_space s.
Proof.
  rewrite trim_space_tsr. split.
  - intros [a [b [-> [Ha [Hb [-> |[[c [r [E Hc]]] He]]]]]]]; rewrite tsl_blank by auto.
    + simpl. rewrite <- (app_nil_r b), tsl_blank by auto. reflexivity.
    + rewrite E at 2. simpl app. rewrite tsl_ink by (exists c, (r ++ b); auto).
      change (c :: r ++ b) with ((c :: r) ++ b). rewrite <- E. rewrite tsr_blank by auto. symmetry. apply tsr_ink. exact He.
  - intros ->. destruct (tsl_cases s) as [a [y [-> [Ha [-> Hy]]]]]. unfold tsr.
    destruct (tsl_cases (rev y)) as [b [z [E [Hb [-> Hz]]]]].
    assert (y = rev z ++ rev b) as Ey by (rewrite <- rev_app_distr, <- E; now rewrite rev_involutive).
    exists a, (rev b). rewrite <- Ey. split; auto. split; auto. split; [now apply blank_rev|].
    destruct Hz as [-> |Hz]; [now left|]. right. split; [|apply ends_ink_rev; now rewrite rev_involutive].
    destruct Hz as [c [r [-> Hc]]]. simpl in *. destruct Hy as [-> |Hy].
    + destruct b; discriminate.
    + destruct Hy as [c' [r' [-> Hc']]]. destruct (rev r ++ [c]) as [|x l] eqn:El; [destruct (rev r); discriminate|].
      injection Ey as -> _. eauto.
Qed.

Lemma In_repeat {A} (x y : A) n : In x (repeat y n) -> x = y.
Proof. apply repeat_spec. Qed.

(** Remove the outermost separators around a character that is none. *)
Lemma trim_left_app c a x b : x <> c -> exists a', trim_left c (a ++ x :: b) = a' ++ x :: b.
Proof.
  intros Hx. induction a as [|y a [a' IH]]; simpl.
  - exists []. destruct (Ascii.eqb_spec x c); [contradiction|reflexivity].
  - destruct (Ascii.eqb y c); [eauto|]. now exists (y :: a).
Qed.

Lemma trim_right_app c a x b : x <> c -> exists b', trim_right c (a ++ x :: b) = a ++ x :: b'.
Proof.
  intros Hx. unfold trim_right. rewrite rev_app_distr. simpl. rewrite <- app_assoc. simpl.
  destruct (trim_left_app c (rev b) x (rev a) Hx) as [b' ->]. exists (rev b').
  rewrite rev_app_distr. simpl. now rewrite rev_involutive, <- app_assoc.
Qed.

Lemma is_fqdn_iff s : is_fqdn_identifier s = true <-> dotted_inside s.
Proof.
  unfold is_fqdn_identifier, dotted_inside. rewrite contains_byte_In. split.
  - intros H. unfold trim in H.
    destruct (trim_left_decomp dot s) as [n Hn]. pose proof (trim_left_hd dot s) as Hh.
    destruct (trim_right_decomp dot (trim_left dot s)) as [k Hk].
    set (t := trim_right dot (trim_left dot s)) in *.
    destruct (trim_left dot s) as [|c l] eqn:El.
    { unfold t in H. simpl in H. tauto. }
    assert (t <> []) as Ht by (intros E; rewrite E in H; destruct H).
    destruct (exists_last Ht) as [t0 [d Et]].
    assert (d <> dot) as Hd by (eapply trim_right_last; exact Et).
    rewrite Et in H. destruct t0 as [|c' t0].
    { destruct H as [H|[]]. congruence. }
    rewrite Et in Hk. simpl in Hk. injection Hk as -> Hk. apply in_app_or in H as [[H|H]|[H|[]]]; try congruence.
    apply in_split in H as [b [b' ->]].
    exists (repeat dot n), c', b, b', d, (repeat dot k). split; auto. rewrite Hn, Hk. simpl. now rewrite <- !app_assoc.
  - intros [a [c [b [b' [d [e [-> [Hc Hd]]]]]]]]. unfold trim.
    destruct (trim_left_app dot a c (b ++ "."%char :: b' ++ d :: e) Hc) as [a' ->].
    replace (a' ++ c :: b ++ "."%char :: b' ++ d :: e) with ((a' ++ c :: b ++ "."%char :: b') ++ d :: e)
      by (rewrite <- app_assoc; simpl; rewrite <- app_assoc; reflexivity).
    destruct (trim_right_app dot (a' ++ c :: b ++ "."%char :: b') d e Hd) as [e' ->].
    apply in_or_app. left. apply in_or_app. right. right. apply in_or_app. right. now left.
Qed.

(** ** Groups of a client *)

Definition gives (cgb : list (str * list str)) (k g : str) : Prop := exists gs, In (k, gs) cgb /\ In g gs.

Lemma gives_mget cgb k g : NoDup (map fst cgb) ->
  (gives cgb k g <-> exists gs, mget str_eqb k cgb = Some gs /\ In g gs).
Proof.
  intros Hn. unfold gives. split; intros [gs [H1 H2]]; exists gs; split; auto.
  - now apply mget_NoDup_In.
  - now apply mget_In.
Qed.

Lemma add_identifier_spec gs cgb p : NoDup (map fst cgb) ->
  NoDup (map fst (add_identifier gs cgb p)) /\
  forall k g, gives (add_identifier gs cgb p) k g <-> gives cgb k g \/ (k = p /\ In g gs).
Proof.
  intros Hn. assert (NoDup (map fst (add_identifier gs cgb p))) as Hn'.
  { unfold add_identifier. destruct (mget str_eqb p cgb); now apply mput_NoDup. }
  split; auto. intros k g. rewrite !gives_mget by auto. unfold add_identifier.
  destruct (str_eqb_spec p k) as [<-|Hk].
  - destruct (mget str_eqb p cgb) as [ex|] eqn:E; rewrite mget_mput_same.
    + split.
      * intros [x [H1 H2]]. injection H1 as <-. apply in_app_or in H2 as [H|H]; [left|right]; eauto.
      * intros [[x [H1 H2]]|[_ H]]; eexists; (split; [reflexivity|]); apply in_or_app; [left; congruence|now right].
    + split.
      * intros [x [H1 H2]]. injection H1 as <-. auto.
      * intros [[x [H1 H2]]|[_ H]]; [discriminate|eauto].
  - destruct (mget str_eqb p cgb); rewrite mget_mput_other by auto; split; auto; intros [H|[-> _]]; auto; congruence.
Qed.

Lemma add_identifiers_spec gs ps : forall cgb, NoDup (map fst cgb) ->
  NoDup (map fst (fold_left (add_identifier gs) ps cgb)) /\
  forall k g, gives (fold_left (add_identifier gs) ps cgb) k g <-> gives cgb k g \/ (In k ps /\ In g gs).
Proof.
  induction ps as [|p ps IH]; intros cgb Hn; simpl.
  - split; auto. intros k g. tauto.
  - destruct (add_identifier_spec gs cgb p Hn) as [H1 H2]. destruct (IH _ H1) as [H3 H4]. split; auto.
    intros k g. rewrite H4, H2. intuition congruence.
Qed.

Lemma client_groups_block_spec l :
  NoDup (map fst (client_groups_block l)) /\
  forall k g, gives (client_groups_block l) k g <->
    exists key gs, In (key, gs) l /\ In k (split_byte comma (to_lower key)) /\ In g gs.
Proof.
  unfold client_groups_block.
  set (f := fun cgb (p : str * list str) => fold_left (add_identifier (snd p)) (split_byte comma (to_lower (fst p))) cgb).
  assert (forall cgb, NoDup (map fst cgb) -> NoDup (map fst (fold_left f l cgb)) /\
    forall k g, gives (fold_left f l cgb) k g <-> gives cgb k g \/
      exists key gs, In (key, gs) l /\ In k (split_byte comma (to_lower key)) /\ In g gs) as H.
  { induction l as [|[key gs] l IH]; intros cgb Hn; simpl.
    - split; auto. intros k g. split; auto. intros [H|[? [? [[] _]]]]; auto.
    - destruct (add_identifiers_spec gs (split_byte comma (to_lower key)) cgb Hn) as [H1 H2].
      destruct (IH (f cgb (key, gs)) H1) as [H3 H4]. split; auto. intros k g. rewrite H4. unfold f at 1. simpl. rewrite H2.
      split.
      + intros [[H|[Ha Hb]]|[key' [gs' [Ha [Hb Hc]]]]]; auto; right; [exists key, gs|exists key', gs']; auto.
      + intros [H|[key' [gs' [[Ha|Ha] [Hb Hc]]]]]; auto.
        * injection Ha as -> ->. auto.
        * right. exists key', gs'. auto. }
  destruct (H [] (NoDup_nil _)) as [H1 H2]. split; auto. intros k g. rewrite H2.
  split; [intros [[? [[] _]]|G]; exact G|auto].
Qed.

Lemma given_iff cfg k g : gives (client_groups_block (bc_clients cfg)) k g <-> given cfg k g.
Proof.
  rewrite (proj2 (client_groups_block_spec _)). unfold given. split.
  - intros [key [gs [H1 [H2 H3]]]]. exists key, gs, (to_lower key). split; auto. split; [now apply lowered_iff|].
    split; auto. now apply comma_part_iff.
  - intros [key [gs [low [H1 [H2 [H3 H4]]]]]]. apply lowered_iff in H2 as ->. apply comma_part_iff in H3. eauto.
Qed.

Lemma in_split_lower c s p : In p (split_byte c (to_lower s)) -> to_lower p = p.
Proof.
  intros H. apply lower_of_no_upper. apply Forall_forall. intros x Hx.
  assert (In x (to_lower s)) as Hi.
  { rewrite <- (join_split c (to_lower s)). clear -H Hx. induction (split_byte c (to_lower s)) as [|a l IH]; [tauto|].
    destruct H as [<-|H].
    - destruct l; simpl; auto. apply in_or_app. auto.
    - destruct l as [|b l]; [destruct H|]. change (In x (a ++ [c] ++ join [c] (b :: l))). apply in_or_app. right. right. now apply IH. }
  apply in_map_iff in Hi as [y [<- _]]. apply lower_no_upper.
Qed.

Section Groups.
Variable glob : str -> str -> bool.
Variable cidr_contains : str -> option ip -> bool.
Variable ip_string : option ip -> str.

Lemma byte_list_eqb_eq a b : byte_list_eqb a b = true <-> a = b.
Proof. unfold byte_list_eqb. destruct (list_eq_dec N.eq_dec a b); split; auto; discriminate. Qed.

Lemma ip_eqb_eq a b : ip_eqb a b = true <-> a = b.
Proof.
  destruct a, b; simpl; rewrite ?byte_list_eqb_eq; split; intros H; try discriminate; try congruence; now injection H.
Qed.

Lemma same_ip_iff a b : same_ip a b = true <-> b = Some a.
Proof. destruct b; simpl; [rewrite ip_eqb_eq|]; split; intros H; try discriminate; try congruence; now injection H. Qed.

Lemma groups_by_name_spec iter names g : forall i,
  In g (groups_by_name glob iter i names) <->
  exists j n k gs, nth_error names j = Some n /\ In (k, gs) (iter (i + j)) /\ name_matches glob k n = true /\ In g gs.
Proof.
  induction names as [|n names IH]; intros i; cbn [groups_by_name].
  - split; [intros []|]. intros [j [n [k [gs [H _]]]]]. destruct j; discriminate.
  - rewrite in_app_iff, IH, in_flat_map. split.
    + intros [[[k gs] [H1 H2]]|[j [m [k [gs [H1 [H2 [H3 H4]]]]]]]].
      * cbn [fst snd] in H2. destruct (name_matches glob k n) eqn:E; [|destruct H2].
        exists 0, n, k, gs. rewrite Nat.add_0_r. auto.
      * exists (S j), m, k, gs. rewrite <- plus_n_Sm. auto.
    + intros [[|j] [m [k [gs [H1 [H2 [H3 H4]]]]]]].
      * left. injection H1 as ->. exists (k, gs). rewrite Nat.add_0_r in H2. split; auto. cbn [fst snd]. now rewrite H3.
      * right. exists j, m, k, gs. rewrite <- plus_n_Sm in H2. auto.
Qed.

Lemma groups_by_net_spec l fq i g :
  In g (groups_by_net cidr_contains l fq i) <->
  exists k gs, In (k, gs) l /\ In g gs /\
    (cidr_contains k i = true \/ (dotted_inside k /\ exists a, i = Some a /\ In a (fq k))).
Proof.
  unfold groups_by_net. rewrite in_flat_map. split.
  - intros [[k gs] [H1 H2]]. cbn [fst snd] in H2. exists k, gs. split; auto.
    destruct (cidr_contains k i) eqn:E1; [auto|]. destruct (is_fqdn_identifier k) eqn:E2; [|destruct H2].
    apply in_flat_map in H2 as [a [Ha H2]]. destruct (same_ip a i) eqn:E3; [|destruct H2].
    apply same_ip_iff in E3. split; auto. right. split; [now apply is_fqdn_iff|]. eauto.
  - intros [k [gs [H1 [H2 H3]]]]. exists (k, gs). split; auto. cbn [fst snd].
    destruct (cidr_contains k i) eqn:E1; auto. destruct H3 as [H3|[H3 [a [Ha Hin]]]]; [discriminate|].
    apply is_fqdn_iff in H3. rewrite H3. apply in_flat_map. exists a. split; auto.
    apply same_ip_iff in Ha. now rewrite Ha.
Qed.

Variable cfg : blk_cfg.
Variable iter : nat -> list (str * list str).
Hypothesis Hiter : forall i, Permutation (client_groups_block (bc_clients cfg)) (iter i).
Variable fq : str -> list ip.
Variable disabled : list str.

Lemma gives_iter i k g : gives (iter i) k g <-> given cfg k g.
Proof.
  rewrite <- given_iff. unfold gives. split; intros [gs [H1 H2]]; exists gs; split; auto.
  - eapply Permutation_in; [apply Permutation_sym, Hiter|exact H1].
  - eapply Permutation_in; [apply Hiter|exact H1].
Qed.

Lemma iter_NoDup i : NoDup (map fst (iter i)).
Proof.
  eapply Permutation_NoDup; [apply Permutation_map, (Hiter i)|]. apply client_groups_block_spec.
Qed.

Lemma given_lower k g : given cfg k g -> to_lower k = k.
Proof.
  intros [key [gs [low [_ [H1 [H2 _]]]]]]. apply lowered_iff in H1 as ->. apply comma_part_iff in H2.
  eapply in_split_lower; eauto.
Qed.

Lemma found_iff req g :
  In g (groups_by_name glob iter 1 (req_names req) ++ groups_by_ip ip_string (iter 0) (req_ip req)
        ++ groups_by_net cidr_contains (iter 0) fq (req_ip req)) <->
  assigned glob cidr_contains ip_string cfg fq req g.
Proof.
  rewrite !in_app_iff, groups_by_name_spec, groups_by_net_spec. unfold assigned, denotes. split.
  - intros [[j [n [k [gs [H1 [H2 [H3 H4]]]]]]]|[H|[k [gs [H1 [H2 H3]]]]]].
    + exists k. assert (given cfg k g) as Hg by (apply (gives_iter (1 + j)); exists gs; auto). split; auto.
      left. exists n, (to_lower n). split; [eapply nth_error_In; eauto|]. split; [now apply lowered_iff|].
      unfold name_matches in H3. now rewrite (given_lower _ _ Hg) in H3.
    + unfold groups_by_ip in H. destruct (mget str_eqb _ _) eqn:E; [|destruct H]. exists (ip_string (req_ip req)).
      split; [|auto]. apply (gives_iter 0). exists l. split; auto. now apply mget_In.
    + exists k. split; [apply (gives_iter 0); exists gs; auto|]. destruct H3 as [H3|H3]; auto.
  - intros [k [Hg [H|[H|[H|H]]]]].
    + destruct H as [n [low [H1 [H2 H3]]]]. apply lowered_iff in H2 as ->. apply In_nth_error in H1 as [j Hj].
      left. pose proof (proj2 (gives_iter (1 + j) k g) Hg) as [gs [Ha Hb]]. exists j, n, k, gs. split; auto. split; auto.
      split; auto. unfold name_matches. now rewrite (given_lower _ _ Hg).
    + right. left. subst k. apply (gives_iter 0) in Hg. apply gives_mget in Hg as [gs [H1 H2]]; [|apply iter_NoDup].
      unfold groups_by_ip. now rewrite H1.
    + right. right. apply (gives_iter 0) in Hg as [gs [H1 H2]]. exists k, gs. auto.
    + right. right. apply (gives_iter 0) in Hg as [gs [H1 H2]]. exists k, gs. auto.
Qed.

Lemma groups_to_check_iff req g :
  In g (groups_to_check glob cidr_contains ip_string (iter 0) iter fq disabled req) <->
  applies glob cidr_contains ip_string cfg fq disabled req g.
Proof.
  unfold groups_to_check, applies. rewrite sort_strs_In, filter_In, negb_true_iff, str_in_not_In.
  pose proof (found_iff req) as Hf.
  destruct (groups_by_name glob iter 1 (req_names req) ++ groups_by_ip ip_string (iter 0) (req_ip req)
        ++ groups_by_net cidr_contains (iter 0) fq (req_ip req)) as [|x l] eqn:E.
  - split.
    + intros [H1 H2]. split; auto. right. split.
      * intros g' Hg'. now apply Hf in Hg'.
      * apply (gives_iter 0). apply gives_mget; [apply iter_NoDup|].
        destruct (mget str_eqb $"default" (iter 0)); [eauto|destruct H1].
    + intros [[H|[_ H]] H2]; [now apply Hf in H|]. split; auto. apply (gives_iter 0) in H.
      apply gives_mget in H as [gs [H1 H3]]; [|apply iter_NoDup]. now rewrite H1.
  - rewrite Hf. split; [tauto|]. intros [[H|[H _]] H2]; auto. exfalso. apply (H x). apply Hf. now left.
Qed.

End Groups.

(** ** Block answers *)

Lemma zero_block_spec ttl q m : m_answer m = [] -> m_rcode m = 0%N ->
  zero_answer ttl q (m_rcode (zero_block ttl q m)) (m_answer (zero_block ttl q m)).
Proof.
  intros H1 H2. unfold zero_block, zero_answer, create_rr, type_A, type_AAAA.
  destruct (N.eqb_spec (q_type q) 28) as [E|E].
  - right. left. simpl. rewrite H1, E. auto.
  - destruct (N.eqb_spec (q_type q) 1) as [E'|E'].
    + left. simpl. rewrite H1, E'. auto.
    + right. right. simpl. auto.
Qed.

Lemma ips_family q ttl ips : exists l, of_family (q_type q) ips l /\
  flat_map (fun i =>
    if (q_type q =? type_AAAA)%N && negb (is_v4 i) then [create_rr q ttl (DAAAA i)]
    else if (q_type q =? type_A)%N && is_v4 i then [create_rr q ttl (DA i)] else []) ips =
  map (fun d => {| rr_name := q_name q; rr_type := q_type q; rr_class := 1%N; rr_ttl := ttl; rr_data := d |}) l.
Proof.
  induction ips as [|[b|b] ips [l [H1 H2]]].
  - exists []. split; [constructor|reflexivity].
  - cbn [flat_map]. rewrite H2. cbn [is_v4 negb]. rewrite andb_false_r, andb_true_r. unfold type_A.
    destruct (N.eqb_spec (q_type q) 1) as [E|E].
    + exists (DA (IP4 b) :: l). split; [now apply fam_4|reflexivity].
    + exists l. split; [now apply fam_skip4|reflexivity].
  - cbn [flat_map]. rewrite H2. cbn [is_v4 negb]. rewrite andb_false_r, andb_true_r. unfold type_AAAA.
    destruct (N.eqb_spec (q_type q) 28) as [E|E].
    + exists (DAAAA (IP6 b) :: l). split; [now apply fam_6|reflexivity].
    + exists l. split; [now apply fam_skip6|reflexivity].
Qed.

Lemma handle_block_content h q m : m_answer m = [] -> m_rcode m = 0%N ->
  block_content h q (m_rcode (handle_block h q m)) (m_answer (handle_block h q m)).
Proof.
  intros H1 H2. destruct h as [|ttl|ips ttl]; unfold handle_block, block_content; cbv zeta.
  - auto.
  - now apply zero_block_spec.
  - destruct (ips_family q ttl ips) as [l [Hl E]]. exists l. split; auto.
    rewrite E, H1. simpl app.
    destruct l as [|d l]; simpl.
    + left. split; auto. apply zero_block_spec; auto.
    + right. split; [discriminate|]. auto.
Qed.

Lemma handle_block_frame h q m :
  let m' := handle_block h q m in
  m_id m' = m_id m /\ m_response m' = m_response m /\ m_question m' = m_question m /\ m_ns m' = m_ns m /\ m_extra m' = m_extra m.
Proof.
  destruct h as [|ttl|ips ttl]; simpl; auto.
  - unfold zero_block. destruct (_ =? _)%N; simpl; auto. destruct (_ =? _)%N; simpl; auto.
  - match goal with |- context [m_answer m ++ ?f] => destruct (m_answer m ++ f) end; simpl; auto.
    unfold zero_block. destruct (_ =? _)%N; simpl; auto. destruct (_ =? _)%N; simpl; auto.
Qed.

Lemma equal_fold_lower a low : to_lower low = low -> (equal_fold a low = true <-> lowered a low).
Proof. intros E. unfold equal_fold. rewrite str_eqb_eq, lowered_iff, E. split; auto. Qed.

Lemma create_block_handler_spec parse_ip cfg : configured_handler parse_ip cfg (create_block_handler parse_ip cfg).
Proof.
  unfold create_block_handler, configured_handler.
  assert (forall a l, equal_fold a l = equal_fold a (to_lower l)) as Hf by (intros; unfold equal_fold; now rewrite to_lower_idem).
  rewrite (Hf _ $"NXDOMAIN"), (Hf _ $"ZEROIP").
  change (to_lower $"NXDOMAIN") with ($"nxdomain"). change (to_lower $"ZEROIP") with ($"zeroip").
  destruct (equal_fold (bc_type cfg) $"nxdomain") eqn:E1.
  { left. split; auto. now apply equal_fold_lower in E1. }
  destruct (equal_fold (bc_type cfg) $"zeroip") eqn:E2.
  { right. left. split; auto. now apply equal_fold_lower in E2. }
  right. right. split; [|split].
  - intros H. apply equal_fold_lower in H; [congruence|reflexivity].
  - intros H. apply equal_fold_lower in H; [congruence|reflexivity].
  - set (ips := flat_map _ _). exists ips. split.
    + intros a. unfold ips. rewrite in_flat_map. split.
      * intros [p [H1 H2]]. exists p, (trim_space p). split; [now apply comma_part_iff|]. split; [now apply trimmed_iff|].
        destruct (parse_ip (trim_space p)); [|destruct H2]. destruct H2 as [->|[]]. reflexivity.
      * intros [p [t [H1 [H2 H3]]]]. apply comma_part_iff in H1. apply trimmed_iff in H2. subst t. exists p. split; auto.
        rewrite H3. now left.
    + destruct ips; [left|right]; split; auto. discriminate.
Qed.

Lemma handle_blocked_answer h req q reason : block_answer h req q (handle_blocked h req q reason).
Proof.
  split; [reflexivity|]. eexists. split; [reflexivity|].
  destruct (handle_block_frame h q (set_reply empty_msg (req_msg req))) as [H1 [H2 [H3 [H4 H5]]]].
  rewrite H1, H2, H3, H4, H5. split; auto. split; auto. split.
  - simpl. destruct (m_question (req_msg req)) as [|q0 [|]]; reflexivity.
  - split; auto. split; auto. apply handle_block_content; reflexivity.
Qed.

(** ** Resolve *)

Lemma allowlist_only_iff cfg g : NoDup (map fst (bc_allow cfg)) ->
  (allowlist_only cfg g = true <-> allow_only cfg g).
Proof.
  intros Hn. unfold allowlist_only, allow_only. split.
  - intros H. destruct (mget str_eqb g (bc_allow cfg)) as [[|x l]|] eqn:E; try discriminate. split.
    + exists (x :: l). split; [now apply mget_In|discriminate].
    + destruct (mget str_eqb g (bc_deny cfg)) eqn:E2; [discriminate|]. apply mget_None in E2.
      intros [srcs Hs]. apply E2. apply in_map_iff. now exists (g, srcs).
  - intros [[srcs [H1 H2]] H3]. rewrite (mget_NoDup_In _ _ _ Hn H1). destruct srcs as [|x l]; [congruence|].
    destruct (mget str_eqb g (bc_deny cfg)) eqn:E2; auto. apply mget_In in E2. exfalso. eauto.
Qed.

Section Resolve.
Variable glob : str -> str -> bool.
Variable cidr_contains : str -> option ip -> bool.
Variable ip_string : option ip -> str.
Variable allow deny : str -> list str -> list str.
Variable on_allow on_deny : str -> str -> Prop.
Hypothesis Hallow : lookup_ok on_allow allow.
Hypothesis Hdeny : lookup_ok on_deny deny.
Variable cfg : blk_cfg.
Hypothesis Hcfg : NoDup (map fst (bc_allow cfg)).
Variable h : handler.
Variable fq : str -> list ip.
Variable disabled : list str.
Variable req : request.
Variable gs : list str.
Let applies' := applies glob cidr_contains ip_string cfg fq disabled req.
Hypothesis Hgs : forall g, In g gs <-> applies' g.
Let allowed' := allowed glob cidr_contains ip_string cfg fq disabled on_allow req.
Let denied' := denied glob cidr_contains ip_string cfg fq disabled on_deny req.
Let restricted' := restricted glob cidr_contains ip_string cfg fq disabled req.
Let blocked' := blocked_name glob cidr_contains ip_string cfg fq disabled on_allow on_deny req.

Lemma matches_spec lk on n : lookup_ok on lk -> sorted_set_of (fun g => applies' g /\ on g n) (matches lk gs n).
Proof.
  intros H. unfold matches. assert (sorted_set_of (fun g => applies' g /\ on g n) (lk n gs)) as G.
  { destruct (H n gs) as [H1 H2]. split; auto. intros x. rewrite H2, Hgs. reflexivity. }
  destruct gs as [|g0 gs0] eqn:E; [|exact G]. split; [constructor|]. intros x. split; [intros []|].
  intros [Hx _]. apply Hgs in Hx. destruct Hx.
Qed.

Lemma matches_allow n : (exists g l, matches allow gs n = g :: l) /\ allowed' n \/ matches allow gs n = [] /\ ~ allowed' n.
Proof.
  destruct (matches_spec allow on_allow n Hallow) as [_ H]. destruct (matches allow gs n) as [|g l] eqn:E.
  - right. split; auto. intros [g Hg]. now apply H in Hg.
  - left. split; eauto. exists g. apply H. now left.
Qed.

Lemma matches_deny n : (exists g l, matches deny gs n = g :: l) /\ denied' n \/ matches deny gs n = [] /\ ~ denied' n.
Proof.
  destruct (matches_spec deny on_deny n Hdeny) as [_ H]. destruct (matches deny gs n) as [|g l] eqn:E.
  - right. split; auto. intros [g Hg]. now apply H in Hg.
  - left. split; eauto. exists g. apply H. now left.
Qed.

Lemma has_allowlist_only_iff : has_allowlist_only cfg gs = true <-> restricted'.
Proof.
  unfold has_allowlist_only, restricted', restricted. rewrite existsb_exists. split.
  - intros [g [H1 H2]]. exists g. split; [now apply Hgs|now apply allowlist_only_iff].
  - intros [g [H1 H2]]. exists g. split; [now apply Hgs|now apply allowlist_only_iff].
Qed.

(** Why a name is blocked. *)
Definition reason_ok (n reason : str) : Prop :=
  (restricted' -> reason = $"BLOCKED (ALLOWLIST ONLY)") /\
  (~ restricted' -> exists l, names_groups (fun g => applies' g /\ on_deny g n) l /\ reason = $"BLOCKED (" ++ l ++ $")").

Lemma handle_denylist_spec qs :
  match handle_denylist allow deny cfg h gs req qs with
  | None => forall q n, In q qs -> plain_name (q_name q) n -> ~ allowed' n /\ ~ blocked' n
  | Some p =>
      exists pre q post n, qs = pre ++ q :: post /\ plain_name (q_name q) n /\
        (forall q' n', In q' pre -> plain_name (q_name q') n' -> ~ allowed' n' /\ ~ blocked' n') /\
        ((allowed' n /\ p = pass req) \/
         (blocked' n /\ exists reason, reason_ok n reason /\ p = Done (Ok (handle_blocked h req q reason))))
  end.
Proof.
  induction qs as [|q qs IH]; [intros q n []|]. cbn [handle_denylist]. cbv zeta.
  assert (plain_name (q_name q) (extract_domain q)) as Hn by now apply plain_name_iff.
  set (n := extract_domain q) in *.
  destruct (matches_allow n) as [[[g [l E]] Ha]|[E Ha]]; rewrite E.
  { exists [], q, qs, n. split; [reflexivity|]. split; [exact Hn|]. split; [intros ? ? []|]. auto. }
  destruct (has_allowlist_only cfg gs) eqn:Er.
  { apply has_allowlist_only_iff in Er. exists [], q, qs, n. split; [reflexivity|]. split; [exact Hn|]. split; [intros ? ? []|]. right.
    split; [split; auto|]. eexists. split; [|reflexivity]. split; [reflexivity|]. intros Hr. contradiction. }
  assert (~ restricted') as Hr by (intros Hr; apply has_allowlist_only_iff in Hr; congruence).
  destruct (matches_deny n) as [[[g [l E2]] Hd]|[E2 Hd]]; rewrite E2.
  - exists [], q, qs, n. split; [reflexivity|]. split; [exact Hn|]. split; [intros ? ? []|]. right.
    split; [split; auto|]. eexists. split; [|reflexivity]. split; [contradiction|]. intros _.
    exists (join $"," (g :: l)). split; auto. exists (g :: l). split; auto. rewrite <- E2. now apply matches_spec.
  - assert (~ allowed' n /\ ~ blocked' n) as Hb by (split; auto; intros [_ [H|H]]; auto).
    destruct (handle_denylist allow deny cfg h gs req qs) as [p|].
    + destruct IH as [pre [q' [post [n' [-> [H1 [H2 H3]]]]]]]. exists (q :: pre), q', post, n'. split; [reflexivity|]. split; [exact H1|].
      split; [|exact H3]. intros q1 n1 [<-|Hin] Hp; [|now apply H2 with q1].
      apply plain_name_iff in Hp, Hn. assert (n1 = n) as -> by congruence. exact Hb.
    + intros q1 n1 [<-|Hin] Hp; [|now apply IH with q1].
      apply plain_name_iff in Hp, Hn. assert (n1 = n) as -> by congruence. exact Hb.
Qed.

Lemma entry_refers r e t : entry_to_check ip_string r = (e, t) -> e <> [] -> refers ip_string r t e.
Proof.
  unfold entry_to_check. destruct (rr_data r) eqn:E; intros H Hne; injection H as <- <-; try contradiction.
  - now apply refers_a.
  - apply refers_aaaa with a; auto. now apply lowered_iff.
  - apply refers_cname with target; auto. now apply plain_name_iff.
Qed.

Lemma refers_entry r e t : refers ip_string r t e -> entry_to_check ip_string r = (e, t).
Proof.
  unfold entry_to_check. intros [r' a E|r' a low E H|r' a n E H]; rewrite E; auto.
  - apply lowered_iff in H. now rewrite H.
  - apply plain_name_iff in H. now rewrite H.
Qed.

Let bad' := bad_record glob cidr_contains ip_string cfg fq disabled on_allow on_deny req.

Lemma screen_spec ans :
  match screen ip_string allow deny gs ans with
  | None => forall r kind n, In r ans -> ~ bad' r kind n
  | Some reason =>
      exists pre r post kind n, ans = pre ++ r :: post /\ bad' r kind n /\
        (forall r' k' n', In r' pre -> ~ bad' r' k' n') /\
        exists l, names_groups (fun g => applies' g /\ on_deny g n) l /\
          reason = $"BLOCKED " ++ kind ++ $" (" ++ l ++ $")"
  end.
Proof.
  induction ans as [|r ans IH]; [intros r kind n []|]. cbn [screen].
  destruct (entry_to_check ip_string r) as [e t] eqn:Ee.
  assert (((forall kind n, ~ bad' r kind n) -> match screen ip_string allow deny gs ans with
  | None => forall r0 kind n, In r0 (r :: ans) -> ~ bad' r0 kind n
  | Some reason =>
      exists pre r0 post kind n, r :: ans = pre ++ r0 :: post /\ bad' r0 kind n /\
        (forall r' k' n', In r' pre -> ~ bad' r' k' n') /\
        exists l, names_groups (fun g => applies' g /\ on_deny g n) l /\
          reason = $"BLOCKED " ++ kind ++ $" (" ++ l ++ $")"
  end)) as Hskip.
  { intros Hn. destruct (screen ip_string allow deny gs ans).
    - destruct IH as [pre [r0 [post [kind [n [-> [H1 [H2 H3]]]]]]]]. exists (r :: pre), r0, post, kind, n.
      split; [reflexivity|]. split; [exact H1|]. split; [|exact H3]. intros r' k' n' [<-|Hin]; auto.
    - intros r0 kind n [<-|Hin]; auto. }
  assert (forall kind n, bad' r kind n -> kind = t /\ n = e) as Hfun.
  { intros kind n [H _]. apply refers_entry in H. rewrite Ee in H. now injection H as -> ->. }
  destruct e as [|c e]; [apply Hskip; intros kind n H; destruct (Hfun _ _ H) as [_ ->]; destruct H as [_ [H _]]; congruence|].
  destruct (matches_allow (c :: e)) as [[[g [l E]] Ha]|[E Ha]]; rewrite E.
  { apply Hskip. intros kind n H. destruct (Hfun _ _ H) as [_ ->]. destruct H as [_ [_ [H _]]]. contradiction. }
  destruct (matches_deny (c :: e)) as [[[g [l E2]] Hd]|[E2 Hd]]; rewrite E2.
  - exists [], r, ans, t, (c :: e). split; [reflexivity|]. split.
    { split; [apply entry_refers; auto; discriminate|]. split; [discriminate|]. split; auto. }
    split; [intros ? ? ? []|]. exists (join $"," (g :: l)). split; auto. exists (g :: l). split; auto.
    rewrite <- E2. now apply matches_spec.
  - apply Hskip. intros kind n H. destruct (Hfun _ _ H) as [_ ->]. destruct H as [_ [_ [_ H]]]. contradiction.
Qed.

End Resolve.

(** ** Enabling and disabling *)

Lemma SSorted_nth l : StronglySorted str_le l -> forall i j, i <= j -> j < length l -> str_le (nth i l []) (nth j l []).
Proof.
  induction 1 as [|x l Hs IH Hf]; intros i j Hij Hj; simpl in *; [lia|].
  destruct i, j; try lia.
  - unfold str_le. apply str_ltb_irrefl.
  - rewrite Forall_forall in Hf. apply Hf. apply nth_In. lia.
  - apply IH; lia.
Qed.

Lemma known_group_iff l g : known_group (sort_strs l) g = true <-> In g l.
Proof.
  unfold known_group. pose proof (sort_strs_sorted l) as Hs. set (all := sort_strs l) in *.
  set (f := fun i => str_geb (nth i all []) g).
  assert (forall x y, x <= y -> y < length all -> f x = true -> f y = true) as Hm.
  { intros x y Hxy Hy Hx. unfold f, str_geb in *. apply negb_true_iff in Hx. apply negb_true_iff.
    apply (str_le_trans _ _ _ Hx). now apply SSorted_nth. }
  destruct (sort_search_spec (length all) f Hm) as [H1 [H2 H3]]. cbv zeta. fold f.
  set (i := sort_search (length all) f) in *. rewrite andb_true_iff, Nat.ltb_lt, str_eqb_eq. split.
  - intros [Hi E]. apply sort_strs_In. fold all. rewrite <- E. now apply nth_In.
  - intros Hg. apply sort_strs_In in Hg. fold all in Hg. apply (In_nth _ _ []) in Hg as [j [Hj Ej]].
    assert (f j = true) as Hfj by (unfold f, str_geb; rewrite Ej, str_ltb_irrefl; reflexivity).
    assert (i <= j) as Hij. { destruct (le_lt_dec i j); auto. rewrite H2 in Hfj; [discriminate|lia]. }
    assert (i < length all) as Hi by lia. split; auto.
    specialize (H3 Hi). unfold f, str_geb in H3. apply negb_true_iff in H3.
    pose proof (SSorted_nth _ Hs i j Hij Hj) as Hle. rewrite Ej in Hle. apply str_ltb_total; auto.
Qed.

Lemma all_groups_iff cfg g : In g (map fst (bc_deny cfg) ++ [$"default"]) <-> known cfg g.
Proof.
  unfold known. rewrite in_app_iff, in_map_iff. split.
  - intros [[[x s] [<- H]]|[<-|[]]]; [right; eauto|now left].
  - intros [-> |[s H]]; [right; now left|left]. now exists (g, s).
Qed.

Lemma internal_disable_ok cfg d gs now s :
  (valid_groups cfg gs /\ snd (internal_disable cfg d gs now s) = true /\
   let s' := fst (internal_disable cfg d gs now s) in
   bt_enabled s' = false /\ (forall g, In g (bt_disabled s') <-> named cfg gs g) /\ bt_end s' = (now + d)%Z /\
   bt_timer s' = (if (d =? 0)%Z then None else Some (now + d)%Z) /\ bt_fired s' = bt_fired s) \/
  (~ valid_groups cfg gs /\ snd (internal_disable cfg d gs now s) = false /\
   let s' := fst (internal_disable cfg d gs now s) in
   bt_enabled s' = bt_enabled s /\ bt_disabled s' = bt_disabled s /\ bt_end s' = bt_end s /\
   bt_timer s' = None /\ bt_fired s' = bt_fired s).
Proof.
  unfold internal_disable, all_blocking_groups. cbv zeta.
  assert ((match gs with [] => true | _ => forallb (known_group (sort_strs (map fst (bc_deny cfg) ++ [$"default"]))) gs end) = true
          <-> valid_groups cfg gs) as Hv.
  { assert (forallb (known_group (sort_strs (map fst (bc_deny cfg) ++ [$"default"]))) gs = true <-> valid_groups cfg gs) as H.
    { rewrite forallb_forall. unfold valid_groups. split; intros H g Hg; specialize (H g Hg).
      - apply known_group_iff in H. now apply all_groups_iff.
      - apply known_group_iff. now apply all_groups_iff. }
    destruct gs; [|exact H]. split; [intros _ g []|reflexivity]. }
  destruct (match gs with [] => true | _ => forallb (known_group (sort_strs (map fst (bc_deny cfg) ++ [$"default"]))) gs end).
  - left. split; [now apply Hv|]. split; auto. cbn [fst bt_enabled bt_disabled bt_end bt_timer bt_fired].
    split; [reflexivity|]. split; [|auto]. intros g. unfold named. destruct gs as [|g0 gs].
    + rewrite sort_strs_In, all_groups_iff. simpl. tauto.
    + split; [now left|]. intros [H|[H _]]; [exact H|discriminate].
  - right. split; [intros H; apply Hv in H; discriminate|]. split; [reflexivity|]. cbn. auto.
Qed.

Lemma blk_run_app cfg es1 es2 s : blk_run cfg s (es1 ++ es2) =
  match blk_run cfg s es1 with Some s' => blk_run cfg s' es2 | None => None end.
Proof.
  revert s. induction es1 as [|e es1 IH]; intros s; simpl; auto.
  destruct (blk_step cfg s e) as [[s' b]|]; auto.
Qed.

(** After an enable command and no accepted command since. *)
Definition after_enable (s : blk_state) : Prop := bt_enabled s = true /\ bt_disabled s = [] /\ bt_timer s = None /\ bt_fired s = 0.

Lemma accepted_step cfg s e s' b : blk_step cfg s e = Some (s', b) -> is_command e -> (b = true <-> accepted cfg e).
Proof.
  destruct e; cbn [blk_step is_command accepted]; try tauto.
  - intros H _. injection H as <- <-. tauto.
  - intros H _. destruct (internal_disable_ok cfg d gs now s) as [[H1 [H2 _]]|[H1 [H2 _]]];
      destruct (internal_disable cfg d gs now s) as [s0 b0]; injection H as <- <-; cbn [snd] in H2; subst; split; auto; try tauto; discriminate.
Qed.

(** [post] has no accepted command. *)
Lemma after_enable_post cfg post s s' : after_enable s -> (forall e, In e post -> ~ accepted cfg e) ->
  blk_run cfg s post = Some s' -> after_enable s'.
Proof.
  revert s. induction post as [|e post IH]; intros s Hs Hp H; simpl in H; [now injection H as <-|].
  destruct (blk_step cfg s e) as [[s1 b]|] eqn:E; [|discriminate]. eapply IH; [|intros; apply Hp; now right|exact H].
  pose proof (Hp e (or_introl eq_refl)) as He. destruct Hs as [H1 [H2 [H3 H4]]].
  destruct e; cbn [blk_step accepted] in *.
  - tauto.
  - destruct (internal_disable_ok cfg d gs now s) as [[G _]|[_ [_ [G1 [G2 [_ [G3 G4]]]]]]]; [tauto|].
    destruct (internal_disable cfg d gs now s) as [s0 b0]. injection E as <- <-. cbn [fst] in *.
    repeat split; congruence.
  - rewrite H3 in E. discriminate.
  - rewrite H4 in E. discriminate.
Qed.

(** After an accepted disable command for the groups [off]. *)
Definition still_off (off : str -> Prop) (stop : Z) (post : list blk_event) (s : blk_state) : Prop :=
  bt_enabled s = false /\ (forall g, In g (bt_disabled s) <-> off g) /\ bt_end s = stop /\
  ((bt_fired s = 0 /\ (bt_timer s = None \/ bt_timer s = Some stop)) \/
   (bt_fired s = 1 /\ bt_timer s = None /\ exists t, In (BFire t) post /\ (stop <= t)%Z)).

Lemma after_disable_post cfg off stop post : forall pre s s',
  (still_off off stop pre s /\ ~ In BCallback pre) \/
  (after_enable s /\ In BCallback pre /\ exists t, In (BFire t) pre /\ (stop <= t)%Z) ->
  (forall e, In e post -> ~ accepted cfg e) -> blk_run cfg s post = Some s' ->
  (still_off off stop (pre ++ post) s' /\ ~ In BCallback (pre ++ post)) \/
  (after_enable s' /\ In BCallback (pre ++ post) /\ exists t, In (BFire t) (pre ++ post) /\ (stop <= t)%Z).
Proof.
  induction post as [|e post IH]; intros pre s s' Hs Hp H; simpl in H.
  - injection H as <-. now rewrite app_nil_r.
  - destruct (blk_step cfg s e) as [[s1 b]|] eqn:E; [|discriminate].
    replace (pre ++ e :: post) with ((pre ++ [e]) ++ post) by (rewrite <- app_assoc; reflexivity).
    eapply IH; [|intros; apply Hp; now right|exact H].
    destruct Hs as [[Hs Hc]|[Hs [Hc [t [Ht1 Ht2]]]]].
    + destruct Hs as [H1 [H2 [H3 H4]]]. pose proof (Hp e (or_introl eq_refl)) as He.
      destruct e; cbn [blk_step accepted] in *.
      * tauto.
      * destruct (internal_disable_ok cfg d gs now s) as [[G _]|[_ [_ [G1 [G2 [G5 [G3 G4]]]]]]]; [tauto|].
        destruct (internal_disable cfg d gs now s) as [s0 b0]. injection E as <- <-. cbn [fst] in *. left. split.
        -- split; [congruence|]. split; [now rewrite G2|]. split; [congruence|]. rewrite G3, G4.
           destruct H4 as [[H4 _]|[H4 [_ [t [Ht1 Ht2]]]]]; [left; auto|right]. repeat split; auto.
           exists t. split; auto. apply in_or_app. now left.
        -- intros Hi. apply in_app_or in Hi as [Hi|[Hi|[]]]; [auto|discriminate].
      * destruct (bt_timer s) as [t|] eqn:Et; [|discriminate]. destruct (t <=? now)%Z eqn:El; [|discriminate].
        injection E as <- <-. apply Z.leb_le in El. left. split.
        -- split; [exact H1|]. split; [exact H2|]. split; [exact H3|]. cbn [bt_fired bt_timer].
           destruct H4 as [[H4 [H5|H5]]|[_ [H5 _]]]; try discriminate. injection H5 as ->. right.
           rewrite H4. repeat split; auto. exists now. split; auto. apply in_or_app. right. now left.
        -- intros Hi. apply in_app_or in Hi as [Hi|[Hi|[]]]; [auto|discriminate].
      * destruct (bt_fired s) as [|n] eqn:Ef; [discriminate|]. injection E as <- <-. right.
        destruct H4 as [[H4 _]|[H4 [_ [t [Ht1 Ht2]]]]]; [discriminate|]. injection H4 as ->.
        split; [repeat split|]. split; [apply in_or_app; right; now left|].
        exists t. split; auto. apply in_or_app. now left.
    + right. split.
      * eapply (after_enable_post cfg [e]); [exact Hs| |].
        -- intros e' [<-|[]]. apply Hp. now left.
        -- simpl. rewrite E. reflexivity.
      * split; [apply in_or_app; now left|]. exists t. split; auto. apply in_or_app. now left.
Qed.

(** ** FQDN identifiers *)

Lemma fq_fold_In m a : forall acc : list ip * Z,
  In a (fst (fold_left (fun a x =>
              (fst a ++ match rr_data x with DA i | DAAAA i => [i] | _ => [] end, Z.of_N (rr_ttl x) * 1000000000)%Z) m acc)) <->
  In a (fst acc) \/ exists x, In x m /\ (rr_data x = DA a \/ rr_data x = DAAAA a).
Proof.
  induction m as [|x m IH]; intros acc; simpl.
  - split; auto. intros [H|[x [[] _]]]; auto.
  - rewrite IH. simpl. rewrite in_app_iff. split.
    + intros [[H|H]|[y [H1 H2]]]; auto.
      * right. exists x. split; auto. destruct (rr_data x); simpl in H; try tauto; destruct H as [<-|[]]; auto.
      * right. eauto.
    + intros [H|[y [[<-|H1] H2]]]; auto.
      * left. right. destruct H2 as [-> | ->]; now left.
      * right. eauto.
Qed.

Lemma fq_step_In r acc acc' a : fq_step r acc = Some acc' -> (In a (fst acc') <-> In a (fst acc) \/ address_in r a).
Proof.
  unfold fq_step, address_in. destruct r as [resp|e].
  - destruct (rs_msg resp) as [m|] eqn:Em; [|discriminate].
    unfold rcode_success. destruct (N.eqb_spec (m_rcode m) 0) as [E|E]; intros H; injection H as <-.
    + rewrite fq_fold_In. split.
      * intros [H|[x [H1 H2]]]; auto. right. exists resp, m, x. auto.
      * intros [H|[resp' [m' [x [H1 [H2 [H3 [H4 H5]]]]]]]]; auto. injection H1 as <-. rewrite Em in H2. injection H2 as <-. eauto.
    + split; auto. intros [H|[resp' [m' [x [H1 [H2 [H3 _]]]]]]]; auto. injection H1 as <-. rewrite Em in H2. injection H2 as <-. contradiction.
  - intros H. injection H as <-. split; auto. intros [H|[resp' [m' [x [H1 _]]]]]; auto. discriminate.
Qed.

Lemma ec_put_absent {T} size now k (v : T) ttl l x : x <> k -> mget str_eqb x l = None ->
  mget str_eqb x (ec_put size now k v ttl l) = None.
Proof.
  intros Hx H. unfold ec_put. destruct (ttl <=? 0)%Z; auto. unfold lru_add.
  assert (mget str_eqb x ((k, {| el_val := v; el_expires := now + to_ms ttl |}) :: mdel str_eqb k l) = None) as H1.
  { simpl. destruct (str_eqb_spec x k); [contradiction|]. now rewrite mget_mdel_other by auto. }
  destruct (mget str_eqb k l); auto.
  assert (mget str_eqb x ((k, {| el_val := v; el_expires := now + to_ms ttl |}) :: l) = None) as H2.
  { simpl. destruct (str_eqb_spec x k); [contradiction|]. auto. }
  destruct (size <? S (length l)); auto. apply mget_None. apply mget_None in H2. intros Hi. apply H2.
  apply in_map_iff in Hi as [[k' v'] [Ek Hi]]. simpl in Ek. subst k'. apply in_map_iff. exists (x, v'). split; auto.
  clear -Hi. revert Hi. generalize ((k, {| el_val := v; el_expires := (now + to_ms ttl)%Z |}) :: l). intros m.
  induction m as [|y m IH]; simpl; auto. destruct m; [intros []|]. intros [H|H]; auto.
Qed.

Lemma handle_expired_absent {T} size now (h : str -> T * Z) keys : forall (l : lru (element T)) x,
  ~ In x keys -> mget str_eqb x l = None ->
  mget str_eqb x (fst (handle_expired size now (fun k => Some (h k)) keys l)) = None /\
  snd (handle_expired size now (fun k => Some (h k)) keys l) = [].
Proof.
  induction keys as [|k keys IH]; intros l x Hx H; simpl; auto.
  destruct (h k) as [v ttl]. apply IH; [intros Hi; apply Hx; now right|].
  apply ec_put_absent; auto. intros ->. apply Hx. now left.
Qed.

Lemma fq_clean_absent now look l id : mget str_eqb id l = None -> mget str_eqb id (fq_clean now look l) = None.
Proof.
  intros H. unfold fq_clean, clean_up.
  destruct (handle_expired_absent fq_size now look (expired_keys now l) l id) as [H1 H2]; auto.
  - intros Hi. unfold expired_keys in Hi. apply filter_In in Hi as [_ Hi]. unfold lru_peek in Hi. rewrite H in Hi. discriminate.
  - destruct (handle_expired fq_size now (fun k => Some (look k)) (expired_keys now l) l) as [l' del]. simpl in *.
    subst del. exact H1.
Qed.

Lemma fq_init_absent now look ids id : (snd (look id) <= 0)%Z -> forall l, mget str_eqb id l = None ->
  mget str_eqb id (fq_init now look ids l) = None.
Proof.
  intros Hz. unfold fq_init. induction ids as [|k ids IH]; intros l H; simpl; auto. apply IH.
  destruct (is_fqdn_identifier k); auto. destruct (str_eq_dec id k) as [<-|Hk].
  - unfold ec_put. apply Z.leb_le in Hz. now rewrite Hz.
  - now apply ec_put_absent.
Qed.

(** ** Locks *)

Lemma set_nth_eq {A} (l : list A) i x y : nth_error l i = Some x ->
  nth_error (firstn i l ++ y :: skipn (S i) l) i = Some y.
Proof.
  intros H. assert (i < length l) by (apply nth_error_Some; congruence).
  rewrite nth_error_app2; rewrite firstn_length_le by lia; [|lia]. now rewrite Nat.sub_diag.
Qed.

Lemma set_nth_other {A} (l : list A) i x y j : nth_error l i = Some x -> j <> i ->
  nth_error (firstn i l ++ y :: skipn (S i) l) j = nth_error l j.
Proof.
  intros H Hj. assert (i < length l) by (apply nth_error_Some; congruence).
  destruct (lt_dec j i).
  - rewrite nth_error_app1 by (rewrite firstn_length_le; lia). rewrite <- (firstn_skipn i l) at 2.
    rewrite nth_error_app1 by (rewrite firstn_length_le; lia). reflexivity.
  - rewrite nth_error_app2; rewrite firstn_length_le by lia; [|lia].
    destruct (j - i) as [|k] eqn:E; [lia|]. simpl.
    rewrite <- (firstn_skipn (S i) l) at 2. rewrite nth_error_app2; rewrite firstn_length_le by lia; [|lia].
    f_equal. lia.
Qed.

(** The read locks still held when [ops] remain. *)
Fixpoint balance (ops : list lock_op) : Z :=
  match ops with
  | [] => 0
  | RLock :: ops => balance ops - 1
  | RUnlock :: ops => balance ops + 1
  | _ :: ops => balance ops
  end.

(** Only read locks, never more unlocks than locks. *)
Fixpoint reader_ok (ops : list lock_op) : Prop :=
  match ops with
  | [] => True
  | RLock :: ops' | RUnlock :: ops' => (0 <= balance ops')%Z /\ (0 <= balance ops)%Z /\ reader_ok ops'
  | _ => False
  end.

Fixpoint total (l : list (list lock_op)) : Z :=
  match l with [] => 0 | x :: l => balance x + total l end.

Lemma total_set l i x y : nth_error l i = Some x ->
  total (firstn i l ++ y :: skipn (S i) l) = (total l - balance x + balance y)%Z.
Proof.
  revert i. induction l as [|z l IH]; intros [|i] H; simpl in *; try discriminate.
  - injection H as ->. lia.
  - rewrite (IH i H). lia.
Qed.

Lemma Forall_set {A} (P : A -> Prop) l i x y : nth_error l i = Some x -> Forall P l -> P y ->
  Forall P (firstn i l ++ y :: skipn (S i) l).
Proof.
  revert i. induction l as [|z l IH]; intros [|i] H HF Hy; simpl in *; try discriminate; inversion HF; subst; constructor; auto.
Qed.

Lemma total_nonneg l : Forall reader_ok l -> (0 <= total l)%Z.
Proof.
  induction 1 as [|x l Hx _ IH]; simpl; [lia|]. assert (0 <= balance x)%Z; [|lia].
  destruct x as [|[] x]; simpl in Hx; try tauto; simpl; lia.
Qed.

Lemma total_ge l i x : Forall reader_ok l -> nth_error l i = Some x -> (balance x <= total l)%Z.
Proof.
  intros HF. revert i. induction HF as [|z l Hz HF IH]; intros [|i] H; simpl in *; try discriminate.
  - injection H as ->. pose proof (total_nonneg l HF). lia.
  - specialize (IH i H). assert (0 <= balance z)%Z; [|lia].
    destruct z as [|[] z]; simpl in Hz; try tauto; simpl; lia.
Qed.

Definition readers_inv (s : rw * list (list lock_op)) : Prop :=
  rw_waiting (fst s) = false /\ rw_writing (fst s) = false /\ Z.of_nat (rw_readers (fst s)) = total (snd s) /\
  Forall reader_ok (snd s).

Lemma readers_progress s i : readers_inv s -> unfinished s i -> can_step s i.
Proof.
  intros [H1 [H2 [H3 H4]]] [o [rest Hn]]. unfold can_step, conc_step. rewrite Hn.
  assert (reader_ok (o :: rest)) as Ho by (rewrite Forall_forall in H4; apply H4; eapply nth_error_In; eauto).
  destruct o; simpl in Ho; try tauto; simpl.
  - rewrite H1, H2. eexists. reflexivity.
  - pose proof (total_ge _ _ _ H4 Hn) as Hb. simpl in Hb. destruct (rw_readers (fst s)); [simpl in H3; lia|eexists; reflexivity].
Qed.

Lemma readers_step s i s' : readers_inv s -> conc_step s i = Some s' -> readers_inv s'.
Proof.
  intros [H1 [H2 [H3 H4]]]. unfold conc_step. destruct (nth_error (snd s) i) as [[|o rest]|] eqn:Hn; try discriminate.
  assert (reader_ok (o :: rest)) as Ho by (rewrite Forall_forall in H4; apply H4; eapply nth_error_In; eauto).
  destruct (rw_step (fst s) o) as [l|] eqn:E; [|discriminate]. intros H. injection H as <-.
  unfold readers_inv. cbn [fst snd]. rewrite (total_set _ _ _ _ Hn).
  destruct o; simpl in Ho; try tauto; simpl in E.
  - rewrite H1, H2 in E. injection E as <-. cbn [rw_waiting rw_writing rw_readers]. simpl balance.
    split; auto. split; auto. split; [lia|]. eapply Forall_set; eauto. tauto.
  - destruct (rw_readers (fst s)) eqn:Er; [discriminate|]. injection E as <-. cbn [rw_waiting rw_writing rw_readers]. simpl balance.
    split; auto. split; auto. split; [lia|]. eapply Forall_set; eauto. tauto.
Qed.

Lemma inner_balance n rest : balance (inner_locks n ++ rest) = balance rest.
Proof. induction n; simpl; auto. lia. Qed.

Lemma inner_ok n rest : (0 < balance rest)%Z -> reader_ok rest -> reader_ok (inner_locks n ++ rest).
Proof.
  intros Hb Hr. induction n; simpl; auto. rewrite inner_balance. repeat split; auto; lia.
Qed.

Lemma query_locks_ok n : reader_ok (query_locks n) /\ balance (query_locks n) = 0%Z.
Proof.
  unfold query_locks. simpl. rewrite inner_balance. simpl. repeat split; try lia. apply inner_ok; simpl; repeat split; lia.
Qed.

Lemma readers_init l : (forall x, In x l -> exists n, x = query_locks n) ->
  readers_inv ({| rw_readers := 0; rw_waiting := false; rw_writing := false |}, l).
Proof.
  intros H. unfold readers_inv. simpl. split; auto. split; auto. induction l as [|x l IH]; simpl; [auto|].
  destruct IH as [H1 H2]; [intros; apply H; now right|]. destruct (H x (or_introl eq_refl)) as [n ->].
  destruct (query_locks_ok n) as [Hq Hb]. split; [rewrite Hb; lia|]. constructor; auto.
Qed.

Lemma readers_run s is s' : readers_inv s -> conc_run s is = Some s' -> readers_inv s'.
Proof.
  revert s. induction is as [|i is IH]; intros s Hs H; simpl in H; [now injection H as <-|].
  destruct (conc_step s i) as [s1|] eqn:E; [|discriminate]. apply (IH s1); [exact (readers_step _ _ _ Hs E)|exact H].
Qed.
