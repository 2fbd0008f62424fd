(** Theorems about the DNS and DoH server. *)
From Coq Require Import String Ascii List Arith Bool NArith ZArith Lia Permutation.
From Verif Require Import Str StrFacts Dns Resolver Sudn Ecs Server ServerSpec.
Import ListNotations.

(** ** Truncation *)
Section Trunc.
Variable L : lengths.

Lemma truncate_loop_spec : forall rs size l c l' k c', l <= size -> truncate_loop L rs size l c = (l', k, c') ->
  k <= length rs /\ fst (records_len L (firstn k rs) l c) <= size /\ l' <= size /\
  (l' < size -> k = length rs /\ records_len L rs l c = (l', c')).
Proof.
  induction rs as [|r rs IH]; intros size l c l' k c' Hl H; cbn [truncate_loop] in H.
  - injection H as <- <- <-. cbn. auto.
  - destruct (record_len L l c r) as [n c1] eqn:Er. destruct (Nat.ltb_spec size (l + n)).
    + injection H as <- <- <-. cbn. repeat split; try lia.
    + destruct (Nat.eqb_spec (l + n) size).
      * injection H as <- <- <-. cbn [firstn records_len length]. rewrite Er. cbn. repeat split; try lia.
      * destruct (truncate_loop L rs size (l + n) c1) as [[l2 k2] c2] eqn:Et. injection H as <- <- <-.
        destruct (IH size (l + n) c1 l2 k2 c2 ltac:(lia) Et) as [H1 [H2 [H3 H4]]]. cbn [firstn records_len length]. rewrite Er. split; [lia|]. split; [exact H2|]. split; [exact H3|].
        intros Hlt. destruct (H4 Hlt) as [-> ->]. auto.
Qed.

Lemma truncate_section_spec rs size l c l' k c' : l <= size -> truncate_section L rs size l c = (l', k, c') ->
  k <= length rs /\ fst (records_len L (firstn k rs) l c) <= size /\ l <= l' <= size /\
  ((l' < size /\ k = length rs /\ records_len L rs l c = (l', c')) \/ (l' = size)) /\ (l = size -> k = 0).
Proof.
  intros Hl. unfold truncate_section. destruct (Nat.ltb_spec l size).
  - intros Ht. destruct (truncate_loop_spec _ _ _ _ _ _ _ Hl Ht) as [H1 [H2 [H3 H4]]]. split; auto. split; auto.
    assert (l <= l') as Hge.
    { clear - Ht Hl. revert l c l' k c' Hl Ht. induction rs as [|r rs IH]; intros l c l' k c' Hl Ht; cbn [truncate_loop] in Ht.
      - injection Ht as <- <- <-. lia.
      - destruct (record_len L l c r) as [n c1]. destruct (Nat.ltb_spec size (l + n)); [injection Ht as <- <- <-; lia|].
        destruct (Nat.eqb_spec (l + n) size); [injection Ht as <- <- <-; lia|].
        destruct (truncate_loop L rs size (l + n) c1) as [[l2 k2] c2] eqn:Et. injection Ht as <- <- <-.
        apply IH in Et; lia. }
    split; [lia|]. split; [|lia]. destruct (Nat.eq_dec l' size); [now right|left]. split; [lia|]. apply H4. lia.
  - intros [= <- <- <-]. cbn. repeat split; try lia.
Qed.

Lemma records_len_app rs1 rs2 l c : records_len L (rs1 ++ rs2) l c = let '(l', c') := records_len L rs1 l c in records_len L rs2 l' c'.
Proof. revert l c. induction rs1 as [|r rs1 IH]; intros l c; cbn [app records_len]; [reflexivity|]. destruct (record_len L l c r). apply IH. Qed.

(** Compressing never makes anything longer. *)
Definition shrinks : Prop :=
  (forall l c q, fst (question_len L l c q) <= plain_question_len L q) /\
  (forall l c r, fst (record_len L l c r) <= plain_record_len L r).

Lemma records_plain : shrinks -> forall rs l c, fst (records_len L rs l c) <= l + list_sum (map (plain_record_len L) rs).
Proof.
  intros [_ Hr]. induction rs as [|r rs IH]; intros l c; cbn [records_len map list_sum fold_right fst]; [lia|].
  specialize (Hr l c r). destruct (record_len L l c r) as [n c']. cbn [fst] in Hr. specialize (IH (l + n) c'). unfold list_sum in *. cbn [fold_right]. lia.
Qed.

Lemma questions_plain : shrinks -> forall qs l c, fst (questions_len L qs l c) <= l + list_sum (map (plain_question_len L) qs).
Proof.
  intros [Hq _]. induction qs as [|q qs IH]; intros l c; cbn [questions_len map list_sum fold_right fst]; [lia|].
  specialize (Hq l c q). destruct (question_len L l c q) as [n c']. cbn [fst] in Hq. specialize (IH (l + n) c'). unfold list_sum in *. cbn [fold_right]. lia.
Qed.

Lemma packed_plain m : shrinks -> packed_len L m <= plain_len L m.
Proof.
  intros Hs. unfold packed_len, plain_len.
  pose proof (questions_plain Hs (m_question m) 12 (cstart L)) as H0. destruct (questions_len L (m_question m) 12 (cstart L)) as [l0 c0].
  pose proof (records_plain Hs (m_answer m) l0 c0) as H1. destruct (records_len L (m_answer m) l0 c0) as [l1 c1].
  pose proof (records_plain Hs (m_ns m) l1 c1) as H2. destruct (records_len L (m_ns m) l1 c1) as [l2 c2].
  pose proof (records_plain Hs (m_extra m) l2 c2) as H3. cbn [fst] in *. lia.
Qed.

Definition opt_len (m : msg) : nat := match is_edns0 m with Some o => plain_record_len L o | None => 0 end.

Lemma truncate_packed size m extra o :
  fst (questions_len L (m_question m) 12 (cstart L)) <= size ->
  let '(l, c) := questions_len L (m_question m) 12 (cstart L) in
  let '(l, na, c) := truncate_section L (m_answer m) size l c in
  let '(l, nn, c) := truncate_section L (m_ns m) size l c in
  let '(_, ne, _) := truncate_section L extra size l c in
  forall tc, shrinks ->
  packed_len L (set_tc tc (set_answer (firstn na (m_answer m)) (set_ns (firstn nn (m_ns m)) (set_extra (firstn ne extra ++ o) m))))
    <= size + list_sum (map (plain_record_len L) o).
Proof.
  intros Hq. destruct (questions_len L (m_question m) 12 (cstart L)) as [l0 c0] eqn:E0. cbn [fst] in Hq.
  destruct (truncate_section L (m_answer m) size l0 c0) as [[l1 na] c1] eqn:E1.
  destruct (truncate_section L (m_ns m) size l1 c1) as [[l2 nn] c2] eqn:E2.
  destruct (truncate_section L extra size l2 c2) as [[l3 ne] c3] eqn:E3. intros tc Hs.
  unfold packed_len. cbn [set_tc set_answer set_ns set_extra m_question m_answer m_ns m_extra]. rewrite E0.
  destruct (truncate_section_spec _ _ _ _ _ _ _ Hq E1) as [A1 [A2 [A3 [A4 A5]]]].
  destruct (truncate_section_spec _ size l1 _ _ _ _ ltac:(lia) E2) as [B1 [B2 [B3 [B4 B5]]]].
  destruct (truncate_section_spec _ size l2 _ _ _ _ ltac:(lia) E3) as [D1 [D2 [D3 [D4 D5]]]].
  assert (forall x l c, fst (records_len L x l c) <= size -> fst (records_len L (x ++ o) l c) <= size + list_sum (map (plain_record_len L) o)) as Hadd.
  { intros x l c Hx. rewrite records_len_app. destruct (records_len L x l c) as [lx cx]. cbn [fst] in Hx. pose proof (records_plain Hs o lx cx). lia. }
  destruct A4 as [[A4 [-> A6]]|A4].
  - rewrite firstn_all, A6. destruct B4 as [[B4 [-> B6]]|B4].
    + rewrite firstn_all, B6. apply Hadd. exact D2.
    + destruct (records_len L (firstn nn (m_ns m)) l1 c1) as [lx cx]. rewrite (D5 B4). cbn [firstn]. apply Hadd. exact B2.
  - rewrite (B5 A4). cbn [firstn records_len]. assert (l2 = size) as Hl2 by lia. rewrite (D5 Hl2). cbn [firstn].
    destruct (records_len L (firstn na (m_answer m)) l0 c0) as [lx cx]. apply Hadd. exact A2.
Qed.

(** The truncated message fits, provided that the header, the questions and the OPT record do. *)
Theorem C54_fits_partial : forall size m, shrinks -> is_tsig m = false ->
  fst (questions_len L (m_question m) 12 (cstart L)) + opt_len m <= Nat.max size 512 ->
  packed_len L (truncate L size m) <= Nat.max size 512.
Proof.
  intros size m Hs Ht Hq. unfold truncate. rewrite Ht. cbv zeta. set (sz := Nat.max size 512) in *.
  destruct (Nat.leb_spec (plain_len L m) sz) as [Hp|Hp]; [pose proof (packed_plain m Hs); lia|].
  unfold opt_len in Hq. unfold pop_edns0. destruct (is_edns0 m) as [o|].
  - pose proof (truncate_packed (sz - plain_record_len L o) m (rev (remove_first is_opt (rev (m_extra m)))) [o] ltac:(lia)) as H.
    destruct (questions_len L (m_question m) 12 (cstart L)) as [l0 c0].
    destruct (truncate_section L (m_answer m) _ l0 c0) as [[l1 na] c1].
    destruct (truncate_section L (m_ns m) _ l1 c1) as [[l2 nn] c2].
    destruct (truncate_section L _ _ l2 c2) as [[l3 ne] c3].
    eapply Nat.le_trans; [apply H, Hs|]. cbn [fst] in Hq. cbn. lia.
  - pose proof (truncate_packed (sz - 0) m (m_extra m) [] ltac:(lia)) as H.
    destruct (questions_len L (m_question m) 12 (cstart L)) as [l0 c0].
    destruct (truncate_section L (m_answer m) _ l0 c0) as [[l1 na] c1].
    destruct (truncate_section L (m_ns m) _ l1 c1) as [[l2 nn] c2].
    destruct (truncate_section L _ _ l2 c2) as [[l3 ne] c3].
    eapply Nat.le_trans; [apply H, Hs|]. cbn. lia.
Qed.

Lemma pop_edns0_perm m o extra : pop_edns0 m = (Some o, extra) -> Permutation (extra ++ [o]) (m_extra m).
Proof.
  unfold pop_edns0, is_edns0. destruct (find is_opt (rev (m_extra m))) as [o'|] eqn:E; [|discriminate]. intros [= <- <-].
  assert (forall l, find is_opt l = Some o' -> Permutation (o' :: remove_first is_opt l) l) as Hp.
  { clear. induction l as [|x l IH]; cbn; [discriminate|]. destruct (is_opt x); [now intros [= ->]|]. intros H. apply IH in H.
    eapply perm_trans; [apply perm_swap|]. now constructor. }
  apply Hp in E. rewrite (Permutation_app_comm). cbn [app]. rewrite <- (Permutation_rev (remove_first is_opt (rev (m_extra m)))).
  rewrite E. symmetry. apply Permutation_rev.
Qed.

(** What is kept is a beginning of each section; id, question and the other header fields stay; the flag TC is set iff
    something is missing (or it was set before). *)
Theorem C54_truncation_marked : forall size m,
  let m' := truncate L size m in
  m_id m' = m_id m /\ m_response m' = m_response m /\ m_rcode m' = m_rcode m /\ m_question m' = m_question m /\
  (exists k, m_answer m' = firstn k (m_answer m)) /\ (exists k, m_ns m' = firstn k (m_ns m)) /\
  (m_tc m' = true <-> m_tc m = true \/ length (m_answer m') + length (m_ns m') + length (m_extra m') < length (m_answer m) + length (m_ns m) + length (m_extra m)) /\
  (m_tc m' = false -> m_answer m' = m_answer m /\ m_ns m' = m_ns m /\ Permutation (m_extra m') (m_extra m)).
Proof.
  intros size m m'. subst m'. unfold truncate.
  assert (m_id m = m_id m /\ m_response m = m_response m /\ m_rcode m = m_rcode m /\ m_question m = m_question m /\
    (exists k, m_answer m = firstn k (m_answer m)) /\ (exists k, m_ns m = firstn k (m_ns m)) /\
    (m_tc m = true <-> m_tc m = true \/ length (m_answer m) + length (m_ns m) + length (m_extra m) < length (m_answer m) + length (m_ns m) + length (m_extra m)) /\
    (m_tc m = false -> m_answer m = m_answer m /\ m_ns m = m_ns m /\ Permutation (m_extra m) (m_extra m))) as Hid.
  { do 4 (split; [reflexivity|]). split; [exists (length (m_answer m)); now rewrite firstn_all|]. split; [exists (length (m_ns m)); now rewrite firstn_all|].
    split; [|auto]. split; [auto|]. intros [H|H]; [auto|lia]. }
  destruct (is_tsig m); [exact Hid|]. cbv zeta. destruct (plain_len L m <=? Nat.max size 512); [exact Hid|]. clear Hid.
  destruct (pop_edns0 m) as [edns0 extra] eqn:Ep.
  assert (Permutation (extra ++ match edns0 with Some o => [o] | None => [] end) (m_extra m)) as Hperm.
  { destruct edns0 as [o|]; [now apply pop_edns0_perm|]. unfold pop_edns0 in Ep. destruct (is_edns0 m); [discriminate|]. injection Ep as <-. now rewrite app_nil_r. }
  pose proof (Permutation_length Hperm) as Hlen. rewrite app_length in Hlen. set (ol := match edns0 with Some o => [o] | None => [] end) in *.
  assert (forall rs s l c l' k c', truncate_section L rs s l c = (l', k, c') -> k <= length rs) as Hk.
  { clear. intros rs s l c l' k c'. unfold truncate_section. destruct (l <? s); [|intros [= <- <- <-]; lia].
    revert l c l' k c'. induction rs as [|r rs IH]; intros l c l' k c'; cbn [truncate_loop length]; [intros [= <- <- <-]; lia|].
    destruct (record_len L l c r) as [n c1]. destruct (s <? l + n); [intros [= <- <- <-]; lia|]. destruct (l + n =? s); [intros [= <- <- <-]; lia|].
    destruct (truncate_loop L rs s (l + n) c1) as [[l2 k2] c2] eqn:E. intros [= <- <- <-]. apply IH in E. lia. }
  destruct (questions_len L (m_question m) 12 (cstart L)) as [l0 c0].
  destruct (truncate_section L (m_answer m) _ l0 c0) as [[l1 na] c1] eqn:E1.
  destruct (truncate_section L (m_ns m) _ l1 c1) as [[l2 nn] c2] eqn:E2.
  destruct (truncate_section L _ _ l2 c2) as [[l3 ne] c3] eqn:E3.
  apply Hk in E1, E2, E3. cbn [set_tc set_answer set_ns set_extra m_id m_response m_rcode m_question m_answer m_ns m_extra m_tc].
  do 4 (split; [reflexivity|]). split; [eauto|]. split; [eauto|]. rewrite app_length, !firstn_length, !Nat.min_l by lia.
  split.
  - rewrite !orb_true_iff, !Nat.ltb_lt. split; [intros [[[H|H]|H]|H]; [auto|right; lia..]|]. intros [H|H]; [auto|].
    destruct (Nat.ltb_spec na (length (m_answer m))); [auto|]. destruct (Nat.ltb_spec nn (length (m_ns m))); [auto|]. right. lia.
  - rewrite !orb_false_iff, !Nat.ltb_ge. intros [[[_ H1] H2] H3].
    assert (na = length (m_answer m)) as -> by lia. assert (nn = length (m_ns m)) as -> by lia. assert (ne = length extra) as -> by lia.
    rewrite !firstn_all. auto.
Qed.

(** Nothing is removed from a message that fits without compression. *)
Theorem C54_no_needless_truncation : forall size m, plain_len L m <= Nat.max size 512 -> truncate L size m = m.
Proof. intros size m H. unfold truncate. destruct (is_tsig m); auto. cbv zeta. now apply Nat.leb_le in H as ->. Qed.
End Trunc.
Print Assumptions C54_fits_partial.
Print Assumptions C54_truncation_marked.
Print Assumptions C54_no_needless_truncation.

(** ** C54: the size a client accepts *)
Lemma find_rev_split {A} (f : A -> bool) : forall l o, find f (rev l) = Some o <->
  exists before after, l = before ++ o :: after /\ f o = true /\ forall x, In x after -> f x = false.
Proof.
  intros l o. split.
  - induction l as [|x l IH] using rev_ind; [discriminate|]. rewrite rev_app_distr. cbn [rev app find]. destruct (f x) eqn:E.
    + intros [= <-]. exists l, []. split; auto. split; auto. intros y [].
    + intros H. destruct (IH H) as [b [a [-> [H1 H2]]]]. exists b, (a ++ [x]). rewrite <- app_assoc. split; auto. split; auto.
      intros y Hy. apply in_app_iff in Hy as [Hy|[<-|[]]]; auto.
  - intros [b [a [-> [H1 H2]]]]. rewrite rev_app_distr. cbn [rev]. rewrite <- app_assoc.
    assert (forall l t, (forall x, In x l -> f x = false) -> find f (l ++ t) = find f t) as Hskip.
    { clear. induction l as [|x l IH]; intros t H; cbn [app find]; auto. rewrite (H x (or_introl eq_refl)). apply IH. intros y Hy. apply H. now right. }
    rewrite Hskip; [cbn; now rewrite H1|]. intros x Hx. apply in_rev in Hx. auto.
Qed.

Lemma is_opt_type r : is_opt r = true <-> rr_type r = 41%N.
Proof. unfold is_opt. apply N.eqb_eq. Qed.
Lemma not_opt_type r : is_opt r = false <-> rr_type r <> 41%N.
Proof. unfold is_opt. apply N.eqb_neq. Qed.

Lemma announced_iff q s : announced q s <-> exists o, is_edns0 q = Some o /\ rr_class o = s.
Proof.
  unfold announced, is_edns0. split.
  - intros [b [o [a [E [Ht [Hc Ha]]]]]]. exists o. split; auto. apply find_rev_split. exists b, a. split; auto. split; [now apply is_opt_type|]. intros x Hx. now apply not_opt_type, Ha.
  - intros [o [H Hc]]. apply find_rev_split in H as [b [a [E [Ht Ha]]]]. exists b, o, a. split; auto. split; [now apply is_opt_type|]. split; auto. intros x Hx. now apply not_opt_type, Ha.
Qed.

Lemma no_opt_iff q : no_opt q <-> is_edns0 q = None.
Proof.
  unfold no_opt, is_edns0. split.
  - intros H. destruct (find is_opt (rev (m_extra q))) as [o|] eqn:E; auto. apply find_some in E as [H1 H2]. apply in_rev in H1. apply is_opt_type in H2. elim (H o H1 H2).
  - intros H x Hx. apply not_opt_type. apply (find_none _ _ H). now apply -> in_rev.
Qed.

Lemma max_size_udp q size : accepts UDP q size -> Nat.max (max_response_size q UDP) 512 = N.to_nat size.
Proof.
  unfold max_response_size. intros [[H ->]|[s [H ->]]].
  - apply no_opt_iff in H. rewrite H. reflexivity.
  - apply announced_iff in H as [o [-> <-]]. destruct (N.ltb_spec 0 (rr_class o)).
    + rewrite N2Nat.inj_max. reflexivity.
    + replace (rr_class o) with 0%N by lia. reflexivity.
Qed.

Lemma truncate_opt_len L size m : opt_len L (truncate L size m) = opt_len L m.
Proof.
  unfold truncate. destruct (is_tsig m); auto. cbv zeta. destruct (plain_len L m <=? Nat.max size 512); auto.
  unfold pop_edns0. destruct (is_edns0 m) as [o|] eqn:Eo;
    destruct (questions_len L (m_question m) 12 (cstart L)) as [l0 c0];
    destruct (truncate_section L (m_answer m) _ l0 c0) as [[l1 na] c1];
    destruct (truncate_section L (m_ns m) _ l1 c1) as [[l2 nn] c2];
    destruct (truncate_section L _ _ l2 c2) as [[l3 ne] c3]; unfold opt_len; rewrite Eo.
  - unfold is_edns0 in *. cbn [set_tc set_answer set_ns set_extra m_extra]. rewrite rev_app_distr. cbn [rev app find].
    apply find_some in Eo as [_ ->]. reflexivity.
  - unfold is_edns0 in *. cbn [set_tc set_answer set_ns set_extra m_extra]. rewrite app_nil_r.
    destruct (find is_opt (rev (firstn ne (m_extra m)))) as [o|] eqn:E; auto. exfalso.
    apply find_some in E as [H1 H2]. apply in_rev in H1. rewrite <- (firstn_skipn ne (m_extra m)) in Eo.
    pose proof (find_none _ _ Eo o) as Hn. rewrite <- in_rev, in_app_iff in Hn. rewrite Hn in H2; [discriminate|auto].
Qed.

Lemma truncate_tsig L size m : is_tsig m = true -> truncate L size m = m.
Proof. intros H. unfold truncate. now rewrite H. Qed.

Lemma finish_fits L rm p m size : shrinks L -> Nat.max (max_response_size rm p) 512 = size ->
  let m' := finish L rm p m in is_tsig m' = false ->
  fst (questions_len L (m_question m') 12 (cstart L)) + opt_len L m' <= size -> packed_len L m' <= size.
Proof.
  intros Hs Hmax m' Ht Hq. subst m'. unfold finish in *. rewrite <- Hmax in *. apply C54_fits_partial; auto.
  - destruct (is_tsig (set_ra (m_rd rm) m)) eqn:E; auto. rewrite truncate_tsig in Ht by auto. congruence.
  - rewrite truncate_opt_len in Hq. destruct (C54_truncation_marked L (max_response_size rm p) (set_ra (m_rd rm) m)) as [_ [_ [_ [Eq _]]]]. now rewrite Eq in Hq.
Qed.

(** Over UDP every message written fits the size the client accepts; provided that the chain leaves the OPT record of
    the request alone, and that the header, the question and the OPT record of the reply fit. *)
Theorem C54_udp_partial : forall L c req size m, shrinks L -> req_proto req = UDP -> accepts UDP (req_msg req) size ->
  m_extra (fst (c req)) = m_extra (req_msg req) -> In m (handle_req L c req) -> is_tsig m = false ->
  fst (questions_len L (m_question m) 12 (cstart L)) + opt_len L m <= N.to_nat size -> packed_len L m <= N.to_nat size.
Proof.
  intros L c req size m Hs Hp Ha Hc Hin Ht Hq. unfold handle_req, server_resolve in Hin. rewrite Hp in Hin.
  assert (forall rm, m_extra rm = m_extra (req_msg req) -> Nat.max (max_response_size rm UDP) 512 = N.to_nat size) as Hmax.
  { intros rm E. apply max_size_udp. unfold accepts, no_opt, announced in *. now rewrite E. }
  destruct (m_question (req_msg req)) as [|q qs].
  - destruct Hin as [<-|[]]. eapply finish_fits; eauto.
  - destruct (c req) as [rm r]. cbn [fst] in Hc. specialize (Hmax rm Hc).
    assert (In m [set_rcode empty_msg rm rcode_servfail] -> packed_len L m <= N.to_nat size) as Herr.
    { intros [<-|[]]. unfold packed_len. cbn [set_rcode set_rcode_field set_reply empty_msg m_answer m_ns m_extra m_question] in *.
      destruct (questions_len L _ 12 (cstart L)) as [l0 c0]. cbn in *. lia. }
    destruct r as [r|um| |]; try (exact (Herr Hin)).
    + destruct (rs_msg r) as [rsm|]; [|exact (Herr Hin)]. destruct Hin as [<-|[]]. eapply finish_fits; eauto.
    + destruct Hin as [<-|[]]. eapply finish_fits; eauto.
Qed.
Print Assumptions C54_udp_partial.

(** A plain query over a TCP or TLS connection gets everything up to 65535 bytes; over UDP at most 512.  Both carry the address of the peer. *)
Theorem C54_connection : forall L c i sni q m, no_opt q -> m_question q <> [] ->
  (forall r, m_extra (fst (c r)) = m_extra (req_msg r)) ->
  (forall x, snd (c (request_from_dns (TcpAddr i) sni q)) = CRes x -> rs_msg x = Some m -> plain_len L m <= N.to_nat 65535 ->
    exists w, handle_req L c (request_from_dns (TcpAddr i) sni q) = [w] /\ m_answer w = m_answer m /\ m_ns w = m_ns m /\ m_extra w = m_extra m /\ m_tc w = m_tc m) /\
  (shrinks L -> In m (handle_req L c (request_from_dns (UdpAddr i) sni q)) -> is_tsig m = false ->
    fst (questions_len L (m_question m) 12 (cstart L)) + opt_len L m <= 512 -> packed_len L m <= 512) /\
  req_ip (request_from_dns (TcpAddr i) sni q) = Some i /\ req_ip (request_from_dns (UdpAddr i) sni q) = Some i.
Proof.
  intros L c i sni q m Ho Hq Hc. split; [|split; [|split; reflexivity]].
  - intros x Hx Hm Hl. set (r := request_from_dns (TcpAddr i) sni q) in *. unfold handle_req, server_resolve.
    change (req_msg r) with q. change (req_proto r) with TCP.
    destruct (m_question q) as [|q0 qs]; [congruence|]. specialize (Hc r). destruct (c r) as [rm res]. cbn [fst snd] in *. subst res. rewrite Hm.
    eexists. split; [reflexivity|]. unfold finish.
    assert (max_response_size rm TCP = N.to_nat 65535) as ->.
    { unfold max_response_size. assert (no_opt rm) as Hn by (unfold no_opt in *; rewrite Hc; exact Ho). apply no_opt_iff in Hn. now rewrite Hn. }
    rewrite C54_no_needless_truncation; [auto|]. etransitivity; [|apply Nat.le_max_l]. exact Hl.
  - intros Hs Hin Ht Hl. change 512 with (N.to_nat 512). apply (C54_udp_partial L c (request_from_dns (UdpAddr i) sni q)); auto.
    left. split; [exact Ho|reflexivity].
Qed.
Print Assumptions C54_connection.

(** A simple measure for examples: 16 bytes for a question and every record, plus 600 for every EDE option. *)
Definition flat_lengths : lengths :=
  {| cstate := unit; cstart := tt;
     question_len := fun _ _ _ => (16, tt);
     record_len := fun _ _ r => (match rr_data r with DOPT [EOEde _ _] => 616 | _ => 16 end, tt);
     plain_question_len := fun _ => 16;
     plain_record_len := fun r => match rr_data r with DOPT [EOEde _ _] => 616 | _ => 16 end |}.
Lemma flat_shrinks : shrinks flat_lengths.
Proof. split; intros; cbn; lia. Qed.

Definition example_query (extra : list rr) : msg := set_extra extra (new_msg_with_question 77 $"example.com." type_A).
Definition opt_rr (size : N) (o : list eopt) : rr := {| rr_name := $"."; rr_type := type_OPT; rr_class := size; rr_ttl := 0; rr_data := DOPT o |}.
Definition example_rr : rr := {| rr_name := $"example.com."; rr_type := type_A; rr_class := 1; rr_ttl := 60; rr_data := DA (IP4 [1; 2; 3; 4]%N) |}.
Definition example_req (p : proto) (extra : list rr) : request :=
  {| req_ip := Some (IP4 [10; 0; 0; 1]%N); req_client_id := []; req_proto := p; req_names := []; req_msg := example_query extra |}.
(** A chain that answers with [n] records. *)
Definition answering (n : nat) (extra : list rr) (req : request) : msg * chain_result :=
  (req_msg req, CRes {| rs_msg := Some (set_extra extra (set_answer (repeat example_rr n) (set_reply empty_msg (req_msg req)))); rs_reason := []; rs_type := RESOLVED |}).

Example C54_example :
  map (fun m => (packed_len flat_lengths m, length (m_answer m), m_tc m)) (handle_req flat_lengths (answering 40 []) (example_req UDP [])) = [(508, 30, true)] /\
  map (fun m => (packed_len flat_lengths m, length (m_answer m), m_tc m)) (handle_req flat_lengths (answering 40 []) (example_req UDP [opt_rr 1232 []])) = [(668, 40, false)] /\
  map (fun m => (packed_len flat_lengths m, length (m_answer m), m_tc m)) (handle_req flat_lengths (answering 40 []) (example_req TCP [])) = [(668, 40, false)].
Proof.
  assert (forall m, plain_len flat_lengths m <= N.to_nat 65535 -> truncate flat_lengths (N.to_nat 65535) m = m) as Hbig.
  { intros m H. apply C54_no_needless_truncation. lia. }
  split; [vm_compute; reflexivity|]. split; [vm_compute; reflexivity|].
  unfold handle_req, server_resolve, finish. cbn [example_req req_msg example_query set_extra new_msg_with_question m_question answering rs_msg req_proto].
  change (max_response_size _ TCP) with (N.to_nat 65535). rewrite Hbig by (apply Nat.le_trans with (N.to_nat 1000); [vm_compute; lia|lia]). vm_compute. reflexivity.
Qed.

(** A TCP client that announces 512 bytes for UDP gets a truncated answer over TCP. *)
Theorem C54_tcp_edns_refuted : exists L c req m, shrinks L /\ req_proto req = TCP /\ accepts TCP (req_msg req) 65535 /\
  snd (c req) = CRes {| rs_msg := Some m; rs_reason := []; rs_type := RESOLVED |} /\ plain_len L m = 668 /\ m_tc m = false /\
  exists w, handle_req L c req = [w] /\ m_tc w = true /\ length (m_answer w) < length (m_answer m).
Proof.
  exists flat_lengths, (answering 40 []), (example_req TCP [opt_rr 512 []]).
  eexists. split; [apply flat_shrinks|]. split; [reflexivity|]. split; [reflexivity|]. split; [reflexivity|]. split; [reflexivity|]. split; [reflexivity|].
  eexists. split; [reflexivity|]. split; [reflexivity|]. vm_compute. lia.
Qed.
Print Assumptions C54_tcp_edns_refuted.

(** The OPT record of the reply is never removed: with a long extended error the message is longer than the client
    accepts. *)
Theorem C54_long_opt_refuted : exists L c req m, shrinks L /\ accepts UDP (req_msg req) 512 /\ req_proto req = UDP /\
  handle_req L c req = [m] /\ 512 < packed_len L m.
Proof.
  exists flat_lengths, (answering 1 [opt_rr 0 [EOEde 15 $"..."]]), (example_req UDP []). eexists.
  split; [apply flat_shrinks|]. split; [left; split; [intros x []|reflexivity]|]. split; [reflexivity|]. split; [reflexivity|]. vm_compute. lia.
Qed.
Print Assumptions C54_long_opt_refuted.

(** The chain of one resolver that changes the request in place. *)
Definition in_place (p : request -> prog) (next : next_fn) (req : request) : msg * chain_result :=
  (match forwarded (p req) next with q :: _ => req_msg q | [] => req_msg req end,
   match exec (p req) next with Some (Ok r) => CRes r | Some (Err _) => CErr | None => CPanic end).

(** A client that announces 1232 bytes and sends a client subnet: with "useAsClient" and without masks the ECS resolver removes
    the whole OPT record, and the answer is truncated to 512 bytes. *)
Theorem C54_ecs_drops_size_refuted : exists L c cfg next req m, c = in_place (ecs_resolve cfg) next /\ shrinks L /\ req_proto req = UDP /\
  accepts UDP (req_msg req) 1232 /\ (forall q, next q = Some (Ok {| rs_msg := Some m; rs_reason := []; rs_type := RESOLVED |})) /\
  plain_len L m < 1232 /\ exists w, handle_req L c req = [w] /\ m_tc w = true /\ packed_len L w <= 512.
Proof.
  set (req := example_req UDP [opt_rr 1232 [EOSubnet 1 24 0 (Some (IP4 [192; 0; 2; 0]%N))]]).
  set (m := set_answer (repeat example_rr 40) (set_reply empty_msg (req_msg req))).
  set (next := fun _ : request => Some (Ok {| rs_msg := Some m; rs_reason := []; rs_type := RESOLVED |})).
  set (cfg := {| ec_client := true; ec_forward := false; ec_mask4 := 0; ec_mask6 := 0 |}).
  exists flat_lengths, (in_place (ecs_resolve cfg) next), cfg, next, req, m. split; [reflexivity|]. split; [apply flat_shrinks|]. split; [reflexivity|].
  split. { right. exists 1232%N. split; [|reflexivity]. apply announced_iff. eexists. split; reflexivity. }
  split; [reflexivity|]. split; [vm_compute; lia|]. eexists. split; [reflexivity|]. split; [reflexivity|]. vm_compute. lia.
Qed.
Print Assumptions C54_ecs_drops_size_refuted.

(** ** C53: one matching reply *)
Theorem C53_one_reply : forall L c req, exists m, handle_req L c req = [m].
Proof. intros L c req. unfold handle_req. destruct (server_resolve L c req) as [rm [m|]]; eauto. Qed.
Print Assumptions C53_one_reply.

Lemma reply_error q code : error_reply q (set_rcode empty_msg q code) code.
Proof.
  unfold error_reply, reply_to, set_rcode, set_rcode_field, set_reply. cbn. destruct (m_question q) as [|x l]; cbn; auto 10.
Qed.

Theorem C53_no_question : forall L c req, m_question (req_msg req) = [] ->
  exists m, handle_req L c req = [m] /\ error_reply (req_msg req) m 1.
Proof.
  intros L c req H. unfold handle_req, server_resolve. rewrite H. eexists. split; [reflexivity|]. unfold finish. rewrite C54_no_needless_truncation.
  - unfold error_reply, reply_to. cbn. rewrite H. auto 10.
  - unfold plain_len, set_ra, set_rcode, set_rcode_field, set_reply. cbn [m_question m_answer m_ns m_extra empty_msg]. rewrite H. cbn. lia.
Qed.
Print Assumptions C53_no_question.

(** Errors, crashes and missing messages give SERVFAIL.  [rm]: the message of the request as the chain left it. *)
Theorem C53_failure_partial : forall L c req, m_question (req_msg req) <> [] ->
  let '(rm, r) := c req in
  m_id rm = m_id (req_msg req) -> m_question rm = m_question (req_msg req) ->
  match r with CErr | CPanic => True | CRes x => rs_msg x = None | CUpstream _ => False end ->
  exists m, handle_req L c req = [m] /\ error_reply (req_msg req) m 2.
Proof.
  intros L c req Hq. destruct (c req) as [rm r] eqn:Ec. intros Hid Hqs Hr. unfold handle_req, server_resolve.
  destruct (m_question (req_msg req)) as [|x l] eqn:E; [congruence|]. rewrite Ec.
  assert (error_reply (req_msg req) (set_rcode empty_msg rm rcode_servfail) 2) as Herr.
  { pose proof (reply_error rm rcode_servfail) as [[H1 [H2 H3]] H4]. split; [|exact H4]. unfold reply_to. rewrite H1, H3, Hid, Hqs, E. auto. }
  destruct r as [x'| | |]; [rewrite Hr|contradiction|..]; eauto.
Qed.
Print Assumptions C53_failure_partial.

(** A reply of the chain, or of the upstream with an error, is passed on: same id, code and question, RA as RD of the query. *)
Theorem C53_reply_passed : forall L c req m, m_question (req_msg req) <> [] ->
  (exists x, snd (c req) = CRes x /\ rs_msg x = Some m) \/ snd (c req) = CUpstream m ->
  exists w, handle_req L c req = [w] /\ m_id w = m_id m /\ m_response w = m_response m /\ m_rcode w = m_rcode m /\ m_question w = m_question m /\
    m_ra w = m_rd (fst (c req)) /\ (reply_to (req_msg req) m -> reply_to (req_msg req) w).
Proof.
  intros L c req m Hq Hr. unfold handle_req, server_resolve. destruct (m_question (req_msg req)) as [|q qs] eqn:E; [congruence|].
  destruct (c req) as [rm r]. cbn [fst snd] in *.
  assert (forall s, m_ra (truncate L s (set_ra (m_rd rm) m)) = m_rd rm) as Hra.
  { intros s. unfold truncate. destruct (is_tsig _); auto. cbv zeta. destruct (_ <=? _); auto. destruct (pop_edns0 _) as [o ex].
    destruct (questions_len L _ 12 (cstart L)) as [l0 c0]. destruct (truncate_section L (m_answer _) _ l0 c0) as [[l1 na] c1].
    destruct (truncate_section L (m_ns _) _ l1 c1) as [[l2 nn] c2]. destruct (truncate_section L _ _ l2 c2) as [[l3 ne] c3]. reflexivity. }
  assert (exists w, [finish L rm (req_proto req) m] = [w] /\ m_id w = m_id m /\ m_response w = m_response m /\ m_rcode w = m_rcode m /\ m_question w = m_question m /\
    m_ra w = m_rd rm /\ (reply_to (req_msg req) m -> reply_to (req_msg req) w)) as Hw.
  { eexists. split; [reflexivity|]. unfold finish. destruct (C54_truncation_marked L (max_response_size rm (req_proto req)) (set_ra (m_rd rm) m)) as [H1 [H2 [H3 [H4 _]]]].
    cbn [set_ra m_id m_response m_rcode m_question] in *. rewrite Hra. unfold reply_to. rewrite H1, H2, H3, H4. auto 10. }
  destruct Hr as [[x [-> Hx]]| ->]; [rewrite Hx|]; exact Hw.
Qed.
Print Assumptions C53_reply_passed.

Example C53_example : map (fun m => (m_id m, m_response m, m_rcode m, m_ra m)) (handle_req flat_lengths (answering 3 []) (example_req UDP [])) = [(77, true, 0, true)]%N /\
  map (fun m => (m_id m, m_response m, m_rcode m)) (handle_req flat_lengths (fun r => (req_msg r, CPanic)) (example_req UDP [])) = [(77, true, 2)]%N.
Proof. split; reflexivity. Qed.

(** With "fqdnOnly" a query for a name without dot is answered by a message with id 0 that is not a response. *)
Theorem C53_fqdn_only_refuted : exists L req next w, shrinks L /\ m_id (req_msg req) = 77%N /\ length (m_question (req_msg req)) = 1 /\
  handle_req L (in_place (fqdn_only_resolve true) next) req = [w] /\ m_id w = 0%N /\ m_response w = false /\ m_question w = [] /\ ~ reply_to (req_msg req) w.
Proof.
  exists flat_lengths, {| req_ip := None; req_client_id := []; req_proto := UDP; req_names := []; req_msg := new_msg_with_question 77 $"printer." type_A |}, (fun _ => None).
  eexists. split; [apply flat_shrinks|]. do 2 (split; [reflexivity|]). split; [reflexivity|]. do 3 (split; [reflexivity|]). intros [H _]. discriminate.
Qed.
Print Assumptions C53_fqdn_only_refuted.

(** The health check is answered without the chain. *)
Theorem C53_health_check : forall q, exists m, health_check q = [m] /\ error_reply q m 0.
Proof. intros q. eexists. split; [reflexivity|]. unfold error_reply, reply_to. cbn. destruct (m_question q); cbn; auto 10. Qed.
Print Assumptions C53_health_check.

(** ** C57: client ids *)
Theorem C57_client_id : forall h x, x <> [] -> (client_id_from_host h = x <-> id_host h x).
Proof.
  intros h x Hx. unfold client_id_from_host. split.
  - destruct (has_prefix h $"id-" && contains_byte dot h) eqn:E; [|intros <-; congruence]. apply andb_true_iff in E as [Hp Hc].
    apply has_prefix_spec in Hp as [t ->]. destruct (index_byte dot ($"id-" ++ t)) as [i|] eqn:Ei; [|intros <-; congruence].
    intros <-. apply index_byte_Some in Ei as [E1 [E2 _]].
    destruct i as [|[|[|i]]]; try (exfalso; cbn in E1; injection E1; intros; discriminate).
    cbn [app firstn skipn] in *. injection E1 as E1. exists (skipn (S i) t). split; [exact (f_equal (app $"id-") E1)|]. intros Hin. apply E2. cbn. auto.
  - intros [rest [-> Hnd]].
    assert (~ In dot ($"id-" ++ x)) as Hn.
    { intros H. apply in_app_iff in H as [H|H]; [|auto]. cbn in H. destruct H as [H|[H|[H|[]]]]; discriminate. }
    assert (contains_byte dot ($"id-" ++ x ++ dot :: rest) = true) as Hc by (apply contains_byte_In; rewrite !in_app_iff; right; right; now left).
    rewrite Hc, (proj2 (has_prefix_spec _ _)) by eauto. cbn [andb]. rewrite app_assoc, index_byte_app by auto. rewrite firstn_app, firstn_all, Nat.sub_diag, app_nil_r. reflexivity.
Qed.
Print Assumptions C57_client_id.

Theorem C57_no_client_id : forall h, (forall x, x <> [] -> ~ id_host h x) -> client_id_from_host h = [].
Proof.
  intros h H. destruct (client_id_from_host h) as [|a l] eqn:E; auto. exfalso. apply (H (a :: l)); [discriminate|]. apply C57_client_id; [discriminate|auto].
Qed.
Print Assumptions C57_no_client_id.

(** An explicit client id in the path of a DoH request comes first; over plain DNS there is none. *)
Theorem C57_requests : forall parse h m a i,
  (h_client_id h <> [] -> req_client_id (request_from_http parse h m) = h_client_id h) /\
  (h_client_id h = [] -> forall x, x <> [] -> (req_client_id (request_from_http parse h m) = x <-> id_host (h_host h) x)) /\
  req_client_id (request_from_dns a None m) = [] /\
  (forall x, x <> [] -> (req_client_id (request_from_dns a (Some i) m) = x <-> id_host i x)).
Proof.
  intros parse h m a i. unfold request_from_http, request_from_dns. destruct (client_ip_and_protocol a) as [ia pa]. cbn [req_client_id].
  split; [destruct (h_client_id h); [congruence|reflexivity]|]. split; [intros ->; apply C57_client_id|]. split; [reflexivity|]. apply C57_client_id.
Qed.
Print Assumptions C57_requests.

Example C57_example : client_id_from_host $"id-laptop.dns.example.com" = $"laptop" /\ client_id_from_host $"id-laptop" = [] /\
  client_id_from_host $"dns.id-laptop.com" = [] /\ id_host $"id-laptop.dns.example.com" $"laptop".
Proof. do 3 (split; [reflexivity|]). exists $"dns.example.com". split; [reflexivity|]. cbn. intuition discriminate. Qed.

(** ** C56: max-age *)
Lemma smallest_ttl_step : forall rs ttl, (0 < ttl)%N -> Forall (fun r => (0 < rr_ttl r)%N) rs ->
  let t := fold_left (fun ttl r => if (rr_ttl r <? ttl)%N || (ttl =? 0)%N then rr_ttl r else ttl) rs ttl in
  (0 < t)%N /\ (t = ttl \/ exists r, In r rs /\ rr_ttl r = t) /\ (t <= ttl)%N /\ forall r, In r rs -> (t <= rr_ttl r)%N.
Proof.
  induction rs as [|r rs IH]; intros ttl Ht Hp; cbn [fold_left]; [repeat split; auto; [lia|intros r []]|].
  inversion Hp as [|? ? Hr Hrs]; subst.
  assert ((ttl =? 0)%N = false) as E by (apply N.eqb_neq; lia). rewrite E, orb_false_r.
  destruct (N.ltb_spec (rr_ttl r) ttl) as [Hl|Hl].
  - destruct (IH (rr_ttl r) Hr Hrs) as [H1 [H2 [H3 H4]]]. cbv zeta. split; auto. split; [right; destruct H2 as [->|[x [Hx1 Hx2]]]; [exists r; split; [now left|auto]|exists x; split; [now right|auto]]|].
    split; [lia|]. intros x [<-|Hx]; auto.
  - destruct (IH ttl Ht Hrs) as [H1 [H2 [H3 H4]]]. cbv zeta. split; auto. split; [destruct H2 as [H2|[x [Hx1 Hx2]]]; [now left|right; exists x; split; [now right|auto]]|].
    split; [lia|]. intros x [<-|Hx]; [lia|auto].
Qed.

Theorem C56_max_age_partial : forall rs, rs <> [] -> (forall r, In r rs -> (0 < rr_ttl r)%N) ->
  (exists r, In r rs /\ smallest_ttl rs = rr_ttl r) /\ forall r, In r rs -> (smallest_ttl rs <= rr_ttl r)%N.
Proof.
  intros rs Hne Hp. destruct rs as [|r rs]; [congruence|]. unfold smallest_ttl. cbn [fold_left].
  assert ((rr_ttl r <? 0)%N || (0 =? 0)%N = true) as -> by (rewrite N.eqb_refl; apply orb_true_r).
  destruct (smallest_ttl_step rs (rr_ttl r)) as [H1 [H2 [H3 H4]]]; [apply Hp; now left|apply Forall_forall; intros x Hx; apply Hp; now right|].
  cbv zeta in *. split.
  - destruct H2 as [H2|[x [Hx H2]]]; [exists r|exists x]; split; cbn; auto.
  - intros x [<-|Hx]; auto.
Qed.
Print Assumptions C56_max_age_partial.

Theorem C56_no_answer : smallest_ttl [] = 0%N.
Proof. reflexivity. Qed.

Example C56_example : smallest_ttl [set_ttl 300 example_rr; set_ttl 20 example_rr; set_ttl 60 example_rr] = 20%N.
Proof. reflexivity. Qed.

(** A record that must not be cached (TTL 0) is ignored: the response may be cached for the TTL of the others. *)
Theorem C56_zero_ttl_refuted : exists rs r, In r rs /\ rr_ttl r = 0%N /\ smallest_ttl rs = 300%N.
Proof. exists [set_ttl 0 example_rr; set_ttl 300 example_rr], (set_ttl 0 example_rr). split; [now left|]. split; reflexivity. Qed.
Print Assumptions C56_zero_ttl_refuted.

(** ** C55: DNS over HTTPS requests *)
Lemma b64_val_forward v c : nth_error alphabet (N.to_nat v) = Some c -> b64_val c = Some v.
Proof.
  intros H. assert (N.to_nat v < 64) as Hl by (change 64 with (length alphabet); apply nth_error_Some; congruence).
  assert (forallb (fun n => match nth_error alphabet n with
    | Some c => match b64_val c with Some v => (v =? N.of_nat n)%N | None => false end | None => false end) (seq 0 64) = true) as Hall by (vm_compute; reflexivity).
  rewrite forallb_forall in Hall. specialize (Hall (N.to_nat v)). rewrite H in Hall. destruct (b64_val c) as [w|].
  - specialize (Hall ltac:(apply in_seq; lia)). apply N.eqb_eq in Hall. f_equal. lia.
  - discriminate Hall. apply in_seq. lia.
Qed.

Lemma b64_val_back c v : b64_val c = Some v -> nth_error alphabet (N.to_nat v) = Some c.
Proof.
  assert (forallb (fun n => let c := ascii_of_nat n in match b64_val c with
    | Some v => match nth_error alphabet (N.to_nat v) with Some d => Ascii.eqb c d | None => false end | None => true end) (seq 0 256) = true) as Hall by (vm_compute; reflexivity).
  rewrite forallb_forall in Hall. specialize (Hall (nat_of_ascii c)). cbv zeta in Hall. rewrite ascii_nat_embedding in Hall. intros H. rewrite H in Hall.
  assert (nat_of_ascii c < 256) as Hl by apply nat_ascii_bounded. specialize (Hall ltac:(apply in_seq; lia)).
  destruct (nth_error alphabet (N.to_nat v)) as [d|]; [|discriminate]. apply Ascii.eqb_eq in Hall. now subst.
Qed.

Lemma b64_val_small c v : b64_val c = Some v -> (v < 64)%N.
Proof. intros H. apply b64_val_back in H. assert (N.to_nat v < 64) by (change 64 with (length alphabet); apply nth_error_Some; congruence). lia. Qed.

(** The text without line breaks. *)
Definition unfolded (s : str) : str := filter (fun c => negb (Ascii.eqb c "013" || Ascii.eqb c "010")) s.

Lemma b64_values_iff s vs : b64_values s = Some vs <-> Forall2 (fun c v => nth_error alphabet (N.to_nat v) = Some c) (unfolded s) vs.
Proof.
  revert vs. induction s as [|c s IH]; intros vs; cbn [b64_values unfolded filter].
  - split; [intros [= <-]; constructor|inversion 1; auto].
  - destruct (Ascii.eqb c "013" || Ascii.eqb c "010"); cbn [negb]; [apply IH|]. split.
    + destruct (b64_val c) as [v|] eqn:Ev; [|discriminate]. destruct (b64_values s) as [l|]; [|discriminate]. intros [= <-].
      constructor; [now apply b64_val_back|now apply IH].
    + inversion 1 as [|? v ? l Hc Hl]; subst. apply b64_val_forward in Hc. rewrite Hc. apply IH in Hl. now rewrite Hl.
Qed.

Lemma bits_length n x : length (bits n x) = n.
Proof. revert x. induction n as [|n IH]; intros x; cbn [bits]; auto. rewrite app_length, IH. cbn. lia. Qed.

Lemma bits_app n m x y : (y < 2 ^ N.of_nat m)%N -> bits (n + m) (x * 2 ^ N.of_nat m + y) = bits n x ++ bits m y.
Proof.
  revert y. induction m as [|m IH]; intros y Hy.
  - cbn in Hy. assert (y = 0%N) as -> by lia. cbn [bits]. rewrite Nat.add_0_r, app_nil_r. f_equal. cbn. lia.
  - rewrite Nat.add_succ_r. cbn [bits]. rewrite Nat2N.inj_succ, N.pow_succ_r' in *.
    replace (x * (2 * 2 ^ N.of_nat m) + y)%N with (2 * (x * 2 ^ N.of_nat m) + y)%N by lia.
    assert ((2 * (x * 2 ^ N.of_nat m) + y) / 2 = x * 2 ^ N.of_nat m + y / 2)%N as ->.
    { rewrite (N.mul_comm 2), N.div_add_l by lia. reflexivity. }
    rewrite IH by (apply N.div_lt_upper_bound; lia). rewrite <- app_assoc. do 2 f_equal. f_equal.
    rewrite N.odd_add, N.odd_mul. change (N.odd 2) with false. cbn [andb]. now destruct (N.odd y).
Qed.

Lemma bits_inj n : forall x y, (x < 2 ^ N.of_nat n)%N -> (y < 2 ^ N.of_nat n)%N -> bits n x = bits n y -> x = y.
Proof.
  induction n as [|n IH]; intros x y Hx Hy H.
  - cbn in *. lia.
  - cbn [bits] in H. apply app_inj_tail in H as [H1 H2]. rewrite Nat2N.inj_succ, N.pow_succ_r' in *.
    apply IH in H1; [|apply N.div_lt_upper_bound; lia..].
    rewrite (N.div_mod x 2), (N.div_mod y 2) by lia. rewrite H1. f_equal.
    rewrite <- !N.bit0_mod, !N.bit0_odd, H2. reflexivity.
Qed.

Lemma three_bytes a b c d : (a < 64)%N -> (b < 64)%N -> (c < 64)%N -> (d < 64)%N ->
  bits 6 a ++ bits 6 b ++ bits 6 c ++ bits 6 d = bits 8 (a * 4 + b / 16) ++ bits 8 ((b mod 16) * 16 + c / 4) ++ bits 8 ((c mod 4) * 64 + d) /\
  bits 6 a ++ bits 6 b = bits 8 (a * 4 + b / 16) ++ bits 4 (b mod 16) /\
  bits 6 a ++ bits 6 b ++ bits 6 c = bits 8 (a * 4 + b / 16) ++ bits 8 ((b mod 16) * 16 + c / 4) ++ bits 2 (c mod 4).
Proof.
  intros Ha Hb Hc Hd.
  assert (b / 16 < 4)%N by (apply N.div_lt_upper_bound; lia). assert (b mod 16 < 16)%N by (apply N.mod_lt; lia).
  assert (c / 4 < 16)%N by (apply N.div_lt_upper_bound; lia). assert (c mod 4 < 4)%N by (apply N.mod_lt; lia).
  assert (bits 6 b = bits 2 (b / 16) ++ bits 4 (b mod 16)) as Eb.
  { rewrite (N.div_mod b 16) at 1 by lia. rewrite (N.mul_comm 16). apply (bits_app 2 4). exact H0. }
  assert (bits 6 c = bits 4 (c / 4) ++ bits 2 (c mod 4)) as Ec.
  { rewrite (N.div_mod c 4) at 1 by lia. rewrite (N.mul_comm 4). apply (bits_app 4 2). exact H2. }
  assert (bits 8 (a * 4 + b / 16) = bits 6 a ++ bits 2 (b / 16)) as E1 by (apply (bits_app 6 2); exact H).
  assert (bits 8 ((b mod 16) * 16 + c / 4) = bits 4 (b mod 16) ++ bits 4 (c / 4)) as E2 by (apply (bits_app 4 4); exact H1).
  assert (bits 8 ((c mod 4) * 64 + d) = bits 2 (c mod 4) ++ bits 6 d) as E3 by (apply (bits_app 2 6); exact Hd).
  rewrite E1, E2, E3, Eb, Ec. rewrite <- !app_assoc. auto.
Qed.

Lemma byte_bounds a b c d : (a < 64)%N -> (b < 64)%N -> (c < 64)%N -> (d < 64)%N ->
  (a * 4 + b / 16 < 256 /\ (b mod 16) * 16 + c / 4 < 256 /\ (c mod 4) * 64 + d < 256)%N.
Proof.
  intros Ha Hb Hc Hd.
  assert (b / 16 < 4)%N by (apply N.div_lt_upper_bound; lia). assert (b mod 16 < 16)%N by (apply N.mod_lt; lia).
  assert (c / 4 < 16)%N by (apply N.div_lt_upper_bound; lia). assert (c mod 4 < 4)%N by (apply N.mod_lt; lia). lia.
Qed.

(** Induction on four elements at a time. *)
Lemma four_ind {A} (P : list A -> Prop) : P [] -> (forall a, P [a]) -> (forall a b, P [a; b]) -> (forall a b c, P [a; b; c]) ->
  (forall a b c d l, P l -> P (a :: b :: c :: d :: l)) -> forall l, P l.
Proof.
  intros H0 H1 H2 H3 H4. fix F 1. intros [|a [|b [|c [|d l]]]]; [exact H0|apply H1|apply H2|apply H3|apply H4, F].
Qed.

Lemma b64_groups_spec vs : Forall (fun v => (v < 64)%N) vs ->
  match b64_groups vs with
  | Some bs => Forall (fun b => (b < 256)%N) bs /\ exists fill, flat_map (bits 6) vs = flat_map (bits 8) bs ++ fill /\ length fill < 6
  | None => exists n, length vs = 4 * n + 1
  end.
Proof.
  induction vs as [|a|a b|a b c|a b c d l IH] using four_ind; intros Hv; cbn [b64_groups].
  - split; [constructor|]. exists []. cbn. split; auto. lia.
  - exists 0. reflexivity.
  - inversion Hv as [|? ? Ha Hv1]; subst. inversion Hv1 as [|? ? Hb _]; subst.
    destruct (byte_bounds a b 0 0 Ha Hb) as [B _]; [lia..|]. destruct (three_bytes a b 0 0 Ha Hb) as [_ [T _]]; [lia..|].
    split; [repeat constructor; exact B|]. exists (bits 4 (b mod 16)). cbn [flat_map]. rewrite !app_nil_r. split; [exact T|]. rewrite bits_length. lia.
  - inversion Hv as [|? ? Ha Hv1]; subst. inversion Hv1 as [|? ? Hb Hv2]; subst. inversion Hv2 as [|? ? Hc _]; subst.
    destruct (byte_bounds a b c 0 Ha Hb Hc) as [B1 [B2 _]]; [lia|]. destruct (three_bytes a b c 0 Ha Hb Hc) as [_ [_ T]]; [lia|].
    split; [repeat constructor; auto|]. exists (bits 2 (c mod 4)). cbn [flat_map]. rewrite !app_nil_r, <- app_assoc. split; [exact T|]. rewrite bits_length. lia.
  - inversion Hv as [|? ? Ha Hv1]; subst. inversion Hv1 as [|? ? Hb Hv2]; subst. inversion Hv2 as [|? ? Hc Hv3]; subst. inversion Hv3 as [|? ? Hd Hl]; subst.
    specialize (IH Hl). destruct (b64_groups l) as [bs|].
    + destruct IH as [Hbs [fill [E Hf]]]. destruct (byte_bounds a b c d Ha Hb Hc Hd) as [B1 [B2 B3]]. destruct (three_bytes a b c d Ha Hb Hc Hd) as [T _].
      split; [repeat constructor; auto|]. exists fill. split; auto. cbn [flat_map]. rewrite E, <- !app_assoc.
      rewrite !app_assoc in *. rewrite T. reflexivity.
    + destruct IH as [n Hn]. exists (S n). cbn [length]. lia.
Qed.

Lemma flat_bits_length n vs : length (flat_map (bits n) vs) = n * length vs.
Proof. induction vs as [|v vs IH]; cbn [flat_map length]; [lia|]. rewrite app_length, bits_length, IH. lia. Qed.

Lemma bytes_unique : forall bs bs' fill fill', Forall (fun b => (b < 256)%N) bs -> Forall (fun b => (b < 256)%N) bs' ->
  length fill < 6 -> length fill' < 6 -> flat_map (bits 8) bs ++ fill = flat_map (bits 8) bs' ++ fill' -> bs = bs'.
Proof.
  induction bs as [|b bs IH]; intros bs' fill fill' H H' Hf Hf' E.
  - destruct bs' as [|b' bs']; auto. exfalso. apply (f_equal (@length bool)) in E. rewrite !app_length, !flat_bits_length in E. cbn [length] in E. lia.
  - destruct bs' as [|b' bs'].
    + exfalso. apply (f_equal (@length bool)) in E. rewrite !app_length, !flat_bits_length in E. cbn [length] in E. lia.
    + cbn [flat_map] in E. rewrite <- !app_assoc in E. inversion H as [|? ? Hb Hbs]; inversion H' as [|? ? Hb' Hbs']; subst.
      assert (bits 8 b = bits 8 b' /\ flat_map (bits 8) bs ++ fill = flat_map (bits 8) bs' ++ fill') as [E1 E2].
      { apply (f_equal (firstn 8)) in E as F1. apply (f_equal (skipn 8)) in E as F2.
        rewrite !firstn_app, !bits_length, Nat.sub_diag, !firstn_O, !app_nil_r in F1. rewrite !skipn_app, !bits_length, Nat.sub_diag in F2.
        rewrite !firstn_all2 in F1 by (rewrite bits_length; lia). rewrite !skipn_all2 in F2 by (rewrite bits_length; lia). auto. }
      f_equal; [exact (bits_inj 8 b b' Hb Hb' E1)|exact (IH bs' fill fill' Hbs Hbs' Hf Hf' E2)].
Qed.

(** The parameter is decoded exactly as base64url says; line breaks are skipped. *)
Theorem C55_base64 : forall s bs, b64_decode s = Some bs <-> b64_text (unfolded s) bs.
Proof.
  intros s bs. unfold b64_decode, b64_text. split.
  - destruct (b64_values s) as [vs|] eqn:Ev; [|discriminate]. intros Hg. apply b64_values_iff in Ev.
    assert (Forall (fun v => (v < 64)%N) vs) as Hv.
    { clear - Ev. induction Ev as [|c v l vs Hc Hl IH]; constructor; auto. apply b64_val_forward in Hc. now apply b64_val_small in Hc. }
    pose proof (b64_groups_spec vs Hv) as Hs. rewrite Hg in Hs. destruct Hs as [H1 [fill [H2 H3]]]. eauto 7.
  - intros [Hb [vs [fill [Ev [E Hf]]]]].
    assert (Forall (fun v => (v < 64)%N) vs) as Hv.
    { clear - Ev. induction Ev as [|c v l vs Hc Hl IH]; constructor; auto. apply b64_val_forward in Hc. now apply b64_val_small in Hc. }
    apply b64_values_iff in Ev. rewrite Ev. pose proof (b64_groups_spec vs Hv) as Hs. destruct (b64_groups vs) as [bs'|].
    + destruct Hs as [Hb' [fill' [E' Hf']]]. f_equal. exact (bytes_unique bs' bs fill' fill Hb' Hb Hf' Hf (eq_trans (eq_sym E') E)).
    + exfalso. destruct Hs as [n Hn]. apply (f_equal (@length bool)) in E. rewrite app_length, !flat_bits_length, Hn in E. lia.
Qed.
Print Assumptions C55_base64.

Example C55_base64_example : b64_decode $"AAABAAABAAAAAAAAA3d3dwdleGFtcGxlA2NvbQAAAQAB" =
  Some [0;0;1;0;0;1;0;0;0;0;0;0;3;119;119;119;7;101;120;97;109;112;108;101;3;99;111;109;0;0;1;0;1]%N /\
  b64_decode $"A" = None /\ b64_decode $"AA==" = None.
Proof. repeat split; vm_compute; reflexivity. Qed.

Section Doh.
Variable L : lengths.
Variable unpack : list N -> option msg.
Variable pack_ok : msg -> bool.
Variable parse_ip : str -> option ip.
Variable c : request -> msg * chain_result.

(** An acceptable message: short enough and well-formed. *)
Definition acceptable (raw : list N) (m : msg) : Prop := length raw <= 512 /\ unpack raw = Some m.
(** The answer of an accepted request: what the server writes for the message. *)
Definition answered_as (req : request) (a : http_answer) : Prop :=
  exists w, handle_req L c req = [w] /\ a = if pack_ok w then HttpMsg w (smallest_ttl (m_answer w)) else HttpEmpty.

Theorem C55_get : forall param h,
  let '(reqs, a) := doh_get L unpack pack_ok parse_ip c param h in
  (exists p raw m, param = Some p /\ p <> [] /\ b64_text (unfolded p) raw /\ acceptable raw m /\
     reqs = [request_from_http parse_ip h m] /\ answered_as (request_from_http parse_ip h m) a) \/
  (reqs = [] /\
   ((a = HttpError 400 /\ ((forall p, param <> Some p) \/ param = Some [])) \/
    (a = HttpError 400 /\ exists p, param = Some p /\ forall raw, ~ b64_text (unfolded p) raw) \/
    (a = HttpError 414 /\ exists p raw, param = Some p /\ b64_text (unfolded p) raw /\ 512 < length raw) \/
    (a = HttpError 400 /\ exists p raw, param = Some p /\ b64_text (unfolded p) raw /\ unpack raw = None))).
Proof.
  intros param h. unfold doh_get. destruct param as [[|x p]|].
  - right. split; auto.
  - destruct (b64_decode (x :: p)) as [raw|] eqn:E.
    + apply C55_base64 in E. destruct (Nat.ltb_spec 512 (length raw)).
      * right. split; auto. right. right. left. eauto 10.
      * unfold process_doh. destruct (unpack raw) as [m|] eqn:Eu.
        -- left. exists (x :: p), raw, m. split; auto. split; [discriminate|]. split; auto. split; [split; auto|]. split; auto.
           unfold answered_as. destruct (C53_one_reply L c (request_from_http parse_ip h m)) as [w ->]. eauto.
        -- right. split; auto. right. right. right. eauto 10.
    + right. split; auto. right. left. split; auto. exists (x :: p). split; auto. intros raw Hr. apply C55_base64 in Hr. congruence.
  - right. split; auto. left. split; auto. left. discriminate.
Qed.

Theorem C55_post : forall ct body h,
  let '(reqs, a) := doh_post L unpack pack_ok parse_ip c ct body h in
  (exists raw m, ct = $"application/dns-message" /\ body = Some raw /\ acceptable raw m /\
     reqs = [request_from_http parse_ip h m] /\ answered_as (request_from_http parse_ip h m) a) \/
  (reqs = [] /\
   ((a = HttpError 415 /\ ct <> $"application/dns-message") \/
    (a = HttpError 400 /\ ct = $"application/dns-message" /\ body = None) \/
    (a = HttpError 413 /\ ct = $"application/dns-message" /\ exists raw, body = Some raw /\ 512 < length raw) \/
    (a = HttpError 400 /\ ct = $"application/dns-message" /\ exists raw, body = Some raw /\ unpack raw = None))).
Proof.
  intros ct body h. unfold doh_post. destruct (str_eqb ct $"application/dns-message") eqn:E; cbn [negb].
  - apply str_eqb_eq in E. destruct body as [raw|]; [|right; auto 10]. destruct (Nat.ltb_spec 512 (length raw)).
    + right. split; auto. right. right. left. eauto 10.
    + unfold process_doh. destruct (unpack raw) as [m|] eqn:Eu.
      * left. exists raw, m. split; auto. split; auto. split; [split; auto|]. split; auto.
        unfold answered_as. destruct (C53_one_reply L c (request_from_http parse_ip h m)) as [w ->]. eauto.
      * right. split; auto. right. right. right. eauto 10.
  - right. split; auto. left. split; auto. intros ->. rewrite str_eqb_refl in E. discriminate.
Qed.
End Doh.
Print Assumptions C55_get.
Print Assumptions C55_post.

Definition example_http : http_request := {| h_host := $"id-tv.dns.example.com"; h_client_id := []; h_forwarded := []; h_remote := $"192.0.2.7:4711" |}.
Example C55_example :
  let unpack := fun raw => match raw with [0; 16; 131]%N => Some (example_query []) | _ => None end in
  let get := doh_get flat_lengths unpack (fun _ => true) (fun _ => None) (answering 2 []) in
  map req_client_id (fst (get (Some $"ABCD") example_http)) = [$"tv"] /\
  (match snd (get (Some $"ABCD") example_http) with HttpMsg m age => (m_id m, length (m_answer m), age) | _ => (0%N, 0, 0%N) end) = (77%N, 2, 60%N) /\
  get (Some $"ABCE") example_http = ([], HttpError 400) /\ get None example_http = ([], HttpError 400).
Proof. repeat split; vm_compute; reflexivity. Qed.

(** ** C95: the address of an HTTP client *)
Lemma last_index_byte_app c a b : ~ In c b -> last_index_byte c (a ++ c :: b) = Some (length a).
Proof.
  intros H. unfold last_index_byte. rewrite rev_app_distr. cbn [rev]. rewrite <- app_assoc. cbn [app].
  rewrite index_byte_app by (rewrite <- in_rev; exact H). f_equal. rewrite app_length, rev_length. cbn [length]. lia.
Qed.

Lemma split_host_with_port s h : with_port s h -> split_host s = Some h.
Proof.
  intros H. destruct H as [h p H1 H2 H3 H4 H5 H6|h p H2 H3 H4 H5 H6]; unfold split_host.
  - rewrite last_index_byte_app by exact H4.
    assert (match h ++ ":"%char :: p with c :: _ => Ascii.eqb c lbracket | [] => false end = false) as ->.
    { destruct h as [|x h]; [reflexivity|]. cbn [app]. apply Ascii.eqb_neq. intros ->. apply H2. now left. }
    rewrite firstn_app, firstn_all, Nat.sub_diag, firstn_O, app_nil_r.
    assert (contains_byte colon h = false) as -> by (apply contains_byte_not_In; exact H1).
    assert (contains_byte lbracket (h ++ ":"%char :: p) = false) as -> by (apply contains_byte_not_In; rewrite in_app_iff; cbn; intros [G|[G|G]]; [auto|discriminate|auto]).
    assert (contains_byte rbracket (h ++ ":"%char :: p) = false) as -> by (apply contains_byte_not_In; rewrite in_app_iff; cbn; intros [G|[G|G]]; [auto|discriminate|auto]).
    reflexivity.
  - change ("["%char :: h ++ "]"%char :: ":"%char :: p) with (("["%char :: h) ++ "]"%char :: ":"%char :: p).
    assert ((("["%char :: h) ++ "]"%char :: ":"%char :: p) = (("["%char :: h) ++ ["]"%char]) ++ ":"%char :: p) as E by (rewrite <- app_assoc; reflexivity).
    rewrite E at 1. rewrite last_index_byte_app by exact H4. cbn [app].
    change (Ascii.eqb "["%char lbracket) with true. cbv iota.
    change ("["%char :: h ++ "]"%char :: ":"%char :: p) with (("["%char :: h) ++ rbracket :: ":"%char :: p).
    rewrite index_byte_app by (intros [G|G]; [discriminate|auto]).
    assert ((S (length ("["%char :: h)) =? length ("["%char :: h ++ ["]"%char])) = true) as -> by (apply Nat.eqb_eq; cbn [length]; rewrite app_length; cbn; lia).
    assert (contains_byte lbracket (skipn 1 (("["%char :: h) ++ rbracket :: ":"%char :: p)) = false) as ->.
    { cbn [app skipn]. apply contains_byte_not_In. rewrite in_app_iff. cbn. intros [G|[G|[G|G]]]; [auto|discriminate|discriminate|auto]. }
    assert (contains_byte rbracket (skipn (S (length ("["%char :: h))) (("["%char :: h) ++ rbracket :: ":"%char :: p)) = false) as ->.
    { rewrite skipn_app, skipn_all2 by lia. replace (S (length ("["%char :: h)) - length ("["%char :: h)) with 1 by lia. cbn [app skipn].
      apply contains_byte_not_In. intros [G|G]; [discriminate|auto]. }
    cbn [negb andb]. rewrite firstn_app, firstn_all, Nat.sub_diag, firstn_O, app_nil_r. reflexivity.
Qed.

(** Without the header the peer's address counts; a header with one address, with or without port, is taken. *)
Theorem C95_http_client_partial : forall parse fwd remote,
  (fwd = [] -> forall h, with_port remote h -> http_client_ip parse fwd remote = parse h) /\
  (forall h, with_port fwd h -> http_client_ip parse fwd remote = parse h) /\
  (fwd <> [] -> split_host fwd = None -> http_client_ip parse fwd remote = parse fwd).
Proof.
  intros parse fwd remote. unfold http_client_ip. split; [|split].
  - intros -> h H. now rewrite (split_host_with_port _ _ H).
  - intros h H. assert (fwd <> []) as Hf by (intros ->; apply split_host_with_port in H; discriminate). destruct fwd as [|x f]; [congruence|]. now rewrite (split_host_with_port _ _ H).
  - intros Hf H. destruct fwd; [congruence|]. now rewrite H.
Qed.
Print Assumptions C95_http_client_partial.

(** Addresses without port: no colon (IPv4) or at least two colons and no brackets (IPv6). *)
Theorem C95_bare_address : forall s, ~ In "["%char s -> ~ In "]"%char s ->
  (~ In ":"%char s \/ exists a b d, s = a ++ ":"%char :: b ++ ":"%char :: d) -> split_host s = None.
Proof.
  intros s H1 H2 H. unfold split_host. destruct (last_index_byte colon s) as [i|] eqn:E; auto.
  assert (match s with c :: _ => Ascii.eqb c lbracket | [] => false end = false) as ->.
  { destruct s as [|x s]; auto. apply Ascii.eqb_neq. intros ->. apply H1. now left. }
  destruct H as [H|[a [b [d ->]]]].
  - exfalso. unfold last_index_byte in E. destruct (index_byte colon (rev s)) eqn:E2; [|discriminate]. apply index_byte_Some in E2 as [E2 _].
    apply H. rewrite in_rev, E2. rewrite in_app_iff. right. now left.
  - assert (In ":"%char (firstn i (a ++ ":"%char :: b ++ ":"%char :: d))) as Hin.
    { unfold last_index_byte in E. destruct (index_byte colon (rev (a ++ ":"%char :: b ++ ":"%char :: d))) as [j|] eqn:E2; [|discriminate].
      assert (j <= length d) as Hj.
      { replace (rev (a ++ ":"%char :: b ++ ":"%char :: d)) with (rev d ++ ":"%char :: rev (a ++ ":"%char :: b)) in E2.
        2:{ change (a ++ ":"%char :: b ++ ":"%char :: d) with (a ++ (":"%char :: b) ++ ":"%char :: d). rewrite app_assoc, (rev_app_distr (a ++ ":"%char :: b)). cbn [rev]. rewrite <- app_assoc. reflexivity. }
        apply index_byte_Some in E2 as [_ [E2 _]]. destruct (le_lt_dec j (length d)); auto. exfalso. apply E2.
        replace j with (length (rev d) + S (j - length d - 1)) by (rewrite rev_length; lia). rewrite firstn_app_2. rewrite in_app_iff. right. now left. }
      injection E as <-. rewrite !app_length. cbn [length]. rewrite app_length. cbn [length].
      replace (length a + S (length b + S (length d)) - 1 - j) with (length a + S (length b + length d - j)) by lia.
      rewrite firstn_app_2. rewrite in_app_iff. right. now left. }
    apply (contains_byte_In colon) in Hin. rewrite Hin. reflexivity.
Qed.
Print Assumptions C95_bare_address.

Example C95_example : split_host $"192.0.2.7:4711" = Some $"192.0.2.7" /\ split_host $"[2001:db8::1]:443" = Some $"2001:db8::1" /\
  split_host $"2001:db8::1" = None /\ split_host $"192.0.2.7" = None.
Proof. repeat split; reflexivity. Qed.

(** Two proxies: the list of addresses in the header is not understood, the client has no address. *)
Theorem C95_two_proxies_refuted : exists fwd remote, forall parse, (forall s, In ","%char s -> parse s = None) -> http_client_ip parse fwd remote = None /\
  exists first second, fwd = first ++ $", " ++ second /\ first = $"203.0.113.9".
Proof.
  exists $"203.0.113.9, 198.51.100.1", $"10.0.0.1:5000". intros parse Hp. split.
  - change (parse $"203.0.113.9, 198.51.100.1" = None). apply Hp. cbn. tauto.
  - exists $"203.0.113.9", $"198.51.100.1". split; reflexivity.
Qed.
Print Assumptions C95_two_proxies_refuted.
