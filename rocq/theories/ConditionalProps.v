(** Properties of the conditional upstream resolver (C37, C77). *)
From Coq Require Import String Ascii List Arith Bool NArith Lia.
From Verif Require Import Str StrFacts StringCacheSpec Dns Resolver CachingSpec CachingProofs
  Blocking BlockingSpec BlockingProofs Custom CustomProofs Conditional ConditionalSpec.
Import ListNotations.

Section Props.
Context {U : Type}.
Variable mapping : list (str * U).
Hypothesis distinct : distinct_zones mapping.

Lemma cond_table_iff z u : mget str_eqb z (cond_table mapping) = Some u <-> zone_upstream mapping z u.
Proof.
  unfold cond_table.
  destruct (fold_mput (fun p : str * U => to_lower (fst p)) snd z mapping []) as [[[z0 u0] [H1 [H2 H3]]]|[H1 H2]].
  - cbn [fst snd] in H2, H3. rewrite H3. split.
    + intros [= <-]. exists z0. split; auto. apply lowered_iff. auto.
    + intros [z1 [Hi Hl]]. apply lowered_iff in Hl as Hl'. f_equal.
      apply In_nth_error in H1 as [i Hi1]. apply In_nth_error in Hi as [j Hj].
      assert (i = j) as <-. { eapply distinct; [exact Hi1|exact Hj|apply lowered_iff; symmetry; exact H2|exact Hl]. }
      congruence.
  - rewrite H2. split; [discriminate|]. intros [z1 [Hi Hl]]. apply lowered_iff in Hl. exfalso. apply (H1 (z1, u)); auto.
Qed.

Lemma cond_table_defined z : mget str_eqb z (cond_table mapping) <> None <-> exists u, zone_upstream mapping z u.
Proof.
  split.
  - destruct (mget str_eqb z (cond_table mapping)) as [u|] eqn:E; [|congruence]. intros _. exists u. now apply cond_table_iff.
  - intros [u H]. apply cond_table_iff in H. congruence.
Qed.

Lemma cond_dest_spec req q qs n : m_question (req_msg req) = q :: qs -> plain_name (q_name q) n ->
  (exists u, responsible mapping n u /\ cond_dest mapping req = Some (ToUpstream u (set_first_name (fqdn n) req))) \/
  ((forall u, ~ responsible mapping n u) /\ cond_dest mapping req = Some (ToNext req)).
Proof.
  intros Hq Hn. apply plain_name_iff in Hn. change (n = extract_domain q) in Hn. unfold cond_dest.
  destruct (cond_table mapping) as [|t0 t] eqn:Et.
  - right. split; auto. intros u H.
    assert (forall z u, ~ zone_upstream mapping z u) as Hno.
    { intros z u0 Hz. apply cond_table_iff in Hz. rewrite Et in Hz. discriminate. }
    destruct H as [[_ [z [_ [Hz _]]]]|[_ Hz]]; eapply Hno; eauto.
  - rewrite <- Et. rewrite Hq. cbv zeta. rewrite <- Hn. destruct (contains_byte dot n) eqn:Ed.
    + apply contains_byte_In in Ed. pose proof (first_mapped_spec (cond_table mapping) n) as L.
      destruct (first_mapped (cond_table mapping) (n :: after_dots n)) as [u|].
      * left. destruct L as [z [H1 [H2 [H3 H4]]]]. apply cond_table_iff in H3. exists u. split; auto.
        left. split; [exact Ed|]. exists z. split; [split; [exact H2|split; [eauto|exact H1]]|]. split; [exact H3|].
        intros z' [G1 [G2 G3]]. apply H4; auto. now apply cond_table_defined.
      * right. split; auto. intros u [[_ [z [[G1 [G2 G3]] _]]]|[Hno _]]; [|apply Hno, Ed].
        apply cond_table_defined in G2. apply G2. apply L; auto.
    + assert (~ In dot n) as Ed' by (rewrite <- contains_byte_In, Ed; discriminate).
      destruct (mget str_eqb $"." (cond_table mapping)) as [u|] eqn:Em.
      * left. exists u. split; auto. right. split; auto. now apply cond_table_iff.
      * right. split; auto. intros u [[Hi _]|[_ Hz]]; [apply Ed', Hi|]. apply cond_table_iff in Hz. congruence.
Qed.
End Props.

(** ** C37: a query is sent to exactly one place: to the upstreams responsible for its
    name, or, if there are none, unchanged to the next resolver. *)
Theorem C37_most_specific_zone : forall (U : Type) (mapping : list (str * U)) ask next req q qs n,
  distinct_zones mapping -> m_question (req_msg req) = q :: qs -> plain_name (q_name q) n ->
  (exists u req', responsible mapping n u /\ normalised req req' n /\
     cond_dest mapping req = Some (ToUpstream u req') /\
     (forall r, ask u req' = Some (Ok r) -> rs_msg r <> None ->
        exists r', cond_resolve mapping ask next req = Some (Ok r') /\ marked n r r') /\
     (forall e, ask u req' = Some (Err e) -> cond_resolve mapping ask next req = Some (Err e))) \/
  ((forall u, ~ responsible mapping n u) /\
     cond_dest mapping req = Some (ToNext req) /\ cond_resolve mapping ask next req = next req).
Proof.
  intros U mapping ask next req q qs n Hd Hq Hn.
  destruct (cond_dest_spec mapping Hd req q qs n Hq Hn) as [[u [Hr E]]|[Hr E]].
  - left. exists u, (set_first_name (fqdn n) req). split; [exact Hr|]. split.
    { exists q, qs. split; [exact Hq|]. unfold set_first_name. now rewrite Hq. }
    split; [exact E|]. unfold cond_resolve. rewrite E. split.
    + intros r Ha Hm. rewrite Ha. unfold cond_response, set_first_name. rewrite Hq. cbn [req_msg set_req_msg m_question set_question q_name].
      destruct (rs_msg r) as [m|] eqn:Em; [|contradiction].
      eexists. split; [reflexivity|]. split; [reflexivity|]. exists m. eexists. split; [exact Em|]. split; [reflexivity|].
      destruct (m_question m) as [|mq mqs] eqn:Emq.
      * split; [|exact Emq]. destruct m. cbn in *. now rewrite Emq.
      * split; [reflexivity|]. reflexivity.
    + intros e Ha. now rewrite Ha.
  - right. split; [exact Hr|]. split; [exact E|]. unfold cond_resolve. now rewrite E.
Qed.
Print Assumptions C37_most_specific_zone.

(** Exactly one upstream group is responsible. *)
Theorem C37_responsible_unique : forall (U : Type) (mapping : list (str * U)) n u u',
  distinct_zones mapping -> responsible mapping n u -> responsible mapping n u' -> u = u'.
Proof.
  intros U mapping n u u' Hd [[H1 [z [[Hz [Hzu Hs]] [Hu Hm]]]]|[H1 H2]] [[G1 [z' [[Gz [Gzu Gs]] [Gu Gm]]]]|[G1 G2]]; try contradiction.
  - assert (z = z') as ->.
    { eapply sub_same_length; [exact Hs|exact Gs|]. apply Nat.le_antisymm.
      - apply Gm. split; [exact Hz|]. split; auto.
      - apply Hm. split; [exact Gz|]. split; auto. }
    apply (cond_table_iff mapping Hd) in Hu, Gu. congruence.
  - apply (cond_table_iff mapping Hd) in H2, G2. congruence.
Qed.
Print Assumptions C37_responsible_unique.

Definition ex_map : list (str * nat) := [($"Fritz.Box", 1); ($"box", 2); ($".", 3)].
Definition ex_ask (u : nat) : next_fn :=
  fun q => Some (Ok {| rs_msg := Some (set_reply empty_msg (req_msg q)); rs_reason := []; rs_type := RESOLVED |}).

Lemma ex_map_distinct : distinct_zones ex_map.
Proof.
  intros i j z0 u z1 u' z Hi Hj H0 H1. apply lowered_iff in H0, H1.
  assert (NoDup (map (fun p : str * nat => to_lower (fst p)) ex_map)) as Hl
    by (vm_compute; repeat constructor; simpl; intuition congruence).
  rewrite NoDup_nth_error in Hl. apply Hl.
  - rewrite map_length. apply nth_error_Some. congruence.
  - rewrite !nth_error_map, Hi, Hj. simpl. congruence.
Qed.

Example C37_example :
  distinct_zones ex_map /\
  (exists r, cond_dest ex_map (new_request 1 $"NAS.fritz.box" 1) = Some (ToUpstream 1 r)) /\
  (exists r, cond_dest ex_map (new_request 1 $"myfritz.box" 1) = Some (ToUpstream 2 r)) /\
  (exists r, cond_dest ex_map (new_request 1 $"box" 1) = Some (ToUpstream 3 r)) /\
  cond_dest ex_map (new_request 1 $"example.com" 1) = Some (ToNext (new_request 1 $"example.com" 1)).
Proof.
  split; [exact ex_map_distinct|]. split; [eexists; vm_compute; reflexivity|]. split; [eexists; vm_compute; reflexivity|].
  split; [eexists; vm_compute; reflexivity|]. vm_compute; reflexivity.
Qed.

(** ** C77: the answer's question is the question asked.  This fails for letter case:
    a conditional answer carries the lower-cased name, even if the upstream echoes the
    question it got.  (What holds: [C37_most_specific_zone], clause [marked].) *)
Theorem C77_question_echoed_refuted :
  exists (mapping : list (str * nat)) ask req q r m, distinct_zones mapping /\
    m_question (req_msg req) = [q] /\
    (forall u rq rr, ask u rq = Some (Ok rr) -> exists m, rs_msg rr = Some m /\ m_question m = m_question (req_msg rq)) /\
    (forall next, cond_resolve mapping ask next req = Some (Ok r)) /\ rs_msg r = Some m /\ m_question m <> [q].
Proof.
  exists ex_map, (fun u rq => Some (Ok {| rs_msg := Some (set_question (m_question (req_msg rq)) empty_msg); rs_reason := []; rs_type := RESOLVED |})),
    (new_request 1 $"NAS.fritz.box" 1), {| q_name := $"NAS.fritz.box."; q_type := 1; q_class := 1 |}.
  do 2 eexists. split; [exact ex_map_distinct|]. split; [reflexivity|]. split.
  { intros u rq rr0 [= <-]. eexists. split; reflexivity. }
  split; [intros next; vm_compute; reflexivity|]. split; [reflexivity|]. vm_compute. discriminate.
Qed.
Print Assumptions C77_question_echoed_refuted.

(** If the client's name is in lower case, the question is echoed: what is missing from
    the full statement is exactly the letter case. *)
Theorem C77_question_echoed_partial : forall (U : Type) (mapping : list (str * U)) ask next req q x r m u req' rr m0,
  distinct_zones mapping -> m_question (req_msg req) = [q] ->
  q_name q = x ++ $"." -> (forall y, x <> y ++ $".") -> lowered x x ->
  cond_dest mapping req = Some (ToUpstream u req') ->
  ask u req' = Some (Ok rr) -> rs_msg rr = Some m0 -> m_question m0 = m_question (req_msg req') ->
  cond_resolve mapping ask next req = Some (Ok r) -> rs_msg r = Some m -> m_question m = [q].
Proof.
  intros U mapping ask next req q x r m u req' rr m0 Hd Hq Hx Hy Hlow Hdest Ha Hm0 Hqm Hres Hm.
  destruct (C37_most_specific_zone U mapping ask next req q [] (extract_domain q) Hd Hq) as [[u' [rq [_ [Hn [E [Hok _]]]]]]|[_ [E _]]].
  - now apply plain_name_iff.
  - rewrite Hdest in E. injection E as <- <-. destruct (Hok rr Ha) as [r' [Hr' [_ [m1 [m2 [H1 [H2 [_ H3]]]]]]]]; [congruence|].
    rewrite Hres in Hr'. injection Hr' as <-. rewrite Hm in H2. injection H2 as <-. rewrite Hm0 in H1. injection H1 as <-.
    destruct Hn as [q' [qs [Hq' ->]]]. rewrite Hq in Hq'. injection Hq' as <- <-. rewrite Hqm in H3. cbn in H3. rewrite H3.
    f_equal. destruct q as [qn qt qc]. cbn [q_name q_type q_class] in *. f_equal. apply lowered_iff in Hlow. subst qn.
    assert (extract_domain {| q_name := x ++ $"."; q_type := qt; q_class := qc |} = x) as ->.
    { symmetry. apply plain_name_iff. exists x. split; [|now apply lowered_iff]. left. reflexivity. }
    unfold fqdn. destruct (has_suffix x $".") eqn:Es; [|reflexivity].
    apply has_suffix_spec in Es as [y Es]. exfalso. exact (Hy y Es).
  - congruence.
Qed.
Print Assumptions C77_question_echoed_partial.

Example C77_example :
  let req := new_request 1 $"nas.fritz.box" 1 in
  exists r m, cond_resolve ex_map ex_ask (fun _ => None) req = Some (Ok r) /\ rs_msg r = Some m /\
    m_question m = m_question (req_msg req) /\ rs_type r = CONDITIONAL.
Proof. do 2 eexists. repeat split; vm_compute; reflexivity. Qed.
