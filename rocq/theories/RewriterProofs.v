(** Lemmas about the rewriter. *)
From Coq Require Import String Ascii List Arith Bool NArith Lia Permutation.
From Verif Require Import Str StrFacts Dns Resolver ResolverFacts CachingSpec CachingProofs
  Blocking BlockingSpec BlockingProofs Custom CustomProofs Conditional Rewriter RewriterSpec.
Import ListNotations.

Section Rules.
Variable rules : list (str * str).
Hypothesis distinct : distinct_rules rules.

Lemma rules_fun k0 v0 k1 v1 : In (k0, v0) rules -> In (k1, v1) rules -> to_lower k0 = to_lower k1 -> k0 = k1 /\ v0 = v1.
Proof.
  intros H0 H1 E. apply In_nth_error in H0 as [i Hi]. apply In_nth_error in H1 as [j Hj].
  assert (i = j) as <-. { eapply distinct; [exact Hi|exact Hj|apply lowered_iff; reflexivity|apply lowered_iff; exact E]. }
  rewrite Hi in Hj. now injection Hj.
Qed.

Lemma rules_NoDup : NoDup (map fst rules).
Proof.
  apply NoDup_nth_error. intros i j Hlt E. rewrite map_length in Hlt. rewrite !nth_error_map in E.
  destruct (nth_error rules i) as [[k v]|] eqn:Ei; [|apply nth_error_None in Ei; lia].
  destruct (nth_error rules j) as [[k' v']|] eqn:Ej; [|discriminate]. simpl in E. injection E as <-.
  eapply distinct; [exact Ei|exact Ej| |]; apply lowered_iff; reflexivity.
Qed.

Definition lstep (m : list (str * str)) (k : str) :=
  match mget str_eqb k m with Some v => mput str_eqb (to_lower k) (to_lower v) m | None => m end.

Record linv (vis : list str) (m : list (str * str)) : Prop := {
  l_other : forall k, to_lower k <> k -> mget str_eqb k m = mget str_eqb k rules;
  l_low : forall k v, mget str_eqb k m = Some v -> to_lower k = k ->
            exists k0 v0, In (k0, v0) rules /\ to_lower k0 = k /\ (v = to_lower v0 \/ (k0 = k /\ v = v0));
  l_vis : forall k0 v0, In (k0, v0) rules -> In k0 vis -> mget str_eqb (to_lower k0) m = Some (to_lower v0);
  l_def : forall k v, In (k, v) rules -> mget str_eqb k m <> None;
  l_nodup : NoDup (map fst m) }.

Lemma linv_init : linv [] rules.
Proof.
  split; auto.
  - intros k v H Hk. apply mget_In in H. exists k, v. auto.
  - simpl. tauto.
  - intros k v H. rewrite (mget_NoDup_In k v); [congruence|apply rules_NoDup|exact H].
  - apply rules_NoDup.
Qed.

Lemma linv_step vis m k : linv vis m -> linv (vis ++ [k]) (lstep m k).
Proof.
  intros [H1 H2 H3 H4 H5]. unfold lstep. destruct (mget str_eqb k m) as [v|] eqn:E.
  - assert (forall k0 v0, In (k0, v0) rules -> to_lower k0 = to_lower k -> to_lower v = to_lower v0) as Hv.
    { intros k0 v0 Hi Hk. destruct (str_eqb (to_lower k) k) eqn:El.
      - apply str_eqb_eq in El. destruct (H2 k v E El) as [k1 [v1 [G1 [G2 G3]]]].
        destruct (rules_fun k0 v0 k1 v1 Hi G1) as [-> ->]; [congruence|].
        destruct G3 as [-> |[_ ->]]; auto. apply to_lower_idem.
      - apply str_eqb_neq in El. rewrite (H1 k El) in E. apply mget_In in E.
        destruct (rules_fun k0 v0 k v Hi E Hk) as [_ ->]. reflexivity. }
    split.
    + intros k' Hk'. rewrite mget_mput_other; [auto|]. intros <-. apply Hk'. apply to_lower_idem.
    + intros k' v' G Hk'. rewrite mget_mput in G. destruct (str_eqb (to_lower k) k') eqn:Ek; [|apply H2; auto].
      apply str_eqb_eq in Ek. injection G as <-. subst k'. destruct (str_eqb (to_lower k) k) eqn:El.
      * apply str_eqb_eq in El. destruct (H2 k v E El) as [k1 [v1 [G1 [G2 G3]]]].
        exists k1, v1. split; auto. split; [congruence|]. left. destruct G3 as [-> |[_ ->]]; auto. apply to_lower_idem.
      * apply str_eqb_neq in El. rewrite (H1 k El) in E. apply mget_In in E. exists k, v. auto.
    + intros k0 v0 Hi Hvis. rewrite mget_mput. destruct (str_eqb (to_lower k) (to_lower k0)) eqn:Ek.
      * apply str_eqb_eq in Ek. f_equal. apply (Hv k0 v0); auto.
      * apply in_app_or in Hvis as [Hvis|[<-|[]]]; [auto|]. rewrite str_eqb_refl in Ek. discriminate.
    + intros k' v' Hi. rewrite mget_mput. destruct (str_eqb (to_lower k) k'); [congruence|]. eapply H4; eauto.
    + apply mput_NoDup; auto.
  - split; auto. intros k0 v0 Hi Hvis. apply in_app_or in Hvis as [Hvis|[<-|[]]]; [auto|].
    exfalso. exact (H4 k v0 Hi E).
Qed.

Lemma linv_all ks : forall vis m, linv vis m -> linv (vis ++ ks) (fold_left lstep ks m).
Proof.
  induction ks as [|k ks IH]; intros vis m H; simpl; [now rewrite app_nil_r|].
  change (k :: ks) with ([k] ++ ks). rewrite app_assoc. apply IH. now apply linv_step.
Qed.

(** What the map of rules contains after construction. *)
Lemma lower_rules_iff ks k v : (forall k0 v0, In (k0, v0) rules -> In k0 ks) -> to_lower k = k ->
  In (k, v) (lower_rules ks rules) <-> exists k0 v0, In (k0, v0) rules /\ lowered k0 k /\ lowered v0 v.
Proof.
  intros Hks Hk. pose proof (linv_all ks [] rules linv_init) as [H1 H2 H3 H4 H5].
  change (fold_left lstep ks rules) with (lower_rules ks rules) in *. split.
  - intros Hi. apply (mget_NoDup_In k v) in Hi; auto. destruct (H2 k v Hi Hk) as [k0 [v0 [G1 [G2 _]]]].
    exists k0, v0. split; auto. split; [now apply lowered_iff|]. apply lowered_iff.
    assert (mget str_eqb (to_lower k0) (lower_rules ks rules) = Some (to_lower v0)) as L.
    { apply H3; auto. simpl. eapply Hks; eauto. }
    rewrite G2 in L. congruence.
  - intros [k0 [v0 [Hi [Hl1 Hl2]]]]. apply lowered_iff in Hl1, Hl2. subst. eapply mget_In, H3; eauto.
Qed.
End Rules.

Lemma to_lower_tail p c k : to_lower (p ++ c :: k) = p ++ c :: k -> to_lower k = k.
Proof. induction p as [|x p IH]; cbn; intros H; injection H; auto. Qed.

Lemma rewrite_domain_spec l d :
  (exists p k v, In (k, v) l /\ d = p ++ dot :: k /\ rewrite_domain l d = p ++ dot :: v) \/
  ((forall p k v, In (k, v) l -> d <> p ++ dot :: k) /\ rewrite_domain l d = d).
Proof.
  induction l as [|[k v] l IH]; cbn [rewrite_domain]; [right; simpl; tauto|].
  destruct (has_suffix d (dot :: k)) eqn:E.
  - apply has_suffix_spec in E as [p ->]. left. exists p, k, v. split; [now left|]. split; auto. now rewrite trim_suffix_app.
  - destruct IH as [[p [k' [v' [H1 [H2 H3]]]]]|[H1 H2]].
    + left. exists p, k', v'. simpl. auto.
    + right. split; auto. intros p k' v' [[= <- <-]|Hi]; [|now apply (H1 p k' v')].
      intros ->. assert (has_suffix (p ++ dot :: k) (dot :: k) = true) by (apply has_suffix_spec; eauto). congruence.
Qed.

Section Rewrite.
Variable rules : list (str * str).
Hypothesis distinct : distinct_rules rules.
Variable ks : list str.
Hypothesis all_keys : forall k0 v0, In (k0, v0) rules -> In k0 ks.
Variable iter : nat -> list (str * str).
Hypothesis iter_perm : forall i, Permutation (lower_rules ks rules) (iter i).

Lemma iter_applies i p k v n : to_lower n = n -> (In (k, v) (iter i) /\ n = p ++ dot :: k <-> applies rules n p k v).
Proof.
  intros Hn. unfold applies.
  assert (forall x, Permutation (lower_rules ks rules) (iter i) -> In x (iter i) <-> In x (lower_rules ks rules)) as Hin.
  { intros x Hp. split; apply Permutation_in; auto. now apply Permutation_sym. }
  split.
  - intros [Hi ->]. split; [reflexivity|]. apply Hin in Hi; auto. eapply lower_rules_iff; eauto.
    eapply to_lower_tail, Hn.
  - intros [-> H]. split; [|reflexivity]. apply Hin; auto. eapply lower_rules_iff; eauto.
    eapply to_lower_tail, Hn.
Qed.

Lemma rewrite_one i q :
  let d := extract_domain_only (q_name q) in
  let d' := rewrite_domain (iter i) d in
  rewritten_question rules q (if str_eqb d' d then q else {| q_name := fqdn d'; q_type := q_type q; q_class := q_class q |}).
Proof.
  cbv zeta. set (d := extract_domain_only (q_name q)).
  assert (to_lower d = d) as Hd.
  { destruct (proj2 (plain_name_iff (q_name q) d) eq_refl) as [s [_ Hl]]. apply lowered_iff in Hl. rewrite Hl. apply to_lower_idem. }
  exists d. split; [now apply plain_name_iff|].
  destruct (rewrite_domain_spec (iter i) d) as [[p [k [v [H1 [H2 H3]]]]]|[H1 H2]].
  - assert (applies rules d p k v) as Ha by (apply (iter_applies i); auto).
    rewrite H3. destruct (str_eqb (p ++ dot :: v) d) eqn:E.
    + apply str_eqb_eq in E. right. split; auto. right. exists p, k. rewrite H2 in E. apply app_inv_head in E.
      injection E as ->. exact Ha.
    + apply str_eqb_neq in E. left. exists p, k, v. split; auto. split; auto. congruence.
  - rewrite H2, str_eqb_refl. right. split; auto. left. intros p k v Ha. apply (iter_applies i) in Ha as [Hi He]; auto.
    eapply H1; eauto.
Qed.

(** Names recorded by the loop, relative to those recorded before. *)
Lemma rewrite_questions_spec : forall qs i names out names',
  rewrite_questions iter i qs names = (out, names') ->
  Forall2 (rewritten_question rules) qs out /\
  (names' = names /\ out = qs \/ names' <> []) /\
  (forall n o, mget str_eqb n names' = Some o ->
     (exists j q q', nth_error qs j = Some q /\ nth_error out j = Some q' /\ q_name q' = n /\ o = q_name q) \/
     mget str_eqb n names = Some o) /\
  (forall n, mget str_eqb n names' = None -> mget str_eqb n names = None /\
     forall j q q', nth_error qs j = Some q -> nth_error out j = Some q' -> q_name q' = n -> q' = q).
Proof.
  induction qs as [|q qs IH]; intros i names out names' E.
  - cbn in E. injection E as <- <-. split; [constructor|]. split; [auto|]. split; [auto|]. intros n Hn. split; auto.
    intros [|j] ? ? H; discriminate.
  - cbn [rewrite_questions] in E. cbv zeta in E. pose proof (rewrite_one i q) as H1. cbv zeta in H1.
    set (d := extract_domain_only (q_name q)) in *. set (d' := rewrite_domain (iter i) d) in *.
    destruct (str_eqb d' d) eqn:Ed.
    + destruct (rewrite_questions iter (S i) qs names) as [o n0] eqn:Er. injection E as <- <-.
      destruct (IH _ _ _ _ Er) as [G1 [G2 [G3 G4]]]. split; [constructor; auto|]. split.
      { destruct G2 as [[-> ->]|G2]; auto. } split.
      { intros n oo Hn. destruct (G3 n oo Hn) as [[j [a [b [A1 [A2 A3]]]]]|A]; auto. left. exists (S j), a, b. auto. }
      intros n Hn. destruct (G4 n Hn) as [A1 A2]. split; auto. intros [|j] a b; cbn; [congruence|apply A2].
    + set (q1 := {| q_name := fqdn d'; q_type := q_type q; q_class := q_class q |}) in *.
      destruct (rewrite_questions iter (S i) qs (mput str_eqb (fqdn d') (q_name q) names)) as [o n0] eqn:Er.
      injection E as <- <-. destruct (IH _ _ _ _ Er) as [G1 [G2 [G3 G4]]]. split; [constructor; auto|]. split.
      { right. intros ->. destruct (G4 (fqdn d') eq_refl) as [A _]. rewrite mget_mput_same in A. discriminate. } split.
      { intros n oo Hn. destruct (G3 n oo Hn) as [[j [a [b [A1 [A2 A3]]]]]|A]; [left; exists (S j), a, b; auto|].
        rewrite mget_mput in A. destruct (str_eqb (fqdn d') n) eqn:En; [|auto]. apply str_eqb_eq in En.
        injection A as <-. left. exists 0, q, q1. auto. }
      intros n Hn. destruct (G4 n Hn) as [A1 A2]. rewrite mget_mput in A1. destruct (str_eqb (fqdn d') n) eqn:En; [discriminate|].
      split; auto. intros [|j] a b; cbn.
      * intros [= <-] [= <-] Hq. cbn in Hq. apply str_eqb_neq in En. contradiction.
      * apply A2.
Qed.
End Rewrite.

Lemma restored_intro req rq n out names' :
  m_question (req_msg rq) = out -> length (m_question (req_msg req)) = length out ->
  (forall n o, mget str_eqb n names' = Some o ->
     exists j q q', nth_error (m_question (req_msg req)) j = Some q /\ nth_error out j = Some q' /\ q_name q' = n /\ o = q_name q) ->
  (forall n, mget str_eqb n names' = None ->
     forall j q q', nth_error (m_question (req_msg req)) j = Some q -> nth_error out j = Some q' -> q_name q' = n -> q' = q) ->
  restored req rq n (revert_name names' n).
Proof.
  intros <- Hlen H1 H2. unfold restored, revert_name. cbv zeta. destruct (mget str_eqb n names') as [o|] eqn:E.
  - left. destruct (H1 n o E) as [j [q [q' [A [B [C D]]]]]]. exists q, q'. split; eauto.
  - destruct (in_dec (list_eq_dec ascii_dec) n (map q_name (m_question (req_msg rq)))) as [Hi|Hi].
    + apply in_map_iff in Hi as [q' [Hn Hi]]. apply In_nth_error in Hi as [j Hj].
      destruct (nth_error (m_question (req_msg req)) j) as [q|] eqn:Eq.
      * left. exists q, q'. split; eauto. split; auto. rewrite <- (H2 n E j q q' Eq Hj Hn). auto.
      * exfalso. apply nth_error_None in Eq. rewrite Hlen in Eq. apply nth_error_None in Eq. congruence.
    + right. split; [|reflexivity]. intros a b [i [Ha Hb]] Hbn. apply Hi. apply in_map_iff. exists b. split; auto.
      eapply nth_error_In; eauto.
Qed.
