(** Properties of the small resolvers (C40, C41, C42, C45, C81). *)
From Coq Require Import String Ascii List Arith Bool NArith Lia.
From Verif Require Import Str StrFacts StringCacheSpec Num NumFacts Dns Resolver ResolverFacts CachingSpec CachingProofs
  Blocking BlockingSpec BlockingProofs Custom CustomProofs Sudn SudnSpec EdnsProofs EdnsProps RewriterProps.
Import ListNotations.

(** ** The table *)
Definition treats (h : sudn_handler) (t : treatment) : Prop :=
  match h, t with
  | HNXDomain, NoSuchName | HLocalhost, Loopback | HAppendixG, PrivateUse | HHomeArpa, HomeNetwork => True
  | _, _ => False
  end.

Lemma treats_handler h h' t : treats h t -> treats h' t -> h' = h.
Proof. destruct h, h', t; cbn; tauto. Qed.
Lemma treats_treatment h t t' : treats h t -> treats h t' -> t' = t.
Proof. destruct h, t, t'; cbn; tauto. Qed.

Lemma special_zone_table z t : special_zone z t -> exists h, In (z ++ $".", h) sudn_handlers /\ treats h t.
Proof.
  assert (forall n, 16 <= n <= 31 -> In ((print_dec (N.of_nat n) ++ $".172.in-addr.arpa") ++ $".", HNXDomain) sudn_handlers) as H172.
  { intros n Hn. assert (In n (seq 16 16)) as Hi by (apply in_seq; lia).
    assert (forallb (fun n => existsb (fun p => str_eqb (fst p) ((print_dec (N.of_nat n) ++ $".172.in-addr.arpa") ++ $".") &&
              match snd p with HNXDomain => true | _ => false end) sudn_handlers) (seq 16 16) = true) as Hall by (vm_compute; reflexivity).
    rewrite forallb_forall in Hall. specialize (Hall n Hi). apply existsb_exists in Hall as [[k h] [Hk He]].
    apply andb_true_iff in He as [He Hh]. cbn [fst snd] in *. apply str_eqb_eq in He. destruct h; try discriminate. now rewrite <- He. }
  intros H. destruct H as [|n Hn| | | | | | |c Hc|n Hn| |].
  - exists HNXDomain. split; [cbn; tauto|exact I].
  - exists HNXDomain. split; [|exact I]. replace n with (N.of_nat (N.to_nat n)) by apply N2Nat.id. apply H172. lia.
  - exists HNXDomain. split; [cbn; tauto|exact I].
  - exists HNXDomain. split; [cbn; tauto|exact I].
  - exists HLocalhost. split; [cbn; tauto|exact I].
  - exists HNXDomain. split; [cbn; tauto|exact I].
  - exists HNXDomain. split; [cbn; tauto|exact I].
  - exists HNXDomain. split; [cbn; tauto|exact I].
  - exists HNXDomain. split; [|exact I]. destruct Hc as [<-|[<-|[<-|[<-|[]]]]]; cbn; tauto.
  - exists HAppendixG. split; [|exact I]. destruct Hn as [<-|[<-|[<-|[<-|[<-|[<-|[]]]]]]]; cbn; tauto.
  - exists HNXDomain. split; [cbn; tauto|exact I].
  - exists HHomeArpa. split; [cbn; tauto|exact I].
Qed.

Definition zone_of (k : str) (h : sudn_handler) : Prop :=
  exists z, k = z ++ $"." /\ (h = HNone \/ exists t, special_zone z t /\ treats h t).

Lemma sz_172' n k : (16 <= n <= 31)%N -> k = print_dec n ++ $".172.in-addr.arpa" -> special_zone k NoSuchName.
Proof. intros H ->. now constructor. Qed.

Lemma table_special_zone k h : In (k, h) sudn_handlers -> zone_of k h.
Proof.
  assert (forall z t h', special_zone z t -> treats h' t -> zone_of (z ++ $".") h') as Hz.
  { intros z t h' H1 H2. exists z. split; auto. right. eauto. }
  assert (forall z, zone_of (z ++ $".") HNone) as Hn by (intros z; exists z; auto).
  assert (forall n z, (16 <= n <= 31)%N -> z = print_dec n ++ $".172.in-addr.arpa" -> zone_of (z ++ $".") HNXDomain) as H172.
  { intros n z H1 H2. eapply Hz; [eapply sz_172'; eauto|exact I]. }
  intros Hin. cbn [In sudn_handlers] in Hin.
  repeat (destruct Hin as [Hin|Hin]; [injection Hin as <- <-|]); [..|destruct Hin].
  - apply (Hz $"10.in-addr.arpa" NoSuchName); [constructor|exact I].
  - apply (H172 21%N $"21.172.in-addr.arpa"); [lia|reflexivity].
  - apply (H172 26%N $"26.172.in-addr.arpa"); [lia|reflexivity].
  - apply (H172 16%N $"16.172.in-addr.arpa"); [lia|reflexivity].
  - apply (H172 22%N $"22.172.in-addr.arpa"); [lia|reflexivity].
  - apply (H172 27%N $"27.172.in-addr.arpa"); [lia|reflexivity].
  - apply (H172 17%N $"17.172.in-addr.arpa"); [lia|reflexivity].
  - apply (H172 30%N $"30.172.in-addr.arpa"); [lia|reflexivity].
  - apply (H172 28%N $"28.172.in-addr.arpa"); [lia|reflexivity].
  - apply (H172 18%N $"18.172.in-addr.arpa"); [lia|reflexivity].
  - apply (H172 23%N $"23.172.in-addr.arpa"); [lia|reflexivity].
  - apply (H172 29%N $"29.172.in-addr.arpa"); [lia|reflexivity].
  - apply (H172 19%N $"19.172.in-addr.arpa"); [lia|reflexivity].
  - apply (H172 24%N $"24.172.in-addr.arpa"); [lia|reflexivity].
  - apply (H172 31%N $"31.172.in-addr.arpa"); [lia|reflexivity].
  - apply (H172 20%N $"20.172.in-addr.arpa"); [lia|reflexivity].
  - apply (H172 25%N $"25.172.in-addr.arpa"); [lia|reflexivity].
  - apply (Hz $"168.192.in-addr.arpa" NoSuchName); [constructor|exact I].
  - apply (Hz $"test" NoSuchName); [constructor|exact I].
  - apply (Hz $"localhost" Loopback); [constructor|exact I].
  - apply (Hz $"invalid" NoSuchName); [constructor|exact I].
  - apply (Hn $"example").
  - apply (Hn $"example.com").
  - apply (Hn $"example.net").
  - apply (Hn $"example.org").
  - apply (Hz $"local" NoSuchName); [constructor|exact I].
  - apply (Hz $"254.169.in-addr.arpa" NoSuchName); [constructor|exact I].
  - apply (Hz $"8.e.f.ip6.arpa" NoSuchName); [apply (sz_fe80 "8"%char); cbn; tauto|exact I].
  - apply (Hz $"9.e.f.ip6.arpa" NoSuchName); [apply (sz_fe80 "9"%char); cbn; tauto|exact I].
  - apply (Hz $"a.e.f.ip6.arpa" NoSuchName); [apply (sz_fe80 "a"%char); cbn; tauto|exact I].
  - apply (Hz $"b.e.f.ip6.arpa" NoSuchName); [apply (sz_fe80 "b"%char); cbn; tauto|exact I].
  - apply (Hz $"intranet" PrivateUse); [constructor; cbn; tauto|exact I].
  - apply (Hz $"internal" PrivateUse); [constructor; cbn; tauto|exact I].
  - apply (Hz $"private" PrivateUse); [constructor; cbn; tauto|exact I].
  - apply (Hz $"corp" PrivateUse); [constructor; cbn; tauto|exact I].
  - apply (Hz $"home" PrivateUse); [constructor; cbn; tauto|exact I].
  - apply (Hz $"lan" PrivateUse); [constructor; cbn; tauto|exact I].
  - apply (Hz $"onion" NoSuchName); [constructor|exact I].
  - apply (Hz $"home.arpa" HomeNetwork); [constructor|exact I].
Qed.

(** No zone of the table lies below another one. *)
Lemma table_unrelated k h k' h' n : In (k, h) sudn_handlers -> In (k', h') sudn_handlers ->
  same_or_sub n k -> same_or_sub n k' -> k = k' /\ h = h'.
Proof.
  assert (forallb (fun p => forallb (fun p' => negb (has_suffix (fst p) (dot :: fst p'))) sudn_handlers) sudn_handlers = true) as Hall
    by (vm_compute; reflexivity).
  rewrite forallb_forall in Hall.
  assert (forall k h k' h' x, In (k, h) sudn_handlers -> In (k', h') sudn_handlers -> k <> x ++ dot :: k') as Hno.
  { intros a b a' b' x Ha Hb ->. specialize (Hall _ Ha). rewrite forallb_forall in Hall. specialize (Hall _ Hb).
    cbn [fst] in Hall. apply negb_true_iff in Hall.
    assert (has_suffix (x ++ dot :: a') (dot :: a') = true) by (apply has_suffix_spec; eauto). congruence. }
  assert (NoDup (map fst sudn_handlers)) as Hnd.
  { assert (forall l : list str, (fix nd l := match l with [] => true | x :: r => negb (str_in x r) && nd r end) l = true -> NoDup l) as Hd.
    { induction l as [|x l IH]; intros E; constructor; apply andb_true_iff in E as [E1 E2]; auto.
      intros Hi. apply str_in_In in Hi. rewrite Hi in E1. discriminate. }
    apply Hd. vm_compute. reflexivity. }
  intros H1 H2 S1 S2.
  assert (k = k') as <-.
  { destruct S1 as [->|[p ->]], S2 as [S2|[p' S2]].
    - auto.
    - exfalso. exact (Hno k h k' h' p' H1 H2 S2).
    - exfalso. symmetry in S2. exact (Hno k' h' k h p H2 H1 S2).
    - destruct (same_tail p p' k k' S2) as [->|[[x Hx]|[x Hx]]]; auto; exfalso;
        [exact (Hno _ _ _ _ x H1 H2 Hx)|exact (Hno _ _ _ _ x H2 H1 Hx)]. }
  split; auto. apply (mget_NoDup_In k h) in H1; auto. apply (mget_NoDup_In k h') in H2; auto. congruence.
Qed.

Lemma same_or_sub_dot n z : same_or_sub (n ++ $".") (z ++ $".") <-> same_or_sub n z.
Proof.
  unfold same_or_sub. split.
  - intros [H|[p H]]; [left; now apply app_inv_tail in H|]. right. exists p.
    apply (app_inv_tail $"."). rewrite H, <- app_assoc. reflexivity.
  - intros [->|[p ->]]; auto. right. exists p. rewrite <- app_assoc. reflexivity.
Qed.

Lemma lookup_table name : match first_mapped sudn_handlers (name :: after_dots name) with
  | Some h => exists k, In (k, h) sudn_handlers /\ same_or_sub name k
  | None => forall k h, In (k, h) sudn_handlers -> ~ same_or_sub name k
  end.
Proof.
  pose proof (first_mapped_spec sudn_handlers name) as L. destruct (first_mapped sudn_handlers _) as [h|].
  - destruct L as [z [H1 [H2 [H3 _]]]]. exists z. split; auto. eapply mget_In; exact H3.
  - intros k h Hi Hs.
    assert (mget str_eqb k sudn_handlers = None) as E.
    { apply L; auto. intros ->. apply table_special_zone in Hi as [[|? ?] [A _]]; discriminate. }
    apply mget_None in E. apply E. apply in_map_iff. exists (k, h). auto.
Qed.

Lemma own_nx req q qs : m_question (req_msg req) = q :: qs ->
  sudn_nxdomain req = {| rs_msg := Some (own_reply req q 3 []); rs_reason := $"Special-Use Domain Name"; rs_type := SPECIAL |}.
Proof.
  intros H. unfold sudn_nxdomain, sudn_response, new_response, own_reply. cbv zeta.
  unfold set_reply, set_rcode_field. cbn. rewrite H. destruct (m_opcode (req_msg req) =? 0)%N; reflexivity.
Qed.

Lemma special_table q t h : lowered (q_name q) (q_name q) -> treats h t ->
  ((exists k, In (k, h) sudn_handlers /\ same_or_sub (q_name q) k) <-> special q t /\ h <> HNone).
Proof.
  intros Hl Ht. split.
  - intros [k [Hi Hs]]. assert (h <> HNone) as Hh by (intros ->; destruct t; exact Ht). split; auto.
    apply table_special_zone in Hi as [z [-> [Hz|[t' [Hz Ht']]]]]; [contradiction|].
    assert (t' = t) as -> by (eapply treats_treatment; eauto).
    assert (exists n, q_name q = n ++ $".") as [n Hn].
    { destruct Hs as [->|[p ->]]; [eauto|]. exists (p ++ "."%char :: z). now rewrite <- app_assoc. }
    exists n, n, z. split; auto. split; [|split; auto].
    + rewrite Hn in Hl. apply lowered_iff in Hl. apply lowered_iff. rewrite to_lower_app in Hl. now apply app_inv_tail in Hl.
    + rewrite Hn in Hs. now apply same_or_sub_dot.
  - intros [[raw [n [z [Hn [Hraw [Hz Hs]]]]]] _]. destruct (special_zone_table z t Hz) as [h' [Hi Ht']].
    assert (h' = h) as -> by (eapply treats_handler; eauto).
    exists (z ++ $"."). split; auto. rewrite Hn. apply same_or_sub_dot.
    rewrite Hn in Hl. apply lowered_iff in Hl, Hraw. rewrite to_lower_app in Hl. apply app_inv_tail in Hl. congruence.
Qed.

Lemma special_unique q t t' : special q t -> special q t' -> t = t'.
Proof.
  intros [raw [n [z [Hn [Hr [Hz Hs]]]]]] [raw' [n' [z' [Hn' [Hr' [Hz' Hs']]]]]].
  assert (raw = raw') as <- by (rewrite Hn in Hn'; now apply app_inv_tail in Hn').
  assert (n = n') as <- by (apply lowered_iff in Hr, Hr'; congruence).
  destruct (special_zone_table z t Hz) as [h [Hi Ht]]. destruct (special_zone_table z' t' Hz') as [h' [Hi' Ht']].
  destruct (table_unrelated _ _ _ _ (n ++ $".") Hi Hi') as [_ <-]; try (now apply same_or_sub_dot).
  symmetry. eapply treats_treatment; eauto.
Qed.

(** ** C40, for names in lower case: exactly the special-use queries are answered locally,
    as demanded; all others are passed on.  What is missing is letter case, see
    [C40_letter_case_refuted]. *)
Theorem C40_special_use_partial : forall cfg req q qs next,
  su_enable cfg = true -> m_question (req_msg req) = q :: qs -> lowered (q_name q) (q_name q) ->
  (exists m, local_answer (su_appendix_g cfg) req q m /\
     exec (sudn_resolve cfg req) next = Some (Ok {| rs_msg := Some m; rs_reason := $"Special-Use Domain Name"; rs_type := SPECIAL |}) /\
     forwarded (sudn_resolve cfg req) next = []) \/
  ((forall m, ~ local_answer (su_appendix_g cfg) req q m) /\
     exec (sudn_resolve cfg req) next = next req /\ forwarded (sudn_resolve cfg req) next = [req]).
Proof.
  intros cfg req q qs next He Hq Hl. unfold sudn_resolve. rewrite He, Hq. cbn [negb].
  pose proof (lookup_table (q_name q)) as L.
  destruct (first_mapped sudn_handlers (q_name q :: after_dots (q_name q))) as [h|].
  - assert (forall t, treats h t -> special q t) as Hsp by (intros t Ht; apply (special_table q t h Hl Ht) in L; tauto).
    assert (forall t t', treats h t -> special q t' -> t' = t) as Huniq by (intros t t' Ht Ht'; eapply special_unique; eauto).
    destruct h; cbn [sudn_handle].
    + right. split; [|split; [apply exec_pass|apply forwarded_pass]].
      assert (forall t, ~ special q t) as Hns.
      { intros t [raw [n [z [Hn [Hr [Hz Hs]]]]]]. destruct (special_zone_table z t Hz) as [h' [Hi Ht]].
        destruct L as [k [Hk Hks]]. rewrite Hn in Hl. apply lowered_iff in Hl, Hr. rewrite to_lower_app in Hl. apply app_inv_tail in Hl.
        assert (raw = n) as -> by congruence. rewrite Hn in Hks.
        apply (same_or_sub_dot n z) in Hs.
        destruct (table_unrelated _ _ _ _ (n ++ $".") Hi Hk Hs Hks) as [_ E]. rewrite E in Ht. destruct t; exact Ht. }
      intros m [[H _]|[[H _]|[[H _]|[H _]]]]; eapply Hns; exact H.
    + left. exists (own_reply req q 3 []). rewrite (own_nx req q qs Hq). split; [|split; reflexivity].
      left. split; auto. apply Hsp. exact I.
    + left. unfold sudn_localhost. cbv zeta.
      destruct (N.eqb_spec (q_type q) type_A) as [E|E]; [|destruct (N.eqb_spec (q_type q) type_AAAA) as [E'|E']].
      * eexists. split; [|split; [cbn; reflexivity|reflexivity]]. right. right. right. split; [apply Hsp; exact I|]. left. split; auto.
        eexists. split; [reflexivity|]. unfold own_reply, create_rr, set_answer, set_reply, set_rcode_field. cbn. rewrite Hq, E.
        destruct (m_opcode (req_msg req) =? 0)%N; reflexivity.
      * eexists. split; [|split; [cbn; reflexivity|reflexivity]]. right. right. right. split; [apply Hsp; exact I|]. right. left. split; auto.
        eexists. split; [reflexivity|]. unfold own_reply, create_rr, set_answer, set_reply, set_rcode_field. cbn. rewrite Hq, E'.
        destruct (m_opcode (req_msg req) =? 0)%N; reflexivity.
      * exists (own_reply req q 3 []). rewrite (own_nx req q qs Hq). split; [|split; reflexivity].
        right. right. right. split; [apply Hsp; exact I|]. right. right. auto.
    + destruct (su_appendix_g cfg) eqn:Eg.
      * left. exists (own_reply req q 3 []). rewrite (own_nx req q qs Hq). split; [|split; reflexivity].
        right. left. split; [apply Hsp; exact I|]. auto.
      * right. split; [|split; [apply exec_pass|apply forwarded_pass]].
        intros m [[H _]|[[_ [H _]]|[[H _]|[H _]]]]; [|discriminate| |];
          discriminate (Huniq PrivateUse _ I H).
    + destruct (N.eqb_spec (q_type q) type_DS) as [E|E].
      * right. split; [|split; [apply exec_pass|apply forwarded_pass]].
        intros m [[H _]|[[H _]|[[_ [H _]]|[H _]]]]; [| |contradiction|]; discriminate (Huniq HomeNetwork _ I H).
      * left. exists (own_reply req q 3 []). rewrite (own_nx req q qs Hq). split; [|split; reflexivity].
        right. right. left. split; [apply Hsp; exact I|]. auto.
  - right. split; [|split; [apply exec_pass|apply forwarded_pass]].
    assert (forall t, ~ special q t) as Hns.
    { intros t [raw [n [z [Hn [Hr [Hz Hs]]]]]]. destruct (special_zone_table z t Hz) as [h' [Hi Ht]]. apply (L _ _ Hi). rewrite Hn.
      apply same_or_sub_dot. rewrite Hn in Hl. apply lowered_iff in Hl, Hr. rewrite to_lower_app in Hl. apply app_inv_tail in Hl. congruence. }
    intros m [[H _]|[[H _]|[[H _]|[H _]]]]; eapply Hns; exact H.
Qed.
Print Assumptions C40_special_use_partial.

(** With the resolver switched off everything is passed on. *)
Theorem C40_disabled : forall cfg req next, su_enable cfg = false ->
  exec (sudn_resolve cfg req) next = next req /\ forwarded (sudn_resolve cfg req) next = [req].
Proof. intros cfg req next H. unfold sudn_resolve. rewrite H. split; [apply exec_pass|apply forwarded_pass]. Qed.
Print Assumptions C40_disabled.

Theorem C40_letter_case_refuted : exists cfg req q, su_enable cfg = true /\ m_question (req_msg req) = [q] /\
  special q NoSuchName /\ forall next, forwarded (sudn_resolve cfg req) next = [req].
Proof.
  exists {| su_appendix_g := true; su_enable := true |}, (new_request 3 $"Secret.Onion" 1), {| q_name := $"Secret.Onion."; q_type := 1; q_class := 1 |}.
  split; [reflexivity|]. split; [reflexivity|]. split.
  - exists $"Secret.Onion", $"secret.onion", $"onion". split; [reflexivity|]. split; [now apply lowered_iff|].
    split; [constructor|]. right. exists $"secret". reflexivity.
  - intros next. apply forwarded_pass.
Qed.
Print Assumptions C40_letter_case_refuted.

Example C40_example :
  let cfg := {| su_appendix_g := true; su_enable := true |} in
  let run n t := exec (sudn_resolve cfg (new_request 3 n t)) (fun _ => None) in
  let q := {| q_name := $"4.3.20.172.in-addr.arpa."; q_type := 12; q_class := 1 |} in
  (lowered (q_name q) (q_name q) /\ special q NoSuchName) /\
  run $"4.3.20.172.in-addr.arpa" 12%N = Some (Ok {| rs_msg := Some (own_reply (new_request 3 $"4.3.20.172.in-addr.arpa" 12) q 3 []);
                                                  rs_reason := $"Special-Use Domain Name"; rs_type := SPECIAL |}) /\
  run $"4.3.32.172.in-addr.arpa" 12%N = None /\ run $"home.arpa" 43%N = None /\ run $"www.example.com" 1%N = None.
Proof.
  cbv zeta. split; [split; [now apply lowered_iff|]|].
  - exists $"4.3.20.172.in-addr.arpa", $"4.3.20.172.in-addr.arpa", ($"20" ++ $".172.in-addr.arpa"). split; [reflexivity|].
    split; [now apply lowered_iff|]. split; [apply (sz_172 20); lia|]. right. exists $"4.3". reflexivity.
  - repeat split; vm_compute; reflexivity.
Qed.

(** ** C41 *)
Theorem C41_filtered : forall types req q qs next, m_question (req_msg req) = q :: qs ->
  (In (q_type q) types -> forwarded (filtering_resolve types req) next = [] /\
     exec (filtering_resolve types req) next = Some (Ok {| rs_msg := Some (own_reply req q 0 []); rs_reason := []; rs_type := FILTERED |})) /\
  (~ In (q_type q) types -> forwarded (filtering_resolve types req) next = [req] /\
     exec (filtering_resolve types req) next = next req).
Proof.
  intros types req q qs next Hq. unfold filtering_resolve. rewrite Hq.
  assert (existsb (N.eqb (q_type q)) types = true <-> In (q_type q) types) as Hx.
  { rewrite existsb_exists. split; [intros [x [H1 H2]]; apply N.eqb_eq in H2; now subst|]. intros H. exists (q_type q). split; auto. apply N.eqb_refl. }
  destruct (existsb _ types) eqn:E; split; intros H.
  - split; [reflexivity|]. cbn. unfold own_reply, set_rcode, set_reply, set_rcode_field. cbn. rewrite Hq.
    destruct (m_opcode (req_msg req) =? 0)%N; reflexivity.
  - exfalso. apply H. now apply Hx.
  - apply Hx in H. congruence.
  - split; [apply forwarded_pass|apply exec_pass].
Qed.
Print Assumptions C41_filtered.

Example C41_example :
  let req := new_request 4 $"example.com" 28 in
  In 28%N [28%N] /\ exec (filtering_resolve [28%N] req) (fun _ => None) =
    Some (Ok {| rs_msg := Some (own_reply req {| q_name := $"example.com."; q_type := 28; q_class := 1 |} 0 []); rs_reason := []; rs_type := FILTERED |}) /\
  forwarded (filtering_resolve [28%N] (new_request 4 $"example.com" 1)) (fun _ => None) = [new_request 4 $"example.com" 1].
Proof. cbv zeta. split; [now left|]. split; reflexivity. Qed.

(** ** C42: exactly the single-label names are rejected.  What is missing: the rejection
    does not answer the request (see [C42_response_matches_refuted]). *)
Theorem C42_fqdn_only_partial : forall req q qs n next, m_question (req_msg req) = q :: qs -> plain_name (q_name q) n ->
  (~ In "."%char n -> forwarded (fqdn_only_resolve true req) next = [] /\
     exists r m, exec (fqdn_only_resolve true req) next = Some (Ok r) /\ rs_msg r = Some m /\ m_rcode m = 3%N /\
       rs_type r = NOTFQDN /\ m_answer m = [] /\ m_ns m = [] /\ m_extra m = []) /\
  (In "."%char n -> forwarded (fqdn_only_resolve true req) next = [req] /\ exec (fqdn_only_resolve true req) next = next req) /\
  (forwarded (fqdn_only_resolve false req) next = [req] /\ exec (fqdn_only_resolve false req) next = next req).
Proof.
  intros req q qs n next Hq Hn. apply plain_name_iff in Hn. change (n = extract_domain q) in Hn.
  unfold fqdn_only_resolve. rewrite Hq, <- Hn. split; [|split].
  - intros H. assert (contains_byte dot n = false) as ->.
    { destruct (contains_byte dot n) eqn:E; auto. apply contains_byte_In in E. contradiction. }
    split; [reflexivity|]. do 2 eexists. repeat split; reflexivity.
  - intros H. apply contains_byte_In in H. change dot with "."%char. rewrite H. split; [apply forwarded_pass|apply exec_pass].
  - split; [apply forwarded_pass|apply exec_pass].
Qed.
Print Assumptions C42_fqdn_only_partial.

(** The reply carries neither the id nor the question of the request, nor the response
    flag — for every rejected request with a non-zero id. *)
Theorem C42_response_matches_refuted : exists req q, m_question (req_msg req) = [q] /\ ~ In "."%char $"printer" /\
  plain_name (q_name q) $"printer" /\
  exists r m, (forall next, exec (fqdn_only_resolve true req) next = Some (Ok r)) /\ rs_msg r = Some m /\
    m_id m <> m_id (req_msg req) /\ m_question m <> m_question (req_msg req) /\ m_response m = false.
Proof.
  exists (new_request 4711 $"printer" 1), {| q_name := $"printer."; q_type := 1; q_class := 1 |}. split; [reflexivity|].
  split; [cbn; intuition congruence|]. split; [now apply plain_name_iff|]. do 2 eexists. split; [intros next; cbn; reflexivity|].
  split; [reflexivity|]. split; [discriminate|]. split; [discriminate|reflexivity].
Qed.
Print Assumptions C42_response_matches_refuted.

Example C42_example :
  forwarded (fqdn_only_resolve true (new_request 1 $"a.b" 1)) (fun _ => None) = [new_request 1 $"a.b" 1] /\
  forwarded (fqdn_only_resolve true (new_request 1 $"ab" 1)) (fun _ => None) = [] /\
  forwarded (fqdn_only_resolve false (new_request 1 $"ab" 1)) (fun _ => None) = [new_request 1 $"ab" 1].
Proof. repeat split. Qed.

(** ** C45: the response is that of the next resolver, with exactly one EDE option, holding
    the code of its kind and its reason, if the kind has a code; nothing else changes. *)
Theorem C45_extended_errors : forall req next r, next req = Some (Ok r) ->
  exists r', exec (ede_resolve true req) next = Some (Ok r') /\ rs_type r' = rs_type r /\ rs_reason r' = rs_reason r /\
    ((forall c, ~ ede_code (rs_type r) c) -> r' = r) /\
    (forall c m, ede_code (rs_type r) c -> rs_msg r = Some m -> well_formed m ->
       exists m' l, rs_msg r' = Some m' /\ only_opt_changed m m' /\
         options_of m' (l ++ [EOEde c (rs_reason r)]) /\ (forall o, In o l -> eopt_code o <> 15%N) /\
         (forall o, eopt_code o <> 15%N -> (has_option m' o <-> has_option m o))).
Proof.
  intros req next r Hn. unfold ede_resolve. cbn [negb exec]. rewrite Hn.
  exists (add_extra_reasoning r). split; [reflexivity|].
  assert (forall c, ede_code (rs_type r) c -> to_extended_error_code (rs_type r) = c /\ c <> 0%N) as Hc
    by (intros c H; destruct H; split; (reflexivity || discriminate)).
  assert ((forall c, ~ ede_code (rs_type r) c) -> to_extended_error_code (rs_type r) = 0%N) as H0.
  { intros H. destruct (rs_type r); auto; exfalso; eapply H; constructor. }
  unfold add_extra_reasoning. cbv zeta.
  split; [destruct (_ =? 0)%N; reflexivity|]. split; [destruct (_ =? 0)%N; reflexivity|]. split.
  - intros H. rewrite (H0 H). reflexivity.
  - intros c m H Hm Hw. destruct (Hc c H) as [-> Hne]. apply N.eqb_neq in Hne. rewrite Hne, Hm. cbn [rs_msg].
    destruct (C44_set (EOEde c (rs_reason r)) m Hw) as [_ [[l [L1 L2]] [L3 [L4 _]]]].
    exists (set_edns0_option (EOEde c (rs_reason r)) m), l. split; auto.
Qed.
Print Assumptions C45_extended_errors.

(** Errors, and everything if the feature is off, are passed through. *)
Theorem C45_transparent : forall req next,
  (forall e, next req = Some (Err e) -> exec (ede_resolve true req) next = Some (Err e)) /\
  exec (ede_resolve false req) next = next req /\ forall b, forwarded (ede_resolve b req) next = [req].
Proof.
  intros req next. split; [intros e H; cbn; now rewrite H|]. split; [apply exec_pass|].
  intros [|]; cbn; destruct (next req) as [[|]|]; reflexivity.
Qed.
Print Assumptions C45_transparent.

Definition ede_next : next_fn := fun rq => Some (Ok {| rs_msg := Some (set_reply empty_msg (req_msg rq)); rs_reason := $"BLOCKED (ads)"; rs_type := BLOCKED |}).
Example C45_example : let req := new_request 9 $"ads.example.com" 1 in
  ede_code BLOCKED 15 /\ exists r m, exec (ede_resolve true req) ede_next = Some (Ok r) /\ rs_msg r = Some m /\
    get_edns0_option 15 m = Some (EOEde 15 $"BLOCKED (ads)").
Proof. cbv zeta. split; [constructor|]. do 2 eexists. split; [cbn; reflexivity|]. split; reflexivity. Qed.

(** ** C81: a client that does not use EDNS gets a response without OPT record, if the
    next resolver's has none.  False with extended errors. *)
Theorem C81_no_opt_unasked_refuted : exists req next r m b,
  (forall x, ~ opt_in_force (req_msg req) x) /\
  (forall rq rr mm, next rq = Some (Ok rr) -> rs_msg rr = Some mm -> forall x, ~ opt_in_force mm x) /\
  exec (ede_resolve true req) next = Some (Ok r) /\ rs_msg r = Some m /\ opt_in_force m b.
Proof.
  exists (new_request 9 $"ads.example.com" 1), ede_next. do 3 eexists.
  assert (forall mm, m_extra mm = [] -> forall x, ~ opt_in_force mm x) as Hno.
  { intros mm E x [[|? ?] [post [A _]]]; rewrite E in A; discriminate. }
  split; [apply Hno; reflexivity|]. split; [intros rq rr mm [= <-] [= <-]; apply Hno; reflexivity|].
  split; [cbn; reflexivity|]. split; [reflexivity|]. exists [], []. split; [reflexivity|]. split; [reflexivity|]. intros x [].
Qed.
Print Assumptions C81_no_opt_unasked_refuted.
