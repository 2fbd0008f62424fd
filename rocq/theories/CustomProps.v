(** Properties of the custom DNS resolver (C33–C36, C76). *)
From Coq Require Import String Ascii List Arith Bool NArith Lia Permutation.
From Verif Require Import Str StrFacts StringCacheSpec Dns Resolver ResolverFacts CachingSpec CachingProofs
  Blocking BlockingSpec BlockingProofs Arpa ArpaSpec ArpaProofs Custom CustomSpec CustomProofs.
Import ListNotations.

(** The reverse table was built in some order of iteration over the records. *)
Definition order_of (cfg : custom_cfg) (records : list (str * list rr)) : Prop :=
  Permutation records (custom_records cfg).

(** [q] is not a reverse lookup of a configured address. *)
Definition not_reverse (cfg : custom_cfg) (q : question) : Prop :=
  q_type q <> 12%N \/ forall d i, has_address cfg d i -> q_name q <> reverse_addr i.

(** The recursion bound of the model is large enough. *)
Definition enough (cfg : custom_cfg) (fuel : nat) : Prop := length (cname_targets cfg) < fuel.

Lemma maps_to_has_address cfg records i u : order_of cfg records -> maps_to records i u -> has_address cfg u i.
Proof.
  intros Hp [es [e [H1 [H2 H3]]]]. exists es, e. split; auto. apply custom_records_sound.
  apply mget_NoDup_In; auto using custom_records_NoDup. eapply Permutation_in; eauto.
Qed.

Lemma has_address_maps_to cfg records i u : distinct_cfg cfg -> order_of cfg records -> has_address cfg u i -> maps_to records i u.
Proof.
  intros Hd Hp [es [e [H1 [H2 H3]]]]. exists es, e. split; auto. apply custom_records_iff in H1; auto.
  apply mget_In in H1. eapply Permutation_in; [apply Permutation_sym, Hp|exact H1].
Qed.

Lemma not_reverse_none cfg records req q : order_of cfg records -> not_reverse cfg q -> handle_reverse cfg records req q = None.
Proof.
  intros Hp H. unfold handle_reverse. destruct (N.eqb_spec (q_type q) type_PTR) as [E|]; auto.
  destruct (mget str_eqb (q_name q) (custom_reverse records)) as [l|] eqn:El; auto. exfalso.
  destruct H as [H|H]; [apply H, E|]. pose proof (custom_reverse_nonempty _ _ _ El) as Hn. destruct l as [|u l]; [contradiction|].
  assert (In u (rev_list (custom_reverse records) (q_name q))) as Hi by (unfold rev_list; rewrite El; now left).
  apply custom_reverse_spec in Hi as [i [H1 H2]]. apply (H u i); auto. eapply maps_to_has_address; eauto.
Qed.

(** ** C34: resolution ends: beyond a bound the result does not depend on the recursion
    bound of the model, nor on what it does when the bound is exceeded. *)
Theorem C34_terminates : forall cfg new_id stuck stuck' fuel fuel' records req next,
  enough cfg fuel -> enough cfg fuel' ->
  exec (custom_resolve cfg new_id stuck records fuel req) next = exec (custom_resolve cfg new_id stuck' records fuel' req) next /\
  forwarded (custom_resolve cfg new_id stuck records fuel req) next = forwarded (custom_resolve cfg new_id stuck' records fuel' req) next.
Proof.
  intros cfg new_id stuck stuck' fuel fuel' records req next H H'. unfold custom_resolve.
  destruct (m_question (req_msg req)) as [|q qs]; auto. destruct (handle_reverse cfg records req q); auto.
  apply process_request_same; [constructor|intros x []|unfold enough in *; simpl; lia|unfold enough in *; simpl; lia].
Qed.
Print Assumptions C34_terminates.

(** ** C33/C34: the answer is exactly what the configuration means (longest configured
    domain, CNAMEs followed, everything else from the rest of the chain). *)
Theorem C33_answers_exact : forall cfg new_id stuck records fuel req q qs next r,
  distinct_cfg cfg -> order_of cfg records -> enough cfg fuel ->
  m_question (req_msg req) = q :: qs -> not_reverse cfg q ->
  exec (custom_resolve cfg new_id stuck records fuel req) next = Some (Ok r) <-> answers cfg new_id next req r.
Proof.
  intros cfg new_id stuck records fuel req q qs next r Hd Hp Hf Hq Hn.
  unfold custom_resolve. rewrite Hq, (not_reverse_none cfg records req q Hp Hn). split.
  - intros H. apply (process_request_sound cfg new_id next fuel [] req r).
    destruct (process_request_same cfg new_id stuck Crash fuel fuel [] req (NoDup_nil _) (fun x H => match H with end)) with (next := next)
      as [E _]; [unfold enough in Hf; simpl; lia|unfold enough in Hf; simpl; lia|]. now rewrite <- E.
  - intros H. eapply process_request_complete; eauto.
    + unfold first_question. now rewrite Hq.
    + constructor.
    + intros x [].
    + unfold enough in Hf. simpl. lia.
    + intros c [].
Qed.
Print Assumptions C33_answers_exact.

(** Names that are not covered are passed on unchanged, and nothing else is asked. *)
Theorem C33_others_passed_on : forall cfg new_id stuck records fuel req q qs next,
  order_of cfg records -> 0 < fuel -> m_question (req_msg req) = q :: qs -> not_reverse cfg q -> (forall d, ~ covers cfg q d) ->
  exec (custom_resolve cfg new_id stuck records fuel req) next = next req /\
  forwarded (custom_resolve cfg new_id stuck records fuel req) next = [req].
Proof.
  intros cfg new_id stuck records fuel req q qs next Hp Hf Hq Hn Hc. unfold custom_resolve.
  rewrite Hq, (not_reverse_none cfg records req q Hp Hn). destruct fuel as [|fuel]; [lia|]. cbn [process_request]. rewrite Hq.
  cbv zeta. pose proof (lookup_decides cfg q) as L. cbv zeta in L. destruct (first_mapped _ _) as [es|].
  - exfalso. destruct L as [d [L _]]. apply (Hc d L).
  - split; [apply exec_pass|apply forwarded_pass].
Qed.
Print Assumptions C33_others_passed_on.

(** ** C35: a domain without CNAMEs: each record for the asked type yields exactly one
    record with the question's name and type and the configured TTL. *)
Theorem C35_right_records : forall cfg new_id stuck records fuel req q qs next es,
  distinct_cfg cfg -> order_of cfg records -> 0 < fuel -> m_question (req_msg req) = q :: qs -> not_reverse cfg q ->
  decides cfg q es ->
  (forall e, In e es -> match rr_data e with DA _ | DAAAA _ | DTXT _ | DSRV _ _ _ _ => True | _ => False end) ->
  exists ls, Forall2 (contributes q) es ls /\
    (concat ls <> [] \/ cu_filter cfg = true ->
       exec (custom_resolve cfg new_id stuck records fuel req) next = Some (Ok (custom_reply req q (concat ls))) /\
       forwarded (custom_resolve cfg new_id stuck records fuel req) next = []) /\
    (concat ls = [] /\ cu_filter cfg = false ->
       exec (custom_resolve cfg new_id stuck records fuel req) next = next req /\
       forwarded (custom_resolve cfg new_id stuck records fuel req) next = [req]).
Proof.
  intros cfg new_id stuck records fuel req q qs next es Hd Hp Hf Hq Hn Hdec Hpl. unfold custom_resolve.
  rewrite Hq, (not_reverse_none cfg records req q Hp Hn). destruct fuel as [|fuel]; [lia|]. cbn [process_request]. rewrite Hq.
  cbv zeta. rewrite (lookup_decides_iff cfg q es Hd Hdec). clear Hdec.
  assert (exists ls, Forall2 (contributes q) es ls /\ forall acc,
    process_entries cfg new_id (process_request cfg new_id stuck fuel) req q [] es acc =
    process_entries cfg new_id (process_request cfg new_id stuck fuel) req q [] [] (acc ++ concat ls)) as [ls [Hl He]].
  { induction es as [|e es IH]; [exists []; split; [constructor|intros acc; simpl; now rewrite app_nil_r]|].
    destruct IH as [ls [H1 H2]]; [intros e' He'; apply Hpl; now right|].
    pose proof (Hpl e (or_introl eq_refl)) as He.
    assert (exists l, contributes q e l /\ forall acc,
      process_entries cfg new_id (process_request cfg new_id stuck fuel) req q [] (e :: es) acc =
      process_entries cfg new_id (process_request cfg new_id stuck fuel) req q [] es (acc ++ l)) as [l [Hc Hx]].
    { cbn [process_entries]. destruct (rr_data e) as [i|i|t|t|v|p w po t|o|o] eqn:E; try tauto.
      - exists (process_ip i q (rr_ttl e)). split; [apply process_ip_contributes; auto|reflexivity].
      - exists (process_ip i q (rr_ttl e)). split; [apply process_ip_contributes; auto|reflexivity].
      - exists (process_txt v q (rr_ttl e)). split; [now apply process_txt_contributes|reflexivity].
      - exists (process_srv p w po t q (rr_ttl e)). split; [now apply process_srv_contributes|reflexivity]. }
    exists (l :: ls). split; [now constructor|]. intros acc. rewrite Hx, H2. cbn [concat]. now rewrite app_assoc. }
  exists ls. split; auto. rewrite He. cbn [app process_entries]. split.
  - intros H. destruct (concat ls) as [|x l].
    + destruct H as [H|H]; [contradiction|]. rewrite H. cbn [exec forwarded].
      now rewrite (custom_response_reply req q qs).
    + cbn [exec forwarded]. now rewrite (custom_response_reply req q qs).
  - intros [-> ->]. split; [apply exec_pass|apply forwarded_pass].
Qed.
Print Assumptions C35_right_records.

(** ** C34: a cycle never yields an answer; it yields an error if the rest of the
    chain works. *)
Theorem C34_cycle_no_answer : forall cfg new_id stuck records fuel req q qs next,
  distinct_cfg cfg -> order_of cfg records -> enough cfg fuel ->
  m_question (req_msg req) = q :: qs -> not_reverse cfg q -> cyclic cfg (q_type q) (q_name q) ->
  (forall r, exec (custom_resolve cfg new_id stuck records fuel req) next <> Some (Ok r)) /\
  ((forall rq, next rq <> None) -> (forall rq r, next rq = Some (Ok r) -> rs_msg r <> None) ->
   exists e, exec (custom_resolve cfg new_id stuck records fuel req) next = Some (Err e)).
Proof.
  intros cfg new_id stuck records fuel req q qs next Hd Hp Hf Hq Hn Hc.
  assert (forall r, exec (custom_resolve cfg new_id stuck records fuel req) next <> Some (Ok r)) as H.
  { intros r H. eapply C33_answers_exact in H; eauto. apply answers_acc in H; auto.
    assert (first_question req = Some q) as Hfq by (unfold first_question; now rewrite Hq).
    specialize (H q Hfq). destruct Hc as [Hc|[c [H1 H2]]].
    - revert Hc. now apply acc_not_self.
    - eapply reaches_acc in H; [|exact H1]. revert H2. now apply acc_not_self. }
  split; [exact H|]. intros H1 H2.
  destruct (C34_terminates cfg new_id stuck (Done (Err $"")) fuel fuel records req next Hf Hf) as [E _].
  rewrite E in H |- *. unfold custom_resolve in *. rewrite Hq, (not_reverse_none cfg records req q Hp Hn) in *.
  destruct (process_request_total cfg new_id next (Done (Err $"")) eq_refl H1 H2 fuel [] req) as [T _]; [now rewrite Hq|].
  destruct (exec _ next) as [[r|e]|]; [exfalso; now apply (H r)|eauto|contradiction].
Qed.
Print Assumptions C34_cycle_no_answer.

Lemma loop_error_cyclic cfg new_id next err0 : (forall rq, next rq <> Some (Err err0)) -> err0 <> $"unsupported customDNS RR type" ->
  forall n cnames req q, first_question req = Some q ->
  (forall c, In c cnames -> fqdn c = q_name q \/ reaches cfg (q_type q) (fqdn c) (q_name q)) ->
  exec (process_request cfg new_id Crash n cnames req) next = Some (Err err0) ->
  cyclic cfg (q_type q) (q_name q).
Proof.
  intros Hnx Hu. induction n as [|n IH]; intros cnames req q Hq Hvis H; [discriminate|].
  cbn [process_request] in H. unfold first_question in Hq.
  destruct (m_question (req_msg req)) as [|q0 qs] eqn:Eq; [discriminate|]. injection Hq as ->. cbv zeta in H.
  pose proof (lookup_decides cfg q) as L. cbv zeta in L. destruct (first_mapped _ _) as [es|].
  2:{ rewrite exec_pass in H. exfalso. eapply Hnx; eauto. }
  assert (forall acc es', incl es' es ->
    exec (process_entries cfg new_id (process_request cfg new_id Crash n) req q cnames es' acc) next = Some (Err err0) ->
    cyclic cfg (q_type q) (q_name q)) as G; [|eapply G; [|exact H]; intros x; auto].
  intros acc es'. revert acc. induction es' as [|e es' IHe]; intros acc Hincl Hx.
  - cbn [process_entries] in Hx. destruct acc; [destruct (cu_filter cfg)|]; try discriminate.
    rewrite exec_pass in Hx. exfalso. eapply Hnx; eauto.
  - assert (incl es' es) as Hincl' by (intros x Hi; apply Hincl; now right).
    cbn [process_entries] in Hx. destruct (rr_data e) as [i|i|t|t|v|p w po t|o|o] eqn:E; try (eapply IHe; eassumption);
      try (exfalso; apply Hu; cbn [exec] in Hx; congruence).
    cbv zeta in Hx. destruct (N.eqb_spec (q_type q) type_CNAME) as [Et|Et]; [eapply IHe; eassumption|].
    assert (leads cfg (q_type q) (q_name q) (fqdn (trim_suffix t $"."))) as Hl.
    { split; [exact Et|]. exists es, e, t, (trim_suffix t $"."). split; [eapply decides_name; [|exact L]; reflexivity|].
      split; [apply Hincl; now left|]. split; [exact E|]. split; [apply without_dot_trim|reflexivity]. }
    destruct (str_in (trim_suffix t $".") cnames) eqn:Ei.
    + apply str_in_In in Ei. destruct (Hvis _ Ei) as [Ex|R].
      * left. rewrite Ex in Hl. now apply re_one.
      * left. eapply re_more; eauto.
    + rewrite exec_bind in Hx.
      destruct (exec (process_request _ _ _ _ _ _) next) as [[resp|err]|] eqn:Ep; [|cbn [exec] in Hx|discriminate].
      * destruct (rs_msg resp); [|discriminate]. eapply IHe; eassumption.
      * injection Hx as ->.
        apply (IH (cnames ++ [trim_suffix t $"."]) _ {| q_name := fqdn (trim_suffix t $"."); q_type := q_type q; q_class := 1 |}) in Ep.
        -- cbn [q_name q_type] in Ep. destruct Ep as [Hc|[c [H1 H2]]].
           ++ right. exists (fqdn (trim_suffix t $".")). split; [now apply re_one|exact Hc].
           ++ right. exists c. split; [eapply re_more; eauto|exact H2].
        -- reflexivity.
        -- cbn [q_name q_type]. intros c Hc. apply in_app_or in Hc as [Hc|[<-|[]]]; [|left; reflexivity].
           right. destruct (Hvis _ Hc) as [E'|R]; [rewrite E'; now apply re_one|].
           eapply reaches_trans; [exact R|]. now apply re_one.
Qed.

(** An error which is neither one of the next resolver nor about a type occurs only for cycles. *)
Theorem C34_loop_error_only_for_cycles : forall cfg new_id stuck records fuel req q qs next e,
  order_of cfg records -> enough cfg fuel ->
  m_question (req_msg req) = q :: qs ->
  (forall rq, next rq <> Some (Err e)) -> e <> $"unsupported customDNS RR type" ->
  exec (custom_resolve cfg new_id stuck records fuel req) next = Some (Err e) ->
  cyclic cfg (q_type q) (q_name q).
Proof.
  intros cfg new_id stuck records fuel req q qs next e Hp Hf Hq Hn Hu H.
  destruct (C34_terminates cfg new_id stuck Crash fuel fuel records req next Hf Hf) as [E _]. rewrite E in H.
  unfold custom_resolve in H. rewrite Hq in H. destruct (handle_reverse cfg records req q); [discriminate|].
  eapply loop_error_cyclic; eauto; [|intros c []]. unfold first_question. now rewrite Hq.
Qed.
Print Assumptions C34_loop_error_only_for_cycles.

(** ** Concrete configuration *)
Definition mk_rr (name : str) (t ttl : N) (d : rdata) : rr :=
  {| rr_name := name; rr_type := t; rr_class := 1; rr_ttl := ttl; rr_data := d |}.

Definition ex_custom : custom_cfg :=
  {| cu_mapping := [($"Printer.LAN", [mk_rr [] 0 0 (DA (IP4 [192;168;178;3]%N))]);
                    ($"lan", [mk_rr [] 0 0 (DA (IP4 [10;0;0;1]%N)); mk_rr [] 0 0 (DAAAA (IP6 [32;1;13;184;0;0;0;0;0;0;0;0;0;0;0;1]%N))])];
     cu_zone := [($"www.example.com.", [mk_rr $"www.example.com." 5 300 (DCNAME $"printer.lan.")]);
                 ($"a.loop.", [mk_rr $"a.loop." 5 300 (DCNAME $"b.loop.")]);
                 ($"b.loop.", [mk_rr $"b.loop." 5 300 (DCNAME $"a.loop.")]);
                 ($"mixed.", [mk_rr $"mixed." 1 60 (DA (IP4 [1;2;3;4]%N)); mk_rr $"mixed." 15 60 (DOther $"10 mail.")])];
     cu_ttl := 3600; cu_filter := true |}.

Definition ex_req (name : str) (t : N) : request := new_request 7 name t.
Definition ex_next : next_fn := fun q => Some (Err $"upstream").
Definition ex_run (name : str) (t : N) : option result :=
  exec (custom_resolve ex_custom (fun _ => 1%N) Crash (custom_records ex_custom) 10 (ex_req name t)) ex_next.

Lemma ex_distinct : distinct_cfg ex_custom.
Proof.
  assert (forall l : list (str * list rr), NoDup (map (fun p => extract_domain_only (fst p)) l) -> distinct_names l) as H.
  { intros l Hl i j u es u' es' d Hi Hj Hu Hu'. apply plain_name_iff in Hu, Hu'.
    rewrite NoDup_nth_error in Hl. apply Hl.
    - rewrite map_length. apply nth_error_Some. congruence.
    - rewrite !nth_error_map, Hi, Hj. simpl. congruence. }
  split; apply H; vm_compute; repeat constructor; simpl; intuition congruence.
Qed.

Example C33_example :
  distinct_cfg ex_custom /\ enough ex_custom 10 /\
  (* the more specific entry *)
  ex_run $"PRINTER.lan" 1 = Some (Ok (custom_reply (ex_req $"PRINTER.lan" 1) {| q_name := $"PRINTER.lan."; q_type := 1; q_class := 1 |}
     [mk_rr $"PRINTER.lan." 1 3600 (DA (IP4 [192;168;178;3]%N))])) /\
  (* a sub-domain of it *)
  ex_run $"x.printer.lan" 28 = Some (Ok (custom_reply (ex_req $"x.printer.lan" 28) {| q_name := $"x.printer.lan."; q_type := 28; q_class := 1 |} [])) /\
  ex_run $"myprinter.lan" 28 = Some (Ok (custom_reply (ex_req $"myprinter.lan" 28) {| q_name := $"myprinter.lan."; q_type := 28; q_class := 1 |}
     [mk_rr $"myprinter.lan." 28 3600 (DAAAA (IP6 [32;1;13;184;0;0;0;0;0;0;0;0;0;0;0;1]%N))])) /\
  (* a CNAME *)
  ex_run $"www.example.com" 1 = Some (Ok (custom_reply (ex_req $"www.example.com" 1) {| q_name := $"www.example.com."; q_type := 1; q_class := 1 |}
     [mk_rr $"www.example.com." 5 300 (DCNAME $"printer.lan."); mk_rr $"printer.lan." 1 3600 (DA (IP4 [192;168;178;3]%N))])) /\
  (* not covered *)
  ex_run $"example.com" 1 = Some (Err $"upstream").
Proof.
  split; [exact ex_distinct|]. split; [unfold enough; vm_compute; lia|].
  split; [vm_compute; reflexivity|]. split; [vm_compute; reflexivity|]. split; [vm_compute; reflexivity|].
  split; vm_compute; reflexivity.
Qed.

Example C34_example :
  ex_run $"a.loop" 1 = Some (Err $"CNAME loop detected: [b.loop a.loop b.loop]") /\ cyclic ex_custom 1 $"a.loop.".
Proof.
  split; [vm_compute; reflexivity|].
  eapply (C34_loop_error_only_for_cycles ex_custom (fun _ => 1%N) Crash (custom_records ex_custom) 10 (ex_req $"a.loop" 1)
     {| q_name := $"a.loop."; q_type := 1; q_class := 1 |} [] ex_next $"CNAME loop detected: [b.loop a.loop b.loop]"); [apply Permutation_refl|unfold enough; vm_compute; lia|reflexivity| | |].
  - intros rq. discriminate.
  - discriminate.
  - vm_compute. reflexivity.
Qed.

Example C35_example :
  exists es, decides ex_custom {| q_name := $"printer.lan."; q_type := 1; q_class := 1 |} es /\
    es = [mk_rr [] 0 3600 (DA (IP4 [192;168;178;3]%N))].
Proof.
  pose proof (lookup_decides ex_custom {| q_name := $"printer.lan."; q_type := 1; q_class := 1 |}) as L.
  vm_compute in L. eexists. split; [exact L|reflexivity].
Qed.

(** ** C76: a record of a type the resolver does not support makes every query for its
    name fail, even those for the types of its other records.  (What holds instead:
    [C35_right_records], for domains all of whose records are supported.) *)
Theorem C76_unsupported_harmless_refuted :
  exists cfg req q e, m_question (req_msg req) = [q] /\
    (exists es, decides cfg q es /\ In e es /\ exists r, contributes q e [r]) /\
    forall new_id next, exec (custom_resolve cfg new_id Crash (custom_records cfg) 10 req) next
      = Some (Err $"unsupported customDNS RR type").
Proof.
  exists ex_custom, (ex_req $"mixed" 1), {| q_name := $"mixed."; q_type := 1; q_class := 1 |},
    (mk_rr $"mixed." 1 60 (DA (IP4 [1;2;3;4]%N))).
  split; [reflexivity|]. split.
  - pose proof (lookup_decides ex_custom {| q_name := $"mixed."; q_type := 1; q_class := 1 |}) as L.
    vm_compute in L. eexists. split; [exact L|]. split; [left; reflexivity|].
    exists (mk_rr $"mixed." 1 60 (DA (IP4 [1;2;3;4]%N))). left. do 2 eexists. split; [split; reflexivity|].
    split; [|reflexivity]. repeat split.
  - intros new_id next. reflexivity.
Qed.
Print Assumptions C76_unsupported_harmless_refuted.

(** ** C36: reverse lookups *)
Theorem C36_reverse_partial : forall cfg new_id stuck records fuel req q qs next i,
  distinct_cfg cfg -> order_of cfg records ->
  (forall d j, has_address cfg d j -> valid_ip j) -> valid_ip i ->
  m_question (req_msg req) = q :: qs -> q_type q = 12%N -> q_name q = reverse_addr i ->
  ((exists d, has_address cfg d i) ->
     exists ans, exec (custom_resolve cfg new_id stuck records fuel req) next = Some (Ok (custom_reply req q ans)) /\
       forwarded (custom_resolve cfg new_id stuck records fuel req) next = [] /\
       (forall r, In r ans -> exists d, own_record q 12 (cu_ttl cfg) (DPTR (fqdn d)) r /\ has_address cfg d i) /\
       (forall d, has_address cfg d i -> exists r, In r ans /\ rr_data r = DPTR (fqdn d))) /\
  ((forall d, ~ has_address cfg d i) -> not_reverse cfg q).
Proof.
  intros cfg new_id stuck records fuel req q qs next i Hd Hp Hv Hi Hq Ht Hname. split.
  - intros [d Hd']. unfold custom_resolve. rewrite Hq. unfold handle_reverse. rewrite Ht.
    change (12 =? type_PTR)%N with true. cbv iota.
    assert (forall u, In u (rev_list (custom_reverse records) (q_name q)) <-> has_address cfg u i) as Hu.
    { intros u. rewrite custom_reverse_spec. split.
      - intros [j [H1 H2]]. apply (maps_to_has_address cfg) in H1; auto. rewrite Hname in H2.
        apply reverse_addr_inj in H2; [subst; auto|exact Hi|eapply Hv; eauto].
      - intros H. exists i. split; auto. eapply has_address_maps_to; eauto. }
    unfold rev_list in Hu. destruct (mget str_eqb (q_name q) (custom_reverse records)) as [l|].
    2:{ exfalso. apply (proj2 (Hu d) Hd'). }
    cbn [exec forwarded].
    rewrite (custom_response_reply req q qs) by assumption.
    eexists. split; [reflexivity|]. split; [reflexivity|]. split.
    + intros r Hr. apply in_map_iff in Hr as [u [<- Hin]]. exists u. split; [|now apply Hu].
      unfold create_rr, own_record. cbn. rewrite Ht. repeat split.
    + intros u Hx. apply Hu in Hx. eexists. split; [apply in_map_iff; exists u; split; [reflexivity|exact Hx]|reflexivity].
  - intros Hno. right. intros d j Hj E. rewrite Hname in E. apply reverse_addr_inj in E; [subst; apply (Hno d Hj)|exact Hi|eapply Hv; eauto].
Qed.
Print Assumptions C36_reverse_partial.

Example C36_example :
  (exists d, has_address ex_custom d (IP4 [192;168;178;3]%N)) /\
  ex_run $"3.178.168.192.in-addr.arpa" 12 =
    Some (Ok (custom_reply (ex_req $"3.178.168.192.in-addr.arpa" 12)
      {| q_name := $"3.178.168.192.in-addr.arpa."; q_type := 12; q_class := 1 |}
      [mk_rr $"3.178.168.192.in-addr.arpa." 12 3600 (DPTR $"printer.lan.")])).
Proof.
  split; [|vm_compute; reflexivity]. exists $"printer.lan".
  do 2 eexists. split; [apply custom_records_sound; vm_compute; reflexivity|]. split; [left; reflexivity|]. left. reflexivity.
Qed.

(** DNS names do not depend on letter case, but a reverse lookup in another letter case
    is not recognised: it is sent on to the next resolver. *)
Theorem C36_letter_case_refuted :
  exists cfg req q i d, has_address cfg d i /\ m_question (req_msg req) = [q] /\ q_type q = 12%N /\
    same_upto_case (q_name q) (reverse_addr i) /\
    forall new_id next, exec (custom_resolve cfg new_id Crash (custom_records cfg) 10 req) next = next req.
Proof.
  exists ex_custom, (ex_req $"3.178.168.192.IN-ADDR.ARPA" 12), {| q_name := $"3.178.168.192.IN-ADDR.ARPA."; q_type := 12; q_class := 1 |},
    (IP4 [192;168;178;3]%N), $"printer.lan".
  split. { do 2 eexists. split; [apply custom_records_sound; vm_compute; reflexivity|]. split; [left; reflexivity|]. left. reflexivity. }
  split; [reflexivity|]. split; [reflexivity|]. split; [apply to_lower_same; vm_compute; reflexivity|].
  intros new_id next. exact (exec_pass _ next).
Qed.
Print Assumptions C36_letter_case_refuted.
