(** Properties of resolvers that are reported as disabled (C144). *)
From Coq Require Import String Ascii List Arith Bool NArith ZArith Lia Permutation.
From Verif Require Import Str StrFacts Dns Resolver ResolverFacts ExpCache Caching Blocking Custom CustomProps Conditional Rewriter Sudn Ecs
  ClientNames QueryLog SafeSpec SafeProps Hosts Chain ChainProps Disabled.
Import ListNotations.
Open Scope list_scope.

Section C144.
Context {U : Type}.
Variable w : world U.
Variable lookup : lookup_cfg.
Variable logs : bool.

(** The parts of the world are as the code makes them from the configuration: log entries, orders of iterations. *)
Definition made_from : Prop :=
  (forall rq r, exists T privacy cfg inst instant start ms, w_entry w rq r = create_log_entry T privacy cfg inst instant start ms rq r) /\
  (forall i, Permutation (w_blk_iter w i) (bc_clients (w_blk w))) /\
  order_of (w_custom w) (w_records w) /\ 0 < w_fuel w.

(** Every resolver of the chain is printed, once and in the order in which queries pass them. *)
Theorem C144_printed : map fst (printed w lookup logs) =
  [SFiltering; SFqdnOnly; SEcs; SClientNames; SEde; SQueryLogging; SMetrics; SCustom; SHosts; SBlocking; SCaching; SConditional; SSudn; SUpstreamTree] /\
  (forall s, In (s, false) (printed w lookup logs) <-> is_enabled w lookup logs s = false).
Proof.
  split; [reflexivity|]. intros s. unfold printed. cbn [query_resolvers map fst app for_each]. unfold log_resolver_config. split.
  - intros H. cbn [In] in H. repeat (destruct H as [H|H]; [injection H as <- H; exact H|]). destruct H.
  - intros H. destruct s; cbn [In]; rewrite <- H; tauto.
Qed.

Lemma nonempty_false {A} (l : list A) : nonempty l = false -> l = [].
Proof. destruct l; [reflexivity|discriminate]. Qed.

Lemma blocking_idle req : bc_clients (w_blk w) = [] -> (forall i, Permutation (w_blk_iter w i) (bc_clients (w_blk w))) ->
  groups_to_check (w_glob w) (w_cidr w) (w_ip_string w) (w_blk_iter w 0) (w_blk_iter w) (w_fqdn_ips w) (w_disabled w) req = [].
Proof.
  intros E H. rewrite E in H. assert (forall i, w_blk_iter w i = []) as Hi by (intros i; apply Permutation_nil; symmetry; apply H).
  unfold groups_to_check, groups_by_ip, groups_by_net. rewrite !Hi. cbn [mget flat_map].
  assert (forall names i, groups_by_name (w_glob w) (w_blk_iter w) i names = []) as Hn.
  { induction names as [|n names IH]; intros i; cbn [groups_by_name]; [reflexivity|]. rewrite Hi. apply IH. }
  rewrite Hn. reflexivity.
Qed.

Lemma custom_idle req q qs : cu_mapping (w_custom w) = [] -> cu_zone (w_custom w) = [] -> order_of (w_custom w) (w_records w) -> 0 < w_fuel w ->
  m_question (req_msg req) = q :: qs -> custom_stage w req = pass req.
Proof.
  intros E1 E2 Ho Hf Hq. assert (custom_records (w_custom w) = []) as Hr by (unfold custom_records; now rewrite E1, E2).
  unfold order_of in Ho. rewrite Hr in Ho. symmetry in Ho. apply Permutation_nil in Ho.
  unfold custom_stage, custom_resolve. rewrite Hq, Ho. unfold handle_reverse. cbn [custom_reverse fold_left mget].
  assert (process_request (w_custom w) (w_new_id w) Crash (w_fuel w) [] req = pass req) as Hp.
  { destruct (w_fuel w) as [|f]; [lia|]. cbn [process_request]. rewrite Hq, Hr.
    assert (forall names, first_mapped (@nil (str * list rr)) names = None) as ->; [|reflexivity].
    induction names as [|[|c n] names IH]; cbn [first_mapped mget]; auto. }
  destruct (q_type q =? type_PTR)%N; exact Hp.
Qed.

Lemma done_after next req (f : result -> prog) :
  (forall r, next req = Some r -> f r = Done r) -> exec (Next req f) next = next req /\ forwarded (Next req f) next = [req].
Proof. intros H. cbn [exec forwarded]. destruct (next req) as [r|]; [|split; reflexivity]. rewrite (H r eq_refl). split; reflexivity. Qed.

(** A resolver printed as disabled passes every query on unchanged, and the answer back unchanged; but the one for client names still sets the
    client's names, and the one for custom records answers from a zone even if it is printed as disabled. *)
Theorem C144_disabled_partial : forall s p req next, made_from -> In (s, p) (query_resolvers w) -> In (s, false) (printed w lookup logs) ->
  s <> SClientNames -> (s = SCustom -> cu_zone (w_custom w) = []) ->
  m_question (req_msg req) <> [] -> (forall x, next req = Some (Ok x) -> rs_msg x <> None) ->
  exec (p req) next = next req /\ forwarded (p req) next = [req].
Proof.
  intros s p req next [He [Hb [Ho Hf]]] Hin Hdis Hs Hz Hq Hn. apply (proj2 C144_printed) in Hdis.
  destruct (m_question (req_msg req)) as [|q qs] eqn:Eq; [congruence|]. clear Hq.
  assert (exec (pass req) next = next req /\ forwarded (pass req) next = [req]) as Hp by (split; [apply exec_pass|apply forwarded_pass]).
  cbn [query_resolvers In] in Hin.
  destruct Hin as [E|[E|[E|[E|[E|[E|[E|[E|[E|[E|[E|[E|[E|[]]]]]]]]]]]]]]; injection E as <- <-; cbn [is_enabled] in Hdis.
  - apply nonempty_false in Hdis. unfold filtering_resolve. rewrite Eq, Hdis. exact Hp.
  - unfold fqdn_only_resolve. rewrite Hdis. exact Hp.
  - unfold ecs_resolve. rewrite Hdis. exact Hp.
  - congruence.
  - unfold ede_resolve. rewrite Hdis. exact Hp.
  - unfold logging_resolve. apply done_after. intros [x|e] Hx; [|reflexivity].
    destruct (He req x) as [T [privacy [cfg [inst [instant [start [ms ->]]]]]]].
    destruct (create_log_entry T privacy cfg inst instant start ms req x) eqn:El; [reflexivity|]. exfalso. revert El. apply fill_fields_some; [|now apply Hn].
    unfold SafeSpec.asked. rewrite Eq. discriminate.
  - unfold metrics_resolve. rewrite Hdis. apply done_after. reflexivity.
  - apply orb_false_iff in Hdis as [H1 H2]. apply nonempty_false in H1, H2. unfold with_rewriter. rewrite H1.
    rewrite (custom_idle req q qs) by auto. exact Hp.
  - unfold hosts_resolve. rewrite Hdis. exact Hp.
  - apply nonempty_false in Hdis. unfold blocking_resolve. rewrite blocking_idle by assumption. unfold resolve_groups. apply done_after. intros [x|e] _; reflexivity.
  - unfold caching_resolve. rewrite Hdis. exact Hp.
  - apply orb_false_iff in Hdis as [H1 H2]. apply nonempty_false in H1, H2. unfold with_rewriter. rewrite H1. unfold conditional_resolve. rewrite H2. exact Hp.
  - unfold sudn_resolve. rewrite Hdis. exact Hp.
Qed.

(** Without a name for any client and without lookups the client is known by its address. *)
Theorem C144_names : forall ip_string iter ext id i, is_enabled w lookup logs SClientNames = false -> Permutation iter (cl_mapping lookup) ->
  resolve_client_names ip_string lookup iter ext id i = Some [ip_string (Some i)].
Proof.
  intros ip_string iter ext id i H Hp. cbn [is_enabled] in H. apply orb_false_iff in H as [H1 H2]. apply nonempty_false in H2. rewrite H2 in Hp.
  symmetry in Hp. apply Permutation_nil in Hp. subst iter. unfold resolve_client_names. cbn [name_from_mapping flat_map]. now rewrite H1.
Qed.

(** Rewriting rules around a resolver without anything configured leave queries alone too, whatever names the rules are about. *)
Theorem C144_rewrite_alone : forall p req next, made_from -> m_question (req_msg req) <> [] ->
  (In (SCustom, p) (query_resolvers w) -> cu_mapping (w_custom w) = [] -> cu_zone (w_custom w) = [] ->
     exec (p req) next = next req /\ forwarded (p req) next = [req]) /\
  (In (SConditional, p) (query_resolvers w) -> w_mapping w = [] ->
     exec (p req) next = next req /\ forwarded (p req) next = [req]).
Proof.
  intros p req next [He [Hb [Ho Hf]]] Hq.
  assert (exec (pass req) next = next req /\ forwarded (pass req) next = [req]) as Hp by (split; [apply exec_pass|apply forwarded_pass]).
  assert (forall m, set_req_msg (req_msg m) m = m) as Hself by (now intros []).
  assert (forall iter i qs names, fst (rewrite_questions iter i qs names) = [] -> qs = []) as Hrw.
  { intros iter i [|q qs] names; [reflexivity|]. cbn [rewrite_questions].
    destruct (str_eqb _ _); destruct (rewrite_questions _ _ _ _); discriminate. }
  assert (forall inner fallback iter, (forall rq, m_question (req_msg rq) <> [] -> inner rq = Some (Ok no_response, req_msg rq)) ->
    rewriter_resolve fallback iter inner req = pass req) as Hr.
  { intros inner fallback iter Hi. unfold rewriter_resolve. destruct (rewrite_questions iter 0 (m_question (req_msg req)) []) as [qs names] eqn:E.
    assert (qs <> []) as Hqs by (intros ->; apply Hq, (Hrw iter 0 _ []); now rewrite E).
    destruct names as [|nm names]; rewrite Hi; cbn [rs_msg no_response]; try assumption; [now rewrite Hself|reflexivity]. }
  split.
  - intros Hin H1 H2. cbn [query_resolvers In] in Hin.
    destruct Hin as [E|[E|[E|[E|[E|[E|[E|[E|[E|[E|[E|[E|[E|[]]]]]]]]]]]]]]; try discriminate. injection E as <-.
    assert (forall rq, m_question (req_msg rq) <> [] -> custom_stage w rq = pass rq) as Hc.
    { intros rq Hrq. destruct (m_question (req_msg rq)) as [|q qs] eqn:Eq; [congruence|]. now apply (custom_idle rq q qs). }
    unfold with_rewriter. destruct (w_custom_rules w); [now rewrite Hc|]. rewrite Hr; [exact Hp|]. intros rq Hrq. unfold inner_prog. rewrite Hc by exact Hrq. reflexivity.
  - intros Hin H1. cbn [query_resolvers In] in Hin.
    destruct Hin as [E|[E|[E|[E|[E|[E|[E|[E|[E|[E|[E|[E|[E|[]]]]]]]]]]]]]]; try discriminate. injection E as <-.
    unfold with_rewriter. destruct (w_cond_rules w); [unfold conditional_resolve; rewrite H1; exact Hp|]. rewrite Hr; [exact Hp|].
    intros rq Hrq. unfold inner_conditional, cond_resolve. rewrite H1. cbn. reflexivity.
Qed.

(** If everything but the upstreams is printed as disabled and there is no zone, a query gets the answer of the upstreams as it is. *)
Theorem C144_all_disabled : forall req, made_from -> (forall s, s <> SUpstreamTree -> In (s, false) (printed w lookup logs)) ->
  cu_zone (w_custom w) = [] -> m_question (req_msg req) <> [] -> (forall rq x, w_upstream w rq = Some (Ok x) -> rs_msg x <> None) ->
  query_chain w req = w_upstream w (set_req_names (w_names w req) req) /\
  query_calls w req = map (fun s => (s, req)) [SFiltering; SFqdnOnly; SEcs; SClientNames] ++
    map (fun s => (s, set_req_names (w_names w req) req)) [SEde; SQueryLogging; SMetrics; SCustom; SHosts; SBlocking; SCaching; SConditional; SSudn; SUpstreamTree].
Proof.
  intros req Hm Hd Hz Hq Hu. set (arr := set_req_names (w_names w req) req).
  assert (m_question (req_msg arr) <> []) as Hqa by exact Hq.
  assert (forall rs, (forall s p, In (s, p) rs -> In (s, p) (query_resolvers w) /\ s <> SClientNames) ->
    forall last rq, m_question (req_msg rq) <> [] -> (forall x, last rq = Some (Ok x) -> rs_msg x <> None) ->
    chain (map snd rs) last rq = last rq /\ calls rs last rq = map (fun s => (s, rq)) (map fst rs ++ [SUpstreamTree])) as Hc.
  { induction rs as [|[s p] rs IH]; intros Hin last rq Hrq Hl; [split; reflexivity|].
    destruct (IH ltac:(intros; apply Hin; now right) last rq Hrq Hl) as [I1 I2]. destruct (Hin s p (or_introl eq_refl)) as [A B].
    destruct (C144_disabled_partial s p rq (chain (map snd rs) last) Hm A) as [E F]; auto.
    - apply Hd. intros ->. cbn [query_resolvers In] in A. repeat (destruct A as [A|A]; [discriminate|]). destruct A.
    - now rewrite I1.
    - split.
      + cbn [map snd]. unfold chain in *. cbn [fold_right link]. unfold link at 1. rewrite E. exact I1.
      + cbn [calls map fst app]. rewrite F. cbn [flat_map]. rewrite app_nil_r, I2. reflexivity. }
  set (back := skipn 4 (query_resolvers w)). set (frnt := firstn 3 (query_resolvers w)).
  assert (forall s p, In (s, p) back -> In (s, p) (query_resolvers w) /\ s <> SClientNames) as Hb.
  { intros s p H. split; [rewrite <- (firstn_skipn 4 (query_resolvers w)); apply in_or_app; now right|].
    intros ->. unfold back in H. cbn [query_resolvers skipn In] in H. repeat (destruct H as [H|H]; [discriminate|]). destruct H. }
  destruct (Hc back Hb (w_upstream w) arr Hqa (fun x => Hu arr x)) as [B1 B2].
  assert (forall s p, In (s, p) frnt -> In (s, p) (query_resolvers w) /\ s <> SClientNames) as Hf.
  { intros s p H. split; [rewrite <- (firstn_skipn 3 (query_resolvers w)); apply in_or_app; now left|].
    intros ->. unfold frnt in H. cbn [query_resolvers firstn In] in H. repeat (destruct H as [H|H]; [discriminate|]). destruct H. }
  set (mid := (fun rq => exec (names_resolve (w_names w rq) rq) (chain (map snd back) (w_upstream w))) : next_fn).
  assert (mid req = w_upstream w arr) as Hmid by (unfold mid, names_resolve; rewrite exec_pass; exact B1).
  destruct (Hc frnt Hf mid req Hq ltac:(rewrite Hmid; apply Hu)) as [F1 _]. split.
  - transitivity (mid req); [|exact Hmid]. rewrite <- F1. reflexivity.
  - assert (forall s p rs last, In (s, p) (query_resolvers w) -> s <> SClientNames -> chain (map snd rs) last req = w_upstream w arr ->
      calls ((s, p) :: rs) last req = (s, req) :: calls rs last req) as Hstep.
    { intros s p rs last A B E0. destruct (C144_disabled_partial s p req (chain (map snd rs) last) Hm A) as [_ F]; auto.
      - apply Hd. intros ->. cbn [query_resolvers In] in A. repeat (destruct A as [A|A]; [discriminate|]). destruct A.
      - rewrite E0. intros x. apply Hu.
      - cbn [calls]. rewrite F. cbn [flat_map]. now rewrite app_nil_r. }
    unfold query_calls. change (query_resolvers w) with (firstn 3 (query_resolvers w) ++ (SClientNames, fun rq => names_resolve (w_names w rq) rq) :: back).
    pose proof (fun n => Hc (skipn n frnt)) as Hsk.
    assert (forall n, chain (map snd (skipn n frnt)) mid req = w_upstream w arr) as Hch.
    { intros n. rewrite <- Hmid. apply Hc; [|exact Hq|rewrite Hmid; apply Hu]. intros s p H. apply Hf. rewrite <- (firstn_skipn n frnt). apply in_or_app. now right. }
    cbn [query_resolvers firstn app].
    rewrite Hstep; [|cbn; tauto|discriminate|exact (Hch 1)]. rewrite Hstep; [|cbn; tauto|discriminate|exact (Hch 2)]. rewrite Hstep; [|cbn; tauto|discriminate|exact (Hch 3)].
    cbn [calls]. unfold names_resolve. rewrite forwarded_pass. cbn [flat_map]. rewrite app_nil_r. fold arr. rewrite B2. reflexivity.
Qed.
End C144.
Print Assumptions C144_printed.
Print Assumptions C144_disabled_partial.
Print Assumptions C144_names.
Print Assumptions C144_rewrite_alone.
Print Assumptions C144_all_disabled.

(** *** Examples *)
Definition dis_lookup : lookup_cfg := {| cl_mapping := []; cl_lookup := false; cl_order := [] |}.
Definition dis_zone : list (str * list rr) := [($"nas.lan", [{| rr_name := $"nas.lan."; rr_type := 1; rr_class := 1; rr_ttl := 60; rr_data := DA (IP4 [10; 0; 0; 9]%N) |}])].
(** Nothing is configured but the zone [z] and the custom rewriting rules [rules]. *)
Definition dis_world (z : list (str * list rr)) (rules : list (str * str)) : world nat :=
  let w := cx_world [BlockingProps.ex_a $"x." [1;1;1;1]%N] in
  let c := {| cu_mapping := []; cu_zone := z; cu_ttl := 3600; cu_filter := true |} in
  {| w_filter := []; w_fqdn := false; w_ecs := {| ec_client := false; ec_forward := false; ec_mask4 := 0; ec_mask6 := 0 |};
     w_names := w_names w; w_ede := false; w_entry := w_entry w; w_metrics := false;
     w_custom := c; w_new_id := w_new_id w; w_records := custom_records c; w_fuel := 5;
     w_custom_rules := rules; w_custom_fallback := false; w_custom_iter := fun _ => rules;
     w_hosts := {| hf_enabled := false; hf_ttl := 60; hf_filter := true; hf_max_errors := 5 |}; w_table := w_table w; w_hosts4 := []; w_hosts6 := [];
     w_glob := w_glob w; w_cidr := w_cidr w; w_ip_string := w_ip_string w; w_allow := w_allow w; w_deny := w_deny w;
     w_blk := {| bc_deny := bc_deny (w_blk w); bc_allow := []; bc_clients := []; bc_type := $"zeroIp"; bc_ttl := 60 |}; w_handler := HZeroIP 60;
     w_blk_iter := fun _ => []; w_fqdn_ips := w_fqdn_ips w; w_disabled := [];
     w_caching := {| cc_min := 0; cc_max := -1; cc_neg := 0; cc_prefetching := false; cc_pf := cc_pf (w_caching w) |};
     w_look := w_look w; w_mapping := []; w_ask := w_ask w; w_cond_rules := []; w_cond_fallback := false; w_cond_iter := fun _ => [];
     w_sudn := {| su_appendix_g := true; su_enable := false |}; w_upstream := w_upstream w |}.

Lemma dis_made z rules : made_from (dis_world z rules).
Proof.
  split; [intros; do 7 eexists; reflexivity|]. split; [intros i; constructor|]. split; [apply Permutation_refl|cbn; lia].
Qed.
Lemma dis_all z s : s <> SUpstreamTree -> In (s, false) (printed (dis_world z []) dis_lookup false).
Proof. intros H. apply C144_printed. destruct s; try reflexivity. congruence. Qed.

Example C144_example : let w := dis_world [] [] in let req := cx_req $"ads.com" 1 in
  made_from w /\ (forall s, s <> SUpstreamTree -> In (s, false) (printed w dis_lookup false)) /\ m_question (req_msg req) <> [] /\
  (forall rq x, w_upstream w rq = Some (Ok x) -> rs_msg x <> None) /\
  cx_show (query_chain w req) = Some RESOLVED /\
  cx_show (query_chain (cx_world [BlockingProps.ex_a $"x." [1;1;1;1]%N]) req) = Some BLOCKED.
Proof.
  split; [apply dis_made|]. split; [apply dis_all|]. split; [discriminate|]. split; [|split; vm_compute; reflexivity].
  intros rq x. cbn. intros [= <-]. discriminate.
Qed.
Example C144_rewrite_example : let w := dis_world [] [($"lan", $"home")] in
  exec (snd (nth 7 (query_resolvers w) (SUpstreamTree, fun _ => Crash)) (cx_req $"nas.lan" 1)) (fun rq => Some (Err (q_name (hd {| q_name := []; q_type := 0; q_class := 0 |} (m_question (req_msg rq)))))) =
  Some (Err $"nas.lan.") /\ is_enabled w dis_lookup false SCustom = true.
Proof. split; vm_compute; reflexivity. Qed.

(** Not so for every resolver: the one for custom records is printed as disabled, but answers from a zone. *)
Theorem C144_disabled_refuted : exists (w : world nat) lookup logs req,
  made_from w /\ (forall s, s <> SUpstreamTree -> In (s, false) (printed w lookup logs)) /\ m_question (req_msg req) <> [] /\
  (forall rq x, w_upstream w rq = Some (Ok x) -> rs_msg x <> None) /\
  query_chain w req <> w_upstream w (set_req_names (w_names w req) req) /\ ~ In SUpstreamTree (map fst (query_calls w req)).
Proof.
  exists (dis_world dis_zone []), dis_lookup, false, (cx_req $"nas.lan" 1).
  split; [apply dis_made|]. split; [apply dis_all|]. split; [discriminate|]. split; [intros rq x; cbn; intros [= <-]; discriminate|].
  split; [vm_compute; discriminate|]. intros H. vm_compute in H. intuition discriminate.
Qed.
Print Assumptions C144_disabled_refuted.
