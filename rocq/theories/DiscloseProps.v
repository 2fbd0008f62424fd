(** What upstreams learn about clients: the client subnet reaches them only as the client-subnet resolver lets it, on every way through the chain (C172). *)
From Coq Require Import String Ascii List Arith Bool NArith ZArith Lia Permutation.
From Verif Require Import Str StrFacts Dns Resolver ResolverFacts CachingSpec CachingProofs CachingProps ExpCache Prefetch Caching
  Blocking BlockingSpec BlockingProofs BlockingProps Custom CustomSpec CustomProofs CustomProps Conditional ConditionalSpec ConditionalProps
  Rewriter RewriterSpec RewriterProps EdnsProofs EdnsProps Sudn SudnSpec SudnProps Ecs EcsSpec EcsProps ClientNames QueryLog Hosts
  Chain ChainSpec ChainProofs ChainProps EndToEnd EndToEndSpec EndToEndProofs EndToEndProps CnameProps GroupsProps.
Import ListNotations.

(** [rq] carries at most the additional section of [e], and the same client address. *)
Definition no_more_than (e rq : request) : Prop :=
  (m_extra (req_msg rq) = m_extra (req_msg e) \/ m_extra (req_msg rq) = []) /\ req_ip rq = req_ip e.

(** [q] is a request for the upstream [u] of a zone, made of [rq] with any questions (names may have been rewritten). *)
Definition zone_request {U} (w : world U) (rq : request) (u : U) (q : request) : Prop :=
  exists qs, cond_dest (w_mapping w) (set_req_msg (set_question qs (req_msg rq)) rq) = Some (ToUpstream u q).

Lemma no_more_refl e : no_more_than e e.
Proof. split; [now left|reflexivity]. Qed.

Lemma no_more_option e rq o : no_more_than e rq -> has_option (req_msg rq) o -> has_option (req_msg e) o.
Proof.
  intros [[H|H] _] [l [[r [Hr Hd]] Ho]].
  - exists l. split; [|exact Ho]. exists r. split; [|exact Hd]. unfold opt_in_force in *. now rewrite <- H.
  - exfalso. destruct Hr as [a [b [E _]]]. rewrite H in E. now destruct a.
Qed.

Section Calls.
Context {U : Type}.
Variable w : world U.

Lemma entries_no_more cfg new_id proc r q e next : no_more_than e r ->
  (forall cn r' rq, no_more_than e r' -> In rq (forwarded (proc cn r') next) -> no_more_than e rq) ->
  forall recs cn acc rq, In rq (forwarded (process_entries cfg new_id proc r q cn recs acc) next) -> no_more_than e rq.
Proof.
  intros Hr Hp. induction recs as [|x recs IH]; intros cn acc rq; cbn [process_entries].
  - destruct acc; [destruct (cu_filter cfg)|]; try (intros H; now destruct H). intros H. apply in_pass in H as ->. exact Hr.
  - destruct (rr_data x) as [i|i|t|t|v|p y po t|o|o]; try apply IH; try (intros H; now destruct H). cbv zeta.
    destruct (q_type q =? type_CNAME)%N; [apply IH|]. destruct (str_in _ _); [intros H; now destruct H|].
    rewrite forwarded_bind. intros H. apply in_app_or in H as [H|H].
    + apply Hp in H; [exact H|]. split; [now right|exact (proj2 Hr)].
    + destruct (exec _ next) as [[y|y]|]; try (now destruct H). destruct (rs_msg y); [exact (IH _ _ _ H)|now destruct H].
Qed.

Lemma process_no_more e next : forall fuel cn r rq, no_more_than e r ->
  In rq (forwarded (process_request (w_custom w) (w_new_id w) Crash fuel cn r) next) -> no_more_than e rq.
Proof.
  induction fuel as [|fuel IH]; intros cn r rq Hr; cbn [process_request]; [intros []|]. destruct (m_question (req_msg r)) as [|q l]; [intros []|].
  destruct (first_mapped _ _); [|intros H; apply in_pass in H as ->; exact Hr]. apply entries_no_more; [exact Hr|]. intros cn' r' rq'. apply IH.
Qed.

Lemma custom_no_more e next r rq : no_more_than e r -> In rq (forwarded (custom_stage w r) next) -> no_more_than e rq.
Proof.
  intros Hr. unfold custom_stage, custom_resolve. destruct (m_question (req_msg r)) as [|q l]; [intros []|].
  destruct (handle_reverse _ _ _ _); [intros []|]. now apply process_no_more.
Qed.

Lemma rewriter_no_more e fallback iter inner next r rq : (forall r' x lft, inner r' = Some (x, lft) -> m_extra lft = m_extra (req_msg r')) ->
  no_more_than e r -> In rq (forwarded (rewriter_resolve fallback iter inner r) next) -> no_more_than e rq.
Proof.
  intros Hi Hr. unfold rewriter_resolve. destruct (rewrite_questions _ _ _ _) as [qs names]. cbv zeta.
  set (b := match names with [] => false | _ => true end). destruct (inner _) as [[res lft]|] eqn:E; [|intros []].
  assert (no_more_than e (if b then r else set_req_msg lft r)) as Hs.
  { destruct b; [exact Hr|]. apply Hi in E. destruct Hr as [A B]. split; [|exact B]. cbn [req_msg set_req_msg]. rewrite E. exact A. }
  destruct res as [x|x].
  - destruct (rs_msg x); [|intros H; apply in_pass in H as ->; exact Hs].
    destruct (_ && _); [intros H; apply in_pass in H as ->; exact Hs|]. destruct b; intros [].
  - destruct fallback; [intros H; apply in_pass in H as ->; exact Hs|intros []].
Qed.

Lemma dest_no_more (mapping : list (str * U)) r u q : cond_dest mapping r = Some (ToUpstream u q) ->
  m_extra (req_msg q) = m_extra (req_msg r) /\ req_ip q = req_ip r.
Proof.
  unfold cond_dest. destruct (cond_table mapping); [discriminate|]. destruct (m_question (req_msg r)) eqn:E; [discriminate|]. cbv zeta.
  assert (forall n, m_extra (req_msg (set_first_name n r)) = m_extra (req_msg r) /\ req_ip (set_first_name n r) = req_ip r) as Hn
    by (intros n; unfold set_first_name; rewrite E; split; reflexivity).
  destruct (contains_byte _ _); [destruct (first_mapped _ _)|destruct (mget _ _ _)]; intros [= <- <-]; apply Hn.
Qed.

Lemma calls_no_more req s rq : behind_names s -> In (s, rq) (query_calls w req) ->
  exists e next, In (SClientNames, e) (query_calls w req) /\ In e (forwarded (ecs_resolve (w_ecs w) req) next) /\ no_more_than e rq.
Proof.
  intros Hs H. unfold query_calls, query_resolvers in H |- *.
  apply calls_split in H as [E|[x [Hx H]]]; [injection E as -> _; cbn in Hs; intuition discriminate|]. pose proof Hx as Ex. apply filtering_same in Ex. subst x.
  apply calls_split in H as [E|[x [Hy H]]]; [injection E as -> _; cbn in Hs; intuition discriminate|]. pose proof Hy as Ey. apply fqdn_same in Ey. subst x.
  apply calls_split in H as [E|[e [He H]]]; [injection E as -> _; cbn in Hs; intuition discriminate|].
  exists e. eexists. split; [eapply calls_join; [exact Hx|]; eapply calls_join; [exact Hy|]; eapply calls_join; [exact He|apply calls_here]|].
  split; [exact He|]. clear Hx Hy He. revert H. apply (calls_inv (no_more_than e)); [|apply no_more_refl].
  assert (forall a b, no_more_than e a -> b = a -> no_more_than e b) as Hk by (intros a b Ha ->; exact Ha).
  intros s0 p Hp r next r' Hr Hf. cbn [In] in Hp.
  destruct Hp as [[= <- <-]|[[= <- <-]|[[= <- <-]|[[= <- <-]|[[= <- <-]|[[= <- <-]|[[= <- <-]|[[= <- <-]|[[= <- <-]|[[= <- <-]|[]]]]]]]]]]].
  - unfold names_resolve in Hf. apply in_pass in Hf as ->. exact Hr.
  - exact (Hk _ _ Hr (ede_same _ _ _ _ Hf)).
  - exact (Hk _ _ Hr (logging_same _ _ _ _ Hf)).
  - exact (Hk _ _ Hr (metrics_same _ _ _ _ Hf)).
  - unfold with_rewriter in Hf. destruct (w_custom_rules w); [exact (custom_no_more _ _ _ _ Hr Hf)|].
    refine (rewriter_no_more _ _ _ _ _ _ _ _ Hr Hf). intros r0 x lft. unfold inner_prog. destruct (exec _ _); [|discriminate]. now intros [= _ <-].
  - exact (Hk _ _ Hr (hosts_same _ _ _ _ _ _ _ Hf)).
  - exact (Hk _ _ Hr (blocking_same w _ _ _ Hf)).
  - exact (Hk _ _ Hr (caching_same _ _ _ _ _ Hf)).
  - unfold with_rewriter in Hf. destruct (w_cond_rules w); [exact (Hk _ _ Hr (conditional_same _ _ _ _ _ Hf))|].
    refine (rewriter_no_more _ _ _ _ _ _ _ _ Hr Hf). intros r0 x lft. unfold inner_conditional. destruct (cond_resolve _ _ _ _); [|discriminate].
    intros [= _ <-]. destruct (cond_dest (w_mapping w) r0) as [[u q|q]|] eqn:E; [|reflexivity|reflexivity]. exact (proj1 (dest_no_more _ _ _ _ E)).
  - exact (Hk _ _ Hr (sudn_same _ _ _ _ Hf)).
Qed.

(** No resolver behind the client-subnet resolver adds an option to what is asked, neither for the upstream groups nor for the upstreams of
    zones; with client-subnet handling switched off nothing is there that the client did not send. *)
Theorem C172_nothing_added : forall req s rq, behind_names s -> In (s, rq) (query_calls w req) ->
  exists e, In (SClientNames, e) (query_calls w req) /\ req_ip rq = req_ip e /\ (ecs_enabled (w_ecs w) = false -> e = req) /\
    (forall o, has_option (req_msg rq) o -> has_option (req_msg e) o) /\
    forall u q o, zone_request w rq u q -> has_option (req_msg q) o -> has_option (req_msg e) o.
Proof.
  intros req s rq Hs H. destruct (calls_no_more req s rq Hs H) as [e [next [H1 [H2 H3]]]]. exists e. split; [exact H1|].
  split; [exact (proj2 H3)|]. split; [exact (proj2 (ecs_keeps w _ _ _ H2))|]. split; [intros o; now apply no_more_option|].
  intros u q o [qs Hq]. apply dest_no_more in Hq as [Hq Hi]. apply no_more_option. destruct H3 as [A B]. split; [rewrite Hq; exact A|rewrite Hi; exact B].
Qed.

(** So with forwarding off every upstream is told no more about the client than the configured network, on the conditions of C43. *)
Theorem C172_network_partial : forall req s rq o,
  ec_forward (w_ecs w) = false -> ecs_enabled (w_ecs w) = true -> well_formed (req_msg req) ->
  behind_names s -> In (s, rq) (query_calls w req) ->
  has_option (req_msg rq) o \/ (exists u q, zone_request w rq u q /\ has_option (req_msg q) o) -> eopt_code o = 8%N ->
  (exists i, req_ip rq = Some i /\ (0 < if is_v4 i then ec_mask4 (w_ecs w) else ec_mask6 (w_ecs w))%N) \/
  (ec_mask4 (w_ecs w) = 0%N /\ ec_mask6 (w_ecs w) = 0%N /\ one_opt (req_msg req) /\
   forall l i j a b, options_of (req_msg req) l -> nth_error l i = Some a -> nth_error l j = Some b ->
     eopt_code a = 8%N -> eopt_code b = 8%N -> i = j) ->
  exists i, req_ip rq = Some i /\ network_only (ec_mask4 (w_ecs w)) (ec_mask6 (w_ecs w)) i o.
Proof.
  intros req s rq o Hf He Hw Hs H Ho Hc Hcase. destruct (calls_no_more req s rq Hs H) as [e [next [_ [H2 H3]]]].
  assert (has_option (req_msg e) o) as Hoe.
  { destruct Ho as [Ho|[u [q [[qs Hq] Ho]]]]; [exact (no_more_option _ _ _ H3 Ho)|]. apply dest_no_more in Hq as [Hq Hi].
    apply (no_more_option e q); [|exact Ho]. destruct H3 as [A B]. split; [rewrite Hq; exact A|rewrite Hi; exact B]. }
  rewrite (proj2 H3) in *. exact (C43_only_network_partial (w_ecs w) req e next o Hf He Hw H2 Hoe Hc Hcase).
Qed.

End Calls.
Print Assumptions C172_nothing_added.
Print Assumptions C172_network_partial.

(** Questions the program asks on its own to renew its cache tell of no client at all. *)
Theorem C172_prefetch : forall packable cfg s ev s' out rq, step packable cfg s ev = Some (s', out) -> In (Forward None rq) out ->
  req_ip rq = None /\ req_client_id rq = [] /\ req_names rq = [] /\ forall o, ~ has_option (req_msg rq) o.
Proof.
  intros packable cfg s ev s' out rq H Hin.
  assert (forall id req qs resp now c tasks, In (Forward None rq) (snd (start_question cfg id req qs resp now c tasks)) -> False) as Hstart.
  { intros id req qs resp now c tasks. unfold start_question. destruct qs as [|q rest]; [destruct resp; cbn; intuition discriminate|]. cbv zeta.
    destruct (cache_get _ _ _ _) as [[[m t]|] c']; cbn; intuition discriminate. }
  assert (forall l : list output, (forall x, In x l -> x <> Forward None rq) -> out = l -> False) as Hno by (intros l Hl ->; now apply (Hl _ Hin)).
  destruct ev as [id req now|id r|id now|key m now|key now|key r|key now|now|]; cbn [step] in H.
  - destruct (existsb _ _); [discriminate H|]. destruct (_ || _); [exfalso; apply (Hno [Forward (Some id) req]); [intros x [<-|[]]; discriminate|congruence]|].
    exfalso. apply (Hstart id req (m_question (req_msg req)) None now (s_cache s) (s_tasks s)).
    destruct (start_question _ _ _ _ _ _ _ _) as [[c t] o]. injection H as _ <-. exact Hin.
  - exfalso. destruct (take_task _ _) as [[t tasks]|]; [|discriminate H]. destruct (tk_phase t); try discriminate H.
    destruct r as [r|e]; [|apply (Hno []); [intros x []|congruence]].
    destruct (rs_msg r) as [m|]; [|apply (Hno [Crashed (Some id)]); [intros x [<-|[]]; discriminate|congruence]].
    destruct (adjust_ttls _ _). apply (Hno []); [intros x []|congruence].
  - exfalso. destruct (take_task _ _) as [[t tasks]|]; [|discriminate H]. destruct (tk_phase t); try discriminate H;
      match type of H with context [start_question cfg ?a ?b ?c ?d ?e ?f ?g] => apply (Hstart a b c d e f g); destruct (start_question cfg a b c d e f g) as [[c0 t0] o] end;
      injection H as _ <-; exact Hin.
  - exfalso. destruct (adjust_ttls _ _). apply (Hno []); [intros x []|congruence].
  - destruct (lru_peek _ _); [|discriminate H]. destruct (is_expired _ _); [|discriminate H].
    destruct (cc_prefetching cfg); [|exfalso; apply (Hno []); [intros x []|congruence]].
    destruct (should_prefetch _ _ _ _) as [b names]. destruct b; [|exfalso; apply (Hno []); [intros x []|congruence]].
    destruct (extract_cache_key key) as [[t name]|]; [|exfalso; apply (Hno [Crashed None]); [intros x [<-|[]]; discriminate|congruence]].
    injection H as _ <-. destruct Hin as [Hin|[]]. injection Hin as <-. split; [reflexivity|]. split; [reflexivity|]. split; [reflexivity|].
    intros o [l [[r [[a [b [E _]]] _]] _]]. cbn in E. now destruct a.
  - exfalso. destruct (take_prefetch _ _) as [[[x|] rest]|]; [discriminate H| |discriminate H].
    destruct (reload_result _ _ _); [apply (Hno []); [intros x []|congruence]|apply (Hno [Crashed None]); [intros x [<-|[]]; discriminate|congruence]].
  - exfalso. destruct (take_prefetch _ _) as [[[[[m ttl]|]|] rest]|]; try discriminate H; (apply (Hno []); [intros x []|congruence]).
  - exfalso. apply (Hno []); [intros x []|congruence].
  - exfalso. apply (Hno []); [intros x []|congruence].
Qed.
Print Assumptions C172_prefetch.

(** The world of the examples with a client-subnet configuration. *)
Definition di_world (c : ecs_cfg) : world nat :=
  let w := cn_world [$"desktop"] in
  {| w_filter := w_filter w; w_fqdn := w_fqdn w; w_ecs := c; w_names := w_names w; w_ede := w_ede w; w_entry := w_entry w; w_metrics := w_metrics w;
     w_custom := w_custom w; w_new_id := w_new_id w; w_records := w_records w; w_fuel := w_fuel w;
     w_custom_rules := w_custom_rules w; w_custom_fallback := w_custom_fallback w; w_custom_iter := w_custom_iter w;
     w_hosts := w_hosts w; w_table := w_table w; w_hosts4 := w_hosts4 w; w_hosts6 := w_hosts6 w;
     w_glob := w_glob w; w_cidr := w_cidr w; w_ip_string := w_ip_string w; w_allow := w_allow w; w_deny := w_deny w;
     w_blk := w_blk w; w_handler := w_handler w; w_blk_iter := w_blk_iter w; w_fqdn_ips := w_fqdn_ips w; w_disabled := w_disabled w;
     w_caching := w_caching w; w_look := w_look w; w_mapping := w_mapping w; w_ask := w_ask w;
     w_cond_rules := w_cond_rules w; w_cond_fallback := w_cond_fallback w; w_cond_iter := w_cond_iter w; w_sudn := w_sudn w; w_upstream := w_upstream w |}.
Definition di_at (s : stage -> bool) (w : world nat) (req : request) : list (list rdata) :=
  map (fun c => map rr_data (m_extra (req_msg (snd c)))) (filter (fun c => s (fst c)) (query_calls w req)).
Definition di_up (s : stage) : bool := match s with SUpstreamTree => true | _ => false end.

(** The client sent its complete address; the upstreams get the network of it as configured. *)
Example C172_case : let w := di_world {| ec_client := false; ec_forward := false; ec_mask4 := 24; ec_mask6 := 0 |} in
  let req := ecs_req (IP4 [192;168;1;5]%N) [my_net] in
  ecs_enabled (w_ecs w) = true /\ well_formed (req_msg req) /\
  di_at di_up w req = [[DOPT [EOSubnet 1 24 0 (Some (IP4 [192;168;1;0]%N))]]].
Proof. split; [reflexivity|]. split; [apply ecs_req_regular|]. vm_compute. reflexivity. Qed.


(** ** C172, the full statement is false: what C43 lets through is sent to the upstreams. Here nothing is configured about client subnets and a
    client's complete address gets to the upstreams. *)
Theorem C172_leak_refuted : exists (w : world nat) req rq o, ec_forward (w_ecs w) = false /\ well_formed (req_msg req) /\ one_opt (req_msg req) /\
  In (SUpstreamTree, rq) (query_calls w req) /\ has_option (req_msg rq) o /\ full_address o (Some (IP4 [203; 0; 113; 7]%N)).
Proof.
  exists (di_world {| ec_client := false; ec_forward := false; ec_mask4 := 0; ec_mask6 := 0 |}), (ecs_req (IP4 [192;168;1;5]%N) [my_net]),
    (set_req_names [$"desktop"] (ecs_req (IP4 [192;168;1;5]%N) [my_net])), my_net.
  split; [reflexivity|]. split; [apply ecs_req_regular|]. split; [apply ecs_req_regular|].
  split; [vm_compute; tauto|]. split; [apply (ecs_req_option (IP4 [192;168;1;5]%N) [my_net] my_net); now left|].
  exists 0%N. now left.
Qed.
Print Assumptions C172_leak_refuted.

(** A question asked to renew the cache. *)
Example C172_prefetch_case : exists s s',
  run ex_all (ex_pf_cfg 0) init ex_hist = Some s /\
  step ex_all (ex_pf_cfg 0) s (EExpired (question_key (ex_q $"www.example.com.")) 2000000) =
    Some (s', [Forward None (new_request 0 $"www.example.com" 1)]).
Proof. exact prefetch_case. Qed.
