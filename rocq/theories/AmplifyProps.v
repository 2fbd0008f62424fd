(** How often the upstreams are asked for one query: at most once for each of its questions (C173). *)
From Coq Require Import String Ascii List Arith Bool NArith ZArith Lia Permutation.
From Verif Require Import Str StrFacts Dns Resolver ResolverFacts CachingSpec CachingProofs CachingProps ExpCache Prefetch Caching
  Blocking BlockingSpec BlockingProofs BlockingProps Custom CustomSpec CustomProofs CustomProps Conditional ConditionalSpec ConditionalProps
  Rewriter RewriterSpec RewriterProps EdnsProofs EdnsProps Sudn SudnSpec SudnProps Ecs EcsSpec EcsProps ClientNames QueryLog Hosts
  Chain ChainSpec ChainProofs ChainProps EndToEnd EndToEndSpec EndToEndProofs EndToEndProps CnameProps GroupsProps DiscloseProps.
Import ListNotations.

(** The stage is the one that asks the upstream groups. *)
Definition at_upstreams (c : stage * request) : bool := match fst c with SUpstreamTree => true | _ => false end.
(** How often the upstream groups are asked. *)
Definition asked_upstream (l : list (stage * request)) : nat := length (filter at_upstreams l).
(** As many questions as the other request. *)
Definition as_many (a b : request) : Prop := length (m_question (req_msg b)) = length (m_question (req_msg a)).

(** A resolver which sends on at most one request. *)
Definition at_most_one (p : request -> prog) (r : request) : Prop :=
  forall next, forwarded (p r) next = [] \/ exists r', forwarded (p r) next = [r'].

Section Count.
Context {U : Type}.
Variable w : world U.

Lemma asked_cons c l : asked_upstream (c :: l) = (if at_upstreams c then 1 else 0) + asked_upstream l.
Proof. unfold asked_upstream. cbn [filter]. destruct (at_upstreams c); reflexivity. Qed.
Lemma asked_app a b : asked_upstream (a ++ b) = asked_upstream a + asked_upstream b.
Proof. unfold asked_upstream. now rewrite filter_app, app_length. Qed.

Lemma asked_one s p rs last req n : s <> SUpstreamTree -> at_most_one p req ->
  (forall r', (exists next, In r' (forwarded (p req) next)) -> asked_upstream (calls rs last r') <= n) ->
  asked_upstream (calls ((s, p) :: rs) last req) <= n.
Proof.
  intros Hs Hone Hn. cbn [calls]. rewrite asked_cons. replace (at_upstreams (s, req)) with false by (destruct s; try reflexivity; now elim Hs).
  destruct (Hone (chain (map snd rs) last)) as [E|[r' E]]; rewrite E; cbn [flat_map]; [cbn; lia|]. rewrite app_nil_r.
  apply Hn. exists (chain (map snd rs) last). rewrite E. now left.
Qed.

Lemma asked_many s p rs last req n : s <> SUpstreamTree -> (forall next, length (forwarded (p req) next) <= n) ->
  (forall r', asked_upstream (calls rs last r') <= 1) -> asked_upstream (calls ((s, p) :: rs) last req) <= n.
Proof.
  intros Hs Hl Hn. cbn [calls]. rewrite asked_cons. replace (at_upstreams (s, req)) with false by (destruct s; try reflexivity; now elim Hs).
  specialize (Hl (chain (map snd rs) last)). cbn [Nat.add]. refine (Nat.le_trans _ _ _ _ Hl). clear Hl.
  induction (forwarded (p req) _) as [|r l IH]; cbn [flat_map]; [cbn; lia|]. rewrite asked_app. specialize (Hn r). cbn [length]. lia.
Qed.


(** A program that sends on at most one request. *)
Definition ends (p : prog) : Prop := match p with Next _ _ => False | _ => True end.
Definition short (p : prog) : Prop := match p with Next _ k => forall x, ends (k x) | _ => True end.

Lemma short_one p r : short (p r) -> at_most_one p r.
Proof.
  unfold at_most_one, short. destruct (p r) as [x| |r' k]; intros H next; cbn [forwarded]; [now left|now left|]. right. exists r'.
  destruct (next r') as [x|]; [|reflexivity]. specialize (H x). destruct (k x); [reflexivity|reflexivity|destruct H].
Qed.
Lemma short_pass r : short (pass r).
Proof. intros x. exact I. Qed.

Lemma filtering_short types r : short (filtering_resolve types r).
Proof. unfold filtering_resolve. destruct (m_question _); [exact I|]. destruct (existsb _ _); [exact I|apply short_pass]. Qed.
Lemma fqdn_short b r : short (fqdn_only_resolve b r).
Proof. unfold fqdn_only_resolve. destruct b; [|apply short_pass]. destruct (m_question _); [exact I|]. destruct (negb _); [exact I|apply short_pass]. Qed.
Lemma ecs_short c r : short (ecs_resolve c r).
Proof. destruct (ecs_shape c r) as [E|[r' [E _]]]; rewrite E; [exact I|apply short_pass]. Qed.
Lemma ede_short b r : short (ede_resolve b r).
Proof. unfold ede_resolve. destruct (negb b); [apply short_pass|]. intros [x|x]; exact I. Qed.
Lemma logging_short f r : short (logging_resolve f r).
Proof. unfold logging_resolve. intros [x|x]; [destruct (f r x)|]; exact I. Qed.
Lemma metrics_short b r : short (metrics_resolve b r).
Proof.
  unfold metrics_resolve. intros x. destruct b; [|exact I]. destruct (m_question _); [exact I|].
  destruct (utf8_string _); [|exact I]. destruct x as [x|x]; [destruct (rs_msg x)|]; exact I.
Qed.
Lemma hosts_short cfg d o4 o6 r : short (hosts_resolve cfg d o4 o6 r).
Proof.
  unfold hosts_resolve. destruct (negb _); [apply short_pass|]. destruct (m_question _) as [|q l]; [exact I|].
  destruct (hosts_reverse _ _ _ _ _); [exact I|]. destruct (split_get _ _ _); [exact I|apply short_pass].
Qed.
Lemma denylist_short allow deny cfg h groups r : forall qs p, handle_denylist allow deny cfg h groups r qs = Some p -> short p.
Proof.
  induction qs as [|q qs IH]; intros p; cbn [handle_denylist]; [discriminate|]. cbv zeta.
  destruct (matches allow groups _); [|intros [= <-]; apply short_pass].
  destruct (has_allowlist_only _ _); [intros [= <-]; exact I|]. destruct (matches deny groups _); [apply IH|intros [= <-]; exact I].
Qed.
Lemma blocking_short r :
  short (blocking_resolve (w_glob w) (w_cidr w) (w_ip_string w) (w_allow w) (w_deny w) (w_blk w) (w_handler w)
           (w_blk_iter w) (w_fqdn_ips w) (w_disabled w) r).
Proof.
  unfold blocking_resolve. generalize (groups_to_check (w_glob w) (w_cidr w) (w_ip_string w) (w_blk_iter w 0) (w_blk_iter w) (w_fqdn_ips w) (w_disabled w) r).
  intros groups. unfold resolve_groups. cbv zeta.
  match goal with |- short (match groups with [] => ?go | _ => _ end) => assert (short go) as Hgo end.
  { intros [x|x]; [|exact I]. destruct groups as [|g groups]; [exact I|]. destruct (rs_msg x); [|exact I].
    destruct (screen _ _ _ _); [destruct (m_question (req_msg r))|]; exact I. }
  destruct groups as [|g groups]; [exact Hgo|]. destruct (handle_denylist _ _ _ _ _ _ _) as [p|] eqn:E; [|exact Hgo].
  exact (denylist_short _ _ _ _ _ _ _ p E).
Qed.
Lemma sudn_short c r : short (sudn_resolve c r).
Proof.
  unfold sudn_resolve. destruct (negb _); [apply short_pass|]. destruct (m_question _) as [|q l]; [exact I|].
  destruct (first_mapped _ _); [|apply short_pass]. destruct (sudn_handle _ _ _ _); [exact I|apply short_pass].
Qed.
Lemma rewriter_short fallback iter inner r : short (rewriter_resolve fallback iter inner r).
Proof.
  unfold rewriter_resolve. destruct (rewrite_questions _ _ _ _) as [qs names]. cbv zeta. destruct (inner _) as [[[x|x] lft]|]; [| |exact I].
  - destruct (rs_msg x); [|apply short_pass]. destruct (_ && _); [apply short_pass|]. destruct names; exact I.
  - destruct fallback; [apply short_pass|exact I].
Qed.
Lemma conditional_short (mapping : list (str * U)) ask r : short (conditional_resolve mapping ask r).
Proof.
  unfold conditional_resolve. destruct (cond_dest mapping r) as [[u q|q]|]; [|apply short_pass|exact I].
  destruct (ask u q) as [[x|e]|]; [destruct (cond_response q x)| |]; exact I.
Qed.
Lemma custom_short r : (forall q, hd_error (m_question (req_msg r)) = Some q -> no_cname_to_follow (w_custom w) q) -> short (custom_stage w r).
Proof.
  intros Hn. unfold custom_stage, custom_resolve. destruct (m_question (req_msg r)) as [|q l] eqn:Eq; [exact I|].
  destruct (handle_reverse _ _ _ _); [exact I|]. destruct (w_fuel w) as [|fuel]; [exact I|]. cbn [process_request]. rewrite Eq.
  pose proof (lookup_decides (w_custom w) q) as L. cbv zeta in L. specialize (Hn q eq_refl).
  destruct (first_mapped _ _) as [recs|]; [|apply short_pass].
  assert (q_type q = 5%N \/ forall e t, In e recs -> rr_data e <> DCNAME t) as Hc.
  { destruct Hn as [Hc|Hc]; [now left|]. right. intros e t He. exact (Hc recs e t L He). }
  destruct (process_entries_plain (w_custom w) (w_new_id w) (process_request (w_custom w) (w_new_id w) Crash fuel) r q [] recs [] Hc) as [[e H]|[ans [_ H]]];
    rewrite H; [exact I|]. rewrite app_nil_l. destruct ans; [destruct (cu_filter _); [exact I|apply short_pass]|exact I].
Qed.

Lemma caching_count c look r next : length (forwarded (caching_resolve c look r) next) <= Nat.max 1 (length (m_question (req_msg r))).
Proof.
  unfold caching_resolve. destruct (_ || _); [rewrite forwarded_pass; cbn [length]; lia|].
  assert (forall qs i resp, length (forwarded (caching_loop c look i r qs resp) next) <= length qs) as H.
  { induction qs as [|q qs IH]; intros i resp; cbn [caching_loop]; [destruct resp; cbn; lia|].
    destruct (look i) as [[m t]|]; [cbn; lia|]. cbn [forwarded length].
    destruct (next r) as [[x|e]|]; [destruct (rs_msg x)| |]; cbn [length forwarded]; try lia; match goal with |- context [caching_loop _ _ ?a _ _ ?b] => specialize (IH a b); lia end. }
  specialize (H (m_question (req_msg r)) 0 None). lia.
Qed.

(** The questions passed on by the resolver of custom records are as many as it gets. *)
Lemma rewriter_many fallback iter inner next r rq : (forall r' x lft, inner r' = Some (x, lft) -> length (m_question lft) = length (m_question (req_msg r'))) ->
  In rq (forwarded (rewriter_resolve fallback iter inner r) next) -> as_many r rq.
Proof.
  intros Hi. unfold rewriter_resolve. destruct (rewrite_questions _ _ _ _) as [qs names]. cbv zeta.
  set (b := match names with [] => false | _ => true end). destruct (inner _) as [[res lft]|] eqn:E; [|intros []].
  assert (as_many r (if b then r else set_req_msg lft r)) as Hs by (destruct b; [reflexivity|exact (Hi _ _ _ E)]).
  destruct res as [x|x].
  - destruct (rs_msg x); [|intros H; apply in_pass in H as ->; exact Hs].
    destruct (_ && _); [intros H; apply in_pass in H as ->; exact Hs|]. destruct b; intros [].
  - destruct fallback; [intros H; apply in_pass in H as ->; exact Hs|intros []].
Qed.

(** For one query the upstream groups are asked at most as often as it has questions. *)
Theorem C173_bounded_partial : forall req,
  (w_custom_rules w <> [] \/ forall q, hd_error (m_question (req_msg req)) = Some q -> no_cname_to_follow (w_custom w) q) ->
  asked_upstream (query_calls w req) <= Nat.max 1 (length (m_question (req_msg req))).
Proof.
  intros req Hc. unfold query_calls, query_resolvers.
  apply asked_one; [discriminate|apply short_one, filtering_short|]. intros r0 [n0 H0]. apply filtering_same in H0. subst r0.
  apply asked_one; [discriminate|apply short_one, fqdn_short|]. intros r0 [n1 H0]. apply fqdn_same in H0. subst r0.
  apply asked_one; [discriminate|apply short_one, ecs_short|]. intros e [n2 H0]. apply (ecs_keeps w) in H0 as [Eq _].
  apply asked_one; [discriminate|apply (short_one (fun r => names_resolve (w_names w r) r)), short_pass|]. intros r0 [n3 H0]. unfold names_resolve in H0. apply in_pass in H0. subst r0.
  change (set_req_names (w_names w e) e) with (known_as w e).
  assert (m_question (req_msg (known_as w e)) = m_question (req_msg req)) as Hq by exact Eq.
  apply asked_one; [discriminate|apply short_one, ede_short|]. intros r0 [n4 H0]. apply ede_same in H0. subst r0.
  apply asked_one; [discriminate|apply short_one, logging_short|]. intros r0 [n5 H0]. apply logging_same in H0. subst r0.
  apply asked_one; [discriminate|apply short_one, metrics_short|]. intros r0 [n6 H0]. apply metrics_same in H0. subst r0.
  assert (short (with_rewriter (w_custom_rules w) (rewriter_resolve (w_custom_fallback w) (w_custom_iter w) (inner_prog (custom_stage w))) (custom_stage w) (known_as w e)) /\
          forall next r, In r (forwarded (with_rewriter (w_custom_rules w) (rewriter_resolve (w_custom_fallback w) (w_custom_iter w) (inner_prog (custom_stage w))) (custom_stage w) (known_as w e)) next) ->
            as_many req r) as [Hs Hm].
  { unfold with_rewriter. destruct (w_custom_rules w).
    - destruct Hc as [Hc|Hc]; [now elim Hc|].
      assert (forall q, hd_error (m_question (req_msg (known_as w e))) = Some q -> no_cname_to_follow (w_custom w) q) as Hc' by (rewrite Hq; exact Hc).
      split; [now apply custom_short|]. intros next r H. apply custom_same in H; [|exact Hc']. subst r. unfold as_many. now rewrite Hq.
    - split; [apply rewriter_short|]. intros next r H. unfold as_many. rewrite <- Hq.
      refine (rewriter_many _ _ _ _ _ _ _ H). intros r' x lft. unfold inner_prog. destruct (exec _ _); [|discriminate]. now intros [= _ <-]. }
  apply asked_one; [discriminate|apply short_one, Hs|]. intros r1 [n7 H0]. apply Hm in H0. clear Hs Hm. rewrite <- H0.
  apply asked_one; [discriminate|apply short_one, hosts_short|]. intros r0 [n8 H1]. apply hosts_same in H1. subst r0.
  apply asked_one; [discriminate|apply short_one, blocking_short|]. intros r0 [n9 H1]. apply (blocking_same w) in H1. subst r0.
  apply asked_many; [discriminate|intros next; apply caching_count|]. clear.  intros r.
  apply asked_one; [discriminate|apply short_one|].
  { unfold with_rewriter. destruct (w_cond_rules w); [apply conditional_short|apply rewriter_short]. }
  intros r1 _. apply asked_one; [discriminate|apply short_one, sudn_short|]. intros r2 _. cbn. lia.
Qed.
End Count.
Print Assumptions C173_bounded_partial.

(** A query with two questions, as it can be sent over HTTPS. *)
Definition am_req (names : list str) : request :=
  set_req_msg (set_question (map (fun n => {| q_name := n; q_type := 1; q_class := 1 |}) names) (req_msg (cx_req $"example.com." 1))) (cx_req $"example.com." 1).

Example C173_case : let w := cn_world [$"desktop"] in
  (forall q, hd_error (m_question (req_msg (am_req [$"example.com."]))) = Some q -> no_cname_to_follow (w_custom w) q) /\
  asked_upstream (query_calls w (am_req [$"example.com."])) = 1.
Proof.
  intros w. split; [|vm_compute; reflexivity]. intros q [= <-]. right. intros recs e t Hd. exfalso.
  apply (lookup_decides_iff cn_custom _ _ cn_distinct) in Hd. vm_compute in Hd. discriminate Hd.
Qed.

(** ** C173, the full statement (a query is asked upstream at most once) is false: a query with two questions is sent twice, each time with both. *)
Theorem C173_once_refuted : exists (w : world nat) req a b,
  (forall q, hd_error (m_question (req_msg req)) = Some q -> no_cname_to_follow (w_custom w) q) /\
  filter at_upstreams (query_calls w req) = [a; b] /\ a = b /\ m_question (req_msg (snd a)) = m_question (req_msg req).
Proof.
  exists (cn_world [$"desktop"]), (am_req [$"example.com."; $"example.org."]). do 2 eexists. split.
  - intros q [= <-]. right. intros recs e t Hd. exfalso.
    apply (lookup_decides_iff cn_custom _ _ cn_distinct) in Hd. vm_compute in Hd. discriminate Hd.
  - split; [vm_compute; reflexivity|]. split; reflexivity.
Qed.
Print Assumptions C173_once_refuted.
