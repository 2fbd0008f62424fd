(** Clients and upstream groups: every resolver of the chain works for the client the query came from, so its upstream group is asked (C171). *)
From Coq Require Import String Ascii List Arith Bool NArith ZArith Lia Permutation.
From Verif Require Import Str StrFacts StringCache StringCacheSpec StringCacheProofs StringCacheProps
  Parsers ParsersSpec ParsersProofs ParsersProps Target Download DownloadSpec DownloadProps Dns Resolver ResolverFacts
  CachingSpec CachingProofs CachingProps ExpCache Caching
  Blocking BlockingSpec BlockingProofs BlockingProps Custom CustomSpec CustomProofs CustomProps Conditional ConditionalSpec ConditionalProps
  Rewriter RewriterSpec RewriterProps EdnsProofs EdnsProps Sudn SudnSpec SudnProps Ecs ClientNames ClientNamesSpec ClientNamesProps
  QueryLog Hosts HostsSpec HostsProofs HostsProps
  Chain ChainSpec ChainProofs ChainProps RedisSpec Utf8Facts SafeSpec SafeProps Metrics MetricsProps Server ServerSpec ServerProps
  EndToEnd EndToEndSpec EndToEndLists EndToEndProofs EndToEndProps CnameProps.
Import ListNotations.

(** Two requests of one client: same address, same names. *)
Definition same_client (a b : request) : Prop := req_ip b = req_ip a /\ req_names b = req_names a.

(** The stages behind the one that finds the client's names. *)
Definition behind_names (s : stage) : Prop :=
  In s [SEde; SQueryLogging; SMetrics; SCustom; SHosts; SBlocking; SCaching; SConditional; SSudn; SUpstreamTree].

(** The request of the client of [e] with the names found for it. *)
Definition known_as {U} (w : world U) (e : request) : request := set_req_names (w_names w e) e.

Section Calls.
Context {U : Type}.
Variable w : world U.

Lemma calls_split s p rs last req s' rq : In (s', rq) (calls ((s, p) :: rs) last req) ->
  (s', rq) = (s, req) \/ exists rq1, In rq1 (forwarded (p req) (chain (map snd rs) last)) /\ In (s', rq) (calls rs last rq1).
Proof. cbn [calls]. intros [H|H]; [now left|]. right. apply in_flat_map in H as [x [H1 H2]]. eauto. Qed.

Lemma calls_here s p rs last req : In (s, req) (calls ((s, p) :: rs) last req).
Proof. now left. Qed.

Lemma calls_join s p rs last req x rq1 : In rq1 (forwarded (p req) (chain (map snd rs) last)) -> In x (calls rs last rq1) ->
  In x (calls ((s, p) :: rs) last req).
Proof. intros H1 H2. cbn [calls]. right. apply in_flat_map. eauto. Qed.

Lemma calls_inv (I : request -> Prop) last : forall rs,
  (forall s p, In (s, p) rs -> forall r next rq, I r -> In rq (forwarded (p r) next) -> I rq) ->
  forall req, I req -> forall s rq, In (s, rq) (calls rs last req) -> I rq.
Proof.
  induction rs as [|[s p] rs IH]; intros H req Hr s' rq Hc.
  - cbn in Hc. destruct Hc as [[= <- <-]|[]]. exact Hr.
  - apply calls_split in Hc as [E|[x [H1 H2]]]; [congruence|].
    apply (IH (fun s0 p0 Hin => H s0 p0 (or_intror Hin)) x) with (s := s'); auto. exact (H s p (or_introl eq_refl) req _ x Hr H1).
Qed.

Lemma in_pass r next rq : In rq (forwarded (pass r) next) -> rq = r.
Proof. cbn. destruct (next r); cbn; intuition congruence. Qed.

Lemma in_next r k next rq : (forall x, forwarded (k x) next = []) -> In rq (forwarded (Next r k) next) -> rq = r.
Proof. cbn. intros H. destruct (next r); [rewrite H|]; cbn; intuition congruence. Qed.

Lemma filtering_same types r next rq : In rq (forwarded (filtering_resolve types r) next) -> rq = r.
Proof. unfold filtering_resolve. destruct (m_question _); [intros []|]. destruct (existsb _ _); [intros []|apply in_pass]. Qed.

Lemma fqdn_same b r next rq : In rq (forwarded (fqdn_only_resolve b r) next) -> rq = r.
Proof. unfold fqdn_only_resolve. destruct b; [|apply in_pass]. destruct (m_question _); [intros []|]. destruct (negb _); [intros []|apply in_pass]. Qed.

Lemma ede_same b r next rq : In rq (forwarded (ede_resolve b r) next) -> rq = r.
Proof. unfold ede_resolve. destruct (negb b); [apply in_pass|]. apply in_next. intros []; reflexivity. Qed.

Lemma logging_same f r next rq : In rq (forwarded (logging_resolve f r) next) -> rq = r.
Proof. unfold logging_resolve. apply in_next. intros [x|x]; [destruct (f r x)|]; reflexivity. Qed.

Lemma metrics_same b r next rq : In rq (forwarded (metrics_resolve b r) next) -> rq = r.
Proof.
  unfold metrics_resolve. apply in_next. intros x. destruct b; [|reflexivity]. destruct (m_question _); [reflexivity|].
  destruct (utf8_string _); [|reflexivity]. destruct x as [x|x]; [destruct (rs_msg x)|]; reflexivity.
Qed.

Lemma hosts_same cfg d o4 o6 r next rq : In rq (forwarded (hosts_resolve cfg d o4 o6 r) next) -> rq = r.
Proof.
  unfold hosts_resolve. destruct (negb _); [apply in_pass|]. destruct (m_question _) as [|q l]; [intros []|].
  destruct (hosts_reverse _ _ _ _ _); [intros []|]. destruct (split_get _ _ _); [intros []|apply in_pass].
Qed.

Lemma denylist_same allow deny cfg h groups r next rq : forall qs p, handle_denylist allow deny cfg h groups r qs = Some p ->
  In rq (forwarded p next) -> rq = r.
Proof.
  induction qs as [|q qs IH]; intros p; cbn [handle_denylist]; [discriminate|]. cbv zeta.
  destruct (matches allow groups _); [|intros [= <-]; apply in_pass].
  destruct (has_allowlist_only _ _); [intros [= <-] []|]. destruct (matches deny groups _); [apply IH|intros [= <-] []].
Qed.

Lemma blocking_same r next rq :
  In rq (forwarded (blocking_resolve (w_glob w) (w_cidr w) (w_ip_string w) (w_allow w) (w_deny w) (w_blk w) (w_handler w)
                      (w_blk_iter w) (w_fqdn_ips w) (w_disabled w) r) next) -> rq = r.
Proof.
  unfold blocking_resolve. generalize (groups_to_check (w_glob w) (w_cidr w) (w_ip_string w) (w_blk_iter w 0) (w_blk_iter w) (w_fqdn_ips w) (w_disabled w) r).
  intros groups. unfold resolve_groups. cbv zeta.
  match goal with |- In rq (forwarded (match groups with [] => ?go | _ => _ end) next) -> _ => assert (In rq (forwarded go next) -> rq = r) as Hgo end.
  { apply in_next. intros [x|x]; [|reflexivity]. destruct groups as [|g groups]; [reflexivity|]. destruct (rs_msg x); [|reflexivity].
    destruct (screen _ _ _ _); [destruct (m_question (req_msg r))|]; reflexivity. }
  destruct groups as [|g groups]; [exact Hgo|]. destruct (handle_denylist _ _ _ _ _ _ _) as [p|] eqn:E; [|exact Hgo].
  exact (denylist_same _ _ _ _ _ _ next rq _ p E).
Qed.

Lemma caching_same c look r next rq : In rq (forwarded (caching_resolve c look r) next) -> rq = r.
Proof.
  unfold caching_resolve. destruct (_ || _); [apply in_pass|]. generalize 0 (@None result). generalize (m_question (req_msg r)).
  induction l as [|q l IH]; intros i resp; cbn [caching_loop]; [destruct resp; intros []|].
  destruct (look i) as [[m t]|]; [intros []|]. cbn [forwarded]. intros [<-|H]; [reflexivity|].
  destruct (next r) as [[x|e]|]; [|exact (IH _ _ H)|destruct H]. destruct (rs_msg x); [exact (IH _ _ H)|destruct H].
Qed.

Lemma sudn_same c r next rq : In rq (forwarded (sudn_resolve c r) next) -> rq = r.
Proof.
  unfold sudn_resolve. destruct (negb _); [apply in_pass|]. destruct (m_question _) as [|q l]; [intros []|].
  destruct (first_mapped _ _); [|apply in_pass]. destruct (sudn_handle _ _ _ _); [intros []|apply in_pass].
Qed.

Lemma same_refl r : same_client r r.
Proof. split; reflexivity. Qed.

Lemma rewriter_same fallback iter inner r next rq : In rq (forwarded (rewriter_resolve fallback iter inner r) next) -> same_client r rq.
Proof.
  unfold rewriter_resolve. destruct (rewrite_questions _ _ _ _) as [qs names]. cbv zeta.
  set (b := match names with [] => false | _ => true end). destruct (inner _) as [[res lft]|]; [|intros []].
  assert (same_client r (if b then r else set_req_msg lft r)) as Hs by (destruct b; split; reflexivity).
  destruct res as [x|e].
  - destruct (rs_msg x); [|intros H; apply in_pass in H as ->; exact Hs].
    destruct (_ && _); [intros H; apply in_pass in H as ->; exact Hs|]. destruct b; intros [].
  - destruct fallback; [intros H; apply in_pass in H as ->; exact Hs|intros []].
Qed.

Lemma conditional_same (mapping : list (str * U)) ask r next rq : In rq (forwarded (conditional_resolve mapping ask r) next) -> rq = r.
Proof.
  unfold conditional_resolve. destruct (cond_dest mapping r) as [d|] eqn:E; [|intros []]. destruct d.
  all: try (destruct (ask _ _) as [[x|e]|]; [destruct (cond_response _ x)| |]; intros []).
  intros H. apply in_pass in H. subst rq. revert E. unfold cond_dest. destruct (cond_table mapping); [congruence|].
  destruct (m_question _); [discriminate|]. cbv zeta. destruct (contains_byte _ _); [destruct (first_mapped _ _)|destruct (mget _ _ _)]; congruence.
Qed.

Lemma custom_same r next rq : (forall q, hd_error (m_question (req_msg r)) = Some q -> no_cname_to_follow (w_custom w) q) ->
  In rq (forwarded (custom_stage w r) next) -> rq = r.
Proof.
  intros Hn. unfold custom_stage, custom_resolve. destruct (m_question (req_msg r)) as [|q l] eqn:Eq; [intros []|].
  destruct (handle_reverse _ _ _ _); [intros []|]. destruct (w_fuel w) as [|fuel]; [intros []|]. cbn [process_request]. rewrite Eq.
  pose proof (lookup_decides (w_custom w) q) as L. cbv zeta in L. specialize (Hn q eq_refl).
  destruct (first_mapped _ _) as [recs|]; [|apply in_pass].
  assert (q_type q = 5%N \/ forall e t, In e recs -> rr_data e <> DCNAME t) as Hc.
  { destruct Hn as [Hc|Hc]; [now left|]. right. intros e t He. exact (Hc recs e t L He). }
  destruct (process_entries_plain (w_custom w) (w_new_id w) (process_request (w_custom w) (w_new_id w) Crash fuel) r q [] recs [] Hc) as [[e H]|[ans [_ H]]];
    rewrite H; [intros []|]. rewrite app_nil_l. destruct ans; [destruct (cu_filter _); [intros []|apply in_pass]|intros []].
Qed.

Lemma ecs_keeps r next rq : In rq (forwarded (ecs_resolve (w_ecs w) r) next) ->
  m_question (req_msg rq) = m_question (req_msg r) /\ (ecs_enabled (w_ecs w) = false -> rq = r).
Proof.
  destruct (ecs_shape (w_ecs w) r) as [E|[r' [E [Hq [He _]]]]]; rewrite E; [intros []|]. intros H. apply in_pass in H as ->. auto.
Qed.

(** Every stage behind the one that finds the names works for the client that was found, whatever the query, the upstreams and the caches
    say; the client is the one the query came from. *)
Theorem C171_same_client_partial : forall req s rq,
  (w_custom_rules w <> [] \/ forall q, hd_error (m_question (req_msg req)) = Some q -> no_cname_to_follow (w_custom w) q) ->
  behind_names s -> In (s, rq) (query_calls w req) ->
  exists e, In (SClientNames, e) (query_calls w req) /\ same_client (known_as w e) rq /\ (ecs_enabled (w_ecs w) = false -> e = req).
Proof.
  intros req s rq Hc Hs H. unfold query_calls, query_resolvers in H |- *.
  apply calls_split in H as [E|[x [Hx H]]]; [injection E as -> _; cbn in Hs; intuition discriminate|]. pose proof Hx as Ex. apply filtering_same in Ex. subst x.
  apply calls_split in H as [E|[x [Hy H]]]; [injection E as -> _; cbn in Hs; intuition discriminate|]. pose proof Hy as Ey. apply fqdn_same in Ey. subst x.
  apply calls_split in H as [E|[e [He H]]]; [injection E as -> _; cbn in Hs; intuition discriminate|]. pose proof (ecs_keeps _ _ _ He) as [Eq Ee].
  exists e. split; [eapply calls_join; [exact Hx|]; eapply calls_join; [exact Hy|]; eapply calls_join; [exact He|apply calls_here]|].
  split; [|exact Ee]. clear Hx Hy He Ee.
  apply calls_split in H as [E|[x [Hx H]]]; [injection E as -> _; cbn in Hs; intuition discriminate|]. unfold names_resolve in Hx. apply in_pass in Hx. subst x.
  change (set_req_names (w_names w e) e) with (known_as w e) in H.
  assert (m_question (req_msg (known_as w e)) = m_question (req_msg req)) as Hh by exact Eq.
  apply calls_split in H as [E|[x [Hx H]]]; [injection E as _ ->; apply same_refl|]. apply ede_same in Hx. subst x.
  apply calls_split in H as [E|[x [Hx H]]]; [injection E as _ ->; apply same_refl|]. apply logging_same in Hx. subst x.
  apply calls_split in H as [E|[x [Hx H]]]; [injection E as _ ->; apply same_refl|]. apply metrics_same in Hx. subst x.
  apply calls_split in H as [E|[x [Hx H]]]; [injection E as _ ->; apply same_refl|].
  assert (same_client (known_as w e) x) as Hsame.
  { unfold with_rewriter in Hx. destruct (w_custom_rules w).
    - destruct Hc as [Hc|Hc]; [now elim Hc|]. apply custom_same in Hx; [subst x; apply same_refl|].
      intros q Hq. apply Hc. now rewrite <- Hh.
    - exact (rewriter_same _ _ _ _ _ _ Hx). }
  clear Hx. revert H. apply (calls_inv (same_client (known_as w e))); [|exact Hsame].
  assert (forall a b, same_client (known_as w e) a -> b = a -> same_client (known_as w e) b) as Hk by (intros a b Ha ->; exact Ha).
  intros s0 p Hp r next r' Hr Hf. cbn [In] in Hp.
  destruct Hp as [[= <- <-]|[[= <- <-]|[[= <- <-]|[[= <- <-]|[[= <- <-]|[]]]]]].
  - exact (Hk _ _ Hr (hosts_same _ _ _ _ _ _ _ Hf)).
  - exact (Hk _ _ Hr (blocking_same _ _ _ Hf)).
  - exact (Hk _ _ Hr (caching_same _ _ _ _ _ Hf)).
  - unfold with_rewriter in Hf. destruct (w_cond_rules w).
    + exact (Hk _ _ Hr (conditional_same _ _ _ _ _ Hf)).
    + apply rewriter_same in Hf as [A B]. destruct Hr as [C D]. split; congruence.
  - exact (Hk _ _ Hr (sudn_same _ _ _ _ Hf)).
Qed.

(** The right groups are those of the client. *)
Lemma right_group_client glob cidr ip_string groups a b g : same_client a b ->
  right_group glob cidr ip_string groups b g -> right_group glob cidr ip_string groups a g.
Proof.
  intros [Hi Hn] H. inversion H as [A E|g' n before after A E B G P Eg|g' A B G P Eg|A B P Eg]; subst.
  - rewrite Hi in *. now apply rg_ip.
  - rewrite Hi in A. rewrite Hn in E. now apply (rg_name glob cidr ip_string groups a g n before after).
  - rewrite Hi in *. rewrite Hn in B. now apply rg_net.
  - rewrite Hn in B. rewrite Hi in A. apply rg_default; auto. intros g' Hg. rewrite <- Hi. auto.
Qed.

(** So an upstream group that is asked is one that is right for the client of the query, whatever was done to the question on the way. *)
Theorem C171_group_partial : forall glob cidr ip_string groups iter req rq,
  (w_custom_rules w <> [] \/ forall q, hd_error (m_question (req_msg req)) = Some q -> no_cname_to_follow (w_custom w) q) ->
  (forall i, Permutation (iter i) groups) -> In (SUpstreamTree, rq) (query_calls w req) ->
  exists e, In (SClientNames, e) (query_calls w req) /\ (ecs_enabled (w_ecs w) = false -> e = req) /\
    right_group glob cidr ip_string groups (known_as w e) (group_by_client ip_string glob cidr groups iter rq).
Proof.
  intros glob cidr ip_string groups iter req rq Hc Hp H.
  destruct (C171_same_client_partial req SUpstreamTree rq Hc) as [e [H1 [H2 H3]]]; [cbn; tauto|exact H|].
  exists e. split; [exact H1|]. split; [exact H3|]. apply (right_group_client _ _ _ _ _ rq); [exact H2|].
  now apply C48_group_partial.
Qed.

(** Without the condition on custom CNAMEs: the address of the client is kept on every way, and its names are kept or left out altogether. *)
Definition same_or_unnamed (e rq : request) : Prop := req_ip rq = req_ip e /\ (req_names rq = req_names e \/ req_names rq = []).

Lemma entries_unnamed cfg new_id proc r q e next : same_or_unnamed e r ->
  (forall cn r' rq, same_or_unnamed e r' -> In rq (forwarded (proc cn r') next) -> same_or_unnamed e rq) ->
  forall recs cn acc rq, In rq (forwarded (process_entries cfg new_id proc r q cn recs acc) next) -> same_or_unnamed e rq.
Proof.
  intros Hr Hp. induction recs as [|x recs IH]; intros cn acc rq; cbn [process_entries].
  - destruct acc; [destruct (cu_filter cfg)|]; try (intros H; now destruct H). intros H. apply in_pass in H as ->. exact Hr.
  - destruct (rr_data x) as [i|i|t|t|v|p y po t|o|o]; try apply IH; try (intros H; now destruct H). cbv zeta.
    destruct (q_type q =? type_CNAME)%N; [apply IH|]. destruct (str_in _ _); [intros H; now destruct H|].
    rewrite forwarded_bind. intros H. apply in_app_or in H as [H|H].
    + apply Hp in H; [exact H|]. split; [exact (proj1 Hr)|now right].
    + destruct (exec _ next) as [[y|y]|]; try (now destruct H). destruct (rs_msg y); [exact (IH _ _ _ H)|now destruct H].
Qed.

Lemma process_unnamed e next : forall fuel cn r rq, same_or_unnamed e r ->
  In rq (forwarded (process_request (w_custom w) (w_new_id w) Crash fuel cn r) next) -> same_or_unnamed e rq.
Proof.
  induction fuel as [|fuel IH]; intros cn r rq Hr; cbn [process_request]; [intros []|]. destruct (m_question (req_msg r)) as [|q l]; [intros []|].
  destruct (first_mapped _ _); [|intros H; apply in_pass in H as ->; exact Hr]. apply entries_unnamed; [exact Hr|]. intros cn' r' rq'. apply IH.
Qed.

Theorem C171_address_kept : forall req s rq, behind_names s -> In (s, rq) (query_calls w req) ->
  exists e, In (SClientNames, e) (query_calls w req) /\ same_or_unnamed (known_as w e) rq /\ (ecs_enabled (w_ecs w) = false -> e = req).
Proof.
  intros req s rq Hs H. unfold query_calls, query_resolvers in H |- *.
  apply calls_split in H as [E|[x [Hx H]]]; [injection E as -> _; cbn in Hs; intuition discriminate|]. pose proof Hx as Ex. apply filtering_same in Ex. subst x.
  apply calls_split in H as [E|[x [Hy H]]]; [injection E as -> _; cbn in Hs; intuition discriminate|]. pose proof Hy as Ey. apply fqdn_same in Ey. subst x.
  apply calls_split in H as [E|[e [He H]]]; [injection E as -> _; cbn in Hs; intuition discriminate|]. pose proof (ecs_keeps _ _ _ He) as [_ Ee].
  exists e. split; [eapply calls_join; [exact Hx|]; eapply calls_join; [exact Hy|]; eapply calls_join; [exact He|apply calls_here]|].
  split; [|exact Ee]. clear Hx Hy He Ee.
  apply calls_split in H as [E|[x [Hx H]]]; [injection E as -> _; cbn in Hs; intuition discriminate|]. unfold names_resolve in Hx. apply in_pass in Hx. subst x.
  revert H. apply (calls_inv (same_or_unnamed (known_as w e))); [|split; [reflexivity|now left]].
  assert (forall a b, same_or_unnamed (known_as w e) a -> same_client a b -> same_or_unnamed (known_as w e) b) as Hk
    by (intros a b [A B] [C D]; split; [congruence|rewrite D; exact B]).
  assert (forall a b, b = a -> same_client a b) as Heq by (intros a b ->; apply same_refl).
  intros s0 p Hp r next r' Hr Hf. cbn [In] in Hp.
  destruct Hp as [[= <- <-]|[[= <- <-]|[[= <- <-]|[[= <- <-]|[[= <- <-]|[[= <- <-]|[[= <- <-]|[[= <- <-]|[[= <- <-]|[]]]]]]]]]].
  - exact (Hk _ _ Hr (Heq _ _ (ede_same _ _ _ _ Hf))).
  - exact (Hk _ _ Hr (Heq _ _ (logging_same _ _ _ _ Hf))).
  - exact (Hk _ _ Hr (Heq _ _ (metrics_same _ _ _ _ Hf))).
  - unfold with_rewriter in Hf. destruct (w_custom_rules w); [|exact (Hk _ _ Hr (rewriter_same _ _ _ _ _ _ Hf))].
    revert Hf. unfold custom_stage, custom_resolve. destruct (m_question (req_msg r)) as [|q l]; [intros []|].
    destruct (handle_reverse _ _ _ _); [intros []|]. now apply process_unnamed.
  - exact (Hk _ _ Hr (Heq _ _ (hosts_same _ _ _ _ _ _ _ Hf))).
  - exact (Hk _ _ Hr (Heq _ _ (blocking_same _ _ _ Hf))).
  - exact (Hk _ _ Hr (Heq _ _ (caching_same _ _ _ _ _ Hf))).
  - unfold with_rewriter in Hf. destruct (w_cond_rules w).
    + exact (Hk _ _ Hr (Heq _ _ (conditional_same _ _ _ _ _ Hf))).
    + exact (Hk _ _ Hr (rewriter_same _ _ _ _ _ _ Hf)).
  - exact (Hk _ _ Hr (Heq _ _ (sudn_same _ _ _ _ Hf))).
Qed.

(** So for clients told apart by address or network the right group is asked in any case, also for targets of custom CNAMEs. *)
Theorem C171_by_address : forall glob cidr ip_string groups iter req rq,
  (forall e n g, In (SClientNames, e) (query_calls w req) -> In n (w_names w e) -> In g groups -> ~ pattern_for glob g n) ->
  (forall i, Permutation (iter i) groups) -> In (SUpstreamTree, rq) (query_calls w req) ->
  exists e, In (SClientNames, e) (query_calls w req) /\ (ecs_enabled (w_ecs w) = false -> e = req) /\
    right_group glob cidr ip_string groups (known_as w e) (group_by_client ip_string glob cidr groups iter rq).
Proof.
  intros glob cidr ip_string groups iter req rq Hno Hp H.
  destruct (C171_address_kept req SUpstreamTree rq) as [e [H1 [[Hi Hn] H3]]]; [cbn; tauto|exact H|].
  exists e. split; [exact H1|]. split; [exact H3|]. pose proof (C48_group_partial glob cidr ip_string groups iter rq Hp) as G.
  assert (forall n' g', In n' (req_names (known_as w e)) -> In g' groups -> ~ pattern_for glob g' n') as Hno'
    by (intros n' g' A B; exact (Hno e n' g' H1 A B)).
  inversion G as [A E|g' n before after A E B C P Eg|g' A B C P Eg|A B P Eg]; subst.
  - rewrite Hi in *. now apply rg_ip.
  - exfalso. destruct Hn as [Hn|Hn]; [|rewrite Hn in E; destruct before; discriminate E]. refine (Hno' n _ _ C P).
    rewrite <- Hn, E. apply in_or_app. right. now left.
  - rewrite Hi in *. now apply rg_net.
  - rewrite Hi in A. apply rg_default; auto. intros g' Hg. rewrite <- Hi. auto.
Qed.

End Calls.
Print Assumptions C171_address_kept.
Print Assumptions C171_by_address.
Print Assumptions C171_same_client_partial.
Print Assumptions C171_group_partial.

(** A home with an upstream group for the client "tv". *)
Definition gr_groups : list str := [$"default"; $"tv"].
Definition gr_iter (_ : nat) : list str := gr_groups.

Example C171_case : let w := cn_world [$"tv"] in let req := cx_req $"school.org." 1 in
  (forall q, hd_error (m_question (req_msg req)) = Some q -> no_cname_to_follow (w_custom w) q) /\
  existsb (fun c => match fst c with SUpstreamTree => true | _ => false end) (query_calls w req) = true /\
  map (fun c => group_by_client cn_ip_text ex_pattern ex_network gr_groups gr_iter (snd c))
    (filter (fun c => match fst c with SUpstreamTree => true | _ => false end) (query_calls w req)) = [$"tv"] /\
  exists q recs e t, decides (w_custom w) q recs /\ In e recs /\ rr_data e = DCNAME t.
Proof.
  intros w req. split; [|split; [vm_compute; reflexivity|split; [vm_compute; reflexivity|]]].
  - intros q [= <-]. right. intros recs e t Hd. exfalso.
    apply (lookup_decides_iff cn_custom _ _ cn_distinct) in Hd. vm_compute in Hd. discriminate Hd.
  - exists {| q_name := $"out.lan."; q_type := 1; q_class := 1 |}, [cn_entry $"example.com."], (cn_entry $"example.com."), $"example.com.".
    split; [exact (proj1 (proj2 (proj2 (cn_alias [$"tv"] $"out.lan." $"example.com." (or_introl eq_refl)))))|]. split; [now left|reflexivity].
Qed.

(** A home with an upstream group for a network: the target of the custom CNAME is asked for at the client's group. *)
Example C171_by_address_case : let w := cn_world [$"desktop"] in let req := cx_req $"out.lan." 1 in let groups := [$"default"; $"192.168.1.0/24"] in
  let cidr g (i : option ip) := str_eqb g $"192.168.1.0/24" in
  (forall e n g, In (SClientNames, e) (query_calls w req) -> In n (w_names w e) -> In g groups -> ~ pattern_for ex_pattern g n) /\
  map (fun c => group_by_client cn_ip_text ex_pattern cidr groups (fun _ => groups) (snd c))
    (filter (fun c => match fst c with SUpstreamTree => true | _ => false end) (query_calls w req)) = [$"192.168.1.0/24"].
Proof.
  intros w req groups cidr. split; [|vm_compute; reflexivity]. intros e n g _ [<-|[]] Hg [lg [ln [A [B C]]]]. apply lowered_iff in A, B. subst lg ln.
  cbn [In groups] in Hg. destruct Hg as [<-|[<-|[]]]; vm_compute in C; discriminate C.
Qed.

(** ** C171, the full statement is false of targets of custom CNAMEs: they are asked for without the names of the client, here at the group
    "default", though the only group right for the client is "tv". *)
Theorem C171_group_refuted : exists (w : world nat) groups iter req rq, (forall i, Permutation (iter i) groups) /\
  In (SUpstreamTree, rq) (query_calls w req) /\
  (forall e, In (SClientNames, e) (query_calls w req) -> e = req) /\
  (forall g, right_group ex_pattern ex_network cn_ip_text groups (known_as w req) g -> g = $"tv") /\
  group_by_client cn_ip_text ex_pattern ex_network groups iter rq = $"default".
Proof.
  exists (cn_world [$"tv"]), gr_groups, gr_iter, (cx_req $"out.lan." 1), (follow_up (w_new_id (cn_world [$"tv"])) (cn_arr [$"tv"] $"out.lan.") {| q_name := $"out.lan."; q_type := 1; q_class := 1 |} $"example.com").
  split; [intros i; apply Permutation_refl|].
  split; [vm_compute; tauto|]. split; [|split; [|vm_compute; reflexivity]].
  - intros e H. vm_compute in H |- *. repeat (destruct H as [H|H]; [congruence|]). destruct H.
  - intros g H. inversion H as [A E|g' n before after A E B G P Eg|g' A B G P Eg|A B P Eg]; subst.
    + exfalso. destruct A as [A|[A|[]]]; vm_compute in A; discriminate A.
    + cbn in G. destruct G as [<-|[<-|[]]]; [|reflexivity]. exfalso.
      destruct P as [lg [ln [Pg [Pn P]]]]. apply lowered_iff in Pg, Pn.
      destruct before as [|b before]; [|destruct before; discriminate E]. injection E as <- <-. subst lg ln. vm_compute in P. discriminate P.
    + cbn in G. exfalso. apply (B $"tv" $"tv"); [now left|right; now left|]. exists $"tv", $"tv". split; [apply lowered_iff; reflexivity|]. split; [apply lowered_iff; reflexivity|reflexivity].
    + exfalso. apply (B $"tv" $"tv"); [now left|right; now left|]. exists $"tv", $"tv". split; [apply lowered_iff; reflexivity|]. split; [apply lowered_iff; reflexivity|reflexivity].
Qed.
Print Assumptions C171_group_refuted.

(** ** ... and the cache is shared by all clients: it is looked up by type and name only. The client "tv" gets what the upstream group
    "default" answered to another client, and its own group is not asked. *)
Theorem C171_shared_cache_refuted : exists cacheable cfg groups iter a b m s1 out s2 x,
  (forall i, Permutation (iter i) groups) /\
  group_by_client cn_ip_text ex_pattern ex_network groups iter a = $"default" /\
  group_by_client cn_ip_text ex_pattern ex_network groups iter b = $"tv" /\
  run cacheable cfg init [EStart 1 a 1000000; ENext 1 (Ok {| rs_msg := Some m; rs_reason := $"RESOLVED"; rs_type := RESOLVED |}); EStore 1 1000500]%Z = Some s1 /\
  step cacheable cfg s1 (EStart 2 b 1060700%Z) = Some (s2, out) /\ out = [Reply 2 (Ok x)] /\
  exists mx, rs_msg x = Some mx /\ map rr_data (m_answer mx) = map rr_data (m_answer m) /\ m_answer m <> [].
Proof.
  pose (a := set_req_names [$"desktop"] (CachingProps.ex_req 7 [ex_q $"www.example.com."])).
  pose (b := set_req_names [$"tv"] (CachingProps.ex_req 9 [ex_q $"www.example.com."])).
  pose (m := ex_msg 0 [ex_rr $"www.example.com." 300]).
  exists ex_all, CachingProps.ex_cfg, gr_groups, gr_iter, a, b, m. do 4 eexists.
  split; [intros i; apply Permutation_refl|]. split; [vm_compute; reflexivity|]. split; [vm_compute; reflexivity|].
  split; [vm_compute; reflexivity|]. split; [vm_compute; reflexivity|]. split; [reflexivity|].
  eexists. split; [reflexivity|]. split; [vm_compute; reflexivity|discriminate].
Qed.
Print Assumptions C171_shared_cache_refuted.
