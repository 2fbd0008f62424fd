(** Further properties of the whole: cached answers, special-use names, refused queries and explanations, seen at the server
    (C161-C164). *)
From Coq Require Import String Ascii List Arith Bool NArith ZArith Lia Permutation.
From Verif Require Import Str StrFacts StringCache StringCacheSpec StringCacheProofs StringCacheProps
  Parsers ParsersSpec ParsersProofs ParsersProps Target Download DownloadSpec DownloadProps Dns Resolver ResolverFacts
  CachingSpec CachingProofs ExpCache Caching
  Blocking BlockingSpec BlockingProofs BlockingProps Custom CustomSpec CustomProofs CustomProps Conditional ConditionalSpec ConditionalProps
  Rewriter RewriterSpec RewriterProps EdnsProofs EdnsProps Sudn SudnSpec SudnProps Ecs ClientNames QueryLog Hosts HostsSpec HostsProofs HostsProps
  Chain ChainSpec ChainProofs ChainProps RedisSpec Utf8Facts SafeSpec SafeProps Metrics MetricsProps Server ServerSpec ServerProps
  EndToEnd EndToEndSpec EndToEndLists EndToEndProofs EndToEndProps.
Import ListNotations.

Lemma set_answer_same m : set_answer (m_answer m) m = m.
Proof. now destruct m. Qed.

Section Lists.
Variable compile : str -> option (str -> bool).
Variable parse_ip to_ascii : str -> option str.
Variable compiles : str -> bool.
Variable file : str -> option (list str * scan_end).
Context {U : Type}.
Variable w : world U.
Variable es : list host_entry.
Variable net_a net_d : str -> nat -> answer.
Variable attempts_a attempts_d : N.

Notation wants_allow' := (wants_allow compile parse_ip to_ascii compiles file w net_a attempts_a).
Notation wants_deny' := (wants_deny compile parse_ip to_ascii compiles file w net_d attempts_d).
Notation loaded := (lists_loaded compile parse_ip to_ascii compiles file w net_a net_d attempts_a attempts_d).

(** The lists let the query for [n], and the answer [ans] to it, through. *)
Definition let_pass (arr : request) (n : str) (ans : list rr) : Prop :=
  (exists g, in_force w arr g /\ wants_allow' g n) \/
  (~ only_allowed w arr /\ (forall g, in_force w arr g -> ~ wants_deny' g n) /\
   clean compile parse_ip to_ascii compiles file w net_a net_d attempts_a attempts_d arr ans).

(** A response of the resolvers after the lists, with a message that is let through, is the response of all resolvers that answer. *)
Lemma passes_lists req q n arr y mm m : made w es -> loaded -> arrives w req q n arr -> not_custom w q n -> not_hosts w es q n ->
  rs_msg y = Some mm ->
  m_answer mm = m_answer m \/ (caching_enabled (w_caching w) = true /\ is_request_cacheable arr = true /\ m_answer mm = fst (adjust_ttls (w_caching w) (m_answer m))) ->
  chain (map snd (skipn 10 (query_resolvers w))) (w_upstream w) arr = Some (Ok y) -> let_pass arr n (m_answer m) ->
  chain (map snd (rest w)) (w_upstream w) arr = Some (Ok y) /\
  exists e, query_calls w req = [(SFiltering, req); (SFqdnOnly, req); (SEcs, req); (SClientNames, e); (SEde, arr); (SQueryLogging, arr); (SMetrics, arr);
    (SCustom, arr); (SHosts, arr); (SBlocking, arr)] ++ calls (skipn 10 (query_resolvers w)) (w_upstream w) arr.
Proof.
  intros Hm Hl Har Hnc Hnh Hy Ha Hc Hlist. pose proof Har as [Hq [Hn [Ht [Hlt [Hp Hlab]]]]].
  destruct (front_calls w req q n arr Hq Hn Hlt Hp) as [Hqa [e F2]].
  pose proof (loaded_setting _ _ _ _ _ _ _ _ _ _ Hl) as Hset.
  destruct (to_lists w es arr q n (w_upstream w) Hm Hqa Hn Ht Hnc Hnh) as [T1 T2].
  assert (~ blocked_name (w_glob w) (w_cidr w) (w_ip_string w) (w_blk w) (w_fqdn_ips w) (w_disabled w) wants_allow' wants_deny' arr n) as Hb.
  { intros [B1 B2]. destruct Hlist as [[g [C1 C2]]|[C1 [C2 _]]]; [apply B1; exists g; now split|]. destruct B2 as [B2|[g [B2 B3]]]; [exact (C1 B2)|exact (C2 g B2 B3)]. }
  assert (y = {| rs_msg := Some (set_answer (m_answer mm) mm); rs_reason := rs_reason y; rs_type := rs_type y |}) as Ey.
  { rewrite set_answer_same, <- Hy. now destruct y. }
  rewrite Ey in Hc |- *. split.
  - rewrite T1. exact (not_listed_exec _ _ _ _ _ w _ _ _ _ arr q n (m_answer mm) mm m _ _ Hset Hqa Hn Hb Ha Hc Hlist).
  - exists e. rewrite F2, T2.
    assert (calls (skipn 9 (query_resolvers w)) (w_upstream w) arr = (SBlocking, arr) :: calls (skipn 10 (query_resolvers w)) (w_upstream w) arr) as ->.
    { cbn [query_resolvers skipn]. apply calls_next. intros next. exact (not_listed_forwards _ _ _ _ _ w _ _ _ _ arr q n next Hset Hqa Hn Hb). }
    reflexivity.
Qed.

(** ** C161: what the cache holds for the question is what the client gets, as reply to its own query, without asking any upstream: the code
    and the records that were stored, their TTLs lowered together so that the smallest is the time which remains. *)
Theorem C161_cached_served : forall L c req q n arr m ttl, serves w c -> made w es -> loaded -> arrives w req q n arr ->
  not_custom w q n -> not_hosts w es q n ->
  caching_enabled (w_caching w) = true -> is_request_cacheable arr = true -> w_look w arr 0 = Some (m, ttl) -> let_pass arr n (m_answer m) ->
  only_up_to CacheData (consulted (query_calls w req)) /\
  exists mm m', handle_req L c req = [m'] /\ sent mm m' /\
    m_id mm = m_id (req_msg req) /\ m_response mm = true /\ m_question mm = [q] /\ m_rcode mm = m_rcode m /\ m_ns mm = m_ns m /\
    Forall2 same_record (m_answer m) (m_answer mm) /\
    (forall k, (0 <= ttl < 2147483648 * 1000000000)%Z -> sane_ttls (m_answer m) -> CachingSpec.smallest_ttl (m_answer m) k ->
       Forall2 (fun r r' => rr_ttl r' = (rr_ttl r - k + Z.to_N (ttl / 1000000000))%N) (m_answer m) (m_answer mm)).
Proof.
  intros L c req q n arr m ttl Hs Hm Hl Har Hnc Hnh Hce Hca Hlook Hlist. pose proof Har as [Hq [Hn [Ht [Hlt [Hp Hlab]]]]].
  destruct (front_calls w req q n arr Hq Hn Hlt Hp) as [Hqa _].
  set (mm0 := set_ttl_in_cached (set_rcode m (req_msg arr) (m_rcode m)) ttl).
  assert (forall next, exec (caching_resolve (w_caching w) (w_look w arr) arr) next = Some (Ok (cached_reply arr m ttl)) /\
    forwarded (caching_resolve (w_caching w) (w_look w arr) arr) next = []) as Hcr.
  { intros next. unfold caching_resolve. rewrite Hce, Hca. cbn [negb orb]. rewrite Hqa. cbn [caching_loop]. rewrite Hlook. now split. }
  assert (chain (map snd (skipn 10 (query_resolvers w))) (w_upstream w) arr = Some (Ok (cached_reply arr m ttl))) as Hc.
  { cbn [query_resolvers skipn map snd]. rewrite chain_cons. apply Hcr. }
  assert (let_pass arr n (m_answer mm0)) as Hlist'.
  { destruct Hlist as [H|[H1 [H2 H3]]]; [now left|right]. split; [exact H1|]. split; [exact H2|].
    intros r k x g Hin Hrf. unfold mm0, set_ttl_in_cached in Hin. cbn [m_answer set_answer set_rcode set_rcode_field set_reply] in Hin.
    apply in_map_iff in Hin as [r0 [<- Hr0]]. apply (H3 r0 k x g Hr0).
    inversion Hrf; subst; [eapply refers_a|eapply refers_aaaa|eapply refers_cname]; eassumption. }
  destruct (passes_lists req q n arr (cached_reply arr m ttl) mm0 mm0 Hm Hl Har Hnc Hnh eq_refl (or_introl eq_refl) Hc Hlist') as [Hr [e Hcalls]].
  split.
  - rewrite Hcalls. cbn [query_resolvers skipn calls]. rewrite (proj2 (Hcr _)). cbn [flat_map]. apply only_up_to_intro. reflexivity.
  - destruct (front w req q n arr (Ok (cached_reply arr m ttl)) (proj1 Hm) Hq Hn Hlt Hp Hlab Hr) as [_ [F1 _]]; [intros z [= <-]; discriminate|].
    assert (exists z mm, explained w (Ok (cached_reply arr m ttl)) = Ok z /\ rs_msg z = Some mm /\ exists ex, mm = set_extra ex mm0) as [z [mm [He [Hz1 [ex Hz2]]]]].
    { unfold explained. destruct (w_ede w).
      - do 2 eexists. split; [reflexivity|]. split; [reflexivity|]. unfold set_edns0_option, update_opt. destruct (is_edns0 _); eexists; reflexivity.
      - exists (cached_reply arr m ttl), mm0. split; [reflexivity|]. split; [reflexivity|]. exists (m_extra mm0). now destruct mm0. }
    rewrite He in F1. destruct (server_sends w L c req z mm Hs ltac:(rewrite Hq; discriminate) F1 Hz1) as [m' [S1 S2]].
    exists mm, m'. split; [exact S1|]. split; [exact S2|]. rewrite Hz2.
    split; [exact (prepared_id w req arr Hp)|]. split; [reflexivity|]. split; [cbn; now rewrite Hqa|]. split; [reflexivity|]. split; [reflexivity|]. split.
    + exact (set_ttl_in_cached_same (set_rcode m (req_msg arr) (m_rcode m)) ttl).
    + intros k H1 H2 H3. pose proof (set_ttl_in_cached_spec (set_rcode m (req_msg arr) (m_rcode m)) ttl k H1 H2 H3) as G.
      change (m_answer (set_extra ex mm0)) with (m_answer (set_ttl_in_cached (set_rcode m (req_msg arr) (m_rcode m)) ttl)).
      change (m_answer (set_rcode m (req_msg arr) (m_rcode m))) with (m_answer m) in G.
      revert G. generalize (m_answer (set_ttl_in_cached (set_rcode m (req_msg arr) (m_rcode m)) ttl)). intros l G.
      clear -G. induction G as [|x y l1 l2 [_ Hxy] G IH]; constructor; auto.
Qed.

(** ** C162: a query for a special-use name (in lower case) with nothing else configured or known for it is answered by the program itself as
    the RFCs demand, with the explanation, and no upstream is asked. *)
Theorem C162_special_use_answered : forall L c req q n arr m, serves w c -> made w es -> loaded -> arrives w req q n arr ->
  not_custom w q n -> not_hosts w es q n -> sane_cfg (w_caching w) ->
  (caching_enabled (w_caching w) = true -> is_request_cacheable arr = true -> w_look w arr 0 = None) ->
  w_cond_rules w = [] -> distinct_zones (w_mapping w) -> (forall u, ~ responsible (w_mapping w) n u) ->
  su_enable (w_sudn w) = true -> lowered (q_name q) (q_name q) -> local_answer (su_appendix_g (w_sudn w)) arr q m ->
  let_pass arr n (m_answer m) ->
  only_up_to SpecialNames (consulted (query_calls w req)) /\
  exists a mm m', handle_req L c req = [m'] /\ sent mm m' /\
    own_answer w req q 17 $"Special-Use Domain Name" (m_rcode m) a mm /\
    (a = m_answer m \/ (caching_enabled (w_caching w) = true /\ is_request_cacheable arr = true /\ clamped_answer (w_caching w) (m_answer m) a)).
Proof.
  intros L c req q n arr m Hs Hm Hl Har Hnc Hnh Hsane Hca Hcr Hz Hre Hsu Hlow Hloc Hlist. pose proof Har as [Hq [Hn [Ht [Hlt [Hp Hlab]]]]].
  destruct (front_calls w req q n arr Hq Hn Hlt Hp) as [Hqa _].
  assert (exists rc ans, m = own_reply arr q rc ans) as [rc [ans Em]].
  { destruct Hloc as [[_ H]|[[_ [_ H]]|[[_ [_ H]]|[_ [[_ [a [_ H]]]|[[_ [a [_ H]]]|[_ [_ H]]]]]]]]; rewrite H; eauto. }
  set (r0 := {| rs_msg := Some m; rs_reason := $"Special-Use Domain Name"; rs_type := SPECIAL |}).
  assert (forall m1 m2, local_answer (su_appendix_g (w_sudn w)) arr q m1 -> local_answer (su_appendix_g (w_sudn w)) arr q m2 -> m1 = m2) as Hfun.
  { intros m1 m2 H1 H2. assert (forall t t', special q t -> special q t' -> t = t') as Hu by (intros t t' A B; eapply special_unique; eauto).
    unfold local_answer in H1, H2. cbv zeta in H1, H2.
    destruct H1 as [[A1 B1]|[[A1 [_ B1]]|[[A1 [_ B1]]|[A1 B1]]]], H2 as [[A2 B2]|[[A2 [_ B2]]|[[A2 [_ B2]]|[A2 B2]]]];
      try congruence; try (pose proof (Hu _ _ A1 A2) as Hd; discriminate Hd).
    destruct B1 as [[C1 [a1 [D1 E1]]]|[[C1 [a1 [D1 E1]]]|[C1 [C1' E1]]]], B2 as [[C2 [a2 [D2 E2]]]|[[C2 [a2 [D2 E2]]]|[C2 [C2' E2]]]]; congruence. }
  assert (forall next, exec (sudn_resolve (w_sudn w) arr) next = Some (Ok r0) /\ forwarded (sudn_resolve (w_sudn w) arr) next = []) as Hsr.
  { intros next. destruct (C40_special_use_partial (w_sudn w) arr q [] next Hsu Hqa Hlow) as [[m0 [A [B C]]]|[A _]]; [|elim (A m Hloc)].
    rewrite (Hfun m0 m A Hloc) in B. now split. }
  assert (conditional_resolve (w_mapping w) (w_ask w) arr = pass arr) as Hc.
  { unfold conditional_resolve. destruct (cond_dest_spec (w_mapping w) Hz arr q [] n Hqa Hn) as [[u [A _]]|[_ ->]]; [elim (Hre u A)|reflexivity]. }
  assert (forall next, forwarded (caching_resolve (w_caching w) (w_look w arr) arr) next = [arr]) as Hf.
  { intros next. unfold caching_resolve. destruct (caching_enabled (w_caching w)); [destruct (is_request_cacheable arr)|]; cbn [negb orb]; try apply forwarded_pass.
    specialize (Hca eq_refl eq_refl). rewrite Hqa. cbn [caching_loop]. rewrite Hca. cbn [forwarded]. destruct (next arr) as [[y|y]|]; auto. destruct (rs_msg y); reflexivity. }
  assert (exists a, (a = m_answer m \/ (caching_enabled (w_caching w) = true /\ is_request_cacheable arr = true /\ a = fst (adjust_ttls (w_caching w) (m_answer m)))) /\
    chain (map snd (skipn 10 (query_resolvers w))) (w_upstream w) arr =
      Some (Ok {| rs_msg := Some (set_answer a m); rs_reason := $"Special-Use Domain Name"; rs_type := SPECIAL |})) as [a [Ha A3]].
  { cbn [query_resolvers skipn]. rewrite Hcr. cbn [with_rewriter map snd]. rewrite chain_cons.
    assert (chain [conditional_resolve (w_mapping w) (w_ask w); sudn_resolve (w_sudn w)] (w_upstream w) arr = Some (Ok r0)) as Hrest.
    { rewrite chain_cons, Hc, exec_pass, chain_cons. apply Hsr. }
    unfold caching_resolve. destruct (caching_enabled (w_caching w)); [destruct (is_request_cacheable arr)|]; cbn [negb orb].
    - specialize (Hca eq_refl eq_refl). rewrite Hqa. cbn [caching_loop]. rewrite Hca. cbn [exec]. rewrite Hrest. cbn [r0 rs_msg exec].
      eexists. split; [right; repeat split; reflexivity|reflexivity].
    - rewrite exec_pass, Hrest. exists (m_answer m). split; [now left|]. now rewrite set_answer_same.
    - rewrite exec_pass, Hrest. exists (m_answer m). split; [now left|]. now rewrite set_answer_same. }
  destruct (passes_lists req q n arr {| rs_msg := Some (set_answer a m); rs_reason := $"Special-Use Domain Name"; rs_type := SPECIAL |} (set_answer a m) m
    Hm Hl Har Hnc Hnh eq_refl Ha A3 Hlist) as [Hr [e Hcalls]].
  split.
  - rewrite Hcalls. cbn [query_resolvers skipn]. rewrite Hcr. cbn [with_rewriter].
    rewrite (calls_next _ _ _ _ _ arr) by exact Hf. rewrite (calls_next _ _ _ _ _ arr) by (intros; rewrite Hc; apply forwarded_pass).
    cbn [calls]. rewrite (proj2 (Hsr _)). cbn [flat_map]. apply only_up_to_intro. reflexivity.
  - destruct (own_sent w es L c req q n arr _ (set_answer a m) 17 Hs Hm Har Hr eq_refl) as [mm [m' [B1 [B2 B3]]]];
      try (rewrite Em; reflexivity); try reflexivity; try discriminate.
    exists a, mm, m'. split; [exact B1|]. split; [exact B2|]. split; [exact B3|].
    destruct Ha as [->|[D1 [D2 ->]]]; [now left|right]. split; [exact D1|]. split; [exact D2|]. now apply adjust_ttls_answer.
Qed.
End Lists.
Print Assumptions C161_cached_served.
Print Assumptions C162_special_use_answered.

(** ** C163: queries which are refused at once: of a filtered type, or for a short name. *)
Section Early.
Context {U : Type}.
Variable w : world U.

Theorem C163_filtered_type : forall L c req q qs, serves w c -> m_question (req_msg req) = q :: qs -> In (q_type q) (w_filter w) ->
  query_calls w req = [(SFiltering, req)] /\
  exists m m', handle_req L c req = [m'] /\ sent m m' /\ m_id m = m_id (req_msg req) /\ m_response m = true /\ m_question m = [q] /\
    m_rcode m = 0%N /\ m_answer m = [] /\ m_ns m = [] /\ m_extra m = [].
Proof.
  intros L c req q qs Hs Hq Ht.
  pose proof (fun next => proj1 (C41_filtered (w_filter w) req q qs next Hq) Ht) as Hf.
  split.
  - unfold query_calls, query_resolvers. cbn [calls]. rewrite (proj1 (Hf _)). reflexivity.
  - destruct (server_sends w L c req {| rs_msg := Some (own_reply req q 0 []); rs_reason := []; rs_type := FILTERED |} (own_reply req q 0 []) Hs) as [m' [A B]].
    + rewrite Hq. discriminate.
    + unfold query_chain, query_resolvers. cbn [map snd]. rewrite chain_cons. apply Hf.
    + reflexivity.
    + exists (own_reply req q 0 []), m'. split; [exact A|]. split; [exact B|]. repeat split.
Qed.

(** The reply to a short name has the right code, but neither the number nor the question of the query, and is not marked as a reply: see
    also C42 and C53. *)
Theorem C163_short_name_partial : forall L c req q n, serves w c -> m_question (req_msg req) = [q] -> plain_name (q_name q) n ->
  w_fqdn w = true -> ~ In "."%char n -> ~ In (q_type q) (w_filter w) ->
  query_calls w req = [(SFiltering, req); (SFqdnOnly, req)] /\
  exists m m', handle_req L c req = [m'] /\ sent m m' /\ m_rcode m = 3%N /\ m_answer m = [] /\ m_ns m = [] /\ m_extra m = [].
Proof.
  intros L c req q n Hs Hq Hn Hw Hd Ht.
  pose proof (fun next => proj2 (C41_filtered (w_filter w) req q [] next Hq) Ht) as Hf.
  pose proof (fun next => proj1 (C42_fqdn_only_partial req q [] n next Hq Hn) Hd) as Hs'. rewrite <- Hw in Hs'.
  split.
  - unfold query_calls, query_resolvers. rewrite (calls_next _ _ _ _ _ req) by (intros; apply Hf). cbn [calls]. rewrite (proj1 (Hs' _)). reflexivity.
  - destruct (Hs' (chain (map snd (skipn 2 (query_resolvers w))) (w_upstream w))) as [_ [r [m [R1 [R2 [R3 [_ [R4 [R5 R6]]]]]]]]].
    destruct (server_sends w L c req r m Hs) as [m' [A B]]; [rewrite Hq; discriminate| |exact R2|].
    + unfold query_chain. rewrite (query_split w) in *. cbn [map snd skipn] in *. rewrite chain_cons, (proj2 (Hf _)), chain_cons. exact R1.
    + exists m, m'. split; [exact A|]. split; [exact B|]. split; [exact R3|]. split; [exact R4|]. split; [exact R5|exact R6].
Qed.

Theorem C163_short_name_refuted : exists (w : world nat) L c req q m', serves w c /\ m_question (req_msg req) = [q] /\
  handle_req L c req = [m'] /\ m_id m' <> m_id (req_msg req) /\ m_response m' = false.
Proof.
  exists (cx_world []), e2e_lengths, (fun rq => (req_msg rq, result_of (query_chain (cx_world []) rq))), (cx_req $"printer" 1). do 2 eexists.
  split; [intros rq; reflexivity|]. split; [reflexivity|]. split; [vm_compute; reflexivity|]. split; [discriminate|reflexivity].
Qed.

(** ** C164: with EDE on, a response whose kind has a code carries it, with the reason, as its only extended error, whatever the query --
    unless it was refused at once. *)
Lemma to_ede req r : query_chain w req = Some (Ok r) -> rs_type r <> FILTERED -> rs_type r <> NOTFQDN ->
  exists arr, prepared w req arr /\ exec (ede_resolve (w_ede w) arr) (chain (map snd (skipn 5 (query_resolvers w))) (w_upstream w)) = Some (Ok r).
Proof.
  intros H H1 H2. unfold query_chain in H. rewrite (query_split w) in *. cbn [map snd skipn] in *. rewrite chain_cons in H.
  unfold filtering_resolve in H at 1. destruct (m_question (req_msg req)) as [|q qs] eqn:Eq; [discriminate H|].
  destruct (existsb (N.eqb (q_type q)) (w_filter w)); [injection H as <-; elim H1; reflexivity|]. rewrite exec_pass, chain_cons in H.
  unfold fqdn_only_resolve in H at 1. rewrite Eq in H.
  assert (chain (map snd (skipn 2 (query_resolvers w))) (w_upstream w) req = Some (Ok r)) as H3.
  { rewrite (query_split w). cbn [map snd skipn]. destruct (w_fqdn w); [|now rewrite exec_pass in H].
    destruct (negb _); [injection H as <-; elim H2; reflexivity|]. now rewrite exec_pass in H. }
  clear H. rewrite (query_split w) in H3. cbn [map snd skipn] in H3. rewrite chain_cons in H3.
  destruct (ChainProofs.ecs_shape (w_ecs w) req) as [E|[e [E _]]]; rewrite E in H3; [discriminate H3|].
  rewrite exec_pass, chain_cons in H3. unfold names_resolve in H3 at 1. rewrite exec_pass, chain_cons in H3. eexists. split; [|exact H3].
  exists e. split; [|reflexivity]. intros next. rewrite E. apply forwarded_pass.
Qed.

Theorem C164_explained_partial : forall req r m c, w_ede w = true -> query_chain w req = Some (Ok r) -> rs_msg r = Some m ->
  rs_type r <> FILTERED -> rs_type r <> NOTFQDN -> ede_code (rs_type r) c ->
  exists l, options_of m (l ++ [EOEde c (rs_reason r)]) /\ forall o, In o l -> eopt_code o <> 15%N.
Proof.
  intros req r m c Hw Hr Hm H1 H2 Hc. destruct (to_ede req r Hr H1 H2) as [arr [_ H]]. rewrite Hw in H.
  unfold ede_resolve in H. cbn [negb exec] in H.
  destruct (chain (map snd (skipn 5 (query_resolvers w))) (w_upstream w) arr) as [[x|e]|]; try discriminate H. cbn [exec] in H. injection H as <-.
  unfold add_extra_reasoning in *. destruct (to_extended_error_code (rs_type x) =? 0)%N eqn:E0.
  - exfalso. apply N.eqb_eq in E0. destruct Hc; discriminate E0.
  - cbn [rs_type rs_reason rs_msg] in *. destruct (rs_msg x) as [mx|]; [|discriminate Hm]. injection Hm as <-.
    assert (to_extended_error_code (rs_type x) = c) as -> by (destruct Hc; reflexivity).
    destruct (set_option_options (EOEde c (rs_reason x)) mx) as [opts [A _]]. eexists. split; [exact A|].
    intros o Ho. apply filter_In in Ho as [_ Ho]. apply negb_true_iff, N.eqb_neq in Ho. exact Ho.
Qed.

(** Responses whose kind has no code carry no extended error that was not in the message of the upstream; with EDE off nothing is added. *)
Theorem C164_others_unchanged : forall req r, query_chain w req = Some (Ok r) ->
  (w_ede w = false \/ forall c, ~ ede_code (rs_type r) c) -> rs_type r <> FILTERED -> rs_type r <> NOTFQDN ->
  exists arr, prepared w req arr /\ chain (map snd (skipn 5 (query_resolvers w))) (w_upstream w) arr = Some (Ok r).
Proof.
  intros req r Hr Hc H1 H2. destruct (to_ede req r Hr H1 H2) as [arr [Hp H]]. exists arr. split; [exact Hp|]. destruct (w_ede w) eqn:Ew.
  - destruct Hc as [Hc|Hc]; [discriminate Hc|]. unfold ede_resolve in H. cbn [negb exec] in H.
    destruct (chain (map snd (skipn 5 (query_resolvers w))) (w_upstream w) arr) as [[x|e]|] eqn:E; try discriminate H.
    destruct (C45_extended_errors arr _ x E) as [r' [A [B [_ [C _]]]]]. unfold ede_resolve in A. cbn [negb exec] in A. rewrite E in A. rewrite H in A.
    injection A as <-. rewrite <- B in C. now rewrite (C Hc).
  - unfold ede_resolve in H. cbn [negb] in H. now rewrite exec_pass in H.
Qed.
End Early.
Print Assumptions C163_filtered_type.
Print Assumptions C163_short_name_partial.
Print Assumptions C163_short_name_refuted.
Print Assumptions C164_explained_partial.
Print Assumptions C164_others_unchanged.

(** A query of a filtered type is answered without the code for filtered queries, although there is one: the resolver which adds the codes
    comes later in the chain. *)
Theorem C164_filtered_refuted : exists (w : world nat) L c req r m', w_ede w = true /\ serves w c /\ query_chain w req = Some (Ok r) /\
  ede_code (rs_type r) 17 /\ handle_req L c req = [m'] /\ m_extra m' = [].
Proof.
  exists (cx_world []), e2e_lengths, (fun rq => (req_msg rq, result_of (query_chain (cx_world []) rq))), (cx_req $"example.com" 28). do 2 eexists.
  split; [reflexivity|]. split; [intros rq; reflexivity|]. split; [vm_compute; reflexivity|]. split; [constructor|].
  split; [vm_compute; reflexivity|]. reflexivity.
Qed.
Print Assumptions C164_filtered_refuted.

Theorem C164_short_name_refuted : exists (w : world nat) L c req r m', w_ede w = true /\ serves w c /\ query_chain w req = Some (Ok r) /\
  ede_code (rs_type r) 15 /\ handle_req L c req = [m'] /\ m_extra m' = [].
Proof.
  exists (cx_world []), e2e_lengths, (fun rq => (req_msg rq, result_of (query_chain (cx_world []) rq))), (cx_req $"printer" 1). do 2 eexists.
  split; [reflexivity|]. split; [intros rq; reflexivity|]. split; [vm_compute; reflexivity|]. split; [constructor|].
  split; [vm_compute; reflexivity|]. reflexivity.
Qed.
Print Assumptions C164_short_name_refuted.

(** ** Concrete cases, in the installation of EndToEndProps.v *)
Definition an_names : list str := [$"cached.com."; $"secret.onion."].

Lemma an_arrives n : In n an_names ->
  arrives (e2e_world e2e_up) (cx_req n 1) {| q_name := n; q_type := 1; q_class := 1 |} (trim_suffix n $".") (e2e_arr n).
Proof.
  intros Hn. split; [cbn [an_names In] in Hn; destruct Hn as [<-|[<-|[]]]; reflexivity|].
  split; [apply plain_name_iff; cbn [an_names In] in Hn; destruct Hn as [<-|[<-|[]]]; reflexivity|].
  split; [discriminate|]. split.
  - split; [cbn; intuition discriminate|]. intros _. cbn [an_names In] in Hn; destruct Hn as [<-|[<-|[]]]; cbn; tauto.
  - split.
    + exists (cx_req n 1). split; [|reflexivity]. intros next. cbn [an_names In] in Hn; destruct Hn as [<-|[<-|[]]]; cbn; destruct (next _); reflexivity.
    + intros _. constructor; [|constructor]. apply utf8_string_iff. reflexivity.
Qed.

Lemma an_plain n : In n an_names ->
  not_custom (e2e_world e2e_up) {| q_name := n; q_type := 1; q_class := 1 |} (trim_suffix n $".") /\
  not_hosts (e2e_world e2e_up) hosts_ex_entries {| q_name := n; q_type := 1; q_class := 1 |} (trim_suffix n $".").
Proof.
  intros Hn. split; [split|].
  - pose proof (lookup_decides cx_custom {| q_name := n; q_type := 1; q_class := 1 |}) as L. cbv zeta in L.
    cbn [an_names In] in Hn; destruct Hn as [<-|[<-|[]]]; vm_compute in L; exact L.
  - intros p k v [_ [k0 [v0 [[] _]]]].
  - intros _ a Ha. apply split_get_spec in Ha. cbn [an_names In] in Hn; destruct Hn as [<-|[<-|[]]]; vm_compute in Ha; discriminate.
Qed.

Lemma an_pass n ans : In n an_names -> (forall r, In r ans -> exists a, rr_data r = DA (IP4 a) /\ ~ e2e_deny e2e_up $"ads" (ex_ipstr (Some (IP4 a)))) ->
  let_pass ex_regex e2e_ip ex_to_ascii ex_compiles e2e_file (e2e_world e2e_up) e2e_net e2e_net 3 3 (e2e_arr n) (trim_suffix n $".") ans.
Proof.
  intros Hn Ha. right. split; [apply e2e_free|]. split.
  - intros g Hg Hd. apply e2e_in_force in Hg as ->. apply (e2e_deny_iff e2e_up) in Hd. cbn [an_names In] in Hn; destruct Hn as [<-|[<-|[]]]; vm_compute in Hd; exact Hd.
  - intros r k x g Hr H _ Hg Hd. apply e2e_in_force in Hg as ->. exfalso. destruct (Ha r Hr) as [a [E1 E2]].
    inversion H as [r' a' E|r' a' low E|r' t n0 E]; subst; rewrite E1 in E; try discriminate E. injection E as <-. exact (E2 Hd).
Qed.

Example C161_case : let w := e2e_world e2e_up in let n := $"cached.com." in let q := {| q_name := n; q_type := 1; q_class := 1 |} in
  arrives w (cx_req n 1) q $"cached.com" (e2e_arr n) /\ not_custom w q $"cached.com" /\ not_hosts w hosts_ex_entries q $"cached.com" /\
  caching_enabled (w_caching w) = true /\ is_request_cacheable (e2e_arr n) = true /\
  w_look w (e2e_arr n) 0 = Some (cx_cached, 5000000000%Z) /\
  let_pass ex_regex e2e_ip ex_to_ascii ex_compiles e2e_file w e2e_net e2e_net 3 3 (e2e_arr n) $"cached.com" (m_answer cx_cached) /\
  map (fun m => (m_id m, m_rcode m, map rr_ttl (m_answer m))) (handle_req e2e_lengths (e2e_chain e2e_up) (cx_req n 1)) =
    [(77%N, m_rcode cx_cached, map (fun _ => 5%N) (m_answer cx_cached))].
Proof.
  intros w n q. split; [apply (an_arrives n); now left|]. split; [apply (an_plain n); now left|]. split; [apply (an_plain n); now left|].
  split; [reflexivity|]. split; [reflexivity|]. split; [reflexivity|]. split; [|vm_compute; reflexivity].
  apply (an_pass n); [now left|]. intros r Hr. vm_compute in Hr. destruct Hr as [<-|[]]. eexists. split; [reflexivity|].
  intros Hd. apply (e2e_deny_iff e2e_up) in Hd. vm_compute in Hd. exact Hd.
Qed.

Example C162_case : let w := e2e_world e2e_up in let n := $"secret.onion." in let q := {| q_name := n; q_type := 1; q_class := 1 |} in
  arrives w (cx_req n 1) q $"secret.onion" (e2e_arr n) /\ not_custom w q $"secret.onion" /\ not_hosts w hosts_ex_entries q $"secret.onion" /\
  w_look w (e2e_arr n) 0 = None /\ w_cond_rules w = [] /\ distinct_zones (w_mapping w) /\ (forall u, ~ responsible (w_mapping w) $"secret.onion" u) /\
  su_enable (w_sudn w) = true /\ lowered n n /\ local_answer true (e2e_arr n) q (own_reply (e2e_arr n) q 3 []) /\
  let_pass ex_regex e2e_ip ex_to_ascii ex_compiles e2e_file w e2e_net e2e_net 3 3 (e2e_arr n) $"secret.onion" [] /\
  map (fun m => (m_id m, m_rcode m, m_answer m, m_extra m)) (handle_req e2e_lengths (e2e_chain e2e_up) (cx_req n 1)) =
    [(77%N, 3%N, [], [{| rr_name := $"."; rr_type := 41; rr_class := 0; rr_ttl := 0; rr_data := DOPT [EOEde 17 $"Special-Use Domain Name"] |}])].
Proof.
  intros w n q. split; [apply (an_arrives n); right; now left|]. split; [apply (an_plain n); right; now left|]. split; [apply (an_plain n); right; now left|].
  split; [reflexivity|]. split; [reflexivity|]. split; [exact cx_zones|]. split.
  { destruct (cond_dest_spec [($"fritz.box", 1)] cx_zones (e2e_arr n) q [] $"secret.onion" eq_refl) as [[u [_ E]]|[H _]];
      [apply plain_name_iff; reflexivity|vm_compute in E; discriminate E|exact H]. }
  split; [reflexivity|]. split; [now apply lowered_iff|]. split.
  { left. split; [|reflexivity]. exists $"secret.onion", $"secret.onion", $"onion". split; [reflexivity|]. split; [now apply lowered_iff|].
    split; [constructor|]. right. exists $"secret". reflexivity. }
  split; [|vm_compute; reflexivity]. apply (an_pass n); [right; now left|]. intros r [].
Qed.

Example C163_case : let w := cx_world [] in let c := fun rq => (req_msg rq, result_of (query_chain w rq)) in
  In 28%N (w_filter w) /\ w_fqdn w = true /\ ~ In 1%N (w_filter w) /\
  map (fun m => (m_id m, m_rcode m, m_answer m)) (handle_req e2e_lengths c (cx_req $"example.com" 28)) = [(77%N, 0%N, [])] /\
  map (fun m => (m_id m, m_rcode m, m_answer m)) (handle_req e2e_lengths c (cx_req $"printer" 1)) = [(0%N, 3%N, [])].
Proof.
  intros w c. split; [now left|]. split; [reflexivity|]. split; [intros [H|[]]; discriminate H|]. split; vm_compute; reflexivity.
Qed.

(** The blocked name of C134: its response has the code and the reason. *)
Example C164_case : let w := cx_world [] in w_ede w = true /\
  match query_chain w (cx_req $"ads.com" 1) with
  | Some (Ok r) => rs_type r = BLOCKED /\ ede_code BLOCKED 15 /\
      match rs_msg r with Some m => map rr_data (m_extra m) = [DOPT [EOEde 15 (rs_reason r)]] | None => False end
  | _ => False
  end.
Proof. split; [reflexivity|]. vm_compute. split; [reflexivity|]. split; [constructor|reflexivity]. Qed.
