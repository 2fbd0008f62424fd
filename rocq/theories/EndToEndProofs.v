(** Running through the resolver chain: lemmas for EndToEndProps.v. *)
From Coq Require Import String Ascii List Arith Bool NArith ZArith Lia Permutation.
From Verif Require Import Str StrFacts StringCacheSpec Dns Resolver ResolverFacts CachingSpec CachingProofs ExpCache Caching
  Blocking BlockingSpec BlockingProofs BlockingProps Custom CustomSpec CustomProofs CustomProps Conditional ConditionalSpec ConditionalProps
  Rewriter RewriterSpec RewriterProps Sudn SudnSpec SudnProps Ecs ClientNames QueryLog Hosts HostsSpec HostsProofs HostsProps
  Chain ChainSpec ChainProofs ChainProps RedisSpec Utf8Facts SafeSpec SafeProps Metrics MetricsProps Server ServerSpec ServerProps
  EndToEnd EndToEndSpec.
Import ListNotations.

Section Front.
Context {U : Type}.
Variable w : world U.

(** The rest of the chain after the metrics. *)
Definition rest : list (stage * (request -> prog)) := skipn 7 (query_resolvers w).

(** The response with its explanation. *)
Definition explained (r : result) : result :=
  match r with Ok x => if w_ede w then Ok (add_extra_reasoning x) else r | Err _ => r end.

Lemma ede_exec rq next r : next rq = Some r -> exec (ede_resolve (w_ede w) rq) next = Some (explained r).
Proof.
  intros H. unfold ede_resolve, explained. destruct (w_ede w); cbn [negb]; [|rewrite exec_pass, H; now destruct r].
  cbn [exec]. rewrite H. now destruct r.
Qed.

Lemma front req q n arr r0 : 
  (forall rq r, exists T privacy cfg inst instant start ms, w_entry w rq r = create_log_entry T privacy cfg inst instant start ms rq r) ->
  m_question (req_msg req) = [q] -> plain_name (q_name q) n -> let_through w q n -> prepared w req arr -> labels_ok w arr ->
  chain (map snd rest) (w_upstream w) arr = Some r0 -> full r0 ->
  m_question (req_msg arr) = [q] /\ query_chain w req = Some (explained r0) /\
  exists e, query_calls w req = [(SFiltering, req); (SFqdnOnly, req); (SEcs, req); (SClientNames, e); (SEde, arr); (SQueryLogging, arr); (SMetrics, arr)]
    ++ calls rest (w_upstream w) arr.
Proof.
  intros Hl Hq Hn [Hf1 Hf2] [e [He Ha]] Hlab Hr Hfull.
  assert (ecs_resolve (w_ecs w) req = pass e /\ m_question (req_msg e) = [q]) as [Ee Hqe].
  { destruct (ChainProofs.ecs_shape (w_ecs w) req) as [E|[rq [E [Hrq _]]]].
    - specialize (He (fun _ => None)). rewrite E in He. discriminate.
    - specialize (He (fun _ => None)). rewrite E in He. injection He as ->. split; [exact E|congruence]. }
  assert (filtering_resolve (w_filter w) req = pass req) as Ef.
  { unfold filtering_resolve. rewrite Hq. destruct (existsb (N.eqb (q_type q)) (w_filter w)) eqn:Ex; [|reflexivity].
    exfalso. apply existsb_exists in Ex as [x [A1 A2]]. apply N.eqb_eq in A2. subst x. exact (Hf1 A1). }
  assert (fqdn_only_resolve (w_fqdn w) req = pass req) as Efq.
  { unfold fqdn_only_resolve. destruct (w_fqdn w) eqn:Eb; [|reflexivity]. rewrite Hq. apply plain_name_iff in Hn. change (n = extract_domain q) in Hn.
    rewrite <- Hn. specialize (Hf2 eq_refl). apply contains_byte_In in Hf2. change (contains_byte dot n = true) in Hf2. now rewrite Hf2. }
  assert (names_resolve (w_names w e) e = pass arr) as En by (rewrite Ha; reflexivity).
  assert (m_question (req_msg arr) = [q]) as Hqa by (rewrite Ha; exact Hqe).
  assert (asked arr) as Has by (unfold asked; rewrite Hqa; discriminate).
  split; [exact Hqa|]. split.
  - unfold query_chain. rewrite (query_split w). cbn [map snd]. rewrite !chain_cons. rewrite Ef, exec_pass, chain_cons, Efq, exec_pass, chain_cons, Ee, exec_pass, chain_cons.
    cbn [snd]. rewrite En, exec_pass, chain_cons. apply ede_exec. rewrite chain_cons. apply logging_exec; auto. rewrite chain_cons.
    apply metrics_exec; auto.
  - exists e. unfold query_calls. rewrite (query_split w).
    rewrite (calls_once _ _ _ _ _ req) by (rewrite Ef; apply once_pass). rewrite (calls_once _ _ _ _ _ req) by (rewrite Efq; apply once_pass).
    rewrite (calls_once _ _ _ _ _ e) by (rewrite Ee; apply once_pass). rewrite (calls_once _ _ _ _ _ arr) by (rewrite En; apply once_pass).
    rewrite (calls_once _ _ _ _ _ arr) by apply once_ede. rewrite (calls_once _ _ _ _ _ arr) by apply once_logging.
    rewrite (calls_once _ _ _ _ _ arr) by apply once_metrics. reflexivity.
Qed.
End Front.

Lemma calls_next s p rs last req rq : (forall next, forwarded (p req) next = [rq]) -> calls ((s, p) :: rs) last req = (s, req) :: calls rs last rq.
Proof. intros H. cbn [calls]. rewrite H. cbn [flat_map]. now rewrite app_nil_r. Qed.

Section Stages.
Context {U : Type}.
Variable w : world U.
Variable es : list host_entry.

Definition custom_in_chain : request -> prog :=
  with_rewriter (w_custom_rules w) (rewriter_resolve (w_custom_fallback w) (w_custom_iter w) (inner_prog (custom_stage w))) (custom_stage w).

Lemma other_types_no_reverse q : q_type q <> 12%N -> not_reverse (w_custom w) q.
Proof. intros H. now left. Qed.

Lemma custom_passes arr q n next : made w es -> m_question (req_msg arr) = [q] -> plain_name (q_name q) n -> q_type q <> 12%N -> not_custom w q n ->
  exec (custom_in_chain arr) next = next arr /\ forwarded (custom_in_chain arr) next = [arr].
Proof.
  intros [_ [Ho [Hf [Hr _]]]] Hq Hn Ht [Hc Hnr].
  pose proof (fun next => C33_others_passed_on (w_custom w) (w_new_id w) Crash (w_records w) (w_fuel w) arr q [] next Ho Hf Hq
    (other_types_no_reverse q Ht) Hc) as Hp. change (custom_resolve _ _ _ _ _ arr) with (custom_stage w arr) in Hp.
  unfold custom_in_chain, with_rewriter. destruct (w_custom_rules w) as [|r0 rules] eqn:Er; [apply Hp|].
  destruct (Hr ltac:(discriminate)) as [Hd Hi].
  destruct (rewriter_shape (r0 :: rules) (w_custom_iter w) arr Hd Hi) as [rq [names [rewritten [[R1 R2] [R3 [_ [_ R5]]]]]]].
  assert (rq = arr) as ->.
  { rewrite Hq in R1. inversion R1 as [|? q' ? l Hrw Hl E1 E2]; subst. inversion Hl; subst.
    destruct Hrw as [n' [Hn' [[p [k [v [A _]]]]|[_ ->]]]].
    - exfalso. rewrite (plain_fun _ _ _ Hn' Hn) in A. exact (Hnr p k v A).
    - rewrite R2, <- E2, <- Hq, set_question_same. apply set_req_msg_same. }
  rewrite R5. unfold inner_prog. rewrite (proj1 (Hp noop)). cbn [noop no_response rs_msg].
  assert ((if rewritten then arr else set_req_msg (req_msg arr) arr) = arr) as -> by (destruct rewritten; auto using set_req_msg_same).
  split; [apply exec_pass|apply forwarded_pass].
Qed.

Lemma hosts_passes arr q n next : made w es -> m_question (req_msg arr) = [q] -> plain_name (q_name q) n -> q_type q <> 12%N -> not_hosts w es q n ->
  exec (hosts_resolve (w_hosts w) (w_table w) (w_hosts4 w) (w_hosts6 w) arr) next = next arr /\
  forwarded (hosts_resolve (w_hosts w) (w_table w) (w_hosts4 w) (w_hosts6 w) arr) next = [arr].
Proof.
  intros [_ [_ [_ [_ Ht]]]] Hq Hn Hp Hh. unfold not_hosts in Hh. destruct (hf_enabled (w_hosts w)) eqn:E.
  - destruct (C46_answer (w_hosts w) (w_table w) es (w_hosts4 w) (w_hosts6 w) arr q [] n next E (Ht eq_refl) Hq Hp Hn) as [_ H].
    destruct (H (Hh eq_refl)) as [H1 H2]. auto.
  - unfold hosts_resolve. rewrite E. cbn [negb]. split; [apply exec_pass|apply forwarded_pass].
Qed.

Lemma rest_eq : rest w = (SCustom, custom_in_chain) :: (SHosts, hosts_resolve (w_hosts w) (w_table w) (w_hosts4 w) (w_hosts6 w)) ::
  (SBlocking, blocking_resolve (w_glob w) (w_cidr w) (w_ip_string w) (w_allow w) (w_deny w) (w_blk w) (w_handler w)
                 (w_blk_iter w) (w_fqdn_ips w) (w_disabled w)) :: skipn 10 (query_resolvers w).
Proof. reflexivity. Qed.

(** Nothing before the lists has an answer: the lists are asked. *)
Lemma to_lists arr q n last : made w es -> m_question (req_msg arr) = [q] -> plain_name (q_name q) n -> q_type q <> 12%N ->
  not_custom w q n -> not_hosts w es q n ->
  chain (map snd (rest w)) last arr = exec (blocking_resolve (w_glob w) (w_cidr w) (w_ip_string w) (w_allow w) (w_deny w) (w_blk w) (w_handler w)
      (w_blk_iter w) (w_fqdn_ips w) (w_disabled w) arr) (chain (map snd (skipn 10 (query_resolvers w))) last) /\
  calls (rest w) last arr = (SCustom, arr) :: (SHosts, arr) :: calls (skipn 9 (query_resolvers w)) last arr.
Proof.
  intros Hm Hq Hn Ht Hc Hh. split.
  - rewrite rest_eq. cbn [map snd]. rewrite chain_cons. rewrite (proj1 (custom_passes arr q n _ Hm Hq Hn Ht Hc)).
    rewrite chain_cons, (proj1 (hosts_passes arr q n _ Hm Hq Hn Ht Hh)). reflexivity.
  - rewrite rest_eq. rewrite (calls_next _ _ _ _ _ arr) by (intros nx; apply (custom_passes arr q n nx Hm Hq Hn Ht Hc)).
    rewrite (calls_next _ _ _ _ _ arr) by (intros nx; apply (hosts_passes arr q n nx Hm Hq Hn Ht Hh)). reflexivity.
Qed.
End Stages.

(** ** Explanations *)
Lemma explained_own {U} (w : world U) x m : rs_msg x = Some m -> m_extra m = [] ->
  (to_extended_error_code (rs_type x) <> 0)%N ->
  exists y, explained w (Ok x) = Ok y /\ rs_type y = rs_type x /\ rs_reason y = rs_reason x /\
    rs_msg y = Some (set_extra (explanation w (to_extended_error_code (rs_type x)) (rs_reason x)) m).
Proof.
  intros Hm He Hc. unfold explained, explanation. destruct (w_ede w).
  - eexists. split; [reflexivity|]. unfold add_extra_reasoning. apply N.eqb_neq in Hc. rewrite Hc. cbn [rs_type rs_reason rs_msg]. rewrite Hm.
    split; [reflexivity|]. split; [reflexivity|]. f_equal. unfold set_edns0_option, is_edns0. rewrite He. destruct m; cbn in *. subst. reflexivity.
  - exists x. split; [reflexivity|]. split; [reflexivity|]. split; [reflexivity|]. rewrite Hm. f_equal. destruct m; cbn in *. now subst.
Qed.

(** ** The server *)
Lemma server_sends {U} (w : world U) L c req r m : serves w c -> m_question (req_msg req) <> [] ->
  query_chain w req = Some (Ok r) -> rs_msg r = Some m -> exists m', handle_req L c req = [m'] /\ sent m m'.
Proof.
  intros Hs Hq Hc Hm. unfold handle_req, server_resolve. specialize (Hs req). rewrite Hc in Hs. cbn in Hs.
  destruct (m_question (req_msg req)) as [|q qs]; [congruence|]. destruct (c req) as [rm res]. cbn [snd] in Hs. subst res. rewrite Hm.
  eexists. split; [reflexivity|]. unfold finish, sent.
  pose proof (C54_truncation_marked L (max_response_size rm (req_proto req)) (set_ra (m_rd rm) m)) as T. cbv zeta in T.
  destruct T as [T1 [T2 [T3 [T4 [[k5 T5] [[k6 T6] [T7 T8]]]]]]]. cbn [set_ra m_id m_response m_rcode m_question m_answer m_ns] in *.
  rewrite T1, T2, T3, T4. repeat (split; [reflexivity|]). split; [eauto|]. split; [eauto|]. exact T8.
Qed.

(** ** Requests keep their number *)
Lemma ecs_id c req rq next : forwarded (ecs_resolve c req) next = [rq] -> m_id (req_msg rq) = m_id (req_msg req).
Proof.
  assert (forall o m, m_id (set_edns0_option o m) = m_id m) as Hs by (intros; unfold set_edns0_option, update_opt; destruct (is_edns0 m); reflexivity).
  unfold ecs_resolve. cbv zeta. destruct (ecs_enabled c); [|rewrite forwarded_pass; intros [= <-]; reflexivity].
  destruct (if _ : bool then set_subnet c _ _ else _) as [r2|] eqn:E; [|discriminate].
  assert (forall so, m_id (req_msg (ecs_client c so req)) = m_id (req_msg req)) as Hc by (intros so; unfold ecs_client; destruct so as [[]|]; auto; destruct (_ && _); auto).
  assert (m_id (req_msg r2) = m_id (req_msg req)) as H2.
  { destruct (_ || _) in E; [|injection E as <-; apply Hc]. unfold set_subnet in E. cbv zeta in E.
    destruct (match get_edns0_option 8 (req_msg req) with Some _ => _ | None => _ end) as [i|]; [|injection E as <-; apply Hc].
    destruct (is_v4 i && _); [|destruct (0 <? ec_mask6 c)%N; [|injection E as <-; apply Hc]];
      destruct (mask_ip i _); try discriminate; injection E as <-; cbn [req_msg set_req_msg]; rewrite Hs; apply Hc. }
  destruct (_ && _ && _ && _); rewrite forwarded_pass; intros [= <-]; [|exact H2]. cbn [req_msg set_req_msg].
  unfold remove_edns0_option, remove_edns0_record. destruct (is_edns0 _); [|exact H2]. cbn [snd].
  destruct (remove_first _ _); [|exact H2]. destruct (is_edns0 _); exact H2.
Qed.

Lemma prepared_id {U} (w : world U) req arr : prepared w req arr -> m_id (req_msg arr) = m_id (req_msg req).
Proof. intros [e [He ->]]. cbn [req_msg set_req_names]. apply (ecs_id _ _ _ _ (He (fun _ => None))). Qed.

(** ** The resolvers after the lists *)
Lemma after_lists {U} (w : world U) arr q r : m_question (req_msg arr) = [q] -> upstream_kind w ->
  chain (map snd (skipn 10 (query_resolvers w))) (w_upstream w) arr = Some (Ok r) -> rs_type r <> BLOCKED.
Proof.
  intros Hq Hu E. assert (ok_stages (asks q) (skipn 10 (query_resolvers w))) as Hok.
  { cbn [query_resolvers skipn ok_stages stands_for option_map kind relation_of].
    exists (asks q). split; [apply wb_caching|]. exists asks_one. split.
    - apply with_rewriter_wb; intros _; [apply wb_cond_rewriter|apply wb_conditional].
    - exists asks_one. split; [apply wb_sudn|exact I]. }
  destruct (chain_calls (w_upstream w) Hu _ (asks q) arr r Hok Hq E) as [_ [pre [s [post [H1 [H2 [H3|[_ H3]]]]]]]].
  - cbn [query_resolvers skipn map fst app] in H1. intros Hr. rewrite Hr in H3.
    repeat (destruct pre as [|? pre]; [injection H1 as <- <-; discriminate H3|injection H1 as <- H1]). destruct pre; discriminate H1.
  - exfalso. cbn [query_resolvers skipn map fst app] in H1.
    repeat (destruct pre as [|? pre]; [cbn in H3; repeat (destruct H3 as [H3|H3]; [discriminate H3|]); exact H3|injection H1 as <- H1]). destruct pre; discriminate H1.
Qed.

(** ** From a response back to that of the resolvers which answer *)
Lemma wb_back q p rq rq' next x : well_behaved keeps None (asks q) (asks q) p -> asks q rq -> forwarded (p rq) next = [rq'] ->
  exec (p rq) next = Some (Ok x) -> exists x0, next rq' = Some (Ok x0) /\ rs_type x = rs_type x0 /\ rs_reason x = rs_reason x0.
Proof.
  intros Hw Ha Hf He. destruct (Hw rq Ha) as [E|[[r [E Hr]]|[rq1 [k [E [_ Hk]]]]]].
  - rewrite E in He. discriminate.
  - rewrite E in He. cbn in He. injection He as ->. specialize (Hr x eq_refl). discriminate.
  - rewrite E in He, Hf. cbn [exec forwarded] in He, Hf. destruct (next rq1) as [r1|] eqn:En; [|discriminate].
    injection Hf as -> _. destruct (Hk r1) as [Hc|[r' [Hd HR]]]; [rewrite Hc in He; discriminate|]. rewrite Hd in He. cbn [exec] in He. injection He as ->.
    destruct r1 as [x1|]; cbn in HR; [|contradiction]. exists x1. split; [exact En|exact HR].
Qed.

Lemma front_back {U} (w : world U) req q n arr r :
  m_question (req_msg req) = [q] -> plain_name (q_name q) n -> let_through w q n -> prepared w req arr ->
  query_chain w req = Some (Ok r) -> m_question (req_msg arr) = [q] /\
  exists r0, chain (map snd (rest w)) (w_upstream w) arr = Some (Ok r0) /\ rs_type r = rs_type r0 /\ rs_reason r = rs_reason r0.
Proof.
  intros Hq Hn [Hf1 Hf2] [e [He Ha]] Hr.
  assert (ecs_resolve (w_ecs w) req = pass e /\ m_question (req_msg e) = [q]) as [Ee Hqe].
  { destruct (ChainProofs.ecs_shape (w_ecs w) req) as [E|[rq [E [Hrq _]]]].
    - specialize (He (fun _ => None)). rewrite E in He. discriminate.
    - specialize (He (fun _ => None)). rewrite E in He. injection He as ->. split; [exact E|congruence]. }
  assert (filtering_resolve (w_filter w) req = pass req) as Ef.
  { unfold filtering_resolve. rewrite Hq. destruct (existsb (N.eqb (q_type q)) (w_filter w)) eqn:Ex; [|reflexivity].
    exfalso. apply existsb_exists in Ex as [x [A1 A2]]. apply N.eqb_eq in A2. subst x. exact (Hf1 A1). }
  assert (fqdn_only_resolve (w_fqdn w) req = pass req) as Efq.
  { unfold fqdn_only_resolve. destruct (w_fqdn w) eqn:Eb; [|reflexivity]. rewrite Hq. apply plain_name_iff in Hn. change (n = extract_domain q) in Hn.
    rewrite <- Hn. specialize (Hf2 eq_refl). apply contains_byte_In in Hf2. change (contains_byte dot n = true) in Hf2. now rewrite Hf2. }
  assert (names_resolve (w_names w e) e = pass arr) as En by (rewrite Ha; reflexivity).
  assert (m_question (req_msg arr) = [q]) as Hqa by (rewrite Ha; exact Hqe).
  split; [exact Hqa|].
  unfold query_chain in Hr. rewrite (query_split w) in Hr. cbn [map snd] in Hr. rewrite !chain_cons in Hr. rewrite Ef, exec_pass, chain_cons, Efq, exec_pass, chain_cons, Ee, exec_pass, chain_cons in Hr.
  cbn [snd] in Hr. rewrite En, exec_pass, chain_cons in Hr.
  apply (wb_back q _ _ arr _ _ (wb_ede _ q) Hqa) in Hr; [|unfold ede_resolve; destruct (negb _); [apply forwarded_pass|]; cbn [forwarded]; destruct (chain _ _ arr) as [[]|]; reflexivity].
  destruct Hr as [x1 [Hr [K1 K2]]]. rewrite chain_cons in Hr.
  apply (wb_back q _ _ arr _ _ (wb_logging _ q) Hqa) in Hr;
    [|unfold logging_resolve; cbn [forwarded]; destruct (chain _ _ arr) as [[]|]; auto; repeat match goal with |- context [match ?x with _ => _ end] => destruct x end; reflexivity].
  destruct Hr as [x2 [Hr [K3 K4]]]. rewrite chain_cons in Hr.
  apply (wb_back q _ _ arr _ _ (wb_metrics _ q) Hqa) in Hr;
    [|unfold metrics_resolve; cbn [forwarded]; destruct (chain _ _ arr) as [[]|]; auto; repeat match goal with |- context [match ?x with _ => _ end] => destruct x end; reflexivity].
  destruct Hr as [x3 [Hr [K5 K6]]]. exists x3. split; [exact Hr|]. split; congruence.
Qed.

Lemma front_calls {U} (w : world U) req q n arr :
  m_question (req_msg req) = [q] -> plain_name (q_name q) n -> let_through w q n -> prepared w req arr ->
  m_question (req_msg arr) = [q] /\
  exists e, query_calls w req = [(SFiltering, req); (SFqdnOnly, req); (SEcs, req); (SClientNames, e); (SEde, arr); (SQueryLogging, arr); (SMetrics, arr)]
    ++ calls (rest w) (w_upstream w) arr.
Proof.
  intros Hq Hn [Hf1 Hf2] [e [He Ha]].
  assert (ecs_resolve (w_ecs w) req = pass e /\ m_question (req_msg e) = [q]) as [Ee Hqe].
  { destruct (ChainProofs.ecs_shape (w_ecs w) req) as [E|[rq [E [Hrq _]]]].
    - specialize (He (fun _ => None)). rewrite E in He. discriminate.
    - specialize (He (fun _ => None)). rewrite E in He. injection He as ->. split; [exact E|congruence]. }
  assert (filtering_resolve (w_filter w) req = pass req) as Ef.
  { unfold filtering_resolve. rewrite Hq. destruct (existsb (N.eqb (q_type q)) (w_filter w)) eqn:Ex; [|reflexivity].
    exfalso. apply existsb_exists in Ex as [x [A1 A2]]. apply N.eqb_eq in A2. subst x. exact (Hf1 A1). }
  assert (fqdn_only_resolve (w_fqdn w) req = pass req) as Efq.
  { unfold fqdn_only_resolve. destruct (w_fqdn w) eqn:Eb; [|reflexivity]. rewrite Hq. apply plain_name_iff in Hn. change (n = extract_domain q) in Hn.
    rewrite <- Hn. specialize (Hf2 eq_refl). apply contains_byte_In in Hf2. change (contains_byte dot n = true) in Hf2. now rewrite Hf2. }
  assert (names_resolve (w_names w e) e = pass arr) as En by (rewrite Ha; reflexivity).
  split; [rewrite Ha; exact Hqe|].
  exists e. unfold query_calls. rewrite (query_split w).
  rewrite (calls_once _ _ _ _ _ req) by (rewrite Ef; apply once_pass). rewrite (calls_once _ _ _ _ _ req) by (rewrite Efq; apply once_pass).
  rewrite (calls_once _ _ _ _ _ e) by (rewrite Ee; apply once_pass). rewrite (calls_once _ _ _ _ _ arr) by (rewrite En; apply once_pass).
  rewrite (calls_once _ _ _ _ _ arr) by apply once_ede. rewrite (calls_once _ _ _ _ _ arr) by apply once_logging.
  rewrite (calls_once _ _ _ _ _ arr) by apply once_metrics. reflexivity.
Qed.
