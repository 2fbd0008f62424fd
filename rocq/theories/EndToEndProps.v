(** Properties of the whole: from the configured lists, records and files to the answers of the server (C133-C138). *)
From Coq Require Import String Ascii List Arith Bool NArith ZArith Lia Permutation.
From Verif Require Import Str StrFacts StringCache StringCacheSpec StringCacheProofs StringCacheProps
  Parsers ParsersSpec ParsersProofs ParsersProps Target Download DownloadSpec DownloadProps Dns Resolver ResolverFacts
  CachingSpec CachingProofs ExpCache Caching
  Blocking BlockingSpec BlockingProofs BlockingProps Custom CustomSpec CustomProofs CustomProps Conditional ConditionalSpec ConditionalProps
  Rewriter RewriterSpec RewriterProps Sudn SudnSpec SudnProps Ecs ClientNames QueryLog Hosts HostsSpec HostsProofs HostsProps
  Chain ChainSpec ChainProofs ChainProps RedisSpec Utf8Facts SafeSpec SafeProps Metrics MetricsProps Server ServerSpec ServerProps
  EndToEnd EndToEndSpec EndToEndLists EndToEndProofs.
Import ListNotations.

Section Lists.
Variable compile : str -> option (str -> bool).
Variable parse_ip to_ascii : str -> option str.
Variable compiles : str -> bool.
Variable file : str -> option (list str * scan_end).

(** The lookup is that of a list cache for these sources, after a refresh for which all of them could be read. *)
Definition lists_from (net : str -> nat -> answer) (attempts : N) (sources : list (str * list str)) (lookup : str -> list str -> list str) : Prop :=
  exists limit hist loads c, NoDup (map fst sources) /\ good_sources parse_ip to_ascii compiles file net attempts limit sources /\
    no_bare_slash hist /\ (forall l, In l hist -> In (fst l) (map fst sources)) /\
    refresh_loads parse_ip to_ascii compiles file net attempts limit (fun _ _ => None) sources loads /\
    run_loads compile new_list_cache (hist ++ loads) = StringCache.Ok c /\ lookup = lc_match compile c.

Lemma lists_from_ok net attempts sources lookup : lists_from net attempts sources lookup ->
  lookup_ok (on_list compile parse_ip to_ascii compiles file net attempts sources) lookup.
Proof.
  intros [limit [hist [loads [c [H1 [H2 [H3 [H4 [H5 [H6 ->]]]]]]]]]].
  destruct (C133_lists_as_written compile parse_ip to_ascii compiles file net attempts limit sources hist loads H1 H2 H3 H4 H5) as [c' [E H]].
  rewrite H6 in E. injection E as <-. exact H.
Qed.

Section World.
Context {U : Type}.
Variable w : world U.
Variable es : list host_entry.
Variable net_a net_d : str -> nat -> answer.
Variable attempts_a attempts_d : N.

(** What is on the allow and on the deny lists that are configured. *)
Definition wants_allow := on_list compile parse_ip to_ascii compiles file net_a attempts_a (bc_allow (w_blk w)).
Definition wants_deny := on_list compile parse_ip to_ascii compiles file net_d attempts_d (bc_deny (w_blk w)).

(** The lists are loaded. *)
Definition lists_loaded : Prop :=
  lists_from net_a attempts_a (bc_allow (w_blk w)) (w_allow w) /\ lists_from net_d attempts_d (bc_deny (w_blk w)) (w_deny w) /\
  forall i, Permutation (client_groups_block (bc_clients (w_blk w))) (w_blk_iter w i).

(** The group is applied to the client. *)
Definition in_force (arr : request) (g : str) : Prop :=
  BlockingSpec.applies (w_glob w) (w_cidr w) (w_ip_string w) (w_blk w) (w_fqdn_ips w) (w_disabled w) arr g.
(** The client may only ask for names on allow lists. *)
Definition only_allowed (arr : request) : Prop := exists g, in_force arr g /\ allow_only (w_blk w) g.

Lemma loaded_setting : lists_loaded -> blocking_setting (w_allow w) (w_deny w) wants_allow wants_deny (w_blk w) (w_blk_iter w).
Proof.
  intros [Ha [Hd Hi]]. split; [exact (lists_from_ok _ _ _ _ Ha)|]. split; [exact (lists_from_ok _ _ _ _ Hd)|]. split; [|exact Hi].
  destruct Ha as [? [? [? [? [Ha _]]]]]. exact Ha.
Qed.

(** ** C134: a name written on a deny list of a group of the client, and on no allow list of its groups, is blocked: the client gets
    the block answer, with the reason, and nothing later than the lists is consulted. *)
Theorem C134_written_is_blocked : forall L c req q n arr g, serves w c -> made w es -> lists_loaded -> arrives w req q n arr ->
  not_custom w q n -> not_hosts w es q n ->
  in_force arr g -> wants_deny g n -> (forall g', in_force arr g' -> ~ wants_allow g' n) ->
  only_up_to Lists (consulted (query_calls w req)) /\
  exists reason rcode ans m m', handle_req L c req = [m'] /\ sent m m' /\
    block_content (w_handler w) q rcode ans /\ own_answer w req q 15 reason rcode ans m /\
    (~ only_allowed arr -> exists l, names_groups (fun g => in_force arr g /\ wants_deny g n) l /\ reason = $"BLOCKED (" ++ l ++ $")") /\
    (only_allowed arr -> reason = $"BLOCKED (ALLOWLIST ONLY)").
Proof.
  intros L c req q n arr g Hs Hm Hl [Hq [Hn [Ht [Hlt [Hp Hlab]]]]] Hnc Hnh Hg Hgd Hga.
  pose proof (loaded_setting Hl) as Hset.
  assert (m_question (req_msg arr) = [q]) as Hqa.
  { destruct Hp as [e [He ->]]. cbn [req_msg set_req_names]. destruct (ChainProofs.ecs_shape (w_ecs w) req) as [E|[rq [E [Hrq _]]]]; specialize (He (fun _ => None)); rewrite E in He; [discriminate|].
    injection He as ->. congruence. }
  destruct (C24_blocked_iff (w_glob w) (w_cidr w) (w_ip_string w) (w_allow w) (w_deny w) wants_allow wants_deny (w_blk w) (w_handler w)
    (w_blk_iter w) (w_fqdn_ips w) (w_disabled w) arr Hset) as [H _].
  assert (blocked_name (w_glob w) (w_cidr w) (w_ip_string w) (w_blk w) (w_fqdn_ips w) (w_disabled w) wants_allow wants_deny arr n) as Hb.
  { split; [intros [g' [A B]]; exact (Hga g' A B)|]. right. exists g. split; assumption. }
  destruct (H q n) as [r [Hr [[Hrt [m [Hrm [M1 [M2 [M3 [M4 [M5 M6]]]]]]]] [R1 R2]]]]; [|exact Hb|].
  { exists [], []. split; [exact Hqa|]. split; [exact Hn|]. split; [now right|]. intros ? ? []. }
  destruct (to_lists w es arr q n (w_upstream w) Hm Hqa Hn Ht Hnc Hnh) as [T1 T2].
  assert (chain (map snd (rest w)) (w_upstream w) arr = Some (Ok r)) as Hc by (rewrite T1; unfold run_blocking in Hr; rewrite Hr; reflexivity).
  destruct (front w req q n arr (Ok r) (proj1 Hm) Hq Hn Hlt Hp Hlab Hc) as [_ [F1 [e F2]]]; [intros x [= <-]; congruence|].
  split.
  - rewrite F2, T2. apply only_up_to_intro. unfold rest. cbn [skipn query_resolvers]. cbn [calls].
    unfold run_blocking in Hr. rewrite Hr. reflexivity.
  - destruct (explained_own w r m Hrm M5) as [y [Y1 [Y2 [Y3 Y4]]]]; [rewrite Hrt; discriminate|].
    rewrite Y1 in F1. destruct (server_sends w L c req y _ Hs ltac:(rewrite Hq; discriminate) F1 Y4) as [m' [S1 S2]].
    exists (rs_reason r), (m_rcode m), (m_answer m), (set_extra (explanation w (to_extended_error_code (rs_type r)) (rs_reason r)) m), m'.
    split; [exact S1|]. split; [exact S2|]. split; [exact M6|]. split; [|split; [exact R2|exact R1]].
    unfold own_answer. rewrite Hrt. cbn [m_id m_response m_question m_rcode m_answer m_ns m_extra set_extra to_extended_error_code].
    split; [rewrite M1; eapply prepared_id; eauto|]. rewrite Hqa in M3. cbn [firstn] in M3. repeat split; assumption.
Qed.

Lemma lists_pass req q n arr : made w es -> lists_loaded -> arrives w req q n arr -> not_custom w q n -> not_hosts w es q n ->
  ~ blocked_name (w_glob w) (w_cidr w) (w_ip_string w) (w_blk w) (w_fqdn_ips w) (w_disabled w) wants_allow wants_deny arr n ->
  In (SCaching, arr) (query_calls w req).
Proof.
  intros Hm Hl [Hq [Hn [Ht [Hlt [Hp Hlab]]]]] Hnc Hnh Hb. pose proof (loaded_setting Hl) as Hset.
  destruct (front_calls w req q n arr Hq Hn Hlt Hp) as [Hqa [e ->]]. apply in_or_app. right.
  destruct (to_lists w es arr q n (w_upstream w) Hm Hqa Hn Ht Hnc Hnh) as [_ ->]. right. right.
  cbn [query_resolvers skipn]. rewrite (calls_next _ _ _ _ _ arr); [right; now left|].
  intros next. apply (C29_blocked_never_forwarded (w_glob w) (w_cidr w) (w_ip_string w) (w_allow w) (w_deny w) wants_allow wants_deny (w_blk w) (w_handler w)
    (w_blk_iter w) (w_fqdn_ips w) (w_disabled w) arr next Hset).
  intros [q' [n' [[pre [post [A [B _]]]] C]]]. rewrite Hqa in A. destruct pre as [|? [|]]; try discriminate. injection A as <- _.
  rewrite (plain_fun _ _ _ B Hn) in C. exact (Hb C).
Qed.

(** ** C134: a name on an allow list of a group of the client is not blocked, nor is its answer because of what is in it; the query goes on
    to the resolvers after the lists. *)
Theorem C134_allowed_not_blocked : forall req q n arr g, made w es -> lists_loaded -> arrives w req q n arr ->
  not_custom w q n -> not_hosts w es q n -> in_force arr g -> wants_allow g n ->
  In (SCaching, arr) (query_calls w req) /\
  (upstream_kind w -> forall r, query_chain w req = Some (Ok r) -> rs_type r <> BLOCKED).
Proof.
  intros req q n arr g Hm Hl Har Hnc Hnh Hg Ha. split.
  - apply (lists_pass req q n arr Hm Hl Har Hnc Hnh). intros [A _]. apply A. exists g. now split.
  - intros Hu r Hr. destruct Har as [Hq [Hn [Ht [Hlt [Hp Hlab]]]]]. destruct (front_back w req q n arr r Hq Hn Hlt Hp Hr) as [Hqa [r0 [H0 [-> _]]]].
    destruct (to_lists w es arr q n (w_upstream w) Hm Hqa Hn Ht Hnc Hnh) as [T1 _]. rewrite T1 in H0.
    destruct (C24_blocked_iff (w_glob w) (w_cidr w) (w_ip_string w) (w_allow w) (w_deny w) wants_allow wants_deny (w_blk w) (w_handler w)
      (w_blk_iter w) (w_fqdn_ips w) (w_disabled w) arr (loaded_setting Hl)) as [_ [H _]].
    unfold run_blocking in H. rewrite (H q n) in H0.
    + rewrite exec_pass in H0. exact (after_lists w arr q r0 Hqa Hu H0).
    + exists [], []. split; [exact Hqa|]. split; [exact Hn|]. split; [left; exists g; now split|]. intros ? ? [].
    + exists g. now split.
Qed.

(** ** C134: a name on no deny list of the groups of the client, which is not restricted to allow lists, is not blocked: the query goes on to the
    resolvers after the lists, and if there is a block answer then because of what is in the answer. *)
Theorem C134_unlisted_not_blocked : forall req q n arr, made w es -> lists_loaded -> arrives w req q n arr ->
  not_custom w q n -> not_hosts w es q n -> ~ only_allowed arr -> (forall g, in_force arr g -> ~ wants_deny g n) ->
  In (SCaching, arr) (query_calls w req) /\
  (upstream_kind w -> forall r, query_chain w req = Some (Ok r) -> rs_type r = BLOCKED -> screened r).
Proof.
  intros req q n arr Hm Hl Har Hnc Hnh Ho Hd.
  assert (~ blocked_name (w_glob w) (w_cidr w) (w_ip_string w) (w_blk w) (w_fqdn_ips w) (w_disabled w) wants_allow wants_deny arr n) as Hb.
  { intros [_ [A|[g [A B]]]]; [exact (Ho A)|exact (Hd g A B)]. }
  split; [exact (lists_pass req q n arr Hm Hl Har Hnc Hnh Hb)|].
  intros Hu r Hr Hty. destruct Har as [Hq [Hn [Ht [Hlt [Hp Hlab]]]]]. destruct (front_back w req q n arr r Hq Hn Hlt Hp Hr) as [Hqa [r0 [H0 [E1 E2]]]].
  apply (screened_keeps r0 r E1 E2). rewrite E1 in Hty.
  destruct (to_lists w es arr q n (w_upstream w) Hm Hqa Hn Ht Hnc Hnh) as [T1 _]. rewrite T1 in H0.
  destruct (wb_blocking (w_glob w) (w_cidr w) (w_ip_string w) (w_allow w) (w_deny w) (w_blk w) (w_handler w) (w_blk_iter w) (w_fqdn_ips w) (w_disabled w) q arr Hqa)
    as [E|[[r1 [E Hr1]]|[rq [k [E [_ Hk]]]]]].
  - rewrite E in H0. discriminate.
  - exfalso. rewrite E in H0. cbn in H0. injection H0 as ->.
    destruct (C24_blocked_iff (w_glob w) (w_cidr w) (w_ip_string w) (w_allow w) (w_deny w) wants_allow wants_deny (w_blk w) (w_handler w)
      (w_blk_iter w) (w_fqdn_ips w) (w_disabled w) arr (loaded_setting Hl)) as [_ [_ H]]. unfold run_blocking in H.
    destruct (H r0 E) as [q' [n' [[pre [post [A [B _]]]] C]]]. rewrite Hqa in A. destruct pre as [|? [|]]; try discriminate. injection A as <- _.
    rewrite (plain_fun _ _ _ B Hn) in C. exact (Hb C).
  - pose proof (C29_blocked_never_forwarded (w_glob w) (w_cidr w) (w_ip_string w) (w_allow w) (w_deny w) wants_allow wants_deny (w_blk w) (w_handler w)
      (w_blk_iter w) (w_fqdn_ips w) (w_disabled w) arr (fun _ => None) (loaded_setting Hl)) as [_ F]. unfold run_blocking in F. rewrite E in F, H0. cbn [exec forwarded] in F, H0.
    assert ([rq] = [arr]) as [= ->].
    { apply F. intros [q' [n' [[pre [post [A [B _]]]] C]]]. rewrite Hqa in A. destruct pre as [|? [|]]; try discriminate. injection A as <- _.
      rewrite (plain_fun _ _ _ B Hn) in C. exact (Hb C). }
    destruct (chain _ _ arr) as [r2|] eqn:E2'; [|discriminate]. destruct (Hk r2) as [Hc|[r' [Hd' HR]]]; [rewrite Hc in H0; discriminate|].
    rewrite Hd' in H0. cbn [exec] in H0. injection H0 as ->. destruct r2 as [x2|]; [|contradiction]. destruct HR as [[HR _]|HR]; [|exact HR].
    exfalso. apply (after_lists w arr q x2 Hqa Hu E2'). congruence.
Qed.

(** What is in the answer is on no deny list of the client's groups, or on an allow list of them. *)
Definition clean (arr : request) (ans : list rr) : Prop := forall r k x g, In r ans -> refers (w_ip_string w) r k x -> x <> [] ->
  in_force arr g -> wants_deny g x -> exists g', in_force arr g' /\ wants_allow g' x.

Lemma deciding_one arr q n : m_question (req_msg arr) = [q] -> plain_name (q_name q) n ->
  forall q' n', req_deciding (w_glob w) (w_cidr w) (w_ip_string w) wants_allow wants_deny (w_blk w) (w_fqdn_ips w) (w_disabled w) arr q' n' -> n' = n.
Proof.
  intros Hqa Hn q' n' [pre [post [B1 [B2 _]]]]. rewrite Hqa in B1. destruct pre as [|? [|? pre]]; try discriminate. injection B1 as <- _. eapply plain_fun; eauto.
Qed.

Lemma not_listed_forwards arr q n next : blocking_setting (w_allow w) (w_deny w) wants_allow wants_deny (w_blk w) (w_blk_iter w) ->
  m_question (req_msg arr) = [q] -> plain_name (q_name q) n ->
  ~ blocked_name (w_glob w) (w_cidr w) (w_ip_string w) (w_blk w) (w_fqdn_ips w) (w_disabled w) wants_allow wants_deny arr n ->
  forwarded (blocking_resolve (w_glob w) (w_cidr w) (w_ip_string w) (w_allow w) (w_deny w) (w_blk w) (w_handler w)
    (w_blk_iter w) (w_fqdn_ips w) (w_disabled w) arr) next = [arr].
Proof.
  intros Hset Hqa Hn Hb.
  apply (C29_blocked_never_forwarded (w_glob w) (w_cidr w) (w_ip_string w) (w_allow w) (w_deny w) wants_allow wants_deny (w_blk w) (w_handler w)
    (w_blk_iter w) (w_fqdn_ips w) (w_disabled w) arr next Hset). intros [q' [n' [D1 D2]]]. rewrite (deciding_one arr q n Hqa Hn q' n' D1) in D2. exact (Hb D2).
Qed.

Lemma not_listed_exec arr q n a mm m reason ty : blocking_setting (w_allow w) (w_deny w) wants_allow wants_deny (w_blk w) (w_blk_iter w) ->
  m_question (req_msg arr) = [q] -> plain_name (q_name q) n ->
  ~ blocked_name (w_glob w) (w_cidr w) (w_ip_string w) (w_blk w) (w_fqdn_ips w) (w_disabled w) wants_allow wants_deny arr n ->
  (a = m_answer m \/ (caching_enabled (w_caching w) = true /\ is_request_cacheable arr = true /\ a = fst (adjust_ttls (w_caching w) (m_answer m)))) ->
  chain (map snd (skipn 10 (query_resolvers w))) (w_upstream w) arr = Some (Ok {| rs_msg := Some (set_answer a mm); rs_reason := reason; rs_type := ty |}) ->
  (exists g, in_force arr g /\ wants_allow g n) \/
  (~ only_allowed arr /\ (forall g, in_force arr g -> ~ wants_deny g n) /\ clean arr (m_answer m)) ->
  exec (blocking_resolve (w_glob w) (w_cidr w) (w_ip_string w) (w_allow w) (w_deny w) (w_blk w) (w_handler w)
    (w_blk_iter w) (w_fqdn_ips w) (w_disabled w) arr) (chain (map snd (skipn 10 (query_resolvers w))) (w_upstream w)) =
  Some (Ok {| rs_msg := Some (set_answer a mm); rs_reason := reason; rs_type := ty |}).
Proof.
  intros Hset Hqa Hn Hb Ha A3 Hlist.
  destruct (run_blocking_cases (w_glob w) (w_cidr w) (w_ip_string w) (w_allow w) (w_deny w) wants_allow wants_deny (w_blk w) (w_handler w)
    (w_blk_iter w) (w_fqdn_ips w) (w_disabled w) arr Hset) as [[q' [n' [Hdq [[_ E]|[Hbl _]]]]]|[Hun _]].
  - unfold run_blocking in E. rewrite E, exec_pass. exact A3.
  - exfalso. rewrite (deciding_one arr q n Hqa Hn q' n' Hdq) in Hbl. exact (Hb Hbl).
  - destruct (C27_answers_screened (w_glob w) (w_cidr w) (w_ip_string w) (w_allow w) (w_deny w) wants_allow wants_deny (w_blk w) (w_handler w)
      (w_blk_iter w) (w_fqdn_ips w) (w_disabled w) arr q [] Hset Hqa Hun) as [k [E [_ [_ [K _]]]]].
    unfold run_blocking in E. rewrite E. cbn [exec]. rewrite A3. erewrite K; [reflexivity|reflexivity|].
    cbn [m_answer set_answer]. intros r kind nm Hin [Hrf [Hne [Hna [g [Hg1 Hg2]]]]].
    destruct Hlist as [[g' [C1 C2]]|[_ [_ Hcl]]].
    { destruct (Hun q n) as [U1 _]; [rewrite Hqa; now left|exact Hn|]. apply U1. exists g'. now split. }
    assert (exists r', In r' (m_answer m) /\ rr_data r' = rr_data r) as [r' [R1 R2]].
    { destruct Ha as [->|[_ [_ ->]]]; [eauto|]. rewrite adjust_ttls_fst in Hin. apply in_map_iff in Hin as [r' [<- R]]. exists r'. split; [exact R|reflexivity]. }
    assert (refers (w_ip_string w) r' kind nm) as Hrf'.
    { inversion Hrf; subst; [eapply refers_a|eapply refers_aaaa|eapply refers_cname]; try (rewrite R2; eassumption); assumption. }
    destruct (Hcl r' kind nm g R1 Hrf' Hne Hg1 Hg2) as [g' [G1 G2]]. apply Hna. exists g'. now split.
Qed.

(** Neither the cache nor a conditional upstream nor the special-use domain names are for the query. *)
Definition only_upstream (arr : request) (q : question) (n : str) : Prop :=
  (caching_enabled (w_caching w) = true -> is_request_cacheable arr = true -> w_look w arr 0 = None) /\
  w_cond_rules w = [] /\ distinct_zones (w_mapping w) /\ (forall u, ~ responsible (w_mapping w) n u) /\
  (su_enable (w_sudn w) = true -> lowered (q_name q) (q_name q) /\ forall m, ~ local_answer (su_appendix_g (w_sudn w)) arr q m).

Lemma after_to_upstream arr q n x m : m_question (req_msg arr) = [q] -> plain_name (q_name q) n -> only_upstream arr q n ->
  (w_upstream w arr = Some (Ok x) -> rs_msg x = Some m ->
   exists a, (a = m_answer m \/ (caching_enabled (w_caching w) = true /\ is_request_cacheable arr = true /\ a = fst (adjust_ttls (w_caching w) (m_answer m)))) /\
   chain (map snd (skipn 10 (query_resolvers w))) (w_upstream w) arr =
     Some (Ok {| rs_msg := Some (set_answer a m); rs_reason := rs_reason x; rs_type := rs_type x |})) /\
  calls (skipn 10 (query_resolvers w)) (w_upstream w) arr = [(SCaching, arr); (SConditional, arr); (SSudn, arr); (SUpstreamTree, arr)].
Proof.
  intros Hq Hn [Hca [Hcr [Hz [Hre Hsu]]]]. cbn [query_resolvers skipn]. rewrite Hcr. cbn [with_rewriter].
  assert (forall next, exec (sudn_resolve (w_sudn w) arr) next = next arr /\ forwarded (sudn_resolve (w_sudn w) arr) next = [arr]) as Hs.
  { intros next. destruct (su_enable (w_sudn w)) eqn:Ee; [|now apply C40_disabled]. destruct (Hsu eq_refl) as [Hl Hno].
    destruct (C40_special_use_partial (w_sudn w) arr q [] next Ee Hq Hl) as [[m0 [A _]]|[_ A]]; [elim (Hno m0 A)|exact A]. }
  assert (conditional_resolve (w_mapping w) (w_ask w) arr = pass arr) as Hc.
  { unfold conditional_resolve. destruct (cond_dest_spec (w_mapping w) Hz arr q [] n Hq Hn) as [[u [A _]]|[_ ->]]; [elim (Hre u A)|reflexivity]. }
  assert (chain (map snd [(SConditional, conditional_resolve (w_mapping w) (w_ask w)); (SSudn, sudn_resolve (w_sudn w))]) (w_upstream w) arr = w_upstream w arr) as Hrest.
  { cbn [map snd]. rewrite chain_cons, Hc, exec_pass, chain_cons. rewrite (proj1 (Hs _)). reflexivity. }
  split.
  - intros Hu Hm. cbn [map snd] in *. rewrite chain_cons. unfold caching_resolve.
    destruct (caching_enabled (w_caching w)); [destruct (is_request_cacheable arr)|]; cbn [negb orb].
    + specialize (Hca eq_refl eq_refl). rewrite Hq. cbn [caching_loop]. rewrite Hca. cbn [exec]. rewrite Hrest, Hu, Hm. cbn [exec].
      eexists. split; [right; repeat split; reflexivity|reflexivity].
    + rewrite exec_pass, Hrest, Hu. exists (m_answer m). split; [now left|]. destruct x as [xm xr xt], m. cbn in *. now rewrite Hm.
    + rewrite exec_pass, Hrest, Hu. exists (m_answer m). split; [now left|]. destruct x as [xm xr xt], m. cbn in *. now rewrite Hm.
  - assert (forall next, forwarded (caching_resolve (w_caching w) (w_look w arr) arr) next = [arr]) as Hf.
    { intros next. unfold caching_resolve. destruct (caching_enabled (w_caching w)); [destruct (is_request_cacheable arr)|]; cbn [negb orb]; try apply forwarded_pass.
      specialize (Hca eq_refl eq_refl). rewrite Hq. cbn [caching_loop]. rewrite Hca. cbn [forwarded]. destruct (next arr) as [[y|y]|]; auto. destruct (rs_msg y); reflexivity. }
    rewrite (calls_next _ _ _ _ _ arr) by exact Hf. rewrite (calls_next _ _ _ _ _ arr) by (intros; rewrite Hc; apply forwarded_pass).
    rewrite (calls_next _ _ _ _ _ arr) by (intros; apply Hs). reflexivity.
Qed.

(** ** C137: a query for which nothing is configured or known goes to the upstream tree, exactly once and as prepared for it; the client gets the
    message of the upstream, with nothing but the TTLs of the answer moved into the configured limits. *)
Theorem C137_rest_resolved_upstream : forall L c req q n arr x m, serves w c -> made w es -> lists_loaded -> arrives w req q n arr ->
  not_custom w q n -> not_hosts w es q n -> only_upstream arr q n -> sane_cfg (w_caching w) ->
  w_upstream w arr = Some (Ok x) -> rs_type x = RESOLVED -> rs_msg x = Some m ->
  (exists g, in_force arr g /\ wants_allow g n) \/
  (~ only_allowed arr /\ (forall g, in_force arr g -> ~ wants_deny g n) /\ clean arr (m_answer m)) ->
  filter (fun sr => match fst sr with SUpstreamTree => true | _ => false end) (query_calls w req) = [(SUpstreamTree, arr)] /\
  exists a m', handle_req L c req = [m'] /\ sent (set_answer a m) m' /\
    (a = m_answer m \/ (caching_enabled (w_caching w) = true /\ is_request_cacheable arr = true /\ clamped_answer (w_caching w) (m_answer m) a)).
Proof.
  intros L c req q n arr x m Hs Hm Hl Har Hnc Hnh Hou Hsane Hu Hty Hxm Hlist. pose proof Har as [Hq [Hn [Ht [Hlt [Hp Hlab]]]]].
  destruct (front_calls w req q n arr Hq Hn Hlt Hp) as [Hqa [e F2]]. pose proof (loaded_setting Hl) as Hset.
  destruct (after_to_upstream arr q n x m Hqa Hn Hou) as [A1 A2]. destruct (A1 Hu Hxm) as [a [Ha A3]]. clear A1.
  destruct (to_lists w es arr q n (w_upstream w) Hm Hqa Hn Ht Hnc Hnh) as [T1 T2].
  assert (~ blocked_name (w_glob w) (w_cidr w) (w_ip_string w) (w_blk w) (w_fqdn_ips w) (w_disabled w) wants_allow wants_deny arr n) as Hb.
  { intros [B1 B2]. destruct Hlist as [[g [C1 C2]]|[C1 [C2 _]]]; [apply B1; exists g; now split|]. destruct B2 as [B2|[g [B2 B3]]]; [exact (C1 B2)|exact (C2 g B2 B3)]. }
  pose proof (not_listed_exec arr q n a m m _ _ Hset Hqa Hn Hb Ha A3 Hlist) as Y1. rewrite <- T1 in Y1.
  set (y := {| rs_msg := Some (set_answer a m); rs_reason := rs_reason x; rs_type := rs_type x |}) in *.
  split.
  - rewrite F2, T2.
    assert (calls (skipn 9 (query_resolvers w)) (w_upstream w) arr = (SBlocking, arr) :: calls (skipn 10 (query_resolvers w)) (w_upstream w) arr) as ->.
    { cbn [query_resolvers skipn]. apply calls_next. intros next. now apply (not_listed_forwards arr q n). }
    rewrite A2. reflexivity.
  - destruct (front w req q n arr (Ok y) (proj1 Hm) Hq Hn Hlt Hp Hlab Y1) as [_ [F1 _]]; [intros z [= <-]; discriminate|].
    assert (explained w (Ok y) = Ok y) as He.
    { unfold explained. destruct (w_ede w); [|reflexivity]. unfold add_extra_reasoning. cbn [y rs_type]. rewrite Hty. reflexivity. }
    rewrite He in F1. destruct (server_sends w L c req y _ Hs ltac:(rewrite Hq; discriminate) F1 eq_refl) as [m' [S1 S2]].
    exists a, m'. split; [exact S1|]. split; [exact S2|]. destruct Ha as [->|[B1 [B2 ->]]]; [now left|right]. split; [exact B1|]. split; [exact B2|].
    now apply adjust_ttls_answer.
Qed.

(** ** C138: a query for a name in a zone with upstreams of its own goes to these, and the client gets their answer: the records with TTLs in
    the configured limits, the question with the name in lower case. *)
Theorem C138_zone_answered : forall L c req q n arr u x m, serves w c -> made w es -> lists_loaded -> arrives w req q n arr ->
  not_custom w q n -> not_hosts w es q n -> sane_cfg (w_caching w) ->
  (caching_enabled (w_caching w) = true -> is_request_cacheable arr = true -> w_look w arr 0 = None) ->
  w_cond_rules w = [] -> distinct_zones (w_mapping w) -> responsible (w_mapping w) n u ->
  (forall arr', normalised arr arr' n -> w_ask w u arr' = Some (Ok x)) -> rs_msg x = Some m ->
  (exists g, in_force arr g /\ wants_allow g n) \/
  (~ only_allowed arr /\ (forall g, in_force arr g -> ~ wants_deny g n) /\ clean arr (m_answer m)) ->
  only_up_to CondUpstream (consulted (query_calls w req)) /\
  exists mm m', handle_req L c req = [m'] /\ sent mm m' /\ m_id mm = m_id m /\ m_rcode mm = m_rcode m /\ m_ns mm = m_ns m /\
    match m_question m with
    | [] => m_question mm = []
    | mq :: mqs => m_question mm = {| q_name := fqdn n; q_type := q_type mq; q_class := q_class mq |} :: mqs
    end /\
    (m_answer mm = m_answer m \/
     (caching_enabled (w_caching w) = true /\ is_request_cacheable arr = true /\ clamped_answer (w_caching w) (m_answer m) (m_answer mm))).
Proof.
  intros L c req q n arr u x m Hs Hm Hl Har Hnc Hnh Hsane Hca Hcr Hz Hre Hask Hxm Hlist. pose proof Har as [Hq [Hn [Ht [Hlt [Hp Hlab]]]]].
  destruct (front_calls w req q n arr Hq Hn Hlt Hp) as [Hqa [e F2]]. pose proof (loaded_setting Hl) as Hset.
  destruct (to_lists w es arr q n (w_upstream w) Hm Hqa Hn Ht Hnc Hnh) as [T1 T2].
  destruct (C37_most_specific_zone U (w_mapping w) (w_ask w) (w_upstream w) arr q [] n Hz Hqa Hn) as [[u' [arr' [Hu' [Hnorm [Hdest [Hok _]]]]]]|[Hno _]]; [|elim (Hno u Hre)].
  rewrite (C37_responsible_unique U (w_mapping w) n u' u Hz Hu' Hre) in *.
  destruct (Hok x (Hask arr' Hnorm)) as [x' [Hx' [Hkind [m0 [mq [Hm0 [Hmq [Hset' Hqs]]]]]]]]; [congruence|].
  rewrite Hxm in Hm0. injection Hm0 as <-.
  assert (conditional_resolve (w_mapping w) (w_ask w) arr = Done (Ok x')) as Hcond.
  { unfold conditional_resolve. unfold cond_resolve in Hx'. rewrite Hdest in *. rewrite (Hask arr' Hnorm) in *.
    destruct (cond_response arr' x) as [z|]; [|discriminate]. now injection Hx' as ->. }
  assert (m_answer mq = m_answer m /\ m_id mq = m_id m /\ m_rcode mq = m_rcode m /\ m_ns mq = m_ns m) as [Qa [Qi [Qr Qn]]] by (rewrite Hset'; repeat split).
  assert (exists a, (a = m_answer m \/ (caching_enabled (w_caching w) = true /\ is_request_cacheable arr = true /\ a = fst (adjust_ttls (w_caching w) (m_answer m)))) /\
   chain (map snd (skipn 10 (query_resolvers w))) (w_upstream w) arr =
     Some (Ok {| rs_msg := Some (set_answer a mq); rs_reason := rs_reason x'; rs_type := CONDITIONAL |})) as [a [Ha A3]].
  { cbn [query_resolvers skipn]. rewrite Hcr. cbn [with_rewriter map snd]. rewrite chain_cons. unfold caching_resolve.
    assert (Some (Ok x') = Some (Ok {| rs_msg := Some (set_answer (m_answer m) mq); rs_reason := rs_reason x'; rs_type := CONDITIONAL |})) as Hx0.
    { rewrite <- Qa. destruct x' as [xm xr xt], mq. cbn in *. now rewrite Hmq, Hkind. }
    destruct (caching_enabled (w_caching w)); [destruct (is_request_cacheable arr)|]; cbn [negb orb].
    - specialize (Hca eq_refl eq_refl). rewrite Hqa. cbn [caching_loop]. rewrite Hca. cbn [exec]. rewrite chain_cons, Hcond. cbn [exec]. rewrite Hmq. cbn [exec].
      eexists. split; [right; repeat split; reflexivity|]. now rewrite Qa, Hkind.
    - rewrite exec_pass, chain_cons, Hcond. cbn [exec]. eexists. split; [now left|exact Hx0].
    - rewrite exec_pass, chain_cons, Hcond. cbn [exec]. eexists. split; [now left|exact Hx0]. }
  assert (~ blocked_name (w_glob w) (w_cidr w) (w_ip_string w) (w_blk w) (w_fqdn_ips w) (w_disabled w) wants_allow wants_deny arr n) as Hb.
  { intros [B1 B2]. destruct Hlist as [[g [C1 C2]]|[C1 [C2 _]]]; [apply B1; exists g; now split|]. destruct B2 as [B2|[g [B2 B3]]]; [exact (C1 B2)|exact (C2 g B2 B3)]. }
  pose proof (not_listed_exec arr q n a mq m _ _ Hset Hqa Hn Hb Ha A3 Hlist) as Y1. rewrite <- T1 in Y1.
  set (y := {| rs_msg := Some (set_answer a mq); rs_reason := rs_reason x'; rs_type := CONDITIONAL |}) in *.
  split.
  - rewrite F2, T2.
    assert (calls (skipn 9 (query_resolvers w)) (w_upstream w) arr = (SBlocking, arr) :: calls (skipn 10 (query_resolvers w)) (w_upstream w) arr) as ->.
    { cbn [query_resolvers skipn]. apply calls_next. intros next. now apply (not_listed_forwards arr q n). }
    cbn [query_resolvers skipn]. rewrite Hcr. cbn [with_rewriter].
    rewrite (calls_next _ _ _ _ _ arr).
    + cbn [calls]. rewrite Hcond. cbn [forwarded flat_map]. apply only_up_to_intro. reflexivity.
    + intros next. unfold caching_resolve. destruct (caching_enabled (w_caching w)); [destruct (is_request_cacheable arr)|]; cbn [negb orb]; try apply forwarded_pass.
      specialize (Hca eq_refl eq_refl). rewrite Hqa. cbn [caching_loop]. rewrite Hca. cbn [forwarded]. destruct (next arr) as [[z|z]|]; auto. destruct (rs_msg z); reflexivity.
  - destruct (front w req q n arr (Ok y) (proj1 Hm) Hq Hn Hlt Hp Hlab Y1) as [_ [F1 _]]; [intros z [= <-]; discriminate|].
    assert (exists z mm, explained w (Ok y) = Ok z /\ rs_msg z = Some mm /\ exists ex, mm = set_extra ex (set_answer a mq)) as [z [mm [He [Hz1 [ex Hz2]]]]].
    { unfold explained. destruct (w_ede w).
      - do 2 eexists. split; [reflexivity|]. split; [reflexivity|]. unfold set_edns0_option, update_opt. destruct (is_edns0 _); eexists; reflexivity.
      - exists y, (set_answer a mq). split; [reflexivity|]. split; [reflexivity|]. exists (m_extra mq). now destruct mq. }
    rewrite He in F1. destruct (server_sends w L c req z mm Hs ltac:(rewrite Hq; discriminate) F1 Hz1) as [m' [S1 S2]].
    exists mm, m'. split; [exact S1|]. split; [exact S2|]. rewrite Hz2. cbn [m_id m_rcode m_ns m_question m_answer set_extra set_answer].
    split; [exact Qi|]. split; [exact Qr|]. split; [exact Qn|]. split; [exact Hqs|].
    destruct Ha as [->|[B1 [B2 ->]]]; [now left|right]. split; [exact B1|]. split; [exact B2|]. now apply adjust_ttls_answer.
Qed.
End World.
End Lists.
Print Assumptions C137_rest_resolved_upstream.
Print Assumptions C138_zone_answered.
Print Assumptions C134_written_is_blocked.
Print Assumptions C134_allowed_not_blocked.
Print Assumptions C134_unlisted_not_blocked.

(** ** Answers from the configuration *)
Section Own.
Context {U : Type}.
Variable w : world U.
Variable es : list host_entry.

Lemma own_record_unique q t ttl d r r' : own_record q t ttl d r -> own_record q t ttl d r' -> r = r'.
Proof. destruct r, r'. intros [A1 [A2 [A3 [A4 A5]]]] [B1 [B2 [B3 [B4 B5]]]]. cbn in *. congruence. Qed.

Lemma contributes_unique q e l l' : contributes q e l -> contributes q e l' -> l = l'.
Proof.
  assert (forall i d d', asks_for q i d -> asks_for q i d' -> d = d') as Ha.
  { intros [b|b] d d' [_ ->] [_ ->]; reflexivity. }
  unfold contributes. destruct (rr_data e) as [i|i|t|t|v|p ww po t|o|o]; try tauto.
  1,2: intros [[d [r [A [B ->]]]]|[A ->]] [[d' [r' [A' [B' ->]]]]|[A' ->]]; try reflexivity;
       [rewrite <- (Ha i d d' A A') in B'; now rewrite (own_record_unique _ _ _ _ _ _ B B')|elim (A' d A)|elim (A d' A')].
  1,2: intros [[A [r [B ->]]]|[A ->]] [[A' [r' [B' ->]]]|[A' ->]]; try reflexivity; try contradiction;
       now rewrite (own_record_unique _ _ _ _ _ _ B B').
Qed.

(** Finishing an own answer. *)
Lemma own_sent L c req q n arr r m code : serves w c -> made w es -> arrives w req q n arr ->
  chain (map snd (rest w)) (w_upstream w) arr = Some (Ok r) -> rs_msg r = Some m ->
  m_id m = m_id (req_msg arr) -> m_response m = true -> m_question m = [q] -> m_ns m = [] -> m_extra m = [] ->
  to_extended_error_code (rs_type r) = code -> code <> 0%N ->
  exists mm m', handle_req L c req = [m'] /\ sent mm m' /\ own_answer w req q code (rs_reason r) (m_rcode m) (m_answer m) mm.
Proof.
  intros Hs Hm [Hq [Hn [Ht [Hlt [Hp Hlab]]]]] Hc Hrm M1 M2 M3 M4 M5 Hcode Hne.
  destruct (front w req q n arr (Ok r) (proj1 Hm) Hq Hn Hlt Hp Hlab Hc) as [_ [F1 _]]; [intros x [= <-]; congruence|].
  destruct (explained_own w r m Hrm M5) as [y [Y1 [Y2 [Y3 Y4]]]]; [congruence|].
  rewrite Y1 in F1. destruct (server_sends w L c req y _ Hs ltac:(rewrite Hq; discriminate) F1 Y4) as [m' [S1 S2]].
  exists (set_extra (explanation w (to_extended_error_code (rs_type r)) (rs_reason r)) m), m'.
  split; [exact S1|]. split; [exact S2|]. unfold own_answer. rewrite Hcode.
  cbn [m_id m_response m_question m_rcode m_answer m_ns m_extra set_extra].
  split; [rewrite M1; eapply prepared_id; eauto|]. repeat split; assumption.
Qed.

Lemma custom_replies arr q n recs ls next : made w es -> distinct_cfg (w_custom w) -> m_question (req_msg arr) = [q] -> plain_name (q_name q) n ->
  q_type q <> 12%N -> no_rule (w_custom_rules w) n -> decides (w_custom w) q recs ->
  (forall e, In e recs -> match rr_data e with DA _ | DAAAA _ | DTXT _ | DSRV _ _ _ _ => True | _ => False end) ->
  Forall2 (contributes q) recs ls ->
  concat ls <> [] \/ (cu_filter (w_custom w) = true /\ (w_custom_rules w = [] \/ w_custom_fallback w = false)) ->
  exec (custom_in_chain w arr) next = Some (Ok (custom_reply arr q (concat ls))) /\ forwarded (custom_in_chain w arr) next = [].
Proof.
  intros [_ [Ho [Hf [Hr _]]]] Hd Hq Hn Ht Hnr Hdec Hpl Hls Hne.
  assert (forall next, exec (custom_stage w arr) next = Some (Ok (custom_reply arr q (concat ls))) /\ forwarded (custom_stage w arr) next = []) as Hp.
  { intros nx. destruct (C35_right_records (w_custom w) (w_new_id w) Crash (w_records w) (w_fuel w) arr q [] nx recs Hd Ho Hf Hq (or_introl Ht) Hdec Hpl) as [ls' [H1 [H2 _]]].
    assert (ls' = ls) as ->.
    { clear -H1 Hls. revert ls' H1. induction Hls as [|e l recs ls H Hls IH]; intros ls' H1; inversion H1; subst; [reflexivity|].
      f_equal; [eapply contributes_unique; eauto|auto]. }
    apply H2. destruct Hne as [Hne|[Hne _]]; auto. }
  unfold custom_in_chain, with_rewriter. destruct (w_custom_rules w) as [|r0 rules] eqn:Er; [apply Hp|].
  destruct (Hr ltac:(discriminate)) as [Hdr Hi].
  destruct (rewriter_shape (r0 :: rules) (w_custom_iter w) arr Hdr Hi) as [rq [names [rewritten [[R1 R2] [R3 [_ [R4 R5]]]]]]].
  assert (rq = arr) as ->.
  { rewrite Hq in R1. inversion R1 as [|? q' ? l Hrw Hl E1 E2]; subst. inversion Hl; subst.
    destruct Hrw as [n' [Hn' [[p [k [v [A _]]]]|[_ ->]]]].
    - exfalso. rewrite (plain_fun _ _ _ Hn' Hn) in A. exact (Hnr p k v A).
    - rewrite R2, <- E2, <- Hq, set_question_same. apply set_req_msg_same. }
  rewrite R5. unfold inner_prog. rewrite (proj1 (Hp noop)).
  assert (forall m, revert names m = m) as Hrev.
  { intros m. assert (forall x, revert_name names x = x) as Hx.
    { intros x. destruct (R4 x) as [[a [b [[i [A B]] [C D]]]]|[_ D]]; [|exact D]. rewrite A in B. injection B as <-. congruence. }
    unfold revert. replace (map _ (m_answer m)) with (m_answer m); [replace (map _ (m_question m)) with (m_question m)|].
    - destruct m; reflexivity.
    - symmetry. rewrite <- map_id. apply map_ext. intros []. cbn. now rewrite Hx.
    - symmetry. rewrite <- map_id. apply map_ext. intros []. cbn. now rewrite Hx. }
  cbn [custom_reply rs_msg rs_reason rs_type m_answer]. rewrite Hrev.
  assert (w_custom_fallback w && match concat ls with [] => true | _ => false end = false) as ->.
  { destruct Hne as [Hne|[_ [Hne|Hne]]]; [|congruence|now rewrite Hne]. destruct (concat ls); [congruence|apply andb_false_r]. }
  destruct rewritten; split; reflexivity.
Qed.

(** ** C135: a query for a name (or a name under it) with custom records of the asked kind is answered with exactly these records, with
    their TTL, and marked as a forged answer; only the custom records are consulted. *)
Theorem C135_custom_records_answered : forall L c req q n arr recs ls, serves w c -> made w es -> arrives w req q n arr ->
  distinct_cfg (w_custom w) -> no_rule (w_custom_rules w) n -> decides (w_custom w) q recs ->
  (forall e, In e recs -> match rr_data e with DA _ | DAAAA _ | DTXT _ | DSRV _ _ _ _ => True | _ => False end) ->
  Forall2 (contributes q) recs ls ->
  concat ls <> [] \/ (cu_filter (w_custom w) = true /\ (w_custom_rules w = [] \/ w_custom_fallback w = false)) ->
  only_up_to CustomData (consulted (query_calls w req)) /\
  exists m m', handle_req L c req = [m'] /\ sent m m' /\ own_answer w req q 4 $"CUSTOM DNS" 0 (concat ls) m.
Proof.
  intros L c req q n arr recs ls Hs Hm Har Hd Hnr Hdec Hpl Hls Hne. pose proof Har as [Hq [Hn [Ht [Hlt [Hp Hlab]]]]].
  destruct (front_calls w req q n arr Hq Hn Hlt Hp) as [Hqa [e F2]].
  pose proof (fun next => custom_replies arr q n recs ls next Hm Hd Hqa Hn Ht Hnr Hdec Hpl Hls Hne) as Hc. split.
  - rewrite F2, rest_eq. cbn [calls]. rewrite (proj2 (Hc _)). apply only_up_to_intro. reflexivity.
  - refine (own_sent L c req q n arr (custom_reply arr q (concat ls)) _ 4 Hs Hm Har _ eq_refl eq_refl eq_refl eq_refl eq_refl eq_refl eq_refl _); [|discriminate].
    rewrite rest_eq. cbn [map snd]. rewrite chain_cons. apply Hc.
Qed.

(** ** C136: a query for a name with an address of the asked family in the hosts files is answered with this address, and marked as a
    forged answer; only custom records and hosts files are consulted. *)
Theorem C136_hosts_answered : forall L c req q n arr a, serves w c -> made w es -> arrives w req q n arr -> not_custom w q n ->
  hf_enabled (w_hosts w) = true -> resolves (q_type q) es n a ->
  only_up_to HostsData (consulted (query_calls w req)) /\
  exists r m m', handle_req L c req = [m'] /\ sent m m' /\ own_answer w req q 4 $"HOSTS FILE" 0 [r] m /\
    own_record q (q_type q) (hf_ttl (w_hosts w)) (if (q_type q =? 1)%N then DA a else DAAAA a) r.
Proof.
  intros L c req q n arr a Hs Hm Har Hnc He Hre. pose proof Har as [Hq [Hn [Ht [Hlt [Hp Hlab]]]]].
  destruct (front_calls w req q n arr Hq Hn Hlt Hp) as [Hqa [e F2]].
  pose proof (proj2 (proj2 (proj2 (proj2 Hm))) He) as Htab.
  pose proof (fun next => proj1 (C46_answer (w_hosts w) (w_table w) es (w_hosts4 w) (w_hosts6 w) arr q [] n next He Htab Hqa Ht Hn) a Hre) as Hc. split.
  - rewrite F2, rest_eq. rewrite (calls_next _ _ _ _ _ arr) by (intros nx; apply (custom_passes w es arr q n nx Hm Hqa Hn Ht Hnc)).
    cbn [calls]. rewrite (proj1 (Hc _)). apply only_up_to_intro. reflexivity.
  - destruct (Hc (chain (map snd (skipn 9 (query_resolvers w))) (w_upstream w))) as [_ [r [H1 H2]]]. exists r.
    assert (exists mm m', handle_req L c req = [m'] /\ sent mm m' /\ own_answer w req q 4 $"HOSTS FILE" 0 [r] mm) as [mm [m' [A [B C]]]].
    { refine (own_sent L c req q n arr {| rs_msg := Some (SudnSpec.own_reply arr q 0 [r]); rs_reason := $"HOSTS FILE"; rs_type := HOSTSFILE |} _ 4
        Hs Hm Har _ eq_refl eq_refl eq_refl eq_refl eq_refl eq_refl eq_refl _); [|discriminate].
      rewrite rest_eq. cbn [map snd]. rewrite chain_cons. rewrite (proj1 (custom_passes w es arr q n _ Hm Hqa Hn Ht Hnc)). rewrite chain_cons. exact H1. }
    exists mm, m'. split; [exact A|]. split; [exact B|]. split; [exact C|]. exact H2.
Qed.
End Own.
Print Assumptions C135_custom_records_answered.
Print Assumptions C136_hosts_answered.

(** ** Names of zones with their own upstreams stay there *)

(** A stage which asks nothing of the later ones, for requests with the question [q]: they are not called. *)
Lemma calls_stop q : forall a s p b last req, Forall (fun sp => exists R t, well_behaved R t (asks q) (asks q) (snd sp)) a ->
  (forall rq next, asks q rq -> forwarded (p rq) next = []) -> asks q req ->
  forall s' rq', In (s', rq') (calls (a ++ (s, p) :: b) last req) -> In s' (map fst a ++ [s]).
Proof.
  induction a as [|[s0 p0] a IH]; intros s p b last req Hw Hp Hq s' rq' Hin; cbn [app calls] in Hin.
  - rewrite Hp in Hin by exact Hq. cbn [flat_map In] in Hin. destruct Hin as [[= <- <-]|[]]. now left.
  - inversion Hw as [|? ? [R [t Hw0]] Hwa E1]; subst. cbn [snd] in Hw0. destruct Hin as [[= <- <-]|Hin]; [now left|]. right.
    set (next := chain (map snd (a ++ (s, p) :: b)) last) in Hin. apply in_flat_map in Hin as [rq [Hf Hin]].
    destruct (Hw0 req Hq) as [E|[[r [E _]]|[req' [k [E [Hq' Hk]]]]]]; rewrite E in Hf; cbn [forwarded] in Hf; try destruct Hf.
    + subst rq. eapply IH; eauto.
    + exfalso. destruct (next req') as [r|]; [|assumption]. destruct (Hk r) as [Ec|[r' [Ed _]]]; [rewrite Ec in H|rewrite Ed in H]; exact H.
Qed.

(** C138: without rewriting, and without a custom CNAME, the query for a name in such a zone never gets to the other upstreams, whatever
    else is configured and whatever the resolvers find. *)
Theorem C138_zone_stays_private : forall (U : Type) (w : world U) req q n u rq, m_question (req_msg req) = [q] -> plain_name (q_name q) n ->
  simple_custom w q -> w_cond_rules w = [] -> distinct_zones (w_mapping w) -> responsible (w_mapping w) n u ->
  ~ In (SUpstreamTree, rq) (query_calls w req).
Proof.
  intros U w req q n u rq Hq Hn Hc Hcr Hz Hre Hin.
  assert (forall arr next, asks q arr -> forwarded (conditional_resolve (w_mapping w) (w_ask w) arr) next = []) as Hf.
  { intros arr next Ha. unfold conditional_resolve. destruct (cond_dest_spec (w_mapping w) Hz arr q [] n Ha Hn) as [[u' [_ E]]|[Hno _]]; [|elim (Hno u Hre)].
    rewrite E. destruct (w_ask w u' _) as [[x|x]|]; auto. destruct (cond_response _ _); reflexivity. }
  unfold query_calls in Hin. change (query_resolvers w) with (firstn 11 (query_resolvers w) ++
    (SConditional, with_rewriter (w_cond_rules w) (rewriter_resolve (w_cond_fallback w) (w_cond_iter w) (inner_conditional (w_mapping w) (w_ask w)))
                      (conditional_resolve (w_mapping w) (w_ask w))) :: skipn 12 (query_resolvers w)) in Hin.
  rewrite Hcr in Hin. cbn [with_rewriter] in Hin.
  apply (calls_stop q) in Hin; [|clear -Hc|exact Hf|exact Hq].
  - cbn in Hin. repeat (destruct Hin as [Hin|Hin]; [discriminate|]). exact Hin.
  - cbn [query_resolvers firstn].
    assert (forall p R t, well_behaved R t (asks q) (asks q) p -> exists R t, well_behaved R t (asks q) (asks q) p) as H by eauto.
    constructor; [exact (H _ _ _ (wb_filtering _ q))|]. constructor; [exact (H _ _ _ (wb_fqdn _ q))|]. constructor; [exact (H _ _ _ (wb_ecs _ q))|].
    constructor; [exact (H _ _ _ (wb_names _ q))|]. constructor; [exact (H _ _ _ (wb_ede _ q))|]. constructor; [exact (H _ _ _ (wb_logging _ q))|].
    constructor; [exact (H _ _ _ (wb_metrics _ q))|]. constructor.
    { cbn [snd]. do 2 eexists. apply with_rewriter_wb; [intros _; apply wb_custom_rewriter|]. intros E. destruct Hc as [Hc|[Hc1 Hc2]]; [contradiction|]. now apply wb_custom. }
    constructor; [exact (H _ _ _ (wb_hosts _ _ _ _ q))|]. constructor; [exact (H _ _ _ (wb_blocking _ _ _ _ _ _ _ _ _ _ q))|].
    constructor; [exact (H _ _ _ (wb_caching _ _ q))|]. constructor.
Qed.
Print Assumptions C138_zone_stays_private.

(** ** A concrete installation: the lists are read from files, a client which asks for names of all kinds. *)
Definition e2e_file (p : str) : option (list str * scan_end) :=
  if str_eqb p $"ads.txt" then Some ([$"# advertising"; $"ads.com"; $"0.0.0.0 ok.com"; $"*.tracker.org # and all below"], ScanEOF)
  else if str_eqb p $"adult.txt" then Some ([$"adult.com"], ScanEOF)
  else if str_eqb p $"ok.txt" then Some ([$"ok.com"], ScanEOF)
  else if str_eqb p $"school.txt" then Some ([$"school.org"], ScanEOF) else None.
Definition e2e_ip (s : str) : option str := if str_eqb s $"0.0.0.0" then Some s else None.
Definition e2e_net (_ : str) (_ : nat) : answer := NetError 1.
Definition e2e_deny_loads : list (str * (list str * load_err)) :=
  [($"adult", ([$"adult.com"], NoErr)); ($"ads", ([$"ads.com"; $"ok.com"; $"*.tracker.org"], NoErr))].
Definition e2e_allow_loads : list (str * (list str * load_err)) := [($"ads", ([$"ok.com"], NoErr)); ($"school", ([$"school.org"], NoErr))].
Definition e2e_cache (loads : list (str * (list str * load_err))) :=
  match run_loads ex_regex new_list_cache loads with StringCache.Ok c => c | _ => new_list_cache end.
Definition e2e_world (up : list rr) : world nat :=
  let w := cx_world up in
  {| w_filter := w_filter w; w_fqdn := w_fqdn w; w_ecs := w_ecs w; w_names := w_names w; w_ede := w_ede w; w_entry := w_entry w; w_metrics := w_metrics w;
     w_custom := w_custom w; w_new_id := w_new_id w; w_records := w_records w; w_fuel := w_fuel w;
     w_custom_rules := w_custom_rules w; w_custom_fallback := w_custom_fallback w; w_custom_iter := w_custom_iter w;
     w_hosts := w_hosts w; w_table := w_table w; w_hosts4 := w_hosts4 w; w_hosts6 := w_hosts6 w;
     w_glob := w_glob w; w_cidr := w_cidr w; w_ip_string := w_ip_string w;
     w_allow := lc_match ex_regex (e2e_cache e2e_allow_loads); w_deny := lc_match ex_regex (e2e_cache e2e_deny_loads);
     w_blk := w_blk w; w_handler := w_handler w; w_blk_iter := w_blk_iter w; w_fqdn_ips := w_fqdn_ips w; w_disabled := w_disabled w;
     w_caching := w_caching w; w_look := w_look w; w_mapping := w_mapping w; w_ask := w_ask w;
     w_cond_rules := w_cond_rules w; w_cond_fallback := w_cond_fallback w; w_cond_iter := w_cond_iter w; w_sudn := w_sudn w; w_upstream := w_upstream w |}.
(** 16 bytes for a question and for every record. *)
Definition e2e_lengths : lengths :=
  {| cstate := unit; cstart := tt; question_len := fun _ _ _ => (16, tt); record_len := fun _ _ _ => (16, tt);
     plain_question_len := fun _ => 16; plain_record_len := fun _ => 16 |}.
Definition e2e_chain (up : list rr) (rq : request) : msg * chain_result := (req_msg rq, result_of (query_chain (e2e_world up) rq)).

Lemma e2e_serves up : serves (e2e_world up) (e2e_chain up).
Proof. intros rq. reflexivity. Qed.

Definition e2e_entries (ls : list str) : list str :=
  flat_map (fun l => match clean_line l with
                     | Some t => match hosts_line e2e_ip ex_to_ascii ex_compiles t with
                                 | Some hs => map (fun h => match e2e_ip h with Some c => c | None => h end) hs
                                 | None => []
                                 end
                     | None => []
                     end) ls.

Lemma e2e_written ls e : written e2e_ip ex_to_ascii ex_compiles ls e <-> In e (e2e_entries ls).
Proof.
  destruct (contents_total ls) as [ts Hc].
  assert (forall t, In t ts -> exists c, In c t /\ ~ white c) as Hi.
  { clear -Hc. induction Hc as [|l ls ts H Hc IH|l ls t ts H Hne Hc IH]; [intros t []|exact IH|]. intros t' [<-|A]; [|auto].
    destruct H as [before [body [after [tail [_ [_ [_ [_ [_ [-> [H|[[c [r [-> H]]] _]]]]]]]]]]]]; [congruence|]. exists c. split; [now left|exact H]. }
  assert (e2e_entries ls = flat_map (fun t => match hosts_line e2e_ip ex_to_ascii ex_compiles t with
                                 | Some hs => map (fun h => match e2e_ip h with Some c => c | None => h end) hs
                                 | None => [] end) ts) as ->.
  { clear -Hc. unfold e2e_entries. induction Hc as [|l ls ts H Hc IH|l ls t ts H Hne Hc IH]; [reflexivity| |]; cbn [flat_map]; apply clean_line_spec in H; rewrite H.
    - exact IH.
    - destruct t; [congruence|]. f_equal. exact IH. }
  rewrite in_flat_map. split.
  - intros [ts' [t [hs [h [A [B [C [D E]]]]]]]]. rewrite (contents_fun ls ts' ts A Hc) in B. exists t. split; [exact B|].
    apply hosts_line_spec in C; [|auto]. rewrite C. apply in_map_iff. exists h. now split.
  - intros [t [B C]]. destruct (hosts_line e2e_ip ex_to_ascii ex_compiles t) as [hs|] eqn:E; [|destruct C]. apply in_map_iff in C as [h [C D]].
    exists ts, t, hs, h. split; [exact Hc|]. split; [exact B|]. split; [apply hosts_line_spec; auto|]. now split.
Qed.

Lemma e2e_source s ls : In s [$"ads.txt"; $"adult.txt"; $"ok.txt"; $"school.txt"] ->
  has_lines e2e_file e2e_net 3 s ls <-> e2e_file s = Some (ls, ScanEOF).
Proof.
  intros Hs. unfold has_lines. assert (parse_source s = SFile s) as E by (cbn [In] in Hs; destruct Hs as [<-|[<-|[<-|[<-|[]]]]]; reflexivity). split.
  - intros [src [A B]]. apply parse_source_iff in A. rewrite E in A. subst src. exact B.
  - intros H. exists (SFile s). split; [now apply parse_source_iff|exact H].
Qed.

Lemma e2e_good sources : (forall g srcs s, In (g, srcs) sources -> In s srcs -> In s [$"ads.txt"; $"adult.txt"; $"ok.txt"; $"school.txt"]) ->
  good_sources e2e_ip ex_to_ascii ex_compiles e2e_file e2e_net 3 5 sources.
Proof.
  intros H g srcs s A B. specialize (H g srcs s A B). 
  assert (exists ls, e2e_file s = Some (ls, ScanEOF) /\ length ls <= 5 /\ ~ In $"/" (e2e_entries ls)) as [ls [C [D E]]].
  { cbn [In] in H. destruct H as [<-|[<-|[<-|[<-|[]]]]]; (eexists; split; [reflexivity|]; split; [cbn; lia|]); vm_compute; intuition discriminate. }
  exists ls. split; [now apply e2e_source|]. split; [apply few_errors_short; lia|]. now rewrite e2e_written.
Qed.

Lemma e2e_loaded up : lists_loaded ex_regex e2e_ip ex_to_ascii ex_compiles e2e_file (e2e_world up) e2e_net e2e_net 3 3.
Proof.
  split; [|split; [|intros i; apply Permutation_refl]].
  - exists 5%Z, [], e2e_allow_loads, (e2e_cache e2e_allow_loads). split; [repeat constructor; cbn; intuition discriminate|]. split; [apply e2e_good|].
    { intros g srcs s [[= <- <-]|[[= <- <-]|[]]] [<-|[]]; cbn; tauto. }
    split; [intros g es' o []|]. split; [intros l []|]. split; [|split; reflexivity].
    exists (bc_allow BlockingProps.ex_cfg). split; [apply Permutation_refl|].
    constructor; [|constructor; [|constructor]]; (split; [reflexivity|]; exists 5; eexists; split; [vm_compute; reflexivity|]; split; [apply Permutation_refl|]; cbn; repeat constructor).
  - exists 5%Z, [], e2e_deny_loads, (e2e_cache e2e_deny_loads). split; [repeat constructor; cbn; intuition discriminate|]. split; [apply e2e_good|].
    { intros g srcs s [[= <- <-]|[[= <- <-]|[]]] [<-|[]]; cbn; tauto. }
    split; [intros g es' o []|]. split; [intros l []|]. split; [|split; reflexivity].
    exists (rev (bc_deny BlockingProps.ex_cfg)). split; [apply Permutation_sym, Permutation_rev|].
    constructor; [|constructor; [|constructor]]; (split; [reflexivity|]; exists 5; eexists; split; [vm_compute; reflexivity|]; split; [apply Permutation_refl|]; cbn; repeat constructor).
Qed.

Lemma e2e_made up : made (e2e_world up) hosts_ex_entries.
Proof.
  split; [intros rq r; repeat eexists|]. split; [apply Permutation_refl|]. split; [cbn; lia|]. split; [intros H; elim H; reflexivity|].
  intros _ t m a. apply split_get_spec.
Qed.

(** The request as it gets to the lists. *)
Definition e2e_arr (n : str) : request := set_req_names [$"desktop"] (cx_req n 1).

Lemma e2e_arrives up n : In n [$"ads.com."; $"www.tracker.org."; $"ok.com."; $"example.com."; $"printer.lan."; $"nas.lan."; $"a.fritz.box."] ->
  arrives (e2e_world up) (cx_req n 1) {| q_name := n; q_type := 1; q_class := 1 |} (trim_suffix n $".") (e2e_arr n).
Proof.
  intros Hn. split; [cbn [In] in Hn; repeat (destruct Hn as [<-|Hn]; [reflexivity|]); destruct Hn|].
  split; [apply plain_name_iff; cbn [In] in Hn; repeat (destruct Hn as [<-|Hn]; [reflexivity|]); destruct Hn|].
  split; [discriminate|]. split.
  - split; [cbn; intuition discriminate|]. intros _. cbn [In] in Hn; repeat (destruct Hn as [<-|Hn]; [cbn; tauto|]); destruct Hn.
  - split.
    + exists (cx_req n 1). split; [|reflexivity]. intros next. cbn [In] in Hn; repeat (destruct Hn as [<-|Hn]; [cbn; destruct (next _); reflexivity|]); destruct Hn.
    + intros _. constructor; [|constructor]. apply utf8_string_iff. reflexivity.
Qed.

Lemma e2e_plain n : In n [$"ads.com."; $"www.tracker.org."; $"ok.com."; $"example.com."; $"a.fritz.box."] -> forall up,
  not_custom (e2e_world up) {| q_name := n; q_type := 1; q_class := 1 |} (trim_suffix n $".") /\
  not_hosts (e2e_world up) hosts_ex_entries {| q_name := n; q_type := 1; q_class := 1 |} (trim_suffix n $".").
Proof.
  intros Hn up. split; [split|].
  - pose proof (lookup_decides cx_custom {| q_name := n; q_type := 1; q_class := 1 |}) as L. cbv zeta in L.
    cbn [In] in Hn; repeat (destruct Hn as [<-|Hn]; [vm_compute in L; exact L|]); destruct Hn.
  - intros p k v [_ [k0 [v0 [[] _]]]].
  - intros _ a Ha. apply split_get_spec in Ha. cbn [In] in Hn; repeat (destruct Hn as [<-|Hn]; [vm_compute in Ha; discriminate|]); destruct Hn.
Qed.

Lemma e2e_in_force up n g : in_force (e2e_world up) (e2e_arr n) g <-> g = $"ads".
Proof.
  pose proof (groups_to_check_iff ex_glob ex_cidr ex_ipstr BlockingProps.ex_cfg BlockingProps.ex_iter (fun i => Permutation_refl _) ex_fq [] (e2e_arr n) g) as H.
  assert (groups_to_check ex_glob ex_cidr ex_ipstr (BlockingProps.ex_iter 0) BlockingProps.ex_iter ex_fq [] (e2e_arr n) = [$"ads"]) as E by reflexivity.
  rewrite E in H. symmetry in H. refine (iff_trans H _). cbn. intuition congruence.
Qed.

Definition e2e_allow up := wants_allow ex_regex e2e_ip ex_to_ascii ex_compiles e2e_file (e2e_world up) e2e_net 3.
Definition e2e_deny up := wants_deny ex_regex e2e_ip ex_to_ascii ex_compiles e2e_file (e2e_world up) e2e_net 3.

Lemma e2e_allow_iff up g n : e2e_allow up g n <-> In g (lc_match ex_regex (e2e_cache e2e_allow_loads) n [g]).
Proof.
  destruct (loaded_setting _ _ _ _ _ _ _ _ _ _ (e2e_loaded up)) as [H _]. destruct (H n [g]) as [_ E]. refine (iff_trans _ (iff_sym (E g))). split; [|tauto]. intros A. split; [now left|exact A].
Qed.
Lemma e2e_deny_iff up g n : e2e_deny up g n <-> In g (lc_match ex_regex (e2e_cache e2e_deny_loads) n [g]).
Proof.
  destruct (loaded_setting _ _ _ _ _ _ _ _ _ _ (e2e_loaded up)) as [_ [H _]]. destruct (H n [g]) as [_ E]. refine (iff_trans _ (iff_sym (E g))). split; [|tauto]. intros A. split; [now left|exact A].
Qed.

Lemma e2e_free up n : ~ only_allowed (e2e_world up) (e2e_arr n).
Proof. intros [g [A [_ B]]]. apply e2e_in_force in A as ->. apply B. exists [$"ads.txt"]. now left. Qed.

(** The lists have what is written in the files. *)
Example C133_example : forall up,
  e2e_deny up $"ads" $"ads.com" /\ e2e_deny up $"ads" $"www.tracker.org" /\ e2e_deny up $"ads" $"ok.com" /\ e2e_allow up $"ads" $"ok.com" /\
  ~ e2e_deny up $"ads" $"adult.com" /\ e2e_deny up $"adult" $"adult.com" /\ ~ e2e_deny up $"ads" $"example.com".
Proof. intros up. rewrite !e2e_deny_iff, e2e_allow_iff. vm_compute. intuition discriminate. Qed.

(** A name on a deny list, by itself or with its parent: the hypotheses, and the answer. *)
Example C134_blocked_case : forall up n, In n [$"ads.com."; $"www.tracker.org."] ->
  let w := e2e_world up in let q := {| q_name := n; q_type := 1; q_class := 1 |} in let d := trim_suffix n $"." in
  made w hosts_ex_entries /\ lists_loaded ex_regex e2e_ip ex_to_ascii ex_compiles e2e_file w e2e_net e2e_net 3 3 /\
  arrives w (cx_req n 1) q d (e2e_arr n) /\ not_custom w q d /\ not_hosts w hosts_ex_entries q d /\
  in_force w (e2e_arr n) $"ads" /\ e2e_deny up $"ads" d /\ (forall g', in_force w (e2e_arr n) g' -> ~ e2e_allow up g' d) /\
  ~ only_allowed w (e2e_arr n) /\
  map (fun m => (m_id m, m_rcode m, m_answer m, m_extra m)) (handle_req e2e_lengths (e2e_chain up) (cx_req n 1)) =
    [(77%N, 0%N, [{| rr_name := n; rr_type := 1; rr_class := 1; rr_ttl := 60; rr_data := DA (IP4 [0; 0; 0; 0]%N) |}],
      [{| rr_name := $"."; rr_type := 41; rr_class := 0; rr_ttl := 0; rr_data := DOPT [EOEde 15 $"BLOCKED (ads)"] |}])].
Proof.
  intros up n Hn w q d.
  assert (In n [$"ads.com."; $"www.tracker.org."; $"ok.com."; $"example.com."; $"a.fritz.box."]) as Hn1 by (cbn [In] in *; tauto).
  assert (In n [$"ads.com."; $"www.tracker.org."; $"ok.com."; $"example.com."; $"printer.lan."; $"nas.lan."; $"a.fritz.box."]) as Hn2 by (cbn [In] in *; tauto).
  destruct (e2e_plain n Hn1 up) as [P1 P2].
  split; [apply e2e_made|]. split; [apply e2e_loaded|]. split; [exact (e2e_arrives up n Hn2)|]. split; [exact P1|]. split; [exact P2|].
  split; [now apply e2e_in_force|]. split; [|split; [|split; [apply e2e_free|]]].
  - apply e2e_deny_iff. cbn [In] in Hn. destruct Hn as [<-|[<-|[]]]; vm_compute; tauto.
  - intros g' Hg. apply e2e_in_force in Hg as ->. intros Hg. apply e2e_allow_iff in Hg. cbn [In] in Hn. destruct Hn as [<-|[<-|[]]]; vm_compute in Hg; tauto.
  - cbn [In] in Hn. destruct Hn as [<-|[<-|[]]]; vm_compute; reflexivity.
Qed.

(** A name on a deny list and on an allow list, and one on none: the upstream answers. *)
Definition e2e_up : list rr := [ex_a $"x." [1; 1; 1; 1]%N].

Lemma e2e_only n : In n [$"ok.com."; $"example.com."] -> only_upstream (e2e_world e2e_up) (e2e_arr n) {| q_name := n; q_type := 1; q_class := 1 |} (trim_suffix n $".").
Proof.
  intros Hn. split; [intros _ _; cbn [In] in Hn; destruct Hn as [<-|[<-|[]]]; reflexivity|]. split; [reflexivity|]. split; [exact cx_zones|]. split.
  - destruct (cond_dest_spec [($"fritz.box", 1)] cx_zones (e2e_arr n) {| q_name := n; q_type := 1; q_class := 1 |} [] (trim_suffix n $".")) as [[u [_ E]]|[H _]].
    + cbn [In] in Hn; destruct Hn as [<-|[<-|[]]]; reflexivity.
    + apply plain_name_iff. cbn [In] in Hn; destruct Hn as [<-|[<-|[]]]; reflexivity.
    + cbn [In] in Hn; destruct Hn as [<-|[<-|[]]]; vm_compute in E; discriminate.
    + exact H.
  - intros _. assert (lowered n n) as Hl by (apply lowered_iff; cbn [In] in Hn; destruct Hn as [<-|[<-|[]]]; reflexivity). split; [exact Hl|].
    destruct (C40_special_use_partial {| su_appendix_g := true; su_enable := true |} (e2e_arr n) {| q_name := n; q_type := 1; q_class := 1 |} [] (fun _ => None) eq_refl) as [[m [_ [E _]]]|[H _]].
    + cbn [In] in Hn; destruct Hn as [<-|[<-|[]]]; reflexivity.
    + exact Hl.
    + cbn [In] in Hn; destruct Hn as [<-|[<-|[]]]; vm_compute in E; discriminate.
    + exact H.
Qed.

Lemma e2e_clean n : clean ex_regex e2e_ip ex_to_ascii ex_compiles e2e_file (e2e_world e2e_up) e2e_net e2e_net 3 3 (e2e_arr n) e2e_up.
Proof.
  intros r k x g [<-|[]] H _ Hg Hd. apply e2e_in_force in Hg as ->. exfalso. apply (e2e_deny_iff e2e_up) in Hd.
  inversion H as [r a E|r a low E|r t n0 E]; subst; try discriminate. injection E as <-. vm_compute in Hd. exact Hd.
Qed.

Example C137_case : forall n, In n [$"ok.com."; $"example.com."] ->
  let w := e2e_world e2e_up in let q := {| q_name := n; q_type := 1; q_class := 1 |} in let d := trim_suffix n $"." in
  arrives w (cx_req n 1) q d (e2e_arr n) /\ not_custom w q d /\ not_hosts w hosts_ex_entries q d /\ only_upstream w (e2e_arr n) q d /\ sane_cfg (w_caching w) /\
  ~ only_allowed w (e2e_arr n) /\
  (n = $"ok.com." -> e2e_allow e2e_up $"ads" d) /\
  (n = $"example.com." -> (forall g, in_force w (e2e_arr n) g -> ~ e2e_deny e2e_up g d) /\
     clean ex_regex e2e_ip ex_to_ascii ex_compiles e2e_file w e2e_net e2e_net 3 3 (e2e_arr n) e2e_up) /\
  map (fun m => (m_rcode m, m_answer m)) (handle_req e2e_lengths (e2e_chain e2e_up) (cx_req n 1)) = [(0%N, e2e_up)].
Proof.
  intros n Hn w q d.
  assert (In n [$"ads.com."; $"www.tracker.org."; $"ok.com."; $"example.com."; $"a.fritz.box."]) as Hn1 by (cbn [In] in *; tauto).
  assert (In n [$"ads.com."; $"www.tracker.org."; $"ok.com."; $"example.com."; $"printer.lan."; $"nas.lan."; $"a.fritz.box."]) as Hn2 by (cbn [In] in *; tauto).
  destruct (e2e_plain n Hn1 e2e_up) as [P1 P2].
  split; [exact (e2e_arrives _ n Hn2)|]. split; [exact P1|]. split; [exact P2|]. split; [exact (e2e_only n Hn)|]. split; [repeat split|].
  split; [apply e2e_free|]. split; [intros E; apply e2e_allow_iff; unfold d; rewrite E; vm_compute; tauto|]. split.
  - intros E. split; [|apply e2e_clean]. intros g Hg Hd. apply e2e_in_force in Hg as ->. apply e2e_deny_iff in Hd. unfold d in Hd. rewrite E in Hd. vm_compute in Hd. exact Hd.
  - cbn [In] in Hn. destruct Hn as [<-|[<-|[]]]; vm_compute; reflexivity.
Qed.

(** A custom record, and an entry of the hosts file. *)
Example C135_case : let w := e2e_world e2e_up in let q := {| q_name := $"printer.lan."; q_type := 1; q_class := 1 |} in
  let e := {| rr_name := []; rr_type := 0; rr_class := 1; rr_ttl := 3600; rr_data := DA (IP4 [192;168;178;3]%N) |} in
  let r := {| rr_name := $"printer.lan."; rr_type := 1; rr_class := 1; rr_ttl := 3600; rr_data := DA (IP4 [192;168;178;3]%N) |} in
  arrives w (cx_req $"printer.lan." 1) q $"printer.lan" (e2e_arr $"printer.lan.") /\ distinct_cfg (w_custom w) /\ no_rule (w_custom_rules w) $"printer.lan" /\
  decides (w_custom w) q [e] /\ Forall2 (contributes q) [e] [[r]] /\
  map (fun m => (m_rcode m, m_answer m)) (handle_req e2e_lengths (e2e_chain e2e_up) (cx_req $"printer.lan." 1)) = [(0%N, [r])].
Proof.
  intros w q e r. split; [apply (e2e_arrives e2e_up $"printer.lan."); cbn [In]; tauto|]. split; [exact cx_distinct|].
  split; [intros p k v [_ [k0 [v0 [[] _]]]]|]. split; [exact (lookup_decides cx_custom q)|]. split; [|vm_compute; reflexivity].
  constructor; [|constructor]. left. exists (DA (IP4 [192;168;178;3]%N)), r. split; [|split; [repeat split|reflexivity]]. now split.
Qed.

Example C136_case : let w := e2e_world e2e_up in let q := {| q_name := $"nas.lan."; q_type := 1; q_class := 1 |} in
  arrives w (cx_req $"nas.lan." 1) q $"nas.lan" (e2e_arr $"nas.lan.") /\ not_custom w q $"nas.lan" /\ hf_enabled (w_hosts w) = true /\
  exists a, resolves 1 hosts_ex_entries $"nas.lan" a /\
  map (fun m => (m_rcode m, map rr_data (m_answer m))) (handle_req e2e_lengths (e2e_chain e2e_up) (cx_req $"nas.lan." 1)) = [(0%N, [DA a])].
Proof.
  intros w q. split; [apply (e2e_arrives e2e_up $"nas.lan."); cbn [In]; tauto|]. split; [split|].
  - exact (lookup_decides cx_custom q).
  - intros p k v [_ [k0 [v0 [[] _]]]].
  - split; [reflexivity|]. eexists. split; [apply split_get_spec; vm_compute; reflexivity|]. vm_compute. reflexivity.
Qed.

(** A name of a zone with its own upstream. *)
Example C138_case : let w := e2e_world e2e_up in let q := {| q_name := $"a.fritz.box."; q_type := 1; q_class := 1 |} in let arr := e2e_arr $"a.fritz.box." in
  arrives w (cx_req $"a.fritz.box." 1) q $"a.fritz.box" arr /\ not_custom w q $"a.fritz.box" /\ not_hosts w hosts_ex_entries q $"a.fritz.box" /\
  simple_custom w q /\ distinct_zones (w_mapping w) /\ responsible (w_mapping w) $"a.fritz.box" 1 /\ ~ only_allowed w arr /\
  (forall g, in_force w arr g -> ~ e2e_deny e2e_up g $"a.fritz.box") /\
  map (fun m => (m_id m, m_rcode m, m_answer m)) (handle_req e2e_lengths (e2e_chain e2e_up) (cx_req $"a.fritz.box." 1)) = [(77%N, 0%N, [])] /\
  In (SConditional, arr) (query_calls w (cx_req $"a.fritz.box." 1)).
Proof.
  intros w q arr. destruct (e2e_plain $"a.fritz.box." (or_intror (or_intror (or_intror (or_intror (or_introl eq_refl))))) e2e_up) as [P1 P2].
  split; [apply (e2e_arrives e2e_up $"a.fritz.box."); cbn [In]; tauto|]. split; [exact P1|]. split; [exact P2|]. split.
  { right. split; [|cbn; lia]. right. intros es e t H _ _. apply (lookup_decides_iff cx_custom _ es cx_distinct) in H. vm_compute in H. discriminate. }
  split; [exact cx_zones|]. split.
  { destruct (cond_dest_spec [($"fritz.box", 1)] cx_zones arr q [] $"a.fritz.box" eq_refl) as [[u [H E]]|[_ E]]; [apply plain_name_iff; reflexivity| |vm_compute in E; discriminate].
    vm_compute in E. injection E as <-. exact H. }
  split; [apply e2e_free|]. split; [intros g Hg Hd; apply e2e_in_force in Hg as ->; apply e2e_deny_iff in Hd; vm_compute in Hd; exact Hd|].
  split; [vm_compute; reflexivity|]. vm_compute. tauto.
Qed.
