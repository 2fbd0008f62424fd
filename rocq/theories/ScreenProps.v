(** Further properties of the whole: answers which refer to denied names or addresses, and failures of the upstreams, seen at the server
    (C165-C167). *)
From Coq Require Import String Ascii List Arith Bool NArith ZArith Lia Permutation.
From Verif Require Import Str StrFacts StringCache StringCacheSpec StringCacheProofs StringCacheProps
  Parsers ParsersSpec ParsersProofs ParsersProps Target Download DownloadSpec DownloadProps Dns Resolver ResolverFacts
  CachingSpec CachingProofs ExpCache Caching
  Blocking BlockingSpec BlockingProofs BlockingProps Custom CustomSpec CustomProofs CustomProps Conditional ConditionalSpec ConditionalProps
  Rewriter RewriterSpec RewriterProps EdnsProofs EdnsProps Sudn SudnSpec SudnProps Ecs ClientNames QueryLog Hosts HostsSpec HostsProofs HostsProps
  Chain ChainSpec ChainProofs ChainProps RedisSpec Utf8Facts SafeSpec SafeProps Metrics MetricsProps Server ServerSpec ServerProps
  EndToEnd EndToEndSpec EndToEndLists EndToEndProofs EndToEndProps AnswersProps Arpa ArpaSpec ArpaProofs.
Import ListNotations.

Section Lists.
Variable compile : str -> option (str -> bool).
Variable parse_ip to_ascii : str -> option str.
Variable compiles : str -> bool.
Variable file : str -> option (list str * scan_end).
Context {U : Type}.
Variable w : world U.
Variable es : list host_entry.
Variable net_a net_d : str -> nat -> answer.
Variable attempts_a attempts_d : N.

Notation wants_allow' := (wants_allow compile parse_ip to_ascii compiles file w net_a attempts_a).
Notation wants_deny' := (wants_deny compile parse_ip to_ascii compiles file w net_d attempts_d).
Notation loaded := (lists_loaded compile parse_ip to_ascii compiles file w net_a net_d attempts_a attempts_d).

(** The name is on no list which counts for the client, and the client has not only allow lists. *)
Definition on_no_list (arr : request) (n : str) : Prop :=
  ~ only_allowed w arr /\ forall g, in_force w arr g -> ~ wants_deny' g n /\ ~ wants_allow' g n.

(** The record refers to [x], which is denied to the client and not allowed. *)
Definition unwanted (arr : request) (r : rr) (kind x : str) : Prop :=
  refers (w_ip_string w) r kind x /\ x <> [] /\ (exists g, in_force w arr g /\ wants_deny' g x) /\
  (forall g, in_force w arr g -> ~ wants_allow' g x).

(** An answer of the resolvers after the lists with an unwanted record is replaced. *)
Lemma screened_reply L c req q n arr y mm pre r post kind x : serves w c -> made w es -> loaded -> arrives w req q n arr ->
  not_custom w q n -> not_hosts w es q n -> on_no_list arr n ->
  chain (map snd (skipn 10 (query_resolvers w))) (w_upstream w) arr = Some (Ok y) -> rs_msg y = Some mm ->
  m_answer mm = pre ++ r :: post -> unwanted arr r kind x -> (forall r' k' x', In r' pre -> ~ unwanted arr r' k' x') ->
  exists l rcode ans mb m', handle_req L c req = [m'] /\ sent mb m' /\ block_content (w_handler w) q rcode ans /\
    own_answer w req q 15 ($"BLOCKED " ++ kind ++ $" (" ++ l ++ $")") rcode ans mb /\
    names_groups (fun g => in_force w arr g /\ wants_deny' g x) l.
Proof.
  intros Hs Hm Hl Har Hnc Hnh [Ho Hno] Hc Hy Ha Hbad Hpre. pose proof Har as [Hq [Hn [Ht [Hlt [Hp Hlab]]]]].
  destruct (front_calls w req q n arr Hq Hn Hlt Hp) as [Hqa _].
  pose proof (loaded_setting _ _ _ _ _ _ _ _ _ _ Hl) as Hset.
  destruct (to_lists w es arr q n (w_upstream w) Hm Hqa Hn Ht Hnc Hnh) as [T1 _].
  assert (undecided (w_glob w) (w_cidr w) (w_ip_string w) wants_allow' wants_deny' (w_blk w) (w_fqdn_ips w) (w_disabled w) arr) as Hun.
  { intros q' n' Hin Hn'. rewrite Hqa in Hin. destruct Hin as [<-|[]]. rewrite (plain_fun _ _ _ Hn' Hn). split.
    - intros [g [A B]]. exact (proj2 (Hno g A) B).
    - intros [_ [A|[g [A B]]]]; [exact (Ho A)|exact (proj1 (Hno g A) B)]. }
  assert (forall r k x, req_bad (w_glob w) (w_cidr w) (w_ip_string w) wants_allow' wants_deny' (w_blk w) (w_fqdn_ips w) (w_disabled w) arr r k x <-> unwanted arr r k x) as Hiff.
  { intros r0 k0 x0. split.
    - intros [A [B [C [g [D E]]]]]. split; [exact A|]. split; [exact B|]. split; [exists g; now split|]. intros g' F G. apply C. exists g'. now split.
    - intros [A [B [[g [C D]] E]]]. split; [exact A|]. split; [exact B|]. split; [intros [g' [F G]]; exact (E g' F G)|exists g; now split]. }
  destruct (C27_answers_screened (w_glob w) (w_cidr w) (w_ip_string w) (w_allow w) (w_deny w) wants_allow' wants_deny' (w_blk w) (w_handler w)
    (w_blk_iter w) (w_fqdn_ips w) (w_disabled w) arr q [] Hset Hqa Hun) as [k [E [_ [_ [_ K]]]]].
  destruct (K y mm pre r post kind x Hy Ha (proj2 (Hiff r kind x) Hbad)) as [rb [K1 [[K2 [mb [K3 [M1 [M2 [M3 [M4 [M5 M6]]]]]]]] [l [K4 K5]]]]].
  { intros r' k' x' Hin Hb. exact (Hpre r' k' x' Hin (proj1 (Hiff r' k' x') Hb)). }
  assert (chain (map snd (rest w)) (w_upstream w) arr = Some (Ok rb)) as Hr.
  { rewrite T1. unfold run_blocking in E. rewrite E. cbn [exec]. rewrite Hc, K1. reflexivity. }
  rewrite Hqa in M3. cbn [firstn] in M3.
  destruct (own_sent w es L c req q n arr rb mb 15 Hs Hm Har Hr K3 M1 M2 M3 M4 M5) as [m1 [m' [B1 [B2 B3]]]]; [rewrite K2; reflexivity|discriminate|].
  exists l, (m_rcode mb), (m_answer mb), m1, m'. split; [exact B1|]. split; [exact B2|]. split; [exact M6|]. rewrite K5 in B3. split; [exact B3|exact K4].
Qed.

(** ** C165: whatever an upstream answers to a name which is on no list: if a record of it refers to an address or a name which is denied to
    the client and not allowed, the client gets the block answer instead, with the kind of the first such record and the groups as reason. *)
Theorem C165_upstream_screened : forall L c req q n arr x0 m pre r post kind x, serves w c -> made w es -> loaded -> arrives w req q n arr ->
  not_custom w q n -> not_hosts w es q n -> on_no_list arr n -> only_upstream w arr q n ->
  w_upstream w arr = Some (Ok x0) -> rs_msg x0 = Some m ->
  m_answer m = pre ++ r :: post -> unwanted arr r kind x -> (forall r' k' x', In r' pre -> ~ unwanted arr r' k' x') ->
  exists l rcode ans mb m', handle_req L c req = [m'] /\ sent mb m' /\ block_content (w_handler w) q rcode ans /\
    own_answer w req q 15 ($"BLOCKED " ++ kind ++ $" (" ++ l ++ $")") rcode ans mb /\
    names_groups (fun g => in_force w arr g /\ wants_deny' g x) l.
Proof.
  intros L c req q n arr x0 m pre r post kind x Hs Hm Hl Har Hnc Hnh Hno Hou Hu Hx Ha Hbad Hpre. pose proof Har as [Hq [Hn [Ht [Hlt [Hp Hlab]]]]].
  destruct (front_calls w req q n arr Hq Hn Hlt Hp) as [Hqa _].
  destruct (after_to_upstream w arr q n x0 m Hqa Hn Hou) as [A _]. destruct (A Hu Hx) as [a [Hma Hc]].
  assert (exists f, a = map f (m_answer m) /\ forall r, rr_data (f r) = rr_data r) as [f [Ef Hf]].
  { destruct Hma as [->|[_ [_ ->]]].
    - exists (fun r => r). now rewrite map_id.
    - rewrite adjust_ttls_fst. eexists. split; [reflexivity|reflexivity]. }
  assert (forall r k x, unwanted arr (f r) k x <-> unwanted arr r k x) as Hun.
  { intros r0 k0 x1. unfold unwanted. assert (refers (w_ip_string w) (f r0) k0 x1 <-> refers (w_ip_string w) r0 k0 x1) as ->; [|reflexivity].
    split; intros H; inversion H; subst; [eapply refers_a|eapply refers_aaaa|eapply refers_cname|eapply refers_a|eapply refers_aaaa|eapply refers_cname];
      try (rewrite Hf in *; eassumption); assumption. }
  refine (screened_reply L c req q n arr _ (set_answer a m) (map f pre) (f r) (map f post) kind x Hs Hm Hl Har Hnc Hnh Hno Hc eq_refl _ _ _).
  - cbn [m_answer set_answer]. rewrite Ef, Ha, map_app. reflexivity.
  - now apply Hun.
  - intros r' k' x' Hin. apply in_map_iff in Hin as [r1 [<- Hin]]. intros Hb. exact (Hpre r1 k' x' Hin (proj1 (Hun r1 k' x') Hb)).
Qed.

(** The same for answers out of the cache: lists which were changed since the answer was stored count. *)
Theorem C165_cached_screened : forall L c req q n arr m ttl pre r post kind x, serves w c -> made w es -> loaded -> arrives w req q n arr ->
  not_custom w q n -> not_hosts w es q n -> on_no_list arr n ->
  caching_enabled (w_caching w) = true -> is_request_cacheable arr = true -> w_look w arr 0 = Some (m, ttl) ->
  m_answer m = pre ++ r :: post -> unwanted arr r kind x -> (forall r' k' x', In r' pre -> ~ unwanted arr r' k' x') ->
  exists l rcode ans mb m', handle_req L c req = [m'] /\ sent mb m' /\ block_content (w_handler w) q rcode ans /\
    own_answer w req q 15 ($"BLOCKED " ++ kind ++ $" (" ++ l ++ $")") rcode ans mb /\
    names_groups (fun g => in_force w arr g /\ wants_deny' g x) l.
Proof.
  intros L c req q n arr m ttl pre r post kind x Hs Hm Hl Har Hnc Hnh Hno Hce Hca Hlook Ha Hbad Hpre. pose proof Har as [Hq [Hn [Ht [Hlt [Hp Hlab]]]]].
  destruct (front_calls w req q n arr Hq Hn Hlt Hp) as [Hqa _].
  assert (chain (map snd (skipn 10 (query_resolvers w))) (w_upstream w) arr = Some (Ok (cached_reply arr m ttl))) as Hc.
  { cbn [query_resolvers skipn map snd]. rewrite chain_cons. unfold caching_resolve. rewrite Hce, Hca. cbn [negb orb]. rewrite Hqa. cbn [caching_loop]. rewrite Hlook. reflexivity. }
  assert (exists f, m_answer (set_ttl_in_cached (set_rcode m (req_msg arr) (m_rcode m)) ttl) = map f (m_answer m) /\ forall r, rr_data (f r) = rr_data r) as [f [Ef Hf]].
  { unfold set_ttl_in_cached. cbn [m_answer set_answer set_rcode set_rcode_field set_reply]. eexists. split; reflexivity. }
  assert (forall r k x, unwanted arr (f r) k x <-> unwanted arr r k x) as Hun.
  { intros r0 k0 x1. unfold unwanted. assert (refers (w_ip_string w) (f r0) k0 x1 <-> refers (w_ip_string w) r0 k0 x1) as ->; [|reflexivity].
    split; intros H; inversion H; subst; [eapply refers_a|eapply refers_aaaa|eapply refers_cname|eapply refers_a|eapply refers_aaaa|eapply refers_cname];
      try (rewrite Hf in *; eassumption); assumption. }
  refine (screened_reply L c req q n arr _ (set_ttl_in_cached (set_rcode m (req_msg arr) (m_rcode m)) ttl) (map f pre) (f r) (map f post) kind x Hs Hm Hl Har Hnc Hnh Hno Hc eq_refl _ _ _).
  - rewrite Ef, Ha, map_app. reflexivity.
  - now apply Hun.
  - intros r' k' x' Hin. apply in_map_iff in Hin as [r1 [<- Hin]]. intros Hb. exact (Hpre r1 k' x' Hin (proj1 (Hun r1 k' x') Hb)).
Qed.

(** ** C166: no upstream gives a usable answer. *)

(** What the server is given by the chain, with the errors told apart: the error of an upstream which answered SERVFAIL has its message
    (server/server.go:550-558, resolver/upstream_resolver.go:31-34, 223-229); the message of the query keeps number and question. *)
Definition serves_failures (c : request -> msg * chain_result) : Prop := forall rq,
  m_id (fst (c rq)) = m_id (req_msg rq) /\ m_question (fst (c rq)) = m_question (req_msg rq) /\
  match query_chain w rq with
  | None => snd (c rq) = CPanic
  | Some (Ok x) => snd (c rq) = CRes x
  | Some (Err _) => snd (c rq) = CErr \/ exists m, snd (c rq) = CUpstream m /\ m_rcode m = 2%N
  end.

(** An error of the resolvers after the lists gets to the client as a failure of the server. *)
Lemma failure_reply L c req q n arr e : serves_failures c -> made w es -> loaded -> arrives w req q n arr ->
  not_custom w q n -> not_hosts w es q n ->
  (exists g, in_force w arr g /\ wants_allow' g n) \/ (~ only_allowed w arr /\ forall g, in_force w arr g -> ~ wants_deny' g n) ->
  chain (map snd (skipn 10 (query_resolvers w))) (w_upstream w) arr = Some (Err e) ->
  exists m', handle_req L c req = [m'] /\ m_rcode m' = 2%N /\
    (error_reply (req_msg req) m' 2 \/ exists m, snd (c req) = CUpstream m /\ sent m m').
Proof.
  intros Hs Hm Hl Har Hnc Hnh Hlist Hc. pose proof Har as [Hq [Hn [Ht [Hlt [Hp Hlab]]]]].
  destruct (front_calls w req q n arr Hq Hn Hlt Hp) as [Hqa _].
  pose proof (loaded_setting _ _ _ _ _ _ _ _ _ _ Hl) as Hset.
  destruct (to_lists w es arr q n (w_upstream w) Hm Hqa Hn Ht Hnc Hnh) as [T1 _].
  assert (chain (map snd (rest w)) (w_upstream w) arr = Some (Err e)) as Hr.
  { rewrite T1. destruct (run_blocking_cases (w_glob w) (w_cidr w) (w_ip_string w) (w_allow w) (w_deny w) wants_allow' wants_deny' (w_blk w) (w_handler w)
      (w_blk_iter w) (w_fqdn_ips w) (w_disabled w) arr Hset) as [[q' [n' [Hdq [[_ E]|[Hbl _]]]]]|[Hun _]].
    - unfold run_blocking in E. now rewrite E, exec_pass.
    - exfalso. rewrite (deciding_one _ _ _ _ _ _ _ _ _ _ arr q n Hqa Hn q' n' Hdq) in Hbl. destruct Hbl as [B1 B2].
      destruct Hlist as [[g [C1 C2]]|[C1 C2]]; [apply B1; exists g; now split|]. destruct B2 as [B2|[g [B2 B3]]]; [exact (C1 B2)|exact (C2 g B2 B3)].
    - destruct (C27_answers_screened (w_glob w) (w_cidr w) (w_ip_string w) (w_allow w) (w_deny w) wants_allow' wants_deny' (w_blk w) (w_handler w)
        (w_blk_iter w) (w_fqdn_ips w) (w_disabled w) arr q [] Hset Hqa Hun) as [k [E [K _]]].
      unfold run_blocking in E. rewrite E. cbn [exec]. rewrite Hc, K. reflexivity. }
  destruct (front w req q n arr (Err e) (proj1 Hm) Hq Hn Hlt Hp Hlab Hr) as [_ [F1 _]]; [intros z [=]|].
  cbn [explained] in F1. destruct (Hs req) as [I1 [I2 I3]]. rewrite F1 in I3. destruct I3 as [I3|[m [I3 I4]]].
  - pose proof (C53_failure_partial L c req) as G. rewrite Hq in G. specialize (G ltac:(discriminate)). destruct (c req) as [rm r0]. cbn [fst snd] in *.
    subst r0. rewrite Hq in I2. destruct (G I1 I2 I) as [m' [G1 G2]]. exists m'. split; [exact G1|]. split; [apply G2|]. now left.
  - assert (exists m', handle_req L c req = [m'] /\ sent m m') as [m' [G1 G2]].
    { unfold handle_req, server_resolve. rewrite Hq. destruct (c req) as [rm r0]. cbn [snd] in I3. subst r0.
      eexists. split; [reflexivity|]. unfold finish, sent.
      pose proof (C54_truncation_marked L (max_response_size rm (req_proto req)) (set_ra (m_rd rm) m)) as T. cbv zeta in T.
      destruct T as [T1' [T2 [T3 [T4 [[k5 T5] [[k6 T6] [T7 T8]]]]]]]. cbn [set_ra m_id m_response m_rcode m_question m_answer m_ns] in *.
      rewrite T1', T2, T3, T4. repeat (split; [reflexivity|]). split; [eauto|]. split; [eauto|]. exact T8. }
    exists m'. split; [exact G1|]. split; [rewrite <- I4; apply G2|]. right. exists m. now split.
Qed.

(** The client is told that the server failed -- never that the name does not exist, and never nothing. *)
Theorem C166_failure_told : forall L c req q n arr e, serves_failures c -> made w es -> loaded -> arrives w req q n arr ->
  not_custom w q n -> not_hosts w es q n ->
  (exists g, in_force w arr g /\ wants_allow' g n) \/ (~ only_allowed w arr /\ forall g, in_force w arr g -> ~ wants_deny' g n) ->
  only_upstream w arr q n -> w_upstream w arr = Some (Err e) ->
  exists m', handle_req L c req = [m'] /\ m_rcode m' = 2%N /\
    (error_reply (req_msg req) m' 2 \/ exists m, snd (c req) = CUpstream m /\ sent m m').
Proof.
  intros L c req q n arr e Hs Hm Hl Har Hnc Hnh Hlist Hou Hu. pose proof Har as [Hq [Hn [Ht [Hlt [Hp Hlab]]]]].
  destruct (front_calls w req q n arr Hq Hn Hlt Hp) as [Hqa _].
  assert (chain (map snd (skipn 10 (query_resolvers w))) (w_upstream w) arr = Some (Err e)) as Hc.
  { destruct Hou as [Hca [Hcr [Hz [Hre Hsu]]]]. cbn [query_resolvers skipn]. rewrite Hcr. cbn [with_rewriter map snd].
    assert (forall next, exec (sudn_resolve (w_sudn w) arr) next = next arr) as Hsd.
    { intros next. destruct (su_enable (w_sudn w)) eqn:Ee; [|now apply C40_disabled]. destruct (Hsu eq_refl) as [Hlo Hno].
      destruct (C40_special_use_partial (w_sudn w) arr q [] next Ee Hqa Hlo) as [[m0 [A _]]|[_ [A _]]]; [elim (Hno m0 A)|exact A]. }
    assert (conditional_resolve (w_mapping w) (w_ask w) arr = pass arr) as Hcd.
    { unfold conditional_resolve. destruct (cond_dest_spec (w_mapping w) Hz arr q [] n Hqa Hn) as [[u [A _]]|[_ ->]]; [elim (Hre u A)|reflexivity]. }
    assert (chain [conditional_resolve (w_mapping w) (w_ask w); sudn_resolve (w_sudn w)] (w_upstream w) arr = Some (Err e)) as Hrest.
    { rewrite chain_cons, Hcd, exec_pass, chain_cons, Hsd. exact Hu. }
    rewrite chain_cons. unfold caching_resolve. destruct (caching_enabled (w_caching w)); [destruct (is_request_cacheable arr)|]; cbn [negb orb].
    - specialize (Hca eq_refl eq_refl). rewrite Hqa. cbn [caching_loop]. rewrite Hca. cbn [exec]. now rewrite Hrest.
    - now rewrite exec_pass.
    - now rewrite exec_pass. }
  exact (failure_reply L c req q n arr e Hs Hm Hl Har Hnc Hnh Hlist Hc).
Qed.

(** The same if the upstream of a zone fails; the other upstreams are not asked instead (C138_zone_stays_private). *)
Theorem C166_zone_failure_told : forall L c req q n arr u e, serves_failures c -> made w es -> loaded -> arrives w req q n arr ->
  not_custom w q n -> not_hosts w es q n ->
  (exists g, in_force w arr g /\ wants_allow' g n) \/ (~ only_allowed w arr /\ forall g, in_force w arr g -> ~ wants_deny' g n) ->
  (caching_enabled (w_caching w) = true -> is_request_cacheable arr = true -> w_look w arr 0 = None) ->
  w_cond_rules w = [] -> distinct_zones (w_mapping w) -> responsible (w_mapping w) n u ->
  (forall arr', normalised arr arr' n -> w_ask w u arr' = Some (Err e)) ->
  exists m', handle_req L c req = [m'] /\ m_rcode m' = 2%N /\
    (error_reply (req_msg req) m' 2 \/ exists m, snd (c req) = CUpstream m /\ sent m m').
Proof.
  intros L c req q n arr u e Hs Hm Hl Har Hnc Hnh Hlist Hca Hcr Hz Hre Hask. pose proof Har as [Hq [Hn [Ht [Hlt [Hp Hlab]]]]].
  destruct (front_calls w req q n arr Hq Hn Hlt Hp) as [Hqa _].
  destruct (C37_most_specific_zone U (w_mapping w) (w_ask w) (w_upstream w) arr q [] n Hz Hqa Hn) as [[u' [arr' [Hu' [Hnorm [Hdest _]]]]]|[Hno _]]; [|elim (Hno u Hre)].
  rewrite (C37_responsible_unique U (w_mapping w) n u' u Hz Hu' Hre) in *.
  assert (conditional_resolve (w_mapping w) (w_ask w) arr = Done (Err e)) as Hcond by (unfold conditional_resolve; now rewrite Hdest, (Hask arr' Hnorm)).
  assert (chain (map snd (skipn 10 (query_resolvers w))) (w_upstream w) arr = Some (Err e)) as Hc.
  { cbn [query_resolvers skipn]. rewrite Hcr. cbn [with_rewriter map snd]. rewrite chain_cons. unfold caching_resolve.
    destruct (caching_enabled (w_caching w)); [destruct (is_request_cacheable arr)|]; cbn [negb orb].
    - specialize (Hca eq_refl eq_refl). rewrite Hqa. cbn [caching_loop]. rewrite Hca. cbn [exec]. rewrite chain_cons, Hcond. reflexivity.
    - rewrite exec_pass, chain_cons, Hcond. reflexivity.
    - rewrite exec_pass, chain_cons, Hcond. reflexivity. }
  exact (failure_reply L c req q n arr e Hs Hm Hl Har Hnc Hnh Hlist Hc).
Qed.
End Lists.
Print Assumptions C165_upstream_screened.
Print Assumptions C165_cached_screened.
Print Assumptions C166_failure_told.
Print Assumptions C166_zone_failure_told.

(** ** Concrete cases, in the installation of EndToEndProps.v *)

(** An upstream which answers with an alias of a denied name. *)
Definition sc_alias : rr := {| rr_name := $"example.com."; rr_type := 5; rr_class := 1; rr_ttl := 60; rr_data := DCNAME $"ADS.com." |}.
Definition sc_up : list rr := [sc_alias; ex_a $"ads.com." [1; 1; 1; 1]%N].

Example C165_case : let w := e2e_world sc_up in let n := $"example.com." in let q := {| q_name := n; q_type := 1; q_class := 1 |} in
  arrives w (cx_req n 1) q $"example.com" (e2e_arr n) /\ not_custom w q $"example.com" /\ not_hosts w hosts_ex_entries q $"example.com" /\
  on_no_list ex_regex e2e_ip ex_to_ascii ex_compiles e2e_file w e2e_net e2e_net 3 3 (e2e_arr n) $"example.com" /\
  only_upstream w (e2e_arr n) q $"example.com" /\
  (exists x m, w_upstream w (e2e_arr n) = Some (Ok x) /\ rs_msg x = Some m /\ m_answer m = [] ++ sc_alias :: [ex_a $"ads.com." [1; 1; 1; 1]%N]) /\
  unwanted ex_regex e2e_ip ex_to_ascii ex_compiles e2e_file w e2e_net e2e_net 3 3 (e2e_arr n) sc_alias $"CNAME" $"ads.com" /\
  map (fun m => (m_id m, m_rcode m, map rr_data (m_answer m), map rr_data (m_extra m))) (handle_req e2e_lengths (e2e_chain sc_up) (cx_req n 1)) =
    [(77%N, 0%N, [DA (IP4 [0; 0; 0; 0]%N)], [DOPT [EOEde 15 $"BLOCKED CNAME (ads)"]])].
Proof.
  intros w n q. split; [apply (e2e_arrives sc_up n); cbn [In]; tauto|].
  destruct (e2e_plain n ltac:(cbn [In]; tauto) sc_up) as [P1 P2]. split; [exact P1|]. split; [exact P2|]. split; [|split; [|split; [|split]]].
  - split; [apply e2e_free|]. intros g Hg. apply e2e_in_force in Hg as ->. split; intros Hd.
    + apply (e2e_deny_iff sc_up) in Hd. vm_compute in Hd. exact Hd.
    + apply (e2e_allow_iff sc_up) in Hd. vm_compute in Hd. exact Hd.
  - exact (e2e_only n (or_intror (or_introl eq_refl))).
  - do 2 eexists. split; [reflexivity|]. split; reflexivity.
  - split; [apply (refers_cname _ sc_alias $"ADS.com."); [reflexivity|apply plain_name_iff; reflexivity]|]. split; [discriminate|]. split.
    + exists $"ads". split; [now apply e2e_in_force|]. apply (e2e_deny_iff sc_up). vm_compute. now left.
    + intros g Hg Hd. apply e2e_in_force in Hg as ->. apply (e2e_allow_iff sc_up) in Hd. vm_compute in Hd. exact Hd.
  - vm_compute. reflexivity.
Qed.

(** All upstreams fail. *)
Definition sc_failing : world nat :=
  let w := e2e_world [] in
  {| w_filter := w_filter w; w_fqdn := w_fqdn w; w_ecs := w_ecs w; w_names := w_names w; w_ede := w_ede w; w_entry := w_entry w; w_metrics := w_metrics w;
     w_custom := w_custom w; w_new_id := w_new_id w; w_records := w_records w; w_fuel := w_fuel w;
     w_custom_rules := w_custom_rules w; w_custom_fallback := w_custom_fallback w; w_custom_iter := w_custom_iter w;
     w_hosts := w_hosts w; w_table := w_table w; w_hosts4 := w_hosts4 w; w_hosts6 := w_hosts6 w;
     w_glob := w_glob w; w_cidr := w_cidr w; w_ip_string := w_ip_string w; w_allow := w_allow w; w_deny := w_deny w;
     w_blk := w_blk w; w_handler := w_handler w; w_blk_iter := w_blk_iter w; w_fqdn_ips := w_fqdn_ips w; w_disabled := w_disabled w;
     w_caching := w_caching w; w_look := w_look w; w_mapping := w_mapping w; w_ask := fun _ _ => Some (Err $"timeout");
     w_cond_rules := w_cond_rules w; w_cond_fallback := w_cond_fallback w; w_cond_iter := w_cond_iter w; w_sudn := w_sudn w;
     w_upstream := fun _ => Some (Err $"timeout") |}.
Definition sc_chain (rq : request) : msg * chain_result := (req_msg rq, result_of (query_chain sc_failing rq)).

Example C166_case : let w := sc_failing in let n := $"example.com." in let q := {| q_name := n; q_type := 1; q_class := 1 |} in
  serves_failures w sc_chain /\ made w hosts_ex_entries /\ lists_loaded ex_regex e2e_ip ex_to_ascii ex_compiles e2e_file w e2e_net e2e_net 3 3 /\
  arrives w (cx_req n 1) q $"example.com" (e2e_arr n) /\ not_custom w q $"example.com" /\ not_hosts w hosts_ex_entries q $"example.com" /\
  only_upstream w (e2e_arr n) q $"example.com" /\
  map (fun m => (m_id m, m_response m, m_rcode m, m_question m)) (handle_req e2e_lengths sc_chain (cx_req n 1)) = [(77%N, true, 2%N, [q])] /\
  map (fun m => (m_id m, m_response m, m_rcode m)) (handle_req e2e_lengths sc_chain (cx_req $"a.fritz.box." 1)) = [(77%N, true, 2%N)].
Proof.
  intros w n q. split; [|split; [|split; [|split; [|split; [|split; [|split; [|split]]]]]]].
  - intros rq. split; [reflexivity|]. split; [reflexivity|]. unfold sc_chain, w. cbn [snd]. destruct (query_chain sc_failing rq) as [[x|e]|]; [reflexivity|now left|reflexivity].
  - exact (e2e_made []).
  - exact (e2e_loaded []).
  - apply (e2e_arrives [] n); cbn [In]; tauto.
  - apply (e2e_plain n ltac:(cbn [In]; tauto) []).
  - apply (e2e_plain n ltac:(cbn [In]; tauto) []).
  - exact (e2e_only n (or_intror (or_introl eq_refl))).
  - vm_compute. reflexivity.
  - vm_compute. reflexivity.
Qed.

(** ** C167: reverse lookups *)
Section Reverse.
Context {U : Type}.
Variable w : world U.
Variable es : list host_entry.

(** A reverse lookup of the address [i] which passes the filter of types and the check for full names. *)
Definition reverse_arrives (req : request) (q : question) (n : str) (i : ip) (arr : request) : Prop :=
  m_question (req_msg req) = [q] /\ plain_name (q_name q) n /\ q_type q = 12%N /\ q_name q = reverse_addr i /\ valid_ip i /\
  let_through w q n /\ prepared w req arr /\ labels_ok w arr.

Lemma own_sent_any L c req q n arr r m code : serves w c -> made w es ->
  m_question (req_msg req) = [q] -> plain_name (q_name q) n -> let_through w q n -> prepared w req arr -> labels_ok w arr ->
  chain (map snd (rest w)) (w_upstream w) arr = Some (Ok r) -> rs_msg r = Some m ->
  m_id m = m_id (req_msg arr) -> m_response m = true -> m_question m = [q] -> m_ns m = [] -> m_extra m = [] ->
  to_extended_error_code (rs_type r) = code -> code <> 0%N ->
  exists mm m', handle_req L c req = [m'] /\ sent mm m' /\ own_answer w req q code (rs_reason r) (m_rcode m) (m_answer m) mm.
Proof.
  intros Hs Hm Hq Hn Hlt Hp Hlab Hc Hrm M1 M2 M3 M4 M5 Hcode Hne.
  destruct (front w req q n arr (Ok r) (proj1 Hm) Hq Hn Hlt Hp Hlab Hc) as [_ [F1 _]]; [intros x [= <-]; congruence|].
  destruct (explained_own w r m Hrm M5) as [y [Y1 [Y2 [Y3 Y4]]]]; [congruence|].
  rewrite Y1 in F1. destruct (server_sends w L c req y _ Hs ltac:(rewrite Hq; discriminate) F1 Y4) as [m' [S1 S2]].
  exists (set_extra (explanation w (to_extended_error_code (rs_type r)) (rs_reason r)) m), m'.
  split; [exact S1|]. split; [exact S2|]. unfold own_answer. rewrite Hcode.
  cbn [m_id m_response m_question m_rcode m_answer m_ns m_extra set_extra].
  split; [rewrite M1; eapply prepared_id; eauto|]. repeat split; assumption.
Qed.

(** An address which custom records give to names: the answer has exactly these names, and only the custom records are consulted. *)
Theorem C167_custom_reverse : forall L c req q n i arr, serves w c -> made w es -> reverse_arrives req q n i arr ->
  w_custom_rules w = [] -> distinct_cfg (w_custom w) -> (forall d j, has_address (w_custom w) d j -> valid_ip j) ->
  (exists d, has_address (w_custom w) d i) ->
  only_up_to CustomData (consulted (query_calls w req)) /\
  exists ans mm m', handle_req L c req = [m'] /\ sent mm m' /\ own_answer w req q 4 $"CUSTOM DNS" 0 ans mm /\
    (forall r, In r ans -> exists d, own_record q 12 (cu_ttl (w_custom w)) (DPTR (fqdn d)) r /\ has_address (w_custom w) d i) /\
    (forall d, has_address (w_custom w) d i -> exists r, In r ans /\ rr_data r = DPTR (fqdn d)).
Proof.
  intros L c req q n i arr Hs Hm [Hq [Hn [Ht [Hname [Hi [Hlt [Hp Hlab]]]]]]] Hru Hd Hv Hex. pose proof Hm as [_ [Ho [Hf _]]].
  destruct (front_calls w req q n arr Hq Hn Hlt Hp) as [Hqa [e F2]].
  assert (exists ans, (forall next, exec (custom_stage w arr) next = Some (Ok (custom_reply arr q ans)) /\ forwarded (custom_stage w arr) next = []) /\
    (forall r, In r ans -> exists d, own_record q 12 (cu_ttl (w_custom w)) (DPTR (fqdn d)) r /\ has_address (w_custom w) d i) /\
    (forall d, has_address (w_custom w) d i -> exists r, In r ans /\ rr_data r = DPTR (fqdn d))) as [ans [Hc [A1 A2]]].
  { pose proof (fun next => C36_reverse_partial (w_custom w) (w_new_id w) Crash (w_records w) (w_fuel w) arr q [] next i Hd Ho Hv Hi Hqa Ht Hname) as R.
    destruct (proj1 (R (fun _ => None)) Hex) as [ans [R1 [R2 [R3 R4]]]]. exists ans. split; [|split; [exact R3|exact R4]].
    intros next. destruct (proj1 (R next) Hex) as [ans' [R1' [R2' _]]]. change (custom_resolve _ _ _ _ _ arr) with (custom_stage w arr) in *.
    split; [|exact R2']. destruct (custom_stage w arr) as [r0| |rq k].
    - cbn [exec] in *. exact R1.
    - discriminate R1.
    - cbn [forwarded] in R2. discriminate R2. }
  assert (chain (map snd (rest w)) (w_upstream w) arr = Some (Ok (custom_reply arr q ans))) as Hr.
  { rewrite rest_eq. cbn [map snd]. rewrite chain_cons. unfold custom_in_chain. rewrite Hru. cbn [with_rewriter]. apply Hc. }
  split.
  - rewrite F2, rest_eq. cbn [calls]. unfold custom_in_chain. rewrite Hru. cbn [with_rewriter]. rewrite (proj2 (Hc _)). cbn [flat_map].
    apply only_up_to_intro. reflexivity.
  - destruct (own_sent_any L c req q n arr (custom_reply arr q ans) (own_reply arr q 0 ans) 4 Hs Hm Hq Hn Hlt Hp Hlab Hr eq_refl eq_refl eq_refl eq_refl eq_refl eq_refl eq_refl)
      as [mm [m' [B1 [B2 B3]]]]; [discriminate|].
    exists ans, mm, m'. split; [exact B1|]. split; [exact B2|]. split; [exact B3|]. split; [exact A1|exact A2].
Qed.

(** An address which no custom record has: the names of an entry of the hosts files in force for it are the answer; if there is none the
    query goes on to the lists. *)
Theorem C167_hosts_reverse : forall L c req q n i arr, serves w c -> made w es -> reverse_arrives req q n i arr ->
  w_custom_rules w = [] -> (forall d, ~ covers (w_custom w) q d) -> (forall d j, has_address (w_custom w) d j -> valid_ip j) ->
  (forall d, ~ has_address (w_custom w) d i) ->
  let d := fold_left split_add es empty_split in
  hf_enabled (w_hosts w) = true -> w_table w = d -> Permutation (w_hosts4 w) (fd_hosts (sd_v4 d)) -> Permutation (w_hosts6 w) (fd_hosts (sd_v6 d)) ->
  reverse_name i (q_name q) -> (hf_filter (w_hosts w) = true -> ~ loopback i) ->
  let in_force e := last_with (fun x => he_name x = he_name e /\ ((exists a b, he_ip x = IP4 a /\ i = IP4 b) \/ (exists a b, he_ip x = IP6 a /\ i = IP6 b))) es e in
  (exists e, in_force e /\ he_ip e = i /\ only_up_to HostsData (consulted (query_calls w req)) /\
     exists mm m', handle_req L c req = [m'] /\ sent mm m' /\
       own_answer w req q 4 $"HOSTS FILE" 0 (map (fun n =>
         {| rr_name := q_name q; rr_type := 12; rr_class := 1; rr_ttl := hf_ttl (w_hosts w); rr_data := DPTR (fqdn n) |}) (he_name e :: he_aliases e)) mm) \/
  ((forall e, in_force e -> he_ip e <> i) /\ In (SBlocking, arr) (query_calls w req)).
Proof.
  intros L c req q n i arr Hs Hm [Hq [Hn [Ht [Hname [Hi [Hlt [Hp Hlab]]]]]]] Hru Hcov Hv Hno d He Htab P4 P6 Hrn Hlo in_force. pose proof Hm as [_ [Ho [Hf _]]].
  destruct (front_calls w req q n arr Hq Hn Hlt Hp) as [Hqa [e0 F2]].
  assert (not_reverse (w_custom w) q) as Hnr.
  { right. intros d0 j Hj E. rewrite Hname in E. apply reverse_addr_inj in E; [subst; apply (Hno d0 Hj)|exact Hi|eapply Hv; eauto]. }
  assert (forall next, exec (custom_in_chain w arr) next = next arr /\ forwarded (custom_in_chain w arr) next = [arr]) as Hcu.
  { intros next. unfold custom_in_chain. rewrite Hru. cbn [with_rewriter].
    exact (C33_others_passed_on (w_custom w) (w_new_id w) Crash (w_records w) (w_fuel w) arr q [] next Ho Hf Hqa Hnr Hcov). }
  pose proof (fun next => C85_reverse_partial (w_hosts w) es (w_hosts4 w) (w_hosts6 w) arr q [] i next He P4 P6 Hqa Ht Hrn Hlo) as R. cbv zeta in R.
  fold d in R. rewrite <- Htab in R.
  assert (forall last, calls (rest w) last arr = (SCustom, arr) :: calls (skipn 8 (query_resolvers w)) last arr) as Hcalls.
  { intros last. rewrite rest_eq. rewrite (calls_next _ _ _ _ _ arr) by (intros; apply Hcu). reflexivity. }
  destruct (R (chain (map snd (skipn 9 (query_resolvers w))) (w_upstream w))) as [[e [A1 [A2 [A3 A4]]]]|[A1 [A3 A4]]].
  - left. exists e. split; [exact A1|]. split; [exact A2|]. split.
    + rewrite F2, Hcalls. cbn [query_resolvers skipn calls].
      match type of A3 with forwarded ?p _ = [] => assert (forall next, forwarded p next = []) as A3' end.
      { intros next. destruct (hosts_resolve _ _ _ _ arr) as [r0| |rq k]; [reflexivity|reflexivity|cbn [forwarded] in A3; discriminate A3]. }
      rewrite A3'. cbn [flat_map]. apply only_up_to_intro. reflexivity.
    + assert (chain (map snd (rest w)) (w_upstream w) arr = Some (Ok {| rs_msg := Some (own_reply arr q 0 (map (fun n =>
                     {| rr_name := q_name q; rr_type := 12; rr_class := 1; rr_ttl := hf_ttl (w_hosts w); rr_data := DPTR (fqdn n) |}) (he_name e :: he_aliases e)));
                   rs_reason := $"HOSTS FILE"; rs_type := HOSTSFILE |})) as Hr.
      { rewrite rest_eq. cbn [map snd]. rewrite chain_cons, (proj1 (Hcu _)), chain_cons. exact A4. }
      destruct (own_sent_any L c req q n arr _ _ 4 Hs Hm Hq Hn Hlt Hp Hlab Hr eq_refl eq_refl eq_refl eq_refl eq_refl eq_refl eq_refl)
        as [mm [m' [B1 [B2 B3]]]]; [discriminate|].
      exists mm, m'. split; [exact B1|]. split; [exact B2|exact B3].
  - right. split; [exact A1|]. rewrite F2, Hcalls. cbn [query_resolvers skipn]. apply in_or_app. right. right.
    cbn [calls]. match type of A3 with forwarded ?p _ = _ => assert (forall next, forwarded p next = [arr]) as A3' end.
    { intros next. destruct (R next) as [[e [B1 [B2 [B3 _]]]]|[_ [B3 _]]]; [elim (A1 e B1 B2)|exact B3]. }
    rewrite A3'. right. cbn [flat_map]. now left.
Qed.
End Reverse.
Print Assumptions C167_custom_reverse.
Print Assumptions C167_hosts_reverse.

(** The names of a custom address and of an address of the hosts file. *)
Definition sc_reverse : world nat :=
  let w := e2e_world e2e_up in let d := fold_left split_add hosts_ex_entries empty_split in
  {| w_filter := w_filter w; w_fqdn := w_fqdn w; w_ecs := w_ecs w; w_names := w_names w; w_ede := w_ede w; w_entry := w_entry w; w_metrics := w_metrics w;
     w_custom := w_custom w; w_new_id := w_new_id w; w_records := w_records w; w_fuel := w_fuel w;
     w_custom_rules := w_custom_rules w; w_custom_fallback := w_custom_fallback w; w_custom_iter := w_custom_iter w;
     w_hosts := w_hosts w; w_table := d; w_hosts4 := rev (fd_hosts (sd_v4 d)); w_hosts6 := fd_hosts (sd_v6 d);
     w_glob := w_glob w; w_cidr := w_cidr w; w_ip_string := w_ip_string w; w_allow := w_allow w; w_deny := w_deny w;
     w_blk := w_blk w; w_handler := w_handler w; w_blk_iter := w_blk_iter w; w_fqdn_ips := w_fqdn_ips w; w_disabled := w_disabled w;
     w_caching := w_caching w; w_look := w_look w; w_mapping := w_mapping w; w_ask := w_ask w;
     w_cond_rules := w_cond_rules w; w_cond_fallback := w_cond_fallback w; w_cond_iter := w_cond_iter w; w_sudn := w_sudn w;
     w_upstream := w_upstream w |}.
Definition sc_reverse_chain (rq : request) : msg * chain_result := (req_msg rq, result_of (query_chain sc_reverse rq)).
Definition sc_ptr (n : str) : request := cx_req n 12.
Definition sc_arr (n : str) : request := set_req_names [$"desktop"] (sc_ptr n).

Lemma sc_reverse_arrives n i : In (n, i) [($"3.178.168.192.in-addr.arpa.", IP4 [192;168;178;3]%N); ($"1.0.0.10.in-addr.arpa.", IP4 [10;0;0;1]%N)] ->
  reverse_arrives sc_reverse (sc_ptr n) {| q_name := n; q_type := 12; q_class := 1 |} (trim_suffix n $".") i (sc_arr n).
Proof.
  intros Hn. split; [cbn [In] in Hn; destruct Hn as [[= <- <-]|[[= <- <-]|[]]]; reflexivity|].
  split; [apply plain_name_iff; cbn [In] in Hn; destruct Hn as [[= <- <-]|[[= <- <-]|[]]]; reflexivity|].
  split; [reflexivity|]. split; [cbn [In] in Hn; destruct Hn as [[= <- <-]|[[= <- <-]|[]]]; vm_compute; reflexivity|].
  split; [cbn [In] in Hn; destruct Hn as [[= <- <-]|[[= <- <-]|[]]]; (split; [reflexivity|repeat constructor])|]. split.
  - split; [cbn; intuition discriminate|]. intros _. cbn [In] in Hn. destruct Hn as [[= <- <-]|[[= <- <-]|[]]]; cbn; tauto.
  - split.
    + exists (sc_ptr n). split; [|reflexivity]. intros next. cbn [In] in Hn. destruct Hn as [[= <- <-]|[[= <- <-]|[]]]; cbn; destruct (next _); reflexivity.
    + intros _. constructor; [|constructor]. apply utf8_string_iff. reflexivity.
Qed.

Lemma sc_addresses d j : has_address (w_custom sc_reverse) d j -> j = IP4 [192;168;178;3]%N.
Proof.
  intros [es [e [A [B C]]]]. apply (custom_records_iff _ _ _ cx_distinct) in A. change (w_custom sc_reverse) with cx_custom in A.
  change (custom_records cx_custom) with
    [($"printer.lan", [{| rr_name := []; rr_type := 0; rr_class := 1; rr_ttl := 3600; rr_data := DA (IP4 [192;168;178;3]%N) |}]);
     ($"out.lan", [{| rr_name := []; rr_type := 0; rr_class := 1; rr_ttl := 3600; rr_data := DCNAME $"example.com." |}])] in A.
  cbn [mget] in A. destruct (str_eqb d $"printer.lan"); [|destruct (str_eqb d $"out.lan"); [|discriminate A]]; injection A as <-; destruct B as [<-|[]]; cbn [rr_data] in C.
  - destruct C as [C|C]; [now injection C|discriminate C].
  - destruct C as [C|C]; discriminate C.
Qed.

Example C167_case : let w := sc_reverse in
  let q1 := {| q_name := $"3.178.168.192.in-addr.arpa."; q_type := 12; q_class := 1 |} in let q2 := {| q_name := $"1.0.0.10.in-addr.arpa."; q_type := 12; q_class := 1 |} in
  let i1 := IP4 [192;168;178;3]%N in let i2 := IP4 [10;0;0;1]%N in
  serves w sc_reverse_chain /\ made w hosts_ex_entries /\ w_custom_rules w = [] /\ distinct_cfg (w_custom w) /\
  (forall d j, has_address (w_custom w) d j -> valid_ip j) /\
  reverse_arrives w (sc_ptr (q_name q1)) q1 $"3.178.168.192.in-addr.arpa" i1 (sc_arr (q_name q1)) /\ has_address (w_custom w) $"printer.lan" i1 /\
  map (fun m => (m_id m, m_rcode m, map rr_data (m_answer m))) (handle_req e2e_lengths sc_reverse_chain (sc_ptr (q_name q1))) = [(77%N, 0%N, [DPTR $"printer.lan."])] /\
  reverse_arrives w (sc_ptr (q_name q2)) q2 $"1.0.0.10.in-addr.arpa" i2 (sc_arr (q_name q2)) /\ (forall d, ~ has_address (w_custom w) d i2) /\
  (forall d, ~ covers (w_custom w) q2 d) /\ hf_enabled (w_hosts w) = true /\
  let d := fold_left split_add hosts_ex_entries empty_split in
  Permutation (w_hosts4 w) (fd_hosts (sd_v4 d)) /\ Permutation (w_hosts6 w) (fd_hosts (sd_v6 d)) /\ reverse_name i2 (q_name q2) /\ ~ loopback i2 /\
  map (fun m => (m_id m, m_rcode m, map rr_data (m_answer m))) (handle_req e2e_lengths sc_reverse_chain (sc_ptr (q_name q2))) =
    [(77%N, 0%N, [DPTR $"nas.lan."; DPTR $"nas."])].
Proof.
  intros w q1 q2 i1 i2. split; [intros rq; reflexivity|]. split; [exact (e2e_made e2e_up)|]. split; [reflexivity|]. split; [exact cx_distinct|].
  split; [intros d j H; apply sc_addresses in H as ->; split; [reflexivity|repeat constructor]|].
  split; [apply (sc_reverse_arrives $"3.178.168.192.in-addr.arpa."); now left|]. split.
  { do 2 eexists. split; [apply custom_records_sound; vm_compute; reflexivity|]. split; [left; reflexivity|]. left. reflexivity. }
  split; [vm_compute; reflexivity|]. split; [apply (sc_reverse_arrives $"1.0.0.10.in-addr.arpa."); right; now left|].
  split; [intros d H; apply sc_addresses in H; discriminate H|]. split.
  { pose proof (lookup_decides cx_custom q2) as L. cbv zeta in L. vm_compute in L. exact L. }
  split; [reflexivity|]. intros d. split; [apply Permutation_sym, Permutation_rev|]. split; [apply Permutation_refl|]. split; [|split].
  - assert (parse_ipv4_arpa $"1.0.0.10.in-addr.arpa." = Some (IP4 [10;0;0;1]%N)) as H by (vm_compute; reflexivity).
    apply parse_ipv4_iff in H as [b [[= <-] H]]; [exact H|]. reflexivity.
  - intros [[r A]|A]; discriminate A.
  - vm_compute. reflexivity.
Qed.
