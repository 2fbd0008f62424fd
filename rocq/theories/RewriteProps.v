(** Rewritten names seen at the server: the conditional upstreams are asked for the rewritten name, the client gets the answer for its own
    name (C168), and so with custom records (C169). *)
From Coq Require Import String Ascii List Arith Bool NArith ZArith Lia Permutation.
From Verif Require Import Str StrFacts StringCache StringCacheSpec StringCacheProofs StringCacheProps
  Parsers ParsersSpec ParsersProofs ParsersProps Target Download DownloadSpec DownloadProps Dns Resolver ResolverFacts
  CachingSpec CachingProofs ExpCache Caching
  Blocking BlockingSpec BlockingProofs BlockingProps Custom CustomSpec CustomProofs CustomProps Conditional ConditionalSpec ConditionalProps
  Rewriter RewriterSpec RewriterProps EdnsProofs EdnsProps Sudn SudnSpec SudnProps Ecs ClientNames QueryLog Hosts HostsSpec HostsProofs HostsProps
  Chain ChainSpec ChainProofs ChainProps RedisSpec Utf8Facts SafeSpec SafeProps Metrics MetricsProps Server ServerSpec ServerProps
  EndToEnd EndToEndSpec EndToEndLists EndToEndProofs EndToEndProps.
Import ListNotations.

(** Exactly one rule is about the name [n]; it makes [n'] of it. *)
Definition renamed (rules : list (str * str)) (n n' : str) : Prop :=
  exists p k v, RewriterSpec.applies rules n p k v /\ v <> k /\ n' = p ++ "."%char :: v /\
    forall p' k' v', RewriterSpec.applies rules n p' k' v' -> p' = p /\ k' = k /\ v' = v.

(** The same question for another name. *)
Definition for_name (q : question) (n' : str) : question := {| q_name := fqdn n'; q_type := q_type q; q_class := q_class q |}.
Definition ask_for (arr : request) (q : question) (n' : str) : request := set_req_msg (set_question [for_name q n'] (req_msg arr)) arr.

(** A record under the name which the client knows. *)
Definition under_own_name (q : question) (n' : str) (r r' : rr) : Prop :=
  (rr_name r = fqdn n' -> rr_name r' = q_name q) /\ (rr_name r <> fqdn n' -> rr_name r' = rr_name r) /\
  rr_type r' = rr_type r /\ rr_class r' = rr_class r /\ rr_ttl r' = rr_ttl r /\ rr_data r' = rr_data r.

Lemma renamed_request rules arr q n n' rq : m_question (req_msg arr) = [q] -> plain_name (q_name q) n -> renamed rules n n' ->
  rewritten_request rules arr rq -> rq = ask_for arr q n'.
Proof.
  intros Hq Hn [p [k [v [Ha [Hne [-> Hone]]]]]] [H1 H2]. rewrite Hq in H1. inversion H1 as [|q0 q' l l' Hqq Hl E1 E2]; subst. inversion Hl; subst.
  rewrite <- E2 in H2. rewrite H2. unfold ask_for. f_equal. f_equal. f_equal.
  destruct Hqq as [n0 [Hn0 Hc]]. rewrite (plain_fun _ _ _ Hn0 Hn) in Hc. destruct Hc as [[p' [k' [v' [A [B ->]]]]]|[[A|[p' [k' A]]] _]].
  - destruct (Hone p' k' v' A) as [-> [-> ->]]. reflexivity.
  - elim (A p k v Ha).
  - destruct (Hone p' k' k' A) as [_ [-> <-]]. congruence.
Qed.

Lemma restored_one arr q n' x y : m_question (req_msg arr) = [q] -> restored arr (ask_for arr q n') x y ->
  (x = fqdn n' -> y = q_name q) /\ (x <> fqdn n' -> y = x).
Proof.
  intros Hq H. unfold restored in H. cbn [m_question req_msg ask_for set_req_msg set_question] in H. rewrite Hq in H.
  assert (forall q1 q2, (exists i, nth_error [q] i = Some q1 /\ nth_error [for_name q n'] i = Some q2) -> q1 = q /\ q2 = for_name q n') as Hp.
  { intros q1 q2 [[|[|i]] [A B]]; cbn in A, B; try discriminate. injection A as <-. injection B as <-. now split. }
  destruct H as [[q1 [q2 [A [B C]]]]|[A ->]].
  - destruct (Hp q1 q2 A) as [-> ->]. cbn [q_name for_name] in B. split; intros D; [exact C|congruence].
  - split; [|reflexivity]. intros ->. elim (A q (for_name q n')); [exists 0; now split|reflexivity].
Qed.

(** What an inner resolver answers to the other name, under the name of the client. *)
Lemma rewriter_done rules fallback iter inner arr q n n' x m lft : m_question (req_msg arr) = [q] -> plain_name (q_name q) n ->
  distinct_rules rules -> iterates rules iter -> renamed rules n n' ->
  inner (ask_for arr q n') = Some (Ok x, lft) -> rs_msg x = Some m -> m_question m = [for_name q n'] -> (fallback = false \/ m_answer m <> []) ->
  exists mq, rewriter_resolve fallback iter inner arr = Done (Ok {| rs_msg := Some mq; rs_reason := rs_reason x; rs_type := rs_type x |}) /\
    mq = set_question [q] (set_answer (m_answer mq) m) /\ Forall2 (under_own_name q n') (m_answer m) (m_answer mq).
Proof.
  intros Hq Hn Hd Hi Hr Hin Hxm Hqm Hfb.
  destruct (C38_invisible rules iter arr Hd Hi) as [rq [R1 R2]].
  destruct (C39_fallback_exact rules iter arr Hd Hi) as [rq' [R1' R3]].
  rewrite (renamed_request rules arr q n n' rq Hq Hn Hr R1) in *. rewrite (renamed_request rules arr q n n' rq' Hq Hn Hr R1') in *. clear R1 R1' rq rq'.
  set (P := rewriter_resolve fallback iter inner arr).
  destruct (R2 fallback inner noop) as [_ R4]. destruct (R4 _ _ Hin) as [R5 _].
  destruct (R5 x m eq_refl Hxm Hfb) as [mq [Hres Hex]]. fold P in Hex.
  pose proof (R3 fallback inner noop _ _ Hin) as Hf. cbv zeta in Hf. fold P in Hf. destruct Hf as [Hf _].
  assert (forwarded P noop = []) as Hf0.
  { destruct (forwarded P noop) as [|r0 l0] eqn:E; [reflexivity|]. exfalso. destruct (proj1 Hf ltac:(discriminate)) as [[r [A B]]|[A [[e B]|[r [m1 [B [C D]]]]]]].
    - injection A as <-. congruence.
    - discriminate B.
    - injection B as <-. rewrite Hxm in C. injection C as <-. destruct Hfb; congruence. }
  exists mq. split; [|split].
  - destruct P as [r0| |r0 k0]; [|discriminate Hex|cbn in Hf0; discriminate Hf0]. cbn [exec] in Hex. now injection Hex as ->.
  - destruct Hres as [A [B _]]. rewrite A at 1. f_equal. rewrite Hqm in B. inversion B as [|a b l l' Hab Hl E1 E2]; subst. inversion Hl; subst. f_equal.
    destruct Hab as [Hab1 [Hab2 Hab3]]. apply (restored_one arr q n' _ _ Hq) in Hab1 as [Hab1 _]. specialize (Hab1 eq_refl).
    destruct b, q. cbn in *. congruence.
  - destruct Hres as [_ [_ B]]. clear -B Hq. induction B as [|r r' l l' [A1 A2] B IH]; constructor; [|exact IH].
    apply (restored_one arr q n' _ _ Hq) in A1 as [A1 A3]. split; [exact A1|]. split; [exact A3|exact A2].
Qed.

Section Lists.
Variable compile : str -> option (str -> bool).
Variable parse_ip to_ascii : str -> option str.
Variable compiles : str -> bool.
Variable file : str -> option (list str * scan_end).
Context {U : Type}.
Variable w : world U.
Variable es : list host_entry.
Variable net_a net_d : str -> nat -> answer.
Variable attempts_a attempts_d : N.

Notation wants_allow' := (wants_allow compile parse_ip to_ascii compiles file w net_a attempts_a).
Notation wants_deny' := (wants_deny compile parse_ip to_ascii compiles file w net_d attempts_d).
Notation loaded := (lists_loaded compile parse_ip to_ascii compiles file w net_a net_d attempts_a attempts_d).
Notation clean' := (clean compile parse_ip to_ascii compiles file w net_a net_d attempts_a attempts_d).

(** The conditional upstreams with the rewriter in front of them. *)
Lemma rewritten_done arr q n n' u x m : m_question (req_msg arr) = [q] -> plain_name (q_name q) n ->
  distinct_rules (w_cond_rules w) -> iterates (w_cond_rules w) (w_cond_iter w) -> renamed (w_cond_rules w) n n' -> plain_name (fqdn n') n' ->
  distinct_zones (w_mapping w) -> responsible (w_mapping w) n' u -> w_ask w u (ask_for arr q n') = Some (Ok x) -> rs_msg x = Some m ->
  m_question m = [for_name q n'] -> (w_cond_fallback w = false \/ m_answer m <> []) ->
  exists y mq, rewriter_resolve (w_cond_fallback w) (w_cond_iter w) (inner_conditional (w_mapping w) (w_ask w)) arr = Done (Ok y) /\
    rs_msg y = Some mq /\ rs_type y = CONDITIONAL /\ mq = set_question [q] (set_answer (m_answer mq) m) /\
    Forall2 (under_own_name q n') (m_answer m) (m_answer mq).
Proof.
  intros Hq Hn Hd Hi Hr Hn' Hz Hre Hask Hxm Hqm Hfb. set (rq := ask_for arr q n') in *.
  destruct (C37_most_specific_zone U (w_mapping w) (w_ask w) noop rq (for_name q n') [] n' Hz eq_refl Hn') as [[u' [arr' [Hu' [Hnorm [Hdest [Hok _]]]]]]|[Hno _]]; [|elim (Hno u Hre)].
  rewrite (C37_responsible_unique U (w_mapping w) n' u' u Hz Hu' Hre) in *.
  assert (arr' = rq) as ->.
  { destruct Hnorm as [q0 [qs [E ->]]]. cbn in E. injection E as <- <-. unfold rq, ask_for, for_name. cbn [q_type q_class req_msg set_req_msg]. destruct arr as [am]; destruct am; reflexivity. }
  destruct (Hok x Hask) as [x' [Hx' [Hkind [m0 [mz [Hm0 [Hmz [Hset' Hqs]]]]]]]]; [congruence|].
  rewrite Hxm in Hm0. injection Hm0 as <-. rewrite Hqm in Hqs.
  assert (mz = m) as -> by (rewrite Hset', Hqs; cbn [q_type q_class for_name]; fold (for_name q n'); rewrite <- Hqm; apply set_question_same).
  assert (exists lft, inner_conditional (w_mapping w) (w_ask w) rq = Some (Ok x', lft)) as [lft Hin].
  { unfold inner_conditional. rewrite Hx'. eexists. reflexivity. }
  destruct (rewriter_done (w_cond_rules w) (w_cond_fallback w) (w_cond_iter w) _ arr q n n' x' m lft Hq Hn Hd Hi Hr Hin Hmz Hqm Hfb) as [mq [A [B C]]].
  eexists. exists mq. split; [exact A|]. split; [reflexivity|]. split; [exact Hkind|]. now split.
Qed.

(** ** C168: a query for a name which a rule of the conditional upstreams makes another name of. The upstreams responsible for the other name
    are asked for it, the lists are asked for the name of the client, and the client gets the answer under its own name. *)
Theorem C168_rewritten_zone_answered : forall L c req q n n' arr u x m, serves w c -> made w es -> loaded -> arrives w req q n arr ->
  not_custom w q n -> not_hosts w es q n -> sane_cfg (w_caching w) ->
  (caching_enabled (w_caching w) = true -> is_request_cacheable arr = true -> w_look w arr 0 = None) ->
  distinct_rules (w_cond_rules w) -> iterates (w_cond_rules w) (w_cond_iter w) -> renamed (w_cond_rules w) n n' -> plain_name (fqdn n') n' ->
  distinct_zones (w_mapping w) -> responsible (w_mapping w) n' u ->
  w_ask w u (ask_for arr q n') = Some (Ok x) -> rs_msg x = Some m ->
  m_question m = [for_name q n'] -> (w_cond_fallback w = false \/ m_answer m <> []) ->
  (exists g, in_force w arr g /\ wants_allow' g n) \/
  (~ only_allowed w arr /\ (forall g, in_force w arr g -> ~ wants_deny' g n) /\ clean' arr (m_answer m)) ->
  only_up_to CondUpstream (consulted (query_calls w req)) /\
  exists ans mm m', handle_req L c req = [m'] /\ sent mm m' /\ m_id mm = m_id m /\ m_rcode mm = m_rcode m /\ m_ns mm = m_ns m /\
    m_question mm = [q] /\ Forall2 (under_own_name q n') (m_answer m) ans /\
    (m_answer mm = ans \/
     (caching_enabled (w_caching w) = true /\ is_request_cacheable arr = true /\ clamped_answer (w_caching w) ans (m_answer mm))).
Proof.
  intros L c req q n n' arr u x m Hs Hm Hl Har Hnc Hnh Hsane Hca Hd Hi Hr Hn' Hz Hre Hask Hxm Hqm Hfb Hlist. pose proof Har as [Hq [Hn [Ht [Hlt [Hp Hlab]]]]].
  destruct (front_calls w req q n arr Hq Hn Hlt Hp) as [Hqa [e F2]]. pose proof (loaded_setting _ _ _ _ _ _ _ _ _ _ Hl) as Hset.
  destruct (to_lists w es arr q n (w_upstream w) Hm Hqa Hn Ht Hnc Hnh) as [T1 T2].
  destruct (rewritten_done arr q n n' u x m Hqa Hn Hd Hi Hr Hn' Hz Hre Hask Hxm Hqm Hfb) as [x' [mq [Hcond [Hmq [Hkind [Hmm Hall]]]]]].
  assert (forall P Q : request -> prog, with_rewriter (w_cond_rules w) P Q = P) as Hwr.
  { intros P Q. unfold with_rewriter. destruct (w_cond_rules w) eqn:E; [|reflexivity]. exfalso. destruct Hr as [p [k [v [[_ [k0 [v0 [A _]]]] _]]]]. exact A. }
  assert (m_id mq = m_id m /\ m_rcode mq = m_rcode m /\ m_ns mq = m_ns m /\ m_question mq = [q]) as [Qi [Qr [Qn Qq]]] by (rewrite Hmm; repeat split).
  assert (exists a, (a = m_answer mq \/ (caching_enabled (w_caching w) = true /\ is_request_cacheable arr = true /\ a = fst (adjust_ttls (w_caching w) (m_answer mq)))) /\
   chain (map snd (skipn 10 (query_resolvers w))) (w_upstream w) arr =
     Some (Ok {| rs_msg := Some (set_answer a mq); rs_reason := rs_reason x'; rs_type := CONDITIONAL |})) as [a [Ha A3]].
  { cbn [query_resolvers skipn]. rewrite Hwr. cbn [map snd]. rewrite chain_cons. unfold caching_resolve.
    assert (Some (Ok x') = Some (Ok {| rs_msg := Some (set_answer (m_answer mq) mq); rs_reason := rs_reason x'; rs_type := CONDITIONAL |})) as Hx0.
    { rewrite set_answer_same. destruct x' as [xm xr xt]. cbn in *. now rewrite Hmq, Hkind. }
    destruct (caching_enabled (w_caching w)); [destruct (is_request_cacheable arr)|]; cbn [negb orb].
    - specialize (Hca eq_refl eq_refl). rewrite Hqa. cbn [caching_loop]. rewrite Hca. cbn [exec]. rewrite chain_cons, Hcond. cbn [exec]. rewrite Hmq. cbn [exec].
      eexists. split; [right; repeat split; reflexivity|]. now rewrite Hkind.
    - rewrite exec_pass, chain_cons, Hcond. cbn [exec]. eexists. split; [now left|exact Hx0].
    - rewrite exec_pass, chain_cons, Hcond. cbn [exec]. eexists. split; [now left|exact Hx0]. }
  assert (~ blocked_name (w_glob w) (w_cidr w) (w_ip_string w) (w_blk w) (w_fqdn_ips w) (w_disabled w) wants_allow' wants_deny' arr n) as Hb.
  { intros [B1 B2]. destruct Hlist as [[g [C1 C2]]|[C1 [C2 _]]]; [apply B1; exists g; now split|]. destruct B2 as [B2|[g [B2 B3]]]; [exact (C1 B2)|exact (C2 g B2 B3)]. }
  assert ((exists g, in_force w arr g /\ wants_allow' g n) \/
    (~ only_allowed w arr /\ (forall g, in_force w arr g -> ~ wants_deny' g n) /\ clean' arr (m_answer mq))) as Hlist'.
  { destruct Hlist as [A|[A [B C]]]; [now left|right]. split; [exact A|]. split; [exact B|]. intros r k0 x0 g Hin Hrf Hne Hg Hdn.
    assert (exists r0, In r0 (m_answer m) /\ rr_data r = rr_data r0) as [r0 [R1 R2]].
    { clear -Hall Hin. induction Hall as [|r1 r2 l1 l2 H12 Hall IH]; [destruct Hin|]. destruct Hin as [<-|Hin]; [exists r1; split; [now left|apply H12]|].
      destruct (IH Hin) as [r0 [A B]]. exists r0. split; [now right|exact B]. }
    refine (C r0 k0 x0 g R1 _ Hne Hg Hdn). inversion Hrf; subst; [eapply refers_a|eapply refers_aaaa|eapply refers_cname]; try (rewrite <- R2; eassumption); assumption. }
  pose proof (not_listed_exec _ _ _ _ _ w _ _ _ _ arr q n a mq mq _ _ Hset Hqa Hn Hb Ha A3 Hlist') as Y1. rewrite <- T1 in Y1.
  set (y := {| rs_msg := Some (set_answer a mq); rs_reason := rs_reason x'; rs_type := CONDITIONAL |}) in *.
  split.
  - rewrite F2, T2.
    assert (calls (skipn 9 (query_resolvers w)) (w_upstream w) arr = (SBlocking, arr) :: calls (skipn 10 (query_resolvers w)) (w_upstream w) arr) as ->.
    { cbn [query_resolvers skipn]. apply calls_next. intros next. now apply (not_listed_forwards compile parse_ip to_ascii compiles file w net_a net_d attempts_a attempts_d arr q n). }
    cbn [query_resolvers skipn]. rewrite Hwr.
    rewrite (calls_next _ _ _ _ _ arr).
    + cbn [calls]. rewrite Hcond. cbn [forwarded flat_map]. apply only_up_to_intro. reflexivity.
    + intros next. unfold caching_resolve. destruct (caching_enabled (w_caching w)); [destruct (is_request_cacheable arr)|]; cbn [negb orb]; try apply forwarded_pass.
      specialize (Hca eq_refl eq_refl). rewrite Hqa. cbn [caching_loop]. rewrite Hca. cbn [forwarded]. destruct (next arr) as [[z|z]|]; auto. destruct (rs_msg z); reflexivity.
  - destruct (front w req q n arr (Ok y) (proj1 Hm) Hq Hn Hlt Hp Hlab Y1) as [_ [F1 _]]; [intros z [= <-]; discriminate|].
    assert (exists z mm, explained w (Ok y) = Ok z /\ rs_msg z = Some mm /\ exists ex, mm = set_extra ex (set_answer a mq)) as [z [mm [He [Hz1 [ex Hz2]]]]].
    { unfold explained. destruct (w_ede w).
      - do 2 eexists. split; [reflexivity|]. split; [reflexivity|]. unfold set_edns0_option, update_opt. destruct (is_edns0 _); eexists; reflexivity.
      - exists y, (set_answer a mq). split; [reflexivity|]. split; [reflexivity|]. exists (m_extra mq). now destruct mq. }
    rewrite He in F1. destruct (server_sends w L c req z mm Hs ltac:(rewrite Hq; discriminate) F1 Hz1) as [m' [S1 S2]].
    exists (m_answer mq), mm, m'. split; [exact S1|]. split; [exact S2|]. rewrite Hz2. cbn [m_id m_rcode m_ns m_question m_answer set_extra set_answer].
    split; [exact Qi|]. split; [exact Qr|]. split; [exact Qn|]. split; [exact Qq|]. split; [exact Hall|].
    destruct Ha as [->|[B1 [B2 ->]]]; [now left|right]. split; [exact B1|]. split; [exact B2|]. now apply adjust_ttls_answer.
Qed.

(** The upstreams of the zone of the other name do not help: there is no such zone, or they fail or have no records and the query may be asked
    again under its own name. *)
Definition no_help (arr : request) (q : question) (n' : str) : Prop :=
  (forall u, ~ responsible (w_mapping w) n' u) \/
  (w_cond_fallback w = true /\ exists u, responsible (w_mapping w) n' u /\
     ((exists e, w_ask w u (ask_for arr q n') = Some (Err e)) \/
      (exists x m, w_ask w u (ask_for arr q n') = Some (Ok x) /\ rs_msg x = Some m /\ m_answer m = []))).

Lemma rewritten_passed arr q n n' : m_question (req_msg arr) = [q] -> plain_name (q_name q) n ->
  distinct_rules (w_cond_rules w) -> iterates (w_cond_rules w) (w_cond_iter w) -> renamed (w_cond_rules w) n n' -> plain_name (fqdn n') n' ->
  distinct_zones (w_mapping w) -> no_help arr q n' -> forall next,
  let P := rewriter_resolve (w_cond_fallback w) (w_cond_iter w) (inner_conditional (w_mapping w) (w_ask w)) arr in
  exec P next = next arr /\ forwarded P next = [arr].
Proof.
  intros Hq Hn Hd Hi Hr Hn' Hz Hno next P.
  destruct (C38_later_request_partial (w_cond_rules w) (w_cond_iter w) arr Hd Hi) as [rq [R1 R2]].
  destruct (C39_fallback_exact (w_cond_rules w) (w_cond_iter w) arr Hd Hi) as [rq' [R1' R3]].
  rewrite (renamed_request (w_cond_rules w) arr q n n' rq Hq Hn Hr R1) in *. rewrite (renamed_request (w_cond_rules w) arr q n n' rq' Hq Hn Hr R1') in *. clear R1 R1' rq rq'.
  set (rq := ask_for arr q n') in *.
  assert (m_question (req_msg rq) <> m_question (req_msg arr)) as Hdiff.
  { unfold rq. cbn [m_question req_msg ask_for set_req_msg set_question]. rewrite Hq. intros E. apply (f_equal (map q_name)) in E. cbn [map q_name for_name] in E.
    assert (fqdn n' = q_name q) as E' by congruence. rewrite <- E' in Hn. pose proof (plain_fun _ _ _ Hn Hn') as ->.
    destruct Hr as [p [k [v [[A _] [B [C _]]]]]]. rewrite A in C. apply app_inv_head in C. congruence. }
  assert (exists res lft, inner_conditional (w_mapping w) (w_ask w) rq = Some (res, lft) /\ (silent res \/ (w_cond_fallback w = true /\ unsatisfying res))) as [res [lft [Hin Hres]]].
  { destruct (C37_most_specific_zone U (w_mapping w) (w_ask w) noop rq (for_name q n') [] n' Hz eq_refl Hn') as [[u' [arr' [Hu' [Hnorm [Hdest [Hok Herr]]]]]]|[Hnone [_ E]]].
    - destruct Hno as [Hno|[Hfb [u [Hu Hask]]]]; [elim (Hno u' Hu')|]. rewrite (C37_responsible_unique U (w_mapping w) n' u' u Hz Hu' Hu) in *.
      assert (arr' = rq) as ->.
      { destruct Hnorm as [q0 [qs [E ->]]]. cbn in E. injection E as <- <-. unfold rq, ask_for, for_name. cbn [q_type q_class req_msg set_req_msg]. destruct arr as [am]; destruct am; reflexivity. }
      unfold inner_conditional. destruct Hask as [[e He]|[x [m [Hx [Hm Ha]]]]].
      + rewrite (Herr e He). do 2 eexists. split; [reflexivity|]. right. split; [exact Hfb|]. left. now exists e.
      + destruct (Hok x Hx) as [x' [Hx' [_ [m0 [mz [A [B [C _]]]]]]]]; [congruence|]. rewrite Hx'. do 2 eexists. split; [reflexivity|]. right. split; [exact Hfb|].
        right. exists x', mz. split; [reflexivity|]. split; [exact B|]. rewrite C. rewrite Hm in A. injection A as <-. exact Ha.
    - unfold inner_conditional. rewrite E. do 2 eexists. split; [reflexivity|]. left. exists no_response. now split. }
  pose proof (R3 (w_cond_fallback w) (inner_conditional (w_mapping w) (w_ask w)) next _ _ Hin) as Hf. cbv zeta in Hf. fold P in Hf. destruct Hf as [Hf1 Hf2].
  destruct (Hf2 (proj2 Hf1 Hres)) as [r0 [A B]].
  assert (r0 = arr) as ->; [|split; [exact B|exact A]].
  refine (R2 (w_cond_fallback w) (inner_conditional (w_mapping w) (w_ask w)) next _ _ Hin (or_intror Hdiff) r0 _). fold P. rewrite A. now left.
Qed.

(** ** C168: if this does not help, the query goes to the upstream tree under the name of the client, and the client gets the answer of it. *)
Theorem C168_passed_on : forall L c req q n n' arr x m, serves w c -> made w es -> loaded -> arrives w req q n arr ->
  not_custom w q n -> not_hosts w es q n -> sane_cfg (w_caching w) ->
  (caching_enabled (w_caching w) = true -> is_request_cacheable arr = true -> w_look w arr 0 = None) ->
  distinct_rules (w_cond_rules w) -> iterates (w_cond_rules w) (w_cond_iter w) -> renamed (w_cond_rules w) n n' -> plain_name (fqdn n') n' ->
  distinct_zones (w_mapping w) -> no_help arr q n' ->
  (su_enable (w_sudn w) = true -> lowered (q_name q) (q_name q) /\ forall m, ~ local_answer (su_appendix_g (w_sudn w)) arr q m) ->
  w_upstream w arr = Some (Ok x) -> rs_type x = RESOLVED -> rs_msg x = Some m ->
  (exists g, in_force w arr g /\ wants_allow' g n) \/
  (~ only_allowed w arr /\ (forall g, in_force w arr g -> ~ wants_deny' g n) /\ clean' arr (m_answer m)) ->
  filter (fun sr => match fst sr with SUpstreamTree => true | _ => false end) (query_calls w req) = [(SUpstreamTree, arr)] /\
  exists a m', handle_req L c req = [m'] /\ sent (set_answer a m) m' /\
    (a = m_answer m \/ (caching_enabled (w_caching w) = true /\ is_request_cacheable arr = true /\ clamped_answer (w_caching w) (m_answer m) a)).
Proof.
  intros L c req q n n' arr x m Hs Hm Hl Har Hnc Hnh Hsane Hca Hd Hi Hr Hn' Hz Hno Hsu Hu Hty Hxm Hlist. pose proof Har as [Hq [Hn [Ht [Hlt [Hp Hlab]]]]].
  destruct (front_calls w req q n arr Hq Hn Hlt Hp) as [Hqa [e F2]]. pose proof (loaded_setting _ _ _ _ _ _ _ _ _ _ Hl) as Hset.
  destruct (to_lists w es arr q n (w_upstream w) Hm Hqa Hn Ht Hnc Hnh) as [T1 T2].
  assert (forall next, exec (sudn_resolve (w_sudn w) arr) next = next arr /\ forwarded (sudn_resolve (w_sudn w) arr) next = [arr]) as Hsd.
  { intros next. destruct (su_enable (w_sudn w)) eqn:Ee; [|now apply C40_disabled]. destruct (Hsu eq_refl) as [Hlow Hnl].
    destruct (C40_special_use_partial (w_sudn w) arr q [] next Ee Hqa Hlow) as [[m0 [A _]]|[_ A]]; [elim (Hnl m0 A)|exact A]. }
  assert (forall P Q : request -> prog, with_rewriter (w_cond_rules w) P Q = P) as Hwr.
  { intros P Q. unfold with_rewriter. destruct (w_cond_rules w) eqn:E; [|reflexivity]. exfalso. destruct Hr as [p [k [v [[_ [k0 [v0 [A _]]]] _]]]]. exact A. }
  pose proof (rewritten_passed arr q n n' Hqa Hn Hd Hi Hr Hn' Hz Hno) as Hc. cbv zeta in Hc.
  assert (exists a, (a = m_answer m \/ (caching_enabled (w_caching w) = true /\ is_request_cacheable arr = true /\ a = fst (adjust_ttls (w_caching w) (m_answer m)))) /\
   chain (map snd (skipn 10 (query_resolvers w))) (w_upstream w) arr =
     Some (Ok {| rs_msg := Some (set_answer a m); rs_reason := rs_reason x; rs_type := rs_type x |})) as [a [Ha A3]].
  { cbn [query_resolvers skipn]. rewrite Hwr. cbn [map snd]. rewrite chain_cons. unfold caching_resolve.
    match goal with |- context [chain ?l (w_upstream w)] => assert (chain l (w_upstream w) arr = w_upstream w arr) as Hrest end.
    { rewrite chain_cons, (proj1 (Hc _)), chain_cons, (proj1 (Hsd _)). reflexivity. }
    destruct (caching_enabled (w_caching w)); [destruct (is_request_cacheable arr)|]; cbn [negb orb].
    - specialize (Hca eq_refl eq_refl). rewrite Hqa. cbn [caching_loop]. rewrite Hca. cbn [exec]. rewrite Hrest, Hu, Hxm. cbn [exec].
      eexists. split; [right; repeat split; reflexivity|reflexivity].
    - rewrite exec_pass, Hrest, Hu. exists (m_answer m). split; [now left|]. rewrite set_answer_same. destruct x as [xm xr xt]. cbn in *. now rewrite Hxm.
    - rewrite exec_pass, Hrest, Hu. exists (m_answer m). split; [now left|]. rewrite set_answer_same. destruct x as [xm xr xt]. cbn in *. now rewrite Hxm. }
  assert (~ blocked_name (w_glob w) (w_cidr w) (w_ip_string w) (w_blk w) (w_fqdn_ips w) (w_disabled w) wants_allow' wants_deny' arr n) as Hb.
  { intros [B1 B2]. destruct Hlist as [[g [C1 C2]]|[C1 [C2 _]]]; [apply B1; exists g; now split|]. destruct B2 as [B2|[g [B2 B3]]]; [exact (C1 B2)|exact (C2 g B2 B3)]. }
  pose proof (not_listed_exec _ _ _ _ _ w _ _ _ _ arr q n a m m _ _ Hset Hqa Hn Hb Ha A3 Hlist) as Y1. rewrite <- T1 in Y1.
  set (y := {| rs_msg := Some (set_answer a m); rs_reason := rs_reason x; rs_type := rs_type x |}) in *.
  split.
  - rewrite F2, T2.
    assert (calls (skipn 9 (query_resolvers w)) (w_upstream w) arr = (SBlocking, arr) :: calls (skipn 10 (query_resolvers w)) (w_upstream w) arr) as ->.
    { cbn [query_resolvers skipn]. apply calls_next. intros next. now apply (not_listed_forwards compile parse_ip to_ascii compiles file w net_a net_d attempts_a attempts_d arr q n). }
    cbn [query_resolvers skipn]. rewrite Hwr. rewrite (calls_next _ _ _ _ _ arr); [rewrite (calls_next _ _ _ _ _ arr) by (intros; apply Hc)|].
    + rewrite (calls_next _ _ _ _ _ arr) by (intros; apply Hsd). reflexivity.
    + intros next. unfold caching_resolve. destruct (caching_enabled (w_caching w)); [destruct (is_request_cacheable arr)|]; cbn [negb orb]; try apply forwarded_pass.
      specialize (Hca eq_refl eq_refl). rewrite Hqa. cbn [caching_loop]. rewrite Hca. cbn [forwarded]. destruct (next arr) as [[z|z]|]; auto. destruct (rs_msg z); reflexivity.
  - destruct (front w req q n arr (Ok y) (proj1 Hm) Hq Hn Hlt Hp Hlab Y1) as [_ [F1 _]]; [intros z [= <-]; discriminate|].
    assert (explained w (Ok y) = Ok y) as He.
    { unfold explained. destruct (w_ede w); [|reflexivity]. unfold add_extra_reasoning. cbn [y rs_type]. rewrite Hty. reflexivity. }
    rewrite He in F1. destruct (server_sends w L c req y _ Hs ltac:(rewrite Hq; discriminate) F1 eq_refl) as [m' [S1 S2]].
    exists a, m'. split; [exact S1|]. split; [exact S2|]. destruct Ha as [->|[B1 [B2 ->]]]; [now left|right]. split; [exact B1|]. split; [exact B2|].
    now apply adjust_ttls_answer.
Qed.
End Lists.
Print Assumptions C168_rewritten_zone_answered.
Print Assumptions C168_passed_on.

(** ** C169: a query for a name which a rule of the custom records makes another name of is answered with the records of the other name, as if
    they were configured for the name of the client; nothing but the custom records is consulted. *)
Lemma own_contribution q n' e l a : contributes (for_name q n') e l -> Forall2 (under_own_name q n') l a -> contributes q e a.
Proof.
  assert (forall t ttl d r a, own_record (for_name q n') t ttl d r -> Forall2 (under_own_name q n') [r] a -> exists r', own_record q t ttl d r' /\ a = [r']) as Ho.
  { intros t ttl d r a0 [A1 [A2 [A3 [A4 A5]]]] H. inversion H as [|x y l1 l2 [B1 [_ [B2 [B3 [B4 B5]]]]] Hl E1 E2]; subst. inversion Hl; subst.
    exists y. split; [|reflexivity]. split; [exact (B1 A1)|]. repeat split; congruence. }
  intros H F. unfold contributes in *. destruct (rr_data e) as [i|i|t|t|v|p ww po t|o|o]; try tauto.
  1,2: destruct H as [[d [r [A [B ->]]]]|[A ->]]; [left; destruct (Ho _ _ _ _ _ B F) as [r' [C ->]]; exists d, r'; split; [exact A|split; [exact C|reflexivity]]|].
  1,2: right; inversion F; subst; split; [|reflexivity]; intros d Hd; exact (A d Hd).
  1,2: destruct H as [[A [r [B ->]]]|[A ->]]; [left; destruct (Ho _ _ _ _ _ B F) as [r' [C ->]]; split; [exact A|]; exists r'; now split|].
  1,2: right; inversion F; subst; now split.
Qed.

Lemma own_contributions q n' : forall recs ls a, Forall2 (contributes (for_name q n')) recs ls -> Forall2 (under_own_name q n') (concat ls) a ->
  exists ls', Forall2 (contributes q) recs ls' /\ a = concat ls'.
Proof.
  induction recs as [|e recs IH]; intros ls a H F; inversion H as [|? l ? ls0 H1 H2]; subst.
  - inversion F; subst. exists []. split; [constructor|reflexivity].
  - cbn [concat] in F. apply Forall2_app_inv_l in F as [a1 [a2 [F1 [F2 ->]]]]. destruct (IH ls0 a2 H2 F2) as [ls' [A ->]].
    exists (a1 :: ls'). split; [constructor; [eapply own_contribution; eauto|exact A]|reflexivity].
Qed.

Lemma contributions_unique q : forall recs ls ls', Forall2 (contributes q) recs ls -> Forall2 (contributes q) recs ls' -> ls = ls'.
Proof.
  induction recs as [|e recs IH]; intros ls ls' H H'; inversion H; subst; inversion H'; subst; [reflexivity|]. f_equal; [eapply contributes_unique; eauto|now apply IH].
Qed.

Theorem C169_custom_rewritten : forall {U} (w : world U) es L c req q n n' arr recs ls, serves w c -> made w es -> arrives w req q n arr ->
  distinct_cfg (w_custom w) -> renamed (w_custom_rules w) n n' -> decides (w_custom w) (for_name q n') recs ->
  (forall e, In e recs -> match rr_data e with DA _ | DAAAA _ | DTXT _ | DSRV _ _ _ _ => True | _ => False end) ->
  Forall2 (contributes q) recs ls ->
  concat ls <> [] \/ (cu_filter (w_custom w) = true /\ w_custom_fallback w = false) ->
  only_up_to CustomData (consulted (query_calls w req)) /\
  exists m m', handle_req L c req = [m'] /\ sent m m' /\ own_answer w req q 4 $"CUSTOM DNS" 0 (concat ls) m.
Proof.
  intros U w es L c req q n n' arr recs ls Hs Hm Har Hd Hr Hdec Hpl Hls Hne. pose proof Har as [Hq [Hn [Ht [Hlt [Hp Hlab]]]]].
  destruct (front_calls w req q n arr Hq Hn Hlt Hp) as [Hqa [e F2]]. pose proof Hm as [_ [Ho [Hf [Hrules _]]]].
  assert (w_custom_rules w <> []) as Hnn by (intros E; destruct Hr as [p [k [v [[_ [k0 [v0 [A _]]]] _]]]]; rewrite E in A; exact A).
  destruct (Hrules Hnn) as [Hdr Hit].
  assert (custom_in_chain w = rewriter_resolve (w_custom_fallback w) (w_custom_iter w) (inner_prog (custom_stage w))) as Hcc.
  { unfold custom_in_chain, with_rewriter. destruct (w_custom_rules w); [congruence|reflexivity]. }
  set (rq := ask_for arr q n').
  destruct (C35_right_records (w_custom w) (w_new_id w) Crash (w_records w) (w_fuel w) rq (for_name q n') [] noop recs Hd Ho Hf eq_refl (or_introl Ht) Hdec Hpl) as [ls' [L1 [L2 _]]].
  assert (concat ls = [] <-> concat ls' = []) as Hempty.
  { assert (forall l, exists a, Forall2 (under_own_name q n') l a) as Hex.
    { induction l as [|r l [a IH]]; [exists []; constructor|].
      exists ({| rr_name := if str_eqb (rr_name r) (fqdn n') then q_name q else rr_name r; rr_type := rr_type r; rr_class := rr_class r; rr_ttl := rr_ttl r; rr_data := rr_data r |} :: a).
      constructor; [|exact IH]. split; [|split; [|repeat split]]; cbn [rr_name]; intros E.
      - rewrite E, (proj2 (str_eqb_eq _ _) eq_refl). reflexivity.
      - destruct (str_eqb (rr_name r) (fqdn n')) eqn:E2; [apply str_eqb_eq in E2; contradiction|reflexivity]. }
    destruct (Hex (concat ls')) as [a Ha]. destruct (own_contributions q n' recs ls' a L1 Ha) as [ls2 [A ->]].
    rewrite (contributions_unique q recs ls2 ls A Hls) in Ha. split; intros E; rewrite E in Ha; inversion Ha; reflexivity. }
  destruct L2 as [L2 _]; [destruct Hne as [A|[A _]]; [left; tauto|now right]|].
  assert (exists mm, rs_msg (custom_reply rq (for_name q n') (concat ls')) = Some mm /\ m_question mm = [for_name q n'] /\ m_answer mm = concat ls' /\
    m_id mm = m_id (req_msg arr) /\ m_response mm = true /\ m_ns mm = [] /\ m_extra mm = [] /\ m_rcode mm = 0%N) as [mm [M0 [M1 [M2 [M3 [M4 [M5 [M6 M7]]]]]]]]
    by (eexists; split; [reflexivity|repeat split]).
  destruct (rewriter_done (w_custom_rules w) (w_custom_fallback w) (w_custom_iter w) (inner_prog (custom_stage w)) arr q n n'
    (custom_reply rq (for_name q n') (concat ls')) mm (req_msg rq) Hqa Hn Hdr Hit Hr) as [mq [A [B C]]].
  - unfold inner_prog, custom_stage. fold rq. rewrite L2. reflexivity.
  - exact M0.
  - exact M1.
  - destruct Hne as [D|[_ D]]; [right|now left]. rewrite M2. intros E. apply D, Hempty. exact E.
  - rewrite M2 in C. destruct (own_contributions q n' recs ls' (m_answer mq) L1 C) as [ls2 [D E]]. rewrite (contributions_unique q recs ls2 ls D Hls) in E.
    cbn [rs_reason rs_type custom_reply] in A.
    split.
    + rewrite F2, rest_eq. cbn [calls]. rewrite Hcc, A. cbn [forwarded flat_map]. apply only_up_to_intro. reflexivity.
    + rewrite <- E.
      destruct (own_sent w es L c req q n arr {| rs_msg := Some mq; rs_reason := $"CUSTOM DNS"; rs_type := CUSTOMDNS |} mq 4 Hs Hm Har) as [m1 [m' [S1 [S2 S3]]]].
      * rewrite rest_eq. cbn [map snd]. rewrite chain_cons, Hcc, A. reflexivity.
      * reflexivity.
      * rewrite B. exact M3.
      * rewrite B. exact M4.
      * rewrite B. reflexivity.
      * rewrite B. exact M5.
      * rewrite B. exact M6.
      * reflexivity.
      * discriminate.
      * exists m1, m'. split; [exact S1|]. split; [exact S2|]. cbn [rs_reason] in S3. assert (m_rcode mq = 0%N) as R by (rewrite B; exact M7). rewrite R in S3. exact S3.
Qed.
Print Assumptions C169_custom_rewritten.

(** ** Concrete cases: home.net is made fritz.box; the upstreams of fritz.box know nas only *)
Definition rw_answer (n : str) : list rr := [ex_a n [192; 168; 178; 9]%N].
Definition rw_ask (_ : nat) (rq : request) : option result :=
  Some (Ok {| rs_msg := Some (set_answer (match m_question (req_msg rq) with
                                          | q :: _ => if str_eqb (q_name q) $"nas.fritz.box." then rw_answer (q_name q) else []
                                          | [] => []
                                          end) (set_reply empty_msg (req_msg rq)));
              rs_reason := $"RESOLVED (fritz)"; rs_type := RESOLVED |}).
Definition rw_world (fallback : bool) : world nat :=
  let w := e2e_world e2e_up in
  {| w_filter := w_filter w; w_fqdn := w_fqdn w; w_ecs := w_ecs w; w_names := w_names w; w_ede := w_ede w; w_entry := w_entry w; w_metrics := w_metrics w;
     w_custom := w_custom w; w_new_id := w_new_id w; w_records := w_records w; w_fuel := w_fuel w;
     w_custom_rules := w_custom_rules w; w_custom_fallback := w_custom_fallback w; w_custom_iter := w_custom_iter w;
     w_hosts := w_hosts w; w_table := w_table w; w_hosts4 := w_hosts4 w; w_hosts6 := w_hosts6 w;
     w_glob := w_glob w; w_cidr := w_cidr w; w_ip_string := w_ip_string w; w_allow := w_allow w; w_deny := w_deny w;
     w_blk := w_blk w; w_handler := w_handler w; w_blk_iter := w_blk_iter w; w_fqdn_ips := w_fqdn_ips w; w_disabled := w_disabled w;
     w_caching := w_caching w; w_look := w_look w; w_mapping := [($"fritz.box", 1)]; w_ask := rw_ask;
     w_cond_rules := [($"Home.net", $"fritz.box")]; w_cond_fallback := fallback; w_cond_iter := fun _ => lower_rules [$"Home.net"] [($"Home.net", $"fritz.box")];
     w_sudn := w_sudn w; w_upstream := w_upstream w |}.
Definition rw_chain (fallback : bool) (rq : request) : msg * chain_result := (req_msg rq, result_of (query_chain (rw_world fallback) rq)).

Lemma rw_arrives b n : In n [$"nas.home.net."; $"www.home.net."] ->
  arrives (rw_world b) (cx_req n 1) {| q_name := n; q_type := 1; q_class := 1 |} (trim_suffix n $".") (e2e_arr n).
Proof.
  intros Hn. split; [cbn [In] in Hn; destruct Hn as [<-|[<-|[]]]; reflexivity|].
  split; [apply plain_name_iff; cbn [In] in Hn; destruct Hn as [<-|[<-|[]]]; reflexivity|].
  split; [discriminate|]. split.
  - split; [cbn; intuition discriminate|]. intros _. cbn [In] in Hn; destruct Hn as [<-|[<-|[]]]; cbn; tauto.
  - split.
    + exists (cx_req n 1). split; [|reflexivity]. intros next. cbn [In] in Hn; destruct Hn as [<-|[<-|[]]]; cbn; destruct (next _); reflexivity.
    + intros _. constructor; [|constructor]. apply utf8_string_iff. reflexivity.
Qed.

Lemma rw_renamed b p : lowered p p -> renamed (w_cond_rules (rw_world b)) (p ++ $".home.net") (p ++ $".fritz.box").
Proof.
  intros Hp. exists p, $"home.net", $"fritz.box". split; [|split; [discriminate|split; [reflexivity|]]].
  - split; [reflexivity|]. exists $"Home.net", $"fritz.box". split; [now left|]. split; apply lowered_iff; reflexivity.
  - intros p' k' v' [A [k0 [v0 [[[= <- <-]|[]] [B C]]]]]. apply lowered_iff in B, C. vm_compute in B, C. subst k' v'.
    split; [|split; reflexivity]. symmetry. eapply app_inv_tail. exact A.
Qed.

Example C168_case : let q := {| q_name := $"nas.home.net."; q_type := 1; q_class := 1 |} in let w := rw_world false in let arr := e2e_arr (q_name q) in
  serves w (rw_chain false) /\ made w hosts_ex_entries /\ lists_loaded ex_regex e2e_ip ex_to_ascii ex_compiles e2e_file w e2e_net e2e_net 3 3 /\
  arrives w (cx_req (q_name q) 1) q $"nas.home.net" arr /\ not_custom w q $"nas.home.net" /\ not_hosts w hosts_ex_entries q $"nas.home.net" /\
  distinct_rules (w_cond_rules w) /\ iterates (w_cond_rules w) (w_cond_iter w) /\ renamed (w_cond_rules w) $"nas.home.net" $"nas.fritz.box" /\
  plain_name (fqdn $"nas.fritz.box") $"nas.fritz.box" /\ distinct_zones (w_mapping w) /\ responsible (w_mapping w) $"nas.fritz.box" 1 /\
  (exists x m, w_ask w 1 (ask_for arr q $"nas.fritz.box") = Some (Ok x) /\ rs_msg x = Some m /\ m_question m = [for_name q $"nas.fritz.box"] /\
     m_answer m = rw_answer $"nas.fritz.box.") /\
  ~ only_allowed w arr /\ (forall g, in_force w arr g -> ~ wants_deny ex_regex e2e_ip ex_to_ascii ex_compiles e2e_file w e2e_net 3 g $"nas.home.net") /\
  map (fun m => (m_id m, m_rcode m, m_question m, map rr_name (m_answer m), map rr_data (m_answer m))) (handle_req e2e_lengths (rw_chain false) (cx_req (q_name q) 1)) =
    [(77%N, 0%N, [q], [$"nas.home.net."], [DA (IP4 [192; 168; 178; 9]%N)])].
Proof.
  intros q w arr. split; [intros rq; reflexivity|]. split; [exact (e2e_made e2e_up)|]. split; [exact (e2e_loaded e2e_up)|].
  split; [apply (rw_arrives false $"nas.home.net."); now left|]. split.
  { split; [|intros p k v [_ [k0 [v0 [[] _]]]]]. pose proof (lookup_decides cx_custom q) as L. cbv zeta in L. vm_compute in L. exact L. }
  split; [intros _ a Ha; apply split_get_spec in Ha; vm_compute in Ha; discriminate Ha|].
  split; [intros i j k0 v0 k1 v1 k A B _ _; destruct i as [|[|i]]; [|discriminate A|discriminate A]; destruct j as [|[|j]]; [reflexivity|discriminate B|discriminate B]|].
  split; [exists [$"Home.net"]; split; [intros k v [[= <- <-]|[]]; now left|intros i; apply Permutation_refl]|].
  split; [apply (rw_renamed false $"nas"); apply lowered_iff; reflexivity|]. split; [apply plain_name_iff; reflexivity|].
  split; [intros i j k0 v0 k1 v1 k A B _ _; destruct i as [|[|i]]; [|discriminate A|discriminate A]; destruct j as [|[|j]]; [reflexivity|discriminate B|discriminate B]|].
  split; [|split; [|split; [|split]]].
  - left. split; [cbn; tauto|]. exists $"fritz.box".
    assert (zone_upstream [($"fritz.box", 1)] $"fritz.box" 1) as Hz by (exists $"fritz.box"; split; [now left|apply lowered_iff; reflexivity]).
    split; [|split; [exact Hz|]].
    + split; [discriminate|]. split; [now exists 1|]. right. now exists $"nas".
    + intros z' [_ [[u [z0 [[[= <- <-]|[]] C]]] _]]. apply lowered_iff in C. vm_compute in C. subst z'. reflexivity.
  - do 2 eexists. split; [reflexivity|]. split; [reflexivity|]. split; reflexivity.
  - exact (e2e_free e2e_up $"nas.home.net.").
  - intros g Hg Hd. apply (e2e_in_force e2e_up) in Hg as ->. apply (e2e_deny_iff e2e_up) in Hd. vm_compute in Hd. exact Hd.
  - vm_compute. reflexivity.
Qed.

(** www.fritz.box is not known: with the fallback the upstream tree answers, without it the client gets the empty answer. *)
Example C168_passed_case : let q := {| q_name := $"www.home.net."; q_type := 1; q_class := 1 |} in let w := rw_world true in let arr := e2e_arr (q_name q) in
  serves w (rw_chain true) /\ arrives w (cx_req (q_name q) 1) q $"www.home.net" arr /\ renamed (w_cond_rules w) $"www.home.net" $"www.fritz.box" /\
  plain_name (fqdn $"www.fritz.box") $"www.fritz.box" /\ no_help w arr q $"www.fritz.box" /\
  lowered (q_name q) (q_name q) /\ (forall m, ~ local_answer true arr q m) /\
  map (fun m => (m_id m, m_rcode m, m_question m, m_answer m)) (handle_req e2e_lengths (rw_chain true) (cx_req (q_name q) 1)) = [(77%N, 0%N, [q], e2e_up)] /\
  map (fun m => (m_id m, m_rcode m, m_question m, m_answer m)) (handle_req e2e_lengths (rw_chain false) (cx_req (q_name q) 1)) = [(77%N, 0%N, [q], [])].
Proof.
  intros q w arr. split; [intros rq; reflexivity|]. split; [apply (rw_arrives true $"www.home.net."); right; now left|].
  split; [apply (rw_renamed true $"www"); apply lowered_iff; reflexivity|]. split; [apply plain_name_iff; reflexivity|].
  split; [|split; [apply lowered_iff; reflexivity|split; [|split; vm_compute; reflexivity]]].
  - right. split; [reflexivity|]. exists 1. split.
    + left. split; [cbn; tauto|]. exists $"fritz.box".
      assert (zone_upstream [($"fritz.box", 1)] $"fritz.box" 1) as Hz by (exists $"fritz.box"; split; [now left|apply lowered_iff; reflexivity]).
      split; [|split; [exact Hz|]].
      * split; [discriminate|]. split; [now exists 1|]. right. now exists $"www".
      * intros z' [_ [[u [z0 [[[= <- <-]|[]] C]]] _]]. apply lowered_iff in C. vm_compute in C. subst z'. reflexivity.
    + right. do 2 eexists. split; [reflexivity|]. split; reflexivity.
  - intros m Hm.
    destruct (C40_special_use_partial {| su_appendix_g := true; su_enable := true |} arr q [] noop eq_refl eq_refl) as [[m0 [A [_ B]]]|[B _]];
      [apply lowered_iff; reflexivity| |exact (B m Hm)]. vm_compute in B. discriminate B.
Qed.

(** ** Concrete case: home.net is made lan; the custom records know printer.lan *)
Definition rc_world : world nat :=
  let w := e2e_world e2e_up in
  {| w_filter := w_filter w; w_fqdn := w_fqdn w; w_ecs := w_ecs w; w_names := w_names w; w_ede := w_ede w; w_entry := w_entry w; w_metrics := w_metrics w;
     w_custom := w_custom w; w_new_id := w_new_id w; w_records := w_records w; w_fuel := w_fuel w;
     w_custom_rules := [($"Home.net", $"lan")]; w_custom_fallback := true; w_custom_iter := fun _ => lower_rules [$"Home.net"] [($"Home.net", $"lan")];
     w_hosts := w_hosts w; w_table := w_table w; w_hosts4 := w_hosts4 w; w_hosts6 := w_hosts6 w;
     w_glob := w_glob w; w_cidr := w_cidr w; w_ip_string := w_ip_string w; w_allow := w_allow w; w_deny := w_deny w;
     w_blk := w_blk w; w_handler := w_handler w; w_blk_iter := w_blk_iter w; w_fqdn_ips := w_fqdn_ips w; w_disabled := w_disabled w;
     w_caching := w_caching w; w_look := w_look w; w_mapping := w_mapping w; w_ask := w_ask w;
     w_cond_rules := w_cond_rules w; w_cond_fallback := w_cond_fallback w; w_cond_iter := w_cond_iter w; w_sudn := w_sudn w; w_upstream := w_upstream w |}.
Definition rc_chain (rq : request) : msg * chain_result := (req_msg rq, result_of (query_chain rc_world rq)).

Example C169_case : let q := {| q_name := $"printer.home.net."; q_type := 1; q_class := 1 |} in let w := rc_world in
  let e := {| rr_name := []; rr_type := 0; rr_class := 1; rr_ttl := 3600; rr_data := DA (IP4 [192;168;178;3]%N) |} in
  let r := {| rr_name := $"printer.home.net."; rr_type := 1; rr_class := 1; rr_ttl := 3600; rr_data := DA (IP4 [192;168;178;3]%N) |} in
  serves w rc_chain /\ made w hosts_ex_entries /\ arrives w (cx_req (q_name q) 1) q $"printer.home.net" (e2e_arr (q_name q)) /\
  distinct_cfg (w_custom w) /\ renamed (w_custom_rules w) $"printer.home.net" $"printer.lan" /\
  decides (w_custom w) (for_name q $"printer.lan") [e] /\ Forall2 (contributes q) [e] [[r]] /\
  map (fun m => (m_id m, m_rcode m, m_question m, m_answer m)) (handle_req e2e_lengths rc_chain (cx_req (q_name q) 1)) = [(77%N, 0%N, [q], [r])].
Proof.
  intros q w e r. split; [intros rq; reflexivity|]. split.
  { destruct (e2e_made e2e_up) as [A [B [C [_ D]]]]. split; [exact A|]. split; [exact B|]. split; [exact C|]. split; [|exact D]. intros _. split.
    - intros i j k0 v0 k1 v1 k E F _ _; destruct i as [|[|i]]; [|discriminate E|discriminate E]; destruct j as [|[|j]]; [reflexivity|discriminate F|discriminate F].
    - exists [$"Home.net"]; split; [intros k v [[= <- <-]|[]]; now left|intros i; apply Permutation_refl]. }
  split.
  { split; [reflexivity|]. split; [apply plain_name_iff; reflexivity|]. split; [discriminate|]. split.
    - split; [cbn; intuition discriminate|]. intros _. cbn; tauto.
    - split.
      + exists (cx_req (q_name q) 1). split; [|reflexivity]. intros next. cbn; destruct (next _); reflexivity.
      + intros _. constructor; [|constructor]. apply utf8_string_iff. reflexivity. }
  split; [exact cx_distinct|]. split.
  { exists $"printer", $"home.net", $"lan". split; [|split; [discriminate|split; [reflexivity|]]].
    - split; [reflexivity|]. exists $"Home.net", $"lan". split; [now left|]. split; apply lowered_iff; reflexivity.
    - intros p' k' v' [A [k0 [v0 [[[= <- <-]|[]] [B C]]]]]. apply lowered_iff in B, C. vm_compute in B, C. subst k' v'.
      split; [|split; reflexivity]. symmetry. eapply app_inv_tail. exact A. }
  split; [exact (lookup_decides cx_custom (for_name q $"printer.lan"))|]. split; [|vm_compute; reflexivity].
  constructor; [|constructor]. left. exists (DA (IP4 [192;168;178;3]%N)), r. split; [|split; [repeat split|reflexivity]]. now split.
Qed.
