(** Properties of the resolver chain (C70). *)
From Coq Require Import String Ascii List Arith Bool NArith ZArith Lia Permutation.
From Verif Require Import Str StrFacts StringCacheSpec Dns Resolver ResolverFacts CachingSpec CachingProofs ExpCache Caching
  Blocking BlockingSpec BlockingProofs BlockingProps Custom CustomSpec CustomProofs Conditional ConditionalSpec ConditionalProps
  Rewriter Sudn SudnSpec SudnProps Ecs ClientNames QueryLog Arpa Hosts HostsSpec HostsProofs HostsProps Chain ChainSpec ChainProofs.
Import ListNotations.

Definition position (s : source) : nat :=
  match s with
  | TypeFilter => 0 | FqdnCheck => 1 | CustomData => 2 | HostsData => 3 | Lists => 4 | CacheData => 5 | CondUpstream => 6
  | SpecialNames => 7 | Upstreams => 8
  end.

Lemma before_intro s t : position s < position t -> before s t.
Proof.
  intros H. exists (firstn (position s) precedence), (firstn (position t - position s - 1) (skipn (S (position s)) precedence)),
    (skipn (S (position t)) precedence).
  destruct s, t; cbn in H; try (exfalso; lia); reflexivity.
Qed.

Lemma before_cases s t : s = t \/ before s t \/ before t s.
Proof.
  destruct (lt_eq_lt_dec (position s) (position t)) as [[H|H]|H].
  - right. left. now apply before_intro.
  - left. destruct s, t; try discriminate; reflexivity.
  - right. right. now apply before_intro.
Qed.

(** The upstreams at the end of the chain give answers of their own kind
    (resolver/upstream_resolver.go:371). *)
Definition upstream_kind {U} (w : world U) : Prop := forall rq x, w_upstream w rq = Some (Ok x) -> rs_type x = RESOLVED.

Lemma only_up_to_intro s l : l = firstn (S (position s)) precedence -> only_up_to s l.
Proof. intros ->. exists (firstn (position s) precedence), (skipn (S (position s)) precedence). destruct s; split; reflexivity. Qed.

(** How far the chain is run through. *)
Lemma stages_sources {U} (w : world U) pre s post cs :
  map fst (query_resolvers w) ++ [SUpstreamTree] = pre ++ s :: post -> map fst cs = pre ++ [s] ->
  (forall src, stands_for s = Some src -> only_up_to src (consulted cs)) /\
  (In SBlocking pre -> forall src, stands_for s = Some src -> before Lists src).
Proof.
  intros H Hc.
  assert (consulted cs = flat_map (fun s => match stands_for s with Some x => [x] | None => [] end) (map fst cs)) as ->.
  { unfold consulted. clear. induction cs as [|c cs IH]; cbn; [reflexivity|]. now rewrite IH. }
  rewrite Hc. clear Hc cs. cbn [query_resolvers map fst app] in H.
  repeat (destruct pre as [|? pre];
    [injection H as <- <-; split;
      [intros src Es; try discriminate Es; injection Es as <-; apply only_up_to_intro; reflexivity
      |intros Hb src Es; try discriminate Es; injection Es as <-; try (apply before_intro; cbn; lia);
        exfalso; cbn in Hb; repeat (destruct Hb as [Hb|Hb]; [discriminate Hb|]); exact Hb]
    |injection H as <- H]).
  destruct pre; discriminate.
Qed.

(** ** C70: the sources consulted for a query are those up to the one that answered, in the
    order of precedence, each once; the kind of the response tells which one it was.
    Missing from the full statement: a response may still be replaced by the block answer
    because of the answer in it; custom CNAMEs that lead to other names (without rewriting
    rules) and requests with several questions are excluded. *)
Theorem C70_sources_in_order_partial : forall (U : Type) (w : world U) req q r,
  m_question (req_msg req) = [q] -> upstream_kind w -> simple_custom w q ->
  query_chain w req = Some (Ok r) ->
  (exists s, kind s = rs_type r /\ only_up_to s (consulted (query_calls w req))) \/
  (screened r /\ exists s, before Lists s /\ only_up_to s (consulted (query_calls w req))).
Proof.
  intros U w req q r Hq Hu Hc E.
  destruct (chain_calls (w_upstream w) Hu (query_resolvers w) (asks q) req r (query_ok w q Hc) Hq E) as [_ [pre [s [post [H1 [H2 H3]]]]]].
  destruct (stages_sources w pre s post (calls (query_resolvers w) (w_upstream w) req) H1 H2) as [G1 G2].
  assert (stands_for s <> None) as Hs.
  { destruct H3 as [H3|[_ H3]].
    - intros E0. rewrite E0 in H3. discriminate.
    - intros E0. cbn [query_resolvers map fst app] in H1.
      repeat (destruct pre as [|? pre];
        [injection H1 as <- <-; first [discriminate E0|cbn in H3; repeat (destruct H3 as [H3|H3]; [discriminate H3|]); exact H3]
        |injection H1 as <- H1]).
      destruct pre; discriminate. }
  destruct (stands_for s) as [src|] eqn:Es; [|contradiction]. destruct H3 as [H3|[H3 H4]].
  - left. exists src. split; [cbn in H3; congruence|]. now apply G1.
  - right. split; auto. exists src. split; [now apply G2|now apply G1].
Qed.
Print Assumptions C70_sources_in_order_partial.

(** ** ... and the source that answered is the first that has an answer. *)
Section Decision.
Context {U : Type}.
Variable w : world U.
Variable es : list host_entry.
Variable on_allow on_deny : str -> str -> Prop.
Variable q : question.

Definition regular : Prop :=
  w_custom_rules w = [] /\ w_cond_rules w = [] /\ no_cname_to_follow (w_custom w) q /\ 0 < w_fuel w /\ distinct_cfg (w_custom w) /\
  q_type q <> 12%N /\ lowered (q_name q) (q_name q) /\ table_means (w_table w) es /\ distinct_zones (w_mapping w) /\
  blocking_setting (w_allow w) (w_deny w) on_allow on_deny (w_blk w) (w_blk_iter w).

Definition says (arr : request) (I I' : request -> Prop) (s : stage) (p : request -> prog) : Prop :=
  forall rq, I rq ->
    (forall x src, p rq = Done (Ok x) -> stands_for s = Some src -> has_answer w es on_allow on_deny src arr q) /\
    (forall rq' k, p rq = Next rq' k -> I' rq' /\ forall src, stands_for s = Some src -> ~ has_answer w es on_allow on_deny src arr q).

Fixpoint says_all (arr : request) (I : request -> Prop) (rs : list (stage * (request -> prog))) : Prop :=
  match rs with
  | [] => True
  | (s, p) :: rs' => exists I', says arr I I' s p /\ says_all arr I' rs'
  end.

Lemma says_steps arr : forall rs I cs rq s0 cs', says_all arr I rs -> steps_through rs cs -> cs = (s0, rq) :: cs' -> I rq ->
  exists pre s post, map fst rs ++ [SUpstreamTree] = pre ++ s :: post /\ map fst cs = pre ++ [s] /\
    (forall s' src, In s' pre -> stands_for s' = Some src -> ~ has_answer w es on_allow on_deny src arr q) /\
    (s <> SUpstreamTree -> forall src, stands_for s = Some src -> has_answer w es on_allow on_deny src arr q).
Proof.
  induction rs as [|[s p] rs IH]; intros I cs rq s0 cs' Hs Hst -> HI.
  - cbn in Hst. destruct s0; try contradiction. destruct cs'; [|contradiction]. exists [], SUpstreamTree, []. cbn.
    split; [reflexivity|]. split; [reflexivity|]. split; [intros s' src []|congruence].
  - destruct Hs as [I' [Hs Hall]]. destruct Hst as [-> Hst]. destruct (Hs rq HI) as [Hd Hn]. destruct cs' as [|[s1 rq1] cs'].
    + destruct Hst as [x Hx]. exists [], s, (map fst rs ++ [SUpstreamTree]). split; [reflexivity|]. split; [reflexivity|].
      split; [intros s' src []|]. intros _ src Hsrc. eapply Hd; eauto.
    + destruct Hst as [[k Hk] Hst]. destruct (Hn _ _ Hk) as [HI' Hno].
      destruct (IH I' ((s1, rq1) :: cs') rq1 s1 cs' Hall Hst eq_refl HI') as [pre [s' [post [H1 [H2 [H3 H4]]]]]].
      exists (s :: pre), s', post. cbn [map fst app] in *. split; [congruence|]. split; [congruence|]. split.
      * intros x src [<-|Hin]; eauto.
      * exact H4.
Qed.

Lemma pass_inv rq rq' k : pass rq = Next rq' k -> rq' = rq.
Proof. unfold pass. congruence. Qed.

Lemma name_of : exists n, plain_name (q_name q) n.
Proof. exists (extract_domain q). now apply plain_name_iff. Qed.

Ltac only_n := let n := fresh "n" in let Hn := fresh "Hn" in
  destruct name_of as [n Hn].

Lemma has_answer_at src arr n : plain_name (q_name q) n ->
  has_answer w es on_allow on_deny src arr q <->
  match src with
  | TypeFilter => In (q_type q) (w_filter w)
  | FqdnCheck => w_fqdn w = true /\ ~ In "."%char n
  | CustomData => custom_says (w_custom w) (w_new_id w) arr q
  | HostsData => hf_enabled (w_hosts w) = true /\ exists a, resolves (q_type q) es n a
  | Lists => blocked_name (w_glob w) (w_cidr w) (w_ip_string w) (w_blk w) (w_fqdn_ips w) (w_disabled w) on_allow on_deny arr n
  | CacheData => caching_enabled (w_caching w) = true /\ is_request_cacheable arr = true /\ w_look w arr 0 <> None
  | CondUpstream => exists u, responsible (w_mapping w) n u
  | SpecialNames => su_enable (w_sudn w) = true /\ exists m, local_answer (su_appendix_g (w_sudn w)) arr q m
  | Upstreams => True
  end.
Proof.
  intros Hn. split.
  - intros [n' [Hn' H]]. rewrite (plain_fun _ _ _ Hn' Hn) in H. exact H.
  - intros H. exists n. split; auto.
Qed.

Lemma query_says req arr : regular -> m_question (req_msg req) = [q] -> prepared w req arr ->
  says_all arr (eq req) (query_resolvers w).
Proof.
  intros [Hr1 [Hr2 [Hcn [Hf [Hdc [Hptr [Hlow [Htab [Hz Hblk]]]]]]]]] Hq [e [He Harr]]. destruct name_of as [n Hn].
  assert (m_question (req_msg e) = [q] /\ forall rq' k, ecs_resolve (w_ecs w) req = Next rq' k -> rq' = e) as [Hqe Hecs].
  { destruct (ecs_shape (w_ecs w) req) as [E|[rq [E [Hrq _]]]].
    - specialize (He (fun _ => None)). rewrite E in He. discriminate.
    - specialize (He (fun _ => None)). rewrite E in He. injection He as ->. split; [congruence|]. intros rq' k E'. rewrite E in E'. now apply pass_inv in E'. }
  assert (asks q arr) as Hqa by (subst arr; exact Hqe).
  unfold query_resolvers. cbn [says_all]. rewrite Hr1, Hr2. cbn [with_rewriter].
  exists (eq req). split.
  { intros rq <-. destruct (C41_filtered (w_filter w) req q [] (fun _ => None) Hq) as [H1 H2]. unfold filtering_resolve in *. rewrite Hq in *.
    assert (existsb (N.eqb (q_type q)) (w_filter w) = true <-> In (q_type q) (w_filter w)) as Hx.
    { rewrite existsb_exists. split; [intros [x [A1 A2]]; apply N.eqb_eq in A2; now subst|]. intros A. exists (q_type q). split; auto. apply N.eqb_refl. }
    destruct (existsb _ _) eqn:Ex; split.
    - intros x src _ [= <-]. apply (has_answer_at TypeFilter arr n Hn). now apply Hx.
    - discriminate.
    - discriminate.
    - intros rq' k E. apply pass_inv in E. split; [now symmetry|]. intros src [= <-] Ha. apply (has_answer_at TypeFilter arr n Hn) in Ha.
      apply Hx in Ha. discriminate. }
  exists (eq req). split.
  { intros rq <-. unfold fqdn_only_resolve. rewrite Hq. apply plain_name_iff in Hn as En. change (n = extract_domain q) in En. rewrite <- En.
    destruct (w_fqdn w) eqn:Ef.
    - destruct (contains_byte dot n) eqn:Ed; cbn [negb]; split; try discriminate.
      + intros rq' k E. apply pass_inv in E. split; [now symmetry|]. intros src [= <-] Ha. apply (has_answer_at FqdnCheck arr n Hn) in Ha as [_ Ha].
        apply Ha. now apply contains_byte_In.
      + intros x src _ [= <-]. apply (has_answer_at FqdnCheck arr n Hn). split; auto. intros Hi. apply contains_byte_In in Hi. unfold dot in Ed. congruence.
    - split; [discriminate|]. intros rq' k E. apply pass_inv in E. split; [now symmetry|]. intros src [= <-] Ha.
      apply (has_answer_at FqdnCheck arr n Hn) in Ha as [Ha _]. congruence. }
  exists (eq e). split.
  { intros rq <-. split; [discriminate|]. intros rq' k E. split; [symmetry; eauto|discriminate]. }
  exists (eq arr). split.
  { intros rq <-. split; [discriminate|]. intros rq' k E. apply pass_inv in E. split; [congruence|discriminate]. }
  exists (eq arr). split.
  { intros rq <-. split; [discriminate|]. intros rq' k E. unfold ede_resolve in E. split; [|discriminate].
    destruct (negb _); [apply pass_inv in E; auto|injection E; auto]. }
  exists (eq arr). split.
  { intros rq <-. split; [discriminate|]. intros rq' k E. unfold logging_resolve in E. split; [|discriminate]. injection E; auto. }
  exists (eq arr). split.
  { intros rq <-. split; [discriminate|]. intros rq' k E. unfold metrics_resolve in E. split; [|discriminate]. injection E; auto. }
  exists (eq arr). split.
  { intros rq <-. unfold custom_stage.
    destruct (custom_shape (w_custom w) (w_new_id w) Crash (w_records w) (w_fuel w) arr q Hqa Hcn Hf) as [[x E]|[[x [E [_ [_ Hx]]]]|[E Hx]]]; rewrite E; split.
    - discriminate.
    - discriminate.
    - intros y src _ [= <-]. apply (has_answer_at CustomData arr n Hn). destruct Hx as [Hx|Hx]; [contradiction|exact Hx].
    - discriminate.
    - discriminate.
    - intros rq' k E'. apply pass_inv in E'. split; [now symmetry|]. intros src [= <-] Ha. apply (has_answer_at CustomData arr n Hn) in Ha.
      exact (Hx Hdc Ha). }
  exists (eq arr). split.
  { intros rq <-. unfold hosts_resolve. destruct (hf_enabled (w_hosts w)) eqn:Eh; cbn [negb].
    - pose proof Hqa as Hqa'. unfold asks in Hqa'. rewrite Hqa'. unfold hosts_reverse. change type_PTR with 12%N. apply N.eqb_neq in Hptr. rewrite Hptr. cbn [negb].
      apply plain_name_iff in Hn as En. change (n = extract_domain q) in En. rewrite <- En.
      destruct (split_get (w_table w) (q_type q) n) as [a|] eqn:Es; split; try discriminate.
      + intros x src _ [= <-]. apply (has_answer_at HostsData arr n Hn). split; auto. exists a. now apply Htab.
      + intros rq' k E'. apply pass_inv in E'. split; [now symmetry|]. intros src [= <-] Ha. apply (has_answer_at HostsData arr n Hn) in Ha as [_ [a Ha]].
        apply Htab in Ha. congruence.
    - split; [discriminate|]. intros rq' k E'. apply pass_inv in E'. split; [now symmetry|]. intros src [= <-] Ha.
      apply (has_answer_at HostsData arr n Hn) in Ha as [Ha _]. congruence. }
  exists (eq arr). split.
  { intros rq <-.
    pose proof (C24_blocked_iff (w_glob w) (w_cidr w) (w_ip_string w) (w_allow w) (w_deny w) on_allow on_deny (w_blk w) (w_handler w) (w_blk_iter w)
      (w_fqdn_ips w) (w_disabled w) arr Hblk) as [B1 [B2 B3]].
    pose proof (fun next => C29_blocked_never_forwarded (w_glob w) (w_cidr w) (w_ip_string w) (w_allow w) (w_deny w) on_allow on_deny (w_blk w) (w_handler w) (w_blk_iter w)
      (w_fqdn_ips w) (w_disabled w) arr next Hblk) as B4. unfold run_blocking in *.
    set (p := blocking_resolve (w_glob w) (w_cidr w) (w_ip_string w) (w_allow w) (w_deny w) (w_blk w) (w_handler w) (w_blk_iter w) (w_fqdn_ips w) (w_disabled w) arr) in *.
    assert (forall q' n', req_deciding (w_glob w) (w_cidr w) (w_ip_string w) on_allow on_deny (w_blk w) (w_fqdn_ips w) (w_disabled w) arr q' n' -> n' = n) as Hone.
    { intros q' n' [pre [post [A1 [A2 _]]]]. unfold asks in Hqa. rewrite Hqa in A1. destruct pre as [|? [|? pre]]; try discriminate.
      injection A1 as <- _. eapply plain_fun; eauto. }
    split.
    - intros x src E [= <-]. apply (has_answer_at Lists arr n Hn). destruct (B3 x E) as [q' [n' [D1 D2]]]. now rewrite (Hone _ _ D1) in D2.
    - intros rq' k E. destruct (B4 (fun _ => None)) as [B5 B6]. split.
      + assert (forwarded p (fun _ => None) = [rq']) as Ef by (rewrite E; reflexivity).
        destruct (forwarded p (fun _ => None)) as [|z zs] eqn:Ez; [discriminate|]. injection Ef as -> ->.
        assert ([rq'] = [arr]) as [= <-]; [|reflexivity]. apply B6. intros Hb. specialize (B5 Hb). discriminate.
      + intros src [= <-] Ha. apply (has_answer_at Lists arr n Hn) in Ha.
        assert (forwarded p (fun _ => None) = []) as Ef.
        { apply B5. exists q, n. split; [|exact Ha]. exists [], []. split; [exact Hqa|]. split; [exact Hn|]. split; [now right|]. intros ? ? []. }
        rewrite E in Ef. discriminate. }
  exists (eq arr). split.
  { intros rq <-. unfold caching_resolve. destruct (caching_enabled (w_caching w)) eqn:E1; [destruct (is_request_cacheable arr) eqn:E2|]; cbn [negb orb].
    - pose proof Hqa as Hqa'. unfold asks in Hqa'. rewrite Hqa'. cbn [caching_loop]. destruct (w_look w arr 0) as [[m ttl]|] eqn:El; split; try discriminate.
      + intros x src _ [= <-]. apply (has_answer_at CacheData arr n Hn). repeat split; auto. congruence.
      + intros rq' k E'. injection E' as <- _. split; auto. intros src [= <-] Ha. apply (has_answer_at CacheData arr n Hn) in Ha as [_ [_ Ha]]. congruence.
    - split; [discriminate|]. intros rq' k E'. apply pass_inv in E'. split; [now symmetry|]. intros src [= <-] Ha.
      apply (has_answer_at CacheData arr n Hn) in Ha as [_ [Ha _]]. congruence.
    - split; [discriminate|]. intros rq' k E'. apply pass_inv in E'. split; [now symmetry|]. intros src [= <-] Ha.
      apply (has_answer_at CacheData arr n Hn) in Ha as [Ha _]. congruence. }
  exists (eq arr). split.
  { intros rq <-. unfold conditional_resolve. destruct (cond_dest_spec (w_mapping w) Hz arr q [] n Hqa Hn) as [[u [Hu E]]|[Hu E]]; rewrite E; split.
    - intros x src _ [= <-]. apply (has_answer_at CondUpstream arr n Hn). eauto.
    - destruct (w_ask w u _) as [[x|x]|]; try discriminate. destruct (cond_response _ _); discriminate.
    - discriminate.
    - intros rq' k E'. apply pass_inv in E'. split; [now symmetry|]. intros src [= <-] Ha.
      apply (has_answer_at CondUpstream arr n Hn) in Ha as [u Ha]. exact (Hu u Ha). }
  exists (eq arr). split; [|exact I].
  intros rq <-. destruct (su_enable (w_sudn w)) eqn:Ee.
  - destruct (C40_special_use_partial (w_sudn w) arr q [] (fun _ => None) Ee Hqa Hlow) as [[m [L1 [L2 L3]]]|[L1 [L2 L3]]]; split.
    + intros x src _ [= <-]. apply (has_answer_at SpecialNames arr n Hn). eauto.
    + intros rq' k E. rewrite E in L3. discriminate.
    + intros x src E. rewrite E in L3. discriminate.
    + intros rq' k E. rewrite E in L3. cbn in L3. injection L3 as ->. split; auto. intros src [= <-] Ha.
      apply (has_answer_at SpecialNames arr n Hn) in Ha as [_ [m Ha]]. exact (L1 m Ha).
  - destruct (C40_disabled (w_sudn w) arr (fun _ => None) Ee) as [_ L3]. split.
    + intros x src E. rewrite E in L3. discriminate.
    + intros rq' k E. rewrite E in L3. cbn in L3. injection L3 as ->. split; auto. intros src [= <-] Ha.
      apply (has_answer_at SpecialNames arr n Hn) in Ha as [Ha _]. congruence.
Qed.

(** Missing from the full statement: see above; and rewriting rules, PTR queries, names with
    upper-case letters (the special-use table does not know them, C40). *)
Theorem C70_source_found_partial : forall req arr r,
  m_question (req_msg req) = [q] -> upstream_kind w -> regular -> prepared w req arr ->
  query_chain w req = Some (Ok r) ->
  exists s, first_with_answer w es on_allow on_deny arr q s /\ only_up_to s (consulted (query_calls w req)) /\ (rs_type r = kind s \/ (screened r /\ before Lists s)).
Proof.
  intros req arr r Hq Hu Hr Ha E.
  assert (simple_custom w q) as Hc by (right; unfold regular in Hr; tauto).
  destruct (chain_calls (w_upstream w) Hu (query_resolvers w) (asks q) req r (query_ok w q Hc) Hq E) as [Hst [pre [st [post [H1 [H2 H3]]]]]].
  destruct (calls (query_resolvers w) (w_upstream w) req) as [|[s0 rq0] cs] eqn:Ecs; [destruct pre; discriminate|].
  assert (rq0 = req) as -> by (cbn [query_resolvers calls] in Ecs; injection Ecs; congruence).
  destruct (says_steps arr (query_resolvers w) (eq req) ((s0, req) :: cs) req s0 cs (query_says req arr Hr Hq Ha) Hst eq_refl eq_refl)
    as [pre' [st' [post' [G1 [G2 [G3 G4]]]]]].
  assert (pre' = pre /\ st' = st) as [-> ->].
  { rewrite H2 in G2. now apply app_inj_tail in G2 as [-> ->]. }
  assert (exists src, stands_for st = Some src /\ has_answer w es on_allow on_deny src arr q) as [src [Esrc Hsrc]].
  { destruct (stands_for st) as [src|] eqn:Est.
    - exists src. split; auto. destruct (match st with SUpstreamTree => true | _ => false end) eqn:Eu.
      + destruct st; try discriminate. injection Est as <-. destruct name_of as [n Hn]. now exists n.
      + apply G4; auto. destruct st; discriminate.
    - exfalso. destruct H3 as [H3|[_ H3]]; [discriminate|]. cbn [query_resolvers map fst app] in H1.
      repeat (destruct pre as [|? pre];
        [injection H1 as <- <-; first [discriminate Est|cbn in H3; repeat (destruct H3 as [H3|H3]; [discriminate H3|]); exact H3]
        |injection H1 as <- H1]).
      destruct pre; discriminate. }
  destruct (stages_sources w pre st post ((s0, req) :: cs) H1 H2) as [K1 K2].
  exists src. split; [split; [exact Hsrc|]|].
  - intros s Hb Hs1. specialize (K1 src Esrc). destruct K1 as [a [c [A1 A2]]].
    assert (In s a) as Hin.
    { destruct Hb as [x [y [z Hb]]]. rewrite A1 in Hb. assert (NoDup precedence) as Hnd by (repeat constructor; cbn; intuition discriminate).
      replace (x ++ s :: y ++ src :: z) with ((x ++ s :: y) ++ src :: z) in Hb by (rewrite <- app_assoc; reflexivity).
      assert (forall (l1 l2 l3 l4 : list source) v, NoDup (l1 ++ v :: l2) -> l1 ++ v :: l2 = l3 ++ v :: l4 -> l1 = l3) as Hsplit.
      { clear. induction l1 as [|b l1 IH]; intros l2 [|b' l3] l4 v Hnd Heq; cbn in *; auto.
        - exfalso. injection Heq as -> Heq. inversion Hnd as [|? ? Hni _]; subst. apply Hni. apply in_or_app. right. now left.
        - exfalso. injection Heq as -> Heq. inversion Hnd as [|? ? Hni _]; subst. apply Hni. apply in_or_app. right. now left.
        - injection Heq as -> Heq. inversion Hnd; subst. f_equal. eapply IH; eauto. }
      rewrite A1 in Hnd. apply Hsplit in Hb; auto. rewrite Hb. apply in_or_app. right. now left. }
    assert (In s (consulted ((s0, req) :: cs))) as Hic by (rewrite A2; apply in_or_app; now left).
    unfold consulted in Hic. apply in_flat_map in Hic as [[s' rq'] [Hin' Hs']]. cbn [fst] in Hs'.
    destruct (stands_for s') as [x|] eqn:Es'; [|destruct Hs']. destruct Hs' as [->|[]].
    assert (In s' (pre ++ [st])) as Hpre by (rewrite <- H2; exact (in_map fst _ _ Hin')).
    apply in_app_or in Hpre as [Hpre|[<-|[]]].
    + exact (G3 s' s Hpre Es' Hs1).
    + assert (s = src) as -> by congruence.
      assert (NoDup precedence) as Hnd by (repeat constructor; cbn; intuition discriminate).
      rewrite A1 in Hnd. apply NoDup_remove_2 in Hnd. apply Hnd. apply in_or_app. now left.
  - unfold query_calls. rewrite Ecs. split; [now apply K1|]. destruct H3 as [H3|[H3 H4]].
    + left. rewrite Esrc in H3. cbn in H3. congruence.
    + right. split; auto.
Qed.

(** Missing from the full statement: see above. *)
Theorem C70_first_source_answers_partial : forall req arr r s,
  m_question (req_msg req) = [q] -> upstream_kind w -> regular -> prepared w req arr ->
  query_chain w req = Some (Ok r) -> first_with_answer w es on_allow on_deny arr q s ->
  only_up_to s (consulted (query_calls w req)) /\ (rs_type r = kind s \/ (screened r /\ before Lists s)).
Proof.
  intros req arr r s Hq Hu Hr Ha E [Hs1 Hs2].
  destruct (C70_source_found_partial req arr r Hq Hu Hr Ha E) as [src [[Hsrc1 Hsrc2] H]].
  assert (s = src) as ->; [|exact H]. destruct (before_cases s src) as [|[Hb|Hb]]; auto; exfalso; [exact (Hsrc2 s Hb Hs1)|exact (Hs2 src Hb Hsrc1)].
Qed.
End Decision.
Print Assumptions C70_source_found_partial.
Print Assumptions C70_first_source_answers_partial.

(** ** The parts of the chain are those modelled elsewhere. *)

(** The caching resolver in the chain does what [Caching.step] does: the output of a step
    which (re)starts the loop over the questions is what the program does next. *)
Definition outputs (id : nat) (p : prog) (out : list output) : Prop :=
  match p with
  | Done r => out = [Reply id r]
  | Crash => out = [Crashed (Some id)]
  | Next rq _ => out = [Forward (Some id) rq]
  end.

Lemma start_outputs cfg look i id req qs resp now c tasks :
  (forall q rest, qs = q :: rest -> look i = fst (cache_get cfg now (question_key q) c)) ->
  let '(_, tasks', out) := start_question cfg id req qs resp now c tasks in
  outputs id (caching_loop cfg look i req qs resp) out /\
  match caching_loop cfg look i req qs resp with
  | Next _ _ => exists q rest, qs = q :: rest /\ look i = None /\ tasks' =
      {| tk_id := id; tk_req := req; tk_key := question_key q; tk_rest := rest; tk_phase := Waiting; tk_resp := None |} :: tasks
  | _ => tasks' = tasks
  end.
Proof.
  intros H. destruct qs as [|q rest]; cbn [start_question caching_loop].
  - now destruct resp.
  - specialize (H q rest eq_refl). rewrite H. destruct (cache_get cfg now (question_key q) c) as [[[m ttl]|] c']; cbn [fst]; split; try reflexivity.
    do 2 eexists. repeat split.
Qed.

(** Resolve begins ... *)
Theorem C70_cache_begins : forall packable cfg s id req now s' out look,
  step packable cfg s (EStart id req now) = Some (s', out) ->
  (forall q rest, m_question (req_msg req) = q :: rest -> look 0 = fst (cache_get cfg now (question_key q) (s_cache s))) ->
  outputs id (caching_resolve cfg look req) out.
Proof.
  intros packable cfg s id req now s' out look E H. cbn [step] in E. unfold caching_resolve.
  destruct (existsb _ _); [discriminate|]. destruct (negb (caching_enabled cfg) || negb (is_request_cacheable req)).
  - injection E as _ <-. reflexivity.
  - pose proof (start_outputs cfg look 0 id req (m_question (req_msg req)) None now (s_cache s) (s_tasks s) H) as G.
    destruct (start_question _ _ _ _ _ _ _ _) as [[c tasks] o]. injection E as _ <-. apply G.
Qed.
Print Assumptions C70_cache_begins.

(** The cache when the call [t] has stored what it had to store. *)
Definition stored packable (cfg : caching_cfg) (now : Z) (t : task) (c : pf_state msg) : pf_state msg :=
  match tk_phase t with
  | Storing m ttl => match cache_entry packable cfg m ttl with Some (copy, d) => cache_put cfg now (tk_key t) copy d c | None => c end
  | _ => c
  end.

(** ... and continues with the result of the next resolver, at any later time: the call
    [id] waits with the questions [qs] left. *)
Theorem C70_cache_continues : forall packable cfg s id t tasks r s1 out1 look i q,
  take_task id (s_tasks s) = Some (t, tasks) -> tk_phase t = Waiting -> look i = None ->
  step packable cfg s (ENext id r) = Some (s1, out1) ->
  exists k, caching_loop cfg look i (tk_req t) (q :: tk_rest t) None = Next (tk_req t) k /\
    ((k r = Crash /\ out1 = [Crashed (Some id)]) \/
     (out1 = [] /\ exists t', take_task id (s_tasks s1) = Some (t', tasks) /\
        forall sx rest' now s2 out2, take_task id (s_tasks sx) = Some (t', rest') ->
          step packable cfg sx (EStore id now) = Some (s2, out2) ->
          (forall q' rest, tk_rest t = q' :: rest -> look (S i) = fst (cache_get cfg now (question_key q') (stored packable cfg now t' (s_cache sx)))) ->
          outputs id (k r) out2)).
Proof.
  intros packable cfg s id t tasks r s1 out1 look i q Ht Hp Hl E. cbn [caching_loop]. rewrite Hl. eexists. split; [reflexivity|].
  cbn [step] in E. rewrite Ht, Hp in E. destruct r as [resp|e].
  - destruct (rs_msg resp) as [m|] eqn:Em; [|left; now injection E].
    right. destruct (adjust_ttls cfg (m_answer m)) as [ans ttl] eqn:Ea. injection E as <- <-. split; [reflexivity|].
    cbn [s_tasks take_task tk_id]. rewrite Nat.eqb_refl. eexists. split; [reflexivity|].
    intros sx rest' now s2 out2 Hx E2. cbn [step] in E2. rewrite Hx in E2. cbn [tk_phase tk_key tk_resp tk_req tk_rest] in E2.
    intros Hlk. cbn [stored tk_phase tk_key] in Hlk.
    pose proof (start_outputs cfg look (S i) id (tk_req t) (tk_rest t)
      (Some (Ok {| rs_msg := Some (set_answer ans m); rs_reason := rs_reason resp; rs_type := rs_type resp |})) now _ rest' Hlk) as G.
    destruct (start_question _ _ _ _ _ _ _ _) as [[c' tasks'] o]. injection E2 as _ <-. cbn [fst]. apply G.
  - right. injection E as <- <-. split; [reflexivity|]. cbn [s_tasks take_task tk_id]. rewrite Nat.eqb_refl. eexists. split; [reflexivity|].
    intros sx rest' now s2 out2 Hx E2. cbn [step] in E2. rewrite Hx in E2. cbn [tk_phase tk_key tk_resp tk_req tk_rest] in E2.
    intros Hlk. cbn [stored tk_phase tk_key] in Hlk.
    pose proof (start_outputs cfg look (S i) id (tk_req t) (tk_rest t) (Some (Err e)) now _ rest' Hlk) as G.
    destruct (start_question _ _ _ _ _ _ _ _) as [[c' tasks'] o]. injection E2 as _ <-. apply G.
Qed.
Print Assumptions C70_cache_continues.

(** The conditional resolver in the chain is that of Conditional.v. *)
Theorem C70_conditional_same : forall (U : Type) (mapping : list (str * U)) ask req next,
  exec (conditional_resolve mapping ask req) next = cond_resolve mapping ask next req.
Proof.
  intros U mapping ask req next. unfold conditional_resolve, cond_resolve. destruct (cond_dest mapping req) as [[u q|q]|]; auto.
  - destruct (ask u q) as [[r|e]|]; auto. now destruct (cond_response q r).
  - apply exec_pass.
Qed.
Print Assumptions C70_conditional_same.

(** ** Concrete cases *)
Definition cx_custom : custom_cfg :=
  {| cu_mapping := [($"printer.lan", [{| rr_name := []; rr_type := 0; rr_class := 1; rr_ttl := 0; rr_data := DA (IP4 [192;168;178;3]%N) |}]);
                    ($"out.lan", [{| rr_name := []; rr_type := 0; rr_class := 1; rr_ttl := 0; rr_data := DCNAME $"example.com." |}])];
     cu_zone := []; cu_ttl := 3600; cu_filter := true |}.
Definition cx_texts : texts :=
  {| ip_text := ex_ipstr; rcode_text := fun _ => []; type_text := fun _ => []; rr_text := fun _ => []; rtype_text := fun _ => [] |}.
Definition cx_start : civil := {| c_year := 2024; c_month := 1; c_day := 1; c_hour := 0; c_min := 0; c_sec := 0 |}.
Definition cx_cached : msg := set_answer [ex_a $"cached.com." [5;5;5;5]%N] (set_reply empty_msg (new_msg_with_question 7 $"cached.com" 1)).
Definition cx_world (up : list rr) : world nat :=
  {| w_filter := [28%N]; w_fqdn := true; w_ecs := {| ec_client := true; ec_forward := false; ec_mask4 := 0; ec_mask6 := 0 |};
     w_names := fun _ => [$"desktop"]; w_ede := true; w_entry := create_log_entry cx_texts false {| lc_fields := [FQuestion; FReason; FAnswer]; lc_ignore_sudn := false |} [] 0 cx_start 3; w_metrics := true;
     w_custom := cx_custom; w_new_id := fun _ => 1%N; w_records := custom_records cx_custom; w_fuel := 10;
     w_custom_rules := []; w_custom_fallback := false; w_custom_iter := fun _ => [];
     w_hosts := hosts_ex_cfg; w_table := fold_left split_add hosts_ex_entries empty_split; w_hosts4 := []; w_hosts6 := [];
     w_glob := ex_glob; w_cidr := ex_cidr; w_ip_string := ex_ipstr; w_allow := ex_lookup ex_allow_b; w_deny := ex_lookup ex_deny_b;
     w_blk := BlockingProps.ex_cfg; w_handler := HZeroIP 60; w_blk_iter := ex_iter; w_fqdn_ips := ex_fq; w_disabled := [];
     w_caching := {| cc_min := 0; cc_max := 0; cc_neg := 0; cc_prefetching := false;
                     cc_pf := {| pf_size := 3; pf_names_size := 3; pf_threshold := 0; pf_expires := 0 |} |};
     w_look := fun rq i => match nth_error (m_question (req_msg rq)) i with
                           | Some q => if str_eqb (extract_domain q) $"cached.com" then Some (cx_cached, 5000000000%Z) else None
                           | None => None
                           end;
     w_mapping := [($"fritz.box", 1)]; w_ask := ex_ask; w_cond_rules := []; w_cond_fallback := false; w_cond_iter := fun _ => [];
     w_sudn := {| su_appendix_g := true; su_enable := true |};
     w_upstream := ex_answer up |}.
Definition cx_req (n : str) (t : N) : request := BlockingProps.ex_req ex_desktop [] n t.
Definition cx_show (o : option result) : option rtype := match o with Some (Ok r) => Some (rs_type r) | _ => None end.
Definition cx_case (n : str) (t : N) : option rtype * list source :=
  let w := cx_world [ex_a $"x." [1;1;1;1]%N] in (cx_show (query_chain w (cx_req n t)), consulted (query_calls w (cx_req n t))).

(** One query for each source. *)
Example C70_cases :
  cx_case $"printer.lan" 28 = (Some FILTERED, [TypeFilter]) /\
  cx_case $"printer" 1 = (Some NOTFQDN, [TypeFilter; FqdnCheck]) /\
  cx_case $"printer.lan" 1 = (Some CUSTOMDNS, [TypeFilter; FqdnCheck; CustomData]) /\
  cx_case $"nas.lan" 1 = (Some HOSTSFILE, [TypeFilter; FqdnCheck; CustomData; HostsData]) /\
  cx_case $"ads.com" 1 = (Some BLOCKED, [TypeFilter; FqdnCheck; CustomData; HostsData; Lists]) /\
  cx_case $"cached.com" 1 = (Some CACHED, [TypeFilter; FqdnCheck; CustomData; HostsData; Lists; CacheData]) /\
  cx_case $"a.fritz.box" 1 = (Some CONDITIONAL, [TypeFilter; FqdnCheck; CustomData; HostsData; Lists; CacheData; CondUpstream]) /\
  cx_case $"a.test" 1 = (Some SPECIAL, [TypeFilter; FqdnCheck; CustomData; HostsData; Lists; CacheData; CondUpstream; SpecialNames]) /\
  cx_case $"example.com" 1 = (Some RESOLVED, precedence).
Proof. repeat split; vm_compute; reflexivity. Qed.

Lemma cx_distinct : distinct_cfg cx_custom.
Proof.
  assert (forall l : list (str * list rr), NoDup (map (fun p => extract_domain_only (fst p)) l) -> distinct_names l) as H.
  { intros l Hl i j u es u' es' d Hi Hj Hu Hu'. apply plain_name_iff in Hu, Hu'.
    rewrite NoDup_nth_error in Hl. apply Hl.
    - rewrite map_length. apply nth_error_Some. congruence.
    - rewrite !nth_error_map, Hi, Hj. simpl. congruence. }
  split; apply H; vm_compute; repeat constructor; simpl; intuition congruence.
Qed.
Lemma cx_zones : distinct_zones [($"fritz.box", 1)].
Proof.
  intros i j z0 u z1 u' z Hi Hj _ _. destruct i as [|[|i]], j as [|[|j]]; try discriminate; reflexivity.
Qed.

Lemma cx_plain_custom w0 n : w_custom w0 = cx_custom -> In n [$"printer.lan."; $"nas.lan."; $"ads.com."; $"example.com."] ->
  @no_cname_to_follow (w_custom (U := nat) w0) {| q_name := n; q_type := 1; q_class := 1 |}.
Proof.
  intros -> Hn. right. intros recs e t Hd He Ht. apply (lookup_decides_iff cx_custom _ recs cx_distinct) in Hd.
  cbn [In] in Hn. destruct Hn as [<-|[<-|[<-|[<-|[]]]]]; vm_compute in Hd; try discriminate.
  injection Hd as <-. destruct He as [<-|[]]. discriminate.
Qed.

Example C70_hypotheses : let w := cx_world [ex_a $"x." [1;1;1;1]%N] in forall n, In n [$"printer.lan."; $"nas.lan."; $"ads.com."; $"example.com."] ->
  let q := {| q_name := n; q_type := 1; q_class := 1 |} in
  m_question (req_msg (cx_req n 1)) = [q] /\ upstream_kind w /\ simple_custom w q /\
  regular w hosts_ex_entries ex_on_allow ex_on_deny q /\ exists arr, prepared w (cx_req n 1) arr.
Proof.
  intros w n Hn q. pose proof (cx_plain_custom w n eq_refl Hn) as Hc. fold q in Hc.
  assert (m_question (req_msg (cx_req n 1)) = [q]) as Hq.
  { cbn [In] in Hn. destruct Hn as [<-|[<-|[<-|[<-|[]]]]]; reflexivity. }
  split; [exact Hq|]. split; [intros rq x [= <-]; reflexivity|]. split; [right; split; [exact Hc|cbn; lia]|]. split.
  - split; [reflexivity|]. split; [reflexivity|]. split; [exact Hc|]. split; [cbn; lia|]. split; [exact cx_distinct|]. split; [discriminate|].
    split. { apply lowered_iff. cbn [In] in Hn. destruct Hn as [<-|[<-|[<-|[<-|[]]]]]; reflexivity. }
    split; [intros t m a; apply split_get_spec|]. split; [exact cx_zones|]. exact ex_setting.
  - destruct (ecs_shape (w_ecs w) (cx_req n 1)) as [E|[rq [E _]]].
    + exfalso. cbn [In] in Hn. destruct Hn as [<-|[<-|[<-|[<-|[]]]]]; vm_compute in E; discriminate.
    + eexists. exists rq. split; [|reflexivity]. intros next. rewrite E. apply forwarded_pass.
Qed.

Lemma before_position s t : before s t -> position s < position t.
Proof.
  assert (forall i x, nth_error precedence i = Some x -> i = position x) as H.
  { intros i x. do 9 (destruct i as [|i]; [intros [= <-]; reflexivity|]). destruct i; discriminate. }
  intros [a [b [c E]]].
  assert (nth_error precedence (length a) = Some s) as H1 by (rewrite E, nth_error_app2, Nat.sub_diag; auto).
  assert (nth_error precedence (length (a ++ s :: b)) = Some t) as H2.
  { replace (a ++ s :: b ++ t :: c) with ((a ++ s :: b) ++ t :: c) in E by (rewrite <- app_assoc; reflexivity).
    rewrite E, nth_error_app2, Nat.sub_diag; auto. }
  apply H in H1, H2. rewrite app_length in H2. cbn in H2. lia.
Qed.

(** The lists are the first source with an answer for a denied name. *)
Example C70_first_case : let w := cx_world [ex_a $"x." [1;1;1;1]%N] in
  forall arr, prepared w (cx_req $"ads.com." 1) arr ->
  first_with_answer w hosts_ex_entries ex_on_allow ex_on_deny arr {| q_name := $"ads.com."; q_type := 1; q_class := 1 |} Lists.
Proof.
  intros w arr [e [He ->]]. specialize (He (fun _ => None)).
  assert (e = cx_req $"ads.com." 1) as -> by (vm_compute in He; injection He as <-; reflexivity). clear He.
  set (arr := set_req_names _ _). set (q := {| q_name := $"ads.com."; q_type := 1; q_class := 1 |}).
  assert (plain_name (q_name q) $"ads.com") as Hn by (apply plain_name_iff; reflexivity).
  split.
  - apply (has_answer_at w _ _ _ q Lists arr _ Hn).
    destruct (C24_blocked_iff ex_glob ex_cidr ex_ipstr (ex_lookup ex_allow_b) (ex_lookup ex_deny_b) ex_on_allow ex_on_deny BlockingProps.ex_cfg
      (HZeroIP 60) ex_iter ex_fq [] arr ex_setting) as [_ [_ B]].
    edestruct B as [q' [n' [[pre [post [A1 [A2 _]]]] D2]]]; [vm_compute; reflexivity|].
    change (m_question (req_msg arr)) with [q] in A1. destruct pre as [|? [|? pre]]; try discriminate. injection A1 as <- _.
    now rewrite (plain_fun _ _ _ A2 Hn) in D2.
  - intros s Hb Ha. apply (has_answer_at w _ _ _ q s arr _ Hn) in Ha.
    assert (In s [TypeFilter; FqdnCheck; CustomData; HostsData]) as Hs.
    { apply before_position in Hb. destruct s; cbn in Hb |- *; try lia; tauto. }
    cbn [In] in Hs. destruct Hs as [<-|[<-|[<-|[<-|[]]]]].
    + cbn in Ha. destruct Ha as [Ha|[]]. discriminate.
    + destruct Ha as [_ Ha]. apply Ha. cbn. tauto.
    + destruct Ha as [recs [ans [Hd _]]]. apply (lookup_decides_iff cx_custom _ recs cx_distinct) in Hd. vm_compute in Hd. discriminate.
    + destruct Ha as [_ [a Ha]]. apply split_get_spec in Ha. vm_compute in Ha. discriminate.
Qed.

(** ** Where the full claim fails. *)

(** An answer of the upstreams is replaced by a block answer: a later source was consulted. *)
Theorem C70_block_answer_without_upstream_refuted : exists (w : world nat) req q r,
  m_question (req_msg req) = [q] /\ upstream_kind w /\ query_chain w req = Some (Ok r) /\
  rs_type r = kind Lists /\ ~ only_up_to Lists (consulted (query_calls w req)) /\ In Upstreams (consulted (query_calls w req)).
Proof.
  exists (cx_world [ex_a $"x.org." [9;9;9;9]%N; {| rr_name := $"x.org."; rr_type := 5; rr_class := 1; rr_ttl := 9; rr_data := DCNAME $"ads.com." |}]),
    (cx_req $"x.org" 1). do 2 eexists.
  split; [reflexivity|]. split; [intros rq x [= <-]; reflexivity|]. split; [vm_compute; reflexivity|]. split; [reflexivity|].
  assert (consulted (query_calls (cx_world [ex_a $"x.org." [9;9;9;9]%N; {| rr_name := $"x.org."; rr_type := 5; rr_class := 1; rr_ttl := 9; rr_data := DCNAME $"ads.com." |}])
    (cx_req $"x.org" 1)) = precedence) as -> by (vm_compute; reflexivity).
  split; [|cbn; tauto]. intros [a [c [E1 E2]]]. rewrite E1 in E2. apply app_inv_head in E2. injection E2 as E2. subst c.
  do 9 (destruct a as [|? a]; [discriminate|]). destruct a; discriminate.
Qed.
Print Assumptions C70_block_answer_without_upstream_refuted.

(** A configured CNAME leads to a name which is not configured: the answer is of the kind
    of the custom mapping but the upstreams were asked. *)
Theorem C70_custom_without_upstream_refuted : exists (w : world nat) req q r,
  m_question (req_msg req) = [q] /\ upstream_kind w /\ query_chain w req = Some (Ok r) /\
  rs_type r = kind CustomData /\ ~ screened r /\ In Upstreams (consulted (query_calls w req)).
Proof.
  exists (cx_world [ex_a $"example.com." [1;1;1;1]%N]), (cx_req $"out.lan" 1). do 2 eexists.
  split; [reflexivity|]. split; [intros rq x [= <-]; reflexivity|]. split; [vm_compute; reflexivity|]. split; [reflexivity|].
  split; [intros [H _]; discriminate|]. vm_compute. tauto.
Qed.
Print Assumptions C70_custom_without_upstream_refuted.

(** With several questions the cache can answer one after another was sent upstream. *)
Theorem C70_cached_without_upstream_refuted : exists (w : world nat) req r,
  upstream_kind w /\ query_chain w req = Some (Ok r) /\
  rs_type r = kind CacheData /\ In Upstreams (consulted (query_calls w req)).
Proof.
  exists (cx_world [ex_a $"example.com." [1;1;1;1]%N]),
    (set_req_msg (set_question [{| q_name := $"example.com."; q_type := 1; q_class := 1 |}; {| q_name := $"cached.com."; q_type := 1; q_class := 1 |}]
       (new_msg_with_question 7 $"example.com" 1)) (cx_req $"example.com" 1)). eexists.
  split; [intros rq x [= <-]; reflexivity|]. split; [vm_compute; reflexivity|]. split; [reflexivity|]. vm_compute. tauto.
Qed.
Print Assumptions C70_cached_without_upstream_refuted.
