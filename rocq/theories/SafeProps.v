(** No query crashes the resolver chain (C108). *)
From Coq Require Import String Ascii List Arith Bool NArith ZArith Lia.
From Verif Require Import Str StrFacts Dns Resolver ResolverFacts Caching Blocking Custom CustomProofs CustomProps Conditional
  Rewriter Sudn Ecs ClientNames QueryLog Arpa Hosts Chain RedisSpec RedisProps Utf8Facts SafeSpec BlockingProps HostsProps ConditionalProps ChainProps.
Import ListNotations.

Inductive safe_for (P : request -> Prop) : prog -> Prop :=
| safe_done r : full r -> safe_for P (Done r)
| safe_next rq k : P rq -> (forall r, full r -> safe_for P (k r)) -> safe_for P (Next rq k).
Notation safe := (safe_for asked).

Definition total_for (P : request -> Prop) (next : next_fn) : Prop := forall rq, P rq -> exists r, next rq = Some r /\ full r.

Lemma safe_exec (P : request -> Prop) p next : safe_for P p -> total_for P next -> exists r, exec p next = Some r /\ full r.
Proof.
  intros H Hn. induction H as [r Hr|rq k Hq Hk IH]; cbn [exec]; [eauto|].
  destruct (Hn rq Hq) as [r [E Hr]]. rewrite E. now apply IH.
Qed.

Lemma link_for (A B : request -> Prop) p next : (forall rq, A rq -> safe_for B (p rq)) -> total_for B next -> total_for A (link p next).
Proof. intros Hp Hn rq Hq. unfold link. eapply safe_exec; eauto. Qed.

Lemma safe_pass (P : request -> Prop) rq : P rq -> safe_for P (pass rq).
Proof. intros H. constructor; auto. intros r Hr. now constructor. Qed.

Lemma safe_bind p k : safe p -> (forall r, full r -> safe (k r)) -> safe (bind p k).
Proof. intros H Hk. induction H as [r Hr|rq k' Hq Hk' IH]; cbn [bind]; auto. constructor; auto. Qed.

Lemma full_err e : full (Err e).
Proof. discriminate. Qed.
Lemma full_ok x m : rs_msg x = Some m -> full (Ok x).
Proof. intros H y [= <-]. congruence. Qed.
#[local] Hint Resolve full_err safe_pass : core.
Ltac fin := constructor; eapply full_ok; reflexivity.

Definition stage_safe (p : request -> prog) : Prop := forall rq, asked rq -> safe (p rq).

Definition stage_total (p : request -> prog) : Prop :=
  forall rq next, asked rq -> total next -> exists r, exec (p rq) next = Some r /\ full r.

Lemma safe_total p : stage_safe p -> stage_total p.
Proof. intros H rq next Hq Hn. apply (safe_exec asked); auto. Qed.

Lemma chain_total rs last : Forall stage_total rs -> total last -> total (chain rs last).
Proof.
  intros H Hl. induction H as [|p rs Hp _ IH]; cbn [chain fold_right]; auto.
  intros rq Hq. unfold link. apply Hp; auto.
Qed.

Lemma asked_cons rq : asked rq -> exists q qs, m_question (req_msg rq) = q :: qs.
Proof. unfold asked. destruct (m_question (req_msg rq)); [congruence|eauto]. Qed.

Lemma filtering_safe (P : request -> Prop) types rq : asked rq -> P rq -> safe_for P (filtering_resolve types rq).
Proof.
  intros Hq Hp. destruct (asked_cons rq Hq) as [q [qs E]]. unfold filtering_resolve. rewrite E. destruct (existsb _ _); auto. fin.
Qed.

Lemma fqdn_safe (P : request -> Prop) b rq : asked rq -> P rq -> safe_for P (fqdn_only_resolve b rq).
Proof.
  intros Hq Hp. destruct (asked_cons rq Hq) as [q [qs E]]. unfold fqdn_only_resolve. destruct b; auto. rewrite E. destruct (negb _); auto. fin.
Qed.

Ltac no_pass E := unfold pass in E; cbv beta iota in E; repeat match type of E with (if ?b then _ else _) = _ => destruct b end; discriminate E.

Lemma ecs_safe c rq : masks_fit c -> exists rq', ecs_resolve c rq = pass rq' /\
  m_question (req_msg rq') = m_question (req_msg rq) /\ req_client_id rq' = req_client_id rq.
Proof.
  intros [H4 [H6 H46]].
  destruct (ChainProofs.ecs_shape c rq) as [E|[rq' [E [Hrq [_ Hi]]]]].
  - exfalso. unfold ecs_resolve in E. destruct (ecs_enabled c); [|discriminate].
    set (so := get_edns0_option 8 (req_msg rq)) in *. set (r1 := ecs_client c so rq) in *.
    assert (forall i mask, (is_v4 i = true -> mask <= 32)%N -> (mask <= 128)%N -> mask_ip i mask <> None) as Hm.
    { intros [b|b] mask A1 A2; cbn.
      - destruct (mask <=? 32)%N eqn:El; [discriminate|]. apply N.leb_gt in El. specialize (A1 eq_refl). lia.
      - destruct (mask <=? 128)%N eqn:El; [discriminate|]. apply N.leb_gt in El. lia. }
    destruct ((0 <? ec_mask4 c)%N || (0 <? ec_mask6 c)%N); [|no_pass E].
    unfold set_subnet in E.
    destruct (match so with Some (EOSubnet _ _ _ (Some a)) => if ec_forward c then Some a else req_ip r1 | _ => req_ip r1 end) as [i|];
      [|no_pass E].
    destruct (is_v4 i && (0 <? ec_mask4 c)%N) eqn:E4.
    + destruct (mask_ip i (ec_mask4 c)) eqn:Em; [no_pass E|]. apply (Hm i) in Em; auto. lia.
    + destruct (0 <? ec_mask6 c)%N eqn:E6; [|no_pass E].
      destruct (mask_ip i (ec_mask6 c)) eqn:Em; [no_pass E|]. apply (Hm i) in Em; auto.
      intros Hv. rewrite Hv in E4. cbn in E4. apply N.ltb_ge in E4. lia.
  - eauto.
Qed.

Lemma ede_safe (P : request -> Prop) b rq : P rq -> safe_for P (ede_resolve b rq).
Proof.
  intros Hq. unfold ede_resolve. destruct (negb b); auto. constructor; auto. intros [x|e] Hr; constructor; auto.
  intros y [= <-]. specialize (Hr x eq_refl). unfold add_extra_reasoning.
  destruct (to_extended_error_code _); auto. destruct (rs_msg x); auto; discriminate.
Qed.

Lemma fill_fields_some T privacy rq x ms fs e : asked rq -> rs_msg x <> None -> fill_fields T privacy rq x ms fs e <> None.
Proof.
  intros Hq Hx. destruct (asked_cons rq Hq) as [q [qs E]]. revert e. induction fs as [|f fs IH]; intros e; cbn [fill_fields]; [discriminate|].
  destruct (rs_msg x) as [m|] eqn:Em; [|congruence]. destruct f; cbn [fill_field]; rewrite ?Em, ?E; apply IH.
Qed.

Lemma logging_safe (P : request -> Prop) entry rq :
  (forall rq r, exists T privacy cfg inst instant start ms, entry rq r = create_log_entry T privacy cfg inst instant start ms rq r) ->
  asked rq -> P rq -> safe_for P (logging_resolve entry rq).
Proof.
  intros He Hq Hp. constructor; auto. intros [x|e] Hr; [|constructor; auto].
  destruct (He rq x) as [T [privacy [cfg [inst [instant [start [ms ->]]]]]]].
  destruct (create_log_entry _ _ _ _ _ _ _ _ _) eqn:E; [constructor; exact Hr|].
  exfalso. revert E. apply fill_fields_some; auto.
Qed.

Lemma metrics_safe b rq : asked rq -> (b = true -> Forall valid_utf8 (req_names rq)) -> safe (metrics_resolve b rq).
Proof.
  intros Hq Hv. destruct (asked_cons rq Hq) as [q [qs E]]. constructor; auto. intros r Hr. destruct b; [|constructor; auto]. rewrite E.
  rewrite (proj2 (client_label_iff rq) (Hv eq_refl)).
  destruct r as [x|e]; [|constructor; auto]. destruct (rs_msg x) eqn:Ex; [constructor; auto|]. exfalso. exact (Hr x eq_refl Ex).
Qed.

Lemma process_entries_safe cfg new_id proc rq q cn es : asked rq ->
  (forall cn' rq', asked rq' -> safe (proc cn' rq')) -> forall acc, safe (process_entries cfg new_id proc rq q cn es acc).
Proof.
  intros Hq Hp. induction es as [|e es IH]; intros acc; cbn [process_entries].
  - destruct acc; [destruct (cu_filter cfg); auto|]; fin.
  - destruct (rr_data e); auto; try (constructor; auto; fail).
    destruct (_ =? _)%N; auto. destruct (str_in _ _); [constructor; auto|].
    apply safe_bind; [apply Hp; discriminate|]. intros [x|err] Hr; [|constructor; auto].
    destruct (rs_msg x) eqn:Ex; auto. exfalso. exact (Hr x eq_refl Ex).
Qed.

Lemma process_request_safe cfg new_id fuel : forall cn rq, asked rq -> safe (process_request cfg new_id (Done (Err [])) fuel cn rq).
Proof.
  induction fuel as [|fuel IH]; intros cn rq Hq; cbn [process_request]; [constructor; auto|].
  destruct (asked_cons rq Hq) as [q [qs E]]. rewrite E. destruct (first_mapped _ _); auto. apply process_entries_safe; auto.
Qed.

Lemma custom_safe cfg new_id records fuel : stage_safe (custom_resolve cfg new_id (Done (Err [])) records fuel).
Proof.
  intros rq Hq. unfold custom_resolve. destruct (asked_cons rq Hq) as [q [qs E]]. rewrite E.
  destruct (handle_reverse _ _ _ _) as [x|] eqn:Eh; [|now apply process_request_safe].
  constructor. unfold handle_reverse in Eh. destruct (_ =? _)%N; [|discriminate]. destruct (mget _ _ _); [|discriminate].
  injection Eh as <-. eapply full_ok; reflexivity.
Qed.

Lemma custom_total cfg new_id records fuel : enough cfg fuel -> stage_total (custom_resolve cfg new_id Crash records fuel).
Proof.
  intros Hf rq next Hq Hn. destruct (C34_terminates cfg new_id Crash (Done (Err [])) fuel fuel records rq next Hf Hf) as [-> _].
  apply (safe_exec asked); auto. now apply custom_safe.
Qed.

Lemma hosts_safe cfg d o4 o6 : stage_safe (hosts_resolve cfg d o4 o6).
Proof.
  intros rq Hq. unfold hosts_resolve. destruct (negb _); auto. destruct (asked_cons rq Hq) as [q [qs E]]. rewrite E.
  destruct (hosts_reverse _ _ _ _ _) as [x|] eqn:Eh.
  - constructor. unfold hosts_reverse in Eh. destruct (negb _); [discriminate|]. destruct (parse_arpa _); [|discriminate].
    destruct (_ && _); [discriminate|]. destruct (find_host _ _) as [[h al]|]; [|discriminate]. injection Eh as <-. eapply full_ok; reflexivity.
  - destruct (split_get _ _ _); auto. fin.
Qed.

Lemma blocking_safe glob cidr ips allow deny cfg h iter fq dis : stage_safe (blocking_resolve glob cidr ips allow deny cfg h iter fq dis).
Proof.
  intros rq Hq. unfold blocking_resolve, resolve_groups. destruct (asked_cons rq Hq) as [q [qs E]].
  set (gs := groups_to_check _ _ _ _ _ _ _ _). cbv zeta.
  set (go_on := Next rq _).
  assert (safe go_on) as Hg.
  { constructor; auto. intros [x|e] Hr; [|constructor; auto]. destruct gs; [constructor; auto|].
    destruct (rs_msg x) as [m|] eqn:Em; [|constructor; auto]. destruct (screen _ _ _ _ _); [|constructor; auto]. rewrite E. fin. }
  destruct gs; auto.
  destruct (handle_denylist _ _ _ _ _ _ _) as [p|] eqn:Ed; auto.
  clear -Ed Hq. revert Ed. generalize (m_question (req_msg rq)). intros qs. induction qs as [|x qs IH]; cbn [handle_denylist]; [discriminate|].
  repeat match goal with |- context[match ?c with _ => _ end] => destruct c end; auto; intros [= <-]; auto; fin.
Qed.

Lemma caching_safe c look : stage_safe (fun rq => caching_resolve c (look rq) rq).
Proof.
  intros rq Hq. unfold caching_resolve. destruct (_ || _); auto. destruct (asked_cons rq Hq) as [q [qs E]]. rewrite E.
  assert (forall l i resp, (l = [] -> exists r, resp = Some r /\ full r) -> safe (caching_loop c (look rq) i rq l resp)) as H.
  { induction l as [|x l IH]; intros i resp Hr; cbn [caching_loop].
    - destruct (Hr eq_refl) as [r [-> Hf]]. now constructor.
    - destruct (look rq i) as [[m ttl]|]; [fin|]. constructor; auto. intros [y|e] Hy.
      + destruct (rs_msg y) eqn:Em; [|exfalso; exact (Hy y eq_refl Em)]. apply IH. intros _. eexists. split; [reflexivity|].
        eapply full_ok; reflexivity.
      + apply IH. intros _. eauto. }
  apply H. discriminate.
Qed.

Lemma sudn_safe c : stage_safe (sudn_resolve c).
Proof.
  intros rq Hq. unfold sudn_resolve. destruct (negb _); auto. destruct (asked_cons rq Hq) as [q [qs E]]. rewrite E.
  destruct (first_mapped _ _) as [h|]; auto. destruct (sudn_handle c h rq q) as [x|] eqn:Eh; auto.
  constructor. destruct h; cbn in Eh; try discriminate.
  - injection Eh as <-. eapply full_ok; reflexivity.
  - injection Eh as <-. unfold sudn_localhost. destruct (_ =? _)%N; [|destruct (_ =? _)%N]; eapply full_ok; reflexivity.
  - destruct (su_appendix_g c); [|discriminate]. injection Eh as <-. eapply full_ok; reflexivity.
  - destruct (_ =? _)%N; [discriminate|]. injection Eh as <-. eapply full_ok; reflexivity.
Qed.

Lemma asked_first_name n rq : asked rq -> asked (set_first_name n rq).
Proof. intros Hq. unfold set_first_name. destruct (asked_cons rq Hq) as [q [qs E]]. rewrite E. discriminate. Qed.

Lemma cond_dest_asked {U} (mapping : list (str * U)) rq : asked rq ->
  (exists u rq', cond_dest mapping rq = Some (ToUpstream u rq') /\ asked rq') \/ cond_dest mapping rq = Some (ToNext rq).
Proof.
  intros Hq. unfold cond_dest. destruct (cond_table mapping); auto. destruct (asked_cons rq Hq) as [q [qs E]]. rewrite E.
  cbv zeta. destruct (contains_byte _ _); [destruct (first_mapped _ _)|destruct (mget _ _ _)]; auto; left; eauto using asked_first_name.
Qed.

Lemma cond_response_full rq x : asked rq -> rs_msg x <> None -> exists y, cond_response rq x = Some y /\ full (Ok y).
Proof.
  intros Hq Hx. destruct (asked_cons rq Hq) as [q [qs E]]. unfold cond_response. rewrite E. destruct (rs_msg x); [|congruence].
  eexists. split; [reflexivity|]. eapply full_ok; reflexivity.
Qed.

Lemma conditional_safe {U} (mapping : list (str * U)) ask : (forall u, total (ask u)) -> stage_safe (conditional_resolve mapping ask).
Proof.
  intros Ha rq Hq. unfold conditional_resolve. destruct (cond_dest_asked mapping rq Hq) as [[u [rq' [-> Hq']]]| ->]; auto.
  destruct (Ha u rq' Hq') as [[x|e] [-> Hr]]; [|constructor; auto].
  destruct (cond_response_full rq' x Hq' (Hr x eq_refl)) as [y [-> Hy]]. now constructor.
Qed.

(** ** Behind a rewriter: the inner resolver ends in the no-op resolver. *)
Definition inner_total (inner : inner_fn) : Prop :=
  forall rq, asked rq -> exists r m, inner rq = Some (r, m) /\ m_question m <> [].

Lemma rewrite_questions_nil iter qs : forall i names, fst (rewrite_questions iter i qs names) = [] -> qs = [].
Proof.
  destruct qs as [|q qs]; intros i names; auto. cbn [rewrite_questions]. cbv zeta.
  destruct (str_eqb _ _); destruct (rewrite_questions _ _ _ _); discriminate.
Qed.

Lemma rewriter_safe fallback iter inner : inner_total inner -> stage_safe (rewriter_resolve fallback iter inner).
Proof.
  intros Hi rq Hq. unfold rewriter_resolve. destruct (rewrite_questions iter 0 (m_question (req_msg rq)) []) as [qs names] eqn:Er.
  set (b := match names with [] => false | _ => true end). cbv zeta.
  set (rq1 := if b then set_req_msg (set_question qs (req_msg rq)) rq else rq).
  assert (asked rq1) as H1.
  { subst rq1. destruct b; auto. intros E. apply Hq. apply (rewrite_questions_nil iter _ 0 []). rewrite Er. exact E. }
  destruct (Hi rq1 H1) as [r [m [-> Hm]]].
  assert (asked (if b then rq else set_req_msg m rq)) as H2 by (destruct b; auto).
  destruct r as [x|e].
  - destruct (rs_msg x) as [mm|] eqn:Em; auto. destruct (_ && _); auto. destruct b; [fin|]. constructor. eapply full_ok; exact Em.
  - destruct fallback; auto. constructor; auto.
Qed.

Lemma inner_conditional_total {U} (mapping : list (str * U)) ask : (forall u, total (ask u)) -> inner_total (inner_conditional mapping ask).
Proof.
  intros Ha rq Hq. unfold inner_conditional, cond_resolve. destruct (cond_dest_asked mapping rq Hq) as [[u [rq' [-> Hq']]]| ->].
  - destruct (Ha u rq' Hq') as [[x|e] [-> Hr]]; [|eauto]. destruct (cond_response_full rq' x Hq' (Hr x eq_refl)) as [y [-> Hy]]. eauto.
  - cbn. eauto.
Qed.

Lemma records_from cfg d es : In (d, es) (custom_records cfg) ->
  exists d' es', In (d', es') (cu_mapping cfg ++ cu_zone cfg) /\ forall e, In e es -> exists e', In e' es' /\ rr_data e' = rr_data e.
Proof.
  unfold custom_records. cbv zeta.
  assert (forall (f : list rr -> list rr) l m (P : str -> list rr -> Prop), (forall d es, In (d, es) m -> P d es) -> (forall d es k, In (d, es) l -> P k (f es)) ->
    forall d es, In (d, es) (fold_left (fun m p => mput str_eqb (extract_domain_only (fst p)) (f (snd p)) m) l m) -> P d es) as H.
  { clear. intros f l. induction l as [|[d0 e0] l IH]; intros m P Hm Hl d es; cbn [fold_left]; auto.
    apply IH; [|intros; eapply Hl; right; eauto].
    intros d' es' Hin. cbn [fst snd] in Hin. clear IH. revert Hm Hin. induction m as [|[k v] m IHm]; cbn [mput]; intros Hm Hin.
    - destruct Hin as [[= <- <-]|[]]. eapply Hl. now left.
    - destruct (str_eqb _ k).
      + destruct Hin as [[= <- <-]|Hin]; [eapply Hl; now left|]. apply Hm. now right.
      + destruct Hin as [[= <- <-]|Hin]; [apply Hm; now left|]. apply IHm; auto. intros; apply Hm; now right. }
  set (P := fun (_ : str) es => exists d' es', In (d', es') (cu_mapping cfg ++ cu_zone cfg) /\ forall e, In e es -> exists e', In e' es' /\ rr_data e' = rr_data e).
  refine (H (fun es => es) (cu_zone cfg) _ P _ _ d es).
  - apply (H (map (set_ttl (cu_ttl cfg)))).
    + intros ? ? [].
    + intros d1 es1 k Hin. exists d1, es1. split; [apply in_or_app; now left|]. intros e He. apply in_map_iff in He as [e' [<- He]]. eauto.
  - intros d1 es1 k Hin. exists d1, es1. split; [apply in_or_app; now right|]. eauto.
Qed.

Lemma process_entries_noop cfg new_id proc rq q cn es : (forall e t, In e es -> rr_data e <> DCNAME t) ->
  forall acc, exists r, exec (process_entries cfg new_id proc rq q cn es acc) noop = Some r.
Proof.
  intros Hn. induction es as [|e es IH]; intros acc; cbn [process_entries].
  - destruct acc; [destruct (cu_filter cfg)|]; cbn; eauto.
  - assert (forall e0 t, In e0 es -> rr_data e0 <> DCNAME t) as Hn' by (intros; apply Hn; now right). specialize (IH Hn').
    destruct (rr_data e) eqn:Ed; auto; try (cbn; eauto; fail). exfalso. eapply Hn; [now left|exact Ed].
Qed.

Lemma inner_custom_total cfg new_id records fuel : 0 < fuel -> without_cnames cfg ->
  inner_total (inner_prog (custom_resolve cfg new_id Crash records fuel)).
Proof.
  intros Hf Hc rq Hq. unfold inner_prog, custom_resolve. destruct (asked_cons rq Hq) as [q [qs E]]. rewrite E.
  destruct (handle_reverse _ _ _ _); [cbn; eauto|]. destruct fuel as [|fuel]; [lia|]. cbn [process_request]. rewrite E.
  destruct (first_mapped _ _) as [es|] eqn:Ef; [|cbn; eauto].
  destruct (process_entries_noop cfg new_id (process_request cfg new_id Crash fuel) rq q [] es) with (acc := @nil rr) as [r ->]; [|eauto].
  apply first_mapped_In in Ef as [k Hk]. destruct (records_from cfg k es Hk) as [d' [es' [Hin He]]].
  intros e t Hi Hd. destruct (He e Hi) as [e' [Hi' Hd']]. apply (Hc d' es' e' t Hin Hi'). congruence.
Qed.

Lemma rest_total {U} (w : world U) : sound_world w -> total_for asked (chain (map snd (skipn 7 (query_resolvers w))) (w_upstream w)).
Proof.
  intros [He [Hl [Hf [Hc [Ha Hu]]]]].
  refine (chain_total (map snd (skipn 7 (query_resolvers w))) (w_upstream w) _ Hu). cbn [query_resolvers skipn map snd].
  repeat (apply Forall_cons; [|]); [..|constructor].
  - unfold with_rewriter, custom_stage. destruct (w_custom_rules w) eqn:Er.
    + now apply custom_total.
    + apply safe_total, rewriter_safe, inner_custom_total; [lia|]. apply Hc. discriminate.
  - apply safe_total, hosts_safe.
  - apply safe_total, blocking_safe.
  - apply safe_total, caching_safe.
  - unfold with_rewriter. destruct (w_cond_rules w).
    + now apply safe_total, conditional_safe.
    + now apply safe_total, rewriter_safe, inner_conditional_total.
  - apply safe_total, sudn_safe.
Qed.

(** ** C108: in a sound world every request with a question gets a result, and every response
    has a message.  Missing from the full claim: custom CNAMEs together with rewriting rules,
    an IPv6 mask alone that is longer than 32 bits, and names of clients that are not valid UTF-8
    while metrics are collected; see the refutations. *)
Theorem C108_no_crash_partial : forall (U : Type) (w : world U) req, sound_world w -> m_question (req_msg req) <> [] ->
  (w_metrics w = true -> named_in_utf8 w (req_client_id req)) ->
  exists res, query_chain w req = Some res /\ forall r, res = Ok r -> rs_msg r <> None.
Proof.
  intros U w req Hw Hq Hv. unfold query_chain. pose proof (rest_total w Hw) as Hrest. destruct Hw as [He [Hl _]].
  set (A := fun rq => asked rq /\ req_client_id rq = req_client_id req).
  set (B := fun rq => asked rq /\ (w_metrics w = true -> Forall valid_utf8 (req_names rq))).
  assert (total_for A (chain (map snd (query_resolvers w)) (w_upstream w))) as H; [|exact (H req (conj Hq eq_refl))].
  change (map snd (query_resolvers w)) with (map snd (firstn 7 (query_resolvers w)) ++ map snd (skipn 7 (query_resolvers w))).
  cbn [query_resolvers firstn map snd app]. unfold chain. cbn [fold_right].
  apply link_for with A; [intros rq [H1 H2]; apply filtering_safe; [|split]; auto|].
  apply link_for with A; [intros rq [H1 H2]; apply fqdn_safe; [|split]; auto|].
  apply link_for with A.
  { intros rq [H1 H2]. destruct (ecs_safe (w_ecs w) rq He) as [rq' [-> [E1 E2]]]. apply safe_pass. split; [|congruence].
    unfold asked in *. congruence. }
  apply link_for with B.
  { intros rq [H1 H2]. apply safe_pass. split; [exact H1|]. intros Hm. exact (Hv Hm rq H2). }
  apply link_for with B; [intros rq H; now apply ede_safe|].
  apply link_for with B; [intros rq [H1 H2]; apply logging_safe; [exact Hl| |split]; auto|].
  apply link_for with asked; [intros rq [H1 H2]; now apply metrics_safe|].
  exact Hrest.
Qed.
Print Assumptions C108_no_crash_partial.

(** ** Concrete case *)
Lemma cx_sound : sound_world (cx_world [ex_a $"x." [1;1;1;1]%N]).
Proof.
  split; [cbn; repeat split; cbn; lia|]. split; [intros rq r; do 7 eexists; reflexivity|]. split; [vm_compute; lia|].
  split; [intros H; now elim H|]. split.
  - intros u rq _. eexists. split; [reflexivity|]. eapply full_ok; reflexivity.
  - intros rq _. eexists. split; [reflexivity|]. eapply full_ok; reflexivity.
Qed.
Lemma cx_named : named_in_utf8 (cx_world [ex_a $"x." [1;1;1;1]%N]) [].
Proof. intros rq _. constructor; [|constructor]. apply ascii_valid. repeat constructor. Qed.
Example C108_example : exists r, query_chain (cx_world [ex_a $"x." [1;1;1;1]%N]) (cx_req $"out.lan" 1) = Some (Ok r) /\ rs_type r = CUSTOMDNS.
Proof. eexists. split; [vm_compute; reflexivity|reflexivity]. Qed.

(** ** Where the full claim fails *)
Definition cx_with (ecs : ecs_cfg) (rules : list (str * str)) : world nat :=
  let w := cx_world [] in
  {| w_filter := w_filter w; w_fqdn := w_fqdn w; w_ecs := ecs; w_names := w_names w; w_ede := w_ede w; w_entry := w_entry w;
     w_metrics := w_metrics w; w_custom := w_custom w; w_new_id := w_new_id w; w_records := w_records w; w_fuel := w_fuel w;
     w_custom_rules := rules; w_custom_fallback := false; w_custom_iter := fun _ => rules;
     w_hosts := w_hosts w; w_table := w_table w; w_hosts4 := w_hosts4 w; w_hosts6 := w_hosts6 w; w_glob := w_glob w; w_cidr := w_cidr w;
     w_ip_string := w_ip_string w; w_allow := w_allow w; w_deny := w_deny w; w_blk := w_blk w; w_handler := w_handler w;
     w_blk_iter := w_blk_iter w; w_fqdn_ips := w_fqdn_ips w; w_disabled := w_disabled w; w_caching := w_caching w; w_look := w_look w;
     w_mapping := w_mapping w; w_ask := w_ask w; w_cond_rules := []; w_cond_fallback := false; w_cond_iter := fun _ => [];
     w_sudn := w_sudn w; w_upstream := w_upstream w |}.

Definition with_names {U} (names : request -> list str) (w : world U) : world U :=
  {| w_filter := w_filter w; w_fqdn := w_fqdn w; w_ecs := w_ecs w; w_names := names; w_ede := w_ede w; w_entry := w_entry w;
     w_metrics := w_metrics w; w_custom := w_custom w; w_new_id := w_new_id w; w_records := w_records w; w_fuel := w_fuel w;
     w_custom_rules := w_custom_rules w; w_custom_fallback := w_custom_fallback w; w_custom_iter := w_custom_iter w;
     w_hosts := w_hosts w; w_table := w_table w; w_hosts4 := w_hosts4 w; w_hosts6 := w_hosts6 w; w_glob := w_glob w; w_cidr := w_cidr w;
     w_ip_string := w_ip_string w; w_allow := w_allow w; w_deny := w_deny w; w_blk := w_blk w; w_handler := w_handler w;
     w_blk_iter := w_blk_iter w; w_fqdn_ips := w_fqdn_ips w; w_disabled := w_disabled w; w_caching := w_caching w; w_look := w_look w;
     w_mapping := w_mapping w; w_ask := w_ask w; w_cond_rules := w_cond_rules w; w_cond_fallback := w_cond_fallback w; w_cond_iter := w_cond_iter w;
     w_sudn := w_sudn w; w_upstream := w_upstream w |}.

(** An IPv6 mask of 64 bits alone: queries from IPv4 clients crash. *)
Theorem C108_mask_refuted : exists w req, (ec_mask4 (w_ecs w) <= 32 /\ ec_mask6 (w_ecs w) <= 128)%N /\
  w_custom_rules w = [] /\ (forall u, total (w_ask (U := nat) w u)) /\ total (w_upstream w) /\
  length (m_question (req_msg req)) = 1 /\ query_chain w req = None.
Proof.
  exists (cx_with {| ec_client := false; ec_forward := false; ec_mask4 := 0; ec_mask6 := 64 |} []), (cx_req $"example.com" 1).
  split; [cbn; lia|]. split; [reflexivity|]. destruct cx_sound as [_ [_ [_ [_ [Ha _]]]]]. split; [exact Ha|].
  split; [intros rq _; eexists; split; [reflexivity|]; eapply full_ok; reflexivity|]. split; [reflexivity|vm_compute; reflexivity].
Qed.
Print Assumptions C108_mask_refuted.

(** A rewriting rule (for other names) and a custom CNAME to a name outside: queries for the CNAME crash. *)
Theorem C108_cname_refuted : exists w req, masks_fit (w_ecs w) /\
  w_custom_rules w = [($"a", $"b")] /\ (forall u, total (w_ask (U := nat) w u)) /\ total (w_upstream w) /\
  length (m_question (req_msg req)) = 1 /\ query_chain w req = None.
Proof.
  exists (cx_with {| ec_client := false; ec_forward := false; ec_mask4 := 0; ec_mask6 := 0 |} [($"a", $"b")]), (cx_req $"out.lan" 1).
  split; [cbn; repeat split; cbn; lia|]. split; [reflexivity|]. destruct cx_sound as [_ [_ [_ [_ [Ha _]]]]]. split; [exact Ha|].
  split; [intros rq _; eexists; split; [reflexivity|]; eapply full_ok; reflexivity|]. split; [reflexivity|vm_compute; reflexivity].
Qed.
Print Assumptions C108_cname_refuted.

(** Metrics and a client whose identifier (here one byte, FF) is not valid UTF-8: its queries crash,
    whatever the configuration else; the names are those which the code gives to clients with an identifier. *)
Theorem C108_label_refuted : exists w req, sound_world (U := nat) w /\ w_metrics w = true /\ w_custom_rules w = [] /\
  (forall rq, req_client_id rq <> [] -> w_names w rq = [req_client_id rq]) /\
  length (m_question (req_msg req)) = 1 /\ query_chain w req = None.
Proof.
  set (names := fun rq => match req_client_id rq with [] => [$"desktop"] | c => [c] end).
  set (w0 := cx_world [ex_a $"x." [1;1;1;1]%N]).
  set (rq0 := cx_req $"example.com" 1).
  exists (with_names names w0).
  exists {| req_ip := req_ip rq0; req_client_id := [ascii_of_N 255]; req_proto := req_proto rq0; req_names := []; req_msg := req_msg rq0 |}.
  split; [exact cx_sound|]. split; [reflexivity|]. split; [reflexivity|].
  split; [intros rq H; cbn; unfold names; destruct (req_client_id rq); congruence|]. split; [reflexivity|vm_compute; reflexivity].
Qed.
Print Assumptions C108_label_refuted.
