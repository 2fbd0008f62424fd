(** What answering a query leaves in the log of the program with log.privacy on (C160). *)
From Coq Require Import String Ascii List Arith Bool NArith ZArith Lia.
From Verif Require Import Str StrFacts Num NumFacts Dns Resolver ResolverFacts ExpCache Caching Blocking BlockingProofs BlockingProps Custom Conditional
  Rewriter Sudn Ecs ClientNames QueryLog QueryLogSpec QueryLogProofs QueryLogProps Hosts HostsProps Chain ChainProofs ChainProps Trace TraceSpec TraceProofs.
From Verif Require LogOut.
Import ListNotations.
Open Scope list_scope.

Lemma request_ctx_built {U} T (w : world U) x req O : public T w x req O -> fields_built O (request_ctx T true x req).
Proof.
  intros P. unfold request_ctx. apply fields_cons; [apply one_out, (pu_id _ _ _ _ _ P)|]. apply fields_cons; [apply built_obfuscated|].
  apply fields_cons; [|apply fields_nil]. apply one_out, (pu_address _ _ _ _ _ P), ca_connection.
Qed.

(** Every line shows only public texts, texts of the code and texts without letters and digits, apart from seven kinds of
    lines of level debug, and from the line of level error for a query which failed because of a CNAME loop. *)
Theorem C160_lines_partial : forall (U : Type) T (w : world U) x req O l,
  public T w x req O -> entries_hidden T w x O -> In l (request_lines T true w x req) ->
  clean O l \/ plain O l \/
  (loop_line O l /\ exists names, query_chain w req = Some (Err ($"CNAME loop detected: [" ++ join $" " names ++ $"]"))).
Proof.
  intros U T w x req O l P He Hl. pose proof (request_ctx_built T w x req O P) as Hc. unfold request_lines in Hl.
  set (ctx := request_ctx T true x req) in *.
  destruct Hl as [<-|Hl].
  { left. apply say_clean; [exact Hc| |code]. apply fields_cons; [apply one_out, (pu_number _ _ _ _ _ P)|].
    apply fields_cons; [apply one_out, (pu_client_id _ _ _ _ _ P)|]. apply fields_cons; [destruct (req_proto req); code|apply fields_nil]. }
  apply in_app_iff in Hl as [Hl|Hl]; [|apply in_app_iff in Hl as [Hl|Hl]].
  - destruct (m_question (req_msg req)); [destruct Hl|]. pose proof (query_lines_fine T w x req O P He ctx Hc) as F.
    rewrite Forall_forall in F. destruct (F l Hl); auto.
  - unfold failure_lines in Hl. destruct (m_question (req_msg req)) as [|q qs].
    { destruct Hl as [<-|[]]. left. apply say_clean; [exact Hc|apply fields_nil|code]. }
    assert (clean O (say LogOut.LError ctx [] ($"error on processing request:panic occurred: " ++ x_panic x))) as Hp.
    { apply say_clean; [exact Hc|apply fields_nil|]. change ($"error on processing request:panic occurred: ") with ($"error on processing request:" ++ $"panic occurred: ").
      rewrite <- app_assoc. apply built_app; [code|]. apply built_app; [code|]. apply one_out, (pu_panic _ _ _ _ _ P). }
    destruct (query_chain w req) as [[p|e]|] eqn:Eq.
    + destruct (rs_msg p); [destruct Hl|]. destruct Hl as [<-|[]]. now left.
    + destruct (x_server_failed x e); [destruct Hl|]. destruct Hl as [<-|[]].
      assert (res_ok (built O) (good_error O) (Err e)) as Hg by (eapply (suffix_answers T w x req O P); [|exact Eq]; auto).
      cbn [res_ok] in Hg. destruct Hg as [Hg|[names Hg]].
      * left. apply say_clean; [exact Hc|apply fields_nil|]. apply built_app; [code|exact Hg].
      * right. right. subst e. split; [|exists names; reflexivity]. split; [reflexivity|]. split; [exists names; reflexivity|].
        cbn [ln_fields say]. apply with_fields_built; [exact Hc|apply fields_nil].
    + destruct Hl as [<-|[]]. now left.
  - destruct (x_write x) as [e|] eqn:Ew; [|destruct Hl]. destruct Hl as [<-|[]]. left. apply say_clean; [exact Hc|apply fields_nil|].
    apply built_app; [code|]. apply one_out. eapply pu_write; eauto.
Qed.
Print Assumptions C160_lines_partial.

(** What a clean line tells: each letter and digit is one of a public text or of a text of the code. *)
Theorem C160_letters : forall O l c, clean O l -> letter_or_digit c ->
  (In c (ln_text l) \/ exists k v, In (k, v) (ln_fields l) /\ In c v) -> exists a, (O a \/ In a code_texts) /\ In c a.
Proof.
  intros O l c [Ht Hf] Hc H. assert (exists s, built O s /\ In c s) as [s [Hs Hi]].
  { destruct H as [H|[k [v [H1 H2]]]]; [exists (ln_text l); auto|exists v; split; [exact (Hf _ _ H1)|exact H2]]. }
  clear - Hs Hi Hc. induction Hs as [|a b Ha Hb IH|a b Ha Hb IH|a b Ha Hb IH]; [destruct Hi| | |]; apply in_app_iff in Hi as [Hi|Hi]; auto;
    [exists a; auto|exists a; auto|]. exfalso. exact (Ha _ Hi Hc).
Qed.
Print Assumptions C160_letters.

(** With the level info (the default) or a higher one nothing is shown in plain unless the query failed because of a CNAME
    loop of the custom DNS records. *)
Theorem C160_info_partial : forall (U : Type) T (w : world U) x req O level l,
  public T w x req O -> entries_hidden T w x O -> level <> LogOut.LTrace -> level <> LogOut.LDebug -> In l (written T true w x level req) ->
  clean O l \/ (loop_line O l /\ exists names, query_chain w req = Some (Err ($"CNAME loop detected: [" ++ join $" " names ++ $"]"))).
Proof.
  intros U T w x req O level l P He H1 H2 Hl. unfold written in Hl. apply filter_In in Hl as [Hl Hv].
  destruct (C160_lines_partial U T w x req O l P He Hl) as [H|[H|H]]; auto. exfalso.
  assert (ln_level l = LogOut.LDebug) as E by (destruct H; assumption). rewrite E in Hv. destruct level; try contradiction; discriminate Hv.
Qed.
Print Assumptions C160_info_partial.

(** ** A query which is answered writes nothing at level info but the line of the query log on the console *)
Definition calm_event (e : up_event) : Prop := match e with UMany _ _ _ | UChoose _ | UClose _ => False | _ => True end.
Record calm {U} (x : outside U) : Prop := {
  calm_lookup r e : x_lookup x r <> Some (inl e);
  calm_lookup_events r e : In e (x_lookup_events x r) -> calm_event e;
  calm_cond_events u r e : In e (x_cond_events x u r) -> calm_event e;
  calm_tree_events r e : In e (x_tree_events x r) -> calm_event e;
  calm_room : x_room x = true;
  calm_unpack i : x_unpack x i = None;
  calm_pack i : x_pack x i = None;
  calm_write : x_write x = None }.

Section Quiet.
Context {U : Type}.
Variable T : texts.
Variable privacy : bool.
Variable w : world U.
Variable x : outside U.
Hypothesis Hx : calm x.
Definition low (l : line) : Prop := ln_level l = LogOut.LDebug \/ ln_level l = LogOut.LTrace.
Definition quiet (l : line) : Prop := low l \/ (ln_level l = LogOut.LInfo /\ ln_text l = $"query resolved" /\ x_console x = true).
Notation still := (Forall quiet).
Lemma debug_quiet ctx extra text : quiet (say LogOut.LDebug ctx extra text).
Proof. left. now left. Qed.
Lemma debug_one ctx extra text : still [say LogOut.LDebug ctx extra text].
Proof. constructor; [apply debug_quiet|constructor]. Qed.
Lemma up_still ctx qs es : (forall e, In e es -> calm_event e) -> still (map (up_line T privacy ctx qs) es).
Proof.
  intros H. apply Forall_forall. intros l Hl. apply in_map_iff in Hl as [e [<- He]]. specialize (H e He).
  destruct e; cbn [calm_event] in H; try contradiction; apply debug_quiet.
Qed.
Lemma entries_still ctx sub d r q cn : (forall cs rq, still (fst (sub cs rq))) -> forall es acc, still (entries_lines T privacy w ctx sub d r q cn es acc).
Proof.
  intros Hs. induction es as [|e es IH]; intros acc; cbn [entries_lines].
  - destruct acc; [constructor|]. apply debug_one.
  - destruct (rr_data e); try apply IH; try constructor. destruct (q_type q =? type_CNAME)%N; [apply IH|]. destruct (str_in _ _); [constructor|].
    pose proof (Hs (cn ++ [trim_suffix target $"."]) (target_request (w_new_id w (trim_suffix target $".")) r q (trim_suffix target $"."))) as Hsub.
    destruct (sub _ _) as [ls res]. cbn [fst] in Hsub. apply Forall_app. split; [exact Hsub|].
    destruct res as [[p|er]|]; try constructor. destruct (rs_msg p); [apply IH|constructor].
Qed.
Lemma custom_still ctx next : forall fuel cn r, still (custom_lines T privacy w ctx next fuel cn r).
Proof.
  induction fuel as [|fuel IH]; intros cn r; cbn [custom_lines]; [constructor|]. destruct (m_question (req_msg r)) as [|q qs]; [constructor|].
  destruct (first_mapped _ _); [|constructor]. apply entries_still. intros cs rq. cbn [fst]. apply IH.
Qed.
Lemma custom_stage_still ctx next r : still (custom_stage_lines T privacy w ctx next r).
Proof.
  unfold custom_stage_lines. destruct (m_question (req_msg r)); [constructor|]. destruct (handle_reverse _ _ _ _); [constructor|]. apply custom_still.
Qed.
Lemma rewrite_still ctx iter : forall qs i, still (rewrite_lines privacy x ctx iter i qs).
Proof.
  induction qs as [|q qs IH]; intros i; cbn [rewrite_lines]; [constructor|]. apply Forall_app. split; [|apply IH].
  destruct (str_eqb _ _); [constructor|]. destruct (rewrite_rule _ _) as [k v]. apply debug_one.
Qed.
Lemma hit_still b s : still (hit_lines x b s).
Proof. apply Forall_forall. intros l Hl. unfold hit_lines in Hl. apply in_map_iff in Hl as [h [<- _]]. apply debug_quiet. Qed.
Lemma deny_still ctx gs : forall qs, still (deny_lines w x ctx gs qs).
Proof.
  induction qs as [|q qs IH]; cbn [deny_lines]; [constructor|]. apply Forall_app. split; [apply hit_still|].
  destruct (matches (w_allow w) _ _); [|apply debug_one]. destruct (has_allowlist_only _ _); [apply debug_one|].
  apply Forall_app. split; [apply hit_still|]. destruct (matches (w_deny w) _ _); [exact IH|apply debug_one].
Qed.
Lemma screen_still ctx gs : forall ans, still (screen_lines w x ctx gs ans).
Proof.
  induction ans as [|r ans IH]; cbn [screen_lines]; [constructor|]. destruct (entry_to_check _ r) as [e t]. destruct e as [|c e]; [exact IH|].
  apply Forall_app. split; [apply hit_still|]. destruct (matches (w_allow w) _ _); [|constructor; [apply debug_quiet|exact IH]].
  apply Forall_app. split; [apply hit_still|]. destruct (matches (w_deny w) _ _); [exact IH|apply debug_one].
Qed.
Lemma conditional_still ctx r : still (conditional_lines T privacy w x ctx r).
Proof.
  unfold conditional_lines. destruct (cond_dest _ _) as [[u rq|rq]|]; try constructor.
  destruct (m_question (req_msg r)); [constructor|]. apply Forall_app. split; [|apply debug_one].
  apply up_still. intros e He. eapply calm_cond_events; eauto.
Qed.
Lemma stage_still s ctx r next : still (stage_lines T privacy w x s ctx r next).
Proof.
  destruct s; cbn [stage_lines]; try constructor.
  - unfold ecs_lines. destruct (ecs_enabled _); [|constructor]. apply Forall_app. split; [|apply Forall_app; split].
    + destruct (get_edns0_option 8 (req_msg r)) as [[f m sc a| |]|]; try constructor. destruct (_ && _); [apply debug_one|constructor].
    + destruct (_ || _); [|constructor]. destruct (subnet_address _ _ _); [apply debug_one|constructor].
    + destruct (_ && _); [apply debug_one|constructor].
  - unfold names_lines. apply Forall_app. split; [apply up_still; intros e He; eapply calm_lookup_events; eauto|].
    destruct (x_lookup x r) as [[e|ns]|] eqn:E; [exfalso; exact (calm_lookup _ Hx _ _ E)|apply debug_one|constructor].
  - unfold logging_lines. destruct (next r) as [[p|e]|]; try constructor. destruct (w_entry w r p); [|constructor].
    destruct (log_ignored _ _); [apply debug_one|]. rewrite (calm_room _ Hx). destruct (x_console x) eqn:Ec; [|constructor].
    constructor; [|constructor]. right. split; [reflexivity|]. split; [reflexivity|exact Ec].
  - destruct (w_custom_rules w); [apply custom_stage_still|]. apply Forall_app. split; [apply rewrite_still|apply custom_stage_still].
  - unfold hosts_lines. destruct (negb _); [constructor|]. destruct (m_question (req_msg r)); [constructor|].
    destruct (hosts_reverse _ _ _ _ _); [constructor|]. destruct (split_get _ _ _); [apply debug_one|constructor].
  - unfold blocking_lines. destruct (groups_of_client w r); [constructor|]. constructor; [apply debug_quiet|].
    apply Forall_app. split; [apply deny_still|]. destruct (handle_denylist _ _ _ _ _ _ _); [constructor|].
    destruct (next r) as [[p|e]|]; try constructor. destruct (rs_msg p); [apply screen_still|constructor].
  - unfold caching_lines. destruct (_ || _); [apply debug_one|].
    generalize 0. induction (m_question (req_msg r)) as [|q qs IH]; intros i; cbn [cache_lines]; [constructor|].
    rewrite (calm_unpack _ Hx), (calm_pack _ Hx). cbn [app]. destruct (w_look w r i); [apply debug_one|apply IH].
  - destruct (w_cond_rules w); [apply conditional_still|]. apply Forall_app. split; [apply rewrite_still|apply conditional_still].
Qed.
Lemma chain_still : forall rs ctx r, still (chain_lines T privacy w x rs ctx r).
Proof.
  induction rs as [|[s p] rs IH]; intros ctx r; cbn [chain_lines].
  - apply up_still. intros e He. eapply calm_tree_events; eauto.
  - apply Forall_app. split; [apply stage_still|]. apply Forall_forall. intros l Hl. apply in_flat_map in Hl as [r' [_ Hl]].
    specialize (IH (next_ctx w s ctx r) r'). rewrite Forall_forall in IH. auto.
Qed.
End Quiet.

Theorem C160_quiet : forall (U : Type) T privacy (w : world U) x req p m l,
  calm x -> m_question (req_msg req) <> [] -> query_chain w req = Some (Ok p) -> rs_msg p = Some m ->
  In l (written T privacy w x LogOut.LInfo req) ->
  ln_level l = LogOut.LInfo /\ ln_text l = $"query resolved" /\ x_console x = true.
Proof.
  intros U T privacy w x req p m l Hx Hq Hr Hm Hl. unfold written in Hl. apply filter_In in Hl as [Hl Hv].
  assert (quiet x l) as [[E|E]|E]; [|rewrite E in Hv; discriminate Hv|rewrite E in Hv; discriminate Hv|exact E].
  unfold request_lines in Hl. destruct Hl as [<-|Hl]; [left; now right|].
  apply in_app_iff in Hl as [Hl|Hl]; [|apply in_app_iff in Hl as [Hl|Hl]].
  - destruct (m_question (req_msg req)); [destruct Hl|]. pose proof (chain_still T privacy w x Hx (query_resolvers w) (request_ctx T privacy x req) req) as F.
    rewrite Forall_forall in F. auto.
  - unfold failure_lines in Hl. destruct (m_question (req_msg req)); [contradiction|]. rewrite Hr, Hm in Hl. destruct Hl.
  - rewrite (calm_write _ Hx) in Hl. destruct Hl.
Qed.
Print Assumptions C160_quiet.

(** ** Concrete cases *)
Definition tx_log : log_cfg := {| lc_fields := [FClientIP; FClientName; FReason; FAnswer; FQuestion; FDuration]; lc_ignore_sudn := false |}.
Definition tx_texts : texts :=
  {| ip_text := ex_ipstr; rcode_text := fun _ => $"NOERROR"; type_text := fun t => if (t =? 28)%N then $"AAAA" else $"A";
     rr_text := fun _ => []; rtype_text := fun _ => $"RESOLVED" |}.
Definition tx_world (custom : custom_cfg) (up : list rr) : world nat :=
  let c := cx_world up in
  {| w_filter := w_filter c; w_fqdn := w_fqdn c; w_ecs := w_ecs c; w_names := w_names c; w_ede := w_ede c;
     w_entry := create_log_entry tx_texts true tx_log $"node" 0 cx_start 3; w_metrics := w_metrics c;
     w_custom := custom; w_new_id := w_new_id c; w_records := custom_records custom; w_fuel := w_fuel c;
     w_custom_rules := w_custom_rules c; w_custom_fallback := w_custom_fallback c; w_custom_iter := w_custom_iter c;
     w_hosts := w_hosts c; w_table := w_table c; w_hosts4 := w_hosts4 c; w_hosts6 := w_hosts6 c;
     w_glob := w_glob c; w_cidr := w_cidr c; w_ip_string := w_ip_string c; w_allow := w_allow c; w_deny := w_deny c;
     w_blk := w_blk c; w_handler := w_handler c; w_blk_iter := w_blk_iter c; w_fqdn_ips := w_fqdn_ips c; w_disabled := w_disabled c;
     w_caching := w_caching c; w_look := w_look c; w_mapping := w_mapping c; w_ask := w_ask c;
     w_cond_rules := w_cond_rules c; w_cond_fallback := w_cond_fallback c; w_cond_iter := w_cond_iter c;
     w_sudn := w_sudn c; w_upstream := w_upstream c |}.
Definition tx_outside : outside nat :=
  {| x_req_id := $"5c1e"; x_lookup := fun _ => None; x_lookup_question := fun _ => []; x_lookup_events := fun _ => []; x_log := tx_log; x_room := true; x_console := true;
     x_hits := fun allow s => if allow then [] else if ex_deny_b $"ads" s then [None] else [];
     x_unpack := fun _ => None; x_pack := fun _ => None; x_upstream_text := fun _ => $"udp:10.0.0.53";
     x_cond_events := fun _ _ => []; x_tree_events := fun _ => [UDelegate $"parallel_best"; UReceived $"tcp+udp:1.1.1.1" $"1.1.1.1" $"NOERROR" $"UDP" $"udp" $"4" [ex_a $"x." [1;2;3;4]%N]];
     x_quote := fun s => $"""" ++ s ++ $""""; x_server_failed := fun _ => false; x_panic := []; x_write := None |}.
Definition tx_lines (level : LogOut.level) (custom : custom_cfg) (up : list rr) (n : str) : list line :=
  written tx_texts true (tx_world custom up) tx_outside level (cx_req n 1).
Definition tx_show (l : list line) : list (LogOut.level * str) := map (fun n => (ln_level n, ln_text n)) l.

(** A name which is blocked: shown at level debug by the blocking resolver. *)
Theorem C160_blocked_refuted : exists (U : Type) T (w : world U) x req l,
  In l (written T true w x LogOut.LDebug req) /\ In ($"domain", $"ads.com") (ln_fields l) /\ map q_name (m_question (req_msg req)) = [$"ads.com."].
Proof.
  exists nat, tx_texts, (tx_world cx_custom []), tx_outside, (cx_req $"ads.com" 1). eexists. split; [|split].
  - apply nth_error_In with (n := 3). vm_compute. reflexivity.
  - apply nth_error_In with (n := 4). vm_compute. reflexivity.
  - vm_compute. reflexivity.
Qed.
Print Assumptions C160_blocked_refuted.

(** ... and by the lists. *)
Theorem C160_list_match_refuted : exists (U : Type) T (w : world U) x req l,
  In l (written T true w x LogOut.LDebug req) /\ ln_text l = $"block rule 'ads.com' matched with 'ads.com'" /\
  map q_name (m_question (req_msg req)) = [$"ads.com."].
Proof.
  exists nat, tx_texts, (tx_world cx_custom []), tx_outside, (cx_req $"ads.com" 1). eexists. split; [|split].
  - apply nth_error_In with (n := 2). vm_compute. reflexivity.
  - vm_compute. reflexivity.
  - vm_compute. reflexivity.
Qed.
Print Assumptions C160_list_match_refuted.

(** A name of custom DNS: shown at level debug. *)
Theorem C160_custom_refuted : exists (U : Type) T (w : world U) x req l,
  In l (written T true w x LogOut.LDebug req) /\ In ($"domain", $"printer.lan") (ln_fields l) /\
  map q_name (m_question (req_msg req)) = [$"printer.lan."].
Proof.
  exists nat, tx_texts, (tx_world cx_custom []), tx_outside, (cx_req $"printer.lan" 1). eexists. split; [|split].
  - apply nth_error_In with (n := 1). vm_compute. reflexivity.
  - apply nth_error_In with (n := 5). vm_compute. reflexivity.
  - vm_compute. reflexivity.
Qed.
Print Assumptions C160_custom_refuted.

(** A record of the answer which is on a list: shown at level debug. *)
Theorem C160_answer_refuted : exists (U : Type) T (w : world U) x req l,
  In l (written T true w x LogOut.LDebug req) /\ In ($"response_entry", $"ads.com") (ln_fields l) /\
  map q_name (m_question (req_msg req)) = [$"example.com."].
Proof.
  exists nat, tx_texts, (tx_world cx_custom [ex_cname $"example.com." $"ads.com."]), tx_outside, (cx_req $"example.com" 1). eexists. split; [|split].
  - apply nth_error_In with (n := 3). vm_compute. reflexivity.
  - apply nth_error_In with (n := 4). vm_compute. reflexivity.
  - vm_compute. reflexivity.
Qed.
Print Assumptions C160_answer_refuted.

(** Custom DNS records which are a loop: the names are shown at level error, so with every configured level up to it. *)
Definition tx_loop : custom_cfg :=
  {| cu_mapping := [($"a.lan", [{| rr_name := []; rr_type := 0; rr_class := 1; rr_ttl := 0; rr_data := DCNAME $"b.lan." |}]);
                    ($"b.lan", [{| rr_name := []; rr_type := 0; rr_class := 1; rr_ttl := 0; rr_data := DCNAME $"a.lan." |}])];
     cu_zone := []; cu_ttl := 3600; cu_filter := true |}.
Theorem C160_loop_refuted : exists (U : Type) T (w : world U) x req l,
  In l (written T true w x LogOut.LError req) /\ ln_level l = LogOut.LError /\
  ln_text l = $"error on processing request:CNAME loop detected: [b.lan a.lan b.lan]" /\
  map q_name (m_question (req_msg req)) = [$"a.lan."].
Proof.
  exists nat, tx_texts, (tx_world tx_loop []), tx_outside, (cx_req $"a.lan" 1). eexists. split; [|split; [|split]].
  - apply nth_error_In with (n := 0). vm_compute. reflexivity.
  - vm_compute. reflexivity.
  - vm_compute. reflexivity.
  - vm_compute. reflexivity.
Qed.
Print Assumptions C160_loop_refuted.

(** ** Prefetching *)
(** A prefetch which succeeds shows its name only without letters and digits ... *)
Theorem C160_prefetch_ok : forall O ctx name type p pack l,
  fields_built O ctx -> O type -> (forall e, pack = Some e -> O e) -> In l (prefetch_lines true ctx name type (Ok p) pack) -> clean O l.
Proof.
  intros O ctx name type p pack l Hc Ht Hp [<-|Hl].
  - apply say_clean; [exact Hc|apply fields_nil|]. apply built_app; [code|]. apply built_app; [apply built_obfuscated|]. apply built_app; [hid|].
    apply built_app; [now apply one_out|hid].
  - destruct pack as [e|]; [|destruct Hl]. destruct Hl as [<-|[]]. apply say_clean; [exact Hc|apply fields_nil|].
    apply built_app; [code|]. apply one_out. now apply Hp.
Qed.
Print Assumptions C160_prefetch_ok.
(** ... and one which fails shows it in plain, at level error. *)
Theorem C160_prefetch_refuted : forall privacy ctx name type e pack, exists l,
  In l (prefetch_lines privacy ctx name type (Err e) pack) /\ ln_level l = LogOut.LError /\
  ln_text l = $"can't prefetch '" ++ name ++ $"' " ++ e.
Proof. intros. eexists. split; [right; left; reflexivity|]. split; reflexivity. Qed.
Print Assumptions C160_prefetch_refuted.

(** ** The hypotheses hold in a case in which nothing public has the letter Z. *)
Definition no_Z (s : str) : Prop := ~ In "Z"%char s.
Lemma no_Z_check s : existsb (Ascii.eqb "Z") s = false -> no_Z s.
Proof. intros H Hi. assert (existsb (Ascii.eqb "Z") s = true) as E by (apply existsb_exists; exists "Z"%char; auto). congruence. Qed.
Ltac noz := apply no_Z_check; vm_compute; reflexivity.
Lemma ex_groups_no_Z p g : In p (ex_iter 0) -> In g (snd p) -> no_Z g.
Proof.
  intros Hp Hg. assert (forallb (fun p => forallb (fun s => negb (existsb (Ascii.eqb "Z") s)) (snd p)) (ex_iter 0) = true) as E by (vm_compute; reflexivity).
  rewrite forallb_forall in E. specialize (E p Hp). cbv beta in E. rewrite forallb_forall in E. specialize (E g Hg). cbv beta in E.
  apply no_Z_check. now destruct (existsb _ g).
Qed.
Lemma ex_lookup_true f n gs g : In g (ex_lookup f n gs) -> f g n = true.
Proof.
  unfold ex_lookup. intros H. apply (proj1 (sort_strs_In _ _)) in H. apply (proj1 (dedup_In _ _)) in H. now apply filter_In in H.
Qed.
Lemma tx_public : public tx_texts (tx_world cx_custom [ex_a $"Zoo.com." [1;2;3;4]%N]) tx_outside (cx_req $"Zoo.com" 1) no_Z.
Proof.
  assert (forall i, no_Z (ex_ipstr i)) as Hip.
  { intros i. unfold ex_ipstr. repeat match goal with |- context [match ?c with _ => _ end] => destruct c end; noz. }
  constructor; cbn [x_req_id x_lookup x_lookup_events x_cond_events x_tree_events x_upstream_text x_quote x_unpack x_pack x_panic x_write tx_outside
                    ip_text type_text rcode_text rtype_text tx_texts].
  - noz.
  - noz.
  - intros n H. apply print_dec_chars in H as [d [Hd E]]. symmetry in E. revert E. apply digit_not; [lia|]. cbn. lia.
  - intros i _. apply Hip.
  - intros t. destruct (t =? 28)%N; noz.
  - intros _. noz.
  - intros _. noz.
  - intros r n [<-|[]]. noz.
  - intros r e H; discriminate H.
  - intros r ns n H _; discriminate H.
  - intros r e a [].
  - intros u r e a [].
  - intros r e a [<-|[<-|[]]] Ha; cbn [event_texts] in Ha; repeat (destruct Ha as [<-|Ha]; [noz|]); destruct Ha.
  - intros u. noz.
  - intros s Hs H. apply in_app_iff in H as [H|H]; [revert H; noz|].
    apply in_app_iff in H as [H|H]; [|revert H; noz]. apply (Hs _ H). unfold letter_or_digit. cbn. lia.
  - intros d gs g H. change (w_deny (tx_world cx_custom [ex_a $"Zoo.com." [1;2;3;4]%N])) with (ex_lookup ex_deny_b) in H. apply ex_lookup_true in H.
    unfold ex_deny_b in H. apply orb_true_iff in H as [H|H]; apply andb_true_iff in H as [H _]; apply str_eqb_eq in H; subst g; noz.
  - intros d gs g H. change (w_allow (tx_world cx_custom [ex_a $"Zoo.com." [1;2;3;4]%N])) with (ex_lookup ex_allow_b) in H. apply ex_lookup_true in H.
    unfold ex_allow_b in H. apply orb_true_iff in H as [H|H]; apply andb_true_iff in H as [H _]; apply str_eqb_eq in H; subst g; noz.
  - intros i p g Hp Hg. exact (ex_groups_no_Z p g Hp Hg).
  - intros k e H; discriminate H.
  - intros k e H; discriminate H.
  - noz.
  - intros e H; discriminate H.
  - intros r p H. apply (f_equal (option_map (fun r => match r with Ok p => rs_reason p | Err _ => [] end))) in H.
    assert (rs_reason p = []) as -> by (symmetry; apply (f_equal (fun o => match o with Some s => s | None => [] end)) in H; exact H). noz.
  - intros r e H. apply (f_equal (option_map (fun r => match r with Err _ => true | Ok _ => false end))) in H. discriminate H.
  - intros u r e H. apply (f_equal (option_map (fun r => match r with Err _ => true | Ok _ => false end))) in H. discriminate H.
Qed.
Lemma tx_entries c up : entries_hidden tx_texts (tx_world c up) tx_outside no_Z.
Proof. intros rq r. exists $"node", 0%Z, cx_start, 3%N. split; [noz|reflexivity]. Qed.
Lemma tx_no_loop names : query_chain (tx_world cx_custom [ex_a $"Zoo.com." [1;2;3;4]%N]) (cx_req $"Zoo.com" 1) <> Some (Err names).
Proof.
  intros H. apply (f_equal cx_show) in H.
  assert (cx_show (query_chain (tx_world cx_custom [ex_a $"Zoo.com." [1;2;3;4]%N]) (cx_req $"Zoo.com" 1)) = Some RESOLVED) as E by (vm_compute; reflexivity).
  rewrite E in H. discriminate H.
Qed.
Lemma tx_no_Z l k v : In l (written tx_texts true (tx_world cx_custom [ex_a $"Zoo.com." [1;2;3;4]%N]) tx_outside LogOut.LInfo (cx_req $"Zoo.com" 1)) ->
  In (k, v) (ln_fields l) -> no_Z v.
Proof.
  intros Hl Hk HZ.
  assert (LogOut.LInfo <> LogOut.LTrace) as N1 by congruence. assert (LogOut.LInfo <> LogOut.LDebug) as N2 by congruence.
  pose proof (C160_info_partial nat tx_texts (tx_world cx_custom [ex_a $"Zoo.com." [1;2;3;4]%N]) tx_outside (cx_req $"Zoo.com" 1) no_Z LogOut.LInfo l tx_public
                (tx_entries cx_custom [ex_a $"Zoo.com." [1;2;3;4]%N]) N1 N2 Hl) as G.
  clear Hl. destruct G as [H|[_ [names H]]]; [|exact (tx_no_loop _ H)].
  destruct (C160_letters _ _ "Z"%char H) as [a [[Ha|Ha] Hi]]; [unfold letter_or_digit; cbn; lia|right; eauto|exact (Ha Hi)|].
  assert (forallb (fun s => negb (existsb (Ascii.eqb "Z") s)) code_texts = true) as E by (vm_compute; reflexivity).
  rewrite forallb_forall in E. specialize (E a Ha). cbv beta in E. assert (existsb (Ascii.eqb "Z") a = true) as E2 by (apply existsb_exists; exists "Z"%char; auto).
  rewrite E2 in E. discriminate E.
Qed.
(** The query for Zoo.com, answered by the upstream: the line at level info, and no Z in it. *)
Example C160_case :
  tx_show (tx_lines LogOut.LInfo cx_custom [ex_a $"Zoo.com." [1;2;3;4]%N] $"Zoo.com") = [(LogOut.LInfo, $"query resolved")] /\
  (forall l k v, In l (tx_lines LogOut.LInfo cx_custom [ex_a $"Zoo.com." [1;2;3;4]%N] $"Zoo.com") -> In (k, v) (ln_fields l) -> no_Z v) /\
  tx_show (tx_lines LogOut.LDebug cx_custom [] $"example.com") =
    [(LogOut.LInfo, $"query resolved"); (LogOut.LDebug, $"checking groups for request");
     (LogOut.LDebug, $"delegating to resolver"); (LogOut.LDebug, $"received response from upstream")].
Proof. split; [vm_compute; reflexivity|]. split; [exact tx_no_Z|vm_compute; reflexivity]. Qed.
Lemma tx_calm : calm tx_outside.
Proof.
  constructor; cbn [x_lookup x_lookup_events x_cond_events x_tree_events x_room x_unpack x_pack x_write tx_outside];
    try discriminate; try reflexivity; try (intros; contradiction). intros r e [<-|[<-|[]]]; exact I.
Qed.
