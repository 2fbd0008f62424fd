From Coq Require Import String Ascii List Arith Bool NArith ZArith Lia.
From Verif Require Import Str StrFacts Num Dns Resolver ResolverFacts ExpCache Caching Blocking Custom Conditional Rewriter Sudn Ecs ClientNames QueryLog QueryLogSpec QueryLogProofs QueryLogProps Hosts Chain ChainProofs BlockingProofs Trace TraceSpec.
From Verif Require StringCache LogOut.
Import ListNotations.
Open Scope list_scope.

(** ** Texts *)
Section Built.
Variable O : str -> Prop.
Lemma built_app a b : built O a -> built O b -> built O (a ++ b).
Proof.
  intros Ha Hb. induction Ha as [|u v Hu _ IH|u v Hu _ IH|u v Hu _ IH]; [exact Hb| | |]; rewrite <- app_assoc;
    [apply built_out|apply built_code|apply built_hidden]; auto.
Qed.
Lemma one_out a : O a -> built O a.
Proof. intros H. rewrite <- (app_nil_r a). apply built_out; [auto|constructor]. Qed.
Lemma one_code a : In a code_texts -> built O a.
Proof. intros H. rewrite <- (app_nil_r a). apply built_code; [auto|constructor]. Qed.
Lemma one_hidden a : hides a -> built O a.
Proof. intros H. rewrite <- (app_nil_r a). apply built_hidden; [auto|constructor]. Qed.
Lemma built_join sep l : hides sep -> (forall a, In a l -> built O a) -> built O (join sep l).
Proof.
  intros Hs. induction l as [|a l IH]; intros H; [constructor|]. cbn [join]. destruct l as [|b l]; [apply H; now left|].
  apply built_app; [apply H; now left|]. apply built_app; [now apply one_hidden|]. apply IH. intros c Hc. apply H. now right.
Qed.
Lemma built_obfuscated s : built O (obfuscate true s).
Proof. apply one_hidden. intros c Hc. now apply C62_hidden in Hc. Qed.
End Built.

Ltac code := apply one_code; repeat (first [left; reflexivity|right]).
Lemma hides_by_check s : forallb (fun c => negb (alphanumeric c)) s = true -> hides s.
Proof. intros H c Hc X. rewrite forallb_forall in H. specialize (H c Hc). apply alphanumeric_iff in X. rewrite X in H. discriminate H. Qed.
Ltac hid := first [apply one_hidden|idtac]; apply hides_by_check; vm_compute; reflexivity.

(** ** Lines *)
Definition fields_built (O : str -> Prop) (fs : list (str * str)) : Prop := forall k v, In (k, v) fs -> built O v.
Lemma with_fields_in ctx extra k v : In (k, v) (with_fields ctx extra) -> In (k, v) ctx \/ In (k, v) extra.
Proof. unfold with_fields. rewrite in_app_iff, filter_In. tauto. Qed.
Lemma with_fields_built O ctx extra : fields_built O ctx -> fields_built O extra -> fields_built O (with_fields ctx extra).
Proof. intros Hc He k v H. apply with_fields_in in H as [H|H]; eauto. Qed.
Lemma fields_nil O : fields_built O [].
Proof. intros k v []. Qed.
Lemma fields_cons O k v fs : built O v -> fields_built O fs -> fields_built O ((k, v) :: fs).
Proof. intros H Hf k' v' [E|E]; [injection E as <- <-; exact H|eauto]. Qed.
Lemma say_clean O l ctx extra text : fields_built O ctx -> fields_built O extra -> built O text -> clean O (say l ctx extra text).
Proof. intros Hc He Ht. split; [exact Ht|]. cbn [ln_fields say]. now apply with_fields_built. Qed.
Lemma say_but O l ctx extra text but : fields_built O ctx -> (forall k v, In (k, v) extra -> ~ In k but -> built O v) -> built O text ->
  clean_but O but (say l ctx extra text).
Proof. intros Hc He Ht. split; [exact Ht|]. cbn [ln_fields say]. intros k v H Hk. apply with_fields_in in H as [H|H]; eauto. Qed.

(** ** What the programs of the resolvers tell *)
Definition res_ok (R E : str -> Prop) (r : result) : Prop := match r with Ok p => R (rs_reason p) | Err e => E e end.
Inductive tells (R E : str -> Prop) : prog -> Prop :=
| tells_done r : res_ok R E r -> tells R E (Done r)
| tells_crash : tells R E Crash
| tells_next q k : (forall r, res_ok R E r -> tells R E (k r)) -> tells R E (Next q k).
Definition answers (R E : str -> Prop) (next : next_fn) : Prop := forall rq r, next rq = Some r -> res_ok R E r.

Section Tells.
Variables R E : str -> Prop.
Lemma tells_pass rq : tells R E (pass rq).
Proof. apply tells_next. intros r H. now apply tells_done. Qed.
Lemma tells_exec p next r : tells R E p -> answers R E next -> exec p next = Some r -> res_ok R E r.
Proof.
  intros Hp Hn. induction Hp as [r0 H0| |q k Hk IH]; cbn [exec]; intros He.
  - injection He as <-. exact H0.
  - discriminate He.
  - destruct (next q) as [r1|] eqn:E1; [|discriminate He]. exact (IH r1 (Hn _ _ E1) He).
Qed.
Lemma tells_bind p k : tells R E p -> (forall r, res_ok R E r -> tells R E (k r)) -> tells R E (bind p k).
Proof.
  intros Hp Hk. induction Hp as [r0 H0| |q k0 _ IH]; cbn [bind]; [now apply Hk|constructor|]. apply tells_next. intros r Hr. now apply IH.
Qed.
Lemma tells_chain rs last : (forall p, In p rs -> forall rq, tells R E (p rq)) -> answers R E last -> answers R E (chain rs last).
Proof.
  intros H Hl. induction rs as [|p rs IH]; [exact Hl|]. cbn [chain fold_right]. intros rq r Hr. unfold link in Hr.
  eapply tells_exec; [apply H; now left| |exact Hr]. apply IH. intros p' Hp'. apply H. now right.
Qed.
End Tells.

(** ** The reasons and errors of the resolvers of a query *)
Definition loop_error (e : str) : Prop := exists names, e = $"CNAME loop detected: [" ++ join $" " names ++ $"]".
Section Query.
Context {U : Type}.
Variable T : texts.
Variable w : world U.
Variable x : outside U.
Variable req : request.
Variable O : str -> Prop.
Hypothesis P : public T w x req O.
Hypothesis Hentries : entries_hidden T w x O.
Definition good_error (e : str) : Prop := built O e \/ loop_error e.
Notation tl := (tells (built O) good_error).
Notation ok := (res_ok (built O) good_error).
Notation fb := (fields_built O).

Lemma tl_ok p : built O (rs_reason p) -> tl (Done (Ok p)).
Proof. intros H. now apply tells_done. Qed.
Lemma tl_err e : good_error e -> tl (Done (Err e)).
Proof. intros H. now apply tells_done. Qed.

Lemma tl_filtering types rq : tl (filtering_resolve types rq).
Proof.
  unfold filtering_resolve. destruct (m_question (req_msg rq)) as [|q qs]; [constructor|].
  destruct (existsb _ _); [apply tl_ok; constructor|apply tells_pass].
Qed.
Lemma tl_fqdn b rq : tl (fqdn_only_resolve b rq).
Proof.
  unfold fqdn_only_resolve. destruct b; [|apply tells_pass]. destruct (m_question (req_msg rq)) as [|q qs]; [constructor|].
  destruct (negb _); [apply tl_ok; cbn [rs_reason]; code|apply tells_pass].
Qed.
Lemma tl_ecs c rq : tl (ecs_resolve c rq).
Proof. destruct (ecs_shape c rq) as [->|[r [-> _]]]; [constructor|apply tells_pass]. Qed.
Lemma tl_ede b rq : tl (ede_resolve b rq).
Proof.
  unfold ede_resolve. destruct (negb b); [apply tells_pass|]. apply tells_next. intros [r|e] H; [|now apply tl_err]. apply tl_ok.
  unfold add_extra_reasoning. now destruct (_ =? 0)%N.
Qed.
Lemma tl_logging f rq : tl (logging_resolve f rq).
Proof. apply tells_next. intros [r|e] H; [|now apply tl_err]. destruct (f rq r); [now apply tl_ok|constructor]. Qed.
Lemma tl_metrics b rq : tl (metrics_resolve b rq).
Proof.
  apply tells_next. intros r H. destruct b; [|now apply tells_done]. destruct (m_question (req_msg rq)); [constructor|].
  destruct (utf8_string _); [|constructor]. destruct r as [r|e]; [|now apply tl_err]. destruct (rs_msg r); [now apply tl_ok|constructor].
Qed.
Lemma tl_entries cfg ids proc rq q cn : (forall cs r, tl (proc cs r)) -> forall es acc, tl (process_entries cfg ids proc rq q cn es acc).
Proof.
  intros Hp. induction es as [|e es IH]; intros acc.
  - cbn [process_entries]. destruct acc; [destruct (cu_filter cfg); [|apply tells_pass]|]; apply tl_ok; cbn [rs_reason custom_response]; code.
  - cbn [process_entries]. destruct (rr_data e); try apply IH; try (apply tl_err; left; code).
    destruct (q_type q =? type_CNAME)%N; [apply IH|]. destruct (str_in _ _); [apply tl_err; right; eexists; reflexivity|].
    apply tells_bind; [apply Hp|]. intros [r|er] H; [|now apply tl_err]. destruct (rs_msg r); [apply IH|constructor].
Qed.
Lemma tl_process cfg ids fuel : forall cn rq, tl (process_request cfg ids Crash fuel cn rq).
Proof.
  induction fuel as [|fuel IH]; intros cn rq; cbn [process_request]; [constructor|]. destruct (m_question (req_msg rq)) as [|q qs]; [constructor|].
  destruct (first_mapped _ _); [apply tl_entries; auto|apply tells_pass].
Qed.
Lemma tl_custom rq : tl (custom_stage w rq).
Proof.
  unfold custom_stage, custom_resolve. destruct (m_question (req_msg rq)) as [|q qs]; [constructor|].
  destruct (handle_reverse _ _ rq q) as [r|] eqn:Er; [|apply tl_process]. apply tl_ok. revert Er. unfold handle_reverse.
  repeat match goal with |- context [match ?c with _ => _ end] => destruct c; try discriminate 1 end; intros Er; apply (f_equal (option_map rs_reason)) in Er;
    cbn [option_map rs_reason custom_response] in Er; injection Er as <-; code.
Qed.
Lemma noop_answers : answers (built O) good_error noop.
Proof. intros rq r H. injection H as <-. cbn. constructor. Qed.
Lemma tl_rewriter fbk iter inner rq : (forall r0 r l, inner r0 = Some (r, l) -> ok r) -> tl (rewriter_resolve fbk iter inner rq).
Proof.
  intros H. unfold rewriter_resolve. destruct (rewrite_questions _ _ _ _) as [qs names].
  destruct (inner _) as [[r l]|] eqn:Ei; [|constructor]. apply H in Ei. destruct r as [p|e].
  - destruct (rs_msg p); [|apply tells_pass]. destruct (fbk && _); [apply tells_pass|]. destruct names; now apply tl_ok.
  - destruct fbk; [apply tells_pass|now apply tl_err].
Qed.
Lemma tl_hosts rq : tl (hosts_resolve (w_hosts w) (w_table w) (w_hosts4 w) (w_hosts6 w) rq).
Proof.
  unfold hosts_resolve. destruct (negb _); [apply tells_pass|]. destruct (m_question (req_msg rq)) as [|q qs]; [constructor|].
  destruct (hosts_reverse _ _ _ rq q) as [r|] eqn:Er.
  - apply tl_ok. revert Er. unfold hosts_reverse.
    repeat match goal with |- context [match ?c with _ => _ end] => destruct c; try discriminate 1 end; intros Er; apply (f_equal (option_map rs_reason)) in Er;
    cbn [option_map rs_reason hosts_response] in Er; injection Er as <-; code.
  - destruct (split_get _ _ _); [apply tl_ok; cbn [rs_reason hosts_response]; code|apply tells_pass].
Qed.
Lemma matches_deny gs d g : In g (matches (w_deny w) gs d) -> O g.
Proof. unfold matches. destruct gs; [intros []|]. intros H. eapply pu_group_deny; eauto. Qed.
Lemma matches_allow gs d g : In g (matches (w_allow w) gs d) -> O g.
Proof. unfold matches. destruct gs; [intros []|]. intros H. eapply pu_group_allow; eauto. Qed.
Lemma tag_built r : built O (snd (entry_to_check (w_ip_string w) r)).
Proof. unfold entry_to_check. destruct (rr_data r); cbn [snd]; first [constructor|code]. Qed.
Lemma built_deny gs d : built O (join $"," (matches (w_deny w) gs d)).
Proof. apply built_join; [hid|]. intros a Ha. apply one_out. eapply matches_deny; eauto. Qed.
Lemma tl_deny gs rq qs p : handle_denylist (w_allow w) (w_deny w) (w_blk w) (w_handler w) gs rq qs = Some p -> tl p.
Proof.
  induction qs as [|q qs IH]; cbn [handle_denylist]; [discriminate 1|]. destruct (matches (w_allow w) _ _) eqn:Ea.
  - destruct (has_allowlist_only _ _).
    + intros H. injection H as <-. apply tl_ok. cbn [rs_reason handle_blocked]. code.
    + pose proof (built_deny gs (extract_domain q)) as Hb.
      destruct (matches (w_deny w) gs (extract_domain q)) as [|g l]; [exact IH|]. intros H.
      assert (p = Done (Ok (handle_blocked (w_handler w) rq q ($"BLOCKED (" ++ (join $"," (g :: l) ++ $")"))))) as -> by congruence.
      apply tl_ok. unfold handle_blocked. cbn [rs_reason]. apply built_app; [code|]. apply built_app; [exact Hb|hid].
  - intros H. injection H as <-. apply tells_pass.
Qed.
Lemma screen_built gs ans s : screen (w_ip_string w) (w_allow w) (w_deny w) gs ans = Some s -> built O s.
Proof.
  induction ans as [|r ans IH]; cbn [screen]; [discriminate 1|]. pose proof (tag_built r) as Ht.
  destruct (entry_to_check (w_ip_string w) r) as [e t]. cbn [snd] in Ht. destruct e as [|c e]; [exact IH|].
  destruct (matches (w_allow w) _ _); [|exact IH]. pose proof (built_deny gs (c :: e)) as Hb.
  destruct (matches (w_deny w) gs (c :: e)) as [|g l]; [exact IH|].
  intros H. assert (s = $"BLOCKED " ++ (t ++ ($" (" ++ (join $"," (g :: l) ++ $")")))) as -> by congruence.
  apply built_app; [code|]. apply built_app; [exact Ht|]. apply built_app; [hid|]. apply built_app; [exact Hb|hid].
Qed.
Lemma tl_groups gs rq : tl (resolve_groups (w_ip_string w) (w_allow w) (w_deny w) (w_blk w) (w_handler w) gs rq).
Proof.
  assert (tl (Next rq (fun r => match r with
      | Ok resp => match gs, rs_msg resp with
          | _ :: _, Some m => match screen (w_ip_string w) (w_allow w) (w_deny w) gs (m_answer m) with
              | Some reason => match m_question (req_msg rq) with q :: _ => Done (Ok (handle_blocked (w_handler w) rq q reason)) | [] => Crash end
              | None => Done r end
          | _, _ => Done r end
      | Err _ => Done r end))) as G.
  { apply tells_next. intros [p|e] H; [|now apply tl_err]. destruct gs as [|g gs]; [now apply tl_ok|].
    destruct (rs_msg p) as [m|]; [|now apply tl_ok]. destruct (screen _ _ _ _ _) as [s|] eqn:Es; [|now apply tl_ok].
    destruct (m_question (req_msg rq)); [constructor|]. apply tl_ok. cbn [rs_reason handle_blocked]. eapply screen_built; eauto. }
  unfold resolve_groups. destruct gs as [|g gs]; [exact G|]. destruct (handle_denylist _ _ _ _ _ _ _) as [p|] eqn:Ed; [|exact G].
  eapply tl_deny; eauto.
Qed.
Lemma tl_caching c look : forall qs i rq r0, (forall r, r0 = Some r -> ok r) -> tl (caching_loop c look i rq qs r0).
Proof.
  induction qs as [|q qs IH]; intros i rq r0 H; cbn [caching_loop].
  - destruct r0; [apply tells_done; now apply H|constructor].
  - destruct (look i) as [[m ttl]|].
    + apply tl_ok. unfold cached_reply. cbn [rs_reason]. destruct (_ =? _)%N; code.
    + apply tells_next. intros [p|e] Hr.
      * destruct (rs_msg p); [|constructor]. apply IH. intros r E0. injection E0 as <-. exact Hr.
      * apply IH. intros r E0. injection E0 as <-. exact Hr.
Qed.
Lemma cond_reason rq r r' : cond_response rq r = Some r' -> built O (rs_reason r').
Proof.
  unfold cond_response. destruct (rs_msg r), (m_question (req_msg rq)); try discriminate 1. intros H.
  apply (f_equal (option_map rs_reason)) in H. cbn [option_map rs_reason] in H. injection H as <-. code.
Qed.
Lemma tl_conditional rq : tl (conditional_resolve (w_mapping w) (w_ask w) rq).
Proof.
  unfold conditional_resolve. destruct (cond_dest (w_mapping w) rq) as [[u q|q]|]; [|apply tells_pass|constructor].
  destruct (w_ask w u q) as [[r|e]|] eqn:Ea; [|apply tl_err; left; apply one_out; eapply pu_ask_error; eauto|constructor].
  destruct (cond_response q r) as [r'|] eqn:Ec; [|constructor]. apply tl_ok. eapply cond_reason; eauto.
Qed.
Lemma tl_sudn c rq : tl (sudn_resolve c rq).
Proof.
  unfold sudn_resolve. destruct (negb _); [apply tells_pass|]. destruct (m_question (req_msg rq)) as [|q qs]; [constructor|].
  destruct (first_mapped _ _) as [h|]; [|apply tells_pass]. destruct (sudn_handle c h rq q) as [r|] eqn:Eh; [|apply tells_pass].
  apply tl_ok. assert (rs_reason r = $"Special-Use Domain Name") as ->; [|code]. revert Eh. unfold sudn_handle, sudn_localhost, sudn_nxdomain.
  destruct h; repeat match goal with |- context [if ?b then _ else _] => destruct b end; try discriminate 1;
    intros Eh; apply (f_equal (option_map rs_reason)) in Eh; injection Eh as <-; reflexivity.
Qed.

Lemma query_tells : forall p, In p (map snd (query_resolvers w)) -> forall rq, tl (p rq).
Proof.
  intros p Hp rq. unfold query_resolvers in Hp. cbn [map snd] in Hp.
  destruct Hp as [<-|[<-|[<-|[<-|[<-|[<-|[<-|[<-|[<-|[<-|[<-|[<-|[<-|[]]]]]]]]]]]]]].
  - apply tl_filtering.
  - apply tl_fqdn.
  - apply tl_ecs.
  - apply tells_pass.
  - apply tl_ede.
  - apply tl_logging.
  - apply tl_metrics.
  - unfold with_rewriter. destruct (w_custom_rules w) as [|rule rules]; [apply tl_custom|]. apply tl_rewriter. intros r0 r l H. unfold inner_prog in H.
    destruct (exec (custom_stage w r0) noop) as [r1|] eqn:Ee; [|discriminate H]. injection H as <- _.
    eapply tells_exec; [apply tl_custom|apply noop_answers|exact Ee].
  - apply tl_hosts.
  - apply tl_groups.
  - unfold caching_resolve. destruct (_ || _); [apply tells_pass|]. apply tl_caching. intros r H. discriminate H.
  - unfold with_rewriter. destruct (w_cond_rules w) as [|rule rules]; [apply tl_conditional|]. apply tl_rewriter. intros r0 r l H. unfold inner_conditional in H.
    destruct (cond_resolve (w_mapping w) (w_ask w) noop r0) as [r1|] eqn:Ee; [|discriminate H]. apply (f_equal (option_map fst)) in H. cbn [option_map fst] in H. injection H as <-.
    pose proof (tl_conditional r0) as Ht. eapply tells_exec; [exact Ht|apply noop_answers|]. rewrite <- Ee.
    unfold conditional_resolve, cond_resolve. destruct (cond_dest (w_mapping w) r0) as [[u q|q]|]; auto.
    destruct (w_ask w u q) as [[r2|e]|]; auto. now destruct (cond_response q r2).
  - apply tl_sudn.
Qed.
Lemma upstream_answers : answers (built O) good_error (w_upstream w).
Proof. intros rq [p|e] H; cbn [res_ok]; [|left]; apply one_out; [eapply pu_reason|eapply pu_error]; eauto. Qed.
Lemma suffix_answers rs : (forall p, In p rs -> In p (map snd (query_resolvers w))) -> answers (built O) good_error (chain rs (w_upstream w)).
Proof. intros H. apply tells_chain; [|apply upstream_answers]. intros p Hp. apply query_tells. now apply H. Qed.

(** ** The lines of the resolvers *)
Definition fine (l : line) : Prop := clean O l \/ plain O l.
Notation said := (Forall fine).
Lemma clean_fine l ctx extra text : fb ctx -> fb extra -> built O text -> fine (say l ctx extra text).
Proof. intros. left. now apply say_clean. Qed.
Lemma one_fine l : fine l -> said [l].
Proof. intros H. constructor; [exact H|constructor]. Qed.
Lemma up_line_fine ctx qs e : fb ctx -> (forall a, In a (event_texts e) -> O a) -> fine (up_line T true ctx qs e).
Proof.
  intros Hc He. destruct e; cbn [event_texts] in He; cbn [up_line]; apply clean_fine; auto;
  repeat first [apply fields_cons|apply fields_nil|apply built_obfuscated|
                solve [apply one_out; apply He; repeat (first [left; reflexivity|right])]|solve [code]|apply built_app].
Qed.
Lemma up_lines_fine ctx qs es : fb ctx -> (forall e a, In e es -> In a (event_texts e) -> O a) -> said (map (up_line T true ctx qs) es).
Proof. intros Hc He. apply Forall_forall. intros l Hl. apply in_map_iff in Hl as [e [<- Hi]]. apply up_line_fine; eauto. Qed.

Lemma ecs_lines_fine ctx : fb ctx -> said (ecs_lines T w ctx req).
Proof.
  intros Hc. unfold ecs_lines. destruct (ecs_enabled _); [|constructor].
  assert (client_address req (req_ip (ecs_client (w_ecs w) (get_edns0_option 8 (req_msg req)) req))) as Hip.
  { unfold ecs_client. destruct (get_edns0_option 8 (req_msg req)) as [[f m sc a| |]|] eqn:Eo; try apply ca_connection.
    destruct (_ && _); [|apply ca_connection]. cbn. eapply ca_subnet. exact Eo. }
  apply Forall_app. split; [|apply Forall_app; split].
  - destruct (get_edns0_option 8 (req_msg req)) as [[f m sc a| |]|] eqn:Eo; try constructor. destruct (_ && _); [|constructor].
    apply one_fine, clean_fine; [auto|apply fields_nil|]. apply built_app; [code|]. apply one_out, (pu_address _ _ _ _ _ P). eapply ca_subnet. exact Eo.
  - destruct (_ || _); [|constructor]. destruct (subnet_address _ _ _) as [a|] eqn:Ea; [|constructor].
    apply one_fine, clean_fine; [auto|apply fields_nil|]. apply built_app; [code|]. apply one_out, (pu_address _ _ _ _ _ P).
    revert Ea. unfold subnet_address.
    destruct (match get_edns0_option 8 (req_msg req) with
              | Some (EOSubnet _ _ _ (Some a0)) => if ec_forward (w_ecs w) then Some a0 else req_ip (ecs_client (w_ecs w) (get_edns0_option 8 (req_msg req)) req)
              | _ => req_ip (ecs_client (w_ecs w) (get_edns0_option 8 (req_msg req)) req) end) as [i|] eqn:Ei; [|discriminate 1].
    assert (client_address req (Some i)) as Hi.
    { destruct (get_edns0_option 8 (req_msg req)) as [[f m sc [a0|]| |]|] eqn:Eo; try (rewrite <- Ei; exact Hip).
      destruct (ec_forward (w_ecs w)); rewrite <- Ei; [|exact Hip]. eapply ca_subnet. exact Eo. }
    destruct (_ && _); [|destruct (_ <? _)%N; [|discriminate 1]]; intros Em; eapply ca_network; eauto.
  - destruct (_ && _); [|constructor]. apply one_fine, clean_fine; [auto|apply fields_nil|code].
Qed.
Lemma names_lines_fine ctx r : fb ctx -> said (names_lines T true x ctx r).
Proof.
  intros Hc. unfold names_lines. apply Forall_app. split.
  - apply up_lines_fine; [auto|]. intros e a He Ha. eapply pu_lookup_events; eauto.
  - destruct (x_lookup x r) as [[e|ns]|] eqn:El; [| |constructor]; apply one_fine, clean_fine; auto.
    + apply fields_nil.
    + apply built_app; [code|]. apply one_out. eapply pu_lookup_err; eauto.
    + apply fields_cons; [|apply fields_nil]. apply built_join; [hid|]. intros a Ha. apply one_out. eapply pu_lookup_names; eauto.
    + code.
Qed.

Definition entry_built (e : log_entry) : Prop :=
  built O (le_ip e) /\ (forall n, In n (le_names e) -> built O n) /\ built O (le_reason e) /\ built O (le_type e) /\ built O (le_code e) /\
  built O (le_qname e) /\ built O (le_qtype e) /\ built O (le_answer e) /\ built O (le_instance e).
Lemma fill_built r p ms : client_address req (req_ip r) -> (forall n, In n (req_names r) -> O n) -> built O (rs_reason p) ->
  forall fs e e', entry_built e -> fill_fields T true r p ms fs e = Some e' -> entry_built e'.
Proof.
  intros Hi Hn Hr. induction fs as [|f fs IH]; intros e e' He H; cbn [fill_fields] in H; [injection H as <-; exact He|].
  destruct (fill_field T true r p ms f e) as [e1|] eqn:E1; [|discriminate H]. eapply IH; [|exact H]. clear IH H.
  destruct He as [A1 [A2 [A3 [A4 [A5 [A6 [A7 [A8 A9]]]]]]]].
  destruct f; cbn [fill_field] in E1; try (destruct (rs_msg p) as [m|]; [|discriminate E1]);
    try (destruct (m_question (req_msg r)) as [|q qs]; [discriminate E1|]); injection E1 as <-;
    unfold entry_built; cbn [le_ip le_names le_reason le_type le_code le_qname le_qtype le_answer le_instance];
    (split; [|split; [|split; [|split; [|split; [|split; [|split; [|split]]]]]]]); auto;
    try (intros n Hnn; apply one_out; now apply Hn); try apply built_obfuscated; apply one_out.
  - now apply (pu_address _ _ _ _ _ P).
  - apply (pu_rtype _ _ _ _ _ P).
  - apply (pu_rcode _ _ _ _ _ P).
  - apply (pu_type _ _ _ _ _ P).
Qed.
Lemma logging_lines_fine ctx r res : fb ctx -> client_address req (req_ip r) -> (forall n, In n (req_names r) -> O n) ->
  (forall v, res = Some v -> ok v) -> said (logging_lines w x ctx r res).
Proof.
  intros Hc Hi Hn Hres. unfold logging_lines. destruct res as [[p|e]|]; [|constructor|constructor]. specialize (Hres _ eq_refl). cbn [res_ok] in Hres.
  destruct (w_entry w r p) as [e|] eqn:Ee; [|constructor]. destruct (Hentries r p) as [inst [instant [start [ms [Ho Ec]]]]]. rewrite Ee in Ec.
  unfold create_log_entry in Ec. symmetry in Ec. apply fill_built in Ec; auto.
  2:{ unfold entry_built. cbn [le_ip le_names le_reason le_type le_code le_qname le_qtype le_answer le_instance].
      (split; [|split; [|split; [|split; [|split; [|split; [|split; [|split]]]]]]]); try constructor; [code| |now apply one_out].
      intros n [<-|[]]. code. }
  assert (fb (entry_line_fields e)) as Hf.
  { intros k v Hk. unfold entry_line_fields in Hk. apply in_map_iff in Hk as [[k' v'] [Ek Hk]]. apply filter_In in Hk as [Hk _].
    cbn [fst snd] in Ek. injection Ek as _ <-. destruct Ec as [A1 [A2 [A3 [A4 [A5 [A6 [A7 [A8 A9]]]]]]]].
    unfold LogOut.entry_fields in Hk. cbn [In] in Hk.
    repeat match goal with H : _ \/ _ |- _ => destruct H as [Hk|Hk] end; try contradiction; injection Hk as _ <-; auto.
    - apply built_join; [hid|auto].
    - apply one_out, (pu_number _ _ _ _ _ P). }
  destruct (log_ignored _ _); [|destruct (x_room x); [destruct (x_console x); [|constructor]|]]; apply one_fine, clean_fine; auto;
    try apply fields_nil; code.
Qed.

Lemma entries_lines_fine ctx sub d r q cn : fb ctx -> (forall cs rq, said (fst (sub cs rq))) ->
  forall es acc, said (entries_lines T true w ctx sub d r q cn es acc).
Proof.
  intros Hc Hs. induction es as [|e es IH]; intros acc; cbn [entries_lines].
  - destruct acc; [constructor|]. apply one_fine. right. apply plain_custom; [reflexivity|reflexivity|]. apply say_but; [auto| |cbn [ln_text say]; code].
    intros k v [E|[E|[]]] Hk; injection E as <- <-; [apply built_obfuscated|]. exfalso. apply Hk. now left.
  - destruct (rr_data e); try apply IH; try constructor. destruct (q_type q =? type_CNAME)%N; [apply IH|]. destruct (str_in _ _); [constructor|].
    pose proof (Hs (cn ++ [trim_suffix target $"."]) (target_request (w_new_id w (trim_suffix target $".")) r q (trim_suffix target $"."))) as Hsub.
    destruct (sub _ _) as [ls res]. cbn [fst] in Hsub. apply Forall_app. split; [exact Hsub|].
    destruct res as [[p|er]|]; try constructor. destruct (rs_msg p); [apply IH|constructor].
Qed.
Lemma custom_lines_fine ctx next : fb ctx -> forall fuel cn r, said (custom_lines T true w ctx next fuel cn r).
Proof.
  intros Hc. induction fuel as [|fuel IH]; intros cn r; cbn [custom_lines]; [constructor|]. destruct (m_question (req_msg r)) as [|q qs]; [constructor|].
  destruct (first_mapped _ _); [|constructor]. apply entries_lines_fine; [auto|]. intros cs rq. cbn [fst]. apply IH.
Qed.
Lemma custom_stage_fine ctx next r : fb ctx -> said (custom_stage_lines T true w ctx next r).
Proof.
  intros Hc. unfold custom_stage_lines. destruct (m_question (req_msg r)); [constructor|]. destruct (handle_reverse _ _ _ _); [constructor|].
  now apply custom_lines_fine.
Qed.
Lemma rewrite_lines_fine ctx iter : fb ctx -> forall qs i, said (rewrite_lines true x ctx iter i qs).
Proof.
  intros Hc. induction qs as [|q qs IH]; intros i; cbn [rewrite_lines]; [constructor|]. apply Forall_app. split; [|apply IH].
  destruct (str_eqb _ _); [constructor|]. destruct (rewrite_rule _ _) as [k v]. apply one_fine, clean_fine; [auto| |].
  - apply fields_cons; [|apply fields_nil]. apply built_app; [apply built_obfuscated|]. apply built_app; [hid|apply built_obfuscated].
  - assert (forall s, built O (x_quote x (obfuscate true s))) as Hq.
    { intros s. apply one_out, (pu_quote _ _ _ _ _ P). intros c H. now apply C62_hidden in H. }
    apply built_app; [code|]. apply built_app; [apply Hq|]. apply built_app; [code|apply Hq].
Qed.
Lemma hosts_lines_fine ctx r : fb ctx -> said (hosts_lines T true w ctx r).
Proof.
  intros Hc. unfold hosts_lines. destruct (negb _); [constructor|]. destruct (m_question (req_msg r)); [constructor|].
  destruct (hosts_reverse _ _ _ _ _); [constructor|]. destruct (split_get _ _ _); [|constructor]. apply one_fine, clean_fine; [auto| |code].
  repeat first [apply fields_cons|apply fields_nil|apply built_obfuscated].
Qed.
Lemma hit_lines_fine b s : said (hit_lines x b s).
Proof.
  apply Forall_forall. intros l Hl. unfold hit_lines in Hl. apply in_map_iff in Hl as [[r|] [<- _]]; right.
  - eapply plain_regex; reflexivity.
  - eapply plain_rule; reflexivity.
Qed.
Lemma list_built sep gs : hides sep -> (forall g, In g gs -> O g) -> built O (join sep gs).
Proof. intros Hs H. apply built_join; [exact Hs|]. intros a Ha. apply one_out. now apply H. Qed.
Lemma show_list_built gs : (forall g, In g gs -> O g) -> built O (LogOut.show_list gs).
Proof. intros H. unfold LogOut.show_list. apply built_app; [hid|]. apply built_app; [apply list_built; [hid|exact H]|hid]. Qed.
Lemma deny_lines_fine ctx gs : fb ctx -> forall qs, said (deny_lines w x ctx gs qs).
Proof.
  intros Hc. induction qs as [|q qs IH]; cbn [deny_lines]; [constructor|]. apply Forall_app. split; [apply hit_lines_fine|].
  pose proof (matches_allow gs (extract_domain q)) as Ha. destruct (matches (w_allow w) gs (extract_domain q)) as [|g l].
  - destruct (has_allowlist_only _ _).
    + apply one_fine. right. apply (plain_blocked _ _ $"(ALLOWLIST ONLY)'"); [reflexivity|reflexivity|]. apply say_but; [auto| |code].
      intros k v [E|[]] Hk. injection E as <- <-. exfalso. apply Hk. now left.
    + apply Forall_app. split; [apply hit_lines_fine|]. pose proof (built_deny gs (extract_domain q)) as Hb.
      destruct (matches (w_deny w) gs (extract_domain q)) as [|g l]; [exact IH|]. apply one_fine. right.
      apply (plain_blocked _ _ ($"(" ++ join $"," (g :: l) ++ $")'")); [reflexivity|reflexivity|]. apply say_but; [auto| |].
      * intros k v [E|[]] Hk. injection E as <- <-. exfalso. apply Hk. now left.
      * apply built_app; [code|]. apply built_app; [exact Hb|hid].
  - apply one_fine. right. apply plain_allowed; [reflexivity|reflexivity|]. apply say_but; [auto| |code].
    intros k v [E|[E|[]]] Hk; (apply pair_equal_spec in E as [<- <-]); [exfalso; apply Hk; now left|]. apply show_list_built. intros g' Hg'. now apply Ha.
Qed.
Lemma screen_lines_fine ctx gs : fb ctx -> forall ans, said (screen_lines w x ctx gs ans).
Proof.
  intros Hc. induction ans as [|r ans IH]; cbn [screen_lines]; [constructor|]. pose proof (tag_built r) as Ht.
  destruct (entry_to_check (w_ip_string w) r) as [e t]. cbn [snd] in Ht. destruct e as [|c e]; [exact IH|].
  apply Forall_app. split; [apply hit_lines_fine|]. pose proof (matches_allow gs (c :: e)) as Ha.
  destruct (matches (w_allow w) gs (c :: e)) as [|g l].
  - apply Forall_app. split; [apply hit_lines_fine|]. pose proof (built_deny gs (c :: e)) as Hb.
    destruct (matches (w_deny w) gs (c :: e)) as [|g l]; [exact IH|]. apply one_fine. right.
    apply (plain_response_blocked _ _ (t ++ $" (" ++ join $"," (g :: l) ++ $")'")); [reflexivity|reflexivity|]. apply say_but; [auto| |].
    + intros k v [E|[]] Hk. apply pair_equal_spec in E as [<- <-]. exfalso. apply Hk. now left.
    + apply built_app; [code|]. apply built_app; [exact Ht|]. apply built_app; [hid|]. apply built_app; [exact Hb|hid].
  - constructor; [|exact IH]. right. apply (plain_response_allowed _ _ t); [reflexivity|reflexivity|]. apply say_but; [auto| |].
    + intros k v [E|[E|[]]] Hk; (apply pair_equal_spec in E as [<- <-]); [exfalso; apply Hk; now left|]. apply show_list_built. intros g' Hg'. now apply Ha.
    + apply built_app; [exact Ht|code].
Qed.
Lemma client_groups r g : In g (groups_of_client w r) -> O g.
Proof.
  intros H. unfold groups_of_client, groups_to_check in H. apply (proj1 (sort_strs_In _ _)) in H. apply filter_In in H as [H _].
  assert (forall i p, In p (w_blk_iter w i) -> In g (snd p) -> O g) as G by (intros i p; apply (pu_group_client _ _ _ _ _ P)).
  assert (forall k gs, mget str_eqb k (w_blk_iter w 0) = Some gs -> In g gs -> O g) as Gm.
  { intros k gs E Hg. apply mget_In in E. exact (G 0 _ E Hg). }
  assert (forall names i, In g (groups_by_name (w_glob w) (w_blk_iter w) i names) -> O g) as Gn.
  { induction names as [|n names IH]; intros i Hn; cbn [groups_by_name] in Hn; [destruct Hn|]. apply in_app_iff in Hn as [Hn|Hn]; [|eauto].
    apply in_flat_map in Hn as [p [Hp Hg]]. destruct (name_matches _ _ _); [eauto|destruct Hg]. }
  assert (In g (groups_by_ip (w_ip_string w) (w_blk_iter w 0) (req_ip r)) -> O g) as Gi.
  { unfold groups_by_ip. destruct (mget str_eqb (w_ip_string w (req_ip r)) (w_blk_iter w 0)) eqn:Em; [eauto|intros []]. }
  assert (In g (groups_by_net (w_cidr w) (w_blk_iter w 0) (w_fqdn_ips w) (req_ip r)) -> O g) as Gt.
  { unfold groups_by_net. intros Hn. apply in_flat_map in Hn as [p [Hp Hg]]. destruct (w_cidr w _ _); [eauto|].
    destruct (is_fqdn_identifier _); [|destruct Hg]. apply in_flat_map in Hg as [a [_ Hg]]. destruct (same_ip _ _); [eauto|destruct Hg]. }
  destruct (groups_by_name _ _ _ _ ++ _) as [|g0 l] eqn:Eg.
  - destruct (mget _ _ _) eqn:Em; [eauto|destruct H].
  - rewrite <- Eg in H. rewrite !in_app_iff in H. destruct H as [H|[H|H]]; eauto.
Qed.
Lemma blocking_lines_fine ctx next r : fb ctx -> said (blocking_lines w x ctx next r).
Proof.
  intros Hc. unfold blocking_lines. pose proof (client_groups r) as Hg. destruct (groups_of_client w r) as [|g gs]; [constructor|].
  constructor.
  { apply clean_fine; [auto| |code]. apply fields_cons; [|apply fields_nil]. apply list_built; [hid|exact Hg]. }
  apply Forall_app. split; [now apply deny_lines_fine|]. destruct (handle_denylist _ _ _ _ _ _ _); [constructor|].
  destruct (next r) as [[p|e]|]; try constructor. destruct (rs_msg p); [now apply screen_lines_fine|constructor].
Qed.
Lemma caching_lines_fine ctx r : fb ctx -> said (caching_lines true w x ctx r).
Proof.
  intros Hc. unfold caching_lines. destruct (_ || _); [apply one_fine, clean_fine; [auto|apply fields_nil|code]|].
  generalize 0. induction (m_question (req_msg r)) as [|q qs IH]; intros i; cbn [cache_lines]; [constructor|].
  apply Forall_app. split; [|destruct (w_look w r i) as [m|]; [|apply Forall_app; split; [|apply IH]]].
  - destruct (x_unpack x i) as [e|] eqn:Eu; [|constructor]. apply one_fine, clean_fine; [auto| |].
    + apply fields_cons; [apply built_obfuscated|apply fields_nil].
    + apply built_app; [code|]. apply one_out. eapply pu_unpack; eauto.
  - apply one_fine, clean_fine; [auto| |code]. apply fields_cons; [apply built_obfuscated|apply fields_nil].
  - destruct (x_pack x i) as [e|] eqn:Eu; [|constructor]. apply one_fine, clean_fine; [auto|apply fields_nil|].
    apply built_app; [code|]. apply one_out. eapply pu_pack; eauto.
Qed.
Lemma conditional_lines_fine ctx r : fb ctx -> said (conditional_lines T true w x ctx r).
Proof.
  intros Hc. unfold conditional_lines. destruct (cond_dest _ _) as [[u rq|rq]|]; try constructor.
  destruct (m_question (req_msg r)); [constructor|]. apply Forall_app. split.
  - apply up_lines_fine; [auto|]. intros e a He Ha. eapply pu_cond_events; eauto.
  - apply one_fine, clean_fine; [auto| |code].
    apply fields_cons; [|apply fields_cons; [apply built_obfuscated|apply fields_cons; [apply one_out, (pu_upstream _ _ _ _ _ P)|apply fields_nil]]].
    destruct (w_ask w u rq) as [[p|e]|]; try constructor. destruct (rs_msg p); [apply built_obfuscated|constructor].
Qed.

(** ** The chain *)
Lemma chain_step s p rs ctx r (next := chain (map snd rs) (w_upstream w)) :
  said (stage_lines T true w x s ctx r next) ->
  (forall r', In r' (forwarded (p r) next) -> said (chain_lines T true w x rs (next_ctx w s ctx r) r')) ->
  said (chain_lines T true w x ((s, p) :: rs) ctx r).
Proof.
  intros Hs Hn. cbn [chain_lines]. fold next. apply Forall_app. split; [exact Hs|]. apply Forall_forall. intros l Hl.
  apply in_flat_map in Hl as [r' [Hr' Hl]]. specialize (Hn _ Hr'). rewrite Forall_forall in Hn. auto.
Qed.
Definition told_later (s : stage) : bool :=
  match s with SFiltering | SFqdnOnly | SEcs | SClientNames | SEde | SQueryLogging => false | _ => true end.
Lemma later_fine ctx : fb ctx -> forall rs, forallb told_later (map fst rs) = true -> forall r, said (chain_lines T true w x rs ctx r).
Proof.
  intros Hc. induction rs as [|[s p] rs IH]; intros H r.
  - cbn [chain_lines]. apply up_lines_fine; [auto|]. intros e a He Ha. eapply pu_tree_events; eauto.
  - cbn [map fst forallb] in H. apply andb_true_iff in H as [Hs H].
    apply chain_step.
    + destruct s; try discriminate Hs; cbn [stage_lines]; try constructor.
      * destruct (w_custom_rules w); [now apply custom_stage_fine|]. apply Forall_app. split; [now apply rewrite_lines_fine|now apply custom_stage_fine].
      * now apply hosts_lines_fine.
      * now apply blocking_lines_fine.
      * now apply caching_lines_fine.
      * destruct (w_cond_rules w); [now apply conditional_lines_fine|]. apply Forall_app. split; [now apply rewrite_lines_fine|now apply conditional_lines_fine].
    + intros r' _. destruct s; try discriminate Hs; cbn [next_ctx]; now apply IH.
Qed.
Lemma forwarded_pass r next : forwarded (pass r) next = [r].
Proof. cbn [forwarded pass]. destruct (next r); reflexivity. Qed.
Lemma ecs_next r' next : In r' (forwarded (ecs_resolve (w_ecs w) req) next) -> client_address req (req_ip r').
Proof.
  unfold ecs_resolve. destruct (ecs_enabled _); [|rewrite forwarded_pass; intros [<-|[]]; apply ca_connection].
  assert (client_address req (req_ip (ecs_client (w_ecs w) (get_edns0_option 8 (req_msg req)) req))) as Hip.
  { unfold ecs_client. destruct (get_edns0_option 8 (req_msg req)) as [[f m sc a| |]|] eqn:Eo; try apply ca_connection.
    destruct (_ && _); [|apply ca_connection]. cbn. eapply ca_subnet. exact Eo. }
  set (r1 := ecs_client _ _ _) in *.
  assert (forall r2, (if (0 <? ec_mask4 (w_ecs w))%N || (0 <? ec_mask6 (w_ecs w))%N then set_subnet (w_ecs w) (get_edns0_option 8 (req_msg req)) r1 else Some r1) = Some r2 ->
    req_ip r2 = req_ip r1) as H2.
  { intros r2. destruct (_ || _); [|intros E; injection E as <-; reflexivity]. unfold set_subnet.
    destruct (match get_edns0_option 8 (req_msg req) with Some (EOSubnet _ _ _ (Some a)) => _ | _ => _ end) as [i|]; [|intros E; injection E as <-; reflexivity].
    destruct (is_v4 i && _); [destruct (mask_ip _ _); [|discriminate 1]; intros E; injection E as <-; reflexivity|].
    destruct (0 <? _)%N; [destruct (mask_ip _ _); [|discriminate 1]; intros E; injection E as <-; reflexivity|intros E; injection E as <-; reflexivity]. }
  destruct (if _ || _ then _ else _) as [r2|]; [|intros []]. specialize (H2 _ eq_refl).
  destruct (_ && _); rewrite forwarded_pass; intros [<-|[]]; [change (client_address req (req_ip r2))|]; rewrite H2; exact Hip.
Qed.
Lemma query_lines_fine ctx : fb ctx -> said (chain_lines T true w x (query_resolvers w) ctx req).
Proof.
  intros Hc. unfold query_resolvers.
  apply chain_step; [constructor|]. cbn [next_ctx]. intros r0 H0.
  assert (r0 = req) as ->.
  { unfold filtering_resolve in H0. destruct (m_question (req_msg req)); [destruct H0|]. destruct (existsb _ _); [destruct H0|].
    rewrite forwarded_pass in H0. now destruct H0 as [<-|[]]. }
  clear H0. apply chain_step; [constructor|]. cbn [next_ctx]. intros r0 H0.
  assert (r0 = req) as ->.
  { unfold fqdn_only_resolve in H0. destruct (w_fqdn w); [|rewrite forwarded_pass in H0; now destruct H0 as [<-|[]]].
    destruct (m_question (req_msg req)); [destruct H0|]. destruct (negb _); [destruct H0|].
    rewrite forwarded_pass in H0. now destruct H0 as [<-|[]]. }
  clear H0. apply chain_step; [now apply ecs_lines_fine|]. cbn [next_ctx]. intros r1 H1. apply ecs_next in H1.
  apply chain_step; [now apply names_lines_fine|]. intros r2 H2. unfold names_resolve in H2. rewrite forwarded_pass in H2. destruct H2 as [<-|[]].
  assert (fb (next_ctx w SClientNames ctx r1)) as Hc2.
  { cbn [next_ctx]. apply with_fields_built; [auto|]. apply fields_cons; [|apply fields_nil]. apply list_built; [hid|]. intros g Hg. eapply pu_names; eauto. }
  set (ctx2 := next_ctx w SClientNames ctx r1) in *. clearbody ctx2.
  apply chain_step; [constructor|]. change (next_ctx w SEde ctx2 (set_req_names (w_names w r1) r1)) with ctx2. intros r3 H3.
  assert (r3 = set_req_names (w_names w r1) r1) as ->.
  { unfold ede_resolve in H3. destruct (negb _); [rewrite forwarded_pass in H3; now destruct H3 as [<-|[]]|].
    cbn [forwarded] in H3. destruct H3 as [<-|H3]; [reflexivity|]. destruct (chain _ _ _) as [[p|e]|]; destruct H3. }
  clear H3. apply chain_step.
  - cbn [stage_lines]. apply logging_lines_fine; [auto|exact H1| |].
    + intros n Hn. apply (pu_names _ _ _ _ _ P r1). exact Hn.
    + intros v Hv. eapply suffix_answers; [|exact Hv]. intros p Hp. unfold query_resolvers. cbn [map snd]. cbn [map snd] in Hp.
      do 6 right. exact Hp.
  - intros r4 _. cbn [next_ctx]. apply later_fine; [auto|reflexivity].
Qed.
End Query.
