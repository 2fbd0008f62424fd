(** The query log: C58 to C62, C96 to C98. *)
From Coq Require Import String Ascii List Arith Bool NArith ZArith Lia.
From Verif Require Import Str StrFacts Dns Resolver ResolverFacts Num NumFacts CachingSpec CachingProofs BlockingSpec BlockingProofs CustomProofs ArpaSpec ArpaProofs QueryLog QueryLogSpec QueryLogProofs.
Import ListNotations.
Open Scope list_scope.

(** ** C62: obfuscation *)
Theorem C62_obfuscate : forall s,
  Forall2 (fun c o => (letter_or_digit c /\ o = star) \/ (~ letter_or_digit c /\ o = c)) s (obfuscate true s) /\
  obfuscate false s = s.
Proof.
  intros s. split; [|reflexivity]. cbn. induction s as [|c s IH]; cbn; constructor; auto.
  pose proof (alphanumeric_iff c) as H. destruct (alphanumeric c); [left; split; [now apply H|auto]|right; split; [rewrite <- H; discriminate|auto]].
Qed.
Print Assumptions C62_obfuscate.

Theorem C62_hidden : forall s c, In c (obfuscate true s) -> ~ letter_or_digit c.
Proof.
  intros s c H. cbn in H. apply in_map_iff in H as [x [Hx _]]. destruct (alphanumeric x) eqn:E; subst c; [apply star_plain|].
  rewrite <- alphanumeric_iff, E. discriminate.
Qed.
Print Assumptions C62_hidden.

Example C62_example : obfuscate true $"_ldap.Example-1.com." = $"_****.*******-*.***.".
Proof. reflexivity. Qed.

(** The log lines of the blocking resolver show the name. *)
Theorem C62_blocking_debug_refuted : exists q c, In c (blocking_log_domain true q) /\ letter_or_digit c /\
  (forall x, In x (caching_log_domain true q) -> ~ letter_or_digit x).
Proof.
  exists {| q_name := $"example.com."; q_type := 1; q_class := 1 |}, "x"%char. split; [vm_compute; auto|].
  split; [left; vm_compute; split; discriminate|]. intros x. apply C62_hidden.
Qed.
Print Assumptions C62_blocking_debug_refuted.

(** ** C58: entries *)
Lemma fill_fields_spec T privacy req resp ms m q qs : rs_msg resp = Some m -> m_question (req_msg req) = q :: qs ->
  forall fs e, exists e', fill_fields T privacy req resp ms fs e = Some e' /\
  le_instant e' = le_instant e /\ le_start e' = le_start e /\ le_instance e' = le_instance e /\
  (In FClientIP fs -> le_ip e' = ip_text T (req_ip req)) /\ (~ In FClientIP fs -> le_ip e' = le_ip e) /\
  (In FClientName fs -> le_names e' = req_names req) /\ (~ In FClientName fs -> le_names e' = le_names e) /\
  (In FReason fs -> le_reason e' = rs_reason resp /\ le_type e' = rtype_text T (rs_type resp) /\ le_code e' = rcode_text T (m_rcode m)) /\
  (~ In FReason fs -> le_reason e' = le_reason e /\ le_type e' = le_type e /\ le_code e' = le_code e) /\
  (In FAnswer fs -> le_answer e' = answer_to_string T privacy (m_answer m)) /\ (~ In FAnswer fs -> le_answer e' = le_answer e) /\
  (In FQuestion fs -> le_qname e' = obfuscate privacy (q_name q) /\ le_qtype e' = type_text T (q_type q)) /\
  (~ In FQuestion fs -> le_qname e' = le_qname e /\ le_qtype e' = le_qtype e) /\
  (In FDuration fs -> le_ms e' = ms) /\ (~ In FDuration fs -> le_ms e' = le_ms e).
Proof.
  intros Hm Hq. assert (forall a b : log_field, {a = b} + {a <> b}) as Hdec by decide equality.
  induction fs as [|f fs IH]; intros e.
  - exists e. cbn. intuition.
  - cbn [fill_fields].
    assert (exists e1, fill_field T privacy req resp ms f e = Some e1) as [e1 He1] by (destruct f; cbn; rewrite ?Hm, ?Hq; eauto).
    rewrite He1. destruct (IH e1) as [e' [H0 [H1 [H2 [H3 [I1 [I2 [N1 [N2 [R1 [R2 [A1 [A2 [Q1 [Q2 [D1 D2]]]]]]]]]]]]]]]].
    exists e'. split; auto. clear IH H0.
    destruct f; cbn in He1; rewrite ?Hm, ?Hq in He1; injection He1 as <-; cbn in *;
    (split; [exact H1|]; split; [exact H2|]; split; [exact H3|]; clear H1 H2 H3 Hm Hq);
    (repeat apply conj; intros Hx;
     first
     [ destruct Hx as [Hx|Hx]; [discriminate Hx|]; (auto; fail)
     | destruct Hx as [_|Hx]; [|auto; fail];
       match goal with
       | |- le_ip _ = _ => destruct (in_dec Hdec FClientIP fs); auto
       | |- le_names _ = _ => destruct (in_dec Hdec FClientName fs); auto
       | |- le_reason _ = _ /\ _ => destruct (in_dec Hdec FReason fs); auto
       | |- le_answer _ = _ => destruct (in_dec Hdec FAnswer fs); auto
       | |- le_qname _ = _ /\ _ => destruct (in_dec Hdec FQuestion fs); auto
       | |- le_ms _ = _ => destruct (in_dec Hdec FDuration fs); auto
       end
     | exfalso; apply Hx; left; reflexivity
     | first [apply I2|apply N2|apply R2|apply A2|apply Q2|apply D2]; intros Hy; apply Hx; right; exact Hy]).
Qed.

(** An entry shows a field iff it is configured, whatever the order of the configured fields. *)
Theorem C58_fields : forall T privacy cfg instance instant start ms req resp m q qs,
  rs_msg resp = Some m -> m_question (req_msg req) = q :: qs ->
  exists e, create_log_entry T privacy cfg instance instant start ms req resp = Some e /\
  le_instant e = instant /\ le_start e = start /\ le_instance e = instance /\
  (In FClientIP (lc_fields cfg) -> le_ip e = ip_text T (req_ip req)) /\ (~ In FClientIP (lc_fields cfg) -> le_ip e = $"0.0.0.0") /\
  (In FClientName (lc_fields cfg) -> le_names e = req_names req) /\ (~ In FClientName (lc_fields cfg) -> le_names e = [$"none"]) /\
  (In FReason (lc_fields cfg) -> le_reason e = rs_reason resp /\ le_type e = rtype_text T (rs_type resp) /\ le_code e = rcode_text T (m_rcode m)) /\
  (~ In FReason (lc_fields cfg) -> le_reason e = [] /\ le_type e = [] /\ le_code e = []) /\
  (In FAnswer (lc_fields cfg) -> le_answer e = answer_to_string T privacy (m_answer m)) /\ (~ In FAnswer (lc_fields cfg) -> le_answer e = []) /\
  (In FQuestion (lc_fields cfg) -> le_qname e = obfuscate privacy (q_name q) /\ le_qtype e = type_text T (q_type q)) /\
  (~ In FQuestion (lc_fields cfg) -> le_qname e = [] /\ le_qtype e = []) /\
  (In FDuration (lc_fields cfg) -> le_ms e = ms) /\ (~ In FDuration (lc_fields cfg) -> le_ms e = 0%N).
Proof. intros. unfold create_log_entry. eapply fill_fields_spec; eauto. Qed.
Print Assumptions C58_fields.

(** With privacy mode on neither the question nor the answer of an entry shows a letter or digit. *)
Theorem C62_entry : forall T cfg instance instant start ms req resp e,
  create_log_entry T true cfg instance instant start ms req resp = Some e ->
  forall c, In c (le_qname e) \/ In c (le_answer e) -> ~ letter_or_digit c.
Proof.
  intros T cfg instance instant start ms req resp e H. unfold create_log_entry in H.
  match type of H with fill_fields _ _ _ _ _ _ ?e0 = _ =>
    assert (forall c, In c (le_qname e0) \/ In c (le_answer e0) -> ~ letter_or_digit c) as H0 by (cbn; tauto); revert H0; generalize dependent e0 end.
  induction (lc_fields cfg) as [|f fs IH]; intros e0 H H0; cbn in H; [injection H as <-; exact H0|].
  destruct (fill_field T true req resp ms f e0) as [e1|] eqn:E; [|discriminate]. apply (IH e1 H). clear IH H.
  destruct f; cbn in E; try (injection E as <-; exact H0).
  - destruct (rs_msg resp); [|discriminate]. injection E as <-. exact H0.
  - destruct (rs_msg resp); [|discriminate]. injection E as <-. cbn. intros c [Hc|Hc]; [apply H0; auto|]. now apply C62_hidden in Hc.
  - destruct (m_question (req_msg req)); [discriminate|]. injection E as <-. cbn. intros c [Hc|Hc]; [|apply H0; auto]. now apply C62_hidden in Hc.
Qed.
Print Assumptions C62_entry.

(** ** C58: the answer *)

(** The client gets what the next resolver answered, whatever happens to the log: the query is sent on once and unchanged. *)
Theorem C58_result : forall entry req next,
  (forall resp, next req = Some (Ok resp) -> entry req resp <> None) ->
  exec (logging_resolve entry req) next = next req /\ forwarded (logging_resolve entry req) next = [req].
Proof.
  intros entry req next H. unfold logging_resolve. cbn [exec forwarded]. destruct (next req) as [[resp|e]|]; cbn; auto.
  destruct (entry req resp) eqn:E; [cbn; auto|]. exfalso. eapply H; eauto.
Qed.
Print Assumptions C58_result.

(** An entry is offered exactly for answered queries that are not ignored. *)
Theorem C58_offered : forall entry cfg req r e,
  logging_offer entry cfg req r = Some e <->
  exists resp, r = Some (Ok resp) /\ entry req resp = Some e /\ ~ (lc_ignore_sudn cfg = true /\ rs_type resp = SPECIAL).
Proof.
  intros entry cfg req r e. unfold logging_offer, log_ignored. split.
  - destruct r as [[resp|x]|]; try discriminate. destruct (entry req resp) as [e'|] eqn:E; [|discriminate].
    destruct (lc_ignore_sudn cfg) eqn:E1; cbn; [destruct (rs_type resp) eqn:E2; cbn; try discriminate|]; intros [= ->];
    exists resp; (split; [auto|]); (split; [auto|]); intros [? ?]; congruence.
  - intros [resp [-> [-> H]]]. destruct (lc_ignore_sudn cfg); cbn; [destruct (rs_type resp); cbn; auto; tauto|auto].
Qed.
Print Assumptions C58_offered.

(** ** C58: the channel *)
Definition offers (ops : list log_op) : list log_entry := flat_map (fun o => match o with LOffer e => [e] | _ => [] end) ops.

Lemma log_run_snoc ops o : log_run (ops ++ [o]) = log_step (log_run ops) o.
Proof. unfold log_run. now rewrite fold_left_app. Qed.

Lemma offers_snoc ops o : offers (ops ++ [o]) = offers ops ++ match o with LOffer e => [e] | _ => [] end.
Proof. unfold offers. rewrite flat_map_app. cbn. now rewrite app_nil_r. Qed.

(** Every entry is written at most once and in the order of the answers, at any time of any schedule. *)
Theorem C58_order : forall ops, subsequence (ls_written (log_run ops) ++ ls_queue (log_run ops)) (offers ops) /\
  length (ls_queue (log_run ops)) <= 1000.
Proof.
  induction ops as [|o ops IH] using rev_ind; [cbn; split; [constructor|lia]|]. rewrite log_run_snoc, offers_snoc.
  destruct IH as [IH1 IH2]. destruct (log_run ops) as [q w r]. cbn [ls_queue ls_written] in *. destruct o as [e| |]; cbn [log_step ls_queue ls_running ls_written].
  - destruct (Nat.ltb_spec (length q) log_chan_cap) as [H|H]; cbn [ls_queue ls_written].
    + split; [rewrite app_assoc; now apply subsequence_app_keep|]. rewrite app_length. cbn [length]. unfold log_chan_cap in H. lia.
    + split; [now apply subsequence_app_drop|auto].
  - rewrite app_nil_r. destruct r, q as [|e q]; cbn [ls_queue ls_written]; auto.
    cbn [length] in IH2. split; [rewrite <- app_assoc; exact IH1|lia].
  - rewrite app_nil_r. auto.
Qed.
Print Assumptions C58_order.

(** An entry is dropped only while 1000 entries wait; otherwise it is the last in the queue. *)
Theorem C58_dropped_only_full : forall ops e,
  let s := log_run ops in let s' := log_run (ops ++ [LOffer e]) in
  ls_written s' = ls_written s /\
  (length (ls_queue s) < 1000 -> ls_queue s' = ls_queue s ++ [e]) /\
  (length (ls_queue s) >= 1000 -> ls_queue s' = ls_queue s).
Proof.
  intros ops e. cbv zeta. rewrite log_run_snoc. destruct (log_run ops) as [q w r]. cbn [log_step ls_queue ls_written].
  destruct (Nat.ltb_spec (length q) log_chan_cap) as [H|H]; unfold log_chan_cap in H; cbn [ls_queue ls_written]; repeat split; auto; lia.
Qed.
Print Assumptions C58_dropped_only_full.

(** Nothing is lost while the writer stays less than 1000 entries behind. *)
Theorem C58_complete : forall ops,
  (forall pre post, ops = pre ++ post -> length (offers pre) <= length (ls_written (log_run pre)) + 1000) ->
  ls_written (log_run ops) ++ ls_queue (log_run ops) = offers ops.
Proof.
  induction ops as [|o ops IH] using rev_ind; intros H; [reflexivity|].
  assert (ls_written (log_run ops) ++ ls_queue (log_run ops) = offers ops) as E.
  { apply IH. intros pre post ->. apply (H pre (post ++ [o])). now rewrite app_assoc. }
  specialize (H (ops ++ [o]) [] ltac:(now rewrite app_nil_r)). rewrite offers_snoc, log_run_snoc in *. rewrite <- E in *.
  destruct (log_run ops) as [q w r]. cbn [ls_queue ls_written] in *. destruct o as [e| |]; cbn [log_step ls_queue ls_written ls_running] in *; rewrite ?app_nil_r in *; auto.
  - destruct (Nat.ltb_spec (length q) log_chan_cap) as [Hl|Hl]; unfold log_chan_cap in Hl; cbn [ls_queue ls_written] in *; [now rewrite app_assoc|].
    exfalso. rewrite !app_length in H. cbn [length] in H. lia.
  - destruct r, q; cbn [ls_queue ls_written]; auto. now rewrite <- app_assoc.
Qed.
Print Assumptions C58_complete.

(** A writer that gets to run writes everything in the queue. *)
Theorem C58_drained : forall ops n, ~ In LStop ops -> length (ls_queue (log_run ops)) <= n ->
  ls_written (log_run (ops ++ repeat LWrite n)) = ls_written (log_run ops) ++ ls_queue (log_run ops) /\
  ls_queue (log_run (ops ++ repeat LWrite n)) = [].
Proof.
  intros ops n Hs. assert (ls_running (log_run ops) = true) as Hr.
  { induction ops as [|o ops IH] using rev_ind; [reflexivity|]. rewrite log_run_snoc. rewrite in_app_iff in Hs.
    destruct (log_run ops) as [q w r]. assert (r = true) as -> by (apply IH; tauto). destruct o; cbn [log_step ls_queue ls_running].
    - destruct (_ <? _); reflexivity.
    - destruct q; reflexivity.
    - exfalso. apply Hs. right. now left. }
  unfold log_run. rewrite fold_left_app. fold (log_run ops). generalize dependent (log_run ops). clear.
  induction n as [|n IH]; intros [q w r] Hr Hl; cbn [ls_queue ls_written ls_running] in *; subst r.
  - destruct q; [|cbn in Hl; lia]. cbn. now rewrite app_nil_r.
  - cbn [repeat fold_left]. destruct q as [|e q]; cbn [log_step ls_running ls_queue ls_written].
    + apply (IH {| ls_queue := []; ls_written := w; ls_running := true |}); cbn; auto. lia.
    + cbn in Hl. destruct (IH {| ls_queue := q; ls_written := w ++ [e]; ls_running := true |}) as [H1 H2]; [reflexivity|cbn; lia|].
      cbn [ls_written ls_queue] in *. rewrite H1. split; [now rewrite <- app_assoc|exact H2].
Qed.
Print Assumptions C58_drained.

(** When the server stops, entries that still wait are not written. *)
Theorem C58_stop_refuted : exists ops, forall more, ls_written (log_run (ops ++ more)) = [] /\ length (offers ops) = 1.
Proof.
  exists [LOffer (Build_log_entry 0 (Build_civil 2024 1 1 0 0 0) [] [] 0 [] [] [] [] [] [] []); LStop]. intros more. split; [|reflexivity].
  unfold log_run. rewrite fold_left_app. assert (forall s, ls_running s = false -> ls_written s = [] -> ls_written (fold_left log_step more s) = []) as H.
  { induction more as [|o more IH]; intros s H1 H2; auto. cbn [fold_left]. apply IH; destruct o; cbn [log_step ls_running ls_written]; auto.
    - match goal with |- context [?a <? ?b] => destruct (a <? b) end; auto.
    - rewrite H1. auto.
    - match goal with |- context [?a <? ?b] => destruct (a <? b) end; auto.
    - rewrite H1. auto. }
  apply H; reflexivity.
Qed.
Print Assumptions C58_stop_refuted.

(** ** C59: the database *)
Definition written_rows (etld : str -> str) (ops : list db_op) : list db_row :=
  flat_map (fun o => match o with DWrite e => [db_row_of etld e] | _ => [] end) ops.

Lemma batches_spec : forall fuel l, length l <= fuel -> concat (batches fuel l) = l /\ Forall (fun b => 1 <= length b <= 100) (batches fuel l).
Proof.
  induction fuel as [|fuel IH]; intros l H; [destruct l; [cbn; auto|cbn in H; lia]|].
  destruct l as [|x l]; [cbn; auto|]. cbn [batches concat].
  assert (length (skipn bulk_size (x :: l)) <= fuel) as Hs by (rewrite skipn_length; unfold bulk_size; cbn [length] in *; lia).
  destruct (IH _ Hs) as [E F]. rewrite E, firstn_skipn. split; auto. constructor; auto.
  rewrite firstn_length. unfold bulk_size. cbn [length]. lia.
Qed.

Lemma db_run_snoc etld ops o : db_run etld (ops ++ [o]) = db_step etld (db_run etld ops) o.
Proof. unfold db_run. now rewrite fold_left_app. Qed.

(** Every entry is in exactly one batch or pending, in order; batches have 1 to 100 entries. *)
Theorem C59_batches : forall etld ops, let s := db_run etld ops in
  concat (db_batches s) ++ db_pending s = written_rows etld ops /\ Forall (fun b => 1 <= length b <= 100) (db_batches s).
Proof.
  intros etld. induction ops as [|o ops IH] using rev_ind; [cbn; auto|]. cbv zeta in *. rewrite db_run_snoc. unfold written_rows in *. rewrite flat_map_app.
  destruct IH as [E F]. rewrite <- E. destruct o; cbn [db_step db_batches db_pending flat_map].
  - rewrite app_nil_r, app_assoc. auto.
  - destruct (batches_spec _ _ (le_n (length (db_pending (db_run etld ops))))) as [B1 B2]. rewrite concat_app, B1, !app_nil_r. split; auto. apply Forall_app; auto.
  - rewrite app_nil_r. auto.
Qed.
Print Assumptions C59_batches.

Lemma write_batches_ok : forall bs ok t, Forall (eq true) ok -> write_batches bs ok t = t ++ concat bs.
Proof.
  induction bs as [|b bs IH]; intros ok t H; cbn; [now rewrite app_nil_r|]. destruct H as [|x ok <- H]; cbn; rewrite IH; auto; now rewrite <- app_assoc.
Qed.

(** With a working database every entry is in the table or pending, once and in order; after a flush all are in the table. *)
Theorem C59_once_partial : forall etld ops,
  Forall (fun o => match o with DWrite _ => True | DFlush ok => Forall (eq true) ok | DClean _ => False end) ops ->
  db_table (db_run etld ops) ++ db_pending (db_run etld ops) = written_rows etld ops /\
  forall ok, Forall (eq true) ok -> db_table (db_run etld (ops ++ [DFlush ok])) = written_rows etld ops.
Proof.
  intros etld ops H. assert (db_table (db_run etld ops) ++ db_pending (db_run etld ops) = written_rows etld ops) as E.
  { induction ops as [|o ops IH] using rev_ind; [reflexivity|]. apply Forall_app in H as [H Ho]. specialize (IH H). inversion Ho as [|? ? Ho' _]; subst.
    rewrite db_run_snoc. unfold written_rows in *. rewrite flat_map_app, <- IH. destruct o; cbn [db_step db_table db_pending flat_map]; [now rewrite app_nil_r, app_assoc| |contradiction].
    rewrite write_batches_ok by exact Ho'. rewrite (proj1 (batches_spec _ _ (le_n _))), !app_nil_r. reflexivity. }
  split; auto. intros ok Hok. rewrite db_run_snoc. cbn [db_step db_table]. rewrite write_batches_ok by exact Hok.
  now rewrite (proj1 (batches_spec _ _ (le_n _))).
Qed.
Print Assumptions C59_once_partial.

Lemma subsequence_app2 {A} : forall (a b c d : list A), subsequence a b -> subsequence c d -> subsequence (a ++ c) (b ++ d).
Proof. intros a b c d H. induction H; intros; cbn; [auto|constructor; auto|constructor; auto]. Qed.

Lemma subsequence_nil {A} : forall b : list A, subsequence [] b.
Proof. induction b; constructor; auto. Qed.

Lemma subsequence_filter {A} (f : A -> bool) : forall a b, subsequence a b -> subsequence (filter f a) b.
Proof. intros a b H. induction H as [|x a b H IH|x a b H IH]; cbn; [constructor| |constructor; auto]. destruct (f x); constructor; auto. Qed.

Lemma write_batches_sub : forall bs ok t c, subsequence t c -> subsequence (write_batches bs ok t) (c ++ concat bs).
Proof.
  induction bs as [|b bs IH]; intros ok t c H; cbn; [now rewrite app_nil_r|]. rewrite app_assoc. apply IH. destruct (hd true ok).
  - apply subsequence_app2; auto. apply subsequence_refl.
  - rewrite <- (app_nil_r t). apply subsequence_app2; auto. apply subsequence_nil.
Qed.

(** Whatever the database does: no entry twice, none out of order. *)
Theorem C59_never_twice : forall etld ops, subsequence (db_table (db_run etld ops)) (written_rows etld ops).
Proof.
  intros etld ops. assert (subsequence (db_table (db_run etld ops)) (concat (db_batches (db_run etld ops)))) as H.
  { induction ops as [|o ops IH] using rev_ind; [constructor|]. rewrite db_run_snoc. destruct o; cbn [db_step db_table db_batches]; auto.
    - rewrite concat_app. now apply write_batches_sub.
    - now apply subsequence_filter. }
  destruct (C59_batches etld ops) as [E _]. rewrite <- E. rewrite <- (app_nil_r (db_table _)). apply subsequence_app2; auto. apply subsequence_nil.
Qed.
Print Assumptions C59_never_twice.

Definition sample_entry (instant : Z) (c : civil) (names : list str) (qname : str) : log_entry :=
  {| le_instant := instant; le_start := c; le_ip := $"192.168.1.2"; le_names := names; le_ms := 12; le_reason := $"RESOLVED";
     le_type := $"RESOLVED"; le_code := $"NOERROR"; le_qtype := $"A"; le_qname := qname; le_answer := $"A (1.2.3.4)"; le_instance := $"host" |}.
Definition sample_time : civil := {| c_year := 2024; c_month := 2; c_day := 29; c_hour := 7; c_min := 5; c_sec := 0 |}.

(** The entries of a batch the database refuses are lost: they are neither written later nor kept. *)
Theorem C59_failed_batch_refuted : exists etld ops, written_rows etld ops <> [] /\
  forall more, ~ In (hd (db_row_of etld (sample_entry 1 sample_time [] [])) (written_rows etld ops)) (written_rows etld more) ->
  ~ In (hd (db_row_of etld (sample_entry 1 sample_time [] [])) (written_rows etld ops)) (db_table (db_run etld (ops ++ more))).
Proof.
  exists (fun s => s), [DWrite (sample_entry 0 sample_time [] $"example.com."); DFlush [false]]. split; [discriminate|]. intros more Hn Hi. apply Hn. clear Hn.
  unfold db_run in Hi. rewrite fold_left_app in Hi. cbn [written_rows flat_map app hd] in *.
  set (r := db_row_of (fun s => s) (sample_entry 0 sample_time [] $"example.com.")) in *. clearbody r.
  change (fold_left _ [DWrite _; DFlush [false]] db_init) with {| db_pending := []; db_table := []; db_batches := [[db_row_of (fun s : str => s) (sample_entry 0 sample_time [] $"example.com.")]] |} in Hi.
  assert (forall s, In r (db_table (fold_left (db_step (fun s => s)) more s)) -> In r (db_table s) \/ In r (db_pending s) \/ In r (written_rows (fun s => s) more)) as H.
  { clear. induction more as [|o more IH]; intros s H; [auto|]. cbn [fold_left] in H. apply IH in H. destruct o as [e|ok|d]; cbn [db_step db_table db_pending written_rows flat_map] in *.
    - rewrite !in_app_iff in *. cbn in *. tauto.
    - destruct H as [H|[[]|H]]; [|auto]. assert (forall bs ok t, In r (write_batches bs ok t) -> In r t \/ In r (concat bs)) as Hw.
      { clear. induction bs as [|b bs IH]; intros ok t H; [auto|]. cbn in *. apply IH in H. rewrite in_app_iff. destruct (hd true ok); rewrite ?in_app_iff in H; tauto. }
      apply Hw in H. rewrite (proj1 (batches_spec _ _ (le_n _))) in H. cbn. tauto.
    - rewrite filter_In in H. tauto. }
  apply H in Hi. cbn in Hi. tauto.
Qed.
Print Assumptions C59_failed_batch_refuted.

(** What a row shows: the name in lower case without the final dot. *)
Theorem C59_content : forall etld e, let r := db_row_of etld e in
  db_ts r = le_instant e /\ db_ip r = le_ip e /\ db_name r = join $"; " (le_names e) /\ db_ms r = le_ms e /\ db_reason r = le_reason e /\
  db_type r = le_type e /\ db_qtype r = le_qtype e /\ db_answer r = le_answer e /\ db_code r = le_code e /\ db_host r = le_instance e /\
  db_etld r = etld (db_qname r) /\ exists l, lowered (le_qname e) l /\ without_dot l (db_qname r).
Proof.
  intros etld e. cbn. do 11 (split; [reflexivity|]). exists (to_lower (le_qname e)). split; [now apply lowered_iff|].
  unfold extract_domain_only. now apply without_dot_trim.
Qed.
Print Assumptions C59_content.

Example C59_example : let ops := map (fun i => DWrite (sample_entry (Z.of_nat i) sample_time [] [])) (seq 0 250) ++ [DFlush []] in
  map (@length _) (db_batches (db_run (fun s => s) ops)) = [100; 100; 50] /\ map db_ts (db_table (db_run (fun s => s) ops)) = map Z.of_nat (seq 0 250) /\
  db_pending (db_run (fun s => s) ops) = [].
Proof. vm_compute. auto. Qed.

(** ** C60: file names *)
Lemma file_name_chars pc e c : In c (file_name pc e) -> file_char c = true \/ c = dot.
Proof.
  unfold file_name. rewrite !in_app_iff. intros [H|[H|[H|H]]].
  - left. eapply format_date_file; eauto.
  - destruct H as [<-|[]]. now left.
  - left. eapply escape_from_file; eauto.
  - cbn in H. destruct H as [<-|[<-|[<-|[<-|[]]]]]; auto.
Qed.

Theorem C60_no_separator : forall per_client e,
  ~ In slash (file_name per_client e) /\ ~ In "\"%char (file_name per_client e) /\
  (forall c, In c (file_name per_client e) -> letter_or_digit c \/ In c $"-_.") /\
  file_name per_client e <> $"." /\ file_name per_client e <> $"..".
Proof.
  intros pc e. assert (forall c, In c (file_name pc e) -> letter_or_digit c \/ In c $"-_.") as H.
  { intros c Hc. apply file_name_chars in Hc as [Hc| ->]; [|right; cbn; auto]. unfold file_char in Hc. rewrite !orb_true_iff in Hc.
    destruct Hc as [[Hc|Hc]|Hc]; [left; now apply alphanumeric_iff|right|right]; apply Ascii.eqb_eq in Hc as ->; cbn; auto. }
  assert (forall s, file_name pc e = s -> 5 <= length s) as Hl.
  { intros s <-. unfold file_name. rewrite !app_length. cbn. lia. }
  split; [|split; [|split; [exact H|split; intros E; apply Hl in E; cbn in E; lia]]].
  - intros Hs. apply H in Hs as [Hs|Hs]; [unfold letter_or_digit in Hs; cbn in Hs; lia|cbn in Hs; intuition discriminate].
  - intros Hs. apply H in Hs as [Hs|Hs]; [unfold letter_or_digit in Hs; cbn in Hs; lia|cbn in Hs; intuition discriminate].
Qed.
Print Assumptions C60_no_separator.

Example C60_example : file_name true (sample_entry 0 sample_time [$"../../etc/passwd"; $"laptop.lan"] []) = $"2024-02-29__etc_passwd-laptop_lan.log" /\
  file_name false (sample_entry 0 sample_time [$"laptop"] []) = $"2024-02-29_ALL.log".
Proof. split; reflexivity. Qed.

(** ** C97: one file per client *)
Definition good_time (c : civil) : Prop := (c_year c < 10000)%N /\ valid_date (c_year c) (c_month c) (c_day c).

Lemma valid_small y m d : valid_date y m d -> (m < 100 /\ d < 100)%N.
Proof. intros [l [H Hd]]. unfold month_length in H. cbn [In] in H. lia. Qed.

Lemma format_date_length c : good_time c -> length (format_date c) = 10.
Proof.
  intros [Hy Hv]. apply valid_small in Hv as [Hm Hd]. unfold format_date. rewrite !app_length, !pad_dec_length; cbn; lia.
Qed.

Lemma app_same_length {A} : forall a b c d : list A, length a = length c -> a ++ b = c ++ d -> a = c /\ b = d.
Proof. induction a as [|x a IH]; intros b [|y c] d Hl H; cbn in *; try discriminate; [auto|]. injection H as -> H. injection Hl as Hl. destruct (IH _ _ _ Hl H) as [-> ->]. auto. Qed.

Lemma format_date_inj c c' : good_time c -> good_time c' -> format_date c = format_date c' ->
  c_year c = c_year c' /\ c_month c = c_month c' /\ c_day c = c_day c'.
Proof.
  intros [Hy Hv] [Hy' Hv'] E. apply valid_small in Hv as [Hm Hd], Hv' as [Hm' Hd']. unfold format_date in E.
  assert (forall w a b, pad_dec w a = pad_dec w b -> a = b) as Hinj.
  { intros w a b H. pose proof (pad_dec_parse w a) as Ha. rewrite H, pad_dec_parse in Ha. now injection Ha. }
  apply app_same_length in E as [E1 E]; [|rewrite !pad_dec_length; cbn; lia]. injection E as E.
  apply app_same_length in E as [E2 E]; [|rewrite !pad_dec_length; cbn; lia]. injection E as E.
  split; [exact (Hinj _ _ _ E1)|]. split; [exact (Hinj _ _ _ E2)|exact (Hinj _ _ _ E)].
Qed.

(** Clients with one plain name each never share a file, nor do days. *)
Theorem C97_apart_partial : forall e e' a b, good_time (le_start e) -> good_time (le_start e') -> le_names e = [a] -> le_names e' = [b] ->
  (forall c, In c a \/ In c b -> letter_or_digit c \/ In c $"-_") ->
  file_name true e = file_name true e' ->
  a = b /\ c_year (le_start e) = c_year (le_start e') /\ c_month (le_start e) = c_month (le_start e') /\ c_day (le_start e) = c_day (le_start e').
Proof.
  intros e e' a b Ht Ht' Ha Hb Hc E. unfold file_name in E. rewrite Ha, Hb in E.
  apply app_same_length in E as [E1 E]; [|now rewrite !format_date_length]. injection E as E. apply app_inv_tail in E.
  assert (forall c, letter_or_digit c \/ In c $"-_" -> file_char c = true) as Hf.
  { intros c [H|H]; unfold file_char; [apply alphanumeric_iff in H as ->; reflexivity|]. cbn in H. destruct H as [<-|[<-|[]]]; reflexivity. }
  unfold escape in E. rewrite !escape_from_id in E by (cbn; rewrite ?app_nil_r; auto). split; [exact E|]. now apply format_date_inj.
Qed.
Print Assumptions C97_apart_partial.

Theorem C97_same_file_refuted : exists e e', le_names e = [$"tv.living"] /\ le_names e' = [$"tv_living"] /\ file_name true e = file_name true e'.
Proof. exists (sample_entry 0 sample_time [$"tv.living"] []), (sample_entry 0 sample_time [$"tv_living"] []). repeat split. Qed.
Print Assumptions C97_same_file_refuted.

Example C97_example : file_name true (sample_entry 0 sample_time [$"tv"] []) <> file_name true (sample_entry 0 sample_time [$"laptop"] []) /\ good_time sample_time.
Proof.
  split; [discriminate|]. split; [reflexivity|]. exists 29%N. split; [|cbn; lia]. right. right. left. split; [reflexivity|]. split; [|reflexivity].
  split; [exists 506%N; reflexivity|]. left. intros [k Hk]. change (c_year sample_time) with 2024%N in Hk. lia.
Qed.

(** ** C96: the files read back *)
Theorem C96_record : forall first_space fs rest, fs <> [] -> read_record (csv_record first_space fs ++ rest) = Some (fs, rest).
Proof. intros fsp fs rest H. unfold read_record, csv_record. rewrite <- app_assoc. cbn [app]. now rewrite read_fields. Qed.
Print Assumptions C96_record.

Lemma mget_mput_case {V} (k k' : str) (v : V) l : mget str_eqb k (mput str_eqb k' v l) = if str_eqb k k' then Some v else mget str_eqb k l.
Proof.
  destruct (str_eqb k k') eqn:E; [apply str_eqb_eq in E as ->; apply mget_mput_same|]. apply mget_mput_other. apply str_eqb_neq in E. auto.
Qed.

Lemma csv_file_snoc : forall s rs, csv_file s rs -> forall r t, (forall rest, read_record (t ++ rest) = Some (r, rest)) ->
  (forall a b x, read_record a = Some (b, x) -> forall y, read_record (a ++ y) = Some (b, x ++ y)) -> csv_file (s ++ t) (rs ++ [r]).
Proof.
  intros s rs H r t Ht Hm. induction H as [|s r0 rest rs H1 H2 IH].
  - cbn. apply (csv_more t r [] []); [|constructor]. rewrite <- (app_nil_r t). apply Ht.
  - cbn [app]. eapply csv_more; [|exact IH]. now apply Hm.
Qed.

Lemma read_csv_more : forall s mode fields cur b x, read_csv mode fields cur s = Some (b, x) -> forall y, read_csv mode fields cur (s ++ y) = Some (b, x ++ y).
Proof.
  induction s as [|c s IH]; intros mode fields cur b x H y; [discriminate|]. cbn [app].
  cbn [read_csv] in *. destruct mode;
  repeat match goal with
  | |- context [if ?b then _ else _] => destruct b
  end; try discriminate; try (now apply IH); injection H as <- <-; reflexivity.
Qed.

(** Every file holds exactly the records of its entries, in order; names with tabs, quotes or line breaks cannot forge a record. *)
Theorem C96_files : forall first_space per_client (es : list (log_entry * bool)),
  let dir := fold_left (fun fs eo => file_write first_space per_client fs (fst eo) (snd eo)) es [] in
  forall name, let mine := filter (fun eo => snd eo && str_eqb name (file_name per_client (fst eo))) es in
  match mget str_eqb name dir with
  | Some text => csv_file text (map (fun eo => log_row (fst eo)) mine) /\ mine <> []
  | None => mine = []
  end.
Proof.
  intros fsp pc es. cbv zeta. induction es as [|[e ok] es IH] using rev_ind; intros name; [reflexivity|].
  rewrite fold_left_app, filter_app. specialize (IH name). set (dir := fold_left _ es []) in *. cbn [fold_left filter fst snd].
  set (mine := filter _ es) in *. unfold file_write. destruct ok; cbn [andb]; [|now rewrite app_nil_r].
  rewrite mget_mput_case. destruct (str_eqb name (file_name pc e)) eqn:E; [|now rewrite app_nil_r].
  apply str_eqb_eq in E. rewrite <- E, map_app. cbn [map fst]. split; [|now destruct mine].
  assert (forall rest, read_record (csv_record fsp (log_row e) ++ rest) = Some (log_row e, rest)) as Hr by (intros; now apply C96_record).
  destruct (mget str_eqb name dir) as [text|]; [|rewrite IH].
  - destruct IH as [IH _]. apply csv_file_snoc; auto. intros a b x. apply read_csv_more.
  - cbn [app map]. apply (csv_more _ _ [] []); [|constructor]. rewrite <- (app_nil_r (csv_record _ _)). apply Hr.
Qed.
Print Assumptions C96_files.

Example C96_example :
  log_row (sample_entry 0 sample_time [$"tv"; $"tv.lan"] $"example.com.") =
    [$"2024-02-29 07:05:00"; $"192.168.1.2"; $"tv; tv.lan"; $"12"; $"RESOLVED"; $"example.com."; $"A (1.2.3.4)"; $"NOERROR"; $"RESOLVED"; $"A"; $"host"] /\
  csv_record (fun _ => false) [[quote; tab; newline]; $"x"] = [quote; quote; quote; tab; newline; quote; tab; "x"%char; newline].
Proof. split; reflexivity. Qed.

(** ** C61: retention *)
Lemma last_digit ds n : length ds = 2 -> number_text 10 ds n -> forall s, ds = s ++ ["g"%char] -> False.
Proof.
  intros L H s E. apply parse_digits_text in H; [|lia|now intros ->]. destruct ds as [|a [|b [|? ?]]]; try discriminate.
  destruct s as [|x [|y [|? ?]]]; try discriminate. cbn in E. injection E as <- ->. cbn in H. destruct (digit_val 10 a); discriminate.
Qed.

Lemma dated_log_length f s y m d : dated f y m d -> f = s ++ $".log" -> 10 < length f.
Proof.
  intros [ys [ms [ds [rest [E [L1 [L2 [L3 [_ [_ [H _]]]]]]]]]]] Ef. destruct rest as [|r rest].
  - exfalso. rewrite app_nil_r in E. destruct ds as [|a [|b [|? ?]]]; try discriminate.
    assert (rev f = b :: a :: "-"%char :: rev ms ++ "-"%char :: rev ys) as E1.
    { rewrite E, rev_app_distr. cbn [rev]. rewrite rev_app_distr. cbn [rev app]. rewrite <- !app_assoc. reflexivity. }
    rewrite Ef, rev_app_distr in E1. cbn in E1. injection E1 as E1 _.
    eapply (last_digit _ _ L3 H [a]). now rewrite <- E1.
  - rewrite E. rewrite !app_length. cbn [length]. rewrite !app_length. cbn [length]. rewrite !app_length. cbn [length]. lia.
Qed.

Lemma dated_fun f y m d y' m' d' : dated f y m d -> dated f y' m' d' -> (y, m, d) = (y', m', d').
Proof. intros H H'. apply dated_parse in H, H'. rewrite H in H'. now injection H' as -> -> ->. Qed.

Lemma removes_iff wrap midnight retention now f :
  (forall y m d, dated f y m d -> (midnight y m d - 86400 < now)%Z) ->
  removes wrap midnight retention now f = true <->
  (0 < retention)%N /\ (exists s, f = s ++ $".log") /\
  exists y m d, dated f y m d /\ (midnight y m d + (Z.of_N retention + 1) * 86400 <= now)%Z.
Proof.
  intros Hfut. unfold removes. rewrite !andb_true_iff, has_suffix_spec, Nat.ltb_lt.
  assert (forall y m d, dated f y m d -> ((Z.quot (now - midnight y m d) 86400 <? 0)%Z = false /\
    ((retention < Z.to_N (Z.quot (now - midnight y m d) 86400))%N <-> (midnight y m d + (Z.of_N retention + 1) * 86400 <= now)%Z))) as Hq.
  { intros y m d Hd. specialize (Hfut _ _ _ Hd). set (t := (now - midnight y m d)%Z) in *. assert (-86400 < t)%Z as Ht by lia.
    destruct (Z.le_gt_cases 0 t) as [Hp|Hn].
    - rewrite Z.quot_div_nonneg by lia. pose proof (Z.div_pos t 86400 Hp ltac:(lia)) as H0. split; [now apply Z.ltb_ge|].
      assert ((retention < Z.to_N (t / 86400))%N <-> (Z.of_N retention + 1 <= t / 86400)%Z) as -> by lia.
      pose proof (Z.div_mod t 86400 ltac:(lia)). pose proof (Z.mod_pos_bound t 86400 ltac:(lia)). lia.
    - assert (Z.quot t 86400 = 0)%Z as ->.
      { replace t with (- (- t))%Z by lia. rewrite Z.quot_opp_l by lia. rewrite Z.quot_small by lia. reflexivity. }
      cbn. split; [reflexivity|]. lia. }
  split.
  - intros [[Hs Hl] H]. destruct (parse_date (firstn 10 f)) as [[[y m] d]|] eqn:E; [|discriminate].
    apply parse_date_inv in E; auto. destruct (Hq _ _ _ E) as [Q1 Q2]. rewrite Q1 in H. apply andb_true_iff in H as [H1 H2].
    apply N.ltb_lt in H1, H2. apply Q2 in H2. split; auto. split; auto. exists y, m, d. auto.
  - intros [Hr [[s Hs] [y [m [d [Hd H]]]]]]. split; [split; [eauto|eapply dated_log_length; eauto]|].
    rewrite (dated_parse _ _ _ _ Hd). destruct (Hq _ _ _ Hd) as [Q1 Q2]. rewrite Q1. apply andb_true_iff. rewrite !N.ltb_lt. split; auto. now apply Q2.
Qed.

(** A clean up leaves exactly the files that are not logs, or not older than the limit (full days since their local midnight). *)
Theorem C61_exactly_partial : forall wrap midnight retention now files f,
  (forall y m d, dated f y m d -> (midnight y m d - 86400 < now)%Z) ->
  In f (clean_files wrap midnight retention now files) <->
  In f files /\ ~ ((0 < retention)%N /\ (exists s, f = s ++ $".log") /\
    exists y m d, dated f y m d /\ (midnight y m d + (Z.of_N retention + 1) * 86400 <= now)%Z).
Proof.
  intros wrap midnight retention now files f Hf. unfold clean_files. rewrite filter_In, negb_true_iff, <- not_true_iff_false.
  now rewrite removes_iff.
Qed.
Print Assumptions C61_exactly_partial.

(** The files the writer itself makes carry their date. *)
Theorem C61_own_files : forall per_client e, good_time (le_start e) ->
  dated (file_name per_client e) (c_year (le_start e)) (c_month (le_start e)) (c_day (le_start e)) /\ exists s, file_name per_client e = s ++ $".log".
Proof.
  intros pc e [Hy Hv]. pose proof (valid_small _ _ _ Hv) as [Hm Hd]. unfold file_name. set (rest := escape _). clearbody rest. split.
  - unfold format_date. exists (pad_dec 4 (c_year (le_start e))), (pad_dec 2 (c_month (le_start e))), (pad_dec 2 (c_day (le_start e))), ($"_" ++ rest ++ $".log").
    rewrite <- !app_assoc. split; [reflexivity|]. rewrite !pad_dec_length by (cbn; lia). do 3 (split; [reflexivity|]).
    assert (forall w n, 1 <= w -> (n < 10 ^ N.of_nat w)%N -> number_text 10 (pad_dec w n) n) as Hn.
    { intros w n Hw Hn. apply parse_digits_text; [lia| |apply pad_dec_parse]. intros E. apply (f_equal (@length _)) in E. rewrite pad_dec_length in E; cbn in *; lia. }
    repeat split; auto; apply Hn; cbn; lia.
  - exists (format_date (le_start e) ++ $"_" ++ rest). now rewrite <- !app_assoc.
Qed.
Print Assumptions C61_own_files.

(** In a time zone without clock changes: with a limit of [retention] days a log of a day is removed iff that day is more than
    [retention] days before today; in particular the logs of today are kept. *)
Theorem C61_calendar : forall wrap off retention now files per_client e y2 m2 d2,
  let midnight := fun y m d => (86400 * day_number y m d - off)%Z in
  let day := day_number (c_year (le_start e)) (c_month (le_start e)) (c_day (le_start e)) in
  good_time (le_start e) -> (0 < retention)%N ->
  (86400 * day_number y2 m2 d2 <= now + off < 86400 * (day_number y2 m2 d2 + 1))%Z -> (day <= day_number y2 m2 d2)%Z ->
  In (file_name per_client e) files ->
  (In (file_name per_client e) (clean_files wrap midnight retention now files) <-> (day_number y2 m2 d2 - day <= Z.of_N retention)%Z).
Proof.
  intros wrap off retention now files pc e y2 m2 d2 midnight day Ht Hr Hnow Hle Hin. destruct (C61_own_files pc e Ht) as [Hd Hs].
  rewrite C61_exactly_partial.
  2:{ intros y m d H. pose proof (dated_fun _ _ _ _ _ _ _ Hd H) as E. injection E as <- <- <-. unfold midnight. fold day. lia. }
  split.
  - intros [_ H]. destruct (Z.le_gt_cases (day_number y2 m2 d2 - day) (Z.of_N retention)) as [|Hg]; auto. exfalso. apply H. split; auto. split; auto.
    do 3 eexists. split; [exact Hd|]. unfold midnight. fold day. lia.
  - intros H. split; auto. intros [_ [_ [y [m [d [H1 H2]]]]]]. pose proof (dated_fun _ _ _ _ _ _ _ Hd H1) as E. injection E as <- <- <-.
    unfold midnight in H2. fold day in H2. lia.
Qed.
Print Assumptions C61_calendar.

(** No limit: nothing is removed. *)
Theorem C61_unlimited : forall wrap midnight now files t, clean_files wrap midnight 0 now files = files /\ cleans_up t 0 = false.
Proof.
  intros wrap midnight now files t. split; [|reflexivity]. unfold clean_files. induction files as [|f fs IH]; auto. cbn [filter].
  assert (removes wrap midnight 0 now f = false) as ->; [|cbn [negb]; now rewrite IH].
  unfold removes. destruct (has_suffix f $".log" && (10 <? length f)); auto. cbn [andb]. destruct (parse_date (firstn 10 f)) as [[[y m] d]|]; auto.
Qed.
Print Assumptions C61_unlimited.

(** A log with a date in the future (a clock that was wrong) is removed at once on amd64. *)
Theorem C61_future_refuted : exists f y m d now, let midnight := fun y m d => (86400 * day_number y m d)%Z in
  dated f y m d /\ (now < midnight y m d)%Z /\ clean_files wrap_amd64 midnight 7 now [f] = [].
Proof.
  exists (file_name false (sample_entry 0 sample_time [] [])), 2024%N, 2%N, 29%N, (86400 * day_number 2024 2 27)%Z. cbv zeta. split.
  - apply (C61_own_files false (sample_entry 0 sample_time [] [])). apply C97_example.
  - split; [vm_compute; reflexivity|]. vm_compute. reflexivity.
Qed.
Print Assumptions C61_future_refuted.

(** A file that no log writer made is removed if it looks like one. *)
Theorem C61_foreign_refuted : exists f now, let midnight := fun y m d => (86400 * day_number y m d)%Z in
  (forall per_client e, file_name per_client e <> f) /\ clean_files wrap_amd64 midnight 7 now [f] = [].
Proof.
  exists $"2020-01-01 backup job.log", (86400 * day_number 2024 2 27)%Z. split.
  - intros pc e E. assert (In " "%char (file_name pc e)) as H by (rewrite E; cbn; tauto). apply file_name_chars in H as [H|H]; discriminate.
  - vm_compute. reflexivity.
Qed.
Print Assumptions C61_foreign_refuted.

(** Rows of the database are removed iff they are older than the deletion date. *)
Theorem C61_database : forall etld s date r, In r (db_table (db_step etld s (DClean date))) <-> In r (db_table s) /\ ~ (db_ts r < date)%Z.
Proof. intros etld s date r. cbn [db_step db_table]. rewrite filter_In, Z.leb_le. intuition lia. Qed.
Print Assumptions C61_database.

Example C61_example : let midnight := fun y m d => (86400 * day_number y m d)%Z in
  clean_files wrap_amd64 midnight 7 (86400 * day_number 2024 3 8 + 3600)
    [$"2024-03-08_ALL.log"; $"2024-03-01_ALL.log"; $"2024-02-29_ALL.log"; $"2024-02-30_ALL.log"; $"old.log"; $"2020-01-01.txt"]
  = [$"2024-03-08_ALL.log"; $"2024-03-01_ALL.log"; $"2024-02-30_ALL.log"; $"old.log"; $"2020-01-01.txt"] /\
  day_number 1970 1 1 = 719163%Z /\ day_number 2024 3 1 = (day_number 2024 2 29 + 1)%Z.
Proof. vm_compute. auto. Qed.

(** ** C98: creating the writer *)
Theorem C98_fallback : forall attempts ok fuel, 0 < attempts -> attempts <= fuel ->
  exists calls created, create_writer_from fuel 0 attempts ok = Some (calls, created) /\
  ((created = true /\ exists k, k < attempts /\ calls = S k /\ ok k = true /\ forall j, j < k -> ok j = false) \/
   (created = false /\ calls = attempts /\ forall j, j < attempts -> ok j = false)) /\
  forall t, (created = true -> writer_type t created = t) /\ (created = false -> writer_type t created = LConsole).
Proof.
  intros attempts ok fuel Ha Hf.
  assert (forall fuel n, (forall j, j < n -> ok j = false) -> n < attempts -> attempts <= n + fuel ->
    exists calls created, create_writer_from fuel n attempts ok = Some (calls, created) /\
    ((created = true /\ exists k, k < attempts /\ calls = S k /\ ok k = true /\ forall j, j < k -> ok j = false) \/
     (created = false /\ calls = attempts /\ forall j, j < attempts -> ok j = false))) as H.
  { clear fuel Hf. induction fuel as [|fuel IH]; intros n Hn Hl Hf; [lia|]. cbn [create_writer_from]. destruct (ok n) eqn:E.
    - exists (S n), true. split; auto. left. split; auto. exists n. auto.
    - assert (forall j, j < S n -> ok j = false) as Hs by (intros j Hj; destruct (Nat.eq_dec j n) as [->|]; [auto|apply Hn; lia]).
      apply Nat.ltb_lt in Ha as Ha'. rewrite Ha'. cbn [andb]. destruct (Nat.leb_spec attempts (S n)) as [Hle|Hgt].
      + exists (S n), false. split; auto. right. split; auto. split; [lia|]. intros j Hj. apply Hs. lia.
      + apply IH; auto. lia. }
  destruct (H fuel 0 ltac:(intros; lia) Ha ltac:(lia)) as [calls [created [E Hc]]]. exists calls, created. split; auto. split; auto.
  intros t. split; intros ->; reflexivity.
Qed.
Print Assumptions C98_fallback.

(** 0 attempts mean no limit: with a target that never works the start-up does not end. *)
Theorem C98_zero_attempts_refuted : forall fuel, create_writer_from fuel 0 0 (fun _ => false) = None.
Proof. intros fuel. generalize 0 at 1. induction fuel as [|fuel IH]; intros n; [reflexivity|]. cbn. apply IH. Qed.
Print Assumptions C98_zero_attempts_refuted.

Example C98_example : create_writer_from 3 0 3 (fun n => n =? 1) = Some (2, true) /\ create_writer_from 9 0 3 (fun _ => false) = Some (3, false).
Proof. split; reflexivity. Qed.

Definition sample_texts : texts :=
  {| ip_text := fun _ => $"10.0.0.1"; rcode_text := fun _ => $"NOERROR"; type_text := fun _ => $"A"; rr_text := fun _ => $"?"; rtype_text := fun _ => $"RESOLVED" |}.
Definition sample_request : request := new_request 7 $"Example.com." type_A.
Definition sample_response : response :=
  {| rs_msg := Some (set_answer [{| rr_name := $"example.com."; rr_type := type_CNAME; rr_class := 1; rr_ttl := 60; rr_data := DCNAME $"www.example.com." |}] empty_msg);
     rs_reason := $"RESOLVED"; rs_type := RESOLVED |}.

Example C58_example :
  option_map (fun e => (le_ip e, le_names e, le_qname e, le_answer e)) (create_log_entry sample_texts true {| lc_fields := [FAnswer; FQuestion]; lc_ignore_sudn := false |} [] 0 sample_time 5 sample_request sample_response)
  = Some ($"0.0.0.0", [$"none"], $"*******.***.", $"***** (***.*******.***.)").
Proof. reflexivity. Qed.
