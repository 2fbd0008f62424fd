(** Properties C17-C23: the caching resolver. *)
From Coq Require Import String Ascii List Arith Bool NArith ZArith Lia.
From Verif Require Import Str StrFacts Dns Resolver ExpCache ExpCacheProofs Caching CachingSpec CachingProofs.
Import ListNotations.

(** ** C17 *)

(** Two questions share a cache key iff they have the same type and the same name
    up to letter case (and the final dot). *)
Theorem C17_cache_key_separates q q' : (q_type q < 65536)%N -> (q_type q' < 65536)%N ->
  question_key q = question_key q' <-> same_question q q'.
Proof. apply question_key_iff. Qed.

(** The key is the documented one and decodes to the type and the lower-case name. *)
Theorem C17_cache_key_decodes q : (q_type q < 65536)%N ->
  wire_key q (question_key q) /\
  exists s low, without_dot (q_name q) s /\ same_upto_case s low /\ Forall (fun c => ~ (65 <= N_of_ascii c <= 90)%N) low /\
    extract_cache_key (question_key q) = Some (q_type q, low).
Proof.
  intros H. pose proof (wire_key_question_key q H) as W. split; auto.
  destruct W as [hi [lo [s [low [E [E2 [E3 [E4 E5]]]]]]]]. exists s, low. repeat split; auto.
  rewrite E. simpl. rewrite E2. do 2 f_equal. lia.
Qed.

(** ** C18-C23 *)
Section Caching.
Variable packable : msg -> bool.
Variable cfg : caching_cfg.
Hypothesis Hsize : 1 <= pf_size (cc_pf cfg).

(** C18, C21, C22: whatever is answered from the cache is the answer [m0] of the next
    resolver (or a peer) to a question with the same type and name, handed over
    after the last flush; the reply carries the id and question of the request; the
    content is that of [m0].  For positive answers to client queries and from peers
    the TTLs are the clamped ones, counted down by the age of the entry. *)
Theorem C22_cached_reply_correct hist s id req now s' out id' res :
  Forall wf_event hist -> wf_request req -> run packable cfg init hist = Some s ->
  step packable cfg s (EStart id req now) = Some (s', out) -> In (Reply id' res) out ->
  id' = id /\ out = [Reply id res] /\
  exists q rest k r m src m0 t,
    m_question (req_msg req) = q :: rest /\ wire_key q k /\
    res = Ok r /\ rs_type r = CACHED /\ rs_msg r = Some m /\
    m_id m = m_id (req_msg req) /\ m_question m = [q] /\ m_response m = true /\
    cached hist src k m0 t /\ same_content m0 m /\
    (sane_cfg cfg -> src <> ByPrefetch -> m_rcode m0 = 0%N -> sane_ttls (m_answer m0) -> (t <= now)%Z ->
     served_answer cfg m0 t now (m_answer m)).
Proof.
  intros Hw Hwr Hr Hs Hin. pose proof (run_invariant packable cfg Hsize _ _ Hw Hr) as Hinv.
  destruct (start_reply packable cfg _ _ _ _ _ _ (i_nodup _ _ _ _ Hinv) Hs _ _ Hin) as [q [rest [e [Eq [Eo [Em [Ec _]]]]]]].
  rewrite Eo in Hin. destruct Hin as [Hin|[]]. injection Hin as <- <-. split; auto. split; auto.
  destruct (i_entries _ _ _ _ Hinv _ _ Em) as [src [m0 [t [Hc Hst]]]].
  set (r := cached_reply req (cv_element (el_val e)) (remain_ttl now (el_expires e))).
  destruct (rs_msg r) as [m|] eqn:Erm; [|discriminate].
  destruct (reply_header _ _ _ _ _ _ Erm Eq) as [H1 [H2 H3]].
  exists q, rest, (question_key q), r, m, src, m0, t.
  split; auto. split. { apply wire_key_question_key. apply Hwr. rewrite Eq. now left. }
  repeat (split; [solve [auto]|]). split.
  - eapply reply_content; eauto. eapply stored_same_content; eauto.
  - intros. eapply reply_ttls; eauto.
Qed.

(** C18 alone.  Missing: NXDOMAIN answers with records and prefetched entries, for which
    it does not hold (see the refutations below). *)
Corollary C18_cached_ttls_count_down_partial hist s id req now s' r m :
  Forall wf_event hist -> wf_request req -> run packable cfg init hist = Some s -> sane_cfg cfg ->
  step packable cfg s (EStart id req now) = Some (s', [Reply id (Ok r)]) -> rs_msg r = Some m -> m_rcode m = 0%N ->
  exists q rest k src m0 t, m_question (req_msg req) = q :: rest /\ wire_key q k /\ cached hist src k m0 t /\
    (src <> ByPrefetch -> sane_ttls (m_answer m0) -> (t <= now)%Z -> served_answer cfg m0 t now (m_answer m)).
Proof.
  intros Hw Hwr Hr Hc Hs Hm Hrc.
  destruct (C22_cached_reply_correct hist s id req now s' _ id (Ok r) Hw Hwr Hr Hs (or_introl eq_refl))
    as [_ [_ [q [rest [k [r' [m' [src [m0 [t [E1 [E2 [E3 [_ [E4 [_ [_ [_ [E5 [E6 E7]]]]]]]]]]]]]]]]]]]].
  injection E3 as <-. rewrite Hm in E4. injection E4 as <-. exists q, rest, k, src, m0, t. repeat (split; auto).
  intros. apply E7; auto. destruct E6 as [E6 _]. congruence.
Qed.

(** C21 alone. *)
Corollary C21_cached_reply_belongs_to_request hist s id req now s' r :
  Forall wf_event hist -> wf_request req -> run packable cfg init hist = Some s ->
  step packable cfg s (EStart id req now) = Some (s', [Reply id (Ok r)]) ->
  exists q rest m, m_question (req_msg req) = q :: rest /\ rs_msg r = Some m /\
    m_id m = m_id (req_msg req) /\ m_question m = [q] /\ m_response m = true /\
    exists k src m0 t, wire_key q k /\ cached hist src k m0 t /\ same_content m0 m.
Proof.
  intros Hw Hwr Hr Hs.
  destruct (C22_cached_reply_correct hist s id req now s' _ id (Ok r) Hw Hwr Hr Hs (or_introl eq_refl))
    as [_ [_ [q [rest [k [r' [m' [src [m0 [t [E1 [E2 [E3 [_ [E4 [H1 [H2 [H3 [E5 [E6 E7]]]]]]]]]]]]]]]]]]]].
  injection E3 as <-. exists q, rest, m'. repeat (split; auto). exists k, src, m0, t. auto.
Qed.

(** C18: no TTL exceeds the clamped one. *)
Theorem C18_served_ttl_never_raised m0 t now a : (t <= now)%Z -> served_answer cfg m0 t now a ->
  exists cl, clamped_answer cfg (m_answer m0) cl /\ Forall2 (fun x r => (rr_ttl r <= rr_ttl x)%N) cl a.
Proof.
  intros Ht [cl [H1 [[-> ->]|[n [H2 H3]]]]].
  - exists []. auto.
  - exists cl. split; auto. eapply served_le; eauto.
Qed.

(** C19: the answer a client gets on a cache miss is that of the next resolver with
    its TTLs clamped, nothing else changed.  Missing: records of prefetched entries are
    not clamped before they are cached (refuted below). *)
Theorem C19_reply_ttls_clamped_partial hist s id now s' out req q :
  Forall wf_event hist -> run packable cfg init hist = Some s -> sane_cfg cfg ->
  step packable cfg s (EStore id now) = Some (s', out) -> last_start hist id req -> m_question (req_msg req) = [q] ->
  (exists e, last_next hist id (Err e) /\ out = [Reply id (Err e)]) \/
  (exists resp m0 a, last_next hist id (Ok resp) /\ rs_msg resp = Some m0 /\ clamped_answer cfg (m_answer m0) a /\
     out = [Reply id (Ok {| rs_msg := Some (set_answer a m0); rs_reason := rs_reason resp; rs_type := rs_type resp |})]).
Proof.
  intros Hw Hr Hc Hs Hl Hq. pose proof (run_invariant packable cfg Hsize _ _ Hw Hr) as Hinv.
  destruct (store_spec packable cfg _ _ _ _ _ _ _ _ Hsize Hinv Hs Hl Hq) as [[e [H1 [H2 _]]]|[resp [m0 [H1 [H2 [H3 _]]]]]].
  - left. eauto.
  - right. exists resp, m0, (fst (adjust_ttls cfg (m_answer m0))). repeat (split; auto). now apply adjust_ttls_answer.
Qed.

(** C20 (and C19 for the cache time): after a query is answered, what is cached for
    its question is the answer iff it is cacheable, for exactly the specified
    time, and otherwise what was cached before. *)
Theorem C20_stored_iff_cacheable hist s id now s' out req q k resp m0 m' :
  Forall wf_event hist -> run packable cfg init hist = Some s -> sane_cfg cfg ->
  step packable cfg s (EStore id now) = Some (s', out) ->
  last_start hist id req -> m_question (req_msg req) = [q] -> wf_request req -> wire_key q k ->
  last_next hist id (Ok resp) -> rs_msg resp = Some m0 -> sane_ttls (m_answer m0) ->
  kept cfg m0 m' -> packable m' = true ->
  (forall ns, cacheable cfg m0 ns -> entry s' k = Some (m', (now + ns / 1000000)%Z)) /\
  ((forall ns, ~ cacheable cfg m0 ns) -> entry s' k = entry s k).
Proof.
  intros Hw Hr Hc Hs Hl Hq Hwr Hk Hn Hm Hst Hkept Hpk. pose proof (run_invariant packable cfg Hsize _ _ Hw Hr) as Hinv.
  destruct (store_spec packable cfg _ _ _ _ _ _ _ _ Hsize Hinv Hs Hl Hq) as [[e [H1 [H2 _]]]|[resp' [m0' [H1 [H2 [H3 H4]]]]]].
  { pose proof (last_next_fun _ _ _ _ H1 Hn). discriminate. }
  pose proof (last_next_fun _ _ _ _ H1 Hn) as E. injection E as ->. rewrite Hm in H2. injection H2 as <-.
  assert (k = question_key q) as -> by (apply wire_key_fun; auto; apply Hwr; rewrite Hq; now left).
  assert (snd (remove_edns0_record (clamp_msg cfg m0)) = m') as Ecopy by (eapply kept_fun; eauto; apply kept_copy; auto).
  unfold cache_entry in H4. rewrite Ecopy, Hpk in H4.
  change (m_rcode (clamp_msg cfg m0)) with (m_rcode m0) in H4.
  change (is_response_cacheable (clamp_msg cfg m0)) with (is_response_cacheable m0) in H4.
  pose proof (cache_entry_cacheable packable cfg m0 Hc Hst) as Hca.
  split.
  - intros ns Hns. apply Hca in Hns as [Hpos Hns]. assert (to_ms ns = ns / 1000000)%Z as <- by (unfold to_ms; apply Z.quot_div_nonneg; lia).
    apply entry_put_some with (s := s) (cfg := cfg); auto.
    destruct ((m_rcode m0 =? rcode_success)%N && is_response_cacheable m0); [now rewrite Hns in H4|]. destruct (m_rcode m0 =? rcode_nxdomain)%N; [|tauto]. destruct (0 <? cc_neg cfg)%Z; [now rewrite Hns in H4|tauto].
  - intros Hno.
    assert (forall t, s_cache s' = cache_put cfg now (question_key q) m' t (s_cache s) -> (0 < t -> cacheable cfg m0 t)%Z -> entry s' (question_key q) = entry s (question_key q)) as G.
    { intros t Ht Hpos. eapply entry_put_none; eauto. destruct (Z.le_gt_cases t 0); auto. exfalso. eapply Hno. apply Hpos. lia. }
    destruct ((m_rcode m0 =? rcode_success)%N && is_response_cacheable m0) eqn:E1.
    + eapply G; [exact H4|]. intros Hpos. apply Hca. auto.
    + destruct (m_rcode m0 =? rcode_nxdomain)%N; [destruct (0 <? cc_neg cfg)%Z|].
      * eapply G; [exact H4|]. intros Hpos. apply Hca. auto.
      * unfold entry. now rewrite H4.
      * unfold entry. now rewrite H4.
Qed.

(** C20: a request with a client subnet that is not a single host, or any request when
    caching is disabled, is just forwarded. *)
Theorem C20_bypass hist s id req now s' out :
  run packable cfg init hist = Some s -> wide_subnet (req_msg req) \/ (cc_max cfg < 0)%Z ->
  step packable cfg s (EStart id req now) = Some (s', out) -> s' = s /\ out = [Forward (Some id) req].
Proof.
  intros _ H Hs. simpl in Hs. destruct (existsb _ _); [discriminate|].
  assert (negb (caching_enabled cfg) || negb (is_request_cacheable req) = true) as E.
  { apply orb_true_iff. destruct H as [[fam [mask [scope [addr [H1 H2]]]]]|H].
    - right. unfold is_request_cacheable. rewrite H1. rewrite negb_involutive. apply orb_true_iff.
      destruct H2 as [[-> H2]|[-> H2]]; [left|right]; simpl; apply negb_true_iff; now apply N.eqb_neq.
    - left. unfold caching_enabled. apply negb_true_iff. apply Z.leb_gt. auto. }
  rewrite E in Hs. injection Hs as <- <-. auto.
Qed.

(** C20: all other requests (with a question) are answered from the cache or
    forwarded, and nothing else. *)
Theorem C20_lookup_or_forward hist s id req now s' out :
  Forall wf_event hist -> run packable cfg init hist = Some s ->
  step packable cfg s (EStart id req now) = Some (s', out) -> m_question (req_msg req) <> [] ->
  out = [Forward (Some id) req] \/ exists r, out = [Reply id (Ok r)].
Proof.
  intros Hw Hr Hs Hq. pose proof (run_invariant packable cfg Hsize _ _ Hw Hr) as Hinv.
  simpl in Hs. destruct (existsb _ _); [discriminate|]. destruct (_ || _); [injection Hs as <- <-; auto|].
  destruct (start_question _ _ _ _ _ _ _ _) as [[c tasks] o] eqn:Es. injection Hs as <- <-.
  apply start_question_spec in Es as [_ [_ Es]]; [|apply (i_nodup _ _ _ _ Hinv)].
  destruct (m_question (req_msg req)) as [|q rest]; [congruence|].
  destruct (mget _ _ _); destruct Es as [_ ->]; eauto.
Qed.

(** C22: an entry changes only when an answer for its key is handed over: everything
    else leaves it or drops it. *)
Theorem C22_entry_changes_only_by_delivery hist s e s' out k x :
  Forall wf_event hist -> wf_event e -> run packable cfg init hist = Some s ->
  step packable cfg s e = Some (s', out) -> entry s' k = Some x ->
  entry s k = Some x \/ exists src m0 t, delivered hist src k m0 e t /\ same_content m0 (fst x) /\
    (src = ByPrefetch -> m_rcode m0 = 0%N).
Proof.
  intros Hw Hwe Hr Hs Hx. pose proof (run_invariant packable cfg Hsize _ _ Hw Hr) as Hinv.
  destruct (step_entry packable cfg _ _ _ _ _ _ _ Hsize Hinv Hwe Hs Hx) as [H|[src [m0 [t [H1 H2]]]]]; auto.
  right. exists src, m0, t. split; auto. split; [eapply stored_same_content; eauto|].
  intros ->. destruct H2 as [ttl [_ [_ [_ [_ [H2 _]]]]]]. exact H2.
Qed.

(** C22: a prefetch for the key of question [q] asks the next resolver this question. *)
Theorem C22_prefetch_asks_same_question s k now s' out req q :
  step packable cfg s (EExpired k now) = Some (s', out) -> In (Forward None req) out ->
  (q_type q < 65536)%N -> wire_key q k -> (forall n, q_name q <> n ++ $"..") ->
  exists q', m_question (req_msg req) = [q'] /\ same_question q q' /\ q_class q' = 1%N.
Proof.
  intros Hs Hin Ht Hk Hd. apply wire_key_fun in Hk as ->; auto. cbn [step] in Hs.
  destruct (lru_peek _ _); [|discriminate]. destruct (is_expired _ _); [|discriminate].
  destruct (cc_prefetching cfg); [|injection Hs as <- <-; destruct Hin].
  destruct (should_prefetch _ _ _ _) as [[|] names]; [|injection Hs as <- <-; destruct Hin].
  destruct (C17_cache_key_decodes q Ht) as [_ [n [low [H1 [H2 [H3 H4]]]]]]. rewrite H4 in Hs. injection Hs as <- <-.
  destruct Hin as [Hin|[]]. injection Hin as <-. simpl. eexists. split; [reflexivity|]. split; [|reflexivity].
  split; auto. exists n, low. split; auto. split; [|auto].
  assert (~ exists x, low = x ++ $".") as Hnd.
  { intros [x E]. subst low. apply Forall2_app_inv_r in H2 as [a [b [A1 [A2 ->]]]].
    destruct b as [|c b]; [inversion A2|]. inversion A2 as [|? ? ? ? L1 L2]; subst. inversion L2; subst.
    assert (c = "."%char) as ->.
    { unfold same_letter in L1. apply N_of_ascii_inj. change (N_of_ascii ".") with 46%N in *. lia. }
    destruct H1 as [H1|[H1 H1']].
    - apply (Hd a). rewrite H1. now rewrite <- app_assoc.
    - apply H1'. exists a. exact H1. }
  assert (fqdn low = low ++ $".") as Ef.
  { unfold fqdn. destruct (has_suffix low $".") eqn:E; auto. apply has_suffix_spec in E as [x E]. exfalso. apply Hnd. eauto. }
  simpl. rewrite Ef. unfold fqdn.
  assert (has_suffix (low ++ $".") $"." = true) as -> by (apply has_suffix_spec; eauto). left. reflexivity.
Qed.

(** C23: after a flush nothing is answered from the cache until the next answer is
    handed over. *)
Theorem C23_flush_empties hist1 hist2 s id req now s' out :
  Forall wf_event (hist1 ++ EFlush :: hist2) -> run packable cfg init (hist1 ++ EFlush :: hist2) = Some s ->
  (forall e, In e hist2 -> ~ is_store e) -> m_question (req_msg req) <> [] ->
  step packable cfg s (EStart id req now) = Some (s', out) -> out = [Forward (Some id) req].
Proof.
  intros Hw Hr Hno Hq Hs. destruct (C20_lookup_or_forward _ _ _ _ _ _ _ Hw Hr Hs Hq) as [H|[r H]]; auto. exfalso.
  pose proof (run_invariant packable cfg Hsize _ _ Hw Hr) as Hinv.
  assert (In (Reply id (Ok r)) out) as Hin by (rewrite H; now left).
  destruct (start_reply packable cfg _ _ _ _ _ _ (i_nodup _ _ _ _ Hinv) Hs _ _ Hin) as [q [rest [e [Eq [Eo [Em _]]]]]].
  destruct (i_entries _ _ _ _ Hinv _ _ Em) as [src [m0 [t [[before [ev [after [E [Hf Hd]]]]] _]]]].
  assert (is_store ev) as Hst by (destruct Hd; exact I). clear -E Hf Hst Hno.
  revert before E. induction hist1 as [|x h IH]; intros [|y before] E; simpl in E.
  - injection E as <- _. destruct Hst.
  - injection E as <- ->. apply (Hno ev); auto. apply in_or_app. right. now left.
  - injection E as -> <-. apply Hf. apply in_or_app. right. now left.
  - injection E as -> E. eapply IH; eauto.
Qed.

End Caching.

(** ** Concrete cases *)

Definition ex_cfg : caching_cfg :=
  {| cc_min := 0; cc_max := 0; cc_neg := 1800000000000; cc_prefetching := false;
     cc_pf := {| pf_size := 3; pf_names_size := 3; pf_threshold := 0; pf_expires := 0 |} |}.
Definition ex_q (name : str) : question := {| q_name := name; q_type := 1; q_class := 1 |}.
Definition ex_req (id : N) (qs : list question) : request :=
  {| req_ip := None; req_client_id := []; req_proto := UDP; req_names := [];
     req_msg := set_question qs (new_msg_with_question id $"x." 1) |}.
Definition ex_rr (name : str) (ttl : N) : rr :=
  {| rr_name := name; rr_type := 1; rr_class := 1; rr_ttl := ttl; rr_data := DA (IP4 [192; 0; 2; 1]%N) |}.
Definition ex_opt : rr := {| rr_name := $"."; rr_type := 41; rr_class := 1232; rr_ttl := 0; rr_data := DOPT [] |}.
Definition ex_msg (rcode : N) (ans : list rr) : msg :=
  set_extra [ex_opt] (set_answer ans (set_rcode empty_msg (req_msg (ex_req 7 [ex_q $"www.example.com."])) rcode)).
Definition ex_resp (rcode : N) (ans : list rr) : result :=
  Ok {| rs_msg := Some (ex_msg rcode ans); rs_reason := $"RESOLVED"; rs_type := RESOLVED |}.
Definition ex_all : msg -> bool := fun _ => true.
(** The TTLs in the replies of the last step. *)
Definition ex_ttls (cfg : caching_cfg) (hist : list event) (e : event) : option (list (list N)) :=
  match run ex_all cfg init hist with
  | Some s =>
      match step ex_all cfg s e with
      | Some (_, out) =>
          Some (map (fun o => match o with
                              | Reply _ (Ok r) => match rs_msg r with Some m => map rr_ttl (m_answer m) | None => [] end
                              | _ => [] end) out)
      | None => None
      end
  | None => None
  end.

Definition ex_hist : list event :=
  [EStart 1 (ex_req 7 [ex_q $"www.example.com."]) 1000000;
   ENext 1 (ex_resp 0 [ex_rr $"www.example.com." 300; ex_rr $"www.example.com." 600]);
   EStore 1 1000500]%Z.

(** 60.2 seconds later, for another client asking with other letter case. *)
Definition ex_second : event := EStart 2 (ex_req 9 [ex_q $"WWW.example.COM."]) 1060700.

Example cached_reply_case :
  Forall wf_event ex_hist /\ wf_request (ex_req 9 [ex_q $"WWW.example.COM."]) /\ sane_cfg ex_cfg /\
  1 <= pf_size (cc_pf ex_cfg) /\
  ex_ttls ex_cfg ex_hist ex_second = Some [[239; 539]%N] /\
  sane_ttls [ex_rr $"www.example.com." 300; ex_rr $"www.example.com." 600].
Proof.
  split. { repeat constructor; simpl; auto. intros q [<-|[]]. reflexivity. }
  split. { intros q [<-|[]]. reflexivity. }
  split. { repeat split. }
  split. { simpl. lia. }
  split. { vm_compute. reflexivity. }
  intros r [<-|[<-|[]]]; vm_compute; discriminate.
Qed.

(** The hypotheses of the theorems about completed queries. *)
Example stored_case :
  last_start [EStart 1 (ex_req 7 [ex_q $"a."]) 1; ENext 1 (ex_resp 0 [ex_rr $"a." 300])]%Z 1 (ex_req 7 [ex_q $"a."]) /\
  last_next [EStart 1 (ex_req 7 [ex_q $"a."]) 1; ENext 1 (ex_resp 0 [ex_rr $"a." 300])]%Z 1 (ex_resp 0 [ex_rr $"a." 300]) /\
  cacheable ex_cfg (ex_msg 0 [ex_rr $"a." 300]) 300000000000 /\
  kept ex_cfg (ex_msg 0 [ex_rr $"a." 300]) (set_extra [] (ex_msg 0 [ex_rr $"a." 300])).
Proof.
  split. { exists [], 1%Z, [ENext 1 (ex_resp 0 [ex_rr $"a." 300])]. split; auto. intros r n [H|[]]. discriminate. }
  split. { exists [EStart 1 (ex_req 7 [ex_q $"a."]) 1], []. repeat split; auto. }
  split.
  - split; [reflexivity|]. left. repeat split. exists [ex_rr $"a." 300]. split.
    + repeat constructor.
    + right. exists 300%N. split; [|reflexivity]. split; [exists (ex_rr $"a." 300); split; [now left|reflexivity]|].
      intros r [<-|[]]. reflexivity.
  - exists [ex_rr $"a." 300], []. split; [repeat constructor|]. split; [|reflexivity].
    right. exists [], ex_opt, []. repeat split. intros r [].
Qed.

(** A minimum and maximum caching time: 20 and 50 seconds. *)
Example clamped_case :
  ex_ttls {| cc_min := 20000000000; cc_max := 50000000000; cc_neg := 0; cc_prefetching := false; cc_pf := cc_pf ex_cfg |}
    [EStart 1 (ex_req 7 [ex_q $"a."]) 0; ENext 1 (ex_resp 0 [ex_rr $"a." 10; ex_rr $"a." 30; ex_rr $"a." 70])]%Z
    (EStore 1 5%Z) = Some [[20; 30; 50]%N].
Proof. vm_compute. reflexivity. Qed.

Example bypass_case :
  wide_subnet (set_edns0_option (EOSubnet 1 24 0 (Some (IP4 [192; 0; 2; 0]%N))) (req_msg (ex_req 7 [ex_q $"a."]))).
Proof. exists 1%N, 24%N, 0%N, (Some (IP4 [192; 0; 2; 0]%N)). split; [reflexivity|]. left. split; [reflexivity|discriminate]. Qed.

(** A flush makes the next query go to the next resolver. *)
Example flush_case : exists s s',
  run ex_all ex_cfg init (ex_hist ++ [EFlush]) = Some s /\
  step ex_all ex_cfg s ex_second = Some (s', [Forward (Some 2) (ex_req 9 [ex_q $"WWW.example.COM."])]).
Proof. eexists. eexists. split; [vm_compute; reflexivity|vm_compute; reflexivity]. Qed.

Definition ex_pf_cfg (mx : Z) : caching_cfg :=
  {| cc_min := 0; cc_max := mx; cc_neg := 0; cc_prefetching := true;
     cc_pf := {| pf_size := 3; pf_names_size := 3; pf_threshold := 0; pf_expires := 0 |} |}.

Example prefetch_case : exists s s',
  run ex_all (ex_pf_cfg 0) init ex_hist = Some s /\
  step ex_all (ex_pf_cfg 0) s (EExpired (question_key (ex_q $"www.example.com.")) 2000000) =
    Some (s', [Forward None (new_request 0 $"www.example.com" 1)]).
Proof. eexists. eexists. split; [vm_compute; reflexivity|vm_compute; reflexivity]. Qed.

(** ** What does not hold *)

(** C18 fails for NXDOMAIN answers with records (a CNAME chain that ends nowhere): they
    are kept for the negative-cache time, and their TTLs are raised. *)
Theorem C18_cached_ttl_nxdomain_refuted : exists hist e,
  Forall wf_event hist /\ sane_cfg ex_cfg /\
  In (ENext 1 (ex_resp 3 [ex_rr $"a." 10])) hist /\
  ex_ttls ex_cfg hist e = Some [[1799]%N].
Proof.
  exists [EStart 1 (ex_req 7 [ex_q $"a."]) 0; ENext 1 (ex_resp 3 [ex_rr $"a." 10]); EStore 1 0]%Z,
    (EStart 2 (ex_req 9 [ex_q $"a."]) 500%Z).
  split. { repeat constructor; simpl; auto. intros q [<-|[]]. reflexivity. }
  split. { repeat split. }
  split; [simpl; auto|]. vm_compute. reflexivity.
Qed.

(** C19 fails for prefetched entries: the records are stored before their TTLs are
    clamped, so a TTL above the configured maximum (60 s) is served. *)
Theorem C19_prefetched_ttl_above_max_refuted : exists hist e,
  Forall wf_event hist /\ sane_cfg (ex_pf_cfg 60000000000) /\
  ex_ttls (ex_pf_cfg 60000000000) hist e = Some [[60; 960]%N].
Proof.
  exists [EStart 1 (ex_req 7 [ex_q $"a."]) 0; ENext 1 (ex_resp 0 [ex_rr $"a." 10]); EStore 1 0;
          EExpired (question_key (ex_q $"a.")) 20000;
          EReload (question_key (ex_q $"a.")) (ex_resp 0 [ex_rr $"a." 100; ex_rr $"a." 1000]);
          EReloadStore (question_key (ex_q $"a.")) 20000]%Z,
    (EStart 2 (ex_req 9 [ex_q $"a."]) 20000%Z).
  split. { repeat constructor; simpl; auto. intros q [<-|[]]. reflexivity. }
  split. { repeat split. }
  vm_compute. reflexivity.
Qed.

(** C20 fails for prefetched entries: a truncated answer is cached. *)
Theorem C20_prefetch_stores_truncated_refuted : exists hist k m,
  Forall wf_event hist /\ m_tc m = true /\
  exists s x, run ex_all (ex_pf_cfg 0) init hist = Some s /\ entry s k = Some (m, x).
Proof.
  set (m := set_tc true (ex_msg 0 [ex_rr $"a." 100])).
  exists [EStart 1 (ex_req 7 [ex_q $"a."]) 0; ENext 1 (ex_resp 0 [ex_rr $"a." 10]); EStore 1 0;
          EExpired (question_key (ex_q $"a.")) 20000;
          EReload (question_key (ex_q $"a.")) (Ok {| rs_msg := Some m; rs_reason := []; rs_type := RESOLVED |});
          EReloadStore (question_key (ex_q $"a.")) 20000]%Z, (question_key (ex_q $"a.")), m.
  split. { repeat constructor; simpl; auto. intros q [<-|[]]. reflexivity. }
  split; [reflexivity|]. eexists. eexists. split; [vm_compute; reflexivity|vm_compute; reflexivity].
Qed.

(** C22: a request with two questions (possible over DoH) stores the answer it gets
    under both keys, so that a later query for the second name is answered with
    records of the first. *)
Theorem C22_two_questions_poison_refuted : exists hist s s' r m,
  run ex_all ex_cfg init hist = Some s /\
  step ex_all ex_cfg s (EStart 2 (ex_req 9 [ex_q $"b."]) 20) = Some (s', [Reply 2 (Ok r)]) /\
  rs_msg r = Some m /\ map rr_name (m_answer m) = [$"a."] /\ m_question m = [ex_q $"b."] /\
  forall id req now, In (EStart id req now) hist -> m_question (req_msg req) = [ex_q $"a."; ex_q $"b."].
Proof.
  exists [EStart 1 (ex_req 7 [ex_q $"a."; ex_q $"b."]) 0; ENext 1 (ex_resp 0 [ex_rr $"a." 100]); EStore 1 1;
          ENext 1 (ex_resp 0 [ex_rr $"a." 100]); EStore 1 2]%Z.
  do 4 eexists. split; [vm_compute; reflexivity|]. split; [vm_compute; reflexivity|].
  split; [reflexivity|]. split; [reflexivity|]. split; [reflexivity|].
  intros id req now [H|[H|[H|[H|[H|[]]]]]]; try discriminate. injection H as _ <- _. reflexivity.
Qed.

(** C23: the answer to a query that was under way when the cache was flushed is
    stored after the flush. *)
Theorem C23_flush_inflight_refuted : exists hist1 hist2 s s' r,
  (forall e, In e hist2 -> e = EStore 1 2%Z) /\
  In (ENext 1 (ex_resp 0 [ex_rr $"a." 100])) hist1 /\
  run ex_all ex_cfg init (hist1 ++ EFlush :: hist2) = Some s /\
  step ex_all ex_cfg s (EStart 2 (ex_req 9 [ex_q $"a."]) 20) = Some (s', [Reply 2 (Ok r)]).
Proof.
  exists [EStart 1 (ex_req 7 [ex_q $"a."]) 0; ENext 1 (ex_resp 0 [ex_rr $"a." 100])]%Z, [EStore 1 2%Z].
  do 3 eexists. split. { intros e [<-|[]]. reflexivity. }
  split; [simpl; auto|]. split; [vm_compute; reflexivity|vm_compute; reflexivity].
Qed.

Print Assumptions C17_cache_key_separates.
Print Assumptions C17_cache_key_decodes.
Print Assumptions C22_cached_reply_correct.
Print Assumptions C18_cached_ttls_count_down_partial.
Print Assumptions C21_cached_reply_belongs_to_request.
Print Assumptions C18_served_ttl_never_raised.
Print Assumptions C19_reply_ttls_clamped_partial.
Print Assumptions C20_stored_iff_cacheable.
Print Assumptions C20_bypass.
Print Assumptions C20_lookup_or_forward.
Print Assumptions C22_entry_changes_only_by_delivery.
Print Assumptions C22_prefetch_asks_same_question.
Print Assumptions C23_flush_empties.
Print Assumptions C18_cached_ttl_nxdomain_refuted.
Print Assumptions C19_prefetched_ttl_above_max_refuted.
Print Assumptions C20_prefetch_stores_truncated_refuted.
Print Assumptions C22_two_questions_poison_refuted.
Print Assumptions C23_flush_inflight_refuted.
