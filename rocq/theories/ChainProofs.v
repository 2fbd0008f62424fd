(** Lemmas about the resolver chain. *)
From Coq Require Import String Ascii List Arith Bool NArith ZArith Lia.
From Verif Require Import Str StrFacts StringCacheSpec Dns Resolver ResolverFacts CachingSpec CachingProofs ExpCache Caching
  Blocking BlockingSpec BlockingProofs Custom CustomSpec CustomProofs Conditional ConditionalSpec Rewriter Sudn SudnSpec Ecs ClientNames QueryLog
  Arpa Hosts HostsSpec Chain ChainSpec EdnsProofs EcsProps.
Import ListNotations.

(** ** Contracts of stages *)

(** [r'] is [r] as far as its kind and reason go, or [r] was replaced because of its answer. *)
Definition follows (r r' : result) : Prop :=
  match r, r' with
  | Ok x, Ok x' => (rs_type x' = rs_type x /\ rs_reason x' = rs_reason x) \/ screened x'
  | Err _, Err _ => True
  | _, _ => False
  end.
(** The stages before blocking do not change kind and reason. *)
Definition keeps (r r' : result) : Prop :=
  match r, r' with
  | Ok x, Ok x' => rs_type x' = rs_type x /\ rs_reason x' = rs_reason x
  | Err _, Err _ => True
  | _, _ => False
  end.

(** The request has the single question [q]. *)
Definition asks (q : question) (req : request) : Prop := m_question (req_msg req) = [q].
Definition asks_one (req : request) : Prop := exists q, asks q req.

(** A stage that answers with kind [t] (if it answers) to requests in [P], and sends on at
    most one request, which is in [P']. *)
Definition well_behaved (R : result -> result -> Prop) (t : option rtype) (P P' : request -> Prop) (p : request -> prog) : Prop :=
  forall req, P req ->
    p req = Crash \/
    (exists r, p req = Done r /\ forall x, r = Ok x -> Some (rs_type x) = t) \/
    (exists req' k, p req = Next req' k /\ P' req' /\ forall r, k r = Crash \/ exists r', k r = Done r' /\ R r r').

Lemma keeps_refl r : keeps r r.
Proof. destruct r; cbn; auto. Qed.
Lemma keeps_follows r r' : keeps r r' -> follows r r'.
Proof. destruct r, r'; cbn; tauto. Qed.
Lemma wb_weaken t P P' p : well_behaved keeps t P P' p -> well_behaved follows t P P' p.
Proof.
  intros H req Hq. destruct (H req Hq) as [E|[E|[req' [k [E [Hq' Hk]]]]]]; auto.
  right. right. exists req', k. split; auto. split; auto. intros r. destruct (Hk r) as [|[r' [E' HR]]]; auto. right. eauto using keeps_follows.
Qed.

Lemma wb_pass req (P : request -> Prop) : P req ->
  exists req' k, pass req = Next req' k /\ P req' /\ forall r, k r = Crash \/ exists r', k r = Done r' /\ keeps r r'.
Proof. intros H. exists req, Done. split; auto. split; auto. intros r. right. exists r. split; auto using keeps_refl. Qed.

Ltac by_pass := right; right; apply wb_pass; assumption.
Ltac by_done := right; left; eexists; split; [reflexivity|]; intros ? [= <-]; reflexivity.

Lemma wb_filtering types q : well_behaved keeps (Some FILTERED) (asks q) (asks q) (filtering_resolve types).
Proof. intros req Hq. unfold filtering_resolve. pose proof Hq as Hq'. unfold asks in Hq'. rewrite Hq'. destruct (existsb _ _); [by_done|by_pass]. Qed.

Lemma wb_fqdn b q : well_behaved keeps (Some NOTFQDN) (asks q) (asks q) (fqdn_only_resolve b).
Proof. intros req Hq. unfold fqdn_only_resolve. pose proof Hq as Hq'. unfold asks in Hq'. rewrite Hq'. destruct b; [|by_pass]. destruct (negb _); [by_done|by_pass]. Qed.

Lemma set_option_question o m : m_question (set_edns0_option o m) = m_question m.
Proof. unfold set_edns0_option, update_opt. destruct (is_edns0 m); reflexivity. Qed.
Lemma remove_option_question c m : m_question (snd (remove_edns0_option c m)) = m_question m.
Proof.
  unfold remove_edns0_option, remove_edns0_record. destruct (is_edns0 m); auto. cbn [snd].
  destruct (remove_first _ _); [|reflexivity]. destruct (is_edns0 _); reflexivity.
Qed.
Lemma set_subnet_question c so req rq : set_subnet c so req = Some rq ->
  m_question (req_msg rq) = m_question (req_msg req) /\ req_names rq = req_names req /\ req_ip rq = req_ip req /\ req_client_id rq = req_client_id req.
Proof.
  unfold set_subnet. cbv zeta. destruct (match so with Some _ => _ | None => _ end) as [i|]; [|intros [= <-]; auto].
  destruct (is_v4 i && _); [|destruct (0 <? ec_mask6 c)%N; [|intros [= <-]; auto]];
    destruct (mask_ip i _); intros [= <-]; cbn [req_msg set_req_msg req_names req_ip]; rewrite set_option_question; auto.
Qed.
Lemma ecs_client_question c so req : m_question (req_msg (ecs_client c so req)) = m_question (req_msg req).
Proof. unfold ecs_client. destruct so as [[]|]; auto. destruct (_ && _); auto. Qed.
Lemma ecs_client_id c so req : req_client_id (ecs_client c so req) = req_client_id req.
Proof. unfold ecs_client. destruct so as [[]|]; auto. destruct (_ && _); auto. Qed.

(** The client-subnet resolver passes on the question. *)
Lemma ecs_shape c req : ecs_resolve c req = Crash \/ exists req', ecs_resolve c req = pass req' /\
  m_question (req_msg req') = m_question (req_msg req) /\ (ecs_enabled c = false -> req' = req) /\ req_client_id req' = req_client_id req.
Proof.
  unfold ecs_resolve. cbv zeta. destruct (ecs_enabled c); [|right; exists req; auto].
  destruct (if _ : bool then set_subnet c _ _ else _) as [rq|] eqn:E; [|auto]. right.
  assert (m_question (req_msg rq) = m_question (req_msg req) /\ req_client_id rq = req_client_id req) as [Hq Hi].
  { destruct (_ || _) in E.
    - apply set_subnet_question in E as [E [_ [_ Ei]]]. now rewrite E, ecs_client_question, Ei, ecs_client_id.
    - injection E as <-. split; [apply ecs_client_question|apply ecs_client_id]. }
  destruct (_ && _ && _ && _).
  - eexists. split; [reflexivity|]. split; [|split; [discriminate|exact Hi]]. cbn [req_msg set_req_msg]. now rewrite remove_option_question.
  - exists rq. split; auto. split; auto. split; auto. discriminate.
Qed.

Lemma wb_ecs c q : well_behaved keeps None (asks q) (asks q) (ecs_resolve c).
Proof.
  intros req Hq. destruct (ecs_shape c req) as [E|[rq [E [Hr _]]]]; [auto|]. right. right. rewrite E. apply wb_pass. unfold asks in *. congruence.
Qed.

Lemma wb_names f q : well_behaved keeps None (asks q) (asks q) (fun req => names_resolve (f req) req).
Proof. intros req Hq. unfold names_resolve. right. right. apply wb_pass. exact Hq. Qed.

Lemma wb_ede b q : well_behaved keeps None (asks q) (asks q) (ede_resolve b).
Proof.
  intros req Hq. unfold ede_resolve. destruct (negb b); [by_pass|]. right. right. do 2 eexists. split; [reflexivity|]. split; auto.
  intros [r|e]; right; eexists; (split; [reflexivity|]); cbn; auto. unfold add_extra_reasoning. cbv zeta.
  destruct (_ =? 0)%N; auto.
Qed.

Lemma wb_logging f q : well_behaved keeps None (asks q) (asks q) (logging_resolve f).
Proof.
  intros req Hq. right. right. do 2 eexists. split; [reflexivity|]. split; auto.
  intros [r|e]; [destruct (f req r); auto|]; right; eexists; (split; [reflexivity|apply keeps_refl]).
Qed.

Lemma wb_metrics b q : well_behaved keeps None (asks q) (asks q) (metrics_resolve b).
Proof.
  intros req Hq. right. right. do 2 eexists. split; [reflexivity|]. split; auto. intros r. unfold asks in Hq. rewrite Hq.
  destruct b; [|right; eauto using keeps_refl]. destruct (utf8_string _); auto.
  destruct r as [r|e]; [destruct (rs_msg r); auto|]; right; eexists; (split; [reflexivity|apply keeps_refl]).
Qed.

(** Custom DNS: configured records without CNAMEs that have to be followed. *)
Definition no_cname_to_follow (cfg : custom_cfg) (q : question) : Prop :=
  q_type q = 5%N \/ forall recs e t, decides cfg q recs -> In e recs -> rr_data e <> DCNAME t.

Lemma process_entries_plain cfg new_id proc req q cn : forall recs acc,
  (q_type q = 5%N \/ forall e t, In e recs -> rr_data e <> DCNAME t) ->
  (exists e, process_entries cfg new_id proc req q cn recs acc = Done (Err e)) \/
  (exists ans, collects cfg new_id (fun _ => None) req q recs ans /\
     process_entries cfg new_id proc req q cn recs acc =
     match acc ++ ans with
     | [] => if cu_filter cfg then Done (Ok (custom_response req [])) else pass req
     | _ => Done (Ok (custom_response req (acc ++ ans)))
     end).
Proof.
  induction recs as [|e recs IH]; intros acc Hc.
  - right. exists []. split; [constructor|]. rewrite app_nil_r. destruct acc; reflexivity.
  - assert (q_type q = 5%N \/ forall e0 t, In e0 recs -> rr_data e0 <> DCNAME t) as Hc'.
    { destruct Hc as [Hc|Hc]; auto. right. intros e0 t H0. apply Hc. now right. }
    assert (forall l, contributes q e l -> process_entries cfg new_id proc req q cn (e :: recs) acc =
              process_entries cfg new_id proc req q cn recs (acc ++ l) ->
      (exists e0, process_entries cfg new_id proc req q cn (e :: recs) acc = Done (Err e0)) \/
      exists ans, collects cfg new_id (fun _ => None) req q (e :: recs) ans /\
        process_entries cfg new_id proc req q cn (e :: recs) acc =
        match acc ++ ans with
        | [] => if cu_filter cfg then Done (Ok (custom_response req [])) else pass req
        | _ => Done (Ok (custom_response req (acc ++ ans)))
        end) as Hplain.
    { intros l Hl E. rewrite E. destruct (IH (acc ++ l) Hc') as [IHe|[ans [H1 H2]]]; [now left|]. right. exists (l ++ ans). split.
      - now constructor.
      - rewrite H2. now rewrite app_assoc. }
    cbn [process_entries] in *. destruct (rr_data e) as [i|i|t|t|v|p x po t|o|o] eqn:Ed.
    + apply (Hplain (process_ip i q (rr_ttl e))); auto. apply process_ip_contributes. auto.
    + apply (Hplain (process_ip i q (rr_ttl e))); auto. apply process_ip_contributes. auto.
    + destruct Hc as [Hc|Hc]; [|elim (Hc e t (or_introl eq_refl) Ed)]. cbv zeta. change type_CNAME with 5%N. rewrite Hc. cbn [N.eqb Pos.eqb].
      destruct (IH (acc ++ [cname_record t q (rr_ttl e)]) Hc') as [IHe|[ans [H1 H2]]]; [now left|]. right.
      exists (cname_record t q (rr_ttl e) :: ans). split.
      * apply co_cname_asked with (t := t); auto. repeat split.
      * rewrite H2, <- app_assoc. reflexivity.
    + left. eauto.
    + apply (Hplain (process_txt v q (rr_ttl e))); auto. now apply process_txt_contributes.
    + apply (Hplain (process_srv p x po t q (rr_ttl e))); auto. now apply process_srv_contributes.
    + left. eauto.
    + left. eauto.
Qed.

Definition custom_says (cfg : custom_cfg) (new_id : str -> N) (req : request) (q : question) : Prop :=
  exists recs ans, decides cfg q recs /\ collects cfg new_id (fun _ => None) req q recs ans /\ (ans <> [] \/ cu_filter cfg = true).

Lemma custom_shape cfg new_id stuck records fuel req q : m_question (req_msg req) = [q] -> no_cname_to_follow cfg q -> 0 < fuel ->
  (exists e, custom_resolve cfg new_id stuck records fuel req = Done (Err e)) \/
  (exists x, custom_resolve cfg new_id stuck records fuel req = Done (Ok x) /\ rs_type x = CUSTOMDNS /\ rs_msg x <> None /\
     (q_type q = 12%N \/ custom_says cfg new_id req q)) \/
  (custom_resolve cfg new_id stuck records fuel req = pass req /\
   (distinct_cfg cfg -> ~ custom_says cfg new_id req q)).
Proof.
  intros Hq Hc Hf. unfold custom_resolve. rewrite Hq. destruct (handle_reverse cfg records req q) as [r|] eqn:Er.
  - right. left. exists r. split; auto. unfold handle_reverse in Er. destruct (N.eqb_spec (q_type q) type_PTR) as [E|]; [|discriminate].
    destruct (mget _ _ _); [|discriminate]. injection Er as <-. split; [reflexivity|]. split; [discriminate|]. now left.
  - destruct fuel as [|fuel]; [lia|]. cbn [process_request]. rewrite Hq. pose proof (lookup_decides cfg q) as L. cbv zeta in L.
    destruct (first_mapped (custom_records cfg) (extract_domain q :: after_dots (extract_domain q))) as [recs|].
    + assert (q_type q = 5%N \/ forall e t, In e recs -> rr_data e <> DCNAME t) as Hc'.
      { destruct Hc as [Hc|Hc]; auto. right. intros e t He. exact (Hc recs e t L He). }
      destruct (process_entries_plain cfg new_id (process_request cfg new_id stuck fuel) req q [] recs [] Hc') as [H|[ans [H1 H2]]].
      * left. exact H.
      * rewrite H2. rewrite app_nil_l.
        assert (forall a, exists x, @Done (Ok (custom_response req a)) = Done (Ok x) /\ rs_type x = CUSTOMDNS /\ rs_msg x <> None) as Hx
          by (intros a; eexists; split; [reflexivity|]; split; [reflexivity|discriminate]).
        assert (forall a b, collects cfg new_id (fun _ => None) req q a b -> forall b', collects cfg new_id (fun _ => None) req q a b' ->
                 (q_type q = 5%N \/ forall e t, In e a -> rr_data e <> DCNAME t) -> b = b') as Hfun.
        { clear. intros a. induction a as [|e a IH]; intros b Hb b' Hb' Hn.
          - inversion Hb; inversion Hb'; reflexivity.
          - assert (q_type q = 5%N \/ forall e t, In e a -> rr_data e <> DCNAME t) as Hn'.
            { destruct Hn as [Hn|Hn]; auto. right. intros e0 t H0. apply Hn. now right. }
            inversion Hb as [|? ? ? ? l ans Hl Ha|? ? ? ? t r ans Ht Hq5 Hr Ha|? ? ? ? t t' r resp m ans Ht Hq5 Hw Hr Hans Hm Ha]; subst;
            inversion Hb' as [|? ? ? ? l0 ans0 Hl0 Ha0|? ? ? ? t0 r0 ans0 Ht0 Hq50 Hr0 Ha0|? ? ? ? t0 t0' r0 resp0 m0 ans0 Ht0 Hq50 Hw0 Hr0 Hans0 Hm0 Ha0]; subst.
            + f_equal; [eapply contributes_fun; eauto|eauto].
            + unfold contributes in Hl. rewrite Ht0 in Hl. destruct Hl.
            + unfold contributes in Hl. rewrite Ht0 in Hl. destruct Hl.
            + unfold contributes in Hl0. rewrite Ht in Hl0. destruct Hl0.
            + assert (t0 = t) as -> by congruence. f_equal; [eapply own_record_fun; eauto|eauto].
            + contradiction.
            + unfold contributes in Hl0. rewrite Ht in Hl0. destruct Hl0.
            + contradiction.
            + destruct Hn as [Hn|Hn]; [contradiction|]. elim (Hn e t (or_introl eq_refl) Ht). }
        destruct ans as [|a0 ans].
        -- destruct (cu_filter cfg) eqn:Ef.
           ++ right. left. destruct (Hx []) as [x [E1 [E2 E3]]]. exists x. split; [exact E1|]. split; auto. split; auto. right.
              exists recs, []. auto.
           ++ right. right. split; auto. intros Hd [recs' [ans' [G1 [G2 G3]]]].
              assert (recs' = recs) as -> by (eapply decides_fun; eauto).
              assert (ans' = []) as ->.
              { eapply Hfun; eauto. }
              destruct G3; congruence.
        -- right. left. destruct (Hx (a0 :: ans)) as [x [E1 [E2 E3]]]. exists x. split; [exact E1|]. split; auto. split; auto. right.
           exists recs, (a0 :: ans). split; auto. split; auto. left. discriminate.
    + right. right. split; auto. intros Hd [recs' [ans' [G1 _]]]. destruct G1 as [d [G1 _]]. exact (L d G1).
Qed.

Lemma wb_custom cfg new_id stuck records fuel q : no_cname_to_follow cfg q -> 0 < fuel ->
  well_behaved keeps (Some CUSTOMDNS) (asks q) (asks q) (custom_resolve cfg new_id stuck records fuel).
Proof.
  intros Hc Hf req Hq. destruct (custom_shape cfg new_id stuck records fuel req q Hq Hc Hf) as [[e E]|[[x [E [Ht _]]]|[E _]]]; rewrite E.
  - right. left. eexists. split; [reflexivity|]. discriminate.
  - right. left. eexists. split; [reflexivity|]. intros y [= <-]. congruence.
  - by_pass.
Qed.

(** Behind a rewriter custom DNS gives custom answers or nothing. *)
Lemma custom_noop_entries cfg new_id proc req q cn : forall recs acc r,
  exec (process_entries cfg new_id proc req q cn recs acc) noop = Some (Ok r) -> rs_msg r = None \/ rs_type r = CUSTOMDNS.
Proof.
  induction recs as [|e recs IH]; intros acc r.
  - cbn [process_entries]. destruct acc; [destruct (cu_filter cfg)|]; intros [= <-]; auto.
  - cbn [process_entries]. destruct (rr_data e); try (apply IH); try discriminate. cbv zeta.
    destruct (_ =? _)%N; [apply IH|]. destruct (str_in _ _); [discriminate|]. rewrite exec_bind.
    destruct (exec (proc _ _) noop) as [[r0|e0]|]; try discriminate. destruct (rs_msg r0); [apply IH|discriminate].
Qed.
Lemma custom_noop cfg new_id records fuel req r :
  exec (custom_resolve cfg new_id Crash records fuel req) noop = Some (Ok r) -> rs_msg r = None \/ rs_type r = CUSTOMDNS.
Proof.
  unfold custom_resolve. destruct (m_question (req_msg req)) as [|q qs] eqn:Eq; [discriminate|].
  destruct (handle_reverse cfg records req q) as [x|] eqn:Er.
  - intros [= <-]. unfold handle_reverse in Er. destruct (_ =? _)%N; [|discriminate]. destruct (mget _ _ _); [|discriminate].
    injection Er as <-. auto.
  - destruct fuel; [discriminate|]. cbn [process_request]. rewrite Eq. destruct (first_mapped _ _).
    + apply custom_noop_entries.
    + intros [= <-]. auto.
Qed.

(** A rewriter around resolvers that answer with kind [t]. *)
Lemma wb_rewriter fb iter inner t (P P' : request -> Prop) : (forall req, P req -> P' req) ->
  (forall rq r lft, inner rq = Some (Ok r, lft) -> rs_msg r = None \/ rs_type r = t) ->
  (forall req r lft, P req -> inner req = Some (r, lft) -> P' (set_req_msg lft req)) ->
  well_behaved keeps (Some t) P P' (rewriter_resolve fb iter inner).
Proof.
  intros HP Hk Hl req Hreq. unfold rewriter_resolve. destruct (rewrite_questions iter 0 (m_question (req_msg req)) []) as [qs names].
  destruct (inner _) as [[res lft]|] eqn:E; [|auto].
  assert (P' (if match names with [] => false | _ => true end then req else set_req_msg lft req)) as HP'.
  { destruct names; [eapply Hl; eauto|auto]. }
  destruct res as [r|e].
  - specialize (Hk _ _ _ E). destruct (rs_msg r) as [m|]; [|right; right; now apply wb_pass].
    destruct Hk as [Hk|Hk]; [discriminate|].
    destruct (fb && _); [right; right; now apply wb_pass|].
    right. left. destruct names; eexists; (split; [reflexivity|]); intros x [= <-]; cbn; congruence.
  - destruct fb; [right; right; now apply wb_pass|]. right. left. eexists. split; [reflexivity|]. discriminate.
Qed.

Lemma inner_prog_left p rq r lft : inner_prog p rq = Some (r, lft) -> lft = req_msg rq.
Proof. unfold inner_prog. destruct (exec _ _); intros [= _ <-]; auto. Qed.

Lemma set_req_msg_id r : set_req_msg (req_msg r) r = r.
Proof. destruct r; reflexivity. Qed.

Lemma wb_custom_rewriter cfg new_id records fuel fb iter q :
  well_behaved keeps (Some CUSTOMDNS) (asks q) (asks q)
    (rewriter_resolve fb iter (inner_prog (custom_resolve cfg new_id Crash records fuel))).
Proof.
  apply wb_rewriter; auto.
  - intros rq r lft H. unfold inner_prog in H. destruct (exec _ _) as [x|] eqn:E; [|discriminate]. injection H as -> _.
    now apply custom_noop in E.
  - intros req r lft Hq H. apply inner_prog_left in H. subst lft. now rewrite set_req_msg_id.
Qed.

Lemma wb_hosts cfg d o4 o6 q : well_behaved keeps (Some HOSTSFILE) (asks q) (asks q) (hosts_resolve cfg d o4 o6).
Proof.
  intros req Hq. unfold hosts_resolve. destruct (negb _); [by_pass|]. pose proof Hq as Hq'. unfold asks in Hq'. rewrite Hq'.
  destruct (hosts_reverse cfg o4 o6 req q) as [r|] eqn:E.
  - right. left. eexists. split; [reflexivity|]. intros x [= <-]. unfold hosts_reverse in E. destruct (negb _); [discriminate|].
    destruct (parse_arpa _); [|discriminate]. destruct (_ && _); [discriminate|]. destruct (find_host _ _) as [[h al]|]; [|discriminate].
    injection E as <-. reflexivity.
  - destruct (split_get _ _ _); [by_done|by_pass].
Qed.

Lemma screen_reason ip_string allow deny gs ans : forall reason, screen ip_string allow deny gs ans = Some reason ->
  exists k l, (k = $"IP" \/ k = $"CNAME") /\ reason = $"BLOCKED " ++ k ++ $" (" ++ l ++ $")".
Proof.
  induction ans as [|r ans IH]; intros reason; cbn [screen]; [discriminate|].
  destruct (entry_to_check ip_string r) as [e t] eqn:E. destruct e as [|c e]; [apply IH|].
  destruct (matches allow gs (c :: e)); [|apply IH]. destruct (matches deny gs (c :: e)) as [|g l] eqn:Ed; [apply IH|].
  intros [= <-]. exists t, (join $"," (g :: l)). split; [|reflexivity].
  unfold entry_to_check in E. destruct (rr_data r); injection E as E1 E2; subst; auto; discriminate E1.
Qed.

Lemma wb_blocking glob cidr ips allow deny cfg h iter fq dis q :
  well_behaved follows (Some BLOCKED) (asks q) (asks q) (blocking_resolve glob cidr ips allow deny cfg h iter fq dis).
Proof.
  intros req Hq. unfold blocking_resolve, resolve_groups. set (gs := groups_to_check _ _ _ _ _ _ _ _). pose proof Hq as Hq'. unfold asks in Hq'.
  assert (forall P : prog -> Prop, (P (pass req)) -> (forall q r, P (Done (Ok (handle_blocked h req q r)))) ->
    match handle_denylist allow deny cfg h gs req (m_question (req_msg req)) with Some p => P p | None => True end) as Hd.
  { intros P H1 H2. rewrite Hq'. cbn [handle_denylist]. destruct (matches allow _ _); [|auto]. destruct (has_allowlist_only _ _); [auto|].
    destruct (matches deny _ _); auto. }
  assert (forall r, (match r with
      | Ok resp => match gs, rs_msg resp with
          | _ :: _, Some m => match screen ips allow deny gs (m_answer m) with
              | Some reason => match m_question (req_msg req) with q :: _ => Done (Ok (handle_blocked h req q reason)) | [] => Crash end
              | None => Done r end
          | _, _ => Done r end
      | Err _ => Done r end) = Crash \/ exists r', (match r with
      | Ok resp => match gs, rs_msg resp with
          | _ :: _, Some m => match screen ips allow deny gs (m_answer m) with
              | Some reason => match m_question (req_msg req) with q :: _ => Done (Ok (handle_blocked h req q reason)) | [] => Crash end
              | None => Done r end
          | _, _ => Done r end
      | Err _ => Done r end) = Done r' /\ follows r r') as Hk.
  { intros r. right. assert (follows r r) as Hr by apply keeps_follows, keeps_refl.
    destruct r as [resp|e]; [|eauto]. destruct gs as [|g0 gs0] eqn:Eg; [eauto|]. destruct (rs_msg resp) as [m|]; [|eauto].
    destruct (screen _ _ _ _ _) as [reason|] eqn:Es; [|eauto]. rewrite Hq'. eexists. split; [reflexivity|].
    cbn. right. split; [reflexivity|]. now apply screen_reason in Es. }
  destruct gs as [|g0 gs0] eqn:Eg.
  - right. right. do 2 eexists. split; [reflexivity|]. split; [exact Hq|]. exact Hk.
  - destruct (handle_denylist allow deny cfg h (g0 :: gs0) req (m_question (req_msg req))) as [p|] eqn:Ep.
    + specialize (Hd (fun p => p = pass req \/ exists r, p = Done r /\ forall x, r = Ok x -> Some (rs_type x) = Some BLOCKED)).
      cbv beta in Hd. destruct Hd as [E|[r [E1 E2]]].
      * auto.
      * intros q' r'. right. eexists. split; [reflexivity|]. intros x [= <-]. reflexivity.
      * subst p. right. right. destruct (wb_pass req (asks q) Hq) as [req' [k [H1 [H2 H3]]]]. exists req', k. split; auto. split; auto.
        intros r. destruct (H3 r) as [|[r' [A B]]]; auto. right. eauto using keeps_follows.
      * right. left. eauto.
    + right. right. do 2 eexists. split; [reflexivity|]. split; [exact Hq|]. exact Hk.
Qed.

Lemma wb_caching c look q : well_behaved keeps (Some CACHED) (asks q) (asks q) (fun req => caching_resolve c (look req) req).
Proof.
  intros req Hq. unfold caching_resolve. destruct (_ || _); [by_pass|]. pose proof Hq as Hq'. unfold asks in Hq'. rewrite Hq'. cbn [caching_loop].
  destruct (look req 0) as [[m ttl]|]; [by_done|]. right. right. do 2 eexists. split; [reflexivity|]. split; auto.
  intros [r|e].
  - destruct (rs_msg r) as [m|]; [|auto]. right. eexists. split; [reflexivity|]. cbn. auto.
  - right. eexists. split; [reflexivity|]. exact I.
Qed.

Lemma cond_response_kind req r r' : cond_response req r = Some r' -> rs_type r' = CONDITIONAL.
Proof. unfold cond_response. destruct (rs_msg r); [|discriminate]. destruct (m_question (req_msg req)); [discriminate|]. now intros [= <-]. Qed.

Lemma cond_dest_asks {U} (mapping : list (str * U)) req q : asks q req ->
  match cond_dest mapping req with
  | None => False
  | Some (ToNext req') => req' = req
  | Some (ToUpstream _ req') => asks_one req'
  end.
Proof.
  intros Hq. unfold cond_dest. destruct (cond_table mapping) as [|t0 t]; [reflexivity|]. pose proof Hq as Hq'. unfold asks in Hq'. rewrite Hq'. cbv zeta.
  assert (asks_one (set_first_name (fqdn (extract_domain q)) req)) as Hs.
  { unfold set_first_name. rewrite Hq'. eexists. reflexivity. }
  destruct (contains_byte _ _).
  - destruct (first_mapped _ _); [exact Hs|reflexivity].
  - destruct (mget _ _ _); [exact Hs|reflexivity].
Qed.

Lemma wb_conditional {U} (mapping : list (str * U)) ask q :
  well_behaved keeps (Some CONDITIONAL) (asks q) asks_one (conditional_resolve mapping ask).
Proof.
  intros req Hq. unfold conditional_resolve. pose proof (cond_dest_asks mapping req q Hq) as Hd.
  destruct (cond_dest mapping req) as [[u rq|rq]|]; [| |destruct Hd].
  - destruct (ask u rq) as [[r|e]|]; [| |auto].
    + destruct (cond_response rq r) as [r'|] eqn:E; [|auto]. apply cond_response_kind in E. right. left. eexists. split; [reflexivity|].
      intros x [= <-]. congruence.
    + right. left. eexists. split; [reflexivity|]. discriminate.
  - subst rq. right. right. apply wb_pass. now exists q.
Qed.

Lemma wb_cond_rewriter {U} (mapping : list (str * U)) ask fb iter q :
  well_behaved keeps (Some CONDITIONAL) (asks q) asks_one (rewriter_resolve fb iter (inner_conditional mapping ask)).
Proof.
  apply wb_rewriter.
  - intros req H. now exists q.
  - intros rq r lft. unfold inner_conditional, cond_resolve. destruct (cond_dest mapping rq) as [[u q'|q']|]; [| |discriminate].
    + destruct (ask u q') as [[x|e]|]; try discriminate. destruct (cond_response q' x) as [x'|] eqn:E; [|discriminate].
      intros [= <- _]. right. now apply cond_response_kind in E.
    + intros [= <- _]. now left.
  - intros req r lft Hq. unfold inner_conditional. pose proof (cond_dest_asks mapping req q Hq) as Hd. unfold cond_resolve.
    destruct (cond_dest mapping req) as [[u q'|q']|]; [| |destruct Hd].
    + destruct Hd as [q0 Hd]. intros H. exists q0. unfold asks in *. cbn [req_msg set_req_msg].
      destruct (ask u q') as [[x|e]|]; try discriminate; [destruct (cond_response q' x); [|discriminate]|]; injection H as _ <-; exact Hd.
    + subst q'. intros [= _ <-]. rewrite set_req_msg_id. now exists q.
Qed.

Lemma wb_sudn cfg : well_behaved keeps (Some SPECIAL) asks_one asks_one (sudn_resolve cfg).
Proof.
  intros req [q Hq]. unfold sudn_resolve. destruct (negb _); [right; right; apply wb_pass; now exists q|]. pose proof Hq as Hq'. unfold asks in Hq'.
  rewrite Hq'. destruct (first_mapped _ _) as [h|]; [|right; right; apply wb_pass; now exists q].
  destruct (sudn_handle cfg h req q) as [r|] eqn:E; [|right; right; apply wb_pass; now exists q].
  right. left. eexists. split; [reflexivity|]. intros x [= <-]. f_equal. unfold sudn_handle in E.
  destruct h; try discriminate; try (injection E as <-; reflexivity).
  - injection E as <-. unfold sudn_localhost. cbv zeta. destruct (_ =? _)%N; [reflexivity|]. destruct (_ =? _)%N; reflexivity.
  - destruct (su_appendix_g cfg); [|discriminate]. now injection E as <-.
  - destruct (_ =? _)%N; [discriminate|]. now injection E as <-.
Qed.

(** ** Chains of such stages *)
Definition relation_of (s : stage) : result -> result -> Prop := match s with SBlocking => follows | _ => keeps end.
Fixpoint ok_stages (P : request -> Prop) (rs : list (stage * (request -> prog))) : Prop :=
  match rs with
  | [] => True
  | (s, p) :: rs' => exists P', well_behaved (relation_of s) (option_map kind (stands_for s)) P P' p /\ ok_stages P' rs'
  end.

(** Each call but the last leads to the next one, and the last one is answered. *)
Fixpoint steps_through (rs : list (stage * (request -> prog))) (cs : list (stage * request)) : Prop :=
  match rs, cs with
  | [], [(SUpstreamTree, _)] => True
  | (s, p) :: rs', (s', rq) :: cs' =>
      s' = s /\
      match cs' with
      | [] => exists x, p rq = Done (Ok x)
      | (_, rq') :: _ => (exists k, p rq = Next rq' k) /\ steps_through rs' cs'
      end
  | _, _ => False
  end.

Lemma screened_keeps x x' : rs_type x' = rs_type x -> rs_reason x' = rs_reason x -> screened x -> screened x'.
Proof. intros H1 H2 [H3 [k [l [H4 H5]]]]. split; [congruence|]. exists k, l. split; auto. congruence. Qed.

Lemma chain_calls last : (forall rq x, last rq = Some (Ok x) -> rs_type x = RESOLVED) -> forall rs P req r,
  ok_stages P rs -> P req -> chain (map snd rs) last req = Some (Ok r) ->
  steps_through rs (calls rs last req) /\
  exists pre s post, map fst rs ++ [SUpstreamTree] = pre ++ s :: post /\ map fst (calls rs last req) = pre ++ [s] /\
    (option_map kind (stands_for s) = Some (rs_type r) \/ (screened r /\ In SBlocking pre)).
Proof.
  intros Hlast. induction rs as [|[s p] rs IH]; intros P req r Hok HP E.
  - split; [exact I|]. exists [], SUpstreamTree, []. split; [reflexivity|]. split; [reflexivity|]. left. cbn. f_equal. symmetry. eauto.
  - destruct Hok as [P' [Hw Hok]]. cbn [map chain fold_right snd] in E. unfold link in E at 1. fold (chain (map snd rs) last) in E.
    cbn [calls]. destruct (Hw req HP) as [Ec|[[r0 [Ed Hk]]|[req' [k [En [HP' Hk]]]]]].
    + rewrite Ec in E. discriminate.
    + rewrite Ed in *. cbn [exec] in E. injection E as ->. cbn [forwarded flat_map]. split.
      * cbn [steps_through]. split; [reflexivity|]. eauto.
      * exists [], s, (map fst rs ++ [SUpstreamTree]). split; [reflexivity|]. split; [reflexivity|]. left. symmetry. auto.
    + rewrite En in *. cbn [exec] in E. cbn [forwarded]. destruct (chain (map snd rs) last req') as [r1|] eqn:E1; [|discriminate].
      destruct (Hk r1) as [Hc|[r' [Hd HR]]]; [rewrite Hc in E; discriminate|]. rewrite Hd in *. cbn [exec] in E. injection E as ->.
      cbn [forwarded flat_map]. rewrite app_nil_r.
      assert (exists x1, r1 = Ok x1 /\ ((rs_type r = rs_type x1 /\ rs_reason r = rs_reason x1) \/ (screened r /\ s = SBlocking))) as [x1 [-> Hx]].
      { destruct r1 as [x1|e1]; [|destruct s; destruct HR]. exists x1. split; auto. destruct s; cbn in HR; auto. destruct HR; auto. }
      destruct (IH P' req' x1 Hok HP' E1) as [Hst [pre [s' [post [H1 [H2 H3]]]]]]. split.
      * cbn [steps_through]. split; [reflexivity|]. destruct (calls rs last req') as [|[s1 rq1] cs] eqn:Ecs; [destruct pre; discriminate|].
        assert (rq1 = req') as ->.
        { destruct rs as [|[s2 p2] rs2]; cbn [calls] in Ecs; injection Ecs; congruence. }
        split; [eauto|exact Hst].
      * exists (s :: pre), s', post. split; [cbn; congruence|]. split; [cbn; congruence|].
        destruct Hx as [[Hx1 Hx2]|[Hx1 Hx2]].
        -- destruct H3 as [H3|[H3 H4]]; [left; congruence|]. right. split; [eapply screened_keeps; eauto|now right].
        -- right. split; auto. left. auto.
Qed.

(** The chain of the server *)
Lemma with_rewriter_wb R t P P' rules a b : (rules <> [] -> well_behaved R t P P' a) -> (rules = [] -> well_behaved R t P P' b) ->
  well_behaved R t P P' (with_rewriter rules a b).
Proof. intros Ha Hb. unfold with_rewriter. destruct rules; [auto|apply Ha; discriminate]. Qed.

Definition simple_custom {U} (w : world U) (q : question) : Prop :=
  w_custom_rules w <> [] \/ (no_cname_to_follow (w_custom w) q /\ 0 < w_fuel w).

Lemma query_ok {U} (w : world U) q : simple_custom w q -> ok_stages (asks q) (query_resolvers w).
Proof.
  intros Hc. unfold query_resolvers. cbn [ok_stages stands_for option_map kind relation_of].
  exists (asks q). split; [apply wb_filtering|].
  exists (asks q). split; [apply wb_fqdn|].
  exists (asks q). split; [apply wb_ecs|].
  exists (asks q). split; [apply wb_names|].
  exists (asks q). split; [apply wb_ede|].
  exists (asks q). split; [apply wb_logging|].
  exists (asks q). split; [apply wb_metrics|].
  exists (asks q). split.
  { apply with_rewriter_wb; [intros _; apply wb_custom_rewriter|]. intros E. destruct Hc as [Hc|[Hc1 Hc2]]; [contradiction|]. now apply wb_custom. }
  exists (asks q). split; [apply wb_hosts|].
  exists (asks q). split; [apply wb_blocking|].
  exists (asks q). split; [apply wb_caching|].
  exists asks_one. split.
  { apply with_rewriter_wb; intros _; [apply wb_cond_rewriter|apply wb_conditional]. }
  exists asks_one. split; [apply wb_sudn|]. exact I.
Qed.
