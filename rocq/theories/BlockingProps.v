(** Theorems about the blocking resolver. *)
From Coq Require Import String Ascii List Arith Bool NArith ZArith Lia Permutation Sorted.
From Verif Require Import Str StrFacts StringCache StringCacheSpec StringCacheProofs StringCacheProps ExpCache Dns Resolver
  CachingSpec CachingProofs Blocking BlockingSpec BlockingProofs.
Import ListNotations.

(** ** C25: the groups checked for a client are exactly those that apply to it,
    whatever the iteration order of the map; the list is sorted. *)
Theorem C25_groups_exact :
  forall glob cidr_contains ip_string cfg iter fq disabled req,
    (forall i, Permutation (client_groups_block (bc_clients cfg)) (iter i)) ->
    let gs := groups_to_check glob cidr_contains ip_string (iter 0) iter fq disabled req in
    (forall g, In g gs <-> applies glob cidr_contains ip_string cfg fq disabled req g) /\
    StronglySorted (fun a b => bytes_lt a b \/ a = b) gs.
Proof.
  intros glob cidr ipstr cfg iter fq disabled req Hi gs. split.
  - intros g. now apply groups_to_check_iff.
  - unfold gs, groups_to_check. cbv zeta. match goal with |- StronglySorted _ (sort_strs ?l) => generalize l end.
    intros l. pose proof (sort_strs_sorted l) as H. induction H as [|x m Hm IH Hf]; constructor; auto.
    rewrite Forall_forall in *. intros y Hy. apply Hf in Hy. apply str_le_lt_or_eq in Hy as [Hy|Hy]; auto.
    left. now apply bytes_lt_str_lt.
Qed.
Print Assumptions C25_groups_exact.

(** Examples: three clients of one configuration. *)
Definition ex_glob (p n : str) : bool := str_eqb p n || (has_suffix p $"*" && has_prefix n (trim_suffix p $"*")).
Definition ex_cidr (c : str) (i : option ip) : bool :=
  str_eqb c $"10.0.0.0/8" && match i with Some (IP4 (10 :: _))%N => true | _ => false end.
Definition ex_ipstr (i : option ip) : str :=
  match i with
  | Some (IP4 [10; 0; 0; 1])%N => $"10.0.0.1"
  | Some (IP4 [10; 0; 0; 2])%N => $"10.0.0.2"
  | Some (IP4 [1; 2; 3; 4])%N => $"1.2.3.4"
  | Some _ => $"9.9.9.9"
  | None => $"<nil>"
  end.
Definition ex_cfg : blk_cfg :=
  {| bc_deny := [($"ads", [$"ads.txt"]); ($"adult", [$"adult.txt"])];
     bc_allow := [($"ads", [$"ok.txt"]); ($"school", [$"school.txt"])];
     bc_clients := [($"default", [$"ads"]); ($"Kid*,tv", [$"school"]); ($"10.0.0.0/8", [$"adult"]);
                    ($"phone.lan", [$"adult"; $"ads"])];
     bc_type := $"zeroIP"; bc_ttl := 21600 |}.
Definition ex_req (i : option ip) (names : list str) (n : str) (t : N) : request :=
  {| req_ip := i; req_client_id := []; req_proto := UDP; req_names := names; req_msg := new_msg_with_question 77 n t |}.
Definition ex_iter (_ : nat) : list (str * list str) := client_groups_block (bc_clients ex_cfg).
Definition ex_fq (s : str) : list ip := if str_eqb s $"phone.lan" then [IP4 [1; 2; 3; 4]%N] else [].
Definition ex_groups i names dis :=
  groups_to_check ex_glob ex_cidr ex_ipstr (ex_iter 0) ex_iter ex_fq dis (ex_req i names $"x.org" 1).

Example C25_example :
  (forall i, Permutation (client_groups_block (bc_clients ex_cfg)) (ex_iter i)) /\
  ex_groups (Some (IP4 [10; 0; 0; 1]%N)) [$"KidPC"] [] = [$"adult"; $"school"] /\
  ex_groups (Some (IP4 [9; 9; 9; 9]%N)) [$"desktop"] [] = [$"ads"] /\
  ex_groups (Some (IP4 [1; 2; 3; 4]%N)) [] [$"ads"] = [$"adult"].
Proof. split; [intros; apply Permutation_refl|]. repeat split. Qed.

(** ** C24, C26, C28, C29 *)
Section Question.
Variable glob : str -> str -> bool.
Variable cidr_contains : str -> option ip -> bool.
Variable ip_string : option ip -> str.
Variable allow deny : str -> list str -> list str.
Variable on_allow on_deny : str -> str -> Prop.
Variable cfg : blk_cfg.
Variable h : handler.
Variable iter : nat -> list (str * list str).
Variable fq : str -> list ip.
Variable disabled : list str.

(** The list lookups are right (C04), the maps of the configuration are maps, [iter]
    are iteration orders. *)
Definition blocking_setting : Prop :=
  lookup_ok on_allow allow /\ lookup_ok on_deny deny /\ NoDup (map fst (bc_allow cfg)) /\
  forall i, Permutation (client_groups_block (bc_clients cfg)) (iter i).

Definition run_blocking (req : request) : prog :=
  blocking_resolve glob cidr_contains ip_string allow deny cfg h iter fq disabled req.

Definition req_allowed := allowed glob cidr_contains ip_string cfg fq disabled on_allow.
Definition req_restricted := restricted glob cidr_contains ip_string cfg fq disabled.
Definition req_blocked := blocked_name glob cidr_contains ip_string cfg fq disabled on_allow on_deny.
Definition req_deciding := deciding glob cidr_contains ip_string cfg fq disabled on_allow on_deny.
Definition req_bad := bad_record glob cidr_contains ip_string cfg fq disabled on_allow on_deny.
Definition req_applies := applies glob cidr_contains ip_string cfg fq disabled.

(** No question of the request is allowed or blocked by name. *)
Definition undecided (req : request) : Prop :=
  forall q n, In q (m_question (req_msg req)) -> plain_name (q_name q) n -> ~ req_allowed req n /\ ~ req_blocked req n.

(** The reason for blocking name [n]. *)
Definition reason_for (req : request) (n reason : str) : Prop :=
  (req_restricted req -> reason = $"BLOCKED (ALLOWLIST ONLY)") /\
  (~ req_restricted req -> exists l,
     names_groups (fun g => req_applies req g /\ on_deny g n) l /\ reason = $"BLOCKED (" ++ l ++ $")").

Lemma run_blocking_cases req : blocking_setting ->
  (exists q n, req_deciding req q n /\
    ((req_allowed req n /\ run_blocking req = pass req) \/
     (req_blocked req n /\ exists reason, reason_for req n reason /\
        run_blocking req = Done (Ok (handle_blocked h req q reason))))) \/
  (undecided req /\ exists gs, (forall g, In g gs <-> req_applies req g) /\
    run_blocking req = Next req (fun r =>
      match r with
      | Ok resp =>
          match gs, rs_msg resp with
          | _ :: _, Some m =>
              match screen ip_string allow deny gs (m_answer m) with
              | Some reason =>
                  match m_question (req_msg req) with
                  | q :: _ => Done (Ok (handle_blocked h req q reason))
                  | [] => Crash
                  end
              | None => Done r
              end
          | _, _ => Done r
          end
      | Err _ => Done r
      end)).
Proof.
  intros [Ha [Hd [Hc Hi]]]. unfold run_blocking, blocking_resolve.
  set (gs := groups_to_check glob cidr_contains ip_string (iter 0) iter fq disabled req).
  assert (forall g, In g gs <-> applies glob cidr_contains ip_string cfg fq disabled req g) as Hgs
    by (intros g; now apply groups_to_check_iff).
  pose proof (handle_denylist_spec glob cidr_contains ip_string allow deny on_allow on_deny Ha Hd cfg Hc h fq disabled req gs Hgs
    (m_question (req_msg req))) as H.
  unfold resolve_groups.
  assert (gs = [] -> undecided req) as Hnil.
  { intros E q n _ _. split.
    - intros [g [Hg _]]. apply Hgs in Hg. rewrite E in Hg. destruct Hg.
    - intros [_ [[g [Hg _]]|[g [Hg _]]]]; apply Hgs in Hg; rewrite E in Hg; destruct Hg. }
  destruct gs as [|g0 gs0] eqn:Eg.
  - right. split; auto. exists []. split; [exact Hgs|reflexivity].
  - destruct (handle_denylist allow deny cfg h (g0 :: gs0) req (m_question (req_msg req))) as [p|].
    + left. destruct H as [pre [q [post [n [E [H1 [H2 H3]]]]]]]. exists q, n. split.
      * exists pre, post. split; [exact E|]. split; [exact H1|]. split; [|exact H2].
        destruct H3 as [[H3 _]|[H3 _]]; [now left|now right].
      * exact H3.
    + right. split; [exact H|]. exists (g0 :: gs0). split; [exact Hgs|reflexivity].
Qed.

Lemma deciding_unique req q n q' n' : req_deciding req q n -> req_deciding req q' n' -> q = q' /\ n = n'.
Proof.
  intros [pre [post [E [H1 [H2 H3]]]]] [pre' [post' [E' [H1' [H2' H3']]]]].
  assert (forall (A : Type) (a b c d : list A) x y, a ++ x :: b = c ++ y :: d ->
    (x = y /\ a = c) \/ In x c \/ In y a) as Hsplit.
  { clear. intros A. induction a as [|z a IH]; intros b [|w c] d x y H; simpl in *; injection H as H1 H2; subst; auto.
    destruct (IH _ _ _ _ _ H2) as [[-> ->]|[H|H]]; auto. }
  rewrite E in E'. destruct (Hsplit _ _ _ _ _ _ _ E') as [[-> _]|[H|H]].
  - split; auto. apply plain_name_iff in H1, H1'. congruence.
  - exfalso. destruct (H3' _ _ H H1). destruct H2; auto.
  - exfalso. destruct (H3 _ _ H H1'). destruct H2'; auto.
Qed.

(** A request is answered with the block answer iff its first decided question is
    blocked: not allow-listed for the client's groups, and deny-listed or the client
    is restricted to allow lists.  The answer is about that question and tells why. *)
Theorem C24_blocked_iff : forall req, blocking_setting ->
  (forall q n, req_deciding req q n -> req_blocked req n ->
     exists r, run_blocking req = Done (Ok r) /\ block_answer h req q r /\ reason_for req n (rs_reason r)) /\
  (forall q n, req_deciding req q n -> req_allowed req n -> run_blocking req = pass req) /\
  (forall r, run_blocking req = Done (Ok r) -> exists q n, req_deciding req q n /\ req_blocked req n).
Proof.
  intros req Hs. destruct (run_blocking_cases req Hs) as [[q [n [Hd Hc]]]|[Hu [gs [Hgs E]]]].
  - split; [|split].
    + intros q' n' Hd' Hb. destruct (deciding_unique _ _ _ _ _ Hd Hd') as [<- <-].
      destruct Hc as [[Hc _]|[_ [reason [Hr E]]]]; [destruct Hb; contradiction|].
      eexists. split; [exact E|]. split; [apply handle_blocked_answer|exact Hr].
    + intros q' n' Hd' Ha. destruct (deciding_unique _ _ _ _ _ Hd Hd') as [<- <-].
      destruct Hc as [[_ Hc]|[[Hc _] _]]; [exact Hc|contradiction].
    + intros r Hr. exists q, n. split; auto. destruct Hc as [[_ Hc]|[Hc _]]; auto. rewrite Hc in Hr. discriminate.
  - split; [|split].
    + intros q n [pre [post [Eq [Hn [Hx _]]]]] Hb. exfalso. destruct (Hu q n) as [H1 H2]; auto.
      rewrite Eq. apply in_or_app. right. now left.
    + intros q n [pre [post [Eq [Hn [Hx _]]]]] Hb. exfalso. destruct (Hu q n) as [H1 H2]; auto.
      rewrite Eq. apply in_or_app. right. now left.
    + intros r Hr. rewrite E in Hr. discriminate.
Qed.

(** C26: if one of the client's groups has only allow lists, every request whose
    first question is not allow-listed is blocked. *)
Theorem C26_allowlist_only_blocks_rest : forall req q rest n, blocking_setting ->
  m_question (req_msg req) = q :: rest -> plain_name (q_name q) n ->
  (exists g, req_applies req g /\ allow_only cfg g) ->
  (forall g, req_applies req g -> ~ on_allow g n) ->
  exists r, run_blocking req = Done (Ok r) /\ block_answer h req q r /\ rs_reason r = $"BLOCKED (ALLOWLIST ONLY)".
Proof.
  intros req q rest n Hs Eq Hn Hr Ha.
  assert (req_blocked req n) as Hb.
  { split; [intros [g [H1 H2]]; exact (Ha g H1 H2)|]. now left. }
  destruct (C24_blocked_iff req Hs) as [H _]. destruct (H q n) as [r [H1 [H2 [H3 _]]]].
  - exists [], rest. split; [exact Eq|]. split; [exact Hn|]. split; [now right|]. intros ? ? [].
  - exact Hb.
  - exists r. auto.
Qed.

(** C29: with a blocked question nothing is sent on, whatever resolvers follow;
    otherwise exactly the client's request is sent on, once. *)
Theorem C29_blocked_never_forwarded : forall req next, blocking_setting ->
  ((exists q n, req_deciding req q n /\ req_blocked req n) -> forwarded (run_blocking req) next = []) /\
  (~ (exists q n, req_deciding req q n /\ req_blocked req n) -> forwarded (run_blocking req) next = [req]).
Proof.
  intros req next Hs. split.
  - intros [q [n [H1 H2]]]. destruct (C24_blocked_iff req Hs) as [H _]. destruct (H q n H1 H2) as [r [E _]]. now rewrite E.
  - intros Hn. destruct (run_blocking_cases req Hs) as [[q [n [Hd [[_ E]|[Hb _]]]]]|[_ [gs [_ E]]]].
    + rewrite E. simpl. destruct (next req); reflexivity.
    + exfalso. eauto.
    + rewrite E. cbn [forwarded]. destruct (next req) as [[resp|e]|]; auto.
      destruct gs; auto. destruct (rs_msg resp); auto. destruct (screen _ _ _ _ _); auto. destruct (m_question (req_msg req)); auto.
Qed.

(** ** C27: for a request no question of which is decided by name, the answer is
    passed unchanged if no record refers to a denied and not allowed address or name,
    and replaced by the block answer otherwise; the reason names the kind of the
    first such record and the groups.  Errors are passed on. *)
Theorem C27_answers_screened : forall req q0 rest, blocking_setting ->
  m_question (req_msg req) = q0 :: rest -> undecided req ->
  exists k, run_blocking req = Next req k /\
    (forall e, k (Err e) = Done (Err e)) /\
    (forall resp, rs_msg resp = None -> k (Ok resp) = Done (Ok resp)) /\
    (forall resp m, rs_msg resp = Some m ->
      (forall r kind n, In r (m_answer m) -> ~ req_bad req r kind n) -> k (Ok resp) = Done (Ok resp)) /\
    (forall resp m pre r post kind n, rs_msg resp = Some m -> m_answer m = pre ++ r :: post ->
      req_bad req r kind n -> (forall r' k' n', In r' pre -> ~ req_bad req r' k' n') ->
      exists r', k (Ok resp) = Done (Ok r') /\ block_answer h req q0 r' /\
        exists l, names_groups (fun g => req_applies req g /\ on_deny g n) l /\
          rs_reason r' = $"BLOCKED " ++ kind ++ $" (" ++ l ++ $")").
Proof.
  intros req q0 rest Hs Eq Hu. destruct (run_blocking_cases req Hs) as [[q [n [[pre [post [E [Hn [Hx _]]]]] _]]]|[_ [gs [Hgs E]]]].
  { exfalso. destruct (Hu q n) as [H1 H2]; auto.
    - rewrite E. apply in_or_app. right. now left.
    - destruct Hx; auto. }
  rewrite E. eexists. split; [reflexivity|]. destruct Hs as [Ha [Hd [Hc Hi]]]. split; [reflexivity|]. split.
  { intros resp ->. destruct gs; reflexivity. }
  split.
  - intros resp m -> Hok. destruct gs as [|g0 gs0] eqn:Eg; [reflexivity|].
    pose proof (screen_spec glob cidr_contains ip_string allow deny on_allow on_deny Ha Hd cfg fq disabled req (g0 :: gs0) Hgs (m_answer m)) as H.
    destruct (screen ip_string allow deny (g0 :: gs0) (m_answer m)); [|reflexivity].
    destruct H as [pre [r [post [kind [n [E1 [H1 _]]]]]]]. exfalso. apply (Hok r kind n); [|exact H1].
    rewrite E1. apply in_or_app. right. now left.
  - intros resp m pre r post kind n -> Em Hb Hpre.
    pose proof (screen_spec glob cidr_contains ip_string allow deny on_allow on_deny Ha Hd cfg fq disabled req gs Hgs (m_answer m)) as H.
    assert (gs <> []) as Hne.
    { intros ->. destruct Hb as [_ [_ [_ [g [Hg _]]]]]. apply Hgs in Hg. destruct Hg. }
    destruct gs as [|g0 gs0]; [congruence|].
    destruct (screen ip_string allow deny (g0 :: gs0) (m_answer m)) as [reason|].
    + destruct H as [pre1 [r1 [post1 [kind1 [n1 [E1 [H1 [H2 [l [H3 H4]]]]]]]]]]. rewrite Eq.
      eexists. split; [reflexivity|]. split; [apply handle_blocked_answer|].
      assert (r = r1) as ->.
      { assert (forall (A : Type) (a b c d : list A) x y, a ++ x :: b = c ++ y :: d -> x = y \/ In x c \/ In y a) as Hsplit.
        { clear. intros A. induction a as [|z a IH]; intros b [|w c] d x y H; simpl in *; injection H as H1 H2; subst; auto.
          destruct (IH _ _ _ _ _ H2) as [->|[H|H]]; auto. }
        rewrite Em in E1. destruct (Hsplit _ _ _ _ _ _ _ E1) as [->|[H|H]]; auto.
        - exfalso. exact (H2 _ _ _ H Hb).
        - exfalso. exact (Hpre _ _ _ H H1). }
      assert (kind1 = kind /\ n1 = n) as [-> ->].
      { destruct H1 as [H1 _], Hb as [Hb _]. apply refers_entry in H1, Hb. rewrite H1 in Hb. now injection Hb as -> ->. }
      exists l. split; [exact H3|]. exact H4.
    + exfalso. apply (H r kind n); [|exact Hb]. rewrite Em. apply in_or_app. right. now left.
Qed.

End Question.
Print Assumptions C24_blocked_iff.
Print Assumptions C26_allowlist_only_blocks_rest.
Print Assumptions C29_blocked_never_forwarded.
Print Assumptions C27_answers_screened.

(** With the real lists: the lookups of the allow and deny caches after any history
    of refreshes satisfy the setting (C04). *)
Theorem C24_setting_of_lists : forall compile hist c, no_bare_slash hist ->
  run_loads compile new_list_cache hist = StringCache.Ok c ->
  lookup_ok (fun g n => exists es, content hist g es /\ list_matches compile es n) (lc_match compile c).
Proof.
  intros compile hist c Hb Hr n gs. destruct (C04_lookup_exact_after_any_history compile hist Hb) as [c' [E H]].
  rewrite Hr in E. injection E as <-. apply H.
Qed.
Print Assumptions C24_setting_of_lists.

(** ** Examples for C24-C29: one client restricted to "school", others checked against
    "ads". *)
Definition ex_on_deny (g n : str) : Prop :=
  (g = $"ads" /\ In n [$"ads.com"; $"ok.com"; $"6.6.6.6"]) \/ (g = $"adult" /\ n = $"adult.com").
Definition ex_on_allow (g n : str) : Prop := (g = $"ads" /\ n = $"ok.com") \/ (g = $"school" /\ n = $"school.org").
Definition ex_lookup (f : str -> str -> bool) (n : str) (gs : list str) : list str :=
  sort_strs (dedup (filter (fun g => f g n) gs)).
Definition ex_deny_b (g n : str) : bool :=
  (str_eqb g $"ads" && str_in n [$"ads.com"; $"ok.com"; $"6.6.6.6"]) || (str_eqb g $"adult" && str_eqb n $"adult.com").
Definition ex_allow_b (g n : str) : bool :=
  (str_eqb g $"ads" && str_eqb n $"ok.com") || (str_eqb g $"school" && str_eqb n $"school.org").

Lemma ex_lookup_ok f on : (forall g n, f g n = true <-> on g n) -> lookup_ok on (ex_lookup f).
Proof.
  intros H n gs. split.
  - unfold ex_lookup. apply SSorted_bytes. apply sorted_NoDup_strict; [apply sort_strs_sorted|].
    apply sort_strs_NoDup, dedup_NoDup.
  - intros g. unfold ex_lookup. now rewrite sort_strs_In, dedup_In, filter_In, H.
Qed.

Lemma ex_setting : blocking_setting (ex_lookup ex_allow_b) (ex_lookup ex_deny_b) ex_on_allow ex_on_deny ex_cfg ex_iter.
Proof.
  split; [|split; [|split]].
  - apply ex_lookup_ok. intros g n. unfold ex_allow_b, ex_on_allow. rewrite orb_true_iff, !andb_true_iff, !str_eqb_eq. reflexivity.
  - apply ex_lookup_ok. intros g n. unfold ex_deny_b, ex_on_deny. rewrite orb_true_iff, !andb_true_iff, !str_eqb_eq, str_in_In. reflexivity.
  - repeat constructor; simpl; intuition discriminate.
  - intros i. apply Permutation_refl.
Qed.

Definition ex_run (r : request) : prog :=
  run_blocking ex_glob ex_cidr ex_ipstr (ex_lookup ex_allow_b) (ex_lookup ex_deny_b) ex_cfg (HZeroIP 60) ex_iter ex_fq [] r.
Definition ex_answer (l : list rr) : next_fn := fun r =>
  Some (Ok {| rs_msg := Some (set_answer l (set_reply empty_msg (req_msg r))); rs_reason := []; rs_type := RESOLVED |}).
Definition ex_summary (o : option result) : option (str * rtype * N * list rdata) :=
  match o with
  | Some (Ok r) => match rs_msg r with
                   | Some m => Some (rs_reason r, rs_type r, m_rcode m, map rr_data (m_answer m))
                   | None => None
                   end
  | _ => None
  end.
Definition ex_desktop := Some (IP4 [9; 9; 9; 9]%N).
Definition ex_a (n : str) (b : list N) : rr := {| rr_name := n; rr_type := 1; rr_class := 1; rr_ttl := 9; rr_data := DA (IP4 b) |}.

(** Denied, allowed in spite of being denied, restricted client, and screened answers. *)
Example C24_example :
  ex_summary (exec (ex_run (ex_req ex_desktop [] $"ADS.com" 1)) (ex_answer [])) =
    Some ($"BLOCKED (ads)", BLOCKED, 0%N, [DA (IP4 [0; 0; 0; 0]%N)]) /\
  ex_summary (exec (ex_run (ex_req ex_desktop [] $"ads.com" 15)) (ex_answer [])) = Some ($"BLOCKED (ads)", BLOCKED, 3%N, []) /\
  forwarded (ex_run (ex_req ex_desktop [] $"ads.com" 1)) (ex_answer []) = [] /\
  ex_summary (exec (ex_run (ex_req ex_desktop [] $"ok.com" 1)) (ex_answer [ex_a $"ok.com." [1; 1; 1; 1]%N])) =
    Some ([], RESOLVED, 0%N, [DA (IP4 [1; 1; 1; 1]%N)]).
Proof. repeat split. Qed.

Example C26_example :
  ex_summary (exec (ex_run (ex_req ex_desktop [$"kidpc"] $"any.com" 1)) (ex_answer [])) =
    Some ($"BLOCKED (ALLOWLIST ONLY)", BLOCKED, 0%N, [DA (IP4 [0; 0; 0; 0]%N)]) /\
  ex_run (ex_req ex_desktop [$"kidpc"] $"school.org" 1) = pass (ex_req ex_desktop [$"kidpc"] $"school.org" 1) /\
  allow_only ex_cfg $"school".
Proof.
  split; [reflexivity|]. split; [reflexivity|]. split.
  - exists [$"school.txt"]. split; [simpl; auto|discriminate].
  - intros [s H]. simpl in H. intuition discriminate.
Qed.

Definition ex_cname (n t : str) : rr := {| rr_name := n; rr_type := 5; rr_class := 1; rr_ttl := 9; rr_data := DCNAME t |}.
Example C27_example :
  ex_summary (exec (ex_run (ex_req ex_desktop [] $"x.org" 1)) (ex_answer [ex_cname $"x.org." $"Ads.com."; ex_a $"ads.com." [1; 1; 1; 1]%N])) =
    Some ($"BLOCKED CNAME (ads)", BLOCKED, 0%N, [DA (IP4 [0; 0; 0; 0]%N)]) /\
  ex_summary (exec (ex_run (ex_req ex_desktop [] $"x.org" 1)) (ex_answer [ex_cname $"x.org." $"OK.com."; ex_a $"ok.com." [1; 1; 1; 1]%N])) =
    Some ([], RESOLVED, 0%N, [DCNAME $"OK.com."; DA (IP4 [1; 1; 1; 1]%N)]).
Proof. repeat split. Qed.

(** A limit of the screening: the answers for an allow-listed question are not
    screened, even if they name denied hosts. *)
Example C27_allowed_question_not_screened :
  ex_summary (exec (ex_run (ex_req ex_desktop [] $"ok.com" 1)) (ex_answer [ex_cname $"ok.com." $"ads.com."])) =
    Some ([], RESOLVED, 0%N, [DCNAME $"ads.com."]).
Proof. reflexivity. Qed.

(** ** C28: the block answer for a question, for every configured block type. *)
Theorem C28_block_answer_shape : forall parse_ip cfg,
  configured_handler parse_ip cfg (create_block_handler parse_ip cfg) /\
  forall h req q reason, create_block_handler parse_ip cfg = Some h ->
    block_answer h req q (handle_blocked h req q reason) /\ rs_reason (handle_blocked h req q reason) = reason.
Proof.
  intros parse_ip cfg. split; [apply create_block_handler_spec|]. intros h req q reason _. split; [apply handle_blocked_answer|reflexivity].
Qed.
Print Assumptions C28_block_answer_shape.

Definition ex_parse_ip (s : str) : option ip :=
  if str_eqb s $"192.100.100.15" then Some (IP4 [192; 100; 100; 15]%N)
  else if str_eqb s $"::1" then Some (IP6 (repeat 0 15 ++ [1])%N) else None.
Definition ex_cfg_type (t : str) : blk_cfg :=
  {| bc_deny := []; bc_allow := []; bc_clients := []; bc_type := t; bc_ttl := 5 |}.

Example C28_example :
  create_block_handler ex_parse_ip (ex_cfg_type $"nxDomain") = Some HNxDomain /\
  create_block_handler ex_parse_ip (ex_cfg_type $"192.100.100.15, ::1,x") =
    Some (HIPs [IP4 [192; 100; 100; 15]%N; IP6 (repeat 0 15 ++ [1])%N] 5) /\
  create_block_handler ex_parse_ip (ex_cfg_type $"x") = None /\
  (let m := handle_block (HIPs [IP4 [192; 100; 100; 15]%N] 5) {| q_name := $"a."; q_type := 28; q_class := 1 |} empty_msg in
   m_rcode m = 0%N /\ map rr_data (m_answer m) = [DAAAA (IP6 (repeat 0%N 16))]).
Proof. repeat split. Qed.

(** ** C30: a temporary disabling, with no further accepted command: the groups stay
    disabled until the timer has fired, which it does not do before the time is
    over; from then on it can fire, and after its callback everything is
    enabled; the status tells the remaining time. *)
Theorem C30_temporary_disable : forall cfg s d gs now s1,
  bt_fired s = 0 -> d <> 0%Z -> blk_step cfg s (BDisable d gs now) = Some (s1, true) ->
  (forall post s2, (forall e, In e post -> ~ is_command e) -> blk_run cfg s1 post = Some s2 ->
     (bt_enabled s2 = false /\ (forall g, In g (bt_disabled s2) <-> named cfg gs g) /\
      (* it can end at any later time *)
      forall t, (now + d <= t)%Z -> exists ext s3, blk_run cfg s2 ext = Some s3 /\
        (forall e, In e ext -> e = BFire t \/ e = BCallback) /\ bt_enabled s3 = true /\ bt_disabled s3 = []) \/
     (bt_enabled s2 = true /\ bt_disabled s2 = [] /\ (exists t, In (BFire t) post /\ (now + d <= t)%Z) /\
      forall t, blocking_status t s2 = (true, [], 0%Z))) /\
  (forall t, (t < now + d)%Z -> exists dg, blocking_status t s1 = (false, dg, ((now + d - t) / 1000000000)%Z) /\
     forall g, In g dg <-> named cfg gs g).
Proof.
  intros cfg s d gs now s1 Hf Hd Hs. cbn [blk_step] in Hs.
  destruct (internal_disable_ok cfg d gs now s) as [[Hv [H0 [H1 [H2 [H3 [H4 H5]]]]]]|[_ [H0 _]]];
    destruct (internal_disable cfg d gs now s) as [s0 b0]; injection Hs as -> ->; cbn [fst snd] in *; [|discriminate].
  destruct (Z.eqb_spec d 0); [contradiction|]. split.
  - intros post s2 Hp Hr.
    assert (forall n, named cfg gs n <-> named cfg gs n) as _ by tauto.
    (* a stronger invariant: the timer is armed or has fired *)
    assert (forall post s s2, bt_enabled s = false /\ (forall g, In g (bt_disabled s) <-> named cfg gs g) /\
              ((bt_fired s = 0 /\ bt_timer s = Some (now + d)%Z) \/ (bt_fired s = 1 /\ bt_timer s = None)) ->
            (forall e, In e post -> ~ is_command e) -> blk_run cfg s post = Some s2 ->
            (bt_enabled s2 = false /\ (forall g, In g (bt_disabled s2) <-> named cfg gs g) /\
              ((bt_fired s2 = 0 /\ bt_timer s2 = Some (now + d)%Z) \/ (bt_fired s2 = 1 /\ bt_timer s2 = None))) \/
            (bt_enabled s2 = true /\ bt_disabled s2 = [])) as Hinv.
    { clear. induction post as [|e post IH]; intros s s2 [H1 [H2 H3]] Hp Hr; simpl in Hr; [injection Hr as <-; auto|].
      destruct (blk_step cfg s e) as [[s1 b]|] eqn:E; [|discriminate].
      pose proof (Hp e (or_introl eq_refl)) as He. assert (forall e', In e' post -> ~ is_command e') as Hp' by (intros; apply Hp; now right).
      destruct e; cbn [is_command] in He; try tauto; cbn [blk_step] in E.
      - destruct H3 as [[H3 H4]|[H3 H4]]; rewrite H4 in E; [|discriminate]. destruct (_ <=? _)%Z; [|discriminate].
        injection E as <- <-. apply IH in Hr; auto. cbn. rewrite H3. auto.
      - destruct H3 as [[H3 H4]|[H3 H4]]; rewrite H3 in E; [discriminate|]. injection E as <- <-.
        right. assert (after_enable s2) as [G1 [G2 _]]; auto.
        eapply after_enable_post; [|intros e' Hin Ha; apply (Hp' e' Hin); destruct e'; simpl in *; tauto|exact Hr].
        repeat split. }
    assert (bt_fired s1 = 0) as H5' by congruence.
    destruct (Hinv post s1 s2 (conj H1 (conj H2 (or_introl (conj H5' H4)))) Hp Hr) as [[G1 [G2 G3]]|[G1 G2]].
    + left. split; auto. split; auto. intros t Ht. destruct G3 as [[G3 G4]|[G3 G4]].
      * exists [BFire t; BCallback]. eexists. simpl. rewrite G4. apply Z.leb_le in Ht. rewrite Ht. simpl.
        split; [reflexivity|]. split; [intros e [<-|[<-|[]]]; auto|]. auto.
      * exists [BCallback]. eexists. simpl. rewrite G3. simpl. split; [reflexivity|]. split; [intros e [<-|[]]; auto|]. auto.
    + right. split; auto. split; auto. split; [|intros t; unfold blocking_status; rewrite G1, G2; reflexivity].
      assert (still_off (named cfg gs) (now + d)%Z [] s1) as Hoff.
      { split; [exact H1|]. split; [exact H2|]. split; [exact H3|]. left. split; [exact H5'|]. right. exact H4. }
      assert (forall e, In e post -> ~ accepted cfg e) as Hp'.
      { intros e Hin Ha. apply (Hp e Hin). destruct e; simpl in *; tauto. }
      destruct (after_disable_post cfg (named cfg gs) (now + d)%Z post [] s1 s2
        (or_introl (conj Hoff (fun x => x))) Hp' Hr) as [[[Hx _] _]|[_ [_ H]]]; [congruence|exact H].
  - intros t Ht. unfold blocking_status. rewrite H1, H3. simpl. apply Z.ltb_lt in Ht as Ht'. rewrite Ht'.
    exists (bt_disabled s1). split; [|exact H2]. rewrite Z.quot_div_nonneg by lia. reflexivity.
Qed.
Print Assumptions C30_temporary_disable.

Example C30_example :
  exists s1, blk_step ex_cfg blk_init (BDisable 60000000000 [] 5) = Some (s1, true) /\
    bt_disabled s1 = [$"ads"; $"adult"; $"default"] /\
    blocking_status 10000000005 s1 = (false, [$"ads"; $"adult"; $"default"], 50%Z) /\
    blk_step ex_cfg s1 (BFire 60000000004) = None /\
    exists s2, blk_run ex_cfg s1 [BFire 60000000005; BCallback] = Some s2 /\ bt_enabled s2 = true /\ bt_disabled s2 = [].
Proof. eexists. split; [reflexivity|]. repeat split. eexists. split; [reflexivity|]. auto. Qed.

(** ** C31: a disable command is rejected iff it names an unknown group.  The full
    claim (nothing changes, now and in the future) is false: a rejected command
    stops the running timer. *)
Theorem C31_rejected_keeps_status_partial : forall cfg s d gs now s1 b,
  blk_step cfg s (BDisable d gs now) = Some (s1, b) ->
  (b = false <-> exists g, In g gs /\ ~ known cfg g) /\
  (b = false -> (forall t, blocking_status t s1 = blocking_status t s) /\ (bt_timer s = None -> s1 = s)).
Proof.
  intros cfg s d gs now s1 b Hs. cbn [blk_step] in Hs. split.
  - destruct (internal_disable_ok cfg d gs now s) as [[Hv [H0 _]]|[Hv [H0 _]]]; destruct (internal_disable cfg d gs now s) as [s0 b0];
      injection Hs as -> ->; cbn [snd] in H0; subst b.
    + split; [discriminate|]. intros [g [H1 H2]]. exfalso. apply H2, Hv, H1.
    + split; auto. intros _. unfold valid_groups in Hv.
      assert (forall l, ~ (forall g, In g l -> known cfg g) -> exists g, In g l /\ ~ known cfg g) as Hx.
      { induction l as [|g l IH]; intros H; [exfalso; apply H; intros ? []|].
        destruct (known_group (sort_strs (map fst (bc_deny cfg) ++ [$"default"])) g) eqn:E.
        - destruct IH as [g' [H1 H2]].
          + intros Hl. apply H. intros g' [<-|H1]; auto. apply known_group_iff in E. now apply all_groups_iff.
          + exists g'. split; [now right|auto].
        - exists g. split; [now left|]. intros Hk. apply all_groups_iff, known_group_iff in Hk. congruence. }
      auto.
  - intros ->. destruct (internal_disable_ok cfg d gs now s) as [[_ [H0 _]]|[_ [_ [H1 [H2 [H3 [H4 H5]]]]]]];
      destruct (internal_disable cfg d gs now s) as [s0 b0]; injection Hs as -> ->; cbn [fst snd] in *; [discriminate|].
    split.
    + intros t. unfold blocking_status. now rewrite H1, H2, H3.
    + intros Ht. destruct s1, s. simpl in *. congruence.
Qed.
Print Assumptions C31_rejected_keeps_status_partial.

(** Blocking was to come back after a minute; after a rejected command it never does. *)
Theorem C31_rejected_changes_nothing_refuted : exists cfg s d gs now s1,
  blk_run cfg blk_init [BDisable 60000000000 [] 0] = Some s /\
  blk_step cfg s (BDisable d gs now) = Some (s1, false) /\
  (exists s2, blk_run cfg s [BFire 60000000000; BCallback] = Some s2 /\ bt_enabled s2 = true) /\
  (forall es s2, (forall e, In e es -> ~ is_command e) -> blk_run cfg s1 es = Some s2 -> bt_enabled s2 = false).
Proof.
  exists ex_cfg. eexists. exists 0%Z, [$"nosuchgroup"], 7%Z. eexists. split; [reflexivity|]. split; [reflexivity|]. split.
  - eexists. split; reflexivity.
  - intros es s2 He H. destruct es as [|e es]; [now injection H as <-|]. simpl in H.
    specialize (He e (or_introl eq_refl)). destruct e; simpl in *; tauto || discriminate.
Qed.
Print Assumptions C31_rejected_changes_nothing_refuted.

Example C31_example :
  blk_step ex_cfg blk_init (BDisable 5 [$"ads"; $"zzz"] 9) = Some (blk_init, false).
Proof. reflexivity. Qed.

(** ** C32: if no fired timer was still waiting for the lock when the last accepted
    command was executed, the blocking state is determined by this command: it is
    in force until its own timer has fired and run. *)
Theorem C32_last_command_wins_partial : forall cfg pre c post s0 s,
  blk_run cfg blk_init pre = Some s0 -> bt_fired s0 = 0 ->
  accepted cfg c -> (forall e, In e post -> ~ accepted cfg e) ->
  blk_run cfg blk_init (pre ++ c :: post) = Some s ->
  match c with
  | BDisable d gs now =>
      (~ In BCallback post -> bt_enabled s = false /\ forall g, In g (bt_disabled s) <-> named cfg gs g) /\
      (In BCallback post -> bt_enabled s = true /\ bt_disabled s = [] /\ d <> 0%Z /\
         exists t, In (BFire t) post /\ (now + d <= t)%Z)
  | _ => bt_enabled s = true /\ bt_disabled s = []
  end.
Proof.
  intros cfg pre c post s0 s H0 Hf Hc Hp Hr. rewrite blk_run_app, H0 in Hr. simpl in Hr.
  destruct (blk_step cfg s0 c) as [[s1 b]|] eqn:E; [|discriminate]. destruct c; simpl in Hc; try tauto.
  - simpl in E. injection E as <- <-.
    destruct (after_enable_post cfg post (internal_enable s0) s) as [H1 [H2 _]]; auto. repeat split; auto.
  - cbn [blk_step] in E. destruct (internal_disable_ok cfg d gs now s0) as [[_ [_ [H1 [H2 [H3 [H4 H5]]]]]]|[G _]]; [|contradiction].
    destruct (internal_disable cfg d gs now s0) as [s' b']. injection E as -> ->. cbn [fst] in *.
    destruct (after_disable_post cfg (named cfg gs) (now + d)%Z post [] s1 s) as [[Hx Hn]|[Hx [Hi Ht]]]; auto.
    + left. split; [|auto]. split; auto. split; auto. split; auto. left. split; [congruence|].
      rewrite H4. destruct (d =? 0)%Z; auto.
    + split; [|tauto]. intros _. destruct Hx as [G1 [G2 _]]. auto.
    + split; [tauto|]. intros _. destruct Hx as [G1 [G2 _]]. split; auto. split; auto. split; [|exact Ht].
      intros ->. (* a permanent command arms no timer *)
      assert (forall post s, bt_fired s = 0 -> bt_timer s = None -> (forall e, In e post -> ~ accepted cfg e) ->
        forall s', blk_run cfg s post = Some s' -> ~ In BCallback post) as Hno.
      { clear. induction post as [|e post IH]; intros s Hf Ht Hp s' Hr; [intros []|]. simpl in Hr.
        pose proof (Hp e (or_introl eq_refl)) as He. destruct e; cbn [blk_step] in Hr.
        - simpl in He. tauto.
        - destruct (internal_disable_ok cfg d gs now s) as [[G _]|[_ [_ [_ [_ [_ [G1 G2]]]]]]]; [simpl in He; tauto|].
          destruct (internal_disable cfg d gs now s) as [s1 b]. cbn [fst] in *. intros [Hx|Hx]; [discriminate|].
          revert Hx. apply (IH s1) with s'; auto; [congruence|]. intros; apply Hp; now right.
        - rewrite Ht in Hr. discriminate.
        - rewrite Hf in Hr. discriminate. }
      revert Hi. simpl app. apply (Hno post s1) with s; auto. congruence.
Qed.
Print Assumptions C32_last_command_wins_partial.

(** Without this proviso the claim is false: a timer that fired just before a new
    command re-enables blocking against that command. *)
Theorem C32_last_command_wins_refuted : exists cfg pre c post s,
  accepted cfg c /\ c = BDisable 0 [] 60000000001 /\ (forall e, In e post -> ~ is_command e) /\
  blk_run cfg blk_init (pre ++ c :: post) = Some s /\ bt_enabled s = true /\ bt_disabled s = [].
Proof.
  exists ex_cfg, [BDisable 60000000000 [] 0; BFire 60000000000], (BDisable 0 [] 60000000001), [BCallback]. eexists.
  split; [intros g []|]. split; [reflexivity|]. split; [intros e [<-|[]]; simpl; tauto|]. split; [reflexivity|]. auto.
Qed.
Print Assumptions C32_last_command_wins_refuted.

Example C32_example :
  let pre := [BDisable 60 [$"ads"] 0; BEnable] in let c := BDisable 100 [$"adult"] 50 in
  accepted ex_cfg c /\
  (exists s0, blk_run ex_cfg blk_init pre = Some s0 /\ bt_fired s0 = 0) /\
  (exists s, blk_run ex_cfg blk_init (pre ++ [c; BDisable 0 [$"zzz"] 70]) = Some s /\ bt_disabled s = [$"adult"]) /\
  (exists s, blk_run ex_cfg blk_init (pre ++ [c; BFire 151; BCallback]) = Some s /\ bt_disabled s = []) /\
  blk_run ex_cfg blk_init (pre ++ [c; BFire 149]) = None.
Proof.
  split.
  - intros g [<-|[]]. right. exists [$"adult.txt"]. simpl. auto.
  - split; [eexists; split; reflexivity|]. split; [eexists; split; reflexivity|]. split; [eexists; split; reflexivity|]. reflexivity.
Qed.

(** ** C73: queries alone never block each other on the status lock; but with an
    enable or disable command a deadlock is possible. *)
Definition lock0 : rw := {| rw_readers := 0; rw_waiting := false; rw_writing := false |}.

Theorem C73_queries_progress_partial : forall gor is s,
  (forall x, In x gor -> exists n, x = query_locks n) ->
  conc_run (lock0, gor) is = Some s -> forall i, unfinished s i -> can_step s i.
Proof.
  intros gor is s H Hr i Hu. apply readers_progress; auto. eapply readers_run; [|exact Hr]. now apply readers_init.
Qed.
Print Assumptions C73_queries_progress_partial.

(** One query of a client with one group and one command, in an unlucky order: neither
    can go on, nor can any other query or command that comes later. *)
Theorem C73_no_deadlock_refuted : exists gor is s,
  gor = [query_locks 1; command_locks] /\ conc_run (lock0, gor) is = Some s /\
  unfinished s 0 /\ unfinished s 1 /\
  forall later, (forall x, In x later -> x = command_locks \/ exists n, x = query_locks n) ->
    forall i, ~ can_step (fst s, snd s ++ later) i.
Proof.
  exists [query_locks 1; command_locks], [0; 1]. eexists. split; [reflexivity|]. split; [reflexivity|].
  split; [eexists _, _; reflexivity|]. split; [eexists _, _; reflexivity|].
  intros later Hl i [s' H]. unfold conc_step in H. cbn [fst snd] in H.
  destruct i as [|[|i]]; simpl in H; try discriminate.
  destruct (nth_error later i) as [x|] eqn:E; [|discriminate].
  apply nth_error_In, Hl in E as [->|[n ->]]; simpl in H; discriminate.
Qed.
Print Assumptions C73_no_deadlock_refuted.

Example C73_example : exists s, conc_run (lock0, [query_locks 2; query_locks 0]) [0; 0; 1; 0; 1; 0; 0; 0] = Some s /\ snd s = [[]; []].
Proof. eexists. split; reflexivity. Qed.

(** ** C74: after a "disable" command for all groups no group with deny lists applies
    any more, so no name is blocked for being on a deny list. *)
Theorem C74_disable_all_partial : forall glob cidr_contains ip_string cfg fq (on_deny : str -> str -> Prop) d now s s1 req n,
  (forall g x, on_deny g x -> exists srcs, In (g, srcs) (bc_deny cfg)) ->
  blk_step cfg s (BDisable d [] now) = Some (s1, true) ->
  ~ denied glob cidr_contains ip_string cfg fq (bt_disabled s1) on_deny req n.
Proof.
  intros glob cidr ipstr cfg fq on_deny d now s s1 req n Hd Hs [g [[_ Hg] Hn]]. apply Hg.
  cbn [blk_step] in Hs. destruct (internal_disable_ok cfg d [] now s) as [[_ [_ [_ [H _]]]]|[_ [H _]]];
    destruct (internal_disable cfg d [] now s) as [s0 b0]; injection Hs as -> ->; cbn [fst snd] in *; [|discriminate].
  apply H. right. split; auto. right. eauto.
Qed.
Print Assumptions C74_disable_all_partial.

(** But clients with an allow-list-only group are still blocked: these groups are not
    among those disabled. *)
Theorem C74_disable_all_refuted : exists cfg s1 req r,
  blk_step cfg blk_init (BDisable 0 [] 0) = Some (s1, true) /\
  run_blocking ex_glob ex_cidr ex_ipstr (ex_lookup ex_allow_b) (ex_lookup ex_deny_b) cfg (HZeroIP 60) ex_iter ex_fq
    (bt_disabled s1) req = Done (Ok r) /\ rs_type r = BLOCKED.
Proof.
  exists ex_cfg. eexists. exists (ex_req ex_desktop [$"kidpc"] $"any.com" 1). eexists.
  split; [reflexivity|]. split; [reflexivity|]. reflexivity.
Qed.
Print Assumptions C74_disable_all_refuted.

Example C74_example :
  exists s1, blk_step ex_cfg blk_init (BDisable 0 [] 0) = Some (s1, true) /\
  forwarded (run_blocking ex_glob ex_cidr ex_ipstr (ex_lookup ex_allow_b) (ex_lookup ex_deny_b) ex_cfg (HZeroIP 60) ex_iter ex_fq
    (bt_disabled s1) (ex_req ex_desktop [] $"ads.com" 1)) (ex_answer []) = [ex_req ex_desktop [] $"ads.com" 1].
Proof. eexists. split; reflexivity. Qed.

(** ** C75: the addresses for an FQDN identifier are exactly those of the successful A
    and AAAA answers; an identifier that cannot be resolved at start is never
    looked up again. *)
Theorem C75_fqdn_addresses_partial : forall ra raaaa ips ttl, fq_identifier_ips ra raaaa = Some (ips, ttl) ->
  forall a, In a ips <-> address_in ra a \/ address_in raaaa a.
Proof.
  intros ra raaaa ips ttl H a. unfold fq_identifier_ips in H. destruct (fq_step ra ([], 0%Z)) as [acc|] eqn:E; [|discriminate].
  pose proof (fq_step_In _ _ _ a E) as H1. pose proof (fq_step_In _ _ _ a H) as H2. simpl in *. tauto.
Qed.
Print Assumptions C75_fqdn_addresses_partial.

Theorem C75_fqdn_recovers_refuted : exists id now failing,
  fq_identifier_ips (Err $"timeout") (Err $"timeout") = Some failing /\
  forall others, (forall k, others k = failing) ->
  let start := fq_init now others [id; $"other.lan"] [] in
  forall (later : list (Z * (str -> list ip * Z))),
    fq_ips (fold_left (fun l e => fq_clean (fst e) (snd e) l) later start) id = [].
Proof.
  exists $"phone.lan", 0%Z. eexists. split; [reflexivity|]. intros others Ho start later.
  assert (mget str_eqb $"phone.lan" start = None) as H0.
  { unfold start. apply fq_init_absent; [rewrite Ho; simpl; lia|reflexivity]. }
  assert (forall l, mget str_eqb $"phone.lan" l = None ->
    mget str_eqb $"phone.lan" (fold_left (fun l e => fq_clean (fst e) (snd e) l) later l) = None) as H.
  { induction later as [|e later IH]; intros l Hl; simpl; auto. apply IH. now apply fq_clean_absent. }
  unfold fq_ips, lru_peek. now rewrite H.
Qed.
Print Assumptions C75_fqdn_recovers_refuted.

Definition ex_fq_resp (l : list rr) : result := Ok {| rs_msg := Some (set_answer l empty_msg); rs_reason := []; rs_type := RESOLVED |}.
Example C75_example :
  fq_identifier_ips (ex_fq_resp [ex_cname $"phone.lan." $"p.lan."; ex_a $"p.lan." [1; 2; 3; 4]%N]) (Err $"x") =
    Some ([IP4 [1; 2; 3; 4]%N], 9000000000%Z) /\
  fq_ips (fq_init 0 (fun _ => ([IP4 [1; 2; 3; 4]%N], 9000000000%Z)) [$"phone.lan"; $"laptop"] []) $"phone.lan" = [IP4 [1; 2; 3; 4]%N].
Proof. split; [vm_compute; reflexivity|vm_compute; reflexivity]. Qed.
