(** What more entries on the lists do: more entries on deny lists only block more, more entries on allow lists only block less (C174). *)
From Coq Require Import String Ascii List Arith Bool NArith ZArith Lia Permutation.
From Verif Require Import Str StrFacts StringCache StringCacheSpec Dns Resolver ResolverFacts Blocking BlockingSpec BlockingProofs BlockingProps.
Import ListNotations.

(** The first lists hold no more than the second. *)
Definition no_more_entries (on on' : str -> str -> Prop) : Prop := forall g n, on g n -> on' g n.
(** The client is told that its query is blocked. *)
Definition told_blocked (o : option result) : Prop := exists r, o = Some (Ok r) /\ rs_type r = BLOCKED.

Section Monotone.
Variable glob : str -> str -> bool.
Variable cidr_contains : str -> option ip -> bool.
Variable ip_string : option ip -> str.
Variable cfg : blk_cfg.
Variable h : handler.
Variable iter : nat -> list (str * list str).
Variable fq : str -> list ip.
Variable disabled : list str.

Notation blocking allow deny := (blocking_resolve glob cidr_contains ip_string allow deny cfg h iter fq disabled).

Lemma lookup_some on lookup n gs : lookup_ok on lookup -> (lookup n gs = [] <-> forall g, In g gs -> ~ on g n).
Proof.
  intros H. specialize (H n gs). destruct H as [_ H]. split.
  - intros E g Hg Ho. assert (In g (lookup n gs)) as Hi by (apply H; auto). rewrite E in Hi. destruct Hi.
  - intros Hn. destruct (lookup n gs) as [|g l] eqn:E; [reflexivity|]. exfalso. assert (In g gs /\ on g n) as [A B] by (apply H; now left). exact (Hn g A B).
Qed.

Lemma matches_mono on on' m m' groups n : lookup_ok on m -> lookup_ok on' m' -> no_more_entries on on' ->
  matches m' groups n = [] -> matches m groups n = [].
Proof.
  intros H H' Hs. unfold matches. destruct groups as [|g groups]; [reflexivity|]. rewrite (lookup_some _ _ _ _ H), (lookup_some _ _ _ _ H').
  intros A g' Hg Ho. exact (A g' Hg (Hs _ _ Ho)).
Qed.

(** More entries on deny lists: what was blocked stays blocked. *)
Theorem C174_deny_more : forall allow deny deny' on_deny on_deny' req next,
  lookup_ok on_deny deny -> lookup_ok on_deny' deny' -> no_more_entries on_deny on_deny' -> m_question (req_msg req) <> [] ->
  told_blocked (exec (blocking allow deny req) next) -> told_blocked (exec (blocking allow deny' req) next).
Proof.
  intros allow deny deny' on_deny on_deny' req next H H' Hs Hq. unfold blocking_resolve.
  generalize (groups_to_check glob cidr_contains ip_string (iter 0) iter fq disabled req). intros groups.
  unfold resolve_groups. cbv zeta.
  set (go d := Next req (fun r => match r with
      | Ok resp => match groups, rs_msg resp with
                   | _ :: _, Some m => match screen ip_string allow d groups (m_answer m) with
                                       | Some reason => match m_question (req_msg req) with
                                                        | q :: _ => Done (Ok (handle_blocked h req q reason))
                                                        | [] => Crash
                                                        end
                                       | None => Done r
                                       end
                   | _, _ => Done r
                   end
      | Err _ => Done r
      end)).
  assert (told_blocked (exec (go deny) next) -> told_blocked (exec (go deny') next)) as Hgo.
  { unfold go. cbn [exec]. destruct (next req) as [[x|x]|]; auto. destruct groups as [|g gs]; auto. destruct (rs_msg x) as [m|]; auto.
    assert (forall ans, screen ip_string allow deny (g :: gs) ans <> None -> screen ip_string allow deny' (g :: gs) ans <> None) as Hsc.
    { induction ans as [|r ans IH]; cbn [screen]; [auto|]. destruct (entry_to_check ip_string r) as [e t]. destruct e as [|c e]; [exact IH|].
      destruct (matches allow (g :: gs) (c :: e)); [|exact IH].
      destruct (matches deny' (g :: gs) (c :: e)) eqn:E'; [|discriminate]. rewrite (matches_mono _ _ _ _ _ _ H H' Hs E'). exact IH. }
    specialize (Hsc (m_answer m)). destruct (m_question (req_msg req)) as [|q l]; [now elim Hq|].
    destruct (screen ip_string allow deny (g :: gs) (m_answer m)).
    - destruct (screen ip_string allow deny' (g :: gs) (m_answer m)); [|now elim Hsc]. intros _. eexists. split; reflexivity.
    - intros Hb. destruct (screen ip_string allow deny' (g :: gs) (m_answer m)); [eexists; split; reflexivity|exact Hb]. }
  destruct groups as [|g gs]; [exact Hgo|].
  assert (forall qs, match handle_denylist allow deny cfg h (g :: gs) req qs, handle_denylist allow deny' cfg h (g :: gs) req qs with
                     | Some p, Some p' => p' = p \/ told_blocked (exec p' next)
                     | Some p, None => False
                     | None, Some p' => told_blocked (exec p' next)
                     | None, None => True
                     end) as Hd.
  { induction qs as [|q qs IH]; cbn [handle_denylist]; [exact I|]. cbv zeta. destruct (matches allow (g :: gs) _); [|now left].
    destruct (has_allowlist_only _ _); [now left|]. destruct (matches deny' (g :: gs) (extract_domain q)) eqn:E'.
    - rewrite (matches_mono _ _ _ _ _ _ H H' Hs E'). exact IH.
    - destruct (matches deny (g :: gs) (extract_domain q)); [destruct (handle_denylist _ _ _ _ _ _ _); [right|]|right]; eexists; split; reflexivity. }
  specialize (Hd (m_question (req_msg req))).
  destruct (handle_denylist allow deny cfg h (g :: gs) req (m_question (req_msg req))) as [p|];
    destruct (handle_denylist allow deny' cfg h (g :: gs) req (m_question (req_msg req))) as [p'|].
  - destruct Hd as [->|Hd]; auto.
  - destruct Hd.
  - auto.
  - exact Hgo.
Qed.

(** More entries on allow lists: whoever got an answer gets the same answer. *)
Theorem C174_allow_more : forall allow allow' deny on_allow on_allow' req next r,
  lookup_ok on_allow allow -> lookup_ok on_allow' allow' -> no_more_entries on_allow on_allow' ->
  exec (blocking allow deny req) next = Some (Ok r) -> rs_type r <> BLOCKED ->
  exec (blocking allow' deny req) next = Some (Ok r).
Proof.
  intros allow allow' deny on_allow on_allow' req next r H H' Hs. unfold blocking_resolve.
  generalize (groups_to_check glob cidr_contains ip_string (iter 0) iter fq disabled req). intros groups.
  unfold resolve_groups. cbv zeta.
  set (go a := Next req (fun r => match r with
      | Ok resp => match groups, rs_msg resp with
                   | _ :: _, Some m => match screen ip_string a deny groups (m_answer m) with
                                       | Some reason => match m_question (req_msg req) with
                                                        | q :: _ => Done (Ok (handle_blocked h req q reason))
                                                        | [] => Crash
                                                        end
                                       | None => Done r
                                       end
                   | _, _ => Done r
                   end
      | Err _ => Done r
      end)).
  assert (exec (go allow) next = Some (Ok r) -> rs_type r <> BLOCKED -> next req = Some (Ok r) /\ exec (go allow') next = Some (Ok r)) as Hgo.
  { unfold go. cbn [exec]. destruct (next req) as [[x|x]|]; try discriminate. destruct groups as [|g gs]; [cbn [exec]; auto|]. destruct (rs_msg x) as [m|]; [|cbn [exec]; auto].
    assert (forall ans, screen ip_string allow deny (g :: gs) ans = None -> screen ip_string allow' deny (g :: gs) ans = None) as Hsc.
    { induction ans as [|y ans IH]; cbn [screen]; [auto|]. destruct (entry_to_check ip_string y) as [e t]. destruct e as [|c e]; [exact IH|].
      destruct (matches allow' (g :: gs) (c :: e)) eqn:E'.
      - rewrite (matches_mono _ _ _ _ _ _ H H' Hs E'). destruct (matches deny _ _); [exact IH|auto].
      - destruct (matches allow (g :: gs) (c :: e)); [destruct (matches deny (g :: gs) (c :: e)); [exact IH|discriminate]|exact IH]. }
    specialize (Hsc (m_answer m)). destruct (screen ip_string allow deny (g :: gs) (m_answer m)).
    - destruct (m_question (req_msg req)); [discriminate|]. cbn [exec]. intros [= <-] Hb. now elim Hb.
    - rewrite Hsc by reflexivity. cbn [exec]. auto. }
  destruct groups as [|g gs]; [intros A B; exact (proj2 (Hgo A B))|].
  assert (forall qs, match handle_denylist allow deny cfg h (g :: gs) req qs, handle_denylist allow' deny cfg h (g :: gs) req qs with
                     | Some p, Some p' => p' = p \/ p' = pass req
                     | Some p, None => told_blocked (exec p next)
                     | None, Some p' => p' = pass req
                     | None, None => True
                     end) as Hd.
  { induction qs as [|q qs IH]; cbn [handle_denylist]; [exact I|]. cbv zeta. destruct (matches allow' (g :: gs) (extract_domain q)) eqn:E'.
    - rewrite (matches_mono _ _ _ _ _ _ H H' Hs E'). destruct (has_allowlist_only _ _); [now left|]. destruct (matches deny _ _); [exact IH|now left].
    - destruct (matches allow (g :: gs) (extract_domain q)); [|now left]. destruct (has_allowlist_only _ _); [now right|].
      destruct (matches deny _ _); [destruct (handle_denylist _ _ _ _ _ _ _); [now right|reflexivity]|now right]. }
  assert (forall qs p, handle_denylist allow deny cfg h (g :: gs) req qs = Some p -> p = pass req \/ exists x, p = Done (Ok x) /\ rs_type x = BLOCKED) as Hp.
  { induction qs as [|q qs IH]; intros p; cbn [handle_denylist]; [discriminate|]. cbv zeta.
    destruct (matches allow _ _); [|intros [= <-]; now left]. destruct (has_allowlist_only _ _); [intros [= <-]; right; eexists; split; reflexivity|].
    destruct (matches deny _ _); [apply IH|intros [= <-]; right; eexists; split; reflexivity]. }
  specialize (Hd (m_question (req_msg req))). specialize (Hp (m_question (req_msg req))).
  destruct (handle_denylist allow deny cfg h (g :: gs) req (m_question (req_msg req))) as [p|].
  - intros He Hb. destruct (Hp p eq_refl) as [->|[x [-> Hx]]]; [|cbn in He; injection He as <-; contradiction].
    destruct (handle_denylist allow' deny cfg h (g :: gs) req (m_question (req_msg req))) as [p'|].
    + destruct Hd as [->| ->]; exact He.
    + exfalso. destruct Hd as [x [Hx Hy]]. rewrite He in Hx. congruence.
  - intros He Hb. destruct (Hgo He Hb) as [A B].
    destruct (handle_denylist allow' deny cfg h (g :: gs) req (m_question (req_msg req))) as [p'|]; [|exact B].
    subst p'. rewrite exec_pass. exact A.
Qed.
End Monotone.
Print Assumptions C174_deny_more.
Print Assumptions C174_allow_more.

(** ** A case: an entry more on a deny list, an entry more on an allow list *)
Definition mo_deny_b (g n : str) : bool := ex_deny_b g n || (str_eqb g $"ads" && str_eqb n $"new.com").
Definition mo_allow_b (g n : str) : bool := ex_allow_b g n || (str_eqb g $"ads" && str_eqb n $"ads.com").
Definition mo_run (allow deny : str -> str -> bool) (cfg : blk_cfg) (names : list str) (n : str) : option result :=
  exec (blocking_resolve ex_glob ex_cidr ex_ipstr (ex_lookup allow) (ex_lookup deny) cfg (HZeroIP 60) ex_iter ex_fq [] (ex_req ex_desktop names n 1))
    (ex_answer [ex_a $"x.org." [1; 1; 1; 1]%N]).
Lemma mo_lookup f : lookup_ok (fun g n => f g n = true) (ex_lookup f).
Proof. apply ex_lookup_ok. reflexivity. Qed.

Example C174_case :
  no_more_entries (fun g n => ex_deny_b g n = true) (fun g n => mo_deny_b g n = true) /\
  no_more_entries (fun g n => ex_allow_b g n = true) (fun g n => mo_allow_b g n = true) /\
  told_blocked (mo_run ex_allow_b ex_deny_b ex_cfg [] $"ads.com") /\ told_blocked (mo_run ex_allow_b mo_deny_b ex_cfg [] $"ads.com") /\
  ~ told_blocked (mo_run ex_allow_b ex_deny_b ex_cfg [] $"new.com") /\ told_blocked (mo_run ex_allow_b mo_deny_b ex_cfg [] $"new.com") /\
  mo_run mo_allow_b ex_deny_b ex_cfg [] $"new.com" = mo_run ex_allow_b ex_deny_b ex_cfg [] $"new.com" /\
  ~ told_blocked (mo_run mo_allow_b ex_deny_b ex_cfg [] $"ads.com").
Proof.
  split; [intros g n E; unfold mo_deny_b; now rewrite E|]. split; [intros g n E; unfold mo_allow_b; now rewrite E|].
  split; [eexists; split; vm_compute; reflexivity|]. split; [eexists; split; vm_compute; reflexivity|].
  split; [intros [r [E B]]; vm_compute in E; injection E as <-; discriminate B|].
  split; [eexists; split; vm_compute; reflexivity|]. split; [vm_compute; reflexivity|].
  intros [r [E B]]; vm_compute in E; injection E as <-; discriminate B.
Qed.

(** ** A further list is another matter.  A first deny list, even without any entry, lets a group restricted to its allow lists reach everything. *)
Definition mo_more_deny : blk_cfg :=
  {| bc_deny := ($"school", [$"empty.txt"]) :: bc_deny ex_cfg; bc_allow := bc_allow ex_cfg; bc_clients := bc_clients ex_cfg; bc_type := bc_type ex_cfg; bc_ttl := bc_ttl ex_cfg |}.
Theorem C174_first_deny_list_refuted : exists cfg cfg' e allow deny glob cidr ips h iter fq req next,
  bc_deny cfg' = e :: bc_deny cfg /\ bc_allow cfg' = bc_allow cfg /\ bc_clients cfg' = bc_clients cfg /\ bc_type cfg' = bc_type cfg /\ bc_ttl cfg' = bc_ttl cfg /\
  (exists on_allow on_deny, lookup_ok on_allow allow /\ lookup_ok on_deny deny) /\
  told_blocked (exec (blocking_resolve glob cidr ips allow deny cfg h iter fq [] req) next) /\
  ~ told_blocked (exec (blocking_resolve glob cidr ips allow deny cfg' h iter fq [] req) next).
Proof.
  exists ex_cfg, mo_more_deny, ($"school", [$"empty.txt"]), (ex_lookup ex_allow_b), (ex_lookup ex_deny_b), ex_glob, ex_cidr, ex_ipstr, (HZeroIP 60), ex_iter, ex_fq,
    (ex_req ex_desktop [$"kidpc"] $"any.com" 1), (ex_answer [ex_a $"x.org." [1; 1; 1; 1]%N]).
  do 5 (split; [reflexivity|]). split; [eexists; eexists; split; apply mo_lookup|].
  split; [eexists; split; vm_compute; reflexivity|]. intros [r [E B]]; vm_compute in E; injection E as <-; discriminate B.
Qed.

(** A first allow list blocks everything else for a group without deny lists. *)
Definition mo_no_allow : blk_cfg :=
  {| bc_deny := bc_deny ex_cfg; bc_allow := [($"ads", [$"ok.txt"])]; bc_clients := bc_clients ex_cfg; bc_type := bc_type ex_cfg; bc_ttl := bc_ttl ex_cfg |}.
Theorem C174_first_allow_list_refuted : exists cfg cfg' e allow deny glob cidr ips h iter fq req next r,
  bc_deny cfg' = bc_deny cfg /\ bc_allow cfg' = bc_allow cfg ++ [e] /\ bc_clients cfg' = bc_clients cfg /\ bc_type cfg' = bc_type cfg /\ bc_ttl cfg' = bc_ttl cfg /\
  (exists on_allow on_deny, lookup_ok on_allow allow /\ lookup_ok on_deny deny) /\
  exec (blocking_resolve glob cidr ips allow deny cfg h iter fq [] req) next = Some (Ok r) /\ rs_type r = RESOLVED /\
  told_blocked (exec (blocking_resolve glob cidr ips allow deny cfg' h iter fq [] req) next).
Proof.
  exists mo_no_allow, ex_cfg, ($"school", [$"school.txt"]), (ex_lookup ex_allow_b), (ex_lookup ex_deny_b), ex_glob, ex_cidr, ex_ipstr, (HZeroIP 60), ex_iter, ex_fq,
    (ex_req ex_desktop [$"kidpc"] $"any.com" 1), (ex_answer [ex_a $"x.org." [1; 1; 1; 1]%N]). eexists.
  do 5 (split; [reflexivity|]). split; [eexists; eexists; split; apply mo_lookup|].
  split; [vm_compute; reflexivity|]. split; [reflexivity|]. eexists; split; vm_compute; reflexivity.
Qed.
Print Assumptions C174_first_deny_list_refuted.
Print Assumptions C174_first_allow_list_refuted.
