(** The lists cannot be evaded by spelling a name differently (C177). *)
From Coq Require Import String Ascii List Arith Bool NArith ZArith Lia Permutation.
From Verif Require Import Str StrFacts StringCache StringCacheSpec Dns Resolver ResolverFacts Blocking BlockingSpec BlockingProofs BlockingProps MonotoneProps Custom Conditional.
Import ListNotations.

(** Two spellings of one name: the same but for letter case and a final dot. *)
Definition same_name (a b : str) : Prop := exists n, plain_name a n /\ plain_name b n.

(** Two records that say the same: one address, one alias in any spelling, or data that is no address and no alias. *)
Inductive same_record : rr -> rr -> Prop :=
| same_a r r' a : rr_data r = DA a -> rr_data r' = DA a -> same_record r r'
| same_aaaa r r' a : rr_data r = DAAAA a -> rr_data r' = DAAAA a -> same_record r r'
| same_alias r r' t t' : rr_data r = DCNAME t -> rr_data r' = DCNAME t' -> same_name t t' -> same_record r r'
| same_other r r' : rr_data r' = rr_data r -> same_record r r'.

(** Two queries of one client that ask the same but for the spelling; everything else in the messages may differ. *)
Definition same_query (req req' : request) : Prop :=
  req_ip req' = req_ip req /\ req_names req' = req_names req /\
  Forall2 (fun q q' => same_name (q_name q) (q_name q')) (m_question (req_msg req)) (m_question (req_msg req')).

(** Either both are blocked for the same reason, or both get the answer from behind. *)
Definition alike (x x' r r' : response) : Prop :=
  (rs_type r = BLOCKED /\ rs_type r' = BLOCKED /\ rs_reason r' = rs_reason r) \/ (r = x /\ r' = x').

Section Spelling.
Variable glob : str -> str -> bool.
Variable cidr_contains : str -> option ip -> bool.
Variable ip_string : option ip -> str.
Variable allow deny : str -> list str -> list str.
Variable cfg : blk_cfg.
Variable h : handler.
Variable iter : nat -> list (str * list str).
Variable fq : str -> list ip.
Variable disabled : list str.

Notation blocking := (blocking_resolve glob cidr_contains ip_string allow deny cfg h iter fq disabled).

Lemma same_domain a b : same_name a b -> extract_domain_only b = extract_domain_only a.
Proof. intros [n [A B]]. apply plain_name_iff in A, B. congruence. Qed.

Lemma same_entry r r' : same_record r r' -> entry_to_check ip_string r' = entry_to_check ip_string r.
Proof.
  unfold entry_to_check. intros [r1 r1' a A B|r1 r1' a A B|r1 r1' t t' A B C|r1 r1' A]; [now rewrite A, B|now rewrite A, B| |now rewrite A].
  rewrite A, B. now rewrite (same_domain _ _ C).
Qed.

Lemma screen_alike gs ans ans' : Forall2 same_record ans ans' -> screen ip_string allow deny gs ans' = screen ip_string allow deny gs ans.
Proof. induction 1 as [|r r' ans ans' Hr _ IH]; cbn [screen]; [reflexivity|]. now rewrite (same_entry _ _ Hr), IH. Qed.

Lemma denylist_alike gs req req' qs qs' : Forall2 (fun q q' => same_name (q_name q) (q_name q')) qs qs' ->
  match handle_denylist allow deny cfg h gs req qs, handle_denylist allow deny cfg h gs req' qs' with
  | None, None => True
  | Some p, Some p' => (p = pass req /\ p' = pass req') \/
      exists r r', p = Done (Ok r) /\ p' = Done (Ok r') /\ rs_type r = BLOCKED /\ rs_type r' = BLOCKED /\ rs_reason r' = rs_reason r
  | _, _ => False
  end.
Proof.
  induction 1 as [|q q' qs qs' Hq _ IH]; cbn [handle_denylist]; [exact I|]. cbv zeta. unfold extract_domain. rewrite (same_domain _ _ Hq).
  destruct (matches allow gs (extract_domain_only (q_name q))); [|left; split; reflexivity].
  destruct (has_allowlist_only cfg gs); [right; do 2 eexists; do 4 (split; [reflexivity|]); reflexivity|].
  destruct (matches deny gs (extract_domain_only (q_name q))); [exact IH|right; do 2 eexists; do 4 (split; [reflexivity|]); reflexivity].
Qed.

Theorem C177_spelling : forall req req' next next' x x' m m',
  same_query req req' -> m_question (req_msg req) <> [] ->
  next req = Some (Ok x) -> next' req' = Some (Ok x') -> rs_msg x = Some m -> rs_msg x' = Some m' -> Forall2 same_record (m_answer m) (m_answer m') ->
  (exists r r', exec (blocking req) next = Some (Ok r) /\ exec (blocking req') next' = Some (Ok r') /\ alike x x' r r') /\
  (forwarded (blocking req) next = [] <-> forwarded (blocking req') next' = []).
Proof.
  intros req req' next next' x x' m m' (Hi & Hn & Hq) Hne Hx Hx' Hm Hm' Ha. unfold blocking_resolve.
  assert (groups_to_check glob cidr_contains ip_string (iter 0) iter fq disabled req' = groups_to_check glob cidr_contains ip_string (iter 0) iter fq disabled req) as ->
    by (unfold groups_to_check; now rewrite Hi, Hn).
  generalize (groups_to_check glob cidr_contains ip_string (iter 0) iter fq disabled req). intros gs.
  unfold resolve_groups. cbv zeta. destruct gs as [|g gs].
  - cbn [exec forwarded]. rewrite Hx, Hx'. cbn [exec forwarded]. split; [|split; discriminate]. exists x, x'. split; [reflexivity|]. split; [reflexivity|]. right. split; reflexivity.
  - pose proof (denylist_alike (g :: gs) req req' _ _ Hq) as Hd.
    destruct (handle_denylist allow deny cfg h (g :: gs) req (m_question (req_msg req))) as [p|],
             (handle_denylist allow deny cfg h (g :: gs) req' (m_question (req_msg req'))) as [p'|]; try (destruct Hd; fail).
    + destruct Hd as [[-> ->]|(r & r' & -> & -> & A & B & C)].
      * rewrite !exec_pass, Hx, Hx'. cbn [forwarded pass]. split; [|split; discriminate]. exists x, x'. split; [reflexivity|]. split; [reflexivity|]. right. split; reflexivity.
      * cbn [exec forwarded]. split; [|split; reflexivity]. exists r, r'. split; [reflexivity|]. split; [reflexivity|]. left. auto.
    + cbn [exec forwarded]. split; [|split; discriminate]. rewrite Hx, Hx', Hm, Hm', (screen_alike _ _ _ Ha).
      destruct (screen ip_string allow deny (g :: gs) (m_answer m)) as [reason|].
      * inversion Hq as [E|q q' l l' A B E E']; [now elim Hne|]. cbn [exec]. eexists. eexists. split; [reflexivity|]. split; [reflexivity|]. left. split; [reflexivity|]. split; reflexivity.
      * cbn [exec]. exists x, x'. split; [reflexivity|]. split; [reflexivity|]. right. split; reflexivity.
Qed.
End Spelling.
Print Assumptions C177_spelling.

(** ** A case: a denied name in two spellings, and an answer with a denied alias in two spellings *)
Definition sp_run (n : str) (ans : list rr) : option result :=
  exec (blocking_resolve ex_glob ex_cidr ex_ipstr (ex_lookup ex_allow_b) (ex_lookup ex_deny_b) ex_cfg (HZeroIP 60) ex_iter ex_fq [] (ex_req ex_desktop [] n 1)) (ex_answer ans).
Example C177_case :
  same_query (ex_req ex_desktop [] $"aDs.cOm" 1) (ex_req ex_desktop [] $"ADS.com." 28) /\
  same_record (ex_cname $"x.org." $"Ads.com.") (ex_cname $"X.org." $"aDS.com") /\
  (exists r r', sp_run $"aDs.cOm" [] = Some (Ok r) /\ sp_run $"ADS.com." [] = Some (Ok r') /\ rs_reason r = $"BLOCKED (ads)" /\ rs_reason r' = rs_reason r) /\
  (exists r r', sp_run $"x.org" [ex_cname $"x.org." $"Ads.com."] = Some (Ok r) /\ sp_run $"X.ORG." [ex_cname $"X.org." $"aDS.com"] = Some (Ok r') /\
     rs_reason r = $"BLOCKED CNAME (ads)" /\ rs_reason r' = rs_reason r).
Proof.
  assert (forall a b, extract_domain_only a = extract_domain_only b -> same_name a b) as Hs.
  { intros a b E. exists (extract_domain_only a). split; apply plain_name_iff; auto. }
  split; [split; [reflexivity|split; [reflexivity|]]; constructor; [apply Hs; vm_compute; reflexivity|constructor]|].
  split; [eapply same_alias; [reflexivity|reflexivity|apply Hs; vm_compute; reflexivity]|].
  split; eexists; eexists; (split; [vm_compute; reflexivity|]); (split; [vm_compute; reflexivity|]); split; vm_compute; reflexivity.
Qed.

(** Zones with their own upstreams: all spellings of a name go to the same upstream, which sees the same name, or all go on. *)
Theorem C177_zone : forall (U : Type) (mapping : list (str * U)) req req' q q' qs qs',
  m_question (req_msg req) = q :: qs -> m_question (req_msg req') = q' :: qs' -> same_name (q_name q) (q_name q') ->
  (exists u r r' n, cond_dest mapping req = Some (ToUpstream u r) /\ cond_dest mapping req' = Some (ToUpstream u r') /\
     (exists t c, m_question (req_msg r) = {| q_name := n; q_type := t; q_class := c |} :: qs) /\
     (exists t c, m_question (req_msg r') = {| q_name := n; q_type := t; q_class := c |} :: qs')) \/
  (cond_dest mapping req = Some (ToNext req) /\ cond_dest mapping req' = Some (ToNext req')).
Proof.
  intros U mapping req req' q q' qs qs' Hq Hq' Hs. unfold cond_dest. destruct (cond_table mapping) as [|e table]; [right; split; reflexivity|].
  rewrite Hq, Hq'. cbv zeta. unfold extract_domain. rewrite (same_domain _ _ Hs).
  assert (forall (u : U) d, exists u0 r r' n, Some (ToUpstream u (set_first_name d req)) = Some (ToUpstream u0 r) /\ Some (ToUpstream u (set_first_name d req')) = Some (ToUpstream u0 r') /\
     (exists t c, m_question (req_msg r) = {| q_name := n; q_type := t; q_class := c |} :: qs) /\
     (exists t c, m_question (req_msg r') = {| q_name := n; q_type := t; q_class := c |} :: qs')) as Hu.
  { intros u d. exists u, (set_first_name d req), (set_first_name d req'), d. split; [reflexivity|]. split; [reflexivity|].
    unfold set_first_name. rewrite Hq, Hq'. split; do 2 eexists; reflexivity. }
  destruct (contains_byte dot _).
  - destruct (first_mapped _ _) as [u|]; [left; apply Hu|right; split; reflexivity].
  - destruct (mget str_eqb $"." (e :: table)) as [u|]; [left; apply Hu|right; split; reflexivity].
Qed.
Print Assumptions C177_zone.
Example C177_zone_case :
  let go n := match cond_dest [($"Fritz.box", 1); ($"lan", 2)] (ex_req ex_desktop [] n 1) with
              | Some (ToUpstream u r) => Some (u, map q_name (m_question (req_msg r)))
              | _ => None
              end in
  go $"nas.FRITZ.box" = Some (1, [$"nas.fritz.box."]) /\ go $"NAS.fritz.Box." = Some (1, [$"nas.fritz.box."]) /\ go $"nas.box" = None.
Proof. vm_compute. split; [reflexivity|]. split; reflexivity. Qed.
