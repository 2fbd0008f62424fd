(** Disabling groups blocks nothing that was answered before, unless allow lists are disabled with them (C176). *)
From Coq Require Import String Ascii List Arith Bool NArith ZArith Lia Permutation Sorted.
From Verif Require Import Str StrFacts StringCache StringCacheSpec Dns Resolver ResolverFacts Blocking BlockingSpec BlockingProofs BlockingProps MonotoneProps.
Import ListNotations.

Section Disable.
Variable glob : str -> str -> bool.
Variable cidr_contains : str -> option ip -> bool.
Variable ip_string : option ip -> str.
Variable allow deny : str -> list str -> list str.
Variable on_allow on_deny : str -> str -> Prop.
Variable cfg : blk_cfg.
Variable h : handler.
Variable iter : nat -> list (str * list str).
Variable fq : str -> list ip.

Notation blocking disabled := (blocking_resolve glob cidr_contains ip_string allow deny cfg h iter fq disabled).

(** The groups of [disabled'] that count for the client have no entries on allow lists. *)
Definition nothing_allowed (disabled disabled' : list str) (req : request) : Prop :=
  forall g n, applies glob cidr_contains ip_string cfg fq disabled req g -> In g disabled' -> ~ on_allow g n.

Lemma matches_nil on l gs n : lookup_ok on l -> (matches l gs n = [] <-> forall g, In g gs -> ~ on g n).
Proof.
  intros H. unfold matches. destruct gs as [|g gs]; [split; [intros _ g []|reflexivity]|]. apply (lookup_some _ _ _ _ H).
Qed.

(** Whoever got an answer gets the same answer with more groups disabled. *)
Theorem C176_disable_partial : forall disabled disabled' req next r,
  blocking_setting allow deny on_allow on_deny cfg iter -> (forall g, In g disabled -> In g disabled') -> nothing_allowed disabled disabled' req ->
  exec (blocking disabled req) next = Some (Ok r) -> rs_type r <> BLOCKED ->
  exec (blocking disabled' req) next = Some (Ok r).
Proof.
  intros disabled disabled' req next r (La & Ld & Nd & It) Hsub Hna. unfold blocking_resolve.
  pose proof (groups_to_check_iff glob cidr_contains ip_string cfg iter It fq disabled req) as G.
  pose proof (groups_to_check_iff glob cidr_contains ip_string cfg iter It fq disabled' req) as G'.
  revert G G'. generalize (groups_to_check glob cidr_contains ip_string (iter 0) iter fq disabled req) (groups_to_check glob cidr_contains ip_string (iter 0) iter fq disabled' req).
  intros gs gs' G G'.
  assert (forall g, In g gs' -> In g gs) as Hi.
  { intros g Hg. apply G. apply G' in Hg as [A B]. split; [exact A|]. intros C. apply B, Hsub, C. }
  assert (forall g, In g gs -> In g gs' \/ In g disabled') as Hj.
  { intros g Hg. destruct (in_dec (list_eq_dec ascii_dec) g disabled') as [D|D]; [now right|left]. apply G'. apply G in Hg as [A _]. split; auto. }
  assert (forall n, matches allow gs' n = [] -> matches allow gs n = []) as Ma.
  { intros n. rewrite !(matches_nil _ _ _ _ La). intros A g Hg. destruct (Hj g Hg) as [B|B]; [exact (A g B)|]. apply Hna; [apply G, Hg|exact B]. }
  assert (forall n, matches allow gs n = [] -> matches allow gs' n = []) as Ma'.
  { intros n. rewrite !(matches_nil _ _ _ _ La). intros A g Hg. exact (A g (Hi g Hg)). }
  assert (forall n, matches deny gs n = [] -> matches deny gs' n = []) as Md.
  { intros n. rewrite !(matches_nil _ _ _ _ Ld). intros A g Hg. exact (A g (Hi g Hg)). }
  assert (has_allowlist_only cfg gs = false -> has_allowlist_only cfg gs' = false) as Mo.
  { intros E. destruct (has_allowlist_only cfg gs') eqn:E'; [|reflexivity]. unfold has_allowlist_only in *. apply existsb_exists in E' as [g [A B]].
    assert (existsb (allowlist_only cfg) gs = true) as F by (apply existsb_exists; exists g; auto). congruence. }
  assert (forall ans, screen ip_string allow deny gs ans = None -> screen ip_string allow deny gs' ans = None) as Hsc.
  { induction ans as [|y ans IH]; cbn [screen]; [auto|]. destruct (entry_to_check ip_string y) as [e t]. destruct e as [|c e]; [exact IH|].
    destruct (matches allow gs (c :: e)) eqn:E.
    - rewrite (Ma' _ E). destruct (matches deny gs (c :: e)) eqn:F; [rewrite (Md _ F); exact IH|discriminate].
    - destruct (matches allow gs' (c :: e)) eqn:E'; [rewrite (Ma _ E') in E; discriminate|exact IH]. }
  assert (forall qs, match handle_denylist allow deny cfg h gs req qs with
                     | Some p => p = pass req /\ handle_denylist allow deny cfg h gs' req qs = Some (pass req) \/ exists x, p = Done (Ok x) /\ rs_type x = BLOCKED
                     | None => handle_denylist allow deny cfg h gs' req qs = None
                     end) as Hd.
  { induction qs as [|q qs IH]; cbn [handle_denylist]; [reflexivity|]. cbv zeta. destruct (matches allow gs (extract_domain q)) eqn:E.
    - rewrite (Ma' _ E). destruct (has_allowlist_only cfg gs); [right; eexists; split; reflexivity|]. rewrite Mo by reflexivity.
      destruct (matches deny gs (extract_domain q)) eqn:F; [rewrite (Md _ F); exact IH|right; eexists; split; reflexivity].
    - destruct (matches allow gs' (extract_domain q)) eqn:E'; [rewrite (Ma _ E') in E; discriminate|left; split; reflexivity]. }
  specialize (Hd (m_question (req_msg req))). unfold resolve_groups. cbv zeta.
  assert (gs = [] -> gs' = []) as Hnil. { intros ->. destruct gs' as [|g l]; [reflexivity|]. elim (Hi g (or_introl eq_refl)). }
  intros He Hb.
  assert (next req = Some (Ok r) /\ (gs = [] \/ handle_denylist allow deny cfg h gs req (m_question (req_msg req)) = Some (pass req) \/
            handle_denylist allow deny cfg h gs req (m_question (req_msg req)) = None /\ forall m, rs_msg r = Some m -> screen ip_string allow deny gs (m_answer m) = None)) as [Hn Hc].
  { destruct gs as [|g l].
    - cbn [exec] in He. destruct (next req) as [[x|x]|]; try discriminate. cbn [exec] in He. injection He as <-. auto.
    - destruct (handle_denylist allow deny cfg h (g :: l) req (m_question (req_msg req))) as [p|].
      + destruct Hd as [[-> _]|[x [-> Hx]]]; [|cbn in He; injection He as <-; contradiction]. rewrite exec_pass in He. auto.
      + cbn [exec] in He. destruct (next req) as [[x|x]|]; try discriminate. destruct (rs_msg x) as [m|] eqn:Em.
        * destruct (screen ip_string allow deny (g :: l) (m_answer m)) eqn:Es.
          -- destruct (m_question (req_msg req)); [discriminate|]. cbn [exec] in He. injection He as <-. now elim Hb.
          -- cbn [exec] in He. injection He as <-. split; [reflexivity|]. right. right. split; [reflexivity|]. intros m' A. rewrite Em in A. now injection A as <-.
        * cbn [exec] in He. injection He as <-. split; [reflexivity|]. right. right. split; [reflexivity|]. intros m' A. rewrite Em in A. discriminate. }
  clear He. destruct gs' as [|g' l'].
  - cbn [exec]. rewrite Hn. reflexivity.
  - destruct Hc as [Hc|[Hc|[Hc Hs]]].
    + discriminate (Hnil Hc).
    + rewrite Hc in Hd. destruct Hd as [[_ Hd]|[x [Hx _]]]; [|discriminate Hx].
      rewrite Hd. rewrite exec_pass. exact Hn.
    + rewrite Hc in Hd. rewrite Hd. cbn [exec]. rewrite Hn. destruct (rs_msg r) as [m|] eqn:Em; [|reflexivity].
      rewrite (Hsc _ (Hs m eq_refl)). reflexivity.
Qed.
End Disable.
Print Assumptions C176_disable_partial.

(** ** A case: the phone is in the groups "adult" and "ads"; "adult" has no allow list *)
Definition di_phone := Some (IP4 [1; 2; 3; 4]%N).
Definition di_deny_b (g n : str) : bool := ex_deny_b g n || (str_eqb g $"adult" && str_eqb n $"ok.com").
Definition di_run (disabled : list str) (n : str) : option result :=
  exec (blocking_resolve ex_glob ex_cidr ex_ipstr (ex_lookup ex_allow_b) (ex_lookup di_deny_b) ex_cfg (HZeroIP 60) ex_iter ex_fq disabled (ex_req di_phone [] n 1))
    (ex_answer [ex_a $"x.org." [1; 1; 1; 1]%N]).
Lemma di_setting : blocking_setting (ex_lookup ex_allow_b) (ex_lookup di_deny_b) (fun g n => ex_allow_b g n = true) (fun g n => di_deny_b g n = true) ex_cfg ex_iter.
Proof.
  split; [apply mo_lookup|]. split; [apply mo_lookup|]. split; [|intros i; apply Permutation_refl]. repeat constructor; simpl; intuition discriminate.
Qed.

Example C176_case :
  nothing_allowed ex_glob ex_cidr ex_ipstr (fun g n => ex_allow_b g n = true) ex_cfg ex_fq [] [$"adult"] (ex_req di_phone [] $"ok.com" 1) /\
  ~ told_blocked (di_run [] $"ok.com") /\ di_run [$"adult"] $"ok.com" = di_run [] $"ok.com" /\
  told_blocked (di_run [] $"adult.com") /\ ~ told_blocked (di_run [$"adult"] $"adult.com") /\ told_blocked (di_run [$"adult"] $"ads.com").
Proof.
  split. { intros g n _ [<-|[]]. unfold ex_allow_b. cbn. discriminate. }
  split; [intros [r [E B]]; vm_compute in E; injection E as <-; discriminate B|]. split; [vm_compute; reflexivity|].
  split; [eexists; split; vm_compute; reflexivity|]. split; [intros [r [E B]]; vm_compute in E; injection E as <-; discriminate B|].
  eexists; split; vm_compute; reflexivity.
Qed.

(** ** With the allow list of a disabled group goes what it let through: disabling "ads" blocks ok.com. *)
Theorem C176_disable_refuted : exists glob cidr ips allow deny on_allow on_deny cfg h iter fq disabled' req next r,
  blocking_setting allow deny on_allow on_deny cfg iter /\
  exec (blocking_resolve glob cidr ips allow deny cfg h iter fq [] req) next = Some (Ok r) /\ rs_type r = RESOLVED /\
  told_blocked (exec (blocking_resolve glob cidr ips allow deny cfg h iter fq disabled' req) next).
Proof.
  exists ex_glob, ex_cidr, ex_ipstr, (ex_lookup ex_allow_b), (ex_lookup di_deny_b), (fun g n => ex_allow_b g n = true), (fun g n => di_deny_b g n = true), ex_cfg, (HZeroIP 60), ex_iter, ex_fq, [$"ads"],
    (ex_req di_phone [] $"ok.com" 1), (ex_answer [ex_a $"x.org." [1; 1; 1; 1]%N]). eexists.
  split; [exact di_setting|]. split; [vm_compute; reflexivity|]. split; [reflexivity|]. eexists; split; vm_compute; reflexivity.
Qed.
Print Assumptions C176_disable_refuted.
