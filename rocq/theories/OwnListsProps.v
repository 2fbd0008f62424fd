(** Only the lists of the client's own groups count for it (C175). *)
From Coq Require Import String Ascii List Arith Bool NArith ZArith Lia Permutation Sorted.
From Verif Require Import Str StrFacts StringCache StringCacheSpec StringCacheProofs StringCacheProps Dns Resolver ResolverFacts Blocking BlockingSpec BlockingProofs BlockingProps.
Import ListNotations.

Section Own.
Variable glob : str -> str -> bool.
Variable cidr_contains : str -> option ip -> bool.
Variable ip_string : option ip -> str.
Variable h : handler.
Variable fq : str -> list ip.

(** Two sets of lists, of configurations, of orders in which maps are gone through, and of disabled groups. *)
Variable allow deny allow' deny' : str -> list str -> list str.
Variable on_allow on_deny on_allow' on_deny' : str -> str -> Prop.
Variable cfg cfg' : blk_cfg.
Variable iter iter' : nat -> list (str * list str).
Variable disabled disabled' : list str.

(** For the client of [req] the same groups count, and these have the same lists; all other groups, their lists and their clients may differ. *)
Definition same_for (req : request) : Prop :=
  (forall g, applies glob cidr_contains ip_string cfg fq disabled req g <-> applies glob cidr_contains ip_string cfg' fq disabled' req g) /\
  forall g, applies glob cidr_contains ip_string cfg fq disabled req g ->
    (allow_only cfg g <-> allow_only cfg' g) /\ forall n, (on_allow g n <-> on_allow' g n) /\ (on_deny g n <-> on_deny' g n).

Lemma lookup_same on on' l l' n gs gs' : lookup_ok on l -> lookup_ok on' l' -> (forall g, In g gs <-> In g gs') ->
  (forall g, In g gs -> (on g n <-> on' g n)) -> l n gs = l' n gs'.
Proof.
  intros H H' Hg Ho. destruct (H n gs) as [A B], (H' n gs') as [A' B']. 
  assert (forall k, StronglySorted bytes_lt k -> StronglySorted str_lt k) as Hk.
  { intros k Hl. induction Hl; constructor; auto. eapply Forall_impl; [|eassumption]. intros b. apply bytes_lt_str_lt. }
  apply strict_sorted_unique; [now apply Hk|now apply Hk|].
  intros x. rewrite B, B', Hg. split; intros [C D]; (split; [exact C|]); apply Hg in C; apply (Ho _ C); exact D.
Qed.

Lemma matches_same on on' l l' n gs gs' : lookup_ok on l -> lookup_ok on' l' -> (forall g, In g gs <-> In g gs') ->
  (forall g, In g gs -> (on g n <-> on' g n)) -> matches l gs n = matches l' gs' n.
Proof.
  intros H H' Hg Ho. pose proof (lookup_same on on' l l' n gs gs' H H' Hg Ho) as E. unfold matches.
  destruct gs as [|g gs], gs' as [|g' gs']; auto.
  - exfalso. apply (proj2 (Hg g')). now left.
  - exfalso. apply (proj1 (Hg g)). now left.
Qed.

Theorem C175_own_lists : forall req next,
  blocking_setting allow deny on_allow on_deny cfg iter -> blocking_setting allow' deny' on_allow' on_deny' cfg' iter' -> same_for req ->
  let p := blocking_resolve glob cidr_contains ip_string allow deny cfg h iter fq disabled req in
  let p' := blocking_resolve glob cidr_contains ip_string allow' deny' cfg' h iter' fq disabled' req in
  exec p next = exec p' next /\ forwarded p next = forwarded p' next.
Proof.
  intros req next (La & Ld & Nd & It) (La' & Ld' & Nd' & It') [Hg Hs]. cbv zeta. unfold blocking_resolve.
  pose proof (groups_to_check_iff glob cidr_contains ip_string cfg iter It fq disabled req) as G.
  pose proof (groups_to_check_iff glob cidr_contains ip_string cfg' iter' It' fq disabled' req) as G'.
  revert G G'. generalize (groups_to_check glob cidr_contains ip_string (iter 0) iter fq disabled req) (groups_to_check glob cidr_contains ip_string (iter' 0) iter' fq disabled' req).
  intros gs gs' G G'.
  assert (forall g, In g gs <-> In g gs') as Hgs by (intros g; rewrite G, G'; apply Hg).
  assert (forall n, matches allow gs n = matches allow' gs' n) as Ma.
  { intros n. apply (matches_same on_allow on_allow'); auto. intros g Hi. apply G in Hi. apply (proj2 (Hs g Hi) n). }
  assert (forall n, matches deny gs n = matches deny' gs' n) as Md.
  { intros n. apply (matches_same on_deny on_deny'); auto. intros g Hi. apply G in Hi. apply (proj2 (Hs g Hi) n). }
  assert (has_allowlist_only cfg gs = has_allowlist_only cfg' gs') as Mo.
  { apply eq_true_iff_eq. unfold has_allowlist_only. rewrite !existsb_exists. split; intros [g [A B]]; exists g.
    - split; [now apply Hgs|]. apply allowlist_only_iff; auto. apply allowlist_only_iff in B; auto. apply G in A. now apply (proj1 (Hs g A)).
    - assert (In g gs) as A' by now apply Hgs. split; [exact A'|]. apply allowlist_only_iff; auto. apply allowlist_only_iff in B; auto. apply G in A'. now apply (proj1 (Hs g A')). }
  assert (forall qs, handle_denylist allow deny cfg h gs req qs = handle_denylist allow' deny' cfg' h gs' req qs) as Hd.
  { induction qs as [|q qs IH]; cbn [handle_denylist]; [reflexivity|]. cbv zeta. now rewrite Ma, Md, Mo, IH. }
  assert (forall ans, screen ip_string allow deny gs ans = screen ip_string allow' deny' gs' ans) as Hsc.
  { induction ans as [|r ans IH]; cbn [screen]; [reflexivity|]. destruct (entry_to_check ip_string r) as [e t]. destruct e as [|c e]; [exact IH|]. now rewrite Ma, Md, IH. }
  unfold resolve_groups. cbv zeta. rewrite Hd. destruct gs as [|g gs], gs' as [|g' gs'].
  - split; reflexivity.
  - exfalso. apply (proj2 (Hgs g')). now left.
  - exfalso. apply (proj1 (Hgs g)). now left.
  - destruct (handle_denylist allow' deny' cfg' h (g' :: gs') req (m_question (req_msg req))); [split; reflexivity|].
    cbn [exec forwarded]. destruct (next req) as [[x|x]|]; [|split; reflexivity|split; reflexivity].
    destruct (rs_msg x); [rewrite Hsc|]; split; reflexivity.
Qed.
End Own.
Print Assumptions C175_own_lists.

(** The order in which the maps of the configuration are gone through does not matter. *)
Theorem C175_order : forall glob cidr_contains ip_string h fq allow deny on_allow on_deny cfg iter iter' disabled req next,
  blocking_setting allow deny on_allow on_deny cfg iter -> blocking_setting allow deny on_allow on_deny cfg iter' ->
  exec (blocking_resolve glob cidr_contains ip_string allow deny cfg h iter fq disabled req) next =
  exec (blocking_resolve glob cidr_contains ip_string allow deny cfg h iter' fq disabled req) next.
Proof.
  intros. eapply (C175_own_lists glob cidr_contains ip_string h fq allow deny allow deny on_allow on_deny on_allow on_deny cfg cfg iter iter' disabled disabled req next); auto.
  split; [reflexivity|]. intros g _. split; [reflexivity|]. intros n. split; reflexivity.
Qed.
Print Assumptions C175_order.

(** ** A case: the lists for "adult" and "school", and who they are for, are changed; for the desktop nothing changes, for the child something does *)
Definition ol_cfg : blk_cfg :=
  {| bc_deny := [($"adult", [$"more.txt"]); ($"school", [$"games.txt"]); ($"ads", [$"ads.txt"])];
     bc_allow := [($"school", [$"school.txt"]); ($"ads", [$"ok.txt"])];
     bc_clients := [($"Kid*", [$"school"; $"adult"]); ($"default", [$"ads"])];
     bc_type := $"zeroIP"; bc_ttl := 21600 |}.
Definition ol_iter (_ : nat) : list (str * list str) := client_groups_block (bc_clients ol_cfg).
Definition ol_deny_b (g n : str) : bool :=
  (str_eqb g $"ads" && str_in n [$"ads.com"; $"ok.com"; $"6.6.6.6"]) || (str_eqb g $"school" && str_eqb n $"games.com").
Definition ol_deny (g n : str) : Prop := ol_deny_b g n = true.
Definition ol_allow (g n : str) : Prop := ex_allow_b g n = true.
Definition ol_old_deny (g n : str) : Prop := ex_deny_b g n = true.

Lemma ol_old : blocking_setting (ex_lookup ex_allow_b) (ex_lookup ex_deny_b) ol_allow ol_old_deny ex_cfg ex_iter.
Proof.
  split; [|split; [|split]]; [apply ex_lookup_ok; reflexivity|apply ex_lookup_ok; reflexivity| |intros i; apply Permutation_refl].
  repeat constructor; simpl; intuition discriminate.
Qed.
Lemma ol_new : blocking_setting (ex_lookup ex_allow_b) (ex_lookup ol_deny_b) ol_allow ol_deny ol_cfg ol_iter.
Proof.
  split; [|split; [|split]]; [apply ex_lookup_ok; reflexivity|apply ex_lookup_ok; reflexivity| |intros i; apply Permutation_refl].
  repeat constructor; simpl; intuition discriminate.
Qed.

Lemma ol_groups g : applies ex_glob ex_cidr ex_ipstr ex_cfg ex_fq [] (ex_req ex_desktop [] $"ads.com" 1) g <-> g = $"ads".
Proof.
  rewrite <- (groups_to_check_iff ex_glob ex_cidr ex_ipstr ex_cfg ex_iter (proj2 (proj2 (proj2 ol_old)))).
  replace (groups_to_check _ _ _ _ _ _ _ _) with [$"ads"] by (vm_compute; reflexivity). cbn [In]. intuition congruence.
Qed.
Lemma ol_groups' g : applies ex_glob ex_cidr ex_ipstr ol_cfg ex_fq [$"school"] (ex_req ex_desktop [] $"ads.com" 1) g <-> g = $"ads".
Proof.
  rewrite <- (groups_to_check_iff ex_glob ex_cidr ex_ipstr ol_cfg ol_iter (proj2 (proj2 (proj2 ol_new)))).
  replace (groups_to_check _ _ _ _ _ _ _ _) with [$"ads"] by (vm_compute; reflexivity). cbn [In]. intuition congruence.
Qed.

Example C175_case :
  same_for ex_glob ex_cidr ex_ipstr ex_fq ol_allow ol_old_deny ol_allow ol_deny ex_cfg ol_cfg [] [$"school"] (ex_req ex_desktop [] $"ads.com" 1) /\
  let old names n := exec (blocking_resolve ex_glob ex_cidr ex_ipstr (ex_lookup ex_allow_b) (ex_lookup ex_deny_b) ex_cfg (HZeroIP 60) ex_iter ex_fq [] (ex_req ex_desktop names n 1)) (ex_answer []) in
  let new names n := exec (blocking_resolve ex_glob ex_cidr ex_ipstr (ex_lookup ex_allow_b) (ex_lookup ol_deny_b) ol_cfg (HZeroIP 60) ol_iter ex_fq [$"school"] (ex_req ex_desktop names n 1)) (ex_answer []) in
  new [] $"ads.com" = old [] $"ads.com" /\ ex_summary (old [] $"ads.com") = Some ($"BLOCKED (ads)", BLOCKED, 0%N, [DA (IP4 [0; 0; 0; 0]%N)]) /\
  ex_summary (old [$"kidpc"] $"any.com") = Some ($"BLOCKED (ALLOWLIST ONLY)", BLOCKED, 0%N, [DA (IP4 [0; 0; 0; 0]%N)]) /\
  ex_summary (new [$"kidpc"] $"any.com") = Some ([], RESOLVED, 0%N, []).
Proof.
  split.
  - split; [intros g; now rewrite ol_groups, ol_groups'|]. intros g Hg. apply ol_groups in Hg as ->. split.
    + rewrite <- !allowlist_only_iff; [vm_compute; split; intros A; exact A|exact (proj1 (proj2 (proj2 ol_new)))|exact (proj1 (proj2 (proj2 ol_old)))].
    + intros n. split; [reflexivity|]. unfold ol_old_deny, ol_deny, ex_deny_b, ol_deny_b. rewrite !orb_true_iff, !andb_true_iff.
      split; (intros [A|[A _]]; [left; exact A|vm_compute in A; discriminate A]).
  - cbv zeta. split; [vm_compute; reflexivity|]. split; [vm_compute; reflexivity|]. split; vm_compute; reflexivity.
Qed.
