(** Properties C12-C16 and C72: the expiring cache. *)
From Coq Require Import String Ascii List Arith Bool ZArith Lia.
From Verif Require Import Str StrFacts ExpCache ExpCacheSpec ExpCacheProofs.
Import ListNotations.
Open Scope list_scope.

Section Props.
Context {T : Type}.

(** ** C12 *)

(** After any interleaved history the number of entries is at most the size. *)
Theorem C12_size_bounded : forall max_size (hist : list (op T)) s n,
  let size := cache_size max_size in
  run size init hist = Some s -> reported_count size s n ->
  n <= (if max_size =? 0 then N.to_nat 10000 else max_size).
Proof.
  intros max_size hist s n size Hr Hc.
  assert (size = if max_size =? 0 then N.to_nat 10000 else max_size) as Hs.
  { unfold size, cache_size. destruct max_size; reflexivity. }
  rewrite <- Hs. apply run_inv in Hr.
  - unfold reported_count in Hc. simpl in Hc. injection Hc as <-. apply Hr.
  - rewrite Hs. destruct (Nat.eqb_spec max_size 0); [|lia]. apply Nat.leb_le. vm_compute. reflexivity.
Qed.

(** Storing a new key in a full cache evicts exactly the key whose last use
    (lookup or store) is the oldest; storing otherwise evicts nothing. *)
Theorem C12_lru_eviction : forall size (hist : list (op T)) s k v ttl now s' n,
  1 <= size -> run size init hist = Some s -> (0 < ttl)%Z ->
  step size s (OPut k v ttl now) = Some (s', RNone) -> reported_count size s n ->
  (present size s k \/ n < size -> forall x, present size s' x <-> x = k \/ present size s x) /\
  (~ present size s k -> n = size ->
   exists victim, present size s victim /\
     (forall i j x, last_use hist i victim -> present size s x -> x <> victim -> last_use hist j x -> i < j) /\
     forall x, present size s' x <-> x = k \/ (present size s x /\ x <> victim)).
Proof.
  intros size hist s k v ttl now s' n Hsz Hr Ht Hs Hc. unfold reported_count in Hc. simpl in Hc. injection Hc as <-.
  eapply put_present; eauto.
Qed.

(** Every present key does have a last use, so "the oldest last use" is
    meaningful. *)
Theorem C12_present_was_used : forall size (hist : list (op T)) s k,
  1 <= size -> run size init hist = Some s -> present size s k -> exists i, last_use hist i k.
Proof.
  intros size hist s k Hsz Hr Hp. apply run_inv in Hr; auto. apply present_iff in Hp.
  apply in_map_iff in Hp as [[x e] [<- H]]. eapply inv_used; eauto.
Qed.

(** A store with a non-positive lifetime and every lookup leave the set of keys
    unchanged. *)
Theorem C12_no_other_eviction : forall size (hist : list (op T)) s o s' r,
  1 <= size -> run size init hist = Some s -> step size s o = Some (s', r) ->
  (forall k v e, ~ stores o k v e) -> (forall k, ~ removes o k) ->
  forall x, present size s' x <-> present size s x.
Proof.
  intros size hist s o s' r Hsz Hr Hs Hst Hrm x. rewrite !present_iff.
  destruct o; simpl in Hs.
  - injection Hs as <- <-. simpl. unfold ec_put. destruct (Z.leb_spec ttl 0); [tauto|].
    exfalso. destruct (@put_uses T k v ttl now H) as [G _]. eapply Hst, G.
  - unfold ec_get, lru_get in Hs. destruct (mget str_eqb k (st_lru s)) as [e|] eqn:E; injection Hs as <- <-; simpl; [|tauto].
    rewrite In_keys_mdel. assert (In k (map fst (st_lru s))) by (apply mget_Some_iff; eauto).
    split; [intros [<-|[_ G]]; auto|]. intros G. destruct (str_eq_dec k x); auto.
  - exfalso. apply (Hrm []). now left.
  - injection Hs as <- <-. tauto.
  - destruct (st_cleaner s); try discriminate. injection Hs as <- <-. simpl. tauto.
  - destruct (st_cleaner s) as [|[|k' t] ex| |]; try discriminate. destruct (str_eqb k k'); [|discriminate].
    injection Hs as <- <-. simpl. tauto.
  - destruct (st_cleaner s) as [| |[|k' t] d|]; try discriminate. destruct (str_eqb k k'); [|discriminate].
    destruct r0 as [[v ttl]|]; injection Hs as <- <-; simpl; [|tauto].
    unfold ec_put. destruct (Z.leb_spec ttl 0); [tauto|].
    exfalso. destruct (@put_uses T k v ttl now H) as [_ G]. eapply Hst, G.
  - exfalso. apply (Hrm k). now right.
Qed.

(** ** C13 *)

(** A lookup that answers, answers with the value of the latest effective store
    under this very key, which no removal followed; the reported remaining time is
    what is left until its expiry, in nanoseconds, and zero afterwards. *)
Theorem C13_get_last_put : forall size (hist : list (op T)) s k now s' v ttl,
  1 <= size -> run size init hist = Some s ->
  step size s (OGet k now) = Some (s', RGet (Some (v, ttl))) ->
  exists e, last_stored hist k v e /\ ttl = (Z.max 0 (e - now) * 1000000)%Z.
Proof. intros. eapply get_last_stored; eauto. Qed.

(** After a clear nothing is found until something is stored under the key. *)
Theorem C13_clear : forall size (hist after : list (op T)) s k now s' r,
  1 <= size -> run size init (hist ++ OClear :: after) = Some s ->
  (forall o v e, In o after -> ~ stores o k v e) ->
  step size s (OGet k now) = Some (s', r) -> r = RGet None.
Proof.
  intros size hist after s k now s' r Hsz Hr Hno Hs.
  assert (exists x, r = RGet x) as [x ->].
  { simpl in Hs. destruct (ec_get now k (st_lru s)). injection Hs as _ <-. eauto. }
  destruct x as [[v ttl]|]; auto. exfalso.
  destruct (get_last_stored size Hsz _ _ _ _ _ _ _ Hr Hs) as [e [[b [o [a [Heq [Hst Ha]]]]] _]].
  assert (In OClear a \/ In o after) as [Hin|Hin].
  { clear -Heq Hst. revert b Heq. induction hist as [|h hist IH]; intros b Heq.
    - destruct b as [|b0 b]; simpl in Heq; injection Heq as <- ->.
      + destruct Hst as [? [? [_ [_ [H|H]]]]]; discriminate.
      + right. apply in_app_iff. right. now left.
    - destruct b as [|b0 b]; simpl in Heq; injection Heq as <- Heq.
      + left. rewrite <- Heq. apply in_app_iff. right. now left.
      + eapply IH; eauto. }
  - apply (Ha _ Hin). now left.
  - eapply Hno; eauto.
Qed.

(** ** C14 *)

(** A clean-up that is not interleaved with other operations does, key by key,
    what the property says. *)
Theorem C14_undisturbed_clean_up_partial : forall size (hist : list (op T)) s now h ops s',
  1 <= size -> run size init hist = Some s -> (forall o, In o hist -> 0 < op_time o)%Z ->
  st_cleaner s = Idle -> Forall (clean_op now h) ops ->
  run size s (OCleanStart :: ops) = Some s' -> st_cleaner s' = Idle ->
  forall k, stored s' k = after_clean_up now (h k) (stored s k).
Proof.
  intros size hist s now h ops s' Hsz Hr Ht Hi HF Hrun Hi' k.
  rewrite !stored_mget. rewrite (clean_up_run size now h ops s s'), clean_up_mget by auto.
  destruct (mget str_eqb k (st_lru s)) as [e|] eqn:E; [|reflexivity].
  apply mget_In, (inv_stored _ _ _ (run_inv size Hsz _ _ Hr)) in E.
  assert (0 < el_expires e)%Z as Hpos.
  { destruct E as [b [o [a [-> [[ttl [n [Hp [-> Ho]]]] _]]]]].
    assert (0 < n)%Z. { specialize (Ht o). destruct Ho; subst o; apply Ht, in_app_iff; right; now left. }
    assert (0 <= ttl / 1000000)%Z by (apply Z.div_pos; lia). lia. }
  unfold is_expired, after_clean_up. destruct (Z.ltb_spec 0 (el_expires e)); [|lia]. simpl.
  destruct (Z.ltb_spec (el_expires e) now), (Z.leb_spec now (el_expires e)); try lia; auto.
  destruct (h k) as [[v ttl]|]; auto. destruct (Z.leb_spec ttl 0), (Z.ltb_spec 0 ttl); try lia; auto.
  simpl. unfold to_ms. now rewrite Z.quot_div_nonneg by lia.
Qed.

(** In any interleaving, the clean-up removes only keys that it found expired. *)
Theorem C14_only_condemned_removed : forall size s k s' r,
  step size s (OCleanRemove k) = Some (s', r) -> @not_condemned T s k -> False.
Proof.
  intros size s k s' r H HN. simpl in H. unfold not_condemned in HN.
  destruct (st_cleaner s) as [| | |[|k' d]]; try discriminate. destruct (str_eqb k k') eqn:E; [|discriminate].
  apply str_eqb_eq in E as <-. apply HN. now left.
Qed.

End Props.

(** The full claim fails under interleaving: an entry stored after the clean-up
    noticed that its predecessor had expired is removed although it is valid for
    another 50 seconds. *)
Theorem C14_valid_entry_removed_refuted : exists size (hist : list (op Z)) s s' k now,
  1 <= size /\ run size init hist = Some s /\ (forall o, In o hist -> 0 < op_time o <= now)%Z /\
  (exists v e, stored s k = Some (v, e) /\ now < e)%Z /\
  step size s (OCleanRemove k) = Some (s', RNone) /\ stored s' k = None.
Proof.
  exists 10, [OPut $"k" 1 1000000000 1000; OCleanStart; OCleanPeek $"k" 10000; OCleanHandle $"k" None 10000;
              OPut $"k" 2 50000000000 10001]%Z.
  eexists _, _, ($"k"), 10001%Z. split; [lia|]. split; [reflexivity|]. split.
  - intros o. simpl. intuition (subst; simpl; lia).
  - split; [eexists _, _; split; [reflexivity|reflexivity]|]. split; reflexivity.
Qed.

(** A concrete undisturbed clean-up: "a" is valid, "b" is dropped, "c" is replaced. *)
Definition ex_h (k : str) : option (Z * Z) := if str_eqb k $"c" then Some (33, 5000000000)%Z else None.

Example C14_nontrivial : exists s s',
  run 10 init [OPut $"a" 1 9000000000 1000; OPut $"b" 2 1000000000 1000; OPut $"c" 3 1000000000 1000]%Z = Some s /\
  st_cleaner s = Idle /\
  run 10 s (OCleanStart :: [OCleanPeek $"a" 5000; OCleanPeek $"b" 5000; OCleanPeek $"c" 5000;
     OCleanHandle $"b" None 5000; OCleanHandle $"c" (Some (33, 5000000000)) 5000; OCleanRemove $"b"]%Z) = Some s' /\
  Forall (clean_op 5000 ex_h) [OCleanPeek $"a" 5000; OCleanPeek $"b" 5000; OCleanPeek $"c" 5000;
     OCleanHandle $"b" None 5000; OCleanHandle $"c" (Some (33, 5000000000)) 5000; OCleanRemove $"b"]%Z /\
  st_cleaner s' = Idle /\
  stored s' $"a" = Some (1, 10000)%Z /\ stored s' $"b" = None /\ stored s' $"c" = Some (33, 10000)%Z.
Proof.
  eexists _, _. split; [reflexivity|]. split; [reflexivity|]. split; [reflexivity|]. split.
  - repeat constructor.
  - repeat split; reflexivity.
Qed.

(** ** C15 *)

(** The claim is false: a lookup does not check the expiry. *)
Theorem C15_expired_value_served_refuted : exists size (hist : list (op Z)) s s' k now v e,
  1 <= size /\ run size init hist = Some s /\ last_stored hist k v e /\ (e < now)%Z /\
  step size s (OGet k now) = Some (s', RGet (Some (v, 0%Z))).
Proof.
  exists 10, [OPut $"k" 1 1000000000 1000]%Z. eexists _, _, ($"k"), 5000%Z, 1%Z, 2000%Z.
  split; [lia|]. split; [reflexivity|]. split.
  - exists [], (OPut $"k" 1 1000000000 1000)%Z, []. split; [reflexivity|]. split.
    + exists 1000000000%Z, 1000%Z. split; [lia|]. split; [reflexivity|]. now left.
    + intros o' [].
  - split; [lia|reflexivity].
Qed.

Section Props15.
Context {T : Type}.

(** What does hold: a value that is served with a positive remaining time has not
    expired, and one that has expired is served only with remaining time zero. *)
Theorem C15_remaining_time_tells_partial : forall size (hist : list (op T)) s k now s' v ttl,
  1 <= size -> run size init hist = Some s ->
  step size s (OGet k now) = Some (s', RGet (Some (v, ttl))) ->
  exists e, last_stored hist k v e /\ ((0 < ttl)%Z <-> (now < e)%Z) /\ (ttl = 0%Z <-> (e <= now)%Z).
Proof.
  intros size hist s k now s' v ttl Hsz Hr Hs.
  destruct (get_last_stored size Hsz _ _ _ _ _ _ _ Hr Hs) as [e [He ->]]. exists e. split; auto. lia.
Qed.

(** And the time an expired value survives is bounded by the clean-up: after an
    undisturbed clean-up at [now] nothing that expired before [now] is left, if
    the handler never offers a replacement without lifetime. *)
Theorem C15_gone_after_clean_up_partial : forall size (hist : list (op T)) s now h ops s',
  1 <= size -> run size init hist = Some s -> (forall o, In o hist -> 0 < op_time o)%Z ->
  st_cleaner s = Idle -> Forall (clean_op now h) ops ->
  run size s (OCleanStart :: ops) = Some s' -> st_cleaner s' = Idle ->
  (forall k v ttl, h k = Some (v, ttl) -> (0 < ttl)%Z) ->
  forall k v e, stored s' k = Some (v, e) -> (now <= e)%Z.
Proof.
  intros size hist s now h ops s' Hsz Hr Ht Hi HF Hrun Hi' Hh k v e Hst.
  rewrite (C14_undisturbed_clean_up_partial size hist s now h ops s') in Hst by auto.
  unfold after_clean_up in Hst. destruct (stored s k) as [[v0 e0]|]; [|discriminate].
  destruct (Z.leb_spec now e0); [injection Hst as <- <-; lia|].
  destruct (h k) as [[v1 ttl]|] eqn:Eh; [|discriminate]. apply Hh in Eh.
  destruct (Z.ltb_spec 0 ttl); [|lia]. injection Hst as <- <-.
  assert (0 <= ttl / 1000000)%Z by (apply Z.div_pos; lia). lia.
Qed.

(** ** C72: a stored value is available until it expires or is displaced *)
Theorem C72_kept_until_expiry : forall size (hist after : list (op T)) k v ttl now s0 s used t,
  let e := (now + ttl / 1000000)%Z in
  1 <= size -> (0 < ttl)%Z ->
  run size init hist = Some s0 -> not_condemned s0 k ->
  run size s0 (OPut k v ttl now :: after) = Some s ->
  (* nothing clears the cache or stores this key again *)
  (forall o, In o after -> o <> OClear /\ forall v' e', ~ stores o k v' e') ->
  (* the clean-up looks at the key only before its expiry *)
  (forall n, In (OCleanPeek k n) after -> (n <= e)%Z) ->
  (* fewer other keys than there is room for are used *)
  (forall o x, In o after -> x <> k -> uses o x -> In x used) -> length used < size ->
  exists s', step size s (OGet k t) = Some (s', RGet (Some (v, (Z.max 0 (e - t) * 1000000)%Z))).
Proof.
  intros size hist after k v ttl now s0 s used t e Hsz Ht Hr Hnc Hrun Hno Hpk Hus Hlen.
  pose proof (run_inv size Hsz _ _ Hr) as HI. cbn [run step] in Hrun.
  pose proof (put_front size used k v ttl now (st_lru s0) Hsz Ht (inv_nodup _ _ _ HI)) as HF.
  set (el := {| el_val := v; el_expires := (now + to_ms ttl)%Z |}) in *.
  assert (el_expires el = e) as Hel by (unfold el, e, to_ms; simpl; now rewrite Z.quot_div_nonneg by lia).
  apply (retain_run size used k el) in Hrun; auto.
  - apply front_mget in Hrun. simpl. unfold ec_get, lru_get. rewrite Hrun. eexists.
    replace (Z.max 0 (e - t) * 1000000)%Z with (remain_ttl t (el_expires el)); [reflexivity|].
    rewrite Hel. unfold remain_ttl. destruct (Z.ltb_spec t e); lia.
  - intros o Ho. split; [now apply Hno|]. split; [now apply Hno|]. split.
    + intros n ->. rewrite Hel. auto.
    + intros x Hx Hu. eauto.
Qed.

End Props15.

Example C72_nontrivial : exists s0 s,
  run 2 init [OPut $"x" 7 1000000000 1]%Z = Some s0 /\ not_condemned s0 $"k" /\
  run 2 s0 (OPut $"k" 8 9000000000 1000 :: [OGet $"x" 1001; OCleanStart; OCleanPeek $"k" 5000; OCleanPeek $"x" 5000;
            OCleanHandle $"x" None 5000; OPut $"x" 9 1000000 5000; OCleanRemove $"x"])%Z = Some s /\
  step 2 s (OGet $"k" 6000%Z) = Some (s, RGet (Some (8, 4000000000)%Z)).
Proof. eexists _, _. split; [reflexivity|]. split; [exact I|]. split; reflexivity. Qed.

(** An eviction in a full cache of size 2: "a" was looked up after "b" was stored. *)
Example C12_nontrivial : exists s,
  run 2 init [OPut $"a" 1 1000000000 1; OPut $"b" 2 1000000000 2; OGet $"a" 3; OPut $"c" 3 1000000000 4]%Z = Some s /\
  reported_count 2 s 2 /\ stored s $"b" = None /\ stored s $"a" = Some (1, 1001)%Z.
Proof. eexists. repeat split; reflexivity. Qed.

Example C13_nontrivial : exists s s',
  run 2 init [OPut $"a" 1 1000000000 1; OPut $"b" 2 1000000000 2; OPut $"a" 5 2000000 4; OPut $"a" 6 0 5]%Z = Some s /\
  step 2 s (OGet $"a" 5%Z) = Some (s', RGet (Some (5, 1000000)%Z)).
Proof. eexists _, _. split; reflexivity. Qed.

(** ** C16 *)
Section Props16.
Context {T : Type}.

(** When key [k] is found expired, the entry is re-fetched iff the threshold is
    zero or it was looked up more often than the threshold in the open window; a
    re-fetched value is stored, otherwise the entry is dropped.  Hypotheses: the
    name cache has room for all looked-up names and the 32-bit counter does not
    wrap. *)
Theorem C16_prefetch_exact : forall cfg (hist : list (pf_op T)) ks k reload now s' called,
  let s := pf_run cfg pf_init hist in
  (0 < pf_expires cfg)%Z -> 1 <= pf_names_size cfg -> (0 <= pf_threshold cfg)%Z ->
  (forall o, In o hist -> 0 < pf_time o)%Z ->
  (forall o x, In o hist -> looked_up o x -> In x ks) -> length ks <= pf_names_size cfg ->
  (N.of_nat (length hist) < 4294967296)%N ->
  pf_step cfg s (PExpire k reload now) = (s', PReload called) ->
  (called = true <->
     pf_threshold cfg = 0 \/ pf_threshold cfg < Z.of_N (lookups_in_window (pf_expires cfg / 1000000) k hist))%Z /\
  forall t, snd (pf_step cfg s' (PGet k t)) =
    match called, reload with
    | true, Some (v, ttl) =>
        if (0 <? ttl)%Z then PValue (Some (v, (Z.max 0 (now + ttl / 1000000 - t) * 1000000)%Z))
        else snd (pf_step cfg s (PGet k t))   (* useless reload: the old entry stays *)
    | _, _ => PValue None
    end.
Proof.
  intros cfg hist ks k reload now s' called s Hexp Hsz Hth Ht Hks Hl Hw Hs.
  pose proof (upper_run cfg Hexp Hsz hist Ht) as [Hn _].
  pose proof (exact_run cfg Hexp Hsz hist ks Ht Hl Hks k) as He. fold s in Hn, He.
  pose proof (window_le (pf_expires cfg / 1000000)%Z k None hist 0%N I) as Hle.
  simpl in Hs. destruct (lru_peek k (pf_cache s)) as [el|] eqn:Ep; [|discriminate].
  destruct (is_expired now el); [|discriminate].
  unfold on_expired in Hs. destruct (should_prefetch cfg now k (pf_names s)) as [b names] eqn:Es.
  injection Hs as <- <-. split.
  - unfold should_prefetch in Es. unfold lookups_in_window. destruct (Z.eqb_spec (pf_threshold cfg) 0).
    + injection Es as <- <-. tauto.
    + destruct (ec_get now k (pf_names s)) as [r n1] eqn:E.
      destruct (ec_get_mget now k _ _ _ k E Hn) as [_ [_ Hr]].
      destruct (window (pf_expires cfg / 1000000)%Z k None hist) as [[c last]|]; rewrite He in Hr; subst r; simpl in Es; injection Es as <- <-.
      * rewrite N.mod_small by lia. rewrite Z.ltb_lt. split; [auto|]. intros [H|H]; [congruence|auto].
      * split; [discriminate|]. intros [H|H]; [congruence|lia].
  - intros t. unfold lru_peek in Ep. assert (In k (map fst (pf_cache s))) as Hk by (apply mget_Some_iff; eauto).
    assert (forall st, snd (pf_step cfg st (PGet k t)) = PValue
       match mget str_eqb k (pf_cache st) with Some e => Some (cv_element (el_val e), remain_ttl t (el_expires e)) | None => @None (T * Z) end) as Hget.
    { intros st. simpl. unfold ec_get, lru_get. destruct (mget str_eqb k (pf_cache st)); reflexivity. }
    rewrite !Hget. cbn [pf_cache]. rewrite Ep.
    destruct b; [destruct reload as [[v ttl]|]|]; unfold lru_remove; rewrite ?mget_mdel_same; auto.
    rewrite ec_put_mget by auto. rewrite str_eqb_refl.
    destruct (Z.leb_spec ttl 0), (Z.ltb_spec 0 ttl); try lia; rewrite ?Ep; auto.
    unfold remain_ttl, to_ms. simpl. rewrite Z.quot_div_nonneg by lia.
    destruct (Z.ltb_spec t (now + ttl / 1000000)); do 3 f_equal; lia.
Qed.

(** Without any assumption on room or number of operations (eviction and counter
    wrap only lower the count): names looked up not more often than the threshold
    are never re-fetched. *)
Theorem C16_rare_names_never_prefetched : forall cfg (hist : list (pf_op T)) k reload now s' called,
  (0 < pf_expires cfg)%Z -> 1 <= pf_names_size cfg -> (0 < pf_threshold cfg)%Z ->
  (forall o, In o hist -> 0 < pf_time o)%Z ->
  (Z.of_N (lookups_in_window (pf_expires cfg / 1000000) k hist) <= pf_threshold cfg)%Z ->
  pf_step cfg (pf_run cfg pf_init hist) (PExpire k reload now) = (s', PReload called) ->
  called = false /\ forall t, snd (pf_step cfg s' (PGet k t)) = PValue None.
Proof.
  intros cfg hist k reload now s' called Hexp Hsz Hth Ht Hle Hs.
  set (s := pf_run cfg pf_init hist) in *.
  pose proof (upper_run cfg Hexp Hsz hist Ht) as [Hn Hu]. fold s in Hn, Hu.
  simpl in Hs. destruct (lru_peek k (pf_cache s)) as [el|] eqn:Ep; [|discriminate].
  destruct (is_expired now el); [|discriminate].
  unfold on_expired, should_prefetch in Hs. destruct (Z.eqb_spec (pf_threshold cfg) 0); [lia|].
  destruct (ec_get now k (pf_names s)) as [r n1] eqn:E.
  destruct (ec_get_mget now k _ _ _ k E Hn) as [_ [_ Hr]].
  assert (match r with Some (c, _) => (pf_threshold cfg <? Z.of_N c)%Z | None => false end = false) as Hf.
  { subst r. destruct (mget str_eqb k (pf_names s)) as [e|] eqn:Em; auto.
    destruct (Hu _ _ Em) as [c [last [H1 [H2 _]]]]. unfold lookups_in_window in Hle. rewrite H1 in Hle.
    apply Z.ltb_ge. lia. }
  rewrite Hf in Hs. injection Hs as <- <-. split; auto. intros t. simpl.
  unfold ec_get, lru_get, lru_remove. rewrite mget_mdel_same. reflexivity.
Qed.

End Props16.

Definition ex_cfg : pf_config :=
  {| pf_size := 10; pf_names_size := 10; pf_threshold := 2; pf_expires := 60000000000 |}.

(** Three lookups in the window: re-fetched. *)
Example C16_nontrivial : exists s',
  pf_step ex_cfg (pf_run ex_cfg pf_init [PPut $"k" 1 1000000000 1000; PGet $"k" 1100; PGet $"k" 1200; PGet $"k" 1300; PCleanNames 61299]%Z)
     (PExpire $"k" (Some (2, 5000000000)%Z) 62000) = (s', PReload true).
Proof. eexists. reflexivity. Qed.

(** The clean-up closed the window: only one lookup counts. *)
Example C16_nontrivial2 : exists s',
  pf_step ex_cfg (pf_run ex_cfg pf_init [PPut $"k" 1 1000000000 1000; PGet $"k" 1100; PGet $"k" 1200; PGet $"k" 1300; PCleanNames 61301; PGet $"k" 61400]%Z)
     (PExpire $"k" (Some (2, 5000000000)%Z) 62000) = (s', PReload false).
Proof. eexists. reflexivity. Qed.

Print Assumptions C12_size_bounded.
Print Assumptions C12_lru_eviction.
Print Assumptions C12_present_was_used.
Print Assumptions C12_no_other_eviction.
Print Assumptions C13_get_last_put.
Print Assumptions C13_clear.
Print Assumptions C14_undisturbed_clean_up_partial.
Print Assumptions C14_only_condemned_removed.
Print Assumptions C14_valid_entry_removed_refuted.
Print Assumptions C15_expired_value_served_refuted.
Print Assumptions C15_remaining_time_tells_partial.
Print Assumptions C15_gone_after_clean_up_partial.
Print Assumptions C72_kept_until_expiry.
Print Assumptions C16_prefetch_exact.
Print Assumptions C16_rare_names_never_prefetched.
