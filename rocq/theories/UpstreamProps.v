(** Theorems about the upstream resolvers. *)
From Coq Require Import String Ascii List Arith Bool NArith ZArith Lia Permutation.
From Verif Require BlockingProofs.
From Verif Require Import Str StrFacts Dns Resolver Upstream UpstreamSpec.
Import ListNotations.

(** ** C49: strict *)
Theorem C49_strict_first : forall (U R E : Type) (us : list (U * (R + E))),
  first_answer us (fst (strict_resolve us)) (snd (strict_resolve us)).
Proof.
  intros U R E us. induction us as [|[u [r|e]] us IH]; cbn [strict_resolve fst snd].
  - apply (fa_none []). intros x [].
  - apply (fa_found ((u, inl r) :: us) [] u r us); [reflexivity|]. intros x [].
  - destruct (strict_resolve us) as [asked res]. cbn [fst snd] in *. inversion IH as [pre v r post E1 H E2|H E1]; subst.
    + apply (fa_found ((u, inr e) :: pre ++ (v, inl r) :: post) ((u, inr e) :: pre) v r post); [reflexivity|]. intros x [<-|Hx]; [now exists e|auto].
    + apply (fa_none ((u, inr e) :: us)). intros x [<-|Hx]; [now exists e|auto].
Qed.
Print Assumptions C49_strict_first.

(** The specification leaves no choice. *)
Theorem C49_strict_determined : forall (U R E : Type) (us : list (U * (R + E))) asked res asked' res',
  first_answer us asked res -> first_answer us asked' res' -> asked = asked' /\ res = res'.
Proof.
  intros U R E us. induction us as [|[u o] us IH]; intros asked res asked' res' H H'.
  - inversion H as [pre v r post E1|]; [destruct pre; discriminate|]. inversion H' as [pre v r post E1|]; [destruct pre; discriminate|]. auto.
  - assert (forall a b, first_answer ((u, o) :: us) a b ->
      (exists r, o = inl r /\ a = [u] /\ b = Some r) \/ (exists e a', o = inr e /\ a = u :: a' /\ first_answer us a' b)) as K.
    { intros a b Hab. inversion Hab as [pre v r post E1 G E2|G E1]; subst.
      - destruct pre as [|[p q] pre]; cbn in E1.
        + injection E1 as -> -> ->. left. eauto.
        + injection E1 as -> -> ->. right. destruct (G (p, q) (or_introl eq_refl)) as [e He]. cbn in He. subst.
          exists e, (map fst pre ++ [v]). split; auto. split; [reflexivity|]. eapply fa_found; eauto. intros x Hx. apply G. now right.
      - right. destruct (G (u, o) (or_introl eq_refl)) as [e He]. cbn in He. subst. exists e, (map fst us). split; auto. split; auto.
        apply fa_none. intros x Hx. apply G. now right. }
    apply K in H, H'. destruct H as [[r [-> [-> ->]]]|[e [a [-> [-> H]]]]], H' as [[r' [E1 [-> ->]]]|[e' [a' [E1 [-> H']]]]]; try discriminate.
    + injection E1 as <-. auto.
    + destruct (IH _ _ _ _ H H') as [-> ->]. auto.
Qed.
Print Assumptions C49_strict_determined.

Example C49_example : strict_resolve [($"a", inr $"timeout"); ($"b", inl 7%N); ($"c", inl 8%N)] = ([$"a"; $"b"], Some 7%N).
Proof. reflexivity. Qed.

(** ** C89: weights *)
Definition hour : Z := 3600000000000.
Definition minute : Z := 60000000000.

Lemma weight_pos now s : (1 <= weight now s)%N.
Proof. unfold weight. cbv zeta. destruct (Z.ltb_spec (now - st_last_error s) 3600000000000); lia. Qed.

(** Without an error in the last hour the weight is 60; otherwise it is the number of full minutes since the
    error, and at least 1. *)
Theorem C89_weight : forall now s,
  ((hour <= now - st_last_error s)%Z -> weight now s = 60%N) /\
  ((minute <= now - st_last_error s < hour)%Z -> exists n, weight now s = Z.to_N n /\ (1 <= n < 60)%Z /\
     (n * minute <= now - st_last_error s < (n + 1) * minute)%Z) /\
  ((now - st_last_error s < minute)%Z -> weight now s = 1%N).
Proof.
  intros now s. unfold weight, hour, minute. cbv zeta. set (d := (now - st_last_error s)%Z). split; [|split].
  - intros H. destruct (Z.ltb_spec d 3600000000000); lia.
  - intros H. destruct (Z.ltb_spec d 3600000000000); [|lia].
    pose proof (Z.div_mod d 60000000000 ltac:(lia)) as E. pose proof (Z.mod_pos_bound d 60000000000 ltac:(lia)) as B.
    exists (d / 60000000000)%Z. split; [f_equal; apply Z.max_r; nia|]. split; nia.
  - intros H. destruct (Z.ltb_spec d 3600000000000); [|lia].
    assert (d / 60000000000 < 1)%Z by (apply Z.div_lt_upper_bound; lia). rewrite Z.max_l by lia. reflexivity.
Qed.
Print Assumptions C89_weight.

Theorem C89_recovers : forall now now' s, (now <= now')%Z -> (weight now s <= weight now' s)%N.
Proof.
  intros now now' s H. unfold weight. cbv zeta.
  destruct (Z.ltb_spec (now - st_last_error s) 3600000000000), (Z.ltb_spec (now' - st_last_error s) 3600000000000); try lia.
  - assert ((now - st_last_error s) / 60000000000 <= (now' - st_last_error s) / 60000000000)%Z by (apply Z.div_le_mono; lia). lia.
  - assert ((now - st_last_error s) / 60000000000 < 60)%Z by (apply Z.div_lt_upper_bound; lia). lia.
Qed.
Print Assumptions C89_recovers.

(** A failure that is not a cancellation lowers the weight to 1, nothing else changes it. *)
Theorem C89_failure_noted : forall now s failed cancelled,
  let s' := note_result now failed cancelled s in
  st_id s' = st_id s /\
  (failed = true /\ cancelled = false -> st_last_error s' = now /\ weight now s' = 1%N) /\
  (failed = false \/ cancelled = true -> s' = s).
Proof.
  intros now s failed cancelled s'. subst s'. unfold note_result. split; [now destruct failed, cancelled|]. split.
  - intros [-> ->]. cbn [andb negb st_last_error]. split; [reflexivity|]. unfold weight. cbn [st_last_error]. now rewrite Z.sub_diag.
  - intros [-> | ->]; [reflexivity|]. now destruct failed.
Qed.
Print Assumptions C89_failure_noted.

(** The numbers below [total] that select the entry with index [i] are exactly its weight many: an
    interval of that length. *)
Lemma pick_range_interval {A} : forall (cs : list (A * N)) i a w, nth_error cs i = Some (a, w) ->
  let lo := total_weight (firstn i cs) in
  (lo + w <= total_weight cs)%N /\ forall r, (lo <= r < lo + w)%N -> pick_range cs r = Some a.
Proof.
  induction cs as [|[b v] cs IH]; intros i a w H; [destruct i; discriminate|].
  destruct i as [|i]; cbn [nth_error] in H.
  - injection H as -> ->. cbn [firstn total_weight fold_right pick_range snd]. split; [lia|].
    intros r Hr. destruct (N.ltb_spec r w); [reflexivity|lia].
  - destruct (IH _ _ _ H) as [H1 H2]. cbn [firstn]. change (total_weight ((b, v) :: firstn i cs)) with (v + total_weight (firstn i cs))%N.
    change (total_weight ((b, v) :: cs)) with (v + total_weight cs)%N. split; [lia|].
    intros r Hr. cbn [pick_range]. destruct (N.ltb_spec r v); [lia|]. apply H2. lia.
Qed.

Lemma pick_range_some {A} : forall (cs : list (A * N)) r, (r < total_weight cs)%N -> exists a w, In (a, w) cs /\ pick_range cs r = Some a.
Proof.
  induction cs as [|[b v] cs IH]; intros r H; [cbn in H; lia|]. change (total_weight ((b, v) :: cs)) with (v + total_weight cs)%N in H.
  cbn [pick_range]. destruct (N.ltb_spec r v); [exists b, v; split; [now left|auto]|].
  destruct (IH (r - v)%N) as [a [w [H1 H2]]]; [lia|]. exists a, w. split; [now right|auto].
Qed.

Lemma choices_In now sts excluded s w : In (s, w) (choices now sts excluded) <->
  In s sts /\ (forall x, In x excluded -> st_id x <> st_id s) /\ w = weight now s.
Proof.
  unfold choices. rewrite in_map_iff. split.
  - intros [x [[= <- <-] H]]. apply filter_In in H as [H1 H2]. split; auto. split; auto. intros y Hy E.
    assert (existsb (fun x0 => st_id x0 =? st_id x) excluded = true) as Hx by (apply existsb_exists; exists y; split; auto; now apply Nat.eqb_eq).
    rewrite Hx in H2. discriminate.
  - intros [H1 [H2 ->]]. exists s. split; auto. apply filter_In. split; auto.
    destruct (existsb _ excluded) eqn:E; auto. apply existsb_exists in E as [y [Hy E]]. apply Nat.eqb_eq in E. elim (H2 _ Hy E).
Qed.

Lemma total_weight_zero now sts excluded : total_weight (choices now sts excluded) = 0%N <-> choices now sts excluded = [].
Proof.
  split; [|now intros ->]. intros H. destruct (choices now sts excluded) as [|[s w] cs] eqn:E; auto. exfalso.
  assert (In (s, w) (choices now sts excluded)) as Hi by (rewrite E; now left). apply choices_In in Hi as [_ [_ ->]].
  pose proof (weight_pos now s). change (total_weight ((s, weight now s) :: cs)) with (weight now s + total_weight cs)%N in H. lia.
Qed.

(** A choice is an upstream that is not excluded; there is one iff there is such an upstream. *)
Lemma weighted_random_spec now sts excluded r :
  match weighted_random now sts excluded r with
  | Some s => In s sts /\ forall x, In x excluded -> st_id x <> st_id s
  | None => forall s, In s sts -> exists x, In x excluded /\ st_id x = st_id s
  end.
Proof.
  unfold weighted_random. cbv zeta. destruct (N.eqb_spec (total_weight (choices now sts excluded)) 0) as [H|H].
  - apply total_weight_zero in H. rewrite H. intros s Hs.
    destruct (existsb (fun x => st_id x =? st_id s) excluded) eqn:E.
    + apply existsb_exists in E as [x [H1 H2]]. apply Nat.eqb_eq in H2. eauto.
    + assert (In (s, weight now s) (choices now sts excluded)) as Hi.
      { apply choices_In. split; auto. split; auto. intros x Hx E'. rewrite <- not_true_iff_false in E. apply E. apply existsb_exists. exists x. split; auto. now apply Nat.eqb_eq. }
      rewrite H in Hi. destruct Hi.
  - destruct (pick_range_some (choices now sts excluded) (r mod total_weight (choices now sts excluded))) as [s [w [Hs ->]]]; [now apply N.mod_upper_bound|].
    apply choices_In in Hs as [H1 [H2 _]]. auto.
Qed.

(** Every upstream that is not excluded is chosen for an interval of random numbers as long as its weight. *)
Theorem C89_share : forall now sts excluded s, In s sts -> (forall x, In x excluded -> st_id x <> st_id s) ->
  let total := total_weight (choices now sts excluded) in
  exists lo, (lo + weight now s <= total)%N /\
    forall r, (lo <= r < lo + weight now s)%N -> weighted_random now sts excluded r = Some s.
Proof.
  intros now sts excluded s Hs Hx total.
  assert (In (s, weight now s) (choices now sts excluded)) as Hi by now apply choices_In.
  apply In_nth_error in Hi as [i Hi]. destruct (pick_range_interval _ _ _ _ Hi) as [H1 H2].
  exists (total_weight (firstn i (choices now sts excluded))). split; [exact H1|]. intros r Hr.
  unfold weighted_random. cbv zeta. fold total. pose proof (weight_pos now s).
  destruct (N.eqb_spec total 0); [fold total in H1; lia|]. rewrite N.mod_small by (fold total in H1; lia). now apply H2.
Qed.
Print Assumptions C89_share.

Example C89_example :
  let now := 7200000000000%Z in
  let sts := [{| st_id := 1; st_last_error := 0 |}; {| st_id := 2; st_last_error := 7080000000000 |}; {| st_id := 3; st_last_error := now |}] in
  map (weight now) sts = [60; 2; 1]%N /\ map (fun r => option_map st_id (weighted_random now sts [] r)) [0; 59; 60; 61; 62]%N =
    [Some 1; Some 1; Some 2; Some 2; Some 3].
Proof. split; reflexivity. Qed.

(** ** C50: parallel and random *)
Section Parallel.
Context {R E : Type}.
Variable now : Z.
Variable sts : list status.
Variable rnd : nat -> N.
Variable arrive : list status -> list status.
Variable out : nat -> status -> R + E.
Hypothesis Hdist : NoDup (map st_id sts).
Hypothesis Harr : forall l, Permutation (arrive l) l.

Lemma another (excluded : list status) : length excluded < length sts ->
  exists s, In s sts /\ forall x, In x excluded -> st_id x <> st_id s.
Proof.
  intros H. destruct (find (fun s => negb (existsb (fun x => st_id x =? st_id s) excluded)) sts) as [s|] eqn:Ef.
  - apply find_some in Ef as [H1 H2]. exists s. split; auto. intros x Hx Heq.
    rewrite (proj2 (existsb_exists _ _)) in H2; [discriminate|]. exists x. split; auto. now apply Nat.eqb_eq.
  - exfalso. assert (incl (map st_id sts) (map st_id excluded)) as Hi.
    { intros i Hi. apply in_map_iff in Hi as [s [<- Hs]]. pose proof (find_none _ _ Ef s Hs) as Hn. cbn in Hn.
      apply negb_false_iff, existsb_exists in Hn as [x [H1 H2]]. apply Nat.eqb_eq in H2. apply in_map_iff. eauto. }
    pose proof (NoDup_incl_length Hdist Hi) as Hl. rewrite !map_length in Hl. lia.
Qed.

Lemma weighted_random_ok excluded r : length excluded < length sts ->
  exists s, weighted_random now sts excluded r = Some s /\ In s sts /\ forall x, In x excluded -> st_id x <> st_id s.
Proof.
  intros H. pose proof (weighted_random_spec now sts excluded r) as Hs. destruct (weighted_random now sts excluded r) as [s|].
  - exists s. tauto.
  - destruct (another excluded H) as [s [H1 H2]]. destruct (Hs s H1) as [x [H3 H4]]. elim (H2 x H3 H4).
Qed.

(** Two upstreams: the answer is the first one that arrives, of two different upstreams; there is an error
    iff both fail.  Nothing crashes. *)
Theorem C50_parallel : 2 <= length sts ->
  exists a b, In a sts /\ In b sts /\ st_id a <> st_id b /\
    snd (parallel_resolve false now sts rnd arrive out) = [a; b] /\
    match fst (parallel_resolve false now sts rnd arrive out) with
    | GCrash => False
    | GOk r => exists x y, Permutation [x; y] [a; b] /\ arrive [a; b] = [x; y] /\
                 (out 0 x = inl r \/ (exists e, out 0 x = inr e) /\ out 0 y = inl r)
    | GFail => (exists e, out 0 a = inr e) /\ (exists e, out 0 b = inr e)
    end.
Proof.
  intros Hl. destruct (weighted_random_ok [] (rnd 0)) as [a [Ea [Ha _]]]; [cbn; lia|].
  destruct (weighted_random_ok [a] (rnd 1)) as [b [Eb [Hb Hd]]]; [cbn; lia|].
  exists a, b. split; auto. split; auto. split; [now apply Hd; left|].
  assert (pick_random now sts 2 rnd [] = Some [a; b]) as Ep.
  { cbn [pick_random length]. rewrite Ea. cbn [app length]. now rewrite Eb. }
  unfold parallel_resolve. destruct sts as [|s0 [|s1 sl]] eqn:Es; cbn in Hl; try lia. rewrite Ep. cbn [length].
  pose proof (Harr [a; b]) as Hp. destruct (arrive [a; b]) as [|x [|y [|z l]]] eqn:Earr; try (apply Permutation_length in Hp; discriminate).
  cbn [map evaluate]. change (0 <? 2) with true. change (1 <? 2) with true. change (2 <? 2) with false. cbv iota.
  destruct (out 0 x) as [r|e] eqn:Ex.
  - split; [reflexivity|]. exists x, y. auto.
  - destruct (out 0 y) as [r|e'] eqn:Ey.
    + split; [reflexivity|]. exists x, y. split; auto. split; auto. right. eauto.
    + split; [reflexivity|]. cbn [fst negb].
      assert (forall s, In s [a; b] -> exists e0, out 0 s = inr e0) as Hall.
      { intros s Hs. apply (Permutation_in _ (Permutation_sym Hp)) in Hs as [<-|[<-|[]]]; eauto. }
      split; apply Hall; cbn; auto.
Qed.

(** Random: one upstream; if it fails, a different one decides. *)
Theorem C50_random : 2 <= length sts ->
  exists a, In a sts /\
    ((exists r, out 0 a = inl r /\ parallel_resolve true now sts rnd arrive out = (GOk r, [a])) \/
     (exists e b, out 0 a = inr e /\ In b sts /\ st_id a <> st_id b /\
        parallel_resolve true now sts rnd arrive out = (match out 1 b with inl r => GOk r | inr _ => GFail end, [a; b]))).
Proof.
  intros Hl. destruct (weighted_random_ok [] (rnd 0)) as [a [Ea [Ha _]]]; [cbn; lia|].
  exists a. split; auto.
  assert (pick_random now sts 1 rnd [] = Some [a]) as Ep by (cbn [pick_random length]; now rewrite Ea).
  destruct (weighted_random_ok [a] (rnd 1)) as [b [Eb [Hb Hd]]]; [cbn; lia|].
  unfold parallel_resolve. destruct sts as [|s0 [|s1 sl]] eqn:Es; cbn in Hl; try lia. rewrite Ep. cbn [length].
  pose proof (Harr [a]) as Hp. apply Permutation_sym, Permutation_length_1_inv in Hp. rewrite Hp. cbn [map evaluate].
  change (0 <? 1) with true. change (1 <? 1) with false. cbv iota. destruct (out 0 a) as [r|e] eqn:Ex.
  - left. exists r. auto.
  - right. exists e, b. split; auto. split; auto. split; [now apply Hd; left|]. cbn [negb app]. now rewrite Eb.
Qed.

Theorem C50_single : forall random s, sts = [s] ->
  parallel_resolve random now sts rnd arrive out = (match out 0 s with inl r => GOk r | inr _ => GFail end, [s]).
Proof. intros random s ->. reflexivity. Qed.
End Parallel.
Print Assumptions C50_parallel.
Print Assumptions C50_random.
Print Assumptions C50_single.

Example C50_example :
  let sts := [{| st_id := 1; st_last_error := 0 |}; {| st_id := 2; st_last_error := 0 |}; {| st_id := 3; st_last_error := 0 |}] in
  let out := fun k s => if st_id s =? 3 then inr $"timeout" else inl (st_id s) in
  NoDup (map st_id sts) /\
  fst (parallel_resolve false 7200000000000 sts (fun _ => 100%N) (fun l => l) out) = GOk 2 /\
  map st_id (snd (parallel_resolve false 7200000000000 sts (fun k => if k =? 0 then 130%N else 0%N) (@rev status) out)) = [3; 1] /\
  fst (parallel_resolve true 7200000000000 sts (fun k => if k =? 0 then 130%N else 0%N) (fun l => l) out) = GOk 1.
Proof. cbv zeta. split; [repeat constructor; cbn; intuition discriminate|]. split; [reflexivity|]. split; reflexivity. Qed.

(** ** C51, C52: retries and rotation of addresses *)
Lemma ip_next_lt ips idx : ips <> [] -> ip_next ips idx < length ips.
Proof. intros H. unfold ip_next. apply Nat.mod_upper_bound. destruct ips; [congruence|discriminate]. Qed.

Lemma ip_next_mod ips k : ips <> [] -> ip_next ips (k mod length ips) = S k mod length ips.
Proof.
  intros H. unfold ip_next. assert (length ips <> 0) as Hn by (destruct ips; [congruence|discriminate]).
  rewrite Nat.add_1_r, <- Nat.add_1_r, Nat.add_mod_idemp_l by auto. f_equal. lia.
Qed.

Lemma attempts_step n k ips idx call done : attempts n k ips idx call done =
  match ip_current ips idx with
  | None => ([], None)
  | Some a =>
      match call k a with
      | inr CTimeout =>
          match n with
          | S (S m) =>
              if done k then ([a], Some (inr (COther $"context done")))
              else let '(used, r) := attempts (S m) (S k) ips (ip_next ips idx) call done in (a :: used, r)
          | _ => ([a], Some (inr CTimeout))
          end
      | r => ([a], Some r)
      end
  end.
Proof. destruct n as [|[|n]]; reflexivity. Qed.

Lemma attempts_spec : forall lft k ips call done, ips <> [] ->
  exists used res, attempts (S lft) k ips (k mod length ips) call done = (used, Some res) /\
    1 <= length used <= S lft /\
    (forall i, i < length used -> nth_error used i = nth_error ips ((k + i) mod length ips)) /\
    (forall i a, S i < length used -> nth_error used i = Some a -> call (k + i) a = inr CTimeout /\ done (k + i) = false) /\
    exists a, nth_error used (length used - 1) = Some a /\
      ((call (k + (length used - 1)) a <> inr CTimeout /\ res = call (k + (length used - 1)) a) \/
       (call (k + (length used - 1)) a = inr CTimeout /\ length used = S lft /\ res = inr CTimeout) \/
       (call (k + (length used - 1)) a = inr CTimeout /\ length used < S lft /\ done (k + (length used - 1)) = true /\ exists e, res = inr (COther e))).
Proof.
  induction lft as [|lft IH]; intros k ips call done Hne;
    assert (length ips <> 0) as Hn by (destruct ips; [congruence|discriminate]);
    assert (exists a, nth_error ips (k mod length ips) = Some a) as [a Ha]
      by (destruct (nth_error ips (k mod length ips)) as [a|] eqn:Ea; [eauto|]; apply nth_error_None in Ea; pose proof (Nat.mod_upper_bound k (length ips) Hn); lia);
    rewrite attempts_step; unfold ip_current; rewrite Ha.
  - destruct (call k a) as [m|e] eqn:Ec.
    + exists [a], (inl m). split; auto. split; [cbn; lia|]. split; [|split].
      * intros i Hi. cbn in Hi. assert (i = 0) by lia. subst. rewrite Nat.add_0_r. now rewrite Ha.
      * intros i b Hi. cbn in Hi. lia.
      * exists a. cbn. rewrite Nat.add_0_r. split; auto. left. rewrite Ec. split; [discriminate|auto].
    + exists [a], (inr e). split; [now destruct e|]. split; [cbn; lia|]. split; [|split].
      * intros i Hi. cbn in Hi. assert (i = 0) by lia. subst. rewrite Nat.add_0_r. now rewrite Ha.
      * intros i b Hi. cbn in Hi. lia.
      * exists a. cbn. rewrite Nat.add_0_r. split; auto. rewrite Ec. destruct e; [right; left; auto|left; split; [discriminate|auto]..].
  - assert (forall x, call k a = x -> x <> inr CTimeout -> exists used res,
      ([a], Some x) = (used, Some res) /\ 1 <= length used <= S (S lft) /\
      (forall i, i < length used -> nth_error used i = nth_error ips ((k + i) mod length ips)) /\
      (forall i b, S i < length used -> nth_error used i = Some b -> call (k + i) b = inr CTimeout /\ done (k + i) = false) /\
      exists b, nth_error used (length used - 1) = Some b /\
      ((call (k + (length used - 1)) b <> inr CTimeout /\ res = call (k + (length used - 1)) b) \/
       (call (k + (length used - 1)) b = inr CTimeout /\ length used = S (S lft) /\ res = inr CTimeout) \/
       (call (k + (length used - 1)) b = inr CTimeout /\ length used < S (S lft) /\ done (k + (length used - 1)) = true /\ exists e, res = inr (COther e)))) as Hone.
    { intros x Hx Hnt. exists [a], x. split; auto. split; [cbn; lia|]. split; [|split].
      - intros i Hi. cbn in Hi. assert (i = 0) by lia. subst i. rewrite Nat.add_0_r. now rewrite Ha.
      - intros i b Hi. cbn in Hi. lia.
      - exists a. cbn. rewrite Nat.add_0_r, Hx. auto. }
    destruct (call k a) as [m|[|m|e]] eqn:Ec; try (apply Hone; [reflexivity|discriminate]). clear Hone.
    destruct (done k) eqn:Ed.
    + exists [a], (inr (COther $"context done")). split; auto. split; [cbn; lia|]. split; [|split].
      * intros i Hi. cbn in Hi. assert (i = 0) by lia. subst. rewrite Nat.add_0_r. now rewrite Ha.
      * intros i b Hi. cbn in Hi. lia.
      * exists a. cbn [length]. replace (k + (1 - 1)) with k by lia. split; auto. right. right. repeat split; auto; [lia|]. eauto.
    + rewrite ip_next_mod by auto. destruct (IH (S k) ips call done Hne) as [used [res [E [Hl [Hr [Hm [b [Hb Hc]]]]]]]]. rewrite E.
      exists (a :: used), res. split; auto. split; [cbn; lia|]. split; [|split].
      * intros [|i] Hi; cbn [nth_error]; [now rewrite Nat.add_0_r|]. cbn in Hi. rewrite Hr by lia. do 2 f_equal. lia.
      * intros [|i] c Hi Hx; cbn [nth_error] in Hx.
        -- injection Hx as <-. rewrite Nat.add_0_r. auto.
        -- cbn in Hi. destruct (Hm i c) as [G1 G2]; [lia|auto|]. replace (k + S i) with (S k + i) by lia. auto.
      * exists b. destruct used as [|u used]; [cbn in Hl; lia|]. cbn [length] in *. rewrite Nat.sub_succ, Nat.sub_0_r in *. cbn [nth_error]. split; auto.
        replace (k + S (length used)) with (S k + length used) by lia.
        destruct Hc as [G|[[G1 [G2 G3]]|[G1 [G2 G3]]]]; [left; auto|right; left|right; right]; repeat split; auto; try lia; apply G3.
Qed.

(** The attempts: at most three, repeated only after timeouts, at the addresses in turn. *)
Theorem C51_retries : forall ips call done, ips <> [] ->
  exists used res, upstream_resolve ips false call done = (used, Some res) /\ tried ips call done used res.
Proof.
  intros ips call done Hne. destruct (attempts_spec 2 0 ips call done Hne) as [used [res H]].
  exists used, res. unfold upstream_resolve. rewrite Nat.mod_0_l in H by (destruct ips; [congruence|discriminate]). exact H.
Qed.
Print Assumptions C51_retries.

(** The result alone: the first outcome that is not a timeout. *)
Theorem C51_first_non_timeout : forall ips call n a, n < 3 -> nth_error ips (n mod length ips) = Some a ->
  (forall i b, i < n -> nth_error ips (i mod length ips) = Some b -> call i b = inr CTimeout) -> call n a <> inr CTimeout ->
  snd (upstream_resolve ips false call (fun _ => false)) = Some (call n a) /\
  length (fst (upstream_resolve ips false call (fun _ => false))) = S n.
Proof.
  intros ips call n a Hn Ha Hbefore Hx.
  assert (ips <> []) as Hne by (intros ->; destruct (n mod length (@nil ip)); discriminate).
  destruct (C51_retries ips call (fun _ => false) Hne) as [used [res [-> [Hl [Hr [Hm [b [Hb Hc]]]]]]]]. cbn [fst snd].
  assert (length used - 1 = n) as El.
  { destruct (lt_eq_lt_dec (length used - 1) n) as [[G|G]|G]; auto; exfalso.
    - pose proof Hb as Hb'. rewrite Hr in Hb' by lia. pose proof (Hbefore _ _ G Hb') as Hto.
      destruct Hc as [[C _]|[[_ [C _]]|[_ [_ [C _]]]]]; [congruence|lia|discriminate].
    - destruct (Hm n a) as [C _]; [lia| |congruence]. rewrite Hr by lia. auto. }
  rewrite El in *. rewrite Hr in Hb by lia. assert (b = a) as -> by congruence. split; [|lia].
  destruct Hc as [[_ ->]|[[C _]|[C _]]]; [auto|congruence..].
Qed.
Print Assumptions C51_first_non_timeout.

(** A client that is gone before the first attempt gets an error and nobody is asked. *)
Theorem C51_dead_client : forall ips call done, exists e, upstream_resolve ips true call done = ([], Some (inr (COther e))).
Proof. intros. eexists. reflexivity. Qed.
Print Assumptions C51_dead_client.

Definition ip_n (n : N) : ip := IP4 [n; 0; 0; 0]%N.
Definition some_msg (tc : bool) (rc : N) : msg := set_tc tc (set_rcode_field rc (new_msg_with_question 1 $"example.com" type_A)).
Example C51_example :
  upstream_resolve [ip_n 1; ip_n 2] false (fun k _ => if k =? 2 then inl (some_msg false 0) else inr CTimeout) (fun _ => false) =
    ([ip_n 1; ip_n 2; ip_n 1], Some (inl (some_msg false 0))) /\
  upstream_resolve [ip_n 1; ip_n 2] false (fun _ _ => inr CTimeout) (fun _ => false) = ([ip_n 1; ip_n 2; ip_n 1], Some (inr CTimeout)) /\
  upstream_resolve [ip_n 1; ip_n 2] false (fun _ _ => inr (COther $"refused")) (fun _ => false) = ([ip_n 1], Some (inr (COther $"refused"))).
Proof. repeat split; reflexivity. Qed.

(** Up to three addresses are all reached, as long as the attempts time out. *)
Theorem C52_rotation_partial : forall ips call, 1 <= length ips <= 3 -> (forall k a, call k a = inr CTimeout) ->
  forall a, In a ips -> In a (fst (upstream_resolve ips false call (fun _ => false))).
Proof.
  intros ips call Hl Hto a Hin. assert (ips <> []) as Hne by (intros ->; cbn in Hl; lia).
  destruct (C51_retries ips call (fun _ => false) Hne) as [used [res [-> [H1 [H2 [_ [b [_ Hc]]]]]]]]. cbn [fst].
  assert (length used = 3) as E3 by (destruct Hc as [[C _]|[[_ [C _]]|[_ [_ [C _]]]]]; [now rewrite Hto in C|auto|discriminate]).
  apply In_nth_error in Hin as [i Hi]. assert (i < length ips) as Hlt by (apply nth_error_Some; congruence).
  apply (nth_error_In used i). rewrite H2 by lia. now rewrite Nat.mod_small.
Qed.
Print Assumptions C52_rotation_partial.

(** Concurrent calls of Next: whatever the interleaving, the index stays inside the list (no crash). *)
Definition call_ok (n : nat) (c : next_call) : Prop :=
  match c with NRead2 _ new => new < n | _ => True end.

Lemma set_nth_Forall {A} (P : A -> Prop) x : forall l k, Forall P l -> P x -> Forall P (set_nth k x l).
Proof. induction l as [|y l IH]; intros [|k] H Hx; cbn; auto; inversion H; subst; constructor; auto. Qed.

Theorem C52_index_in_range : forall ips calls schedule, ips <> [] -> Forall (fun c => c = NStart) calls ->
  exists a, ip_current ips (fst (fold_left (ipset_step ips) schedule (0, calls))) = Some a.
Proof.
  intros ips calls schedule Hne Hc.
  assert (forall s, fst s < length ips /\ Forall (call_ok (length ips)) (snd s) ->
    let s' := fold_left (ipset_step ips) schedule s in fst s' < length ips /\ Forall (call_ok (length ips)) (snd s')) as Hinv.
  { induction schedule as [|k schedule IH]; intros s Hs; [exact Hs|]. cbn [fold_left]. apply IH. destruct s as [idx cs]. cbn [fst snd] in Hs. destruct Hs as [H1 H2].
    unfold ipset_step. cbn [fst snd]. destruct (nth_error cs k) as [c|] eqn:Ek; [|auto].
    pose proof (proj1 (Forall_forall _ _) H2 c (nth_error_In _ _ Ek)) as Hok.
    destruct c as [|old|old new|]; cbn [next_step fst snd].
    - split; auto. apply set_nth_Forall; cbn; auto.
    - split; auto. apply set_nth_Forall; auto. cbn. now apply ip_next_lt.
    - split; [|apply set_nth_Forall; cbn; auto]. destruct (idx =? old); auto.
    - split; auto. apply set_nth_Forall; cbn; auto. }
  destruct (Hinv (0, calls)) as [H _].
  { cbn. split; [destruct ips; [congruence|cbn; lia]|]. eapply Forall_impl; [|exact Hc]. now intros c ->. }
  unfold ip_current. destruct (nth_error ips _) eqn:E; [eauto|]. apply nth_error_None in E. cbv zeta in H. lia.
Qed.
Print Assumptions C52_index_in_range.

(** Fewer calls of Next than addresses, in any interleaving: no step of any call moves the index anywhere but
    to the following address (it never goes back, and skips none); once a call has returned, the index is not
    the first any more, and it has moved on by at most the number of calls that returned. *)
Definition returned (c : next_call) : bool := match c with NDone => true | _ => false end.

Lemma set_nth_returned x : forall l k c, nth_error l k = Some c ->
  length (filter returned (set_nth k x l)) + (if returned c then 1 else 0) =
  length (filter returned l) + (if returned x then 1 else 0).
Proof.
  induction l as [|y l IH]; intros [|k] c H; cbn in H; try discriminate H.
  - injection H as ->. cbn [set_nth filter]. destruct (returned x), (returned c); cbn [length]; lia.
  - cbn [set_nth filter]. specialize (IH _ _ H). destruct (returned y); cbn [length]; lia.
Qed.

Lemma set_nth_len {A} (x : A) : forall l k, length (set_nth k x l) = length l.
Proof. induction l as [|y l IH]; intros [|k]; cbn; auto. Qed.

Lemma not_all_returned l : forall k c, nth_error l k = Some c -> returned c = false -> length (filter returned l) < length l.
Proof.
  induction l as [|y l IH]; intros [|k] c H Hr; cbn in H; try discriminate H.
  - injection H as ->. cbn [filter]. rewrite Hr. cbn [length].
    clear IH. induction l as [|z l IH]; cbn [filter length]; [lia|]. destruct (returned z); cbn [length]; lia.
  - specialize (IH _ _ H Hr). cbn [filter]. destruct (returned y); cbn [length]; lia.
Qed.

Definition call_fits (idx : nat) (c : next_call) : Prop :=
  match c with
  | NStart => True
  | NRead old => old <= idx
  | NRead2 old new => old + 1 <= new /\ new <= idx + 1
  | NDone => 1 <= idx
  end.

Lemma call_fits_mono i j c : i <= j -> call_fits i c -> call_fits j c.
Proof. destruct c; cbn; lia. Qed.

Lemma ipset_step_forward ips idx cs k : length cs < length ips ->
  idx <= length (filter returned cs) -> Forall (call_fits idx) cs ->
  let s' := ipset_step ips (idx, cs) k in
  (fst s' = idx \/ fst s' = idx + 1) /\ length (snd s') = length cs /\
  fst s' <= length (filter returned (snd s')) /\ Forall (call_fits (fst s')) (snd s').
Proof.
  intros Hl Hi Hf. unfold ipset_step. cbn [fst snd]. destruct (nth_error cs k) as [c|] eqn:Ek; cbn [fst snd]; [|auto].
  pose proof (proj1 (Forall_forall _ _) Hf c (nth_error_In _ _ Ek)) as Hc.
  destruct c as [|old|old new|]; cbn [next_step fst snd].
  - pose proof (set_nth_returned (NRead idx) _ _ _ Ek) as Hn. cbn [returned] in Hn.
    split; [now left|]. split; [apply set_nth_len|]. split; [lia|]. apply set_nth_Forall; cbn; auto.
  - pose proof (set_nth_returned (NRead2 old (ip_next ips idx)) _ _ _ Ek) as Hn. cbn [returned] in Hn.
    pose proof (not_all_returned _ _ _ Ek eq_refl) as Hr.
    split; [now left|]. split; [apply set_nth_len|]. split; [lia|]. apply set_nth_Forall; auto.
    cbn [call_fits] in *. unfold ip_next. rewrite Nat.mod_small by lia. lia.
  - pose proof (set_nth_returned NDone _ _ _ Ek) as Hn. cbn [returned] in Hn. cbn [call_fits] in Hc.
    destruct (Nat.eqb_spec idx old) as [->|Hne].
    + assert (new = old + 1) as -> by lia. split; [now right|]. split; [apply set_nth_len|]. split; [lia|].
      apply set_nth_Forall; [|cbn; lia]. eapply Forall_impl; [|exact Hf]. intros c. apply call_fits_mono. lia.
    + split; [now left|]. split; [apply set_nth_len|]. split; [lia|]. apply set_nth_Forall; auto. cbn. lia.
  - pose proof (set_nth_returned NDone _ _ _ Ek) as Hn. cbn [returned] in Hn.
    split; [now left|]. split; [apply set_nth_len|]. split; [lia|]. apply set_nth_Forall; auto.
Qed.

Lemma ipset_run_forward ips : forall schedule idx cs, length cs < length ips ->
  idx <= length (filter returned cs) -> Forall (call_fits idx) cs ->
  let s' := fold_left (ipset_step ips) schedule (idx, cs) in
  length (snd s') = length cs /\ fst s' <= length (filter returned (snd s')) /\ Forall (call_fits (fst s')) (snd s').
Proof.
  induction schedule as [|k schedule IH]; intros idx cs Hl Hi Hf; cbn [fold_left]; [cbn; auto|].
  destruct (ipset_step_forward ips idx cs k Hl Hi Hf) as [_ [H1 [H2 H3]]].
  destruct (ipset_step ips (idx, cs) k) as [idx' cs']. cbn [fst snd] in H1, H2, H3.
  destruct (IH idx' cs') as [H4 [H5 H6]]; auto; [lia|]. cbv zeta. split; [congruence|auto].
Qed.

Theorem C52_forward : forall ips calls schedule k, length calls < length ips -> Forall (fun c => c = NStart) calls ->
  let s := fold_left (ipset_step ips) schedule (0, calls) in
  (fst (ipset_step ips s k) = fst s \/ fst (ipset_step ips s k) = fst s + 1) /\
  fst s <= length (filter returned (snd s)) /\ (In NDone (snd s) -> 1 <= fst s).
Proof.
  intros ips calls schedule k Hl Hc. cbv zeta.
  destruct (ipset_run_forward ips schedule 0 calls) as [H1 [H2 H3]]; auto; [lia| |].
  { eapply Forall_impl; [|exact Hc]. now intros c ->. }
  destruct (fold_left (ipset_step ips) schedule (0, calls)) as [idx cs]. cbn [fst snd] in *.
  destruct (ipset_step_forward ips idx cs k) as [H4 _]; auto; [lia|].
  split; [exact H4|]. split; [exact H2|]. intros Hd. exact (proj1 (Forall_forall _ _) H3 _ Hd).
Qed.
Print Assumptions C52_forward.

(** One call at a time, however many: each moves the index to the following address, after the last to the
    first. *)
Theorem C52_one_by_one : forall ips n k, ips <> [] -> k < n ->
  fst (fold_left (ipset_step ips) (flat_map (fun c => [c; c; c]) (seq 0 k)) (0, repeat NStart n)) = Nat.modulo k (length ips).
Proof.
  intros ips n k Hne Hk.
  assert (length ips <> 0) as Hl by (destruct ips; [congruence|cbn; lia]).
  enough (fold_left (ipset_step ips) (flat_map (fun c => [c; c; c]) (seq 0 k)) (0, repeat NStart n) =
    (Nat.modulo k (length ips), repeat NDone k ++ repeat NStart (n - k))) as -> by reflexivity.
  induction k as [|k IH].
  - cbn. rewrite Nat.mod_0_l by exact Hl. now rewrite Nat.sub_0_r.
  - rewrite seq_S, flat_map_app, fold_left_app, IH by lia. cbn [Nat.add flat_map app fold_left].
    assert (forall c c' l, nth_error (repeat NDone k ++ c :: l) k = Some c /\
      set_nth k c' (repeat NDone k ++ c :: l) = repeat NDone k ++ c' :: l) as Hat.
    { intros c c' l. clear. induction k as [|k [IH1 IH2]]; cbn; [auto|]. split; [exact IH1|]. now f_equal. }
    replace (n - k) with (S (n - S k)) by lia. cbn [repeat].
    pose proof (fun c c' => proj1 (Hat c c' (repeat NStart (n - S k)))) as Hn.
    pose proof (fun c c' => proj2 (Hat c c' (repeat NStart (n - S k)))) as Hs.
    unfold ipset_step. cbn [fst snd].
    rewrite (Hn _ NDone). cbn [next_step fst snd]. rewrite Hs. rewrite (Hn _ NDone). cbn [next_step fst snd]. rewrite Hs.
    rewrite (Hn _ NDone). cbn [next_step fst snd]. rewrite Hs, Nat.eqb_refl. f_equal.
    + unfold ip_next. rewrite Nat.add_mod_idemp_l by exact Hl. f_equal. lia.
    + clear. change (repeat NDone (S k)) with (NDone :: repeat NDone k). rewrite repeat_cons, <- app_assoc. reflexivity.
Qed.
Print Assumptions C52_one_by_one.

(** With as many calls as addresses a late call can skip addresses: it read the index twice, and the others
    brought it back to the first value it read. *)
Theorem C52_skip_refuted : exists ips calls schedule k, Forall (fun c => c = NStart) calls /\ length calls = 4 /\ length ips = 3 /\
  let s := fold_left (ipset_step ips) schedule (0, calls) in
  fst (ipset_step ips s k) <> fst s /\ fst (ipset_step ips s k) <> Nat.modulo (fst s + 1) (length ips).
Proof.
  exists [ip_n 1; ip_n 2; ip_n 3], [NStart; NStart; NStart; NStart], [0; 1; 1; 1; 0; 2; 2; 2; 3; 3; 3], 0.
  split; [repeat constructor|]. split; [reflexivity|]. split; [reflexivity|]. vm_compute. split; intros H; discriminate H.
Qed.
Print Assumptions C52_skip_refuted.

Example C52_example : fst (fold_left (ipset_step [ip_n 1; ip_n 2; ip_n 3]) [0; 1; 0; 1; 0; 1] (0, [NStart; NStart])) = 1 /\
  fst (fold_left (ipset_step [ip_n 1; ip_n 2; ip_n 3]) [0; 0; 0; 1; 1; 1] (0, [NStart; NStart])) = 2.
Proof. split; reflexivity. Qed.

(** Every request starts with the first address: a fourth address is never used, whatever the outcomes. *)
Theorem C52_fourth_never_refuted : exists ips a, In a ips /\ forall dead call done, ~ In a (fst (upstream_resolve ips dead call done)).
Proof.
  exists [ip_n 1; ip_n 2; ip_n 3; ip_n 4], (ip_n 4). split; [cbn; auto|]. intros dead call done. unfold upstream_resolve. destruct dead; [intros []|].
  intros H.
  destruct (C51_retries [ip_n 1; ip_n 2; ip_n 3; ip_n 4] call done) as [used [res [E [Hl [Hr _]]]]]; [discriminate|]. unfold upstream_resolve in E. rewrite E in H. cbn [fst] in H.
  apply In_nth_error in H as [i Hi]. assert (i < length used) by (apply nth_error_Some; congruence).
  rewrite Hr in Hi by auto. destruct i as [|[|[|i]]]; try discriminate. lia.
Qed.
Print Assumptions C52_fourth_never_refuted.

(** An address that refuses the connection makes the request fail although the next address would answer. *)
Theorem C52_refused_address_refuted : exists ips call m, (forall k a, a = ip_n 1 -> call k a = inr (COther $"connection refused")) /\
  (forall k a, a <> ip_n 1 -> call k a = inl m) /\ length ips = 2 /\
  snd (upstream_resolve ips false call (fun _ => false)) = Some (inr (COther $"connection refused")).
Proof.
  exists [ip_n 1; ip_n 2], (fun _ a => if ip_eqb a (ip_n 1) then inr (COther $"connection refused") else inl (some_msg false 0)), (some_msg false 0).
  split; [intros k a ->; reflexivity|]. split; [|split; reflexivity]. intros k a Ha. destruct (ip_eqb a (ip_n 1)) eqn:E; auto. elim Ha. now apply BlockingProofs.ip_eqb_eq.
Qed.
Print Assumptions C52_refused_address_refuted.

(** ** C90: the race of UDP and TCP *)
Lemma complete_whole x m : whole x m <-> complete (check_servfail x) = true /\ check_servfail x = inl m.
Proof.
  unfold whole, is_answer, complete, check_servfail. destruct x as [n|e].
  - destruct (N.eqb_spec (m_rcode n) rcode_servfail) as [Hr|Hr]; unfold rcode_servfail in *.
    + split; [intros [[[= <-] G] _]; congruence|intros [G _]; discriminate].
    + split; [intros [[[= <-] G1] G2]; now rewrite G2|]. intros [G1 [= <-]]. apply negb_true_iff in G1. auto.
  - split; [intros [[[=] _] _]|intros [G _]; discriminate].
Qed.

Lemma complete_none x : complete (check_servfail x) = false -> forall m, ~ whole x m.
Proof. intros H m Hw. apply complete_whole in Hw as [Hw _]. congruence. Qed.

Lemma answered x m : check_servfail x = inl m <-> is_answer x m.
Proof.
  unfold is_answer, check_servfail. destruct x as [n|e].
  - destruct (N.eqb_spec (m_rcode n) rcode_servfail) as [Hr|Hr]; unfold rcode_servfail in *.
    + split; [discriminate|intros [[= <-] G]; congruence].
    + split; [intros [= <-]; auto|intros [[= <-] G]; auto].
  - split; [discriminate|intros [[=] _]].
Qed.

Lemma failed_is x e : check_servfail x = inr e <-> is_failure x e.
Proof.
  unfold is_failure, check_servfail. destruct x as [n|e'].
  - destruct (N.eqb_spec (m_rcode n) rcode_servfail) as [Hr|Hr]; unfold rcode_servfail in *.
    + split; [intros [= <-]; right; eauto|]. intros [H|[m [[= <-] [_ ->]]]]; [discriminate|auto].
    + split; [discriminate|]. intros [H|[m [[= <-] [G _]]]]; [discriminate|congruence].
  - split; [intros [= <-]; auto|]. intros [[= <-]|[m [H _]]]; [auto|discriminate].
Qed.

Theorem C90_race : forall p (udp_first : bool) tcp udp web,
  race_result (if udp_first then udp else tcp) (if udp_first then tcp else udp) (match p with TCP => tcp | UDP => udp end)
    (call_external TcpUdp p udp_first tcp udp web).
Proof.
  assert (forall p a b x y own, (a = p -> own = x) -> (a <> p -> own = y) ->
    race_result x y own (race_clients p (a, check_servfail x) (b, check_servfail y))) as Hrace.
  { intros p a b x y own Ho1 Ho2. unfold race_clients. cbn [fst snd].
    destruct (complete (check_servfail x)) eqn:Ex.
    - destruct (check_servfail x) as [m|e] eqn:Exx; [|discriminate]. apply rr_first. apply complete_whole. now rewrite Exx.
    - destruct (complete (check_servfail y)) eqn:Ey.
      + destruct (check_servfail y) as [m|e] eqn:Eyy; [|discriminate]. apply rr_second; [now apply complete_none|]. apply complete_whole. now rewrite Eyy.
      + destruct (check_servfail x) as [m|e] eqn:Exx; cbn [failed andb].
        * apply rr_cut; [apply complete_none; now rewrite Exx|now apply complete_none|now apply answered].
        * destruct (check_servfail y) as [m|e'] eqn:Eyy; cbn [failed].
          -- apply rr_cut2 with e; [now apply failed_is|apply complete_none; now rewrite Eyy|now apply answered].
          -- assert (a = p \/ a <> p) as [Hp|Hp] by (destruct a, p; auto; right; discriminate).
             ++ rewrite (Ho1 Hp). subst a. destruct p; (apply rr_none with e e'; now apply failed_is).
             ++ rewrite (Ho2 Hp). destruct a, p; try congruence; (apply rr_none with e e'; now apply failed_is). }
  intros p [|] tcp udp web; cbn [call_external]; apply Hrace; destruct p; auto; congruence.
Qed.
Print Assumptions C90_race.

(** In words: the answer is complete whenever one of the transports gives a complete one; an error means that
    both failed. *)
Theorem C90_complete_if_any : forall p (udp_first : bool) tcp udp web,
  ((exists m, whole tcp m \/ whole udp m) -> exists m, call_external TcpUdp p udp_first tcp udp web = inl m /\ m_tc m = false) /\
  ((exists e, call_external TcpUdp p udp_first tcp udp web = inr e) <-> (exists e, is_failure tcp e) /\ (exists e, is_failure udp e)).
Proof.
  intros p udp_first tcp udp web. pose proof (C90_race p udp_first tcp udp web) as H.
  set (r := call_external TcpUdp p udp_first tcp udp web) in *.
  assert (forall x m, is_answer x m -> forall e, ~ is_failure x e) as Hex.
  { intros x m [-> Hm] e [C|[n [[= <-] [C _]]]]; congruence. }
  split.
  - intros [m0 Hw].
    assert ((exists m, whole (if udp_first then udp else tcp) m) \/ (exists m, whole (if udp_first then tcp else udp) m)) as Hw'.
    { destruct udp_first, Hw as [Hw|Hw]; eauto. }
    inversion H as [m H1 Hr|m H1 H2 Hr|m H1 H2 H3 Hr|m e H1 H2 H3 Hr|e e1 e2 H1 H2 H3 Hr].
    + exists m. split; auto. apply H1.
    + exists m. split; auto. apply H2.
    + destruct Hw' as [[x Hx]|[x Hx]]; [elim (H1 x Hx)|elim (H2 x Hx)].
    + destruct Hw' as [[x Hx]|[x Hx]]; [elim (Hex _ _ (proj1 Hx) _ H1)|elim (H2 x Hx)].
    + destruct Hw' as [[x Hx]|[x Hx]]; [elim (Hex _ _ (proj1 Hx) _ H1)|elim (Hex _ _ (proj1 Hx) _ H2)].
  - split.
    + intros [e He]. rewrite He in H. inversion H. destruct udp_first; eauto.
    + intros [[e1 H1] [e2 H2]].
      assert (forall x, x = tcp \/ x = udp -> forall m, ~ is_answer x m) as Hno.
      { intros x [-> | ->] m Hm; eapply Hex; eauto. }
      inversion H as [m G Hr|m G1 G2 Hr|m G1 G2 G3 Hr|m e G1 G2 G3 Hr|e e3 e4 G1 G2 G3 Hr].
      * elim (Hno (if udp_first then udp else tcp) ltac:(destruct udp_first; auto) m (proj1 G)).
      * elim (Hno (if udp_first then tcp else udp) ltac:(destruct udp_first; auto) m (proj1 G2)).
      * elim (Hno (if udp_first then udp else tcp) ltac:(destruct udp_first; auto) m G3).
      * elim (Hno (if udp_first then tcp else udp) ltac:(destruct udp_first; auto) m G3).
      * exists e. auto.
Qed.
Print Assumptions C90_complete_if_any.

Example C90_example :
  let cut := some_msg true 0 in let full := some_msg false 0 in
  call_external TcpUdp UDP true (inl full) (inl cut) (inr CTimeout) = inl full /\
  call_external TcpUdp UDP true (inr CTimeout) (inl cut) (inr CTimeout) = inl cut /\
  call_external TcpUdp UDP true (inr (COther $"refused")) (inr CTimeout) (inr CTimeout) = inr CTimeout.
Proof. repeat split; reflexivity. Qed.

(** ** C91: SERVFAIL of an upstream *)
Theorem C91_servfail_partial : forall p (udp_first : bool) tcp udp web m,
  call_external TcpUdp p udp_first tcp udp web = inl m -> m_rcode m <> 2%N.
Proof.
  intros p udp_first tcp udp web m Hm. pose proof (C90_race p udp_first tcp udp web) as H. rewrite Hm in H.
  inversion H as [n G Hr|n G1 G2 Hr|n G1 G2 G3 Hr|n e G1 G2 G3 Hr|]; first [apply G|apply G2|apply G3].
Qed.
Print Assumptions C91_servfail_partial.

(** Over TLS and HTTPS a SERVFAIL counts as an answer: with the strategy "strict" the second upstream, which would
    answer, is not asked; with "parallel_best" the SERVFAIL wins if it arrives first. *)
Theorem C91_tls_refuted : exists bad good, m_rcode bad = 2%N /\ m_rcode good = 0%N /\ forall n, n = TcpTls \/ n = Https ->
  let outcome m := call_external n UDP true (inl m) (inl m) (inl {| hr_status := 200; hr_type := $"application/dns-message"; hr_body := Some m |}) in
  strict_resolve [(1, outcome bad); (2, outcome good)] = ([1], Some bad) /\
  let sts := [{| st_id := 1; st_last_error := 0 |}; {| st_id := 2; st_last_error := 0 |}] in
  fst (parallel_resolve false 7200000000000 sts (fun _ => 0%N) (fun l => l) (fun _ s => outcome (if st_id s =? 1 then bad else good))) = GOk bad.
Proof. exists (some_msg false 2), (some_msg false 0). do 2 (split; [reflexivity|]). intros n [-> | ->]; split; reflexivity. Qed.
Print Assumptions C91_tls_refuted.

(** An upstream reached over TLS or HTTPS is never asked in clear text: what a clear-text exchange would have
    given, and the transport the client used, change nothing. *)
Theorem C91_no_clear_text : forall n p p' f f' tcp udp udp' web, n = TcpTls \/ n = Https ->
  call_external n p f tcp udp web = call_external n p' f' tcp udp' web.
Proof. intros n p p' f f' tcp udp udp' web [-> | ->]; reflexivity. Qed.
Print Assumptions C91_no_clear_text.

(** ** C92: addresses of an upstream *)
Lemma addrs_of_flat l : addrs_of l (flat_map (fun x => match rr_data x with DA a | DAAAA a => [a] | _ => [] end) l).
Proof.
  induction l as [|x l IH]; cbn [flat_map]; [constructor|].
  destruct (rr_data x) eqn:E; cbn [app]; try (apply ao_addr; [unfold record_addr; rewrite E; auto|exact IH]);
    (apply ao_skip; [intros b [H|H]; congruence|exact IH]).
Qed.

(** What one lookup contributes: its addresses if it succeeds, nothing if its code is not NOERROR. *)
Definition contributes (res : result) (ips : list ip) : Prop :=
  exists r m, res = Ok r /\ rs_msg r = Some m /\
    ((m_rcode m = 0%N /\ addrs_of (m_answer m) ips) \/ (m_rcode m <> 0%N /\ ips = [])).

Lemma resolve_types_ok : forall rs ls acc err, Forall2 contributes rs ls ->
  resolve_types None rs acc err = if err then Some (inr tt) else match acc ++ concat ls with [] => Some (inr tt) | l => Some (inl l) end.
Proof.
  intros rs ls acc err H. revert acc. induction H as [|res l rs ls Hc H IH]; intros acc; cbn [resolve_types concat].
  - rewrite app_nil_r. now destruct err, acc.
  - destruct Hc as [r [m [-> [Hm Hc]]]]. cbn [resolve_type]. rewrite Hm.
    assert ((if negb (m_rcode m =? rcode_success)%N then Some (inl []) else Some (inl (flat_map (fun x => match rr_data x with DA a | DAAAA a => [a] | _ => [] end) (m_answer m)))) = Some (@inl (list ip) str l)) as ->.
    { destruct Hc as [[-> Ha]|[Hn ->]].
      - cbn [negb N.eqb rcode_success]. do 2 f_equal. revert Ha. generalize (m_answer m) as rrs. clear. intros rrs Ha.
        induction Ha as [|x a rrs ips [E|E] Ha IH|x rrs ips Hno Ha IH]; cbn [flat_map]; auto; rewrite ?E, ?IH; cbn [app]; auto.
        destruct (rr_data x) eqn:E; cbn [app]; auto; exfalso; eapply Hno; [left|right]; exact E.
      - apply N.eqb_neq in Hn. unfold rcode_success. now rewrite Hn. }
    rewrite IH, app_assoc. reflexivity.
Qed.

(** When every lookup gets an answer, the addresses are all those found, in order; none found is an error. *)
Theorem C92_addresses_partial : forall f system v ls, Forall2 contributes (map f (qtypes v)) ls ->
  upstream_ips None None (Some f) system v = Some (match concat ls with [] => inr tt | l => inl l end).
Proof. intros f system v ls H. cbn [upstream_ips]. rewrite (resolve_types_ok _ _ _ _ H). cbn [app]. now destruct (concat ls). Qed.
Print Assumptions C92_addresses_partial.

Definition has_message (res : result) : Prop := match res with Ok r => rs_msg r <> None | Err _ => True end.

Lemma resolve_types_nonempty : forall rs parsed acc err, Forall has_message rs ->
  exists x, resolve_types parsed rs acc err = Some x /\ match x with inl ips => ips <> [] | inr _ => True end.
Proof.
  induction rs as [|r rs IH]; intros parsed acc err H; cbn [resolve_types].
  - destruct err; [eexists; split; [reflexivity|exact I]|]. destruct acc; eexists; (split; [reflexivity|cbn; auto; discriminate]).
  - inversion H as [|? ? Hr Hrs]; subst. destruct parsed as [i|]; cbn [resolve_type]; [apply (IH _ _ _ Hrs)|].
    destruct r as [r|e]; [|apply (IH _ _ _ Hrs)]. cbn [has_message] in Hr. destruct (rs_msg r) as [m|]; [|congruence].
    destruct (negb (m_rcode m =? rcode_success)%N); apply (IH _ _ _ Hrs).
Qed.

(** The address list is never empty: neither the rotation (C52) nor dialContext can crash. *)
Theorem C92_never_empty : forall parsed fixed boot system v ips,
  match fixed with Some l => l <> [] | None => True end -> match system with inl l => l <> [] | inr _ => True end ->
  upstream_ips parsed fixed boot system v = Some (inl ips) -> ips <> [].
Proof.
  intros parsed fixed boot system v ips Hf Hs. unfold upstream_ips. destruct parsed; [intros [= <-]; discriminate|].
  destruct fixed; [now intros [= <-]|]. destruct boot as [f|]; [|intros [= ->]; auto]. clear.
  intros H. assert (forall rs acc err, resolve_types None rs acc err = Some (inl ips) -> ips <> []) as Hr.
  { induction rs as [|r rs IH]; intros acc err; cbn [resolve_types].
    - destruct err; [discriminate|]. destruct acc; [discriminate|]. now intros [= <-].
    - destruct (resolve_type None r) as [[l|e]|]; [apply IH|apply IH|discriminate]. }
  now apply Hr in H.
Qed.
Print Assumptions C92_never_empty.

Theorem C92_dial_no_crash : forall parsed f v net4 net6 r, (forall t, has_message (f t)) -> dial_ip parsed f v net4 net6 r <> Some None.
Proof.
  intros parsed f v net4 net6 r Hf. unfold dial_ip.
  destruct (resolve_types_nonempty (map f (dial_types v net4 net6)) parsed [] false) as [x [-> Hx]].
  { apply Forall_forall. intros y Hy. apply in_map_iff in Hy as [t [<- _]]. apply Hf. }
  destruct x as [ips|]; [|discriminate]. intros [= Hn]. apply nth_error_None in Hn.
  assert (length ips <> 0) as Hl by (destruct ips; [congruence|discriminate]). pose proof (Nat.mod_upper_bound r (length ips) Hl). lia.
Qed.
Print Assumptions C92_dial_no_crash.

(** With a fixed IP version only addresses of that version are used, provided that an answer to a question for A
    records holds only IPv4 addresses, and the same for AAAA. *)
Definition families_kept (f : N -> result) : Prop :=
  forall t r m ls, f t = Ok r -> rs_msg r = Some m -> addrs_of (m_answer m) ls -> Forall (fun a => is_v4 a = (t =? 1)%N) ls.

Lemma one_type_family f t ips : families_kept f -> resolve_types None (map f [t]) [] false = Some (inl ips) ->
  Forall (fun a => is_v4 a = (t =? 1)%N) ips.
Proof.
  intros Hf H. cbn [map resolve_types app] in H.
  destruct (resolve_type None (f t)) as [[l|e]|] eqn:Er; [|discriminate..].
  assert (l = ips) as -> by (destruct l; congruence). cbn [resolve_type] in Er. destruct (f t) as [r|e] eqn:Ef; [|discriminate].
  destruct (rs_msg r) as [m|] eqn:Em; [|discriminate]. destruct (negb (m_rcode m =? rcode_success)%N).
  - injection Er as <-. constructor.
  - assert (ips = flat_map (fun x => match rr_data x with DA a | DAAAA a => [a] | _ => [] end) (m_answer m)) as -> by congruence.
    eapply Hf; [exact Ef|exact Em|apply addrs_of_flat].
Qed.

Theorem C92_family_partial : forall f system v ips, v <> Dual -> families_kept f ->
  upstream_ips None None (Some f) system v = Some (inl ips) ->
  Forall (fun a => is_v4 a = match v with V4 => true | _ => false end) ips.
Proof.
  intros f system v ips Hv Hf H. cbn [upstream_ips] in H. destruct v; [congruence| |]; exact (one_type_family f _ ips Hf H).
Qed.
Print Assumptions C92_family_partial.

(** The same for connections to download lists; the network name decides when both versions are allowed. *)
Theorem C92_dial_family_partial : forall f v net4 net6 r a, families_kept f ->
  dial_ip None f v net4 net6 r = Some (Some a) ->
  (v = V4 -> is_v4 a = true) /\ (v = V6 -> is_v4 a = false) /\
  (v = Dual -> net4 = true -> is_v4 a = true) /\ (v = Dual -> net4 = false -> net6 = true -> is_v4 a = false).
Proof.
  intros f v net4 net6 r a Hf H. unfold dial_ip in H.
  assert (forall t, dial_types v net4 net6 = [t] -> is_v4 a = (t =? 1)%N) as Hone.
  { intros t Et. rewrite Et in H. destruct (resolve_types None (map f [t]) [] false) as [[ips|]|] eqn:E; try discriminate.
    apply (one_type_family f t ips Hf) in E. rewrite Forall_forall in E. apply E. eapply nth_error_In. injection H as H. exact H. }
  split; [|split; [|split]].
  - intros ->. exact (Hone type_A eq_refl).
  - intros ->. exact (Hone type_AAAA eq_refl).
  - intros -> ->. exact (Hone type_A eq_refl).
  - intros -> -> ->. exact (Hone type_AAAA eq_refl).
Qed.
Print Assumptions C92_dial_family_partial.

Definition ok_answer (l : list rr) : result := Ok {| rs_msg := Some (set_answer l (new_msg_with_question 1 $"dns.example" type_A)); rs_reason := $"R"; rs_type := RESOLVED |}.
Definition a_rr : rr := {| rr_name := $"dns.example."; rr_type := type_A; rr_class := 1; rr_ttl := 60; rr_data := DA (ip_n 9) |}.
Example C92_example :
  upstream_ips None None (Some (fun t => if (t =? type_A)%N then ok_answer [a_rr; a_rr] else ok_answer [])) (inr tt) Dual = Some (inl [ip_n 9; ip_n 9]) /\
  upstream_ips None None (Some (fun t => if (t =? type_A)%N then ok_answer [a_rr] else ok_answer [])) (inr tt) V6 = Some (inr tt) /\
  dial_ip None (fun t => if (t =? type_A)%N then ok_answer [a_rr] else ok_answer []) Dual false false 5 = Some (Some (ip_n 9)).
Proof. repeat split; reflexivity. Qed.

(** An IPv4 address is found, but the lookup of the IPv6 address fails: the upstream is not usable. *)
Theorem C92_one_family_refuted : exists f l, f type_A = ok_answer l /\ (exists a, addrs_of l [a]) /\
  (exists e, f type_AAAA = Err e) /\ forall system, upstream_ips None None (Some f) system Dual = Some (inr tt).
Proof.
  exists (fun t => if (t =? type_A)%N then ok_answer [a_rr] else Err $"timeout"), [a_rr]. split; [reflexivity|]. split.
  - exists (ip_n 9). apply ao_addr; [now left|constructor].
  - split; [eexists; reflexivity|reflexivity].
Qed.
Print Assumptions C92_one_family_refuted.

(** A host is usable exactly when no lookup fails and some address is found; the addresses are then those found, in order. *)
Lemma resolve_types_inl : forall rs acc err ips, resolve_types None rs acc err = Some (inl ips) ->
  err = false /\ exists ls, Forall2 contributes rs ls /\ ips = acc ++ concat ls.
Proof.
  induction rs as [|r rs IH]; intros acc err ips H; cbn [resolve_types] in H.
  - destruct err; [discriminate H|]. split; [reflexivity|]. exists []. split; [constructor|].
    destruct acc; [discriminate H|]. injection H as <-. now rewrite app_nil_r.
  - destruct (resolve_type None r) as [[l|e]|] eqn:E; [| |discriminate H].
    + apply IH in H as [He [ls [H ->]]]. split; [exact He|]. exists (l :: ls). split; [|cbn [concat]; now rewrite app_assoc].
      constructor; [|exact H]. destruct r as [r|e]; cbn [resolve_type] in E; [|discriminate E].
      destruct (rs_msg r) as [m|] eqn:Em; [|discriminate E]. exists r, m. split; [reflexivity|]. split; [exact Em|].
      destruct (m_rcode m =? rcode_success)%N eqn:Er; cbn [negb] in E; injection E as <-.
      * left. split; [now apply N.eqb_eq|apply addrs_of_flat].
      * right. split; [now apply N.eqb_neq|reflexivity].
    + apply IH in H as [He _]. discriminate He.
Qed.

Theorem C92_usable_iff : forall f system v ips,
  upstream_ips None None (Some f) system v = Some (inl ips) <->
  exists ls, Forall2 contributes (map f (qtypes v)) ls /\ ips = concat ls /\ ips <> [].
Proof.
  intros f system v ips. split.
  - intros H. pose proof (C92_never_empty None None (Some f) (inr tt) v ips I I) as Hn. cbn [upstream_ips] in H, Hn. specialize (Hn H).
    apply resolve_types_inl in H as [_ [ls [H ->]]]. exists ls. now split.
  - intros [ls [H [-> Hn]]]. rewrite (C92_addresses_partial f system v ls H). destruct (concat ls); [congruence|reflexivity].
Qed.
Print Assumptions C92_usable_iff.

(** A host given as an address, or with addresses given for it, is used whatever IP version is configured. *)
Theorem C92_literal_refuted : exists i, is_v4 i = false /\ (forall f system, upstream_ips (Some i) None f system V4 = Some (inl [i])) /\
  (forall f system, upstream_ips None (Some [i]) f system V4 = Some (inl [i])) /\
  (forall f net4 net6 r, dial_ip (Some i) f V4 net4 net6 r = Some (Some i)).
Proof.
  exists (IP6 (repeat 0%N 15 ++ [1%N])). split; [reflexivity|]. split; [reflexivity|]. split; [reflexivity|]. intros f net4 net6 r.
  unfold dial_ip. cbn [dial_types qtypes map resolve_types resolve_type app length]. now rewrite Nat.mod_1_r.
Qed.
Print Assumptions C92_literal_refuted.


(** ** C93: start-up of a group *)
Theorem C93_fail_on_error : forall (U : Type) (test : U -> bool) boot us,
  (init_group InitFailOnError test boot us = None <-> forall u, In u us -> test u = false) /\
  (forall l, init_group InitFailOnError test boot us = Some l -> l = filter test us /\ l <> []).
Proof.
  intros U test boot us. unfold init_group, create_group. cbn [do_init]. cbv zeta.
  assert (filter (fun u => negb (negb (test u))) us = filter test us) as -> by (apply filter_ext; intros u; apply negb_involutive).
  assert (filter test us = [] <-> forall u, In u us -> test u = false) as Hf.
  { split.
    - intros H u Hu. destruct (test u) eqn:E; auto. assert (In u (filter test us)) as Hi by now apply filter_In. rewrite H in Hi. destruct Hi.
    - intros H. destruct (filter test us) as [|u l] eqn:E; auto. assert (In u (filter test us)) as Hi by (rewrite E; now left).
      apply filter_In in Hi as [H1 H2]. rewrite H in H2; [discriminate|auto]. }
  rewrite <- Hf. destruct (filter test us) as [|u l] eqn:E; cbn [negb]; split; try (split; [auto|reflexivity || discriminate]); try discriminate; auto.
  - intros l' [= <-]. split; [reflexivity|discriminate].
Qed.
Print Assumptions C93_fail_on_error.

Theorem C93_other_strategies : forall (U : Type) s (test : U -> bool) boot us, s <> InitFailOnError ->
  init_group s test boot us = Some (match us with [] => [boot] | _ => us end).
Proof.
  intros U s test boot us Hs. unfold init_group, create_group.
  assert (forall ok, do_init s ok = false) as Hd by (intros ok; destruct s; auto; congruence).
  assert (filter (fun u => negb (do_init s (test u))) us = us) as ->.
  { induction us as [|u us IH]; cbn [filter]; auto. rewrite Hd. cbn [negb]. now rewrite IH. }
  cbv zeta. rewrite Hd. now destruct us.
Qed.
Print Assumptions C93_other_strategies.

Example C93_example : init_group InitFailOnError Nat.even 0 [1; 2; 3] = Some [2] /\ init_group InitFailOnError Nat.even 0 [1; 3] = None /\
  init_group InitBlocking Nat.even 0 [1; 3] = Some [1; 3].
Proof. repeat split; reflexivity. Qed.

(** ** C94: answers over HTTPS *)
Theorem C94_https_partial : forall p (udp_first : bool) tcp udp web m,
  call_external Https p udp_first tcp udp web = inl m <->
  exists h, web = inl h /\ hr_status h = 200%N /\ hr_type h = $"application/dns-message" /\ hr_body h = Some m.
Proof.
  intros p udp_first tcp udp web m. cbn [call_external]. unfold https_call. destruct web as [h|e]; [|split; [discriminate|intros [h [H _]]; discriminate]].
  split.
  - destruct (N.eqb_spec (hr_status h) 200) as [H1|H1]; cbn [negb]; [|discriminate].
    destruct (str_eqb (hr_type h) $"application/dns-message") eqn:H2; cbn [negb]; [|discriminate].
    destruct (hr_body h) as [b|] eqn:H3; [|discriminate]. intros [= <-]. apply str_eqb_eq in H2. eauto.
  - intros [h' [[= <-] [-> [-> ->]]]]. reflexivity.
Qed.
Print Assumptions C94_https_partial.

(** The answer need not have the id or the question of the query. *)
Theorem C94_unrelated_reply_refuted : exists q m h, m_id m <> m_id q /\ m_question m <> m_question q /\ hr_body h = Some m /\
  call_external Https UDP true (inr CTimeout) (inr CTimeout) (inl h) = inl m.
Proof.
  exists (new_msg_with_question 1 $"example.com" type_A), (new_msg_with_question 2 $"other.org" type_AAAA),
    {| hr_status := 200; hr_type := $"application/dns-message"; hr_body := Some (new_msg_with_question 2 $"other.org" type_AAAA) |}.
  repeat split; try reflexivity; intros H; vm_compute in H; discriminate.
Qed.
Print Assumptions C94_unrelated_reply_refuted.
