(** Theorems about the blocking commands of the REST interface (C111) and several instances (C112). *)
From Coq Require Import String Ascii List Arith NArith ZArith Bool Lia.
From Verif Require Import Str StrFacts ArpaSpec ArpaProofs Num NumFacts Dns Blocking BlockingSpec BlockingProofs BlockingProps
  Duration DurationSpec DurationProps Api ApiSpec.
Import ListNotations.
Open Scope list_scope.

(** ** C111 *)
Lemma parse_duration_means fraction t d : duration_means fraction t d -> (-9223372036854775808 <= d < 9223372036854775808)%Z ->
  parse_duration fraction t = Some d.
Proof.
  intros [H|[-> [->|[->| ->]]]] Hd; [|reflexivity..].
  apply unsign_signed in H; [|exact (amounts_no_sign fraction)]. destruct H as [u [n [Ht Hs]]].
  destruct (amounts_head _ _ _ Ht) as [_ Hn].
  assert (u <> $"0") as H0 by (intros ->; pose proof (amounts_not_number _ _ _ Ht) as Hx; discriminate).
  rewrite parse_duration_unsign.
  destruct Hs as [[-> ->]|[-> ->]]; rewrite (proj2 (str_eqb_neq u ($"0")) H0);
    rewrite (loop_complete fraction u n Ht (length u) 0) by lia; destruct u as [|c u]; try congruence.
  - now replace (9223372036854775807 <? 0 + n)%N with false by (symmetry; apply N.ltb_ge; lia).
  - reflexivity.
Qed.

Lemma parse_duration_only fraction t d : parse_duration fraction t = Some d -> exists e, duration_means fraction t e.
Proof.
  rewrite parse_duration_unsign. destruct (unsign t) as [neg u] eqn:Eu. destruct (str_eqb_spec u ($"0")) as [->|H0].
  - intros _. exists 0%Z. right. split; auto. unfold unsign in Eu. destruct t as [|c t]; [discriminate|].
    destruct (Ascii.eqb_spec c "-") as [->|]; [injection Eu as _ ->; auto|].
    destruct (Ascii.eqb_spec c "+") as [->|]; [injection Eu as _ ->; auto|]. injection Eu as _ -> ->. auto.
  - destruct u as [|c u]; [discriminate|]. destruct (duration_loop fraction (length (c :: u)) (c :: u) 0) as [d'|] eqn:El; [|discriminate].
    apply loop_sound in El as [total [Ha _]]; [|discriminate]. intros _. eexists. left. eapply unsign_sound; eassumption.
Qed.

Lemma split_asks p g : In g (match p with Some (c :: t) => split_byte comma (c :: t) | _ => [] end) <-> asks_group p g.
Proof.
  unfold asks_group. destruct p as [[|c t]|].
  - split; [intros []|]. intros [u [[= <-] [H _]]]. congruence.
  - rewrite <- comma_part_iff. split.
    + intros H. exists (c :: t). split; auto. split; [discriminate|exact H].
    + intros [u [[= <-] [_ H]]]. exact H.
  - split; [intros []|]. intros [u [H _]]. discriminate.
Qed.

Lemma split_asks_all p : match p with Some (c :: t) => split_byte comma (c :: t) | _ => [] end = [] <-> asks_all p.
Proof.
  unfold asks_all. destruct p as [[|c t]|]; [split; auto| |split; auto]. split; [|intros [H|H]; discriminate].
  intros H. exfalso. cbn [split_byte] in H. destruct (Ascii.eqb c comma); [discriminate|]. destruct (split_byte comma t); discriminate.
Qed.

(** Well-formed parameters: the command is accepted, exactly the groups asked for are disabled, and the timer is
    set to the end of the duration asked for. *)
Theorem C111_disable : forall fraction err cfg pd pg now s d,
  asked_duration fraction pd d -> (forall g, asks_group pg g -> known cfg g) ->
  let '(s', r) := api_disable fraction err cfg pd pg now s in
  r = Resp200 /\ bt_enabled s' = false /\
  (forall g, In g (bt_disabled s') <-> asks_group pg g \/ (asks_all pg /\ known cfg g)) /\
  bt_timer s' = (if Z.eq_dec d 0 then None else Some (now + d)%Z).
Proof.
  intros fraction err cfg pd pg now s d Hd Hg. unfold api_disable.
  assert (match pd with None => Some 0%Z | Some t => parse_duration fraction t end = Some d) as ->.
  { destruct pd as [t|]; [|now rewrite Hd]. destruct Hd as [H1 H2]. now apply parse_duration_means. }
  set (gs := match pg with Some (c :: t) => split_byte comma (c :: t) | _ => [] end).
  destruct (internal_disable_ok cfg d gs now s) as [[Hv [Hok [H1 [H2 [H3 [H4 H5]]]]]]|[Hv _]].
  - destruct (internal_disable cfg d gs now s) as [s' ok]. cbn [fst snd] in *. subst ok. split; auto. split; auto. split.
    + intros g. rewrite H2. unfold named, gs. rewrite split_asks, split_asks_all. reflexivity.
    + rewrite H4. destruct (Z.eqb_spec d 0), (Z.eq_dec d 0); congruence.
  - exfalso. apply Hv. intros g Hin. apply Hg. now apply split_asks.
Qed.
Print Assumptions C111_disable.

(** A text that is no duration: refused, and nothing changes (not even a running timer). *)
Theorem C111_bad_duration : forall fraction err cfg t pg now s, (forall d, ~ duration_means fraction t d) ->
  exists text, api_disable fraction err cfg (Some t) pg now s = (s, Resp400 text).
Proof.
  intros fraction err cfg t pg now s H. unfold api_disable. destruct (parse_duration fraction t) as [d|] eqn:E.
  - exfalso. apply parse_duration_only in E as [e He]. now apply (H e).
  - eexists. reflexivity.
Qed.
Print Assumptions C111_bad_duration.

(** A group without deny list: refused, and what is blocked now does not change (a running timer is lost: C31). *)
Theorem C111_unknown_group_partial : forall fraction err cfg pd pg g now s, asks_group pg g -> ~ known cfg g ->
  let '(s', r) := api_disable fraction err cfg pd pg now s in
  (exists text, r = Resp400 text) /\ same_blocking s' s.
Proof.
  intros fraction err cfg pd pg g now s Hg Hk. unfold api_disable.
  destruct (match pd with None => Some 0%Z | Some t => parse_duration fraction t end) as [d|]; [|split; [eauto|split; reflexivity]].
  set (gs := match pg with Some (c :: t) => split_byte comma (c :: t) | _ => [] end).
  destruct (internal_disable_ok cfg d gs now s) as [[Hv _]|[Hv [Hok [H1 [H2 _]]]]].
  - exfalso. apply Hk, Hv. now apply split_asks.
  - destruct (internal_disable cfg d gs now s) as [s' ok]. cbn [fst snd] in *. subst ok. split; [eauto|]. split; auto.
Qed.
Print Assumptions C111_unknown_group_partial.

(** Whatever is sent, the text of a refusal is one line. *)
Theorem C111_one_line : forall fraction err cfg pd pg now s s' text,
  api_disable fraction err cfg pd pg now s = (s', Resp400 text) -> one_line text.
Proof.
  intros fraction err cfg pd pg now s s' text H.
  assert (exists u, text = escape_input u) as [u ->].
  { unfold api_disable in H. destruct (match pd with None => Some 0%Z | Some t => parse_duration fraction t end) as [d|].
    - destruct (internal_disable cfg d (match pg with Some (c :: t) => split_byte comma (c :: t) | _ => [] end) now s) as [s1 [|]]; [discriminate|].
      apply pair_equal_spec in H as [_ H]. injection H as <-. eexists. reflexivity.
    - apply pair_equal_spec in H as [_ H]. injection H as <-. eexists. reflexivity. }
  unfold escape_input, remove_byte, one_line. rewrite !filter_In. split; intros H1.
  - destruct H1 as [[_ H1] _]. discriminate.
  - destruct H1 as [_ H1]. discriminate.
Qed.
Print Assumptions C111_one_line.

(** Only line ends are removed. *)
Theorem C111_escape : forall s, one_line s -> escape_input s = s.
Proof.
  assert (forall c s, ~ In c s -> remove_byte c s = s) as H.
  { intros c s Hs. unfold remove_byte. induction s as [|x s IH]; cbn [filter]; [reflexivity|].
    destruct (Ascii.eqb_spec x c) as [->|Hx]; [exfalso; apply Hs; now left|]. cbn [negb]. f_equal. apply IH. intros Hin. apply Hs. now right. }
  intros s [H1 H2]. unfold escape_input. rewrite (H "010"%char) by exact H1. now apply H.
Qed.
Print Assumptions C111_escape.

Lemma known_group_iff cfg g : known_group (all_blocking_groups cfg) g = true <-> known cfg g.
Proof.
  destruct (internal_disable_ok cfg 0 [g] 0 blk_init) as [[Hv [Hok _]]|[Hv [Hok _]]]; unfold internal_disable in Hok; cbn [forallb] in Hok; rewrite andb_true_r in Hok;
    destruct (known_group (all_blocking_groups cfg) g); cbn [snd] in Hok; try discriminate Hok; (split; [intros K0; try discriminate K0|intros K]); try reflexivity.
  - apply Hv. now left.
  - exfalso. apply Hv. intros g' [<-|[]]. exact K.
Qed.

(** The refusal names a group which was asked for and has no deny list. *)
Theorem C111_names_group : forall fraction err cfg pd pg now s s' d text, asked_duration fraction pd d ->
  api_disable fraction err cfg pd pg now s = (s', Resp400 text) ->
  exists g, asks_group pg g /\ ~ known cfg g /\ text = escape_input ($"group '" ++ g ++ $"' is unknown") /\
    (one_line g -> text = $"group '" ++ g ++ $"' is unknown").
Proof.
  intros fraction err cfg pd pg now s s' d text Hd H. unfold api_disable in H.
  destruct (match pd with None => Some 0%Z | Some t => parse_duration fraction t end) as [d'|] eqn:E.
  2:{ exfalso. destruct pd as [t|]; [|discriminate E]. destruct Hd as [Hd Hr]. rewrite (parse_duration_means fraction t d Hd Hr) in E. discriminate E. }
  set (gs := match pg with Some (c :: t) => split_byte comma (c :: t) | _ => [] end) in *.
  destruct (internal_disable_ok cfg d' gs now s) as [[Hv [Hok _]]|[Hv [Hok _]]]; destruct (internal_disable cfg d' gs now s) as [s1 ok]; cbn [snd] in Hok; subst ok; [discriminate H|].
  assert (text = escape_input ($"group '" ++ unknown_group cfg gs ++ $"' is unknown")) as -> by congruence. clear H.
  exists (unknown_group cfg gs). assert (In (unknown_group cfg gs) gs /\ ~ known cfg (unknown_group cfg gs)) as [K1 K2].
  { unfold unknown_group. destruct (filter _ gs) as [|g l] eqn:F.
    - exfalso. apply Hv. intros g Hg. apply known_group_iff. destruct (known_group (all_blocking_groups cfg) g) eqn:K; [reflexivity|].
      assert (In g []) as []. rewrite <- F. apply filter_In. now rewrite K.
    - assert (In g (g :: l)) as Hg by now left. rewrite <- F in Hg. apply filter_In in Hg as [Hg K]. split; [exact Hg|].
      rewrite <- known_group_iff. now destruct (known_group (all_blocking_groups cfg) g). }
  split; [now apply split_asks|]. split; [exact K2|]. split; [reflexivity|]. intros [L1 L2]. apply C111_escape. split; rewrite !in_app_iff; intros [L|[L|L]]; auto; vm_compute in L; 
    repeat (destruct L as [L|L]; [discriminate L|]); exact L.
Qed.
Print Assumptions C111_names_group.

(** Enabling is always accepted and ends every disabling: nothing stays disabled and no timer is pending, whatever was before. *)
Theorem C111_enable : forall s t, let '(s', r) := api_enable s in
  r = Resp200 /\ bt_enabled s' = true /\ (forall g, ~ In g (bt_disabled s')) /\ bt_timer s' = None /\
  as_enabled (api_blocking_status t s') = true /\ as_groups (api_blocking_status t s') = None /\ as_auto (api_blocking_status t s') = None.
Proof. intros s t. cbn. repeat split; auto. Qed.
Print Assumptions C111_enable.

(** The status: after an accepted command of [d] nanoseconds it shows the groups, and the full seconds that remain
    if there is at least one. *)
Theorem C111_status_partial : forall fraction err cfg pd pg now s d s' t,
  asked_duration fraction pd d -> api_disable fraction err cfg pd pg now s = (s', Resp200) ->
  let st := api_blocking_status t s' in
  as_enabled st = false /\
  (exists gs, as_groups st = Some gs /\ forall g, In g gs <-> asks_group pg g \/ (asks_all pg /\ known cfg g)) /\
  (forall n, as_auto st = Some n <-> (1 <= n /\ n * 1000000000 <= now + d - t < (n + 1) * 1000000000)%Z).
Proof.
  intros fraction err cfg pd pg now s d s' t Hd H.
  assert (forall g, asks_group pg g -> known cfg g) as Hg.
  { intros g Ha. unfold api_disable in H.
    destruct (match pd with None => Some 0%Z | Some t => parse_duration fraction t end) as [e|]; [|discriminate].
    set (gs := match pg with Some (c :: t) => split_byte comma (c :: t) | _ => [] end) in *.
    destruct (internal_disable_ok cfg e gs now s) as [[Hv _]|[_ [Hok _]]]; [now apply Hv, split_asks|].
    destruct (internal_disable cfg e gs now s) as [s1 ok]. cbn [snd] in Hok. subst ok. discriminate. }
  pose proof (C111_disable fraction err cfg pd pg now s d Hd Hg) as HD. rewrite H in HD. destruct HD as [_ [He [Hgs _]]].
  assert (bt_end s' = now + d)%Z as Hend.
  { unfold api_disable in H.
    assert (match pd with None => Some 0%Z | Some t => parse_duration fraction t end = Some d) as Hp.
    { destruct pd as [u|]; [|now rewrite Hd]. destruct Hd as [H1 H2]. now apply parse_duration_means. }
    rewrite Hp in H. set (gs := match pg with Some (c :: t) => split_byte comma (c :: t) | _ => [] end) in *.
    destruct (internal_disable_ok cfg d gs now s) as [[_ [_ [_ [_ [He' _]]]]]|[_ [Hok _]]].
    - destruct (internal_disable cfg d gs now s) as [s1 ok]. cbn [fst] in *. destruct ok; [|discriminate]. injection H as <-. exact He'.
    - destruct (internal_disable cfg d gs now s) as [s1 ok]. cbn [snd] in Hok. subst ok. discriminate. }
  unfold api_blocking_status, blocking_status. cbn [as_enabled as_groups as_auto]. rewrite He, Hend. cbn [negb andb].
  split; auto. split.
  - destruct (bt_disabled s') as [|g0 gs0] eqn:E.
    + exfalso. assert (In $"default" (bt_disabled s')) as Hin.
      { rewrite E. apply Hgs. destruct pg as [[|c u]|]; [right; split; [now right|now left]| |right; split; [now left|now left]].
        exfalso. assert (exists g, asks_group (Some (c :: u)) g) as [g Hx].
        { pose proof (proj1 (split_asks_all (Some (c :: u)))) as Hn. destruct (split_byte comma (c :: u)) as [|g l] eqn:El.
          - destruct (Hn eq_refl); discriminate.
          - exists g. apply split_asks. rewrite El. now left. }
        assert (In g []) as [] by (apply Hgs; now left). }
      rewrite E in Hin. destruct Hin.
    + exists (g0 :: gs0). split; [reflexivity|]. exact Hgs.
  - intros n. destruct (Z.ltb_spec t (now + d)).
    + assert (0 <= now + d - t)%Z as Hpos by lia. rewrite Z.quot_div_nonneg by lia.
      pose proof (Z.div_mod (now + d - t) 1000000000 ltac:(lia)) as Hdm. pose proof (Z.mod_pos_bound (now + d - t) 1000000000 ltac:(lia)) as Hmb.
      destruct (Z.ltb_spec 0 ((now + d - t) / 1000000000)) as [Hq|Hq].
      * split; [intros [= <-]; lia|]. intros Hn. f_equal. nia.
      * split; [discriminate|]. intros Hn. nia.
    + cbn. split; [discriminate|]. intros Hn. nia.
Qed.
Print Assumptions C111_status_partial.

(** In the last second of a temporary pause the status looks like that of a pause for ever. *)
Theorem C111_last_second_refuted : exists cfg s1 s2 t, forall fraction err,
  api_disable fraction err cfg (Some $"5m") None 0 blk_init = (s1, Resp200) /\ bt_timer s1 = Some 300000000000%Z /\
  api_disable fraction err cfg None None 0 blk_init = (s2, Resp200) /\ bt_timer s2 = None /\
  (t < 300000000000)%Z /\ api_blocking_status t s1 = api_blocking_status t s2.
Proof.
  exists ex_cfg,
    {| bt_enabled := false; bt_disabled := all_blocking_groups ex_cfg; bt_end := 300000000000; bt_timer := Some 300000000000%Z; bt_fired := 0 |},
    {| bt_enabled := false; bt_disabled := all_blocking_groups ex_cfg; bt_end := 0; bt_timer := None; bt_fired := 0 |}, 299500000000%Z. intros fraction err. split; [reflexivity|]. split; [reflexivity|].
  split; [reflexivity|]. split; [reflexivity|]. split; [lia|reflexivity].
Qed.
Print Assumptions C111_last_second_refuted.

(** After a refused command the status may announce a re-activation that no timer will bring. *)
Theorem C111_announced_refuted : exists cfg s1 s2 t n, forall fraction err,
  api_disable fraction err cfg (Some $"5m") None 0 blk_init = (s1, Resp200) /\
  (exists text, api_disable fraction err cfg None (Some $"nosuchgroup") 1000000000 s1 = (s2, Resp400 text)) /\
  as_auto (api_blocking_status t s2) = Some n /\ (0 < n)%Z /\ bt_timer s2 = None /\ bt_fired s2 = 0.
Proof.
  exists ex_cfg,
    {| bt_enabled := false; bt_disabled := all_blocking_groups ex_cfg; bt_end := 300000000000; bt_timer := Some 300000000000%Z; bt_fired := 0 |},
    {| bt_enabled := false; bt_disabled := all_blocking_groups ex_cfg; bt_end := 300000000000; bt_timer := None; bt_fired := 0 |}, 2000000000%Z, 298%Z. intros fraction err. split; [reflexivity|]. split; [eexists; reflexivity|].
  split; [reflexivity|]. split; [lia|]. split; reflexivity.
Qed.
Print Assumptions C111_announced_refuted.

(** A negative duration is accepted; the timer is due at once. *)
Theorem C111_negative_refuted : exists cfg s1, forall fraction err,
  api_disable fraction err cfg (Some $"-5m") None 1000 blk_init = (s1, Resp200) /\
  exists s2, blk_run cfg s1 [BFire 1000; BCallback] = Some s2 /\ bt_enabled s2 = true.
Proof. exists ex_cfg,
    {| bt_enabled := false; bt_disabled := all_blocking_groups ex_cfg; bt_end := 1000 - 300000000000; bt_timer := Some (1000 - 300000000000)%Z; bt_fired := 0 |}.
  intros fraction err. split; [reflexivity|]. eexists. split; reflexivity.
Qed.
Print Assumptions C111_negative_refuted.

Example C111_example : forall fraction err,
  asked_duration fraction (Some $"1m30s") 90000000000 /\
  (exists s, api_disable fraction err ex_cfg (Some $"1m30s") (Some $"ads,adult") 0 blk_init = (s, Resp200) /\
     api_blocking_status 30000000000 s = {| as_enabled := false; as_auto := Some 60%Z; as_groups := Some [$"ads"; $"adult"] |}) /\
  (exists s, api_disable fraction err ex_cfg None None 0 blk_init = (s, Resp200) /\
     api_blocking_status 30000000000 s = {| as_enabled := false; as_auto := None; as_groups := Some [$"ads"; $"adult"; $"default"] |}) /\
  (exists text, api_disable fraction err ex_cfg (Some $"5") None 0 blk_init = (blk_init, Resp400 text)) /\
  (exists s, api_disable fraction err ex_cfg (Some $"5s") (Some ($"x" ++ ["010"%char] ++ $"y, ads")) 0 blk_init = (s, Resp400 $"group 'xy' is unknown")) /\
  (forall d, ~ duration_means fraction ($"5") d).
Proof.
  intros fraction err. split.
  - split; [|lia]. left. change ($"1m30s") with (($"1" ++ $"m") ++ ($"30" ++ $"s")).
    change 90000000000%Z with (Z.of_N (1 * 60000000000 + 30 * 1000000000)). apply signed_none.
    apply amounts_more; [|apply amounts_one]; apply amount_whole; try constructor; try (apply parse_digits_text; [lia|discriminate|reflexivity]).
    split; [lia|]. left. split; [reflexivity|lia].
  - split; [eexists; split; reflexivity|]. split; [eexists; split; reflexivity|]. split; [eexists; reflexivity|]. split; [eexists; reflexivity|].
    intros d Hd. destruct Hd as [Hd|[_ [H|[H|H]]]]; try discriminate.
    inversion Hd as [u n Ha|u n Ha|u n Ha]; subst; pose proof (amounts_not_number _ _ _ Ha) as Hx; discriminate.
Qed.

(** ** C112: several instances *)
(** What an instance will be like when it has received everything. *)
Definition after (cfg : blk_cfg) (ms : list told) (s : blk_state) : blk_state :=
  fold_left (fun s m => match m with TEnable => internal_enable s | TDisable d gs => fst (internal_disable cfg d gs 0 s) end) ms s.

Lemma same_refl a : same_blocking a a. Proof. split; reflexivity. Qed.

Lemma internal_disable_same cfg d gs n1 n2 s1 s2 : same_blocking s1 s2 ->
  same_blocking (fst (internal_disable cfg d gs n1 s1)) (fst (internal_disable cfg d gs n2 s2)) /\
  snd (internal_disable cfg d gs n1 s1) = snd (internal_disable cfg d gs n2 s2).
Proof.
  intros [H1 H2]. unfold internal_disable. cbv zeta.
  destruct (match gs with [] => true | _ => forallb (known_group (all_blocking_groups cfg)) gs end); cbn; split; auto; split; auto.
Qed.

Lemma after_same cfg ms : forall s1 s2, same_blocking s1 s2 -> same_blocking (after cfg ms s1) (after cfg ms s2).
Proof.
  induction ms as [|m ms IH]; intros s1 s2 H; cbn [after fold_left]; auto. apply IH. destruct m; [split; reflexivity|].
  now apply internal_disable_same.
Qed.

Lemma after_app cfg a b s : after cfg (a ++ b) s = after cfg b (after cfg a s).
Proof. apply fold_left_app. Qed.

Definition in_step (cfg : blk_cfg) (w : nat) (c : cluster) : Prop :=
  cu_inbox c w = [] /\ forall j, same_blocking (after cfg (cu_inbox c j) (cu_state c j)) (cu_state c w).

Lemma in_step_step cfg w c o c' : one_writer w o -> in_step cfg w c -> cluster_step cfg c o = Some c' -> in_step cfg w c'.
Proof.
  intros Ho [Hw Hs] Hstep. destruct o as [i|i d gs now|i now|i now|i live]; cbn [one_writer cluster_step] in *; try contradiction.
  - subst i. injection Hstep as <-. unfold in_step, tell. cbn [cu_inbox cu_state]. rewrite Nat.eqb_refl. split; auto. intros j.
    unfold put_at. rewrite Nat.eqb_refl. destruct (Nat.eqb_spec j w) as [->|Hj]; [rewrite Hw; apply same_refl|].
    rewrite after_app. cbn [after fold_left]. split; reflexivity.
  - subst i. destruct (internal_disable cfg d gs now (cu_state c w)) as [s' ok] eqn:E.
    assert (same_blocking (fst (internal_disable cfg d gs now (cu_state c w))) s') as Hs' by (rewrite E; apply same_refl).
    destruct ok; injection Hstep as <-; unfold in_step, tell; cbn [cu_inbox cu_state]; rewrite ?Nat.eqb_refl; split; auto; intros j;
      unfold put_at; rewrite Nat.eqb_refl; destruct (Nat.eqb_spec j w) as [->|Hj]; try (rewrite Hw; apply same_refl).
    + rewrite after_app. cbn [after fold_left].
      destruct (internal_disable_same cfg d gs 0 now _ _ (Hs j)) as [Hx _]. rewrite E in Hx. exact Hx.
    + destruct (internal_disable_ok cfg d gs now (cu_state c w)) as [[_ [Hok _]]|[_ [_ [H1 [H2 _]]]]]; rewrite E in *; cbn [fst snd] in *; [discriminate|].
      destruct (Hs j) as [G1 G2]. split; congruence.
  - destruct (cu_inbox c i) as [|m ms] eqn:Ei; [discriminate|]. injection Hstep as <-. unfold in_step. cbn [cu_inbox cu_state].
    assert (i <> w) as Hi by (intros ->; congruence).
    split; [unfold put_at; destruct (Nat.eqb_spec w i); [congruence|exact Hw]|]. intros j. unfold put_at.
    destruct (Nat.eqb_spec w i) as [|_]; [congruence|]. destruct (Nat.eqb_spec j i) as [->|Hj]; [|apply Hs].
    specialize (Hs i). rewrite Ei in Hs. cbn [after fold_left] in Hs.
    assert (forall x y z, same_blocking x y -> same_blocking y z -> same_blocking x z) as Htrans
      by (intros x y z [? ?] [? ?]; split; congruence).
    eapply Htrans; [|exact Hs]. apply after_same. destruct m; [apply same_refl|]. apply internal_disable_same, same_refl.
Qed.

(** If all commands are given to one instance, then every instance that has received everything blocks exactly
    like it, as long as no timer has fired. *)
Theorem C112_one_writer_partial : forall cfg w os c, (forall o, In o os -> one_writer w o) ->
  cluster_run cfg cluster_init os = Some c -> forall j, cu_inbox c j = [] -> same_blocking (cu_state c j) (cu_state c w).
Proof.
  intros cfg w os c Ho Hr j Hj.
  assert (forall os c0 c, (forall o, In o os -> one_writer w o) -> in_step cfg w c0 -> cluster_run cfg c0 os = Some c -> in_step cfg w c) as Hrun.
  { clear. induction os as [|o os IH]; intros c0 c Ho Hi Hr; cbn [cluster_run] in Hr; [now injection Hr as <-|].
    destruct (cluster_step cfg c0 o) as [c1|] eqn:E; [|discriminate]. apply (IH c1 c); auto.
    - intros o' H'. apply Ho. now right.
    - eapply in_step_step; [|exact Hi|exact E]. apply Ho. now left. }
  destruct (Hrun os cluster_init c Ho ltac:(split; [reflexivity|intros; apply same_refl]) Hr) as [_ H].
  specialize (H j). rewrite Hj in H. exact H.
Qed.
Print Assumptions C112_one_writer_partial.

(** Commands given to two instances at about the same time leave them different, for ever. *)
Theorem C112_two_writers_refuted : exists cfg os c,
  (forall o, In o os -> match o with UFire _ _ | UCallback _ _ => False | _ => True end) /\
  cluster_run cfg cluster_init os = Some c /\ cu_inbox c 0 = [] /\ cu_inbox c 1 = [] /\
  bt_enabled (cu_state c 0) = false /\ bt_enabled (cu_state c 1) = true /\ bt_timer (cu_state c 0) = None.
Proof.
  exists ex_cfg, [UEnable 0; UDisable 1 0 [] 5; UReceive 0 6; UReceive 1 7]. eexists.
  split; [intros o [<-|[<-|[<-|[<-|[]]]]]; exact I|]. split; [reflexivity|]. split; [reflexivity|]. split; [reflexivity|].
  split; [reflexivity|]. split; reflexivity.
Qed.
Print Assumptions C112_two_writers_refuted.

(** What holds after a history, if the history is possible. *)
Lemma run_witness cfg os (P : cluster -> Prop) :
  match cluster_run cfg cluster_init os with Some c => P c | None => False end -> exists c, cluster_run cfg cluster_init os = Some c /\ P c.
Proof. destruct (cluster_run cfg cluster_init os) as [c|]; [eauto|contradiction]. Qed.

(** All commands are given to instance 0; the timer of instance 1, armed by the first command, undoes the later one. *)
Theorem C112_late_timer_refuted : exists cfg os c,
  os = [UDisable 0 60000000000 [] 0; UReceive 1 1000; UFire 0 60000000000; UCallback 0 false;
        UFire 1 60000001000; UDisable 0 0 [] 60000001500; UCallback 1 true; UReceive 0 60000002000; UReceive 1 60000002000] /\
  cluster_run cfg cluster_init os = Some c /\ cu_inbox c 0 = [] /\ cu_inbox c 1 = [] /\
  bt_enabled (cu_state c 0) = true /\ bt_enabled (cu_state c 1) = false.
Proof.
  exists ex_cfg, [UDisable 0 60000000000 [] 0; UReceive 1 1000; UFire 0 60000000000; UCallback 0 false;
        UFire 1 60000001000; UDisable 0 0 [] 60000001500; UCallback 1 true; UReceive 0 60000002000; UReceive 1 60000002000].
  match goal with |- exists c, ?os = _ /\ _ => destruct (run_witness ex_cfg os (fun c => cu_inbox c 0 = [] /\ cu_inbox c 1 = [] /\
    bt_enabled (cu_state c 0) = true /\ bt_enabled (cu_state c 1) = false)) as [c H] end.
  - vm_compute. auto.
  - exists c. split; [reflexivity|exact H].
Qed.
Print Assumptions C112_late_timer_refuted.

Example C112_example :
  let os := [UDisable 0 60000000000 [$"ads"] 0; UReceive 1 5; UDisable 0 0 [$"zzz"] 7; UEnable 0; UDisable 0 0 [$"adult"] 9; UReceive 2 10; UReceive 1 11; UReceive 1 12] in
  (forall o, In o os -> one_writer 0 o) /\
  exists c, cluster_run ex_cfg cluster_init os = Some c /\
  cu_inbox c 1 = [] /\ bt_disabled (cu_state c 1) = [$"adult"] /\ bt_disabled (cu_state c 0) = [$"adult"] /\ bt_disabled (cu_state c 2) = [$"ads"].
Proof.
  cbv zeta. split; [intros o H; cbn in H; decompose [or] H; subst; cbn; auto; contradiction|]. apply run_witness. vm_compute. auto.
Qed.
