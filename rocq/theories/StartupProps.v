(** Theorems about start-up strategies and periodic refreshes. *)
From Coq Require Import List Arith ZArith Bool Lia.
From Verif Require Import Startup StartupSpec.
Import ListNotations.

Lemma steps_app str per acts1 acts2 : forall s, steps str per (acts1 ++ acts2) s =
  let '(s1, t1) := steps str per acts1 s in let '(s2, t2) := steps str per acts2 s1 in (s2, t1 ++ t2).
Proof.
  induction acts1 as [|a acts IH]; intros s; cbn [app steps].
  - now destruct (steps str per acts2 s).
  - destruct (step str per a s) as [s1 t1]. rewrite IH. destruct (steps str per acts s1) as [s2 t2]. destruct (steps str per acts2 s2) as [s3 t3].
    now rewrite app_assoc.
Qed.

(** A step shows at most one event. *)
Lemma step_events str per a s : snd (step str per a s) = [] \/ exists ev, snd (step str per a s) = [ev].
Proof.
  destruct a as [o|o|ch o| |]; cbn [step].
  - unfold main_step. destruct (st_main s) as [| |e|[e|]| |]; cbn; eauto; [destruct str; cbn; eauto|destruct (recovered RInit o); cbn; eauto].
  - unfold back_step. destruct (st_back s); cbn; eauto. destruct (recovered RInit o); cbn; eauto.
  - unfold per_step. destruct (st_per s); cbn; eauto; [destruct ch, (st_tick s), (st_done s); cbn; eauto|destruct (recovered RPeriodic o); cbn; eauto].
  - unfold tick_step. destruct (st_per s); cbn; eauto.
  - cbn; eauto.
Qed.

(** An event in a trace comes from a step. *)
Lemma steps_split str per acts : forall s s' pre ev post, steps str per acts s = (s', pre ++ ev :: post) ->
  exists acts1 a acts2 s1 s2, acts = acts1 ++ a :: acts2 /\ steps str per acts1 s = (s1, pre) /\ step str per a s1 = (s2, [ev]) /\ steps str per acts2 s2 = (s', post).
Proof.
  induction acts as [|a acts IH]; intros s s' pre ev post E; cbn [steps] in E.
  - injection E as _ E. destruct pre; discriminate.
  - destruct (step str per a s) as [s1 t1] eqn:E1. destruct (steps str per acts s1) as [s2 t2] eqn:E2. injection E as -> E.
    pose proof (step_events str per a s) as Hev. rewrite E1 in Hev. cbn [snd] in Hev. destruct Hev as [->|[ev1 ->]]; cbn [app] in E.
    + rewrite E in E2. destruct (IH _ _ _ _ _ E2) as (acts1 & b & acts2 & s3 & s4 & -> & H1 & H2 & H3).
      exists (a :: acts1), b, acts2, s3, s4. cbn [app steps]. rewrite E1, H1. auto.
    + destruct pre as [|x pre]; cbn [app] in E; injection E as -> ->.
      * exists [], a, acts, s, s1. auto.
      * destruct (IH _ _ _ _ _ E2) as (acts1 & b & acts2 & s3 & s4 & -> & H1 & H2 & H3).
        exists (a :: acts1), b, acts2, s3, s4. cbn [app steps]. rewrite E1, H1. auto.
Qed.

Definition proj (w : runner) (t : list event) := filter (of_runner w) t.

Lemma proj_app w t t' : proj w (t ++ t') = proj w t ++ proj w t'.
Proof. apply filter_app. Qed.

Lemma recovered_described w o : match recovered w o with None => o = ROk | Some e => described w o e end.
Proof. destruct o as [|e|v]; cbn; [reflexivity|constructor|destruct w; constructor]. Qed.

Inductive rounds (w : runner) : list event -> Prop :=
| rounds_nil : rounds w []
| rounds_snoc t r : rounds w t -> round w r -> rounds w (t ++ r).

(** The invariant: how the state and the trace belong together. *)
Definition init_part (str : strategy) (s : state) (t : list event) : Prop :=
  match str with
  | SFast =>
      match st_main s with
      | MBegin => st_back s = BNone /\ proj RInit t = []
      | MDo None | MLeaving | MReturned =>
          match st_back s with
          | BNone => False
          | BPending => proj RInit t = []
          | BInit => proj RInit t = [ERun RInit]
          | BLogging e => exists o, described RInit o e /\ proj RInit t = [ERun RInit; EEnd RInit o]
          | BEnded => round RInit (proj RInit t)
          end
      | _ => False
      end
  | _ => st_back s = BNone /\
      match st_main s with
      | MBegin => proj RInit t = []
      | MInit => proj RInit t = [ERun RInit]
      | MLogging e => exists o, described RInit o e /\ proj RInit t = [ERun RInit; EEnd RInit o]
      | MDo (Some e) => str = SFailOnError /\ exists o, described RInit o e /\ proj RInit t = [ERun RInit; EEnd RInit o; ELog RInit e]
      | MDo None | MLeaving => round RInit (proj RInit t) /\ (str = SFailOnError -> proj RInit t = [ERun RInit; EEnd RInit ROk])
      | MReturned => round RInit (proj RInit t) /\
          (str = SFailOnError -> proj RInit t = [ERun RInit; EEnd RInit ROk] \/
             (st_per s = PNone /\ exists o e, described RInit o e /\ proj RInit t = [ERun RInit; EEnd RInit o; ELog RInit e]))
      end
  end.

Definition per_part (per : Z) (s : state) (t : list event) : Prop :=
  (match st_main s with MBegin | MInit | MLogging _ | MDo _ => st_per s = PNone | _ => True end) /\
  (st_per s <> PNone -> (0 < per)%Z) /\
  match st_per s with
  | PNone => proj RPeriodic t = []
  | PSelect | PEnded => rounds RPeriodic (proj RPeriodic t)
  | PRefresh => exists t0, rounds RPeriodic t0 /\ proj RPeriodic t = t0 ++ [ERun RPeriodic]
  | PLogging e => exists t0 o, rounds RPeriodic t0 /\ described RPeriodic o e /\ proj RPeriodic t = t0 ++ [ERun RPeriodic; EEnd RPeriodic o]
  end.

Definition misc_part (s : state) (t : list event) : Prop :=
  ((exists r, In (EReturn r) t) <-> st_main s = MReturned) /\
  (st_done s = true <-> In ECancel t) /\
  (st_per s = PEnded -> st_done s = true) /\
  (st_per s = PNone -> st_tick s = false) /\
  runs RPeriodic t + (if st_tick s then 1 else 0) <= ticks t.

Definition inv str per s t := init_part str s t /\ per_part per s t /\ misc_part s t.

Lemma runs_app w t t' : runs w (t ++ t') = runs w t + runs w t'.
Proof. unfold runs. now rewrite filter_app, app_length. Qed.
Lemma ticks_app t t' : ticks (t ++ t') = ticks t + ticks t'.
Proof. unfold ticks. now rewrite filter_app, app_length. Qed.

Lemma in_snoc_other (x ev : event) t : In x (t ++ [ev]) -> x = ev \/ In x t.
Proof. intros H. apply in_app_or in H as [H|[H|[]]]; auto. Qed.

Lemma inv_init str per : inv str per init [].
Proof.
  split; [|split].
  - destruct str; cbn; auto.
  - cbn. split; [reflexivity|]. split; [intros H; now elim H|reflexivity].
  - cbn. split; [split; [intros [r []]|discriminate]|]. split; [split; [discriminate|intros []]|]. split; [discriminate|]. auto.
Qed.

Lemma proj_snoc w t ev : proj w (t ++ [ev]) = if of_runner w ev then proj w t ++ [ev] else proj w t.
Proof. rewrite proj_app. cbn. destruct (of_runner w ev); [reflexivity|apply app_nil_r]. Qed.

Lemma init_part_step str per a s t : per_part per s t -> init_part str s t -> init_part str (fst (step str per a s)) (t ++ snd (step str per a s)).
Proof.
  intros [Hp0 _] H. destruct s as [m b p tk dn]. destruct a as [o|o|ch o| |]; cbn [step].
  - unfold main_step. cbn [st_main st_back st_per st_tick st_done]. pose proof (recovered_described RInit o) as Hr. cbn [st_main st_per] in Hp0.
    destruct m as [| |e|[e|]| |].
    + destruct str; cbn in H |- *; rewrite ?proj_app; cbn; destruct H as [Hb H]; rewrite H; rewrite ?app_nil_r; auto.
    + destruct str; cbn in H; try contradiction; destruct H as [Hb H]; destruct (recovered RInit o) as [e|] eqn:E; cbn [fst snd]; cbn; rewrite proj_snoc; cbn; rewrite H;
        (split; [exact Hb|]).
      * exists o. auto.
      * subst o. split; [constructor|discriminate].
      * exists o. auto.
      * subst o. split; [constructor|reflexivity].
    + destruct str; cbn in H; try contradiction; destruct H as [Hb [o' [Hd H]]]; cbn [fst snd]; cbn; rewrite proj_snoc; cbn; rewrite H; (split; [exact Hb|]).
      * split; [now apply round_failed|discriminate].
      * split; [reflexivity|]. exists o'. auto.
    + destruct str; cbn in H; try contradiction; destruct H as [Hb [Hs [o' [Hd H]]]]; [discriminate|]. cbn [fst snd]; cbn; rewrite proj_snoc; cbn; rewrite H.
      split; [exact Hb|]. split; [now apply round_failed|]. intros _. right. split; [exact Hp0|]. exists o', e. auto.
    + destruct str; cbn in H |- *; rewrite ?app_nil_r; exact H.
    + destruct str; cbn in H |- *; rewrite ?proj_snoc; cbn; try exact H; (destruct H as [Hb [H1 H2]]; split; [exact Hb|]; split; [exact H1|]; intros E; left; now apply H2).
    + cbn [fst snd]. rewrite app_nil_r. exact H.
  - unfold back_step. cbn [st_main st_back st_per st_tick st_done]. pose proof (recovered_described RInit o) as Hr.
    destruct str; [destruct H as [Hb H]; cbn in Hb; subst b; cbn [fst snd]; rewrite app_nil_r; now split| |].
    { destruct H as [Hb H]; cbn in Hb; subst b; cbn [fst snd]; rewrite app_nil_r; now split. }
    destruct b as [| | |e|]; cbn [fst snd]; try (rewrite app_nil_r; exact H);
      (destruct m as [| |e'|[e'|]| |]; cbn in H; try contradiction; try (destruct H as [H0 H1]; discriminate)); cbn.
    all: try (rewrite proj_snoc; cbn; rewrite H; reflexivity).
    all: try (destruct (recovered RInit o) as [e|] eqn:E; cbn; rewrite proj_snoc; cbn; rewrite H; [exists o; auto|subst o; constructor]).
    all: destruct H as [o' [Hd H]]; rewrite proj_snoc; cbn; rewrite H; now apply round_failed.
  - assert (forall p' tk', p' <> PNone -> p <> PNone -> init_part str {| st_main := m; st_back := b; st_per := p'; st_tick := tk'; st_done := dn |} t) as Hi.
    { intros p' tk' Hp' Hp. destruct str; cbn in H |- *; try exact H; destruct m as [| |e'|[e'|]| |]; try exact H;
      (destruct H as [Hb [H1 H2]]; split; [exact Hb|]; split; [exact H1|]; intros E; destruct (H2 E) as [H3|[H3 _]]; [now left|contradiction]). }
    assert (forall s' ev, of_runner RInit ev = false -> init_part str s' t -> init_part str s' (t ++ [ev])) as Hs.
    { intros s' ev Hev Hi'. unfold init_part in *. rewrite proj_snoc, Hev. exact Hi'. }
    unfold per_step. cbn [st_main st_back st_per st_tick st_done]. destruct p as [| | |e|]; cbn [fst snd]; try (rewrite app_nil_r; exact H).
    + destruct ch, tk, dn; cbn [fst snd]; rewrite ?app_nil_r; try exact H; (apply Hs; [reflexivity|]; apply Hi; discriminate).
    + destruct (recovered RPeriodic o); cbn [fst snd]; (apply Hs; [reflexivity|]; apply Hi; discriminate).
    + apply Hs; [reflexivity|]. apply Hi; discriminate.
  - unfold tick_step. destruct p; cbn [st_per st_main st_back st_tick st_done fst snd]; rewrite ?app_nil_r; try exact H; unfold init_part in *; rewrite proj_snoc; exact H.
  - unfold init_part in *. cbn [fst snd st_main st_back st_per]. rewrite proj_snoc. exact H.
Qed.

Lemma per_part_step str per a s t : init_part str s t -> per_part per s t -> per_part per (fst (step str per a s)) (t ++ snd (step str per a s)).
Proof.
  intros Hi [H0 [H1 H2]]. destruct s as [m b p tk dn]. cbn [st_main st_per] in *. destruct a as [o|o|ch o| |]; cbn [step].
  - unfold main_step. cbn [st_main st_back st_per st_tick st_done].
    destruct m as [| |e|[e|]| |]; cbn [fst snd].
    + destruct str; cbn [fst snd]; unfold per_part; cbn [st_main st_per]; rewrite ?proj_snoc; cbn [of_runner]; rewrite ?app_nil_r; auto.
    + destruct (recovered RInit o); cbn [fst snd]; unfold per_part; cbn [st_main st_per]; rewrite ?proj_snoc; cbn [of_runner]; auto.
    + unfold per_part; cbn [st_main st_per]; rewrite ?proj_snoc; cbn [of_runner]; auto.
    + unfold per_part; cbn [st_main st_per]; rewrite ?proj_snoc; cbn [of_runner]; auto.
    + rewrite app_nil_r. subst p. destruct (0 <? per)%Z eqn:E; unfold per_part; cbn [st_main st_per].
      * split; [exact I|]. split; [intros _; lia|]. rewrite H2. constructor.
      * auto.
    + unfold per_part; cbn [st_main st_per]; rewrite ?proj_snoc; cbn [of_runner]; auto.
    + rewrite app_nil_r. split; auto.
  - unfold back_step. destruct b as [| | |e|]; cbn [st_main st_back st_per st_tick st_done fst snd]; unfold per_part; rewrite ?app_nil_r.
    all: try (destruct (recovered RInit o)); cbn [st_main st_per fst snd]; rewrite ?proj_snoc; cbn [of_runner]; auto.
  - assert (p <> PNone -> match m with MBegin | MInit | MLogging _ | MDo _ => False | _ => True end) as Hm.
    { intros Hp. destruct m; auto. }
    unfold per_step. cbn [st_main st_back st_per st_tick st_done]. destruct p as [| | |e|]; cbn [fst snd]; rewrite ?app_nil_r; try (split; auto; fail).
    + assert (0 < per)%Z as Hper by (apply H1; discriminate). specialize (Hm ltac:(discriminate)).
      destruct ch, tk, dn; cbn [fst snd]; rewrite ?app_nil_r; try (split; auto; fail); unfold per_part; cbn [st_main st_per]; rewrite proj_snoc; cbn [of_runner];
        (split; [destruct m; tauto|]); (split; [auto|]); try exact H2; exists (proj RPeriodic t); auto.
    + assert (0 < per)%Z as Hper by (apply H1; discriminate). specialize (Hm ltac:(discriminate)).
      pose proof (recovered_described RPeriodic o) as Hr. destruct H2 as [t0 [Ht0 H2]].
      destruct (recovered RPeriodic o) as [e|] eqn:E; cbn [fst snd]; unfold per_part; cbn [st_main st_per]; rewrite proj_snoc; cbn [of_runner]; rewrite H2, <- app_assoc;
        (split; [destruct m; tauto|]); (split; [auto|]).
      * exists t0, o. auto.
      * subst o. constructor; [exact Ht0|constructor].
    + assert (0 < per)%Z as Hper by (apply H1; discriminate). specialize (Hm ltac:(discriminate)). destruct H2 as [t0 [o' [Ht0 [Hd H2]]]].
      unfold per_part; cbn [st_main st_per]; rewrite proj_snoc; cbn [of_runner]. rewrite H2, <- app_assoc. split; [destruct m; tauto|]. split; [auto|].
      constructor; [exact Ht0|]. now apply round_failed.
  - unfold tick_step. destruct p; cbn [st_per st_main st_back st_tick st_done fst snd]; rewrite ?app_nil_r; unfold per_part; cbn [st_main st_per]; rewrite ?proj_snoc; auto.
  - unfold per_part. cbn [fst snd st_main st_per]. rewrite proj_snoc. auto.
Qed.

Lemma misc_part_step str per a s t : per_part per s t -> misc_part s t -> misc_part (fst (step str per a s)) (t ++ snd (step str per a s)).
Proof.
  intros [Hm _] [H1 [H2 [H3 [H4 H5]]]]. destruct s as [m b p tk dn]. cbn [st_main st_back st_per st_tick st_done] in *.
  assert (forall s' ev, (forall r, ev <> EReturn r) -> ev <> ECancel -> st_main s' <> MReturned \/ m = MReturned -> st_main s' = MReturned \/ m <> MReturned -> st_done s' = dn ->
    (st_per s' = PEnded -> dn = true) -> (st_per s' = PNone -> st_tick s' = false) ->
    runs RPeriodic (t ++ [ev]) + (if st_tick s' then 1 else 0) <= ticks (t ++ [ev]) -> misc_part s' (t ++ [ev])) as K.
  { intros s' ev Hr Hc Hm1 Hm2 Hd Hp Ht Hn. split; [|split; [|split; [|split]]].
    - split.
      + intros [r Hin]. apply in_snoc_other in Hin as [E|Hin]; [now elim (Hr r)|]. assert (m = MReturned) by (apply H1; eauto). tauto.
      + intros E. assert (m = MReturned) as E' by tauto. apply H1 in E' as [r Hin]. exists r. apply in_or_app. now left.
    - rewrite Hd. rewrite H2. split; [intros Hin; apply in_or_app; now left|]. intros Hin. apply in_snoc_other in Hin as [E|Hin]; [now elim Hc|exact Hin].
    - rewrite Hd. exact Hp.
    - exact Ht.
    - exact Hn. }
  assert (forall s', (st_main s' = MReturned <-> m = MReturned) -> st_done s' = dn -> (st_per s' = PEnded -> dn = true) -> (st_per s' = PNone -> st_tick s' = false) ->
     st_tick s' = tk -> misc_part s' t) as K0.
  { intros s' Em Ed Hp Ht Et. split; [rewrite Em; exact H1|]. rewrite Ed. split; [exact H2|]. split; [exact Hp|]. split; [exact Ht|]. now rewrite Et. }
  destruct a as [o|o|ch o| |]; cbn [step].
  - unfold main_step. cbn [st_main st_back st_per st_tick st_done].
    destruct m as [| |e|[e|]| |]; cbn [fst snd].
    + destruct str; cbn [fst snd]; rewrite ?app_nil_r; [apply K|apply K|apply K0]; cbn; try discriminate; auto; try (left; discriminate); try (right; discriminate).
      all: try (rewrite runs_app, ticks_app; cbn; lia). split; discriminate.
    + destruct (recovered RInit o); cbn [fst snd]; apply K; cbn; try discriminate; auto; try (left; discriminate); try (right; discriminate); rewrite runs_app, ticks_app; cbn; lia.
    + apply K; cbn; try discriminate; auto; try (left; discriminate); try (right; discriminate); rewrite runs_app, ticks_app; cbn; lia.
    + split; [|split; [|split; [|split]]]; cbn; auto.
      * split; [reflexivity|intros _; exists (Some e); apply in_or_app; right; now left].
      * rewrite H2. split; [intros Hin; apply in_or_app; now left|]. intros Hin. apply in_snoc_other in Hin as [E|Hin]; [discriminate|exact Hin].
      * rewrite runs_app, ticks_app; cbn; lia.
    + rewrite app_nil_r. subst p. apply K0; cbn; auto; try (split; discriminate); destruct (0 <? per)%Z; intros; discriminate.
    + split; [|split; [|split; [|split]]]; cbn; auto.
      * split; [reflexivity|intros _; exists None; apply in_or_app; right; now left].
      * rewrite H2. split; [intros Hin; apply in_or_app; now left|]. intros Hin. apply in_snoc_other in Hin as [E|Hin]; [discriminate|exact Hin].
      * rewrite runs_app, ticks_app; cbn; lia.
    + rewrite app_nil_r. apply K0; cbn; tauto.
  - unfold back_step. destruct b as [| | |e|]; cbn [st_main st_back st_per st_tick st_done fst snd]; rewrite ?app_nil_r; try (apply K0; cbn; tauto).
    + apply K; cbn; try discriminate; auto; try (destruct m; auto; right; discriminate); try (destruct m; auto; left; discriminate). rewrite runs_app, ticks_app; cbn; lia.
    + destruct (recovered RInit o); cbn [fst snd]; (apply K; cbn; try discriminate; auto; try (destruct m; auto; right; discriminate); try (destruct m; auto; left; discriminate); rewrite runs_app, ticks_app; cbn; lia).
    + apply K; cbn; try discriminate; auto; try (destruct m; auto; right; discriminate); try (destruct m; auto; left; discriminate). rewrite runs_app, ticks_app; cbn; lia.
  - unfold per_step. cbn [st_main st_back st_per st_tick st_done].
    assert ((m <> MReturned \/ m = MReturned) /\ (m = MReturned \/ m <> MReturned)) as [Hd1 Hd2].
    { split; destruct m; auto; try (left; discriminate); right; discriminate. }
    destruct p as [| | |e|]; cbn [fst snd]; rewrite ?app_nil_r; try (apply K0; cbn; tauto).
    + destruct ch, tk, dn; cbn [fst snd]; rewrite ?app_nil_r; try (apply K0; cbn; tauto); apply K; cbn; try discriminate; auto; rewrite runs_app, ticks_app; cbn; lia.
    + destruct (recovered RPeriodic o); cbn [fst snd]; apply K; cbn; try discriminate; auto; rewrite runs_app, ticks_app; cbn; lia.
    + apply K; cbn; try discriminate; auto; rewrite runs_app, ticks_app; cbn; lia.
  - unfold tick_step. assert ((m <> MReturned \/ m = MReturned) /\ (m = MReturned \/ m <> MReturned)) as [Hd1 Hd2].
    { split; destruct m; auto; try (left; discriminate); right; discriminate. }
    destruct p; cbn [st_per st_main st_back st_tick st_done fst snd]; rewrite ?app_nil_r; try (apply K0; cbn; tauto);
      apply K; cbn; try discriminate; auto; rewrite runs_app, ticks_app; cbn; destruct tk; lia.
  - split; [|split; [|split; [|split]]]; cbn; auto.
    + rewrite <- H1. split; intros [r Hin]; exists r; [apply in_snoc_other in Hin as [E|Hin]; [discriminate|exact Hin]|apply in_or_app; now left].
    + split; [intros _; apply in_or_app; right; now left|reflexivity].
    + rewrite runs_app, ticks_app; cbn; lia.
Qed.

Lemma inv_step str per a s t : inv str per s t -> inv str per (fst (step str per a s)) (t ++ snd (step str per a s)).
Proof.
  intros [H1 [H2 H3]]. split; [now apply init_part_step|]. split; [now apply (per_part_step str)|now apply misc_part_step].
Qed.

Lemma inv_steps str per acts : forall s t, inv str per s t -> inv str per (fst (steps str per acts s)) (t ++ snd (steps str per acts s)).
Proof.
  induction acts as [|a acts IH]; intros s t H; cbn [steps fst snd]; [now rewrite app_nil_r|].
  pose proof (inv_step str per a s t H) as H1. destruct (step str per a s) as [s1 t1]. cbn [fst snd] in H1. apply IH in H1.
  destruct (steps str per acts s1) as [s2 t2]. cbn [fst snd] in *. now rewrite app_assoc.
Qed.

Lemma inv_reachable str per acts s t : steps str per acts init = (s, t) -> inv str per s t.
Proof. intros E. pose proof (inv_steps str per acts init [] (inv_init str per)) as H. now rewrite E in H. Qed.

(** ** C66: start-up strategies *)

Lemma observed_split str per acts pre ev post : observed str per acts = pre ++ ev :: post ->
  exists acts1 a acts2 s1 s2 s', acts = acts1 ++ a :: acts2 /\ steps str per acts1 init = (s1, pre) /\ step str per a s1 = (s2, [ev]) /\ steps str per acts2 s2 = (s', post).
Proof.
  unfold observed. intros E. destruct (steps str per acts init) as [s' t] eqn:Es. cbn [snd] in E. subst t.
  destruct (steps_split _ _ _ _ _ _ _ _ Es) as (a1 & a & a2 & s1 & s2 & H1 & H2 & H3 & H4). exists a1, a, a2, s1, s2, s'. auto.
Qed.

Lemma proj_in w ev t : In ev (proj w t) <-> In ev t /\ of_runner w ev = true.
Proof. apply filter_In. Qed.

Lemma step_return str per a s s2 r : step str per a s = (s2, [EReturn r]) ->
  (exists e, st_main s = MDo (Some e) /\ r = Some e) \/ (st_main s = MLeaving /\ r = None).
Proof.
  destruct a as [o|o|ch o| |]; cbn [step].
  - unfold main_step. destruct (st_main s) as [| |e|[e|]| |]; try (intros E; now inversion E); intros E.
    + destruct str; inversion E.
    + destruct (recovered RInit o); inversion E.
    + injection E as _ <-. eauto.
    + injection E as _ <-. auto.
  - unfold back_step. destruct (st_back s); try (intros E; now inversion E). destruct (recovered RInit o); intros E; inversion E.
  - unfold per_step. destruct (st_per s); try (intros E; now inversion E); [destruct ch, (st_tick s), (st_done s)|destruct (recovered RPeriodic o)]; intros E; inversion E.
  - unfold tick_step. destruct (st_per s); intros E; inversion E.
  - intros E; inversion E.
Qed.

(** What is returned, and when: "blocking" and "failOnError" return after the initialisation has ended, the
    latter with its error if it failed, the former and "fast" never with one. *)
Theorem C66_returned : forall str per acts pre r post, observed str per acts = pre ++ EReturn r :: post ->
  match str with
  | SBlocking => r = None /\ exists o, In (EEnd RInit o) pre
  | SFailOnError => exists o, In (EEnd RInit o) pre /\ ((o = ROk /\ r = None) \/ exists e, described RInit o e /\ r = Some e)
  | SFast => r = None
  end.
Proof.
  intros str per acts pre r post E. apply observed_split in E as (acts1 & a & acts2 & s1 & s2 & s' & -> & E1 & E2 & _).
  apply inv_reachable in E1 as [Hi _]. unfold init_part in Hi.
  assert (forall o, In (EEnd RInit o) (proj RInit pre) -> In (EEnd RInit o) pre) as Hin by (intros o H; now apply proj_in in H).
  destruct (step_return _ _ _ _ _ _ E2) as [[e [Em ->]]|[Em ->]]; rewrite Em in Hi.
  - destruct str; [destruct Hi as [_ [H _]]; discriminate| |contradiction]. destruct Hi as [_ [_ [o [Hd H]]]]. exists o.
    split; [apply Hin; rewrite H; right; now left|]. right. now exists e.
  - destruct str; [| |reflexivity].
    + split; [reflexivity|]. destruct Hi as [_ [H _]]. destruct H as [|o e Hd].
      * exists ROk. apply Hin. right. now left.
      * exists o. apply Hin. right. now left.
    + destruct Hi as [_ [_ H]]. specialize (H eq_refl). exists ROk. split; [apply Hin; rewrite H; right; now left|]. now left.
Qed.
Print Assumptions C66_returned.

(** It returns exactly once, and needs no more than five steps of its goroutine for it, whatever the other
    goroutines do. *)
Theorem C66_returns : forall str per acts, main_steps acts >= 5 -> exists r, In (EReturn r) (observed str per acts).
Proof.
  intros str per acts Hn.
  set (left := fun m : main_pc => match m with MBegin => 5 | MInit => 4 | MLogging _ => 3 | MDo _ => 2 | MLeaving => 1 | MReturned => 0 end).
  assert (forall acts s, left (st_main (fst (steps str per acts s))) <= left (st_main s) - main_steps acts) as K.
  { clear. induction acts as [|a acts IH]; intros s; cbn [steps]; [cbn; lia|].
    assert (left (st_main (fst (step str per a s))) <= left (st_main s) - main_steps [a]) as Ha.
    { destruct a as [o|o|ch o| |]; cbn [step].
      - unfold main_step, main_steps. cbn [filter length]. destruct (st_main s) as [| |e|[e|]| |] eqn:Em; cbn; try lia.
        + destruct str; cbn; lia.
        + destruct (recovered RInit o); cbn; lia.
        + rewrite Em. cbn. lia.
      - unfold back_step, main_steps. cbn [filter length]. destruct (st_back s); cbn; try lia. destruct (recovered RInit o); cbn; lia.
      - unfold per_step, main_steps. cbn [filter length]. destruct (st_per s); cbn; try lia; [destruct ch, (st_tick s), (st_done s)|destruct (recovered RPeriodic o)]; cbn; lia.
      - unfold tick_step, main_steps. cbn [filter length]. destruct (st_per s); cbn; lia.
      - cbn. lia. }
    destruct (step str per a s) as [s1 t1]. cbn [fst] in Ha. specialize (IH s1). destruct (steps str per acts s1) as [s2 t2]. cbn [fst] in *.
    unfold main_steps in *. cbn [filter] in *. destruct a; cbn [length] in *; lia. }
  specialize (K acts init). unfold observed. destruct (steps str per acts init) as [s t] eqn:E. cbn [fst snd] in *.
  apply inv_reachable in E as [_ [_ [H _]]]. apply H. change (left (st_main init)) with 5 in K. assert (left (st_main s) = 0) as E by lia. destruct (st_main s); cbn in E; try lia; reflexivity.
Qed.
Print Assumptions C66_returns.

Theorem C66_returns_once : forall str per acts pre r post, observed str per acts = pre ++ EReturn r :: post ->
  forall r', ~ In (EReturn r') pre /\ ~ In (EReturn r') post.
Proof.
  assert (forall str per acts pre r post, observed str per acts = pre ++ EReturn r :: post -> forall r', ~ In (EReturn r') pre) as K.
  { intros str per acts pre r post E r' Hin. apply observed_split in E as (acts1 & a & acts2 & s1 & s2 & s' & -> & E1 & E2 & _).
    apply inv_reachable in E1 as [_ [_ [H _]]]. assert (st_main s1 = MReturned) as Hm by (apply H; eauto).
    apply step_return in E2 as [[e [E _]]|[E _]]; congruence. }
  intros str per acts pre r post E r'. split; [now apply (K _ _ _ _ _ _ E)|]. intros Hin. apply in_split in Hin as [p1 [p2 ->]].
  assert (observed str per acts = (pre ++ EReturn r :: p1) ++ EReturn r' :: p2) as E' by (rewrite E, <- app_assoc; reflexivity).
  apply (K _ _ _ _ _ _ E' r). apply in_or_app. right. now left.
Qed.
Print Assumptions C66_returns_once.

(** "fast" returns before the initialisation has even begun if it is not scheduled. *)
Theorem C66_fast_returns_at_once : forall per o1 o2 o3, observed SFast per [AMain o1; AMain o2; AMain o3] = [EReturn None].
Proof. intros per o1 o2 o3. reflexivity. Qed.
Print Assumptions C66_fast_returns_at_once.

(** The initialiser runs at most once, and its failure is logged: what it shows is one round or a part of it. *)
Theorem C66_once : forall str per acts,
  let t := filter (of_runner RInit) (observed str per acts) in t = [] \/ begun RInit t \/ round RInit t.
Proof.
  intros str per acts. unfold observed. destruct (steps str per acts init) as [s t] eqn:E. apply inv_reachable in E as [Hi _]. cbn [snd].
  change (filter (of_runner RInit) t) with (proj RInit t). unfold init_part in Hi. cbn zeta. destruct str.
  - destruct Hi as [_ Hi]. destruct (st_main s) as [| |e|[e|]| |].
    + now left.
    + rewrite Hi. right; left. constructor.
    + destruct Hi as [o [Hd ->]]. right; left. econstructor; eassumption.
    + destruct Hi as [_ [o [Hd ->]]]. right; right. econstructor; eassumption.
    + right; right. tauto.
    + right; right. tauto.
    + right; right. tauto.
  - destruct Hi as [_ Hi]. destruct (st_main s) as [| |e|[e|]| |].
    + now left.
    + rewrite Hi. right; left. constructor.
    + destruct Hi as [o [Hd ->]]. right; left. econstructor; eassumption.
    + destruct Hi as [_ [o [Hd ->]]]. right; right. econstructor; eassumption.
    + right; right. tauto.
    + right; right. tauto.
    + right; right. tauto.
  - assert (match st_back s with
          | BNone => False
          | BPending => proj RInit t = []
          | BInit => proj RInit t = [ERun RInit]
          | BLogging e => exists o, described RInit o e /\ proj RInit t = [ERun RInit; EEnd RInit o]
          | BEnded => round RInit (proj RInit t)
          end \/ proj RInit t = []) as H.
    { destruct (st_main s) as [| |e|[e|]| |]; try contradiction; tauto. }
    destruct H as [H|H]; [|now left]. destruct (st_back s) as [| | |e|]; try contradiction.
    + now left.
    + rewrite H. right; left. constructor.
    + destruct H as [o [Hd ->]]. right; left. econstructor; eassumption.
    + now right; right.
Qed.
Print Assumptions C66_once.

(** Except with "fast" the round is complete when it returns ... *)
Theorem C66_complete_at_return : forall str per acts pre r post, str <> SFast -> observed str per acts = pre ++ EReturn r :: post ->
  round RInit (filter (of_runner RInit) pre).
Proof.
  intros str per acts pre r post Hs E. apply observed_split in E as (acts1 & a & acts2 & s1 & s2 & s' & -> & E1 & E2 & _).
  apply inv_reachable in E1 as [Hi _]. unfold init_part in Hi. change (filter (of_runner RInit) pre) with (proj RInit pre).
  destruct (step_return _ _ _ _ _ _ E2) as [[e [Em ->]]|[Em ->]]; rewrite Em in Hi; destruct str; try contradiction; destruct Hi as [_ Hi].
  - destruct Hi as [H _]; discriminate.
  - destruct Hi as [_ [o [Hd ->]]]. econstructor; eassumption.
  - tauto.
  - tauto.
Qed.
Print Assumptions C66_complete_at_return.

(** ... and with "fast" three steps of the other goroutine complete it, at any time after the return. *)
Theorem C66_fast_completes : forall per acts o1 o2 o3, (exists r, In (EReturn r) (observed SFast per acts)) ->
  round RInit (filter (of_runner RInit) (observed SFast per (acts ++ [ABack o1; ABack o2; ABack o3]))).
Proof.
  intros per acts o1 o2 o3 Hr. unfold observed in *. rewrite steps_app. destruct (steps SFast per acts init) as [s t] eqn:E. cbn [snd] in Hr.
  apply inv_reachable in E as [Hi [_ [Hm _]]]. apply Hm in Hr. destruct s as [m b p tk dn]. cbn [st_main] in *. subst m.
  unfold init_part in Hi. cbn [st_main st_back] in Hi.
  pose proof (recovered_described RInit o1) as H1. pose proof (recovered_described RInit o2) as H2.
  change (filter (of_runner RInit)) with (proj RInit).
  assert (forall acts s, (let '(s2, t2) := steps SFast per acts s in (s2, t ++ t2)) = (fst (steps SFast per acts s), t ++ snd (steps SFast per acts s))) as Ep.
  { intros acts0 s0. now destruct (steps SFast per acts0 s0). }
  rewrite Ep. cbn [snd]. rewrite proj_app. destruct b as [| | |e|]; try contradiction.
  - rewrite Hi. cbn [steps step back_step st_back st_main st_per st_tick st_done app]. destruct (recovered RInit o2) as [e|] eqn:E2; cbn; [econstructor; eassumption|]. subst o2. constructor.
  - rewrite Hi. cbn [steps step back_step st_back st_main st_per st_tick st_done app]. destruct (recovered RInit o1) as [e|] eqn:E1; cbn; [econstructor; eassumption|]. subst o1. constructor.
  - destruct Hi as [o [Hd ->]]. cbn. econstructor; eassumption.
  - cbn. now rewrite app_nil_r.
Qed.
Print Assumptions C66_fast_completes.

(** ** C107: periodic refreshes *)

Lemma step_periodic str per a s s2 : step str per a s = (s2, [ERun RPeriodic]) -> st_per s = PSelect /\ st_tick s = true.
Proof.
  destruct a as [o|o|ch o| |]; cbn [step].
  - unfold main_step. destruct (st_main s) as [| |e|[e|]| |]; try (intros E; now inversion E); [destruct str|destruct (recovered RInit o)]; intros E; inversion E.
  - unfold back_step. destruct (st_back s); try (intros E; now inversion E). destruct (recovered RInit o); intros E; inversion E.
  - unfold per_step. destruct (st_per s); try (intros E; now inversion E); [destruct ch, (st_tick s), (st_done s)|destruct (recovered RPeriodic o)]; intros E; inversion E; auto.
  - unfold tick_step. destruct (st_per s); intros E; inversion E.
  - intros E; inversion E.
Qed.

(** Periodic refreshes happen only if a period is configured, only for ticks of the ticker, and never if the start
    failed. *)
Theorem C107_periodic_only : forall str per acts, In (ERun RPeriodic) (observed str per acts) ->
  (0 < per)%Z /\ (forall e, ~ In (EReturn (Some e)) (observed str per acts)) /\
  runs RPeriodic (observed str per acts) <= ticks (observed str per acts).
Proof.
  intros str per acts Hin. split; [|split].
  - apply in_split in Hin as [pre [post E]]. apply observed_split in E as (acts1 & a & acts2 & s1 & s2 & s' & -> & E1 & E2 & _).
    apply step_periodic in E2 as [E2 _]. apply inv_reachable in E1 as [_ [[_ [H _]] _]]. apply H. congruence.
  - intros e He. apply in_split in He as [pre [post E]]. pose proof E as E0.
    pose proof (C66_returned _ _ _ _ _ _ E) as Hr. unfold observed in Hin, E. destruct (steps str per acts init) as [s t] eqn:Es. cbn [snd] in Hin, E.
    assert (st_per s = PNone) as Hp.
    { pose proof Es as Es'. subst t. apply steps_split in Es' as (a1 & a & a2 & s1 & s2 & -> & H1 & H2 & H3).
      apply inv_reachable in H1 as [_ [[Hm _] _]].
      destruct (step_return _ _ _ _ _ _ H2) as [[e' [Em _]]|[_ H]]; [|discriminate]. rewrite Em in Hm.
      assert (st_per s2 = PNone /\ st_main s2 = MReturned) as [Hp2 Hm2].
      { destruct a as [o|o|ch o| |]; cbn [step] in H2.
        - unfold main_step in H2. rewrite Em in H2. inversion H2. auto.
        - unfold back_step in H2. destruct (st_back s1); try (now inversion H2). destruct (recovered RInit o); inversion H2.
        - unfold per_step in H2. rewrite Hm in H2. inversion H2.
        - unfold tick_step in H2. rewrite Hm in H2. inversion H2.
        - inversion H2. }
      clear -Hp2 Hm2 H3. revert s2 s post Hp2 Hm2 H3. induction a2 as [|a a2 IH]; intros s2 s post Hp Hm H; cbn [steps] in H; [injection H as <- _; exact Hp|].
      destruct (step str per a s2) as [s3 t3] eqn:E. destruct (steps str per a2 s3) as [s4 t4] eqn:E4. injection H as <- _.
      assert (st_per s3 = PNone /\ st_main s3 = MReturned) as [Hp3 Hm3].
      { destruct a as [o|o|ch o| |]; cbn [step] in E.
        - unfold main_step in E. rewrite Hm in E. inversion E; subst; auto.
        - unfold back_step in E. destruct (st_back s2); try (inversion E; subst; cbn; auto; fail). destruct (recovered RInit o); inversion E; subst; cbn; auto.
        - unfold per_step in E. rewrite Hp in E. inversion E; subst; auto.
        - unfold tick_step in E. rewrite Hp in E. inversion E; subst; auto.
        - inversion E; subst; cbn; auto. }
      now apply (IH s3 s4 t4). }
    apply inv_reachable in Es as [_ [[_ [_ H]] _]]. rewrite Hp in H.
    assert (In (ERun RPeriodic) (proj RPeriodic t)) as Hi by (apply proj_in; auto). rewrite H in Hi. destruct Hi.
  - unfold observed in *. destruct (steps str per acts init) as [s t] eqn:Es. apply inv_reachable in Es as [_ [_ [_ [_ [_ [_ H]]]]]]. cbn [snd]. destruct (st_tick s); lia.
Qed.
Print Assumptions C107_periodic_only.

(** Every refresh is complete before the next, and its failure, also a panic, is logged. *)
Theorem C107_rounds : forall str per acts, exists done_ rest, filter (of_runner RPeriodic) (observed str per acts) = concat done_ ++ rest /\
  Forall (round RPeriodic) done_ /\ (rest = [] \/ begun RPeriodic rest).
Proof.
  assert (forall t, rounds RPeriodic t -> exists l, t = concat l /\ Forall (round RPeriodic) l) as K.
  { intros t H. induction H as [|t r H [l [-> Hl]] Hr]; [exists []; auto|]. exists (l ++ [r]). rewrite concat_app. cbn. rewrite app_nil_r. split; [reflexivity|].
    apply Forall_app. auto. }
  intros str per acts. unfold observed. destruct (steps str per acts init) as [s t] eqn:E. apply inv_reachable in E as [_ [[_ [_ H]] _]]. cbn [snd].
  change (filter (of_runner RPeriodic) t) with (proj RPeriodic t). destruct (st_per s) as [| | |e|].
  - exists [], []. rewrite H. auto.
  - apply K in H as [l [-> Hl]]. exists l, []. rewrite app_nil_r. auto.
  - destruct H as [t0 [Ht ->]]. apply K in Ht as [l [-> Hl]]. exists l, [ERun RPeriodic]. split; [reflexivity|]. split; [exact Hl|]. right. constructor.
  - destruct H as [t0 [o [Ht [Hd ->]]]]. apply K in Ht as [l [-> Hl]]. exists l, [ERun RPeriodic; EEnd RPeriodic o]. split; [reflexivity|]. split; [exact Hl|]. right. econstructor; eassumption.
  - apply K in H as [l [-> Hl]]. exists l, []. rewrite app_nil_r. auto.
Qed.
Print Assumptions C107_rounds.

Lemma no_cancel_no_done str per acts : ~ In ACancel acts -> forall s, st_done (fst (steps str per acts s)) = st_done s.
Proof.
  induction acts as [|a acts IH]; intros Hn s; cbn [steps]; [reflexivity|].
  assert (st_done (fst (step str per a s)) = st_done s) as Ha.
  { destruct a as [o|o|ch o| |]; cbn [step].
    - unfold main_step. destruct (st_main s) as [| |e|[e|]| |]; try reflexivity; [destruct str|destruct (recovered RInit o)]; reflexivity.
    - unfold back_step. destruct (st_back s); try reflexivity. destruct (recovered RInit o); reflexivity.
    - unfold per_step. destruct (st_per s); try reflexivity; [destruct ch, (st_tick s), (st_done s) eqn:E|destruct (recovered RPeriodic o)]; cbn; auto.
    - unfold tick_step. destruct (st_per s); reflexivity.
    - exfalso. apply Hn. now left. }
  destruct (step str per a s) as [s1 t1]. cbn [fst] in Ha. specialize (IH (fun H => Hn (or_intror H)) s1). rewrite Ha in IH. now destruct (steps str per acts s1).
Qed.

(** Nothing stops the refreshes before the context is done: after the start, whatever has happened (failures and
    panics of refreshes too, and also if a refresh is going on), the next tick leads to another refresh, after at
    most three steps of the goroutine. *)
Theorem C107_go_on : forall str per acts, ~ In ACancel acts -> (0 < per)%Z -> In (EReturn None) (observed str per acts) ->
  forall o, exists n, n <= 3 /\
    runs RPeriodic (observed str per (acts ++ ATick :: repeat (APer true o) n)) > runs RPeriodic (observed str per acts).
Proof.
  intros str per acts Hn Hper Hr o.
  unfold observed in *. destruct (steps str per acts init) as [s t] eqn:E. cbn [snd] in *.
  pose proof (no_cancel_no_done str per acts Hn init) as Hd. rewrite E in Hd. cbn [fst init st_done] in Hd.
  assert (st_per s <> PNone) as Hp.
  { pose proof E as E'. apply in_split in Hr as [pre [post ->]]. apply steps_split in E' as (a1 & a & a2 & s1 & s2 & -> & H1 & H2 & H3).
    assert (st_per s1 <> PNone) as Hs1.
    { destruct (step_return _ _ _ _ _ _ H2) as [[e [_ H]]|[Hm _]]; [discriminate|]. clear -H1 Hm Hper.
      assert (forall acts s s' t, steps str per acts s = (s', t) -> (st_main s = MLeaving -> st_per s <> PNone) -> (st_main s' = MLeaving -> st_per s' <> PNone)) as K.
      { clear -Hper. induction acts as [|a acts IH]; intros s s' t E H; cbn [steps] in E; [injection E as <- _; exact H|].
        destruct (step str per a s) as [s1 t1] eqn:E1. destruct (steps str per acts s1) as [s2 t2] eqn:E2. injection E as <- _. apply (IH _ _ _ E2).
        destruct a as [o|o|ch o| |]; cbn [step] in E1.
        - unfold main_step in E1. destruct (st_main s) as [| |e|[e|]| |] eqn:Em; try (inversion E1; subst; cbn; congruence).
          + destruct str; inversion E1; subst; cbn; congruence.
          + destruct (recovered RInit o); inversion E1; subst; cbn; congruence.
          + inversion E1; subst; cbn. intros _. replace (0 <? per)%Z with true by lia. discriminate.
        - unfold back_step in E1. destruct (st_back s); try (inversion E1; subst; cbn; exact H). destruct (recovered RInit o); inversion E1; subst; cbn; exact H.
        - unfold per_step in E1. destruct (st_per s) eqn:Ep; [|destruct ch, (st_tick s), (st_done s)|destruct (recovered RPeriodic o)| |];
            inversion E1; subst; cbn; try congruence; intros Hml; specialize (H Hml); congruence.
        - unfold tick_step in E1. destruct (st_per s) eqn:Ep; inversion E1; subst; cbn; try congruence; intros Hml; specialize (H Hml); congruence.
        - inversion E1; subst; cbn. exact H. }
      apply (K _ _ _ _ H1); [discriminate|exact Hm]. }
    assert (forall acts s s' t, steps str per acts s = (s', t) -> st_per s <> PNone -> st_per s' <> PNone) as K.
    { clear. induction acts as [|a acts IH]; intros s s' t E H; cbn [steps] in E; [injection E as <- _; exact H|].
      destruct (step str per a s) as [s1 t1] eqn:E1. destruct (steps str per acts s1) as [s2 t2] eqn:E2. injection E as <- _. apply (IH _ _ _ E2).
      destruct a as [o|o|ch o| |]; cbn [step] in E1.
      - unfold main_step in E1. destruct (st_main s) as [| |e|[e|]| |] eqn:Em; try (inversion E1; subst; cbn; congruence).
        + destruct str; inversion E1; subst; cbn; congruence.
        + destruct (recovered RInit o); inversion E1; subst; cbn; congruence.
        + inversion E1; subst; cbn. destruct (0 <? per)%Z; congruence.
      - unfold back_step in E1. destruct (st_back s); try (inversion E1; subst; cbn; exact H). destruct (recovered RInit o); inversion E1; subst; cbn; exact H.
      - unfold per_step in E1. destruct (st_per s) eqn:Ep; [|destruct ch, (st_tick s), (st_done s)|destruct (recovered RPeriodic o)| |];
          inversion E1; subst; cbn; congruence.
      - unfold tick_step in E1. destruct (st_per s) eqn:Ep; inversion E1; subst; cbn; congruence.
      - inversion E1; subst; cbn. exact H. }
    apply (K (a :: a2) s1 s (EReturn None :: post)); [cbn [steps]; now rewrite H2, H3|exact Hs1]. }
  apply inv_reachable in E as E'. destruct E' as [_ [_ [_ [_ [He _]]]]].
  assert (st_per s <> PEnded) as Hp' by (intros H; apply He in H; congruence).
  assert (forall n, snd (steps str per (acts ++ ATick :: repeat (APer true o) n) init) = t ++ snd (steps str per (ATick :: repeat (APer true o) n) s)) as Ea.
  { intros n. rewrite steps_app, E. now destruct (steps str per (ATick :: repeat (APer true o) n) s). }
  assert (forall t', In (ERun RPeriodic) t' -> runs RPeriodic (t ++ t') > runs RPeriodic t) as Hgt.
  { intros t' Hin. rewrite runs_app. unfold runs at 2. assert (In (ERun RPeriodic) (filter (fun ev => match ev, RPeriodic with ERun RInit, RInit | ERun RPeriodic, RPeriodic => true | _, _ => false end) t')) as H by (apply filter_In; auto).
    destruct (filter _ t') as [|x l]; [destruct H|cbn [length]; lia]. }
  destruct s as [m b p tk dn]. cbn [st_per st_done] in *. subst dn. destruct p as [| | |e|]; try congruence.
  - exists 1. split; [lia|]. rewrite Ea. apply Hgt. cbn. auto.
  - destruct (recovered RPeriodic o) as [e|] eqn:Eo.
    + exists 3. split; [lia|]. rewrite Ea. apply Hgt. cbn. rewrite Eo. cbn. auto.
    + exists 2. split; [lia|]. rewrite Ea. apply Hgt. cbn. rewrite Eo. cbn. auto.
  - exists 2. split; [lia|]. rewrite Ea. apply Hgt. cbn. auto.
Qed.
Print Assumptions C107_go_on.

(** After the goroutine has noticed that the context is done there are no more refreshes. *)
Theorem C107_stopped : forall str per acts pre post, observed str per acts = pre ++ EStopped :: post ->
  In ECancel pre /\ ~ In (ERun RPeriodic) post.
Proof.
  intros str per acts pre post E. apply observed_split in E as (acts1 & a & acts2 & s1 & s2 & s' & -> & E1 & E2 & E3).
  assert (st_done s1 = true /\ st_per s2 = PEnded /\ st_main s1 <> MDo None) as [Hd [Hp Hm]].
  { destruct a as [o|o|ch o| |]; cbn [step] in E2.
    - unfold main_step in E2. destruct (st_main s1) as [| |e|[e|]| |]; try (now inversion E2); [destruct str|destruct (recovered RInit o)]; inversion E2.
    - unfold back_step in E2. destruct (st_back s1); try (now inversion E2). destruct (recovered RInit o); inversion E2.
    - unfold per_step in E2. destruct (st_per s1) eqn:Ep; try (now inversion E2); [destruct ch, (st_tick s1), (st_done s1)|destruct (recovered RPeriodic o)]; inversion E2; subst; cbn.
      all: split; [reflexivity|]; split; [reflexivity|]; intros Em; apply inv_reachable in E1 as [_ [[H _] _]]; rewrite Em in H; congruence.
    - unfold tick_step in E2. destruct (st_per s1); inversion E2.
    - inversion E2. }
  split.
  - apply inv_reachable in E1 as [_ [_ [_ [H _]]]]. now apply H.
  - assert (st_main s2 <> MDo None /\ match st_main s2 with MBegin | MInit | MLogging _ | MDo _ => False | _ => True end) as [_ Hm2].
    { assert (steps str per (acts1 ++ [a]) init = (s2, pre ++ [EStopped])) as E12.
      { rewrite steps_app, E1. cbn [steps]. rewrite E2. reflexivity. }
      apply inv_reachable in E12 as [_ [[H _] _]]. destruct (st_main s2) as [| |e|r| |]; try (rewrite Hp in H; discriminate); split; auto; discriminate. }
    clear -E3 Hp Hm2. revert s2 s' post Hp Hm2 E3. induction acts2 as [|a acts IH]; intros s2 s' post Hp Hm E; cbn [steps] in E; [injection E as _ <-; intros []|].
    destruct (step str per a s2) as [s3 t3] eqn:E1. destruct (steps str per acts s3) as [s4 t4] eqn:E4. injection E as _ <-.
    intros Hin. apply in_app_or in Hin.
    assert (st_per s3 = PEnded /\ match st_main s3 with MBegin | MInit | MLogging _ | MDo _ => False | _ => True end /\ ~ In (ERun RPeriodic) t3) as [H1 [H2 H3]].
    { destruct a as [o|o|ch o| |]; cbn [step] in E1.
      - unfold main_step in E1. destruct (st_main s2) as [| |e|[e|]| |] eqn:Em; try contradiction; inversion E1; subst; cbn; rewrite ?Em; repeat split; auto; intros [H|[]]; discriminate.
      - unfold back_step in E1. destruct (st_back s2); try (destruct (recovered RInit o)); inversion E1; subst; cbn; repeat split; auto; try (intros [H|[]]; discriminate); intros [].
      - unfold per_step in E1. rewrite Hp in E1. inversion E1; subst. auto.
      - unfold tick_step in E1. rewrite Hp in E1. inversion E1; subst. auto.
      - inversion E1; subst; cbn. repeat split; auto. intros [H|[]]; discriminate. }
    destruct Hin as [Hin|Hin]; [contradiction|]. now apply (IH s3 s4 t4 H1 H2 E4).
Qed.
Print Assumptions C107_stopped.

(** But between the end of the context and that moment refreshes may still be started: if a tick is waiting, the
    select may choose it. *)
Theorem C107_after_cancel_refuted : exists acts pre post, observed SBlocking 1 acts = pre ++ ECancel :: post /\ In (ERun RPeriodic) post.
Proof.
  exists [AMain ROk; AMain ROk; AMain ROk; AMain ROk; ATick; ACancel; APer true ROk],
    [ERun RInit; EEnd RInit ROk; EReturn None; ETick], [ERun RPeriodic]. split; [reflexivity|now left].
Qed.
Print Assumptions C107_after_cancel_refuted.

Lemma count_rounds (w : runner) t : round w t ->
  length (filter (fun ev => match ev, w with ERun RInit, RInit | ERun RPeriodic, RPeriodic => true | _, _ => false end) t) =
  length (filter (fun ev => match ev, w with EEnd RInit _, RInit | EEnd RPeriodic _, RPeriodic => true | _, _ => false end) t).
Proof. intros [|o e H]; destruct w; reflexivity. Qed.

Lemma running_proj w t : running w t <-> running w (proj w t).
Proof.
  unfold running. assert (forall f, (forall ev, f ev = true -> of_runner w ev = true) -> filter f (proj w t) = filter f t) as K.
  { intros f Hf. unfold proj. induction t as [|x t IH]; [reflexivity|]. cbn [filter]. destruct (of_runner w x) eqn:E; cbn [filter]; rewrite IH; [reflexivity|].
    destruct (f x) eqn:Ef; [apply Hf in Ef; congruence|reflexivity]. }
  rewrite !K; [reflexivity| |]; intros [w'|w' o|w' e|r| | |]; destruct w; try discriminate; destruct w'; try discriminate; reflexivity.
Qed.

Lemma round_not_running w t : round w t -> ~ running w t.
Proof. intros H. apply count_rounds in H. unfold running. lia. Qed.

(** Except with "fast" the function is never run twice at the same time ... *)
Theorem C107_no_overlap : forall str per acts, str <> SFast ->
  ~ (running RInit (observed str per acts) /\ running RPeriodic (observed str per acts)).
Proof.
  intros str per acts Hs [H1 H2]. unfold observed in *. destruct (steps str per acts init) as [s t] eqn:E. cbn [snd] in *.
  apply inv_reachable in E as [Hi [[Hm [_ Hp]] _]]. apply running_proj in H1, H2.
  assert (st_per s <> PNone) as Hn by (intros Hn; rewrite Hn in Hp; rewrite Hp in H2; unfold running in H2; cbn in H2; lia).
  unfold init_part in Hi. destruct str; try contradiction; destruct Hi as [_ Hi]; destruct (st_main s) as [| |e|r| |]; try contradiction;
    destruct Hi as [Hi _]; now apply round_not_running in Hi.
Qed.
Print Assumptions C107_no_overlap.

(** ... but with "fast" the first load may still be going on when the first periodic refresh starts. *)
Theorem C107_no_overlap_refuted : exists acts, running RInit (observed SFast 1 acts) /\ running RPeriodic (observed SFast 1 acts).
Proof.
  exists [AMain ROk; AMain ROk; AMain ROk; ABack ROk; ATick; APer true ROk]. unfold running. cbn. lia.
Qed.
Print Assumptions C107_no_overlap_refuted.

Example C66_example_fail : observed SFailOnError 60 [AMain ROk; AMain (RPanic 7); AMain ROk; AMain ROk; AMain ROk; ATick; APer true ROk] =
  [ERun RInit; EEnd RInit (RPanic 7); ELog RInit (EInitPanic 7); EReturn (Some (EInitPanic 7))].
Proof. reflexivity. Qed.
Example C66_example_blocking : observed SBlocking 60 [AMain ROk; AMain (RError 3); AMain ROk; AMain ROk; AMain ROk; ATick; APer true ROk; APer true (RPanic 1); APer true ROk; ATick; APer true ROk] =
  [ERun RInit; EEnd RInit (RError 3); ELog RInit (EPlain 3); EReturn None; ETick; ERun RPeriodic; EEnd RPeriodic (RPanic 1); ELog RPeriodic (ERefreshPanic 1); ETick; ERun RPeriodic].
Proof. reflexivity. Qed.
Example C107_example_stop : observed SBlocking 60 [AMain ROk; AMain ROk; AMain ROk; AMain ROk; ACancel; APer false ROk; ATick; APer true ROk] =
  [ERun RInit; EEnd RInit ROk; EReturn None; ECancel; EStopped].
Proof. reflexivity. Qed.
