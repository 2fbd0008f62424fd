(** C156, C157: the query log over restarts, and the set-up of its database. *)
From Coq Require Import String Ascii List Arith Bool NArith ZArith Lia.
From Verif Require Import Str StrFacts QueryLog QueryLogSpec QueryLogProps Retention RetentionSpec.
Import ListNotations.
Open Scope list_scope.

Section Proofs.
Variable civil_of : Z -> civil.
Variable midnight : N -> N -> N -> Z.
Variable days_before : N -> Z -> Z.
Variable wrap : Z -> N.
Variable chunk : Z.
Variable kind : log_type.
Notation step := (life_step civil_of midnight days_before wrap chunk kind).
Notation run := (life_run civil_of midnight days_before wrap chunk kind).
Notation go := (fold_left step).

(** The next tick is ahead, and the entries have the time of their query. *)
Definition fine (begin : Z) (s : life) : Prop :=
  (begin <= lf_now s)%Z /\
  (forall t days next, lf_run s = Some (t, days, Some next) -> (next - 43200 <= lf_now s < next)%Z /\ cleans_up t days = true) /\
  forall e, In e (lf_log s) -> (begin <= le_instant e <= lf_now s)%Z /\ le_start e = civil_of (le_instant e).

Lemma clean_incl t days now log e : In e (clean_log midnight days_before wrap t days now log) -> In e log.
Proof. destruct t; cbn [clean_log]; auto; rewrite filter_In; tauto. Qed.

Lemma fine_step begin s o : fine begin s -> fine begin (step s o) /\ (lf_now s <= lf_now (step s o))%Z.
Proof.
  intros (Hb & Ht & He). destruct o as [at_ days| |e|secs|]; cbn [life_step].
  - destruct (open_retry at_ kind days (lf_schema s)) as [sc ok]. cbn [lf_now]. split; [|lia].
    split; [exact Hb|]. split; [|exact He]. cbn [lf_run lf_now]. intros t d next E.
    destruct (cleans_up (writer_type kind ok) days) eqn:C; [|discriminate E]. injection E as <- <- <-. split; [unfold clean_period; lia|exact C].
  - split; [|cbn; lia]. split; [exact Hb|]. split; [discriminate|exact He].
  - destruct (lf_run s) as [[[t d] n]|] eqn:R; [|split; [split; [exact Hb|split; [rewrite R; discriminate|exact He]]|lia]].
    split; [|cbn; lia]. split; [exact Hb|]. cbn [lf_run lf_now lf_log]. split; [exact Ht|].
    intros e' H. destruct (keeps t); [|now apply He]. apply in_app_iff in H as [H|[<-|[]]]; [now apply He|]. cbn. split; [lia|reflexivity].
  - assert (Hz : (0 <= Z.of_N secs)%Z) by lia.
    destruct (lf_run s) as [[[t d] [next|]]|] eqn:R.
    + destruct (Ht _ _ _ eq_refl) as [Hn Hc]. destruct (next <=? lf_now s + Z.of_N secs)%Z eqn:L.
      * cbn [lf_now]. split; [|lia]. split; [cbn; lia|]. cbn [lf_run lf_now lf_log]. split.
        { intros ? ? ? E. injection E as <- <- <-. split; [unfold clean_period; lia|exact Hc]. }
        intros e H. apply clean_incl in H. apply He in H. split; [lia|tauto].
      * apply Z.leb_gt in L. cbn [lf_now]. split; [|lia]. split; [cbn; lia|]. cbn [lf_run lf_now lf_log]. split.
        { intros ? ? ? E. injection E as <- <- <-. split; [lia|exact Hc]. }
        intros e H. apply He in H. split; [lia|tauto].
    + cbn [lf_now]. split; [|lia]. split; [cbn; lia|]. cbn [lf_run lf_now lf_log]. split; [discriminate|].
      intros e H. apply He in H. split; [lia|tauto].
    + cbn [lf_now]. split; [|lia]. split; [cbn; lia|]. cbn [lf_run lf_now lf_log]. split; [discriminate|].
      intros e H. apply He in H. split; [lia|tauto].
  - destruct (sc_policy (lf_schema s)); [|split; [split; [exact Hb|split; [exact Ht|exact He]]|lia]].
    cbn [lf_now]. split; [|lia]. split; [exact Hb|]. split; [exact Ht|]. cbn [lf_log lf_now]. intros e H. apply filter_In in H. now apply He.
Qed.

Lemma fine_go begin ops s : fine begin s -> fine begin (go ops s) /\ (lf_now s <= lf_now (go ops s))%Z.
Proof.
  revert s. induction ops as [|o ops IH]; intros s H; [split; [exact H|cbn; lia]|]. cbn [fold_left].
  destruct (fine_step _ _ o H) as [H1 L]. destruct (IH _ H1) as [H2 L2]. split; [exact H2|lia].
Qed.

Lemma fine_run begin ops : fine begin (run begin ops).
Proof. apply fine_go. split; [cbn; lia|]. split; [discriminate|intros e []]. Qed.

Lemma run_app begin a b : run begin (a ++ b) = go b (run begin a).
Proof. apply fold_left_app. Qed.

(** A file of an entry, and when it is removed. *)
Lemma file_removed lo hi pc days now e : clock civil_of midnight days_before lo hi ->
  (lo <= le_instant e <= now)%Z -> (now <= hi)%Z -> le_start e = civil_of (le_instant e) ->
  let m := midnight (c_year (le_start e)) (c_month (le_start e)) (c_day (le_start e)) in
  (m <= le_instant e < m + 90000)%Z /\
  (removes wrap midnight days now (file_name pc e) = true <-> (0 < days)%N /\ (m + (Z.of_N days + 1) * 86400 <= now)%Z).
Proof.
  intros [Hc _] Hi Hn Hs m. assert (Hin : (lo <= le_instant e <= hi)%Z) by lia.
  destruct (Hc _ Hin) as (Hy & Hv & Hm). cbv zeta in Hm. rewrite <- Hs in Hy, Hv, Hm. fold m in Hm. split; [exact Hm|].
  assert (good_time (le_start e)) as Hg by (split; assumption).
  destruct (C61_own_files pc e Hg) as [Hd Hx]. rewrite removes_iff.
  2:{ intros y mo d H. pose proof (dated_fun _ _ _ _ _ _ _ Hd H) as E. injection E as <- <- <-. fold m. lia. }
  split.
  - intros (H0 & _ & y & mo & d & H & L). pose proof (dated_fun _ _ _ _ _ _ _ Hd H) as E. injection E as <- <- <-. fold m in L. tauto.
  - intros [H0 L]. split; [exact H0|]. split; [exact Hx|]. eauto 6.
Qed.

Lemma clean_keeps lo hi t days now log e : clock civil_of midnight days_before lo hi ->
  (lo <= le_instant e <= now)%Z -> (now <= hi)%Z -> le_start e = civil_of (le_instant e) -> In e log ->
  (now <= le_instant e + 86400 * Z.of_N days - 3600)%Z -> In e (clean_log midnight days_before wrap t days now log).
Proof.
  intros Hc Hi Hn Hs H L. assert (Hnow : (lo <= now <= hi)%Z) by lia. pose proof (proj2 Hc days now Hnow) as Hd.
  assert (forall pc, negb (removes wrap midnight days now (file_name pc e)) = true) as Hf.
  { intros pc. destruct (file_removed lo hi pc days now e Hc Hi Hn Hs) as [Hm Hr]. cbv zeta in Hr.
    apply negb_true_iff, not_true_iff_false. rewrite Hr. lia. }
  destruct t; cbn [clean_log]; auto; apply filter_In; split; auto; apply Z.leb_le; lia.
Qed.

Lemma clean_bound lo hi t days now log e : clock civil_of midnight days_before lo hi -> keeps t = true -> (0 < days)%N ->
  (lo <= le_instant e <= now)%Z -> (now <= hi)%Z -> le_start e = civil_of (le_instant e) ->
  In e (clean_log midnight days_before wrap t days now log) -> (now <= le_instant e + 86400 * Z.of_N days + grace t - 43200)%Z.
Proof.
  intros Hc Hk H0 Hi Hn Hs H. assert (Hnow : (lo <= now <= hi)%Z) by lia. pose proof (proj2 Hc days now Hnow) as Hd.
  assert (forall pc, negb (removes wrap midnight days now (file_name pc e)) = true -> (now <= le_instant e + 86400 * Z.of_N days + 86400)%Z) as Hf.
  { intros pc E. destruct (file_removed lo hi pc days now e Hc Hi Hn Hs) as [Hm Hr]. cbv zeta in Hr.
    apply negb_true_iff, not_true_iff_false in E. rewrite Hr in E. lia. }
  destruct t; try discriminate Hk; cbn [clean_log] in H; apply filter_In in H as [_ H]; cbn [grace];
    try (apply Z.leb_le in H; lia); apply Hf in H; lia.
Qed.

(** ** The policy of the database: from one of the starts, and only for Timescale *)
Lemma exec_policy fails c s s' : exec fails c s = inl s' ->
  sc_policy s' = sc_policy s \/ exists days, c = AddRetentionPolicy days /\ sc_policy s = None /\ sc_policy s' = Some days.
Proof.
  unfold exec. destruct (fails c); [discriminate|]. destruct c; try (intros E; injection E as <-; auto).
  - destruct (sc_id s); [discriminate|]. intros E; injection E as <-; auto.
  - cbn. destruct (sc_policy s); eauto.
Qed.

Lemma open_db_policy fails t days s :
  sc_policy (fst (open_db fails t days s)) = sc_policy s \/
  (t = LTimescale /\ sc_policy s = None /\ sc_policy (fst (open_db fails t days s)) = Some days).
Proof.
  unfold open_db, migrate. destruct t; auto; cbn -[exec]; destruct (exec fails AutoMigrate s) as [s1|] eqn:E1; auto;
    apply exec_policy in E1 as [E1|(d & D & _)]; try discriminate D; try (cbn; auto; fail).
  - destruct (exec fails AddIdMysql s1) as [s2|] eqn:E2; cbn; auto. apply exec_policy in E2 as [E2|(d & D & _)]; [|discriminate D]. left; congruence.
  - destruct (exec fails CreateHypertable s1) as [s2|] eqn:E2; cbn -[exec]; auto. apply exec_policy in E2 as [E2|(d & D & _)]; [|discriminate D].
    destruct (exec fails (AddRetentionPolicy days) s2) as [s3|] eqn:E3; cbn; [|left; congruence].
    apply exec_policy in E3 as [E3|(d & D & N0 & S0)]; [left; congruence|]. injection D as <-. right. split; [reflexivity|]. split; congruence.
Qed.

Lemma open_retry_policy attempts t days s :
  sc_policy (fst (open_retry attempts t days s)) = sc_policy s \/
  (t = LTimescale /\ sc_policy s = None /\ sc_policy (fst (open_retry attempts t days s)) = Some days).
Proof.
  revert s. induction attempts as [|a rest IH]; intros s; [now left|]. cbn [open_retry].
  pose proof (open_db_policy a t days s) as H. destruct (open_db a t days s) as [s1 ok]. cbn [fst] in H. destruct ok; [exact H|].
  destruct (IH s1) as [E|(T & N0 & S0)], H as [E'|(T' & N' & S')].
  - left; congruence.
  - right. split; [exact T'|]. split; congruence.
  - right. split; [exact T|]. split; congruence.
  - congruence.
Qed.

Lemma policy_step (P : N -> Prop) s o : (forall d, sc_policy (lf_schema s) = Some d -> kind = LTimescale /\ P d) ->
  (forall a d, o = Start a d -> P d) -> forall d, sc_policy (lf_schema (step s o)) = Some d -> kind = LTimescale /\ P d.
Proof.
  intros H Ho d E. destruct o as [a days| |e|secs|]; cbn [life_step] in E.
  - pose proof (open_retry_policy a kind days (lf_schema s)) as Hp. destruct (open_retry a kind days (lf_schema s)) as [sc ok].
    cbn [lf_schema fst] in *. destruct Hp as [Hp|(T & _ & S0)]; [apply H; congruence|].
    split; [exact T|]. rewrite S0 in E. injection E as <-. eapply Ho; reflexivity.
  - now apply H.
  - destruct (lf_run s) as [[[t d'] n]|]; now apply H.
  - destruct (lf_run s) as [[[t d'] [n|]]|]; [destruct (n <=? _)%Z|..]; now apply H.
  - destruct (sc_policy (lf_schema s)) eqn:S0; [cbn [lf_schema] in E|]; apply H; congruence.
Qed.

(** ** C156: what is kept *)

(** One step keeps an entry whose time of retention is not over.  [days] of retention, or, without a policy, for ever. *)
Lemma step_keeps lo hi r s o e : (0 < chunk)%Z -> clock civil_of midnight days_before lo hi -> fine lo s -> In e (lf_log s) ->
  (forall d, sc_policy (lf_schema s) = Some d -> (r <= d)%N) ->
  (forall t d n, lf_run s = Some (t, d, Some n) -> (r <= d)%N) ->
  (lf_now (step s o) <= hi)%Z -> (lf_now (step s o) <= le_instant e + 86400 * Z.of_N r - 3600)%Z -> In e (lf_log (step s o)).
Proof.
  intros Hch Hc Hf H Hp Hr Hh L. destruct (fine_step _ _ o Hf) as [_ Hm]. destruct Hf as (Hb & Ht & He).
  destruct (He e H) as [Hi Hs]. destruct o as [a days| |e'|secs|]; cbn [life_step] in *.
  - now destruct (open_retry a kind days (lf_schema s)).
  - exact H.
  - destruct (lf_run s) as [[[t d] n]|]; [|exact H]. cbn [lf_log]. destruct (keeps t); [apply in_or_app; now left|exact H].
  - destruct (lf_run s) as [[[t d] [n|]]|] eqn:R; try exact H. destruct (n <=? lf_now s + Z.of_N secs)%Z; [|exact H].
    cbn [lf_log lf_now] in *. specialize (Hr _ _ _ eq_refl). apply clean_keeps with (lo := lo) (hi := hi); auto; lia.
  - destruct (sc_policy (lf_schema s)) as [d|] eqn:S0; [|exact H]. cbn [lf_log lf_now] in *. specialize (Hp _ eq_refl).
    apply filter_In. split; [exact H|]. apply negb_true_iff, Z.leb_gt.
    assert (Hnow : (lo <= lf_now s <= hi)%Z) by lia. pose proof (proj2 Hc d _ Hnow) as Hd.
    pose proof (Z.mul_succ_div_gt (le_instant e) chunk Hch). lia.
Qed.

(** the process that runs has the retention of a start *)
Lemma run_step (P : N -> Prop) s o : (forall t d n, lf_run s = Some (t, d, Some n) -> (0 < d)%N /\ P d) ->
  (forall a d, o = Start a d -> (0 < d)%N -> P d) -> forall t d n, lf_run (step s o) = Some (t, d, Some n) -> (0 < d)%N /\ P d.
Proof.
  intros H Ho t d n E. destruct o as [a days| |e|secs|]; cbn [life_step] in E.
  - destruct (open_retry a kind days (lf_schema s)) as [sc ok]. cbn [lf_run] in E.
    destruct (cleans_up (writer_type kind ok) days) eqn:C; [|discriminate E]. injection E as _ <- _.
    unfold cleans_up in C. apply andb_true_iff in C as [C _]. apply N.ltb_lt in C. split; [exact C|]. now apply (Ho a).
  - discriminate E.
  - destruct (lf_run s) as [[[t' d'] n']|] eqn:R; [apply (H t d n); cbn in E; congruence|rewrite R in E; discriminate E].
  - destruct (lf_run s) as [[[t' d'] [n'|]]|] eqn:R; [destruct (n' <=? _)%Z|..]; cbn [lf_run] in E; try discriminate E;
      injection E as <- <- <-; now apply (H t' d' n').
  - destruct (sc_policy (lf_schema s)); apply (H t d n); exact E.
Qed.

(** [P] of all retentions at work, over a history. *)
Lemma at_work (P : N -> Prop) begin ops : (forall a d, In (Start a d) ops -> (0 < d)%N \/ kind = LTimescale -> P d) ->
  (forall d, sc_policy (lf_schema (run begin ops)) = Some d -> P d) /\
  (forall t d n, lf_run (run begin ops) = Some (t, d, Some n) -> P d).
Proof.
  intros H.
  assert ((forall d, sc_policy (lf_schema (run begin ops)) = Some d -> kind = LTimescale /\ (kind = LTimescale -> P d)) /\
          (forall t d n, lf_run (run begin ops) = Some (t, d, Some n) -> (0 < d)%N /\ P d)) as [H1 H2].
  { induction ops as [|o ops IH] using rev_ind; [split; discriminate|].
    rewrite run_app. cbn [fold_left]. destruct IH as [I1 I2]; [intros; eapply H; [apply in_or_app; left; eassumption|assumption]|]. split.
    - apply policy_step; [exact I1|]. intros a d -> T. apply (H a); [apply in_or_app; right; now left|now right].
    - apply run_step; [exact I2|]. intros a d -> T. apply (H a); [apply in_or_app; right; now left|now left]. }
  split; [intros d E; destruct (H1 d E); auto|intros t d n E; now destruct (H2 t d n E)].
Qed.

Lemma keeps_on lo hi r ops2 : forall ops1 e, (0 < chunk)%Z -> clock civil_of midnight days_before lo hi ->
  (forall a d, In (Start a d) (ops1 ++ ops2) -> (0 < d)%N \/ kind = LTimescale -> (r <= d)%N) ->
  In e (lf_log (run lo ops1)) -> (lf_now (run lo (ops1 ++ ops2)) <= hi)%Z ->
  (lf_now (run lo (ops1 ++ ops2)) <= le_instant e + 86400 * Z.of_N r - 3600)%Z -> In e (lf_log (run lo (ops1 ++ ops2))).
Proof.
  induction ops2 as [|o ops2 IH]; intros ops1 e Hch Hc Hd H Hh L; [now rewrite app_nil_r in *|].
  replace (ops1 ++ o :: ops2) with ((ops1 ++ [o]) ++ ops2) in * by now rewrite <- app_assoc.
  apply IH; auto. rewrite run_app. cbn [fold_left].
  destruct (at_work (fun d => (r <= d)%N) lo ops1) as [P1 P2].
  { intros a d Hin. apply (Hd a). rewrite <- app_assoc. apply in_or_app. now left. }
  assert (lf_now (step (run lo ops1) o) <= lf_now (run lo ((ops1 ++ [o]) ++ ops2)))%Z as Hm.
  { rewrite !run_app. cbn [fold_left]. apply (fine_go lo). apply fine_step, fine_run. }
  eapply step_keeps; eauto using fine_run; lia.
Qed.

(** C156: whatever starts, stops and clean-ups happen, an entry stays in the log for its days of retention (but for an hour, clocks change). *)
Theorem C156_kept_partial : forall lo hi r ops1 ops2 e, (0 < chunk)%Z -> clock civil_of midnight days_before lo hi ->
  retentions (fun d => (r <= d)%N \/ d = 0%N /\ kind <> LTimescale) (ops1 ++ ops2) ->
  In e (lf_log (run lo ops1)) -> (lf_now (run lo (ops1 ++ ops2)) <= hi)%Z ->
  (lf_now (run lo (ops1 ++ ops2)) - le_instant e <= 86400 * Z.of_N r - 3600)%Z -> In e (lf_log (run lo (ops1 ++ ops2))).
Proof.
  intros lo hi r ops1 ops2 e Hch Hc Hd H Hh L. apply (keeps_on lo hi r); auto; [|lia].
  intros a d Hin Hw. destruct (Hd a d Hin) as [Hr|[-> Hk]]; [exact Hr|]. destruct Hw as [Hw|Hw]; [lia|contradiction].
Qed.

(** Without a retention nothing is ever removed. *)
Theorem C156_unlimited_partial : forall begin ops1 ops2, kind <> LTimescale -> retentions (fun d => d = 0%N) (ops1 ++ ops2) ->
  exists more, lf_log (run begin (ops1 ++ ops2)) = lf_log (run begin ops1) ++ more.
Proof.
  intros begin ops1 ops2 Hk. revert ops1. induction ops2 as [|o ops2 IH]; intros ops1 Hd; [exists []; now rewrite !app_nil_r|].
  replace (ops1 ++ o :: ops2) with ((ops1 ++ [o]) ++ ops2) in * by now rewrite <- app_assoc.
  destruct (IH _ Hd) as [more E]. rewrite E, run_app. cbn [fold_left].
  destruct (at_work (fun _ => False) begin ops1) as [P1 P2].
  { intros a d Hin Hw. assert (d = 0%N) as -> by (apply (Hd a); rewrite <- app_assoc; apply in_or_app; now left). destruct Hw; [lia|contradiction]. }
  assert (exists m, lf_log (step (run begin ops1) o) = lf_log (run begin ops1) ++ m) as [m ->]; [|exists (m ++ more); now rewrite app_assoc].
  set (s := run begin ops1) in *. destruct o as [a days| |e|secs|]; cbn [life_step].
  - destruct (open_retry a kind days (lf_schema s)). exists []. now rewrite app_nil_r.
  - exists []. now rewrite app_nil_r.
  - destruct (lf_run s) as [[[t d] n]|]; [|exists []; now rewrite app_nil_r]. cbn [lf_log]. destruct (keeps t); [now eexists|exists []; now rewrite app_nil_r].
  - destruct (lf_run s) as [[[t d] [n|]]|]; [destruct (P2 _ _ _ eq_refl)|..]; exists []; now rewrite app_nil_r.
  - destruct (sc_policy (lf_schema s)) as [d|]; [destruct (P1 _ eq_refl)|]. exists []. now rewrite app_nil_r.
Qed.

(** An entry gets into the log when the process runs with a writer that keeps entries. *)
Theorem C156_logged : forall begin ops t d n e, lf_run (run begin ops) = Some (t, d, n) -> t <> LConsole -> t <> LNone ->
  exists e', lf_log (run begin (ops ++ [Log e])) = lf_log (run begin ops) ++ [e'] /\ le_instant e' = lf_now (run begin ops) /\
    le_qname e' = le_qname e /\ le_answer e' = le_answer e /\ le_names e' = le_names e /\ le_ip e' = le_ip e.
Proof.
  intros begin ops t d n e R H1 H2. rewrite run_app. cbn [fold_left life_step]. rewrite R. cbn [lf_log].
  exists (stamp civil_of (lf_now (run begin ops)) e). split; [|auto 6]. now destruct t.
Qed.

(** ** C156: what goes *)

(** Half a day after a start at the latest, nothing is in the log beyond its retention (a day and a half more for files, half a day and
    an hour for tables). *)
Theorem C156_gone : forall lo hi ops1 a days n ops2 e, clock civil_of midnight days_before lo hi ->
  kind <> LConsole -> kind <> LNone -> kind <> LTimescale -> (0 < days)%N -> goes_on ops2 ->
  let s1 := run lo (ops1 ++ [Start a days]) in let s2 := run lo (ops1 ++ [Start a days] ++ ops2) in
  lf_run s1 = Some (kind, days, n) -> (lf_now s1 + 43200 <= lf_now s2)%Z -> (lf_now s2 <= hi)%Z ->
  In e (lf_log s2) -> (lf_now s2 - le_instant e < 86400 * Z.of_N days + grace kind)%Z.
Proof.
  intros lo hi ops1 a days n ops2 e Hc K1 K2 K3 H0 Hgo s1 s2 R1 L Hh H.
  assert (Hk : keeps kind = true) by (destruct kind; auto; congruence).
  assert (Hcu : cleans_up kind days = true) by (unfold cleans_up; rewrite (proj2 (N.ltb_lt _ _) H0); destruct kind; auto; congruence).
  assert (Hn : n = Some (lf_now s1 + 43200)%Z).
  { revert R1. unfold s1. rewrite run_app. cbn [fold_left life_step].
    destruct (open_retry a kind days (lf_schema (run lo ops1))) as [sc ok]. cbn [lf_run lf_now]. intros E. injection E as E1 <-.
    rewrite E1, Hcu. reflexivity. }
  assert (forall ops, goes_on ops -> (lf_now (go ops s1) <= hi)%Z -> exists next, lf_run (go ops s1) = Some (kind, days, Some next) /\
    (next = lf_now s1 + 43200 \/ forall e, In e (lf_log (go ops s1)) -> next - 43200 <= le_instant e + 86400 * Z.of_N days + grace kind - 43200)%Z) as HI.
  { induction ops as [|o ops IH] using rev_ind; [intros _ _; exists (lf_now s1 + 43200)%Z; cbn [fold_left]; rewrite R1, Hn; auto|].
    intros [G1 G2] Hhi. rewrite fold_left_app in *. cbn [fold_left] in *.
    assert (Hf : fine lo (go ops s1)) by (apply fine_go, fine_run). destruct (fine_step _ _ o Hf) as [Hf' Hmono].
    destruct IH as [next [R HN]]; [split; [intros X; apply G1, in_or_app; now left|intros x d X; apply (G2 x d), in_or_app; now left]|lia|].
    set (s := go ops s1) in *. destruct Hf as (Hb & Ht & He). destruct (Ht _ _ _ R) as [Hnx _].
    destruct o as [x d| |e'|secs|].
    - destruct (G2 x d). apply in_or_app. right. now left.
    - destruct G1. apply in_or_app. right. now left.
    - exists next. cbn [life_step]. rewrite R. cbn [lf_run lf_log]. split; [reflexivity|]. destruct HN as [HN|HN]; [now left|right].
      intros e0 X. rewrite Hk in X. apply in_app_iff in X as [X|[<-|[]]]; [now apply HN|]. cbn [le_instant stamp]. destruct kind; cbn [grace]; lia.
    - cbn [life_step] in *. rewrite R in *. destruct (next <=? lf_now s + Z.of_N secs)%Z.
      + cbn [lf_run lf_log lf_now] in *. exists (next + clean_period)%Z. split; [reflexivity|]. right. intros e0 X.
        pose proof (clean_incl _ _ _ _ _ X) as Xi. destruct (He _ Xi) as [Xt Xs].
        assert (B : (next <= le_instant e0 + 86400 * Z.of_N days + grace kind - 43200)%Z) by (eapply clean_bound; eauto; lia).
        unfold clean_period. lia.
      + exists next. cbn [lf_run lf_log]. auto.
    - cbn [life_step] in *. destruct (sc_policy (lf_schema s)); exists next; [cbn [lf_run lf_log]|]; (split; [exact R|]); destruct HN as [HN|HN]; auto.
      right. intros e0 X. apply filter_In in X as [X _]. now apply HN. }
  assert (E2 : s2 = go ops2 s1) by (unfold s2, s1; now rewrite app_assoc, run_app).
  rewrite E2 in *. destruct (HI ops2 Hgo Hh) as [next [R HN]].
  assert (Hf : fine lo (go ops2 s1)) by (apply fine_go, fine_run). destruct Hf as (_ & Ht & _). destruct (Ht _ _ _ R) as [Hnx _].
  destruct HN as [HN|HN]; [lia|]. specialize (HN _ H). lia.
Qed.
End Proofs.
Print Assumptions C156_kept_partial.
Print Assumptions C156_unlimited_partial.
Print Assumptions C156_logged.
Print Assumptions C156_gone.

(** ** A clock: January 2024 in Greenwich *)
Definition january : Z := 86400 * day_number 2024 1 1.
Definition jan_civil (t : Z) : civil :=
  {| c_year := 2024; c_month := 1; c_day := Z.to_N (1 + (t - january) / 86400); c_hour := 0; c_min := 0; c_sec := 0 |}.
Definition jan_midnight (y m d : N) : Z := 86400 * day_number y m d.
Definition jan_before (days : N) (t : Z) : Z := t - 86400 * Z.of_N days.
Definition week : Z := 604800.
Definition fails_not : sql -> option str := fun _ => None.
Definition jan_entry : log_entry := sample_entry 0 sample_time [$"laptop"] $"example.com.".
Notation jan_run kind := (life_run jan_civil jan_midnight jan_before wrap_amd64 week kind january).

Lemma jan_clock : clock jan_civil jan_midnight jan_before january (january + 31 * 86400 - 1).
Proof.
  split; [|intros days t _; unfold jan_before; lia].
  intros t Ht. cbn [jan_civil c_year c_month c_day]. set (q := ((t - january) / 86400)%Z).
  assert (Hq : (86400 * q <= t - january < 86400 * q + 86400)%Z).
  { unfold q. pose proof (Z.div_mod (t - january) 86400 ltac:(lia)). pose proof (Z.mod_pos_bound (t - january) 86400 ltac:(lia)). lia. }
  assert (0 <= q < 31)%Z as Hr by lia. split; [reflexivity|]. split.
  - exists 31%N. split; [|lia]. unfold month_length. cbn. tauto.
  - cbv zeta. assert (jan_midnight 2024 1 (Z.to_N (1 + q)) = january + 86400 * q)%Z as ->; [|lia].
    unfold jan_midnight, january, day_number. rewrite Z2N.id by lia. cbn -[Z.mul Z.add Z.div Z.sub]. lia.
Qed.

(** The hypotheses of C156_kept_partial and C156_gone: a retention of two days and a restart after a day and a half; at the end (85 hours) the
    entry of the first day is gone and that of the second is there. *)
Definition jan_ops1 : list life_op := [Start [fails_not] 2; Log jan_entry] ++ repeat (Pass 43200) 3 ++ [Stop; Pass 3600].
Definition jan_ops2 : list life_op := [Log jan_entry] ++ repeat (Pass 43200) 4.
Example C156_case : let ops := jan_ops1 ++ [Start [fails_not] 2] ++ jan_ops2 in
  goes_on jan_ops2 /\ retentions (fun d => d = 2%N) ops /\
  lf_run (jan_run LCsv (jan_ops1 ++ [Start [fails_not] 2])) = Some (LCsv, 2%N, Some (january + 176400)%Z) /\
  lf_now (jan_run LCsv ops) = (january + 306000)%Z /\
  map le_instant (lf_log (jan_run LCsv (firstn 11 ops))) = [january; january + 133200]%Z /\
  map le_instant (lf_log (jan_run LCsv ops)) = [january + 133200]%Z /\
  map le_instant (lf_log (jan_run LMysql (firstn 9 ops))) = [january; january + 133200]%Z /\
  map le_instant (lf_log (jan_run LMysql (firstn 10 ops))) = [january + 133200]%Z.
Proof.
  cbv zeta. split.
  { split; [intros H; cbn in H; intuition discriminate|]. intros a d H; cbn in H; intuition discriminate. }
  split; [intros a d H; cbn in H; intuition congruence|]. vm_compute. auto 10.
Qed.

(** Refuted: without a retention (0, the default; "if > 0, deletes ..." in docs/configuration.md) Timescale gets the policy to drop what is
    older than 0 days. *)
Theorem C156_unlimited_refuted : exists ops1 ops2 e, retentions (fun d => d = 0%N) (ops1 ++ ops2) /\
  In e (lf_log (jan_run LTimescale ops1)) /\ lf_log (jan_run LTimescale (ops1 ++ ops2)) = [].
Proof.
  exists [Start [fails_not] 0; Log jan_entry], [Pass 604800; Policy], (stamp jan_civil january jan_entry). split.
  - intros a d [E|[E|[E|[E|[]]]]]; try discriminate E. now injection E as _ <-.
  - split; [left; reflexivity|vm_compute; reflexivity].
Qed.
Print Assumptions C156_unlimited_refuted.

(** Refuted: the log is only looked at half a day after a start: with a restart every eleven hours an entry stays for ever, whatever the
    retention and the clock. *)
Fixpoint restarts (days : N) (n : nat) : list life_op :=
  match n with O => [] | S n => restarts days n ++ [Pass 39600; Stop; Start [fails_not] days] end.
Theorem C156_restarts_refuted : forall civil_of midnight days_before wrap chunk days begin e n, (0 < days)%N -> exists ops,
  let s := life_run civil_of midnight days_before wrap chunk LCsv begin ops in
  retentions (fun d => d = days) ops /\ (exists next, lf_run s = Some (LCsv, days, next)) /\
  lf_now s = (begin + 39600 * Z.of_nat n)%Z /\ exists e', lf_log s = [e'] /\ le_instant e' = begin /\ le_qname e' = le_qname e.
Proof.
  intros cv mid bf wrap chunk days begin e n H0. exists ([Start [fails_not] days; Log e] ++ restarts days n). cbv zeta.
  assert (Hc : forall x, cleans_up (writer_type LCsv x) days = true) by (intros x; unfold cleans_up; rewrite (proj2 (N.ltb_lt _ _) H0); now destruct x).
  assert (life_run cv mid bf wrap chunk LCsv begin ([Start [fails_not] days; Log e] ++ restarts days n) =
    {| lf_now := begin + 39600 * Z.of_nat n; lf_schema := {| sc_table := false; sc_id := false; sc_hyper := false; sc_policy := None |};
       lf_log := [stamp cv begin e]; lf_run := Some (LCsv, days, Some (begin + 39600 * Z.of_nat n + 43200)%Z) |}) as E.
  { induction n as [|n IH].
    - cbn [restarts app]. unfold life_run. cbn [fold_left life_step open_retry open_db lf_schema lf_now lf_log]. rewrite Hc.
      cbn [lf_run lf_now lf_schema lf_log writer_type keeps app]. rewrite Z.add_0_r. reflexivity.
    - cbn [restarts]. rewrite app_assoc. unfold life_run in *. rewrite fold_left_app, IH. cbn [fold_left life_step lf_run lf_now lf_schema lf_log].
      rewrite (proj2 (Z.leb_gt _ _)) by lia. cbn [lf_now lf_schema lf_log lf_run open_retry open_db]. rewrite Hc. cbn [writer_type]. unfold clean_period.
      replace (begin + 39600 * Z.of_nat n + Z.of_N 39600)%Z with (begin + 39600 * Z.of_nat (S n))%Z by lia. reflexivity. }
  rewrite E. split.
  - assert (forall a d, In (Start a d) (restarts days n) -> d = days) as Hr.
    { clear. induction n as [|n IH]; [intros a d []|]. intros a d H. cbn [restarts] in H. apply in_app_iff in H as [H|[H|[H|[H|[]]]]]; try discriminate H; [now apply (IH a)|congruence]. }
    intros a d [X|[X|X]]; [congruence|discriminate X|now apply (Hr a)].
  - split; [eexists; reflexivity|]. split; [reflexivity|]. exists (stamp cv begin e). auto.
Qed.
Print Assumptions C156_restarts_refuted.

(** ** The policy of Timescale *)

(** When the database applies the policy, what is a chunk and an hour older than its days is gone, and a policy has the days of a start. *)
Theorem C156_policy : forall civil_of midnight days_before wrap chunk lo hi ops,
  (0 < chunk)%Z -> clock civil_of midnight days_before lo hi ->
  let s := life_run civil_of midnight days_before wrap chunk LTimescale lo ops in (lf_now s <= hi)%Z ->
  forall days, sc_policy (lf_schema s) = Some days ->
  (exists a, In (Start a days) ops) /\
  forall e, In e (lf_log (life_run civil_of midnight days_before wrap chunk LTimescale lo (ops ++ [Policy]))) ->
    (lf_now s - le_instant e < 86400 * Z.of_N days + chunk + 3600)%Z.
Proof.
  intros cv mid bf wrap chunk lo hi ops Hch Hc s Hh days E. split.
  - apply (at_work cv mid bf wrap chunk LTimescale (fun d => exists a, In (Start a d) ops) lo ops); [|exact E]. eauto.
  - intros e H. rewrite run_app in H. cbn [fold_left life_step] in H. fold s in H. rewrite E in H. cbn [lf_log] in H.
    apply filter_In in H as [H L]. apply negb_true_iff, Z.leb_gt in L.
    destruct (fine_run cv mid bf wrap chunk LTimescale lo ops) as (Hb & _). fold s in Hb.
    assert (Hnow : (lo <= lf_now s <= hi)%Z) by lia. pose proof (proj2 Hc days _ Hnow) as Hd.
    pose proof (Z.mul_div_le (le_instant e) chunk Hch). nia.
Qed.
Print Assumptions C156_policy.

Example C156_policy_case :
  sc_policy (lf_schema (jan_run LTimescale [Start [fails_not] 7; Log jan_entry; Pass 1300000; Log jan_entry])) = Some 7%N /\
  length (lf_log (jan_run LTimescale [Start [fails_not] 7; Log jan_entry; Pass 1300000; Log jan_entry; Policy])) = 1.
Proof. vm_compute. auto. Qed.

(** ** C157: the database is set up *)

Lemma contains_iff s sub : contains s sub = true <-> exists a b, s = a ++ sub ++ b.
Proof.
  induction s as [|c s IH]; cbn [contains].
  - rewrite orb_false_r, has_prefix_spec. split.
    + intros [b E]. now exists [], b.
    + intros (a & b & E). destruct a; [now exists b|discriminate E].
  - rewrite orb_true_iff, has_prefix_spec, IH. split.
    + intros [[b E]|(a & b & E)]; [now exists [], b|]. exists (c :: a), b. now rewrite E.
    + intros (a & b & E). destruct a as [|x a]; [left; now exists b|]. injection E as <- E. right. now exists a, b.
Qed.

(** An attempt which is not refused leaves a MySQL or Timescale database ready, unless an error of another kind says 1060. *)
Theorem C157_ready_partial : forall attempts t days s,
  (t = LMysql -> forall fails text, In fails attempts -> fails AddIdMysql = Some text -> ~ says_1060 text) ->
  t = LMysql \/ t = LTimescale -> snd (open_retry attempts t days s) = true -> ready t (fst (open_retry attempts t days s)).
Proof.
  intros attempts t days. induction attempts as [|f rest IH]; intros s Hno Ht; [discriminate|]. cbn [open_retry].
  destruct (open_db f t days s) as [s1 ok] eqn:E. destruct ok.
  - intros _. cbn [fst]. clear IH. destruct Ht as [-> | ->].
    + specialize (Hno eq_refl f). cbn -[exec] in E. unfold migrate in E. cbn -[exec contains] in E.
      destruct (exec f AutoMigrate s) as [s0|] eqn:E0; [|discriminate E].
      assert (sc_table s0 = true) as T0 by (unfold exec in E0; destruct (f AutoMigrate); [discriminate E0|]; injection E0 as <-; reflexivity).
      unfold exec in E. destruct (f AddIdMysql) as [text|] eqn:F.
      * apply (f_equal snd) in E. cbn [snd] in E. apply contains_iff in E. destruct (Hno text (or_introl eq_refl) eq_refl E).
      * destruct (sc_id s0) eqn:I0; apply (f_equal fst) in E; cbn [fst] in E; subst s1; split; auto.
    + cbn -[exec] in E. unfold migrate in E. cbn -[exec] in E. unfold exec in E.
      destruct (f AutoMigrate), (f CreateHypertable), (f (AddRetentionPolicy days)); try discriminate E.
      apply (f_equal fst) in E. cbn in E. subst s1. cbn. split; [reflexivity|]. split; [reflexivity|]. destruct (sc_policy s); eexists; reflexivity.
  - intros H. apply IH; auto. intros T g text G. apply Hno; auto. now right.
Qed.
Print Assumptions C157_ready_partial.

(** Refuted for PostgreSQL: the migration looks for "postgres" while the type is "postgresql": no attempt ever adds the primary key. *)
Theorem C157_postgres_refuted : exists days s, snd (open_retry [fails_not] LPostgresql days s) = true /\ ~ ready LPostgresql (fst (open_retry [fails_not] LPostgresql days s)).
Proof. exists 7%N, {| sc_table := false; sc_id := false; sc_hyper := false; sc_policy := None |}. split; [reflexivity|]. intros [_ H]. discriminate H. Qed.
Print Assumptions C157_postgres_refuted.
Theorem C157_postgres_never : forall attempts days s, sc_id (fst (open_retry attempts LPostgresql days s)) = sc_id s.
Proof.
  intros attempts days. induction attempts as [|f rest IH]; intros s; [reflexivity|]. cbn [open_retry].
  assert (sc_id (fst (open_db f LPostgresql days s)) = sc_id s) as H by (unfold open_db, migrate, exec; cbn; destruct (f AutoMigrate); reflexivity).
  destruct (open_db f LPostgresql days s) as [s1 ok]. cbn [fst] in H. destruct ok; [exact H|]. now rewrite IH.
Qed.
Print Assumptions C157_postgres_never.

(** Refuted for MySQL: any error with these digits is taken for the column that exists. *)
Theorem C157_error_refuted : exists fails days s, snd (open_retry [fails] LMysql days s) = true /\ ~ ready LMysql (fst (open_retry [fails] LMysql days s)).
Proof.
  exists (fun c => match c with AddIdMysql => Some $"Error 1317 (70100): Query execution was interrupted, connection 41060" | _ => None end), 7%N,
    {| sc_table := false; sc_id := false; sc_hyper := false; sc_policy := None |}.
  split; [vm_compute; reflexivity|]. intros [_ H]. vm_compute in H. discriminate H.
Qed.
Print Assumptions C157_error_refuted.

(** Starting again works and changes nothing, with whatever retention. *)
Theorem C157_again : forall attempts t days s f rest days', works f -> snd (open_retry attempts t days s) = true ->
  (t = LMysql -> forall g text, In g attempts -> g AddIdMysql = Some text -> ~ says_1060 text) ->
  open_retry (f :: rest) t days' (fst (open_retry attempts t days s)) = (fst (open_retry attempts t days s), true).
Proof.
  intros attempts t days s f rest days' Hf Hok Hno.
  assert (t = LPostgresql -> sc_table (fst (open_retry attempts t days s)) = true) as Hpg.
  { intros ->. clear Hno. revert s Hok. induction attempts as [|g r IH]; intros s; [discriminate|]. cbn [open_retry].
    destruct (open_db g LPostgresql days s) as [s1 ok] eqn:E. destruct ok; [|apply IH]. intros _. unfold open_db, migrate, exec in E. cbn in E.
    destruct (g AutoMigrate); [discriminate E|]. apply (f_equal fst) in E. cbn in E. now subst s1. }
  assert (t = LMysql \/ t = LTimescale -> ready t (fst (open_retry attempts t days s))) as Hr by (intros; apply C157_ready_partial; auto).
  destruct (fst (open_retry attempts t days s)) as [tb id hy po]. cbn [open_retry].
  assert (open_db f t days' {| sc_table := tb; sc_id := id; sc_hyper := hy; sc_policy := po |} = ({| sc_table := tb; sc_id := id; sc_hyper := hy; sc_policy := po |}, true)) as ->; [|reflexivity].
  unfold open_db, migrate, exec. rewrite !Hf. destruct t; auto; cbn -[contains].
  - destruct (Hr (or_introl eq_refl)) as [T I]. cbn in T, I. now subst.
  - specialize (Hpg eq_refl). cbn in Hpg. now subst.
  - destruct (Hr (or_intror eq_refl)) as (T & H & d & P). cbn in T, H, P. now subst.
Qed.
Print Assumptions C157_again.

(** Attempts that failed leave nothing behind that the one which works would not have made. *)
Theorem C157_recovers : forall before t days s f, works f -> (forall g, In g before -> forall s, snd (open_db g t days s) = false) ->
  open_retry (before ++ [f]) t days s = open_db f t days s.
Proof.
  intros before t days s f Hf Hb. revert s. induction before as [|g r IH]; intros s.
  - cbn [app open_retry]. destruct (open_db f t days s) as [s1 ok] eqn:E. destruct ok; [reflexivity|].
    exfalso. apply (f_equal snd) in E. unfold open_db, migrate, exec in E. rewrite !Hf in E. destruct t; cbn -[contains] in E; try discriminate E.
    destruct (sc_id s); [vm_compute in E|]; discriminate E.
  - cbn [app open_retry]. pose proof (Hb g (or_introl eq_refl) s) as F. destruct (open_db g t days s) as [s1 ok] eqn:E. cbn [snd] in F. subst ok.
    rewrite IH by (intros x X; apply Hb; now right). clear IH Hb. unfold open_db, migrate, exec in *. rewrite !Hf.
    destruct t; try discriminate E; cbn -[contains] in *.
    + destruct (g AutoMigrate); [apply (f_equal fst) in E; cbn in E; now subst s1|].
      destruct (g AddIdMysql); [apply (f_equal fst) in E; cbn in E; subst s1; reflexivity|].
      destruct (sc_id s) eqn:I; apply (f_equal fst) in E; cbn in E; subst s1; cbn -[contains]; rewrite ?I; reflexivity.
    + destruct (g AutoMigrate); [apply (f_equal fst) in E; cbn in E; now subst s1|discriminate E].
    + destruct (g AutoMigrate); [apply (f_equal fst) in E; cbn in E; now subst s1|].
      destruct (g CreateHypertable); [apply (f_equal fst) in E; cbn in E; now subst s1|].
      destruct (g (AddRetentionPolicy days)); [apply (f_equal fst) in E; cbn in E; now subst s1|discriminate E].
Qed.
Print Assumptions C157_recovers.

(** Refuted: a retention that is changed in the configuration of a Timescale log stays what it was. *)
Theorem C157_changed_refuted : exists ops, sc_policy (lf_schema (jan_run LTimescale (ops ++ [Start [fails_not] 7]))) = Some 365%N.
Proof. exists [Start [fails_not] 365; Stop]. vm_compute. reflexivity. Qed.
Print Assumptions C157_changed_refuted.
Theorem C157_first : forall attempts t days s d, sc_policy s = Some d -> sc_policy (fst (open_retry attempts t days s)) = Some d.
Proof. intros attempts t days s d H. destruct (open_retry_policy attempts t days s) as [E|(_ & E & _)]; congruence. Qed.
Print Assumptions C157_first.

Example C157_case : let down := fun c => match c with AddRetentionPolicy _ => Some $"no such function" | _ => None end in
  let new := {| sc_table := false; sc_id := false; sc_hyper := false; sc_policy := None |} in
  open_retry [down; down; fails_not] LTimescale 30 new = ({| sc_table := true; sc_id := false; sc_hyper := true; sc_policy := Some 30%N |}, true) /\
  open_retry [down] LTimescale 30 new = ({| sc_table := true; sc_id := false; sc_hyper := true; sc_policy := None |}, false) /\
  open_retry [fails_not] LMysql 30 new = ({| sc_table := true; sc_id := true; sc_hyper := false; sc_policy := None |}, true) /\
  works fails_not /\ (forall s, snd (open_db down LTimescale 30 s) = false) /\ ~ says_1060 $"no such function".
Proof.
  cbv zeta. do 3 (split; [vm_compute; reflexivity|]). split; [intros c; reflexivity|]. split; [intros s; reflexivity|].
  intros H. apply contains_iff in H. vm_compute in H. discriminate H.
Qed.
