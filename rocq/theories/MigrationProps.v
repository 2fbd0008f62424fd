(** Theorems about the migration of deprecated options and the validation of the configuration. *)
From Coq Require Import String Ascii List Arith NArith ZArith Bool Lia.
From Verif Require Import Str StrFacts Migration MigrationSpec.
Import ListNotations.
Open Scope list_scope.

Lemma deep_equal_iff a b : deep_equal a b = true <-> a = b.
Proof. unfold deep_equal. destruct (value_dec a b); split; congruence. Qed.
Lemma deep_equal_neq a b : deep_equal a b = false <-> a <> b.
Proof. unfold deep_equal. destruct (value_dec a b); split; congruence. Qed.

Lemma set_same p v c : set_option p v c p = v.
Proof. unfold set_option. now rewrite str_eqb_refl. Qed.
Lemma set_other p q v c : q <> p -> set_option p v c q = c q.
Proof. intros H. unfold set_option. destruct (str_eqb_spec q p); congruence. Qed.

(** Tables one after the other are one table. *)
Lemma migrate_app os os' dep : forall c, migrate (os ++ os') dep c =
  let '(c1, r1, u1) := migrate os dep c in let '(c2, r2, u2) := migrate os' dep c1 in (c2, r1 ++ r2, u1 || u2).
Proof.
  induction os as [|o os IH]; intros c; cbn [app migrate].
  - now destruct (migrate os' dep c) as [[c2 r2] u2].
  - destruct (migrate_one o (dep (om_old o)) c) as [c1 r1]. rewrite IH. destruct (migrate os dep c1) as [[c2 r2] u2].
    destruct (migrate os' dep c2) as [[c3 r3] u3]. rewrite app_assoc. destruct (dep (om_old o)); reflexivity.
Qed.

Definition all_table := config_table ++ blocking_table ++ hosts_table.

Lemma config_migrate_all dep c : config_migrate dep c = migrate all_table dep c.
Proof.
  unfold config_migrate, all_table. rewrite migrate_app. destruct (migrate config_table dep c) as [[c1 r1] u1].
  rewrite migrate_app. destruct (migrate blocking_table dep c1) as [[c2 r2] u2]. destruct (migrate hosts_table dep c2) as [[c3 r3] u3].
  now destruct u1, u2, u3.
Qed.

Lemma migrate_one_cases o dep c :
  (dep = None /\ migrate_one o dep c = (c, [])) \/
  (exists v, dep = Some v /\ c (om_dest o) <> om_default o /\ migrate_one o dep c = (c, [BothSet (om_dest o) (om_old o)])) \/
  (exists v, dep = Some v /\ c (om_dest o) = om_default o /\
     migrate_one o dep c = (set_option (om_dest o) (om_apply o (om_default o) v) c, [Deprecated (om_old o) (om_dest o)])).
Proof.
  unfold migrate_one. destruct dep as [v|]; [right|now left]. destruct (deep_equal (c (om_dest o)) (om_default o)) eqn:E; cbn [negb].
  - right. apply deep_equal_iff in E. exists v. rewrite E. auto.
  - left. apply deep_equal_neq in E. exists v. auto.
Qed.

(** What is not the destination of a deprecated option in use stays. *)
Lemma migrate_untouched os dep p : forall c, (forall o, In o os -> om_dest o = p -> dep (om_old o) = None) ->
  fst (fst (migrate os dep c)) p = c p.
Proof.
  induction os as [|o os IH]; intros c H; [reflexivity|]. cbn [migrate].
  assert (fst (migrate_one o (dep (om_old o)) c) p = c p) as E.
  { destruct (migrate_one_cases o (dep (om_old o)) c) as [[_ ->]|[[v [_ [_ ->]]]|[v [Hv [_ ->]]]]]; try reflexivity. cbn [fst].
    apply set_other. intros ->. specialize (H o (or_introl eq_refl) eq_refl). congruence. }
  destruct (migrate_one o (dep (om_old o)) c) as [c1 r1]. cbn [fst] in E. rewrite <- E.
  specialize (IH c1 (fun o' Ho' => H o' (or_intror Ho'))). now destruct (migrate os dep c1) as [[c2 r2] u2].
Qed.

(** A destination with one deprecated option in use. *)
Lemma migrate_alone os dep o v : forall c, In o os -> dep (om_old o) = Some v ->
  NoDup os -> (forall o', In o' os -> om_dest o' = om_dest o -> dep (om_old o') <> None -> o' = o) ->
  (c (om_dest o) = om_default o /\ fst (fst (migrate os dep c)) (om_dest o) = om_apply o (om_default o) v /\
     In (Deprecated (om_old o) (om_dest o)) (snd (fst (migrate os dep c)))) \/
  (c (om_dest o) <> om_default o /\ fst (fst (migrate os dep c)) (om_dest o) = c (om_dest o) /\
     In (BothSet (om_dest o) (om_old o)) (snd (fst (migrate os dep c)))).
Proof.
  induction os as [|o1 os IH]; intros c Hin Hv Hnd Halone; [destruct Hin|]. inversion Hnd as [|? ? Hni Hnd']; subst. cbn [migrate].
  destruct Hin as [->|Hin].
  - assert (forall c, fst (fst (migrate os dep c)) (om_dest o) = c (om_dest o)) as Hrest.
    { intros c'. apply migrate_untouched. intros o' Ho' Hd. destruct (dep (om_old o')) eqn:E; [|reflexivity]. exfalso. apply Hni.
      rewrite <- (Halone o' (or_intror Ho') Hd); [exact Ho'|congruence]. }
    rewrite Hv. destruct (migrate_one_cases o (Some v) c) as [[E _]|[[v' [E [Hd ->]]]|[v' [E [Hd ->]]]]]; [discriminate| |].
    + right. specialize (Hrest c). destruct (migrate os dep c) as [[c2 r2] u2]. cbn [fst snd] in *. split; [exact Hd|]. split; [exact Hrest|]. now left.
    + left. injection E as <-. specialize (Hrest (set_option (om_dest o) (om_apply o (om_default o) v) c)).
      destruct (migrate os dep _) as [[c2 r2] u2]. cbn [fst snd] in *. split; [exact Hd|]. split; [|now left]. now rewrite Hrest, set_same.
  - assert (fst (migrate_one o1 (dep (om_old o1)) c) (om_dest o) = c (om_dest o)) as E.
    { destruct (migrate_one_cases o1 (dep (om_old o1)) c) as [[_ ->]|[[v1 [_ [_ ->]]]|[v1 [Hv1 [_ ->]]]]]; try reflexivity. cbn [fst].
      apply set_other. intros Hd. apply Hni. rewrite <- (Halone o1 (or_introl eq_refl) (eq_sym Hd)) in Hin; [exact Hin|congruence]. }
    destruct (migrate_one o1 (dep (om_old o1)) c) as [c1 r1]. cbn [fst] in E. rewrite <- E.
    assert (forall o', In o' os -> om_dest o' = om_dest o -> dep (om_old o') <> None -> o' = o) as Ha by (intros o' Ho'; apply Halone; now right).
    specialize (IH c1 Hin Hv Hnd' Ha). destruct (migrate os dep c1) as [[c2 r2] u2]. cbn [fst snd] in *.
    destruct IH as [[H1 [H2 H3]]|[H1 [H2 H3]]]; [left|right]; (split; [exact H1|]; split; [exact H2|]; apply in_or_app; now right).
Qed.

(** One report for every deprecated option in use, in the order of the table. *)
Lemma migrate_reports os dep : forall c,
  map mentions (snd (fst (migrate os dep c))) =
  map (fun o => (om_old o, om_dest o)) (filter (fun o => match dep (om_old o) with Some _ => true | None => false end) os) /\
  (snd (migrate os dep c) = true <-> exists o, In o os /\ dep (om_old o) <> None).
Proof.
  induction os as [|o os IH]; intros c; cbn [migrate].
  - split; [reflexivity|]. cbn. split; [discriminate|]. intros [o [[] _]].
  - destruct (migrate_one_cases o (dep (om_old o)) c) as [[E ->]|[[v [E [Hd ->]]]|[v [E [Hd ->]]]]]; cbn [filter]; rewrite E.
    + specialize (IH c). destruct (migrate os dep c) as [[c2 r2] u2]. cbn [fst snd] in *. destruct IH as [IH1 IH2]. split; [exact IH1|].
      rewrite IH2. split; intros [o' [Hin Ho']]; exists o'; [split; [now right|exact Ho']|]. destruct Hin as [->|Hin]; [congruence|]. auto.
    + specialize (IH c). destruct (migrate os dep c) as [[c2 r2] u2]. cbn [fst snd] in *. destruct IH as [IH1 IH2].
      split; [cbn; now rewrite IH1|]. split; [intros _|reflexivity]. exists o. split; [now left|congruence].
    + specialize (IH (set_option (om_dest o) (om_apply o (om_default o) v) c)). destruct (migrate os dep _) as [[c2 r2] u2]. cbn [fst snd] in *. destruct IH as [IH1 IH2].
      split; [cbn; now rewrite IH1|]. split; [intros _|reflexivity]. exists o. split; [now left|congruence].
Qed.

(** The table of the code is the documented one. *)
Lemma table_documented : map (fun o => (om_old o, om_dest o, om_default o)) all_table = documented.
Proof. reflexivity. Qed.

Lemma old_names_distinct : NoDup (map om_old all_table).
Proof.
  assert (forall l : list str, (fix nd l := match l with [] => true | x :: t => negb (str_in x t) && nd t end) l = true -> NoDup l) as H.
  { induction l as [|x l IH]; intros E; [constructor|]. apply andb_prop in E as [E1 E2]. constructor; [|now apply IH].
    intros Hin. apply negb_true_iff in E1. unfold str_in in E1. assert (existsb (str_eqb x) l = true); [|congruence].
    apply existsb_exists. exists x. split; [exact Hin|apply str_eqb_refl]. }
  apply H. vm_compute. reflexivity.
Qed.

Lemma table_meaning o v : In o all_table -> typed (om_old o) v -> meaning (om_old o) v (om_apply o (om_default o) v).
Proof.
  intros Hin [Hb Hs].
  assert (~ In (om_old o) special /\ om_apply o (om_default o) v = v \/ In (om_old o) special) as [[Hn ->]|Hsp].
  { repeat (destruct Hin as [<-|Hin]; [first [left; split; [cbn; intros H; repeat (destruct H as [H|H]; [discriminate|]); contradiction H|reflexivity]
                                             |right; cbn; tauto]|]). destruct Hin. }
  - now constructor.
  - repeat (destruct Hin as [<-|Hin]; [first [exfalso; cbn in Hsp; repeat (destruct Hsp as [Hsp|Hsp]; [discriminate|]); contradiction Hsp
                                             |destruct (Hb ltac:(cbn; tauto)) as [[|] ->]; constructor
                                             |destruct (Hs eq_refl) as [s ->]; constructor]|]). destruct Hin.
Qed.

(** ** C65 *)

(** A deprecated option which is the only one in use for its replacement takes effect iff the replacement has its
    default value, and is reported in either case. *)
Theorem C65_moved_iff_default : forall dep c old new default v,
  In (old, new, default) documented -> dep old = Some v -> typed old v ->
  (forall old' default', In (old', new, default') documented -> dep old' <> None -> old' = old) ->
  exists c' reports used, config_migrate dep c = (c', reports, used) /\ used = true /\
    ((c new = default /\ meaning old v (c' new) /\ In (Deprecated old new) reports) \/
     (c new <> default /\ c' new = c new /\ In (BothSet new old) reports)).
Proof.
  intros dep c old new default v Hin Hv Ht Halone. rewrite config_migrate_all.
  rewrite <- table_documented in Hin. apply in_map_iff in Hin as [o [E Hin]]. injection E as <- <- <-.
  pose proof (migrate_reports all_table dep c) as [_ Hu].
  assert (NoDup all_table) as Hnd by (eapply NoDup_map_inv; exact old_names_distinct).
  assert (forall o', In o' all_table -> om_dest o' = om_dest o -> dep (om_old o') <> None -> o' = o) as Ha.
  { intros o' Ho' Hd Hne. assert (om_old o' = om_old o) as E.
    { apply (Halone (om_old o') (om_default o')); [|exact Hne]. rewrite <- table_documented, <- Hd. apply in_map_iff. now exists o'. }
    pose proof old_names_distinct as Hnd'. clear -E Ho' Hin Hnd'. induction all_table as [|x l IH]; [destruct Hin|]. cbn in Hnd'. inversion Hnd' as [|? ? Hni Hnd'']; subst.
    destruct Hin as [->|Hin], Ho' as [->|Ho']; [reflexivity| | |now apply IH].
    - exfalso. apply Hni. rewrite <- E. now apply in_map.
    - exfalso. apply Hni. rewrite E. now apply in_map. }
  pose proof (migrate_alone all_table dep o v c Hin Hv Hnd Ha) as Hm. destruct (migrate all_table dep c) as [[c' r] u]. cbn [fst snd] in *.
  exists c', r, u. split; [reflexivity|]. split; [apply Hu; exists o; split; [exact Hin|congruence]|].
  destruct Hm as [[H1 [H2 H3]]|[H1 [H2 H3]]]; [left|right; auto]. split; [exact H1|]. split; [|exact H3]. rewrite H2. now apply table_meaning.
Qed.
Print Assumptions C65_moved_iff_default.

(** Every deprecated option in use is reported once, in the order of the documentation, and nothing else is. *)
Theorem C65_reported : forall dep c, exists c' reports used, config_migrate dep c = (c', reports, used) /\
  map mentions reports = map (fun d => (fst (fst d), snd (fst d))) (filter (fun d => match dep (fst (fst d)) with Some _ => true | None => false end) documented) /\
  (used = true <-> exists old new default, In (old, new, default) documented /\ dep old <> None).
Proof.
  intros dep c. rewrite config_migrate_all. pose proof (migrate_reports all_table dep c) as [H1 H2]. destruct (migrate all_table dep c) as [[c' r] u]. cbn [fst snd] in *.
  exists c', r, u. split; [reflexivity|]. split.
  - rewrite H1, <- table_documented. clear. induction all_table as [|o os IH]; [reflexivity|]. cbn [map filter fst snd].
    destruct (dep (om_old o)); cbn [map fst snd]; now rewrite IH.
  - rewrite H2, <- table_documented. split.
    + intros [o [Ho Hd]]. exists (om_old o), (om_dest o), (om_default o). split; [exact (in_map (fun o => (om_old o, om_dest o, om_default o)) all_table o Ho)|exact Hd].
    + intros [old [new [default [Hin Hd]]]]. apply in_map_iff in Hin as [o [E Ho]]. injection E as <- <- <-. exists o. exact (conj Ho Hd).
Qed.
Print Assumptions C65_reported.

(** Options for which no deprecated one is in use keep their value. *)
Theorem C65_others_kept : forall dep c p,
  (forall old default, In (old, p, default) documented -> dep old = None) ->
  fst (fst (config_migrate dep c)) p = c p.
Proof.
  intros dep c p H. rewrite config_migrate_all. apply migrate_untouched. intros o Ho <-. apply (H (om_old o) (om_default o)).
  rewrite <- table_documented. exact (in_map (fun o => (om_old o, om_dest o, om_default o)) all_table o Ho).
Qed.
Print Assumptions C65_others_kept.

Definition only (l : list (str * value)) (p : str) : option value :=
  match find (fun x => str_eqb (fst x) p) l with Some x => Some (snd x) | None => None end.

(** Without the assumption that there is only one: [startStrategy] is dropped (and the log claims that the new
    option is set) when [failStartOnListError] is used too. *)
Theorem C65_two_deprecated_refuted : exists dep c old new default v,
  In (old, new, default) documented /\ dep old = Some v /\ typed old v /\ c new = default /\
  exists c' reports used, config_migrate dep c = (c', reports, used) /\ ~ meaning old v (c' new) /\ In (BothSet new old) reports.
Proof.
  exists (only [($"blocking.failStartOnListError", VBool true); ($"blocking.startStrategy", VText ($"fast"))]),
    (default_of (fun _ => VBool false)), ($"blocking.startStrategy"), ($"blocking.loading.strategy"), (VText ($"blocking")), (VText ($"fast")).
  split; [cbn; tauto|]. split; [reflexivity|]. split; [split; [cbn; intros [H|[H|[H|[]]]]; discriminate|discriminate]|]. split; [reflexivity|].
  eexists _, _, _. split; [reflexivity|]. split; [|cbn; tauto]. intros H. vm_compute in H. inversion H.
Qed.
Print Assumptions C65_two_deprecated_refuted.

(** ** C102: a new option given in the configuration wins over the deprecated one *)

(** It does if it differs from its default ... *)
Theorem C102_new_wins_partial : forall others user old new default v,
  In (old, new, default) documented -> user new = Some v -> v <> default -> new <> $"upstreams.timeout" ->
  fst (fst (load_config others user)) new = v.
Proof.
  intros others user old new default v Hin Hv Hd Hnt. unfold load_config. rewrite config_migrate_all.
  set (c := fun p => match user p with Some v => v | None => default_of others p end).
  assert (forall os c, (forall o, In o os -> In o all_table) -> c new = v -> fst (fst (migrate os user c)) new = v) as Hk.
  { induction os as [|o os IH]; intros c0 Hos Hc; [exact Hc|]. cbn [migrate].
    assert (fst (migrate_one o (user (om_old o)) c0) new = v) as E.
    { destruct (migrate_one_cases o (user (om_old o)) c0) as [[_ ->]|[[v1 [_ [_ ->]]]|[v1 [_ [Hdef ->]]]]]; try exact Hc. cbn [fst].
      rewrite set_other; [exact Hc|]. intros E. rewrite <- E in Hdef. apply Hd. rewrite <- Hc, Hdef.
      assert (forall a b, In a documented -> In b documented -> snd (fst a) = snd (fst b) -> snd a = snd b) as Hfun.
      { clear. intros a b Ha Hb. repeat (destruct Ha as [<-|Ha]; [repeat (destruct Hb as [<-|Hb]; [cbn; intros E; first [reflexivity|discriminate E]|]); destruct Hb|]). destruct Ha. }
      apply (Hfun (om_old o, om_dest o, om_default o) (old, new, default)); [|exact Hin|cbn; congruence].
      rewrite <- table_documented. apply in_map_iff. exists o. split; [reflexivity|]. apply Hos. now left. }
    destruct (migrate_one o (user (om_old o)) c0) as [c1 r1]. cbn [fst] in E. specialize (IH c1 (fun o' Ho' => Hos o' (or_intror Ho')) E).
    now destruct (migrate os user c1) as [[c2 r2] u2]. }
  specialize (Hk all_table c (fun o Ho => Ho)). unfold c at 1 in Hk. rewrite Hv in Hk. specialize (Hk eq_refl).
  destruct (migrate all_table user c) as [[c' r] u]. cbn [fst] in *. unfold validate_upstreams, validate_tls.
  assert (new <> $"minTlsServeVersion") as Hm by (intros ->; clear -Hin; cbn in Hin; repeat (destruct Hin as [E|Hin]; [discriminate E|]); destruct Hin).
  assert (forall c0 : conf, c0 new = v -> match c0 ($"minTlsServeVersion") with VNum v0 => if (v0 <? 771)%Z then set_option ($"minTlsServeVersion") (VNum 771) c0 else c0 | _ => c0 end new = v) as H1.
  { intros c0 H0. destruct (c0 ($"minTlsServeVersion")); try exact H0. destruct (z <? 771)%Z; [|exact H0]. now rewrite set_other. }
  specialize (H1 c' Hk). set (c1 := match c' ($"minTlsServeVersion") with VNum v0 => if (v0 <? 771)%Z then set_option ($"minTlsServeVersion") (VNum 771) c' else c' | _ => c' end) in *.
  destruct (c1 ($"upstreams.timeout")); try exact H1. destruct (0 <? z)%Z; [exact H1|]. now rewrite set_other.
Qed.
Print Assumptions C102_new_wins_partial.

(** ... but a new option that is given with the value that happens to be the default loses. *)
Theorem C102_new_wins_refuted : exists others user old new default v,
  In (old, new, default) documented /\ user new = Some v /\ fst (fst (load_config others user)) new <> v /\
  new = $"blocking.loading.refreshPeriod" /\ v = VNum 14400000000000.
Proof.
  exists (fun _ => VBool false),
    (only [($"blocking.loading.refreshPeriod", VNum 14400000000000); ($"blocking.refreshPeriod", VNum 3600000000000)]),
    ($"blocking.refreshPeriod"), ($"blocking.loading.refreshPeriod"), (VNum 14400000000000), (VNum 14400000000000).
  split; [cbn; tauto|]. split; [reflexivity|]. split; [vm_compute; discriminate|]. split; reflexivity.
Qed.
Print Assumptions C102_new_wins_refuted.

(** ** C106: what holds of every loaded configuration *)

(** The values have the types of their options. *)
Definition numbers (c : str -> option value) (ps : list str) : Prop := forall p v, In p ps -> c p = Some v -> exists z, v = VNum z.

(** The time limit for upstreams is positive and TLS is at least version 1.2, whatever the configuration says, also
    by deprecated options. *)
Theorem C106_validated : forall others user,
  numbers user [$"upstreams.timeout"; $"upstreamTimeout"; $"minTlsServeVersion"] ->
  exists d v, fst (fst (load_config others user)) ($"upstreams.timeout") = VNum d /\ (0 < d)%Z /\
              fst (fst (load_config others user)) ($"minTlsServeVersion") = VNum v /\ (771 <= v)%Z.
Proof.
  intros others user Hnum. unfold load_config. rewrite config_migrate_all. set (c := fun p => match user p with Some v => v | None => default_of others p end).
  assert (exists z, c ($"minTlsServeVersion") = VNum z) as [zm Hm].
  { unfold c. destruct (user ($"minTlsServeVersion")) as [v|] eqn:E; [apply (Hnum _ v) in E; [exact E|cbn; tauto]|]. exists 771%Z. reflexivity. }
  assert (exists z, c ($"upstreams.timeout") = VNum z) as [zt Ht].
  { unfold c. destruct (user ($"upstreams.timeout")) as [v|] eqn:E; [apply (Hnum _ v) in E; [exact E|cbn; tauto]|]. exists 2000000000%Z. reflexivity. }
  assert (fst (fst (migrate all_table user c)) ($"minTlsServeVersion") = VNum zm) as Hm'.
  { rewrite <- Hm. apply migrate_untouched. intros o Ho E. exfalso. clear -Ho E. repeat (destruct Ho as [<-|Ho]; [discriminate E|]). destruct Ho. }
  assert (exists z, fst (fst (migrate all_table user c)) ($"upstreams.timeout") = VNum z) as [zt' Ht'].
  { destruct (user ($"upstreamTimeout")) as [v|] eqn:E.
    - assert (NoDup all_table) as Hnd by (eapply NoDup_map_inv; exact old_names_distinct).
      assert (In (move ($"upstreamTimeout") ($"upstreams.timeout") (seconds 2)) all_table) as Hin by (right; left; reflexivity).
      assert (forall o', In o' all_table -> om_dest o' = $"upstreams.timeout" -> user (om_old o') <> None -> o' = move ($"upstreamTimeout") ($"upstreams.timeout") (seconds 2)) as Ha.
      { clear. intros o' Ho' Hd _. repeat (destruct Ho' as [<-|Ho']; [first [reflexivity|discriminate Hd]|]). destruct Ho'. }
      destruct (migrate_alone all_table user _ v c Hin E Hnd Ha) as [[_ [H _]]|[_ [H _]]]; cbn [om_dest om_apply move] in H; rewrite H.
      + apply (Hnum _ v) in E; [exact E|cbn; tauto].
      + now exists zt.
    - exists zt. rewrite <- Ht. apply migrate_untouched. clear -E. intros o Ho Hd.
      repeat (destruct Ho as [<-|Ho]; [first [exact E|discriminate Hd]|]). destruct Ho. }
  destruct (migrate all_table user c) as [[c' r] u]. cbn [fst] in *. unfold validate_upstreams, validate_tls. rewrite Hm'. destruct (zm <? 771)%Z eqn:Em.
  - rewrite set_other by discriminate. rewrite Ht'. destruct (0 <? zt')%Z eqn:Et.
    + exists zt', 771%Z. rewrite set_other by discriminate. rewrite set_same. split; [exact Ht'|]. split; [lia|]. split; [reflexivity|lia].
    + exists 2000000000%Z, 771%Z. rewrite set_same, set_other, set_same by discriminate. split; [reflexivity|]. split; [lia|]. split; [reflexivity|lia].
  - rewrite Ht'. destruct (0 <? zt')%Z eqn:Et.
    + exists zt', zm. split; [exact Ht'|]. split; [lia|]. split; [exact Hm'|lia].
    + exists 2000000000%Z, zm. rewrite set_same, set_other by discriminate. split; [reflexivity|]. split; [lia|]. split; [exact Hm'|lia].
Qed.
Print Assumptions C106_validated.

(** Values that are fine are not changed. *)
Theorem C106_kept : forall others user d v, user ($"upstreamTimeout") = None -> user ($"upstreams.timeout") = Some (VNum d) -> (0 < d)%Z ->
  user ($"minTlsServeVersion") = Some (VNum v) -> (771 <= v)%Z ->
  fst (fst (load_config others user)) ($"upstreams.timeout") = VNum d /\ fst (fst (load_config others user)) ($"minTlsServeVersion") = VNum v.
Proof.
  intros others user d v Hu Hd Hdp Hv Hvp. unfold load_config. rewrite config_migrate_all. set (c := fun p => match user p with Some v => v | None => default_of others p end).
  assert (fst (fst (migrate all_table user c)) ($"minTlsServeVersion") = VNum v) as Hm'.
  { rewrite migrate_untouched; [unfold c; now rewrite Hv|]. intros o Ho E. exfalso. clear -Ho E. repeat (destruct Ho as [<-|Ho]; [discriminate E|]). destruct Ho. }
  assert (fst (fst (migrate all_table user c)) ($"upstreams.timeout") = VNum d) as Ht'.
  { rewrite migrate_untouched; [unfold c; now rewrite Hd|]. clear -Hu. intros o Ho Hd. repeat (destruct Ho as [<-|Ho]; [first [exact Hu|discriminate Hd]|]). destruct Ho. }
  destruct (migrate all_table user c) as [[c' r] u]. cbn [fst] in *. unfold validate_upstreams, validate_tls. rewrite Hm'.
  replace (v <? 771)%Z with false by lia. rewrite Ht'. replace (0 <? d)%Z with true by lia. auto.
Qed.
Print Assumptions C106_kept.

Example C65_example :
  let user := only [($"disableIPv6", VBool true); ($"port", VTexts (Some [$":5353"])); ($"ports.dns", VTexts (Some [$":54"])); ($"upstreamTimeout", VNum (-5))] in
  exists c, load_config (fun _ => VBool false) user =
    (c, [Deprecated ($"upstreamTimeout") ($"upstreams.timeout"); Deprecated ($"disableIPv6") ($"filtering.queryTypes"); BothSet ($"ports.dns") ($"port")], true) /\
    c ($"filtering.queryTypes") = VTypes (Some [28%N]) /\ c ($"ports.dns") = VTexts (Some [$":54"]) /\ c ($"upstreams.timeout") = VNum 2000000000.
Proof. eexists. split; [reflexivity|]. repeat split; reflexivity. Qed.
