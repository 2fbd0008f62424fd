(** Properties of util/edns0.go (C44). *)
From Coq Require Import String Ascii List Arith Bool NArith Lia.
From Verif Require Import Str StrFacts Dns SudnSpec EdnsProofs.
Import ListNotations.

(** Every OPT record holds options; there is at most one OPT record (RFC 6891, 6.1.1). *)
Definition well_formed (m : msg) : Prop := forall r, In r (m_extra m) -> rr_type r = 41%N -> exists l, rr_data r = DOPT l.
Definition one_opt (m : msg) : Prop :=
  forall i j a b, nth_error (m_extra m) i = Some a -> nth_error (m_extra m) j = Some b ->
    rr_type a = 41%N -> rr_type b = 41%N -> i = j.

(** The records of the additional section other than OPT, in order. *)
Inductive others : list rr -> list rr -> Prop :=
| ot_nil : others [] []
| ot_opt r l l' : rr_type r = 41%N -> others l l' -> others (r :: l) l'
| ot_keep r l l' : rr_type r <> 41%N -> others l l' -> others (r :: l) (r :: l').

(** [m'] differs from [m] at most in OPT records. *)
Definition only_opt_changed (m m' : msg) : Prop :=
  m' = set_extra (m_extra m') m /\ exists l, others (m_extra m) l /\ others (m_extra m') l.

Lemma others_iff l l' : others l l' <-> l' = filter (fun r => negb (is_opt r)) l.
Proof.
  split.
  - induction 1 as [|r l l' Hr _ ->|r l l' Hr _ ->]; auto; cbn.
    + apply is_opt_iff in Hr. now rewrite Hr.
    + apply is_opt_false in Hr. now rewrite Hr.
  - intros ->. induction l as [|r l IH]; [constructor|]. cbn. destruct (is_opt r) eqn:E; cbn.
    + apply ot_opt; auto. now apply is_opt_iff.
    + apply ot_keep; auto. now apply is_opt_false.
Qed.

Lemma only_opt_intro m m' : m' = set_extra (m_extra m') m -> non_opt m = non_opt m' -> only_opt_changed m m'.
Proof. intros H1 H2. split; auto. exists (non_opt m). split; apply others_iff; auto. Qed.

Lemma in_force_in m o : opt_in_force m o -> In o (m_extra m) /\ rr_type o = 41%N.
Proof. intros [pre [post [-> [H _]]]]. split; auto. apply in_or_app. simpl. auto. Qed.

Lemma opt_options_in m o : well_formed m -> opt_in_force m o -> options_of m (opt_options o).
Proof.
  intros Hw H. exists o. split; auto. destruct (in_force_in m o H) as [H1 H2]. destruct (Hw o H1 H2) as [l Hl].
  unfold opt_options. now rewrite Hl.
Qed.

Lemma find_skip {A} (f : A -> bool) l o : (forall x, In x l -> f x = false) -> f o = true -> find f (l ++ [o]) = Some o.
Proof.
  intros H Ho. induction l as [|x l IH]; cbn; [now rewrite Ho|]. rewrite H; [|now left]. apply IH. intros y Hy. apply H. now right.
Qed.

Lemma non_opt_app l l' : filter (fun r => negb (is_opt r)) (l ++ l') = filter (fun r => negb (is_opt r)) l ++ filter (fun r => negb (is_opt r)) l'.
Proof. apply filter_app. Qed.

(** ** Setting: the option is there, exactly once, replacing those of the same code; the
    others and all other records are as before. *)
Theorem C44_set : forall o m, well_formed m ->
  get_edns0_option (eopt_code o) (set_edns0_option o m) = Some o /\
  (exists l, options_of (set_edns0_option o m) (l ++ [o]) /\ (forall x, In x l -> eopt_code x <> eopt_code o)) /\
  (forall x, eopt_code x <> eopt_code o -> (has_option (set_edns0_option o m) x <-> has_option m x)) /\
  only_opt_changed m (set_edns0_option o m) /\ well_formed (set_edns0_option o m).
Proof.
  intros o m Hw. destruct (set_option_options o m) as [opts [H1 H2]].
  set (keep := filter (fun e => negb (eopt_code e =? eopt_code o)%N) opts) in *.
  assert (forall x, In x keep <-> In x opts /\ eopt_code x <> eopt_code o) as Hk.
  { intros x. unfold keep. rewrite filter_In. rewrite negb_true_iff, N.eqb_neq. tauto. }
  split; [|split; [|split; [|split]]].
  - destruct H1 as [b [Hb Hd]]. unfold get_edns0_option. apply is_edns0_iff in Hb. rewrite Hb.
    unfold opt_options. rewrite Hd. apply find_skip; [|apply N.eqb_refl]. intros x Hx. apply N.eqb_neq, Hk; auto.
  - exists keep. split; auto. intros x Hx. now apply Hk.
  - intros x Hx. split.
    + intros [l [Hl Hi]]. assert (l = keep ++ [o]) as -> by eauto using options_of_fun.
      apply in_app_or in Hi as [Hi|[<-|[]]]; [|congruence]. apply Hk in Hi as [Hi _].
      destruct H2 as [[b [Hb ->]]|[_ ->]]; [|destruct Hi]. exists (opt_options b). split; auto. now apply opt_options_in.
    + intros [l [[b [Hb Hl]] Hi]]. exists (keep ++ [o]). split; auto. apply in_or_app. left. apply Hk. split; auto.
      destruct H2 as [[b' [Hb' ->]]|[Hno _]]; [|elim (Hno b Hb)]. assert (b' = b) as -> by eauto using opt_in_force_fun.
      unfold opt_options. now rewrite Hl.
  - destruct (set_option_shape o m) as [pre [post [b [opts' [G1 [G2 [G3 [G4 G5]]]]]]]]. apply only_opt_intro; [exact G5|].
    unfold non_opt. rewrite G1. rewrite filter_app. cbn [filter].
    match goal with |- context [is_opt ?y] => assert (is_opt y = true) as -> by now apply is_opt_iff end. cbn [negb].
    destruct G4 as [[-> _]|[-> [-> _]]].
    + rewrite filter_app. cbn [filter]. apply is_opt_iff in G2. now rewrite G2.
    + cbn. now rewrite app_nil_r.
  - destruct (set_option_shape o m) as [pre [post [b [opts' [G1 [G2 [G3 [G4 G5]]]]]]]]. intros r Hr Ht. rewrite G1 in Hr.
    apply in_app_or in Hr as [Hr|[<-|Hr]]; [|eexists; reflexivity|elim (G3 r Hr Ht)].
    destruct G4 as [[G4 _]|[G4 _]]; apply (Hw r); auto; rewrite G4; auto. apply in_or_app. auto.
Qed.
Print Assumptions C44_set.

(** ** Reading: the first option of the code in the OPT record in force. *)
Theorem C44_get : forall code m, well_formed m ->
  match get_edns0_option code m with
  | Some o => eopt_code o = code /\ has_option m o
  | None => forall o, has_option m o -> eopt_code o <> code
  end.
Proof.
  intros code m Hw. unfold get_edns0_option. destruct (is_edns0 m) as [b|] eqn:E.
  - apply is_edns0_iff in E. destruct (find _ (opt_options b)) as [o|] eqn:F.
    + apply find_some in F as [F1 F2]. apply N.eqb_eq in F2. split; auto. exists (opt_options b). split; auto. now apply opt_options_in.
    + intros o [l [Hl Hi]]. assert (l = opt_options b) as -> by (eapply options_of_fun; [exact Hl|now apply opt_options_in]).
      eapply find_none in F; [|exact Hi]. now apply N.eqb_neq in F.
  - intros o [l [[b [Hb _]] _]]. apply is_edns0_iff in Hb. congruence.
Qed.
Print Assumptions C44_get.

Lemma remove_shape m b pre post opts' : m_extra m = pre ++ b :: post -> rr_type b = 41%N ->
  (forall x, In x pre -> rr_type x <> 41%N) -> (forall x, In x post -> rr_type x <> 41%N) ->
  let m' := update_opt (set_options opts') m in
  m_extra m' = pre ++ set_options opts' b :: post /\
  m_extra (snd (remove_edns0_record m')) = pre ++ post /\
  m' = set_extra (m_extra m') m /\ snd (remove_edns0_record m') = set_extra (pre ++ post) m.
Proof.
  intros He Hb Hpre Hpost m'.
  assert (m_extra m' = pre ++ set_options opts' b :: post) as E1.
  { unfold m', update_opt. cbn [m_extra set_extra]. rewrite He. apply update_first_split; [now apply is_opt_iff|].
    intros x Hx. apply is_opt_false. auto. }
  assert (remove_first is_opt (pre ++ set_options opts' b :: post) = pre ++ post) as E2.
  { clear -Hpre Hb. induction pre as [|x pre IH]; cbn.
    - assert (is_opt (set_options opts' b) = true) as -> by now apply is_opt_iff. reflexivity.
    - assert (is_opt x = false) as -> by (apply is_opt_false, Hpre; now left). f_equal. apply IH. intros y Hy. apply Hpre. now right. }
  assert (is_edns0 m' = Some (set_options opts' b)) as E3 by (apply is_edns0_iff; exists pre, post; auto).
  unfold remove_edns0_record. rewrite E3. cbn [snd m_extra set_extra]. rewrite E1, E2.
  split; auto. split; auto. unfold m', update_opt. destruct m; cbn in *. rewrite He. 
  split; [|reflexivity]. f_equal. apply update_first_split; [now apply is_opt_iff|]. intros x Hx. apply is_opt_false. auto.
Qed.

Lemma one_opt_split m b : one_opt m -> opt_in_force m b -> exists pre post, m_extra m = pre ++ b :: post /\ rr_type b = 41%N /\
  (forall x, In x pre -> rr_type x <> 41%N) /\ (forall x, In x post -> rr_type x <> 41%N).
Proof.
  intros H1 [pre [post [He [Hb Hpost]]]]. exists pre, post. split; auto. split; auto. split; auto.
  intros x Hx Ht. apply In_nth_error in Hx as [i Hi].
  assert (i < length pre) as Hlt by (apply nth_error_Some; congruence).
  assert (i = length pre) as ->; [|lia].
  eapply (H1 i (length pre) x b); auto; rewrite He.
  - now rewrite nth_error_app1.
  - rewrite nth_error_app2, Nat.sub_diag; auto.
Qed.

(** ** Removing: if the option occurs at most once it is absent afterwards; the others and
    all other records are as before; the OPT record goes with its last option. *)
Theorem C44_remove_partial : forall code m, well_formed m -> one_opt m ->
  let m' := snd (remove_edns0_option code m) in
  (forall l i j a b, options_of m l -> nth_error l i = Some a -> nth_error l j = Some b ->
     eopt_code a = code -> eopt_code b = code -> i = j) ->
  (forall x, has_option m' x -> eopt_code x <> code) /\
  (forall x, eopt_code x <> code -> (has_option m' x <-> has_option m x)) /\
  (fst (remove_edns0_option code m) = true <-> exists o, has_option m o /\ eopt_code o = code) /\
  only_opt_changed m m' /\ (forall b, opt_in_force m' b -> exists o, has_option m' o).
Proof.
  intros code m Hw H1 m'. subst m'. unfold remove_edns0_option. destruct (is_edns0 m) as [b|] eqn:E.
  2:{ intros _. cbn [fst snd]. assert (forall o, ~ has_option m o) as Hno.
      { intros o [l [[b [Hb _]] _]]. apply is_edns0_iff in Hb. congruence. }
      split; [intros x Hx; elim (Hno x Hx)|]. split; [tauto|].
      split; [split; [discriminate|intros [o [Ho _]]; elim (Hno o Ho)]|].
      split; [apply only_opt_intro; [destruct m; reflexivity|reflexivity]|].
      intros b Hb. apply is_edns0_iff in Hb. congruence. }
  apply is_edns0_iff in E. pose proof (opt_options_in m b Hw E) as Hopts. intros Hone. cbv zeta. cbn [fst snd].
  set (opts := opt_options b) in *. set (opts' := remove_first _ opts).
  destruct (one_opt_split m b H1 E) as [pre [post [He [Hb [Hpre Hpost]]]]].
  destruct (remove_shape m b pre post opts' He Hb Hpre Hpost) as [S1 [S2 [S3 S4]]].
  assert (forall x, In x opts' <-> In x opts /\ eopt_code x <> code) as Hin.
  { unfold opts'. destruct (remove_first_split (fun e => (eopt_code e =? code)%N) opts) as [[Hno ->]|[p [o [rest [Hs [Ho [Hp ->]]]]]]].
    - intros x. split; [|tauto]. intros Hx. split; auto. apply N.eqb_neq. auto.
    - apply N.eqb_eq in Ho.
      assert (forall x, In x rest -> eopt_code x <> code) as Hrest.
      { intros x Hx Hc. apply In_nth_error in Hx as [k Hk].
        assert (length p = length p + S k) as L; [|lia].
        eapply (Hone opts _ _ o x Hopts); auto; rewrite Hs, nth_error_app2; try lia.
        - now rewrite Nat.sub_diag.
        - replace (length p + S k - length p) with (S k) by lia. exact Hk. }
      intros x. rewrite Hs. split.
      + intros Hx. apply in_app_or in Hx. split; [apply in_or_app; simpl; tauto|].
        destruct Hx as [Hx|Hx]; [apply N.eqb_neq, Hp, Hx|auto].
      + intros [Hx Hc]. apply in_app_or in Hx. apply in_or_app. destruct Hx as [Hx|[<-|Hx]]; auto; congruence. }
  set (m' := match opts' with [] => snd (remove_edns0_record (update_opt (set_options opts') m)) | _ => update_opt (set_options opts') m end).
  assert (forall x, has_option m' x <-> In x opts') as Hm'.
  { intros x. subst m'. destruct opts' as [|o1 l1] eqn:Eo.
    - split; [|intros []]. intros [l [[c [Hc _]] _]]. destruct (in_force_in _ _ Hc) as [A1 A2]. rewrite S2 in A1.
      apply in_app_or in A1 as [A1|A1]; [elim (Hpre c A1 A2)|elim (Hpost c A1 A2)].
    - assert (options_of (update_opt (set_options (o1 :: l1)) m) (o1 :: l1)) as Ho'.
      { exists (set_options (o1 :: l1) b). split; [|reflexivity]. exists pre, post. split; auto. }
      split; [intros [l [Hl Hi]]; rewrite (options_of_fun _ _ _ Ho' Hl); auto|]. intros Hi. exists (o1 :: l1). auto. }
  assert (forall x, has_option m x <-> In x opts) as Hm.
  { intros x. split; [intros [l [Hl Hi]]; now rewrite (options_of_fun _ _ _ Hopts Hl)|]. intros Hi. exists opts. auto. }
  split; [intros x Hx; apply Hm', Hin in Hx; tauto|]. split; [intros x Hx; rewrite Hm', Hm, Hin; tauto|]. split; [|split].
  - rewrite existsb_exists. split; intros [o [A1 A2]]; exists o.
    + apply N.eqb_eq in A2. rewrite Hm. auto.
    + rewrite Hm in A1. split; auto. now apply N.eqb_eq.
  - assert (non_opt m = filter (fun r => negb (is_opt r)) (pre ++ post)) as Hnm.
    { unfold non_opt. rewrite He, !filter_app. cbn [filter]. apply is_opt_iff in Hb. now rewrite Hb. }
    subst m'. destruct opts' as [|o1 l1] eqn:Eo.
    + apply only_opt_intro; [rewrite S4; reflexivity|]. unfold non_opt at 2. now rewrite S2.
    + apply only_opt_intro; auto. rewrite Hnm. unfold non_opt. rewrite S1, !filter_app. cbn [filter].
      assert (is_opt (set_options (o1 :: l1) b) = true) as -> by now apply is_opt_iff. reflexivity.
  - intros c Hc. subst m'. destruct opts' as [|o1 l1] eqn:Eo.
    + destruct (in_force_in _ _ Hc) as [A1 A2]. rewrite S2 in A1.
      apply in_app_or in A1 as [A1|A1]; [elim (Hpre c A1 A2)|elim (Hpost c A1 A2)].
    + exists o1. apply Hm'. now left.
Qed.
Print Assumptions C44_remove_partial.

(** An option that occurs twice is still there after removing it. *)
Theorem C44_remove_refuted : exists code m o, well_formed m /\ one_opt m /\
  eopt_code o = code /\ has_option (snd (remove_edns0_option code m)) o.
Proof.
  set (o := EOSubnet 1 32 0 (Some (IP4 [10;1;2;3]%N))).
  exists 8%N, (set_extra [{| rr_name := $"."; rr_type := 41; rr_class := 0; rr_ttl := 0; rr_data := DOPT [o; o] |}] empty_msg), o.
  split. { intros r [<-|[]] _. eexists. reflexivity. }
  split. { intros [|[|i]] [|[|j]] a b; cbn; congruence. }
  split; [reflexivity|]. exists [o]. split; [|now left].
  exists {| rr_name := $"."; rr_type := 41; rr_class := 0; rr_ttl := 0; rr_data := DOPT [o] |}. split; [|reflexivity]. exists [], []. split; [reflexivity|].
  split; [reflexivity|]. intros x [].
Qed.
Print Assumptions C44_remove_refuted.

(** Removing the record: afterwards there is none (if there was at most one), and nothing
    else changes. *)
Theorem C44_remove_record : forall m, one_opt m ->
  let m' := snd (remove_edns0_record m) in
  (forall b, ~ opt_in_force m' b) /\ only_opt_changed m m' /\
  (fst (remove_edns0_record m) = true <-> exists b, opt_in_force m b).
Proof.
  intros m H1. cbv zeta. unfold remove_edns0_record. destruct (is_edns0 m) as [b|] eqn:E; cbn [fst snd].
  - apply is_edns0_iff in E. destruct (one_opt_split m b H1 E) as [pre [post [He [Hb [Hpre Hpost]]]]].
    assert (remove_first is_opt (m_extra m) = pre ++ post) as Hr.
    { rewrite He. clear -Hpre Hb. induction pre as [|x pre IH]; cbn.
      - apply is_opt_iff in Hb. now rewrite Hb.
      - assert (is_opt x = false) as -> by (apply is_opt_false, Hpre; now left). f_equal. apply IH. intros y Hy. apply Hpre. now right. }
    rewrite Hr. split; [|split].
    + intros c Hc. destruct (in_force_in _ _ Hc) as [A1 A2]. cbn [m_extra set_extra] in A1.
      apply in_app_or in A1 as [A1|A1]; [elim (Hpre c A1 A2)|elim (Hpost c A1 A2)].
    + apply only_opt_intro; [destruct m; reflexivity|]. unfold non_opt. cbn [m_extra set_extra]. rewrite He, !filter_app. cbn [filter].
      apply is_opt_iff in Hb. now rewrite Hb.
    + split; eauto.
  - split; [|split].
    + intros b Hb. apply is_edns0_iff in Hb. congruence.
    + apply only_opt_intro; [destruct m; reflexivity|reflexivity].
    + split; [discriminate|]. intros [b Hb]. apply is_edns0_iff in Hb. congruence.
Qed.
Print Assumptions C44_remove_record.

(** A message with two options and another additional record. *)
Definition ex_edns : msg :=
  set_extra [{| rr_name := $"ns."; rr_type := 1; rr_class := 1; rr_ttl := 5; rr_data := DA (IP4 [1;2;3;4]%N) |};
             {| rr_name := $"."; rr_type := 41; rr_class := 1232; rr_ttl := 0;
                rr_data := DOPT [EOOther 10 $"cookie"; EOSubnet 1 24 0 (Some (IP4 [10;0;0;0]%N))] |}] empty_msg.
Example C44_example :
  well_formed ex_edns /\ one_opt ex_edns /\
  get_edns0_option 15 (set_edns0_option (EOEde 17 $"x") ex_edns) = Some (EOEde 17 $"x") /\
  get_edns0_option 10 (set_edns0_option (EOEde 17 $"x") ex_edns) = Some (EOOther 10 $"cookie") /\
  get_edns0_option 8 (snd (remove_edns0_option 8 ex_edns)) = None /\
  get_edns0_option 10 (snd (remove_edns0_option 8 ex_edns)) = Some (EOOther 10 $"cookie") /\
  m_extra (snd (remove_edns0_record ex_edns)) = [hd (Build_rr [] 0 0 0 (DOther [])) (m_extra ex_edns)].
Proof.
  split. { intros r [<-|[<-|[]]]; cbn; [discriminate|]. intros _. eexists. reflexivity. }
  split. { intros [|[|[|i]]] [|[|[|j]]] a b; cbn; try congruence; intros [= <-] [= <-]; discriminate. }
  repeat split.
Qed.
