(** Lemmas about EDNS0 options. *)
From Coq Require Import String Ascii List Arith Bool NArith Lia.
From Verif Require Import Str StrFacts Dns SudnSpec.
Import ListNotations.

Lemma find_rev_split {A} (f : A -> bool) l o : find f (rev l) = Some o <->
  exists pre post, l = pre ++ o :: post /\ f o = true /\ forall x, In x post -> f x = false.
Proof.
  revert o. induction l as [|a l IH] using rev_ind; intros o.
  - split; [discriminate|]. intros [[|? ?] [post [H _]]]; discriminate.
  - rewrite rev_app_distr. cbn [rev app find]. destruct (f a) eqn:E.
    + split.
      * intros [= <-]. exists l, []. split; auto. split; auto. simpl. tauto.
      * intros [pre [post [H1 [H2 H3]]]]. destruct post as [|y post] using rev_ind.
        -- apply app_inj_tail in H1 as [_ <-]. reflexivity.
        -- change (o :: post ++ [y]) with ((o :: post) ++ [y]) in H1. rewrite app_assoc in H1. apply app_inj_tail in H1 as [_ <-].
           rewrite H3 in E; [discriminate|]. apply in_or_app. simpl. auto.
    + rewrite IH. split.
      * intros [pre [post [-> [H2 H3]]]]. exists pre, (post ++ [a]). split; [now rewrite <- app_assoc|]. split; auto.
        intros x Hx. apply in_app_or in Hx as [Hx|[<-|[]]]; auto.
      * intros [pre [post [H1 [H2 H3]]]]. destruct post as [|y post _] using rev_ind.
        -- apply app_inj_tail in H1 as [_ <-]. congruence.
        -- change (o :: post ++ [y]) with ((o :: post) ++ [y]) in H1. rewrite app_assoc in H1. apply app_inj_tail in H1 as [-> <-].
           exists pre, post. split; auto. split; auto. intros x Hx. apply H3. apply in_or_app. auto.
Qed.

Lemma is_opt_iff r : is_opt r = true <-> rr_type r = 41%N.
Proof. apply N.eqb_eq. Qed.
Lemma is_opt_false r : is_opt r = false <-> rr_type r <> 41%N.
Proof. apply N.eqb_neq. Qed.

Lemma is_edns0_iff m o : is_edns0 m = Some o <-> opt_in_force m o.
Proof.
  unfold is_edns0, opt_in_force. rewrite find_rev_split. split; intros [pre [post [H1 [H2 H3]]]]; exists pre, post; (split; [auto|]).
  - split; [now apply is_opt_iff|]. intros x Hx. apply is_opt_false; auto.
  - split; [now apply is_opt_iff|]. intros x Hx. apply is_opt_false; auto.
Qed.

Lemma is_edns0_none m : is_edns0 m = None <-> forall x, In x (m_extra m) -> rr_type x <> 41%N.
Proof.
  unfold is_edns0. split.
  - intros H x Hx. apply is_opt_false. eapply find_none in H; [exact H|]. now apply -> in_rev.
  - intros H. destruct (find is_opt (rev (m_extra m))) as [o|] eqn:E; auto. apply find_some in E as [E1 E2].
    apply in_rev in E1. apply is_opt_iff in E2. elim (H o E1 E2).
Qed.

Lemma update_first_split {A} (f : A -> bool) g pre o post : f o = true -> (forall x, In x post -> f x = false) ->
  rev (update_first f g (rev (pre ++ o :: post))) = pre ++ g o :: post.
Proof.
  intros Ho Hp. rewrite rev_app_distr. cbn [rev]. rewrite <- app_assoc.
  assert (update_first f g (rev post ++ [o] ++ rev pre) = rev post ++ [g o] ++ rev pre) as ->.
  { assert (forall x, In x (rev post) -> f x = false) as Hr by (intros x Hx; apply Hp; now apply in_rev).
    induction (rev post) as [|y l IH]; cbn; [now rewrite Ho|]. rewrite (Hr y); [|now left]. f_equal. apply IH. intros x Hx. apply Hr. now right. }
  rewrite !rev_app_distr, !rev_involutive. cbn. rewrite <- app_assoc. reflexivity.
Qed.

Lemma remove_first_split {A} (f : A -> bool) l : (forall x, In x l -> f x = false) /\ remove_first f l = l \/
  exists pre o post, l = pre ++ o :: post /\ f o = true /\ (forall x, In x pre -> f x = false) /\ remove_first f l = pre ++ post.
Proof.
  induction l as [|a l IH]; [left; simpl; tauto|]. cbn [remove_first]. destruct (f a) eqn:E.
  - right. exists [], a, l. simpl. tauto.
  - destruct IH as [[H1 H2]|[pre [o [post [H1 [H2 [H3 H4]]]]]]].
    + left. split; [|congruence]. intros x [<-|Hx]; auto.
    + right. exists (a :: pre), o, post. subst l. rewrite H4. split; auto. split; auto. split; auto. intros x [<-|Hx]; auto.
Qed.

Definition non_opt (m : msg) : list rr := filter (fun r => negb (is_opt r)) (m_extra m).

Lemma opt_in_force_fun m o o' : opt_in_force m o -> opt_in_force m o' -> o = o'.
Proof. intros H H'. apply is_edns0_iff in H, H'. congruence. Qed.

Lemma options_of_fun m l l' : options_of m l -> options_of m l' -> l = l'.
Proof. intros [o [H1 H2]] [o' [H3 H4]]. assert (o = o') as <- by eauto using opt_in_force_fun. congruence. Qed.

(** What SetEdns0Option does to the additional section. *)
Lemma set_option_shape o m : exists pre post base opts,
  m_extra (set_edns0_option o m) = pre ++ set_options (filter (fun e => negb (eopt_code e =? eopt_code o)%N) opts ++ [o]) base :: post /\
  rr_type base = 41%N /\ (forall x, In x post -> rr_type x <> 41%N) /\
  ((m_extra m = pre ++ base :: post /\ opts = opt_options base) \/
   (m_extra m = pre /\ post = [] /\ opts = [] /\ (forall x, In x pre -> rr_type x <> 41%N) /\
    base = {| rr_name := $"."; rr_type := 41; rr_class := 0; rr_ttl := 0; rr_data := DOPT [] |})) /\
  set_edns0_option o m = set_extra (m_extra (set_edns0_option o m)) m.
Proof.
  unfold set_edns0_option, update_opt. cbv zeta. destruct (is_edns0 m) as [b|] eqn:E.
  - apply is_edns0_iff in E as [pre [post [H1 [H2 H3]]]]. exists pre, post, b, (opt_options b).
    cbn [m_extra set_extra]. rewrite H1, update_first_split; [|now apply is_opt_iff|intros x Hx; apply is_opt_false; auto].
    split; auto. split; auto.
  - pose proof (proj1 (is_edns0_none m) E) as H.
    set (b := {| rr_name := $"."; rr_type := type_OPT; rr_class := 0; rr_ttl := 0; rr_data := DOPT [] |}).
    exists (m_extra m), [], b, []. cbn [m_extra set_extra].
    rewrite update_first_split; [|reflexivity|simpl; tauto]. split; [reflexivity|]. split; [reflexivity|]. split; [simpl; tauto|].
    split; [right|destruct m; reflexivity]. repeat split; auto.
Qed.

Lemma set_option_options o m : exists opts, options_of (set_edns0_option o m) (filter (fun e => negb (eopt_code e =? eopt_code o)%N) opts ++ [o]) /\
  ((exists b, opt_in_force m b /\ opts = opt_options b) \/ ((forall b, ~ opt_in_force m b) /\ opts = [])).
Proof.
  destruct (set_option_shape o m) as [pre [post [b [opts [H1 [H2 [H3 [H4 _]]]]]]]]. exists opts. split.
  - exists (set_options (filter (fun e => negb (eopt_code e =? eopt_code o)%N) opts ++ [o]) b). split; [|reflexivity].
    exists pre, post. split; [exact H1|]. split; auto.
  - destruct H4 as [[H4 H5]|[H4 [H5 [H6 [H7 _]]]]].
    + left. exists b. split; auto. exists pre, post. auto.
    + right. split; auto. intros b' Hb. apply is_edns0_iff in Hb.
      assert (is_edns0 m = None) by (apply is_edns0_none; rewrite H4; exact H7). congruence.
Qed.
