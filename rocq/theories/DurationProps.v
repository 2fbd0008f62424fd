(** Theorems about durations in the configuration. *)
From Coq Require Import String Ascii List Arith NArith ZArith Bool Lia ZifyBool ZifyNat ZifyN.
From Verif Require Import Str StrFacts Num NumFacts ArpaSpec Arpa ArpaProofs Duration DurationSpec.
Import ListNotations.
Open Scope list_scope.

(** ** Digits *)
Lemma is_dec_iff c : is_dec c = true <-> exists d, is_digit 10 c d.
Proof.
  unfold is_dec. destruct (digit_val 10 c) as [d|] eqn:E.
  - split; [|reflexivity]. intros _. exists d. apply digit_val_iff; [lia|exact E].
  - split; [discriminate|]. intros [d H]. apply digit_val_iff in H; [congruence|lia].
Qed.

Lemma parse_digits_dec : forall s acc n, parse_digits 10 acc s = Some n -> forallb is_dec s = true.
Proof.
  induction s as [|c s IH]; intros acc n H; [reflexivity|]. cbn [parse_digits] in H. cbn [forallb]. unfold is_dec at 1.
  destruct (digit_val 10 c); [|discriminate]. cbn [andb]. eapply IH; exact H.
Qed.
Lemma dec_parses s : forallb is_dec s = true -> forall acc, exists n, parse_digits 10 acc s = Some n.
Proof.
  induction s as [|c s IH]; intros H acc; [now exists acc|]. cbn [forallb] in H. apply andb_prop in H as [H1 H2]. cbn [parse_digits].
  unfold is_dec in H1. destruct (digit_val 10 c); [|discriminate]. now apply IH.
Qed.
Lemma parse_digits_le : forall s acc n, parse_digits 10 acc s = Some n -> (acc <= n)%N.
Proof.
  induction s as [|c s IH]; intros acc n H; cbn [parse_digits] in H; [injection H as <-; lia|].
  destruct (digit_val 10 c); [|discriminate]. apply IH in H. lia.
Qed.

(** The rest does not start with a digit. *)
Definition no_dec (r : str) : Prop := match r with c :: _ => is_dec c = false | [] => True end.

Lemma leading_int_sound : forall s x y r, leading_int s x = Some (y, r) ->
  (x <= 9223372036854775808)%N -> exists ds, s = ds ++ r /\ no_dec r /\ parse_digits 10 x ds = Some y /\ (y <= 9223372036854775808)%N.
Proof.
  induction s as [|c s IH]; intros x y r H Hx; cbn [leading_int] in H.
  - injection H as <- <-. exists []. repeat split; auto.
  - destruct (digit_val 10 c) as [d|] eqn:Ed.
    + destruct (922337203685477580 <? x)%N; [discriminate|]. destruct (9223372036854775808 <? x * 10 + d)%N eqn:E; [discriminate|].
      apply IH in H as [ds [-> [H1 [H2 H3]]]]; [|lia]. exists (c :: ds). cbn [app parse_digits]. rewrite Ed. auto.
    + injection H as <- <-. exists []. repeat split; auto. cbn. unfold is_dec. now rewrite Ed.
Qed.
Lemma leading_int_complete : forall ds x y r, parse_digits 10 x ds = Some y -> (y <= 9223372036854775808)%N -> no_dec r ->
  leading_int (ds ++ r) x = Some (y, r).
Proof.
  induction ds as [|c ds IH]; intros x y r H Hy Hr; cbn [parse_digits app] in *.
  - injection H as <-. destruct r as [|c r]; [reflexivity|]. cbn [leading_int]. cbn in Hr. unfold is_dec in Hr. now destruct (digit_val 10 c).
  - cbn [leading_int]. destruct (digit_val 10 c) as [d|]; [|discriminate]. pose proof (parse_digits_le _ _ _ H) as Hl.
    replace (922337203685477580 <? x)%N with false by lia. replace (9223372036854775808 <? x * 10 + d)%N with false by lia. now apply IH.
Qed.

Lemma span_dec_sound : forall s a b, span_dec s = (a, b) -> s = a ++ b /\ forallb is_dec a = true /\ no_dec b.
Proof.
  induction s as [|c s IH]; intros a b H; cbn [span_dec] in H; [injection H as <- <-; repeat split|].
  destruct (is_dec c) eqn:E.
  - destruct (span_dec s) as [a' b'] eqn:Es. injection H as <- <-. destruct (IH _ _ eq_refl) as [-> [H1 H2]]. cbn [app forallb]. rewrite E. auto.
  - injection H as <- <-. repeat split. cbn. exact E.
Qed.
Lemma span_dec_app : forall a b, forallb is_dec a = true -> no_dec b -> span_dec (a ++ b) = (a, b).
Proof.
  induction a as [|c a IH]; intros b H Hb; cbn [app].
  - destruct b as [|c b]; [reflexivity|]. cbn in Hb |- *. now rewrite Hb.
  - cbn [forallb] in H. apply andb_prop in H as [H1 H2]. cbn [span_dec]. rewrite H1, IH by assumption. reflexivity.
Qed.

(** Neither dot nor digit. *)
Definition unit_char (c : ascii) : bool := negb (Ascii.eqb c dot || is_dec c).
(** The rest starts with a dot or a digit, or is empty. *)
Definition next_part (r : str) : Prop := match r with c :: _ => unit_char c = false | [] => True end.

Lemma span_unit_sound : forall s a b, span_unit s = (a, b) -> s = a ++ b /\ next_part b /\ forallb unit_char a = true.
Proof.
  induction s as [|c s IH]; intros a b H; cbn [span_unit] in H; [injection H as <- <-; repeat split|].
  destruct (Ascii.eqb c dot || is_dec c) eqn:E.
  - injection H as <- <-. repeat split. cbn. unfold unit_char. now rewrite E.
  - destruct (span_unit s) as [a' b']. injection H as <- <-. destruct (IH _ _ eq_refl) as [-> [H1 H2]]. cbn [forallb]. unfold unit_char at 1. rewrite E. auto.
Qed.
Lemma span_unit_app : forall a b, forallb unit_char a = true -> next_part b -> span_unit (a ++ b) = (a, b).
Proof.
  induction a as [|c a IH]; intros b H Hb; cbn [app].
  - destruct b as [|c b]; [reflexivity|]. cbn in Hb |- *. unfold unit_char in Hb. apply negb_false_iff in Hb. now rewrite Hb.
  - cbn [forallb] in H. apply andb_prop in H as [H1 H2]. cbn [span_unit]. unfold unit_char in H1. apply negb_true_iff in H1. rewrite H1, IH by assumption. reflexivity.
Qed.

Lemma unit_map_iff u k : unit_map u = Some k <-> time_unit u k.
Proof.
  unfold unit_map. split.
  - repeat (match goal with |- context [if str_eqb u ?x then _ else _] => destruct (str_eqb_spec u x) as [->|_]; [intros [= <-]; constructor|] end). discriminate.
  - destruct 1; reflexivity.
Qed.
Lemma unit_chars u k : time_unit u k -> u <> [] /\ forallb unit_char u = true /\ (0 < k)%N.
Proof. destruct 1; (split; [discriminate|split; reflexivity]). Qed.

Lemma unit_no_dec u k r : time_unit u k -> no_dec (u ++ r) /\ (forall t, u ++ r <> dot :: t).
Proof. destruct 1; (split; [reflexivity|intros t; discriminate]). Qed.

Lemma digits_dec f : digits f <-> forallb is_dec f = true.
Proof.
  unfold digits. rewrite Forall_forall, forallb_forall. split; intros H c Hc; [apply is_dec_iff|apply is_dec_iff]; auto.
Qed.

Section Fraction.
  Variable fraction : str -> N -> N.

  Lemma number_dec d n : number_text 10 d n -> forallb is_dec d = true /\ d <> [] /\ parse_digits 10 0 d = Some n.
  Proof.
    intros H. pose proof (number_text_nonempty _ _ _ H) as Hn. apply parse_digits_text in H; [|lia|exact Hn].
    split; [eapply parse_digits_dec; exact H|]. now split.
  Qed.

  Lemma length_app_neq (d r : str) : d <> [] -> (length (d ++ r) =? length r) = false.
  Proof. intros H. apply Nat.eqb_neq. rewrite app_length. destruct d; [congruence|cbn; lia]. Qed.

  Lemma head_digit d n r : number_text 10 d n -> exists c t, d ++ r = c :: t /\ Ascii.eqb c dot || is_dec c = true.
  Proof.
    intros H. destruct (number_dec _ _ H) as [Hd [Hn _]]. destruct d as [|c d]; [congruence|]. exists c, (d ++ r). split; [reflexivity|].
    cbn [forallb] in Hd. apply andb_prop in Hd as [Hd _]. rewrite Hd. apply orb_true_r.
  Qed.

  Lemma div_check v unit : (0 < unit)%N -> (v * unit <= 9223372036854775808)%N -> (9223372036854775808 / unit <? v)%N = false.
  Proof. intros Hu H. apply N.ltb_ge. apply N.div_le_lower_bound; lia. Qed.

  Lemma part_complete a v r : amount fraction a v -> (v <= 9223372036854775808)%N -> next_part r -> duration_part fraction (a ++ r) = Some (v, r).
  Proof.
    intros H Hv Hr. destruct H as [d n u k Hd Hu|d n u k Hd Hu|d n f u k Hd Hf Hfn Hu|f u k Hf Hfn Hu];
      destruct (unit_chars _ _ Hu) as [Hun [Huc Hk]]; pose proof (proj2 (unit_map_iff _ _) Hu) as Hm.
    - rewrite <- app_assoc. destruct (unit_no_dec u k r Hu) as [Hx Hy]. destruct (number_dec _ _ Hd) as [Hdec [Hdn Hp]].
      assert (n <= 9223372036854775808)%N as Hn by nia.
      destruct (head_digit d n (u ++ r) Hd) as [c [t [E Hc]]]. unfold duration_part. rewrite E. rewrite Hc. cbn [negb]. rewrite <- E.
      rewrite (leading_int_complete _ _ _ _ Hp Hn Hx). rewrite length_app_neq by exact Hdn. cbn [negb andb].
      destruct (u ++ r) as [|c' t'] eqn:Eu; [destruct u; [congruence|discriminate]|].
      destruct (Ascii.eqb_spec c' dot) as [->|_]; [exfalso; exact (Hy t' eq_refl)|]. rewrite <- Eu, span_unit_app by assumption.
      destruct u as [|u0 u]; [congruence|]. rewrite Hm, div_check by lia. rewrite N.add_0_r. now replace (9223372036854775808 <? n * k)%N with false by lia.
    - rewrite <- !app_assoc. destruct (unit_no_dec u k r Hu) as [Hx Hy]. destruct (number_dec _ _ Hd) as [Hdec [Hdn Hp]].
      assert (n <= 9223372036854775808)%N as Hn by nia.
      destruct (head_digit d n ($"." ++ u ++ r) Hd) as [c [t [E Hc]]]. unfold duration_part. rewrite E. rewrite Hc. cbn [negb]. rewrite <- E.
      rewrite (leading_int_complete _ _ _ _ Hp Hn) by reflexivity. rewrite length_app_neq by exact Hdn. cbn [negb andb].
      change ($"." ++ u ++ r) with (dot :: u ++ r). cbv iota. rewrite Ascii.eqb_refl.
      rewrite (span_dec_app [] (u ++ r) eq_refl Hx : span_dec (u ++ r) = ([], u ++ r)). rewrite span_unit_app by assumption.
      destruct u as [|u0 u]; [congruence|]. rewrite Hm, div_check by lia. rewrite N.add_0_r. now replace (9223372036854775808 <? n * k)%N with false by lia.
    - rewrite <- !app_assoc. destruct (unit_no_dec u k r Hu) as [Hx Hy]. destruct (number_dec _ _ Hd) as [Hdec [Hdn Hp]].
      assert (n <= 9223372036854775808)%N as Hn by nia.
      destruct (head_digit d n ($"." ++ f ++ u ++ r) Hd) as [c [t [E Hc]]]. unfold duration_part. rewrite E. rewrite Hc. cbn [negb]. rewrite <- E.
      rewrite (leading_int_complete _ _ _ _ Hp Hn) by reflexivity. rewrite length_app_neq by exact Hdn. cbn [negb andb].
      change ($"." ++ f ++ u ++ r) with (dot :: f ++ u ++ r). cbv iota. rewrite Ascii.eqb_refl.
      apply digits_dec in Hf. rewrite (span_dec_app f (u ++ r) Hf Hx). rewrite span_unit_app by assumption.
      destruct u as [|u0 u]; [congruence|]. rewrite Hm, div_check by lia. destruct f as [|f0 f]; [congruence|].
      now replace (9223372036854775808 <? n * k + fraction (f0 :: f) k)%N with false by lia.
    - rewrite <- !app_assoc. destruct (unit_no_dec u k r Hu) as [Hx Hy].
      change ($"." ++ f ++ u ++ r) with (dot :: f ++ u ++ r). unfold duration_part. rewrite Ascii.eqb_refl. cbn [orb negb].
      rewrite (leading_int_complete [] 0 0 (dot :: f ++ u ++ r) eq_refl ltac:(lia) eq_refl : leading_int (dot :: f ++ u ++ r) 0 = Some (0%N, dot :: f ++ u ++ r)). rewrite Nat.eqb_refl, Ascii.eqb_refl.
      apply digits_dec in Hf. rewrite (span_dec_app f (u ++ r) Hf Hx). rewrite (length_app_neq f) by exact Hfn. cbn [negb andb]. rewrite span_unit_app by assumption.
      destruct u as [|u0 u]; [congruence|]. rewrite Hm, div_check by lia. destruct f as [|f0 f]; [congruence|]. rewrite N.mul_0_l, N.add_0_l.
      now replace (9223372036854775808 <? fraction (f0 :: f) k)%N with false by lia.
  Qed.

  Lemma part_sound s v r : duration_part fraction s = Some (v, r) -> exists a, s = a ++ r /\ amount fraction a v /\ next_part r /\ (v <= 9223372036854775808)%N.
  Proof.
    unfold duration_part. destruct s as [|c0 t0]; [discriminate|]. set (s := c0 :: t0). destruct (negb (Ascii.eqb c0 dot || is_dec c0)); [discriminate|].
    destruct (leading_int s 0) as [[n s1]|] eqn:El; [|discriminate]. apply leading_int_sound in El as [d [Es [Hs1 [Hd Hn]]]]; [|lia]. rewrite Es.
    assert ((length (d ++ s1) =? length s1) = match d with [] => true | _ => false end) as ->.
    { destruct d; [apply Nat.eqb_refl|apply length_app_neq; discriminate]. }
    assert (forall u s3 ds, match u with [] => None | _ => match unit_map u with None => None | Some unit =>
        if (9223372036854775808 / unit <? n)%N then None else
        let v' := (n * unit + match ds with [] => 0 | _ => fraction ds unit end)%N in
        if (9223372036854775808 <? v')%N then None else Some (v', s3) end end = Some (v, r) ->
        exists k, time_unit u k /\ v = (n * k + match ds with [] => 0 | _ => fraction ds k end)%N /\ s3 = r /\ (v <= 9223372036854775808)%N) as Hend.
    { intros u s3 ds. destruct u as [|u0 u]; [discriminate|]. destruct (unit_map (u0 :: u)) as [k|] eqn:Ek; [|discriminate]. cbv zeta.
      destruct (9223372036854775808 / k <? n)%N; [discriminate|]. destruct (N.ltb_spec 9223372036854775808 (n * k + match ds with [] => 0 | _ => fraction ds k end)%N) as [|Hle]; [discriminate|].
      intros E. apply (f_equal (fun o => match o with Some x => x | None => (0%N, []) end)) in E. apply pair_equal_spec in E as [<- <-].
      exists k. apply unit_map_iff in Ek. auto. }
    assert (d <> [] -> number_text 10 d n) as Hnum by (intros Hne; apply parse_digits_text; [lia|exact Hne|exact Hd]).
    destruct s1 as [|c s1]; [|destruct (Ascii.eqb_spec c dot) as [->|Hdot]].
    - destruct d as [|x d]; [discriminate|]. cbn [negb andb span_unit]. discriminate.
    - destruct (span_dec s1) as [ds s2] eqn:Ed. apply span_dec_sound in Ed as [-> [Hds Hs2]].
      assert ((length (ds ++ s2) =? length s2) = match ds with [] => true | _ => false end) as ->.
      { destruct ds; [apply Nat.eqb_refl|apply length_app_neq; discriminate]. }
      destruct (negb (negb match d with [] => true | _ :: _ => false end) && negb (negb match ds with [] => true | _ :: _ => false end)) eqn:Ee; [discriminate|].
      destruct (span_unit s2) as [u s3] eqn:Eu. apply span_unit_sound in Eu as [-> [Hnext _]]. intros H. apply Hend in H as [k [Hu [-> [-> Hle]]]].
      apply digits_dec in Hds. destruct d as [|x d], ds as [|y ds].
      + discriminate.
      + exists ($"." ++ (y :: ds) ++ u). split; [rewrite <- !app_assoc; reflexivity|]. split; [|auto]. cbn in Hd. injection Hd as <-. rewrite N.mul_0_l, N.add_0_l.
        apply amount_fraction; auto. discriminate.
      + exists ((x :: d) ++ $"." ++ u). split; [rewrite <- !app_assoc; reflexivity|]. split; [|auto]. rewrite N.add_0_r. apply amount_dot; auto. apply Hnum. discriminate.
      + exists ((x :: d) ++ $"." ++ (y :: ds) ++ u). split; [rewrite <- !app_assoc; reflexivity|]. split; [|auto]. apply amount_point; auto; [apply Hnum|]; discriminate.
    - destruct d as [|x d]; [discriminate|]. cbn [negb andb]. destruct (span_unit (c :: s1)) as [u s3] eqn:Eu. apply span_unit_sound in Eu as [Ec [Hnext _]].
      intros H. apply (Hend u s3 []) in H as [k [Hu [-> [-> Hle]]]]. rewrite N.add_0_r in *. exists ((x :: d) ++ u). rewrite Ec, <- app_assoc. split; [reflexivity|].
      split; [|auto]. apply amount_whole; auto. apply Hnum. discriminate.
  Qed.

  Lemma amount_head a v r : amount fraction a v -> next_part (a ++ r) /\ a <> [].
  Proof.
    intros H. destruct H as [d n u k Hd Hu|d n u k Hd Hu|d n f u k Hd Hf Hfn Hu|f u k Hf Hfn Hu].
    1-3: rewrite <- !app_assoc; destruct (number_dec _ _ Hd) as [Hdec [Hdn _]]; destruct d as [|c d]; [congruence|]; split; [|discriminate];
      cbn [forallb] in Hdec; apply andb_prop in Hdec as [Hc _]; cbn; unfold unit_char; rewrite Hc; now rewrite orb_true_r.
    split; [reflexivity|discriminate].
  Qed.
  Lemma amounts_head s v : amounts fraction s v -> next_part s /\ s <> [].
  Proof.
    intros H. destruct H as [s n H|s n t m H _].
    - destruct (amount_head s n [] H) as [X Y]. rewrite app_nil_r in X. auto.
    - destruct (amount_head s n t H) as [X Y]. split; [exact X|]. intros E. apply app_eq_nil in E as [E _]. congruence.
  Qed.

  Lemma loop_complete s total : amounts fraction s total -> forall fuel d, (d + total <= 9223372036854775808)%N -> length s <= fuel ->
    duration_loop fraction fuel s d = Some (d + total)%N.
  Proof.
    induction 1 as [s n H|s n t m H Ht IH]; intros fuel d Hd Hf.
    - destruct (amount_head s n [] H) as [_ Hs]. destruct s as [|c s]; [congruence|]. destruct fuel as [|fuel]; [cbn in Hf; lia|]. cbn [duration_loop].
      pose proof (part_complete (c :: s) n [] H ltac:(lia) I) as Hp. rewrite app_nil_r in Hp. rewrite Hp.
      rewrite N.mod_small by lia. replace (9223372036854775808 <? d + n)%N with false by lia. now destruct fuel.
    - destruct (amount_head s n t H) as [_ Hs]. destruct (amounts_head t m Ht) as [Hn _].
      pose proof (part_complete s n t H ltac:(lia) Hn) as Hp. destruct s as [|c s]; [congruence|]. destruct fuel as [|fuel]; [cbn in Hf; lia|].
      cbn [app duration_loop]. cbn [app] in Hp. rewrite Hp. rewrite N.mod_small by lia. replace (9223372036854775808 <? d + n)%N with false by lia.
      rewrite IH; [f_equal; lia|lia|]. rewrite app_length in Hf. cbn [length] in Hf. lia.
  Qed.

  Lemma loop_sound : forall fuel s d d', duration_loop fraction fuel s d = Some d' -> s <> [] ->
    exists total, amounts fraction s total /\ (d' mod 18446744073709551616 = (d + total) mod 18446744073709551616)%N /\ (d' <= 9223372036854775808)%N.
  Proof.
    induction fuel as [|fuel IH]; intros s d d' H Hs; [destruct s; [congruence|discriminate]|]. destruct s as [|c s]; [congruence|]. cbn [duration_loop] in H.
    destruct (duration_part fraction (c :: s)) as [[v r]|] eqn:Ep; [|discriminate]. apply part_sound in Ep as [a [-> [Ha [Hn Hv]]]].
    destruct (N.ltb_spec 9223372036854775808 ((d + v) mod 18446744073709551616)) as [|Hle]; [discriminate|]. destruct r as [|x r].
    - assert (d' = (d + v) mod 18446744073709551616)%N as -> by (destruct fuel; cbn [duration_loop] in H; congruence).
      exists v. rewrite app_nil_r. split; [now apply amounts_one|]. split; [now rewrite N.mod_mod by lia|exact Hle].
    - apply IH in H as [total [Ht [Hm Hd']]]; [|discriminate]. exists (v + total)%N. split; [now apply amounts_more|]. split; [|exact Hd'].
      rewrite Hm. rewrite N.add_mod_idemp_l by lia. f_equal. lia.
  Qed.

  (** ** Signs *)
  Definition unsign (s : str) : bool * str :=
    match s with
    | c :: t => if Ascii.eqb c "-" then (true, t) else if Ascii.eqb c "+" then (false, t) else (false, s)
    | [] => (false, [])
    end.
  Definition no_sign (s : str) : Prop := match s with c :: _ => c <> "-"%char /\ c <> "+"%char | [] => True end.

  Lemma unsign_signed (P : str -> N -> Prop) s z : (forall t n, P t n -> no_sign t) -> signed P s z ->
    exists t n, P t n /\ ((unsign s = (false, t) /\ z = Z.of_N n) \/ (unsign s = (true, t) /\ z = (- Z.of_N n)%Z)).
  Proof.
    intros Hp H. destruct H as [s n H|s n H|s n H]; exists s, n; (split; [exact H|]).
    - left. split; [|reflexivity]. apply Hp in H. destruct s as [|c s]; [reflexivity|]. cbn in H |- *. destruct H as [H1 H2].
      destruct (Ascii.eqb_spec c "-"); [congruence|]. destruct (Ascii.eqb_spec c "+"); [congruence|reflexivity].
    - now left.
    - now right.
  Qed.
  Lemma unsign_sound (P : str -> N -> Prop) s neg t n : unsign s = (neg, t) -> P t n -> signed P s (if neg then - Z.of_N n else Z.of_N n)%Z.
  Proof.
    intros E H. destruct s as [|c s]; cbn in E; [injection E as <- <-; now apply signed_none|].
    destruct (Ascii.eqb_spec c "-") as [->|]; [injection E as <- <-; exact (signed_minus P s n H)|].
    destruct (Ascii.eqb_spec c "+") as [->|]; injection E as <- <-; [exact (signed_plus P s n H)|now apply signed_none].
  Qed.

  Lemma dec_no_sign c : is_dec c = true -> c <> "-"%char /\ c <> "+"%char.
  Proof. intros H. split; intros ->; discriminate. Qed.
  Lemma number_no_sign t n : number_text 10 t n -> no_sign t.
  Proof.
    intros H. destruct (number_dec _ _ H) as [Hd [Hn _]]. destruct t as [|c t]; [exact I|]. cbn [forallb] in Hd. apply andb_prop in Hd as [Hd _]. now apply dec_no_sign.
  Qed.
  Lemma amounts_no_sign t n : amounts fraction t n -> no_sign t.
  Proof.
    intros H. apply amounts_head in H as [H _]. destruct t as [|c t]; [exact I|]. cbn in H |- *. unfold unit_char in H. apply negb_false_iff in H.
    apply orb_prop in H as [H|H]; [apply Ascii.eqb_eq in H; subst; split; discriminate|now apply dec_no_sign].
  Qed.

  Lemma atoi_unsign s : atoi s = let '(neg, ds) := unsign s in
    match ds with [] => None | _ => match parse_digits 10 0 ds with
      | Some n => if neg then if (n <=? 9223372036854775808)%N then Some (- Z.of_N n)%Z else None
                  else if (n <? 9223372036854775808)%N then Some (Z.of_N n) else None
      | None => None end end.
  Proof. reflexivity. Qed.
  Lemma parse_duration_unsign s : parse_duration fraction s = let '(neg, s) := unsign s in
    if str_eqb s ($"0") then Some 0%Z
    else match s with [] => None | _ => match duration_loop fraction (length s) s 0 with
       | None => None
       | Some d => if neg then Some (- Z.of_N d)%Z else if (9223372036854775807 <? d)%N then None else Some (Z.of_N d) end end.
  Proof. reflexivity. Qed.

  Lemma amount_not_number a v : amount fraction a v -> exists c, In c a /\ digit_val 10 c = None.
  Proof.
    intros H. destruct H as [d n u k Hd Hu|d n u k Hd Hu|d n f u k Hd Hf Hfn Hu|f u k Hf Hfn Hu];
      (assert (exists c, In c u /\ digit_val 10 c = None) as [c [Hc He]];
       [inversion Hu; eexists; (split; [apply in_eq|reflexivity])|exists c; split; [rewrite ?in_app_iff; auto|exact He]]).
  Qed.
  Lemma not_number s c : In c s -> digit_val 10 c = None -> forall acc, parse_digits 10 acc s = None.
  Proof.
    induction s as [|x s IH]; intros Hin He acc; [destruct Hin|]. cbn [parse_digits]. destruct Hin as [->|Hin]; [now rewrite He|].
    destruct (digit_val 10 x); [|reflexivity]. now apply IH.
  Qed.
  Lemma amounts_not_number s v : amounts fraction s v -> parse_digits 10 0 s = None.
  Proof.
    intros H. destruct H as [s n H|s n t m H _]; apply amount_not_number in H as [c [Hc He]]; eapply not_number; try exact He; [exact Hc|].
    apply in_app_iff. now left.
  Qed.
End Fraction.

(** ** C67 *)

(** A duration that is only a number is that many minutes (computed with 64 bit). *)
Theorem C67_minutes_partial : forall fraction s m, signed (number_text 10) s m ->
  duration_of_text fraction s =
  if ((-9223372036854775808 <=? m) && (m <? 9223372036854775808))%Z then Some (int64 (m * 60000000000)) else None.
Proof.
  intros fraction s m H. apply unsign_signed in H; [|exact (number_no_sign fraction)]. destruct H as [t [n [Ht Hs]]]. destruct (number_dec fraction _ _ Ht) as [_ [Hn Hp]].
  assert (parse_duration fraction s = None \/ t = $"0") as Hno.
  { rewrite parse_duration_unsign. destruct (str_eq_dec t ($"0")) as [->|H0]; [now right|left].
    assert (duration_loop fraction (length t) t 0 = None) as Hl.
    { destruct (duration_loop fraction (length t) t 0) as [d'|] eqn:E; [|reflexivity]. apply loop_sound in E as [total [Ha _]]; [|exact Hn].
      apply amounts_not_number in Ha. congruence. }
    destruct Hs as [[-> _]|[-> _]]; rewrite (proj2 (str_eqb_neq t ($"0")) H0), Hl; now destruct t. }
  unfold duration_of_text. rewrite atoi_unsign. destruct Hs as [[Eu ->]|[Eu ->]]; rewrite Eu.
  - destruct t as [|c t]; [congruence|]. rewrite Hp. destruct (n <? 9223372036854775808)%N eqn:E.
    + now replace ((-9223372036854775808 <=? Z.of_N n) && (Z.of_N n <? 9223372036854775808))%Z with true by lia.
    + replace ((-9223372036854775808 <=? Z.of_N n) && (Z.of_N n <? 9223372036854775808))%Z with false by lia.
      destruct Hno as [Hno|E0]; [exact Hno|]. rewrite E0 in Hp. cbn in Hp. injection Hp as <-. discriminate.
  - destruct t as [|c t]; [congruence|]. rewrite Hp. destruct (n <=? 9223372036854775808)%N eqn:E.
    + now replace ((-9223372036854775808 <=? - Z.of_N n) && (- Z.of_N n <? 9223372036854775808))%Z with true by lia.
    + replace ((-9223372036854775808 <=? - Z.of_N n) && (- Z.of_N n <? 9223372036854775808))%Z with false by lia.
      destruct Hno as [Hno|E0]; [exact Hno|]. rewrite E0 in Hp. cbn in Hp. injection Hp as <-. discriminate.
Qed.
Print Assumptions C67_minutes_partial.

(** Up to 292 years there is no overflow. *)
Theorem C67_exact_minutes : forall fraction s m, signed (number_text 10) s m -> (-153722867 <= m <= 153722867)%Z ->
  duration_of_text fraction s = Some (m * 60000000000)%Z.
Proof.
  intros fraction s m H Hm. rewrite (C67_minutes_partial fraction s m H).
  replace ((-9223372036854775808 <=? m) && (m <? 9223372036854775808))%Z with true by lia. f_equal. unfold int64.
  rewrite Z.mod_small by lia. lia.
Qed.
Print Assumptions C67_exact_minutes.

(** Whether an option is "above zero" or "at least zero" is what the sign of the number of minutes says. *)
Theorem C67_signs : forall fraction s m, signed (number_text 10) s m -> (-153722867 <= m <= 153722867)%Z ->
  exists d, duration_of_text fraction s = Some d /\ (is_above_zero d = true <-> (0 < m)%Z) /\ (is_at_least_zero d = true <-> (0 <= m)%Z).
Proof.
  intros fraction s m H Hm. exists (m * 60000000000)%Z. split; [now apply C67_exact_minutes|]. unfold is_above_zero, is_at_least_zero.
  rewrite Z.ltb_lt, Z.leb_le. lia.
Qed.
Print Assumptions C67_signs.

(** Above, the number of minutes overflows without error: a time of 293 years is negative. *)
Theorem C67_overflow_refuted : exists s m d, signed (number_text 10) s m /\ (0 < m)%Z /\
  (forall fraction, duration_of_text fraction s = Some d) /\ (d < 0)%Z /\ s = $"153722868".
Proof.
  exists ($"153722868"), 153722868%Z. eexists. split; [|split; [lia|split; [intros fraction; reflexivity|split; [reflexivity|reflexivity]]]].
  apply (signed_none (number_text 10) _ 153722868%N). apply parse_digits_text; [lia|discriminate|reflexivity].
Qed.
Print Assumptions C67_overflow_refuted.

(** With units, a duration is the sum of the amounts given. *)
Theorem C67_units : forall fraction s d, signed (amounts fraction) s d -> (-9223372036854775808 <= d < 9223372036854775808)%Z ->
  duration_of_text fraction s = Some d.
Proof.
  intros fraction s d H Hd. apply unsign_signed in H; [|exact (amounts_no_sign fraction)]. destruct H as [t [n [Ht Hs]]].
  pose proof (amounts_not_number _ _ _ Ht) as Hnn. destruct (amounts_head _ _ _ Ht) as [_ Hn].
  assert (t <> $"0") as H0 by (intros ->; discriminate).
  unfold duration_of_text. rewrite atoi_unsign, parse_duration_unsign.
  destruct Hs as [[-> ->]|[-> ->]]; rewrite Hnn, (proj2 (str_eqb_neq t ($"0")) H0);
    rewrite (loop_complete fraction t n Ht (length t) 0) by lia; destruct t as [|c t]; try congruence.
  - now replace (9223372036854775807 <? 0 + n)%N with false by lia.
  - reflexivity.
Qed.
Print Assumptions C67_units.

(** Nothing else is accepted (sums are computed modulo 2^64). *)
Theorem C67_only : forall fraction s d, duration_of_text fraction s = Some d ->
  (exists m, signed (number_text 10) s m) \/
  (exists e, signed (amounts fraction) s e /\ (d mod 18446744073709551616 = e mod 18446744073709551616)%Z /\ (Z.abs d <= 9223372036854775808)%Z).
Proof.
  intros fraction s d. unfold duration_of_text. destruct (atoi s) as [m|] eqn:E.
  - intros _. left. rewrite atoi_unsign in E. destruct (unsign s) as [neg t] eqn:Eu. destruct t as [|c t]; [discriminate|].
    destruct (parse_digits 10 0 (c :: t)) as [n|] eqn:Ep; [|discriminate]. apply parse_digits_text in Ep; [|lia|discriminate].
    eexists. eapply unsign_sound; eassumption.
  - rewrite parse_duration_unsign. rewrite atoi_unsign in E. destruct (unsign s) as [neg t] eqn:Eu. destruct (str_eqb_spec t ($"0")) as [->|H0].
    { exfalso. cbn in E. destruct neg; discriminate. }
    destruct t as [|c t]; [discriminate|]. destruct (duration_loop fraction (length (c :: t)) (c :: t) 0) as [d'|] eqn:El; [|discriminate].
    apply loop_sound in El as [total [Ha [Hm Hle]]]; [|discriminate]. rewrite N.add_0_l in Hm. intros H. right.
    exists (if neg then - Z.of_N total else Z.of_N total)%Z. split; [eapply unsign_sound; eassumption|].
    assert (Z.of_N d' mod 18446744073709551616 = Z.of_N total mod 18446744073709551616)%Z as Hz.
    { change 18446744073709551616%Z with (Z.of_N 18446744073709551616). rewrite <- !N2Z.inj_mod. now f_equal. }
    destruct neg.
    + injection H as <-. split; [|lia]. rewrite <- (Z.sub_0_l (Z.of_N d')), <- (Z.sub_0_l (Z.of_N total)). rewrite Zminus_mod, Hz, <- Zminus_mod. reflexivity.
    + destruct (9223372036854775807 <? d')%N; [discriminate|]. injection H as <-. split; [exact Hz|lia].
Qed.
Print Assumptions C67_only.

Example C67_example : forall fraction, duration_of_text fraction ($"30") = Some 1800000000000%Z /\
  duration_of_text fraction ($"1h30m") = Some 5400000000000%Z /\ duration_of_text fraction ($"-1") = Some (-60000000000)%Z /\
  duration_of_text fraction ($"2 min") = None /\ duration_of_text fraction ($"") = None /\ duration_of_text fraction ($"500ms") = Some 500000000%Z.
Proof. intros fraction. repeat split; reflexivity. Qed.
Example C67_example_text : forall fraction, amounts fraction ($"1h30m") 5400000000000.
Proof.
  intros fraction. change ($"1h30m") with (($"1" ++ $"h") ++ ($"30" ++ $"m")).
  change 5400000000000%N with (1 * 3600000000000 + 30 * 60000000000)%N.
  apply amounts_more; [|apply amounts_one]; apply amount_whole; try constructor; try (apply parse_digits_text; [lia|discriminate|reflexivity]).
  split; [lia|]. left. split; [reflexivity|lia].
Qed.
(** The warning printed for numbers without unit advises "'30 min'": that text is refused. *)
Theorem C67_advice_refuted : exists s d, (forall fraction, duration_of_text fraction s = Some d) /\
  forall fraction, duration_of_text fraction (s ++ $" min") = None.
Proof. exists ($"30"), 1800000000000%Z. split; intros fraction; reflexivity. Qed.
Print Assumptions C67_advice_refuted.

(** Two halves of the range add up to nothing (a peculiarity of Go's time.ParseDuration). *)
Example C67_wrap : forall fraction, duration_of_text fraction ($"9223372036854775808ns9223372036854775808ns") = Some 0%Z.
Proof. reflexivity. Qed.
