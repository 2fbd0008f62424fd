(** Facts about [Num]. *)
From Coq Require Import String Ascii List Arith NArith Bool Lia.
From Verif Require Import Str StrFacts Num.
Import ListNotations.

Lemma digit_val_digit : forall base d, (d < base)%N -> (d < 16)%N -> digit_val base (digit d) = Some d.
Proof.
  intros base d Hb Hd. unfold digit_val, digit.
  destruct (N.ltb_spec d 10).
  - rewrite N_ascii_embedding by lia.
    replace ((48 <=? 48 + d) && (48 + d <=? 57))%N with true
      by (symmetry; apply andb_true_iff; split; apply N.leb_le; lia).
    replace (48 + d - 48)%N with d by lia. apply N.ltb_lt in Hb. now rewrite Hb.
  - rewrite N_ascii_embedding by lia.
    replace ((48 <=? 87 + d) && (87 + d <=? 57))%N with false
      by (symmetry; apply andb_false_iff; right; apply N.leb_gt; lia).
    replace ((97 <=? 87 + d) && (87 + d <=? 122))%N with true
      by (symmetry; apply andb_true_iff; split; apply N.leb_le; lia).
    replace (87 + d - 87)%N with d by lia. apply N.ltb_lt in Hb. now rewrite Hb.
Qed.

Lemma digit_code : forall d, (d < 16)%N ->
  (48 <= N_of_ascii (digit d) <= 57 \/ 97 <= N_of_ascii (digit d) <= 102)%N.
Proof. intros d Hd. unfold digit. destruct (N.ltb_spec d 10); rewrite N_ascii_embedding; lia. Qed.

Lemma digit_inj : forall a b, (a < 16)%N -> (b < 16)%N -> digit a = digit b -> a = b.
Proof.
  intros a b Ha Hb E. assert (digit_val 16 (digit a) = digit_val 16 (digit b)) as H by now rewrite E.
  rewrite !digit_val_digit in H by lia. congruence.
Qed.

Lemma parse_digits_app : forall base a b acc,
  parse_digits base acc (a ++ b) = match parse_digits base acc a with Some n => parse_digits base n b | None => None end.
Proof.
  intros base a; induction a as [|c a IH]; intros b acc; simpl; auto. destruct (digit_val base c); auto.
Qed.

Lemma rev_digits_parse : forall f n, (n < 2 ^ N.of_nat f)%N ->
  parse_digits 10 0 (rev (rev_digits f n)) = Some n.
Proof.
  induction f as [|f IH]; intros n Hn; [simpl in Hn; simpl; f_equal; lia|].
  cbn [rev_digits]. destruct (N.ltb_spec n 10).
  - cbn [rev app parse_digits]. rewrite digit_val_digit by lia. f_equal; lia.
  - cbn [rev]. rewrite parse_digits_app, IH.
    + cbn [parse_digits]. rewrite digit_val_digit by (pose proof (N.mod_lt n 10); lia). f_equal.
      rewrite (N.div_mod n 10) at 3 by lia. lia.
    + rewrite Nat2N.inj_succ, N.pow_succ_r' in Hn. apply N.div_lt_upper_bound; lia.
Qed.

Lemma log2_fuel : forall n, (n < 2 ^ N.of_nat (S (N.to_nat (N.log2 n))))%N.
Proof.
  intros n. rewrite Nat2N.inj_succ, N2Nat.id. destruct (N.eq_dec n 0) as [->|H]; [reflexivity|].
  apply N.log2_spec. lia.
Qed.

Lemma rev_digits_cons : forall f n, rev_digits (S f) n <> [].
Proof. intros f n. simpl. destruct (n <? 10)%N; discriminate. Qed.

Lemma print_dec_cons : forall n, print_dec n <> [].
Proof.
  intros n H. unfold print_dec in H. apply (rev_digits_cons (N.to_nat (N.log2 n)) n).
  rewrite <- (rev_involutive (rev_digits _ _)), H. reflexivity.
Qed.

Lemma parse_print_dec : forall bits n, (n < 2 ^ bits)%N -> parse_uint 10 bits (print_dec n) = Some n.
Proof.
  intros bits n H. unfold parse_uint. pose proof (print_dec_cons n).
  assert (parse_digits 10 0 (print_dec n) = Some n) as E by (apply rev_digits_parse, log2_fuel).
  destruct (print_dec n); [contradiction|]. rewrite E. apply N.ltb_lt in H. now rewrite H.
Qed.

Lemma print_dec_inj : forall a b, print_dec a = print_dec b -> a = b.
Proof.
  intros a b E. assert (forall n, parse_digits 10 0 (print_dec n) = Some n) as P by (intros; apply rev_digits_parse, log2_fuel).
  pose proof (P a) as H. rewrite E, P in H. congruence.
Qed.

Lemma rev_digits_chars : forall f n c, In c (rev_digits f n) -> exists d, (d < 10)%N /\ c = digit d.
Proof.
  induction f as [|f IH]; simpl; intros n c H; [tauto|]. destruct (N.ltb_spec n 10).
  - destruct H as [<-|[]]. eauto.
  - destruct H as [<-|H]; [|eauto]. exists (n mod 10)%N. split; auto. apply N.mod_lt. lia.
Qed.

Lemma print_dec_chars : forall n c, In c (print_dec n) -> exists d, (d < 10)%N /\ c = digit d.
Proof. intros n c H. unfold print_dec in H. apply in_rev in H. eapply rev_digits_chars; eauto. Qed.

Lemma digit_not : forall d k, (d < 16)%N -> (N_of_ascii k < 48 \/ 57 < N_of_ascii k < 97 \/ 102 < N_of_ascii k)%N -> digit d <> k.
Proof. intros d k Hd Hk E. pose proof (digit_code d Hd). rewrite E in *. lia. Qed.

Lemma print_dec_no_dot : forall n, ~ In dot (print_dec n).
Proof.
  intros n H. apply print_dec_chars in H as [d [Hd E]]. symmetry in E. revert E. apply digit_not; [lia|].
  unfold dot. vm_compute. auto.
Qed.

(** Value of a text of digits *)
Fixpoint digits_value (base : N) (ds : list N) (acc : N) : N :=
  match ds with [] => acc | d :: ds' => digits_value base ds' (acc * base + d) end.

Lemma parse_digits_iff : forall base s acc n,
  parse_digits base acc s = Some n <->
  exists ds, Forall2 (fun c d => digit_val base c = Some d) s ds /\ n = digits_value base ds acc.
Proof.
  intros base s; induction s as [|c s IH]; intros acc n; simpl; split.
  - intros [= <-]. exists []. auto.
  - intros [ds [H ->]]. inversion H. reflexivity.
  - destruct (digit_val base c) as [d|] eqn:E; [|discriminate]. intros H. apply IH in H as [ds [H1 H2]].
    exists (d :: ds). auto.
  - intros [ds [H ->]]. inversion H; subst. rewrite H2. apply IH. eauto.
Qed.
