(** Lemmas about the query log. *)
From Coq Require Import String Ascii List Arith Bool NArith ZArith Lia.
From Verif Require Import Str StrFacts Dns Resolver Num NumFacts ArpaSpec ArpaProofs QueryLog QueryLogSpec.
Import ListNotations.
Open Scope list_scope.

Lemma alphanumeric_iff c : alphanumeric c = true <-> letter_or_digit c.
Proof.
  unfold alphanumeric, letter_or_digit. cbn [N_of_ascii N_of_digits]. rewrite !orb_true_iff, !andb_true_iff, !N.leb_le. cbn. lia.
Qed.

Lemma star_plain : ~ letter_or_digit star.
Proof. unfold letter_or_digit, star. cbn. lia. Qed.

(** ** The channel *)
Lemma subsequence_refl {A} : forall l : list A, subsequence l l.
Proof. induction l; constructor; auto. Qed.
Lemma subsequence_app_keep {A} : forall (a b : list A) x, subsequence a b -> subsequence (a ++ [x]) (b ++ [x]).
Proof. intros a b x H. induction H; cbn; [repeat constructor|now constructor|now constructor]. Qed.
Lemma subsequence_app_drop {A} : forall (a b : list A) x, subsequence a b -> subsequence a (b ++ [x]).
Proof. intros a b x H. induction H; cbn; [repeat constructor|now constructor|now constructor]. Qed.

(** ** Decimal numbers of fixed width *)
Lemma rev_digits_length : forall f n w, (n < 10 ^ N.of_nat w)%N -> 1 <= w -> length (rev_digits f n) <= w.
Proof.
  induction f as [|f IH]; intros n w Hn Hw; cbn [rev_digits length]; [lia|].
  destruct (N.ltb_spec n 10) as [H|H]; [cbn; lia|]. cbn [length].
  destruct w as [|[|w]]; [lia|cbn in Hn; lia|]. apply le_n_S, IH; [|lia].
  apply N.div_lt_upper_bound; [lia|]. rewrite Nat2N.inj_succ, N.pow_succ_r' in Hn. exact Hn.
Qed.

Lemma print_dec_length n w : (n < 10 ^ N.of_nat w)%N -> 1 <= w -> length (print_dec n) <= w.
Proof. intros. unfold print_dec. rewrite rev_length. now apply rev_digits_length. Qed.

Lemma pad_dec_length n w : (n < 10 ^ N.of_nat w)%N -> 1 <= w -> length (pad_dec w n) = w.
Proof. intros Hn Hw. unfold pad_dec. rewrite app_length, repeat_length. pose proof (print_dec_length n w Hn Hw). lia. Qed.

Lemma parse_zeros : forall k, parse_digits 10 0 (repeat "0"%char k) = Some 0%N.
Proof. induction k as [|k IH]; [reflexivity|]. cbn [repeat parse_digits]. change (digit_val 10 "0") with (Some 0%N). exact IH. Qed.

Lemma parse_dec_any n : parse_digits 10 0 (print_dec n) = Some n.
Proof. apply rev_digits_parse, log2_fuel. Qed.

Lemma pad_dec_parse w n : parse_digits 10 0 (pad_dec w n) = Some n.
Proof. unfold pad_dec. rewrite parse_digits_app, parse_zeros. apply parse_dec_any. Qed.

Lemma pad_dec_chars w n c : In c (pad_dec w n) -> exists d, (d < 10)%N /\ c = digit d.
Proof.
  unfold pad_dec. rewrite in_app_iff. intros [H|H]; [|now apply print_dec_chars in H].
  apply repeat_spec in H. exists 0%N. split; [lia|now rewrite H].
Qed.

Lemma digit_alnum d : (d < 10)%N -> alphanumeric (digit d) = true.
Proof.
  intros H.
  assert (In d [0;1;2;3;4;5;6;7;8;9]%N) as Hi by (cbn; lia).
  cbn in Hi. repeat (destruct Hi as [<-|Hi]; [reflexivity|]). contradiction.
Qed.

Lemma pad_dec_file w n c : In c (pad_dec w n) -> file_char c = true.
Proof. intros H. apply pad_dec_chars in H as [d [Hd ->]]. unfold file_char. now rewrite digit_alnum. Qed.

Lemma format_date_file c x : In x (format_date c) -> file_char x = true.
Proof.
  unfold format_date. rewrite !in_app_iff. intros [H|[[<-|[]]|[H|[[<-|[]]|H]]]]; try reflexivity; eapply pad_dec_file; eauto.
Qed.

Lemma escape_from_file : forall s run x, In x (escape_from run s) -> file_char x = true.
Proof.
  induction s as [|c s IH]; intros run x H; cbn in H; [contradiction|].
  destruct (file_char c) eqn:E; [destruct H as [<-|H]; [exact E|eauto]|].
  destruct run; [eauto|]. destruct H as [<-|H]; [reflexivity|eauto].
Qed.

Lemma escape_from_id : forall s run, (forall c, In c s -> file_char c = true) -> escape_from run s = s.
Proof.
  induction s as [|c s IH]; intros run H; cbn; [auto|]. rewrite (H c) by now left. f_equal. apply IH. intros; apply H; now right.
Qed.

(** ** CSV *)
Lemma read_quoted : forall f fields cur s,
  read_csv Quoted fields cur (flat_map (fun c => if Ascii.eqb c quote then [quote; quote] else [c]) f ++ quote :: s) =
  read_csv QuoteSeen fields (rev f ++ cur) s.
Proof.
  induction f as [|c f IH]; intros fields cur s; [reflexivity|]. cbn [flat_map]. destruct (Ascii.eqb_spec c quote) as [->|Hc].
  - cbn [app]. change (read_csv Quoted fields cur (quote :: quote :: ?t)) with (read_csv Quoted fields (quote :: cur) t).
    etransitivity; [exact (IH fields (quote :: cur) s)|]. cbn [rev]. now rewrite <- app_assoc.
  - cbn [app read_csv]. change """"%char with quote. apply Ascii.eqb_neq in Hc as ->. rewrite IH. cbn [rev]. now rewrite <- app_assoc.
Qed.

Definition bare (f : str) : Prop := forall c, In c f -> c <> newline /\ c <> carriage /\ c <> quote /\ c <> tab.

Lemma read_plain : forall f mode fields cur s, bare f -> f <> [] -> mode = FieldStart \/ mode = Plain ->
  read_csv mode fields cur (f ++ s) = read_csv Plain fields (rev f ++ cur) s.
Proof.
  induction f as [|c f IH]; intros mode fields cur s Hb Hf Hm; [congruence|].
  destruct (Hb c (or_introl eq_refl)) as [H1 [H2 [H3 H4]]].
  assert (read_csv mode fields cur ((c :: f) ++ s) = read_csv Plain fields (c :: cur) (f ++ s)) as ->.
  { cbn [app read_csv]. change "009"%char with tab. change "010"%char with newline. change "013"%char with carriage. change """"%char with quote.
    apply Ascii.eqb_neq in H1, H2, H3, H4. rewrite H1, H2, H3, H4. destruct Hm as [-> | ->]; reflexivity. }
  destruct f as [|c' f]; [reflexivity|]. rewrite IH; [|intros x Hx; apply Hb; now right|discriminate|now right].
  cbn [rev]. now rewrite <- !app_assoc.
Qed.

Lemma not_quoted fsp f : needs_quotes fsp f = false -> bare f.
Proof.
  destruct f as [|c f]; [intros _ x []|]. unfold needs_quotes. rewrite !orb_false_iff. intros [[[[[_ H1] H2] H3] H4] _].
  apply contains_byte_not_In in H1, H2, H3, H4. intros x Hx. repeat split; intros ->; contradiction.
Qed.

(** a field, then a tab or a newline *)
Lemma read_field fsp f fields s c : c = tab \/ c = newline ->
  read_csv FieldStart fields [] (csv_field fsp f ++ c :: s) =
  if Ascii.eqb c tab then read_csv FieldStart (f :: fields) [] s else Some (rev (f :: fields), s).
Proof.
  intros Hc. unfold csv_field. destruct (needs_quotes fsp f) eqn:E.
  - cbn [app]. change (read_csv FieldStart fields [] (quote :: ?t)) with (read_csv Quoted fields [] t). rewrite <- app_assoc. cbn [app].
    rewrite read_quoted, app_nil_r. destruct Hc as [-> | ->]; cbn; rewrite rev_involutive; reflexivity.
  - apply not_quoted in E. destruct f as [|x f].
    + destruct Hc as [-> | ->]; reflexivity.
    + rewrite read_plain; auto; [|discriminate]. rewrite app_nil_r. destruct Hc as [-> | ->]; cbn; rewrite ?rev_app_distr, ?rev_involutive; reflexivity.
Qed.

Lemma read_fields fsp : forall fs fields s, fs <> [] ->
  read_csv FieldStart fields [] (join [tab] (map (csv_field fsp) fs) ++ newline :: s) = Some (rev fields ++ fs, s).
Proof.
  induction fs as [|f fs IH]; intros fields s H; [congruence|]. destruct fs as [|g fs].
  - cbn [map join]. rewrite read_field by now right. cbn. reflexivity.
  - cbn [map join]. rewrite <- !app_assoc. cbn [app]. rewrite read_field by now left. change (Ascii.eqb tab tab) with true. cbv iota.
    etransitivity; [exact (IH (f :: fields) s ltac:(discriminate))|]. cbn [rev]. now rewrite <- app_assoc.
Qed.

(** ** Dates *)
Lemma leap_iff y : ((y mod 4 =? 0) && (negb (y mod 100 =? 0) || (y mod 400 =? 0)))%N = true <-> leap y.
Proof.
  assert (forall k, k <> 0%N -> (y mod k =? 0)%N = true <-> exists x, y = (k * x)%N) as Hd.
  { intros k Hk. rewrite N.eqb_eq, N.mod_divide by exact Hk. split; intros [x Hx]; exists x; lia. }
  unfold leap. rewrite andb_true_iff, orb_true_iff, negb_true_iff, <- not_true_iff_false. rewrite !Hd by discriminate. reflexivity.
Qed.

Lemma days_in_iff y m l : (1 <= m <= 12)%N -> days_in m y = l <-> month_length y m l.
Proof.
  intros Hm. assert (In m [1;2;3;4;5;6;7;8;9;10;11;12]%N) as Hi by (cbn; lia).
  unfold month_length, days_in. pose proof (leap_iff y) as Hl.
  destruct (((y mod 4 =? 0) && (negb (y mod 100 =? 0) || (y mod 400 =? 0)))%N).
  - assert (leap y) as L by now apply Hl. cbn in Hi. cbn [In].
    repeat (destruct Hi as [<-|Hi]; [cbn; split; [intros <-; intuition lia|intros; intuition (try congruence; try lia)]|]). contradiction.
  - assert (~ leap y) as L by (rewrite <- Hl; discriminate). cbn in Hi. cbn [In].
    repeat (destruct Hi as [<-|Hi]; [cbn; split; [intros <-; intuition lia|intros; intuition (try congruence; try lia)]|]). contradiction.
Qed.

Lemma valid_date_iff y m d : valid_date y m d <-> (1 <= m <= 12 /\ 1 <= d <= days_in m y)%N.
Proof.
  split.
  - intros [l [Hl Hd]]. assert (1 <= m <= 12)%N as Hm by (unfold month_length in Hl; cbn [In] in Hl; lia).
    split; auto. apply days_in_iff in Hl; auto. now rewrite Hl.
  - intros [Hm Hd]. exists (days_in m y). split; auto. now apply days_in_iff.
Qed.

Lemma parse_date_of ys ms ds rest y m d :
  length ys = 4 -> length ms = 2 -> length ds = 2 -> parse_digits 10 0 ys = Some y -> parse_digits 10 0 ms = Some m ->
  parse_digits 10 0 ds = Some d -> valid_date y m d ->
  parse_date (firstn 10 (ys ++ "-"%char :: ms ++ "-"%char :: ds ++ rest)) = Some (y, m, d).
Proof.
  intros L1 L2 L3 Hy Hm Hd Hv. apply valid_date_iff in Hv as [Hv1 Hv2].
  destruct ys as [|y1 [|y2 [|y3 [|y4 [|? ?]]]]]; try discriminate. destruct ms as [|m1 [|m2 [|? ?]]]; try discriminate.
  destruct ds as [|d1 [|d2 [|? ?]]]; try discriminate. cbn [app firstn].
  unfold parse_date, date_digits. cbn [firstn skipn]. rewrite Hy, Hm, Hd. cbn [str_eqb lit].
  change (str_eqb ["-"%char] $"-") with true. cbn [andb].
  assert (((1 <=? m) && (m <=? 12) && (1 <=? d) && (d <=? days_in m y))%N = true) as ->; auto.
  rewrite !andb_true_iff, !N.leb_le. lia.
Qed.

Lemma parse_date_inv f y m d : 10 < length f -> parse_date (firstn 10 f) = Some (y, m, d) -> dated f y m d.
Proof.
  intros Hl H. do 10 (destruct f as [|? f]; [cbn in Hl; lia|]). cbn [firstn] in H. clear Hl.
  unfold parse_date, date_digits in H. cbn [firstn skipn] in H.
  destruct (parse_digits 10 0 [a; a0; a1; a2]) as [y'|] eqn:Ey; [|discriminate].
  destruct (parse_digits 10 0 [a4; a5]) as [m'|] eqn:Em; [|discriminate].
  destruct (parse_digits 10 0 [a7; a8]) as [d'|] eqn:Ed; [|discriminate].
  destruct (str_eqb [a3] $"-") eqn:E1; [|discriminate]. destruct (str_eqb [a6] $"-") eqn:E2; [|discriminate].
  destruct (((1 <=? m') && (m' <=? 12) && (1 <=? d') && (d' <=? days_in m' y'))%N) eqn:Ev; [|discriminate].
  cbn [andb] in H. injection H as -> -> ->. apply str_eqb_eq in E1, E2. injection E1 as ->. injection E2 as ->.
  apply parse_digits_text in Ey, Em, Ed; try discriminate.
  exists [a; a0; a1; a2], [a4; a5], [a7; a8], f. do 4 (split; [reflexivity|]). do 3 (split; [assumption|]).
  apply valid_date_iff. rewrite !andb_true_iff, !N.leb_le in Ev. lia.
Qed.

Lemma dated_parse f y m d : dated f y m d -> parse_date (firstn 10 f) = Some (y, m, d).
Proof.
  intros [ys [ms [ds [rest [-> [L1 [L2 [L3 [H1 [H2 [H3 Hv]]]]]]]]]]].
  apply parse_digits_text in H1, H2, H3; try (intros ->; discriminate); try lia. now apply parse_date_of.
Qed.
