(** Lemmas about reverse-lookup names. *)
From Coq Require Import String Ascii List Arith NArith Bool Lia.
From Verif Require Import Str StrFacts Num NumFacts Dns Arpa ArpaSpec.
Import ListNotations.

Lemma with_dots_join : forall ps, ps <> [] -> with_dots ps = join [dot] ps ++ [dot].
Proof.
  induction ps as [|p ps IH]; intros H; [contradiction|]. destruct ps as [|q ps]; [reflexivity|].
  cbn [with_dots] in *. rewrite IH by discriminate. cbn [join]. rewrite <- !app_assoc. reflexivity.
Qed.

Lemma split_join_dots : forall ps, ps <> [] -> Forall (fun p => ~ In dot p) ps -> split_byte dot (join [dot] ps) = ps.
Proof.
  induction ps as [|p ps IH]; intros H Hf; [contradiction|]. inversion Hf; subst.
  destruct ps as [|q ps]; [now apply split_byte_no|]. change (join [dot] (p :: q :: ps)) with (p ++ dot :: join [dot] (q :: ps)).
  rewrite split_byte_app. rewrite split_byte_no by assumption. rewrite IH; auto. discriminate.
Qed.

Lemma with_dots_inj : forall ps qs t, Forall (fun p => ~ In dot p) ps -> Forall (fun p => ~ In dot p) qs ->
  length ps = length qs -> with_dots ps ++ t = with_dots qs ++ t -> ps = qs.
Proof.
  intros ps qs t Hp Hq Hl E. apply app_inv_tail in E.
  destruct ps as [|p ps]; destruct qs as [|q qs]; try discriminate; auto.
  rewrite !with_dots_join in E by discriminate. apply app_inv_tail in E.
  rewrite <- (split_join_dots (p :: ps)), E, split_join_dots; auto; discriminate.
Qed.

Lemma strip_suffix : forall ps suf, ps <> [] -> Forall (fun p => ~ In dot p) ps ->
  split_byte dot (trim_suffix (with_dots ps ++ suf) (dot :: suf)) = ps.
Proof.
  intros ps suf H Hf. rewrite with_dots_join by assumption. rewrite <- app_assoc. cbn [app].
  rewrite trim_suffix_app. now apply split_join_dots.
Qed.

(** ** Numbers *)

Lemma digit_val_iff : forall base c d, (base <= 16)%N -> digit_val base c = Some d <-> is_digit base c d.
Proof.
  intros base c d Hb. unfold digit_val, is_digit.
  pose proof (N_ascii_bounded c) as Hc. set (n := N_of_ascii c) in *.
  destruct (N.leb_spec 48 n), (N.leb_spec n 57), (N.leb_spec 97 n), (N.leb_spec n 122), (N.leb_spec 65 n), (N.leb_spec n 90);
    cbn [andb]; try lia; split; try discriminate;
    try (match goal with |- context [(?a <? base)%N] => destruct (N.ltb_spec a base) end);
    try discriminate; try (intros E; injection E as <-; lia);
    intros [H6 H7]; try (exfalso; lia); f_equal; lia.
Qed.

Lemma parse_digits_snoc : forall base s c,
  parse_digits base 0 (s ++ [c]) =
  match parse_digits base 0 s, digit_val base c with Some n, Some d => Some (n * base + d)%N | _, _ => None end.
Proof. intros. rewrite parse_digits_app. destruct (parse_digits base 0 s); auto. Qed.

Lemma parse_digits_text : forall base s n, (base <= 16)%N -> s <> [] ->
  parse_digits base 0 s = Some n <-> number_text base s n.
Proof.
  intros base s n Hb. revert n. induction s as [|c s IH] using rev_ind; intros n Hs; [contradiction|].
  rewrite parse_digits_snoc. destruct s as [|x s].
  - cbn [parse_digits app]. split.
    + destruct (digit_val base c) as [d|] eqn:E; [|discriminate]. intros [= <-]. cbn.
      constructor. now apply digit_val_iff.
    + intros H. inversion H as [c' d Hd|s' n' c' d H1 Hd Hx]; subst.
      * apply digit_val_iff in Hd; auto. rewrite Hd. reflexivity.
      * exfalso. destruct s'; [inversion H1|destruct s'; discriminate].
        destruct s; discriminate.
  - split.
    + destruct (parse_digits base 0 (x :: s)) as [m|] eqn:E1; [|discriminate].
      destruct (digit_val base c) as [d|] eqn:E; [|discriminate]. intros [= <-].
      rewrite N.mul_comm. apply nt_more; [apply IH; auto; discriminate|now apply digit_val_iff].
    + intros H. inversion H as [c' d Hd Hx|s' n' c' d H1 Hd Hx]; subst; [destruct s; discriminate|].
      change (x :: s ++ [c]) with ((x :: s) ++ [c]) in Hx. apply app_inj_tail in Hx as [-> ->]. apply digit_val_iff in Hd; auto. apply IH in H1; [|discriminate].
      rewrite H1, Hd. f_equal. lia.
Qed.

Lemma number_text_nonempty : forall base s n, number_text base s n -> s <> [].
Proof. intros base s n H. destruct H; [discriminate|]. destruct s; discriminate. Qed.

Lemma parse_uint_iff : forall base bits s n, (base <= 16)%N ->
  parse_uint base bits s = Some n <-> number_text base s n /\ (n < 2 ^ bits)%N.
Proof.
  intros base bits s n Hb. unfold parse_uint. destruct s as [|c s].
  - split; [discriminate|]. intros [H _]. apply number_text_nonempty in H. contradiction.
  - destruct (parse_digits base 0 (c :: s)) as [m|] eqn:E.
    + apply parse_digits_text in E as E'; [|auto|discriminate]. destruct (N.ltb_spec m (2 ^ bits)).
      * split; [intros [= <-]; auto|]. intros [H1 H2]. apply parse_digits_text in H1; [|auto|discriminate]. congruence.
      * split; [discriminate|]. intros [H1 H2]. apply parse_digits_text in H1; [|auto|discriminate].
        assert (m = n) by congruence. lia.
    + split; [discriminate|]. intros [H1 H2]. apply parse_digits_text in H1; [|auto|discriminate]. congruence.
Qed.

Lemma number_text_no_dot : forall base s n, (base <= 16)%N -> number_text base s n -> ~ In dot s.
Proof.
  intros base s n Hb H. assert (forall c d, is_digit base c d -> c <> dot) as D.
  { intros c d [H1 H2] ->. change (N_of_ascii dot) with 46%N in H2. lia. }
  induction H; rewrite ?in_app_iff; simpl; intros Hi.
  - destruct Hi as [Hi|[]]. apply (D c d); auto.
  - destruct Hi as [Hi|[Hi|[]]]; [tauto|]. apply (D c d); auto.
Qed.

(** ** IPv4 *)

Lemma arpa_bytes_iff : forall ps b,
  arpa_bytes ps = Some b <-> Forall2 (fun p x => number_text 10 p x /\ (x < 256)%N) ps b.
Proof.
  induction ps as [|p ps IH]; intros b; simpl; split.
  - intros [= <-]. constructor.
  - intros H. inversion H. reflexivity.
  - destruct (parse_uint 10 8 p) as [x|] eqn:E; [|discriminate]. destruct (arpa_bytes ps) as [l|]; [|discriminate].
    intros [= <-]. apply parse_uint_iff in E; [|lia]. constructor; [exact E|now apply IH].
  - intros H. inversion H as [|p' x ps' l [H1 H1'] H2]; subst.
    assert (parse_uint 10 8 p = Some x) as -> by (apply parse_uint_iff; [lia|split; assumption]).
    apply IH in H2. now rewrite H2.
Qed.

Lemma Forall2_len {A B} (R : A -> B -> Prop) l l' : Forall2 R l l' -> length l = length l'.
Proof. induction 1; simpl; auto. Qed.

Lemma Forall2_rev {A B} (R : A -> B -> Prop) l l' : Forall2 R l l' -> Forall2 R (rev l) (rev l').
Proof. induction 1; simpl; [constructor|]. apply Forall2_app; auto. Qed.

Lemma Forall2_Forall_l {A B} (R : A -> B -> Prop) (P : A -> Prop) l l' :
  (forall a b, R a b -> P a) -> Forall2 R l l' -> Forall P l.
Proof. intros H F. induction F; constructor; eauto. Qed.

Lemma parse_ipv4_iff : forall s i, has_suffix s ipv4_ptr_suffix = true ->
  parse_ipv4_arpa s = Some i <-> exists b, i = IP4 b /\ arpa4 s b.
Proof.
  intros s i Hs. apply has_suffix_spec in Hs as [t ->]. unfold parse_ipv4_arpa. rewrite trim_suffix_app. split.
  - destruct (Nat.eqb_spec (length (split_byte dot t)) 4) as [Hl|]; [|discriminate].
    destruct (arpa_bytes (rev (split_byte dot t))) as [b|] eqn:E; [|discriminate]. intros [= <-].
    exists b. split; auto. apply arpa_bytes_iff in E. exists (split_byte dot t). split; [|split].
    + rewrite with_dots_join by apply split_byte_nonempty. rewrite join_split.
      rewrite <- app_assoc. reflexivity.
    + apply Forall2_len in E. rewrite rev_length in E. congruence.
    + rewrite <- (rev_involutive (split_byte dot t)). now apply Forall2_rev.
  - intros [b [-> [ps [E [Hl H]]]]].
    assert (length ps = 4) as Hp by (apply Forall2_len in H; rewrite rev_length in H; congruence).
    assert (ps <> []) as Hne by (intros ->; discriminate).
    assert (t = join [dot] ps) as ->.
    { rewrite with_dots_join in E by assumption. rewrite <- app_assoc in E. cbn [app] in E.
      change (dot :: $"in-addr.arpa.") with ipv4_ptr_suffix in E. now apply app_inv_tail in E. }
    rewrite split_join_dots; auto.
    + rewrite Hp. cbn [Nat.eqb]. assert (arpa_bytes (rev ps) = Some b) as ->; auto.
      apply arpa_bytes_iff. rewrite <- (rev_involutive b). now apply Forall2_rev.
    + eapply Forall2_Forall_l; [|exact H]. intros p x [Hx _]. eapply number_text_no_dot; [|exact Hx]. lia.
Qed.

(** ** IPv6 *)

(** What the code accepts: each of the numbers below 256 *)
Inductive loose_pairs : list str -> list N -> Prop :=
| lp_nil : loose_pairs [] []
| lp_cons lo hi ps l h bs : number_text 16 lo l -> number_text 16 hi h -> (l < 256 /\ h < 256)%N ->
    loose_pairs ps bs -> loose_pairs (hi :: lo :: ps) (N.modulo (N.lor (N.shiftl h 4) l) 256 :: bs).

Lemma arpa_nibbles_loose : forall n ps b, length ps = 2 * n ->
  arpa_nibbles ps = Some b <-> loose_pairs ps b.
Proof.
  induction n as [|n IH]; intros ps b Hl.
  - destruct ps; [|discriminate]. simpl. split; [intros [= <-]; constructor|intros H; inversion H; reflexivity].
  - destruct ps as [|hi [|lo ps]]; try (simpl in Hl; lia).
    cbn [arpa_nibbles]. assert (length ps = 2 * n) as Hl' by (simpl in Hl; lia). split.
    + destruct (parse_uint 16 8 hi) as [h|] eqn:E1; [|discriminate].
      destruct (parse_uint 16 8 lo) as [l|] eqn:E2; [|discriminate].
      destruct (arpa_nibbles ps) as [r|] eqn:E; [|discriminate]. intros [= <-].
      apply parse_uint_iff in E1 as [? ?]; [|lia]. apply parse_uint_iff in E2 as [? ?]; [|lia].
      constructor; auto. now apply IH.
    + intros H. inversion H as [|lo' hi' ps' l h bs H1 H2 [H3 H4] H5]; subst.
      assert (parse_uint 16 8 hi = Some h) as -> by (apply parse_uint_iff; [lia|split; assumption]).
      assert (parse_uint 16 8 lo = Some l) as -> by (apply parse_uint_iff; [lia|split; assumption]).
      apply IH in H5; auto. now rewrite H5.
Qed.

Lemma byte_of_nibbles : forall h l, (h < 16)%N -> (l < 16)%N -> N.modulo (N.lor (N.shiftl h 4) l) 256 = (16 * h + l)%N.
Proof.
  intros h l Hh Hl.
  assert (forallb (fun h => forallb (fun l => N.modulo (N.lor (N.shiftl h 4) l) 256 =? (16 * h + l))%N
            (map N.of_nat (seq 0 16))) (map N.of_nat (seq 0 16)) = true) as H by (vm_compute; reflexivity).
  rewrite forallb_forall in H. specialize (H h). rewrite forallb_forall in H.
  apply N.eqb_eq, H; apply in_map_iff; [exists (N.to_nat h)|exists (N.to_nat l)]; (split; [apply N2Nat.id|apply in_seq; lia]).
Qed.

Lemma loose_app : forall ps bs ps' bs', loose_pairs ps bs -> loose_pairs ps' bs' -> loose_pairs (ps ++ ps') (bs ++ bs').
Proof. induction 1; simpl; auto. intros. constructor; auto. Qed.

Lemma nibble_loose : forall ps bs, nibble_pairs ps bs -> loose_pairs (rev ps) (rev bs).
Proof.
  induction 1; cbn [rev]; [constructor|]. rewrite <- app_assoc. apply loose_app; [assumption|].
  cbn [app]. rewrite <- byte_of_nibbles by tauto. constructor; auto; [lia|constructor].
Qed.

Lemma nibble_app : forall ps bs ps' bs', nibble_pairs ps bs -> nibble_pairs ps' bs' -> nibble_pairs (ps ++ ps') (bs ++ bs').
Proof. induction 1; simpl; auto. intros. constructor; auto. Qed.

Lemma short_number : forall p n, number_text 16 p n -> length p <= 1 -> (n < 16)%N.
Proof.
  intros p n H Hl. destruct H as [c d [H _]|s n c d H1 [H _]]; [exact H|].
  apply number_text_nonempty in H1. destruct s; [contradiction|]. rewrite app_length in Hl. simpl in Hl. lia.
Qed.

Lemma loose_nibble : forall ps bs, loose_pairs ps bs -> Forall (fun p => length p <= 1) ps -> nibble_pairs (rev ps) (rev bs).
Proof.
  induction 1 as [|lo hi ps l h bs Hl Hh _ H IH]; intros F; cbn [rev]; [constructor|].
  inversion F as [|? ? Fh F']; subst. inversion F' as [|? ? Fl F'']; subst. rewrite <- app_assoc. cbn [app].
  apply short_number in Hl as Hl'; auto. apply short_number in Hh as Hh'; auto.
  apply nibble_app; auto. rewrite byte_of_nibbles by assumption. constructor; auto. constructor.
Qed.

Lemma nibble_length : forall ps bs, nibble_pairs ps bs -> length ps = 2 * length bs.
Proof. induction 1; simpl; lia. Qed.

Lemma loose_length : forall ps bs, loose_pairs ps bs -> length ps = 2 * length bs.
Proof. induction 1; simpl; lia. Qed.

Lemma nibble_no_dot : forall ps bs, nibble_pairs ps bs -> Forall (fun p => ~ In dot p) ps.
Proof.
  induction 1; constructor; [eapply number_text_no_dot; [|eassumption]; lia|].
  constructor; auto. eapply number_text_no_dot; [|eassumption]; lia.
Qed.

Lemma nibble_bytes : forall ps bs, nibble_pairs ps bs -> Forall (fun x => x < 256)%N bs.
Proof. induction 1; constructor; auto. lia. Qed.

Lemma parse_ipv6_ok : forall s b, arpa6 s b -> parse_ipv6_arpa s = Some (ip_of_16 b).
Proof.
  intros s b [ps [-> [Hl H]]]. unfold parse_ipv6_arpa. apply nibble_length in H as Hp. rewrite rev_length, Hl in Hp.
  assert (ps <> []) as Hne by (intros ->; discriminate).
  change ipv6_ptr_suffix with (dot :: $"ip6.arpa."). rewrite strip_suffix; [|auto|eapply nibble_no_dot; eauto].
  rewrite Hp. cbn [Nat.mul Nat.add Nat.eqb]. assert (arpa_nibbles (rev ps) = Some b) as ->; auto.
  apply (arpa_nibbles_loose 16); [rewrite rev_length; exact Hp|]. rewrite <- (rev_involutive b). now apply nibble_loose.
Qed.

Lemma parse_ipv6_short : forall s i, has_suffix s ipv6_ptr_suffix = true -> parse_ipv6_arpa s = Some i ->
  (forall p, In p (split_byte dot (trim_suffix s ipv6_ptr_suffix)) -> length p <= 1) ->
  exists b, i = ip_of_16 b /\ arpa6 s b.
Proof.
  intros s i Hs. apply has_suffix_spec in Hs as [t ->]. unfold parse_ipv6_arpa. rewrite trim_suffix_app.
  destruct (Nat.eqb_spec (length (split_byte dot t)) 32) as [Hl|]; [|discriminate].
  destruct (arpa_nibbles (rev (split_byte dot t))) as [b|] eqn:E; [|discriminate]. intros [= <-] Hf.
  exists b. split; auto. apply (arpa_nibbles_loose 16) in E; [|rewrite rev_length; exact Hl].
  exists (split_byte dot t). split; [|split].
  - rewrite with_dots_join by apply split_byte_nonempty. rewrite join_split. rewrite <- app_assoc. reflexivity.
  - apply loose_length in E. rewrite rev_length in E. lia.
  - rewrite <- (rev_involutive (split_byte dot t)). apply loose_nibble; auto.
    apply Forall_forall. intros p Hp. apply Hf. now apply in_rev.
Qed.

(** ** Printing *)

Lemma is_digit_digit : forall base d, (base <= 16)%N -> (d < base)%N -> is_digit base (digit d) d.
Proof. intros base d Hb Hd. apply digit_val_iff; auto. apply digit_val_digit; lia. Qed.

Lemma print_dec_text : forall n, (n < 256)%N -> number_text 10 (print_dec n) n.
Proof.
  intros n H. pose proof (parse_print_dec 8 n H) as E. apply parse_uint_iff in E; [|lia]. apply E.
Qed.

Lemma flat_map_with_dots : forall b, flat_map (fun x => print_dec x ++ [dot]) b = with_dots (map print_dec b).
Proof. induction b as [|x b IH]; simpl; auto. rewrite IH, <- app_assoc. reflexivity. Qed.

Lemma reverse4_arpa : forall b, valid_ip (IP4 b) -> arpa4 (reverse_addr (IP4 b)) b.
Proof.
  intros b [Hl Hb]. exists (map print_dec (rev b)). split; [|split; [exact Hl|]].
  - cbn [reverse_addr]. now rewrite flat_map_with_dots.
  - apply Forall_rev in Hb. clear Hl. induction Hb as [|x l Hx _ IH]; cbn [map]; constructor; auto. split; auto. now apply print_dec_text.
Qed.

Lemma nibbles_of_bytes : forall b, Forall (fun x => x < 256)%N b ->
  exists ps, flat_map (fun x => [digit (x mod 16); dot; digit (x / 16); dot]) b = with_dots ps /\ nibble_pairs ps b.
Proof.
  induction 1 as [|x l Hx _ [ps [E IH]]]; [exists []; split; [reflexivity|constructor]|].
  exists ([digit (x mod 16)] :: [digit (x / 16)] :: ps). split.
  - cbn [flat_map with_dots]. rewrite E. reflexivity.
  - assert (x mod 16 < 16)%N by (apply N.mod_lt; lia). assert (x / 16 < 16)%N by (apply N.div_lt_upper_bound; lia).
    assert (x = 16 * (x / 16) + x mod 16)%N as Ex by (apply N.div_mod; lia).
    rewrite Ex at 3. apply np_cons; auto; apply nt_one; apply is_digit_digit; auto; lia.
Qed.

Lemma reverse6_arpa : forall b, valid_ip (IP6 b) -> arpa6 (reverse_addr (IP6 b)) b.
Proof.
  intros b [Hl [Hb _]]. destruct (nibbles_of_bytes (rev b)) as [ps [E H]]; [now apply Forall_rev|].
  exists ps. split; [|split; assumption]. cbn [reverse_addr]. now rewrite E.
Qed.

Lemma ip_of_16_valid : forall b, valid_ip (IP6 b) -> ip_of_16 b = IP6 b.
Proof.
  intros b [Hl [_ Hm]]. unfold ip_of_16, byte_list_eqb. destruct list_eq_dec as [E|]; auto.
  exfalso. apply Hm. exists (skipn 12 b). rewrite <- E. symmetry. apply firstn_skipn.
Qed.

Lemma suffix4_of : forall s b, arpa4 s b -> has_suffix s ipv4_ptr_suffix = true.
Proof.
  intros s b [ps [-> [Hl H]]]. apply has_suffix_spec.
  assert (ps <> []). { intros ->. apply Forall2_len in H. rewrite rev_length in H. simpl in H. lia. }
  exists (join [dot] ps). rewrite with_dots_join by assumption. rewrite <- app_assoc. reflexivity.
Qed.

Lemma suffix6_of : forall s b, arpa6 s b -> has_suffix s ipv6_ptr_suffix = true /\ has_suffix s ipv4_ptr_suffix = false.
Proof.
  intros s b [ps [-> [Hl H]]]. apply nibble_length in H as Hp. rewrite rev_length in Hp.
  assert (ps <> []) by (intros ->; simpl in Hp; lia). rewrite with_dots_join by assumption. rewrite <- app_assoc. split.
  - apply has_suffix_spec. exists (join [dot] ps). reflexivity.
  - unfold has_suffix. rewrite rev_app_distr. cbv. reflexivity.
Qed.

Lemma reverse_addr_inj : forall i j, valid_ip i -> valid_ip j -> reverse_addr i = reverse_addr j -> i = j.
Proof.
  assert (forall i, valid_ip i -> parse_arpa (reverse_addr i) = Some i) as H.
  { intros [b|b] Hv; unfold parse_arpa.
    - pose proof (reverse4_arpa b Hv) as Ha. rewrite (suffix4_of _ _ Ha). apply parse_ipv4_iff; eauto using suffix4_of.
    - pose proof (reverse6_arpa b Hv) as Ha. destruct (suffix6_of _ _ Ha) as [-> ->].
      rewrite (parse_ipv6_ok _ _ Ha). f_equal. now apply ip_of_16_valid. }
  intros i j Hi Hj E. pose proof (H i Hi) as H1. rewrite E, H in H1 by assumption. congruence.
Qed.
