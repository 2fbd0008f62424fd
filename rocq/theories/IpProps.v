(** Theorems about the text of addresses. *)
From Coq Require Import String Ascii List Arith NArith Bool Lia ZifyBool ZifyNat ZifyN.
From Verif Require Import Str StrFacts Num NumFacts Dns ArpaSpec Arpa ArpaProofs Ip IpSpec IpProofs ClientNames ClientNamesSpec ClientNamesProps.
Import ListNotations.
Open Scope list_scope.

(** ** The characters *)
Definition ip_char (c : ascii) : Prop := is_hex c \/ c = colon \/ c = dot.

Lemma hex_ip_char s : Forall is_hex s -> Forall ip_char s.
Proof. apply Forall_impl. intros c H. now left. Qed.

Lemma ipv4_chars s b : ipv4_text s b -> Forall ip_char s.
Proof.
  intros H. inversion H as [p q r u a b1 c d Hp Hq Hr Hu E1 E2]; subst.
  assert (Forall ip_char ($".")) as Hd by (constructor; [now right; right|constructor]).
  assert (forall x y, Forall ip_char x -> Forall ip_char y -> Forall ip_char (x ++ y)) as Happ
    by (intros x y Hx Hy; apply Forall_app; split; assumption).
  assert (forall o n, octet o n -> Forall ip_char o) as Ho by (intros o n Hn; apply hex_ip_char; eapply octet_hex; exact Hn).
  apply Happ; [eapply Ho; eassumption|]. apply Happ; [exact Hd|]. apply Happ; [eapply Ho; eassumption|]. apply Happ; [exact Hd|].
  apply Happ; [eapply Ho; eassumption|]. apply Happ; [exact Hd|]. eapply Ho; eassumption.
Qed.

Lemma tail_chars s b : tail_groups s b -> Forall ip_char s.
Proof.
  induction 1 as [s b H|s b H|s b t c H _ IH].
  - apply hex_ip_char. eapply group_hex; exact H.
  - eapply ipv4_chars; exact H.
  - apply Forall_app. split; [apply hex_ip_char; eapply group_hex; exact H|]. constructor; [now right; left|exact IH].
Qed.

Lemma hex_tail s b : hex_groups s b -> tail_groups s b.
Proof. induction 1; [now apply tg_one|now apply tg_more]. Qed.

Lemma ipv6_chars s b : ipv6_text s b -> Forall ip_char s.
Proof.
  intros H. inversion H as [? ? Ht _ E1 E2|l lb z r rb Hl Hr Hz Hn E1 E2]; subst; [eapply tail_chars; exact Ht|].
  apply Forall_app. split; [|apply Forall_app; split].
  - destruct Hl as [[-> _]|Hl]; [constructor|eapply tail_chars; apply hex_tail; exact Hl].
  - constructor; [now right; left|]. constructor; [now right; left|constructor].
  - destruct Hr as [[-> _]|Hr]; [constructor|eapply tail_chars; exact Hr].
Qed.

Lemma no_percent s : Forall ip_char s -> contains_byte "%" s = false.
Proof.
  intros H. apply contains_byte_not_In. intros Hp. rewrite Forall_forall in H. destruct (H _ Hp) as [X|[X|X]]; [|discriminate|discriminate].
  apply X. reflexivity.
Qed.

Lemma addr_kind_hex p rest : Forall is_hex p -> addr_kind (p ++ rest) = addr_kind rest.
Proof.
  induction 1 as [|c p Hc _ IH]; [reflexivity|]. cbn [app addr_kind].
  destruct (Ascii.eqb_spec c dot) as [->|_]; [exfalso; apply Hc; reflexivity|].
  destruct (Ascii.eqb_spec c colon) as [->|_]; [exfalso; apply Hc; reflexivity|].
  destruct (Ascii.eqb_spec c "%") as [->|_]; [exfalso; apply Hc; reflexivity|exact IH].
Qed.

Lemma ipv4_kind s b : ipv4_text s b -> addr_kind s = Some true.
Proof. intros H. destruct (ipv4_split _ _ H) as [p [rest [-> [Hh _]]]]. now rewrite addr_kind_hex. Qed.

Lemma hex_groups_kind l lb rest : hex_groups l lb -> addr_kind (l ++ colon :: rest) = Some false.
Proof.
  intros H. inversion H as [? ? Hg E1 E2|s ? t ? Hg _ E1 E2]; subst.
  - rewrite addr_kind_hex by (eapply group_hex; exact Hg). reflexivity.
  - rewrite <- app_assoc. rewrite addr_kind_hex by (eapply group_hex; exact Hg). reflexivity.
Qed.

Lemma ipv6_kind s b : ipv6_text s b -> addr_kind s = Some false.
Proof.
  intros H. inversion H as [? ? Ht Hl E1 E2|l lb z r rb Hl Hr Hz Hn E1 E2]; subst.
  - inversion Ht as [? ? Hg E1 E2|? ? H4 E1 E2|s' ? t ? Hg _ E1 E2]; subst.
    + rewrite (group_length _ _ Hg) in Hl. discriminate.
    + inversion H4; subst. discriminate.
    + rewrite addr_kind_hex by (eapply group_hex; exact Hg). reflexivity.
  - destruct Hl as [[-> _]|Hl]; [reflexivity|]. apply (hex_groups_kind l lb (colon :: r) Hl).
Qed.

(** ** IPv6 *)
Lemma finish_sound s ell b : (ell = None \/ ell = Some 0) -> s <> [] -> v6_finish (v6_loop 8 s [] ell) = Some b ->
  (ell = None /\ tail_groups s b /\ length b = 16) \/
  (ell = Some 0 /\ exists rb z, tail_groups s rb /\ 0 < z /\ z + length rb = 16 /\ b = repeat 0%N z ++ rb) \/
  (ell = None /\ exists l lb z r rb, s = l ++ $"::" ++ r /\ hex_groups l lb /\ tail_or_nil r rb /\ 0 < z /\
     length lb + z + length rb = 16 /\ b = lb ++ repeat 0%N z ++ rb).
Proof.
  intros He Hs H. destruct (v6_loop 8 s [] ell) as [[[b' ell'] rest]|] eqn:E; [|discriminate]. cbn [v6_finish] in H.
  destruct rest; [|discriminate]. destruct (v6_loop_sound _ _ _ _ _ _ Hs E eq_refl) as [c [Eb [Hl Hc]]]. cbn [app] in Eb. subst c.
  cbn [length] in Hc. destruct (Nat.ltb_spec (length b') 16) as [Hlt|Hge].
  - destruct ell' as [e|]; [|discriminate]. injection H as <-. destruct Hc as [[Ht <-]|[-> [l [lb [r [rb [-> [Hlb [Hrb [-> [= ->]]]]]]]]]]].
    + destruct He as [He|[= ->]]; [discriminate|]. right. left. split; [reflexivity|]. exists b', (16 - length b'). cbn [firstn skipn app].
      repeat split; auto; lia.
    + right. right. split; [reflexivity|]. rewrite app_length in Hlt. cbn [plus]. exists l, lb, (16 - length (lb ++ rb)), r, rb. rewrite app_length.
      rewrite firstn_app, Nat.sub_diag, firstn_all, firstn_O, app_nil_r. rewrite skipn_app, Nat.sub_diag, skipn_all, skipn_O. cbn [app].
      repeat split; auto; lia.
  - destruct ell' as [e|]; [discriminate|]. injection H as <-. left. destruct Hc as [[Ht <-]|[_ [l [lb [r [rb [_ [_ [_ [_ X]]]]]]]]]]; [|discriminate].
    split; [reflexivity|]. split; [exact Ht|lia].
Qed.

Lemma parse_v6_unfold s : contains_byte "%" s = false -> (forall t, s <> colon :: colon :: t) -> parse_v6 s = v6_finish (v6_loop 8 s [] None).
Proof.
  intros Hp Hs. unfold parse_v6. rewrite Hp. destruct s as [|c1 [|c2 t]]; try reflexivity.
  destruct (Ascii.eqb_spec c1 colon) as [->|]; [|reflexivity]. destruct (Ascii.eqb_spec c2 colon) as [->|]; [|reflexivity].
  exfalso. apply (Hs t). reflexivity.
Qed.

Lemma parse_v6_iff s b : parse_v6 s = Some b <-> ipv6_text s b.
Proof.
  split.
  - intros H. destruct (contains_byte "%" s) eqn:Ep; [unfold parse_v6 in H; rewrite Ep in H; discriminate|].
    assert ((exists t, s = colon :: colon :: t) \/ forall t, s <> colon :: colon :: t) as [[t ->]|Hs].
    { destruct s as [|c1 [|c2 t]]; [right; discriminate|right; discriminate|].
      destruct (ascii_dec c1 colon) as [->|H1]; [|right; intros u [= E _]; congruence].
      destruct (ascii_dec c2 colon) as [->|H2]; [left; now exists t|right; intros u [= E _]; congruence]. }
    + unfold parse_v6 in H. rewrite Ep, !Ascii.eqb_refl in H. cbn [andb] in H. destruct t as [|c t].
      * injection H as <-. exact (ipv6_short [] [] 16 [] [] (or_introl (conj eq_refl eq_refl)) (or_introl (conj eq_refl eq_refl)) ltac:(lia) eq_refl).
      * apply finish_sound in H; [|now right|discriminate]. destruct H as [[X _]|[[_ [rb [z [Ht [Hz [Hl ->]]]]]]|[X _]]]; [discriminate| |discriminate].
        apply (ipv6_short [] [] z (c :: t) rb); [now left|now right|exact Hz|cbn [length]; lia].
    + rewrite parse_v6_unfold in H by assumption. destruct s as [|c s]; [discriminate|].
      apply finish_sound in H; [|now left|discriminate]. destruct H as [[_ [Ht Hl]]|[[X _]|[_ [l [lb [z [r [rb [-> [Hlb [Hrb [Hz [Hl ->]]]]]]]]]]]]]; [|discriminate|].
      * now apply ipv6_full.
      * apply ipv6_short; auto.
  - intros H. pose proof (no_percent _ (ipv6_chars _ _ H)) as Hp. inversion H as [? ? Ht Hl E1 E2|l lb z r rb Hl Hr Hz Hn E1 E2]; subst.
    + rewrite parse_v6_unfold; [|exact Hp|intros t ->; destruct (tail_head _ _ Ht) as [x [u [[= <- _] Hx]]]; congruence].
      rewrite (v6_tail s b Ht); [|reflexivity|cbn [length plus]; lia|auto]. cbn [v6_finish app]. replace (length b <? 16) with false by lia. reflexivity.
    + destruct Hl as [[-> ->]|Hl].
      * cbn [app length] in *. unfold parse_v6. change ($"::" ++ r) with (colon :: colon :: r) in *. rewrite Hp, !Ascii.eqb_refl. cbn [andb].
        destruct Hr as [[-> ->]|Hr]; [cbn [length] in Hn; replace z with 16 by lia; now rewrite app_nil_r|].
        destruct (tail_head _ _ Hr) as [x [u [E _]]]. rewrite E at 1. rewrite (v6_tail r rb Hr); [|reflexivity|cbn [length]; lia|discriminate].
        cbn [v6_finish app]. replace (length rb <? 16) with true by lia. cbn [firstn skipn app]. now replace (16 - length rb) with z by lia.
      * rewrite parse_v6_unfold; [|exact Hp|].
        2:{ intros t E. pose proof (hex_tail _ _ Hl) as Ht. destruct (tail_head _ _ Ht) as [x [u [-> Hx]]]. injection E as -> _. congruence. }
        rewrite (v6_left l lb Hl); [|reflexivity|cbn [length]; lia]. cbn [app length plus].
        destruct (hex_groups_length _ _ Hl) as [k Hk].
        assert (length (lb ++ rb) < 16) as Hlt by (rewrite app_length; lia).
        assert (v6_finish (Some (lb ++ rb, Some (length lb), [])) = Some (lb ++ repeat 0%N z ++ rb)) as Hfin.
        { cbn [v6_finish]. replace (length (lb ++ rb) <? 16) with true by lia.
          rewrite firstn_app, Nat.sub_diag, firstn_all, firstn_O, app_nil_r. rewrite skipn_app, Nat.sub_diag, skipn_all, skipn_O. cbn [app].
          rewrite app_length. now replace (16 - (length lb + length rb)) with z by lia. }
        destruct Hr as [[-> ->]|Hr]; [rewrite (app_nil_r lb) in Hfin; exact Hfin|].
        assert (forall A (p q : A), match r with [] => p | _ :: _ => q end = q) as Hm
          by (destruct (tail_head _ _ Hr) as [x [u [E _]]]; rewrite E; reflexivity).
        rewrite Hm. rewrite (v6_tail r rb Hr); [exact Hfin| |rewrite app_length in Hlt; lia|discriminate].
        rewrite Hk. replace (2 * S k) with (S k * 2) by lia. rewrite Nat.div_mul by lia. lia.
Qed.

(** ** Bytes *)
Lemma parse_digits_upper : forall s acc n, parse_digits 16 acc s = Some n -> (n < (acc + 1) * 16 ^ N.of_nat (length s))%N.
Proof.
  induction s as [|c s IH]; intros acc n; cbn [parse_digits length].
  - intros [= <-]. cbn. lia.
  - destruct (digit_val 16 c) as [d|] eqn:Ed; [|discriminate]. intros H. apply IH in H.
    apply digit_val_iff in Ed; [|lia]. destruct Ed as [Hd _]. rewrite Nat2N.inj_succ, N.pow_succ_r by lia.
    set (p := (16 ^ N.of_nat (length s))%N) in *. nia.
Qed.

Definition bytes (b : list N) : Prop := Forall (fun x => x < 256)%N b.

Lemma group_bytes s b : group s b -> bytes b.
Proof.
  intros H. apply group_iff in H as [_ [Hl [n [H ->]]]]. apply parse_digits_upper in H.
  assert (16 ^ N.of_nat (length s) <= 16 ^ 4)%N as Hp by (apply N.pow_le_mono_r; lia). cbn in Hp.
  constructor; [apply N.div_lt_upper_bound; lia|]. constructor; [apply N.mod_lt; lia|constructor].
Qed.
Lemma octet_bytes p x : octet p x -> (x < 256)%N.
Proof. intros H. inversion H; subst; [lia|assumption]. Qed.
Lemma ipv4_bytes s b : ipv4_text s b -> bytes b.
Proof. intros H. inversion H; subst. repeat constructor; eapply octet_bytes; eassumption. Qed.
Lemma tail_bytes s b : tail_groups s b -> bytes b.
Proof.
  induction 1 as [s b H|s b H|s b t c H _ IH]; [eapply group_bytes; exact H|eapply ipv4_bytes; exact H|].
  apply Forall_app. split; [eapply group_bytes; exact H|exact IH].
Qed.
Lemma repeat_bytes z : bytes (repeat 0%N z).
Proof. induction z as [|z IH]; cbn [repeat]; constructor; [lia|exact IH]. Qed.
Lemma ipv6_bytes s b : ipv6_text s b -> length b = 16 /\ bytes b.
Proof.
  intros H. inversion H as [? ? Ht Hl E1 E2|l lb z r rb Hl Hr Hz Hn E1 E2]; subst; [split; [exact Hl|eapply tail_bytes; exact Ht]|].
  rewrite !app_length, repeat_length. split; [lia|]. apply Forall_app. split; [|apply Forall_app; split; [apply repeat_bytes|]].
  - destruct Hl as [[_ ->]|Hl]; [constructor|eapply tail_bytes, hex_tail; exact Hl].
  - destruct Hr as [[_ ->]|Hr]; [constructor|eapply tail_bytes; exact Hr].
Qed.

(** ** C101: reading *)

(** An address is read from a text exactly if the text is one of the forms of RFC 4291 for it: four
    decimal numbers, or eight groups, or fewer with one ellipsis, the last two possibly in decimal. *)
Theorem C101_read : forall s i, go_parse_ip s = Some i <-> ip_text s i.
Proof.
  intros s i. unfold go_parse_ip. split.
  - destruct (addr_kind s) as [[|]|] eqn:Ek; [| |discriminate].
    + destruct (parse_v4 s) as [b|] eqn:E; [|discriminate]. intros [= <-]. apply it_v4, parse_v4_iff, E.
    + destruct (parse_v6 s) as [b|] eqn:E; [|discriminate]. intros [= <-]. apply parse_v6_iff in E.
      destruct (ipv6_bytes _ _ E) as [Hl Hb]. unfold ip_of_16, byte_list_eqb.
      destruct (list_eq_dec N.eq_dec (firstn 12 b) [0;0;0;0;0;0;0;0;0;0;255;255]%N) as [Hm|Hm].
      * apply it_mapped. rewrite <- Hm, firstn_skipn. exact E.
      * apply it_v6; [exact E|]. split; [exact Hl|]. split; [exact Hb|]. intros [t ->]. apply Hm. reflexivity.
  - intros H. destruct H as [s b H|s b H Hv|s b H].
    + rewrite (ipv4_kind _ _ H). apply parse_v4_iff in H. now rewrite H.
    + rewrite (ipv6_kind _ _ H). apply parse_v6_iff in H. rewrite H. f_equal. apply ip_of_16_valid, Hv.
    + rewrite (ipv6_kind _ _ H). apply parse_v6_iff in H. rewrite H. reflexivity.
Qed.
Print Assumptions C101_read.

(** What is read is a valid address. *)
Theorem C101_valid : forall s i, go_parse_ip s = Some i -> valid_ip i.
Proof.
  intros s i H. apply C101_read in H. destruct H as [s b H|s b H Hv|s b H]; [|exact Hv|].
  - split; [inversion H; reflexivity|exact (ipv4_bytes _ _ H)].
  - apply ipv6_bytes in H as [Hl Hb]. rewrite app_length in Hl. cbn [length] in Hl. split; [lia|].
    unfold bytes in Hb. rewrite Forall_app in Hb. apply Hb.
Qed.
Print Assumptions C101_valid.

(** ** C101: writing *)
Lemma octet_printed x : (x < 256)%N -> octet (print_dec x) x.
Proof.
  intros Hx. apply octet_iff; [apply print_dec_cons|].
  assert (forallb (fun n => match octet_go (print_dec (N.of_nat n)) 0 0 with Some y => (y =? N.of_nat n)%N | None => false end) (seq 0 256) = true) as Hall
    by (vm_compute; reflexivity).
  rewrite forallb_forall in Hall. specialize (Hall (N.to_nat x)). rewrite N2Nat.id in Hall.
  destruct (octet_go (print_dec x) 0 0) as [y|]; [|exfalso; discriminate Hall; apply in_seq; lia].
  f_equal. apply N.eqb_eq, Hall, in_seq. lia.
Qed.

Lemma group_printed g : (g < 65536)%N -> group (print_hex g) [g / 256; g mod 256]%N.
Proof.
  intros Hg. apply group_iff. unfold print_hex.
  assert (forall d, (d < 16)%N -> digit_val 16 (digit d) = Some d) as Hd by (intros d H; apply digit_val_digit; lia).
  assert (g mod 16 < 16)%N by (apply N.mod_lt; lia). assert (g / 16 mod 16 < 16)%N by (apply N.mod_lt; lia).
  assert (g / 256 mod 16 < 16)%N by (apply N.mod_lt; lia).
  pose proof (N.div_mod g 16 ltac:(lia)) as D1. pose proof (N.div_mod (g / 16) 16 ltac:(lia)) as D2.
  assert (g / 256 = g / 16 / 16)%N as E2 by (rewrite N.div_div; lia).
  pose proof (N.div_mod (g / 256) 16 ltac:(lia)) as D3. assert (g / 4096 = g / 256 / 16)%N as E3 by (rewrite N.div_div; lia).
  destruct (g <? 16)%N eqn:E1; [|destruct (g <? 256)%N eqn:E4; [|destruct (g <? 4096)%N eqn:E5]];
    (split; [discriminate|]); (split; [cbn [length]; lia|]); exists g; (split; [|reflexivity]); cbn [parse_digits];
    rewrite !Hd by (first [assumption|apply N.div_lt_upper_bound; lia|lia]); f_equal; lia.
Qed.

Definition group_bytes_of (g : N) : list N := [g / 256; g mod 256]%N.

Lemma join_groups gs : gs <> [] -> Forall (fun g => g < 65536)%N gs ->
  hex_groups (join [colon] (map print_hex gs)) (flat_map group_bytes_of gs).
Proof.
  intros Hn H. induction H as [|g gs Hg H IH]; [congruence|]. destruct gs as [|g' gs].
  - cbn. apply hg_one, group_printed, Hg.
  - change (join [colon] (map print_hex (g :: g' :: gs))) with (print_hex g ++ $":" ++ join [colon] (map print_hex (g' :: gs))).
    cbn [flat_map]. apply hg_more; [apply group_printed, Hg|]. apply IH. discriminate.
Qed.

Lemma bytes_groups : forall n b, length b = 2 * n -> bytes b ->
  flat_map group_bytes_of (groups_of b) = b /\ Forall (fun g => g < 65536)%N (groups_of b) /\ length (groups_of b) = n.
Proof.
  induction n as [|n IH]; intros b Hl Hb.
  - destruct b; [|discriminate]. repeat split. constructor.
  - destruct b as [|x [|y b]]; [discriminate|cbn in Hl; lia|]. cbn [groups_of flat_map length].
    inversion Hb as [|? ? Hx Hb1]; subst. inversion Hb1 as [|? ? Hy Hb2]; subst.
    destruct (IH b) as [E [F L]]; [cbn [length] in Hl; lia|exact Hb2|]. rewrite E, L. split; [|split; [|reflexivity]].
    + assert ((x * 256 + y) / 256 = x /\ (x * 256 + y) mod 256 = y)%N as [E1 E2].
      { split; [rewrite N.div_add_l by lia; rewrite (N.div_small y) by lia; lia|].
        rewrite N.add_comm, N.mod_add by lia. apply N.mod_small. lia. }
      unfold group_bytes_of. now rewrite E1, E2.
    + constructor; [lia|exact F].
Qed.

Lemma zeros_spec gs : gs = repeat 0%N (zeros gs) ++ skipn (zeros gs) gs.
Proof.
  induction gs as [|g gs IH]; [reflexivity|]. destruct g as [|p]; [|reflexivity]. cbn [zeros repeat skipn app]. now f_equal.
Qed.

Definition good_run (all : list N) (r : nat * nat) : Prop :=
  snd r = 0 \/ (2 <= snd r /\ all = firstn (fst r) all ++ repeat 0%N (snd r) ++ skipn (fst r + snd r) all).

Lemma zero_run_good : forall gs pre best, good_run (pre ++ gs) best -> good_run (pre ++ gs) (zero_run (length pre) gs best).
Proof.
  induction gs as [|g gs IH]; intros pre best Hb; cbn [zero_run]; [exact Hb|].
  replace (S (length pre)) with (length (pre ++ [g])) by (rewrite app_length; cbn; lia).
  replace (pre ++ g :: gs) with ((pre ++ [g]) ++ gs) in * by (rewrite <- app_assoc; reflexivity). apply IH.
  destruct ((2 <=? zeros (g :: gs)) && (snd best <? zeros (g :: gs))) eqn:E; [|exact Hb].
  right. cbn [fst snd]. split; [lia|]. rewrite <- app_assoc. cbn [app].
  rewrite firstn_app, Nat.sub_diag, firstn_all, firstn_O, app_nil_r.
  rewrite skipn_app, skipn_all2 by lia. replace (length pre + zeros (g :: gs) - length pre) with (zeros (g :: gs)) by lia.
  cbn [app]. f_equal. apply zeros_spec.
Qed.

Lemma flat_map_zeros l : flat_map group_bytes_of (repeat 0%N l) = repeat 0%N (2 * l).
Proof.
  induction l as [|l IH]; [reflexivity|]. cbn [repeat flat_map]. rewrite IH. replace (2 * S l) with (S (S (2 * l))) by lia. reflexivity.
Qed.

Lemma print_v6_text b : length b = 16 -> bytes b -> ipv6_text (print_v6 b) b.
Proof.
  intros Hl Hb. destruct (bytes_groups 8 b Hl Hb) as [E [F L]]. unfold print_v6.
  pose proof (zero_run_good (groups_of b) [] (0, 0) (or_introl eq_refl)) as Hg. cbn [app length] in Hg.
  destruct (zero_run 0 (groups_of b) (0, 0)) as [z l]. unfold good_run in Hg. cbn [fst snd] in Hg.
  set (gs := groups_of b) in *. destruct (Nat.eqb_spec l 0) as [->|Hl0].
  - apply ipv6_full; [|exact Hl]. apply hex_tail.
    assert (gs <> []) as Hn by (intros X; rewrite X in L; discriminate).
    pose proof (join_groups gs Hn F) as J. rewrite E in J. exact J.
  - destruct Hg as [|[H2 Hs]]; [congruence|]. set (a := firstn z gs) in *. set (c := skipn (z + l) gs) in *.
    assert (Forall (fun g => g < 65536)%N a /\ Forall (fun g => g < 65536)%N c) as [Fa Fc].
    { rewrite Hs in F. rewrite !Forall_app in F. tauto. }
    assert (b = flat_map group_bytes_of a ++ repeat 0%N (2 * l) ++ flat_map group_bytes_of c) as Eb.
    { rewrite <- E, Hs at 1. now rewrite !flat_map_app, flat_map_zeros. }
    assert (ipv6_text (join [colon] (map print_hex a) ++ $"::" ++ join [colon] (map print_hex c))
              (flat_map group_bytes_of a ++ repeat 0%N (2 * l) ++ flat_map group_bytes_of c)) as Ht.
    { apply ipv6_short.
      - destruct a as [|x a]; [now left|right]. apply join_groups; [discriminate|exact Fa].
      - destruct c as [|x c]; [now left|right]. apply hex_tail, join_groups; [discriminate|exact Fc].
      - lia.
      - rewrite Eb in Hl. rewrite !app_length, repeat_length in Hl. lia. }
    rewrite <- Eb in Ht. exact Ht.
Qed.

(** The text written for an address is a text of that address, so reading it gives the address back. *)
Theorem C101_round_trip : forall i, valid_ip i -> ip_text (go_ip_string (Some i)) i /\ go_parse_ip (go_ip_string (Some i)) = Some i.
Proof.
  intros i Hv. assert (ip_text (go_ip_string (Some i)) i) as H; [|split; [exact H|now apply C101_read]].
  destruct i as [b|b]; cbn [go_ip_string].
  - destruct Hv as [Hl Hb]. destruct b as [|a [|b [|c [|d [|e b']]]]]; try discriminate. apply it_v4.
    inversion Hb as [|? ? Ha Hb1]; subst. inversion Hb1 as [|? ? Hbb Hb2]; subst. inversion Hb2 as [|? ? Hc Hb3]; subst. inversion Hb3 as [|? ? Hd _]; subst.
    exact (ipv4 _ _ _ _ a b c d (octet_printed a Ha) (octet_printed b Hbb) (octet_printed c Hc) (octet_printed d Hd)).
  - apply it_v6; [|exact Hv]. destruct Hv as [Hl [Hb _]]. now apply print_v6_text.
Qed.
Print Assumptions C101_round_trip.

(** No address is written as "<nil>", which is no text of an address: it cannot be read back or be taken for one. *)
Theorem C101_no_address : go_ip_string None = $"<nil>" /\ go_parse_ip (go_ip_string None) = None /\ forall i, ~ ip_text (go_ip_string None) i.
Proof. split; [reflexivity|]. split; [reflexivity|]. intros i H. apply C101_read in H. discriminate H. Qed.
Print Assumptions C101_no_address.

(** Different addresses have different texts, so a table with the texts as keys keeps them apart. *)
Theorem C101_distinct : forall i j, valid_ip i -> valid_ip j -> go_ip_string (Some i) = go_ip_string (Some j) -> i = j.
Proof.
  intros i j Hi Hj H. destruct (C101_round_trip i Hi) as [_ Ei]. destruct (C101_round_trip j Hj) as [_ Ej]. congruence.
Qed.
Print Assumptions C101_distinct.

(** A text has at most one meaning. *)
Theorem C101_unambiguous : forall s i j, ip_text s i -> ip_text s j -> i = j.
Proof. intros s i j Hi Hj. apply C101_read in Hi, Hj. congruence. Qed.
Print Assumptions C101_unambiguous.

(** The texts of the addresses in the client mapping tell the clients apart: this is what
    [C47_names_partial] asks of the way addresses are written, here for Go's way of writing them and a
    mapping read from a configuration. *)
Theorem C101_clients : forall cfg i,
  (forall n ips j, In (n, ips) (cl_mapping cfg) -> In j ips -> exists s, go_parse_ip s = Some j) -> valid_ip i ->
  told_apart go_ip_string cfg i.
Proof.
  intros cfg i Hc Hi n ips j H1 H2 H3. destruct (Hc _ _ _ H1 H2) as [s Hs]. apply C101_valid in Hs. now apply C101_distinct.
Qed.
Print Assumptions C101_clients.

(** ** Examples *)
Example ex_v4 : go_parse_ip ($"192.0.2.255") = Some (IP4 [192; 0; 2; 255]%N). Proof. reflexivity. Qed.
Example ex_v4_zero : go_parse_ip ($"192.0.02.1") = None. Proof. reflexivity. Qed.
Example ex_v6 : go_parse_ip ($"2001:DB8::1:0:0:f") = Some (IP6 [32;1;13;184;0;0;0;0;0;1;0;0;0;0;0;15]%N).
Proof. reflexivity. Qed.
Example ex_v6_print : go_ip_string (Some (IP6 [32;1;13;184;0;0;0;0;0;1;0;0;0;0;0;15]%N)) = $"2001:db8::1:0:0:f".
Proof. reflexivity. Qed.
Example ex_mapped : go_parse_ip ($"::ffff:192.0.2.1") = Some (IP4 [192; 0; 2; 1]%N). Proof. reflexivity. Qed.
Example ex_eight : go_parse_ip ($"1:2:3:4:5:6:7::") = Some (IP6 [0;1;0;2;0;3;0;4;0;5;0;6;0;7;0;0]%N). Proof. reflexivity. Qed.
Example ex_bad : go_parse_ip ($"1::2::3") = None /\ go_parse_ip ($"fe80::1%eth0") = None /\ go_parse_ip ($"12345::") = None /\
  go_parse_ip ($"1:2:3:4:5:6:7:8::") = None. Proof. repeat split. Qed.

Example ex_clients : told_apart go_ip_string
  {| cl_mapping := [($"tv", [IP4 [192; 0; 2; 1]%N]); ($"pc", [IP4 [192; 0; 2; 2]%N; IP6 [32;1;13;184;0;0;0;0;0;1;0;0;0;0;0;15]%N])]; cl_lookup := false; cl_order := [] |}
  (IP4 [192; 0; 2; 2]%N).
Proof.
  apply C101_clients; [|split; [reflexivity|repeat constructor]]. cbn [cl_mapping].
  intros n ips j [[= <- <-]|[[= <- <-]|[]]] Hj.
  - destruct Hj as [<-|[]]. now exists ($"192.0.2.1").
  - destruct Hj as [<-|[<-|[]]]; [now exists ($"192.0.2.2")|now exists ($"2001:db8::1:0:0:f")].
Qed.
