(** Lemmas about the text of addresses. *)
From Coq Require Import String Ascii List Arith NArith Bool Lia ZifyBool ZifyNat ZifyN.
From Verif Require Import Str StrFacts Num NumFacts Dns ArpaSpec Arpa ArpaProofs Ip IpSpec.
Import ListNotations.
Open Scope list_scope.

(** ** IPv4 *)
Fixpoint octet_go (p : str) (val : N) (digs : nat) : option N :=
  match p with
  | [] => Some val
  | c :: t => match digit_val 10 c with
              | Some d => if (digs =? 1) && (val =? 0)%N then None
                          else if (255 <? val * 10 + d)%N then None else octet_go t (val * 10 + d) (S digs)
              | None => None
              end
  end.

Lemma digit_val_dot base : digit_val base dot = None.
Proof. reflexivity. Qed.

Lemma v4_loop_seg : forall p rest fresh val digs fs, ~ In dot p -> 
  v4_loop (p ++ rest) fresh val digs fs =
  match octet_go p val digs with
  | Some x => v4_loop rest (match p with [] => fresh | _ => false end) x (digs + length p) fs
  | None => None
  end.
Proof.
  induction p as [|c p IH]; intros rest fresh val digs fs Hd; cbn [app octet_go length].
  - now rewrite Nat.add_0_r.
  - cbn [v4_loop]. destruct (digit_val 10 c) as [d|].
    + destruct ((digs =? 1) && (val =? 0)%N); [reflexivity|]. destruct (255 <? val * 10 + d)%N; [reflexivity|].
      rewrite IH by (intros H; apply Hd; now right). destruct (octet_go p (val * 10 + d) (S digs)); [|reflexivity].
      replace (digs + S (length p)) with (S digs + length p) by lia. destruct p; reflexivity.
    + destruct (Ascii.eqb_spec c dot) as [->|]; [exfalso; apply Hd; now left|reflexivity].
Qed.

Lemma parse_digits_ge base : (1 <= base)%N -> forall s acc n, parse_digits base acc s = Some n -> (acc <= n)%N.
Proof.
  intros Hb. induction s as [|c s IH]; intros acc n; cbn [parse_digits]; [intros [= <-]; lia|].
  destruct (digit_val base c) as [d|]; [|discriminate]. intros H. apply IH in H. nia.
Qed.

Lemma octet_go_pos : forall p val digs x, (0 < val)%N -> (val < 256)%N -> octet_go p val digs = Some x <->
  parse_digits 10 val p = Some x /\ (x < 256)%N.
Proof.
  induction p as [|c p IH]; intros val digs x Hv Hlt; cbn [octet_go parse_digits].
  - split; [intros [= <-]; auto|intros [[= <-] _]; reflexivity].
  - destruct (digit_val 10 c) as [d|]; [|split; [discriminate|intros [H _]; discriminate]].
    replace ((digs =? 1) && (val =? 0)%N) with false by lia.
    destruct (255 <? val * 10 + d)%N eqn:E.
    + split; [discriminate|]. intros [H Hx]. apply parse_digits_ge in H; lia.
    + apply IH; lia.
Qed.

Lemma digit_val_zero c : digit_val 10 c = Some 0%N <-> c = "0"%char.
Proof.
  rewrite (digit_val_iff 10 c 0) by lia. unfold is_digit. split.
  - intros [_ [[H _]|[[_ H]|[_ H]]]]; [|lia|lia]. apply N_of_ascii_inj. rewrite H. reflexivity.
  - intros ->. split; [lia|]. left. split; [reflexivity|lia].
Qed.

Lemma octet_iff p x : p <> [] -> octet_go p 0 0 = Some x <-> octet p x.
Proof.
  intros Hp. destruct p as [|c p]; [congruence|]. cbn [octet_go]. cbn [Nat.eqb andb].
  split.
  - destruct (digit_val 10 c) as [d|] eqn:Ed; [|discriminate]. destruct (255 <? 0 * 10 + d)%N eqn:E; [discriminate|].
    replace (0 * 10 + d)%N with d by lia. destruct (N.eq_dec d 0) as [->|Hd].
    + apply digit_val_zero in Ed. subst c. destruct p as [|c p]; cbn [octet_go].
      * intros [= <-]. constructor.
      * destruct (digit_val 10 c); cbn; discriminate.
    + intros H. apply octet_go_pos in H as [H Hx]; [|lia|lia]. constructor.
      * apply parse_digits_text; [lia|discriminate|]. cbn [parse_digits]. rewrite Ed. exact H.
      * intros ->. rewrite (proj2 (digit_val_zero "0"%char) eq_refl) in Ed. congruence.
      * exact Hx.
  - intros H. inversion H as [E1 E2|c' s n Ht Hc Hn E1 E2]; subst; [reflexivity|].
    apply parse_digits_text in Ht; [|lia|discriminate]. cbn [parse_digits] in Ht.
    destruct (digit_val 10 c) as [d|] eqn:Ed; [|discriminate]. replace (0 * 10 + d)%N with d in * by lia.
    assert (d <> 0)%N by (intros ->; apply digit_val_zero in Ed; congruence).
    pose proof (digit_val_iff 10 c d ltac:(lia)) as [Hd _]. specialize (Hd Ed). destruct Hd as [Hd _].
    replace (255 <? d)%N with false by lia. apply octet_go_pos; [lia|lia|auto].
Qed.

Lemma octet_nonempty p x : octet p x -> p <> [].
Proof. intros H. inversion H; discriminate. Qed.
Lemma octet_no_dot p x : octet p x -> ~ In dot p.
Proof.
  intros H. inversion H as [E1 E2|c s n Ht Hc Hn E1 E2]; subst.
  - intros [E|[]]. discriminate.
  - apply (number_text_no_dot 10) in Ht; [exact Ht|lia].
Qed.

Lemma span_dot : forall s : str, exists p rest, s = p ++ rest /\ ~ In dot p /\ (rest = [] \/ exists t, rest = dot :: t).
Proof.
  induction s as [|c s [p [rest [E [Hp Hr]]]]]; [exists [], []; split; [reflexivity|split; [intros []|now left]]|].
  destruct (Ascii.eqb_spec c dot) as [->|Hc].
  - exists [], (dot :: s). split; [reflexivity|]. split; [intros []|right; now exists s].
  - exists (c :: p), rest. subst s. split; [reflexivity|]. split; [|exact Hr]. intros [H|H]; [congruence|exact (Hp H)].
Qed.

Lemma v4_step_sound s fs b : s <> [] -> v4_loop s true 0 0 fs = Some b ->
  exists p x, octet p x /\ ((s = p /\ 3 <= length fs /\ b = fs ++ [x]) \/
    exists t, s = p ++ dot :: t /\ t <> [] /\ length fs <> 3 /\ v4_loop t true 0 0 (fs ++ [x]) = Some b).
Proof.
  intros Hs H. destruct (span_dot s) as [p [rest [-> [Hp Hr]]]]. rewrite v4_loop_seg in H by exact Hp.
  destruct (octet_go p 0 0) as [x|] eqn:Ex; [|discriminate].
  destruct p as [|c p].
  - cbn in Ex. destruct Hr as [->|[t ->]]; [exfalso; apply Hs; reflexivity|]. cbn [app v4_loop] in H. rewrite digit_val_dot in H. cbn in H. discriminate.
  - exists (c :: p), x. split; [apply octet_iff; [discriminate|exact Ex]|]. destruct Hr as [->|[t ->]].
    + left. rewrite app_nil_r. cbn [v4_loop] in H. destruct (Nat.ltb_spec (length fs) 3); [discriminate|]. injection H as <-. auto.
    + right. exists t. cbn [v4_loop] in H. rewrite digit_val_dot, Ascii.eqb_refl in H. cbn [orb] in H. destruct t as [|c' t]; [discriminate|].
      destruct (Nat.eqb_spec (length fs) 3); [discriminate|]. split; [reflexivity|]. split; [discriminate|]. auto.
Qed.

Lemma v4_step_complete p x t fs : octet p x -> t <> [] -> length fs <> 3 ->
  v4_loop (p ++ dot :: t) true 0 0 fs = v4_loop t true 0 0 (fs ++ [x]).
Proof.
  intros Ho Ht Hl. pose proof (octet_nonempty _ _ Ho) as Hn. rewrite v4_loop_seg by (eapply octet_no_dot; exact Ho).
  rewrite (proj2 (octet_iff p x Hn) Ho). cbn [v4_loop]. rewrite digit_val_dot, Ascii.eqb_refl.
  destruct p as [|c p]; [congruence|]. destruct t as [|c' t]; [congruence|]. cbn [orb].
  destruct (Nat.eqb_spec (length fs) 3); [congruence|reflexivity].
Qed.

Lemma app_nonempty {A} (a b : list A) : a <> [] -> a ++ b <> [].
Proof. destruct a; [congruence|discriminate]. Qed.

Lemma parse_v4_iff s b : parse_v4 s = Some b <-> ipv4_text s b.
Proof.
  unfold parse_v4. split.
  - intros H. destruct s as [|c0 s0]; [discriminate|]. remember (c0 :: s0) as s. assert (s <> []) as Hs by (subst; discriminate). clear Heqs.
    destruct (v4_step_sound _ _ _ Hs H) as [p [a [Hp [[_ [L _]]|[t [-> [Ht [_ H1]]]]]]]]; [cbn in L; lia|].
    destruct (v4_step_sound _ _ _ Ht H1) as [q [b1 [Hq [[_ [L _]]|[t1 [-> [Ht1 [_ H2]]]]]]]]; [cbn in L; lia|].
    destruct (v4_step_sound _ _ _ Ht1 H2) as [r [c [Hr [[_ [L _]]|[t2 [-> [Ht2 [_ H3]]]]]]]]; [cbn in L; lia|].
    destruct (v4_step_sound _ _ _ Ht2 H3) as [u [d [Hu [[-> [_ ->]]|[t3 [_ [_ [L _]]]]]]]]; [|cbn in L; lia].
    exact (ipv4 p q r u a b1 c d Hp Hq Hr Hu).
  - intros H. inversion H as [p q r u a b1 c d Hp Hq Hr Hu E1 E2]; subst.
    change ($"." ++ u) with (dot :: u). change ($"." ++ r ++ dot :: u) with (dot :: r ++ dot :: u).
    change ($"." ++ q ++ dot :: r ++ dot :: u) with (dot :: q ++ dot :: r ++ dot :: u).
    rewrite v4_step_complete with (x := a); [|exact Hp|apply app_nonempty; eapply octet_nonempty; exact Hq|cbn; lia].
    rewrite v4_step_complete with (x := b1); [|exact Hq|apply app_nonempty; eapply octet_nonempty; exact Hr|cbn; lia].
    rewrite v4_step_complete with (x := c); [|exact Hr|eapply octet_nonempty; exact Hu|cbn; lia].
    rewrite <- (app_nil_r u). rewrite v4_loop_seg by (eapply octet_no_dot; exact Hu).
    rewrite (proj2 (octet_iff u d (octet_nonempty _ _ Hu)) Hu). reflexivity.
Qed.

(** ** Groups *)
Definition is_hex (c : ascii) : Prop := digit_val 16 c <> None.

Lemma hex_prefix_spec : forall s a b, hex_prefix s = (a, b) ->
  s = a ++ b /\ Forall is_hex a /\ match b with [] => True | c :: _ => digit_val 16 c = None end.
Proof.
  induction s as [|c s IH]; intros a b; cbn [hex_prefix]; [intros [= <- <-]; auto|].
  destruct (digit_val 16 c) as [d|] eqn:Ed.
  - destruct (hex_prefix s) as [a' b'] eqn:E. intros [= <- <-]. destruct (IH a' b' eq_refl) as [-> [Ha Hb]].
    split; [reflexivity|]. split; [constructor; [unfold is_hex; congruence|exact Ha]|exact Hb].
  - intros [= <- <-]. split; [reflexivity|]. split; [constructor|exact Ed].
Qed.

Lemma hex_prefix_app : forall a b, Forall is_hex a -> match b with [] => True | c :: _ => digit_val 16 c = None end ->
  hex_prefix (a ++ b) = (a, b).
Proof.
  induction a as [|c a IH]; intros b Ha Hb; cbn [app hex_prefix].
  - destruct b as [|c b]; [reflexivity|]. cbn [hex_prefix]. now rewrite Hb.
  - inversion Ha as [|? ? Hc Ha']; subst. unfold is_hex in Hc. destruct (digit_val 16 c); [|congruence]. now rewrite IH.
Qed.

Lemma parse_digits_hex s : forall acc n, parse_digits 16 acc s = Some n -> Forall is_hex s.
Proof.
  induction s as [|c s IH]; intros acc n; cbn [parse_digits]; [constructor|].
  destruct (digit_val 16 c) as [d|] eqn:E; [|discriminate]. intros H. constructor; [unfold is_hex; congruence|exact (IH _ _ H)].
Qed.

Lemma hex_parses s : Forall is_hex s -> forall acc, exists n, parse_digits 16 acc s = Some n.
Proof.
  induction 1 as [|c s Hc _ IH]; intros acc; cbn [parse_digits]; [eexists; reflexivity|].
  unfold is_hex in Hc. destruct (digit_val 16 c); [apply IH|congruence].
Qed.

Lemma group_iff s b : group s b <-> s <> [] /\ length s <= 4 /\ exists n, parse_digits 16 0 s = Some n /\ b = [n / 256; n mod 256]%N.
Proof.
  split.
  - intros H. inversion H as [s' hi lo Ht Hlo Hl E1 E2]; subst. pose proof (number_text_nonempty _ _ _ Ht) as Hn.
    split; [exact Hn|]. split; [exact Hl|]. exists (256 * hi + lo)%N. split; [apply parse_digits_text; [lia|exact Hn|exact Ht]|].
    rewrite (N.mul_comm 256 hi), N.div_add_l, N.div_small, (N.add_comm (hi * 256)), N.mod_add, N.mod_small by lia. f_equal. lia.
  - intros [Hn [Hl [n [Hp ->]]]]. constructor; [|apply N.mod_lt; lia|exact Hl].
    rewrite <- N.div_mod by lia. apply parse_digits_text in Hp; [exact Hp|lia|exact Hn].
Qed.

Lemma group_hex s b : group s b -> Forall is_hex s.
Proof. intros H. apply group_iff in H as [_ [_ [n [H _]]]]. eapply parse_digits_hex; exact H. Qed.
Lemma group_nonempty s b : group s b -> s <> [].
Proof. intros H. now apply group_iff in H. Qed.
Lemma group_length s b : group s b -> length b = 2.
Proof. intros H. now inversion H. Qed.

Lemma digit10_hex c d : digit_val 10 c = Some d -> is_hex c.
Proof.
  intros H E. apply digit_val_iff in H; [|lia]. destruct H as [Hd H].
  assert (is_digit 16 c d) as X by (split; [lia|exact H]). apply digit_val_iff in X; [congruence|lia].
Qed.

Lemma octet_hex p x : octet p x -> Forall is_hex p.
Proof.
  intros H. pose proof (proj2 (octet_iff p x (octet_nonempty _ _ H)) H) as Hg. clear H. revert Hg. generalize 0%N at 1. generalize 0.
  induction p as [|c p IH]; intros n v; [constructor|]. cbn [octet_go]. destruct (digit_val 10 c) as [d|] eqn:E; [|discriminate].
  destruct ((n =? 1) && (v =? 0)%N); [discriminate|]. destruct (255 <? v * 10 + d)%N; [discriminate|].
  intros H. constructor; [eapply digit10_hex; exact E|exact (IH _ _ H)].
Qed.

Lemma parse_digits_lower : forall s acc n, (0 < acc)%N -> parse_digits 10 acc s = Some n -> (acc * 10 ^ N.of_nat (length s) <= n)%N.
Proof.
  induction s as [|c s IH]; intros acc n Ha; cbn [parse_digits length].
  - intros [= <-]. cbn. lia.
  - destruct (digit_val 10 c) as [d|]; [|discriminate]. intros H. apply IH in H; [|lia].
    rewrite Nat2N.inj_succ, N.pow_succ_r by lia. nia.
Qed.

Lemma octet_short p x : octet p x -> length p <= 3.
Proof.
  intros H. inversion H as [E1 E2|c s n Ht Hc Hn E1 E2]; subst; [cbn; lia|].
  apply parse_digits_text in Ht; [|lia|discriminate]. cbn [parse_digits] in Ht. destruct (digit_val 10 c) as [d|] eqn:Ed; [|discriminate].
  assert (d <> 0)%N by (intros ->; apply digit_val_zero in Ed; congruence).
  apply parse_digits_lower in Ht; [|lia]. cbn [length]. destruct (le_lt_dec (S (length s)) 3) as [|Hl]; [exact l|exfalso].
  assert (10 ^ 3 <= 10 ^ N.of_nat (length s))%N by (apply N.pow_le_mono_r; lia). cbn in *. nia.
Qed.

(** ** The loop *)
Definition tail_or_nil (r : str) (rb : list N) : Prop := r = [] /\ rb = [] \/ tail_groups r rb.

Lemma colon_not_hex : digit_val 16 colon = None. Proof. reflexivity. Qed.

Lemma v6_loop_sound : forall g s b ell b' ell', s <> [] -> v6_loop g s b ell = Some (b', ell', []) -> length b + 2 * g = 16 ->
  exists c, b' = b ++ c /\ length b' <= 16 /\
    ((tail_groups s c /\ ell' = ell) \/
     (ell = None /\ exists l lb r rb, s = l ++ $"::" ++ r /\ hex_groups l lb /\ tail_or_nil r rb /\ c = lb ++ rb /\
        ell' = Some (length b + length lb))).
Proof.
  induction g as [|g IH]; intros s b ell b' ell' Hs H Hb; cbn [v6_loop] in H; [congruence|].
  destruct (hex_prefix s) as [ds rest] eqn:Eh. apply hex_prefix_spec in Eh as [-> [Hh Hr]].
  destruct ds as [|d0 ds0]; [discriminate|]. set (ds := d0 :: ds0) in *.
  destruct (4 <? length ds) eqn:El; [discriminate|].
  destruct (parse_digits 16 0 ds) as [acc|] eqn:Ea; [|discriminate].
  assert (group ds [acc / 256; acc mod 256]%N) as Hg.
  { apply group_iff. split; [discriminate|]. split; [lia|]. exists acc. auto. }
  destruct (match rest with c :: _ => Ascii.eqb c dot | [] => false end) eqn:Ed.
  - destruct (match ell with None => negb (length b =? 12) | Some _ => false end); [discriminate|].
    destruct (16 <? length b + 4) eqn:E16; [discriminate|].
    destruct (parse_v4 (ds ++ rest)) as [q|] eqn:E4; [|discriminate]. injection H as <- <-.
    apply parse_v4_iff in E4. exists q. split; [reflexivity|]. split.
    + rewrite app_length. inversion E4; subst. cbn [length]. lia.
    + left. split; [now apply tg_v4|reflexivity].
  - destruct rest as [|c s1].
    + injection H as <- <-. exists [acc / 256; acc mod 256]%N. split; [reflexivity|]. split; [rewrite app_length; cbn [length]; lia|].
      left. split; [rewrite app_nil_r; now apply tg_one|reflexivity].
    + destruct (negb (Ascii.eqb c colon)) eqn:Ec; [discriminate|]. apply negb_false_iff, Ascii.eqb_eq in Ec. subst c.
      destruct s1 as [|c1 s2]; [discriminate|]. destruct (Ascii.eqb_spec c1 colon) as [->|Hc1].
      * destruct ell as [e|]; [discriminate|]. destruct s2 as [|c2 s3].
        -- injection H as <- <-. exists [acc / 256; acc mod 256]%N. split; [reflexivity|]. split; [rewrite app_length; cbn [length]; lia|].
           right. split; [reflexivity|]. exists ds, [acc / 256; acc mod 256]%N, [], []. split; [reflexivity|].
           split; [now apply hg_one|]. split; [now left|]. split; [reflexivity|]. now rewrite app_length.
        -- apply IH in H; [|discriminate|rewrite app_length; cbn [length]; lia]. destruct H as [c [-> [Hl [[Ht ->]|[Hx _]]]]]; [|discriminate].
           exists ([acc / 256; acc mod 256]%N ++ c). split; [now rewrite app_assoc|]. split; [exact Hl|]. right. split; [reflexivity|].
           exists ds, [acc / 256; acc mod 256]%N, (c2 :: s3), c. split; [reflexivity|]. split; [now apply hg_one|]. split; [now right|].
           split; [reflexivity|]. now rewrite app_length.
      * apply IH in H; [|discriminate|rewrite app_length; cbn [length]; lia]. destruct H as [c [-> [Hl H]]].
        exists ([acc / 256; acc mod 256]%N ++ c). split; [now rewrite app_assoc|]. split; [exact Hl|]. destruct H as [[Ht ->]|[He [l [lb [r [rb [E [Hlb [Hrb [-> Ee]]]]]]]]]].
        -- left. split; [|reflexivity]. exact (tg_more ds _ (c1 :: s2) c Hg Ht).
        -- right. split; [exact He|]. exists (ds ++ $":" ++ l), ([acc / 256; acc mod 256]%N ++ lb), r, rb.
           split; [rewrite E, <- !app_assoc; reflexivity|]. split; [now apply hg_more|]. split; [exact Hrb|].
           split; [now rewrite app_assoc|]. rewrite Ee. rewrite !app_length. f_equal. cbn [length]. lia.
Qed.

Lemma head_not_colon (s : str) : Forall is_hex s -> s <> [] -> forall t, exists c u, s ++ t = c :: u /\ c <> colon.
Proof.
  intros H Hn t. destruct H as [|c s Hc _]; [congruence|]. exists c, (s ++ t). split; [reflexivity|].
  intros ->. apply Hc. reflexivity.
Qed.

Lemma ipv4_split s b : ipv4_text s b -> exists p rest, s = p ++ dot :: rest /\ Forall is_hex p /\ p <> [] /\ length p <= 3.
Proof.
  intros H. inversion H as [p q r u a b1 c d Hp Hq Hr Hu E1 E2]; subst.
  exists p, (q ++ $"." ++ r ++ $"." ++ u). split; [reflexivity|].
  split; [eapply octet_hex; exact Hp|]. split; [eapply octet_nonempty; exact Hp|eapply octet_short; exact Hp].
Qed.

Lemma tail_head s c : tail_groups s c -> exists x u, s = x :: u /\ x <> colon.
Proof.
  intros H. destruct H as [s b H|s b H|s b t c H _].
  - destruct (head_not_colon s (group_hex _ _ H) (group_nonempty _ _ H) []) as [x [u [E Hx]]]. rewrite app_nil_r in E. eauto.
  - destruct (ipv4_split _ _ H) as [p [rest [-> [Hh [Hn _]]]]]. destruct (head_not_colon p Hh Hn (dot :: rest)) as [x [u [E Hx]]]. eauto.
  - destruct (head_not_colon s (group_hex _ _ H) (group_nonempty _ _ H) ($":" ++ t)) as [x [u [E Hx]]]. eauto.
Qed.

Lemma tail_length s c : tail_groups s c -> 2 <= length c.
Proof.
  induction 1 as [s b H|s b H|s b t c H _ IH].
  - rewrite (group_length _ _ H). lia.
  - inversion H; subst. cbn [length]. lia.
  - rewrite app_length. lia.
Qed.

(** One group followed by [rest]. *)
Lemma v6_group g s sb rest b ell : group s sb -> (rest = [] \/ exists t, rest = colon :: t) ->
  v6_loop (S g) (s ++ rest) b ell =
    match rest with
    | [] => Some (b ++ sb, ell, [])
    | _ :: [] => None
    | _ :: (c1 :: s2) as s1 =>
        if Ascii.eqb c1 colon then
          match ell with
          | Some _ => None
          | None => match s2 with [] => Some (b ++ sb, Some (length (b ++ sb)), []) | _ => v6_loop g s2 (b ++ sb) (Some (length (b ++ sb))) end
          end
        else v6_loop g (c1 :: s2) (b ++ sb) ell
    end.
Proof.
  intros Hg Hr. pose proof (group_hex _ _ Hg) as Hh. apply group_iff in Hg as [Hn [Hl [n [Hp ->]]]].
  cbn [v6_loop]. rewrite hex_prefix_app; [|exact Hh|destruct Hr as [->|[t ->]]; [exact I|reflexivity]].
  destruct s as [|d s]; [congruence|]. replace (4 <? length (d :: s)) with false by lia. rewrite Hp.
  destruct Hr as [->|[t ->]]; [reflexivity|]. change (Ascii.eqb colon dot) with false. cbv iota.
  change (negb (Ascii.eqb colon colon)) with false. cbv iota. destruct t as [|c1 t]; reflexivity.
Qed.

Lemma v6_tail : forall s c, tail_groups s c -> forall g b ell, length b + 2 * g = 16 -> length b + length c <= 16 ->
  (ell = None -> length b + length c = 16) -> v6_loop g s b ell = Some (b ++ c, ell, []).
Proof.
  induction 1 as [s c H|s c H|s c t d H Ht IH]; intros g b ell Hb Hl He.
  - destruct g as [|g]; [rewrite (group_length _ _ H) in Hl; lia|]. rewrite <- (app_nil_r s). rewrite v6_group with (sb := c); auto.
  - assert (length c = 4) as Hc by (inversion H; reflexivity).
    destruct g as [|g]; [lia|]. pose proof (proj2 (parse_v4_iff s c) H) as H4. destruct (ipv4_split _ _ H) as [p [rest [E [Hh [Hn Hs]]]]].
    cbn [v6_loop]. rewrite E at 1. rewrite hex_prefix_app; [|exact Hh|reflexivity].
    destruct p as [|d p]; [congruence|]. replace (4 <? length (d :: p)) with false by lia.
    destruct (hex_parses _ Hh 0%N) as [n ->]. rewrite Ascii.eqb_refl.
    replace (match ell with None => negb (length b =? 12) | Some _ => false end) with false by (destruct ell; [reflexivity|specialize (He eq_refl); lia]).
    replace (16 <? length b + 4) with false by lia. now rewrite H4.
  - pose proof (group_length _ _ H) as Hc. rewrite app_length in Hl, He. destruct g as [|g]; [pose proof (tail_length _ _ Ht); lia|].
    rewrite v6_group with (sb := c); [|exact H|right; now exists t].
    destruct (tail_head _ _ Ht) as [x [u [-> Hx]]]. cbn [app]. change ($":" ++ x :: u) with (colon :: x :: u). cbv iota.
    destruct (Ascii.eqb_spec x colon) as [|_]; [congruence|].
    rewrite IH; [now rewrite app_assoc|rewrite app_length; lia|rewrite app_length; lia|intros E; specialize (He E); rewrite app_length; lia].
Qed.

Lemma hex_groups_length s c : hex_groups s c -> exists k, length c = 2 * S k.
Proof.
  induction 1 as [s c H|s c t d H _ [k IH]]; [exists 0; rewrite (group_length _ _ H); reflexivity|].
  exists (S k). rewrite app_length, (group_length _ _ H). lia.
Qed.

Lemma v6_left : forall l lb, hex_groups l lb -> forall g b r, length b + 2 * g = 16 -> length b + length lb <= 16 ->
  v6_loop g (l ++ $"::" ++ r) b None =
  match r with [] => Some (b ++ lb, Some (length b + length lb), [])
             | _ => v6_loop (g - length lb / 2) r (b ++ lb) (Some (length b + length lb)) end.
Proof.
  induction 1 as [s c H|s c t d H Ht IH]; intros g b r Hb Hl.
  - pose proof (group_length _ _ H) as Hc. destruct g as [|g]; [lia|]. rewrite v6_group with (sb := c); [|exact H|right; now exists (colon :: r)].
    change ($"::" ++ r) with (colon :: colon :: r). cbv iota. rewrite Ascii.eqb_refl, app_length, Hc.
    replace (S g - 2 / 2) with g by (change (2 / 2) with 1; lia). reflexivity.
  - pose proof (group_length _ _ H) as Hc. pose proof (hex_groups_length _ _ Ht) as [k Hk]. rewrite app_length in Hl.
    destruct g as [|g]; [lia|]. rewrite <- app_assoc. rewrite v6_group with (sb := c); [|exact H|right; eexists; reflexivity].
    assert (exists x u, t ++ $"::" ++ r = x :: u /\ x <> colon) as [x [u [E Hx]]].
    { clear -Ht. inversion Ht as [? ? H E1 E2|s' ? t' ? H _ E1 E2]; subst.
      - exact (head_not_colon t (group_hex _ _ H) (group_nonempty _ _ H) ($"::" ++ r)).
      - rewrite <- !app_assoc. exact (head_not_colon s' (group_hex _ _ H) (group_nonempty _ _ H) _). }
    rewrite <- app_assoc. change ($":" ++ t ++ $"::" ++ r) with (colon :: (t ++ $"::" ++ r)). rewrite E. cbv iota.
    destruct (Ascii.eqb_spec x colon) as [|_]; [congruence|]. rewrite <- E. rewrite IH; [|rewrite app_length; lia|rewrite app_length; lia].
    rewrite !app_length, <- app_assoc, Hc. destruct r as [|y r]; [f_equal; f_equal; f_equal; f_equal; lia|].
    replace (g - length d / 2) with (S g - (2 + length d) / 2).
    + f_equal. f_equal. lia.
    + rewrite Hk. replace (2 + 2 * S k) with ((2 + k) * 2) by lia. replace (2 * S k) with ((S k) * 2) by lia.
      rewrite !Nat.div_mul by lia. lia.
Qed.
