(** The check of UTF-8 accepts exactly the encodings of sequences of code points. *)
From Coq Require Import String Ascii List Arith Bool NArith ZArith Lia ZifyBool ZifyN ZifyNat.
From Verif Require Import Str StrFacts Dns Redis RedisSpec RedisProps Chain.
Import ListNotations.

Lemma in_range_iff lo hi c : in_range lo hi c = true <-> (lo <= N_of_ascii c <= hi)%N.
Proof. unfold in_range. rewrite andb_true_iff, !N.leb_le. tauto. Qed.

Lemma rune_point s n : rune_length s = Some n ->
  exists p rest, scalar p /\ s = map ascii_of_N (encode_point p) ++ rest /\ length (encode_point p) = n.
Proof.
  assert (forall c x, N_of_ascii c = x -> ascii_of_N x = c) as Hb by (intros c x <-; apply ascii_N_embedding).
  intros H. destruct s as [|a t]; [discriminate|]. cbn [rune_length] in H.
  destruct (in_range 0 127 a) eqn:Ea.
  { injection H as <-. apply in_range_iff in Ea. exists (N_of_ascii a), t. split; [left; lia|]. unfold encode_point.
    replace (N_of_ascii a <? 128)%N with true by lia. cbn. split; auto. f_equal. symmetry. now apply Hb. }
  clear Ea. destruct t as [|b t]; [discriminate|].
  destruct (in_range 194 223 a && in_range 128 191 b) eqn:Eab.
  { injection H as <-. apply andb_true_iff in Eab as [Ea Eb]. apply in_range_iff in Ea, Eb.
    set (p := (64 * (N_of_ascii a - 192) + (N_of_ascii b - 128))%N).
    assert (p / 64 = N_of_ascii a - 192)%N as E1 by (symmetry; apply (N.div_unique _ _ _ (N_of_ascii b - 128)); lia).
    assert (p mod 64 = N_of_ascii b - 128)%N as E2 by (symmetry; apply (N.mod_unique _ _ (N_of_ascii a - 192)); lia).
    exists p, t. split; [left; lia|]. unfold encode_point.
    replace (p <? 128)%N with false by lia. replace (p <? 2048)%N with true by lia. rewrite E1, E2. cbn [map app length].
    split; auto. now rewrite (Hb a), (Hb b) by lia. }
  clear Eab. destruct t as [|c t]; [discriminate|].
  match type of H with (if ?x then _ else _) = _ => destruct x eqn:E3 end.
  { injection H as <-. apply andb_true_iff in E3 as [Eab Ec]. apply in_range_iff in Ec.
    assert ((N_of_ascii a = 224 /\ 160 <= N_of_ascii b <= 191) \/ (225 <= N_of_ascii a <= 236 /\ 128 <= N_of_ascii b <= 191) \/
            (N_of_ascii a = 237 /\ 128 <= N_of_ascii b <= 159) \/ (238 <= N_of_ascii a <= 239 /\ 128 <= N_of_ascii b <= 191))%N as Hab.
    { rewrite !orb_true_iff, !andb_true_iff, !in_range_iff in Eab. lia. }
    clear Eab. set (p := (4096 * (N_of_ascii a - 224) + 64 * (N_of_ascii b - 128) + (N_of_ascii c - 128))%N).
    assert (p / 64 = 64 * (N_of_ascii a - 224) + (N_of_ascii b - 128))%N as E1 by (symmetry; apply (N.div_unique _ _ _ (N_of_ascii c - 128)); lia).
    assert (p mod 64 = N_of_ascii c - 128)%N as E2 by (symmetry; apply (N.mod_unique _ _ (64 * (N_of_ascii a - 224) + (N_of_ascii b - 128))); lia).
    assert (p / 4096 = N_of_ascii a - 224)%N as E4 by (symmetry; apply (N.div_unique _ _ _ (64 * (N_of_ascii b - 128) + (N_of_ascii c - 128))); lia).
    assert ((p / 64) mod 64 = N_of_ascii b - 128)%N as E5 by (rewrite E1; symmetry; apply (N.mod_unique _ _ (N_of_ascii a - 224)); lia).
    exists p, t. split; [unfold scalar; lia|]. unfold encode_point.
    replace (p <? 128)%N with false by lia. replace (p <? 2048)%N with false by lia. replace (p <? 65536)%N with true by lia.
    rewrite E2, E4, E5. cbn [map app length]. split; auto. now rewrite (Hb a), (Hb b), (Hb c) by lia. }
  clear E3. destruct t as [|d t]; [discriminate|].
  match type of H with (if ?x then _ else _) = _ => destruct x eqn:E3 end; [|discriminate].
  injection H as <-. apply andb_true_iff in E3 as [E3 Ed]. apply andb_true_iff in E3 as [Eab Ec]. apply in_range_iff in Ec, Ed.
  assert ((N_of_ascii a = 240 /\ 144 <= N_of_ascii b <= 191) \/ (241 <= N_of_ascii a <= 243 /\ 128 <= N_of_ascii b <= 191) \/
          (N_of_ascii a = 244 /\ 128 <= N_of_ascii b <= 143))%N as Hab.
  { rewrite !orb_true_iff, !andb_true_iff, !in_range_iff in Eab. lia. }
  clear Eab. set (p := (262144 * (N_of_ascii a - 240) + 4096 * (N_of_ascii b - 128) + 64 * (N_of_ascii c - 128) + (N_of_ascii d - 128))%N).
  set (q1 := (4096 * (N_of_ascii a - 240) + 64 * (N_of_ascii b - 128) + (N_of_ascii c - 128))%N).
  assert (p / 64 = q1)%N as E1 by (symmetry; apply (N.div_unique _ _ _ (N_of_ascii d - 128)); lia).
  assert (p mod 64 = N_of_ascii d - 128)%N as E2 by (symmetry; apply (N.mod_unique _ _ q1); lia).
  set (q2 := (64 * (N_of_ascii a - 240) + (N_of_ascii b - 128))%N).
  assert (p / 4096 = q2)%N as E4 by (symmetry; apply (N.div_unique _ _ _ (64 * (N_of_ascii c - 128) + (N_of_ascii d - 128))); lia).
  assert (q1 mod 64 = N_of_ascii c - 128)%N as E5 by (symmetry; apply (N.mod_unique _ _ q2); lia).
  assert (q2 mod 64 = N_of_ascii b - 128)%N as E6 by (symmetry; apply (N.mod_unique _ _ (N_of_ascii a - 240)); lia).
  assert (p / 262144 = N_of_ascii a - 240)%N as E7
    by (symmetry; apply (N.div_unique _ _ _ (4096 * (N_of_ascii b - 128) + 64 * (N_of_ascii c - 128) + (N_of_ascii d - 128))); lia).
  exists p, t. split; [unfold scalar; lia|]. unfold encode_point.
  replace (p <? 128)%N with false by lia. replace (p <? 2048)%N with false by lia. replace (p <? 65536)%N with false by lia.
  rewrite E1, E2, E4, E5, E6, E7. cbn [map app length]. split; auto. now rewrite (Hb a), (Hb b), (Hb c), (Hb d) by lia.
Qed.

Lemma utf8_skip : forall a b, utf8_from (length a) (a ++ b) = utf8_from 0 b.
Proof. induction a as [|x a IH]; intros b; cbn [app length utf8_from]; [reflexivity|]. apply IH. Qed.

Lemma encode_nonempty p : exists x l, encode_point p = x :: l.
Proof. unfold encode_point. destruct (_ <? _)%N; [eauto|]. destruct (_ <? _)%N; [eauto|]. destruct (_ <? _)%N; eauto. Qed.

Lemma utf8_point p rest : scalar p -> utf8_from 0 (map ascii_of_N (encode_point p) ++ rest) = utf8_from 0 rest.
Proof.
  intros Hp. pose proof (rune_length_point p rest Hp) as E. destruct (encode_nonempty p) as [x [l El]]. rewrite El in *.
  cbn [map app length] in *. cbn [utf8_from]. rewrite E. replace (S (length l) - 1) with (length (map ascii_of_N l)) by (rewrite map_length; lia).
  apply utf8_skip.
Qed.

Lemma utf8_app s t : valid_utf8 s -> valid_utf8 t -> valid_utf8 (s ++ t).
Proof.
  intros [p [Hp ->]] [q [Hq ->]]. exists (p ++ q). split; [apply Forall_app; auto|]. now rewrite flat_map_app.
Qed.

Theorem utf8_string_iff s : utf8_string s = true <-> valid_utf8 s.
Proof.
  unfold utf8_string. split.
  - remember (length s) as n eqn:En. revert s En. induction n as [n IH] using lt_wf_ind. intros s -> H.
    destruct s as [|c t]; [exists []; now split|]. cbn [utf8_from] in H.
    destruct (rune_length (c :: t)) as [n|] eqn:E; [|discriminate]. apply rune_point in E as [p [rest [Hp [Hs Hl]]]].
    assert (utf8_from 0 rest = true) as Hr.
    { destruct (encode_nonempty p) as [x [l El]]. rewrite El in Hs, Hl. cbn [map app length] in Hs, Hl. injection Hs as _ ->.
      rewrite <- Hl in H. replace (S (length l) - 1) with (length (map ascii_of_N l)) in H by (rewrite map_length; lia).
      now rewrite utf8_skip in H. }
    rewrite Hs. apply utf8_app.
    + exists [p]. split; [now constructor|]. cbn. now rewrite app_nil_r.
    + apply (IH (length rest)); auto. rewrite Hs, app_length, map_length.
      destruct (encode_nonempty p) as [x [l El]]. rewrite El. cbn. lia.
  - intros [ps [H ->]]. induction H as [|p ps Hp _ IH]; [reflexivity|]. cbn [flat_map]. now rewrite utf8_point.
Qed.

(** A byte of ASCII between two texts keeps them apart. *)
Lemma utf8_join l : Forall valid_utf8 l -> valid_utf8 (join [comma] l).
Proof.
  intros H. induction H as [|s l Hs Hl IH]; [exists []; now split|]. cbn [join]. destruct l as [|t l]; [exact Hs|].
  apply utf8_app; auto. apply (utf8_app [comma]); auto. apply ascii_valid. constructor; auto. now vm_compute.
Qed.

Lemma utf8_comma ps s t : Forall scalar ps -> flat_map (fun c => map ascii_of_N (encode_point c)) ps = s ++ comma :: t ->
  valid_utf8 s /\ valid_utf8 t.
Proof.
  intros H. revert s. induction H as [|p ps Hp Hps IH]; intros s E; [destruct s; discriminate|]. cbn [flat_map] in E.
  assert (Hc : encode_point p = [44%N] \/ ~ In comma (map ascii_of_N (encode_point p))).
  { unfold encode_point. assert (forall x, (44 < x < 256)%N -> comma <> ascii_of_N x) as Hx.
    { intros x Hx E0. apply (f_equal N_of_ascii) in E0. rewrite N_ascii_embedding in E0 by lia. change (N_of_ascii comma) with 44%N in E0. lia. }
    destruct (p <? 128)%N eqn:E1.
    - destruct (N.eq_dec p 44) as [->|Hn]; [now left|]. right. intros [E0|[]]. apply (f_equal N_of_ascii) in E0.
      rewrite N_ascii_embedding in E0 by lia. change (N_of_ascii comma) with 44%N in E0. lia.
    - right. assert (p <= 1114111)%N as Hm by (unfold scalar in Hp; lia).
      assert (p mod 64 < 64)%N by (apply N.mod_lt; lia). assert ((p / 64) mod 64 < 64)%N by (apply N.mod_lt; lia).
      assert ((p / 4096) mod 64 < 64)%N by (apply N.mod_lt; lia).
      assert (p < 2048 -> p / 64 < 32)%N by (intros; apply N.div_lt_upper_bound; lia).
      assert (p < 65536 -> p / 4096 < 16)%N by (intros; apply N.div_lt_upper_bound; lia).
      assert (p / 262144 < 5)%N by (apply N.div_lt_upper_bound; lia).
      destruct (p <? 2048)%N eqn:E2; [|destruct (p <? 65536)%N eqn:E3]; cbn [map In];
        intros Hi; repeat (destruct Hi as [Hi|Hi]; [revert Hi; apply not_eq_sym, Hx; lia|]); exact Hi. }
  destruct Hc as [Hc|Hc].
  - rewrite Hc in E. destruct s as [|a s].
    + cbn in E. injection E as E. split; [exists []; now split|]. exists ps. now split.
    + cbn [map app] in E. injection E as <- E. destruct (IH s E) as [H1 H2]. split; auto. apply (utf8_app [_]); auto.
      apply ascii_valid. constructor; auto. now vm_compute.
  - assert (exists s', s = map ascii_of_N (encode_point p) ++ s') as [s' ->].
    { revert s E Hc. generalize (map ascii_of_N (encode_point p)). intros l. induction l as [|x l IHl]; intros s E Hn; [now exists s|].
      destruct s as [|a s]; cbn [app] in E.
      - injection E as -> _. elim Hn. now left.
      - injection E as <- E. destruct (IHl s E) as [s' ->]; [|now exists s']. intros Hi. apply Hn. now right. }
    rewrite <- app_assoc in E. apply app_inv_head in E. destruct (IH s' E) as [H1 H2]. split; auto. apply utf8_app; auto.
    exists [p]. split; [now constructor|]. cbn. now rewrite app_nil_r.
Qed.

Lemma utf8_split l : valid_utf8 (join [comma] l) -> Forall valid_utf8 l.
Proof.
  induction l as [|s l IH]; intros H; [constructor|]. cbn [join] in H. destruct l as [|t l]; [now constructor|].
  destruct H as [ps [Hp E]]. change (s ++ [comma] ++ join [comma] (t :: l)) with (s ++ comma :: join [comma] (t :: l)) in E. symmetry in E. apply utf8_comma in E as [H1 H2]; auto.
Qed.

Theorem client_label_iff req : utf8_string (client_label req) = true <-> Forall valid_utf8 (req_names req).
Proof. rewrite utf8_string_iff. unfold client_label. split; [apply utf8_split|apply utf8_join]. Qed.
