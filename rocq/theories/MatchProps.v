(** Theorems about client identifiers (C109, C110). *)
From Coq Require Import String Ascii List Arith NArith Bool Lia Permutation.
From Verif Require Import Str StrFacts Num NumFacts Dns Arpa ArpaSpec ArpaProofs Ip IpSpec IpProofs IpProps Ecs EcsSpec EcsProps
  Match MatchSpec MatchProofs Blocking BlockingSpec BlockingProofs BlockingProps ClientNames ClientNamesSpec ClientNamesProps.
Import ListNotations.
Open Scope list_scope.

(** ** C109: patterns for the names of clients *)
(** What is matched is accepted by the pattern, for all names. *)
Theorem C109_sound : forall p n, go_glob p n = true -> pattern_accepts p n.
Proof.
  intros p n. unfold go_glob. destruct (match_loop (length p) p n) as [b|] eqn:E; [|discriminate]. intros ->.
  eapply match_loop_sound; exact E.
Qed.
Print Assumptions C109_sound.

(** Names without a slash, as all names of hosts: exactly what the pattern accepts is matched. *)
Theorem C109_exact_partial : forall p n, ~ In "/"%char n -> go_glob p n = true <-> pattern_accepts p n.
Proof.
  intros p n Hn. split; [apply C109_sound|]. intros [is [Hp Ha]]. unfold go_glob.
  now rewrite (match_loop_complete _ _ _ _ (le_n _) Hp Ha).
Qed.
Print Assumptions C109_exact_partial.

(** A name with a slash can be missed: a star is never tried at a later place once a place has been found. *)
Theorem C109_slash_refuted : exists p n, pattern_accepts p n /\ go_glob p n = false.
Proof.
  exists ($"*[/x]/*y"), ($"x//y"). split; [|reflexivity].
  exists [AnyText; OneOf false [("/", "/"); ("x", "x")]%char; Char "/"; AnyText; Char "y"]. split.
  - apply (pt_cons ($"*")); [constructor|]. apply (pt_cons ($"[/x]")).
    { apply (it_class ($"/x")); [|discriminate]. apply (ct_more ($"/") _ ($"x")); [|apply ct_one];
        apply cr_one, cc_plain; cbn; intuition discriminate. }
    apply (pt_cons ($"/")); [apply it_char; cbn; intuition discriminate|]. apply (pt_cons ($"*")); [constructor|].
    apply (pt_cons ($"y")); [apply it_char; cbn; intuition discriminate|constructor].
  - apply (ac_cons _ ($"x")); [constructor; cbn; intuition discriminate|].
    apply (ac_cons _ ($"/")); [apply ia_class with ("/", "/")%char; [now left|unfold in_range; cbn; lia]|].
    apply (ac_cons _ ($"/")); [constructor|]. apply (ac_cons _ []); [constructor; intros []|]. apply (ac_cons _ ($"y")); constructor.
Qed.
Print Assumptions C109_slash_refuted.

(** Upper and lower case make no difference, neither in the pattern nor in the name. *)
Theorem C109_client_partial : forall g n, ~ In "/"%char n ->
  client_name_matches g n = true <-> exists lg ln, lowered g lg /\ lowered n ln /\ pattern_accepts lg ln.
Proof.
  intros g n Hn. unfold client_name_matches.
  assert (~ In "/"%char (to_lower n)) as Hn'.
  { unfold to_lower. rewrite in_map_iff. intros [x [Hx Hin]]. apply Hn. unfold lower_ascii in Hx.
    destruct ((65 <=? N_of_ascii x) && (N_of_ascii x <=? 90))%N eqn:E; [|now subst].
    apply andb_prop in E as [E1 E2]. apply N.leb_le in E1, E2. apply (f_equal N_of_ascii) in Hx.
    rewrite N_ascii_embedding in Hx by lia. cbn in Hx. lia. }
  rewrite (C109_exact_partial _ _ Hn'). split.
  - intros H. exists (to_lower g), (to_lower n). split; [now apply lowered_iff|]. split; [now apply lowered_iff|exact H].
  - intros [lg [ln [H1 [H2 H3]]]]. apply lowered_iff in H1, H2. now subst.
Qed.
Print Assumptions C109_client_partial.

(** An identifier without special characters is a pattern for itself only. *)
Theorem C109_plain : forall p, (forall c, In c ["*"; "?"; "["; "\"]%char -> ~ In c p) -> forall n, pattern_accepts p n <-> n = p.
Proof.
  intros p Hp n. split.
  - intros [is [Ht Ha]]. revert n Ha. induction Ht as [|s i t is Hi Ht IH]; intros n Ha; [now inversion Ha|].
    inversion Ha as [|? u ? v Hu Hv]; subst.
    rewrite (IH ltac:(intros c Hc Hin; apply (Hp c Hc), in_or_app; now right) _ Hv). f_equal.
    assert (forall c, In c ["*"; "?"; "["; "\"]%char -> ~ In c s) as Hs by (intros c Hc Hin; apply (Hp c Hc), in_or_app; now left).
    destruct Hi as [| |s rs Hc Hn|s rs Hc|c Hc|c].
    + exfalso. apply (Hs star); now left.
    + exfalso. apply (Hs "?"%char); [right|]; now left.
    + exfalso. apply (Hs "["%char); [right; right|]; now left.
    + exfalso. apply (Hs "["%char); [right; right|]; now left.
    + now inversion Hu.
    + exfalso. apply (Hs backslash); [right; right; right|]; now left.
  - intros ->. exists (map Char p). split; induction p as [|c p IH]; try constructor.
    + change (c :: p) with ([c] ++ p). cbn [map]. constructor; [|apply IH; intros x Hx Hin; apply (Hp x Hx); now right].
      constructor. intros Hc. apply (Hp c Hc). now left.
    + change (c :: p) with ([c] ++ p). cbn [map]. constructor; [constructor|]. apply IH. intros x Hx Hin. apply (Hp x Hx). now right.
Qed.
Print Assumptions C109_plain.

Example C109_example :
  client_name_matches ($"Kid*-[a-c]?") ($"kids-laptop-B7") = true /\
  client_name_matches ($"kid*-[^a-c]?") ($"kids-laptop-B7") = false /\
  client_name_matches ($"*.lan*.lan") ($"a.lan.lan.lan") = true /\
  client_name_matches ($"tv[") ($"tv[") = false /\ client_name_matches ($"tv\[") ($"TV[") = true /\
  pattern_accepts ($"tv*") ($"tv1") /\ ~ pattern_accepts ($"tv?") ($"tv").
Proof.
  do 5 (split; [reflexivity|]). split.
  - apply C109_sound. reflexivity.
  - intros H. apply C109_exact_partial in H; [discriminate|]. cbn. intuition discriminate.
Qed.

(** ** C110: networks of clients *)
Lemma bit_at_mask b m k : bit_at (mask_bytes m b) k = bit_at b k && (k <? N.to_nat m).
Proof.
  unfold bit_at. destruct (mask_bytes_spec b m) as [Hl Hb].
  pose proof (Nat.div_mod k 8 ltac:(lia)) as Hk. pose proof (Nat.mod_upper_bound k 8 ltac:(lia)) as Hm.
  set (i := k / 8) in *. destruct (Nat.lt_ge_cases i (length b)) as [Hi|Hi].
  - rewrite (Hb i (7 - k mod 8) (nth i b 0%N) (nth i (mask_bytes m b) 0%N)).
    + f_equal. f_equal. lia.
    + now apply nth_error_nth'.
    + apply nth_error_nth'. lia.
    + lia.
  - rewrite !nth_overflow by lia. now rewrite N.bits_0.
Qed.

Lemma bit_at_ext a b : length a = length b -> bytes a -> bytes b -> (forall k, bit_at a k = bit_at b k) -> a = b.
Proof.
  intros Hl Ha Hb H. apply nth_ext with 0%N 0%N; auto. intros i Hi.
  assert (forall l, bytes l -> i < length l -> forall j, (8 <= j)%N -> N.testbit (nth i l 0%N) j = false) as Hhigh.
  { intros l Hbl Hil j Hj. assert (nth i l 0 < 256)%N as Hx by exact (proj1 (Forall_forall _ _) Hbl _ (nth_In l 0%N Hil)).
    destruct (N.eq_dec (nth i l 0%N) 0) as [->|Hz]; [apply N.bits_0|]. apply N.bits_above_log2.
    assert (N.log2 (nth i l 0%N) < 8)%N by (apply N.log2_lt_pow2; [lia|exact Hx]). lia. }
  apply N.bits_inj. intros j. destruct (N.lt_ge_cases j 8) as [Hj|Hj]; [|rewrite !Hhigh by (auto; lia); reflexivity].
  specialize (H (8 * i + (7 - N.to_nat j))). unfold bit_at in H.
  assert ((8 * i + (7 - N.to_nat j)) / 8 = i) as E1 by (symmetry; apply (Nat.div_unique _ _ _ (7 - N.to_nat j)); lia).
  assert ((8 * i + (7 - N.to_nat j)) mod 8 = 7 - N.to_nat j) as E2 by (symmetry; apply (Nat.mod_unique _ _ i); lia).
  rewrite E1, E2 in H. replace (N.of_nat (7 - (7 - N.to_nat j))) with j in H by lia. exact H.
Qed.

Lemma mask_byte_list m b : bytes b -> bytes (mask_bytes m b).
Proof.
  intros H. revert m. induction H as [|x b Hx Hb IH]; intros m; cbn [mask_bytes]; [constructor|].
  destruct (8 <=? m)%N; constructor; auto; try apply IH.
  apply N.le_lt_trans with x; auto. clear. destruct x as [|p]; [now rewrite N.land_0_l|].
  apply N.ldiff_le, N.bits_inj_0. intros j. rewrite N.ldiff_spec, N.land_spec. now destruct (N.testbit (N.pos p) j), (N.testbit (255 - N.shiftr 255 m) j).
Qed.

Lemma mask_length m b : length (mask_bytes m b) = length b.
Proof. apply mask_bytes_spec. Qed.

(** Equal after masking: equal in the first bits. *)
Lemma mask_eq m a b : length a = length b -> bytes a -> bytes b ->
  byte_list_eqb (mask_bytes m a) (mask_bytes m b) = true <-> same_bits (N.to_nat m) a b.
Proof.
  intros Hl Ha Hb. unfold byte_list_eqb. destruct (list_eq_dec N.eq_dec (mask_bytes m a) (mask_bytes m b)) as [E|E].
  - split; auto. intros _ k Hk. apply (f_equal (fun l => bit_at l k)) in E. rewrite !bit_at_mask in E.
    apply Nat.ltb_lt in Hk. rewrite Hk, !andb_true_r in E. exact E.
  - split; [discriminate|]. intros H. destruct E. apply bit_at_ext.
    + now rewrite !mask_length.
    + now apply mask_byte_list.
    + now apply mask_byte_list.
    + intros k. rewrite !bit_at_mask. destruct (Nat.ltb_spec k (N.to_nat m)); [now rewrite H|now rewrite !andb_false_r].
Qed.

Lemma same_bits_mask m a b : same_bits (N.to_nat m) (mask_bytes m a) b <-> same_bits (N.to_nat m) a b.
Proof.
  split; intros H k Hk; specialize (H k Hk); rewrite bit_at_mask in *; apply Nat.ltb_lt in Hk; rewrite Hk, andb_true_r in *; exact H.
Qed.

Lemma mask_app m a b : (8 * N.of_nat (length a) <= m)%N -> mask_bytes m (a ++ b) = a ++ mask_bytes (m - 8 * N.of_nat (length a)) b.
Proof.
  revert m. induction a as [|x a IH]; intros m H.
  - cbn. now rewrite N.sub_0_r.
  - cbn [app mask_bytes length] in *. assert (8 <=? m = true)%N as -> by (apply N.leb_le; lia). rewrite IH by lia.
    do 3 f_equal. lia.
Qed.

(** Masked bytes have the IPv4 prefix only if the mask keeps it. *)
Lemma mask_prefix m b : length b = 16 -> firstn 12 (mask_bytes m b) = v4_prefix -> (96 <= m)%N /\ firstn 12 b = v4_prefix.
Proof.
  intros Hl H. destruct (N.le_gt_cases 96 m) as [Hm|Hm].
  - split; auto. rewrite <- (firstn_skipn 12 b) in H. rewrite mask_app in H.
    + rewrite firstn_app in H. rewrite firstn_length in H. replace (12 - Nat.min 12 (length b)) with 0 in H by lia.
      rewrite firstn_O, app_nil_r, firstn_firstn in H. exact H.
    + rewrite firstn_length. lia.
  - exfalso. pose proof (bit_at_mask b m 95) as Hb. assert (95 <? N.to_nat m = false) as E by (apply Nat.ltb_ge; lia).
    rewrite E, andb_false_r in Hb. unfold bit_at in Hb. change (95 / 8) with 11 in Hb. change (7 - 95 mod 8) with 0 in Hb.
    assert (nth 11 (mask_bytes m b) 0%N = nth 11 (firstn 12 (mask_bytes m b)) 0%N) as E2.
    { rewrite <- (firstn_skipn 12 (mask_bytes m b)) at 1. rewrite app_nth1; auto. rewrite firstn_length, mask_length. lia. }
    rewrite E2, H in Hb. discriminate.
Qed.

Lemma dtoi_iff s n : (n < 16777215)%N -> dtoi s = Some n <-> number_text 10 s n.
Proof.
  intros Hn. unfold dtoi. assert (forall s acc, dtoi_loop acc s = Some n <-> parse_digits 10 acc s = Some n) as H.
  { clear s. induction s as [|c s IH]; intros acc; cbn [dtoi_loop parse_digits]; [reflexivity|].
    destruct (digit_val 10 c) as [d|]; [|reflexivity]. destruct (N.leb_spec 16777215 (acc * 10 + d)).
    - split; [discriminate|]. intros Hp. apply parse_digits_ge in Hp; [|lia]. lia.
    - apply IH. }
  destruct s as [|c s].
  - split; [discriminate|]. intros Ht. now apply number_text_nonempty in Ht.
  - rewrite H. apply parse_digits_text; [lia|discriminate].
Qed.

Lemma ipv4_len s b : ipv4_text s b -> length b = 4.
Proof. intros H. inversion H. reflexivity. Qed.

Lemma parse_cidr_iff s net : parse_cidr s = Some net <->
  exists a m b n, s = a ++ $"/" ++ m /\ (ipv4_text a b \/ ipv6_text a b) /\ number_text 10 m n /\ (n <= 8 * N.of_nat (length b))%N /\
    net = {| in_bytes := mask_bytes n b; in_mask := n |}.
Proof.
  unfold parse_cidr. split.
  - destruct (index_byte slash s) as [i|] eqn:Ei; [|discriminate]. apply index_byte_Some in Ei as [Es [_ _]].
    set (a := firstn i s) in *. set (m := skipn (S i) s) in *. intros H.
    assert (exists b, (ipv4_text a b \/ ipv6_text a b) /\
      match dtoi m with None => None
      | Some n => if (8 * N.of_nat (length b) <? n)%N then None else Some {| in_bytes := mask_bytes n b; in_mask := n |} end = Some net)
      as [b [Hb Hd]].
    { destruct (addr_kind a) as [[|]|]; [| |discriminate].
      - destruct (parse_v4 a) as [b|] eqn:E; [|discriminate]. exists b. split; auto. left. now apply parse_v4_iff.
      - destruct (parse_v6 a) as [b|] eqn:E; [|discriminate]. exists b. split; auto. right. now apply parse_v6_iff. }
    destruct (dtoi m) as [n|] eqn:En; [|discriminate]. destruct (N.ltb_spec (8 * N.of_nat (length b)) n) as [Hl|Hl]; [discriminate|].
    injection Hd as <-. exists a, m, b, n. split; [exact Es|]. split; auto.
    assert (n < 16777215)%N as Hn.
    { destruct Hb as [Hb|Hb]; [apply ipv4_len in Hb; lia|apply ipv6_bytes in Hb as [Hb _]; lia]. }
    split; [now apply dtoi_iff|]. split; auto.
  - intros [a [m [b [n [-> [Hb [Hm [Hn ->]]]]]]]].
    assert (~ In slash a) as Hs.
    { intros Hin. assert (Forall ip_char a) as Hc by (destruct Hb as [Hb|Hb]; [eapply ipv4_chars; exact Hb|eapply ipv6_chars; exact Hb]).
      rewrite Forall_forall in Hc. destruct (Hc _ Hin) as [X|[X|X]]; [|discriminate|discriminate]. apply X. reflexivity. }
    change (a ++ $"/" ++ m) with (a ++ slash :: m). rewrite index_byte_app by exact Hs.
    rewrite firstn_app, firstn_all, Nat.sub_diag. cbn [firstn]. rewrite app_nil_r.
    rewrite skipn_app, skipn_all2 by lia. replace (S (length a) - length a) with 1 by lia. cbn [skipn app].
    assert ((match addr_kind a with Some true => parse_v4 a | Some false => parse_v6 a | None => None end) = Some b) as ->.
    { destruct Hb as [Hb|Hb].
      - rewrite (ipv4_kind _ _ Hb). now apply parse_v4_iff.
      - rewrite (ipv6_kind _ _ Hb). now apply parse_v6_iff. }
    assert (n < 16777215)%N as Hn'.
    { destruct Hb as [Hb|Hb]; [apply ipv4_len in Hb; lia|apply ipv6_bytes in Hb as [Hb _]; lia]. }
    apply (dtoi_iff m n Hn') in Hm. rewrite Hm. destruct (N.ltb_spec (8 * N.of_nat (length b)) n); [lia|reflexivity].
Qed.

(** A network holds exactly the addresses that share its first bits; an IPv4 address is only in networks of
    IPv4 addresses. *)
Theorem C110_network : forall s i, valid_ip i -> cidr_contains_ip s (Some i) = true <-> network_of s i.
Proof.
  intros s i Hv. unfold cidr_contains_ip. split.
  - destruct (parse_cidr s) as [net|] eqn:E; [|discriminate]. apply parse_cidr_iff in E as [a [m [b [n [-> [Hb [Hm [Hn ->]]]]]]]].
    unfold net_contains, network_number. cbn [in_bytes in_mask]. rewrite mask_length.
    destruct Hb as [Hb|Hb].
    + assert (length b = 4) as Hlb by (inversion Hb; reflexivity). rewrite Hlb. cbn [Nat.eqb andb].
      rewrite andb_true_iff, Nat.eqb_eq, mask_length, Hlb. intros [Hl He].
      destruct i as [ib|ib]; [|destruct Hv as [Hv _]; lia]. destruct Hv as [_ Hv].
      apply mask_eq in He; [|rewrite mask_length; lia|apply mask_byte_list, (ipv4_bytes _ _ Hb)|exact Hv].
      apply (proj1 (same_bits_mask _ _ _)) in He. eapply net_v4; eauto. lia.
    + destruct (ipv6_bytes _ _ Hb) as [Hlb Hbb]. rewrite Hlb. cbn [Nat.eqb andb].
      unfold byte_list_eqb at 1. destruct (list_eq_dec N.eq_dec (firstn 12 (mask_bytes n b)) v4_prefix) as [Ep|Ep].
      * apply mask_prefix in Ep as [Hge Hp]; [|exact Hlb].
        assert (b = v4_prefix ++ skipn 12 b) as Eb by (rewrite <- Hp; now rewrite firstn_skipn).
        rewrite Eb, mask_app by (cbn; lia). change (8 * N.of_nat (length v4_prefix))%N with 96%N.
        change (skipn 12 (v4_prefix ++ mask_bytes (n - 96) (skipn 12 b))) with (mask_bytes (n - 96) (skipn 12 b)).
        rewrite andb_true_iff, Nat.eqb_eq, mask_length, skipn_length, Hlb. intros [Hl He].
        destruct i as [ib|ib]; [|destruct Hv as [Hv _]; lia]. destruct Hv as [_ Hv].
        assert (bytes (skipn 12 b)) as Hbs by (rewrite Eb in Hbb; unfold bytes in Hbb; now apply Forall_app in Hbb as [_ Hbb]).
        apply mask_eq in He; [|rewrite mask_length, skipn_length; lia|now apply mask_byte_list|exact Hv].
        apply (proj1 (same_bits_mask _ _ _)) in He. rewrite Eb in Hb. eapply net_mapped; eauto; [lia|].
        replace (N.to_nat n - 96) with (N.to_nat (n - 96)) by lia. exact He.
      * rewrite andb_true_iff, Nat.eqb_eq, mask_length, Hlb. intros [Hl He].
        destruct i as [ib|ib]; [destruct Hv as [Hv _]; lia|]. destruct Hv as [_ [Hv _]].
        apply mask_eq in He; [|rewrite mask_length; lia|now apply mask_byte_list|exact Hv].
        apply (proj1 (same_bits_mask _ _ _)) in He. eapply net_v6; eauto. lia.
  - intros H. destruct H as [a net m n b Ha Hm Hn Hs|a net m n b Ha Hm Hn Hs|a net m n b Ha Hm Hn Hs].
    + assert (length net = 4) as Hl by (inversion Ha; reflexivity).
      assert (parse_cidr (a ++ $"/" ++ m) = Some {| in_bytes := mask_bytes n net; in_mask := n |}) as ->.
      { apply parse_cidr_iff. exists a, m, net, n. split; auto. split; auto. split; auto. split; auto. lia. }
      unfold net_contains, network_number. cbn [in_bytes in_mask]. rewrite mask_length, Hl. cbn [Nat.eqb andb].
      rewrite mask_length, Hl. destruct Hv as [Hv1 Hv2]. rewrite Hv1. cbn [Nat.eqb andb].
      apply mask_eq; [rewrite mask_length; lia|apply mask_byte_list, (ipv4_bytes _ _ Ha)|exact Hv2|]. now apply (proj2 (same_bits_mask _ _ _)).
    + destruct (ipv6_bytes _ _ Ha) as [Hl Hb].
      assert (parse_cidr (a ++ $"/" ++ m) = Some {| in_bytes := mask_bytes n net; in_mask := n |}) as ->.
      { apply parse_cidr_iff. exists a, m, net, n. split; auto. split; auto. split; auto. split; auto. lia. }
      unfold net_contains, network_number. cbn [in_bytes in_mask]. rewrite mask_length, Hl. cbn [Nat.eqb andb].
      destruct Hv as [Hv1 [Hv2 Hv3]]. unfold byte_list_eqb at 1.
      destruct (list_eq_dec N.eq_dec (firstn 12 (mask_bytes n net)) v4_prefix) as [Ep|Ep].
      * exfalso. apply mask_prefix in Ep as [Hge Hp]; [|exact Hl]. apply Hv3. exists (skipn 12 b).
        assert (firstn 12 b = firstn 12 net) as E12.
        { apply bit_at_ext.
          - rewrite !firstn_length. lia.
          - rewrite <- (firstn_skipn 12 b) in Hv2. now apply Forall_app in Hv2 as [Hv2 _].
          - rewrite <- (firstn_skipn 12 net) in Hb. unfold bytes in Hb. now apply Forall_app in Hb as [Hb _].
          - intros k. destruct (Nat.lt_ge_cases k 96) as [Hk|Hk].
            + assert (forall l, length l = 16 -> bit_at (firstn 12 l) k = bit_at l k) as Hf.
              { intros l Hll. unfold bit_at. rewrite <- (firstn_skipn 12 l) at 2. rewrite app_nth1; auto. rewrite firstn_length.
                assert (k / 8 < 12) by (apply Nat.div_lt_upper_bound; lia). lia. }
              rewrite !Hf by auto. symmetry. apply Hs. lia.
            + unfold bit_at. assert (12 <= k / 8) by (apply Nat.div_le_lower_bound; lia).
              rewrite !nth_overflow by (rewrite firstn_length; lia). reflexivity. }
        change ([0; 0; 0; 0; 0; 0; 0; 0; 0; 0; 255; 255]%N) with v4_prefix. rewrite <- Hp, <- E12. now rewrite firstn_skipn.
      * rewrite mask_length, Hl, Hv1. cbn [Nat.eqb andb].
        apply mask_eq; [rewrite mask_length; lia|now apply mask_byte_list|exact Hv2|]. now apply (proj2 (same_bits_mask _ _ _)).
    + destruct (ipv6_bytes _ _ Ha) as [Hl Hb]. rewrite app_length in Hl. cbn [length] in Hl.
      assert (parse_cidr (a ++ $"/" ++ m) = Some {| in_bytes := mask_bytes n (v4_prefix ++ net); in_mask := n |}) as ->.
      { apply parse_cidr_iff. exists a, m, (v4_prefix ++ net), n. split; auto. split; auto. split; auto. split; auto. rewrite app_length. cbn. lia. }
      unfold net_contains, network_number. cbn [in_bytes in_mask]. rewrite mask_app by (cbn; lia).
      change (8 * N.of_nat (length v4_prefix))%N with 96%N. rewrite app_length, mask_length.
      assert (length net = 4) as Hln by lia. rewrite Hln. change (length v4_prefix + 4 =? 16) with true. cbn [andb].
      change (firstn 12 (v4_prefix ++ mask_bytes (n - 96) net)) with v4_prefix.
      change (byte_list_eqb v4_prefix v4_prefix) with true. cbv iota.
      change (skipn 12 (v4_prefix ++ mask_bytes (n - 96) net)) with (mask_bytes (n - 96) net).
      destruct Hv as [Hv1 Hv2]. rewrite mask_length, Hln, Hv1. cbn [Nat.eqb andb].
      unfold bytes in Hb. apply Forall_app in Hb as [_ Hb].
      apply mask_eq; [rewrite mask_length; lia|now apply mask_byte_list|exact Hv2|]. apply (proj2 (same_bits_mask _ _ _)).
      replace (N.to_nat (n - 96)) with (N.to_nat n - 96) by lia. exact Hs.
Qed.
Print Assumptions C110_network.

(** A request without address is in no network. *)
Theorem C110_no_address : forall s, cidr_contains_ip s None = false.
Proof.
  intros s. unfold cidr_contains_ip. destruct (parse_cidr s) as [net|] eqn:E; [|reflexivity].
  apply parse_cidr_iff in E as [a [m [b [n [-> [Hb [Hm [Hn ->]]]]]]]]. unfold net_contains, network_number. cbn [in_bytes in_mask].
  assert (length b = 4 \/ length b = 16) as Hl by (destruct Hb as [Hb|Hb]; [left; now inversion Hb|right; now apply ipv6_bytes in Hb]).
  rewrite mask_length. destruct Hl as [Hl|Hl]; rewrite Hl; cbn [Nat.eqb andb].
  - rewrite mask_length, Hl. reflexivity.
  - destruct (byte_list_eqb (firstn 12 (mask_bytes n b)) v4_prefix).
    + rewrite skipn_length, mask_length, Hl. reflexivity.
    + rewrite mask_length, Hl. reflexivity.
Qed.
Print Assumptions C110_no_address.

Example C110_example :
  map (fun s => cidr_contains_ip s (Some (IP4 [10; 1; 2; 3]%N)))
      [$"10.0.0.0/8"; $"10.1.2.0/30"; $"10.1.2.4/30"; $"::ffff:10.1.0.0/112"; $"0.0.0.0/0"; $"::/0"; $"10.0.0.0/33"; $"10.0.0/8"]
  = [true; true; false; true; true; false; false; false] /\
  cidr_contains_ip ($"2001:db8::/32") (Some (IP6 [32;1;13;184;0;0;0;0;0;0;0;0;0;0;0;9]%N)) = true /\
  valid_ip (IP4 [10; 1; 2; 3]%N) /\ valid_ip (IP6 [32;1;13;184;0;0;0;0;0;0;0;0;0;0;0;9]%N).
Proof.
  split; [reflexivity|]. split; [reflexivity|]. split; [split; [reflexivity|repeat constructor]|].
  split; [reflexivity|]. split; [repeat constructor|]. intros [t Ht]. discriminate.
Qed.

(** ** The groups of a client, with the functions of the code *)
Definition canonical (i : ip) : str := go_ip_string (Some i).

Lemma denotes_names fq ident req i : (forall n, In n (req_names req) -> ~ In "/"%char n) -> req_ip req = Some i -> valid_ip i ->
  denotes go_glob cidr_contains_ip go_ip_string fq ident req <-> names_client fq canonical ident req.
Proof.
  intros Hn Hi Hv. unfold denotes, names_client.
  assert (forall n low, In n (req_names req) -> lowered n low -> ~ In "/"%char low) as Hlow.
  { intros n low Hin Hl. apply lowered_iff in Hl. subst low. intros Hx. apply (Hn n Hin). unfold to_lower in Hx.
    rewrite in_map_iff in Hx. destruct Hx as [x [Hx Hinx]]. unfold lower_ascii in Hx.
    destruct ((65 <=? N_of_ascii x) && (N_of_ascii x <=? 90))%N eqn:E; [|now subst].
    apply andb_prop in E as [E1 E2]. apply N.leb_le in E1, E2. apply (f_equal N_of_ascii) in Hx.
    rewrite N_ascii_embedding in Hx by lia. cbn in Hx. lia. }
  rewrite Hi. split.
  - intros [[n [low [H1 [H2 H3]]]]|[H|[H|[H [j [Hj Hin]]]]]].
    + left. exists n, low. split; auto. split; auto. now apply C109_sound.
    + right. exists i. auto.
    + right. exists i. split; auto. right. left. now apply C110_network.
    + right. injection Hj as <-. exists i. auto.
  - intros [[n [low [H1 [H2 H3]]]]|[j [Hj [H|[H|[H Hin]]]]]].
    + left. exists n, low. split; auto. split; auto. apply C109_exact_partial; eauto.
    + injection Hj as <-. right. left. exact H.
    + injection Hj as <-. right. right. left. now apply C110_network.
    + injection Hj as <-. right. right. right. split; auto. exists i. auto.
Qed.

(** The groups checked for a client are exactly those of the identifiers that name it. *)
Theorem C110_groups_partial : forall cfg iter fq disabled req i,
  (forall j, Permutation (client_groups_block (bc_clients cfg)) (iter j)) ->
  (forall n, In n (req_names req) -> ~ In "/"%char n) -> req_ip req = Some i -> valid_ip i ->
  forall g, In g (groups_to_check go_glob cidr_contains_ip go_ip_string (iter 0) iter fq disabled req) <->
            group_of_client cfg fq canonical disabled req g.
Proof.
  intros cfg iter fq disabled req i Hit Hn Hi Hv g.
  destruct (C25_groups_exact go_glob cidr_contains_ip go_ip_string cfg iter fq disabled req Hit) as [H _]. rewrite H.
  unfold applies, group_of_client, assigned. cbv zeta.
  assert (forall g', (exists ident, given cfg ident g' /\ denotes go_glob cidr_contains_ip go_ip_string fq ident req) <->
                     (exists ident, given cfg ident g' /\ names_client fq canonical ident req)) as E.
  { intros g'. split; intros [ident [H1 H2]]; exists ident; split; auto; now apply (denotes_names fq ident req i). }
  split; intros [[H1|[H1 H2]] H3]; (split; [|exact H3]).
  - left. now apply E.
  - right. split; auto. intros g' Hg. apply (H1 g'). now apply E.
  - left. now apply E.
  - right. split; auto. intros g' Hg. apply (H1 g'). now apply E.
Qed.
Print Assumptions C110_groups_partial.

(** An identifier that is an address, but not written in canonical form, names no client. *)
Theorem C110_address_text_refuted : exists cfg iter req i ident g,
  (forall j, Permutation (client_groups_block (bc_clients cfg)) (iter j)) /\
  In (ident, [g]) (bc_clients cfg) /\ ip_text ident i /\ req_ip req = Some i /\ valid_ip i /\
  groups_to_check go_glob cidr_contains_ip go_ip_string (iter 0) iter (fun _ => []) [] req = [].
Proof.
  exists {| bc_deny := [($"ads", [$"ads.txt"])]; bc_allow := []; bc_clients := [($"2001:db8:0:0::1", [$"ads"])];
            bc_type := $"zeroIP"; bc_ttl := 60 |}.
  eexists (fun _ => _), (ex_req (Some (IP6 [32;1;13;184;0;0;0;0;0;0;0;0;0;0;0;1]%N)) [] ($"x.org") 1).
  exists (IP6 [32;1;13;184;0;0;0;0;0;0;0;0;0;0;0;1]%N), ($"2001:db8:0:0::1"), ($"ads").
  split; [intros; apply Permutation_refl|]. split; [now left|]. split; [apply C101_read; reflexivity|].
  split; [reflexivity|]. split; [|reflexivity].
  split; [reflexivity|]. split; [repeat constructor|]. intros [t Ht]. discriminate.
Qed.
Print Assumptions C110_address_text_refuted.

(** The upstream group of a client, likewise. *)
Theorem C110_upstreams_partial : forall groups iter req i,
  (forall j, Permutation (iter j) groups) -> (forall n, In n (req_names req) -> ~ In "/"%char n) -> req_ip req = Some i -> valid_ip i ->
  upstream_group canonical groups i (req_names req)
    (group_by_client go_ip_string go_glob cidr_contains_ip groups iter req).
Proof.
  intros groups iter req i Hit Hn Hi Hv.
  pose proof (C48_group_partial go_glob cidr_contains_ip go_ip_string groups iter req Hit) as H.
  assert (forall n low, In n (req_names req) -> lowered n low -> ~ In "/"%char low) as Hlow.
  { intros n low Hin Hl. apply lowered_iff in Hl. subst low. intros Hx. apply (Hn n Hin). unfold to_lower in Hx.
    rewrite in_map_iff in Hx. destruct Hx as [x [Hx Hinx]]. unfold lower_ascii in Hx.
    destruct ((65 <=? N_of_ascii x) && (N_of_ascii x <=? 90))%N eqn:E; [|now subst].
    apply andb_prop in E as [E1 E2]. apply N.leb_le in E1, E2. apply (f_equal N_of_ascii) in Hx.
    rewrite N_ascii_embedding in Hx by lia. cbn in Hx. lia. }
  assert (forall (P : str -> Prop), (forall n, P n -> In n (req_names req)) ->
    (forall n' g', P n' -> In g' groups -> ~ pattern_for go_glob g' n') ->
    forall n' g' low' lg', P n' -> In g' groups -> lowered n' low' -> lowered g' lg' -> ~ pattern_accepts lg' low') as Hno.
  { intros P HP H0 n' g' low' lg' H1 H2 H3 H4 H5. apply (H0 n' g' H1 H2). exists lg', low'. split; auto. split; auto.
    apply C109_exact_partial; auto. apply (Hlow n'); auto. }
  inversion H as [H1 E|g n before after H1 Hb H2 H3 H4 E|g H1 H2 H3 H4 E|H1 H2 H3 E].
  - rewrite Hi in *. now apply ug_address.
  - rewrite Hi in H1. destruct H4 as [lg [ln [G1 [G2 G3]]]]. apply (ug_name canonical groups i (req_names req) _ n ln before after); auto.
    + apply (Hno (fun n0 => In n0 before)); auto. intros n0 H0. rewrite Hb. apply in_or_app. now left.
    + exists lg. split; auto. now apply C109_sound.
  - rewrite Hi in H1, H4. apply ug_net; auto; [|now apply C110_network]. apply (Hno (fun n0 => In n0 (req_names req))); auto.
  - rewrite Hi in H1, H3. apply ug_default; auto; [apply (Hno (fun n0 => In n0 (req_names req))); auto|].
    intros g' Hg Hnet. apply C110_network in Hnet; auto. rewrite H3 in Hnet; auto. discriminate.
Qed.
Print Assumptions C110_upstreams_partial.

Definition mt_cfg : blk_cfg :=
  {| bc_deny := [($"ads", [$"ads.txt"]); ($"adult", [$"adult.txt"])]; bc_allow := [];
     bc_clients := [($"default", [$"ads"]); ($"Kid*,10.0.0.0/8", [$"adult"]); ($"tv-[0-9]", [$"ads"])];
     bc_type := $"zeroIP"; bc_ttl := 60 |}.
Definition mt_groups (i : ip) (ns : list str) : list str :=
  groups_to_check go_glob cidr_contains_ip go_ip_string (client_groups_block (bc_clients mt_cfg))
    (fun _ => client_groups_block (bc_clients mt_cfg)) (fun _ => []) [] (ex_req (Some i) ns ($"x.org") 1).

Example C110_groups_example :
  mt_groups (IP4 [192; 168; 0; 1]%N) [$"KIDS-pc"] = [$"adult"] /\
  mt_groups (IP4 [10; 168; 0; 1]%N) [$"tv-4"] = [$"ads"; $"adult"] /\
  mt_groups (IP4 [192; 168; 0; 1]%N) [$"tv-x"] = [$"ads"] /\
  group_by_client go_ip_string go_glob cidr_contains_ip [$"default"; $"10.0.0.0/8"; $"Laptop*"] (fun _ => [$"default"; $"10.0.0.0/8"; $"Laptop*"])
    (ex_req (Some (IP4 [10; 0; 0; 9]%N)) [$"tv"; $"laptop-3"] ($"x.org") 1) = $"Laptop*" /\
  group_by_client go_ip_string go_glob cidr_contains_ip [$"default"; $"10.0.0.0/8"; $"Laptop*"] (fun _ => [$"default"; $"10.0.0.0/8"; $"Laptop*"])
    (ex_req (Some (IP4 [10; 0; 0; 9]%N)) [$"tv"] ($"x.org") 1) = $"10.0.0.0/8".
Proof. repeat split. Qed.
