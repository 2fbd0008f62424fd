(** Proofs about client identifiers. *)
From Coq Require Import String Ascii List Arith NArith Bool Lia.
From Verif Require Import Str StrFacts Num Dns Arpa ArpaSpec Ip IpSpec Ecs Match MatchSpec.
Import ListNotations.
Open Scope list_scope.

(** ** Character classes *)
Lemma get_esc_text s c t : class_char s c -> t <> [] -> get_esc (s ++ t) = Some (c, t).
Proof.
  intros H Ht. destruct H as [c H|c]; cbn [app get_esc].
  - destruct (Ascii.eqb_spec c "-") as [->|H1]; [exfalso; apply H; now left|].
    destruct (Ascii.eqb_spec c "]") as [->|H2]; [exfalso; apply H; right; now left|]. cbn [orb].
    destruct (Ascii.eqb_spec c backslash) as [->|H3]; [exfalso; apply H; right; right; now left|].
    destruct t; [congruence|reflexivity].
  - cbn. destruct t; [congruence|reflexivity].
Qed.

Lemma get_esc_inv s c t : get_esc s = Some (c, t) -> exists s0, class_char s0 c /\ s = s0 ++ t /\ t <> [].
Proof.
  destruct s as [|x s]; cbn [get_esc]; [discriminate|].
  destruct (Ascii.eqb_spec x "-") as [->|H1]; [discriminate|].
  destruct (Ascii.eqb_spec x "]") as [->|H2]; [discriminate|]. cbn [orb].
  destruct (Ascii.eqb_spec x backslash) as [->|H3].
  - destruct s as [|d [|e s]]; try discriminate. intros [= <- <-]. exists [backslash; d].
    split; [apply cc_escaped|]. split; [reflexivity|discriminate].
  - destruct s as [|e s]; [discriminate|]. intros [= <- <-]. exists [x].
    split; [unfold backslash in H3; apply cc_plain; cbn; intuition congruence|]. split; [reflexivity|discriminate].
Qed.

Lemma class_char_head s c : class_char s c -> exists x s', s = x :: s' /\ x <> "-"%char /\ x <> "]"%char.
Proof.
  intros [c' H|c']; [exists c', []|exists backslash, [c']]; split; try reflexivity.
  - split; intros ->; apply H; cbn; auto.
  - split; discriminate.
Qed.

Lemma class_text_head s rs : class_text s rs -> exists x s', s = x :: s' /\ x <> "-"%char /\ x <> "]"%char.
Proof.
  intros [s0 r H|s0 r t rs' H _]; destruct H as [s1 c H|s1 lo s2 hi H _]; apply class_char_head in H as [x [s' [-> H]]];
    repeat (rewrite <- ?app_assoc; cbn [app]); eauto.
Qed.

Definition has (r : ascii) (rs : list (ascii * ascii)) : bool := existsb (fun p => between (fst p) r (snd p)) rs.

Lemma class_range_step s lh : class_range s lh -> forall fuel first found r t,
  t <> [] -> match t with c :: _ => c <> "-"%char | [] => True end ->
  class_ranges (S fuel) (s ++ t) r first found = class_ranges fuel t r false (found || between (fst lh) r (snd lh)).
Proof.
  intros H fuel first found r t Ht Hd. cbn [class_ranges]. destruct H as [s c H|s lo s2 hi H H2].
  - pose proof (class_char_head _ _ H) as [x [s' [Hs [_ Hx]]]]. rewrite (get_esc_text _ _ _ H Ht). subst s. cbn [app].
    destruct (Ascii.eqb_spec x "]"); [contradiction|]. cbn [andb]. destruct t as [|y t]; [congruence|].
    destruct (Ascii.eqb_spec y "-"); [contradiction|]. reflexivity.
  - pose proof (class_char_head _ _ H) as [x [s' [Hs [_ Hx]]]].
    replace ((s ++ $"-" ++ s2) ++ t) with (s ++ "-"%char :: s2 ++ t) by (cbn; now rewrite <- app_assoc).
    rewrite (get_esc_text s lo) by (auto; discriminate). subst s. cbn [app].
    destruct (Ascii.eqb_spec x "]"); [contradiction|]. cbn [andb]. change (Ascii.eqb "-" "-") with true. cbv iota.
    cbn [tl]. rewrite (get_esc_text s2 hi) by auto. reflexivity.
Qed.

Lemma class_range_length s lh : class_range s lh -> 1 <= length s.
Proof.
  intros [s0 c H|s0 lo s2 hi H _]; apply class_char_head in H as [x [s' [-> _]]]; cbn; lia.
Qed.

Lemma class_ranges_text s rs : class_text s rs -> forall fuel first found r t,
  length (s ++ "]"%char :: t) <= fuel ->
  class_ranges fuel (s ++ "]"%char :: t) r first found = Some (found || has r rs, t).
Proof.
  induction 1 as [s lh H|s lh u rs H H2 IH]; intros fuel first found r t Hf.
  - rewrite app_length in Hf. cbn in Hf. pose proof (class_range_length _ _ H).
    destruct fuel as [|[|fuel]]; try lia. rewrite (class_range_step _ _ H) by discriminate. cbn. now rewrite orb_false_r.
  - rewrite <- app_assoc in *. rewrite app_length in Hf. pose proof (class_range_length _ _ H).
    destruct fuel as [|fuel]; [lia|].
    destruct (class_text_head _ _ H2) as [x [u' [Hu [Hx _]]]].
    rewrite (class_range_step _ _ H); [|subst u; discriminate|subst u; exact Hx].
    rewrite IH by lia. cbn [has existsb]. now rewrite orb_assoc.
Qed.

Lemma class_ranges_inv : forall fuel chunk r first found m t, class_ranges fuel chunk r first found = Some (m, t) ->
  (first = false /\ chunk = "]"%char :: t /\ m = found) \/
  exists s rs, class_text s rs /\ chunk = s ++ "]"%char :: t /\ m = found || has r rs.
Proof.
  induction fuel as [|fuel IH]; intros chunk r first found m t; cbn [class_ranges]; [discriminate|].
  destruct (match chunk with c :: _ => Ascii.eqb c "]" && negb first | [] => false end) eqn:E.
  - intros [= <- <-]. left. destruct chunk as [|c chunk]; [discriminate|]. apply andb_prop in E as [E1 E2].
    apply Ascii.eqb_eq in E1. subst c. destruct first; [discriminate|]. auto.
  - destruct (get_esc chunk) as [[lo u]|] eqn:E1; [|discriminate].
    apply get_esc_inv in E1 as [s1 [H1 [-> Hu]]].
    assert (forall s lh u', class_range s lh -> s1 ++ u = s ++ u' ->
      class_ranges fuel u' r false (found || between (fst lh) r (snd lh)) = Some (m, t) ->
      exists s rs, class_text s rs /\ s1 ++ u = s ++ "]"%char :: t /\ m = found || has r rs) as Hgo.
    { intros s lh u' Hr He Hc. rewrite He. apply IH in Hc as [[_ [-> ->]]|[s' [rs [Ht [-> ->]]]]].
      - exists s, [lh]. split; [now constructor|]. split; [reflexivity|]. cbn. now rewrite orb_false_r.
      - exists (s ++ s'), (lh :: rs). split; [now constructor|]. split; [now rewrite <- app_assoc|].
        cbn [has existsb]. now rewrite orb_assoc. }
    destruct u as [|y u]; [congruence|]. destruct (Ascii.eqb_spec y "-") as [->|Hy].
    + cbn [tl]. destruct (get_esc u) as [[hi v]|] eqn:E2; [|discriminate].
      apply get_esc_inv in E2 as [s2 [H2 [-> Hv]]]. intros Hc. right.
      apply (Hgo (s1 ++ $"-" ++ s2) (lo, hi) v); [now constructor| |exact Hc]. cbn. now rewrite <- app_assoc.
    + intros Hc. right. apply (Hgo s1 (lo, lo) (y :: u)); [now constructor|reflexivity|exact Hc].
Qed.

(** ** Chunks *)
Definition single (i : item) : Prop := i <> AnyText.

Definition eats (i : item) (x : ascii) : bool :=
  match i with
  | AnyText => false
  | AnyChar => negb (Ascii.eqb x slash)
  | OneOf negated rs => xorb (has x rs) negated
  | Char c => Ascii.eqb c x
  end.

Fixpoint eat (is : list item) (s : str) : option str :=
  match is, s with
  | [], _ => Some s
  | i :: is', x :: s' => if eats i x then eat is' s' else None
  | _ :: _, [] => None
  end.

Lemma between_range lo r hi : between lo r hi = true <-> in_range r (lo, hi).
Proof.
  unfold between, in_range, nat_of_ascii. cbn [fst snd]. rewrite andb_true_iff, !N.leb_le. lia.
Qed.

Lemma has_spec r rs : has r rs = true <-> exists p, In p rs /\ in_range r p.
Proof.
  unfold has. rewrite existsb_exists. split; intros [[lo hi] [H1 H2]]; exists (lo, hi); split; auto; now apply between_range.
Qed.

Lemma eats_spec i x : single i -> eats i x = true <-> item_accepts i [x].
Proof.
  intros Hs. destruct i as [| |neg rs|c]; cbn [eats]; [now destruct Hs| | |].
  - rewrite negb_true_iff. split.
    + intros H. apply ia_char. apply Ascii.eqb_neq in H. exact H.
    + intros H. inversion H; subst. now apply Ascii.eqb_neq.
  - split.
    + destruct (has x rs) eqn:E, neg; cbn; try discriminate; intros _.
      * apply has_spec in E as [p [H1 H2]]. now apply ia_class with p.
      * apply ia_negated. intros p Hp Hr. assert (has x rs = true) by (apply has_spec; eauto). congruence.
    + intros H. inversion H as [| |? ? p Hp Hr|? ? Hn|]; subst.
      * assert (has x rs = true) as -> by (apply has_spec; eauto). reflexivity.
      * destruct (has x rs) eqn:E; [|reflexivity]. apply has_spec in E as [p [H1 H2]]. now destruct (Hn p H1).
  - rewrite Ascii.eqb_eq. split; [intros ->; constructor|intros H; now inversion H].
Qed.

Lemma item_accepts_single i s : single i -> item_accepts i s -> exists x, s = [x].
Proof. intros Hs H. destruct H; eauto. now destruct Hs. Qed.

Lemma eat_accepts is1 : Forall single is1 -> forall is2 n,
  accepts (is1 ++ is2) n <-> exists t, eat is1 n = Some t /\ accepts is2 t.
Proof.
  induction 1 as [|i is1 Hi Hs IH]; intros is2 n; cbn [app].
  - destruct n; cbn; split; eauto; intros [t [[= <-] H]]; exact H.
  - split.
    + intros H. inversion H as [|? s ? t Ha Hr]; subst. destruct (item_accepts_single _ _ Hi Ha) as [x ->].
      apply eats_spec in Ha; auto. cbn [app eat]. rewrite Ha. now apply IH.
    + intros [t [He Ht]]. destruct n as [|x n]; cbn [eat] in He; [discriminate|].
      destruct (eats i x) eqn:E; [|discriminate]. change (x :: n) with ([x] ++ n). constructor; [now apply eats_spec|].
      apply IH. eauto.
Qed.

Lemma eat_skip is : forall n t, eat is n = Some t -> t = skipn (length is) n.
Proof.
  induction is as [|i is IH]; intros n t; cbn [eat length skipn]; [now destruct n; intros [= <-]|].
  destruct n as [|x n]; [discriminate|]. destruct (eats i x); [|discriminate]. apply IH.
Qed.

Lemma item_text_length s i : item_text s i -> 1 <= length s.
Proof. intros H. destruct H; cbn; lia. Qed.

Definition run (is : list item) (st : option str) : chunk_res :=
  match st with Some s => match eat is s with Some t => COk t | None => CFail end | None => CFail end.

Lemma match_item s i : item_text s i -> single i -> forall fuel t st,
  match_chunk (S fuel) (s ++ t) st =
  match_chunk fuel t (match st with Some (x :: u) => if eats i x then Some u else None | _ => None end).
Proof.
  intros H Hs fuel t st. destruct H as [| |s rs Hc Hn|s rs Hc|c Hc|c].
  - now destruct Hs.
  - cbn. destruct st as [[|x u]|]; auto. destruct (Ascii.eqb x slash); reflexivity.
  - replace (($"[" ++ s ++ $"]") ++ t) with ("["%char :: s ++ "]"%char :: t) by (cbn; now rewrite <- app_assoc).
    cbn [match_chunk]. change (Ascii.eqb "[" "[") with true. cbv iota. cbv zeta.
    assert (match s ++ "]"%char :: t with d :: _ => Ascii.eqb d "^" | [] => false end = false) as ->.
    { destruct s as [|x s]; [reflexivity|]. cbn [app]. apply Ascii.eqb_neq. intros ->. now apply (Hn s). }
    rewrite (class_ranges_text _ _ Hc) by lia. destruct st as [[|x u]|]; auto.
    cbn [orb eats]. destruct (has x rs); reflexivity.
  - replace (($"[^" ++ s ++ $"]") ++ t) with ("["%char :: "^"%char :: s ++ "]"%char :: t) by (cbn; now rewrite <- app_assoc).
    cbn [match_chunk]. change (Ascii.eqb "[" "[") with true. change (Ascii.eqb "^" "^") with true. cbv iota. cbv zeta. cbn [tl].
    rewrite (class_ranges_text _ _ Hc) by lia. destruct st as [[|x u]|]; auto.
    cbn [orb eats]. destruct (has x rs); reflexivity.
  - cbn [app match_chunk].
    destruct (Ascii.eqb_spec c "[") as [->|_]; [exfalso; apply Hc; cbn; auto|].
    destruct (Ascii.eqb_spec c "?") as [->|_]; [exfalso; apply Hc; cbn; auto|].
    destruct (Ascii.eqb_spec c backslash) as [->|_]; [exfalso; apply Hc; cbn; auto|]. reflexivity.
  - reflexivity.
Qed.

Lemma match_chunk_text p is : pattern_text p is -> Forall single is -> forall fuel st, length p <= fuel ->
  match_chunk fuel p st = run is st.
Proof.
  induction 1 as [|s i t is Hi Ht IH]; intros Hs fuel st Hf.
  - destruct fuel, st as [[|x u]|]; reflexivity.
  - inversion Hs as [|? ? H1 H2]; subst. rewrite app_length in Hf. pose proof (item_text_length _ _ Hi).
    destruct fuel as [|fuel]; [lia|]. rewrite (match_item _ _ Hi H1), IH by (auto; lia).
    destruct st as [[|x u]|]; cbn [run eat]; auto. destruct (eats i x); reflexivity.
Qed.

(** ** Scanning *)
Lemma scan_class s rs : class_text s rs -> forall q, scan_loop true (s ++ q) = (s ++ fst (scan_loop true q), snd (scan_loop true q)).
Proof.
  assert (forall s c, class_char s c -> forall q, scan_loop true (s ++ q) = (s ++ fst (scan_loop true q), snd (scan_loop true q))) as Hc.
  { intros s0 c [c' H|c'] q; cbn [app scan_loop].
    - destruct (Ascii.eqb_spec c' backslash) as [->|_]; [exfalso; apply H; cbn; auto|].
      destruct (Ascii.eqb_spec c' "[") as [->|_]; [destruct (scan_loop true q); reflexivity|].
      destruct (Ascii.eqb_spec c' "]") as [->|_]; [exfalso; apply H; cbn; auto|].
      rewrite andb_false_r. destruct (scan_loop true q); reflexivity.
    - change (Ascii.eqb "\" backslash) with true. cbv iota. destruct (scan_loop true q); reflexivity. }
  assert (forall s r, class_range s r -> forall q, scan_loop true (s ++ q) = (s ++ fst (scan_loop true q), snd (scan_loop true q))) as Hr.
  { intros s0 r [s1 c H|s1 lo s2 hi H H2] q; [eapply Hc; eauto|].
    rewrite <- !app_assoc. rewrite (Hc _ _ H). cbn [lit list_ascii_of_string app scan_loop].
    change (Ascii.eqb "-" backslash) with false. change (Ascii.eqb "-" "[") with false.
    change (Ascii.eqb "-" "]") with false. change (Ascii.eqb "-" star) with false. cbn [andb].
    rewrite (Hc _ _ H2). cbn [fst snd]. reflexivity. }
  induction 1 as [s r H|s r t rs H H2 IH]; intros q; [eapply Hr; eauto|].
  rewrite <- app_assoc, (Hr _ _ H), IH. cbn [fst snd]. now rewrite <- app_assoc.
Qed.

Lemma scan_item s i : item_text s i -> single i -> forall q,
  scan_loop false (s ++ q) = (s ++ fst (scan_loop false q), snd (scan_loop false q)).
Proof.
  intros H Hs q. destruct H as [| |s rs Hc Hn|s rs Hc|c Hc|c].
  - now destruct Hs.
  - cbn. destruct (scan_loop false q); reflexivity.
  - cbn [lit list_ascii_of_string app scan_loop]. change (Ascii.eqb "[" backslash) with false. change (Ascii.eqb "[" "[") with true. cbv iota.
    rewrite <- app_assoc, (scan_class _ _ Hc). cbn. destruct (scan_loop false q). cbn. now rewrite <- app_assoc.
  - cbn [lit list_ascii_of_string app scan_loop]. change (Ascii.eqb "[" backslash) with false. change (Ascii.eqb "[" "[") with true. cbv iota.
    change (Ascii.eqb "^" backslash) with false. change (Ascii.eqb "^" "[") with false. change (Ascii.eqb "^" "]") with false.
    change (Ascii.eqb "^" star) with false. cbn [andb].
    rewrite <- app_assoc, (scan_class _ _ Hc). cbn. destruct (scan_loop false q). cbn. now rewrite <- app_assoc.
  - cbn [app scan_loop].
    destruct (Ascii.eqb_spec c backslash) as [->|_]; [exfalso; apply Hc; cbn; auto|].
    destruct (Ascii.eqb_spec c "[") as [->|_]; [exfalso; apply Hc; cbn; auto|].
    destruct (Ascii.eqb_spec c star) as [->|_]; [exfalso; apply Hc; cbn; auto|]. cbn [andb].
    destruct (Ascii.eqb c "]"); destruct (scan_loop false q); reflexivity.
  - cbn [app scan_loop]. change (Ascii.eqb "\" backslash) with true. cbv iota. destruct (scan_loop false q); reflexivity.
Qed.

Lemma scan_split : forall n p, length p <= n -> forall b, fst (scan_loop b p) ++ snd (scan_loop b p) = p.
Proof.
  induction n as [|n IH]; intros p Hl b; destruct p as [|c p]; try reflexivity; [cbn in Hl; lia|]. cbn in Hl. cbn [scan_loop].
  destruct (Ascii.eqb c backslash).
  - destruct p as [|d p]; [reflexivity|]. cbn in Hl. pose proof (IH p ltac:(lia) b) as H.
    destruct (scan_loop b p). cbn in *. now rewrite H.
  - destruct (Ascii.eqb c "["); [pose proof (IH p ltac:(lia) true) as H; destruct (scan_loop true p); cbn in *; now rewrite H|].
    destruct (Ascii.eqb c "]"); [pose proof (IH p ltac:(lia) false) as H; destruct (scan_loop false p); cbn in *; now rewrite H|].
    destruct (Ascii.eqb c star && negb b); [reflexivity|].
    pose proof (IH p ltac:(lia) b) as H; destruct (scan_loop b p); cbn in *; now rewrite H.
Qed.

(** A chunk that has been matched, or not, without an error is the text of a pattern without stars. *)
Lemma match_chunk_inv : forall fuel chunk rest st, scan_loop false (chunk ++ rest) = (chunk, rest) ->
  match_chunk fuel chunk st <> CBad -> exists is, pattern_text chunk is /\ Forall single is.
Proof.
  induction fuel as [|fuel IH]; intros chunk rest st Hscan Hm; destruct chunk as [|c t].
  1, 3: exists []; split; constructor.
  - now destruct Hm.
  - assert (forall s i u st', item_text s i -> single i -> c :: t = s ++ u -> match_chunk fuel u st' <> CBad ->
      exists is, pattern_text (c :: t) is /\ Forall single is) as Hgo.
    { intros s i u st' Hi Hs He Hm'. rewrite He in Hscan. rewrite <- app_assoc, (scan_item _ _ Hi Hs) in Hscan.
      destruct (scan_loop false (u ++ rest)) as [a b] eqn:E. cbn [fst snd] in Hscan.
      apply pair_equal_spec in Hscan as [H1 H2]. apply app_inv_head in H1. subst a b.
      destruct (IH _ _ _ E Hm') as [is [H1 H2]]. exists (i :: is). rewrite He. split; constructor; auto. }
    cbn [match_chunk] in Hm. destruct (Ascii.eqb_spec c "[") as [->|Hb].
    + cbv zeta in Hm. set (neg := match t with d :: _ => Ascii.eqb d "^" | [] => false end) in *.
      destruct (class_ranges (S (length (if neg then tl t else t))) (if neg then tl t else t)
                  (match st with Some (x :: _) => x | _ => zero end) true false) as [[found u]|] eqn:E; [|now destruct Hm].
      apply class_ranges_inv in E as [[E _]|[s [rs [Hc [He _]]]]]; [discriminate|]. destruct neg eqn:En; subst neg.
      * destruct t as [|d t]; [discriminate|]. apply Ascii.eqb_eq in En. subst d. cbn [tl] in He. subst t.
        eapply (Hgo ($"[^" ++ s ++ $"]") (OneOf true rs) u); [now constructor|discriminate| |exact Hm].
        cbn. now rewrite <- app_assoc.
      * subst t. eapply (Hgo ($"[" ++ s ++ $"]") (OneOf false rs) u); [constructor; auto|discriminate| |exact Hm].
        { intros s' ->. cbn in En. discriminate. }
        cbn. now rewrite <- app_assoc.
    + destruct (Ascii.eqb_spec c "?") as [->|Hq].
      { eapply (Hgo ($"?") AnyChar t); [constructor|discriminate|reflexivity|exact Hm]. }
      destruct (Ascii.eqb_spec c backslash) as [->|Hbs].
      * destruct t as [|d t]; [now destruct Hm|]. eapply (Hgo [backslash; d] (Char d) t); [constructor|discriminate|reflexivity|exact Hm].
      * eapply (Hgo [c] (Char c) t); [|discriminate|reflexivity|exact Hm]. constructor.
        unfold backslash in Hbs. cbn [In]. intros [H|[H|[H|[H|[]]]]]; try congruence. subst c. cbn in Hscan. discriminate.
Qed.

(** ** The whole pattern *)
Lemma trim_left_star p : exists k, p = repeat star k ++ trim_left star p /\
  match trim_left star p with c :: _ => c <> star | [] => True end /\
  (match p with c :: _ => Ascii.eqb c star | [] => false end = match k with 0 => false | _ => true end).
Proof.
  induction p as [|c p [k [H1 [H2 H3]]]]; cbn [trim_left]; [now exists 0|].
  destruct (Ascii.eqb_spec c star) as [->|Hc].
  - exists (S k). cbn [repeat app]. split; [now rewrite <- H1|]. auto.
  - exists 0. auto.
Qed.

Lemma pattern_text_app p is : pattern_text p is -> forall q js, pattern_text q js -> pattern_text (p ++ q) (is ++ js).
Proof. induction 1 as [|s i t is Hi Ht IH]; intros q js Hq; cbn; auto. rewrite <- app_assoc. constructor; auto. Qed.

Lemma stars_text k : pattern_text (repeat star k) (repeat AnyText k).
Proof. induction k; cbn; [constructor|]. change (star :: repeat star k) with ($"*" ++ repeat star k). constructor; auto. constructor. Qed.

(** A star in front takes a text without slash. *)
Lemma stars_accept k is a n : k <> 0 -> ~ In slash a -> accepts is n -> accepts (repeat AnyText k ++ is) (a ++ n).
Proof.
  intros Hk Ha Hn. destruct k as [|k]; [congruence|]. cbn [repeat app]. constructor; [now constructor|].
  clear Hk. induction k; cbn [repeat app]; auto. change n with ([] ++ n). constructor; auto. constructor. intros [].
Qed.

Lemma stars_inv k : forall is n, accepts (repeat AnyText k ++ is) n -> exists a b, n = a ++ b /\ accepts is b /\ (k = 0 -> a = []).
Proof.
  induction k as [|k IH]; intros is n H; cbn [repeat app] in H; [exists [], n; auto|].
  inversion H as [|? s ? t Hs Ht]; subst. destruct (IH _ _ Ht) as [a [b [-> [Hb _]]]]. exists (s ++ a), b.
  split; [now rewrite app_assoc|]. split; auto. discriminate.
Qed.

Lemma search_inv chunk last : forall name t, search chunk last name = SFound t ->
  exists a n, name = a ++ n /\ ~ In slash a /\ match_chunk (length chunk) chunk (Some n) = COk t.
Proof.
  induction name as [|x name IH]; intros t; cbn [search]; [discriminate|].
  destruct (Ascii.eqb_spec x slash) as [->|Hx]; [discriminate|].
  assert (search chunk last name = SFound t -> exists a n, x :: name = a ++ n /\ ~ In slash a /\ match_chunk (length chunk) chunk (Some n) = COk t) as Hgo.
  { intros H. destruct (IH _ H) as [a [n [-> [Ha Hm]]]]. exists (x :: a), n. split; auto. split; auto. intros [->|H']; auto. }
  destruct (match_chunk (length chunk) chunk (Some name)) as [| |u] eqn:E; auto; [discriminate|].
  destruct (last && negb (match u with [] => true | _ => false end)); auto. intros [= <-]. exists [x], name.
  split; auto. split; auto. intros [->|[]]; auto.
Qed.

Lemma contains_byte_In c s : contains_byte c s = false <-> ~ In c s.
Proof.
  induction s as [|x s IH]; cbn; [tauto|]. rewrite orb_false_iff, IH, Ascii.eqb_neq. intuition congruence.
Qed.

Lemma match_loop_sound : forall fuel p name, match_loop fuel p name = Some true -> pattern_accepts p name.
Proof.
  induction fuel as [|fuel IH]; intros p name; destruct p as [|c p]; cbn [match_loop]; try discriminate.
  1, 2: destruct name; [intros _; exists []; split; constructor|discriminate].
  set (P := c :: p). unfold scan_chunk. destruct (trim_left_star P) as [k [Hp [Hh Hk]]]. rewrite Hk. clear Hk.
  set (p' := trim_left star P) in *. pose proof (scan_split _ p' (le_n _) false) as Hs.
  destruct (scan_loop false p') as [chunk rest] eqn:Esc. cbn [fst snd] in Hs.
  assert (forall a n t, name = a ++ n -> ~ In slash a -> (k = 0 -> a = []) -> match_chunk (length chunk) chunk (Some n) = COk t ->
    match_loop fuel rest t = Some true -> pattern_accepts P name) as Hgo.
  { intros a n t -> Ha Hk Hm Hl. rewrite <- Hs in Esc.
    destruct (match_chunk_inv _ _ _ _ Esc ltac:(rewrite Hm; discriminate)) as [is [H1 H2]].
    rewrite (match_chunk_text _ _ H1 H2) in Hm by lia. cbn [run] in Hm.
    destruct (eat is n) as [u|] eqn:Eu; [|discriminate]. injection Hm as ->.
    destruct (IH _ _ Hl) as [js [H3 H4]]. exists (repeat AnyText k ++ is ++ js). split.
    - rewrite Hp, <- Hs. apply pattern_text_app; [apply stars_text|]. now apply pattern_text_app.
    - assert (accepts (is ++ js) n) as Hacc by (apply eat_accepts; eauto).
      destruct k; [rewrite (Hk eq_refl); exact Hacc|]. now apply stars_accept. }
  destruct (match k with 0 => false | _ => true end && match chunk with [] => true | _ => false end) eqn:E.
  - intros [= H]. apply negb_true_iff, contains_byte_In in H. apply andb_prop in E as [E1 E2].
    destruct k as [|k]; [discriminate|]. destruct chunk; [|discriminate].
    assert (p' = []) as Hp0.
    { destruct p' as [|x p'']; auto. exfalso. cbn [scan_loop] in Esc. destruct (Ascii.eqb x backslash).
      - destruct p'' as [|d p'']; [discriminate|]. destruct (scan_loop false p''); discriminate.
      - destruct (Ascii.eqb x "["); [destruct (scan_loop true p''); discriminate|].
        destruct (Ascii.eqb x "]"); [destruct (scan_loop false p''); discriminate|].
        destruct (Ascii.eqb_spec x star); [contradiction|]. cbn in Esc. destruct (scan_loop false p''); discriminate. }
    exists (repeat AnyText (S k) ++ []). split.
    + rewrite Hp, Hp0. apply pattern_text_app; [apply stars_text|constructor].
    + rewrite <- (app_nil_r name). apply stars_accept; auto. constructor.
  - assert ((if match k with 0 => false | _ => true end
             then match search chunk (match rest with [] => true | _ => false end) name with
                  | SBad => None | SNone => Some false | SFound t => match_loop fuel rest t end
             else Some false) = Some true -> pattern_accepts P name) as Hlater.
    { destruct k; [discriminate|]. destruct (search chunk (match rest with [] => true | _ => false end) name) as [| |t] eqn:Es; try discriminate.
      apply search_inv in Es as [a [n [Hn [Ha Hm]]]]. intros Hl. apply (Hgo a n t); auto. discriminate. }
    cbv zeta. destruct (match_chunk (length chunk) chunk (Some name)) as [| |t] eqn:Em; auto; [discriminate|].
    destruct (match t with [] => true | _ => false end || negb (match rest with [] => true | _ => false end)); auto.
    intros Hl. apply (Hgo [] name t); auto.
Qed.

(** *** Completeness, for names without a slash *)
Lemma decompose p is : pattern_text p is -> exists k is1 is2 p1 p2,
  p = repeat star k ++ p1 ++ p2 /\ is = repeat AnyText k ++ is1 ++ is2 /\ pattern_text p1 is1 /\ Forall single is1 /\
  pattern_text p2 is2 /\ (is2 = [] \/ exists js, is2 = AnyText :: js) /\
  match p1 ++ p2 with c :: _ => c <> star | [] => True end /\ (p1 = [] -> p2 = []).
Proof.
  induction 1 as [|s i t is Hi Ht [k [is1 [is2 [p1 [p2 [H1 [H2 [H3 [H4 [H5 [H6 [H7 H8]]]]]]]]]]]]].
  - exists 0, [], [], [], []. repeat split; auto; try constructor; auto.
  - assert (i = AnyText \/ single i) as [->|Hs] by (destruct i; [now left|right; discriminate..]).
    + inversion Hi; subst. exists (S k), is1, is2, p1, p2. split; [reflexivity|]. split; [reflexivity|]. do 5 (split; [assumption|]). assumption.
    + destruct k as [|k].
      * exists 0, (i :: is1), is2, (s ++ p1), p2. subst t is. cbn [repeat app].
        split; [now rewrite <- app_assoc|]. split; auto. split; [now constructor|]. split; [now constructor|]. split; auto. split; auto.
        split; [|intros Hn; apply app_eq_nil in Hn as [-> _]; inversion Hi].
        rewrite <- app_assoc. destruct Hi as [| |s rs Hc Hn|s rs Hc|c Hc|c]; cbn [app lit list_ascii_of_string]; try discriminate.
        -- now destruct Hs.
        -- intros ->. apply Hc. now left.
      * exists 0, [i], is, s, t. split; auto. split; auto. split; [rewrite <- (app_nil_r s); constructor; [exact Hi|constructor]|]. split; [repeat constructor; auto|]. split; auto.
        split; [right; subst is; cbn; eauto|]. split; [|intros ->; inversion Hi].
        destruct Hi as [| |s rs Hc Hn|s rs Hc|c Hc|c]; cbn [app lit list_ascii_of_string]; try discriminate.
        -- now destruct Hs.
        -- intros ->. apply Hc. now left.
Qed.

Lemma trim_left_repeat k p : match p with c :: _ => c <> star | [] => True end -> trim_left star (repeat star k ++ p) = p.
Proof.
  intros Hp. induction k; cbn [repeat app trim_left].
  - destruct p as [|c p]; [reflexivity|]. cbn [trim_left]. destruct (Ascii.eqb_spec c star); [contradiction|reflexivity].
  - change (Ascii.eqb star star) with true. cbv iota. exact IHk.
Qed.

Lemma scan_text p1 is1 : pattern_text p1 is1 -> Forall single is1 -> forall p2 is2, pattern_text p2 is2 ->
  (is2 = [] \/ exists js, is2 = AnyText :: js) -> scan_loop false (p1 ++ p2) = (p1, p2).
Proof.
  induction 1 as [|s i t is Hi Ht IH]; intros Hs p2 is2 Hp2 H2; cbn [app].
  - destruct H2 as [->|[js ->]]; inversion Hp2 as [|? ? ? ? Hit]; subst; [reflexivity|]. inversion Hit; subst. reflexivity.
  - inversion Hs as [|? ? Ha Hb]; subst. rewrite <- app_assoc, (scan_item _ _ Hi Ha), (IH Hb _ _ Hp2 H2). reflexivity.
Qed.

(** The search behind a star finds the first place. *)
Lemma search_text chunk is last : pattern_text chunk is -> Forall single is -> forall a b name t, name = a ++ b -> a <> [] -> ~ In slash a ->
  eat is b = Some t -> (last = true -> t = []) ->
  exists a' b' t', name = a' ++ b' /\ length a' <= length a /\ eat is b' = Some t' /\ (last = true -> t' = []) /\ search chunk last name = SFound t'.
Proof.
  intros Hc Hs. intros a b name. revert a b. induction name as [|x name IH]; intros a b t Hn Ha Hsl He Hlast.
  - symmetry in Hn. apply app_eq_nil in Hn as [-> _]. congruence.
  - destruct a as [|y a]; [congruence|]. cbn [app] in Hn. injection Hn as <- Hn. cbn [search].
    destruct (Ascii.eqb_spec x slash) as [->|Hx]; [exfalso; apply Hsl; now left|].
    rewrite (match_chunk_text _ _ Hc Hs) by lia. cbn [run].
    destruct (eat is name) as [u|] eqn:Eu.
    + destruct (last && negb (match u with [] => true | _ => false end)) eqn:El.
      * assert (a <> []) as Ha'.
        { intros ->. cbn in Hn. subst name. rewrite He in Eu. injection Eu as <-. apply andb_prop in El as [El1 El2].
          rewrite (Hlast El1) in El2. discriminate. }
        destruct (IH a b t Hn Ha' ltac:(intros H; apply Hsl; now right) He Hlast) as [a' [b' [t' [H1 [H2 [H3 [H4 H5]]]]]]].
        exists (x :: a'), b', t'. split; [cbn; now rewrite <- H1|]. split; [cbn; lia|]. auto.
      * exists [x], name, u. split; [reflexivity|]. split; [cbn; lia|]. split; auto. split; auto.
        intros ->. destruct u; [reflexivity|discriminate].
    + assert (a <> []) as Ha' by (intros ->; cbn in Hn; subst name; congruence).
      destruct (IH a b t Hn Ha' ltac:(intros H; apply Hsl; now right) He Hlast) as [a' [b' [t' [H1 [H2 [H3 [H4 H5]]]]]]].
      exists (x :: a'), b', t'. split; [cbn; now rewrite <- H1|]. split; [cbn; lia|]. auto.
Qed.

Lemma skipn_app_le {A} (a b : list A) k : skipn (length a + k) (a ++ b) = skipn k b.
Proof. induction a; cbn; auto. Qed.

Lemma skipn_twice {A} (l : list A) : forall a b, skipn a (skipn b l) = skipn (b + a) l.
Proof. induction l as [|x l IH]; intros a b; [now rewrite !skipn_nil|]. destruct b; cbn [skipn Nat.add]; auto. Qed.

(** What is left after the first place is at least as much. *)
Lemma star_absorbs js is a b a' b' t t' : a ++ b = a' ++ b' -> length a' <= length a -> ~ In slash (a ++ b) ->
  eat is b = Some t -> eat is b' = Some t' -> accepts (AnyText :: js) t -> accepts (AnyText :: js) t'.
Proof.
  intros He Hl Hn H1 H2 Hacc. pose proof (eat_skip _ _ _ H1) as E1. pose proof (eat_skip _ _ _ H2) as E2.
  inversion Hacc as [|? u ? v Hu Hv Hj Ht]. rewrite E1 in Ht. rewrite E2.
  assert (~ In slash u) as Hu' by (intros Hin; apply Hn, in_or_app; right; rewrite <- (firstn_skipn (length is) b), <- Ht;
    apply in_or_app; right; apply in_or_app; now left).
  set (d := length a - length a').
  assert (b = skipn d b') as Hb.
  { assert (skipn (length a + 0) (a ++ b) = skipn (length a' + d) (a' ++ b')) as E by (rewrite He; f_equal; unfold d; lia).
    rewrite !skipn_app_le in E. exact E. }
  assert (skipn (length is) b = skipn d (skipn (length is) b')) as E.
  { rewrite Hb, !skipn_twice. f_equal. lia. }
  rewrite <- (firstn_skipn d (skipn (length is) b')). rewrite <- E, <- Ht. rewrite app_assoc. constructor; auto. constructor.
  intros Hin. apply Hn. rewrite He. apply in_or_app. right.
  apply in_app_or in Hin as [Hin|Hin].
  - rewrite <- (firstn_skipn (length is) b'). apply in_or_app. right.
    rewrite <- (firstn_skipn d (skipn (length is) b')). apply in_or_app. now left.
  - now destruct Hu'.
Qed.

Lemma accepts_suffix_slash is n t : eat is n = Some t -> ~ In slash n -> ~ In slash t.
Proof.
  intros H Hn Hin. apply Hn. rewrite (eat_skip _ _ _ H) in Hin. rewrite <- (firstn_skipn (length is) n). apply in_or_app. now right.
Qed.

Lemma match_loop_complete : forall fuel p is name, length p <= fuel -> pattern_text p is -> accepts is name -> ~ In slash name ->
  match_loop fuel p name = Some true.
Proof.
  induction fuel as [|fuel IH]; intros p is name Hf Hp Ha Hn.
  - destruct p; [|cbn in Hf; lia]. cbn [match_loop]. inversion Hp as [Hx|s i t is' Hi Ht Hx]; subst.
    + inversion Ha. reflexivity.
    + apply app_eq_nil in Hx as [-> _]. inversion Hi.
  - destruct (decompose _ _ Hp) as [k [is1 [is2 [p1 [p2 [H1 [H2 [H3 [H4 [H5 [H6 [H7 H8]]]]]]]]]]]].
    destruct p as [|c p].
    { cbn [match_loop]. inversion Hp as [Hx|s i t is' Hi Ht Hx]; [|apply app_eq_nil in Hx as [-> _]; inversion Hi].
      rewrite <- H0 in Ha. inversion Ha. reflexivity. }
    cbn [match_loop]. set (P := c :: p) in *. unfold scan_chunk. rewrite H1 at 1. rewrite trim_left_repeat by exact H7.
    rewrite (scan_text _ _ H3 H4 _ _ H5 H6).
    assert (match P with c0 :: _ => Ascii.eqb c0 star | [] => false end = match k with 0 => false | _ => true end) as ->.
    { rewrite H1. destruct k; cbn [repeat app]; [|reflexivity].
      destruct (p1 ++ p2) as [|x q]; [reflexivity|]. now apply Ascii.eqb_neq. }
    assert (length p2 <= fuel) as Hf2.
    { assert (length P = length (repeat star k ++ p1 ++ p2)) as Hlen by now rewrite H1.
      rewrite !app_length, repeat_length in Hlen.
      destruct p1 as [|x p1]; [rewrite (H8 eq_refl); cbn; lia|]. cbn [length] in Hlen. unfold P in *. cbn [length] in *. lia. }
    rewrite H2 in Ha. destruct (stars_inv _ _ _ Ha) as [a [b [Hname [Hb Hk]]]].
    apply (eat_accepts _ H4) in Hb as [t [Het Hat]].
    assert (match p2 with [] => true | _ => false end = match is2 with [] => true | _ => false end) as Hlast.
    { inversion H5 as [|s i u js Hi Hu]; subst; [reflexivity|]. apply item_text_length in Hi. destruct s; [cbn in Hi; lia|reflexivity]. }
    rewrite Hlast.
    assert (is2 = [] -> t = []) as Hend by (intros ->; now inversion Hat).
    destruct (match k with 0 => false | _ => true end && match p1 with [] => true | _ => false end) eqn:E.
    { f_equal. apply negb_true_iff, contains_byte_In. exact Hn. }
    cbv zeta. rewrite (match_chunk_text _ _ H3 H4) by lia. cbn [run].
    (* matching at the place [a'] goes on well *)
    assert (forall a' b' t', name = a' ++ b' -> length a' <= length a -> eat is1 b' = Some t' -> (is2 = [] -> t' = []) ->
      match_loop fuel p2 t' = Some true) as Hgo.
    { intros a' b' t' Hn' Hl He He'. apply IH with is2; auto.
      - destruct H6 as [->|[js ->]]; [rewrite (He' eq_refl); constructor|].
        apply (star_absorbs js is1 a b a' b' t t'); auto; [congruence|now rewrite <- Hname].
      - apply (accepts_suffix_slash _ _ _ He). intros Hin. apply Hn. rewrite Hn'. apply in_or_app. now right. }
    assert (k <> 0 -> a <> [] -> (if match k with 0 => false | _ => true end
             then match search p1 (match is2 with [] => true | _ => false end) name with
                  | SBad => None | SNone => Some false | SFound t0 => match_loop fuel p2 t0 end
             else Some false) = Some true) as Hlater.
    { intros Hk0 Ha0. destruct k; [congruence|]. cbv iota.
      destruct (search_text p1 is1 (match is2 with [] => true | _ => false end) H3 H4 a b name t Hname Ha0) as [a' [b' [t' [G1 [G2 [G3 [G4 G5]]]]]]]; auto.
      - intros Hin. apply Hn. rewrite Hname. apply in_or_app. now left.
      - destruct is2; [auto|discriminate].
      - rewrite G5. apply (Hgo a' b' t'); auto. intros ->. now apply G4. }
    destruct a as [|x a].
    + cbn [app] in Hname. subst b. rewrite Het.
      assert ((match t with [] => true | _ => false end || negb (match is2 with [] => true | _ => false end)) = true) as ->.
      { destruct is2; [rewrite (Hend eq_refl); reflexivity|apply orb_true_r]. }
      apply (Hgo [] name t); auto.
    + assert (k <> 0) as Hk0 by (intros ->; discriminate (Hk eq_refl)).
      destruct (eat is1 name) as [u|] eqn:Eu; [|apply Hlater; auto; discriminate].
      destruct (match u with [] => true | _ => false end || negb (match is2 with [] => true | _ => false end)) eqn:Ec;
        [|apply Hlater; auto; discriminate].
      apply (Hgo [] name u); auto; [cbn; lia|]. intros ->. cbn in Ec. destruct u; [reflexivity|discriminate].
Qed.
