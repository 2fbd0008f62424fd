(** Lemmas about the list parsers. *)
From Coq Require Import String Ascii List Arith Bool NArith ZArith Lia.
From Verif Require Import Str StrFacts StringCache Parsers ParsersSpec.
Import ListNotations.

(** ** White space and words *)

Lemma is_space_white c : is_space c = true <-> white c.
Proof.
  unfold white. split.
  - destruct c as [[] [] [] [] [] [] [] []]; vm_compute; intros H; try discriminate H; auto 10.
  - simpl. intros H. repeat destruct H as [<-|H]; try reflexivity. destruct H.
Qed.

Lemma is_space_false c : is_space c = false <-> ~ white c.
Proof. rewrite <- is_space_white. destruct (is_space c); split; congruence. Qed.

Lemma white_dec c : {white c} + {~ white c}.
Proof.
  destruct (is_space c) eqn:E; [left; now apply is_space_white|right; now apply is_space_false].
Qed.

Lemma hash_not_white : ~ white hash.
Proof. apply is_space_false. reflexivity. Qed.

Lemma blank_app a b : blank (a ++ b) <-> blank a /\ blank b.
Proof. apply Forall_app. Qed.

Lemma blank_rev a : blank a -> blank (rev a).
Proof. apply Forall_rev. Qed.

Definition starts_ink (x : str) := exists c r, x = c :: r /\ ~ white c.
Definition ends_ink (x : str) := exists r c, x = r ++ [c] /\ ~ white c.

Lemma tsl_blank a x : blank a -> trim_space_left (a ++ x) = trim_space_left x.
Proof.
  induction 1; simpl; auto. apply is_space_white in H. now rewrite H.
Qed.

Lemma tsl_ink x : starts_ink x -> trim_space_left x = x.
Proof. intros [c [r [-> H]]]. simpl. apply is_space_false in H. now rewrite H. Qed.

Lemma tsl_cases x : exists a y, x = a ++ y /\ blank a /\ trim_space_left x = y /\ (y = [] \/ starts_ink y).
Proof.
  induction x as [|c x IH]; simpl.
  - exists [], []. repeat split; auto. constructor.
  - destruct (is_space c) eqn:E.
    + destruct IH as [a [y [-> [H1 [H2 H3]]]]]. exists (c :: a), y. repeat split; auto.
      constructor; auto. now apply is_space_white.
    + exists [], (c :: x). repeat split; auto; [constructor|]. right. exists c, x. split; auto.
      now apply is_space_false.
Qed.

Definition tsr (x : str) := rev (trim_space_left (rev x)).

Lemma tsr_blank x a : blank a -> tsr (x ++ a) = tsr x.
Proof. intros H. unfold tsr. rewrite rev_app_distr, tsl_blank; auto. now apply blank_rev. Qed.

Lemma ends_ink_rev x : ends_ink x <-> starts_ink (rev x).
Proof.
  split; intros [a [b [H1 H2]]].
  - subst. rewrite rev_app_distr. simpl. exists b, (rev a). auto.
  - exists (rev b), a. split; auto. rewrite <- (rev_involutive x), H1. simpl. auto.
Qed.

Lemma tsr_ink x : ends_ink x -> tsr x = x.
Proof. intros H. unfold tsr. rewrite tsl_ink by now apply ends_ink_rev. apply rev_involutive. Qed.

Lemma tsr_app_ink p c q : ~ white c -> exists q', tsr (p ++ c :: q) = p ++ c :: q'.
Proof.
  intros H. unfold tsr.
  destruct (tsl_cases (rev (p ++ c :: q))) as [a [y [E [Ha [Ey Hy]]]]]. rewrite Ey.
  assert (p ++ c :: q = rev y ++ rev a) as E2.
  { rewrite <- rev_app_distr, <- E. now rewrite rev_involutive. }
  clear Ey E Hy. revert E2. generalize (rev y). clear y. apply blank_rev in Ha. revert Ha. generalize (rev a). clear a.
  intros a Ha y E.
  assert (length p < length y) as Hl.
  { destruct (lt_dec (length p) (length y)) as [|n]; auto. exfalso. apply H.
    assert (nth_error (y ++ a) (length p) = Some c) as Hn.
    { rewrite <- E, nth_error_app2, Nat.sub_diag; auto. }
    rewrite nth_error_app2 in Hn by lia. apply nth_error_In in Hn.
    unfold blank in Ha. rewrite Forall_forall in Ha. now apply Ha. }
  exists (skipn (S (length p)) y).
  assert (firstn (length p) y = p) as E1.
  { assert (firstn (length p) (p ++ c :: q) = firstn (length p) (y ++ a)) as G by now rewrite E.
    rewrite !firstn_app, Nat.sub_diag, firstn_all in G. simpl in G. rewrite app_nil_r in G.
    replace (length p - length y) with 0 in G by lia. simpl in G. rewrite app_nil_r in G. auto. }
  assert (nth_error y (length p) = Some c) as E2.
  { rewrite <- (nth_error_app1 y a) by auto. rewrite <- E, nth_error_app2, Nat.sub_diag; auto. }
  rewrite <- (firstn_skipn (length p) y) at 1. rewrite E1. f_equal.
  clear -E2. revert y E2. generalize (length p) as k. induction k as [|k IH]; intros [|z y] E2; try discriminate.
  - simpl in E2. injection E2 as ->. reflexivity.
  - simpl in *. now apply IH.
Qed.

Lemma trim_space_tsr x : trim_space x = tsr (trim_space_left x).
Proof. reflexivity. Qed.

Lemma index_hash_app b x : ~ In hash b -> index_byte hash (b ++ hash :: x) = Some (length b).
Proof. intros H. now apply index_byte_app. Qed.

Lemma blank_no_hash a : blank a -> ~ In hash a.
Proof. intros H Hin. unfold blank in H. rewrite Forall_forall in H. apply H in Hin. now apply hash_not_white. Qed.

Lemma clean_line_spec l t : line_content l t ->
  clean_line l = match t with [] => None | _ => Some t end.
Proof.
  intros [before [body [after [tail [-> [Hb [Ha [Hh [Ht [-> Hbody]]]]]]]]]].
  unfold clean_line. rewrite trim_space_tsr, tsl_blank by auto.
  destruct Hbody as [->|[Hs He]].
  - simpl. rewrite tsl_blank by auto. destruct Ht as [->|[c ->]]; [reflexivity|].
    rewrite tsl_ink by (exists hash, c; split; auto; apply hash_not_white).
    destruct (tsr_app_ink [] hash c hash_not_white) as [q E]. simpl in E. rewrite E. reflexivity.
  - assert (body <> []) as Hne by (destruct Hs as [c [r [-> _]]]; discriminate).
    rewrite tsl_ink by (destruct Hs as [c [r [-> G]]]; exists c, (r ++ after ++ tail); auto).
    destruct Ht as [->|[c ->]].
    + rewrite app_nil_r, tsr_blank, tsr_ink by auto.
      destruct body as [|x body]; [congruence|].
      destruct (index_byte hash (x :: body)) eqn:E; auto. exfalso.
      apply Hh. apply index_byte_Some in E. destruct E as [E _]. rewrite E. apply in_app_iff. right. now left.
    + rewrite app_assoc. destruct (tsr_app_ink (body ++ after) hash c hash_not_white) as [q E].
      rewrite E. rewrite index_hash_app.
      2:{ rewrite in_app_iff. intros [G|G]; [auto|]. revert G. now apply blank_no_hash. }
      rewrite firstn_app, Nat.sub_diag, firstn_all. simpl. rewrite app_nil_r.
      fold (tsr (body ++ after)). rewrite tsr_blank, tsr_ink by auto.
      destruct body as [|x body]; [congruence|]. reflexivity.
Qed.

Lemma line_content_total l : exists t, line_content l t.
Proof.
  assert (exists p tail, l = p ++ tail /\ ~ In hash p /\ (tail = [] \/ exists c, tail = hash :: c)) as [p [tail [-> [Hp Ht]]]].
  { destruct (index_byte hash l) as [i|] eqn:E.
    - apply index_byte_Some in E as [E [H _]]. exists (firstn i l), (hash :: skipn (S i) l). repeat split; eauto.
    - exists l, []. rewrite app_nil_r. repeat split; auto. now apply index_byte_None. }
  destruct (tsl_cases p) as [before [y [-> [Hb [_ Hy]]]]].
  destruct (tsl_cases (rev y)) as [a [z [E [Ha [_ Hz]]]]].
  assert (y = rev z ++ rev a) as -> by (rewrite <- rev_app_distr, <- E; now rewrite rev_involutive).
  exists (rev z). exists before, (rev z), (rev a), tail. rewrite <- !app_assoc. split; auto.
  split; auto. split; [now apply blank_rev|]. split.
  { intro G. apply Hp. apply in_app_iff. right. apply in_app_iff. now left. }
  split; auto. split; auto.
  destruct Hz as [->|Hz]; [now left|right]. split.
  - destruct Hy as [Hy|[c [r [Hy Hc]]]].
    + apply app_eq_nil in Hy as [Hy _]. destruct Hz as [c [r [-> Hc]]]. simpl in Hy.
      symmetry in Hy. now apply app_cons_not_nil in Hy.
    + destruct (rev z) as [|c' r'] eqn:E2.
      * destruct Hz as [c0 [r0 [-> _]]]. simpl in E2. symmetry in E2. now apply app_cons_not_nil in E2.
      * simpl in Hy. injection Hy as <- _. now exists c', r'.
  - apply ends_ink_rev. now rewrite rev_involutive.
Qed.

(** ** Words *)

Lemma fields_aux_blank s x : blank s -> fields_aux (s ++ x) [] = fields_aux x [].
Proof. induction 1; simpl; auto. apply is_space_white in H. now rewrite H. Qed.

Lemma fields_aux_ink f : forall x cur, Forall (fun c => ~ white c) f ->
  fields_aux (f ++ x) cur = fields_aux x (rev f ++ cur).
Proof.
  induction f as [|c f IH]; intros x cur H; simpl; auto. apply Forall_cons_iff in H as [H1 H2].
  apply is_space_false in H1. rewrite H1, IH by auto. now rewrite <- app_assoc.
Qed.

Lemma fields_words l ws : words l ws -> fields l = ws.
Proof.
  unfold fields. induction 1.
  - rewrite <- (app_nil_r s), fields_aux_blank by auto. reflexivity.
  - rewrite fields_aux_blank, fields_aux_ink, app_nil_r by auto.
    assert (rev f <> []) as Hne.
    { intros E. apply (f_equal (@rev _)) in E. rewrite rev_involutive in E. now simpl in E. }
    assert (fields_aux [] (rev f) = [f]) as E1.
    { pose proof (rev_involutive f) as R. destruct (rev f); [congruence|]. simpl in *. now rewrite R. }
    assert (forall x r, is_space x = true -> fields_aux (x :: r) (rev f) = f :: fields_aux r []) as E2.
    { intros x r Hx. pose proof (rev_involutive f) as R. cbn [fields_aux]. rewrite Hx. destruct (rev f); [congruence|]. now rewrite R. }
    destruct H2 as [-> | [x [r' [-> Hx]]]].
    + rewrite E1. simpl in IHwords. now subst.
    + apply is_space_white in Hx. rewrite E2 by auto. f_equal. rewrite <- IHwords. simpl. now rewrite Hx.
Qed.

Lemma words_total : forall l, words l (fields l).
Proof.
  intros l. assert (exists ws, words l ws) as [ws H].
  { remember (length l) as n. revert l Heqn. induction n as [n IH] using lt_wf_ind. intros l ->.
    destruct (tsl_cases l) as [s [y [-> [Hs [_ [->|Hy]]]]]].
    - exists []. constructor. rewrite app_nil_r. auto.
    - assert (exists f rest, y = f ++ rest /\ Forall (fun c => ~ white c) f /\
        (rest = [] \/ exists c r, rest = c :: r /\ white c)) as [f [rest [-> [Hf Hr]]]].
      { clear. induction y as [|c y IH].
        - exists [], []. auto.
        - destruct (white_dec c).
          + exists [], (c :: y). split; auto. split; auto. right. eauto.
          + destruct IH as [f [rest [-> [H1 H2]]]]. exists (c :: f), rest. auto. }
      assert (f <> []) as Hne.
      { intros ->. destruct Hy as [c [r [E Hc]]]. simpl in E. subst. destruct Hr as [Hr|[c' [r' [E Hr]]]]; [discriminate|].
        injection E as <- <-. contradiction. }
      destruct (IH (length rest)) with (l := rest) as [ws Hws]; auto.
      { rewrite !app_length. destruct f; [congruence|]. simpl. lia. }
      exists (f :: ws). constructor; auto. }
  now rewrite (fields_words l ws H).
Qed.

Lemma fields_iff l ws : fields l = ws <-> words l ws.
Proof. split; [intros <-; apply words_total|apply fields_words]. Qed.

(** ** Regular expressions *)

Inductive lang : re -> str -> Prop :=
| LEps : lang REps []
| LClass p c : p c = true -> lang (RClass p) [c]
| LSeq a b x y : lang a x -> lang b y -> lang (RSeq a b) (x ++ y)
| LAltL a b x : lang a x -> lang (RAlt a b) x
| LAltR a b x : lang b x -> lang (RAlt a b) x
| LStar0 a : lang (RStar a) []
| LStar1 a x y : lang a x -> lang (RStar a) y -> lang (RStar a) (x ++ y).

Lemma lang_empty s : lang REmpty s <-> False.
Proof. split; [inversion 1|tauto]. Qed.
Lemma lang_eps s : lang REps s <-> s = [].
Proof. split; [inversion 1; auto|intros ->; constructor]. Qed.
Lemma lang_class p s : lang (RClass p) s <-> exists c, s = [c] /\ p c = true.
Proof. split; [inversion 1; eauto|intros [c [-> H]]; now constructor]. Qed.
Lemma lang_seq a b s : lang (RSeq a b) s <-> exists x y, s = x ++ y /\ lang a x /\ lang b y.
Proof. split; [inversion 1; subst; eauto 10|intros [x [y [-> [H1 H2]]]]; now constructor]. Qed.
Lemma lang_alt a b s : lang (RAlt a b) s <-> lang a s \/ lang b s.
Proof. split; [inversion 1; auto|intros [H|H]; [now apply LAltL|now apply LAltR]]. Qed.

Lemma nullable_lang r : nullable r = true <-> lang r [].
Proof.
  induction r; simpl.
  - rewrite lang_empty. split; [discriminate|tauto].
  - split; auto. intros. constructor.
  - rewrite lang_class. split; [discriminate|intros [c [H _]]; discriminate].
  - rewrite andb_true_iff, IHr1, IHr2, lang_seq. split.
    + intros [H1 H2]. exists [], []. auto.
    + intros [x [y [E [H1 H2]]]]. symmetry in E. apply app_eq_nil in E as [-> ->]. auto.
  - rewrite orb_true_iff, IHr1, IHr2, lang_alt. reflexivity.
  - split; auto. intros. constructor.
Qed.

Lemma star_cons a c s : lang (RStar a) (c :: s) -> exists x y, s = x ++ y /\ lang a (c :: x) /\ lang (RStar a) y.
Proof.
  intros H. remember (RStar a) as r eqn:Er. remember (c :: s) as w eqn:Ew. revert a c s Er Ew.
  induction H; intros; try discriminate; injection Er as ->.
  destruct x as [|c' x].
  - simpl in Ew. subst. eauto.
  - simpl in Ew. injection Ew as -> <-. exists x, y. auto.
Qed.

Lemma deriv_lang r : forall c s, lang (deriv c r) s <-> lang r (c :: s).
Proof.
  induction r; intros c s; simpl.
  - rewrite !lang_empty. tauto.
  - rewrite lang_empty, lang_eps. split; [tauto|discriminate].
  - rewrite lang_class. destruct (p c) eqn:E.
    + rewrite lang_eps. split.
      * intros ->. eauto.
      * intros [c' [H _]]. now injection H.
    + rewrite lang_empty. split; [tauto|]. intros [c' [H1 H2]]. injection H1 as -> _. congruence.
  - assert (lang (RSeq (deriv c r1) r2) s <-> exists x y, s = x ++ y /\ lang r1 (c :: x) /\ lang r2 y) as E1.
    { rewrite lang_seq. split; intros [x [y [-> [H1 H2]]]]; exists x, y; repeat split; auto; now apply IHr1. }
    assert (lang (RSeq r1 r2) (c :: s) <->
      (exists x y, s = x ++ y /\ lang r1 (c :: x) /\ lang r2 y) \/ (lang r1 [] /\ lang r2 (c :: s))) as E2.
    { rewrite lang_seq. split.
      - intros [[|c' x] [y [E [H1 H2]]]]; simpl in E.
        + right. subst. auto.
        + injection E as -> ->. left. eauto.
      - intros [[x [y [-> [H1 H2]]]]|[H1 H2]]; [exists (c :: x), y|exists [], (c :: s)]; auto. }
    rewrite E2. destruct (nullable r1) eqn:En.
    + rewrite lang_alt, E1, IHr2. apply nullable_lang in En. tauto.
    + rewrite E1. split; auto. intros [H|[H _]]; auto. apply nullable_lang in H. congruence.
  - rewrite !lang_alt, IHr1, IHr2. tauto.
  - rewrite lang_seq. split.
    + intros [x [y [-> [H1 H2]]]]. apply IHr in H1. now apply (LStar1 r (c :: x) y).
    + intros H. apply star_cons in H as [x [y [-> [H1 H2]]]]. exists x, y. repeat split; auto. now apply IHr.
Qed.

Lemma re_match_lang s : forall r, re_match r s = true <-> lang r s.
Proof.
  induction s as [|c s IH]; intros r; simpl.
  - apply nullable_lang.
  - now rewrite IH, deriv_lang.
Qed.

Lemma lang_upto p n : forall s, lang (RUpTo n (RClass p)) s <-> 1 <= length s <= n /\ Forall (fun c => p c = true) s.
Proof.
  induction n as [|n IH]; intros s.
  - simpl. rewrite lang_empty. split; [tauto|]. lia.
  - destruct n as [|n].
    + simpl RUpTo. rewrite lang_class. split.
      * intros [c [-> H]]. simpl. split; auto.
      * intros [H1 H2]. destruct s as [|c [|c' s]]; simpl in H1; try lia. exists c. split; auto.
        now apply Forall_inv in H2.
    + change (RUpTo (S (S n)) (RClass p)) with (RSeq (RClass p) (RAlt REps (RUpTo (S n) (RClass p)))).
      rewrite lang_seq. split.
      * intros [x [y [-> [H1 H2]]]]. apply lang_class in H1 as [c [-> Hc]]. apply lang_alt in H2.
        rewrite lang_eps, IH in H2. destruct H2 as [->|[H2 H3]]; simpl; split; auto; lia.
      * intros [H1 H2]. destruct s as [|c s]; simpl in H1; [lia|]. exists [c], s. split; auto.
        apply Forall_cons_iff in H2 as [H2 H3]. rewrite lang_class, lang_alt, lang_eps, IH. split; eauto.
        destruct s; [now left|right]. simpl in *. split; auto. lia.
Qed.

Lemma label_class_spec c : label_class c = true <-> label_char c.
Proof.
  unfold label_char. split.
  - destruct c as [[] [] [] [] [] [] [] []]; vm_compute; intros H; try discriminate H; tauto.
  - intros H. revert c H. apply Forall_forall. repeat constructor.
Qed.

Lemma dns_label_spec l : lang dns_label l <-> good_label l.
Proof.
  unfold dns_label, good_label. rewrite lang_upto. split; intros [H1 H2]; split; auto;
    (eapply Forall_impl; [|eassumption]; intros; now apply label_class_spec).
Qed.

Lemma lang_dot_labels s :
  lang (RStar (RSeq (RClass (Ascii.eqb dot)) dns_label)) s <->
  exists labels, Forall good_label labels /\ s = concat (map (fun l => dot :: l) labels).
Proof.
  split.
  - intros H. remember (RStar (RSeq (RClass (Ascii.eqb dot)) dns_label)) as r eqn:E. revert E.
    induction H; intros E; try discriminate.
    + exists []. auto.
    + injection E as ->. destruct (IHlang2 eq_refl) as [ls [H1 ->]].
      apply lang_seq in H as [u [v [-> [G1 G2]]]]. apply lang_class in G1 as [c [-> Hc]].
      apply Ascii.eqb_eq in Hc as <-. exists (v :: ls). split; [constructor; auto; now apply dns_label_spec|]. reflexivity.
  - intros [ls [H ->]]. induction H as [|l ls Hl _ IH]; [apply LStar0|].
    change (concat (map (fun l0 => dot :: l0) (l :: ls))) with ((dot :: l) ++ concat (map (fun l0 => dot :: l0) ls)).
    apply LStar1; auto.
    change (dot :: l) with ([dot] ++ l). apply LSeq; [now constructor|]. now apply dns_label_spec.
Qed.

Lemma join_dot_cons l ls : join $"." (l :: ls) = l ++ concat (map (fun x => dot :: x) ls).
Proof.
  revert l. induction ls as [|m ls IH]; intros l.
  - simpl. now rewrite app_nil_r.
  - change (join $"." (l :: m :: ls)) with (l ++ $"." ++ join $"." (m :: ls)). rewrite IH. reflexivity.
Qed.

Lemma validate_domain_name_spec s : validate_domain_name s = true <-> good_name s.
Proof.
  unfold validate_domain_name, good_name. destruct (255 <? length s) eqn:E.
  - apply Nat.ltb_lt in E. split; [discriminate|]. intros [H _]. lia.
  - apply Nat.ltb_ge in E. rewrite re_match_lang. unfold domain_name_regex. rewrite lang_seq. split.
    + intros [l [y [-> [H1 H2]]]]. split; auto. apply lang_seq in H2 as [d [t [-> [H2 H3]]]].
      apply lang_dot_labels in H2 as [ls [H2 ->]]. apply dns_label_spec in H1.
      exists (l :: ls), t. split; [discriminate|]. split; [auto|]. split.
      * unfold ROpt in H3. apply lang_alt in H3. rewrite lang_eps, lang_class in H3.
        destruct H3 as [->|[c [-> Hc]]]; auto. apply orb_true_iff in Hc as [Hc|Hc]; apply Ascii.eqb_eq in Hc; subst; auto.
      * rewrite join_dot_cons. now rewrite app_assoc.
    + intros [_ [labels [tail [Hne [Hl [Ht ->]]]]]]. destruct labels as [|l ls]; [congruence|].
      apply Forall_cons_iff in Hl as [H1 H2]. rewrite join_dot_cons, <- app_assoc.
      exists l, (concat (map (fun x => dot :: x) ls) ++ tail). split; auto. split; [now apply dns_label_spec|].
      apply LSeq; [apply lang_dot_labels; eauto|]. apply lang_alt. rewrite lang_eps, lang_class.
      destruct Ht as [->|[->| ->]]; auto; right; eexists; split; reflexivity.
Qed.

(** ** Series *)

Section Series.
Context {A : Type}.
Variable p : str -> option A.

Lemma contents_fun ls : forall ts ts', contents ls ts -> contents ls ts' -> ts = ts'.
Proof.
  induction ls as [|l ls IH]; intros ts ts' H1 H2; inversion H1; subst; inversion H2; subst; auto;
    repeat match goal with H : line_content _ _ |- _ => apply clean_line_spec in H end.
  - destruct t; congruence.
  - destruct t; congruence.
  - destruct t, t0; try congruence. f_equal; [congruence|auto].
Qed.

Lemma contents_total ls : exists ts, contents ls ts.
Proof.
  induction ls as [|l ls [ts IH]].
  - exists []. constructor.
  - destruct (line_content_total l) as [[|c t] H].
    + exists ts. now constructor.
    + exists ((c :: t) :: ts). apply con_take; auto. discriminate.
Qed.

Lemma collected_total ts : exists l n, collected p ts l n.
Proof.
  induction ts as [|t ts [l [n IH]]].
  - exists [], 0. constructor.
  - destruct (p t) eqn:E; eexists _, _; [eapply col_good|eapply col_bad]; eauto.
Qed.

Lemma lines_next_spec ls ts : contents ls ts ->
  match ts with
  | [] => lines_next ls = None
  | t :: ts' => exists rest, lines_next ls = Some (t, rest) /\ contents rest ts' /\ length rest < length ls
  end.
Proof.
  induction 1; simpl.
  - reflexivity.
  - apply clean_line_spec in H. rewrite H. destruct ts; auto.
    destruct IHcontents as [rest [H1 [H2 H3]]]. exists rest. repeat split; auto.
  - apply clean_line_spec in H. rewrite H. destruct t; [congruence|]. exists ls. auto.
Qed.

(** Result of the filter: [budget] = how many bad lines may still be skipped;
    None: unlimited. *)
Definition over (n count : Z) : bool := negb (n =? -1)%Z && (n <? count + 1)%Z.

Lemma filter_next_spec n : forall ts fuel ls count, contents ls ts -> length ls < fuel ->
  match ts with
  | [] => filter_next p fuel n count ls = FEnd
  | t :: ts' =>
      exists rest, contents rest ts' /\ length rest < length ls /\
      match p t with
      | Some a => filter_next p fuel n count ls = FItem a rest count
      | None => if over n count then filter_next p fuel n count ls = FTooMany
                else filter_next p fuel n count ls =
                     filter_next p (fuel - 1) n (if (n =? -1)%Z then count else count + 1)%Z rest
      end
  end.
Proof.
  intros ts [|fuel] ls count H Hf; [lia|].
  pose proof (lines_next_spec ls ts H) as HN. simpl. unfold adapter_next.
  destruct ts as [|t ts'].
  - now rewrite HN.
  - destruct HN as [rest [H1 [H2 H3]]]. rewrite H1. exists rest. split; auto. split; auto.
    rewrite ?Nat.sub_0_r. destruct (p t); auto. unfold over.
    destruct (n =? -1)%Z; cbn [negb andb]; auto. destruct (n <? count + 1)%Z; auto.
Qed.

Lemma filter_next_fuel n : forall k fuel fuel' ls count, length ls < k -> length ls < fuel -> length ls < fuel' ->
  filter_next p fuel n count ls = filter_next p fuel' n count ls.
Proof.
  induction k as [|k IH]; intros fuel fuel' ls count Hk H1 H2; [lia|].
  destruct fuel as [|fuel]; [lia|]. destruct fuel' as [|fuel']; [lia|]. simpl. unfold adapter_next.
  destruct (contents_total ls) as [ts Hc]. pose proof (lines_next_spec ls ts Hc) as HN. destruct ts as [|t ts'].
  - now rewrite HN.
  - destruct HN as [rest [E [_ Hl]]]. rewrite E. destruct (p t); auto.
    destruct (n =? -1)%Z; [apply IH; lia|]. destruct (n <? count + 1)%Z; auto. apply IH; lia.
Qed.

Definition end_stop (e : scan_end) : stop := match e with ScanEOF => StopOK | ScanErr => StopReadErr end.

(** Abstract behaviour on the list of line contents. *)
Fixpoint run (n count : Z) (ts : list str) (e : scan_end) : list A * stop :=
  match ts with
  | [] => ([], end_stop e)
  | t :: ts' =>
      match p t with
      | Some a => let '(items, s) := run n count ts' e in (a :: items, s)
      | None => if over n count then ([], StopTooMany)
                else run n (if (n =? -1)%Z then count else count + 1)%Z ts' e
      end
  end.

Lemma for_each_run n e : forall k ts fuel ls count, length ts < k -> contents ls ts -> length ls < fuel ->
  for_each p fuel n count ls e = run n count ts e.
Proof.
  induction k as [|k IH]; intros ts fuel ls count Hk Hc Hf; [lia|].
  destruct fuel as [|fuel]; [lia|].
  cbn [for_each].
  pose proof (filter_next_spec n ts (S (length ls)) ls count Hc ltac:(lia)) as HF.
  destruct ts as [|t ts']; cbn [run].
  - rewrite HF. reflexivity.
  - destruct HF as [rest [H1 [H2 H3]]]. cbn [length] in Hk. destruct (p t) eqn:Ep.
    + rewrite H3. rewrite (IH ts') by (auto; lia). reflexivity.
    + destruct (over n count); [now rewrite H3|].
      rewrite H3. rewrite <- (IH ts' (S fuel) rest) by (auto; lia). cbn [for_each].
      rewrite (filter_next_fuel n (S (length ls)) _ (S (length rest)) rest) by lia. reflexivity.
Qed.

Lemma run_unlimited count e : forall ts l bad, collected p ts l bad -> run (-1) count ts e = (l, end_stop e).
Proof.
  intros ts l bad H. induction H; simpl; auto.
  - rewrite H, IHcollected. reflexivity.
  - rewrite H. simpl. auto.
Qed.

Lemma run_within n : forall ts count e l bad, n <> (-1)%Z -> collected p ts l bad ->
  (count + Z.of_nat bad <= n)%Z -> run n count ts e = (l, end_stop e).
Proof.
  intros ts count e l bad Hn H. revert count. induction H; intros count Hb; cbn [run]; auto.
  - rewrite H, IHcollected; auto.
  - rewrite H. unfold over. rewrite (proj2 (Z.eqb_neq n (-1)) Hn). simpl.
    destruct (Z.ltb_spec n (count + 1)); [lia|]. apply IHcollected. lia.
Qed.

Lemma run_exceeded n : forall ts count e l bad, n <> (-1)%Z -> (0 <= count <= Z.max n 0)%Z -> collected p ts l bad ->
  (Z.max n 0 < count + Z.of_nat bad)%Z ->
  exists pre t post l', ts = pre ++ t :: post /\ p t = None /\
    (exists k, collected p pre l' k /\ (count + Z.of_nat k = Z.max n 0)%Z) /\
    run n count ts e = (l', StopTooMany).
Proof.
  intros ts count e l bad Hn Hc H. revert count Hc. induction H; intros count Hc Hb.
  - simpl in Hb. lia.
  - destruct (IHcollected count Hc Hb) as [pre [t' [post [l' [E1 [E2 [[k [E3 E4]] E5]]]]]]].
    exists (t :: pre), t', post, (a :: l'). subst. split; auto. split; auto. split.
    + exists k. split; auto. now constructor.
    + cbn [run]. rewrite H. cbn [app]. now rewrite E5.
  - cbn [run]. rewrite H. unfold over. rewrite (proj2 (Z.eqb_neq n (-1)) Hn). simpl.
    destruct (Z.ltb_spec n (count + 1)).
    + exists [], t, ts, []. split; auto. split; auto. split; auto. exists 0. split; [constructor|]. lia.
    + destruct (IHcollected (count + 1)%Z) as [pre [t' [post [l' [E1 [E2 [[k [E3 E4]] E5]]]]]]]; try lia.
      exists (t :: pre), t', post, l'. subst. split; auto. split; auto. split; auto.
      exists (S k). split; [now constructor|lia].
Qed.

Lemma parse_series_run n ls e ts : contents ls ts -> parse_series p n ls e = run n 0 ts e.
Proof. intros H. unfold parse_series. eapply for_each_run; eauto. Qed.

End Series.

(** ** Lines of hosts *)

Lemma address_part_split w a : address_part w a ->
  (match index_byte "%"%char w with Some i => firstn i w | None => w end) = a.
Proof.
  intros [Hn [->|[i ->]]].
  - rewrite (proj2 (index_byte_None _ _) Hn). reflexivity.
  - rewrite index_byte_app by auto. rewrite firstn_app, Nat.sub_diag, firstn_all. simpl. apply app_nil_r.
Qed.

Lemma address_part_total w : exists a, address_part w a.
Proof.
  unfold address_part. destruct (index_byte "%"%char w) as [i|] eqn:E.
  - apply index_byte_Some in E as [E [H _]]. exists (firstn i w). split; eauto.
  - exists w. split; auto. now apply index_byte_None.
Qed.

Lemma hosts_file_line_spec parse_ip data w names a : words data (w :: names) -> address_part w a ->
  match hosts_file_line parse_ip data with
  | Some e => parse_ip a = Some (hfe_ip e) /\ hfe_name e :: hfe_aliases e = names /\ Forall good_name names
  | None => parse_ip a = None \/ names = [] \/ Exists (fun n => ~ good_name n) names
  end.
Proof.
  intros Hw Ha. apply fields_words in Hw. apply address_part_split in Ha. unfold hosts_file_line. rewrite Hw. simpl hd. simpl tl.
  assert (forall X (k : str -> str -> X), (let '(x, y) := match index_byte "%"%char w with
     | Some idx => (firstn idx w, skipn (S idx) w) | None => (w, []) end in k x y) =
     k a (match index_byte "%"%char w with Some idx => skipn (S idx) w | None => [] end)) as EE.
  { intros X k. rewrite <- Ha. destruct (index_byte "%"%char w); reflexivity. }
  rewrite EE. clear EE.
  destruct (parse_ip a) as [ip|]; [|now left].
  destruct (forallb validate_domain_name names) eqn:Ef.
  - assert (Forall good_name names) as Hg.
    { rewrite forallb_forall in Ef. apply Forall_forall. intros x Hx. apply validate_domain_name_spec. auto. }
    destruct names as [|n al]; [right; now left|]. simpl. auto.
  - right; right. clear -Ef. induction names as [|n names IH]; [discriminate|]. simpl in Ef.
    destruct (validate_domain_name n) eqn:En.
    + right. auto.
    + left. intro H. apply validate_domain_name_spec in H. congruence.
Qed.

Lemma fields_nonempty t ws : words t ws -> Forall (fun w => w <> []) ws.
Proof. induction 1; constructor; auto. Qed.

Lemma slashed_spec w : is_regex w = true <-> slashed w.
Proof.
  unfold is_regex, slashed. rewrite andb_true_iff, has_prefix_spec, has_suffix_spec. simpl.
  split; intros [[x Hx] [y Hy]]; split; eauto.
Qed.

Lemma undecorated_spec a s : undecorated a s <-> trim_suffix (trim_prefix a $"||") $"^" = s.
Proof.
  assert (forall x p, (exists b, x = p ++ b) <-> has_prefix x p = true) as HP.
  { intros x p. rewrite has_prefix_spec. split; intros [b H]; eauto. }
  assert (forall x p, (exists b, x = b ++ p) <-> has_suffix x p = true) as HS.
  { intros x p. rewrite has_suffix_spec. split; intros [b H]; eauto. }
  split.
  - intros [b [H1 H2]].
    assert (trim_prefix a $"||" = b) as ->.
    { destruct H1 as [->|[-> H1]]; [apply trim_prefix_app|]. unfold trim_prefix.
      destruct (has_prefix b $"||") eqn:E; auto. exfalso. apply H1. apply HP. auto. }
    destruct H2 as [->|[-> H2]]; [apply trim_suffix_app|]. apply trim_suffix_not.
    destruct (has_suffix s $"^") eqn:E; auto. exfalso. apply H2. apply HS. auto.
  - intros <-. exists (trim_prefix a $"||"). split.
    + destruct (has_prefix a $"||") eqn:E.
      * left. apply HP in E as [b ->]. now rewrite trim_prefix_app.
      * right. unfold trim_prefix. rewrite E. split; auto. intros G. apply HP in G. congruence.
    + generalize (trim_prefix a $"||"). intros b. destruct (has_suffix b $"^") eqn:E.
      * left. apply HS in E as [x ->]. now rewrite trim_suffix_app.
      * right. rewrite trim_suffix_not by auto. split; auto. intros G. apply HS in G. congruence.
Qed.

Section Lines.
Variables parse_ip to_ascii : str -> option str.
Variable compiles : str -> bool.

Lemma single_entry_spec w s :
  normalize_hosts_list_entry parse_ip to_ascii compiles w = Some s <->
  single_entry parse_ip to_ascii compiles w s.
Proof.
  unfold normalize_hosts_list_entry, single_entry.
  assert (forall a, (slashed w /\ a = w \/ ~ slashed w /\ to_ascii w = Some a) <->
    (if is_regex w then Some w else to_ascii w) = Some a) as HA.
  { intros a. rewrite <- slashed_spec. destruct (is_regex w); intuition congruence. }
  assert (forall x, validate_hosts_list_entry parse_ip compiles x = true <->
    (parse_ip x <> None \/ parse_ip x = None /\ (slashed x /\ compiles x = true \/ ~ slashed x /\ good_name x))) as HV.
  { intros x. unfold validate_hosts_list_entry. rewrite <- slashed_spec, <- validate_domain_name_spec.
    destruct (parse_ip x); [|destruct (is_regex x)]; intuition congruence. }
  destruct (if is_regex w then Some w else to_ascii w) as [a|] eqn:E.
  - destruct (validate_hosts_list_entry parse_ip compiles (trim_suffix (trim_prefix a $"||") $"^")) eqn:Ev.
    + split.
      * injection 1 as <-. exists a. split; [now apply HA|]. split; [now apply undecorated_spec|]. now apply HV.
      * intros [a' [H1 [H2 H3]]]. apply HA in H1. assert (a' = a) as -> by congruence.
        apply undecorated_spec in H2. congruence.
    + split; [discriminate|]. intros [a' [H1 [H2 H3]]]. apply HA in H1. assert (a' = a) as -> by congruence.
      apply undecorated_spec in H2. apply HV in H3. congruence.
  - split; [discriminate|]. intros [a [H _]]. apply HA in H. discriminate.
Qed.

Lemma hosts_entry_spec t names :
  (exists e, hosts_file_line parse_ip t = Some e /\ hfe_name e :: hfe_aliases e = names) <->
  hosts_entry parse_ip t names.
Proof.
  split.
  - intros [e [H1 H2]].
    destruct (fields t) as [|w ws] eqn:Ef.
    + unfold hosts_file_line in H1. rewrite Ef in H1. simpl in H1. destruct (parse_ip []); discriminate.
    + apply fields_iff in Ef. destruct (address_part_total w) as [a Ha].
      pose proof (hosts_file_line_spec parse_ip t w ws a Ef Ha) as H. rewrite H1 in H. destruct H as [G1 [G2 G3]].
      rewrite H2 in G2. subst ws. exists w, a. repeat split; try apply Ef; try apply Ha; auto; [congruence|].
      intros ->. discriminate.
  - intros [w [a [H1 [H2 [H3 [H4 H5]]]]]].
    pose proof (hosts_file_line_spec parse_ip t w names a H1 H2) as H.
    destruct (hosts_file_line parse_ip t) as [e|].
    + exists e. split; auto. apply H.
    + exfalso. destruct H as [H|[H|H]]; try contradiction.
      apply Exists_exists in H as [x [Hx Hn]]. rewrite Forall_forall in H5. apply Hn. auto.
Qed.

Lemma host_list_entry_spec t s :
  t <> [] -> (exists c, In c t /\ ~ white c) ->
  (host_list_entry parse_ip to_ascii compiles t = Some s <->
   exists w, words t [w] /\ single_entry parse_ip to_ascii compiles w s).
Proof.
  intros Hne Hink. unfold host_list_entry.
  destruct (fields t) as [|w ws] eqn:Ef.
  { exfalso. apply fields_iff in Ef. inversion Ef; subst. destruct Hink as [c [H1 H2]].
    unfold blank in H. rewrite Forall_forall in H. auto. }
  simpl. split.
  - destruct (normalize_hosts_list_entry parse_ip to_ascii compiles w) as [h|] eqn:En; [|discriminate].
    destruct ws; [|discriminate]. injection 1 as ->. exists w. split; [now apply fields_iff|]. now apply single_entry_spec.
  - intros [w' [H1 H2]]. apply fields_iff in H1. assert (w' = w /\ ws = []) as [-> ->] by (rewrite Ef in H1; injection H1; auto).
    apply single_entry_spec in H2. now rewrite H2.
Qed.

Lemma hosts_line_spec t hs : (exists c, In c t /\ ~ white c) ->
  (hosts_line parse_ip to_ascii compiles t = Some hs <->
   line_entries parse_ip to_ascii compiles t hs).
Proof.
  intros Hink. assert (t <> []) as Hne by (intros ->; destruct Hink as [c [[] _]]).
  unfold hosts_line.
  assert (forall s, host_list_entry parse_ip to_ascii compiles t = Some s <->
     exists w, words t [w] /\ single_entry parse_ip to_ascii compiles w s) as HL
    by (intros; now apply host_list_entry_spec).
  assert (forall w s, words t [w] -> single_entry parse_ip to_ascii compiles w s -> forall names, ~ hosts_entry parse_ip t names) as Hexcl.
  { intros w s H1 _ names [w' [a [H3 [_ [_ [H4 _]]]]]]. apply fields_iff in H1, H3. rewrite H1 in H3. injection H3 as <- <-. congruence. }
  destruct (host_list_entry parse_ip to_ascii compiles t) as [h|] eqn:E1.
  - destruct (proj1 (HL h) eq_refl) as [w [Hw Hs]]. split.
    + injection 1 as <-. eapply le_single; eauto.
    + intros H. inversion H; subst.
      * assert (Some h = Some s) as G by (apply HL; eauto). congruence.
      * exfalso. eapply Hexcl; eauto.
      * exfalso. apply fields_iff in H0, Hw. rewrite Hw in H0. inversion H0; subst. eapply H2. eauto.
  - destruct (hosts_file_line parse_ip t) as [e|] eqn:E2.
    + assert (hosts_entry parse_ip t (hfe_name e :: hfe_aliases e)) as He by (apply hosts_entry_spec; eauto).
      split.
      * injection 1 as <-. now apply le_hosts.
      * intros H. inversion H; subst.
        -- exfalso. assert (None = Some s) by (apply HL; eauto). discriminate.
        -- apply hosts_entry_spec in H0 as [e' [G1 G2]]. congruence.
        -- exfalso. eapply H3. eauto.
    + unfold wildcard_entry.
      destruct (negb (has_prefix (hd [] (fields t)) $"*.") || (1 <? count_byte star (hd [] (fields t)))) eqn:E3.
      * split; [discriminate|]. intros H. exfalso. inversion H; subst.
        -- assert (None = Some s) by (apply HL; eauto). discriminate.
        -- apply hosts_entry_spec in H0 as [e' [G1 G2]]. congruence.
        -- apply fields_iff in H0. rewrite H0 in E3. simpl hd in E3. apply count_byte_0 in H1.
           simpl in E3. rewrite H1 in E3. simpl in E3. discriminate.
      * apply orb_false_iff in E3 as [E3 E4]. apply negb_false_iff, has_prefix_spec in E3 as [d E3].
        rewrite E3 in E4. simpl in E4. apply Nat.ltb_ge in E4.
        assert (~ In star d) as Hd by (apply count_byte_0; lia).
        destruct (fields t) as [|w ws] eqn:Ef; [discriminate|]. simpl in E3 |- *. subst w. split.
        -- intros G. assert (hs = [star :: dot :: d]) as -> by (now inversion G). eapply le_wildcard with (rest := ws); auto.
           ++ now apply fields_iff.
           ++ intros s [-> Hs]. apply fields_iff in Ef. assert (None = Some s) by (apply HL; eauto). discriminate.
           ++ intros names Hn. apply hosts_entry_spec in Hn as [e [G1 _]]. congruence.
        -- intros H. inversion H; subst.
           ++ assert (None = Some s) by (apply HL; eauto). discriminate.
           ++ apply hosts_entry_spec in H0 as [e' [G1 G2]]. congruence.
           ++ apply fields_iff in H0. rewrite Ef in H0. inversion H0; subst. reflexivity.
Qed.

End Lines.

Lemma words_ink t w ws : words t (w :: ws) -> exists c, In c t /\ ~ white c.
Proof.
  intros H. inversion H as [|s f rest ws' Hs Hf Hff Hr Hw E1 E2]. subst.
  destruct w as [|c w]; [congruence|]. exists c. split; [apply in_app_iff; right; now left|]. now inversion Hff.
Qed.
