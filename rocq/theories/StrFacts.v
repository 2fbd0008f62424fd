(** Lemmas about the string functions of [Str.v]. *)
From Coq Require Import String Ascii List Arith NArith Bool Lia Permutation Sorting.Sorted.
From Verif Require Import Str.
Import ListNotations.

Lemma str_eqb_eq a b : str_eqb a b = true <-> a = b.
Proof.
  revert b; induction a as [|x a IH]; intros [|y b]; simpl; split; intro H;
    try reflexivity; try discriminate.
  - apply andb_true_iff in H as [H1 H2]. apply Ascii.eqb_eq in H1. apply IH in H2. congruence.
  - inversion H; subst. rewrite Ascii.eqb_refl. simpl. apply IH. reflexivity.
Qed.

Lemma str_eqb_refl a : str_eqb a a = true.
Proof. apply str_eqb_eq; reflexivity. Qed.

Lemma str_eqb_neq a b : str_eqb a b = false <-> a <> b.
Proof.
  rewrite <- str_eqb_eq. destruct (str_eqb a b); split; intros; congruence.
Qed.

Lemma str_eqb_sym a b : str_eqb a b = str_eqb b a.
Proof.
  destruct (str_eqb a b) eqn:E.
  - apply str_eqb_eq in E; subst. symmetry; apply str_eqb_refl.
  - symmetry. apply str_eqb_neq. apply str_eqb_neq in E. congruence.
Qed.

Lemma str_eqb_spec a b : reflect (a = b) (str_eqb a b).
Proof. apply iff_reflect. symmetry. apply str_eqb_eq. Qed.

Lemma str_eq_dec (a b : str) : {a = b} + {a <> b}.
Proof. destruct (str_eqb_spec a b); [left|right]; assumption. Qed.

Lemma ascii_eqb_sym a b : Ascii.eqb a b = Ascii.eqb b a.
Proof. destruct (Ascii.eqb_spec a b), (Ascii.eqb_spec b a); congruence. Qed.

(** ** Order *)

Lemma N_of_ascii_inj a b : N_of_ascii a = N_of_ascii b -> a = b.
Proof. intro H. rewrite <- (ascii_N_embedding a), <- (ascii_N_embedding b), H. reflexivity. Qed.

Lemma str_ltb_irrefl a : str_ltb a a = false.
Proof.
  induction a as [|x a IH]; simpl; auto.
  rewrite N.ltb_irrefl, Ascii.eqb_refl. exact IH.
Qed.

Lemma str_ltb_trans a b c : str_ltb a b = true -> str_ltb b c = true -> str_ltb a c = true.
Proof.
  revert b c; induction a as [|x a IH]; intros [|y b] [|z c]; simpl; try discriminate; auto.
  destruct (N.ltb_spec (N_of_ascii x) (N_of_ascii y)).
  - intros _. destruct (N.ltb_spec (N_of_ascii y) (N_of_ascii z)).
    + intros _. destruct (N.ltb_spec (N_of_ascii x) (N_of_ascii z)); auto; lia.
    + destruct (Ascii.eqb_spec y z); [|discriminate]. subst. intros _.
      destruct (N.ltb_spec (N_of_ascii x) (N_of_ascii z)); auto; lia.
  - destruct (Ascii.eqb_spec x y); [|discriminate]. subst. intros H1 H2.
    destruct (N.ltb (N_of_ascii y) (N_of_ascii z)); auto.
    destruct (Ascii.eqb y z); [|discriminate]. eauto.
Qed.

Lemma str_ltb_antisym a b : str_ltb a b = true -> str_ltb b a = false.
Proof.
  intro H. destruct (str_ltb b a) eqn:E; auto.
  pose proof (str_ltb_trans _ _ _ H E). rewrite str_ltb_irrefl in H0. discriminate.
Qed.

Lemma str_ltb_total a b : str_ltb a b = false -> str_ltb b a = false -> a = b.
Proof.
  revert b; induction a as [|x a IH]; intros [|y b]; simpl; try discriminate; auto.
  destruct (N.ltb_spec (N_of_ascii x) (N_of_ascii y)); [discriminate|].
  destruct (N.ltb_spec (N_of_ascii y) (N_of_ascii x)); [discriminate|].
  assert (x = y) by (apply N_of_ascii_inj; lia). subst. rewrite Ascii.eqb_refl.
  intros. f_equal. auto.
Qed.

(** ** Map *)

Section GMapFacts.
  Context {K V : Type} (eqb : K -> K -> bool) (eqb_spec : forall a b, reflect (a = b) (eqb a b)).
  Implicit Types m : list (K * V).

  Lemma geqb_refl a : eqb a a = true.
  Proof using eqb_spec. destruct (eqb_spec a a); congruence. Qed.


  Lemma gmget_mput_same k v m : mget eqb k (mput eqb k v m) = Some v.
  Proof using eqb_spec.
    induction m as [|[k' v'] m IH]; simpl.
    - now rewrite geqb_refl.
    - destruct (eqb k k') eqn:E; simpl.
      + now rewrite geqb_refl.
      + rewrite E. exact IH.
  Qed.

  Lemma gmget_mput_other k k2 v m : k <> k2 -> mget eqb k2 (mput eqb k v m) = mget eqb k2 m.
  Proof using eqb_spec.
    intro H. induction m as [|[k' v'] m IH]; simpl.
    - destruct (eqb_spec k2 k); congruence.
    - destruct (eqb_spec k k'); simpl.
      + subst. destruct (eqb_spec k2 k'); congruence.
      + destruct (eqb k2 k'); auto.
  Qed.

  Lemma gmget_mput k k2 v m :
    mget eqb k2 (mput eqb k v m) = if eqb k k2 then Some v else mget eqb k2 m.
  Proof using eqb_spec.
    destruct (eqb_spec k k2).
    - subst. apply gmget_mput_same.
    - now apply gmget_mput_other.
  Qed.

  Lemma gmget_mdel_same k m : mget eqb k (mdel eqb k m) = None.
  Proof using eqb_spec.
    induction m as [|[k' v'] m IH]; simpl; auto.
    destruct (eqb k k') eqn:E; simpl; auto. now rewrite E.
  Qed.

  Lemma gmget_mdel_other k k2 m : k <> k2 -> mget eqb k2 (mdel eqb k m) = mget eqb k2 m.
  Proof using eqb_spec.
    intro H. induction m as [|[k' v'] m IH]; simpl; auto.
    destruct (eqb_spec k k'); simpl.
    - subst. rewrite IH. destruct (eqb_spec k2 k'); congruence.
    - destruct (eqb k2 k'); auto.
  Qed.

  Lemma gmget_In k v m : mget eqb k m = Some v -> In (k, v) m.
  Proof using eqb_spec.
    induction m as [|[k' v'] m IH]; simpl; [discriminate|].
    destruct (eqb_spec k k'); intros H.
    - injection H as ->. subst. now left.
    - right; auto.
  Qed.

  Lemma gmget_None k m : mget eqb k m = None <-> ~ In k (map fst m).
  Proof using eqb_spec.
    induction m as [|[k' v'] m IH]; simpl.
    - tauto.
    - destruct (eqb_spec k k').
      + subst. split; [discriminate|]. intros H; exfalso; apply H; now left.
      + rewrite IH. intuition congruence.
  Qed.

  Lemma gmget_Some_iff k m : (exists v, mget eqb k m = Some v) <-> In k (map fst m).
  Proof using eqb_spec.
    destruct (mget eqb k m) eqn:E.
    - split; [|eauto]. intros _. apply gmget_In in E. apply in_map_iff. now exists (k, v).
    - apply gmget_None in E. split; [intros [v H]; discriminate|tauto].
  Qed.

  Lemma gmget_NoDup_In k v m : NoDup (map fst m) -> In (k, v) m -> mget eqb k m = Some v.
  Proof using eqb_spec.
    induction m as [|[k' v'] m IH]; simpl; [tauto|].
    intros Hnd [H|H]; inversion Hnd; subst.
    - injection H as -> ->. now rewrite geqb_refl.
    - destruct (eqb_spec k k'); auto. subst. exfalso. apply H2.
      apply in_map_iff. now exists (k', v).
  Qed.

  Lemma gmput_keys k v m x : In x (map fst (mput eqb k v m)) <-> x = k \/ In x (map fst m).
  Proof using eqb_spec.
    induction m as [|[k' v'] m IH]; simpl.
    - intuition.
    - destruct (eqb_spec k k'); simpl.
      + subst. intuition.
      + rewrite IH. intuition.
  Qed.

  Lemma gmput_NoDup k v m : NoDup (map fst m) -> NoDup (map fst (mput eqb k v m)).
  Proof using eqb_spec.
    induction m as [|[k' v'] m IH]; simpl; intros H.
    - repeat constructor. tauto.
    - inversion H; subst. destruct (eqb_spec k k'); simpl.
      + subst. now constructor.
      + constructor; auto. rewrite gmput_keys. intuition.
  Qed.
End GMapFacts.

Definition mget_mput_same {V} := @gmget_mput_same str V str_eqb str_eqb_spec.
Definition mget_mput_other {V} := @gmget_mput_other str V str_eqb str_eqb_spec.
Definition mget_mput {V} := @gmget_mput str V str_eqb str_eqb_spec.
Definition mget_mdel_same {V} := @gmget_mdel_same str V str_eqb str_eqb_spec.
Definition mget_mdel_other {V} := @gmget_mdel_other str V str_eqb str_eqb_spec.
Definition mget_In {V} := @gmget_In str V str_eqb str_eqb_spec.
Definition mget_None {V} := @gmget_None str V str_eqb str_eqb_spec.
Definition mget_Some_iff {V} := @gmget_Some_iff str V str_eqb str_eqb_spec.
Definition mget_NoDup_In {V} := @gmget_NoDup_In str V str_eqb str_eqb_spec.
Definition mput_keys {V} := @gmput_keys str V str_eqb str_eqb_spec.
Definition mput_NoDup {V} := @gmput_NoDup str V str_eqb str_eqb_spec.

Definition nmget_mput_same {V} := @gmget_mput_same nat V Nat.eqb Nat.eqb_spec.
Definition nmget_mput_other {V} := @gmget_mput_other nat V Nat.eqb Nat.eqb_spec.
Definition nmget_mput {V} := @gmget_mput nat V Nat.eqb Nat.eqb_spec.
Definition nmget_mdel_same {V} := @gmget_mdel_same nat V Nat.eqb Nat.eqb_spec.
Definition nmget_mdel_other {V} := @gmget_mdel_other nat V Nat.eqb Nat.eqb_spec.
Definition nmget_In {V} := @gmget_In nat V Nat.eqb Nat.eqb_spec.
Definition nmget_None {V} := @gmget_None nat V Nat.eqb Nat.eqb_spec.
Definition nmget_Some_iff {V} := @gmget_Some_iff nat V Nat.eqb Nat.eqb_spec.
Definition nmget_NoDup_In {V} := @gmget_NoDup_In nat V Nat.eqb Nat.eqb_spec.
Definition nmput_keys {V} := @gmput_keys nat V Nat.eqb Nat.eqb_spec.
Definition nmput_NoDup {V} := @gmput_NoDup nat V Nat.eqb Nat.eqb_spec.

(** ** Membership, sorting, deduplication *)

Lemma str_in_In x l : str_in x l = true <-> In x l.
Proof.
  unfold str_in. rewrite existsb_exists. split.
  - intros [y [H1 H2]]. apply str_eqb_eq in H2. congruence.
  - intros H. exists x. split; auto. apply str_eqb_refl.
Qed.

Lemma str_in_not_In x l : str_in x l = false <-> ~ In x l.
Proof. rewrite <- str_in_In. destruct (str_in x l); split; congruence. Qed.

Lemma dedup_In x l : In x (dedup l) <-> In x l.
Proof.
  induction l as [|y l IH]; simpl; [tauto|].
  destruct (str_in y l) eqn:E; simpl; rewrite IH; [|tauto].
  apply str_in_In in E. intuition congruence.
Qed.

Lemma dedup_NoDup l : NoDup (dedup l).
Proof.
  induction l as [|y l IH]; simpl; [constructor|].
  destruct (str_in y l) eqn:E; auto. constructor; auto.
  rewrite dedup_In. now apply str_in_not_In.
Qed.

Lemma sort_insert_In x y l : In y (sort_insert x l) <-> y = x \/ In y l.
Proof.
  induction l as [|z l IH]; simpl; [intuition|].
  destruct (str_ltb z x); simpl; [rewrite IH|]; intuition.
Qed.

Lemma sort_strs_In y l : In y (sort_strs l) <-> In y l.
Proof.
  induction l as [|x l IH]; simpl; [tauto|]. rewrite sort_insert_In, IH. intuition.
Qed.

Lemma sort_insert_perm x l : Permutation (sort_insert x l) (x :: l).
Proof.
  induction l as [|z l IH]; simpl; auto.
  destruct (str_ltb z x); auto. rewrite IH. apply perm_swap.
Qed.

Lemma sort_strs_perm l : Permutation (sort_strs l) l.
Proof.
  induction l as [|x l IH]; simpl; auto. rewrite sort_insert_perm. now constructor.
Qed.

Lemma sort_strs_NoDup l : NoDup l -> NoDup (sort_strs l).
Proof. intro H. eapply Permutation_NoDup; [|exact H]. symmetry. apply sort_strs_perm. Qed.

(** [a <= b] in Go's string order. *)
Definition str_le (a b : str) : Prop := str_ltb b a = false.
Definition str_lt (a b : str) : Prop := str_ltb a b = true.

Lemma str_le_trans a b c : str_le a b -> str_le b c -> str_le a c.
Proof.
  unfold str_le. intros H1 H2. destruct (str_ltb c a) eqn:E; auto.
  destruct (str_ltb b c) eqn:E2.
  - rewrite (str_ltb_trans _ _ _ E2 E) in H1. discriminate.
  - pose proof (str_ltb_total _ _ E2 H2). subst. congruence.
Qed.

Lemma str_lt_le a b : str_lt a b -> str_le a b.
Proof. apply str_ltb_antisym. Qed.

Lemma str_le_lt_or_eq a b : str_le a b -> str_lt a b \/ a = b.
Proof.
  unfold str_le, str_lt. intros H. destruct (str_ltb a b) eqn:E; auto.
  right. now apply str_ltb_total.
Qed.

Lemma sort_insert_sorted x l : StronglySorted str_le l -> StronglySorted str_le (sort_insert x l).
Proof.
  induction l as [|z l IH]; simpl; intros H.
  - repeat constructor.
  - inversion H; subst. destruct (str_ltb z x) eqn:E.
    + constructor; auto. apply Forall_forall. intros y Hy. apply sort_insert_In in Hy as [->|Hy].
      * now apply str_lt_le.
      * rewrite Forall_forall in H3. auto.
    + constructor; auto. constructor; auto.
      rewrite Forall_forall in *. intros y Hy. eapply str_le_trans; [exact E|auto].
Qed.

Lemma sort_strs_sorted l : StronglySorted str_le (sort_strs l).
Proof. induction l; simpl; [constructor|now apply sort_insert_sorted]. Qed.

Lemma sorted_NoDup_strict l : StronglySorted str_le l -> NoDup l -> StronglySorted str_lt l.
Proof.
  induction l as [|x l IH]; intros H1 H2; [constructor|].
  apply StronglySorted_inv in H1 as [S1 F1]. inversion H2; subst. constructor; auto.
  rewrite Forall_forall in *. intros y Hy. destruct (str_le_lt_or_eq _ _ (F1 y Hy)); auto.
  subst. contradiction.
Qed.

Lemma strict_sorted_NoDup l : StronglySorted str_lt l -> NoDup l.
Proof.
  induction l as [|x l IH]; intros H; [constructor|]. inversion H; subst. constructor; auto.
  intro Hx. rewrite Forall_forall in H3. specialize (H3 x Hx). unfold str_lt in H3.
  rewrite str_ltb_irrefl in H3. discriminate.
Qed.

(** A strictly sorted list is determined by its elements. *)
Lemma strict_sorted_unique l1 l2 :
  StronglySorted str_lt l1 -> StronglySorted str_lt l2 ->
  (forall x, In x l1 <-> In x l2) -> l1 = l2.
Proof.
  revert l2; induction l1 as [|x l1 IH]; intros l2 H1 H2 H.
  - destruct l2 as [|y l2]; auto. exfalso. apply (H y). now left.
  - destruct l2 as [|y l2]; [exfalso; apply (H x); now left|].
    pose proof (StronglySorted_inv H1) as [S1 F1]. pose proof (StronglySorted_inv H2) as [S2 F2].
    rewrite Forall_forall in *.
    assert (x = y).
    { destruct (proj1 (H x) (or_introl eq_refl)) as [E|E]; auto.
      destruct (proj2 (H y) (or_introl eq_refl)) as [E'|E']; auto.
      specialize (F1 _ E'). specialize (F2 _ E). unfold str_lt in *.
      rewrite (str_ltb_antisym _ _ F1) in F2. discriminate. }
    subst. f_equal. apply IH; auto. intro z.
    assert (forall l, StronglySorted str_lt (y :: l) -> ~ In y l) as Hn.
    { intros l Hl Hin. apply strict_sorted_NoDup in Hl. inversion Hl; auto. }
    split; intro Hz.
    + destruct (proj1 (H z) (or_intror Hz)) as [<-|]; auto. exfalso. exact (Hn _ H1 Hz).
    + destruct (proj2 (H z) (or_intror Hz)) as [<-|]; auto. exfalso. exact (Hn _ H2 Hz).
Qed.

(** ** Binary search *)

Lemma search_aux_spec f fuel : forall i j,
  j - i <= fuel -> i <= j ->
  (forall x y, x <= y -> y < j -> f x = true -> f y = true) ->
  (forall x, x < i -> f x = false) ->
  let r := search_aux fuel i j f in
  i <= r <= j /\ (forall x, x < r -> f x = false) /\ (r < j -> f r = true).
Proof.
  induction fuel as [|fuel IH]; intros i j Hf Hij Hmono Hlow; cbn [search_aux]; cbv zeta.
  - assert (i = j) by lia. subst. repeat split; auto; lia.
  - destruct (Nat.ltb_spec i j).
    + set (h := (i + j) / 2).
      assert (i <= h < j).
      { unfold h. split.
        - apply Nat.div_le_lower_bound; lia.
        - apply Nat.div_lt_upper_bound; lia. }
      destruct (f h) eqn:E.
      * assert (forall x y, x <= y -> y < h -> f x = true -> f y = true) as Hm.
        { intros x y ? ? ?. eapply Hmono; [| |eassumption]; lia. }
        destruct (IH i h ltac:(lia) ltac:(lia) Hm Hlow) as [H1 [H2 H3]].
        repeat split; auto; try lia. intros Hr.
        destruct (Nat.eq_dec (search_aux fuel i h f) h) as [->|]; auto. apply H3. lia.
      * assert (forall x, x < S h -> f x = false) as Hl.
        { intros x Hx. destruct (f x) eqn:Ex; auto.
          rewrite (Hmono x h) in E; auto; lia. }
        destruct (IH (S h) j ltac:(lia) ltac:(lia) Hmono Hl) as [H1 [H2 H3]].
        repeat split; auto; try lia.
    + repeat split; auto; lia.
Qed.

Lemma sort_search_spec n f :
  (forall x y, x <= y -> y < n -> f x = true -> f y = true) ->
  sort_search n f <= n /\ (forall x, x < sort_search n f -> f x = false)
  /\ (sort_search n f < n -> f (sort_search n f) = true).
Proof.
  intros H. destruct (search_aux_spec f n 0 n ltac:(lia) ltac:(lia) H ltac:(lia)) as [H1 [H2 H3]].
  unfold sort_search. repeat split; auto; lia.
Qed.

(** ** Prefixes and suffixes *)

Lemma has_prefix_spec a p : has_prefix a p = true <-> exists t, a = p ++ t.
Proof.
  revert a; induction p as [|x p IH]; intros a; simpl.
  - split; [intros _; now exists a|auto].
  - destruct a as [|y a].
    + split; [discriminate|]. intros [t H]; discriminate.
    + rewrite andb_true_iff, IH, Ascii.eqb_eq. split.
      * intros [-> [t ->]]. now exists t.
      * intros [t H]. injection H as -> ->. eauto.
Qed.

Lemma has_suffix_spec a p : has_suffix a p = true <-> exists t, a = t ++ p.
Proof.
  unfold has_suffix. rewrite has_prefix_spec. split; intros [t H].
  - exists (rev t). rewrite <- (rev_involutive a), H, rev_app_distr, rev_involutive. reflexivity.
  - exists (rev t). rewrite H, rev_app_distr. reflexivity.
Qed.

Lemma trim_suffix_app t p : trim_suffix (t ++ p) p = t.
Proof.
  unfold trim_suffix. assert (has_suffix (t ++ p) p = true) as -> by (apply has_suffix_spec; eauto).
  rewrite app_length, Nat.add_sub, firstn_app, Nat.sub_diag, firstn_all. simpl. apply app_nil_r.
Qed.

Lemma trim_suffix_not a p : has_suffix a p = false -> trim_suffix a p = a.
Proof. unfold trim_suffix. now intros ->. Qed.

Lemma trim_prefix_app t p : trim_prefix (p ++ t) p = t.
Proof.
  unfold trim_prefix. assert (has_prefix (p ++ t) p = true) as -> by (apply has_prefix_spec; eauto).
  rewrite skipn_app, Nat.sub_diag, skipn_all. reflexivity.
Qed.

(** ** Bytes: contains, count, index, split *)

Lemma contains_byte_In c a : contains_byte c a = true <-> In c a.
Proof.
  induction a as [|x a IH]; simpl; [split; [discriminate|tauto]|].
  rewrite orb_true_iff, IH, Ascii.eqb_eq. tauto.
Qed.

Lemma contains_byte_not_In c a : contains_byte c a = false <-> ~ In c a.
Proof. rewrite <- contains_byte_In. destruct (contains_byte c a); split; congruence. Qed.

Lemma count_byte_0 c a : count_byte c a = 0 <-> ~ In c a.
Proof.
  induction a as [|x a IH]; simpl; [tauto|].
  destruct (Ascii.eqb_spec x c).
  - subst. split; [discriminate|]. intro H; exfalso; apply H; now left.
  - simpl. rewrite IH. intuition.
Qed.

Lemma index_byte_Some c a i :
  index_byte c a = Some i -> a = firstn i a ++ c :: skipn (S i) a /\ ~ In c (firstn i a) /\ i < length a.
Proof.
  revert i; induction a as [|x a IH]; intros i; simpl; [discriminate|].
  destruct (Ascii.eqb_spec x c).
  - intros H. injection H as <-. subst. simpl. split; [reflexivity|]. split; [tauto|lia].
  - destruct (index_byte c a) as [j|] eqn:E; [|discriminate].
    intros H. injection H as <-. destruct (IH j eq_refl) as [H1 [H2 H3]].
    simpl. split; [f_equal; exact H1|]. split; [intuition|lia].
Qed.

Lemma index_byte_None c a : index_byte c a = None <-> ~ In c a.
Proof.
  induction a as [|x a IH]; simpl; [tauto|].
  destruct (Ascii.eqb_spec x c).
  - subst. split; [discriminate|]. intro H; exfalso; apply H; now left.
  - destruct (index_byte c a); split; intro H; try discriminate; auto.
    + exfalso. apply H. right. destruct (in_dec Ascii.ascii_dec c a) as [i|i]; auto.
      apply IH in i. discriminate.
    + intros [|]; [congruence|]. apply IH in H0; auto.
Qed.

Lemma index_byte_app c a b : ~ In c a -> index_byte c (a ++ c :: b) = Some (length a).
Proof.
  induction a as [|x a IH]; simpl; intros H.
  - now rewrite Ascii.eqb_refl.
  - destruct (Ascii.eqb_spec x c); [exfalso; auto|]. rewrite IH; auto.
Qed.

Lemma split_byte_nonempty c a : split_byte c a <> [].
Proof.
  destruct a as [|x a]; simpl; [discriminate|].
  destruct (Ascii.eqb x c); [discriminate|]. destruct (split_byte c a); discriminate.
Qed.

Lemma split_byte_no c a : ~ In c a -> split_byte c a = [a].
Proof.
  induction a as [|x a IH]; simpl; intros H; auto.
  destruct (Ascii.eqb_spec x c); [exfalso; auto|]. rewrite IH; auto.
Qed.

Lemma split_byte_app c a b : split_byte c (a ++ c :: b) = split_byte c a ++ split_byte c b.
Proof.
  induction a as [|x a IH]; simpl.
  - now rewrite Ascii.eqb_refl.
  - rewrite IH. destruct (Ascii.eqb x c); auto.
    pose proof (split_byte_nonempty c a). destruct (split_byte c a); [congruence|reflexivity].
Qed.

Lemma join_split c a : join [c] (split_byte c a) = a.
Proof.
  induction a as [|x a IH]; simpl; auto.
  destruct (Ascii.eqb_spec x c).
  - subst. pose proof (split_byte_nonempty c a). destruct (split_byte c a) eqn:E; [congruence|].
    simpl in *. now rewrite <- IH.
  - pose proof (split_byte_nonempty c a). destruct (split_byte c a) as [|h t] eqn:E; [congruence|].
    simpl. destruct t; simpl in *; now rewrite <- IH.
Qed.

Lemma split_byte_no_sep c a : forall p, In p (split_byte c a) -> ~ In c p.
Proof.
  induction a as [|x a IH]; simpl; intros p.
  - intros [<-|[]]. tauto.
  - destruct (Ascii.eqb_spec x c).
    + intros [<-|]; auto.
    + destruct (split_byte c a) as [|h t] eqn:E.
      * intros [<-|[]] [|[]]; congruence.
      * intros [<-|H]; [|apply IH; now right].
        intros [|H]; [congruence|]. revert H. apply IH. now left.
Qed.

(** ** Trimming *)

Lemma trim_left_hd c a : match trim_left c a with [] => True | x :: _ => x <> c end.
Proof.
  induction a as [|x a IH]; simpl; auto.
  destruct (Ascii.eqb_spec x c); auto.
Qed.

Lemma trim_left_decomp c a : exists n, a = repeat c n ++ trim_left c a.
Proof.
  induction a as [|x a [n IH]]; simpl.
  - now exists 0.
  - destruct (Ascii.eqb_spec x c).
    + exists (S n). simpl. subst. now f_equal.
    + now exists 0.
Qed.

Lemma rev_repeat {A} (x : A) n : rev (repeat x n) = repeat x n.
Proof.
  induction n; simpl; auto. rewrite IHn. clear. induction n; simpl; auto. now f_equal.
Qed.

Lemma trim_right_decomp c a : exists n, a = trim_right c a ++ repeat c n.
Proof.
  unfold trim_right. destruct (trim_left_decomp c (rev a)) as [n H].
  exists n. rewrite <- (rev_involutive a) at 1. rewrite H at 1.
  rewrite rev_app_distr, rev_repeat. reflexivity.
Qed.

Lemma trim_right_last c a t x : trim_right c a = t ++ [x] -> x <> c.
Proof.
  unfold trim_right. intros H. apply (f_equal (@rev _)) in H.
  rewrite rev_involutive, rev_app_distr in H. simpl in H.
  pose proof (trim_left_hd c (rev a)). rewrite H in H0. exact H0.
Qed.

Lemma trim_left_id c x a : x <> c -> trim_left c (x :: a) = x :: a.
Proof. simpl. destruct (Ascii.eqb_spec x c); congruence. Qed.

Lemma trim_right_id c x a : x <> c -> trim_right c (a ++ [x]) = a ++ [x].
Proof.
  intros. unfold trim_right. rewrite rev_app_distr. simpl rev at 2. simpl app.
  rewrite trim_left_id by auto. simpl. now rewrite rev_involutive.
Qed.

Lemma trim_right_length c a : length (trim_right c a) <= length a.
Proof.
  destruct (trim_right_decomp c a) as [n H]. rewrite H at 2. rewrite app_length. lia.
Qed.

(** ** Lower case *)

Lemma lower_ascii_idem c : lower_ascii (lower_ascii c) = lower_ascii c.
Proof. destruct c as [[] [] [] [] [] [] [] []]; reflexivity. Qed.

Lemma to_lower_idem a : to_lower (to_lower a) = to_lower a.
Proof.
  unfold to_lower. rewrite map_map. apply map_ext. apply lower_ascii_idem.
Qed.

Lemma to_lower_app a b : to_lower (a ++ b) = to_lower a ++ to_lower b.
Proof. apply map_app. Qed.

Lemma to_lower_length a : length (to_lower a) = length a.
Proof. apply map_length. Qed.

Lemma to_lower_rev a : to_lower (rev a) = rev (to_lower a).
Proof. apply map_rev. Qed.

Lemma lower_ascii_dot c : lower_ascii c = dot -> c = dot.
Proof. destruct c as [[] [] [] [] [] [] [] []]; vm_compute; congruence. Qed.

Lemma lower_ascii_star c : lower_ascii c = star -> c = star.
Proof. destruct c as [[] [] [] [] [] [] [] []]; vm_compute; congruence. Qed.
