(** Lemmas about Position.v. *)
From Coq Require Import String Ascii List Arith Bool NArith ZArith Lia Sorting.Sorted.
From Verif Require Import Str Num Parsers ParsersSpec ParsersProofs Position PositionSpec.
Import ListNotations.
Open Scope list_scope.

Section Reading.
Context {A : Type}.
Variable p : str -> A + str.
Variable done_line done_each : nat -> bool.
Variable scan_err : option str.
Variable limit : Z.

Definition the_end : perr := match scan_err with Some t => ERead t | None => EEof end.
Definition result (no : nat) (e : perr) : option (nat * perr) := match e with EEof => None | e => Some (no, e) end.

(** line by line *)
Fixpoint walk (fresh : bool) (count : Z) (no : nat) (ls : list str) : list (event A) * option (nat * perr) :=
  if fresh && done_each no then ([], Some (no, ECtx false))
  else if done_line (S no) then ([], Some (S no, ECtx true))
  else match ls with
  | [] => ([], result (S no) the_end)
  | raw :: ls' =>
      match clean_line raw with
      | None => walk false count (S no) ls'
      | Some t =>
          match p t with
          | inl a => let '(evs, r) := walk true count (S no) ls' in (Delivered a :: evs, r)
          | inr m =>
              let w := Warned (S no) (with_position (S no) m) in
              if (limit =? -1)%Z then let '(evs, r) := walk false count (S no) ls' in (w :: evs, r)
              else if (limit <? count + 1)%Z then ([w], Some (S no, ETooMany))
              else let '(evs, r) := walk false (count + 1) (S no) ls' in (w :: evs, r)
          end
      end
  end.

Lemma read_line_length ls : forall no no' t rest, read_line done_line scan_err no ls = (no', inl (t, rest)) -> length rest < length ls.
Proof.
  induction ls as [|raw ls IH]; intros no no' t rest; cbn [read_line]; destruct (done_line (S no)); try discriminate.
  destruct (clean_line raw) as [x|]; intros H.
  - injection H as <- <- <-. cbn. lia.
  - apply IH in H. cbn. lia.
Qed.

Lemma walk_read_line count ls : forall no, walk false count no ls =
  match read_line done_line scan_err no ls with
  | (no', inr e) => ([], result no' e)
  | (no', inl (t, rest)) =>
      match p t with
      | inl a => let '(evs, r) := walk true count no' rest in (Delivered a :: evs, r)
      | inr m =>
          let w := Warned no' (with_position no' m) in
          if (limit =? -1)%Z then let '(evs, r) := walk false count no' rest in (w :: evs, r)
          else if (limit <? count + 1)%Z then ([w], Some (no', ETooMany))
          else let '(evs, r) := walk false (count + 1) no' rest in (w :: evs, r)
      end
  end.
Proof.
  induction ls as [|raw ls IH]; intros no; cbn [read_line walk andb]; destruct (done_line (S no)); try reflexivity.
  destruct (clean_line raw) as [t|]; [reflexivity|apply IH].
Qed.

Lemma filtered_walk : forall fuel count no ls, length ls < fuel ->
  walk false count no ls =
  match filtered_next p done_line scan_err fuel limit count no ls with
  | (ws, no', inl (a, rest, c)) => let '(evs, r) := walk true c no' rest in (ws ++ Delivered a :: evs, r)
  | (ws, no', inr e) => (ws, result no' e)
  end.
Proof.
  induction fuel as [|fuel IH]; intros count no ls Hl; [lia|].
  rewrite walk_read_line. cbn [filtered_next]. unfold read_item.
  destruct (read_line done_line scan_err no ls) as [no' [[t rest]|e]] eqn:E.
  - apply read_line_length in E. destruct (p t) as [a|m]; [destruct (walk true count no' rest); reflexivity|].
    cbn [non_resumable perr_text]. destruct (limit =? -1)%Z.
    + rewrite (IH count no' rest) by lia. destruct (filtered_next _ _ _ fuel limit count no' rest) as [[ws n] [[[a r] c]|e]].
      * destruct (walk true c n r). reflexivity.
      * reflexivity.
    + destruct (limit <? count + 1)%Z; [reflexivity|].
      rewrite (IH (count + 1)%Z no' rest) by lia. destruct (filtered_next _ _ _ fuel limit (count + 1) no' rest) as [[ws n] [[[a r] c]|e]].
      * destruct (walk true c n r). reflexivity.
      * reflexivity.
  - assert (G : non_resumable e = true).
    { clear -E. revert no E. induction ls as [|raw ls IH]; intros no; cbn [read_line]; destruct (done_line (S no)).
      - intros [= _ <-]. reflexivity.
      - intros [= _ <-]. destruct scan_err; reflexivity.
      - intros [= _ <-]. reflexivity.
      - destruct (clean_line raw); [discriminate|apply IH]. }
    rewrite G. reflexivity.
Qed.

Lemma filtered_length : forall fuel count no ls ws no' a rest c,
  filtered_next p done_line scan_err fuel limit count no ls = (ws, no', inl (a, rest, c)) -> length rest < length ls.
Proof.
  induction fuel as [|fuel IH]; intros count no ls ws no' a rest c; [discriminate|].
  cbn [filtered_next]. unfold read_item.
  destruct (read_line done_line scan_err no ls) as [n1 [[t r1]|e]] eqn:E.
  - apply read_line_length in E. destruct (p t) as [a1|m].
    + intros [= <- <- <- <- <-]. exact E.
    + cbn [non_resumable]. destruct (limit =? -1)%Z.
      * destruct (filtered_next _ _ _ fuel limit count n1 r1) as [[ws1 n2] [[[a2 r2] c2]|e2]] eqn:E2; [|discriminate].
        apply IH in E2. intros [= <- <- <- <- <-]. lia.
      * destruct (limit <? count + 1)%Z; [discriminate|].
        destruct (filtered_next _ _ _ fuel limit (count + 1) n1 r1) as [[ws1 n2] [[[a2 r2] c2]|e2]] eqn:E2; [|discriminate].
        apply IH in E2. intros [= <- <- <- <- <-]. lia.
  - destruct (non_resumable e); [discriminate|].
    destruct (limit =? -1)%Z.
    + destruct (filtered_next _ _ _ fuel limit count n1 []) as [[ws1 n2] [[[a2 r2] c2]|e2]] eqn:E2; [|discriminate].
      apply IH in E2. cbn in E2. lia.
    + destruct (limit <? count + 1)%Z; [discriminate|].
      destruct (filtered_next _ _ _ fuel limit (count + 1) n1 []) as [[ws1 n2] [[[a2 r2] c2]|e2]] eqn:E2; [|discriminate].
      apply IH in E2. cbn in E2. lia.
Qed.

Lemma read_each_walk : forall fuel count no ls, length ls < fuel ->
  read_each p done_line done_each scan_err fuel limit count no ls = walk true count no ls.
Proof.
  induction fuel as [|fuel IH]; intros count no ls Hl; [lia|].
  cbn [read_each]. destruct (done_each no) eqn:Ed.
  - destruct ls; cbn [walk andb]; rewrite Ed; reflexivity.
  - assert (E : walk true count no ls = walk false count no ls) by (destruct ls; cbn [walk andb]; rewrite Ed; reflexivity).
    rewrite E, (filtered_walk (S (length ls))) by lia.
    destruct (filtered_next _ _ _ (S (length ls)) limit count no ls) as [[ws n] [[[a r] c]|e]] eqn:Ef.
    + apply filtered_length in Ef. rewrite IH by lia. reflexivity.
    + destruct e; reflexivity.
Qed.

Lemma read_source_walk ls : read_source p done_line done_each scan_err limit ls = walk true 0 0 ls.
Proof. unfold read_source. apply read_each_walk. lia. Qed.
End Reading.

(** The context is never done. *)
Definition never : nat -> bool := fun _ => false.

Section Told.
Context {A : Type}.
Variable p : str -> A + str.
Variable scan_err : option str.
Variable limit : Z.

Lemma walk_fresh fresh count no ls : walk p never never scan_err limit fresh count no ls = walk p never never scan_err limit false count no ls.
Proof. destruct ls, fresh; reflexivity. Qed.

(** complaints numbered from [no] on *)
Fixpoint bad_from (no : nat) (ls : list str) : list (nat * str) :=
  match ls with
  | [] => []
  | raw :: ls' =>
      match clean_line raw with
      | None => bad_from (S no) ls'
      | Some t => match p t with inl _ => bad_from (S no) ls' | inr m => (S no, m) :: bad_from (S no) ls' end
      end
  end.

Lemma bad_from_above ls : forall no n m, In (n, m) (bad_from no ls) -> no < n.
Proof.
  induction ls as [|raw ls IH]; intros no n m; cbn [bad_from]; [intros []|].
  destruct (clean_line raw) as [t|].
  - destruct (p t) as [a|m0].
    + intros H. apply IH in H. lia.
    + intros [[= <- _]|H]; [lia|]. apply IH in H. lia.
  - intros H. apply IH in H. lia.
Qed.

Lemma bad_from_sorted ls : forall no, StronglySorted (fun a b : nat * str => fst a < fst b) (bad_from no ls).
Proof.
  induction ls as [|raw ls IH]; intros no; cbn [bad_from]; [constructor|].
  destruct (clean_line raw) as [t|]; [|apply IH]. destruct (p t); [apply IH|]. constructor; [apply IH|].
  apply Forall_forall. intros [n m] H. apply bad_from_above in H. cbn. lia.
Qed.

Lemma line_has_content l : exists t, line_content l t.
Proof.
  destruct (contents_total [l]) as [ts H]. inversion H; subst; eauto.
Qed.

Lemma bad_from_iff ls : forall no n m, In (n, m) (bad_from no ls) <-> no < n /\ complaint p ls (n - no) m.
Proof.
  induction ls as [|raw ls IH]; intros no n m; cbn [bad_from].
  - split; [intros []|]. intros [_ [raw [t [_ [H _]]]]]. destruct (n - no - 1); discriminate.
  - destruct (line_has_content raw) as [t Ht]. pose proof (clean_line_spec raw t Ht) as E. rewrite E.
    assert (R : (no < n /\ complaint p (raw :: ls) (n - no) m) <-> (n = S no /\ t <> [] /\ p t = inr m) \/ (S no < n /\ complaint p ls (n - S no) m)).
    { unfold complaint. split.
      - intros [H1 [r [t' [H2 [H3 [H4 [H5 H6]]]]]]]. destruct (Nat.eq_dec n (S no)) as [->|Hn].
        + left. replace (S no - no - 1) with 0 in H3 by lia. injection H3 as <-.
          apply clean_line_spec in H4. rewrite E in H4. destruct t, t'; try congruence; split; auto; split; try discriminate; congruence.
        + right. split; [lia|]. exists r, t'. split; [lia|]. split; [|auto].
          replace (n - no - 1) with (S (n - S no - 1)) in H3 by lia. exact H3.
      - intros [[-> [H1 H2]]|[H1 [r [t' [H2 [H3 H4]]]]]].
        + split; [lia|]. exists raw, t. replace (S no - no - 1) with 0 by lia. split; [lia|]. auto.
        + split; [lia|]. exists r, t'. split; [lia|]. split; [|exact H4].
          replace (n - no - 1) with (S (n - S no - 1)) by lia. exact H3. }
    rewrite R. destruct t as [|c t].
    + rewrite (IH (S no) n m). split; [auto|]. intros [[_ [H _]]|H]; [congruence|exact H].
    + destruct (p (c :: t)) as [a|m'] eqn:Ep.
      * rewrite (IH (S no) n m). split; [auto|]. intros [[_ [_ H]]|H]; [discriminate H|exact H].
      * cbn [In]. rewrite (IH (S no) n m). split.
        -- intros [H|H]; [|auto]. left. injection H as <- <-. repeat split. discriminate.
        -- intros [[-> [_ [= <-]]]|H]; auto.
Qed.

Lemma bad_from_complaints ls : complaints p ls (bad_from 0 ls).
Proof.
  split; [apply bad_from_sorted|]. intros n m. rewrite bad_from_iff, Nat.sub_0_r. split; [tauto|].
  intros H. split; [|exact H]. destruct H as [r [t [H _]]]. lia.
Qed.

Lemma sorted_unique (l : list (nat * str)) : forall l', StronglySorted (fun a b => fst a < fst b) l -> StronglySorted (fun a b => fst a < fst b) l' ->
  (forall x, In x l <-> In x l') -> l = l'.
Proof.
  induction l as [|x l IH]; intros [|y l'] H H' E; auto.
  - destruct (proj2 (E y)). now left.
  - destruct (proj1 (E x)). now left.
  - apply StronglySorted_inv in H as [H1 H2]. apply StronglySorted_inv in H' as [H1' H2'].
    rewrite Forall_forall in H2, H2'.
    assert (x = y) as ->.
    { destruct (proj1 (E x) (or_introl eq_refl)) as [H|H]; [auto|]. destruct (proj2 (E y) (or_introl eq_refl)) as [G|G]; [auto|].
      apply H2' in H. apply H2 in G. lia. }
    f_equal. apply IH; auto. intros z. split; intros Hz.
    + destruct (proj1 (E z) (or_intror Hz)) as [<-|]; auto. apply H2 in Hz. lia.
    + destruct (proj2 (E z) (or_intror Hz)) as [<-|]; auto. apply H2' in Hz. lia.
Qed.

Lemma complaints_unique ls all : complaints p ls all -> all = bad_from 0 ls.
Proof.
  intros [H1 H2]. destruct (bad_from_complaints ls) as [G1 G2]. apply sorted_unique; auto.
  intros [n m]. rewrite H2, G2. reflexivity.
Qed.

Definition texts (l : list (nat * str)) : list (nat * str) := map (fun c => (fst c, line_text c)) l.
Lemma with_position_text n m : with_position n m = line_text (n, m).
Proof. unfold with_position, position, line_text. cbn [fst snd]. now rewrite <- app_assoc. Qed.

Lemma walk_unlimited (E : limit = (-1)%Z) ls : forall count no, let '(evs, r) := walk p never never scan_err limit false count no ls in
  told evs = texts (bad_from no ls) /\ r = result (S (no + length ls)) (the_end scan_err).
Proof.
  induction ls as [|raw ls IH]; intros count no; cbn [walk andb never bad_from].
  - cbn. rewrite Nat.add_0_r. auto.
  - destruct (clean_line raw) as [t|].
    + destruct (p t) as [a|m].
      * rewrite walk_fresh. specialize (IH count (S no)). destruct (walk _ _ _ _ _ false count (S no) ls) as [evs r].
        cbn [told flat_map app length]. rewrite Nat.add_succ_r. exact IH.
      * subst limit. cbn [Z.eqb Pos.eqb]. specialize (IH count (S no)). destruct (walk _ _ _ _ _ false count (S no) ls) as [evs r].
        destruct IH as [H1 H2]. cbn [length]. rewrite Nat.add_succ_r. split; [|exact H2].
        cbn [told flat_map app texts map fst]. rewrite with_position_text. f_equal. exact H1.
    + specialize (IH count (S no)). cbn [length]. rewrite Nat.add_succ_r. exact IH.
Qed.

Lemma walk_limited (E : limit <> (-1)%Z) ls : forall count no, (0 <= count <= Z.max limit 0)%Z ->
  let '(evs, r) := walk p never never scan_err limit false count no ls in
  let k := Z.to_nat (Z.max limit 0 - count) in
  told evs = texts (firstn (S k) (bad_from no ls)) /\
  r = match nth_error (bad_from no ls) k with
      | Some (n, _) => Some (n, ETooMany)
      | None => result (S (no + length ls)) (the_end scan_err)
      end.
Proof.
  induction ls as [|raw ls IH]; intros count no Hc; cbn [walk andb never bad_from].
  - cbn [told flat_map length]. rewrite Nat.add_0_r. split; [reflexivity|]. destruct (Z.to_nat (Z.max limit 0 - count)); reflexivity.
  - destruct (clean_line raw) as [t|].
    + destruct (p t) as [a|m].
      * rewrite walk_fresh. specialize (IH count (S no) Hc). destruct (walk _ _ _ _ _ false count (S no) ls) as [evs r].
        cbn [told flat_map app length]. rewrite Nat.add_succ_r. exact IH.
      * apply Z.eqb_neq in E as E'. rewrite E'. destruct (limit <? count + 1)%Z eqn:El.
        -- apply Z.ltb_lt in El. replace (Z.to_nat (Z.max limit 0 - count)) with 0 by lia.
           cbn [told flat_map app firstn texts map nth_error fst]. rewrite with_position_text. auto.
        -- apply Z.ltb_ge in El. specialize (IH (count + 1)%Z (S no)). destruct (walk _ _ _ _ _ false (count + 1) (S no) ls) as [evs r].
           destruct IH as [H1 H2]; [lia|].
           replace (Z.to_nat (Z.max limit 0 - count)) with (S (Z.to_nat (Z.max limit 0 - (count + 1)))) by lia.
           cbn [length nth_error]. rewrite Nat.add_succ_r. split; [|exact H2].
           rewrite firstn_cons. cbn [told flat_map app texts map fst]. rewrite with_position_text. f_equal. exact H1.
    + specialize (IH count (S no) Hc). cbn [length]. rewrite Nat.add_succ_r. exact IH.
Qed.

Lemma collected_fun ts : forall g b g' b', collected (value p) ts g b -> collected (value p) ts g' b' -> g = g'.
Proof.
  intros g b g' b' H. revert g' b'. induction H; intros g' b' Hg; inversion Hg; subst; try congruence; auto.
  - f_equal; [congruence|]. eauto.
  - eauto.
Qed.

(** what comes before a warning *)
Lemma walk_before ls : forall fresh count no pre n t post r good bad ts,
  walk p never never scan_err limit fresh count no ls = (pre ++ Warned n t :: post, r) ->
  contents (firstn (n - S no) ls) ts -> collected (value p) ts good bad -> given pre = good /\ no < n.
Proof.
  induction ls as [|raw ls IH]; intros fresh count no pre n t post r good bad ts H Hc Hg; rewrite walk_fresh in H; cbn [walk andb never] in H.
  - destruct pre; discriminate H.
  - destruct (line_has_content raw) as [x Hx]. pose proof (clean_line_spec raw x Hx) as E. rewrite E in H.
    assert (W : forall f c pre', walk p never never scan_err limit f c (S no) ls = (pre' ++ Warned n t :: post, r) ->
       S no < n /\ exists ts' good' bad', contents (firstn (n - S (S no)) ls) ts' /\ collected (value p) ts' good' bad' /\ given pre' = good' /\
         (ts = match x with [] => ts' | _ => x :: ts' end)).
    { intros f c pre' Hw. destruct (contents_total (firstn (n - S (S no)) ls)) as [ts' Ht']. destruct (collected_total (value p) ts') as [good' [bad' Hg']].
      destruct (IH _ _ _ _ _ _ _ _ _ _ _ Hw Ht' Hg') as [G1 G2]. split; [exact G2|]. exists ts', good', bad'. repeat split; auto.
      replace (n - S no) with (S (n - S (S no))) in Hc by lia. cbn [firstn] in Hc.
      apply (contents_fun _ _ _ Hc). destruct x; [apply con_skip; auto|apply con_take; auto; discriminate]. }
    destruct x as [|c x].
    + destruct (W _ _ _ H) as [G1 [ts' [good' [bad' [G2 [G3 [G4 ->]]]]]]].
      split; [|lia]. rewrite G4. exact (collected_fun _ _ _ _ _ G3 Hg).
    + set (X := c :: x) in *. destruct (p X) as [a|m] eqn:Ep.
      * destruct (walk _ _ _ _ _ true count (S no) ls) as [evs r'] eqn:Ew. apply (f_equal fst) in H as H1. apply (f_equal snd) in H as H2. cbn in H1, H2.
        subst r'. destruct pre as [|e pre]; [discriminate H1|]. injection H1 as <- H1. subst evs.
        destruct (W _ _ _ Ew) as [G1 [ts' [good' [bad' [G2 [G3 [G4 G5]]]]]]]. cbn in G5. subst ts.
        split; [|lia]. cbn [given flat_map app]. inversion Hg; subst; unfold value in *; [|rewrite Ep in *; discriminate].
        rewrite Ep in *. match goal with H : Some _ = Some _ |- _ => injection H as <- end. f_equal.
        eapply collected_fun; eassumption.
      * assert (V : forall c' b, b = (limit =? -1)%Z -> (let '(evs, r) := walk p never never scan_err limit false c' (S no) ls in (Warned (S no) (with_position (S no) m) :: evs, r)) = (pre ++ Warned n t :: post, r) ->
           given pre = good /\ no < n).
        { intros c' b _ H0. destruct (walk _ _ _ _ _ false c' (S no) ls) as [evs r'] eqn:Ew. apply (f_equal fst) in H0 as H1. apply (f_equal snd) in H0 as H2. cbn in H1, H2.
          subst r'. destruct pre as [|e pre].
          - injection H1 as <- _ _. rewrite Nat.sub_diag in Hc. cbn in Hc. inversion Hc; subst. inversion Hg; subst. cbn. auto.
          - injection H1 as <- H1. subst evs. destruct (W _ _ _ Ew) as [G1 [ts' [good' [bad' [G2 [G3 [G4 G5]]]]]]]. cbn in G5. subst ts.
            split; [|lia]. cbn [given flat_map app]. inversion Hg; subst; unfold value in *; [rewrite Ep in *; discriminate|].
            eapply collected_fun; eassumption. }
        destruct (limit =? -1)%Z; [exact (V _ true eq_refl H)|].
        destruct (limit <? count + 1)%Z; [|exact (V _ false eq_refl H)].
        apply (f_equal fst) in H. cbn in H. destruct pre as [|e pre]; [|destruct pre; discriminate H].
        injection H as <- _ _. rewrite Nat.sub_diag in Hc. cbn in Hc. inversion Hc; subst. inversion Hg; subst. cbn. auto.
Qed.

(** without the numbers: the reading of Parsers.v *)
Definition stop_of (r : option (nat * perr)) : stop :=
  match r with None => StopOK | Some (_, ETooMany) => StopTooMany | Some _ => StopReadErr end.
Definition scan_end_of : scan_end := match scan_err with Some _ => ScanErr | None => ScanEOF end.

Lemma walk_run ls : forall fresh count no ts, contents ls ts ->
  let '(evs, r) := walk p never never scan_err limit fresh count no ls in
  run (value p) limit count ts scan_end_of = (given evs, stop_of r).
Proof.
  induction ls as [|raw ls IH]; intros fresh count no ts H; rewrite walk_fresh; cbn [walk andb never]; inversion H; subst.
  - cbn. unfold scan_end_of, the_end. destruct scan_err; reflexivity.
  - match goal with H : line_content _ _ |- _ => rewrite (clean_line_spec _ _ H) end. apply IH. assumption.
  - match goal with H : line_content _ _ |- _ => rewrite (clean_line_spec _ _ H) end.
    match goal with H : contents ls _ |- _ => rename H into H5 end. destruct t as [|c x]; [congruence|]. set (X := c :: x) in *. cbn [run]. unfold value at 1.
    destruct (p X) as [a|m].
    + specialize (IH true count (S no) ts0 H5). destruct (walk _ _ _ _ _ true count (S no) ls) as [evs r]. rewrite IH. reflexivity.
    + unfold over. destruct (limit =? -1)%Z eqn:E.
      * cbn [negb andb]. specialize (IH false count (S no) ts0 H5). destruct (walk _ _ _ _ _ false count (S no) ls) as [evs r].
        cbn [given flat_map app]. exact IH.
      * cbn [negb andb]. destruct (limit <? count + 1)%Z; [reflexivity|].
        specialize (IH false (count + 1)%Z (S no) ts0 H5). destruct (walk _ _ _ _ _ false (count + 1) (S no) ls) as [evs r]. exact IH.
Qed.
End Told.

(** With a context that may be done: what happens until then. *)
Lemma walk_cut {A} (p : str -> A + str) dl de se limit ls : forall fresh count no,
  let '(evs, r) := walk p dl de se limit fresh count no ls in
  let '(evs0, r0) := walk p never never se limit fresh count no ls in
  (evs = evs0 /\ r = r0) \/
  (exists n w post, evs0 = evs ++ post /\ r = Some (n, ECtx w) /\ (if w then dl n = true else de n = true) /\ n <= S (no + length ls)).
Proof.
  induction ls as [|raw ls IH]; intros fresh count no; cbn [walk never]; rewrite andb_false_r; cbn [length].
  - destruct (fresh && de no) eqn:E1.
    + apply andb_true_iff in E1 as [_ E1]. right. exists no, false, []. repeat split; auto. lia.
    + destruct (dl (S no)) eqn:E2; [|auto]. right. exists (S no), true, []. repeat split; auto. lia.
  - assert (T : forall b (evs0 : list (event A)) r0 n, (if b : bool then dl n = true else de n = true) -> n <= S (no + S (length ls)) ->
       (([] : list (event A)) = evs0 /\ Some (n, ECtx b) = r0) \/
       (exists n' w post, evs0 = [] ++ post /\ Some (n, ECtx b) = Some (n', ECtx w) /\ (if w then dl n' = true else de n' = true) /\ n' <= S (no + S (length ls)))).
    { intros b evs0 r0 n H1 H2. right. exists n, b, evs0. auto. }
    destruct (fresh && de no) eqn:E1.
    { apply andb_true_iff in E1 as [_ E1]. match goal with |- let '(_, _) := ?X in _ => destruct X as [evs0 r0] end. apply T; [exact E1|lia]. }
    destruct (dl (S no)) eqn:E2.
    { match goal with |- let '(_, _) := ?X in _ => destruct X as [evs0 r0] end. apply T; [exact E2|lia]. }
    clear T. destruct (clean_line raw) as [t|].
    + destruct (p t) as [a|m].
      * specialize (IH true count (S no)). destruct (walk p dl de se limit true count (S no) ls) as [evs r].
        destruct (walk p never never se limit true count (S no) ls) as [evs0 r0].
        destruct IH as [[-> ->]|[n [w [post [-> [-> [H1 H2]]]]]]]; [auto|]. right. exists n, w, post. repeat split; auto. lia.
      * destruct (limit =? -1)%Z.
        -- specialize (IH false count (S no)). destruct (walk p dl de se limit false count (S no) ls) as [evs r].
           destruct (walk p never never se limit false count (S no) ls) as [evs0 r0].
           destruct IH as [[-> ->]|[n [w [post [-> [-> [H1 H2]]]]]]]; [auto|]. right. exists n, w, post. repeat split; auto. lia.
        -- destruct (limit <? count + 1)%Z; [auto|].
           specialize (IH false (count + 1)%Z (S no)). destruct (walk p dl de se limit false (count + 1) (S no) ls) as [evs r].
           destruct (walk p never never se limit false (count + 1) (S no) ls) as [evs0 r0].
           destruct IH as [[-> ->]|[n [w [post [-> [-> [H1 H2]]]]]]]; [auto|]. right. exists n, w, post. repeat split; auto. lia.
    + specialize (IH false count (S no)). destruct (walk p dl de se limit false count (S no) ls) as [evs r].
      destruct (walk p never never se limit false count (S no) ls) as [evs0 r0].
      destruct IH as [H|[n [w [post [-> [-> [H1 H2]]]]]]]; [auto|]. right. exists n, w, post. repeat split; auto. lia.
Qed.
