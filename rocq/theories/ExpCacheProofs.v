(** Lemmas about the expiring cache. *)
From Coq Require Import String Ascii List Arith Bool ZArith Lia Sorting.Sorted.
From Verif Require Import Str StrFacts ExpCache ExpCacheSpec.
Import ListNotations.

(** ** Lists *)

Inductive sublist {A} : list A -> list A -> Prop :=
| sub_nil : sublist [] []
| sub_skip x l l' : sublist l l' -> sublist l (x :: l')
| sub_take x l l' : sublist l l' -> sublist (x :: l) (x :: l').

Lemma sub_refl {A} (l : list A) : sublist l l.
Proof. induction l; [apply sub_nil|apply sub_take; auto]. Qed.

Lemma sub_nil_l {A} (l : list A) : sublist [] l.
Proof. induction l; constructor; auto. Qed.

Lemma sub_In {A} (l l' : list A) x : sublist l l' -> In x l -> In x l'.
Proof. induction 1; simpl; intuition. Qed.

Lemma sub_length {A} (l l' : list A) : sublist l l' -> length l <= length l'.
Proof. induction 1; simpl; lia. Qed.

Lemma sub_Forall {A} (P : A -> Prop) l l' : sublist l l' -> Forall P l' -> Forall P l.
Proof. intros H G. rewrite Forall_forall in *. eauto using sub_In. Qed.

Lemma sub_sorted {A} (R : A -> A -> Prop) l l' : sublist l l' -> StronglySorted R l' -> StronglySorted R l.
Proof.
  induction 1; intros G; auto; apply StronglySorted_inv in G as [G1 G2]; auto.
  constructor; auto. eapply sub_Forall; eauto.
Qed.

Lemma sub_map {A B} (f : A -> B) l l' : sublist l l' -> sublist (map f l) (map f l').
Proof. induction 1; simpl; [apply sub_nil|apply sub_skip|apply sub_take]; auto. Qed.

Lemma sub_NoDup {A} (l l' : list A) : sublist l l' -> NoDup l' -> NoDup l.
Proof.
  induction 1; intros G; auto; inversion G; subst; auto. constructor; auto.
  intros Hin. apply H2. eapply sub_In; eauto.
Qed.

Lemma sub_mdel {V} k (l : list (str * V)) : sublist (mdel str_eqb k l) l.
Proof. induction l as [|[x v] l IH]; simpl; [constructor|]. destruct (str_eqb k x); [apply sub_skip|apply sub_take]; auto. Qed.

Lemma sub_removelast {A} (l : list A) : sublist (removelast l) l.
Proof.
  induction l as [|x l IH]; [constructor|]. destruct l as [|y l]; [apply sub_nil_l|].
  change (removelast (x :: y :: l)) with (x :: removelast (y :: l)). now apply sub_take.
Qed.

Lemma In_mdel {V} k (l : list (str * V)) x v : In (x, v) (mdel str_eqb k l) <-> x <> k /\ In (x, v) l.
Proof.
  induction l as [|[y w] l IH]; simpl; [tauto|].
  destruct (str_eqb k y) eqn:E.
  - apply str_eqb_eq in E. subst. rewrite IH. split; [tauto|]. intros [H [G|G]]; auto. congruence.
  - apply str_eqb_neq in E. simpl. rewrite IH. split; [|tauto]. intros [G|G]; [|tauto].
    injection G as <- <-. split; auto.
Qed.

Lemma In_keys_mdel {V} k (l : list (str * V)) x : In x (map fst (mdel str_eqb k l)) <-> x <> k /\ In x (map fst l).
Proof.
  rewrite !in_map_iff. split.
  - intros [[y v] [<- H]]. apply In_mdel in H as [H1 H2]. simpl. split; auto. now exists (y, v).
  - intros [H [[y v] [<- G]]]. exists (y, v). split; auto. now apply In_mdel.
Qed.

Lemma mdel_notin {V} k (l : list (str * V)) : ~ In k (map fst l) -> mdel str_eqb k l = l.
Proof.
  induction l as [|[y w] l IH]; simpl; intros H; auto.
  destruct (str_eqb k y) eqn:E.
  - apply str_eqb_eq in E. subst. tauto.
  - rewrite IH; tauto.
Qed.

Lemma length_mdel {V} k (l : list (str * V)) : NoDup (map fst l) -> In k (map fst l) ->
  S (length (mdel str_eqb k l)) = length l.
Proof.
  induction l as [|[y w] l IH]; simpl; intros Hn Hin; [tauto|].
  inversion Hn; subst. destruct (str_eqb k y) eqn:E.
  - apply str_eqb_eq in E. subst. rewrite mdel_notin; auto.
  - apply str_eqb_neq in E. simpl. destruct Hin; [congruence|]. rewrite IH; auto.
Qed.

(** ** History predicates *)

Section Hist.
Context {T : Type}.
Implicit Types (hist : list (op T)) (o : op T).

Lemma stores_fun o k v e k' v' e' : stores o k v e -> stores o k' v' e' -> k = k' /\ v = v' /\ e = e'.
Proof.
  intros [ttl [now [_ [-> H]]]] [ttl' [now' [_ [-> H']]]].
  destruct H as [-> | ->], H' as [H'|H']; try discriminate; injection H'; intros; subst; auto.
Qed.

Lemma uses_unique o k k' : uses o k -> uses o k' -> k = k'.
Proof.
  intros [[n ->]|[v [e H]]] [[n' H']|[v' [e' H']]].
  - congruence.
  - destruct H' as [? [? [_ [_ [H|H]]]]]; discriminate.
  - subst. destruct H as [? [? [_ [_ [H|H]]]]]; discriminate.
  - destruct (stores_fun _ _ _ _ _ _ _ H H') as [-> _]. reflexivity.
Qed.

Lemma last_use_unique hist i j k : last_use hist i k -> last_use hist j k -> i = j.
Proof.
  intros [[o [H1 H2]] H3] [[o' [G1 G2]] G3].
  destruct (lt_eq_lt_dec i j) as [[H|H]|H]; auto; exfalso.
  - eapply H3; eauto.
  - eapply G3; eauto.
Qed.

Lemma last_use_now hist o k : uses o k -> last_use (hist ++ [o]) (length hist) k.
Proof.
  intros H. split.
  - exists o. split; auto. rewrite nth_error_app2, Nat.sub_diag; auto.
  - intros j o' Hj Hn. exfalso. assert (j < length (hist ++ [o])) by (apply nth_error_Some; congruence).
    rewrite app_length in H0. simpl in H0. lia.
Qed.

Lemma last_use_frame hist o i k : ~ uses o k -> last_use hist i k -> last_use (hist ++ [o]) i k.
Proof.
  intros Hn [[o' [H1 H2]] H3]. split.
  - exists o'. split; auto. rewrite nth_error_app1; auto. apply nth_error_Some. congruence.
  - intros j o2 Hj G. destruct (lt_dec j (length hist)).
    + rewrite nth_error_app1 in G by auto. eapply H3; eauto.
    + rewrite nth_error_app2 in G by lia. destruct (j - length hist) as [|x]; simpl in G.
      * injection G as <-. auto.
      * now destruct x.
Qed.

Lemma last_use_lt hist i k : last_use hist i k -> i < length hist.
Proof. intros [[o [H _]] _]. apply nth_error_Some. congruence. Qed.

Lemma last_use_unframe hist o i k : ~ uses o k -> last_use (hist ++ [o]) i k -> last_use hist i k.
Proof.
  intros Hn [[o' [H1 H2]] H3].
  assert (i < length hist) as Hi.
  { destruct (lt_dec i (length hist)); auto. exfalso. rewrite nth_error_app2 in H1 by lia.
    destruct (i - length hist) as [|x]; simpl in H1; [injection H1 as <-; auto|now destruct x]. }
  rewrite nth_error_app1 in H1 by auto. split; [eauto|].
  intros j o2 Hj G. eapply (H3 j); auto. rewrite nth_error_app1; auto. apply nth_error_Some. congruence.
Qed.

Lemma last_stored_now hist o k v e : stores o k v e -> last_stored (hist ++ [o]) k v e.
Proof. intros H. exists hist, o, []. split; [reflexivity|]. split; [exact H|]. intros o' []. Qed.

Lemma last_stored_frame hist o k v e : ~ removes o k -> (forall v' e', ~ stores o k v' e') ->
  last_stored hist k v e -> last_stored (hist ++ [o]) k v e.
Proof.
  intros H1 H2 [b [o' [a [-> [G1 G2]]]]]. exists b, o', (a ++ [o]). rewrite <- app_assoc. split; auto. split; auto.
  intros x Hx. apply in_app_iff in Hx as [Hx|[<-|[]]]; auto.
Qed.

End Hist.

(** ** Main invariant *)

Section Inv.
Context {T : Type}.
Variable size : nat.
Hypothesis size_pos : 1 <= size.

Definition newer (hist : list (op T)) (a b : str * element T) : Prop :=
  forall i j, last_use hist i (fst a) -> last_use hist j (fst b) -> j < i.

Record Inv (hist : list (op T)) (l : lru (element T)) : Prop := {
  inv_nodup : NoDup (map fst l);
  inv_size : length l <= size;
  inv_stored : forall k e, In (k, e) l -> last_stored hist k (el_val e) (el_expires e);
  inv_used : forall k e, In (k, e) l -> exists i, last_use hist i k;
  inv_sorted : StronglySorted (newer hist) l }.

Lemma inv_frame hist o l l0 : Inv hist l -> sublist l0 l ->
  (forall k, In k (map fst l0) -> ~ uses o k /\ ~ removes o k) -> Inv (hist ++ [o]) l0.
Proof.
  intros [H1 H2 H3 H4 H5] Hs Hu.
  assert (forall k e, In (k, e) l0 -> In k (map fst l0)) as Hin by (intros k e H; apply in_map_iff; now exists (k, e)).
  constructor.
  - eapply sub_NoDup; [apply sub_map|]; eauto.
  - apply sub_length in Hs. lia.
  - intros k e H. destruct (Hu k (Hin _ _ H)) as [G1 G2]. apply last_stored_frame; auto.
    + intros v' e' G. apply G1. right. eauto.
    + apply H3. eapply sub_In; eauto.
  - intros k e H. destruct (Hu k (Hin _ _ H)) as [G1 _]. destruct (H4 k e) as [i Hi]; [eapply sub_In; eauto|].
    exists i. now apply last_use_frame.
  - pose proof (sub_sorted _ _ _ Hs H5) as HS. clear -HS Hu Hin.
    induction HS as [|a l0 HS IH HF]; constructor.
    + apply IH; intros; [apply Hu; simpl; auto|]. apply in_map_iff. now exists (k, e).
    + rewrite Forall_forall in *. intros b Hb i j Gi Gj.
      apply (HF b Hb i j); (eapply last_use_unframe; [|eassumption]).
      * apply (Hu (fst a)). now left.
      * apply (Hu (fst b)). right. now apply in_map.
Qed.

Lemma inv_cons hist o l0 k e : Inv (hist ++ [o]) l0 -> ~ In k (map fst l0) ->
  (forall k', In k' (map fst l0) -> ~ uses o k') -> uses o k ->
  last_stored (hist ++ [o]) k (el_val e) (el_expires e) -> S (length l0) <= size ->
  Inv (hist ++ [o]) ((k, e) :: l0).
Proof.
  intros [H1 H2 H3 H4 H5] Hk Hu Huk Hst Hl. constructor.
  - simpl. constructor; auto.
  - simpl. lia.
  - intros k' e' [H|H]; [injection H as <- <-; auto|auto].
  - intros k' e' [H|H]; [injection H as <- <-; exists (length hist); now apply last_use_now|eauto].
  - constructor; auto. rewrite Forall_forall. intros [k' e'] Hin i j Gi Gj. simpl in *.
    rewrite (last_use_unique _ _ _ _ Gi (last_use_now hist o k Huk)).
    eapply last_use_lt, last_use_unframe; [|exact Gj]. apply Hu. apply in_map_iff. now exists (k', e').
Qed.

Lemma put_uses k v ttl now : (0 < ttl)%Z ->
  stores (OPut k v ttl now : op T) k v (now + to_ms ttl)%Z /\
  stores (OCleanHandle k (Some (v, ttl)) now : op T) k v (now + to_ms ttl)%Z.
Proof.
  clear size_pos. intros H. unfold to_ms. rewrite Z.quot_div_nonneg by lia.
  split; exists ttl, now; auto.
Qed.

Lemma stores_uses o k v e : stores o k v e -> @uses T o k.
Proof. right. eauto. Qed.

Lemma stores_not_removes o k v e k' : @stores T o k v e -> ~ removes o k'.
Proof. intros [t [n [_ [_ [-> | ->]]]]] [H|H]; discriminate. Qed.

(** Storing. *)
Lemma inv_put hist o l k v e : Inv hist l -> stores o k v e ->
  Inv (hist ++ [o]) (lru_add size k {| el_val := v; el_expires := e |} l).
Proof.
  intros HI Ho.
  assert (forall k', k' <> k -> ~ uses o k' /\ ~ removes o k') as Hother.
  { intros k' Hne. split.
    - intros Hu. apply Hne. eapply uses_unique; eauto. eapply stores_uses; eauto.
    - eapply stores_not_removes; eauto. }
  pose proof (stores_uses _ _ _ _ Ho) as Hu.
  assert (last_stored (hist ++ [o]) k v e) as Hst by now apply last_stored_now.
  unfold lru_add. destruct (mget str_eqb k l) as [e0|] eqn:E.
  - apply mget_In in E. assert (In k (map fst l)) as Hk by (apply in_map_iff; now exists (k, e0)).
    pose proof (length_mdel k l (inv_nodup _ _ HI) Hk) as HL. pose proof (inv_size _ _ HI) as HS.
    apply inv_cons; auto.
    + eapply inv_frame; [exact HI|apply sub_mdel|]. intros k' H. apply In_keys_mdel in H as [H _]. auto.
    + intros H. apply In_keys_mdel in H as [H _]. congruence.
    + intros k' H. apply In_keys_mdel in H as [H _]. now apply Hother.
    + lia.
  - apply mget_None in E.
    assert (forall k', In k' (map fst l) -> k' <> k) as Hne by congruence.
    destruct (size <? S (length l)) eqn:El.
    + apply Nat.ltb_lt in El. assert (l <> []) as Hnn by (intros ->; simpl in El; lia).
      assert (removelast ((k, {| el_val := v; el_expires := e |}) :: l) =
        (k, {| el_val := v; el_expires := e |}) :: removelast l) as ->.
      { now destruct l. }
      assert (forall k', In k' (map fst (removelast l)) -> In k' (map fst l)) as Hsub.
      { intros k' H. eapply sub_In; [apply sub_map, sub_removelast|]. auto. }
      pose proof (inv_size _ _ HI) as HS.
      assert (S (length (removelast l)) = length l) as HL.
      { destruct l as [|x l1]; [congruence|]. pose proof (app_removelast_last x Hnn) as HH. apply (f_equal (@length _)) in HH.
        rewrite app_length in HH. simpl in *. lia. }
      apply inv_cons; auto.
      * eapply inv_frame; [exact HI|apply sub_removelast|auto].
      * intros k' H. now apply Hother; auto.
      * lia.
    + apply Nat.ltb_ge in El. apply inv_cons; auto.
      * eapply inv_frame; [exact HI|apply sub_refl|auto].
      * intros k' H. apply Hother; auto.
Qed.

Lemma inv_skip hist o l l0 : Inv hist l -> sublist l0 l -> (forall k, ~ uses o k) ->
  (forall k, In k (map fst l0) -> ~ removes o k) -> Inv (hist ++ [o]) l0.
Proof. intros. eapply inv_frame; eauto. Qed.

Lemma ec_put_inv hist o l k v ttl now : Inv hist l ->
  (o = OPut k v ttl now \/ o = OCleanHandle k (Some (v, ttl)) now) ->
  Inv (hist ++ [o]) (ec_put size now k v ttl l).
Proof.
  intros HI Ho. unfold ec_put. destruct (Z.leb_spec ttl 0).
  - eapply inv_skip; [eassumption|apply sub_refl| |].
    + intros k' [[n H']|[v' [e' [t [n [Ht [_ H']]]]]]].
      * destruct Ho; subst; discriminate.
      * destruct Ho, H'; subst; try discriminate; injection H1; intros; subst; lia.
    + intros k' _ [H'|H']; destruct Ho; subst; discriminate.
  - apply inv_put; auto. destruct (put_uses k v ttl now H). destruct Ho; subst; auto.
Qed.

Lemma ec_get_inv hist l k now r l' : Inv hist l -> ec_get now k l = (r, l') ->
  Inv (hist ++ [OGet k now]) l'.
Proof.
  intros HI. unfold ec_get, lru_get.
  assert (forall k', k' <> k -> ~ uses (OGet k now : op T) k' /\ ~ removes (OGet k now : op T) k') as Hother.
  { intros k' Hne. split.
    - intros Hu. apply Hne. eapply uses_unique; eauto. left. eauto.
    - intros [H|H]; discriminate. }
  destruct (mget str_eqb k l) as [e|] eqn:E; intros H; injection H as <- <-.
  - apply mget_In in E. assert (In k (map fst l)) as Hk by (apply in_map_iff; now exists (k, e)).
    pose proof (length_mdel k l (inv_nodup _ _ HI) Hk) as HL. pose proof (inv_size _ _ HI) as HS.
    apply inv_cons; auto.
    + eapply inv_frame; [exact HI|apply sub_mdel|]. intros k' H. apply In_keys_mdel in H as [H _]. auto.
    + intros H. apply In_keys_mdel in H as [H _]. congruence.
    + intros k' H. apply In_keys_mdel in H as [H _]. now apply Hother.
    + left. eauto.
    + apply last_stored_frame.
      * intros [H|H]; discriminate.
      * intros v' e' [? [? [_ [_ [H|H]]]]]; discriminate.
      * eapply inv_stored; eauto.
    + lia.
  - apply mget_None in E. eapply inv_frame; [exact HI|apply sub_refl|]. intros k' Hk. apply Hother. congruence.
Qed.

Lemma step_inv hist s o s' r : Inv hist (st_lru s) -> step size s o = Some (s', r) ->
  Inv (hist ++ [o]) (st_lru s').
Proof.
  intros HI. destruct o; simpl.
  - intros H. injection H as <- <-. simpl. apply ec_put_inv; auto.
  - destruct (ec_get now k (st_lru s)) as [r0 l0] eqn:E. intros H. injection H as <- <-. simpl.
    eapply ec_get_inv; eauto.
  - intros H. injection H as <- <-. simpl. eapply inv_skip; [eassumption|apply sub_nil_l| |intros k []].
    intros k [[n H]|[v [e [? [? [_ [_ [H|H]]]]]]]]; discriminate.
  - intros H. injection H as <- <-. eapply inv_skip; [eassumption|apply sub_refl| |].
    + intros k [[n H]|[v [e [? [? [_ [_ [H|H]]]]]]]]; discriminate.
    + intros k _ [H|H]; discriminate.
  - destruct (st_cleaner s); try discriminate. intros H. injection H as <- <-. simpl.
    eapply inv_skip; [eassumption|apply sub_refl| |].
    + intros k [[n H]|[v [e [? [? [_ [_ [H|H]]]]]]]]; discriminate.
    + intros k _ [H|H]; discriminate.
  - destruct (st_cleaner s) as [|[|k' todo] exp| |]; try discriminate. destruct (str_eqb k k'); try discriminate.
    intros H. injection H as <- <-. simpl. eapply inv_skip; [eassumption|apply sub_refl| |].
    + intros x [[n H]|[v [e [? [? [_ [_ [H|H]]]]]]]]; discriminate.
    + intros x _ [H|H]; discriminate.
  - destruct (st_cleaner s) as [| |[|k' todo] del|]; try discriminate. destruct (str_eqb k k'); try discriminate.
    destruct r0 as [[v ttl]|]; intros H; injection H as <- <-; simpl.
    + apply ec_put_inv; auto.
    + eapply inv_skip; [eassumption|apply sub_refl| |].
      * intros x [[n H]|[v [e [? [? [_ [_ [H|H]]]]]]]]; discriminate.
      * intros x _ [H|H]; discriminate.
  - destruct (st_cleaner s) as [| | |[|k' del]]; try discriminate. destruct (str_eqb k k'); try discriminate.
    intros H. injection H as <- <-. simpl. unfold lru_remove. eapply inv_skip; [eassumption|apply sub_mdel| |].
    + intros x [[n H]|[v [e [? [? [_ [_ [H|H]]]]]]]]; discriminate.
    + intros x Hx [H|H]; [discriminate|]. injection H as ->. apply In_keys_mdel in Hx as [Hx _]. congruence.
Qed.

Lemma inv_init : Inv [] (st_lru (@init T)).
Proof. constructor; simpl; try tauto; try constructor; lia. Qed.

Lemma run_app s ops1 ops2 : run size s (ops1 ++ ops2) =
  match run size s ops1 with Some s' => @run T size s' ops2 | None => None end.
Proof.
  revert s. induction ops1 as [|o ops1 IH]; intros s; simpl; auto.
  destruct (step size s o) as [[s' r]|]; auto.
Qed.

Lemma run_inv hist s : run size init hist = Some s -> Inv hist (st_lru s).
Proof.
  revert s. induction hist as [|o hist IH] using rev_ind; intros s H.
  - injection H as <-. apply inv_init.
  - rewrite run_app in H. destruct (run size init hist) as [s0|] eqn:E; [|discriminate].
    simpl in H. destruct (step size s0 o) as [[s1 r]|] eqn:E1; [|discriminate]. injection H as <-.
    eapply step_inv; eauto.
Qed.

Lemma present_iff (s : cstate T) k : present size s k <-> In k (map fst (st_lru s)).
Proof.
  unfold present. rewrite <- mget_Some_iff. simpl. unfold ec_get, lru_get. split.
  - intros [now [s' [r H]]]. destruct (mget str_eqb k (st_lru s)); eauto. discriminate.
  - intros [e H]. rewrite H. exists 0%Z. eauto.
Qed.

(** Eviction. *)
Lemma put_present hist (s : cstate T) k v ttl now s' : run size init hist = Some s -> (0 < ttl)%Z ->
  step size s (OPut k v ttl now) = Some (s', RNone) ->
  (present size s k \/ length (st_lru s) < size ->
     forall x, present size s' x <-> x = k \/ present size s x) /\
  (~ present size s k -> length (st_lru s) = size ->
     exists victim, present size s victim /\
       (forall i j x, last_use hist i victim -> present size s x -> x <> victim -> last_use hist j x -> i < j) /\
       forall x, present size s' x <-> x = k \/ (present size s x /\ x <> victim)).
Proof.
  intros Hr Ht Hs. pose proof (run_inv hist s Hr) as HI. simpl in Hs. injection Hs as <-.
  rewrite !present_iff. setoid_rewrite present_iff. simpl. unfold ec_put.
  destruct (Z.leb_spec ttl 0); [lia|]. unfold lru_add.
  destruct (mget str_eqb k (st_lru s)) as [e0|] eqn:E.
  - assert (In k (map fst (st_lru s))) as Hk by (apply mget_Some_iff; eauto). split; [|tauto].
    intros _ x. simpl. rewrite In_keys_mdel. split.
    + intros [->|[_ G]]; auto.
    + intros [->|G]; auto. destruct (str_eq_dec k x); auto.
  - apply mget_None in E. destruct (Nat.ltb_spec size (S (length (st_lru s)))) as [Hl|Hl].
    + split; [intros [G|G]; [tauto|lia]|]. intros _ Hlen.
      destruct (st_lru s) as [|y l] eqn:El'; [simpl in Hlen; lia|].
      pose proof (app_removelast_last y (l := y :: l) ltac:(discriminate)) as Happ.
      remember (last (y :: l) y) as z. remember (removelast (y :: l)) as l0.
      assert (removelast ((k, {| el_val := v; el_expires := (now + to_ms ttl)%Z |}) :: y :: l) =
              (k, {| el_val := v; el_expires := (now + to_ms ttl)%Z |}) :: l0) as -> by (subst l0; reflexivity).
      rewrite Happ in HI |- *. pose proof (inv_nodup _ _ HI) as Hnd. rewrite map_app in Hnd. simpl in Hnd.
      exists (fst z). rewrite map_app. simpl. split; [apply in_app_iff; right; now left|]. split.
      * intros i j x Hi Hx Hxz Hj. apply in_app_iff in Hx as [Hx|[Hx|[]]]; [|congruence].
        apply in_map_iff in Hx as [a [<- Ha]].
        pose proof (inv_sorted _ _ HI) as HS.
        clear -HS Ha Hi Hj. induction l0 as [|b l0 IH]; [destruct Ha|]. simpl in HS.
        apply StronglySorted_inv in HS as [HS HF]. destruct Ha as [->|Ha]; [|auto].
        rewrite Forall_forall in HF. apply (HF z); auto. apply in_app_iff. right. now left.
      * intros x. rewrite in_app_iff. simpl.
        assert (~ In (fst z) (map fst l0)) as Hz.
        { apply NoDup_remove_2 in Hnd. rewrite app_nil_r in Hnd. auto. }
        split.
        -- intros [->|G]; auto. right. split; auto. intros ->. auto.
        -- intros [->|[[G|[G|[]]] G2]]; auto. congruence.
    + split; [|intros; lia]. intros _ x. simpl. split; intros [G|G]; auto.
Qed.

(** Lookups. *)
Lemma get_last_stored hist (s : cstate T) k now s' v ttl : run size init hist = Some s ->
  step size s (OGet k now) = Some (s', RGet (Some (v, ttl))) ->
  exists e, last_stored hist k v e /\ ttl = (Z.max 0 (e - now) * 1000000)%Z.
Proof.
  intros Hr Hs. pose proof (run_inv hist s Hr) as HI. simpl in Hs. unfold ec_get, lru_get in Hs.
  destruct (mget str_eqb k (st_lru s)) as [e|] eqn:E; [|discriminate]. injection Hs as <- <- <-.
  exists (el_expires e). split; [apply (inv_stored _ _ HI); now apply mget_In|].
  unfold remain_ttl. destruct (Z.ltb_spec now (el_expires e)); lia.
Qed.

End Inv.

(** ** Clean-up *)
Section Clean.
Context {T : Type}.
Variable size : nat.

Lemma ec_put_mget now k v ttl (l : lru (element T)) x : In k (map fst l) ->
  mget str_eqb x (ec_put size now k v ttl l) =
  if (ttl <=? 0)%Z then mget str_eqb x l
  else if str_eqb x k then Some {| el_val := v; el_expires := now + to_ms ttl |} else mget str_eqb x l.
Proof.
  intros Hk. unfold ec_put. destruct (ttl <=? 0)%Z; auto.
  unfold lru_add. apply mget_Some_iff in Hk as [e ->]. simpl.
  destruct (str_eqb x k) eqn:E; auto. apply mget_mdel_other. apply str_eqb_neq in E. auto.
Qed.

Lemma ec_put_keys now k v ttl (l : lru (element T)) x : In k (map fst l) ->
  In x (map fst (ec_put size now k v ttl l)) <-> In x (map fst l).
Proof.
  intros Hk. rewrite <- !mget_Some_iff, ec_put_mget by auto. destruct (ttl <=? 0)%Z; [tauto|].
  destruct (str_eqb x k) eqn:E; [|tauto]. apply str_eqb_eq in E as ->. rewrite mget_Some_iff. split; eauto.
Qed.

Definition h_stores (h : str -> option (T * Z)) now k : option (element T) :=
  match h k with
  | Some (v, ttl) => if (ttl <=? 0)%Z then None else Some {| el_val := v; el_expires := now + to_ms ttl |}
  | None => None
  end.

Lemma handle_expired_spec now h keys l l' del : (forall k, In k keys -> In k (map fst l)) ->
  handle_expired size now h keys l = (l', del) ->
  del = filter (fun k => match h k with None => true | _ => false end) keys /\
  forall x, mget str_eqb x l' =
    if str_in x keys then match @h_stores h now x with Some e => Some e | None => mget str_eqb x l end
    else mget str_eqb x l.
Proof.
  revert l l' del. induction keys as [|k keys IH]; intros l l' del Hin H; simpl in H.
  - injection H as <- <-. auto.
  - simpl. unfold h_stores in *. destruct (h k) as [[v ttl]|] eqn:Eh.
    + assert (In k (map fst l)) as Hk by (apply Hin; now left).
      apply IH in H as [H1 H2].
      * split; auto. intros x. rewrite H2. rewrite ec_put_mget by auto.
        destruct (str_eqb x k) eqn:E; simpl.
        -- apply str_eqb_eq in E as ->. rewrite Eh. destruct (ttl <=? 0)%Z; destruct (str_in k keys); auto.
        -- destruct (ttl <=? 0)%Z; auto.
      * intros x Hx. apply ec_put_keys; auto. apply Hin. now right.
    + destruct (handle_expired size now h keys l) as [l1 d1] eqn:E. injection H as <- <-.
      apply IH in E as [H1 H2]; [|intros x Hx; apply Hin; now right]. split; [now rewrite H1|].
      intros x. rewrite H2. destruct (str_eqb x k) eqn:E1; simpl; auto.
      apply str_eqb_eq in E1 as ->. rewrite Eh. destruct (str_in k keys); auto.
Qed.

Lemma remove_keys_mget del (l : lru (element T)) x :
  mget str_eqb x (remove_keys del l) = if str_in x del then None else mget str_eqb x l.
Proof.
  revert l. induction del as [|k del IH]; intros l; simpl; auto. unfold remove_keys in *. simpl. rewrite IH.
  destruct (str_eqb x k) eqn:E; simpl.
  - apply str_eqb_eq in E as ->. unfold lru_remove. rewrite mget_mdel_same. now destruct (str_in k del).
  - destruct (str_in x del); auto. apply mget_mdel_other. apply str_eqb_neq in E. auto.
Qed.

Lemma expired_keys_In now (l : lru (element T)) x :
  In x (expired_keys now l) <-> exists e, mget str_eqb x l = Some e /\ is_expired now e = true.
Proof.
  unfold expired_keys, lru_keys, lru_peek. rewrite filter_In, <- in_rev. split.
  - intros [_ H]. destruct (mget str_eqb x l); eauto. discriminate.
  - intros [e [H1 H2]]. rewrite H1. split; auto. apply mget_Some_iff. eauto.
Qed.

Lemma clean_up_mget now h (l : lru (element T)) x :
  mget str_eqb x (clean_up size now h l) =
  match mget str_eqb x l with
  | None => None
  | Some e => if is_expired now e then
                match h x with
                | None => None
                | Some (v, ttl) => if (ttl <=? 0)%Z then Some e else Some {| el_val := v; el_expires := now + to_ms ttl |}
                end
              else Some e
  end.
Proof.
  unfold clean_up. destruct (handle_expired size now h (expired_keys now l) l) as [l' del] eqn:E.
  apply handle_expired_spec in E as [-> H2].
  - rewrite remove_keys_mget, H2. unfold h_stores.
    destruct (str_in x (expired_keys now l)) eqn:Ein.
    + pose proof Ein as Ein'. apply str_in_In in Ein. apply expired_keys_In in Ein as [e [He1 He2]]. rewrite He1, He2.
      destruct (str_in x (filter _ _)) eqn:Ef.
      * apply str_in_In, filter_In in Ef as [_ Ef]. destruct (h x); [discriminate|auto].
      * destruct (h x) as [[v ttl]|] eqn:Eh; [destruct (ttl <=? 0)%Z; auto|].
        assert (str_in x (filter (fun k => match h k with None => true | _ => false end) (expired_keys now l)) = true).
        { apply str_in_In, filter_In. rewrite Eh. split; auto. now apply str_in_In. }
        congruence.
    + destruct (str_in x (filter _ _)) eqn:Ef.
      * apply str_in_In, filter_In in Ef as [Ef _]. apply str_in_In in Ef. congruence.
      * destruct (mget str_eqb x l) as [e|] eqn:Em; auto. destruct (is_expired now e) eqn:Ee; auto.
        assert (In x (expired_keys now l)) by (apply expired_keys_In; eauto). apply str_in_In in H. congruence.
  - intros k Hk. apply expired_keys_In in Hk as [e [H _]]. apply mget_Some_iff. eauto.
Qed.

(** The small steps of an undisturbed clean-up amount to [clean_up]. *)
Definition finish now h (c : cleaner) (l : lru (element T)) : lru (element T) :=
  match c with
  | Idle => l
  | Removing d => remove_keys d l
  | Handling e d => let '(l', d') := handle_expired size now h e l in remove_keys (d ++ d') l'
  | Collecting t e =>
      let '(l', d') := handle_expired size now h
        (e ++ filter (fun k => match lru_peek k l with Some e => is_expired now e | None => false end) t) l in
      remove_keys d' l'
  end.

Lemma finish_settle now h c l : finish now h (settle c) l = finish now h c l.
Proof.
  destruct c as [|[|t1 t] [|e1 e]|[|e1 e] [|d1 d]|[|d1 d]]; simpl; rewrite ?app_nil_r; auto.
Qed.

Lemma finish_step now h (s : cstate T) o s' r : clean_op now h o -> step size s o = Some (s', r) ->
  finish now h (st_cleaner s') (st_lru s') = finish now h (st_cleaner s) (st_lru s).
Proof.
  destruct o; simpl; try tauto; intros Hc; destruct (st_cleaner s) as [|[|k' t] e|[|k' e] d|[|k' d]]; try discriminate;
    destruct (str_eqb k k') eqn:E; try discriminate; apply str_eqb_eq in E as <-.
  - subst. intros H. injection H as <- <-. cbn [set_cleaner st_cleaner st_lru]. rewrite finish_settle. simpl.
    destruct (lru_peek k (st_lru s)) as [el|]; [|auto]. destruct (is_expired now el); auto.
    rewrite <- app_assoc. reflexivity.
  - destruct Hc as [-> ->]. destruct (h k) as [[v ttl]|] eqn:Eh; intros H; injection H as <- <-;
      cbn [set_cleaner set_lru st_cleaner st_lru]; rewrite finish_settle; simpl; rewrite Eh; auto.
    destruct (handle_expired size now h e (st_lru s)) as [l' d']. now rewrite <- app_assoc.
  - intros H. injection H as <- <-. cbn [set_cleaner set_lru st_cleaner st_lru]. rewrite finish_settle. reflexivity.
Qed.

Lemma finish_run now h ops (s s' : cstate T) : Forall (clean_op now h) ops -> run size s ops = Some s' ->
  finish now h (st_cleaner s') (st_lru s') = finish now h (st_cleaner s) (st_lru s).
Proof.
  revert s. induction ops as [|o ops IH]; intros s HF H; simpl in H.
  - now injection H as <-.
  - destruct (step size s o) as [[s1 r]|] eqn:E; [|discriminate]. inversion HF; subst.
    rewrite (IH s1); auto. eapply finish_step; eauto.
Qed.

Lemma clean_up_run now h ops (s s' : cstate T) : st_cleaner s = Idle -> Forall (clean_op now h) ops ->
  run size s (OCleanStart :: ops) = Some s' -> st_cleaner s' = Idle ->
  st_lru s' = clean_up size now h (st_lru s).
Proof.
  intros Hi HF H Hi'. cbn [run step] in H. rewrite Hi in H.
  apply (finish_run now h) in H; auto. rewrite Hi' in H. cbn [finish] in H. rewrite H.
  cbn [set_cleaner st_cleaner st_lru]. rewrite finish_settle. reflexivity.
Qed.

Lemma stored_mget (s : cstate T) k :
  stored s k = match mget str_eqb k (st_lru s) with Some e => Some (el_val e, el_expires e) | None => None end.
Proof.
  unfold stored. induction (st_lru s) as [|[x e] l IH]; simpl; auto. destruct (str_eqb k x); auto.
Qed.

End Clean.

(** ** Retention *)
Section Retention.
Context {T : Type}.
Variable size : nat.

Definition front (used : list str) (k : str) (e : element T) (l : lru (element T)) : Prop :=
  NoDup (map fst l) /\ exists A B, l = A ++ (k, e) :: B /\ incl (map fst A) used.

Lemma front_mdel used k e l x : front used k e l -> x <> k -> front used k e (mdel str_eqb x l).
Proof.
  intros [Hn [A [B [-> HA]]]] Hx. split; [eapply sub_NoDup; [apply sub_map, sub_mdel|auto]|].
  exists (mdel str_eqb x A), (mdel str_eqb x B). split.
  - clear -Hx. induction A as [|[y v] A IH]; simpl.
    + destruct (str_eqb x k) eqn:E; auto. apply str_eqb_eq in E. congruence.
    + destruct (str_eqb x y); simpl; now rewrite IH.
  - intros y Hy. apply HA. apply In_keys_mdel in Hy. tauto.
Qed.

Lemma front_cons used k e l x ex : front used k e l -> ~ In x (map fst l) -> In x used -> front used k e ((x, ex) :: l).
Proof.
  intros [Hn [A [B [-> HA]]]] Hx Hu. split; [simpl; constructor; auto|].
  exists ((x, ex) :: A), B. split; auto. intros y [<-|Hy]; auto.
Qed.

Lemma front_head used k e l : NoDup (map fst l) -> front used k e ((k, e) :: mdel str_eqb k l).
Proof.
  intros Hn. split.
  - simpl. constructor; [intros H; apply In_keys_mdel in H; tauto|].
    eapply sub_NoDup; [apply sub_map, sub_mdel|auto].
  - exists [], (mdel str_eqb k l). split; auto. intros ? [].
Qed.

Lemma front_mget used k e l : front used k e l -> mget str_eqb k l = Some e.
Proof.
  intros [Hn [A [B [-> HA]]]]. apply mget_NoDup_In; auto. apply in_app_iff. right. now left.
Qed.

Lemma front_add used k e l x ex : length used < size -> front used k e l -> x <> k -> In x used ->
  front used k e (lru_add size x ex l).
Proof.
  intros Hs HF Hx Hu. unfold lru_add. destruct (mget str_eqb x l) as [e0|] eqn:E.
  - apply front_cons; auto; [now apply front_mdel|]. intros H. apply In_keys_mdel in H. tauto.
  - apply mget_None in E. destruct HF as [Hn [A [B [-> HA]]]].
    assert (length ((x, ex) :: A) <= length used) as HL.
    { rewrite <- (map_length fst). apply NoDup_incl_length.
      - simpl. rewrite map_app in Hn, E. simpl in Hn, E. apply NoDup_remove_1 in Hn. constructor.
        + intros H. apply E. apply in_app_iff. now left.
        + clear -Hn. induction (map fst A) as [|a l IH]; [constructor|]. simpl in Hn. inversion Hn; subst. constructor; auto.
          intros H. apply H1. apply in_app_iff. now left.
      - intros y [<-|Hy]; auto. }
    assert (front used k e ((x, ex) :: A ++ (k, e) :: B)) as HFc.
    { apply front_cons; auto. split; eauto. }
    destruct (Nat.ltb_spec size (S (length (A ++ (k, e) :: B)))) as [Hl|Hl]; [|exact HFc].
    destruct HFc as [Hn' _].
    split; [eapply sub_NoDup; [apply sub_map, sub_removelast|auto]|].
    assert (B <> []) as HB. { intros ->. rewrite app_length in Hl. simpl in *. lia. }
    exists ((x, ex) :: A), (removelast B). split.
    + change ((x, ex) :: A ++ (k, e) :: B) with (((x, ex) :: A) ++ [(k, e)] ++ B).
      rewrite app_assoc, removelast_app by auto. now rewrite <- app_assoc.
    + intros y [<-|Hy]; auto.
Qed.

Definition quiet (k : str) (e : element T) (used : list str) (o : op T) : Prop :=
  o <> OClear /\ (forall v' e', ~ stores o k v' e') /\
  (forall now, o = OCleanPeek k now -> (now <= el_expires e)%Z) /\
  (forall x, x <> k -> uses o x -> In x used).

Lemma nc_settle l c k : not_condemned {| st_lru := l; st_cleaner := c |} k ->
  not_condemned ({| st_lru := l; st_cleaner := settle c |} : cstate T) k.
Proof. unfold not_condemned. destruct c as [|[|? ?] [|? ?]|[|? ?] [|? ?]|[|? ?]]; simpl; tauto. Qed.

Lemma front_put used k e l o x v ttl now : length used < size -> front used k e l ->
  quiet k e used o -> (o = OPut x v ttl now \/ o = OCleanHandle x (Some (v, ttl)) now) ->
  front used k e (ec_put size now x v ttl l).
Proof.
  intros Hs HF [_ [Hq1 [_ Hq2]]] Ho. unfold ec_put. destruct (Z.leb_spec ttl 0); auto.
  assert (stores o x v (now + to_ms ttl)%Z) as Hst by (destruct (@put_uses T x v ttl now H); destruct Ho; subst; auto).
  assert (x <> k) by (intros ->; eapply Hq1; eauto).
  apply front_add; auto. apply Hq2; auto. right. eauto.
Qed.

Lemma retain_step used k e s o s' r : length used < size -> front used k e (st_lru s) -> not_condemned s k ->
  quiet k e used o -> step size s o = Some (s', r) -> front used k e (st_lru s') /\ not_condemned s' k.
Proof.
  intros Hs HF HN HQ. pose proof HQ as [Hq1 [Hq2 [Hq3 Hq4]]]. destruct o; simpl.
  - intros H. injection H as <- <-. simpl. split; [eapply front_put; eauto|]. exact HN.
  - unfold ec_get, lru_get. destruct (mget str_eqb k0 (st_lru s)) as [e0|] eqn:E; intros H; injection H as <- <-; simpl.
    + split; [|exact HN]. destruct (str_eq_dec k0 k) as [->|Hne].
      * rewrite (front_mget _ _ _ _ HF) in E. injection E as <-. apply front_head. apply HF.
      * apply front_cons; [now apply front_mdel|intros H; apply In_keys_mdel in H; tauto|].
        apply Hq4; auto. left. eauto.
    + split; [|exact HN]. exact HF.
  - congruence.
  - intros H. injection H as <- <-. auto.
  - destruct (st_cleaner s) eqn:Ec; try discriminate. intros H. injection H as <- <-. simpl. split; auto.
    apply nc_settle. unfold not_condemned. simpl. auto.
  - destruct (st_cleaner s) as [|[|k' t] ex| |] eqn:Ec; try discriminate. destruct (str_eqb k0 k') eqn:E; [|discriminate].
    apply str_eqb_eq in E as <-. intros H. injection H as <- <-. simpl. split; auto. apply nc_settle. unfold not_condemned. simpl.
    unfold not_condemned in HN. rewrite Ec in HN.
    unfold lru_peek. destruct (mget str_eqb k0 (st_lru s)) as [e0|] eqn:E; auto.
    destruct (is_expired now e0) eqn:Ee; auto. intros Hin. apply in_app_iff in Hin as [Hin|[->|[]]]; auto.
    rewrite (front_mget _ _ _ _ HF) in E. injection E as <-. unfold is_expired in Ee.
    apply andb_true_iff in Ee as [_ Ee]. apply Z.ltb_lt in Ee. specialize (Hq3 now eq_refl). lia.
  - destruct (st_cleaner s) as [| |[|k' t] d|] eqn:Ec; try discriminate. destruct (str_eqb k0 k') eqn:E; [|discriminate].
    apply str_eqb_eq in E as <-. unfold not_condemned in HN. rewrite Ec in HN. destruct HN as [HN1 HN2].
    destruct r0 as [[v ttl]|]; intros H; injection H as <- <-; simpl.
    + split; [eapply front_put; eauto|]. apply nc_settle. unfold not_condemned. simpl in *. tauto.
    + split; auto. apply nc_settle. unfold not_condemned. simpl in *. rewrite in_app_iff. simpl. split; [tauto|].
      intros [H|[->|[]]]; [auto|]. tauto.
  - destruct (st_cleaner s) as [| | |[|k' d]] eqn:Ec; try discriminate. destruct (str_eqb k0 k') eqn:E; [|discriminate].
    apply str_eqb_eq in E as <-. unfold not_condemned in HN. rewrite Ec in HN. simpl in HN.
    intros H. injection H as <- <-. simpl. split.
    + apply front_mdel; auto.
    + apply nc_settle. unfold not_condemned. simpl. auto.
Qed.

Lemma retain_run used k e ops s s' : length used < size -> front used k e (st_lru s) -> not_condemned s k ->
  (forall o, In o ops -> quiet k e used o) -> run size s ops = Some s' -> front used k e (st_lru s').
Proof.
  intros Hs. revert s. induction ops as [|o ops IH]; intros s HF HN HQ H; simpl in H.
  - now injection H as <-.
  - destruct (step size s o) as [[s1 r]|] eqn:E; [|discriminate].
    destruct (retain_step used k e s o s1 r) as [H1 H2]; auto.
    + apply HQ. now left.
    + eapply IH; eauto. intros o' Ho. apply HQ. now right.
Qed.

Lemma put_front used k v ttl now (l : lru (element T)) : 1 <= size -> (0 < ttl)%Z -> NoDup (map fst l) ->
  front used k {| el_val := v; el_expires := now + to_ms ttl |} (ec_put size now k v ttl l).
Proof.
  intros Hs Ht Hn. unfold ec_put. destruct (Z.leb_spec ttl 0); [lia|]. unfold lru_add.
  destruct (mget str_eqb k l) as [e|] eqn:E; [now apply front_head|]. apply mget_None in E.
  destruct (Nat.ltb_spec size (S (length l))).
  - destruct l as [|a l]; [simpl in *; lia|].
    change (removelast ((k, {| el_val := v; el_expires := (now + to_ms ttl)%Z |}) :: a :: l)) with
      ((k, {| el_val := v; el_expires := (now + to_ms ttl)%Z |}) :: removelast (a :: l)).
    split.
    + cbn [map fst]. constructor.
      * intros Hin. apply E. eapply sub_In; [apply sub_map, sub_removelast|exact Hin].
      * eapply sub_NoDup; [apply sub_map, sub_removelast|auto].
    + exists [], (removelast (a :: l)). split; auto. intros ? [].
  - split; [simpl; constructor; auto|]. exists [], l. split; auto. intros ? [].
Qed.

End Retention.

(** ** Prefetching *)

Lemma lru_add_mget_sub {V} size k (v : V) l x e : 1 <= size -> NoDup (map fst l) ->
  mget str_eqb x (lru_add size k v l) = Some e ->
  (x = k /\ e = v) \/ (x <> k /\ mget str_eqb x l = Some e).
Proof.
  intros Hs Hn. unfold lru_add. destruct (mget str_eqb k l) as [e0|] eqn:E.
  - simpl. destruct (str_eqb x k) eqn:E1.
    + apply str_eqb_eq in E1. intros H. injection H as <-. auto.
    + apply str_eqb_neq in E1. rewrite mget_mdel_other by auto. auto.
  - apply mget_None in E. destruct (Nat.ltb_spec size (S (length l))).
    + destruct l as [|a l]; [simpl in *; lia|].
      change (removelast ((k, v) :: a :: l)) with ((k, v) :: removelast (a :: l)).
      replace (mget str_eqb x ((k, v) :: removelast (a :: l))) with (if str_eqb x k then Some v else mget str_eqb x (removelast (a :: l))) by reflexivity.
      destruct (str_eqb x k) eqn:E1.
      * apply str_eqb_eq in E1. intros G. injection G as <-. auto.
      * apply str_eqb_neq in E1. intros G. right. split; auto. apply mget_In in G. apply mget_NoDup_In; auto.
        eapply sub_In; [apply sub_removelast|exact G].
    + simpl. destruct (str_eqb x k) eqn:E1.
      * apply str_eqb_eq in E1. intros G. injection G as <-. auto.
      * apply str_eqb_neq in E1. auto.
Qed.

Lemma lru_add_NoDup {V} size k (v : V) l : NoDup (map fst l) -> NoDup (map fst (lru_add size k v l)).
Proof.
  intros Hn. unfold lru_add. destruct (mget str_eqb k l) as [e0|] eqn:E.
  - simpl. constructor; [intros H; apply In_keys_mdel in H; tauto|]. eapply sub_NoDup; [apply sub_map, sub_mdel|auto].
  - apply mget_None in E. assert (NoDup (map fst ((k, v) :: l))) by (simpl; constructor; auto).
    destruct (size <? _); auto. eapply sub_NoDup; [apply sub_map, sub_removelast|auto].
Qed.

Lemma ec_get_mget {V} now k (l l' : lru (element V)) r x : ec_get now k l = (r, l') -> NoDup (map fst l) ->
  mget str_eqb x l' = mget str_eqb x l /\ NoDup (map fst l') /\
  r = match mget str_eqb k l with Some e => Some (el_val e, remain_ttl now (el_expires e)) | None => None end.
Proof.
  unfold ec_get, lru_get. destruct (mget str_eqb k l) as [e|] eqn:E; intros H Hn; injection H as <- <-; auto.
  split; [|split; auto].
  - simpl. destruct (str_eqb x k) eqn:E1; [apply str_eqb_eq in E1 as ->; auto|].
    apply mget_mdel_other. apply str_eqb_neq in E1. auto.
  - simpl. constructor; [intros H; apply In_keys_mdel in H; tauto|]. eapply sub_NoDup; [apply sub_map, sub_mdel|auto].
Qed.

Lemma clean_none_NoDup size now (l : lru (element N)) : NoDup (map fst l) ->
  NoDup (map fst (clean_up size now (fun _ => None) l)).
Proof.
  intros Hn. unfold clean_up.
  assert (forall keys l0, handle_expired size now (fun _ : str => @None (N * Z)) keys l0 = (l0, keys)) as E.
  { induction keys as [|k keys IH]; intros l0; simpl; auto. now rewrite IH. }
  rewrite E. generalize (expired_keys now l) as d. intros d. revert l Hn. induction d as [|k d IH]; intros l Hn; simpl; auto.
  apply IH. eapply sub_NoDup; [apply sub_map, sub_mdel|auto].
Qed.

Lemma lru_add_mget_all {V} size k (v : V) l x ks : NoDup (map fst l) -> incl (map fst l) ks -> In k ks -> length ks <= size ->
  mget str_eqb x (lru_add size k v l) = if str_eqb x k then Some v else mget str_eqb x l.
Proof.
  intros Hn Hi Hk Hl. unfold lru_add. destruct (mget str_eqb k l) as [e0|] eqn:E.
  - simpl. destruct (str_eqb x k) eqn:E1; auto. apply mget_mdel_other. apply str_eqb_neq in E1. auto.
  - apply mget_None in E.
    assert (S (length l) <= length ks).
    { change (S (length l)) with (length ((k, v) :: l)). rewrite <- (map_length fst). apply NoDup_incl_length.
      - simpl. constructor; auto.
      - intros y [<-|Hy]; auto. }
    destruct (Nat.ltb_spec size (S (length l))); [lia|]. reflexivity.
Qed.

Lemma window_le {T} len k (w : option (N * Z)) (hist : list (pf_op T)) b :
  (match w with Some (c, _) => (c <= b)%N | None => True end) ->
  match window len k w hist with Some (c, _) => (c <= b + N.of_nat (length hist))%N | None => True end.
Proof.
  revert w b. induction hist as [|o hist IH]; intros w b Hw; simpl.
  - destruct w as [[c l]|]; auto. lia.
  - replace (b + N.pos (Pos.of_succ_nat (length hist)))%N with ((b + 1) + N.of_nat (length hist))%N by lia.
    apply IH. destruct o; simpl; auto; try (destruct w as [[c l]|]; auto; lia).
    + destruct (str_eqb k k0); destruct w as [[c l]|]; auto; lia.
    + destruct w as [[c l]|]; auto. destruct (_ <? _)%Z; auto. lia.
Qed.

Section PrefetchProofs.
Context {T : Type}.
Variable cfg : pf_config.
Let ms := (pf_expires cfg / 1000000)%Z.
Hypothesis Hexp : (0 < pf_expires cfg)%Z.
Hypothesis Hsize : 1 <= pf_names_size cfg.

Lemma window_snoc len k (w : option (N * Z)) (hist : list (pf_op T)) o :
  window len k w (hist ++ [o]) = window len k (window len k w hist) [o].
Proof. revert w. induction hist as [|a hist IH]; intros w; [reflexivity|exact (IH _)]. Qed.

(** Upper bound, valid for all histories. *)
Definition upper (hist : list (pf_op T)) (names : lru (element N)) : Prop :=
  NoDup (map fst names) /\
  forall k e, mget str_eqb k names = Some e ->
    exists c last, window ms k None hist = Some (c, last) /\ (el_val e <= c)%N /\ el_expires e = (last + ms)%Z /\ (0 < last)%Z.

(** Exact tracking. *)
Definition exact (hist : list (pf_op T)) (names : lru (element N)) : Prop :=
  forall k, match window ms k None hist with
            | Some (c, last) => mget str_eqb k names = Some {| el_val := (c mod 4294967296)%N; el_expires := (last + ms)%Z |}
            | None => mget str_eqb k names = None
            end.

Lemma upper_step hist s o : upper hist (pf_names s) -> (0 < @pf_time T o)%Z ->
  upper (hist ++ [o]) (pf_names (fst (pf_step cfg s o))).
Proof.
  intros [Hn Hu] Ht. destruct o; simpl in *.
  - split; auto. intros x e H. rewrite window_snoc. simpl. auto.
  - unfold track. destruct (ec_get now k (pf_names s)) as [r n1] eqn:E.
    destruct (ec_get now k (pf_cache s)) as [rc cc]. simpl.
    assert (forall x, mget str_eqb x n1 = mget str_eqb x (pf_names s)) as Hg by (intros x; eapply (ec_get_mget now k _ _ _ x); eauto).
    destruct (ec_get_mget now k _ _ _ k E Hn) as [_ [Hn1 Hr]].
    unfold ec_put. destruct (Z.leb_spec (pf_expires cfg) 0); [lia|].
    split; [now apply lru_add_NoDup|]. intros x e Hx. rewrite window_snoc.
    apply lru_add_mget_sub in Hx; auto. unfold to_ms in Hx. rewrite Z.quot_div_nonneg in Hx by lia. fold ms in Hx.
    destruct Hx as [[-> ->]|[Hne Hx]]; simpl.
    + rewrite str_eqb_refl. destruct (mget str_eqb k (pf_names s)) as [e0|] eqn:E0.
      * destruct (Hu _ _ E0) as [c [last [H1 [H2 [H3 H4]]]]]. rewrite H1. subst r. eexists _, _. split; [reflexivity|].
        split; auto. etransitivity; [apply N.mod_le; lia|lia].
      * subst r. destruct (window ms k None hist) as [[c last]|]; eexists _, _; (split; [reflexivity|]); (split; [|auto]).
        -- change ((0 + 1) mod 4294967296)%N with 1%N. lia.
        -- vm_compute; discriminate.
    + apply str_eqb_neq in Hne. rewrite Hne. rewrite Hg in Hx. auto.
  - split; [constructor|]. discriminate.
  - assert (upper (hist ++ [PExpire k reload now]) (pf_names s)) as Hs.
    { split; auto. intros x e H. rewrite window_snoc. simpl. auto. }
    destruct (lru_peek k (pf_cache s)) as [e|]; auto. destruct (is_expired now e); auto.
    unfold on_expired, should_prefetch. destruct (pf_threshold cfg =? 0)%Z; auto.
    destruct (ec_get now k (pf_names s)) as [r n1] eqn:E. simpl.
    destruct (ec_get_mget now k _ _ _ k E Hn) as [_ [Hn1 _]]. split; auto.
    intros x e1 Hx. apply Hs. rewrite <- Hx. symmetry. eapply ec_get_mget; eauto.
  - split; [now apply clean_none_NoDup|]. intros x e. rewrite clean_up_mget.
    destruct (mget str_eqb x (pf_names s)) as [e0|] eqn:E; [|discriminate].
    destruct (is_expired now e0) eqn:Ee; [discriminate|]. intros H. injection H as <-.
    destruct (Hu _ _ E) as [c [last [H1 [H2 [H3 H4]]]]]. exists c, last. split; auto.
    rewrite window_snoc, H1. simpl. unfold is_expired in Ee. rewrite H3 in Ee.
    assert (0 <= ms)%Z by (apply Z.div_pos; lia).
    destruct (Z.ltb_spec 0 (last + ms)); [|lia]. simpl in Ee. now rewrite Ee.
Qed.

Lemma upper_run hist : (forall o, In o hist -> 0 < @pf_time T o)%Z ->
  upper hist (pf_names (pf_run cfg pf_init hist)).
Proof.
  assert (forall h2 h1 s, upper h1 (pf_names s) -> (forall o, In o h2 -> 0 < @pf_time T o)%Z ->
    upper (h1 ++ h2) (pf_names (pf_run cfg s h2))) as G.
  { induction h2 as [|o h2 IH]; intros h1 s H Ht; simpl.
    - now rewrite app_nil_r.
    - change (o :: h2) with ([o] ++ h2). rewrite app_assoc. apply IH.
      + apply upper_step; auto. apply Ht. now left.
      + intros o' Ho. apply Ht. now right. }
  intros H. apply (G hist [] pf_init); auto. split; [constructor|discriminate].
Qed.

Lemma exact_step hist s o ks : upper hist (pf_names s) -> exact hist (pf_names s) -> incl (map fst (pf_names s)) ks ->
  length ks <= pf_names_size cfg -> (forall k, @looked_up T o k -> In k ks) -> (0 < pf_time o)%Z ->
  exact (hist ++ [o]) (pf_names (fst (pf_step cfg s o))) /\
  incl (map fst (pf_names (fst (pf_step cfg s o)))) ks.
Proof.
  intros [Hn Hu] He Hi Hl Hk Ht. destruct o; simpl in *.
  - split; auto. intros x. rewrite window_snoc. simpl. apply He.
  - unfold track. destruct (ec_get now k (pf_names s)) as [r n1] eqn:E.
    destruct (ec_get now k (pf_cache s)) as [rc cc]. simpl.
    assert (forall x, mget str_eqb x n1 = mget str_eqb x (pf_names s)) as Hg by (intros x; eapply (ec_get_mget now k _ _ _ x); eauto).
    destruct (ec_get_mget now k _ _ _ k E Hn) as [_ [Hn1 Hr]].
    unfold ec_put. destruct (Z.leb_spec (pf_expires cfg) 0); [lia|].
    assert (In k ks) as Hkk by (apply Hk; now exists now).
    assert (incl (map fst n1) ks) as Hi1.
    { intros x Hx. apply Hi. apply mget_Some_iff in Hx as [e Hx]. rewrite Hg in Hx. apply mget_Some_iff. eauto. }
    split.
    + intros x. rewrite (lru_add_mget_all _ _ _ _ x ks) by auto. rewrite window_snoc. simpl. specialize (He x). rewrite <- Hg in He.
      unfold to_ms. rewrite Z.quot_div_nonneg by lia. fold ms.
      destruct (str_eqb x k) eqn:E1; auto. apply str_eqb_eq in E1 as ->.
      rewrite Hg in He. destruct (window ms k None hist) as [[c last]|]; rewrite He in Hr; subst r; simpl.
      * rewrite N.add_mod_idemp_l by lia. reflexivity.
      * reflexivity.
    + intros x Hx. apply mget_Some_iff in Hx as [e Hx]. rewrite (lru_add_mget_all _ _ _ _ x ks) in Hx by auto.
      destruct (str_eqb x k) eqn:E1; [apply str_eqb_eq in E1 as ->; auto|]. apply Hi1, mget_Some_iff. eauto.
  - split; [|intros ? []]. intros x. rewrite window_snoc. reflexivity.
  - assert (exact (hist ++ [PExpire k reload now]) (pf_names s)) as Hs.
    { intros x. rewrite window_snoc. simpl. apply He. }
    destruct (lru_peek k (pf_cache s)) as [e|]; auto. destruct (is_expired now e); auto.
    unfold on_expired, should_prefetch. destruct (pf_threshold cfg =? 0)%Z; auto.
    destruct (ec_get now k (pf_names s)) as [r n1] eqn:E. simpl.
    assert (forall x, mget str_eqb x n1 = mget str_eqb x (pf_names s)) as Hg by (intros x; eapply (ec_get_mget now k _ _ _ x); eauto).
    split.
    + intros x. rewrite Hg. apply Hs.
    + intros x Hx. apply Hi. apply mget_Some_iff in Hx as [e1 Hx]. rewrite Hg in Hx. apply mget_Some_iff. eauto.
  - split.
    + intros x. rewrite window_snoc, clean_up_mget. simpl. specialize (He x).
      destruct (window ms x None hist) as [[c last]|] eqn:Ew; rewrite He; auto.
      destruct (Hu _ _ He) as [c' [last' [H1 [_ [H3 H4]]]]]. rewrite Ew in H1. injection H1 as <- <-.
      unfold is_expired. simpl. assert (0 <= ms)%Z by (apply Z.div_pos; lia).
      destruct (Z.ltb_spec 0 (last + ms)); [|lia]. simpl. destruct (last + ms <? now)%Z; auto.
    + intros x Hx. apply Hi. apply mget_Some_iff in Hx as [e1 Hx]. rewrite clean_up_mget in Hx.
      apply mget_Some_iff. destruct (mget str_eqb x (pf_names s)); [eauto|discriminate].
Qed.

Lemma exact_run hist ks : (forall o, In o hist -> 0 < @pf_time T o)%Z -> length ks <= pf_names_size cfg ->
  (forall o k, In o hist -> looked_up o k -> In k ks) ->
  exact hist (pf_names (pf_run cfg pf_init hist)).
Proof.
  assert (forall h2 h1 s, upper h1 (pf_names s) -> exact h1 (pf_names s) -> incl (map fst (pf_names s)) ks ->
    (forall o, In o h2 -> 0 < @pf_time T o)%Z -> length ks <= pf_names_size cfg ->
    (forall o k, In o h2 -> looked_up o k -> In k ks) ->
    exact (h1 ++ h2) (pf_names (pf_run cfg s h2))) as G.
  { induction h2 as [|o h2 IH]; intros h1 s H1 H2 H3 Ht Hl Hk; simpl.
    - now rewrite app_nil_r.
    - change (o :: h2) with ([o] ++ h2). rewrite app_assoc.
      destruct (exact_step h1 s o ks) as [G1 G2]; auto.
      + intros k. apply Hk. now left.
      + apply Ht. now left.
      + apply IH; auto.
        * apply upper_step; auto. apply Ht. now left.
        * intros o' Ho. apply Ht. now right.
        * intros o' k Ho. apply Hk. now right. }
  intros H Hl Hk. apply (G hist [] pf_init); auto.
  - split; [constructor|discriminate].
  - intros k. reflexivity.
  - intros ? [].
Qed.

End PrefetchProofs.
