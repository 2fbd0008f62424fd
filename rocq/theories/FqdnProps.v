(** C75: identifiers that are domain names, over all clean-ups. *)
From Coq Require Import String Ascii List Arith NArith ZArith Bool Lia.
From Verif Require Import Str StrFacts ExpCache ExpCacheProofs Dns Resolver Blocking BlockingSpec BlockingProofs FqdnSpec.
Import ListNotations.
Open Scope list_scope.

Lemma fq_init_mget now look ks : length ks <= fq_size -> forall ids l id, incl ids ks -> incl (map fst l) ks -> NoDup (map fst l) ->
  mget str_eqb id (fq_init now look ids l) =
  if str_in id ids && is_fqdn_identifier id && (0 <? snd (look id))%Z then Some {| el_val := fst (look id); el_expires := (now + to_ms (snd (look id)))%Z |}
  else mget str_eqb id l.
Proof.
  intros Hk. unfold fq_init. induction ids as [|k ids IH]; intros l id Hi Hl Hn; [reflexivity|]. cbn [fold_left].
  set (l' := if is_fqdn_identifier k then ec_put fq_size now k (fst (look k)) (snd (look k)) l else l).
  assert (In k ks) as Hkk by (apply Hi; now left).
  assert (mget str_eqb id l' = if str_eqb id k && is_fqdn_identifier id && (0 <? snd (look id))%Z then Some {| el_val := fst (look id); el_expires := (now + to_ms (snd (look id)))%Z |} else mget str_eqb id l) as E.
  { unfold l', ec_put. destruct (str_eqb_spec id k) as [->|Hne].
    - destruct (is_fqdn_identifier k); cbn [andb]; auto. destruct (Z.leb_spec (snd (look k)) 0) as [Hz|Hz].
      + destruct (Z.ltb_spec 0 (snd (look k))); [lia|reflexivity].
      + destruct (Z.ltb_spec 0 (snd (look k))); [|lia]. rewrite (lru_add_mget_all fq_size k _ l k ks Hn Hl Hkk Hk).
        now rewrite str_eqb_refl.
    - cbn [andb]. destruct (is_fqdn_identifier k); auto. destruct (snd (look k) <=? 0)%Z; auto.
      rewrite (lru_add_mget_all fq_size k _ l id ks Hn Hl Hkk Hk). destruct (str_eqb_spec id k); congruence. }
  assert (incl (map fst l') ks /\ NoDup (map fst l')) as [Hl' Hn'].
  { unfold l', ec_put. destruct (is_fqdn_identifier k); auto. destruct (snd (look k) <=? 0)%Z; auto. split; [|now apply lru_add_NoDup].
    unfold lru_add. destruct (mget str_eqb k l).
    - intros x [<-|Hx]; auto. apply In_keys_mdel in Hx as [_ Hx]. auto.
    - assert (incl (map fst ((k, {| el_val := fst (look k); el_expires := (now + to_ms (snd (look k)))%Z |}) :: l)) ks) as Hc by (intros x [<-|Hx]; auto).
      destruct (_ <? _); auto. intros x Hx. apply Hc. apply in_map_iff in Hx as [y [<- Hy]]. apply in_map. eapply sub_In; [apply sub_removelast|exact Hy]. }
  rewrite (IH l' id); auto. 2: { intros x Hx. apply Hi. now right. }
  rewrite E. cbn [str_in existsb]. unfold str_in. cbn [existsb].
  destruct (str_eqb id k), (existsb (str_eqb id) ids), (is_fqdn_identifier id), (0 <? snd (look id))%Z; reflexivity.
Qed.

Definition after (start : lookups) (ids : list str) (later : list lookups) : lru (element (list ip)) :=
  fold_left (fun l e => fq_clean (fst e) (snd e) l) later (fq_init (fst start) (snd start) ids []).

Lemma ms_pos t : (0 < t -> to_ms t = t / 1000000)%Z.
Proof. intros H. unfold to_ms. apply Z.quot_div_nonneg; lia. Qed.

Lemma stands_time id start later ips e : (0 < fst start)%Z -> Forall (fun n => 0 < fst n)%Z later -> stands_for id start later ips e -> (0 < e)%Z.
Proof.
  intros Hs Hl H. induction H.
  - pose proof (Z.div_pos ttl 1000000). lia.
  - apply Forall_app in Hl as [Hl _]. auto.
  - apply Forall_app in Hl as [Hl _]. auto.
  - apply Forall_app in Hl as [_ Hl]. apply Forall_inv in Hl. pose proof (Z.div_pos ttl 1000000). lia.
Qed.

(** A name listed as an identifier stands for the addresses of the last lookup that was due and had a lifetime; other identifiers, and names
    whose first lookup had no lifetime, stand for nothing. *)
Theorem C75_history : forall ids start later id, (N.of_nat (length ids) <= 10000)%N -> (0 < fst start)%Z -> Forall (fun n => 0 < fst n)%Z later ->
  (forall ips e, In id ids -> dotted_inside id -> stands_for id start later ips e -> fq_ips (after start ids later) id = ips) /\
  (~ In id ids \/ ~ dotted_inside id \/ (snd (snd start id) <= 0)%Z -> fq_ips (after start ids later) id = []).
Proof.
  intros ids start later id Hlen Hs Hl.
  assert (length ids <= fq_size) as Hlen' by (unfold fq_size, cache_size; change (0 <? 0) with false; cbv iota; lia).
  pose proof (fq_init_mget (fst start) (snd start) ids Hlen' ids [] id (incl_refl _) ltac:(intros ? []) ltac:(constructor)) as E0.
  split.
  - intros ips e Hi Hd H. assert (mget str_eqb id (after start ids later) = Some {| el_val := ips; el_expires := e |}) as G; [|unfold fq_ips, lru_peek; now rewrite G].
    pose proof (stands_time _ _ _ _ _ Hs Hl H) as Hpos.
    assert (forall l x, fold_left (fun l e => fq_clean (fst e) (snd e) l) (l ++ [x]) (fq_init (fst start) (snd start) ids []) =
      fq_clean (fst x) (snd x) (after start ids l)) as Fsnoc by (intros; unfold after; now rewrite fold_left_app).
    induction H as [ips ttl H1 H2|later next ips e H IH H1|later next ips e H IH H1|later next ips e ips' ttl H IH H1 H2 H3].
    + unfold after. cbn [fold_left]. rewrite E0. apply str_in_In in Hi. apply is_fqdn_iff in Hd. rewrite Hi, Hd, H1. cbn [andb fst snd].
      rewrite (proj2 (Z.ltb_lt _ _) H2). now rewrite (ms_pos ttl H2).
    + apply Forall_app in Hl as [Hl _]. specialize (IH Hl Hpos). unfold after. rewrite Fsnoc. unfold fq_clean. rewrite clean_up_mget, IH.
      unfold is_expired. cbn [el_expires]. destruct (Z.ltb_spec e (fst next)); [lia|]. now rewrite andb_false_r.
    + apply Forall_app in Hl as [Hl _]. specialize (IH Hl Hpos). unfold after. rewrite Fsnoc. unfold fq_clean. rewrite clean_up_mget, IH.
      destruct (is_expired _ _); auto. destruct (snd next id) as [v t]. cbn [snd] in H1. apply Z.leb_le in H1. now rewrite H1.
    + apply Forall_app in Hl as [Hl _]. pose proof (stands_time _ _ _ _ _ Hs Hl H) as Hpos'. specialize (IH Hl Hpos'). unfold after. rewrite Fsnoc. unfold fq_clean. rewrite clean_up_mget, IH.
      unfold is_expired. cbn [el_expires]. apply Z.ltb_lt in H1, Hpos'. rewrite H1, Hpos'. cbn [andb]. rewrite H2.
      destruct (Z.leb_spec ttl 0); [lia|]. now rewrite (ms_pos ttl H3).
  - intros Hno. assert (mget str_eqb id (after start ids later) = None) as G; [|unfold fq_ips, lru_peek; now rewrite G].
    assert (mget str_eqb id (fq_init (fst start) (snd start) ids []) = None) as G0.
    { rewrite E0. destruct (str_in id ids) eqn:E1; cbn [andb]; auto. destruct (is_fqdn_identifier id) eqn:E2; cbn [andb]; auto.
      destruct (Z.ltb_spec 0 (snd (snd start id))); auto. exfalso. apply str_in_In in E1. apply is_fqdn_iff in E2. destruct Hno as [Hno|[Hno|Hno]]; auto. lia. }
    unfold after. revert G0. generalize (fq_init (fst start) (snd start) ids []). clear. induction later as [|x later IH]; intros l H; cbn [fold_left]; auto.
    apply IH. now apply fq_clean_absent.
Qed.
Print Assumptions C75_history.

(** Two addresses one after the other for one identifier, none for one without a dot. *)
Example C75_history_case : let a := IP4 [192; 0; 2; 1]%N in let b := IP4 [192; 0; 2; 2]%N in
  let start : lookups := (1000%Z, fun _ => ([a], 60000000000%Z)) in let later : list lookups := [(30000%Z, fun _ => ([b], 60000000000%Z)); (70000%Z, fun _ => ([b], 60000000000%Z))] in
  stands_for $"phone.lan" start later [b] 130000 /\ fq_ips (after start [$"phone.lan"; $"laptop"] later) $"phone.lan" = [b] /\
  fq_ips (after start [$"phone.lan"; $"laptop"] later) $"laptop" = [].
Proof.
  cbv zeta. split; [|split; vm_compute; reflexivity].
  apply (sf_renewed $"phone.lan" _ [_] (70000%Z, _) [IP4 [192; 0; 2; 1]%N] 61000 _ 60000000000%Z); [|reflexivity|reflexivity|reflexivity].
  apply (sf_valid $"phone.lan" _ [] (30000%Z, _)); [|discriminate]. apply (sf_start $"phone.lan" (1000%Z, _) _ 60000000000%Z); reflexivity.
Qed.
