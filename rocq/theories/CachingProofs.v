(** Lemmas about the caching resolver. *)
From Coq Require Import String Ascii List Arith Bool NArith ZArith Lia.
From Verif Require Import Str StrFacts Dns Resolver ExpCache ExpCacheProofs Caching CachingSpec.
Import ListNotations.

(** ** Characters and names *)

Lemma lower_ascii_cases c :
  (65 <= N_of_ascii c <= 90 /\ N_of_ascii (lower_ascii c) = N_of_ascii c + 32)%N \/
  (~ (65 <= N_of_ascii c <= 90) /\ lower_ascii c = c)%N.
Proof. destruct c as [[|] [|] [|] [|] [|] [|] [|] [|]]; vm_compute; (left; split; [split; discriminate|reflexivity]) || (right; split; [intros [H1 H2]; (contradiction H1; reflexivity) || (contradiction H2; reflexivity)|reflexivity]). Qed.

Lemma N_of_ascii_inj a b : N_of_ascii a = N_of_ascii b -> a = b.
Proof. intros H. rewrite <- (ascii_N_embedding a), <- (ascii_N_embedding b). now rewrite H. Qed.

Lemma lower_ascii_same a b : lower_ascii a = lower_ascii b <-> same_letter a b.
Proof.
  unfold same_letter. cbv zeta. destruct (lower_ascii_cases a) as [[Ha La]|[Ha La]], (lower_ascii_cases b) as [[Hb Lb]|[Hb Lb]].
  - split.
    + intros H. rewrite H, Lb in La. left. lia.
    + intros H. apply N_of_ascii_inj. rewrite La, Lb. lia.
  - rewrite Lb. split.
    + intros H. rewrite H in La. lia.
    + intros H. apply N_of_ascii_inj. rewrite La. lia.
  - rewrite La. split.
    + intros H. rewrite H in *. lia.
    + intros H. apply N_of_ascii_inj. rewrite Lb. lia.
  - rewrite La, Lb. split; [intros ->; auto|]. intros H. apply N_of_ascii_inj. lia.
Qed.

Lemma to_lower_same a b : to_lower a = to_lower b <-> same_upto_case a b.
Proof.
  unfold same_upto_case, to_lower. split.
  - revert b. induction a as [|x a IH]; intros [|y b] H; try discriminate; constructor.
    + apply lower_ascii_same. now injection H.
    + apply IH. now injection H.
  - induction 1; simpl; auto. f_equal; auto. now apply lower_ascii_same.
Qed.

Lemma lower_no_upper c : ~ (65 <= N_of_ascii (lower_ascii c) <= 90)%N.
Proof. destruct (lower_ascii_cases c) as [[H ->]|[H ->]]; lia. Qed.

Lemma same_letter_lower c : same_letter c (lower_ascii c).
Proof. apply lower_ascii_same. now rewrite lower_ascii_idem. Qed.

Lemma extract_domain_without_dot n : exists s, without_dot n s /\ extract_domain_only n = to_lower s.
Proof.
  unfold extract_domain_only, without_dot. destruct n as [|c n _] using rev_ind.
  - exists []. split; [|reflexivity]. right. split; auto. intros [x H]. symmetry in H. now apply app_eq_nil in H as [_ H].
  - destruct (ascii_dec c dot) as [->|Hc].
    + exists n. split; [now left|]. rewrite to_lower_app. apply (trim_suffix_app _ ($".")).
    + exists (n ++ [c]). split.
      * right. split; auto. intros [x H]. change ($".") with [dot] in H. apply app_inj_tail in H as [_ H]. congruence.
      * apply trim_suffix_not. destruct (has_suffix _ _) eqn:E; auto. apply has_suffix_spec in E as [x E].
        rewrite to_lower_app in E. change ($".") with [dot] in E. apply app_inj_tail in E as [_ E].
        apply lower_ascii_dot in E. congruence.
Qed.

Lemma without_dot_fun n s s' : without_dot n s -> without_dot n s' -> s = s'.
Proof.
  intros [->|[-> H]] [H'|[H' H2]]; subst; auto.
  - now apply app_inj_tail in H' as [-> _].
  - exfalso. eauto.
  - exfalso. eauto.
Qed.

Lemma key_inj t n t' n' : (t < 65536 -> t' < 65536 ->
  generate_cache_key t n = generate_cache_key t' n' -> t = t' /\ to_lower n = to_lower n')%N.
Proof.
  intros Ht Ht' H. unfold generate_cache_key in H. injection H as H1 H2 H3. split; auto.
  apply (f_equal N_of_ascii) in H1, H2.
  assert (t / 256 < 256 /\ t' / 256 < 256)%N by (split; apply N.div_lt_upper_bound; lia).
  rewrite !N_ascii_embedding in H1 by tauto. rewrite !N_ascii_embedding in H2 by (apply N.mod_lt; lia).
  rewrite (N.div_mod t 256), (N.div_mod t' 256) by lia. congruence.
Qed.

Lemma question_key_iff q q' : (q_type q < 65536 -> q_type q' < 65536 ->
  question_key q = question_key q' <-> same_question q q')%N.
Proof.
  intros Ht Ht'. unfold question_key, extract_domain.
  destruct (extract_domain_without_dot (q_name q)) as [s [Hs ->]], (extract_domain_without_dot (q_name q')) as [s' [Hs' ->]].
  split.
  - intros H. apply key_inj in H as [H1 H2]; auto. split; auto. rewrite !to_lower_idem in H2.
    exists s, s'. repeat split; auto. now apply to_lower_same.
  - intros [H1 [x [x' [H2 [H3 H4]]]]]. rewrite (without_dot_fun _ _ _ Hs H2), (without_dot_fun _ _ _ Hs' H3), H1.
    apply to_lower_same in H4. now rewrite H4.
Qed.

Lemma extract_generate t n : (t < 65536)%N -> extract_cache_key (generate_cache_key t n) = Some (t, to_lower n).
Proof.
  intros Ht. unfold generate_cache_key, extract_cache_key. do 2 f_equal.
  assert (t / 256 < 256)%N by (apply N.div_lt_upper_bound; lia).
  rewrite !N_ascii_embedding by (auto; apply N.mod_lt; lia). rewrite (N.div_mod t 256) at 3 by lia. lia.
Qed.

Lemma wire_key_question_key q : (q_type q < 65536)%N -> wire_key q (question_key q).
Proof.
  intros Ht. unfold question_key, generate_cache_key, extract_domain.
  destruct (extract_domain_without_dot (q_name q)) as [s [Hs ->]]. rewrite to_lower_idem.
  eexists _, _, s, (to_lower s). split; [reflexivity|].
  assert (q_type q / 256 < 256)%N by (apply N.div_lt_upper_bound; lia).
  rewrite !N_ascii_embedding by (auto; apply N.mod_lt; lia). split; [apply N.div_mod; lia|]. split; auto. split.
  - unfold same_upto_case, to_lower. clear. induction s; constructor; auto. apply same_letter_lower.
  - unfold to_lower. clear. induction s; constructor; auto. apply lower_no_upper.
Qed.

Lemma lower_of_no_upper low : Forall (fun c => ~ (65 <= N_of_ascii c <= 90)%N) low -> to_lower low = low.
Proof.
  induction 1; simpl; auto. f_equal; auto. destruct (lower_ascii_cases x) as [[G _]|[_ G]]; auto. tauto.
Qed.

Lemma wire_key_fun q k : (q_type q < 65536)%N -> wire_key q k -> k = question_key q.
Proof.
  intros Ht [hi [lo [s [low [-> [H1 [H2 [H3 H4]]]]]]]]. unfold question_key, generate_cache_key, extract_domain.
  destruct (extract_domain_without_dot (q_name q)) as [s' [Hs ->]]. rewrite (without_dot_fun _ _ _ Hs H2), to_lower_idem.
  pose proof (N_ascii_bounded hi). pose proof (N_ascii_bounded lo).
  apply to_lower_same in H3. rewrite H3, lower_of_no_upper by auto. rewrite H1.
  replace ((256 * N_of_ascii hi + N_of_ascii lo) / 256)%N with (N_of_ascii hi).
  - replace ((256 * N_of_ascii hi + N_of_ascii lo) mod 256)%N with (N_of_ascii lo).
    + now rewrite !ascii_N_embedding.
    + rewrite N.add_comm, N.mul_comm, N.mod_add by lia. now rewrite N.mod_small.
  - rewrite N.add_comm, N.mul_comm, N.div_add by lia. now rewrite N.div_small.
Qed.

(** ** TTL arithmetic *)

Lemma u32_small x : (0 <= x < 4294967296 -> u32 x = Z.to_N x)%Z.
Proof. intros H. unfold u32. now rewrite Z.mod_small. Qed.

Lemma seconds_u32_small d : (0 <= d < 4294967296 * 1000000000)%Z -> seconds_u32 d = Z.to_N (d / 1000000000).
Proof.
  intros H. unfold seconds_u32. rewrite Z.quot_div_nonneg by lia. apply u32_small. split.
  - apply Z.div_pos; lia.
  - apply Z.div_lt_upper_bound; lia.
Qed.

Lemma adjust_ttl_clamped c t : sane_cfg c -> clamped (cc_min c) (cc_max c) t (adjust_ttl c t).
Proof.
  intros [H1 [H2 H3]]. unfold clamped, adjust_ttl. cbv zeta.
  destruct (Z.ltb_spec 0 (cc_min c)); cbn [andb].
  - rewrite (seconds_u32_small (cc_min c)) by lia.
    set (lo := Z.to_N (cc_min c / 1000000000)).
    replace (if (t <? lo)%N then lo else t) with (N.max t lo) by (destruct (N.ltb_spec t lo); lia).
    destruct (Z.ltb_spec 0 (cc_max c)); cbn [andb]; auto.
    rewrite (seconds_u32_small (cc_max c)) by lia.
    destruct (N.ltb_spec (Z.to_N (cc_max c / 1000000000)) (N.max t lo)); lia.
  - destruct (Z.ltb_spec 0 (cc_max c)); cbn [andb]; auto.
    rewrite (seconds_u32_small (cc_max c)) by lia.
    destruct (N.ltb_spec (Z.to_N (cc_max c / 1000000000)) t); lia.
Qed.

Lemma adjust_ttl_le c t : sane_cfg c -> (t <= max_int32)%N -> (adjust_ttl c t <= max_int32)%N.
Proof.
  intros Hc Ht. pose proof (adjust_ttl_clamped c t Hc) as H. destruct Hc as [H1 [H2 H3]]. unfold clamped in H. cbv zeta in H. rewrite H.
  assert (forall d, (d < 2147483648 * 1000000000)%Z -> (0 < d)%Z -> (Z.to_N (d / 1000000000) <= max_int32)%N) as G.
  { intros d Hd Hp. unfold max_int32. assert (d / 1000000000 < 2147483648)%Z by (apply Z.div_lt_upper_bound; lia).
    assert (0 <= d / 1000000000)%Z by (apply Z.div_pos; lia). lia. }
  destruct (Z.ltb_spec 0 (cc_min c)), (Z.ltb_spec 0 (cc_max c)); try specialize (G (cc_min c)) as G1; try specialize (G (cc_max c)) as G2; lia.
Qed.

Lemma fold_min_spec (l : list rr) m0 :
  let m := fold_left (fun m r => N.min m (rr_ttl r)) l m0 in
  (m <= m0)%N /\ (forall r, In r l -> (m <= rr_ttl r)%N) /\ (m = m0 \/ exists r, In r l /\ rr_ttl r = m).
Proof.
  revert m0. induction l as [|r l IH]; intros m0; simpl.
  - split; [lia|]. split; [tauto|auto].
  - destruct (IH (N.min m0 (rr_ttl r))) as [H1 [H2 H3]]. split; [lia|]. split.
    + intros x [->|Hx]; auto. lia.
    + destruct H3 as [H3|[x [Hx1 Hx2]]]; [|eauto].
      destruct (N.min_spec m0 (rr_ttl r)) as [[_ G]|[_ G]]; rewrite G in *; [auto|]. right. exists r. auto.
Qed.

Lemma fold_min_smallest l : l <> [] -> sane_ttls l -> smallest_ttl l (fold_left (fun m r => N.min m (rr_ttl r)) l max_int32).
Proof.
  intros Hn Hs. destruct (fold_min_spec l max_int32) as [H1 [H2 H3]]. split; auto.
  destruct H3 as [H3|H3]; auto. destruct l as [|r l]; [congruence|]. exists r. split; [now left|].
  specialize (H2 r (or_introl eq_refl)). specialize (Hs r (or_introl eq_refl)). rewrite H3 in *. lia.
Qed.

Lemma set_ttl_same t r : same_record r (set_ttl t r).
Proof. repeat split. Qed.

Lemma same_record_trans a b c : same_record a b -> same_record b c -> same_record a c.
Proof. unfold same_record. intuition congruence. Qed.

Lemma Forall2_map_r {A B} (R : A -> B -> Prop) f l : (forall x, R x (f x)) -> Forall2 R l (map f l).
Proof. intros H. induction l; constructor; auto. Qed.

Lemma Forall2_trans3 {A} (R S U : A -> A -> Prop) l1 l2 l3 :
  (forall a b c, R a b -> S b c -> U a c) -> Forall2 R l1 l2 -> Forall2 S l2 l3 -> Forall2 U l1 l3.
Proof.
  intros H H1. revert l3. induction H1; intros l3 H2; inversion H2; subst; constructor; eauto.
Qed.

Lemma adjust_ttls_fst c a : fst (adjust_ttls c a) = map (fun r => set_ttl (adjust_ttl c (rr_ttl r)) r) a.
Proof. now destruct a. Qed.

Lemma adjust_ttls_answer c a : sane_cfg c -> clamped_answer c a (fst (adjust_ttls c a)).
Proof.
  intros Hc. unfold clamped_answer. rewrite adjust_ttls_fst.
  apply Forall2_map_r. intros x. split; [apply set_ttl_same|]. now apply adjust_ttl_clamped.
Qed.

Lemma adjust_ttls_same c a : Forall2 same_record a (fst (adjust_ttls c a)).
Proof. rewrite adjust_ttls_fst. apply Forall2_map_r. intros. apply set_ttl_same. Qed.

Lemma adjust_ttls_sane c a : sane_cfg c -> sane_ttls a -> sane_ttls (fst (adjust_ttls c a)).
Proof.
  intros Hc Hs x Hx. rewrite adjust_ttls_fst in Hx.
  apply in_map_iff in Hx as [y [<- Hy]]. simpl. apply adjust_ttl_le; auto.
Qed.

Lemma adjust_ttls_lifetime c a : sane_cfg c -> sane_ttls a ->
  lifetime c (fst (adjust_ttls c a)) (snd (adjust_ttls c a)).
Proof.
  intros Hc Hs. pose proof (adjust_ttls_sane c a Hc Hs) as Hs'. destruct a as [|r a].
  - left. auto.
  - right. eexists. split; [|reflexivity]. apply fold_min_smallest; auto. discriminate.
Qed.

Lemma lifetime_fun c a n n' : lifetime c a n -> lifetime c a n' -> n = n'.
Proof.
  intros [[H ->]|[m [[[r [Hr1 Hr2]] H2] ->]]] [[G ->]|[m' [[[r' [Hr1' Hr2']] H2'] ->]]]; auto.
  - subst a. destruct Hr1'.
  - subst a. destruct Hr1.
  - subst. specialize (H2 _ Hr1'). specialize (H2' _ Hr1). do 2 f_equal. lia.
Qed.

Lemma lifetime_bound c a ns : sane_cfg c -> sane_ttls a -> lifetime c a ns -> (ns < 2147483648 * 1000000000)%Z.
Proof.
  intros [_ [_ Hc]] Hs [[_ ->]|[n [[[r [H1 <-]] _] ->]]]; [lia|]. specialize (Hs _ H1). unfold max_int32 in Hs. lia.
Qed.

(** Served TTLs. *)
Lemma set_ttl_in_cached_spec m ttl n : (0 <= ttl < 2147483648 * 1000000000)%Z ->
  sane_ttls (m_answer m) -> smallest_ttl (m_answer m) n ->
  Forall2 (fun r r' => same_record r r' /\ rr_ttl r' = (rr_ttl r - n + Z.to_N (ttl / 1000000000))%N)
    (m_answer m) (m_answer (set_ttl_in_cached m ttl)).
Proof.
  intros Ht Hs Hn. unfold set_ttl_in_cached. simpl.
  assert (fold_left (fun x r => N.min x (rr_ttl r)) (m_answer m) max_int32 = n) as ->.
  { destruct (fold_min_spec (m_answer m) max_int32) as [H1 [H2 H3]]. destruct Hn as [[r [Hr1 Hr2]] Hmin].
    specialize (H2 _ Hr1). pose proof (Hs _ Hr1) as Hsr. destruct H3 as [H3|[x [Hx1 Hx2]]].
    - rewrite H3 in *. lia.
    - specialize (Hmin _ Hx1). lia. }
  rewrite seconds_u32_small by lia.
  assert (0 <= ttl / 1000000000 < 2147483648)%Z as Hd by (split; [apply Z.div_pos; lia|apply Z.div_lt_upper_bound; lia]).
  destruct Hn as [_ Hmin]. revert Hs Hmin. generalize (m_answer m) as l. induction l as [|r l IH]; intros Hs Hmin; constructor.
  - split; [apply set_ttl_same|]. simpl. specialize (Hs r (or_introl eq_refl)). specialize (Hmin r (or_introl eq_refl)).
    unfold max_int32 in Hs. rewrite u32_small by lia. lia.
  - apply IH; intros x Hx; [apply Hs|apply Hmin]; now right.
Qed.

(** ** Content *)

Lemma remove_first_split {A} (f : A -> bool) l : existsb f l = true ->
  exists a o b, l = a ++ o :: b /\ f o = true /\ remove_first f l = a ++ b.
Proof.
  induction l as [|x l IH]; simpl; [discriminate|]. destruct (f x) eqn:E.
  - intros _. exists [], x, l. auto.
  - simpl. intros H. destruct (IH H) as [a [o [b [-> [H2 ->]]]]]. exists (x :: a), o, b. auto.
Qed.

Lemma remove_edns0_content m : same_content m (snd (remove_edns0_record m)).
Proof.
  unfold remove_edns0_record, same_content. destruct (is_edns0 m) as [o|] eqn:E; simpl.
  - split; auto. split; [clear; induction (m_answer m); constructor; auto; repeat split|]. split; auto. right.
    apply find_some in E as [E1 E2]. apply in_rev in E1.
    destruct (remove_first_split is_opt (m_extra m)) as [a [x [b [H1 [H2 H3]]]]].
    { apply existsb_exists. eauto. }
    exists a, x, b. rewrite H3. split; auto. split; auto. now apply N.eqb_eq.
  - split; auto. split; [clear; induction (m_answer m); constructor; auto; repeat split|]. auto.
Qed.

Lemma remove_edns0_answer m : m_answer (snd (remove_edns0_record m)) = m_answer m.
Proof. unfold remove_edns0_record. now destruct (is_edns0 m). Qed.

Lemma remove_edns0_rcode m : m_rcode (snd (remove_edns0_record m)) = m_rcode m.
Proof. unfold remove_edns0_record. now destruct (is_edns0 m). Qed.

Lemma set_ttl_in_cached_same m ttl : Forall2 same_record (m_answer m) (m_answer (set_ttl_in_cached m ttl)).
Proof. unfold set_ttl_in_cached. simpl. apply Forall2_map_r. intros. apply set_ttl_same. Qed.

Lemma same_content_answer_r m a b c : same_content m (set_answer a b) -> Forall2 same_record a c -> same_content m (set_answer c b).
Proof.
  unfold same_content. simpl. intros [H1 [H2 [H3 H4]]] H. repeat split; auto.
  eapply Forall2_trans3; [|exact H2|exact H]. intros x y z. apply same_record_trans.
Qed.

Lemma same_content_refl m : same_content m m.
Proof. repeat split; auto. induction (m_answer m); constructor; auto. repeat split. Qed.

(** ** Cache operations *)
Section Cache.
Variable cfg : caching_cfg.

Lemma cache_get_spec now k c r c' : cache_get cfg now k c = (r, c') -> NoDup (map fst (pf_cache c)) ->
  NoDup (map fst (pf_cache c')) /\ (forall x, mget str_eqb x (pf_cache c') = mget str_eqb x (pf_cache c)) /\
  r = match mget str_eqb k (pf_cache c) with
      | Some e => Some (cv_element (el_val e), remain_ttl now (el_expires e)) | None => None end.
Proof.
  unfold cache_get. intros H Hn.
  assert (forall l r0, ec_get now k (pf_cache c) = (r0, l) ->
    NoDup (map fst l) /\ (forall x, mget str_eqb x l = mget str_eqb x (pf_cache c)) /\
    (match r0 with Some (v, ttl) => Some (cv_element v, ttl) | None => None end) =
    match mget str_eqb k (pf_cache c) with
    | Some e => Some (cv_element (el_val e), remain_ttl now (el_expires e)) | None => None end) as G.
  { intros l r0 E. destruct (ec_get_mget now k _ _ _ k E Hn) as [_ [G1 G2]]. split; auto. split.
    - intros x. eapply ec_get_mget; eauto.
    - rewrite G2. destruct (mget str_eqb k (pf_cache c)); auto. }
  destruct (cc_prefetching cfg); simpl in H.
  - destruct (ec_get now k (pf_cache c)) as [r0 l] eqn:E. injection H as <- <-. simpl. now apply G.
  - destruct (ec_get now k (pf_cache c)) as [r0 l] eqn:E. injection H as <- <-. simpl. now apply G.
Qed.

Lemma ec_put_sub {V} size now k (v : V) ttl l x e : 1 <= size -> NoDup (map fst l) ->
  mget str_eqb x (ec_put size now k v ttl l) = Some e ->
  (x = k /\ e = {| el_val := v; el_expires := (now + to_ms ttl)%Z |} /\ (0 < ttl)%Z) \/ mget str_eqb x l = Some e.
Proof.
  intros Hs Hn. unfold ec_put. destruct (Z.leb_spec ttl 0); auto. intros G.
  apply lru_add_mget_sub in G; auto. destruct G as [[-> ->]|[_ G]]; auto.
Qed.

Lemma ec_put_NoDup {V} size now k (v : V) ttl l : NoDup (map fst l) -> NoDup (map fst (ec_put size now k v ttl l)).
Proof. intros H. unfold ec_put. destruct (ttl <=? 0)%Z; auto. now apply lru_add_NoDup. Qed.

Lemma ec_put_same {V} size now k (v : V) ttl l : 1 <= size -> (0 < ttl)%Z ->
  mget str_eqb k (ec_put size now k v ttl l) = Some {| el_val := v; el_expires := (now + to_ms ttl)%Z |}.
Proof.
  intros Hs Ht. unfold ec_put. destruct (Z.leb_spec ttl 0); [lia|]. unfold lru_add.
  destruct (mget str_eqb k l); [simpl; now rewrite str_eqb_refl|].
  destruct (Nat.ltb_spec size (S (length l))).
  - destruct l as [|a l]; [simpl in *; lia|].
    change (removelast ((k, {| el_val := v; el_expires := (now + to_ms ttl)%Z |}) :: a :: l)) with
      ((k, {| el_val := v; el_expires := (now + to_ms ttl)%Z |}) :: removelast (a :: l)).
    simpl. now rewrite str_eqb_refl.
  - simpl. now rewrite str_eqb_refl.
Qed.

End Cache.

Lemma entry_mget s k : entry s k =
  match mget str_eqb k (pf_cache (s_cache s)) with Some e => Some (cv_element (el_val e), el_expires e) | None => None end.
Proof.
  unfold entry. induction (pf_cache (s_cache s)) as [|[x e] l IH]; simpl; auto. destruct (str_eqb k x); auto.
Qed.

(** ** The invariant *)
Section Invariant.
Variable packable : msg -> bool.
Variable cfg : caching_cfg.
Hypothesis Hsize : 1 <= pf_size (cc_pf cfg).

Definition clamp_msg (m : msg) : msg := set_answer (fst (adjust_ttls cfg (m_answer m))) m.
Definition clamp_ttl (m : msg) : Z := snd (adjust_ttls cfg (m_answer m)).

(** Message [m], expiring at [exp], as stored when [m0] is handed over at [t]. *)
Definition stored_as (src : source) (m0 : msg) (t : Z) (m : msg) (exp : Z) : Prop :=
  exists ttl, (0 < ttl)%Z /\ exp = (t + to_ms ttl)%Z /\
  match src with
  | ByPrefetch => m = m0 /\ ttl = clamp_ttl m0 /\ m_rcode m0 = rcode_success /\ packable m0 = true
  | _ => cache_entry packable cfg (clamp_msg m0) (clamp_ttl m0) = Some (m, ttl)
  end.

Definition task_ok (hist : list event) (t : task) : Prop :=
  last_start hist (tk_id t) (tk_req t) /\ wf_request (tk_req t) /\ is_request_cacheable (tk_req t) = true /\
  (exists pre q, m_question (req_msg (tk_req t)) = pre ++ q :: tk_rest t /\ tk_key t = question_key q) /\
  match tk_phase t with
  | Storing m ttl => exists resp m0, last_next hist (tk_id t) (Ok resp) /\ rs_msg resp = Some m0 /\
      m = clamp_msg m0 /\ ttl = clamp_ttl m0 /\
      tk_resp t = Some {| rs_msg := Some m; rs_reason := rs_reason resp; rs_type := rs_type resp |}
  | Failed e => last_next hist (tk_id t) (Err e)
  | Waiting => True
  end.

Record inv (hist : list event) (s : state) : Prop := {
  i_nodup : NoDup (map fst (pf_cache (s_cache s)));
  i_entries : forall k e, mget str_eqb k (pf_cache (s_cache s)) = Some e ->
    exists src m0 t, cached hist src k m0 t /\ stored_as src m0 t (cv_element (el_val e)) (el_expires e);
  i_ids : NoDup (map tk_id (s_tasks s));
  i_tasks : forall t, In t (s_tasks s) -> task_ok hist t;
  i_prefetch : forall k m ttl, In (k, Some (Some (m, ttl))) (s_prefetch s) ->
    exists resp, In (EReload k (Ok resp)) hist /\ rs_msg resp = Some m /\ m_rcode m = rcode_success /\
      packable m = true /\ ttl = clamp_ttl m }.

Lemma last_start_app hist id req e : last_start hist id req -> (forall r n, e <> EStart id r n) -> last_start (hist ++ [e]) id req.
Proof.
  intros [a [now [b [-> H]]]] He. exists a, now, (b ++ [e]). split; [now rewrite <- app_assoc|].
  intros r n Hin. apply in_app_or in Hin as [Hin|[Hin|[]]]; [eapply H; eauto|]. eapply He; eauto.
Qed.

Lemma last_next_app hist id r e : last_next hist id r -> (forall q n, e <> EStart id q n) -> (forall r', e <> ENext id r') ->
  last_next (hist ++ [e]) id r.
Proof.
  intros [a [b [-> [H1 H2]]]] He1 He2. exists a, (b ++ [e]). split; [now rewrite <- app_assoc|]. split.
  - intros r' Hin. apply in_app_or in Hin as [Hin|[Hin|[]]]; [eapply H1; eauto|eapply He2; eauto].
  - intros q n Hin. apply in_app_or in Hin as [Hin|[Hin|[]]]; [eapply H2; eauto|eapply He1; eauto].
Qed.

Lemma cached_app hist src k m t e : cached hist src k m t -> e <> EFlush -> cached (hist ++ [e]) src k m t.
Proof.
  intros [a [ev [b [-> [H1 H2]]]]] He. exists a, ev, (b ++ [e]). split; [now rewrite <- app_assoc|]. split; auto.
  intros Hin. apply in_app_or in Hin as [Hin|[Hin|[]]]; auto.
Qed.

Lemma cached_last hist src k m ev t : delivered hist src k m ev t -> cached (hist ++ [ev]) src k m t.
Proof. intros H. exists hist, ev, []. auto. Qed.

Lemma task_ok_app hist t e : task_ok hist t -> (forall r n, e <> EStart (tk_id t) r n) ->
  (forall r, e <> ENext (tk_id t) r) -> task_ok (hist ++ [e]) t.
Proof.
  intros [H1 [H2 [H3 [H4 H6]]]] He1 He2. split; [now apply last_start_app|]. do 3 (split; auto).
  destruct (tk_phase t); auto.
  - destruct H6 as [resp [m0 [G1 G2]]]. exists resp, m0. split; auto. now apply last_next_app.
  - now apply last_next_app.
Qed.

Lemma take_task_spec id l t l' : take_task id l = Some (t, l') ->
  tk_id t = id /\ In t l /\ incl l' l /\ (NoDup (map tk_id l) -> NoDup (map tk_id l') /\ ~ In id (map tk_id l')).
Proof.
  revert l'. induction l as [|x l IH]; intros l'; simpl; [discriminate|]. destruct (Nat.eqb_spec (tk_id x) id).
  - intros H. injection H as <- <-. split; auto. split; auto. split; [intros y; now right|]. subst.
    intros H. inversion H. auto.
  - destruct (take_task id l) as [[y l'']|]; [|discriminate]. intros H. injection H as -> <-.
    destruct (IH _ eq_refl) as [H1 [H2 [H3 H4]]]. split; auto. split; auto. split.
    + intros z [->|Hz]; [now left|right; auto].
    + intros H. inversion H; subst. destruct (H4 H7) as [G1 G2]. simpl. split.
      * constructor; auto. intros Hin. apply H6. apply in_map_iff in Hin as [z [Hz1 Hz2]]. rewrite <- Hz1. apply in_map. auto.
      * intros [E|E]; auto.
Qed.

Lemma take_prefetch_spec k l x l' : take_prefetch k l = Some (x, l') -> In (k, x) l /\ incl l' l.
Proof.
  revert l'. induction l as [|[k' y] l IH]; intros l'; simpl; [discriminate|]. destruct (str_eqb k k') eqn:E.
  - intros H. injection H as <- <-. apply str_eqb_eq in E. subst. split; auto. intros z; now right.
  - destruct (take_prefetch k l) as [[z l'']|]; [|discriminate]. intros H. injection H as -> <-.
    destruct (IH _ eq_refl) as [H1 H2]. split; auto. intros w [->|Hw]; [now left|right; auto].
Qed.

Lemma start_question_spec id req qs resp now c tasks c' tasks' out :
  start_question cfg id req qs resp now c tasks = (c', tasks', out) -> NoDup (map fst (pf_cache c)) ->
  NoDup (map fst (pf_cache c')) /\ (forall x, mget str_eqb x (pf_cache c') = mget str_eqb x (pf_cache c)) /\
  match qs with
  | [] => c' = c /\ tasks' = tasks /\ out = match resp with Some r => [Reply id r] | None => [Crashed (Some id)] end
  | q :: rest =>
      match mget str_eqb (question_key q) (pf_cache c) with
      | Some e => tasks' = tasks /\
          out = [Reply id (Ok (cached_reply req (cv_element (el_val e)) (remain_ttl now (el_expires e))))]
      | None => tasks' = {| tk_id := id; tk_req := req; tk_key := question_key q; tk_rest := rest; tk_phase := Waiting; tk_resp := None |} :: tasks
                /\ out = [Forward (Some id) req]
      end
  end.
Proof.
  unfold start_question. intros H Hn. destruct qs as [|q rest].
  - injection H as <- <- <-. repeat split; auto.
  - destruct (cache_get cfg now (question_key q) c) as [r c1] eqn:E.
    apply cache_get_spec in E as [E1 [E2 E3]]; auto. rewrite E3 in H.
    destruct (mget str_eqb (question_key q) (pf_cache c)) as [e|].
    + injection H as <- <- <-. repeat split; auto.
    + injection H as <- <- <-. repeat split; auto.
Qed.

Lemma lru_remove_mget_sub {V} k (l : list (str * V)) x v : mget str_eqb x (lru_remove k l) = Some v -> mget str_eqb x l = Some v.
Proof.
  unfold lru_remove. destruct (str_eq_dec x k) as [->|Hn].
  - rewrite mget_mdel_same. discriminate.
  - rewrite mget_mdel_other by congruence. auto.
Qed.

Lemma cache_put_spec now k m ttl c x e : NoDup (map fst (pf_cache c)) ->
  mget str_eqb x (pf_cache (cache_put cfg now k m ttl c)) = Some e ->
  (x = k /\ e = {| el_val := {| cv_element := m; cv_prefetch := false |}; el_expires := (now + to_ms ttl)%Z |} /\ (0 < ttl)%Z)
  \/ mget str_eqb x (pf_cache c) = Some e.
Proof. intros Hn H. unfold cache_put in H. cbn [pf_step fst pf_cache] in H. eapply ec_put_sub in H; eauto. Qed.

Lemma cache_put_NoDup now k m ttl c : NoDup (map fst (pf_cache c)) -> NoDup (map fst (pf_cache (cache_put cfg now k m ttl c))).
Proof. intros H. unfold cache_put. cbn [pf_step fst pf_cache]. now apply ec_put_NoDup. Qed.


(** Lemmas for the cache part of a step. *)
Definition entries_ok (hist : list event) (l : lru (element (cache_value msg))) : Prop :=
  forall k e, mget str_eqb k l = Some e ->
    exists src m0 t, cached hist src k m0 t /\ stored_as src m0 t (cv_element (el_val e)) (el_expires e).

Lemma entries_app hist l e : entries_ok hist l -> e <> EFlush -> entries_ok (hist ++ [e]) l.
Proof.
  intros H He k x Hk. destruct (H k x Hk) as [src [m0 [t [H1 H2]]]]. exists src, m0, t. split; auto. now apply cached_app.
Qed.

Lemma entries_sub hist l l' : entries_ok hist l -> (forall k e, mget str_eqb k l' = Some e -> mget str_eqb k l = Some e) ->
  entries_ok hist l'.
Proof. intros H G k e Hk. apply H. auto. Qed.

Lemma entries_put hist c src k m0 ev t : NoDup (map fst (pf_cache c)) -> entries_ok (hist ++ [ev]) (pf_cache c) ->
  src <> ByPrefetch -> delivered hist src k m0 ev t ->
  entries_ok (hist ++ [ev])
    (pf_cache (match cache_entry packable cfg (clamp_msg m0) (clamp_ttl m0) with
               | Some (copy, t') => cache_put cfg t k copy t' c | None => c end)).
Proof.
  intros Hn He Hs Hd. destruct (cache_entry packable cfg (clamp_msg m0) (clamp_ttl m0)) as [[copy t']|] eqn:E; auto.
  intros x e Hx. apply cache_put_spec in Hx as [[-> [-> Ht]]|Hx]; auto.
  exists src, m0, t. split; [now apply cached_last|]. exists t'. simpl. split; auto. split; auto.
  destruct src; auto. congruence.
Qed.

Lemma step_inv hist s e s' out : inv hist s -> wf_event e -> step packable cfg s e = Some (s', out) -> inv (hist ++ [e]) s'.
Proof.
  intros [Hn He Hi Ht Hp] Hwf Hstep.
  assert (forall t, In t (s_tasks s) -> (forall r n, e <> EStart (tk_id t) r n) -> (forall r, e <> ENext (tk_id t) r) ->
    task_ok (hist ++ [e]) t) as Htapp by (intros; apply task_ok_app; auto).
  assert (forall k m ttl, In (k, Some (Some (m, ttl))) (s_prefetch s) ->
    exists resp, In (EReload k (Ok resp)) (hist ++ [e]) /\ rs_msg resp = Some m /\ m_rcode m = rcode_success /\
      packable m = true /\ ttl = clamp_ttl m) as Hpapp.
  { intros k m ttl H. destruct (Hp _ _ _ H) as [resp [G1 G2]]. exists resp. split; auto. apply in_or_app. auto. }
  assert (e <> EFlush -> entries_ok (hist ++ [e]) (pf_cache (s_cache s))) as Heapp by (intros; apply entries_app; auto).
  destruct e as [id req now|id r|id now|key m now|key now|key r|key now|now| ]; simpl in Hstep.
  - (* EStart *)
    destruct (existsb _ (s_tasks s)) eqn:Ex; [discriminate|].
    assert (forall t, In t (s_tasks s) -> tk_id t <> id) as Hfresh.
    { intros t Hin E. assert (existsb (fun t => Nat.eqb (tk_id t) id) (s_tasks s) = true) as C; [|congruence].
      apply existsb_exists. exists t. split; auto. now apply Nat.eqb_eq. }
    assert (forall t, In t (s_tasks s) -> task_ok (hist ++ [EStart id req now]) t) as Ht'.
    { intros t Hin. apply Htapp; auto; [|discriminate]. intros r n E. injection E as E. eapply Hfresh; eauto. }
    destruct (negb (caching_enabled cfg) || negb (is_request_cacheable req)) eqn:Eb.
    + injection Hstep as <- <-. constructor; auto. apply Heapp. discriminate.
    + destruct (start_question _ _ _ _ _ _ _ _) as [[c tasks] o] eqn:Es. injection Hstep as <- <-.
      apply start_question_spec in Es as [E1 [E2 E3]]; auto. apply orb_false_iff in Eb as [_ Eb].
      assert (entries_ok (hist ++ [EStart id req now]) (pf_cache c)) as He'.
      { eapply entries_sub; [apply Heapp; discriminate|]. intros k e. now rewrite E2. }
      destruct (m_question (req_msg req)) as [|q rest] eqn:Eq.
      * destruct E3 as [-> [-> _]]. constructor; auto.
      * destruct (mget _ _ _) eqn:Eg.
        -- destruct E3 as [-> _]. constructor; auto.
        -- destruct E3 as [-> _]. constructor; auto; simpl.
           ++ constructor; auto. intros Hin. apply in_map_iff in Hin as [t [Hid Hin]]. eapply Hfresh; eauto.
           ++ intros t [<-|Hin]; auto. split; simpl.
              { exists hist, now, []. split; auto. }
              split; [exact Hwf|]. split; [now apply negb_false_iff in Eb|]. rewrite Eq. split; [exists [], q; split; auto|]. auto.
  - (* ENext *)
    destruct (take_task id (s_tasks s)) as [[t tasks]|] eqn:Et; [|discriminate].
    destruct (take_task_spec _ _ _ _ Et) as [Hid [Hint [Hincl Hnd]]]. destruct (Hnd Hi) as [Hnd1 Hnd2].
    assert (forall x, In x tasks -> task_ok (hist ++ [ENext id r]) x) as Ht'.
    { intros x Hx. apply Htapp; auto; [discriminate|]. intros r' E. injection E as E _. apply Hnd2. rewrite E. now apply in_map. }
    assert (entries_ok (hist ++ [ENext id r]) (pf_cache (s_cache s))) as He' by (apply Heapp; discriminate).
    destruct (Ht t Hint) as [T1 [T2 [T3 [T4 T6]]]].
    destruct (tk_phase t); try discriminate. rewrite Hid in T1.
    assert (last_start (hist ++ [ENext id r]) id (tk_req t)) as T1' by (apply last_start_app; auto; discriminate).
    assert (last_next (hist ++ [ENext id r]) id r) as TN by (exists hist, []; repeat split; auto).
    destruct r as [resp|err].
    + destruct (rs_msg resp) as [m|] eqn:Em.
      * destruct (adjust_ttls cfg (m_answer m)) as [ans ttl] eqn:Ea. injection Hstep as <- <-. constructor; auto; simpl.
        -- constructor; auto.
        -- intros x [<-|Hx]; auto. split; simpl; auto. do 3 (split; auto). exists resp, m.
           unfold clamp_msg, clamp_ttl. rewrite Ea. auto.
      * injection Hstep as <- <-. constructor; auto.
    + injection Hstep as <- <-. constructor; auto; simpl.
      * constructor; auto.
      * intros x [<-|Hx]; auto. split; simpl; auto.
  - (* EStore *)
    destruct (take_task id (s_tasks s)) as [[t tasks]|] eqn:Et; [|discriminate].
    destruct (take_task_spec _ _ _ _ Et) as [Hid [Hint [Hincl Hnd]]]. destruct (Hnd Hi) as [Hnd1 Hnd2].
    assert (forall x, In x (s_tasks s) -> task_ok (hist ++ [EStore id now]) x) as Ht' by (intros; apply Htapp; auto; discriminate).
    assert (entries_ok (hist ++ [EStore id now]) (pf_cache (s_cache s))) as He' by (apply Heapp; discriminate).
    assert (forall resp c1 c tasks' o, start_question cfg id (tk_req t) (tk_rest t) resp now c1 tasks = (c, tasks', o) ->
      NoDup (map fst (pf_cache c1)) -> entries_ok (hist ++ [EStore id now]) (pf_cache c1) ->
      inv (hist ++ [EStore id now]) {| s_cache := c; s_tasks := tasks'; s_prefetch := s_prefetch s |}) as G.
    { intros resp c1 c tasks' o Es Hn1 He1. apply start_question_spec in Es as [E1 [E2 E3]]; auto.
      assert (entries_ok (hist ++ [EStore id now]) (pf_cache c)) as He2.
      { eapply entries_sub; [exact He1|]. intros k e. now rewrite E2. }
      destruct (Ht' t Hint) as [T1 [T2 [T3 [T4 T6]]]].
      destruct (tk_rest t) as [|q rest] eqn:Eq.
      - destruct E3 as [-> [-> _]]. constructor; auto; simpl; auto.
      - destruct (mget _ _ _) eqn:Eg.
        + destruct E3 as [-> _]. constructor; auto; simpl; auto.
        + destruct E3 as [-> _]. constructor; auto; simpl.
          * constructor; auto.
          * intros x [<-|Hx]; auto. split; simpl; [now rewrite Hid in T1|]. split; auto. split; auto.
            split; [|auto]. destruct T4 as [pre [q' [T4 _]]]. exists (pre ++ [q']), q. split; auto. rewrite T4, <- app_assoc. reflexivity. }
    destruct (tk_phase t) as [|m ttl|err] eqn:Ep; [discriminate| |].
    + destruct (start_question _ _ _ _ _ _ _ _) as [[c tasks'] o] eqn:Es. injection Hstep as <- <-.
      destruct (Ht t Hint) as [T1 [T2 [T3 [[pre [q [T4 T4']]] T6]]]]. rewrite Ep in T6.
      assert (In q (m_question (req_msg (tk_req t)))) as T5 by (rewrite T4; apply in_or_app; right; now left).
      destruct T6 as [resp [m0 [G1 [G2 [-> [-> G5]]]]]]. eapply G; [exact Es| |].
      * destruct (cache_entry _ _ _ _) as [[copy t']|]; auto. now apply cache_put_NoDup.
      * apply entries_put with (src := ByQuery (tk_req t) q); auto; [discriminate|].
        rewrite Hid in *. rewrite T4'. econstructor; eauto. apply wire_key_question_key. apply T2; auto.
    + destruct (start_question _ _ _ _ _ _ _ _) as [[c tasks'] o] eqn:Es. injection Hstep as <- <-. eapply G; eauto.
  - (* ERemote *)
    destruct (adjust_ttls cfg (m_answer m)) as [ans ttl] eqn:Ea. injection Hstep as <- <-.
    replace (set_answer ans m) with (clamp_msg m) by (unfold clamp_msg; now rewrite Ea).
    replace ttl with (clamp_ttl m) by (unfold clamp_ttl; now rewrite Ea).
    constructor; auto; simpl.
    + destruct (cache_entry _ _ _ _) as [[copy t']|]; auto. now apply cache_put_NoDup.
    + apply entries_put with (src := ByPeer); auto; try discriminate; [apply Heapp; discriminate|constructor].
    + intros; apply Htapp; auto; discriminate.
  - (* EExpired *)
    assert (forall x, In x (s_tasks s) -> task_ok (hist ++ [EExpired key now]) x) as Ht' by (intros; apply Htapp; auto; discriminate).
    assert (entries_ok (hist ++ [EExpired key now]) (pf_cache (s_cache s))) as He' by (apply Heapp; discriminate).
    destruct (lru_peek key (pf_cache (s_cache s))) as [el|]; [|discriminate].
    destruct (is_expired now el); [|discriminate].
    assert (forall x, (forall y, x <> Some (Some y)) -> forall k m ttl, In (k, Some (Some (m, ttl))) ((key, x) :: s_prefetch s) ->
      exists resp, In (EReload k (Ok resp)) (hist ++ [EExpired key now]) /\ rs_msg resp = Some m /\ m_rcode m = rcode_success /\
        packable m = true /\ ttl = clamp_ttl m) as Hpx.
    { intros x Hx k m ttl [H|H]; [|eapply Hpapp; eauto]. injection H as <- ->. now destruct (Hx (m, ttl)). }
    destruct (cc_prefetching cfg).
    + destruct (should_prefetch _ _ _ _) as [b names]. destruct b.
      * destruct (extract_cache_key key) as [[t name]|]; injection Hstep as <- <-; constructor; auto.
        simpl. apply Hpx. discriminate.
      * injection Hstep as <- <-. constructor; auto. apply Hpx. discriminate.
    + injection Hstep as <- <-. constructor; auto. apply Hpx. discriminate.
  - (* EReload *)
    assert (forall x, In x (s_tasks s) -> task_ok (hist ++ [EReload key r]) x) as Ht' by (intros; apply Htapp; auto; discriminate).
    assert (entries_ok (hist ++ [EReload key r]) (pf_cache (s_cache s))) as He' by (apply Heapp; discriminate).
    destruct (take_prefetch key (s_prefetch s)) as [[[x|] rest]|] eqn:Et; try discriminate.
    apply take_prefetch_spec in Et as [Et1 Et2].
    destruct (reload_result packable cfg r) as [x|] eqn:Er; injection Hstep as <- <-; constructor; auto; simpl.
    + intros k m ttl [H|H]; [|eapply Hpapp; eauto]. injection H as <- ->.
      unfold reload_result in Er. destruct r as [resp|]; [|discriminate]. destruct (rs_msg resp) as [m'|] eqn:Em; [|discriminate].
      destruct (N.eqb_spec (m_rcode m') rcode_success); [|discriminate]. destruct (packable m') eqn:Epk; [|discriminate].
      injection Er as <- <-. exists resp. split; [apply in_or_app; right; now left|]. auto.
  - (* EReloadStore *)
    assert (forall x, In x (s_tasks s) -> task_ok (hist ++ [EReloadStore key now]) x) as Ht' by (intros; apply Htapp; auto; discriminate).
    assert (entries_ok (hist ++ [EReloadStore key now]) (pf_cache (s_cache s))) as He' by (apply Heapp; discriminate).
    destruct (take_prefetch key (s_prefetch s)) as [[[[[m ttl]|]|] rest]|] eqn:Et; try discriminate;
      apply take_prefetch_spec in Et as [Et1 Et2]; injection Hstep as <- <-; constructor; auto; cbn [pf_cache s_cache s_prefetch].
    + now apply ec_put_NoDup.
    + intros k e Hk. apply ec_put_sub in Hk as [[-> [-> Hpos]]|Hk]; auto.
      destruct (Hp _ _ _ Et1) as [resp [G1 [G2 [G3 [G4 ->]]]]].
      exists ByPrefetch, m, now. split; [apply cached_last; econstructor; eauto|]. exists (clamp_ttl m). simpl. repeat split; auto.
    + eapply sub_NoDup; [apply sub_map; apply sub_mdel|]; auto.
    + eapply entries_sub; [exact He'|]. intros k e. apply lru_remove_mget_sub.
  - (* ECleanNames *)
    injection Hstep as <- <-. constructor; auto; simpl; [apply Heapp; discriminate|]. intros; apply Htapp; auto; discriminate.
  - (* EFlush *)
    injection Hstep as <- <-. constructor; auto; simpl.
    + constructor.
    + discriminate.
    + intros; apply Htapp; auto; discriminate.
Qed.

Lemma run_inv_from hist s es s' : inv hist s -> Forall wf_event es -> run packable cfg s es = Some s' -> inv (hist ++ es) s'.
Proof.
  revert hist s. induction es as [|e es IH]; intros hist s Hi Hw Hr; simpl in Hr.
  - injection Hr as <-. now rewrite app_nil_r.
  - destruct (step packable cfg s e) as [[s1 o]|] eqn:E; [|discriminate]. inversion Hw; subst.
    replace (hist ++ e :: es) with ((hist ++ [e]) ++ es) by (now rewrite <- app_assoc).
    eapply IH; eauto. eapply step_inv; eauto.
Qed.

Lemma inv_init : inv [] init.
Proof. constructor; simpl; try constructor; try discriminate; intros; tauto. Qed.

Lemma run_invariant es s : Forall wf_event es -> run packable cfg init es = Some s -> inv es s.
Proof. intros H1 H2. replace es with ([] ++ es) by reflexivity. eapply run_inv_from; eauto. apply inv_init. Qed.

End Invariant.

(** ** Consequences *)

Lemma split_last_unique {A} (P : A -> Prop) (a a' b b' : list A) x x' :
  a ++ x :: b = a' ++ x' :: b' -> P x -> P x' -> (forall y, In y b -> ~ P y) -> (forall y, In y b' -> ~ P y) -> x = x' /\ b = b'.
Proof.
  revert a'. induction a as [|z a IH]; intros [|z' a'] H Hx Hx' Hb Hb'; simpl in H.
  - injection H as <- <-. auto.
  - injection H as -> ->. exfalso. apply (Hb x'); auto. apply in_or_app. right. now left.
  - injection H as -> <-. exfalso. apply (Hb' x); auto. apply in_or_app. right. now left.
  - injection H as -> H. eapply IH; eauto.
Qed.

Lemma last_start_fun hist id r r' : last_start hist id r -> last_start hist id r' -> r = r'.
Proof.
  intros [a [n [b [-> H1]]]] [a' [n' [b' [E H2]]]].
  eapply (split_last_unique (fun e => exists r n, e = EStart id r n)) in E as [E _]; [congruence|eauto|eauto| |].
  - intros y Hy [r0 [n0 ->]]. eapply H1; eauto.
  - intros y Hy [r0 [n0 ->]]. eapply H2; eauto.
Qed.

Lemma last_next_fun hist id r r' : last_next hist id r -> last_next hist id r' -> r = r'.
Proof.
  intros [a [b [-> [H1 _]]]] [a' [b' [E [H2 _]]]].
  eapply (split_last_unique (fun e => exists r, e = ENext id r)) in E as [E _]; [congruence|eauto|eauto| |].
  - intros y Hy [r0 ->]. eapply H1; eauto.
  - intros y Hy [r0 ->]. eapply H2; eauto.
Qed.

Lemma remove_first_without l : without_opt l (if existsb is_opt l then remove_first is_opt l else l).
Proof.
  induction l as [|x l IH]; simpl.
  - left. split; auto.
  - unfold is_opt at 1 3. destruct (N.eqb_spec (rr_type x) type_OPT) as [E|E]; simpl.
    + right. exists [], x, l. repeat split; auto.
    + destruct (existsb is_opt l).
      * destruct IH as [[IH1 IH2]|[a [o [b [-> [H2 [H3 H4]]]]]]].
        -- left. split; [now rewrite IH1|]. intros r [<-|Hr]; auto.
        -- right. exists (x :: a), o, b. rewrite H2. repeat split; auto. intros r [<-|Hr]; auto.
      * destruct IH as [[IH1 IH2]|[a [o [b [E1 [H2 [H3 H4]]]]]]].
        -- left. split; auto. intros r [<-|Hr]; auto.
        -- exfalso. rewrite E1 in H2. apply (f_equal (@length rr)) in H2. rewrite !app_length in H2. simpl in H2. lia.
Qed.

Lemma is_edns0_existsb m : match is_edns0 m with Some _ => existsb is_opt (m_extra m) = true | None => existsb is_opt (m_extra m) = false end.
Proof.
  unfold is_edns0. destruct (find is_opt (rev (m_extra m))) eqn:E.
  - apply find_some in E as [E1 E2]. apply existsb_exists. exists r. split; auto. now apply in_rev.
  - destruct (existsb is_opt (m_extra m)) eqn:G; auto. apply existsb_exists in G as [x [G1 G2]].
    apply in_rev in G1. apply find_none with (x := x) in E; auto. congruence.
Qed.

Lemma remove_edns0_without m : exists x, without_opt (m_extra m) x /\ snd (remove_edns0_record m) = set_extra x m.
Proof.
  exists (if existsb is_opt (m_extra m) then remove_first is_opt (m_extra m) else m_extra m). split; [apply remove_first_without|].
  unfold remove_edns0_record. pose proof (is_edns0_existsb m) as H. destruct (is_edns0 m); rewrite H; [reflexivity|]. now destruct m.
Qed.

Lemma without_opt_fun l x y : without_opt l x -> without_opt l y -> x = y.
Proof.
  intros [[-> H]|[a [o [b [-> [-> [H1 H2]]]]]]] [[-> G]|[a' [o' [b' [E [-> [G1 G2]]]]]]]; auto.
  - exfalso. subst l. apply (H o'); auto. apply in_or_app. right. now left.
  - exfalso. apply (G o); auto. apply in_or_app. right. now left.
  - revert a' E G2. induction a as [|z a IH]; intros [|z' a'] E G2; simpl in E.
    + now injection E as _ ->.
    + injection E as -> ->. exfalso. apply (G2 z'); auto. now left.
    + injection E as -> <-. exfalso. apply (H2 o'); auto. now left.
    + injection E as -> E. simpl. f_equal. eapply IH; eauto; intros r Hr; [apply H2|apply G2]; now right.
Qed.

Lemma clamped_answer_fun c a x y : clamped_answer c a x -> clamped_answer c a y -> x = y.
Proof.
  unfold clamped_answer. intros H. revert y. induction H as [|r r' l l' H1 H2 IH]; intros y G; inversion G; subst; auto.
  f_equal; auto. destruct H1 as [[A1 [A2 [A3 A4]]] A5], H3 as [[B1 [B2 [B3 B4]]] B5]. destruct r', y0; simpl in *. congruence.
Qed.

Lemma clamped_answer_nil c a : clamped_answer c a [] -> a = [].
Proof. intros H. now inversion H. Qed.

Section Reply.
Variable packable : msg -> bool.
Variable cfg : caching_cfg.

Lemma kept_copy m : sane_cfg cfg -> kept cfg m (snd (remove_edns0_record (clamp_msg cfg m))).
Proof.
  intros Hc. destruct (remove_edns0_without (clamp_msg cfg m)) as [x [H1 H2]].
  exists (fst (adjust_ttls cfg (m_answer m))), x. split; [now apply adjust_ttls_answer|]. split; auto.
Qed.

Lemma kept_fun m x y : kept cfg m x -> kept cfg m y -> x = y.
Proof.
  intros [a [e [H1 [H2 ->]]]] [a' [e' [G1 [G2 ->]]]]. rewrite (clamped_answer_fun _ _ _ _ H1 G1).
  now rewrite (without_opt_fun _ _ _ H2 G2).
Qed.

Lemma start_reply s id req now s' out : NoDup (map fst (pf_cache (s_cache s))) ->
  step packable cfg s (EStart id req now) = Some (s', out) ->
  forall id' res, In (Reply id' res) out ->
  exists q rest e, m_question (req_msg req) = q :: rest /\ out = [Reply id (Ok (cached_reply req (cv_element (el_val e)) (remain_ttl now (el_expires e))))] /\
    mget str_eqb (question_key q) (pf_cache (s_cache s)) = Some e /\ is_request_cacheable req = true /\ caching_enabled cfg = true.
Proof.
  intros Hn Hs id' res Hin. simpl in Hs. destruct (existsb _ _); [discriminate|].
  destruct (negb (caching_enabled cfg) || negb (is_request_cacheable req)) eqn:Eb.
  { injection Hs as <- <-. destruct Hin as [Hin|[]]. discriminate. }
  apply orb_false_iff in Eb as [E1 E2]. apply negb_false_iff in E1, E2.
  destruct (start_question _ _ _ _ _ _ _ _) as [[c tasks] o] eqn:Es. injection Hs as <- <-.
  apply start_question_spec in Es as [_ [_ Es]]; auto. destruct (m_question (req_msg req)) as [|q rest].
  - destruct Es as [_ [_ ->]]. destruct Hin as [Hin|[]]. discriminate.
  - destruct (mget _ _ _) as [e|] eqn:Eg.
    + destruct Es as [_ ->]. exists q, rest, e. auto.
    + destruct Es as [_ ->]. destruct Hin as [Hin|[]]. discriminate.
Qed.

Lemma cache_entry_content m ttl copy t : cache_entry packable cfg m ttl = Some (copy, t) -> copy = snd (remove_edns0_record m).
Proof.
  unfold cache_entry. destruct (packable _); [|discriminate]. destruct (_ && _); [congruence|].
  destruct (_ =? _)%N; [|discriminate]. destruct (_ <? _)%Z; [congruence|discriminate].
Qed.

Lemma stored_same_content src m0 t m exp : stored_as packable cfg src m0 t m exp -> same_content m0 m.
Proof.
  intros [ttl [_ [_ H]]].
  assert (cache_entry packable cfg (clamp_msg cfg m0) (clamp_ttl cfg m0) = Some (m, ttl) -> same_content m0 m) as G.
  { intros E. apply cache_entry_content in E. subst m. destruct (remove_edns0_content (clamp_msg cfg m0)) as [H1 [H2 [H3 H4]]].
    split; auto. split; auto. rewrite remove_edns0_answer. apply adjust_ttls_same. }
  destruct src; auto. destruct H as [-> _]. apply same_content_refl.
Qed.

Lemma reply_content req m ttl x : rs_msg (cached_reply req m ttl) = Some x ->
  forall m0, same_content m0 m -> same_content m0 x.
Proof.
  simpl. intros H m0 G. injection H as <-. destruct G as [G1 [G2 [G3 G4]]].
  split; auto. split; auto. simpl. eapply Forall2_trans3; [apply same_record_trans|exact G2|].
  apply Forall2_map_r. intros. apply set_ttl_same.
Qed.

Lemma reply_header req m ttl x q rest : rs_msg (cached_reply req m ttl) = Some x -> m_question (req_msg req) = q :: rest ->
  m_id x = m_id (req_msg req) /\ m_question x = [q] /\ m_response x = true.
Proof. simpl. intros H E. injection H as <-. simpl. now rewrite E. Qed.

Lemma reply_ttls req src m0 t m exp now x :
  sane_cfg cfg -> stored_as packable cfg src m0 t m exp -> src <> ByPrefetch -> m_rcode m0 = rcode_success ->
  sane_ttls (m_answer m0) -> (t <= now)%Z -> rs_msg (cached_reply req m (remain_ttl now exp)) = Some x ->
  served_answer cfg m0 t now (m_answer x).
Proof.
  intros Hc [ttl [Hpos [-> H]]] Hsrc Hrc Hs Hnow Hx.
  assert (cache_entry packable cfg (clamp_msg cfg m0) (clamp_ttl cfg m0) = Some (m, ttl)) as E by (destruct src; auto; congruence).
  pose proof (cache_entry_content _ _ _ _ E) as Em.
  assert (ttl = clamp_ttl cfg m0) as ->.
  { unfold cache_entry in E. match type of E with (if ?b then _ else _) = _ => destruct b; [|discriminate] end.
    change (m_rcode (clamp_msg cfg m0)) with (m_rcode m0) in E. rewrite Hrc in E. change (rcode_success =? rcode_success)%N with true in E.
    change (rcode_success =? rcode_nxdomain)%N with false in E. destruct (is_response_cacheable _); cbn [andb] in E; congruence. }
  unfold cached_reply in Hx. cbv zeta in Hx. cbn [rs_msg] in Hx. injection Hx as <-.
  exists (fst (adjust_ttls cfg (m_answer m0))). split; [now apply adjust_ttls_answer|].
  assert (m_answer m = fst (adjust_ttls cfg (m_answer m0))) as Ha by (subst m; now rewrite remove_edns0_answer).
  pose proof (adjust_ttls_sane cfg _ Hc Hs) as Hs'. pose proof (adjust_ttls_lifetime cfg _ Hc Hs) as [[L1 L2]|[n [L1 L2]]].
  - left. split; auto. simpl. rewrite Ha, L1. reflexivity.
  - right. exists n. split; auto. unfold clamp_ttl in *. rewrite L2 in *. destruct L1 as [[r0 [Hr1 Hr2]] Hmin].
    pose proof (Hs' _ Hr1) as Hr0. rewrite Hr2 in Hr0. unfold max_int32 in Hr0.
    assert (to_ms (Z.of_N n * 1000000000) = 1000 * Z.of_N n)%Z as Ems.
    { unfold to_ms. rewrite Z.quot_div_nonneg by lia. replace (Z.of_N n * 1000000000)%Z with (1000 * Z.of_N n * 1000000)%Z by lia.
      now rewrite Z.div_mul. }
    rewrite Ems.
    assert (0 <= remain_ttl now (t + 1000 * Z.of_N n) < 2147483648 * 1000000000)%Z as Hr.
    { unfold remain_ttl. destruct (Z.ltb_spec now (t + 1000 * Z.of_N n)); lia. }
    pose proof (set_ttl_in_cached_spec (set_rcode m (req_msg req) (m_rcode m)) _ n Hr) as G. change (m_answer (set_rcode m (req_msg req) (m_rcode m))) with (m_answer m) in G. rewrite Ha in G.
    specialize (G Hs' (conj (ex_intro _ r0 (conj Hr1 Hr2)) Hmin)).
    assert (remain_ttl now (t + 1000 * Z.of_N n) / 1000000000 = Z.max 0 (t + 1000 * Z.of_N n - now) / 1000)%Z as Er.
    { unfold remain_ttl. destruct (Z.ltb_spec now (t + 1000 * Z.of_N n)).
      - rewrite Z.max_r by lia. change 1000000000%Z with (1000 * 1000000)%Z. rewrite Z.div_mul_cancel_r; lia.
      - rewrite Z.max_l by lia. reflexivity. }
    rewrite Er in G. clear Er.
    assert (0 <= Z.max 0 (t + 1000 * Z.of_N n - now) / 1000)%Z as Hq by (apply Z.div_pos; lia).
    revert G. generalize (m_answer (set_ttl_in_cached (set_rcode m (req_msg req) (m_rcode m)) (remain_ttl now (t + 1000 * Z.of_N n)))) as out.
    intros out G. clear Ha Hs' Hr1 L2. revert Hmin G. generalize (fst (adjust_ttls cfg (m_answer m0))) as cl. intros cl Hmin G.
    induction G as [|a b l l' [G1 G2] G3 IH]; constructor.
    + split; auto. rewrite G2. specialize (Hmin a (or_introl eq_refl)). lia.
    + apply IH. intros r Hr'. apply Hmin. now right.
Qed.

Lemma served_le t now a n : (t <= now)%Z -> forall cl, smallest_ttl cl n ->
  Forall2 (fun x r => same_record x r /\
         (Z.of_N (rr_ttl r) = Z.of_N (rr_ttl x) - Z.of_N n + Z.max 0 (t + 1000 * Z.of_N n - now) / 1000)%Z) cl a ->
  Forall2 (fun x r => (rr_ttl r <= rr_ttl x)%N) cl a.
Proof.
  intros Hnow cl _ H.
  assert (Z.max 0 (t + 1000 * Z.of_N n - now) / 1000 <= Z.of_N n)%Z as Hle.
  { apply Z.div_le_upper_bound; lia. }
  induction H as [|x r l l' [H1 H2] H3 IH]; constructor; auto. lia.
Qed.


(** Completion of a query with a single question. *)
Lemma store_spec hist s id now s' out req q : 1 <= pf_size (cc_pf cfg) -> inv packable cfg hist s ->
  step packable cfg s (EStore id now) = Some (s', out) -> last_start hist id req -> m_question (req_msg req) = [q] ->
  (exists e, last_next hist id (Err e) /\ out = [Reply id (Err e)] /\ s_cache s' = s_cache s) \/
  (exists resp m0, last_next hist id (Ok resp) /\ rs_msg resp = Some m0 /\
     out = [Reply id (Ok {| rs_msg := Some (clamp_msg cfg m0); rs_reason := rs_reason resp; rs_type := rs_type resp |})] /\
     s_cache s' = match cache_entry packable cfg (clamp_msg cfg m0) (clamp_ttl cfg m0) with
                  | Some (copy, t') => cache_put cfg now (question_key q) copy t' (s_cache s)
                  | None => s_cache s
                  end).
Proof.
  intros Hsize [Hn He Hi Ht Hp] Hstep Hl Hq. simpl in Hstep.
  destruct (take_task id (s_tasks s)) as [[t tasks]|] eqn:Et; [|discriminate].
  destruct (take_task_spec _ _ _ _ Et) as [Hid [Hint [Hincl Hnd]]].
  destruct (Ht t Hint) as [T1 [T2 [T3 [[pre [q' [T4 T4']]] T6]]]]. rewrite Hid in *.
  rewrite (last_start_fun _ _ _ _ T1 Hl) in *. rewrite Hq in T4.
  assert (pre = [] /\ q' = q /\ tk_rest t = []) as [-> [-> Er]].
  { destruct pre as [|x [|y pre]]; simpl in T4; try discriminate. injection T4 as <- <-. auto. }
  rewrite Er in Hstep. destruct (tk_phase t) as [|m ttl|e]; [discriminate| |]; simpl in Hstep.
  - right. destruct T6 as [resp [m0 [G1 [G2 [-> [-> G5]]]]]]. rewrite G5 in Hstep. injection Hstep as <- <-. simpl.
    exists resp, m0. rewrite T4'. auto.
  - left. injection Hstep as <- <-. exists e. auto.
Qed.

Lemma entry_put s s' now k m t x : 1 <= pf_size (cc_pf cfg) -> NoDup (map fst (pf_cache (s_cache s))) ->
  s_cache s' = cache_put cfg now k m t (s_cache s) -> (0 < t)%Z -> entry s' k = Some x -> x = (m, now + to_ms t)%Z.
Proof.
  intros Hs Hn E Ht. rewrite entry_mget, E. unfold cache_put. cbn [pf_step fst pf_cache]. rewrite ec_put_same by auto.
  simpl. congruence.
Qed.

Lemma entry_put_some s s' now k m t : 1 <= pf_size (cc_pf cfg) ->
  s_cache s' = cache_put cfg now k m t (s_cache s) -> (0 < t)%Z -> entry s' k = Some (m, now + to_ms t)%Z.
Proof.
  intros Hs E Ht. rewrite entry_mget, E. unfold cache_put. cbn [pf_step fst pf_cache]. rewrite ec_put_same by auto. reflexivity.
Qed.

Lemma entry_put_none s s' now k k' m t : s_cache s' = cache_put cfg now k m t (s_cache s) -> (t <= 0)%Z -> entry s' k' = entry s k'.
Proof.
  intros E Ht. rewrite !entry_mget, E. unfold cache_put, ec_put. cbn [pf_step fst pf_cache]. unfold ec_put.
  destruct (Z.leb_spec t 0); [reflexivity|lia].
Qed.

Lemma cache_entry_cacheable m0 : sane_cfg cfg -> sane_ttls (m_answer m0) ->
  (forall ns, cacheable cfg m0 ns <->
     (0 < ns)%Z /\ match (if (m_rcode m0 =? rcode_success)%N && is_response_cacheable m0 then Some (clamp_ttl cfg m0)
       else if (m_rcode m0 =? rcode_nxdomain)%N then if (0 <? cc_neg cfg)%Z then Some (cc_neg cfg) else None else None) with
       | Some t => t = ns | None => False end).
Proof.
  intros Hc Hs ns. unfold cacheable, is_response_cacheable.
  pose proof (adjust_ttls_answer cfg (m_answer m0) Hc) as Ha. pose proof (adjust_ttls_lifetime cfg (m_answer m0) Hc Hs) as Hl.
  split.
  - intros [Hpos H]. split; auto. destruct H as [[H1 [H2 [H3 [a [H4 H5]]]]]|[H1 H2]].
    + rewrite H1, H2, H3. simpl. rewrite (clamped_answer_fun _ _ _ _ H4 Ha) in H5. unfold clamp_ttl. eapply lifetime_fun; eauto.
    + rewrite H1. simpl. subst ns. destruct (Z.ltb_spec 0 (cc_neg cfg)); [auto|lia].
  - intros [Hpos H]. split; auto. destruct (N.eqb_spec (m_rcode m0) rcode_success) as [E|E].
    + destruct (m_tc m0) eqn:E1, (m_cd m0) eqn:E2; simpl in H; try (rewrite E in H; simpl in H; tauto).
      left. repeat split; auto. exists (fst (adjust_ttls cfg (m_answer m0))). split; auto. subst ns. auto.
    + simpl in H. destruct (N.eqb_spec (m_rcode m0) rcode_nxdomain) as [E'|]; [|tauto]. right.
      split; auto. destruct (0 <? cc_neg cfg)%Z; [auto|tauto].
Qed.

(** Where a change of an entry comes from. *)
Lemma step_entry hist s e s' out k x : 1 <= pf_size (cc_pf cfg) -> inv packable cfg hist s -> wf_event e ->
  step packable cfg s e = Some (s', out) -> entry s' k = Some x ->
  entry s k = Some x \/ exists src m0 t, delivered hist src k m0 e t /\ stored_as packable cfg src m0 t (fst x) (snd x).
Proof.
  intros Hsize Hinv Hwf Hstep. pose proof Hinv as [Hn He Hi Ht Hp]. rewrite !entry_mget.
  assert (forall src k' m0 t c, delivered hist src k' m0 e t -> src <> ByPrefetch ->
    pf_cache c = pf_cache (match cache_entry packable cfg (clamp_msg cfg m0) (clamp_ttl cfg m0) with
               | Some (copy, t') => cache_put cfg t k' copy t' (s_cache s) | None => s_cache s end) ->
    match mget str_eqb k (pf_cache c) with Some e => Some (cv_element (el_val e), el_expires e) | None => None end = Some x ->
    match mget str_eqb k (pf_cache (s_cache s)) with Some e => Some (cv_element (el_val e), el_expires e) | None => None end = Some x \/
    exists src m0 t, delivered hist src k m0 e t /\ stored_as packable cfg src m0 t (fst x) (snd x)) as Hput.
  { intros src k' m0 t c Hd Hs -> H. destruct (cache_entry _ _ _ _) as [[copy t']|] eqn:Ece; auto.
    destruct (mget str_eqb k _) as [el|] eqn:Em; [|discriminate]. apply cache_put_spec in Em as [[-> [-> Hpos]]|Em]; auto.
    - right. injection H as <-. exists src, m0, t. split; auto. exists t'. simpl. split; auto. split; auto. destruct src; auto. congruence.
    - left. rewrite Em. auto. }
  destruct e as [id req now|id r|id now|key m now|key now|key r|key now|now| ]; simpl in Hstep.
  - destruct (existsb _ _); [discriminate|]. destruct (_ || _).
    + injection Hstep as <- <-. auto.
    + destruct (start_question _ _ _ _ _ _ _ _) as [[c tasks] o] eqn:Es. injection Hstep as <- <-.
      apply start_question_spec in Es as [_ [E2 _]]; auto. simpl. rewrite E2. auto.
  - destruct (take_task id (s_tasks s)) as [[t tasks]|]; [|discriminate]. destruct (tk_phase t); try discriminate.
    destruct r as [resp|]; [destruct (rs_msg resp); [destruct (adjust_ttls _ _)|]|]; injection Hstep as <- <-; auto.
  - destruct (take_task id (s_tasks s)) as [[t tasks]|] eqn:Et; [|discriminate].
    destruct (take_task_spec _ _ _ _ Et) as [Hid [Hint _]]. destruct (Ht t Hint) as [T1 [T2 [T3 [[pre [q [T4 T4']]] T6]]]].
    assert (In q (m_question (req_msg (tk_req t)))) as T5 by (rewrite T4; apply in_or_app; right; now left).
    destruct (tk_phase t) as [|m ttl|e]; [discriminate| |].
    + destruct T6 as [resp [m0 [G1 [G2 [-> [-> G5]]]]]].
      destruct (start_question _ _ _ _ _ _ _ _) as [[c tasks'] o] eqn:Es. injection Hstep as <- <-.
      apply start_question_spec in Es as [_ [E2 _]].
      * cbn [s_cache]. rewrite E2.
        apply (Hput (ByQuery (tk_req t) q) (tk_key t) m0 now); [|discriminate|reflexivity].
        rewrite Hid in *. rewrite T4'. econstructor; eauto. apply wire_key_question_key. apply T2; auto.
      * destruct (cache_entry _ _ _ _) as [[copy t']|]; auto. now apply cache_put_NoDup.
    + destruct (start_question _ _ _ _ _ _ _ _) as [[c tasks'] o] eqn:Es. injection Hstep as <- <-.
      apply start_question_spec in Es as [_ [E2 _]]; auto. simpl. rewrite E2. auto.
  - destruct (adjust_ttls cfg (m_answer m)) as [ans ttl] eqn:Ea. injection Hstep as <- <-. cbn [s_cache].
    replace (set_answer ans m) with (clamp_msg cfg m) by (unfold clamp_msg; now rewrite Ea).
    replace ttl with (clamp_ttl cfg m) by (unfold clamp_ttl; now rewrite Ea).
    apply (Hput ByPeer key m now); [constructor|discriminate|reflexivity].
  - destruct (lru_peek _ _); [|discriminate]. destruct (is_expired _ _); [|discriminate]. destruct (cc_prefetching cfg).
    + destruct (should_prefetch _ _ _ _) as [[|] names]; [destruct (extract_cache_key key) as [[? ?]|]|]; injection Hstep as <- <-; auto.
    + injection Hstep as <- <-; auto.
  - destruct (take_prefetch _ _) as [[[?|] rest]|]; try discriminate. destruct (reload_result _ _ _); injection Hstep as <- <-; auto.
  - destruct (take_prefetch key (s_prefetch s)) as [[[[[m ttl]|]|] rest]|] eqn:Et; try discriminate;
      apply take_prefetch_spec in Et as [Et1 Et2]; injection Hstep as <- <-; cbn [s_cache pf_cache].
    + intros H. match type of H with match ?u with _ => _ end = _ => destruct u as [el|] eqn:Em; [|discriminate] end. injection H as <-.
      apply ec_put_sub in Em as [[-> [-> Hpos]]|Em]; auto.
      * right. destruct (Hp _ _ _ Et1) as [resp [G1 [G2 [G3 [G4 ->]]]]]. exists ByPrefetch, m, now.
        split; [econstructor; eauto|]. exists (clamp_ttl cfg m). simpl. repeat split; auto.
      * left. rewrite Em. auto.
    + intros H. match type of H with match ?u with _ => _ end = _ => destruct u as [el|] eqn:Em; [|discriminate] end.
      apply lru_remove_mget_sub in Em. rewrite Em. auto.
  - injection Hstep as <- <-. auto.
  - injection Hstep as <- <-. simpl. discriminate.
Qed.

End Reply.
