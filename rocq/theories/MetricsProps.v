(** Theorems about the metrics (C123-C127). *)
From Coq Require Import String Ascii List Arith Bool NArith ZArith Lia Sorted Permutation.
From Verif Require StringCache StringCacheSpec StringCacheProofs.
From Verif Require Import Str StrFacts Dns Resolver ResolverFacts Caching Blocking Sudn Ecs ClientNames QueryLog Chain RedisSpec RedisProps Utf8Facts SafeSpec
  BlockingProps ChainProps SafeProps Server ExpCache ExpCacheProofs Metrics MetricsSpec.
Import ListNotations.

(** ** C123: blocky_blocking_enabled is 1 exactly while the status says enabled; then no group is
    disabled; while it is 0 at least one group is. *)
Lemma gauge_run_blk cfg es : forall s g s' g', gauge_run cfg s g es = Some (s', g') -> blk_run cfg s es = Some s'.
Proof.
  induction es as [|e es IH]; intros s g s' g'; cbn [gauge_run blk_run]; [congruence|].
  destruct (blk_step cfg s e) as [[s1 b]|]; [apply IH|discriminate].
Qed.
Lemma blk_run_gauge cfg es : forall s g s', blk_run cfg s es = Some s' -> exists g', gauge_run cfg s g es = Some (s', g').
Proof.
  induction es as [|e es IH]; intros s g s'; cbn [gauge_run blk_run]; [intros [= <-]; eauto|].
  destruct (blk_step cfg s e) as [[s1 b]|]; [apply IH|discriminate].
Qed.

Theorem C123_gauge : forall cfg es s, blk_run cfg blk_init es = Some s ->
  exists gauge, gauge_run cfg blk_init enabled_gauge_init es = Some (s, gauge) /\
  forall now, let '(enabled, groups, _) := blocking_status now s in
  gauge = 1%N /\ enabled = true /\ groups = [] \/ gauge = 0%N /\ enabled = false /\ groups <> [].
Proof.
  intros cfg es s E. destruct (blk_run_gauge cfg es blk_init enabled_gauge_init s E) as [g Hg]. exists g. split; auto. intros now.
  unfold blocking_status.
  assert (forall es s0 g0 s g, (g0 = 1%N /\ bt_enabled s0 = true /\ bt_disabled s0 = [] \/ g0 = 0%N /\ bt_enabled s0 = false /\ bt_disabled s0 <> []) ->
    gauge_run cfg s0 g0 es = Some (s, g) ->
    (g = 1%N /\ bt_enabled s = true /\ bt_disabled s = [] \/ g = 0%N /\ bt_enabled s = false /\ bt_disabled s <> [])) as H.
  { clear. induction es as [|e es IH]; intros s0 g0 s g H0; cbn [gauge_run]; [intros [= <- <-]; exact H0|].
    destruct (blk_step cfg s0 e) as [[s1 b]|] eqn:Es; [|discriminate]. apply IH. clear IH.
    destruct e; cbn [blk_step blk_published] in *.
    - injection Es as <- _. cbn. auto.
    - injection Es as Es. unfold internal_disable in Es |- *.
      destruct (match gs with [] => true | _ => forallb (known_group (all_blocking_groups cfg)) gs end).
      + injection Es as <- _. cbn. right. repeat split; auto. destruct gs; [|discriminate].
        unfold all_blocking_groups. intros E. apply (f_equal (@length _)) in E. rewrite (Permutation_length (sort_strs_perm _)), app_length in E. cbn in E. lia.
      + injection Es as <- _. cbn [snd fold_left]. exact H0.
    - destruct (bt_timer s0); [|discriminate]. destruct (_ <=? _)%Z; [|discriminate]. injection Es as <- _. exact H0.
    - destruct (bt_fired s0); [discriminate|]. injection Es as <- _. cbn. auto. }
  eapply H; [|exact Hg]. left. auto.
Qed.
Print Assumptions C123_gauge.

Example C123_example : exists s1 s2,
  gauge_run ex_cfg blk_init enabled_gauge_init [BDisable 5000000000 [] 0; BDisable 0 [$"unknown"] 1; BFire 6000000000] = None /\
  gauge_run ex_cfg blk_init enabled_gauge_init [BDisable 5000000000 [] 0; BFire 6000000000] = Some (s1, 0%N) /\
  gauge_run ex_cfg blk_init enabled_gauge_init [BDisable 5000000000 [] 0; BFire 6000000000; BCallback] = Some (s2, 1%N).
Proof. do 2 eexists. repeat split; vm_compute; reflexivity. Qed.

(** The gauge is 0 though another group is still blocking. *)
Theorem C123_groups_refuted : exists cfg es s g, gauge_run cfg blk_init enabled_gauge_init es = Some (s, 0%N) /\
  In g (map fst (bc_deny cfg)) /\ ~ In g (bt_disabled s).
Proof.
  exists ex_cfg, [BDisable 0 [$"ads"] 0]. eexists. exists $"adult". split; [vm_compute; reflexivity|]. split; [cbn; auto|].
  cbn. intros [H|[]]. discriminate.
Qed.
Print Assumptions C123_groups_refuted.

(** ** C124: the gauges of the lists *)
Definition job_group (j : list_job) : list str :=
  match j with JLoading g | JLoaded g | JCounted g _ => [g] | JDone => [] end.

Lemma busy_iff s g : busy s g <-> In g (flat_map job_group (ls_jobs s)).
Proof.
  unfold busy. rewrite in_flat_map. split; intros [j [Hj H]]; exists j; (split; [exact Hj|]).
  - destruct H as [->|[->|[n ->]]]; now left.
  - destruct j; cbn in H; try tauto; destruct H as [->|[]]; eauto.
Qed.

Section Lists.
Variable compile : str -> option (str -> bool).

Lemma count_finish_other c g fs g' : g <> g' ->
  StringCache.c_element_count (StringCache.c_finish c g fs) g' = StringCache.c_element_count c g'.
Proof.
  intros Hn. unfold StringCache.c_finish. generalize (length c) as k. intros k. revert k fs.
  induction c as [|x c IH]; intros [|k] [|f fs]; cbn [StringCache.c_finish_upto]; auto.
  unfold StringCache.c_element_count in *. cbn [fold_right]. rewrite IH. f_equal. unfold StringCache.g_element_count.
  rewrite StringCacheProofs.g_finish_get. destruct (str_eqb_spec g g'); [congruence|reflexivity].
Qed.

Lemma create_count c g es err c' failed : StringCache.create_cache_for_group compile c g es err = StringCache.Ok (c', failed) ->
  (failed = true -> c' = c) /\ forall g', g <> g' -> StringCache.c_element_count c' g' = StringCache.c_element_count c g'.
Proof.
  unfold StringCache.create_cache_for_group. destruct (StringCache.add_entries _ _ _ _) as [[fs has]|]; [|discriminate].
  destruct err; [| |destruct has]; intros [= <- <-]; split; auto; try discriminate; intros; now apply count_finish_other.
Qed.

Definition tells (gauge : list (str * nat)) (c : StringCache.chained) (g : str) : Prop :=
  match mget str_eqb g gauge with
  | Some n => n = StringCache.c_element_count c g
  | None => StringCache.c_element_count c g = 0
  end.

Record lists_ok (s : lists_state) : Prop := {
  lo_alone : NoDup (flat_map job_group (ls_jobs s));
  lo_counted : forall g n, In (JCounted g n) (ls_jobs s) -> n = StringCache.c_element_count (ls_cache s) g;
  lo_gauge : forall g, ~ In (JLoaded g) (ls_jobs s) -> (forall n, ~ In (JCounted g n) (ls_jobs s)) -> tells (ls_gauge s) (ls_cache s) g }.

Lemma set_job_split i j l a : nth_error l i = Some a -> exists l1 l2, l = l1 ++ a :: l2 /\ set_job i j l = l1 ++ j :: l2.
Proof.
  intros H. apply nth_error_split in H as [l1 [l2 [-> Hl]]]. exists l1, l2. split; auto. unfold set_job. subst i.
  rewrite firstn_app, firstn_all, Nat.sub_diag, app_nil_r. change (firstn 0 (a :: l2)) with (@nil list_job). rewrite ?app_nil_r.
  f_equal. f_equal. rewrite skipn_app, skipn_all2 by lia. replace (S (length l1) - length l1) with 1 by lia. reflexivity.
Qed.

Lemma other_group l1 a l2 g j : NoDup (flat_map job_group (l1 ++ a :: l2)) -> In g (job_group a) -> In j (l1 ++ l2) -> ~ In g (job_group j).
Proof.
  rewrite flat_map_app. cbn [flat_map]. intros Hn Ha Hj Hg. 
  assert (In g (flat_map job_group l1 ++ flat_map job_group l2)) as Hi.
  { rewrite <- flat_map_app. apply in_flat_map. eauto. }
  apply in_split in Ha as [x [y E]]. rewrite E, <- app_assoc in Hn. cbn [app] in Hn.
  rewrite app_assoc in Hn. apply NoDup_remove_2 in Hn. apply Hn. apply in_app_or in Hi as [Hi|Hi]; repeat rewrite in_app_iff; auto.
Qed.

Lemma lists_step_ok s o s' : lists_ok s -> (forall g, o = LStart g -> ~ busy s g) -> lists_step compile s o = Some s' -> lists_ok s'.
Proof.
  intros [H1 H2 H3] Hb. destruct o as [g|i es err|i|i now]; cbn [lists_step].
  - intros [= <-]. specialize (Hb g eq_refl). rewrite busy_iff in Hb. constructor; cbn [ls_jobs ls_cache ls_gauge].
    + rewrite flat_map_app. cbn. apply (Permutation_NoDup (l := g :: flat_map job_group (ls_jobs s))); [|constructor; auto].
      apply Permutation_cons_append.
    + intros g' n Hi. apply in_app_or in Hi as [Hi|[Hi|[]]]; [eauto|discriminate].
    + intros g' A1 A2. apply H3; [intros Hi; apply A1|intros n Hi; apply (A2 n)]; apply in_or_app; now left.
  - destruct (nth_error (ls_jobs s) i) as [[g|g|g n|]|] eqn:En; try discriminate.
    destruct (StringCache.create_cache_for_group compile (ls_cache s) g es err) as [[c failed]|] eqn:Ec; [|discriminate]. intros [= <-].
    destruct (create_count _ _ _ _ _ _ Ec) as [Hf Ho].
    destruct (set_job_split i (if failed then JDone else JLoaded g) _ _ En) as [l1 [l2 [El Es]]]. rewrite El in *.
    assert (forall j, In j (l1 ++ l2) -> ~ In g (job_group j)) as Hot by (intros j; apply (other_group _ _ _ _ _ H1); now left).
    constructor; cbn [ls_jobs ls_cache ls_gauge]; rewrite Es.
    + rewrite flat_map_app in H1 |- *. cbn [flat_map job_group app] in H1 |- *. destruct failed; cbn [job_group app]; [|exact H1].
      apply NoDup_remove_1 in H1. exact H1.
    + intros g' n Hi. assert (In (JCounted g' n) (l1 ++ l2)) as Hi'.
      { apply in_app_or in Hi as [Hi|[Hi|Hi]]; [| destruct failed; discriminate|]; apply in_or_app; auto. }
      rewrite Ho; [apply H2; apply in_app_or in Hi' as [?|?]; apply in_or_app; cbn; auto|]. intros ->. apply (Hot _ Hi'). now left.
    + intros g' A1 A2. destruct (list_eq_dec ascii_dec g g') as [<-|Hn].
      * destruct failed; [|exfalso; apply A1; apply in_or_app; right; now left]. rewrite (Hf eq_refl). apply H3.
        -- intros Hi. apply in_app_or in Hi as [Hi|[Hi|Hi]]; [|discriminate|];
             (apply (Hot (JLoaded g)); [apply in_or_app; auto|now left]).
        -- intros n Hi. apply in_app_or in Hi as [Hi|[Hi|Hi]]; [|discriminate|];
             (apply (Hot (JCounted g n)); [apply in_or_app; auto|now left]).
      * unfold tells. rewrite (Ho g' Hn). apply H3.
        -- intros Hi. apply A1. apply in_app_or in Hi as [Hi|[Hi|Hi]]; [|discriminate|]; apply in_or_app; cbn; auto.
        -- intros n Hi. apply (A2 n). apply in_app_or in Hi as [Hi|[Hi|Hi]]; [|discriminate|]; apply in_or_app; cbn; auto.
  - destruct (nth_error (ls_jobs s) i) as [[g|g|g n|]|] eqn:En; try discriminate. intros [= <-].
    destruct (set_job_split i (JCounted g (StringCache.c_element_count (ls_cache s) g)) _ _ En) as [l1 [l2 [El Es]]]. rewrite El in *.
    constructor; cbn [ls_jobs ls_cache ls_gauge]; rewrite Es.
    + rewrite flat_map_app in H1 |- *. exact H1.
    + intros g' n Hi. apply in_app_or in Hi as [Hi|[Hi|Hi]]; [apply H2; apply in_or_app; auto|congruence|apply H2; apply in_or_app; cbn; auto].
    + intros g' A1 A2. apply H3.
      * intros Hi. apply in_app_or in Hi as [Hi|[Hi|Hi]].
        -- apply A1. apply in_or_app; auto.
        -- injection Hi as ->. eapply A2. apply in_or_app. right. now left.
        -- apply A1. apply in_or_app; cbn; auto.
      * intros n Hi. apply (A2 n). apply in_app_or in Hi as [Hi|[Hi|Hi]]; [|discriminate|]; apply in_or_app; cbn; auto.
  - destruct (nth_error (ls_jobs s) i) as [[g|g|g n|]|] eqn:En; try discriminate. intros [= <-].
    destruct (set_job_split i JDone _ _ En) as [l1 [l2 [El Es]]]. rewrite El in *.
    assert (forall j, In j (l1 ++ l2) -> ~ In g (job_group j)) as Hot by (intros j; apply (other_group _ _ _ _ _ H1); now left).
    constructor; cbn [ls_jobs ls_cache ls_gauge]; rewrite Es.
    + rewrite flat_map_app in H1 |- *. cbn [flat_map job_group app] in H1 |- *. now apply NoDup_remove_1 in H1.
    + intros g' n' Hi. apply in_app_or in Hi as [Hi|[Hi|Hi]]; [apply H2; apply in_or_app; auto|discriminate|apply H2; apply in_or_app; cbn; auto].
    + intros g' A1 A2. unfold tells. rewrite mget_mput. destruct (str_eqb_spec g g') as [<-|Hn].
      * apply H2. apply in_or_app. right. now left.
      * apply H3.
        -- intros Hi. apply A1. apply in_app_or in Hi as [Hi|[Hi|Hi]]; [|discriminate|]; apply in_or_app; cbn; auto.
        -- intros n' Hi. apply in_app_or in Hi as [Hi|[Hi|Hi]]; [|congruence|]; apply (A2 n'); apply in_or_app; cbn; auto.
Qed.

Lemma lists_run_app s a b : lists_run compile s (a ++ b) = match lists_run compile s a with Some s' => lists_run compile s' b | None => None end.
Proof. revert s. induction a as [|o a IH]; intros s; cbn [app lists_run]; auto. destruct (lists_step compile s o); auto. Qed.

Lemma lists_run_ok ops : forall s, one_at_a_time compile ops -> lists_run compile lists_init ops = Some s -> lists_ok s.
Proof.
  induction ops as [|o ops IH] using rev_ind; intros s Ho.
  - intros [= <-]. constructor; cbn; [constructor|tauto|]. intros g _ _. reflexivity.
  - rewrite lists_run_app. destruct (lists_run compile lists_init ops) as [s0|] eqn:E; [|discriminate]. cbn [lists_run].
    destruct (lists_step compile s0 o) as [s1|] eqn:Es; [|discriminate]. intros [= <-].
    refine (lists_step_ok s0 o s1 _ _ Es); [|intros g ->; exact (Ho ops g [] s0 eq_refl E)].
    apply IH; auto. intros pre g post s2 -> . apply (Ho pre g (post ++ [o])). now rewrite <- app_assoc.
Qed.
End Lists.

(** Missing from the full claim: refreshes of the same group at the same time; see the refutation. *)
Theorem C124_gauge_partial : forall compile ops s g, one_at_a_time compile ops -> lists_run compile lists_init ops = Some s -> ~ busy s g ->
  match mget str_eqb g (ls_gauge s) with
  | Some n => n = StringCache.c_element_count (ls_cache s) g
  | None => StringCache.c_element_count (ls_cache s) g = 0
  end.
Proof.
  intros compile ops s g Ho Hr Hb. destruct (lists_run_ok compile ops s Ho Hr) as [_ _ H]. apply H.
  - intros Hi. apply Hb. exists (JLoaded g). auto.
  - intros n Hi. apply Hb. exists (JCounted g n). eauto.
Qed.
Print Assumptions C124_gauge_partial.

(** Where the lists contain plain names only, the number of entries is the number of different names. *)
Lemma seq_nodup_concat (m : list (nat * list str)) : NoDup (map fst m) ->
  (forall n l, In (n, l) m -> NoDup l /\ forall x, In x l -> length x = n) -> NoDup (concat (map snd m)).
Proof.
  induction m as [|[n l] m IH]; cbn; intros Hn Hl; [constructor|]. inversion Hn as [|? ? Ha Hn']; subst.
  assert (NoDup (concat (map snd m))) as Hm by (apply IH; auto).
  destruct (Hl n l (or_introl eq_refl)) as [H1 H2]. clear IH Hn. induction H1 as [|x l Hx Hlx IHl]; cbn [app]; auto.
  constructor.
  - rewrite in_app_iff. intros [Hi|Hi]; auto. apply in_concat in Hi as [l' [Hl' Hi]]. apply in_map_iff in Hl' as [[n' l''] [<- Hin]].
    cbn in Hi. destruct (Hl n' l'' (or_intror Hin)) as [_ H3]. apply Ha. apply in_map_iff. exists (n', l''). split; auto. cbn.
    rewrite <- (H3 x Hi). apply H2. now left.
  - apply IHl.
    + intros n' l' [[= <- <-]|Hin].
      * split; auto. intros y Hy. apply H2. now right.
      * apply Hl. now right.
    + intros y Hy. apply H2. now right.
Qed.

Lemma sm_count_concat (m : list (nat * list str)) : (forall n l, In (n, l) m -> n <> 0 /\ forall x, In x l -> length x = n) ->
  StringCache.sm_element_count (map (fun kv => (fst kv, concat (snd kv))) m) = length (concat (map snd m)).
Proof.
  unfold StringCache.sm_element_count. induction m as [|[n l] m IH]; cbn [map fold_right concat]; intros H; auto.
  rewrite IH by (intros; apply H; now right). cbn [fst snd]. rewrite app_length. f_equal.
  destruct (H n l (or_introl eq_refl)) as [Hn Hl]. rewrite (StringCacheProofs.concat_length n l Hl). now apply Nat.div_mul.
Qed.

Lemma sorted_nodup l : StronglySorted str_lt l -> NoDup l.
Proof.
  intros H. induction H as [|x l Hs IH Hx]; constructor; auto. intros Hi. rewrite Forall_forall in Hx. specialize (Hx x Hi).
  unfold str_lt in Hx. rewrite str_ltb_irrefl in Hx. discriminate.
Qed.

Section Names.
Variable compile : str -> option (str -> bool).

Lemma add_plain r w t e : StringCacheProofs.sf_inv t -> plain_entry e ->
  exists t', StringCache.c_add_entry compile (StringCacheProofs.three r w t) e = StringCache.Ok (StringCacheProofs.three r w t', true) /\
  StringCacheProofs.sf_inv t' /\ forall x, StringCacheProofs.sf_holds t' x <-> StringCacheProofs.sf_holds t x \/ (e <> [] /\ x = to_lower e).
Proof.
  intros Ht [Hs [H1 Hr]]. destruct (StringCacheProofs.sf_add_spec t e Ht) as [Hi Hh].
  exists (fst (StringCache.sf_add_entry t e)). split; [|split; auto].
  unfold StringCacheProofs.three at 1. cbn [StringCache.c_add_entry StringCache.cf_add_entry].
  assert (StringCache.rf_add_entry compile r e = StringCache.Ok (r, false)) as ->.
  { unfold StringCache.rf_add_entry. destruct (negb _ || negb _) eqn:E; auto. exfalso.
    destruct (Nat.le_gt_cases 2 (length e)) as [Hl|Hl].
    - destruct (proj2 (StringCacheProofs.regex_entry_iff e) (conj E Hl)) as [p Hp]. exact (Hr p Hp).
    - apply orb_false_iff in E as [E _]. apply negb_false_iff, has_prefix_spec in E as [t' ->]. apply H1. destruct t'; [reflexivity|]. cbn in Hl. lia. }
  unfold StringCache.wf_add_entry. replace (count_byte star e =? 0) with true.
  - destruct (StringCache.sf_add_entry t e) as [t' b] eqn:E. assert (b = true) as -> by (unfold StringCache.sf_add_entry in E; destruct e; congruence).
    reflexivity.
  - symmetry. apply Nat.eqb_eq. now apply count_byte_0.
Qed.

Lemma add_plain_all es : forall r w t has, StringCacheProofs.sf_inv t -> Forall plain_entry es ->
  exists t' has', StringCache.add_entries compile (StringCacheProofs.three r w t) has es = StringCache.Ok (StringCacheProofs.three r w t', has') /\
  StringCacheProofs.sf_inv t' /\ forall x, StringCacheProofs.sf_holds t' x <-> StringCacheProofs.sf_holds t x \/ (x <> [] /\ In x (map to_lower es)).
Proof.
  induction es as [|e es IH]; intros r w t has Ht He; cbn [StringCache.add_entries].
  - exists t, has. split; auto. split; auto. intros x. cbn. tauto.
  - inversion He as [|? ? He1 He2]; subst. destruct (add_plain r w t e Ht He1) as [t1 [-> [H1 H2]]].
    destruct (IH r w t1 (has || true) H1 He2) as [t2 [h2 [-> [H3 H4]]]]. exists t2, h2. split; auto. split; auto.
    intros x. rewrite H4, H2. cbn [map In]. assert (x = to_lower e -> (e <> [] <-> x <> [])) as Hx by (intros ->; destruct e; cbn; intuition discriminate).
    split.
    + intros [[H|[A B]]|[A B]]; auto. right. apply Hx in A; auto.
    + intros [H|[A [B|B]]]; auto. left. right. symmetry in B. apply Hx in A; auto.
Qed.

Lemma sf_tmp_names t : StringCacheProofs.sf_inv t ->
  NoDup (concat (map snd (StringCache.sf_tmp t))) /\
  (forall x, In x (concat (map snd (StringCache.sf_tmp t))) <-> StringCacheProofs.sf_holds t x) /\
  match StringCache.sf_create t with Some m => StringCache.sm_element_count m | None => 0 end = length (concat (map snd (StringCache.sf_tmp t))).
Proof.
  intros [Hn Hi].
  assert (forall n l, In (n, l) (StringCache.sf_tmp t) -> mget Nat.eqb n (StringCache.sf_tmp t) = Some l) as Hg.
  { intros n l. apply (gmget_NoDup_In Nat.eqb Nat.eqb_spec _ _ _ Hn). }
  split; [|split].
  - apply seq_nodup_concat; auto. intros n l Hin. destruct (Hi n l (Hg n l Hin)) as [H1 [_ [_ H2]]]. split; auto. now apply sorted_nodup.
  - intros x. unfold StringCacheProofs.sf_holds, StringCache.sf_bucket. rewrite in_concat. split.
    + intros [l [Hl Hx]]. apply in_map_iff in Hl as [[n l'] [<- Hin]]. cbn in Hx. pose proof (Hg n l' Hin) as E. destruct (Hi n l' E) as [_ [_ [_ H2]]].
      rewrite (H2 x Hx). now rewrite E.
    + destruct (mget Nat.eqb (length x) (StringCache.sf_tmp t)) as [l|] eqn:E; [|intros []]. intros Hx. exists l. split; auto.
      apply (gmget_In Nat.eqb Nat.eqb_spec) in E. apply in_map_iff. now exists (length x, l).
  - unfold StringCache.sf_create. destruct (StringCache.sf_tmp t) as [|p l] eqn:E; [reflexivity|].
    change (fst p, concat (snd p)) with ((fun kv => (fst kv, concat (snd kv))) p). rewrite <- (sm_count_concat (p :: l)); [reflexivity|].
    intros n l0 Hin. destruct (Hi n l0) as [_ [_ H2]]; auto.
Qed.
End Names.

Theorem C124_names : forall compile ops c g es err c',
  StringCache.run_loads compile StringCache.new_list_cache ops = StringCache.Ok c -> Forall plain_entry es ->
  StringCache.create_cache_for_group compile c g es err = StringCache.Ok (c', false) ->
  exists names, NoDup names /\ (forall x, In x names <-> x <> [] /\ In x (map to_lower es)) /\
  StringCache.c_element_count c' g = length names.
Proof.
  intros compile ops c g es err c' Hr He Hc.
  assert (StringCacheProofs.lc_shape c) as Hs.
  { assert (forall ops c0, StringCacheProofs.lc_shape c0 -> StringCache.run_loads compile c0 ops = StringCache.Ok c -> StringCacheProofs.lc_shape c) as H.
    { clear. induction ops as [|[g [es err]] ops IH]; intros c0 H0; cbn [StringCache.run_loads]; [congruence|].
      destruct (StringCache.create_cache_for_group compile c0 g es err) as [[c1 b]|] eqn:E; [|discriminate]. apply IH.
      unfold StringCache.create_cache_for_group in E. destruct (StringCache.add_entries _ _ _ _) as [[fs has]|]; [|discriminate].
      destruct err; [| |destruct has]; injection E as <- _; auto; unfold StringCacheProofs.lc_shape; rewrite StringCacheProofs.c_finish_kinds; exact H0. }
    exact (H ops _ StringCacheProofs.lc_shape_new Hr). }
  unfold StringCache.create_cache_for_group in Hc. rewrite (StringCacheProofs.lc_refresh c Hs) in Hc.
  destruct (add_plain_all compile es [] StringCache.new_wildcard_factory StringCache.new_string_factory false StringCacheProofs.sf_inv_new He)
    as [t [has [Ea [Ht Hh]]]]. rewrite Ea in Hc.
  assert (c' = StringCache.c_finish c g (StringCacheProofs.three [] StringCache.new_wildcard_factory t)) as ->.
  { destruct err; [| |destruct has]; injection Hc; congruence. }
  clear Hc. destruct (sf_tmp_names t Ht) as [H1 [H2 H3]]. exists (concat (map snd (StringCache.sf_tmp t))). split; auto. split.
  - intros x. rewrite H2, Hh. pose proof (StringCacheProofs.sf_holds_new x). tauto.
  - rewrite <- H3. destruct c as [|c1 [|c2 [|c3 [|? ?]]]]; try discriminate. unfold StringCache.c_finish. cbn [length StringCache.c_finish_upto StringCacheProofs.three].
    unfold StringCache.c_element_count. cbn [fold_right]. unfold StringCache.g_element_count. rewrite !StringCacheProofs.g_finish_get, str_eqb_refl.
    cbn [StringCache.cf_create StringCache.rf_create StringCache.wf_create StringCache.new_wildcard_factory StringCache.w_cnt Nat.eqb option_map].
    destruct (StringCache.sf_create t); cbn [option_map StringCache.sc_element_count]; lia.
Qed.
Print Assumptions C124_names.

Definition c124_compile (_ : str) : option (str -> bool) := None.
Definition c124_ops : list lists_op :=
  [LStart $"ads"; LStart $"adult"; LLoad 0 [$"a.com"; $"b.com"; $"A.com"] StringCache.NoErr; LCount 0; LLoad 1 [$"x.com"] StringCache.TransientErr;
   LPublish 0 7; LStart $"ads"; LLoad 2 [] StringCache.TransientErr].
Fixpoint in_order compile (s : lists_state) (ops : list lists_op) : bool :=
  match ops with
  | [] => true
  | o :: ops' =>
      match o with LStart g => negb (str_in g (flat_map job_group (ls_jobs s))) | _ => true end &&
      match lists_step compile s o with Some s' => in_order compile s' ops' | None => true end
  end.
Lemma in_order_alone compile ops : forall s0, in_order compile s0 ops = true ->
  forall pre g post s, ops = pre ++ LStart g :: post -> lists_run compile s0 pre = Some s -> ~ busy s g.
Proof.
  induction ops as [|o ops IH]; intros s0 H pre g post s E Hr; [destruct pre; discriminate|]. cbn [in_order] in H. apply andb_true_iff in H as [H1 H2].
  destruct pre as [|o' pre]; injection E as -> E.
  - injection Hr as <-. rewrite busy_iff. apply negb_true_iff in H1. now apply str_in_not_In.
  - cbn [lists_run] in Hr. destruct (lists_step compile s0 o') as [s1|]; [|discriminate]. exact (IH s1 H2 pre g post s E Hr).
Qed.
Example C124_example : exists s, lists_run c124_compile lists_init c124_ops = Some s /\ ls_gauge s = [($"ads", 2)] /\ ~ busy s $"ads" /\
  one_at_a_time c124_compile c124_ops.
Proof.
  eexists. split; [vm_compute; reflexivity|]. split; [reflexivity|]. split; [rewrite busy_iff; vm_compute; tauto|].
  intros pre g post s. apply (in_order_alone c124_compile c124_ops lists_init). vm_compute. reflexivity.
Qed.

(** Two refreshes of the same group at the same time: the gauge stays behind. *)
Theorem C124_overlap_refuted : exists ops s, lists_run c124_compile lists_init ops = Some s /\ (forall g, ~ busy s g) /\
  mget str_eqb $"ads" (ls_gauge s) = Some 1 /\ StringCache.c_element_count (ls_cache s) $"ads" = 2.
Proof.
  exists [LStart $"ads"; LLoad 0 [$"a.com"] StringCache.NoErr; LCount 0; LStart $"ads"; LLoad 1 [$"a.com"; $"b.com"] StringCache.NoErr; LCount 1; LPublish 1 7; LPublish 0 8].
  eexists. split; [vm_compute; reflexivity|]. split; [|split; vm_compute; reflexivity]. intros g. rewrite busy_iff. vm_compute. tauto.
Qed.
Print Assumptions C124_overlap_refuted.

(** A wildcard which is twice in the list counts twice. *)
Theorem C124_wildcard_refuted : exists c, StringCache.create_cache_for_group c124_compile StringCache.new_list_cache $"ads" [$"*.a.com"; $"*.a.com"] StringCache.NoErr
  = StringCache.Ok (c, false) /\ StringCache.c_element_count c $"ads" = 2.
Proof. eexists. split; vm_compute; reflexivity. Qed.
Print Assumptions C124_wildcard_refuted.

(** ** C125: blocky_cache_entries *)
Lemma set_put_split i j l a : nth_error l i = Some a -> exists l1 l2, l = l1 ++ a :: l2 /\ set_put i j l = l1 ++ j :: l2.
Proof.
  intros H. apply nth_error_split in H as [l1 [l2 [-> Hl]]]. exists l1, l2. split; auto. unfold set_put. subst i.
  rewrite firstn_app, firstn_all, Nat.sub_diag. change (firstn 0 (a :: l2)) with (@nil put_job). rewrite app_nil_r.
  f_equal. f_equal. rewrite skipn_app, skipn_all2 by lia. replace (S (length l1) - length l1) with 1 by lia. reflexivity.
Qed.

Section Entries.
Context {T : Type}.
Variables size bsize : nat.
Hypothesis size_pos : 1 <= size.
Implicit Types (s : entries_state T) (o : op T) (ops : list (entries_op T)).

Lemma adds_iff o : adds o = true <-> stores_element o.
Proof.
  split.
  - destruct o as [k v ttl now| | | | | |k [[v ttl]|] now|]; cbn [adds]; try discriminate; intros H; constructor; now apply Z.ltb_lt.
  - intros [k v ttl now H|k v ttl now H]; cbn; now apply Z.ltb_lt.
Qed.

Definition mains ops : list (op T) := flat_map (fun e => match e with EMain o => [o] | _ => [] end) ops.

Lemma entries_run_app s a b : entries_run size bsize s (a ++ b) =
  match entries_run size bsize s a with Some s' => entries_run size bsize s' b | None => None end.
Proof. revert s. induction a as [|o a IH]; intros s; cbn [app entries_run]; auto. destruct (entries_step size bsize s o); auto. Qed.

Lemma entries_main ops : forall s s', entries_run size bsize s ops = Some s' -> run size (es_main s) (mains ops) = Some (es_main s').
Proof.
  induction ops as [|o ops IH]; intros s s'; cbn [entries_run]; [intros [= <-]; reflexivity|].
  destruct (entries_step size bsize s o) as [s1|] eqn:E; [|discriminate]. intros H. apply IH in H. revert E.
  destruct o as [o|o|i|i]; cbn [entries_step mains flat_map app].
  - destruct (step size (es_main s) o) as [[m r]|] eqn:Es; [|discriminate]. destruct (count_get r _ _). intros [= <-]. cbn [run]. rewrite Es. exact H.
  - destruct (step bsize (es_boot s) o) as [[m r]|]; [|discriminate]. destruct (count_get r _ _). intros [= <-]. exact H.
  - destruct (nth_error _ i) as [[| |]|]; try discriminate. intros [= <-]. exact H.
  - destruct (nth_error _ i) as [[| |]|]; try discriminate. intros [= <-]. exact H.
Qed.

Lemma entries_nodup ops s : entries_run size bsize entries_init ops = Some s ->
  NoDup (map fst (st_lru (es_main s))) /\ length (st_lru (es_main s)) <= size.
Proof.
  intros H. apply entries_main in H. destruct (run_inv size size_pos _ _ H) as [H1 H2 _ _ _]. auto.
Qed.

(** A step that stores nothing does not make the cache larger; if it drops nothing the size is the same. *)
Lemma step_size (s s' : cstate T) o r : NoDup (map fst (st_lru s)) -> adds o = false -> step size s o = Some (s', r) ->
  length (st_lru s') <= length (st_lru s) /\ (~ drops_element o -> length (st_lru s') = length (st_lru s)).
Proof.
  intros Hn Ha. destruct o as [k v ttl now|k now| | | |k now|k [[v ttl]|] now|k]; cbn [step adds] in *.
  - intros [= <- _]. cbn [set_lru st_lru]. unfold ec_put. replace (ttl <=? 0)%Z with true; [auto|]. symmetry. apply Z.leb_le. now apply Z.ltb_ge in Ha.
  - unfold ec_get, lru_get. destruct (mget str_eqb k (st_lru s)) as [e|] eqn:E; intros [= <- _]; cbn [set_lru st_lru]; auto.
    cbn [length]. rewrite length_mdel; auto. apply mget_In in E. apply in_map_iff. now exists (k, e).
  - intros [= <- _]. cbn. split; [lia|]. intros H. elim H. constructor.
  - intros [= <- _]. auto.
  - destruct (st_cleaner s); try discriminate. intros [= <- _]. auto.
  - destruct (st_cleaner s) as [|[|k' todo] ex| |]; try discriminate. destruct (str_eqb k k'); [|discriminate]. intros [= <- _]. auto.
  - destruct (st_cleaner s) as [| |[|k' todo] del|]; try discriminate. destruct (str_eqb k k'); [|discriminate]. intros [= <- _].
    cbn [set_lru st_lru set_cleaner]. unfold ec_put. replace (ttl <=? 0)%Z with true; [auto|]. symmetry. apply Z.leb_le. now apply Z.ltb_ge in Ha.
  - destruct (st_cleaner s) as [| |[|k' todo] del|]; try discriminate. destruct (str_eqb k k'); [|discriminate]. intros [= <- _]. auto.
  - destruct (st_cleaner s) as [| | |[|k' del]]; try discriminate. destruct (str_eqb k k'); [|discriminate]. intros [= <- _].
    cbn [set_lru st_lru set_cleaner]. split; [|intros H; elim H; constructor]. apply sub_length, sub_mdel.
Qed.

Definition open_puts (l : list put_job) : list put_job := filter (fun p => match p with PDone => false | _ => true end) l.

Lemma untold_iff s : untold s <-> open_puts (es_puts s) <> [].
Proof.
  unfold untold, open_puts. split.
  - intros [p [Hp Hn]] E. assert (In p []) as []. rewrite <- E. apply filter_In. split; auto. destruct p; auto; congruence.
  - destruct (filter _ _) as [|p l] eqn:E; [congruence|]. intros _. assert (In p (p :: l)) as H by now left. rewrite <- E in H.
    apply filter_In in H as [H1 H2]. exists p. split; auto. intros ->. discriminate.
Qed.

(** What the gauge, or the value about to be told, says about the size [n]; [R] compares them. *)
Definition gauge_fits (R : nat -> nat -> Prop) s : Prop :=
  match open_puts (es_puts s) with
  | [] => R (length (st_lru (es_main s))) (es_gauge s)
  | [PCounted n] => R (length (st_lru (es_main s))) n
  | [_] => True
  | _ => False
  end.

Lemma open_puts_split i l j a : nth_error l i = Some a -> a <> PDone -> forall x, open_puts l = [x] ->
  x = a /\ open_puts (set_put i j l) = match j with PDone => [] | _ => [j] end.
Proof.
  intros Hn Ha x. destruct (set_put_split i j l a Hn) as [l1 [l2 [-> ->]]]. unfold open_puts. rewrite !filter_app. cbn [filter].
  destruct (filter _ l1) as [|b l1'] eqn:E1; [|intros E; exfalso; destruct l1'; cbn in E; destruct a; try congruence; discriminate].
  cbn [app]. destruct a; try congruence; intros [= <- E2]; rewrite E2; split; auto; destruct j; reflexivity.
Qed.

Lemma fits_step (R : nat -> nat -> Prop) s e s' : (forall n, R n n) ->
  (forall n a b, b <= a -> R a n -> R b n) \/ (forall o, e = EMain o -> ~ drops_element o) ->
  NoDup (map fst (st_lru (es_main s))) -> (forall o, e = EMain o -> ~ stores_element o) ->
  gauge_fits R s -> entries_step size bsize s e = Some s' -> gauge_fits R s'.
Proof.
  intros Hrefl Hmon Hn Hs Hf E. destruct e as [o|o|i|i]; cbn [entries_step] in E.
  - destruct (step size (es_main s) o) as [[m r]|] eqn:Es; [|discriminate]. destruct (count_get r _ _). injection E as <-.
    assert (adds o = false) as Ha by (destruct (adds o) eqn:X; auto; apply adds_iff in X; elim (Hs o eq_refl X)). rewrite Ha.
    destruct (step_size _ _ _ _ Hn Ha Es) as [H1 H2]. unfold gauge_fits in *. cbn [es_puts es_main es_gauge].
    assert (forall n, R (length (st_lru (es_main s))) n -> R (length (st_lru m)) n) as HR.
    { intros x. destruct Hmon as [Hmon|Hd]; [apply Hmon; exact H1|]. now rewrite (H2 (Hd o eq_refl)). }
    destruct (open_puts (es_puts s)) as [|[| |] [|? ?]]; auto.
  - destruct (step bsize (es_boot s) o) as [[m r]|]; [|discriminate]. destruct (count_get r _ _). injection E as <-. exact Hf.
  - destruct (nth_error (es_puts s) i) as [[| |]|] eqn:En; try discriminate. injection E as <-. unfold gauge_fits in *. cbn [es_puts es_main es_gauge].
    destruct (open_puts (es_puts s)) as [|x [|? ?]] eqn:Eo.
    + exfalso. assert (untold s) as Hu by (exists PAdded; split; [eapply nth_error_In; eauto|discriminate]). apply untold_iff in Hu. congruence.
    + destruct (open_puts_split i _ (PCounted (length (st_lru (es_main s)))) _ En ltac:(discriminate) x Eo) as [_ ->]. apply Hrefl.
    + destruct x; contradiction.
  - destruct (nth_error (es_puts s) i) as [[|n|]|] eqn:En; try discriminate. injection E as <-. unfold gauge_fits in *. cbn [es_puts es_main es_gauge].
    destruct (open_puts (es_puts s)) as [|x [|? ?]] eqn:Eo.
    + exfalso. assert (untold s) as Hu by (exists (PCounted n); split; [eapply nth_error_In; eauto|discriminate]). apply untold_iff in Hu. congruence.
    + destruct (open_puts_split i _ PDone _ En ltac:(discriminate) x Eo) as [-> ->]. exact Hf.
    + destruct x; contradiction.
Qed.

Lemma stored_step (R : nat -> nat -> Prop) s o s' : stores_element o -> ~ untold s -> entries_step size bsize s (EMain o) = Some s' -> gauge_fits R s'.
Proof.
  intros Ha Hu. apply adds_iff in Ha. cbn [entries_step]. destruct (step size (es_main s) o) as [[m r]|]; [|discriminate]. destruct (count_get r _ _).
  rewrite Ha. intros [= <-]. unfold gauge_fits. cbn [es_puts]. unfold open_puts. rewrite filter_app. cbn [filter].
  destruct (filter _ (es_puts s)) eqn:E; [exact I|]. exfalso. apply Hu. apply untold_iff. unfold open_puts. rewrite E. discriminate.
Qed.

Lemma fits_all ops : forall s, puts_in_turn size bsize ops -> entries_run size bsize entries_init ops = Some s -> gauge_fits le s.
Proof.
  induction ops as [|e ops IH] using rev_ind; intros s Ht.
  - intros [= <-]. cbn. lia.
  - rewrite entries_run_app. destruct (entries_run size bsize entries_init ops) as [s0|] eqn:E; [|discriminate]. cbn [entries_run].
    destruct (entries_step size bsize s0 e) as [s1|] eqn:Es; [|discriminate]. intros [= <-].
    assert (gauge_fits le s0) as H0.
    { apply IH; auto. intros pre o post s2 -> Ho. apply (Ht pre o (post ++ [e])); auto. now rewrite <- app_assoc. }
    assert ((exists o, e = EMain o /\ stores_element o) \/ (forall o, e = EMain o -> ~ stores_element o)) as [[o [-> Ho]]|Hn].
    { destruct e as [o|o|i|i]; try (right; discriminate). destruct (adds o) eqn:X.
      - left. exists o. split; auto. now apply adds_iff.
      - right. intros o' [= <-] Hs. apply adds_iff in Hs. congruence. }
    + refine (stored_step le s0 o s1 Ho _ Es). apply (Ht ops o [] s0); auto.
    + refine (fits_step le s0 e s1 le_n _ _ Hn H0 Es); [left; intros; lia|]. exact (proj1 (entries_nodup _ _ E)).
Qed.
End Entries.

(** Missing from the full claim: calls of Put at the same time, and that the gauge is the size also after elements were
    dropped; see the refutations. *)
Theorem C125_at_least_partial : forall T size bsize (ops : list (entries_op T)) s, 1 <= size -> puts_in_turn size bsize ops ->
  entries_run size bsize entries_init ops = Some s -> ~ untold s -> length (st_lru (es_main s)) <= es_gauge s.
Proof.
  intros T size bsize ops s Hs Ht Hr Hu. pose proof (fits_all size bsize Hs ops s Ht Hr) as H. unfold gauge_fits in H.
  destruct (open_puts (es_puts s)) eqn:E; auto. exfalso. apply Hu. apply untold_iff. congruence.
Qed.
Print Assumptions C125_at_least_partial.

(** Equal, as long as nothing was dropped since the last element was stored. *)
Theorem C125_exact_partial : forall T size bsize (pre post : list (entries_op T)) o s, 1 <= size ->
  puts_in_turn size bsize (pre ++ EMain o :: post) -> stores_element o ->
  (forall o', In (EMain o') post -> ~ stores_element o' /\ ~ drops_element o') ->
  entries_run size bsize entries_init (pre ++ EMain o :: post) = Some s -> ~ untold s -> es_gauge s = length (st_lru (es_main s)).
Proof.
  intros T size bsize pre post o s Hs Ht Ho. revert s. induction post as [|e post IH] using rev_ind; intros s Hp Hr Hu.
  - rewrite entries_run_app in Hr. destruct (entries_run size bsize entries_init pre) as [s0|] eqn:E; [|discriminate]. cbn [entries_run] in Hr.
    destruct (entries_step size bsize s0 (EMain o)) as [s1|] eqn:Es; [|discriminate]. injection Hr as <-.
    assert (~ untold s0) as H0 by (apply (Ht pre o [] s0); auto).
    pose proof (stored_step size bsize eq s0 o s1 Ho H0 Es) as H. unfold gauge_fits in H.
    destruct (open_puts (es_puts s1)) eqn:Eo; [congruence|]. exfalso. apply Hu. apply untold_iff. congruence.
  - assert (gauge_fits eq s) as H.
    { clear Hu IH. 
      assert (forall l, (forall o', In (EMain o') l -> ~ stores_element o' /\ ~ drops_element o') ->
        forall s, entries_run size bsize entries_init (pre ++ EMain o :: l) = Some s -> gauge_fits eq s) as HH.
      { clear -Hs Ht Ho. intros l. induction l as [|x l IH] using rev_ind; intros Hp s Hr.
        - rewrite entries_run_app in Hr. destruct (entries_run size bsize entries_init pre) as [s0|] eqn:E; [|discriminate]. cbn [entries_run] in Hr.
          destruct (entries_step size bsize s0 (EMain o)) as [s1|] eqn:Es; [|discriminate]. injection Hr as <-.
          refine (stored_step _ _ eq s0 o s1 Ho _ Es). apply (Ht pre o (post ++ [e]) s0); auto.
        - rewrite app_comm_cons, app_assoc, entries_run_app in Hr.
          destruct (entries_run size bsize entries_init (pre ++ EMain o :: l)) as [s0|] eqn:E; [|discriminate]. cbn [entries_run] in Hr.
          destruct (entries_step size bsize s0 x) as [s1|] eqn:Es; [|discriminate]. injection Hr as <-.
          refine (fits_step size bsize Hs eq s0 x s1 (@eq_refl nat) _ _ _ _ Es).
          + right. intros o' ->. apply (Hp o'). apply in_or_app. right. now left.
          + exact (proj1 (entries_nodup size bsize Hs _ _ E)).
          + intros o' ->. apply (Hp o'). apply in_or_app. right. now left.
          + apply IH; auto. intros o' Hi. apply Hp. apply in_or_app. now left. }
      exact (HH _ Hp s Hr). }
    unfold gauge_fits in H. destruct (open_puts (es_puts s)) eqn:Eo; [congruence|]. exfalso. apply Hu. apply untold_iff. congruence.
Qed.
Print Assumptions C125_exact_partial.

(** In any case the gauge does not exceed the configured size. *)
Theorem C125_bounded : forall T size bsize (ops : list (entries_op T)) s, 1 <= size ->
  entries_run size bsize entries_init ops = Some s -> es_gauge s <= size.
Proof.
  intros T size bsize ops s Hs Hr.
  assert (es_gauge s <= size /\ forall n, In (PCounted n) (es_puts s) -> n <= size) as [H _]; auto.
  revert s Hr. induction ops as [|e ops IH] using rev_ind; intros s Hr.
  - injection Hr as <-. cbn. split; [lia|tauto].
  - rewrite entries_run_app in Hr. destruct (entries_run size bsize entries_init ops) as [s0|] eqn:E; [|discriminate]. cbn [entries_run] in Hr.
    destruct (entries_step size bsize s0 e) as [s1|] eqn:Es; [|discriminate]. injection Hr as <-.
    destruct (IH s0 eq_refl) as [H1 H2]. destruct (entries_nodup size bsize Hs _ _ E) as [_ H3].
    destruct e as [o|o|i|i]; cbn [entries_step] in Es.
    + destruct (step size (es_main s0) o) as [[m r]|]; [|discriminate]. destruct (count_get r _ _). injection Es as <-. cbn. split; auto.
      intros x Hi. apply H2. destruct (adds o); auto. apply in_app_or in Hi as [Hi|[Hi|[]]]; [auto|discriminate].
    + destruct (step bsize (es_boot s0) o) as [[m r]|]; [|discriminate]. destruct (count_get r _ _). injection Es as <-. cbn. auto.
    + destruct (nth_error (es_puts s0) i) as [[| |]|] eqn:En; try discriminate. injection Es as <-. cbn [es_gauge es_puts]. split; auto.
      destruct (set_put_split i (PCounted (length (st_lru (es_main s0)))) _ _ En) as [l1 [l2 [El ->]]]. rewrite El in H2.
      intros n Hi. apply in_app_or in Hi as [Hi|[Hi|Hi]]; [apply H2, in_or_app; auto|congruence|apply H2, in_or_app; cbn; auto].
    + destruct (nth_error (es_puts s0) i) as [[|n|]|] eqn:En; try discriminate. injection Es as <-. cbn [es_gauge es_puts].
      destruct (set_put_split i PDone _ _ En) as [l1 [l2 [El ->]]]. split; [apply H2; eapply nth_error_In; eauto|]. rewrite El in H2.
      intros n' Hi. apply in_app_or in Hi as [Hi|[Hi|Hi]]; [apply H2, in_or_app; auto|discriminate|apply H2, in_or_app; cbn; auto].
Qed.
Print Assumptions C125_bounded.

(** Hits and misses together are the lookups in both caches. *)
Lemma step_out_get {T} size (s s' : cstate T) o r : step size s o = Some (s', r) ->
  match o with
  | OGet k _ => exists x, r = RGet x /\ (x <> None <-> In k (map fst (st_lru s)))
  | _ => forall x, r <> RGet x
  end.
Proof.
  destruct o as [k v ttl now|k now| | | |k now|k rr now|k]; cbn [step].
  - intros [= _ <-]. discriminate.
  - unfold ec_get, lru_get. destruct (mget str_eqb k (st_lru s)) as [e|] eqn:E; intros [= _ <-]; eexists; (split; [reflexivity|]).
    + split; [|discriminate]. intros _. apply mget_In in E. apply in_map_iff. now exists (k, e).
    + apply mget_None in E. split; [congruence|]. intros Hi. elim E. exact Hi.
  - intros [= _ <-]. discriminate.
  - intros [= _ <-]. discriminate.
  - destruct (st_cleaner s); try discriminate. intros [= _ <-]. discriminate.
  - destruct (st_cleaner s) as [|[|k' todo] ex| |]; try discriminate. destruct (str_eqb k k'); [|discriminate]. intros [= _ <-]. discriminate.
  - destruct (st_cleaner s) as [| |[|k' todo] del|]; try discriminate. destruct (str_eqb k k'); [|discriminate]. destruct rr as [[v ttl]|]; intros [= _ <-]; discriminate.
  - destruct (st_cleaner s) as [| | |[|k' del]]; try discriminate. destruct (str_eqb k k'); [|discriminate]. intros [= _ <-]. discriminate.
Qed.

Theorem C125_lookups : forall T size bsize (ops : list (entries_op T)) s, entries_run size bsize entries_init ops = Some s ->
  (es_hits s + es_misses s = how_many is_get ops)%N /\
  forall k now s', entries_step size bsize s (EMain (OGet k now)) = Some s' ->
    (In k (map fst (st_lru (es_main s))) -> es_hits s' = es_hits s + 1 /\ es_misses s' = es_misses s)%N /\
    (~ In k (map fst (st_lru (es_main s))) -> es_hits s' = es_hits s /\ es_misses s' = es_misses s + 1)%N.
Proof.
  intros T size bsize ops s Hr. split.
  - revert s Hr. induction ops as [|e ops IH] using rev_ind; intros s Hr; [injection Hr as <-; reflexivity|].
    rewrite entries_run_app in Hr. destruct (entries_run size bsize entries_init ops) as [s0|] eqn:E; [|discriminate]. cbn [entries_run] in Hr.
    destruct (entries_step size bsize s0 e) as [s1|] eqn:Es; [|discriminate]. injection Hr as <-. specialize (IH s0 eq_refl).
    unfold how_many in *. rewrite filter_app, app_length, Nat2N.inj_add, <- IH. cbn [filter].
    destruct e as [o|o|i|i]; cbn [entries_step is_get] in *.
    + destruct (step size (es_main s0) o) as [[m r]|] eqn:Eo; [|discriminate]. apply step_out_get in Eo. destruct (count_get r _ _) as [h ms] eqn:Ec.
      injection Es as <-. cbn [es_hits es_misses]. unfold count_get in Ec.
      destruct o; cbn [length]; try (destruct r; [|exfalso; eapply Eo; reflexivity|]; injection Ec as <- <-; cbn; lia).
      destruct Eo as [x [-> _]]. destruct x; injection Ec as <- <-; cbn; lia.
    + destruct (step bsize (es_boot s0) o) as [[m r]|] eqn:Eo; [|discriminate]. apply step_out_get in Eo. destruct (count_get r _ _) as [h ms] eqn:Ec.
      injection Es as <-. cbn [es_hits es_misses]. unfold count_get in Ec.
      destruct o; cbn [length]; try (destruct r; [|exfalso; eapply Eo; reflexivity|]; injection Ec as <- <-; cbn; lia).
      destruct Eo as [x [-> _]]. destruct x; injection Ec as <- <-; cbn; lia.
    + destruct (nth_error _ i) as [[| |]|]; try discriminate. injection Es as <-. cbn. lia.
    + destruct (nth_error _ i) as [[| |]|]; try discriminate. injection Es as <-. cbn. lia.
  - intros k now s' Es. unfold entries_step in Es. destruct (step size (es_main s) (OGet k now)) as [[m r]|] eqn:Eo; [|discriminate].
    apply step_out_get in Eo as [x [-> Hx]]. destruct x as [x|]; cbn [count_get] in Es; injection Es as <-; cbn [es_hits es_misses]; split; intros H; auto.
    + elim H. apply Hx. discriminate.
    + apply Hx in H. congruence.
Qed.
Print Assumptions C125_lookups.

Definition c125_ops : list (entries_op nat) :=
  [EMain (OGet $"a" 1); EMain (OPut $"a" 1 1000000000 1); ELen 0; EPublish 0; EMain (OPut $"b" 2 1000000000 2); ELen 1; EPublish 1; EMain (OGet $"a" 3)].
Example C125_example : exists s, entries_run 10 10 entries_init c125_ops = Some s /\ es_gauge s = 2 /\ length (st_lru (es_main s)) = 2 /\
  es_hits s = 1%N /\ es_misses s = 1%N.
Proof. eexists. split; [vm_compute; reflexivity|]. repeat split. Qed.

(** After a flush the gauge keeps the old number. *)
Theorem C125_flush_refuted : exists (ops : list (entries_op nat)) s, entries_run 10 10 entries_init ops = Some s /\ ~ untold s /\
  es_gauge s = 2 /\ st_lru (es_main s) = [].
Proof.
  exists (c125_ops ++ [EMain OClear]). eexists. split; [vm_compute; reflexivity|]. split; [|repeat split]. rewrite untold_iff. vm_compute. congruence.
Qed.
Print Assumptions C125_flush_refuted.

(** Two calls of Put at the same time: the gauge shows fewer elements than there are. *)
Theorem C125_overlap_refuted : exists (ops : list (entries_op nat)) s, entries_run 10 10 entries_init ops = Some s /\ ~ untold s /\
  es_gauge s = 1 /\ length (st_lru (es_main s)) = 2.
Proof.
  exists [EMain (OPut $"a" 1 1000000000 1); ELen 0; EMain (OPut $"b" 2 1000000000 2); ELen 1; EPublish 1; EPublish 0].
  eexists. split; [vm_compute; reflexivity|]. split; [|repeat split]. rewrite untold_iff. vm_compute. congruence.
Qed.
Print Assumptions C125_overlap_refuted.

(** Lookups of the bootstrap count as well, though it is said to have no metrics. *)
Theorem C125_bootstrap_refuted : exists (ops : list (entries_op nat)) s, entries_run 10 10 entries_init ops = Some s /\
  es_misses s = 1%N /\ how_many is_main_get ops = 0%N.
Proof. exists [EBoot (OGet $"dns.example" 1)]. eexists. split; [vm_compute; reflexivity|]. split; reflexivity. Qed.
Print Assumptions C125_bootstrap_refuted.

(** ** C126: the counters of queries, responses and errors *)
Lemma labels_eqb_spec a : forall b, labels_eqb a b = true <-> a = b.
Proof.
  induction a as [|x a IH]; intros [|y b]; cbn; try (split; congruence). rewrite andb_true_iff, IH, str_eqb_eq.
  split; [intros [-> ->]; reflexivity|intros [= -> ->]; auto].
Qed.

Lemma labels_reflect a b : reflect (a = b) (labels_eqb a b).
Proof. apply iff_reflect. symmetry. apply labels_eqb_spec. Qed.

Lemma shown_bump k l m : shown (bump k m) l = (shown m l + if labels_eqb k l then 1 else 0)%N.
Proof.
  unfold shown, bump. destruct (labels_eqb k l) eqn:E.
  - apply labels_eqb_spec in E. subst l. rewrite (gmget_mput_same labels_eqb labels_reflect). destruct (mget labels_eqb k m); reflexivity.
  - rewrite (gmget_mput_other labels_eqb labels_reflect); [destruct (mget labels_eqb l m); lia|]. intros ->.
    rewrite (proj2 (labels_eqb_spec l l) eq_refl) in E. discriminate.
Qed.

Lemma sum_bump k m : sum_of (bump k m) = (sum_of m + 1)%N.
Proof.
  unfold bump. induction m as [|[x n] m IH]; cbn [mget mput sum_of fold_right snd]; auto.
  destruct (labels_eqb k x); cbn [sum_of fold_right snd]; [lia|]. unfold sum_of in IH. rewrite IH. lia.
Qed.

Definition weigh (f : increment -> N) (l : list increment) : N := fold_right (fun x acc => (f x + acc)%N) 0%N l.
Definition weigh_all (f : increment -> N) (jobs : list (list increment)) : N := fold_right (fun x acc => (weigh f x + acc)%N) 0%N jobs.

Lemma weigh_all_app f a b : weigh_all f (a ++ b) = (weigh_all f a + weigh_all f b)%N.
Proof. induction a as [|x a IH]; cbn [app weigh_all fold_right]; auto. unfold weigh_all in IH. rewrite IH. unfold weigh_all. lia. Qed.

(** Whatever the order in which the calls count, a counter gains what belongs to it. *)
Lemma count_run_weighs (V : counters -> N) (f : increment -> N) : (forall c x, V (count c x) = V c + f x)%N ->
  forall is jobs c jobs' c', count_run jobs c is = Some (jobs', c') -> (V c' + weigh_all f jobs' = V c + weigh_all f jobs)%N.
Proof.
  intros HV is. induction is as [|i is IH]; intros jobs c jobs' c'; cbn [count_run]; [intros [= -> ->]; reflexivity|].
  destruct (nth_error jobs i) as [[|x rest]|] eqn:E; try discriminate. intros H. apply IH in H. rewrite H, HV.
  apply nth_error_split in E as [l1 [l2 [-> Hl]]]. subst i.
  rewrite firstn_app, firstn_all, Nat.sub_diag, skipn_app.
  rewrite (skipn_all2 l1) by lia. replace (S (length l1) - length l1) with 1 by lia.
  cbn [firstn skipn app]. rewrite app_nil_r, !weigh_all_app. cbn [weigh_all fold_right weigh]. unfold weigh_all, weigh. lia.
Qed.

Lemma all_done_weigh f jobs : Forall (eq []) jobs -> weigh_all f jobs = 0%N.
Proof. induction 1 as [|x l <- _ IH]; [reflexivity|exact IH]. Qed.

Lemma weigh_observations L f (P : observation -> bool) obs :
  Forall (fun p => weigh f (metrics_counted L true (fst p) (Some (snd p))) = (if P p then 1 else 0)%N) obs ->
  weigh_all f (map (fun p => metrics_counted L true (fst p) (Some (snd p))) obs) = how_many P obs.
Proof.
  unfold how_many. induction 1 as [|p obs Hp _ IH]; cbn [map weigh_all fold_right filter]; auto.
  rewrite Hp. unfold weigh_all in IH. rewrite IH. destruct (P p); cbn [length]; lia.
Qed.

Definition b2n (b : bool) : N := if b then 1%N else 0%N.

Lemma observed L p : countable p -> exists q qs, m_question (req_msg (fst p)) = q :: qs /\
  metrics_counted L true (fst p) (Some (snd p)) =
    [IQuery (join [","%char] (req_names (fst p))) (lt_type L (q_type q)); IDuration (match snd p with Ok r => lt_rtype L (rs_type r) | Err _ => $"err" end);
     match snd p with
     | Err _ => IError
     | Ok r => match rs_msg r with Some m => IResponse (rs_reason r) (lt_rcode L (m_rcode m)) (lt_rtype L (rs_type r)) | None => IError end
     end] /\ (forall r, snd p = Ok r -> rs_msg r <> None).
Proof.
  intros [Hq [Hv Hf]]. destruct (m_question (req_msg (fst p))) as [|q qs] eqn:E; [congruence|]. exists q, qs. split; auto.
  unfold metrics_counted. rewrite E, (proj2 (client_label_iff (fst p)) Hv). split; [|exact Hf].
  destruct (snd p) as [r|e] eqn:Er; [|reflexivity]. destruct (rs_msg r) eqn:Em; [reflexivity|]. exfalso. exact (Hf r eq_refl Em).
Qed.

(** Whatever the order in which concurrent queries count: when all are done, each counter shows the number of queries with
    its labels, and every query is counted once as a query, once as a duration, and once as a response or an error. *)
Theorem C126_counters : forall L obs is jobs c, Forall countable obs ->
  count_run (map (fun p => metrics_counted L true (fst p) (Some (snd p))) obs) counters_init is = Some (jobs, c) -> Forall (eq []) jobs ->
  (forall client type, shown (ct_queries c) [client; type] = how_many (asked_by L client type) obs) /\
  (forall reason rcode rt, shown (ct_responses c) [reason; rcode; rt] = how_many (answered_with L reason rcode rt) obs) /\
  (forall rt, shown (ct_durations c) [rt] = how_many (measured_as L rt) obs) /\
  ct_errors c = how_many failed_query obs /\
  sum_of (ct_queries c) = N.of_nat (length obs) /\ sum_of (ct_durations c) = N.of_nat (length obs) /\
  (sum_of (ct_responses c) + ct_errors c = N.of_nat (length obs))%N.
Proof.
  intros L obs is jobs c Hc Hr Hd.
  assert (forall (V : counters -> N) f (P : observation -> bool), (forall c x, V (count c x) = V c + f x)%N -> V counters_init = 0%N ->
    (forall p, countable p -> weigh f (metrics_counted L true (fst p) (Some (snd p))) = b2n (P p)) -> V c = how_many P obs) as H.
  { intros V f P HV H0 HP. pose proof (count_run_weighs V f HV _ _ _ _ _ Hr) as H. rewrite (all_done_weigh f _ Hd), H0 in H.
    rewrite (weigh_observations L f P) in H; [lia|]. eapply Forall_impl; [|exact Hc]. exact HP. }
  assert (forall l : list observation, how_many (fun _ => true) l = N.of_nat (length l)) as Hall.
  { intros l. unfold how_many. f_equal. induction l; cbn; auto. }
  split; [|split; [|split; [|split; [|split; [|split]]]]].
  - intros cl t. apply (H (fun c => shown (ct_queries c) [cl; t]) (fun x => match x with IQuery a b => b2n (labels_eqb [a; b] [cl; t]) | _ => 0%N end)); auto.
    + intros c0 [a b| | |]; cbn [count ct_queries]; rewrite ?shown_bump; unfold b2n; lia.
    + intros p Hp. destruct (observed L p Hp) as [q [qs [Eq [-> Hf]]]]. unfold asked_by. rewrite Eq. cbn [weigh fold_right labels_eqb].
      rewrite andb_true_r. destruct (snd p) as [r|e]; [destruct (rs_msg r)|]; lia.
  - intros re rc rt. apply (H (fun c => shown (ct_responses c) [re; rc; rt]) (fun x => match x with IResponse a b d => b2n (labels_eqb [a; b; d] [re; rc; rt]) | _ => 0%N end)); auto.
    + intros c0 [| | |a b d]; cbn [count ct_responses]; rewrite ?shown_bump; unfold b2n; lia.
    + intros p Hp. destruct (observed L p Hp) as [q [qs [Eq [-> Hf]]]]. unfold answered_with. cbn [weigh fold_right].
      destruct (snd p) as [r|e]; [|reflexivity]. destruct (rs_msg r) eqn:Em; [|exfalso; exact (Hf r eq_refl Em)]. cbn [labels_eqb]. rewrite andb_true_r. lia.
  - intros rt. apply (H (fun c => shown (ct_durations c) [rt]) (fun x => match x with IDuration a => b2n (labels_eqb [a] [rt]) | _ => 0%N end)); auto.
    + intros c0 [|a| |]; cbn [count ct_durations]; rewrite ?shown_bump; unfold b2n; lia.
    + intros p Hp. destruct (observed L p Hp) as [q [qs [Eq [-> Hf]]]]. unfold measured_as. cbn [weigh fold_right labels_eqb]. rewrite andb_true_r.
      destruct (snd p) as [r|e]; [destruct (rs_msg r)|]; lia.
  - apply (H ct_errors (fun x => match x with IError => 1%N | _ => 0%N end)); auto.
    + intros c0 [| | |]; cbn [count ct_errors]; lia.
    + intros p Hp. destruct (observed L p Hp) as [q [qs [Eq [-> Hf]]]]. unfold failed_query. cbn [weigh fold_right].
      destruct (snd p) as [r|e]; [|reflexivity]. destruct (rs_msg r) eqn:Em; [reflexivity|exfalso; exact (Hf r eq_refl Em)].
  - rewrite <- Hall. apply (H (fun c => sum_of (ct_queries c)) (fun x => match x with IQuery _ _ => 1%N | _ => 0%N end)); auto.
    + intros c0 [a b| | |]; cbn [count ct_queries]; rewrite ?sum_bump; lia.
    + intros p Hp. destruct (observed L p Hp) as [q [qs [Eq [-> Hf]]]]. cbn [weigh fold_right]. destruct (snd p) as [r|e]; [destruct (rs_msg r)|]; reflexivity.
  - rewrite <- Hall. apply (H (fun c => sum_of (ct_durations c)) (fun x => match x with IDuration _ => 1%N | _ => 0%N end)); auto.
    + intros c0 [|a| |]; cbn [count ct_durations]; rewrite ?sum_bump; lia.
    + intros p Hp. destruct (observed L p Hp) as [q [qs [Eq [-> Hf]]]]. cbn [weigh fold_right]. destruct (snd p) as [r|e]; [destruct (rs_msg r)|]; reflexivity.
  - rewrite <- Hall. apply (H (fun c => (sum_of (ct_responses c) + ct_errors c)%N) (fun x => match x with IResponse _ _ _ | IError => 1%N | _ => 0%N end)); auto.
    + intros c0 [| | |a b d]; cbn [count ct_responses ct_errors]; rewrite ?sum_bump; lia.
    + intros p Hp. destruct (observed L p Hp) as [q [qs [Eq [-> Hf]]]]. cbn [weigh fold_right]. destruct (snd p) as [r|e]; [destruct (rs_msg r)|]; reflexivity.
Qed.
Print Assumptions C126_counters.

(** ** What a query counts on its way through the chain *)
Section Counted.
Context {U : Type}.
Variable L : label_texts.
Variable w : world U.

Definition rest : next_fn := chain (map snd (skipn 7 (query_resolvers w))) (w_upstream w).
Definition count_call (p : stage * request) : list increment :=
  match fst p with SMetrics => metrics_counted L (w_metrics w) (snd p) (rest (snd p)) | _ => [] end.

Lemma calls_stages rs last : forall req p, In p (calls rs last req) -> fst p = SUpstreamTree \/ In (fst p) (map fst rs).
Proof.
  induction rs as [|[s f] rs IH]; intros req p; cbn [calls map fst].
  - intros [<-|[]]. auto.
  - intros [<-|H]; [right; left; reflexivity|]. apply in_flat_map in H as [rq [_ H]]. apply IH in H as [H|H]; auto. right. right. exact H.
Qed.

Lemma count_none l : (forall p, In p l -> fst p <> SMetrics) -> flat_map count_call l = [].
Proof.
  intros H. induction l as [|[s rq] l IH]; auto. cbn [flat_map]. rewrite IH by (intros; apply H; now right).
  unfold count_call. cbn [fst snd]. destruct s; auto. exfalso. apply (H (SMetrics, rq)); [now left|reflexivity].
Qed.

Lemma count_rest req : flat_map count_call (calls (skipn 7 (query_resolvers w)) (w_upstream w) req) = [].
Proof.
  apply count_none. intros p Hp E. apply calls_stages in Hp. rewrite E in Hp. cbn in Hp. destruct Hp as [Hp|Hp]; [discriminate|].
  repeat (destruct Hp as [Hp|Hp]; [discriminate|]). exact Hp.
Qed.

(** A resolver that asks the next one at most once. *)
Definition once (p : prog) (rq : request) : Prop := exists k, p = Next rq k /\ forall r, k r = Crash \/ exists x, k r = Done x.
Lemma once_forwarded p rq next : once p rq -> forwarded p next = [rq].
Proof.
  intros [k [-> Hk]]. cbn [forwarded]. destruct (next rq) as [r|]; auto. destruct (Hk r) as [->|[x ->]]; reflexivity.
Qed.
Lemma once_pass rq : once (pass rq) rq.
Proof. exists Done. split; auto. intros r. right. eauto. Qed.
Lemma once_ede b rq : once (ede_resolve b rq) rq.
Proof. unfold ede_resolve. destruct b; cbn [negb]; [|apply once_pass]. eexists. split; [reflexivity|]. intros [r|e]; eauto. Qed.
Lemma once_logging entry rq : once (logging_resolve entry rq) rq.
Proof. eexists. split; [reflexivity|]. intros [r|e]; eauto. destruct (entry rq r); eauto. Qed.
Lemma once_metrics b rq : once (metrics_resolve b rq) rq.
Proof.
  eexists. split; [reflexivity|]. intros r. destruct b; eauto. destruct (m_question (req_msg rq)); auto. destruct (utf8_string _); auto.
  destruct r as [r|e]; eauto. destruct (rs_msg r); eauto.
Qed.

Lemma calls_once s p rs last req rq : once (p req) rq -> calls ((s, p) :: rs) last req = (s, req) :: calls rs last rq.
Proof. intros H. cbn [calls]. rewrite (once_forwarded _ _ _ H). cbn [flat_map]. now rewrite app_nil_r. Qed.

Lemma calls_done s p rs last req r : p req = Done r -> calls ((s, p) :: rs) last req = [(s, req)].
Proof. intros H. cbn [calls]. now rewrite H. Qed.
End Counted.

(** What the result says, apart from the message. *)
Definition same_kind (r r' : result) : Prop :=
  match r, r' with
  | Err e, Err e' => e = e'
  | Ok x, Ok y => rs_type x = rs_type y /\ rs_reason x = rs_reason y /\ option_map m_rcode (rs_msg x) = option_map m_rcode (rs_msg y)
  | _, _ => False
  end.

Lemma ede_kind b rq next r : next rq = Some r -> exists r', exec (ede_resolve b rq) next = Some r' /\ same_kind r r'.
Proof.
  intros H. unfold ede_resolve. destruct b; cbn [negb exec pass]; rewrite H.
  - destruct r as [x|e]; cbn [exec]; eexists; (split; [reflexivity|]); [|reflexivity]. cbn. unfold add_extra_reasoning.
    destruct (_ =? 0)%N; [auto|]. cbn. destruct (rs_msg x) as [m|]; cbn; auto. destruct (is_edns0 m); auto.
  - eexists. split; [reflexivity|]. destruct r; cbn; auto.
Qed.

Lemma query_split {U} (w : world U) : query_resolvers w =
  (SFiltering, filtering_resolve (w_filter w)) :: (SFqdnOnly, fqdn_only_resolve (w_fqdn w)) :: (SEcs, ecs_resolve (w_ecs w)) ::
  (SClientNames, fun req => names_resolve (w_names w req) req) :: (SEde, ede_resolve (w_ede w)) ::
  (SQueryLogging, logging_resolve (w_entry w)) :: (SMetrics, metrics_resolve (w_metrics w)) :: skipn 7 (query_resolvers w).
Proof. reflexivity. Qed.

Lemma chain_cons p ps last req : chain (p :: ps) last req = exec (p req) (chain ps last).
Proof. reflexivity. Qed.

Lemma logging_exec entry rq next res : 
  (forall rq r, exists T privacy cfg inst instant start ms, entry rq r = create_log_entry T privacy cfg inst instant start ms rq r) ->
  asked rq -> full res -> next rq = Some res -> exec (logging_resolve entry rq) next = Some res.
Proof.
  intros He Hq Hf Hn. unfold logging_resolve. cbn [exec]. rewrite Hn. destruct res as [x|e]; [|reflexivity].
  destruct (He rq x) as [T [privacy [cfg [inst [instant [start [ms ->]]]]]]].
  destruct (create_log_entry _ _ _ _ _ _ _ _ _) eqn:E; [reflexivity|]. exfalso. revert E. apply fill_fields_some; auto.
Qed.

Lemma metrics_exec b rq next res : asked rq -> (b = true -> Forall valid_utf8 (req_names rq)) -> full res -> next rq = Some res ->
  exec (metrics_resolve b rq) next = Some res.
Proof.
  intros Hq Hv Hf Hn. unfold metrics_resolve. cbn [exec]. rewrite Hn. destruct b; [|reflexivity].
  destruct (asked_cons rq Hq) as [q [qs E]]. rewrite E, (proj2 (client_label_iff rq) (Hv eq_refl)).
  destruct res as [x|e]; [|reflexivity]. destruct (rs_msg x) eqn:Em; [reflexivity|]. exfalso. exact (Hf x eq_refl Em).
Qed.

Lemma early_filtering {U} (w : world U) q : existsb (N.eqb (q_type q)) (w_filter w) = true <-> In (q_type q) (w_filter w).
Proof.
  rewrite existsb_exists. split.
  - intros [x [Hx E]]. apply N.eqb_eq in E. now subst.
  - intros H. exists (q_type q). split; auto. apply N.eqb_refl.
Qed.

(** A query with a question of its own, in a sound world: nothing is counted when it is answered before the metrics; otherwise
    it is counted as a query of its names and type, and what is counted of the result is what the client gets. *)
Theorem C126_query_partial : forall (U : Type) L (w : world U) req q, sound_world w -> w_metrics w = true -> m_question (req_msg req) = [q] ->
  named_in_utf8 w (req_client_id req) ->
  (answered_early w q -> query_counted L w req = []) /\
  (~ answered_early w q -> exists rq res, In (SClientNames, rq) (query_calls w req) /\ query_chain w req = Some res /\
    query_counted L w req =
      [IQuery (join [","%char] (w_names w rq)) (lt_type L (q_type q));
       IDuration (match res with Ok r => lt_rtype L (rs_type r) | Err _ => $"err" end);
       match res with
       | Err _ => IError
       | Ok r => match rs_msg r with Some m => IResponse (rs_reason r) (lt_rcode L (m_rcode m)) (lt_rtype L (rs_type r)) | None => IError end
       end]).
Proof.
  intros U L w req q Hw Hm Hq Hn. pose proof (rest_total w Hw) as Hrest. destruct Hw as [He [Hl _]].
  change (query_counted L w req) with (flat_map (count_call L w) (query_calls w req)). unfold query_calls, query_chain. split.
  - intros Ha. rewrite query_split. destruct (existsb (N.eqb (q_type q)) (w_filter w)) eqn:Ef.
    + erewrite calls_done; [reflexivity|]. unfold filtering_resolve. rewrite Hq, Ef. reflexivity.
    + destruct Ha as [Ha|[Hb Hd]]; [apply early_filtering in Ha; congruence|].
      rewrite (calls_once _ _ _ _ _ req); [|unfold filtering_resolve; rewrite Hq, Ef; apply once_pass].
      erewrite calls_done; [reflexivity|]. unfold fqdn_only_resolve. rewrite Hb, Hq. apply contains_byte_not_In in Hd. 
      unfold dot. rewrite Hd. reflexivity.
  - intros Ha.
    assert (filtering_resolve (w_filter w) req = pass req) as E1.
    { unfold filtering_resolve. rewrite Hq. destruct (existsb _ _) eqn:Ef; auto. elim Ha. left. now apply early_filtering. }
    assert (fqdn_only_resolve (w_fqdn w) req = pass req) as E2.
    { unfold fqdn_only_resolve. destruct (w_fqdn w) eqn:Eb; auto. rewrite Hq. destruct (contains_byte dot (extract_domain q)) eqn:Ed; auto.
      elim Ha. right. split; auto. now apply contains_byte_not_In. }
    destruct (ecs_safe (w_ecs w) req He) as [rq [E3 [Hq3 Hi3]]].
    set (rq4 := set_req_names (w_names w rq) rq).
    assert (asked rq4) as Hq4 by (unfold asked; cbn; congruence).
    assert (Forall valid_utf8 (req_names rq4)) as Hv by (exact (Hn rq Hi3)).
    destruct (Hrest rq4 Hq4) as [res [Er Hf]].
    assert (query_chain w req = exec (ede_resolve (w_ede w) rq4) (chain (map snd (skipn 5 (query_resolvers w))) (w_upstream w))) as Ec.
    { unfold query_chain. rewrite query_split. cbn [map snd]. rewrite chain_cons, E1, exec_pass, chain_cons, E2, exec_pass, chain_cons, E3, exec_pass, chain_cons.
      unfold names_resolve. rewrite exec_pass. reflexivity. }
    assert (chain (map snd (skipn 5 (query_resolvers w))) (w_upstream w) rq4 = Some res) as E5.
    { cbn [query_resolvers skipn map snd]. rewrite chain_cons. apply logging_exec; auto. rewrite chain_cons. apply metrics_exec; auto. }
    destruct (ede_kind (w_ede w) rq4 _ res E5) as [res' [E6 Hk]].
    assert (calls (query_resolvers w) (w_upstream w) req =
      (SFiltering, req) :: (SFqdnOnly, req) :: (SEcs, req) :: (SClientNames, rq) :: (SEde, rq4) :: (SQueryLogging, rq4) :: (SMetrics, rq4) ::
      calls (skipn 7 (query_resolvers w)) (w_upstream w) rq4) as Ecalls.
    { rewrite query_split. rewrite (calls_once _ _ _ _ _ req) by (rewrite E1; apply once_pass). rewrite (calls_once _ _ _ _ _ req) by (rewrite E2; apply once_pass).
      rewrite (calls_once _ _ _ _ _ rq) by (rewrite E3; apply once_pass). rewrite (calls_once _ _ _ _ _ rq4) by (apply once_pass).
      rewrite (calls_once _ _ _ _ _ rq4) by (apply once_ede). rewrite (calls_once _ _ _ _ _ rq4) by (apply once_logging).
      rewrite (calls_once _ _ _ _ _ rq4) by (apply once_metrics). reflexivity. }
    exists rq, res'. rewrite Ecalls. split; [cbn [In]; tauto|]. split; [unfold query_chain in Ec; rewrite Ec; exact E6|].
    cbn [flat_map]. rewrite count_rest. unfold count_call. cbn [fst snd app]. rewrite app_nil_r.
    change (rest w rq4) with (chain (map snd (skipn 7 (query_resolvers w))) (w_upstream w) rq4). rewrite Er, Hm.
    destruct (observed L (rq4, res)) as [q' [qs' [Eq' [Eo Hfull]]]]; [split; [exact Hq4|split; [exact Hv|exact Hf]]|].
    cbn [fst snd] in *. rewrite Eo. cbn in Eq'. rewrite Hq3, Hq in Eq'. injection Eq' as <- <-.
    destruct res as [x|e], res' as [x'|e']; cbn [same_kind] in Hk; try contradiction; [|reflexivity].
    destruct Hk as [<- [<- Hr]]. destruct (rs_msg x) as [m|] eqn:Em, (rs_msg x') as [m'|]; cbn in Hr; try discriminate; [|reflexivity].
    injection Hr as <-. reflexivity.
Qed.
Print Assumptions C126_query_partial.

Definition c126_texts : label_texts :=
  {| lt_type := fun t => if (t =? 1)%N then $"A" else $"AAAA"; lt_rcode := fun c => if (c =? 0)%N then $"NOERROR" else $"SERVFAIL";
     lt_rtype := fun t => match t with CUSTOMDNS => $"CUSTOMDNS" | BLOCKED => $"BLOCKED" | _ => $"RESOLVED" end |}.
Definition c126_world : world nat := cx_world [ex_a $"x." [1;1;1;1]%N].
Example C126_query_example : query_counted c126_texts c126_world (cx_req $"out.lan" 1) =
  [IQuery $"desktop" $"A"; IDuration $"CUSTOMDNS"; IResponse $"CUSTOM DNS" $"NOERROR" $"CUSTOMDNS"].
Proof. vm_compute. reflexivity. Qed.

Definition c126_answer : result := Ok {| rs_msg := Some empty_msg; rs_reason := $"CUSTOM DNS"; rs_type := CUSTOMDNS |}.
Definition c126_obs : list observation :=
  [(set_req_names [$"laptop"] (cx_req $"a.com" 1), c126_answer); (set_req_names [$"laptop"] (cx_req $"b.com" 1), Err $"timeout"); 
   (set_req_names [$"phone"; $"mobile"] (cx_req $"a.com" 28), c126_answer)].
Example C126_counters_example : Forall countable c126_obs /\
  exists c, count_run (map (fun p => metrics_counted c126_texts true (fst p) (Some (snd p))) c126_obs) counters_init [0; 1; 2; 2; 1; 0; 0; 1; 2]
    = Some ([[]; []; []], c) /\ shown (ct_queries c) [$"laptop"; $"A"] = 2%N /\ shown (ct_queries c) [$"phone,mobile"; $"AAAA"] = 1%N /\
    shown (ct_responses c) [$"CUSTOM DNS"; $"NOERROR"; $"CUSTOMDNS"] = 2%N /\ ct_errors c = 1%N.
Proof.
  split; [|eexists; split; [vm_compute; reflexivity|repeat split]].
  repeat (constructor; [split; [discriminate|split; [repeat constructor; apply ascii_valid; repeat constructor|]]|]); try constructor;
    intros x [= <-]; discriminate.
Qed.

(** A query of a filtered type is not counted, nor its answer. *)
Definition filtering_world (types : list N) : world nat :=
  let w := c126_world in
  {| w_filter := types; w_fqdn := w_fqdn w; w_ecs := w_ecs w; w_names := w_names w; w_ede := w_ede w; w_entry := w_entry w;
     w_metrics := w_metrics w; w_custom := w_custom w; w_new_id := w_new_id w; w_records := w_records w; w_fuel := w_fuel w;
     w_custom_rules := w_custom_rules w; w_custom_fallback := w_custom_fallback w; w_custom_iter := w_custom_iter w;
     w_hosts := w_hosts w; w_table := w_table w; w_hosts4 := w_hosts4 w; w_hosts6 := w_hosts6 w; w_glob := w_glob w; w_cidr := w_cidr w;
     w_ip_string := w_ip_string w; w_allow := w_allow w; w_deny := w_deny w; w_blk := w_blk w; w_handler := w_handler w;
     w_blk_iter := w_blk_iter w; w_fqdn_ips := w_fqdn_ips w; w_disabled := w_disabled w; w_caching := w_caching w; w_look := w_look w;
     w_mapping := w_mapping w; w_ask := w_ask w; w_cond_rules := w_cond_rules w; w_cond_fallback := w_cond_fallback w; w_cond_iter := w_cond_iter w;
     w_sudn := w_sudn w; w_upstream := w_upstream w |}.
Theorem C126_filtered_refuted : exists (w : world nat) req r, sound_world w /\ w_metrics w = true /\ query_chain w req = Some (Ok r) /\
  rs_type r = FILTERED /\ query_counted c126_texts w req = [].
Proof.
  exists (filtering_world [28%N]), (cx_req $"out.lan" 28). eexists. split; [exact cx_sound|]. split; [reflexivity|].
  split; [vm_compute; reflexivity|]. split; reflexivity.
Qed.
Print Assumptions C126_filtered_refuted.

(** ** C127: answers do not depend on whether metrics are collected *)
Definition with_metrics {U} (b : bool) (w : world U) : world U :=
  {| w_filter := w_filter w; w_fqdn := w_fqdn w; w_ecs := w_ecs w; w_names := w_names w; w_ede := w_ede w; w_entry := w_entry w;
     w_metrics := b; w_custom := w_custom w; w_new_id := w_new_id w; w_records := w_records w; w_fuel := w_fuel w;
     w_custom_rules := w_custom_rules w; w_custom_fallback := w_custom_fallback w; w_custom_iter := w_custom_iter w;
     w_hosts := w_hosts w; w_table := w_table w; w_hosts4 := w_hosts4 w; w_hosts6 := w_hosts6 w; w_glob := w_glob w; w_cidr := w_cidr w;
     w_ip_string := w_ip_string w; w_allow := w_allow w; w_deny := w_deny w; w_blk := w_blk w; w_handler := w_handler w;
     w_blk_iter := w_blk_iter w; w_fqdn_ips := w_fqdn_ips w; w_disabled := w_disabled w; w_caching := w_caching w; w_look := w_look w;
     w_mapping := w_mapping w; w_ask := w_ask w; w_cond_rules := w_cond_rules w; w_cond_fallback := w_cond_fallback w; w_cond_iter := w_cond_iter w;
     w_sudn := w_sudn w; w_upstream := w_upstream w |}.

Definition same_for (P : request -> Prop) (n1 n2 : next_fn) : Prop := forall rq, P rq -> n1 rq = n2 rq /\ exists r, n1 rq = Some r /\ full r.

Lemma safe_same (P : request -> Prop) p n1 n2 : safe_for P p -> same_for P n1 n2 -> exec p n1 = exec p n2 /\ exists r, exec p n1 = Some r /\ full r.
Proof.
  intros H Hn. induction H as [r Hr|rq k Hq Hk IH]; cbn [exec]; [eauto|].
  destruct (Hn rq Hq) as [E [r [Er Hr]]]. rewrite <- E, Er. now apply IH.
Qed.

Lemma link_same (A B : request -> Prop) p n1 n2 : (forall rq, A rq -> safe_for B (p rq)) -> same_for B n1 n2 -> same_for A (link p n1) (link p n2).
Proof. intros Hp Hn rq Hq. unfold link. eapply safe_same; eauto. Qed.

Theorem C127_answers_partial : forall (U : Type) (w : world U) req, sound_world w -> m_question (req_msg req) <> [] ->
  named_in_utf8 w (req_client_id req) -> query_chain (with_metrics true w) req = query_chain (with_metrics false w) req.
Proof.
  intros U w req Hw Hq Hv. pose proof (rest_total w Hw) as Hrest. destruct Hw as [He [Hl _]].
  set (A := fun rq => asked rq /\ req_client_id rq = req_client_id req).
  set (B := fun rq => asked rq /\ Forall valid_utf8 (req_names rq)).
  assert (same_for A (query_chain (with_metrics true w)) (query_chain (with_metrics false w))) as H; [|exact (proj1 (H req (conj Hq eq_refl)))].
  unfold query_chain. rewrite (query_split (with_metrics true w)), (query_split (with_metrics false w)). cbn [map snd]. unfold chain. cbn [fold_right].
  apply link_same with A; [intros rq [H1 H2]; apply filtering_safe; [|split]; auto|].
  apply link_same with A; [intros rq [H1 H2]; apply fqdn_safe; [|split]; auto|].
  apply link_same with A.
  { intros rq [H1 H2]. destruct (ecs_safe (w_ecs w) rq He) as [rq' [E [E1 E2]]]. cbn [with_metrics w_ecs]. rewrite E. apply safe_pass. split; [|congruence].
    unfold asked in *. congruence. }
  apply link_same with B.
  { intros rq [H1 H2]. apply safe_pass. split; [exact H1|]. exact (Hv rq H2). }
  apply link_same with B; [intros rq H; now apply ede_safe|].
  apply link_same with B; [intros rq [H1 H2]; apply logging_safe; [exact Hl| |split]; auto|].
  intros rq [H1 H2]. destruct (Hrest rq H1) as [r [Er Hr]]. unfold link. cbn [with_metrics w_metrics].
  rewrite (metrics_exec true rq _ r); auto. rewrite (metrics_exec false rq _ r); eauto.
Qed.
Print Assumptions C127_answers_partial.

Example C127_example : query_chain (with_metrics false c126_world) (cx_req $"out.lan" 1) = query_chain (with_metrics true c126_world) (cx_req $"out.lan" 1) /\
  query_chain (with_metrics false c126_world) (cx_req $"out.lan" 1) <> None.
Proof. split; [vm_compute; reflexivity|vm_compute; discriminate]. Qed.

(** Not for clients with an identifier that is not valid UTF-8: with metrics they get SERVFAIL, and nothing is counted. *)
Definition chain_gives {U} (w : world U) (rq : request) : msg * chain_result :=
  (req_msg rq, match query_chain w rq with None => CPanic | Some (Ok r) => CRes r | Some (Err _) => CErr end).
Definition ff_req : request :=
  {| req_ip := req_ip (cx_req $"out.lan" 1); req_client_id := [ascii_of_N 255]; req_proto := TCP; req_names := [];
     req_msg := req_msg (cx_req $"out.lan" 1) |}.
Definition no_lengths : lengths :=
  {| Server.cstate := unit; cstart := tt; question_len := fun _ _ _ => (0, tt); record_len := fun _ _ _ => (0, tt); plain_question_len := fun _ => 0;
     plain_record_len := fun _ => 0 |}.
Theorem C127_refuted : exists (w : world nat) req L r, sound_world w /\ length (m_question (req_msg req)) = 1 /\
  (forall rq, req_client_id rq <> [] -> w_names w rq = [req_client_id rq]) /\
  query_chain (with_metrics false w) req = Some (Ok r) /\ rs_type r = CUSTOMDNS /\
  map m_rcode (handle_req L (chain_gives (with_metrics true w)) req) = [rcode_servfail] /\
  query_counted c126_texts (with_metrics true w) req = [].
Proof.
  exists (with_names (fun rq => match req_client_id rq with [] => [$"desktop"] | c => [c] end) c126_world), ff_req, no_lengths.
  eexists. split; [exact cx_sound|]. split; [reflexivity|].
  split; [intros rq H; cbn; destruct (req_client_id rq); congruence|].
  split; [vm_compute; reflexivity|]. split; [reflexivity|]. split; [vm_compute; reflexivity|vm_compute; reflexivity].
Qed.
Print Assumptions C127_refuted.
