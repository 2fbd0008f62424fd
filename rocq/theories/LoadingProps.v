(** Theorems about the metrics of the loading of lists (C158). *)
From Coq Require Import String Ascii List Arith NArith ZArith Bool Lia.
From Verif Require Import Str StrFacts StringCache StringCacheSpec StringCacheProofs StringCacheProps Parsers Target
  Download DownloadSpec DownloadProps Metrics MetricsSpec MetricsProps Loading LoadingSpec.
Import ListNotations.
Open Scope list_scope.

Section Proofs.
Variable compile : str -> option (str -> bool).

Lemma loading_run_app s a b : loading_run compile s (a ++ b) =
  match loading_run compile s a with Some s' => loading_run compile s' b | None => None end.
Proof. revert s. induction a as [|o a IH]; intros s; cbn [app loading_run]; [reflexivity|]. destruct (loading_step compile s o); auto. Qed.

(** ** Failed downloads *)
Definition fails_in (evs : list dl_event) : nat := how_often is_failed evs.
Definition pending (l : list (list dl_event)) : nat := list_sum (map fails_in l).

Lemma pending_app a b : pending (a ++ b) = pending a + pending b.
Proof. unfold pending. now rewrite map_app, list_sum_app. Qed.

Lemma set_download_split i evs l e evs0 : nth_error l i = Some (e :: evs0) ->
  exists l1 l2, l = l1 ++ (e :: evs0) :: l2 /\ set_download i evs l = l1 ++ evs :: l2.
Proof.
  intros H. apply nth_error_split in H as [l1 [l2 [-> <-]]]. exists l1, l2. split; [reflexivity|]. unfold set_download.
  rewrite firstn_app, firstn_all, Nat.sub_diag, app_nil_r, skipn_app, skipn_all2, Nat.sub_succ_l, Nat.sub_diag by lia. reflexivity.
Qed.

Lemma first_or_none net n : (exists k b, k < n /\ first_success net k b) \/ (forall i, i < n -> forall b, ~ delivers (net i) b).
Proof.
  induction n as [|n IH]; [right; intros; lia|]. destruct IH as [[k [b [Hk H]]]|H]; [left; exists k, b; split; [lia|exact H]|].
  destruct (one_try_spec (net n)) as [[b [Hb _]]|[e [evs [_ [_ [Hn _]]]]]].
  - left. exists n, b. split; [lia|]. split; [exact Hb|]. intros i Hi. now apply H.
  - right. intros i Hi. destruct (Nat.eq_dec i n) as [->|Hx]; [exact Hn|]. apply H. lia.
Qed.

Lemma retry_fails attempts net : forall fuel n evs r, retry_do fuel attempts net n = Some (evs, r) ->
  (attempts = 0 \/ N.of_nat n < attempts)%N ->
  (exists k b, n <= k /\ delivers (net k) b /\ (forall i, n <= i < k -> forall b', ~ delivers (net i) b') /\
     (attempts = 0 \/ N.of_nat k < attempts)%N /\ fails_in evs = k - n) \/
  ((0 < attempts)%N /\ (forall i, n <= i -> (N.of_nat i < attempts)%N -> forall b', ~ delivers (net i) b') /\ fails_in evs = N.to_nat attempts - n).
Proof.
  unfold fails_in. induction fuel as [|fuel IH]; intros n evs r H Ha; [discriminate H|]. cbn [retry_do] in H.
  destruct (one_try_spec (net n)) as [[b [Hb E]]|[e [evs0 [_ [E [Hn [E0 _]]]]]]]; rewrite E in H.
  - injection H as <- <-. left. exists n, b. split; [lia|]. split; [exact Hb|]. split; [intros; lia|]. split; [exact Ha|]. cbn. lia.
  - destruct (N.eqb_spec attempts (N.of_nat n + 1)) as [->|Hx].
    + injection H as <- <-. right. split; [lia|]. split.
      * intros i Hi Hl. assert (i = n) as -> by lia. exact Hn.
      * rewrite how_often_app, E0. cbn. lia.
    + destruct (retry_do fuel attempts net (S n)) as [[evs' r']|] eqn:Er; [|discriminate H]. injection H as <- <-.
      assert (how_often is_failed (evs0 ++ DFailed n e :: DWait :: evs') = S (how_often is_failed evs')) as ->.
      { rewrite how_often_app, E0. unfold how_often. cbn. lia. }
      destruct (IH (S n) evs' r' Er) as [[k [b [H1 [H2 [H3 [H4 H5]]]]]]|[H1 [H2 H3]]]; [lia| |].
      * left. exists k, b. split; [lia|]. split; [exact H2|]. split; [|split; [exact H4|lia]].
        intros i Hi. destruct (Nat.eq_dec i n) as [->|]; [exact Hn|]. apply H3. lia.
      * right. split; [exact H1|]. split; [|lia]. intros i Hi Hl. destruct (Nat.eq_dec i n) as [->|]; [exact Hn|]. apply H2; [lia|exact Hl].
Qed.

Lemma download_fails fuel attempts net evs r : download_file fuel attempts net = Some (evs, r) -> failed_tries attempts net (fails_in evs).
Proof.
  unfold download_file. intros H. apply retry_fails in H as [[k [b [_ [H2 [H3 [H4 ->]]]]]]|[H1 [H2 ->]]]; [| |lia].
  - rewrite Nat.sub_0_r. apply (ft_success attempts net k b); [|exact H4]. split; [exact H2|]. intros i Hi. apply H3. lia.
  - rewrite Nat.sub_0_r. apply ft_failure; [exact H1|]. intros i Hi. apply H2; [lia|exact Hi].
Qed.

Lemma begun_app a b : begun (a ++ b) = begun a ++ begun b.
Proof. induction a as [|[t o|f n net|i] a IH]; cbn [app begun]; auto. now rewrite IH. Qed.

Definition counts (ops : list loading_op) (s : loading_state) : Prop :=
  exists ks, Forall2 (fun d k => failed_tries (fst d) (snd d) k) (begun ops) ks /\
    N.to_nat (ld_failed s) + pending (ld_downloads s) = list_sum ks.

Lemma counts_run ops : forall s, loading_run compile loading_init ops = Some s -> counts ops s.
Proof.
  induction ops as [|o ops IH] using rev_ind; intros s H.
  - injection H as <-. exists []. split; [constructor|reflexivity].
  - rewrite loading_run_app in H. destruct (loading_run compile loading_init ops) as [s0|]; [|discriminate H].
    destruct (IH s0 eq_refl) as [ks [H1 H2]]. unfold counts. rewrite begun_app. cbn [loading_run] in H.
    destruct (loading_step compile s0 o) as [s1|] eqn:E; [|discriminate H]. injection H as <-. destruct o as [t p|f n net|i]; cbn [begun].
    + exists ks. rewrite app_nil_r. split; [exact H1|]. cbn [loading_step] in E.
      destruct t; destruct (lists_step _ _ _); try discriminate E; injection E as <-; exact H2.
    + cbn [loading_step] in E. destruct (download_file f n net) as [[evs r]|] eqn:Ed; [|discriminate E]. injection E as <-.
      exists (ks ++ [fails_in evs]). split.
      * apply Forall2_app; [exact H1|]. constructor; [|constructor]. now apply download_fails in Ed.
      * cbn [ld_failed ld_downloads]. rewrite pending_app, list_sum_app. unfold pending at 2. cbn [map list_sum fold_right]. unfold list_sum in *. cbn. lia.
    + exists ks. rewrite app_nil_r. split; [exact H1|]. cbn [loading_step] in E.
      destruct (nth_error (ld_downloads s0) i) as [[|e evs]|] eqn:En; try discriminate E. injection E as <-. cbn [ld_failed ld_downloads].
      destruct (set_download_split i evs _ _ _ En) as [l1 [l2 [E1 E2]]]. rewrite E2. rewrite E1 in H2.
      rewrite pending_app in *. unfold pending in *. cbn [map] in *. unfold list_sum in *. cbn [fold_right] in *.
      unfold fails_in, how_often in *. cbn [filter] in H2. destruct e; cbn [is_failed on_download_event length] in *; lia.
Qed.

(** ** The last refresh *)
Lemma made_known_app a b : made_known (a ++ b) = made_known a ++ made_known b.
Proof. induction a as [|[t [| | |]|f n net|i] a IH]; cbn [app made_known]; auto. now rewrite IH. Qed.

Lemma time_run ops : forall s, loading_run compile loading_init ops = Some s -> ld_time s = last (made_known ops) 0%Z.
Proof.
  induction ops as [|o ops IH] using rev_ind; intros s H; [now injection H as <-|].
  rewrite loading_run_app in H. destruct (loading_run compile loading_init ops) as [s0|]; [|discriminate H].
  specialize (IH s0 eq_refl). rewrite made_known_app. cbn [loading_run] in H.
  destruct (loading_step compile s0 o) as [s1|] eqn:E; [|discriminate H]. injection H as <-. destruct o as [t p|f n net|i]; cbn [loading_step] in E.
  - destruct t; destruct (lists_step _ _ _); try discriminate E; injection E as <-; destruct p; cbn [made_known ld_time on_group_changed];
      rewrite ?app_nil_r, ?last_last; auto.
  - destruct (download_file f n net) as [[evs r]|]; [|discriminate E]. injection E as <-. cbn [made_known]. rewrite app_nil_r. exact IH.
  - destruct (nth_error (ld_downloads s0) i) as [[|e evs]|]; try discriminate E. injection E as <-. cbn [made_known]. rewrite app_nil_r. exact IH.
Qed.

Lemma slash_panics es : forall r w t has, In [slash] es -> StringCache.add_entries compile [CFRegex r; CFWild w; CFString t] has es = StringCache.Panic.
Proof.
  induction es as [|e es IH]; intros r w t has H; [destruct H|]. cbn [StringCache.add_entries].
  destruct (str_eq_dec e [slash]) as [->|Hne]; [reflexivity|]. destruct H as [H|H]; [congruence|].
  destruct (C03_entry_goes_to_one_matcher_partial compile r w t e Hne) as [fs' [-> Hs]].
  destruct Hs as [[_ [r' ->]]|[[_ [_ [w' [-> _]]]]|[_ [_ [t' ->]]]]]; now apply IH.
Qed.

Lemma create_effect c g es err c' failed : lc_shape c -> StringCache.create_cache_for_group compile c g es err = StringCache.Ok (c', failed) ->
  lc_shape c' /\ (failed = true <-> ~ takes_effect err es).
Proof.
  intros Hc E. destruct (in_dec str_eq_dec [slash] es) as [Hi|Hi].
  - unfold StringCache.create_cache_for_group in E. rewrite (lc_refresh c Hc) in E. unfold three in E. rewrite slash_panics in E by exact Hi. discriminate E.
  - destruct (create_cache_spec compile c g es err Hc Hi) as [c1 [f1 [E1 [H1 [H2 _]]]]]. rewrite E in E1. injection E1 as <- <-.
    split; [exact H1|]. rewrite H2. unfold takes_effect. destruct err; split; intros H; try tauto.
    + destruct H as [H|[H _]]; discriminate H.
    + intros [G|[G _]]; discriminate G.
    + intros [G|[_ G]]; [discriminate G|]. destruct H as [H|[_ H]]; [discriminate H|]. now apply G.
    + right. split; [reflexivity|]. destruct es; [reflexivity|]. exfalso. apply H. right. split; [reflexivity|discriminate].
Qed.

(** What has happened to the job, seen from the steps of its type. *)
Definition fate (t : list_type) (ops : list loading_op) (i : nat) (j : option list_job) : Prop :=
  match j with
  | None | Some (JLoading _) => (forall es err, ~ In (OList t (LLoad i es err)) ops) /\ ~ told t i ops
  | Some (JLoaded _) | Some (JCounted _ _) => replaced t i ops /\ ~ told t i ops
  | Some JDone => (replaced t i ops /\ told t i ops) \/ (~ replaced t i ops /\ ~ told t i ops)
  end.

Lemma told_snoc t i ops o : told t i (ops ++ [o]) <-> told t i ops \/ exists now, o = OList t (LPublish i now).
Proof.
  unfold told. split.
  - intros [now H]. apply in_app_or in H as [H|[H|[]]]; eauto.
  - intros [[now H]|[now ->]]; exists now; apply in_or_app; [now left|right; now left].
Qed.
Lemma load_snoc t i ops o es err : In (OList t (LLoad i es err)) (ops ++ [o]) <-> In (OList t (LLoad i es err)) ops \/ o = OList t (LLoad i es err).
Proof. rewrite in_app_iff. cbn [In]. tauto. Qed.
Lemma replaced_snoc t i ops o : replaced t i (ops ++ [o]) <-> replaced t i ops \/ exists es err, o = OList t (LLoad i es err) /\ takes_effect err es.
Proof.
  unfold replaced. split.
  - intros [es [err [H T]]]. apply load_snoc in H as [H|H]; [left|right]; eauto.
  - intros [[es [err [H T]]]|[es [err [-> T]]]]; exists es, err; rewrite load_snoc; auto.
Qed.

(** A step that is neither a load nor a publication of this job leaves its fate. *)
Lemma fate_other t ops o i j : (forall es err, o <> OList t (LLoad i es err)) -> (forall now, o <> OList t (LPublish i now)) ->
  fate t ops i j -> fate t (ops ++ [o]) i j.
Proof.
  intros H1 H2.
  assert (forall es err, In (OList t (LLoad i es err)) (ops ++ [o]) <-> In (OList t (LLoad i es err)) ops) as A.
  { intros es err. rewrite load_snoc. split; [intros [H|H]; [exact H|now apply H1 in H]|now left]. }
  assert (told t i (ops ++ [o]) <-> told t i ops) as B.
  { rewrite told_snoc. split; [intros [H|[now H]]; [exact H|now apply H2 in H]|now left]. }
  assert (replaced t i (ops ++ [o]) <-> replaced t i ops) as C.
  { unfold replaced. split; intros [es [err [G T]]]; exists es, err; (split; [now apply A|exact T]). }
  destruct j as [[g|g|g n|]|]; cbn [fate]; intros H.
  - destruct H as [Ha Hb]. split; [intros es err G; apply A in G; now apply Ha in G|now rewrite B].
  - now rewrite B, C.
  - now rewrite B, C.
  - now rewrite B, C.
  - destruct H as [Ha Hb]. split; [intros es err G; apply A in G; now apply Ha in G|now rewrite B].
Qed.

Lemma set_job_nth i j l a k : nth_error l i = Some a -> nth_error (set_job i j l) k = if k =? i then Some j else nth_error l k.
Proof.
  intros H. apply nth_error_split in H as [l1 [l2 [-> <-]]]. unfold set_job.
  rewrite firstn_app, firstn_all, Nat.sub_diag, app_nil_r, skipn_app, skipn_all2, Nat.sub_succ_l, Nat.sub_diag by lia. cbn [skipn app].
  destruct (Nat.eqb_spec k (length l1)) as [->|Hk].
  - rewrite nth_error_app2, Nat.sub_diag by lia. reflexivity.
  - destruct (Nat.lt_ge_cases k (length l1)) as [Hl|Hl].
    + now rewrite !nth_error_app1 by exact Hl.
    + rewrite !nth_error_app2 by exact Hl. now destruct (k - length l1) as [|m] eqn:Em; [lia|].
Qed.

Definition fates (t : list_type) (ops : list loading_op) (s : lists_state) : Prop :=
  lc_shape (ls_cache s) /\ forall i, fate t ops i (nth_error (ls_jobs s) i).

Lemma fates_step t ops s p s' : fates t ops s -> lists_step compile s p = Some s' -> fates t (ops ++ [OList t p]) s'.
Proof.
  intros [Hc H] E. destruct p as [g|i es err|i|i now]; cbn [lists_step] in E.
  - injection E as <-. split; [exact Hc|]. cbn [ls_jobs]. intros i. apply fate_other; try (intros; discriminate).
    specialize (H i). destruct (Nat.lt_ge_cases i (length (ls_jobs s))) as [Hl|Hl]; [now rewrite nth_error_app1 by exact Hl|].
    rewrite nth_error_app2 by exact Hl. rewrite (proj2 (nth_error_None _ _) Hl) in H. destruct (i - length (ls_jobs s)) as [|[|m]]; exact H.
  - destruct (nth_error (ls_jobs s) i) as [[g| | |]|] eqn:Ej; try discriminate E.
    destruct (StringCache.create_cache_for_group compile (ls_cache s) g es err) as [[c failed]|] eqn:Ec; [|discriminate E]. injection E as <-.
    destruct (create_effect _ _ _ _ _ _ Hc Ec) as [Hc' Hf]. split; [exact Hc'|]. cbn [ls_jobs]. intros k. rewrite (set_job_nth _ _ _ _ _ Ej).
    destruct (Nat.eqb_spec k i) as [->|Hk].
    + specialize (H i). rewrite Ej in H. destruct H as [Ha Hb].
      assert (~ told t i (ops ++ [OList t (LLoad i es err)])) as Hb'. { rewrite told_snoc. intros [G|[now G]]; [contradiction|discriminate G]. }
      destruct failed; cbn [fate].
      * right. split; [|exact Hb']. rewrite replaced_snoc. intros [[es0 [err0 [G _]]]|[es0 [err0 [G T]]]]; [now apply Ha in G|].
        injection G as <- <-. now apply Hf.
      * split; [|exact Hb']. rewrite replaced_snoc. right. exists es, err. split; [reflexivity|].
        destruct err; [now left| |].
        -- exfalso. assert (false = true) as X; [|discriminate X]. apply Hf. intros [G|[G _]]; discriminate G.
        -- right. split; [reflexivity|]. intros ->. assert (false = true) as X; [|discriminate X]. apply Hf. intros [G|[_ G]]; [discriminate G|now apply G].
    + apply fate_other; [|intros; discriminate|apply H]. intros es0 err0 G. injection G as G _ _. now apply Hk.
  - destruct (nth_error (ls_jobs s) i) as [[|g| |]|] eqn:Ej; try discriminate E. injection E as <-. split; [exact Hc|]. cbn [ls_jobs].
    intros k. rewrite (set_job_nth _ _ _ _ _ Ej). destruct (Nat.eqb_spec k i) as [->|Hk].
    + specialize (H i). rewrite Ej in H. apply (fate_other t ops _ i (Some (JCounted g 0))); try (intros; discriminate). exact H.
    + apply fate_other; try (intros; discriminate). apply H.
  - destruct (nth_error (ls_jobs s) i) as [[| |g n|]|] eqn:Ej; try discriminate E. injection E as <-. split; [exact Hc|]. cbn [ls_jobs].
    intros k. rewrite (set_job_nth _ _ _ _ _ Ej). destruct (Nat.eqb_spec k i) as [->|Hk].
    + specialize (H i). rewrite Ej in H. destruct H as [Ha _]. cbn [fate]. left. split; [rewrite replaced_snoc; now left|]. rewrite told_snoc. right. eauto.
    + apply fate_other; [intros; discriminate| |apply H]. intros now0 G. injection G as G _. now apply Hk.
Qed.

Lemma fates_run ops : forall s t, loading_run compile loading_init ops = Some s -> fates t ops (lists_of t s).
Proof.
  induction ops as [|o ops IH] using rev_ind; intros s t H.
  - injection H as <-. assert (fates t [] lists_init) as H; [|now destruct t].
    split; [exact lc_shape_new|]. intros [|i]; (split; [intros ? ? []|intros [? []]]).
  - rewrite loading_run_app in H. destruct (loading_run compile loading_init ops) as [s0|]; [|discriminate H].
    specialize (IH s0 t eq_refl). cbn [loading_run] in H. destruct (loading_step compile s0 o) as [s1|] eqn:E; [|discriminate H]. injection H as <-.
    assert (forall l, (forall p, o <> OList t p) -> fates t ops l -> fates t (ops ++ [o]) l) as Hother.
    { intros l Hn [Hc Hl]. split; [exact Hc|]. intros i. apply fate_other; auto. }
    destruct o as [t' p|f n net|i]; cbn [loading_step] in E.
    + assert (t' = t \/ (forall q, OList t' p <> OList t q)) as [->|Hn].
      { destruct t, t'; auto; right; intros q G; discriminate G. }
      * destruct t; (destruct (lists_step compile _ p) as [l|] eqn:El; [|discriminate E]); injection E as <-; cbn [lists_of ld_deny ld_allow] in *;
          eapply fates_step; eauto.
      * assert (lists_of t s1 = lists_of t s0) as ->.
        { destruct t, t'; try (exfalso; eapply Hn; reflexivity); (destruct (lists_step compile _ p); [|discriminate E]); injection E as <-; reflexivity. }
        now apply Hother.
    + destruct (download_file f n net) as [[evs r]|]; [|discriminate E]. injection E as <-.
      destruct t; (apply Hother; [intros; discriminate|exact IH]).
    + destruct (nth_error (ld_downloads s0) i) as [[|e evs]|]; try discriminate E. injection E as <-.
      destruct t; (apply Hother; [intros; discriminate|exact IH]).
Qed.
End Proofs.

(** The counter tells how many tries have failed, over all downloads of lists: when they have ended every failed try has
    been counted once; before, not more than these. *)
Theorem C158_failed : forall compile ops s, loading_run compile loading_init ops = Some s ->
  exists ks, Forall2 (fun d k => failed_tries (fst d) (snd d) k) (begun ops) ks /\
    N.to_nat (ld_failed s) <= list_sum ks /\
    (Forall (eq []) (ld_downloads s) -> N.to_nat (ld_failed s) = list_sum ks).
Proof.
  intros compile ops s H. destruct (counts_run compile ops s H) as [ks [H1 H2]]. exists ks. split; [exact H1|]. split; [lia|].
  intros Hd. assert (pending (ld_downloads s) = 0) as Hp; [|lia]. clear H2. induction Hd as [|x l <- Hl IH]; [reflexivity|]. exact IH.
Qed.
Print Assumptions C158_failed.

(** A failed try is counted when it happens: the counter changes in no other step, and never by more than one. *)
Theorem C158_one : forall compile s o s', loading_step compile s o = Some s' ->
  ld_failed s' = ld_failed s \/
  (exists i n e evs, o = OEvent i /\ nth_error (ld_downloads s) i = Some (DFailed n e :: evs) /\ ld_failed s' = (ld_failed s + 1)%N).
Proof.
  intros compile s o s' E. destruct o as [t p|f n net|i]; cbn [loading_step] in E.
  - left. destruct t; destruct (lists_step _ _ _); try discriminate E; now injection E as <-.
  - left. destruct (download_file f n net) as [[evs r]|]; [|discriminate E]. now injection E as <-.
  - destruct (nth_error (ld_downloads s) i) as [[|e evs]|] eqn:En; try discriminate E. injection E as <-. cbn [ld_failed].
    destruct e; try (now left). right. eauto 8.
Qed.
Print Assumptions C158_one.

(** "Counter of failed list downloads": it also counts tries of downloads that have succeeded. *)
Theorem C158_downloads_refuted : exists ops s, loading_run (fun _ => None) loading_init ops = Some s /\ Forall (eq []) (ld_downloads s) /\
  (forall d, In d (begun ops) -> exists evs b, download_file 3 (fst d) (snd d) = Some (evs, inl b)) /\ ld_failed s = 2%N.
Proof.
  exists (ODownload 3 3 (fun n => match n with 0 => NetTimeout 1 | 1 => Answer 503 [] ScanEOF | _ => Answer 200 [$"a.com"] ScanEOF end) :: repeat (OEvent 0) 10).
  eexists. split; [vm_compute; reflexivity|]. split; [repeat constructor|]. split; [|reflexivity]. intros d [<-|[]]. eexists _, _. vm_compute. reflexivity.
Qed.
Print Assumptions C158_downloads_refuted.

(** The timestamp is the time at which a refreshed group was last made known, of whatever type; 0 before the first one.
    With a clock that never goes back it is the latest of all these times. *)
Theorem C158_time : forall compile ops s, loading_run compile loading_init ops = Some s ->
  (made_known ops = [] -> ld_time s = 0%Z) /\
  (forall before now, made_known ops = before ++ [now] -> ld_time s = now) /\
  (in_time (made_known ops) -> forall now, In now (made_known ops) -> (now <= ld_time s)%Z).
Proof.
  intros compile ops s H. rewrite (time_run compile ops s H). split; [now intros ->|]. split; [intros b now ->; apply last_last|].
  generalize (made_known ops). intros l. induction l as [|t l IH]; intros Hi now Hn; [destruct Hn|]. destruct Hi as [H1 H2].
  destruct l as [|u l]; [destruct Hn as [->|[]]; cbn; lia|]. change (last (t :: u :: l) 0%Z) with (last (u :: l) 0%Z).
  destruct Hn as [->|Hn]; [|now apply IH]. apply Z.le_trans with u; [apply H1; now left|]. apply IH; [exact H2|now left].
Qed.
Print Assumptions C158_time.

(** A group is made known exactly if its entries have been replaced: never after a failed refresh, and never without
    the entries being there before; and a goroutine which has replaced a group does not end without making it known. *)
Theorem C158_only_replaced : forall compile ops s t i, loading_run compile loading_init ops = Some s -> told t i ops -> replaced t i ops.
Proof.
  intros compile ops s t i H Ht. destruct (fates_run compile ops s t H) as [_ F]. specialize (F i).
  destruct (nth_error (ls_jobs (lists_of t s)) i) as [[g|g|g n|]|]; cbn [fate] in F; tauto.
Qed.
Print Assumptions C158_only_replaced.

Theorem C158_all_replaced : forall compile ops s t i, loading_run compile loading_init ops = Some s -> ended t i s ->
  (told t i ops <-> replaced t i ops).
Proof.
  intros compile ops s t i H He. destruct (fates_run compile ops s t H) as [_ F]. specialize (F i). unfold ended in He. rewrite He in F.
  cbn [fate] in F. tauto.
Qed.
Print Assumptions C158_all_replaced.

(** "Timestamp of last list refresh": it is renewed although another group could not be loaded and is empty. *)
Theorem C158_refresh_refuted : exists ops s, loading_run (fun _ => None) loading_init ops = Some s /\
  ended Denylist 0 s /\ ended Denylist 1 s /\ ~ replaced Denylist 0 ops /\ StringCache.c_element_count (ls_cache (ld_deny s)) $"ads" = 0 /\
  ld_time s = 1700000000%Z.
Proof.
  exists [OList Denylist (LStart $"ads"); OList Denylist (LStart $"kids"); OList Denylist (LLoad 0 [] StringCache.TransientErr);
          OList Denylist (LLoad 1 [$"a.com"] StringCache.NoErr); OList Denylist (LCount 1); OList Denylist (LPublish 1 1700000000)].
  eexists. split; [vm_compute; reflexivity|]. split; [reflexivity|]. split; [reflexivity|]. split; [|split; reflexivity].
  intros [es [err [H T]]]. cbn [In] in H. destruct H as [H|[H|[H|[H|[H|[H|[]]]]]]]; try discriminate H. injection H as <- <-.
  destruct T as [T|[T _]]; discriminate T.
Qed.
Print Assumptions C158_refresh_refuted.

(** Two downloads side by side, and a group of each type. *)
Example C158_case : exists ops s, loading_run (fun _ => None) loading_init ops = Some s /\ Forall (eq []) (ld_downloads s) /\
  ld_failed s = 3%N /\ ld_time s = 90%Z /\ in_time (made_known ops) /\ made_known ops = [70; 90]%Z /\
  told Denylist 0 ops /\ told Allowlist 0 ops /\ ended Allowlist 0 s.
Proof.
  exists [ODownload 2 2 (fun _ => NetError 1); ODownload 3 0 (fun n => match n with 0 => NetTimeout 1 | _ => Answer 200 [] ScanEOF end);
          OList Denylist (LStart $"ads"); OEvent 1; OEvent 0; OEvent 1; OEvent 0; OEvent 0; OEvent 0; OEvent 0; OEvent 1;
          OList Denylist (LLoad 0 [$"a.com"] StringCache.OtherErr); OList Allowlist (LStart $"ads"); OList Denylist (LCount 0);
          OList Denylist (LPublish 0 70); OList Allowlist (LLoad 0 [] StringCache.NoErr); OList Allowlist (LCount 0);
          OList Allowlist (LPublish 0 90); OEvent 1; OEvent 1].
  eexists. split; [vm_compute; reflexivity|]. split; [repeat constructor|]. split; [reflexivity|]. split; [reflexivity|].
  split; [cbn; split; [intros u [<-|[]]; lia|split; [intros u []|exact I]]|]. split; [reflexivity|].
  split; [exists 70%Z; cbn [In]; tauto|]. split; [exists 90%Z; cbn [In]; tauto|]. reflexivity.
Qed.
