(** Theorems about the metrics of prefetching (C150) and about what prefetching does to expired entries (C151). *)
From Coq Require Import String Ascii List Arith Bool NArith ZArith Lia.
From Verif Require Import Str StrFacts Dns Resolver ExpCache ExpCacheProofs Caching CachingSpec CachingProofs CachingProps Prefetch PrefetchSpec.
Import ListNotations.

Lemma take_prefetch_first k l x l' : take_prefetch k l = Some (x, l') -> first_for l k x.
Proof.
  revert l'. induction l as [|[k' y] l IH]; intros l'; simpl; [discriminate|]. destruct (str_eqb k k') eqn:E.
  - intros [= <- <-]. apply str_eqb_eq in E. subst. exists [], l. split; auto.
  - destruct (take_prefetch k l) as [[z l'']|] eqn:Et; [|discriminate]. intros [= -> <-].
    destruct (IH _ eq_refl) as [a [b [-> Ha]]]. exists ((k', y) :: a), b. split; auto. simpl. intros [<-|H]; auto.
    rewrite str_eqb_refl in E. discriminate.
Qed.

Lemma first_for_fun {V} (l : list (str * V)) k v v' : first_for l k v -> first_for l k v' -> v = v'.
Proof.
  intros [a [b [-> Ha]]] [a' [b' [E Ha']]]. revert a' E Ha'. induction a as [|x a IH]; intros [|y a'] E Ha'; simpl in E.
  - now injection E as ->.
  - injection E as <- _. exfalso. apply Ha'. now left.
  - injection E as -> _. exfalso. apply Ha. now left.
  - injection E as _ E. eapply IH; eauto; intros H; [apply Ha|apply Ha']; now right.
Qed.

Section Metrics.
Variable packable : msg -> bool.
Variable cfg : caching_cfg.
Hypothesis Hsize : 1 <= pf_size (cc_pf cfg).

Lemma run_app s a b : run packable cfg s (a ++ b) = match run packable cfg s a with Some s' => run packable cfg s' b | None => None end.
Proof. revert s. induction a as [|e a IH]; intros s; simpl; auto. destruct (step packable cfg s e) as [[s' o]|]; auto. Qed.

Lemma metrics_run_app emit s p a b : metrics_run packable cfg emit s p (a ++ b) =
  match metrics_run packable cfg emit s p a with Some (s', p') => metrics_run packable cfg emit s' p' b | None => None end.
Proof. revert s p. induction a as [|e a IH]; intros s p; simpl; auto. destruct (step packable cfg s e) as [[s' o]|]; auto. Qed.

Lemma metrics_run_run emit es : forall s p s' p', metrics_run packable cfg emit s p es = Some (s', p') -> run packable cfg s es = Some s'.
Proof.
  induction es as [|e es IH]; intros s p s' p'; simpl; [now intros [= -> _]|].
  destruct (step packable cfg s e) as [[s1 o]|]; [|discriminate]. apply IH.
Qed.

Lemma metrics_run_snoc emit es e s p : metrics_run packable cfg emit init pf_metrics_init (es ++ [e]) = Some (s, p) ->
  exists s0 p0 out, metrics_run packable cfg emit init pf_metrics_init es = Some (s0, p0) /\ step packable cfg s0 e = Some (s, out) /\
    p = if emit then fold_left on_note (notes packable cfg s0 e) p0 else p0.
Proof.
  rewrite metrics_run_app. destruct (metrics_run _ _ _ _ _ es) as [[s0 p0]|]; [|discriminate]. simpl.
  destruct (step packable cfg s0 e) as [[s1 o]|] eqn:E; [|discriminate]. intros [= -> <-]. exists s0, p0, o. auto.
Qed.

(** The events of a lookup change no other counter. *)
Lemma lookup_prefetches now k c p : pm_prefetches (fold_left on_note (lookup_notes cfg now k c) p) = pm_prefetches p.
Proof.
  unfold lookup_notes. destruct (cc_prefetching cfg); auto. rewrite fold_left_app.
  destruct (lru_peek k (pf_cache c)) as [e|]; [destruct (cv_prefetch (el_val e))|]; destruct (0 <? _)%Z; reflexivity.
Qed.

Lemma notes_prefetches s e p : pm_prefetches (fold_left on_note (notes packable cfg s e) p) =
  (pm_prefetches p + match e with EReload _ r => match reload_result packable cfg r with Some (Some _) => 1 | _ => 0 end | _ => 0 end)%N.
Proof.
  assert (forall qs now c p, pm_prefetches (fold_left on_note (question_notes cfg qs now c) p) = pm_prefetches p) as Q.
  { intros [|q qs] now c p0; [reflexivity|apply lookup_prefetches]. }
  destruct e; simpl; rewrite ?N.add_0_r; auto.
  - destruct (_ || _); [reflexivity|apply Q].
  - destruct (take_task id (s_tasks s)) as [[t l]|]; auto. destruct (tk_phase t); auto.
  - destruct (reload_result packable cfg r) as [[x|]|]; simpl; lia.
Qed.

Lemma reload_usable r : (exists x, reload_result packable cfg r = Some (Some x)) <-> usable packable r.
Proof.
  unfold reload_result, usable. split.
  - intros [x H]. destruct r as [resp|]; [|discriminate]. destruct (rs_msg resp) as [m|] eqn:Em; [|discriminate].
    destruct (N.eqb_spec (m_rcode m) rcode_success); [|discriminate]. destruct (packable m) eqn:Ep; [|discriminate]. exists resp, m. auto.
  - intros [resp [m [-> [-> [Hr Hp]]]]]. rewrite Hp. unfold rcode_success. rewrite (proj2 (N.eqb_eq _ _) Hr). eauto.
Qed.

(** blocky_prefetches_total counts the usable answers to prefetches, whatever else happens. *)
Theorem C150_prefetches : forall es s p, metrics_run packable cfg true init pf_metrics_init es = Some (s, p) ->
  times (prefetched packable) es (N.to_nat (pm_prefetches p)).
Proof.
  induction es as [|e es IH] using rev_ind; intros s p H.
  - injection H as <- <-. constructor.
  - apply metrics_run_snoc in H as [s0 [p0 [out [H [Hs ->]]]]]. specialize (IH _ _ H). rewrite notes_prefetches.
    assert ((exists k r, e = EReload k r /\ usable packable r) \/ ~ exists k r, e = EReload k r /\ usable packable r) as [Y|Nn].
    { destruct e; try (right; intros [k [r' [? _]]]; discriminate).
      destruct (reload_result packable cfg r) as [[x|]|] eqn:E.
      - left. exists key, r. split; auto. apply reload_usable. eauto.
      - right. intros [k [r' [[= <- <-] U]]]. apply reload_usable in U as [x U]. congruence.
      - right. intros [k [r' [[= <- <-] U]]]. apply reload_usable in U as [x U]. congruence. }
    + pose proof Y as Y'. destruct Y as [k [r [-> U]]]. apply reload_usable in U as [x U]. rewrite U. rewrite N.add_1_r, N2Nat.inj_succ. now apply times_one.
    + assert (match e with EReload _ r => match reload_result packable cfg r with Some (Some _) => 1 | _ => 0 end | _ => 0 end = 0)%N as ->.
      { destruct e; auto. destruct (reload_result packable cfg r) as [[x|]|] eqn:E; auto. destruct Nn. exists key, r. split; auto.
        apply reload_usable. eauto. }
      rewrite N.add_0_r. now apply times_not.
Qed.

(** ** What wrote an entry *)
Lemma mget_after_get now k (c : pf_state msg) r c' x : cache_get cfg now k c = (r, c') -> NoDup (map fst (pf_cache c)) ->
  mget str_eqb x (pf_cache c') = mget str_eqb x (pf_cache c).
Proof. intros H Hn. eapply cache_get_spec in H as [_ [H _]]; auto. Qed.

Definition stored_cache (s : state) (t : task) (now : Z) : pf_state msg :=
  match tk_phase t with
  | Storing m ttl => match cache_entry packable cfg m ttl with
                     | Some (copy, t') => cache_put cfg now (tk_key t) copy t' (s_cache s) | None => s_cache s end
  | _ => s_cache s
  end.

Lemma put_mget (c : pf_state msg) now k m ttl x : mget str_eqb x (pf_cache (cache_put cfg now k m ttl c)) =
  mget str_eqb x (ec_put (pf_size (cc_pf cfg)) now k {| cv_element := m; cv_prefetch := false |} ttl (pf_cache c)).
Proof. reflexivity. Qed.

Lemma stored_cache_entry s t now k el : NoDup (map fst (pf_cache (s_cache s))) -> NoDup (map tk_id (s_tasks s)) -> In t (s_tasks s) ->
  mget str_eqb k (pf_cache (stored_cache s t now)) = Some el ->
  writes packable cfg s (EStore (tk_id t) now) k (cv_prefetch (el_val el)) \/
  ((forall b, ~ writes packable cfg s (EStore (tk_id t) now) k b) /\ mget str_eqb k (pf_cache (s_cache s)) = Some el).
Proof.
  intros Hn Ht Hin. assert (forall t', In t' (s_tasks s) -> tk_id t' = tk_id t -> t' = t) as Huniq.
  { intros t' Hin' E. clear -Ht Hin Hin' E. induction (s_tasks s) as [|y l IH]; [easy|]. simpl in Ht. inversion Ht; subst.
    destruct Hin as [->|Hin], Hin' as [->|Hin']; auto.
    - exfalso. apply H1. rewrite <- E. now apply in_map.
    - exfalso. apply H1. rewrite E. now apply in_map. }
  assert (forall b, writes packable cfg s (EStore (tk_id t) now) k b ->
    exists m ttl copy life, tk_phase t = Storing m ttl /\ cache_entry packable cfg m ttl = Some (copy, life) /\ (0 < life)%Z /\ k = tk_key t /\ b = false) as Hw.
  { intros b W. inversion W; subst. apply Huniq in H1; auto. subst. exists m, ttl, copy, life. auto. }
  unfold stored_cache. intros H.
  assert (mget str_eqb k (pf_cache (s_cache s)) = Some el -> (forall m ttl copy life, tk_phase t = Storing m ttl -> cache_entry packable cfg m ttl = Some (copy, life) -> (0 < life)%Z -> k <> tk_key t) ->
    (forall b, ~ writes packable cfg s (EStore (tk_id t) now) k b) /\ mget str_eqb k (pf_cache (s_cache s)) = Some el) as Done.
  { intros Hk Hno. split; auto. intros b W. destruct (Hw _ W) as [m [ttl [copy [life [E1 [E2 [E3 [-> _]]]]]]]]. eapply Hno; eauto. }
  destruct (tk_phase t) as [|m ttl|er] eqn:Ep; try (right; apply Done; auto; discriminate).
  destruct (cache_entry packable cfg m ttl) as [[copy life]|] eqn:Ec.
  - destruct (Z.leb_spec life 0).
    + right. apply Done; [|intros m' ttl' copy' life' [= <- <-] E; rewrite Ec in E; injection E as <- <-; lia].
      rewrite put_mget in H. unfold ec_put in H. destruct (Z.leb_spec life 0); [auto|lia].
    + destruct (str_eq_dec k (tk_key t)) as [->|Hk].
      * left. rewrite put_mget, ec_put_same in H by auto. injection H as <-. simpl. econstructor; eauto.
      * right. apply Done; [|intros m' ttl' copy' life' [= <- <-] E; rewrite Ec in E; injection E as <- <-; auto].
        rewrite put_mget in H. apply ec_put_sub in H; auto. destruct H as [[-> _]|H]; auto. congruence.
  - right. apply Done; auto. intros m' ttl' copy' life' [= <- <-] E. congruence.
Qed.

Lemma step_store s id now s' out : step packable cfg s (EStore id now) = Some (s', out) ->
  exists t tasks resp, take_task id (s_tasks s) = Some (t, tasks) /\ tk_phase t <> Waiting /\
    start_question cfg id (tk_req t) (tk_rest t) resp now (stored_cache s t now) tasks = (s_cache s', s_tasks s', out).
Proof.
  simpl. destruct (take_task id (s_tasks s)) as [[t tasks]|] eqn:Et; [|discriminate]. unfold stored_cache.
  destruct (tk_phase t) as [|m ttl|er] eqn:Ep; [discriminate| |];
    destruct (start_question _ _ _ _ _ _ _ _) as [[c tasks'] o] eqn:Es; intros [= <- <-]; exists t, tasks; rewrite Ep; eexists; repeat split; eauto; discriminate.
Qed.

Lemma step_entry hist s e s' out k el : inv packable cfg hist s -> step packable cfg s e = Some (s', out) ->
  mget str_eqb k (pf_cache (s_cache s')) = Some el ->
  writes packable cfg s e k (cv_prefetch (el_val el)) \/
  ((forall b, ~ writes packable cfg s e k b) /\ mget str_eqb k (pf_cache (s_cache s)) = Some el).
Proof.
  intros Hinv Hs Hk. pose proof (i_nodup _ _ _ _ Hinv) as Hn.
  destruct e as [id req now|id r|id now|key m now|key now|key r|key now|now| ].
  - right. split; [intros b W; inversion W|]. simpl in Hs. destruct (existsb _ _); [discriminate|]. destruct (_ || _).
    + injection Hs as <- _. exact Hk.
    + destruct (start_question _ _ _ _ _ _ _ _) as [[c tasks] o] eqn:Es. injection Hs as <- _.
      apply start_question_spec in Es as [_ [E _]]; auto. simpl in Hk. now rewrite E in Hk.
  - right. split; [intros b W; inversion W|]. simpl in Hs. destruct (take_task id (s_tasks s)) as [[t tasks]|]; [|discriminate].
    destruct (tk_phase t); try discriminate. destruct r as [resp|]; [|injection Hs as <- _; exact Hk].
    destruct (rs_msg resp); [|injection Hs as <- _; exact Hk]. destruct (adjust_ttls _ _). injection Hs as <- _. exact Hk.
  - apply step_store in Hs as [t [tasks [resp [Et [_ Es]]]]]. destruct (take_task_spec _ _ _ _ Et) as [<- [Hin _]].
    apply start_question_spec in Es as [_ [E _]].
    + rewrite E in Hk. eapply stored_cache_entry; eauto. apply (i_ids _ _ _ _ Hinv).
    + unfold stored_cache. destruct (tk_phase t); auto. destruct (cache_entry _ _ _ _) as [[copy t']|]; auto. now apply cache_put_NoDup.
  - simpl in Hs. destruct (adjust_ttls cfg (m_answer m)) as [ans ttl] eqn:Ea. injection Hs as <- _. cbn [s_cache] in Hk.
    assert (forall b, writes packable cfg s (ERemote key m now) k b -> exists copy life, cache_entry packable cfg (set_answer ans m) ttl = Some (copy, life) /\ (0 < life)%Z /\ k = key) as Hw.
    { intros b W. inversion W; subst. rewrite Ea in *. eauto. }
    destruct (cache_entry packable cfg (set_answer ans m) ttl) as [[copy life]|] eqn:Ec.
    + destruct (Z.leb_spec life 0).
      * right. split. { intros b W. destruct (Hw _ W) as [c' [l' [[= <- <-] [Hl _]]]]. lia. }
        rewrite put_mget in Hk. unfold ec_put in Hk. destruct (Z.leb_spec life 0); [auto|lia].
      * destruct (str_eq_dec k key) as [->|Hk'].
        -- left. rewrite put_mget, ec_put_same in Hk by auto. injection Hk as <-. simpl. econstructor; [rewrite Ea; exact Ec|auto].
        -- right. split. { intros b W. destruct (Hw _ W) as [c' [l' [_ [_ E]]]]. auto. }
           rewrite put_mget in Hk. apply ec_put_sub in Hk; auto. destruct Hk as [[-> _]|Hk]; auto. congruence.
    + right. split; auto. intros b W. destruct (Hw _ W) as [c' [l' [E _]]]. congruence.
  - right. split; [intros b W; inversion W|]. simpl in Hs. destruct (lru_peek key _); [|discriminate]. destruct (is_expired _ _); [|discriminate].
    destruct (cc_prefetching cfg); [|injection Hs as <- _; exact Hk]. destruct (should_prefetch _ _ _ _) as [b names].
    destruct b; [|injection Hs as <- _; exact Hk]. destruct (extract_cache_key key) as [[t name]|]; injection Hs as <- _; exact Hk.
  - right. split; [intros b W; inversion W|]. simpl in Hs. destruct (take_prefetch _ _) as [[[x|] rest]|]; try discriminate.
    destruct (reload_result _ _ _); injection Hs as <- _; exact Hk.
  - simpl in Hs. destruct (take_prefetch key (s_prefetch s)) as [[[[[m ttl]|]|] rest]|] eqn:Et; try discriminate;
      apply take_prefetch_first in Et; injection Hs as <- _; cbn [s_cache pf_cache] in Hk.
    + assert (forall b, writes packable cfg s (EReloadStore key now) k b -> k = key /\ (0 < ttl)%Z) as Hw.
      { intros b W. inversion W; subst. eapply first_for_fun in Et; [|eassumption]. injection Et as <- <-. auto. }
      destruct (Z.leb_spec ttl 0).
      * right. split. { intros b W. destruct (Hw _ W). lia. } unfold ec_put in Hk. destruct (Z.leb_spec ttl 0); [auto|lia].
      * destruct (str_eq_dec k key) as [->|Hk'].
        -- left. rewrite ec_put_same in Hk by auto. injection Hk as <-. simpl. econstructor; eauto.
        -- right. split. { intros b W. destruct (Hw _ W). auto. } apply ec_put_sub in Hk; auto. destruct Hk as [[-> _]|Hk]; auto. congruence.
    + right. split. { intros b W. inversion W; subst. eapply first_for_fun in Et; [|eassumption]. discriminate. }
      eapply lru_remove_mget_sub; eauto.
  - right. split; [intros b W; inversion W|]. injection Hs as <- _. exact Hk.
  - injection Hs as <- _. discriminate.
Qed.

Lemma run_prefix a b s : run packable cfg init (a ++ b) = Some s -> exists s0, run packable cfg init a = Some s0.
Proof. rewrite run_app. destruct (run packable cfg init a) as [s0|]; [eauto|discriminate]. Qed.

Lemma entry_written es : forall s k el, Forall wf_event es -> run packable cfg init es = Some s ->
  mget str_eqb k (pf_cache (s_cache s)) = Some el -> last_written packable cfg es k (cv_prefetch (el_val el)).
Proof.
  induction es as [|e es IH] using rev_ind; intros s k el Hw Hr Hk.
  - injection Hr as <-. discriminate.
  - apply Forall_app in Hw as [Hw _]. pose proof Hr as Hr'. rewrite run_app in Hr. destruct (run packable cfg init es) as [s0|] eqn:E0; [|discriminate].
    simpl in Hr. destruct (step packable cfg s0 e) as [[s1 o]|] eqn:Es; [|discriminate]. injection Hr as ->.
    destruct (step_entry _ _ _ _ _ _ _ (run_invariant packable cfg Hsize _ _ Hw E0) Es Hk) as [W|[Hno Hk0]].
    + exists es, e, [], s0. repeat split; auto. intros [|a a'] e' c' s' b' E; discriminate.
    + destruct (IH _ _ _ Hw eq_refl Hk0) as [before [w [after [sb [-> [H1 [H2 H3]]]]]]].
      exists before, w, (after ++ [e]), sb. split; [now rewrite <- app_assoc|]. split; auto. split; auto.
      intros a' e' c' s' b' E Hr2. destruct c' as [|x c'] using rev_ind.
      * apply app_inj_tail in E as [-> ->]. rewrite E0 in Hr2. injection Hr2 as <-. apply Hno.
      * rewrite app_comm_cons, app_assoc in E. apply app_inj_tail in E as [-> _]. eapply H3; eauto.
Qed.

Lemma last_written_fun es k b b' : last_written packable cfg es k b -> last_written packable cfg es k b' -> b = b'.
Proof.
  intros [x [e [y [s [-> [H1 [H2 H3]]]]]]] [x' [e' [y' [s' [E [H1' [H2' H3']]]]]]].
  assert (x = x' /\ e = e') as [-> ->].
  { revert x' E H1' H2' H3' H3 H1 H2. clear. intros x' E H1' H2' H3' H3 H1 H2.
    assert (forall z z' : list event, x ++ e :: y = x' ++ e' :: y' ->
      (x = x' /\ e = e') \/ (exists a c, y = a ++ e' :: c /\ x' = x ++ e :: a) \/ (exists a c, y' = a ++ e :: c /\ x = x' ++ e' :: a)) as D.
    { intros _ _. clear. revert x'. induction x as [|u x IH]; intros [|u' x'] E; simpl in E; injection E as ->.
      - auto.
      - right. left. exists x', y'. auto.
      - right. right. exists x, y. auto.
      - destruct (IH _ H) as [[-> ->]|[[a [c [-> ->]]]|[a [c [-> ->]]]]]; eauto 8. }
    destruct (D [] [] E) as [H|[[a [c [-> ->]]]|[a [c [-> ->]]]]]; auto.
    - exfalso. eapply H3; eauto.
    - exfalso. eapply H3'; eauto. }
  rewrite H1 in H1'. injection H1' as <-. inversion H2; subst; inversion H2'; subst; auto.
Qed.

(** ** The hits *)
Definition hits_flag (c : pf_state msg) (qs : list question) : bool :=
  match qs with
  | [] => false
  | q :: _ => cc_prefetching cfg && match mget str_eqb (question_key q) (pf_cache c) with Some e => cv_prefetch (el_val e) | None => false end
  end.

Lemma question_hits c qs now p : pm_hits (fold_left on_note (question_notes cfg qs now c) p) = (pm_hits p + if hits_flag c qs then 1 else 0)%N.
Proof.
  destruct qs as [|q qs]; simpl; [lia|]. unfold lookup_notes. destruct (cc_prefetching cfg); simpl; [|lia]. rewrite fold_left_app. unfold lru_peek.
  destruct (mget str_eqb (question_key q) (pf_cache c)) as [el|]; [destruct (cv_prefetch (el_val el))|]; destruct (0 <? _)%Z; simpl; lia.
Qed.

(** The cache and the questions of the lookup of a step. *)
Definition lookup_of (s : state) (e : event) : option (nat * pf_state msg * list question) :=
  match e with
  | EStart id req now => if negb (caching_enabled cfg) || negb (is_request_cacheable req) then None else Some (id, s_cache s, m_question (req_msg req))
  | EStore id now => match take_task id (s_tasks s) with
                     | Some (t, _) => match tk_phase t with Waiting => None | _ => Some (id, stored_cache s t now, tk_rest t) end
                     | None => None end
  | _ => None
  end.

Lemma notes_hits s e p : pm_hits (fold_left on_note (notes packable cfg s e) p) =
  (pm_hits p + match lookup_of s e with Some (_, c, qs) => if hits_flag c qs then 1 else 0 | None => 0 end)%N.
Proof.
  destruct e; simpl; rewrite ?N.add_0_r; auto.
  - destruct (_ || _); simpl; [lia|]. apply question_hits.
  - destruct (take_task id (s_tasks s)) as [[t l]|]; simpl; [|lia]. unfold stored_cache.
    destruct (tk_phase t); simpl; [lia| |]; apply question_hits.
  - destruct (reload_result packable cfg r) as [[x|]|]; simpl; lia.
Qed.

Lemma served_flag es e s s' out : cc_prefetching cfg = true -> Forall wf_event (es ++ [e]) -> run packable cfg init es = Some s ->
  step packable cfg s e = Some (s', out) ->
  prefetch_served packable cfg es e <-> exists id c qs, lookup_of s e = Some (id, c, qs) /\ hits_flag c qs = true.
Proof.
  intros Hpf Hw Hr Hs. pose proof Hw as Hw'. apply Forall_app in Hw' as [Hw0 _].
  pose proof (run_invariant packable cfg Hsize _ _ Hw0 Hr) as Hinv. pose proof (i_nodup _ _ _ _ Hinv) as Hn. pose proof (i_ids _ _ _ _ Hinv) as Hi.
  assert (run packable cfg init (es ++ [e]) = Some s') as Hr'. { rewrite run_app, Hr. simpl. now rewrite Hs. }
  (* what the lookup does *)
  assert (forall id c qs, lookup_of s e = Some (id, c, qs) -> exists req resp now tasks,
    start_question cfg id req qs resp now c tasks = (s_cache s', s_tasks s', out) /\ NoDup (map fst (pf_cache c))) as Hl.
  { intros id c qs. destruct e as [i req now| |i now| | | | | |]; simpl; try discriminate.
    - simpl in Hs. destruct (existsb _ _); [discriminate|]. destruct (_ || _); [discriminate|]. intros [= <- <- <-].
      destruct (start_question _ _ _ _ _ _ _ _) as [[c' tasks'] o] eqn:E. injection Hs as <- <-. simpl. eauto 8.
    - apply step_store in Hs as [t [tasks [resp [Et [Hp Es]]]]]. rewrite Et. destruct (tk_phase t) eqn:Ep; [congruence| |];
      intros [= <- <- <-]; exists (tk_req t), resp, now, tasks; (split; [exact Es|]); unfold stored_cache; rewrite Ep; auto.
      destruct (cache_entry _ _ _ _) as [[copy t']|]; auto. now apply cache_put_NoDup. }
  split.
  - intros [s1 [s1' [id [q [res [Hr1 [Hs1 [Hlu Hlw]]]]]]]]. rewrite Hr in Hr1. injection Hr1 as <-. rewrite Hs in Hs1. injection Hs1 as <- ->.
    assert (exists c qs, lookup_of s e = Some (id, c, q :: qs)) as [c [qs El]].
    { inversion Hlu; subst; simpl.
      - simpl in Hs. destruct (existsb _ _); [discriminate|]. destruct (_ || _); [discriminate|]. rewrite H. eauto.
      - destruct (step_store _ _ _ _ _ Hs) as [t' [tasks [resp [Et [Hp Es]]]]]. rewrite Et.
        destruct (take_task_spec _ _ _ _ Et) as [Eid [Hin [_ _]]].
        assert (t' = t) as ->.
        { clear -Hi Hin H Eid. induction (s_tasks s) as [|y l IH]; [easy|]. simpl in Hi. inversion Hi; subst.
          destruct Hin as [->|Hin], H as [->|H]; auto.
          - exfalso. apply H2. rewrite Eid. now apply in_map.
          - exfalso. apply H2. rewrite <- Eid. now apply in_map. }
        rewrite H1. destruct (tk_phase t); [congruence| |]; eauto. }
    exists id, c, (q :: qs). split; auto. destruct (Hl _ _ _ El) as [req [resp [now [tasks [Es Hnc]]]]].
    apply start_question_spec in Es as [_ [E2 E3]]; auto. unfold hits_flag. rewrite Hpf. simpl.
    destruct (mget str_eqb (question_key q) (pf_cache c)) as [el|] eqn:Eg; [|destruct E3; discriminate].
    rewrite <- E2 in Eg. eapply entry_written in Eg; [|exact Hw|exact Hr']. eapply last_written_fun; eauto.
  - intros [id [c [qs [El Hf]]]]. destruct (Hl _ _ _ El) as [req [resp [now [tasks [Es Hnc]]]]].
    apply start_question_spec in Es as [_ [E2 E3]]; auto. unfold hits_flag in Hf. destruct qs as [|q qs]; [discriminate|].
    rewrite Hpf in Hf. simpl in Hf. destruct (mget str_eqb (question_key q) (pf_cache c)) as [el|] eqn:Eg; [|discriminate].
    destruct E3 as [_ E3]. exists s, s', id, q. eexists. split; [exact Hr|]. split; [rewrite Hs, E3; reflexivity|].
    rewrite <- E2 in Eg. eapply entry_written in Eg; [|exact Hw|exact Hr']. rewrite Hf in Eg. split; [|exact Eg].
    destruct e as [i rq nw| |i nw| | | | | |]; simpl in El; try discriminate.
    + destruct (_ || _); [discriminate|]. injection El as <- _ El. econstructor; eauto.
    + destruct (take_task i (s_tasks s)) as [[t l]|] eqn:Et; [|discriminate]. destruct (take_task_spec _ _ _ _ Et) as [Eid [Hin _]].
      destruct (tk_phase t); [discriminate| |]; injection El as <- _ El; econstructor; eauto.
Qed.

(** blocky_prefetch_hits_total counts the queries that were answered with an entry written by prefetching. *)
Theorem C150_hits : forall es s p, cc_prefetching cfg = true -> Forall wf_event es ->
  metrics_run packable cfg true init pf_metrics_init es = Some (s, p) ->
  times (prefetch_served packable cfg) es (N.to_nat (pm_hits p)).
Proof.
  induction es as [|e es IH] using rev_ind; intros s p Hpf Hw H.
  - injection H as <- <-. constructor.
  - apply metrics_run_snoc in H as [s0 [p0 [out [H [Hs ->]]]]]. pose proof Hw as Hw'. apply Forall_app in Hw' as [Hw' _].
    specialize (IH _ _ Hpf Hw' H). pose proof (metrics_run_run _ _ _ _ _ _ H) as Hr.
    pose proof (served_flag _ _ _ _ _ Hpf Hw Hr Hs) as Hiff. rewrite notes_hits.
    destruct (lookup_of s0 e) as [[[id c] qs]|] eqn:El; [destruct (hits_flag c qs) eqn:Ef|].
    + rewrite N.add_1_r, N2Nat.inj_succ. apply times_one; auto. apply Hiff. eauto 6.
    + rewrite N.add_0_r. apply times_not; auto. intros X. apply Hiff in X as [i [c' [q' [[= <- <- <-] X]]]]. congruence.
    + rewrite N.add_0_r. apply times_not; auto. intros X. apply Hiff in X as [i [c' [q' [X _]]]]. discriminate.
Qed.

(** Neither the bootstrap cache nor a cache without prefetching counts anything. *)
Theorem C150_silent : forall emit es s p, emit = false \/ cc_prefetching cfg = false ->
  metrics_run packable cfg emit init pf_metrics_init es = Some (s, p) -> pm_domains p = 0 /\ pm_hits p = 0%N /\ pm_prefetches p = 0%N.
Proof.
  intros emit es s p Hoff. assert (cc_prefetching cfg = false -> forall es s p, metrics_run packable cfg emit init pf_metrics_init es = Some (s, p) ->
    p = pf_metrics_init /\ Forall (fun x => snd x = Some None) (s_prefetch s)) as Hno.
  { intros Hf es'. induction es' as [|e es' IH] using rev_ind; intros s' p' H.
    - injection H as <- <-. split; auto. constructor.
    - apply metrics_run_snoc in H as [s0 [p0 [out [H [Hs ->]]]]]. destruct (IH _ _ H) as [-> Hall].
      assert (forall qs now c, question_notes cfg qs now c = []) as Q. { intros [|q qs] now c; auto. simpl. unfold lookup_notes. now rewrite Hf. }
      assert (Forall (fun x => snd x = Some None) (s_prefetch s') /\ forall k r, e <> EReload k r) as [Hall' Hne].
      { assert (forall k x l, take_prefetch k (s_prefetch s0) = Some (x, l) -> x = Some None /\ Forall (fun x => snd x = Some None) l) as Htp.
        { intros k x l Et. apply take_prefetch_spec in Et as [Hin Hincl]. rewrite Forall_forall in Hall. split; [exact (Hall _ Hin)|]. apply Forall_forall. auto. }
        destruct e as [id req now|id r|id now|key m now|key now|key r|key now|now| ]; simpl in Hs; (split; [|try discriminate]).
        - destruct (existsb _ _); [discriminate|]. destruct (_ || _); [injection Hs as <- _; exact Hall|].
          destruct (start_question _ _ _ _ _ _ _ _) as [[c tasks] o]. injection Hs as <- _. exact Hall.
        - destruct (take_task id (s_tasks s0)) as [[t tasks]|]; [|discriminate]. destruct (tk_phase t); try discriminate.
          destruct r as [resp|]; [|injection Hs as <- _; exact Hall]. destruct (rs_msg resp); [|injection Hs as <- _; exact Hall].
          destruct (adjust_ttls _ _). injection Hs as <- _. exact Hall.
        - destruct (take_task id (s_tasks s0)) as [[t tasks]|]; [|discriminate]. destruct (tk_phase t); [discriminate| |];
          destruct (start_question _ _ _ _ _ _ _ _) as [[c tasks'] o]; injection Hs as <- _; exact Hall.
        - destruct (adjust_ttls _ _). injection Hs as <- _. exact Hall.
        - destruct (lru_peek key _); [|discriminate]. destruct (is_expired _ _); [|discriminate]. rewrite Hf in Hs. injection Hs as <- _.
          constructor; auto.
        - exfalso. destruct (take_prefetch key (s_prefetch s0)) as [[x l]|] eqn:Et; [|discriminate]. destruct (Htp _ _ _ Et) as [-> _]. discriminate.
        - exfalso. destruct (take_prefetch key (s_prefetch s0)) as [[x l]|] eqn:Et; [|discriminate]. destruct (Htp _ _ _ Et) as [-> _]. discriminate.
        - destruct (take_prefetch key (s_prefetch s0)) as [[x l]|] eqn:Et; [|discriminate]. destruct (Htp _ _ _ Et) as [-> Hl]. injection Hs as <- _. exact Hl.
        - injection Hs as <- _. exact Hall.
        - injection Hs as <- _. exact Hall. }
      split; auto. destruct emit; auto. assert (notes packable cfg s0 e = []) as ->; auto.
      destruct e; simpl; auto.
      + destruct (_ || _); auto.
      + destruct (take_task id (s_tasks s0)) as [[t l]|]; auto. destruct (tk_phase t); auto.
      + now destruct (Hne key r). }
  destruct Hoff as [->|Hf].
  - revert s p. induction es as [|e es IH] using rev_ind; intros s p H.
    + injection H as <- <-. auto.
    + apply metrics_run_snoc in H as [s0 [p0 [out [H [Hs ->]]]]]. eauto.
  - intros H. destruct (Hno Hf _ _ _ H) as [-> _]. auto.
Qed.
End Metrics.

(** ** The number of names *)
Lemma mdel_length {V} k (l : list (str * V)) : length (mdel str_eqb k l) <= length l.
Proof. induction l as [|[k' v] l IH]; simpl; auto. destruct (str_eqb k k'); simpl; lia. Qed.

Lemma mdel_length_in {V} k (l : list (str * V)) v : mget str_eqb k l = Some v -> length (mdel str_eqb k l) < length l.
Proof.
  induction l as [|[k' v'] l IH]; simpl; [discriminate|]. destruct (str_eqb k k'); simpl.
  - intros _. pose proof (mdel_length k l). lia.
  - intros H. apply IH in H. lia.
Qed.

Lemma ec_get_length {V} now k (l : lru (element V)) r l' : ec_get now k l = (r, l') -> length l' <= length l.
Proof.
  unfold ec_get, lru_get. destruct (mget str_eqb k l) as [e|] eqn:E; intros [= _ <-]; auto. simpl. apply mdel_length_in in E. lia.
Qed.

Lemma removelast_length {V} (l : list V) a : length (removelast (a :: l)) = length l.
Proof. revert a. induction l as [|b l IH]; intros a; [reflexivity|]. specialize (IH b). simpl in *. now rewrite IH. Qed.

Lemma ec_put_length {V} size now k (v : V) ttl l : length l <= size -> length (ec_put size now k v ttl l) <= size.
Proof.
  intros H. unfold ec_put. destruct (ttl <=? 0)%Z; auto. unfold lru_add. destruct (mget str_eqb k l) as [e|] eqn:E.
  - simpl. apply mdel_length_in in E. lia.
  - destruct (Nat.ltb_spec size (S (length l))); [rewrite removelast_length; lia|simpl; lia].
Qed.

Lemma track_length c now k names : length names <= pf_names_size c -> length (track c now k names) <= pf_names_size c.
Proof.
  intros H. unfold track. destruct (ec_get now k names) as [r l] eqn:E. apply ec_get_length in E. apply ec_put_length. lia.
Qed.

Lemma track_in c now k names : 1 <= pf_names_size c -> (0 < pf_expires c)%Z -> In k (map fst (track c now k names)).
Proof.
  intros H1 H2. unfold track. destruct (ec_get now k names) as [r l]. apply mget_Some_iff. eexists. now apply ec_put_same.
Qed.

Lemma clean_names_length {V} size now (l : lru (element V)) : length (clean_up size now (fun _ => None) l) <= length l.
Proof.
  unfold clean_up. assert (forall ks (l : lru (element V)), handle_expired size now (fun _ => None) ks l = (l, ks)) as E.
  { induction ks as [|k ks IH]; intros l0; simpl; auto. now rewrite IH. }
  rewrite E. unfold remove_keys. generalize (expired_keys now l). intros ks. revert l. induction ks as [|k ks IH]; intros l; simpl; auto.
  etransitivity; [apply IH|]. apply mdel_length.
Qed.

Section Names.
Variable packable : msg -> bool.
Variable cfg : caching_cfg.
Hypothesis Hsize : 1 <= pf_size (cc_pf cfg).

Definition names (s : state) : lru (element N) := pf_names (s_cache s).

Lemma cache_get_names now k c r c' : cache_get cfg now k c = (r, c') ->
  pf_names c' = if cc_prefetching cfg then track (cc_pf cfg) now k (pf_names c) else pf_names c.
Proof. unfold cache_get. simpl. destruct (cc_prefetching cfg); destruct (ec_get now k (pf_cache c)) as [x l]; intros [= _ <-]; reflexivity. Qed.

Lemma start_names id req qs resp now c tasks c' tasks' out : start_question cfg id req qs resp now c tasks = (c', tasks', out) ->
  pf_names c' = match qs with [] => pf_names c | q :: _ => if cc_prefetching cfg then track (cc_pf cfg) now (question_key q) (pf_names c) else pf_names c end.
Proof.
  unfold start_question. destruct qs as [|q rest]; [now intros [= <- _ _]|]. destruct (cache_get cfg now (question_key q) c) as [r c1] eqn:E.
  apply cache_get_names in E. destruct r as [[m ttl]|]; intros [= <- _ _]; exact E.
Qed.

(** What a step does to the names and to the gauge. *)
Lemma step_names s e s' out p : step packable cfg s e = Some (s', out) ->
  let g' := pm_domains (fold_left on_note (notes packable cfg s e) p) in
  (g' = pm_domains p /\ length (names s') <= length (names s)) \/
  (exists now k, names s' = track (cc_pf cfg) now k (names s) /\
     (if (0 <? pf_expires (cc_pf cfg))%Z then g' = length (names s') else g' = pm_domains p /\ length (names s') <= length (names s))).
Proof.
  intros Hs.
  assert (forall now k c p, cc_prefetching cfg = true -> pm_domains (fold_left on_note (lookup_notes cfg now k c) p) =
    if (0 <? pf_expires (cc_pf cfg))%Z then length (track (cc_pf cfg) now k (pf_names c)) else pm_domains p) as L.
  { intros now k c p0 Hpf. unfold lookup_notes. rewrite Hpf, fold_left_app.
    destruct (lru_peek k (pf_cache c)) as [el|]; [destruct (cv_prefetch (el_val el))|]; destruct (0 <? _)%Z; reflexivity. }
  assert (forall id req qs resp now c tasks tasks', pf_names c = names s -> start_question cfg id req qs resp now c tasks = (s_cache s', tasks', out) ->
    let g' := pm_domains (fold_left on_note (question_notes cfg qs now c) p) in
    (g' = pm_domains p /\ length (names s') <= length (names s)) \/
    (exists now k, names s' = track (cc_pf cfg) now k (names s) /\
       (if (0 <? pf_expires (cc_pf cfg))%Z then g' = length (names s') else g' = pm_domains p /\ length (names s') <= length (names s)))) as Q.
  { intros id req qs resp now c tasks tasks' Ec Es. apply start_names in Es. destruct qs as [|q qs].
    - left. split; auto. unfold names. rewrite Es, Ec. reflexivity.
    - cbn [question_notes]. destruct (cc_prefetching cfg) eqn:Epf.
      + right. exists now, (question_key q). unfold names at 1. rewrite Es, Ec. split; auto. rewrite L by auto. rewrite Ec.
        destruct (Z.ltb_spec 0 (pf_expires (cc_pf cfg))).
        * unfold names. rewrite Es, Ec. reflexivity.
        * split; auto. unfold names at 1. rewrite Es, Ec. unfold track. destruct (ec_get now (question_key q) (names s)) as [r l] eqn:E. apply ec_get_length in E.
          unfold ec_put. destruct (Z.leb_spec (pf_expires (cc_pf cfg)) 0); [exact E|lia].
      + left. unfold names, lookup_notes. rewrite Epf, Es, Ec. auto. }
  destruct e as [id req now|id r|id now|key m now|key now|key r|key now|now| ].
  - simpl in Hs. destruct (existsb _ _); [discriminate|]. simpl notes. destruct (_ || _); [injection Hs as <- _; left; auto|].
    destruct (start_question _ _ _ _ _ _ _ _) as [[c tasks] o] eqn:Es. injection Hs as <- <-. eapply Q; [|exact Es]. reflexivity.
  - left. simpl in Hs. destruct (take_task id (s_tasks s)) as [[t tasks]|]; [|discriminate]. destruct (tk_phase t); try discriminate.
    destruct r as [resp|]; [|injection Hs as <- _; auto]. destruct (rs_msg resp); [|injection Hs as <- _; auto]. destruct (adjust_ttls _ _). injection Hs as <- _. auto.
  - destruct (step_store _ _ _ _ _ _ _ Hs) as [t [tasks [resp [Et [Hp Es]]]]]. simpl notes. rewrite Et. unfold stored_cache in Es.
    destruct (tk_phase t) eqn:Ep; [congruence| |].
    + eapply Q; [|exact Es]. destruct (cache_entry _ _ _ _) as [[copy t']|]; reflexivity.
    + eapply Q; [|exact Es]. reflexivity.
  - left. simpl in Hs. destruct (adjust_ttls _ _). injection Hs as <- _. simpl. split; auto. unfold names. simpl. destruct (cache_entry _ _ _ _) as [[copy t']|]; reflexivity.
  - left. simpl in Hs. destruct (lru_peek key _); [|discriminate]. destruct (is_expired _ _); [|discriminate]. simpl. split; auto.
    destruct (cc_prefetching cfg); [|injection Hs as <- _; auto]. unfold should_prefetch in Hs.
    destruct (pf_threshold (cc_pf cfg) =? 0)%Z.
    + destruct (extract_cache_key key) as [[t name]|]; injection Hs as <- _; auto.
    + destruct (ec_get now key (pf_names (s_cache s))) as [r l] eqn:E. apply ec_get_length in E.
      destruct (match r with Some (c, _) => (pf_threshold (cc_pf cfg) <? Z.of_N c)%Z | None => false end).
      * destruct (extract_cache_key key) as [[t name]|]; injection Hs as <- _; auto.
      * injection Hs as <- _. auto.
  - left. simpl in Hs. destruct (take_prefetch _ _) as [[[x|] rest]|]; try discriminate. simpl.
    destruct (reload_result _ _ _) as [[x|]|]; injection Hs as <- _; auto.
  - left. simpl in Hs. destruct (take_prefetch _ _) as [[[[[m ttl]|]|] rest]|]; try discriminate; injection Hs as <- _; auto.
  - left. injection Hs as <- _. simpl. split; auto. unfold names. simpl. apply clean_names_length.
  - left. injection Hs as <- _. simpl. split; auto. unfold names. simpl. lia.
Qed.

(** blocky_prefetch_domain_name_cache_entries is never below the number of names whose lookups are counted, and never
    above the configured number of names.  (That it is always equal is refuted below.) *)
Theorem C150_names_partial : forall es s p, metrics_run packable cfg true init pf_metrics_init es = Some (s, p) ->
  length (pf_names (s_cache s)) <= pm_domains p <= pf_names_size (cc_pf cfg).
Proof.
  intros es. assert (forall s p, metrics_run packable cfg true init pf_metrics_init es = Some (s, p) ->
    length (names s) <= pm_domains p <= pf_names_size (cc_pf cfg)) as H; [|exact H].
  induction es as [|e es IH] using rev_ind; intros s p H.
  - injection H as <- <-. simpl. lia.
  - apply metrics_run_snoc in H as [s0 [p0 [out [H [Hs ->]]]]]. specialize (IH _ _ H).
    destruct (step_names _ _ _ _ p0 Hs) as [[-> L]|[now [k [E L]]]]; [lia|]. destruct (0 <? _)%Z; [|destruct L as [-> L]; lia].
    rewrite L. split; auto. rewrite E. apply track_length. lia.
Qed.

(** Right after the lookup of a name it is exact, and the name is one of those counted. *)
Theorem C150_names_exact : forall es e s p s0 id q, cc_prefetching cfg = true -> (0 < pf_expires (cc_pf cfg))%Z ->
  1 <= pf_names_size (cc_pf cfg) -> Forall wf_event es -> run packable cfg init es = Some s0 -> looks_up s0 e id q ->
  (forall req now, e = EStart id req now -> caching_enabled cfg = true /\ is_request_cacheable req = true) ->
  metrics_run packable cfg true init pf_metrics_init (es ++ [e]) = Some (s, p) ->
  pm_domains p = length (pf_names (s_cache s)) /\ In (question_key q) (map fst (pf_names (s_cache s))).
Proof.
  intros es e s p s0 id q Hpf Hex Hns Hw Hr Hlu Hc H. apply metrics_run_snoc in H as [s1 [p0 [out [H [Hs ->]]]]].
  pose proof (metrics_run_run _ _ _ _ _ _ _ _ H) as Hr1. rewrite Hr in Hr1. injection Hr1 as <-.
  pose proof (run_invariant packable cfg Hsize _ _ Hw Hr) as Hinv. pose proof (i_ids _ _ _ _ Hinv) as Hi.
  assert (exists req qs resp now c tasks, start_question cfg id req (q :: qs) resp now c tasks = (s_cache s, s_tasks s, out) /\
    notes packable cfg s0 e = lookup_notes cfg now (question_key q) c) as [req [qs [resp [now [c [tasks [Es En]]]]]]].
  { inversion Hlu; subst.
    - destruct (Hc _ _ eq_refl) as [H1 H2]. simpl in Hs. destruct (existsb _ _); [discriminate|]. simpl notes. rewrite H1, H2 in *. simpl in Hs |- *.
      rewrite H0 in *. destruct (start_question _ _ _ _ _ _ _ _) as [[c tasks] o] eqn:Es. injection Hs as <- <-. cbn [s_cache s_tasks].
      exists req, rest, None, now, (s_cache s0), (s_tasks s0). split; [exact Es|reflexivity].
    - destruct (step_store _ _ _ _ _ _ _ Hs) as [t' [tasks [resp [Et [Hp Es]]]]]. destruct (take_task_spec _ _ _ _ Et) as [Eid [Hin _]].
      assert (t' = t) as ->.
      { clear -Hi Hin H0 Eid. induction (s_tasks s0) as [|y l IH]; [easy|]. simpl in Hi. inversion Hi; subst.
        destruct Hin as [->|Hin], H0 as [->|H0]; auto.
        - exfalso. apply H2. rewrite Eid. now apply in_map.
        - exfalso. apply H2. rewrite <- Eid. now apply in_map. }
      rewrite H2 in Es. exists (tk_req t), rest, resp, now, (stored_cache packable cfg s0 t now), tasks. split; [exact Es|].
      simpl. rewrite Et, H2. unfold stored_cache. destruct (tk_phase t); [congruence| |]; reflexivity. }
  apply start_names in Es. rewrite Hpf in Es. rewrite En, Es. split; [|now apply track_in].
  unfold lookup_notes. rewrite Hpf, fold_left_app. destruct (Z.ltb_spec 0 (pf_expires (cc_pf cfg))); [|lia].
  destruct (lru_peek _ (pf_cache c)) as [el|]; [destruct (cv_prefetch (el_val el))|]; reflexivity.
Qed.

(** ** C151 *)
(** What one clean-up makes of an expired name, when nothing else happens to the name meanwhile: without a prefetch or
    without a usable answer it is dropped; a usable answer with a lifetime takes its place; but with a usable answer
    without lifetime everything stays as it was. *)
Theorem C151_clean_up_partial : forall es s k m x now s1 out, Forall wf_event es -> run packable cfg init es = Some s ->
  entry s k = Some (m, x) -> step packable cfg s (EExpired k now) = Some (s1, out) -> out <> [Crashed None] ->
  (out = [] -> forall now' s2 o, step packable cfg s1 (EReloadStore k now') = Some (s2, o) -> entry s2 k = None) /\
  (out <> [] -> forall r now' s2 s3 o o', step packable cfg s1 (EReload k r) = Some (s2, o) -> o <> [Crashed None] ->
     step packable cfg s2 (EReloadStore k now') = Some (s3, o') ->
     (~ usable packable r -> entry s3 k = None) /\
     (forall resp m' cl ns, r = Ok resp -> rs_msg resp = Some m' -> m_rcode m' = 0%N -> packable m' = true ->
        sane_cfg cfg -> sane_ttls (m_answer m') -> clamped_answer cfg (m_answer m') cl -> lifetime cfg cl ns ->
        ((0 < ns)%Z -> entry s3 k = Some (m', now' + ns / 1000000)%Z) /\
        ((ns <= 0)%Z -> entry s3 k = Some (m, x)))).
Proof.
  intros es s k m x now s1 out Hw Hr He Hs Hout. pose proof (run_invariant packable cfg Hsize _ _ Hw Hr) as Hinv. pose proof (i_nodup _ _ _ _ Hinv) as Hn.
  assert (pf_cache (s_cache s1) = pf_cache (s_cache s) /\
    ((out = [] /\ s_prefetch s1 = (k, Some None) :: s_prefetch s) \/ (out <> [] /\ s_prefetch s1 = (k, None) :: s_prefetch s))) as [Ec Ep].
  { simpl in Hs. destruct (lru_peek k _); [|discriminate]. destruct (is_expired _ _); [|discriminate].
    destruct (cc_prefetching cfg); [|injection Hs as <- <-; auto]. destruct (should_prefetch _ _ _ _) as [b nm].
    destruct b; [|injection Hs as <- <-; auto]. destruct (extract_cache_key k) as [[t name]|].
    - injection Hs as <- <-. split; auto. right. split; [discriminate|reflexivity].
    - injection Hs as _ <-. congruence. }
  split.
  - intros -> now' s2 o Hs2. destruct Ep as [[_ Ep]|[C _]]; [|congruence]. simpl in Hs2. rewrite Ep in Hs2. simpl in Hs2. rewrite str_eqb_refl in Hs2.
    injection Hs2 as <- _. rewrite entry_mget. simpl. unfold lru_remove. now rewrite mget_mdel_same.
  - intros Hne r now' s2 s3 o o' Hs2 Ho Hs3. destruct Ep as [[C _]|[_ Ep]]; [congruence|].
    cbn [step] in Hs2. rewrite Ep in Hs2. cbn [take_prefetch] in Hs2. rewrite str_eqb_refl in Hs2. split.
    + intros Hu. destruct (reload_result packable cfg r) as [y|] eqn:Er; [|injection Hs2 as _ <-; congruence].
      destruct y as [y|]; [exfalso; apply Hu, (reload_usable packable cfg); eauto|]. injection Hs2 as <- _.
      cbn [step s_prefetch take_prefetch] in Hs3. rewrite str_eqb_refl in Hs3. injection Hs3 as <- _. rewrite entry_mget. simpl. unfold lru_remove. now rewrite mget_mdel_same.
    + intros resp m' cl ns -> Em Hrc Hpk Hsc Hst Hcl Hlf.
      assert (snd (adjust_ttls cfg (m_answer m')) = ns) as Ens.
      { eapply lifetime_fun; [|exact Hlf]. rewrite (clamped_answer_fun _ _ _ _ Hcl (adjust_ttls_answer cfg _ Hsc)). now apply adjust_ttls_lifetime. }
      assert (reload_result packable cfg (Ok resp) = Some (Some (m', ns))) as Er.
      { unfold reload_result. rewrite Em, Hpk, <- Ens. unfold rcode_success. now rewrite (proj2 (N.eqb_eq _ _) Hrc). }
      rewrite Er in Hs2. injection Hs2 as <- _. cbn [step s_prefetch take_prefetch] in Hs3. rewrite str_eqb_refl in Hs3. injection Hs3 as <- _.
      split; intros Hns; rewrite entry_mget; cbn [s_cache pf_cache].
      * rewrite ec_put_same by auto. simpl. unfold to_ms. now rewrite Z.quot_div_nonneg by lia.
      * unfold ec_put. destruct (Z.leb_spec ns 0); [|lia]. rewrite Ec. now rewrite entry_mget in He.
Qed.
End Names.

(** ** Concrete cases *)
Definition pf_cfg (threshold expires : Z) : caching_cfg :=
  {| cc_min := 0; cc_max := 0; cc_neg := 1800000000000; cc_prefetching := true;
     cc_pf := {| pf_size := 3; pf_names_size := 3; pf_threshold := threshold; pf_expires := expires |} |}.
Definition pf_key : str := question_key (ex_q $"a.").
Definition pf_hist : list event :=
  [EStart 1 (ex_req 7 [ex_q $"a."]) 1000; ENext 1 (ex_resp 0 [ex_rr $"a." 10]); EStore 1 1100;
   EStart 2 (ex_req 8 [ex_q $"A."]) 2000;
   EExpired pf_key 20000; EReload pf_key (ex_resp 0 [ex_rr $"a." 60]); EReloadStore pf_key 20010;
   EStart 3 (ex_req 9 [ex_q $"a."]) 21000; EStart 4 (ex_req 9 [ex_q $"a."]) 22000]%Z.

(** Two lookups exceed the threshold 1; the prefetched entry answers two more. *)
Example metrics_case : Forall wf_event pf_hist /\
  exists s, metrics_run ex_all (pf_cfg 1 7200000000000) true init pf_metrics_init pf_hist = Some (s, {| pm_domains := 1; pm_prefetches := 1; pm_hits := 2 |}).
Proof.
  split.
  - repeat (apply Forall_cons; [simpl; auto; try (intros q [<-|[]]; reflexivity)|]). apply Forall_nil.
  - eexists. vm_compute. reflexivity.
Qed.

(** The last lookup is counted: the entry was written by prefetching. *)
Example served_case : prefetch_served ex_all (pf_cfg 1 7200000000000) (removelast pf_hist) (EStart 4 (ex_req 9 [ex_q $"a."]) 22000).
Proof.
  destruct metrics_case as [Hw _].
  assert (exists s, run ex_all (pf_cfg 1 7200000000000) init (removelast pf_hist) = Some s) as [s Hr]. { eexists. vm_compute. reflexivity. }
  assert (exists s' out, step ex_all (pf_cfg 1 7200000000000) s (EStart 4 (ex_req 9 [ex_q $"a."]) 22000) = Some (s', out)) as [s' [out Hs]].
  { vm_compute in Hr. injection Hr as <-. do 2 eexists. vm_compute. reflexivity. }
  eapply (served_flag ex_all (pf_cfg 1 7200000000000)) with (es := removelast pf_hist); [simpl; lia|reflexivity|exact Hw|exact Hr|exact Hs|].
  vm_compute in Hr. injection Hr as <-. do 3 eexists. vm_compute. split; reflexivity.
Qed.

Example names_case : exists s0, run ex_all (pf_cfg 1 7200000000000) init (removelast pf_hist) = Some s0 /\
  looks_up s0 (EStart 4 (ex_req 9 [ex_q $"a."]) 22000) 4 (ex_q $"a.") /\ caching_enabled (pf_cfg 1 7200000000000) = true /\
  is_request_cacheable (ex_req 9 [ex_q $"a."]) = true.
Proof. eexists. split; [vm_compute; reflexivity|]. repeat split. econstructor. reflexivity. Qed.

(** After a flush the number of names is still shown. *)
Theorem C150_names_refuted : exists cfg es s p, 1 <= pf_size (cc_pf cfg) /\ Forall wf_event es /\
  metrics_run ex_all cfg true init pf_metrics_init es = Some (s, p) /\ pf_names (s_cache s) = [] /\ pm_domains p = 1.
Proof.
  exists (pf_cfg 1 7200000000000), (pf_hist ++ [EFlush]). do 2 eexists. split; [simpl; lia|]. split; [|split; [vm_compute; reflexivity|split; reflexivity]].
  apply Forall_app. split; [exact (proj1 metrics_case)|repeat constructor].
Qed.

(** A prefetch is counted although nothing of it can be used: its answer has no lifetime. *)
Theorem C150_useless_refuted : exists cfg es s p, 1 <= pf_size (cc_pf cfg) /\ Forall wf_event es /\
  metrics_run ex_all cfg true init pf_metrics_init es = Some (s, p) /\ pm_prefetches p = 3%N /\
  forall before e after s0 k, es = before ++ e :: after -> run ex_all cfg init before = Some s0 -> ~ writes ex_all cfg s0 e k true.
Proof.
  set (round := fun t : Z => [EExpired pf_key t; EReload pf_key (ex_resp 0 [ex_rr $"a." 0]); EReloadStore pf_key t]).
  exists (pf_cfg 0 7200000000000), ([EStart 1 (ex_req 7 [ex_q $"a."]) 1000; ENext 1 (ex_resp 0 [ex_rr $"a." 10]); EStore 1 1100] ++ round 20000 ++ round 25000 ++ round 30000)%Z.
  do 2 eexists. split; [simpl; lia|]. split.
  { repeat (apply Forall_cons; [simpl; auto; try (intros q [<-|[]]; reflexivity)|]). apply Forall_nil. }
  split; [vm_compute; reflexivity|]. split; [reflexivity|].
  intros before e after s0 k E Hr W. inversion W; subst. cbn [app round] in E. unfold round in E.
  do 12 (destruct before as [|? before];
    [ first [ discriminate E
            | injection E as <- <- _; vm_compute in Hr; injection Hr as <-; destruct H as [a [b [E2 Ha]]]; destruct a as [|? a];
              [injection E2 as <- <- _; lia|destruct a; discriminate] ]
    | cbn [app] in E; injection E as <- E ]).
  destruct before; discriminate E.
Qed.

(** One round of the clean-up: the name has expired, is looked up again, and the answer has a TTL of 0. *)
Definition zero_round (t : Z) : list event :=
  [EExpired pf_key t; EReload pf_key (Ok {| rs_msg := Some (set_answer [{| rr_name := $"a."; rr_type := 1; rr_class := 1; rr_ttl := 0; rr_data := DA (IP4 [198; 51; 100; 9]%N) |}] (ex_msg 0 []));
                                            rs_reason := $"RESOLVED"; rs_type := RESOLVED |}); EReloadStore pf_key t].
(** [n] rounds, one every five seconds. *)
Fixpoint zero_rounds (n : nat) (t : Z) : list event :=
  match n with O => [] | S n' => zero_round t ++ zero_rounds n' (t + 5000)%Z end.

(** An expired address is served for ever: however many rounds of the clean-up have looked up the name since, and got
    another address with a TTL of 0. *)
Theorem C151_for_ever_refuted : exists cfg hist, 1 <= pf_size (cc_pf cfg) /\ sane_cfg cfg /\ Forall wf_event hist /\
  forall n, exists s s' r m, run ex_all cfg init (hist ++ zero_rounds n 20000) = Some s /\
    step ex_all cfg s (EStart 2 (ex_req 8 [ex_q $"a."]) (20000 + 5000 * Z.of_nat n)) = Some (s', [Reply 2 (Ok r)]) /\
    rs_msg r = Some m /\ map rr_data (m_answer m) = [DA (IP4 [192; 0; 2; 1]%N)] /\
    exists k e, entry s k = Some e /\ snd e = 11100%Z.
Proof.
  set (hist := [EStart 1 (ex_req 7 [ex_q $"a."]) 1000; ENext 1 (ex_resp 0 [ex_rr $"a." 10]); EStore 1 1100]%Z).
  exists (pf_cfg 0 7200000000000), hist. split; [simpl; lia|]. split; [repeat split|]. split.
  { repeat (apply Forall_cons; [simpl; auto; try (intros q [<-|[]]; reflexivity)|]). apply Forall_nil. }
  intros n. assert (exists s, run ex_all (pf_cfg 0 7200000000000) init hist = Some s) as [s Hs]. { eexists. vm_compute. reflexivity. }
  assert (forall n t, (20000 <= t)%Z -> run ex_all (pf_cfg 0 7200000000000) s (zero_rounds n t) = Some s) as Hrun.
  { clear n. induction n as [|n IH]; intros t Ht; [reflexivity|]. cbn [zero_rounds]. rewrite run_app.
    assert (run ex_all (pf_cfg 0 7200000000000) s (zero_round t) = Some s) as ->; [|apply IH; lia].
    vm_compute in Hs. injection Hs as <-. unfold zero_round.
    assert (forall e : element (cache_value msg), el_expires e = 11100%Z -> is_expired t e = true) as Hexp.
    { intros e He. unfold is_expired. rewrite He. destruct (Z.ltb_spec 11100 t); [reflexivity|lia]. }
    cbn [run]. remember (step ex_all (pf_cfg 0 7200000000000)) as st eqn:Est.
    match goal with |- context [st ?x (EExpired pf_key t)] => set (s0 := x) end.
    assert (st s0 (EExpired pf_key t) = Some ({| s_cache := s_cache s0; s_tasks := s_tasks s0; s_prefetch := [(pf_key, None)] |}, [Forward None (new_request 0 $"a" 1)])) as ->.
    { subst st s0. cbn [step s_cache pf_cache s_prefetch s_tasks pf_names].
      match goal with |- context [lru_peek pf_key ?l] => assert (exists e, lru_peek pf_key l = Some e /\ el_expires e = 11100%Z) as [e [-> He]] end.
      { eexists. split; vm_compute; reflexivity. }
      rewrite (Hexp _ He). vm_compute. reflexivity. }
    subst st s0. vm_compute. reflexivity. }
  exists s. rewrite run_app, Hs, Hrun by lia. vm_compute in Hs. injection Hs as <-.
  set (t := (20000 + 5000 * Z.of_nat n)%Z). assert (20000 <= t)%Z as Ht by (unfold t; lia). clearbody t.
  assert (forall e, (e <= 20000)%Z -> remain_ttl t e = 0%Z) as Hrem. { intros e He. unfold remain_ttl. destruct (Z.ltb_spec t e); lia. }
  match goal with |- context [step _ _ ?x _] => set (s0 := x) end.
  assert (exists s', step ex_all (pf_cfg 0 7200000000000) s0 (EStart 2 (ex_req 8 [ex_q $"a."]) t) =
    Some (s', [Reply 2 (Ok (cached_reply (ex_req 8 [ex_q $"a."]) (set_extra [] (ex_msg 0 [ex_rr $"a." 10])) 0))])) as [s' Hs'].
  { unfold s0, step. cbn [s_tasks existsb]. change (negb (caching_enabled (pf_cfg 0 7200000000000)) || negb (is_request_cacheable (ex_req 8 [ex_q $"a."]))) with false.
    cbn [app]. cbn [s_cache]. unfold start_question.
    change (m_question (req_msg (ex_req 8 [ex_q $"a."]))) with [ex_q $"a."]. cbn iota.
    unfold cache_get. cbn [cc_prefetching pf_cfg pf_step]. unfold ec_get. cbn [pf_cache].
    match goal with |- context [lru_get (question_key (ex_q $"a.")) ?l] => assert (exists e, lru_get (question_key (ex_q $"a.")) l = (Some e, [(pf_key, e)]) /\ (el_expires e <= 20000)%Z /\
      cv_element (el_val e) = set_extra [] (ex_msg 0 [ex_rr $"a." 10])) as [e [-> [He Hv]]] end.
    { eexists. split; [vm_compute; reflexivity|]. split; [vm_compute; discriminate|vm_compute; reflexivity]. }
    cbn iota beta. rewrite (Hrem _ He), Hv. eexists. reflexivity. }
  exists s'. do 2 eexists. split; [reflexivity|]. split; [exact Hs'|].
  split; [vm_compute; reflexivity|]. split; [vm_compute; reflexivity|]. exists pf_key. eexists. split; vm_compute; reflexivity.
Qed.

(** The hypotheses of the clean-up: an expired name, and both kinds of usable answers. *)
Example clean_up_case : exists s s1 rq x, run ex_all (pf_cfg 0 7200000000000) init (firstn 3 pf_hist) = Some s /\
  entry s pf_key = Some x /\ step ex_all (pf_cfg 0 7200000000000) s (EExpired pf_key 20000) = Some (s1, [Forward None rq]) /\
  usable ex_all (ex_resp 0 [ex_rr $"a." 60]) /\ lifetime (pf_cfg 0 7200000000000) [ex_rr $"a." 60] 60000000000 /\
  lifetime (pf_cfg 0 7200000000000) [ex_rr $"a." 0] 0.
Proof.
  do 4 eexists. split; [vm_compute; reflexivity|]. split; [vm_compute; reflexivity|]. split; [vm_compute; reflexivity|]. split.
  - do 2 eexists. repeat split; reflexivity.
  - split; right; [exists 60%N|exists 0%N]; (split; [|reflexivity]); (split; [eexists; split; [now left|reflexivity]|intros r [<-|[]]; vm_compute; discriminate]).
Qed.

Print Assumptions C150_prefetches.
Print Assumptions C150_hits.
Print Assumptions C150_silent.
Print Assumptions C150_names_partial.
Print Assumptions C150_names_exact.
Print Assumptions C150_names_refuted.
Print Assumptions C150_useless_refuted.
Print Assumptions C151_clean_up_partial.
Print Assumptions C151_for_ever_refuted.
