(** Facts about the lists after a refresh of all groups (C133). *)
From Coq Require Import String Ascii List Arith NArith ZArith Bool Permutation Lia.
From Verif Require Import Str StrFacts StringCache StringCacheSpec StringCacheProofs StringCacheProps
  Parsers ParsersSpec ParsersProofs ParsersProps Target Download DownloadSpec DownloadProps Dns Resolver BlockingSpec EndToEnd EndToEndSpec.
Import ListNotations.
Open Scope list_scope.

Lemma parse_source_iff s src : source_text s src <-> parse_source s = src.
Proof.
  unfold parse_source. split.
  - intros [s0 H|t H|p H|s0 H H1 H2].
    + apply contains_byte_In in H. now rewrite H.
    + assert (contains_byte "010"%char ($"http" ++ t) = false) as ->.
      { apply contains_byte_not_In. intros G. apply in_app_or in G as [G|G]; [|exact (H G)]. cbn in G. intuition discriminate. }
      assert (has_prefix ($"http" ++ t) ($"http") = true) as -> by (apply has_prefix_spec; now exists t). reflexivity.
    + assert (contains_byte "010"%char ($"file://" ++ p) = false) as ->.
      { apply contains_byte_not_In. intros G. apply in_app_or in G as [G|G]; [|exact (H G)]. cbn in G. intuition discriminate. }
      cbn [has_prefix lit app]. unfold trim_prefix. assert (has_prefix ($"file://" ++ p) ($"file://") = true) as -> by (apply has_prefix_spec; now exists p).
      reflexivity.
    + apply contains_byte_not_In in H. rewrite H. destruct (has_prefix s0 ($"http")) eqn:E.
      * apply has_prefix_spec in E as [t E]. now apply H1 in E.
      * unfold trim_prefix. destruct (has_prefix s0 ($"file://")) eqn:E'; [|reflexivity].
        apply has_prefix_spec in E' as [t E']. now apply H2 in E'.
  - intros <-. destruct (contains_byte "010"%char s) eqn:E.
    + apply st_inline. now apply contains_byte_In.
    + apply contains_byte_not_In in E. destruct (has_prefix s ($"http")) eqn:E1.
      * apply has_prefix_spec in E1 as [t ->]. apply st_link. intros G. apply E. apply in_or_app. now right.
      * unfold trim_prefix. destruct (has_prefix s ($"file://")) eqn:E2.
        -- apply has_prefix_spec in E2 as [t ->]. assert (skipn (length ($"file://")) ($"file://" ++ t) = t) as -> by reflexivity.
           apply st_file_url. intros G. apply E. apply in_or_app. now right.
        -- apply st_file; auto.
           ++ intros t ->. assert (has_prefix ($"http" ++ t) ($"http") = true) by (apply has_prefix_spec; now exists t). congruence.
           ++ intros t ->. assert (has_prefix ($"file://" ++ t) ($"file://") = true) by (apply has_prefix_spec; now exists t). congruence.
Qed.

Section Fuel.
Variable parse_ip to_ascii : str -> option str.
Variable compiles : str -> bool.
Variable file : str -> option (list str * scan_end).
Variable net : str -> nat -> answer.

Lemma retry_more attempts f : forall fuel n x d, retry_do fuel attempts f n = Some x -> retry_do (fuel + d) attempts f n = Some x.
Proof.
  induction fuel as [|fuel IH]; intros n x d H; [discriminate|]. cbn [retry_do Nat.add] in *. destruct (one_try (f n)) as [evs [b|e]]; [exact H|].
  destruct (_ =? _)%N; [exact H|]. destruct (retry_do fuel attempts f (S n)) as [[evs' r']|] eqn:E; [|discriminate].
  now rewrite (IH _ _ d E).
Qed.

Lemma produce_all_more attempts limit cuts fuel d : forall srcs i x,
  produce_all parse_ip to_ascii compiles file net fuel attempts limit cuts i srcs = Some x ->
  produce_all parse_ip to_ascii compiles file net (fuel + d) attempts limit cuts i srcs = Some x.
Proof.
  induction srcs as [|s srcs IH]; intros i x H; cbn [produce_all] in *; [exact H|].
  destruct (produce parse_ip to_ascii compiles file net fuel attempts limit (cuts i) s) as [p|] eqn:E; [|discriminate].
  assert (produce parse_ip to_ascii compiles file net (fuel + d) attempts limit (cuts i) s = Some p) as ->.
  { revert E. unfold produce, open_source, download_file. destruct s as [t|link|p0]; auto.
    destruct (retry_do fuel attempts (net link) 0) as [[evs r]|] eqn:Er; [|discriminate]. now rewrite (retry_more _ _ _ _ _ d Er). }
  destruct (produce_all _ _ _ _ _ fuel attempts limit cuts (S i) srcs) as [ps|] eqn:E2; [|discriminate]. now rewrite (IH _ _ E2).
Qed.

Lemma readable_fun attempts s ls ls' : readable file net attempts s ls -> readable file net attempts s ls' -> ls = ls'.
Proof.
  destruct s as [t|link|p]; cbn [readable].
  - intros [H1 H2] [H3 _]. apply scan_text_spec in H1; auto. apply scan_text_spec in H3; auto. congruence.
  - intros [k [[H1 H2] _]] [k' [[H3 H4] _]]. destruct (lt_eq_lt_dec k k') as [[H|H]|H].
    + elim (H4 k H _ H1).
    + subst k'. unfold delivers in *. cbn in *. congruence.
    + elim (H2 k' H _ H3).
  - congruence.
Qed.

Lemma first_bound attempts srcs : (forall s, In s srcs -> exists ls, readable file net attempts s ls) -> exists m, enough net attempts m srcs.
Proof.
  induction srcs as [|s srcs IH]; intros H.
  - exists 0. intros link k b [].
  - destruct IH as [m Hm]; [intros s' Hs; apply H; now right|]. destruct (H s (or_introl eq_refl)) as [ls Hl]. destruct s as [t|link|p].
    + exists m. intros l k b [E|E] Hk; [discriminate|eauto].
    + cbn in Hl. destruct Hl as [k0 [[A1 A2] _]]. exists (S (m + k0)). intros l k b [E|E] [B1 B2].
      * injection E as <-. destruct (le_lt_dec k k0) as [|Hlt]; [lia|]. exfalso. exact (B2 k0 Hlt _ A1).
      * specialize (Hm l k b E (conj B1 B2)). lia.
    + exists m. intros l k b [E|E] Hk; [discriminate|eauto].
Qed.

(** The load of a group all of whose sources can be read. *)
Lemma group_load_good compile attempts limit g srcs load :
  (forall s, In s srcs -> exists ls, has_lines file net attempts s ls /\ few_errors parse_ip to_ascii compiles limit ls /\
    ~ written parse_ip to_ascii compiles ls $"/") ->
  group_load parse_ip to_ascii compiles file net attempts limit (fun _ => None) (g, srcs) load ->
  exists es, load = (g, (es, NoErr)) /\ ~ In [slash] es /\
    forall n, list_matches compile es n <->
      exists s ls e, In s srcs /\ has_lines file net attempts s ls /\ written parse_ip to_ascii compiles ls e /\ entry_matches compile e n.
Proof.
  intros Hg [Hn [fuel [produced [Hp [Hperm Herr]]]]]. cbn [fst snd] in *.
  assert (exists lss, Forall2 (readable file net attempts) (map parse_source srcs) lss /\ Forall (few_errors parse_ip to_ascii compiles limit) lss /\
    (forall ls, In ls lss -> ~ written parse_ip to_ascii compiles ls [slash])) as [lss [Hr [Hf Hw]]].
  { clear -Hg. induction srcs as [|s srcs IH].
    - exists []. split; [constructor|]. split; [constructor|]. intros ls [].
    - destruct IH as [lss [A1 [A2 A3]]]; [intros s' Hs; apply Hg; now right|]. destruct (Hg s (or_introl eq_refl)) as [ls [[src [B1 B2]] [B3 B4]]].
      apply parse_source_iff in B1 as <-. exists (ls :: lss). split; [now constructor|]. split; [now constructor|].
      intros l [<-|Hl]; [exact B4|auto]. }
  destruct (first_bound attempts (map parse_source srcs)) as [m Hm].
  { intros s Hs. clear -Hr Hs. revert Hs. induction Hr as [|s0 ls srcs0 lss H Hr IH]; [intros []|]. intros [->|Hs]; eauto. }
  destruct (produce_all_readable parse_ip to_ascii compiles file net (fuel + m) attempts limit (map parse_source srcs) lss Hr Hf) with (i := 0)
    as [produced' [Hp' [Hs' He']]].
  { intros link k b Hin Hk. specialize (Hm link k b Hin Hk). lia. }
  rewrite (produce_all_more attempts limit _ fuel m _ _ _ Hp) in Hp'. injection Hp' as <-.
  assert (snd (snd load) = NoErr) as Hno.
  { assert (forall x, In x (map snd produced) -> x = NoErr) as Hall.
    { rewrite Hs'. intros x Hx. apply in_map_iff in Hx as [? [Hx _]]. now symmetry. }
    destruct (snd (snd load)); [reflexivity| |]; cbn [may_report] in Herr; apply Hall in Herr; discriminate. }
  assert (forall e, In e (fst (snd load)) <-> exists ls, In ls lss /\ written parse_ip to_ascii compiles ls e) as Hes.
  { intros e. rewrite <- He'. split; apply Permutation_in; [exact Hperm|exact (Permutation_sym Hperm)]. }
  assert (forall ls, In ls lss <-> exists s, In s srcs /\ has_lines file net attempts s ls) as Hls.
  { intros ls. split.
    - intros Hin. clear -Hr Hin. remember (map parse_source srcs) as ss eqn:Ess. revert srcs Ess.
      induction Hr as [|src l ss lss H Hr IH]; intros [|s srcs] Ess; try discriminate; [destruct Hin|]. injection Ess as -> ->.
      destruct Hin as [->|Hin].
      + exists s. split; [now left|]. exists (parse_source s). split; [now apply parse_source_iff|exact H].
      + destruct (IH Hin srcs eq_refl) as [s' [A1 A2]]. exists s'. split; [now right|exact A2].
    - intros [s [Hin [src [A1 A2]]]]. apply parse_source_iff in A1 as <-. clear -Hr Hin A2. remember (map parse_source srcs) as ss eqn:Ess. revert srcs Ess Hin.
      induction Hr as [|src l ss lss H Hr IH]; intros [|s0 srcs] Ess Hin; try discriminate; [destruct Hin|]. injection Ess as -> ->.
      destruct Hin as [->|Hin]; [left; eapply readable_fun; eauto|right; eauto]. }
  destruct load as [g' [es err]]. cbn [fst snd] in *. subst g' err. exists es. split; [reflexivity|]. split.
  - rewrite Hes. intros [ls [A1 A2]]. exact (Hw ls A1 A2).
  - intros n. unfold list_matches. split.
    + intros [e [A1 A2]]. apply Hes in A1 as [ls [A3 A4]]. apply Hls in A3 as [s [A5 A6]]. exists s, ls, e. auto.
    + intros [s [ls [e [A1 [A2 [A3 A4]]]]]]. exists e. split; auto. apply Hes. exists ls. split; auto. apply Hls. eauto.
Qed.
End Fuel.

(** After loads of distinct groups which all take effect, each group has its content. *)
Lemma content_loads hist loads : NoDup (map fst loads) -> (forall l, In l loads -> snd (snd l) = NoErr) -> forall g es,
  content (hist ++ loads) g es <->
  In (g, (es, NoErr)) loads \/ ((forall l, In l loads -> fst l <> g) /\ content hist g es).
Proof.
  induction loads as [|[g0 [es0 e0]] loads IH] using rev_ind; intros Hn He g es.
  - rewrite app_nil_r. split.
    + intros H. right. split; [intros l []|exact H].
    + intros [[]|[_ H]]; exact H.
  - rewrite map_app in Hn. cbn [map fst] in Hn.
    assert (e0 = NoErr) as -> by (apply (He (g0, (es0, e0))); apply in_or_app; right; now left).
    apply NoDup_remove in Hn as [Hn1 Hn2]. rewrite app_nil_r in Hn1, Hn2.
    assert (forall l, In l loads -> fst l <> g0) as Hne.
    { intros l Hl E. apply Hn2. rewrite <- E. now apply in_map. }
    rewrite app_assoc, content_snoc. rewrite (IH Hn1 (fun l Hl => He l (in_or_app _ _ _ (or_introl Hl)))). rewrite in_app_iff.
    assert (takes_effect NoErr es0) as Ht by now left. split.
    + intros [[-> [_ ->]]|[[_ [A _]]|[A [B|[B1 B2]]]]].
      * left. right. now left.
      * contradiction.
      * left. now left.
      * right. split; [|exact B2]. intros l Hl. apply in_app_or in Hl as [Hl|[<-|[]]]; [auto|exact A].
    + intros [[B|[B|[]]]|[B1 B2]].
      * right. right. split; [|now left]. intros ->. exact (Hne _ B eq_refl).
      * injection B as -> ->. left. auto.
      * right. right. split; [apply (B1 (g0, (es0, NoErr))); apply in_or_app; right; now left|]. right. split; [|exact B2].
        intros l Hl. apply B1. apply in_or_app. now left.
Qed.

(** ** C133: after a refresh all of whose sources can be read, the lookups answer for exactly the names that are written on the
    lists of the groups, whatever the cache has held before and in whatever order the groups and entries have arrived. *)
Theorem C133_lists_as_written : forall compile parse_ip to_ascii compiles file net attempts limit sources hist loads,
  NoDup (map fst sources) -> good_sources parse_ip to_ascii compiles file net attempts limit sources ->
  no_bare_slash hist -> (forall l, In l hist -> In (fst l) (map fst sources)) ->
  refresh_loads parse_ip to_ascii compiles file net attempts limit (fun _ _ => None) sources loads ->
  exists c, run_loads compile new_list_cache (hist ++ loads) = StringCache.Ok c /\
    lookup_ok (on_list compile parse_ip to_ascii compiles file net attempts sources) (lc_match compile c).
Proof.
  intros compile parse_ip to_ascii compiles file net attempts limit sources hist loads Hnd Hg Hh Hin [order [Hperm Hl]].
  assert (forall g srcs, In (g, srcs) order <-> In (g, srcs) sources) as Ho.
  { intros g srcs. split; apply Permutation_in; [exact Hperm|exact (Permutation_sym Hperm)]. }
  assert (NoDup (map fst order)) as Hndo.
  { apply (Permutation_NoDup (Permutation_map fst (Permutation_sym Hperm))). exact Hnd. }
  set (good := fun (g : str * list str) (l : str * (list str * load_err)) => exists es, l = (fst g, (es, NoErr)) /\ ~ In [slash] es /\
    forall n, list_matches compile es n <->
      exists s ls e, In s (snd g) /\ has_lines file net attempts s ls /\ written parse_ip to_ascii compiles ls e /\ entry_matches compile e n).
  assert (Forall2 good order loads) as Hgood.
  { assert (forall g srcs s, In (g, srcs) order -> In s srcs -> exists ls, has_lines file net attempts s ls /\
      few_errors parse_ip to_ascii compiles limit ls /\ ~ written parse_ip to_ascii compiles ls $"/") as Hg'.
    { intros g srcs s A. apply Ho in A. exact (Hg g srcs s A). }
    clear -Hl Hg'. induction Hl as [|[g srcs] l order loads H Hl IH]; constructor.
    - refine (group_load_good parse_ip to_ascii compiles file net compile attempts limit g srcs l _ H).
      intros s Hs. exact (Hg' g srcs s (or_introl eq_refl) Hs).
    - apply IH. intros g' srcs' s A. apply (Hg' g' srcs' s). now right. }
  assert (map fst loads = map fst order) as Hmap.
  { clear -Hgood. induction Hgood as [|g l order loads [es [-> _]] H IH]; cbn; [reflexivity|]. now rewrite IH. }
  assert (forall l, In l loads -> exists g, In g order /\ good g l) as Hback.
  { clear -Hgood. induction Hgood as [|g l order loads H Hs IH]; [intros x []|]. intros x [<-|Hx]; [exists g; split; [now left|exact H]|].
    destruct (IH x Hx) as [g' [A B]]. exists g'. split; [now right|exact B]. }
  assert (forall g, In g order -> exists l, In l loads /\ good g l) as Hforth.
  { clear -Hgood. induction Hgood as [|g l order loads H Hs IH]; [intros x []|]. intros x [<-|Hx]; [exists l; split; [now left|exact H]|].
    destruct (IH x Hx) as [g' [A B]]. exists g'. split; [now right|exact B]. }
  assert (no_bare_slash (hist ++ loads)) as Hns.
  { intros g es o A. apply in_app_or in A as [A|A]; [eapply Hh; eauto|]. destruct (Hback _ A) as [g' [_ [es' [B1 [B2 _]]]]]. injection B1 as _ -> _. exact B2. }
  destruct (C04_lookup_exact_after_any_history compile (hist ++ loads) Hns) as [c [Ec Hc]]. exists c. split; [exact Ec|].
  intros n gs. destruct (Hc n gs) as [H1 H2]. split; [exact H1|]. intros g. rewrite H2.
  assert ((exists es, content (hist ++ loads) g es /\ list_matches compile es n) <-> on_list compile parse_ip to_ascii compiles file net attempts sources g n) as ->; [|reflexivity].
  assert (NoDup (map fst loads)) as Hndl by now rewrite Hmap.
  assert (forall l, In l loads -> snd (snd l) = NoErr) as Hne.
  { intros l A. destruct (Hback l A) as [g' [_ [es [-> _]]]]. reflexivity. }
  split.
  - intros [es [A B]]. apply (content_loads hist loads Hndl Hne) in A as [A|[A1 A2]].
    + destruct (Hback _ A) as [[g' srcs] [C1 [es' [C2 [_ C3]]]]]. cbn [fst snd] in *. injection C2 as -> ->. apply C3 in B as [s [ls [e [B1 [B2 [B3 B4]]]]]].
      exists srcs, s, ls, e. split; [now apply Ho|auto].
    + exfalso. assert (exists l, In l hist /\ fst l = g) as [l [B1 B2]].
      { clear -A2. induction A2 as [hist g es o H|hist g es o es' H H2 IH|hist g g' es o es' H H2 IH].
        - eexists. split; [apply in_or_app; right; now left|reflexivity].
        - eexists. split; [apply in_or_app; right; now left|reflexivity].
        - destruct IH as [l [B1 B2]]. exists l. split; [apply in_or_app; now left|exact B2]. }
      specialize (Hin l B1). rewrite B2 in Hin. assert (In g (map fst loads)) as C.
      { rewrite Hmap. eapply Permutation_in; [apply (Permutation_map fst (Permutation_sym Hperm))|exact Hin]. }
      apply in_map_iff in C as [l' [C1 C2]]. exact (A1 l' C2 C1).
  - intros [srcs [s [ls [e [A1 [A2 [A3 [A4 A5]]]]]]]]. apply Ho in A1. destruct (Hforth _ A1) as [l [B1 [es [-> [B2 B3]]]]]. cbn [fst snd] in *.
    exists es. split.
    + apply (content_loads hist loads Hndl Hne). now left.
    + apply B3. eauto 10.
Qed.
Print Assumptions C133_lists_as_written.
