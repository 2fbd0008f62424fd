(** Properties C01–C07: blocking/allow lists. *)
From Coq Require Import String Ascii List Arith Bool Sorting.Sorted Lia.
From Verif Require Import Str StrFacts StringCache StringCacheSpec StringCacheProofs.
Import ListNotations.

(** A regular expression oracle used in examples: the pattern "ads" matches
    names containing an 'a'; every other pattern is invalid. *)
Definition ex_regex (p : str) : option (str -> bool) :=
  if str_eqb p $"ads" then Some (contains_byte "a"%char) else None.

(** ** C04, C05, C06: for every history of group loads, the answer to every
    lookup is the sorted duplicate-free list of those requested groups whose last
    effective load has a matching entry. *)
Theorem C04_lookup_exact_after_any_history :
  forall compile hist, no_bare_slash hist ->
  exists c, run_loads compile new_list_cache hist = Ok c /\
  forall n groups,
    sorted_set_of (fun g => In g groups /\ exists es, content hist g es /\ list_matches compile es n)
                  (lc_match compile c n groups).
Proof.
  intros compile hist H. destruct (run_loads_spec compile hist H) as [c [E [_ Hm]]].
  exists c. split; [exact E|]. intros n groups.
  destruct (c_contains_spec compile c n groups) as [H1 H2]. split; [exact H1|].
  intros x. unfold lc_match. rewrite H2, Hm. reflexivity.
Qed.
Print Assumptions C04_lookup_exact_after_any_history.

(** A non-trivial instance: three loads, of which the second fails temporarily. *)
Example C04_example :
  let hist := [ ($"ads", ([$"*.Example.com"; $"/ads/"; $"plain.org"], NoErr));
                ($"ads", ([$"other.org"], TransientErr));
                ($"kids", ([$"*.example.com"], OtherErr)) ] in
  no_bare_slash hist /\
  exists c, run_loads ex_regex new_list_cache hist = Ok c /\
    lc_match ex_regex c $"www.example.com" [$"kids"; $"none"; $"ads"; $"kids"] = [$"ads"; $"kids"] /\
    lc_match ex_regex c $"other.org" [$"ads"; $"kids"] = [] /\
    lc_match ex_regex c $"PLAIN.org" [$"ads"; $"kids"] = [$"ads"].
Proof.
  split.
  - intros g es o [H|[H|[H|[]]]]; injection H as <- <- <-; simpl; intuition discriminate.
  - eexists. split; [reflexivity|]. vm_compute. auto.
Qed.

(** ** C05: loading one group changes no answer about another one. *)
Theorem C05_refresh_leaves_other_groups :
  forall compile hist g es o, no_bare_slash (hist ++ [(g, (es, o))]) ->
  exists c c', run_loads compile new_list_cache hist = Ok c /\
    run_loads compile new_list_cache (hist ++ [(g, (es, o))]) = Ok c' /\
    forall n groups, ~ In g groups -> lc_match compile c' n groups = lc_match compile c n groups.
Proof.
  intros compile hist g es o H.
  assert (no_bare_slash hist) as H0 by (intros x y z Hin; eapply H; apply in_app_iff; eauto).
  destruct (run_loads_spec compile hist H0) as [c [E [_ Hm]]].
  destruct (run_loads_spec compile _ H) as [c' [E' [_ Hm']]].
  exists c, c'. split; [exact E|]. split; [exact E'|]. intros n groups Hng.
  destruct (c_contains_spec compile c n groups) as [S1 M1].
  destruct (c_contains_spec compile c' n groups) as [S2 M2].
  unfold lc_match.
  assert (forall l, StronglySorted bytes_lt l -> StronglySorted str_lt l) as Hs.
  { intros l Hl. induction Hl; constructor; auto. eapply Forall_impl; [|eassumption].
    intros b. apply bytes_lt_str_lt. }
  apply strict_sorted_unique; auto.
  intros x. rewrite M1, M2, Hm, Hm'. split; intros [G1 [es' [G2 G3]]]; split; auto; exists es'; split; auto.
  - apply content_snoc in G2 as [[-> _]|[[-> _]|[_ G2]]]; auto; contradiction.
  - apply content_snoc. right; right. split; auto. intros ->. contradiction.
Qed.
Print Assumptions C05_refresh_leaves_other_groups.

Example C05_example :
  no_bare_slash ([($"a", ([$"*.x.com"], NoErr))] ++ [($"b", ([$"y.com"], NoErr))]) /\
  ~ In $"b" [$"a"].
Proof.
  split.
  - intros g es o [H|[H|[]]]; injection H as <- <- <-; simpl; intuition discriminate.
  - simpl. intuition discriminate.
Qed.

(** ** C06: a load that fails (temporarily, or without entries) changes nothing
    and is reported; otherwise the group holds exactly the new entries. *)
Theorem C06_failed_refresh_keeps_content :
  forall compile hist c g es o,
  no_bare_slash hist -> ~ In [slash] es ->
  run_loads compile new_list_cache hist = Ok c ->
  exists c' failed,
    create_cache_for_group compile c g es o = Ok (c', failed) /\
    (failed = true <-> ~ takes_effect o es) /\
    (~ takes_effect o es -> forall n groups, lc_match compile c' n groups = lc_match compile c n groups) /\
    (takes_effect o es -> forall n, In g (lc_match compile c' n [g]) <-> list_matches compile es n).
Proof.
  intros compile hist c g es o H Hns E.
  destruct (run_loads_spec compile hist H) as [c0 [E0 [Hs _]]].
  assert (c0 = c) as -> by congruence.
  destruct (create_cache_spec compile c g es o Hs Hns) as [c' [failed [E' [_ [Hf [Hsame [Hnew _]]]]]]].
  exists c', failed. split; [exact E'|].
  assert (failed = true <-> ~ takes_effect o es) as Hft.
  { rewrite Hf. unfold takes_effect. destruct o; split.
    - intros [G|[G _]]; discriminate.
    - intros G. exfalso. apply G. now left.
    - intros _ [G|[G _]]; discriminate.
    - intros _. now left.
    - intros [G|[_ G]]; [discriminate|]. intros [G1|[_ G1]]; [discriminate|contradiction].
    - intros G. right. split; auto. destruct es; auto. exfalso. apply G. right. split; auto. discriminate. }
  split; [exact Hft|]. split.
  - intros G n groups. rewrite Hsame; auto. now apply Hft.
  - intros G n. destruct failed.
    + exfalso. apply (proj1 Hft eq_refl). exact G.
    + destruct (c_contains_spec compile c' n [g]) as [_ M]. unfold lc_match. rewrite M, (Hnew eq_refl).
      split; [tauto|]. intros. split; auto. now left.
Qed.
Print Assumptions C06_failed_refresh_keeps_content.

Example C06_example :
  ~ takes_effect TransientErr [$"a.com"] /\ ~ takes_effect OtherErr [] /\ takes_effect OtherErr [$"a.com"].
Proof.
  unfold takes_effect. repeat split.
  - intros [H|[H _]]; discriminate.
  - intros [H|[_ H]]; [discriminate|congruence].
  - right. split; auto. discriminate.
Qed.

(** ** C01: wildcard entries match exactly the domains and their sub-domains. *)
Theorem C01_wildcard_exact :
  forall compile g ds c failed,
  (forall d, In d ds -> proper_name (to_lower d) /\ ~ In star d) ->
  create_cache_for_group compile new_list_cache g (map (fun d => star :: dot :: d) ds) NoErr = Ok (c, failed) ->
  forall n, proper_name n ->
  (In g (lc_match compile c n [g]) <-> exists d, In d ds /\ same_or_sub n (to_lower d)).
Proof.
  intros compile g ds c failed Hds E n Hn.
  destruct (create_cache_spec compile new_list_cache g (map (fun d => star :: dot :: d) ds) NoErr lc_shape_new)
    as [c' [failed' [E' [_ [Hf [_ [Hnew _]]]]]]].
  { rewrite in_map_iff. intros [d [H _]]. discriminate. }
  rewrite E in E'. injection E' as <- <-.
  assert (failed = false) as Hff.
  { destruct failed; auto. destruct (proj1 Hf eq_refl) as [H|[H _]]; discriminate. }
  destruct (c_contains_spec compile c n [g]) as [_ M]. unfold lc_match. rewrite M, (Hnew Hff).
  unfold list_matches. split.
  - intros [_ [e [H1 H2]]]. apply in_map_iff in H1 as [d [<- Hd]]. exists d. split; auto.
    destruct (Hds d Hd) as [Hp _].
    destruct H2 as [[p [m [H _]]]|[[_ [d' [H [_ Hw]]]]|[_ [H _]]]].
    + discriminate.
    + injection H as <-. now apply wildcard_matches_proper.
    + exfalso. apply H. now left.
  - intros [d [Hd Hsub]]. destruct (Hds d Hd) as [Hp Hs]. split; [now left|].
    exists (star :: dot :: d). split; [apply in_map_iff; now exists d|].
    right; left. split.
    + intros [p H]. discriminate.
    + exists d. split; auto. split; auto. now apply wildcard_matches_proper.
Qed.
Print Assumptions C01_wildcard_exact.

Lemma proper_intro n : forallb (fun l => match l with [] => false | _ => true end) (split_byte dot n) = true ->
  proper_name n.
Proof.
  intros H. apply proper_name_split. rewrite forallb_forall in H. intros Hin. apply H in Hin. discriminate.
Qed.

Example C01_example :
  let ds := [$"a.Example.com"; $"example.com"; $"b.org"; $"c.b.org"] in
  (forall d, In d ds -> proper_name (to_lower d) /\ ~ In star d) /\
  (exists c, create_cache_for_group ex_regex new_list_cache $"g" (map (fun d => star :: dot :: d) ds) NoErr = Ok (c, false)
     /\ lc_match ex_regex c $"x.y.example.com" [$"g"] = [$"g"]
     /\ lc_match ex_regex c $"badexample.com" [$"g"] = []) /\
  proper_name $"badexample.com".
Proof.
  split; [|split].
  - intros d [<-|[<-|[<-|[<-|[]]]]]; (split; [now apply proper_intro|]); apply count_byte_0; reflexivity.
  - eexists. split; [reflexivity|]. vm_compute. auto.
  - now apply proper_intro.
Qed.

(** For proper names the label-wise meaning of "*.d" used in [entry_matches] is
    "equal or sub-domain". *)
Theorem wildcard_means_subdomain : forall d n,
  proper_name (to_lower d) -> proper_name n ->
  (wildcard_matches d n <-> same_or_sub n (to_lower d)).
Proof. exact wildcard_matches_proper. Qed.
Print Assumptions wildcard_means_subdomain.

(** ** C02: plain entries match exactly, ignoring case. *)
Theorem C02_plain_exact :
  forall compile g es c failed,
  (forall e, In e es -> ~ In star e /\ ~ In slash e) ->
  create_cache_for_group compile new_list_cache g es NoErr = Ok (c, failed) ->
  forall n, In g (lc_match compile c n [g]) <-> n <> [] /\ In (to_lower n) (map to_lower es).
Proof.
  intros compile g es c failed Hes E n.
  destruct (create_cache_spec compile new_list_cache g es NoErr lc_shape_new)
    as [c' [failed' [E' [_ [Hf [_ [Hnew _]]]]]]].
  { intros H. apply Hes in H as [_ H]. apply H. now left. }
  rewrite E in E'. injection E' as <- <-.
  assert (failed = false) as Hff.
  { destruct failed; auto. destruct (proj1 Hf eq_refl) as [H|[H _]]; discriminate. }
  destruct (c_contains_spec compile c n [g]) as [_ M]. unfold lc_match. rewrite M, (Hnew Hff).
  unfold list_matches. split.
  - intros [_ [e [H1 H2]]]. destruct (Hes e H1) as [Hs Hl].
    destruct H2 as [[p [m [-> _]]]|[[_ [d' [-> _]]]|[_ [_ [H2 H3]]]]].
    + exfalso. apply Hl. now left.
    + exfalso. apply Hs. now left.
    + split.
      * intros ->. destruct e; [congruence|discriminate].
      * apply in_map_iff. now exists e.
  - intros [Hn Hin]. apply in_map_iff in Hin as [e [He Hin]]. split; [now left|].
    exists e. split; auto. destruct (Hes e Hin) as [Hs Hl]. right; right. repeat split; auto.
    + intros [p ->]. apply Hl. now left.
    + intros ->. destruct n; [congruence|discriminate].
Qed.
Print Assumptions C02_plain_exact.

Example C02_example :
  let es := [$"zeta.com"; $"Alpha.com"; $"beta.com"; $"alpha.com"; $"x.y"; $"gamma.co"] in
  (forall e, In e es -> ~ In star e /\ ~ In slash e) /\
  (exists c, create_cache_for_group ex_regex new_list_cache $"g" es NoErr = Ok (c, false)
     /\ lc_match ex_regex c $"ALPHA.com" [$"g"] = [$"g"]
     /\ lc_match ex_regex c $"beta.com" [$"g"] = [$"g"]
     /\ lc_match ex_regex c $"eta.com" [$"g"] = []).
Proof.
  split.
  - intros e H. repeat destruct H as [<-|H]; try destruct H; split; apply count_byte_0; reflexivity.
  - eexists. split; [reflexivity|]. vm_compute. auto.
Qed.

(** ** C03: every entry except "/" is given to exactly one matcher, according to
    its shape, and nothing crashes. *)
Theorem C03_entry_goes_to_one_matcher_partial :
  forall compile r w t e, e <> [slash] ->
  exists fs', c_add_entry compile [CFRegex r; CFWild w; CFString t] e = Ok (fs', true) /\
  ((regex_entry e /\ exists r', fs' = [CFRegex r'; CFWild w; CFString t]) \/
   (~ regex_entry e /\ In star e /\ exists w', fs' = [CFRegex r; CFWild w'; CFString t] /\
      (w' <> w -> exists d, e = star :: dot :: d /\ ~ In star d)) \/
   (~ regex_entry e /\ ~ In star e /\ exists t', fs' = [CFRegex r; CFWild w; CFString t'])).
Proof.
  intros compile r w t e He. cbn [c_add_entry cf_add_entry].
  destruct (rf_add_spec compile r e He) as [r' [b [Er [Hb _]]]]. rewrite Er. destruct b.
  - eexists. split; [reflexivity|]. left. split; [now apply Hb|]. eauto.
  - assert (~ regex_entry e) as Hnre by (intro H; apply Hb in H; discriminate).
    assert (r' = r) as ->.
    { revert Er. unfold rf_add_entry.
      destruct (negb (has_prefix e $"/") || negb (has_suffix e $"/")); [congruence|].
      destruct (length e <? 2); [discriminate|].
      destruct (compile (trim_space (firstn (length e - 2) (skipn 1 e)))); discriminate. }
    unfold wf_add_entry. destruct (count_byte star e =? 0) eqn:E0.
    + apply Nat.eqb_eq, count_byte_0 in E0.
      destruct (sf_add_entry t e) as [t' bt] eqn:Et.
      assert (bt = true) as -> by (unfold sf_add_entry in Et; destruct e; congruence).
      eexists. split; [reflexivity|]. right; right. repeat split; auto. eauto.
    + assert (In star e) as Hin.
      { destruct (in_dec Ascii.ascii_dec star e) as [i|i]; auto. apply count_byte_0 in i.
        rewrite i in E0. discriminate. }
      destruct (negb (has_prefix e $"*.") || (1 <? count_byte star e)) eqn:E1.
      * eexists. split; [reflexivity|]. right; left. split; auto. split; auto. exists w. split; auto. congruence.
      * eexists. split; [reflexivity|]. right; left. split; auto. split; auto. eexists. split; [reflexivity|].
        intros _. now apply wildcard_entry_shape.
Qed.
Print Assumptions C03_entry_goes_to_one_matcher_partial.

Example C03_example : $"/a*b/" <> [slash] /\ regex_entry $"/a*b/" /\ In star $"/a*b/".
Proof.
  split; [discriminate|]. split; [now exists $"a*b"|]. apply contains_byte_In. reflexivity.
Qed.

(** The remaining entry: a line consisting of a single slash crashes the load. *)
Theorem C03_single_slash_crashes_refuted :
  exists e, forall compile c g o, map g_kind c = [KRegex; KWild; KString] ->
    create_cache_for_group compile c g [e] o = Panic.
Proof.
  exists [slash]. intros compile c g o H. unfold create_cache_for_group.
  rewrite (lc_refresh c H). reflexivity.
Qed.
Print Assumptions C03_single_slash_crashes_refuted.

(** ** C07: a lookup may miss a name that is on the list before and after the
    refresh: the three matchers are replaced one after the other. *)
Theorem C07_lookup_during_refresh_refuted :
  exists c fs n g (k : nat -> nat),
    run_loads ex_regex new_list_cache [(g, ([$"*.a.com"], NoErr))] = Ok c /\
    add_entries ex_regex (c_refresh c) false [$"a.com"] = Ok (fs, true) /\
    In g (lc_match ex_regex c n [g]) /\
    In g (lc_match ex_regex (c_finish c g fs) n [g]) /\
    ~ In g (c_contains_during ex_regex k c g fs n [g]) /\
    (forall i, k i = 2).
Proof.
  eexists _, _, $"a.com", $"g", (fun _ => 2).
  split; [reflexivity|]. split; [reflexivity|].
  split; [vm_compute; auto|]. split; [vm_compute; auto|]. split; [vm_compute; tauto|]. auto.
Qed.
Print Assumptions C07_lookup_during_refresh_refuted.

(** What does hold, for any moments [k i] at which the matchers are read: a name
    found is on the old or the new list, and a name on both in the same matcher is
    found.  Missing for the full statement: names moving between matchers. *)
Theorem C07_lookup_during_refresh_partial :
  forall compile (k : nat -> nat) c grp fs x, length fs = length c ->
  (In grp (c_contains_during compile k c grp fs x [grp]) ->
     In grp (lc_match compile c x [grp]) \/ In grp (lc_match compile (c_finish c grp fs) x [grp])) /\
  ((exists i h h', nth_error c i = Some h /\ nth_error (c_finish c grp fs) i = Some h' /\
      In grp (g_contains compile h x [grp]) /\ In grp (g_contains compile h' x [grp])) ->
     In grp (c_contains_during compile k c grp fs x [grp])).
Proof.
  intros compile k c grp fs x Hl. destruct (during_partial compile k c grp fs x Hl) as [H1 H2]. split.
  - intros H. apply H1 in H as [H|H]; [left|right];
      (eapply (proj2 (c_contains_spec compile _ x [grp])); split; [now left|exact H]).
  - intros [i [h [h' [G1 [G2 [G3 G4]]]]]]. apply H2. exists i, h, h'.
    apply g_contains_In in G3 as [_ G3]. apply g_contains_In in G4 as [_ G4]. auto.
Qed.
Print Assumptions C07_lookup_during_refresh_partial.

Example C07_example :
  exists c fs, run_loads ex_regex new_list_cache [($"g", ([$"a.com"; $"*.b.com"], NoErr))] = Ok c /\
    add_entries ex_regex (c_refresh c) false [$"c.com"; $"a.com"] = Ok (fs, true) /\ length fs = length c /\
    exists h h', nth_error c 2 = Some h /\ nth_error (c_finish c $"g" fs) 2 = Some h' /\
      In $"g" (g_contains ex_regex h $"a.com" [$"g"]) /\ In $"g" (g_contains ex_regex h' $"a.com" [$"g"]).
Proof.
  eexists _, _. split; [reflexivity|]. split; [reflexivity|]. split; [reflexivity|].
  eexists _, _. split; [reflexivity|]. split; [reflexivity|]. vm_compute. auto.
Qed.
