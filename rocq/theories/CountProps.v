(** The number of entries of a list group, for any list (C124), the refresh of all groups (C06), the lines of a text (C08). *)
From Coq Require Import String Ascii List Arith Bool Lia.
From Verif Require StringCache StringCacheSpec StringCacheProofs Parsers DownloadSpec DownloadProps.
From Verif Require Import Str StrFacts MetricsSpec MetricsProps CountSpec.
Import ListNotations.
Import StringCacheSpec(regex_entry).

Section Count.
Variable compile : str -> option (str -> bool).

(** What one entry does to the three factories. *)
Lemma add_one r w t e : StringCacheProofs.sf_inv t -> e <> ["/"%char] ->
  exists r' w' t', StringCache.c_add_entry compile (StringCacheProofs.three r w t) e = StringCache.Ok (StringCacheProofs.three r' w' t', true) /\
  StringCacheProofs.sf_inv t' /\
  forall es nr nw ns, sorted_out compile es nr nw ns ->
  exists dr dw ns', sorted_out compile (e :: es) (dr + nr) (dw + nw) ns' /\
    length r' = dr + length r /\ StringCache.w_cnt w' = dw + StringCache.w_cnt w /\
    forall x, StringCacheProofs.sf_holds t' x \/ (x <> [] /\ In x (map to_lower ns)) <-> StringCacheProofs.sf_holds t x \/ (x <> [] /\ In x (map to_lower ns')).
Proof.
  intros Ht He.
  destruct (negb (has_prefix e $"/") || negb (has_suffix e $"/")) eqn:E.
  - assert (~ regex_entry e) as Hre by (intros H; apply StringCacheProofs.regex_entry_iff in H as [H _]; congruence).
    assert (StringCache.rf_add_entry compile r e = StringCache.Ok (r, false)) as Er by (unfold StringCache.rf_add_entry; now rewrite E).
    destruct (count_byte star e =? 0) eqn:Es.
    + assert (plain_entry e) as Hp.
      { split; [apply count_byte_0, Nat.eqb_eq; exact Es|]. split; auto. intros p ->. apply Hre. now exists p. }
      destruct (add_plain compile r w t e Ht Hp) as [t' [Ea [Hi Hh]]]. exists r, w, t'. split; auto. split; auto.
      intros es nr nw ns Hs. exists 0, 0, (e :: ns). split; [now apply so_plain|]. split; auto. split; auto.
      intros x. rewrite Hh. cbn [map In]. assert (x = to_lower e -> (e <> [] <-> x <> [])) as Hx by (intros ->; destruct e; cbn; intuition discriminate).
      split.
      * intros [[H|[A B]]|[A B]]; auto. right. apply Hx in A; auto.
      * intros [H|[A [B|B]]]; auto. left. right. symmetry in B. apply Hx in A; auto.
    + assert (In "*"%char e) as Hin.
      { destruct (in_dec ascii_dec "*"%char e) as [H|H]; auto. apply count_byte_0 in H. apply Nat.eqb_neq in Es. now elim Es. }
      destruct (negb (has_prefix e $"*.") || (1 <? count_byte star e)) eqn:Ew.
      * exists r, w, t. split; [|split; auto].
        { unfold StringCacheProofs.three. cbn [StringCache.c_add_entry StringCache.cf_add_entry]. rewrite Er. unfold StringCache.wf_add_entry. now rewrite Es, Ew. }
        intros es nr nw ns Hs. exists 0, 0, ns. split; [|split; [auto|split; [auto|tauto]]].
        apply so_star; auto. intros d ->. destruct (in_dec ascii_dec "*"%char d) as [H|H]; auto. exfalso.
        destruct (StringCacheProofs.wildcard_shape_entry d H) as [_ H']. unfold star, dot in *. congruence.
      * destruct (StringCacheProofs.wildcard_entry_shape e Es Ew) as [d [-> Hd]].
        eexists r, _, t. split; [|split; auto].
        { unfold StringCacheProofs.three. cbn [StringCache.c_add_entry StringCache.cf_add_entry]. rewrite Er. unfold StringCache.wf_add_entry. rewrite Es, Ew. reflexivity. }
        intros es nr nw ns Hs. exists 0, 1, ns. split; [now apply so_wildcard|split; [auto|split; [auto|tauto]]].
  - assert (regex_entry e) as [p ->].
    { apply StringCacheProofs.regex_entry_iff. split; auto. destruct e as [|c [|c' e]]; cbn [length]; try lia; [discriminate E|].
      apply orb_false_iff in E as [E _]. apply negb_false_iff, has_prefix_spec in E as [t' E]. injection E as -> _. now elim He. }
    assert (StringCache.rf_add_entry compile r (slash :: p ++ [slash]) =
      StringCache.Ok (match compile (trim_space p) with Some _ => r ++ [trim_space p] | None => r end, true)) as Er.
    { unfold StringCache.rf_add_entry. rewrite E. destruct (Nat.ltb_spec (length (slash :: p ++ [slash])) 2) as [H|H].
      - cbn in H. rewrite app_length in H. cbn in H. lia.
      - rewrite StringCacheProofs.regex_strip. destruct (compile (trim_space p)); reflexivity. }
    eexists _, w, t. split; [|split; auto].
    { unfold StringCacheProofs.three at 1. cbn [StringCache.c_add_entry StringCache.cf_add_entry]. rewrite Er. reflexivity. }
    intros es nr nw ns Hs. destruct (compile (trim_space p)) as [m|] eqn:Ec.
    + exists 1, 0, ns. split; [now apply (so_regex compile p m)|]. rewrite app_length. cbn [length]. split; [lia|]. split; [auto|tauto].
    + exists 0, 0, ns. split; [now apply so_mistake|]. split; [auto|]. split; [auto|tauto].
Qed.

Lemma add_all es : forall r w t has fs has', StringCacheProofs.sf_inv t ->
  StringCache.add_entries compile (StringCacheProofs.three r w t) has es = StringCache.Ok (fs, has') ->
  exists r' w' t' nr nw ns, fs = StringCacheProofs.three r' w' t' /\ StringCacheProofs.sf_inv t' /\ sorted_out compile es nr nw ns /\
    length r' = nr + length r /\ StringCache.w_cnt w' = nw + StringCache.w_cnt w /\
    forall x, StringCacheProofs.sf_holds t' x <-> StringCacheProofs.sf_holds t x \/ (x <> [] /\ In x (map to_lower ns)).
Proof.
  induction es as [|e es IH]; intros r w t has fs has' Ht; cbn [StringCache.add_entries].
  - intros [= <- <-]. exists r, w, t, 0, 0, []. repeat (split; auto). + constructor. + intros [H|[_ []]]; auto.
  - destruct (list_eq_dec ascii_dec e ["/"%char]) as [->|He].
    { intros H. exfalso. revert H. unfold StringCacheProofs.three. cbn. discriminate. }
    destruct (add_one r w t e Ht He) as [r1 [w1 [t1 [-> [H1 H2]]]]]. intros H.
    destruct (IH _ _ _ _ _ _ H1 H) as [r2 [w2 [t2 [nr [nw [ns [-> [H3 [H4 [H5 [H6 H7]]]]]]]]]]].
    destruct (H2 es nr nw ns H4) as [dr [dw [ns' [Hs [Hr [Hw Hx]]]]]].
    exists r2, w2, t2, (dr + nr), (dw + nw), ns'. split; auto. split; auto. split; auto. split; [lia|]. split; [lia|].
    intros x. rewrite H7. apply Hx.
Qed.
End Count.

(** After a successful load: the usable regular expressions and the wildcards, each as often as it is in the
    list, and the different names. *)
Theorem C124_entries : forall compile ops c g es err c',
  StringCache.run_loads compile StringCache.new_list_cache ops = StringCache.Ok c ->
  StringCache.create_cache_for_group compile c g es err = StringCache.Ok (c', false) ->
  exists nr nw plain names, sorted_out compile es nr nw plain /\
  NoDup names /\ (forall x, In x names <-> x <> [] /\ In x (map to_lower plain)) /\
  StringCache.c_element_count c' g = nr + nw + length names.
Proof.
  intros compile ops c g es err c' Hr Hc.
  assert (StringCacheProofs.lc_shape c) as Hs.
  { assert (forall ops c0, StringCacheProofs.lc_shape c0 -> StringCache.run_loads compile c0 ops = StringCache.Ok c -> StringCacheProofs.lc_shape c) as H.
    { clear. induction ops as [|[g [es err]] ops IH]; intros c0 H0; cbn [StringCache.run_loads]; [congruence|].
      destruct (StringCache.create_cache_for_group compile c0 g es err) as [[c1 b]|] eqn:E; [|discriminate]. apply IH.
      unfold StringCache.create_cache_for_group in E. destruct (StringCache.add_entries _ _ _ _) as [[fs has]|]; [|discriminate].
      destruct err; [| |destruct has]; injection E as <- _; auto; unfold StringCacheProofs.lc_shape; rewrite StringCacheProofs.c_finish_kinds; exact H0. }
    exact (H ops _ StringCacheProofs.lc_shape_new Hr). }
  unfold StringCache.create_cache_for_group in Hc. rewrite (StringCacheProofs.lc_refresh c Hs) in Hc.
  destruct (StringCache.add_entries compile _ _ es) as [[fs has]|] eqn:Ea; [|discriminate].
  apply add_all in Ea as [r [w [t [nr [nw [ns [-> [Ht [H4 [H5 [H6 H7]]]]]]]]]]]; [|exact StringCacheProofs.sf_inv_new].
  assert (c' = StringCache.c_finish c g (StringCacheProofs.three r w t)) as ->.
  { destruct err; [| |destruct has]; injection Hc; congruence. }
  clear Hc. destruct (sf_tmp_names t Ht) as [H1 [H2 H3]]. exists nr, nw, ns, (concat (map snd (StringCache.sf_tmp t))). split; auto. split; auto. split.
  - intros x. rewrite H2, H7. pose proof (StringCacheProofs.sf_holds_new x). tauto.
  - rewrite <- H3. cbn [StringCache.w_cnt StringCache.new_wildcard_factory length] in H5, H6. rewrite Nat.add_0_r in H5, H6. rewrite <- H5, <- H6.
    destruct c as [|c1 [|c2 [|c3 [|? ?]]]]; try discriminate. unfold StringCache.c_finish. cbn [length StringCache.c_finish_upto StringCacheProofs.three].
    unfold StringCache.c_element_count. cbn [fold_right]. unfold StringCache.g_element_count. rewrite !StringCacheProofs.g_finish_get, str_eqb_refl.
    cbn [StringCache.cf_create]. unfold StringCache.wf_create, StringCache.rf_create.
    destruct (Nat.eqb_spec (StringCache.w_cnt w) 0) as [Ew|Ew]; destruct r, (StringCache.sf_create t); cbn [option_map StringCache.sc_element_count length]; lia.
Qed.
Print Assumptions C124_entries.

(** One regular expression, one with a mistake, a wildcard twice, a star in the middle, two names of which one in two spellings. *)
Definition one_compile (p : str) : option (str -> bool) := if str_eqb p $"^ads" then Some (fun _ => true) else None.
Example C124_entries_case : exists c', StringCache.create_cache_for_group one_compile StringCache.new_list_cache $"ads"
    [$"/^ads/"; $"/(/"; $"*.a.com"; $"*.a.com"; $"x.*.com"; $"b.com"; $"B.com"; $"c.com"] StringCache.NoErr = StringCache.Ok (c', false) /\
  StringCache.c_element_count c' $"ads" = 5 /\
  sorted_out one_compile [$"/^ads/"; $"/(/"; $"*.a.com"; $"*.a.com"; $"x.*.com"; $"b.com"; $"B.com"; $"c.com"] 1 2 [$"b.com"; $"B.com"; $"c.com"].
Proof.
  eexists. split; [vm_compute; reflexivity|]. split; [vm_compute; reflexivity|].
  apply (so_regex one_compile $"^ads" (fun _ => true)); [reflexivity|].
  apply (so_mistake one_compile $"("); [reflexivity|].
  apply (so_wildcard one_compile $"a.com"); [cbn; intuition discriminate|].
  apply (so_wildcard one_compile $"a.com"); [cbn; intuition discriminate|].
  apply so_star; [intros [p H]; discriminate H|cbn; tauto|intros d H; discriminate H|].
  assert (forall s, existsb (Ascii.eqb "*"%char) s = false -> existsb (Ascii.eqb "/"%char) s = false -> plain_entry s) as P.
  { intros s H1 H2. assert (forall a, existsb (Ascii.eqb a) s = false -> ~ In a s) as N.
    { intros a H Hi. assert (existsb (Ascii.eqb a) s = true) as H' by (apply existsb_exists; exists a; split; auto; apply Ascii.eqb_refl). congruence. }
    split; [now apply N|]. apply N in H2. split; [intros ->; apply H2; now left|]. intros p ->. apply H2. now left. }
  apply so_plain; [apply P; reflexivity|]. apply so_plain; [apply P; reflexivity|]. apply so_plain; [apply P; reflexivity|]. apply so_nil.
Qed.

(** ** A refresh of all groups (C06): it ends in what the loads of the single groups make, and fails exactly if the load of
    one of them has no effect. *)
Theorem C06_refresh : forall compile gs, StringCacheProofs.no_bare_slash gs ->
  exists c failed, StringCache.refresh_groups compile StringCache.new_list_cache gs = StringCache.Ok (c, failed) /\
  StringCache.run_loads compile StringCache.new_list_cache gs = StringCache.Ok c /\
  (failed = true <-> exists g es o, In (g, (es, o)) gs /\ ~ StringCacheSpec.takes_effect o es).
Proof.
  intros compile. assert (forall gs c0, StringCacheProofs.lc_shape c0 -> StringCacheProofs.no_bare_slash gs ->
    exists c failed, StringCache.refresh_groups compile c0 gs = StringCache.Ok (c, failed) /\
    StringCache.run_loads compile c0 gs = StringCache.Ok c /\
    (failed = true <-> exists g es o, In (g, (es, o)) gs /\ ~ StringCacheSpec.takes_effect o es)) as H.
  { induction gs as [|[g [es o]] gs IH]; intros c0 Hc Hn; cbn [StringCache.refresh_groups StringCache.run_loads].
    - exists c0, false. split; auto. split; auto. split; [discriminate|]. intros [g [es [o [[] _]]]].
    - destruct (StringCacheProofs.create_cache_spec compile c0 g es o Hc (Hn g es o (or_introl eq_refl))) as [c1 [f1 [E1 [Hs [Hf _]]]]]. rewrite E1.
      destruct (IH c1 Hs) as [c2 [f2 [E2 [E3 Hf2]]]]; [intros x y z Hi; apply (Hn x y z); now right|]. rewrite E2. exists c2, (f1 || f2). split; auto. split; auto.
      assert (f1 = true <-> ~ StringCacheSpec.takes_effect o es) as Hf1.
      { rewrite Hf. unfold StringCacheSpec.takes_effect. destruct o, es as [|e es]; split.
        all: try (intros [H|[H H']]; discriminate).
        all: try (intros H; exfalso; apply H; now left).
        all: try (intros _ [H|[H _]]; discriminate).
        all: try (intros _; now left).
        - intros _ [H|[_ H]]; [discriminate|now elim H].
        - intros _. right. now split.
        - intros H. exfalso. apply H. right. split; [reflexivity|discriminate]. }
      rewrite orb_true_iff, Hf1, Hf2. split.
      + intros [H|[x [y [z [Hi H]]]]]; [exists g, es, o; split; [now left|exact H]|exists x, y, z; split; [now right|exact H]].
      + intros [x [y [z [[H|Hi] H']]]]; [injection H as <- <- <-; now left|right; eauto]. }
  intros gs. apply H. exact StringCacheProofs.lc_shape_new.
Qed.
Print Assumptions C06_refresh.
Example C06_refresh_case :
  exists c, StringCache.refresh_groups one_compile StringCache.new_list_cache
    [($"ads", ([$"a.com"], StringCache.NoErr)); ($"adult", ([], StringCache.OtherErr)); ($"kids", ([$"k.com"], StringCache.NoErr))] = StringCache.Ok (c, true) /\
  StringCache.c_element_count c $"ads" = 1 /\ StringCache.c_element_count c $"kids" = 1 /\ StringCache.c_element_count c $"adult" = 0 /\
  exists c', StringCache.refresh_groups one_compile StringCache.new_list_cache [($"ads", ([$"a.com"], StringCache.NoErr)); ($"adult", ([$"b.com"], StringCache.OtherErr))]
    = StringCache.Ok (c', false).
Proof. eexists. split; [vm_compute; reflexivity|]. repeat (split; [vm_compute; reflexivity|]). eexists. vm_compute. reflexivity. Qed.

(** ** C08 *)
(** Every text has lines. *)
Lemma text_lines_total n : forall t, length t <= n -> exists ls, DownloadSpec.text_lines t ls.
Proof.
  assert (forall l, exists l', DownloadSpec.without_cr l l') as Hcr.
  { intros l. destruct (rev l) as [|c r] eqn:E.
    - exists l. right. split; [reflexivity|]. intros x ->. rewrite rev_app_distr in E. discriminate E.
    - destruct (Ascii.eqb_spec c "013") as [->|Hc].
      + exists (rev r). left. rewrite <- (rev_involutive l), E. reflexivity.
      + exists l. right. split; [reflexivity|]. intros x ->. rewrite rev_app_distr in E. injection E as E _. congruence. }
  induction n as [|n IH]; intros t Ht.
  - destruct t; [|simpl in Ht; lia]. exists []. constructor.
  - destruct (in_dec Ascii.ascii_dec "010"%char t) as [Hi|Hi].
    + assert (exists l r, t = l ++ "010"%char :: r /\ ~ In "010"%char l) as [l [r [-> Hl]]].
      { clear -Hi. induction t as [|c t IH]; [destruct Hi|]. destruct (Ascii.ascii_dec c "010") as [->|Hc].
        - exists [], t. split; auto.
        - destruct Hi as [Hi|Hi]; [congruence|]. destruct (IH Hi) as [l [r [-> Hl]]]. exists (c :: l), r. split; auto.
          intros [H|H]; auto. }
      destruct (Hcr l) as [l' Hl']. rewrite app_length in Ht. simpl in Ht. destruct (IH r) as [ls Hls]; [lia|].
      exists (l' :: ls). now apply DownloadSpec.tl_line.
    + destruct t as [|c t]; [exists []; constructor|]. destruct (Hcr (c :: t)) as [l' Hl']. exists [l'].
      apply DownloadSpec.tl_last; auto. discriminate.
Qed.

(** The scanner yields the lines of the text, the last one with or without a line break at its end. *)
Theorem C08_lines : forall t ls, DownloadSpec.text_lines t ls <-> Parsers.scan_lines t = ls.
Proof.
  intros t ls. split.
  - intros H. exact (DownloadProps.text_pieces_lines t ls H).
  - intros <-. destruct (text_lines_total (length t) t) as [ls H]; [lia|].
    pose proof (DownloadProps.text_pieces_lines t ls H) as E. unfold Parsers.scan_lines. cbv zeta.
    unfold DownloadProps.text_pieces in E. cbv zeta in E. rewrite E. exact H.
Qed.
Print Assumptions C08_lines.

(** Two lines, the first ended by a carriage return and a line feed, the second by nothing. *)
Example C08_lines_case : Parsers.scan_lines ($"a.com" ++ ["013"; "010"]%char ++ $"b.com") = [$"a.com"; $"b.com"] /\
  Parsers.scan_lines ($"a.com" ++ ["010"; "010"]%char) = [$"a.com"; []].
Proof. split; reflexivity. Qed.
