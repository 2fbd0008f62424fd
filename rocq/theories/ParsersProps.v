(** Properties C08–C11, C71 and the reachability of the crash of C03. *)
From Coq Require Import String Ascii List Arith Bool NArith ZArith Lia.
From Verif Require Import Str StrFacts StringCache StringCacheSpec StringCacheProofs StringCacheProps.
From Verif Require Import Parsers ParsersSpec ParsersProofs.
Import ListNotations.

(** Oracles used in examples. *)
Definition ex_parse_ip (s : str) : option str :=
  if str_eqb s $"127.0.0.1" then Some $"127.0.0.1"
  else if str_eqb s $"::1" then Some $"::1"
  else if str_eqb s $"0::1" then Some $"::1" else None.
Definition ex_to_ascii (s : str) : option str := Some s.
Definition ex_compiles (s : str) : bool := true.
Definition ex_line := hosts_line ex_parse_ip ex_to_ascii ex_compiles.

(** ** C08: the error budget. *)
Theorem C08_error_budget_exact :
  forall A (p : str -> option A) (limit : Z) ls e ts good bad,
  contents ls ts -> collected p ts good bad ->
  (* within the budget: everything is delivered *)
  ((limit = -1 \/ Z.of_nat bad <= Z.max limit 0)%Z ->
     parse_series p limit ls e = (good, match e with ScanEOF => StopOK | ScanErr => StopReadErr end)) /\
  (* beyond: all good lines before the first malformed line exceeding the budget *)
  ((limit <> -1 /\ Z.max limit 0 < Z.of_nat bad)%Z ->
     exists before t after delivered k,
       ts = before ++ t :: after /\ p t = None /\
       collected p before delivered k /\ Z.of_nat k = Z.max limit 0 /\
       parse_series p limit ls e = (delivered, StopTooMany)).
Proof.
  intros A p limit ls e ts good bad Hc Hg. rewrite (parse_series_run p limit ls e ts Hc). split.
  - intros H. destruct (Z.eq_dec limit (-1)) as [->|Hn].
    + eapply run_unlimited; eauto.
    + destruct H as [H|H]; [contradiction|].
      destruct (Z_lt_le_dec limit 0) as [Hl|Hl].
      * (* a negative limit other than -1 behaves like 0 *)
        assert (bad = 0) as -> by lia. clear -Hg. remember 0 as k eqn:Ek. induction Hg; cbn [run]; auto.
        -- rewrite H, IHHg; auto.
        -- discriminate.
      * eapply run_within; eauto. lia.
  - intros [Hn H]. destruct (run_exceeded p limit ts 0%Z e good bad Hn ltac:(lia) Hg ltac:(lia))
      as [pre [t [post [l' [E1 [E2 [[k [E3 E4]] E5]]]]]]].
    exists pre, t, post, l', k. repeat split; auto; lia.
Qed.
Print Assumptions C08_error_budget_exact.

(** Every source has such a decomposition, so the hypotheses exclude nothing. *)
Theorem C08_every_source_covered :
  forall A (p : str -> option A) ls, exists ts good bad, contents ls ts /\ collected p ts good bad.
Proof.
  intros A p ls. destruct (contents_total ls) as [ts H]. destruct (collected_total p ts) as [l [n G]]. eauto.
Qed.
Print Assumptions C08_every_source_covered.

Example C08_example :
  let ls := [$"# list"; $" a.com # x"; $""; $"bad line"; $"b.com"; $"???"; $"c.com"] in
  parse_series ex_line 1 ls ScanEOF = ([[$"a.com"]; [$"b.com"]], StopTooMany) /\
  parse_series ex_line 2 ls ScanEOF = ([[$"a.com"]; [$"b.com"]; [$"c.com"]], StopOK) /\
  parse_series ex_line (-1) ls ScanErr = ([[$"a.com"]; [$"b.com"]; [$"c.com"]], StopReadErr).
Proof. vm_compute. auto. Qed.

(** ** C09: comments, blank lines and surrounding white space are neutral. *)
Theorem C09_comments_and_blanks_neutral :
  forall A (p : str -> option A) limit pre post e,
  (forall l, line_content l [] ->
     parse_series p limit (pre ++ l :: post) e = parse_series p limit (pre ++ post) e) /\
  (forall l l' t, line_content l t -> line_content l' t ->
     parse_series p limit (pre ++ l :: post) e = parse_series p limit (pre ++ l' :: post) e).
Proof.
  intros A p limit pre post e.
  destruct (contents_total post) as [ts Hts].
  assert (forall ls ts, contents ls ts -> exists ts', contents (pre ++ ls) ts' /\
      forall ls', contents ls' ts -> contents (pre ++ ls') ts') as HP.
  { intros ls us H. induction pre as [|x pre [ts' [H1 H2]]].
    - exists us. auto.
    - destruct (line_content_total x) as [[|c t] Hx].
      + exists ts'. split; [simpl; now apply con_skip|]. intros. simpl. apply con_skip; auto.
      + exists ((c :: t) :: ts'). split; [simpl; apply con_take; auto; discriminate|].
        intros. simpl. apply con_take; auto. discriminate. }
  split.
  - intros l Hl. destruct (HP post ts Hts) as [ts' [H1 H2]].
    rewrite (parse_series_run p limit _ e ts' H1).
    rewrite (parse_series_run p limit _ e ts'); auto. apply H2. now apply con_skip.
  - intros l l' t H1 H2.
    assert (exists us, contents (l :: post) us /\ contents (l' :: post) us) as [us [G1 G2]].
    { destruct t as [|c t].
      - exists ts. split; apply con_skip; auto.
      - exists ((c :: t) :: ts). split; apply con_take; auto; discriminate. }
    destruct (HP _ us G1) as [ts' [K1 K2]].
    rewrite (parse_series_run p limit _ e ts' K1). rewrite (parse_series_run p limit _ e ts'); auto.
Qed.
Print Assumptions C09_comments_and_blanks_neutral.

Example C09_example :
  line_content $"  # comment" [] /\ line_content $"   " [] /\
  line_content $"  a.com  b # rest # x" $"a.com  b" /\ line_content $"a.com  b" $"a.com  b".
Proof.
  assert (forall s, forallb is_space s = true -> blank s) as HB.
  { intros s H. rewrite forallb_forall in H. apply Forall_forall. intros c Hc. apply is_space_white. auto. }
  assert (forall c, is_space c = false -> ~ white c) as HI by (intros; now apply is_space_false).
  unfold line_content. split; [|split; [|split]].
  - exists $"  ", [], [], $"# comment". split; [reflexivity|]. split; [apply HB; reflexivity|].
    split; [constructor|]. split; [intros []|]. split; [right; eexists; reflexivity|]. auto.
  - exists $"   ", [], [], []. split; [reflexivity|]. split; [apply HB; reflexivity|].
    split; [constructor|]. split; [intros []|]. auto.
  - exists $"  ", $"a.com  b", $" ", $"# rest # x". split; [reflexivity|]. split; [apply HB; reflexivity|].
    split; [apply HB; reflexivity|]. split; [apply count_byte_0; reflexivity|]. split; [right; eexists; reflexivity|].
    split; [reflexivity|]. right. split.
    + eexists _, _. split; [reflexivity|]. now apply HI.
    + exists $"a.com  ", "b"%char. split; [reflexivity|]. now apply HI.
  - exists [], $"a.com  b", [], []. split; [reflexivity|]. split; [constructor|].
    split; [constructor|]. split; [apply count_byte_0; reflexivity|]. split; [auto|].
    split; [reflexivity|]. right. split.
    + eexists _, _. split; [reflexivity|]. now apply HI.
    + exists $"a.com  ", "b"%char. split; [reflexivity|]. now apply HI.
Qed.

(** ** C10: hosts-file lines. *)
Theorem C10_hosts_file_line_exact :
  forall parse_ip t w names a, words t (w :: names) -> address_part w a ->
  (forall ip, parse_ip a = Some ip -> names <> [] -> Forall good_name names ->
     exists e, hosts_file_line parse_ip t = Some e /\ hfe_ip e = ip /\ hfe_name e :: hfe_aliases e = names) /\
  (parse_ip a = None \/ names = [] \/ Exists (fun n => ~ good_name n) names ->
     hosts_file_line parse_ip t = None).
Proof.
  intros parse_ip t w names a H1 H2. pose proof (hosts_file_line_spec parse_ip t w names a H1 H2) as H. split.
  - intros ip G1 G2 G3. destruct (hosts_file_line parse_ip t) as [e|].
    + exists e. split; auto. destruct H as [K1 [K2 K3]]. split; congruence.
    + exfalso. destruct H as [H|[H|H]]; [congruence|contradiction|].
      apply Exists_exists in H as [x [Hx Hn]]. rewrite Forall_forall in G3. apply Hn. auto.
  - intros G. destruct (hosts_file_line parse_ip t) as [e|]; auto. exfalso. destruct H as [K1 [K2 K3]].
    destruct G as [G|[G|G]].
    + congruence.
    + subst. discriminate.
    + apply Exists_exists in G as [x [Hx Hn]]. rewrite Forall_forall in K3. apply Hn. auto.
Qed.
Print Assumptions C10_hosts_file_line_exact.

(** The same for a line of a list: exactly the names become list entries. *)
Theorem C10_hosts_line_in_list :
  forall parse_ip to_ascii compiles t w n names a,
  words t (w :: n :: names) -> address_part w a -> parse_ip a <> None -> Forall good_name (n :: names) ->
  hosts_line parse_ip to_ascii compiles t = Some (n :: names).
Proof.
  intros parse_ip to_ascii compiles t w n names a H1 H2 H3 H4.
  apply hosts_line_spec.
  - eapply words_ink. exact H1.
  - apply le_hosts. exists w, a. split; [exact H1|]. split; [exact H2|]. split; [exact H3|]. split; [discriminate|exact H4].
Qed.
Print Assumptions C10_hosts_line_in_list.

Example C10_example :
  words $"127.0.0.1%lo0  a.com b-1.net" [$"127.0.0.1%lo0"; $"a.com"; $"b-1.net"] /\
  address_part $"127.0.0.1%lo0" $"127.0.0.1" /\
  ex_parse_ip $"127.0.0.1" = Some $"127.0.0.1" /\ Forall good_name [$"a.com"; $"b-1.net"].
Proof.
  split; [apply fields_iff; reflexivity|]. split; [|split; [reflexivity|]].
  - split; [apply count_byte_0; reflexivity|]. right. exists $"lo0". reflexivity.
  - repeat constructor; apply validate_domain_name_spec; reflexivity.
Qed.

(** ** C11: accepted names. *)
Theorem C11_domain_name_grammar : forall s, validate_domain_name s = true <-> good_name s.
Proof. exact validate_domain_name_spec. Qed.
Print Assumptions C11_domain_name_grammar.

(** The complete grammar of list lines. *)
Theorem C11_list_line_grammar :
  forall parse_ip to_ascii compiles t hs, (exists c, In c t /\ ~ white c) ->
  (hosts_line parse_ip to_ascii compiles t = Some hs <-> line_entries parse_ip to_ascii compiles t hs).
Proof. exact hosts_line_spec. Qed.
Print Assumptions C11_list_line_grammar.

Example C11_example :
  good_name $"www.ex_ample-1.com." /\ good_name $"a_" /\ ~ good_name $"a..b" /\ ~ good_name $".a" /\
  ~ good_name $"-a b" /\ ~ good_name (repeat "a"%char 64) /\ good_name (repeat "a"%char 63) /\
  line_entries ex_parse_ip ex_to_ascii ex_compiles $"||ads.com^" [$"ads.com"] /\
  line_entries ex_parse_ip ex_to_ascii ex_compiles $"*.ads.com ignored" [$"*.ads.com"].
Proof.
  rewrite <- !validate_domain_name_spec. rewrite <- !not_true_iff_false || idtac.
  repeat match goal with |- _ /\ _ => split end; try (vm_compute; congruence); try reflexivity.
  - apply hosts_line_spec; [|reflexivity]. exists "a"%char. split; [apply contains_byte_In; reflexivity|].
    apply is_space_false. reflexivity.
  - apply hosts_line_spec; [|reflexivity]. exists "a"%char. split; [apply contains_byte_In; reflexivity|].
    apply is_space_false. reflexivity.
Qed.

(** ** C71: from the lines of a source to lookups. *)

(** The entries of a source in the sense of the specification: the entries of its
    lines, addresses in canonical form. *)
Definition canonical (parse_ip : str -> option str) (h : str) : str :=
  match parse_ip h with Some c => c | None => h end.

Theorem C71_list_source_means_its_lines :
  forall compile parse_ip to_ascii compiles limit ls ts g,
  contents ls ts ->
  (* every line has a meaning *)
  (forall t, In t ts -> exists hs, line_entries parse_ip to_ascii compiles t hs) ->
  (* no entry is a single slash *)
  (forall t hs, In t ts -> line_entries parse_ip to_ascii compiles t hs ->
     ~ In [slash] (map (canonical parse_ip) hs)) ->
  exists es c, parse_file parse_ip to_ascii compiles limit ls ScanEOF = (es, false) /\
    create_cache_for_group compile new_list_cache g es NoErr = Ok (c, false) /\
    forall n, In g (lc_match compile c n [g]) <->
      exists t hs h, In t ts /\ line_entries parse_ip to_ascii compiles t hs /\ In h hs /\
        entry_matches compile (canonical parse_ip h) n.
Proof.
  intros compile parse_ip to_ascii compiles limit ls ts g Hc Hall Hns.
  assert (forall t, In t ts -> exists c, In c t /\ ~ white c) as Hink.
  { intros t Ht. destruct (Hall t Ht) as [hs Hh].
    assert (exists w ws, words t (w :: ws)) as [w [ws Hw]].
    { inversion Hh; subst; [eauto| |eauto]. destruct H as [w [a [H _]]]. eauto. }
    eapply words_ink. exact Hw. }
  assert (exists items, collected (hosts_line parse_ip to_ascii compiles) ts items 0 /\
     (forall hs, In hs items <-> exists t, In t ts /\ line_entries parse_ip to_ascii compiles t hs)) as [items [Hcol Hit]].
  { clear Hc Hns. induction ts as [|t ts IH].
    - exists []. split; [constructor|]. intros hs. split; [intros []|intros [t [[] _]]].
    - destruct IH as [items [H1 H2]].
      + intros; apply Hall; now right.
      + intros; apply Hink; now right.
      + destruct (Hall t (or_introl eq_refl)) as [hs Hh].
        assert (hosts_line parse_ip to_ascii compiles t = Some hs) as E
          by (apply hosts_line_spec; auto; apply Hink; now left).
        exists (hs :: items). split; [now constructor|]. intros hs'. simpl. rewrite H2. split.
        * intros [<-|[t' [G1 G2]]]; eauto.
        * intros [t' [[->|G1] G2]]; [|eauto]. left.
          apply hosts_line_spec in G2; [congruence|]. apply Hink. now left. }
  pose proof (proj1 (C08_error_budget_exact _ _ limit ls ScanEOF ts items 0 Hc Hcol) ltac:(lia)) as HP.
  exists (map (canonical parse_ip) (concat items)).
  assert (~ In [slash] (map (canonical parse_ip) (concat items))) as Hno.
  { rewrite concat_map, in_concat. intros [x [G1 G2]]. apply in_map_iff in G1 as [hs [<- G1]].
    apply Hit in G1 as [t [G3 G4]]. eapply Hns; eauto. }
  destruct (create_cache_spec compile new_list_cache g _ NoErr lc_shape_new Hno)
    as [c [failed [E [_ [Hf [_ [Hnew _]]]]]]].
  assert (failed = false) as ->.
  { destruct failed; auto. destruct (proj1 Hf eq_refl) as [H|[H _]]; discriminate. }
  exists c. split; [|split; [exact E|]].
  - unfold parse_file. rewrite HP. reflexivity.
  - intros n. destruct (c_contains_spec compile c n [g]) as [_ M]. unfold lc_match. rewrite M, (Hnew eq_refl).
    unfold list_matches. split.
    + intros [_ [e [H1 H2]]]. apply in_map_iff in H1 as [h [<- H1]]. apply in_concat in H1 as [hs [G1 G2]].
      apply Hit in G1 as [t [G3 G4]]. eauto 10.
    + intros [t [hs [h [H1 [H2 [H3 H4]]]]]]. split; [now left|]. exists (canonical parse_ip h). split; auto.
      apply in_map. apply in_concat. exists hs. split; auto. apply Hit. eauto.
Qed.
Print Assumptions C71_list_source_means_its_lines.

Example C71_example :
  let ls := scan_lines $"# my list
127.0.0.1 Ads.com tracker.net
||evil.org^
*.bad.com
0::1
" in
  exists es c, parse_file ex_parse_ip ex_to_ascii ex_compiles 5 ls ScanEOF = (es, false) /\
   es = [$"Ads.com"; $"tracker.net"; $"evil.org"; $"*.bad.com"; $"::1"] /\
   create_cache_for_group ex_regex new_list_cache $"g" es NoErr = Ok (c, false) /\
   lc_match ex_regex c $"x.bad.com" [$"g"] = [$"g"] /\ lc_match ex_regex c $"ads.com" [$"g"] = [$"g"].
Proof. eexists _, _. split; [reflexivity|]. split; [reflexivity|]. split; [reflexivity|]. vm_compute. auto. Qed.

(** The crash of C03 is reachable from a list source: a line "/" is accepted by
    the parser (if "/" compiles as a regular expression and is no address). *)
Theorem C03_slash_line_crashes_refuted :
  exists line, forall compile parse_ip to_ascii compiles limit c g,
    map g_kind c = [KRegex; KWild; KString] ->
    parse_ip [slash] = None -> compiles [slash] = true ->
    exists es, parse_file parse_ip to_ascii compiles limit [line] ScanEOF = (es, false) /\
      create_cache_for_group compile c g es NoErr = Panic.
Proof.
  exists [slash]. intros compile parse_ip to_ascii compiles limit c g Hk Hip Hco. exists [[slash]]. split.
  - assert (hosts_line parse_ip to_ascii compiles [slash] = Some [[slash]]) as E.
    { unfold hosts_line, host_list_entry. simpl. unfold normalize_hosts_list_entry. simpl.
      unfold validate_hosts_list_entry. simpl. unfold trim_suffix, trim_prefix. simpl. rewrite Hip. simpl. now rewrite Hco. }
    assert (contents [[slash]] [[slash]]) as Hc.
    { apply con_take; [|discriminate|apply con_nil]. exists [], [slash], [], []. split; [reflexivity|].
      split; [constructor|]. split; [constructor|]. split; [intros [H|[]]; discriminate|]. split; [auto|].
      split; [auto|]. right. split; [exists slash, []|exists [], slash]; (split; [reflexivity|]); apply is_space_false; reflexivity. }
    assert (collected (hosts_line parse_ip to_ascii compiles) [[slash]] [[[slash]]] 0) as Hcol
      by (apply col_good; [exact E|constructor]).
    pose proof (proj1 (C08_error_budget_exact _ _ limit [[slash]] ScanEOF _ _ _ Hc Hcol) ltac:(lia)) as HP.
    unfold parse_file. rewrite HP. simpl. now rewrite Hip.
  - unfold create_cache_for_group. rewrite (lc_refresh c Hk). reflexivity.
Qed.
Print Assumptions C03_slash_line_crashes_refuted.
