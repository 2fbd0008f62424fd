(** Theorems about downloads (C113) and the refresh of a group from its sources (C114). *)
From Coq Require Import String Ascii List Arith NArith ZArith Bool Permutation Lia.
From Verif Require Import Str StrFacts StringCache StringCacheSpec StringCacheProofs StringCacheProps
  Parsers ParsersSpec ParsersProofs ParsersProps Target Download DownloadSpec.
Import ListNotations.
Open Scope list_scope.

(** ** C113 *)
Lemma one_try_spec a : (exists b, delivers a b /\ one_try a = ([DRequest; DBody], inl b)) \/
  (exists e evs, fails_with a e /\ one_try a = (evs, inr e) /\ (forall b, ~ delivers a b) /\
     how_often is_failed evs = 0 /\ how_often is_wait evs = 0 /\ how_often is_body evs = how_often is_close evs).
Proof.
  destruct a as [e|s ls e|e|e]; unfold one_try, delivers, fails_with.
  - right. exists (DPlain e), []. split; auto. split; auto. split; [discriminate|]. repeat split.
  - destruct (N.eqb_spec s 200) as [->|Hs].
    + left. exists (ls, e). split; reflexivity.
    + right. eexists (DStatus s), _. split; [split; eauto|]. split; [reflexivity|]. split; [congruence|]. repeat split.
  - right. eexists (DTransient e), _. split; [reflexivity|]. split; [reflexivity|]. split; [discriminate|]. repeat split.
  - right. eexists (DPlain e), _. split; [now left|]. split; [reflexivity|]. split; [discriminate|]. repeat split.
Qed.

Lemma how_often_app P a b : how_often P (a ++ b) = how_often P a + how_often P b.
Proof. unfold how_often. now rewrite filter_app, app_length. Qed.

Lemma retry_success attempts net b : forall m n fuel, delivers (net (n + m)) b ->
  (forall i, n <= i < n + m -> forall b', ~ delivers (net i) b') -> (attempts = 0 \/ N.of_nat (n + m) < attempts)%N -> m < fuel ->
  exists evs, retry_do fuel attempts net n = Some (evs, inl b) /\ how_often is_failed evs = m /\ how_often is_wait evs = m /\
    how_often is_body evs = S (how_often is_close evs).
Proof.
  induction m as [|m IH]; intros n fuel Hd Hn Ha Hf; destruct fuel as [|fuel]; try lia; cbn [retry_do].
  - rewrite Nat.add_0_r in *. destruct (one_try_spec (net n)) as [[b' [H1 ->]]|[e [evs [_ [_ [H _]]]]]]; [|now apply H in Hd].
    assert (b' = b) as -> by (unfold delivers in *; rewrite Hd in H1; injection H1; destruct b, b'; cbn; congruence).
    exists [DRequest; DBody]. repeat split.
  - destruct (one_try_spec (net n)) as [[b' [H1 _]]|[e [evs [_ [-> [_ [E1 [E2 E3]]]]]]]]; [exfalso; apply (Hn n ltac:(lia) b' H1)|].
    destruct (N.eqb_spec attempts (N.of_nat n + 1)) as [->|Hx]; [exfalso; lia|].
    destruct (IH (S n) fuel) as [evs' [-> [F1 [F2 F3]]]]; try lia.
    { now replace (S n + m) with (n + S m) by lia. }
    { intros i Hi. apply Hn. lia. }
    eexists. split; [reflexivity|]. rewrite !how_often_app. unfold how_often in *. cbn [filter is_failed is_wait is_body is_close length]. lia.
Qed.

Lemma retry_failure attempts net : forall m n fuel, (attempts = N.of_nat (n + S m))%N ->
  (forall i, n <= i < n + S m -> forall b', ~ delivers (net i) b') -> S m <= fuel ->
  exists evs e, retry_do fuel attempts net n = Some (evs, inr e) /\ fails_with (net (n + m)) e /\
    how_often is_failed evs = S m /\ how_often is_wait evs = m /\ how_often is_body evs = how_often is_close evs.
Proof.
  induction m as [|m IH]; intros n fuel Ha Hn Hf; destruct fuel as [|fuel]; try lia; cbn [retry_do];
    (destruct (one_try_spec (net n)) as [[b' [H1 _]]|[e [evs [He [-> [_ [E1 [E2 E3]]]]]]]]; [exfalso; apply (Hn n ltac:(lia) b' H1)|]).
  - replace (attempts =? N.of_nat n + 1)%N with true by (symmetry; apply N.eqb_eq; lia). rewrite Nat.add_0_r.
    eexists _, _. split; [reflexivity|]. split; [exact He|]. rewrite !how_often_app. unfold how_often in *. cbn [filter is_failed is_wait is_body is_close length]. lia.
  - replace (attempts =? N.of_nat n + 1)%N with false by (symmetry; apply N.eqb_neq; lia).
    destruct (IH (S n) fuel) as [evs' [e' [-> [F0 [F1 [F2 F3]]]]]]; try lia.
    { intros i Hi. apply Hn. lia. }
    eexists _, _. split; [reflexivity|]. split; [now replace (n + S m) with (S n + m) by lia|].
    rewrite !how_often_app. unfold how_often in *. cbn [filter is_failed is_wait is_body is_close length]. lia.
Qed.

(** If one of the allowed requests succeeds, the body of the first success is returned; every failure before was
    counted once and followed by the cooldown; all other bodies were closed. *)
Theorem C113_success : forall attempts net k b fuel,
  first_success net k b -> (attempts = 0 \/ N.of_nat k < attempts)%N -> k < fuel ->
  exists evs, download_file fuel attempts net = Some (evs, inl b) /\
    how_often is_failed evs = k /\ how_often is_wait evs = k /\ how_often is_body evs = S (how_often is_close evs).
Proof. intros attempts net k b fuel [H1 H2] Ha Hf. apply retry_success; auto. intros i Hi. apply H2. lia. Qed.
Print Assumptions C113_success.

(** Otherwise exactly [attempts] tries are made and counted, with the cooldown between them; the error says how the
    last one failed; no body stays open. *)
Theorem C113_failure : forall attempts net fuel, (0 < attempts)%N -> N.to_nat attempts <= fuel ->
  (forall i, (N.of_nat i < attempts)%N -> forall b, ~ delivers (net i) b) ->
  exists evs e, download_file fuel attempts net = Some (evs, inr e) /\ fails_with (net (N.to_nat attempts - 1)) e /\
    how_often is_failed evs = N.to_nat attempts /\ how_often is_wait evs = N.to_nat attempts - 1 /\
    how_often is_body evs = how_often is_close evs.
Proof.
  intros attempts net fuel Ha Hf Hn.
  destruct (retry_failure attempts net (N.to_nat attempts - 1) 0 fuel) as [evs [e [H1 [H2 [H3 [H4 H5]]]]]]; try lia.
  { intros i Hi. apply Hn. lia. }
  exists evs, e. split; [exact H1|]. split; [exact H2|]. split; [lia|]. split; [lia|exact H5].
Qed.
Print Assumptions C113_failure.

(** With zero attempts a download goes on until it succeeds, and never fails. *)
Theorem C113_endless : forall net, (forall i b, ~ delivers (net i) b) -> forall fuel, download_file fuel 0 net = None.
Proof.
  intros net Hn fuel. unfold download_file. generalize 0. induction fuel as [|fuel IH]; intros n; [reflexivity|]. cbn [retry_do].
  destruct (one_try_spec (net n)) as [[b' [H1 _]]|[e [evs [_ [-> _]]]]]; [now apply Hn in H1|].
  replace (0 =? N.of_nat n + 1)%N with false by (symmetry; apply N.eqb_neq; lia). now rewrite IH.
Qed.
Print Assumptions C113_endless.

(** The end of the context does not end a download: all tries and all cooldowns are still gone through. *)
Theorem C113_cancelled_refuted : exists attempts net done ctx_err evs e, (forall n, done n = true) /\
  download_file 10 attempts (under_ctx done ctx_err net) = Some (evs, inr e) /\
  how_often is_wait evs = 2 /\ how_often is_failed evs = 3.
Proof. exists 3%N, (fun _ => NetError 1), (fun _ => true), 7. eexists _, _. split; [reflexivity|]. split; [reflexivity|]. split; reflexivity. Qed.
Print Assumptions C113_cancelled_refuted.

(** With zero attempts not even shutdown ends it. *)
Theorem C113_shutdown_refuted : exists net done ctx_err, (forall n, done n = true) /\
  forall fuel, download_file fuel 0 (under_ctx done ctx_err net) = None.
Proof.
  exists (fun _ => Answer 200 [] ScanEOF), (fun _ => true), 7. split; [reflexivity|]. apply C113_endless. intros i b H. discriminate.
Qed.
Print Assumptions C113_shutdown_refuted.

Example C113_example :
  let net n := match n with 0 => NetTimeout 1 | 1 => Answer 503 [] ScanEOF | _ => Answer 200 [$"a.com"] ScanEOF end in
  first_success net 2 ([$"a.com"], ScanEOF) /\
  (exists evs, download_file 3 3 net = Some (evs, inl ([$"a.com"], ScanEOF))) /\
  (exists evs, download_file 3 2 net = Some (evs, inr (DStatus 503))) /\
  (exists evs, download_file 3 1 net = Some (evs, inr (DTransient 1))).
Proof.
  cbv zeta. split; [|split; [|split]]; try (eexists; reflexivity).
  split; [reflexivity|]. intros [|[|i]] Hi b H; try discriminate. lia.
Qed.

(** ** C114 *)
Lemma drop_cr_spec l l' : without_cr l l' -> drop_cr l = l'.
Proof.
  unfold drop_cr. intros [->|[-> H]].
  - rewrite rev_app_distr. cbn. now rewrite rev_involutive.
  - destruct (rev l') as [|c r] eqn:E; [reflexivity|]. destruct (Ascii.eqb_spec c "013") as [->|]; [|reflexivity].
    exfalso. apply (H (rev r)). rewrite <- (rev_involutive l'), E. reflexivity.
Qed.

Lemma fitting_all ps : (forall p, In p ps -> (N.of_nat (length p) < 65536)%N) -> fitting ps = (ps, ScanEOF).
Proof.
  induction ps as [|p ps IH]; intros H; cbn [fitting]; [reflexivity|].
  replace (65536 <=? N.of_nat (length p))%N with false by (symmetry; apply N.leb_gt, H; now left).
  rewrite IH; [reflexivity|]. intros q Hq. apply H. now right.
Qed.

Definition text_pieces (t : str) : list str :=
  let pieces := split_byte "010"%char t in if str_eqb (last pieces []) [] then removelast pieces else pieces.

Lemma text_pieces_line l t : ~ In "010"%char l -> text_pieces (l ++ "010"%char :: t) = l :: text_pieces t.
Proof.
  intros H. unfold text_pieces. cbv zeta. rewrite split_byte_app, split_byte_no by exact H. cbn [app].
  pose proof (split_byte_nonempty "010" t) as Hn. destruct (split_byte "010" t) as [|p ps]; [congruence|].
  change (last (l :: p :: ps) []) with (last (p :: ps) []). destruct (str_eqb (last (p :: ps) []) []); reflexivity.
Qed.

Lemma text_pieces_lines t ls : text_lines t ls -> map drop_cr (text_pieces t) = ls.
Proof.
  induction 1 as [|l l' Hl Hn Hc|l l' t ls Hn Hc H IH].
  - reflexivity.
  - unfold text_pieces. cbv zeta. rewrite split_byte_no by exact Hn. cbn [last].
    destruct (str_eqb_spec l []) as [->|]; [congruence|]. cbn [map]. now rewrite (drop_cr_spec _ _ Hc).
  - rewrite text_pieces_line by exact Hn. cbn [map]. now rewrite (drop_cr_spec _ _ Hc), IH.
Qed.

Lemma text_pieces_part t ls : text_lines t ls -> forall p, In p (text_pieces t) -> ~ In "010"%char p /\ exists a b, t = a ++ p ++ b.
Proof.
  induction 1 as [|l l' Hl Hn Hc|l l' t ls Hn Hc H IH]; intros p Hp.
  - destruct Hp.
  - unfold text_pieces in Hp. cbv zeta in Hp. rewrite split_byte_no in Hp by exact Hn. cbn [last] in Hp.
    destruct (str_eqb_spec l []) as [->|]; [congruence|]. destruct Hp as [<-|[]]. split; auto. exists [], []. now rewrite app_nil_r.
  - rewrite text_pieces_line in Hp by exact Hn. destruct Hp as [<-|Hp].
    + split; auto. exists [], ("010"%char :: t). reflexivity.
    + destruct (IH p Hp) as [H1 [a [b ->]]]. split; auto. exists (l ++ "010"%char :: a), b. now rewrite <- app_assoc.
Qed.

Lemma scan_text_spec t ls : text_lines t ls ->
  (forall a l b, t = a ++ l ++ b -> ~ In "010"%char l -> (N.of_nat (length l) < 65536)%N) -> scan_text t = (ls, ScanEOF).
Proof.
  intros Ht Hl. unfold scan_text. cbv zeta. fold (text_pieces t). rewrite fitting_all.
  - now rewrite (text_pieces_lines _ _ Ht).
  - intros p Hp. destruct (text_pieces_part _ _ Ht p Hp) as [H1 [a [b H2]]]. now apply (Hl a p b).
Qed.

Section Load.
Variable parse_ip to_ascii : str -> option str.
Variable compiles : str -> bool.
Variable file : str -> option (list str * scan_end).
Variable net : str -> nat -> answer.
Notation entries := (written parse_ip to_ascii compiles).

Lemma contents_ink ls ts : contents ls ts -> forall t, In t ts -> exists c, In c t /\ ~ white c.
Proof.
  induction 1 as [|l ls ts _ _ IH|l ls t ts Hl Hn _ IH]; intros u Hu; [destruct Hu|auto|].
  destruct Hu as [<-|Hu]; [|auto]. destruct Hl as [b [body [a [tl [_ [_ [_ [_ [_ [-> [->|[[c [r [-> Hc]]] _]]]]]]]]]]]]; [congruence|].
  exists c. split; [now left|exact Hc].
Qed.

Lemma parse_file_written limit ls : few_errors parse_ip to_ascii compiles limit ls ->
  exists es, parse_file parse_ip to_ascii compiles limit ls ScanEOF = (es, false) /\ forall e, In e es <-> entries ls e.
Proof.
  intros Hm. destruct (contents_total ls) as [ts Hc]. pose proof (contents_ink ls ts Hc) as Hink.
  destruct (collected_total (hosts_line parse_ip to_ascii compiles) ts) as [items [bad Hcol]].
  assert (without_meaning parse_ip to_ascii compiles ts bad /\
     (forall hs, In hs items <-> exists t, In t ts /\ line_entries parse_ip to_ascii compiles t hs)) as [Hwm Hit].
  { clear Hc Hm. induction Hcol as [|t ts a l n Hp Hcol IH|t ts l n Hp Hcol IH].
    - split; [constructor|]. intros hs. split; [intros []|intros [t [[] _]]].
    - destruct IH as [H1 H2]; [intros u Hu; apply Hink; now right|]. pose proof Hp as Hl. apply hosts_line_spec in Hl; [|apply Hink; now left].
      split; [now apply wm_good with a|]. intros hs. simpl. rewrite H2. split.
      + intros [<-|[u [G1 G2]]]; eauto.
      + intros [u [[->|G1] G2]]; [|eauto]. left. apply hosts_line_spec in G2; [congruence|]. apply Hink. now left.
    - destruct IH as [H1 H2]; [intros u Hu; apply Hink; now right|].
      assert (forall hs, ~ line_entries parse_ip to_ascii compiles t hs) as Hno.
      { intros hs G. apply hosts_line_spec in G; [congruence|]. apply Hink. now left. }
      split; [now constructor|]. intros hs. rewrite H2. split.
      + intros [u [G1 G2]]. exists u. split; [now right|auto].
      + intros [u [[->|G1] G2]]; [now apply Hno in G2|eauto]. }
  pose proof (proj1 (C08_error_budget_exact _ _ limit ls ScanEOF ts items bad Hc Hcol) (Hm ts bad Hc Hwm)) as HP.
  exists (map (fun h => match parse_ip h with Some c => c | None => h end) (concat items)). split.
  - unfold parse_file. rewrite HP. reflexivity.
  - intros e. rewrite in_map_iff. unfold written. split.
    + intros [h [<- H]]. apply in_concat in H as [hs [G1 G2]]. apply Hit in G1 as [t [G3 G4]]. exists ts, t, hs, h. auto.
    + intros [ts' [t [hs [h [G0 [G1 [G2 [G3 ->]]]]]]]]. rewrite (contents_fun _ _ _ G0 Hc) in G1. exists h. split; auto.
      apply in_concat. exists hs. split; auto. apply Hit. eauto.
Qed.

(** A bound for the rounds of all downloads. *)
Definition enough (attempts : N) (fuel : nat) (srcs : list source) : Prop :=
  forall link k b, In (SHttp link) srcs -> first_success (net link) k b -> k < fuel.

Lemma produce_readable fuel attempts limit s ls : readable file net attempts s ls -> few_errors parse_ip to_ascii compiles limit ls ->
  enough attempts fuel [s] ->
  exists es, produce parse_ip to_ascii compiles file net fuel attempts limit None s = Some (es, NoErr) /\ forall e, In e es <-> entries ls e.
Proof.
  intros Hr Hm Hf. destruct (parse_file_written limit ls Hm) as [es [Hp He]].
  assert (open_source file net fuel attempts s = Some (inl (ls, ScanEOF))) as Ho.
  { destruct s as [t|link|p]; cbn [open_source readable] in *.
    - destruct Hr as [H1 H2]. now rewrite (scan_text_spec _ _ H1 H2).
    - destruct Hr as [k [H1 H2]]. destruct (C113_success attempts (net link) k _ fuel H1 H2) as [evs [-> _]]; [|reflexivity].
      eapply Hf; [now left|exact H1].
    - now rewrite Hr. }
  exists es. split; [|exact He]. unfold produce. now rewrite Ho, Hp.
Qed.

Lemma produce_all_readable fuel attempts limit srcs lss : Forall2 (readable file net attempts) srcs lss ->
  Forall (few_errors parse_ip to_ascii compiles limit) lss -> enough attempts fuel srcs -> forall i,
  exists produced, produce_all parse_ip to_ascii compiles file net fuel attempts limit (fun _ => None) i srcs = Some produced /\
    map snd produced = map (fun _ => NoErr) srcs /\
    forall e, In e (concat (map fst produced)) <-> exists ls, In ls lss /\ entries ls e.
Proof.
  intros H. induction H as [|s ls srcs lss Hr Hrs IH]; intros Hm Hf i; cbn [produce_all].
  - exists []. split; auto. split; auto. intros e. split; [intros []|intros [ls [[] _]]].
  - inversion Hm as [|? ? Hm1 Hm2]; subst.
    destruct (produce_readable fuel attempts limit s ls Hr Hm1) as [es [-> He]].
    { intros link k b [->|[]] Hk. eapply Hf; [now left|exact Hk]. }
    destruct (IH Hm2 ltac:(intros link k b Hin Hk; eapply Hf; [right; exact Hin|exact Hk]) (S i)) as [ps [-> [H1 H2]]].
    exists ((es, NoErr) :: ps). split; [reflexivity|]. split; [cbn; now f_equal|]. intros e. cbn [map fst concat].
    rewrite in_app_iff, He, H2. split.
    + intros [G|[ls' [G1 G2]]]; [exists ls; split; [now left|auto]|exists ls'; split; [now right|auto]].
    + intros [ls' [[->|G1] G2]]; [now left|right; eauto].
Qed.
End Load.

(** All sources of a group can be read and each has at most the allowed number of lines without a meaning: whatever the order in which the entries arrive,
    the refresh succeeds, the group holds exactly the entries written in the sources, and other groups keep theirs. *)
Theorem C114_refresh : forall compile parse_ip to_ascii compiles file net hist c g attempts limit fuel srcs lss,
  no_bare_slash hist -> run_loads compile new_list_cache hist = Ok c ->
  Forall2 (readable file net attempts) srcs lss -> Forall (few_errors parse_ip to_ascii compiles limit) lss ->
  (forall ls, In ls lss -> ~ written parse_ip to_ascii compiles ls [slash]) -> enough net attempts fuel srcs ->
  exists produced, produce_all parse_ip to_ascii compiles file net fuel attempts limit (fun _ => None) 0 srcs = Some produced /\
  forall es err, group_arrives produced es err ->
  exists c', create_cache_for_group compile c g es err = Ok (c', false) /\
    (forall n, In g (lc_match compile c' n [g]) <->
       exists ls e, In ls lss /\ written parse_ip to_ascii compiles ls e /\ entry_matches compile e n) /\
    (forall n x, x <> g -> In x (lc_match compile c' n [x]) <-> In x (lc_match compile c n [x])).
Proof.
  intros compile parse_ip to_ascii compiles file net hist c g attempts limit fuel srcs lss Hh Hc Hr Hm Hns Hf.
  destruct (produce_all_readable parse_ip to_ascii compiles file net fuel attempts limit srcs lss Hr Hm Hf 0) as [produced [Hp [Hs He]]].
  exists produced. split; [exact Hp|]. intros es err [Hperm Herr].
  assert (forall e, In e es <-> exists ls, In ls lss /\ written parse_ip to_ascii compiles ls e) as Hes.
  { intros e. rewrite <- He. split; apply Permutation_in; [exact Hperm|exact (Permutation_sym Hperm)]. }
  assert (err = NoErr) as ->.
  { assert (forall x, In x (map snd produced) -> x = NoErr) as Hall.
    { rewrite Hs. intros x Hx. apply in_map_iff in Hx as [? [Hx _]]. now symmetry. }
    destruct err; [reflexivity| |]; cbn [may_report] in Herr; apply Hall in Herr; discriminate. }
  destruct (run_loads_spec compile hist Hh) as [c0 [E0 [Hsh _]]]. assert (c0 = c) as -> by congruence.
  assert (~ In [slash] es) as Hno by (rewrite Hes; intros [ls [H1 H2]]; exact (Hns ls H1 H2)).
  destruct (create_cache_spec compile c g es NoErr Hsh Hno) as [c' [failed [E [_ [Hfl [_ [Hnew Hoth]]]]]]].
  assert (failed = false) as -> by (destruct failed; auto; destruct (proj1 Hfl eq_refl) as [H|[H _]]; discriminate).
  exists c'. split; [exact E|]. split.
  - intros n. destruct (c_contains_spec compile c' n [g]) as [_ M]. unfold lc_match. rewrite M, (Hnew eq_refl). unfold list_matches. split.
    + intros [_ [e [H1 H2]]]. apply Hes in H1 as [ls [H3 H4]]. eauto.
    + intros [ls [e [H1 [H2 H3]]]]. split; [now left|]. exists e. split; auto. apply Hes. eauto.
  - intros n x Hx. destruct (c_contains_spec compile c' n [x]) as [_ M]. destruct (c_contains_spec compile c n [x]) as [_ M'].
    unfold lc_match. rewrite M, M', (Hoth x n Hx). reflexivity.
Qed.
Print Assumptions C114_refresh.

(** No source of a group can be opened: the refresh fails and no answer changes. *)
Theorem C114_all_fail : forall compile parse_ip to_ascii compiles file net hist c g attempts limit fuel srcs cuts produced es err,
  no_bare_slash hist -> run_loads compile new_list_cache hist = Ok c -> srcs <> [] -> (0 < attempts)%N ->
  (forall s, In s srcs -> match s with
     | SText _ => False
     | SFile p => file p = None
     | SHttp link => forall i, (N.of_nat i < attempts)%N -> forall b, ~ delivers (net link i) b
     end) -> N.to_nat attempts <= fuel ->
  produce_all parse_ip to_ascii compiles file net fuel attempts limit cuts 0 srcs = Some produced -> group_arrives produced es err ->
  exists c', create_cache_for_group compile c g es err = Ok (c', true) /\
    forall n groups, lc_match compile c' n groups = lc_match compile c n groups.
Proof.
  intros compile parse_ip to_ascii compiles file net hist c g attempts limit fuel srcs cuts produced es err Hh Hc Hne Ha Hs Hf Hp [Hperm Herr].
  assert (forall i, produce_all parse_ip to_ascii compiles file net fuel attempts limit cuts i srcs = Some produced ->
    concat (map fst produced) = [] /\ (forall x, In x (map snd produced) -> x <> NoErr) /\ length produced = length srcs) as Hall.
  { clear Hp Hperm Herr Hne. revert produced. induction srcs as [|s srcs IH]; intros produced i Hp; cbn [produce_all] in Hp.
    - injection Hp as <-. split; [reflexivity|]. split; [intros x []|reflexivity].
    - assert (exists e, produce parse_ip to_ascii compiles file net fuel attempts limit (cuts i) s = Some ([], e) /\ e <> NoErr) as [e [He1 He2]].
      { specialize (Hs s ltac:(now left)). unfold produce. destruct s as [t|link|p]; cbn [open_source]; [contradiction| |].
        - destruct (C113_failure attempts (net link) fuel Ha Hf Hs) as [evs [d [-> _]]]. destruct d; eexists; (split; [reflexivity|discriminate]).
        - rewrite Hs. eexists; split; [reflexivity|discriminate]. }
      rewrite He1 in Hp. destruct (produce_all _ _ _ _ _ _ _ _ _ (S i) srcs) as [ps|] eqn:E; [|discriminate]. injection Hp as <-.
      destruct (IH ltac:(intros s' Hs'; apply Hs; now right) ps (S i) E) as [H1 [H2 H3]]. cbn [map fst snd concat app length]. split; auto. split; [|lia].
      intros x [<-|Hx]; [exact He2|auto]. }
  destruct (Hall 0 Hp) as [H1 [H2 H3]]. rewrite H1 in Hperm. apply Permutation_sym, Permutation_nil in Hperm. subst es.
  assert (err <> NoErr) as Hen.
  { intros ->. cbn [may_report] in Herr. destruct produced as [|p ps]; [destruct srcs; [congruence|discriminate]|].
    inversion Herr as [|? ? E _]; subst. apply (H2 (snd p)); [now left|congruence]. }
  destruct (C06_failed_refresh_keeps_content compile hist c g [] err Hh ltac:(intros []) Hc) as [c' [failed [E [Hft [Hsame _]]]]].
  assert (~ takes_effect err []) as Hno by (intros [H|[_ H]]; congruence).
  exists c'. rewrite (proj2 Hft Hno) in E. split; [exact E|]. now apply Hsame.
Qed.
Print Assumptions C114_all_fail.

(** How a source that cannot be opened is counted: as transient, which keeps the list that is in use, exactly if the last request for
    it ran into a timeout. *)
Theorem C114_kind_of_failure : forall parse_ip to_ascii compiles file net link attempts limit fuel cut r, (0 < attempts)%N -> N.to_nat attempts <= fuel ->
  (forall i, (N.of_nat i < attempts)%N -> forall b, ~ delivers (net link i) b) ->
  produce parse_ip to_ascii compiles file net fuel attempts limit cut (SHttp link) = Some r ->
  fst r = [] /\ ((exists n, net link (N.to_nat attempts - 1) = NetTimeout n) -> snd r = TransientErr) /\
  ((forall n, net link (N.to_nat attempts - 1) <> NetTimeout n) -> snd r = OtherErr).
Proof.
  intros parse_ip to_ascii compiles file net link attempts limit fuel cut r Ha Hf Hn H. unfold produce in H. cbn [open_source] in H.
  destruct (C113_failure attempts (net link) fuel Ha Hf Hn) as [evs [d [E [Hd _]]]]. rewrite E in H. destruct d as [st|n|n]; injection H as <-; cbn [fails_with fst snd] in *.
  - split; [reflexivity|]. split; [|reflexivity]. intros [n K]. destruct Hd as [_ [ls [e Hd]]]. congruence.
  - split; [reflexivity|]. split; [reflexivity|]. intros K. now apply K in Hd.
  - split; [reflexivity|]. split; [|reflexivity]. intros [m K]. destruct Hd; congruence.
Qed.
Print Assumptions C114_kind_of_failure.

(** One of two lists has moved (status 404): the refresh reports no error and unblocks all its domains. *)
Theorem C114_missing_source_refuted : exists net net' srcs produced es c produced' es' c',
  let load net := produce_all ex_parse_ip ex_to_ascii ex_compiles (fun _ => None) net 5 3 5 (fun _ => None) 0 srcs in
  load net = Some produced /\ group_arrives produced es NoErr /\
  create_cache_for_group ex_regex new_list_cache $"ads" es NoErr = Ok (c, false) /\
  load net' = Some produced' /\ (forall err, group_arrives produced' es' err <-> err = OtherErr) /\
  create_cache_for_group ex_regex c $"ads" es' OtherErr = Ok (c', false) /\
  lc_match ex_regex c $"evil.com" [$"ads"] = [$"ads"] /\ lc_match ex_regex c' $"evil.com" [$"ads"] = [].
Proof.
  exists (fun l _ => if str_eqb l $"http://one" then Answer 200 [$"evil.com"] ScanEOF else Answer 200 [$"other.com"] ScanEOF),
    (fun l _ => if str_eqb l $"http://one" then Answer 404 [] ScanEOF else Answer 200 [$"other.com"] ScanEOF),
    [SHttp $"http://one"; SHttp $"http://two"],
    [([$"evil.com"], NoErr); ([$"other.com"], NoErr)], [$"evil.com"; $"other.com"]. eexists.
  exists [([], OtherErr); ([$"other.com"], NoErr)], [$"other.com"]. eexists.
  cbv zeta. split; [reflexivity|]. split; [split; [reflexivity|repeat constructor]|]. split; [reflexivity|]. split; [reflexivity|].
  split; [|split; [reflexivity|split; reflexivity]].
  intros err. split.
  - intros [_ H]. destruct err; [inversion H; discriminate| |reflexivity]. destruct H as [H|[H|[]]]; discriminate.
  - intros ->. split; [reflexivity|now left].
Qed.
Print Assumptions C114_missing_source_refuted.

(** A download that breaks off, or a line that is too long: the rest of the list is left out without any error. *)
Theorem C114_truncated_refuted : exists net srcs produced es c,
  (net $"http://one" 0 = Answer 200 [$"one.com"] ScanErr) /\ srcs = [SHttp $"http://one"; SText ($"two.com" ++ "010"%char :: repeat "a"%char (N.to_nat 70000) ++ "010"%char :: $"evil.com")] /\
  produce_all ex_parse_ip ex_to_ascii ex_compiles (fun _ => None) net 5 3 5 (fun _ => None) 0 srcs = Some produced /\
  group_arrives produced es NoErr /\ create_cache_for_group ex_regex new_list_cache $"ads" es NoErr = Ok (c, false) /\
  es = [$"one.com"; $"two.com"] /\ lc_match ex_regex c $"evil.com" [$"ads"] = [].
Proof.
  exists (fun _ _ => Answer 200 [$"one.com"] ScanErr). eexists.
  exists [([$"one.com"], NoErr); ([$"two.com"], NoErr)], [$"one.com"; $"two.com"]. eexists.
  split; [reflexivity|]. split; [reflexivity|]. split; [vm_compute; reflexivity|].
  split; [split; [reflexivity|repeat constructor]|]. split; [reflexivity|]. split; reflexivity.
Qed.
Print Assumptions C114_truncated_refuted.

Lemma few_errors_short parse_ip to_ascii compiles limit ls : (Z.of_nat (length ls) <= limit)%Z -> few_errors parse_ip to_ascii compiles limit ls.
Proof.
  intros H ts n Hc Hw. right. assert (length ts <= length ls) by (clear -Hc; induction Hc; cbn; lia).
  assert (n <= length ts) by (clear -Hw; induction Hw; cbn; lia). lia.
Qed.

Example C114_example :
  let net := fun l n => match n with 0 => NetTimeout 1 | _ => Answer 200 [$"# list"; $"127.0.0.1 evil.com"; $"bad line"] ScanEOF end in
  few_errors ex_parse_ip ex_to_ascii ex_compiles 5 [$"# list"; $"127.0.0.1 evil.com"; $"bad line"] /\
  readable (fun _ => None) net 3 (SHttp $"http://one") [$"# list"; $"127.0.0.1 evil.com"; $"bad line"] /\
  readable (fun _ => None) net 3 (SText ($"a.com" ++ ["013"; "010"]%char ++ $"b.com")) [$"a.com"; $"b.com"] /\
  produce_all ex_parse_ip ex_to_ascii ex_compiles (fun _ => None) net 2 3 5 (fun _ => None) 0
     [SText ($"a.com" ++ ["013"; "010"]%char ++ $"b.com"); SHttp $"http://one"] = Some [([$"a.com"; $"b.com"], NoErr); ([$"evil.com"], NoErr)].
Proof.
  cbv zeta. split; [apply few_errors_short; reflexivity || (cbn; lia)|]. split; [|split].
  - exists 1. split; [|right; lia]. split; [reflexivity|]. intros [|i] Hi b H; [discriminate|lia].
  - split.
    + apply (tl_line ($"a.com" ++ ["013"%char]) $"a.com" $"b.com"); [cbn; intuition discriminate|now left|].
      apply tl_last; [discriminate|cbn; intuition discriminate|]. right. split; [reflexivity|]. intros x H.
      apply (f_equal (@rev _)) in H. rewrite rev_app_distr in H. discriminate.
    + intros a l b H _. assert (length ($"a.com" ++ ["013"; "010"]%char ++ $"b.com") = 12) as E by reflexivity. rewrite H, !app_length in E. lia.
  - reflexivity.
Qed.
