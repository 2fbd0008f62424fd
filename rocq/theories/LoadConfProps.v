(** Theorems about reading the configuration (C118, C119). *)
From Coq Require Import String Ascii List Arith NArith Bool Permutation Sorted Lia.
From Verif Require Import Str StrFacts LoadConf LoadConfSpec.
Import ListNotations.
Open Scope list_scope.

(** Induction over the tree. *)
Lemma node_ind' (P : node -> Prop) : (forall c, P (NFile c)) -> (forall t, P (NLink t)) -> P NOther -> P (NDir None) ->
  (forall es, (forall e, In e es -> P (snd e)) -> P (NDir (Some es))) -> forall n, P n.
Proof.
  intros H1 H2 H3 H4 H5. fix IH 1. intros [c|[es|]|t|]; [apply H1| |apply H4|apply H2|apply H3]. apply H5.
  induction es as [|[nm n] es IHes]; intros e He; [destruct He|]. destruct He as [<-|He]; [apply IH|now apply IHes].
Qed.

Lemma is_yaml_iff nm : is_yaml nm = true <-> yaml_name nm.
Proof.
  unfold is_yaml, yaml_name. rewrite orb_true_iff, !has_suffix_spec. split.
  - intros [[x ->]|[x ->]]; exists x; auto.
  - intros [x [->| ->]]; [left|right]; eauto.
Qed.

Lemma name_before_iff a : forall b, str_ltb a b = true <-> name_before a b.
Proof.
  induction a as [|x a IH]; intros [|y b]; cbn [str_ltb].
  - split; [discriminate|]. intros [[x [r H]]|[p [x [y [r [s [H _]]]]]]]; [discriminate|destruct p; discriminate].
  - split; [|reflexivity]. intros _. left. exists y, b. reflexivity.
  - split; [discriminate|]. intros [[z [r H]]|[p [z [y [r [s [_ [H _]]]]]]]]; [discriminate|destruct p; discriminate].
  - destruct (N.ltb_spec (N_of_ascii x) (N_of_ascii y)) as [Hl|Hl].
    + split; [|reflexivity]. intros _. right. exists [], x, y, a, b. auto.
    + destruct (Ascii.eqb_spec x y) as [->|Hn].
      * rewrite IH. split.
        -- intros [[z [r ->]]|[p [u [v [r [s [-> [-> H]]]]]]]]; [left; exists z, r; reflexivity|right; exists (y :: p), u, v, r, s; auto].
        -- intros [[z [r H]]|[p [u [v [r [s [H1 [H2 H]]]]]]]]; [injection H as ->; left; eauto|].
           destruct p as [|w p]; [injection H1 as -> ->; injection H2 as -> ->; lia|].
           injection H1 as -> ->. injection H2 as ->. right. exists p, u, v, r, s. auto.
      * split; [discriminate|]. intros [[z [r H]]|[p [u [v [r [s [H1 [H2 H]]]]]]]]; [injection H as H _; congruence|].
        destruct p as [|w p]; [injection H1 as -> ->; injection H2 as -> ->; lia|]. injection H1 as -> _. injection H2 as H2 _. congruence.
Qed.

Lemma put_in_order_perm {A} (p : str * A) l : Permutation (put_in_order p l) (p :: l).
Proof. induction l as [|x l IH]; cbn [put_in_order]; auto. destruct (str_ltb _ _); auto. rewrite IH. apply perm_swap. Qed.
Lemma in_order_perm {A} (l : list (str * A)) : Permutation (in_order l) l.
Proof. induction l as [|x l IH]; cbn; auto. etransitivity; [apply put_in_order_perm|]. now constructor. Qed.

Definition entry_lt {A} (a b : str * A) : Prop := str_ltb (fst a) (fst b) = true.
Lemma put_in_order_sorted {A} (p : str * A) l : StronglySorted entry_lt l -> ~ In (fst p) (map fst l) -> StronglySorted entry_lt (put_in_order p l).
Proof.
  induction 1 as [|x l H IH Hx]; intros Hn; cbn [put_in_order].
  - repeat constructor.
  - destruct (str_ltb (fst x) (fst p)) eqn:E.
    + constructor; [apply IH; intros G; apply Hn; now right|]. rewrite Forall_forall in *. intros y Hy.
      apply (Permutation_in _ (put_in_order_perm p l)) in Hy as [<-|Hy]; [exact E|auto].
    + assert (str_ltb (fst p) (fst x) = true) as Hp.
      { destruct (str_ltb (fst p) (fst x)) eqn:E'; auto. exfalso. apply Hn. left. symmetry. now apply str_ltb_total. }
      constructor; [now constructor|]. constructor; [exact Hp|]. rewrite Forall_forall in *. intros y Hy. unfold entry_lt. eapply str_ltb_trans; [exact Hp|]. now apply Hx.
Qed.
Lemma in_order_sorted {A} (l : list (str * A)) : NoDup (map fst l) -> StronglySorted entry_lt (in_order l).
Proof.
  induction l as [|x l IH]; cbn; intros H; [constructor|]. inversion H as [|? ? H1 H2]; subst. apply put_in_order_sorted; [now apply IH|].
  intros G. apply H1. eapply Permutation_in; [apply Permutation_map, in_order_perm|exact G].
Qed.

Lemma all_of_None l : all_of l = None <-> exists nm, In (nm, None) l.
Proof.
  induction l as [|[nm [d|]] l IH]; cbn [all_of].
  - split; [discriminate|intros [nm []]].
  - destruct (all_of l) as [d'|].
    + split; [discriminate|]. intros [nm' [H|H]]; [discriminate|]. assert (Some d' = None) by (apply IH; eauto). discriminate.
    + split; [|reflexivity]. intros _. destruct (proj1 IH eq_refl) as [nm' H]. exists nm'. now right.
  - split; [|reflexivity]. intros _. exists nm. now left.
Qed.

Lemma yaml_file_head nm n path c : yaml_file nm n path c -> exists p, path = nm :: p.
Proof. intros H. inversion H; subst; eauto. Qed.

Lemma walk_trouble n : forall nm, walk nm n = None <-> trouble nm n.
Proof.
  induction n as [c|t| | |es IH] using node_ind'; intros nm; cbn [walk].
  - destruct (is_yaml nm) eqn:E.
    + apply is_yaml_iff in E. destruct c; split; try discriminate; intros H; [inversion H|now constructor|reflexivity].
    + split; [discriminate|]. intros H. inversion H as [? Hy| | | |]; subst. apply is_yaml_iff in Hy. congruence.
  - destruct (is_yaml nm) eqn:E.
    + apply is_yaml_iff in E. destruct t as [[c|]|es| |]; split; try discriminate; intros H; try (inversion H; fail); try reflexivity; now constructor.
    + split; [discriminate|]. intros H. inversion H as [|? Hy|? Hy| |]; subst; apply is_yaml_iff in Hy; congruence.
  - split; [discriminate|]. intros H. inversion H.
  - split; [constructor|reflexivity].
  - rewrite all_of_None. split.
    + intros [x H]. apply (Permutation_in _ (in_order_perm _)) in H. apply in_map_iff in H as [e [H He]]. injection H as <- H.
      apply tr_below with e; auto. now apply IH.
    + intros H. inversion H as [| | | |? ? e He Ht]; subst. exists (fst e).
      apply (Permutation_in _ (Permutation_sym (in_order_perm _))). apply in_map_iff. exists e. split; auto. f_equal. now apply IH.
Qed.

(** Something that cannot be read makes the whole configuration fail. *)
Theorem C118_trouble : forall es, read_from_dir (NDir (Some es)) = None <-> exists e, In e es /\ trouble (fst e) (snd e).
Proof.
  intros es. change (read_from_dir (NDir (Some es))) with (walk [] (NDir (Some es))). rewrite walk_trouble. split.
  - intros H. inversion H; subst. eauto.
  - intros [e [H1 H2]]. econstructor; eauto.
Qed.
Print Assumptions C118_trouble.

Definition data_of (files : list (list str * str)) : str := concat (map (fun f => "010"%char :: snd f) files).

Lemma sorted_app {A} (R : A -> A -> Prop) a b : StronglySorted R a -> StronglySorted R b -> (forall x y, In x a -> In y b -> R x y) -> StronglySorted R (a ++ b).
Proof.
  induction 1 as [|x a H IH Hx]; intros Hb Hab; cbn [app]; auto. constructor.
  - apply IH; auto. intros u v Hu Hv. apply Hab; auto. now right.
  - apply Forall_app. split; auto. rewrite Forall_forall. intros v Hv. apply Hab; auto. now left.
Qed.

Lemma entries_data (W : str -> node -> option str) es : NoDup (map fst es) ->
  (forall e d, In e es -> W (fst e) (snd e) = Some d -> exists files, StronglySorted path_before (map fst files) /\
     (forall p c, In (p, c) files <-> yaml_file (fst e) (snd e) p c) /\ d = data_of files) ->
  forall d, all_of (in_order (map (fun e => (fst e, W (fst e) (snd e))) es)) = Some d ->
  exists files, StronglySorted path_before (map fst files) /\ (forall p c, In (p, c) files <-> in_directory es p c) /\ d = data_of files.
Proof.
  intros Hn Hw d Hd.
  set (l := in_order (map (fun e => (fst e, W (fst e) (snd e))) es)) in *.
  assert (StronglySorted entry_lt l) as Hs by (apply in_order_sorted; rewrite map_map; cbn; exact Hn).
  assert (forall x o, In (x, o) l <-> exists e, In e es /\ x = fst e /\ o = W (fst e) (snd e)) as Hl.
  { intros x o. unfold l. split.
    - intros H. apply (Permutation_in _ (in_order_perm _)) in H. apply in_map_iff in H as [e [H He]]. injection H as <- <-. eauto.
    - intros [e [He [-> ->]]]. apply (Permutation_in _ (Permutation_sym (in_order_perm _))). apply in_map_iff. eauto. }
  assert (forall e e', In e es -> In e' es -> fst e = fst e' -> e = e') as Huniq.
  { clear -Hn. induction es as [|a es IH]; intros e e' He He' E; [destruct He|]. inversion Hn as [|? ? H1 H2]; subst.
    destruct He as [<-|He], He' as [<-|He']; auto; exfalso; apply H1; [rewrite E|rewrite <- E]; now apply in_map. }
  clearbody l.
  assert (exists files, StronglySorted path_before (map fst files) /\
    (forall p c, In (p, c) files <-> exists e o, In (fst e, o) l /\ In e es /\ yaml_file (fst e) (snd e) p c) /\ d = data_of files) as [files [F1 [F2 F3]]].
  { assert (forall x o, In (x, o) l -> exists e, In e es /\ x = fst e /\ o = W (fst e) (snd e)) as Hl' by (intros; now apply Hl). clear Hl.
    revert d Hd. induction Hs as [|[x o] l Hs IH Hx]; intros d Hd; cbn [all_of] in Hd.
    - injection Hd as <-. exists []. split; [constructor|]. split; [|reflexivity]. intros p c. split; [intros []|intros [e [o [[] _]]]].
    - destruct o as [d1|]; [|discriminate]. destruct (all_of l) as [d2|]; [|discriminate]. injection Hd as <-.
      destruct (Hl' x (Some d1) (or_introl eq_refl)) as [e [He [-> Ho]]].
      destruct (Hw e d1 He (eq_sym Ho)) as [fs [G1 [G2 ->]]].
      destruct (IH ltac:(intros; apply Hl'; now right) d2 eq_refl) as [fs' [G3 [G4 ->]]].
      exists (fs ++ fs'). split; [|split].
      + rewrite map_app. apply sorted_app; auto. intros p q Hp Hq. apply in_map_iff in Hp as [[p' c] [<- Hp]]. apply in_map_iff in Hq as [[q' c'] [<- Hq]]. cbn.
        apply G2 in Hp. apply G4 in Hq as [e' [o [Hin [He' Hq]]]]. apply yaml_file_head in Hp as [r ->]. apply yaml_file_head in Hq as [s ->].
        rewrite Forall_forall in Hx. specialize (Hx _ Hin). exists [], (fst e), (fst e'), r, s. split; auto. split; auto. now apply name_before_iff.
      + intros p c. rewrite in_app_iff, G2, G4. split.
        * intros [H|[e' [o [H1 [H2 H3]]]]]; [exists e, (Some (data_of fs)); split; [now left|auto]|exists e', o; split; [now right|auto]].
        * intros [e' [o [[H1|H1] [H2 H3]]]]; [|right; eauto]. left. injection H1 as H1 _. now rewrite <- (Huniq e e' He H2 H1) in H3.
      + unfold data_of. now rewrite map_app, concat_app. }
  exists files. split; auto. split; auto. intros p c. rewrite F2. unfold in_directory. split.
  - intros [e [o [_ [H1 H2]]]]. eauto.
  - intros [e [H1 H2]]. exists e, (W (fst e) (snd e)). split; [apply Hl; eauto|auto].
Qed.

Lemma walk_data n : proper n -> forall nm d, walk nm n = Some d -> exists files, StronglySorted path_before (map fst files) /\
  (forall p c, In (p, c) files <-> yaml_file nm n p c) /\ d = data_of files.
Proof.
  induction n as [c|t| | |es IH] using node_ind'; intros Hp nm d Hd; cbn [walk] in Hd.
  - destruct (is_yaml nm) eqn:E.
    + destruct c as [c|]; [|discriminate]. injection Hd as <-. exists [([nm], c)]. split; [repeat constructor|]. split; [|unfold data_of, appended; cbn; now rewrite app_nil_r].
      intros p c'. split; [intros [[= <- <-]|[]]; constructor; now apply is_yaml_iff|intros H; inversion H; subst; now left].
    + injection Hd as <-. exists []. split; [constructor|]. split; [|reflexivity]. intros p c'. split; [intros []|].
      intros H. inversion H as [? ? Hy| |]; subst. apply is_yaml_iff in Hy. congruence.
  - destruct (is_yaml nm) eqn:E.
    + destruct t as [[c|]|es| |]; try discriminate.
      * injection Hd as <-. exists [([nm], c)]. split; [repeat constructor|]. split; [|unfold data_of, appended; cbn; now rewrite app_nil_r].
        intros p c'. split; [intros [[= <- <-]|[]]; constructor; now apply is_yaml_iff|intros H; inversion H; subst; now left].
      * injection Hd as <-. exists []. split; [constructor|]. split; [|reflexivity]. intros p c'. split; [intros []|intros H; inversion H].
      * injection Hd as <-. exists []. split; [constructor|]. split; [|reflexivity]. intros p c'. split; [intros []|intros H; inversion H].
    + injection Hd as <-. exists []. split; [constructor|]. split; [|reflexivity]. intros p c'. split; [intros []|].
      intros H. inversion H as [|? ? Hy|]; subst. apply is_yaml_iff in Hy. congruence.
  - injection Hd as <-. exists []. split; [constructor|]. split; [|reflexivity]. intros p c'. split; [intros []|intros H; inversion H].
  - discriminate.
  - inversion Hp as [| | |? Hn Hc|]; subst.
    destruct (entries_data walk es Hn) with (d := d) as [files [F1 [F2 F3]]].
    + intros e d' He Hd'. apply (IH e He (Hc e He) (fst e) d' Hd').
    + exact Hd.
    + exists (map (fun f => (nm :: fst f, snd f)) files). split; [|split].
      * rewrite map_map. cbn [fst]. rewrite <- (map_map fst (cons nm)). clear -F1. induction F1 as [|x l H IH Hx]; cbn [map]; [constructor|]. constructor; auto.
        rewrite Forall_forall in *. intros y Hy. apply in_map_iff in Hy as [z [<- Hz]]. destruct (Hx z Hz) as [c [a [b [r [s [-> [-> Hab]]]]]]].
        exists (nm :: c), a, b, r, s. auto.
      * intros p c. rewrite in_map_iff. split.
        -- intros [[p' c'] [[= <- <-] H]]. apply F2 in H as [e [H1 H2]]. now apply yf_below with e.
        -- intros H. inversion H as [| |? ? e path ? He Hy]; subst. exists (path, c). split; auto. apply F2. exists e. auto.
      * rewrite F3. unfold data_of. rewrite map_map. reflexivity.
Qed.

(** The configured path is a directory where everything can be read: the text that is decoded consists of the contents of
    all YAML files in it, each exactly once, in the order of their paths. *)
Theorem C118_directory : forall es mandatory, proper (NDir (Some es)) -> (forall e, In e es -> ~ trouble (fst e) (snd e)) ->
  exists files, StronglySorted path_before (map fst files) /\
    (forall path c, In (path, c) files <-> in_directory es path c) /\
    config_text (Found (NDir (Some es))) mandatory = Text (concat (map (fun f => "010"%char :: snd f) files)).
Proof.
  intros es mandatory Hp Ht. cbn [config_text]. destruct (read_from_dir (NDir (Some es))) as [d|] eqn:E.
  - inversion Hp as [| | |? Hn Hc|]; subst. destruct (entries_data walk es Hn) with (d := d) as [files [F1 [F2 ->]]]; [|exact E|exists files; auto].
    intros e d' He Hd'. exact (walk_data (snd e) (Hc e He) (fst e) d' Hd').
  - apply C118_trouble in E as [e [H1 H2]]. now apply Ht in H2.
Qed.
Print Assumptions C118_directory.

(** A path is before another in at most one way, so a file is listed once. *)
Lemma path_before_irrefl p : ~ path_before p p.
Proof.
  intros [c [a [b [r [s [H1 [H2 H]]]]]]]. rewrite H1 in H2. apply app_inv_head in H2. injection H2 as <- _.
  apply name_before_iff in H. rewrite str_ltb_irrefl in H. discriminate.
Qed.

(** The configured path is a link to a directory: nothing in it is read, and no error is reported, even if a
    configuration is mandatory. *)
Theorem C118_link_refuted : exists es, In $"config.yml" es /\ config_text (Found (NLink (TDir (Some es)))) true = Text [].
Proof. exists [$"config.yml"]. split; [now left|reflexivity]. Qed.
Print Assumptions C118_link_refuted.

(** A mounted Kubernetes ConfigMap: the file is in a dated directory, and there is a link to it.  Its content is decoded
    twice. *)
Theorem C118_twice_refuted : exists es c, proper (NDir (Some es)) /\
  config_text (Found (NDir (Some es))) true = Text (["010"%char] ++ c ++ ["010"%char] ++ c) /\ c <> [].
Proof.
  exists [($"..2024_01_01", NDir (Some [($"config.yml", NFile (Some $"blocking: x"))])); ($"..data", NLink (TDir (Some [$"config.yml"])));
          ($"config.yml", NLink (TFile (Some $"blocking: x")))], $"blocking: x".
  split; [|split; [reflexivity|discriminate]]. constructor; [cbn; repeat constructor; cbn; intuition discriminate|].
  intros e [<-|[<-|[<-|[]]]]; cbn [snd]; try constructor; [cbn; repeat constructor; cbn; intuition|]. intros e [<-|[]]. constructor.
Qed.
Print Assumptions C118_twice_refuted.

Example C118_example :
  let es := [($"z.yml", NFile (Some $"c: 3")); ($"sub", NDir (Some [($"x.yaml", NFile (Some $"b: 2"))])); ($"notes.txt", NFile None); ($"a.yml", NFile (Some $"a: 1"))] in
  proper (NDir (Some es)) /\ (forall e, In e es -> ~ trouble (fst e) (snd e)) /\
  config_text (Found (NDir (Some es))) true = Text ("010"%char :: $"a: 1" ++ "010"%char :: $"b: 2" ++ "010"%char :: $"c: 3").
Proof.
  cbv zeta. split; [|split; [|reflexivity]].
  - constructor; [cbn; repeat constructor; cbn; intuition discriminate|].
    intros e [<-|[<-|[<-|[<-|[]]]]]; cbn [snd]; constructor; [cbn; repeat constructor; cbn; intuition|]. intros e [<-|[]]. constructor.
  - intros e He Ht. apply walk_trouble in Ht. destruct He as [<-|[<-|[<-|[<-|[]]]]]; discriminate.
Qed.

(** ** C119 *)
Section Load.
Context {cfg : Type}.
Variable defaults : cfg.
Variable yaml : list str -> option cfg.
Variable privacy : cfg -> bool.

(** Only a missing file which is not mandatory gives the default values; whatever cannot be read is an error, and an
    error leaves the privacy of logs as it was; a success sets it as configured. *)
Theorem C119_outcome : forall p mandatory lp,
  (forall c lp', load_config defaults yaml privacy p mandatory lp = (Some c, lp') -> lp' = privacy c) /\
  (forall lp', load_config defaults yaml privacy p mandatory lp = (None, lp') -> lp' = lp) /\
  (p = Missing -> load_config defaults yaml privacy p mandatory lp = if mandatory then (None, lp) else (Some defaults, privacy defaults)) /\
  (p = StatError \/ p = Found (NFile None) \/ (exists es, p = Found (NDir (Some es)) /\ exists e, In e es /\ trouble (fst e) (snd e)) \/ p = Found (NDir None) ->
     load_config defaults yaml privacy p mandatory lp = (None, lp)).
Proof.
  intros p mandatory lp. unfold load_config. split; [|split; [|split]].
  - intros c lp'. destruct (config_text p mandatory) as [| |t]; [now intros [= <- <-]|discriminate|].
    destruct (yaml _) as [c'|]; [now intros [= <- <-]|discriminate].
  - intros lp'. destruct (config_text p mandatory) as [| |t]; [discriminate|now intros [= <-]|].
    destruct (yaml _) as [c'|]; [discriminate|now intros [= <-]].
  - intros ->. cbn [config_text]. now destruct mandatory.
  - intros [->|[->|[[es [-> H]]| ->]]]; cbn [config_text]; auto. apply C118_trouble in H. now rewrite H.
Qed.

Lemma marker_prefix mark l : marker mark l = true -> exists r, l = mark ++ r.
Proof. unfold marker. intros H. apply andb_true_iff in H as [H _]. now apply has_prefix_spec. Qed.

Lemma is_space_blank c : is_space c = true <-> blank c.
Proof.
  unfold blank. destruct c as [[|] [|] [|] [|] [|] [|] [|] [|]]; vm_compute; split; intros H; try discriminate H; auto 10;
    repeat (destruct H as [H|H]; [discriminate H|]); discriminate H.
Qed.
Lemma marker_iff mark l : marker mark l = true <-> marks mark l.
Proof.
  unfold marker, marks. rewrite andb_true_iff. split.
  - intros [H1 H2]. apply has_prefix_spec in H1 as [r ->]. rewrite skipn_app, skipn_all, Nat.sub_diag in H2. cbn [skipn app] in H2.
    destruct r as [|c r]; [left; apply app_nil_r|]. right. exists c, r. split; [reflexivity|]. now apply is_space_blank.
  - intros [->|[c [r [-> H]]]].
    + split; [apply has_prefix_spec; exists []; now rewrite app_nil_r|]. now rewrite skipn_all.
    + split; [apply has_prefix_spec; now exists (c :: r)|]. rewrite skipn_app, skipn_all, Nat.sub_diag. cbn [skipn app]. now apply is_space_blank.
Qed.
Lemma not_marker l : ~ any_mark l -> marker ($"---") l = false /\ marker ($"...") l = false.
Proof.
  intros H. split; (destruct (marker _ l) eqn:E; [exfalso; apply H; apply marker_iff in E; unfold any_mark; tauto|reflexivity]).
Qed.

Lemma left_split l : exists w, l = w ++ trim_space_left l /\ Forall blank w /\ (trim_space_left l = [] \/ exists x r, trim_space_left l = x :: r /\ is_space x = false).
Proof.
  induction l as [|x l [w [E [Hw H]]]]; cbn [trim_space_left]; [exists []; repeat split; auto|].
  destruct (is_space x) eqn:Ex; [|exists []; repeat split; eauto]. exists (x :: w). cbn [app]. rewrite <- E. repeat split; auto. constructor; auto. now apply is_space_blank.
Qed.
Lemma left_keeps a x : is_space x = false -> exists y, trim_space_left (a ++ [x]) = y ++ [x].
Proof.
  intros Hx. induction a as [|c a [y E]]; cbn [app trim_space_left]; [rewrite Hx; now exists []|]. destruct (is_space c); [eauto|]. now exists (c :: a).
Qed.
Lemma no_content_iff l : no_content l = true <-> idle l.
Proof.
  unfold no_content, idle, trim_space. destruct (left_split l) as [w [E [Hw [H|[x [r [H Hx]]]]]]]; rewrite H in E |- *.
  - cbn. split; [|reflexivity]. intros _. exists w, []. auto.
  - cbn [rev]. destruct (left_keeps (rev r) x Hx) as [y ->]. rewrite rev_app_distr. cbn [rev app]. rewrite orb_true_iff, Ascii.eqb_eq. split.
    + intros [->|K]; [exists w, ("#"%char :: r); split; [exact E|split; [exact Hw|right; left; now exists r]]|]. destruct l as [|c l]; [discriminate|]. apply Ascii.eqb_eq in K. subst c.
      exists [], ("%"%char :: l). split; [reflexivity|split; [constructor|right; right; split; [reflexivity|now exists l]]].
    + intros [w' [r' [E' [Hw' [->|[[z ->]|[-> [z ->]]]]]]]].
      * rewrite app_nil_r in E'. exfalso. rewrite <- E', E in Hw'. apply Forall_app in Hw' as [_ K]. inversion K as [|? ? K1]; subst. apply is_space_blank in K1. congruence.
      * left. rewrite E in E'. clear -E' Hw Hw' Hx. revert w' Hw' E'. induction Hw as [|c w Hc Hw IH]; intros w' Hw' E'; destruct Hw' as [|c' w' Hc' Hw']; cbn [app] in E'.
        -- congruence.
        -- injection E' as -> _. apply is_space_blank in Hc'. congruence.
        -- injection E' as -> _. apply is_space_blank in Hc. discriminate Hc.
        -- injection E' as _ E'. eauto.
      * right. now rewrite E'.
Qed.

Lemma first_document_all ls : (forall l, In l ls -> marker ($"---") l = false /\ marker ($"...") l = false) -> forall b, first_document b ls = ls.
Proof.
  induction ls as [|l ls IH]; intros H b; cbn [first_document]; auto. destruct (H l (or_introl eq_refl)) as [-> ->]. f_equal. apply IH. intros x Hx. apply H. now right.
Qed.

Lemma split_line_at c t : forall l, In l (split_byte c t) -> exists a b, t = a ++ l ++ b /\ (a = [] \/ exists a', a = a' ++ [c]).
Proof.
  intros l. pose proof (join_split c t) as J. revert J. generalize (split_byte c t). intros ps J. subst t. revert l.
  induction ps as [|p ps IH]; intros l H; [destruct H|].
  destruct ps as [|p' ps].
  - destruct H as [<-|[]]. exists [], []. cbn. rewrite app_nil_r. auto.
  - change (join [c] (p :: p' :: ps)) with (p ++ [c] ++ join [c] (p' :: ps)). destruct H as [<-|H].
    + exists [], ([c] ++ join [c] (p' :: ps)). auto.
    + destruct (IH l H) as [a [b [E Ha]]]. exists (p ++ [c] ++ a), b. rewrite E. split; [now rewrite <- !app_assoc|].
      right. destruct Ha as [->|[a' ->]]; [exists p; now rewrite app_nil_r|]. exists (p ++ [c] ++ a'). now rewrite <- !app_assoc.
Qed.

(** A text without marks of documents is decoded as a whole. *)
Theorem C119_whole_partial : forall p mandatory lp t, config_text p mandatory = Text t -> one_document t ->
  fst (load_config defaults yaml privacy p mandatory lp) = yaml (split_byte "010"%char t).
Proof.
  intros p mandatory lp t Ht Ho. unfold load_config. rewrite Ht. rewrite first_document_all.
  - now destruct (yaml _).
  - intros l Hl. destruct (split_line_at _ _ _ Hl) as [a [b [E Ha]]]. destruct (Ho a l b E Ha) as [H1 H2].
    split; [destruct (marker ($"---") l) eqn:M|destruct (marker ($"...") l) eqn:M]; auto; apply marker_prefix in M; contradiction.
Qed.
Lemma first_document_idle pre ls : Forall (fun l => idle l /\ ~ any_mark l) pre -> first_document false (pre ++ ls) = pre ++ first_document false ls.
Proof.
  induction 1 as [|l pre [H1 H2] _ IH]; cbn [app first_document]; [reflexivity|]. destruct (not_marker l H2) as [-> ->].
  apply no_content_iff in H1 as ->. cbn [negb orb]. now rewrite IH.
Qed.
Lemma first_document_body ls b : up_to_mark ls b -> first_document true ls = b.
Proof.
  intros [Hb H]. assert (forall r, first_document true (b ++ r) = b ++ first_document true r) as K.
  { intros r. clear H. induction Hb as [|l b Hl _ IH]; cbn [app first_document]; [reflexivity|]. destruct (not_marker l Hl) as [-> ->]. cbn [orb]. now rewrite IH. }
  destruct H as [->|[m [rest [-> Hm]]]].
  - rewrite <- (app_nil_r b) at 1. rewrite K. apply app_nil_r.
  - rewrite K. cbn [first_document]. destruct Hm as [Hm|Hm]; apply marker_iff in Hm; rewrite Hm; [apply app_nil_r|]. destruct (marker ($"---") m); apply app_nil_r.
Qed.
Lemma split_lines t ls : text_lines t ls -> split_byte "010"%char t = ls.
Proof.
  intros [_ [H [first [more [-> ->]]]]]. inversion H as [|? ? H1 H2]; subst. clear H. revert first H1. induction H2 as [|l more Hl _ IH]; intros first H1; cbn [map concat].
  - rewrite app_nil_r. now apply split_byte_no.
  - cbn [app]. rewrite split_byte_app, split_byte_no by exact H1. cbn [app]. now rewrite IH.
Qed.

(** Of a text with several documents the first one is decoded. *)
Theorem C119_first_document : forall p mandatory lp t ls d, config_text p mandatory = Text t -> text_lines t ls -> first_doc ls d ->
  fst (load_config defaults yaml privacy p mandatory lp) = yaml d.
Proof.
  intros p mandatory lp t ls d Ht Hl (pre & rest & b & Hp & Hb & H). unfold load_config. rewrite Ht, (split_lines t ls Hl).
  assert (first_document false ls = d) as ->; [|now destruct (yaml d)].
  destruct H as [(r & -> & Hm & ->)|(l & -> & Hi & Hn & ->)]; rewrite (first_document_idle _ _ Hp); f_equal; cbn [first_document].
  - apply marker_iff in Hm. rewrite Hm. change (skipn 3 ($"---" ++ r)) with r. f_equal. now apply first_document_body.
  - destruct (not_marker l Hn) as [-> ->]. destruct (no_content l) eqn:E; [apply no_content_iff in E; contradiction|]. cbn [negb orb]. f_equal. now apply first_document_body.
Qed.
End Load.
Print Assumptions C119_first_document.
Print Assumptions C119_outcome.
Print Assumptions C119_whole_partial.

(** Two files that begin with the usual mark of a document: whatever the second says is ignored without an error. *)
Theorem C119_documents_refuted : forall (cfg : Type) (defaults : cfg) yaml privacy lp second,
  load_config defaults yaml privacy (Found (NDir (Some [($"a.yml", NFile (Some ($"---" ++ "010"%char :: $"upstreams: x"))); ($"b.yml", NFile (Some ($"---" ++ "010"%char :: second)))]))) true lp =
  load_config defaults yaml privacy (Found (NDir (Some [($"a.yml", NFile (Some ($"---" ++ "010"%char :: $"upstreams: x")))]))) true lp.
Proof. intros. reflexivity. Qed.
Print Assumptions C119_documents_refuted.

Example C119_example :
  one_document ("010"%char :: $"a: 1") /\
  load_config [] (fun ls => Some ls) (fun _ => true) (Found (NDir (Some [($"a.yml", NFile (Some $"a: 1"))]))) true false = (Some [[]; $"a: 1"], true) /\
  load_config [] (fun ls => Some ls) (fun _ => true) Missing false false = (Some [], true) /\
  load_config [] (fun ls => Some ls) (fun _ => true) Missing true false = (None, false) /\
  first_document false [$"# c"; $"---"; $"a: 1"; $"..."; $"b: 2"] = [$"# c"; []; $"a: 1"].
Proof.
  split; [|repeat split].
  intros a l b E _. split; intros [r ->]; assert (In "-"%char ("010"%char :: $"a: 1") \/ In "."%char ("010"%char :: $"a: 1")) as H
    by (rewrite E, !in_app_iff; cbn; auto 8); cbn in H; intuition discriminate.
Qed.

Example C119_first_case : exists t ls d, config_text (Found (NFile (Some t))) true = Text t /\ text_lines t ls /\ first_doc ls d /\
  ls = [$"# c"; $"--- # main"; $"a: 1"; $"---b"; $"---"; $"c: 3"] /\ d = [$"# c"; $" # main"; $"a: 1"; $"---b"].
Proof.
  set (ls := [$"# c"; $"--- # main"; $"a: 1"; $"---b"; $"---"; $"c: 3"]).
  exists (join ["010"%char] ls), ls. eexists. split; [reflexivity|]. split; [|split; [|split; reflexivity]].
  - split; [discriminate|]. split; [|eexists _, _; split; reflexivity].
    unfold ls. repeat constructor; intros H; vm_compute in H; repeat (destruct H as [H|H]; [discriminate H|]); exact H.
  - exists [$"# c"], [$"a: 1"; $"---b"; $"---"; $"c: 3"], [$"a: 1"; $"---b"]. split; [|split].
    + constructor; [|constructor]. split; [exists [], $"# c"; split; [reflexivity|split; [constructor|right; left; now exists $" c"]]|].
      intros [H|H]; apply marker_iff in H; discriminate H.
    + split.
      * constructor; [|constructor; [|constructor]]; intros [H|H]; apply marker_iff in H; discriminate H.
      * right. exists $"---", [$"c: 3"]. split; [reflexivity|]. left. now left.
    + left. exists $" # main". repeat split. right. exists " "%char, $"# main". split; [reflexivity|]. now left.
Qed.
