(** Theorems about the synchronisation over Redis. *)
From Coq Require Import String Ascii List Arith Bool NArith ZArith Lia ZifyBool ZifyNat ZifyN.
From Verif Require Import Str StrFacts Dns Caching Redis RedisSpec.
Import ListNotations.
Open Scope list_scope.

Ltac Zify.zify_post_hook ::= Z.div_mod_to_equations.

(** ** Text in JSON *)
Lemma N_ascii_byte n : (n < 256)%N -> N_of_ascii (ascii_of_N n) = n.
Proof. intros H. apply N_ascii_embedding, H. Qed.

Lemma rune_length_point c rest : scalar c ->
  rune_length (map ascii_of_N (encode_point c) ++ rest) = Some (length (encode_point c)).
Proof.
  intros H. unfold scalar in H. unfold encode_point.
  destruct (c <? 128)%N eqn:E1; [|destruct (c <? 2048)%N eqn:E2; [|destruct (c <? 65536)%N eqn:E3]];
    cbn [map app length]; unfold rune_length, in_range; rewrite !N_ascii_byte by lia.
  - replace ((0 <=? c)%N && (c <=? 127)%N) with true by lia. reflexivity.
  - match goal with |- (if ?b then _ else _) = _ => replace b with false by lia end.
    match goal with |- (if ?b then _ else _) = _ => replace b with true by lia end. reflexivity.
  - match goal with |- (if ?b then _ else _) = _ => replace b with false by lia end.
    match goal with |- (if ?b then _ else _) = _ => replace b with false by lia end.
    match goal with |- (if ?b then _ else _) = _ => replace b with true by lia end. reflexivity.
  - match goal with |- (if ?b then _ else _) = _ => replace b with false by lia end.
    match goal with |- (if ?b then _ else _) = _ => replace b with false by lia end.
    match goal with |- (if ?b then _ else _) = _ => replace b with false by lia end.
    match goal with |- (if ?b then _ else _) = _ => replace b with true by lia end. reflexivity.
Qed.

Lemma json_text_skip : forall a b, json_text_from (length a) (a ++ b) = a ++ json_text_from 0 b.
Proof. induction a as [|x a IH]; intros b; cbn [app length json_text_from]; [reflexivity|]. now rewrite IH. Qed.

Lemma json_text_valid s : valid_utf8 s -> json_text s = s.
Proof.
  intros [ps [H ->]]. unfold json_text. induction H as [|c ps Hc _ IH]; [reflexivity|].
  cbn [flat_map]. pose proof (rune_length_point c (flat_map (fun c => map ascii_of_N (encode_point c)) ps) Hc) as E.
  pose proof (map_length ascii_of_N (encode_point c)) as L.
  destruct (map ascii_of_N (encode_point c)) as [|x a] eqn:Em.
  - cbn in L. rewrite <- L in E. cbn in IH |- *. exact IH.
  - cbn [app] in E |- *. cbn [json_text_from]. rewrite E. rewrite <- L. cbn [length].
    replace (S (length a) - 1) with (length a) by lia. now rewrite json_text_skip, IH.
Qed.

(** ASCII text is valid. *)
Lemma ascii_valid s : Forall (fun c => (N_of_ascii c < 128)%N) s -> valid_utf8 s.
Proof.
  intros H. exists (map N_of_ascii s). split.
  - apply Forall_map. eapply Forall_impl; [|exact H]. cbn. unfold scalar. lia.
  - induction H as [|c s Hc _ IH]; [reflexivity|]. cbn [map flat_map]. rewrite <- IH.
    unfold encode_point. replace (N_of_ascii c <? 128)%N with true by lia. cbn. now rewrite ascii_N_embedding.
Qed.

(** ** Order *)
Lemma in_order_snoc_take {A B} lossy (R : A -> B -> Prop) log l x b :
  in_order lossy R log l -> R x b -> in_order lossy R (log ++ [x]) (l ++ [b]).
Proof.
  intros H Hx. induction H; cbn [app].
  - apply io_take; [exact Hx|constructor].
  - now apply io_take.
  - now apply io_skip.
Qed.

Lemma in_order_snoc_skip {A B} (lossy : Prop) (R : A -> B -> Prop) log l x :
  in_order lossy R log l -> lossy \/ (forall b, ~ R x b) -> in_order lossy R (log ++ [x]) l.
Proof.
  intros H Hx. induction H; cbn [app].
  - apply io_skip; [exact Hx|constructor].
  - now apply io_take.
  - now apply io_skip.
Qed.

Lemma in_order_weaken {A B} (P Q : Prop) (R : A -> B -> Prop) log l :
  (P -> Q) -> in_order P R log l -> in_order Q R log l.
Proof. intros I H. induction H; [constructor|now apply io_take|apply io_skip; tauto]. Qed.

(** ** The channel *)
Section Run.
Variable pack : msg -> option str.
Variable unpack : str -> option msg.
Variable encode_enabled : enabled_message -> str.
Variable decode_enabled : str -> option enabled_message.
Variable ids : nat -> str.
Hypothesis ids_inj : forall i j, ids i = ids j -> i = j.
Hypothesis pack_unpack : forall m b, pack m = Some b -> unpack b = Some m.

Let stepf := sys_step pack unpack encode_enabled decode_enabled ids.
Let runf := sys_run pack unpack encode_enabled decode_enabled ids.

(** An operation handing over texts that JSON can carry. *)
Definition clean_op (o : sys_op) : Prop :=
  match o with
  | OPublishCache _ k _ => valid_utf8 k
  | OPublishEnabled _ e => decode_enabled (encode_enabled e) = Some e
  | _ => True
  end.

(** The payload that carries a statement. *)
Definition carries (x : said) (p : option wire) : Prop :=
  match x with
  | SaidCache i k m => exists b, pack m = Some b /\ p = Some {| w_key := k; w_type := 0; w_message := b; w_client := ids i |}
  | SaidEnabled i e => decode_enabled (encode_enabled e) = Some e /\
      p = Some {| w_key := []; w_type := 1; w_message := encode_enabled e; w_client := ids i |}
  | SaidForeign w => p = w
  end.

Definition packs (x : str * msg) : bool := match pack (snd x) with Some _ => true | None => false end.

Record good (ops : list sys_op) (s : sys) (outs : list sys_out) (log : list said) : Prop := {
  g_cache : forall p, said_cache_by p log ++ filter packs (n_send (s_nodes s p)) = asked pack p ops;
  g_keys : forall p x, In x (n_send (s_nodes s p)) -> valid_utf8 (fst x);
  g_enabled : forall p, said_enabled_by p log = asked_enabled p ops;
  g_foreign : said_foreign log = foreign_of ops;
  g_nodes : forall i, exists past rest, log = past ++ rest /\
      Forall2 carries rest (n_inbox (s_nodes s i)) /\
      in_order (In (OLose i) ops) (tells_cache unpack ids i) past (saw_cache i outs ++ n_cache (s_nodes s i)) /\
      in_order (In (OLose i) ops) (tells_enabled decode_enabled ids i) past (saw_enabled i outs ++ n_enabled (s_nodes s i)) }.

Lemma str_eqb_ids i j : str_eqb (ids i) (ids j) = Nat.eqb i j.
Proof.
  destruct (Nat.eqb_spec i j) as [->|H]; [apply str_eqb_refl|].
  apply str_eqb_neq. intros E. apply H, ids_inj, E.
Qed.

Lemma process_said i x p : carries x p ->
  match process unpack decode_enabled (ids i) p with
  | RCache c => tells_cache unpack ids i x c /\ forall e, ~ tells_enabled decode_enabled ids i x e
  | REnabled e => tells_enabled decode_enabled ids i x e /\ forall c, ~ tells_cache unpack ids i x c
  | RNothing => (forall c, ~ tells_cache unpack ids i x c) /\ forall e, ~ tells_enabled decode_enabled ids i x e
  end.
Proof.
  destruct x as [q k m|q e|w]; cbn [carries].
  - intros [b [Hb ->]]. unfold process. cbn [w_client w_type w_key w_message]. rewrite str_eqb_ids.
    destruct (Nat.eqb_spec q i) as [->|Hq].
    + split; [intros c [k' [m' [[H _] _]]]; congruence|intros e H; exact H].
    + cbn [Z.eqb]. unfold convert_message. rewrite (pack_unpack m b Hb). cbn [Z.ltb Z.compare]. split; [|intros e H; exact H].
      exists k, m. auto.
  - intros [He ->]. unfold process. cbn [w_client w_type w_key w_message]. rewrite str_eqb_ids.
    destruct (Nat.eqb_spec q i) as [->|Hq].
    + split; [intros c [k' [m' [H _]]]; exact H|intros e' [H _]; congruence].
    + cbn [Z.eqb]. rewrite He. split; [cbn; auto|]. intros c [k' [m' [H _]]]; exact H.
  - intros ->. unfold process. destruct w as [w|].
    2:{ split; [intros c [k [m [H _]]]; exact H|intros e H; exact H]. }
    destruct (str_eqb (w_client w) (ids i)) eqn:Ec.
    { apply str_eqb_eq in Ec. split; [intros c [k [m [[H _] _]]]; congruence|intros e [H _]; congruence]. }
    apply str_eqb_neq in Ec. destruct (w_type w =? 0)%Z eqn:E0.
    { apply Z.eqb_eq in E0. unfold convert_message. destruct (unpack (w_message w)) as [m|] eqn:Eu.
      - cbn [Z.ltb Z.compare]. split; [|intros e [_ [H _]]; congruence].
        exists (w_key w), m. split; [repeat split; auto|reflexivity].
      - split; [intros c [k [m [[_ [_ [_ H]]] _]]]; congruence|intros e [_ [H _]]; congruence]. }
    apply Z.eqb_neq in E0. destruct (w_type w =? 1)%Z eqn:E1.
    { apply Z.eqb_eq in E1. destruct (decode_enabled (w_message w)) as [e|] eqn:Ed.
      - split; [repeat split; auto|]. intros c [k [m [[_ [H _]] _]]]. congruence.
      - split; [intros c [k [m [[_ [H _]] _]]]; congruence|intros e [_ [_ H]]; congruence]. }
    apply Z.eqb_neq in E1. split; [intros c [k [m [[_ [H _]] _]]]; congruence|intros e [_ [H _]]; congruence].
Qed.

Lemma lose_app i ops o : In (OLose i) ops -> In (OLose i) (ops ++ [o]).
Proof. intros H. apply in_or_app. now left. Qed.

(** The instances not touched by a step keep their part of the invariant. *)
Lemma keep_node ops o s s' outs outs' log i :
  good ops s outs log -> s_nodes s' i = s_nodes s i -> saw_cache i outs' = saw_cache i outs ->
  saw_enabled i outs' = saw_enabled i outs ->
  exists past rest, log = past ++ rest /\
      Forall2 carries rest (n_inbox (s_nodes s' i)) /\
      in_order (In (OLose i) (ops ++ [o])) (tells_cache unpack ids i) past (saw_cache i outs' ++ n_cache (s_nodes s' i)) /\
      in_order (In (OLose i) (ops ++ [o])) (tells_enabled decode_enabled ids i) past (saw_enabled i outs' ++ n_enabled (s_nodes s' i)).
Proof.
  intros G En Ec Ee. destruct (g_nodes _ _ _ _ G i) as [past [rest [E [F [O1 O2]]]]].
  exists past, rest. rewrite En, Ec, Ee. split; [exact E|]. split; [exact F|].
  split; [eapply in_order_weaken; [apply lose_app|exact O1]|eapply in_order_weaken; [apply lose_app|exact O2]].
Qed.

(** Publishing extends every subscription. *)
Lemma publish_node ops o s s' outs log i x p :
  good ops s outs log -> carries x p ->
  n_inbox (s_nodes s' i) = n_inbox (s_nodes s i) ++ [p] -> n_cache (s_nodes s' i) = n_cache (s_nodes s i) ->
  n_enabled (s_nodes s' i) = n_enabled (s_nodes s i) ->
  exists past rest, log ++ [x] = past ++ rest /\
      Forall2 carries rest (n_inbox (s_nodes s' i)) /\
      in_order (In (OLose i) (ops ++ [o])) (tells_cache unpack ids i) past (saw_cache i outs ++ n_cache (s_nodes s' i)) /\
      in_order (In (OLose i) (ops ++ [o])) (tells_enabled decode_enabled ids i) past (saw_enabled i outs ++ n_enabled (s_nodes s' i)).
Proof.
  intros G C E1 E2 E3. destruct (g_nodes _ _ _ _ G i) as [past [rest [E [F [O1 O2]]]]].
  exists past, (rest ++ [x]). rewrite E1, E2, E3. split; [rewrite E; now rewrite app_assoc|].
  split; [apply Forall2_app; [exact F|constructor; [exact C|constructor]]|].
  split; [eapply in_order_weaken; [apply lose_app|exact O1]|eapply in_order_weaken; [apply lose_app|exact O2]].
Qed.

Lemma asked_app pk p a b : asked pk p (a ++ b) = asked pk p a ++ asked pk p b.
Proof. apply flat_map_app. Qed.
Lemma asked_enabled_app p a b : asked_enabled p (a ++ b) = asked_enabled p a ++ asked_enabled p b.
Proof. apply flat_map_app. Qed.
Lemma said_cache_app p a b : said_cache_by p (a ++ b) = said_cache_by p a ++ said_cache_by p b.
Proof. apply flat_map_app. Qed.
Lemma said_enabled_app p a b : said_enabled_by p (a ++ b) = said_enabled_by p a ++ said_enabled_by p b.
Proof. apply flat_map_app. Qed.
Lemma saw_cache_app p a b : saw_cache p (a ++ b) = saw_cache p a ++ saw_cache p b.
Proof. apply flat_map_app. Qed.
Lemma said_foreign_app a b : said_foreign (a ++ b) = said_foreign a ++ said_foreign b.
Proof. apply flat_map_app. Qed.
Lemma foreign_of_app a b : foreign_of (a ++ b) = foreign_of a ++ foreign_of b.
Proof. apply flat_map_app. Qed.
Lemma saw_enabled_app p a b : saw_enabled p (a ++ b) = saw_enabled p a ++ saw_enabled p b.
Proof. apply flat_map_app. Qed.

(** A step that changes one instance only, and says nothing: what is left to show about that instance. *)
Lemma local_step ops o s outs out log i n' : good ops s outs log ->
  asked pack i [o] = [] -> asked_enabled i [o] = [] ->
  (forall j, j <> i -> asked pack j [o] = [] /\ asked_enabled j [o] = []) -> foreign_of [o] = [] ->
  filter packs (n_send n') = filter packs (n_send (s_nodes s i)) ->
  incl (n_send n') (n_send (s_nodes s i)) ->
  (forall j, j <> i -> saw_cache j out = [] /\ saw_enabled j out = []) ->
  (exists past rest, log = past ++ rest /\
      Forall2 carries rest (n_inbox n') /\
      in_order (In (OLose i) (ops ++ [o])) (tells_cache unpack ids i) past (saw_cache i (outs ++ out) ++ n_cache n') /\
      in_order (In (OLose i) (ops ++ [o])) (tells_enabled decode_enabled ids i) past (saw_enabled i (outs ++ out) ++ n_enabled n')) ->
  good (ops ++ [o]) (set_node i n' s) (outs ++ out) log.
Proof.
  intros G A1 A2 A3 Af Fs Hin So H. split.
  - intros p. rewrite asked_app. cbn [set_node s_nodes]. destruct (Nat.eqb_spec p i) as [->|Hp].
    + rewrite A1, Fs, app_nil_r. apply (g_cache _ _ _ _ G).
    + rewrite (proj1 (A3 p Hp)), app_nil_r. apply (g_cache _ _ _ _ G).
  - intros p x. cbn [set_node s_nodes]. destruct (Nat.eqb_spec p i) as [->|Hp]; intros Hx.
    + apply (g_keys _ _ _ _ G i), Hin, Hx.
    + exact (g_keys _ _ _ _ G p x Hx).
  - intros p. rewrite asked_enabled_app. destruct (Nat.eqb_spec p i) as [->|Hp].
    + rewrite A2, app_nil_r. apply (g_enabled _ _ _ _ G).
    + rewrite (proj2 (A3 p Hp)), app_nil_r. apply (g_enabled _ _ _ _ G).
  - rewrite foreign_of_app, Af, app_nil_r. apply (g_foreign _ _ _ _ G).
  - intros j. destruct (Nat.eqb_spec j i) as [->|Hj].
    + cbn [set_node s_nodes]. rewrite Nat.eqb_refl. exact H.
    + destruct (So j Hj) as [S1 S2].
      apply (keep_node ops o s _ outs (outs ++ out) log j G).
      * cbn [set_node s_nodes]. apply Nat.eqb_neq in Hj. now rewrite Hj.
      * rewrite saw_cache_app, S1. apply app_nil_r.
      * rewrite saw_enabled_app, S2. apply app_nil_r.
Qed.

Lemma step_good ops o s outs log s' out : clean_op o -> good ops s outs log -> stepf s o = Some (s', out) ->
  exists more, good (ops ++ [o]) s' (outs ++ out) (log ++ more).
Proof.
  unfold stepf. intros Hc G H. destruct o as [i key m|i e|i now|i|i|p|i|i]; cbn [sys_step] in H.
  - (* PublishCache *)
    assert (forall s1 : sys, s1 = s -> asked pack i [OPublishCache i key m] = [] ->
             good (ops ++ [OPublishCache i key m]) s1 (outs ++ []) log) as Hskip.
    { intros s1 -> Ha. split.
      - intros p. rewrite asked_app. replace (asked pack p [OPublishCache i key m]) with (@nil (str * msg)).
        + rewrite app_nil_r. apply (g_cache _ _ _ _ G).
        + destruct (Nat.eqb_spec p i) as [->|Hp]; [now rewrite Ha|].
          cbn. destruct key; [reflexivity|]. destruct m; [|reflexivity]. apply not_eq_sym, Nat.eqb_neq in Hp. now rewrite Hp.
      - exact (g_keys _ _ _ _ G).
      - intros p. rewrite asked_enabled_app. cbn. rewrite app_nil_r. apply (g_enabled _ _ _ _ G).
      - rewrite foreign_of_app, ?said_foreign_app, (g_foreign _ _ _ _ G). cbn. now rewrite ?app_nil_r.
      - intros j. apply (keep_node ops _ s s outs (outs ++ []) log j G eq_refl); now rewrite app_nil_r. }
    destruct key as [|c key]; [exists []; rewrite app_nil_r; injection H as <- <-; now apply Hskip|].
    destruct m as [m|]; [|exists []; rewrite app_nil_r; injection H as <- <-; now apply Hskip].
    destruct (length (n_send (s_nodes s i)) <? chan_cap); [|discriminate]. injection H as <- <-.
    exists []. rewrite !app_nil_r. split.
    + intros p. rewrite asked_app. cbn [set_node s_nodes]. rewrite <- (g_cache _ _ _ _ G p).
      destruct (Nat.eqb_spec p i) as [->|Hp].
      * cbn [n_send asked flat_map]. rewrite Nat.eqb_refl, filter_app. cbn [filter packs snd]. rewrite <- app_assoc. f_equal. f_equal.
        unfold packs. cbn [snd]. destruct (pack m); reflexivity.
      * cbn [asked flat_map]. apply not_eq_sym, Nat.eqb_neq in Hp. rewrite Hp. cbn. now rewrite app_nil_r.
    + intros p x. cbn [set_node s_nodes]. destruct (Nat.eqb_spec p i) as [->|Hp]; cbn [n_send]; intros Hx.
      * apply in_app_or in Hx. destruct Hx as [Hx|[<-|[]]]; [exact (g_keys _ _ _ _ G i x Hx)|exact Hc].
      * exact (g_keys _ _ _ _ G p x Hx).
    + intros p. rewrite asked_enabled_app. cbn. rewrite app_nil_r. apply (g_enabled _ _ _ _ G).
    + rewrite foreign_of_app, ?said_foreign_app, (g_foreign _ _ _ _ G). cbn. now rewrite ?app_nil_r.
    + intros j. destruct (g_nodes _ _ _ _ G j) as [past [rest [E [F [O1 O2]]]]]. exists past, rest. split; [exact E|].
      cbn [set_node s_nodes]. destruct (Nat.eqb_spec j i) as [->|Hj]; cbn [n_inbox n_cache n_enabled]; (split; [exact F|]);
        (split; [eapply in_order_weaken; [apply lose_app|exact O1]|eapply in_order_weaken; [apply lose_app|exact O2]]).
  - (* PublishEnabled *)
    injection H as <- <-. exists [SaidEnabled i e]. rewrite app_nil_r. split.
    + intros p. rewrite asked_app, said_cache_app. cbn [publish s_nodes n_send asked flat_map said_cache_by app]. rewrite !app_nil_r.
      apply (g_cache _ _ _ _ G).
    + exact (g_keys _ _ _ _ G).
    + intros p. rewrite asked_enabled_app, said_enabled_app. rewrite (g_enabled _ _ _ _ G p). reflexivity.
    + rewrite foreign_of_app, ?said_foreign_app, (g_foreign _ _ _ _ G). cbn. now rewrite ?app_nil_r.
    + intros j. eapply publish_node; [exact G| |reflexivity..]. cbn. split; [exact Hc|reflexivity].
  - (* Send *)
    destruct (n_send (s_nodes s i)) as [|[key m] rest] eqn:Es; [discriminate|].
    destruct (pack m) as [b|] eqn:Ep.
    + injection H as <- <-. exists [SaidCache i key m]. rewrite app_nil_r. split.
      * intros p. rewrite asked_app, said_cache_app. rewrite <- (g_cache _ _ _ _ G p).
        cbn [store_set publish set_node s_nodes]. destruct (Nat.eqb_spec p i) as [->|Hp]; cbn [n_send].
        -- rewrite Es. cbn [said_cache_by flat_map asked app filter packs snd]. rewrite Nat.eqb_refl. unfold packs. cbn [snd].
           rewrite Ep, !app_nil_r. now rewrite <- app_assoc.
        -- cbn [said_cache_by flat_map asked]. apply not_eq_sym, Nat.eqb_neq in Hp. rewrite Hp. cbn. now rewrite !app_nil_r.
      * intros p x. cbn [store_set publish set_node s_nodes]. destruct (Nat.eqb_spec p i) as [->|Hp]; cbn [n_send]; intros Hx.
        -- apply (g_keys _ _ _ _ G i x). rewrite Es. now right.
        -- exact (g_keys _ _ _ _ G p x Hx).
      * intros p. rewrite asked_enabled_app, said_enabled_app. cbn. rewrite !app_nil_r. apply (g_enabled _ _ _ _ G).
      * rewrite foreign_of_app, ?said_foreign_app, (g_foreign _ _ _ _ G). cbn. now rewrite ?app_nil_r.
      * intros j. eapply publish_node; [exact G| | | |].
        -- cbn. exists b. split; [exact Ep|reflexivity].
        -- cbn [store_set publish set_node s_nodes n_inbox]. rewrite (json_text_valid key).
           ++ destruct (Nat.eqb_spec j i) as [->|Hj]; reflexivity.
           ++ apply (g_keys _ _ _ _ G i (key, m)). rewrite Es. now left.
        -- cbn [store_set publish set_node s_nodes n_cache]. destruct (Nat.eqb_spec j i) as [->|Hj]; reflexivity.
        -- cbn [store_set publish set_node s_nodes n_enabled]. destruct (Nat.eqb_spec j i) as [->|Hj]; reflexivity.
    + injection H as <- <-. exists []. rewrite (app_nil_r log). apply local_step; auto.
      * cbn [n_send]. rewrite Es. cbn [filter]. unfold packs at 2. cbn [snd]. now rewrite Ep.
      * cbn [n_send]. rewrite Es. intros x Hx. now right.
      * rewrite app_nil_r. exact (keep_node ops _ s s outs outs log i G eq_refl eq_refl eq_refl).
  - (* Receive *)
    destruct (n_inbox (s_nodes s i)) as [|p rest] eqn:Ei; [discriminate|].
    assert (exists past x rst, log = (past ++ [x]) ++ rst /\ carries x p /\ Forall2 carries rst rest /\
      in_order (In (OLose i) ops) (tells_cache unpack ids i) past (saw_cache i outs ++ n_cache (s_nodes s i)) /\
      in_order (In (OLose i) ops) (tells_enabled decode_enabled ids i) past (saw_enabled i outs ++ n_enabled (s_nodes s i)))
      as [past [x [rst [E [C [F [O1 O2]]]]]]].
    { destruct (g_nodes _ _ _ _ G i) as [past [rst [E [F O]]]]. rewrite Ei in F. inversion F as [|x y rst' rest' Cx F' E1 E2]; subst.
      exists past, x, rst'. rewrite <- app_assoc. split; [reflexivity|auto]. }
    pose proof (process_said i x p C) as Hp. exists []. rewrite (app_nil_r log).
    assert (in_order (In (OLose i) (ops ++ [OReceive i])) (tells_cache unpack ids i) past (saw_cache i outs ++ n_cache (s_nodes s i))) as O1'
      by (eapply in_order_weaken; [apply lose_app|exact O1]).
    assert (in_order (In (OLose i) (ops ++ [OReceive i])) (tells_enabled decode_enabled ids i) past (saw_enabled i outs ++ n_enabled (s_nodes s i))) as O2'
      by (eapply in_order_weaken; [apply lose_app|exact O2]).
    destruct (process unpack decode_enabled (ids i) p) as [c|e|].
    + destruct (length (n_cache (s_nodes s i)) <? chan_cap); [|discriminate]. injection H as <- <-. apply local_step; auto; [apply incl_refl|].
      exists (past ++ [x]), rst. rewrite !app_nil_r. cbn [n_inbox n_cache n_enabled]. split; [exact E|]. split; [exact F|]. split.
      * rewrite app_assoc. apply in_order_snoc_take; [exact O1'|apply Hp].
      * apply in_order_snoc_skip; [exact O2'|right; apply Hp].
    + destruct (length (n_enabled (s_nodes s i)) <? chan_cap); [|discriminate]. injection H as <- <-. apply local_step; auto; [apply incl_refl|].
      exists (past ++ [x]), rst. rewrite !app_nil_r. cbn [n_inbox n_cache n_enabled]. split; [exact E|]. split; [exact F|]. split.
      * apply in_order_snoc_skip; [exact O1'|right; apply Hp].
      * rewrite app_assoc. apply in_order_snoc_take; [exact O2'|apply Hp].
    + injection H as <- <-. apply local_step; auto; [apply incl_refl|].
      exists (past ++ [x]), rst. rewrite !app_nil_r. cbn [n_inbox n_cache n_enabled]. split; [exact E|]. split; [exact F|]. split.
      * apply in_order_snoc_skip; [exact O1'|right; apply Hp].
      * apply in_order_snoc_skip; [exact O2'|right; apply Hp].
  - (* Lose *)
    destruct (n_inbox (s_nodes s i)) as [|p rest] eqn:Ei; [discriminate|]. injection H as <- <-.
    exists []. rewrite (app_nil_r log). apply local_step; auto; [apply incl_refl|].
    destruct (g_nodes _ _ _ _ G i) as [past [rst [E [F [O1 O2]]]]]. rewrite Ei in F. inversion F as [|x y rst' rest' Cx F' E1 E2]; subst.
    exists (past ++ [x]), rst'. rewrite !app_nil_r. cbn [n_inbox n_cache n_enabled]. rewrite <- app_assoc. split; [reflexivity|]. split; [exact F'|].
    assert (In (OLose i) (ops ++ [OLose i])) as Hl by (apply in_or_app; right; now left).
    split; (apply in_order_snoc_skip; [|now left]).
    + eapply in_order_weaken; [apply lose_app|exact O1].
    + eapply in_order_weaken; [apply lose_app|exact O2].
  - (* Foreign *)
    injection H as <- <-. exists [SaidForeign p]. rewrite app_nil_r. split.
    + intros q. rewrite asked_app, said_cache_app. cbn [publish s_nodes n_send asked flat_map said_cache_by app]. rewrite !app_nil_r.
      apply (g_cache _ _ _ _ G).
    + exact (g_keys _ _ _ _ G).
    + intros q. rewrite asked_enabled_app, said_enabled_app. cbn. rewrite !app_nil_r. apply (g_enabled _ _ _ _ G).
    + rewrite foreign_of_app, ?said_foreign_app, (g_foreign _ _ _ _ G). cbn. now rewrite ?app_nil_r.
    + intros j. eapply publish_node; [exact G|reflexivity..].
  - (* TakeCache *)
    destruct (n_cache (s_nodes s i)) as [|c rest] eqn:Ec; [discriminate|]. injection H as <- <-.
    exists []. rewrite (app_nil_r log). apply local_step; auto; [apply incl_refl| |].
    + intros j Hj. cbn. apply not_eq_sym, Nat.eqb_neq in Hj. now rewrite Hj.
    + destruct (keep_node ops (OTakeCache i) s s outs outs log i G eq_refl eq_refl eq_refl) as [past [rst [E [F [O1 O2]]]]].
      exists past, rst. cbn [n_inbox n_cache n_enabled]. split; [exact E|]. split; [exact F|]. split.
      * rewrite Ec in O1. rewrite saw_cache_app. cbn [saw_cache flat_map]. rewrite Nat.eqb_refl. cbn [app]. now rewrite <- app_assoc.
      * rewrite saw_enabled_app. cbn [saw_enabled flat_map]. now rewrite app_nil_r.
  - (* TakeEnabled *)
    destruct (n_enabled (s_nodes s i)) as [|c rest] eqn:Ec; [discriminate|]. injection H as <- <-.
    exists []. rewrite (app_nil_r log). apply local_step; auto; [apply incl_refl| |].
    + intros j Hj. cbn. apply not_eq_sym, Nat.eqb_neq in Hj. now rewrite Hj.
    + destruct (keep_node ops (OTakeEnabled i) s s outs outs log i G eq_refl eq_refl eq_refl) as [past [rst [E [F [O1 O2]]]]].
      exists past, rst. cbn [n_inbox n_cache n_enabled]. split; [exact E|]. split; [exact F|]. split.
      * rewrite saw_cache_app. cbn [saw_cache flat_map]. now rewrite app_nil_r.
      * rewrite Ec in O2. rewrite saw_enabled_app. cbn [saw_enabled flat_map]. rewrite Nat.eqb_refl. cbn [app]. now rewrite <- app_assoc.
Qed.

Lemma init_good : good [] sys_init [] [].
Proof.
  split; try reflexivity; try (intros p x []).
  intros i. exists [], []. repeat split; try constructor.
Qed.

Lemma run_good : forall ops done s outs log s' out, Forall clean_op ops -> good done s outs log ->
  runf s ops = Some (s', out) -> exists more, good (done ++ ops) s' (outs ++ out) (log ++ more).
Proof.
  induction ops as [|o ops IH]; intros done s outs log s' out Hc G H; cbn in H.
  - injection H as <- <-. exists []. now rewrite !app_nil_r.
  - destruct (sys_step pack unpack encode_enabled decode_enabled ids s o) as [[s1 o1]|] eqn:E; [|discriminate].
    destruct (runf s1 ops) as [[s2 o2]|] eqn:E2; [|discriminate].
    injection H as <- <-. inversion Hc as [|? ? H1 H2]; subst.
    destruct (step_good done o s outs log s1 o1 H1 G E) as [more G1].
    destruct (IH _ _ _ _ _ _ H2 G1 E2) as [more' G2].
    exists (more ++ more'). rewrite <- !app_assoc in G2. exact G2.
Qed.
End Run.

(** ** C64: no echo, no mix-up *)

(** Any number of instances with different ids, any interleaving of publishing, sending, receiving,
    losing messages and reading the channels, other programs writing on the channel: there is one order
    [log] of everything said on the channel, in which each instance's messages are those it was asked
    to publish, in that order, and every instance has been told exactly what the others said in the part
    of the log it has received (or a part of it, if its subscription dropped messages): the same keys and
    the same replies, once each, in that order, and nothing of what it said itself.  Partial: the keys
    and group names are texts which JSON can carry; see C64_key_refuted for the others. *)
Theorem C64_sync_partial : forall pack unpack encode_enabled decode_enabled ids ops s outs,
  (forall i j : nat, ids i = ids j -> i = j) ->
  (forall m b, pack m = Some b -> unpack b = Some m) ->
  (forall i k m, In (OPublishCache i k m) ops -> valid_utf8 k) ->
  (forall i e, In (OPublishEnabled i e) ops -> decode_enabled (encode_enabled e) = Some e) ->
  sys_run pack unpack encode_enabled decode_enabled ids sys_init ops = Some (s, outs) ->
  exists log,
    (forall p, exists waiting, said_cache_by p log ++ waiting = asked pack p ops /\ length waiting <= length (n_send (s_nodes s p))) /\
    (forall p, said_enabled_by p log = asked_enabled p ops) /\
    said_foreign log = foreign_of ops /\
    (forall i, exists past rest, log = past ++ rest /\ length rest = length (n_inbox (s_nodes s i)) /\
       in_order (In (OLose i) ops) (tells_cache unpack ids i) past (saw_cache i outs ++ n_cache (s_nodes s i)) /\
       in_order (In (OLose i) ops) (tells_enabled decode_enabled ids i) past
         (saw_enabled i outs ++ n_enabled (s_nodes s i))).
Proof.
  intros pack unpack enc dec ids ops s outs Hi Hp Hk He Hr.
  destruct (run_good pack unpack enc dec ids Hi Hp ops [] sys_init [] [] s outs) as [log G].
  - apply Forall_forall. intros o Ho. destruct o; cbn; auto; [eapply Hk; exact Ho|eapply He; exact Ho].
  - apply init_good.
  - exact Hr.
  - cbn [app] in G. exists log. split; [|split; [|split]].
    + intros p. exists (filter (packs pack) (n_send (s_nodes s p))). split; [apply (g_cache _ _ _ _ _ _ _ _ _ G)|].
      clear. induction (n_send (s_nodes s p)) as [|x l IH]; cbn [filter length]; [lia|]. destruct (packs pack x); cbn [length]; lia.
    + intros p. apply (g_enabled _ _ _ _ _ _ _ _ _ G).
    + apply (g_foreign _ _ _ _ _ _ _ _ _ G).
    + intros i. destruct (g_nodes _ _ _ _ _ _ _ _ _ G i) as [past [rest [E [F O]]]]. exists past, rest.
      split; [exact E|]. split; [|exact O]. clear -F. induction F; cbn [length]; congruence.
Qed.
Print Assumptions C64_sync_partial.


Lemma in_order_In {A B} (lossy : Prop) (R : A -> B -> Prop) log l b : in_order lossy R log l -> In b l ->
  exists x, In x log /\ R x b.
Proof.
  intros H. induction H as [|x b' log l Hx H IH|x log l Hx H IH]; intros Hb; [destruct Hb| |].
  - destruct Hb as [->|Hb]; [exists x; split; [now left|exact Hx]|].
    destruct (IH Hb) as [y [Hy Ry]]. exists y. split; [now right|exact Ry].
  - destruct (IH Hb) as [y [Hy Ry]]. exists y. split; [now right|exact Ry].
Qed.

Lemma saw_cache_In i c outs : In (GotCache i c) outs -> In c (saw_cache i outs).
Proof. intros H. apply in_flat_map. exists (GotCache i c). split; [exact H|]. cbn. rewrite Nat.eqb_refl. now left. Qed.
Lemma saw_enabled_In i c outs : In (GotEnabled i c) outs -> In c (saw_enabled i outs).
Proof. intros H. apply in_flat_map. exists (GotEnabled i c). split; [exact H|]. cbn. rewrite Nat.eqb_refl. now left. Qed.

(** An instance is only told what another one was asked to publish, under the same key. *)
Theorem C64_no_echo_partial : forall pack unpack encode_enabled decode_enabled ids ops s outs,
  (forall i j : nat, ids i = ids j -> i = j) ->
  (forall m b, pack m = Some b -> unpack b = Some m) ->
  (forall i k m, In (OPublishCache i k m) ops -> valid_utf8 k) ->
  (forall i e, In (OPublishEnabled i e) ops -> decode_enabled (encode_enabled e) = Some e) ->
  (forall w, ~ In (OForeign w) ops) ->
  sys_run pack unpack encode_enabled decode_enabled ids sys_init ops = Some (s, outs) ->
  (forall i c, In (GotCache i c) outs ->
     exists p m, p <> i /\ In (OPublishCache p (cm_key c) (Some m)) ops /\ rs_msg (cm_response c) = Some m) /\
  (forall i e, In (GotEnabled i e) outs -> exists p, p <> i /\ In (OPublishEnabled p e) ops).
Proof.
  intros pack unpack enc dec ids ops s outs Hi Hp Hk He Hf Hr.
  destruct (C64_sync_partial pack unpack enc dec ids ops s outs Hi Hp Hk He Hr) as [log [L1 [L2 [L3 L4]]]].
  assert (forall w, ~ In (SaidForeign w) log) as Lf.
  { intros w Hw. assert (In w (said_foreign log)) as H by (apply in_flat_map; exists (SaidForeign w); split; [exact Hw|now left]).
    rewrite L3 in H. apply in_flat_map in H as [o [Ho H]]. destruct o; cbn in H; try contradiction.
    cbn in H. destruct H as [<-|[]]. exact (Hf _ Ho). }
  split; intros i x Hx; destruct (L4 i) as [past [rest [E [_ [O1 O2]]]]].
  - destruct (in_order_In _ _ _ _ x O1) as [y [Hy [k [m [Ry ->]]]]]; [apply in_or_app; left; now apply saw_cache_In|].
    assert (In y log) as Hlog by (rewrite E; apply in_or_app; now left).
    destruct y as [p k' m'| |w]; [|destruct Ry|exact (False_ind _ (Lf w Hlog))]. destruct Ry as [Hpi [-> ->]].
    exists p, m'. split; [exact Hpi|]. split; [|reflexivity]. cbn [cm_key].
    destruct (L1 p) as [waiting [Ew _]].
    assert (In (k', m') (asked pack p ops)) as Ha.
    { rewrite <- Ew. apply in_or_app. left. apply in_flat_map. exists (SaidCache p k' m'). split; [exact Hlog|]. cbn. rewrite Nat.eqb_refl. now left. }
    apply in_flat_map in Ha as [o [Ho Ha]]. destruct o as [j key om| | | | | | |]; cbn in Ha; try contradiction.
    cbn in Ha. destruct key as [|c key]; [destruct Ha|]. destruct om as [m|]; [|destruct Ha].
    destruct (Nat.eqb_spec j p) as [->|]; [|destruct Ha]. destruct (pack m); [|destruct Ha].
    destruct Ha as [[= <- <-]|[]]. exact Ho.
  - destruct (in_order_In _ _ _ _ x O2) as [y [Hy Ry]]; [apply in_or_app; left; now apply saw_enabled_In|].
    assert (In y log) as Hlog by (rewrite E; apply in_or_app; now left).
    destruct y as [|p e'|w]; [destruct Ry| |exact (False_ind _ (Lf w Hlog))]. destruct Ry as [Hpi ->].
    exists p. split; [exact Hpi|].
    assert (In e' (asked_enabled p ops)) as Ha.
    { rewrite <- L2. apply in_flat_map. exists (SaidEnabled p e'). split; [exact Hlog|]. cbn. rewrite Nat.eqb_refl. now left. }
    apply in_flat_map in Ha as [o [Ho Ha]]. destruct o as [|j e| | | | | |]; cbn in Ha; try contradiction.
    cbn in Ha. destruct (Nat.eqb_spec j p) as [->|]; [|destruct Ha]. destruct Ha as [<-|[]]. exact Ho.
Qed.
Print Assumptions C64_no_echo_partial.

Lemma in_order_app_l {A B} (R : A -> B -> Prop) x : (exists b, R x b) -> forall log l, in_order False R log l -> In x log ->
  exists b, In b l /\ R x b.
Proof.
  intros [b Hb] log l H. induction H as [|y b' log l Hy H IH|y log l Hy H IH]; intros Hx; [destruct Hx| |].
  - destruct Hx as [->|Hx]; [exists b'; split; [now left|exact Hy]|].
    destruct (IH Hx) as [c [Hc Rc]]. exists c. split; [now right|exact Rc].
  - destruct Hx as [->|Hx]; [destruct Hy as [[]|Hy]; exfalso; exact (Hy b Hb)|]. exact (IH Hx).
Qed.

(** Once everything is sent and received, and nothing was lost, every other instance has been given
    each reply that was published, under its key. *)
Theorem C64_delivered_partial : forall pack unpack encode_enabled decode_enabled ids ops s outs p i k m b,
  (forall i j : nat, ids i = ids j -> i = j) ->
  (forall m b, pack m = Some b -> unpack b = Some m) ->
  (forall i k m, In (OPublishCache i k m) ops -> valid_utf8 k) ->
  (forall i e, In (OPublishEnabled i e) ops -> decode_enabled (encode_enabled e) = Some e) ->
  sys_run pack unpack encode_enabled decode_enabled ids sys_init ops = Some (s, outs) ->
  n_send (s_nodes s p) = [] -> n_inbox (s_nodes s i) = [] -> n_cache (s_nodes s i) = [] -> ~ In (OLose i) ops ->
  In (OPublishCache p k (Some m)) ops -> k <> [] -> pack m = Some b -> p <> i ->
  exists c, In (GotCache i c) outs /\ cm_key c = k /\ rs_msg (cm_response c) = Some m.
Proof.
  intros pack unpack enc dec ids ops s outs p i k m b Hi Hp Hk He Hr Es Ei Ec Hl Ho Hk0 Hb Hpi.
  destruct (C64_sync_partial pack unpack enc dec ids ops s outs Hi Hp Hk He Hr) as [log [L1 [L2 [L3 L4]]]].
  destruct (L1 p) as [waiting [Ew Lw]]. rewrite Es in Lw. destruct waiting; [|cbn in Lw; lia]. rewrite app_nil_r in Ew.
  destruct (L4 i) as [past [rest [E [Lr [O1 _]]]]]. rewrite Ei in Lr. destruct rest; [|discriminate]. rewrite app_nil_r in E. subst past.
  assert (In (k, m) (said_cache_by p log)) as Hs.
  { rewrite Ew. apply in_flat_map. exists (OPublishCache p k (Some m)). split; [exact Ho|]. cbn. destruct k; [congruence|].
    rewrite Nat.eqb_refl, Hb. now left. }
  apply in_flat_map in Hs as [x [Hx Hs]]. destruct x as [q k' m'| |]; cbn in Hs; try contradiction.
  cbn in Hs. destruct (Nat.eqb_spec q p) as [->|]; [|destruct Hs]. destruct Hs as [[= -> ->]|[]].
  rewrite Ec, app_nil_r in O1.
  destruct (in_order_app_l (tells_cache unpack ids i) (SaidCache p k m)) with (log := log) (l := saw_cache i outs) as [c [Hc [k1 [m1 [[_ [-> ->]] ->]]]]].
  - eexists. exists k, m. split; [split; [exact Hpi|auto]|reflexivity].
  - eapply in_order_weaken; [|exact O1]. tauto.
  - exact Hx.
  - match type of Hc with In ?c _ => exists c end. split; [|split; reflexivity].
    unfold saw_cache in Hc. apply in_flat_map in Hc as [o [Ho' Hc]]. destruct o as [j c|]; [|destruct Hc].
    destruct (Nat.eqb_spec j i) as [->|]; [|destruct Hc]. destruct Hc as [Hc|[]]. now rewrite <- Hc.
Qed.
Print Assumptions C64_delivered_partial.

(** The keys of the caching resolver are such texts for every ASCII name and every type number whose
    two bytes are below 128. *)
Theorem C64_keys : forall t name, (t mod 256 < 128)%N -> (t < 32768)%N ->
  Forall (fun c => (N_of_ascii c < 128)%N) name -> valid_utf8 (generate_cache_key t name).
Proof.
  intros t name Ht Ht' Hn. apply ascii_valid. unfold generate_cache_key.
  constructor; [rewrite N_ascii_byte; lia|]. constructor; [rewrite N_ascii_byte; lia|].
  apply Forall_map. eapply Forall_impl; [|exact Hn]. cbn. intros c Hc.
  unfold lower_ascii. destruct (_ && _) eqn:E; [|exact Hc].
  rewrite N_ascii_byte; lia.
Qed.
Print Assumptions C64_keys.

(** Other keys do not arrive: the key of a question of type ANY (255) is changed on the way, so that the
    reply published by one instance is never found by another. *)
Definition two_ids (i : nat) : str := repeat "x"%char i.

Theorem C64_key_refuted : exists pack unpack encode_enabled decode_enabled ids ops s outs p i k m c,
  (forall i j : nat, ids i = ids j -> i = j) /\
  pack m = Some [] /\ unpack [] = Some m /\
  ops = [OPublishCache p k (Some m); OSend p 0; OReceive i; OTakeCache i] /\ p <> i /\
  k = generate_cache_key 255 ($"example.com") /\
  sys_run pack unpack encode_enabled decode_enabled ids sys_init ops = Some (s, outs) /\
  outs = [GotCache i c] /\ cm_key c <> k /\
  forall t name, (t < 65536)%N -> Forall (fun x => (N_of_ascii x < 128)%N) name -> generate_cache_key t name <> cm_key c.
Proof.
  exists (fun _ => Some []), (fun _ => Some empty_msg), (fun _ => []), (fun _ => None), two_ids.
  eexists _, _, _, 0, 1, _, empty_msg, _.
  split. { intros i j H. apply (f_equal (@length ascii)) in H. unfold two_ids in H. now rewrite !repeat_length in H. }
  split; [reflexivity|]. split; [reflexivity|]. split; [reflexivity|]. split; [discriminate|]. split; [reflexivity|].
  split; [reflexivity|]. split; [reflexivity|]. split; [vm_compute; discriminate|].
  intros t name Ht Hn E. unfold generate_cache_key in E. cbn [cm_key] in E.
  change (json_text _) with (ascii_of_N 0 :: ascii_of_N 239 :: ascii_of_N 191 :: ascii_of_N 189 :: $"example.com") in E.
  injection E as _ _ E. destruct name as [|c name]; [discriminate|]. cbn [to_lower map] in E. injection E as E _.
  inversion Hn as [|? ? Hc _]; subst. unfold lower_ascii in E. apply (f_equal N_of_ascii) in E.
  match type of E with _ = ?r => change r with 191%N in E end. destruct (_ && _) eqn:Eb in E; [rewrite N_ascii_byte in E; lia|lia].
Qed.
Print Assumptions C64_key_refuted.

(** ** C99: a stalled Redis *)

Definition sends (i : nat) (ops : list sys_op) : nat :=
  length (filter (fun o => match o with OSend j _ => Nat.eqb j i | _ => false end) ops).
Definition publishes (i : nat) (ops : list sys_op) : nat :=
  length (filter (fun o => match o with OPublishCache j (_ :: _) (Some _) => Nat.eqb j i | _ => false end) ops).

Lemma waiting_count pack unpack enc dec ids : forall ops s s' outs i,
  sys_run pack unpack enc dec ids s ops = Some (s', outs) ->
  length (n_send (s_nodes s' i)) + sends i ops = length (n_send (s_nodes s i)) + publishes i ops.
Proof.
  induction ops as [|o ops IH]; intros s s' outs i H; cbn [sys_run] in H.
  - injection H as <- <-. reflexivity.
  - destruct (sys_step pack unpack enc dec ids s o) as [[s1 o1]|] eqn:E; [|discriminate].
    destruct (sys_run pack unpack enc dec ids s1 ops) as [[s2 o2]|] eqn:E2; [|discriminate]. injection H as <- <-.
    specialize (IH _ _ _ i E2). unfold sends, publishes in *. cbn [filter].
    assert (length (n_send (s_nodes s1 i)) + (if (match o with OSend j _ => Nat.eqb j i | _ => false end) then 1 else 0)
          = length (n_send (s_nodes s i)) + (if (match o with OPublishCache j (_ :: _) (Some _) => Nat.eqb j i | _ => false end) then 1 else 0)) as Hs.
    { clear IH E2. destruct o as [j key m|j e|j now|j|j|p|j|j]; cbn [sys_step] in E.
      - destruct key as [|c key]; [injection E as <- <-; reflexivity|]. destruct m as [m|]; [|injection E as <- <-; reflexivity].
        destruct (_ <? _); [|discriminate]. injection E as <- <-. cbn [set_node s_nodes]. rewrite (Nat.eqb_sym j i).
        destruct (Nat.eqb_spec i j) as [->|]; [cbn [n_send]; rewrite app_length; cbn; lia|lia].
      - injection E as <- <-. reflexivity.
      - destruct (n_send (s_nodes s j)) as [|[k m] rest] eqn:Es; [discriminate|].
        destruct (pack m); injection E as <- <-; cbn [store_set publish set_node s_nodes n_send]; rewrite (Nat.eqb_sym j i);
          destruct (Nat.eqb_spec i j) as [->|]; cbn [n_send]; rewrite ?Es; cbn [length]; lia.
      - destruct (n_inbox (s_nodes s j)) as [|x rest] eqn:Es; [discriminate|].
        destruct (process unpack dec (ids j) x);
          [destruct (length (n_cache (s_nodes s j)) <? chan_cap); [|discriminate]|destruct (length (n_enabled (s_nodes s j)) <? chan_cap); [|discriminate]|];
          injection E as <- <-; cbn [set_node s_nodes]; destruct (Nat.eqb_spec i j) as [->|]; reflexivity.
      - destruct (n_inbox (s_nodes s j)) as [|x rest] eqn:Es; [discriminate|]. injection E as <- <-.
        cbn [set_node s_nodes]; destruct (Nat.eqb_spec i j) as [->|]; reflexivity.
      - injection E as <- <-. reflexivity.
      - destruct (n_cache (s_nodes s j)) as [|x rest] eqn:Es; [discriminate|]. injection E as <- <-.
        cbn [set_node s_nodes]; destruct (Nat.eqb_spec i j) as [->|]; reflexivity.
      - destruct (n_enabled (s_nodes s j)) as [|x rest] eqn:Es; [discriminate|]. injection E as <- <-.
        cbn [set_node s_nodes]; destruct (Nat.eqb_spec i j) as [->|]; reflexivity. }
    destruct o as [j [|c key] [m|]|j e|j now|j|j|p|j|j]; cbn [length] in *; try lia;
      destruct (Nat.eqb j i); cbn [length] in *; lia.
Qed.

(** A call of PublishCache returns at once as long as fewer than 1000 messages are waiting to be sent,
    whatever happened before. *)
Theorem C99_returns_partial : forall pack unpack encode_enabled decode_enabled ids ops s outs i k m,
  sys_run pack unpack encode_enabled decode_enabled ids sys_init ops = Some (s, outs) ->
  publishes i ops < 1000 + sends i ops ->
  exists s', sys_step pack unpack encode_enabled decode_enabled ids s (OPublishCache i k m) = Some (s', []).
Proof.
  intros pack unpack enc dec ids ops s outs i k m H Hn.
  pose proof (waiting_count pack unpack enc dec ids ops sys_init s outs i H) as W. cbn [sys_init s_nodes node_init n_send length] in W.
  cbn [sys_step]. destruct k as [|c k]; [eexists; reflexivity|]. destruct m as [m|]; [|eexists; reflexivity].
  unfold chan_cap. destruct (Nat.ltb_spec (length (n_send (s_nodes s i))) 1000) as [|Hl]; [eexists; reflexivity|lia].
Qed.
Print Assumptions C99_returns_partial.

(** But when Redis does not answer, so that nothing is sent any more, the reply after the thousandth can
    not be published, and the query which obtained it waits, for as long as nothing is sent. *)
Theorem C99_stall_refuted : forall pack unpack encode_enabled decode_enabled ids i (k : str) (m : msg), k <> [] ->
  exists ops s outs,
    publishes i ops = 1000 /\ sends i ops = 0 /\
    sys_run pack unpack encode_enabled decode_enabled ids sys_init ops = Some (s, outs) /\
    forall later s' outs', sys_run pack unpack encode_enabled decode_enabled ids s later = Some (s', outs') ->
      sends i later = 0 ->
      forall k' m', k' <> [] -> sys_step pack unpack encode_enabled decode_enabled ids s' (OPublishCache i k' (Some m')) = None.
Proof.
  intros pack unpack enc dec ids i k m Hk.
  assert (forall n s, n + length (n_send (s_nodes s i)) <= 1000 -> exists s' outs,
    sys_run pack unpack enc dec ids s (repeat (OPublishCache i k (Some m)) n) = Some (s', outs) /\
    length (n_send (s_nodes s' i)) = n + length (n_send (s_nodes s i))) as Hfill.
  { induction n as [|n IH]; intros s Hs; cbn [repeat sys_run]; [exists s, []; auto|].
    cbn [sys_step]. destruct k as [|c k]; [congruence|]. unfold chan_cap.
    destruct (Nat.ltb_spec (length (n_send (s_nodes s i))) 1000); [|lia].
    match goal with |- context [set_node i ?n0 s] => set (nn := n0) end.
    destruct (IH (set_node i nn s)) as [s' [outs [E L]]].
    - cbn [set_node s_nodes]. rewrite Nat.eqb_refl. subst nn. cbn [n_send]. rewrite app_length. cbn [length]. lia.
    - rewrite E. exists s', ([] ++ outs). split; [reflexivity|]. rewrite L. cbn [set_node s_nodes]. rewrite Nat.eqb_refl.
      subst nn. cbn [n_send]. rewrite app_length. cbn [length]. lia. }
  destruct (Hfill 1000 sys_init) as [s [outs [E L]]]; [cbn [sys_init s_nodes node_init n_send length]; lia|].
  exists (repeat (OPublishCache i k (Some m)) 1000), s, outs.
  assert (forall n, publishes i (repeat (OPublishCache i k (Some m)) n) = n /\ sends i (repeat (OPublishCache i k (Some m)) n) = 0) as Hc.
  { induction n as [|n IH]; [split; reflexivity|]. unfold publishes, sends in *. cbn [repeat filter]. destruct k; [congruence|].
    rewrite Nat.eqb_refl. cbn [length]. split; [now rewrite (proj1 IH)|apply (proj2 IH)]. }
  split; [apply Hc|]. split; [apply Hc|]. split; [exact E|].
  intros later s' outs' Hr Hs k' m' Hk'. pose proof (waiting_count _ _ _ _ _ _ _ _ _ i Hr) as W.
  cbn [sys_init s_nodes node_init n_send length] in L. rewrite Nat.add_0_r in L.
  cbn [sys_step]. destruct k'; [congruence|]. unfold chan_cap.
  destruct (Nat.ltb_spec (length (n_send (s_nodes s' i))) 1000) as [Hl|]; [exfalso; clear -W Hs Hl L; lia|reflexivity].
Qed.
Print Assumptions C99_stall_refuted.

(** ** C100: what is loaded from the store *)

(** The key of a stored reply is read back as it was. *)
Theorem C100_store_key : forall k, has_prefix (prefix_key k) store_prefix = true /\ clean_key (prefix_key k) = k.
Proof.
  intros k. split; [apply has_prefix_spec; exists k; reflexivity|apply trim_prefix_app].
Qed.
Print Assumptions C100_store_key.

Lemma fold_min_le l : forall x, (fold_left (fun x r => N.min x (rr_ttl r)) l x <= x)%N.
Proof. induction l as [|r l IH]; intros x; cbn [fold_left]; [lia|]. specialize (IH (N.min x (rr_ttl r))). lia. Qed.
Lemma fold_min_In l : forall x r, In r l -> (fold_left (fun x r => N.min x (rr_ttl r)) l x <= rr_ttl r)%N.
Proof.
  induction l as [|a l IH]; intros x r []; cbn [fold_left].
  - subst a. pose proof (fold_min_le l (N.min x (rr_ttl r))). lia.
  - now apply IH.
Qed.
Lemma fold_min_pos l : forall x, (0 < x)%N -> (forall r, In r l -> 0 < rr_ttl r)%N ->
  (0 < fold_left (fun x r => N.min x (rr_ttl r)) l x)%N.
Proof.
  induction l as [|a l IH]; intros x Hx H; cbn [fold_left]; [exact Hx|]. apply IH; [|intros r Hr; apply H; now right].
  specialize (H a (or_introl eq_refl)). lia.
Qed.

(** A reply with records, sent at time [t0] and found again at time [t1] with at least half a second
    left when TTL is asked at [t2]: it comes back under its key with the same content, and each record
    is given at most the seconds that were left of the shortest time to live, rounded. *)
Theorem C100_age_partial : forall pack unpack encode_enabled decode_enabled ids s i k m rest b t0 t1 t2 s1 out c,
  (forall m b, pack m = Some b -> unpack b = Some m) ->
  n_send (s_nodes s i) = (k, m) :: rest -> pack m = Some b ->
  m_answer m <> [] -> (forall r, In r (m_answer m) -> 0 < rr_ttl r < 4294967296)%N ->
  sys_step pack unpack encode_enabled decode_enabled ids s (OSend i t0) = Some (s1, out) ->
  (t0 <= t1 <= t2)%Z ->
  (forall r, In r (m_answer m) -> t2 + 500000000 <= t0 + Z.of_N (rr_ttl r) * 1000000000)%Z ->
  (t2 + 500000000 <= t0 + 2147483647000000000)%Z ->
  get_response unpack (s_store s1) (prefix_key k) t1 t2 = Some c ->
  cm_key c = k /\
  exists m', rs_msg (cm_response c) = Some m' /\ (exists a, m' = set_answer a m) /\
    length (m_answer m') = length (m_answer m) /\
    forall r r', In r (m_answer m) -> In r' (m_answer m') ->
      (t2 + Z.of_N (rr_ttl r') * 1000000000 <= t0 + Z.of_N (rr_ttl r) * 1000000000 + 500000000)%Z.
Proof.
  intros pack unpack enc dec ids s i k m rest b t0 t1 t2 s1 out c Hp Es Eb Ha Hpos Hst Ht Hleft Hbig Hg.
  cbn [sys_step] in Hst. rewrite Es, Eb in Hst. injection Hst as <- <-.
  unfold get_response in Hg. cbn [store_set s_store] in Hg. rewrite mget_mput_same in Hg.
  unfold get_ttl in Hg. set (mn := fold_left (fun x r => N.min x (rr_ttl r)) (m_answer m) max_int32) in *.
  assert (0 < mn)%N as Hmn by (apply fold_min_pos; [unfold max_int32; lia|intros r Hr; apply Hpos, Hr]).
  assert (mn <= max_int32)%N as Hmx by apply fold_min_le.
  replace (mn =? 0)%N with false in Hg by lia.
  assert (t2 + 500000000 <= t0 + Z.of_N mn * 1000000000)%Z as Hmin.
  { assert (mn = max_int32 \/ exists r, In r (m_answer m) /\ mn = rr_ttl r) as [E|[r [Hr E]]].
    { clear. unfold mn. generalize max_int32. induction (m_answer m) as [|a l IH]; intros x; cbn [fold_left]; [now left|].
      destruct (IH (N.min x (rr_ttl a))) as [E|[r [Hr E]]].
      - rewrite E. destruct (N.min_spec x (rr_ttl a)) as [[_ ->]|[_ ->]]; [now left|]. right. exists a. split; [now left|reflexivity].
      - right. exists r. split; [now right|exact E]. }
    - rewrite E. unfold max_int32. lia.
    - rewrite E. now apply Hleft. }
  destruct (t0 + Z.of_N mn * 1000000000 <=? t1)%Z eqn:E1; [discriminate|].
  unfold convert_message in Hg. rewrite (Hp m b Eb) in Hg. injection Hg as <-.
  rewrite (proj2 (C100_store_key k)). split; [reflexivity|]. cbn [cm_response rs_msg].
  eexists. split; [reflexivity|]. unfold store_ttl.
  replace (t0 + Z.of_N mn * 1000000000 <=? t2)%Z with false by lia.
  set (secs := (((t0 + Z.of_N mn * 1000000000 - t2) / 1000000 + 500) / 1000)%Z) in *.
  assert (1 <= secs)%Z as Hs1 by (unfold secs; lia).
  assert (secs * 1000 <= (t0 + Z.of_N mn * 1000000000 - t2) / 1000000 + 500)%Z as Hs2 by (unfold secs; lia).
  assert (secs * 1000000000 <= t0 + Z.of_N mn * 1000000000 - t2 + 500000000)%Z as Hs3 by lia.
  replace (0 <? secs * 1000000000)%Z with true by lia.
  split; [eexists; reflexivity|]. cbn [set_answer m_answer]. split; [apply map_length|].
  intros r r' Hr Hr'. apply in_map_iff in Hr' as [r0 [<- _]]. cbn [set_ttl rr_ttl].
  unfold seconds_u32. rewrite Z.quot_mul by lia. unfold u32.
  pose proof (fold_min_In (m_answer m) max_int32 r Hr) as Hle. fold mn in Hle.
  assert (secs mod 4294967296 <= secs)%Z as Hmod by (apply Z.mod_le; lia).
  assert (0 <= secs mod 4294967296)%Z as Hnn by (apply Z.mod_pos_bound; lia).
  rewrite Z2N.id by exact Hnn. clear -Hle Hs3 Hmod. lia.
Qed.
Print Assumptions C100_age_partial.

(** Within the last half second Redis reports zero seconds left, and the reply comes back with the time
    to live it had at first: a record valid for an hour is taken over for another hour just before it
    expires. *)
Definition hour_record : rr :=
  {| rr_name := $"example.com."; rr_type := 1; rr_class := 1; rr_ttl := 3600; rr_data := DA (IP4 [192; 0; 2; 1]%N) |}.
Theorem C100_last_moment_refuted : exists (pack : msg -> option str) unpack s m b t0 t c m',
  (forall m1 b1, pack m1 = Some b1 -> m1 = m -> unpack b1 = Some m1) /\
  n_send (s_nodes s 0) = [($"k", m)] /\ pack m = Some b /\ m_answer m = [hour_record] /\
  (t < t0 + 3600 * 1000000000 < t + 500000000)%Z /\
  (exists s1, sys_step pack unpack (fun _ => []) (fun _ => None) two_ids s (OSend 0 t0) = Some (s1, []) /\
     get_response unpack (s_store s1) (prefix_key ($"k")) t t = Some c) /\
  rs_msg (cm_response c) = Some m' /\ m_answer m' = [hour_record].
Proof.
  exists (fun _ => Some []), (fun _ => Some (set_answer [hour_record] empty_msg)).
  exists (set_node 0 {| n_send := [($"k", set_answer [hour_record] empty_msg)]; n_inbox := []; n_cache := []; n_enabled := [] |} sys_init).
  exists (set_answer [hour_record] empty_msg), [], 0%Z, (3600 * 1000000000 - 400000000)%Z.
  exists {| cm_key := $"k"; cm_response := {| rs_msg := Some (set_answer [hour_record] empty_msg); rs_reason := $"EXTERNAL_CACHE"; rs_type := CACHED |} |}.
  exists (set_answer [hour_record] empty_msg). split; [intros m1 b1 [= <-] ->; reflexivity|]. split; [reflexivity|]. split; [reflexivity|]. split; [reflexivity|].
  split; [lia|]. split; [|split; reflexivity].
  eexists. split; reflexivity.
Qed.
Print Assumptions C100_last_moment_refuted.

(** A negative reply (no records) is kept in the store for 2^31-1 seconds, about 68 years, and taken over by
    every instance that starts within that time, whatever the configured time for negative replies. *)
Theorem C100_negative_refuted : forall pack unpack encode_enabled decode_enabled ids s i k m rest b t0 t,
  (forall m b, pack m = Some b -> unpack b = Some m) ->
  n_send (s_nodes s i) = (k, m) :: rest -> pack m = Some b -> m_answer m = [] -> m_rcode m = rcode_nxdomain ->
  (t0 <= t < t0 + 68 * 365 * 86400 * 1000000000)%Z ->
  exists s1 out c, sys_step pack unpack encode_enabled decode_enabled ids s (OSend i t0) = Some (s1, out) /\
    get_response unpack (s_store s1) (prefix_key k) t t = Some c /\ cm_key c = k /\ rs_msg (cm_response c) = Some m.
Proof.
  intros pack unpack enc dec ids s i k m rest b t0 t Hp Es Eb Ha Hr Ht. cbn [sys_step]. rewrite Es, Eb.
  eexists _, _, _. split; [reflexivity|]. unfold get_response. cbn [store_set s_store].
  rewrite mget_mput_same.
  unfold get_ttl. rewrite Ha. cbn [fold_left]. change (max_int32 =? 0)%N with false. cbn [Z.of_N max_int32].
  match goal with |- context [(?e <=? t)%Z] => replace (e <=? t)%Z with false by lia end.
  unfold convert_message. rewrite (Hp m b Eb), Ha. split; [reflexivity|].
  cbn [cm_key cm_response rs_msg map]. rewrite (proj2 (C100_store_key k)). split; [reflexivity|].
  destruct (0 <? _)%Z; [|reflexivity]. f_equal. rewrite <- Ha. destruct m; reflexivity.
Qed.
Print Assumptions C100_negative_refuted.

(** Loading yields nothing that was not stored under a key with the prefix. *)
Theorem C100_loaded : forall unpack st keys c, In c (load unpack st keys) ->
  exists k v expires t1 t2 m, In (store_prefix ++ cm_key c, (t1, t2)) keys /\ k = store_prefix ++ cm_key c /\
    mget str_eqb k st = Some (v, expires) /\ (t1 < expires)%Z /\ unpack v = Some m /\
    exists a, rs_msg (cm_response c) = Some (set_answer a m).
Proof.
  intros unpack st keys c H. apply in_flat_map in H as [[k [t1 t2]] [Hk H]].
  destruct (has_prefix k store_prefix) eqn:Ep; [|destruct H]. apply has_prefix_spec in Ep as [k' ->].
  destruct (get_response unpack st (store_prefix ++ k') t1 t2) as [c'|] eqn:E; [|destruct H]. destruct H as [->|[]].
  unfold get_response in E. destruct (mget str_eqb (store_prefix ++ k') st) as [[v e]|] eqn:Em; [|discriminate].
  destruct (e <=? t1)%Z eqn:Et; [discriminate|]. unfold convert_message in E.
  destruct (unpack v) as [m|] eqn:Eu; [|discriminate]. change (store_prefix ++ k') with (prefix_key k') in E.
  rewrite (proj2 (C100_store_key k')) in E. apply (f_equal (fun x => match x with Some y => y | None => c end)) in E. cbn beta iota in E.
  subst c. cbn [cm_key cm_response rs_msg]. exists (store_prefix ++ k'), v, e, t1, t2, m.
  split; [exact Hk|]. split; [reflexivity|]. split; [exact Em|]. split; [lia|]. split; [exact Eu|].
  destruct (0 <? _)%Z; [eexists; reflexivity|]. exists (m_answer m). destruct m; reflexivity.
Qed.
Print Assumptions C100_loaded.

(** ** Examples *)
Definition ex_key : str := generate_cache_key 1 ($"example.com").
Definition ex_msg : msg := set_answer [hour_record] empty_msg.
Definition ex_ops : list sys_op :=
  [OPublishCache 0 ex_key (Some ex_msg); OPublishEnabled 1 {| em_state := true; em_duration := 0; em_groups := [] |};
   OSend 0 5; OReceive 0; OReceive 1; OReceive 0; OReceive 1; OTakeCache 1; OTakeEnabled 0].

Example ex_sync : exists s outs,
  sys_run (fun _ => Some []) (fun _ => Some ex_msg) (fun _ => []) (fun _ => Some {| em_state := true; em_duration := 0; em_groups := [] |})
    two_ids sys_init ex_ops = Some (s, outs) /\
  outs = [GotCache 1 {| cm_key := ex_key; cm_response := {| rs_msg := Some ex_msg; rs_reason := $"EXTERNAL_CACHE"; rs_type := CACHED |} |};
          GotEnabled 0 {| em_state := true; em_duration := 0; em_groups := [] |}] /\
  n_send (s_nodes s 0) = [] /\ n_inbox (s_nodes s 1) = [] /\ valid_utf8 ex_key.
Proof.
  eexists _, _. split; [vm_compute; reflexivity|]. split; [reflexivity|]. split; [reflexivity|]. split; [reflexivity|].
  apply C64_keys; [reflexivity|reflexivity|]. repeat constructor.
Qed.

(** a codec for the example: everything about this one message *)
Example ex_age : exists c, get_response (fun _ => Some ex_msg)
    (mput str_eqb (prefix_key ex_key) ([], 0 + get_ttl ex_msg) [])%Z (prefix_key ex_key) 600000000000 600000000000 = Some c /\
  match rs_msg (cm_response c) with Some m => map rr_ttl (m_answer m) = [3000%N] | None => False end.
Proof. eexists. split; vm_compute; reflexivity. Qed.

Example ex_json : json_text ($"na" ++ map ascii_of_N [195; 175; 255; 226; 130; 172]%N)
  = $"na" ++ map ascii_of_N [195; 175; 239; 191; 189; 226; 130; 172]%N.
Proof. reflexivity. Qed.
