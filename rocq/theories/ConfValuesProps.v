(** Properties of values of the configuration (C142, C143). *)
From Coq Require Import String Ascii List Arith NArith ZArith Bool Lia.
From Verif Require Import Str StrFacts Dns Resolver ResolverFacts Sudn SudnSpec SudnProps Bootstrap BootstrapProps ConfValues ConfValuesSpec.
Import ListNotations.
Open Scope list_scope.

(** ** C142: enumerations and checks *)
Lemma mget_in {A} k (m : list (str * A)) : NoDup (map fst m) -> forall v, mget str_eqb k m = Some v <-> In (k, v) m.
Proof.
  induction m as [|[k' v'] m IH]; intros Hn v; cbn [mget]; [split; [discriminate|intros []]|]. inversion Hn as [|? ? A1 A2]; subst. cbn [fst] in A1.
  destruct (str_eqb_spec k k') as [->|N].
  - split; [intros [= ->]; now left|]. intros [[= ->]|H]; [reflexivity|]. elim A1. apply in_map_iff. now exists (k', v).
  - rewrite (IH A2). split; [intros H; now right|]. intros [[= E _]|H]; [congruence|exact H].
Qed.

Lemma find_in {A} (v : Z) (m : list (A * Z)) : NoDup (map snd m) -> forall s, find (fun p => (snd p =? v)%Z) m = Some (s, v) <-> In (s, v) m.
Proof.
  induction m as [|[s' v'] m IH]; intros Hn s; cbn [find snd]; [split; [discriminate|intros []]|]. inversion Hn as [|? ? A1 A2]; subst. cbn [snd] in A1.
  destruct (Z.eqb_spec v' v) as [->|N].
  - split; [intros [= ->]; now left|]. intros [[= ->]|H]; [reflexivity|]. elim A1. apply in_map_iff. now exists (s, v).
  - rewrite (IH A2). split; [intros H; now right|]. intros [[= _ E]|H]; [congruence|exact H].
Qed.

Lemma enum_ok e table : enum_values e = table -> NoDup (map fst table) -> NoDup (map snd table) ->
  (forall s v, enum_parse e s = Some v <-> In (s, v) table) /\ (forall s v, enum_string e v = Some s <-> In (s, v) table).
Proof.
  intros E H1 H2. split; intros s v.
  - unfold enum_parse. rewrite E. now apply mget_in.
  - unfold enum_string. rewrite E. rewrite <- (find_in v table H2 s). destruct (find _ table) as [[s' v']|] eqn:F; [|split; discriminate].
    apply find_some in F as [_ F]. cbn [snd] in F. apply Z.eqb_eq in F. subst. split; [now intros [= ->]|now intros [= ->]].
Qed.

(** Exactly the documented names are read, as they are written, and values are printed with their names. *)
Theorem C142_enums : forall e table, In (e, table) documented ->
  (forall s v, enum_parse e s = Some v <-> In (s, v) table) /\ (forall s v, enum_string e v = Some s <-> In (s, v) table).
Proof.
  intros e table H. apply enum_ok.
  - cbn [documented In] in H. repeat (destruct H as [H|H]; [injection H as <- <-; reflexivity|]). destruct H.
  - cbn [documented In] in H. repeat (destruct H as [H|H]; [injection H as <- <-; repeat constructor; cbn; intuition discriminate|]). destruct H.
  - cbn [documented In] in H. repeat (destruct H as [H|H]; [injection H as <- <-; repeat constructor; cbn; intuition discriminate|]). destruct H.
Qed.
Print Assumptions C142_enums.

(** What is printed is read again. *)
Theorem C142_round_trip : forall e table s v, In (e, table) documented -> enum_string e v = Some s <-> enum_parse e s = Some v.
Proof. intros e table s v H. destruct (C142_enums e table H) as [A B]. rewrite A. apply B. Qed.
Print Assumptions C142_round_trip.

(** All fields are logged unless configured; configured ones have to be fields, and are logged in their order. *)
Theorem C142_log_fields : forall configured l, fields_in_use configured = Some l <->
  match configured with
  | None => l = [$"clientIP"; $"clientName"; $"responseReason"; $"responseAnswer"; $"question"; $"duration"]
  | Some c => l = c /\ Forall (fun f => In f [$"clientIP"; $"clientName"; $"responseReason"; $"responseAnswer"; $"question"; $"duration"]) c
  end.
Proof.
  intros [c|] l; cbn [fields_in_use]; [|split; [now intros [= <-]|now intros ->]]. revert l.
  assert (forall f, log_field_parse f = Some f <-> In f log_fields) as P.
  { intros f. unfold log_field_parse. destruct (existsb (str_eqb f) log_fields) eqn:E.
    - apply existsb_exists in E as [x [E1 E2]]. apply str_eqb_eq in E2. subst. tauto.
    - split; [discriminate|]. intros H. enough (existsb (str_eqb f) log_fields = true) by congruence. apply existsb_exists. exists f. split; [exact H|apply str_eqb_refl]. }
  assert (forall f g, log_field_parse f = Some g -> g = f) as Q by (intros f g; unfold log_field_parse; destruct (existsb _ _); [now intros [= <-]|discriminate]).
  induction c as [|f c IH]; intros l; cbn [fold_right].
  - split; [intros [= <-]; split; [reflexivity|constructor]|]. now intros [-> _].
  - split.
    + destruct (log_field_parse f) as [g|] eqn:E; [|discriminate]. destruct (fold_right _ _ c) as [r|]; [|discriminate]. intros [= <-].
      pose proof (Q _ _ E) as ->. destruct (proj1 (IH r) eq_refl) as [-> F]. split; [reflexivity|]. constructor; [now apply P|exact F].
    + intros [-> F]. inversion F as [|? ? A B]; subst. apply P in A. rewrite A. now rewrite (proj2 (IH c) (conj eq_refl B)).
Qed.
Print Assumptions C142_log_fields.

Lemma handshake_max min client : forall best v,
  (match best with Some b => min <= b <= 772 | None => True end)%Z ->
  fold_left (fun best v => if (min <=? v)%Z && (v <=? 772)%Z then match best with Some b => if (b <? v)%Z then Some v else best | None => Some v end else best) client best = Some v ->
  (min <= v <= 772)%Z.
Proof.
  induction client as [|c client IH]; intros best v Hb; cbn [fold_left].
  - intros ->. exact Hb.
  - apply IH. destruct (Z.leb_spec min c); cbn [andb]; [|exact Hb]. destruct (Z.leb_spec c 772); [|exact Hb]. destruct best as [b|]; [destruct (b <? c)%Z; [lia|exact Hb]|lia].
Qed.

(** Whatever is configured, no connection is served with a version below 1.2; a configured version of at least 1.2 is the least one served, and a
    text which is no version is refused. *)
Theorem C142_tls : forall configured,
  (served_tls configured = None <-> exists s, configured = Some s /\ ~ In s [$"1.0"; $"1.1"; $"1.2"; $"1.3"]) /\
  (forall min client v, served_tls configured = Some min -> handshake min client = Some v -> v = 771%Z \/ v = 772%Z) /\
  (configured = Some $"1.3" -> forall min client v, served_tls configured = Some min -> handshake min client = Some v -> v = 772%Z).
Proof.
  intros configured.
  assert (In (tls_version_enum, [($"1.0", 769); ($"1.1", 770); ($"1.2", 771); ($"1.3", 772)]%Z) documented) as Hd by (cbn; tauto).
  destruct (C142_enums _ _ Hd) as [P _]. repeat split.
  - destruct configured as [s|]; cbn [served_tls]; [|discriminate]. destruct (enum_parse tls_version_enum s) as [v|] eqn:E; [discriminate|]. intros _. exists s. split; [reflexivity|].
    intros H. cbn [In] in H. repeat (destruct H as [<-|H]; [vm_compute in E; discriminate|]). destruct H.
  - intros [s [-> H]]. cbn [served_tls]. destruct (enum_parse tls_version_enum s) as [v|] eqn:E; [|reflexivity]. elim H. apply P in E.
    cbn [In] in E. repeat (destruct E as [E|E]; [injection E as <- _; cbn; tauto|]). destruct E.
  - intros min client v E H. assert (771 <= min)%Z as Hm.
    { destruct configured as [s|]; cbn [served_tls] in E; [destruct (enum_parse tls_version_enum s); [|discriminate]|]; injection E as <-; unfold validate_tls; [destruct (Z.ltb_spec z 771); lia|cbn; lia]. }
    apply handshake_max in H; [lia|exact I].
  - intros -> min client v [= <-] H. apply handshake_max in H; [|exact I]. change (validate_tls 772) with 772%Z in H. lia.
Qed.
Print Assumptions C142_tls.

(** The timeout in use is never zero or negative; a positive one is used as configured. *)
Theorem C142_timeout : forall t, (0 < validate_timeout t)%Z /\ (0 < t -> validate_timeout t = t)%Z.
Proof. intros t. unfold validate_timeout. destruct (Z.ltb_spec 0 t); split; lia. Qed.
Print Assumptions C142_timeout.

Example C142_example :
  enum_parse query_log_type_enum $"csv-client" = Some 5%Z /\ enum_parse query_log_type_enum $"csvcsv" = None /\ enum_parse ip_version_enum $"V4" = None /\
  enum_string upstream_strategy_enum 2 = Some $"random" /\ enum_string upstream_strategy_enum 3 = None /\
  served_tls (Some $"1.1") = Some 771%Z /\ handshake 771 [769; 770]%Z = None /\ handshake 771 [770; 772; 771]%Z = Some 772%Z /\
  validate_timeout (-5) = 2000000000%Z /\ fields_in_use (Some [$"duration"; $"question"]) = Some [$"duration"; $"question"] /\ fields_in_use (Some [$"Question"]) = None.
Proof. repeat split; reflexivity. Qed.

(** ** C143: filtered types *)
Section Types.
Variable types : str -> option N.

(** A list of names of types is accepted exactly if all are known; other values are refused. *)
Theorem C143_read : forall n l, qtypes_node types n = Some l <->
  exists names, n = YList (map YText names) /\ Forall2 (fun s t => types s = Some t) names l.
Proof.
  intros n l. destruct n as [s|ns|f]; cbn [qtypes_node]; [split; [discriminate|intros [? [? _]]; discriminate]| |split; [discriminate|intros [? [? _]]; discriminate]].
  rewrite (read_nodes_iff (qtype_node types) (fun n t => exists s, n = YText s /\ types s = Some t)).
  - split.
    + induction 1 as [|x t ns l [s [-> Hs]] _ [names [[= E] F]]]; [exists []; split; [reflexivity|constructor]|].
      exists (s :: names). split; [cbn [map]; now rewrite <- E|now constructor].
    + intros [names [[= ->] F]]. induction F; cbn [map]; constructor; eauto.
  - intros x t. destruct x as [s|l'|f]; cbn [qtype_node].
    + split; [intros H; now exists s|]. intros [s' [[= <-] H]]. exact H.
    + split; [discriminate|]. intros [s' [H _]]. discriminate.
    + split; [discriminate|]. intros [s' [H _]]. discriminate.
Qed.

(** A query is answered with an empty message exactly if the name of its type is listed; all others are passed on. *)
Theorem C143_filtered : forall names l req q qs next,
  qtypes_node types (YList (map YText names)) = Some l -> m_question (req_msg req) = q :: qs ->
  ((exists s, In s names /\ types s = Some (q_type q)) ->
     exec (filtering_resolve l req) next = Some (Ok {| rs_msg := Some (own_reply req q 0 []); rs_reason := []; rs_type := FILTERED |}) /\
     forwarded (filtering_resolve l req) next = []) /\
  ((forall s, In s names -> types s <> Some (q_type q)) -> exec (filtering_resolve l req) next = next req /\ forwarded (filtering_resolve l req) next = [req]).
Proof.
  intros names l req q qs next H Hq. apply C143_read in H as [names' [E F]]. injection E as E.
  assert (names' = names) as ->. { clear - E. revert names' E. induction names as [|s names IH]; intros [|s' names'] E; try discriminate; [reflexivity|]. injection E as <- E. f_equal. now apply IH. }
  assert (In (q_type q) l <-> exists s, In s names /\ types s = Some (q_type q)) as Hi.
  { clear - F. induction F as [|s t names l Hs F IH]; [split; [intros []|intros [s [[] _]]]|]. split.
    - intros [<-|Hi]; [exists s; split; [now left|exact Hs]|]. destruct (proj1 IH Hi) as [s' [A B]]. exists s'. split; [now right|exact B].
    - intros [s' [[<-|Hi] B]]; [left; congruence|]. right. apply IH. now exists s'. }
  destruct (C41_filtered l req q qs next Hq) as [A B]. split.
  - intros Hs. apply Hi in Hs. destruct (A Hs). split; assumption.
  - intros Hs. destruct B as [B1 B2]; [|split; assumption]. intros Hn. apply Hi in Hn as [s [H1 H2]]. exact (Hs s H1 H2).
Qed.
End Types.
Print Assumptions C143_read.
Print Assumptions C143_filtered.

Definition ex_types (s : str) : option N := if str_eqb s $"A" then Some 1%N else if str_eqb s $"AAAA" then Some 28%N else if str_eqb s $"MX" then Some 15%N else None.
Example C143_example :
  qtypes_node ex_types (YList [YText $"AAAA"; YText $"MX"]) = Some [28%N; 15%N] /\ qtypes_node ex_types (YList [YText $"aaaa"]) = None /\
  qtypes_node ex_types (YText $"AAAA") = None /\
  exec (filtering_resolve [28%N; 15%N] (new_request 1 $"example.com" 28)) (fun _ => None) <> None /\
  exec (filtering_resolve [28%N; 15%N] (new_request 1 $"example.com" 1)) (fun _ => None) = None.
Proof. repeat split; try reflexivity. discriminate. Qed.
