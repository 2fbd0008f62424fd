(** Properties C154 and C155: what is said about lines of a source that are not understood. *)
From Coq Require Import String Ascii List Arith Bool NArith ZArith Lia Sorting.Sorted.
From Verif Require Import Str Num StrFacts Parsers ParsersSpec ParsersProofs Position PositionSpec PositionProofs.
Import ListNotations.
Open Scope list_scope.

(** ** C154: the lines that are named *)

(** Every source has its complaints, and only one list of them. *)
Theorem C154_complaints : forall A (p : str -> A + str) ls, exists all, complaints p ls all /\ forall all', complaints p ls all' -> all' = all.
Proof. intros A p ls. exists (bad_from p 0 ls). split; [apply bad_from_complaints|intros; now apply complaints_unique]. Qed.
Print Assumptions C154_complaints.

(** The warnings are the complaints, each with the number of its line: all of them if they are accepted, otherwise those up to the first
    that is not, whose line is named in the error that ends the reading. *)
Theorem C154_reported : forall A (p : str -> A + str) limit scan_err ls all evs r, complaints p ls all ->
  read_source p never never scan_err limit ls = (evs, r) ->
  (accepts limit (length all) ->
     told evs = map (fun c => (fst c, line_text c)) all /\
     r = match scan_err with Some t => Some (S (length ls), ERead t) | None => None end) /\
  (~ accepts limit (length all) ->
     exists before n why after, all = before ++ (n, why) :: after /\ length before = Z.to_nat limit /\
       told evs = map (fun c => (fst c, line_text c)) (before ++ [(n, why)]) /\ r = Some (n, ETooMany)).
Proof.
  intros A p limit scan_err ls all evs r Ha E. apply complaints_unique in Ha. subst all.
  rewrite read_source_walk, walk_fresh in E.
  assert (R : result (S (length ls)) (the_end scan_err) = match scan_err with Some t => Some (S (length ls), ERead t) | None => None end)
    by (destruct scan_err; reflexivity).
  unfold accepts. destruct (Z.eq_dec limit (-1)) as [Hl|Hl].
  - pose proof (walk_unlimited p scan_err limit Hl ls 0%Z 0) as H. rewrite E in H. cbn [Nat.add] in H. rewrite R in H. split; [auto|tauto].
  - pose proof (walk_limited p scan_err limit Hl ls 0%Z 0 ltac:(lia)) as H. rewrite E in H. cbn [Nat.add] in H. rewrite R, Z.sub_0_r in H.
    destruct H as [H1 H2]. split; intros Hn.
    + assert (Hk : length (bad_from p 0 ls) <= Z.to_nat (Z.max limit 0)) by lia.
      rewrite (proj2 (nth_error_None _ _) Hk) in H2. rewrite firstn_all2 in H1 by lia. auto.
    + assert (Hk : Z.to_nat (Z.max limit 0) < length (bad_from p 0 ls)) by lia.
      destruct (nth_error (bad_from p 0 ls) (Z.to_nat (Z.max limit 0))) as [[n why]|] eqn:En; [|apply nth_error_None in En; lia].
      apply nth_error_split in En as [l1 [l2 [Ea El]]]. exists l1, n, why, l2. split; [exact Ea|]. split; [lia|]. split; [|exact H2].
      rewrite H1, Ea. unfold texts. f_equal. rewrite <- El. change ((n, why) :: l2) with ([(n, why)] ++ l2). rewrite app_assoc.
      rewrite firstn_app. rewrite app_length. cbn [length]. replace (S (length l1) - (length l1 + 1)) with 0 by lia.
      rewrite firstn_O, app_nil_r. apply firstn_all2. rewrite app_length. cbn. lia.
Qed.
Print Assumptions C154_reported.

(** What is delivered before a warning about a line is the values of the lines above it. *)
Theorem C154_before : forall A (p : str -> A + str) limit scan_err ls pre n t post r,
  read_source p never never scan_err limit ls = (pre ++ Warned n t :: post, r) -> values p (firstn (n - 1) ls) (given pre).
Proof.
  intros A p limit scan_err ls pre n t post r H. rewrite read_source_walk in H.
  destruct (contents_total (firstn (n - 1) ls)) as [ts Ht]. destruct (collected_total (value p) ts) as [good [bad Hg]].
  destruct (walk_before p scan_err limit ls _ _ _ _ _ _ _ _ _ _ _ H Ht Hg) as [-> _]. exists ts, bad. auto.
Qed.
Print Assumptions C154_before.

(** Naming lines changes nothing in what is read. *)
Theorem C154_same_reading : forall A (p : str -> A + str) limit scan_err ls evs r,
  read_source p never never scan_err limit ls = (evs, r) ->
  fst (parse_series (value p) limit ls (match scan_err with Some _ => ScanErr | None => ScanEOF end)) = given evs /\
  (snd (parse_series (value p) limit ls (match scan_err with Some _ => ScanErr | None => ScanEOF end)) = StopOK <-> r = None).
Proof.
  intros A p limit scan_err ls evs r E. destruct (contents_total ls) as [ts Ht].
  rewrite (parse_series_run _ _ _ _ _ Ht). rewrite read_source_walk in E.
  pose proof (walk_run p scan_err limit ls true 0%Z 0 ts Ht) as H. rewrite E in H. unfold scan_end_of in H. rewrite H. cbn [fst snd].
  split; [reflexivity|]. destruct r as [[n e]|]; cbn [stop_of]; [|tauto]. split; [|discriminate]. destruct e; discriminate.
Qed.
Print Assumptions C154_same_reading.

(** A context that is done ends the reading with its error; until then everything is as without it. *)
Theorem C154_canceled : forall A (p : str -> A + str) dl de limit scan_err ls evs r evs0 r0,
  read_source p dl de scan_err limit ls = (evs, r) -> read_source p never never scan_err limit ls = (evs0, r0) ->
  (evs = evs0 /\ r = r0) \/
  (exists n w post, evs0 = evs ++ post /\ r = Some (n, ECtx w) /\ (if w then dl n = true else de n = true) /\ n <= S (length ls)).
Proof.
  intros A p dl de limit scan_err ls evs r evs0 r0 E E0. rewrite read_source_walk in E, E0.
  pose proof (walk_cut p dl de scan_err limit ls true 0%Z 0) as H. rewrite E, E0 in H. exact H.
Qed.
Print Assumptions C154_canceled.

(** ** C154: the log of a list *)
Lemma values_fun A (p : str -> A + str) ls l l' : values p ls l -> values p ls l' -> l = l'.
Proof.
  intros [ts [b [H1 H2]]] [ts' [b' [H1' H2']]]. rewrite (contents_fun _ _ _ H1' H1) in H2'. eapply collected_fun; eassumption.
Qed.

Lemma say_events_spec (P : nat -> list (list str) -> Prop) : forall evs (done : list (list str)),
  (forall pre n t post, evs = pre ++ Warned n t :: post -> P n (done ++ given pre)) ->
  let '(l, n) := say_events (length (concat done)) evs in
  n = length (concat (done ++ given evs)) /\
  Forall2 (fun m c => exists hosts, P (fst c) hosts /\ m = Warn (length (concat hosts)) ($"parse error: " ++ snd c ++ $", trying to continue")) l (told evs).
Proof.
  induction evs as [|[a|n t] evs IH]; intros done HP; cbn [say_events].
  - cbn [given told flat_map]. rewrite app_nil_r. split; [reflexivity|constructor].
  - specialize (IH (done ++ [a])). rewrite concat_app, app_length in IH. cbn [concat] in IH. rewrite app_nil_r in IH.
    destruct (say_events (length (concat done) + length a) evs) as [l n]. destruct IH as [H1 H2].
    { intros pre n' t post ->. rewrite <- app_assoc. exact (HP (Delivered a :: pre) n' t post eq_refl). }
    rewrite <- app_assoc in H1. split; [exact H1|exact H2].
  - specialize (IH done). destruct (say_events (length (concat done)) evs) as [l m]. destruct IH as [H1 H2].
    { intros pre n' t' post ->. exact (HP (Warned n t :: pre) n' t' post eq_refl). }
    split; [exact H1|]. cbn [told flat_map app]. constructor; [|exact H2]. cbn [fst snd]. exists done. split; [|reflexivity].
    specialize (HP [] n t evs eq_refl). cbn in HP. now rewrite app_nil_r in HP.
Qed.

(** The messages about a list: one warning for each complaint that is told, with the number of the entries of the lines above; at the
    end the number of all entries, and either success or the reason and the line where reading ended. *)
Theorem C154_log : forall (p : str -> list str + str) canceled limit scan_err ls evs r msgs failed,
  read_source p never never scan_err limit ls = (evs, r) -> list_log canceled evs r = (msgs, failed) ->
  exists warnings,
    Forall2 (fun m c => exists hosts, values p (firstn (fst c - 1) ls) hosts /\
                        m = Warn (length (concat hosts)) ($"parse error: " ++ snd c ++ $", trying to continue")) warnings (told evs) /\
    let n := length (concat (given evs)) in
    msgs = Debug 0 $"starting processing of source" :: warnings ++
           [match r with
            | None => Info n $"import succeeded"
            | Some (line, e) => Error n ($"parse error: " ++ line_text (line, match e with ETooMany => $"too many parse errors" | ERead t => $"non resumable parse error: " ++ t | _ => [] end))
            end] /\
    (failed = true <-> r <> None /\ n = 0).
Proof.
  intros p canceled limit scan_err ls evs r msgs failed E H.
  assert (HP : forall pre n t post, evs = pre ++ Warned n t :: post -> (fun n hosts => values p (firstn (n - 1) ls) hosts) n ([] ++ given pre)).
  { intros pre n t post ->. exact (C154_before _ _ _ _ _ _ _ _ _ _ E). }
  pose proof (say_events_spec (fun n hosts => values p (firstn (n - 1) ls) hosts) evs [] HP) as G. cbn [concat length app] in G.
  unfold list_log in H. destruct (say_events 0 evs) as [l n]. destruct G as [Hn Hl]. exists l. split; [exact Hl|]. cbv zeta. rewrite <- Hn.
  assert (K : forall line e, r = Some (line, e) -> e = ETooMany \/ exists t, e = ERead t).
  { intros line e ->. rewrite read_source_walk, walk_fresh in E. destruct (Z.eq_dec limit (-1)) as [El|El].
    - pose proof (walk_unlimited p scan_err limit El ls 0%Z 0) as W. rewrite E in W. destruct W as [_ W].
      unfold the_end in W. destruct scan_err; [|discriminate W]. injection W as _ ->. eauto.
    - pose proof (walk_limited p scan_err limit El ls 0%Z 0 ltac:(lia)) as W. rewrite E in W. destruct W as [_ W].
      destruct (nth_error _ _) as [[k w]|]; [injection W as _ ->; auto|].
      unfold the_end in W. destruct scan_err; [|discriminate W]. injection W as _ ->. eauto. }
  destruct r as [[line e]|].
  - injection H as <- <-. rewrite Nat.eqb_eq. destruct (K line e eq_refl) as [->|[t ->]].
    + rewrite with_position_text. split; [reflexivity|]. split; [split; [discriminate|auto]|tauto].
    + rewrite with_position_text. split; [reflexivity|]. split; [split; [discriminate|auto]|tauto].
  - injection H as <- <-. split; [reflexivity|]. split; [discriminate|tauto].
Qed.
Print Assumptions C154_log.

(** The warnings about a hosts file: as many as there are complaints told, each with the source, the line and the reason. *)
Theorem C154_hosts_log : forall A (p : str -> A + str) opener limit scan_err ls all evs r, complaints p ls all -> accepts limit (length all) ->
  read_source p never never scan_err limit ls = (evs, r) ->
  hosts_file_log opener evs = map (fun c => $"error parsing " ++ opener ++ $": line " ++ print_dec (N.of_nat (fst c)) ++ $": " ++ snd c ++ $", trying to continue") all.
Proof.
  intros A p opener limit scan_err ls all evs r Ha Hc E. destruct (C154_reported _ _ _ _ _ _ _ _ Ha E) as [H _]. destruct (H Hc) as [G _].
  assert (L : forall evs : list (event A), hosts_file_log opener evs = map (fun c => $"error parsing " ++ opener ++ $": " ++ snd c ++ $", trying to continue") (told evs)).
  { clear. induction evs as [|[a|n t] evs IH]; cbn [hosts_file_log told flat_map app map snd]; [reflexivity|exact IH|f_equal; exact IH]. }
  rewrite L, G, map_map. apply map_ext. intros c. cbn [snd]. unfold line_text. rewrite <- !app_assoc. reflexivity.
Qed.
Print Assumptions C154_hosts_log.

(** ** C155: the reasons *)
Section Reasons.
Variable parse_ip : str -> option str.
Variable to_ascii : str -> str + str * str.
Variable compile_err : str -> option str.

Lemma name_err_spec n : match name_err n with Some why => name_reason n why | None => good_name n end.
Proof.
  unfold name_err, name_reason. pose proof (validate_domain_name_spec n) as V. unfold validate_domain_name in V.
  destruct (255 <? length n) eqn:E.
  - apply Nat.ltb_lt in E. auto.
  - apply Nat.ltb_ge in E. destruct (re_match domain_name_regex n).
    + now apply V.
    + right. split; [exact E|]. split; [|reflexivity]. intros H. apply V in H. discriminate H.
Qed.
Lemma name_reason_fun n w w' : name_reason n w -> name_reason n w' -> w = w'.
Proof. intros [[H ->]|[H [_ ->]]] [[H' ->]|[H' [_ ->]]]; try reflexivity; lia. Qed.
Lemma name_reason_bad n w : name_reason n w -> ~ good_name n.
Proof. intros [[H _]|[_ [H _]]] G; [destruct G; lia|auto]. Qed.

Lemma names_err_spec ns : match names_err ns with
  | Some why => exists good n rest, ns = good ++ n :: rest /\ Forall good_name good /\ name_reason n why
  | None => Forall good_name ns
  end.
Proof.
  induction ns as [|n ns IH]; cbn [names_err]; [constructor|]. pose proof (name_err_spec n) as H. destruct (name_err n) as [why|].
  - exists [], n, ns. auto.
  - destruct (names_err ns) as [why|]; [|constructor; auto]. destruct IH as [good [m [rest [-> [H1 H2]]]]].
    exists (n :: good), m, rest. auto.
Qed.

Lemma first_bad_fun good n rest good' n' rest' : good ++ n :: rest = good' ++ n' :: rest' ->
  Forall good_name good -> Forall good_name good' -> ~ good_name n -> ~ good_name n' -> n = n'.
Proof.
  revert good'. induction good as [|g good IH]; intros [|g' good'] H H1 H2 H3 H4; cbn [app] in H; injection H as E H.
  - exact E.
  - subst g'. inversion H2; subst. contradiction.
  - subst g. inversion H1; subst. contradiction.
  - inversion H1; subst. inversion H2; subst. eapply IH; eassumption.
Qed.

Lemma address_part_fun w a a' : address_part w a -> address_part w a' -> a = a'.
Proof. intros H H'. apply address_part_split in H. apply address_part_split in H'. congruence. Qed.

Lemma split_interface w : fst (match index_byte "%"%char w with Some idx => (firstn idx w, skipn (S idx) w) | None => (w, []) end) =
  match index_byte "%"%char w with Some i => firstn i w | None => w end.
Proof. destruct (index_byte "%"%char w); reflexivity. Qed.

(** A line is refused as a line of a hosts file exactly for these reasons. *)
Theorem C155_hosts_file : forall t w names why, words t (w :: names) ->
  (unmarshal_hosts_file parse_ip t = inr why <-> hosts_reason parse_ip (w :: names) why).
Proof.
  intros t w names why Hw. apply fields_words in Hw. unfold unmarshal_hosts_file. rewrite Hw. cbn [hd tl].
  destruct (address_part_total w) as [a Ha]. pose proof (address_part_split w a Ha) as Ea. rewrite <- split_interface in Ea.
  destruct (match index_byte "%"%char w with Some idx => (firstn idx w, skipn (S idx) w) | None => (w, []) end) as [ipStr iface]. cbn [fst] in Ea. subst ipStr.
  split.
  - destruct (parse_ip a) as [ip|] eqn:Ei.
    + pose proof (names_err_spec names) as H. destruct (names_err names) as [y|].
      * intros [= <-]. destruct H as [good [n [rest [-> [H1 H2]]]]]. eapply hr_name; eassumption.
      * destruct names; [|discriminate]. intros [= <-]. eapply hr_none; eassumption.
    + intros [= <-]. eapply hr_ip; eassumption.
  - intros H. remember (w :: names) as ws eqn:Eq. destruct H as [w' a' names' H1 H2|w' a' ip good n rest why' H1 H2 H3 H4|w' a' ip H1 H2];
      injection Eq as -> <-; rewrite (address_part_fun _ _ _ Ha H1), H2.
    + reflexivity.
    + pose proof (names_err_spec (good ++ n :: rest)) as G. destruct (names_err (good ++ n :: rest)) as [y|].
      * destruct G as [good' [n' [rest' [G1 [G2 G3]]]]].
        assert (n = n') as <- by (eapply first_bad_fun; eauto using name_reason_bad).
        f_equal. eapply name_reason_fun; eassumption.
      * apply Forall_app in G as [_ G]. inversion G; subst. apply name_reason_bad in H4. contradiction.
    + reflexivity.
Qed.

Definition ascii_of (h : str) : option str := match to_ascii h with inl a => Some a | inr _ => None end.
Definition compiles_of (h : str) : bool := match compile_err h with None => true | Some _ => false end.

Lemma name_err_validate n : match name_err n with None => true | Some _ => false end = validate_domain_name n.
Proof. unfold name_err, validate_domain_name. destruct (255 <? length n); [reflexivity|]. destruct (re_match domain_name_regex n); reflexivity. Qed.

Lemma names_err_validate ns : match names_err ns with None => true | Some _ => false end = forallb validate_domain_name ns.
Proof.
  induction ns as [|n ns IH]; cbn [names_err forallb]; [reflexivity|]. rewrite <- name_err_validate. destruct (name_err n); [reflexivity|exact IH].
Qed.

Lemma unmarshal_hosts_file_value t : hosts_file_line parse_ip t = match unmarshal_hosts_file parse_ip t with inl e => Some e | inr _ => None end.
Proof.
  unfold hosts_file_line, unmarshal_hosts_file.
  destruct (match index_byte "%"%char (hd [] (fields t)) with Some idx => _ | None => _ end) as [ipStr iface].
  destruct (parse_ip ipStr); [|reflexivity]. rewrite <- names_err_validate. destruct (names_err (tl (fields t))); [reflexivity|].
  destruct (tl (fields t)); reflexivity.
Qed.

Lemma normalize_entry_value h : normalize_hosts_list_entry parse_ip ascii_of compiles_of h =
  match normalize_entry parse_ip to_ascii compile_err h with inl e => Some e | inr _ => None end.
Proof.
  unfold normalize_hosts_list_entry, normalize_entry, ascii_of, compiles_of, validate_hosts_list_entry, list_entry_err.
  assert (V : forall x, match name_err x with None => true | Some _ => false end = validate_domain_name x) by (intros; apply name_err_validate).
  destruct (is_regex h) eqn:Er.
  - set (x := trim_suffix (trim_prefix h $"||") $"^"). destruct (parse_ip x); [reflexivity|].
    destruct (is_regex x); [destruct (compile_err x); reflexivity|]. rewrite <- V. destruct (name_err x); reflexivity.
  - destruct (to_ascii h) as [y|[e y]]; [|reflexivity].
    set (x := trim_suffix (trim_prefix y $"||") $"^"). destruct (parse_ip x); [reflexivity|].
    destruct (is_regex x); [destruct (compile_err x); reflexivity|]. rewrite <- V. destruct (name_err x); reflexivity.
Qed.

Lemma unmarshal_host_value t : host_list_entry parse_ip ascii_of compiles_of t =
  match unmarshal_host parse_ip to_ascii compile_err t with inl e => Some e | inr _ => None end.
Proof.
  unfold host_list_entry, unmarshal_host. rewrite normalize_entry_value. destruct (normalize_entry _ _ _ (hd [] (fields t))); [|reflexivity].
  destruct (tl (fields t)); reflexivity.
Qed.

Lemma unmarshal_wildcard_value t : wildcard_entry t = match unmarshal_wildcard t with inl e => Some e | inr _ => None end.
Proof. unfold wildcard_entry, unmarshal_wildcard. destruct (_ || _); reflexivity. Qed.

Lemma unmarshal_hosts_value t : hosts_line parse_ip ascii_of compiles_of t = value (unmarshal_hosts parse_ip to_ascii compile_err) t.
Proof.
  unfold hosts_line, value, unmarshal_hosts. rewrite unmarshal_host_value, unmarshal_hosts_file_value, unmarshal_wildcard_value.
  destruct (unmarshal_host _ _ _ t); [reflexivity|]. destruct (unmarshal_hosts_file _ t); [reflexivity|]. destruct (unmarshal_wildcard t); reflexivity.
Qed.

Lemma normalize_entry_single w s : normalize_entry parse_ip to_ascii compile_err w = inl s <-> single_entry parse_ip ascii_of compiles_of w s.
Proof.
  rewrite <- (single_entry_spec parse_ip ascii_of compiles_of w s), normalize_entry_value.
  destruct (normalize_entry _ _ _ w); split; congruence.
Qed.

Lemma list_entry_err_spec s : match list_entry_err parse_ip compile_err s with
  | Some t => parse_ip s = None /\ (slashed s /\ compile_err s = Some t \/ ~ slashed s /\ name_reason s t)
  | None => True
  end.
Proof.
  unfold list_entry_err. destruct (parse_ip s); [exact I|]. destruct (is_regex s) eqn:E.
  - apply slashed_spec in E. destruct (compile_err s); auto.
  - assert (~ slashed s) by (intros H; apply slashed_spec in H; congruence). pose proof (name_err_spec s) as H0. destruct (name_err s); auto.
Qed.

Lemma list_entry_err_complete s t : parse_ip s = None -> (slashed s /\ compile_err s = Some t \/ ~ slashed s /\ name_reason s t) ->
  list_entry_err parse_ip compile_err s = Some t.
Proof.
  intros Hp H. unfold list_entry_err. rewrite Hp. destruct H as [[H1 H2]|[H1 H2]].
  - apply slashed_spec in H1. now rewrite H1.
  - destruct (is_regex s) eqn:E; [apply slashed_spec in E; contradiction|]. pose proof (name_err_spec s) as G. destruct (name_err s) as [y|].
    + f_equal. eapply name_reason_fun; eassumption.
    + apply name_reason_bad in H2. contradiction.
Qed.

Lemma unmarshal_host_reason t w names why : words t (w :: names) ->
  (unmarshal_host parse_ip to_ascii compile_err t = inr why <-> single_reason parse_ip to_ascii compile_err (w :: names) why).
Proof.
  intros Hw. apply fields_words in Hw. unfold unmarshal_host. rewrite Hw. cbn [hd tl]. split.
  - destruct (normalize_entry parse_ip to_ascii compile_err w) as [s|y] eqn:E.
    + destruct names as [|x names]; [discriminate|]. intros [= <-]. apply normalize_entry_single in E. eapply sr_column. exact E.
    + intros [= <-]. unfold normalize_entry in E.
      assert (G : forall a, (slashed w /\ a = w \/ ~ slashed w /\ to_ascii w = inl a) ->
        (let host := trim_suffix (trim_prefix a $"||") $"^" in match list_entry_err parse_ip compile_err host with Some t => inr t | None => inl host end) = (inr y : str + str) ->
        single_reason parse_ip to_ascii compile_err (w :: names) y).
      { intros a Hs. cbv zeta. set (s := trim_suffix (trim_prefix a $"||") $"^"). pose proof (list_entry_err_spec s) as L.
        destruct (list_entry_err parse_ip compile_err s) as [z|]; [|discriminate]. intros [= <-].
        assert (U : undecorated a s) by (apply undecorated_spec; reflexivity).
        destruct L as [L [[L1 L2]|[L1 L2]]]; [eapply sr_regex|eapply sr_name]; eassumption. }
      destruct (is_regex w) eqn:Er.
      * apply (G w); [left; split; [now apply slashed_spec|reflexivity]|exact E].
      * assert (~ slashed w) by (intros X; apply slashed_spec in X; congruence).
        destruct (to_ascii w) as [a|[e h]] eqn:Et; [apply (G a); [auto|exact E]|]. injection E as <-. now apply sr_idna.
  - intros H. remember (w :: names) as ws eqn:Eq.
    assert (G : forall w a s z, (slashed w /\ a = w \/ ~ slashed w /\ to_ascii w = inl a) -> undecorated a s -> list_entry_err parse_ip compile_err s = Some z ->
      normalize_entry parse_ip to_ascii compile_err w = inr z).
    { intros w' a s z Hs Hu Hl. apply undecorated_spec in Hu. unfold normalize_entry. destruct Hs as [[H1 ->]|[H1 H2]].
      - apply slashed_spec in H1. rewrite H1, Hu, Hl. reflexivity.
      - destruct (is_regex w') eqn:Er; [apply slashed_spec in Er; contradiction|]. rewrite H2, Hu, Hl. reflexivity. }
    destruct H as [w' names' z h H1 H2|w' names' a s z H1 H2 H3 H4 H5|w' names' a s z H1 H2 H3 H4 H5|w' x names' s H1]; injection Eq as -> <-.
    + unfold normalize_entry. destruct (is_regex w) eqn:Er; [apply slashed_spec in Er; contradiction|]. rewrite H2. reflexivity.
    + rewrite (G w a s z H1 H2); [reflexivity|]. apply list_entry_err_complete; auto.
    + rewrite (G w a s z H1 H2); [reflexivity|]. apply list_entry_err_complete; auto.
    + apply normalize_entry_single in H1. rewrite H1. reflexivity.
Qed.

(** A line of a list has the entries of C11, or it is refused with three reasons, one for each kind of line. *)
Theorem C155_list : forall t w names, words t (w :: names) ->
  (forall hs, unmarshal_hosts parse_ip to_ascii compile_err t = inl hs <-> line_entries parse_ip ascii_of compiles_of t hs) /\
  (forall why, unmarshal_hosts parse_ip to_ascii compile_err t = inr why <->
     exists a b, single_reason parse_ip to_ascii compile_err (w :: names) a /\ hosts_reason parse_ip (w :: names) b /\
       ~ (exists d, w = star :: dot :: d /\ ~ In star d) /\
       why = join (["010"; "009"]%char)
               [$"3 errors occurred:"; $"* " ++ a; $"* " ++ b;
                $"* unsupported wildcard '" ++ w ++ $"': must start with '*.' and contain no other '*'"] ++ ["010"; "010"]%char).
Proof.
  intros t w names Hw. split.
  - intros hs. rewrite <- (hosts_line_spec parse_ip ascii_of compiles_of t hs (words_ink _ _ _ Hw)).
    rewrite unmarshal_hosts_value. unfold value. destruct (unmarshal_hosts _ _ _ t); split; congruence.
  - intros why.
    assert (W : unmarshal_wildcard t = inr ($"unsupported wildcard '" ++ w ++ $"': must start with '*.' and contain no other '*'") /\ ~ (exists d, w = star :: dot :: d /\ ~ In star d) \/
                unmarshal_wildcard t = inl w /\ exists d, w = star :: dot :: d /\ ~ In star d).
    { unfold unmarshal_wildcard. rewrite (fields_words _ _ Hw). cbn [hd].
      destruct (negb (has_prefix w $"*.") || (1 <? count_byte star w)) eqn:E.
      - left. split; [reflexivity|]. intros [d [-> Hd]]. apply count_byte_0 in Hd. simpl in E. rewrite Hd in E. discriminate E.
      - right. split; [reflexivity|]. apply orb_false_iff in E as [E1 E2]. apply negb_false_iff, has_prefix_spec in E1 as [d ->].
        simpl in E2. apply Nat.ltb_ge in E2. exists d. split; [reflexivity|]. apply count_byte_0. lia. }
    unfold unmarshal_hosts. pose proof (fun y => unmarshal_host_reason t w names y Hw) as H1. pose proof (fun y => C155_hosts_file t w names y Hw) as H2.
    destruct (unmarshal_host parse_ip to_ascii compile_err t) as [h|a].
    { split; [discriminate|]. intros [a [b [Ha _]]]. apply H1 in Ha. discriminate Ha. }
    destruct (unmarshal_hosts_file parse_ip t) as [e|b].
    { split; [discriminate|]. intros [a' [b [_ [Hb _]]]]. apply H2 in Hb. discriminate Hb. }
    destruct W as [[-> Hn]|[-> Hn]].
    + split.
      * intros E. exists a, b. split; [now apply H1|]. split; [now apply H2|]. split; [exact Hn|]. apply (f_equal (fun x => match x with inr y => y | inl _ => [] end)) in E. rewrite <- E.
        unfold three_errors. cbn [join]. rewrite <- !app_assoc. reflexivity.
      * intros [a' [b' [Ha [Hb [_ ->]]]]]. apply H1 in Ha. apply H2 in Hb. assert (a = a') as <- by congruence. assert (b = b') as <- by congruence.
        f_equal. unfold three_errors. cbn [join]. rewrite <- !app_assoc. reflexivity.
    + split; [discriminate|]. intros [_ [_ [_ [_ [Hc _]]]]]. contradiction.
Qed.

End Reasons.
Print Assumptions C155_hosts_file.
Print Assumptions C155_list.

(** Examples: a list with entries, comments and three lines that are not understood. *)
Definition ex_ip (s : str) : option str := if str_in s [$"127.0.0.1"; $"10.0.0.1"] then Some s else None.
Definition ex_lines : list str :=
  [$"# adverts"; $"ads.example"; $"two words"; $""; $"127.0.0.1 a.example b.example # both"; $"b@d"; $"*.wild.example"; $"/a(/"].
Definition ex_meaning := unmarshal_hosts ex_ip inl (fun s => if str_eqb s $"/a(/" then Some $"missing closing )" else None).

Example C154_case :
  (exists all, complaints ex_meaning ex_lines all /\ map fst all = [3; 6; 8] /\ accepts 5 (length all) /\ ~ accepts 1 (length all)) /\
  map fst (told (fst (read_source ex_meaning never never None 5 ex_lines))) = [3; 6; 8] /\
  snd (read_source ex_meaning never never None 5 ex_lines) = None /\
  map fst (told (fst (read_source ex_meaning never never None 1 ex_lines))) = [3; 6] /\
  snd (read_source ex_meaning never never None 1 ex_lines) = Some (6, ETooMany) /\
  given (fst (read_source ex_meaning never never None 1 ex_lines)) = [[$"ads.example"]; [$"a.example"; $"b.example"]] /\
  snd (read_source ex_meaning (fun n => 4 <=? n) never None 5 ex_lines) = Some (4, ECtx true) /\
  (let '(evs, r) := read_source ex_meaning never never None 1 ex_lines in
   last (fst (list_log true evs r)) (Debug 0 []) = Error 3 $"parse error: line 6: too many parse errors").
Proof.
  split.
  - exists (bad_from ex_meaning 0 ex_lines). split; [apply bad_from_complaints|]. vm_compute.
    split; [reflexivity|]. split; [right; discriminate|]. intros [H|H]; [discriminate H|apply H; reflexivity].
  - vm_compute. repeat (split; [reflexivity|]). reflexivity.
Qed.

Example C155_case :
  unmarshal_hosts_file ex_ip $"10.0.0.1 ok.example b@d" = inr $"invalid domain name: b@d" /\
  unmarshal_hosts_file ex_ip $"10.0.0.300 ok.example" = inr $"invalid ip: 10.0.0.300" /\
  unmarshal_hosts_file ex_ip $"10.0.0.1" = inr $"expected at least one host following IP" /\
  (exists a b, single_reason ex_ip inl (fun _ => None) [$"two"; $"words"] a /\ hosts_reason ex_ip [$"two"; $"words"] b /\
     a = $"unexpected second column: words" /\ b = $"invalid ip: two").
Proof.
  split; [vm_compute; reflexivity|]. split; [vm_compute; reflexivity|]. split; [vm_compute; reflexivity|].
  exists $"unexpected second column: words", $"invalid ip: two". split.
  - apply (unmarshal_host_reason ex_ip inl (fun _ => None) $"two words" $"two" [$"words"] $"unexpected second column: words").
    + apply fields_iff. vm_compute. reflexivity.
    + vm_compute. reflexivity.
  - split; [|auto]. apply (C155_hosts_file ex_ip $"two words" $"two" [$"words"] $"invalid ip: two").
    + apply fields_iff. vm_compute. reflexivity.
    + vm_compute. reflexivity.
Qed.
