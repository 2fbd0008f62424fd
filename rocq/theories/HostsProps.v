(** Properties of the hosts-file resolver (C46, C83–C86). *)
From Coq Require Import String Ascii List Arith Bool NArith ZArith Lia Permutation.
From Verif Require Import Str StrFacts StringCache StringCacheSpec Parsers ParsersSpec ParsersProofs Num Dns Resolver ResolverFacts
  Arpa ArpaSpec ArpaProofs Blocking BlockingSpec BlockingProofs SudnSpec Hosts HostsSpec HostsProofs.
Import ListNotations.

Section Loads.
Variable parse_ip : str -> option str.
Variable ip_of_text : str -> ip.
Variable cfg : hosts_cfg.

(** One attempt to load: the sources, and the order in which the entries arrive. *)
Definition attempt : Type := (list source * list host_entry)%type.
Definition succeeds (l : attempt) : Prop := exists ess, Forall2 (source_means parse_ip ip_of_text cfg) (fst l) ess.
(** The entries arrive in an interleaving of the sources' entries. *)
Definition arrives (l : attempt) : Prop := forall ess, Forall2 (source_means parse_ip ip_of_text cfg) (fst l) ess -> merge ess (snd l).

Definition load (d : split_data) (l : attempt) : split_data := fst (load_sources parse_ip ip_of_text cfg (fst l) (snd l) d).
Definition table_after (ls : list attempt) : split_data := fold_left load ls empty_split.

(** The table answers as the entries [es] say. *)
Definition table_means (d : split_data) (es : list host_entry) : Prop :=
  forall t n a, split_get d t n = Some a <-> resolves t es n a.

Lemma succeeds_iff l : succeeds l <-> existsb (fun s => snd (load_source parse_ip ip_of_text cfg s)) (fst l) = false.
Proof.
  unfold succeeds. destruct l as [ss ar]. cbn [fst]. clear ar. induction ss as [|s ss IH]; cbn [existsb].
  - split; auto. intros _. exists []. constructor.
  - rewrite orb_false_iff, <- IH. split.
    + intros [ess H]. inversion H as [|s0 es ss0 ess' Hs Hss]; subst. apply load_source_spec in Hs. rewrite Hs. split; eauto.
    + intros [H1 [ess H2]]. destruct (load_source parse_ip ip_of_text cfg s) as [es b] eqn:E. cbn in H1. subst b.
      exists (es :: ess). constructor; auto. now apply load_source_spec.
Qed.

(** ** C46: loading is all or nothing: after any history of attempts the table is that of
    the last attempt in which all sources could be loaded. *)
Theorem C46_all_or_nothing : hf_enabled cfg = true -> forall ls,
  (exists l, last_with succeeds ls l /\ table_means (table_after ls) (snd l)) \/
  ((forall l, In l ls -> ~ succeeds l) /\ table_means (table_after ls) []).
Proof.
  intros He ls. induction ls as [|l ls IH] using rev_ind.
  - right. split; [intros l []|]. intros t n a. apply (split_get_spec t n []).
  - unfold table_after. rewrite fold_left_app. fold (table_after ls). cbn [fold_left]. unfold load at 1 2, load_sources. rewrite He. cbn [negb].
    pose proof (succeeds_iff l) as Hs. destruct (existsb _ (fst l)).
    + assert (~ succeeds l) as Hn by (intros H; apply Hs in H; discriminate). cbn [fst].
      destruct IH as [[l' [H1 H2]]|[H1 H2]].
      * left. exists l'. split; auto. apply last_with_snoc. auto.
      * right. split; auto. intros x Hx. apply in_app_or in Hx as [Hx|[<-|[]]]; auto.
    + left. exists l. split; [apply last_with_snoc; left; split; auto; now apply Hs|]. cbn [fst]. intros t n a. apply split_get_spec.
Qed.

(** Whether an attempt succeeds does not depend on the order of arrival or on the table. *)
Theorem C46_error_reported : hf_enabled cfg = true -> forall l d,
  snd (load_sources parse_ip ip_of_text cfg (fst l) (snd l) d) = true <-> ~ succeeds l.
Proof.
  intros He l d. unfold load_sources. rewrite He. cbn [negb]. rewrite succeeds_iff. destruct (existsb _ (fst l)); cbn; split; congruence.
Qed.

(** ** C86: with loopback filtering no loopback address, and never an entry bound to an
    interface, gets into the table; every address comes from a line of a source. *)
Theorem C86_only_served_entries : forall ls, (forall l, In l ls -> arrives l) ->
  forall t n a, split_get (table_after ls) t n = Some a ->
  exists l s ss text lines contents_of e, In l ls /\ In s (fst l) /\ s = Lines lines ss /\ contents lines contents_of /\ In text contents_of /\
    host_line_means parse_ip ip_of_text text e /\ served (hf_filter cfg) e /\ a = he_ip e /\ In n (he_name e :: he_aliases e) /\
    (hf_filter cfg = true -> ~ loopback a).
Proof.
  intros ls Har t n a H.
  assert (exists es, split_get (fold_left split_add es empty_split) t n = Some a /\
    (es = [] \/ exists l, In l ls /\ succeeds l /\ es = snd l)) as [es [Hg Hes]].
  { clear Har. revert H. induction ls as [|l ls IH] using rev_ind.
    - intros H. exists []. auto.
    - unfold table_after. rewrite fold_left_app. fold (table_after ls). cbn [fold_left]. unfold load at 1, load_sources.
      assert (split_get (table_after ls) t n = Some a -> exists es : list host_entry,
        split_get (fold_left split_add es empty_split) t n = Some a /\ (es = [] \/ (exists l0, In l0 (ls ++ [l]) /\ succeeds l0 /\ es = snd l0))) as Hold.
      { intros H. destruct (IH H) as [es [H1 [H2|[l' [H2 H3]]]]]; exists es; split; auto. right. exists l'. split; auto. apply in_or_app. now left. }
      destruct (negb (hf_enabled cfg)); [exact Hold|]. pose proof (succeeds_iff l) as Hs. destruct (existsb _ (fst l)); [exact Hold|].
      cbn [fst]. intros H. exists (snd l). split; auto. right. exists l. split; [apply in_or_app; right; now left|]. split; auto. now apply Hs. }
  apply split_get_spec in Hg.
  assert (exists e, In e es /\ a = he_ip e /\ In n (he_name e :: he_aliases e)) as [e [Hin [Ha Hn]]].
  { destruct Hg as [[e [L ->]]|[_ [e [L ->]]]]; apply last_with_In in L as [L1 [_ L2]]; exists e; split; auto; split; auto; [now left|now right]. }
  destruct Hes as [->|[l [Hl [[ess Hs] ->]]]]; [destruct Hin|].
  destruct (merge_In _ _ _ (Har l Hl ess Hs) Hin) as [es' [Hes' Hie]].
  assert (exists s, In s (fst l) /\ source_means parse_ip ip_of_text cfg s es') as [s [Hsin Hsm]].
  { clear -Hs Hes'. induction Hs as [|s x ss xs Hs0 Hs IH]; [destruct Hes'|]. destruct Hes' as [<-|He].
    - exists s. split; auto. now left.
    - destruct (IH He) as [s' [H1 H2]]. exists s'. split; auto. now right. }
  destruct Hsm as [lines [ts [all [bad [-> [Hc [Hd [_ Hsel]]]]]]]].
  assert (In e all /\ served (hf_filter cfg) e) as [Hall Hserved].
  { clear -Hsel Hie. induction Hsel as [|x l l' Hx Hs IH|x l l' Hx Hs IH]; [destruct Hie| |].
    - destruct Hie as [<-|Hie]; [split; auto; now left|]. destruct (IH Hie). split; auto. now right.
    - destruct (IH Hie). split; auto. now right. }
  assert (exists text, In text ts /\ host_line_means parse_ip ip_of_text text e) as [text [Ht Hm]].
  { clear -Hd Hall. induction Hd as [|t x ts es n Hx Hd IH|t ts es n Hx Hd IH]; [destruct Hall| |].
    - destruct Hall as [<-|Hall]; [exists t; split; auto; now left|]. destruct (IH Hall) as [t' [H1 H2]]. exists t'. split; auto. now right.
    - destruct (IH Hall) as [t' [H1 H2]]. exists t'. split; auto. now right. }
  exists l, (Lines lines ScanEOF), ScanEOF, text, lines, ts, e. repeat (split; auto). intros Hf. rewrite Ha. now apply Hserved.
Qed.
End Loads.
Print Assumptions C46_all_or_nothing.
Print Assumptions C46_error_reported.
Print Assumptions C86_only_served_entries.

Lemma hosts_response_reply req q qs ans : m_question (req_msg req) = q :: qs ->
  hosts_response req ans = {| rs_msg := Some (own_reply req q 0 ans); rs_reason := $"HOSTS FILE"; rs_type := HOSTSFILE |}.
Proof.
  intros E. unfold hosts_response, own_reply, set_answer, set_reply, empty_msg. cbn. rewrite E.
  destruct (m_opcode (req_msg req) =? 0)%N; reflexivity.
Qed.

(** Address queries are answered from the table, and passed on if it has nothing. *)
Theorem C46_answer : forall cfg d es o4 o6 req q qs n next,
  hf_enabled cfg = true -> table_means d es -> m_question (req_msg req) = q :: qs -> q_type q <> 12%N -> plain_name (q_name q) n ->
  (forall a, resolves (q_type q) es n a ->
     forwarded (hosts_resolve cfg d o4 o6 req) next = [] /\
     exists r, exec (hosts_resolve cfg d o4 o6 req) next =
       Some (Ok {| rs_msg := Some (own_reply req q 0 [r]); rs_reason := $"HOSTS FILE"; rs_type := HOSTSFILE |}) /\
       rr_name r = q_name q /\ rr_type r = q_type q /\ rr_class r = 1%N /\ rr_ttl r = hf_ttl cfg /\
       rr_data r = if (q_type q =? 1)%N then DA a else DAAAA a) /\
  ((forall a, ~ resolves (q_type q) es n a) ->
     forwarded (hosts_resolve cfg d o4 o6 req) next = [req] /\ exec (hosts_resolve cfg d o4 o6 req) next = next req).
Proof.
  intros cfg d es o4 o6 req q qs n next He Hd Hq Ht Hn. apply plain_name_iff in Hn. change (n = extract_domain q) in Hn.
  unfold hosts_resolve. rewrite He, Hq. cbn [negb]. unfold hosts_reverse. change type_PTR with 12%N. apply N.eqb_neq in Ht. rewrite Ht. cbn [negb].
  rewrite <- Hn. split.
  - intros a Ha. apply Hd in Ha. rewrite Ha. split; [reflexivity|]. cbn [exec]. rewrite (hosts_response_reply req q qs) by auto.
    eexists. split; [reflexivity|]. repeat split.
  - intros Hno. destruct (split_get d (q_type q) n) as [a|] eqn:E; [apply Hd in E; elim (Hno a E)|].
    split; [apply forwarded_pass|apply exec_pass].
Qed.
Print Assumptions C46_answer.

(** ** C46: the address is that of the last entry for the name — if the name is not both
    the name of one entry and an alias in another (of the same family). *)
Theorem C46_last_entry_partial : forall t es n a,
  (forall e e', In e es -> In e' es -> main_for t n e -> ~ alias_for t n e') ->
  (resolves t es n a <->
   exists e, last_with (fun e => of_family t (he_ip e) /\ In n (he_name e :: he_aliases e)) es e /\ a = he_ip e).
Proof.
  intros t es n a Hd. set (P := fun e => of_family t (he_ip e) /\ In n (he_name e :: he_aliases e)).
  assert (forall e, P e <-> main_for t n e \/ alias_for t n e) as HP.
  { intros e. unfold P, main_for, alias_for. cbn. tauto. }
  assert (forall Q e, (forall x, In x es -> (P x <-> Q x)) -> last_with P es e <-> last_with Q es e) as Hext.
  { intros Q e Hq. split; intros [pre [post [E [H1 H2]]]]; exists pre, post; split; auto;
      (split; [apply Hq; auto; rewrite E; apply in_or_app; right; now left|]); intros x Hx Hp; apply (H2 x Hx); apply Hq; auto;
      rewrite E; apply in_or_app; right; now right. }
  destruct (last_with_exists (main_for t n) es (main_for_em t n)) as [[e0 He0]|Hnone].
  - apply last_with_In in He0 as [Hin0 Hm0].
    assert (forall x, In x es -> (P x <-> main_for t n x)) as Hpm.
    { intros x Hx. rewrite HP. split; [|auto]. intros [H|H]; auto. elim (Hd e0 x Hin0 Hx Hm0 H). }
    unfold resolves. split.
    + intros [[e [H1 H2]]|[H1 _]]; [|elim (H1 e0 Hin0 Hm0)]. exists e. split; auto. now apply (Hext (main_for t n)).
    + intros [e [H1 H2]]. left. exists e. split; auto. now apply (Hext (main_for t n)).
  - assert (forall x, In x es -> (P x <-> alias_for t n x)) as Hx.
    { intros x Hi. rewrite HP. split; [|auto]. intros [H|H]; auto. elim (Hnone x Hi H). }
    unfold resolves. split.
    + intros [[e [H1 _]]|[_ [e [H1 H2]]]]; [apply last_with_In in H1 as [H1 H1']; elim (Hnone e H1 H1')|].
      exists e. split; auto. now apply (Hext (alias_for t n)).
    + intros [e [H1 H2]]. right. split; auto. exists e. split; auto. now apply (Hext (alias_for t n)).
Qed.
Print Assumptions C46_last_entry_partial.

(** ** Concrete case *)
Definition ex_ip_text (s : str) : option str :=
  if str_in s [$"10.0.0.1"; $"10.0.0.2"; $"127.0.0.1"; $"fd00::1"] then Some s else None.
Definition ex_ip_of (s : str) : ip :=
  if str_eqb s $"10.0.0.1" then IP4 [10;0;0;1]%N else if str_eqb s $"10.0.0.2" then IP4 [10;0;0;2]%N
  else if str_eqb s $"127.0.0.1" then IP4 [127;0;0;1]%N else IP6 [253;0;0;0;0;0;0;0;0;0;0;0;0;0;0;1]%N.
Definition hosts_ex_cfg : hosts_cfg := {| hf_enabled := true; hf_ttl := 3600; hf_filter := true; hf_max_errors := 1 |}.
Definition hosts_ex_lines : list str :=
  [$"127.0.0.1 localhost"; $"10.0.0.1 nas.lan nas # the NAS"; $"bad line"; $"fd00::1 nas.lan"; $"10.0.0.2 backup nas.lan"].
Definition ent i n al : host_entry := {| he_ip := ex_ip_of i; he_iface := []; he_name := n; he_aliases := al |}.
Definition hosts_ex_entries : list host_entry :=
  [ent $"10.0.0.1" $"nas.lan" [$"nas"]; ent $"fd00::1" $"nas.lan" []; ent $"10.0.0.2" $"backup" [$"nas.lan"]].

Example C46_example :
  let good := ([Lines hosts_ex_lines ScanEOF], hosts_ex_entries) : attempt in
  let bad := ([Lines hosts_ex_lines ScanEOF; Unopenable], []) : attempt in
  load_source ex_ip_text ex_ip_of hosts_ex_cfg (Lines hosts_ex_lines ScanEOF) = (hosts_ex_entries, false) /\
  succeeds ex_ip_text ex_ip_of hosts_ex_cfg good /\ ~ succeeds ex_ip_text ex_ip_of hosts_ex_cfg bad /\
  split_get (table_after ex_ip_text ex_ip_of hosts_ex_cfg [good; bad]) 1 $"nas" = Some (IP4 [10;0;0;1]%N) /\
  split_get (table_after ex_ip_text ex_ip_of hosts_ex_cfg [good; bad]) 28 $"nas.lan" = Some (ex_ip_of $"fd00::1") /\
  split_get (table_after ex_ip_text ex_ip_of hosts_ex_cfg [good; bad]) 1 $"localhost" = None.
Proof.
  cbv zeta. split; [vm_compute; reflexivity|]. split; [apply succeeds_iff; vm_compute; reflexivity|].
  split; [rewrite succeeds_iff; vm_compute; discriminate|]. repeat split.
Qed.

(** The last entry for nas.lan is 10.0.0.2, but 10.0.0.1 is answered. *)
Theorem C46_last_entry_refuted : exists t es n a,
  resolves t es n a /\
  ~ exists e, last_with (fun e => of_family t (he_ip e) /\ In n (he_name e :: he_aliases e)) es e /\ a = he_ip e.
Proof.
  exists 1%N, hosts_ex_entries, $"nas.lan", (IP4 [10;0;0;1]%N). split; [apply split_get_spec; reflexivity|].
  intros [e [[pre [post [E [[Hf Hn] Hl]]]] Ha]].
  set (e3 := ent $"10.0.0.2" $"backup" [$"nas.lan"]) in *.
  assert (In e3 (e :: post) -> False) as Hno.
  { intros [->|Hi]; [discriminate|]. apply (Hl e3 Hi). split; [left; split; [reflexivity|eexists; reflexivity]|]. right. now left. }
  apply Hno. destruct pre as [|x1 [|x2 [|x3 [|x4 pre]]]]; cbn in E; injection E as E1; subst.
  - right. right. now left.
  - right. now left.
  - now left.
  - discriminate.
  - discriminate.
Qed.
Print Assumptions C46_last_entry_refuted.

(** ** C84: the letter case of the query does not matter; that of the hosts file does. *)
Theorem C84_letter_case_partial : forall cfg d es o4 o6 req q qs n next a,
  hf_enabled cfg = true -> table_means d es -> m_question (req_msg req) = q :: qs -> q_type q <> 12%N -> plain_name (q_name q) n ->
  (** the spelling in the file is in lower case and without final dot: *)
  resolves (q_type q) es n a ->
  exists r, exec (hosts_resolve cfg d o4 o6 req) next =
     Some (Ok {| rs_msg := Some (own_reply req q 0 [r]); rs_reason := $"HOSTS FILE"; rs_type := HOSTSFILE |}) /\
     rr_data r = if (q_type q =? 1)%N then DA a else DAAAA a.
Proof.
  intros cfg d es o4 o6 req q qs n next a He Hd Hq Ht Hn Ha.
  destruct (C46_answer cfg d es o4 o6 req q qs n next He Hd Hq Ht Hn) as [H _]. destruct (H a Ha) as [_ [r [H1 H2]]].
  exists r. split; auto. tauto.
Qed.
Print Assumptions C84_letter_case_partial.

(** An entry whose name has an upper-case letter or a final dot is never used. *)
Theorem C84_letter_case_refuted : exists cfg es, hf_enabled cfg = true /\
  (exists e, In e es /\ he_name e = $"NAS" /\ good_name (he_name e)) /\
  forall d o4 o6 id n next, table_means d es -> In n [$"NAS"; $"nas"] ->
    forwarded (hosts_resolve cfg d o4 o6 (new_request id n 1)) next = [new_request id n 1].
Proof.
  exists hosts_ex_cfg, [ent $"10.0.0.1" $"NAS" []]. split; [reflexivity|]. split.
  - eexists. split; [now left|]. split; [reflexivity|]. apply validate_domain_name_spec. reflexivity.
  - intros d o4 o6 id n next Hd Hn.
    assert (exists q, m_question (req_msg (new_request id n 1)) = [q] /\ q_type q = 1%N /\ plain_name (q_name q) $"nas") as [q [Hq [Ht Hp]]].
    { eexists. split; [reflexivity|]. split; [reflexivity|]. apply plain_name_iff. destruct Hn as [<-|[<-|[]]]; reflexivity. }
    refine (proj1 (proj2 (C46_answer hosts_ex_cfg d _ o4 o6 _ q [] $"nas" next eq_refl Hd Hq _ Hp) _)); [rewrite Ht; discriminate|].
    intros a Ha. rewrite Ht in Ha. apply split_get_spec in Ha. vm_compute in Ha. discriminate.
Qed.
Print Assumptions C84_letter_case_refuted.

(** ** C83: a query during a reload is answered from the old or the new table.  False,
    since the four parts of the table are replaced one after the other: a name that
    changes from alias to name (or is both) gets an answer from neither. *)
Theorem C83_atomic_reload_refuted : exists es es' n, forall old new, table_means old es -> table_means new es' ->
  old = fold_left split_add es empty_split -> new = fold_left split_add es' empty_split ->
  exists h4 a4 h6 a6,
    split_get (torn h4 a4 h6 a6 old new) 1 n <> split_get old 1 n /\ split_get (torn h4 a4 h6 a6 old new) 1 n <> split_get new 1 n.
Proof.
  exists [ent $"10.0.0.1" $"nas" []], [ent $"10.0.0.1" $"server" [$"nas"]], $"nas".
  intros old new _ _ -> ->. exists true, false, false, false. vm_compute. split; discriminate.
Qed.
Print Assumptions C83_atomic_reload_refuted.

(** True for names which are aliases in neither, or names in neither. *)
Theorem C83_atomic_reload_partial : forall es es' t n h4 a4 h6 a6,
  (forall e, In e es \/ In e es' -> ~ alias_for t n e) \/ (forall e, In e es \/ In e es' -> ~ main_for t n e) ->
  let old := fold_left split_add es empty_split in let new := fold_left split_add es' empty_split in
  let got := split_get (torn h4 a4 h6 a6 old new) t n in got = split_get old t n \/ got = split_get new t n.
Proof.
  intros es es' t n h4 a4 h6 a6 H old new got.
  assert ((t = 1 \/ t = 28)%N \/ (t <> 1 /\ t <> 28)%N) as [Ht|[Ht1 Ht2]] by lia.
  2:{ left. unfold got, split_get. apply N.eqb_neq in Ht1, Ht2. unfold type_A, type_AAAA. now rewrite Ht1, Ht2. }
  assert (forall d, split_get d t n = family_get (fam t d) n) as Hg by (intros d; unfold split_get, fam; destruct Ht as [->| ->]; reflexivity).
  unfold got. rewrite !Hg. unfold family_get.
  pose proof (table_hosts t n es Ht) as H1. pose proof (table_hosts t n es' Ht) as H1'.
  pose proof (table_aliases t n es Ht) as H2. pose proof (table_aliases t n es' Ht) as H2'.
  fold old in H1, H2. fold new in H1', H2'.
  assert (exists b, fd_hosts (fam t (torn h4 a4 h6 a6 old new)) = fd_hosts (fam t (if b : bool then new else old))) as [bh ->].
  { unfold fam, torn. destruct Ht as [->| ->]; cbn; [exists h4; now destruct h4|exists h6; now destruct h6]. }
  assert (exists b, fd_aliases (fam t (torn h4 a4 h6 a6 old new)) = fd_aliases (fam t (if b : bool then new else old))) as [ba ->].
  { unfold fam, torn. destruct Ht as [->| ->]; cbn; [exists a4; now destruct a4|exists a6; now destruct a6]. }
  destruct H as [H|H].
  - assert (mget str_eqb n (fd_aliases (fam t old)) = None) as E.
    { destruct (mget str_eqb n (fd_aliases (fam t old))); auto. destruct H2 as [e [L _]]. apply last_with_In in L as [L1 L2]. elim (H e (or_introl L1) L2). }
    assert (mget str_eqb n (fd_aliases (fam t new)) = None) as E'.
    { destruct (mget str_eqb n (fd_aliases (fam t new))); auto. destruct H2' as [e [L _]]. apply last_with_In in L as [L1 L2]. elim (H e (or_intror L1) L2). }
    destruct bh; [right|left]; destruct ba; rewrite ?E, ?E'; reflexivity.
  - assert (mget str_eqb n (fd_hosts (fam t old)) = None) as E.
    { destruct (mget str_eqb n (fd_hosts (fam t old))) as [[? ?]|]; auto. destruct H1 as [e [L _]]. apply last_with_In in L as [L1 L2]. elim (H e (or_introl L1) L2). }
    assert (mget str_eqb n (fd_hosts (fam t new)) = None) as E'.
    { destruct (mget str_eqb n (fd_hosts (fam t new))) as [[? ?]|]; auto. destruct H1' as [e [L _]]. apply last_with_In in L as [L1 L2]. elim (H e (or_intror L1) L2). }
    destruct ba; [right|left]; destruct bh; rewrite ?E, ?E'; reflexivity.
Qed.
Print Assumptions C83_atomic_reload_partial.

Example C83_example :
  let old := fold_left split_add [ent $"10.0.0.1" $"nas" []] empty_split in
  let new := fold_left split_add [ent $"10.0.0.2" $"nas" []] empty_split in
  (forall e, In e [ent $"10.0.0.1" $"nas" []] \/ In e [ent $"10.0.0.2" $"nas" []] -> ~ alias_for 1 $"nas" e) /\
  split_get (torn true false false true old new) 1 $"nas" = Some (IP4 [10;0;0;2]%N) /\ split_get old 1 $"nas" = Some (IP4 [10;0;0;1]%N).
Proof.
  cbv zeta. split; [|split; reflexivity].
  intros e [[<-|[]]|[<-|[]]] [_ []].
Qed.

(** ** C85: reverse lookups *)
Definition reverse_name (i : ip) (s : str) : Prop :=
  match i with IP4 b => arpa4 s b | IP6 b => arpa6 s b /\ valid_ip i end.

Lemma reverse_name_parse i s : reverse_name i s -> parse_arpa s = Some i.
Proof.
  unfold parse_arpa, reverse_name. destruct i as [b|b].
  - intros H. rewrite (suffix4_of _ _ H). apply parse_ipv4_iff; eauto using suffix4_of.
  - intros [H Hv]. destruct (suffix6_of _ _ H) as [-> ->]. rewrite (parse_ipv6_ok _ _ H). f_equal. now apply ip_of_16_valid.
Qed.

Lemma find_host_spec i : forall hosts, match find_host hosts i with
  | Some (h, al) => In (h, (i, al)) hosts
  | None => forall h al, ~ In (h, (i, al)) hosts
  end.
Proof.
  induction hosts as [|[h [i' al]] hosts IH]; cbn [find_host]; [intros h al []|].
  destruct (ip_eqb i' i) eqn:E.
  - apply ip_eqb_eq in E. subst. now left.
  - assert (i' <> i) as Hne by (intros ->; rewrite (proj2 (ip_eqb_eq i i) eq_refl) in E; discriminate).
    destruct (find_host hosts i) as [[h' al']|]; [now right|]. intros h' al' [H|H]; [congruence|]. elim (IH _ _ H).
Qed.

Lemma table_hosts_NoDup t es : NoDup (map fst (fd_hosts (fam t (fold_left split_add es empty_split)))).
Proof.
  assert (forall d, (NoDup (map fst (fd_hosts (sd_v4 d))) /\ NoDup (map fst (fd_hosts (sd_v6 d)))) ->
    let d' := fold_left split_add es d in NoDup (map fst (fd_hosts (sd_v4 d'))) /\ NoDup (map fst (fd_hosts (sd_v6 d')))) as H.
  { induction es as [|e es IH]; intros d Hd; cbn [fold_left]; auto. apply IH. unfold split_add.
    destruct (is_v4 (he_ip e)); cbn; (split; [|]); try apply Hd; apply mput_NoDup; apply Hd. }
  destruct (H empty_split) as [H1 H2]; [split; constructor|]. unfold fam. destruct (t =? 1)%N; auto.
Qed.

(** What is answered are the names of one entry in force with the address; if there is
    none the query is passed on.  Missing: see the refutation below. *)
Theorem C85_reverse_partial : forall cfg es o4 o6 req q qs i next,
  let d := fold_left split_add es empty_split in
  hf_enabled cfg = true -> Permutation o4 (fd_hosts (sd_v4 d)) -> Permutation o6 (fd_hosts (sd_v6 d)) ->
  m_question (req_msg req) = q :: qs -> q_type q = 12%N -> reverse_name i (q_name q) -> (hf_filter cfg = true -> ~ loopback i) ->
  let in_force e := last_with (fun x => he_name x = he_name e /\ ((exists a b, he_ip x = IP4 a /\ i = IP4 b) \/ (exists a b, he_ip x = IP6 a /\ i = IP6 b))) es e in
  (exists e, in_force e /\ he_ip e = i /\ forwarded (hosts_resolve cfg d o4 o6 req) next = [] /\
     exec (hosts_resolve cfg d o4 o6 req) next =
       Some (Ok {| rs_msg := Some (own_reply req q 0 (map (fun n =>
                     {| rr_name := q_name q; rr_type := 12; rr_class := 1; rr_ttl := hf_ttl cfg; rr_data := DPTR (fqdn n) |}) (he_name e :: he_aliases e)));
                   rs_reason := $"HOSTS FILE"; rs_type := HOSTSFILE |})) \/
  ((forall e, in_force e -> he_ip e <> i) /\
     forwarded (hosts_resolve cfg d o4 o6 req) next = [req] /\ exec (hosts_resolve cfg d o4 o6 req) next = next req).
Proof.
  intros cfg es o4 o6 req q qs i next d He P4 P6 Hq Ht Hr Hf in_force.
  unfold hosts_resolve. rewrite He, Hq. cbn [negb]. unfold hosts_reverse. rewrite Ht. cbn [N.eqb Pos.eqb type_PTR negb].
  rewrite (reverse_name_parse i _ Hr).
  assert (hf_filter cfg && is_loopback i = false) as ->.
  { destruct (hf_filter cfg); auto. destruct (is_loopback i) eqn:E; auto. apply is_loopback_iff in E. elim (Hf eq_refl E). }
  set (t := if is_v4 i then 1%N else 28%N).
  assert (Permutation (if is_v4 i then o4 else o6) (fd_hosts (fam t d))) as Hp by (unfold t, fam; destruct (is_v4 i); auto).
  assert (t = 1 \/ t = 28)%N as Ht' by (unfold t; destruct (is_v4 i); auto).
  assert (forall e e', last_with (main_for t (he_name e)) es e' <->
     last_with (fun x => he_name x = he_name e /\ ((exists a b, he_ip x = IP4 a /\ i = IP4 b) \/ (exists a b, he_ip x = IP6 a /\ i = IP6 b))) es e') as Hiff.
  { intros e e'. assert (forall x, main_for t (he_name e) x <->
      he_name x = he_name e /\ ((exists a b, he_ip x = IP4 a /\ i = IP4 b) \/ (exists a b, he_ip x = IP6 a /\ i = IP6 b))) as Hx.
    { intros x. unfold main_for. rewrite of_family_dec by auto. unfold t. destruct i as [b|b], (he_ip x) as [c|c]; cbn;
        (split; [intros [H1 H2]; try discriminate; split; auto; eauto 6|intros [H1 [[a' [b' [H2 H3]]]|[a' [b' [H2 H3]]]]]; try discriminate; auto]). }
    split; intros [pre [post [E [H1 H2]]]]; exists pre, post; (split; [auto|]); (split; [now apply Hx|]); intros x Hxi Hp'; apply (H2 x Hxi); now apply Hx. }
  pose proof (find_host_spec i (if is_v4 i then o4 else o6)) as Hfind.
  destruct (find_host (if is_v4 i then o4 else o6) i) as [[h al]|].
  - apply (Permutation_in _ Hp) in Hfind. apply mget_NoDup_In in Hfind; [|apply table_hosts_NoDup].
    pose proof (table_hosts t h es Ht') as Hh. fold d in Hh. rewrite Hfind in Hh. destruct Hh as [e [L [Hi Ha]]].
    assert (he_name e = h) as Hn by (apply last_with_In in L as [_ [_ L]]; exact L).
    left. exists e. split; [apply Hiff; now rewrite Hn|]. split; auto. split; [reflexivity|]. cbn [exec].
    rewrite (hosts_response_reply req q qs) by auto. unfold create_rr. rewrite Ht, Hn, <- Ha. reflexivity.
  - right. split.
    + intros e Hfo <-. apply Hiff in Hfo. pose proof (table_hosts t (he_name e) es Ht') as Hh. fold d in Hh.
      destruct (mget str_eqb (he_name e) (fd_hosts (fam t d))) as [[i' al]|] eqn:Eg.
      * destruct Hh as [e' [L [-> ->]]]. assert (e' = e) as -> by (eapply last_with_fun; eauto using main_for_em).
        apply (Hfind (he_name e) (he_aliases e)). apply (Permutation_in _ (Permutation_sym Hp)). eapply mget_In; eauto.
      * apply last_with_In in Hfo as [H1 H2]. elim (Hh e H1 H2).
    + assert (split_get d (q_type q) (extract_domain q) = None) as E by (rewrite Ht; reflexivity).
      rewrite Ht in E. rewrite E. split; [apply forwarded_pass|apply exec_pass].
Qed.
Print Assumptions C85_reverse_partial.

(** Not all names of the address are returned, and which ones is left to chance. *)
Theorem C85_reverse_refuted : exists es o4 o4',
  let d := fold_left split_add es empty_split in let req := new_request 1 $"1.0.0.10.in-addr.arpa" 12 in
  Permutation o4 (fd_hosts (sd_v4 d)) /\ Permutation o4' (fd_hosts (sd_v4 d)) /\
  (forall e, In e es -> he_ip e = IP4 [10;0;0;1]%N) /\ (exists e e', In e es /\ In e' es /\ he_name e = $"nas" /\ he_name e' = $"server") /\
  forall next, exec (hosts_resolve hosts_ex_cfg d o4 [] req) next <> exec (hosts_resolve hosts_ex_cfg d o4' [] req) next.
Proof.
  exists [ent $"10.0.0.1" $"nas" []; ent $"10.0.0.1" $"server" []].
  exists [($"nas", (IP4 [10;0;0;1]%N, [])); ($"server", (IP4 [10;0;0;1]%N, []))], [($"server", (IP4 [10;0;0;1]%N, [])); ($"nas", (IP4 [10;0;0;1]%N, []))].
  cbv zeta. split; [vm_compute; try apply Permutation_refl; apply perm_swap|]. split; [vm_compute; try apply Permutation_refl; apply perm_swap|].
  split; [intros e [<-|[<-|[]]]; reflexivity|]. split; [do 2 eexists; split; [now left|]; split; [right; now left|]; split; reflexivity|].
  intros next. vm_compute. discriminate.
Qed.
Print Assumptions C85_reverse_refuted.

Example C85_example :
  let d := fold_left split_add hosts_ex_entries empty_split in
  reverse_name (IP4 [10;0;0;1]%N) $"1.0.0.10.in-addr.arpa." /\
  exists m, exec (hosts_resolve hosts_ex_cfg d (fd_hosts (sd_v4 d)) (fd_hosts (sd_v6 d)) (new_request 1 $"1.0.0.10.in-addr.arpa" 12)) (fun _ => None) =
    Some (Ok {| rs_msg := Some m; rs_reason := $"HOSTS FILE"; rs_type := HOSTSFILE |}) /\
    map rr_data (m_answer m) = [DPTR $"nas.lan."; DPTR $"nas."].
Proof.
  cbv zeta. split.
  - assert (parse_ipv4_arpa $"1.0.0.10.in-addr.arpa." = Some (IP4 [10;0;0;1]%N)) as H by (vm_compute; reflexivity).
    apply parse_ipv4_iff in H as [b [[= <-] H]]; [exact H|]. reflexivity.
  - eexists. split; [vm_compute; reflexivity|]. reflexivity.
Qed.

Lemma merge_single {A} (l : list A) : merge [l] l.
Proof.
  induction l as [|x l IH]; [apply merge_nil; constructor; auto|]. exact (merge_take [] x l [] l IH).
Qed.
Example C86_example :
  arrives ex_ip_text ex_ip_of hosts_ex_cfg ([Lines hosts_ex_lines ScanEOF], hosts_ex_entries) /\
  split_get (table_after ex_ip_text ex_ip_of hosts_ex_cfg [([Lines hosts_ex_lines ScanEOF], hosts_ex_entries)]) 1 $"backup" = Some (IP4 [10;0;0;2]%N).
Proof.
  split; [|reflexivity]. intros ess H. inversion H as [|s es ss ess' Hs Hss]; subst. inversion Hss; subst.
  apply load_source_spec in Hs. change (load_source _ _ _ _) with (hosts_ex_entries, false) in Hs. injection Hs as <-. apply merge_single.
Qed.
