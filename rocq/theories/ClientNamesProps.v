(** Theorems about client names and upstream groups. *)
From Coq Require Import String Ascii List Arith Bool NArith ZArith Lia Permutation.
From Verif Require Import Str StrFacts Dns Resolver ResolverFacts ExpCache ExpCacheSpec ExpCacheProofs ExpCacheProps Arpa ArpaSpec ArpaProofs
  CachingSpec CachingProofs Blocking BlockingSpec BlockingProofs CustomProofs ClientNames ClientNamesSpec.
Import ListNotations.

(** ** Lemmas *)

Lemma without_dot_trim_suffix t : without_dot t (trim_suffix t [dot]).
Proof.
  destruct (has_suffix t [dot]) eqn:E.
  - apply has_suffix_spec in E as [x ->]. rewrite trim_suffix_app. now left.
  - rewrite trim_suffix_not by auto. right. split; auto. intros [x ->].
    assert (has_suffix (x ++ $".") [dot] = true) as H by (apply has_suffix_spec; now exists x). congruence.
Qed.

Lemma ptr_names_list ans : ptr_list ans (ptr_names ans).
Proof.
  induction ans as [|r ans IH]; [constructor|]. unfold ptr_names. cbn [flat_map]. fold (ptr_names ans).
  destruct (rr_data r) eqn:E; try (apply pl_other; [congruence|exact IH]).
  cbn [app]. eapply pl_ptr; eauto using without_dot_trim_suffix.
Qed.

Lemma ptr_list_fun ans ns : ptr_list ans ns -> forall ns', ptr_list ans ns' -> ns = ns'.
Proof.
  induction 1 as [|r t n ans ns E Hd H IH|r ans ns E H IH]; intros ns' H'; inversion H'; subst; auto; try congruence.
  f_equal; auto. assert (t = t0) by congruence. subst. eapply without_dot_fun; eauto.
Qed.

Lemma pick_name_spec : forall order ns,
  (exists n, pick_name order ns = [n] /\ preferred order ns n) \/
  (pick_name order ns = [] /\ forall j, In j order -> j = 0%N \/ (N.of_nat (length ns) < j)%N).
Proof.
  induction order as [|i order IH]; intros ns; cbn [pick_name]; [right; split; auto; intros j []|].
  destruct (N.ltb_spec 0 i) as [H0|H0]; cbn [andb].
  - destruct (N.leb_spec i (N.of_nat (length ns))) as [H1|H1].
    + left. destruct (nth_error ns (N.to_nat (i - 1))) as [n|] eqn:E.
      * exists n. split; auto. exists [], i, order. split; auto. split; auto. split; [|intros j []].
        rewrite <- E. f_equal. lia.
      * apply nth_error_None in E. lia.
    + destruct (IH ns) as [[n [H2 [pre [k [post [E [H3 [H4 H5]]]]]]]]|[H2 H3]].
      * left. exists n. split; auto. exists (i :: pre), k, post. rewrite E. split; auto. split; auto. split; auto.
        intros j [<-|Hj]; auto.
      * right. split; auto. intros j [<-|Hj]; auto.
  - destruct (IH ns) as [[n [H2 [pre [k [post [E [H3 [H4 H5]]]]]]]]|[H2 H3]].
    + left. exists n. split; auto. exists (i :: pre), k, post. rewrite E. split; auto. split; auto. split; auto.
      intros j [<-|Hj]; auto. left. lia.
    + right. split; auto. intros j [<-|Hj]; auto. left. lia.
Qed.

Lemma name_from_mapping_In ip_string iter i n : In n (name_from_mapping ip_string iter i) <->
  exists ips j, In (n, ips) iter /\ In j ips /\ ip_string (Some j) = ip_string (Some i).
Proof.
  unfold name_from_mapping. rewrite in_flat_map. split.
  - intros [[m ips] [H1 H2]]. apply in_flat_map in H2 as [j [H2 H3]]. cbn [fst snd] in *.
    destruct (str_eqb _ _) eqn:E; [|destruct H3]. apply str_eqb_eq in E. destruct H3 as [<-|[]]. eauto 6.
  - intros [ips [j [H1 [H2 H3]]]]. exists (n, ips). split; auto. apply in_flat_map. exists j. split; auto. cbn [fst].
    rewrite H3, str_eqb_refl. now left.
Qed.

(** ** C47 *)

(** The address texts of the configuration tell the client's address apart from others. *)
Definition told_apart (ip_string : option ip -> str) (cfg : lookup_cfg) (i : ip) : Prop :=
  forall n ips j, In (n, ips) (cl_mapping cfg) -> In j ips -> ip_string (Some j) = ip_string (Some i) -> j = i.

(** The names found for an address are the right ones whenever every client gets some
    name from the preferred positions (position 1 always exists). *)
Theorem C47_names_partial : forall ip_string cfg iter ext id i ns,
  Permutation iter (cl_mapping cfg) -> told_apart ip_string cfg i ->
  cl_order cfg = [] \/ In 1%N (cl_order cfg) ->
  resolve_client_names ip_string cfg iter ext id i = Some ns ->
  names_of cfg i (ip_string (Some i)) (ext (lookup_request id i)) ns.
Proof.
  intros ip_string cfg iter ext id i ns Hp Ha Ho H. unfold resolve_client_names in H.
  assert (forall n, In n (name_from_mapping ip_string iter i) <-> mapped cfg i n) as Hm.
  { intros n. rewrite name_from_mapping_In. split.
    - intros [ips [j [H1 [H2 H3]]]]. apply (Permutation_in _ Hp) in H1. rewrite (Ha _ _ _ H1 H2 H3) in H2. now exists ips.
    - intros [ips [H1 H2]]. exists ips, i. split; auto. apply (Permutation_in _ (Permutation_sym Hp)), H1. }
  destruct (name_from_mapping ip_string iter i) as [|x l].
  2:{ injection H as <-. apply no_mapped; [discriminate|exact Hm]. }
  assert (forall n, ~ mapped cfg i n) as Hn by (intros n Hx; now apply Hm in Hx).
  destruct (cl_lookup cfg) eqn:El; cbn [negb] in H; [|injection H as <-; apply no_nothing; auto].
  destruct (ext (lookup_request id i)) as [[r|e]|] eqn:Ee; [|injection H as <-; apply no_nothing; eauto|discriminate].
  destruct (rs_msg r) as [m|] eqn:Er; [|discriminate]. cbv zeta in H.
  match type of H with Some ?a = _ => assert (ns = a) as -> by congruence end. clear H.
  pose proof (ptr_names_list (m_answer m)) as Hl. unfold names_from_answer.
  destruct (ptr_names (m_answer m)) as [|n0 ns0] eqn:Ep.
  - assert (pick_name (cl_order cfg) [ip_string (Some i)] = [ip_string (Some i)] \/ cl_order cfg = []) as Hc.
    { destruct Ho as [Ho|Ho]; auto. left. destruct (pick_name_spec (cl_order cfg) [ip_string (Some i)]) as [[n [-> [pre [k [post [E [H1 [H2 _]]]]]]]]|[_ H]].
      - destruct (N.to_nat k - 1) as [|x]; cbn in H2; [now injection H2 as <-|now destruct x].
      - destruct (H _ Ho) as [?|Hx]; [discriminate|]. cbn in Hx. lia. }
    destruct (cl_order cfg) eqn:Eo.
    + apply no_nothing; auto. right. right. exists r, m. auto.
    + destruct Hc as [->|?]; [|discriminate]. apply no_nothing; auto. right. right. exists r, m. auto.
  - destruct (cl_order cfg) as [|o os] eqn:Eo.
    + apply no_found; auto; [|discriminate]. exists r, m. auto.
    + destruct (pick_name_spec (o :: os) (n0 :: ns0)) as [[n [-> Hpr]]|[_ H]].
      * apply no_chosen with (n0 :: ns0); auto; [exists r, m; auto|]. now rewrite Eo.
      * destruct Ho as [?|Ho]; [discriminate|]. destruct (H _ Ho) as [?|Hx]; [discriminate|]. cbn [length] in Hx. lia.
Qed.
Print Assumptions C47_names_partial.

(** The specification determines the names, up to the order of mapped ones. *)
Lemma preferred_fun order ns n n' : preferred order ns n -> preferred order ns n' -> n = n'.
Proof.
  intros [pre [i [post [E [H1 [H2 H3]]]]]] [pre' [i' [post' [E' [H1' [H2' H3']]]]]].
  assert (forall k x, nth_error ns (N.to_nat k - 1) = Some x -> (0 < k)%N -> ~ (k = 0 \/ N.of_nat (length ns) < k)%N) as Hin.
  { intros k x Hx Hk Hc. assert (N.to_nat k - 1 < length ns) by (apply nth_error_Some; congruence). lia. }
  rewrite E in E'. revert pre' E' H3'. induction pre as [|a pre IH] in order, E, H3 |- *; intros [|b pre'] E' H3'; cbn in E'.
  - injection E' as <- <-. congruence.
  - injection E' as <- _. exfalso. apply (Hin i n); auto. apply H3'. now left.
  - injection E' as -> _. exfalso. apply (Hin i' n'); auto. apply H3. now left.
  - injection E' as <- E'. eapply IH; eauto; intros; [apply H3|apply H3']; now right.
Qed.

Theorem C47_names_determined : forall cfg i text outcome ns ns',
  names_of cfg i text outcome ns -> names_of cfg i text outcome ns' ->
  (forall n, In n ns <-> In n ns').
Proof.
  intros cfg i text outcome ns ns' H H' n.
  assert (forall l l', carries outcome l -> carries outcome l' -> l = l') as Hc.
  { intros l l' [r [m [E1 [E2 E3]]]] [r' [m' [E1' [E2' E3']]]]. assert (r = r') by congruence. subst.
    assert (m = m') by congruence. subst. eapply ptr_list_fun; eauto. }
  assert (forall l, l <> [] -> (forall x, In x l <-> mapped cfg i x) -> (forall x, ~ mapped cfg i x) -> False) as Hx.
  { intros [|a l] Hl Hm Hn; [congruence|]. apply (Hn a), Hm. now left. }
  inversion H as [l Hl Hm E|l Hn Hk Hcl Hl Ho E|l x Hn Hk Hcl Hpr E|Hn Hw E]; subst;
  inversion H' as [l' Hl' Hm' E'|l' Hn' Hk' Hcl' Hl' Ho' E'|l' x' Hn' Hk' Hcl' Hpr' E'|Hn' Hw' E']; subst; try (exfalso; now eauto).
  - rewrite Hm, Hm'. tauto.
  - rewrite (Hc _ _ Hcl Hcl'). tauto.
  - rewrite Ho in Hpr'. destruct Hpr' as [[|? ?] [? [? [? _]]]]; discriminate.
  - destruct Hw' as [?|[[e ->]|Hw']]; [congruence|destruct Hcl as [? [? [? _]]]; discriminate|].
    elim Hl. eapply Hc; eauto.
  - rewrite Ho' in Hpr. destruct Hpr as [[|? ?] [? [? [? _]]]]; discriminate.
  - rewrite (Hc _ _ Hcl Hcl') in Hpr. rewrite (preferred_fun _ _ _ _ Hpr Hpr'). tauto.
  - destruct Hw' as [?|[[e ->]|Hw']]; [congruence|destruct Hcl as [? [? [? _]]]; discriminate|].
    rewrite (Hc _ _ Hcl Hw') in Hpr. destruct Hpr as [? [? [? [_ [_ [Hpr _]]]]]]. now destruct (N.to_nat x1 - 1).
  - destruct Hw as [?|[[e ->]|Hw]]; [congruence|destruct Hcl' as [? [? [? _]]]; discriminate|].
    elim Hl'. eapply Hc; eauto.
  - destruct Hw as [?|[[e ->]|Hw]]; [congruence|destruct Hcl' as [? [? [? _]]]; discriminate|].
    rewrite (Hc _ _ Hcl' Hw) in Hpr'. destruct Hpr' as [? [? [? [_ [_ [Hpr' _]]]]]]. now destruct (N.to_nat x0 - 1).
  - tauto.
Qed.
Print Assumptions C47_names_determined.

(** The lookup asks for the name of the client's address. *)
Theorem C47_lookup_question : forall id i, valid_ip i -> asks_name_of (req_msg (lookup_request id i)) i.
Proof.
  intros id i Hv. exists (reverse_addr i). split.
  - cbn [lookup_request req_msg new_msg_with_question m_question]. f_equal. f_equal. unfold fqdn.
    assert (has_suffix (reverse_addr i) [dot] = true) as E.
    { apply has_suffix_spec. destruct i as [b|b]; cbn [reverse_addr].
      - exists (flat_map (fun x => Num.print_dec x ++ [dot]) (rev b) ++ $"in-addr.arpa"). rewrite <- app_assoc. reflexivity.
      - exists (flat_map (fun x => [Num.digit (x mod 16); dot; Num.digit (x / 16); dot]) (rev b) ++ $"ip6.arpa"). rewrite <- app_assoc. reflexivity. }
    change $"." with [dot]. now rewrite E.
  - destruct i as [b|b]; [now apply reverse4_arpa|now apply reverse6_arpa].
Qed.
Print Assumptions C47_lookup_question.

(** ** The cache of names *)

(** The accesses to the cache made by an operation. *)
Definition cache_ops (ip_string : option ip -> str) (cfg : lookup_cfg) (o : names_op) : list (op (list str)) :=
  match o with
  | NAsk req now =>
      match fixed_names req, req_ip req with
      | None, Some i => [OGet (ip_string (Some i)) now]
      | _, _ => []
      end
  | NFinish i iter ext id now =>
      match resolve_client_names ip_string cfg iter ext id i with
      | Some ns => [OPut (ip_string (Some i)) ns names_ttl now]
      | None => []
      end
  | NFlush => [OClear]
  | NClean o => [o]
  end.

Lemma names_step_cache ip_string cfg s o s' r : names_step ip_string cfg s o = Some (s', r) ->
  run names_size (ns_cache s) (cache_ops ip_string cfg o) = Some (ns_cache s').
Proof.
  destruct o as [req now|i iter ext id now| |o]; cbn [names_step cache_ops].
  - destruct (fixed_names req); [intros [= <- <-]; reflexivity|]. destruct (req_ip req) as [i|]; [|discriminate].
    cbn [run]. destruct (step names_size (ns_cache s) _) as [[c x]|]; [|discriminate].
    destruct x as [|[[ns ttl]|]|]; intros [= <- <-]; reflexivity.
  - destruct (remove_one i (ns_pending s)) as [p|]; [|discriminate].
    destruct (resolve_client_names ip_string cfg iter ext id i) as [ns|]; [|intros [= <- <-]; reflexivity].
    cbn [run]. destruct (step names_size (ns_cache s) _) as [[c x]|]; [|discriminate]. intros [= <- <-]. reflexivity.
  - cbn [run]. destruct (step names_size (ns_cache s) _) as [[c x]|]; [|discriminate]. intros [= <- <-]. reflexivity.
  - destruct (is_clean o); [|discriminate]. cbn [run]. destruct (step names_size (ns_cache s) _) as [[c x]|]; [|discriminate].
    intros [= <- <-]. reflexivity.
Qed.

Lemma names_run_cache ip_string cfg : forall hist s s', names_run ip_string cfg s hist = Some s' ->
  run names_size (ns_cache s) (flat_map (cache_ops ip_string cfg) hist) = Some (ns_cache s').
Proof.
  induction hist as [|o hist IH]; intros s s' H; cbn [names_run flat_map] in *; [now injection H as <-|].
  destruct (names_step ip_string cfg s o) as [[s1 r]|] eqn:E; [|discriminate].
  rewrite run_app, (names_step_cache _ _ _ _ _ _ E). eauto.
Qed.

Lemma names_run_clean ip_string cfg : forall hist s s' o, names_run ip_string cfg s hist = Some s' ->
  In (NClean o) hist -> is_clean o = true.
Proof.
  induction hist as [|x hist IH]; intros s s' o H Hi; cbn [names_run] in H; [destruct Hi|].
  destruct (names_step ip_string cfg s x) as [[s1 r]|] eqn:E; [|discriminate].
  destruct Hi as [->|Hi]; [|eauto]. cbn [names_step] in E. destruct (is_clean o); auto; discriminate.
Qed.

Lemma names_size_pos : 1 <= names_size.
Proof. unfold names_size, cache_size. change (0 <? 0) with false. cbv iota. lia. Qed.

(** Splitting a list of accesses. *)
Lemma flat_map_split {A B} (f : A -> list B) : forall l before o after,
  (forall x, length (f x) <= 1) -> flat_map f l = before ++ o :: after ->
  exists l1 x l2, l = l1 ++ x :: l2 /\ f x = [o] /\ flat_map f l2 = after.
Proof.
  induction l as [|x l IH]; intros before o after Hl H; [destruct before; discriminate|]. cbn [flat_map] in H.
  pose proof (Hl x) as Hx. destruct (f x) as [|y [|]] eqn:E; cbn in Hx; try lia.
  - destruct (IH _ _ _ Hl H) as [l1 [z [l2 [-> H2]]]]. exists (x :: l1), z, l2. auto.
  - destruct before as [|b before]; cbn in H.
    + injection H as -> H. exists [], x, l. auto.
    + injection H as -> H. destruct (IH _ _ _ Hl H) as [l1 [z [l2 [-> H2]]]]. exists (x :: l1), z, l2. auto.
Qed.

Lemma cache_ops_short ip_string cfg x : length (cache_ops ip_string cfg x) <= 1.
Proof.
  destruct x as [req now|i iter ext id now| |o]; cbn; auto.
  - destruct (fixed_names req); cbn; auto. destruct (req_ip req); cbn; auto.
  - destruct (resolve_client_names _ _ _ _ _ _); cbn; auto.
Qed.

Lemma last_stored_found ip_string cfg hist s s' k ns e : names_run ip_string cfg s hist = Some s' ->
  last_stored (flat_map (cache_ops ip_string cfg) hist) k ns e -> last_found ip_string cfg hist k ns.
Proof.
  intros Hr [before [o [after [E [Ho Ha]]]]].
  apply flat_map_split in E as [l1 [x [l2 [-> [Ex <-]]]]]; [|apply cache_ops_short].
  exists l1, x, l2. split; [reflexivity|]. split.
  - destruct Ho as [ttl [now [_ [_ Ho]]]].
    destruct x as [req n|i iter ext id n| |o']; cbn [cache_ops] in Ex.
    + destruct (fixed_names req); [discriminate|]. destruct (req_ip req); [|discriminate].
      injection Ex as <-. destruct Ho as [Ho|Ho]; discriminate.
    + destruct (resolve_client_names ip_string cfg iter ext id i) as [ns'|] eqn:Er; [|discriminate].
      injection Ex as <-. destruct Ho as [Ho|Ho]; [|discriminate]. injection Ho as Hk Hn _ _. subst ns'. exists i, iter, ext, id, n. auto.
    + injection Ex as <-. destruct Ho as [Ho|Ho]; discriminate.
    + injection Ex as <-.
      assert (is_clean o' = true) as Hc by (eapply names_run_clean; [exact Hr|]; apply in_or_app; right; now left).
      destruct Ho as [->| ->]; discriminate.
  - intros y Hy.
    assert (forall a, In a (cache_ops ip_string cfg y) -> ~ removes a k /\ forall v' e', ~ stores a k v' e') as Hz.
    { intros a Hin. apply Ha. apply in_flat_map. eauto. }
    split.
    + intros ->. destruct (Hz OClear (or_introl eq_refl)) as [H _]. apply H. now left.
    + intros ns' [i [iter [ext [id [now [-> [<- Er]]]]]]]. cbn [cache_ops] in Hz. rewrite Er in Hz.
      destruct (Hz _ (or_introl eq_refl)) as [_ H]. apply (H ns' (now + names_ttl / 1000000)%Z).
      exists names_ttl, now. split; [reflexivity|]. split; auto.
Qed.

(** A client id in the request decides; without it and without an address there are no
    names; else names in the cache are the latest ones found for the address since the
    last flush; if there are none, the request looks for names itself, and gets what it
    finds. *)
Theorem C47_precedence : forall ip_string cfg hist s req now s' r,
  names_run ip_string cfg names_init hist = Some s ->
  names_step ip_string cfg s (NAsk req now) = Some (s', r) ->
  (req_client_id req <> [] -> r = Some [req_client_id req] /\ s' = s) /\
  (req_client_id req = [] -> req_ip req = None -> r = Some [] /\ s' = s) /\
  (forall i, req_client_id req = [] -> req_ip req = Some i ->
     (exists ns, r = Some ns /\ last_found ip_string cfg hist (ip_string (Some i)) ns) \/
     (r = None /\ forall iter ext id t ns, resolve_client_names ip_string cfg iter ext id i = Some ns ->
        exists s'', names_step ip_string cfg s' (NFinish i iter ext id t) = Some (s'', Some ns))).
Proof.
  intros ip_string cfg hist s req now s' r Hr Hs. cbn [names_step] in Hs. unfold fixed_names in Hs.
  destruct (req_client_id req) as [|c cid] eqn:Ec.
  2:{ injection Hs as <- <-. split; [auto|]. split; discriminate. }
  destruct (req_ip req) as [i|] eqn:Ei.
  2:{ injection Hs as <- <-. split; [congruence|]. split; [auto|discriminate]. }
  split; [congruence|]. split; [discriminate|]. intros j _ [= <-].
  apply names_run_cache in Hr as Hc. cbn [names_init ns_cache] in Hc.
  destruct (step names_size (ns_cache s) (OGet (ip_string (Some i)) now)) as [[c x]|] eqn:Eg; [|discriminate].
  destruct x as [|[[ns ttl]|]|]; injection Hs as <- <-.
  - cbn [step] in Eg. destruct (ec_get _ _ _). discriminate.
  - left. exists ns. split; auto. destruct (get_last_stored names_size names_size_pos _ _ _ _ _ _ _ Hc Eg) as [e [H _]].
    eapply last_stored_found; eauto.
  - right. split; auto. intros iter ext id t ns En. cbn [names_step ns_pending remove_one].
    assert (ip_eqb i i = true) as -> by now apply ip_eqb_eq. rewrite En. cbn [step]. eexists. reflexivity.
  - cbn [step] in Eg. destruct (ec_get _ _ _). discriminate.
Qed.
Print Assumptions C47_precedence.

(** Names found are used for all requests from the address until they are an hour old
    and the clean-up finds them, a flush, or ten thousand other clients. *)
Theorem C47_found_names_kept : forall ip_string cfg hist i iter ext id now ns post s0 s others req t,
  let text := ip_string (Some i) in
  names_run ip_string cfg names_init hist = Some s0 -> not_condemned (ns_cache s0) text ->
  resolve_client_names ip_string cfg iter ext id i = Some ns ->
  names_run ip_string cfg s0 (NFinish i iter ext id now :: post) = Some s ->
  ~ In NFlush post -> (forall n, In (NClean (OCleanPeek text n)) post -> (n <= now + 3600000)%Z) ->
  (forall j iter' ext' id' n, In (NFinish j iter' ext' id' n) post -> ip_string (Some j) <> text /\ In (ip_string (Some j)) others) ->
  (forall rq j n, In (NAsk rq n) post -> req_ip rq = Some j -> ip_string (Some j) = text \/ In (ip_string (Some j)) others) ->
  (N.of_nat (length others) < 10000)%N ->
  req_client_id req = [] -> req_ip req = Some i ->
  exists s', names_step ip_string cfg s (NAsk req t) = Some (s', Some ns).
Proof.
  intros ip_string cfg hist i iter ext id now ns post s0 s others req t text Hr Hnc En Hrun Hfl Hpk Hfin Hask Hlen Hid Hip.
  apply names_run_cache in Hr as Hr'. cbn [names_init ns_cache] in Hr'.
  apply names_run_cache in Hrun as Hrun'. cbn [flat_map cache_ops] in Hrun'. rewrite En in Hrun'. cbn [app] in Hrun'.
  destruct (C72_kept_until_expiry names_size _ _ _ _ _ _ _ _ others t names_size_pos (eq_refl : (0 < names_ttl)%Z) Hr' Hnc Hrun') as [c Hc].
  - intros o Ho. apply in_flat_map in Ho as [x [Hx Ho]]. destruct x as [rq n|j iter' ext' id' n| |o'].
    + cbn [cache_ops] in Ho. destruct (fixed_names rq); [destruct Ho|]. destruct (req_ip rq); [|destruct Ho].
      destruct Ho as [<-|[]]. split; [discriminate|]. intros v' e' [? [? [_ [_ [H|H]]]]]; discriminate.
    + cbn [cache_ops] in Ho. destruct (resolve_client_names ip_string cfg iter' ext' id' j); [|destruct Ho].
      destruct Ho as [<-|[]]. split; [discriminate|]. intros v' e' [? [? [_ [_ [H|H]]]]]; [|discriminate].
      injection H as H _ _ _. now apply Hfin in Hx as [Hx _].
    + contradiction.
    + destruct Ho as [<-|[]]. assert (is_clean o' = true) as Hcl by (eapply names_run_clean; [exact Hrun|now right]).
      split; [intros ->; discriminate|]. intros v' e' [? [? [_ [_ [->| ->]]]]]; discriminate.
  - intros n Ho. apply in_flat_map in Ho as [x [Hx Ho]]. destruct x as [rq n'|j iter' ext' id' n'| |o'].
    + cbn [cache_ops] in Ho. destruct (fixed_names rq); [destruct Ho|]. destruct (req_ip rq); [|destruct Ho].
      destruct Ho as [[=]|[]].
    + cbn [cache_ops] in Ho. destruct (resolve_client_names ip_string cfg iter' ext' id' j); [|destruct Ho]. destruct Ho as [[=]|[]].
    + destruct Ho as [[=]|[]].
    + destruct Ho as [->|[]]. apply Hpk in Hx. change (names_ttl / 1000000)%Z with 3600000%Z. exact Hx.
  - intros o y Ho Hy Hu. apply in_flat_map in Ho as [x [Hx Ho]]. destruct x as [rq n'|j iter' ext' id' n'| |o'].
    + cbn [cache_ops] in Ho. destruct (fixed_names rq); [destruct Ho|]. destruct (req_ip rq) as [j|] eqn:Ej; [|destruct Ho].
      destruct Ho as [<-|[]]. destruct Hu as [[n Hu]|[v' [e' [? [? [_ [_ [Hu|Hu]]]]]]]]; [|discriminate|discriminate].
      injection Hu as <- _. destruct (Hask _ _ _ Hx Ej); auto; contradiction.
    + cbn [cache_ops] in Ho. destruct (resolve_client_names ip_string cfg iter' ext' id' j); [|destruct Ho]. destruct Ho as [<-|[]].
      destruct Hu as [[n Hu]|[v' [e' [? [? [_ [_ [Hu|Hu]]]]]]]]; try discriminate. injection Hu as <- _ _ _. now apply Hfin in Hx as [_ Hx].
    + contradiction.
    + destruct Ho as [<-|[]]. assert (is_clean o' = true) as Hcl by (eapply names_run_clean; [exact Hrun|now right]).
      destruct Hu as [[n ->]|[v' [e' [? [? [_ [_ [->| ->]]]]]]]]; discriminate.
  - unfold names_size, cache_size. change (0 <? 0) with false. cbv iota. lia.
  - cbn [names_step]. unfold fixed_names. rewrite Hid, Hip.
    change (step names_size (ns_cache s) (OGet (ip_string (Some i)) t)) with (step names_size (ns_cache s) (OGet text t)).
    rewrite Hc. eexists. reflexivity.
Qed.
Print Assumptions C47_found_names_kept.

(** ** Examples *)

(** Texts of the addresses of the examples. *)
Definition cn_ip_text (i : option ip) : str :=
  match i with
  | Some (IP4 b) => join $"." (map Num.print_dec b)
  | Some (IP6 _) => $"fd00::1"
  | None => $"<nil>"
  end.
Definition cn_cfg : lookup_cfg :=
  {| cl_mapping := [($"tablet", [IP4 [10;0;0;5]%N; IP4 [10;0;0;6]%N])]; cl_lookup := true; cl_order := [2; 1]%N |}.
Definition cn_answer (ns : list str) : result :=
  Ok {| rs_msg := Some (set_answer (map (fun n => {| rr_name := $"x"; rr_type := 12; rr_class := 1; rr_ttl := 60; rr_data := DPTR n |}) ns) empty_msg);
        rs_reason := []; rs_type := RESOLVED |}.
Lemma cn_answer_carries ns : carries (Some (cn_answer ns)) (map (fun n => trim_suffix n [dot]) ns).
Proof.
  do 2 eexists. split; [reflexivity|]. split; [reflexivity|]. cbn [m_answer set_answer].
  induction ns as [|n ns IH]; cbn [map]; [constructor|]. eapply pl_ptr; [reflexivity|apply without_dot_trim_suffix|exact IH].
Qed.
Definition cn_req (i : ip) : request := set_req_ip (Some i) (new_request 1 $"example.com" 1).

(** The router knows two names; the second is taken, for later requests from the cache;
    a mapped client; a client the router does not know. *)
Example C47_example :
  let ext := fun _ => Some (cn_answer [$"host-7.lan."; $"laptop."]) in
  let i := IP4 [10;0;0;7]%N in
  names_of cn_cfg i $"10.0.0.7" (ext (lookup_request 3 i)) [$"laptop"] /\
  resolve_client_names cn_ip_text cn_cfg (cl_mapping cn_cfg) ext 3 i = Some [$"laptop"] /\
  resolve_client_names cn_ip_text cn_cfg (cl_mapping cn_cfg) ext 3 (IP4 [10;0;0;6]%N) = Some [$"tablet"] /\
  resolve_client_names cn_ip_text cn_cfg (cl_mapping cn_cfg) (fun _ => Some (Err $"timeout")) 3 i = Some [$"10.0.0.7"] /\
  exists s s', names_run cn_ip_text cn_cfg names_init [NAsk (cn_req i) 1; NFinish i (cl_mapping cn_cfg) ext 3 2; NAsk (cn_req (IP4 [10;0;0;6]%N)) 5] = Some s /\
    names_step cn_ip_text cn_cfg s (NAsk (cn_req i) 1000000) = Some (s', Some [$"laptop"]).
Proof.
  intros ext i. split.
  - apply no_chosen with [$"host-7.lan"; $"laptop"].
    + intros n [ips [[H|[]] Hi]]. injection H as _ <-. destruct Hi as [H|[H|[]]]; discriminate.
    + reflexivity.
    + exact (cn_answer_carries [$"host-7.lan."; $"laptop."]).
    + exists [], 2%N, [1]%N. split; [reflexivity|]. split; [reflexivity|]. split; [reflexivity|]. intros j [].
  - split; [reflexivity|]. split; [reflexivity|]. split; [reflexivity|]. eexists _, _. split; reflexivity.
Qed.

(** "Else the IP itself" fails: with preferred positions that the lookup does not fill,
    the client has no name at all, although the lookup found one. *)
Theorem C47_some_name_refuted : exists cfg ext i ns,
  cl_mapping cfg = [] /\ carries (ext (lookup_request 1 i)) [$"laptop"] /\
  resolve_client_names cn_ip_text cfg (cl_mapping cfg) ext 1 i = Some ns /\
  ns = [] /\ ~ names_of cfg i (cn_ip_text (Some i)) (ext (lookup_request 1 i)) ns.
Proof.
  exists {| cl_mapping := []; cl_lookup := true; cl_order := [2]%N |}, (fun _ => Some (cn_answer [$"laptop."])), (IP4 [10;0;0;7]%N), [].
  split; [reflexivity|]. split; [exact (cn_answer_carries [$"laptop."])|].
  split; [reflexivity|]. split; [reflexivity|]. intros H. inversion H; subst; contradiction.
Qed.
Print Assumptions C47_some_name_refuted.

(** ** C87: a failed lookup *)

(** A flush makes blocky look up the name again. *)
Theorem C87_flush_forgets_partial : forall ip_string cfg pre post s req i now s' r,
  names_run ip_string cfg names_init (pre ++ NFlush :: post) = Some s ->
  (forall j iter ext id n, In (NFinish j iter ext id n) post -> ip_string (Some j) <> ip_string (Some i)) ->
  req_client_id req = [] -> req_ip req = Some i ->
  names_step ip_string cfg s (NAsk req now) = Some (s', r) ->
  r = None /\ forall iter ext id t ns, resolve_client_names ip_string cfg iter ext id i = Some ns ->
    exists s'', names_step ip_string cfg s' (NFinish i iter ext id t) = Some (s'', Some ns).
Proof.
  intros ip_string cfg pre post s req i now s' r Hr Hp Hid Hip Hs.
  destruct (C47_precedence _ _ _ _ _ _ _ _ Hr Hs) as [_ [_ H]]. destruct (H i Hid Hip) as [[ns [-> Hf]]|H']; auto. exfalso.
  destruct Hf as [before [o [after [E [[j [iter [ext [id [n [-> [Ht _]]]]]]] Ha]]]]].
  assert (In NFlush after \/ In (NFinish j iter ext id n) post) as [Hi|Hi].
  { clear - E. revert before E. induction pre as [|x pre IH]; intros [|y before] E; cbn in E.
    - discriminate.
    - injection E as <- ->. right. apply in_or_app. right. now left.
    - injection E as -> <-. left. apply in_or_app. right. now left.
    - injection E as <- E. eauto. }
  - now destruct (Ha _ Hi).
  - now apply Hp in Hi.
Qed.
Print Assumptions C87_flush_forgets_partial.

(** Without a flush a failed lookup decides the name for an hour: a client that the
    router would name now keeps being known by its address only. *)
Theorem C87_failure_forgotten_refuted : exists cfg i good bad s s' s'' req,
  carries (good (lookup_request 1 i)) [$"laptop"] /\ bad (lookup_request 1 i) = Some (Err $"timeout") /\
  cl_mapping cfg = [] /\ cl_order cfg = [] /\
  names_run cn_ip_text cfg names_init [NAsk req 1000; NFinish i [] bad 1 3000] = Some s /\
  names_step cn_ip_text cfg s (NAsk req 3600000) = Some (s', Some [$"10.0.0.7"]) /\
  names_run cn_ip_text cfg names_init [NAsk req 1000] = Some s'' /\
  exists t, names_step cn_ip_text cfg s'' (NFinish i [] good 1 3600000) = Some (t, Some [$"laptop"]).
Proof.
  exists {| cl_mapping := []; cl_lookup := true; cl_order := [] |}, (IP4 [10;0;0;7]%N),
    (fun _ => Some (cn_answer [$"laptop."])), (fun _ => Some (Err $"timeout")).
  eexists _, _, _, (cn_req (IP4 [10;0;0;7]%N)).
  split; [exact (cn_answer_carries [$"laptop."])|].
  do 4 (split; [reflexivity|]). split; [reflexivity|]. split; [reflexivity|]. eexists. reflexivity.
Qed.
Print Assumptions C87_failure_forgotten_refuted.

(** ** C48: the upstream group of a client *)
Section Groups.
Variable glob : str -> str -> bool.
Variable cidr_contains : str -> option ip -> bool.
Variable ip_string : option ip -> str.

Lemma name_matches_pattern g n : name_matches glob g n = true <-> pattern_for glob g n.
Proof.
  unfold name_matches, pattern_for. split.
  - intros H. exists (to_lower g), (to_lower n). split; [now apply lowered_iff|]. split; [now apply lowered_iff|]. exact H.
  - intros [lg [ln [H1 [H2 H3]]]]. apply lowered_iff in H1, H2. now subst.
Qed.

Lemma tree_by_name_spec groups iter : (forall i, Permutation (iter i) groups) -> forall names i,
  match tree_by_name glob iter i names with
  | [] => forall n g, In n names -> In g groups -> ~ pattern_for glob g n
  | g :: _ => exists before n after, names = before ++ n :: after /\ In g groups /\ pattern_for glob g n /\
                forall n' g', In n' before -> In g' groups -> ~ pattern_for glob g' n'
  end.
Proof.
  intros Hp. induction names as [|n names IH]; intros i; cbn [tree_by_name]; [intros n g []|].
  destruct (filter (fun g => name_matches glob g n) (iter i)) as [|g l] eqn:E.
  - assert (forall g, In g groups -> ~ pattern_for glob g n) as Hn.
    { intros g Hg Hm. apply name_matches_pattern in Hm.
      assert (In g (filter (fun g => name_matches glob g n) (iter i))) as Hf.
      { apply filter_In. split; auto. apply (Permutation_in _ (Permutation_sym (Hp i))), Hg. }
      rewrite E in Hf. destruct Hf. }
    cbn [app]. specialize (IH (S i)). destruct (tree_by_name glob iter (S i) names) as [|g l].
    + intros n' g [<-|Hn'] Hg; auto.
    + destruct IH as [before [n0 [after [-> [H1 [H2 H3]]]]]]. exists (n :: before), n0, after. split; [reflexivity|].
      split; auto. split; auto. intros n' g' [<-|Hn'] Hg'; auto.
  - cbn [app]. assert (In g (filter (fun g => name_matches glob g n) (iter i))) as Hf by (rewrite E; now left).
    apply filter_In in Hf as [H1 H2]. exists [], n, names. split; [reflexivity|].
    split; [apply (Permutation_in _ (Hp i)), H1|]. split; [now apply name_matches_pattern|]. intros n' g' [].
Qed.

(** Whatever the orders of the iterations over the map of groups. *)
Theorem C48_group_partial : forall groups iter req, (forall i, Permutation (iter i) groups) ->
  right_group glob cidr_contains ip_string groups req (group_by_client ip_string glob cidr_contains groups iter req).
Proof.
  intros groups iter req Hp. unfold group_by_client. destruct (str_in (ip_string (req_ip req)) groups) eqn:E.
  - apply rg_ip. now apply str_in_In.
  - assert (~ In (ip_string (req_ip req)) groups) as Hn by (intros H; apply str_in_In in H; congruence).
    cbv zeta. pose proof (tree_by_name_spec groups iter Hp (req_names req) 1) as H.
    destruct (tree_by_name glob iter 1 (req_names req)) as [|g l].
    + destruct (filter (fun g => cidr_contains g (req_ip req)) (iter 0)) as [|g l] eqn:Ef.
      * apply rg_default; auto. intros g Hg. destruct (cidr_contains g (req_ip req)) eqn:Ec; auto.
        assert (In g (filter (fun g => cidr_contains g (req_ip req)) (iter 0))) as Hf.
        { apply filter_In. split; auto. apply (Permutation_in _ (Permutation_sym (Hp 0))), Hg. }
        rewrite Ef in Hf. destruct Hf.
      * assert (In g (filter (fun g => cidr_contains g (req_ip req)) (iter 0))) as Hf by (rewrite Ef; now left).
        apply filter_In in Hf as [H1 H2]. apply rg_net; auto. apply (Permutation_in _ (Hp 0)), H1.
    + destruct H as [before [n [after [Hb [H1 [H2 H3]]]]]]. eapply rg_name; eauto.
Qed.

Lemma create_branches_spec {U B : Type} (mk : str -> list U -> option B) : forall groups,
  match create_branches mk groups with
  | Some bs => map fst bs = map fst groups /\
      forall g b, In (g, b) bs -> exists us, In (g, us) groups /\ mk g us = Some b
  | None => exists g us, In (g, us) groups /\ mk g us = None
  end.
Proof.
  induction groups as [|[g us] groups IH]; cbn [create_branches]; [split; auto; intros g b []|].
  destruct (mk g us) as [b|] eqn:E; [|exists g, us; split; [now left|auto]].
  destruct (create_branches mk groups) as [bs|].
  - destruct IH as [H1 H2]. split; [cbn; now rewrite H1|]. intros g' b' [[= <- <-]|H]; [exists us; split; [now left|auto]|].
    destruct (H2 _ _ H) as [us' [H3 H4]]. exists us'. split; [now right|auto].
  - destruct IH as [g' [us' [H1 H2]]]. exists g', us'. split; [now right|auto].
Qed.

(** The resolver that gets the request is the one made from the upstreams of the right
    group (and there always is one). *)
Theorem C48_tree_partial : forall (U B : Type) (mk : str -> list U -> option B) groups t iter req,
  NoDup (map fst groups) -> (forall i, Permutation (iter i) (map fst groups)) ->
  new_tree mk groups = Some t ->
  exists g us b, right_group glob cidr_contains ip_string (map fst groups) req g /\
    In (g, us) groups /\ mk g us = Some b /\ tree_target ip_string glob cidr_contains t iter req = Some b.
Proof.
  intros U B mk groups t iter req Hnd Hp Ht. unfold new_tree in Ht.
  destruct (mget str_eqb default_group groups) as [[|u us]|] eqn:Ed; [discriminate| |discriminate].
  pose proof (create_branches_spec mk groups) as Hc. destruct (create_branches mk groups) as [bs|]; [|discriminate].
  destruct Hc as [H1 H2].
  assert (In $"default" (map fst groups)) as Hd.
  { apply in_map_iff. exists (default_group, u :: us). split; [reflexivity|]. eapply mget_In; eauto. }
  pose proof (C48_group_partial (map fst groups) iter req Hp) as Hg.
  assert (In (group_by_client ip_string glob cidr_contains (map fst groups) iter req) (map fst groups)) as Hin.
  { inversion Hg; auto. }
  set (gg := group_by_client ip_string glob cidr_contains (map fst groups) iter req) in *.
  rewrite <- H1 in Hin. apply in_map_iff in Hin as [[g b] [E Hb]]. cbn [fst] in E.
  destruct (H2 _ _ Hb) as [us' [H3 H4]]. exists g, us', b. rewrite <- E in Hg. split; auto. split; auto. split; auto.
  assert (NoDup (map fst bs)) as Hnd' by now rewrite H1.
  destruct bs as [|[g1 b1] [|p bs]].
  - destruct Hb.
  - injection Ht as <-. destruct Hb as [[= <- <-]|[]]. reflexivity.
  - injection Ht as <-. cbn [tree_target]. rewrite H1. fold gg. rewrite <- E. now apply mget_NoDup_In.
Qed.

(** Creation fails exactly when there is no default group or a group cannot be made. *)
Theorem C48_creation : forall (U B : Type) (mk : str -> list U -> option B) groups, NoDup (map fst groups) ->
  (new_tree mk groups = None <->
   (forall us, In ($"default", us) groups -> us = []) \/ exists g us, In (g, us) groups /\ mk g us = None).
Proof.
  intros U B mk groups Hnd. unfold new_tree. pose proof (create_branches_spec mk groups) as Hc.
  assert (forall us, In ($"default", us) groups <-> mget str_eqb default_group groups = Some us) as Hm.
  { intros us. split; [intros H; now apply mget_NoDup_In|apply mget_In]. }
  destruct (mget str_eqb default_group groups) as [[|u us]|] eqn:Ed.
  - split; auto. intros _. left. intros us Hu. apply Hm in Hu. congruence.
  - split.
    + intros H. right. destruct (create_branches mk groups) as [bs|]; [|auto]. destruct bs as [|[g1 b1] [|p bs]]; discriminate.
    + intros [H|H]; [specialize (H _ (proj2 (Hm _) eq_refl)); discriminate|]. destruct H as [g [us' [H3 H4]]].
      destruct (create_branches mk groups) as [bs|]; auto. destruct Hc as [H1 H2].
      assert (In g (map fst bs)) as Hin by (rewrite H1; apply in_map_iff; now exists (g, us')).
      apply in_map_iff in Hin as [[g' b] [E Hb]]. cbn in E. subst g'. destruct (H2 _ _ Hb) as [us2 [H5 H6]].
      assert (us2 = us') as -> by (apply mget_NoDup_In in H3, H5; auto; congruence). congruence.
  - split; auto. intros _. left. intros us Hu. apply Hm in Hu. congruence.
Qed.

(** C88: the choice does not depend on chance for a client that matches one group only. *)
Theorem C88_unambiguous_partial : forall groups iter iter' req,
  (forall i, Permutation (iter i) groups) -> (forall i, Permutation (iter' i) groups) ->
  (forall n g g', In n (req_names req) -> In g groups -> In g' groups -> pattern_for glob g n -> pattern_for glob g' n -> g = g') ->
  (forall g g', In g groups -> In g' groups -> cidr_contains g (req_ip req) = true -> cidr_contains g' (req_ip req) = true -> g = g') ->
  group_by_client ip_string glob cidr_contains groups iter req = group_by_client ip_string glob cidr_contains groups iter' req.
Proof.
  intros groups iter iter' req Hp Hp' Hn Hc.
  pose proof (C48_group_partial groups iter req Hp) as H. pose proof (C48_group_partial groups iter' req Hp') as H'.
  revert H H'. generalize (group_by_client ip_string glob cidr_contains groups iter req) (group_by_client ip_string glob cidr_contains groups iter' req).
  intros a a' H H'.
  assert (forall l b n c b' n' c' g g' , l = b ++ n :: c -> l = b' ++ n' :: c' -> pattern_for glob g n -> pattern_for glob g' n' -> In g groups -> In g' groups ->
     (forall n1 g1, In n1 b -> In g1 groups -> ~ pattern_for glob g1 n1) -> (forall n1 g1, In n1 b' -> In g1 groups -> ~ pattern_for glob g1 n1) -> n = n') as Hu.
  { clear. intros l b. revert l. induction b as [|x b IH]; intros l n c [|x' b'] n' c' g g' E E' H1 H2 Hg Hg' H3 H4; subst l; cbn in E'.
    - now injection E' as <- <-.
    - injection E' as -> _. exfalso. exact (H4 x' g (or_introl eq_refl) Hg H1).
    - injection E' as -> _. exfalso. exact (H3 n' g' (or_introl eq_refl) Hg' H2).
    - injection E' as <- E'. eapply (IH _ n c b' n' c' g g' eq_refl E'); auto; intros; [apply H3|apply H4]; auto; now right. }
  assert (forall b (n : str) c, req_names req = b ++ n :: c -> In n (req_names req)) as Hi.
  { intros b n c ->. apply in_or_app. right. now left. }
  inversion H as [A E|g n b c A E B G P Eg|g A B G P Eg|A B P Eg]; subst;
  inversion H' as [A' E'|g' n' b' c' A' E' B' G' P' Eg'|g' A' B' G' P' Eg'|A' B' P' Eg']; subst; try contradiction; auto.
  - assert (n = n') by (eapply Hu; eauto). subst n'. apply (Hn n); eauto.
  - exfalso. eapply (B' n a); eauto.
  - exfalso. eapply (B' n a); eauto.
  - exfalso. eapply (B n' a'); eauto.
  - rewrite (P' a G) in P. discriminate.
  - exfalso. eapply (B n' a'); eauto.
  - rewrite (P a' G') in P'. discriminate.
Qed.
End Groups.
Print Assumptions C48_group_partial.
Print Assumptions C48_tree_partial.
Print Assumptions C48_creation.
Print Assumptions C88_unambiguous_partial.

(** Patterns and networks for the examples. *)
Definition ex_pattern (g n : str) : bool := str_eqb g n || (str_eqb g $"lap*" && has_prefix n $"lap").
Definition ex_network (g : str) (i : option ip) : bool :=
  match i with
  | Some (IP4 [10;0;0;_]) => str_eqb g $"10.0.0.0/24"
  | Some (IP4 [10;0;1;_]) => str_eqb g $"10.0.1.0/24"
  | _ => false
  end%N.
Definition ex_groups : list (str * list N) :=
  [($"default", [1]); ($"lap*", [2]); ($"laptop", [3]); ($"10.0.0.0/24", [4]); ($"10.0.0.7", [5]); ($"FD00::1", [6])]%N.
Definition ex_client (i : ip) (ns : list str) : request := set_req_names ns (cn_req i).

Example C48_example :
  let target i ns := match new_tree (fun _ us => Some us) ex_groups with
                     | Some t => tree_target cn_ip_text ex_pattern ex_network t (fun _ => map fst ex_groups) (ex_client i ns)
                     | None => None
                     end in
  target (IP4 [10;0;0;7]%N) [$"Laptop"] = Some [5]%N /\ target (IP4 [10;0;0;8]%N) [$"nas"; $"Lappi"] = Some [2]%N /\
  target (IP4 [10;0;0;8]%N) [$"nas"] = Some [4]%N /\ target (IP4 [10;9;0;8]%N) [$"nas"] = Some [1]%N /\
  NoDup (map fst ex_groups).
Proof.
  cbv zeta. split; [reflexivity|]. split; [reflexivity|]. split; [reflexivity|]. split; [reflexivity|].
  repeat (constructor; [cbn; intuition discriminate|]). constructor.
Qed.

(** A group for the client's exact IP is not used when it is written in another way than
    Go writes addresses. *)
Theorem C48_ip_spelling_refuted : exists groups iter req,
  In $"FD00::1" groups /\ to_lower $"FD00::1" = cn_ip_text (req_ip req) /\ (forall i, Permutation (iter i) groups) /\
  group_by_client cn_ip_text ex_pattern ex_network groups iter req = $"default".
Proof.
  exists (map fst ex_groups), (fun _ => map fst ex_groups), (ex_client (IP6 [253;0;0;0;0;0;0;0;0;0;0;0;0;0;0;1]%N) [$"phone"]).
  split; [cbn; tauto|]. split; [reflexivity|]. split; [intros; apply Permutation_refl|]. reflexivity.
Qed.
Print Assumptions C48_ip_spelling_refuted.

(** C88: a client matching two groups gets one of them by chance, at each request anew. *)
Theorem C88_same_group_refuted : exists groups iter iter' req,
  (forall i, Permutation (iter i) groups) /\ (forall i, Permutation (iter' i) groups) /\
  group_by_client cn_ip_text ex_pattern ex_network groups iter req <> group_by_client cn_ip_text ex_pattern ex_network groups iter' req.
Proof.
  exists (map fst ex_groups), (fun _ => map fst ex_groups), (fun _ => rev (map fst ex_groups)), (ex_client (IP4 [10;0;1;7]%N) [$"laptop"]).
  split; [intros; apply Permutation_refl|]. split; [intros; apply Permutation_sym, Permutation_rev|]. vm_compute. discriminate.
Qed.
Print Assumptions C88_same_group_refuted.

Example C88_example :
  let req := ex_client (IP4 [10;0;0;8]%N) [$"nas"] in
  (forall g g', In g (map fst ex_groups) -> In g' (map fst ex_groups) -> ex_network g (req_ip req) = true -> ex_network g' (req_ip req) = true -> g = g') /\
  group_by_client cn_ip_text ex_pattern ex_network (map fst ex_groups) (fun _ => rev (map fst ex_groups)) req = $"10.0.0.0/24".
Proof.
  cbv zeta. split; [|reflexivity]. cbn [ex_client cn_req set_req_names set_req_ip req_ip ex_network]. intros g g' _ _ H H'.
  apply str_eqb_eq in H, H'. congruence.
Qed.
