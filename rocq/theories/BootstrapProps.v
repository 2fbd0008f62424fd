(** Properties of the bootstrap DNS (C139-C141). *)
From Coq Require Import String Ascii List Arith NArith ZArith Bool Lia Sorting.Sorted.
From Verif Require Import Str StrFacts Dns Ip IpSpec IpProps Resolver ResolverFacts Upstream UpstreamSpec UpstreamProps Sudn SudnSpec SudnProps
  ExpCache Caching CachingSpec Chain ConfUpstream ConfUpstreamSpec ConfUpstreamProps Bootstrap BootstrapSpec.
Import ListNotations.
Open Scope list_scope.

(** ** C139: reading and checking *)
Lemma read_nodes_iff {A} (read : node -> option A) (P : node -> A -> Prop) : (forall n a, read n = Some a <-> P n a) ->
  forall l r, read_nodes read l = Some r <-> Forall2 P l r.
Proof.
  intros H. induction l as [|n l IH]; intros r; cbn [read_nodes].
  - split; [intros [= <-]; constructor|]. intros F. now inversion F.
  - split.
    + destruct (read n) as [a|] eqn:E; [|discriminate]. destruct (read_nodes read l) as [r'|] eqn:E'; [|discriminate]. intros [= <-].
      constructor; [now apply H|now apply IH].
    + intros F. inversion F as [|? a ? r' Ha Hr]; subst. apply H in Ha. apply IH in Hr. now rewrite Ha, Hr.
Qed.

Lemma ip_node_iff n a : ip_node n = Some a <-> address_means n a.
Proof.
  split.
  - destruct n as [[|c s]|l|f]; try discriminate; cbn [ip_node].
    + intros [= <-]. constructor.
    + destruct (go_parse_ip (c :: s)) as [i|] eqn:E; [|discriminate]. intros [= <-]. constructor. now apply C101_read.
  - intros [s i H|]; [|reflexivity]. apply C101_read in H. destruct s as [|c s]; [vm_compute in H; discriminate|]. cbn [ip_node]. now rewrite H.
Qed.

Lemma ips_node_iff n l : ips_node n = Some l <-> exists ns, n = YList ns /\ Forall2 address_means ns l.
Proof.
  destruct n as [s|ns|f]; cbn [ips_node].
  - split; [discriminate|]. intros [ns [E _]]. discriminate.
  - rewrite (read_nodes_iff ip_node address_means ip_node_iff). split; [eauto|]. intros [ns' [[= <-] H]]. exact H.
  - split; [discriminate|]. intros [ns [E _]]. discriminate.
Qed.

Section Read.
Variable direct : list (str * node) -> option upstream.

Lemma upstream_node_iff n u : upstream_node direct n = Some u <-> upstream_means direct n u.
Proof.
  split.
  - destruct n as [s|l|f]; cbn [upstream_node]; [|discriminate|].
    + intros H. constructor. now apply C68_parts.
    + intros H. now constructor.
  - intros [s u' H|f u' H]; cbn [upstream_node]; [now apply C68_parts|exact H].
Qed.

Lemma upstream_fun n u v : upstream_means direct n u -> upstream_means direct n v -> u = v.
Proof. intros A B. apply upstream_node_iff in A, B. congruence. Qed.

Lemma distinct_keys_iff ks : distinct_keys ks = true <-> NoDup ks.
Proof.
  induction ks as [|k ks IH]; cbn [distinct_keys]; [split; [constructor|reflexivity]|].
  rewrite andb_true_iff, negb_true_iff, IH. split.
  - intros [A B]. constructor; [|exact B]. intros H. enough (existsb (str_eqb k) ks = true) by congruence.
    apply existsb_exists. exists k. split; [exact H|apply str_eqb_refl].
  - intros H. inversion H as [|? ? A B]; subst. split; [|exact B]. destruct (existsb (str_eqb k) ks) eqn:E; [|reflexivity].
    apply existsb_exists in E as [x [E1 E2]]. apply str_eqb_eq in E2. subst. contradiction.
Qed.

Lemma mget_field k (f : list (str * node)) : NoDup (map fst f) ->
  match mget str_eqb k f with
  | Some n => In (k, n) f /\ forall n', In (k, n') f -> n' = n
  | None => ~ In k (map fst f)
  end.
Proof.
  induction f as [|[k' n] f IH]; cbn [mget map fst]; [intros _ []|]. intros H. inversion H as [|? ? A B]; subst. specialize (IH B).
  destruct (str_eqb_spec k k') as [<-|N].
  - split; [now left|]. intros n' [[= <-]|H']; [reflexivity|]. elim A. apply in_map_iff. now exists (k, n').
  - destruct (mget str_eqb k f) as [n0|].
    + split; [right; apply IH|]. intros n' [[= E _]|H']; [congruence|now apply IH].
    + intros [E|H']; [congruence|contradiction].
Qed.

Lemma fields_iff f u ips : direct f = None -> item_fields direct f = Some (u, ips) <-> item_means direct (YMap f) (u, ips).
Proof.
  intros Hd. unfold item_fields. destruct (_ && _) eqn:E.
  - apply andb_true_iff in E as [E1 E2]. apply distinct_keys_iff in E2. rewrite forallb_forall in E1.
    assert (forall k, In k (map fst f) -> k = $"upstream" \/ k = $"ips") as Hk.
    { intros k Hk. apply E1 in Hk. apply orb_true_iff in Hk as [Hk|Hk]; apply str_eqb_eq in Hk; auto. }
    pose proof (mget_field $"upstream" f E2) as M1. pose proof (mget_field $"ips" f E2) as M2. split.
    + intros H. destruct (mget str_eqb $"upstream" f) as [n1|].
      * destruct (upstream_node direct n1) as [u'|] eqn:U; [|discriminate]. apply upstream_node_iff in U. destruct M1 as [I1 M1].
        destruct (mget str_eqb $"ips" f) as [n2|].
        -- destruct (ips_node n2) as [l|] eqn:L; [|discriminate]. injection H as <- <-. apply ips_node_iff in L. destruct M2 as [I2 M2].
           apply im_fields; auto.
           ++ intros n Hn. now rewrite (M1 n Hn).
           ++ intros Hn. elim Hn. apply in_map_iff. now exists ($"upstream", n1).
           ++ intros n Hn. now rewrite (M2 n Hn).
           ++ intros Hn. elim Hn. apply in_map_iff. now exists ($"ips", n2).
        -- injection H as <- <-. apply im_fields; auto.
           ++ intros n Hn. now rewrite (M1 n Hn).
           ++ intros Hn. elim Hn. apply in_map_iff. now exists ($"upstream", n1).
           ++ intros n Hn. elim M2. apply in_map_iff. now exists ($"ips", n).
      * destruct (mget str_eqb $"ips" f) as [n2|].
        -- destruct (ips_node n2) as [l|] eqn:L; [|discriminate]. injection H as <- <-. apply ips_node_iff in L. destruct M2 as [I2 M2].
           apply im_fields; auto.
           ++ intros n Hn. elim M1. apply in_map_iff. now exists ($"upstream", n).
           ++ intros n Hn. now rewrite (M2 n Hn).
           ++ intros Hn. elim Hn. apply in_map_iff. now exists ($"ips", n2).
        -- injection H as <- <-. apply im_fields; auto.
           ++ intros n Hn. elim M1. apply in_map_iff. now exists ($"upstream", n).
           ++ intros n Hn. elim M2. apply in_map_iff. now exists ($"ips", n).
    + intros H. inversion H as [n u0 Hu|f0 u0 ips0 _ _ _ F1 F2 F3 F4]; subst.
      { inversion Hu; subst. congruence. }
      assert (match mget str_eqb $"upstream" f with None => Some no_upstream | Some n => upstream_node direct n end = Some u) as E3.
      { destruct (mget str_eqb $"upstream" f) as [n1|]; [apply upstream_node_iff, F1, M1|now rewrite (F2 M1)]. }
      unfold no_upstream in E3. rewrite E3.
      assert (match mget str_eqb $"ips" f with None => Some [] | Some n => ips_node n end = Some ips) as ->; [|reflexivity].
      destruct (mget str_eqb $"ips" f) as [n2|]; [apply ips_node_iff, F3, M2|now rewrite (F4 M2)].
  - split; [discriminate|]. intros H. inversion H as [n u0 Hu|f0 u0 ips0 _ H1 H2 _ _ _ _]; subst; [inversion Hu; subst; congruence|].
    apply distinct_keys_iff in H1. rewrite H1, andb_true_r in E. exfalso. apply not_true_iff_false in E. apply E, forallb_forall.
    intros k Hk. destruct (H2 k Hk) as [-> | ->]; reflexivity.
Qed.

Lemma item_node_iff n i : item_node direct n = Some i <-> item_means direct n i.
Proof.
  unfold item_node. destruct (upstream_node direct n) as [u|] eqn:E.
  - split; [intros [= <-]; constructor; now apply upstream_node_iff|]. intros H. inversion H as [n0 u0 Hu|f u0 ips Hd]; subst.
    + apply upstream_node_iff in Hu. congruence.
    + cbn [upstream_node] in E. congruence.
  - destruct n as [s|l|f].
    + split; [discriminate|]. intros H. inversion H as [n0 u0 Hu|]; subst. apply upstream_node_iff in Hu. congruence.
    + split; [discriminate|]. intros H. inversion H as [n0 u0 Hu|]; subst. apply upstream_node_iff in Hu. congruence.
    + destruct i as [u ips]. now apply fields_iff.
Qed.

Theorem C139_read : forall n items, bootstrap_node direct n = Some items <-> bootstrap_means direct n items.
Proof.
  intros n items. unfold bootstrap_node, bootstrap_means. destruct (item_node direct n) as [i|] eqn:E.
  - split.
    + intros [= <-]. left. exists i. split; [now apply item_node_iff|reflexivity].
    + intros [[i' [H ->]]|[l [-> _]]]; [apply item_node_iff in H; congruence|]. unfold item_node in E. discriminate.
  - split.
    + destruct n as [s|l|f]; try discriminate. intros H. right. exists l. split; [reflexivity|].
      now apply (read_nodes_iff (item_node direct) (item_means direct) item_node_iff).
    + intros [[i' [H ->]]|[l [-> H]]]; [apply item_node_iff in H; congruence|].
      now apply (read_nodes_iff (item_node direct) (item_means direct) item_node_iff).
Qed.

(** All ways to write one upstream without addresses mean the same. *)
Theorem C139_forms : forall s u, upstream_text s u -> direct [($"upstream", YText s)] = None ->
  forall n, In n [YText s; YMap [($"upstream", YText s)]; YList [YText s]; YList [YMap [($"upstream", YText s)]]] ->
  bootstrap_node direct n = Some [(u, [])].
Proof.
  intros s u Hs Hd n Hn. apply C68_parts in Hs.
  assert (item_node direct (YMap [($"upstream", YText s)]) = Some (u, [])) as E.
  { unfold item_node. cbn [upstream_node]. rewrite Hd. unfold item_fields. cbn. now rewrite Hs. }
  cbn [In] in Hn. destruct Hn as [<-|[<-|[<-|[<-|[]]]]]; unfold bootstrap_node.
  - unfold item_node. cbn [upstream_node]. now rewrite Hs.
  - now rewrite E.
  - cbn. unfold item_node. cbn. now rewrite Hs.
  - cbn [item_node upstream_node read_nodes]. now rewrite E.
Qed.
End Read.
Print Assumptions C139_read.
Print Assumptions C139_forms.

Lemma default_iff u : upstream_is_default u = true <-> u = no_upstream.
Proof.
  unfold upstream_is_default, no_upstream. destruct u as [n h p pa cn]. cbn [u_net u_host u_port u_path u_cn]. rewrite !andb_true_iff, !str_eqb_eq, N.eqb_eq. split.
  - intros [[[[A ->] ->] ->] ->]. destruct n; [reflexivity|discriminate..].
  - intros [= -> -> -> -> ->]. auto.
Qed.

Lemma no_ip_iff s : go_parse_ip s = None <-> forall a, ~ ip_text s a.
Proof.
  split; [intros E a H; apply C101_read in H; congruence|]. intros H. destruct (go_parse_ip s) as [a|] eqn:E; [|reflexivity]. apply C101_read in E. elim (H a E).
Qed.

(** What an accepted item is kept with. *)
Definition kept (i r : upstream * list (option ip)) : Prop :=
  fst r = fst i /\
  ((exists a, ip_text (u_host (fst i)) a /\ snd r = Some a :: snd i) \/ ((forall a, ~ ip_text (u_host (fst i)) a) /\ snd r = snd i)).

Lemma check_item_iff i : match check_item i with
  | Some l => item_ok i /\ kept i (fst i, l)
  | None => ~ item_ok i end.
Proof.
  destruct i as [u ips]. unfold check_item, item_ok, kept. cbn [fst snd]. destruct (upstream_is_default u) eqn:E.
  - apply default_iff in E. intros [A _]. exact (A E).
  - assert (u <> no_upstream) as Hu by (intros H; apply default_iff in H; congruence).
    destruct (go_parse_ip (u_host u)) as [a|] eqn:P.
    + apply C101_read in P. split; [split; [exact Hu|left; now exists a]|]. split; [reflexivity|]. left. now exists a.
    + rewrite no_ip_iff in P. destruct (net_eqb (u_net u) TcpUdp) eqn:N.
      * intros [_ [[a A]|[_ [A _]]]]; [exact (P a A)|]. apply A. destruct (u_net u); [reflexivity|discriminate..].
      * destruct ips as [|x ips]; [intros [_ [[a A]|[_ [_ A]]]]; [exact (P a A)|congruence]|].
        split; [split; [exact Hu|right; split; [exact P|split; [intros A; rewrite A in N; discriminate|discriminate]]]|]. split; [reflexivity|]. right. now split.
Qed.

Lemma check_items_spec items : forall k good bad, check_items k items = (good, bad) ->
  (bad = [] -> Forall item_ok items /\ Forall2 kept items good) /\
  StronglySorted lt bad /\ (forall j, In j bad <-> k <= j /\ exists i, nth_error items (j - k) = Some i /\ ~ item_ok i).
Proof.
  induction items as [|i items IH]; intros k good bad; cbn [check_items].
  - intros [= <- <-]. split; [intros _; split; constructor|]. split; [constructor|]. intros j. split; [intros []|]. intros [_ [i [H _]]]. destruct (j - k); discriminate.
  - destruct (check_items (S k) items) as [g b] eqn:E. destruct (IH _ _ _ E) as [I1 [I2 I3]]. pose proof (check_item_iff i) as C.
    assert (forall j x, k <= j -> nth_error (i :: items) (j - k) = Some x -> (j = k /\ x = i) \/ (S k <= j /\ nth_error items (j - S k) = Some x)) as Hs.
    { intros j x Hj. destruct (j - k) as [|d] eqn:Ed; cbn [nth_error]; [intros [= <-]; left; split; [lia|reflexivity]|]. intros H. right. split; [lia|].
      now replace (j - S k) with d by lia. }
    assert (forall j x, S k <= j -> nth_error items (j - S k) = Some x -> nth_error (i :: items) (j - k) = Some x) as Hs'.
    { intros j x Hj H. replace (j - k) with (S (j - S k)) by lia. exact H. }
    destruct (check_item i) as [l|].
    + intros [= <- <-]. destruct C as [C1 C2]. split; [|split; [exact I2|]].
      * intros Hb. destruct (I1 Hb). split; constructor; auto.
      * intros j. rewrite I3. split.
        -- intros [A [x [B D]]]. split; [lia|]. exists x. split; [now apply Hs'|exact D].
        -- intros [A [x [B D]]]. apply Hs in B as [[-> ->]|[B1 B2]]; [contradiction| |lia]. split; [exact B1|]. now exists x.
    + intros [= <- <-]. split; [discriminate|]. split.
      * constructor; [exact I2|]. apply Forall_forall. intros j Hj. apply I3 in Hj. lia.
      * intros j. cbn [In]. rewrite I3. split.
        -- intros [<-|[A [x [B D]]]]; [split; [lia|]; exists i; rewrite Nat.sub_diag; now split|]. split; [lia|]. exists x. split; [now apply Hs'|exact D].
        -- intros [A [x [B D]]]. apply Hs in B as [[-> ->]|[B1 B2]]; [now left| |lia]. right. split; [exact B1|]. now exists x.
Qed.

(** The configuration is accepted iff all items can be used, with their addresses; else exactly the wrong items are named, in order. *)
Theorem C139_checked : forall items,
  (forall good, new_bootstraped items = inl good -> Forall item_ok items /\ Forall2 kept items good) /\
  (Forall item_ok items -> exists good, new_bootstraped items = inl good) /\
  (forall bad, new_bootstraped items = inr bad -> bad <> [] /\ StronglySorted lt bad /\
     forall k, In k bad <-> 1 <= k /\ exists i, nth_error items (k - 1) = Some i /\ ~ item_ok i).
Proof.
  intros items. unfold new_bootstraped. destruct (check_items 1 items) as [g b] eqn:E. destruct (check_items_spec items 1 g b E) as [H1 [H2 H3]].
  destruct b as [|k b].
  - split; [intros good [= <-]; auto|]. split; [eauto|]. discriminate.
  - split; [discriminate|]. split.
    + intros Hf. exfalso. destruct (proj1 (H3 k) (or_introl eq_refl)) as [_ [i [Hi Hn]]]. apply nth_error_In in Hi. rewrite Forall_forall in Hf. exact (Hn (Hf i Hi)).
    + intros bad [= <-]. split; [discriminate|]. split; [exact H2|exact H3].
Qed.
Print Assumptions C139_checked.

(** ** C140: lookups *)
Lemma same_length {A B} (R : A -> B -> Prop) l m : Forall2 R l m -> length l = length m.
Proof. induction 1; cbn [length]; congruence. Qed.

Lemma new_boot_parts items filter c v b : new_boot items filter c v = inl b ->
  Forall item_ok items /\ Forall2 kept items (bt_upstreams b) /\ bt_filter b = filter /\ bt_caching b = bootstrap_caching c /\ bt_version b = v.
Proof.
  unfold new_boot. destruct (new_bootstraped items) as [us|] eqn:E; [|discriminate]. intros [= <-]. apply C139_checked in E as [A B]. repeat split; assumption.
Qed.

(** The addresses of the upstreams of the bootstrap come from the configuration alone. *)
Theorem C140_configured : forall items filter c v b look best ids system fuel, new_boot items filter c v = inl b -> 1 <= fuel ->
  exists as_, Forall2 item_addresses items as_ /\
    forall i l, nth_error as_ i = Some l -> addresses b look best ids system fuel (ABoot i) = Found l.
Proof.
  intros items filter c v b look best ids system fuel Hb Hf. apply new_boot_parts in Hb as [_ [Hk _]]. destruct fuel as [|fuel]; [lia|]. cbn [addresses].
  induction Hk as [|[u ips] [u' ips'] items us [K1 K2] Hk IH].
  - exists []. split; [constructor|]. intros [|i] l; discriminate.
  - destruct IH as [as_ [A1 A2]]. cbn [fst snd] in K1, K2. subst u'. destruct K2 as [[a [Ka _]]|[Kn ->]].
    + exists ([Some a] :: as_). split; [constructor; [now constructor|exact A1]|]. intros [|i] l; cbn [nth_error]; [|apply A2]. intros [= <-].
      apply C101_read in Ka. now rewrite Ka.
    + exists (ips :: as_). split; [constructor; [now constructor|exact A1]|]. intros [|i] l; cbn [nth_error]; [|apply A2]. intros [= <-].
      apply no_ip_iff in Kn. now rewrite Kn.
Qed.
Print Assumptions C140_configured.

Lemma inner_ext b look best ids system f g : 1 <= f -> 1 <= g -> forall i, addresses b look best ids system f (ABoot i) = addresses b look best ids system g (ABoot i).
Proof. intros Hf Hg i. destruct f, g; [lia..|]. reflexivity. Qed.

(** A lookup ends, also that of a host which the upstreams of the bootstrap are asked for: they never need a further lookup. *)
Theorem C140_ends : forall b look best ids system r, 
  exists x, x <> Endless /\ forall fuel, 2 <= fuel -> addresses b look best ids system fuel r = x.
Proof.
  intros b look best ids system r. exists (addresses b look best ids system 2 r). split.
  - remember 1 as one. cbn [addresses]. destruct r as [i|h].
    + destruct (nth_error (bt_upstreams b) i) as [[u ips]|]; [|discriminate]. destruct (go_parse_ip (u_host u)); discriminate.
    + destruct (go_parse_ip h); [discriminate|]. destruct (bt_upstreams b) as [|u0 us]; [destruct (system h (bt_version b)); discriminate|].
      destruct (fold_right _ _ _) as [rs|]; [|discriminate]. destruct (resolve_types None rs [] false) as [[l|]|]; discriminate.
  - intros fuel Hf. destruct fuel as [|[|fuel]]; [lia..|]. destruct r as [i|h]; [reflexivity|].
    assert (forall f g, 1 <= f -> 1 <= g -> addresses b look best ids system (S f) (AHost h) = addresses b look best ids system (S g) (AHost h)) as G; [|apply G; lia].
    clear. intros f g Hf Hg. cbn [addresses].
    destruct (bt_upstreams b) as [|u0 us]; [reflexivity|]. now rewrite (map_ext _ _ (inner_ext b look best ids system f g Hf Hg)).
Qed.
Print Assumptions C140_ends.

Lemma caching_loop_ext c look rq best best' : best rq = best' rq -> forall qs i resp,
  exec (caching_loop c look i rq qs resp) best = exec (caching_loop c look i rq qs resp) best'.
Proof.
  intros H. induction qs as [|q qs IH]; intros i resp; cbn [caching_loop]; [now destruct resp|].
  destruct (look i) as [[m ttl]|]; [reflexivity|]. cbn [exec]. rewrite H. destruct (best' rq) as [r|]; [|reflexivity].
  destruct r as [r|e]; [|apply IH]. destruct (rs_msg r); [|reflexivity]. apply IH.
Qed.

(** For a host the upstreams are asked for the addresses of this host only. *)
Theorem C140_asks : forall b look best best' ids system h fuel,
  (forall l rq, own_question (bt_version b) h rq -> best l rq = best' l rq) ->
  addresses b look best ids system fuel (AHost h) = addresses b look best' ids system fuel (AHost h).
Proof.
  intros b look best best' ids system h [|fuel] H; [reflexivity|]. cbn [addresses]. destruct (go_parse_ip h); [reflexivity|].
  destruct (bt_upstreams b) as [|u0 us] eqn:E; [reflexivity|]. rewrite <- E.
  assert (forall f, map (fun i => addresses b look best ids system f (ABoot i)) (seq 0 (length (bt_upstreams b))) =
    map (fun i => addresses b look best' ids system f (ABoot i)) (seq 0 (length (bt_upstreams b)))) as M
    by (intros f; apply map_ext; intros i; destruct f; reflexivity).
  rewrite M. set (inner := map _ _).
  match goal with |- match ?x with _ => _ end = match ?y with _ => _ end => assert (x = y) as -> end; [|reflexivity].
  assert (forall t, In t (qtypes (bt_version b)) ->
    boot_resolve b look (best inner) (boot_request (ids h t) h t) = boot_resolve b look (best' inner) (boot_request (ids h t) h t)) as A.
  { intros t Ht. assert (best inner (boot_request (ids h t) h t) = best' inner (boot_request (ids h t) h t)) as B.
    { apply H. unfold own_question, boot_request. cbn [req_ip req_client_id req_names req_proto req_msg new_msg_with_question m_response m_opcode m_rd m_cd m_answer m_ns m_extra m_question].
      do 11 (split; [reflexivity|]). eexists. split; [reflexivity|]. cbn [q_class q_name q_type]. split; [reflexivity|]. split.
      - unfold fqdn. destruct (has_suffix h _); auto.
      - unfold qtypes in Ht. destruct (bt_version b); cbn [In] in Ht; intuition. }
    unfold boot_resolve. set (rq := boot_request (ids h t) h t) in *.
    assert (forall bst, chain [filtering_resolve (bt_filter b); fun r => caching_resolve (bt_caching b) (look r) r] bst rq =
      exec (filtering_resolve (bt_filter b) rq) (fun r => exec (caching_resolve (bt_caching b) (look r) r) bst)) as C by reflexivity.
    rewrite !C. unfold filtering_resolve. destruct (m_question (req_msg rq)) as [|q0 qs0] eqn:Q; [reflexivity|].
    assert (exec (caching_resolve (bt_caching b) (look rq) rq) (best inner) = exec (caching_resolve (bt_caching b) (look rq) rq) (best' inner)) as D.
    { unfold caching_resolve. destruct (_ || _); [|now apply caching_loop_ext]. unfold pass. cbn [exec]. now rewrite B. }
    destruct (existsb _ _); [reflexivity|]. unfold pass. cbn [exec]. now rewrite D. }
  clear -A. induction (qtypes (bt_version b)) as [|t ts IH]; [reflexivity|]. cbn [fold_right]. rewrite A by (now left). rewrite IH by (intros t' Ht'; apply A; now right). reflexivity.
Qed.
Print Assumptions C140_asks.

(** A host that is an address needs no lookup. *)
Theorem C140_literal : forall b look best ids system h a fuel, ip_text h a -> 1 <= fuel -> addresses b look best ids system fuel (AHost h) = Found [Some a].
Proof. intros b look best ids system h a [|fuel] H Hf; [lia|]. apply C101_read in H. cbn [addresses]. now rewrite H. Qed.
Print Assumptions C140_literal.

(** Without a bootstrap DNS the resolver of the system is asked. *)
Theorem C140_system : forall filter c v b look best ids system h fuel, new_boot [] filter c v = inl b -> (forall a, ~ ip_text h a) -> 1 <= fuel ->
  addresses b look best ids system fuel (AHost h) = match system h v with inl l => Found (map Some l) | inr _ => NotFound end.
Proof.
  intros filter c v b look best ids system h [|fuel] Hb H Hf; [lia|]. apply no_ip_iff in H. apply new_boot_parts in Hb as [_ [Hk [_ [_ Hv]]]]. cbn [addresses].
  rewrite H. inversion Hk. now rewrite Hv.
Qed.
Print Assumptions C140_system.

Lemma bootstrap_enabled c : caching_enabled (bootstrap_caching c) = true.
Proof.
  unfold bootstrap_caching, enable_prefetch, caching_enabled. cbn [cc_min cc_max]. destruct (0 <? cc_min c)%Z; cbn [cc_max]; destruct (0 <=? cc_max c)%Z eqn:E; auto.
Qed.

Lemma addrs_ttl (f : rr -> N) l ips : addrs_of l ips -> addrs_of (map (fun r => set_ttl (f r) r) l) ips.
Proof.
  induction 1 as [|x a l ips H _ IH|x l ips H _ IH]; cbn [map]; [constructor|apply ao_addr; [exact H|exact IH]|apply ao_skip; [exact H|exact IH]].
Qed.

Lemma boot_ask items filter c v b look best id h t l : new_boot items filter c v = inl b ->
  brings b look best (boot_request id h t) t l ->
  exists res, boot_resolve b look best (boot_request id h t) = Some res /\ contributes res l.
Proof.
  intros Hb H. apply new_boot_parts in Hb as [_ [_ [_ [Hc _]]]]. unfold boot_resolve.
  change (chain ?ps best (boot_request id h t)) with (exec (filtering_resolve (bt_filter b) (boot_request id h t))
    (chain [fun rq => caching_resolve (bt_caching b) (look rq) rq] best)).
  destruct (C41_filtered (bt_filter b) (boot_request id h t) {| q_name := fqdn h; q_type := t; q_class := 1 |} []
    (chain [fun rq => caching_resolve (bt_caching b) (look rq) rq] best) eq_refl) as [F1 F2]. cbn [q_type] in F1, F2.
  inversion H as [Hi|m ttl l0 Hi Hl Hm|r m l0 Hi Hl Hr Hrm Hm]; subst.
  - destruct (F1 Hi) as [_ ->]. eexists. split; [reflexivity|]. eexists _, _. split; [reflexivity|]. split; [reflexivity|]. left. split; [reflexivity|constructor].
  - destruct (F2 Hi) as [_ ->]. change (chain [?p] best ?rq) with (exec (p rq) best). cbv beta.
    unfold caching_resolve. rewrite Hc, bootstrap_enabled. change (is_request_cacheable (boot_request id h t)) with true. cbn [negb orb].
    change (m_question (req_msg (boot_request id h t))) with [{| q_name := fqdn h; q_type := t; q_class := 1%N |}]. cbn [caching_loop]. rewrite Hl. cbn [exec]. eexists. split; [reflexivity|]. eexists _, _. split; [reflexivity|]. split; [reflexivity|].
    destruct Hm as [[Hm1 Hm2]|[Hm1 ->]]; [left; split; [exact Hm1|]|right; split; [exact Hm1|reflexivity]].
    unfold set_ttl_in_cached. cbn [set_answer m_answer].
    change (m_answer (set_rcode m (req_msg (boot_request id h t)) (m_rcode m))) with (m_answer m).
    match goal with |- addrs_of (map (fun r => set_ttl (@?f r) r) _) _ => exact (addrs_ttl f _ _ Hm2) end.
  - destruct (F2 Hi) as [_ ->]. change (chain [?p] best ?rq) with (exec (p rq) best). cbv beta.
    unfold caching_resolve. rewrite Hc, bootstrap_enabled. change (is_request_cacheable (boot_request id h t)) with true. cbn [negb orb].
    change (m_question (req_msg (boot_request id h t))) with [{| q_name := fqdn h; q_type := t; q_class := 1%N |}]. cbn [caching_loop]. rewrite Hl. cbn [exec]. rewrite Hr. rewrite Hrm. cbn [exec]. eexists. split; [reflexivity|]. eexists _, _. split; [reflexivity|]. split; [reflexivity|].
    destruct Hm as [[Hm1 Hm2]|[Hm1 ->]]; [left; split; [exact Hm1|]|right; split; [exact Hm1|reflexivity]].
    cbn [set_answer m_answer]. unfold adjust_ttls. destruct (m_answer m) as [|x xs]; [exact Hm2|]. cbn [fst]. exact (addrs_ttl (fun r => adjust_ttl (bootstrap_caching c) (rr_ttl r)) _ _ Hm2).
Qed.

(** A host gets all addresses that the lookups of the types in use bring, in order; the upstreams are asked with the addresses
    configured for them. *)
Theorem C140_looked_up : forall items filter c v b look best ids system h fuel as_ ls,
  new_boot items filter c v = inl b -> items <> [] -> (forall a, ~ ip_text h a) -> 2 <= fuel -> Forall2 item_addresses items as_ ->
  Forall2 (fun t l => brings b look (best (map Found as_)) (boot_request (ids h t) h t) t l)
    (match v with Dual => [1; 28] | V4 => [1] | V6 => [28] end)%N ls ->
  (concat ls <> [] -> addresses b look best ids system fuel (AHost h) = Found (map Some (concat ls))) /\
  (concat ls = [] -> addresses b look best ids system fuel (AHost h) = NotFound).
Proof.
  intros items filter c v b look best ids system h fuel as_ ls Hb Hi Hh Hf Ha Hl.
  destruct fuel as [|fuel]; [lia|]. assert (1 <= fuel) as Hf1 by lia. apply no_ip_iff in Hh. cbn [addresses]. rewrite Hh.
  destruct (C140_configured items filter c v b look best ids system fuel Hb Hf1) as [as2 [A1 A2]].
  pose proof (new_boot_parts _ _ _ _ _ Hb) as [_ [Hk [_ [_ Hv]]]].
  assert (as2 = as_) as Eas.
  { clear - Ha A1. revert as2 A1. induction Ha as [|it a items as_ H Ha IH]; intros as2 A1; inversion A1 as [|? a2 ? as2' H2 A1']; subst; [reflexivity|].
    f_equal; [|now apply IH]. inversion H as [u ips x Hx|u ips Hx]; subst; inversion H2 as [u2 ips2 x2 Hx2|u2 ips2 Hx2]; subst; auto.
    - do 2 f_equal. apply C101_read in Hx, Hx2. congruence.
    - elim (Hx2 _ Hx).
    - elim (Hx _ Hx2). }
  subst as2.
  assert (map (fun i => addresses b look best ids system fuel (ABoot i)) (seq 0 (length (bt_upstreams b))) = map Found as_) as E.
  { rewrite <- (same_length _ _ _ Hk), (same_length _ _ _ Ha).
    clear - A2.
    assert (forall (f : nat -> found) as_ k, (forall i l, nth_error as_ i = Some l -> f (k + i) = Found l) -> map f (seq k (length as_)) = map Found as_) as G;
      [|apply (G (fun i => addresses b look best ids system fuel (ABoot i)) as_ 0 A2)].
    clear. intros f. induction as_ as [|a as_ IH]; intros k H; [reflexivity|]. cbn [length seq map]. f_equal; [rewrite <- (Nat.add_0_r k); now apply H|]. apply IH. intros i l Hi.
    replace (S k + i) with (k + S i) by lia. now apply H. }
  destruct (bt_upstreams b) as [|u0 us] eqn:Eu; [inversion Hk; subst; congruence|]. rewrite E.
  assert (exists rs, fold_right (fun t acc => match boot_resolve b look (best (map Found as_)) (boot_request (ids h t) h t), acc with Some r, Some l => Some (r :: l) | _, _ => None end) (Some []) (qtypes (bt_version b)) = Some rs /\ Forall2 contributes rs ls) as [rs [-> Hrs]].
  { replace (qtypes (bt_version b)) with (match v with Dual => [1; 28] | V4 => [1] | V6 => [28] end)%N by (rewrite Hv; destruct v; reflexivity).
    revert Hl. generalize (match v with Dual => [1; 28] | V4 => [1] | V6 => [28] end)%N as ts. intros ts Hl.
    induction Hl as [|t l ts ls Ht Hl IH]; cbn [fold_right]; [eexists; split; [reflexivity|constructor]|]. destruct IH as [rs [-> IH]].
    destruct (boot_ask _ _ _ _ _ _ _ _ _ _ _ Hb Ht) as [res [Er Cr]]. rewrite Er. eexists. split; [reflexivity|]. now constructor. }
  rewrite (resolve_types_ok rs ls [] false Hrs). cbn [app]. destruct (concat ls) as [|a l]; split; intros; congruence.
Qed.
Print Assumptions C140_looked_up.

(** ** C141: the cache of the bootstrap *)

(** It caches and reloads each expired name, whatever is configured for the cache of the server. *)
Theorem C141_always_reloads : forall c now k names reload,
  caching_enabled (bootstrap_caching c) = true /\ cc_prefetching (bootstrap_caching c) = true /\
  fst (fst (on_expired (T := msg) (cc_pf (bootstrap_caching c)) now reload k names)) = true.
Proof.
  intros c now k names reload. split; [apply bootstrap_enabled|]. unfold bootstrap_caching. cbn [enable_prefetch cc_min]. destruct (0 <? cc_min c)%Z; split; reflexivity.
Qed.
Print Assumptions C141_always_reloads.

(** The time an answer is kept for is at least an hour, unless the user set a smallest time, or a largest one below an hour. *)
Theorem C141_hour_partial : forall c x l, sane_cfg c -> (cc_min c <= 0)%Z -> (cc_max c <= 0 \/ 3600 * 1000000000 <= cc_max c)%Z ->
  (3600 * 1000000000 <= snd (adjust_ttls (bootstrap_caching c) (x :: l)))%Z.
Proof.
  intros c x l [_ [Hs _]] Hmin Hmax. unfold adjust_ttls. cbn [snd].
  assert (forall t, 3600 <= adjust_ttl (bootstrap_caching c) t)%N as Ht.
  { intros t. unfold bootstrap_caching, enable_prefetch, caching_enabled. cbn [cc_min]. destruct (Z.ltb_spec 0 (cc_min c)); [lia|]. unfold adjust_ttl. cbn [cc_min cc_max].
    change (seconds_u32 (3600 * 1000000000)) with 3600%N. change (0 <? 3600 * 1000000000)%Z with true. cbn [andb].
    assert (3600 <= if (t <? 3600) then 3600 else t)%N as A by (destruct (N.ltb_spec t 3600); lia). revert A. generalize (if (t <? 3600) then 3600 else t)%N as t1. intros t1 A.
    destruct (_ && _) eqn:E; [|exact A]. apply andb_true_iff in E as [E1 E2]. destruct (Z.leb_spec 0 (cc_max c)).
    - apply Z.ltb_lt in E1. unfold seconds_u32, u32. rewrite Z.mod_small.
      + apply N2Z.inj_le. rewrite Z2N.id by (apply Z.quot_pos; lia). change (Z.of_N 3600) with 3600%Z. apply Z.quot_le_lower_bound; lia.
      + split; [apply Z.quot_pos; lia|]. apply Z.quot_lt_upper_bound; lia.
    - now vm_compute. }
  assert (forall rs a, (3600 <= a)%N -> (forall r, In r rs -> 3600 <= rr_ttl r)%N -> 3600 <= fold_left (fun m r => N.min m (rr_ttl r)) rs a)%N as G.
  { induction rs as [|r rs IH]; intros a Ha Hr; [exact Ha|]. cbn [fold_left]. apply IH; [specialize (Hr r (or_introl eq_refl)); lia|]. intros r' Hr'. apply Hr. now right. }
  assert (3600 <= fold_left (fun m r => N.min m (rr_ttl r)) (map (fun r => set_ttl (adjust_ttl (bootstrap_caching c) (rr_ttl r)) r) (x :: l)) max_int32)%N as H.
  { apply G; [now vm_compute|]. intros r Hr. apply in_map_iff in Hr as [r0 [<- _]]. apply Ht. }
  revert H. generalize (fold_left (fun m r => N.min m (rr_ttl r)) (map (fun r => set_ttl (adjust_ttl (bootstrap_caching c) (rr_ttl r)) r) (x :: l)) max_int32). intros n H. lia.
Qed.
Print Assumptions C141_hour_partial.

(** A smallest time set by the user is used as it is. *)
Theorem C141_user_min : forall c t, (0 < cc_min c)%Z -> (0 <= cc_max c)%Z -> adjust_ttl (bootstrap_caching c) t = adjust_ttl c t.
Proof.
  intros c t H1 H2. unfold bootstrap_caching, enable_prefetch, caching_enabled. cbn [cc_min]. destruct (Z.ltb_spec 0 (cc_min c)); [|lia]. unfold adjust_ttl. cbn [cc_min cc_max].
  destruct (Z.leb_spec 0 (cc_max c)); [reflexivity|lia].
Qed.
Print Assumptions C141_user_min.

(** ** Cases *)
Definition plain_nodes : list (str * node) -> option upstream := fun _ => None.

(** The example of docs/configuration.md:216-224. *)
Definition ex_boot_node : node :=
  YList [YMap [($"upstream", YText $"tcp-tls:dns.example.com"); ($"ips", YList [YText $"123.123.123.123"])];
         YMap [($"upstream", YText $"https://234.234.234.234/dns-query")]].
Definition ex_dot : upstream := {| u_net := TcpTls; u_host := $"dns.example.com"; u_port := 853; u_path := []; u_cn := [] |}.
Definition ex_doh : upstream := {| u_net := Https; u_host := $"234.234.234.234"; u_port := 443; u_path := $"/dns-query"; u_cn := [] |}.
Definition ex_boot_items : list (upstream * list (option ip)) := [(ex_dot, [Some (IP4 [123; 123; 123; 123]%N)]); (ex_doh, [])].

Example C139_example :
  bootstrap_node plain_nodes ex_boot_node = Some ex_boot_items /\
  bootstrap_node plain_nodes (YMap [($"ips", YList []); ($"upstream", YText $"9.9.9.9")]) =
    bootstrap_node plain_nodes (YText $"9.9.9.9") /\
  bootstrap_node plain_nodes (YText $"9.9.9.9") <> None /\
  bootstrap_node plain_nodes (YList [YText $"9.9.9.9"; YMap [($"upstrem", YText $"9.9.9.9")]]) = None /\
  new_bootstraped ex_boot_items = inl [(ex_dot, [Some (IP4 [123; 123; 123; 123]%N)]); (ex_doh, [Some (IP4 [234; 234; 234; 234]%N)])] /\
  new_bootstraped [(ex_dot, []); (ex_doh, []); (no_upstream, [Some (IP4 [9; 9; 9; 9]%N)]);
    ({| u_net := TcpUdp; u_host := $"dns.example.com"; u_port := 53; u_path := []; u_cn := [] |}, [Some (IP4 [9; 9; 9; 9]%N)])] = inr [1; 3; 4].
Proof. repeat split; try reflexivity. discriminate. Qed.

(** An empty text among the addresses is accepted, and counts as the address of the upstream. *)
Theorem C139_empty_address_refuted : exists n u,
  bootstrap_node plain_nodes n = Some [(u, [None])] /\ new_bootstraped [(u, [None])] = inl [(u, [None])] /\
  forall b look best ids system, bt_upstreams b = [(u, [None])] -> addresses b look best ids system 1 (ABoot 0) = Found [None].
Proof.
  exists (YMap [($"upstream", YText $"tcp-tls:dns.example.com"); ($"ips", YList [YText []])]), ex_dot. split; [reflexivity|]. split; [reflexivity|].
  intros b look best ids system Hb. cbn [addresses]. rewrite Hb. reflexivity.
Qed.
Print Assumptions C139_empty_address_refuted.

Definition ex_caching (mn mx : Z) : caching_cfg :=
  {| cc_min := mn; cc_max := mx; cc_neg := 1800 * 1000000000; cc_prefetching := false;
     cc_pf := {| pf_size := 3; pf_names_size := 3; pf_threshold := 5; pf_expires := 7200000000000 |} |}.
Definition ex_boot : boot :=
  {| bt_upstreams := [(ex_dot, [Some (IP4 [123; 123; 123; 123]%N)]); (ex_doh, [Some (IP4 [234; 234; 234; 234]%N)])];
     bt_filter := [28%N]; bt_caching := bootstrap_caching (ex_caching 0 (-1)); bt_version := Dual |}.
(** Upstreams which answer with an address of the first upstream's own. *)
Definition ex_best (as_ : list found) : next_fn := fun rq =>
  match as_ with
  | Found (Some a :: _) :: _ => Some (Ok {| rs_msg := Some (set_answer [{| rr_name := $"dns.example.org."; rr_type := 1; rr_class := 1; rr_ttl := 60; rr_data := DA a |}] (set_reply empty_msg (req_msg rq)));
                                            rs_reason := $"RESOLVED"; rs_type := RESOLVED |})
  | _ => Some (Err $"no address")
  end.

Example C140_example :
  new_boot ex_boot_items [28%N] (ex_caching 0 (-1)) Dual = inl ex_boot /\
  Forall2 (fun t l => brings ex_boot (fun _ _ => None) (ex_best (map Found [[Some (IP4 [123; 123; 123; 123]%N)]; [Some (IP4 [234; 234; 234; 234]%N)]]))
      (boot_request 7 $"dns.example.org" t) t l) [1; 28]%N [[IP4 [123; 123; 123; 123]%N]; []] /\
  addresses ex_boot (fun _ _ => None) ex_best (fun _ _ => 7%N) (fun _ _ => inr tt) 2 (AHost $"dns.example.org") = Found [Some (IP4 [123; 123; 123; 123]%N)] /\
  addresses ex_boot (fun _ _ => None) ex_best (fun _ _ => 7%N) (fun _ _ => inr tt) 2 (AHost $"192.0.2.7") = Found [Some (IP4 [192; 0; 2; 7]%N)].
Proof.
  split; [reflexivity|]. split; [|split; reflexivity].
  repeat constructor.
  - eapply br_asked; [cbn; intuition discriminate|reflexivity|reflexivity|reflexivity|]. left. split; [reflexivity|]. apply ao_addr; [now left|constructor].
Qed.

(** The addresses listed for an upstream whose host is itself an address are accepted and never used, also for encrypted upstreams. *)
Theorem C140_ips_ignored_refuted : exists u a items filter c v b, u_net u = TcpTls /\ items = [(u, [Some a])] /\ new_boot items filter c v = inl b /\
  forall look best ids system fuel, 1 <= fuel -> exists l, addresses b look best ids system fuel (ABoot 0) = Found l /\ ~ In (Some a) l.
Proof.
  exists {| u_net := TcpTls; u_host := $"192.0.2.1"; u_port := 853; u_path := []; u_cn := $"dns.example.com" |}, (IP4 [192; 0; 2; 2]%N). eexists _, [], (ex_caching 0 0), V4. eexists.
  split; [reflexivity|]. split; [reflexivity|]. split; [reflexivity|]. intros look best ids system [|fuel] Hf; [lia|]. eexists. split; [reflexivity|].
  cbn. intros [H|[]]. discriminate.
Qed.
Print Assumptions C140_ips_ignored_refuted.

Definition ex_short : rr := {| rr_name := $"dns.example.org."; rr_type := 1; rr_class := 1; rr_ttl := 60; rr_data := DA (IP4 [192; 0; 2; 7]%N) |}.
Example C141_example :
  snd (adjust_ttls (bootstrap_caching (ex_caching 0 0)) [ex_short]) = (3600 * 1000000000)%Z /\
  snd (adjust_ttls (bootstrap_caching (ex_caching 0 (-1))) [ex_short]) = (3600 * 1000000000)%Z /\
  snd (adjust_ttls (bootstrap_caching (ex_caching (300 * 1000000000) 0)) [ex_short]) = (300 * 1000000000)%Z /\
  cc_max (bootstrap_caching (ex_caching 0 (-1))) = (86400 * 1000000000)%Z /\ cc_max (bootstrap_caching (ex_caching 0 7)) = 7%Z.
Proof. repeat split; reflexivity. Qed.

(** With a largest time below an hour the names are looked up again
    more often than each hour, though no smallest time was set. *)
Theorem C141_hour_refuted : exists c rs, sane_cfg c /\ (cc_min c <= 0)%Z /\ rs <> [] /\
  (snd (adjust_ttls (bootstrap_caching c) rs) < 3600 * 1000000000)%Z.
Proof.
  exists (ex_caching 0 (60 * 1000000000)), [ex_short]. split; [repeat split|]. split; [discriminate|]. split; [discriminate|]. reflexivity.
Qed.
Print Assumptions C141_hour_refuted.
