(** Theorems about the texts of mappings (C115, C117) and about zones (C116). *)
From Coq Require Import String Ascii List Arith NArith Bool Permutation Lia.
From Verif Require Import Str StrFacts StringCacheSpec Dns Resolver CachingSpec Blocking BlockingSpec BlockingProofs
  Custom CustomSpec CustomProofs CustomProps Conditional ConditionalSpec ConditionalProps
  Ip IpSpec IpProps ConfUpstream ConfUpstreamSpec ConfUpstreamProps ConfMapping ConfMappingSpec.
Import ListNotations.
Open Scope list_scope.

Lemma comma_list_iff s ps : comma_list s ps <-> ps = split_byte ","%char s.
Proof.
  split.
  - induction 1 as [p H|p s ps H _ IH]; [now rewrite split_byte_no|].
    rewrite split_byte_app, (split_byte_no _ _ H), IH. reflexivity.
  - intros ->. remember (split_byte ","%char s) as ps eqn:E. pose proof (join_split ","%char s) as J.
    pose proof (split_byte_no_sep ","%char s) as N. rewrite <- E in J, N.
    pose proof (split_byte_nonempty ","%char s) as Hn. rewrite <- E in Hn. clear E. revert s J.
    induction ps as [|p ps IH]; intros s J; [congruence|]. destruct ps as [|p' ps].
    + cbn in J. subst s. constructor. apply N. now left.
    + change (join [","%char] (p :: p' :: ps)) with (p ++ [","%char] ++ join [","%char] (p' :: ps)) in J. cbn [app] in J. subst s. constructor; [apply N; now left|].
      apply IH; [intros x Hx; apply N; now right|discriminate|reflexivity].
Qed.

Lemma read_all_iff {A} (read : str -> option A) means : (forall s a, read s = Some a <-> means s a) ->
  forall ps l, read_all read ps = Some l <-> Forall2 means (map trim_space ps) l.
Proof.
  intros H. induction ps as [|p ps IH]; intros l; cbn [read_all map].
  - split; [intros [= <-]; constructor|intros G; now inversion G].
  - split.
    + destruct (read (trim_space p)) as [a|] eqn:E; [|discriminate]. destruct (read_all read ps) as [l'|] eqn:E'; [|discriminate].
      intros [= <-]. constructor; [now apply H|now apply IH].
    + intros G. inversion G as [|x a y l' Ha Hl]; subst. apply H in Ha. rewrite Ha. apply IH in Hl. now rewrite Hl.
Qed.

Lemma trimmed_map ps ts : Forall2 trimmed ps ts <-> ts = map trim_space ps.
Proof.
  split.
  - induction 1 as [|p t ps ts H _ IH]; [reflexivity|]. apply trimmed_iff in H. cbn. now subst.
  - intros ->. induction ps; cbn; constructor; auto. now apply trimmed_iff.
Qed.

Lemma reads_as_iff {A} (read : str -> option A) means : (forall s a, read s = Some a <-> means s a) ->
  forall s l, read_all read (split_byte ","%char s) = Some l <-> reads_as means s l.
Proof.
  intros H s l. rewrite (read_all_iff read means H). unfold reads_as. split.
  - intros G. exists (split_byte ","%char s), (map trim_space (split_byte ","%char s)). split; [now apply comma_list_iff|]. split; [now apply trimmed_map|exact G].
  - intros [ps [ts [H1 [H2 H3]]]]. apply comma_list_iff in H1. apply trimmed_map in H2. now subst.
Qed.

(** ** C115 *)
Definition ip_rr (i : ip) : rr := {| rr_name := []; rr_type := 0; rr_class := 0; rr_ttl := 0; rr_data := address_data i |}.

Lemma custom_entries_iff s es : custom_entries s = Some es <-> exists l, reads_as ip_text s l /\ es = map ip_rr l.
Proof.
  unfold custom_entries. rewrite (reads_as_iff config_to_rr (fun t r => exists i, ip_text t i /\ r = ip_rr i)).
  - unfold reads_as. split.
    + intros [ps [ts [H1 [H2 H3]]]]. assert (exists l, Forall2 ip_text ts l /\ es = map ip_rr l) as [l [G1 G2]].
      { clear H1 H2. induction H3 as [|t r ts es [i [Hi ->]] _ [l [G1 ->]]]; [now exists []|]. exists (i :: l). split; [now constructor|reflexivity]. }
      exists l. split; [exists ps, ts; auto|exact G2].
    + intros [l [[ps [ts [H1 [H2 H3]]]] ->]]. exists ps, ts. split; auto. split; auto. clear H1 H2.
      induction H3; cbn [map]; constructor; eauto.
  - intros t r. unfold config_to_rr. split.
    + destruct (go_parse_ip t) as [i|] eqn:E; [|discriminate]. intros [= <-]. exists i. split; [now apply C101_read|]. now destruct i.
    + intros [i [Hi ->]]. apply C101_read in Hi. rewrite Hi. now destruct i.
Qed.

(** A text is accepted exactly if all its comma-separated parts are addresses, and then it stands for them in order. *)
Theorem C115_text : forall s,
  ((exists es, custom_entries s = Some es) <-> exists l, reads_as ip_text s l) /\
  (forall es l, custom_entries s = Some es -> reads_as ip_text s l -> map rr_data es = map address_data l).
Proof.
  intros s. split.
  - split.
    + intros [es H]. apply custom_entries_iff in H as [l [H _]]. eauto.
    + intros [l H]. exists (map ip_rr l). apply custom_entries_iff. eauto.
  - intros es l H Hl. assert (custom_entries s = Some (map ip_rr l)) as E by (apply custom_entries_iff; eauto).
    assert (es = map ip_rr l) as -> by congruence. now rewrite map_map.
Qed.
Print Assumptions C115_text.

(** A mapping is accepted exactly if all its texts are; nothing else is in it. *)
Lemma read_mapping_iff {A} (read : str -> option A) texts : forall m, read_mapping read texts = Some m <->
  Forall2 (fun kt ka => fst kt = fst ka /\ read (snd kt) = Some (snd ka)) texts m.
Proof.
  induction texts as [|[k t] texts IH]; intros m; cbn [read_mapping].
  - split; [intros [= <-]; constructor|intros H; now inversion H].
  - split.
    + destruct (read t) as [a|] eqn:E; [|discriminate]. destruct (read_mapping read texts) as [m'|]; [|discriminate].
      intros [= <-]. constructor; [cbn; auto|now apply IH].
    + intros H. inversion H as [|x [k' a] y m' [H1 H2] H3]; subst. cbn in H1, H2. subst k'. rewrite H2. apply IH in H3. now rewrite H3.
Qed.

Theorem C115_refused : forall texts,
  (exists m, read_mapping custom_entries texts = Some m) <-> forall k t, In (k, t) texts -> exists l, reads_as ip_text t l.
Proof.
  intros texts. split.
  - intros [m H] k t Hin. apply read_mapping_iff in H. induction H as [|kt ka texts m [_ H] _ IH]; [destruct Hin|].
    destruct Hin as [->|Hin]; [|auto]. apply (proj1 (C115_text t)). eauto.
  - intros H. induction texts as [|[k t] texts IH]; [exists []; reflexivity|]. cbn [read_mapping].
    destruct (proj2 (proj1 (C115_text t)) (H k t (or_introl eq_refl))) as [es ->].
    destruct IH as [m ->]; [intros k' t' G; eapply H; right; exact G|]. eauto.
Qed.
Print Assumptions C115_refused.

Lemma plain_name_fun u d d' : plain_name u d -> plain_name u d' -> d = d'.
Proof. intros H H'. apply plain_name_iff in H, H'. congruence. Qed.

Lemma distinct_texts_mapping {A} (read : str -> option A) texts m :
  (forall i j u t u' t' d, nth_error texts i = Some (u, t) -> nth_error texts j = Some (u', t') -> plain_name u d -> plain_name u' d -> i = j) ->
  read_mapping read texts = Some m ->
  forall i j u a u' a' d, nth_error m i = Some (u, a) -> nth_error m j = Some (u', a') -> plain_name u d -> plain_name u' d -> i = j.
Proof.
  intros Hd H i j u a u' a' d Hi Hj Hu Hu'. apply read_mapping_iff in H.
  assert (forall i u a, nth_error m i = Some (u, a) -> exists t, nth_error texts i = Some (u, t)) as Hx.
  { clear -H. induction H as [|[k t] [k' a0] texts m [E _] _ IH]; intros i u a Hi; [now destruct i|].
    destruct i as [|i]; [|now apply (IH i u a)]. cbn in Hi, E. injection Hi as <- <-. subst. eexists; reflexivity. }
  destruct (Hx _ _ _ Hi) as [t Ht]. destruct (Hx _ _ _ Hj) as [t' Ht']. eapply Hd; eauto.
Qed.

Lemma sub_length n d : same_or_sub n d -> length d <= length n.
Proof. intros [->|[p ->]]; [auto|]. rewrite app_length. cbn. lia. Qed.

Lemma contributes_addresses q ttl : forall l es ls, Forall2 (fun e0 e => same_record e0 e /\ rr_ttl e = ttl) (map ip_rr l) es ->
  Forall2 (contributes q) es ls ->
  Forall2 (fun i r => own_record q (q_type q) ttl (address_data i) r) (filter (of_family (q_type q)) l) (concat ls).
Proof.
  induction l as [|i l IH]; intros es ls He Hl; cbn [map] in He; inversion He as [|e0 e x es' [[_ [_ [_ Hs]]] Ht] Hes]; subst; inversion Hl as [|y z es'' ls' Hc Hls]; subst;
    cbn [filter concat]; [constructor|].
  specialize (IH _ _ Hes Hls). cbn [ip_rr rr_data] in Hs. unfold contributes in Hc. rewrite <- Hs in Hc.
  destruct i as [b|b]; cbn [address_data of_family asks_for] in *; destruct (N.eqb_spec (q_type q) 1) as [E1|E1]; destruct (N.eqb_spec (q_type q) 28) as [E2|E2]; try congruence.
  all: destruct Hc as [[d [r [[Ha ->] [Ho ->]]]]|[Hn ->]]; try contradiction.
  all: try (exfalso; eapply Hn; split; [eassumption|reflexivity]).
  all: cbn [app]; try exact IH; constructor; auto.
Qed.

(** The answer to a query for a mapped name (with a type other than PTR): exactly the addresses of the asked family
    written in its text, in their order, with the configured TTL. *)
Theorem C115_answers : forall texts m zone ttl filt new_id stuck records fuel req q qs next u t l d,
  let cfg := {| cu_mapping := m; cu_zone := zone; cu_ttl := ttl; cu_filter := filt |} in
  read_mapping custom_entries texts = Some m ->
  (forall i j u t u' t' d, nth_error texts i = Some (u, t) -> nth_error texts j = Some (u', t') -> plain_name u d -> plain_name u' d -> i = j) ->
  distinct_names zone -> (forall z es, In (z, es) zone -> ~ plain_name z d) ->
  In (u, t) texts -> reads_as ip_text t l -> plain_name u d -> d <> [] ->
  order_of cfg records -> 0 < fuel -> m_question (req_msg req) = q :: qs -> plain_name (q_name q) d -> q_type q <> 12%N ->
  filter (of_family (q_type q)) l <> [] \/ filt = true ->
  exists ans, exec (custom_resolve cfg new_id stuck records fuel req) next = Some (Ok (custom_reply req q ans)) /\
    Forall2 (fun i r => own_record q (q_type q) ttl (address_data i) r) (filter (of_family (q_type q)) l) ans.
Proof.
  intros texts m zone ttl filt new_id stuck records fuel req q qs next u t l d cfg Hm Hd Hz Hnz Hin Hl Hu Hdn Hp Hf Hq Hqd Hty Hans.
  assert (distinct_cfg cfg) as Hdc by (split; [exact (distinct_texts_mapping _ _ _ Hd Hm)|exact Hz]).
  assert (In (u, map ip_rr l) m) as Him.
  { assert (custom_entries t = Some (map ip_rr l)) as E by (apply custom_entries_iff; eauto).
    apply read_mapping_iff in Hm. clear -Hm Hin E. induction Hm as [|[k t0] [k' a] texts m [H1 H2] _ IH]; [destruct Hin|].
    cbn [fst snd] in H1, H2. destruct Hin as [Hx|Hin]; [left|right; auto]. injection Hx as Hx1 Hx2. rewrite Hx2, E in H2. injection H2 as <-. now subst. }
  set (es := map (set_ttl ttl) (map ip_rr l)).
  assert (Forall2 (fun e0 e => same_record e0 e /\ rr_ttl e = ttl) (map ip_rr l) es) as Hes.
  { unfold es. clear. induction (map ip_rr l) as [|e es IH]; cbn; constructor; auto. split; [repeat split|reflexivity]. }
  assert (configured cfg d es) as Hc by (right; split; [exact Hnz|]; exists u, (map ip_rr l); auto).
  assert (decides cfg q es) as Hdec.
  { exists d. split; [|split; [exact Hc|]].
    - split; [exact Hdn|]. split; [eauto|]. exists d. split; [exact Hqd|now left].
    - intros d' [_ [_ [n [Hn Hs]]]]. rewrite (plain_name_fun _ _ _ Hqd Hn). now apply sub_length. }
  destruct (C35_right_records cfg new_id stuck records fuel req q qs next es Hdc Hp Hf Hq) as [ls [H1 [H2 _]]].
  - now left.
  - exact Hdec.
  - intros e He. unfold es in He. rewrite map_map in He. apply in_map_iff in He as [i [<- _]]. cbn. now destruct i.
  - pose proof (contributes_addresses q ttl l es ls Hes H1) as H3. exists (concat ls). split; [|exact H3].
    apply H2. destruct Hans as [Hans| ->]; [left|right; reflexivity].
    intros E. rewrite E in H3. inversion H3 as [E'|]. now rewrite <- E' in Hans.
Qed.
Print Assumptions C115_answers.

(** Two keys that differ only in case: the answer depends on the order in which Go iterates over the map. *)
Theorem C115_case_refuted : exists texts texts' m m' req, Permutation texts texts' /\ NoDup (map fst texts) /\
  read_mapping custom_entries texts = Some m /\ read_mapping custom_entries texts' = Some m' /\
  let run m := let cfg := {| cu_mapping := m; cu_zone := []; cu_ttl := 60; cu_filter := true |} in
    exec (custom_resolve cfg (fun _ => 1%N) Crash (custom_records cfg) 2 req) (fun _ => None) in
  exists r r', run m = Some (Ok r) /\ run m' = Some (Ok r') /\ r <> r'.
Proof.
  exists [($"nas.lan", $"192.0.2.1"); ($"NAS.lan", $"192.0.2.2")], [($"NAS.lan", $"192.0.2.2"); ($"nas.lan", $"192.0.2.1")].
  do 2 eexists. exists (new_request 7 $"nas.lan" 1). split; [constructor|]. split; [repeat constructor; cbn; intuition discriminate|].
  split; [vm_compute; reflexivity|]. split; [vm_compute; reflexivity|]. cbv zeta. do 2 eexists.
  split; [vm_compute; reflexivity|]. split; [vm_compute; reflexivity|]. discriminate.
Qed.
Print Assumptions C115_case_refuted.

Example C115_example :
  reads_as ip_text $"192.0.2.1, 2001:db8::1 ,192.0.2.7" [IP4 [192;0;2;1]%N; IP6 [32;1;13;184;0;0;0;0;0;0;0;0;0;0;0;1]%N; IP4 [192;0;2;7]%N] /\
  custom_entries $"192.0.2.1," = None /\ custom_entries $"nas.lan" = None /\
  (let m := [($"nas.lan", map ip_rr [IP4 [192;0;2;1]%N; IP6 [32;1;13;184;0;0;0;0;0;0;0;0;0;0;0;1]%N; IP4 [192;0;2;7]%N])] in
   read_mapping custom_entries [($"nas.lan", $"192.0.2.1, 2001:db8::1 ,192.0.2.7")] = Some m /\
   let cfg := {| cu_mapping := m; cu_zone := []; cu_ttl := 60; cu_filter := true |} in
   let q := {| q_name := $"NAS.lan."; q_type := 1; q_class := 1 |} in
   exec (custom_resolve cfg (fun _ => 1%N) Crash (custom_records cfg) 2 (new_request 7 $"NAS.lan" 1)) (fun _ => None) =
     Some (Ok (custom_reply (new_request 7 $"NAS.lan" 1) q
       [mk_rr $"NAS.lan." 1 60 (DA (IP4 [192;0;2;1]%N)); mk_rr $"NAS.lan." 1 60 (DA (IP4 [192;0;2;7]%N))]))).
Proof.
  split.
  - apply (reads_as_iff go_parse_ip ip_text C101_read). vm_compute. reflexivity.
  - split; [vm_compute; reflexivity|]. split; [vm_compute; reflexivity|]. split; vm_compute; reflexivity.
Qed.

(** ** C116 *)
Definition group_of (m : list (str * list rr)) (k : str) : list rr := match mget str_eqb k m with Some l => l | None => [] end.

Lemma zone_groups_get rrs : forall m k,
  group_of (fold_left (fun m r => mput str_eqb (rr_name r) (group_of m (rr_name r) ++ [r]) m) rrs m) k =
  group_of m k ++ filter (fun r => str_eqb (rr_name r) k) rrs.
Proof.
  induction rrs as [|r rrs IH]; intros m k; cbn [fold_left filter]; [now rewrite app_nil_r|].
  rewrite IH. destruct (str_eqb_spec (rr_name r) k) as [<-|Hn].
  - unfold group_of at 1. rewrite mget_mput_same. now rewrite <- app_assoc.
  - unfold group_of at 1. rewrite mget_mput_other by auto. reflexivity.
Qed.

Lemma zone_groups_keys rrs : forall m k, In k (map fst (fold_left (fun m r => mput str_eqb (rr_name r) (group_of m (rr_name r) ++ [r]) m) rrs m)) <->
  In k (map fst m) \/ exists r, In r rrs /\ rr_name r = k.
Proof.
  induction rrs as [|r rrs IH]; intros m k; cbn [fold_left].
  - split; [auto|intros [H|[r [[] _]]]; auto].
  - rewrite IH, mput_keys. split.
    + intros [[->|H]|[x [H1 H2]]]; [right; exists r; split; [now left|auto]|now left|right; exists x; split; [now right|auto]].
    + intros [H|[x [[->|H1] H2]]]; [auto|left; left; auto|right; eauto].
Qed.

Lemma zone_groups_NoDup rrs : forall m, NoDup (map fst m) ->
  NoDup (map fst (fold_left (fun m r => mput str_eqb (rr_name r) (group_of m (rr_name r) ++ [r]) m) rrs m)).
Proof. induction rrs as [|r rrs IH]; intros m H; cbn [fold_left]; auto. apply IH, mput_NoDup, H. Qed.

Lemma zone_groups_In rrs k es : In (k, es) (zone_groups rrs) <-> (exists r, In r rrs /\ rr_name r = k) /\ es = filter (fun r => str_eqb (rr_name r) k) rrs.
Proof.
  pose proof (zone_groups_get rrs [] k) as G. pose proof (zone_groups_keys rrs [] k) as K. pose proof (zone_groups_NoDup rrs [] (NoDup_nil _)) as N.
  change (fold_left (fun m r => mput str_eqb (rr_name r) (group_of m (rr_name r) ++ [r]) m) rrs []) with (zone_groups rrs) in *.
  cbn [group_of mget app] in G. unfold group_of in G. split.
  - intros H. pose proof H as H'. apply mget_NoDup_In in H'; auto. rewrite H' in G. split; [|exact G].
    apply (in_map fst) in H. apply K in H as [[]|H]. exact H.
  - intros [H ->]. assert (In k (map fst (zone_groups rrs))) as Hk by (apply K; now right).
    apply in_map_iff in Hk as [[k' es] [E H']]. cbn in E. subst k'. pose proof H' as H2. apply mget_NoDup_In in H2; auto. rewrite H2 in G. now subst es.
Qed.

(** The records of a zone whose names denote different domains unless they are written alike: for each domain with a
    record in the zone exactly its records are configured, in their order, whatever the mapping says. *)
Theorem C116_zone_partial : forall rrs zone mapping ttl filt,
  (forall r r' d, In r rrs -> In r' rrs -> plain_name (rr_name r) d -> plain_name (rr_name r') d -> rr_name r = rr_name r') ->
  Permutation zone (zone_groups rrs) ->
  let cfg := {| cu_mapping := mapping; cu_zone := zone; cu_ttl := ttl; cu_filter := filt |} in
  distinct_names zone /\
  forall d, (exists r, In r rrs /\ plain_name (rr_name r) d) ->
  forall es, configured cfg d es <-> picked (fun r => plain_name (rr_name r) d) rrs es.
Proof.
  intros rrs zone mapping ttl filt Hd Hp cfg.
  assert (forall k es, In (k, es) zone <-> (exists r, In r rrs /\ rr_name r = k) /\ es = filter (fun r => str_eqb (rr_name r) k) rrs) as Hz.
  { intros k es. rewrite <- zone_groups_In. split; apply Permutation_in; [exact Hp|exact (Permutation_sym Hp)]. }
  assert (NoDup (map fst zone)) as Hn.
  { eapply Permutation_NoDup; [apply Permutation_map, Permutation_sym, Hp|]. exact (zone_groups_NoDup rrs [] (NoDup_nil _)). }
  split.
  - intros i j u es u' es' d Hi Hj Hu Hu'. pose proof (nth_error_In _ _ Hi) as H1. pose proof (nth_error_In _ _ Hj) as H2.
    apply Hz in H1 as [[r [R1 <-]] _]. apply Hz in H2 as [[r' [R2 <-]] _].
    rewrite NoDup_nth_error in Hn. apply Hn; [rewrite map_length; apply nth_error_Some; congruence|].
    rewrite !nth_error_map, Hi, Hj. cbn. f_equal. eapply Hd; eauto.
  - intros d [r [Hr Hrd]] es.
    assert (forall l, (forall x, In x l -> In x rrs) -> picked (fun x => plain_name (rr_name x) d) l (filter (fun x => str_eqb (rr_name x) (rr_name r)) l)) as Hpick.
    { induction l as [|x l IH]; intros Hl; cbn [filter]; [constructor|].
      assert (picked (fun x => plain_name (rr_name x) d) l (filter (fun x => str_eqb (rr_name x) (rr_name r)) l)) as IHl by (apply IH; intros; apply Hl; now right).
      destruct (str_eqb_spec (rr_name x) (rr_name r)) as [E|E]; constructor; auto; [congruence|].
      intros Hx. apply E. apply (Hd x r d); auto. apply Hl. now left. }
    assert (forall l a b, picked (fun x => plain_name (rr_name x) d) l a -> picked (fun x => plain_name (rr_name x) d) l b -> a = b) as Hfun.
    { intros l a b Ha. revert b. induction Ha as [|x l l' Px _ IH|x l l' Px _ IH]; intros b Hb; inversion Hb; subst; try contradiction; auto. f_equal. auto. }
    specialize (Hpick rrs (fun x H => H)). split.
    + intros [[u [Hin Hu]]|[Hno _]].
      * apply Hz in Hin as [[r' [R1 <-]] ->]. rewrite (Hd r' r d R1 Hr Hu Hrd). exact Hpick.
      * exfalso. eapply (Hno (rr_name r)); [apply Hz; split; [eauto|reflexivity]|exact Hrd].
    + intros H. rewrite (Hfun _ _ _ H Hpick). left. exists (rr_name r). split; [apply Hz; split; [eauto|reflexivity]|exact Hrd].
Qed.
Print Assumptions C116_zone_partial.

Definition ex_host_zone : list rr :=
  [mk_rr $"Host.lan." 1 60 (DA (IP4 [192;0;2;1]%N)); mk_rr $"host.lan." 28 60 (DAAAA (IP6 [32;1;13;184;0;0;0;0;0;0;0;0;0;0;0;1]%N))].

(** Two records of one domain, written with different case: in whatever order the map is gone through, one of them is
    never answered. *)
Theorem C116_case_refuted : forall zone, Permutation zone (zone_groups ex_host_zone) ->
  exists r, In r ex_host_zone /\
  let cfg := {| cu_mapping := []; cu_zone := zone; cu_ttl := 60; cu_filter := true |} in
  exists q, q_name q = $"host.lan." /\ q_type q = rr_type r /\ plain_name (rr_name r) $"host.lan" /\
  exec (custom_resolve cfg (fun _ => 1%N) Crash (custom_records cfg) 2 (new_request 7 $"host.lan" (rr_type r))) (fun _ => None) =
    Some (Ok (custom_reply (new_request 7 $"host.lan" (rr_type r)) q [])).
Proof.
  intros zone Hp. change (zone_groups ex_host_zone) with
    [($"Host.lan.", [mk_rr $"Host.lan." 1 60 (DA (IP4 [192;0;2;1]%N))]); ($"host.lan.", [mk_rr $"host.lan." 28 60 (DAAAA (IP6 [32;1;13;184;0;0;0;0;0;0;0;0;0;0;0;1]%N))])] in Hp.
  apply Permutation_sym, Permutation_length_2_inv in Hp as [->| ->].
  - eexists. split; [left; reflexivity|]. cbv zeta. exists {| q_name := $"host.lan."; q_type := 1; q_class := 1 |}.
    split; [reflexivity|]. split; [reflexivity|]. split; [apply plain_name_iff; reflexivity|]. vm_compute. reflexivity.
  - eexists. split; [right; left; reflexivity|]. cbv zeta. exists {| q_name := $"host.lan."; q_type := 28; q_class := 1 |}.
    split; [reflexivity|]. split; [reflexivity|]. split; [apply plain_name_iff; reflexivity|]. vm_compute. reflexivity.
Qed.
Print Assumptions C116_case_refuted.

(** A name in both places: a TXT record in the zone takes away the address of the mapping. *)
Theorem C116_hidden_refuted : exists texts m rrs q,
  read_mapping custom_entries texts = Some m /\ In ($"nas.lan", $"192.0.2.1") texts /\ q_name q = $"nas.lan." /\ q_type q = 1%N /\
  let cfg := {| cu_mapping := m; cu_zone := zone_groups rrs; cu_ttl := 60; cu_filter := true |} in
  exec (custom_resolve cfg (fun _ => 1%N) Crash (custom_records cfg) 2 (new_request 7 $"nas.lan" 1)) (fun _ => None) =
    Some (Ok (custom_reply (new_request 7 $"nas.lan" 1) q [])).
Proof.
  exists [($"nas.lan", $"192.0.2.1")]. eexists. exists [mk_rr $"nas.lan." 16 60 (DTXT [$"hello"])], {| q_name := $"nas.lan."; q_type := 1; q_class := 1 |}.
  split; [vm_compute; reflexivity|]. split; [now left|]. split; [reflexivity|]. split; [reflexivity|]. vm_compute. reflexivity.
Qed.
Print Assumptions C116_hidden_refuted.

Example C116_example :
  let a := mk_rr $"host.lan." 1 60 (DA (IP4 [192;0;2;1]%N)) in let b := mk_rr $"mail.lan." 1 60 (DA (IP4 [192;0;2;2]%N)) in
  let c := mk_rr $"host.lan." 16 60 (DTXT [$"x"]) in
  zone_groups [a; b; c] = [($"host.lan.", [a; c]); ($"mail.lan.", [b])] /\
  (forall r r' d, In r [a; b; c] -> In r' [a; b; c] -> plain_name (rr_name r) d -> plain_name (rr_name r') d -> rr_name r = rr_name r').
Proof.
  cbv zeta. split; [reflexivity|]. intros r r' d H H' Hd Hd'. apply plain_name_iff in Hd, Hd'.
  destruct H as [<-|[<-|[<-|[]]]]; destruct H' as [<-|[<-|[<-|[]]]]; try reflexivity; vm_compute in Hd, Hd'; congruence.
Qed.

(** ** C117 *)
(** The text of a zone is accepted exactly if all its comma-separated parts are upstreams, and then stands for them in
    order; one bad part in any zone refuses the whole mapping. *)
Theorem C117_text : forall s us, cond_upstreams s = Some us <-> reads_as upstream_text s us.
Proof. intros s us. apply (reads_as_iff parse_upstream upstream_text C68_parts). Qed.
Print Assumptions C117_text.

Lemma read_mapping_nth {A} (read : str -> option A) texts m : read_mapping read texts = Some m ->
  forall i k, (forall t, nth_error texts i = Some (k, t) -> exists a, nth_error m i = Some (k, a) /\ read t = Some a) /\
              (forall a, nth_error m i = Some (k, a) -> exists t, nth_error texts i = Some (k, t) /\ read t = Some a).
Proof.
  intros H. apply read_mapping_iff in H. induction H as [|[k0 t0] [k1 a0] texts m [E1 E2] _ IH]; intros i k.
  - split; intros x Hx; now destruct i.
  - cbn in E1, E2. subst k1. destruct i as [|i]; [|exact (IH i k)]. cbn [nth_error]. split.
    + intros t [= -> ->]. eauto.
    + intros a [= -> ->]. eauto.
Qed.

Lemma read_mapping_zone {A} (read : str -> option A) texts m : read_mapping read texts = Some m -> forall z a,
  zone_upstream m z a <-> exists t, zone_upstream texts z t /\ (exists z0, In (z0, t) texts /\ In (z0, a) m /\ lowered z0 z) /\ read t = Some a.
Proof.
  intros H z a. pose proof (read_mapping_nth read texts m H) as N. unfold zone_upstream. split.
  - intros [z0 [Hin Hl]]. apply In_nth_error in Hin as [i Hi]. destruct (proj2 (N i z0) a Hi) as [t [Ht Hr]]. apply nth_error_In in Ht, Hi. exists t. eauto 8.
  - intros [t [_ [[z0 [_ [Hin Hl]]] _]]]. eauto.
Qed.

(** Queries of a name go to exactly the upstreams written in the text of the most specific zone. *)
Theorem C117_asked : forall texts m req q qs n,
  distinct_zones texts -> read_mapping cond_upstreams texts = Some m ->
  m_question (req_msg req) = q :: qs -> plain_name (q_name q) n ->
  (exists t us req', responsible texts n t /\ reads_as upstream_text t us /\ normalised req req' n /\ cond_dest m req = Some (ToUpstream us req')) \/
  ((forall t, ~ responsible texts n t) /\ cond_dest m req = Some (ToNext req)).
Proof.
  intros texts m req q qs n Hd Hm Hq Hn. pose proof (read_mapping_nth _ _ _ Hm) as N.
  assert (distinct_zones m) as Hdm.
  { intros i j z0 u z1 u' z Hi Hj H0 H1. destruct (proj2 (N i z0) u Hi) as [t [Ht _]]. destruct (proj2 (N j z1) u' Hj) as [t' [Ht' _]]. eapply Hd; eauto. }
  assert (forall z us, zone_upstream m z us -> exists t, zone_upstream texts z t /\ cond_upstreams t = Some us) as F1.
  { intros z us Hz. apply (read_mapping_zone _ _ _ Hm) in Hz as [t [H1 [_ H2]]]. eauto. }
  assert (forall z t, zone_upstream texts z t -> exists us, zone_upstream m z us) as F2.
  { intros z t [z0 [Hin Hl]]. apply In_nth_error in Hin as [i Hi]. destruct (proj1 (N i z0) t Hi) as [us [Hu _]]. exists us, z0. split; auto. now apply nth_error_In in Hu. }
  assert (forall z, zone_covers m n z <-> zone_covers texts n z) as F3.
  { intros z. split; intros [H1 [[u H2] H3]]; (split; [exact H1|split; [|exact H3]]).
    - apply F1 in H2 as [t [H2 _]]. eauto.
    - apply F2 in H2. exact H2. }
  assert (forall us, responsible m n us -> exists t, responsible texts n t /\ cond_upstreams t = Some us) as F4.
  { intros us [[H1 [z [Hz [Hu Hl]]]]|[H1 H2]].
    - apply F1 in Hu as [t [Ht Hr]]. exists t. split; auto. left. split; auto. exists z. split; [now apply F3|]. split; auto. intros z' Hz'. apply Hl, F3, Hz'.
    - apply F1 in H2 as [t [Ht Hr]]. exists t. split; auto. right. auto. }
  destruct (C37_most_specific_zone _ m (fun _ _ => None) (fun _ => None) req q qs n Hdm Hq Hn) as [[us [req' [H1 [H2 [H3 _]]]]]|[H1 [H2 _]]].
  - left. destruct (F4 us H1) as [t [Ht Hr]]. exists t, us, req'. split; auto. split; [now apply C117_text|]. auto.
  - right. split; auto. intros t [[G1 [z [Gz [Gu Gl]]]]|[G1 G2]].
    + destruct (F2 _ _ Gu) as [us Hus]. apply (H1 us). left. split; auto. exists z. split; [now apply F3|]. split; auto. intros z' Hz'. apply Gl, F3, Hz'.
    + destruct (F2 _ _ G2) as [us Hus]. apply (H1 us). right. auto.
Qed.
Print Assumptions C117_asked.

Example C117_example :
  let u p h n := {| u_net := n; u_host := h; u_port := p; u_path := []; u_cn := [] |} in
  reads_as upstream_text $"192.0.2.1, tcp-tls:dns.lan" [u 53%N $"192.0.2.1" TcpUdp; u 853%N $"dns.lan" TcpTls] /\
  cond_upstreams $"192.0.2.1,,192.0.2.2" = None /\
  (exists req', cond_dest [($"Fritz.box", [u 53%N $"192.0.2.1" TcpUdp])] (new_request 7 $"nas.fritz.box" 1) = Some (ToUpstream [u 53%N $"192.0.2.1" TcpUdp] req')).
Proof.
  cbv zeta. split; [apply C117_text; vm_compute; reflexivity|]. split; [vm_compute; reflexivity|]. eexists. vm_compute. reflexivity.
Qed.
