(** Custom CNAMEs seen at the server: what the lists say about the target counts, but without the names of the client (C170). *)
From Coq Require Import String Ascii List Arith Bool NArith ZArith Lia Permutation.
From Verif Require Import Str StrFacts StringCache StringCacheSpec StringCacheProofs StringCacheProps
  Parsers ParsersSpec ParsersProofs ParsersProps Target Download DownloadSpec DownloadProps Dns Resolver ResolverFacts
  CachingSpec CachingProofs ExpCache Caching
  Blocking BlockingSpec BlockingProofs BlockingProps Custom CustomSpec CustomProofs CustomProps Conditional ConditionalSpec ConditionalProps
  Rewriter RewriterSpec RewriterProps EdnsProofs EdnsProps Sudn SudnSpec SudnProps Ecs ClientNames QueryLog Hosts HostsSpec HostsProofs HostsProps
  Chain ChainSpec ChainProofs ChainProps RedisSpec Utf8Facts SafeSpec SafeProps Metrics MetricsProps Server ServerSpec ServerProps
  EndToEnd EndToEndSpec EndToEndLists EndToEndProofs EndToEndProps.
Import ListNotations.

Section Lists.
Variable compile : str -> option (str -> bool).
Variable parse_ip to_ascii : str -> option str.
Variable compiles : str -> bool.
Variable file : str -> option (list str * scan_end).
Context {U : Type}.
Variable w : world U.
Variable es : list host_entry.
Variable net_a net_d : str -> nat -> answer.
Variable attempts_a attempts_d : N.

Notation wants_allow' := (wants_allow compile parse_ip to_ascii compiles file w net_a attempts_a).
Notation wants_deny' := (wants_deny compile parse_ip to_ascii compiles file w net_d attempts_d).
Notation loaded := (lists_loaded compile parse_ip to_ascii compiles file w net_a net_d attempts_a attempts_d).
Notation clean' := (clean compile parse_ip to_ascii compiles file w net_a net_d attempts_a attempts_d).

(** The client, without the names it is known by. *)
Definition unnamed (arr : request) : request := set_req_names [] arr.
(** The question for the target of a CNAME. *)
Definition target_question (q : question) (t' : str) : question := {| q_name := fqdn t'; q_type := q_type q; q_class := 1 |}.

(** A name with one custom record, a CNAME to a name without custom records. *)
Definition custom_alias (q : question) (e : rr) (t t' : str) : Prop :=
  w_custom_rules w = [] /\ distinct_cfg (w_custom w) /\ decides (w_custom w) q [e] /\ rr_data e = DCNAME t /\ without_dot t t' /\
  (forall d, ~ covers (w_custom w) (target_question q t') d).

Lemma alias_runs arr q e t t' next : made w es -> 1 < w_fuel w -> m_question (req_msg arr) = [q] -> q_type q <> 12%N -> q_type q <> 5%N ->
  custom_alias q e t t' ->
  exists cn, own_record q 5 (rr_ttl e) (DCNAME (fqdn t)) cn /\
    forwarded (custom_in_chain w arr) next = [follow_up (w_new_id w) arr q t'] /\
    forall x mx, next (follow_up (w_new_id w) arr q t') = Some (Ok x) -> rs_msg x = Some mx ->
      exec (custom_in_chain w arr) next = Some (Ok (custom_reply arr q (cn :: m_answer mx))).
Proof.
  intros [_ [Ho _]] Hf Hq Ht Hc [Hr [Hd [Hdec [He [Hw Hcov]]]]].
  assert (t' = trim_suffix t $".") as -> by (eapply without_dot_fun; [exact Hw|apply without_dot_trim]).
  set (t' := trim_suffix t $".") in *. exists (cname_record t q (rr_ttl e)). split; [repeat split|].
  unfold custom_in_chain, with_rewriter. rewrite Hr. unfold custom_stage, custom_resolve. rewrite Hq.
  rewrite (not_reverse_none (w_custom w) (w_records w) arr q Ho (or_introl Ht)).
  destruct (w_fuel w) as [|[|f]]; [lia|lia|].
  assert (process_request (w_custom w) (w_new_id w) Crash (S f) [t'] (follow_up (w_new_id w) arr q t') = pass (follow_up (w_new_id w) arr q t')) as Hp.
  { cbn [process_request]. cbn [m_question req_msg follow_up new_msg_with_question]. fold (target_question q t').
    pose proof (lookup_decides (w_custom w) (target_question q t')) as L. cbv zeta in L.
    destruct (first_mapped _ _) as [es'|]; [|reflexivity]. exfalso. destruct L as [d [L _]]. exact (Hcov d L). }
  assert (process_request (w_custom w) (w_new_id w) Crash (S (S f)) [] arr =
    process_entries (w_custom w) (w_new_id w) (process_request (w_custom w) (w_new_id w) Crash (S f)) arr q [] [e] []) as ->.
  { cbn [process_request]. rewrite Hq. cbv zeta. rewrite (lookup_decides_iff (w_custom w) q [e] Hd Hdec). reflexivity. }
  cbn [process_entries]. rewrite He. apply N.eqb_neq in Hc. change type_CNAME with 5%N. rewrite Hc. cbv zeta. cbn [str_in existsb]. fold t'. cbn [List.app].
  change (target_request (w_new_id w t') arr q t') with (follow_up (w_new_id w) arr q t'). rewrite Hp. cbn [bind pass]. split.
  - cbn [forwarded]. f_equal. destruct (next _) as [[x|er]|]; try reflexivity. destruct (rs_msg x); reflexivity.
  - intros x mx Hx Hmx. cbn [exec]. rewrite Hx, Hmx. cbn [exec List.app]. unfold custom_response, custom_reply, set_reply. rewrite Hq. reflexivity.
Qed.

(** The lists count for the target as they do for the client without its names. *)
Lemma alias_in_force arr q t' g : in_force w (follow_up (w_new_id w) arr q t') g <-> in_force w (unnamed arr) g.
Proof. reflexivity. Qed.

Lemma behind_custom : rest w = (SCustom, custom_in_chain w) :: tl (rest w).
Proof. reflexivity. Qed.

Lemma alias_calls arr fu next : next = chain (map snd (tl (rest w))) (w_upstream w) -> forwarded (custom_in_chain w arr) next = [fu] ->
  calls (rest w) (w_upstream w) arr = (SCustom, arr) :: calls (tl (rest w)) (w_upstream w) fu.
Proof. intros -> H. rewrite behind_custom. cbn [calls tl]. rewrite H. cbn [flat_map]. now rewrite app_nil_r. Qed.

Lemma hosts_calls fu q' n' : made w es -> m_question (req_msg fu) = [q'] -> plain_name (q_name q') n' -> q_type q' <> 12%N -> not_hosts w es q' n' ->
  calls (tl (rest w)) (w_upstream w) fu = (SHosts, fu) :: calls (skipn 9 (query_resolvers w)) (w_upstream w) fu.
Proof.
  intros Hm Hq Hn Ht Hh. rewrite rest_eq. cbn [tl]. rewrite (calls_next _ _ _ _ _ fu) by (intros nx; apply (hosts_passes w es fu q' n' nx Hm Hq Hn Ht Hh)). reflexivity.
Qed.

Lemma custom_sent L c req q n arr ans : serves w c -> made w es -> arrives w req q n arr ->
  chain (map snd (rest w)) (w_upstream w) arr = Some (Ok (custom_reply arr q ans)) ->
  exists mm m', handle_req L c req = [m'] /\ sent mm m' /\ own_answer w req q 4 $"CUSTOM DNS" 0 ans mm.
Proof.
  intros Hs Hm Har Hc. refine (own_sent w es L c req q n arr (custom_reply arr q ans) _ 4 Hs Hm Har Hc eq_refl eq_refl eq_refl eq_refl eq_refl eq_refl eq_refl _). discriminate.
Qed.

(** ** C170: the target of a custom CNAME is denied for the client (without its names): the client gets the CNAME and the block answer for the
    target, and nothing later than the lists is consulted. *)
Theorem C170_target_blocked_partial : forall L c req q n arr e t t' n' g, serves w c -> made w es -> loaded -> arrives w req q n arr -> 1 < w_fuel w ->
  q_type q <> 5%N -> custom_alias q e t t' -> plain_name (fqdn t') n' -> not_hosts w es (target_question q t') n' ->
  in_force w (unnamed arr) g -> wants_deny' g n' -> (forall g', in_force w (unnamed arr) g' -> ~ wants_allow' g' n') ->
  only_up_to Lists (consulted (query_calls w req)) /\
  exists cn rcode ans m m', handle_req L c req = [m'] /\ sent m m' /\ own_record q 5 (rr_ttl e) (DCNAME (fqdn t)) cn /\
    block_content (w_handler w) (target_question q t') rcode ans /\ own_answer w req q 4 $"CUSTOM DNS" 0 (cn :: ans) m.
Proof.
  intros L c req q n arr e t t' n' g Hs Hm Hl Har Hf Hc Ha Hn' Hnh Hg Hgd Hga. pose proof Har as [Hq [Hn [Ht [Hlt [Hp Hlab]]]]].
  destruct (front_calls w req q n arr Hq Hn Hlt Hp) as [Hqa [er F2]]. pose proof (loaded_setting _ _ _ _ _ _ _ _ _ _ Hl) as Hset.
  set (fu := follow_up (w_new_id w) arr q t') in *. set (q' := target_question q t') in *.
  assert (m_question (req_msg fu) = [q']) as Hqf by reflexivity.
  destruct (C24_blocked_iff (w_glob w) (w_cidr w) (w_ip_string w) (w_allow w) (w_deny w) wants_allow' wants_deny' (w_blk w) (w_handler w)
    (w_blk_iter w) (w_fqdn_ips w) (w_disabled w) fu Hset) as [H _].
  assert (blocked_name (w_glob w) (w_cidr w) (w_ip_string w) (w_blk w) (w_fqdn_ips w) (w_disabled w) wants_allow' wants_deny' fu n') as Hb.
  { split; [intros [g' [A B]]; exact (Hga g' A B)|]. right. exists g. split; assumption. }
  destruct (H q' n') as [r [Hr [[Hrt [m [Hrm [M1 [M2 [M3 [M4 [M5 M6]]]]]]]] _]]]; [|exact Hb|].
  { exists [], []. split; [exact Hqf|]. split; [exact Hn'|]. split; [now right|]. intros ? ? []. }
  set (next := chain (map snd (tl (rest w))) (w_upstream w)).
  assert (next fu = Some (Ok r)) as Hnext.
  { unfold next. rewrite rest_eq. cbn [tl map snd]. rewrite chain_cons, (proj1 (hosts_passes w es fu q' n' _ Hm Hqf Hn' Ht Hnh)).
    rewrite chain_cons. unfold run_blocking in Hr. rewrite Hr. reflexivity. }
  destruct (alias_runs arr q e t t' next Hm Hf Hqa Ht Hc Ha) as [cn [C1 [C2 C3]]]. specialize (C3 r m Hnext Hrm). fold fu in C2.
  split.
  - rewrite F2, (alias_calls arr fu next eq_refl C2), (hosts_calls fu q' n' Hm Hqf Hn' Ht Hnh). apply only_up_to_intro. cbn [skipn query_resolvers]. cbn [calls].
    unfold run_blocking in Hr. rewrite Hr. reflexivity.
  - destruct (custom_sent L c req q n arr (cn :: m_answer m) Hs Hm Har) as [mm [m' [S1 [S2 S3]]]].
    + rewrite behind_custom. cbn [map snd]. rewrite chain_cons. exact C3.
    + exists cn, (m_rcode m), (m_answer m), mm, m'. split; [exact S1|]. split; [exact S2|]. split; [exact C1|]. split; [exact M6|]. exact S3.
Qed.

(** ** C170: the target is on no list and known to nobody but the upstream servers: they are asked for it, and the client gets the CNAME and the
    records of their answer. *)
Theorem C170_target_resolved : forall L c req q n arr e t t' n' x m, serves w c -> made w es -> loaded -> arrives w req q n arr -> 1 < w_fuel w ->
  q_type q <> 5%N -> custom_alias q e t t' -> plain_name (fqdn t') n' -> not_hosts w es (target_question q t') n' ->
  let fu := follow_up (w_new_id w) arr q t' in
  only_upstream w fu (target_question q t') n' -> sane_cfg (w_caching w) -> w_upstream w fu = Some (Ok x) -> rs_msg x = Some m ->
  (exists g, in_force w (unnamed arr) g /\ wants_allow' g n') \/
  (~ only_allowed w (unnamed arr) /\ (forall g, in_force w (unnamed arr) g -> ~ wants_deny' g n') /\ clean' (unnamed arr) (m_answer m)) ->
  filter (fun sr => match fst sr with SUpstreamTree => true | _ => false end) (query_calls w req) = [(SUpstreamTree, fu)] /\
  exists cn a mm m', handle_req L c req = [m'] /\ sent mm m' /\ own_record q 5 (rr_ttl e) (DCNAME (fqdn t)) cn /\
    own_answer w req q 4 $"CUSTOM DNS" 0 (cn :: a) mm /\
    (a = m_answer m \/ (caching_enabled (w_caching w) = true /\ is_request_cacheable fu = true /\ clamped_answer (w_caching w) (m_answer m) a)).
Proof.
  intros L c req q n arr e t t' n' x m Hs Hm Hl Har Hf Hc Ha Hn' Hnh fu Hou Hsane Hu Hxm Hlist. pose proof Har as [Hq [Hn [Ht [Hlt [Hp Hlab]]]]].
  destruct (front_calls w req q n arr Hq Hn Hlt Hp) as [Hqa [er F2]]. pose proof (loaded_setting _ _ _ _ _ _ _ _ _ _ Hl) as Hset.
  set (q' := target_question q t') in *. assert (m_question (req_msg fu) = [q']) as Hqf by reflexivity.
  destruct (after_to_upstream w fu q' n' x m Hqf Hn' Hou) as [A1 A2]. destruct (A1 Hu Hxm) as [a [Haa A3]]. clear A1.
  assert (~ blocked_name (w_glob w) (w_cidr w) (w_ip_string w) (w_blk w) (w_fqdn_ips w) (w_disabled w) wants_allow' wants_deny' fu n') as Hb.
  { intros [B1 B2]. destruct Hlist as [[g [C1 C2]]|[C1 [C2 _]]]; [apply B1; exists g; now split|]. destruct B2 as [B2|[g [B2 B3]]]; [exact (C1 B2)|exact (C2 g B2 B3)]. }
  pose proof (not_listed_exec compile parse_ip to_ascii compiles file w net_a net_d attempts_a attempts_d fu q' n' a m m _ _ Hset Hqf Hn' Hb Haa A3 Hlist) as Y1.
  set (y := {| rs_msg := Some (set_answer a m); rs_reason := rs_reason x; rs_type := rs_type x |}) in *.
  set (next := chain (map snd (tl (rest w))) (w_upstream w)).
  assert (next fu = Some (Ok y)) as Hnext.
  { unfold next. rewrite rest_eq. cbn [tl map snd]. rewrite chain_cons, (proj1 (hosts_passes w es fu q' n' _ Hm Hqf Hn' Ht Hnh)).
    rewrite chain_cons. exact Y1. }
  destruct (alias_runs arr q e t t' next Hm Hf Hqa Ht Hc Ha) as [cn [C1 [C2 C3]]]. specialize (C3 y _ Hnext eq_refl). fold fu in C2.
  split.
  - rewrite F2, (alias_calls arr fu next eq_refl C2), (hosts_calls fu q' n' Hm Hqf Hn' Ht Hnh).
    assert (calls (skipn 9 (query_resolvers w)) (w_upstream w) fu = (SBlocking, fu) :: calls (skipn 10 (query_resolvers w)) (w_upstream w) fu) as ->.
    { cbn [query_resolvers skipn]. apply calls_next. intros nx. now apply (not_listed_forwards compile parse_ip to_ascii compiles file w net_a net_d attempts_a attempts_d fu q' n'). }
    rewrite A2. reflexivity.
  - destruct (custom_sent L c req q n arr (cn :: a) Hs Hm Har) as [mm [m' [S1 [S2 S3]]]].
    + rewrite behind_custom. cbn [map snd]. rewrite chain_cons. exact C3.
    + exists cn, a, mm, m'. split; [exact S1|]. split; [exact S2|]. split; [exact C1|]. split; [exact S3|].
      destruct Haa as [->|[B1 [B2 ->]]]; [now left|right]. split; [exact B1|]. split; [exact B2|]. now apply adjust_ttls_answer.
Qed.
End Lists.
Print Assumptions C170_target_blocked_partial.
Print Assumptions C170_target_resolved.

(** ** Concrete cases: out.lan is an alias of example.com, track.lan of the denied ads.com *)
Definition cn_entry (t : str) : rr := {| rr_name := []; rr_type := 0; rr_class := 1; rr_ttl := 3600; rr_data := DCNAME t |}.
Definition cn_custom : custom_cfg :=
  {| cu_mapping := [($"out.lan", [cn_entry $"example.com."]); ($"track.lan", [cn_entry $"ads.com"])]; cu_zone := []; cu_ttl := 3600; cu_filter := true |}.
Definition cn_world (names : list str) : world nat :=
  let w := e2e_world e2e_up in
  {| w_filter := w_filter w; w_fqdn := w_fqdn w; w_ecs := w_ecs w; w_names := fun _ => names; w_ede := w_ede w; w_entry := w_entry w; w_metrics := w_metrics w;
     w_custom := cn_custom; w_new_id := w_new_id w; w_records := custom_records cn_custom; w_fuel := w_fuel w;
     w_custom_rules := w_custom_rules w; w_custom_fallback := w_custom_fallback w; w_custom_iter := w_custom_iter w;
     w_hosts := w_hosts w; w_table := w_table w; w_hosts4 := w_hosts4 w; w_hosts6 := w_hosts6 w;
     w_glob := w_glob w; w_cidr := w_cidr w; w_ip_string := w_ip_string w; w_allow := w_allow w; w_deny := w_deny w;
     w_blk := w_blk w; w_handler := w_handler w; w_blk_iter := w_blk_iter w; w_fqdn_ips := w_fqdn_ips w; w_disabled := w_disabled w;
     w_caching := w_caching w; w_look := w_look w; w_mapping := w_mapping w; w_ask := w_ask w;
     w_cond_rules := w_cond_rules w; w_cond_fallback := w_cond_fallback w; w_cond_iter := w_cond_iter w; w_sudn := w_sudn w; w_upstream := w_upstream w |}.
Definition cn_chain (names : list str) (rq : request) : msg * chain_result := (req_msg rq, result_of (query_chain (cn_world names) rq)).
Definition cn_arr (names : list str) (n : str) : request := set_req_names names (cx_req n 1).
Definition cn_answers (names : list str) (n : str) :=
  map (fun m => (m_rcode m, map rr_name (m_answer m), map rr_data (m_answer m))) (handle_req e2e_lengths (cn_chain names) (cx_req n 1)).

Lemma cn_made names : made (cn_world names) hosts_ex_entries.
Proof. destruct (e2e_made e2e_up) as [A [_ [C [D E]]]]. split; [exact A|]. split; [apply Permutation_refl|]. split; [exact C|]. split; [exact D|exact E]. Qed.

Lemma cn_arrives names n : In names [[$"desktop"]; [$"tv"]] -> In n [$"out.lan."; $"track.lan."] ->
  arrives (cn_world names) (cx_req n 1) {| q_name := n; q_type := 1; q_class := 1 |} (trim_suffix n $".") (cn_arr names n).
Proof.
  intros Hs Hn. split; [cbn [In] in Hn; destruct Hn as [<-|[<-|[]]]; reflexivity|].
  split; [apply plain_name_iff; cbn [In] in Hn; destruct Hn as [<-|[<-|[]]]; reflexivity|].
  split; [discriminate|]. split.
  - split; [cbn; intuition discriminate|]. intros _. cbn [In] in Hn; destruct Hn as [<-|[<-|[]]]; cbn; tauto.
  - split.
    + exists (cx_req n 1). split; [|reflexivity]. intros next. cbn [In] in Hn; destruct Hn as [<-|[<-|[]]]; cbn; destruct (next _); reflexivity.
    + intros _. cbn [In] in Hs. destruct Hs as [<-|[<-|[]]]; (constructor; [|constructor]); apply utf8_string_iff; reflexivity.
Qed.

Lemma cn_distinct : distinct_cfg cn_custom.
Proof.
  split; [|intros [|i] j u a u' a' d Hi; discriminate Hi]. intros i j u a u' a' d Hi Hj Hu Hu'. apply plain_name_iff in Hu, Hu'.
  destruct i as [|[|[|i]]]; [| |discriminate Hi|discriminate Hi]; (destruct j as [|[|[|j]]]; [| |discriminate Hj|discriminate Hj]);
    first [reflexivity | injection Hi as <- <-; injection Hj as <- <-; vm_compute in Hu, Hu'; congruence].
Qed.

Lemma cn_alias names n t : In (n, t) [($"out.lan.", $"example.com."); ($"track.lan.", $"ads.com")] ->
  custom_alias (cn_world names) {| q_name := n; q_type := 1; q_class := 1 |} (cn_entry t) t (trim_suffix t $".").
Proof.
  intros H. split; [reflexivity|]. split; [exact cn_distinct|]. split; [|split; [reflexivity|split; [apply without_dot_trim|]]].
  - pose proof (lookup_decides cn_custom {| q_name := n; q_type := 1; q_class := 1 |}) as L. cbv zeta in L.
    cbn [In] in H. destruct H as [[= <- <-]|[[= <- <-]|[]]]; vm_compute in L; exact L.
  - pose proof (lookup_decides cn_custom (target_question {| q_name := n; q_type := 1; q_class := 1 |} (trim_suffix t $"."))) as L. cbv zeta in L.
    cbn [In] in H. destruct H as [[= <- <-]|[[= <- <-]|[]]]; vm_compute in L; exact L.
Qed.

Lemma cn_in_force names n g : in_force (cn_world names) (unnamed (cn_arr names n)) g <-> g = $"ads".
Proof.
  pose proof (groups_to_check_iff ex_glob ex_cidr ex_ipstr BlockingProps.ex_cfg BlockingProps.ex_iter (fun i => Permutation_refl _) ex_fq [] (unnamed (cn_arr names n)) g) as H.
  assert (groups_to_check ex_glob ex_cidr ex_ipstr (BlockingProps.ex_iter 0) BlockingProps.ex_iter ex_fq [] (unnamed (cn_arr names n)) = [$"ads"]) as E by reflexivity.
  rewrite E in H. symmetry in H. refine (iff_trans H _). cbn. intuition congruence.
Qed.

Example C170_blocked_case : let w := cn_world [$"desktop"] in let q := {| q_name := $"track.lan."; q_type := 1; q_class := 1 |} in let arr := cn_arr [$"desktop"] (q_name q) in
  serves w (cn_chain [$"desktop"]) /\ made w hosts_ex_entries /\ lists_loaded ex_regex e2e_ip ex_to_ascii ex_compiles e2e_file w e2e_net e2e_net 3 3 /\
  arrives w (cx_req (q_name q) 1) q $"track.lan" arr /\ 1 < w_fuel w /\ custom_alias w q (cn_entry $"ads.com") $"ads.com" $"ads.com" /\
  plain_name (fqdn $"ads.com") $"ads.com" /\ not_hosts w hosts_ex_entries (target_question q $"ads.com") $"ads.com" /\
  in_force w (unnamed arr) $"ads" /\ wants_deny ex_regex e2e_ip ex_to_ascii ex_compiles e2e_file w e2e_net 3 $"ads" $"ads.com" /\
  (forall g', in_force w (unnamed arr) g' -> ~ wants_allow ex_regex e2e_ip ex_to_ascii ex_compiles e2e_file w e2e_net 3 g' $"ads.com") /\
  cn_answers [$"desktop"] (q_name q) = [(0%N, [$"track.lan."; $"ads.com."], [DCNAME $"ads.com."; DA (IP4 [0; 0; 0; 0]%N)])].
Proof.
  intros w q arr. split; [intros rq; reflexivity|]. split; [apply cn_made|]. split; [exact (e2e_loaded e2e_up)|].
  split; [apply (cn_arrives [$"desktop"] $"track.lan."); [now left|right; now left]|]. split; [cbn; lia|].
  split; [apply (cn_alias [$"desktop"] $"track.lan." $"ads.com"); right; now left|]. split; [apply plain_name_iff; reflexivity|].
  split; [intros _ a Ha; apply split_get_spec in Ha; vm_compute in Ha; discriminate Ha|]. split; [now apply cn_in_force|].
  split; [apply (e2e_deny_iff e2e_up); vm_compute; tauto|]. split; [|vm_compute; reflexivity].
  intros g' Hg Ha. apply cn_in_force in Hg as ->. apply (e2e_allow_iff e2e_up) in Ha. vm_compute in Ha. exact Ha.
Qed.

Example C170_resolved_case : let w := cn_world [$"desktop"] in let q := {| q_name := $"out.lan."; q_type := 1; q_class := 1 |} in let arr := cn_arr [$"desktop"] (q_name q) in
  arrives w (cx_req (q_name q) 1) q $"out.lan" arr /\ custom_alias w q (cn_entry $"example.com.") $"example.com." $"example.com" /\
  plain_name (fqdn $"example.com") $"example.com" /\ not_hosts w hosts_ex_entries (target_question q $"example.com") $"example.com" /\
  only_upstream w (follow_up (w_new_id w) arr q $"example.com") (target_question q $"example.com") $"example.com" /\ sane_cfg (w_caching w) /\
  (exists x m, w_upstream w (follow_up (w_new_id w) arr q $"example.com") = Some (Ok x) /\ rs_msg x = Some m /\ m_answer m = e2e_up /\
     clean ex_regex e2e_ip ex_to_ascii ex_compiles e2e_file w e2e_net e2e_net 3 3 (unnamed arr) (m_answer m)) /\
  ~ only_allowed w (unnamed arr) /\ (forall g, in_force w (unnamed arr) g -> ~ wants_deny ex_regex e2e_ip ex_to_ascii ex_compiles e2e_file w e2e_net 3 g $"example.com") /\
  cn_answers [$"desktop"] (q_name q) = [(0%N, [$"out.lan."; $"x."], [DCNAME $"example.com."; DA (IP4 [1; 1; 1; 1]%N)])].
Proof.
  intros w q arr.
  split; [apply (cn_arrives [$"desktop"] $"out.lan."); now left|]. 
  split; [apply (cn_alias [$"desktop"] $"out.lan." $"example.com."); now left|]. split; [apply plain_name_iff; reflexivity|].
  split; [intros _ a Ha; apply split_get_spec in Ha; vm_compute in Ha; discriminate Ha|].
  split; [|split; [|split; [|split; [|split; [|vm_compute; reflexivity]]]]].
  - destruct (e2e_only $"example.com.") as [A [B [C [D E]]]]; [right; now left|].
    split; [|split; [exact B|split; [exact C|split; [exact D|]]]].
    + intros _ _. vm_compute. reflexivity.
    + intros _. split; [apply lowered_iff; reflexivity|]. intros m Hm.
      destruct (C40_special_use_partial {| su_appendix_g := true; su_enable := true |} (follow_up (w_new_id w) arr q $"example.com") (target_question q $"example.com") [] noop eq_refl eq_refl) as [[m0 [F [_ G]]]|[G _]];
        [apply lowered_iff; reflexivity| |exact (G m Hm)]. vm_compute in G. discriminate G.
  - vm_compute. intuition discriminate.
  - do 2 eexists. split; [reflexivity|]. split; [reflexivity|]. split; [reflexivity|].
    intros r k x g Hr Hx Hne Hg Hd. apply cn_in_force in Hg as ->.
    destruct (e2e_clean $"example.com." r k x $"ads" Hr Hx Hne) as [g' [A B]]; [now apply e2e_in_force|exact Hd|].
    apply e2e_in_force in A as ->. exists $"ads". split; [now apply cn_in_force|exact B].
  - intros [g [A [_ B]]]. apply cn_in_force in A as ->. apply B. exists [$"ads.txt"]. now left.
  - intros g Hg Hd. apply cn_in_force in Hg as ->. apply (e2e_deny_iff e2e_up) in Hd. vm_compute in Hd. exact Hd.
Qed.

(** ** C170, the full statement is false: the names of the client are lost on the way to the target of a custom CNAME (the request for it is made
    without them), so what the lists say about a client known by name does not count. Here the client "tv" may only ask for names on an allow
    list; example.com is not on it and a query for it is blocked, but the client gets its address through the alias. *)
Theorem C170_target_blocked_refuted :
  exists compile parse_ip to_ascii compiles file (w : world nat) es net L c req q n arr e t t' n' direct, serves w c /\ made w es /\
    lists_loaded compile parse_ip to_ascii compiles file w net net 3 3 /\ arrives w req q n arr /\ 1 < w_fuel w /\ q_type q <> 5%N /\
    custom_alias w q e t t' /\ plain_name (fqdn t') n' /\ not_hosts w es (target_question q t') n' /\
    only_allowed w arr /\ (forall g, in_force w arr g -> ~ wants_allow compile parse_ip to_ascii compiles file w net 3 g n') /\
    req_ip direct = req_ip req /\ m_question (req_msg direct) = [target_question q t'] /\
    map (fun m => map rr_data (m_answer m)) (handle_req L c direct) = [[DA (IP4 [0; 0; 0; 0]%N)]] /\
    map (fun m => map rr_data (m_answer m)) (handle_req L c req) = [[DCNAME (fqdn t'); DA (IP4 [1; 1; 1; 1]%N)]].
Proof.
  assert (forall g, in_force (cn_world [$"tv"]) (cn_arr [$"tv"] $"out.lan.") g <-> g = $"school") as Hf.
  { intros g.
    pose proof (groups_to_check_iff ex_glob ex_cidr ex_ipstr BlockingProps.ex_cfg BlockingProps.ex_iter (fun i => Permutation_refl _) ex_fq [] (cn_arr [$"tv"] $"out.lan.") g) as H.
    assert (groups_to_check ex_glob ex_cidr ex_ipstr (BlockingProps.ex_iter 0) BlockingProps.ex_iter ex_fq [] (cn_arr [$"tv"] $"out.lan.") = [$"school"]) as E by reflexivity.
    rewrite E in H. symmetry in H. refine (iff_trans H _). cbn. intuition congruence. }
  exists ex_regex, e2e_ip, ex_to_ascii, ex_compiles, e2e_file, (cn_world [$"tv"]), hosts_ex_entries, e2e_net, e2e_lengths, (cn_chain [$"tv"]), (cx_req $"out.lan." 1),
    {| q_name := $"out.lan."; q_type := 1; q_class := 1 |}, $"out.lan", (cn_arr [$"tv"] $"out.lan."), (cn_entry $"example.com."), $"example.com.", $"example.com", $"example.com",
    (cx_req $"example.com." 1).
  split; [intros rq; reflexivity|]. split; [apply cn_made|]. split; [exact (e2e_loaded e2e_up)|].
  split; [apply (cn_arrives [$"tv"] $"out.lan."); [right; now left|now left]|]. split; [cbn; lia|]. split; [discriminate|].
  split; [apply (cn_alias [$"tv"] $"out.lan." $"example.com."); now left|]. split; [apply plain_name_iff; reflexivity|].
  split; [intros _ a Ha; apply split_get_spec in Ha; vm_compute in Ha; discriminate Ha|]. split; [|split; [|split; [reflexivity|split; [reflexivity|split; vm_compute; reflexivity]]]].
  - exists $"school". split; [now apply Hf|]. split; [exists [$"school.txt"]; split; [right; now left|discriminate]|].
    intros [srcs [E|[E|[]]]]; discriminate E.
  - intros g Hg Ha. apply Hf in Hg as ->. apply (e2e_allow_iff e2e_up) in Ha. vm_compute in Ha. exact Ha.
Qed.
Print Assumptions C170_target_blocked_refuted.
