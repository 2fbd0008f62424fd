(** Theorems about queries over the REST interface. *)
From Coq Require Import String Ascii List Arith Bool NArith Lia.
From Verif Require Import Str StrFacts Dns Resolver QueryLog QueryLogSpec QueryLogProps Chain ChainSpec ChainProps Server ServerSpec ServerProps
  Api Dispatch DispatchSpec DispatchProps Query QuerySpec.
Import ListNotations.

(** ** C128: the answer of a query *)

Lemma listed_join T rs : listed T rs (answer_to_string T false rs).
Proof.
  assert (H : forall r, record_text T r match rr_data r with
    | DA i => $"A (" ++ ip_text T (Some i) ++ $")"
    | DAAAA i => $"AAAA (" ++ ip_text T (Some i) ++ $")"
    | DCNAME t => $"CNAME (" ++ t ++ $")"
    | DPTR t => $"PTR (" ++ t ++ $")"
    | _ => rr_text T r
    end).
  { intros r. destruct (rr_data r) eqn:E; constructor; try exact E; intros; rewrite E; discriminate. }
  unfold answer_to_string, obfuscate. induction rs as [|r [|r' rs] IH]; [constructor|constructor; apply H|].
  exact (l_cons T r r' rs _ _ (H r) IH).
Qed.

Lemma fqdn_cases name full : (exists n, name = n ++ $".") /\ full = name \/ (~ exists n, name = n ++ $".") /\ full = name ++ $"." ->
  full = fqdn name.
Proof.
  unfold fqdn. intros [[H ->]|[H ->]]; destruct (has_suffix name $".") eqn:E; auto.
  - destruct H as [n H]. assert (has_suffix name $"." = true) by (apply has_suffix_spec; eauto). congruence.
  - elim H. now apply has_suffix_spec.
Qed.

Lemma fqdn_twice s : fqdn (fqdn s) = fqdn s.
Proof.
  unfold fqdn. destruct (has_suffix s $".") eqn:E; [now rewrite E|].
  assert (has_suffix (s ++ $".") $"." = true) as -> by (apply has_suffix_spec; eauto). reflexivity.
Qed.

Lemma client_query_is id name t m : client_query id name t m -> m = new_msg_with_question id name t.
Proof.
  unfold client_query, new_msg_with_question. destruct m; cbn.
  intros (-> & -> & -> & -> & -> & -> & -> & -> & -> & -> & -> & -> & -> & -> & full & Hf & ->). now rewrite (fqdn_cases _ _ Hf).
Qed.

Lemma qualified_fqdn s : qualified (fqdn s).
Proof.
  unfold fqdn. destruct (has_suffix s $".") eqn:E; [now apply has_suffix_spec in E|now exists s].
Qed.

(** A query over the REST interface shows what a DNS client with the same address and the same client id is answered over
    TCP for the name and the type: the answers of that message, its code, and reason and kind of the response of the resolvers; an error
    stands for SERVFAIL.  Not for the health check, and without privacy mode. *)
Theorem C128_as_over_dns : forall T type_of parse L c id h name type m a,
  type_of type <> 0%N -> client_query id name (type_of type) m ->
  http_client_ip parse (h_forwarded h) (h_remote h) = Some a ->
  (forall q, In q (m_question m) -> ~ in_health_zone (q_name q) \/ q_type q = 43%N) ->
  exists rq w, serve_packet L c (TcpAddr a) (Some (h_host h)) (packet_of m) = ([rq], [w]) /\
    match api_query T false type_of parse L c id h name type with
    | Q200 reason rtype response code =>
        listed T (m_answer w) response /\ code = rcode_text T (m_rcode w) /\
        ((exists r, snd (c rq) = CRes r /\ reason = rs_reason r /\ rtype = rtype_text T (rs_type r)) \/
         (exists m', snd (c rq) = CUpstream m' /\ reason = $"upstream server failed" /\ rtype = rtype_text T RESOLVED))
    | Q400 _ => False
    | Q500 => error_reply (fst (c rq)) w 2 /\
        forall r x, snd (c rq) = CRes r -> rs_msg r = Some x -> False
    end.
Proof.
  intros T type_of parse L c id h name type m a Ht Hm Ha Hz. pose proof (client_query_is _ _ _ _ Hm) as ->. clear Hm.
  set (m := new_msg_with_question id name (type_of type)) in *.
  set (q := {| q_name := fqdn name; q_type := type_of type; q_class := 1 |}).
  set (rq := request_from_dns (TcpAddr a) (Some (h_host h)) m).
  assert (E : serve_packet L c (TcpAddr a) (Some (h_host h)) (packet_of m) = ([rq], handle_req L c rq)).
  { apply (C129_queries_resolved L c _ _ _ m q).
    - repeat split. discriminate.
    - apply qualified_fqdn.
    - apply (Hz q). now left. }
  rewrite E. unfold handle_req. rewrite (surjective_pairing (server_resolve L c rq)).
  assert (Hq : m_question (req_msg rq) = [q]) by reflexivity.
  unfold api_query. apply N.eqb_neq in Ht. rewrite Ht. unfold server_query. rewrite Ha.
  assert (new_msg_with_question id (fqdn name) (type_of type) = m) as ->.
  { unfold m, new_msg_with_question. now rewrite fqdn_twice. }
  change {| req_ip := Some a; req_client_id := client_id_from_host (h_host h); req_proto := TCP; req_names := []; req_msg := m |} with rq.
  unfold resolve_response, server_resolve. rewrite Hq.
  destruct (c rq) as [rm r] eqn:Ec. cbn [fst snd].
  destruct r as [r|mu| |]; [destruct (rs_msg r) as [x|] eqn:Er| | |]; cbn [rs_msg rs_reason rs_type fst snd].
  - eexists rq, _. split; [reflexivity|]. rewrite Ec. cbn [snd]. split; [apply listed_join|]. split; [reflexivity|]. left. eauto.
  - eexists rq, _. split; [reflexivity|]. rewrite Ec. cbn [fst snd]. split; [repeat split|].
    intros r0 x H1 H2. congruence.
  - eexists rq, _. split; [reflexivity|]. rewrite Ec. cbn [snd]. split; [apply listed_join|]. split; [reflexivity|]. right. eauto.
  - eexists rq, _. split; [reflexivity|]. rewrite Ec. cbn [fst snd]. split; [repeat split|]. discriminate.
  - eexists rq, _. split; [reflexivity|]. rewrite Ec. cbn [fst snd]. split; [repeat split|]. discriminate.
Qed.
Print Assumptions C128_as_over_dns.

(** An unknown type is refused: whatever the resolvers would do, the answer is 400 with the type in it, and nothing else gives 400. *)
Theorem C128_unknown_type : forall T privacy type_of parse L c id h name type,
  (type_of type = 0%N -> api_query T privacy type_of parse L c id h name type = Q400 ($"unknown query type '" ++ type ++ $"'")) /\
  (type_of type <> 0%N -> forall t, api_query T privacy type_of parse L c id h name type <> Q400 t).
Proof.
  intros. unfold api_query. split; intros H.
  - now rewrite H.
  - apply N.eqb_neq in H. rewrite H. intros t. destruct (server_query _ _ _ _ _ _ _) as [r|]; [|discriminate].
    destruct (rs_msg r); discriminate.
Qed.
Print Assumptions C128_unknown_type.

(** The command "query" asks the server once with the name and the type as given and writes the four texts of its answer; for
    an unknown type the server is not asked; every other answer is an error. *)
Theorem C128_command : forall T privacy type_of parse L c id h name type,
  let r := cli_query type_of (fun n t => Some (api_query T privacy type_of parse L c id h n t)) name type in
  (type_of type = 0%N -> r = ([], None)) /\
  (type_of type <> 0%N -> fst r = [(name, type)]) /\
  (forall a b cc d, snd r = Some (a, b, cc, d) <-> api_query T privacy type_of parse L c id h name type = Q200 a b cc d).
Proof.
  intros. subst r. unfold cli_query. destruct (N.eqb_spec (type_of type) 0) as [E|E]; (split; [|split]); try easy.
  - intros a b cc d. split; [discriminate|]. intros H.
    rewrite (proj1 (C128_unknown_type T privacy type_of parse L c id h name type) E) in H. discriminate.
  - intros a b cc d. cbn [snd]. destruct (api_query _ _ _ _ _ _ _ _ _ _); split; intros H; try discriminate; injection H; intros; congruence.
Qed.
Print Assumptions C128_command.

(** In privacy mode the answer of a query is hidden too: no letter and no digit of it is shown. *)
Theorem C128_privacy : forall T type_of parse L c id h name type a b s d,
  api_query T true type_of parse L c id h name type = Q200 a b s d -> forall x, In x s -> ~ letter_or_digit x.
Proof.
  intros T type_of parse L c id h name type a b s d H x Hx. unfold api_query in H.
  destruct (_ =? 0)%N in H; [discriminate|]. destruct (server_query _ _ _ _ _ _ _) as [r|]; [|discriminate].
  destruct (rs_msg r); [|discriminate]. injection H as <- <- <- <-. unfold answer_to_string in Hx. eapply C62_hidden. exact Hx.
Qed.
Print Assumptions C128_privacy.

Definition ex_texts : texts :=
  {| ip_text := fun i => match i with Some (IP4 l) => join $"." (map (fun n => [ascii_of_N (48 + n)]) l) | _ => [] end;
     rcode_text := fun n => if (n =? 0)%N then $"NOERROR" else $"OTHER"; type_text := fun _ => []; rr_text := fun _ => $"record";
     rtype_text := fun t => match t with RESOLVED => $"RESOLVED" | BLOCKED => $"BLOCKED" | _ => $"OTHER" end |}.
Definition ex_type_of (s : str) : N := if str_eqb s $"A" then 1%N else if str_eqb s $"AAAA" then 28%N else 0%N.
Definition ex_http : http_request := {| h_host := $"id-laptop.example.com"; h_client_id := []; h_forwarded := []; h_remote := $"10.0.0.1:4711" |}.
Definition ex_parse (s : str) : option ip := if str_eqb s $"10.0.0.1" then Some (IP4 [10; 0; 0; 1]%N) else None.
Definition ex_chain (octet : N) (rq : request) : msg * chain_result :=
  (req_msg rq, CRes {| rs_msg := Some (set_answer (map (fun q => create_rr q 60 (DA (IP4 [1; 2; 3; octet]%N))) (m_question (req_msg rq) ++ m_question (req_msg rq)))
                                         (set_reply empty_msg (req_msg rq)));
                       rs_reason := $"upstream 1"; rs_type := RESOLVED |}).

Example C128_cases :
  api_query ex_texts false ex_type_of ex_parse flat_lengths (ex_chain 4) 5 ex_http $"example.com" $"A"
    = Q200 $"upstream 1" $"RESOLVED" $"A (1.2.3.4), A (1.2.3.4)" $"NOERROR" /\
  api_query ex_texts true ex_type_of ex_parse flat_lengths (ex_chain 4) 5 ex_http $"example.com" $"A"
    = Q200 $"upstream 1" $"RESOLVED" $"* (*.*.*.*), * (*.*.*.*)" $"NOERROR" /\
  api_query ex_texts false ex_type_of ex_parse flat_lengths (ex_chain 4) 5 ex_http $"example.com" $"a" = Q400 $"unknown query type 'a'" /\
  cli_query ex_type_of (fun n t => Some (api_query ex_texts false ex_type_of ex_parse flat_lengths (fun rq => (req_msg rq, CErr)) 5 ex_http n t))
    $"example.com" $"AAAA" = ([($"example.com", $"AAAA")], None) /\
  http_client_ip ex_parse (h_forwarded ex_http) (h_remote ex_http) = Some (IP4 [10; 0; 0; 1]%N) /\
  client_query 5 $"example.com" 1 (new_msg_with_question 5 $"example.com" 1).
Proof.
  split; [vm_compute; reflexivity|]. split; [vm_compute; reflexivity|]. split; [vm_compute; reflexivity|]. split; [vm_compute; reflexivity|].
  split; [vm_compute; reflexivity|]. repeat split.
  exists $"example.com.". split; [right|reflexivity]. split; [|reflexivity].
  intros Hn. apply has_suffix_spec in Hn. discriminate.
Qed.

(** So with privacy mode the interface does not show the addresses: two different answers look the same. *)
Theorem C128_privacy_refuted : exists T type_of parse L c1 c2 id h name type rq,
  api_query T true type_of parse L c1 id h name type = api_query T true type_of parse L c2 id h name type /\
  map m_answer (handle_req L c1 rq) <> map m_answer (handle_req L c2 rq) /\
  api_query T false type_of parse L c1 id h name type <> api_query T false type_of parse L c2 id h name type.
Proof.
  exists ex_texts, ex_type_of, ex_parse, flat_lengths, (ex_chain 4), (ex_chain 5), 5%N, ex_http, $"example.com", $"A",
    (request_from_dns (TcpAddr (IP4 [10; 0; 0; 1]%N)) None (new_msg_with_question 5 $"example.com" 1)).
  split; [vm_compute; reflexivity|]. split; vm_compute; discriminate.
Qed.
Print Assumptions C128_privacy_refuted.

(** For the name of the health check the interface asks the resolvers, while a DNS client is answered without them. *)
Theorem C128_health_check_refuted : exists T type_of parse L c id h name type m a w,
  type_of type <> 0%N /\ client_query id name (type_of type) m /\ http_client_ip parse (h_forwarded h) (h_remote h) = Some a /\
  serve_packet L c (TcpAddr a) (Some (h_host h)) (packet_of m) = ([], [w]) /\ m_rcode w = 0%N /\
  api_query T false type_of parse L c id h name type = Q500.
Proof.
  exists ex_texts, ex_type_of, ex_parse, flat_lengths, (fun rq => (req_msg rq, CErr)), 5%N, ex_http, $"healthcheck.blocky", $"A",
    (new_msg_with_question 5 $"healthcheck.blocky" 1), (IP4 [10; 0; 0; 1]%N),
    (set_rcode_field 0 (set_reply empty_msg (new_msg_with_question 5 $"healthcheck.blocky" 1))).
  split; [discriminate|]. split.
  { repeat split. exists $"healthcheck.blocky.". split; [right|reflexivity]. split; [|reflexivity].
    intros Hn. apply has_suffix_spec in Hn. discriminate. }
  repeat split; vm_compute; reflexivity.
Qed.
Print Assumptions C128_health_check_refuted.

(** ** C130: the controls of the REST interface *)

(** Refreshing the lists refreshes the denylists and the allowlists, each once, also when one of them fails; 200 is answered iff both
    succeed, else 500; the text of the answer has one line. *)
Theorem C130_refresh : forall (S : Type) (deny_refresh allow_refresh : S -> S * option str) combine deny allow,
  exists status text,
    api_list_refresh deny_refresh allow_refresh combine deny allow = (fst (deny_refresh deny), fst (allow_refresh allow), (status, text)) /\
    (status = 200%N <-> snd (deny_refresh deny) = None /\ snd (allow_refresh allow) = None) /\
    (status = 200 \/ status = 500)%N /\ ~ In "013"%char text /\ ~ In "010"%char text.
Proof.
  intros S dr ar combine deny allow. unfold api_list_refresh, refresh_lists.
  assert (He : forall t, ~ In "013"%char (escape_input t) /\ ~ In "010"%char (escape_input t)).
  { intros t. unfold escape_input, remove_byte. split; intros H; apply filter_In in H; destruct H as [H H'].
    - discriminate.
    - apply filter_In in H. now destruct H. }
  destruct (dr deny) as [d [e1|]], (ar allow) as [al [e2|]]; cbn [fst snd errors_of flat_map app];
    do 2 eexists; (split; [reflexivity|]); (split; [split; [intros H|intros [H1 H2]]; try discriminate; auto|]);
    (split; [auto|]); try apply He; split; intros [].
Qed.
Print Assumptions C130_refresh.

Example C130_refresh_case :
  api_list_refresh (fun n => (n + 1, Some ($"no" ++ ["010"%char] ++ $"list"))) (fun n => (n + 1, None)) (fun es => join $";" es) 1 5 = (2, 6, (500%N, $"nolist")) /\
  api_list_refresh (fun n => (n + 1, None)) (fun n => (n + 1, None)) (fun es => join $";" es) 1 5 = (2, 6, (200%N, [])).
Proof. split; reflexivity. Qed.

(** The interface controls the blocking resolver and the cache that serve the queries: they stand in the chain, and no other resolver of
    the chain could be controlled. *)
Theorem C130_controls : forall U (w : world U),
  create_openapi (map fst (query_resolvers w)) = Some (SBlocking, SBlocking, SCaching) /\
  length (filter has_blocking_control (map fst (query_resolvers w))) = 1 /\
  length (filter has_refresh (map fst (query_resolvers w))) = 1 /\
  length (filter has_flush (map fst (query_resolvers w))) = 1.
Proof. intros U w. repeat split. Qed.
Print Assumptions C130_controls.

(** In every chain: the first resolver with the type is found, and none is found only if there is none. *)
Theorem C130_first : forall (R : Type) (is_t : R -> bool) rs,
  match get_from_chain is_t rs with
  | Some r => exists before after, rs = before ++ r :: after /\ is_t r = true /\ forall x, In x before -> is_t x = false
  | None => forall x, In x rs -> is_t x = false
  end.
Proof.
  intros R is_t. induction rs as [|r rs IH]; [intros x []|]. cbn [get_from_chain].
  destruct (is_t r) eqn:E.
  - exists [], rs. repeat split; auto. intros x [].
  - assert ((match rs with [] => None | _ :: _ => get_from_chain is_t rs end) = get_from_chain is_t rs) as -> by now destruct rs.
    destruct (get_from_chain is_t rs) as [r'|].
    + destruct IH as (b & a & -> & Ht & Hb). exists (r :: b), a. repeat split; auto. intros x [<-|Hx]; auto.
    + intros x [<-|Hx]; auto.
Qed.
Print Assumptions C130_first.

Example C130_first_case : get_from_chain has_flush [SFiltering; SCaching; SBlocking; SCaching] = Some SCaching /\ create_openapi [SBlocking] = None.
Proof. split; reflexivity. Qed.
