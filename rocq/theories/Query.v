(** Queries over the REST interface and the command "query": /repo/api/api_interface_impl.go, server/server_endpoints.go,
    cmd/query.go; the refresh of the lists over the REST interface; the resolvers the interface controls.

    Not modelled: the JSON of requests and answers (generated code), and the time limit of a request. *)
From Coq Require Import String Ascii List Arith Bool NArith.
From Verif Require Import Str Dns Resolver QueryLog Server Api Chain.
Import ListNotations.

(** ** Resolving *)

(** resolver/upstream_resolver.go:36-38 UpstreamServerError.Error *)
Definition upstream_error_text : str := $"upstream server failed".

(** server/server.go:524-570 resolve, with the whole response (compare [Server.server_resolve], which gives its message) *)
Definition resolve_response (L : lengths) (c : request -> msg * chain_result) (req : request) : option response :=
  match m_question (req_msg req) with
  | [] => Some {| rs_msg := Some (finish L (req_msg req) (req_proto req) (set_rcode empty_msg (req_msg req) rcode_formerr));
                  rs_reason := $"CUSTOM DNS"; rs_type := CUSTOMDNS |}
  | _ =>
      let '(rm, r) := c req in
      match r with
      | CRes r => match rs_msg r with
                  | Some m => Some {| rs_msg := Some (finish L rm (req_proto req) m); rs_reason := rs_reason r; rs_type := rs_type r |}
                  | None => None
                  end
      | CUpstream m => Some {| rs_msg := Some (finish L rm (req_proto req) m); rs_reason := upstream_error_text; rs_type := RESOLVED |}
      | CErr | CPanic => None
      end
  end.

(** server/server_endpoints.go:164-173 Query; [id] is the random id of the message (miekg/dns SetQuestion) *)
Definition server_query (L : lengths) (c : request -> msg * chain_result) (id : N) (host : str) (client : option ip)
    (question : str) (t : N) : option response :=
  resolve_response L c
    {| req_ip := client; req_client_id := client_id_from_host host; req_proto := TCP; req_names := [];
       req_msg := new_msg_with_question id question t |}.

(** ** The REST interface *)

(** The answers: 200 with reason, response type, response and return code; 400 with a text; 500 -- api/api_interface_impl.go:155-183 *)
Inductive query_answer := Q200 (reason rtype response code : str) | Q400 (text : str) | Q500.

(** api/api_interface_impl.go:155-183 Query.  [type_of] is the map dns.StringToType (0: not in it), [privacy]
    util.LogPrivacy.  The request is in the context (api/api_interface_impl.go:62-68).  A nil answer with an error is
    answered with 500 by the generated code. *)
Definition api_query (T : texts) (privacy : bool) (type_of : str -> N) (parse_ip : str -> option ip) (L : lengths)
    (c : request -> msg * chain_result) (id : N) (h : http_request) (name type : str) : query_answer :=
  let t := type_of type in
  if (t =? 0)%N then Q400 ($"unknown query type '" ++ type ++ $"'")
  else
    match server_query L c id (h_host h) (http_client_ip parse_ip (h_forwarded h) (h_remote h)) (fqdn name) t with
    | None => Q500
    | Some r =>
        match rs_msg r with
        | None => Q500
        | Some m => Q200 (rs_reason r) (rtype_text T (rs_type r)) (answer_to_string T privacy (m_answer m)) (rcode_text T (m_rcode m))
        end
    end.

(** ** The command line *)

(** cmd/query.go:29-63 query.  [ask] is the server; None: it cannot be asked.  Result: what was asked, and
    the four texts that are written (None: an error, the exit code is not 0). *)
Definition cli_query (type_of : str -> N) (ask : str -> str -> option query_answer) (name type : str)
    : list (str * str) * option (str * str * str * str) :=
  if (type_of type =? 0)%N then ([], None)
  else ([(name, type)], match ask name type with
                        | Some (Q200 a b c d) => Some (a, b, c, d)
                        | _ => None
                        end).

(** ** Refreshing the lists *)

Section Refresh.
Context {S : Type}.
(** lists/list_cache.go:112-114 Refresh of the two caches: the new state, and the text of the error; [combine] is the text of
    a multierror -- resolver/blocking_resolver.go:204-205 *)
Variable deny_refresh allow_refresh : S -> S * option str.
Variable combine : list str -> str.

(** the texts of the errors -- resolver/blocking_resolver.go:202-205 *)
Definition errors_of (es : list (option str)) : list str := flat_map (fun e => match e with Some t => [t] | None => [] end) es.

(** resolver/blocking_resolver.go:201-208 RefreshLists *)
Definition refresh_lists (deny allow : S) : S * S * option str :=
  let '(d, e1) := deny_refresh deny in
  let '(a, e2) := allow_refresh allow in
  (d, a, match errors_of [e1; e2] with [] => None | es => Some (combine es) end).

(** api/api_interface_impl.go:144-153 ListRefresh; the status and the text *)
Definition api_list_refresh (deny allow : S) : S * S * (N * str) :=
  let '(d, a, e) := refresh_lists deny allow in
  (d, a, match e with Some t => (500%N, escape_input t) | None => (200%N, []) end).
End Refresh.

(** ** The resolvers under control *)

(** resolver/resolver.go:117-131 GetFromChainWithType, for a chain given as the list of its resolvers; [is_t]: the resolver
    has the wanted type.  Only the last resolver is not a ChainedResolver. *)
Fixpoint get_from_chain {R : Type} (is_t : R -> bool) (rs : list R) : option R :=
  match rs with
  | [] => None
  | r :: rs' => if is_t r then Some r else match rs' with [] => None | _ => get_from_chain is_t rs' end
  end.

(** The stages whose resolvers have EnableBlocking, DisableBlocking and BlockingStatus
    -- resolver/blocking_resolver.go:220, 240, 297, api/api_interface_impl.go:35-39 *)
Definition has_blocking_control (s : stage) : bool := match s with SBlocking => true | _ => false end.
(** The stages whose resolvers have RefreshLists -- resolver/blocking_resolver.go:201, api/api_interface_impl.go:42-44 *)
Definition has_refresh (s : stage) : bool := match s with SBlocking => true | _ => false end.
(** The stages whose resolvers have FlushCaches -- resolver/caching_resolver.go:340, api/api_interface_impl.go:52-54 *)
Definition has_flush (s : stage) : bool := match s with SCaching => true | _ => false end.

(** server/server_endpoints.go:37-54 createOpenAPIInterfaceImpl: who blocks, who refreshes, who flushes; None: an error *)
Definition create_openapi (chained : list stage) : option (stage * stage * stage) :=
  match get_from_chain has_blocking_control chained, get_from_chain has_refresh chained, get_from_chain has_flush chained with
  | Some b, Some r, Some f => Some (b, r, f)
  | _, _, _ => None
  end.
