(** Model of the DNS and DoH server: /repo/server/server.go, server/server_endpoints.go and
    util/http.go.

    Not modelled: the listeners, TLS, HTTP routing, logging, the time limit of a request. *)
From Coq Require Import String Ascii List Arith Bool NArith ZArith.
From Verif Require Import Str Dns Resolver.
Import ListNotations.

(** ** Truncation *)

(** Lengths of the parts of a message on the wire (miekg/dns len methods).  [cstate] is the state of
    name compression; a length depends on it and on the offset. -- server/server.go:564 *)
Record lengths := {
  cstate : Type;
  cstart : cstate;
  question_len : nat -> cstate -> question -> nat * cstate;
  record_len : nat -> cstate -> rr -> nat * cstate;
  plain_question_len : question -> nat;  (* without compression *)
  plain_record_len : rr -> nat }.

Section Truncate.
Variable L : lengths.

(** miekg/dns msgLenWithCompressionMap without compression; the header has 12 bytes -- server/server.go:564 *)
Definition plain_len (m : msg) : nat :=
  12 + list_sum (map (plain_question_len L) (m_question m)) + list_sum (map (plain_record_len L) (m_answer m))
  + list_sum (map (plain_record_len L) (m_ns m)) + list_sum (map (plain_record_len L) (m_extra m)).

(** Lengths added up with compression. -- server/server.go:564 *)
Fixpoint questions_len (qs : list question) (l : nat) (c : cstate L) : nat * cstate L :=
  match qs with
  | [] => (l, c)
  | q :: qs' => let '(n, c') := question_len L l c q in questions_len qs' (l + n) c'
  end.
(** the same for records (server/server.go:564) *)
Fixpoint records_len (rs : list rr) (l : nat) (c : cstate L) : nat * cstate L :=
  match rs with
  | [] => (l, c)
  | r :: rs' => let '(n, c') := record_len L l c r in records_len rs' (l + n) c'
  end.

(** miekg/dns Msg.Len with compression: the length of the packed message -- server/server.go:564 *)
Definition packed_len (m : msg) : nat :=
  let '(l, c) := questions_len (m_question m) 12 (cstart L) in
  let '(l, c) := records_len (m_answer m) l c in
  let '(l, c) := records_len (m_ns m) l c in
  fst (records_len (m_extra m) l c).

(** miekg/dns truncateLoop: new length and number of records that fit -- server/server.go:564 *)
Fixpoint truncate_loop (rs : list rr) (size l : nat) (c : cstate L) : nat * nat * cstate L :=
  match rs with
  | [] => (l, 0, c)
  | r :: rs' =>
      let '(n, c') := record_len L l c r in
      if size <? l + n then (size, 0, c')
      else if l + n =? size then (l + n, 1, c')
      else let '(l', k, c'') := truncate_loop rs' size (l + n) c' in (l', S k, c'')
  end.

(** miekg/dns Msg.popEdns0: the last OPT record -- server/server.go:564 *)
Definition pop_edns0 (m : msg) : option rr * list rr :=
  match is_edns0 m with
  | Some o => (Some o, rev (remove_first is_opt (rev (m_extra m))))
  | None => (None, m_extra m)
  end.

(** miekg/dns Msg.IsTsig -- server/server.go:564 *)
Definition is_tsig (m : msg) : bool :=
  match rev (m_extra m) with r :: _ => (rr_type r =? 250)%N | [] => false end.

(** The loop over one section, entered only if there is room -- server/server.go:564 *)
Definition truncate_section (rs : list rr) (size l : nat) (c : cstate L) : nat * nat * cstate L :=
  if l <? size then truncate_loop rs size l c else (l, 0, c).

(** miekg/dns Msg.Truncate (the flag Compress is not part of the model: it is always set afterwards,
    server.go:567) *)
Definition truncate (size : nat) (m : msg) : msg :=
  if is_tsig m then m
  else
    let size := Nat.max size 512 in
    if plain_len m <=? size then m
    else
      let '(edns0, extra) := pop_edns0 m in
      let size := size - match edns0 with Some o => plain_record_len L o | None => 0 end in
      let '(l, c) := questions_len (m_question m) 12 (cstart L) in
      let '(l, na, c) := truncate_section (m_answer m) size l c in
      let '(l, nn, c) := truncate_section (m_ns m) size l c in
      let '(_, ne, _) := truncate_section extra size l c in
      set_tc (m_tc m || (na <? length (m_answer m)) || (nn <? length (m_ns m)) || (ne <? length extra))
        (set_answer (firstn na (m_answer m))
          (set_ns (firstn nn (m_ns m))
            (set_extra (firstn ne extra ++ match edns0 with Some o => [o] | None => [] end) m))).

(** ** Resolving *)

(** server.go:573-584 getMaxResponseSize; dns.OPT.UDPSize is the class of the record *)
Definition max_response_size (m : msg) (p : proto) : nat :=
  match is_edns0 m with
  | Some o => if (0 <? rr_class o)%N then N.to_nat (rr_class o)
              else match p with TCP => N.to_nat 65535 | UDP => 512 end
  | None => match p with TCP => N.to_nat 65535 | UDP => 512 end
  end.

(** What the resolver chain gives: a response, an error that wraps an UpstreamServerError with its
    message, another error, or a panic. -- server/server.go:509-545 *)
Inductive chain_result := CRes (r : response) | CUpstream (m : msg) | CErr | CPanic.

(** server.go:558-568: RecursionAvailable and truncation; [rm] is the request's message at that time *)
Definition finish (rm : msg) (p : proto) (m : msg) : msg := truncate (max_response_size rm p) (set_ra (m_rd rm) m).

(** server.go:524-570 resolve.  The chain may change the message of the request: [c] also gives
    the message after the call.  Result: that message, and the response's message (None: an
    error; panics are recovered). *)
Definition server_resolve (c : request -> msg * chain_result) (req : request) : msg * option msg :=
  match m_question (req_msg req) with
  | [] => (req_msg req, Some (finish (req_msg req) (req_proto req) (set_rcode empty_msg (req_msg req) rcode_formerr)))
  | _ =>
      let '(rm, r) := c req in
      (rm, match r with
           | CRes r => match rs_msg r with Some m => Some (finish rm (req_proto req) m) | None => None end
           | CUpstream m => Some (finish rm (req_proto req) m)
           | CErr | CPanic => None
           end)
  end.

(** server.go:509-522 handleReq: the messages written to the client.  An error of the writer is only logged. *)
Definition handle_req (c : request -> msg * chain_result) (req : request) : list msg :=
  match server_resolve c req with
  | (rm, None) => [set_rcode empty_msg rm rcode_servfail]
  | (_, Some m) => [m]
  end.

(** server.go:587-594 OnHealthCheck *)
Definition health_check (m : msg) : list msg := [set_rcode_field rcode_success (set_reply empty_msg m)].

(** ** Building requests *)

(** server.go:431-438 extractClientIDFromHost *)
Definition client_id_from_host (h : str) : str :=
  if has_prefix h $"id-" && contains_byte dot h then
    match index_byte dot h with Some i => skipn 3 (firstn i h) | None => [] end
  else [].

(** Go's net.SplitHostPort (only the host); None: error -- util/http.go:58 *)
Definition lbracket : ascii := "["%char.
(** closing bracket (net.SplitHostPort, util/http.go:58) *)
Definition rbracket : ascii := "]"%char.
(** net.SplitHostPort, only the host (util/http.go:58) *)
Definition split_host (s : str) : option str :=
  match last_index_byte colon s with
  | None => None
  | Some i =>
      let bracketed := match s with c :: _ => Ascii.eqb c lbracket | [] => false end in
      if bracketed then
        match index_byte rbracket s with
        | None => None
        | Some e =>
            if (S e =? i) && negb (contains_byte lbracket (skipn 1 s)) && negb (contains_byte rbracket (skipn (S e) s))
            then Some (skipn 1 (firstn e s)) else None
        end
      else if contains_byte colon (firstn i s) || contains_byte lbracket s || contains_byte rbracket s then None
      else Some (firstn i s)
  end.

(** util/http.go HTTPClientIP; [forwarded] is the X-FORWARDED-FOR header, [parse_ip] net.ParseIP *)
Definition http_client_ip (parse_ip : str -> option ip) (forwarded remote : str) : option ip :=
  let addr := match forwarded with [] => remote | _ => forwarded end in
  match split_host addr with
  | Some h => parse_ip h
  | None => parse_ip addr
  end.

(** Addresses of connections (net.Addr). -- server/server.go:596-605 resolveClientIPAndProtocol *)
Inductive net_addr := UdpAddr (a : ip) | TcpAddr (a : ip) | OtherAddr.

(** server.go:596-605 resolveClientIPAndProtocol *)
Definition client_ip_and_protocol (a : net_addr) : option ip * proto :=
  match a with
  | UdpAddr i => (Some i, UDP)
  | TcpAddr i => (Some i, TCP)
  | OtherAddr => (None, UDP)
  end.

(** server.go:468-484 newRequestFromDNS with 440-466 newRequest; [sni] is the TLS server name of an
    encrypted connection *)
Definition request_from_dns (a : net_addr) (sni : option str) (m : msg) : request :=
  let '(i, p) := client_ip_and_protocol a in
  {| req_ip := i; req_client_id := match sni with Some h => client_id_from_host h | None => [] end;
     req_proto := p; req_names := []; req_msg := m |}.

(** The parts of an HTTP request that are used. -- server/server_endpoints.go:67-127 *)
Record http_request := {
  h_host : str; h_client_id : str; h_forwarded : str; h_remote : str }.

(** server.go:486-496 newRequestFromHTTP *)
Definition request_from_http (parse_ip : str -> option ip) (h : http_request) (m : msg) : request :=
  {| req_ip := http_client_ip parse_ip (h_forwarded h) (h_remote h);
     req_client_id := match h_client_id h with [] => client_id_from_host (h_host h) | i => i end;
     req_proto := TCP; req_names := []; req_msg := m |}.

(** ** DNS over HTTPS *)

(** Go's base64.RawURLEncoding: value of a character -- server/server_endpoints.go:75 *)
Definition b64_val (c : ascii) : option N :=
  let n := N_of_ascii c in
  if ((65 <=? n) && (n <=? 90))%N then Some (n - 65)%N
  else if ((97 <=? n) && (n <=? 122))%N then Some (n - 97 + 26)%N
  else if ((48 <=? n) && (n <=? 57))%N then Some (n - 48 + 52)%N
  else if (n =? 45)%N then Some 62%N
  else if (n =? 95)%N then Some 63%N
  else None.

(** Go's encoding/base64 Encoding.DecodeString for RawURLEncoding (not strict, no padding), over the
    values of the characters; carriage return and line feed are skipped *)
Fixpoint b64_groups (vs : list N) : option (list N) :=
  match vs with
  | [] => Some []
  | [_] => None
  | [a; b] => Some [(a * 4 + b / 16)%N]
  | [a; b; c] => Some [(a * 4 + b / 16)%N; ((b mod 16) * 16 + c / 4)%N]
  | a :: b :: c :: d :: vs' =>
      match b64_groups vs' with
      | Some l => Some ((a * 4 + b / 16)%N :: ((b mod 16) * 16 + c / 4)%N :: ((c mod 4) * 64 + d)%N :: l)
      | None => None
      end
  end.
(** base64.RawURLEncoding, the values of a text (server/server_endpoints.go:75) *)
Fixpoint b64_values (s : str) : option (list N) :=
  match s with
  | [] => Some []
  | c :: s' =>
      if Ascii.eqb c "013" || Ascii.eqb c "010" then b64_values s'
      else match b64_val c, b64_values s' with Some v, Some l => Some (v :: l) | _, _ => None end
  end.
(** base64.RawURLEncoding.DecodeString (server/server_endpoints.go:75) *)
Definition b64_decode (s : str) : option (list N) :=
  match b64_values s with Some vs => b64_groups vs | None => None end.

(** Answer of an HTTP handler: an error status, or a DNS message with its max-age, or an empty
    response (the message could not be packed). -- server/server_endpoints.go:67-162 *)
Inductive http_answer := HttpError (status : N) | HttpMsg (m : msg) (max_age : N) | HttpEmpty.

(** server_endpoints.go:153-162 getSmallestTTLFromAnswer *)
Definition smallest_ttl (rs : list rr) : N :=
  fold_left (fun ttl r => if (rr_ttl r <? ttl)%N || (ttl =? 0)%N then rr_ttl r else ttl) rs 0%N.

Section Doh.
Variable unpack : list N -> option msg.  (* miekg/dns Msg.Unpack *)
Variable pack_ok : msg -> bool.          (* miekg/dns Msg.Pack succeeds *)
Variable parse_ip : str -> option ip.
Variable c : request -> msg * chain_result.

(** server_endpoints.go:132-151 httpMsgWriter.WriteMsg *)
Definition http_write (m : msg) : http_answer :=
  if pack_ok m then HttpMsg m (smallest_ttl (m_answer m)) else HttpEmpty.

(** server_endpoints.go:115-128 processDohMessage; the requests resolved, and the answer *)
Definition process_doh (raw : list N) (h : http_request) : list request * http_answer :=
  match unpack raw with
  | None => ([], HttpError 400)
  | Some m =>
      let req := request_from_http parse_ip h m in
      ([req], match handle_req c req with w :: _ => http_write w | [] => HttpEmpty end)
  end.

(** server_endpoints.go:67-89 dohGetRequestHandler; [param] is the first value of the parameter "dns" *)
Definition doh_get (param : option str) (h : http_request) : list request * http_answer :=
  match param with
  | None | Some [] => ([], HttpError 400)
  | Some p =>
      match b64_decode p with
      | None => ([], HttpError 400)
      | Some raw => if 512 <? length raw then ([], HttpError 414) else process_doh raw h
      end
  end.

(** server_endpoints.go:91-113 dohPostRequestHandler; [body] None: it cannot be read *)
Definition doh_post (content_type : str) (body : option (list N)) (h : http_request) : list request * http_answer :=
  if negb (str_eqb content_type $"application/dns-message") then ([], HttpError 415)
  else
    match body with
    | None => ([], HttpError 400)
    | Some raw => if 512 <? length raw then ([], HttpError 413) else process_doh raw h
    end.
End Doh.
End Truncate.
