(** DNS messages, requests and responses.

    The message types and the helper methods SetReply, SetRcode and IsEdns0 belong to
    github.com/miekg/dns (a dependency, not part of /repo); the model keeps the
    fields which /repo reads or writes.  Messages are values: the code's in-place
    updates become functional updates. *)
From Coq Require Import String Ascii List Arith Bool NArith ZArith.
From Verif Require Import Str.
Import ListNotations.

(** net.IP: an IPv4 address (4 bytes; the 16-byte form net.ParseIP produces for
    it is identified with it, as net.IP.To4, Equal and String do) or an IPv6
    address (16 bytes).  A nil net.IP is [None] where it may occur. -- model/models.go:64 *)
Inductive ip := IP4 (b : list N) | IP6 (b : list N).

(** net.IP.Equal on the bytes -- resolver/hosts_file_resolver.go:90 *)
Definition byte_list_eqb (a b : list N) : bool :=
  if list_eq_dec N.eq_dec a b then true else false.

(** net.IP.Equal -- resolver/hosts_file_resolver.go:90 *)
Definition ip_eqb (a b : ip) : bool :=
  match a, b with
  | IP4 x, IP4 y | IP6 x, IP6 y => byte_list_eqb x y
  | _, _ => false
  end.

(** net.IP.To4 is not nil -- resolver/ecs_resolver.go:82-107 *)
Definition is_v4 (i : ip) : bool := match i with IP4 _ => true | IP6 _ => false end.

(** EDNS0 options: client subnet (code 8), extended error (code 15), anything else
    as code and payload. -- util/edns0.go:10-14 *)
Inductive eopt :=
| EOSubnet (family mask scope : N) (addr : option ip)
| EOEde (code : N) (text : str)
| EOOther (code : N) (data : str).

(** dns.EDNS0.Option -- util/edns0.go:50 *)
Definition eopt_code (o : eopt) : N :=
  match o with EOSubnet _ _ _ _ => 8 | EOEde _ _ => 15 | EOOther c _ => c end%N.

(** Record data; [DOther] stands for the types the code does not look into. -- the types of miekg/dns used in /repo/resolver and util/common.go *)
Inductive rdata :=
| DA (a : ip)
| DAAAA (a : ip)
| DCNAME (target : str)
| DPTR (target : str)
| DTXT (txt : list str)
| DSRV (prio weight port : N) (target : str)
| DOPT (opts : list eopt)
| DOther (data : str).

(** dns.RR: header and data -- util/edns0.go:23-24 *)
Record rr := { rr_name : str; rr_type : N; rr_class : N; rr_ttl : N; rr_data : rdata }.

(** assignment to rr.Header().Ttl -- resolver/caching_resolver.go:241-252 *)
Definition set_ttl (t : N) (r : rr) : rr :=
  {| rr_name := rr_name r; rr_type := rr_type r; rr_class := rr_class r; rr_ttl := t; rr_data := rr_data r |}.

(** dns.Question -- util/common.go:54-72 *)
Record question := { q_name : str; q_type : N; q_class : N }.

(** dns.Msg -- model/models.go:51, 68 *)
Record msg := {
  m_id : N; m_response : bool; m_opcode : N;
  m_aa : bool; m_tc : bool; m_rd : bool; m_ra : bool; m_zero : bool; m_ad : bool; m_cd : bool;
  m_rcode : N;
  m_question : list question; m_answer : list rr; m_ns : list rr; m_extra : list rr }.

(** new(dns.Msg) -- resolver/blocking_resolver.go:333 *)
Definition empty_msg : msg :=
  {| m_id := 0; m_response := false; m_opcode := 0; m_aa := false; m_tc := false; m_rd := false; m_ra := false;
     m_zero := false; m_ad := false; m_cd := false; m_rcode := 0;
     m_question := []; m_answer := []; m_ns := []; m_extra := [] |}.

(** Assignments to single fields of a message. -- Go assignments such as resolver/hosts_file_resolver.go:152-160 *)
Definition set_answer (a : list rr) (m : msg) : msg :=
  {| m_id := m_id m; m_response := m_response m; m_opcode := m_opcode m; m_aa := m_aa m; m_tc := m_tc m;
     m_rd := m_rd m; m_ra := m_ra m; m_zero := m_zero m; m_ad := m_ad m; m_cd := m_cd m; m_rcode := m_rcode m;
     m_question := m_question m; m_answer := a; m_ns := m_ns m; m_extra := m_extra m |}.
(** assignment to Msg.Ns (as in the Truncate call of server/server.go:564) *)
Definition set_ns (a : list rr) (m : msg) : msg :=
  {| m_id := m_id m; m_response := m_response m; m_opcode := m_opcode m; m_aa := m_aa m; m_tc := m_tc m;
     m_rd := m_rd m; m_ra := m_ra m; m_zero := m_zero m; m_ad := m_ad m; m_cd := m_cd m; m_rcode := m_rcode m;
     m_question := m_question m; m_answer := m_answer m; m_ns := a; m_extra := m_extra m |}.
(** assignment to Msg.Extra (util/edns0.go:25, 113) *)
Definition set_extra (a : list rr) (m : msg) : msg :=
  {| m_id := m_id m; m_response := m_response m; m_opcode := m_opcode m; m_aa := m_aa m; m_tc := m_tc m;
     m_rd := m_rd m; m_ra := m_ra m; m_zero := m_zero m; m_ad := m_ad m; m_cd := m_cd m; m_rcode := m_rcode m;
     m_question := m_question m; m_answer := m_answer m; m_ns := m_ns m; m_extra := a |}.
(** assignment to Msg.Question (resolver/rewriter_resolver.go:103-118) *)
Definition set_question (a : list question) (m : msg) : msg :=
  {| m_id := m_id m; m_response := m_response m; m_opcode := m_opcode m; m_aa := m_aa m; m_tc := m_tc m;
     m_rd := m_rd m; m_ra := m_ra m; m_zero := m_zero m; m_ad := m_ad m; m_cd := m_cd m; m_rcode := m_rcode m;
     m_question := a; m_answer := m_answer m; m_ns := m_ns m; m_extra := m_extra m |}.
(** assignment to Msg.Rcode (resolver/blocking_resolver.go:542-578) *)
Definition set_rcode_field (c : N) (m : msg) : msg :=
  {| m_id := m_id m; m_response := m_response m; m_opcode := m_opcode m; m_aa := m_aa m; m_tc := m_tc m;
     m_rd := m_rd m; m_ra := m_ra m; m_zero := m_zero m; m_ad := m_ad m; m_cd := m_cd m; m_rcode := c;
     m_question := m_question m; m_answer := m_answer m; m_ns := m_ns m; m_extra := m_extra m |}.
(** assignment to Msg.RecursionAvailable (server/server.go:547-570) *)
Definition set_ra (b : bool) (m : msg) : msg :=
  {| m_id := m_id m; m_response := m_response m; m_opcode := m_opcode m; m_aa := m_aa m; m_tc := m_tc m;
     m_rd := m_rd m; m_ra := b; m_zero := m_zero m; m_ad := m_ad m; m_cd := m_cd m; m_rcode := m_rcode m;
     m_question := m_question m; m_answer := m_answer m; m_ns := m_ns m; m_extra := m_extra m |}.
(** assignment to Msg.Truncated (the Truncate call of server/server.go:564) *)
Definition set_tc (b : bool) (m : msg) : msg :=
  {| m_id := m_id m; m_response := m_response m; m_opcode := m_opcode m; m_aa := m_aa m; m_tc := b;
     m_rd := m_rd m; m_ra := m_ra m; m_zero := m_zero m; m_ad := m_ad m; m_cd := m_cd m; m_rcode := m_rcode m;
     m_question := m_question m; m_answer := m_answer m; m_ns := m_ns m; m_extra := m_extra m |}.

(** miekg/dns Msg.SetReply, on the receiver [m] -- resolver/resolver.go:38 *)
Definition set_reply (m req : msg) : msg :=
  {| m_id := m_id req; m_response := true; m_opcode := m_opcode req; m_aa := m_aa m; m_tc := m_tc m;
     m_rd := if (m_opcode req =? 0)%N then m_rd req else m_rd m;
     m_ra := m_ra m; m_zero := m_zero m; m_ad := m_ad m;
     m_cd := if (m_opcode req =? 0)%N then m_cd req else m_cd m;
     m_rcode := 0;
     m_question := match m_question req with q :: _ => [q] | [] => m_question m end;
     m_answer := m_answer m; m_ns := m_ns m; m_extra := m_extra m |}.

(** miekg/dns Msg.SetRcode -- server/server.go:515, resolver/filtering_resolver.go:30 *)
Definition set_rcode (m req : msg) (rcode : N) : msg := set_rcode_field rcode (set_reply m req).

(** Record types and return codes -- constants of miekg/dns, used throughout /repo/resolver *)
Definition type_A := 1%N. Definition type_NS := 2%N. Definition type_CNAME := 5%N.
(** constants of miekg/dns, used throughout /repo/resolver *)
Definition type_SOA := 6%N. Definition type_PTR := 12%N. Definition type_TXT := 16%N.
(** constants of miekg/dns, used throughout /repo/resolver *)
Definition type_AAAA := 28%N. Definition type_SRV := 33%N. Definition type_OPT := 41%N.
(** constant of miekg/dns (resolver/sudn_resolver.go:182) *)
Definition type_DS := 43%N.
(** constants of miekg/dns, used throughout /repo/resolver *)
Definition rcode_success := 0%N. Definition rcode_formerr := 1%N.
(** constants of miekg/dns, used throughout /repo/resolver *)
Definition rcode_servfail := 2%N. Definition rcode_nxdomain := 3%N.

(** ** model/models.go *)

(** model/models.go:12-23 ResponseType *)
Inductive rtype := RESOLVED | CACHED | BLOCKED | CONDITIONAL | CUSTOMDNS | HOSTSFILE | FILTERED | NOTFQDN | SPECIAL.

(** comparison of response types -- Go == on model/models.go:22 ResponseType *)
Definition rtype_eqb (a b : rtype) : bool :=
  match a, b with
  | RESOLVED, RESOLVED | CACHED, CACHED | BLOCKED, BLOCKED | CONDITIONAL, CONDITIONAL | CUSTOMDNS, CUSTOMDNS
  | HOSTSFILE, HOSTSFILE | FILTERED, FILTERED | NOTFQDN, NOTFQDN | SPECIAL, SPECIAL => true
  | _, _ => false
  end.

(** model/models.go:49-54 Response; [rs_msg = None] is a nil Res *)
Record response := { rs_msg : option msg; rs_reason : str; rs_type : rtype }.

(** model/models.go:56-60 RequestProtocol *)
Inductive proto := TCP | UDP.

(** model/models.go:62-70 Request (RequestTS is not modelled) *)
Record request := {
  req_ip : option ip; req_client_id : str; req_proto : proto; req_names : list str; req_msg : msg }.

(** Assignments to fields of a request. -- model/models.go:63-70 *)
Definition set_req_msg (m : msg) (r : request) : request :=
  {| req_ip := req_ip r; req_client_id := req_client_id r; req_proto := req_proto r; req_names := req_names r; req_msg := m |}.
(** assignment to Request.ClientIP (model/models.go:64, resolver/ecs_resolver.go:51-79) *)
Definition set_req_ip (i : option ip) (r : request) : request :=
  {| req_ip := i; req_client_id := req_client_id r; req_proto := req_proto r; req_names := req_names r; req_msg := req_msg r |}.
(** assignment to Request.ClientNames (model/models.go:67, resolver/client_names_resolver.go:65) *)
Definition set_req_names (l : list str) (r : request) : request :=
  {| req_ip := req_ip r; req_client_id := req_client_id r; req_proto := req_proto r; req_names := l; req_msg := req_msg r |}.

(** ** util/edns0.go *)

(** dns.TypeOPT records (util/edns0.go:25) *)
Definition is_opt (r : rr) : bool := (rr_type r =? type_OPT)%N.

(** miekg/dns Msg.IsEdns0: the last OPT record of the additional section -- util/edns0.go:42 *)
Definition is_edns0 (m : msg) : option rr := find is_opt (rev (m_extra m)).

(** dns.OPT.Option, read and assigned (util/edns0.go:49, 83, 125) *)
Definition opt_options (r : rr) : list eopt := match rr_data r with DOPT o => o | _ => [] end.
(** assignment to dns.OPT.Option (util/edns0.go:83, 125) *)
Definition set_options (o : list eopt) (r : rr) : rr :=
  {| rr_name := rr_name r; rr_type := rr_type r; rr_class := rr_class r; rr_ttl := rr_ttl r; rr_data := DOPT o |}.

(** Remove the first element satisfying [f]. -- slices.Delete in util/edns0.go:23-29, 81-89 *)
Fixpoint remove_first {A} (f : A -> bool) (l : list A) : list A :=
  match l with
  | [] => []
  | x :: l' => if f x then l' else x :: remove_first f l'
  end.

(** Update the first element satisfying [f]. -- writes through the pointer of util/edns0.go:42 *)
Fixpoint update_first {A} (f : A -> bool) (g : A -> A) (l : list A) : list A :=
  match l with
  | [] => []
  | x :: l' => if f x then g x :: l' else x :: update_first f g l'
  end.

(** util/edns0.go:18-32 RemoveEdns0Record: removes the first OPT record *)
Definition remove_edns0_record (m : msg) : bool * msg :=
  match is_edns0 m with
  | None => (false, m)
  | Some _ => (true, set_extra (remove_first is_opt (m_extra m)) m)
  end.

(** Update of the record IsEdns0 returns (the last OPT record), in place. -- util/edns0.go:72-89, 107-125 *)
Definition update_opt (g : rr -> rr) (m : msg) : msg :=
  set_extra (rev (update_first is_opt g (rev (m_extra m)))) m.

(** util/edns0.go:37-61 GetEdns0Option (the panic for an option whose Go type does
    not match its code is not modelled: the code determines the type) *)
Definition get_edns0_option (code : N) (m : msg) : option eopt :=
  match is_edns0 m with
  | None => None
  | Some o => find (fun e => (eopt_code e =? code)%N) (opt_options o)
  end.

(** util/edns0.go:67-97 RemoveEdns0Option *)
Definition remove_edns0_option (code : N) (m : msg) : bool * msg :=
  match is_edns0 m with
  | None => (false, m)
  | Some o =>
      let opts' := remove_first (fun e => (eopt_code e =? code)%N) (opt_options o) in
      let res := existsb (fun e => (eopt_code e =? code)%N) (opt_options o) in
      let m' := update_opt (set_options opts') m in
      (res, match opts' with [] => snd (remove_edns0_record m') | _ => m' end)
  end.

(** util/edns0.go:102-128 SetEdns0Option (for a non-nil message and option) *)
Definition set_edns0_option (opt : eopt) (m : msg) : msg :=
  let m1 := match is_edns0 m with
            | Some _ => m
            | None => set_extra (m_extra m ++ [{| rr_name := $"."; rr_type := type_OPT; rr_class := 0; rr_ttl := 0;
                                                  rr_data := DOPT [] |}]) m
            end in
  update_opt (fun o => set_options (filter (fun e => negb (eopt_code e =? eopt_code opt)%N) (opt_options o) ++ [opt]) o) m1.

(** ** util/common.go *)

(** util/common.go:110-112 ExtractDomainOnly *)
Definition extract_domain_only (s : str) : str := trim_suffix (to_lower s) $".".
(** util/common.go:105-107 ExtractDomain *)
Definition extract_domain (q : question) : str := extract_domain_only (q_name q).

(** miekg/dns Fqdn (names without escapes) -- util/common.go:117 *)
Definition fqdn (s : str) : str := if has_suffix s $"." then s else s ++ $".".

(** util/common.go:100-102 CreateHeader, 75-97 CreateAnswerFromQuestion for A and AAAA
    questions; the fall-back for other types parses text and is an oracle where used *)
Definition create_rr (q : question) (ttl : N) (d : rdata) : rr :=
  {| rr_name := q_name q; rr_type := q_type q; rr_class := 1; rr_ttl := ttl; rr_data := d |}.

(** util/common.go:115-120 NewMsgWithQuestion with miekg SetQuestion: random id, RD set *)
Definition new_msg_with_question (id : N) (name : str) (t : N) : msg :=
  {| m_id := id; m_response := false; m_opcode := 0; m_aa := false; m_tc := false; m_rd := true; m_ra := false;
     m_zero := false; m_ad := false; m_cd := false; m_rcode := 0;
     m_question := [{| q_name := fqdn name; q_type := t; q_class := 1 |}]; m_answer := []; m_ns := []; m_extra := [] |}.

(** resolver/resolver.go:17-22 newRequest *)
Definition new_request (id : N) (name : str) (t : N) : request :=
  {| req_ip := None; req_client_id := []; req_proto := UDP; req_names := [];
     req_msg := new_msg_with_question id (fqdn name) t |}.

(** resolver/resolver.go:36-46 newResponse *)
Definition new_response (req : request) (rcode : N) (t : rtype) (reason : str) : response :=
  {| rs_msg := Some (set_rcode_field rcode (set_reply empty_msg (req_msg req))); rs_reason := reason; rs_type := t |}.

(** util/common.go:186-194 GenerateCacheKey *)
Definition generate_cache_key (t : N) (name : str) : str :=
  ascii_of_N (t / 256) :: ascii_of_N (t mod 256) :: to_lower name.

(** util/common.go:197-204 ExtractCacheKey (None: the index panic on a short key) *)
Definition extract_cache_key (key : str) : option (N * str) :=
  match key with
  | a :: b :: name => Some (N_of_ascii a * 256 + N_of_ascii b, name)%N
  | _ => None
  end.
