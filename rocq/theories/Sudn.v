(** Model of the small resolvers: resolver/sudn_resolver.go,
    resolver/filtering_resolver.go, resolver/fqdn_only_resolver.go and
    resolver/ede_resolver.go. *)
From Coq Require Import String Ascii List Arith Bool NArith.
From Verif Require Import Str Dns Resolver Custom.
Import ListNotations.

(** ** resolver/sudn_resolver.go *)

(** sudn_resolver.go:13: the handlers (the nil handler included) *)
Inductive sudn_handler := HNone | HNXDomain | HLocalhost | HAppendixG | HHomeArpa.

(** sudn_resolver.go:22-87 sudnHandlers *)
Definition sudn_handlers : list (str * sudn_handler) :=
  [ ($"10.in-addr.arpa.", HNXDomain);
    ($"21.172.in-addr.arpa.", HNXDomain); ($"26.172.in-addr.arpa.", HNXDomain); ($"16.172.in-addr.arpa.", HNXDomain);
    ($"22.172.in-addr.arpa.", HNXDomain); ($"27.172.in-addr.arpa.", HNXDomain); ($"17.172.in-addr.arpa.", HNXDomain);
    ($"30.172.in-addr.arpa.", HNXDomain); ($"28.172.in-addr.arpa.", HNXDomain); ($"18.172.in-addr.arpa.", HNXDomain);
    ($"23.172.in-addr.arpa.", HNXDomain); ($"29.172.in-addr.arpa.", HNXDomain); ($"19.172.in-addr.arpa.", HNXDomain);
    ($"24.172.in-addr.arpa.", HNXDomain); ($"31.172.in-addr.arpa.", HNXDomain); ($"20.172.in-addr.arpa.", HNXDomain);
    ($"25.172.in-addr.arpa.", HNXDomain); ($"168.192.in-addr.arpa.", HNXDomain);
    ($"test.", HNXDomain); ($"localhost.", HLocalhost); ($"invalid.", HNXDomain);
    ($"example.", HNone); ($"example.com.", HNone); ($"example.net.", HNone); ($"example.org.", HNone);
    ($"local.", HNXDomain); ($"254.169.in-addr.arpa.", HNXDomain);
    ($"8.e.f.ip6.arpa.", HNXDomain); ($"9.e.f.ip6.arpa.", HNXDomain);
    ($"a.e.f.ip6.arpa.", HNXDomain); ($"b.e.f.ip6.arpa.", HNXDomain);
    ($"intranet.", HAppendixG); ($"internal.", HAppendixG); ($"private.", HAppendixG);
    ($"corp.", HAppendixG); ($"home.", HAppendixG); ($"lan.", HAppendixG);
    ($"onion.", HNXDomain); ($"home.arpa.", HHomeArpa) ].

(** config/sudn.go:8-15 SUDN *)
Record sudn_cfg := { su_appendix_g : bool; su_enable : bool }.

(** sudn_resolver.go:138-140 newSUDNResponse *)
Definition sudn_response (req : request) (rcode : N) : response :=
  new_response req rcode SPECIAL $"Special-Use Domain Name".

(** sudn_resolver.go:142-144 sudnNXDomain *)
Definition sudn_nxdomain (req : request) : response := sudn_response req rcode_nxdomain.

(** sudn_resolver.go:16-18 loopback addresses *)
Definition loopback_v4 : ip := IP4 [127; 0; 0; 1]%N.
(** resolver/sudn_resolver.go:18 *)
Definition loopback_v6 : ip := IP6 [0; 0; 0; 0; 0; 0; 0; 0; 0; 0; 0; 0; 0; 0; 0; 1]%N.

(** sudn_resolver.go:146-171 sudnLocalhost *)
Definition sudn_localhost (req : request) (q : question) : response :=
  let answer d :=
    let r := sudn_response req rcode_success in
    {| rs_msg := match rs_msg r with Some m => Some (set_answer [create_rr q 0 d] m) | None => None end;
       rs_reason := rs_reason r; rs_type := rs_type r |} in
  if (q_type q =? type_A)%N then answer (DA loopback_v4)
  else if (q_type q =? type_AAAA)%N then answer (DAAAA loopback_v6)
  else sudn_nxdomain req.

(** sudn_resolver.go:142-188: run a handler; [None] is the nil response *)
Definition sudn_handle (cfg : sudn_cfg) (h : sudn_handler) (req : request) (q : question) : option response :=
  match h with
  | HNone => None
  | HNXDomain => Some (sudn_nxdomain req)
  | HLocalhost => Some (sudn_localhost req q)
  | HAppendixG => if su_appendix_g cfg then Some (sudn_nxdomain req) else None
  | HHomeArpa => if (q_type q =? type_DS)%N then None else Some (sudn_nxdomain req)
  end.

(** sudn_resolver.go:103-136 Resolve and handler: the name and what follows each of its
    dots are looked up, longest first (the empty name is not in the table) *)
Definition sudn_resolve (cfg : sudn_cfg) (req : request) : prog :=
  if negb (su_enable cfg) then pass req
  else match m_question (req_msg req) with
       | [] => Crash
       | q :: _ =>
           match first_mapped sudn_handlers (q_name q :: after_dots (q_name q)) with
           | None => pass req
           | Some h => match sudn_handle cfg h req q with Some r => Done (Ok r) | None => pass req end
           end
       end.

(** ** resolver/filtering_resolver.go:26-36 Resolve; [types] is the configured set
    (config/qtype_set.go:23-27 Contains) *)
Definition filtering_resolve (types : list N) (req : request) : prog :=
  match m_question (req_msg req) with
  | [] => Crash
  | q :: _ =>
      if existsb (N.eqb (q_type q)) types
      then Done (Ok {| rs_msg := Some (set_rcode empty_msg (req_msg req) rcode_success); rs_reason := []; rs_type := FILTERED |})
      else pass req
  end.

(** ** resolver/fqdn_only_resolver.go:26-38 Resolve *)
Definition fqdn_only_resolve (enable : bool) (req : request) : prog :=
  if enable then
    match m_question (req_msg req) with
    | [] => Crash
    | q :: _ =>
        if negb (contains_byte dot (extract_domain q))
        then Done (Ok {| rs_msg := Some (set_rcode_field rcode_nxdomain empty_msg); rs_reason := $"NOTFQDN"; rs_type := NOTFQDN |})
        else pass req
    end
  else pass req.

(** ** resolver/ede_resolver.go *)

(** model/models.go:24-47 ToExtendedErrorCode *)
Definition to_extended_error_code (t : rtype) : N :=
  match t with
  | RESOLVED => 0
  | CACHED => 13
  | CONDITIONAL | CUSTOMDNS | HOSTSFILE => 4
  | NOTFQDN | BLOCKED => 15
  | FILTERED | SPECIAL => 17
  end%N.

(** ede_resolver.go:46-59 addExtraReasoning (util.SetEdns0Option ignores a nil message) *)
Definition add_extra_reasoning (r : response) : response :=
  let code := to_extended_error_code (rs_type r) in
  if (code =? 0)%N then r
  else {| rs_msg := match rs_msg r with Some m => Some (set_edns0_option (EOEde code (rs_reason r)) m) | None => None end;
          rs_reason := rs_reason r; rs_type := rs_type r |}.

(** ede_resolver.go:30-43 Resolve *)
Definition ede_resolve (enable : bool) (req : request) : prog :=
  if negb enable then pass req
  else Next req (fun res => match res with
                            | Err e => Done (Err e)
                            | Ok r => Done (Ok (add_extra_reasoning r))
                            end).
