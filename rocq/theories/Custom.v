(** Model of resolver/custom_dns_resolver.go.

    Simplifications: cancellation of the context between two labels
    (custom_dns_resolver.go:119-121) is not modelled; the ids of the sub-requests,
    random in the code, are given by an arbitrary function [new_id]; names contain
    no escaped characters. *)
From Coq Require Import String Ascii List Arith Bool NArith.
From Verif Require Import Str Dns Resolver Arpa.
Import ListNotations.

(** config/custom_dns.go:13-19 CustomDNS: names and their records of the mapping and
    of the zone, each in the (arbitrary) order in which Go iterates over the map; the
    TTL in seconds *)
Record custom_cfg := {
  cu_mapping : list (str * list rr); cu_zone : list (str * list rr); cu_ttl : N; cu_filter : bool }.

(** custom_dns_resolver.go:33-47: the table of records by domain *)
Definition custom_records (cfg : custom_cfg) : list (str * list rr) :=
  let m := fold_left (fun m p => mput str_eqb (extract_domain_only (fst p)) (map (set_ttl (cu_ttl cfg)) (snd p)) m)
                     (cu_mapping cfg) [] in
  fold_left (fun m p => mput str_eqb (extract_domain_only (fst p)) (snd p) m) (cu_zone cfg) m.

(** custom_dns_resolver.go:51-65, for one record *)
Definition add_reverse (url : str) (rev_map : list (str * list str)) (e : rr) : list (str * list str) :=
  match rr_data e with
  | DA i | DAAAA i =>
      let r := reverse_addr i in
      mput str_eqb r (match mget str_eqb r rev_map with Some l => l | None => [] end ++ [url]) rev_map
  | _ => rev_map
  end.

(** custom_dns_resolver.go:49-67: the reverse table, for the order [records] of iteration *)
Definition custom_reverse (records : list (str * list rr)) : list (str * list str) :=
  fold_left (fun m p => fold_left (add_reverse (fst p)) (snd p) m) records [].

(** custom_dns_resolver.go:79-82 isSupportedType (a 16-byte address that is no IPv4
    address is printed with colons) *)
Definition is_supported_type (i : ip) (q : question) : bool :=
  (is_v4 i && (q_type q =? type_A)%N) || (negb (is_v4 i) && (q_type q =? type_AAAA)%N).

(** custom_dns_resolver.go:203-216 processIP with util/common.go:75-97 *)
Definition process_ip (i : ip) (q : question) (ttl : N) : list rr :=
  if is_supported_type i q
  then [create_rr q ttl (if (q_type q =? type_A)%N then DA i else DAAAA i)]
  else [].

(** custom_dns_resolver.go:218-227 processTXT *)
Definition process_txt (v : list str) (q : question) (ttl : N) : list rr :=
  if (q_type q =? type_TXT)%N
  then [{| rr_name := q_name q; rr_type := type_TXT; rr_class := 1; rr_ttl := ttl; rr_data := DTXT v |}]
  else [].

(** custom_dns_resolver.go:229-245 processSRV *)
Definition process_srv (p w port : N) (t : str) (q : question) (ttl : N) : list rr :=
  if (q_type q =? type_SRV)%N
  then [{| rr_name := q_name q; rr_type := type_SRV; rr_class := 1; rr_ttl := ttl; rr_data := DSRV p w port t |}]
  else [].

(** custom_dns_resolver.go:256-259: the CNAME record of the answer *)
Definition cname_record (t : str) (q : question) (ttl : N) : rr :=
  {| rr_name := q_name q; rr_type := type_CNAME; rr_class := 1; rr_ttl := ttl; rr_data := DCNAME (fqdn t) |}.

(** The response of the resolver (custom_dns_resolver.go:100, 142, 152) *)
Definition custom_response (req : request) (ans : list rr) : response :=
  {| rs_msg := Some (set_answer ans (set_reply empty_msg (req_msg req))); rs_reason := $"CUSTOM DNS"; rs_type := CUSTOMDNS |}.

(** The names tried by the loop of custom_dns_resolver.go:118-159, longest first: the
    name itself and what follows each of its dots *)
Fixpoint after_dots (s : str) : list str :=
  match s with
  | [] => []
  | c :: s' => if Ascii.eqb c dot then s' :: after_dots s' else after_dots s'
  end.

(** custom_dns_resolver.go:118-159: the loop ends at the first mapped name, or when the
    name is empty *)
Fixpoint first_mapped {V} (m : list (str * V)) (names : list str) : option V :=
  match names with
  | [] => None
  | d :: ds =>
      match d with
      | [] => None
      | _ => match mget str_eqb d m with Some v => Some v | None => first_mapped m ds end
      end
  end.

(** custom_dns_resolver.go:270-274 with resolver.go:48-56 newRequestWithClientID *)
Definition target_request (id : N) (req : request) (q : question) (target : str) : request :=
  {| req_ip := req_ip req; req_client_id := req_client_id req; req_proto := UDP; req_names := [];
     req_msg := new_msg_with_question id target (q_type q) |}.

(** custom_dns_resolver.go:268: the error for a loop of CNAMEs; %v prints the names between brackets *)
Definition loop_text (names : list str) : str := $"CNAME loop detected: [" ++ join $" " names ++ $"]".

Section Resolver.
Variable cfg : custom_cfg.
(** ids of the sub-requests *)
Variable new_id : str -> N.
(** what happens when [fuel] is used up; the theorems show that this never happens *)
Variable stuck : prog.

Section Entries.
(** processRequest for the target of a CNAME: names already seen, request *)
Variable process : list str -> request -> prog.
Variable req : request.
Variable q : question.
Variable cnames : list str.

(** custom_dns_resolver.go:127-158 (loop over the entries, with 167-189
    processDNSEntry and 247-287 processCNAME) and what follows it *)
Fixpoint process_entries (entries : list rr) (acc : list rr) : prog :=
  match entries with
  | [] =>
      match acc with
      | [] => if cu_filter cfg then Done (Ok (custom_response req [])) else pass req
      | _ => Done (Ok (custom_response req acc))
      end
  | e :: es =>
      match rr_data e with
      | DA i | DAAAA i => process_entries es (acc ++ process_ip i q (rr_ttl e))
      | DTXT v => process_entries es (acc ++ process_txt v q (rr_ttl e))
      | DSRV p w port t => process_entries es (acc ++ process_srv p w port t q (rr_ttl e))
      | DCNAME t =>
          let cn := cname_record t q (rr_ttl e) in
          if (q_type q =? type_CNAME)%N then process_entries es (acc ++ [cn])
          else
            let target := trim_suffix t $"." in
            if str_in target cnames then Done (Err (loop_text (cnames ++ [target])))
            else bind (process (cnames ++ [target]) (target_request (new_id target) req q target))
                   (fun r => match r with
                             | Err err => Done (Err err)
                             | Ok resp => match rs_msg resp with
                                          | None => Crash
                                          | Some m => process_entries es (acc ++ cn :: m_answer m)
                                          end
                             end)
      | _ => Done (Err $"unsupported customDNS RR type")
      end
  end.
End Entries.

(** custom_dns_resolver.go:107-165 processRequest *)
Fixpoint process_request (fuel : nat) (cnames : list str) (req : request) : prog :=
  match fuel with
  | O => stuck
  | S fuel' =>
      match m_question (req_msg req) with
      | [] => Crash
      | q :: _ =>
          let domain := extract_domain q in
          match first_mapped (custom_records cfg) (domain :: after_dots domain) with
          | None => pass req
          | Some entries => process_entries (process_request fuel') req q cnames entries []
          end
      end
  end.

(** The targets of the configured CNAMEs (only used to bound the recursion) -- resolver/custom_dns_resolver.go:247-287 *)
Definition cname_targets : list str :=
  flat_map (fun p => flat_map (fun e => match rr_data e with DCNAME t => [trim_suffix t $"."] | _ => [] end) (snd p))
           (custom_records cfg).

(** custom_dns_resolver.go:84-105 handleReverseDNS ([records]: the order in which the
    reverse table was built); [None]: the nil response *)
Definition handle_reverse (records : list (str * list rr)) (req : request) (q : question) : option response :=
  if (q_type q =? type_PTR)%N then
    match mget str_eqb (q_name q) (custom_reverse records) with
    | Some urls => Some (custom_response req (map (fun u => create_rr q (cu_ttl cfg) (DPTR (fqdn u))) urls))
    | None => None
    end
  else None.

(** custom_dns_resolver.go:192-201 Resolve *)
Definition custom_resolve (records : list (str * list rr)) (fuel : nat) (req : request) : prog :=
  match m_question (req_msg req) with
  | [] => Crash
  | q :: _ =>
      match handle_reverse records req q with
      | Some r => Done (Ok r)
      | None => process_request fuel [] req
      end
  end.
End Resolver.
