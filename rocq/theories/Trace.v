(** The lines which answering a query leaves in the log of the program (not the query log of QueryLog.v, unless that is
    written to the console): server/server.go:440-570, log/context.go and the calls of the logger in the resolvers.

    A line is its level, its message and its fields.  Left out: the field "prefix" (names of resolvers), the lines of
    level trace which tell only which resolver is next, and the order of the lines of one call of Resolve and of the
    calls it makes.  What the resolvers learn outside of the model (errors, texts of libraries, which entry of a list
    matched, what happened at the upstreams) is in the record [outside] and arbitrary. *)
From Coq Require Import String Ascii List Arith Bool NArith ZArith.
From Verif Require Import Str Num Dns Resolver ExpCache Caching Blocking Custom Conditional Rewriter Sudn Ecs ClientNames QueryLog Hosts Chain.
From Verif Require StringCache LogOut.
Import ListNotations.
Open Scope list_scope.

(** logrus.Entry when it is written: level, message, fields -- log/logger.go:14, 99 *)
Record line := { ln_level : LogOut.level; ln_text : str; ln_fields : list (str * str) }.

(** logrus Entry.WithFields: later fields replace earlier ones of the same name -- log/context.go:42-46 CtxWithFields *)
Definition with_fields (ctx extra : list (str * str)) : list (str * str) :=
  filter (fun p => negb (str_in (fst p) (map fst extra))) ctx ++ extra.

(** A call of the logger with the fields of the context and some more -- log/context.go:17-46, resolver/resolver.go:192-208 *)
Definition say (l : LogOut.level) (ctx extra : list (str * str)) (text : str) : line :=
  {| ln_level := l; ln_text := text; ln_fields := with_fields ctx extra |}.

(** What an upstream resolver, a group of them or the tree may write: resolver/upstream_tree_resolver.go:113, 147-151;
    resolver/parallel_best_resolver.go:158, 170, 197-203, 216-226, 268; resolver/strict_resolver.go:80-93;
    resolver/upstream_resolver.go:165, 366-371, 385-393 *)
Inductive up_event :=
| UDelegate (resolver : str)
| UMany (names ip groups : str)
| URetry (upstream ip attempt err : str)
| UReceived (upstream ip code proto net ms : str) (answer : list rr)
| UFailed (resolver err : str)
| UUsing (resolver : str) (answer : list rr)
| USecond (resolver : str)
| UStrict (resolver : str)
| UChoose (err : str)
| UClose (err : str).

(** Everything lines of the log depend on besides the request and the [world] of Chain.v: texts made outside of the model
    (uuid, errors, %q) and what happened there -- server/server.go:440-455, 509-521, resolver/client_names_resolver.go:114-154,
    resolver/query_logging_resolver.go:140-161, cache/stringcache/string_caches.go:38-62, 137-146,
    resolver/caching_resolver.go:223-238, 273-281 *)
Record outside (U : Type) := {
  x_req_id : str;
  x_lookup : request -> option (str + list str);     (* reverse lookup of the client: an error, or names *)
  x_lookup_question : request -> list question;      (* of the reverse lookup *)
  x_lookup_events : request -> list up_event;
  x_log : log_cfg;
  x_room : bool;                                     (* room in the channel of the query log *)
  x_console : bool;                                  (* the query log goes to the console *)
  x_hits : bool -> str -> list (option str);         (* entries of allow (true) or deny lists found: exact, or a regex *)
  x_unpack : nat -> option str;                      (* error of Unpack, for the i-th question *)
  x_pack : nat -> option str;                        (* error of Pack *)
  x_upstream_text : U -> str;
  x_cond_events : U -> request -> list up_event;
  x_tree_events : request -> list up_event;
  x_quote : str -> str;                              (* %q *)
  x_server_failed : str -> bool;                     (* the error wraps an UpstreamServerError *)
  x_panic : str;
  x_write : option str }.                            (* error of WriteMsg *)
Arguments x_req_id {U}. Arguments x_lookup {U}. Arguments x_lookup_question {U}. Arguments x_lookup_events {U}. Arguments x_log {U}.
Arguments x_room {U}. Arguments x_console {U}. Arguments x_hits {U}. Arguments x_unpack {U}. Arguments x_pack {U}.
Arguments x_upstream_text {U}. Arguments x_cond_events {U}. Arguments x_tree_events {U}. Arguments x_quote {U}.
Arguments x_server_failed {U}. Arguments x_panic {U}. Arguments x_write {U}.

(** util/common.go:65-72 QuestionToString *)
Definition question_to_string (T : texts) (privacy : bool) (qs : list question) : str :=
  obfuscate privacy (join $", " (map (fun q => type_text T (q_type q) ++ $" (" ++ q_name q ++ $")") qs)).

Section Trace.
Context {U : Type}.
Variable T : texts.
(** util.LogPrivacy -- util/common.go:28 *)
Variable privacy : bool.
Variable w : world U.
Variable x : outside U.

(** The lines of an event at the upstreams for the questions [qs] -- as cited at [up_event] *)
Definition up_line (ctx : list (str * str)) (qs : list question) (e : up_event) : line :=
  match e with
  | UDelegate r => say LogOut.LDebug ctx [($"resolver", r)] $"delegating to resolver"
  | UMany names i groups =>
      say LogOut.LWarn ctx [($"clientNames", names); ($"clientIP", i); ($"groups", groups)] $"client matches multiple groups"
  | URetry u i attempt err =>
      say LogOut.LDebug ctx [($"upstream", u); ($"upstream_ip", i); ($"question", question_to_string T privacy qs); ($"attempt", attempt)]
        (err ++ $", retrying...")
  | UReceived u i code proto net ms answer =>
      say LogOut.LDebug ctx [($"answer", answer_to_string T privacy answer); ($"return_code", code); ($"upstream", u); ($"upstream_ip", i);
                      ($"protocol", proto); ($"net", net); ($"response_time_ms", ms)] $"received response from upstream"
  | UFailed r err => say LogOut.LDebug ctx [($"resolver", r)] ($"resolution failed from resolver, cause: " ++ err)
  | UUsing r answer => say LogOut.LDebug ctx [($"resolver", r); ($"answer", answer_to_string T privacy answer)] $"using response from resolver"
  | USecond r => say LogOut.LDebug ctx [] ($"using " ++ r ++ $" as second resolver")
  | UStrict r => say LogOut.LDebug ctx [] ($"using " ++ r ++ $" as resolver")
  | UChoose err => say LogOut.LError ctx [($"error", err)] $"can't choose random weighted resolver, falling back to uniform random"
  | UClose err => say LogOut.LError ctx [] ($"can't close response body " ++ err)
  end.

(** resolver/ecs_resolver.go:80-104 setSubnet: the address of the option which is set *)
Definition subnet_address (c : ecs_cfg) (so : option eopt) (req : request) : option ip :=
  match (match so with
         | Some (EOSubnet _ _ _ (Some a)) => if ec_forward c then Some a else req_ip req
         | _ => req_ip req
         end) with
  | None => None
  | Some i => if is_v4 i && (0 <? ec_mask4 c)%N then mask_ip i (ec_mask4 c)
              else if (0 <? ec_mask6 c)%N then mask_ip i (ec_mask6 c)
              else None
  end.

(** resolver/ecs_resolver.go:51-104: the lines of Resolve and setSubnet *)
Definition ecs_lines (ctx : list (str * str)) (req : request) : list line :=
  let c := w_ecs w in
  if ecs_enabled c then
    let so := get_edns0_option 8 (req_msg req) in
    match so with
    | Some (EOSubnet family mask _ addr) =>
        if ec_client c && (((family =? 1)%N && (mask =? 32)%N) || ((family =? 2)%N && (mask =? 128)%N))
        then [say LogOut.LDebug ctx [] ($"using request's edns0 address as internal client IP: " ++ ip_text T addr)] else []
    | _ => []
    end ++
    (if (0 <? ec_mask4 c)%N || (0 <? ec_mask6 c)%N then
       match subnet_address c so (ecs_client c so req) with
       | Some a => [say LogOut.LDebug ctx [] ($"set edns0 subnet option address: " ++ ip_text T (Some a))]
       | None => []
       end
     else []) ++
    (if (ec_mask4 c =? 0)%N && (ec_mask6 c =? 0)%N && match so with Some _ => true | None => false end && negb (ec_forward c)
     then [say LogOut.LDebug ctx [] $"remove edns0 subnet option"] else [])
  else [].

(** resolver/client_names_resolver.go:114-154 resolveClientNames *)
Definition names_lines (ctx : list (str * str)) (req : request) : list line :=
  map (up_line ctx (x_lookup_question x req)) (x_lookup_events x req) ++
  match x_lookup x req with
  | None => []
  | Some (inl err) => [say LogOut.LError ctx [] ($"can't resolve client name: " ++ err)]
  | Some (inr names) =>
      [say LogOut.LDebug ctx [($"client_names", join $"; " names)] $"resolved client name(s) from external resolver"]
  end.

(** querylog/logger_writer.go:32-45 LogEntryFields as fields of a line *)
Definition entry_line_fields (e : log_entry) : list (str * str) :=
  map (fun p => (fst p, match snd p with inl t => t | inr n => print_dec n end)) (LogOut.console_fields e).

(** resolver/query_logging_resolver.go:140-161 Resolve, and querylog/logger_writer.go:23-27 Write for what is put in the
    channel *)
Definition logging_lines (ctx : list (str * str)) (req : request) (r : option result) : list line :=
  match r with
  | Some (Ok resp) =>
      match w_entry w req resp with
      | None => []
      | Some e =>
          if log_ignored (x_log x) resp then [say LogOut.LDebug ctx (entry_line_fields e) $"ignored querylog entry"]
          else if x_room x then
            if x_console x then [say LogOut.LInfo [] (entry_line_fields e) $"query resolved"] else []
          else [say LogOut.LError ctx [] $"query log writer is too slow, log entry will be dropped"]
      end
  | _ => []
  end.

(** The name found by the loops of resolver/custom_dns_resolver.go:118-159 and
    resolver/conditional_upstream_resolver.go:58-73 *)
Fixpoint mapped_name {V} (m : list (str * V)) (names : list str) : str :=
  match names with
  | [] => []
  | d :: ds => match d with [] => [] | _ => match mget str_eqb d m with Some _ => d | None => mapped_name m ds end end
  end.

(** resolver/custom_dns_resolver.go:126-158: the lines of the loop over the entries of [domain]; [sub] are the lines and the
    result for the target of a CNAME *)
Fixpoint entries_lines (ctx : list (str * str)) (sub : list str -> request -> list line * option result) (domain : str) (req : request)
    (q : question) (cnames : list str) (entries acc : list rr) : list line :=
  match entries with
  | [] =>
      match acc with
      | [] => []
      | _ => [say LogOut.LDebug ctx [($"answer", answer_to_string T privacy acc); ($"domain", domain)] $"returning custom dns entry"]
      end
  | e :: es =>
      match rr_data e with
      | DA i | DAAAA i => entries_lines ctx sub domain req q cnames es (acc ++ process_ip i q (rr_ttl e))
      | DTXT v => entries_lines ctx sub domain req q cnames es (acc ++ process_txt v q (rr_ttl e))
      | DSRV p pw port t => entries_lines ctx sub domain req q cnames es (acc ++ process_srv p pw port t q (rr_ttl e))
      | DCNAME t =>
          let cn := cname_record t q (rr_ttl e) in
          if (q_type q =? type_CNAME)%N then entries_lines ctx sub domain req q cnames es (acc ++ [cn])
          else
            let target := trim_suffix t $"." in
            if str_in target cnames then []
            else
              let (ls, r) := sub (cnames ++ [target]) (target_request (w_new_id w target) req q target) in
              ls ++ match r with
                    | Some (Ok resp) => match rs_msg resp with
                                        | Some m => entries_lines ctx sub domain req q cnames es (acc ++ cn :: m_answer m)
                                        | None => []
                                        end
                    | _ => []
                    end
      | _ => []
      end
  end.

(** resolver/custom_dns_resolver.go:107-165 processRequest *)
Fixpoint custom_lines (ctx : list (str * str)) (next : next_fn) (fuel : nat) (cnames : list str) (req : request) : list line :=
  match fuel with
  | O => []
  | S fuel' =>
      match m_question (req_msg req) with
      | [] => []
      | q :: _ =>
          let domain := extract_domain q in
          match first_mapped (custom_records (w_custom w)) (domain :: after_dots domain) with
          | None => []
          | Some entries =>
              entries_lines ctx
                (fun cs rq => (custom_lines ctx next fuel' cs rq, exec (process_request (w_custom w) (w_new_id w) Crash fuel' cs rq) next))
                (mapped_name (custom_records (w_custom w)) (domain :: after_dots domain)) req q cnames entries []
          end
      end
  end.

(** resolver/custom_dns_resolver.go:192-201 Resolve *)
Definition custom_stage_lines (ctx : list (str * str)) (next : next_fn) (req : request) : list line :=
  match m_question (req_msg req) with
  | [] => []
  | q :: _ =>
      match handle_reverse (w_custom w) (w_records w) req q with
      | Some _ => []
      | None => custom_lines ctx next (w_fuel w) [] req
      end
  end.

(** resolver/rewriter_resolver.go:154-164 rewriteDomain: the rule which is used *)
Fixpoint rewrite_rule (rules : list (str * str)) (d : str) : str * str :=
  match rules with
  | [] => ([], [])
  | (k, v) :: rs => if has_suffix d (dot :: k) then (k, v) else rewrite_rule rs d
  end.

(** resolver/rewriter_resolver.go:123-152 rewriteRequest *)
Fixpoint rewrite_lines (ctx : list (str * str)) (iter : nat -> list (str * str)) (i : nat) (qs : list question) : list line :=
  match qs with
  | [] => []
  | q :: qs' =>
      let d := extract_domain_only (q_name q) in
      let d' := rewrite_domain (iter i) d in
      (if str_eqb d' d then []
       else let (k, v) := rewrite_rule (iter i) d in
            [say LogOut.LDebug ctx [($"rewrite", obfuscate privacy k ++ $":" ++ obfuscate privacy v)]
               ($"rewriting " ++ x_quote x (obfuscate privacy d) ++ $" to " ++ x_quote x (obfuscate privacy d'))]) ++
      rewrite_lines ctx iter (S i) qs'
  end.

(** The request the inner resolver gets -- resolver/rewriter_resolver.go:65-68 *)
Definition rewritten_request (iter : nat -> list (str * str)) (req : request) : request :=
  let (qs, names) := rewrite_questions iter 0 (m_question (req_msg req)) [] in
  match names with [] => req | _ => set_req_msg (set_question qs (req_msg req)) req end.

(** resolver/hosts_file_resolver.go:113-141 Resolve *)
Definition hosts_lines (ctx : list (str * str)) (req : request) : list line :=
  if negb (hf_enabled (w_hosts w)) then []
  else match m_question (req_msg req) with
       | [] => []
       | q :: _ =>
           match hosts_reverse (w_hosts w) (w_hosts4 w) (w_hosts6 w) req q with
           | Some _ => []
           | None =>
               match split_get (w_table w) (q_type q) (extract_domain q) with
               | Some i =>
                   [say LogOut.LDebug ctx
                      [($"answer", answer_to_string T privacy [create_rr q (hf_ttl (w_hosts w)) (if (q_type q =? type_A)%N then DA i else DAAAA i)]);
                       ($"domain", obfuscate privacy (extract_domain q))] $"returning hosts file entry"]
               | None => []
               end
           end
       end.

(** cache/stringcache/string_caches.go:55, 140: what a lookup of [s] in the lists writes (log.PrefixedLog: no fields of the
    context) *)
Definition hit_lines (allow : bool) (s : str) : list line :=
  map (fun h => say LogOut.LDebug [] [] (match h with
                                  | None => $"block rule '" ++ StringCache.normalize_entry s ++ $"' matched with '" ++ s ++ $"'"
                                  | Some r => $"regex '" ++ r ++ $"' matched with '" ++ s ++ $"'"
                                  end)) (x_hits x allow s).

(** resolver/blocking_resolver.go:370-393: the loop over the questions *)
Fixpoint deny_lines (ctx : list (str * str)) (groups : list str) (qs : list question) : list line :=
  match qs with
  | [] => []
  | q :: qs' =>
      let domain := extract_domain q in
      hit_lines true domain ++
      match matches (w_allow w) groups domain with
      | (_ :: _) as gs =>
          [say LogOut.LDebug ctx [($"domain", domain); ($"groups", LogOut.show_list gs)] $"domain is allowlisted"]
      | [] =>
          if has_allowlist_only (w_blk w) groups then
            [say LogOut.LDebug ctx [($"domain", domain)] $"blocking request 'BLOCKED (ALLOWLIST ONLY)'"]
          else
            hit_lines false domain ++
            match matches (w_deny w) groups domain with
            | (_ :: _) as gs =>
                [say LogOut.LDebug ctx [($"domain", domain)] ($"blocking request 'BLOCKED (" ++ join $"," gs ++ $")'")]
            | [] => deny_lines ctx groups qs'
            end
      end
  end.

(** resolver/blocking_resolver.go:412-426: the loop over the records of the answer *)
Fixpoint screen_lines (ctx : list (str * str)) (groups : list str) (ans : list rr) : list line :=
  match ans with
  | [] => []
  | r :: ans' =>
      let '(e, t) := entry_to_check (w_ip_string w) r in
      match e with
      | [] => screen_lines ctx groups ans'
      | _ =>
          hit_lines true e ++
          match matches (w_allow w) groups e with
          | (_ :: _) as gs =>
              say LogOut.LDebug ctx [($"response_entry", e); ($"groups", LogOut.show_list gs)] (t ++ $" is allowlisted") :: screen_lines ctx groups ans'
          | [] =>
              hit_lines false e ++
              match matches (w_deny w) groups e with
              | (_ :: _) as gs =>
                  [say LogOut.LDebug ctx [($"response_entry", e)] ($"blocking request 'BLOCKED " ++ t ++ $" (" ++ join $"," gs ++ $")'")]
              | [] => screen_lines ctx groups ans'
              end
          end
      end
  end.

(** The groups of the client -- resolver/blocking_resolver.go:401 *)
Definition groups_of_client (req : request) : list str :=
  groups_to_check (w_glob w) (w_cidr w) (w_ip_string w) (w_blk_iter w 0) (w_blk_iter w) (w_fqdn_ips w) (w_disabled w) req.

(** resolver/blocking_resolver.go:364-429 Resolve and handleDenylist *)
Definition blocking_lines (ctx : list (str * str)) (next : next_fn) (req : request) : list line :=
  match groups_of_client req with
  | [] => []
  | (_ :: _) as groups =>
      say LogOut.LDebug ctx [($"groupsToCheck", join $"; " groups)] $"checking groups for request" ::
      deny_lines ctx groups (m_question (req_msg req)) ++
      match handle_denylist (w_allow w) (w_deny w) (w_blk w) (w_handler w) groups req (m_question (req_msg req)) with
      | Some _ => []
      | None =>
          match next req with
          | Some (Ok resp) => match rs_msg resp with Some m => screen_lines ctx groups (m_answer m) | None => [] end
          | _ => []
          end
      end
  end.

(** resolver/caching_resolver.go:189-218, 223-238, 273-281: the loop over the questions *)
Fixpoint cache_lines (ctx : list (str * str)) (look : nat -> option (msg * Z)) (i : nat) (qs : list question) : list line :=
  match qs with
  | [] => []
  | q :: rest =>
      let domain := [($"domain", obfuscate privacy (extract_domain q))] in
      match x_unpack x i with
      | Some err => [say LogOut.LError ctx domain ($"can't unpack cached entry. Cache malformed?" ++ err)]
      | None => []
      end ++
      match look i with
      | Some _ => [say LogOut.LDebug ctx domain $"domain is cached"]
      | None =>
          match x_pack x i with Some err => [say LogOut.LError ctx [] ($"error on packing" ++ err)] | None => [] end ++
          cache_lines ctx look (S i) rest
      end
  end.

(** resolver/caching_resolver.go:180-221 Resolve *)
Definition caching_lines (ctx : list (str * str)) (req : request) : list line :=
  if negb (caching_enabled (w_caching w)) || negb (is_request_cacheable req) then [say LogOut.LDebug ctx [] $"skip cache"]
  else cache_lines ctx (w_look w req) 0 (m_question (req_msg req)).

(** resolver/conditional_upstream_resolver.go:53-129 *)
Definition conditional_lines (ctx : list (str * str)) (req : request) : list line :=
  match cond_dest (w_mapping w) req with
  | Some (ToUpstream u rq) =>
      match m_question (req_msg req) with
      | [] => []
      | q :: _ =>
          let domain := extract_domain q in
          let found := if contains_byte dot domain then mapped_name (cond_table (w_mapping w)) (domain :: after_dots domain) else domain in
          let answer := match w_ask w u rq with
                        | Some (Ok r) => match rs_msg r with Some m => answer_to_string T privacy (m_answer m) | None => [] end
                        | _ => []
                        end in
          map (up_line ctx (m_question (req_msg rq))) (x_cond_events x u rq) ++
          [say LogOut.LDebug ctx [($"answer", answer); ($"domain", obfuscate privacy found); ($"upstream", x_upstream_text x u)]
             $"received response from conditional upstream"]
      end
  | _ => []
  end.

(** The lines of one call of Resolve; the other resolvers write none -- resolver/*.go *)
Definition stage_lines (s : stage) (ctx : list (str * str)) (req : request) (next : next_fn) : list line :=
  match s with
  | SEcs => ecs_lines ctx req
  | SClientNames => names_lines ctx req
  | SQueryLogging => logging_lines ctx req (next req)
  | SCustom =>
      match w_custom_rules w with
      | [] => custom_stage_lines ctx next req
      | _ :: _ => rewrite_lines ctx (w_custom_iter w) 0 (m_question (req_msg req)) ++
                  custom_stage_lines ctx noop (rewritten_request (w_custom_iter w) req)
      end
  | SHosts => hosts_lines ctx req
  | SBlocking => blocking_lines ctx next req
  | SCaching => caching_lines ctx req
  | SConditional =>
      match w_cond_rules w with
      | [] => conditional_lines ctx req
      | _ :: _ => rewrite_lines ctx (w_cond_iter w) 0 (m_question (req_msg req)) ++
                  conditional_lines ctx (rewritten_request (w_cond_iter w) req)
      end
  | _ => []
  end.

(** The fields of the context given to the next resolver -- resolver/client_names_resolver.go:62-69 *)
Definition next_ctx (s : stage) (ctx : list (str * str)) (req : request) : list (str * str) :=
  match s with SClientNames => with_fields ctx [($"client_names", join $"; " (w_names w req))] | _ => ctx end.

(** The lines of all calls of Resolve in a chain -- resolver/resolver.go:105-115 *)
Fixpoint chain_lines (rs : list (stage * (request -> prog))) (ctx : list (str * str)) (req : request) : list line :=
  match rs with
  | [] => map (up_line ctx (m_question (req_msg req))) (x_tree_events x req)
  | (s, p) :: rs' =>
      let next := chain (map snd rs') (w_upstream w) in
      stage_lines s ctx req next ++ flat_map (chain_lines rs' (next_ctx s ctx req)) (forwarded (p req) next)
  end.

(** server/server.go:440-449 newRequest: the fields of the context of a request *)
Definition request_ctx (req : request) : list (str * str) :=
  [($"req_id", x_req_id x); ($"question", question_to_string T privacy (m_question (req_msg req))); ($"client_ip", ip_text T (req_ip req))].

(** server/server.go:509-522 handleReq and 524-556 resolve: the line for a failed query *)
Definition failure_lines (ctx : list (str * str)) (req : request) : list line :=
  match m_question (req_msg req) with
  | [] => [say LogOut.LError ctx [] $"query has no questions"]
  | _ =>
      match query_chain w req with
      | Some (Err e) => if x_server_failed x e then [] else [say LogOut.LError ctx [] ($"error on processing request:" ++ e)]
      | Some (Ok r) =>
          match rs_msg r with
          | Some _ => []
          | None => [say LogOut.LError ctx [] ($"error on processing request:panic occurred: " ++ x_panic x)]
          end
      | None => [say LogOut.LError ctx [] ($"error on processing request:panic occurred: " ++ x_panic x)]
      end
  end.

(** All lines for a query: server/server.go:440-465 newRequest, 509-522 handleReq *)
Definition request_lines (req : request) : list line :=
  let ctx := request_ctx req in
  say LogOut.LTrace ctx [($"client_request_id", print_dec (m_id (req_msg req))); ($"client_id", req_client_id req);
                  ($"protocol", match req_proto req with UDP => $"UDP" | TCP => $"TCP" end)] $"new incoming request" ::
  match m_question (req_msg req) with [] => [] | _ => chain_lines (query_resolvers w) ctx req end ++
  failure_lines ctx req ++
  match x_write x with Some err => [say LogOut.LError ctx [] ($"can't write message: " ++ err)] | None => [] end.

(** What is written with the configured level -- log/logger.go:99 SetLevel *)
Definition written (l : LogOut.level) (req : request) : list line :=
  filter (fun n => LogOut.level_enabled l (ln_level n)) (request_lines req).

(** resolver/caching_resolver.go:126-151 reloadCacheEntry: the lines of a prefetch, apart from those of the resolvers it asks;
    [r] is what they answered, [pack] the error of Pack *)
Definition prefetch_lines (ctx : list (str * str)) (name type : str) (r : result) (pack : option str) : list line :=
  say LogOut.LDebug ctx [] ($"prefetching '" ++ obfuscate privacy name ++ $"' (" ++ type ++ $")") ::
  match r with
  | Ok _ => match pack with Some err => [say LogOut.LError ctx [] ($"unable to pack response" ++ err)] | None => [] end
  | Err e => [say LogOut.LError ctx [] ($"can't prefetch '" ++ name ++ $"' " ++ e)]
  end.
End Trace.
