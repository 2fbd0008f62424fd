(** What is written to the log: log/logger.go (levels, indentation), the LogConfig methods with server/server.go:347-361 printConfiguration, and
    querylog/logger_writer.go.

    Texts that libraries print (durations, addresses, records) are given as texts.  Maps are given as lists in their (arbitrary) order of
    iteration.  Time stamps, colours and the fields of log lines other than the message are not modelled. *)
From Coq Require Import String Ascii List Arith Bool NArith ZArith.
From Verif Require Import Str Num ConfUpstream Target QueryLog.
Import ListNotations.
Open Scope list_scope.

(** ** Statements *)

(** Levels of logrus -- log/logger.go:37 *)
Inductive level := LTrace | LDebug | LInfo | LWarn | LError | LFatal | LPanic.
(** The level in order of severity; a logger writes what is at least as severe as its level -- log/logger.go:99 SetLevel *)
Definition severity (l : level) : nat :=
  match l with LTrace => 0 | LDebug => 1 | LInfo => 2 | LWarn => 3 | LError => 4 | LFatal => 5 | LPanic => 6 end.
(** Is a message of level [m] written by a logger of level [l]? -- log/logger.go:99 *)
Definition level_enabled (l m : level) : bool := severity l <=? severity m.

(** What a LogConfig does: messages, and log.WithIndent around others (log/logger.go:145-150) *)
Inductive logp := Say (l : level) (text : str) | Indent (prefix : str) (body : list logp).

(** log/logger.go:36-41 Config: the level, and whether the format is text (JSON otherwise) *)
Record log_conf := { lg_level : level; lg_text : bool }.

(** log/logger.go:186-190 Fire for the hooks in their order (logrus fires them in the order in which they were added) *)
Definition fire (hooks : list str) (m : str) : str := fold_left (fun m h => h ++ m) hooks m.

(** One statement, with the hooks of the global logger before and after it.  log/logger.go:145-175 WithIndent and indentMessages: the hook is
    added only for the text format and the old hooks are put back by [undo]. *)
Fixpoint run_one (c : log_conf) (hooks : list str) (p : logp) : list (level * str) * list str :=
  match p with
  | Say l m => (if level_enabled (lg_level c) l then [(l, fire hooks m)] else [], hooks)
  | Indent prefix body =>
      let fix all hooks ps :=
        match ps with
        | [] => ([], hooks)
        | p :: ps => let '(o, hooks) := run_one c hooks p in let '(os, hooks) := all hooks ps in (o ++ os, hooks)
        end in
      let inner := if lg_text c then hooks ++ [prefix] else hooks in
      (fst (all inner body), hooks)
  end.
(** Statements one after the other -- log/logger.go:145-175 *)
Fixpoint run_log (c : log_conf) (hooks : list str) (ps : list logp) : list (level * str) * list str :=
  match ps with
  | [] => ([], hooks)
  | p :: ps => let '(o, hooks) := run_one c hooks p in let '(os, hooks) := run_log c hooks ps in (o ++ os, hooks)
  end.

(** ** Texts *)

(** %v of a slice: fmt -- config/blocking.go:62, config/conditional_upstream.go:29 *)
Definition show_list (l : list str) : str := $"[" ++ join $" " l ++ $"]".
(** %t -- config/ecs.go:60 *)
Definition show_bool (b : bool) : str := if b then $"true" else $"false".
(** %d -- config/config.go:344 *)
Definition show_int (z : Z) : str := if (z <? 0)%Z then $"-" ++ print_dec (Z.to_N (- z)) else print_dec (Z.to_N z).

(** ** LogConfig *)
Section Print.
(** Duration.String: config/duration.go:40-42 *)
Variable dur : Z -> str.

(** config/redis.go:8-19 Redis *)
Record redis_conf := {
  rd_address : str; rd_user : str; rd_password : str; rd_database : Z; rd_required : bool; rd_attempts : Z; rd_cooldown : Z;
  rd_sentinel_user : str; rd_sentinel_password : str; rd_sentinels : list str }.

(** config/redis.go:27-50 LogConfig *)
Definition redis_log (c : redis_conf) : list logp :=
  (match rd_sentinels c with [] => [Say LInfo ($"address: " ++ rd_address c)] | _ => [] end) ++
  [Say LInfo ($"username: " ++ rd_user c); Say LInfo ($"password: " ++ obfuscator); Say LInfo ($"database: " ++ show_int (rd_database c));
   Say LInfo ($"required: " ++ show_bool (rd_required c)); Say LInfo ($"connectionAttempts: " ++ show_int (rd_attempts c));
   Say LInfo ($"connectionCooldown: " ++ dur (rd_cooldown c))] ++
  match rd_sentinels c with
  | [] => []
  | addrs => [Say LInfo $"sentinel:"; Say LInfo ($"  master: " ++ rd_address c); Say LInfo ($"  username: " ++ rd_sentinel_user c);
              Say LInfo ($"  password: " ++ obfuscator); Say LInfo $"  addresses:"] ++ map (fun a => Say LInfo ($"    - " ++ a)) addrs
  end.

(** config/config.go:332-339 SourceLoading, with the strategy's text (324-326) and the downloads (407-414) *)
Record loading_conf := {
  ld_strategy : str; ld_concurrency : N; ld_max_errors : Z; ld_refresh : Z; ld_timeout : Z; ld_attempts : N; ld_cooldown : Z }.

(** config/config.go:341-354, 328-330, 416-420 LogConfig of SourceLoading, Init and Downloader *)
Definition loading_log (c : loading_conf) : list logp :=
  [Say LDebug ($"strategy = " ++ ld_strategy c); Say LInfo ($"concurrency = " ++ print_dec (ld_concurrency c));
   Say LDebug ($"maxErrorsPerSource = " ++ show_int (ld_max_errors c));
   (if (0 <? ld_refresh c)%Z then Say LInfo ($"refresh = every " ++ dur (ld_refresh c)) else Say LDebug $"refresh = disabled");
   Say LInfo $"downloads:";
   Indent $"  " [Say LInfo ($"timeout = " ++ dur (ld_timeout c)); Say LInfo ($"attempts = " ++ print_dec (ld_attempts c));
                 Say LDebug ($"cooldown = " ++ dur (ld_cooldown c))]].

(** config/blocking.go:85-93 logListGroups *)
Definition lists_log (groups : list (str * list source)) : list logp :=
  flat_map (fun g => Say LInfo (fst g ++ $":") :: map (fun s => Say LInfo ($"   - " ++ show_source s)) (snd g)) groups.

(** config/blocking.go:10-16 Blocking *)
Record blocking_conf := {
  bk_clients : list (str * list str); bk_type : str; bk_ttl : Z; bk_loading : loading_conf;
  bk_deny : list (str * list source); bk_allow : list (str * list source) }.

(** config/blocking.go:58-83 LogConfig *)
Definition blocking_log (c : blocking_conf) : list logp :=
  Say LInfo $"clientGroupsBlock:" :: map (fun p => Say LInfo ($"  " ++ fst p ++ $" = " ++ show_list (snd p))) (bk_clients c) ++
  [Say LInfo ($"blockType = " ++ bk_type c)] ++
  (if str_eqb (bk_type c) $"NXDOMAIN" then [] else [Say LInfo ($"blockTTL = " ++ dur (bk_ttl c))]) ++
  [Say LInfo $"loading:"; Indent $"  " (loading_log (bk_loading c));
   Say LInfo $"denylists:"; Indent $"  " (lists_log (bk_deny c));
   Say LInfo $"allowlists:"; Indent $"  " (lists_log (bk_allow c))].

(** lists/list_cache.go:23 regexWarningThreshold *)
Definition regex_warning_threshold : N := 500.

(** lists/list_cache.go:50-69 LogConfig; [counts]: the groups with the numbers of their entries, of all kinds and of regular expressions *)
Definition list_cache_log (counts : list (str * (N * N))) : list logp :=
  let total := fold_left (fun t p => t + fst (snd p))%N counts 0%N in
  let regexes := fold_left (fun t p => t + snd (snd p))%N counts 0%N in
  map (fun p => Say LInfo (fst p ++ $": " ++ print_dec (fst (snd p)) ++ $" entries")) counts ++
  (if (regex_warning_threshold <? regexes)%N
   then [Say LWarn ($"REGEXES: " ++ print_dec regexes ++ $" !! High use of regexes is not recommended: they use a lot of memory and are very slow to search")]
   else []) ++
  [Say LInfo ($"TOTAL: " ++ print_dec total ++ $" entries")].

(** resolver/blocking_resolver.go:344-352 LogConfig *)
Definition blocking_resolver_log (c : blocking_conf) (deny allow : list (str * (N * N))) : list logp :=
  blocking_log c ++ [Say LInfo $"denylist cache entries:"; Indent $"  " (list_cache_log deny);
                     Say LInfo $"allowlist cache entries:"; Indent $"  " (list_cache_log allow)].

(** config/query_log.go:12-21 QueryLog *)
Record query_log_conf := {
  ql_target : str; ql_type : str; ql_retention : N; ql_attempts : Z; ql_cooldown : Z; ql_fields : list str; ql_flush : Z; ql_sudn : bool }.

(** config/query_log.go:40-57 LogConfig *)
Definition query_log_log (c : query_log_conf) : list logp :=
  [Say LInfo ($"type: " ++ ql_type c)] ++
  match ql_target c with [] => [] | _ => [Say LInfo ($"target: " ++ censored_target (ql_type c) (ql_target c))] end ++
  [Say LInfo ($"logRetentionDays: " ++ print_dec (ql_retention c)); Say LDebug ($"creationAttempts: " ++ show_int (ql_attempts c));
   Say LDebug ($"creationCooldown: " ++ dur (ql_cooldown c)); Say LInfo ($"flushInterval: " ++ dur (ql_flush c));
   Say LInfo ($"fields: " ++ show_list (ql_fields c)); Say LInfo $"ignore:"; Indent $"  " [Say LInfo ($"sudn: " ++ show_bool (ql_sudn c))]].

(** config/caching.go:27-40 with resolver/caching_resolver.go:172-176 LogConfig; [prefetching]: expiry, threshold and size *)
Definition caching_log (min max negative : Z) (prefetching : option (Z * Z * Z)) (entries : N) : list logp :=
  [Say LInfo ($"minTime = " ++ dur min); Say LInfo ($"maxTime = " ++ dur max); Say LInfo ($"cacheTimeNegative = " ++ dur negative)] ++
  match prefetching with
  | Some (expires, threshold, items) =>
      [Say LInfo $"prefetching:"; Say LInfo ($"  expires   = " ++ dur expires); Say LInfo ($"  threshold = " ++ show_int threshold);
       Say LInfo ($"  maxItems  = " ++ show_int items)]
  | None => [Say LDebug $"prefetching: disabled"]
  end ++ [Say LInfo ($"cache entries = " ++ print_dec entries)].

(** config/client_lookup.go:22-36 with resolver/client_names_resolver.go:55-59 LogConfig; the mapping with the texts of its addresses *)
Definition client_lookup_log (upstream : option ConfUpstream.upstream) (order : list N) (mapping : list (str * list str)) (entries : N) : list logp :=
  match upstream with Some u => [Say LInfo ($"upstream = " ++ print_upstream u)] | None => [] end ++
  [Say LInfo ($"singleNameOrder = " ++ show_list (map print_dec order))] ++
  match mapping with
  | [] => []
  | _ => Say LInfo $"client IP mapping:" :: map (fun p => Say LInfo ($"  " ++ fst p ++ $" = " ++ show_list (snd p))) mapping
  end ++ [Say LInfo ($"cache entries = " ++ print_dec entries)].

(** config/conditional_upstream.go:27-31 LogConfig *)
Definition conditional_log (mapping : list (str * list ConfUpstream.upstream)) : list logp :=
  map (fun p => Say LInfo (fst p ++ $" = " ++ show_list (map print_upstream (snd p)))) mapping.

(** config/custom_dns.go:97-106 LogConfig; the mapping with the texts of its records *)
Definition custom_log (ttl : Z) (filter_unmapped : bool) (mapping : list (str * list str)) : list logp :=
  [Say LDebug ($"TTL = " ++ dur ttl); Say LDebug ($"filterUnmappedTypes = " ++ show_bool filter_unmapped); Say LInfo $"mapping:"] ++
  map (fun p => Say LInfo ($"  " ++ fst p ++ $" = " ++ show_list (snd p))) mapping.

(** config/ecs.go:59-64 LogConfig *)
Definition ecs_log (client forward : bool) (mask4 mask6 : N) : list logp :=
  [Say LInfo ($"Use as client = " ++ show_bool client); Say LInfo ($"Forward       = " ++ show_bool forward);
   Say LInfo ($"IPv4 netmask  = " ++ print_dec mask4); Say LInfo ($"IPv6 netmask  = " ++ print_dec mask6)].

(** config/filtering.go:17-23 LogConfig; the names of the types *)
Definition filtering_log (types : list str) : list logp := Say LInfo $"query types:" :: map (fun t => Say LInfo ($"  - " ++ t)) types.

(** config/hosts_file.go:37-49 with resolver/hosts_file_resolver.go:60-64 LogConfig *)
Definition hosts_log (ttl : Z) (loopback : bool) (l : loading_conf) (sources : list source) (entries : N) : list logp :=
  [Say LInfo ($"TTL: " ++ dur ttl); Say LInfo ($"filter loopback addresses: " ++ show_bool loopback); Say LInfo $"loading:";
   Indent $"  " (loading_log l); Say LInfo $"sources:"] ++ map (fun s => Say LInfo ($"  - " ++ show_source s)) sources ++
  [Say LInfo ($"cache entries = " ++ print_dec entries)].

(** config/metrics.go:17-19 LogConfig *)
Definition metrics_log (path : str) : list logp := [Say LInfo ($"url path: " ++ path)].

(** config/rewriter.go:19-27 LogConfig *)
Definition rewriter_log (fallback : bool) (rules : list (str * str)) : list logp :=
  [Say LInfo ($"fallbackUpstream = " ++ show_bool fallback); Say LInfo $"rules:"] ++
  map (fun p => Say LInfo ($"  " ++ fst p ++ $" = " ++ snd p)) rules.

(** config/sudn.go:23-25 LogConfig *)
Definition sudn_log (appendix_g : bool) : list logp := [Say LDebug ($"rfc6762-appendixG = " ++ show_bool appendix_g)].

(** config/config.go:320-322 LogConfig *)
Definition enabled_log : list logp := [Say LInfo $"enabled"].

(** config/upstreams.go:36-51, 84-91 LogConfig: of several groups (resolver/upstream_tree_resolver.go:38-51), or of the only one *)
Definition upstreams_log (init : str) (timeout : Z) (strategy : str) (groups : list (str * list ConfUpstream.upstream)) : list logp :=
  match groups with
  | [(name, us)] => [Say LInfo ($"group: " ++ name); Say LInfo $"upstreams:"] ++ map (fun u => Say LInfo ($"  - " ++ print_upstream u)) us
  | _ => [Say LInfo $"init:"; Indent $"  " [Say LDebug ($"strategy = " ++ init)]; Say LInfo ($"timeout: " ++ dur timeout);
          Say LInfo ($"strategy: " ++ strategy); Say LInfo $"groups:"] ++
         flat_map (fun g => Say LInfo ($"  " ++ fst g ++ $":") :: map (fun u => Say LInfo ($"    - " ++ print_upstream u)) (snd g)) groups
  end.

(** resolver/resolver.go:158-171 LogResolverConfig; None: disabled *)
Definition resolver_log (name : str) (body : option (list logp)) : list logp :=
  match body with
  | None => [Say LDebug ($"-> " ++ name ++ $": disabled")]
  | Some b => [Say LInfo ($"-> " ++ name ++ $":"); Indent $"     " b]
  end.

(** resolver/rewriter_resolver.go:28-57: with rules, a rewriter around the inner resolver *)
Definition rewritten_log (name : str) (inner : option (list logp)) (fallback : bool) (rules : list (str * str)) : list logp :=
  match rules with
  | [] => resolver_log name inner
  | _ => resolver_log $"rewrite" (Some (resolver_log name inner ++ rewriter_log fallback rules))
  end.

(** config/config.go:273-278 LogConfig of Ports *)
Definition ports_log (dns tls http https : list str) : list logp :=
  [Say LInfo ($"DNS   = " ++ show_list dns); Say LInfo ($"TLS   = " ++ show_list tls);
   Say LInfo ($"HTTP  = " ++ show_list http); Say LInfo ($"HTTPS = " ++ show_list https)].

(** config/config.go:224-243 Config, as far as it is printed, with the numbers of entries; None: not enabled *)
Record conf := {
  cf_redis : option redis_conf; cf_filtering : option (list str); cf_fqdn : bool; cf_ecs : option (bool * bool * N * N);
  cf_lookup : option (option ConfUpstream.upstream * list N * list (str * list str) * N); cf_ede : bool; cf_query_log : option query_log_conf;
  cf_metrics : option str; cf_custom : option (Z * bool * list (str * list str)); cf_custom_rewrite : bool * list (str * str);
  cf_hosts : option (Z * bool * loading_conf * list source * N); cf_blocking : option (blocking_conf * list (str * (N * N)) * list (str * (N * N)));
  cf_caching : option (Z * Z * Z * option (Z * Z * Z) * N); cf_conditional : option (list (str * list ConfUpstream.upstream));
  cf_cond_rewrite : bool * list (str * str); cf_sudn : option bool;
  cf_init : str; cf_timeout : Z; cf_strategy : str; cf_groups : list (str * list ConfUpstream.upstream);
  cf_dns : list str; cf_tls : list str; cf_http : list str; cf_https : list str }.

(** server/server.go:347-361 printConfiguration, up to the runtime information; the resolvers in the order of server/server.go:315-330 and with
    the names given where they are created; [last]: the type of the last resolver *)
Definition print_configuration (last : str) (c : conf) : list logp :=
  [Say LInfo $"current configuration:"] ++
  match cf_redis c with Some r => [Say LInfo $"Redis:"; Indent $"  " (redis_log r)] | None => [] end ++
  resolver_log $"filtering" (option_map filtering_log (cf_filtering c)) ++
  resolver_log $"fqdn_only" (if cf_fqdn c then Some enabled_log else None) ++
  resolver_log $"extended_client_subnet" (option_map (fun '(a, b, m4, m6) => ecs_log a b m4 m6) (cf_ecs c)) ++
  resolver_log $"client_names" (option_map (fun '(u, o, m, n) => client_lookup_log u o m n) (cf_lookup c)) ++
  resolver_log $"extended_error_code" (if cf_ede c then Some enabled_log else None) ++
  resolver_log $"query_logging" (option_map query_log_log (cf_query_log c)) ++
  resolver_log $"metrics" (option_map metrics_log (cf_metrics c)) ++
  rewritten_log $"custom_dns" (option_map (fun '(t, f, m) => custom_log t f m) (cf_custom c)) (fst (cf_custom_rewrite c)) (snd (cf_custom_rewrite c)) ++
  resolver_log $"hosts_file" (option_map (fun '(t, b, l, s, n) => hosts_log t b l s n) (cf_hosts c)) ++
  resolver_log $"blocking" (option_map (fun '(b, d, a) => blocking_resolver_log b d a) (cf_blocking c)) ++
  resolver_log $"caching" (option_map (fun '(mi, ma, ne, p, n) => caching_log mi ma ne p n) (cf_caching c)) ++
  rewritten_log $"conditional_upstream" (option_map conditional_log (cf_conditional c)) (fst (cf_cond_rewrite c)) (snd (cf_cond_rewrite c)) ++
  resolver_log $"special_use_domains" (option_map sudn_log (cf_sudn c)) ++
  resolver_log last (Some (upstreams_log (cf_init c) (cf_timeout c) (cf_strategy c) (cf_groups c))) ++
  [Say LInfo $"listeners:"; Indent $"  " (ports_log (cf_dns c) (cf_tls c) (cf_http c) (cf_https c))].
End Print.

(** ** The query log on the console *)

(** querylog/logger_writer.go:32-45 LogEntryFields, before withoutZeroes; a value is a text or a number *)
Definition entry_fields (e : log_entry) : list (str * (str + N)) :=
  [($"client_ip", inl (le_ip e)); ($"client_names", inl (join $"; " (le_names e))); ($"response_reason", inl (le_reason e));
   ($"response_type", inl (le_type e)); ($"response_code", inl (le_code e)); ($"question_name", inl (le_qname e));
   ($"question_type", inl (le_qtype e)); ($"answer", inl (le_answer e)); ($"duration_ms", inr (le_ms e)); ($"instance", inl (le_instance e))].

(** reflect.Value.IsZero of a string or an int64 -- querylog/logger_writer.go:49 *)
Definition is_zero (v : str + N) : bool := match v with inl [] => true | inr 0%N => true | _ => false end.

(** querylog/logger_writer.go:47-55 withoutZeroes *)
Definition console_fields (e : log_entry) : list (str * (str + N)) := filter (fun f => negb (is_zero (snd f))) (entry_fields e).

(** querylog/logger_writer.go:23-27 Write, with the level of the (global) logger: the fields of the line, if there is one *)
Definition console_write (l : level) (e : log_entry) : option (list (str * (str + N))) :=
  if level_enabled l LInfo then Some (console_fields e) else None.

(** resolver/query_logging_resolver.go:154-156: the line for an entry which is ignored *)
Definition ignored_line (l : level) (e : log_entry) : option (list (str * (str + N))) :=
  if level_enabled l LDebug then Some (console_fields e) else None.

(** resolver/query_logging_resolver.go:36-62 GetQueryLoggingWriter *)
Inductive writer := WFile (target : str) (per_client : bool) (days : N) | WDatabase (dialect target : str) (days : N) (flush : Z) | WConsole | WNone.
(** resolver/query_logging_resolver.go:36-62 GetQueryLoggingWriter: the call for the type *)
Definition writer_of (t : log_type) (target : str) (days : N) (flush : Z) : writer :=
  match t with
  | LCsv => WFile target false days
  | LCsvClient => WFile target true days
  | LMysql => WDatabase $"mysql" target days flush
  | LPostgresql => WDatabase $"postgresql" target days flush
  | LTimescale => WDatabase $"timescale" target days flush
  | LConsole => WConsole
  | LNone => WNone
  end.

(** resolver/query_logging_resolver.go:243-258 readInstanceID; the contents of the file and os.Hostname, None: error *)
Definition instance_id (file hostname : option str) : option str :=
  match file with
  | Some hn => Some (trim_space hn)
  | None => hostname
  end.
