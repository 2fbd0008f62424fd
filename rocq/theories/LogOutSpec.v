(** What the printed configuration and the console's query log should be. *)
From Coq Require Import String Ascii List Arith Bool NArith ZArith.
From Verif Require Import Str Num ConfUpstream Target LogOut.
Import ListNotations.
Open Scope list_scope.

(** [n] blanks. *)
Definition blanks (n : nat) : str := repeat " "%char n.

(** The messages in their order, each with the width of the indentation around it. *)
Fixpoint messages_of (d : nat) (p : logp) : list (nat * level * str) :=
  match p with
  | Say l m => [(d, l, m)]
  | Indent prefix body => flat_map (messages_of (d + length prefix)) body
  end.
Definition messages (ps : list logp) : list (nat * level * str) := flat_map (messages_of 0) ps.

(** Only blanks are put before messages. *)
Inductive laid_out : logp -> Prop :=
| lo_say l m : laid_out (Say l m)
| lo_indent n body : Forall laid_out body -> laid_out (Indent (blanks n) body).

(** A message of another part of the program comes at some point while [ps] is printed. *)
Inductive inserted (x : logp) : list logp -> list logp -> Prop :=
| ins_here ps : inserted x ps (x :: ps)
| ins_later p ps qs : inserted x ps qs -> inserted x (p :: ps) (p :: qs)
| ins_inside prefix b b' ps : inserted x b b' -> inserted x (Indent prefix b :: ps) (Indent prefix b' :: ps).

(** The stages in their order, with whether they are enabled. *)
Definition is_some {A} (o : option A) : bool := match o with Some _ => true | None => false end.
Definition stages (last : str) (c : conf) : list (str * bool) :=
  [($"filtering", is_some (cf_filtering c)); ($"fqdn_only", cf_fqdn c); ($"extended_client_subnet", is_some (cf_ecs c));
   ($"client_names", is_some (cf_lookup c)); ($"extended_error_code", cf_ede c); ($"query_logging", is_some (cf_query_log c));
   ($"metrics", is_some (cf_metrics c));
   (match snd (cf_custom_rewrite c) with [] => ($"custom_dns", is_some (cf_custom c)) | _ => ($"rewrite", true) end);
   ($"hosts_file", is_some (cf_hosts c)); ($"blocking", is_some (cf_blocking c)); ($"caching", is_some (cf_caching c));
   (match snd (cf_cond_rewrite c) with [] => ($"conditional_upstream", is_some (cf_conditional c)) | _ => ($"rewrite", true) end);
   ($"special_use_domains", is_some (cf_sudn c)); (last, true)].

(** The headings which are to be seen at a level. *)
Definition heading (l : level) (s : str * bool) : list str :=
  match s with
  | (name, true) => match l with LTrace | LDebug | LInfo => [$"-> " ++ name ++ $":"] | _ => [] end
  | (name, false) => match l with LTrace | LDebug => [$"-> " ++ name ++ $": disabled"] | _ => [] end
  end.

(** Configurations of Redis which differ in nothing but the passwords. *)
Definition same_but_passwords (a b : redis_conf) : Prop :=
  rd_address a = rd_address b /\ rd_user a = rd_user b /\ rd_database a = rd_database b /\ rd_required a = rd_required b /\
  rd_attempts a = rd_attempts b /\ rd_cooldown a = rd_cooldown b /\ rd_sentinel_user a = rd_sentinel_user b /\ rd_sentinels a = rd_sentinels b.

(** The configuration with another configuration of Redis. *)
Definition with_redis (c : conf) (r : redis_conf) : conf :=
  {| cf_redis := Some r; cf_filtering := cf_filtering c; cf_fqdn := cf_fqdn c; cf_ecs := cf_ecs c; cf_lookup := cf_lookup c; cf_ede := cf_ede c;
     cf_query_log := cf_query_log c; cf_metrics := cf_metrics c; cf_custom := cf_custom c; cf_custom_rewrite := cf_custom_rewrite c;
     cf_hosts := cf_hosts c; cf_blocking := cf_blocking c; cf_caching := cf_caching c; cf_conditional := cf_conditional c;
     cf_cond_rewrite := cf_cond_rewrite c; cf_sudn := cf_sudn c; cf_init := cf_init c; cf_timeout := cf_timeout c;
     cf_strategy := cf_strategy c; cf_groups := cf_groups c; cf_dns := cf_dns c; cf_tls := cf_tls c; cf_http := cf_http c; cf_https := cf_https c |}.

(** Lists as they are to be seen: every group, and below it its sources. *)
Definition lists_shown (groups : list (str * list source)) : list str :=
  flat_map (fun g => (fst g ++ $":") :: map (fun s => $"   - " ++ show_source s) (snd g)) groups.

(** [part] can be read in [out], in one piece. *)
Definition shows {A} (out part : list A) : Prop := exists before after, out = before ++ part ++ after.

Definition sum (l : list N) : N := fold_right N.add 0%N l.

(** Single options, with the line in which they are to be seen; [dur]: how durations are written. *)
Inductive value_line (dur : Z -> str) (c : conf) : level -> str -> Prop :=
| vl_ecs cl fw m4 m6 line : cf_ecs c = Some (cl, fw, m4, m6) ->
    In line [$"     Use as client = " ++ show_bool cl; $"     Forward       = " ++ show_bool fw; $"     IPv4 netmask  = " ++ print_dec m4; $"     IPv6 netmask  = " ++ print_dec m6] ->
    value_line dur c LInfo line
| vl_query_log q line : cf_query_log c = Some q ->
    In line [$"     type: " ++ ql_type q; $"     logRetentionDays: " ++ print_dec (ql_retention q); $"     flushInterval: " ++ dur (ql_flush q); $"       sudn: " ++ show_bool (ql_sudn q)] ->
    value_line dur c LInfo line
| vl_query_log_debug q line : cf_query_log c = Some q ->
    In line [$"     creationAttempts: " ++ show_int (ql_attempts q); $"     creationCooldown: " ++ dur (ql_cooldown q)] -> value_line dur c LDebug line
| vl_caching mi ma ne p n line : cf_caching c = Some (mi, ma, ne, p, n) ->
    In line [$"     minTime = " ++ dur mi; $"     maxTime = " ++ dur ma; $"     cacheTimeNegative = " ++ dur ne; $"     cache entries = " ++ print_dec n] ->
    value_line dur c LInfo line
| vl_prefetching mi ma ne e t i n line : cf_caching c = Some (mi, ma, ne, Some (e, t, i), n) ->
    In line [$"       expires   = " ++ dur e; $"       threshold = " ++ show_int t; $"       maxItems  = " ++ show_int i] -> value_line dur c LInfo line
| vl_hosts t b l s n line : cf_hosts c = Some (t, b, l, s, n) ->
    In line [$"     TTL: " ++ dur t; $"     filter loopback addresses: " ++ show_bool b; $"     cache entries = " ++ print_dec n] -> value_line dur c LInfo line
| vl_metrics path : cf_metrics c = Some path -> value_line dur c LInfo ($"     url path: " ++ path)
| vl_upstreams line : length (cf_groups c) <> 1 -> In line [$"     timeout: " ++ dur (cf_timeout c); $"     strategy: " ++ cf_strategy c] -> value_line dur c LInfo line
| vl_listeners name addrs : In (name, addrs) [($"DNS  ", cf_dns c); ($"TLS  ", cf_tls c); ($"HTTP ", cf_http c); ($"HTTPS", cf_https c)] ->
    value_line dur c LInfo ($"  " ++ name ++ $" = [" ++ join $" " addrs ++ $"]").

(** The options for loading lists, below the heading of the stage; those of the downloads are one step further in. *)
Definition loading_lines (dur : Z -> str) (o : loading_conf) : list (level * str) :=
  [(LDebug, $"       strategy = " ++ ld_strategy o); (LInfo, $"       concurrency = " ++ print_dec (ld_concurrency o));
   (LDebug, $"       maxErrorsPerSource = " ++ show_int (ld_max_errors o)); (LInfo, $"         timeout = " ++ dur (ld_timeout o));
   (LInfo, $"         attempts = " ++ print_dec (ld_attempts o)); (LDebug, $"         cooldown = " ++ dur (ld_cooldown o))].

(** Further options, with the line in which they are to be seen. *)
Inductive further_line (dur : Z -> str) (c : conf) : level -> str -> Prop :=
| fl_filtered ts t : cf_filtering c = Some ts -> In t ts -> further_line dur c LInfo ($"       - " ++ t)
| fl_lookup_upstream u o m n : cf_lookup c = Some (Some u, o, m, n) -> further_line dur c LInfo ($"     upstream = " ++ print_upstream u)
| fl_name_order u o m n : cf_lookup c = Some (u, o, m, n) -> further_line dur c LInfo ($"     singleNameOrder = [" ++ join $" " (map print_dec o) ++ $"]")
| fl_client u o m n name ips : cf_lookup c = Some (u, o, m, n) -> In (name, ips) m ->
    further_line dur c LInfo ($"       " ++ name ++ $" = [" ++ join $" " ips ++ $"]")
| fl_names_known u o m n : cf_lookup c = Some (u, o, m, n) -> further_line dur c LInfo ($"     cache entries = " ++ print_dec n)
| fl_custom t f m lv line : cf_custom c = Some (t, f, m) -> snd (cf_custom_rewrite c) = [] ->
    In (lv, line) [(LDebug, $"     TTL = " ++ dur t); (LDebug, $"     filterUnmappedTypes = " ++ show_bool f)] -> further_line dur c lv line
| fl_hosts_source t b o ss n s : cf_hosts c = Some (t, b, o, ss, n) -> In s ss -> further_line dur c LInfo ($"       - " ++ show_source s)
| fl_hosts_loading t b o ss n lv line : cf_hosts c = Some (t, b, o, ss, n) -> In (lv, line) (loading_lines dur o) -> further_line dur c lv line
| fl_hosts_refresh t b o ss n : cf_hosts c = Some (t, b, o, ss, n) -> (0 < ld_refresh o)%Z -> further_line dur c LInfo ($"       refresh = every " ++ dur (ld_refresh o))
| fl_lists_loading b d a lv line : cf_blocking c = Some (b, d, a) -> In (lv, line) (loading_lines dur (bk_loading b)) -> further_line dur c lv line
| fl_lists_refresh b d a : cf_blocking c = Some (b, d, a) -> (0 < ld_refresh (bk_loading b))%Z -> further_line dur c LInfo ($"       refresh = every " ++ dur (ld_refresh (bk_loading b)))
| fl_rule rw from to : In rw [cf_custom_rewrite c; cf_cond_rewrite c] -> In (from, to) (snd rw) -> further_line dur c LInfo ($"       " ++ from ++ $" = " ++ to)
| fl_fallback rw : In rw [cf_custom_rewrite c; cf_cond_rewrite c] -> snd rw <> [] -> further_line dur c LInfo ($"     fallbackUpstream = " ++ show_bool (fst rw))
| fl_sudn b : cf_sudn c = Some b -> further_line dur c LDebug ($"     rfc6762-appendixG = " ++ show_bool b).
