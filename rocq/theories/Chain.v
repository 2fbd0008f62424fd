(** Model of the resolver chain: server/server.go:290-333 createQueryResolver with
    resolver/resolver.go:105-115 Chain, and of resolver/metrics_resolver.go.

    What the resolvers read from outside the request during one query (names of the
    client, cache contents, orders of map iterations, answers of upstreams) are
    components of a [world]; they are arbitrary.  The upstream tree at the end of the
    chain is a function ([w_upstream], see ClientNames.v and Upstream.v for its parts). *)
From Coq Require Import String Ascii List Arith Bool NArith ZArith.
From Verif Require Redis.
From Verif Require Import Str Dns Resolver ExpCache Caching Blocking Custom Conditional Rewriter Sudn Ecs ClientNames QueryLog Hosts.
Import ListNotations.

(** utf8.ValidString, with which prometheus checks the values of labels (a dependency; With panics
    otherwise) -- resolver/metrics_resolver.go:37-40 *)
Fixpoint utf8_from (skip : nat) (s : str) : bool :=
  match s with
  | [] => match skip with O => true | S _ => false end
  | _ :: t =>
      match skip with
      | S k => utf8_from k t
      | O => match Redis.rune_length s with Some n => utf8_from (n - 1) t | None => false end
      end
  end.
(** utf8.ValidString -- resolver/metrics_resolver.go:37-40 *)
Definition utf8_string (s : str) : bool := utf8_from 0 s.

(** The value of the label "client" -- resolver/metrics_resolver.go:38 *)
Definition client_label (req : request) : str := join [comma] (req_names req).

(** resolver/metrics_resolver.go:33-63 Resolve; here only what reading the values for the counters
    demands, the counters are in Metrics.v.  The labels other than the client's are constants and
    texts of the configuration, which are valid. *)
Definition metrics_resolve (enable : bool) (req : request) : prog :=
  Next req (fun res =>
    if enable then
      match m_question (req_msg req) with
      | [] => Crash
      | _ :: _ =>
          if utf8_string (client_label req) then
            match res with
            | Err e => Done (Err e)
            | Ok r => match rs_msg r with Some _ => Done (Ok r) | None => Crash end
            end
          else Crash
      end
    else Done res).

(** resolver/caching_resolver.go:189-218: one call of Resolve, seen from the caller; [look i]
    is what getFromCache gives for the i-th question, at whatever time it is asked.  The
    stores are effects on the cache and not visible here. *)
Fixpoint caching_loop (c : caching_cfg) (look : nat -> option (msg * Z)) (i : nat) (req : request) (qs : list question)
    (resp : option result) : prog :=
  match qs with
  | [] => match resp with Some r => Done r | None => Crash end
  | _ :: rest =>
      match look i with
      | Some (m, ttl) => Done (Ok (cached_reply req m ttl))
      | None =>
          Next req (fun res =>
            match res with
            | Err e => caching_loop c look (S i) req rest (Some (Err e))
            | Ok r =>
                match rs_msg r with
                | None => Crash
                | Some m =>
                    caching_loop c look (S i) req rest
                      (Some (Ok {| rs_msg := Some (set_answer (fst (adjust_ttls c (m_answer m))) m);
                                   rs_reason := rs_reason r; rs_type := rs_type r |}))
                end
            end)
      end
  end.

(** resolver/caching_resolver.go:180-221 Resolve *)
Definition caching_resolve (c : caching_cfg) (look : nat -> option (msg * Z)) (req : request) : prog :=
  if negb (caching_enabled c) || negb (is_request_cacheable req) then pass req
  else caching_loop c look 0 req (m_question (req_msg req)) None.

(** resolver/conditional_upstream_resolver.go:84-129 Resolve *)
Definition conditional_resolve {U} (mapping : list (str * U)) (ask : U -> next_fn) (req : request) : prog :=
  match cond_dest mapping req with
  | None => Crash
  | Some (ToNext q) => pass q
  | Some (ToUpstream u q) =>
      match ask u q with
      | None => Crash
      | Some (Err e) => Done (Err e)
      | Some (Ok r) => match cond_response q r with Some r' => Done (Ok r') | None => Crash end
      end
  end.

(** resolver/rewriter_resolver.go:28-45 NewRewriterResolver: without rules the inner
    resolver stands in the chain itself *)
Definition with_rewriter (rules : list (str * str)) (wrapped plain : request -> prog) : request -> prog :=
  match rules with [] => plain | _ :: _ => wrapped end.

(** Everything a query depends on besides the request: configuration (config/config.go)
    and state of the resolvers created in server/server.go:296-330 *)
Record world (U : Type) := {
  w_filter : list N;                                  (* filtering.queryTypes *)
  w_fqdn : bool;                                      (* fqdnOnly.enable *)
  w_ecs : ecs_cfg;
  w_names : request -> list str;                      (* the names found for the client *)
  w_ede : bool;
  w_entry : request -> response -> option log_entry;  (* the log entry made *)
  w_metrics : bool;
  w_custom : custom_cfg;
  w_new_id : str -> N;
  w_records : list (str * list rr);                   (* order in which the reverse table was made *)
  w_fuel : nat;
  w_custom_rules : list (str * str);
  w_custom_fallback : bool;
  w_custom_iter : nat -> list (str * str);
  w_hosts : hosts_cfg;
  w_table : split_data;
  w_hosts4 : list (str * (ip * list str));
  w_hosts6 : list (str * (ip * list str));
  w_glob : str -> str -> bool;
  w_cidr : str -> option ip -> bool;
  w_ip_string : option ip -> str;
  w_allow : str -> list str -> list str;              (* lookup in the allow lists *)
  w_deny : str -> list str -> list str;
  w_blk : blk_cfg;
  w_handler : handler;
  w_blk_iter : nat -> list (str * list str);
  w_fqdn_ips : str -> list ip;
  w_disabled : list str;
  w_caching : caching_cfg;
  w_look : request -> nat -> option (msg * Z);        (* what the cache holds *)
  w_mapping : list (str * U);
  w_ask : U -> next_fn;                               (* conditional upstreams *)
  w_cond_rules : list (str * str);
  w_cond_fallback : bool;
  w_cond_iter : nat -> list (str * str);
  w_sudn : sudn_cfg;
  w_upstream : next_fn }.
Arguments w_filter {U}. Arguments w_fqdn {U}. Arguments w_ecs {U}. Arguments w_names {U}. Arguments w_ede {U}.
Arguments w_entry {U}. Arguments w_metrics {U}. Arguments w_custom {U}. Arguments w_new_id {U}. Arguments w_records {U}.
Arguments w_fuel {U}. Arguments w_custom_rules {U}. Arguments w_custom_fallback {U}. Arguments w_custom_iter {U}.
Arguments w_hosts {U}. Arguments w_table {U}. Arguments w_hosts4 {U}. Arguments w_hosts6 {U}. Arguments w_glob {U}.
Arguments w_cidr {U}. Arguments w_ip_string {U}. Arguments w_allow {U}. Arguments w_deny {U}. Arguments w_blk {U}.
Arguments w_handler {U}. Arguments w_blk_iter {U}. Arguments w_fqdn_ips {U}. Arguments w_disabled {U}. Arguments w_caching {U}.
Arguments w_look {U}. Arguments w_mapping {U}. Arguments w_ask {U}. Arguments w_cond_rules {U}. Arguments w_cond_fallback {U}.
Arguments w_cond_iter {U}. Arguments w_sudn {U}. Arguments w_upstream {U}.

(** The resolvers of the chain -- server/server.go:315-330 *)
Inductive stage :=
| SFiltering | SFqdnOnly | SEcs | SClientNames | SEde | SQueryLogging | SMetrics | SCustom | SHosts | SBlocking | SCaching
| SConditional | SSudn | SUpstreamTree.

Section World.
Context {U : Type}.
Variable w : world U.

(** resolver/custom_dns_resolver.go:192-201 Resolve, as configured *)
Definition custom_stage : request -> prog :=
  custom_resolve (w_custom w) (w_new_id w) Crash (w_records w) (w_fuel w).

(** server/server.go:315-329: the chain up to the upstream tree *)
Definition query_resolvers : list (stage * (request -> prog)) :=
  [(SFiltering, filtering_resolve (w_filter w));
   (SFqdnOnly, fqdn_only_resolve (w_fqdn w));
   (SEcs, ecs_resolve (w_ecs w));
   (SClientNames, fun req => names_resolve (w_names w req) req);
   (SEde, ede_resolve (w_ede w));
   (SQueryLogging, logging_resolve (w_entry w));
   (SMetrics, metrics_resolve (w_metrics w));
   (SCustom, with_rewriter (w_custom_rules w)
               (rewriter_resolve (w_custom_fallback w) (w_custom_iter w) (inner_prog custom_stage)) custom_stage);
   (SHosts, hosts_resolve (w_hosts w) (w_table w) (w_hosts4 w) (w_hosts6 w));
   (SBlocking, blocking_resolve (w_glob w) (w_cidr w) (w_ip_string w) (w_allow w) (w_deny w) (w_blk w) (w_handler w)
                 (w_blk_iter w) (w_fqdn_ips w) (w_disabled w));
   (SCaching, fun req => caching_resolve (w_caching w) (w_look w req) req);
   (SConditional, with_rewriter (w_cond_rules w)
                    (rewriter_resolve (w_cond_fallback w) (w_cond_iter w) (inner_conditional (w_mapping w) (w_ask w)))
                    (conditional_resolve (w_mapping w) (w_ask w)));
   (SSudn, sudn_resolve (w_sudn w))].

(** The result of the chain -- server/server.go:315-332 *)
Definition query_chain : next_fn := chain (map snd query_resolvers) (w_upstream w).
End World.

(** The calls of Resolve made in a chain, with their requests, in the order in which they
    are made. -- resolver/resolver.go:68-69, 105-115 *)
Fixpoint calls (rs : list (stage * (request -> prog))) (last : next_fn) (req : request) : list (stage * request) :=
  match rs with
  | [] => [(SUpstreamTree, req)]
  | (s, p) :: rs' => (s, req) :: flat_map (calls rs' last) (forwarded (p req) (chain (map snd rs') last))
  end.

(** The calls made for a query -- server/server.go:315-332 *)
Definition query_calls {U} (w : world U) (req : request) : list (stage * request) :=
  calls (query_resolvers w) (w_upstream w) req.
