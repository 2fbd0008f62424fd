(** What the program prints about its configuration: server/server.go:347-382 printConfiguration with resolver/resolver.go:142-171. *)
From Coq Require Import String Ascii List Arith Bool NArith ZArith.
From Verif Require Import Str Dns Resolver Caching Blocking Custom Sudn Ecs ClientNames Hosts Chain.
Import ListNotations.
Open Scope list_scope.

(** len(x) != 0 -- config/blocking.go:54, config/custom_dns.go:93, config/conditional_upstream.go:23, config/filtering.go:13, config/rewriter.go:15 *)
Definition nonempty {A} (l : list A) : bool := match l with [] => false | _ => true end.

(** resolver/resolver.go:146-156 ForEach, for a chain given as the list of its resolvers: what the callback gives for each *)
Fixpoint for_each {R A} (callback : R -> A) (rs : list R) : list A :=
  match rs with [] => [] | r :: rs' => callback r :: for_each callback rs' end.

Section Enabled.
Context {U : Type}.
Variable w : world U.
(** config/client_lookup.go:10-14 *)
Variable lookup : lookup_cfg.
(** queryLog.type is not none -- config/query_log.go:35-37 *)
Variable logs : bool.

(** IsEnabled: resolver/resolver.go:220-222 with config/filtering.go:12-14, config/config.go:315-317 (fqdnOnly, ede), config/ecs.go:54-56,
    config/client_lookup.go:17-19, config/query_log.go:35-37, config/metrics.go:12-14, config/custom_dns.go:92-94, config/rewriter.go:14-16,
    config/hosts_file.go:32-34, config/blocking.go:53-55, config/caching.go:22-24, config/conditional_upstream.go:22-24, config/sudn.go:18-20;
    with rewriting rules the resolver in the chain is the rewriter (resolver/rewriter_resolver.go:28-45).  The tree of upstreams
    (resolver/upstream_tree_resolver.go) always has the default group and is never disabled. *)
Definition is_enabled (s : stage) : bool :=
  match s with
  | SFiltering => nonempty (w_filter w)
  | SFqdnOnly => w_fqdn w
  | SEcs => ecs_enabled (w_ecs w)
  | SClientNames => cl_lookup lookup || nonempty (cl_mapping lookup)
  | SEde => w_ede w
  | SQueryLogging => logs
  | SMetrics => w_metrics w
  | SCustom => nonempty (w_custom_rules w) || nonempty (cu_mapping (w_custom w))
  | SHosts => hf_enabled (w_hosts w)
  | SBlocking => nonempty (bc_clients (w_blk w))
  | SCaching => caching_enabled (w_caching w)
  | SConditional => nonempty (w_cond_rules w) || nonempty (w_mapping w)
  | SSudn => su_enable (w_sudn w)
  | SUpstreamTree => true
  end.

(** resolver/resolver.go:158-171 LogResolverConfig: the resolver, and whether its configuration follows; false: "disabled" *)
Definition log_resolver_config (s : stage) : stage * bool := (s, is_enabled s).

(** server/server.go:355-357: the resolvers of the printed configuration *)
Definition printed : list (stage * bool) := for_each log_resolver_config (map fst (query_resolvers w) ++ [SUpstreamTree]).
End Enabled.
