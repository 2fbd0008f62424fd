(** Specification of the resolver chain: where answers come from. *)
From Coq Require Import String Ascii List Arith Bool NArith ZArith.
From Verif Require Import Str StringCacheSpec Dns Resolver Caching Blocking BlockingSpec Custom CustomSpec Conditional ConditionalSpec
  Sudn SudnSpec Hosts HostsSpec Chain.
Import ListNotations.

(** The sources of answers. *)
Inductive source :=
| TypeFilter | FqdnCheck | CustomData | HostsData | Lists | CacheData | CondUpstream | SpecialNames | Upstreams.

(** Their order of precedence. *)
Definition precedence : list source :=
  [TypeFilter; FqdnCheck; CustomData; HostsData; Lists; CacheData; CondUpstream; SpecialNames; Upstreams].

(** [before s t]: [s] takes precedence over [t]. *)
Definition before (s t : source) : Prop := exists a b c, precedence = a ++ s :: b ++ t :: c.

(** The kind of response by which a source is recognised. *)
Definition kind (s : source) : rtype :=
  match s with
  | TypeFilter => FILTERED | FqdnCheck => NOTFQDN | CustomData => CUSTOMDNS | HostsData => HOSTSFILE | Lists => BLOCKED
  | CacheData => CACHED | CondUpstream => CONDITIONAL | SpecialNames => SPECIAL | Upstreams => RESOLVED
  end.

(** The source a resolver stands for; the others only watch or prepare the request. *)
Definition stands_for (s : stage) : option source :=
  match s with
  | SFiltering => Some TypeFilter | SFqdnOnly => Some FqdnCheck | SCustom => Some CustomData | SHosts => Some HostsData
  | SBlocking => Some Lists | SCaching => Some CacheData | SConditional => Some CondUpstream | SSudn => Some SpecialNames
  | SUpstreamTree => Some Upstreams
  | SEcs | SClientNames | SEde | SQueryLogging | SMetrics => None
  end.

(** The sources consulted by calls of resolvers. *)
Definition consulted (cs : list (stage * request)) : list source :=
  flat_map (fun c => match stands_for (fst c) with Some s => [s] | None => [] end) cs.

(** All sources up to [s] are consulted, in the order of precedence, and no other. *)
Definition only_up_to (s : source) (l : list source) : Prop := exists a c, precedence = a ++ s :: c /\ l = a ++ [s].

(** The response was replaced because of the answer in it. *)
Definition screened (r : response) : Prop :=
  rs_type r = BLOCKED /\ exists k l, (k = $"IP" \/ k = $"CNAME") /\ rs_reason r = $"BLOCKED " ++ k ++ $" (" ++ l ++ $")".

Section Wants.
Context {U : Type}.
Variable w : world U.
(** the entries of the hosts files; what is on the allow and on the deny lists *)
Variable es : list host_entry.
Variable on_allow on_deny : str -> str -> Prop.

(** The source has something to say about the request [rq] with the question [q]
    (configurations without rewriting, questions other than PTR). *)
Definition has_answer (s : source) (rq : request) (q : question) : Prop :=
  exists n, plain_name (q_name q) n /\
  match s with
  | TypeFilter => In (q_type q) (w_filter w)
  | FqdnCheck => w_fqdn w = true /\ ~ In "."%char n
  | CustomData => exists recs ans, decides (w_custom w) q recs /\ collects (w_custom w) (w_new_id w) (fun _ => None) rq q recs ans /\
                    (ans <> [] \/ cu_filter (w_custom w) = true)
  | HostsData => hf_enabled (w_hosts w) = true /\ exists a, resolves (q_type q) es n a
  | Lists => blocked_name (w_glob w) (w_cidr w) (w_ip_string w) (w_blk w) (w_fqdn_ips w) (w_disabled w) on_allow on_deny rq n
  | CacheData => caching_enabled (w_caching w) = true /\ is_request_cacheable rq = true /\ w_look w rq 0 <> None
  | CondUpstream => exists u, responsible (w_mapping w) n u
  | SpecialNames => su_enable (w_sudn w) = true /\ exists m, local_answer (su_appendix_g (w_sudn w)) rq q m
  | Upstreams => True
  end.

(** The first source that has something to say. *)
Definition first_with_answer (rq : request) (q : question) (s : source) : Prop :=
  has_answer s rq q /\ forall s', before s' s -> ~ has_answer s' rq q.
End Wants.

(** The request that reaches the stages which answer: with the names of the client, and
    as the client-subnet resolver has left it. *)
Definition prepared {U} (w : world U) (req arr : request) : Prop :=
  exists e, (forall next, forwarded (Ecs.ecs_resolve (w_ecs w) req) next = [e]) /\ arr = set_req_names (w_names w e) e.
