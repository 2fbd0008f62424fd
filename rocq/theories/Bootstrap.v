(** The bootstrap DNS: how it is configured (config/config.go), checked and used (resolver/bootstrap.go). *)
From Coq Require Import String Ascii List Arith NArith ZArith Bool.
From Verif Require Import Str Dns Ip Resolver Upstream Sudn ExpCache Caching Chain ConfUpstream.
Import ListNotations.
Open Scope list_scope.

(** ** Reading *)

(** A node of a YAML document (config/config.go:185-221 gets it through [unmarshal]).  Scalars are texts; the values null, which
    yaml.v2 does not hand to the functions below, and numbers are not modelled. *)
Inductive node := YText (s : str) | YList (l : list node) | YMap (fields : list (str * node)).

(** The loop of yaml.v2 over the elements of a list: all have to be read -- config/config.go:196 *)
Fixpoint read_nodes {A} (read : node -> option A) (l : list node) : option (list A) :=
  match l with
  | [] => Some []
  | n :: l' => match read n, read_nodes read l' with Some a, Some r => Some (a :: r) | _, _ => None end
  end.

Section Read.
(** what yaml.v2 makes of a mapping with the keys net, host, port, path and commonname for the struct Upstream
    (config/upstream.go:14-20), strictly (config/config.go:554) *)
Variable direct : list (str * node) -> option upstream.

(** An upstream: config/upstream.go:63-75 Upstream.UnmarshalText for texts *)
Definition upstream_node (n : node) : option upstream :=
  match n with YText s => parse_upstream s | YMap f => direct f | YList _ => None end.

(** net.IP.UnmarshalText for the elements of config/config.go:300 IPs: the empty text is the address nil.  Addresses written as
    lists of numbers are not modelled. *)
Definition ip_node (n : node) : option (option ip) :=
  match n with
  | YText [] => Some None
  | YText s => match go_parse_ip s with Some i => Some (Some i) | None => None end
  | _ => None
  end.

(** The list of addresses: config/config.go:300 IPs *)
Definition ips_node (n : node) : option (list (option ip)) := match n with YList l => read_nodes ip_node l | _ => None end.

(** yaml.v2 in strict mode (config/config.go:554): no key twice *)
Fixpoint distinct_keys (ks : list str) : bool :=
  match ks with [] => true | k :: ks' => negb (existsb (str_eqb k) ks') && distinct_keys ks' end.

(** config/config.go:297-302 bootstrappedUpstream: the struct, read strictly: no other keys *)
Definition item_fields (f : list (str * node)) : option (upstream * list (option ip)) :=
  if forallb (fun k => str_eqb k $"upstream" || str_eqb k $"ips") (map fst f) && distinct_keys (map fst f) then
    match (match mget str_eqb $"upstream" f with
           | None => Some {| u_net := TcpUdp; u_host := []; u_port := 0; u_path := []; u_cn := [] |}
           | Some n => upstream_node n
           end),
          (match mget str_eqb $"ips" f with None => Some [] | Some n => ips_node n end) with
    | Some u, Some l => Some (u, l)
    | _, _ => None
    end
  else None.

(** config/config.go:206-221 BootstrappedUpstream.UnmarshalYAML *)
Definition item_node (n : node) : option (upstream * list (option ip)) :=
  match upstream_node n with
  | Some u => Some (u, [])
  | None => match n with YMap f => item_fields f | _ => None end
  end.

(** config/config.go:185-203 BootstrapDNS.UnmarshalYAML *)
Definition bootstrap_node (n : node) : option (list (upstream * list (option ip))) :=
  match item_node n with
  | Some i => Some [i]
  | None => match n with YList l => read_nodes item_node l | _ => None end
  end.
End Read.

(** ** Checking *)

(** resolver/bootstrap.go:275-302: the addresses of one item, None: an error *)
Definition check_item (i : upstream * list (option ip)) : option (list (option ip)) :=
  let '(u, ips) := i in
  if upstream_is_default u then None
  else
    match go_parse_ip (u_host u) with
    | Some a => Some (Some a :: ips)
    | None =>
        if net_eqb (u_net u) TcpUdp then None
        else match ips with [] => None | _ => Some ips end
    end.

(** resolver/bootstrap.go:264-315 newBootstrapedResolvers: the resolvers with their addresses, in the order of the configuration
    (the keys of the Go map are pointers, all different), or the numbers of the wrong items *)
Fixpoint check_items (k : nat) (items : list (upstream * list (option ip))) : list (upstream * list (option ip)) * list nat :=
  match items with
  | [] => ([], [])
  | i :: items' =>
      let '(good, bad) := check_items (S k) items' in
      match check_item i with Some l => ((fst i, l) :: good, bad) | None => (good, k :: bad) end
  end.
(** resolver/bootstrap.go:264-315: the result *)
Definition new_bootstraped (items : list (upstream * list (option ip))) : list (upstream * list (option ip)) + list nat :=
  match check_items 1 items with (good, []) => inl good | (_, bad) => inr bad end.

(** ** The cache *)

(** config/caching.go:42-52 EnablePrefetch *)
Definition enable_prefetch (c : caching_cfg) : caching_cfg :=
  {| cc_min := cc_min c; cc_max := if caching_enabled c then cc_max c else (24 * 3600 * 1000000000)%Z; cc_neg := cc_neg c;
     cc_prefetching := true;
     cc_pf := {| pf_size := pf_size (cc_pf c); pf_names_size := pf_names_size (cc_pf c); pf_threshold := 0; pf_expires := pf_expires (cc_pf c) |} |}.

(** resolver/bootstrap.go:88-98: the configuration of the cache of the bootstrap *)
Definition bootstrap_caching (c : caching_cfg) : caching_cfg :=
  let c := enable_prefetch c in
  if (0 <? cc_min c)%Z then c
  else {| cc_min := (3600 * 1000000000)%Z; cc_max := cc_max c; cc_neg := cc_neg c; cc_prefetching := cc_prefetching c; cc_pf := cc_pf c |}.

(** ** Lookups *)

(** A resolver that asks for its addresses: an upstream of the bootstrap, by its position, or another one, by its host
    -- resolver/bootstrap.go:125-140 *)
Inductive asker := ABoot (i : nat) | AHost (h : str).

(** The outcome of resolver/bootstrap.go:125-155; [Endless]: the lookup did not end *)
Inductive found := Found (l : list (option ip)) | NotFound | Panics | Endless.

(** The configuration: resolver/bootstrap.go:27-40, 83-107 *)
Record boot := { bt_upstreams : list (upstream * list (option ip)); bt_filter : list N; bt_caching : caching_cfg; bt_version : ip_version }.

(** resolver/bootstrap.go:58-110 NewBootstrap *)
Definition new_boot (items : list (upstream * list (option ip))) (filter : list N) (c : caching_cfg) (v : ip_version) : boot + list nat :=
  match new_bootstraped items with
  | inl us => inl {| bt_upstreams := us; bt_filter := filter; bt_caching := bootstrap_caching c; bt_version := v |}
  | inr bad => inr bad
  end.

(** resolver/bootstrap.go:238-240: the request for a host; message ids are random; the protocol is not set, and the zero value is TCP
    (model/models_enum.go:15-20) *)
Definition boot_request (id : N) (h : str) (t : N) : request :=
  {| req_ip := None; req_client_id := []; req_proto := TCP; req_names := []; req_msg := new_msg_with_question id h t |}.

(** resolver/bootstrap.go:102-107: the chain; [best] is the parallel best resolver (resolver/parallel_best_resolver.go:151-199) *)
Definition boot_resolve (b : boot) (look : request -> nat -> option (msg * Z)) (best : next_fn) : next_fn :=
  chain [filtering_resolve (bt_filter b); fun rq => caching_resolve (bt_caching b) (look rq) rq] best.

Section Lookup.
Variable b : boot.
(** the state of the cache when asked *)
Variable look : request -> nat -> option (msg * Z).
(** the parallel best resolver, given the addresses which its upstreams find *)
Variable best : list found -> next_fn.
Variable ids : str -> N -> N.
(** the resolver of the system: net.Resolver.LookupIP *)
Variable system : str -> ip_version -> list ip + unit.

(** resolver/bootstrap.go:125-155 UpstreamIPs and resolveUpstream with 210-262 resolve: the upstreams of the bootstrap themselves
    ask for their addresses when they are asked *)
Fixpoint addresses (fuel : nat) (r : asker) : found :=
  match fuel with
  | 0 => Endless
  | S fuel' =>
      let look_up h :=
        match bt_upstreams b with
        | [] => match system h (bt_version b) with inl l => Found (map Some l) | inr _ => NotFound end
        | us =>
            let inner := map (fun i => addresses fuel' (ABoot i)) (seq 0 (length us)) in
            let ask t := boot_resolve b look (best inner) (boot_request (ids h t) h t) in
            match fold_right (fun t acc => match ask t, acc with Some r, Some l => Some (r :: l) | _, _ => None end) (Some []) (qtypes (bt_version b)) with
            | None => Panics
            | Some rs => match resolve_types None rs [] false with None => Panics | Some (inl l) => Found (map Some l) | Some (inr _) => NotFound end
            end
        end in
      match r with
      | AHost h => match go_parse_ip h with Some a => Found [Some a] | None => look_up h end
      | ABoot i =>
          match nth_error (bt_upstreams b) i with
          | None => NotFound (* no such resolver *)
          | Some (u, ips) => match go_parse_ip (u_host u) with Some a => Found [Some a] | None => Found ips end
          end
      end
  end.
End Lookup.
