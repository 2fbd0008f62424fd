(** Model of the client names (/repo/resolver/client_names_resolver.go) and of the
    choice of the upstream group of a client (/repo/resolver/upstream_tree_resolver.go).
    Logging is not modelled. *)
From Coq Require Import String Ascii List Arith Bool NArith ZArith.
From Verif Require Import Str Dns Resolver ExpCache Arpa Blocking.
Import ListNotations.

(** config/client_lookup.go:10-14 ClientLookup; [cl_lookup] tells whether an upstream
    for the reverse lookup is configured (client_names_resolver.go:33-38). *)
Record lookup_cfg := {
  cl_mapping : list (str * list ip);
  cl_lookup : bool;
  cl_order : list N }.

Section ClientNames.
(** net.IP.String *)
Variable ip_string : option ip -> str.

(** client_names_resolver.go:98-111 extractClientNamesFromAnswer *)
Definition ptr_names (ans : list rr) : list str :=
  flat_map (fun r => match rr_data r with DPTR t => [trim_suffix t [dot]] | _ => [] end) ans.
(** resolver/client_names_resolver.go:98-111 extractClientNamesFromAnswer, the loop *)
Definition names_from_answer (ans : list rr) (i : ip) : list str :=
  match ptr_names ans with [] => [ip_string (Some i)] | ns => ns end.

(** client_names_resolver.go:158-168 getNameFromIPMapping; [iter] is the order of the
    iteration over the map. *)
Definition name_from_mapping (iter : list (str * list ip)) (i : ip) : list str :=
  flat_map (fun p => flat_map (fun j => if str_eqb (ip_string (Some i)) (ip_string (Some j)) then [fst p] else []) (snd p)) iter.

(** client_names_resolver.go:139-147: the loop over SingleNameOrder; nothing when no
    position exists *)
Fixpoint pick_name (order : list N) (names : list str) : list str :=
  match order with
  | [] => []
  | i :: order' =>
      if (0 <? i)%N && (i <=? N.of_nat (length names))%N then
        match nth_error names (N.to_nat (i - 1)) with Some n => [n] | None => [] end
      else pick_name order' names
  end.

(** client_names_resolver.go:126-128: the request for the reverse lookup, with a
    random message id *)
Definition lookup_request (id : N) (i : ip) : request :=
  {| req_ip := None; req_client_id := []; req_proto := TCP; req_names := [];
     req_msg := new_msg_with_question id (reverse_addr i) type_PTR |}.

(** client_names_resolver.go:114-156 resolveClientNames; [ext] is the resolver used for
    the lookup.  None: panic (in it, or because of a response without message). *)
Definition resolve_client_names (cfg : lookup_cfg) (iter : list (str * list ip)) (ext : next_fn) (id : N) (i : ip)
  : option (list str) :=
  match name_from_mapping iter i with
  | (_ :: _) as ns => Some ns
  | [] =>
      if negb (cl_lookup cfg) then Some [ip_string (Some i)]
      else
        match ext (lookup_request id i) with
        | None => None
        | Some (Err _) => Some [ip_string (Some i)]
        | Some (Ok r) =>
            match rs_msg r with
            | None => None
            | Some m =>
                let ns := names_from_answer (m_answer m) i in
                Some (match cl_order cfg with [] => ns | order => pick_name order ns end)
            end
        end
  end.

(** ** Requests, as atomic steps on the cache of names *)

(** client_names_resolver.go:45-47 the cache has the default size
    (expiration_cache.go:58); line 93: names are kept for one hour (ns) *)
Definition names_size : nat := cache_size 0.
(** resolver/client_names_resolver.go:93: names are kept for one hour (ns) *)
Definition names_ttl : Z := 3600000000000.

(** The cache, and the addresses of the requests that did not find names in it and
    have not stored any yet. -- resolver/client_names_resolver.go:72-96 *)
Record names_state := { ns_cache : cstate (list str); ns_pending : list ip }.
(** resolver/client_names_resolver.go:45-47: an empty cache *)
Definition names_init : names_state := {| ns_cache := init; ns_pending := [] |}.

(** Steps of resolver/client_names_resolver.go:72-96 and of the cache *)
Inductive names_op :=
| NAsk (req : request) (now : Z)                                           (* lines 73-90 *)
| NFinish (i : ip) (iter : list (str * list ip)) (ext : next_fn) (id : N) (now : Z) (* lines 91-95 *)
| NFlush                                                                   (* lines 171-173 *)
| NClean (o : op (list str)).                                              (* clean-up of the cache *)

(** client_names_resolver.go:73-81 the cases decided without the cache *)
Definition fixed_names (req : request) : option (list str) :=
  match req_client_id req, req_ip req with
  | (_ :: _) as cid, _ => Some [cid]
  | [], None => Some []
  | [], Some _ => None
  end.

(** Remove one occurrence. -- used for the requests in progress, client_names_resolver.go:72-96 *)
Fixpoint remove_one (i : ip) (l : list ip) : option (list ip) :=
  match l with
  | [] => None
  | j :: l' => if ip_eqb i j then Some l' else match remove_one i l' with Some r => Some (j :: r) | None => None end
  end.

(** A step of the clean-up goroutine (expiration_cache.go:99-141) of a cache without
    expiration handler. *)
Definition is_clean (o : op (list str)) : bool :=
  match o with
  | OCleanStart | OCleanPeek _ _ | OCleanHandle _ None _ | OCleanRemove _ => true
  | _ => false
  end.

(** client_names_resolver.go:72-96 getClientNames.  The second component is the names
    the request gets; None: they are not known yet.  A panic of the lookup ends the
    request without storing anything. *)
Definition names_step (cfg : lookup_cfg) (s : names_state) (o : names_op) : option (names_state * option (list str)) :=
  match o with
  | NAsk req now =>
      match fixed_names req, req_ip req with
      | Some ns, _ => Some (s, Some ns)
      | None, None => None
      | None, Some i =>
          match step names_size (ns_cache s) (OGet (ip_string (Some i)) now) with
          | Some (c, RGet (Some (ns, _))) => Some ({| ns_cache := c; ns_pending := ns_pending s |}, Some ns)
          | Some (c, _) => Some ({| ns_cache := c; ns_pending := i :: ns_pending s |}, None)
          | None => None
          end
      end
  | NFinish i iter ext id now =>
      match remove_one i (ns_pending s) with
      | None => None
      | Some p =>
          match resolve_client_names cfg iter ext id i with
          | None => Some ({| ns_cache := ns_cache s; ns_pending := p |}, None)
          | Some ns =>
              match step names_size (ns_cache s) (OPut (ip_string (Some i)) ns names_ttl now) with
              | Some (c, _) => Some ({| ns_cache := c; ns_pending := p |}, Some ns)
              | None => None
              end
          end
      end
  | NFlush =>
      match step names_size (ns_cache s) OClear with
      | Some (c, _) => Some ({| ns_cache := c; ns_pending := ns_pending s |}, None)
      | None => None
      end
  | NClean o =>
      if is_clean o then
        match step names_size (ns_cache s) o with
        | Some (c, _) => Some ({| ns_cache := c; ns_pending := ns_pending s |}, None)
        | None => None
        end
      else None
  end.

(** A run. -- steps of resolver/client_names_resolver.go:72-96 *)
Fixpoint names_run (cfg : lookup_cfg) (s : names_state) (ops : list names_op) : option names_state :=
  match ops with
  | [] => Some s
  | o :: ops' => match names_step cfg s o with Some (s', _) => names_run cfg s' ops' | None => None end
  end.

(** client_names_resolver.go:62-69 Resolve: the request is passed on with its names *)
Definition names_resolve (names : list str) (req : request) : prog := pass (set_req_names names req).

(** ** Upstream groups *)

(** External functions as in Blocking.v *)
Variable glob : str -> str -> bool.
Variable cidr_contains : str -> option ip -> bool.

(** upstream_tree_resolver.go:127-134: for every name an iteration over the branches *)
Fixpoint tree_by_name (iter : nat -> list str) (i : nat) (names : list str) : list str :=
  match names with
  | [] => []
  | n :: names' => filter (fun g => name_matches glob g n) (iter i) ++ tree_by_name iter (S i) names'
  end.

(** resolver.go: the group that exists always *)
Definition default_group : str := $"default".

(** upstream_tree_resolver.go:118-159 upstreamGroupByClient; [iter i] is the order of the
    i-th iteration over the branches, number 0 is the one for the networks. *)
Definition group_by_client (branches : list str) (iter : nat -> list str) (req : request) : str :=
  if str_in (ip_string (req_ip req)) branches then ip_string (req_ip req)
  else
    let groups := tree_by_name iter 1 (req_names req) in
    let groups := match groups with
                  | [] => filter (fun g => cidr_contains g (req_ip req)) (iter 0)
                  | _ => groups
                  end in
    match groups with g :: _ => g | [] => default_group end.

(** A resolver made by NewUpstreamTreeResolver: that of the only group, or a choice
    between the resolvers [B] of the groups. -- resolver/upstream_tree_resolver.go:26-52 *)
Inductive tree (B : Type) := Single (b : B) | Tree (branches : list (str * B)).
Arguments Single {B}. Arguments Tree {B}.

(** upstream_tree_resolver.go:54-91 createUpstreamBranches; [mk] creates the resolver of
    a group (NewParallelBestResolver or NewStrictResolver), None is an error *)
Fixpoint create_branches {U B : Type} (mk : str -> list U -> option B) (groups : list (str * list U)) : option (list (str * B)) :=
  match groups with
  | [] => Some []
  | (g, us) :: groups' =>
      match mk g us, create_branches mk groups' with
      | Some b, Some bs => Some ((g, b) :: bs)
      | _, _ => None
      end
  end.

(** upstream_tree_resolver.go:26-52 NewUpstreamTreeResolver *)
Definition new_tree {U B : Type} (mk : str -> list U -> option B) (groups : list (str * list U)) : option (tree B) :=
  match mget str_eqb default_group groups with
  | None | Some [] => None
  | Some (_ :: _) =>
      match create_branches mk groups with
      | None => None
      | Some [(_, b)] => Some (Single b)
      | Some bs => Some (Tree bs)
      end
  end.

(** upstream_tree_resolver.go:107-116 Resolve: the resolver that gets the request; None:
    nil dereference *)
Definition tree_target {B : Type} (t : tree B) (iter : nat -> list str) (req : request) : option B :=
  match t with
  | Single b => Some b
  | Tree bs => mget str_eqb (group_by_client (map fst bs) iter req) bs
  end.

End ClientNames.
Arguments Single {B}. Arguments Tree {B}.
