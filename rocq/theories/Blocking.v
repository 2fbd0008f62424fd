(** Model of the blocking resolver (/repo/resolver/blocking_resolver.go).

    The lists are given by the two functions [allow] and [deny] (ListCache.Match,
    modelled in StringCache.v).  Metrics, logging and redis are not modelled. *)
From Coq Require Import String Ascii List Arith Bool NArith ZArith.
From Verif Require Import Str Dns Resolver ExpCache.
Import ListNotations.

(** blocking_resolver.go:526-540 the block handlers *)
Inductive handler :=
| HNxDomain
| HZeroIP (ttl : N)
| HIPs (ips : list ip) (ttl : N).

(** net.IPv4zero, net.IPv6zero -- as in resolver/blocking_resolver.go:545-549 *)
Definition ipv4_zero : ip := IP4 [0; 0; 0; 0]%N.
(** net.IPv6zero (resolver/blocking_resolver.go:547) *)
Definition ipv6_zero : ip := IP6 (repeat 0%N 16).

(** config/blocking.go:10-15: the parts of Blocking used here (a list source is
    represented by its text) *)
Record blk_cfg := {
  bc_deny : list (str * list str);
  bc_allow : list (str * list str);
  bc_clients : list (str * list str);
  bc_type : str;
  bc_ttl : N }.

(** blocking_resolver.go:34-70 createBlockHandler; [parse_ip] is net.ParseIP.
    strings.EqualFold is modelled on ASCII. *)
Definition equal_fold (a b : str) : bool := str_eqb (to_lower a) (to_lower b).
(** resolver/blocking_resolver.go:34-70 createBlockHandler *)
Definition create_block_handler (parse_ip : str -> option ip) (cfg : blk_cfg) : option handler :=
  if equal_fold (bc_type cfg) $"NXDOMAIN" then Some HNxDomain
  else if equal_fold (bc_type cfg) $"ZEROIP" then Some (HZeroIP (bc_ttl cfg))
  else
    match flat_map (fun part => match parse_ip (trim_space part) with Some i => [i] | None => [] end)
            (split_byte comma (bc_type cfg)) with
    | [] => None
    | ips => Some (HIPs ips (bc_ttl cfg))
    end.

(** blocking_resolver.go:98-113 clientGroupsBlock: the map is built from the
    configured map in some iteration order. *)
Definition add_identifier (gs : list str) (cgb : list (str * list str)) (ipart : str) : list (str * list str) :=
  match mget str_eqb ipart cgb with
  | Some existing => mput str_eqb ipart (existing ++ gs) cgb
  | None => mput str_eqb ipart gs cgb
  end.
(** resolver/blocking_resolver.go:98-113 clientGroupsBlock, the whole loop *)
Definition client_groups_block (l : list (str * list str)) : list (str * list str) :=
  fold_left (fun cgb p => fold_left (add_identifier (snd p)) (split_byte comma (to_lower (fst p))) cgb) l [].

(** blocking_resolver.go:315-327 determineAllowlistOnlyGroups *)
Definition allowlist_only (cfg : blk_cfg) (g : str) : bool :=
  match mget str_eqb g (bc_allow cfg) with
  | Some (_ :: _) => match mget str_eqb g (bc_deny cfg) with Some _ => false | None => true end
  | _ => false
  end.

(** blocking_resolver.go:629-633 isFQDN *)
Definition is_fqdn_identifier (s : str) : bool := contains_byte dot (trim dot s).

Section Blocking.

(** External functions: filepath.Match (true only without error), util.CidrContainsIP,
    net.IP.String *)
Variable glob : str -> str -> bool.
Variable cidr_contains : str -> option ip -> bool.
Variable ip_string : option ip -> str.

(** util/common.go:217-221 ClientNameMatchesGroupName *)
Definition name_matches (group name : str) : bool := glob (to_lower group) (to_lower name).

(** net.IP.Equal with the client's address -- as in resolver/blocking_resolver.go:461-514 *)
Definition same_ip (a : ip) (b : option ip) : bool :=
  match b with Some b => ip_eqb a b | None => false end.

(** blocking_resolver.go:461-514 groupsToCheckForClient.  [iter i] is the order of the
    i-th iteration over the map clientGroupsBlock, [fqdn_ips] what the cache of
    FQDN identifiers holds ([] for nil), [disabled] the disabled groups. *)
Fixpoint groups_by_name (iter : nat -> list (str * list str)) (i : nat) (names : list str) : list str :=
  match names with
  | [] => []
  | n :: names' =>
      flat_map (fun p => if name_matches (fst p) n then snd p else []) (iter i) ++ groups_by_name iter (S i) names'
  end.
(** resolver/blocking_resolver.go:461-514: the groups listed for the address of the client *)
Definition groups_by_ip (cgb : list (str * list str)) (i : option ip) : list str :=
  match mget str_eqb (ip_string i) cgb with Some gs => gs | None => [] end.
(** resolver/blocking_resolver.go:461-514: the groups listed for networks and FQDN identifiers of the client *)
Definition groups_by_net (l : list (str * list str)) (fqdn_ips : str -> list ip) (i : option ip) : list str :=
  flat_map (fun p =>
    if cidr_contains (fst p) i then snd p
    else if is_fqdn_identifier (fst p) then flat_map (fun a => if same_ip a i then snd p else []) (fqdn_ips (fst p))
    else []) l.
(** resolver/blocking_resolver.go:461-514 groupsToCheckForClient *)
Definition groups_to_check (cgb : list (str * list str)) (iter : nat -> list (str * list str))
  (fqdn_ips : str -> list ip) (disabled : list str) (req : request) : list str :=
  let groups :=
    groups_by_name iter 1 (req_names req) ++ groups_by_ip cgb (req_ip req) ++ groups_by_net (iter 0) fqdn_ips (req_ip req) in
  let groups := match groups with
                | [] => match mget str_eqb $"default" cgb with Some gs => gs | None => [] end
                | _ => groups
                end in
  sort_strs (filter (fun g => negb (str_in g disabled)) groups).

(** blocking_resolver.go:542-578 handleBlock *)
Definition zero_block (ttl : N) (q : question) (m : msg) : msg :=
  if (q_type q =? type_AAAA)%N then set_answer (m_answer m ++ [create_rr q ttl (DAAAA ipv6_zero)]) m
  else if (q_type q =? type_A)%N then set_answer (m_answer m ++ [create_rr q ttl (DA ipv4_zero)]) m
  else set_rcode_field rcode_nxdomain m.
(** resolver/blocking_resolver.go:542-578 handleBlock of the three handlers *)
Definition handle_block (h : handler) (q : question) (m : msg) : msg :=
  match h with
  | HNxDomain => set_rcode_field rcode_nxdomain m
  | HZeroIP ttl => zero_block ttl q m
  | HIPs ips ttl =>
      let ans := flat_map (fun i =>
        if (q_type q =? type_AAAA)%N && negb (is_v4 i) then [create_rr q ttl (DAAAA i)]
        else if (q_type q =? type_A)%N && is_v4 i then [create_rr q ttl (DA i)] else []) ips in
      let m' := set_answer (m_answer m ++ ans) m in
      match m_answer m' with [] => zero_block ttl q m' | _ => m' end
  end.

(** blocking_resolver.go:330-341 handleBlocked *)
Definition handle_blocked (h : handler) (req : request) (q : question) (reason : str) : response :=
  {| rs_msg := Some (handle_block h q (set_reply empty_msg (req_msg req))); rs_reason := reason; rs_type := BLOCKED |}.

(** blocking_resolver.go:431-445 extractEntryToCheckFromResponse *)
Definition entry_to_check (r : rr) : str * str :=
  match rr_data r with
  | DA a => (ip_string (Some a), $"IP")
  | DAAAA a => (to_lower (ip_string (Some a)), $"IP")
  | DCNAME t => (extract_domain_only t, $"CNAME")
  | _ => ([], [])
  end.

Variable allow deny : str -> list str -> list str.
Variable cfg : blk_cfg.
Variable h : handler.

(** blocking_resolver.go:516-524 matches *)
Definition matches (m : str -> list str -> list str) (groups : list str) (domain : str) : list str :=
  match groups with [] => [] | _ => m domain groups end.

(** blocking_resolver.go:354-362 hasAllowlistOnlyAllowed *)
Definition has_allowlist_only (groups : list str) : bool := existsb (allowlist_only cfg) groups.

(** blocking_resolver.go:364-396 handleDenylist, the loop over the questions; None:
    not handled *)
Fixpoint handle_denylist (groups : list str) (req : request) (qs : list question) : option prog :=
  match qs with
  | [] => None
  | q :: qs' =>
      let domain := extract_domain q in
      match matches allow groups domain with
      | _ :: _ => Some (pass req)
      | [] =>
          if has_allowlist_only groups then Some (Done (Ok (handle_blocked h req q $"BLOCKED (ALLOWLIST ONLY)")))
          else
            match matches deny groups domain with
            | (_ :: _) as gs => Some (Done (Ok (handle_blocked h req q ($"BLOCKED (" ++ join $"," gs ++ $")"))))
            | [] => handle_denylist groups req qs'
            end
      end
  end.

(** blocking_resolver.go:413-426: the reason to block the answer *)
Fixpoint screen (groups : list str) (ans : list rr) : option str :=
  match ans with
  | [] => None
  | r :: ans' =>
      let '(e, t) := entry_to_check r in
      match e with
      | [] => screen groups ans'
      | _ =>
          match matches allow groups e with
          | _ :: _ => screen groups ans'
          | [] =>
              match matches deny groups e with
              | (_ :: _) as gs => Some ($"BLOCKED " ++ t ++ $" (" ++ join $"," gs ++ $")")
              | [] => screen groups ans'
              end
          end
      end
  end.

(** blocking_resolver.go:399-429 Resolve, for the groups of the client; the index
    panic of Question[0] is a crash *)
Definition resolve_groups (groups : list str) (req : request) : prog :=
  let go_on :=
    Next req (fun r =>
      match r with
      | Ok resp =>
          match groups, rs_msg resp with
          | _ :: _, Some m =>
              match screen groups (m_answer m) with
              | Some reason =>
                  match m_question (req_msg req) with
                  | q :: _ => Done (Ok (handle_blocked h req q reason))
                  | [] => Crash
                  end
              | None => Done r
              end
          | _, _ => Done r
          end
      | Err _ => Done r
      end) in
  match groups with
  | [] => go_on
  | _ => match handle_denylist groups req (m_question (req_msg req)) with Some p => p | None => go_on end
  end.

(** resolver/blocking_resolver.go:399-429 Resolve with the groups of 461-514 *)
Definition blocking_resolve (iter : nat -> list (str * list str)) (fqdn_ips : str -> list ip) (disabled : list str)
  (req : request) : prog :=
  resolve_groups (groups_to_check (iter 0) iter fqdn_ips disabled req) req.

End Blocking.

(** ** FQDN identifiers: blocking_resolver.go:580-616 queryForFQIdentifierIPs.  [ra],
    [raaaa] are the results of the two queries; None: crash (nil Res). *)
Definition fq_step (r : result) (acc : list ip * Z) : option (list ip * Z) :=
  match r with
  | Err _ => Some acc
  | Ok resp =>
      match rs_msg resp with
      | None => None
      | Some m =>
          if (m_rcode m =? rcode_success)%N then
            Some (fold_left (fun a x =>
              (fst a ++ match rr_data x with DA i | DAAAA i => [i] | _ => [] end, Z.of_N (rr_ttl x) * 1000000000)%Z)
              (m_answer m) acc)
          else Some acc
      end
  end.
(** resolver/blocking_resolver.go:580-616 queryForFQIdentifierIPs *)
Definition fq_identifier_ips (ra raaaa : result) : option (list ip * Z) :=
  match fq_step ra ([], 0%Z) with Some acc => fq_step raaaa acc | None => None end.

(** blocking_resolver.go:155-159 the cache of FQDN identifiers; [size] is 10000
    (expiration_cache.go:58) *)
Definition fq_size : nat := cache_size 0.
(** blocking_resolver.go:618-627 initFQDNIPCache for the identifiers [ids]; [look] gives
    the result of queryForFQIdentifierIPs *)
Definition fq_init (now : Z) (look : str -> list ip * Z) (ids : list str) (l : lru (element (list ip))) : lru (element (list ip)) :=
  fold_left (fun l id => if is_fqdn_identifier id then ec_put fq_size now id (fst (look id)) (snd (look id)) l else l) ids l.
(** blocking_resolver.go:157-159 the handler for expired entries, in a clean-up of the
    cache (never nil) *)
Definition fq_clean (now : Z) (look : str -> list ip * Z) (l : lru (element (list ip))) : lru (element (list ip)) :=
  clean_up fq_size now (fun k => Some (look k)) l.
(** blocking_resolver.go:487-488: what a query reads (expired entries included) *)
Definition fq_ips (l : lru (element (list ip))) (id : str) : list ip :=
  match lru_peek id l with Some e => el_val e | None => [] end.

(** ** Enabling and disabling (blocking_resolver.go:72-80, 210-312) *)

(** The timer: [bt_timer] is the time at which the armed enableTimer fires; [bt_fired]
    counts callbacks of timers that have fired and have not run yet. -- resolver/blocking_resolver.go:72-81 *)
Record blk_state := {
  bt_enabled : bool; bt_disabled : list str; bt_end : Z; bt_timer : option Z; bt_fired : nat }.

(** blocking_resolver.go:147-150 *)
Definition blk_init : blk_state :=
  {| bt_enabled := true; bt_disabled := []; bt_end := 0; bt_timer := None; bt_fired := 0 |}.

(** blocking_resolver.go:210-217 retrieveAllBlockingGroups *)
Definition all_blocking_groups (cfg : blk_cfg) : list str := sort_strs (map fst (bc_deny cfg) ++ [$"default"]).

(** blocking_resolver.go:228-237 internalEnableBlocking *)
Definition internal_enable (s : blk_state) : blk_state :=
  {| bt_enabled := true; bt_disabled := []; bt_end := bt_end s; bt_timer := None; bt_fired := bt_fired s |}.

(** blocking_resolver.go:267-268 with sort.SearchStrings *)
Definition known_group (all : list str) (g : str) : bool :=
  let i := sort_search (length all) (fun i => str_geb (nth i all []) g) in
  (i <? length all)%nat && str_eqb (nth i all []) g.

(** blocking_resolver.go:253-294 internalDisableBlocking; false: error.  Durations and
    times in ns. *)
Definition internal_disable (cfg : blk_cfg) (d : Z) (gs : list str) (now : Z) (s : blk_state) : blk_state * bool :=
  let all := all_blocking_groups cfg in
  let ok := match gs with [] => true | _ => forallb (known_group all) gs end in
  if ok then
    ({| bt_enabled := false; bt_disabled := match gs with [] => all | _ => gs end; bt_end := now + d;
        bt_timer := if (d =? 0)%Z then None else Some (now + d)%Z; bt_fired := bt_fired s |}, true)
  else
    ({| bt_enabled := bt_enabled s; bt_disabled := bt_disabled s; bt_end := bt_end s; bt_timer := None; bt_fired := bt_fired s |}, false).

(** blocking_resolver.go:297-312 BlockingStatus *)
Definition blocking_status (now : Z) (s : blk_state) : bool * list str * Z :=
  (bt_enabled s, bt_disabled s,
   if negb (bt_enabled s) && (now <? bt_end s)%Z then Z.quot (bt_end s - now) 1000000000 else 0%Z).

(** What may happen next: the commands of resolver/blocking_resolver.go:220-312 and the enableTimer *)
Inductive blk_event :=
| BEnable                                     (* EnableBlocking, or a peer's message *)
| BDisable (d : Z) (gs : list str) (now : Z)  (* DisableBlocking, or a peer's message *)
| BFire (now : Z)                             (* the armed timer fires *)
| BCallback.                                  (* a fired callback gets the lock: blocking_resolver.go:287-290 *)

(** One step; None: not possible. -- resolver/blocking_resolver.go:220-312 *)
Definition blk_step (cfg : blk_cfg) (s : blk_state) (e : blk_event) : option (blk_state * bool) :=
  match e with
  | BEnable => Some (internal_enable s, true)
  | BDisable d gs now => Some (internal_disable cfg d gs now s)
  | BFire now =>
      match bt_timer s with
      | Some t =>
          if (t <=? now)%Z then
            Some ({| bt_enabled := bt_enabled s; bt_disabled := bt_disabled s; bt_end := bt_end s; bt_timer := None;
                     bt_fired := S (bt_fired s) |}, true)
          else None
      | None => None
      end
  | BCallback =>
      match bt_fired s with
      | O => None
      | S n =>
          Some (internal_enable {| bt_enabled := bt_enabled s; bt_disabled := bt_disabled s; bt_end := bt_end s;
                                   bt_timer := bt_timer s; bt_fired := n |}, true)
      end
  end.

(** A history. -- steps of resolver/blocking_resolver.go:220-312 *)
Fixpoint blk_run (cfg : blk_cfg) (s : blk_state) (es : list blk_event) : option blk_state :=
  match es with
  | [] => Some s
  | e :: es' => match blk_step cfg s e with Some (s', _) => blk_run cfg s' es' | None => None end
  end.

(** ** The status lock (sync.RWMutex: blocking_resolver.go:230, 257, 300, 448, 462)

    Go's RWMutex: a reader is admitted iff no writer is active or waiting; a
    writer first announces itself and is admitted when no reader is left. *)
Inductive lock_op := RLock | RUnlock | WAnnounce | WLock | WUnlock.
(** State of the lock of resolver/blocking_resolver.go:72-81 *)
Record rw := { rw_readers : nat; rw_waiting : bool; rw_writing : bool }.
(** sync.RWMutex as used by resolver/blocking_resolver.go:230, 257, 300, 448, 462: one lock operation; None: must wait *)
Definition rw_step (l : rw) (o : lock_op) : option rw :=
  match o with
  | RLock => if rw_waiting l || rw_writing l then None
             else Some {| rw_readers := S (rw_readers l); rw_waiting := rw_waiting l; rw_writing := rw_writing l |}
  | RUnlock => match rw_readers l with
               | S n => Some {| rw_readers := n; rw_waiting := rw_waiting l; rw_writing := rw_writing l |}
               | O => None
               end
  | WAnnounce => if rw_waiting l || rw_writing l then None
                 else Some {| rw_readers := rw_readers l; rw_waiting := true; rw_writing := rw_writing l |}
  | WLock => match rw_readers l with
             | O => if rw_waiting l then Some {| rw_readers := 0; rw_waiting := false; rw_writing := true |} else None
             | _ => None
             end
  | WUnlock => if rw_writing l then Some {| rw_readers := rw_readers l; rw_waiting := rw_waiting l; rw_writing := false |} else None
  end.

(** blocking_resolver.go:461-514 and 447-458: the lock operations of a query whose
    client has [n] groups (isGroupDisabled takes the lock again for each) *)
Fixpoint inner_locks (n : nat) : list lock_op :=
  match n with O => [] | S n => RLock :: RUnlock :: inner_locks n end.
(** resolver/blocking_resolver.go:461-514: the lock operations of a whole query *)
Definition query_locks (n : nat) : list lock_op := RLock :: inner_locks n ++ [RUnlock].

(** blocking_resolver.go:228-237, 253-294: an enable or disable command *)
Definition command_locks : list lock_op := [WAnnounce; WLock; WUnlock].

(** Concurrent execution: the lock and the remaining operations of each goroutine;
    [i] makes the next step. -- goroutines calling resolver/blocking_resolver.go:220-312, 461-514 *)
Definition conc_step (s : rw * list (list lock_op)) (i : nat) : option (rw * list (list lock_op)) :=
  match nth_error (snd s) i with
  | Some (o :: rest) =>
      match rw_step (fst s) o with
      | Some l => Some (l, firstn i (snd s) ++ rest :: skipn (S i) (snd s))
      | None => None
      end
  | _ => None
  end.
(** A schedule of goroutines calling resolver/blocking_resolver.go:220-312, 461-514 *)
Fixpoint conc_run (s : rw * list (list lock_op)) (is : list nat) : option (rw * list (list lock_op)) :=
  match is with
  | [] => Some s
  | i :: is' => match conc_step s i with Some s' => conc_run s' is' | None => None end
  end.
