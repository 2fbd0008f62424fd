(** Model of the caching resolver (/repo/resolver/caching_resolver.go). *)
From Coq Require Import String Ascii List Arith Bool NArith ZArith.
From Verif Require Import Str Dns Resolver ExpCache.
Import ListNotations.

(** config/caching.go:10-19 Caching (durations in ns; the prefetching part in
    [cc_pf], where the sizes are the effective ones) *)
Record caching_cfg := {
  cc_min : Z; cc_max : Z; cc_neg : Z; cc_prefetching : bool; cc_pf : pf_config }.

(** config/caching.go:22-24 IsEnabled *)
Definition caching_enabled (c : caching_cfg) : bool := (0 <=? cc_max c)%Z.

(** math.MaxInt32, the start value of the minimum search (caching_resolver.go:242, 305) *)
Definition max_int32 := 2147483647%N.
(** uint32 arithmetic (caching_resolver.go:249, config/duration.go:36) *)
Definition u32 (x : Z) : N := Z.to_N (x mod 4294967296)%Z.

(** config/duration.go:35-37 SecondsU32, and uint32(ttl.Seconds()).  The code goes
    through float64; the model truncates exactly. *)
Definition seconds_u32 (d : Z) : N := u32 (Z.quot d 1000000000).

(** caching_resolver.go:304-327, the update of one record *)
Definition adjust_ttl (c : caching_cfg) (t : N) : N :=
  let t1 := if (0 <? cc_min c)%Z && (t <? seconds_u32 (cc_min c))%N then seconds_u32 (cc_min c) else t in
  if (0 <? cc_max c)%Z && (seconds_u32 (cc_max c) <? t1)%N then seconds_u32 (cc_max c) else t1.

(** caching_resolver.go:304-332 adjustTTLs: the adjusted records and the cache time *)
Definition adjust_ttls (c : caching_cfg) (answer : list rr) : list rr * Z :=
  match answer with
  | [] => ([], cc_neg c)
  | _ =>
      let ans := map (fun r => set_ttl (adjust_ttl c (rr_ttl r)) r) answer in
      (ans, Z.of_N (fold_left (fun m r => N.min m (rr_ttl r)) ans max_int32) * 1000000000)%Z
  end.

(** caching_resolver.go:241-251 setTTLInCachedResponse, uint32 arithmetic *)
Definition set_ttl_in_cached (m : msg) (ttl : Z) : msg :=
  let mn := fold_left (fun x r => N.min x (rr_ttl r)) (m_answer m) max_int32 in
  set_answer (map (fun r => set_ttl (u32 (Z.of_N (rr_ttl r) - Z.of_N mn + Z.of_N (seconds_u32 ttl))) r) (m_answer m)) m.

(** caching_resolver.go:254-264 isRequestCacheable *)
Definition is_request_cacheable (req : request) : bool :=
  match get_edns0_option 8 (req_msg req) with
  | Some (EOSubnet fam mask _ _) =>
      negb (((fam =? 1)%N && negb (mask =? 32)%N) || ((fam =? 2)%N && negb (mask =? 128)%N))
  | _ => true
  end.

(** caching_resolver.go:267-270 isResponseCacheable *)
Definition is_response_cacheable (m : msg) : bool := negb (m_tc m) && negb (m_cd m).

(** caching_resolver.go:190-191: the cache key of a question *)
Definition question_key (q : question) : str := generate_cache_key (q_type q) (extract_domain q).

Section Resolver.

(** miekg/dns Pack may fail; what was packed unpacks to the same message (the
    codec is not modelled). *)
Variable packable : msg -> bool.
Variable cfg : caching_cfg.

(** caching_resolver.go:199-211: reply to [req] from a cached message with remaining
    time [ttl] *)
Definition cached_reply (req : request) (m : msg) (ttl : Z) : response :=
  let val := set_ttl_in_cached (set_rcode m (req_msg req) (m_rcode m)) ttl in
  {| rs_msg := Some val; rs_type := CACHED;
     rs_reason := if (m_rcode val =? rcode_success)%N then $"CACHED" else $"CACHED NEGATIVE" |}.

(** caching_resolver.go:272-299 putInCache: what is stored and for how long (redis
    publication not modelled here) *)
Definition cache_entry (m : msg) (ttl : Z) : option (msg * Z) :=
  let copy := snd (remove_edns0_record m) in
  if packable copy then
    if (m_rcode m =? rcode_success)%N && is_response_cacheable m then Some (copy, ttl)
    else if (m_rcode m =? rcode_nxdomain)%N then
      if (0 <? cc_neg cfg)%Z then Some (copy, cc_neg cfg) else None
    else None
  else None.

(** ** State machine: client queries, prefetches, remote updates, clean-up steps and
    flushes, interleaved at the accesses to the cache. *)

(** Where a call of Resolve stands in its loop (caching_resolver.go:189-218). *)
Inductive phase :=
| Waiting                           (* next.Resolve is running *)
| Storing (m : msg) (ttl : Z)       (* it returned, putInCache is about to run *)
| Failed (e : str).                 (* it returned an error (only while more questions follow) *)

(** A query that is being processed: the request, the key of the current question,
    the questions after it (the local variables of caching_resolver.go:180-221). *)
Record task := { tk_id : nat; tk_req : request; tk_key : str; tk_rest : list question; tk_phase : phase;
                 tk_resp : option response }.

(** caching_resolver.go:44-54 CachingResolver: the cache, the calls in progress, and the
    expired keys which cleanUp has passed to onExpired (None: reloadCacheEntry waits
    for the next resolver; otherwise the result of onExpired). *)
Record state := {
  s_cache : pf_state msg;
  s_tasks : list task;
  s_prefetch : list (str * option (option (msg * Z))) }.

(** caching_resolver.go:64-85 newCachingResolver *)
Definition init : state := {| s_cache := pf_init; s_tasks := []; s_prefetch := [] |}.

(** What may happen next. -- resolver/caching_resolver.go:126-300 and the goroutines of its caches *)
Inductive event :=
| EStart (id : nat) (req : request) (now : Z)     (* Resolve is called *)
| ENext (id : nat) (r : result)                   (* the next resolver returns to query id *)
| EStore (id : nat) (now : Z)                     (* putInCache of query id; then the next question *)
| ERemote (key : str) (m : msg) (now : Z)         (* redisSubscriber receives an entry *)
| EExpired (key : str) (now : Z)                  (* cleanUp finds key expired, onExpired is called *)
| EReload (key : str) (r : result)                (* the next resolver answers the prefetch *)
| EReloadStore (key : str) (now : Z)              (* cleanUp stores or removes *)
| ECleanNames (now : Z)
| EFlush.

(** What can be seen from outside. -- resolver/caching_resolver.go:126-300 *)
Inductive output :=
| Forward (id : option nat) (req : request)       (* request to the next resolver; None: prefetch *)
| Reply (id : nat) (r : result)
| Crashed (id : option nat).

(** The two cache flavours (caching_resolver.go:86-123 configureCaches): without
    prefetching no lookups are counted and expired entries are dropped. *)
Definition cache_get (now : Z) (k : str) (c : pf_state msg) : option (msg * Z) * pf_state msg :=
  if cc_prefetching cfg then
    match pf_step (cc_pf cfg) c (PGet k now) with
    | (c', PValue r) => (r, c')
    | (c', _) => (None, c')
    end
  else
    let '(r, l) := ec_get now k (pf_cache c) in
    (match r with Some (v, ttl) => Some (cv_element v, ttl) | None => None end,
     {| pf_cache := l; pf_names := pf_names c |}).

(** caching_resolver.go:286, 290 resultCache.Put *)
Definition cache_put (now : Z) (k : str) (m : msg) (ttl : Z) (c : pf_state msg) : pf_state msg :=
  fst (pf_step (cc_pf cfg) c (PPut k m ttl now)).

(** caching_resolver.go:189-218: process the question list; [resp] is the latest
    result of the loop (nil, nil before the first iteration: [None]) *)
Definition start_question (id : nat) (req : request) (qs : list question) (resp : option result) (now : Z)
  (c : pf_state msg) (tasks : list task) : pf_state msg * list task * list output :=
  match qs with
  | [] =>
      (c, tasks, match resp with Some r => [Reply id r] | None => [Crashed (Some id)] end)
  | q :: rest =>
      let key := question_key q in
      let '(r, c') := cache_get now key c in
      match r with
      | Some (m, ttl) => (c', tasks, [Reply id (Ok (cached_reply req m ttl))])
      | None =>
          (c', {| tk_id := id; tk_req := req; tk_key := key; tk_rest := rest; tk_phase := Waiting; tk_resp := None |} :: tasks,
           [Forward (Some id) req])
      end
  end.

(** The call with identifier [id], and the others. -- calls of resolver/caching_resolver.go:126-300 in progress *)
Fixpoint take_task (id : nat) (l : list task) : option (task * list task) :=
  match l with
  | [] => None
  | t :: l' =>
      if Nat.eqb (tk_id t) id then Some (t, l')
      else match take_task id l' with Some (x, l'') => Some (x, t :: l'') | None => None end
  end.

(** The pending expiry of [k], and the others. -- expiries in progress, cache/expirationcache/expiration_cache.go:128-135 *)
Fixpoint take_prefetch (k : str) (l : list (str * option (option (msg * Z))))
  : option (option (option (msg * Z)) * list (str * option (option (msg * Z)))) :=
  match l with
  | [] => None
  | (k', x) :: l' =>
      if str_eqb k k' then Some (x, l')
      else match take_prefetch k l' with Some (y, l'') => Some (y, (k', x) :: l'') | None => None end
  end.

(** caching_resolver.go:126-151 reloadCacheEntry after next.Resolve returned: the
    message is packed before its TTLs are adjusted.  None: crash (nil Res). *)
Definition reload_result (r : result) : option (option (msg * Z)) :=
  match r with
  | Err _ => Some None
  | Ok resp =>
      match rs_msg resp with
      | None => None
      | Some m =>
          if (m_rcode m =? rcode_success)%N then
            if packable m then Some (Some (m, snd (adjust_ttls cfg (m_answer m)))) else Some None
          else Some None
      end
  end.

(** One atomic step of caching_resolver.go:126-221 and :340-345 and of the cache's
    clean-up; None: the event is not possible in this state. *)
Definition step (s : state) (e : event) : option (state * list output) :=
  match e with
  | EStart id req now =>
      (* caching_resolver.go:180-188 *)
      if existsb (fun t => Nat.eqb (tk_id t) id) (s_tasks s) then None
      else if negb (caching_enabled cfg) || negb (is_request_cacheable req) then Some (s, [Forward (Some id) req])
      else
        let '(c, tasks, out) := start_question id req (m_question (req_msg req)) None now (s_cache s) (s_tasks s) in
        (* no question: Resolve returns nil, nil *)
        Some ({| s_cache := c; s_tasks := tasks; s_prefetch := s_prefetch s |}, out)
  | ENext id r =>
      match take_task id (s_tasks s) with
      | Some (t, tasks) =>
          match tk_phase t with
          | Waiting =>
              match r with
              | Err e =>
                  Some ({| s_cache := s_cache s;
                           s_tasks := {| tk_id := id; tk_req := tk_req t; tk_key := tk_key t; tk_rest := tk_rest t;
                                         tk_phase := Failed e; tk_resp := None |} :: tasks;
                           s_prefetch := s_prefetch s |}, [])
              | Ok resp =>
                  match rs_msg resp with
                  | None => (* response.Res.Answer with nil Res *)
                      Some ({| s_cache := s_cache s; s_tasks := tasks; s_prefetch := s_prefetch s |}, [Crashed (Some id)])
                  | Some m =>
                      let '(ans, ttl) := adjust_ttls cfg (m_answer m) in
                      let m' := set_answer ans m in
                      Some ({| s_cache := s_cache s;
                               s_tasks := {| tk_id := id; tk_req := tk_req t; tk_key := tk_key t; tk_rest := tk_rest t;
                                             tk_phase := Storing m' ttl;
                                             tk_resp := Some {| rs_msg := Some m'; rs_reason := rs_reason resp; rs_type := rs_type resp |} |} :: tasks;
                               s_prefetch := s_prefetch s |}, [])
                  end
              end
          | _ => None
          end
      | None => None
      end
  | EStore id now =>
      match take_task id (s_tasks s) with
      | Some (t, tasks) =>
          match tk_phase t with
          | Waiting => None
          | Failed e =>
              let '(c, tasks', out) := start_question id (tk_req t) (tk_rest t) (Some (Err e)) now (s_cache s) tasks in
              Some ({| s_cache := c; s_tasks := tasks'; s_prefetch := s_prefetch s |}, out)
          | Storing m ttl =>
              let c1 := match cache_entry m ttl with
                        | Some (copy, t') => cache_put now (tk_key t) copy t' (s_cache s)
                        | None => s_cache s
                        end in
              let r := match tk_resp t with Some resp => Ok resp | None => Err [] end in
              let '(c, tasks', out) := start_question id (tk_req t) (tk_rest t) (Some r) now c1 tasks in
              Some ({| s_cache := c; s_tasks := tasks'; s_prefetch := s_prefetch s |}, out)
          end
      | None => None
      end
  | ERemote key m now =>
      (* caching_resolver.go:153-170 *)
      let '(ans, ttl) := adjust_ttls cfg (m_answer m) in
      let m' := set_answer ans m in
      Some ({| s_cache := match cache_entry m' ttl with
                          | Some (copy, t') => cache_put now key copy t' (s_cache s)
                          | None => s_cache s
                          end;
               s_tasks := s_tasks s; s_prefetch := s_prefetch s |}, [])
  | EExpired key now =>
      match lru_peek key (pf_cache (s_cache s)) with
      | Some el =>
          if is_expired now el then
            if cc_prefetching cfg then
              let '(b, names) := should_prefetch (cc_pf cfg) now key (pf_names (s_cache s)) in
              if b then
                match extract_cache_key key with
                | Some (t, name) =>
                    Some ({| s_cache := {| pf_cache := pf_cache (s_cache s); pf_names := names |};
                             s_tasks := s_tasks s; s_prefetch := (key, None) :: s_prefetch s |},
                          [Forward None (new_request 0 name t)])
                | None => Some (s, [Crashed None])
                end
              else
                Some ({| s_cache := {| pf_cache := pf_cache (s_cache s); pf_names := names |};
                         s_tasks := s_tasks s; s_prefetch := (key, Some None) :: s_prefetch s |}, [])
            else Some ({| s_cache := s_cache s; s_tasks := s_tasks s; s_prefetch := (key, Some None) :: s_prefetch s |}, [])
          else None
      | None => None
      end
  | EReload key r =>
      match take_prefetch key (s_prefetch s) with
      | Some (None, rest) =>
          match reload_result r with
          | Some x => Some ({| s_cache := s_cache s; s_tasks := s_tasks s; s_prefetch := (key, Some x) :: rest |}, [])
          | None => Some ({| s_cache := s_cache s; s_tasks := s_tasks s; s_prefetch := rest |}, [Crashed None])
          end
      | _ => None
      end
  | EReloadStore key now =>
      match take_prefetch key (s_prefetch s) with
      | Some (Some (Some (m, ttl)), rest) =>
          Some ({| s_cache := {| pf_cache := ec_put (pf_size (cc_pf cfg)) now key {| cv_element := m; cv_prefetch := true |} ttl (pf_cache (s_cache s));
                                 pf_names := pf_names (s_cache s) |};
                   s_tasks := s_tasks s; s_prefetch := rest |}, [])
      | Some (Some None, rest) =>
          Some ({| s_cache := {| pf_cache := lru_remove key (pf_cache (s_cache s)); pf_names := pf_names (s_cache s) |};
                   s_tasks := s_tasks s; s_prefetch := rest |}, [])
      | _ => None
      end
  | ECleanNames now =>
      Some ({| s_cache := fst (pf_step (cc_pf cfg) (s_cache s) (PCleanNames now)); s_tasks := s_tasks s; s_prefetch := s_prefetch s |}, [])
  | EFlush =>
      (* caching_resolver.go:340-345 *)
      Some ({| s_cache := fst (pf_step (cc_pf cfg) (s_cache s) PClear); s_tasks := s_tasks s; s_prefetch := s_prefetch s |}, [])
  end.

(** A history of events. -- events of resolver/caching_resolver.go:126-300 *)
Fixpoint run (s : state) (es : list event) : option state :=
  match es with
  | [] => Some s
  | e :: es' => match step s e with Some (s', _) => run s' es' | None => None end
  end.

End Resolver.
