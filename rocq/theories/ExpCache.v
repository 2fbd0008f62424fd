(** Model of package expirationcache (/repo/cache/expirationcache).

    The underlying store is github.com/hashicorp/golang-lru v1 (a dependency, not
    part of /repo): a list ordered by recency of use, most recent first.  Its
    operations are atomic (guarded by its own lock).  Times are milliseconds since
    the epoch, durations nanoseconds, both as unbounded integers (the int64
    arithmetic of the code does not overflow for dates before the year 292 million
    and durations that fit time.Duration). *)
From Coq Require Import String Ascii List Arith Bool ZArith.
From Verif Require Import Str.
Import ListNotations.

(** ** golang-lru *)
Section LRU.
Context {V : Type}.

(** lru.Cache (cache/expirationcache/expiration_cache.go:26): keys and values, newest first *)
Definition lru := list (str * V).

(** lru.Cache.Get: the value, moved to the front. -- cache/expirationcache/expiration_cache.go:162-174 *)
Definition lru_get (k : str) (l : lru) : option V * lru :=
  match mget str_eqb k l with
  | Some v => (Some v, (k, v) :: mdel str_eqb k l)
  | None => (None, l)
  end.

(** lru.Cache.Peek: does not change the order. -- cache/expirationcache/expiration_cache.go:118 *)
Definition lru_peek (k : str) (l : lru) : option V := mget str_eqb k l.

(** lru.Cache.Add: replaces the value of an existing key, or adds a new key and
    drops the oldest one when there are more than [size]; the new one is at the
    front in both cases. -- cache/expirationcache/expiration_cache.go:151 *)
Definition lru_add (size : nat) (k : str) (v : V) (l : lru) : lru :=
  match mget str_eqb k l with
  | Some _ => (k, v) :: mdel str_eqb k l
  | None => if size <? S (length l) then removelast ((k, v) :: l) else (k, v) :: l
  end.

(** lru.Cache.Remove -- cache/expirationcache/expiration_cache.go:138 *)
Definition lru_remove (k : str) (l : lru) : lru := mdel str_eqb k l.

(** lru.Cache.Keys: from oldest to newest. -- cache/expirationcache/expiration_cache.go:117 *)
Definition lru_keys (l : lru) : list str := rev (map fst l).
End LRU.
Arguments lru V : clear implicits.

(** expiration_cache.go:15-18 element *)
Record element (T : Type) := { el_val : T; el_expires : Z }.
Arguments el_val {T}. Arguments el_expires {T}.

(** expiration_cache.go:12, 58, 73-76: configured size, 10000 when 0. *)
Definition cache_size (max_size : nat) : nat := if 0 <? max_size then max_size else N.to_nat 10000.

(** time.Duration.Milliseconds (truncated towards zero) -- cache/expirationcache/expiration_cache.go:149 *)
Definition to_ms (ttl : Z) : Z := Z.quot ttl 1000000.

(** expiration_cache.go:176-178 isExpired *)
Definition is_expired {T} (now : Z) (e : element T) : bool :=
  ((0 <? el_expires e) && (el_expires e <? now))%Z.

(** expiration_cache.go:180-186 calculateRemainTTL, in nanoseconds *)
Definition remain_ttl (now expires : Z) : Z :=
  (if now <? expires then (expires - now) * 1000000 else 0)%Z.

(** expiration_cache.go:143-160 Put (the metrics callback is not modelled) *)
Definition ec_put {T} (size : nat) (now : Z) (k : str) (v : T) (ttl : Z) (l : lru (element T)) : lru (element T) :=
  if (ttl <=? 0)%Z then l
  else lru_add size k {| el_val := v; el_expires := now + to_ms ttl |} l.

(** expiration_cache.go:162-174 Get (metrics callbacks not modelled): value and
    remaining time, None for (nil, 0). *)
Definition ec_get {T} (now : Z) (k : str) (l : lru (element T)) : option (T * Z) * lru (element T) :=
  let '(r, l') := lru_get k l in
  (match r with
   | Some e => Some (el_val e, remain_ttl now (el_expires e))
   | None => None
   end, l').

(** expiration_cache.go:192-194 Clear *)
Definition ec_clear {T} (l : lru (element T)) : lru (element T) := [].

(** ** cleanUp (expiration_cache.go:113-141) run without interruption *)
Section CleanUp.
Context {T : Type}.
Variable size : nat.

(** lines 117-123: the expired keys, oldest first *)
Definition expired_keys (now : Z) (l : lru (element T)) : list str :=
  filter (fun k => match lru_peek k l with Some e => is_expired now e | None => false end) (lru_keys l).

(** lines 128-135, for a handler [h] whose answers do not depend on the cache *)
Fixpoint handle_expired (now : Z) (h : str -> option (T * Z)) (keys : list str) (l : lru (element T))
  : lru (element T) * list str :=
  match keys with
  | [] => (l, [])
  | k :: keys' =>
      match h k with
      | Some (v, ttl) => handle_expired now h keys' (ec_put size now k v ttl l)
      | None => let '(l', del) := handle_expired now h keys' l in (l', k :: del)
      end
  end.

(** lines 137-139 *)
Definition remove_keys (keys : list str) (l : lru (element T)) : lru (element T) :=
  fold_left (fun l k => lru_remove k l) keys l.

(** cache/expirationcache/expiration_cache.go:113-141 cleanUp, without other calls in between *)
Definition clean_up (now : Z) (h : str -> option (T * Z)) (l : lru (element T)) : lru (element T) :=
  let '(l', del) := handle_expired now h (expired_keys now l) l in remove_keys del l'.

(** ** Concurrent use: every access to the store is one atomic step; at most one
    clean-up is running (a single goroutine, expiration_cache.go:99-111). *)

(** Where the goroutine of cache/expirationcache/expiration_cache.go:113-141 is *)
Inductive cleaner :=
| Idle
| Collecting (todo : list str) (expired : list str)   (* lines 117-123 *)
| Handling (expired : list str) (del : list str)      (* lines 128-135 *)
| Removing (del : list str).                          (* lines 137-139 *)

(** Skip finished loops. -- loops of cache/expirationcache/expiration_cache.go:117-139 *)
Definition settle (c : cleaner) : cleaner :=
  match c with
  | Removing [] => Idle
  | Handling [] [] => Idle
  | Handling [] del => Removing del
  | Collecting [] [] => Idle
  | Collecting [] exp => Handling exp []
  | _ => c
  end.

(** cache/expirationcache/expiration_cache.go:20-27, and the clean-up in progress *)
Record cstate := { st_lru : lru (element T); st_cleaner : cleaner }.

(** Calls (cache/expirationcache/expiration_cache.go:143-195) and steps of the clean-up (113-141) *)
Inductive op :=
| OPut (k : str) (v : T) (ttl now : Z)
| OGet (k : str) (now : Z)
| OClear
| OCount
| OCleanStart                                            (* line 117 Keys() *)
| OCleanPeek (k : str) (now : Z)                         (* lines 118-122 for key k *)
| OCleanHandle (k : str) (r : option (T * Z)) (now : Z)  (* lines 129-134 for key k *)
| OCleanRemove (k : str).                                (* line 138 for key k *)

(** Results of cache/expirationcache/expiration_cache.go:162-190 *)
Inductive out :=
| RNone
| RGet (r : option (T * Z))
| RCount (n : nat).

(** assignment to the store (cache/expirationcache/expiration_cache.go:26) *)
Definition set_lru (s : cstate) (l : lru (element T)) : cstate := {| st_lru := l; st_cleaner := st_cleaner s |}.
(** progress of cache/expirationcache/expiration_cache.go:113-141 *)
Definition set_cleaner (s : cstate) (c : cleaner) : cstate := {| st_lru := st_lru s; st_cleaner := settle c |}.

(** One atomic step; None: the clean-up is not at this point. -- cache/expirationcache/expiration_cache.go:113-195 *)
Definition step (s : cstate) (o : op) : option (cstate * out) :=
  match o with
  | OPut k v ttl now => Some (set_lru s (ec_put size now k v ttl (st_lru s)), RNone)
  | OGet k now => let '(r, l) := ec_get now k (st_lru s) in Some (set_lru s l, RGet r)
  | OClear => Some (set_lru s (ec_clear (st_lru s)), RNone)
  | OCount => Some (s, RCount (length (st_lru s)))
  | OCleanStart =>
      match st_cleaner s with
      | Idle => Some (set_cleaner s (Collecting (lru_keys (st_lru s)) []), RNone)
      | _ => None
      end
  | OCleanPeek k now =>
      match st_cleaner s with
      | Collecting (k' :: todo) exp =>
          if str_eqb k k' then
            let exp' := match lru_peek k (st_lru s) with
                        | Some e => if is_expired now e then exp ++ [k] else exp
                        | None => exp
                        end in
            Some (set_cleaner s (Collecting todo exp'), RNone)
          else None
      | _ => None
      end
  | OCleanHandle k r now =>
      match st_cleaner s with
      | Handling (k' :: todo) del =>
          if str_eqb k k' then
            match r with
            | Some (v, ttl) =>
                Some (set_cleaner (set_lru s (ec_put size now k v ttl (st_lru s))) (Handling todo del), RNone)
            | None => Some (set_cleaner s (Handling todo (del ++ [k])), RNone)
            end
          else None
      | _ => None
      end
  | OCleanRemove k =>
      match st_cleaner s with
      | Removing (k' :: del) =>
          if str_eqb k k' then
            Some (set_cleaner (set_lru s (lru_remove k (st_lru s))) (Removing del), RNone)
          else None
      | _ => None
      end
  end.

(** cache/expirationcache/expiration_cache.go:55-97: a new cache *)
Definition init : cstate := {| st_lru := []; st_cleaner := Idle |}.

(** A history of the steps of cache/expirationcache/expiration_cache.go:113-195 *)
Fixpoint run (s : cstate) (ops : list op) : option cstate :=
  match ops with
  | [] => Some s
  | o :: ops' => match step s o with Some (s', _) => run s' ops' | None => None end
  end.

End CleanUp.
Arguments cleaner : clear implicits. Arguments cstate : clear implicits.
Arguments op : clear implicits. Arguments out : clear implicits.

(** ** Prefetching (prefetching_cache.go) *)
Section Prefetch.
Context {T : Type}.

(** prefetching_cache.go:19-22 cacheValue *)
Record cache_value := { cv_element : T; cv_prefetch : bool }.

(** prefetching_cache.go:9-17: the fields that matter; [pf_size], [pf_names_size]
    are the sizes given to the two caches. *)
Record pf_config := {
  pf_size : nat; pf_names_size : nat; pf_threshold : Z; pf_expires : Z (* ns *) }.

(** cache/expirationcache/prefetching_cache.go:9-17: the two caches *)
Record pf_state := {
  pf_cache : lru (element cache_value);
  pf_names : lru (element N) }.

(** cache/expirationcache/prefetching_cache.go:43-60: new caches *)
Definition pf_init : pf_state := {| pf_cache := []; pf_names := [] |}.

Variable cfg : pf_config.

(** prefetching_cache.go:90-98 trackCacheKeyQueryCount; the counter is an
    atomic.Uint32.  The Go code mutates the shared counter and stores it again,
    the model stores the incremented value (equivalent unless two lookups of the
    same key race, or when the window length is not positive). *)
Definition track (now : Z) (k : str) (names : lru (element N)) : lru (element N) :=
  let '(r, names1) := ec_get now k names in
  let c := match r with Some (c, _) => c | None => 0%N end in
  ec_put (pf_names_size cfg) now k (((c + 1) mod 4294967296)%N) (pf_expires cfg) names1.

(** prefetching_cache.go:63-71 shouldPrefetch; also returns the name cache, whose
    recency order changes. *)
Definition should_prefetch (now : Z) (k : str) (names : lru (element N)) : bool * lru (element N) :=
  if (pf_threshold cfg =? 0)%Z then (true, names)
  else
    let '(r, names') := ec_get now k names in
    (match r with
     | Some (c, _) => (pf_threshold cfg <? Z.of_N c)%Z
     | None => false
     end, names').

(** prefetching_cache.go:73-88 onExpired; [reload] is the answer of reloadFn.  The
    flag tells whether reloadFn is called. *)
Definition on_expired (now : Z) (reload : option (T * Z)) (k : str) (names : lru (element N))
  : bool * option (cache_value * Z) * lru (element N) :=
  let '(b, names') := should_prefetch now k names in
  (b, if b then match reload with
                | Some (v, ttl) => Some ({| cv_element := v; cv_prefetch := true |}, ttl)
                | None => None
                end
      else None, names').

(** Calls of cache/expirationcache/prefetching_cache.go:73-131 *)
Inductive pf_op :=
| PPut (k : str) (v : T) (ttl now : Z)
| PGet (k : str) (now : Z)
| PClear
| PExpire (k : str) (reload : option (T * Z)) (now : Z)   (* cleanUp handles expired key k *)
| PCleanNames (now : Z).                                  (* cleanUp of the name cache *)

(** Results of cache/expirationcache/prefetching_cache.go:73-131 *)
Inductive pf_out :=
| PNone
| PValue (r : option (T * Z))
| PReload (called : bool).

(** prefetching_cache.go:100-131 Put, Get, Clear, and the handling of one expired
    key by cleanUp of the main cache (expiration_cache.go:118-138 with onExpired). *)
Definition pf_step (s : pf_state) (o : pf_op) : pf_state * pf_out :=
  match o with
  | PPut k v ttl now =>
      ({| pf_cache := ec_put (pf_size cfg) now k {| cv_element := v; cv_prefetch := false |} ttl (pf_cache s);
          pf_names := pf_names s |}, PNone)
  | PGet k now =>
      let names := track now k (pf_names s) in
      let '(r, c) := ec_get now k (pf_cache s) in
      ({| pf_cache := c; pf_names := names |},
       PValue (match r with Some (v, ttl) => Some (cv_element v, ttl) | None => None end))
  | PClear => ({| pf_cache := []; pf_names := [] |}, PNone)
  | PExpire k reload now =>
      match lru_peek k (pf_cache s) with
      | Some e =>
          if is_expired now e then
            let '(b, r, names) := on_expired now reload k (pf_names s) in
            ({| pf_cache := match r with
                            | Some (v, ttl) => ec_put (pf_size cfg) now k v ttl (pf_cache s)
                            | None => lru_remove k (pf_cache s)
                            end;
                pf_names := names |}, PReload b)
          else (s, PNone)
      | None => (s, PNone)
      end
  | PCleanNames now =>
      ({| pf_cache := pf_cache s;
          pf_names := clean_up (pf_names_size cfg) now (fun _ => None) (pf_names s) |}, PNone)
  end.

(** A history of cache/expirationcache/prefetching_cache.go:73-131 *)
Fixpoint pf_run (s : pf_state) (ops : list pf_op) : pf_state :=
  match ops with
  | [] => s
  | o :: ops' => pf_run (fst (pf_step s o)) ops'
  end.

End Prefetch.
Arguments cache_value : clear implicits. Arguments pf_state : clear implicits.
Arguments pf_op : clear implicits. Arguments pf_out : clear implicits.
