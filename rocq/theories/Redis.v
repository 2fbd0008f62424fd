(** Model of the synchronisation over Redis (/repo/redis/redis.go): what is published, what is
    delivered, what is put in the store and what is loaded at start-up. *)
From Coq Require Import String Ascii List Arith Bool NArith ZArith.
From Verif Require Import Str Dns Caching.
Import ListNotations.
Open Scope list_scope.

(** ** Text in JSON *)

(** [lo <= c <= hi] -- part of the UTF-8 decoder used by encoding/json, redis/redis.go:220, 241 *)
Definition in_range (lo hi : N) (c : ascii) : bool := (lo <=? N_of_ascii c)%N && (N_of_ascii c <=? hi)%N.

(** unicode/utf8 DecodeRuneInString: the length of the rune at the start of the text, None for an
    invalid byte (RuneError of size 1) -- used by encoding/json, redis/redis.go:220, 241 *)
Definition rune_length (s : str) : option nat :=
  match s with
  | [] => None
  | a :: t =>
      if in_range 0 127 a then Some 1 else
      match t with
      | [] => None
      | b :: t =>
          if in_range 194 223 a && in_range 128 191 b then Some 2 else
          match t with
          | [] => None
          | c :: t =>
              if ((in_range 224 224 a && in_range 160 191 b) || (in_range 225 236 a && in_range 128 191 b)
                  || (in_range 237 237 a && in_range 128 159 b) || (in_range 238 239 a && in_range 128 191 b))
                 && in_range 128 191 c then Some 3 else
              match t with
              | [] => None
              | d :: _ =>
                  if ((in_range 240 240 a && in_range 144 191 b) || (in_range 241 243 a && in_range 128 191 b)
                      || (in_range 244 244 a && in_range 128 143 b))
                     && in_range 128 191 c && in_range 128 191 d then Some 4 else None
              end
          end
      end
  end.

(** U+FFFD in UTF-8 -- written by encoding/json, redis/redis.go:220, 241 *)
Definition replacement : str := map ascii_of_N [239; 191; 189]%N.

(** A string after json.Marshal and json.Unmarshal (redis.go:220-225 and 241): encoding/json writes
    � for each invalid byte; everything else is escaped and restored.  [skip] counts the
    remaining bytes of the current rune. *)
Fixpoint json_text_from (skip : nat) (s : str) : str :=
  match s with
  | [] => []
  | c :: t =>
      match skip with
      | S k => c :: json_text_from k t
      | O => match rune_length s with
             | Some n => c :: json_text_from (n - 1) t
             | None => replacement ++ json_text_from 0 t
             end
      end
  end.
(** encoding/json, a whole string (redis.go:220-225, 241) *)
Definition json_text (s : str) : str := json_text_from 0 s.

(** ** Messages *)

(** redis.go:39-44 redisMessage as it arrives; []byte fields are base64 and so arrive unchanged, a
    missing field is the empty one *)
Record wire := { w_key : str; w_type : Z; w_message : str; w_client : str }.

(** redis.go:47-50 CacheMessage *)
Record cache_message := { cm_key : str; cm_response : response }.

(** redis.go:52-56 EnabledMessage (duration in ns) *)
Record enabled_message := { em_state : bool; em_duration : Z; em_groups : list str }.

(** redis.go:22-30 *)
Definition chan_cap : nat := 1000.
(** redis.go:24 CacheStorePrefix *)
Definition store_prefix : str := $"blocky:cache:".

(** redis.go:344-346 prefixKey *)
Definition prefix_key (k : str) : str := store_prefix ++ k.
(** redis.go:349-351 cleanKey *)
Definition clean_key (k : str) : str := trim_prefix k store_prefix.

(** redis.go:330-341 getTTL (ns) *)
Definition get_ttl (m : msg) : Z :=
  let t := fold_left (fun x r => N.min x (rr_ttl r)) (m_answer m) max_int32 in
  if (t =? 0)%N then 1000000000 else (Z.of_N t * 1000000000)%Z.

Section Redis.

(** miekg/dns Msg.Pack and Unpack (not modelled) *)
Variable pack : msg -> option str.
Variable unpack : str -> option msg.
(** encoding/json of an EnabledMessage (redis.go:140, 264; not modelled beyond the groups being
    strings) *)
Variable encode_enabled : enabled_message -> str.
Variable decode_enabled : str -> option enabled_message.
(** redis.go:106 the random id of each instance *)
Variable ids : nat -> str.

(** redis.go:303-327 convertMessage *)
Definition convert_message (key message : str) (ttl : Z) : option cache_message :=
  match unpack message with
  | None => None
  | Some m =>
      let m' := if (0 <? ttl)%Z then set_answer (map (set_ttl (seconds_u32 ttl)) (m_answer m)) m else m in
      Some {| cm_key := key;
              cm_response := {| rs_msg := Some m'; rs_type := CACHED; rs_reason := $"EXTERNAL_CACHE" |} |}
  end.

(** What a received payload leads to: the message for one of the two channels, or nothing. -- redis/redis.go:238-276 processReceivedMessage *)
Inductive received := RCache (c : cache_message) | REnabled (e : enabled_message) | RNothing.

(** redis.go:238-275 processReceivedMessage up to CtxSend; None is a payload that is no JSON object of
    this form *)
Definition process (id : str) (payload : option wire) : received :=
  match payload with
  | None => RNothing
  | Some w =>
      if str_eqb (w_client w) id then RNothing
      else if (w_type w =? 0)%Z then
        match convert_message (w_key w) (w_message w) 0 with Some c => RCache c | None => RNothing end
      else if (w_type w =? 1)%Z then
        match decode_enabled (w_message w) with Some e => REnabled e | None => RNothing end
      else RNothing
  end.

(** ** The instances and the server *)

(** redis.go:59-67 Client: the send buffer, the messages waiting in the subscription, the two
    channels read by the resolvers (oldest first) *)
Record node := { n_send : list (str * msg); n_inbox : list (option wire);
                 n_cache : list cache_message; n_enabled : list enabled_message }.

(** The store: key, value, time of expiry (ns). -- redis/redis.go:130-236 *)
Record sys := { s_nodes : nat -> node; s_store : list (str * (str * Z)) }.

(** redis.go:109-117: a client after its construction (all instances have subscribed) *)
Definition node_init : node := {| n_send := []; n_inbox := []; n_cache := []; n_enabled := [] |}.
(** redis.go:109-117, and an empty store *)
Definition sys_init : sys := {| s_nodes := fun _ => node_init; s_store := [] |}.

(** assignment to the client of one instance -- redis/redis.go:59-68 Client *)
Definition set_node (i : nat) (n : node) (s : sys) : sys :=
  {| s_nodes := fun j => if Nat.eqb j i then n else s_nodes s j; s_store := s_store s |}.

(** Redis PUBLISH: every subscriber gets the payload, the sender too. -- redis/redis.go:214-236 publishMessageFromBuffer *)
Definition publish (p : option wire) (s : sys) : sys :=
  {| s_nodes := fun j => let n := s_nodes s j in
       {| n_send := n_send n; n_inbox := n_inbox n ++ [p]; n_cache := n_cache n; n_enabled := n_enabled n |};
     s_store := s_store s |}.

(** Redis SET with an expiry. -- redis/redis.go:214-236 publishMessageFromBuffer *)
Definition store_set (k v : str) (expires : Z) (s : sys) : sys :=
  {| s_nodes := s_nodes s; s_store := mput str_eqb k (v, expires) (s_store s) |}.

(** What may happen next. -- redis/redis.go:130-236 *)
Inductive sys_op :=
| OPublishCache (i : nat) (key : str) (m : option msg)      (* putInCache calls PublishCache *)
| OPublishEnabled (i : nat) (e : enabled_message)           (* blocking switched on instance i *)
| OSend (i : nat) (now : Z)                                 (* the loop takes a message of the send buffer *)
| OReceive (i : nat)                                        (* the loop takes a message of the subscription *)
| OLose (i : nat)                                           (* the subscription drops a message *)
| OForeign (p : option wire)                                (* somebody else publishes on the channel *)
| OTakeCache (i : nat)                                      (* the caching resolver takes a message *)
| OTakeEnabled (i : nat).                                   (* the blocking resolver takes a message *)

(** What the resolvers of an instance get to see. -- redis/redis.go:130-236 *)
Inductive sys_out := GotCache (i : nat) (c : cache_message) | GotEnabled (i : nat) (e : enabled_message).

(** redis.go:130-137, 139-152, 182-236 and util.CtxSend: one step; None if the goroutine has to wait
    (full buffer, nothing to take).  Publishing never fails. *)
Definition sys_step (s : sys) (o : sys_op) : option (sys * list sys_out) :=
  match o with
  | OPublishCache i key m =>
      match key, m with
      | _ :: _, Some m =>
          let n := s_nodes s i in
          if length (n_send n) <? chan_cap then
            Some (set_node i {| n_send := n_send n ++ [(key, m)]; n_inbox := n_inbox n;
                                n_cache := n_cache n; n_enabled := n_enabled n |} s, [])
          else None
      | _, _ => Some (s, [])
      end
  | OPublishEnabled i e =>
      Some (publish (Some {| w_key := []; w_type := 1; w_message := encode_enabled e; w_client := ids i |}) s, [])
  | OSend i now =>
      let n := s_nodes s i in
      match n_send n with
      | [] => None
      | (key, m) :: rest =>
          let s1 := set_node i {| n_send := rest; n_inbox := n_inbox n; n_cache := n_cache n; n_enabled := n_enabled n |} s in
          match pack m with
          | None => Some (s1, [])
          | Some b =>
              Some (store_set (prefix_key key) b (now + get_ttl m)
                     (publish (Some {| w_key := json_text key; w_type := 0; w_message := b; w_client := ids i |}) s1), [])
          end
      end
  | OReceive i =>
      let n := s_nodes s i in
      match n_inbox n with
      | [] => None
      | p :: rest =>
          match process (ids i) p with
          | RNothing => Some (set_node i {| n_send := n_send n; n_inbox := rest; n_cache := n_cache n; n_enabled := n_enabled n |} s, [])
          | RCache c =>
              if length (n_cache n) <? chan_cap then
                Some (set_node i {| n_send := n_send n; n_inbox := rest; n_cache := n_cache n ++ [c]; n_enabled := n_enabled n |} s, [])
              else None
          | REnabled e =>
              if length (n_enabled n) <? chan_cap then
                Some (set_node i {| n_send := n_send n; n_inbox := rest; n_cache := n_cache n; n_enabled := n_enabled n ++ [e] |} s, [])
              else None
          end
      end
  | OLose i =>
      let n := s_nodes s i in
      match n_inbox n with
      | [] => None
      | _ :: rest => Some (set_node i {| n_send := n_send n; n_inbox := rest; n_cache := n_cache n; n_enabled := n_enabled n |} s, [])
      end
  | OForeign p => Some (publish p s, [])
  | OTakeCache i =>
      let n := s_nodes s i in
      match n_cache n with
      | [] => None
      | c :: rest => Some (set_node i {| n_send := n_send n; n_inbox := n_inbox n; n_cache := rest; n_enabled := n_enabled n |} s,
                           [GotCache i c])
      end
  | OTakeEnabled i =>
      let n := s_nodes s i in
      match n_enabled n with
      | [] => None
      | e :: rest => Some (set_node i {| n_send := n_send n; n_inbox := n_inbox n; n_cache := n_cache n; n_enabled := rest |} s,
                           [GotEnabled i e])
      end
  end.

(** A history: the state reached and what the resolvers saw, or None if a step was not possible. -- redis/redis.go:130-236 *)
Fixpoint sys_run (s : sys) (ops : list sys_op) : option (sys * list sys_out) :=
  match ops with
  | [] => Some (s, [])
  | o :: ops =>
      match sys_step s o with
      | None => None
      | Some (s1, out) => match sys_run s1 ops with Some (s2, outs) => Some (s2, out ++ outs) | None => None end
      end
  end.

(** ** Loading the store at start-up *)

(** Redis TTL as reported by go-redis (ns): whole seconds, rounded; -2 for a key that is gone. -- redis/redis.go:278-301 getResponse *)
Definition store_ttl (expires now : Z) : Z :=
  if (expires <=? now)%Z then -2 else (Z.div (Z.div (expires - now) 1000000 + 500) 1000 * 1000000000)%Z.

(** redis.go:278-300 getResponse: [t1] is the time of GET, [t2] that of TTL; None is an error or
    nothing to deliver *)
Definition get_response (st : list (str * (str * Z))) (key : str) (t1 t2 : Z) : option cache_message :=
  match mget str_eqb key st with
  | Some (v, expires) =>
      if (expires <=? t1)%Z then None else convert_message (clean_key key) v (store_ttl expires t2)
  | None => None
  end.

(** redis.go:155-179 GetRedisCache: the keys found by SCAN (pattern prefix and star) in the order
    [keys], each with the times of its two commands *)
Definition load (st : list (str * (str * Z))) (keys : list (str * (Z * Z))) : list cache_message :=
  flat_map (fun x =>
    let '(k, (t1, t2)) := x in
    if has_prefix k store_prefix then
      match get_response st k t1 t2 with Some c => [c] | None => [] end
    else []) keys.

End Redis.
