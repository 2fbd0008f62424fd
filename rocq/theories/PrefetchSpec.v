(** What the metrics of prefetching are to show. *)
From Coq Require Import String Ascii List Arith Bool NArith ZArith.
From Verif Require Import Str Dns Resolver ExpCache Caching.
Import ListNotations.

(** [n] of the events of a history have the property, which may depend on what was before. *)
Inductive times {A} (P : list A -> A -> Prop) : list A -> nat -> Prop :=
| times_none : times P [] 0
| times_one l x n : times P l n -> P l x -> times P (l ++ [x]) (S n)
| times_not l x n : times P l n -> ~ P l x -> times P (l ++ [x]) n.

Section Spec.
Variable packable : msg -> bool.
Variable cfg : caching_cfg.

(** The answer to a prefetch is usable: a message without error that can be packed. *)
Definition usable (r : result) : Prop :=
  exists resp m, r = Ok resp /\ rs_msg resp = Some m /\ m_rcode m = 0%N /\ packable m = true.

(** The event is a usable answer to a prefetch. *)
Definition prefetched (hist : list event) (e : event) : Prop := exists k r, e = EReload k r /\ usable r.

(** The first entry for a key. *)
Definition first_for {V} (l : list (str * V)) (k : str) (v : V) : Prop :=
  exists a b, l = a ++ (k, v) :: b /\ ~ In k (map fst a).

(** In state [s] the event writes the entry of [k]; [b]: by prefetching. *)
Inductive writes (s : state) : event -> str -> bool -> Prop :=
| w_query id now t m ttl copy life : In t (s_tasks s) -> tk_id t = id -> tk_phase t = Storing m ttl ->
    cache_entry packable cfg m ttl = Some (copy, life) -> (0 < life)%Z -> writes s (EStore id now) (tk_key t) false
| w_peer k m now copy life :
    cache_entry packable cfg (set_answer (fst (adjust_ttls cfg (m_answer m))) m) (snd (adjust_ttls cfg (m_answer m))) = Some (copy, life) ->
    (0 < life)%Z -> writes s (ERemote k m now) k false
| w_prefetch k now m ttl : first_for (s_prefetch s) k (Some (Some (m, ttl))) -> (0 < ttl)%Z ->
    writes s (EReloadStore k now) k true.

(** The latest event that wrote the entry of [k] did so by prefetching ([b]) or not. *)
Definition last_written (hist : list event) (k : str) (b : bool) : Prop :=
  exists before e after s, hist = before ++ e :: after /\ run packable cfg init before = Some s /\ writes s e k b /\
    forall a' e' c' s' b', after = a' ++ e' :: c' -> run packable cfg init (before ++ e :: a') = Some s' -> ~ writes s' e' k b'.

(** The question that the event looks up: the first of a new query, or the next one of a query with several. *)
Inductive looks_up (s : state) : event -> nat -> question -> Prop :=
| l_first id req now q rest : m_question (req_msg req) = q :: rest -> looks_up s (EStart id req now) id q
| l_next id now t q rest : In t (s_tasks s) -> tk_id t = id -> tk_rest t = q :: rest -> looks_up s (EStore id now) id q.

(** The event answers a query from the cache, with an entry that was written by prefetching. *)
Definition prefetch_served (hist : list event) (e : event) : Prop :=
  exists s s' id q res, run packable cfg init hist = Some s /\ step packable cfg s e = Some (s', [Reply id res]) /\
    looks_up s e id q /\ last_written (hist ++ [e]) (question_key q) true.

End Spec.
