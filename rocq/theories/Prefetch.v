(** What the prefetching cache tells about itself: the events that cache/expirationcache/prefetching_cache.go and
    resolver/caching_resolver.go publish while queries are answered, and the metrics of
    metrics/metrics_event_publisher.go that count them.

    The events are published in the step of the cache that causes them: the size of the cache of names is read and
    published together with the lookup (C125 shows for the cache of answers what comes of overlapping publications).
    Numbers are exact, the code keeps them as float64. *)
From Coq Require Import String Ascii List Arith Bool NArith ZArith.
From Verif Require Import Str Dns Resolver ExpCache Caching.
Import ListNotations.

(** resolver/caching_resolver.go:103-117: the three callbacks *)
Inductive pf_note :=
| NDomains (n : nat)   (* CachingDomainsToPrefetchCountChanged *)
| NPrefetched          (* CachingDomainPrefetched *)
| NHit.                (* CachingPrefetchCacheHit *)

(** metrics/metrics_event_publisher.go:119-145: the metrics blocky_prefetch_domain_name_cache_entries,
    blocky_prefetches_total, blocky_prefetch_hits_total *)
Record pf_metrics := { pm_domains : nat; pm_prefetches : N; pm_hits : N }.

(** metrics/metrics_event_publisher.go:158-192: all start at 0 *)
Definition pf_metrics_init : pf_metrics := {| pm_domains := 0; pm_prefetches := 0; pm_hits := 0 |}.

(** metrics/metrics_event_publisher.go:131-141: the handlers *)
Definition on_note (p : pf_metrics) (n : pf_note) : pf_metrics :=
  match n with
  | NDomains k => {| pm_domains := k; pm_prefetches := pm_prefetches p; pm_hits := pm_hits p |}
  | NPrefetched => {| pm_domains := pm_domains p; pm_prefetches := (pm_prefetches p + 1)%N; pm_hits := pm_hits p |}
  | NHit => {| pm_domains := pm_domains p; pm_prefetches := pm_prefetches p; pm_hits := (pm_hits p + 1)%N |}
  end.

Section Notes.
Variable packable : msg -> bool.
Variable cfg : caching_cfg.

(** What a lookup of [k] publishes -- cache/expirationcache/prefetching_cache.go:90-98, 105-120; the cache of names
    calls OnPrefetchAfterPut after a Put with a positive time only (cache/expirationcache/expiration_cache.go:143-160) *)
Definition lookup_notes (now : Z) (k : str) (c : pf_state msg) : list pf_note :=
  if cc_prefetching cfg then
    (if (0 <? pf_expires (cc_pf cfg))%Z then [NDomains (length (track (cc_pf cfg) now k (pf_names c)))] else []) ++
    match lru_peek k (pf_cache c) with
    | Some e => if cv_prefetch (el_val e) then [NHit] else []
    | None => []
    end
  else [].

(** The lookup for the next question, if there is one -- resolver/caching_resolver.go:189-195 *)
Definition question_notes (qs : list question) (now : Z) (c : pf_state msg) : list pf_note :=
  match qs with [] => [] | q :: _ => lookup_notes now (question_key q) c end.

(** What a step of the caching resolver publishes -- resolver/caching_resolver.go:102-118 (callbacks), called from
    cache/expirationcache/prefetching_cache.go:73-88 (a prefetch) and :90-120 (a lookup) *)
Definition notes (s : state) (e : event) : list pf_note :=
  match e with
  | EStart id req now =>
      if negb (caching_enabled cfg) || negb (is_request_cacheable req) then []
      else question_notes (m_question (req_msg req)) now (s_cache s)
  | EStore id now =>
      match take_task id (s_tasks s) with
      | Some (t, _) =>
          match tk_phase t with
          | Waiting => []
          | Failed _ => question_notes (tk_rest t) now (s_cache s)
          | Storing m ttl =>
              question_notes (tk_rest t) now
                (match cache_entry packable cfg m ttl with
                 | Some (copy, t') => cache_put cfg now (tk_key t) copy t' (s_cache s)
                 | None => s_cache s
                 end)
          end
      | None => []
      end
  | EReload key r =>
      match reload_result packable cfg r with Some (Some _) => [NPrefetched] | _ => [] end
  | _ => []
  end.

(** A history and its metrics; [emit]: resolver/caching_resolver.go:334-338, true for the cache of the queries and false
    for that of the bootstrap (resolver/caching_resolver.go:57-62, resolver/bootstrap.go:104-105) *)
Fixpoint metrics_run (emit : bool) (s : state) (p : pf_metrics) (es : list event) : option (state * pf_metrics) :=
  match es with
  | [] => Some (s, p)
  | e :: es' =>
      match step packable cfg s e with
      | Some (s', _) => metrics_run emit s' (if emit then fold_left on_note (notes s e) p else p) es'
      | None => None
      end
  end.
End Notes.
