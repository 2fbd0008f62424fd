(** Model of the metrics: the handlers of metrics/metrics_event_publisher.go, the places that publish
    the events, and the counters of resolver/metrics_resolver.go.

    The event bus calls the handlers in the goroutine that publishes (a dependency); an increment or
    assignment of a counter or gauge is atomic (prometheus).  Numbers are exact: the code keeps them as
    float64, which is exact up to 2^53. *)
From Coq Require Import String Ascii List Arith Bool NArith ZArith.
From Verif Require StringCache.
From Verif Require Import Str Dns Resolver Caching Blocking Chain ExpCache.
Import ListNotations.

(** ** blocky_blocking_enabled *)

(** What a step of the status publishes: resolver/blocking_resolver.go:236 (commands, messages of peers and the
    timer) and 277 (after the check of the groups), both while the lock of the status is held *)
Definition blk_published (cfg : blk_cfg) (s : blk_state) (e : blk_event) : list bool :=
  match e with
  | BEnable | BCallback => [true]
  | BDisable d gs now => if snd (internal_disable cfg d gs now s) then [false] else []
  | BFire _ => []
  end.

(** metrics/metrics_event_publisher.go:46-52, the handler *)
Definition on_enabled (gauge : N) (b : bool) : N := if b then 1%N else 0%N.

(** metrics/metrics_event_publisher.go:76-84 enabledGauge: the first value *)
Definition enabled_gauge_init : N := 1.

(** The status and the gauge along a history -- resolver/blocking_resolver.go:220-312 with
    metrics/metrics_event_publisher.go:46-52 *)
Fixpoint gauge_run (cfg : blk_cfg) (s : blk_state) (gauge : N) (es : list blk_event) : option (blk_state * N) :=
  match es with
  | [] => Some (s, gauge)
  | e :: es' =>
      match blk_step cfg s e with
      | Some (s', _) => gauge_run cfg s' (fold_left on_enabled (blk_published cfg s e) gauge) es'
      | None => None
      end
  end.

(** ** blocky_denylist_cache_entries, blocky_allowlist_cache_entries *)

(** The goroutine that refreshes one group -- lists/list_cache.go:126-155: it loads (line 127), reads the
    number of entries (line 145), publishes it (line 147). *)
Inductive list_job :=
| JLoading (g : str)
| JLoaded (g : str)
| JCounted (g : str) (n : nat)
| JDone.

(** The lists of one type (lists/list_cache.go:38-47), the goroutines that refresh them, the gauge of the type, and
    the time of the last refresh in seconds (metrics/metrics_event_publisher.go:54-58) *)
Record lists_state := {
  ls_cache : StringCache.chained; ls_jobs : list list_job; ls_gauge : list (str * nat); ls_time : option Z }.

(** lists/list_cache.go:71-90: new lists; metrics/metrics_event_publisher.go:54-62: no values *)
Definition lists_init : lists_state :=
  {| ls_cache := StringCache.new_list_cache; ls_jobs := []; ls_gauge := []; ls_time := None |}.

(** Steps of the goroutines of lists/list_cache.go:116-159.  [LLoad]: createCacheForGroup gets to its end with these
    entries; the replacement of the group and the reading of its number of entries are each one step (the code goes
    through the three parts of the cache one after the other, chained_grouped_cache.go:19-26, 78-82). *)
Inductive lists_op :=
| LStart (g : str)
| LLoad (i : nat) (es : list str) (err : StringCache.load_err)
| LCount (i : nat)
| LPublish (i : nat) (now : Z).

(** The i-th goroutine goes on -- lists/list_cache.go:126-155 *)
Definition set_job (i : nat) (j : list_job) (l : list list_job) : list list_job := firstn i l ++ j :: skipn (S i) l.

Section Compile.
(** regexp.Compile, as in StringCache.v *)
Variable compile : str -> option (str -> bool).

(** One step; None: not possible, or a panic while loading -- lists/list_cache.go:126-155,
    metrics/metrics_event_publisher.go:64-73 *)
Definition lists_step (s : lists_state) (o : lists_op) : option lists_state :=
  match o with
  | LStart g =>
      Some {| ls_cache := ls_cache s; ls_jobs := ls_jobs s ++ [JLoading g]; ls_gauge := ls_gauge s; ls_time := ls_time s |}
  | LLoad i es err =>
      match nth_error (ls_jobs s) i with
      | Some (JLoading g) =>
          match StringCache.create_cache_for_group compile (ls_cache s) g es err with
          | StringCache.Panic => None
          | StringCache.Ok (c, failed) =>
              Some {| ls_cache := c; ls_jobs := set_job i (if failed then JDone else JLoaded g) (ls_jobs s);
                      ls_gauge := ls_gauge s; ls_time := ls_time s |}
          end
      | _ => None
      end
  | LCount i =>
      match nth_error (ls_jobs s) i with
      | Some (JLoaded g) =>
          Some {| ls_cache := ls_cache s; ls_jobs := set_job i (JCounted g (StringCache.c_element_count (ls_cache s) g)) (ls_jobs s);
                  ls_gauge := ls_gauge s; ls_time := ls_time s |}
      | _ => None
      end
  | LPublish i now =>
      match nth_error (ls_jobs s) i with
      | Some (JCounted g n) =>
          Some {| ls_cache := ls_cache s; ls_jobs := set_job i JDone (ls_jobs s);
                  ls_gauge := mput str_eqb g n (ls_gauge s); ls_time := Some now |}
      | _ => None
      end
  end.

(** A history -- steps of lists/list_cache.go:116-159 *)
Fixpoint lists_run (s : lists_state) (ops : list lists_op) : option lists_state :=
  match ops with
  | [] => Some s
  | o :: ops' => match lists_step s o with Some s' => lists_run s' ops' | None => None end
  end.
End Compile.

(** ** blocky_cache_entries, blocky_cache_hits_total, blocky_cache_misses_total *)
Section Entries.
Context {T : Type}.

(** Whether a step of the cache adds an element and so calls onAfterPut -- cache/expirationcache/expiration_cache.go:143-160;
    the clean-up calls Put at line 131 *)
Definition adds (o : op T) : bool :=
  match o with
  | OPut _ _ ttl _ => (0 <? ttl)%Z
  | OCleanHandle _ (Some (_, ttl)) _ => (0 <? ttl)%Z
  | _ => false
  end.

(** A call of Put after lru.Add: Len and the callback follow -- cache/expirationcache/expiration_cache.go:157-159 *)
Inductive put_job := PAdded | PCounted (n : nat) | PDone.

(** Two caches share the counters: that of the queries, which publishes its size, and that of the bootstrap, which
    does not -- resolver/caching_resolver.go:27-40, 87-100, 334-338, resolver/bootstrap.go:104-105 *)
Record entries_state := {
  es_main : cstate T; es_boot : cstate T; es_puts : list put_job;
  es_gauge : nat; es_hits : N; es_misses : N }.

(** resolver/caching_resolver.go:27-40, metrics/metrics_event_publisher.go:176-183: zeros *)
Definition entries_init : entries_state :=
  {| es_main := init; es_boot := init; es_puts := []; es_gauge := 0; es_hits := 0; es_misses := 0 |}.

(** Steps of cache/expirationcache/expiration_cache.go:113-195 in both caches, and of the callbacks of the first *)
Inductive entries_op :=
| EMain (o : op T)
| EBoot (o : op T)
| ELen (i : nat)         (* expiration_cache.go:158, the argument *)
| EPublish (i : nat).    (* expiration_cache.go:158, the call *)

(** resolver/caching_resolver.go:91-96, called in cache/expirationcache/expiration_cache.go:162-174 *)
Definition count_get (r : out T) (hits misses : N) : N * N :=
  match r with
  | RGet (Some _) => (hits + 1, misses)%N
  | RGet None => (hits, misses + 1)%N
  | _ => (hits, misses)
  end.

(** The i-th call of Put goes on -- cache/expirationcache/expiration_cache.go:157-159 *)
Definition set_put (i : nat) (j : put_job) (l : list put_job) : list put_job := firstn i l ++ j :: skipn (S i) l.

(** One step; None: not possible -- cache/expirationcache/expiration_cache.go:113-195, resolver/caching_resolver.go:87-100,
    334-345, metrics/metrics_event_publisher.go:142-144.  Clear and the removals of the clean-up publish nothing. *)
Definition entries_step (size bsize : nat) (s : entries_state) (o : entries_op) : option entries_state :=
  match o with
  | EMain o =>
      match step size (es_main s) o with
      | None => None
      | Some (m, r) =>
          let '(h, ms) := count_get r (es_hits s) (es_misses s) in
          Some {| es_main := m; es_boot := es_boot s; es_puts := if adds o then es_puts s ++ [PAdded] else es_puts s;
                  es_gauge := es_gauge s; es_hits := h; es_misses := ms |}
      end
  | EBoot o =>
      match step bsize (es_boot s) o with
      | None => None
      | Some (m, r) =>
          let '(h, ms) := count_get r (es_hits s) (es_misses s) in
          Some {| es_main := es_main s; es_boot := m; es_puts := es_puts s;
                  es_gauge := es_gauge s; es_hits := h; es_misses := ms |}
      end
  | ELen i =>
      match nth_error (es_puts s) i with
      | Some PAdded =>
          Some {| es_main := es_main s; es_boot := es_boot s; es_puts := set_put i (PCounted (length (st_lru (es_main s)))) (es_puts s);
                  es_gauge := es_gauge s; es_hits := es_hits s; es_misses := es_misses s |}
      | _ => None
      end
  | EPublish i =>
      match nth_error (es_puts s) i with
      | Some (PCounted n) =>
          Some {| es_main := es_main s; es_boot := es_boot s; es_puts := set_put i PDone (es_puts s);
                  es_gauge := n; es_hits := es_hits s; es_misses := es_misses s |}
      | _ => None
      end
  end.

(** A history -- steps of cache/expirationcache/expiration_cache.go:113-195 *)
Fixpoint entries_run (size bsize : nat) (s : entries_state) (ops : list entries_op) : option entries_state :=
  match ops with
  | [] => Some s
  | o :: ops' => match entries_step size bsize s o with Some s' => entries_run size bsize s' ops' | None => None end
  end.
End Entries.
Arguments entries_state : clear implicits. Arguments entries_op : clear implicits.

(** ** blocky_query_total, blocky_response_total, blocky_error_total, blocky_request_duration_seconds *)

(** The texts of the labels: dns.TypeToString, dns.RcodeToString, ResponseType.String -- resolver/metrics_resolver.go:39, 46, 56-57 *)
Record label_texts := { lt_type : N -> str; lt_rcode : N -> str; lt_rtype : rtype -> str }.

(** Calls of Inc and Observe, with the labels -- resolver/metrics_resolver.go:37-58 *)
Inductive increment :=
| IQuery (client type : str)
| IDuration (rt : str)
| IError
| IResponse (reason rcode rt : str).

(** resolver/metrics_resolver.go:33-63: what one call of Resolve counts, in order; [o] is what the next resolver gives, None: it
    panics.  A panic in between leaves what was counted before: labels that are not UTF-8 (line 37), a response
    without message (line 56). *)
Definition metrics_counted (L : label_texts) (enable : bool) (req : request) (o : option result) : list increment :=
  match o with
  | None => []
  | Some res =>
      if enable then
        match m_question (req_msg req) with
        | [] => []
        | q :: _ =>
            if utf8_string (client_label req) then
              IQuery (client_label req) (lt_type L (q_type q))
              :: IDuration (match res with Ok r => lt_rtype L (rs_type r) | Err _ => $"err" end)
              :: match res with
                 | Err _ => [IError]
                 | Ok r => match rs_msg r with
                           | Some m => [IResponse (rs_reason r) (lt_rcode L (m_rcode m)) (lt_rtype L (rs_type r))]
                           | None => []
                           end
                 end
            else []
        end
      else []
  end.

(** Label sets, by their values in the order of the code -- resolver/metrics_resolver.go:37-40, 49, 54-58 *)
Fixpoint labels_eqb (a b : list str) : bool :=
  match a, b with
  | [], [] => true
  | x :: a', y :: b' => str_eqb x y && labels_eqb a' b'
  | _, _ => false
  end.

(** prometheus.CounterVec and Counter, the observations of HistogramVec -- resolver/metrics_resolver.go:26-29; a label
    set without value has not been used *)
Record counters := {
  ct_queries : list (list str * N); ct_durations : list (list str * N); ct_errors : N; ct_responses : list (list str * N) }.

(** resolver/metrics_resolver.go:66-75: new counters *)
Definition counters_init : counters := {| ct_queries := []; ct_durations := []; ct_errors := 0; ct_responses := [] |}.

(** Increment the counter of a label set -- CounterVec.With(...).Inc(), resolver/metrics_resolver.go:37-40, 49, 54-58 *)
Definition bump (k : list str) (m : list (list str * N)) : list (list str * N) :=
  mput labels_eqb k (match mget labels_eqb k m with Some n => (n + 1)%N | None => 1%N end) m.

(** One call of Inc or Observe -- resolver/metrics_resolver.go:37-58 *)
Definition count (c : counters) (i : increment) : counters :=
  match i with
  | IQuery cl t =>
      {| ct_queries := bump [cl; t] (ct_queries c); ct_durations := ct_durations c; ct_errors := ct_errors c; ct_responses := ct_responses c |}
  | IDuration rt =>
      {| ct_queries := ct_queries c; ct_durations := bump [rt] (ct_durations c); ct_errors := ct_errors c; ct_responses := ct_responses c |}
  | IError =>
      {| ct_queries := ct_queries c; ct_durations := ct_durations c; ct_errors := (ct_errors c + 1)%N; ct_responses := ct_responses c |}
  | IResponse re rc rt =>
      {| ct_queries := ct_queries c; ct_durations := ct_durations c; ct_errors := ct_errors c; ct_responses := bump [re; rc; rt] (ct_responses c) |}
  end.

(** The value shown for a label set -- resolver/metrics_resolver.go:37-40, 54-58; not shown when not used *)
Definition shown (m : list (list str * N)) (l : list str) : N := match mget labels_eqb l m with Some n => n | None => 0%N end.

(** Goroutines that count, in any order: each has a list of increments; [is] tells which one goes on -- calls of
    resolver/metrics_resolver.go:33-63 *)
Fixpoint count_run (jobs : list (list increment)) (c : counters) (is : list nat) : option (list (list increment) * counters) :=
  match is with
  | [] => Some (jobs, c)
  | i :: is' =>
      match nth_error jobs i with
      | Some (x :: rest) => count_run (firstn i jobs ++ rest :: skipn (S i) jobs) (count c x) is'
      | _ => None
      end
  end.

(** What a query counts on its way through the chain: the calls of the metrics resolver, and the rest of the chain behind
    it -- server/server.go:315-332, resolver/metrics_resolver.go:33-63 *)
Definition query_counted {U} (L : label_texts) (w : world U) (req : request) : list increment :=
  flat_map (fun p => match fst p with
                     | SMetrics => metrics_counted L (w_metrics w) (snd p) (chain (map snd (skipn 7 (query_resolvers w))) (w_upstream w) (snd p))
                     | _ => []
                     end) (query_calls w req).
