(** Model of the upstream resolvers: /repo/resolver/strict_resolver.go,
    parallel_best_resolver.go, upstream_resolver.go, bootstrap.go and the start-up of
    upstream groups in resolver.go.

    The network is given by functions: what an upstream would answer when asked.
    Logging and the text of errors are not modelled. *)
From Coq Require Import String Ascii List Arith Bool NArith ZArith.
From Verif Require Import Str Dns Resolver.
Import ListNotations.

(** ** Strict strategy *)

(** strict_resolver.go:75-99 Resolve: the upstreams asked, in order, and the result (None:
    the error "no resolver returned an answer in time").  Every upstream comes with what it
    would answer if asked: a response, or an error of type [E]. *)
Fixpoint strict_resolve {U R E : Type} (us : list (U * (R + E))) : list U * option R :=
  match us with
  | [] => ([], None)
  | (u, inl r) :: _ => ([u], Some r)
  | (u, inr _) :: us' => let '(asked, res) := strict_resolve us' in (u :: asked, res)
  end.

(** ** Parallel and random strategies *)

(** parallel_best_resolver.go:39-42 upstreamResolverStatus: identity of the resolver and time
    of the last error (nanoseconds since 1970) *)
Record status := { st_id : nat; st_last_error : Z }.

(** parallel_best_resolver.go:65-77 resolve: the new status after a call at [now] that
    failed ([failed]), possibly because it was cancelled *)
Definition note_result (now : Z) (failed cancelled : bool) (s : status) : status :=
  if failed && negb cancelled then {| st_id := st_id s; st_last_error := now |} else s.

(** parallel_best_resolver.go:255-261: 60, or the minutes since the last error (at least 1)
    when that is less than an hour ago.  The code computes with floating point numbers; the
    model has the exact value, truncated. *)
Definition weight (now : Z) (s : status) : N :=
  let since := (now - st_last_error s)%Z in
  if (since <? 3600000000000)%Z then Z.to_N (Z.max 1 (since / 60000000000)) else 60%N.

(** parallel_best_resolver.go:247-264 the choices *)
Definition choices (now : Z) (sts excluded : list status) : list (status * N) :=
  map (fun s => (s, weight now s)) (filter (fun s => negb (existsb (fun x => st_id x =? st_id s) excluded)) sts).

(** github.com/mroth/weightedrand v2: total weight; the item in whose range the random number
    [r], 0 <= r < total, falls (the library first sorts the items by weight, which only
    changes the places of the ranges) -- resolver/parallel_best_resolver.go:242-276 *)
Definition total_weight {A} (cs : list (A * N)) : N := fold_right (fun c n => (snd c + n)%N) 0%N cs.
(** weightedrand Chooser.Pick for the random number r (resolver/parallel_best_resolver.go:242-276) *)
Fixpoint pick_range {A} (cs : list (A * N)) (r : N) : option A :=
  match cs with
  | [] => None
  | (a, w) :: cs' => if (r <? w)%N then Some a else pick_range cs' (r - w)
  end.

(** parallel_best_resolver.go:242-276 weightedRandom.  [r] is the random number.  NewChooser
    fails when there is no choice with a positive weight (the overflow of the total weight is
    not modelled); None: panic (division by zero, no choice at all). *)
Definition weighted_random (now : Z) (sts excluded : list status) (r : N) : option status :=
  let cs := choices now sts excluded in
  if (total_weight cs =? 0)%N then
    match cs with [] => None | _ => nth_error (map fst cs) (N.to_nat (r mod N.of_nat (length cs))) end
  else pick_range cs (r mod total_weight cs).

(** parallel_best_resolver.go:232-240 pickRandom; [rnd] gives the random numbers *)
Fixpoint pick_random (now : Z) (sts : list status) (count : nat) (rnd : nat -> N) (chosen : list status) : option (list status) :=
  match count with
  | O => Some chosen
  | S n =>
      match weighted_random now sts chosen (rnd (length chosen)) with
      | Some s => pick_random now sts n rnd (chosen ++ [s])
      | None => None
      end
  end.

(** parallel_best_resolver.go:187-209 evaluateResponses: [arrivals] are the results in the
    order in which they come out of the channel, [n] the number of resolvers asked, [errs] the
    number of errors so far; None: only errors *)
Fixpoint evaluate {R E : Type} (n errs : nat) (arrivals : list (R + E)) : option R :=
  if errs <? n then
    match arrivals with
    | [] => None
    | inl r :: _ => Some r
    | inr _ :: arrivals' => evaluate n (S errs) arrivals'
    end
  else None.

(** Result of a group of upstreams. -- resolver/parallel_best_resolver.go:151-230, strict_resolver.go:75-99 *)
Inductive group_result (R : Type) := GCrash | GOk (r : R) | GFail.
Arguments GCrash {R}. Arguments GOk {R}. Arguments GFail {R}.

(** parallel_best_resolver.go:151-185 Resolve, 211-230 retryWithDifferent.  [random] is the
    strategy "random" (newParallelBestResolver 106-130: one resolver and a retry instead of
    two resolvers); [out k s] what resolver [s] answers at the k-th try; [arrive] the order in
    which the answers of the resolvers come.  Also returned: the resolvers asked. *)
Definition parallel_resolve {R E : Type} (random : bool) (now : Z) (sts : list status) (rnd : nat -> N)
  (arrive : list status -> list status) (out : nat -> status -> R + E) : group_result R * list status :=
  match sts with
  | [s] => (match out 0 s with inl r => GOk r | inr _ => GFail end, [s])
  | _ =>
      match pick_random now sts (if random then 1 else 2) rnd [] with
      | None => (GCrash, [])
      | Some chosen =>
          match evaluate (length chosen) 0 (map (out 0) (arrive chosen)) with
          | Some r => (GOk r, chosen)
          | None =>
              if negb random then (GFail, chosen)
              else
                match weighted_random now sts chosen (rnd (length chosen)) with
                | None => (GCrash, chosen)
                | Some s => (match out 1 s with inl r => GOk r | inr _ => GFail end, chosen ++ [s])
                end
          end
      end
  end.

(** ** A single upstream *)

(** Errors: a timeout (upstream_resolver.go:396-400 isTimeout), a SERVFAIL message
    (UpstreamServerError, 31-38), any other error *)
Inductive call_err := CTimeout | CServFail (m : msg) | COther (e : str).

(** An exchange over one transport: what came back. -- resolver/upstream_resolver.go:206-268 *)
Definition exchange := (msg + call_err)%type.

(** upstream_resolver.go:223-231: SERVFAIL is turned into an error *)
Definition check_servfail (x : exchange) : exchange :=
  match x with
  | inl m => if (m_rcode m =? rcode_servfail)%N then inr (CServFail m) else x
  | inr e => x
  end.

(** Complete answer. -- resolver/upstream_resolver.go:206-268 *)
Definition complete (x : exchange) : bool := match x with inl m => negb (m_tc m) | inr _ => false end.
(** the exchange returned an error (resolver/upstream_resolver.go:206-268) *)
Definition failed (x : exchange) : bool := match x with inl _ => false | inr _ => true end.

(** upstream_resolver.go:213-268 raceClients: [first], [second] are the results in the order
    of arrival, after [check_servfail], with their transport; [p] is the protocol of the
    client.  Cancelling the slower transport is not modelled (its result is not used). *)
Definition race_clients (p : proto) (first second : proto * exchange) : exchange :=
  if complete (snd first) then snd first
  else if complete (snd second) then snd second
  else if failed (snd first) && failed (snd second) then
    match fst first, p with
    | TCP, TCP | UDP, UDP => snd first
    | _, _ => snd second
    end
  else if failed (snd first) then snd second else snd first.

(** An HTTP response: status code, content-type header, and the DNS message in its body (None:
    the body cannot be read or unpacked). -- resolver/upstream_resolver.go:140-190 *)
Record http_reply := { hr_status : N; hr_type : str; hr_body : option msg }.

(** upstream_resolver.go:140-190 httpUpstreamClient.callExternal; [reply] is the outcome of the HTTP
    request *)
Definition https_call (reply : http_reply + call_err) : exchange :=
  match reply with
  | inr e => inr e
  | inl h =>
      if negb (hr_status h =? 200)%N then inr (COther $"http return code")
      else if negb (str_eqb (hr_type h) $"application/dns-message") then inr (COther $"content type")
      else match hr_body h with Some m => inl m | None => inr (COther $"can't unpack message") end
  end.

(** config/upstream.go NetProtocol: tcp+udp, tcp-tls, https *)
Inductive net_protocol := TcpUdp | TcpTls | Https.

(** upstream_resolver.go:89-134 createUpstreamClient, 140-190 and 196-204 callExternal: [tcp]
    and [udp] what the server answers over each transport ([tcp] also: over TLS),
    [web] the outcome over HTTPS, [udp_first] the order of arrival *)
Definition call_external (n : net_protocol) (p : proto) (udp_first : bool) (tcp udp : exchange) (web : http_reply + call_err) : exchange :=
  match n with
  | TcpUdp =>
      if udp_first then race_clients p (UDP, check_servfail udp) (TCP, check_servfail tcp)
      else race_clients p (TCP, check_servfail tcp) (UDP, check_servfail udp)
  | TcpTls => tcp
  | Https => https_call web
  end.

(** bootstrap.go:326-348 IPSet: the addresses and an index.  Next reads the index twice and
    then writes it with compare-and-swap: three atomic steps. *)
Definition ip_current (ips : list ip) (idx : nat) : option ip := nth_error ips idx.
(** resolver/bootstrap.go:326-348: the next index *)
Definition ip_next (ips : list ip) (idx : nat) : nat := (idx + 1) mod length ips.

(** Concurrent calls of Next, each at one of its steps. -- resolver/bootstrap.go:326-348 *)
Inductive next_call := NStart | NRead (old : nat) | NRead2 (old new : nat) | NDone.
(** One step of Next (resolver/bootstrap.go:326-348) *)
Definition next_step (ips : list ip) (idx : nat) (c : next_call) : nat * next_call :=
  match c with
  | NStart => (idx, NRead idx)
  | NRead old => (idx, NRead2 old (ip_next ips idx))
  | NRead2 old new => (if idx =? old then new else idx, NDone)
  | NDone => (idx, NDone)
  end.

(** Replace the k-th element. -- list update for the calls of resolver/bootstrap.go:326-348 *)
Fixpoint set_nth {A} (k : nat) (x : A) (l : list A) : list A :=
  match l, k with
  | [], _ => []
  | _ :: l', O => x :: l'
  | y :: l', S k' => y :: set_nth k' x l'
  end.

(** One step of the [k]-th call. -- resolver/bootstrap.go:326-348 *)
Definition ipset_step (ips : list ip) (s : nat * list next_call) (k : nat) : nat * list next_call :=
  match nth_error (snd s) k with
  | Some c => let '(idx, c') := next_step ips (fst s) c in (idx, set_nth k c' (snd s))
  | None => s
  end.

(** upstream_resolver.go:328-380 Resolve with avast/retry-go v4.6.1 (Attempts 3, RetryIf isTimeout,
    OnRetry: Next, LastErrorOnly).  [call k a] is the result of the k-th attempt with address
    [a], [done k] tells whether the context of the caller is finished after the k-th attempt.
    Also returned: the addresses used.  [left] is the number of attempts left; None: panic
    (index out of range). *)
Fixpoint attempts (left k : nat) (ips : list ip) (idx : nat) (call : nat -> ip -> exchange) (done : nat -> bool)
  : list ip * option exchange :=
  match ip_current ips idx with
  | None => ([], None)
  | Some a =>
      match call k a with
      | inr CTimeout =>
          match left with
          | S (S _ as left') =>
              if done k then ([a], Some (inr (COther $"context done")))
              else let '(used, r) := attempts left' (S k) ips (ip_next ips idx) call done in (a :: used, r)
          | _ => ([a], Some (inr CTimeout))
          end
      | r => ([a], Some r)
      end
  end.
(** upstream_resolver.go:27 retryAttempts; [dead]: the context of the caller is finished before
    the first attempt *)
Definition upstream_resolve (ips : list ip) (dead : bool) (call : nat -> ip -> exchange) (done : nat -> bool)
  : list ip * option exchange :=
  if dead then ([], Some (inr (COther $"context done"))) else attempts 3 0 ips 0 call done.

(** ** Addresses of an upstream *)

(** bootstrap.go:231-262 resolveType; [parse_ip] is net.ParseIP, [res] the bootstrap resolver's
    result for the question; None: panic (response without message) *)
Definition resolve_type (parsed : option ip) (res : result) : option (list ip + str) :=
  match parsed with
  | Some i => Some (inl [i])
  | None =>
      match res with
      | Err e => Some (inr e)
      | Ok r =>
          match rs_msg r with
          | None => None
          | Some m =>
              if negb (m_rcode m =? rcode_success)%N then Some (inl [])
              else Some (inl (flat_map (fun x => match rr_data x with DA a | DAAAA a => [a] | _ => [] end) (m_answer m)))
          end
      end
  end.

(** bootstrap.go:210-229 resolve, over the results for the types asked; the error is only a flag *)
Fixpoint resolve_types (parsed : option ip) (rs : list result) (acc : list ip) (err : bool) : option (list ip + unit) :=
  match rs with
  | [] =>
      if err then Some (inr tt)
      else match acc with [] => Some (inr tt) | _ => Some (inl acc) end
  | r :: rs' =>
      match resolve_type parsed r with
      | None => None
      | Some (inl l) => resolve_types parsed rs' (acc ++ l) err
      | Some (inr _) => resolve_types parsed rs' acc true
      end
  end.

(** config/config.go:71-82 IPVersion.QTypes *)
Inductive ip_version := Dual | V4 | V6.
(** config/config.go:71-82 IPVersion.QTypes: the record types *)
Definition qtypes (v : ip_version) : list N :=
  match v with Dual => [type_A; type_AAAA] | V4 => [type_A] | V6 => [type_AAAA] end.

(** bootstrap.go:125-155 UpstreamIPs and resolveUpstream: [parsed] is net.ParseIP of the host,
    [fixed] the addresses configured for a bootstrap upstream, [system] the result of the
    system resolver, used when there is no bootstrap resolver *)
Definition upstream_ips (parsed : option ip) (fixed : option (list ip)) (bootstrap : option (N -> result))
  (system : list ip + unit) (v : ip_version) : option (list ip + unit) :=
  match parsed with
  | Some i => Some (inl [i])
  | None =>
      match fixed with
      | Some ips => Some (inl ips)
      | None =>
          match bootstrap with
          | None => Some system
          | Some f => resolve_types None (map f (qtypes v)) [] false
          end
      end
  end.

(** bootstrap.go:165-207 dialContext: the types looked up.  [net4], [net6]: the network name ends
    in 4, 6 *)
Definition dial_types (v : ip_version) (net4 net6 : bool) : list N :=
  match v with
  | Dual => if net4 then qtypes V4 else if net6 then qtypes V6 else qtypes Dual
  | _ => qtypes v
  end.
(** The address connected to, for the random number [r]; None: no address (error), Some None: panic. -- resolver/bootstrap.go:165-208 *)
Definition dial_ip (parsed : option ip) (f : N -> result) (v : ip_version) (net4 net6 : bool) (r : nat) : option (option ip) :=
  match resolve_types parsed (map f (dial_types v net4 net6)) [] false with
  | None => Some None
  | Some (inr _) => None
  | Some (inl ips) => Some (nth_error ips (r mod length ips))
  end.

(** ** Start-up of a group *)

(** config/config.go:115-120 InitStrategy *)
Inductive init_strategy := InitBlocking | InitFailOnError | InitFast.

(** config/config.go:122-148 Do, for an initialisation that succeeds or not ([ok]; a panic counts as an
    error): does Do return an error? *)
Definition do_init (s : init_strategy) (ok : bool) : bool :=
  match s with
  | InitFast => false
  | InitBlocking => false
  | InitFailOnError => negb ok
  end.

(** resolver.go:264-284 createGroupResolvers with upstream_resolver.go:271-288 NewUpstreamResolver: the
    upstreams kept; [test u]: the test query of [u] succeeds; None: error *)
Definition create_group {U} (s : init_strategy) (test : U -> bool) (us : list U) : option (list U) :=
  match filter (fun u => negb (do_init s (test u))) us with
  | [] => None
  | l => Some l
  end.

(** resolver.go:234-262 initGroupResolvers: None when it fails, else the resolvers used once the
    initialisation has finished ([bootstrap] if it failed).  With "fast" they are [bootstrap]
    until then. *)
Definition init_group {U} (s : init_strategy) (test : U -> bool) (bootstrap : U) (us : list U) : option (list U) :=
  let created := create_group s test us in
  if do_init s (match created with Some _ => true | None => false end) then None
  else Some (match created with Some l => l | None => [bootstrap] end).
