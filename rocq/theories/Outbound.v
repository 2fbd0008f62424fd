(** Everything that is sent for one question: attempts (upstream_resolver.go), upstreams of a group
    (strict_resolver.go, parallel_best_resolver.go) and what a group consists of while it starts (resolver.go).

    Composition of Upstream.v and Connect.v.  The network may be another one at each attempt; the addresses of an
    upstream are those which the lookup gave, whatever they are.  What a cancelled call would have sent is counted as sent. *)
From Coq Require Import String Ascii List Arith Bool NArith ZArith.
From Verif Require Import Str Dns Upstream Connect.
From Verif Require Import ConfUpstream.
Import ListNotations.
Open Scope list_scope.

(** What the environment decides for one call of UpstreamResolver.Resolve (resolver/upstream_resolver.go:328-380): the network
    at each attempt, which transport answers first, the addresses looked up ([] if the lookup failed), whether the client is
    gone before or after an attempt *)
Record circumstances := { ci_net : nat -> network; ci_udp_first : nat -> bool; ci_ips : list ip; ci_dead : bool; ci_done : nat -> bool }.

(** resolver/upstream_resolver.go:328-380 Resolve: what is sent, and the answer; an error is None.  Without addresses there is
    an error before any attempt (331-334) *)
Definition ask_upstream (u : upstream) (agent : str) (p : proto) (m : msg) (c : circumstances) : list sending * option msg :=
  match ci_ips c with
  | [] => ([], None)
  | ips =>
      let one k a := attempt (ci_net c k) u agent p (ci_udp_first c k) m a in
      let '(used, r) := upstream_resolve ips (ci_dead c) (fun k a => snd (one k a)) (ci_done c) in
      (concat (map (fun x => fst (one (fst x) (snd x))) (combine (seq 0 (length used)) used)),
       match r with Some (inl m') => Some m' | _ => None end)
  end.

(** config/config.go:154-156 UpstreamStrategy *)
Inductive strategy := Strict | ParallelBest | Random.

(** What the environment decides for a group: for every upstream (its number) and every try; time, errors so far, random numbers
    and order of arrival for resolver/parallel_best_resolver.go:151-264 *)
Record group_circumstances := { gc_of : nat -> nat -> circumstances; gc_now : Z; gc_errors : nat -> Z; gc_rnd : nat -> N; gc_arrive : list status -> list status }.

(** An answer or an error, for the evaluation of a group (resolver/parallel_best_resolver.go:80-93 requestResponse) *)
Definition outcome (r : option msg) : msg + unit := match r with Some m => inl m | None => inr tt end.

(** The upstream with this number, at this try (resolver/parallel_best_resolver.go:65-93 resolve) *)
Definition ask_nth (us : list upstream) (agent : str) (p : proto) (m : msg) (g : group_circumstances) (try i : nat) : list sending * option msg :=
  match nth_error us i with
  | Some u => ask_upstream u agent p m (gc_of g i try)
  | None => ([], None)
  end.

(** resolver/strict_resolver.go:75-99 and parallel_best_resolver.go:151-230 Resolve: what all upstreams asked send, and the answer; a
    second try happens with the strategy random only (211-230) *)
Definition ask_group (s : strategy) (us : list upstream) (agent : str) (p : proto) (m : msg) (g : group_circumstances) : list sending * option msg :=
  match s with
  | Strict =>
      let '(asked, r) := strict_resolve (map (fun i => (i, outcome (snd (ask_nth us agent p m g 0 i)))) (seq 0 (length us))) in
      (concat (map (fun i => fst (ask_nth us agent p m g 0 i)) asked), r)
  | _ =>
      let random := match s with Random => true | _ => false end in
      let sts := map (fun i => {| st_id := i; st_last_error := gc_errors g i |}) (seq 0 (length us)) in
      let '(r, asked) := parallel_resolve random (gc_now g) sts (gc_rnd g) (gc_arrive g) (fun try st => outcome (snd (ask_nth us agent p m g try (st_id st)))) in
      (concat (map (fun x => fst (ask_nth us agent p m g (if random then fst x else 0) (st_id (snd x)))) (combine (seq 0 (length asked)) asked)),
       match r with GOk m' => Some m' | _ => None end)
  end.

(** What a group asks: one of its upstreams, or the bootstrap DNS as a whole (resolver/strict_resolver.go:30-40,
    parallel_best_resolver.go:95-104) *)
Inductive member := Own (u : upstream) | Boot.

(** The members of a group: the bootstrap DNS until the initialisation has finished (only with "fast" are questions answered
    before), then what init_group says (resolver/resolver.go:234-284) *)
Definition members (s : init_strategy) (test : member -> bool) (finished : bool) (us : list upstream) : option (list member) :=
  if finished then init_group s test Boot (map Own us)
  else match s with InitFast => Some [Boot] | _ => None end.

(** A question to a group at any time: either its own upstreams or the bootstrap DNS alone answer (resolver/resolver.go:234-284).  The
    upstreams of the bootstrap DNS are asked as resolver/bootstrap.go:70-98 says: strict is no strategy for them.  Its filter and its
    cache are left out: because of them less may be sent. *)
Definition ask_members (s : strategy) (ms : list member) (boot : list upstream) (agent : str) (p : proto) (m : msg) (g : group_circumstances)
  : list sending * option msg :=
  match ms with
  | [Boot] => ask_group (match s with Random => Random | _ => ParallelBest end) boot agent p m g
  | _ => ask_group s (flat_map (fun x => match x with Own u => [u] | Boot => [] end) ms) agent p m g
  end.
