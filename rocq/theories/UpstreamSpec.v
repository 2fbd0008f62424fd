(** Specification of the upstream resolvers. *)
From Coq Require Import String Ascii List Arith Bool NArith ZArith.
From Verif Require Import Str Dns Upstream.
Import ListNotations.

(** ** Strict *)
(** [asked] and [res] are right for the upstreams [us]: all before the first that answers fail, and
    nobody after it is asked. *)
Inductive first_answer {U R E : Type} (us : list (U * (R + E))) : list U -> option R -> Prop :=
| fa_found pre u r post : us = pre ++ (u, inl r) :: post -> (forall x, In x pre -> exists e, snd x = inr e) ->
    first_answer us (map fst pre ++ [u]) (Some r)
| fa_none : (forall x, In x us -> exists e, snd x = inr e) -> first_answer us (map fst us) None.

(** ** Retries *)
(** The outcome of the attempts [used] (addresses) with final result [res]. *)
Definition tried (ips : list ip) (call : nat -> ip -> exchange) (done : nat -> bool) (used : list ip) (res : exchange) : Prop :=
  1 <= length used <= 3 /\
  (* the addresses in rotation *)
  (forall i, i < length used -> nth_error used i = nth_error ips (i mod length ips)) /\
  (* every attempt but the last timed out, and the client was still waiting *)
  (forall i a, S i < length used -> nth_error used i = Some a -> call i a = inr CTimeout /\ done i = false) /\
  (* the last attempt *)
  exists a, nth_error used (length used - 1) = Some a /\
    ((call (length used - 1) a <> inr CTimeout /\ res = call (length used - 1) a) \/
     (call (length used - 1) a = inr CTimeout /\ length used = 3 /\ res = inr CTimeout) \/
     (call (length used - 1) a = inr CTimeout /\ length used < 3 /\ done (length used - 1) = true /\ exists e, res = inr (COther e))).

(** ** The race of UDP and TCP *)
Definition is_answer (x : exchange) (m : msg) : Prop := x = inl m /\ m_rcode m <> 2%N.
Definition whole (x : exchange) (m : msg) : Prop := is_answer x m /\ m_tc m = false.
Definition is_failure (x : exchange) (e : call_err) : Prop :=
  (x = inr e) \/ exists m, x = inl m /\ m_rcode m = 2%N /\ e = CServFail m.

(** The result [r] of asking over two transports; [x] arrives before [y], [own] is the outcome over the
    transport of the client. *)
Inductive race_result (x y own : exchange) : exchange -> Prop :=
| rr_first m : whole x m -> race_result x y own (inl m)
| rr_second m : (forall m', ~ whole x m') -> whole y m -> race_result x y own (inl m)
| rr_cut m : (forall m', ~ whole x m') -> (forall m', ~ whole y m') -> is_answer x m -> race_result x y own (inl m)
| rr_cut2 m e : is_failure x e -> (forall m', ~ whole y m') -> is_answer y m -> race_result x y own (inl m)
| rr_none e e1 e2 : is_failure x e1 -> is_failure y e2 -> is_failure own e -> race_result x y own (inr e).

(** ** Addresses of a host *)
Definition record_addr (x : rr) (a : ip) : Prop := rr_data x = DA a \/ rr_data x = DAAAA a.
(** The addresses that a successful answer [m] carries, in order. *)
Inductive addrs_of : list rr -> list ip -> Prop :=
| ao_nil : addrs_of [] []
| ao_addr x a l ips : record_addr x a -> addrs_of l ips -> addrs_of (x :: l) (a :: ips)
| ao_skip x l ips : (forall a, ~ record_addr x a) -> addrs_of l ips -> addrs_of (x :: l) ips.
