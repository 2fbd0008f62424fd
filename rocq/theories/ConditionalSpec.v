(** Specification of the conditional upstream resolver. *)
From Coq Require Import String Ascii List Arith Bool NArith.
From Verif Require Import Str StringCacheSpec Dns Resolver CachingSpec Blocking BlockingSpec.
Import ListNotations.

Section Spec.
Context {U : Type}.
Variable mapping : list (str * U).

(** The upstreams [u] are configured for the zone [z] (in lower case). *)
Definition zone_upstream (z : str) (u : U) : Prop := exists z0, In (z0, u) mapping /\ lowered z0 z.

(** No two configured zones are equal up to letter case. *)
Definition distinct_zones : Prop :=
  forall i j z0 u z1 u' z, nth_error mapping i = Some (z0, u) -> nth_error mapping j = Some (z1, u') ->
    lowered z0 z -> lowered z1 z -> i = j.

(** [z] is a configured zone that is the name [n] or a parent of it. *)
Definition zone_covers (n z : str) : Prop := z <> [] /\ (exists u, zone_upstream z u) /\ same_or_sub n z.

(** The upstreams responsible for the name [n] (lower case, without final dot). *)
Definition responsible (n : str) (u : U) : Prop :=
  (In "."%char n /\ exists z, zone_covers n z /\ zone_upstream z u /\ forall z', zone_covers n z' -> length z' <= length z) \/
  (~ In "."%char n /\ zone_upstream $"." u).

(** [req'] is [req] with the name of its first question in lower case with final dot. *)
Definition normalised (req req' : request) (n : str) : Prop :=
  exists q qs, m_question (req_msg req) = q :: qs /\
    req' = set_req_msg (set_question ({| q_name := fqdn n; q_type := q_type q; q_class := q_class q |} :: qs) (req_msg req)) req.

(** [r'] is the upstream response [r], marked as conditional, with the (normalised) name
    in its question. *)
Definition marked (n : str) (r r' : response) : Prop :=
  rs_type r' = CONDITIONAL /\
  exists m m', rs_msg r = Some m /\ rs_msg r' = Some m' /\
    m' = set_question (m_question m') m /\
    match m_question m with
    | [] => m_question m' = []
    | q :: qs => m_question m' = {| q_name := fqdn n; q_type := q_type q; q_class := q_class q |} :: qs
    end.
End Spec.
