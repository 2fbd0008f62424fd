(** Specification of the rewriter. *)
From Coq Require Import String Ascii List Arith Bool NArith.
From Verif Require Import Str Dns Resolver CachingSpec Blocking BlockingSpec.
Import ListNotations.

Section Spec.
(** the configured rules *)
Variable rules : list (str * str).

(** No two rules have the same left side, up to letter case. *)
Definition distinct_rules : Prop :=
  forall i j k0 v0 k1 v1 k, nth_error rules i = Some (k0, v0) -> nth_error rules j = Some (k1, v1) ->
    lowered k0 k -> lowered k1 k -> i = j.

(** The name [n] (lower case, no final dot) is [p].[k], and the rule for [k] says [v]. *)
Definition applies (n p k v : str) : Prop :=
  n = p ++ "."%char :: k /\ exists k0 v0, In (k0, v0) rules /\ lowered k0 k /\ lowered v0 v.

(** [q'] is the question asked to the inner resolver for [q]. *)
Definition rewritten_question (q q' : question) : Prop :=
  exists n, plain_name (q_name q) n /\
  ((exists p k v, applies n p k v /\ v <> k /\
      q' = {| q_name := fqdn (p ++ "."%char :: v); q_type := q_type q; q_class := q_class q |}) \/
   (((forall p k v, ~ applies n p k v) \/ exists p k, applies n p k k) /\ q' = q)).

(** [rq] is [req] with rewritten questions, and otherwise the same. *)
Definition rewritten_request (req rq : request) : Prop :=
  Forall2 rewritten_question (m_question (req_msg req)) (m_question (req_msg rq)) /\
  rq = set_req_msg (set_question (m_question (req_msg rq)) (req_msg req)) req.
End Spec.

(** [n'] is the name that the client knows for the name [n]: the original name of a
    question that was asked as [n]; other names stand for themselves. *)
Definition restored (req rq : request) (n n' : str) : Prop :=
  let pair q q' := exists i, nth_error (m_question (req_msg req)) i = Some q /\ nth_error (m_question (req_msg rq)) i = Some q' in
  (exists q q', pair q q' /\ q_name q' = n /\ n' = q_name q) \/
  ((forall q q', pair q q' -> q_name q' <> n) /\ n' = n).

(** [m'] is the inner resolver's message [m] with restored names. *)
Definition restored_msg (req rq : request) (m m' : msg) : Prop :=
  m' = set_question (m_question m') (set_answer (m_answer m') m) /\
  Forall2 (fun q q' => restored req rq (q_name q) (q_name q') /\ q_type q' = q_type q /\ q_class q' = q_class q)
          (m_question m) (m_question m') /\
  Forall2 (fun r r' => restored req rq (rr_name r) (rr_name r') /\ rr_type r' = rr_type r /\ rr_class r' = rr_class r /\
                       rr_ttl r' = rr_ttl r /\ rr_data r' = rr_data r)
          (m_answer m) (m_answer m').

(** The inner resolver has no response of its own / has nothing to say. *)
Definition silent (res : result) : Prop := exists r, res = Ok r /\ rs_msg r = None.
Definition unsatisfying (res : result) : Prop :=
  (exists e, res = Err e) \/ (exists r m, res = Ok r /\ rs_msg r = Some m /\ m_answer m = []).
