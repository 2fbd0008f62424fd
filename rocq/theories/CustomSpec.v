(** Specification of the custom DNS resolver. *)
From Coq Require Import String Ascii List Arith Bool NArith.
From Verif Require Import Str StringCacheSpec Dns Resolver CachingSpec Blocking BlockingSpec Custom.
Import ListNotations.

Section Spec.
Variable cfg : custom_cfg.
Variable new_id : str -> N.
(** the rest of the chain *)
Variable next : next_fn.

(** The records [es] are configured for the domain [d]: those of the zone, or, if the
    zone does not mention [d], those of the mapping, with the custom TTL. *)
Definition configured (d : str) (es : list rr) : Prop :=
  (exists u, In (u, es) (cu_zone cfg) /\ plain_name u d) \/
  ((forall u es', In (u, es') (cu_zone cfg) -> ~ plain_name u d) /\
   exists u es0, In (u, es0) (cu_mapping cfg) /\ plain_name u d /\
     Forall2 (fun e0 e => same_record e0 e /\ rr_ttl e = cu_ttl cfg) es0 es).

(** No two names of the mapping, and no two of the zone, denote the same domain. *)
Definition distinct_names (l : list (str * list rr)) : Prop :=
  forall i j u es u' es' d, nth_error l i = Some (u, es) -> nth_error l j = Some (u', es') ->
    plain_name u d -> plain_name u' d -> i = j.

(** [d] is a configured domain which is the name of [q] or a parent of it. *)
Definition covers (q : question) (d : str) : Prop :=
  d <> [] /\ (exists es, configured d es) /\ exists n, plain_name (q_name q) n /\ same_or_sub n d.

(** [es] are the records of the longest such domain. *)
Definition decides (q : question) (es : list rr) : Prop :=
  exists d, covers q d /\ configured d es /\ forall d', covers q d' -> length d' <= length d.

(** A record for the question, with the given type and TTL. *)
Definition own_record (q : question) (t ttl : N) (d : rdata) (r : rr) : Prop :=
  rr_name r = q_name q /\ rr_type r = t /\ rr_class r = 1%N /\ rr_ttl r = ttl /\ rr_data r = d.

(** The family of addresses a question asks for. *)
Definition asks_for (q : question) (i : ip) (d : rdata) : Prop :=
  match i with
  | IP4 _ => q_type q = 1%N /\ d = DA i
  | IP6 _ => q_type q = 28%N /\ d = DAAAA i
  end.

(** What a configured record other than a CNAME contributes to the answer. *)
Definition contributes (q : question) (e : rr) (l : list rr) : Prop :=
  match rr_data e with
  | DA i | DAAAA i =>
      (exists d r, asks_for q i d /\ own_record q (q_type q) (rr_ttl e) d r /\ l = [r]) \/
      ((forall d, ~ asks_for q i d) /\ l = [])
  | DTXT _ => (q_type q = 16%N /\ exists r, own_record q 16 (rr_ttl e) (rr_data e) r /\ l = [r]) \/ (q_type q <> 16%N /\ l = [])
  | DSRV _ _ _ _ => (q_type q = 33%N /\ exists r, own_record q 33 (rr_ttl e) (rr_data e) r /\ l = [r]) \/ (q_type q <> 33%N /\ l = [])
  | _ => False
  end.

(** The custom answer to [req], whose first question is [q], with the records [ans]. *)
Definition custom_reply (req : request) (q : question) (ans : list rr) : response :=
  let query := (m_opcode (req_msg req) =? 0)%N in
  {| rs_msg := Some
       {| m_id := m_id (req_msg req); m_response := true; m_opcode := m_opcode (req_msg req);
          m_aa := false; m_tc := false; m_rd := query && m_rd (req_msg req); m_ra := false; m_zero := false;
          m_ad := false; m_cd := query && m_cd (req_msg req); m_rcode := 0;
          m_question := [q]; m_answer := ans; m_ns := []; m_extra := [] |};
     rs_reason := $"CUSTOM DNS"; rs_type := CUSTOMDNS |}.

(** The request made for the target [t] of a CNAME (without final dot). *)
Definition follow_up (req : request) (q : question) (t : str) : request :=
  {| req_ip := req_ip req; req_client_id := req_client_id req; req_proto := UDP; req_names := [];
     req_msg := new_msg_with_question (new_id t) t (q_type q) |}.

(** [answers req r]: the meaning of the configuration — [r] is the answer to [req].
    A configured CNAME contributes itself and the answer records for its target. *)
Inductive answers : request -> response -> Prop :=
| an_next req q qs r :
    m_question (req_msg req) = q :: qs -> (forall d, ~ covers q d) -> next req = Some (Ok r) -> answers req r
| an_mapped req q qs es ans r :
    m_question (req_msg req) = q :: qs -> decides q es -> collects req q es ans ->
    (ans <> [] \/ cu_filter cfg = true) -> r = custom_reply req q ans -> answers req r
| an_other_type req q qs es r :
    m_question (req_msg req) = q :: qs -> decides q es -> collects req q es [] -> cu_filter cfg = false ->
    next req = Some (Ok r) -> answers req r
with collects : request -> question -> list rr -> list rr -> Prop :=
| co_nil req q : collects req q [] []
| co_plain req q e es l ans : contributes q e l -> collects req q es ans -> collects req q (e :: es) (l ++ ans)
| co_cname_asked req q e es t r ans :
    rr_data e = DCNAME t -> q_type q = 5%N ->
    own_record q 5 (rr_ttl e) (DCNAME (fqdn t)) r -> collects req q es ans -> collects req q (e :: es) (r :: ans)
| co_cname req q e es t t' r resp m ans :
    rr_data e = DCNAME t -> q_type q <> 5%N -> without_dot t t' ->
    own_record q 5 (rr_ttl e) (DCNAME (fqdn t)) r ->
    answers (follow_up req q t') resp -> rs_msg resp = Some m -> collects req q es ans ->
    collects req q (e :: es) (r :: m_answer m ++ ans).

(** [leads n n']: name [n] (asked with type [ty]) has a configured CNAME to [n'] (names
    as in questions). *)
Definition leads (ty : N) (n n' : str) : Prop :=
  ty <> 5%N /\
  exists es e t t', decides {| q_name := n; q_type := ty; q_class := 1 |} es /\ In e es /\
    rr_data e = DCNAME t /\ without_dot t t' /\ n' = fqdn t'.

(** A chain of CNAMEs starting at [n] that runs into a cycle. *)
Inductive reaches (ty : N) : str -> str -> Prop :=
| re_one a b : leads ty a b -> reaches ty a b
| re_more a b c : leads ty a b -> reaches ty b c -> reaches ty a c.
Definition cyclic (ty : N) (n : str) : Prop := reaches ty n n \/ exists c, reaches ty n c /\ reaches ty c c.

(** The address [i] is configured for the domain [d]. *)
Definition has_address (d : str) (i : ip) : Prop :=
  exists es e, configured d es /\ In e es /\ (rr_data e = DA i \/ rr_data e = DAAAA i).
End Spec.
