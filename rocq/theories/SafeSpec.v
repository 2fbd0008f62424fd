(** Specification for the safety of the resolver chain: what is expected of its surroundings. *)
From Coq Require Import String Ascii List Arith Bool NArith ZArith.
From Verif Require Import Str Dns Resolver Custom Ecs QueryLog Chain RedisSpec.
Import ListNotations.

(** The request has a question. *)
Definition asked (rq : request) : Prop := m_question (req_msg rq) <> [].

(** The result is an error or a response with a message. *)
Definition full (r : result) : Prop := forall x, r = Ok x -> rs_msg x <> None.

(** A resolver which gives a result to every request with a question. *)
Definition total (next : next_fn) : Prop := forall rq, asked rq -> exists r, next rq = Some r /\ full r.

(** Masks that suit every client: as accepted by the configuration (at most 32 and 128), and not
    an IPv6 mask alone which is too long for IPv4 addresses. *)
Definition masks_fit (c : ecs_cfg) : Prop :=
  (ec_mask4 c <= 32 /\ ec_mask6 c <= 128 /\ (0 < ec_mask4 c \/ ec_mask6 c <= 32))%N.

(** No CNAME is configured. *)
Definition without_cnames (c : custom_cfg) : Prop :=
  forall d es e t, In (d, es) (cu_mapping c ++ cu_zone c) -> In e es -> rr_data e <> DCNAME t.

Definition sound_world {U} (w : world U) : Prop :=
  masks_fit (w_ecs w) /\
  (forall rq r, exists T privacy cfg inst instant start ms, w_entry w rq r = create_log_entry T privacy cfg inst instant start ms rq r) /\
  (length (cname_targets (w_custom w)) < w_fuel w) /\
  (w_custom_rules w <> [] -> without_cnames (w_custom w)) /\
  (forall u, total (w_ask w u)) /\
  total (w_upstream w).

(** The names of a client with this identifier are valid UTF-8. *)
Definition named_in_utf8 {U} (w : world U) (client : str) : Prop :=
  forall rq, req_client_id rq = client -> Forall valid_utf8 (w_names w rq).
