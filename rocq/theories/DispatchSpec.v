(** Specification of the dispatch of DNS packets. *)
From Coq Require Import String Ascii List Arith Bool NArith.
From Verif Require Import Str Dns Dispatch.
Import ListNotations.

(** ** Names *)
(** A text that ends with a dot which separates labels: an even number of backslashes stands before it (an odd number makes
    the dot a part of the label). *)
Definition ends_label (p : str) : Prop :=
  exists p' k, p = p' ++ repeat "\"%char (2 * k) ++ ["."%char] /\ forall p'', p' <> p'' ++ ["\"%char].
(** The name healthcheck.blocky. and the names below it, in any case. *)
Definition in_health_zone (name : str) : Prop :=
  exists p, to_lower name = p ++ $"healthcheck.blocky." /\ (p = [] \/ ends_label p).
(** Names that are read from packets end with a dot. *)
Definition qualified (name : str) : Prop := exists n, name = n ++ $".".

(** ** Packets *)
(** What is known about unpacking: the header, and not more questions than announced. *)
Definition unpacked (p : packet) : Prop :=
  forall m, pk_msg p = Some m -> m_id m = pk_id p /\ m_response m = pk_response p /\ (N.of_nat (length (m_question m)) <= pk_qd p)%N /\
    Forall (fun q => qualified (q_name q)) (m_question m).
(** A query as clients make them: not a response, opcode QUERY, one question, at most two additional records. *)
Definition plain_query (p : packet) (m : msg) (q : question) : Prop :=
  pk_response p = false /\ pk_opcode p = 0%N /\ pk_qd p = 1%N /\ pk_an p = 0%N /\ pk_ns p = 0%N /\ (pk_ar p <= 2)%N /\
  pk_msg p = Some m /\ m_question m = [q].
