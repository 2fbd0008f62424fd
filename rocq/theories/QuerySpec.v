(** Specification of queries over the REST interface. *)
From Coq Require Import String Ascii List Arith Bool NArith.
From Verif Require Import Str Dns QueryLog.
Import ListNotations.

(** The text of one record: type and data for addresses, aliases and pointers, else the presentation form. *)
Inductive record_text (T : texts) : rr -> str -> Prop :=
| rt_a r i : rr_data r = DA i -> record_text T r ($"A (" ++ ip_text T (Some i) ++ $")")
| rt_aaaa r i : rr_data r = DAAAA i -> record_text T r ($"AAAA (" ++ ip_text T (Some i) ++ $")")
| rt_cname r t : rr_data r = DCNAME t -> record_text T r ($"CNAME (" ++ t ++ $")")
| rt_ptr r t : rr_data r = DPTR t -> record_text T r ($"PTR (" ++ t ++ $")")
| rt_other r : (forall i, rr_data r <> DA i) -> (forall i, rr_data r <> DAAAA i) -> (forall t, rr_data r <> DCNAME t) ->
    (forall t, rr_data r <> DPTR t) -> record_text T r (rr_text T r).

(** All records, in their order, separated by ", ". *)
Inductive listed (T : texts) : list rr -> str -> Prop :=
| l_nil : listed T [] []
| l_one r s : record_text T r s -> listed T [r] s
| l_cons r r' rs s s' : record_text T r s -> listed T (r' :: rs) s' -> listed T (r :: r' :: rs) (s ++ $", " ++ s').

(** The query a DNS client makes for a name and a type. *)
Definition client_query (id : N) (name : str) (t : N) (m : msg) : Prop :=
  m_id m = id /\ m_response m = false /\ m_opcode m = 0%N /\ m_rd m = true /\ m_aa m = false /\ m_tc m = false /\ m_ra m = false /\
  m_zero m = false /\ m_ad m = false /\ m_cd m = false /\ m_rcode m = 0%N /\ m_answer m = [] /\ m_ns m = [] /\ m_extra m = [] /\
  exists full, ((exists n, name = n ++ $".") /\ full = name \/ (~ exists n, name = n ++ $".") /\ full = name ++ $".") /\
    m_question m = [{| q_name := full; q_type := t; q_class := 1 |}].
