(** Specification of the DNS and DoH server. *)
From Coq Require Import String Ascii List Arith Bool NArith.
From Verif Require Import Str Dns.
Import ListNotations.

(** ** Replies *)
(** [m] is a reply to the query [q]: same id, marked as a response, and the (first) question of the query. *)
Definition reply_to (q m : msg) : Prop :=
  m_id m = m_id q /\ m_response m = true /\ m_question m = firstn 1 (m_question q).
Definition error_reply (q m : msg) (code : N) : Prop :=
  reply_to q m /\ m_rcode m = code /\ m_answer m = [] /\ m_ns m = [] /\ m_extra m = [].

(** The last OPT record of a query announces the size. *)
Definition announced (q : msg) (size : N) : Prop :=
  exists before o after, m_extra q = before ++ o :: after /\ rr_type o = 41%N /\ rr_class o = size /\
    forall x, In x after -> rr_type x <> 41%N.
Definition no_opt (q : msg) : Prop := forall x, In x (m_extra q) -> rr_type x <> 41%N.

(** The size a client accepts: RFC 1035 4.2.1 and RFC 6891 6.2.3 for UDP, 65535 for TCP. *)
Definition accepts (p : proto) (q : msg) (size : N) : Prop :=
  match p with
  | TCP => size = 65535%N
  | UDP => (no_opt q /\ size = 512%N) \/ (exists s, announced q s /\ size = N.max s 512)
  end.

(** ** Client ids *)
Definition id_host (h x : str) : Prop := exists rest, h = $"id-" ++ x ++ dot :: rest /\ ~ In dot x.

(** ** base64url (RFC 4648, section 5) *)
Definition alphabet : str := $"ABCDEFGHIJKLMNOPQRSTUVWXYZabcdefghijklmnopqrstuvwxyz0123456789-_".
(** The [n] lowest bits of a number, highest first. *)
Fixpoint bits (n : nat) (x : N) : list bool :=
  match n with O => [] | S n' => bits n' (x / 2) ++ [N.odd x] end.
(** The text [s] carries the bytes [bs]: the bits of the characters are the bits of the bytes, followed by less than
    six filling bits. *)
Definition b64_text (s : str) (bs : list N) : Prop :=
  Forall (fun b => (b < 256)%N) bs /\
  exists vs fill, Forall2 (fun c v => nth_error alphabet (N.to_nat v) = Some c) s vs /\
    flat_map (bits 6) vs = flat_map (bits 8) bs ++ fill /\ length fill < 6.

(** ** Addresses with ports *)
Inductive with_port : str -> str -> Prop :=
| wp_plain h p : ~ In ":"%char h -> ~ In "["%char h -> ~ In "]"%char h -> ~ In ":"%char p -> ~ In "["%char p -> ~ In "]"%char p ->
    with_port (h ++ ":"%char :: p) h
| wp_bracket h p : ~ In "["%char h -> ~ In "]"%char h -> ~ In ":"%char p -> ~ In "["%char p -> ~ In "]"%char p ->
    with_port ("["%char :: h ++ "]"%char :: ":"%char :: p) h.
