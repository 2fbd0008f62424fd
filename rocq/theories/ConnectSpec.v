(** What connections to upstreams promise. *)
From Coq Require Import String Ascii List NArith ZArith.
From Verif Require Import Str Dns Upstream ConfUpstreamSpec Connect.
From Verif Require Import ConfUpstream.
Import ListNotations.
Open Scope list_scope.

(** The peer has a certificate for the name and speaks TLS 1.2 or 1.3. *)
Definition authentic (p : peer) (name : str) : Prop :=
  pe_cert p name = true /\ exists v, In v (pe_versions p) /\ (v = 771 \/ v = 772)%Z.

(** The name which the certificate of an upstream must be for. *)
Definition verified_name (u : upstream) (name : str) : Prop :=
  u_cn u <> [] /\ name = u_cn u \/ u_cn u = [] /\ name = u_host u.

(** RFC 3986: the characters of a path, percent-encoding included. *)
Definition hex_digit (c : ascii) : Prop := In c (lit "0123456789abcdefABCDEF").
Inductive clean : str -> Prop :=
| clean_nil : clean []
| clean_char c s : letter_or_digit c \/ In c (lit "-._~!$&'()*+,;=:@/") -> clean s -> clean (c :: s)
| clean_percent a b s : hex_digit a -> hex_digit b -> clean s -> clean ("%"%char :: a :: b :: s).

(** A path of an upstream: nothing or a slash and more, and possibly a query. *)
Inductive clean_path : str -> Prop :=
| cp_none : clean_path []
| cp_path p : clean p -> clean_path ("/"%char :: p)
| cp_query p q : clean p -> clean q -> clean_path ("/"%char :: p ++ "?"%char :: q).

(** The authority of an upstream as a URL has it (RFC 3986): brackets around IPv6 addresses, the port unless it is 443. *)
Definition authority_text (u : upstream) (s : str) : Prop :=
  exists h p, s = h ++ p /\
  (In ":"%char (u_host u) /\ h = $"[" ++ u_host u ++ $"]" \/ ~ In ":"%char (u_host u) /\ h = u_host u) /\
  (u_port u = 443%N /\ p = [] \/ u_port u <> 443%N /\ exists d, p = ":"%char :: d /\ d <> []).

(** [y] was sent because the answer to [x] said so. *)
Definition pointed_to (w : network) (x y : sending) : Prop :=
  exists rq h l, sd_web x = Some rq /\ pe_web (w (sd_udp x) (sd_addr x) (sd_port x)) rq = inl (h, Some l) /\
  In (hr_status h) [301; 302; 303; 307; 308]%N /\
  match l with
  | LRelative _ => sd_addr y = sd_addr x /\ sd_port y = sd_port x /\ sd_tls y = sd_tls x
  | LAbsolute secure _ a port _ => a = Some (sd_addr y) /\ sd_port y = port /\ sd_tls y = secure
  end /\
  (sd_msg y = None \/ sd_msg y = sd_msg x /\ In (hr_status h) [307; 308]%N).

(** Every sending but the first is due to the one before. *)
Inductive chain (w : network) : list sending -> Prop :=
| ch_one x : chain w [x]
| ch_more x y l : pointed_to w x y -> chain w (y :: l) -> chain w (x :: y :: l).
