(** What the configuration of the bootstrap DNS means (docs/configuration.md, Bootstrap DNS configuration). *)
From Coq Require Import String Ascii List Arith NArith ZArith.
From Verif Require Upstream.
From Verif Require Import Str Dns IpSpec Resolver UpstreamSpec ConfUpstream ConfUpstreamSpec Bootstrap.
Import ListNotations.
Open Scope list_scope.

(** Nothing is configured as upstream. *)
Definition no_upstream : upstream := {| u_net := TcpUdp; u_host := []; u_port := 0; u_path := []; u_cn := [] |}.

(** The texts of addresses; an empty text is accepted and is no address. *)
Inductive address_means : node -> option ip -> Prop :=
| am_address s a : ip_text s a -> address_means (YText s) (Some a)
| am_empty : address_means (YText []) None.

Section Read.
Variable direct : list (str * node) -> option upstream.

Inductive upstream_means : node -> upstream -> Prop :=
| um_text s u : upstream_text s u -> upstream_means (YText s) u
| um_direct f u : direct f = Some u -> upstream_means (YMap f) u.

(** An item: an upstream, or a mapping of upstream and addresses, each of which may be missing. *)
Inductive item_means : node -> upstream * list (option ip) -> Prop :=
| im_upstream n u : upstream_means n u -> item_means n (u, [])
| im_fields f u ips : direct f = None -> NoDup (map fst f) -> (forall k, In k (map fst f) -> k = $"upstream" \/ k = $"ips") ->
    (forall n, In ($"upstream", n) f -> upstream_means n u) -> (~ In $"upstream" (map fst f) -> u = no_upstream) ->
    (forall n, In ($"ips", n) f -> exists l, n = YList l /\ Forall2 address_means l ips) -> (~ In $"ips" (map fst f) -> ips = []) ->
    item_means (YMap f) (u, ips).

(** One item, or a list of them. *)
Definition bootstrap_means (n : node) (items : list (upstream * list (option ip))) : Prop :=
  (exists i, item_means n i /\ items = [i]) \/ (exists l, n = YList l /\ Forall2 item_means l items).
End Read.

(** An item can be used: it has an upstream, whose host is an address, or which is encrypted and has addresses. *)
Definition item_ok (i : upstream * list (option ip)) : Prop :=
  fst i <> no_upstream /\
  ((exists a, ip_text (u_host (fst i)) a) \/
   ((forall a, ~ ip_text (u_host (fst i)) a) /\ u_net (fst i) <> TcpUdp /\ snd i <> [])).

(** The addresses used for an item. *)
Inductive item_addresses : upstream * list (option ip) -> list (option ip) -> Prop :=
| ia_host u ips a : ip_text (u_host u) a -> item_addresses (u, ips) [Some a]
| ia_listed u ips : (forall a, ~ ip_text (u_host u) a) -> item_addresses (u, ips) ips.

(** What a lookup of one type brings: nothing for a type that is filtered, else the addresses in the cached message, or else those in
    the message of an upstream. *)
Section Lookup.
Variable b : boot.
Variable look : request -> nat -> option (msg * Z).
Variable best : next_fn.

Definition message_addresses (m : msg) (l : list ip) : Prop :=
  (m_rcode m = 0%N /\ addrs_of (m_answer m) l) \/ (m_rcode m <> 0%N /\ l = []).

Inductive brings (rq : request) (t : N) : list ip -> Prop :=
| br_filtered : In t (bt_filter b) -> brings rq t []
| br_cached m ttl l : ~ In t (bt_filter b) -> look rq 0 = Some (m, ttl) -> message_addresses m l -> brings rq t l
| br_asked r m l : ~ In t (bt_filter b) -> look rq 0 = None -> best rq = Some (Ok r) -> rs_msg r = Some m -> message_addresses m l ->
    brings rq t l.
End Lookup.

(** A question for the addresses of a host, asked by blocky itself: on behalf of no client, recursion desired, for one of the types that
    the version of IP in use has; should TCP and UDP both fail, the error over TCP is the one reported. *)
Definition own_question (v : Upstream.ip_version) (h : str) (rq : request) : Prop :=
  req_ip rq = None /\ req_client_id rq = [] /\ req_names rq = [] /\ req_proto rq = TCP /\
  m_response (req_msg rq) = false /\ m_opcode (req_msg rq) = 0%N /\ m_rd (req_msg rq) = true /\ m_cd (req_msg rq) = false /\
  m_answer (req_msg rq) = [] /\ m_ns (req_msg rq) = [] /\ m_extra (req_msg rq) = [] /\
  exists q, m_question (req_msg rq) = [q] /\ q_class q = 1%N /\ (q_name q = h \/ q_name q = h ++ $".") /\
    match v with Upstream.Dual => q_type q = 1%N \/ q_type q = 28%N | Upstream.V4 => q_type q = 1%N | Upstream.V6 => q_type q = 28%N end.
