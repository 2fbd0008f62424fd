(** What questions to upstreams promise. *)
From Coq Require Import String Ascii List NArith ZArith.
From Verif Require Import Str Dns ArpaSpec Upstream Connect ConnectSpec Outbound.
From Verif Require Import ConfUpstream.
Import ListNotations.

(** An upstream that the configuration can have. *)
Definition configured (u : upstream) : Prop := exists text, parse_upstream text = Some u.

(** An upstream with encryption; the path of the URL has to be one by RFC 3986. *)
Definition encrypted (u : upstream) : Prop := u_net u = TcpTls \/ u_net u = Https /\ clean_path (u_path u).

(** Those who hold a certificate for the upstream do not redirect. *)
Definition never_redirects (u : upstream) (w : network) : Prop :=
  forall name a rq h l, u_net u = Https -> verified_name u name -> authentic (w false a (u_port u)) name -> pe_web (w false a (u_port u)) rq = inl (h, l) -> l = None.

(** The other side is the upstream: it has proved the name. *)
Definition proved_to_be (u : upstream) (w : network) (a : ip) : Prop :=
  exists name, verified_name u name /\ authentic (w false a (u_port u)) name.

(** The question [m] may be sent this way to the upstream, which has the addresses [ips]. *)
Inductive proper (w : network) (u : upstream) (ips : list ip) (m : msg) (x : sending) : Prop :=
| in_the_clear : u_net u = TcpUdp -> In (sd_addr x) ips -> sd_port x = u_port u -> sd_tls x = false -> sd_msg x = Some m -> proper w u ips m x
| over_tls : u_net u <> TcpUdp -> In (sd_addr x) ips -> sd_port x = u_port u -> sd_udp x = false -> sd_tls x = true -> sd_msg x = Some m ->
    proved_to_be u w (sd_addr x) -> proper w u ips m x.

(** The upstream with the addresses [ips] has answered [m] with [m']. *)
Inductive answers (w : network) (u : upstream) (ips : list ip) (m m' : msg) : Prop :=
| plain_answer udp a : u_net u = TcpUdp -> In a ips -> pe_dns (w udp a (u_port u)) m = inl m' -> m_id m' = m_id m -> answers w u ips m m'
| tls_answer a : u_net u = TcpTls -> In a ips -> proved_to_be u w a -> pe_dns (w false a (u_port u)) m = inl m' -> m_id m' = m_id m -> answers w u ips m m'
| https_answer a rq h : u_net u = Https -> In a ips -> proved_to_be u w a -> pe_web (w false a (u_port u)) rq = inl (h, None) -> wq_body rq = Some m ->
    hr_status h = 200%N -> hr_body h = Some m' -> answers w u ips m m'.

(** The most that one call sends. *)
Definition at_most (u : upstream) (n : nat) : Prop :=
  match u_net u with TcpUdp => 6 <= n | TcpTls | Https => 3 <= n end.

(** What is asked of the environment of one call: no redirections by the upstream, addresses that are addresses. *)
Definition fair (u : upstream) (c : circumstances) : Prop := (forall k, never_redirects u (ci_net c k)) /\ Forall valid_ip (ci_ips c).

(** The same for a group; answers arrive from those that were asked. *)
Definition fair_group (us : list upstream) (g : group_circumstances) : Prop :=
  (forall l x, In x (gc_arrive g l) -> In x l) /\ forall i u try, nth_error us i = Some u -> fair u (gc_of g i try).
