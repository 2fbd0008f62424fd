(** Connections to upstreams: /repo/resolver/upstream_resolver.go:72-211 and 328-352, with what
    net.JoinHostPort, net/url, net/http and miekg/dns do with the texts and settings they get.

    The network is an argument: at every address and port there is a [peer] with a certificate and
    answers of its own.  Not modelled: a proxy set in the environment, reuse of connections (each
    request opens its own), time; of the answers, only what the caller gets. *)
From Coq Require Import String Ascii List Arith NArith ZArith Bool.
From Verif Require Import Str Num Dns Server Ip Target Upstream.
From Verif Require ConfUpstream.
Import ListNotations.
Open Scope list_scope.

(** resolver/upstream_resolver.go:90-93: tls.Config, as far as it is set *)
Record tls_conf := { tc_name : str; tc_min : Z }.

(** resolver/upstream_resolver.go:90-97: the name to be verified and the lowest version (tls.VersionTLS12) *)
Definition tls_config (u : ConfUpstream.upstream) : tls_conf :=
  {| tc_name := match ConfUpstream.u_cn u with [] => ConfUpstream.u_host u | cn => cn end; tc_min := 771 |}.

(** dns.Client of miekg/dns: network and TLS settings -- resolver/upstream_resolver.go:113-126 *)
Record dns_client := { dc_net : str; dc_tls : option tls_conf }.

(** resolver/upstream_resolver.go:79-87 dnsUpstreamClient (udpClient nil or not) and httpUpstreamClient *)
Inductive client := DnsClient (tcp : dns_client) (udp : option dns_client) | HttpClient (tls : tls_conf) (host agent : str).

(** resolver/upstream_resolver.go:89-134 createUpstreamClient *)
Definition create_client (u : ConfUpstream.upstream) (agent : str) : client :=
  match ConfUpstream.u_net u with
  | ConfUpstream.Https => HttpClient (tls_config u) (ConfUpstream.u_host u) agent
  | ConfUpstream.TcpTls =>
      DnsClient {| dc_net := ConfUpstream.net_name ConfUpstream.TcpTls; dc_tls := Some (tls_config u) |} None
  | ConfUpstream.TcpUdp =>
      DnsClient {| dc_net := $"tcp"; dc_tls := None |} (Some {| dc_net := $"udp"; dc_tls := None |})
  end.

(** net.JoinHostPort -- resolver/upstream_resolver.go:137, 193 *)
Definition join_host_port (h p : str) : str :=
  if contains_byte colon h then $"[" ++ h ++ $"]:" ++ p else h ++ $":" ++ p.

(** resolver/upstream_resolver.go:136-138 and 192-194 fmtURL *)
Definition fmt_url (c : client) (a : ip) (port : N) (path : str) : str :=
  let hp := join_host_port (go_ip_string (Some a)) (print_dec port) in
  match c with
  | HttpClient _ _ _ => $"https://" ++ hp ++ path
  | DnsClient _ _ => hp
  end.

(** net.Dial on an address of an IP and a port (resolver/upstream_resolver.go:200, 224 and net/http's dialer); None: error *)
Definition dial_target (s : str) : option (ip * N) :=
  match ConfUpstream.split_host_port s with
  | Some (h, p) =>
      match go_parse_ip h, parse_uint 10 16 p with
      | Some a, Some n => Some (a, n)
      | _, _ => None
      end
  | None => None
  end.

(** net/url.shouldEscape for paths is the negation of this (http.NewRequestWithContext in resolver/upstream_resolver.go:150) *)
Definition path_plain (c : ascii) : bool := is_alnum c || one_of "-_.~$&+,/:;=@" c.
(** net/url.validEncoded for paths (resolver/upstream_resolver.go:150) *)
Definition valid_encoded (s : str) : bool := forallb (fun c => path_plain c || one_of "!$&'()*+,;=:@[]%" c) s.
(** Upper-case hexadecimal digit (net/url.escape; resolver/upstream_resolver.go:150) *)
Definition upper_hex (n : N) : ascii := ascii_of_N (if (n <? 10)%N then 48 + n else 55 + n).
(** net/url.escape for paths (resolver/upstream_resolver.go:150) *)
Definition escape_path (s : str) : str :=
  flat_map (fun c => if path_plain c then [c] else ["%"%char; upper_hex (N_of_ascii c / 16); upper_hex (N_of_ascii c mod 16)]) s.

(** net/url.Parse of a URL with scheme https and URL.RequestURI: host with port, and the target of the
    request; None: error (resolver/upstream_resolver.go:150-153) *)
Definition url_parts (url : str) : option (str * str) :=
  let '(u, fragment) := cut "#"%char url in
  match unescape MOther (match fragment with Some f => f | None => [] end) with
  | None => None
  | Some _ =>
      if existsb (fun c => let n := N_of_ascii c in ((n <? 32) || (n =? 127))%N) u || negb (has_prefix u $"https://") then None
      else
        let '(rest, query) := cut "?"%char (skipn 8 u) in
        let '(authority, after) := cut "/"%char rest in
        let path := match after with Some p => "/"%char :: p | None => [] end in
        match parse_authority authority, unescape MOther path with
        | Some _, Some plain =>
            let target := match (if valid_encoded path then path else escape_path plain) with [] => $"/" | t => t end in
            Some (authority, target ++ match query with Some q => "?"%char :: q | None => [] end)
        | _, _ => None
        end
  end.

(** A request over HTTP: POST or GET, target, Host, User-Agent (None: no such header), Content-Type, the
    DNS message in the body -- resolver/upstream_resolver.go:150-157 *)
Record web_request := { wq_post : bool; wq_target : str; wq_host : str; wq_agent : option str; wq_type : str; wq_body : option msg }.

(** The Location of a response, read: relative, or absolute with scheme https or not, the text of the host, its
    address according to the system (None: it has none) and port -- followed by http.Client, resolver/upstream_resolver.go:159 *)
Inductive location := LRelative (target : str) | LAbsolute (secure : bool) (host : str) (a : option ip) (port : N) (target : str).

(** Who answers at an address: TLS versions, names for which it has a valid certificate, answers to DNS messages, and to
    requests over HTTP (with Location) -- the other side of resolver/upstream_resolver.go:140-268 *)
Record peer := { pe_versions : list Z; pe_cert : str -> bool; pe_dns : msg -> exchange;
                 pe_web : web_request -> (http_reply * option location) + call_err }.

(** The network: over UDP or TCP, address, port -- the other side of resolver/upstream_resolver.go:140-268 *)
Definition network := bool -> ip -> N -> peer.

(** What was sent: to whom, over UDP or TCP, with TLS or without, and what -- resolver/upstream_resolver.go:140-268 *)
Record sending := { sd_udp : bool; sd_addr : ip; sd_port : N; sd_tls : bool; sd_msg : option msg; sd_web : option web_request }.

(** crypto/tls with the settings of resolver/upstream_resolver.go:90-97: a common version that is high enough, and a
    certificate for the name *)
Definition tls_accepts (t : tls_conf) (p : peer) : bool :=
  existsb (fun v => (tc_min t <=? v)%Z && (v <=? 772)%Z) (pe_versions p) && pe_cert p (tc_name t).

(** dns.Client.ExchangeContext of miekg/dns v1.1.64 (resolver/upstream_resolver.go:200, 224): "-tls" at the end of a network
    that starts with "tcp" means TLS; a reply with another id is an error (over UDP it is passed over) *)
Definition dns_exchange (w : network) (c : dns_client) (address : str) (m : msg) : list sending * exchange :=
  match dial_target address with
  | None => ([], inr (COther $"dial"))
  | Some (a, port) =>
      let udp := has_prefix (dc_net c) $"udp" in
      let use_tls := has_prefix (dc_net c) $"tcp" && has_suffix (dc_net c) $"-tls" in
      let p := w udp a port in
      let ok := match dc_tls c with Some t => tls_accepts t p | None => false end in
      if use_tls && negb ok then ([], inr (COther $"tls"))
      else ([{| sd_udp := udp; sd_addr := a; sd_port := port; sd_tls := use_tls; sd_msg := Some m; sd_web := None |}],
            match pe_dns p m with
            | inl r => if (m_id r =? m_id m)%N then inl r else if udp then inr CTimeout else inr (COther $"dns: id mismatch")
            | inr e => inr e
            end)
  end.

(** net/http redirectBehavior (resolver/upstream_resolver.go:159): Some true: with method and body, Some false: with GET *)
Definition redirect (status : N) : option bool :=
  if ((status =? 307) || (status =? 308))%N then Some true
  else if ((status =? 301) || (status =? 302) || (status =? 303))%N then Some false
  else None.

(** net/http Client.Do (resolver/upstream_resolver.go:159), at most [left] redirects more: every TLS connection is made
    with the settings of the client; None for an address which is unknown *)
Fixpoint http_do (left : nat) (w : network) (t : tls_conf) (secure : bool) (a : ip) (port : N) (rq : web_request)
  : list sending * (http_reply + call_err) :=
  let p := w false a port in
  if secure && negb (tls_accepts t p) then ([], inr (COther $"tls"))
  else
    let here := {| sd_udp := false; sd_addr := a; sd_port := port; sd_tls := secure; sd_msg := wq_body rq; sd_web := Some rq |} in
    match pe_web p rq with
    | inr e => ([here], inr e)
    | inl (h, loc) =>
        match redirect (hr_status h), loc with
        | Some keep, Some l =>
            match left with
            | O => ([here], inr (COther $"stopped after 10 redirects"))
            | S left' =>
                let next host target := {| wq_post := keep && wq_post rq; wq_target := target; wq_host := host; wq_agent := wq_agent rq; wq_type := wq_type rq;
                                           wq_body := if keep then wq_body rq else None |} in
                match l with
                | LRelative target => let '(s, r) := http_do left' w t secure a port (next (wq_host rq) target) in (here :: s, r)
                | LAbsolute sec host (Some a') port' target =>
                    let '(s, r) := http_do left' w t sec a' port' (next host target) in (here :: s, r)
                | LAbsolute _ _ None _ _ => ([here], inr (COther $"no such host"))
                end
            end
        | _, _ => ([here], inl h)
        end
    end.

(** resolver/upstream_resolver.go:140-190 and 196-268 callExternal: what is sent, and the result; [udp_first] is the order in which
    the two clients return.  The slower one is cancelled: of what it sends, the list is the most there can be. *)
Definition call (w : network) (c : client) (url : str) (p : proto) (udp_first : bool) (m : msg) : list sending * exchange :=
  match c with
  | DnsClient tcp None => dns_exchange w tcp url m
  | DnsClient tcp (Some udp) =>
      let '(st, rt) := dns_exchange w tcp url m in
      let '(su, ru) := dns_exchange w udp url m in
      (st ++ su, if udp_first then race_clients p (UDP, check_servfail ru) (TCP, check_servfail rt)
                 else race_clients p (TCP, check_servfail rt) (UDP, check_servfail ru))
  | HttpClient t host agent =>
      match url_parts url with
      | None => ([], inr (COther $"can't create the new request"))
      | Some (authority, target) =>
          match dial_target authority with
          | None => ([], inr (COther $"dial"))
          | Some (a, port) =>
              let '(s, r) := http_do 9 w t true a port
                {| wq_post := true; wq_target := target; wq_host := host; wq_agent := match agent with [] => None | _ => Some agent end;
                   wq_type := $"application/dns-message"; wq_body := Some m |} in
              (s, https_call r)
          end
      end
  end.

(** resolver/upstream_resolver.go:342-350: one attempt of Resolve with the address [a] *)
Definition attempt (w : network) (u : ConfUpstream.upstream) (agent : str) (p : proto) (udp_first : bool) (m : msg) (a : ip) : list sending * exchange :=
  let c := create_client u agent in call w c (fmt_url c a (ConfUpstream.u_port u) (ConfUpstream.u_path u)) p udp_first m.
