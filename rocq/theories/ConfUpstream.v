(** Upstreams and ports in the configuration: /repo/config/upstream.go and the ports of
    /repo/config/config.go. *)
From Coq Require Import String Ascii List Arith NArith Bool.
From Verif Require Import Str Num Dns Server Ip.
Import ListNotations.
Open Scope list_scope.

(** config/config.go:44-49 NetProtocol *)
Inductive net_protocol := TcpUdp | TcpTls | Https.

(** config/config.go:44-49: the names of the values (generated by go-enum) *)
Definition net_name (n : net_protocol) : str :=
  match n with TcpUdp => $"tcp+udp" | TcpTls => $"tcp-tls" | Https => $"https" end.

(** config/config.go:25-29 and 157-162 netDefaultPort *)
Definition net_default_port (n : net_protocol) : N :=
  match n with TcpUdp => 53 | TcpTls => 853 | Https => 443 end.

(** Go == on the values of config/config.go:44-49 NetProtocol *)
Definition net_eqb (a b : net_protocol) : bool :=
  match a, b with TcpUdp, TcpUdp | TcpTls, TcpTls | Https, Https => true | _, _ => false end.

(** config/upstream.go:13-20 Upstream *)
Record upstream := { u_net : net_protocol; u_host : str; u_port : N; u_path : str; u_cn : str }.

(** config/config.go:607-619 ConvertPort; None: error *)
Definition convert_port (s : str) : option N := parse_uint 10 16 (trim_space s).

(** Go's net.SplitHostPort: the host as in [Server.split_host], the port is what follows the last colon -- config/upstream.go:89 *)
Definition split_host_port (s : str) : option (str * str) :=
  match split_host s, last_index_byte colon s with
  | Some h, Some i => Some (h, skipn (S i) s)
  | _, _ => None
  end.

(** config/upstream.go:10-11 validDomain: the language of the regular expression, read label by label *)
Definition alnum (c : ascii) : bool :=
  let n := N_of_ascii c in
  (((48 <=? n) && (n <=? 57)) || ((65 <=? n) && (n <=? 90)) || ((97 <=? n) && (n <=? 122)))%N.
(** config/upstream.go:10-11 validDomain: one label *)
Definition domain_label (l : str) : bool :=
  match l with
  | [] => false
  | c :: _ => alnum c && alnum (last l c) && forallb (fun x => alnum x || Ascii.eqb x "-") l
  end.
(** config/upstream.go:10-11 validDomain: the whole name *)
Definition valid_domain (s : str) : bool := forallb domain_label (split_byte dot s).

(** config/upstream.go:128-132 extractCommonName (strings.Cut at the first '#'): common name and rest *)
Definition extract_common_name (s : str) : str * str :=
  match index_byte hash s with Some i => (skipn (S i) s, firstn i s) | None => ([], s) end.

(** config/upstream.go:134-145 extractPath: path and rest *)
Definition extract_path (s : str) : str * str :=
  match index_byte slash s with Some i => (skipn i s, firstn i s) | None => ([], s) end.

(** config/upstream.go:147-164 extractNet *)
Definition extract_net (s : str) : net_protocol * str :=
  if has_prefix s (net_name TcpUdp ++ [colon]) then (TcpUdp, skipn (length (net_name TcpUdp ++ [colon])) s)
  else if has_prefix s (net_name TcpTls ++ [colon]) then (TcpTls, skipn (length (net_name TcpTls ++ [colon])) s)
  else if has_prefix s (net_name Https ++ [colon]) then
    (Https, trim_prefix (skipn (length (net_name Https ++ [colon])) s) ($"//"))
  else (TcpUdp, s).

(** config/upstream.go:110-116: is the host acceptable? *)
Definition host_ok (h : str) : bool :=
  match go_parse_ip h with Some _ => true | None => valid_domain h end.

(** config/upstream.go:77-126 ParseUpstream; None: error *)
Definition parse_upstream (s : str) : option upstream :=
  let '(cn, s) := extract_common_name s in
  let '(n, s) := extract_net s in
  let '(path, s) := extract_path s in
  match (match split_host_port s with
         | Some (h, p) => match convert_port p with Some p => Some (h, p) | None => None end
         | None => Some (trim_suffix (trim_prefix s ($"[")) ($"]"), net_default_port n)
         end) with
  | None => None
  | Some (h, p) =>
      if host_ok h then Some {| u_net := n; u_host := h; u_port := p; u_path := path; u_cn := cn |} else None
  end.

(** config/upstream.go:22-25 IsDefault: the zero value (NetProtocolTcpUdp is the value 0) *)
Definition upstream_is_default (u : upstream) : bool :=
  net_eqb (u_net u) TcpUdp && str_eqb (u_host u) [] && (u_port u =? 0)%N && str_eqb (u_path u) [] && str_eqb (u_cn u) [].

(** config/upstream.go:27-61 String *)
Definition print_upstream (u : upstream) : str :=
  if upstream_is_default u then $"no upstream"
  else
    net_name (u_net u) ++ [colon] ++ (if net_eqb (u_net u) Https then $"//" else []) ++
    (if contains_byte colon (u_host u) then $"[" ++ u_host u ++ $"]" else u_host u) ++
    (if (u_port u =? net_default_port (u_net u))%N then [] else [colon] ++ print_dec (u_port u)) ++
    u_path u.

(** config/config.go:165-182 ListenConfig.UnmarshalText *)
Definition listen_addresses (s : str) : list str :=
  map (fun a => if contains_byte colon a then a else colon :: a) (split_byte comma s).
