(** What the text of an upstream means (docs/configuration.md: [net:]host:[port][/path][#commonName]). *)
From Coq Require Import String Ascii List NArith.
From Verif Require Import Str Dns ParsersSpec ArpaSpec IpSpec ConfUpstream.
Import ListNotations.
Open Scope list_scope.

Definition letter_or_digit (c : ascii) : Prop :=
  let n := N_of_ascii c in (48 <= n <= 57 \/ 65 <= n <= 90 \/ 97 <= n <= 122)%N.

(** A label: letters, digits and hyphens, no hyphen first or last. *)
Inductive label_text : str -> Prop :=
| label_one c : letter_or_digit c -> label_text [c]
| label_more c m d : letter_or_digit c -> letter_or_digit d -> Forall (fun x => letter_or_digit x \/ x = "-"%char) m ->
    label_text (c :: m ++ [d]).

Inductive domain_text : str -> Prop :=
| domain_one l : label_text l -> domain_text l
| domain_more l d : label_text l -> domain_text d -> domain_text (l ++ $"." ++ d).

(** A host: a domain name or an address. *)
Definition host_text (h : str) : Prop := domain_text h \/ exists i, ip_text h i.

(** A port number: decimal, at most 65535, possibly surrounded by white space. *)
Definition port_text (s : str) (p : N) : Prop :=
  exists a d b, s = a ++ d ++ b /\ Forall white a /\ Forall white b /\ number_text 10 d p /\ (p <= 65535)%N.

(** Host with or without port.  The brackets needed for IPv6 addresses with a port are accepted around
    every host, and a single bracket is ignored. *)
Inductive host_port_text (default : N) : str -> str -> N -> Prop :=
| hp_bare h : host_text h -> host_port_text default h h default
| hp_open h : host_text h -> host_port_text default ($"[" ++ h) h default
| hp_close h : host_text h -> host_port_text default (h ++ $"]") h default
| hp_brackets h : host_text h -> host_port_text default ($"[" ++ h ++ $"]") h default
| hp_port h s p : host_text h -> ~ In ":"%char h -> port_text s p -> host_port_text default (h ++ $":" ++ s) h p
| hp_brackets_port h s p : host_text h -> port_text s p -> host_port_text default ($"[" ++ h ++ $"]:" ++ s) h p.

(** The protocol; without one it is "tcp+udp". *)
Inductive net_text : str -> net_protocol -> Prop :=
| net_none : net_text [] TcpUdp
| net_tcp_udp : net_text ($"tcp+udp:") TcpUdp
| net_tcp_tls : net_text ($"tcp-tls:") TcpTls
| net_https : net_text ($"https:") Https
| net_https_slashes : net_text ($"https://") Https.

Definition documented_port (n : net_protocol) : N := match n with TcpUdp => 53 | TcpTls => 853 | Https => 443 end.

(** [s] is a text for the upstream [u].  A text without protocol must not look like one with protocol (a
    host "https" with a port). *)
Definition upstream_text (s : str) (u : upstream) : Prop :=
  exists net hp rest,
    s = net ++ hp ++ u_path u ++ rest /\
    net_text net (u_net u) /\
    (net = [] -> forall n m t, net_text n m -> n <> [] -> hp <> n ++ t) /\
    host_port_text (documented_port (u_net u)) hp (u_host u) (u_port u) /\
    (u_path u = [] \/ exists t, u_path u = $"/" ++ t) /\ ~ In "#"%char (u_path u) /\
    (rest = [] /\ u_cn u = [] \/ rest = $"#" ++ u_cn u).

(** Without the common name. *)
Definition nameless (u : upstream) : upstream :=
  {| u_net := u_net u; u_host := u_host u; u_port := u_port u; u_path := u_path u; u_cn := [] |}.
