(** Values of the configuration: enumerations (config/config_enum.go, log/logger_enum.go), types of queries (config/qtype_set.go)
    and the checks after reading (config/config.go). *)
From Coq Require Import String Ascii List Arith NArith ZArith Bool.
From Verif Require Import Str Dns Bootstrap.
Import ListNotations.
Open Scope list_scope.

(** ** Enumerations *)

(** The generated code keeps the names in one text, with the places of each: config/config_enum.go:28-36 and the like *)
Record enum := { en_text : str; en_items : list (nat * nat * Z) }.

(** A slice of a text: config/config_enum.go:31-33 *)
Definition slice (a b : nat) (s : str) : str := firstn (b - a) (skipn a s).

(** The map from names to values: config/config_enum.go:73-77 and the like *)
Definition enum_values (e : enum) : list (str * Z) := map (fun '(a, b, v) => (slice a b (en_text e), v)) (en_items e).

(** Parse and UnmarshalText: config/config_enum.go:80-101, 169-190, 258-279, 464-485, 556-577, 642-663; log/logger_enum.go:65-86 *)
Definition enum_parse (e : enum) (s : str) : option Z := mget str_eqb s (enum_values e).

(** String and MarshalText: config/config_enum.go:59-64, 148-153, 237-242, 439-444, 534-539, 621-626; log/logger_enum.go:45-50; [None]: a value
    without name, printed with its number *)
Definition enum_string (e : enum) (v : Z) : option str :=
  match find (fun p => (snd p =? v)%Z) (enum_values e) with Some (s, _) => Some s | None => None end.

(** config/config_enum.go:14-36, 73-77 IPVersion *)
Definition ip_version_enum : enum := {| en_text := $"dualv4v6"; en_items := [(0, 4, 0%Z); (4, 6, 1%Z); (6, 8, 2%Z)] |}.
(** config/config_enum.go:103-165 InitStrategy *)
Definition init_strategy_enum : enum := {| en_text := $"blockingfailOnErrorfast"; en_items := [(0, 8, 0%Z); (8, 19, 1%Z); (19, 23, 2%Z)] |}.
(** config/config_enum.go:192-254 NetProtocol *)
Definition net_protocol_enum : enum := {| en_text := $"tcp+udptcp-tlshttps"; en_items := [(0, 7, 0%Z); (7, 14, 1%Z); (14, 19, 2%Z)] |}.
(** config/config_enum.go:370-460 QueryLogType *)
Definition query_log_type_enum : enum :=
  {| en_text := $"consolenonemysqlpostgresqlcsvcsv-clienttimescale";
     en_items := [(0, 7, 0%Z); (7, 11, 1%Z); (11, 16, 2%Z); (16, 26, 3%Z); (26, 29, 4%Z); (29, 39, 5%Z); (39, 48, 6%Z)] |}.
(** config/config_enum.go:487-552 TLSVersion: the numbers are those of the protocol *)
Definition tls_version_enum : enum := {| en_text := $"1.01.11.21.3"; en_items := [(0, 3, 769%Z); (3, 6, 770%Z); (6, 9, 771%Z); (9, 12, 772%Z)] |}.
(** config/config_enum.go:579-638 UpstreamStrategy *)
Definition upstream_strategy_enum : enum := {| en_text := $"parallel_beststrictrandom"; en_items := [(0, 13, 0%Z); (13, 19, 1%Z); (19, 25, 2%Z)] |}.
(** log/logger_enum.go:14-61 FormatType *)
Definition format_type_enum : enum := {| en_text := $"textjson"; en_items := [(0, 4, 0%Z); (4, 8, 1%Z)] |}.

(** config/config_enum.go:287-345 QueryLogField: the values are the names *)
Definition log_fields : list str := [$"clientIP"; $"clientName"; $"responseReason"; $"responseAnswer"; $"question"; $"duration"].
(** config/config_enum.go:348-367 ParseQueryLogField *)
Definition log_field_parse (s : str) : option str := if existsb (str_eqb s) log_fields then Some s else None.
(** The fields logged: config/query_log.go:28-32 SetDefaults unless configured *)
Definition fields_in_use (configured : option (list str)) : option (list str) :=
  match configured with
  | None => Some log_fields
  | Some l => fold_right (fun s acc => match log_field_parse s, acc with Some f, Some r => Some (f :: r) | _, _ => None end) (Some []) l
  end.

(** ** Checks after reading *)

(** config/config.go:92-102 TLSVersion.validate; the default of config/config.go:237 is "1.2" *)
Definition validate_tls (v : Z) : Z := if (v <? 771)%Z then 771%Z else v.
(** config/upstreams.go:21-28 Upstreams.validate; the default of config/upstreams.go:13 is two seconds *)
Definition validate_timeout (t : Z) : Z := if (0 <? t)%Z then t else 2000000000%Z.
(** server/server.go:83-99 newTLSConfig: MinVersion, from the text configured, if any, after config/config.go:602-605 validate *)
Definition served_tls (configured : option str) : option Z :=
  match configured with
  | None => Some (validate_tls 771)
  | Some s => match enum_parse tls_version_enum s with Some v => Some (validate_tls v) | None => None end
  end.
(** A handshake under crypto/tls: the highest version of the client's that the server takes too -- server/server.go:92-96 *)
Definition handshake (min : Z) (client : list Z) : option Z :=
  fold_left (fun best v => if (min <=? v)%Z && (v <=? 772)%Z then match best with Some b => if (b <? v)%Z then Some v else best | None => Some v end else best) client None.

(** ** Types of queries *)
Section Types.
(** dns.StringToType of miekg/dns, used by config/qtype_set.go:63 *)
Variable types : str -> option N.

(** config/qtype_set.go:60-76 QType.UnmarshalText *)
Definition qtype_node (n : node) : option N := match n with YText s => types s | _ => None end.

(** config/qtype_set.go:38-51 QTypeSet.UnmarshalYAML: the set of the list *)
Definition qtypes_node (n : node) : option (list N) := match n with YList l => read_nodes qtype_node l | _ => None end.
End Types.
