(** What the values of the configuration are documented to be (docs/configuration.md). *)
From Coq Require Import String Ascii List Arith NArith ZArith.
From Verif Require Import Str ConfValues.
Import ListNotations.
Open Scope list_scope.

(** The names with their values in the order of the declarations in config/config.go:43-157, log/logger.go:29-33. *)
Definition documented : list (enum * list (str * Z)) :=
  [(ip_version_enum, [($"dual", 0); ($"v4", 1); ($"v6", 2)]);
   (init_strategy_enum, [($"blocking", 0); ($"failOnError", 1); ($"fast", 2)]);
   (net_protocol_enum, [($"tcp+udp", 0); ($"tcp-tls", 1); ($"https", 2)]);
   (query_log_type_enum, [($"console", 0); ($"none", 1); ($"mysql", 2); ($"postgresql", 3); ($"csv", 4); ($"csv-client", 5); ($"timescale", 6)]);
   (tls_version_enum, [($"1.0", 769); ($"1.1", 770); ($"1.2", 771); ($"1.3", 772)]);
   (upstream_strategy_enum, [($"parallel_best", 0); ($"strict", 1); ($"random", 2)]);
   (format_type_enum, [($"text", 0); ($"json", 1)])]%Z.
