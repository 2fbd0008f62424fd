(** How the texts of the mappings of customDNS and conditional are read (config/custom_dns.go,
    config/conditional_upstream.go).

    YAML itself is not modelled: a mapping is the list of its keys and texts, in the arbitrary order in which Go
    iterates over the map.  The parser of zone files is that of github.com/miekg/dns; the model starts with the
    records it returns. *)
From Coq Require Import String Ascii List Arith NArith Bool.
From Verif Require Import Str Dns Ip ConfUpstream.
Import ListNotations.
Open Scope list_scope.

(** The loops of config/custom_dns.go:74-83 and config/conditional_upstream.go:46-53: the first part that cannot be
    read is an error *)
Fixpoint read_all {A} (read : str -> option A) (parts : list str) : option (list A) :=
  match parts with
  | [] => Some []
  | p :: ps =>
      match read (trim_space p) with
      | None => None
      | Some a => match read_all read ps with Some l => Some (a :: l) | None => None end
      end
  end.

(** config/custom_dns.go:108-125 configToRR: a record without name, type, class and TTL *)
Definition config_to_rr (s : str) : option rr :=
  match go_parse_ip s with
  | None => None
  | Some i => Some {| rr_name := []; rr_type := 0; rr_class := 0; rr_ttl := 0;
                      rr_data := match i with IP4 _ => DA i | IP6 _ => DAAAA i end |}
  end.

(** config/custom_dns.go:68-89 CustomDNSEntries.UnmarshalYAML *)
Definition custom_entries (input : str) : option (list rr) := read_all config_to_rr (split_byte ","%char input).

(** config/conditional_upstream.go:44-56: the upstreams of one zone *)
Definition cond_upstreams (input : str) : option (list upstream) := read_all parse_upstream (split_byte ","%char input).

(** A whole mapping: config/conditional_upstream.go:43-57, and likewise YAML for the type of config/custom_dns.go:22 *)
Fixpoint read_mapping {A} (read : str -> option A) (texts : list (str * str)) : option (list (str * A)) :=
  match texts with
  | [] => Some []
  | (k, t) :: texts' =>
      match read t, read_mapping read texts' with
      | Some a, Some m => Some ((k, a) :: m)
      | _, _ => None
      end
  end.

(** config/custom_dns.go:37-63: the records of a zone by their names as written *)
Definition zone_groups (rrs : list rr) : list (str * list rr) :=
  fold_left (fun m r => mput str_eqb (rr_name r) (match mget str_eqb (rr_name r) m with Some l => l | None => [] end ++ [r]) m) rrs [].
