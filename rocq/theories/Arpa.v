(** Reverse-lookup names: util/arpa.go and miekg/dns ReverseAddr. *)
From Coq Require Import String Ascii List Arith NArith Bool.
From Verif Require Import Str Num Dns.
Import ListNotations.

(** util/arpa.go:11-12 *)
Definition ipv4_ptr_suffix : str := $".in-addr.arpa.".
(** util/arpa.go:12 *)
Definition ipv6_ptr_suffix : str := $".ip6.arpa.".

(** A 16-byte net.IP; the IPv4-mapped ones are identified with the IPv4 address
    (convention of [Dns.ip], as net.IP.To4, Equal and String do). -- as in util/arpa.go:57-92 *)
Definition ip_of_16 (b : list N) : ip :=
  if byte_list_eqb (firstn 12 b) [0;0;0;0;0;0;0;0;0;0;255;255]%N then IP4 (skipn 12 b) else IP6 b.

(** util/arpa.go:42-50, the loop: the parts (last one first) as bytes *)
Fixpoint arpa_bytes (parts : list str) : option (list N) :=
  match parts with
  | [] => Some []
  | p :: parts' => match parse_uint 10 8 p with
                   | Some n => match arpa_bytes parts' with Some l => Some (n :: l) | None => None end
                   | None => None
                   end
  end.

(** util/arpa.go:30-53 parseIPv4FromArpaAddr; [None] is an error *)
Definition parse_ipv4_arpa (arpa : str) : option ip :=
  let parts := split_byte dot (trim_suffix arpa ipv4_ptr_suffix) in
  if (length parts =? 4)%nat
  then match arpa_bytes (rev parts) with Some b => Some (IP4 b) | None => None end
  else None.

(** util/arpa.go:72-87, the loop over pairs of parts (last one first): msNibble << 4
    | lsNibble, converted to a byte *)
Fixpoint arpa_nibbles (parts : list str) : option (list N) :=
  match parts with
  | ms :: ls :: parts' =>
      match parse_uint 16 8 ms, parse_uint 16 8 ls with
      | Some m, Some l =>
          match arpa_nibbles parts' with
          | Some r => Some (N.modulo (N.lor (N.shiftl m 4) l) 256 :: r)
          | None => None
          end
      | _, _ => None
      end
  | _ => Some []
  end.

(** util/arpa.go:55-90 parseIPv6FromArpaAddr *)
Definition parse_ipv6_arpa (arpa : str) : option ip :=
  let parts := split_byte dot (trim_suffix arpa ipv6_ptr_suffix) in
  if (length parts =? 32)%nat
  then match arpa_nibbles (rev parts) with Some b => Some (ip_of_16 b) | None => None end
  else None.

(** util/arpa.go:20-28 ParseIPFromArpaAddr *)
Definition parse_arpa (arpa : str) : option ip :=
  if has_suffix arpa ipv4_ptr_suffix then parse_ipv4_arpa arpa
  else if has_suffix arpa ipv6_ptr_suffix then parse_ipv6_arpa arpa
  else None.

(** miekg/dns ReverseAddr (used by resolver/custom_dns_resolver.go:56,63 and
    resolver/client_names_resolver.go:127) applied to the text of an address *)
Definition reverse_addr (i : ip) : str :=
  match i with
  | IP4 b => flat_map (fun x => print_dec x ++ [dot]) (rev b) ++ $"in-addr.arpa."
  | IP6 b => flat_map (fun x => [digit (x mod 16); dot; digit (x / 16); dot]) (rev b) ++ $"ip6.arpa."
  end.
