(** Specification for reverse-lookup names. *)
From Coq Require Import String Ascii List NArith.
From Verif Require Import Str Dns.
Import ListNotations.

(** [c] is a digit of value [d] in a base up to 16, in either letter case. *)
Definition is_digit (base : N) (c : ascii) (d : N) : Prop :=
  (d < base)%N /\
  ((N_of_ascii c = 48 + d /\ d < 10) \/ (N_of_ascii c = 87 + d /\ 10 <= d) \/ (N_of_ascii c = 55 + d /\ 10 <= d))%N.

(** [s] is the number [n] written with digits, possibly with leading zeros. *)
Inductive number_text (base : N) : str -> N -> Prop :=
| nt_one c d : is_digit base c d -> number_text base [c] d
| nt_more s n c d : number_text base s n -> is_digit base c d -> number_text base (s ++ [c]) (base * n + d).

(** A valid address: 4 bytes, or 16 bytes that are not an IPv4-mapped address (those
    are represented as IPv4 addresses). *)
Definition valid_ip (i : ip) : Prop :=
  match i with
  | IP4 b => length b = 4 /\ Forall (fun x => x < 256)%N b
  | IP6 b => length b = 16 /\ Forall (fun x => x < 256)%N b /\
             ~ exists t, b = [0;0;0;0;0;0;0;0;0;0;255;255]%N ++ t
  end.

(** [s] is the texts [ps], each followed by a dot. *)
Fixpoint with_dots (ps : list str) : str := match ps with [] => [] | p :: ps' => p ++ dot :: with_dots ps' end.

(** A (loosely) well-formed IPv4 reverse name of the address with bytes [b]. *)
Definition arpa4 (s : str) (b : list N) : Prop :=
  exists ps, s = with_dots ps ++ $"in-addr.arpa." /\ length b = 4 /\
    Forall2 (fun p x => number_text 10 p x /\ (x < 256)%N) ps (rev b).

(** Each byte from two hexadecimal numbers: low digit, then high digit. *)
Inductive nibble_pairs : list str -> list N -> Prop :=
| np_nil : nibble_pairs [] []
| np_cons lo hi ps l h bs : number_text 16 lo l -> number_text 16 hi h -> (l < 16 /\ h < 16)%N ->
    nibble_pairs ps bs -> nibble_pairs (lo :: hi :: ps) ((16 * h + l)%N :: bs).

(** A (loosely) well-formed IPv6 reverse name of the address with bytes [b]. *)
Definition arpa6 (s : str) (b : list N) : Prop :=
  exists ps, s = with_dots ps ++ $"ip6.arpa." /\ length b = 16 /\ nibble_pairs ps (rev b).
