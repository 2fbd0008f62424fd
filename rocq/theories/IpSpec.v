(** What the text of an address means (RFC 4291, section 2.2). *)
From Coq Require Import String Ascii List NArith.
From Verif Require Import Str Dns ArpaSpec.
Import ListNotations.
Open Scope list_scope.

(** Four decimal numbers below 256 without leading zeros, separated by dots. *)
Inductive octet : str -> N -> Prop :=
| octet_zero : octet ($"0") 0
| octet_text c s n : number_text 10 (c :: s) n -> c <> "0"%char -> (n < 256)%N -> octet (c :: s) n.

Inductive ipv4_text : str -> list N -> Prop :=
| ipv4 p q r s a b c d : octet p a -> octet q b -> octet r c -> octet s d ->
    ipv4_text (p ++ $"." ++ q ++ $"." ++ r ++ $"." ++ s) [a; b; c; d].

(** A group: one to four hexadecimal digits, two bytes. *)
Inductive group : str -> list N -> Prop :=
| group_text s hi lo : number_text 16 s (256 * hi + lo) -> (lo < 256)%N -> length s <= 4 -> group s [hi; lo].

(** Groups separated by colons. *)
Inductive hex_groups : str -> list N -> Prop :=
| hg_one s b : group s b -> hex_groups s b
| hg_more s b t c : group s b -> hex_groups t c -> hex_groups (s ++ $":" ++ t) (b ++ c).

(** The same, where the last part may be an IPv4 address. *)
Inductive tail_groups : str -> list N -> Prop :=
| tg_one s b : group s b -> tail_groups s b
| tg_v4 s b : ipv4_text s b -> tail_groups s b
| tg_more s b t c : group s b -> tail_groups t c -> tail_groups (s ++ $":" ++ t) (b ++ c).

Inductive ipv6_text : str -> list N -> Prop :=
| ipv6_full s b : tail_groups s b -> length b = 16 -> ipv6_text s b
| ipv6_short l lb z r rb :
    (l = [] /\ lb = [] \/ hex_groups l lb) -> (r = [] /\ rb = [] \/ tail_groups r rb) ->
    0 < z -> length lb + z + length rb = 16 ->
    ipv6_text (l ++ $"::" ++ r) (lb ++ repeat 0%N z ++ rb).

(** [s] is a text for the address [i]. *)
Inductive ip_text : str -> ip -> Prop :=
| it_v4 s b : ipv4_text s b -> ip_text s (IP4 b)
| it_v6 s b : ipv6_text s b -> valid_ip (IP6 b) -> ip_text s (IP6 b)
| it_mapped s b : ipv6_text s ([0;0;0;0;0;0;0;0;0;0;255;255]%N ++ b) -> ip_text s (IP4 b).
