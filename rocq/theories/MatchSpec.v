(** What the identifiers of clients mean: patterns (the documentation of path/filepath.Match) and networks. *)
From Coq Require Import String Ascii List Arith NArith Bool.
From Verif Require Import Str Dns ArpaSpec IpSpec Blocking BlockingSpec.
Import ListNotations.
Open Scope list_scope.

(** ** Patterns *)
Inductive item :=
| AnyText                                             (* the star: any text without a slash *)
| AnyChar                                             (* the question mark: any character but a slash *)
| OneOf (negated : bool) (ranges : list (ascii * ascii))
| Char (c : ascii).

(** A character inside brackets. *)
Inductive class_char : str -> ascii -> Prop :=
| cc_plain c : ~ In c ["-"; "]"; "\"]%char -> class_char [c] c
| cc_escaped c : class_char ["\"%char; c] c.

Inductive class_range : str -> ascii * ascii -> Prop :=
| cr_one s c : class_char s c -> class_range s (c, c)
| cr_two s lo t hi : class_char s lo -> class_char t hi -> class_range (s ++ $"-" ++ t) (lo, hi).

Inductive class_text : str -> list (ascii * ascii) -> Prop :=
| ct_one s r : class_range s r -> class_text s [r]
| ct_more s r t rs : class_range s r -> class_text t rs -> class_text (s ++ t) (r :: rs).

Inductive item_text : str -> item -> Prop :=
| it_star : item_text $"*" AnyText
| it_one : item_text $"?" AnyChar
| it_class s rs : class_text s rs -> (forall t, s <> "^"%char :: t) -> item_text ($"[" ++ s ++ $"]") (OneOf false rs)
| it_negated s rs : class_text s rs -> item_text ($"[^" ++ s ++ $"]") (OneOf true rs)
| it_char c : ~ In c ["*"; "?"; "["; "\"]%char -> item_text [c] (Char c)
| it_escaped c : item_text ["\"%char; c] (Char c).

(** [p] is the text of the pattern [is]. *)
Inductive pattern_text : str -> list item -> Prop :=
| pt_nil : pattern_text [] []
| pt_cons s i t is : item_text s i -> pattern_text t is -> pattern_text (s ++ t) (i :: is).

Definition in_range (c : ascii) (r : ascii * ascii) : Prop :=
  nat_of_ascii (fst r) <= nat_of_ascii c <= nat_of_ascii (snd r).

Inductive item_accepts : item -> str -> Prop :=
| ia_text s : ~ In "/"%char s -> item_accepts AnyText s
| ia_char c : c <> "/"%char -> item_accepts AnyChar [c]
| ia_class rs c r : In r rs -> in_range c r -> item_accepts (OneOf false rs) [c]
| ia_negated rs c : (forall r, In r rs -> ~ in_range c r) -> item_accepts (OneOf true rs) [c]
| ia_literal c : item_accepts (Char c) [c].

Inductive accepts : list item -> str -> Prop :=
| ac_nil : accepts [] []
| ac_cons i s is t : item_accepts i s -> accepts is t -> accepts (i :: is) (s ++ t).

(** The pattern written [p] accepts the name [n]. *)
Definition pattern_accepts (p n : str) : Prop := exists is, pattern_text p is /\ accepts is n.

(** ** Networks *)
(** Bit [k] of a sequence of bytes, counted from the most significant bit of the first one. *)
Definition bit_at (b : list N) (k : nat) : bool := N.testbit (nth (k / 8) b 0%N) (N.of_nat (7 - k mod 8)).

Definition same_bits (n : nat) (a b : list N) : Prop := forall k, k < n -> bit_at a k = bit_at b k.

(** [s] is the text of a network with the address [i] in it. *)
Inductive network_of : str -> ip -> Prop :=
| net_v4 a net m n b : ipv4_text a net -> number_text 10 m n -> (n <= 32)%N ->
    same_bits (N.to_nat n) net b -> network_of (a ++ $"/" ++ m) (IP4 b)
| net_v6 a net m n b : ipv6_text a net -> number_text 10 m n -> (n <= 128)%N ->
    same_bits (N.to_nat n) net b -> network_of (a ++ $"/" ++ m) (IP6 b)
| net_mapped a net m n b : ipv6_text a ([0;0;0;0;0;0;0;0;0;0;255;255]%N ++ net) -> number_text 10 m n -> (96 <= n <= 128)%N ->
    same_bits (N.to_nat n - 96) net b -> network_of (a ++ $"/" ++ m) (IP4 b).

(** ** Clients *)
(** The lower-case identifier [ident] names the client of [req]: a pattern for one of its names, its
    address in canonical form, a network it is in, or a host name with its address. *)
Definition names_client (fqdn_ips : str -> list ip) (canonical : ip -> str) (ident : str) (req : request) : Prop :=
  (exists n low, In n (req_names req) /\ lowered n low /\ pattern_accepts ident low) \/
  (exists i, req_ip req = Some i /\
     (ident = canonical i \/ network_of ident i \/ (dotted_inside ident /\ In i (fqdn_ips ident)))).

(** Group [g] of the configuration is applied to the client of [req]: it is given to an identifier that
    names the client, or no identifier names it and [g] is a default; and it is not switched off. *)
Definition group_of_client (cfg : blk_cfg) (fqdn_ips : str -> list ip) (canonical : ip -> str) (disabled : list str)
    (req : request) (g : str) : Prop :=
  let assigned g := exists ident, given cfg ident g /\ names_client fqdn_ips canonical ident req in
  (assigned g \/ ((forall g', ~ assigned g') /\ given cfg $"default" g)) /\ ~ In g disabled.

(** The upstream group [g] is right for the client with address [i] and names [ns]: its address in
    canonical form, else the pattern for the first name that has one, else a network, else the default. *)
Inductive upstream_group (canonical : ip -> str) (groups : list str) (i : ip) (ns : list str) : str -> Prop :=
| ug_address : In (canonical i) groups -> upstream_group canonical groups i ns (canonical i)
| ug_name g n low before after : ~ In (canonical i) groups -> ns = before ++ n :: after ->
    (forall n' g' low' lg', In n' before -> In g' groups -> lowered n' low' -> lowered g' lg' -> ~ pattern_accepts lg' low') ->
    In g groups -> lowered n low -> (exists lg, lowered g lg /\ pattern_accepts lg low) -> upstream_group canonical groups i ns g
| ug_net g : ~ In (canonical i) groups ->
    (forall n' g' low' lg', In n' ns -> In g' groups -> lowered n' low' -> lowered g' lg' -> ~ pattern_accepts lg' low') ->
    In g groups -> network_of g i -> upstream_group canonical groups i ns g
| ug_default : ~ In (canonical i) groups ->
    (forall n' g' low' lg', In n' ns -> In g' groups -> lowered n' low' -> lowered g' lg' -> ~ pattern_accepts lg' low') ->
    (forall g', In g' groups -> ~ network_of g' i) -> upstream_group canonical groups i ns $"default".
