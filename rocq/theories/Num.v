(** Numbers as text: the functions of Go's package strconv used by the modelled
    code, for unsigned numbers. *)
From Coq Require Import String Ascii List Arith NArith Bool.
From Verif Require Import Str.
Import ListNotations.

(** Value of one digit in the given base (strconv.ParseUint: digits and letters of
    either case; other characters are a syntax error). -- config/config.go:614, util/arpa.go:46 *)
Definition digit_val (base : N) (c : ascii) : option N :=
  let n := N_of_ascii c in
  let v := if ((48 <=? n) && (n <=? 57))%N then Some (n - 48)%N
           else if ((97 <=? n) && (n <=? 122))%N then Some (n - 87)%N
           else if ((65 <=? n) && (n <=? 90))%N then Some (n - 55)%N
           else None in
  match v with
  | Some d => if (d <? base)%N then Some d else None
  | None => None
  end.

(** The number written by the digits [s] after the number [acc]. -- the loop of strconv.ParseUint, config/config.go:614 *)
Fixpoint parse_digits (base acc : N) (s : str) : option N :=
  match s with
  | [] => Some acc
  | c :: s' => match digit_val base c with
               | Some d => parse_digits base (acc * base + d) s'
               | None => None
               end
  end.

(** strconv.ParseUint(s, base, bits) for an explicit base (10 or 16): [None] is an
    error (empty text, a bad character, or a value out of range). -- config/config.go:614, util/arpa.go:46, 75, config/ecs.go:71 *)
Definition parse_uint (base bits : N) (s : str) : option N :=
  match s with
  | [] => None
  | _ => match parse_digits base 0 s with
         | Some n => if (n <? 2 ^ bits)%N then Some n else None
         | None => None
         end
  end.

(** One decimal or (lower-case) hexadecimal digit. -- the digits of strconv.Itoa and net.IP.String *)
Definition digit (d : N) : ascii := ascii_of_N (if (d <? 10)%N then 48 + d else 87 + d).

(** Decimal digits of [n], last digit first. -- the loop of strconv.Itoa *)
Fixpoint rev_digits (fuel : nat) (n : N) : str :=
  match fuel with
  | O => []
  | S f => if (n <? 10)%N then [digit n] else digit (n mod 10) :: rev_digits f (n / 10)
  end.

(** strconv.Itoa / FormatUint(n, 10) for n >= 0 -- resolver/upstream_resolver.go:137, config/upstream.go:53 *)
Definition print_dec (n : N) : str := rev (rev_digits (S (N.to_nat (N.log2 n))) n).
