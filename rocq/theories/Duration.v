(** Durations in the configuration: /repo/config/duration.go, with strconv.Atoi and time.ParseDuration of Go's
    standard library.  Durations are nanoseconds, 64 bit. *)
From Coq Require Import String Ascii List Arith NArith ZArith Bool.
From Verif Require Import Str Num.
Import ListNotations.
Open Scope list_scope.

(** Conversion to int64 -- the product of config/duration.go:50 *)
Definition int64 (z : Z) : Z := ((z + 9223372036854775808) mod 18446744073709551616 - 9223372036854775808)%Z.

(** strconv.Atoi on a 64 bit system; None: error -- config/duration.go:48 *)
Definition atoi (s : str) : option Z :=
  let '(neg, ds) := match s with
                    | c :: t => if Ascii.eqb c "-" then (true, t) else if Ascii.eqb c "+" then (false, t) else (false, s)
                    | [] => (false, [])
                    end in
  match ds with
  | [] => None
  | _ => match parse_digits 10 0 ds with
         | Some n => if neg then if (n <=? 9223372036854775808)%N then Some (- Z.of_N n)%Z else None
                     else if (n <? 9223372036854775808)%N then Some (Z.of_N n) else None
         | None => None
         end
  end.

(** c in '0'..'9', as tested by Go's time.ParseDuration (config/duration.go:57) *)
Definition is_dec (c : ascii) : bool := match digit_val 10 c with Some _ => true | None => false end.

(** time.leadingInt: None: overflow; else the number and the rest -- config/duration.go:57 *)
Fixpoint leading_int (s : str) (x : N) : option (N * str) :=
  match s with
  | c :: t => match digit_val 10 c with
              | Some d => if (922337203685477580 <? x)%N then None
                          else let y := (x * 10 + d)%N in
                               if (9223372036854775808 <? y)%N then None else leading_int t y
              | None => Some (x, s)
              end
  | [] => Some (x, [])
  end.

(** The longest prefix of digits and the rest (the text read by time.leadingFraction). -- config/duration.go:57 *)
Fixpoint span_dec (s : str) : str * str :=
  match s with
  | c :: t => if is_dec c then let '(a, b) := span_dec t in (c :: a, b) else ([], s)
  | [] => ([], [])
  end.

(** The text up to the next dot or digit, and the rest (time.ParseDuration, "Consume unit") -- config/duration.go:57 *)
Fixpoint span_unit (s : str) : str * str :=
  match s with
  | c :: t => if Ascii.eqb c dot || is_dec c then ([], s) else let '(a, b) := span_unit t in (c :: a, b)
  | [] => ([], [])
  end.

(** time.unitMap; the two texts with non-ASCII letters are the micro sign and the Greek letter mu, in UTF-8 -- config/duration.go:57 *)
Definition unit_map (u : str) : option N :=
  if str_eqb u ($"ns") then Some 1%N
  else if str_eqb u ($"us") then Some 1000%N
  else if str_eqb u (["194"; "181"; "s"])%char then Some 1000%N
  else if str_eqb u (["206"; "188"; "s"])%char then Some 1000%N
  else if str_eqb u ($"ms") then Some 1000000%N
  else if str_eqb u ($"s") then Some 1000000000%N
  else if str_eqb u ($"m") then Some 60000000000%N
  else if str_eqb u ($"h") then Some 3600000000000%N
  else None.

Section Fraction.
  (** Value of a decimal fraction of a unit: [fraction ds unit] for the digits [ds] behind the point.  The
      code computes it with floating point numbers (time.leadingFraction and the lines "if f > 0"); it is a
      parameter here. *)
  Variable fraction : str -> N -> N.

  (** time.ParseDuration, one round of the loop: the value read and the rest; None: error -- config/duration.go:57 *)
  Definition duration_part (s : str) : option (N * str) :=
    match s with
    | [] => None
    | c :: _ =>
        if negb (Ascii.eqb c dot || is_dec c) then None else
        match leading_int s 0 with
        | None => None
        | Some (v, s1) =>
            let pre := negb (length s =? length s1) in
            let '(ds, s2, post) := match s1 with
                                   | c :: t => if Ascii.eqb c dot then let '(ds, r) := span_dec t in (ds, r, negb (length t =? length r))
                                               else ([], s1, false)
                                   | [] => ([], s1, false)
                                   end in
            if negb pre && negb post then None else
            let '(u, s3) := span_unit s2 in
            match u with
            | [] => None
            | _ => match unit_map u with
                   | None => None
                   | Some unit =>
                       if (9223372036854775808 / unit <? v)%N then None else
                       let v' := (v * unit + match ds with [] => 0 | _ => fraction ds unit end)%N in
                       if (9223372036854775808 <? v')%N then None else Some (v', s3)
                   end
            end
        end
    end.

  (** time.ParseDuration, the loop; the sum is an unsigned 64 bit number -- config/duration.go:57 *)
  Fixpoint duration_loop (fuel : nat) (s : str) (d : N) : option N :=
    match s with
    | [] => Some d
    | _ => match fuel with
           | O => None
           | S fuel => match duration_part s with
                       | None => None
                       | Some (v, s') =>
                           let d' := ((d + v) mod 18446744073709551616)%N in
                           if (9223372036854775808 <? d')%N then None else duration_loop fuel s' d'
                       end
           end
    end.

  (** time.ParseDuration; None: error -- config/duration.go:57 *)
  Definition parse_duration (s : str) : option Z :=
    let '(neg, s) := match s with
                     | c :: t => if Ascii.eqb c "-" then (true, t) else if Ascii.eqb c "+" then (false, t) else (false, s)
                     | [] => (false, [])
                     end in
    if str_eqb s ($"0") then Some 0%Z
    else match s with
         | [] => None
         | _ => match duration_loop (length s) s 0 with
                | None => None
                | Some d => if neg then Some (- Z.of_N d)%Z
                            else if (9223372036854775807 <? d)%N then None else Some (Z.of_N d)
                end
         end.

  (** config/duration.go:44-65 UnmarshalText; None: error *)
  Definition duration_of_text (s : str) : option Z :=
    match atoi s with
    | Some minutes => Some (int64 (minutes * 60000000000))
    | None => parse_duration s
    end.
End Fraction.

(** config/duration.go:19-27 IsAboveZero, IsAtLeastZero *)
Definition is_above_zero (d : Z) : bool := (0 <? d)%Z.
(** config/duration.go:24-27 IsAtLeastZero *)
Definition is_at_least_zero (d : Z) : bool := (0 <=? d)%Z.
