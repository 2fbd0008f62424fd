(** What the text of a duration means. *)
From Coq Require Import String Ascii List NArith ZArith.
From Verif Require Import Str ArpaSpec.
Import ListNotations.
Open Scope list_scope.

(** Texts of signed things: no sign, plus or minus. *)
Inductive signed (P : str -> N -> Prop) : str -> Z -> Prop :=
| signed_none s n : P s n -> signed P s (Z.of_N n)
| signed_plus s n : P s n -> signed P ($"+" ++ s) (Z.of_N n)
| signed_minus s n : P s n -> signed P ($"-" ++ s) (- Z.of_N n).

(** Nanoseconds per unit. *)
Inductive time_unit : str -> N -> Prop :=
| unit_ns : time_unit ($"ns") 1
| unit_us : time_unit ($"us") 1000
| unit_micro : time_unit ["194"; "181"; "s"]%char 1000
| unit_mu : time_unit ["206"; "188"; "s"]%char 1000
| unit_ms : time_unit ($"ms") 1000000
| unit_s : time_unit ($"s") 1000000000
| unit_m : time_unit ($"m") 60000000000
| unit_h : time_unit ($"h") 3600000000000.

Definition digits (s : str) : Prop := Forall (fun c => exists d, is_digit 10 c d) s.

(** A number with unit: [n] of the unit [k], possibly with a decimal fraction. *)
Inductive amount (fraction : str -> N -> N) : str -> N -> Prop :=
| amount_whole d n u k : number_text 10 d n -> time_unit u k -> amount fraction (d ++ u) (n * k)
| amount_dot d n u k : number_text 10 d n -> time_unit u k -> amount fraction (d ++ $"." ++ u) (n * k)
| amount_point d n f u k : number_text 10 d n -> digits f -> f <> [] -> time_unit u k ->
    amount fraction (d ++ $"." ++ f ++ u) (n * k + fraction f k)
| amount_fraction f u k : digits f -> f <> [] -> time_unit u k -> amount fraction ($"." ++ f ++ u) (fraction f k).

(** One or more numbers with units: their sum. *)
Inductive amounts (fraction : str -> N -> N) : str -> N -> Prop :=
| amounts_one s n : amount fraction s n -> amounts fraction s n
| amounts_more s n t m : amount fraction s n -> amounts fraction t m -> amounts fraction (s ++ t) (n + m).
