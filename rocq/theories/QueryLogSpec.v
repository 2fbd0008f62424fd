(** What the query log promises, without the functions of the model. *)
From Coq Require Import String Ascii List Arith Bool NArith ZArith.
From Verif Require Import Str ArpaSpec.
Import ListNotations.
Open Scope list_scope.

(** ** Letters and digits *)
Definition letter_or_digit (c : ascii) : Prop :=
  (N_of_ascii "a" <= N_of_ascii c <= N_of_ascii "z")%N \/
  (N_of_ascii "A" <= N_of_ascii c <= N_of_ascii "Z")%N \/
  (N_of_ascii "0" <= N_of_ascii c <= N_of_ascii "9")%N.

(** ** Order: [a] is [b] with some elements left out *)
Inductive subsequence {A} : list A -> list A -> Prop :=
| sub_nil : subsequence [] []
| sub_keep x a b : subsequence a b -> subsequence (x :: a) (x :: b)
| sub_drop x a b : subsequence a b -> subsequence a (x :: b).

(** ** Reading tab separated records (RFC 4180 with tabs).  The state is the fields read so far and
    the current field, both reversed. *)
Inductive csv_mode := FieldStart | Plain | Quoted | QuoteSeen.

Fixpoint read_csv (mode : csv_mode) (fields : list str) (cur : str) (s : str) : option (list str * str) :=
  match s with
  | [] => None
  | c :: s =>
      let end_field := rev cur :: fields in
      match mode with
      | Quoted => if Ascii.eqb c """" then read_csv QuoteSeen fields cur s else read_csv Quoted fields (c :: cur) s
      | _ =>
          if Ascii.eqb c "009" then read_csv FieldStart end_field [] s
          else if Ascii.eqb c "010" then Some (rev end_field, s)
          else match mode with
               | FieldStart => if Ascii.eqb c """" then read_csv Quoted fields cur s
                               else if Ascii.eqb c "013" then None else read_csv Plain fields (c :: cur) s
               | Plain => if Ascii.eqb c """" || Ascii.eqb c "013" then None else read_csv Plain fields (c :: cur) s
               | _ => if Ascii.eqb c """" then read_csv Quoted fields (c :: cur) s else None
               end
      end
  end.

(** One record and the rest of the file. *)
Definition read_record (s : str) : option (list str * str) := read_csv FieldStart [] [] s.

(** [s] consists of the records [rs]. *)
Inductive csv_file : str -> list (list str) -> Prop :=
| csv_end : csv_file [] []
| csv_more s r rest rs : read_record s = Some (r, rest) -> csv_file rest rs -> csv_file s (r :: rs).

(** ** Dates *)
Definition leap (y : N) : Prop := (exists k, y = 4 * k)%N /\ (~ (exists k, y = 100 * k)%N \/ exists k, y = (400 * k)%N).

Definition month_length (y m l : N) : Prop :=
  (In m [1; 3; 5; 7; 8; 10; 12]%N /\ l = 31%N) \/ (In m [4; 6; 9; 11]%N /\ l = 30%N) \/
  (m = 2%N /\ leap y /\ l = 29%N) \/ (m = 2%N /\ ~ leap y /\ l = 28%N).

Definition valid_date (y m d : N) : Prop := exists l, month_length y m l /\ (1 <= d <= l)%N.

(** The file name starts with the date. *)
Definition dated (f : str) (y m d : N) : Prop :=
  exists ys ms ds rest, f = ys ++ "-"%char :: ms ++ "-"%char :: ds ++ rest /\
    length ys = 4 /\ length ms = 2 /\ length ds = 2 /\
    number_text 10 ys y /\ number_text 10 ms m /\ number_text 10 ds d /\ valid_date y m d.

(** Number of a day, day 1 of year 1 is 1 (Gregorian calendar). *)
Definition day_number (y m d : N) : Z :=
  let y1 := (Z.of_N y - 1)%Z in
  let leap_day := if ((Z.of_N y mod 4 =? 0) && (negb (Z.of_N y mod 100 =? 0) || (Z.of_N y mod 400 =? 0)))%Z then 1%Z else 0%Z in
  (365 * y1 + y1 / 4 - y1 / 100 + y1 / 400 +
   nth (N.to_nat m) [0; 0; 31; 59; 90; 120; 151; 181; 212; 243; 273; 304; 334] 0 + (if (2 <? m)%N then leap_day else 0) +
   Z.of_N d)%Z.
