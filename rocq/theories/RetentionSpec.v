(** What a user expects of the query log over restarts.  Independent of the functions of Retention.v. *)
From Coq Require Import String Ascii List NArith ZArith.
From Verif Require Import Str QueryLog QueryLogSpec Retention.
Import ListNotations.

(** The local clock between two times: the day of a time began at most 25 hours before it, and going back some days is going back as
    many times 24 hours, up to an hour. *)
Definition clock (civil_of : Z -> civil) (midnight : N -> N -> N -> Z) (days_before : N -> Z -> Z) (lo hi : Z) : Prop :=
  (forall t, (lo <= t <= hi)%Z -> (c_year (civil_of t) < 10000)%N /\ valid_date (c_year (civil_of t)) (c_month (civil_of t)) (c_day (civil_of t)) /\
     let m := midnight (c_year (civil_of t)) (c_month (civil_of t)) (c_day (civil_of t)) in (m <= t < m + 90000)%Z) /\
  forall days t, (lo <= t <= hi)%Z -> (t - 86400 * Z.of_N days - 3600 <= days_before days t <= t - 86400 * Z.of_N days + 3600)%Z.

(** The retentions of the starts of a history. *)
Definition retentions (P : N -> Prop) (ops : list life_op) : Prop := forall attempts days, In (Start attempts days) ops -> P days.

(** The process goes on. *)
Definition goes_on (ops : list life_op) : Prop := ~ In Stop ops /\ retentions (fun _ => False) ops.

(** How long an entry may stay beyond its days of retention, in seconds: a file is for a day, and the next look at the log is after half a day. *)
Definition grace (t : log_type) : Z := match t with LCsv | LCsvClient => 86400 + 43200 | _ => 3600 + 43200 end.

(** Nothing fails. *)
Definition works (fails : sql -> option str) : Prop := forall c, fails c = None.

(** An error says 1060. *)
Definition says_1060 (text : str) : Prop := exists a b, text = (a ++ $"1060" ++ b)%list.

(** What each database is to have when the log is used. *)
Definition ready (t : log_type) (s : schema) : Prop :=
  sc_table s = true /\
  match t with
  | LMysql | LPostgresql => sc_id s = true
  | LTimescale => sc_hyper s = true /\ exists days, sc_policy s = Some days
  | _ => True
  end.
