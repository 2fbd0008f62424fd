(** What the commands of the command line are to achieve. *)
From Coq Require Import String Ascii List NArith ZArith.
From Verif Require Import Str ArpaSpec DurationSpec.
Import ListNotations.
Open Scope list_scope.

(** Decimal fractions of a unit that are whole nanoseconds are computed exactly (time.ParseDuration uses floating point
    numbers, which are exact for these numbers below 2^53). *)
Definition exact_fraction (fraction : str -> N -> N) : Prop :=
  forall f n u k j, number_text 10 f n -> time_unit u k -> (k = 10 ^ N.of_nat (length f) * j)%N -> fraction f k = (n * j)%N.

(** A name that can be one of several in a list. *)
Definition list_name (g : str) : Prop := g <> [] /\ ~ In ","%char g.

(** [url] is the address of the REST interface of a server listening at [addr]. *)
Definition interface_at (addr url : str) : Prop :=
  exists h p q n, addr = h ++ $":" ++ p /\ ~ In ":"%char p /\ number_text 10 p n /\
    url = $"http://" ++ h ++ $":" ++ q ++ $"/api" /\ number_text 10 q n.
