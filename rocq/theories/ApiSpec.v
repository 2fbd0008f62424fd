(** What the parameters of the blocking commands mean. *)
From Coq Require Import String Ascii List NArith ZArith.
From Verif Require Import Str Dns Blocking BlockingSpec DurationSpec Api.
Import ListNotations.
Open Scope list_scope.

(** The text of a duration with units, or zero. *)
Definition duration_means (fraction : str -> N -> N) (t : str) (d : Z) : Prop :=
  signed (amounts fraction) t d \/ (d = 0%Z /\ (t = $"0" \/ t = $"+0" \/ t = $"-0")).

(** The duration asked for; zero (for ever) without the parameter. *)
Definition asked_duration (fraction : str -> N -> N) (p : option str) (d : Z) : Prop :=
  match p with
  | None => d = 0%Z
  | Some t => duration_means fraction t d /\ (-9223372036854775808 <= d < 9223372036854775808)%Z
  end.

(** The group [g] is among the groups asked for. *)
Definition asks_group (p : option str) (g : str) : Prop :=
  exists t, p = Some t /\ t <> [] /\ comma_part t g.

(** No group is given: all are meant. *)
Definition asks_all (p : option str) : Prop := p = None \/ p = Some [].

(** One line of text. *)
Definition one_line (s : str) : Prop := ~ In "010"%char s /\ ~ In "013"%char s.

(** Two instances block alike. *)
Definition same_blocking (a b : blk_state) : Prop := bt_enabled a = bt_enabled b /\ bt_disabled a = bt_disabled b.

(** Only instance [w] gets commands and no timer fires. *)
Definition one_writer (w : nat) (o : cluster_op) : Prop :=
  match o with UEnable i => i = w | UDisable i _ _ _ => i = w | UReceive _ _ => True | UFire _ _ | UCallback _ _ => False end.
