(** What start-up strategies and periodic refreshes should look like from outside. *)
From Coq Require Import List Arith ZArith Bool.
From Verif Require Import Startup.
Import ListNotations.

(** The events of one of the two callers. *)
Definition of_runner (w : runner) (ev : event) : bool :=
  match ev, w with
  | ERun RInit, RInit | EEnd RInit _, RInit | ELog RInit _, RInit => true
  | ERun RPeriodic, RPeriodic | EEnd RPeriodic _, RPeriodic | ELog RPeriodic _, RPeriodic => true
  | _, _ => false
  end.

(** How an outcome is described in the log and in the result. *)
Inductive described : runner -> outcome -> error -> Prop :=
| described_error w e : described w (RError e) (EPlain e)
| described_init v : described RInit (RPanic v) (EInitPanic v)
| described_refresh v : described RPeriodic (RPanic v) (ERefreshPanic v).

(** One complete run: started, ended, and logged iff it failed. *)
Inductive round (w : runner) : list event -> Prop :=
| round_ok : round w [ERun w; EEnd w ROk]
| round_failed o e : described w o e -> round w [ERun w; EEnd w o; ELog w e].

(** A run that is going on. *)
Inductive begun (w : runner) : list event -> Prop :=
| begun_run : begun w [ERun w]
| begun_unlogged o e : described w o e -> begun w [ERun w; EEnd w o].

(** The function is running: it has been started more often than it has ended. *)
Definition running (w : runner) (t : list event) : Prop :=
  length (filter (fun ev => match ev, w with ERun RInit, RInit | ERun RPeriodic, RPeriodic => true | _, _ => false end) t) >
  length (filter (fun ev => match ev, w with EEnd RInit _, RInit | EEnd RPeriodic _, RPeriodic => true | _, _ => false end) t).

(** How often something happens. *)
Definition runs (w : runner) (t : list event) : nat :=
  length (filter (fun ev => match ev, w with ERun RInit, RInit | ERun RPeriodic, RPeriodic => true | _, _ => false end) t).
Definition ticks (t : list event) : nat := length (filter (fun ev => match ev with ETick => true | _ => false end) t).
Definition main_steps (acts : list action) : nat := length (filter (fun a => match a with AMain _ => true | _ => false end) acts).
