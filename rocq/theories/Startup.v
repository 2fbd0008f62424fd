(** Start-up strategies and periodic refreshes: /repo/config/config.go InitStrategy.Do,
    SourceLoading.StartPeriodicRefresh, periodically and recoverToError, as used by list_cache.go:92 and
    hosts_file_resolver.go:48, with their goroutines as interleaved steps. *)
From Coq Require Import List Arith ZArith Bool.
Import ListNotations.

(** config/config.go:115-120 InitStrategy *)
Inductive strategy := SBlocking | SFailOnError | SFast.

(** config/config.go:394-406: what the function passed to recoverToError does *)
Inductive outcome := ROk | RError (e : nat) | RPanic (v : nat).

(** Errors: those of the function itself, and the texts of config/config.go:124 and 376 for panics *)
Inductive error := EPlain (e : nat) | EInitPanic (v : nat) | ERefreshPanic (v : nat).

(** Which of the two callers runs the function: Do (config/config.go:122-148) or periodically (372-392) *)
Inductive runner := RInit | RPeriodic.

(** config/config.go:394-406 recoverToError with the two functions of 123-125 and 375-377 *)
Definition recovered (w : runner) (o : outcome) : option error :=
  match o with
  | ROk => None
  | RError e => Some (EPlain e)
  | RPanic v => Some (match w with RInit => EInitPanic v | RPeriodic => ERefreshPanic v end)
  end.

(** What can be observed: the function starts and ends (config/config.go:129, 138, 386), an error is logged
    (131, 140, 388), StartPeriodicRefresh returns (361, 368), the ticker fires (379), the context is done, the
    periodic goroutine ends (392) *)
Inductive event :=
| ERun (w : runner) | EEnd (w : runner) (o : outcome) | ELog (w : runner) (e : error)
| EReturn (r : option error) | ETick | ECancel | EStopped.

(** The goroutine that calls StartPeriodicRefresh (config/config.go:356-370): before the call of Do, in init
    (138), before logErr (140), after Do (360), after the start of the other goroutine (366), after the return *)
Inductive main_pc := MBegin | MInit | MLogging (e : error) | MDo (r : option error) | MLeaving | MReturned.

(** The goroutine of the strategy "fast" (config/config.go:128-133): not started, before init, in init, before
    logErr, ended *)
Inductive back_pc := BNone | BPending | BInit | BLogging (e : error) | BEnded.

(** The goroutine running periodically (config/config.go:372-392): not started, at the select, in refresh, before
    logErr, ended *)
Inductive per_pc := PNone | PSelect | PRefresh | PLogging (e : error) | PEnded.

(** The state of config/config.go:356-392: the three goroutines, whether the ticker's channel (which holds one
    value) is full, and whether the context is done *)
Record state := { st_main : main_pc; st_back : back_pc; st_per : per_pc; st_tick : bool; st_done : bool }.

(** config/config.go:356: the state before the call *)
Definition init : state := {| st_main := MBegin; st_back := BNone; st_per := PNone; st_tick := false; st_done := false |}.

(** What happens next in config/config.go:356-392; the outcome is that of the function if this step ends it; at
    the select (384-391) the choice is the case that is looked at (true: the ticker) *)
Inductive action := AMain (o : outcome) | ABack (o : outcome) | APer (choice : bool) (o : outcome) | ATick | ACancel.

(** config/config.go:122-148 and 356-370 *)
Definition main_step (str : strategy) (period : Z) (o : outcome) (s : state) : state * list event :=
  let set m b p := {| st_main := m; st_back := b; st_per := p; st_tick := st_tick s; st_done := st_done s |} in
  match st_main s with
  | MBegin => match str with
              | SFast => (set (MDo None) BPending (st_per s), [])
              | _ => (set MInit (st_back s) (st_per s), [ERun RInit])
              end
  | MInit => match recovered RInit o with
             | None => (set (MDo None) (st_back s) (st_per s), [EEnd RInit o])
             | Some e => (set (MLogging e) (st_back s) (st_per s), [EEnd RInit o])
             end
  | MLogging e => (set (MDo (match str with SFailOnError => Some e | _ => None end)) (st_back s) (st_per s), [ELog RInit e])
  | MDo (Some e) => (set MReturned (st_back s) (st_per s), [EReturn (Some e)])
  | MDo None => (set MLeaving (st_back s) (if (0 <? period)%Z then PSelect else st_per s), [])
  | MLeaving => (set MReturned (st_back s) (st_per s), [EReturn None])
  | MReturned => (s, [])
  end.

(** config/config.go:128-133 *)
Definition back_step (o : outcome) (s : state) : state * list event :=
  let set b := {| st_main := st_main s; st_back := b; st_per := st_per s; st_tick := st_tick s; st_done := st_done s |} in
  match st_back s with
  | BPending => (set BInit, [ERun RInit])
  | BInit => match recovered RInit o with
             | None => (set BEnded, [EEnd RInit o])
             | Some e => (set (BLogging e), [EEnd RInit o])
             end
  | BLogging e => (set BEnded, [ELog RInit e])
  | _ => (s, [])
  end.

(** config/config.go:372-392 *)
Definition per_step (choice : bool) (o : outcome) (s : state) : state * list event :=
  let set p t := {| st_main := st_main s; st_back := st_back s; st_per := p; st_tick := t; st_done := st_done s |} in
  match st_per s with
  | PSelect => if choice then if st_tick s then (set PRefresh false, [ERun RPeriodic]) else (s, [])
               else if st_done s then (set PEnded (st_tick s), [EStopped]) else (s, [])
  | PRefresh => match recovered RPeriodic o with
                | None => (set PSelect (st_tick s), [EEnd RPeriodic o])
                | Some e => (set (PLogging e) (st_tick s), [EEnd RPeriodic o])
                end
  | PLogging e => (set PSelect (st_tick s), [ELog RPeriodic e])
  | _ => (s, [])
  end.

(** config/config.go:379-380: the ticker exists while the goroutine runs; a tick is dropped when the channel is
    full *)
Definition tick_step (s : state) : state * list event :=
  match st_per s with
  | PNone | PEnded => (s, [])
  | _ => ({| st_main := st_main s; st_back := st_back s; st_per := st_per s; st_tick := true; st_done := st_done s |}, [ETick])
  end.

(** config/config.go:356-392, one step *)
Definition step (str : strategy) (period : Z) (a : action) (s : state) : state * list event :=
  match a with
  | AMain o => main_step str period o s
  | ABack o => back_step o s
  | APer choice o => per_step choice o s
  | ATick => tick_step s
  | ACancel => ({| st_main := st_main s; st_back := st_back s; st_per := st_per s; st_tick := st_tick s; st_done := true |}, [ECancel])
  end.

(** config/config.go:356-392: state and observations after some steps *)
Fixpoint steps (str : strategy) (period : Z) (acts : list action) (s : state) : state * list event :=
  match acts with
  | [] => (s, [])
  | a :: acts => let '(s1, t1) := step str period a s in let '(s2, t2) := steps str period acts s1 in (s2, t1 ++ t2)
  end.

(** config/config.go:356: what is observed of StartPeriodicRefresh under a schedule *)
Definition observed (str : strategy) (period : Z) (acts : list action) : list event := snd (steps str period acts init).
