(** The blocking commands of the REST interface (api/api_interface_impl.go) and how several instances
    keep their blocking state in step (resolver/blocking_resolver.go:175-198, 220-251). *)
From Coq Require Import String Ascii List Arith NArith ZArith Bool.
From Verif Require Import Str Dns Blocking Duration.
Import ListNotations.
Open Scope list_scope.

(** strings.ReplaceAll with a text of one byte and the empty text -- log/logger.go:86-87 *)
Definition remove_byte (c : ascii) (s : str) : str := filter (fun x => negb (Ascii.eqb x c)) s.
(** log/logger.go:85-90 EscapeInput *)
Definition escape_input (s : str) : str := remove_byte "013" (remove_byte "010" s).

(** The answers of the interface -- api/api_interface_impl.go:90-123 *)
Inductive api_resp := Resp200 | Resp400 (text : str).

Section Duration.
(** [fraction]: see [Duration.v]; [duration_error]: the text of the error of time.ParseDuration -- api/api_interface_impl.go:99-102 *)
Variable fraction : str -> N -> N.
Variable duration_error : str -> str.

(** resolver/blocking_resolver.go:266-271: the first group that is not known *)
Definition unknown_group (cfg : blk_cfg) (gs : list str) : str :=
  match filter (fun g => negb (known_group (all_blocking_groups cfg) g)) gs with g :: _ => g | [] => [] end.

(** api/api_interface_impl.go:90-116 DisableBlocking: the parameters "duration" and "groups", absent or with a text *)
Definition api_disable (cfg : blk_cfg) (duration groups : option str) (now : Z) (s : blk_state) : blk_state * api_resp :=
  match match duration with None => Some 0%Z | Some t => parse_duration fraction t end with
  | None => (s, Resp400 (escape_input (duration_error (match duration with Some t => t | None => [] end))))
  | Some d =>
      let gs := match groups with Some (c :: t) => split_byte comma (c :: t) | _ => [] end in
      let '(s', ok) := internal_disable cfg d gs now s in
      (s', if ok then Resp200 else Resp400 (escape_input ($"group '" ++ unknown_group cfg gs ++ $"' is unknown")))
  end.
End Duration.

(** api/api_interface_impl.go:118-123 EnableBlocking *)
Definition api_enable (s : blk_state) : blk_state * api_resp := (internal_enable s, Resp200).

(** ApiBlockingStatus, with absent members -- api/api_interface_impl.go:125-142 *)
Record api_status := { as_enabled : bool; as_auto : option Z; as_groups : option (list str) }.
(** api/api_interface_impl.go:125-142 BlockingStatus *)
Definition api_blocking_status (now : Z) (s : blk_state) : api_status :=
  let '(en, gs, sec) := blocking_status now s in
  {| as_enabled := en; as_auto := if (0 <? sec)%Z then Some sec else None;
     as_groups := match gs with [] => None | _ => Some gs end |}.

(** ** Several instances *)
(** redis.EnabledMessage as one instance tells it the others -- resolver/blocking_resolver.go:220-251 *)
Inductive told := TEnable | TDisable (d : Z) (gs : list str).

(** The instances (with the same configuration) and what each has still to receive.  The delivery by
    Redis is taken as reliable and ordered, and the encoding of the messages as JSON as exact (C64 is about the
    messages themselves); the context of a command is live when it is published -- resolver/blocking_resolver.go:175-198 *)
Record cluster := { cu_state : nat -> blk_state; cu_inbox : nat -> list told }.

(** resolver/blocking_resolver.go:147-150: all instances start with blocking enabled *)
Definition cluster_init : cluster := {| cu_state := fun _ => blk_init; cu_inbox := fun _ => [] |}.

(** One of the places changes -- resolver/blocking_resolver.go:175-198 *)
Definition put_at {A : Type} (i : nat) (x : A) (f : nat -> A) : nat -> A := fun j => if j =? i then x else f j.

(** redis/redis.go:139-152 PublishEnabled and 238-270 processReceivedMessage: all instances but the sender receive it *)
Definition tell (i : nat) (m : told) (c : cluster) : cluster :=
  {| cu_state := cu_state c; cu_inbox := fun j => if j =? i then cu_inbox c j else cu_inbox c j ++ [m] |}.

(** What may happen in instance [i] -- resolver/blocking_resolver.go:175-198, 220-294 *)
Inductive cluster_op :=
| UEnable (i : nat)                                     (* a command of a user: EnableBlocking *)
| UDisable (i : nat) (d : Z) (gs : list str) (now : Z)  (* a command of a user: DisableBlocking *)
| UReceive (i : nat) (now : Z)                          (* redisSubscriber takes a message *)
| UFire (i : nat) (now : Z)                             (* the timer fires *)
| UCallback (i : nat) (live : bool).                    (* its function runs; [live]: the context it was armed with is not done *)

(** resolver/blocking_resolver.go:175-198 redisSubscriber, 220-251 EnableBlocking and DisableBlocking, 287-290 the timer *)
Definition cluster_step (cfg : blk_cfg) (c : cluster) (o : cluster_op) : option cluster :=
  let set i s := {| cu_state := put_at i s (cu_state c); cu_inbox := cu_inbox c |} in
  match o with
  | UEnable i => Some (tell i TEnable (set i (internal_enable (cu_state c i))))
  | UDisable i d gs now =>
      let '(s', ok) := internal_disable cfg d gs now (cu_state c i) in
      Some (if ok then tell i (TDisable d gs) (set i s') else set i s')
  | UReceive i now =>
      match cu_inbox c i with
      | [] => None
      | m :: ms =>
          let s' := match m with
                    | TEnable => internal_enable (cu_state c i)
                    | TDisable d gs => fst (internal_disable cfg d gs now (cu_state c i))
                    end in
          Some {| cu_state := put_at i s' (cu_state c); cu_inbox := put_at i ms (cu_inbox c) |}
      end
  | UFire i now => match blk_step cfg (cu_state c i) (BFire now) with Some (s', _) => Some (set i s') | None => None end
  | UCallback i live =>
      match blk_step cfg (cu_state c i) BCallback with
      | Some (s', _) => Some (if live then tell i TEnable (set i s') else set i s')
      | None => None
      end
  end.

(** A history -- resolver/blocking_resolver.go:175-198, 220-294 *)
Fixpoint cluster_run (cfg : blk_cfg) (c : cluster) (os : list cluster_op) : option cluster :=
  match os with
  | [] => Some c
  | o :: os' => match cluster_step cfg c o with Some c' => cluster_run cfg c' os' | None => None end
  end.
