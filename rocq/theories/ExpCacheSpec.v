(** Specification of the expiring cache in terms of the history of operations. *)
From Coq Require Import String Ascii List Arith Bool ZArith.
From Verif Require Import Str ExpCache.
Import ListNotations.

Section Spec.
Context {T : Type}.

(** [stores o k v e]: operation [o] stores value [v] under [k] until time [e] (ms).
    A store with a non-positive lifetime has no effect. *)
Definition stores (o : op T) (k : str) (v : T) (e : Z) : Prop :=
  exists ttl now, (0 < ttl)%Z /\ e = (now + ttl / 1000000)%Z /\
    (o = OPut k v ttl now \/ o = OCleanHandle k (Some (v, ttl)) now).

(** [removes o k]: [o] explicitly removes [k]. *)
Definition removes (o : op T) (k : str) : Prop := o = OClear \/ o = OCleanRemove k.

(** [last_stored hist k v e]: the most recent store under [k] in [hist] (oldest
    first) that no removal of [k] follows is [v] until [e]. *)
Definition last_stored (hist : list (op T)) (k : str) (v : T) (e : Z) : Prop :=
  exists before o after, hist = before ++ o :: after /\ stores o k v e /\
    forall o', In o' after -> ~ removes o' k /\ forall v' e', ~ stores o' k v' e'.

(** [o] uses key [k]: looks it up or stores it. *)
Definition uses (o : op T) (k : str) : Prop :=
  (exists now, o = OGet k now) \/ exists v e, stores o k v e.

(** [used_since hist i k]: the last use of [k] is operation number [i]. *)
Definition last_use (hist : list (op T)) (i : nat) (k : str) : Prop :=
  (exists o, nth_error hist i = Some o /\ uses o k) /\
  forall j o, i < j -> nth_error hist j = Some o -> ~ uses o k.

(** The keys that a cache holds. *)
Definition holds (l : lru (element T)) (k : str) : Prop := exists e, In (k, e) l.

End Spec.

(** A lookup of [k] in state [s] finds a value. *)
Definition present {T} (size : nat) (s : cstate T) (k : str) : Prop :=
  exists now s' r, step size s (OGet k now) = Some (s', RGet (Some r)).

(** The number of entries reported in state [s]. *)
Definition reported_count {T} (size : nat) (s : cstate T) (n : nat) : Prop :=
  step size s OCount = Some (s, RCount n).

(** No clean-up of [k] is pending: it has not been found expired by a clean-up
    that is still running. *)
Definition not_condemned {T} (s : cstate T) (k : str) : Prop :=
  match st_cleaner s with
  | Idle => True
  | Collecting _ exp => ~ In k exp
  | Handling exp del => ~ In k exp /\ ~ In k del
  | Removing del => ~ In k del
  end.

(** An operation of a clean-up run that happens at time [now] and whose
    expiration handler answers as [h]. *)
Definition clean_op {T} (now : Z) (h : str -> option (T * Z)) (o : op T) : Prop :=
  match o with
  | OCleanPeek _ n => n = now
  | OCleanHandle k r n => n = now /\ r = h k
  | OCleanRemove _ => True
  | _ => False
  end.

(** What is stored under a key after an undisturbed clean-up at [now], from what
    was stored there before (value, expiry). *)
Definition after_clean_up {T} (now : Z) (handler : option (T * Z)) (before : option (T * Z)) : option (T * Z) :=
  match before with
  | None => None
  | Some (v, e) =>
      if (now <=? e)%Z then Some (v, e)                      (* still valid: untouched *)
      else match handler with
           | None => None                                    (* expired: removed *)
           | Some (v', ttl) =>
               if (0 <? ttl)%Z then Some (v', now + ttl / 1000000)%Z   (* replaced *)
               else Some (v, e)                              (* a useless replacement: the old entry stays *)
           end
  end.

(** What is stored under [k]. *)
Definition stored {T} (s : cstate T) (k : str) : option (T * Z) :=
  match find (fun p => str_eqb k (fst p)) (st_lru s) with
  | Some (_, e) => Some (el_val e, el_expires e)
  | None => None
  end.

(** ** Prefetching *)

(** Number of lookups of [k] in the open window and the time of the latest one:
    the window is closed by a flush, and by a clean-up that runs more than the
    window length after the latest lookup. *)
Fixpoint window {T} (len_ms : Z) (k : str) (w : option (N * Z)) (hist : list (pf_op T)) : option (N * Z) :=
  match hist with
  | [] => w
  | o :: hist' =>
      window len_ms k
        (match o with
         | PGet k' now =>
             if str_eqb k k' then Some (match w with Some (c, _) => (c + 1)%N | None => 1%N end, now) else w
         | PClear => None
         | PCleanNames now =>
             match w with
             | Some (c, last) => if (last + len_ms <? now)%Z then None else w
             | None => None
             end
         | _ => w
         end) hist'
  end.

Definition lookups_in_window {T} (len_ms : Z) (k : str) (hist : list (pf_op T)) : N :=
  match window len_ms k None hist with Some (c, _) => c | None => 0%N end.

(** The key a client looks up, the time of an operation. *)
Definition looked_up {T} (o : pf_op T) (k : str) : Prop := exists now, o = PGet k now.
Definition pf_time {T} (o : pf_op T) : Z :=
  match o with PPut _ _ _ n | PGet _ n | PExpire _ _ n | PCleanNames n => n | PClear => 1 end.

(** The clock value at an operation (operations that do not read it: 1). *)
Definition op_time {T} (o : op T) : Z :=
  match o with OPut _ _ _ n | OGet _ n | OCleanPeek _ n | OCleanHandle _ _ n => n | _ => 1 end.
