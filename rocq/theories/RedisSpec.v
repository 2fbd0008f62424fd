(** What the synchronisation over Redis promises, without the functions of the model. *)
From Coq Require Import String Ascii List Arith Bool NArith ZArith.
From Verif Require Import Str Dns Redis.
Import ListNotations.
Open Scope list_scope.

(** ** UTF-8: the encoding of a sequence of code points (RFC 3629) *)
Definition scalar (c : N) : Prop := (c < 55296 \/ 57343 < c <= 1114111)%N.

Definition encode_point (c : N) : list N :=
  if (c <? 128)%N then [c]
  else if (c <? 2048)%N then [192 + c / 64; 128 + c mod 64]%N
  else if (c <? 65536)%N then [224 + c / 4096; 128 + (c / 64) mod 64; 128 + c mod 64]%N
  else [240 + c / 262144; 128 + (c / 4096) mod 64; 128 + (c / 64) mod 64; 128 + c mod 64]%N.

Definition valid_utf8 (s : str) : Prop :=
  exists points, Forall scalar points /\ s = flat_map (fun c => map ascii_of_N (encode_point c)) points.

(** ** What was said on the channel *)
Inductive said :=
| SaidCache (p : nat) (k : str) (m : msg)
| SaidEnabled (p : nat) (e : enabled_message)
| SaidForeign (w : option wire).

Definition foreign_cache (unpack : str -> option msg) (id : str) (w : wire) (k : str) (m : msg) : Prop :=
  w_client w <> id /\ w_type w = 0%Z /\ k = w_key w /\ unpack (w_message w) = Some m.

(** Instance [i] is to be told of this reply: another instance said so (or some other program wrote a
    message of this form). *)
Definition tells_cache (unpack : str -> option msg) (ids : nat -> str) (i : nat) (x : said) (c : cache_message) : Prop :=
  exists k m,
    (match x with
     | SaidCache p k' m' => p <> i /\ k = k' /\ m = m'
     | SaidForeign (Some w) => foreign_cache unpack (ids i) w k m
     | _ => False
     end) /\
    c = {| cm_key := k; cm_response := {| rs_msg := Some m; rs_type := CACHED; rs_reason := $"EXTERNAL_CACHE" |} |}.

Definition tells_enabled (decode : str -> option enabled_message) (ids : nat -> str) (i : nat) (x : said)
    (e : enabled_message) : Prop :=
  match x with
  | SaidEnabled p e' => p <> i /\ e = e'
  | SaidForeign (Some w) => w_client w <> ids i /\ w_type w = 1%Z /\ decode (w_message w) = Some e
  | _ => False
  end.

(** [l] is what [R] makes of the elements of [log], in that order, once each; with [lossy] some may be
    missing. *)
Inductive in_order {A B} (lossy : Prop) (R : A -> B -> Prop) : list A -> list B -> Prop :=
| io_nil : in_order lossy R [] []
| io_take x b log l : R x b -> in_order lossy R log l -> in_order lossy R (x :: log) (b :: l)
| io_skip x log l : lossy \/ (forall b, ~ R x b) -> in_order lossy R log l -> in_order lossy R (x :: log) l.

(** What instance [p] was asked to publish (only messages that can be packed are ever sent). *)
Definition asked (pack : msg -> option str) (p : nat) (ops : list sys_op) : list (str * msg) :=
  flat_map (fun o => match o with
    | OPublishCache i (c :: k) (Some m) =>
        if Nat.eqb i p then match pack m with Some _ => [(c :: k, m)] | None => [] end else []
    | _ => [] end) ops.

Definition asked_enabled (p : nat) (ops : list sys_op) : list enabled_message :=
  flat_map (fun o => match o with OPublishEnabled i e => if Nat.eqb i p then [e] else [] | _ => [] end) ops.

(** Which of the things said come from [p]. *)
Definition said_cache_by (p : nat) (log : list said) : list (str * msg) :=
  flat_map (fun x => match x with SaidCache i k m => if Nat.eqb i p then [(k, m)] else [] | _ => [] end) log.
Definition said_enabled_by (p : nat) (log : list said) : list enabled_message :=
  flat_map (fun x => match x with SaidEnabled i e => if Nat.eqb i p then [e] else [] | _ => [] end) log.

(** What the resolvers of [i] saw. *)
Definition saw_cache (i : nat) (outs : list sys_out) : list cache_message :=
  flat_map (fun o => match o with GotCache j c => if Nat.eqb j i then [c] else [] | _ => [] end) outs.
Definition saw_enabled (i : nat) (outs : list sys_out) : list enabled_message :=
  flat_map (fun o => match o with GotEnabled j e => if Nat.eqb j i then [e] else [] | _ => [] end) outs.

(** What other programs wrote. *)
Definition said_foreign (log : list said) : list (option wire) :=
  flat_map (fun x => match x with SaidForeign w => [w] | _ => [] end) log.
Definition foreign_of (ops : list sys_op) : list (option wire) :=
  flat_map (fun o => match o with OForeign w => [w] | _ => [] end) ops.
