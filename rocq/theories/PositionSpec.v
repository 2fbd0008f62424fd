(** What a user may expect to be told about the lines of a source; independent of the model's way of reading. *)
From Coq Require Import String Ascii List Arith Bool NArith ZArith Sorting.Sorted.
From Verif Require Import Str Num ParsersSpec Position.
Import ListNotations.
Open Scope list_scope.

Section Complaints.
Context {A : Type}.
(** the meaning of a line: a value, or a reason why there is none *)
Variable p : str -> A + str.

(** Line [n] of the source (the first is 1) says something, and it is not understood because of [why]. *)
Definition complaint (ls : list str) (n : nat) (why : str) : Prop :=
  exists raw t, 1 <= n /\ nth_error ls (n - 1) = Some raw /\ line_content raw t /\ t <> [] /\ p t = inr why.

(** All of them, in the order of the lines. *)
Definition complaints (ls : list str) (all : list (nat * str)) : Prop :=
  StronglySorted (fun a b => fst a < fst b) all /\ forall n why, In (n, why) all <-> complaint ls n why.

(** The values, for the specification of the values in ParsersSpec.v *)
Definition value (t : str) : option A := match p t with inl a => Some a | inr _ => None end.
End Complaints.

(** The text that names a line and a reason. *)
Definition line_text (c : nat * str) : str := $"line " ++ print_dec (N.of_nat (fst c)) ++ $": " ++ snd c.

(** How many complaints are accepted; -1 in the configuration: any number. *)
Definition accepts (limit : Z) (n : nat) : Prop := limit = (-1)%Z \/ (Z.of_nat n <= Z.max limit 0)%Z.

(** Of what happened while a source was read: the warnings, and the values *)
Definition told {A} (evs : list (event A)) : list (nat * str) :=
  flat_map (fun e => match e with Warned n t => [(n, t)] | Delivered _ => [] end) evs.
Definition given {A} (evs : list (event A)) : list A :=
  flat_map (fun e => match e with Warned _ _ => [] | Delivered a => [a] end) evs.

(** [l] is the values of the lines [ls] *)
Definition values {A} (p : str -> A + str) (ls : list str) (l : list A) : Prop :=
  exists ts bad, contents ls ts /\ collected (value p) ts l bad.

(** ** Reasons *)

(** Why a name is no name *)
Definition name_reason (n why : str) : Prop :=
  (255 < length n /\ why = $"domain name is too long: " ++ n) \/
  (length n <= 255 /\ ~ good_name n /\ why = $"invalid domain name: " ++ n).

(** Why a line with these words is no line of a hosts file *)
Inductive hosts_reason (parse_ip : str -> option str) : list str -> str -> Prop :=
| hr_ip w a names : address_part w a -> parse_ip a = None -> hosts_reason parse_ip (w :: names) ($"invalid ip: " ++ w)
| hr_name w a ip good n names why : address_part w a -> parse_ip a = Some ip -> Forall good_name good -> name_reason n why ->
    hosts_reason parse_ip (w :: good ++ n :: names) why
| hr_none w a ip : address_part w a -> parse_ip a = Some ip -> hosts_reason parse_ip [w] $"expected at least one host following IP".

(** Why a line with these words is not a single entry of a list *)
Inductive single_reason (parse_ip : str -> option str) (to_ascii : str -> str + str * str) (compile_err : str -> option str) : list str -> str -> Prop :=
| sr_idna w names t h : ~ slashed w -> to_ascii w = inr (t, h) -> single_reason parse_ip to_ascii compile_err (w :: names) (t ++ $": " ++ h)
| sr_regex w names a s t : (slashed w /\ a = w \/ ~ slashed w /\ to_ascii w = inl a) -> undecorated a s -> parse_ip s = None -> slashed s ->
    compile_err s = Some t -> single_reason parse_ip to_ascii compile_err (w :: names) t
| sr_name w names a s t : (slashed w /\ a = w \/ ~ slashed w /\ to_ascii w = inl a) -> undecorated a s -> parse_ip s = None -> ~ slashed s ->
    name_reason s t -> single_reason parse_ip to_ascii compile_err (w :: names) t
| sr_column w x names s :
    single_entry parse_ip (fun h => match to_ascii h with inl a => Some a | inr _ => None end)
      (fun h => match compile_err h with None => true | Some _ => false end) w s ->
    single_reason parse_ip to_ascii compile_err (w :: x :: names) ($"unexpected second column: " ++ x).
