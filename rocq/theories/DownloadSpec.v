(** What downloads and refreshes of lists are to achieve. *)
From Coq Require Import String Ascii List Arith NArith ZArith Bool.
From Verif Require Import Str Parsers ParsersSpec StringCacheSpec Target Download.
Import ListNotations.

(** The answer of a request that is a success: status 200, with this body. *)
Definition delivers (a : answer) (b : list str * scan_end) : Prop := a = Answer 200 (fst b) (snd b).

(** How a request has failed. *)
Definition fails_with (a : answer) (e : dl_err) : Prop :=
  match e with
  | DTransient n => a = NetTimeout n
  | DPlain n => a = NetError n \/ a = BadLink n
  | DStatus s => s <> 200%N /\ exists ls end_, a = Answer s ls end_
  end.

(** Request number [k] is the first success. *)
Definition first_success (net : nat -> answer) (k : nat) (b : list str * scan_end) : Prop :=
  delivers (net k) b /\ forall i, i < k -> forall b', ~ delivers (net i) b'.

(** How often something is observed. *)
Definition how_often (P : dl_event -> bool) (evs : list dl_event) : nat := length (filter P evs).
Definition is_failed (e : dl_event) : bool := match e with DFailed _ _ => true | _ => false end.
Definition is_wait (e : dl_event) : bool := match e with DWait => true | _ => false end.
Definition is_body (e : dl_event) : bool := match e with DBody => true | _ => false end.
Definition is_close (e : dl_event) : bool := match e with DClose => true | _ => false end.

(** [l'] is [l] without a final carriage return. *)
Definition without_cr (l l' : str) : Prop := l = l' ++ ["013"%char] \/ (l = l' /\ forall x, l <> x ++ ["013"%char]).

(** The lines of a text: what is between line feeds. *)
Inductive text_lines : str -> list str -> Prop :=
| tl_end : text_lines [] []
| tl_last l l' : l <> [] -> ~ In "010"%char l -> without_cr l l' -> text_lines l [l']
| tl_line l l' t ls : ~ In "010"%char l -> without_cr l l' -> text_lines t ls -> text_lines (l ++ "010"%char :: t) (l' :: ls).

(** The source can be read to the end, with these lines. *)
Definition readable (file : str -> option (list str * scan_end)) (net : str -> nat -> answer) (attempts : N)
    (s : source) (ls : list str) : Prop :=
  match s with
  | SText t => text_lines t ls /\ forall a l b, t = a ++ l ++ b -> ~ In "010"%char l -> (N.of_nat (length l) < 65536)%N
  | SFile p => file p = Some (ls, ScanEOF)
  | SHttp link => exists k, first_success (net link) k (ls, ScanEOF) /\ (attempts = 0%N \/ N.of_nat k < attempts)%N
  end.

(** The entry [e] is written in one of the lines. *)
Definition written (parse_ip to_ascii : str -> option str) (compiles : str -> bool) (ls : list str) (e : str) : Prop :=
  exists ts t hs h, contents ls ts /\ In t ts /\ line_entries parse_ip to_ascii compiles t hs /\ In h hs /\
    e = match parse_ip h with Some c => c | None => h end.

(** How many of the lines have no meaning. *)
Inductive without_meaning (parse_ip to_ascii : str -> option str) (compiles : str -> bool) : list str -> nat -> Prop :=
| wm_nil : without_meaning parse_ip to_ascii compiles [] 0
| wm_good t ts hs n : line_entries parse_ip to_ascii compiles t hs -> without_meaning parse_ip to_ascii compiles ts n ->
    without_meaning parse_ip to_ascii compiles (t :: ts) n
| wm_bad t ts n : (forall hs, ~ line_entries parse_ip to_ascii compiles t hs) -> without_meaning parse_ip to_ascii compiles ts n ->
    without_meaning parse_ip to_ascii compiles (t :: ts) (S n).

(** Not more lines than the configured number of errors have no meaning (-1: no limit). *)
Definition few_errors (parse_ip to_ascii : str -> option str) (compiles : str -> bool) (limit : Z) (ls : list str) : Prop :=
  forall ts n, contents ls ts -> without_meaning parse_ip to_ascii compiles ts n -> (limit = -1 \/ Z.of_nat n <= Z.max limit 0)%Z.
