(** Specification of list parsing, independent of the model. *)
From Coq Require Import String Ascii List Arith Bool NArith ZArith.
From Verif Require Import Str.
Import ListNotations.

(** White space: tab, newline, vertical tab, form feed, carriage return, blank. *)
Definition white (c : ascii) : Prop :=
  In c ["009"; "010"; "011"; "012"; "013"; " "]%char.

Definition blank (s : str) : Prop := Forall white s.

(** [words l ws]: [ws] are the maximal runs of non-white bytes in [l]. *)
Inductive words : str -> list str -> Prop :=
| words_nil s : blank s -> words s []
| words_cons s f rest ws :
    blank s -> f <> [] -> Forall (fun c => ~ white c) f ->
    (rest = [] \/ exists c r, rest = c :: r /\ white c) ->
    words rest ws -> words (s ++ f ++ rest) (f :: ws).

(** [line_content l t]: what is left of line [l] without comment and surrounding
    white space is [t]. *)
Definition line_content (l t : str) : Prop :=
  exists before body after tail,
    l = before ++ body ++ after ++ tail /\
    blank before /\ blank after /\
    ~ In hash body /\ (tail = [] \/ exists c, tail = hash :: c) /\
    t = body /\
    (body = [] \/ (exists c r, body = c :: r /\ ~ white c) /\ exists r c, body = r ++ [c] /\ ~ white c).

(** Letters, digits, '-' and '_'. *)
Definition label_char (c : ascii) : Prop :=
  In c (lit "abcdefghijklmnopqrstuvwxyzABCDEFGHIJKLMNOPQRSTUVWXYZ0123456789-_").

Definition good_label (l : str) : Prop :=
  1 <= length l <= 63 /\ Forall label_char l.

(** A well-formed domain name of a list. *)
Definition good_name (s : str) : Prop :=
  length s <= 255 /\
  exists labels tail, labels <> [] /\ Forall good_label labels /\
    (tail = [] \/ tail = $"." \/ tail = $"_") /\ s = join $"." labels ++ tail.

(** The address part of the first column of a hosts file: everything before a '%'. *)
Definition address_part (w a : str) : Prop :=
  ~ In "%"%char a /\ (w = a \/ exists iface, w = a ++ "%"%char :: iface).

(** Results of parsing a list of lines [ts] one by one, in order. *)
Inductive collected {A} (p : str -> option A) : list str -> list A -> nat -> Prop :=
| col_nil : collected p [] [] 0
| col_good t ts a l n : p t = Some a -> collected p ts l n -> collected p (t :: ts) (a :: l) n
| col_bad t ts l n : p t = None -> collected p ts l n -> collected p (t :: ts) l (S n).

(** The non-empty contents of the lines of a source, in order. *)
Inductive contents : list str -> list str -> Prop :=
| con_nil : contents [] []
| con_skip l ls ts : line_content l [] -> contents ls ts -> contents (l :: ls) ts
| con_take l ls t ts : line_content l t -> t <> [] -> contents ls ts -> contents (l :: ls) (t :: ts).

(** ** The meaning of one line of a deny/allow list *)

Section LineMeaning.
  (** the canonical text of an address; None: not an address *)
  Variable parse_ip : str -> option str.
  (** IDNA (punycode) form of a name *)
  Variable to_ascii : str -> option str.
  (** which texts are regular expressions *)
  Variable compiles : str -> bool.

  Definition slashed (w : str) : Prop := (exists p, w = slash :: p) /\ (exists q, w = q ++ [slash]).

  (** [s] is [a] without a leading "||" and without a trailing "^". *)
  Definition undecorated (a s : str) : Prop :=
    exists b, (a = $"||" ++ b \/ (a = b /\ ~ exists x, a = $"||" ++ x)) /\
              (b = s ++ $"^" \/ (b = s /\ ~ exists x, b = x ++ $"^")).

  (** A line consisting of the single word [w] denotes the entry [s]. *)
  Definition single_entry (w s : str) : Prop :=
    exists a, (slashed w /\ a = w \/ ~ slashed w /\ to_ascii w = Some a) /\
      undecorated a s /\
      (parse_ip s <> None \/
       parse_ip s = None /\ (slashed s /\ compiles s = true \/ ~ slashed s /\ good_name s)).

  (** A hosts file line: address followed by names. *)
  Definition hosts_entry (t : str) (names : list str) : Prop :=
    exists w a, words t (w :: names) /\ address_part w a /\ parse_ip a <> None /\
      names <> [] /\ Forall good_name names.

  (** [line_entries t hs]: the (non-empty, comment-free) line [t] contributes
      exactly the entries [hs]. *)
  Inductive line_entries (t : str) : list str -> Prop :=
  | le_single w s : words t [w] -> single_entry w s -> line_entries t [s]
  | le_hosts names : hosts_entry t names -> line_entries t names
  | le_wildcard d rest : words t ((star :: dot :: d) :: rest) -> ~ In star d ->
      (forall s, ~ (rest = [] /\ single_entry (star :: dot :: d) s)) ->
      (forall names, ~ hosts_entry t names) ->
      line_entries t [star :: dot :: d].

End LineMeaning.
