(** Specification of the hosts-file resolver. *)
From Coq Require Import String Ascii List Arith Bool NArith ZArith.
From Verif Require Import Str StringCache Parsers ParsersSpec Dns Resolver Hosts.
Import ListNotations.

(** ** Sources *)

(** What the (comment-free, non-empty) line [t] of a hosts file says. *)
Definition host_line_means (parse_ip : str -> option str) (ip_of_text : str -> ip) (t : str) (e : host_entry) : Prop :=
  exists w a c, words t (w :: he_name e :: he_aliases e) /\ ~ In "%"%char a /\
    (w = a /\ he_iface e = [] \/ w = a ++ "%"%char :: he_iface e) /\
    parse_ip a = Some c /\ he_ip e = ip_of_text c /\ Forall good_name (he_name e :: he_aliases e).

(** What a series of lines says, and how many of them say nothing. *)
Inductive described (means : str -> host_entry -> Prop) : list str -> list host_entry -> nat -> Prop :=
| des_nil : described means [] [] 0
| des_good t e ts es n : means t e -> described means ts es n -> described means (t :: ts) (e :: es) n
| des_bad t ts es n : (forall e, ~ means t e) -> described means ts es n -> described means (t :: ts) es (S n).

Definition loopback (i : ip) : Prop :=
  (exists r, i = IP4 (127%N :: r)) \/ i = IP6 (repeat 0%N 15 ++ [1%N]).

(** Entries that are served. *)
Definition served (filter_loopback : bool) (e : host_entry) : Prop :=
  he_iface e = [] /\ (filter_loopback = true -> ~ loopback (he_ip e) /\ he_name e <> $"localhost").

Inductive selected {A} (P : A -> Prop) : list A -> list A -> Prop :=
| sel_nil : selected P [] []
| sel_keep x l l' : P x -> selected P l l' -> selected P (x :: l) (x :: l')
| sel_drop x l l' : ~ P x -> selected P l l' -> selected P (x :: l) l'.

(** A source that loads, with the entries it contributes. *)
Definition source_means parse_ip ip_of_text (cfg : hosts_cfg) (s : source) (es : list host_entry) : Prop :=
  exists ls ts all bad, s = Lines ls ScanEOF /\ contents ls ts /\
    described (host_line_means parse_ip ip_of_text) ts all bad /\
    (hf_max_errors cfg = -1 \/ Z.of_nat bad <= Z.max (hf_max_errors cfg) 0)%Z /\
    selected (served (hf_filter cfg)) all es.

(** [r] is an interleaving of the lists [ls]. *)
Inductive merge {A} : list (list A) -> list A -> Prop :=
| merge_nil ls : Forall (fun l => l = []) ls -> merge ls []
| merge_take pre x l post rest : merge (pre ++ l :: post) rest -> merge (pre ++ (x :: l) :: post) (x :: rest).

(** ** Lookup *)

(** The address is of the family asked for: A or AAAA. *)
Definition of_family (t : N) (i : ip) : Prop :=
  (t = 1%N /\ exists b, i = IP4 b) \/ (t = 28%N /\ exists b, i = IP6 b).

Definition last_with {A} (P : A -> Prop) (es : list A) (e : A) : Prop :=
  exists pre post, es = pre ++ e :: post /\ P e /\ forall x, In x post -> ~ P x.

Definition main_for (t : N) (n : str) (e : host_entry) : Prop := of_family t (he_ip e) /\ he_name e = n.
Definition alias_for (t : N) (n : str) (e : host_entry) : Prop := of_family t (he_ip e) /\ In n (he_aliases e).

(** The address the entries [es] give for [n]: of the last entry with that name, or, if
    there is none, of the last entry with that alias. *)
Definition resolves (t : N) (es : list host_entry) (n : str) (a : ip) : Prop :=
  (exists e, last_with (main_for t n) es e /\ a = he_ip e) \/
  ((forall e, In e es -> ~ main_for t n e) /\ exists e, last_with (alias_for t n) es e /\ a = he_ip e).
