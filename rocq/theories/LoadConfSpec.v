(** What reading a configuration is to achieve. *)
From Coq Require Import String Ascii List Arith NArith Bool.
From Verif Require Import Str LoadConf.
Import ListNotations.
Open Scope list_scope.

(** The name of a YAML file. *)
Definition yaml_name (nm : str) : Prop := exists x, nm = x ++ $".yml" \/ nm = x ++ $".yaml".

(** [c] is the content of the YAML file at [path] in what is called [nm]; links count if they lead to a file. *)
Inductive yaml_file : str -> node -> list str -> str -> Prop :=
| yf_file nm c : yaml_name nm -> yaml_file nm (NFile (Some c)) [nm] c
| yf_link nm c : yaml_name nm -> yaml_file nm (NLink (TFile (Some c))) [nm] c
| yf_below nm es e path c : In e es -> yaml_file (fst e) (snd e) path c -> yaml_file nm (NDir (Some es)) (nm :: path) c.
Definition in_directory (es : list (str * node)) (path : list str) (c : str) : Prop :=
  exists e, In e es /\ yaml_file (fst e) (snd e) path c.

(** Something in it cannot be read. *)
Inductive trouble : str -> node -> Prop :=
| tr_file nm : yaml_name nm -> trouble nm (NFile None)
| tr_link nm : yaml_name nm -> trouble nm (NLink (TFile None))
| tr_broken nm : yaml_name nm -> trouble nm (NLink TBroken)
| tr_dir nm : trouble nm (NDir None)
| tr_below nm es e : In e es -> trouble (fst e) (snd e) -> trouble nm (NDir (Some es)).

(** The names in each directory are distinct. *)
Inductive proper : node -> Prop :=
| pr_file c : proper (NFile c)
| pr_link t : proper (NLink t)
| pr_other : proper NOther
| pr_dir es : NoDup (map fst es) -> (forall e, In e es -> proper (snd e)) -> proper (NDir (Some es))
| pr_closed : proper (NDir None).

(** Order of names: byte by byte. *)
Definition name_before (a b : str) : Prop :=
  (exists x r, b = a ++ x :: r) \/
  exists p x y r s, a = p ++ x :: r /\ b = p ++ y :: s /\ (N_of_ascii x < N_of_ascii y)%N.
(** Order of paths: name by name. *)
Definition path_before (p q : list str) : Prop :=
  exists c a b r s, p = c ++ a :: r /\ q = c ++ b :: s /\ name_before a b.

(** No line of the text marks the beginning or end of a YAML document. *)
Definition one_document (t : str) : Prop :=
  forall a l b, t = a ++ l ++ b -> (a = [] \/ exists a', a = a' ++ ["010"%char]) ->
    ~ (exists r, l = $"---" ++ r) /\ ~ (exists r, l = $"..." ++ r).

(** ** Documents *)
(** White space. *)
Definition blank (c : ascii) : Prop := c = " "%char \/ c = "009"%char \/ c = "010"%char \/ c = "011"%char \/ c = "012"%char \/ c = "013"%char.
(** The line is a mark: nothing or white space follows. *)
Definition marks (mark l : str) : Prop := l = mark \/ exists c r, l = mark ++ c :: r /\ blank c.
Definition any_mark (l : str) : Prop := marks $"---" l \/ marks $"..." l.
(** A line without content: white space only, a comment, or a directive. *)
Definition idle (l : str) : Prop :=
  exists w r, l = w ++ r /\ Forall blank w /\ (r = [] \/ (exists x, r = "#"%char :: x) \/ (w = [] /\ exists x, r = "%"%char :: x)).
(** The lines up to the next mark. *)
Definition up_to_mark (ls b : list str) : Prop :=
  Forall (fun l => ~ any_mark l) b /\ (ls = b \/ exists m rest, ls = b ++ m :: rest /\ any_mark m).
(** The first document of the lines: it begins with a mark or with the first line that has content, and ends with the next mark. *)
Definition first_doc (ls d : list str) : Prop :=
  exists pre rest b, Forall (fun l => idle l /\ ~ any_mark l) pre /\ up_to_mark rest b /\
    ((exists r, ls = pre ++ ($"---" ++ r) :: rest /\ marks $"---" ($"---" ++ r) /\ d = pre ++ r :: b) \/
     (exists l, ls = pre ++ l :: rest /\ ~ idle l /\ ~ any_mark l /\ d = pre ++ l :: b)).
(** The lines of a text. *)
Definition text_lines (t : str) (ls : list str) : Prop :=
  ls <> [] /\ Forall (fun l => ~ In "010"%char l) ls /\ exists first more, ls = first :: more /\ t = first ++ concat (map (cons "010"%char) more).
