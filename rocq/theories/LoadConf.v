(** Reading of the configuration from a file or a directory (config/config.go:441-567).

    File system: what os.Stat, filepath.WalkDir and os.ReadFile can see of it.  Paths are relative to the configured
    path.  YAML: gopkg.in/yaml.v2, whose UnmarshalStrict decodes the first document of its input; what a document
    means is left open ([yaml]). *)
From Coq Require Import String Ascii List Arith Bool.
From Verif Require Import Str Parsers.
Import ListNotations.
Open Scope list_scope.

(** What a symbolic link leads to, as os.Stat and os.ReadFile see it -- config/config.go:541-551, 527-530 *)
Inductive target := TFile (content : option str) | TDir (entries : option (list str)) | TOther | TBroken.

(** What is found at a path -- config/config.go:502-539: a regular file ([None]: it cannot be read), a directory
    with its entries ([None]: it cannot be listed), a symbolic link, something else (socket, device), which at the configured path is taken to be unreadable *)
Inductive node :=
| NFile (content : option str)
| NDir (entries : option (list (str * node)))
| NLink (t : target)
| NOther.

(** config/config.go:513 the ending of the name *)
Definition is_yaml (name : str) : bool := has_suffix name ($".yml") || has_suffix name ($".yaml").

(** os.ReadDir sorts by name (in filepath.WalkDir, config/config.go:503) *)
Fixpoint put_in_order {A} (p : str * A) (l : list (str * A)) : list (str * A) :=
  match l with
  | [] => [p]
  | x :: l' => if str_ltb (fst x) (fst p) then x :: put_in_order p l' else p :: l
  end.
(** os.ReadDir, all of a directory (in filepath.WalkDir, config/config.go:503) *)
Definition in_order {A} (l : list (str * A)) : list (str * A) := fold_right put_in_order [] l.

(** One after the other, up to the first error -- config/config.go:503-536, in filepath.WalkDir *)
Fixpoint all_of (l : list (str * option str)) : option str :=
  match l with
  | [] => Some []
  | (_, None) :: _ => None
  | (_, Some d) :: l' => match all_of l' with Some d' => Some (d ++ d') | None => None end
  end.

(** config/config.go:532-533 *)
Definition appended (content : str) : str := "010"%char :: content.

(** config/config.go:503-536 filepath.WalkDir below a directory: what is appended to [data] for the entry [name];
    WalkDir goes into directories but does not follow links; [None]: an error *)
Fixpoint walk (name : str) (n : node) : option str :=
  match n with
  | NFile c => if is_yaml name then match c with Some c => Some (appended c) | None => None end else Some []
  | NLink t =>
      if is_yaml name then
        match t with
        | TFile (Some c) => Some (appended c)
        | TFile None | TBroken => None
        | _ => Some []
        end
      else Some []
  | NOther => Some []
  | NDir None => None
  | NDir (Some es) => all_of (in_order (map (fun e => (fst e, walk (fst e) (snd e))) es))
  end.

(** config/config.go:502-539 readFromDir for the configured path; WalkDir uses os.Lstat, so a link to a directory is not
    gone into *)
Definition read_from_dir (root : node) : option str :=
  match root with
  | NDir None => None
  | NDir (Some es) => all_of (in_order (map (fun e => (fst e, walk (fst e) (snd e))) es))
  | _ => Some []
  end.

(** What is at the configured path -- config/config.go:460-469: nothing, an error of os.Stat, a node *)
Inductive at_path := Missing | StatError | Found (n : node).

(** The outcome of loadConfig -- config/config.go:448-500: the default values, an error, the values of this text *)
Inductive source_text := Defaults | ReadFailed | Text (t : str).

(** config/config.go:460-490 which text is decoded *)
Definition config_text (p : at_path) (mandatory : bool) : source_text :=
  match p with
  | Missing => if mandatory then ReadFailed else Defaults
  | StatError => ReadFailed
  | Found n =>
      match n with
      | NLink TBroken => if mandatory then ReadFailed else Defaults
      | NDir _ | NLink (TDir _) => match read_from_dir n with Some d => Text d | None => ReadFailed end
      | NFile (Some c) | NLink (TFile (Some c)) => Text c
      | _ => ReadFailed
      end
  end.

(** Does the line begin with the mark, followed by white space or nothing? (yaml.v2, scanner; config/config.go:554) *)
Definition marker (mark l : str) : bool :=
  has_prefix l mark && match skipn (length mark) l with [] => true | c :: _ => is_space c end.

(** Lines that do not begin a document: blank, comments, directives (yaml.v2; config/config.go:554) *)
Definition no_content (l : str) : bool :=
  match trim_space l with [] => true | c :: _ => Ascii.eqb c "#" || match l with x :: _ => Ascii.eqb x "%" | [] => false end end.

(** The lines of the first document (yaml.v2 yaml.go unmarshal: one call of parse; config/config.go:554) *)
Fixpoint first_document (begun : bool) (ls : list str) : list str :=
  match ls with
  | [] => []
  | l :: ls' =>
      if marker ($"---") l then (if begun then [] else skipn 3 l :: first_document true ls')
      else if marker ($"...") l then (if begun then [] else first_document false ls')
      else l :: first_document (begun || negb (no_content l)) ls'
  end.

Section Load.
Context {cfg : Type}.
(** the default values -- config/config.go:449 *)
Variable defaults : cfg.
(** the values of one document on top of the default values, after migration and validation; None: an error --
    config/config.go:553-567 *)
Variable yaml : list str -> option cfg.
(** config/config.go:453-458 Log.Privacy *)
Variable privacy : cfg -> bool.

(** config/config.go:448-500 loadConfig: the configuration (None: an error) and the flag util.LogPrivacy, which was [lp]
    before *)
Definition load_config (p : at_path) (mandatory lp : bool) : option cfg * bool :=
  let done c := (Some c, privacy c) in
  match config_text p mandatory with
  | Defaults => done defaults
  | ReadFailed => (None, lp)
  | Text t => match yaml (first_document false (split_byte "010"%char t)) with Some c => done c | None => (None, lp) end
  end.
End Load.
