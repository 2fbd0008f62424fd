(** The commands of the command line (cmd): which configuration and which address they use, and the blocking commands
    sent to the REST interface.

    The flags are parsed by cobra/pflag; the text of a parameter is delivered to the interface as it is. *)
From Coq Require Import String Ascii List Arith NArith ZArith Bool.
From Verif Require Import Str Num Blocking Api Server ConfUpstream LoadConf.
Import ListNotations.
Open Scope list_scope.

(** ** The text of a duration *)

(** time.fmtFrac, the loop: digits behind the point without trailing zeros, the number without them, and whether a digit
    was written -- cmd/blocking.go:68 *)
Fixpoint frac_loop (prec : nat) (v : N) (print : bool) (acc : str) : str * N * bool :=
  match prec with
  | O => (acc, v, print)
  | S p =>
      let print := print || negb (v mod 10 =? 0)%N in
      frac_loop p (v / 10) print (if print then digit (v mod 10) :: acc else acc)
  end.
(** time.fmtFrac -- cmd/blocking.go:68 *)
Definition fmt_frac (prec : nat) (v : N) : str * N :=
  let '(ds, v, print) := frac_loop prec v false [] in (if print then dot :: ds else [], v).

(** time.Duration.format, without the sign -- cmd/blocking.go:68 *)
Definition duration_format (u : N) : str :=
  if (u <? 1000000000)%N then
    if (u =? 0)%N then $"0s"
    else
      let '(prec, un) := if (u <? 1000)%N then (0, $"ns")
                         else if (u <? 1000000)%N then (3, ["194"; "181"; "s"]%char)
                         else (6, $"ms") in
      let '(f, v) := fmt_frac prec u in print_dec v ++ f ++ un
  else
    let '(f, v) := fmt_frac 9 u in
    let s := print_dec (v mod 60) ++ f ++ $"s" in
    let v := (v / 60)%N in
    if (v =? 0)%N then s
    else
      let s := print_dec (v mod 60) ++ $"m" ++ s in
      let v := (v / 60)%N in
      if (v =? 0)%N then s else print_dec v ++ $"h" ++ s.
(** time.Duration.String -- cmd/blocking.go:68 *)
Definition duration_string (d : Z) : str :=
  if (d <? 0)%Z then "-"%char :: duration_format (Z.to_N (- d)) else duration_format (Z.to_N d).

Section Blocking.
(** see [Duration.v] and [Api.v] -- api/api_interface_impl.go:99-102 *)
Variable fraction : str -> N -> N.
Variable duration_error : str -> str.

(** cmd/root.go:122-130 printOkOrError; true: no error, the exit code is 0 *)
Definition print_ok_or_error (r : api_resp) : bool := match r with Resp200 => true | Resp400 _ => false end.

(** cmd/blocking.go:64-85 disableBlocking with the values of the flags, for a server in state [s] that can be reached *)
Definition cli_disable (cfg : blk_cfg) (d : Z) (groups : list str) (now : Z) (s : blk_state) : blk_state * bool :=
  let '(s', r) := api_disable fraction duration_error cfg (Some (duration_string d)) (Some (join ($",") groups)) now s in
  (s', print_ok_or_error r).
End Blocking.

(** cmd/blocking.go:50-62 enableBlocking *)
Definition cli_enable (s : blk_state) : blk_state * bool := let '(s', r) := api_enable s in (s', print_ok_or_error r).

(** cmd/blocking.go:106-120 statusBlocking: what is written *)
Definition cli_status (st : api_status) : str :=
  if as_enabled st then $"blocking enabled"
  else
    let names := match as_groups st with Some gs => join ($"; ") gs | None => [] end in
    match as_auto st with
    | None | Some 0%Z => $"blocking disabled for groups: " ++ names
    | Some n => $"blocking disabled for groups: '" ++ names ++ $"', for " ++
                (if (n <? 0)%Z then "-"%char :: print_dec (Z.to_N (- n)) else print_dec (Z.to_N n)) ++ $" seconds"
    end.

(** ** Which configuration, which server *)

(** cmd/root.go:17-21 the variables of the package *)
Record cli := { cl_path : str; cl_host : str; cl_port : N }.

(** cmd/root.go:26 defaultConfigPath *)
Definition default_path : str := $"./config.yml".
(** cmd/root.go:24-26, 47-49 the values without flags *)
Definition cli_defaults : cli := {| cl_path := default_path; cl_host := $"localhost"; cl_port := 4000 |}.

(** The environment variables BLOCKY_CONFIG_FILE and CONFIG_FILE, if they are set -- cmd/root.go:27-28 *)
Record environment := { env_new : option str; env_old : option str }.

(** cmd/root.go:73-83 *)
Definition pick_path (e : environment) (path : str) : str :=
  if str_eqb path default_path then
    match env_new e with Some v => v | None => match env_old e with Some v => v | None => path end end
  else path.

(** net.JoinHostPort -- cmd/root.go:65 *)
Definition join_host_port (h p : str) : str :=
  if contains_byte colon h then $"[" ++ h ++ $"]:" ++ p else h ++ colon :: p.

(** cmd/root.go:64-66 apiURL *)
Definition api_url (c : cli) : str := $"http://" ++ join_host_port (cl_host c) (print_dec (cl_port c)) ++ $"/api".

Section Config.
Context {cfg : Type}.
(** see [LoadConf.v]; [fs]: what is at a path -- config/config.go:441-567 *)
Variable defaults : cfg.
Variable yaml : list str -> option cfg.
Variable privacy : cfg -> bool.
Variable fs : str -> at_path.
(** Ports.HTTP -- cmd/root.go:92 *)
Variable http_ports : cfg -> list str.

(** config.LoadConfig; the flag util.LogPrivacy (C119) is left out -- config/config.go:441-446 *)
Definition load (path : str) (mandatory : bool) : option cfg := fst (load_config defaults yaml privacy (fs path) mandatory false).

(** cmd/root.go:72-108 initConfig; None: an error.  log.Configure has no effect on what is modelled. *)
Definition init_config (e : environment) (c : cli) : option cli :=
  let path := pick_path e (cl_path c) in
  match load path false with
  | None => None
  | Some cfg =>
      match http_ports cfg with
      | [] => Some {| cl_path := path; cl_host := cl_host c; cl_port := cl_port c |}
      | a :: _ =>
          let parts := split_byte colon a in
          let lst := length parts - 1 in
          match convert_port (nth lst parts []) with
          | None => None
          | Some port => Some {| cl_path := path; cl_host := join [colon] (firstn lst parts); cl_port := port |}
          end
      end
  end.

(** The commands that use the REST interface, as they are reached from the root command -- cmd/root.go:51-59:
    blocking (enable, disable, status), query, lists refresh, cache flush, refresh *)
Inductive command := KBlocking | KQuery | KLists | KCache | KRefresh.

(** Is initConfig called before?  PersistentPreRunE at blocking (cmd/blocking.go:19), query (cmd/query.go:21), lists
    (cmd/lists.go:16) and cache (cmd/cache.go:15); refresh below the root command (cmd/lists.go:24-30) has none, and the root command
    has a PreRunE, which is not inherited (cmd/root.go:40) *)
Definition initialised (k : command) : bool := match k with KRefresh => false | _ => true end.

(** The address a command talks to; None: an error -- cmd/blocking.go:51, 71, 88, cmd/lists.go:33, cmd/cache.go:29, cmd/query.go:37 *)
Definition used_url (k : command) (e : environment) (c : cli) : option str :=
  if initialised k then option_map api_url (init_config e c) else Some (api_url c).

(** os.Stat gives os.ErrNotExist -- cmd/validate.go:25-26 *)
Definition not_exist (p : at_path) : bool := match p with Missing | Found (NLink TBroken) => true | _ => false end.

(** cmd/validate.go:22-38 validateConfiguration; true: "Configuration is valid" *)
Definition validate_configuration (e : environment) (c : cli) : bool :=
  if not_exist (fs (cl_path c)) then false
  else match init_config e c with Some _ => true | None => false end.

(** cmd/serve.go:37-43 startServer after initConfig (cmd/serve.go:32, cmd/root.go:40): the configuration the server is made
    with; None: an error *)
Definition serve_config (e : environment) (c : cli) : option cfg :=
  match init_config e c with
  | Some c => load (cl_path c) true
  | None => None
  end.
End Config.
