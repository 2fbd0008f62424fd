(** The life of the query log over restarts: querylog/database_writer.go (migration of the schema, retention), file_writer.go,
    resolver/query_logging_resolver.go (periodic clean-up).

    Databases are modelled as far as these statements go, from the documentation of MySQL, PostgreSQL and TimescaleDB.  Entries are in the log
    at once (channel, batches and failing databases: QueryLog.v). *)
From Coq Require Import String Ascii List Arith Bool NArith ZArith.
From Verif Require Import Str QueryLog.
Import ListNotations.
Open Scope list_scope.

(** ** The schema *)

(** The statements that are executed, with their retention in days -- querylog/database_writer.go:95, 104, 116, 122-126, 133-137 *)
Inductive sql := AutoMigrate | AddIdMysql | AddIdPostgres | CreateHypertable | AddRetentionPolicy (days : N).

(** What they are about: the table, its column id, whether it is a hypertable, the days of its retention policy
    -- querylog/database_writer.go:94-144 *)
Record schema := { sc_table : bool; sc_id : bool; sc_hyper : bool; sc_policy : option N }.

(** strings.Contains -- querylog/database_writer.go:107 *)
Fixpoint contains (s sub : str) : bool :=
  has_prefix s sub || match s with [] => false | _ :: r => contains r sub end.

(** The error of MySQL for a column that exists -- querylog/database_writer.go:108 *)
Definition duplicate_column : str := $"Error 1060 (42S21): Duplicate column name 'id'".

(** The database: [fails] gives the text of an error for reasons outside the schema.  MySQL refuses to add a column twice; "if not exists"
    leaves alone what is there, also a retention policy with another number of days -- querylog/database_writer.go:95-137 *)
Definition exec (fails : sql -> option str) (c : sql) (s : schema) : schema + str :=
  match fails c with
  | Some text => inr text
  | None =>
      match c with
      | AutoMigrate => inl {| sc_table := true; sc_id := sc_id s; sc_hyper := sc_hyper s; sc_policy := sc_policy s |}
      | AddIdMysql => if sc_id s then inr duplicate_column
                      else inl {| sc_table := sc_table s; sc_id := true; sc_hyper := sc_hyper s; sc_policy := sc_policy s |}
      | AddIdPostgres => inl {| sc_table := sc_table s; sc_id := true; sc_hyper := sc_hyper s; sc_policy := sc_policy s |}
      | CreateHypertable => inl {| sc_table := sc_table s; sc_id := sc_id s; sc_hyper := true; sc_policy := sc_policy s |}
      | AddRetentionPolicy days =>
          inl {| sc_table := sc_table s; sc_id := sc_id s; sc_hyper := sc_hyper s;
                 sc_policy := match sc_policy s with Some d => Some d | None => Some days end |}
      end
  end.

(** querylog/database_writer.go:94-144 databaseMigration: the schema afterwards, and whether it succeeds *)
Definition migrate (fails : sql -> option str) (db_type : str) (days : N) (s : schema) : schema * bool :=
  match exec fails AutoMigrate s with
  | inr _ => (s, false)
  | inl s =>
      if str_eqb db_type $"mysql" then
        match exec fails AddIdMysql s with
        | inl s => (s, true)
        | inr text => (s, contains text $"1060")
        end
      else if str_eqb db_type $"postgres" then
        match exec fails AddIdPostgres s with inl s => (s, true) | inr _ => (s, false) end
      else if str_eqb db_type $"timescale" then
        match exec fails CreateHypertable s with
        | inr _ => (s, false)
        | inl s => match exec fails (AddRetentionPolicy days) s with inl s => (s, true) | inr _ => (s, false) end
        end
      else (s, true)
  end.

(** querylog/database_writer.go:48-59 NewDatabaseWriter: is the type known? *)
Definition known_db (db_type : str) : bool := str_in db_type [$"mysql"; $"postgresql"; $"timescale"].

(** resolver/query_logging_resolver.go:37-63 GetQueryLoggingWriter for databases: the schema afterwards, and whether there is a writer
    (a connection that fails, database_writer.go:64-76, is an error of AutoMigrate; csv files: QueryLog.v) *)
Definition open_db (fails : sql -> option str) (t : log_type) (days : N) (s : schema) : schema * bool :=
  let with_type db_type := if known_db db_type then migrate fails db_type days s else (s, false) in
  match t with
  | LMysql => with_type $"mysql"
  | LPostgresql => with_type $"postgresql"
  | LTimescale => with_type $"timescale"
  | _ => (s, true)
  end.

(** resolver/query_logging_resolver.go:71-92: the attempts, up to the first that succeeds; [attempts] has the errors of each of them *)
Fixpoint open_retry (attempts : list (sql -> option str)) (t : log_type) (days : N) (s : schema) : schema * bool :=
  match attempts with
  | [] => (s, false)
  | fails :: rest =>
      let '(s, ok) := open_db fails t days s in
      if ok then (s, true) else open_retry rest t days s
  end.

(** ** The log *)
Section Log.
(** the local calendar, midnight of a day, the same time some days before; see QueryLog.removes -- querylog/file_writer.go:46, 88, querylog/database_writer.go:189 *)
Variable civil_of : Z -> civil.
Variable midnight : N -> N -> N -> Z.
Variable days_before : N -> Z -> Z.
Variable wrap : Z -> N.
(** the length of a chunk of a hypertable in seconds -- querylog/database_writer.go:122-127 (default of create_hypertable) *)
Variable chunk : Z.
(** the type of the log; one directory or one database over all restarts -- resolver/query_logging_resolver.go:42 *)
Variable kind : log_type.

(** resolver/query_logging_resolver.go:21 cleanUpRunPeriod in seconds *)
Definition clean_period : Z := 43200.

(** The time in seconds, the schema, the entries in the log, and the process if it runs: type of its writer, retention, the next tick
    (None: no periodic clean-up) -- resolver/query_logging_resolver.go:66-133 *)
Record life := { lf_now : Z; lf_schema : schema; lf_log : list log_entry; lf_run : option (log_type * N * option Z) }.

(** An entry has the time of its query -- resolver/query_logging_resolver.go:143, 151 *)
Definition stamp (now : Z) (e : log_entry) : log_entry :=
  {| le_instant := now; le_start := civil_of now; le_ip := le_ip e; le_names := le_names e; le_ms := le_ms e; le_reason := le_reason e;
     le_type := le_type e; le_code := le_code e; le_qtype := le_qtype e; le_qname := le_qname e; le_answer := le_answer e; le_instance := le_instance e |}.

(** CleanUp of the writers: querylog/file_writer.go:74-104, querylog/database_writer.go:188-193; the writers of the console and of
    nothing have nothing to do (querylog/logger_writer.go:27-29, querylog/none_writer.go:13-15) *)
Definition clean_log (t : log_type) (days : N) (now : Z) (log : list log_entry) : list log_entry :=
  match t with
  | LCsv => filter (fun e => negb (removes wrap midnight days now (file_name false e))) log
  | LCsvClient => filter (fun e => negb (removes wrap midnight days now (file_name true e))) log
  | LMysql | LPostgresql | LTimescale => filter (fun e => (days_before days now <=? le_instant e)%Z) log
  | LConsole | LNone => log
  end.

(** Does a writer of this type keep entries?  -- resolver/query_logging_resolver.go:42-60 *)
Definition keeps (t : log_type) : bool := match t with LConsole | LNone => false | _ => true end.

(** The start of the process with a retention, its end, a query, time passes, the database applies the retention policy
    -- resolver/query_logging_resolver.go:66-165 *)
Inductive life_op := Start (attempts : list (sql -> option str)) (days : N) | Stop | Log (e : log_entry) | Pass (seconds : N) | Policy.

(** One step.  Time passes at most up to the next tick, at which the log is cleaned (resolver/query_logging_resolver.go:112-137); a policy
    drops the chunks which end before its number of days (querylog/database_writer.go:132-137) *)
Definition life_step (s : life) (o : life_op) : life :=
  match o with
  | Start attempts days =>
      let '(sc, ok) := open_retry attempts kind days (lf_schema s) in
      let t := writer_type kind ok in
      {| lf_now := lf_now s; lf_schema := sc; lf_log := lf_log s;
         lf_run := Some (t, days, if cleans_up t days then Some (lf_now s + clean_period)%Z else None) |}
  | Stop => {| lf_now := lf_now s; lf_schema := lf_schema s; lf_log := lf_log s; lf_run := None |}
  | Log e =>
      match lf_run s with
      | Some (t, _, _) =>
          {| lf_now := lf_now s; lf_schema := lf_schema s; lf_log := if keeps t then lf_log s ++ [stamp (lf_now s) e] else lf_log s; lf_run := lf_run s |}
      | None => s
      end
  | Pass seconds =>
      let later := (lf_now s + Z.of_N seconds)%Z in
      match lf_run s with
      | Some (t, days, Some next) =>
          if (next <=? later)%Z
          then {| lf_now := next; lf_schema := lf_schema s; lf_log := clean_log t days next (lf_log s); lf_run := Some (t, days, Some (next + clean_period)%Z) |}
          else {| lf_now := later; lf_schema := lf_schema s; lf_log := lf_log s; lf_run := lf_run s |}
      | _ => {| lf_now := later; lf_schema := lf_schema s; lf_log := lf_log s; lf_run := lf_run s |}
      end
  | Policy =>
      match sc_policy (lf_schema s) with
      | None => s
      | Some days =>
          {| lf_now := lf_now s; lf_schema := lf_schema s;
             lf_log := filter (fun e => negb ((le_instant e / chunk + 1) * chunk <=? days_before days (lf_now s))%Z) (lf_log s); lf_run := lf_run s |}
      end
  end.

(** A history, from an empty log in a new database -- resolver/query_logging_resolver.go:66-165 *)
Definition life_run (now : Z) (ops : list life_op) : life :=
  fold_left life_step ops {| lf_now := now; lf_schema := {| sc_table := false; sc_id := false; sc_hyper := false; sc_policy := None |}; lf_log := []; lf_run := None |}.
End Log.
