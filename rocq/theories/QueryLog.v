(** The query log: resolver/query_logging_resolver.go, querylog/*.go, util/common.go Obfuscate. *)
From Coq Require Import String Ascii List Arith Bool NArith ZArith.
From Verif Require Import Str Dns Resolver Num.
Import ListNotations.
Open Scope list_scope.

(** Characters of the class [a-zA-Z0-9] (util/common.go:30 and querylog/file_writer.go:23) *)
Definition alphanumeric (c : ascii) : bool :=
  let n := N_of_ascii c in
  ((65 <=? n) && (n <=? 90) || (97 <=? n) && (n <=? 122) || (48 <=? n) && (n <=? 57))%N.

(** util/common.go:34-40 Obfuscate; [privacy] is util.LogPrivacy *)
Definition obfuscate (privacy : bool) (s : str) : str :=
  if privacy then map (fun c => if alphanumeric c then star else c) s else s.

(** ** Entries *)

(** A point in local time, as Start.Format prints it. -- querylog/file_writer.go:44 *)
Record civil := { c_year : N; c_month : N; c_day : N; c_hour : N; c_min : N; c_sec : N }.

(** querylog/writer.go:7-19 LogEntry; the start is kept as instant (seconds) and local time *)
Record log_entry := {
  le_instant : Z; le_start : civil; le_ip : str; le_names : list str; le_ms : N; le_reason : str;
  le_type : str; le_code : str; le_qtype : str; le_qname : str; le_answer : str; le_instance : str }.

(** config/query_log.go: QueryLogField *)
Inductive log_field := FClientIP | FClientName | FReason | FAnswer | FQuestion | FDuration.

(** config/query_log.go:12-26 QueryLog, as far as the resolver uses it *)
Record log_cfg := { lc_fields : list log_field; lc_ignore_sudn : bool }.

(** Texts of the libraries: net.IP.String (nil gives "<nil>"), dns.RcodeToString,
    dns.TypeToString, RR.String and ResponseType.String -- resolver/query_logging_resolver.go:180-217 *)
Record texts := {
  ip_text : option ip -> str; rcode_text : N -> str; type_text : N -> str; rr_text : rr -> str;
  rtype_text : rtype -> str }.

(** util/common.go:43-62 AnswerToString *)
Definition answer_to_string (T : texts) (privacy : bool) (answer : list rr) : str :=
  obfuscate privacy (join $", " (map (fun r =>
    match rr_data r with
    | DA i => $"A (" ++ ip_text T (Some i) ++ $")"
    | DAAAA i => $"AAAA (" ++ ip_text T (Some i) ++ $")"
    | DCNAME t => $"CNAME (" ++ t ++ $")"
    | DPTR t => $"PTR (" ++ t ++ $")"
    | _ => rr_text T r
    end) answer)).

(** Assignments of query_logging_resolver.go:190-212, one configured field.
    None: the panic on a missing message or question. *)
Definition fill_field (T : texts) (privacy : bool) (req : request) (resp : response) (ms : N)
    (f : log_field) (e : log_entry) : option log_entry :=
  match f with
  | FClientIP => Some
      {| le_instant := le_instant e; le_start := le_start e; le_ip := ip_text T (req_ip req); le_names := le_names e;
         le_ms := le_ms e; le_reason := le_reason e; le_type := le_type e; le_code := le_code e; le_qtype := le_qtype e;
         le_qname := le_qname e; le_answer := le_answer e; le_instance := le_instance e |}
  | FClientName => Some
      {| le_instant := le_instant e; le_start := le_start e; le_ip := le_ip e; le_names := req_names req;
         le_ms := le_ms e; le_reason := le_reason e; le_type := le_type e; le_code := le_code e; le_qtype := le_qtype e;
         le_qname := le_qname e; le_answer := le_answer e; le_instance := le_instance e |}
  | FReason => match rs_msg resp with
      | None => None
      | Some m => Some
      {| le_instant := le_instant e; le_start := le_start e; le_ip := le_ip e; le_names := le_names e;
         le_ms := le_ms e; le_reason := rs_reason resp; le_type := rtype_text T (rs_type resp);
         le_code := rcode_text T (m_rcode m); le_qtype := le_qtype e;
         le_qname := le_qname e; le_answer := le_answer e; le_instance := le_instance e |}
      end
  | FAnswer => match rs_msg resp with
      | None => None
      | Some m => Some
      {| le_instant := le_instant e; le_start := le_start e; le_ip := le_ip e; le_names := le_names e;
         le_ms := le_ms e; le_reason := le_reason e; le_type := le_type e; le_code := le_code e; le_qtype := le_qtype e;
         le_qname := le_qname e; le_answer := answer_to_string T privacy (m_answer m); le_instance := le_instance e |}
      end
  | FQuestion => match m_question (req_msg req) with
      | [] => None
      | q :: _ => Some
      {| le_instant := le_instant e; le_start := le_start e; le_ip := le_ip e; le_names := le_names e;
         le_ms := le_ms e; le_reason := le_reason e; le_type := le_type e; le_code := le_code e;
         le_qtype := type_text T (q_type q); le_qname := obfuscate privacy (q_name q);
         le_answer := le_answer e; le_instance := le_instance e |}
      end
  | FDuration => Some
      {| le_instant := le_instant e; le_start := le_start e; le_ip := le_ip e; le_names := le_names e;
         le_ms := ms; le_reason := le_reason e; le_type := le_type e; le_code := le_code e; le_qtype := le_qtype e;
         le_qname := le_qname e; le_answer := le_answer e; le_instance := le_instance e |}
  end.

(** The loop over the configured fields, query_logging_resolver.go:190. *)
Fixpoint fill_fields (T : texts) (privacy : bool) (req : request) (resp : response) (ms : N)
    (fs : list log_field) (e : log_entry) : option log_entry :=
  match fs with
  | [] => Some e
  | f :: fs => match fill_field T privacy req resp ms f e with
               | Some e => fill_fields T privacy req resp ms fs e
               | None => None
               end
  end.

(** query_logging_resolver.go:180-215 createLogEntry *)
Definition create_log_entry (T : texts) (privacy : bool) (cfg : log_cfg) (instance : str)
    (instant : Z) (start : civil) (ms : N) (req : request) (resp : response) : option log_entry :=
  fill_fields T privacy req resp ms (lc_fields cfg)
    {| le_instant := instant; le_start := start; le_ip := $"0.0.0.0"; le_names := [$"none"]; le_ms := 0;
       le_reason := []; le_type := []; le_code := []; le_qtype := []; le_qname := []; le_answer := [];
       le_instance := instance |}.

(** query_logging_resolver.go:167-178 ignore *)
Definition log_ignored (cfg : log_cfg) (resp : response) : bool :=
  lc_ignore_sudn cfg && rtype_eqb (rs_type resp) SPECIAL.

(** query_logging_resolver.go:140-165 Resolve: what it returns ... *)
Definition logging_resolve (entry : request -> response -> option log_entry) (req : request) : prog :=
  Next req (fun r => match r with
    | Err e => Done (Err e)
    | Ok resp => match entry req resp with Some _ => Done (Ok resp) | None => Crash end
    end).

(** ... and the entry it offers to the log channel. -- resolver/query_logging_resolver.go:140-161 *)
Definition logging_offer (entry : request -> response -> option log_entry) (cfg : log_cfg) (req : request)
    (r : option result) : option log_entry :=
  match r with
  | Some (Ok resp) => match entry req resp with
                      | Some e => if log_ignored cfg resp then None else Some e
                      | None => None
                      end
  | _ => None
  end.

(** ** The channel and the writer goroutine *)

(** query_logging_resolver.go:23 logChanCap *)
Definition log_chan_cap : nat := 1000.

(** The state: entries in the channel, entries handed to the writer, is the goroutine running. -- resolver/query_logging_resolver.go:219-241 *)
Record log_state := { ls_queue : list log_entry; ls_written : list log_entry; ls_running : bool }.

(** query_logging_resolver.go:99-109 *)
Definition log_init : log_state := {| ls_queue := []; ls_written := []; ls_running := true |}.

(** What can happen: a resolver call offers an entry (157-161: a select with a default), the
    writer goroutine takes one (223-227), the context ends (238). -- resolver/query_logging_resolver.go:140-241 *)
Inductive log_op := LOffer (e : log_entry) | LWrite | LStop.

(** one step of query_logging_resolver.go:157-161, 219-241 *)
Definition log_step (s : log_state) (o : log_op) : log_state :=
  match o with
  | LOffer e => if length (ls_queue s) <? log_chan_cap
                then {| ls_queue := ls_queue s ++ [e]; ls_written := ls_written s; ls_running := ls_running s |}
                else s
  | LWrite => match ls_running s, ls_queue s with
              | true, e :: q => {| ls_queue := q; ls_written := ls_written s ++ [e]; ls_running := true |}
              | _, _ => s
              end
  | LStop => {| ls_queue := ls_queue s; ls_written := ls_written s; ls_running := false |}
  end.

(** a schedule of the steps above -- resolver/query_logging_resolver.go:140-241 *)
Definition log_run (ops : list log_op) : log_state := fold_left log_step ops log_init.

(** ** Creation of the writer *)

(** query_logging_resolver.go:71-92: the calls of GetQueryLoggingWriter by retry.Do with [attempts]
    (0 means no limit in retry-go; [fuel] bounds the loop then).  [ok n] is the outcome of call
    number n.  Result: number of calls, and whether the configured writer was created. *)
Fixpoint create_writer_from (fuel n : nat) (attempts : nat) (ok : nat -> bool) : option (nat * bool) :=
  match fuel with
  | 0 => None
  | S fuel => if ok n then Some (S n, true)
              else if (0 <? attempts) && (attempts <=? S n) then Some (S n, false)
              else create_writer_from fuel (S n) attempts ok
  end.

(** config/query_log.go QueryLogType *)
Inductive log_type := LConsole | LNone | LMysql | LPostgresql | LCsv | LCsvClient | LTimescale.

(** query_logging_resolver.go:87-92: type after the fall-back, and 112-115: does the periodic clean up run *)
Definition writer_type (t : log_type) (created : bool) : log_type := if created then t else LConsole.
(** resolver/query_logging_resolver.go:112-115: does the periodic clean up run *)
Definition cleans_up (t : log_type) (retention : N) : bool :=
  (0 <? retention)%N && match t with LTimescale => false | _ => true end.

(** ** The database writer *)

(** querylog/database_writer.go:22-35 logEntry *)
Record db_row := {
  db_ts : Z; db_ip : str; db_name : str; db_ms : N; db_reason : str; db_type : str; db_qtype : str; db_qname : str;
  db_etld : str; db_answer : str; db_code : str; db_host : str }.

(** querylog/database_writer.go:163-186 Write: the row; [etld] is publicsuffix.EffectiveTLDPlusOne *)
Definition db_row_of (etld : str -> str) (e : log_entry) : db_row :=
  let domain := extract_domain_only (le_qname e) in
  {| db_ts := le_instant e; db_ip := le_ip e; db_name := join $"; " (le_names e); db_ms := le_ms e;
     db_reason := le_reason e; db_type := le_type e; db_qtype := le_qtype e; db_qname := domain;
     db_etld := etld domain; db_answer := le_answer e; db_code := le_code e; db_host := le_instance e |}.

(** The pending entries, the table, and the batches handed to the database so far. -- querylog/database_writer.go:40-50 *)
Record db_state := { db_pending : list db_row; db_table : list db_row; db_batches : list (list db_row) }.

(** database_writer.go:83-87 *)
Definition db_init : db_state := {| db_pending := []; db_table := []; db_batches := [] |}.

(** database_writer.go:204 bulkSize *)
Definition bulk_size : nat := 100.

(** database_writer.go:206-214: the loop over the slices; [fuel] is at least their number *)
Fixpoint batches (fuel : nat) (l : list db_row) : list (list db_row) :=
  match fuel, l with
  | 0, _ | _, [] => []
  | S fuel, _ => firstn bulk_size l :: batches fuel (skipn bulk_size l)
  end.

(** Writing the batches (212 Create): [ok] are the outcomes of the database, in order; a failed
    batch leaves nothing behind -- querylog/database_writer.go:195-223 *)
Fixpoint write_batches (bs : list (list db_row)) (ok : list bool) (table : list db_row) : list db_row :=
  match bs with
  | [] => table
  | b :: bs => write_batches bs (tl ok) (if hd true ok then table ++ b else table)
  end.

(** Steps: Write (163-186), doDBWrite (195-223, called by the ticker, 146-161) with the outcomes of the
    batches, CleanUp (188-193) with its deletion date; when the context ends nothing more is written. -- querylog/database_writer.go:146-223 *)
Inductive db_op := DWrite (e : log_entry) | DFlush (ok : list bool) | DClean (date : Z).

(** one step of database_writer.go:163-223 *)
Definition db_step (etld : str -> str) (s : db_state) (o : db_op) : db_state :=
  match o with
  | DWrite e => {| db_pending := db_pending s ++ [db_row_of etld e]; db_table := db_table s; db_batches := db_batches s |}
  | DFlush ok =>
      let bs := batches (length (db_pending s)) (db_pending s) in
      {| db_pending := []; db_table := write_batches bs ok (db_table s); db_batches := db_batches s ++ bs |}
  | DClean date =>
      {| db_pending := db_pending s; db_table := filter (fun r => (date <=? db_ts r)%Z) (db_table s);
         db_batches := db_batches s |}
  end.

(** a history of the database writer -- querylog/database_writer.go:146-223 *)
Definition db_run (etld : str -> str) (ops : list db_op) : db_state := fold_left (db_step etld) ops db_init.

(** ** The file writer *)

(** Go's %d of Format: at least [w] digits -- querylog/file_writer.go:44 *)
Definition pad_dec (w : nat) (n : N) : str := let s := print_dec n in repeat "0"%char (w - length s) ++ s.

(** Start.Format("2006-01-02") (file_writer.go:46) *)
Definition format_date (c : civil) : str :=
  pad_dec 4 (c_year c) ++ $"-" ++ pad_dec 2 (c_month c) ++ $"-" ++ pad_dec 2 (c_day c).

(** Start.Format("2006-01-02 15:04:05") (file_writer.go:108) *)
Definition format_time (c : civil) : str :=
  format_date c ++ $" " ++ pad_dec 2 (c_hour c) ++ $":" ++ pad_dec 2 (c_min c) ++ $":" ++ pad_dec 2 (c_sec c).

(** Characters kept by the pattern of file_writer.go:23. *)
Definition file_char (c : ascii) : bool :=
  alphanumeric c || Ascii.eqb c "-"%char || Ascii.eqb c "_"%char.

(** file_writer.go:129-131 escape: every run of other characters becomes one underscore; [run]: the
    previous character was replaced.  (Bytes: every byte of a character outside ASCII is replaced.) *)
Fixpoint escape_from (run : bool) (s : str) : str :=
  match s with
  | [] => []
  | c :: s => if file_char c then c :: escape_from false s
              else if run then escape_from true s
              else "_"%char :: escape_from true s
  end.
(** querylog/file_writer.go:129-131 escape *)
Definition escape (s : str) : str := escape_from false s.

(** file_writer.go:44-55: the file of an entry inside the target directory *)
Definition file_name (per_client : bool) (e : log_entry) : str :=
  format_date (le_start e) ++ $"_" ++
  escape (if per_client then join $"-" (le_names e) else $"ALL") ++ $".log".

(** file_writer.go:106-120 createQueryLogRow *)
Definition log_row (e : log_entry) : list str :=
  [format_time (le_start e); le_ip e; join $"; " (le_names e); print_dec (le_ms e); le_reason e; le_qname e;
   le_answer e; le_code e; le_type e; le_qtype e; le_instance e].

(** Characters with a meaning in CSV files. -- querylog/file_writer.go:122-127 *)
Definition tab : ascii := ascii_of_N 9.
(** line feed (encoding/csv, querylog/file_writer.go:122-127) *)
Definition newline : ascii := ascii_of_N 10.
(** carriage return (encoding/csv, querylog/file_writer.go:122-127) *)
Definition carriage : ascii := ascii_of_N 13.
(** double quote (encoding/csv, querylog/file_writer.go:122-127) *)
Definition quote : ascii := ascii_of_N 34.

(** encoding/csv Writer.fieldNeedsQuotes with Comma = '\t'; [first_space]: unicode.IsSpace of the first rune -- querylog/file_writer.go:122-127 *)
Definition needs_quotes (first_space : str -> bool) (f : str) : bool :=
  match f with
  | [] => false
  | _ => str_eqb f $"\." || contains_byte newline f || contains_byte carriage f || contains_byte quote f ||
         contains_byte tab f || first_space f
  end.

(** encoding/csv Writer.Write: one field ... -- querylog/file_writer.go:122-127 *)
Definition csv_field (first_space : str -> bool) (f : str) : str :=
  if needs_quotes first_space f
  then quote :: flat_map (fun c => if Ascii.eqb c quote then [quote; quote] else [c]) f ++ [quote]
  else f.

(** ... and one record (file_writer.go:122-127: Comma is a tab) *)
Definition csv_record (first_space : str -> bool) (fs : list str) : str :=
  join [tab] (map (csv_field first_space) fs) ++ [newline].

(** file_writer.go:43-71 Write: the target directory as a map from file names to contents; [opens] is
    false if the file can't be opened, then nothing is written *)
Definition file_write (first_space : str -> bool) (per_client : bool) (fs : list (str * str)) (e : log_entry) (opens : bool) : list (str * str) :=
  if opens then
    let n := file_name per_client e in
    mput str_eqb n (match mget str_eqb n fs with Some t => t | None => [] end ++ csv_record first_space (log_row e)) fs
  else fs.

(** ** Retention *)

(** Days of a month (Go's time.daysIn) -- querylog/file_writer.go:88 *)
Definition days_in (m y : N) : N :=
  if (m =? 2)%N then (if ((y mod 4 =? 0) && (negb (y mod 100 =? 0) || (y mod 400 =? 0)))%N then 29 else 28)%N
  else if ((m =? 4) || (m =? 6) || (m =? 9) || (m =? 11))%N then 30%N else 31%N.

(** The value of a text of decimal digits; None for other characters (Go's time.atoi, getnum) -- querylog/file_writer.go:88 *)
Definition date_digits (s : str) : option N := parse_digits 10 0 s.

(** time.ParseInLocation("2006-01-02", s, time.Local) for texts of ten bytes -- querylog/file_writer.go:88 *)
Definition parse_date (s : str) : option (N * N * N) :=
  match date_digits (firstn 4 s), date_digits (firstn 2 (skipn 5 s)), date_digits (firstn 2 (skipn 8 s)) with
  | Some y, Some m, Some d =>
      if str_eqb (firstn 1 (skipn 4 s)) $"-" && str_eqb (firstn 1 (skipn 7 s)) $"-" &&
         ((1 <=? m) && (m <=? 12) && (1 <=? d) && (d <=? days_in m y))%N
      then Some (y, m, d) else None
  | _, _, _ => None
  end.

(** file_writer.go:86-102: is the file removed at [now] (seconds)?  [midnight] is the start of a local
    day.  The float arithmetic of Hours() is taken as exact; [wrap] is Go's conversion of a negative
    number of days to uint64, which depends on the machine. *)
Definition removes (wrap : Z -> N) (midnight : N -> N -> N -> Z) (retention : N) (now : Z) (f : str) : bool :=
  has_suffix f $".log" && (10 <? length f) &&
  match parse_date (firstn 10 f) with
  | Some (y, m, d) =>
      let days := Z.quot (now - midnight y m d) 86400 in
      let difference := if (days <? 0)%Z then wrap days else Z.to_N days in
      (0 <? retention)%N && (retention <? difference)%N
  | None => false
  end.

(** file_writer.go:74-104 CleanUp: the files that are left *)
Definition clean_files (wrap : Z -> N) (midnight : N -> N -> N -> Z) (retention : N) (now : Z) (files : list str) : list str :=
  filter (fun f => negb (removes wrap midnight retention now f)) files.

(** Conversion on amd64: the two's complement. -- querylog/file_writer.go:92 *)
Definition wrap_amd64 (z : Z) : N := Z.to_N (z mod 2 ^ 64).

(** ** Names in log fields *)

(** caching_resolver.go:192, the field "domain" of the log lines of the caching resolver *)
Definition caching_log_domain (privacy : bool) (q : question) : str := obfuscate privacy (extract_domain q).
(** blocking_resolver.go:370-372, the field "domain" of the log lines of the blocking resolver *)
Definition blocking_log_domain (privacy : bool) (q : question) : str := extract_domain q.
