(** What is said about lines of a list or hosts file that are not understood: the line number, the reason and the number of
    entries so far (lists/parsers/lines.go, adapt.go, filtererrors.go, parser.go, hosts.go; lists/list_cache.go,
    resolver/hosts_file_resolver.go).  Line numbers are uint there. *)
From Coq Require Import String Ascii List Arith Bool NArith ZArith.
From Verif Require Import Str Num Parsers.
Import ListNotations.
Open Scope list_scope.

(** ** Errors *)

(** The errors of the parsers: end of file and a read error (both wrapped in NonResumableError), the context is done (noticed by
    lines.Next: wrapped as well, or by ForEach), a line is not understood, too many of them -- lists/parsers/lines.go:60, 89, 92;
    lists/parsers/parser.go:41; lists/parsers/adapt.go:59; lists/parsers/filtererrors.go:41 *)
Inductive perr := EEof | ERead (t : str) | ECtx (wrapped : bool) | EBad (t : str) | ETooMany.

(** lists/parsers/parser.go:71-75 IsNonResumableErr *)
Definition non_resumable (e : perr) : bool :=
  match e with EEof | ERead _ => true | ECtx w => w | EBad _ | ETooMany => false end.

(** Error() of them; [canceled]: the context's error is context.Canceled, otherwise context.DeadlineExceeded --
    lists/parsers/parser.go:87-89, lists/parsers/filtererrors.go:11 *)
Definition perr_text (canceled : bool) (e : perr) : str :=
  let ctx := if canceled then $"context canceled" else $"context deadline exceeded" in
  match e with
  | EEof => $"non resumable parse error: EOF"
  | ERead t => $"non resumable parse error: " ++ t
  | ECtx true => $"non resumable parse error: " ++ ctx
  | ECtx false => ctx
  | EBad t => t
  | ETooMany => $"too many parse errors"
  end.

(** lists/parsers/lines.go:51-53 lines.Position, which adapt.go:43-45 and filtererrors.go:67-69 pass on *)
Definition position (line : nat) : str := $"line " ++ print_dec (N.of_nat line).

(** lists/parsers/parser.go:62-68 ErrWithPosition of an error that is not nil *)
Definition with_position (line : nat) (text : str) : str := position line ++ $": " ++ text.

(** ** Reading *)
Section Reading.
Context {A : Type}.
(** the UnmarshalText method: a value, or the text of its error -- lists/parsers/lines.go:26-32 *)
Variable unmarshal : str -> A + str.
(** Is the context done when lines.Next has counted to this line, or when ForEach looks while the count is this?
    -- lists/parsers/lines.go:59, lists/parsers/parser.go:41 *)
Variable done_line done_each : nat -> bool.
(** scanner.Err() at the end -- lists/parsers/lines.go:86 *)
Variable scan_err : option str.

(** lists/parsers/lines.go:55-93 lines.Next: lineNo after it, and the text with the unread lines or the error *)
Fixpoint read_line (no : nat) (ls : list str) : nat * (str * list str + perr) :=
  let no := S no in
  if done_line no then (no, inr (ECtx true))
  else match ls with
       | [] => (no, inr match scan_err with Some t => ERead t | None => EEof end)
       | raw :: ls' => match clean_line raw with
                       | None => read_line no ls'
                       | Some text => (no, inl (text, ls'))
                       end
       end.

(** lists/parsers/adapt.go:47-63 adapter.Next *)
Definition read_item (no : nat) (ls : list str) : nat * (A * list str + perr * list str) :=
  match read_line no ls with
  | (no, inr e) => (no, inr (e, []))
  | (no, inl (text, rest)) =>
      match unmarshal text with
      | inl a => (no, inl (a, rest))
      | inr t => (no, inr (EBad t, rest))
      end
  end.

(** What happens while a source is read: an item is given to the callback of ForEach, or the callback of OnErr is called with an
    error at a line -- lists/parsers/parser.go:54, lists/parsers/filtererrors.go:61 *)
Inductive event := Delivered (a : A) | Warned (line : nat) (text : str).

(** lists/parsers/filtererrors.go:71-92 errorFilter.Next with the filter of AllowErrors (30-46) and OnErr (57-65): the events, lineNo,
    and the item with the unread lines and the number of errors, or the error.  [fuel] bounds the loop. *)
Fixpoint filtered_next (fuel : nat) (limit count : Z) (no : nat) (ls : list str)
  : list event * nat * (A * list str * Z + perr) :=
  match fuel with
  | O => ([], no, inr EEof)
  | S fuel =>
      match read_item no ls with
      | (no, inl (a, rest)) => ([], no, inl (a, rest, count))
      | (no, inr (e, rest)) =>
          if non_resumable e then ([], no, inr e)
          else
            let w := Warned no (with_position no (perr_text true e)) in
            if (limit =? -1)%Z then let '(evs, no, r) := filtered_next fuel limit count no rest in (w :: evs, no, r)
            else if (limit <? count + 1)%Z then ([w], no, inr ETooMany)
            else let '(evs, no, r) := filtered_next fuel limit (count + 1) no rest in (w :: evs, no, r)
      end
  end.

(** lists/parsers/parser.go:35-59 ForEach with a callback that returns nil: the events and the error with the line of its position;
    errors.Is(err, io.EOF) is no error *)
Fixpoint read_each (fuel : nat) (limit count : Z) (no : nat) (ls : list str) : list event * option (nat * perr) :=
  match fuel with
  | O => ([], None)
  | S fuel =>
      if done_each no then ([], Some (no, ECtx false))
      else match filtered_next (S (length ls)) limit count no ls with
           | (ws, no, inl (a, rest, count)) =>
               let '(evs, r) := read_each fuel limit count no rest in (ws ++ Delivered a :: evs, r)
           | (ws, no, inr EEof) => (ws, None)
           | (ws, no, inr e) => (ws, Some (no, e))
           end
  end.

(** lists/parsers/parser.go:35-59 over a new parser: lineNo is 0 (lists/parsers/lines.go:48) *)
Definition read_source (limit : Z) (ls : list str) : list event * option (nat * perr) :=
  read_each (S (length ls)) limit 0 0 ls.
End Reading.
Arguments event : clear implicits.

(** ** Reasons *)
Section Reasons.
(** net.ParseIP and String: see Parsers.v *)
Variable parse_ip : str -> option str.
(** idna.Punycode.ToASCII: the name, or the text of the error and what was made of the name -- lists/parsers/hosts.go:244-246 *)
Variable to_ascii : str -> str + str * str.
(** the error of regexp.Compile -- lists/parsers/hosts.go:283 *)
Variable compile_err : str -> option str.

(** lists/parsers/hosts.go:261-271 validateDomainName: the error *)
Definition name_err (host : str) : option str :=
  if 255 <? length host then Some ($"domain name is too long: " ++ host)
  else if re_match domain_name_regex host then None
  else Some ($"invalid domain name: " ++ host).

(** lists/parsers/hosts.go:277-289 validateHostsListEntry *)
Definition list_entry_err (host : str) : option str :=
  match parse_ip host with
  | Some _ => None
  | None => if is_regex host then compile_err host else name_err host
  end.

(** lists/parsers/hosts.go:235-259 normalizeHostsListEntry *)
Definition normalize_entry (host : str) : str + str :=
  match (if is_regex host then inl host else to_ascii host) with
  | inr (t, h) => inr (t ++ $": " ++ h)
  | inl host =>
      let host := trim_suffix (trim_prefix host $"||") $"^" in
      match list_entry_err host with Some t => inr t | None => inl host end
  end.

(** lists/parsers/hosts.go:96-116 HostListEntry.UnmarshalText; words as in Parsers.v *)
Definition unmarshal_host (data : str) : str + str :=
  let ws := fields data in
  match normalize_entry (hd [] ws) with
  | inr t => inr t
  | inl host => match tl ws with
                | [] => inl host
                | w :: _ => inr ($"unexpected second column: " ++ w)
                end
  end.

(** lists/parsers/hosts.go:164-172: the first name that is not valid *)
Fixpoint names_err (hosts : list str) : option str :=
  match hosts with
  | [] => None
  | h :: hosts => match name_err h with Some t => Some t | None => names_err hosts end
  end.

(** lists/parsers/hosts.go:140-186 HostsFileEntry.UnmarshalText *)
Definition unmarshal_hosts_file (data : str) : hosts_file_entry + str :=
  let ws := fields data in
  let word := hd [] ws in
  let '(ipStr, netInterface) :=
    match index_byte "%"%char word with
    | Some idx => (firstn idx word, skipn (S idx) word)
    | None => (word, [])
    end in
  match parse_ip ipStr with
  | None => inr ($"invalid ip: " ++ word)
  | Some ip =>
      match names_err (tl ws) with
      | Some t => inr t
      | None =>
          match tl ws with
          | [] => inr $"expected at least one host following IP"
          | name :: aliases => inl {| hfe_ip := ip; hfe_interface := netInterface; hfe_name := name; hfe_aliases := aliases |}
          end
      end
  end.

(** lists/parsers/hosts.go:214-229 WildcardEntry.UnmarshalText *)
Definition unmarshal_wildcard (data : str) : str + str :=
  let entry := hd [] (fields data) in
  if negb (has_prefix entry $"*.") || (1 <? count_byte star entry)
  then inr ($"unsupported wildcard '" ++ entry ++ $"': must start with '*.' and contain no other '*'")
  else inl entry.

(** github.com/hashicorp/go-multierror ListFormatFunc for three errors -- lists/parsers/hosts.go:76 *)
Definition three_errors (a b c : str) : str :=
  let nl_tab := ["010"; "009"]%char in
  $"3 errors occurred:" ++ nl_tab ++ $"* " ++ a ++ nl_tab ++ $"* " ++ b ++ nl_tab ++ $"* " ++ c ++ ["010"; "010"]%char.

(** lists/parsers/hosts.go:54-77 HostsIterator.UnmarshalText with the forEachHost methods (118-120, 188-202, 231-233) *)
Definition unmarshal_hosts (data : str) : list str + str :=
  match unmarshal_host data with
  | inl h => inl [h]
  | inr a =>
      match unmarshal_hosts_file data with
      | inl e => inl (hfe_name e :: hfe_aliases e)
      | inr b =>
          match unmarshal_wildcard data with
          | inl w => inl [w]
          | inr c => inr (three_errors a b c)
          end
      end
  end.
End Reasons.

(** ** The log *)

(** A message: the severity, the field count, the text -- lists/list_cache.go:222-227 *)
Inductive said := Debug (count : nat) (text : str) | Warn (count : nat) (text : str) | Info (count : nat) (text : str) | Error (count : nat) (text : str).

(** lists/list_cache.go:239-259: the messages while a source is read, and the number of hosts at the end *)
Fixpoint say_events (count : nat) (evs : list (event (list str))) : list said * nat :=
  match evs with
  | [] => ([], count)
  | Delivered hosts :: evs => say_events (count + length hosts) evs
  | Warned _ text :: evs =>
      let '(l, n) := say_events count evs in (Warn count ($"parse error: " ++ text ++ $", trying to continue") :: l, n)
  end.

(** lists/list_cache.go:219-279 parseFile of a source that could be opened: the messages, and whether it returns an error *)
Definition list_log (canceled : bool) (evs : list (event (list str))) (r : option (nat * perr)) : list said * bool :=
  let '(l, n) := say_events 0 evs in
  let start := Debug 0 $"starting processing of source" in
  match r with
  | None => (start :: l ++ [Info n $"import succeeded"], false)
  | Some (line, e) =>
      (start :: l ++ (match e with
                      | ECtx _ => if canceled then [] else [Error n ($"parse error: " ++ with_position line (perr_text canceled e))]
                      | _ => [Error n ($"parse error: " ++ with_position line (perr_text canceled e))]
                      end),
       n =? 0)
  end.

(** resolver/hosts_file_resolver.go:226-231: the warnings about a hosts file; [opener]: the text of the source *)
Definition hosts_file_log {A} (opener : str) (evs : list (event A)) : list str :=
  flat_map (fun e => match e with
                     | Delivered _ => []
                     | Warned _ text => [$"error parsing " ++ opener ++ $": " ++ text ++ $", trying to continue"]
                     end) evs.
