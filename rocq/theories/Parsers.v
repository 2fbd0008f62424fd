(** Model of package parsers (/repo/lists/parsers) and of parseFile of
    /repo/lists/list_cache.go. *)
From Coq Require Import String Ascii List Arith Bool NArith ZArith.
From Verif Require Import Str StringCache.
Import ListNotations.

(** ** Regular expressions (the one used for domain names) *)

(** Go's regexp syntax, as far as used by lists/parsers/hosts.go:20-27.  A pattern
    of the form ^r$ without the flag m matches a text iff the whole text is in the
    language of [r]. *)
Inductive re :=
| REmpty                      (* no text *)
| REps                        (* the empty text *)
| RClass (p : ascii -> bool)  (* one byte of a class *)
| RSeq (a b : re)
| RAlt (a b : re)
| RStar (a : re).

(** r{1,n} -- lists/parsers/hosts.go:20 *)
Fixpoint RUpTo (n : nat) (r : re) : re :=
  match n with
  | 0 => REmpty
  | 1 => r
  | S n' => RSeq r (RAlt REps (RUpTo n' r))
  end.

(** r? -- lists/parsers/hosts.go:27 *)
Definition ROpt (r : re) : re := RAlt REps r.

(** Matches the empty text; part of MatchString (lists/parsers/hosts.go:27) *)
Fixpoint nullable (r : re) : bool :=
  match r with
  | REmpty => false
  | REps => true
  | RClass _ => false
  | RSeq a b => nullable a && nullable b
  | RAlt a b => nullable a || nullable b
  | RStar _ => true
  end.

(** Brzozowski derivative: what must follow after the byte [c]. -- part of MatchString, lists/parsers/hosts.go:27 *)
Fixpoint deriv (c : ascii) (r : re) : re :=
  match r with
  | REmpty => REmpty
  | REps => REmpty
  | RClass p => if p c then REps else REmpty
  | RSeq a b => if nullable a then RAlt (RSeq (deriv c a) b) (deriv c b) else RSeq (deriv c a) b
  | RAlt a b => RAlt (deriv c a) (deriv c b)
  | RStar a => RSeq (deriv c a) (RStar a)
  end.

(** regexp.Regexp.MatchString for an anchored pattern. -- lists/parsers/hosts.go:27 *)
Fixpoint re_match (r : re) (s : str) : bool :=
  match s with
  | [] => nullable r
  | c :: s' => re_match (deriv c r) s'
  end.

(** a range of a character class (lists/parsers/hosts.go:20) *)
Definition in_range (lo hi c : ascii) : bool :=
  ((N_of_ascii lo <=? N_of_ascii c) && (N_of_ascii c <=? N_of_ascii hi))%N.

(** lists/parsers/hosts.go:20 [a-zA-Z0-9_-] *)
Definition label_class (c : ascii) : bool :=
  in_range "a" "z" c || in_range "A" "Z" c || in_range "0" "9" c
  || Ascii.eqb c "_" || Ascii.eqb c "-".

(** lists/parsers/hosts.go:20 dnsLabelPattern *)
Definition dns_label : re := RUpTo 63 (RClass label_class).

(** lists/parsers/hosts.go:27 domainNameRegex: ^L(\.L)*[\._]?$ *)
Definition domain_name_regex : re :=
  RSeq dns_label
    (RSeq (RStar (RSeq (RClass (Ascii.eqb dot)) dns_label))
          (ROpt (RClass (fun c => Ascii.eqb c dot || Ascii.eqb c "_")))).

(** lists/parsers/hosts.go:261-271 validateDomainName (true: no error) *)
Definition validate_domain_name (host : str) : bool :=
  if 255 <? length host then false else re_match domain_name_regex host.

(** lists/parsers/hosts.go:273-275 isRegex *)
Definition is_regex (host : str) : bool := has_prefix host $"/" && has_suffix host $"/".

Section Oracles.

(** net.ParseIP followed by IP.String (None: not an IP; Some: its canonical text). *)
Variable parse_ip : str -> option str.
(** idna.Punycode.ToASCII; None: an error. *)
Variable to_ascii : str -> option str.
(** regexp.Compile succeeds. *)
Variable compiles : str -> bool.

(** lists/parsers/hosts.go:277-289 validateHostsListEntry *)
Definition validate_hosts_list_entry (host : str) : bool :=
  match parse_ip host with
  | Some _ => true
  | None => if is_regex host then compiles host else validate_domain_name host
  end.

(** lists/parsers/hosts.go:235-259 normalizeHostsListEntry *)
Definition normalize_hosts_list_entry (host : str) : option str :=
  match (if is_regex host then Some host else to_ascii host) with
  | None => None
  | Some host =>
      let host := trim_suffix (trim_prefix host $"||") $"^" in
      if validate_hosts_list_entry host then Some host else None
  end.

(** lists/parsers/hosts.go:96-116 HostListEntry.UnmarshalText; bufio.ScanWords on
    the text of one line is strings.Fields. *)
Definition host_list_entry (data : str) : option str :=
  let ws := fields data in
  match normalize_hosts_list_entry (hd [] ws) with
  | None => None
  | Some host => match tl ws with [] => Some host | _ => None end
  end.

(** lists/parsers/hosts.go:129-135 HostsFileEntry; the address is kept as its
    canonical text. *)
Record hosts_file_entry := { hfe_ip : str; hfe_interface : str; hfe_name : str; hfe_aliases : list str }.

(** lists/parsers/hosts.go:140-186 HostsFileEntry.UnmarshalText *)
Definition hosts_file_line (data : str) : option hosts_file_entry :=
  let ws := fields data in
  let ipStr := hd [] ws in
  let '(ipStr, netInterface) :=
    match index_byte "%"%char ipStr with
    | Some idx => (firstn idx ipStr, skipn (S idx) ipStr)
    | None => (ipStr, [])
    end in
  match parse_ip ipStr with
  | None => None
  | Some ip =>
      let hosts := tl ws in
      if forallb validate_domain_name hosts then
        match hosts with
        | [] => None
        | name :: aliases =>
            Some {| hfe_ip := ip; hfe_interface := netInterface; hfe_name := name; hfe_aliases := aliases |}
        end
      else None
  end.

(** lists/parsers/hosts.go:214-229 WildcardEntry.UnmarshalText *)
Definition wildcard_entry (data : str) : option str :=
  let entry := hd [] (fields data) in
  if negb (has_prefix entry $"*.") || (1 <? count_byte star entry) then None else Some entry.

(** lists/parsers/hosts.go:54-77 HostsIterator.UnmarshalText together with the
    forEachHost methods (118-120, 188-202, 231-233): the hosts the iterator yields. *)
Definition hosts_line (data : str) : option (list str) :=
  match host_list_entry data with
  | Some h => Some [h]
  | None =>
      match hosts_file_line data with
      | Some e => Some (hfe_name e :: hfe_aliases e)
      | None =>
          match wildcard_entry data with
          | Some w => Some [w]
          | None => None
          end
      end
  end.

End Oracles.

(** ** Series of lines *)

(** bufio.dropCR -- lists/parsers/lines.go:46 *)
Definition drop_cr (l : str) : str :=
  match rev l with
  | c :: r => if Ascii.eqb c "013"%char then rev r else l
  | [] => l
  end.

(** bufio.ScanLines applied to a whole text. -- lists/parsers/lines.go:46 *)
Definition scan_lines (text : str) : list str :=
  let pieces := split_byte "010"%char text in
  map drop_cr (if str_eqb (last pieces []) [] then removelast pieces else pieces).

(** How the scanner ends: end of file, or a read error (or a too long line). *)
Inductive scan_end := ScanEOF | ScanErr.

(** lists/parsers/lines.go:67-83 one line of lines.Next; None: skipped. *)
Definition clean_line (raw : str) : option str :=
  let text := trim_space raw in
  match text with
  | [] => None
  | _ =>
      match index_byte hash text with
      | Some 0 => None
      | Some idx => Some (rev (trim_space_left (rev (firstn idx text))))
      | None => Some text
      end
  end.

(** lists/parsers/lines.go:55-93 lines.Next; the state is the list of unread
    lines.  None: the scanner has ended.  Cancelling the context is not modelled. *)
Fixpoint lines_next (ls : list str) : option (str * list str) :=
  match ls with
  | [] => None
  | raw :: ls' =>
      match clean_line raw with
      | None => lines_next ls'
      | Some text => Some (text, ls')
      end
  end.

Section Series.
Context {A : Type}.
(** the UnmarshalText method used by lists/parsers/lines.go:26-32 UnmarshalEach *)
Variable unmarshal : str -> option A.

(** What Next returns. -- lists/parsers/adapt.go:47-63 *)
Inductive next_out :=
| NItem (a : A) (rest : list str)
| NBad (rest : list str)      (* resumable error: one malformed line *)
| NEnd.                       (* non-resumable: the scanner has ended *)

(** lists/parsers/adapt.go:47-63 adapter.Next over lines.Next *)
Definition adapter_next (ls : list str) : next_out :=
  match lines_next ls with
  | None => NEnd
  | Some (text, rest) =>
      match unmarshal text with
      | Some a => NItem a rest
      | None => NBad rest
      end
  end.

(** What Next of the error filter returns (lists/parsers/filtererrors.go:71-93) *)
Inductive filt_out :=
| FItem (a : A) (rest : list str) (count : Z)
| FTooMany
| FEnd.

(** lists/parsers/filtererrors.go:30-46 AllowErrors and 71-92 errorFilter.Next;
    [count] is the captured counter, [fuel] bounds the loop (each round consumes at
    least one line). *)
Fixpoint filter_next (fuel : nat) (n count : Z) (ls : list str) : filt_out :=
  match fuel with
  | 0 => FEnd
  | S fuel' =>
      match adapter_next ls with
      | NItem a rest => FItem a rest count
      | NEnd => FEnd
      | NBad rest =>
          if (n =? -1)%Z then filter_next fuel' n count rest
          else if (n <? count + 1)%Z then FTooMany
          else filter_next fuel' n (count + 1) rest
      end
  end.

(** Why ForEach stops (lists/parsers/parser.go:35-59). *)
Inductive stop := StopOK | StopTooMany | StopReadErr.

(** lists/parsers/parser.go:35-59 ForEach with a callback that never fails: the
    items passed to the callback and the error returned. *)
Fixpoint for_each (fuel : nat) (n count : Z) (ls : list str) (e : scan_end) : list A * stop :=
  match fuel with
  | 0 => ([], StopOK)
  | S fuel' =>
      match filter_next (S (length ls)) n count ls with
      | FItem a rest count' =>
          let '(items, s) := for_each fuel' n count' rest e in (a :: items, s)
      | FTooMany => ([], StopTooMany)
      | FEnd => ([], match e with ScanEOF => StopOK | ScanErr => StopReadErr end)
      end
  end.

(** lists/parsers/parser.go:35-59 ForEach over the filtered parser *)
Definition parse_series (n : Z) (ls : list str) (e : scan_end) : list A * stop :=
  for_each (S (length ls)) n 0 ls e.

End Series.

(** lists/list_cache.go:219-279 parseFile after a successful Open: the entries
    sent to the channel and whether an error is returned. *)
Definition parse_file (parse_ip to_ascii : str -> option str) (compiles : str -> bool)
    (n : Z) (ls : list str) (e : scan_end) : list str * bool :=
  let '(items, s) := parse_series (hosts_line parse_ip to_ascii compiles) n ls e in
  let hosts := concat items in
  (map (fun h => match parse_ip h with Some c => c | None => h end) hosts,
   match s with
   | StopOK => false
   | _ => match hosts with [] => true | _ => false end
   end).
