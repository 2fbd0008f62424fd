(** The target of the query log as it is shown in the log: /repo/config/query_log.go censoredTarget, with Go's
    net/url.Parse (Go 1.24, of which only errors and the user information of the result are modelled), and the
    texts of sources: /repo/config/bytes_source.go. *)
From Coq Require Import String Ascii List Arith NArith Bool.
From Verif Require Import Str Num.
Import ListNotations.
Open Scope list_scope.

(** strings.Cut with a one-byte separator (net/url.Parse as called in config/query_log.go:66) *)
Fixpoint cut (c : ascii) (a : str) : str * option str :=
  match a with
  | [] => ([], None)
  | x :: t => if Ascii.eqb x c then ([], Some t) else let '(h, r) := cut c t in (x :: h, r)
  end.

(** strings.Cut at the last separator; None: no separator (strings.LastIndex in net/url.Parse as called in
    config/query_log.go:66) *)
Fixpoint cut_last (c : ascii) (a : str) : option (str * str) :=
  match a with
  | [] => None
  | x :: t => match cut_last c t with
              | Some (h, r) => Some (x :: h, r)
              | None => if Ascii.eqb x c then Some ([], t) else None
              end
  end.

(** strings.Contains (config/query_log.go:62) *)
Fixpoint contains_sub (p t : str) : bool :=
  has_prefix t p || match t with [] => false | _ :: t' => contains_sub p t' end.

(** net/url.ishex and unhex: the value of a hexadecimal digit (net/url.Parse as called in config/query_log.go:66) *)
Definition hex_val (c : ascii) : option N := digit_val 16 c.

(** Letters and digits (net/url.shouldEscape and validUserinfo as called in config/query_log.go:66) *)
Definition is_alnum (c : ascii) : bool :=
  let n := N_of_ascii c in
  (((48 <=? n) && (n <=? 57)) || ((65 <=? n) && (n <=? 90)) || ((97 <=? n) && (n <=? 122)))%N.

(** One of the characters of a text (net/url.shouldEscape and validUserinfo as called in config/query_log.go:66) *)
Definition one_of (s : string) (c : ascii) : bool := existsb (Ascii.eqb c) (lit s).

(** net/url.shouldEscape for hosts and zones is the negation of this (config/query_log.go:66) *)
Definition host_ok (c : ascii) : bool := is_alnum c || one_of "!$&'()*+,;=:[]<>""-_.~" c.

(** net/url.validUserinfo (config/query_log.go:66) *)
Definition valid_userinfo (s : str) : bool := forallb (fun c => is_alnum c || one_of "-._:~!$&'()*+,;=%@" c) s.

(** The modes of net/url.unescape that matter (config/query_log.go:66): host, zone of an IPv6 address, and the rest
    (path, fragment and user information, which decode alike) *)
Inductive mode := MHost | MZone | MOther.

(** net/url.unescape (config/query_log.go:66); None: error *)
Fixpoint unescape (m : mode) (s : str) : option str :=
  match s with
  | [] => Some []
  | c :: t =>
      if Ascii.eqb c "%"%char then
        match t with
        | a :: b :: t' =>
            match hex_val a, hex_val b with
            | Some va, Some vb =>
                let v := ascii_of_N (16 * va + vb) in
                let is25 := Ascii.eqb a "2"%char && Ascii.eqb b "5"%char in
                let bad := match m with
                           | MHost => (va <? 8)%N && negb is25
                           | MZone => negb is25 && negb (Ascii.eqb v " "%char) && negb (host_ok v)
                           | MOther => false
                           end in
                if bad then None else match unescape m t' with Some r => Some (v :: r) | None => None end
            | _, _ => None
            end
        | _ => None
        end
      else
        let bad := match m with MOther => false | _ => (N_of_ascii c <? 128)%N && negb (host_ok c) end in
        if bad then None else match unescape m t with Some r => Some (c :: r) | None => None end
  end.

(** net/url.validOptionalPort (config/query_log.go:66) *)
Definition valid_optional_port (s : str) : bool :=
  match s with
  | [] => true
  | c :: t => Ascii.eqb c ":"%char && forallb (fun d => let n := N_of_ascii d in ((48 <=? n) && (n <=? 57))%N) t
  end.

(** strings.Index of "%25", with what is before and from it on (net/url.parseHost, config/query_log.go:66) *)
Fixpoint cut_zone (s : str) : option (str * str) :=
  if has_prefix s ($"%25") then Some ([], s)
  else match s with
       | [] => None
       | c :: t => match cut_zone t with Some (a, b) => Some (c :: a, b) | None => None end
       end.

(** net/url.parseHost: does it succeed? (config/query_log.go:66) *)
Definition parse_host (host : str) : bool :=
  match host with
  | "["%char :: _ =>
      match cut_last "]"%char host with
      | None => false
      | Some (before, port) =>
          valid_optional_port port &&
          match cut_zone before with
          | Some (h1, h2) =>
              match unescape MHost h1, unescape MZone h2, unescape MHost ("]"%char :: port) with Some _, Some _, Some _ => true | _, _, _ => false end
          | None => match unescape MHost host with Some _ => true | None => false end
          end
      end
  | _ =>
      match cut_last ":"%char host with
      | Some (_, port) => valid_optional_port (":"%char :: port)
      | None => true
      end && match unescape MHost host with Some _ => true | None => false end
  end.

(** net/url.parseAuthority (config/query_log.go:66): None: error; else the password of the user information *)
Definition parse_authority (authority : str) : option (option str) :=
  match cut_last "@"%char authority with
  | None => if parse_host authority then Some None else None
  | Some (userinfo, host) =>
      if negb (parse_host host) then None
      else if negb (valid_userinfo userinfo) then None
      else match cut ":"%char userinfo with
           | (user, None) => match unescape MOther user with Some _ => Some None | None => None end
           | (user, Some pw) => match unescape MOther user, unescape MOther pw with Some _, Some p => Some (Some p) | _, _ => None end
           end
  end.

(** net/url.getScheme (config/query_log.go:66): None: error; else scheme and rest; [first]: at the first character *)
Fixpoint get_scheme (first : bool) (s : str) : option (option (str * str)) :=
  match s with
  | [] => Some None
  | c :: t =>
      let n := N_of_ascii c in
      if (((65 <=? n) && (n <=? 90)) || ((97 <=? n) && (n <=? 122)))%N then
        match get_scheme false t with Some (Some (a, b)) => Some (Some (c :: a, b)) | r => r end
      else if is_alnum c || one_of "+-." c then
        if first then Some None
        else match get_scheme false t with Some (Some (a, b)) => Some (Some (c :: a, b)) | r => r end
      else if Ascii.eqb c ":"%char then if first then None else Some (Some ([], t))
      else Some None
  end.

(** net/url.Parse without the fragment (net/url.parse; config/query_log.go:66): None: error; else the password *)
Definition parse_no_fragment (s : str) : option (option str) :=
  if existsb (fun c => let n := N_of_ascii c in ((n <? 32) || (n =? 127))%N) s then None
  else if str_eqb s ($"*") then Some None
  else match get_scheme true s with
  | None => None
  | Some sch =>
      let '(scheme, rest) := match sch with Some (a, b) => (a, b) | None => ([], s) end in
      let '(rest, _) := cut "?"%char rest in
      let path p := match unescape MOther p with Some _ => true | None => false end in
      let slashed := has_prefix rest ($"/") in
      match scheme, slashed with
      | _ :: _, false => Some None
      | [], false => if contains_byte ":"%char (fst (cut "/"%char rest)) then None else if path rest then Some None else None
      | _, true =>
          if (match scheme with [] => negb (has_prefix rest ($"///")) | _ => true end) && has_prefix rest ($"//") then
            let '(authority, after) := cut "/"%char (skipn 2 rest) in
            match parse_authority authority with
            | None => None
            | Some r => if path (match after with Some p => "/"%char :: p | None => [] end) then Some r else None
            end
          else if path rest then Some None else None
      end
  end.

(** net/url.Parse (config/query_log.go:66): None: error; else the password *)
Definition url_password (s : str) : option (option str) :=
  let '(u, fragment) := cut "#"%char s in
  match parse_no_fragment u with
  | None => None
  | Some r => match unescape MOther (match fragment with Some f => f | None => [] end) with Some _ => Some r | None => None end
  end.

(** strings.ReplaceAll for a non-empty old text (config/query_log.go:76); [skip]: characters of the last match still to be dropped *)
Fixpoint replace_from (old new t : str) (skip : nat) : str :=
  match t with
  | [] => []
  | c :: t' => match skip with
               | S k => replace_from old new t' k
               | 0 => if has_prefix t old then new ++ replace_from old new t' (length old - 1)
                      else c :: replace_from old new t' 0
               end
  end.

(** strings.ReplaceAll (config/query_log.go:76); for the empty old text it inserts between characters (bytes here,
    in Go UTF-8 characters) *)
Definition replace_all (t old new : str) : str :=
  match old with
  | [] => new ++ flat_map (fun c => c :: new) t
  | _ => replace_from old new t 0
  end.

(** config/config.go:31 secretObfuscator *)
Definition obfuscator : str := $"********".

(** config/query_log.go:59-77 censoredTarget; [kind]: the text of the type of the query log *)
Definition censored_target (kind target : str) : str :=
  let s := if contains_sub ($"://") target then target else kind ++ $"://" ++ target in
  match url_password s with
  | None => target
  | Some None => target
  | Some (Some pass) => replace_all target pass obfuscator
  end.

(** ** Sources of lists *)

(** config/bytes_source.go:13-23 BytesSource *)
Inductive source := SText (from : str) | SHttp (from : str) | SFile (from : str).

(** config/bytes_source.go:63-82 UnmarshalText *)
Definition parse_source (s : str) : source :=
  if contains_byte "010"%char s then SText s
  else if has_prefix s ($"http") then SHttp s
  else SFile (trim_prefix s ($"file://")).

(** config/bytes_source.go:25-60 String.  Lines 45-48: [text] is cut before its length is compared with the
    position, so the comparison is always false. *)
Definition show_source (s : source) : str :=
  match s with
  | SHttp from => from
  | SFile from => $"file://" ++ from
  | SText from =>
      let '(text, truncated) := match index_byte "010"%char from with
                                | Some idx => let text := firstn idx from in (text, idx <? length text)
                                | None => (from, false)
                                end in
      let '(text, truncated) := if 12 <? length text then (firstn 12 text, true) else (text, truncated) in
      if truncated then firstn 12 text ++ $"..." else text
  end.

(** config/bytes_source.go:99-111 TextBytesSource with inlineList *)
Definition text_source (lines : list str) : source := SText (join ["010"%char] lines ++ ["010"%char]).
