(** Client identifiers: the wildcards and the networks of util/common.go:206-221, with the functions of
    Go's standard library they call (path/filepath.Match, net.ParseCIDR, net.IPNet.Contains).
    Simplification: texts are ASCII, so that a rune of path/filepath.Match is a byte. *)
From Coq Require Import String Ascii List Arith NArith Bool.
From Verif Require Import Str Num Dns Arpa Ip Ecs.
Import ListNotations.
Open Scope list_scope.

(** ** path/filepath.Match on Unix *)
(** the character that escapes -- path/filepath.Match as called in util/common.go:218 *)
Definition backslash : ascii := "\"%char.

(** path/filepath.getEsc: the character and the text after it; [None] is ErrBadPattern -- path/filepath.Match as called in util/common.go:218 *)
Definition get_esc (chunk : str) : option (ascii * str) :=
  let plain (c : ascii) (t : str) := match t with [] => None | _ :: _ => Some (c, t) end in
  match chunk with
  | [] => None
  | c :: t =>
      if Ascii.eqb c "-" || Ascii.eqb c "]" then None
      else if Ascii.eqb c backslash then match t with [] => None | d :: t' => plain d t' end
      else plain c t
  end.

(** [lo <= r && r <= hi] -- path/filepath.Match as called in util/common.go:218 *)
Definition between (lo r hi : ascii) : bool :=
  (N_of_ascii lo <=? N_of_ascii r)%N && (N_of_ascii r <=? N_of_ascii hi)%N.

(** path/filepath.matchChunk, the loop over the ranges of a character class; [first] is nrange == 0.
    The fuel is the length of the text.  The result says whether some range has [r], and the text
    after the class. -- path/filepath.Match as called in util/common.go:218 *)
Fixpoint class_ranges (fuel : nat) (chunk : str) (r : ascii) (first found : bool) : option (bool * str) :=
  match fuel with
  | O => None
  | S fuel =>
      if match chunk with c :: _ => Ascii.eqb c "]" && negb first | [] => false end then Some (found, tl chunk)
      else match get_esc chunk with
           | None => None
           | Some (lo, t) =>
               if match t with c :: _ => Ascii.eqb c "-" | [] => false end then
                 match get_esc (tl t) with
                 | None => None
                 | Some (hi, t') => class_ranges fuel t' r false (found || between lo r hi)
                 end
               else class_ranges fuel t r false (found || between lo r lo)
           end
  end.

(** The results of path/filepath.matchChunk: ErrBadPattern, no match, the rest of the name -- path/filepath.Match as called in util/common.go:218 *)
Inductive chunk_res := CBad | CFail | COk (rest : str).

(** path/filepath.matchChunk; [None] for the name means that the match has failed.  The fuel is the
    length of the chunk. -- path/filepath.Match as called in util/common.go:218 *)
Fixpoint match_chunk (fuel : nat) (chunk : str) (st : option str) : chunk_res :=
  match chunk, fuel with
  | [], _ => match st with Some s => COk s | None => CFail end
  | _ :: _, O => CBad
  | c :: t, S fuel =>
      let literal (d : ascii) (t' : str) :=
        match_chunk fuel t' (match st with Some (x :: s) => if Ascii.eqb d x then Some s else None | _ => None end) in
      if Ascii.eqb c "[" then
        let negated := match t with d :: _ => Ascii.eqb d "^" | [] => false end in
        let t' := if negated then tl t else t in
        match class_ranges (S (length t')) t' (match st with Some (x :: _) => x | _ => zero end) true false with
        | None => CBad
        | Some (found, t'') =>
            match_chunk fuel t'' (match st with Some (_ :: s) => if Bool.eqb found negated then None else Some s | _ => None end)
        end
      else if Ascii.eqb c "?" then
        match_chunk fuel t (match st with Some (x :: s) => if Ascii.eqb x slash then None else Some s | _ => None end)
      else if Ascii.eqb c backslash then
        match t with [] => CBad | d :: t' => literal d t' end
      else literal c t
  end.

(** path/filepath.scanChunk, the second loop: the chunk and the rest -- path/filepath.Match as called in util/common.go:218 *)
Fixpoint scan_loop (inrange : bool) (p : str) : str * str :=
  match p with
  | [] => ([], [])
  | c :: t =>
      if Ascii.eqb c backslash then
        match t with
        | [] => ([c], [])
        | d :: t' => let '(a, b) := scan_loop inrange t' in (c :: d :: a, b)
        end
      else if Ascii.eqb c "[" then let '(a, b) := scan_loop true t in (c :: a, b)
      else if Ascii.eqb c "]" then let '(a, b) := scan_loop false t in (c :: a, b)
      else if Ascii.eqb c star && negb inrange then ([], p)
      else let '(a, b) := scan_loop inrange t in (c :: a, b)
  end.

(** path/filepath.scanChunk -- path/filepath.Match as called in util/common.go:218 *)
Definition scan_chunk (p : str) : bool * str * str :=
  let '(chunk, rest) := scan_loop false (trim_left star p) in
  (match p with c :: _ => Ascii.eqb c star | [] => false end, chunk, rest).

(** The results of the search behind a star: ErrBadPattern, nothing, the rest of the name -- path/filepath.Match as called in util/common.go:218 *)
Inductive search_res := SBad | SNone | SFound (rest : str).

(** path/filepath.Match, the loop over the bytes that a star skips; [last] is len(pattern) == 0 -- path/filepath.Match as called in util/common.go:218 *)
Fixpoint search (chunk : str) (last : bool) (name : str) : search_res :=
  match name with
  | [] => SNone
  | x :: name' =>
      if Ascii.eqb x slash then SNone
      else match match_chunk (length chunk) chunk (Some name') with
           | COk t => if last && negb (match t with [] => true | _ => false end) then search chunk last name' else SFound t
           | CBad => SBad
           | CFail => search chunk last name'
           end
  end.

(** path/filepath.Match; [None] is ErrBadPattern.  The fuel is the length of the pattern. -- path/filepath.Match as called in util/common.go:218 *)
Fixpoint match_loop (fuel : nat) (pattern name : str) : option bool :=
  match pattern, fuel with
  | [], _ => Some (match name with [] => true | _ => false end)
  | _ :: _, O => None
  | _ :: _, S fuel =>
      let '(starred, chunk, rest) := scan_chunk pattern in
      let last := match rest with [] => true | _ => false end in
      if starred && match chunk with [] => true | _ => false end then Some (negb (contains_byte slash name))
      else
        let later := if starred then match search chunk last name with
                                     | SBad => None
                                     | SNone => Some false
                                     | SFound t => match_loop fuel rest t
                                     end
                     else Some false in
        match match_chunk (length chunk) chunk (Some name) with
        | COk t => if match t with [] => true | _ => false end || negb last then match_loop fuel rest t else later
        | CBad => None
        | CFail => later
        end
  end.

(** path/filepath.Match without the error, which the caller drops -- util/common.go:218 *)
Definition go_glob (pattern name : str) : bool :=
  match match_loop (length pattern) pattern name with Some b => b | None => false end.

(** util/common.go:217-221 ClientNameMatchesGroupName *)
Definition client_name_matches (group name : str) : bool := go_glob (to_lower group) (to_lower name).

(** ** net.ParseCIDR and net.IPNet.Contains *)
(** net.dtoi: the number, given that the whole text is one; [None] if it is not, or is too big -- net.ParseCIDR as called in util/common.go:208 *)
Fixpoint dtoi_loop (acc : N) (s : str) : option N :=
  match s with
  | [] => Some acc
  | c :: t => match digit_val 10 c with
              | None => None
              | Some d => let n := (acc * 10 + d)%N in if (16777215 <=? n)%N then None else dtoi_loop n t
              end
  end.
(** net.dtoi -- net.ParseCIDR as called in util/common.go:208 *)
Definition dtoi (s : str) : option N := match s with [] => None | _ => dtoi_loop 0 s end.

(** net.IPNet: the masked bytes (4 or 16) and the length of the mask in bits; the mask has as many
    bytes as the address was read with -- net.ParseCIDR as called in util/common.go:208 *)
Record ipnet := { in_bytes : list N; in_mask : N }.

(** net.ParseCIDR: net/netip.ParseAddr without zone (4 or 16 bytes), then the length of the prefix -- net.ParseCIDR as called in util/common.go:208 *)
Definition parse_cidr (s : str) : option ipnet :=
  match index_byte slash s with
  | None => None
  | Some i =>
      let addr := firstn i s in
      let mask := skipn (S i) s in
      match match addr_kind addr with Some true => parse_v4 addr | Some false => parse_v6 addr | None => None end with
      | None => None
      | Some b =>
          match dtoi mask with
          | None => None
          | Some n => if (8 * N.of_nat (length b) <? n)%N then None else Some {| in_bytes := mask_bytes n b; in_mask := n |}
          end
      end
  end.

(** the prefix of an IPv4 address in IPv6 form (net.IP.To4) -- net.IPNet.Contains as called in util/common.go:213 *)
Definition v4_prefix : list N := [0;0;0;0;0;0;0;0;0;0;255;255]%N.

(** net.networkNumberAndMask: the bytes of the network, 4 if possible, and the length of the mask for them -- net.IPNet.Contains as called in util/common.go:213 *)
Definition network_number (n : ipnet) : list N * N :=
  if (length (in_bytes n) =? 16) && byte_list_eqb (firstn 12 (in_bytes n)) v4_prefix
  then (skipn 12 (in_bytes n), (in_mask n - 96)%N)
  else (in_bytes n, in_mask n).

(** net.IPNet.Contains; the bytes of the address are 4 if possible (convention of [Dns.ip]), and none for a nil address -- util/common.go:213 *)
Definition net_contains (n : ipnet) (i : option ip) : bool :=
  let '(nn, m) := network_number n in
  let b := match i with None => [] | Some (IP4 b) => b | Some (IP6 b) => b end in
  (length b =? length nn) && byte_list_eqb (mask_bytes m nn) (mask_bytes m b).

(** util/common.go:207-214 CidrContainsIP *)
Definition cidr_contains_ip (cidr : str) (i : option ip) : bool :=
  match parse_cidr cidr with None => false | Some n => net_contains n i end.
