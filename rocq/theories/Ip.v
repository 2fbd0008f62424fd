(** Addresses as text: net.ParseIP and net.IP.String of Go's standard library, which the code calls
    wherever an address is read (config/custom_dns.go:104, config/upstream.go:150, lists/parsers/hosts.go:157, 278,
    server/server.go:515) or printed (resolver/client_names_resolver.go:61-96,
    resolver/upstream_tree_resolver.go, resolver/query_logging_resolver.go:193). *)
From Coq Require Import String Ascii List Arith NArith Bool.
From Verif Require Import Str Num Dns Arpa.
Import ListNotations.
Open Scope list_scope.

(** net/netip.parseIPv4Fields: the loop.  [fresh] says that the current position is the start or
    follows a dot; [val] and [digs] are the value and number of digits of the current field. -- net.ParseIP / net.IP.String as called in config/upstream.go:112, resolver/resolver.go:27, util/http.go:63 *)
Fixpoint v4_loop (s : str) (fresh : bool) (val : N) (digs : nat) (fields : list N) : option (list N) :=
  match s with
  | [] => if length fields <? 3 then None else Some (fields ++ [val])
  | c :: t =>
      match digit_val 10 c with
      | Some d =>
          if (digs =? 1) && (val =? 0)%N then None
          else let v := (val * 10 + d)%N in
               if (255 <? v)%N then None else v4_loop t false v (S digs) fields
      | None =>
          if Ascii.eqb c dot then
            if fresh || match t with [] => true | _ => false end then None
            else if length fields =? 3 then None
            else v4_loop t true 0 0 (fields ++ [val])
          else None
      end
  end.
(** net/netip.parseIPv4Fields -- net.ParseIP / net.IP.String as called in config/upstream.go:112, resolver/resolver.go:27, util/http.go:63 *)
Definition parse_v4 (s : str) : option (list N) := v4_loop s true 0 0 [].

(** The longest prefix of hexadecimal digits and the rest (the inner loop of net/netip.parseIPv6). -- net.ParseIP / net.IP.String as called in config/upstream.go:112, resolver/resolver.go:27, util/http.go:63 *)
Fixpoint hex_prefix (s : str) : str * str :=
  match s with
  | [] => ([], [])
  | c :: t => match digit_val 16 c with
              | Some _ => let '(a, b) := hex_prefix t in (c :: a, b)
              | None => ([], s)
              end
  end.

(** net/netip.parseIPv6, the loop: [groups] is (16 - i) / 2, [b] the bytes so far, [ell] the position
    of the ellipsis.  The result is the bytes, the ellipsis and the text that is left. -- net.ParseIP / net.IP.String as called in config/upstream.go:112, resolver/resolver.go:27, util/http.go:63 *)
Fixpoint v6_loop (groups : nat) (s : str) (b : list N) (ell : option nat) : option (list N * option nat * str) :=
  match groups with
  | O => Some (b, ell, s)
  | S groups =>
      let '(ds, rest) := hex_prefix s in
      match ds with
      | [] => None
      | _ :: _ =>
          if 4 <? length ds then None else
          match parse_digits 16 0 ds with
          | None => None
          | Some acc =>
              if match rest with c :: _ => Ascii.eqb c dot | [] => false end then
                if match ell with None => negb (length b =? 12) | Some _ => false end then None
                else if 16 <? length b + 4 then None
                else match parse_v4 s with Some q => Some (b ++ q, ell, []) | None => None end
              else
                let b' := b ++ [acc / 256; acc mod 256]%N in
                match rest with
                | [] => Some (b', ell, [])
                | c :: s1 =>
                    if negb (Ascii.eqb c colon) then None
                    else match s1 with
                         | [] => None
                         | c1 :: s2 =>
                             if Ascii.eqb c1 colon then
                               match ell with
                               | Some _ => None
                               | None => match s2 with
                                         | [] => Some (b', Some (length b'), [])
                                         | _ => v6_loop groups s2 b' (Some (length b'))
                                         end
                               end
                             else v6_loop groups s1 b' ell
                         end
                end
          end
      end
  end.

(** net/netip.parseIPv6: the end of the function -- net.ParseIP / net.IP.String as called in config/upstream.go:112, resolver/resolver.go:27, util/http.go:63 *)
Definition v6_finish (r : option (list N * option nat * str)) : option (list N) :=
  match r with
  | Some (b, ell, []) =>
      if length b <? 16 then
        match ell with
        | None => None
        | Some e => Some (firstn e b ++ repeat 0%N (16 - length b) ++ skipn e b)
        end
      else match ell with None => Some b | Some _ => None end
  | _ => None
  end.

(** net/netip.parseIPv6; a zone is refused by net.parseIP, so every text with '%' is -- net.ParseIP / net.IP.String as called in config/upstream.go:112, resolver/resolver.go:27, util/http.go:63 *)
Definition parse_v6 (s : str) : option (list N) :=
  if contains_byte "%" s then None else
  match s with
  | c1 :: c2 :: t =>
      if Ascii.eqb c1 colon && Ascii.eqb c2 colon then
        match t with [] => Some (repeat 0%N 16) | _ => v6_finish (v6_loop 8 t [] (Some 0)) end
      else v6_finish (v6_loop 8 s [] None)
  | _ => v6_finish (v6_loop 8 s [] None)
  end.

(** net/netip.ParseAddr: the first of '.', ':' and '%' decides -- net.ParseIP / net.IP.String as called in config/upstream.go:112, resolver/resolver.go:27, util/http.go:63 *)
Fixpoint addr_kind (s : str) : option bool :=
  match s with
  | [] => None
  | c :: t => if Ascii.eqb c dot then Some true else if Ascii.eqb c colon then Some false
              else if Ascii.eqb c "%" then None else addr_kind t
  end.

(** net.ParseIP; an address that is IPv4 in IPv6 form is represented as IPv4 (convention of [Dns.ip]) -- net.ParseIP / net.IP.String as called in config/upstream.go:112, resolver/resolver.go:27, util/http.go:63 *)
Definition go_parse_ip (s : str) : option ip :=
  match addr_kind s with
  | Some true => match parse_v4 s with Some b => Some (IP4 b) | None => None end
  | Some false => match parse_v6 s with Some b => Some (ip_of_16 b) | None => None end
  | None => None
  end.

(** net/netip.appendHex: no leading zeros -- net.ParseIP / net.IP.String as called in config/upstream.go:112, resolver/resolver.go:27, util/http.go:63 *)
Definition print_hex (n : N) : str :=
  if (n <? 16)%N then [digit n]
  else if (n <? 256)%N then [digit (n / 16); digit (n mod 16)]
  else if (n <? 4096)%N then [digit (n / 256); digit (n / 16 mod 16); digit (n mod 16)]
  else [digit (n / 4096); digit (n / 256 mod 16); digit (n / 16 mod 16); digit (n mod 16)].

(** net/netip Addr.v6u16: the 16-bit groups -- net.ParseIP / net.IP.String as called in config/upstream.go:112, resolver/resolver.go:27, util/http.go:63 *)
Fixpoint groups_of (b : list N) : list N :=
  match b with
  | x :: y :: b' => (x * 256 + y)%N :: groups_of b'
  | _ => []
  end.

(** Number of zeros at the start. -- net.ParseIP / net.IP.String as called in config/upstream.go:112, resolver/resolver.go:27, util/http.go:63 *)
Fixpoint zeros (gs : list N) : nat := match gs with 0%N :: t => S (zeros t) | _ => 0 end.

(** net/netip appendTo6, the first loop: start and length of the run to be left out, from position [i];
    [best] is the run found so far (length 0: none) -- net.ParseIP / net.IP.String as called in config/upstream.go:112, resolver/resolver.go:27, util/http.go:63 *)
Fixpoint zero_run (i : nat) (gs : list N) (best : nat * nat) : nat * nat :=
  match gs with
  | [] => best
  | _ :: t => let l := zeros gs in
              zero_run (S i) t (if (2 <=? l) && (snd best <? l) then (i, l) else best)
  end.

(** net/netip appendTo6 -- net.ParseIP / net.IP.String as called in config/upstream.go:112, resolver/resolver.go:27, util/http.go:63 *)
Definition print_v6 (b : list N) : str :=
  let gs := groups_of b in
  let '(z, l) := zero_run 0 gs (0, 0) in
  if l =? 0 then join [colon] (map print_hex gs)
  else join [colon] (map print_hex (firstn z gs)) ++ [colon; colon] ++ join [colon] (map print_hex (skipn (z + l) gs)).

(** net.IP.String -- net.ParseIP / net.IP.String as called in config/upstream.go:112, resolver/resolver.go:27, util/http.go:63 *)
Definition go_ip_string (i : option ip) : str :=
  match i with
  | None => $"<nil>"
  | Some (IP4 b) => join [dot] (map print_dec b)
  | Some (IP6 b) => print_v6 b
  end.
