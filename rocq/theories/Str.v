(** Go strings as byte lists, and the functions of Go's package [strings] used
    by the modelled code.  These model the Go standard library, restricted to
    ASCII where the Go function is Unicode aware (stated at each one). *)
From Coq Require Import String Ascii List Arith NArith Bool Lia.
Import ListNotations.

(** A Go string (bytes). -- used throughout /repo *)
Notation str := (list ascii).

(** String literals in examples. -- Go string constants in /repo *)
Definition lit (x : string) : str := list_ascii_of_string x.
(** notation for [lit]: Go string constants in /repo *)
Notation "$ x" := (lit x%string) (at level 1, format "$ x").

(** the character '.' (trie/split.go:9) *)
Definition dot : ascii := "."%char.
(** the character '*' (cache/stringcache/string_caches.go:216) *)
Definition star : ascii := "*"%char.
(** the character '/' (cache/stringcache/string_caches.go:154) *)
Definition slash : ascii := "/"%char.
(** the character '#' (lists/parsers/lines.go:73) *)
Definition hash : ascii := "#"%char.
(** the character ',' (config/config.go:172) *)
Definition comma : ascii := ","%char.
(** the character ':' (config/config.go:176) *)
Definition colon : ascii := ":"%char.

(** Go [==] on strings. -- throughout /repo *)
Fixpoint str_eqb (a b : str) : bool :=
  match a, b with
  | [], [] => true
  | x :: a', y :: b' => Ascii.eqb x y && str_eqb a' b'
  | _, _ => false
  end.

(** Go [<] on strings: bytewise lexicographic. -- cache/stringcache/string_caches.go:48-62 *)
Fixpoint str_ltb (a b : str) : bool :=
  match a, b with
  | [], [] => false
  | [], _ :: _ => true
  | _ :: _, [] => false
  | x :: a', y :: b' =>
      if (N_of_ascii x <? N_of_ascii y)%N then true
      else if Ascii.eqb x y then str_ltb a' b' else false
  end.

(** Go [a >= b] on strings. -- cache/stringcache/string_caches.go:48-62 *)
Definition str_geb (a b : str) : bool := negb (str_ltb a b).

(** unicode.ToLower on one ASCII byte. -- cache/stringcache/string_caches.go:26 *)
Definition lower_ascii (c : ascii) : ascii :=
  let n := N_of_ascii c in
  if ((65 <=? n) && (n <=? 90))%N then ascii_of_N (n + 32) else c.

(** strings.ToLower, on ASCII. -- cache/stringcache/string_caches.go:26, util/common.go:111 *)
Definition to_lower (a : str) : str := map lower_ascii a.

(** strings.HasPrefix. -- cache/stringcache/string_caches.go:154 *)
Fixpoint has_prefix (a p : str) {struct p} : bool :=
  match p, a with
  | [], _ => true
  | x :: p', y :: a' => Ascii.eqb x y && has_prefix a' p'
  | _ :: _, [] => false
  end.

(** strings.HasSuffix. -- cache/stringcache/string_caches.go:154 *)
Definition has_suffix (a p : str) : bool := has_prefix (rev a) (rev p).

(** strings.TrimPrefix. -- lists/parsers/hosts.go:251 *)
Definition trim_prefix (a p : str) : str :=
  if has_prefix a p then skipn (length p) a else a.

(** strings.TrimSuffix. -- lists/parsers/hosts.go:252 *)
Definition trim_suffix (a p : str) : str :=
  if has_suffix a p then firstn (length a - length p) a else a.

(** strings.TrimLeft with a one-byte cut set. -- cache/stringcache/string_caches.go:250 *)
Fixpoint trim_left (c : ascii) (a : str) : str :=
  match a with
  | x :: a' => if Ascii.eqb x c then trim_left c a' else a
  | [] => []
  end.

(** strings.TrimRight with a one-byte cut set. -- trie/split.go:9 *)
Definition trim_right (c : ascii) (a : str) : str := rev (trim_left c (rev a)).

(** strings.Trim with a one-byte cut set. -- cache/stringcache/string_caches.go:251 *)
Definition trim (c : ascii) (a : str) : str := trim_right c (trim_left c a).

(** unicode.IsSpace on one ASCII byte. -- lists/parsers/lines.go:80 *)
Definition is_space (c : ascii) : bool :=
  let n := N_of_ascii c in ((9 <=? n) && (n <=? 13) || (n =? 32))%N.

(** strings.TrimLeftFunc with unicode.IsSpace, on ASCII (part of lists/parsers/lines.go:67) *)
Fixpoint trim_space_left (a : str) : str :=
  match a with
  | x :: a' => if is_space x then trim_space_left a' else a
  | [] => []
  end.

(** strings.TrimSpace (and bytes.TrimSpace), on ASCII. -- lists/parsers/lines.go:67 *)
Definition trim_space (a : str) : str :=
  rev (trim_space_left (rev (trim_space_left a))).

(** strings.IndexByte / strings.Index with a one-byte pattern; [None] is -1. -- lists/parsers/lines.go:73 *)
Fixpoint index_byte (c : ascii) (a : str) : option nat :=
  match a with
  | [] => None
  | x :: a' => if Ascii.eqb x c then Some 0
               else match index_byte c a' with Some i => Some (S i) | None => None end
  end.

(** strings.LastIndexByte; [None] is -1. -- trie/split.go:11 *)
Definition last_index_byte (c : ascii) (a : str) : option nat :=
  match index_byte c (rev a) with
  | Some i => Some (length a - 1 - i)
  | None => None
  end.

(** strings.Contains with a one-byte pattern. -- resolver/fqdn_only_resolver.go:29 *)
Fixpoint contains_byte (c : ascii) (a : str) : bool :=
  match a with
  | [] => false
  | x :: a' => Ascii.eqb x c || contains_byte c a'
  end.

(** strings.Count with a one-byte pattern. -- cache/stringcache/string_caches.go:216 *)
Fixpoint count_byte (c : ascii) (a : str) : nat :=
  match a with
  | [] => 0
  | x :: a' => (if Ascii.eqb x c then 1 else 0) + count_byte c a'
  end.

(** strings.Split with a one-byte separator (never the empty list). -- resolver/blocking_resolver.go:51 *)
Fixpoint split_byte (c : ascii) (a : str) : list str :=
  match a with
  | [] => [[]]
  | x :: a' =>
      if Ascii.eqb x c then [] :: split_byte c a'
      else match split_byte c a' with
           | h :: t => (x :: h) :: t
           | [] => [[x]]
           end
  end.

(** strings.Join. -- cache/stringcache/string_caches.go:125 *)
Fixpoint join (sep : str) (l : list str) : str :=
  match l with
  | [] => []
  | [a] => a
  | a :: l' => a ++ sep ++ join sep l'
  end.

(** strings.Fields, on ASCII white space. -- lists/parsers/hosts.go:141-142 *)
Fixpoint fields_aux (a : str) (cur : str) : list str :=
  match a with
  | [] => match cur with [] => [] | _ => [rev cur] end
  | x :: a' =>
      if is_space x then
        match cur with [] => fields_aux a' [] | _ => rev cur :: fields_aux a' [] end
      else fields_aux a' (x :: cur)
  end.
(** bufio.ScanWords over a whole text (lists/parsers/hosts.go:141-142) *)
Definition fields (a : str) : list str := fields_aux a [].

(** slices.Contains on strings. -- resolver/custom_dns_resolver.go:267 *)
Definition str_in (x : str) (l : list str) : bool := existsb (str_eqb x) l.

(** Insertion of one element into a sorted list; used to model sort.Strings. -- cache/stringcache/chained_grouped_cache.go:39 *)
Fixpoint sort_insert (x : str) (l : list str) : list str :=
  match l with
  | [] => [x]
  | y :: l' => if str_ltb y x then y :: sort_insert x l' else x :: l
  end.

(** sort.Strings (the result of sorting does not depend on the algorithm). -- cache/stringcache/chained_grouped_cache.go:39 *)
Fixpoint sort_strs (l : list str) : list str :=
  match l with
  | [] => []
  | x :: l' => sort_insert x (sort_strs l')
  end.

(** The set of keys of a Go map filled with [l]: duplicates removed. -- cache/stringcache/chained_grouped_cache.go:28-38 *)
Fixpoint dedup (l : list str) : list str :=
  match l with
  | [] => []
  | x :: l' => if str_in x l' then dedup l' else x :: dedup l'
  end.

(** sort.Search: binary search for the smallest index at which [f] holds. -- cache/stringcache/string_caches.go:48 *)
Fixpoint search_aux (fuel i j : nat) (f : nat -> bool) : nat :=
  match fuel with
  | 0 => i
  | S fuel' =>
      if i <? j then
        let h := (i + j) / 2 in
        if f h then search_aux fuel' i h f else search_aux fuel' (S h) j f
      else i
  end.
(** sort.Search (cache/stringcache/string_caches.go:48) *)
Definition sort_search (n : nat) (f : nat -> bool) : nat := search_aux n 0 n f.

(** A Go map as an association list: lookup, assignment, delete. *)
Section Map.
  Context {K V : Type} (eqb : K -> K -> bool).

  (** lookup m[k] (throughout /repo) *)
  Fixpoint mget (k : K) (m : list (K * V)) : option V :=
    match m with
    | [] => None
    | (k', v) :: m' => if eqb k k' then Some v else mget k m'
    end.

  (** assignment m[k] = v (throughout /repo) *)
  Fixpoint mput (k : K) (v : V) (m : list (K * V)) : list (K * V) :=
    match m with
    | [] => [(k, v)]
    | (k', v') :: m' => if eqb k k' then (k, v) :: m' else (k', v') :: mput k v m'
    end.

  (** delete(m, k) (throughout /repo) *)
  Fixpoint mdel (k : K) (m : list (K * V)) : list (K * V) :=
    match m with
    | [] => []
    | (k', v') :: m' => if eqb k k' then mdel k m' else (k', v') :: mdel k m'
    end.
End Map.
