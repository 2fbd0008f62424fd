(** Model of package trie (/repo/trie). *)
From Coq Require Import String Ascii List Arith Bool.
From Verif Require Import Str.
Import ListNotations.

(** trie/split.go:8-20 SplitTLD: [(label, rest)], "www.example.com" gives
    ("com", "www.example"). *)
Definition split_tld (domain : str) : str * str :=
  let domain := trim_right dot domain in
  match last_index_byte dot domain with
  | None => (domain, [])
  | Some idx => (skipn (S idx) domain, firstn idx domain)
  end.

(** trie/trie.go:44-46, 62-64, 157 (node, parent, terminal): a node is either a
    terminal holding the not yet split rest of a key or a parent with a map from
    labels to nodes. *)
Inductive node :=
| Terminal (rest : str)
| Parent (children : list (str * node)).

(** trie/trie.go:62-64 parent.children.  Simplification: a nil map and an empty
    map are identified. *)
Definition children_t := list (str * node).

(** trie/trie.go:163-192 terminal.hasParentOf, the loop; [fuel] bounds the
    number of iterations (each one strictly shortens [tKey]); running out of
    fuel is never reached, see [TrieProofs.term_loop_spec]. *)
Fixpoint term_loop (fuel : nat) (tKey searchKey : str) : bool :=
  match fuel with
  | 0 => false
  | S fuel' =>
      let '(tLabel, tRest) := split_tld tKey in
      let '(searchLabel, searchRest) := split_tld searchKey in
      if negb (str_eqb searchLabel tLabel) then false
      else match tRest with
           | [] => true
           | _ => match searchRest with
                  | [] => false
                  | _ => term_loop fuel' tRest searchRest
                  end
           end
  end.

(** trie/trie.go:163-192 terminal.hasParentOf. *)
Definition term_has_parent_of (t searchKey : str) : bool :=
  match t with
  | [] => true
  | _ => term_loop (S (length t)) t searchKey
  end.

(** trie/trie.go:72-114 parent.insert, without the check for the empty key; the
    loop and the recursive calls are one recursion, each on a shorter key.  In the
    terminal case the first nested call inserts into a fresh parent, which only
    sets one child (lines 84-88 with [!ok]); it is written out. *)
Fixpoint insert_loop (fuel : nat) (n : children_t) (key : str) : children_t :=
  match fuel with
  | 0 => n
  | S fuel' =>
      let '(label, rest) := split_tld key in
      match mget str_eqb label n, rest with
      | None, _ => mput str_eqb label (Terminal rest) n
      | Some _, [] => mput str_eqb label (Terminal rest) n
      | Some (Parent ch), _ => mput str_eqb label (Parent (insert_loop fuel' ch rest)) n
      | Some (Terminal t), _ =>
          if term_has_parent_of t rest then n
          else
            let p := match t with
                     | [] => []
                     | _ => let '(l2, r2) := split_tld t in [(l2, Terminal r2)]
                     end in
            mput str_eqb label (Parent (insert_loop fuel' p rest)) n
      end
  end.

(** trie/trie.go:36-38, 72-75 Trie.Insert: the empty key is ignored. *)
Definition insert (n : children_t) (key : str) : children_t :=
  match key with
  | [] => n
  | _ => insert_loop (S (length key)) n key
  end.

(** trie/trie.go:116-155 parent.hasParentOf (the rule text built for the log
    message is omitted). *)
Fixpoint parent_loop (fuel : nat) (n : children_t) (key : str) : bool :=
  match fuel with
  | 0 => false
  | S fuel' =>
      let '(label, rest) := split_tld key in
      match mget str_eqb label n with
      | None => false
      | Some (Parent ch) =>
          match rest with
          | [] => false
          | _ => parent_loop fuel' ch rest
          end
      | Some (Terminal t) => term_has_parent_of t rest
      end
  end.

(** trie/trie.go:40-42 Trie.HasParentOf. *)
Definition has_parent_of (n : children_t) (key : str) : bool :=
  parent_loop (S (length key)) n key.

(** trie/trie.go:25-30 NewTrie. *)
Definition empty_trie : children_t := [].

(** trie/trie.go:32-34 Trie.IsEmpty. *)
Definition is_empty_trie (n : children_t) : bool :=
  match n with [] => true | _ => false end.
