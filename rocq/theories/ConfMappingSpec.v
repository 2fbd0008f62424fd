(** What the texts of mappings and zones mean. *)
From Coq Require Import String Ascii List Arith NArith Bool.
From Verif Require Import Str Dns BlockingSpec.
Import ListNotations.
Open Scope list_scope.

(** The parts of a text between its commas. *)
Inductive comma_list : str -> list str -> Prop :=
| cl_one p : ~ In ","%char p -> comma_list p [p]
| cl_more p s ps : ~ In ","%char p -> comma_list s ps -> comma_list (p ++ ","%char :: s) (p :: ps).

(** The parts, without surrounding white space, mean the elements of [l] one by one. *)
Definition reads_as {A} (means : str -> A -> Prop) (s : str) (l : list A) : Prop :=
  exists ps ts, comma_list s ps /\ Forall2 trimmed ps ts /\ Forall2 means ts l.

(** The data of the record for an address. *)
Definition address_data (i : ip) : rdata := match i with IP4 _ => DA i | IP6 _ => DAAAA i end.

(** Is the address of the family that type [t] asks for? *)
Definition of_family (t : N) (i : ip) : bool := match i with IP4 _ => (t =? 1)%N | IP6 _ => (t =? 28)%N end.

(** [l'] are the elements of [l] with [P], in the same order. *)
Inductive picked {A} (P : A -> Prop) : list A -> list A -> Prop :=
| pk_nil : picked P [] []
| pk_take a l l' : P a -> picked P l l' -> picked P (a :: l) (a :: l')
| pk_skip a l l' : ~ P a -> picked P l l' -> picked P (a :: l) l'.
