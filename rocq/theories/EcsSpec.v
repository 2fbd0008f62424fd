(** Specification of the client-subnet resolver. *)
From Coq Require Import String Ascii List Arith Bool NArith.
From Verif Require Import Str Dns SudnSpec.
Import ListNotations.

(** [b'] has the first [mask] bits of [b], and zeros after them. *)
Definition first_bits (mask : nat) (b b' : list N) : Prop :=
  length b' = length b /\
  forall i k x y, nth_error b i = Some x -> nth_error b' i = Some y -> k < 8 ->
    N.testbit y (N.of_nat k) = (N.testbit x (N.of_nat k) && (8 * i + (7 - k) <? mask))%bool.

(** [o] tells no more than the configured network of the client [i]. *)
Definition network_only (mask4 mask6 : N) (i : ip) (o : eopt) : Prop :=
  match i with
  | IP4 b => exists b', o = EOSubnet 1 mask4 0 (Some (IP4 b')) /\ (0 < mask4)%N /\ first_bits (N.to_nat mask4) b b'
  | IP6 b => exists b', o = EOSubnet 2 mask6 0 (Some (IP6 b')) /\ (0 < mask6)%N /\ first_bits (N.to_nat mask6) b b'
  end.

(** The option carries a complete address. *)
Definition full_address (o : eopt) (a : option ip) : Prop :=
  exists s, o = EOSubnet 1 32 s a \/ o = EOSubnet 2 128 s a.
