(** What a client identifier that is a domain name stands for. *)
From Coq Require Import String Ascii List ZArith.
From Verif Require Import Str Dns.
Import ListNotations.

(** Lookups at one time (milliseconds): for every name the addresses and how long they hold (nanoseconds). *)
Definition lookups : Type := Z * (str -> list ip * Z).

(** After the lookups at start and those possible later (one chance per clean-up), the identifier stands for the addresses of the
    last lookup that was due and had a lifetime; they hold until the time at the end. *)
Inductive stands_for (id : str) (start : lookups) : list lookups -> list ip -> Z -> Prop :=
| sf_start ips ttl : snd start id = (ips, ttl) -> (0 < ttl)%Z -> stands_for id start [] ips (fst start + ttl / 1000000)%Z
| sf_valid later next ips e : stands_for id start later ips e -> (fst next <= e)%Z -> stands_for id start (later ++ [next]) ips e
| sf_useless later next ips e : stands_for id start later ips e -> (snd (snd next id) <= 0)%Z -> stands_for id start (later ++ [next]) ips e
| sf_renewed later next ips e ips' ttl : stands_for id start later ips e -> (e < fst next)%Z -> snd next id = (ips', ttl) -> (0 < ttl)%Z ->
    stands_for id start (later ++ [next]) ips' (fst next + ttl / 1000000)%Z.
