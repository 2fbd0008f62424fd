(** What the number of entries of a list group is made of. *)
From Coq Require Import String Ascii List.
From Verif Require Import Str StringCacheSpec MetricsSpec.
Import ListNotations.

(** [sorted_out regex es r w ns]: of the entries [es], [r] are regular expressions which can be used,
    [w] are wildcards "*.d" and [ns] are plain names; the others are regular expressions with a
    mistake and texts with a star in another place. *)
Inductive sorted_out (regex : str -> option (str -> bool)) : list str -> nat -> nat -> list str -> Prop :=
| so_nil : sorted_out regex [] 0 0 []
| so_regex p m es r w ns : regex (trim_space p) = Some m -> sorted_out regex es r w ns ->
    sorted_out regex (("/"%char :: p ++ ["/"%char]) :: es) (S r) w ns
| so_mistake p es r w ns : regex (trim_space p) = None -> sorted_out regex es r w ns ->
    sorted_out regex (("/"%char :: p ++ ["/"%char]) :: es) r w ns
| so_wildcard d es r w ns : ~ In "*"%char d -> sorted_out regex es r w ns ->
    sorted_out regex (("*"%char :: "."%char :: d) :: es) r (S w) ns
| so_star e es r w ns : ~ regex_entry e -> In "*"%char e -> (forall d, e = "*"%char :: "."%char :: d -> In "*"%char d) ->
    sorted_out regex es r w ns -> sorted_out regex (e :: es) r w ns
| so_plain e es r w ns : plain_entry e -> sorted_out regex es r w ns -> sorted_out regex (e :: es) r w (e :: ns).
