(** Specification of list matching, readable without the model.  It uses only
    [str] (byte strings) and [to_lower] from [Str.v]. *)
From Coq Require Import String Ascii List Bool Sorting.Sorted NArith.
From Verif Require Import Str.
From Verif Require StringCache.
Import StringCache(load_err(..)).
Import ListNotations.

(** [n] is the domain [d] or a sub-domain of it. *)
Definition same_or_sub (n d : str) : Prop := n = d \/ exists p, n = p ++ dot :: d.

(** "l1.l2.l3" from its labels. *)
Fixpoint dotted (ls : list str) : str :=
  match ls with
  | [] => []
  | [l] => l
  | l :: ls' => l ++ dot :: dotted ls'
  end.

(** A proper name: one or more non-empty labels joined by single dots. *)
Definition proper_name (n : str) : Prop :=
  exists ls, ls <> [] /\ (forall l, In l ls -> l <> [] /\ ~ In dot l) /\ n = dotted ls.

(** [ls] are the non-empty labels of [n]; superfluous dots are skipped. *)
Inductive labels_of : str -> list str -> Prop :=
| lo_nil : labels_of [] []
| lo_one l : l <> [] -> ~ In dot l -> labels_of l [l]
| lo_dot n ls : labels_of n ls -> labels_of (dot :: n) ls
| lo_cons l n ls : l <> [] -> ~ In dot l -> labels_of n ls -> labels_of (l ++ dot :: n) (l :: ls).

(** Wildcard entry "*.d" for a (lower-cased) [d]: the labels of [d] end the
    labels of [n].  For proper names this is [same_or_sub], see
    [StringCacheProps.wildcard_means_subdomain]. *)
Definition wildcard_matches (d n : str) : Prop :=
  exists ds ls xs, labels_of (to_lower d) ds /\ ds <> [] /\ labels_of n ls /\ ls = xs ++ ds.

Section Entry.
  (** What a regular expression matches, and which texts are one. *)
  Variable regex : str -> option (str -> bool).

  (** An entry "/.../" *)
  Definition regex_entry (e : str) : Prop := exists p, e = slash :: p ++ [slash].

  (** When list entry [e] matches name [n] — the documented meaning. *)
  Definition entry_matches (e n : str) : Prop :=
    (exists p m, e = slash :: p ++ [slash] /\ regex (trim_space p) = Some m /\ m n = true)
    \/ (~ regex_entry e /\ exists d, e = star :: dot :: d /\ ~ In star d /\ wildcard_matches d n)
    \/ (~ regex_entry e /\ ~ In star e /\ e <> [] /\ to_lower e = to_lower n).

  (** A group loaded with entries [es] matches [n]. *)
  Definition list_matches (es : list str) (n : str) : Prop := exists e, In e es /\ entry_matches e n.
End Entry.

(** Bytewise lexicographic order. *)
Inductive bytes_lt : str -> str -> Prop :=
| bl_nil c b : bytes_lt [] (c :: b)
| bl_lt c d a b : (N_of_ascii c < N_of_ascii d)%N -> bytes_lt (c :: a) (d :: b)
| bl_eq c a b : bytes_lt a b -> bytes_lt (c :: a) (c :: b).

(** [r] is the sorted, duplicate-free list of the elements satisfying [P]. *)
Definition sorted_set_of (P : str -> Prop) (r : list str) : Prop :=
  StronglySorted bytes_lt r /\ forall x, In x r <-> P x.

(** ** Histories of list refreshes *)

(** How the sources of a group ended is one of the model's inputs: all fine
    ([NoErr]), a temporary failure to be retried ([TransientErr]), another failure
    ([OtherErr]). *)

(** A load takes effect if all went well, or if something (not temporary) failed
    but there is at least one entry. *)
Definition takes_effect (o : load_err) (es : list str) : Prop :=
  o = NoErr \/ (o = OtherErr /\ es <> []).

(** [content hist g es]: after the loads [hist] (oldest first) of (group,
    entries, outcome), the last load of [g] that took effect had entries [es]. *)
Inductive content : list (str * (list str * load_err)) -> str -> list str -> Prop :=
| content_now hist g es o : takes_effect o es -> content (hist ++ [(g, (es, o))]) g es
| content_failed hist g es o es' :
    ~ takes_effect o es' -> content hist g es -> content (hist ++ [(g, (es', o))]) g es
| content_other hist g g' es o es' :
    g' <> g -> content hist g es -> content (hist ++ [(g', (es', o))]) g es.
