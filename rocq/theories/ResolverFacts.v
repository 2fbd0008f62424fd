(** Facts about resolver programs. *)
From Coq Require Import List.
From Verif Require Import Str Dns Resolver.
Import ListNotations.

Lemma exec_bind p f next :
  exec (bind p f) next = match exec p next with Some r => exec (f r) next | None => None end.
Proof. induction p as [r| |q k IH]; simpl; auto. destruct (next q); auto. Qed.

Lemma forwarded_bind p f next :
  forwarded (bind p f) next =
  forwarded p next ++ match exec p next with Some r => forwarded (f r) next | None => [] end.
Proof. induction p as [r| |q k IH]; simpl; auto. destruct (next q); simpl; [now rewrite IH|reflexivity]. Qed.

Lemma exec_pass q next : exec (pass q) next = next q.
Proof. simpl. destruct (next q); reflexivity. Qed.

Lemma forwarded_pass q next : forwarded (pass q) next = [q].
Proof. simpl. destruct (next q); reflexivity. Qed.
