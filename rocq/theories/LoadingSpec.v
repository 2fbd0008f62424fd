(** What the metrics about the loading of lists are to tell. *)
From Coq Require Import String Ascii List Arith NArith ZArith Bool.
From Verif Require Import Str StringCache StringCacheSpec Download DownloadSpec Metrics Loading.
Import ListNotations.

(** A download with this many attempts (0: no limit) fails this many times before it ends. *)
Inductive failed_tries (attempts : N) (net : nat -> answer) : nat -> Prop :=
| ft_success k b : first_success net k b -> (attempts = 0 \/ N.of_nat k < attempts)%N -> failed_tries attempts net k
| ft_failure : (0 < attempts)%N -> (forall i, (N.of_nat i < attempts)%N -> forall b, ~ delivers (net i) b) ->
    failed_tries attempts net (N.to_nat attempts).

(** The downloads begun in a history. *)
Fixpoint begun (ops : list loading_op) : list (N * (nat -> answer)) :=
  match ops with
  | [] => []
  | ODownload _ attempts net :: ops' => (attempts, net) :: begun ops'
  | _ :: ops' => begun ops'
  end.

(** The times at which a refreshed group was made known. *)
Fixpoint made_known (ops : list loading_op) : list Z :=
  match ops with
  | [] => []
  | OList _ (LPublish _ now) :: ops' => now :: made_known ops'
  | _ :: ops' => made_known ops'
  end.

(** The lists of a type. *)
Definition lists_of (t : list_type) (s : loading_state) : lists_state :=
  match t with Denylist => ld_deny s | Allowlist => ld_allow s end.

(** The i-th refresh of a group of lists of this type has got its entries, and they replace the old ones. *)
Definition replaced (t : list_type) (i : nat) (ops : list loading_op) : Prop :=
  exists es err, In (OList t (LLoad i es err)) ops /\ takes_effect err es.
(** It is made known. *)
Definition told (t : list_type) (i : nat) (ops : list loading_op) : Prop := exists now, In (OList t (LPublish i now)) ops.
(** Its goroutine has ended. *)
Definition ended (t : list_type) (i : nat) (s : loading_state) : Prop := nth_error (ls_jobs (lists_of t s)) i = Some JDone.

(** Never backwards. *)
Fixpoint in_time (ts : list Z) : Prop :=
  match ts with [] => True | t :: ts' => (forall u, In u ts' -> (t <= u)%Z) /\ in_time ts' end.
