(** What the metrics promise. *)
From Coq Require Import String Ascii List Arith Bool NArith ZArith.
From Verif Require Import Str Dns Resolver Blocking Chain ExpCache Metrics RedisSpec SafeSpec.
Import ListNotations.

(** ** Lists *)
(** A goroutine is at work on the group. *)
Definition busy (s : lists_state) (g : str) : Prop :=
  exists j, In j (ls_jobs s) /\ (j = JLoading g \/ j = JLoaded g \/ exists n, j = JCounted g n).

(** A group is refreshed only when its last refresh has ended. *)
Definition one_at_a_time (compile : str -> option (str -> bool)) (ops : list lists_op) : Prop :=
  forall pre g post s, ops = pre ++ LStart g :: post -> lists_run compile lists_init pre = Some s -> ~ busy s g.

(** A plain entry of a list: not a regular expression, not a wildcard. *)
Definition plain_entry (e : str) : Prop := ~ In "*"%char e /\ e <> ["/"%char] /\ forall p, e <> "/"%char :: p ++ ["/"%char].

(** ** The cache of answers *)
Inductive stores_element {T} : op T -> Prop :=
| stores_put k v ttl now : (0 < ttl)%Z -> stores_element (OPut k v ttl now)
| stores_reloaded k v ttl now : (0 < ttl)%Z -> stores_element (OCleanHandle k (Some (v, ttl)) now).

Inductive drops_element {T} : op T -> Prop :=
| drops_all : drops_element OClear
| drops_expired k : drops_element (OCleanRemove k).

(** A call of Put has not yet told the new size. *)
Definition untold {T} (s : entries_state T) : Prop := exists p, In p (es_puts s) /\ p <> PDone.

(** No call of Put begins before the last one has told the new size. *)
Definition puts_in_turn {T} (size bsize : nat) (ops : list (entries_op T)) : Prop :=
  forall pre o post s, ops = pre ++ EMain o :: post -> stores_element o -> entries_run size bsize entries_init pre = Some s -> ~ untold s.

Definition is_get {T} (o : entries_op T) : bool :=
  match o with EMain (OGet _ _) | EBoot (OGet _ _) => true | _ => false end.
Definition is_main_get {T} (o : entries_op T) : bool :=
  match o with EMain (OGet _ _) => true | _ => false end.

(** ** Queries *)
(** A query as the metrics resolver sees it: the request and what came back. *)
Definition observation : Type := request * result.

Definition countable (p : observation) : Prop :=
  m_question (req_msg (fst p)) <> [] /\ Forall valid_utf8 (req_names (fst p)) /\ full (snd p).

Definition how_many {A} (P : A -> bool) (l : list A) : N := N.of_nat (length (filter P l)).

(** The query came from these names (joined by commas) and asked for this type. *)
Definition asked_by (L : label_texts) (client type : str) (p : observation) : bool :=
  str_eqb (join [","%char] (req_names (fst p))) client &&
  match m_question (req_msg (fst p)) with q :: _ => str_eqb (lt_type L (q_type q)) type | [] => false end.

Definition answered_with (L : label_texts) (reason rcode rt : str) (p : observation) : bool :=
  match snd p with
  | Ok r => match rs_msg r with
            | Some m => str_eqb (rs_reason r) reason && (str_eqb (lt_rcode L (m_rcode m)) rcode && str_eqb (lt_rtype L (rs_type r)) rt)
            | None => false
            end
  | Err _ => false
  end.

Definition failed_query (p : observation) : bool := match snd p with Err _ => true | Ok _ => false end.

Definition measured_as (L : label_texts) (rt : str) (p : observation) : bool :=
  str_eqb (match snd p with Ok r => lt_rtype L (rs_type r) | Err _ => $"err" end) rt.

(** The sum of all values of a counter. *)
Definition sum_of (m : list (list str * N)) : N := fold_right (fun p acc => (snd p + acc)%N) 0%N m.

(** Queries that are answered before they are counted: a filtered type, or a name without a dot where a full one is demanded. *)
Definition answered_early {U} (w : world U) (q : question) : Prop :=
  In (q_type q) (w_filter w) \/ (w_fqdn w = true /\ ~ In "."%char (extract_domain q)).
