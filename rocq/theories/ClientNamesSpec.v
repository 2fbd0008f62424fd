(** Specification of client names and upstream groups. *)
From Coq Require Import String Ascii List Arith Bool NArith ZArith.
From Verif Require Import Str Dns Resolver ArpaSpec CachingSpec BlockingSpec ClientNames.
Import ListNotations.

(** ** Names *)

(** The configuration maps the name [n] to the address [i]. *)
Definition mapped (cfg : lookup_cfg) (i : ip) (n : str) : Prop :=
  exists ips, In (n, ips) (cl_mapping cfg) /\ In i ips.

(** The names in the PTR records of an answer, in their order, without final dot. *)
Inductive ptr_list : list rr -> list str -> Prop :=
| pl_nil : ptr_list [] []
| pl_ptr r t n ans ns : rr_data r = DPTR t -> without_dot t n -> ptr_list ans ns -> ptr_list (r :: ans) (n :: ns)
| pl_other r ans ns : (forall t, rr_data r <> DPTR t) -> ptr_list ans ns -> ptr_list (r :: ans) ns.

(** [outcome] of a lookup carries the names [ns]. *)
Definition carries (outcome : option result) (ns : list str) : Prop :=
  exists r m, outcome = Some (Ok r) /\ rs_msg r = Some m /\ ptr_list (m_answer m) ns.

(** [n] is the name preferred by the positions [order] (counted from 1): the name at
    the first position that exists. *)
Definition preferred (order : list N) (ns : list str) (n : str) : Prop :=
  exists pre i post, order = pre ++ i :: post /\ (0 < i)%N /\ nth_error ns (N.to_nat i - 1) = Some n /\
    forall j, In j pre -> j = 0%N \/ (N.of_nat (length ns) < j)%N.

(** The names of the client with address [i] (text [text]), when the reverse lookup
    would have the result [outcome]. *)
Inductive names_of (cfg : lookup_cfg) (i : ip) (text : str) (outcome : option result) : list str -> Prop :=
| no_mapped ns : ns <> [] -> (forall n, In n ns <-> mapped cfg i n) -> names_of cfg i text outcome ns
| no_found ns : (forall n, ~ mapped cfg i n) -> cl_lookup cfg = true -> carries outcome ns -> ns <> [] ->
    cl_order cfg = [] -> names_of cfg i text outcome ns
| no_chosen ns n : (forall n, ~ mapped cfg i n) -> cl_lookup cfg = true -> carries outcome ns ->
    preferred (cl_order cfg) ns n -> names_of cfg i text outcome [n]
| no_nothing : (forall n, ~ mapped cfg i n) ->
    cl_lookup cfg = false \/ (exists e, outcome = Some (Err e)) \/ carries outcome [] ->
    names_of cfg i text outcome [text].

(** The message asks for the name of [i]. *)
Definition asks_name_of (m : msg) (i : ip) : Prop :=
  exists name, m_question m = [{| q_name := name; q_type := 12; q_class := 1 |}] /\
    match i with IP4 b => arpa4 name b | IP6 b => arpa6 name b end.

(** In the history [hist], the latest names found for the client with address text
    [text] that no flush follows are [ns]. *)
Definition last_found (ip_string : option ip -> str) (cfg : lookup_cfg) (hist : list names_op) (text : str) (ns : list str) : Prop :=
  let found o ns := exists i iter ext id now, o = NFinish i iter ext id now /\ ip_string (Some i) = text /\
                      resolve_client_names ip_string cfg iter ext id i = Some ns in
  exists before o after, hist = before ++ o :: after /\ found o ns /\
    forall o', In o' after -> o' <> NFlush /\ forall ns', ~ found o' ns'.

(** ** Groups *)
Section Groups.
Variable glob : str -> str -> bool.
Variable cidr_contains : str -> option ip -> bool.
Variable ip_string : option ip -> str.

(** The group name, in lower case, is a pattern for the name of the client. *)
Definition pattern_for (g n : str) : Prop := exists lg ln, lowered g lg /\ lowered n ln /\ glob lg ln = true.

(** The group [g] of [groups] is right for the client of [req]. *)
Inductive right_group (groups : list str) (req : request) : str -> Prop :=
| rg_ip : In (ip_string (req_ip req)) groups -> right_group groups req (ip_string (req_ip req))
| rg_name g n before after : ~ In (ip_string (req_ip req)) groups -> req_names req = before ++ n :: after ->
    (forall n' g', In n' before -> In g' groups -> ~ pattern_for g' n') ->
    In g groups -> pattern_for g n -> right_group groups req g
| rg_net g : ~ In (ip_string (req_ip req)) groups ->
    (forall n' g', In n' (req_names req) -> In g' groups -> ~ pattern_for g' n') ->
    In g groups -> cidr_contains g (req_ip req) = true -> right_group groups req g
| rg_default : ~ In (ip_string (req_ip req)) groups ->
    (forall n' g', In n' (req_names req) -> In g' groups -> ~ pattern_for g' n') ->
    (forall g', In g' groups -> cidr_contains g' (req_ip req) = false) -> right_group groups req $"default".
End Groups.
