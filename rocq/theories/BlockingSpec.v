(** Specification of the blocking resolver. *)
From Coq Require Import String Ascii List Arith Bool NArith ZArith.
From Verif Require Import Str ParsersSpec StringCacheSpec Dns Resolver CachingSpec Blocking.
Import ListNotations.

(** ** Names *)

(** [low] is [s] in lower case. *)
Definition lowered (s low : str) : Prop :=
  same_upto_case s low /\ Forall (fun c => ~ (65 <= N_of_ascii c <= 90)%N) low.

(** [n] is the name [raw] in lower case, without its final dot. *)
Definition plain_name (raw n : str) : Prop := exists s, without_dot raw s /\ lowered s n.

(** [p] is one of the comma-separated parts of [s]. *)
Definition comma_part (s p : str) : Prop :=
  ~ In ","%char p /\
  exists pre post, s = pre ++ p ++ post /\
    (pre = [] \/ exists x, pre = x ++ $",") /\ (post = [] \/ exists x, post = $"," ++ x).

(** [t] is [s] without surrounding white space. *)
Definition trimmed (s t : str) : Prop :=
  exists a b, s = a ++ t ++ b /\ blank a /\ blank b /\
    (t = [] \/ (exists c r, t = c :: r /\ ~ white c) /\ exists r c, t = r ++ [c] /\ ~ white c).

(** A name with a dot in its inside. *)
Definition dotted_inside (s : str) : Prop :=
  exists a c b b' d e, s = a ++ c :: b ++ "."%char :: b' ++ d :: e /\ c <> "."%char /\ d <> "."%char.

(** ** Clients and groups *)
Section Spec.
Variable glob : str -> str -> bool.
Variable cidr_contains : str -> option ip -> bool.
Variable ip_string : option ip -> str.
(** The configuration, the addresses FQDN identifiers stand for, the disabled groups. *)
Variable cfg : blk_cfg.
Variable fqdn_ips : str -> list ip.
Variable disabled : list str.

(** The lower-case identifier [ident] denotes the client of [req]. *)
Definition denotes (ident : str) (req : request) : Prop :=
  (exists n low, In n (req_names req) /\ lowered n low /\ glob ident low = true) \/
  ident = ip_string (req_ip req) \/
  cidr_contains ident (req_ip req) = true \/
  (dotted_inside ident /\ exists i, req_ip req = Some i /\ In i (fqdn_ips ident)).

(** The configuration gives group [g] to the identifier [ident]. *)
Definition given (ident g : str) : Prop :=
  exists key gs low, In (key, gs) (bc_clients cfg) /\ lowered key low /\ comma_part low ident /\ In g gs.

Definition assigned (req : request) (g : str) : Prop := exists ident, given ident g /\ denotes ident req.

(** Group [g] is applied to the client of [req]. *)
Definition applies (req : request) (g : str) : Prop :=
  (assigned req g \/ ((forall g', ~ assigned req g') /\ given $"default" g)) /\ ~ In g disabled.

(** A group with allow lists but without deny lists. *)
Definition allow_only (g : str) : Prop :=
  (exists srcs, In (g, srcs) (bc_allow cfg) /\ srcs <> []) /\ ~ exists srcs, In (g, srcs) (bc_deny cfg).

(** [on_allow g n]: the allow lists of [g] match [n]; likewise [on_deny]. *)
Variable on_allow on_deny : str -> str -> Prop.

Definition allowed (req : request) (n : str) : Prop := exists g, applies req g /\ on_allow g n.
Definition denied (req : request) (n : str) : Prop := exists g, applies req g /\ on_deny g n.
Definition restricted (req : request) : Prop := exists g, applies req g /\ allow_only g.

(** The verdict on a single name. *)
Definition blocked_name (req : request) (n : str) : Prop :=
  ~ allowed req n /\ (restricted req \/ denied req n).

(** [q] is the first question of the request whose name is allowed or blocked. *)
Definition deciding (req : request) (q : question) (n : str) : Prop :=
  exists pre post, m_question (req_msg req) = pre ++ q :: post /\ plain_name (q_name q) n /\
    (allowed req n \/ blocked_name req n) /\
    forall q' n', In q' pre -> plain_name (q_name q') n' -> ~ allowed req n' /\ ~ blocked_name req n'.

(** What the record refers to. *)
Inductive refers : rr -> str -> str -> Prop :=
| refers_a r a : rr_data r = DA a -> refers r $"IP" (ip_string (Some a))
| refers_aaaa r a low : rr_data r = DAAAA a -> lowered (ip_string (Some a)) low -> refers r $"IP" low
| refers_cname r t n : rr_data r = DCNAME t -> plain_name t n -> refers r $"CNAME" n.

(** The record makes the answer unacceptable. *)
Definition bad_record (req : request) (r : rr) (kind n : str) : Prop :=
  refers r kind n /\ n <> [] /\ ~ allowed req n /\ denied req n.

(** The groups named in the reason shown to the user. *)
Definition names_groups (P : str -> Prop) (s : str) : Prop :=
  exists gs, sorted_set_of P gs /\ s = join $"," gs.

End Spec.

(** A list lookup that answers correctly for the list contents [on]: the groups among
    those asked for whose lists match the name (C04 for the real lists). *)
Definition lookup_ok (on : str -> str -> Prop) (lookup : str -> list str -> list str) : Prop :=
  forall n gs, sorted_set_of (fun g => In g gs /\ on g n) (lookup n gs).

(** ** Block answers *)

(** A response to [req] about [q] as handler [h] prescribes. *)
Definition zero_answer (ttl : N) (q : question) (rcode : N) (ans : list rr) : Prop :=
  (q_type q = 1 /\ rcode = 0 /\
   ans = [{| rr_name := q_name q; rr_type := 1; rr_class := 1; rr_ttl := ttl; rr_data := DA (IP4 [0; 0; 0; 0]) |}])%N \/
  (q_type q = 28 /\ rcode = 0 /\
   ans = [{| rr_name := q_name q; rr_type := 28; rr_class := 1; rr_ttl := ttl;
             rr_data := DAAAA (IP6 [0; 0; 0; 0; 0; 0; 0; 0; 0; 0; 0; 0; 0; 0; 0; 0]) |}])%N \/
  (q_type q <> 1 /\ q_type q <> 28 /\ rcode = 3 /\ ans = [])%N.

(** The configured addresses of the family asked for. *)
Inductive of_family (t : N) : list ip -> list rdata -> Prop :=
| fam_nil : of_family t [] []
| fam_4 b ips l : t = 1%N -> of_family t ips l -> of_family t (IP4 b :: ips) (DA (IP4 b) :: l)
| fam_6 b ips l : t = 28%N -> of_family t ips l -> of_family t (IP6 b :: ips) (DAAAA (IP6 b) :: l)
| fam_skip4 b ips l : t <> 1%N -> of_family t ips l -> of_family t (IP4 b :: ips) l
| fam_skip6 b ips l : t <> 28%N -> of_family t ips l -> of_family t (IP6 b :: ips) l.

Definition block_content (h : handler) (q : question) (rcode : N) (ans : list rr) : Prop :=
  match h with
  | HNxDomain => rcode = 3%N /\ ans = []
  | HZeroIP ttl => zero_answer ttl q rcode ans
  | HIPs ips ttl =>
      exists l, of_family (q_type q) ips l /\
        ((l = [] /\ zero_answer ttl q rcode ans) \/
         (l <> [] /\ rcode = 0%N /\
          ans = map (fun d => {| rr_name := q_name q; rr_type := q_type q; rr_class := 1%N; rr_ttl := ttl; rr_data := d |}) l))
  end.

(** The handler for the configured block type. *)
Definition configured_handler (parse_ip : str -> option ip) (cfg : blk_cfg) (h : option handler) : Prop :=
  (lowered (bc_type cfg) $"nxdomain" /\ h = Some HNxDomain) \/
  (lowered (bc_type cfg) $"zeroip" /\ h = Some (HZeroIP (bc_ttl cfg))) \/
  (~ lowered (bc_type cfg) $"nxdomain" /\ ~ lowered (bc_type cfg) $"zeroip" /\
   exists ips, (forall a, In a ips <-> exists p t, comma_part (bc_type cfg) p /\ trimmed p t /\ parse_ip t = Some a) /\
     ((ips = [] /\ h = None) \/ (ips <> [] /\ h = Some (HIPs ips (bc_ttl cfg))))).

Definition block_answer (h : handler) (req : request) (q : question) (r : response) : Prop :=
  rs_type r = BLOCKED /\
  exists m, rs_msg r = Some m /\ m_id m = m_id (req_msg req) /\ m_response m = true /\
    m_question m = firstn 1 (m_question (req_msg req)) /\ m_ns m = [] /\ m_extra m = [] /\
    block_content h q (m_rcode m) (m_answer m).

(** ** Enabling and disabling *)

(** The groups that may be disabled. *)
Definition known (cfg : blk_cfg) (g : str) : Prop := g = $"default" \/ exists srcs, In (g, srcs) (bc_deny cfg).

(** The groups a disable command names. *)
Definition named (cfg : blk_cfg) (gs : list str) (g : str) : Prop := In g gs \/ (gs = [] /\ known cfg g).

Definition valid_groups (cfg : blk_cfg) (gs : list str) : Prop := forall g, In g gs -> known cfg g.

(** The commands and the events of the timer. *)
Definition is_command (e : blk_event) : Prop :=
  match e with BEnable | BDisable _ _ _ => True | _ => False end.

(** The accepted commands. *)
Definition accepted (cfg : blk_cfg) (e : blk_event) : Prop :=
  match e with BEnable => True | BDisable _ gs _ => valid_groups cfg gs | _ => False end.

(** The last accepted command of a history. *)
Inductive last_command (cfg : blk_cfg) : list blk_event -> option blk_event -> Prop :=
| last_none es : (forall e, In e es -> ~ accepted cfg e) -> last_command cfg es None
| last_some pre c post : accepted cfg c -> (forall e, In e post -> ~ accepted cfg e) ->
    last_command cfg (pre ++ c :: post) (Some c).

(** [off e t g]: by command [e] group [g] is disabled, as far as time [t] is concerned. *)
Definition off (cfg : blk_cfg) (c : option blk_event) (g : str) : Prop :=
  match c with Some (BDisable _ gs _) => named cfg gs g | _ => False end.

(** The time at which the command's effect ends (None: never). *)
Definition ends (c : option blk_event) : option Z :=
  match c with Some (BDisable d _ now) => if (d =? 0)%Z then None else Some (now + d)%Z | _ => None end.

(** ** FQDN identifiers *)

(** [a] is the address of a record of the successful answer [r]. *)
Definition address_in (r : result) (a : ip) : Prop :=
  exists resp m x, r = Ok resp /\ rs_msg resp = Some m /\ m_rcode m = 0%N /\ In x (m_answer m) /\
    (rr_data x = DA a \/ rr_data x = DAAAA a).

(** ** Locks *)

(** Goroutine [i] has something left to do; it can make a step. *)
Definition unfinished (s : rw * list (list lock_op)) (i : nat) : Prop :=
  exists o rest, nth_error (snd s) i = Some (o :: rest).
Definition can_step (s : rw * list (list lock_op)) (i : nat) : Prop := exists s', conc_step s i = Some s'.
