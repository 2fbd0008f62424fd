(** Specification of the small resolvers. *)
From Coq Require Import String Ascii List Arith Bool NArith.
From Verif Require Import Str StringCacheSpec Num Dns Resolver Blocking BlockingSpec.
Import ListNotations.

(** ** Special-use names: what the RFCs demand of a name below the zone (without dot). *)
Inductive treatment := NoSuchName | Loopback | PrivateUse | HomeNetwork.

Inductive special_zone : str -> treatment -> Prop :=
(** RFC 6761, 6.1: private addresses 10/8, 172.16/12 and 192.168/16 *)
| sz_10 : special_zone $"10.in-addr.arpa" NoSuchName
| sz_172 n : (16 <= n <= 31)%N -> special_zone (print_dec n ++ $".172.in-addr.arpa") NoSuchName
| sz_192 : special_zone $"168.192.in-addr.arpa" NoSuchName
(** RFC 6761, 6.2 to 6.4 *)
| sz_test : special_zone $"test" NoSuchName
| sz_localhost : special_zone $"localhost" Loopback
| sz_invalid : special_zone $"invalid" NoSuchName
(** RFC 6762: multicast DNS and link-local addresses (169.254/16 and fe80::/10) *)
| sz_local : special_zone $"local" NoSuchName
| sz_169 : special_zone $"254.169.in-addr.arpa" NoSuchName
| sz_fe80 c : In c ["8"; "9"; "a"; "b"]%char -> special_zone (c :: $".e.f.ip6.arpa") NoSuchName
(** RFC 6762, appendix G *)
| sz_private n : In n [$"intranet"; $"internal"; $"private"; $"corp"; $"home"; $"lan"] -> special_zone n PrivateUse
(** RFC 7686 *)
| sz_onion : special_zone $"onion" NoSuchName
(** RFC 8375 *)
| sz_home_arpa : special_zone $"home.arpa" HomeNetwork.

(** The query is for a name in a special zone with the given treatment. *)
Definition special (q : question) (t : treatment) : Prop :=
  exists raw n z, q_name q = raw ++ $"." /\ lowered raw n /\ special_zone z t /\ same_or_sub n z.

(** A reply to [req] (whose first question is [q]) made by blocky itself. *)
Definition own_reply (req : request) (q : question) (rcode : N) (ans : list rr) : msg :=
  let query := (m_opcode (req_msg req) =? 0)%N in
  {| m_id := m_id (req_msg req); m_response := true; m_opcode := m_opcode (req_msg req);
     m_aa := false; m_tc := false; m_rd := query && m_rd (req_msg req); m_ra := false; m_zero := false;
     m_ad := false; m_cd := query && m_cd (req_msg req); m_rcode := rcode;
     m_question := [q]; m_answer := ans; m_ns := []; m_extra := [] |}.

(** What must be answered locally; [priv]: names for private use are handled. *)
Definition local_answer (priv : bool) (req : request) (q : question) (m : msg) : Prop :=
  let nx := m = own_reply req q 3 [] in
  (special q NoSuchName /\ nx) \/
  (special q PrivateUse /\ priv = true /\ nx) \/
  (special q HomeNetwork /\ q_type q <> 43%N /\ nx) \/
  (special q Loopback /\
   ((q_type q = 1%N /\ exists a, a = {| rr_name := q_name q; rr_type := 1; rr_class := 1; rr_ttl := 0; rr_data := DA (IP4 [127;0;0;1]%N) |} /\
       m = own_reply req q 0 [a]) \/
    (q_type q = 28%N /\ exists a, a = {| rr_name := q_name q; rr_type := 28; rr_class := 1; rr_ttl := 0;
                                        rr_data := DAAAA (IP6 (repeat 0%N 15 ++ [1%N])) |} /\
       m = own_reply req q 0 [a]) \/
    (q_type q <> 1%N /\ q_type q <> 28%N /\ nx))).

(** ** Extended errors: the code of RFC 8914 for each kind of response that has one. *)
Inductive ede_code : rtype -> N -> Prop :=
| ec_cached : ede_code CACHED 13          (* Cached Error *)
| ec_conditional : ede_code CONDITIONAL 4 (* Forged Answer *)
| ec_custom : ede_code CUSTOMDNS 4
| ec_hosts : ede_code HOSTSFILE 4
| ec_notfqdn : ede_code NOTFQDN 15        (* Blocked *)
| ec_blocked : ede_code BLOCKED 15
| ec_filtered : ede_code FILTERED 17      (* Filtered *)
| ec_special : ede_code SPECIAL 17.

(** Specification of EDNS0 options: [option_in m o] — the OPT record in force (the last
    one of the additional section) holds [o]. *)
Definition opt_in_force (m : msg) (o : rr) : Prop :=
  exists pre post, m_extra m = pre ++ o :: post /\ rr_type o = 41%N /\ forall x, In x post -> rr_type x <> 41%N.
Definition options_of (m : msg) (l : list eopt) : Prop := exists o, opt_in_force m o /\ rr_data o = DOPT l.
Definition has_option (m : msg) (o : eopt) : Prop := exists l, options_of m l /\ In o l.
