(** Specification of the caching resolver. *)
From Coq Require Import String Ascii List Arith Bool NArith ZArith.
From Verif Require Import Str Dns Resolver ExpCache Caching.
Import ListNotations.

(** ** Names *)

(** Equal up to the case of ASCII letters. *)
Definition same_letter (a b : ascii) : Prop :=
  let x := N_of_ascii a in let y := N_of_ascii b in
  (x = y \/ (65 <= x <= 90 /\ y = x + 32) \/ (65 <= y <= 90 /\ x = y + 32))%N.
Definition same_upto_case (a b : str) : Prop := Forall2 same_letter a b.

(** [s] is the name [n] without its final dot (if it has one). *)
Definition without_dot (n s : str) : Prop := n = s ++ $"." \/ (n = s /\ ~ exists x, n = x ++ $".").

(** Same type and same name, up to letter case and the final dot. *)
Definition same_question (q q' : question) : Prop :=
  q_type q = q_type q' /\
  exists s s', without_dot (q_name q) s /\ without_dot (q_name q') s' /\ same_upto_case s s'.

(** The key under which peers exchange answers to [q]: the type in two bytes (high
    byte first), then the lower-case name without the final dot. *)
Definition wire_key (q : question) (k : str) : Prop :=
  exists hi lo s low, k = hi :: lo :: low /\ (q_type q = 256 * N_of_ascii hi + N_of_ascii lo)%N /\
    without_dot (q_name q) s /\ same_upto_case s low /\
    Forall (fun c => ~ (65 <= N_of_ascii c <= 90)%N) low.

(** ** TTLs *)

(** [t] raised to [lo] and then lowered to [hi], where configured (durations in ns,
    non-positive: not configured). *)
Definition clamped (lo hi : Z) (t t' : N) : Prop :=
  let lo_s := Z.to_N (lo / 1000000000) in
  let hi_s := Z.to_N (hi / 1000000000) in
  let raised := if (0 <? lo)%Z then N.max t lo_s else t in
  t' = (if (0 <? hi)%Z then N.min raised hi_s else raised).

(** Same record up to its TTL. *)
Definition same_record (a b : rr) : Prop :=
  rr_name a = rr_name b /\ rr_type a = rr_type b /\ rr_class a = rr_class b /\ rr_data a = rr_data b.

(** The answers of [m'] are those of [m] with clamped TTLs. *)
Definition clamped_answer (c : caching_cfg) (a a' : list rr) : Prop :=
  Forall2 (fun r r' => same_record r r' /\ clamped (cc_min c) (cc_max c) (rr_ttl r) (rr_ttl r')) a a'.

(** [n] is the smallest TTL of the records. *)
Definition smallest_ttl (l : list rr) (n : N) : Prop :=
  (exists r, In r l /\ rr_ttl r = n) /\ forall r, In r l -> (n <= rr_ttl r)%N.

(** How long (ns) a positive answer is kept: the smallest TTL, or the negative-cache
    time when there are no records. *)
Definition lifetime (c : caching_cfg) (a : list rr) (ns : Z) : Prop :=
  (a = [] /\ ns = cc_neg c) \/ (exists n, smallest_ttl a n /\ ns = Z.of_N n * 1000000000)%Z.

(** TTLs of sane size: 31 bits, as RFC 2181 demands. *)
Definition sane_ttls (l : list rr) : Prop := forall r, In r l -> (rr_ttl r <= max_int32)%N.
Definition sane_cfg (c : caching_cfg) : Prop :=
  (cc_min c < 2147483648 * 1000000000 /\ cc_max c < 2147483648 * 1000000000 /\ cc_neg c < 2147483648 * 1000000000)%Z.

(** ** Histories *)

(** The latest call with identifier [id] in [hist] is for [req]. *)
Definition last_start (hist : list event) (id : nat) (req : request) : Prop :=
  exists a now b, hist = a ++ EStart id req now :: b /\ forall r n, ~ In (EStart id r n) b.

(** The latest answer of the next resolver to query [id] is [r]. *)
Definition last_next (hist : list event) (id : nat) (r : result) : Prop :=
  exists a b, hist = a ++ ENext id r :: b /\ (forall r', ~ In (ENext id r') b) /\ (forall q n, ~ In (EStart id q n) b).

(** How an answer gets into the cache. *)
Inductive source := ByQuery (req : request) (q : question) | ByPeer | ByPrefetch.

(** [delivered hist src k m ev t]: event [ev], at time [t] and after [hist], hands the
    answer [m] over to the cache under key [k]: [m] is the answer of the next
    resolver to a client's request with question [q], or what a peer sent, or
    the answer of the next resolver to a prefetch of [k].  *)
Inductive delivered (hist : list event) : source -> str -> msg -> event -> Z -> Prop :=
| by_query id req q k resp m t :
    last_start hist id req -> In q (m_question (req_msg req)) -> wire_key q k ->
    last_next hist id (Ok resp) -> rs_msg resp = Some m -> delivered hist (ByQuery req q) k m (EStore id t) t
| by_peer k m t : delivered hist ByPeer k m (ERemote k m t) t
| by_prefetch k resp m t : In (EReload k (Ok resp)) hist -> rs_msg resp = Some m ->
    delivered hist ByPrefetch k m (EReloadStore k t) t.

(** [cached hist src k m t]: [m] was handed over for [k] at time [t], and the cache
    has not been flushed since. *)
Definition cached (hist : list event) (src : source) (k : str) (m : msg) (t : Z) : Prop :=
  exists before ev after, hist = before ++ ev :: after /\ ~ In EFlush after /\ delivered before src k m ev t.

(** Reply [r] to [req] has the content of message [m]: same return code, same
    records up to TTLs and up to the EDNS record. *)
Definition same_content (m r : msg) : Prop :=
  m_rcode r = m_rcode m /\ Forall2 same_record (m_answer m) (m_answer r) /\ m_ns r = m_ns m /\
  (m_extra r = m_extra m \/ exists a o b, m_extra m = a ++ o :: b /\ rr_type o = type_OPT /\ m_extra r = a ++ b).

(** What is stored under [k]: message and expiry (ms). *)
Definition entry (s : state) (k : str) : option (msg * Z) :=
  match find (fun p => str_eqb k (fst p)) (pf_cache (s_cache s)) with
  | Some (_, e) => Some (cv_element (el_val e), el_expires e)
  | None => None
  end.

(** Types are 16-bit numbers. *)
Definition wf_request (req : request) : Prop :=
  forall q, In q (m_question (req_msg req)) -> (q_type q < 65536)%N.
Definition wf_event (e : event) : Prop :=
  match e with EStart _ req _ => wf_request req | _ => True end.

Definition is_store (e : event) : Prop :=
  match e with EStore _ _ | ERemote _ _ _ | EReloadStore _ _ => True | _ => False end.

(** ** Replies *)

(** The answers served at time [now] for message [m0] cached at time [t] (ms): the
    clamped records; the smallest clamped TTL [n] becomes the remaining time (in
    whole seconds, at least 0) and the differences between the TTLs are kept.
    The equation is over the integers: nothing wraps around. *)
Definition served_answer (c : caching_cfg) (m0 : msg) (t now : Z) (a : list rr) : Prop :=
  exists cl, clamped_answer c (m_answer m0) cl /\
    ((cl = [] /\ a = []) \/
     exists n, smallest_ttl cl n /\
       Forall2 (fun x r => same_record x r /\
         (Z.of_N (rr_ttl r) = Z.of_N (rr_ttl x) - Z.of_N n + Z.max 0 (t + 1000 * Z.of_N n - now) / 1000)%Z) cl a).

(** The additional section without its first EDNS record. *)
Definition without_opt (l l' : list rr) : Prop :=
  (l' = l /\ forall r, In r l -> rr_type r <> type_OPT) \/
  exists a o b, l = a ++ o :: b /\ l' = a ++ b /\ rr_type o = type_OPT /\ forall r, In r a -> rr_type r <> type_OPT.

(** What is kept of [m]: TTLs clamped, no EDNS record. *)
Definition kept (c : caching_cfg) (m m' : msg) : Prop :=
  exists a x, clamped_answer c (m_answer m) a /\ without_opt (m_extra m) x /\ m' = set_extra x (set_answer a m).

(** [m] is to be kept for [ns] nanoseconds. *)
Definition cacheable (c : caching_cfg) (m : msg) (ns : Z) : Prop :=
  (0 < ns)%Z /\
  ((m_rcode m = 0%N /\ m_tc m = false /\ m_cd m = false /\
    exists a, clamped_answer c (m_answer m) a /\ lifetime c a ns) \/
   (m_rcode m = 3%N /\ ns = cc_neg c)).

(** The request carries a client subnet that is not a single host. *)
Definition wide_subnet (m : msg) : Prop :=
  exists fam mask scope addr, get_edns0_option 8 m = Some (EOSubnet fam mask scope addr) /\
    ((fam = 1 /\ mask <> 32) \/ (fam = 2 /\ mask <> 128))%N.
