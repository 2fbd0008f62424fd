(** What users expect from the configuration, seen at the server. *)
From Coq Require Import String Ascii List Arith Bool NArith ZArith Permutation.
From Verif Require Import Str StringCacheSpec ParsersSpec Target Download DownloadSpec Dns Resolver Blocking BlockingSpec
  Custom CustomSpec CustomProps Rewriter RewriterSpec RewriterProps QueryLog Hosts HostsSpec HostsProps Chain ChainSpec RedisSpec.
Import ListNotations.

(** ** Lists *)

(** What the text of a source stands for. *)
Inductive source_text : str -> Target.source -> Prop :=
| st_inline s : In "010"%char s -> source_text s (SText s)
| st_link t : ~ In "010"%char t -> source_text ($"http" ++ t) (SHttp ($"http" ++ t))
| st_file_url p : ~ In "010"%char p -> source_text ($"file://" ++ p) (SFile p)
| st_file s : ~ In "010"%char s -> (forall t, s <> $"http" ++ t) -> (forall t, s <> $"file://" ++ t) -> source_text s (SFile s).

Section Lists.
Variable compile : str -> option (str -> bool).
Variable parse_ip to_ascii : str -> option str.
Variable compiles : str -> bool.
Variable file : str -> option (list str * Parsers.scan_end).
Variable net : str -> nat -> answer.
Variable attempts : N.

(** The source with the text [s] can be read, and has the lines [ls]. *)
Definition has_lines (s : str) (ls : list str) : Prop := exists src, source_text s src /\ readable file net attempts src ls.

(** The name [n] is on a list of the group [g]. *)
Definition on_list (sources : list (str * list str)) (g n : str) : Prop :=
  exists srcs s ls e, In (g, srcs) sources /\ In s srcs /\ has_lines s ls /\ written parse_ip to_ascii compiles ls e /\
    entry_matches compile e n.

(** All sources can be read, with not too many errors, and none has the entry "/", which makes the program panic (C03). *)
Definition good_sources (limit : Z) (sources : list (str * list str)) : Prop :=
  forall g srcs s, In (g, srcs) sources -> In s srcs -> exists ls, has_lines s ls /\
    few_errors parse_ip to_ascii compiles limit ls /\ ~ written parse_ip to_ascii compiles ls $"/".
End Lists.

(** ** Queries *)

(** No rewriting rule is about the name. *)
Definition no_rule (rules : list (str * str)) (n : str) : Prop := forall p k v, ~ RewriterSpec.applies rules n p k v.

Section Queries.
Context {U : Type}.
Variable w : world U.
(** the entries of the hosts files *)
Variable es : list host_entry.

(** The query [q] for the name [n] passes the filter of types and the check for full names. *)
Definition let_through (q : question) (n : str) : Prop := ~ In (q_type q) (w_filter w) /\ (w_fqdn w = true -> In "."%char n).
(** No custom domain covers the name, and no custom rewriting rule is about it. *)
Definition not_custom (q : question) (n : str) : Prop := (forall d, ~ covers (w_custom w) q d) /\ no_rule (w_custom_rules w) n.
(** The hosts files have no address for it. *)
Definition not_hosts (q : question) (n : str) : Prop := hf_enabled (w_hosts w) = true -> forall a, ~ resolves (q_type q) es n a.

(** The resolvers before the lists are as the code makes them from the configuration. *)
Definition made : Prop :=
  (forall rq r, exists T privacy cfg inst instant start ms, w_entry w rq r = create_log_entry T privacy cfg inst instant start ms rq r) /\
  order_of (w_custom w) (w_records w) /\ 0 < w_fuel w /\
  (w_custom_rules w <> [] -> distinct_rules (w_custom_rules w) /\ iterates (w_custom_rules w) (w_custom_iter w)) /\
  (hf_enabled (w_hosts w) = true -> table_means (w_table w) es).

(** With metrics, the names of the client are to be valid UTF-8 (C108). *)
Definition labels_ok (arr : request) : Prop := w_metrics w = true -> Forall valid_utf8 (req_names arr).

(** The query [req] with the question [q] for the name [n] (other than a reverse lookup) gets as [arr] to the resolvers that answer. *)
Definition arrives (req : request) (q : question) (n : str) (arr : request) : Prop :=
  m_question (req_msg req) = [q] /\ plain_name (q_name q) n /\ q_type q <> 12%N /\ let_through q n /\ prepared w req arr /\ labels_ok arr.

(** The additional records of an answer which is explained with this code and text. *)
Definition explanation (code : N) (reason : str) : list rr :=
  if w_ede w then [{| rr_name := $"."; rr_type := 41; rr_class := 0; rr_ttl := 0; rr_data := DOPT [EOEde code reason] |}] else [].

(** [m] is an answer of the program itself to [req]. *)
Definition own_answer (req : request) (q : question) (code : N) (reason : str) (rcode : N) (ans : list rr) (m : msg) : Prop :=
  m_id m = m_id (req_msg req) /\ m_response m = true /\ m_question m = [q] /\ m_rcode m = rcode /\ m_answer m = ans /\ m_ns m = [] /\
  m_extra m = explanation code reason.
End Queries.

(** ** Answers on the wire *)

(** [m'] is the message [m] as it is sent: cut off only with the TC bit. *)
Definition sent (m m' : msg) : Prop :=
  m_id m' = m_id m /\ m_response m' = m_response m /\ m_rcode m' = m_rcode m /\ m_question m' = m_question m /\
  (exists k, m_answer m' = firstn k (m_answer m)) /\ (exists k, m_ns m' = firstn k (m_ns m)) /\
  (m_tc m' = false -> m_answer m' = m_answer m /\ m_ns m' = m_ns m /\ Permutation (m_extra m') (m_extra m)).
