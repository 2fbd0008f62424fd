(** Where the texts of the lines of the log come from (C160), stated without the functions of Trace.v. *)
From Coq Require Import String Ascii List Arith Bool NArith ZArith.
From Verif Require Import Str Num Dns Resolver Ecs QueryLog QueryLogSpec Chain Trace.
From Verif Require LogOut.
Import ListNotations.
Open Scope list_scope.

(** A text without letters and digits: it says no more than the length and the punctuation of what it stands for. *)
Definition hides (s : str) : Prop := forall c, In c s -> ~ letter_or_digit c.

(** The texts which are written in the code. *)
Definition code_texts : list str :=
  [$"new incoming request"; $"UDP"; $"TCP"; $"query has no questions"; $"error on processing request:"; $"panic occurred: ";
   $"can't write message: "; $"unsupported customDNS RR type";
   $"using request's edns0 address as internal client IP: "; $"set edns0 subnet option address: "; $"remove edns0 subnet option";
   $"can't resolve client name: "; $"resolved client name(s) from external resolver";
   $"ignored querylog entry"; $"query resolved"; $"query log writer is too slow, log entry will be dropped";
   $"0.0.0.0"; $"none"; $"queryLog";
   $"returning custom dns entry"; $"rewriting "; $" to "; $"returning hosts file entry";
   $"domain is allowlisted"; $"blocking request 'BLOCKED (ALLOWLIST ONLY)'"; $"blocking request 'BLOCKED ("; $"blocking request 'BLOCKED ";
   $"IP"; $"CNAME"; $" is allowlisted"; $"checking groups for request";
   $"can't unpack cached entry. Cache malformed?"; $"domain is cached"; $"error on packing"; $"skip cache";
   $"received response from conditional upstream"; $"delegating to resolver"; $"client matches multiple groups"; $", retrying...";
   $"received response from upstream"; $"resolution failed from resolver, cause: "; $"using response from resolver";
   $"using "; $" as second resolver"; $" as resolver"; $"can't choose random weighted resolver, falling back to uniform random";
   $"can't close response body ";
   $"NOTFQDN"; $"CUSTOM DNS"; $"HOSTS FILE"; $"BLOCKED ("; $"BLOCKED "; $"BLOCKED (ALLOWLIST ONLY)"; $"CACHED"; $"CACHED NEGATIVE";
   $"CONDITIONAL"; $"Special-Use Domain Name"; $"prefetching '"; $"unable to pack response"].

(** A text put together from texts of [O], texts of the code and texts without letters and digits. *)
Inductive built (O : str -> Prop) : str -> Prop :=
| built_nil : built O []
| built_out a b : O a -> built O b -> built O (a ++ b)
| built_code a b : In a code_texts -> built O b -> built O (a ++ b)
| built_hidden a b : hides a -> built O b -> built O (a ++ b).

(** The fields of a line besides [but]. *)
Definition clean_but (O : str -> Prop) (but : list str) (l : line) : Prop :=
  built O (ln_text l) /\ forall k v, In (k, v) (ln_fields l) -> ~ In k but -> built O v.
(** A line which shows nothing else. *)
Definition clean (O : str -> Prop) (l : line) : Prop := built O (ln_text l) /\ forall k v, In (k, v) (ln_fields l) -> built O v.

(** The addresses of the client: that of the connection, that in the EDNS client subnet option, and their networks. *)
Inductive client_address (req : request) : option ip -> Prop :=
| ca_connection : client_address req (req_ip req)
| ca_subnet family mask scope a : get_edns0_option 8 (req_msg req) = Some (EOSubnet family mask scope a) -> client_address req a
| ca_network i m j : client_address req (Some i) -> mask_ip i m = Some j -> client_address req (Some j).

(** The texts in what happens at the upstreams: names and addresses of upstreams, errors, names of the client and of groups,
    numbers. *)
Definition event_texts (e : up_event) : list str :=
  match e with
  | UDelegate r | USecond r | UStrict r | UUsing r _ => [r]
  | UMany a b c => [a; b; c]
  | URetry a b c d => [a; b; c; d]
  | UReceived a b c d e f _ => [a; b; c; d; e; f]
  | UFailed a b => [a; b]
  | UChoose e | UClose e => [e]
  end.

(** [O] has the texts which come from outside of the query and of the data of custom DNS, hosts files, lists and answers. *)
Record public {U} (T : texts) (w : world U) (x : outside U) (req : request) (O : str -> Prop) : Prop := {
  pu_id : O (x_req_id x);
  pu_client_id : O (req_client_id req);
  pu_number n : O (print_dec n);
  pu_address i : client_address req i -> O (ip_text T i);
  pu_type t : O (type_text T t);
  pu_rcode c : O (rcode_text T c);
  pu_rtype t : O (rtype_text T t);
  pu_names r n : In n (w_names w r) -> O n;
  pu_lookup_err r e : x_lookup x r = Some (inl e) -> O e;
  pu_lookup_names r ns n : x_lookup x r = Some (inr ns) -> In n ns -> O n;
  pu_lookup_events r e a : In e (x_lookup_events x r) -> In a (event_texts e) -> O a;
  pu_cond_events u r e a : In e (x_cond_events x u r) -> In a (event_texts e) -> O a;
  pu_tree_events r e a : In e (x_tree_events x r) -> In a (event_texts e) -> O a;
  pu_upstream u : O (x_upstream_text x u);
  pu_quote s : hides s -> O (x_quote x s);
  pu_group_deny d gs g : In g (w_deny w d gs) -> O g;
  pu_group_allow d gs g : In g (w_allow w d gs) -> O g;
  pu_group_client i p g : In p (w_blk_iter w i) -> In g (snd p) -> O g;
  pu_unpack i e : x_unpack x i = Some e -> O e;
  pu_pack i e : x_pack x i = Some e -> O e;
  pu_panic : O (x_panic x);
  pu_write e : x_write x = Some e -> O e;
  pu_reason r p : w_upstream w r = Some (Ok p) -> O (rs_reason p);
  pu_error r e : w_upstream w r = Some (Err e) -> O e;
  pu_ask_error u r e : w_ask w u r = Some (Err e) -> O e }.

(** The entries of the query log are made with log.privacy on; the instance name is a text of [O]. *)
Definition entries_hidden {U} (T : texts) (w : world U) (x : outside U) (O : str -> Prop) : Prop :=
  forall rq r, exists inst instant start ms, O inst /\ w_entry w rq r = create_log_entry T true (x_log x) inst instant start ms rq r.

(** The lines which show names or answers in plain: they have level debug. *)
Inductive plain (O : str -> Prop) (l : line) : Prop :=
| plain_custom : ln_level l = LogOut.LDebug -> ln_text l = $"returning custom dns entry" -> clean_but O [$"domain"] l -> plain O l
| plain_allowed : ln_level l = LogOut.LDebug -> ln_text l = $"domain is allowlisted" -> clean_but O [$"domain"] l -> plain O l
| plain_blocked r : ln_level l = LogOut.LDebug -> ln_text l = $"blocking request 'BLOCKED " ++ r -> clean_but O [$"domain"] l -> plain O l
| plain_response_allowed t : ln_level l = LogOut.LDebug -> ln_text l = t ++ $" is allowlisted" -> clean_but O [$"response_entry"] l -> plain O l
| plain_response_blocked r : ln_level l = LogOut.LDebug -> ln_text l = $"blocking request 'BLOCKED " ++ r ->
    clean_but O [$"response_entry"] l -> plain O l
| plain_rule a s : ln_level l = LogOut.LDebug -> ln_text l = $"block rule '" ++ a ++ $"' matched with '" ++ s ++ $"'" -> ln_fields l = [] -> plain O l
| plain_regex a s : ln_level l = LogOut.LDebug -> ln_text l = $"regex '" ++ a ++ $"' matched with '" ++ s ++ $"'" -> ln_fields l = [] -> plain O l.

(** The line for custom DNS records which are a CNAME loop: it has level error and shows the names of the loop. *)
Definition loop_line (O : str -> Prop) (l : line) : Prop :=
  ln_level l = LogOut.LError /\
  (exists names, ln_text l = $"error on processing request:CNAME loop detected: [" ++ join $" " names ++ $"]") /\
  forall k v, In (k, v) (ln_fields l) -> built O v.
