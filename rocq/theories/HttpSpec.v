(** What the HTTP server should do with requests; what a browser does with the answers. *)
From Coq Require Import String Ascii List Arith Bool NArith ZArith.
From Verif Require Import Str Http.
Import ListNotations.
Open Scope list_scope.

Definition any_method (m : str) : Prop := In m [$"CONNECT"; $"DELETE"; $"GET"; $"HEAD"; $"OPTIONS"; $"PATCH"; $"POST"; $"PUT"; $"TRACE"].

(** The path is that of the metrics. *)
Definition is_metrics (c : metrics_conf) (p : str) : Prop := mc_enable c = true /\ p = mc_path c.

(** Which handler serves which method and path. *)
Inductive serves (c : metrics_conf) : str -> str -> http_handler -> Prop :=
| s_doh_get p : In p [$"/dns-query"; $"/dns-query/"] -> serves c $"GET" p (HDohGet [])
| s_doh_post p : In p [$"/dns-query"; $"/dns-query/"] -> serves c $"POST" p (HDohPost [])
| s_doh_get_id id : id <> [] -> ~ In "/"%char id -> ~ is_metrics c ($"/dns-query/" ++ id) -> serves c $"GET" ($"/dns-query/" ++ id) (HDohGet id)
| s_doh_post_id id : id <> [] -> ~ In "/"%char id -> ~ is_metrics c ($"/dns-query/" ++ id) -> serves c $"POST" ($"/dns-query/" ++ id) (HDohPost id)
| s_metrics m p : any_method m -> is_metrics c p -> ~ (In m [$"GET"; $"POST"] /\ In p [$"/dns-query"; $"/dns-query/"]) -> serves c m p HMetrics
| s_api m p o : In (m, p, o) [($"GET", $"/api/blocking/disable", ODisable); ($"GET", $"/api/blocking/enable", OEnable); ($"GET", $"/api/blocking/status", OStatus);
    ($"POST", $"/api/cache/flush", OFlush); ($"POST", $"/api/lists/refresh", ORefresh); ($"POST", $"/api/query", OQuery)] ->
    ~ is_metrics c p -> serves c m p (HApi o)
| s_docs : ~ is_metrics c $"/docs/openapi.yaml" -> serves c $"GET" $"/docs/openapi.yaml" HDocs
| s_root : ~ is_metrics c $"/" -> serves c $"GET" $"/" HRoot
| s_debug_bare m : any_method m -> ~ is_metrics c $"/debug" -> serves c m $"/debug" (HDebug [])
| s_debug m rest : any_method m -> ~ is_metrics c ($"/debug/" ++ rest) -> serves c m ($"/debug/" ++ rest) (HDebug rest)
| s_static m rest : any_method m -> ~ is_metrics c ($"/static/" ++ rest) -> serves c m ($"/static/" ++ rest) (HStatic rest).

(** The configured path can be used: it starts with a slash. *)
Definition usable (c : metrics_conf) : Prop := mc_enable c = true -> exists rest, mc_path c = "/"%char :: rest.

(** ** Browsers (the Fetch standard) *)

(** The value of a header, if it is there once. *)
Definition header_is (hs : list (str * str)) (name value : str) : Prop := In (name, value) hs /\ forall v, In (name, v) hs -> v = value.
Definition header_absent (hs : list (str * str)) (name : str) : Prop := forall v, ~ In (name, v) hs.

(** CORS check: may a page of [origin] read an answer with these headers? *)
Inductive may_read (origin : str) (credentials : bool) (hs : list (str * str)) : Prop :=
| mr_any : credentials = false -> header_is hs $"Access-Control-Allow-Origin" $"*" -> may_read origin credentials hs
| mr_origin : header_is hs $"Access-Control-Allow-Origin" origin -> (credentials = true -> header_is hs $"Access-Control-Allow-Credentials" $"true") ->
    may_read origin credentials hs.

(** A request which a page sends from the browser has its origin. *)
Definition from_page (origin : str) (r : http_req) : Prop := origin <> [] /\ origin <> $"*" /\ rq_header r $"Origin" = origin.

(** The answer to a preflight lets the page send method [m] and the header names [names] (in lower case). *)
Definition lower (s : str) : str := map lower_char s.
Definition may_send (origin m : str) (names : list str) (hs : list (str * str)) : Prop :=
  may_read origin false hs /\
  (In m [$"GET"; $"HEAD"; $"POST"] \/ header_is hs $"Access-Control-Allow-Methods" m) /\
  forall n, In n names -> exists l, header_is hs $"Access-Control-Allow-Headers" (join $", " l) /\ In n (map lower l).

(** Names of headers as browsers send them: lower case letters, digits and some signs. *)
Definition name_char (c : ascii) : Prop := let n := N_of_ascii c in ((97 <= n /\ n <= 122) \/ (48 <= n /\ n <= 57))%N \/ In c ["-"%char; "_"%char; "."%char].
Definition sent_name (n : str) : Prop := n <> [] /\ Forall name_char n.

(** A question of the page's browser: may the page send a request with this method and these headers? *)
Definition asks_for (origin m : str) (names : list str) (r : http_req) : Prop :=
  from_page origin r /\ rq_method r = $"OPTIONS" /\ m <> [] /\ rq_header r $"Access-Control-Request-Method" = m /\
  rq_header r $"Access-Control-Request-Headers" = join $"," names /\ Forall sent_name names.

(** A method without lower case letters. *)
Definition upper_case (m : str) : Prop := Forall (fun c => ~ (97 <= N_of_ascii c /\ N_of_ascii c <= 122)%N) m.
