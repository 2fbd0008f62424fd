(** The HTTP server: server/http.go, the routes of server/server_endpoints.go and api/api_server.gen.go, metrics/metrics.go.

    Of go-chi/chi the search for a route is modelled as far as these routes need it: texts without a parameter come before a parameter for one
    part of the path, and these before the rest of a path; of several handlers for the same method and pattern the last one registered counts.
    Of go-chi/cors the options set in server/http.go:83-90 are modelled.  Of the handlers behind /debug and /static only the path is kept. *)
From Coq Require Import String Ascii List Arith Bool NArith ZArith.
From Verif Require Import Str Num Dns Resolver Server.
Import ListNotations.
Open Scope list_scope.

(** ** Routes *)

(** Handlers: the operations of the REST interface (api/api_server.gen.go:306-323), and those of server/server_endpoints.go:56-65 and 175-193 *)
Inductive api_op := ODisable | OEnable | OStatus | OFlush | ORefresh | OQuery.
(** server/server_endpoints.go:56-65, 175-193, with the part of the path which the handler gets *)
Inductive http_handler := HApi (o : api_op) | HDebug (rest : str) | HDocs | HStatic (rest : str) | HRoot | HMetrics | HDohGet (id : str) | HDohPost (id : str).

(** Patterns: a text, a text with one parameter at its end ({clientID}), a text with anything after it (the star) -- server/server_endpoints.go:56-65, 206 *)
Inductive pattern := PText (p : str) | PParam (front : str) | PRest (front : str).

(** A registration: the method (None: all of them), the pattern, and the handler for the value of the parameter -- server/server_endpoints.go:56-65 *)
Record route := { rt_method : option str; rt_pattern : pattern; rt_handler : str -> http_handler }.

(** Router.Get, Router.Post -- server/server_endpoints.go:59-64 *)
Definition get (p : str) (h : http_handler) : route := {| rt_method := Some $"GET"; rt_pattern := PText p; rt_handler := fun _ => h |}.
(** Router.Post -- server/server_endpoints.go:62 *)
Definition post (p : str) (h : http_handler) : route := {| rt_method := Some $"POST"; rt_pattern := PText p; rt_handler := fun _ => h |}.

(** api/api_server.gen.go:306-323 with the base /api of api/api_interface_impl.go:59 *)
Definition api_routes : list route :=
  [get $"/api/blocking/disable" (HApi ODisable); get $"/api/blocking/enable" (HApi OEnable); get $"/api/blocking/status" (HApi OStatus);
   post $"/api/cache/flush" (HApi OFlush); post $"/api/lists/refresh" (HApi ORefresh); post $"/api/query" (HApi OQuery)].

(** config/metrics.go:6-9 Metrics *)
Record metrics_conf := { mc_enable : bool; mc_path : str }.

(** server/server_endpoints.go:56-65 registerDoHEndpoints *)
Definition doh_routes : list route :=
  [get $"/dns-query" (HDohGet []); get $"/dns-query/" (HDohGet []);
   {| rt_method := Some $"GET"; rt_pattern := PParam $"/dns-query/"; rt_handler := HDohGet |};
   post $"/dns-query" (HDohPost []); post $"/dns-query/" (HDohPost []);
   {| rt_method := Some $"POST"; rt_pattern := PParam $"/dns-query/"; rt_handler := HDohPost |}].

(** server/server_endpoints.go:175-193 createHTTPRouter with 195-210, 270-272 and metrics/metrics.go:22-29 Start, then server/server.go:162
    registerDoHEndpoints.  None: chi panics, the pattern does not start with a slash.  Paths of the metrics with braces or stars, which chi reads
    as parameters, are not modelled. *)
Definition http_routes (c : metrics_conf) : option (list route) :=
  let before := api_routes ++
    [{| rt_method := None; rt_pattern := PText $"/debug"; rt_handler := fun _ => HDebug [] |};
     {| rt_method := None; rt_pattern := PText $"/debug/"; rt_handler := fun _ => HDebug [] |};
     {| rt_method := None; rt_pattern := PRest $"/debug/"; rt_handler := HDebug |};
     get $"/docs/openapi.yaml" HDocs;
     {| rt_method := None; rt_pattern := PRest $"/static/"; rt_handler := HStatic |};
     get $"/" HRoot] in
  if mc_enable c then
    if has_prefix (mc_path c) $"/"
    then Some (before ++ [{| rt_method := None; rt_pattern := PText (mc_path c); rt_handler := fun _ => HMetrics |}] ++ doh_routes)
    else None
  else Some (before ++ doh_routes).

(** ** Search *)

(** Does a path match a pattern, and with which value?  go-chi/chi (server/server_endpoints.go:176): a parameter is not empty and has no slash *)
Definition pattern_value (p : pattern) (path : str) : option str :=
  match p with
  | PText t => if str_eqb path t then Some [] else None
  | PParam front =>
      if has_prefix path front then
        let v := skipn (length front) path in
        match v with [] => None | _ => if contains_byte "/" v then None else Some v end
      else None
  | PRest front => if has_prefix path front then Some (skipn (length front) path) else None
  end.

(** Which kind of pattern comes first -- go-chi/chi (server/server_endpoints.go:176) *)
Definition pattern_rank (p : pattern) : nat := match p with PText _ => 0 | PParam _ => 1 | PRest _ => 2 end.

(** go-chi/chi: the handler of a method for patterns of one kind, the last one registered (server/server_endpoints.go:176) *)
Fixpoint best (rank : nat) (method path : str) (rs : list route) : option http_handler :=
  match rs with
  | [] => None
  | r :: rs =>
      match best rank method path rs with
      | Some h => Some h
      | None =>
          if (pattern_rank (rt_pattern r) =? rank) && match rt_method r with Some m => str_eqb m method | None => true end
          then option_map (rt_handler r) (pattern_value (rt_pattern r) path)
          else None
      end
  end.

(** go-chi/chi: outcome of the search (server/server_endpoints.go:176) *)
Inductive routed := Found (h : http_handler) | NotAllowed | NotFound.

(** go-chi/chi methodMap: the methods it knows (server/server_endpoints.go:176) *)
Definition known_methods : list str := [$"CONNECT"; $"DELETE"; $"GET"; $"HEAD"; $"OPTIONS"; $"PATCH"; $"POST"; $"PUT"; $"TRACE"].

(** go-chi/chi routeHTTP and findRoute (server/server_endpoints.go:176) *)
Definition find_route (rs : list route) (method path : str) : routed :=
  if existsb (str_eqb method) known_methods then
    match best 0 method path rs with
    | Some h => Found h
    | None => match best 1 method path rs with
        | Some h => Found h
        | None => match best 2 method path rs with
            | Some h => Found h
            | None => if existsb (fun r => match pattern_value (rt_pattern r) path with Some _ => true | None => false end) rs then NotAllowed else NotFound
            end
        end
    end
  else NotAllowed.

(** ** Requests *)

(** net/http Request, as far as it is used; [rq_raw] is URL.RawPath, set if the path is not written in the usual way; a header which is missing is
    empty -- server/http.go:68-79 *)
Record http_req := { rq_tls : bool; rq_method : str; rq_raw : str; rq_path : str; rq_header : str -> str }.

(** go-chi/chi routeHTTP: the path which is searched for (server/http.go:52-64) *)
Definition route_path (r : http_req) : str :=
  match rq_raw r with [] => match rq_path r with [] => $"/" | p => p end | p => p end.

(** server/http.go:68-79 secureHeadersMiddleware *)
Definition secure_headers (r : http_req) : list (str * str) :=
  if rq_tls r then
    [($"strict-transport-security", $"max-age=63072000"); ($"x-frame-options", $"DENY"); ($"x-content-type-options", $"nosniff");
     ($"x-xss-protection", $"1; mode=block")]
  else [].

(** *** go-chi/cors with the options of server/http.go:81-93 *)

(** Character in lower case is written in upper case -- go-chi/cors (server/http.go:92) *)
Definition upper_char (c : ascii) : ascii := let n := N_of_ascii c in if ((97 <=? n) && (n <=? 122))%N then ascii_of_N (n - 32) else c.
(** Character in upper case is written in lower case -- go-chi/cors (server/http.go:92) *)
Definition lower_char (c : ascii) : ascii := let n := N_of_ascii c in if ((65 <=? n) && (n <=? 90))%N then ascii_of_N (n + 32) else c.
(** Letter -- go-chi/cors (server/http.go:92) *)
Definition is_letter (c : ascii) : bool := let n := N_of_ascii c in (((65 <=? n) && (n <=? 90)) || ((97 <=? n) && (n <=? 122)))%N.
(** Other character of a name -- go-chi/cors (server/http.go:92) *)
Definition is_name_char (c : ascii) : bool := let n := N_of_ascii c in ((48 <=? n) && (n <=? 57))%N || Ascii.eqb c "-" || Ascii.eqb c "_" || Ascii.eqb c ".".

(** go-chi/cors parseHeaderList (server/http.go:92): names with the usual capital letters; other characters are dropped *)
Fixpoint header_list_from (h : str) (upper : bool) (s : str) : list str :=
  match s with
  | [] => match h with [] => [] | _ => [h] end
  | b :: s =>
      let h := if is_letter b then h ++ [if upper then upper_char b else lower_char b] else if is_name_char b then h ++ [b] else h in
      if Ascii.eqb b " " || Ascii.eqb b "," then
        match h with [] => header_list_from [] upper s | _ => h :: header_list_from [] true s end
      else header_list_from h (Ascii.eqb b "-" || Ascii.eqb b "_" || Ascii.eqb b ".") s
  end.
(** go-chi/cors parseHeaderList (server/http.go:92) *)
Definition header_list (s : str) : list str := header_list_from [] true s.

(** server/http.go:86 AllowedHeaders in their usual form, and Origin, which go-chi/cors adds *)
Definition allowed_headers : list str := [$"Accept"; $"Authorization"; $"Content-Type"; $"X-Csrf-Token"; $"Origin"].
(** server/http.go:87 AllowedMethods *)
Definition allowed_methods : list str := [$"GET"; $"POST"].

(** go-chi/cors isMethodAllowed (server/http.go:92) *)
Definition method_allowed (m : str) : bool := let m := map upper_char m in str_eqb m $"OPTIONS" || existsb (str_eqb m) allowed_methods.

(** go-chi/cors handleActualRequest (server/http.go:92) *)
Definition cors_actual (r : http_req) : list (str * str) :=
  ($"Vary", $"Origin") ::
  match rq_header r $"Origin" with
  | [] => []
  | _ => if method_allowed (rq_method r)
         then [($"Access-Control-Allow-Origin", $"*"); ($"Access-Control-Expose-Headers", $"Link"); ($"Access-Control-Allow-Credentials", $"true")]
         else []
  end.

(** server/http.go:84, 92: the age in seconds *)
Definition cors_max_age : str := $"300".

(** go-chi/cors handlePreflight (server/http.go:92) *)
Definition cors_preflight (r : http_req) : list (str * str) :=
  [($"Vary", $"Origin"); ($"Vary", $"Access-Control-Request-Method"); ($"Vary", $"Access-Control-Request-Headers")] ++
  match rq_header r $"Origin" with
  | [] => []
  | _ =>
      let m := rq_header r $"Access-Control-Request-Method" in
      let hs := header_list (rq_header r $"Access-Control-Request-Headers") in
      if method_allowed m && forallb (fun h => existsb (str_eqb h) allowed_headers) hs then
        [($"Access-Control-Allow-Origin", $"*"); ($"Access-Control-Allow-Methods", map upper_char m)] ++
        match hs with [] => [] | _ => [($"Access-Control-Allow-Headers", join $", " hs)] end ++
        [($"Access-Control-Allow-Credentials", $"true"); ($"Access-Control-Max-Age", cors_max_age)]
      else []
  end.

(** What is done with a request: the answer to a preflight, or what the router found -- server/http.go:52-64 *)
Inductive outcome := Preflight | Routed (x : routed).

(** server/http.go:52-64 withCommonMiddleware: the headers and what is done.  The outer router has one pattern for everything which starts with a
    slash and all known methods. *)
Definition serve_http (rs : list route) (r : http_req) : list (str * str) * outcome :=
  if str_eqb (rq_method r) $"OPTIONS" && negb (str_eqb (rq_header r $"Access-Control-Request-Method") [])
  then (secure_headers r ++ cors_preflight r, Preflight)
  else (secure_headers r ++ cors_actual r,
        Routed (if existsb (str_eqb (rq_method r)) known_methods
                then if has_prefix (route_path r) $"/" then find_route rs (rq_method r) (route_path r) else NotFound
                else NotAllowed)).

(** ** DNS over HTTPS behind the router *)
Section Doh.
Variable L : lengths.
Variable unpack : list N -> option msg.
Variable pack_ok : msg -> bool.
Variable parse_ip : str -> option ip.
Variable c : request -> msg * chain_result.

(** server/server_endpoints.go:67-113 with chi.URLParam (server/server.go:490): the requests that are resolved, and the answer if it is one of
    these handlers; [param], [body]: of the request *)
Definition doh_serve (h : http_handler) (host forwarded remote content_type : str) (param : option str) (body : option (list N)) : list request * option http_answer :=
  match h with
  | HDohGet id =>
      let '(rs, a) := doh_get L unpack pack_ok parse_ip c param {| h_host := host; h_client_id := id; h_forwarded := forwarded; h_remote := remote |} in (rs, Some a)
  | HDohPost id =>
      let '(rs, a) := doh_post L unpack pack_ok parse_ip c content_type body {| h_host := host; h_client_id := id; h_forwarded := forwarded; h_remote := remote |} in (rs, Some a)
  | _ => ([], None)
  end.
End Doh.

(** ** The start page *)

(** server/server_endpoints.go:231-253: the links, with their titles *)
Definition root_links (c : metrics_conf) : list (str * str) :=
  [($"/docs/openapi.yaml", $"Rest API Documentation (OpenAPI)"); ($"/static/rapidoc.html", $"Interactive Rest API Documentation (RapiDoc)");
   ($"/debug/", $"Go Profiler")] ++
  if mc_enable c then [(mc_path c, $"Prometheus endpoint")] else [].

(** ** Time limits *)

(** config/config.go:407-414 Downloader *)
Record downloader_conf := { dc_timeout : Z; dc_read : Z; dc_read_header : Z; dc_write : Z; dc_attempts : N; dc_cooldown : Z }.
(** net/http Server's limits -- server/http.go:29-31 *)
Record http_limits := { hm_read : Z; hm_read_header : Z; hm_write : Z }.
(** server/http.go:20-37 newHTTPServer *)
Definition http_server_limits (d : downloader_conf) : http_limits :=
  {| hm_read := dc_read d; hm_read_header := dc_read_header d; hm_write := dc_write d |}.
(** lists/downloader.go:45-54, 86-88: what a download uses of the same options: the limit of a request, the attempts and the pause *)
Record download_limits := { dl_timeout : Z; dl_attempts : N; dl_cooldown : Z }.
(** lists/downloader.go:45-54, 86-88 newDownloader *)
Definition downloader_limits (d : downloader_conf) : download_limits :=
  {| dl_timeout := dc_timeout d; dl_attempts := dc_attempts d; dl_cooldown := dc_cooldown d |}.
