(** Model of resolver/hosts_file_resolver.go. *)
From Coq Require Import String Ascii List Arith Bool NArith ZArith.
From Verif Require Import Str StringCache Parsers Dns Resolver Arpa.
Import ListNotations.

(** lists/parsers/hosts.go:129-135 HostsFileEntry, with the address itself *)
Record host_entry := { he_ip : ip; he_iface : str; he_name : str; he_aliases : list str }.

(** config/hosts_file.go:9-13 HostsFile: whether there are sources, TTL in seconds,
    filterLoopback, loading.maxErrorsPerSource *)
Record hosts_cfg := { hf_enabled : bool; hf_ttl : N; hf_filter : bool; hf_max_errors : Z }.

(** net.IP.IsLoopback -- resolver/hosts_file_resolver.go:78, 241 *)
Definition is_loopback (i : ip) : bool :=
  match i with
  | IP4 b => match b with x :: _ => (x =? 127)%N | [] => false end
  | IP6 b => byte_list_eqb b [0;0;0;0;0;0;0;0;0;0;0;0;0;0;0;1]%N
  end.

(** hosts_file_resolver.go:295-303 hostsFileData and hostData *)
Record family_data := { fd_hosts : list (str * (ip * list str)); fd_aliases : list (str * ip) }.
(** hosts_file_resolver.go:256-259 splitHostsFileData *)
Record split_data := { sd_v4 : family_data; sd_v6 : family_data }.

(** hosts_file_resolver.go:261-266, 305-310: new, empty maps (the capacity is a hint) *)
Definition empty_family : family_data := {| fd_hosts := []; fd_aliases := [] |}.
(** resolver/hosts_file_resolver.go:305-310 *)
Definition empty_split : split_data := {| sd_v4 := empty_family; sd_v6 := empty_family |}.

(** hosts_file_resolver.go:328-334 hostsFileData.add *)
Definition family_add (d : family_data) (e : host_entry) : family_data :=
  {| fd_hosts := mput str_eqb (he_name e) (he_ip e, he_aliases e) (fd_hosts d);
     fd_aliases := fold_left (fun m a => mput str_eqb a (he_ip e) m) (he_aliases e) (fd_aliases d) |}.

(** hosts_file_resolver.go:287-293 splitHostsFileData.add *)
Definition split_add (d : split_data) (e : host_entry) : split_data :=
  if is_v4 (he_ip e) then {| sd_v4 := family_add (sd_v4 d) e; sd_v6 := sd_v6 d |}
  else {| sd_v4 := sd_v4 d; sd_v6 := family_add (sd_v6 d) e |}.

(** hosts_file_resolver.go:316-326 hostsFileData.getIP *)
Definition family_get (d : family_data) (name : str) : option ip :=
  match mget str_eqb name (fd_hosts d) with
  | Some (i, _) => Some i
  | None => mget str_eqb name (fd_aliases d)
  end.

(** hosts_file_resolver.go:276-285 splitHostsFileData.getIP *)
Definition split_get (d : split_data) (t : N) (name : str) : option ip :=
  if (t =? type_A)%N then family_get (sd_v4 d) name
  else if (t =? type_AAAA)%N then family_get (sd_v6 d) name
  else None.

(** hosts_file_resolver.go:231-245: is an entry passed on by parseFile? *)
Definition keep_entry (cfg : hosts_cfg) (e : host_entry) : bool :=
  match he_iface e with
  | [] => negb (hf_filter cfg && (is_loopback (he_ip e) || str_eqb (he_name e) $"localhost"))
  | _ => false
  end.

Section Load.
(** net.ParseIP with IP.String, as in Parsers.v, and the address with a given text *)
Variable parse_ip : str -> option str.
Variable ip_of_text : str -> ip.
Variable cfg : hosts_cfg.

(** lists/parsers/hosts.go:140-186 with the address itself *)
Definition host_line (data : str) : option host_entry :=
  match hosts_file_line parse_ip data with
  | Some e => Some {| he_ip := ip_of_text (hfe_ip e); he_iface := hfe_interface e;
                      he_name := hfe_name e; he_aliases := hfe_aliases e |}
  | None => None
  end.

(** A source: it cannot be opened, or has lines and a way to end. *)
Inductive source := Unopenable | Lines (ls : list str) (e : scan_end).

(** hosts_file_resolver.go:217-249 parseFile (and opening, 177-186): the entries sent,
    and whether there is an error *)
Definition load_source (s : source) : list host_entry * bool :=
  match s with
  | Unopenable => ([], true)
  | Lines ls e =>
      let '(items, st) := parse_series host_line (hf_max_errors cfg) ls e in
      (filter (keep_entry cfg) items, match st with StopOK => false | _ => true end)
  end.

(** hosts_file_resolver.go:158-215 loadSources; [arrival] is the order in which the
    consumer received the entries of the sources.  Result: the table, and whether there
    was an error. *)
Definition load_sources (sources : list source) (arrival : list host_entry) (old : split_data) : split_data * bool :=
  if negb (hf_enabled cfg) then (old, false)
  else
    let new := fold_left split_add arrival empty_split in
    if existsb (fun s => snd (load_source s)) sources then (old, true) else (new, false).
End Load.

(** hosts_file_resolver.go:212: the assignment copies four references, one by one and
    without lock; a concurrent reader may see, for each, the old or the new one. *)
Definition torn (h4 a4 h6 a6 : bool) (old new : split_data) : split_data :=
  let pick {A} (b : bool) (x y : A) := if b then y else x in
  {| sd_v4 := {| fd_hosts := pick h4 (fd_hosts (sd_v4 old)) (fd_hosts (sd_v4 new));
                 fd_aliases := pick a4 (fd_aliases (sd_v4 old)) (fd_aliases (sd_v4 new)) |};
     sd_v6 := {| fd_hosts := pick h6 (fd_hosts (sd_v6 old)) (fd_hosts (sd_v6 new));
                 fd_aliases := pick a6 (fd_aliases (sd_v6 old)) (fd_aliases (sd_v6 new)) |} |}.

(** The response of the resolver (hosts_file_resolver.go:91-106, 149-153, 131-136) *)
Definition hosts_response (req : request) (ans : list rr) : response :=
  {| rs_msg := Some (set_answer ans (set_reply empty_msg (req_msg req))); rs_reason := $"HOSTS FILE"; rs_type := HOSTSFILE |}.

(** hosts_file_resolver.go:89-108: the loop over the map, in the order [hosts] *)
Fixpoint find_host (hosts : list (str * (ip * list str))) (i : ip) : option (str * list str) :=
  match hosts with
  | [] => None
  | (h, (i', al)) :: hs => if ip_eqb i' i then Some (h, al) else find_host hs i
  end.

(** hosts_file_resolver.go:66-111 handleReverseDNS; [o4], [o6]: the hosts of the two
    families in the order of iteration *)
Definition hosts_reverse (cfg : hosts_cfg) (o4 o6 : list (str * (ip * list str))) (req : request) (q : question) : option response :=
  if negb (q_type q =? type_PTR)%N then None
  else match parse_arpa (q_name q) with
       | None => None
       | Some i =>
           if hf_filter cfg && is_loopback i then None
           else match find_host (if is_v4 i then o4 else o6) i with
                | None => None
                | Some (h, al) => Some (hosts_response req (map (fun n => create_rr q (hf_ttl cfg) (DPTR (fqdn n))) (h :: al)))
                end
       end.

(** hosts_file_resolver.go:113-156 Resolve and resolve; [d] is the table *)
Definition hosts_resolve (cfg : hosts_cfg) (d : split_data) (o4 o6 : list (str * (ip * list str))) (req : request) : prog :=
  if negb (hf_enabled cfg) then pass req
  else match m_question (req_msg req) with
       | [] => Crash
       | q :: _ =>
           match hosts_reverse cfg o4 o6 req q with
           | Some r => Done (Ok r)
           | None =>
               match split_get d (q_type q) (extract_domain q) with
               | Some i => Done (Ok (hosts_response req [create_rr q (hf_ttl cfg) (if (q_type q =? type_A)%N then DA i else DAAAA i)]))
               | None => pass req
               end
           end
       end.
