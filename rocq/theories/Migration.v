(** Migration of deprecated options: /repo/config/migration/migration.go with the tables in
    /repo/config/config.go, blocking.go and hosts_file.go, and the validation that follows it. *)
From Coq Require Import String Ascii List Arith NArith ZArith Bool.
From Verif Require Import Str.
Import ListNotations.
Open Scope list_scope.

(** Values of options (the types of the fields in config/config.go:222-264, blocking.go:10-30,
    hosts_file.go:9-20).  Enumerations and the texts of sources and upstreams are texts; a nil slice or map is
    [None], which Go's reflect.DeepEqual distinguishes from an empty one. *)
Inductive value :=
| VBool (b : bool)
| VNum (z : Z)
| VText (s : str)
| VTexts (l : option (list str))
| VGroups (m : option (list (str * list str)))
| VTypes (s : option (list N)).

(** Equality of values: decidable (used by [deep_equal]; migration.go:166) *)
Definition value_dec (a b : value) : {a = b} + {a <> b}.
Proof.
  repeat (decide equality); try apply ascii_dec; try apply N.eq_dec; try apply Z.eq_dec; apply bool_dec.
Defined.

(** config/migration/migration.go:165-167 IsDefault: reflect.DeepEqual.  Maps are compared without regard to the
    order of their keys in Go; the defaults of all options that are maps are nil here, where this makes no
    difference. *)
Definition deep_equal (a b : value) : bool := if value_dec a b then true else false.

(** A configuration: the value of the option with the given full name (config/config.go:222-246) *)
Definition conf := str -> value.

(** Assignment to one option (config/migration/migration.go:95-97 dest.Value.Set) *)
Definition set_option (p : str) (v : value) (c : conf) : conf := fun q => if str_eqb q p then v else c q.

(** config/migration/migration.go:84-87 Migrator, 114-120 Dest with the name of the deprecated option it is
    registered for: full names of the deprecated option and of the new one, the default of the new one, and
    what is written to the new one, given its value and the deprecated value. *)
Record option_migration := {
  om_old : str; om_dest : str; om_default : value; om_apply : value -> value -> value
}.

(** config/migration/migration.go:57-70: the two kinds of log lines, with the names printed in them *)
Inductive report := BothSet (dest old : str) | Deprecated (old dest : str).

(** config/migration/migration.go:25-73, one round of the loop of Migrate: [dep] is the deprecated option's value,
    None if the pointer is nil.  (The panics of lines 31-46 and 75-77 depend on the tables only and are not
    modelled.) *)
Definition migrate_one (o : option_migration) (dep : option value) (c : conf) : conf * list report :=
  match dep with
  | None => (c, [])
  | Some v =>
      if negb (deep_equal (c (om_dest o)) (om_default o)) then (c, [BothSet (om_dest o) (om_old o)])
      else (set_option (om_dest o) (om_apply o (c (om_dest o)) v) c, [Deprecated (om_old o) (om_dest o)])
  end.

(** config/migration/migration.go:19-80 Migrate: the new configuration, the reports in order, and the result *)
Fixpoint migrate (os : list option_migration) (dep : str -> option value) (c : conf) : conf * list report * bool :=
  match os with
  | [] => (c, [], false)
  | o :: os =>
      let '(c1, r1) := migrate_one o (dep (om_old o)) c in
      let '(c2, r2, used) := migrate os dep c1 in
      (c2, r1 ++ r2, match dep (om_old o) with Some _ => true | None => used end)
  end.

(** config/migration/migration.go:93-98 Move *)
Definition move (old dest : str) (default : value) : option_migration :=
  {| om_old := old; om_dest := dest; om_default := default; om_apply := fun _ v => v |}.

(** config/config.go:573-577: disableIPv6, with config/qtype_set.go:30-36 Insert *)
Definition disable_ipv6 (old v : value) : value :=
  match v, old with
  | VBool true, VTypes s => let l := match s with Some l => l | None => [] end in
                            VTypes (Some (if existsb (N.eqb 28) l then l else l ++ [28%N]))
  | _, _ => old
  end.

(** config/config.go:587-593: startVerifyUpstream *)
Definition start_verify (old v : value) : value :=
  match v with
  | VBool true => VText ($"failOnError")
  | VBool false => VText ($"fast")
  | _ => old
  end.

(** config/blocking.go:41-45: failStartOnListError *)
Definition fail_start (old v : value) : value :=
  match v with VBool true => VText ($"failOnError") | _ => old end.

(** config/hosts_file.go:25-27: filePath *)
Definition append_source (old v : value) : value :=
  match v, old with
  | VText s, VTexts l => VTexts (Some (match l with Some l => l | None => [] end ++ [s]))
  | _, _ => old
  end.

(** Durations in nanoseconds (config/duration.go:12, time.Second) *)
Definition seconds (n : Z) : value := VNum (n * 1000000000).

(** config/config.go:569-594 with the fields in the order of 249-263; the defaults are in upstreams.go:11-17,
    config.go:266-271 and 322-324, filtering.go:7-9 and log/logger.go:36-41 *)
Definition config_table : list option_migration :=
  [ move ($"upstream") ($"upstreams.groups") (VGroups None);
    move ($"upstreamTimeout") ($"upstreams.timeout") (seconds 2);
    {| om_old := $"disableIPv6"; om_dest := $"filtering.queryTypes"; om_default := VTypes None; om_apply := disable_ipv6 |};
    move ($"logLevel") ($"log.level") (VText ($"info"));
    move ($"logFormat") ($"log.format") (VText ($"text"));
    move ($"logPrivacy") ($"log.privacy") (VBool false);
    move ($"logTimestamp") ($"log.timestamp") (VBool true);
    move ($"port") ($"ports.dns") (VTexts (Some [$":53"]));
    move ($"httpPort") ($"ports.http") (VTexts None);
    move ($"httpsPort") ($"ports.https") (VTexts None);
    move ($"tlsPort") ($"ports.tls") (VTexts None);
    {| om_old := $"startVerifyUpstream"; om_dest := $"upstreams.init.strategy"; om_default := VText ($"blocking"); om_apply := start_verify |};
    move ($"dohUserAgent") ($"upstreams.userAgent") (VText []) ].

(** config/blocking.go:33-50 with the fields in the order of 19-30; the defaults are in config.go:322-338, 408-414 *)
Definition blocking_table : list option_migration :=
  [ move ($"blocking.blackLists") ($"blocking.denylists") (VGroups None);
    move ($"blocking.whiteLists") ($"blocking.allowlists") (VGroups None);
    move ($"blocking.downloadTimeout") ($"blocking.loading.downloads.timeout") (seconds 5);
    move ($"blocking.downloadAttempts") ($"blocking.loading.downloads.attempts") (VNum 3);
    move ($"blocking.downloadCooldown") ($"blocking.loading.downloads.cooldown") (VNum 500000000);
    move ($"blocking.refreshPeriod") ($"blocking.loading.refreshPeriod") (seconds 14400);
    {| om_old := $"blocking.failStartOnListError"; om_dest := $"blocking.loading.strategy"; om_default := VText ($"blocking"); om_apply := fail_start |};
    move ($"blocking.processingConcurrency") ($"blocking.loading.concurrency") (VNum 4);
    move ($"blocking.startStrategy") ($"blocking.loading.strategy") (VText ($"blocking"));
    move ($"blocking.maxErrorsPerFile") ($"blocking.loading.maxErrorsPerSource") (VNum 5) ].

(** config/hosts_file.go:22-29; the defaults are in config.go:335 *)
Definition hosts_table : list option_migration :=
  [ move ($"hostsFile.refreshPeriod") ($"hostsFile.loading.refreshPeriod") (seconds 14400);
    {| om_old := $"hostsFile.filePath"; om_dest := $"hostsFile.sources"; om_default := VTexts None; om_apply := append_source |} ].

(** config/config.go:569-600 Config.migrate: the three tables one after the other *)
Definition config_migrate (dep : str -> option value) (c : conf) : conf * list report * bool :=
  let '(c1, r1, u1) := migrate config_table dep c in
  let '(c2, r2, u2) := migrate blocking_table dep c1 in
  let '(c3, r3, u3) := migrate hosts_table dep c2 in
  (c3, r1 ++ r2 ++ r3, u3 || (u2 || u1)).

(** config/config.go:92-102 TLSVersion.validate; 771 is TLS 1.2 *)
Definition validate_tls (c : conf) : conf :=
  match c ($"minTlsServeVersion") with
  | VNum v => if (v <? 771)%Z then set_option ($"minTlsServeVersion") (VNum 771) c else c
  | _ => c
  end.

(** config/upstreams.go:21-28 Upstreams.validate *)
Definition validate_upstreams (c : conf) : conf :=
  match c ($"upstreams.timeout") with
  | VNum d => if (0 <? d)%Z then c else set_option ($"upstreams.timeout") (seconds 2) c
  | _ => c
  end.

(** The defaults of the options (the struct tags cited at the tables above; config.go:237 for the TLS version);
    other options have some default, which does not matter here. *)
Definition default_of (others : conf) (p : str) : value :=
  match find (fun o => str_eqb (om_dest o) p) (config_table ++ blocking_table ++ hosts_table) with
  | Some o => om_default o
  | None => if str_eqb p ($"minTlsServeVersion") then VNum 771 else others p
  end.

(** config/config.go:448-450, 553-567 unmarshalConfig with the defaults set before (loadConfig, 448-450): [user]
    are the options given in the configuration file (what yaml.UnmarshalStrict writes over the defaults), new ones
    and deprecated ones by their full names.  Result: the configuration and the reports; the flag tells whether
    "configuration uses deprecated options" is logged. *)
Definition load_config (others : conf) (user : str -> option value) : conf * list report * bool :=
  let c := fun p => match user p with Some v => v | None => default_of others p end in
  let '(c, r, used) := config_migrate user c in
  (validate_upstreams (validate_tls c), r, used).
