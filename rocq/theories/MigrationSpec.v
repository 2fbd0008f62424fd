(** What the migration of deprecated options should do. *)
From Coq Require Import String Ascii List NArith ZArith Bool.
From Verif Require Import Str Migration.
Import ListNotations.
Open Scope list_scope.

(** The deprecated options in the order they are looked at, the option that replaces each, and its default. *)
Definition documented : list (str * str * value) :=
  [ ($"upstream", $"upstreams.groups", VGroups None);
    ($"upstreamTimeout", $"upstreams.timeout", VNum 2000000000);
    ($"disableIPv6", $"filtering.queryTypes", VTypes None);
    ($"logLevel", $"log.level", VText ($"info"));
    ($"logFormat", $"log.format", VText ($"text"));
    ($"logPrivacy", $"log.privacy", VBool false);
    ($"logTimestamp", $"log.timestamp", VBool true);
    ($"port", $"ports.dns", VTexts (Some [$":53"]));
    ($"httpPort", $"ports.http", VTexts None);
    ($"httpsPort", $"ports.https", VTexts None);
    ($"tlsPort", $"ports.tls", VTexts None);
    ($"startVerifyUpstream", $"upstreams.init.strategy", VText ($"blocking"));
    ($"dohUserAgent", $"upstreams.userAgent", VText ($""));
    ($"blocking.blackLists", $"blocking.denylists", VGroups None);
    ($"blocking.whiteLists", $"blocking.allowlists", VGroups None);
    ($"blocking.downloadTimeout", $"blocking.loading.downloads.timeout", VNum 5000000000);
    ($"blocking.downloadAttempts", $"blocking.loading.downloads.attempts", VNum 3);
    ($"blocking.downloadCooldown", $"blocking.loading.downloads.cooldown", VNum 500000000);
    ($"blocking.refreshPeriod", $"blocking.loading.refreshPeriod", VNum 14400000000000);
    ($"blocking.failStartOnListError", $"blocking.loading.strategy", VText ($"blocking"));
    ($"blocking.processingConcurrency", $"blocking.loading.concurrency", VNum 4);
    ($"blocking.startStrategy", $"blocking.loading.strategy", VText ($"blocking"));
    ($"blocking.maxErrorsPerFile", $"blocking.loading.maxErrorsPerSource", VNum 5);
    ($"hostsFile.refreshPeriod", $"hostsFile.loading.refreshPeriod", VNum 14400000000000);
    ($"hostsFile.filePath", $"hostsFile.sources", VTexts None) ].

(** Four deprecated options are not simply moved. *)
Definition special : list str :=
  [$"disableIPv6"; $"startVerifyUpstream"; $"blocking.failStartOnListError"; $"hostsFile.filePath"].

(** [meaning old v after]: the value [after] of the new option (which had its default) when the deprecated option
    [old] is [v]. *)
Inductive meaning : str -> value -> value -> Prop :=
| meaning_move old v : ~ In old special -> meaning old v v
| meaning_ipv6_on : meaning ($"disableIPv6") (VBool true) (VTypes (Some [28%N]))
| meaning_ipv6_off : meaning ($"disableIPv6") (VBool false) (VTypes None)
| meaning_verify_on : meaning ($"startVerifyUpstream") (VBool true) (VText ($"failOnError"))
| meaning_verify_off : meaning ($"startVerifyUpstream") (VBool false) (VText ($"fast"))
| meaning_fail_on : meaning ($"blocking.failStartOnListError") (VBool true) (VText ($"failOnError"))
| meaning_fail_off : meaning ($"blocking.failStartOnListError") (VBool false) (VText ($"blocking"))
| meaning_path s : meaning ($"hostsFile.filePath") (VText s) (VTexts (Some [s])).

(** The deprecated value has the type of its option. *)
Definition typed (old : str) (v : value) : Prop :=
  (In old [$"disableIPv6"; $"startVerifyUpstream"; $"blocking.failStartOnListError"] -> exists b, v = VBool b) /\
  (old = $"hostsFile.filePath" -> exists s, v = VText s).

(** The names a report mentions: deprecated and new option. *)
Definition mentions (r : report) : str * str := match r with BothSet dest old => (old, dest) | Deprecated old dest => (old, dest) end.
