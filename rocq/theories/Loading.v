(** The metrics about the loading of lists: blocky_failed_downloads_total and
    blocky_last_list_group_refresh_timestamp_seconds (metrics/metrics_event_publisher.go, lists/downloader.go,
    lists/list_cache.go).
    The lists of both types and all downloads run side by side; every publication on the event bus is one step. *)
From Coq Require Import String Ascii List Arith NArith ZArith Bool.
From Verif Require Import Str StringCache Parsers Target Download Metrics.
Import ListNotations.
Open Scope list_scope.

(** lists/list_cache.go:26-30 ListCacheType *)
Inductive list_type := Denylist | Allowlist.

(** The lists of both types, the downloads under way (what is still to be observed of each), the counter of failed
    downloads (metrics/metrics_event_publisher.go:122, 151-156) and the gauge of the last refresh
    (metrics/metrics_event_publisher.go:56, 108-115) *)
Record loading_state := {
  ld_deny : lists_state; ld_allow : lists_state; ld_downloads : list (list dl_event);
  ld_failed : N; ld_time : Z }.

(** metrics/metrics_event_publisher.go:52-62, 117-128: registered before the resolvers are made (server/server.go:124);
    a counter and a gauge start with 0 *)
Definition loading_init : loading_state :=
  {| ld_deny := lists_init; ld_allow := lists_init; ld_downloads := []; ld_failed := 0; ld_time := 0 |}.

(** Steps: a goroutine of lists/list_cache.go:116-159 goes on; a download is begun (lists/downloader.go:56-112, called
    from lists/sourcereader.go:53); the next event of the i-th download happens *)
Inductive loading_op :=
| OList (t : list_type) (o : lists_op)
| ODownload (fuel : nat) (attempts : N) (net : nat -> answer)
| OEvent (i : nat).

(** metrics/metrics_event_publisher.go:64-65: the gauge is set when a refreshed group is published
    (lists/list_cache.go:147), with the time at that moment *)
Definition on_group_changed (o : lists_op) (time : Z) : Z := match o with LPublish _ now => now | _ => time end.

(** metrics/metrics_event_publisher.go:146-148 and lists/downloader.go:108, 114-116 *)
Definition on_download_event (e : dl_event) (failed : N) : N := match e with DFailed _ _ => (failed + 1)%N | _ => failed end.

(** The i-th download goes on -- lists/downloader.go:59-109 *)
Definition set_download (i : nat) (evs : list dl_event) (l : list (list dl_event)) : list (list dl_event) :=
  firstn i l ++ evs :: skipn (S i) l.

Section Compile.
(** regexp.Compile, as in StringCache.v *)
Variable compile : str -> option (str -> bool).

(** One step; None: not possible -- lists/list_cache.go:116-159, lists/downloader.go:56-116,
    metrics/metrics_event_publisher.go:64-73, 146-148 *)
Definition loading_step (s : loading_state) (o : loading_op) : option loading_state :=
  match o with
  | OList Denylist p =>
      match lists_step compile (ld_deny s) p with
      | Some l => Some {| ld_deny := l; ld_allow := ld_allow s; ld_downloads := ld_downloads s; ld_failed := ld_failed s;
                          ld_time := on_group_changed p (ld_time s) |}
      | None => None
      end
  | OList Allowlist p =>
      match lists_step compile (ld_allow s) p with
      | Some l => Some {| ld_deny := ld_deny s; ld_allow := l; ld_downloads := ld_downloads s; ld_failed := ld_failed s;
                          ld_time := on_group_changed p (ld_time s) |}
      | None => None
      end
  | ODownload fuel attempts net =>
      match download_file fuel attempts net with
      | Some (evs, _) => Some {| ld_deny := ld_deny s; ld_allow := ld_allow s; ld_downloads := ld_downloads s ++ [evs];
                                 ld_failed := ld_failed s; ld_time := ld_time s |}
      | None => None
      end
  | OEvent i =>
      match nth_error (ld_downloads s) i with
      | Some (e :: evs) =>
          Some {| ld_deny := ld_deny s; ld_allow := ld_allow s; ld_downloads := set_download i evs (ld_downloads s);
                  ld_failed := on_download_event e (ld_failed s); ld_time := ld_time s |}
      | _ => None
      end
  end.

(** A history -- steps of lists/list_cache.go:116-159 and lists/downloader.go:56-116 *)
Fixpoint loading_run (s : loading_state) (ops : list loading_op) : option loading_state :=
  match ops with
  | [] => Some s
  | o :: ops' => match loading_step s o with Some s' => loading_run s' ops' | None => None end
  end.
End Compile.
