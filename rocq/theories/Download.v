(** How the sources of a list are opened, downloaded and put together (lists/downloader.go, lists/sourcereader.go,
    lists/list_cache.go). *)
From Coq Require Import String Ascii List Arith NArith ZArith Bool Permutation.
From Verif Require Import Str StringCache Parsers Target.
Import ListNotations.
Open Scope list_scope.

(** ** Downloads *)
(** What comes of one request -- lists/downloader.go:61-84: the link makes no request, an answer with its status, the
    lines of its body and how reading it ends, an error that is a timeout, any other error *)
Inductive answer :=
| BadLink (e : nat)
| Answer (status : N) (ls : list str) (e : scan_end)
| NetTimeout (e : nat)
| NetError (e : nat).

(** The errors of DownloadFile -- lists/downloader.go:63, 76, 81, 84 *)
Inductive dl_err := DStatus (status : N) | DTransient (e : nat) | DPlain (e : nat).

(** What can be observed of a download -- lists/downloader.go:66, 69, 74, 88, 90-108 *)
Inductive dl_event :=
| DRequest                       (* a request is sent *)
| DBody                          (* the body of an answer is open *)
| DClose                         (* it is closed *)
| DFailed (n : nat) (e : dl_err) (* OnRetry: a warning and CachingFailedDownloadChanged *)
| DWait.                         (* the cooldown *)

(** lists/downloader.go:60-85 the function that is tried: what is observed and the result *)
Definition one_try (a : answer) : list dl_event * (list str * scan_end + dl_err) :=
  match a with
  | BadLink e => ([], inr (DPlain e))
  | Answer status ls e =>
      if (status =? 200)%N then ([DRequest; DBody], inl (ls, e)) else ([DRequest; DBody; DClose], inr (DStatus status))
  | NetTimeout e => ([DRequest], inr (DTransient e))
  | NetError e => ([DRequest], inr (DPlain e))
  end.

(** lists/downloader.go:59-109 retry.Do (github.com/avast/retry-go v4.6.1) with a fixed delay and only the last error;
    [attempts] = 0 is endless; there is no retry.Context option, so the waiting is not ended by [ctx].  [None]: not
    ended within [fuel] rounds. *)
Fixpoint retry_do (fuel : nat) (attempts : N) (net : nat -> answer) (n : nat)
  : option (list dl_event * (list str * scan_end + dl_err)) :=
  match fuel with
  | O => None
  | S fuel =>
      let '(evs, r) := one_try (net n) in
      match r with
      | inl b => Some (evs, inl b)
      | inr e =>
          if (attempts =? N.of_nat n + 1)%N then Some (evs ++ [DFailed n e], inr e)
          else match retry_do fuel attempts net (S n) with
               | Some (evs', r') => Some (evs ++ DFailed n e :: DWait :: evs', r')
               | None => None
               end
      end
  end.

(** lists/downloader.go:56-112 DownloadFile; [net n]: what comes of the request number [n] (from 0) *)
Definition download_file (fuel : nat) (attempts : N) (net : nat -> answer) := retry_do fuel attempts net 0.

(** http.Client.Do with a context: from the try on where it is done, all requests fail with its error -- lists/downloader.go:61-66 *)
Definition under_ctx (done : nat -> bool) (ctx_err : nat) (net : nat -> answer) (n : nat) : answer :=
  if done n then NetError ctx_err else net n.

(** ** Sources *)
(** bufio.Scanner: the lines before the first that does not fit into the buffer of 65536 bytes -- lists/parsers/lines.go:45-46 *)
Fixpoint fitting (pieces : list str) : list str * scan_end :=
  match pieces with
  | [] => ([], ScanEOF)
  | p :: ps => if (65536 <=? N.of_nat (length p))%N then ([], ScanErr) else let '(ls, e) := fitting ps in (p :: ls, e)
  end.
(** bufio.Scanner with ScanLines over a whole text -- lists/parsers/lines.go:44-49 *)
Definition scan_text (t : str) : list str * scan_end :=
  let pieces := split_byte "010"%char t in
  let '(ls, e) := fitting (if str_eqb (last pieces []) [] then removelast pieces else pieces) in (map drop_cr ls, e).

Section Sources.
Variable parse_ip to_ascii : str -> option str.   (* net.ParseIP and String, idna: see Parsers.v *)
Variable compiles : str -> bool.                  (* regexp.Compile: see Parsers.v *)
(** os.Open and reading -- lists/sourcereader.go:64-66 *)
Variable file : str -> option (list str * scan_end).
(** the network, per link and number of the request -- lists/downloader.go:66 *)
Variable net : str -> nat -> answer.

(** lists/sourcereader.go:19-66 NewSourceOpener and the three Open *)
Definition open_source (fuel : nat) (attempts : N) (s : source) : option (list str * scan_end + dl_err) :=
  match s with
  | SText t => Some (inl (scan_text t))
  | SHttp link => match download_file fuel attempts (net link) with Some (_, r) => Some r | None => None end
  | SFile path => Some (match file path with Some b => inl b | None => inr (DPlain 0) end)
  end.

(** lists/list_cache.go:172-181, 219-279 one producer: the entries sent and the error.  [cut] = Some k: the context is
    done after [k] entries, because another producer has failed (parcour's job groups cancel their context; line 261).
    [None]: the download does not end. *)
Definition produce (fuel : nat) (attempts : N) (limit : Z) (cut : option nat) (s : source) : option (list str * load_err) :=
  match open_source fuel attempts s with
  | None => None
  | Some (inr (DTransient _)) => Some ([], TransientErr)
  | Some (inr _) => Some ([], OtherErr)
  | Some (inl (ls, e)) =>
      let '(es, failed) := parse_file parse_ip to_ascii compiles limit ls e in
      match cut with
      | None => Some (es, if failed then OtherErr else NoErr)
      | Some k => Some (firstn k es, match firstn k es with [] => OtherErr | _ => NoErr end)
      end
  end.

(** lists/list_cache.go:169-198 all producers of a group *)
Fixpoint produce_all (fuel : nat) (attempts : N) (limit : Z) (cuts : nat -> option nat) (i : nat) (srcs : list source)
  : option (list (list str * load_err)) :=
  match srcs with
  | [] => Some []
  | s :: srcs' =>
      match produce fuel attempts limit (cuts i) s, produce_all fuel attempts limit cuts (S i) srcs' with
      | Some p, Some ps => Some (p :: ps)
      | _, _ => None
      end
  end.
End Sources.

(** lists/list_cache.go:198 producers.Wait (github.com/ThinkChaos/parcour): an error if there is one; which of several is
    left open *)
Definition may_report (errs : list load_err) (e : load_err) : Prop :=
  match e with NoErr => Forall (eq NoErr) errs | _ => In e errs end.

(** lists/list_cache.go:161-216 createCacheForGroup with its sources: [es] is an order in which the entries arrive *)
Definition group_arrives (produced : list (list str * load_err)) (es : list str) (err : load_err) : Prop :=
  Permutation es (concat (map fst produced)) /\ may_report (map snd produced) err.
