(** The listeners of the server and its life: /repo/server/server.go (NewServer, Start, Stop), server/http.go, cmd/serve.go.

    Not modelled: the routes of the HTTP server, its timeouts and headers, the contents of certificates, and the goroutine that
    prints the configuration. *)
From Coq Require Import String Ascii List Arith Bool NArith.
From Verif Require Import Str.
Import ListNotations.

(** ** Listeners *)

(** config/config.go:266-271 Ports *)
Record ports := { p_dns : list str; p_http : list str; p_https : list str; p_tls : list str }.

(** The field Net of dns.Server -- server/server.go:258, 270, 281 *)
Inductive network := NUdp | NTcp | NTls.

Section Listeners.
Context {C : Type}.
(** tls.LoadX509KeyPair and util.TLSGenerateSelfSignedCert -- server/server.go:67, 74 *)
Variable load_pair : str -> str -> option C.
Variable generate : option C.
(** net.Listen on an address when some addresses are open already -- server/server.go:231 *)
Variable listen : list str -> str -> bool.

(** A dns.Server with its TLS configuration (only of NTls) -- server/server.go:255-288 *)
Record dns_server := { ds_net : network; ds_addr : str; ds_cert : option C }.
(** A listener for HTTP; with a certificate: tls.NewListener -- server/server.go:231-252 *)
Record http_listener := { hl_addr : str; hl_cert : option C }.

(** server/server.go:65-81 retrieveCertificate; None: an error *)
Definition retrieve_certificate (cert key : str) : option C :=
  match cert, key with
  | [], [] => generate
  | _, _ => load_pair cert key
  end.

(** server/server.go:183-209 createServers *)
Definition create_servers (p : ports) (tls : option C) : list dns_server :=
  map (fun a => {| ds_net := NUdp; ds_addr := a; ds_cert := None |}) (p_dns p) ++
  map (fun a => {| ds_net := NTcp; ds_addr := a; ds_cert := None |}) (p_dns p) ++
  map (fun a => {| ds_net := NTls; ds_addr := a; ds_cert := tls |}) (p_tls p).

(** server/server.go:227-240 newTCPListeners: the addresses, after the ones that are [opened]; None: an error *)
Fixpoint tcp_listeners (opened addrs : list str) : option (list str) :=
  match addrs with
  | [] => Some []
  | a :: addrs' =>
      if listen opened a then match tcp_listeners (a :: opened) addrs' with Some l => Some (a :: l) | None => None end
      else None
  end.

(** server/server.go:211-225 createHTTPListeners with 242-253 newTLSListeners *)
Definition http_listeners (p : ports) (tls : option C) : option (list http_listener * list http_listener) :=
  match tcp_listeners [] (p_http p) with
  | None => None
  | Some hs =>
      match tcp_listeners (rev (p_http p)) (p_https p) with
      | None => None
      | Some ss => Some (map (fun a => {| hl_addr := a; hl_cert := None |}) hs, map (fun a => {| hl_addr := a; hl_cert := tls |}) ss)
      end
  end.

(** server/server.go:104-181 NewServer: the DNS servers and the listeners for HTTP; [rest]: bootstrap, redis, the resolvers and
    the REST interface can be made (server/server.go:126-159).  None: an error. *)
Definition new_server (p : ports) (cert key : str) (rest : bool) : option (list dns_server * list http_listener) :=
  let need := match p_https p, p_tls p with [], [] => false | _, _ => true end in
  match (if need then match retrieve_certificate cert key with Some c => Some (Some c) | None => None end else Some None) with
  | None => None
  | Some tls =>
      match http_listeners p tls with
      | None => None
      | Some (hs, ss) => if rest then Some (create_servers p tls, hs ++ ss) else None
      end
  end.
End Listeners.
Arguments dns_server : clear implicits.
Arguments http_listener : clear implicits.

(** ** The life of the process *)

(** A server with its goroutine: not started, serving, ended with an error, shut down -- server/server.go:392-413 *)
Inductive status := Idle | Up | Failed | Stopped.

(** cmd/serve.go:64-81: at the select, in Stop before the server with this number, ended (true: with an error) *)
Inductive control := Waiting | Stopping (k : nat) | Ended (error : bool).

(** The DNS servers, the HTTP servers, the number of errors sent to errChan (in it or with a goroutine that waits because it is full), a signal in
    the channel signals, the control -- cmd/serve.go:57-76 *)
Record process := { pr_dns : list status; pr_http : list status; pr_errs : nat; pr_signal : bool; pr_ctl : control }.

(** cmd/serve.go:60-64 after Start *)
Definition started (dns http : nat) : process :=
  {| pr_dns := repeat Idle dns; pr_http := repeat Idle http; pr_errs := 0; pr_signal := false; pr_ctl := Waiting |}.

(** What happens next: the goroutine of a server runs (true: of a DNS server; [ok]: the socket can be opened), a server fails while it serves, a signal, the
    select takes a case (true: the signal), one step of Stop ([ok]: a server that failed can be shut down) -- server/server.go:392-429, cmd/serve.go:64-76 *)
Inductive move := MStart (dns : bool) (i : nat) (ok : bool) | MBreak (dns : bool) (i : nat) | MSignal | MSelect (choice : bool) | MStop (ok : bool).

(** the [i]-th element replaced -- server/server.go:392-413 *)
Fixpoint replace {A} (l : list A) (i : nat) (x : A) : list A :=
  match l, i with
  | [], _ => []
  | _ :: l', O => x :: l'
  | y :: l', S i' => y :: replace l' i' x
  end.

(** the goroutine of one server in a list: the new list, and the number of errors sent -- server/server.go:395-412 *)
Definition start_one (l : list status) (i : nat) (ok : bool) : list status * nat :=
  match nth_error l i with
  | Some Idle => if ok then (replace l i Up, 0) else (replace l i Failed, 1)
  | _ => (l, 0)
  end.
(** a server ends with an error -- server/server.go:395-412 *)
Definition break_one (l : list status) (i : nat) : list status * nat :=
  match nth_error l i with
  | Some Up => (replace l i Failed, 1)
  | _ => (l, 0)
  end.

(** cmd/serve.go:60-81 and server/server.go:388-429, one step *)
Definition proc_step (m : move) (p : process) : process :=
  match pr_ctl p, m with
  | Ended _, _ => p
  | _, MStart true i ok => let '(l, n) := start_one (pr_dns p) i ok in
      {| pr_dns := l; pr_http := pr_http p; pr_errs := pr_errs p + n; pr_signal := pr_signal p; pr_ctl := pr_ctl p |}
  | _, MStart false i ok => let '(l, n) := start_one (pr_http p) i ok in
      {| pr_dns := pr_dns p; pr_http := l; pr_errs := pr_errs p + n; pr_signal := pr_signal p; pr_ctl := pr_ctl p |}
  | _, MBreak true i => let '(l, n) := break_one (pr_dns p) i in
      {| pr_dns := l; pr_http := pr_http p; pr_errs := pr_errs p + n; pr_signal := pr_signal p; pr_ctl := pr_ctl p |}
  | _, MBreak false i => let '(l, n) := break_one (pr_http p) i in
      {| pr_dns := pr_dns p; pr_http := l; pr_errs := pr_errs p + n; pr_signal := pr_signal p; pr_ctl := pr_ctl p |}
  | _, MSignal =>
      {| pr_dns := pr_dns p; pr_http := pr_http p; pr_errs := pr_errs p; pr_signal := true; pr_ctl := pr_ctl p |}
  | Waiting, MSelect true =>
      if pr_signal p then {| pr_dns := pr_dns p; pr_http := pr_http p; pr_errs := pr_errs p; pr_signal := false; pr_ctl := Stopping 0 |} else p
  | Waiting, MSelect false =>
      match pr_errs p with
      | O => p
      | S n => {| pr_dns := pr_dns p; pr_http := pr_http p; pr_errs := n; pr_signal := pr_signal p; pr_ctl := Ended true |}
      end
  | Stopping k, MStop ok =>
      let go l ctl := {| pr_dns := l; pr_http := pr_http p; pr_errs := pr_errs p; pr_signal := pr_signal p; pr_ctl := ctl |} in
      match nth_error (pr_dns p) k with
      | None => go (pr_dns p) (Ended false)
      | Some Up => go (replace (pr_dns p) k Stopped) (Stopping (S k))
      | Some Failed => if ok then go (pr_dns p) (Stopping (S k)) else go (pr_dns p) (Ended false)
      | Some _ => go (pr_dns p) (Ended false)
      end
  | _, _ => p
  end.

(** a run -- cmd/serve.go:60-81 *)
Definition proc_run (dns http : nat) (ms : list move) : process := fold_left (fun p m => proc_step m p) ms (started dns http).
