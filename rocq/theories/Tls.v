(** What the encrypted listeners (DNS over TLS and HTTPS) show to clients, and which clients can connect:
    /repo/server/server.go (tlsCipherSuites, retrieveCertificate, newTLSConfig) and /repo/util/tls.go.

    The handshake of crypto/tls is modelled as far as the settings of blocky decide about it: version, cipher suite,
    application protocol.  Of a certificate: kind of its key, names, time of validity, serial number. *)
From Coq Require Import String Ascii List Arith Bool NArith ZArith.
From Verif Require Import Str ConfValues Serve.
Import ListNotations.

(** Kinds of private keys that tls.LoadX509KeyPair takes -- server/server.go:74, util/tls.go:43 *)
Inductive key_kind := KRsa | KEcdsa | KEd25519.

(** tls.Certificate -- util/tls.go:30-64, server/server.go:74; times in seconds *)
Record certificate := { ce_key : key_kind; ce_names : list str; ce_from : Z; ce_to : Z; ce_serial : N }.

(** server/server.go:50-61 tlsCipherSuites, by their numbers *)
Definition tls_cipher_suites : list N := [49195; 49199; 49196; 49200; 52393; 52392]%N.

(** util/tls.go:23-67 TLSGenerateSelfSignedCert at the time [now] with the random number [serial]; [later]: time.Time.AddDate with
    five years (line 37).  Failures of the random source are left out. *)
Definition self_signed (later : Z -> Z) (domains : list str) (now : Z) (serial : N) : certificate :=
  {| ce_key := KEcdsa; ce_names := domains; ce_from := now; ce_to := later now; ce_serial := serial |}.

(** tls.Config -- server/server.go:92-96; NextProtos is not set *)
Record tls_server := { ts_min : Z; ts_suites : list N; ts_protos : list str; ts_cert : certificate }.

Section Start.
(** time.Time.AddDate(5, 0, 0) -- util/tls.go:37 *)
Variable later : Z -> Z.
(** tls.LoadX509KeyPair with the contents of the files at a time -- server/server.go:74 *)
Variable files : Z -> str -> str -> option certificate.

(** server/server.go:65-99 retrieveCertificate and newTLSConfig, called once by NewServer (line 108) at the time [now];
    [configured]: minTlsServeVersion *)
Definition new_tls_config (configured : option str) (cert key : str) (now : Z) (serial : N) : option tls_server :=
  match retrieve_certificate (files now) (Some (self_signed later [$"blocky.invalid"; $"*"] now serial)) cert key, served_tls configured with
  | Some c, Some v => Some {| ts_min := v; ts_suites := tls_cipher_suites; ts_protos := []; ts_cert := c |}
  | _, _ => None
  end.
End Start.

(** A ClientHello: versions, cipher suites, application protocols; [ch_groups]: a curve and a signature algorithm in common with
    the server -- the other side of server/server.go:242-266 *)
Record client_hello := { ch_versions : list Z; ch_suites : list N; ch_protos : list str; ch_groups : bool }.

(** What the handshake has agreed on -- crypto/tls under server/server.go:249 and 255-266 *)
Record connection := { cn_version : Z; cn_suite : N; cn_proto : option str; cn_cert : certificate }.

(** The key fits to the suite: crypto/tls cipherSuiteOk, for the suites of server/server.go:52-57 *)
Definition suite_ok (k : key_kind) (suite : N) : bool :=
  match k with
  | KRsa => existsb (N.eqb suite) [49199; 49200; 52392]%N
  | KEcdsa | KEd25519 => existsb (N.eqb suite) [49195; 49196; 52393]%N
  end.

(** crypto/tls pickCipherSuite: version 1.3 has its own suites, which are not configurable; otherwise one of CipherSuites which
    the client has too -- server/server.go:94.  The preference among several is left to their order. *)
Definition pick_suite (s : tls_server) (version : Z) (ch : client_hello) : option N :=
  if (version =? 772)%Z then find (fun x => existsb (N.eqb x) (ch_suites ch)) [4865; 4866; 4867]%N
  else find (fun x => suite_ok (ce_key (ts_cert s)) x && existsb (N.eqb x) (ch_suites ch)) (ts_suites s).

(** crypto/tls negotiateALPN: without protocols on one of the sides none is chosen; without a common one the handshake
    fails -- server/server.go:92-96 *)
Definition pick_proto (s : tls_server) (ch : client_hello) : option (option str) :=
  match ts_protos s, ch_protos ch with
  | [], _ | _, [] => Some None
  | ps, qs => match find (fun x => existsb (str_eqb x) qs) ps with Some p => Some (Some p) | None => None end
  end.

(** The handshake on an encrypted listener -- server/server.go:249 (tls.NewListener) and 255-266 (dns.Server with "tcp-tls") *)
Definition accept (s : tls_server) (ch : client_hello) : option connection :=
  match handshake (ts_min s) (ch_versions ch) with
  | None => None
  | Some v =>
      if negb (ch_groups ch) then None
      else match pick_suite s v ch, pick_proto s ch with
           | Some x, Some p => Some {| cn_version := v; cn_suite := x; cn_proto := p; cn_cert := ts_cert s |}
           | _, _ => None
           end
  end.
