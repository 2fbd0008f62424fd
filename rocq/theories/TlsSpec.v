(** What is expected of encrypted listeners. *)
From Coq Require Import String Ascii List Arith Bool NArith ZArith.
From Verif Require Import Str Tls.
Import ListNotations.

(** Cipher suites of the IANA registry: how keys are exchanged, with which kind of certificate, and whether the cipher
    authenticates (AEAD). *)
Inductive exchange := RsaKey | Dhe | Ecdhe | Tls13.
Definition iana : list (N * (exchange * option bool * bool)) :=   (* number, exchange, certificate is RSA, AEAD *)
  [ (10, (RsaKey, Some true, false)); (47, (RsaKey, Some true, false)); (53, (RsaKey, Some true, false)); (5, (RsaKey, Some true, false));
    (51, (Dhe, Some true, false)); (57, (Dhe, Some true, false)); (158, (Dhe, Some true, true)); (159, (Dhe, Some true, true));
    (60, (RsaKey, Some true, false)); (156, (RsaKey, Some true, true)); (157, (RsaKey, Some true, true));
    (49159, (Ecdhe, Some false, false)); (49161, (Ecdhe, Some false, false)); (49162, (Ecdhe, Some false, false));
    (49169, (Ecdhe, Some true, false)); (49170, (Ecdhe, Some true, false)); (49171, (Ecdhe, Some true, false)); (49172, (Ecdhe, Some true, false));
    (49187, (Ecdhe, Some false, false)); (49191, (Ecdhe, Some true, false));
    (49195, (Ecdhe, Some false, true)); (49196, (Ecdhe, Some false, true)); (49199, (Ecdhe, Some true, true)); (49200, (Ecdhe, Some true, true));
    (52392, (Ecdhe, Some true, true)); (52393, (Ecdhe, Some false, true));
    (4865, (Tls13, None, true)); (4866, (Tls13, None, true)); (4867, (Tls13, None, true)) ]%N.

(** Recorded traffic stays secret when the key of the server becomes known, and cannot be altered unnoticed. *)
Definition strong (suite : N) : Prop := exists x rsa, In (suite, (x, rsa, true)) iana /\ (x = Ecdhe \/ x = Tls13).

(** A suite for TLS 1.2 which a certificate with this key can be used with. *)
Definition strong_for (k : key_kind) (suite : N) : Prop :=
  In (suite, (Ecdhe, Some (match k with KRsa => true | _ => false end), true)) iana.

(** The highest version at which both can speak: at least [min], at most 1.3. *)
Definition common_version (min : Z) (versions : list Z) (v : Z) : Prop :=
  In v versions /\ (min <= v <= 772)%Z /\ forall u, In u versions -> (u <= 772)%Z -> (u <= v)%Z.

(** The configured least version; never below 1.2. *)
Inductive least_version : option str -> Z -> Prop :=
| lv_default : least_version None 771
| lv_old s : In s [$"1.0"; $"1.1"; $"1.2"] -> least_version (Some s) 771
| lv_new : least_version (Some $"1.3") 772.

(** A client checks the certificate of a connection at a time: it trusts it, it is valid, and one of its names is for the
    name asked for.  A name with a wildcard stands for names with as many labels, if it is taken at all. *)
Fixpoint labels (s : str) : nat := match s with [] => 1 | c :: s' => (if Ascii.eqb c "." then 1 else 0) + labels s' end.
Record verifier := { vf_trusts : certificate -> bool; vf_matches : str -> str -> bool;
  vf_exact : forall n, vf_matches n n = true;
  vf_strict : forall pattern host, vf_matches pattern host = true -> pattern = host \/ (hd_error pattern = Some "*"%char /\ labels pattern = labels host) }.
Definition verified (f : verifier) (c : certificate) (name : str) (now : Z) : Prop :=
  vf_trusts f c = true /\ (ce_from c <= now <= ce_to c)%Z /\ exists n, In n (ce_names c) /\ vf_matches f n name = true.
