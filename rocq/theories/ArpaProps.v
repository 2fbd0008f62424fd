(** C63: reverse-lookup names. *)
From Coq Require Import String Ascii List Arith NArith Bool Lia.
From Verif Require Import Str StrFacts Num NumFacts Dns Arpa ArpaSpec ArpaProofs.
Import ListNotations.

(** ** C63: parsing inverts printing, for each of the 2^32 + 2^128 addresses *)
Theorem C63_roundtrip : forall i, valid_ip i -> parse_arpa (reverse_addr i) = Some i.
Proof.
  intros [b|b] Hv; unfold parse_arpa.
  - pose proof (reverse4_arpa b Hv) as Ha. rewrite (suffix4_of _ _ Ha). apply parse_ipv4_iff; eauto using suffix4_of.
  - pose proof (reverse6_arpa b Hv) as Ha. destruct (suffix6_of _ _ Ha) as [-> ->].
    rewrite (parse_ipv6_ok _ _ Ha). f_equal. now apply ip_of_16_valid.
Qed.
Print Assumptions C63_roundtrip.

(** The printed name is the well-formed one. *)
Theorem C63_printed_wellformed : forall i, valid_ip i ->
  match i with IP4 b => arpa4 (reverse_addr i) b | IP6 b => arpa6 (reverse_addr i) b end.
Proof. intros [b|b] H; [now apply reverse4_arpa|now apply reverse6_arpa]. Qed.
Print Assumptions C63_printed_wellformed.

Example C63_example :
  reverse_addr (IP4 [192; 168; 0; 10]%N) = $"10.0.168.192.in-addr.arpa." /\
  parse_arpa $"10.0.168.192.in-addr.arpa." = Some (IP4 [192; 168; 0; 10]%N) /\
  reverse_addr (IP6 [32;1;13;184;0;0;0;0;0;0;0;0;0;0;0;1]%N) =
    $"1.0.0.0.0.0.0.0.0.0.0.0.0.0.0.0.0.0.0.0.0.0.0.0.8.b.d.0.1.0.0.2.ip6.arpa." /\
  valid_ip (IP6 [32;1;13;184;0;0;0;0;0;0;0;0;0;0;0;1]%N).
Proof.
  split; [vm_compute; reflexivity|]. split; [vm_compute; reflexivity|]. split; [vm_compute; reflexivity|].
  split; [reflexivity|]. split; [repeat constructor|]. intros [t H]. discriminate.
Qed.

(** "Only well-formed names are parsed" holds for IPv4 (numbers may have leading
    zeros), and for IPv6 if no label has more than one character. *)
Theorem C63_only_wellformed_partial : forall s i, parse_arpa s = Some i ->
  (exists t, s = t ++ $".in-addr.arpa." /\ exists b, i = IP4 b /\ arpa4 s b) \/
  (exists t, s = t ++ $".ip6.arpa." /\
     ((forall p, In p (split_byte dot t) -> length p <= 1) -> exists b, arpa6 s b /\
        (valid_ip (IP6 b) /\ i = IP6 b \/ exists c, b = [0;0;0;0;0;0;0;0;0;0;255;255]%N ++ c /\ i = IP4 c))).
Proof.
  intros s i H. unfold parse_arpa in H. destruct (has_suffix s ipv4_ptr_suffix) eqn:E4.
  - left. apply has_suffix_spec in E4 as E4'. destruct E4' as [t E]. exists t. split; [exact E|].
    now apply parse_ipv4_iff in H.
  - destruct (has_suffix s ipv6_ptr_suffix) eqn:E6; [|discriminate]. right.
    apply has_suffix_spec in E6 as E6'. destruct E6' as [t E]. exists t. split; [exact E|]. intros Hf.
    apply parse_ipv6_short in H as [b [Hi Ha]]; [|exact E6|subst s; now rewrite trim_suffix_app].
    exists b. split; [exact Ha|]. subst i. unfold ip_of_16, byte_list_eqb. destruct list_eq_dec as [Em|Hm].
    + right. exists (skipn 12 b). split; auto. rewrite <- Em. symmetry. apply firstn_skipn.
    + left. split; [|reflexivity]. destruct Ha as [ps [_ [Hl Hn]]]. split; [exact Hl|]. split.
      * apply nibble_bytes in Hn. apply Forall_rev in Hn. now rewrite rev_involutive in Hn.
      * intros [c ->]. apply Hm. reflexivity.
Qed.
Print Assumptions C63_only_wellformed_partial.

(** But not for IPv6 in general: a label like "ab" is taken as a "digit", so the
    name below, which is not the reverse name of any address, is read as one. *)
Theorem C63_only_wellformed_refuted :
  exists s i, parse_arpa s = Some i /\ (forall b, ~ arpa4 s b) /\ (forall b, ~ arpa6 s b).
Proof.
  exists $"ab.0.0.0.0.0.0.0.0.0.0.0.0.0.0.0.0.0.0.0.0.0.0.0.8.b.d.0.1.0.0.2.ip6.arpa.".
  eexists. split; [vm_compute; reflexivity|]. split; intros b H.
  - apply suffix4_of in H. vm_compute in H. discriminate.
  - destruct H as [ps [E [Hl H]]]. apply nibble_no_dot in H as Hd. apply nibble_length in H as Hp. rewrite rev_length, Hl in Hp.
    assert (ps <> []) as Hne by (intros ->; discriminate).
    pose proof (strip_suffix ps $"ip6.arpa." Hne Hd) as Hs. rewrite <- E in Hs. vm_compute in Hs. subst ps.
    inversion H as [|lo hi ps l h bs H1 H2 [H3 H4] H5]; subst.
    assert (parse_uint 16 8 [("a")%char; ("b")%char] = Some l) as Hx.
    { apply parse_uint_iff; [lia|]. split; [exact H1|]. simpl. lia. }
    vm_compute in Hx. inversion Hx. lia.
Qed.
Print Assumptions C63_only_wellformed_refuted.
