(** Lemmas about the texts of connections: addresses and URLs. *)
From Coq Require Import String Ascii List Arith NArith ZArith Bool Lia.
From Verif Require Import Str StrFacts Num NumFacts Dns Server Ip ArpaSpec IpSpec IpProofs IpProps Target TargetProps Upstream Connect ConnectSpec.
From Verif Require Import ConfUpstream ConfUpstreamSpec ConfUpstreamProofs ConfUpstreamProps.
Import ListNotations.
Open Scope list_scope.

Lemma all_ascii (f : ascii -> bool) : forallb (fun n => f (ascii_of_nat n)) (seq 0 256) = true -> forall c, f c = true.
Proof.
  intros H c. rewrite forallb_forall in H. rewrite <- (ascii_nat_embedding c). apply H, in_seq. pose proof (nat_ascii_bounded c). lia.
Qed.

(** What is true of the characters of addresses, ports and brackets. *)
Definition addr_byte (c : ascii) : bool := match digit_val 16 c with Some _ => true | None => Ascii.eqb c colon || Ascii.eqb c dot end.
Lemma addr_byte_check (f : ascii -> bool) : forallb (fun n => negb (addr_byte (ascii_of_nat n)) || f (ascii_of_nat n)) (seq 0 256) = true ->
  forall s, forallb addr_byte s = true -> forallb f s = true.
Proof.
  intros H s Hs. pose proof (all_ascii (fun c => negb (addr_byte c) || f c) H) as A. rewrite forallb_forall in *. intros c Hc. specialize (Hs c Hc).
  specialize (A c). cbn beta in A. now rewrite Hs in A.
Qed.
Lemma forallb_not_in d s : forallb (is_not d) s = true -> ~ In d s.
Proof. intros H Hi. rewrite forallb_forall in H. apply H in Hi. unfold is_not in Hi. now rewrite Ascii.eqb_refl in Hi. Qed.

Lemma ip_string_bytes a : valid_ip a -> forallb addr_byte (go_ip_string (Some a)) = true /\ go_ip_string (Some a) <> [].
Proof.
  intros Hv. destruct (C101_round_trip a Hv) as [Ht _]. apply ip_chars in Ht as [H1 H2]. split; auto.
  apply forallb_forall. intros c Hc. rewrite Forall_forall in H2. destruct (H2 c Hc) as [H|[->| ->]]; [|reflexivity|reflexivity].
  unfold addr_byte. unfold is_hex in H. destruct (digit_val 16 c); [reflexivity|now elim H].
Qed.

Definition dec_byte (c : ascii) : bool := let n := N_of_ascii c in ((48 <=? n) && (n <=? 57))%N.
Lemma print_dec_bytes n : forallb dec_byte (print_dec n) = true.
Proof.
  apply forallb_forall. intros c Hc. apply print_dec_chars in Hc as [d [Hd ->]]. unfold digit.
  replace (d <? 10)%N with true by (symmetry; now apply N.ltb_lt).
  assert (forallb (fun k => dec_byte (ascii_of_N (48 + N.of_nat k))) (seq 0 10) = true) as H by (vm_compute; reflexivity).
  rewrite forallb_forall in H. specialize (H (N.to_nat d)). rewrite N2Nat.id in H. apply H, in_seq. lia.
Qed.
Lemma dec_byte_check (f : ascii -> bool) : forallb (fun n => negb (dec_byte (ascii_of_nat n)) || f (ascii_of_nat n)) (seq 0 256) = true ->
  forall s, forallb dec_byte s = true -> forallb f s = true.
Proof.
  intros H s Hs. pose proof (all_ascii (fun c => negb (dec_byte c) || f c) H) as A. rewrite forallb_forall in *. intros c Hc. specialize (Hs c Hc).
  specialize (A c). cbn beta in A. now rewrite Hs in A.
Qed.

Definition hp_text (a : ip) (port : N) : str := join_host_port (go_ip_string (Some a)) (print_dec port).

(** The address that is dialled. *)
Lemma dial_hp a port : valid_ip a -> (port < 65536)%N -> dial_target (hp_text a port) = Some (a, port).
Proof.
  intros Hv Hp. destruct (ip_string_bytes a Hv) as [Hb _]. destruct (C101_round_trip a Hv) as [_ Hr].
  pose proof (print_dec_bytes port) as Hd.
  assert (forall d, forallb (fun n => negb (dec_byte (ascii_of_nat n)) || is_not d (ascii_of_nat n)) (seq 0 256) = true -> ~ In d (print_dec port)) as ND
    by (intros d H; apply forallb_not_in; now apply (dec_byte_check _ H)).
  assert (forall d, forallb (fun n => negb (addr_byte (ascii_of_nat n)) || is_not d (ascii_of_nat n)) (seq 0 256) = true -> ~ In d (go_ip_string (Some a))) as NA
    by (intros d H; apply forallb_not_in; now apply (addr_byte_check _ H)).
  assert (split_host_port (hp_text a port) = Some (go_ip_string (Some a), print_dec port)) as E.
  { unfold hp_text, join_host_port. destruct (contains_byte colon (go_ip_string (Some a))) eqn:Ec.
    - change ($"[" ++ go_ip_string (Some a) ++ $"]:" ++ print_dec port) with ("["%char :: go_ip_string (Some a) ++ "]"%char :: ":"%char :: print_dec port).
      apply split_host_port_bracket; first [apply NA|apply ND]; vm_compute; reflexivity.
    - change ($":" ++ print_dec port) with (":"%char :: print_dec port).
      apply split_host_port_plain; try (first [apply NA|apply ND]; vm_compute; reflexivity).
      intros H. apply contains_byte_In in H. change ":"%char with colon in H. congruence. }
  unfold dial_target. rewrite E, Hr, (parse_print_dec 16 port) by exact Hp. reflexivity.
Qed.

(** net/url takes it. *)
Definition host_byte (c : ascii) : bool := is_not "%"%char c && Target.host_ok c && is_not "@"%char c && is_not "/"%char c && is_not "?"%char c && is_not "#"%char c &&
  negb ((N_of_ascii c <? 32) || (N_of_ascii c =? 127))%N.
Lemma hp_bytes a port : valid_ip a -> forallb host_byte (hp_text a port) = true.
Proof.
  intros Hv. destruct (ip_string_bytes a Hv) as [Hb _]. pose proof (print_dec_bytes port) as Hd.
  apply (addr_byte_check host_byte) in Hb; [|vm_compute; reflexivity]. apply (dec_byte_check host_byte) in Hd; [|vm_compute; reflexivity].
  unfold hp_text, join_host_port. destruct (contains_byte colon _); rewrite !forallb_app, Hb, Hd; reflexivity.
Qed.
Lemma forallb_weaken {A} (f g : A -> bool) s : (forall c, f c = true -> g c = true) -> forallb f s = true -> forallb g s = true.
Proof. intros H Hs. rewrite forallb_forall in *. auto. Qed.
Ltac host_weaken := apply forallb_weaken with (f := host_byte); [intros c H; unfold host_byte in H; rewrite !andb_true_iff in H; rewrite ?andb_true_iff; tauto].

Lemma cut_zone_none s : ~ In "%"%char s -> cut_zone s = None.
Proof.
  induction s as [|c s IH]; intros H; [reflexivity|]. cbn [cut_zone]. destruct (has_prefix (c :: s) $"%25") eqn:E.
  - apply has_prefix_spec in E as [t E]. injection E as -> _. elim H. now left.
  - rewrite IH; [reflexivity|]. intros Hi. apply H. now right.
Qed.

Lemma parse_authority_hp a port : valid_ip a -> exists r, parse_authority (hp_text a port) = Some r.
Proof.
  intros Hv. pose proof (hp_bytes a port Hv) as Hb. unfold parse_authority.
  rewrite cut_last_no by (apply forallb_not_in; revert Hb; host_weaken).
  assert (parse_host (hp_text a port) = true) as ->; [|eauto].
  assert (unescape MHost (hp_text a port) = Some (hp_text a port)) as Eu by (apply unescape_host; revert Hb; host_weaken).
  destruct (ip_string_bytes a Hv) as [Ha Hne]. pose proof (print_dec_bytes port) as Hd.
  assert (~ In "]"%char (print_dec port)) as N1 by (apply forallb_not_in; revert Hd; apply dec_byte_check; vm_compute; reflexivity).
  assert (~ In ":"%char (print_dec port)) as N2 by (apply forallb_not_in; revert Hd; apply dec_byte_check; vm_compute; reflexivity).
  assert (~ In "%"%char (go_ip_string (Some a))) as N3 by (apply forallb_not_in; revert Ha; apply addr_byte_check; vm_compute; reflexivity).
  assert (valid_optional_port (":"%char :: print_dec port) = true) as Ep by exact Hd.
  unfold hp_text, join_host_port in *. destruct (contains_byte colon (go_ip_string (Some a))).
  - change ($"[" ++ go_ip_string (Some a) ++ $"]:" ++ print_dec port) with (("["%char :: go_ip_string (Some a)) ++ "]"%char :: ":"%char :: print_dec port) in *.
    unfold parse_host. rewrite cut_last_app by (intros [H|H]; [discriminate|contradiction]).
    rewrite cut_zone_none by (intros [H|H]; [discriminate|contradiction]).
    rewrite Ep, Eu. reflexivity.
  - change ($":" ++ print_dec port) with (":"%char :: print_dec port) in *.
    assert (forall c t, go_ip_string (Some a) = c :: t -> c <> "["%char) as N4.
    { intros c t E ->. rewrite E in Ha. cbn in Ha. discriminate. }
    destruct (go_ip_string (Some a)) as [|c t] eqn:Eg; [now elim Hne|]. specialize (N4 c t eq_refl).
    assert (parse_host ((c :: t) ++ ":"%char :: print_dec port) =
      match cut_last ":"%char ((c :: t) ++ ":"%char :: print_dec port) with Some (_, port) => valid_optional_port (":"%char :: port) | None => true end &&
      match unescape MHost ((c :: t) ++ ":"%char :: print_dec port) with Some _ => true | None => false end) as ->.
    { cbn [app]. unfold parse_host. destruct c as [[] [] [] [] [] [] [] []]; try reflexivity. now elim N4. }
    rewrite cut_last_app by exact N2. now rewrite Ep, Eu.
Qed.

(** ** Paths *)
Lemma clean_char_ok c : letter_or_digit c \/ In c (lit "-._~!$&'()*+,;=:@/") ->
  (is_not "%"%char c && is_not "#"%char c && is_not "?"%char c && negb ((N_of_ascii c <? 32) || (N_of_ascii c =? 127))%N &&
   (path_plain c || one_of "!$&'()*+,;=:@[]%" c))%bool = true.
Proof.
  intros H.
  assert ((alnum c || existsb (Ascii.eqb c) (lit "-._~!$&'()*+,;=:@/")) = true) as E.
  { apply orb_true_iff. destruct H as [H|H]; [left; now apply alnum_iff|right]. apply existsb_exists. exists c. split; auto. apply Ascii.eqb_refl. }
  revert E. clear. pose (f := fun c => negb (alnum c || existsb (Ascii.eqb c) (lit "-._~!$&'()*+,;=:@/")) ||
   (is_not "%"%char c && is_not "#"%char c && is_not "?"%char c && negb ((N_of_ascii c <? 32) || (N_of_ascii c =? 127))%N &&
   (path_plain c || one_of "!$&'()*+,;=:@[]%" c))%bool).
  intros E. assert (f c = true) as F by (apply all_ascii; vm_compute; reflexivity). unfold f in F. now rewrite E in F.
Qed.
Lemma hex_digit_ok c : hex_digit c ->
  (match hex_val c with Some _ => true | None => false end && is_not "#"%char c && is_not "?"%char c && negb ((N_of_ascii c <? 32) || (N_of_ascii c =? 127))%N && path_plain c)%bool = true.
Proof.
  revert c. unfold hex_digit. apply lit_chars. vm_compute. reflexivity.
Qed.

Definition path_byte (c : ascii) : bool := is_not "#"%char c && is_not "?"%char c && negb ((N_of_ascii c <? 32) || (N_of_ascii c =? 127))%N &&
   (path_plain c || one_of "!$&'()*+,;=:@[]%" c).
Lemma clean_ok p : clean p -> forallb path_byte p = true /\ exists s, unescape MOther p = Some s.
Proof.
  intros H. induction H as [|c s Hc H [IH1 [s' IH2]]|x y s Hx Hy H [IH1 [s' IH2]]].
  - split; [reflexivity|]. now exists [].
  - apply clean_char_ok in Hc. rewrite !andb_true_iff in Hc. destruct Hc as [[[[H1 H2] H3] H4] H5]. split.
    + cbn [forallb]. unfold path_byte. now rewrite H2, H3, H4, H5.
    + exists (c :: s'). cbn [unescape]. unfold is_not in H1. apply negb_true_iff in H1. rewrite H1. now rewrite IH2.
  - apply hex_digit_ok in Hx, Hy. rewrite !andb_true_iff in Hx, Hy. destruct Hx as [[[[H1 H2] H3] H4] H5], Hy as [[[[G1 G2] G3] G4] G5]. split.
    + cbn [forallb]. unfold path_byte at 2 3. rewrite H2, H3, H4, H5, G2, G3, G4, G5. rewrite IH1. reflexivity.
    + destruct (hex_val x) as [vx|] eqn:Ex; [|discriminate]. destruct (hex_val y) as [vy|] eqn:Ey; [|discriminate].
      eexists. cbn [unescape]. change (Ascii.eqb "%" "%") with true. cbv iota. rewrite Ex, Ey, IH2. reflexivity.
Qed.

Lemma url_parts_ok a port path : valid_ip a -> clean_path path ->
  url_parts ($"https://" ++ hp_text a port ++ path) = Some (hp_text a port, match path with [] => $"/" | _ => path end).
Proof.
  intros Hv Hp. pose proof (hp_bytes a port Hv) as Hb. destruct (parse_authority_hp a port Hv) as [r Ha].
  assert (exists p q, path = p ++ match q with Some q => "?"%char :: q | None => [] end /\ forallb path_byte p = true /\
    match q with Some q => forallb path_byte q = true | None => True end /\
    (p = [] /\ q = None \/ exists t, p = "/"%char :: t) /\ exists s, unescape MOther p = Some s) as [p [q [-> [Hp1 [Hq [Hs [s Hu]]]]]]].
  { destruct Hp as [|p Hc|p q Hc Hq].
    - exists [], None. repeat (split; auto). now exists [].
    - exists ("/"%char :: p), None. rewrite app_nil_r. apply clean_ok in Hc as [H1 [s H2]]. split; auto. split; [exact H1|]. split; auto. split; [right; eauto|].
      exists ("/"%char :: s). cbn [unescape]. change (Ascii.eqb "/" "%") with false. cbv iota. now rewrite H2.
    - exists ("/"%char :: p), (Some q). apply clean_ok in Hc as [H1 [s H2]]. apply clean_ok in Hq as [H3 _]. split; auto. split; [exact H1|]. split; auto. split; [right; eauto|].
      exists ("/"%char :: s). cbn [unescape]. change (Ascii.eqb "/" "%") with false. cbv iota. now rewrite H2. }
  set (A := hp_text a port) in *.
  assert (~ In "#"%char (A ++ p ++ match q with Some q => "?"%char :: q | None => [] end)) as NH.
  { assert (forall l, forallb path_byte l = true -> ~ In "#"%char l) as P.
    { intros l H. apply forallb_not_in. revert H. apply forallb_weaken. intros c H. unfold path_byte in H. rewrite !andb_true_iff in H. tauto. }
    rewrite !in_app_iff. intros [H|[H|H]]; [revert H; apply forallb_not_in; revert Hb; host_weaken|now apply P in H|].
    destruct q as [q|]; [|destruct H]. destruct H as [H|H]; [discriminate|now apply P in H]. }
  unfold url_parts. rewrite cut_no.
  2: { rewrite in_app_iff. intros [H|H]; [|contradiction]. cbn in H. intuition discriminate. }
  cbn [unescape].
  assert (existsb (fun c => ((N_of_ascii c <? 32) || (N_of_ascii c =? 127))%N) ($"https://" ++ A ++ p ++ match q with Some q => "?"%char :: q | None => [] end) = false) as ->.
  { assert (forall (f : ascii -> bool) l, (forall c, f c = true -> negb ((N_of_ascii c <? 32) || (N_of_ascii c =? 127))%N = true) -> forallb f l = true ->
      existsb (fun c => ((N_of_ascii c <? 32) || (N_of_ascii c =? 127))%N) l = false) as P.
    { intros f l H Hl. induction l as [|c l IH]; [reflexivity|]. cbn [forallb existsb] in *. apply andb_true_iff in Hl as [H1 H2].
      rewrite IH by exact H2. apply H in H1. apply negb_true_iff in H1. now rewrite H1. }
    assert (forall l, forallb path_byte l = true -> existsb (fun c => ((N_of_ascii c <? 32) || (N_of_ascii c =? 127))%N) l = false) as P'.
    { intros l. apply P. intros c H. unfold path_byte in H. rewrite !andb_true_iff in H. tauto. }
    rewrite !existsb_app, (P host_byte A), (P' p Hp1); auto.
    - destruct q as [q|]; [|reflexivity]. cbn [existsb]. rewrite (P' q Hq). reflexivity.
    - intros c H. unfold host_byte in H. rewrite !andb_true_iff in H. tauto. }
  assert (has_prefix ($"https://" ++ A ++ p ++ match q with Some q => "?"%char :: q | None => [] end) $"https://" = true) as -> by (apply has_prefix_spec; eauto).
  cbn [orb negb].
  change (skipn 8 ($"https://" ++ A ++ p ++ match q with Some q => "?"%char :: q | None => [] end)) with (A ++ p ++ match q with Some q => "?"%char :: q | None => [] end).
  rewrite app_assoc.
  assert (~ In "?"%char (A ++ p)) as NQ.
  { rewrite in_app_iff. intros [H|H]; revert H; apply forallb_not_in; [revert Hb; host_weaken|]. revert Hp1. apply forallb_weaken. intros c H. unfold path_byte in H. rewrite !andb_true_iff in H. tauto. }
  assert (cut "?"%char ((A ++ p) ++ match q with Some q => "?"%char :: q | None => [] end) = (A ++ p, q)) as ->.
  { destruct q as [q|]; [now rewrite cut_app|]. rewrite app_nil_r. now rewrite cut_no. }
  assert (~ In "/"%char A) as NS by (apply forallb_not_in; revert Hb; host_weaken).
  assert (valid_encoded p = true) as Hve.
  { unfold valid_encoded. revert Hp1. apply forallb_weaken. intros c H. unfold path_byte in H. rewrite !andb_true_iff in H. tauto. }
  destruct Hs as [[-> ->]|[t ->]].
  - rewrite app_nil_r, cut_no by exact NS. rewrite Ha. reflexivity.
  - rewrite cut_app by exact NS. rewrite Ha, Hu, Hve. reflexivity.
Qed.
