(** Theorems about the texts of upstreams and ports in the configuration. *)
From Coq Require Import String Ascii List Arith NArith Bool Lia ZifyBool ZifyNat ZifyN.
From Verif Require Import Str StrFacts Num NumFacts Dns ParsersSpec ParsersProofs ArpaSpec Arpa ArpaProofs
  Ip IpSpec IpProofs IpProps ConfUpstream ConfUpstreamSpec ConfUpstreamProofs.
Import ListNotations.
Open Scope list_scope.

(** ** C69: ports *)

(** A port is accepted exactly if it is a decimal number up to 65535, with any white space around it. *)
Theorem C69_port_partial : forall s p, convert_port s = Some p <-> port_text s p.
Proof. exact convert_port_iff. Qed.
Print Assumptions C69_port_partial.

(** Port 0, which no server has, is accepted, although the error message for other texts says "1 - 65535". *)
Theorem C69_zero_refuted : exists s u, parse_upstream s = Some u /\ u_port u = 0%N /\ s = $"tcp-tls:dns.example.com:0".
Proof. eexists _, _. split; [|split; [|reflexivity]]; reflexivity. Qed.
Print Assumptions C69_zero_refuted.

Example C69_example : convert_port ($" 8053 ") = Some 8053%N /\ convert_port ($"65536") = None /\ convert_port ($"") = None /\
  convert_port ($"-1") = None /\ convert_port ($"5 3") = None /\ convert_port ($"+53") = None.
Proof. repeat split. Qed.

(** ** C68: upstreams *)
Lemma extract_cn_spec s cn r : extract_common_name s = (cn, r) ->
  ~ In "#"%char r /\ (s = r /\ cn = [] \/ s = r ++ $"#" ++ cn).
Proof.
  unfold extract_common_name. destruct (index_byte hash s) as [i|] eqn:E; intros [= <- <-].
  - apply index_byte_Some in E as [E [H _]]. split; [exact H|]. right. exact E.
  - apply index_byte_None in E. auto.
Qed.
Lemma extract_cn_none r : ~ In "#"%char r -> extract_common_name r = ([], r).
Proof. intros H. unfold extract_common_name. apply index_byte_None in H. unfold hash. now rewrite H. Qed.
Lemma extract_cn_some r cn : ~ In "#"%char r -> extract_common_name (r ++ $"#" ++ cn) = (cn, r).
Proof.
  intros H. unfold extract_common_name. change (r ++ $"#" ++ cn) with (r ++ hash :: cn). rewrite index_byte_app by exact H.
  rewrite firstn_app, firstn_all, Nat.sub_diag, firstn_O, app_nil_r. rewrite skipn_app, skipn_all2 by lia.
  replace (S (length r) - length r) with 1 by lia. reflexivity.
Qed.

Lemma extract_path_spec s p r : extract_path s = (p, r) ->
  s = r ++ p /\ ~ In "/"%char r /\ (p = [] \/ exists t, p = $"/" ++ t).
Proof.
  unfold extract_path. destruct (index_byte slash s) as [i|] eqn:E; intros [= <- <-].
  - apply index_byte_Some in E as [E [H Hi]]. split; [now rewrite firstn_skipn|]. split; [exact H|]. right. exists (skipn (S i) s).
    rewrite E at 1. rewrite skipn_app, firstn_length. replace (Nat.min i (length s)) with i by lia. rewrite skipn_firstn_comm, Nat.sub_diag. reflexivity.
  - apply index_byte_None in E. rewrite app_nil_r. auto.
Qed.
Lemma extract_path_app r p : ~ In "/"%char r -> (p = [] \/ exists t, p = $"/" ++ t) -> extract_path (r ++ p) = (p, r).
Proof.
  intros H [->|[t ->]]; unfold extract_path.
  - rewrite app_nil_r. apply index_byte_None in H. unfold slash. now rewrite H.
  - change (r ++ $"/" ++ t) with (r ++ slash :: t). rewrite index_byte_app by exact H.
    rewrite firstn_app, firstn_all, Nat.sub_diag, firstn_O, app_nil_r. now rewrite skipn_app, skipn_all, Nat.sub_diag.
Qed.

Lemma skipn_length_app {A} (p t : list A) : skipn (length p) (p ++ t) = t.
Proof. now rewrite skipn_app, skipn_all, Nat.sub_diag. Qed.

Lemma extract_net_spec s n r : extract_net s = (n, r) ->
  exists net, s = net ++ r /\ net_text net n /\ (net = [] -> forall m k t, net_text m k -> m <> [] -> s <> m ++ t).
Proof.
  unfold extract_net.
  destruct (has_prefix s (net_name TcpUdp ++ [colon])) eqn:E1.
  { intros E; apply pair_equal_spec in E as [<- <-]. apply has_prefix_spec in E1 as [t ->]. exists ($"tcp+udp:"). rewrite skipn_length_app.
    split; [reflexivity|]. split; [constructor|discriminate]. }
  destruct (has_prefix s (net_name TcpTls ++ [colon])) eqn:E2.
  { intros E; apply pair_equal_spec in E as [<- <-]. apply has_prefix_spec in E2 as [t ->]. exists ($"tcp-tls:"). rewrite skipn_length_app.
    split; [reflexivity|]. split; [constructor|discriminate]. }
  destruct (has_prefix s (net_name Https ++ [colon])) eqn:E3.
  { intros E; apply pair_equal_spec in E as [<- <-]. apply has_prefix_spec in E3 as [t ->]. rewrite skipn_length_app. destruct (has_prefix t ($"//")) eqn:E4.
    - apply has_prefix_spec in E4 as [t' ->]. rewrite trim_prefix_app. exists ($"https://"). split; [reflexivity|]. split; [constructor|discriminate].
    - exists ($"https:"). unfold trim_prefix. rewrite E4. split; [reflexivity|]. split; [constructor|discriminate]. }
  intros [= <- <-]. exists []. split; [reflexivity|]. split; [constructor|]. intros _ m k t Hm Hn ->.
  destruct Hm; [congruence|clear -E1; discriminate|clear -E2; discriminate|clear -E3; discriminate|clear -E3; discriminate].
Qed.

Lemma extract_net_app net n r : net_text net n -> (net = [] -> forall m k t, net_text m k -> m <> [] -> r <> m ++ t) ->
  ~ (exists t, r = $"/" ++ t) -> extract_net (net ++ r) = (n, r).
Proof.
  intros H Hn Hs. destruct H; unfold extract_net.
  - cbn [app]. specialize (Hn eq_refl).
    destruct (has_prefix r (net_name TcpUdp ++ [colon])) eqn:E1.
    { apply has_prefix_spec in E1 as [t E]. exfalso. exact (Hn _ _ t net_tcp_udp ltac:(discriminate) E). }
    destruct (has_prefix r (net_name TcpTls ++ [colon])) eqn:E2.
    { apply has_prefix_spec in E2 as [t E]. exfalso. exact (Hn _ _ t net_tcp_tls ltac:(discriminate) E). }
    destruct (has_prefix r (net_name Https ++ [colon])) eqn:E3; [|reflexivity].
    apply has_prefix_spec in E3 as [t E]. exfalso. exact (Hn _ _ t net_https ltac:(discriminate) E).
  - reflexivity.
  - reflexivity.
  - assert (trim_prefix r ($"//") = r) as Et.
    { unfold trim_prefix. destruct (has_prefix r ($"//")) eqn:E; [|reflexivity]. apply has_prefix_spec in E as [t ->].
      exfalso. apply Hs. now exists ("/"%char :: t). }
    change (has_prefix ($"https:" ++ r) (net_name TcpUdp ++ [colon])) with false.
    change (has_prefix ($"https:" ++ r) (net_name TcpTls ++ [colon])) with false.
    change (has_prefix ($"https:" ++ r) (net_name Https ++ [colon])) with true. cbv iota.
    change (skipn (length (net_name Https ++ [colon])) ($"https:" ++ r)) with r. now rewrite Et.
  - reflexivity.
Qed.

Lemma lit_no_In c s : existsb (Ascii.eqb c) s = false -> ~ In c s.
Proof. intros H X. assert (existsb (Ascii.eqb c) s = true) as E; [apply existsb_exists; exists c; split; [exact X|apply Ascii.eqb_refl]|congruence]. Qed.

Lemma not_white c : is_space c = false -> ~ white c.
Proof. intros H. now apply is_space_false. Qed.

(** Host and port, read as by the code. *)
Definition read_host_port (default : N) (s : str) : option (str * N) :=
  match (match split_host_port s with
         | Some (h, p) => match convert_port p with Some p => Some (h, p) | None => None end
         | None => Some (trim_suffix (trim_prefix s ($"[")) ($"]"), default)
         end) with
  | None => None
  | Some (h, p) => if host_ok h then Some (h, p) else None
  end.

Lemma parse_upstream_eq s : parse_upstream s =
  let '(cn, s1) := extract_common_name s in let '(n, s2) := extract_net s1 in let '(path, s3) := extract_path s2 in
  match read_host_port (net_default_port n) s3 with
  | Some (h, p) => Some {| u_net := n; u_host := h; u_port := p; u_path := path; u_cn := cn |}
  | None => None
  end.
Proof.
  unfold parse_upstream, read_host_port. destruct (extract_common_name s) as [cn s1]. destruct (extract_net s1) as [n s2].
  destruct (extract_path s2) as [path s3]. destruct (split_host_port s3) as [[h p]|].
  - destruct (convert_port p) as [p'|]; [|reflexivity]. now destruct (host_ok h).
  - now destruct (host_ok _).
Qed.

Lemma trim_open (s : str) : s = trim_prefix s ($"[") \/ s = $"[" ++ trim_prefix s ($"[").
Proof.
  unfold trim_prefix. destruct (has_prefix s ($"[")) eqn:E; [|now left]. right. apply has_prefix_spec in E as [t ->]. reflexivity.
Qed.
Lemma trim_close (s : str) : s = trim_suffix s ($"]") \/ s = trim_suffix s ($"]") ++ $"]".
Proof.
  unfold trim_suffix. destruct (has_suffix s ($"]")) eqn:E; [|now left]. right. apply has_suffix_spec in E as [t ->].
  change (t ++ $"]") with (t ++ ["]"%char]). rewrite app_length. replace (length t + length ["]"%char] - length ($"]")) with (length t) by (cbn; lia).
  now rewrite firstn_app, firstn_all, Nat.sub_diag, firstn_O, app_nil_r.
Qed.
Lemma trim_open_id h : ~ In "["%char h -> trim_prefix h ($"[") = h.
Proof.
  intros H. unfold trim_prefix. destruct (has_prefix h ($"[")) eqn:E; [|reflexivity]. apply has_prefix_spec in E as [t ->]. exfalso. apply H. now left.
Qed.
Lemma trim_close_id h : ~ In "]"%char h -> trim_suffix h ($"]") = h.
Proof.
  intros H. apply trim_suffix_not. destruct (has_suffix h ($"]")) eqn:E; [|reflexivity]. apply has_suffix_spec in E as [t ->]. exfalso. apply H.
  apply in_app_iff. right. now left.
Qed.

Lemma read_host_port_iff default s h p : read_host_port default s = Some (h, p) <-> host_port_text default s h p.
Proof.
  unfold read_host_port. split.
  - destruct (split_host_port s) as [[h' ps]|] eqn:E.
    + destruct (convert_port ps) as [p'|] eqn:Ep; [|discriminate]. destruct (host_ok h') eqn:Eh; [|discriminate]. intros [= -> ->].
      apply host_ok_iff in Eh. apply convert_port_iff in Ep. apply split_host_port_sound in E as [[-> Hc]| ->].
      * exact (hp_port default h ps p Eh Hc Ep).
      * exact (hp_brackets_port default h ps p Eh Ep).
    + set (h' := trim_suffix (trim_prefix s ($"[")) ($"]")). destruct (host_ok h') eqn:Eh; [|discriminate]. intros [= <- <-].
      apply host_ok_iff in Eh. destruct (trim_open s) as [E1|E1], (trim_close (trim_prefix s ($"["))) as [E2|E2]; fold h' in E2; rewrite E1, E2.
      * now apply hp_bare.
      * now apply hp_close.
      * now apply hp_open.
      * now apply hp_brackets.
  - intros H. destruct H as [h H|h H|h H|h H|h s p H Hc Hp|h s p H Hp]; pose proof (proj2 (host_ok_iff h) H) as Hok;
      pose proof (host_no_lbracket _ H) as Hl; pose proof (host_no_rbracket _ H) as Hr.
    + rewrite no_port_bare by exact H. now rewrite trim_open_id, trim_close_id, Hok.
    + rewrite (no_port_open h H : split_host_port ($"[" ++ h) = None). now rewrite trim_prefix_app, trim_close_id, Hok.
    + rewrite (no_port_close h H : split_host_port (h ++ $"]") = None). rewrite trim_open_id; [|rewrite in_app_iff; intros [X|[X|[]]]; [auto|discriminate]]. now rewrite trim_suffix_app, Hok.
    + rewrite (no_port_brackets h H : split_host_port ($"[" ++ h ++ $"]") = None). now rewrite trim_prefix_app, trim_suffix_app, Hok.
    + change (h ++ $":" ++ s) with (h ++ ":"%char :: s). rewrite split_host_port_plain;
        [|assumption|assumption|assumption|apply (port_not _ _ p); [exact Hp|now apply not_white|cbn; lia]..].
      apply convert_port_iff in Hp. now rewrite Hp, Hok.
    + change ($"[" ++ h ++ $"]:" ++ s) with ("["%char :: h ++ "]"%char :: ":"%char :: s). rewrite split_host_port_bracket;
        [|assumption|assumption|apply (port_not _ _ p); [exact Hp|now apply not_white|cbn; lia]..].
      apply convert_port_iff in Hp. now rewrite Hp, Hok.
Qed.

(** Host and port contain neither slash nor hash, and are not empty. *)
Lemma host_port_chars default s h p : host_port_text default s h p -> s <> [] /\ ~ In "/"%char s /\ ~ In "#"%char s.
Proof.
  intros H. destruct H as [h H|h H|h H|h H|h s p H Hc Hp|h s p H Hp]; pose proof (host_no_slash _ H) as Hs;
    pose proof (host_no_hash _ H) as Hh; destruct (host_chars _ H) as [Hn _]; repeat split; try exact Hn; try discriminate;
    try (now apply app_nonempty); rewrite ?in_app_iff; intros X; cbn [lit list_ascii_of_string In] in X;
    repeat match goal with X : _ \/ _ |- _ => destruct X as [X|X] end; try discriminate; try contradiction;
    try (match goal with X : In _ _ |- _ => now apply Hs in X end); try (match goal with X : In _ _ |- _ => now apply Hh in X end);
    try (match goal with X : In _ s |- _ => apply (port_not _ _ _ Hp) in X; [exact X|now apply not_white|cbn; lia] end).
Qed.

(** An upstream is accepted exactly if its text has the documented form, and then it consists of exactly the
    parts of the text, with the documented defaults. *)
Theorem C68_parts : forall s u, parse_upstream s = Some u <-> upstream_text s u.
Proof.
  intros s u. rewrite parse_upstream_eq. split.
  - destruct (extract_common_name s) as [cn s1] eqn:Ec. destruct (extract_net s1) as [n s2] eqn:En. destruct (extract_path s2) as [path s3] eqn:Ep.
    destruct (read_host_port (net_default_port n) s3) as [[h p]|] eqn:Eh; [|discriminate]. intros [= <-].
    apply extract_cn_spec in Ec as [Hh Ec]. apply extract_net_spec in En as [net [E1 [Hnet Hno]]]. apply extract_path_spec in Ep as [E2 [Hsl Hpath]].
    apply read_host_port_iff in Eh. subst s1 s2. exists net, s3, (if str_eqb s (net ++ s3 ++ path) then [] else $"#" ++ cn). cbn [u_net u_host u_port u_path u_cn].
    assert (net_default_port n = documented_port n) as Hd by now destruct n.
    assert (~ In "#"%char path) as Hp by (intros X; apply Hh; rewrite !in_app_iff; auto).
    assert (net = [] -> forall n0 m t, net_text n0 m -> n0 <> [] -> s3 <> n0 ++ t) as Hno'.
    { intros E m k t Hm Hmn E3. apply (Hno E m k (t ++ path) Hm Hmn). rewrite E, E3. now rewrite <- app_assoc. }
    rewrite <- Hd. destruct Ec as [[-> ->]| ->].
    + rewrite str_eqb_refl, app_nil_r. repeat split; auto.
    + rewrite (proj2 (str_eqb_neq _ _)).
      * repeat split; auto. now rewrite <- !app_assoc.
      * intros X. apply (f_equal (@length ascii)) in X. rewrite app_length in X. cbn in X. lia.
  - intros [net [hp [rest [E [Hnet [Hno [Hhp [Hpath [Hnh Hrest]]]]]]]]]. destruct (host_port_chars _ _ _ _ Hhp) as [Hne [Hsl Hh]].
    assert (extract_common_name s = (u_cn u, net ++ hp ++ u_path u)) as ->.
    { assert (~ In "#"%char (net ++ hp ++ u_path u)) as Hall.
      { rewrite !in_app_iff. intros [X|[X|X]]; [|auto|auto]. destruct Hnet; revert X; apply lit_no_In; reflexivity. }
      destruct Hrest as [[-> ->]| ->].
      - rewrite app_nil_r in E. rewrite E. now apply extract_cn_none.
      - rewrite E. replace (net ++ hp ++ u_path u ++ $"#" ++ u_cn u) with ((net ++ hp ++ u_path u) ++ $"#" ++ u_cn u) by now rewrite <- !app_assoc.
        now apply extract_cn_some. }
    rewrite (extract_net_app net (u_net u) (hp ++ u_path u) Hnet).
    + rewrite (extract_path_app hp (u_path u) Hsl Hpath).
      assert (net_default_port (u_net u) = documented_port (u_net u)) as -> by now destruct (u_net u).
      apply read_host_port_iff in Hhp. rewrite Hhp. now destruct u.
    + intros En m k t Hm Hmn X. specialize (Hno En). destruct Hpath as [Hp|[t' Hp]]; [rewrite Hp, app_nil_r in X; exact (Hno _ _ _ Hm Hmn X)|].
      assert (forall q, ~ In "/"%char q -> m = q -> False) as Hq.
      { intros q Hqs ->. rewrite Hp in X.
        assert (exists t2, hp = q ++ t2) as [t2 ->]; [|exact (Hno q k t2 Hm Hmn eq_refl)].
        clear -X Hqs Hsl. revert hp X Hsl. induction q as [|x q IH]; intros hp X Hsl; [now exists hp|].
        destruct hp as [|y hp]; [cbn in X; injection X as <- X; exfalso; apply Hqs; now left|].
        cbn [app] in X. injection X as -> X. destruct (IH (fun G => Hqs (or_intror G)) hp X (fun G => Hsl (or_intror G))) as [t2 ->]. now exists t2. }
      destruct Hm; [congruence|eapply Hq; [|reflexivity]; apply lit_no_In; reflexivity..|].
      (* "https://" contains "https:" *)
      rewrite Hp in X. assert (exists t2, hp = $"https:" ++ t2) as [t2 ->]; [|exact (Hno _ _ t2 net_https ltac:(discriminate) eq_refl)].
      assert (hp ++ $"/" ++ t' = $"https:" ++ ($"//" ++ t)) as X' by exact X. clear -X' Hsl.
      assert (forall q w, ~ In "/"%char q -> hp ++ $"/" ++ t' = q ++ w -> exists t2, hp = q ++ t2) as Hgen.
      { clear X'. intros q. revert hp Hsl. induction q as [|x q IH]; intros hp Hsl w Hqs X; [now exists hp|].
        destruct hp as [|y hp]; [cbn in X; injection X as <- X; exfalso; apply Hqs; now left|].
        cbn [app] in X. injection X as -> X. destruct (IH hp (fun G => Hsl (or_intror G)) w (fun G => Hqs (or_intror G)) X) as [t2 ->]. now exists t2. }
      apply (Hgen _ ($"//" ++ t)); [apply lit_no_In; reflexivity|exact X'].
    + intros [t X]. destruct hp as [|c hp]; [congruence|]. cbn in X. injection X as -> _. apply Hsl. now left.
Qed.
Print Assumptions C68_parts.

(** A text never stands for two upstreams. *)
Theorem C68_unambiguous : forall s u v, upstream_text s u -> upstream_text s v -> u = v.
Proof. intros s u v Hu Hv. apply C68_parts in Hu, Hv. congruence. Qed.
Print Assumptions C68_unambiguous.

(** The text printed for an upstream read from the configuration is a text of that upstream, without the
    common name. *)
Theorem C68_round_trip : forall s u, parse_upstream s = Some u -> parse_upstream (print_upstream u) = Some (nameless u).
Proof.
  intros s u H. apply C68_parts in H. destruct H as [net [hp [rest [_ [_ [_ [Hhp [Hpath [Hnh _]]]]]]]]]. apply C68_parts.
  assert (host_text (u_host u)) as Hhost by (destruct Hhp; assumption).
  assert (u_port u <= 65535)%N as Hport.
  { assert (documented_port (u_net u) <= 65535)%N as Hd by (destruct (u_net u); cbn; lia). destruct Hhp as [| | | |? ? ? ? ? [a [d [b [_ [_ [_ [_ X]]]]]]]|? ? ? ? [a [d [b [_ [_ [_ [_ X]]]]]]]]; assumption. }
  unfold print_upstream. assert (upstream_is_default u = false) as ->.
  { unfold upstream_is_default. destruct (host_chars _ Hhost) as [Hn _]. rewrite (proj2 (str_eqb_neq (u_host u) []) Hn). now rewrite andb_false_r. }
  assert (exists net', net_name (u_net u) ++ [colon] ++ (if net_eqb (u_net u) Https then $"//" else []) = net' /\ net_text net' (u_net u) /\ net' <> []) as [net' [En [Hnet' Hne]]].
  { eexists. split; [reflexivity|]. destruct (u_net u); (split; [constructor|discriminate]). }
  exists net', ((if contains_byte colon (u_host u) then $"[" ++ u_host u ++ $"]" else u_host u) ++
    (if (u_port u =? net_default_port (u_net u))%N then [] else [colon] ++ print_dec (u_port u))), []. cbn [nameless u_net u_host u_port u_path u_cn].
  split; [rewrite <- En, app_nil_r, <- !app_assoc; reflexivity|]. split; [exact Hnet'|]. split; [congruence|]. split; [|auto].
  assert (net_default_port (u_net u) = documented_port (u_net u)) as -> by now destruct (u_net u).
  assert (port_text (print_dec (u_port u)) (u_port u)) as Hpt.
  { exists [], (print_dec (u_port u)), []. rewrite app_nil_r. repeat split; [constructor|constructor| |exact Hport].
    assert (parse_uint 10 16 (print_dec (u_port u)) = Some (u_port u)) as X by (apply parse_print_dec; change (2 ^ 16)%N with 65536%N; lia).
    apply parse_uint_iff in X; [apply X|lia]. }
  destruct (N.eqb_spec (u_port u) (documented_port (u_net u))) as [Ep|Ep].
  - rewrite app_nil_r, Ep. destruct (contains_byte colon (u_host u)); [now apply hp_brackets|now apply hp_bare].
  - destruct (contains_byte colon (u_host u)) eqn:Ec.
    + rewrite <- !app_assoc. exact (hp_brackets_port _ _ _ _ Hhost Hpt).
    + apply contains_byte_not_In in Ec. exact (hp_port _ _ _ _ Hhost Ec Hpt).
Qed.
Print Assumptions C68_round_trip.

Example C68_example :
  parse_upstream ($"https://dns.example.com:8443/dns-query#cn.example.org") =
    Some {| u_net := Https; u_host := $"dns.example.com"; u_port := 8443; u_path := $"/dns-query"; u_cn := $"cn.example.org" |} /\
  parse_upstream ($"tcp-tls:[2001:db8::1]:8853") =
    Some {| u_net := TcpTls; u_host := $"2001:db8::1"; u_port := 8853; u_path := []; u_cn := [] |} /\
  parse_upstream ($"2001:db8::1") = Some {| u_net := TcpUdp; u_host := $"2001:db8::1"; u_port := 53; u_path := []; u_cn := [] |} /\
  print_upstream {| u_net := TcpTls; u_host := $"2001:db8::1"; u_port := 8853; u_path := []; u_cn := $"x" |} = $"tcp-tls:[2001:db8::1]:8853" /\
  parse_upstream ($"-bad.example.com") = None /\ parse_upstream ($"192.0.2.1:http") = None.
Proof. repeat split; reflexivity. Qed.

(** A server called "https" or "tcp-tls" can't be given with a port and no protocol: the text means
    something else. *)
Example C68_protocol_name : parse_upstream ($"https:53") = Some {| u_net := Https; u_host := $"53"; u_port := 443; u_path := []; u_cn := [] |}.
Proof. reflexivity. Qed.

(** The common name is lost in the printed text: upstreams that differ only in the name expected in the
    certificate are printed alike. *)
Theorem C68_common_name_refuted : exists s u, parse_upstream s = Some u /\ parse_upstream (print_upstream u) <> Some u.
Proof.
  exists ($"tcp-tls:192.0.2.1#dns.example.com"). eexists. split; [reflexivity|]. vm_compute. discriminate.
Qed.
Print Assumptions C68_common_name_refuted.

(** ** C105: addresses to listen on *)

(** Every part of the list between commas is one address, in order; a part without colon is a port. *)
Theorem C105_listen : forall parts, parts <> [] -> Forall (fun p => ~ In ","%char p) parts ->
  exists addrs, listen_addresses (join ($",") parts) = addrs /\
    Forall2 (fun p a => In ":"%char p /\ a = p \/ ~ In ":"%char p /\ a = $":" ++ p) parts addrs.
Proof.
  intros parts Hn Hp. eexists. split; [reflexivity|]. unfold listen_addresses.
  assert (split_byte comma (join ($",") parts) = parts) as ->.
  { clear -Hn Hp. induction Hp as [|p ps Hp0 Hps IH]; [congruence|]. destruct ps as [|q ps].
    - cbn [join]. now apply split_byte_no.
    - change (join ($",") (p :: q :: ps)) with (p ++ comma :: join ($",") (q :: ps)). rewrite split_byte_app, IH by discriminate.
      now rewrite split_byte_no by exact Hp0. }
  clear. induction parts as [|p ps IH]; [constructor|]. cbn [map]. constructor; [|exact IH].
  destruct (contains_byte colon p) eqn:E.
  - left. split; [now apply contains_byte_In|reflexivity].
  - right. split; [now apply contains_byte_not_In|reflexivity].
Qed.
Print Assumptions C105_listen.

Example C105_example : listen_addresses ($"53,[::1]:53,192.0.2.1:5353") = [$":53"; $"[::1]:53"; $"192.0.2.1:5353"].
Proof. reflexivity. Qed.
(** A blank after the comma stays in the address: the port of the second address is " 5353", which no
    lookup of ports understands. *)
Example C105_blank : listen_addresses ($"53, 5353") = [$":53"; $": 5353"].
Proof. reflexivity. Qed.
