(** Theorems about connections to upstreams (C152). *)
From Coq Require Import String Ascii List Arith NArith ZArith Bool Lia.
From Verif Require Import Str StrFacts Num NumFacts Dns Server Ip ArpaSpec IpSpec IpProps Target TargetProps Upstream Connect ConnectSpec ConnectProofs.
From Verif Require Import ConfUpstream ConfUpstreamSpec ConfUpstreamProofs ConfUpstreamProps.
Import ListNotations.
Open Scope list_scope.

Lemma parsed_port s u : parse_upstream s = Some u -> (u_port u < 65536)%N.
Proof.
  intros H. apply C68_parts in H. destruct H as [net [hp [rest [_ [_ [_ [H _]]]]]]]. remember (u_port u) as p. remember (u_host u) as h.
  assert (forall n, (documented_port n < 65536)%N) as D by (intros []; cbn; lia).
  assert (forall s p, port_text s p -> (p < 65536)%N) as P by (intros t q [? [? [? [_ [_ [_ [_ Hq]]]]]]]; lia).
  clear Heqp Heqh. destruct H; eauto.
Qed.
Lemma parsed_host s u : parse_upstream s = Some u -> host_text (u_host u).
Proof.
  intros H. apply C68_parts in H. destruct H as [net [hp [rest [_ [_ [_ [H _]]]]]]]. remember (u_host u) as h. clear Heqh. destruct H; auto.
Qed.

Lemma verified_tls u name : verified_name u name -> tc_name (tls_config u) = name.
Proof. intros [[H ->]|[H ->]]; unfold tls_config; cbn [tc_name]; destruct (u_cn u); auto; [now elim H|discriminate H]. Qed.
Lemma tls_accepts_iff u name p : verified_name u name -> tls_accepts (tls_config u) p = true <-> authentic p name.
Proof.
  intros Hn. unfold tls_accepts. rewrite (verified_tls u name Hn), andb_true_iff, existsb_exists. unfold authentic, tls_config. cbn [tc_min]. split.
  - intros [[v [Hv H]] Hc]. split; auto. exists v. split; auto. apply andb_true_iff in H as [H1 H2]. apply Z.leb_le in H1, H2. lia.
  - intros [Hc [v [Hv H]]]. split; auto. exists v. split; auto. apply andb_true_iff. rewrite !Z.leb_le. lia.
Qed.

(** ** DNS over TLS *)
Theorem C152_tls : forall text u w agent p udp_first m a name s r,
  parse_upstream text = Some u -> u_net u = TcpTls -> valid_ip a -> verified_name u name ->
  attempt w u agent p udp_first m a = (s, r) ->
  (authentic (w false a (u_port u)) name <-> s <> []) /\
  (forall x, In x s -> x = {| sd_udp := false; sd_addr := a; sd_port := u_port u; sd_tls := true; sd_msg := Some m; sd_web := None |}) /\
  (forall m', r = inl m' -> authentic (w false a (u_port u)) name /\ pe_dns (w false a (u_port u)) m = inl m' /\ m_id m' = m_id m).
Proof.
  intros text u w agent p udp_first m a name s r Hp Hn Ha Hv. unfold attempt, create_client. rewrite Hn. cbn [call fmt_url].
  change (join_host_port (go_ip_string (Some a)) (print_dec (u_port u))) with (hp_text a (u_port u)).
  unfold dns_exchange. rewrite dial_hp by (auto; exact (parsed_port text u Hp)). cbn [dc_net dc_tls].
  change (has_prefix (net_name TcpTls) $"udp") with false. change (has_prefix (net_name TcpTls) $"tcp" && has_suffix (net_name TcpTls) $"-tls") with true. cbv iota zeta. cbn [andb].
  pose proof (tls_accepts_iff u name (w false a (u_port u)) Hv) as HA.
  destruct (tls_accepts (tls_config u) (w false a (u_port u))); cbn [negb].
  - pose proof (proj1 HA eq_refl) as HA1. intros [= <- <-]. split; [split; [intros _; discriminate|auto]|]. split; [intros x [<-|[]]; reflexivity|].
    intros m' H. destruct (pe_dns _ _) as [r|e]; [|discriminate H]. destruct (N.eqb_spec (m_id r) (m_id m)); [|discriminate H]. injection H as ->. auto.
  - intros [= <- <-]. split; [split; [intros H; apply HA in H; discriminate H|intros H; now elim H]|]. split; [intros x []|intros m' H; discriminate H].
Qed.
Print Assumptions C152_tls.

(** ** DNS over HTTPS *)
Lemma redirect_iff n b : redirect n = Some b <-> (b = true /\ In n [307; 308]%N \/ b = false /\ In n [301; 302; 303]%N).
Proof.
  unfold redirect. cbn [In].
  destruct (N.eqb_spec n 307), (N.eqb_spec n 308), (N.eqb_spec n 301), (N.eqb_spec n 302), (N.eqb_spec n 303); cbn [orb]; destruct b; split;
    try discriminate; try lia; try (intros _; lia); intros [[H1 H2]|[H1 H2]]; try discriminate; try lia; auto.
Qed.

Lemma http_do_spec t w : forall lft secure a port rq s r, http_do lft w t secure a port rq = (s, r) ->
  length s <= S lft /\
  (forall x, In x s -> sd_udp x = false /\ (sd_tls x = true -> tls_accepts t (w false (sd_addr x) (sd_port x)) = true)) /\
  (s = [] <-> secure = true /\ tls_accepts t (w false a port) = false) /\
  (s <> [] -> chain w s /\ hd_error s = Some {| sd_udp := false; sd_addr := a; sd_port := port; sd_tls := secure; sd_msg := wq_body rq; sd_web := Some rq |}) /\
  (forall h, r = inl h -> exists x rq' l, last s x = x /\ In x s /\ sd_web x = Some rq' /\ pe_web (w false (sd_addr x) (sd_port x)) rq' = inl (h, l)).
Proof.
  induction lft as [|lft IH]; intros secure a port rq s r; cbn [http_do]; cbv zeta;
  set (here := {| sd_udp := false; sd_addr := a; sd_port := port; sd_tls := secure; sd_msg := wq_body rq; sd_web := Some rq |});
  (destruct (secure && negb (tls_accepts t (w false a port))) eqn:Es;
   [intros [= <- <-]; apply andb_true_iff in Es as [E1 E2]; apply negb_true_iff in E2;
    split; [cbn; lia|]; split; [intros x []|]; split; [split; auto|]; split; [intros H; now elim H|discriminate]|]);
  (assert (forall s', here :: s' = [] <-> secure = true /\ tls_accepts t (w false a port) = false) as Hnil
    by (intros s'; split; [discriminate|intros [-> E]; rewrite E in Es; discriminate Es]));
  (assert (sd_udp here = false /\ (sd_tls here = true -> tls_accepts t (w false (sd_addr here) (sd_port here)) = true)) as Hhere
    by (split; [reflexivity|]; cbn [sd_tls sd_addr sd_port here]; intros ->; destruct (tls_accepts t (w false a port)); [reflexivity|discriminate Es]));
  (assert (forall (X : http_reply + call_err) (Y : forall h, X = inl h -> exists l, pe_web (w false a port) rq = inl (h, l)),
     length [here] = 1 /\ length [here] = 1 /\ (forall x, In x [here] -> sd_udp x = false /\ (sd_tls x = true -> tls_accepts t (w false (sd_addr x) (sd_port x)) = true)) /\
     ([here] = [] <-> secure = true /\ tls_accepts t (w false a port) = false) /\
     ([here] <> [] -> chain w [here] /\ hd_error [here] = Some here) /\
     (forall h, X = inl h -> exists x rq' l, last [here] x = x /\ In x [here] /\ sd_web x = Some rq' /\ pe_web (w false (sd_addr x) (sd_port x)) rq' = inl (h, l))) as One
    by (intros X Y; split; [reflexivity|]; split; [reflexivity|]; split; [intros x [<-|[]]; exact Hhere|]; split; [apply Hnil|]; split; [intros _; split; [apply ch_one|reflexivity]|];
        intros h Hx; destruct (Y h Hx) as [l Hl]; exists here, rq, l; repeat (split; auto); now left)).
  - destruct (pe_web (w false a port) rq) as [[h loc]|e] eqn:Ew.
    + destruct (redirect (hr_status h)) as [keep|]; [destruct loc as [l|]|].
      * intros [= <- <-]. destruct (One (inr (COther $"stopped after 10 redirects"))) as [_ [H1 H2]]; [discriminate|]. split; [cbn; lia|exact H2].
      * intros [= <- <-]. destruct (One (inl h)) as [_ [H1 H2]]; [intros h0 [= <-]; eauto|]. split; [cbn; lia|exact H2].
      * intros [= <- <-]. destruct (One (inl h)) as [_ [H1 H2]]; [intros h0 [= <-]; eauto|]. split; [cbn; lia|exact H2].
    + intros [= <- <-]. destruct (One (inr e)) as [_ [H1 H2]]; [discriminate|]. split; [cbn; lia|exact H2].
  - destruct (pe_web (w false a port) rq) as [[h loc]|e] eqn:Ew.
    2: { intros [= <- <-]. destruct (One (inr e)) as [_ [H1 H2]]; [discriminate|]. split; [cbn; lia|exact H2]. }
    destruct (redirect (hr_status h)) as [keep|] eqn:Er; [destruct loc as [l|]|].
    2: { intros [= <- <-]. destruct (One (inl h)) as [_ [H1 H2]]; [intros h0 [= <-]; eauto|]. split; [cbn; lia|exact H2]. }
    2: { intros [= <- <-]. destruct (One (inl h)) as [_ [H1 H2]]; [intros h0 [= <-]; eauto|]. split; [cbn; lia|exact H2]. }
    set (next := fun host target => {| wq_post := keep && wq_post rq; wq_target := target; wq_host := host; wq_agent := wq_agent rq; wq_type := wq_type rq; wq_body := if keep then wq_body rq else None |}).
    assert (forall sec a' port' rq' s' r', http_do lft w t sec a' port' rq' = (s', r') -> wq_body rq' = (if keep then wq_body rq else None) ->
      match l with
      | LRelative _ => a' = a /\ port' = port /\ sec = secure
      | LAbsolute sec' _ a0 p0 _ => a0 = Some a' /\ port' = p0 /\ sec = sec'
      end ->
      length (here :: s') <= S (S lft) /\ (forall x, In x (here :: s') -> sd_udp x = false /\ (sd_tls x = true -> tls_accepts t (w false (sd_addr x) (sd_port x)) = true)) /\
      (here :: s' = [] <-> secure = true /\ tls_accepts t (w false a port) = false) /\
      (here :: s' <> [] -> chain w (here :: s') /\ hd_error (here :: s') = Some here) /\
      (forall h0, r' = inl h0 -> exists x rq' l, last (here :: s') x = x /\ In x (here :: s') /\ sd_web x = Some rq' /\ pe_web (w false (sd_addr x) (sd_port x)) rq' = inl (h0, l))) as Go.
    { intros sec a' port' rq' s' r' Hd Hb Hl. destruct (IH _ _ _ _ _ _ Hd) as [H1 [H2 [H3 [H4 H5]]]].
      split; [cbn; lia|]. split; [intros x [<-|Hx]; [exact Hhere|auto]|]. split; [apply Hnil|]. split.
      - intros _. split; [|reflexivity]. destruct s' as [|y s']; [apply ch_one|]. destruct H4 as [Hc Hh]; [discriminate|]. injection Hh as ->. apply ch_more; [|exact Hc].
        exists rq, h, l. split; [reflexivity|]. split; [exact Ew|]. apply redirect_iff in Er.
        split; [cbn [In] in *; destruct Er as [[_ Er]|[_ Er]]; tauto|]. split; [destruct l; cbn [sd_addr sd_port sd_tls here]; tauto|].
        cbn [sd_msg]. rewrite Hb. destruct Er as [[-> Er]|[-> Er]]; [right; auto|now left].
      - intros h0 H0. destruct (H5 h0 H0) as [x [rq0 [l0 [E1 [E2 [E3 E4]]]]]]. exists x, rq0, l0. split; [|split; [now right|auto]].
        destruct s' as [|y s']; [destruct E2|exact E1]. }
    destruct l as [target|sec host [a'|] port' target].
    + destruct (http_do lft w t secure a port _) as [s' r'] eqn:Hd. intros [= <- <-]. apply (Go _ _ _ _ _ _ Hd); auto.
    + destruct (http_do lft w t sec a' port' _) as [s' r'] eqn:Hd. intros [= <- <-]. apply (Go _ _ _ _ _ _ Hd); auto.
    + intros [= <- <-]. destruct (One (inr (COther $"no such host"))) as [_ [H1 H2]]; [discriminate|]. split; [cbn; lia|exact H2].
Qed.

Lemma attempt_https text u w agent p udp_first m a : parse_upstream text = Some u -> u_net u = Https -> valid_ip a -> clean_path (u_path u) ->
  attempt w u agent p udp_first m a =
  let '(s, r) := http_do 9 w (tls_config u) true a (u_port u)
    {| wq_post := true; wq_target := match u_path u with [] => $"/" | _ => u_path u end; wq_host := u_host u; wq_agent := match agent with [] => None | _ => Some agent end;
       wq_type := $"application/dns-message"; wq_body := Some m |} in (s, https_call r).
Proof.
  intros Hp Hn Ha Hc. unfold attempt, create_client. rewrite Hn. unfold fmt_url, call.
  change (join_host_port (go_ip_string (Some a)) (print_dec (u_port u))) with (hp_text a (u_port u)).
  rewrite url_parts_ok by auto. rewrite dial_hp by (auto; exact (parsed_port text u Hp)). reflexivity.
Qed.

(** Redirections aside, this is what [C152_tls] says of TLS; a redirection to an address without TLS is followed. *)
Theorem C152_https_partial : forall text u w agent p udp_first m a name s r,
  parse_upstream text = Some u -> u_net u = Https -> valid_ip a -> clean_path (u_path u) -> verified_name u name ->
  attempt w u agent p udp_first m a = (s, r) ->
  length s <= 10 /\
  (authentic (w false a (u_port u)) name <-> s <> []) /\
  (s <> [] -> chain w s /\ exists first rq, hd_error s = Some first /\ sd_addr first = a /\ sd_port first = u_port u /\ sd_tls first = true /\
     sd_msg first = Some m /\ sd_web first = Some rq /\ wq_post rq = true /\ (wq_target rq = u_path u \/ u_path u = [] /\ wq_target rq = $"/") /\
     wq_host rq = u_host u /\ wq_type rq = $"application/dns-message" /\ wq_body rq = Some m /\ (agent = [] /\ wq_agent rq = None \/ agent <> [] /\ wq_agent rq = Some agent)) /\
  (forall x, In x s -> sd_udp x = false /\ (sd_tls x = true -> authentic (w false (sd_addr x) (sd_port x)) name)) /\
  (forall m', r = inl m' -> exists x rq h l, In x s /\ last s x = x /\ sd_web x = Some rq /\ pe_web (w false (sd_addr x) (sd_port x)) rq = inl (h, l) /\
     hr_status h = 200%N /\ hr_type h = $"application/dns-message" /\ hr_body h = Some m').
Proof.
  intros text u w agent p udp_first m a name s r Hp Hn Ha Hc Hv. rewrite (attempt_https text) by auto.
  destruct (http_do 9 w (tls_config u) true a (u_port u) _) as [s' r'] eqn:Hd. intros [= <- <-]. apply http_do_spec in Hd as [H1 [H2 [H3 [H4 H5]]]].
  split; [exact H1|]. split; [|split; [|split]].
  - rewrite <- (tls_accepts_iff u name _ Hv). split.
    + intros H E. apply H3 in E as [_ E]. congruence.
    + intros H. destruct (tls_accepts (tls_config u) (w false a (u_port u))); auto. elim H. apply H3. auto.
  - intros Hs. destruct (H4 Hs) as [Hch Hh]. split; auto. eexists _, _. split; [exact Hh|]. cbn [sd_addr sd_port sd_tls sd_msg sd_web wq_post wq_target wq_host wq_type wq_body wq_agent].
    repeat (split; [reflexivity|]). split; [destruct (u_path u); auto|]. repeat (split; [reflexivity|]). destruct agent; [left; auto|right; split; [discriminate|reflexivity]].
  - intros x Hx. destruct (H2 x Hx) as [G1 G2]. split; auto. intros G. apply (tls_accepts_iff u name _ Hv). auto.
  - intros m' H. unfold https_call in H. destruct r' as [h|e]; [|discriminate H]. destruct (H5 h eq_refl) as [x [rq [l [E1 [E2 [E3 E4]]]]]].
    destruct (N.eqb_spec (hr_status h) 200) as [E5|]; cbn [negb] in H; [|discriminate H].
    destruct (str_eqb_spec (hr_type h) $"application/dns-message") as [E6|]; cbn [negb] in H; [|discriminate H].
    destruct (hr_body h) as [b|] eqn:E7; [|discriminate H]. injection H as ->. exists x, rq, h, l. auto 10.
Qed.
Print Assumptions C152_https_partial.

(** Without redirections nothing leaves the authenticated connection. *)
Theorem C152_https_direct : forall text u w agent p udp_first m a name s r,
  parse_upstream text = Some u -> u_net u = Https -> valid_ip a -> clean_path (u_path u) -> verified_name u name ->
  (forall rq h l, pe_web (w false a (u_port u)) rq = inl (h, l) -> l = None) ->
  attempt w u agent p udp_first m a = (s, r) ->
  (forall x, In x s -> sd_addr x = a /\ sd_port x = u_port u /\ sd_tls x = true /\ authentic (w false a (u_port u)) name) /\
  (forall m', r = inl m' -> authentic (w false a (u_port u)) name /\ exists rq h, pe_web (w false a (u_port u)) rq = inl (h, None) /\ hr_status h = 200%N /\ hr_body h = Some m').
Proof.
  intros text u w agent p udp_first m a name s r Hp Hn Ha Hc Hv Hno Hat.
  destruct (C152_https_partial text u w agent p udp_first m a name s r Hp Hn Ha Hc Hv Hat) as [_ [H1 [H2 [H3 H4]]]].
  assert (forall x, In x s -> sd_addr x = a /\ sd_port x = u_port u /\ sd_tls x = true /\ authentic (w false a (u_port u)) name) as H.
  { intros x Hx. assert (s <> []) as Hs by (intros ->; destruct Hx). destruct (H2 Hs) as [Hch [f [rq [Hh [E1 [E2 [E3 _]]]]]]].
    destruct s as [|y s]; [now elim Hs|]. injection Hh as ->.
    assert (s = []) as ->.
    { inversion Hch as [|? z l Hpt _]; subst; [reflexivity|]. exfalso. destruct Hpt as [rq' [h [l' [_ [Hw _]]]]].
      destruct (H3 f (or_introl eq_refl)) as [G _]. rewrite G, E2 in Hw. apply Hno in Hw. discriminate Hw. }
    destruct Hx as [<-|[]]. split; [exact E1|]. split; [exact E2|]. split; [exact E3|]. apply H1. discriminate. }
  split; [exact H|]. intros m' Hr. destruct (H4 m' Hr) as [x [rq [h [l [Hx [_ [_ [Hw [Hs [_ Hb]]]]]]]]]]. destruct (H x Hx) as [E1 [E2 [_ E3]]].
  split; auto. exists rq, h. rewrite E1, E2 in Hw. pose proof (Hno _ _ _ Hw) as ->. auto.
Qed.
Print Assumptions C152_https_direct.

(** ** Plain DNS *)
Ltac exists_udp H b :=
  match type of H with match ?x with _ => _ end = _ => destruct x as [y|e] eqn:Ew; [|discriminate H] end;
  match type of H with (if (?i =? ?j)%N then _ else _) = _ => destruct (N.eqb_spec i j) as [Ei|Ei]; [|discriminate H] end; injection H as ->; split; [assumption|exists b; assumption].
Theorem C152_plain : forall text u w agent p udp_first m a s r,
  parse_upstream text = Some u -> u_net u = TcpUdp -> valid_ip a ->
  attempt w u agent p udp_first m a = (s, r) ->
  s = map (fun udp => {| sd_udp := udp; sd_addr := a; sd_port := u_port u; sd_tls := false; sd_msg := Some m; sd_web := None |}) [false; true] /\
  (forall m', r = inl m' -> m_id m' = m_id m /\ exists udp, pe_dns (w udp a (u_port u)) m = inl m').
Proof.
  intros text u w agent p udp_first m a s r Hp Hn Ha. unfold attempt, create_client. rewrite Hn. cbn [call fmt_url].
  change (join_host_port (go_ip_string (Some a)) (print_dec (u_port u))) with (hp_text a (u_port u)).
  unfold dns_exchange. rewrite dial_hp by (auto; exact (parsed_port text u Hp)). cbn [dc_net dc_tls].
  change (has_prefix $"tcp" $"udp") with false. change (has_prefix $"udp" $"udp") with true.
  change (has_prefix $"tcp" $"tcp" && has_suffix $"tcp" $"-tls") with false. change (has_prefix $"udp" $"tcp" && has_suffix $"udp" $"-tls") with false. cbv iota zeta. cbn [andb app].
  intros [= <- <-]. split; [reflexivity|]. intros m' H.
  assert (forall p f g, race_clients p f g = snd f \/ race_clients p f g = snd g) as R.
  { intros p0 f g. unfold race_clients. destruct (complete (snd f)), (complete (snd g)), (failed (snd f)), (failed (snd g)), (fst f), p0; cbn; auto. }
  assert (forall x, check_servfail x = inl m' -> x = inl m') as C.
  { intros [y|e] Hx; cbn [check_servfail] in Hx; [|discriminate Hx]. destruct (m_rcode y =? rcode_servfail)%N; [discriminate Hx|exact Hx]. }
  destruct udp_first;
    match type of H with race_clients ?p ?f ?g = _ => destruct (R p f g) as [E|E]; rewrite E in H; cbn [snd] in H; apply C in H end;
    [exists_udp H true|exists_udp H false|exists_udp H false|exists_udp H true].
Qed.
Print Assumptions C152_plain.

(** ** The Host header *)
Theorem C152_host_partial : forall text u, parse_upstream text = Some u ->
  (authority_text u (u_host u) <-> u_port u = 443%N /\ ~ In ":"%char (u_host u)).
Proof.
  intros text u Hp. apply parsed_host in Hp. split.
  - intros [h [p [E [H1 H2]]]]. destruct H1 as [[H1 ->]|[H1 ->]].
    + exfalso. apply (host_no_lbracket _ Hp). rewrite E. now left.
    + destruct H2 as [[H2 ->]|[_ [d [-> _]]]]; auto. exfalso. apply (f_equal (@length ascii)) in E. rewrite app_length in E. cbn in E. lia.
  - intros [H1 H2]. exists (u_host u), []. rewrite app_nil_r. auto.
Qed.
Print Assumptions C152_host_partial.

(** ** Cases and refutations *)
Definition up_tls : upstream := {| u_net := TcpTls; u_host := $"dns.example.com"; u_port := 853; u_path := []; u_cn := $"other.example.com" |}.
Definition up_doh : upstream := {| u_net := Https; u_host := $"dns.example.com"; u_port := 443; u_path := $"/dns-query"; u_cn := [] |}.
Definition q0 : msg := {| m_id := 77; m_response := false; m_opcode := 0; m_aa := false; m_tc := false; m_rd := true; m_ra := false; m_zero := false; m_ad := false; m_cd := false;
  m_rcode := 0; m_question := [{| q_name := $"example.com."; q_type := 1; q_class := 1 |}]; m_answer := []; m_ns := []; m_extra := [] |}.
Definition r0 : msg := {| m_id := 77; m_response := true; m_opcode := 0; m_aa := false; m_tc := false; m_rd := true; m_ra := true; m_zero := false; m_ad := false; m_cd := false;
  m_rcode := 0; m_question := m_question q0; m_answer := []; m_ns := []; m_extra := [] |}.
Definition ok_reply (m : msg) : http_reply := {| hr_status := 200; hr_type := $"application/dns-message"; hr_body := Some m |}.
Definition honest (name : str) : peer :=
  {| pe_versions := [770; 772]%Z; pe_cert := str_eqb name; pe_dns := fun _ => inl r0; pe_web := fun _ => inl (ok_reply r0, None) |}.
Definition anybody : peer := {| pe_versions := []; pe_cert := fun _ => false; pe_dns := fun _ => inl r0; pe_web := fun _ => inl (ok_reply r0, None) |}.
Definition ip1 : ip := IP4 [192; 0; 2; 1]%N.
Definition ip6 : ip := IP6 [32; 1; 13; 184; 0; 0; 0; 0; 0; 0; 0; 0; 0; 0; 0; 1]%N.
Lemma ip1_valid : valid_ip ip1.
Proof. split; [reflexivity|]. repeat (apply Forall_cons; [vm_compute; reflexivity|]). apply Forall_nil. Qed.

Example C152_tls_case :
  parse_upstream $"tcp-tls:dns.example.com#other.example.com" = Some up_tls /\ verified_name up_tls $"other.example.com" /\ valid_ip ip1 /\
  fmt_url (create_client up_tls []) ip1 853 [] = $"192.0.2.1:853" /\
  attempt (fun _ _ _ => honest $"other.example.com") up_tls [] UDP true q0 ip1 =
    ([{| sd_udp := false; sd_addr := ip1; sd_port := 853; sd_tls := true; sd_msg := Some q0; sd_web := None |}], inl r0) /\
  fst (attempt (fun _ _ _ => honest $"dns.example.com") up_tls [] UDP true q0 ip1) = [] /\
  fst (attempt (fun _ _ _ => anybody) up_tls [] UDP true q0 ip1) = [].
Proof.
  split; [vm_compute; reflexivity|]. split; [left; split; [discriminate|reflexivity]|]. split; [exact ip1_valid|]. repeat (split; [vm_compute; reflexivity|]). vm_compute. reflexivity.
Qed.

Example C152_https_case :
  parse_upstream $"https://dns.example.com/dns-query" = Some up_doh /\ verified_name up_doh $"dns.example.com" /\ clean_path (u_path up_doh) /\
  fmt_url (create_client up_doh []) ip6 443 (u_path up_doh) = $"https://[2001:db8::1]:443/dns-query" /\
  snd (attempt (fun _ _ _ => honest $"dns.example.com") up_doh $"me" UDP true q0 ip6) = inl r0 /\
  map sd_addr (fst (attempt (fun _ _ _ => honest $"dns.example.com") up_doh $"me" UDP true q0 ip6)) = [ip6].
Proof.
  split; [vm_compute; reflexivity|]. split; [right; auto|]. split.
  - apply cp_path. assert (forall s, forallb alnum s = true -> forall t, clean t -> clean (s ++ t)) as P.
    { induction s as [|c s IH]; intros H t Ht; [exact Ht|]. cbn [forallb] in H. apply andb_true_iff in H as [H1 H2]. apply clean_char; [left; now apply alnum_iff|]. now apply IH. }
    change (clean ($"dns" ++ "-"%char :: $"query" ++ [])). apply P; [reflexivity|]. apply clean_char; [right; cbn; tauto|]. apply P; [reflexivity|]. apply clean_nil.
  - repeat (split; [vm_compute; reflexivity|]). vm_compute. reflexivity.
Qed.

(** An upstream may send its clients elsewhere: the question then goes out without encryption, and the answer of somebody
    without a certificate is taken, though the upstream is configured with https. *)
Definition diverting : network := fun _ a _ =>
  if ip_eqb a ip1 then
    {| pe_versions := [772]%Z; pe_cert := str_eqb $"dns.example.com"; pe_dns := fun _ => inr CTimeout;
       pe_web := fun _ => inl ({| hr_status := 307; hr_type := []; hr_body := None |}, Some (LAbsolute false $"elsewhere.example" (Some ip6) 80 $"/dns-query")) |}
  else anybody.
Theorem C152_redirect_refuted : exists w u text a m x m', parse_upstream text = Some u /\ u_net u = Https /\
  snd (attempt w u [] UDP true m a) = inl m' /\
  In x (fst (attempt w u [] UDP true m a)) /\ sd_tls x = false /\ sd_msg x = Some m /\ (forall name, ~ authentic (w false (sd_addr x) (sd_port x)) name).
Proof.
  exists diverting, up_doh, ($"https://dns.example.com/dns-query"), ip1, q0,
    {| sd_udp := false; sd_addr := ip6; sd_port := 80; sd_tls := false; sd_msg := Some q0;
       sd_web := Some {| wq_post := true; wq_target := $"/dns-query"; wq_host := $"elsewhere.example"; wq_agent := None; wq_type := $"application/dns-message"; wq_body := Some q0 |} |}, r0.
  split; [vm_compute; reflexivity|]. split; [reflexivity|]. split; [vm_compute; reflexivity|]. split; [apply nth_error_In with (n := 1); vm_compute; reflexivity|].
  split; [reflexivity|]. split; [reflexivity|]. intros name [H _]. vm_compute in H. discriminate H.
Qed.
Print Assumptions C152_redirect_refuted.

(** A common name is accepted for an upstream without TLS; nothing is verified then. *)
Theorem C152_common_name_refuted : exists w u text a m m', parse_upstream text = Some u /\ u_cn u = $"dns.example.com" /\
  snd (attempt w u [] UDP true m a) = inl m' /\ forall udp b port name, ~ authentic (w udp b port) name.
Proof.
  exists (fun _ _ _ => anybody), {| u_net := TcpUdp; u_host := $"192.0.2.1"; u_port := 53; u_path := []; u_cn := $"dns.example.com" |}, ($"192.0.2.1#dns.example.com"), ip1, q0, r0.
  split; [vm_compute; reflexivity|]. split; [reflexivity|]. split; [vm_compute; reflexivity|]. intros udp b port name [H _]. vm_compute in H. discriminate H.
Qed.
Print Assumptions C152_common_name_refuted.

(** A path with a mistake in its percent-encoding is accepted in the configuration; no question ever reaches the upstream. *)
Theorem C152_path_refuted : exists text u, parse_upstream text = Some u /\ u_net u = Https /\
  forall w agent p udp_first m a, valid_ip a -> exists e, attempt w u agent p udp_first m a = ([], inr e).
Proof.
  exists ($"https://dns.example.com/%zz"), {| u_net := Https; u_host := $"dns.example.com"; u_port := 443; u_path := $"/%zz"; u_cn := [] |}.
  split; [vm_compute; reflexivity|]. split; [reflexivity|]. intros w agent p udp_first m a Ha. unfold attempt. cbn [u_port u_path].
  unfold create_client at 1. cbn [u_net u_host]. unfold fmt_url, create_client. cbn [u_net u_host]. unfold call.
  change (join_host_port (go_ip_string (Some a)) (print_dec 443)) with (hp_text a 443).
  assert (url_parts ($"https://" ++ hp_text a 443 ++ $"/%zz") = None) as ->; [|eauto].
  pose proof (hp_bytes a 443 Ha) as Hb. unfold url_parts.
  rewrite cut_no.
  2: { rewrite !in_app_iff. intros [H|[H|H]]; [cbn in H; intuition discriminate| |cbn in H; intuition discriminate]. revert H. apply forallb_not_in. revert Hb. host_weaken. }
  cbn [unescape]. destruct (_ || _); [reflexivity|].
  change (skipn 8 ($"https://" ++ hp_text a 443 ++ $"/%zz")) with (hp_text a 443 ++ $"/%zz").
  rewrite cut_no.
  2: { rewrite in_app_iff. intros [H|H]; [|cbn in H; intuition discriminate]. revert H. apply forallb_not_in. revert Hb. host_weaken. }
  change ($"/%zz") with ("/"%char :: $"%zz"). rewrite cut_app by (apply forallb_not_in; revert Hb; host_weaken).
  change (unescape MOther ("/"%char :: $"%zz")) with (@None str). destruct (parse_authority (hp_text a 443)); reflexivity.
Qed.
Print Assumptions C152_path_refuted.

(** The id of an answer over HTTPS is not compared with that of the question. *)
Theorem C152_id_refuted : exists w u text a m m', parse_upstream text = Some u /\ u_net u = Https /\ snd (attempt w u [] UDP true m a) = inl m' /\ m_id m' <> m_id m.
Proof.
  exists (fun _ _ _ => honest $"dns.example.com"), up_doh, ($"https://dns.example.com/dns-query"), ip1, empty_msg, r0.
  split; [vm_compute; reflexivity|]. split; [reflexivity|]. split; [vm_compute; reflexivity|]. discriminate.
Qed.
Print Assumptions C152_id_refuted.

(** Host: without the port, and without the brackets of an IPv6 address. *)
Theorem C152_host_refuted : exists text u text' u', parse_upstream text = Some u /\ u_net u = Https /\ ~ authority_text u (u_host u) /\
  parse_upstream text' = Some u' /\ u_net u' = Https /\ ~ authority_text u' (u_host u').
Proof.
  exists ($"https://dns.example.com:8443/dns-query"), {| u_net := Https; u_host := $"dns.example.com"; u_port := 8443; u_path := $"/dns-query"; u_cn := [] |},
    ($"https://[2001:db8::1]/dns-query"), {| u_net := Https; u_host := $"2001:db8::1"; u_port := 443; u_path := $"/dns-query"; u_cn := [] |}.
  assert (parse_upstream $"https://dns.example.com:8443/dns-query" = Some {| u_net := Https; u_host := $"dns.example.com"; u_port := 8443; u_path := $"/dns-query"; u_cn := [] |}) as E1 by (vm_compute; reflexivity).
  assert (parse_upstream $"https://[2001:db8::1]/dns-query" = Some {| u_net := Https; u_host := $"2001:db8::1"; u_port := 443; u_path := $"/dns-query"; u_cn := [] |}) as E2 by (vm_compute; reflexivity).
  split; [exact E1|]. split; [reflexivity|]. split; [rewrite (C152_host_partial _ _ E1); intros [H _]; discriminate H|].
  split; [exact E2|]. split; [reflexivity|]. rewrite (C152_host_partial _ _ E2). intros [_ H]. apply H. cbn. tauto.
Qed.
Print Assumptions C152_host_refuted.
Example C152_host_case : exists u, parse_upstream $"https://dns.example.com/dns-query" = Some u /\ authority_text u (u_host u).
Proof. exists up_doh. split; [vm_compute; reflexivity|]. exists ($"dns.example.com"), []. split; [reflexivity|]. split; [right; split; [cbn; intuition discriminate|reflexivity]|left; auto]. Qed.

Example C152_plain_case : exists s, attempt (fun _ _ _ => anybody) {| u_net := TcpUdp; u_host := $"192.0.2.1"; u_port := 53; u_path := []; u_cn := [] |} [] UDP false q0 ip1 = (s, inl r0) /\
  map (fun x => (sd_udp x, sd_port x, sd_tls x)) s = [(false, 53%N, false); (true, 53%N, false)].
Proof. eexists. split; vm_compute; reflexivity. Qed.
