(** Theorems about all that is sent for one question (C153). *)
From Coq Require Import String Ascii List Arith NArith ZArith Bool Lia.
From Verif Require Import Str StrFacts Dns ArpaSpec Upstream Connect ConnectSpec ConnectProps Outbound OutboundSpec.
From Verif Require Import ConfUpstream.
Import ListNotations.
Open Scope list_scope.

(** One attempt. *)
Lemma attempt_proper w u agent p uf m a s r ips : configured u -> u_net u = TcpUdp \/ encrypted u -> never_redirects u w -> valid_ip a -> In a ips ->
  attempt w u agent p uf m a = (s, r) ->
  (forall x, In x s -> proper w u ips m x) /\ (forall m', r = inl m' -> answers w u ips m m') /\ length s <= (match u_net u with TcpUdp => 2 | _ => 1 end).
Proof.
  intros [text Hp] Hn Hr Ha Hi Hat.
  assert (exists name, verified_name u name) as [name Hv].
  { destruct (u_cn u) eqn:E; [exists (u_host u); right; auto|exists (u_cn u); left; split; [rewrite E; discriminate|reflexivity]]. }
  destruct (u_net u) eqn:En.
  - destruct (C152_plain text u w agent p uf m a s r Hp En Ha Hat) as [-> H]. split; [|split].
    + intros x [<-|[<-|[]]]; apply in_the_clear; auto.
    + intros m' E. destruct (H m' E) as [H1 [udp H2]]. now apply plain_answer with udp a.
    + simpl. lia.
  - destruct (C152_tls text u w agent p uf m a name s r Hp En Ha Hv Hat) as [H1 [H2 H3]]. split; [|split].
    + intros x Hx. assert (s <> []) as Hs by (intros ->; destruct Hx). apply H1 in Hs. rewrite (H2 x Hx). apply over_tls; auto; [congruence|].
      exists name. auto.
    + intros m' E. destruct (H3 m' E) as [G1 [G2 G3]]. apply tls_answer with a; auto. exists name. auto.
    + assert (forall (c : dns_client), dc_tls c <> None -> length (fst (dns_exchange w c (fmt_url (create_client u agent) a (u_port u) (u_path u)) m)) <= 1) as L.
      { intros c _. unfold dns_exchange. destruct (dial_target _) as [[? ?]|]; [|simpl; lia]. destruct (_ && _); simpl; lia. }
      revert Hat. unfold attempt, create_client. rewrite En. cbn [call]. intros Hat.
      specialize (L {| dc_net := net_name TcpTls; dc_tls := Some (tls_config u) |} ltac:(discriminate)). unfold create_client in L. rewrite En in L.
      rewrite Hat in L. exact L.
  - destruct Hn as [Hn|[Hn|[_ Hc]]]; [discriminate Hn|congruence|].
    destruct (C152_https_partial text u w agent p uf m a name s r Hp En Ha Hc Hv Hat) as [_ [H1 [H2 [H3 H4]]]].
    destruct s as [|x s].
    { split; [intros x []|]. split; [|simpl; lia]. intros m' E. destruct (H4 m' E) as [x [_ [_ [_ [[] _]]]]]. }
    assert (authentic (w false a (u_port u)) name) as Hau by (apply H1; discriminate).
    destruct (H2 ltac:(discriminate)) as [Hch [f [rq [Hh [E1 [E2 [E3 [E4 [E5 [_ [_ [_ [_ [E6 _]]]]]]]]]]]]]]. injection Hh as <-.
    assert (s = []) as ->.
    { inversion Hch as [|y z l Hpt _]; subst; [reflexivity|]. exfalso. destruct Hpt as [rq' [h [l' [G1 [G2 _]]]]].
      assert (sd_udp x = false) as Eu by (apply H3; now left). rewrite Eu, E2 in G2. specialize (Hr name _ _ _ _ En Hv Hau G2). discriminate Hr. }
    split; [|split; [|simpl; lia]].
    + intros y [<-|[]]. assert (sd_udp x = false) as Eu by (apply H3; now left). apply over_tls; auto; [congruence|now rewrite E1|]. exists name. split; auto. now rewrite E1.
    + intros m' E. destruct (H4 m' E) as [y [rq' [h [l [[<-|[]] [_ [G1 [G2 [G3 [_ G4]]]]]]]]]].
      rewrite E5 in G1. injection G1 as <-. rewrite E1, E2 in G2.
      assert (l = None) as -> by (apply (Hr name _ _ _ _ En Hv Hau G2)). apply https_answer with a rq h; auto. exists name. auto.
Qed.

(** All attempts: which addresses are used, one after the other. *)
Lemma attempts_used call done ips : forall left k idx used r, attempts left k ips idx call done = (used, r) ->
  length used <= max 1 left /\ (forall a, In a used -> In a ips) /\
  (forall m, r = Some (inl m) -> exists j a, nth_error used j = Some a /\ call (k + j) a = inl m).
Proof.
  induction left as [|left IH]; intros k idx used r H; cbn [attempts] in H; unfold ip_current in H;
    (destruct (nth_error ips idx) as [a|] eqn:Ea; [apply nth_error_In in Ea|injection H as <- <-; split; [simpl; lia|split; [intros ? []|intros ? [=]]]]).
  - assert (used = [a] /\ (forall m, r = Some (inl m) -> call k a = inl m)) as [-> Hm].
    { destruct (call k a) as [m|[| |]] eqn:Ec; injection H as <- <-; split; auto; intros ? [=]; congruence. }
    split; [simpl; lia|]. split; [intros ? [<-|[]]; exact Ea|]. intros m E. exists 0, a. rewrite Nat.add_0_r. auto.
  - destruct (call k a) as [m|[|sf|e]] eqn:Ec.
    + injection H as <- <-. split; [simpl; lia|]. split; [intros ? [<-|[]]; exact Ea|]. intros m' [= <-]. exists 0, a. rewrite Nat.add_0_r. auto.
    + destruct left as [|left].
      { injection H as <- <-. split; [simpl; lia|]. split; [intros ? [<-|[]]; exact Ea|intros ? [=]]. }
      destruct (done k).
      { injection H as <- <-. split; [simpl; lia|]. split; [intros ? [<-|[]]; exact Ea|intros ? [=]]. }
      destruct (attempts (S left) (S k) ips (ip_next ips idx) call done) as [used' r'] eqn:E. injection H as <- <-.
      destruct (IH _ _ _ _ E) as [L [Hu Hm]]. split; [simpl in *; lia|]. split; [intros ? [<-|Hx]; auto|].
      intros m Em. destruct (Hm m Em) as [j [b [H1 H2]]]. exists (S j), b. split; auto. rewrite <- H2. f_equal. lia.
    + injection H as <- <-. split; [simpl; lia|]. split; [intros ? [<-|[]]; exact Ea|intros ? [=]].
    + injection H as <- <-. split; [simpl; lia|]. split; [intros ? [<-|[]]; exact Ea|intros ? [=]].
Qed.

Lemma nth_combine_seq {A} (l : list A) : forall n j a, nth_error l j = Some a -> In (n + j, a) (combine (seq n (length l)) l).
Proof.
  induction l as [|x l IH]; intros n [|j] a H; try discriminate H.
  - injection H as <-. rewrite Nat.add_0_r. now left.
  - right. rewrite <- Nat.add_succ_comm. now apply IH.
Qed.

Lemma concat_bound {A B} (f : A -> list B) n (l : list A) : (forall x, In x l -> length (f x) <= n) -> length (concat (map f l)) <= n * length l.
Proof.
  induction l as [|x l IH]; intros H; simpl; [lia|]. rewrite app_length. pose proof (H x (or_introl eq_refl)). specialize (IH (fun y Hy => H y (or_intror Hy))). lia.
Qed.

(** One upstream. *)
Lemma ask_upstream_proper u agent p m c sent r : configured u -> u_net u = TcpUdp \/ encrypted u -> fair u c ->
  ask_upstream u agent p m c = (sent, r) ->
  (forall x, In x sent -> exists k, proper (ci_net c k) u (ci_ips c) m x) /\
  (forall m', r = Some m' -> exists k, answers (ci_net c k) u (ci_ips c) m m') /\
  (forall n, at_most u n -> length sent <= n).
Proof.
  intros Hc Hn [Hr Hv] H. unfold ask_upstream in H. destruct (ci_ips c) as [|i ips] eqn:Ei.
  { injection H as <- <-. split; [intros ? []|]. split; [discriminate|]. intros n _. simpl. lia. }
  rewrite <- Ei in *. assert (Forall valid_ip (ci_ips c)) as Hv' by exact Hv. clear Hv. cbv zeta in H. destruct (upstream_resolve _ _ _ _) as [used r0] eqn:Eu. injection H as <- <-.
  assert (length used <= 3 /\ (forall a, In a used -> In a (ci_ips c)) /\ (forall m', r0 = Some (inl m') -> exists j a, nth_error used j = Some a /\
    snd (attempt (ci_net c j) u agent p (ci_udp_first c j) m a) = inl m')) as [L [Hu Hm]].
  { unfold upstream_resolve in Eu. destruct (ci_dead c).
    - injection Eu as <- <-. split; [simpl; lia|]. split; [intros ? []|intros ? [=]].
    - apply attempts_used in Eu as [L [Hu Hm]]. auto. }
  assert (forall k a, In a used -> (forall x, In x (fst (attempt (ci_net c k) u agent p (ci_udp_first c k) m a)) -> proper (ci_net c k) u (ci_ips c) m x) /\
    (forall m', snd (attempt (ci_net c k) u agent p (ci_udp_first c k) m a) = inl m' -> answers (ci_net c k) u (ci_ips c) m m') /\
    length (fst (attempt (ci_net c k) u agent p (ci_udp_first c k) m a)) <= (match u_net u with TcpUdp => 2 | _ => 1 end)) as A.
  { intros k a Ha. destruct (attempt (ci_net c k) u agent p (ci_udp_first c k) m a) as [s x] eqn:E. rewrite Forall_forall in Hv'.
    exact (attempt_proper _ _ _ _ _ _ _ _ _ (ci_ips c) Hc Hn (Hr k) (Hv' a (Hu a Ha)) (Hu a Ha) E). }
  split; [|split].
  - intros x Hx. apply in_concat in Hx as [l [Hl Hx]]. apply in_map_iff in Hl as [[k a] [<- Hka]]. apply in_combine_r in Hka.
    exists k. exact (proj1 (A k a Hka) x Hx).
  - intros m' E. destruct r0 as [[m0|]|]; try discriminate E. injection E as ->. destruct (Hm m' eq_refl) as [j [a [H1 H2]]].
    exists j. exact (proj1 (proj2 (A j a (nth_error_In _ _ H1))) m' H2).
  - intros n Hmost. unfold at_most in Hmost.
    assert (length (concat (map (fun x => fst (attempt (ci_net c (fst x)) u agent p (ci_udp_first c (fst x)) m (snd x))) (combine (seq 0 (length used)) used)))
      <= (match u_net u with TcpUdp => 2 | _ => 1 end) * length (combine (seq 0 (length used)) used)) as B.
    { apply concat_bound. intros [k a] Hka. apply in_combine_r in Hka. exact (proj2 (proj2 (A k a Hka))). }
    rewrite combine_length, seq_length, Nat.min_id in B. destruct (u_net u); lia.
Qed.

(** ** Groups *)
Lemma strict_asked {U R E} (us : list (U * (R + E))) : forall asked r, strict_resolve us = (asked, r) ->
  length asked <= length us /\ (forall u, In u asked -> exists x, In (u, x) us) /\ (forall m, r = Some m -> exists u, In u asked /\ In (u, inl m) us).
Proof.
  induction us as [|[u [r0|e]] us IH]; intros asked r H; cbn [strict_resolve] in H.
  - injection H as <- <-. split; [auto|]. split; [intros ? []|discriminate].
  - injection H as <- <-. split; [simpl; lia|]. split; [intros ? [<-|[]]; exists (inl r0); now left|]. intros m [= <-]. exists u. split; now left.
  - destruct (strict_resolve us) as [a r']. injection H as <- <-. destruct (IH _ _ eq_refl) as [L [H1 H2]]. split; [simpl; lia|]. split.
    + intros v [<-|Hv]; [exists (inr e); now left|]. destruct (H1 v Hv) as [x Hx]. exists x. now right.
    + intros m E'. destruct (H2 m E') as [v [G1 G2]]. exists v. split; now right.
Qed.

Lemma evaluate_In {R E} : forall (arrivals : list (R + E)) n errs r, evaluate n errs arrivals = Some r -> In (inl r) arrivals.
Proof.
  induction arrivals as [|[x|e] l IH]; intros n errs r H; cbn [evaluate] in H; destruct (errs <? n); try discriminate H.
  - injection H as ->. now left.
  - right. eauto.
Qed.

Lemma pick_random_length now sts rnd : forall count chosen l, pick_random now sts count rnd chosen = Some l -> length l = count + length chosen.
Proof.
  induction count as [|n IH]; intros chosen l H; cbn [pick_random] in H; [injection H as <-; reflexivity|].
  destruct (weighted_random now sts chosen (rnd (length chosen))); [|discriminate H]. apply IH in H. rewrite app_length in H. simpl in *. lia.
Qed.

(** Who is asked at which try. *)
Lemma parallel_asked {R E} random now sts rnd arrive (out : nat -> status -> R + E) res asked :
  (forall l x, In x (arrive l) -> In x l) -> parallel_resolve random now sts rnd arrive out = (res, asked) ->
  length asked <= 2 /\
  (forall r, res = GOk r -> exists j s, nth_error asked j = Some s /\ out (if random then j else 0) s = inl r).
Proof.
  intros Ha H. unfold parallel_resolve in H.
  assert (forall n : nat, (if random then n else 0) = 0 \/ random = true) as Z by (destruct random; auto).
  destruct sts as [|s [|s2 sts]].
  2: { injection H as <- <-. split; [simpl; lia|]. intros r E0. exists 0, s. split; auto. destruct random; destruct (out 0 s); try discriminate E0; congruence. }
  all: destruct (pick_random _ _ _ _ _) as [chosen|] eqn:Ep; [|injection H as <- <-; split; [simpl; lia|discriminate]];
    apply pick_random_length in Ep; simpl in Ep; rewrite Nat.add_0_r in Ep;
    destruct (evaluate _ _ _) as [r0|] eqn:Ev.
  1,3: injection H as <- <-; split; [destruct random; lia|]; intros r [= ->]; apply evaluate_In in Ev; apply in_map_iff in Ev as [x [Hx Hin]]; apply Ha in Hin;
    apply In_nth_error in Hin as [j Hj]; exists j, x; split; auto; destruct random; auto;
    assert (j < length chosen) by (apply nth_error_Some; rewrite Hj; discriminate); replace j with 0 by lia; exact Hx.
  all: destruct random; cbn [negb] in H; [|injection H as <- <-; split; [lia|discriminate]];
    destruct (weighted_random _ _ _ _) as [x|]; injection H as <- <-; [|split; [lia|discriminate]];
    rewrite app_length; (split; [simpl; lia|]); intros r E0; exists 1, x; split;
    [rewrite nth_error_app2 by lia; rewrite Ep; reflexivity|destruct (out 1 x); try discriminate E0; congruence].
Qed.

Lemma ask_nth_proper us agent p m g try i : (forall u, In u us -> configured u /\ (u_net u = TcpUdp \/ encrypted u)) -> fair_group us g ->
  (forall x, In x (fst (ask_nth us agent p m g try i)) -> exists u k, nth_error us i = Some u /\ proper (ci_net (gc_of g i try) k) u (ci_ips (gc_of g i try)) m x) /\
  (forall m', snd (ask_nth us agent p m g try i) = Some m' -> exists u k, nth_error us i = Some u /\ answers (ci_net (gc_of g i try) k) u (ci_ips (gc_of g i try)) m m') /\
  (forall n, (forall u, In u us -> at_most u n) -> length (fst (ask_nth us agent p m g try i)) <= n).
Proof.
  intros Hc [_ Hf]. unfold ask_nth. destruct (nth_error us i) as [u|] eqn:Eu.
  - destruct (ask_upstream u agent p m (gc_of g i try)) as [s r] eqn:E. pose proof (nth_error_In _ _ Eu) as Hi. destruct (Hc u Hi) as [H1 H2].
    destruct (ask_upstream_proper _ _ _ _ _ _ _ H1 H2 (Hf i u try Eu) E) as [G1 [G2 G3]]. split; [|split].
    + intros x Hx. destruct (G1 x Hx) as [k Hk]. eauto.
    + intros m' Hm. destruct (G2 m' Hm) as [k Hk]. eauto.
    + intros n Hn. apply G3. auto.
  - split; [intros ? []|]. split; [discriminate|]. intros n _. simpl. lia.
Qed.

(** All that is sent for a question by a group, with any strategy, at any time, over any network: the question itself, to an address
    of an upstream of the group and its port; in the clear only if the upstream is configured so, otherwise only after the other
    side has proved to be the upstream.  The answer is the one of such an upstream. *)
Theorem C153_sent : forall s us agent p m g sent r,
  (forall u, In u us -> configured u /\ (u_net u = TcpUdp \/ encrypted u)) -> fair_group us g ->
  ask_group s us agent p m g = (sent, r) ->
  (forall x, In x sent -> exists i try k u, nth_error us i = Some u /\ proper (ci_net (gc_of g i try) k) u (ci_ips (gc_of g i try)) m x) /\
  (forall m', r = Some m' -> exists i try k u, nth_error us i = Some u /\ answers (ci_net (gc_of g i try) k) u (ci_ips (gc_of g i try)) m m') /\
  (forall n, (forall u, In u us -> at_most u n) -> length sent <= n * (match s with Strict => length us | _ => 2 end)).
Proof.
  intros s us agent p m g sent r Hc Hf H. pose proof (fun t i => ask_nth_proper us agent p m g t i Hc Hf) as A.
  assert (s = Strict \/ s <> Strict) as [->|Hs] by (destruct s; auto; right; discriminate).
  - cbn [ask_group] in H. destruct (strict_resolve _) as [asked r0] eqn:E. injection H as <- <-. apply strict_asked in E as [L [H1 H2]].
    rewrite map_length, seq_length in L. split; [|split].
    + intros x Hx. apply in_concat in Hx as [l [Hl Hx]]. apply in_map_iff in Hl as [i [<- Hi]].
      destruct (proj1 (A 0 i) x Hx) as [u [k [G1 G2]]]. exists i, 0, k, u. auto.
    + intros m' ->. destruct (H2 m' eq_refl) as [i [_ G]]. apply in_map_iff in G as [j [G _]]. injection G as -> G.
      destruct (snd (ask_nth us agent p m g 0 i)) as [m0|] eqn:E; [|discriminate G]. injection G as ->.
      destruct (proj1 (proj2 (A 0 i)) m' E) as [u [k [G1 G2]]]. exists i, 0, k, u. auto.
    + intros n Hn. pose proof (concat_bound (fun i => fst (ask_nth us agent p m g 0 i)) n asked (fun i _ => proj2 (proj2 (A 0 i)) n Hn)) as B.
      etransitivity; [exact B|]. apply Nat.mul_le_mono_l. exact L.
  - set (random := match s with Random => true | _ => false end).
    assert (exists res asked, parallel_resolve random (gc_now g) (map (fun i => {| st_id := i; st_last_error := gc_errors g i |}) (seq 0 (length us))) (gc_rnd g) (gc_arrive g)
      (fun try st => outcome (snd (ask_nth us agent p m g try (st_id st)))) = (res, asked) /\
      sent = concat (map (fun x => fst (ask_nth us agent p m g (if random then fst x else 0) (st_id (snd x)))) (combine (seq 0 (length asked)) asked)) /\
      r = match res with GOk m' => Some m' | _ => None end) as [res [asked [E [-> ->]]]].
    { destruct s; [now elim Hs| |]; cbn [ask_group] in H; cbv zeta in H; destruct (parallel_resolve _ _ _ _ _ _) as [res asked] eqn:E; injection H as <- <-; exists res, asked; auto. }
    clear H. apply parallel_asked in E as [L H2]; [|exact (proj1 Hf)]. split; [|split].
    + intros x Hx. apply in_concat in Hx as [l [Hl Hx]]. apply in_map_iff in Hl as [[j st] [<- _]]. cbn [fst snd] in Hx.
      destruct (proj1 (A _ _) x Hx) as [u [k [G1 G2]]]. eexists _, _, k, u. eauto.
    + intros m' Em. destruct res as [|r0|]; try discriminate Em. injection Em as ->. destruct (H2 m' eq_refl) as [j [st [_ G]]].
      destruct (snd (ask_nth us agent p m g _ (st_id st))) as [m0|] eqn:E0; [|discriminate G]. injection G as ->.
      destruct (proj1 (proj2 (A _ _)) m' E0) as [u [k [G1 G2]]]. eexists _, _, k, u. eauto.
    + intros n Hn. pose proof (concat_bound (fun x => fst (ask_nth us agent p m g (if random then fst x else 0) (st_id (snd x)))) n (combine (seq 0 (length asked)) asked)
        (fun x _ => proj2 (proj2 (A _ _)) n Hn)) as B.
      etransitivity; [exact B|]. rewrite combine_length, seq_length, Nat.min_id. replace (match s with Strict => length us | _ => 2 end) with 2 by (destruct s; [now elim Hs| |]; reflexivity).
      apply Nat.mul_le_mono_l. exact L.
Qed.
Print Assumptions C153_sent.

(** With encrypted upstreams only, no question of a client leaves in the clear, and nobody but the holders of the certificates gets or
    answers it: whatever addresses the lookup of the upstreams gives, once the group has started. *)
Theorem C153_private_partial : forall s init test finished us ms boot agent p m g sent r,
  us <> [] -> (forall u, In u us -> configured u /\ encrypted u) ->
  members init test finished us = Some ms -> finished = true \/ init <> InitFast ->
  (forall l x, In x (gc_arrive g l) -> In x l) -> (forall u i try, In u us -> fair u (gc_of g i try)) ->
  ask_members s ms boot agent p m g = (sent, r) ->
  (forall x, In x sent -> sd_tls x = true /\ sd_msg x = Some m /\ exists u i try k, In u us /\ sd_port x = u_port u /\ proved_to_be u (ci_net (gc_of g i try) k) (sd_addr x)) /\
  (forall m', r = Some m' -> exists u i try k a, In u us /\ proved_to_be u (ci_net (gc_of g i try) k) a /\ answers (ci_net (gc_of g i try) k) u (ci_ips (gc_of g i try)) m m').
Proof.
  intros s init test finished us ms boot agent p m g sent r Hne Hc Hm Hfin Harr Hfair H.
  assert (finished = true) as ->. { destruct finished; auto. destruct Hfin as [Hf|Hf]; [discriminate Hf|]. cbn [members] in Hm. destruct init; try discriminate Hm. now elim Hf. }
  cbn [members] in Hm. assert (exists kept, ms = map Own kept /\ incl kept us /\ kept <> []) as [kept [-> [Hk Hkne]]].
  { unfold init_group in Hm. destruct (create_group init test (map Own us)) as [l|] eqn:Ec.
    - destruct (do_init init true); [discriminate Hm|]. injection Hm as <-. unfold create_group in Ec.
      exists (flat_map (fun x => match x with Own u => [u] | Boot => [] end) l).
      assert (forall x, In x l -> exists u, x = Own u /\ In u us) as Hl.
      { intros x Hx. assert (In x (filter (fun u => negb (do_init init (test u))) (map Own us))) as Hx' by (destruct (filter _ _); [discriminate Ec|injection Ec as <-; exact Hx]).
        apply filter_In in Hx' as [Hx' _]. apply in_map_iff in Hx' as [u [<- Hu]]. eauto. }
      assert (l <> []) as Hl0 by (intros ->; destruct (filter _ _); discriminate Ec).
      split; [|split].
      + clear -Hl. induction l as [|x l IH]; [reflexivity|]. destruct (Hl x (or_introl eq_refl)) as [u [-> _]]. simpl. f_equal. apply IH. intros y Hy. apply Hl. now right.
      + intros u Hu. apply in_flat_map in Hu as [x [Hx Hu]]. destruct (Hl x Hx) as [v [-> Hv]]. destruct Hu as [<-|[]]. exact Hv.
      + destruct l as [|x l]; [now elim Hl0|]. destruct (Hl x (or_introl eq_refl)) as [u [-> _]]. discriminate.
    - assert (init = InitFailOnError) as ->.
      { destruct init; auto; exfalso; unfold create_group in Ec; destruct us as [|u us]; [now elim Hne| |now elim Hne|]; discriminate Ec. }
      discriminate Hm. }
  assert (flat_map (fun x => match x with Own u => [u] | Boot => [] end) (map Own kept) = kept) as Ek by (clear; induction kept; simpl; congruence).
  assert (ask_group s kept agent p m g = (sent, r)) as H'.
  { rewrite <- H, <- Ek at 1. destruct kept as [|u [|v kept]]; [now elim Hkne| |]; reflexivity. }
  apply C153_sent in H' as [H1 [H2 _]].
  - split.
    + intros x Hx. destruct (H1 x Hx) as [i [try [k [u [Hu Hp]]]]]. apply nth_error_In, Hk in Hu. destruct (Hc u Hu) as [_ He].
      destruct Hp as [E1 _ _ _ _|_ _ E2 _ E3 E4 E5]; [exfalso; destruct He as [He|[He _]]; congruence|]. split; auto. split; auto. exists u, i, try, k. auto.
    + intros m' E. destruct (H2 m' E) as [i [try [k [u [Hu Hp]]]]]. apply nth_error_In, Hk in Hu. destruct (Hc u Hu) as [_ He].
      pose proof Hp as Hp'. destruct Hp as [udp a E1 _ _ _|a _ _ E2 _ _|a rq h _ _ E2 _ _ _ _]; [exfalso; destruct He as [He|[He _]]; congruence| |]; exists u, i, try, k, a; auto.
  - intros u Hu. destruct (Hc u (Hk u Hu)). auto.
  - split; auto. intros i u try Hu. apply nth_error_In, Hk in Hu. auto.
Qed.
Print Assumptions C153_private_partial.

(** ** Cases and refutations *)
Definition ex_group : group_circumstances :=
  {| gc_of := fun i try => {| ci_net := fun _ _ _ _ => honest $"other.example.com"; ci_udp_first := fun _ => true; ci_ips := [ip1]; ci_dead := false; ci_done := fun _ => false |};
     gc_now := 0; gc_errors := fun _ => 0%Z; gc_rnd := fun _ => 0%N; gc_arrive := fun l => l |}.

(** A group with one upstream over TLS: the question is sent once and answered. *)
Example C153_case : configured up_tls /\ encrypted up_tls /\ (forall i try, fair up_tls (gc_of ex_group i try)) /\
  members InitBlocking (fun _ => false) true [up_tls] = Some [Own up_tls] /\
  ask_members Strict [Own up_tls] [] [] UDP q0 ex_group = ([{| sd_udp := false; sd_addr := ip1; sd_port := 853; sd_tls := true; sd_msg := Some q0; sd_web := None |}], Some r0).
Proof.
  split; [exists ($"tcp-tls:dns.example.com:853#other.example.com"); vm_compute; reflexivity|]. split; [now left|]. split; [|split; [reflexivity|vm_compute; reflexivity]].
  intros i try. split; [intros k name a rq h l; discriminate|]. constructor; [exact ip1_valid|constructor].
Qed.

(** While a group starts with the strategy "fast", the questions of clients go to the bootstrap DNS, in the clear if that is plain DNS. *)
Theorem C153_start_refuted : exists us ms boot g x, us <> [] /\ (forall u, In u us -> configured u /\ encrypted u) /\
  members InitFast (fun _ => true) false us = Some ms /\ (forall u, In u boot -> configured u) /\
  In x (fst (ask_members Strict ms boot [] UDP q0 g)) /\ sd_tls x = false /\ sd_msg x = Some q0.
Proof.
  exists [up_tls], [Boot], [{| u_net := TcpUdp; u_host := $"192.0.2.1"; u_port := 53; u_path := []; u_cn := [] |}], ex_group,
    {| sd_udp := false; sd_addr := ip1; sd_port := 53; sd_tls := false; sd_msg := Some q0; sd_web := None |}.
  split; [discriminate|]. split; [intros u [<-|[]]; split; [exact (proj1 C153_case)|now left]|]. split; [reflexivity|].
  split; [intros u [<-|[]]; exists ($"192.0.2.1"); vm_compute; reflexivity|]. split; [apply nth_error_In with (n := 0); vm_compute; reflexivity|]. split; reflexivity.
Qed.
Print Assumptions C153_start_refuted.
