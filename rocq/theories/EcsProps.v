(** Properties of the client-subnet resolver (C43, C80, C82). *)
From Coq Require Import String Ascii List Arith Bool NArith Lia.
From Verif Require Import Str StrFacts Num NumFacts ArpaSpec ArpaProofs Dns Resolver ResolverFacts SudnSpec EdnsProofs EdnsProps Ecs EcsSpec.
Import ListNotations.

Lemma mask_bytes_0 b : mask_bytes 0 b = map (fun x => N.land x 0) b.
Proof. induction b as [|x b IH]; cbn [mask_bytes map]; auto. rewrite IH. reflexivity. Qed.

Lemma mask_byte_bit m k : (m < 8)%N -> k < 8 -> N.testbit (255 - N.shiftr 255 m) (N.of_nat k) = (7 - k <? N.to_nat m).
Proof.
  intros Hm Hk.
  assert (m = 0 \/ m = 1 \/ m = 2 \/ m = 3 \/ m = 4 \/ m = 5 \/ m = 6 \/ m = 7)%N as Em by lia.
  assert (k = 0 \/ k = 1 \/ k = 2 \/ k = 3 \/ k = 4 \/ k = 5 \/ k = 6 \/ k = 7) as Ek by lia.
  repeat (destruct Em as [->|Em]; [repeat (destruct Ek as [->|Ek]; [reflexivity|]); subst; reflexivity|]).
  subst. repeat (destruct Ek as [->|Ek]; [reflexivity|]). subst. reflexivity.
Qed.

Lemma mask_bytes_spec b : forall mask, first_bits (N.to_nat mask) b (mask_bytes mask b).
Proof.
  induction b as [|x b IH]; intros mask.
  - split; auto. intros [|i] k x y; discriminate.
  - cbn [mask_bytes]. destruct (8 <=? mask)%N eqn:E.
    + apply N.leb_le in E. destruct (IH (mask - 8)%N) as [L1 L2]. split; [cbn; now rewrite L1|].
      intros [|i] k x0 y Hx Hy Hk.
      * cbn [nth_error] in Hx, Hy. injection Hx as <-. injection Hy as <-.
        assert (8 * 0 + (7 - k) <? N.to_nat mask = true) as -> by (apply Nat.ltb_lt; lia). now rewrite andb_true_r.
      * cbn [nth_error] in Hx, Hy. rewrite (L2 i k x0 y Hx Hy Hk). f_equal.
        destruct (Nat.ltb_spec (8 * i + (7 - k)) (N.to_nat (mask - 8))), (Nat.ltb_spec (8 * S i + (7 - k)) (N.to_nat mask)); auto; lia.
    + apply N.leb_gt in E. destruct (IH 0%N) as [L1 L2]. split; [cbn; now rewrite L1|].
      intros [|i] k x0 y Hx Hy Hk.
      * cbn [nth_error] in Hx, Hy. assert (x = x0) as <- by congruence. assert (N.land x (255 - N.shiftr 255 mask) = y) as <- by congruence.
        rewrite N.land_spec. f_equal. rewrite mask_byte_bit; auto.
      * cbn [nth_error] in Hx, Hy. rewrite (L2 i k x0 y Hx Hy Hk). f_equal.
        destruct (Nat.ltb_spec (8 * i + (7 - k)) (N.to_nat 0)), (Nat.ltb_spec (8 * S i + (7 - k)) (N.to_nat mask)); auto; cbn in *; lia.
Qed.

Lemma set_req_msg_ip m r : req_ip (set_req_msg m r) = req_ip r.
Proof. reflexivity. Qed.

(** What setSubnet does with forwarding off. *)
Lemma set_subnet_spec c so req rq : ec_forward c = false -> set_subnet c so req = Some rq ->
  (rq = req \/ exists o, rq = set_req_msg (set_edns0_option o (req_msg req)) req) /\
  match req_ip req with
  | None => rq = req
  | Some (IP4 b) => (0 < ec_mask4 c)%N ->
      rq = set_req_msg (set_edns0_option (EOSubnet 1 (ec_mask4 c) 0 (Some (IP4 (mask_bytes (ec_mask4 c) b)))) (req_msg req)) req
  | Some (IP6 b) => (0 < ec_mask6 c)%N ->
      rq = set_req_msg (set_edns0_option (EOSubnet 2 (ec_mask6 c) 0 (Some (IP6 (mask_bytes (ec_mask6 c) b)))) (req_msg req)) req
  end.
Proof.
  intros Hf. unfold set_subnet. rewrite Hf. cbv zeta.
  assert (match so with Some (EOSubnet _ _ _ (Some a)) => req_ip req | _ => req_ip req end = req_ip req) as ->.
  { destruct so as [[? ? ? [a|]| |]|]; reflexivity. }
  destruct (req_ip req) as [[b|b]|].
  - cbn [is_v4 andb mask_ip]. destruct (N.ltb_spec 0 (ec_mask4 c)) as [H4|H4].
    + destruct (ec_mask4 c <=? 32)%N; intros [= <-]. split; [right; eauto|]. intros _. reflexivity.
    + destruct (N.ltb_spec 0 (ec_mask6 c)).
      * destruct (ec_mask6 c <=? 32)%N; intros [= <-]. split; [right; eauto|]. intros A. lia.
      * intros [= <-]. split; auto. intros A. lia.
  - cbn [is_v4 andb mask_ip]. destruct (N.ltb_spec 0 (ec_mask6 c)) as [H6|H6].
    + destruct (ec_mask6 c <=? 128)%N; intros [= <-]. split; [right; eauto|]. intros _. reflexivity.
    + intros [= <-]. split; auto. intros A. lia.
  - intros [= <-]. auto.
Qed.

Lemma ecs_client_msg c so req : req_msg (ecs_client c so req) = req_msg req.
Proof. unfold ecs_client. destruct so as [[? ? ? ?| |]|]; auto. destruct (_ && _); reflexivity. Qed.

Lemma in_pass {rq q next} : In rq (forwarded (pass q) next) -> rq = q.
Proof. rewrite forwarded_pass. intros [->|[]]. reflexivity. Qed.

(** ** C43: with forwarding off, and the resolver enabled, the only subnet options sent on
    are those with the configured network of the client.  What is missing: a client of a
    family whose mask is not set while the other one's is, and repeated options. *)
Theorem C43_only_network_partial : forall c req rq next o,
  ec_forward c = false -> ecs_enabled c = true -> well_formed (req_msg req) ->
  In rq (forwarded (ecs_resolve c req) next) -> has_option (req_msg rq) o -> eopt_code o = 8%N ->
  (** either the mask of the client's family is set ... *)
  (exists i, req_ip rq = Some i /\ (0 < if is_v4 i then ec_mask4 c else ec_mask6 c)%N) \/
  (** ... or none is, and the request is regular *)
  (ec_mask4 c = 0%N /\ ec_mask6 c = 0%N /\ one_opt (req_msg req) /\
   forall l i j a b, options_of (req_msg req) l -> nth_error l i = Some a -> nth_error l j = Some b ->
     eopt_code a = 8%N -> eopt_code b = 8%N -> i = j) ->
  exists i, req_ip rq = Some i /\ network_only (ec_mask4 c) (ec_mask6 c) i o.
Proof.
  intros c req rq next o Hf He Hw Hin Ho Hc Hcase. unfold ecs_resolve in Hin. rewrite He in Hin. cbv zeta in Hin.
  set (so := get_edns0_option 8 (req_msg req)) in *. set (req1 := ecs_client c so req) in *.
  assert (req_msg req1 = req_msg req) as Hm1 by apply ecs_client_msg.
  destruct Hcase as [[i [Hi Hmask]]|[H4 [H6 [H1 Hone]]]].
  - assert ((0 <? ec_mask4 c)%N || (0 <? ec_mask6 c)%N = true) as Hor.
    { apply orb_true_iff. destruct (is_v4 i); [left|right]; now apply N.ltb_lt. }
    rewrite Hor in Hin. destruct (set_subnet c so req1) as [req2|] eqn:Es; [|destruct Hin].
    assert ((ec_mask4 c =? 0)%N && (ec_mask6 c =? 0)%N = false) as Hz.
    { apply andb_false_iff. apply orb_true_iff in Hor as [A|A]; apply N.ltb_lt in A; [left|right]; apply N.eqb_neq; lia. }
    rewrite Hz in Hin. cbn [andb] in Hin. apply in_pass in Hin. subst rq.
    destruct (set_subnet_spec c so req1 req2 Hf Es) as [Hsh Hsp].
    assert (req_ip req2 = req_ip req1) as Hip by (destruct Hsh as [->|[x ->]]; reflexivity).
    rewrite <- Hip, Hi in Hsp. exists i. split; auto.
    assert (forall o', eopt_code o' = 8%N -> req2 = set_req_msg (set_edns0_option o' (req_msg req1)) req1 -> o = o') as Honly.
    { intros o' Hc' Hreq2. rewrite Hreq2 in Ho. cbn [req_msg set_req_msg] in Ho. rewrite Hm1 in Ho.
      destruct (C44_set o' (req_msg req) Hw) as [_ [[l [L1 L2]] _]]. destruct Ho as [l' [Hl' Hi']].
      assert (l' = l ++ [o']) as -> by eauto using options_of_fun.
      apply in_app_or in Hi' as [Hi'|[Hi'|[]]]; [|auto]. elim (L2 o Hi'). congruence. }
    destruct i as [b|b]; cbn [is_v4] in Hmask; specialize (Hsp Hmask); apply Honly in Hsp; auto; cbn.
    + exists (mask_bytes (ec_mask4 c) b). split; auto. split; auto. apply mask_bytes_spec.
    + exists (mask_bytes (ec_mask6 c) b). split; auto. split; auto. apply mask_bytes_spec.
  - rewrite H4, H6 in Hin. cbn [N.ltb N.eqb N.compare orb andb] in Hin. rewrite Hf in Hin.
    destruct so as [s|] eqn:Eso; cbn [andb negb] in Hin; apply in_pass in Hin; subst rq.
    + cbn [req_msg set_req_msg] in Ho. rewrite Hm1 in Ho. exfalso.
      destruct (C44_remove_partial 8%N (req_msg req) Hw H1 Hone) as [A _]. exact (A o Ho Hc).
    + rewrite Hm1 in Ho. exfalso. pose proof (C44_get 8%N (req_msg req) Hw) as G. fold so in G. rewrite Eso in G. exact (G o Ho Hc).
Qed.
Print Assumptions C43_only_network_partial.

Definition ecs_req (client : ip) (opts : list eopt) : request :=
  {| req_ip := Some client; req_client_id := []; req_proto := UDP; req_names := [];
     req_msg := set_extra [{| rr_name := $"."; rr_type := 41; rr_class := 1232; rr_ttl := 0; rr_data := DOPT opts |}]
                          (new_msg_with_question 1 $"example.com" 1) |}.
Lemma ecs_req_regular client opts : well_formed (req_msg (ecs_req client opts)) /\ one_opt (req_msg (ecs_req client opts)).
Proof. split; [intros r [<-|[]] _; eexists; reflexivity|]. intros [|[|i]] [|[|j]] a b; cbn; congruence. Qed.
Lemma ecs_req_option client opts o : In o opts -> has_option (req_msg (ecs_req client opts)) o.
Proof.
  intros H. exists opts. split; auto. exists {| rr_name := $"."; rr_type := 41; rr_class := 1232; rr_ttl := 0; rr_data := DOPT opts |}.
  split; auto. exists [], []. split; [reflexivity|]. split; [reflexivity|]. intros x [].
Qed.

Definition my_net : eopt := EOSubnet 1 32 0 (Some (IP4 [203; 0; 113; 7]%N)).

(** In each of these cases a client's complete address is sent on although forwarding is
    off: nothing configured at all; only the mask of the other family; repeated option. *)
Theorem C43_leaks_refuted :
  let leaks c client opts :=
    ec_forward c = false /\
    exists rq, forwarded (ecs_resolve c (ecs_req client opts)) (fun _ => None) = [rq] /\ has_option (req_msg rq) my_net in
  leaks {| ec_client := false; ec_forward := false; ec_mask4 := 0; ec_mask6 := 0 |} (IP4 [192;168;1;5]%N) [my_net] /\
  leaks {| ec_client := false; ec_forward := false; ec_mask4 := 24; ec_mask6 := 0 |} (IP6 (repeat 1%N 16)) [my_net] /\
  leaks {| ec_client := true; ec_forward := false; ec_mask4 := 0; ec_mask6 := 0 |} (IP4 [192;168;1;5]%N) [my_net; my_net].
Proof.
  cbv zeta. repeat apply conj; try reflexivity.
  - exists (ecs_req (IP4 [192;168;1;5]%N) [my_net]). split; [reflexivity|]. apply ecs_req_option. now left.
  - exists (ecs_req (IP6 (repeat 1%N 16)) [my_net]). split; [reflexivity|]. apply ecs_req_option. now left.
  - exists (ecs_req (IP4 [203; 0; 113; 7]%N) [my_net]). split; [reflexivity|]. apply ecs_req_option. now left.
Qed.
Print Assumptions C43_leaks_refuted.

Example C43_example :
  let c := {| ec_client := true; ec_forward := false; ec_mask4 := 20; ec_mask6 := 0 |} in
  let rq := ecs_req (IP4 [203; 0; 113; 7]%N) [EOOther 10 $"cookie"; EOSubnet 1 20 0 (Some (IP4 [203; 0; 112; 0]%N))] in
  forwarded (ecs_resolve c (ecs_req (IP4 [192;168;1;5]%N) [my_net; EOOther 10 $"cookie"])) (fun _ => None) = [rq] /\
  ecs_enabled c = true /\ (exists i, req_ip rq = Some i /\ (0 < if is_v4 i then ec_mask4 c else ec_mask6 c)%N).
Proof. cbv zeta. split; [reflexivity|]. split; [reflexivity|]. eexists. split; [reflexivity|]. reflexivity. Qed.

(** ** C82: the client's address is taken from the request's option only if that is
    configured and the option carries a complete address. *)
Theorem C82_client_address : forall c req rq next, well_formed (req_msg req) ->
  In rq (forwarded (ecs_resolve c req) next) ->
  (exists o a, get_edns0_option 8 (req_msg req) = Some o /\ full_address o a /\ ec_client c = true /\ req_ip rq = a) \/
  ((ec_client c = false \/ forall o a, get_edns0_option 8 (req_msg req) = Some o -> ~ full_address o a) /\ req_ip rq = req_ip req).
Proof.
  intros c req rq next Hw Hin. unfold ecs_resolve in Hin. cbv zeta in Hin.
  assert (req_ip rq = req_ip (ecs_client c (get_edns0_option 8 (req_msg req)) req) \/ (ecs_enabled c = false /\ rq = req)) as Hip.
  { destruct (ecs_enabled c); [|right; now apply in_pass in Hin]. left.
    set (req1 := ecs_client c _ req) in *.
    destruct (if (0 <? ec_mask4 c)%N || (0 <? ec_mask6 c)%N then _ else _) as [req2|] eqn:Es; [|destruct Hin].
    assert (req_ip req2 = req_ip req1) as H2.
    { destruct ((0 <? ec_mask4 c)%N || (0 <? ec_mask6 c)%N); [|congruence]. unfold set_subnet in Es. cbv zeta in Es.
      destruct (match get_edns0_option 8 (req_msg req) with Some (EOSubnet _ _ _ (Some a)) => _ | _ => _ end) as [i|]; [|congruence].
      destruct (is_v4 i && _); [|destruct (0 <? ec_mask6 c)%N; [|congruence]];
        match type of Es with context [mask_ip ?a ?b] => destruct (mask_ip a b) end; try discriminate; injection Es as <-; reflexivity. }
    destruct (_ && negb _); apply in_pass in Hin; subst rq; auto. }
  destruct Hip as [Hip|[He ->]].
  - unfold ecs_client in Hip. destruct (get_edns0_option 8 (req_msg req)) as [o|] eqn:Eo.
    2:{ right. split; auto. right. discriminate. }
    destruct o as [f m s a| |].
    + destruct (ec_client c) eqn:Ec; cbn [andb] in Hip; [|right; auto].
      destruct (((f =? 1)%N && (m =? 32)%N) || ((f =? 2)%N && (m =? 128)%N)) eqn:E.
      * left. exists (EOSubnet f m s a), a. split; auto. split; [|auto]. exists s.
        apply orb_true_iff in E as [E|E]; apply andb_true_iff in E as [E1 E2]; apply N.eqb_eq in E1, E2; subst; auto.
      * right. split; auto. right. intros o a0 [= <-] [s0 [A|A]]; injection A as -> -> _ _; discriminate.
    + right. split; auto. right. intros o a0 [= <-] [s0 [A|A]]; discriminate.
    + right. split; auto. right. intros o a0 [= <-] [s0 [A|A]]; discriminate.
  - right. split; auto. left. unfold ecs_enabled in He. destruct (ec_client c); auto.
Qed.
Print Assumptions C82_client_address.

Example C82_example :
  let c b := {| ec_client := b; ec_forward := false; ec_mask4 := 0; ec_mask6 := 0 |} in
  let ips c opts := map req_ip (forwarded (ecs_resolve c (ecs_req (IP4 [192;168;1;5]%N) opts)) (fun _ => None)) in
  ips (c true) [my_net] = [Some (IP4 [203; 0; 113; 7]%N)] /\ ips (c false) [my_net] = [Some (IP4 [192;168;1;5]%N)] /\
  ips (c true) [EOSubnet 1 24 0 (Some (IP4 [203; 0; 113; 0]%N))] = [Some (IP4 [192;168;1;5]%N)].
Proof. repeat split. Qed.

(** ** C80: client-subnet handling never makes a query fail: every query is passed on.
    False for IPv4 clients if only the IPv6 mask is set, to more than 32 bits. *)
Theorem C80_no_crash_refuted : exists c req,
  (ec_mask4 c <= 32)%N /\ (ec_mask6 c <= 128)%N /\ well_formed (req_msg req) /\
  forall next, exec (ecs_resolve c req) next = None.
Proof.
  exists {| ec_client := false; ec_forward := false; ec_mask4 := 0; ec_mask6 := 56 |}, (ecs_req (IP4 [192;168;1;5]%N) []).
  split; [cbn; lia|]. split; [cbn; lia|]. split; [apply ecs_req_regular|]. intros next. reflexivity.
Qed.
Print Assumptions C80_no_crash_refuted.

(** Missing from the full statement: just that case. *)
Theorem C80_no_crash_partial : forall c req next,
  (ec_mask4 c <= 32)%N -> (ec_mask6 c <= 128)%N -> (0 < ec_mask4 c)%N \/ (ec_mask6 c <= 32)%N ->
  exists rq, forwarded (ecs_resolve c req) next = [rq] /\ exec (ecs_resolve c req) next = next rq.
Proof.
  intros c req next H4 H6 Hcase. unfold ecs_resolve. cbv zeta.
  assert (forall q, exists rq, forwarded (pass q) next = [rq] /\ exec (pass q) next = next rq) as Hp
    by (intros q; exists q; split; [apply forwarded_pass|apply exec_pass]).
  destruct (ecs_enabled c); [|apply Hp]. set (req1 := ecs_client c _ req).
  assert (exists req2, (if (0 <? ec_mask4 c)%N || (0 <? ec_mask6 c)%N then set_subnet c (get_edns0_option 8 (req_msg req)) req1 else Some req1) = Some req2) as [req2 ->].
  { destruct ((0 <? ec_mask4 c)%N || (0 <? ec_mask6 c)%N); [|eauto]. unfold set_subnet. cbv zeta.
    destruct (match get_edns0_option 8 (req_msg req) with Some (EOSubnet _ _ _ (Some a)) => _ | _ => _ end) as [i|]; [|eauto].
    destruct i as [b|b]; cbn [is_v4 andb mask_ip].
    - destruct (N.ltb_spec 0 (ec_mask4 c)); [apply N.leb_le in H4; rewrite H4; eauto|].
      destruct (N.ltb_spec 0 (ec_mask6 c)); [|eauto]. destruct Hcase as [Hcase|Hcase]; [lia|]. apply N.leb_le in Hcase. rewrite Hcase. eauto.
    - destruct (N.ltb_spec 0 (ec_mask6 c)); [|eauto]. apply N.leb_le in H6. rewrite H6. eauto. }
  destruct (_ && negb _); apply Hp.
Qed.
Print Assumptions C80_no_crash_partial.

Example C80_example :
  let c := {| ec_client := false; ec_forward := false; ec_mask4 := 24; ec_mask6 := 56 |} in
  ((0 < ec_mask4 c)%N \/ (ec_mask6 c <= 32)%N) /\
  forwarded (ecs_resolve c (ecs_req (IP4 [192;168;1;5]%N) [])) (fun _ => None) =
    [ecs_req (IP4 [192;168;1;5]%N) [EOSubnet 1 24 0 (Some (IP4 [192;168;1;0]%N))]].
Proof. cbv zeta. split; [left; reflexivity|reflexivity]. Qed.

(** The configured masks are in range: a mask is accepted iff it is a decimal number of
    at most that many bits. *)
Theorem C80_mask_config : forall max text v, (max <= 255)%N ->
  parse_mask max text = Some v <-> number_text 10 text v /\ (v <= max)%N.
Proof.
  intros max text v Hmax. unfold parse_mask. split.
  - destruct (parse_uint 10 8 text) as [w|] eqn:E; [|discriminate]. destruct (N.ltb_spec max w); [discriminate|].
    intros [= <-]. apply parse_uint_iff in E as [E _]; auto; lia.
  - intros [H1 H2]. assert (parse_uint 10 8 text = Some v) as ->.
    { apply parse_uint_iff; [lia|]. split; auto. cbn. lia. }
    destruct (N.ltb_spec max v); [lia|]. reflexivity.
Qed.
Print Assumptions C80_mask_config.
Example C80_mask_example : parse_mask 32 $"24" = Some 24%N /\ parse_mask 32 $"33" = None /\ parse_mask 128 $"x" = None.
Proof. repeat split. Qed.
