(** Theorems about the dispatch of DNS packets. *)
From Coq Require Import String Ascii List Arith Bool NArith Lia.
From Verif Require Import Str StrFacts Dns Resolver Chain ChainProps Server ServerSpec ServerProps MetricsProps Dispatch DispatchSpec.
Import ListNotations.

(** ** Labels *)

Definition sep (s : str) (j : nat) : Prop :=
  j < length s - 1 /\ nth_error s j = Some dot /\ Nat.even (backslashes_before s j) = true.

Lemma next_label_spec : forall fuel s i, length s - 1 - i < fuel ->
  match next_label fuel s i with
  | (o, false) => exists j, o = S j /\ i <= j /\ sep s j /\ forall k, i <= k -> k < j -> ~ sep s k
  | (_, true) => forall k, i <= k -> ~ sep s k
  end.
Proof.
  induction fuel as [|f IH]; intros s i Hf; [lia|]. cbn [next_label].
  destruct (i <? length s - 1) eqn:Hi.
  2:{ apply Nat.ltb_ge in Hi. intros k Hk [H _]. lia. }
  apply Nat.ltb_lt in Hi. destruct (nth_error s i) as [c|] eqn:Hc.
  2:{ apply nth_error_None in Hc. lia. }
  destruct (Ascii.eqb c dot && Nat.even (backslashes_before s i)) eqn:Hd.
  - apply andb_true_iff in Hd. destruct Hd as [Hd He]. apply Ascii.eqb_eq in Hd. subst c.
    exists i. repeat split; auto. intros k H1 H2. lia.
  - specialize (IH s (S i) ltac:(lia)).
    assert (Hn : ~ sep s i).
    { intros (_ & H1 & H2). rewrite Hc in H1. injection H1 as ->. rewrite H2, Ascii.eqb_refl in Hd. discriminate. }
    destruct (next_label f s (S i)) as [o [|]].
    + intros k Hk. destruct (Nat.eq_dec k i) as [->|]; [exact Hn|]. apply IH. lia.
    + destruct IH as (j & -> & Hj & Hs & Hb). exists j. repeat split; try apply Hs; [lia|].
      intros k H1 H2. destruct (Nat.eq_dec k i) as [->|]; [exact Hn|]. apply Hb; lia.
Qed.

Definition health_key : str := $"healthcheck.blocky.".

Lemma mux_get_registered k : mux_get registered k =
  if str_eqb health_key k then Some HHealth else if str_eqb ($".") k then Some HRequest else None.
Proof.
  unfold mux_get, registered, mux_handle. cbn [find fst].
  change (canonical_name $"healthcheck.blocky") with health_key. change (canonical_name $".") with ($".").
  destruct (str_eqb health_key k); [reflexivity|]. destruct (str_eqb _ k); reflexivity.
Qed.

Definition start (s : str) (o : nat) : Prop := o = 0 \/ exists j, o = S j /\ sep s j.

Lemma match_loop_spec q t : t <> type_ds -> q <> [] -> forall fuel off lst,
  length q - off < fuel -> off < length q ->
  let r := match_loop fuel registered q t off lst in
  (snd r = Some HHealth <-> exists o, (o = off \/ (off < o /\ exists j, o = S j /\ sep q j)) /\ skipn o q = health_key) /\
  (snd r = Some HHealth \/ snd r = Some HRequest \/ r = (lst, None)).
Proof.
  intros Ht Hq. induction fuel as [|f IH]; intros off lst Hf Ho; [lia|]. cbn [match_loop].
  rewrite mux_get_registered. apply N.eqb_neq in Ht.
  destruct (str_eqb_spec health_key (skipn off q)) as [E|E].
  { rewrite Ht. cbn [snd]. split; [|now left]. split; [|reflexivity]. intros _. exists off. auto. }
  destruct (str_eqb_spec ($".") (skipn off q)) as [E2|E2].
  { rewrite Ht. cbn [snd]. split; [|auto]. split; [discriminate|].
    intros (o & Hor & Hk). exfalso.
    assert (off <= o) by (destruct Hor as [->|[H _]]; lia).
    apply (f_equal (@length ascii)) in Hk, E2. rewrite skipn_length in Hk, E2. cbn in Hk, E2. lia. }
  assert (Hlen : length q - 1 - off < length q) by lia.
  pose proof (next_label_spec (length q) q off Hlen) as Hn.
  destruct (next_label (length q) q off) as [o' [|]].
  - cbn [snd]. split; [|auto]. split; [discriminate|]. intros (o & [->|[Hlt (j & -> & Hs)]] & Hk); exfalso.
    + now apply E.
    + apply (Hn j); [lia|exact Hs].
  - destruct Hn as (j & -> & Hj & Hs & Hb).
    specialize (IH (S j) lst ltac:(lia) ltac:(destruct Hs; lia)). cbv zeta in IH. destruct IH as [IH1 IH2].
    split; [|exact IH2]. rewrite IH1. split; intros (o & Hor & Hk).
    + exists o. split; [|exact Hk]. right. destruct Hor as [->|[Hlt Hx]]; (split; [lia|]); [exists j; auto|exact Hx].
    + exists o. split; [|exact Hk]. destruct Hor as [->|[Hlt (k & -> & Hsk)]]; [now symmetry in Hk|].
      destruct (Nat.eq_dec k j) as [->|]; [now left|].
      destruct (Nat.lt_ge_cases k j) as [H|H]; [exfalso; apply (Hb k); [lia|exact H|exact Hsk]|].
      right. split; [lia|]. exists k. auto.
Qed.

Lemma match_loop_ds q : forall fuel off lst, snd (match_loop fuel registered q type_ds off lst) = None.
Proof.
  induction fuel as [|f IH]; intros off lst; [reflexivity|]. cbn [match_loop].
  destruct (mux_get registered (skipn off q)); cbn [N.eqb type_ds]; rewrite ?N.eqb_refl;
    destruct (next_label (length q) q off) as [o [|]]; try reflexivity; apply IH.
Qed.

(** ** Escapes *)

Lemma firstn_S (s : str) j c : nth_error s j = Some c -> firstn (S j) s = firstn j s ++ [c].
Proof.
  revert j; induction s as [|x s IH]; intros [|j] H; try discriminate; cbn in *; [congruence|]. now rewrite (IH j).
Qed.

Lemma backslashes_spec s : forall j, j <= length s -> exists p',
  firstn j s = p' ++ repeat backslash (backslashes_before s j) /\ forall p'', p' <> p'' ++ [backslash].
Proof.
  induction j as [|j IH]; intros Hj.
  - exists []. split; [reflexivity|]. intros p'' H. now destruct p''.
  - cbn [backslashes_before]. destruct (nth_error s j) as [c|] eqn:Hc.
    2:{ apply nth_error_None in Hc. lia. }
    rewrite (firstn_S _ _ _ Hc). destruct (Ascii.eqb_spec c backslash) as [->|Hn].
    + destruct (IH ltac:(lia)) as (p' & E & Hp). exists p'. split; [|exact Hp]. rewrite E.
      rewrite <- app_assoc. f_equal. cbn [repeat].
      clear. induction (backslashes_before s j); [reflexivity|]. cbn. now rewrite IHn at 1.
    + exists (firstn j s ++ [c]). cbn [repeat]. rewrite app_nil_r. split; [reflexivity|].
      intros p'' H. apply app_inj_tail in H. now destruct H.
Qed.

Lemma trailing_unique (p1 p2 : str) b n1 n2 : (forall p, p1 <> p ++ [b]) -> (forall p, p2 <> p ++ [b]) ->
  p1 ++ repeat b n1 = p2 ++ repeat b n2 -> p1 = p2 /\ n1 = n2.
Proof.
  assert (R : forall (A:Type) (x:A) n, repeat x (S n) = repeat x n ++ [x]).
  { intros A x. induction n as [|n IHn]; [reflexivity|]. cbn [repeat app] in *. now rewrite IHn at 1. }
  intros H1 H2. revert n2; induction n1 as [|n1 IH]; intros [|n2] E.
  - rewrite !app_nil_r in E. auto.
  - exfalso. rewrite R in E. cbn [repeat] in E. rewrite app_nil_r, app_assoc in E. now apply (H1 _ E).
  - exfalso. rewrite R in E. cbn [repeat] in E. rewrite app_nil_r, app_assoc in E. symmetry in E. now apply (H2 _ E).
  - rewrite !R, !app_assoc in E. apply app_inj_tail in E. destruct E as [E _].
    destruct (IH n2 E) as [-> ->]. auto.
Qed.

Lemma start_spec (q key : str) : key <> [] ->
  ((exists o, start q o /\ skipn o q = key) <-> (exists p, q = p ++ key /\ (p = [] \/ ends_label p))).
Proof.
  intros Hkey. split.
  - intros (o & [->|(j & -> & Hs)] & Hk).
    + exists []. cbn in Hk. auto.
    + destruct Hs as (Hj & Hd & He). exists (firstn (S j) q). split; [now rewrite <- Hk, firstn_skipn|]. right.
      destruct (backslashes_spec q j ltac:(lia)) as (p' & E & Hp).
      apply Nat.even_spec in He. destruct He as [k He].
      exists p', k. split; [|exact Hp]. rewrite (firstn_S _ _ _ Hd), E, He, <- app_assoc. reflexivity.
  - intros (p & -> & [->|(p' & k & E & Hp)]).
    + exists 0. split; [now left|reflexivity].
    + exists (length p). split.
      * right. set (b := p' ++ repeat "\"%char (2 * k)) in *.
        assert (Ep : p = b ++ ["."%char]) by (rewrite E; unfold b; now rewrite <- app_assoc).
        exists (length b). split; [rewrite Ep, app_length; cbn; lia|].
        assert (Hf : firstn (length b) (p ++ key) = b).
        { rewrite Ep, <- app_assoc, firstn_app, Nat.sub_diag, firstn_all. cbn [firstn]. apply app_nil_r. }
        split; [|split].
        -- rewrite Ep, !app_length. cbn. destruct key; [easy|cbn; lia].
        -- rewrite Ep, <- app_assoc, nth_error_app2, Nat.sub_diag by lia. reflexivity.
        -- destruct (backslashes_spec (p ++ key) (length b)) as (p2 & E2 & Hp2).
           { rewrite Ep, !app_length. lia. }
           rewrite Hf in E2. unfold b in E2.
           destruct (trailing_unique _ _ _ _ _ Hp Hp2 E2) as [_ Hn].
           fold b in Hn. rewrite <- Hn. apply Nat.even_spec. now exists k.
      * rewrite skipn_app, Nat.sub_diag, skipn_all. reflexivity.
Qed.

Lemma to_lower_app a b : to_lower (a ++ b) = to_lower a ++ to_lower b.
Proof. unfold to_lower. apply map_app. Qed.

Lemma canonical_qualified name : qualified name -> canonical_name name = to_lower name /\ to_lower name <> [].
Proof.
  intros [n ->]. unfold canonical_name, fqdn. rewrite to_lower_app. change (to_lower $".") with ($".").
  assert (has_suffix (to_lower n ++ $".") $"." = true) as -> by (apply has_suffix_spec; eauto).
  split; [reflexivity|]. intros H. now destruct (to_lower n).
Qed.

Lemma mux_match_spec name t : qualified name ->
  (mux_match registered name t = Some HHealth <-> t <> 43%N /\ in_health_zone name) /\
  (mux_match registered name t = Some HHealth \/ mux_match registered name t = Some HRequest).
Proof.
  intros Hq. destruct (canonical_qualified name Hq) as [Hc Hne]. unfold mux_match. rewrite Hc.
  change (mux_get registered $".") with (Some HRequest). set (q := to_lower name) in *.
  destruct (N.eq_dec t type_ds) as [->|Ht].
  - pose proof (match_loop_ds q (S (length q)) 0 None) as Hn. destruct (match_loop _ _ _ _ _ _) as [a b].
    cbn [snd] in Hn. subst b. split; [|auto]. split; [discriminate|]. intros [H _]. now elim H.
  - destruct (match_loop_spec q t Ht Hne (S (length q)) 0 None ltac:(lia)) as [H1 H2].
    { destruct q; [easy|cbn; lia]. }
    assert (Hz : in_health_zone name <-> exists o, (o = 0 \/ 0 < o /\ (exists j, o = S j /\ sep q j)) /\ skipn o q = health_key).
    { unfold in_health_zone. fold q. fold health_key. rewrite <- (start_spec q health_key) by easy.
      unfold start. split; intros (o & Ho & Hk); exists o; (split; [|exact Hk]); destruct Ho as [Ho|Ho]; auto.
      - right. split; [|exact Ho]. destruct Ho as (j & -> & _). lia.
      - right. apply Ho. }
    rewrite <- Hz in H1. destruct (match_loop _ _ _ _ _ _) as [a b]. cbn [snd] in *.
    destruct b as [[|]|]; (split; [split; [|]|auto]); try discriminate; try (intros [_ H]; apply H1 in H; discriminate).
    + intros _. split; [exact Ht|]. now apply H1.
    + reflexivity.
Qed.

(** ** C129: packets *)

(** Responses are not answered and not resolved: two servers cannot keep each other busy. *)
Theorem C129_responses_ignored : forall L c a sni p, pk_response p = true -> serve_packet L c a sni p = ([], []).
Proof. intros L c a sni p H. unfold serve_packet, accept. now rewrite H. Qed.
Print Assumptions C129_responses_ignored.

(** Every other packet is answered with exactly one message; if it is not resolved, the answer has the id of the packet, is
    marked as a response and has no records. *)
Theorem C129_one_answer : forall L c a sni p, unpacked p -> pk_response p = false ->
  exists w, snd (serve_packet L c a sni p) = [w] /\
    (fst (serve_packet L c a sni p) = [] -> m_id w = pk_id p /\ m_response w = true /\ m_answer w = [] /\ m_ns w = [] /\ m_extra w = []).
Proof.
  intros L c a sni p Hu Hr. unfold serve_packet.
  destruct (accept p) eqn:Ha.
  - destruct (pk_msg p) as [m|] eqn:Hm.
    2:{ eexists. split; [reflexivity|]. intros _. repeat split. }
    destruct (Hu m Hm) as (Hid & _ & _).
    destruct (m_question m) as [|q qs] eqn:Hqm.
    { eexists. split; [reflexivity|]. intros _. cbn. rewrite <- Hid. repeat split. }
    destruct (mux_match registered (q_name q) (q_type q)) as [[|]|].
    + cbn [fst snd]. unfold handle_req. destruct (server_resolve L c _) as [rm [w|]]; eexists; (split; [reflexivity|]); discriminate.
    + eexists. split; [reflexivity|]. intros _. cbn. rewrite <- Hid. repeat split.
    + eexists. split; [reflexivity|]. intros _. cbn. rewrite <- Hid. repeat split.
  - eexists. split; [reflexivity|]. intros _. repeat split.
  - unfold accept in Ha. rewrite Hr in Ha. repeat (destruct (_ : bool) in Ha; try discriminate).
  - eexists. split; [reflexivity|]. intros _. repeat split.
Qed.
Print Assumptions C129_one_answer.

(** What is resolved is a query or a notification with exactly one question, which is not a health check; the request has the
    message, the address and the protocol of the connection. *)
Theorem C129_resolved : forall L c a sni p req, unpacked p -> In req (fst (serve_packet L c a sni p)) ->
  exists m q, pk_msg p = Some m /\ req = request_from_dns a sni m /\ m_question (req_msg req) = [q] /\
    m_response m = false /\ (pk_opcode p = 0 \/ pk_opcode p = 4)%N /\ (q_type q = 43%N \/ ~ in_health_zone (q_name q)) /\
    snd (serve_packet L c a sni p) = handle_req L c req.
Proof.
  intros L c a sni p req Hu. unfold serve_packet.
  destruct (accept p) eqn:Ha; try (intros []).
  destruct (pk_msg p) as [m|] eqn:Hm; [|intros []].
  destruct (Hu m Hm) as (Hid & Hresp & Hlen & Hq).
  destruct (m_question m) as [|q qs] eqn:Hqm; [intros []|].
  inversion Hq as [|? ? Hqq _]; subst.
  destruct (mux_match_spec (q_name q) (q_type q) Hqq) as [Hmm Hor].
  destruct (mux_match registered (q_name q) (q_type q)) as [[|]|] eqn:Hmx; [|intros []|intros []].
  cbn [fst snd]. intros [Hreq|[]]. exists m, q.
  unfold accept in Ha. destruct (pk_response p) eqn:Hr; [discriminate|].
  destruct (pk_opcode p =? 0)%N eqn:Ho; destruct (pk_opcode p =? 4)%N eqn:Ho4; cbn [negb andb] in Ha; try discriminate;
    (destruct (pk_qd p =? 1)%N eqn:Hqd; [|discriminate]); apply N.eqb_eq in Hqd; rewrite Hqd in Hlen; cbn [length] in Hlen;
    (destruct qs; [|cbn [length] in Hlen; lia]).
  all: split; [reflexivity|]; split; [now symmetry|];
    split; [rewrite <- Hreq; unfold request_from_dns; destruct (client_ip_and_protocol a); exact Hqm|];
    split; [exact Hresp|];
    split; [first [apply N.eqb_eq in Ho; now left|apply N.eqb_eq in Ho4; now right]|];
    split; [destruct (N.eq_dec (q_type q) 43) as [|Hn]; [now left|right; intros Hz; pose proof (proj2 Hmm (conj Hn Hz)); discriminate]
           | now rewrite Hreq].
Qed.
Print Assumptions C129_resolved.

(** Queries for the health check are answered without asking anybody: NOERROR, no records. *)
Theorem C129_health_check : forall L c a sni p m q, plain_query p m q -> qualified (q_name q) ->
  in_health_zone (q_name q) -> q_type q <> 43%N ->
  exists w, serve_packet L c a sni p = ([], [w]) /\ error_reply m w 0.
Proof.
  intros L c a sni p m q (Hr & Ho & Hqd & Han & Hns & Har & Hm & Hqm) Hqq Hz Ht.
  unfold serve_packet, accept. rewrite Hr, Ho, Hqd, Han, Hns. cbn [N.eqb negb andb N.ltb N.compare].
  assert ((2 <? pk_ar p)%N = false) as -> by (apply N.ltb_ge; lia).
  rewrite Hm, Hqm.
  destruct (mux_match_spec (q_name q) (q_type q) Hqq) as [Hmm _]. rewrite (proj2 Hmm (conj Ht Hz)).
  eexists. split; [reflexivity|]. unfold error_reply, reply_to. cbn. rewrite Hqm. repeat split.
Qed.
Print Assumptions C129_health_check.

(** All other queries are resolved, once, for the address and the server name of the connection. *)
Theorem C129_queries_resolved : forall L c a sni p m q, plain_query p m q -> qualified (q_name q) ->
  ~ in_health_zone (q_name q) \/ q_type q = 43%N ->
  serve_packet L c a sni p = ([request_from_dns a sni m], handle_req L c (request_from_dns a sni m)).
Proof.
  intros L c a sni p m q (Hr & Ho & Hqd & Han & Hns & Har & Hm & Hqm) Hqq Hz.
  unfold serve_packet, accept. rewrite Hr, Ho, Hqd, Han, Hns. cbn [N.eqb negb andb N.ltb N.compare].
  assert ((2 <? pk_ar p)%N = false) as -> by (apply N.ltb_ge; lia).
  rewrite Hm, Hqm.
  destruct (mux_match_spec (q_name q) (q_type q) Hqq) as [Hmm [H|H]]; rewrite H; [|reflexivity].
  exfalso. apply Hmm in H. destruct Hz as [Hz|Hz]; [now apply Hz|]. now destruct H.
Qed.
Print Assumptions C129_queries_resolved.

(** The command "healthcheck" gives OK whenever the server answers on the address, whatever the resolvers do. *)
Theorem C129_healthcheck_command : forall L c a sni id, healthcheck id (fun p => snd (serve_packet L c a sni p)) = true.
Proof.
  intros L c a sni id. unfold healthcheck. set (m := new_msg_with_question id _ 1).
  destruct (C129_health_check L c a sni (packet_of m) m {| q_name := $"healthcheck.blocky."; q_type := 1; q_class := 1 |})
    as (w & -> & [[Hid _] _]).
  - repeat split. discriminate.
  - now exists $"healthcheck.blocky".
  - exists []. split; [reflexivity|now left].
  - discriminate.
  - cbn [snd]. rewrite Hid. apply N.eqb_refl.
Qed.
Print Assumptions C129_healthcheck_command.

(** What is not a query or a notification is answered with NOTIMP (4), a malformed one with FORMERR (1). *)
Theorem C129_refused : forall L c a sni p, pk_response p = false ->
  (pk_opcode p <> 0 -> pk_opcode p <> 4 -> exists w, serve_packet L c a sni p = ([], [w]) /\ m_rcode w = 4 /\ m_opcode w = pk_opcode p)%N /\
  (pk_opcode p = 0 \/ pk_opcode p = 4 -> pk_qd p <> 1 \/ 1 < pk_an p \/ 1 < pk_ns p \/ 2 < pk_ar p \/ pk_msg p = None ->
    exists w, serve_packet L c a sni p = ([], [w]) /\ m_rcode w = 1)%N.
Proof.
  intros L c a sni p Hr. split.
  - intros H0 H4. unfold serve_packet, accept. rewrite Hr, (proj2 (N.eqb_neq _ _) H0), (proj2 (N.eqb_neq _ _) H4). cbn [negb andb].
    eexists. split; [reflexivity|]. split; reflexivity.
  - intros Ho H. assert (negb (pk_opcode p =? 0)%N && negb (pk_opcode p =? 4)%N = false) as E by (destruct Ho as [->| ->]; reflexivity).
    unfold serve_packet, accept. rewrite Hr, E.
    destruct (N.eqb_spec (pk_qd p) 1) as [Hq|Hq]; cbn [negb]; [|eexists; split; reflexivity].
    destruct (N.ltb_spec 1 (pk_an p)) as [Ha|Ha]; [eexists; split; reflexivity|].
    destruct (N.ltb_spec 1 (pk_ns p)) as [Hn|Hn]; [eexists; split; reflexivity|].
    destruct (N.ltb_spec 2 (pk_ar p)) as [Hx|Hx]; [eexists; split; reflexivity|].
    destruct H as [H|[H|[H|[H|H]]]]; [contradiction|lia..|]. rewrite H. eexists. split; reflexivity.
Qed.
Print Assumptions C129_refused.

(** The command "healthcheck" asks one question, for the name healthcheck.blocky., and gives OK if and only if a message with the id of
    the question comes back. *)
Theorem C129_healthcheck_exact : forall id serve, exists p m q, plain_query p m q /\ m_id m = id /\ q_name q = $"healthcheck.blocky." /\
  q_type q = 1%N /\ q_class q = 1%N /\ (healthcheck id serve = true <-> exists w rest, serve p = w :: rest /\ m_id w = id).
Proof.
  intros id serve. set (m := new_msg_with_question id $"healthcheck.blocky." 1).
  exists (packet_of m), m, {| q_name := $"healthcheck.blocky."; q_type := 1; q_class := 1 |}.
  split; [repeat split; discriminate|]. do 4 (split; [reflexivity|]). unfold healthcheck. fold m. destruct (serve (packet_of m)) as [|w rest].
  - split; [discriminate|intros (w & rest & H & _); discriminate H].
  - rewrite N.eqb_eq. split; [now exists w, rest|]. intros (w' & rest' & [= -> ->] & H). exact H.
Qed.
Print Assumptions C129_healthcheck_exact.

(** Over DNS only messages with one question are resolved; over HTTPS every message is, and the resolvers look at different
    questions of it: with query type AAAA filtered, a message with the questions A and AAAA is sent to the upstream server. *)
Theorem C129_doh_questions_refuted : exists (w : world nat) unpack parse h raw req q,
  fst (process_doh flat_lengths unpack (fun _ => true) parse (chain_gives w) raw h) = [req] /\
  w_filter w = [28%N] /\ In q (m_question (req_msg req)) /\ q_type q = 28%N /\
  exists up, In (SUpstreamTree, up) (query_calls w req) /\ In q (m_question (req_msg up)).
Proof.
  set (qs := [{| q_name := $"example.com."; q_type := 1; q_class := 1 |}; {| q_name := $"example.com."; q_type := 28; q_class := 1 |}]).
  exists (cx_world []), (fun _ => Some (set_question qs empty_msg)), (fun _ => None),
    {| h_host := []; h_client_id := []; h_forwarded := []; h_remote := [] |}, [],
    {| req_ip := None; req_client_id := []; req_proto := TCP; req_names := []; req_msg := set_question qs empty_msg |},
    {| q_name := $"example.com."; q_type := 28; q_class := 1 |}.
  split; [reflexivity|]. split; [reflexivity|]. split; [right; now left|]. split; [reflexivity|].
  exists {| req_ip := None; req_client_id := []; req_proto := TCP; req_names := [$"desktop"]; req_msg := set_question qs empty_msg |}.
  split; [vm_compute; repeat (first [left; reflexivity|right])|right; now left].
Qed.
Print Assumptions C129_doh_questions_refuted.

(** ** Cases *)
Definition ex_packet (name : str) (t : N) : packet := packet_of (new_msg_with_question 9 name t).
Definition ex_serve (p : packet) : nat * list (N * N * bool) :=
  let '(rs, ws) := serve_packet flat_lengths (fun rq => (req_msg rq, CErr)) (UdpAddr (IP4 [10; 0; 0; 1]%N)) None p in
  (length rs, map (fun w => (m_id w, m_rcode w, m_response w)) ws).
Definition ex_header (r : bool) (op qd ar : N) : packet :=
  {| pk_id := 9; pk_response := r; pk_opcode := op; pk_rd := true; pk_cd := false; pk_qd := qd; pk_an := 0; pk_ns := 0; pk_ar := ar;
     pk_questions := []; pk_msg := None |}.

Example C129_cases :
  ex_serve (ex_packet $"example.com." 1) = (1, [(9, 2, true)]%N) /\
  ex_serve (ex_packet $"HealthCheck.Blocky." 1) = (0, [(9, 0, true)]%N) /\
  ex_serve (ex_packet $"a.healthcheck.blocky." 28) = (0, [(9, 0, true)]%N) /\
  ex_serve (ex_packet $"a\.healthcheck.blocky." 28) = (1, [(9, 2, true)]%N) /\
  ex_serve (ex_packet $"a\\.healthcheck.blocky." 28) = (0, [(9, 0, true)]%N) /\
  ex_serve (ex_packet $"xhealthcheck.blocky." 1) = (1, [(9, 2, true)]%N) /\
  ex_serve (ex_packet $"healthcheck.blocky." 43) = (1, [(9, 2, true)]%N) /\
  ex_serve (ex_header true 0 1 0) = (0, []) /\
  ex_serve (ex_header false 0 2 0) = (0, [(9, 1, true)]%N) /\
  ex_serve (ex_header false 0 1 3) = (0, [(9, 1, true)]%N) /\
  ex_serve (ex_header false 5 1 0) = (0, [(9, 4, true)]%N).
Proof. repeat split; vm_compute; reflexivity. Qed.

Example C129_zone_case : in_health_zone $"A\\.HEALTHCHECK.blocky." /\ qualified $"A\\.HEALTHCHECK.blocky." /\
  unpacked (ex_packet $"example.com." 1).
Proof.
  split; [|split].
  - exists $"a\\.". split; [reflexivity|]. right. exists $"a", 1. split; [reflexivity|]. intros p H.
    destruct p as [|x [|y p]]; discriminate.
  - now exists $"A\\.HEALTHCHECK.blocky".
  - intros m H. injection H as <-. repeat split; try (cbn; lia). constructor; [now exists $"example.com"|constructor].
Qed.
