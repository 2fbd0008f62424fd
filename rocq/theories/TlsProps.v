(** Theorems about encrypted listeners (C159). *)
From Coq Require Import String Ascii List Arith Bool NArith ZArith Lia.
From Verif Require Import Str StrFacts ConfValues ConfValuesSpec ConfValuesProps Serve Tls TlsSpec.
Import ListNotations.

Lemma served_least configured : match served_tls configured with Some v => least_version configured v | None => forall v, ~ least_version configured v end.
Proof.
  pose proof (proj1 (C142_tls configured)) as [H1 H2].
  destruct configured as [s|]; [|constructor].
  destruct (str_eq_dec s $"1.0") as [->|N0]; [apply lv_old; cbn; tauto|]. destruct (str_eq_dec s $"1.1") as [->|N1]; [apply lv_old; cbn; tauto|].
  destruct (str_eq_dec s $"1.2") as [->|N2]; [apply lv_old; cbn; tauto|]. destruct (str_eq_dec s $"1.3") as [->|N3]; [apply lv_new|].
  rewrite H2.
  - intros v Hv. inversion Hv as [|t Ht Hx|Hx]; subst; [|now apply N3]. cbn [In] in Ht. destruct Ht as [<-|[<-|[<-|[]]]]; congruence.
  - exists s. split; [reflexivity|]. cbn [In]. intros [<-|[<-|[<-|[<-|[]]]]]; congruence.
Qed.

(** [handshake] picks the highest common version. *)
Lemma handshake_spec min versions v : handshake min versions = Some v <-> common_version min versions v.
Proof.
  set (f := fun (best : option Z) v => if (min <=? v)%Z && (v <=? 772)%Z then match best with Some b => if (b <? v)%Z then Some v else best | None => Some v end else best).
  assert (forall l best, (match best with Some b => min <= b <= 772 | None => True end)%Z ->
    match fold_left f l best with
    | Some w => ((best = Some w \/ In w l) /\ min <= w <= 772 /\ (forall u, In u l -> u <= 772 -> min <= u -> u <= w) /\ (forall b, best = Some b -> b <= w))%Z
    | None => best = None /\ (forall u, In u l -> ~ (min <= u <= 772)%Z)
    end) as G.
  { induction l as [|c l IH]; intros best Hb; cbn [fold_left].
    - destruct best as [b|]; [|split; [reflexivity|intros u []]]. split; [now left|]. split; [exact Hb|]. split; [intros u []|]. intros b' [= ->]. lia.
    - assert (match f best c with Some b => (min <= b <= 772)%Z | None => True end) as Hb'.
      { unfold f. destruct (Z.leb_spec min c), (Z.leb_spec c 772); cbn [andb]; try exact Hb. destruct best as [b|]; [destruct (Z.ltb_spec b c); lia|lia]. }
      specialize (IH (f best c) Hb'). destruct (fold_left f l (f best c)) as [w|].
      + destruct IH as [I1 [I2 [I3 I4]]].
        assert (forall b, best = Some b -> (b <= w)%Z) as Hbest.
        { intros b ->. unfold f in I4. destruct ((min <=? c)%Z && (c <=? 772)%Z); [|now apply I4]. destruct (Z.ltb_spec b c); [|now apply I4]. specialize (I4 c eq_refl). lia. }
        split; [|split; [exact I2|split; [|exact Hbest]]].
        * destruct I1 as [I1|I1]; [|right; now right]. unfold f in I1. destruct ((min <=? c)%Z && (c <=? 772)%Z); [|now left].
          destruct best as [b|]; [destruct (b <? c)%Z|]; try (injection I1 as <-; right; now left); now left.
        * intros u [<-|Hu] H1 H2; [|now apply I3]. unfold f in I4. destruct (Z.leb_spec min c); [|lia]. destruct (Z.leb_spec c 772); [|lia]. cbn [andb] in I4.
          destruct best as [b|]; [destruct (Z.ltb_spec b c)|].
          -- now apply I4.
          -- specialize (I4 b eq_refl). lia.
          -- now apply I4.
      + destruct IH as [I1 I2]. unfold f in I1. destruct (Z.leb_spec min c), (Z.leb_spec c 772); cbn [andb] in I1.
        * destruct best as [b|]; [destruct (b <? c)%Z|]; discriminate I1.
        * split; [exact I1|]. intros u [<-|Hu]; [lia|now apply I2].
        * split; [exact I1|]. intros u [<-|Hu]; [lia|now apply I2].
        * split; [exact I1|]. intros u [<-|Hu]; [lia|now apply I2]. }
  specialize (G versions None I). unfold handshake. fold f. unfold common_version. destruct (fold_left f versions None) as [w|].
  - destruct G as [[G1|G1] [G2 [G3 _]]]; [discriminate G1|]. split.
    + intros [= <-]. split; [exact G1|]. split; [exact G2|]. intros u Hu Hm. destruct (Z.le_gt_cases min u); [now apply G3|lia].
    + intros [H1 [H2 H3]]. f_equal. specialize (G3 v H1). specialize (H3 w G1). lia.
  - destruct G as [_ G]. split; [discriminate|]. intros [H1 [H2 _]]. now apply G in H1.
Qed.

Lemma suite_ok_spec k x : In x tls_cipher_suites -> (suite_ok k x = true <-> strong_for k x).
Proof.
  unfold tls_cipher_suites, strong_for. cbn [In]. intros [<-|[<-|[<-|[<-|[<-|[<-|[]]]]]]]; destruct k; cbn [suite_ok existsb N.eqb Pos.eqb orb];
    (split; [first [discriminate|intros _; unfold iana; cbn [In]; tauto]|]);
    try reflexivity; unfold iana; cbn [In]; intros H; exfalso; repeat (destruct H as [H|H]; [discriminate H|]); exact H.
Qed.

Lemma strong_for_in k x : strong_for k x -> In x tls_cipher_suites.
Proof.
  unfold strong_for, iana. cbn [In]. intros H.
  repeat (destruct H as [H|H]; [try discriminate H; injection H as <- _; unfold tls_cipher_suites; cbn [In]; tauto|]). destruct H.
Qed.

(** What has been agreed on is strong: at least TLS 1.2 and the configured version, with an ephemeral key exchange and an
    authenticated cipher, whatever the client offers and whatever certificate is in use. *)
Theorem C159_strong : forall later files configured cert key now serial s ch c,
  new_tls_config later files configured cert key now serial = Some s -> accept s ch = Some c ->
  strong (cn_suite c) /\ In (cn_suite c) (ch_suites ch) /\
  exists min, least_version configured min /\ common_version min (ch_versions ch) (cn_version c).
Proof.
  intros later files configured cert key now serial s ch c Hs Ha. unfold new_tls_config in Hs.
  destruct (retrieve_certificate _ _ cert key) as [ce|]; [|discriminate Hs]. pose proof (served_least configured) as Hl.
  destruct (served_tls configured) as [v|]; [|discriminate Hs]. injection Hs as <-. unfold accept in Ha. cbn [ts_min ts_cert] in Ha.
  destruct (handshake v (ch_versions ch)) as [w|] eqn:Hh; [|discriminate Ha]. apply handshake_spec in Hh.
  destruct (ch_groups ch); [|discriminate Ha]. cbn [negb] in Ha.
  destruct (pick_suite _ w ch) as [x|] eqn:Hp; [|discriminate Ha]. destruct (pick_proto _ ch) as [p|]; [|discriminate Ha]. injection Ha as <-. cbn [cn_suite cn_version].
  unfold pick_suite in Hp. assert (strong x /\ existsb (N.eqb x) (ch_suites ch) = true) as [H1 H2].
  { destruct (w =? 772)%Z.
    - apply find_some in Hp as [H1 H2]. split; [|exact H2]. exists Tls13, None. split; [|now right]. unfold iana. cbn [In] in H1 |- *.
      destruct H1 as [<-|[<-|[<-|[]]]]; tauto.
    - cbn [ts_suites ts_cert] in Hp. apply find_some in Hp as [H1 H2]. apply andb_true_iff in H2 as [H2 H3]. split; [|exact H3].
      apply suite_ok_spec in H2; [|exact H1]. eexists _, _. split; [exact H2|now left]. }
  split; [exact H1|]. split; [|exists v; auto]. apply existsb_exists in H2 as [y [H2 H3]]. apply N.eqb_eq in H3. now subst.
Qed.
Print Assumptions C159_strong.

(** Nobody else is turned away: a client that offers a version which is high enough (and no higher one that the server
    speaks) and a strong suite for it, fitting the certificate, gets a connection, and sees the certificate of the start. *)
Theorem C159_accepts : forall later files configured cert key now serial s ch,
  new_tls_config later files configured cert key now serial = Some s ->
  ((exists c, accept s ch = Some c) <->
   ch_groups ch = true /\ exists min v x, least_version configured min /\ common_version min (ch_versions ch) v /\ In x (ch_suites ch) /\
     (v = 772%Z /\ In (x, (Tls13, None, true)) iana \/ v = 771%Z /\ strong_for (ce_key (ts_cert s)) x)) /\
  (forall c, accept s ch = Some c -> cn_cert c = ts_cert s).
Proof.
  intros later files configured cert key now serial s ch Hs. unfold new_tls_config in Hs.
  destruct (retrieve_certificate _ _ cert key) as [ce|]; [|discriminate Hs]. pose proof (served_least configured) as Hl.
  destruct (served_tls configured) as [v|]; [|discriminate Hs]. injection Hs as <-. cbn [ts_cert].
  assert (pick_proto {| ts_min := v; ts_suites := tls_cipher_suites; ts_protos := []; ts_cert := ce |} ch = Some None) as Hp by reflexivity.
  assert (forall a b, least_version configured a -> least_version configured b -> a = b) as Hfun.
  { intros a b A B. destruct A as [|s0 H0|]; inversion B as [|s1 H1 E1|E1]; try reflexivity.
    - rewrite <- E1 in H0. cbn [In] in H0. destruct H0 as [H0|[H0|[H0|[]]]]; discriminate H0.
    - cbn [In] in H1. rewrite ?E1 in H1. destruct H1 as [H1|[H1|[H1|[]]]]; discriminate H1. }
  assert (771 <= v)%Z as Hv by (inversion Hl; lia).
  split.
  - unfold accept. rewrite Hp. cbn [ts_min ts_cert]. split.
    + intros [c H]. destruct (handshake v (ch_versions ch)) as [w|] eqn:Hh; [|discriminate H]. apply handshake_spec in Hh.
      destruct (ch_groups ch); [|discriminate H]. cbn [negb] in H. split; [reflexivity|].
      destruct (pick_suite _ w ch) as [x|] eqn:Hx; [|discriminate H]. exists v, w, x. split; [exact Hl|]. split; [exact Hh|].
      unfold pick_suite in Hx. destruct (Z.eqb_spec w 772) as [->|Hw].
      * apply find_some in Hx as [H1 H2]. apply existsb_exists in H2 as [y [H2 H3]]. apply N.eqb_eq in H3. subst y. split; [exact H2|]. left. split; [reflexivity|].
        unfold iana. cbn [In] in H1 |- *. destruct H1 as [<-|[<-|[<-|[]]]]; tauto.
      * cbn [ts_suites ts_cert] in Hx. apply find_some in Hx as [H1 H2]. apply andb_true_iff in H2 as [H2 H3].
        apply existsb_exists in H3 as [y [H3 H4]]. apply N.eqb_eq in H4. subst y. split; [exact H3|]. right. destruct Hh as [_ [Hr _]]. split; [lia|]. now apply suite_ok_spec.
    + intros [-> [min [w [x [H1 [H2 [H3 H4]]]]]]]. rewrite (Hfun min v H1 Hl) in H2. apply handshake_spec in H2 as ->. cbn [negb].
      assert (existsb (N.eqb x) (ch_suites ch) = true) as Hin by (apply existsb_exists; exists x; split; [exact H3|apply N.eqb_refl]).
      destruct (pick_suite _ w ch) as [y|] eqn:Hx; [eauto|]. exfalso. unfold pick_suite in Hx. destruct H4 as [[-> H4]|[-> H4]].
      * change (772 =? 772)%Z with true in Hx. cbv iota in Hx. assert (In x [4865; 4866; 4867]%N) as Hm.
        { unfold iana in H4. cbn [In] in H4. repeat (destruct H4 as [H4|H4]; [try discriminate H4; injection H4 as <-; cbn; tauto|]). destruct H4. }
        apply (find_none _ _ Hx) in Hm. congruence.
      * change (771 =? 772)%Z with false in Hx. cbv iota in Hx. cbn [ts_suites ts_cert] in Hx. pose proof (strong_for_in _ _ H4) as Hm.
        pose proof (find_none _ _ Hx x Hm) as Hn. cbv beta in Hn. rewrite Hin, andb_true_r in Hn. apply (suite_ok_spec _ _ Hm) in H4. congruence.
  - intros c H. unfold accept in H. cbn [ts_min ts_cert] in H. destruct (handshake v (ch_versions ch)); [|discriminate H]. destruct (negb _); [discriminate H|].
    destruct (pick_suite _ _ _); [|discriminate H]. destruct (pick_proto _ _); [|discriminate H]. now injection H as <-.
Qed.
Print Assumptions C159_accepts.

(** The certificate: the configured one as it was in the files at the start, or, only if neither file is configured, one made
    by the program.  If the files cannot be used, or only one of them is configured (a name of a file is missing), no
    encrypted listener comes up with another certificate. *)
Theorem C159_certificate : forall later files configured cert key now serial s,
  new_tls_config later files configured cert key now serial = Some s ->
  (cert = [] /\ key = [] /\ ts_cert s = self_signed later [$"blocky.invalid"; $"*"] now serial) \/
  ((cert <> [] \/ key <> []) /\ files now cert key = Some (ts_cert s)).
Proof.
  intros later files configured cert key now serial s H. unfold new_tls_config, retrieve_certificate in H.
  destruct cert as [|c cert], key as [|k key]; try (destruct (files now _ _) as [ce|] eqn:E; [|discriminate H]);
    (destruct (served_tls configured) as [v|]; [|discriminate H]); injection H as <-; cbn [ts_cert]; try (left; now auto);
    right; (split; [(left; discriminate) || (right; discriminate)|first [exact E|reflexivity]]).
Qed.
Print Assumptions C159_certificate.

Theorem C159_starts : forall later files configured cert key now serial,
  (exists s, new_tls_config later files configured cert key now serial = Some s) <->
  (exists v, least_version configured v) /\ (cert = [] /\ key = [] \/ exists c, files now cert key = Some c /\ (cert <> [] \/ key <> [])).
Proof.
  intros later files configured cert key now serial. pose proof (served_least configured) as Hl. unfold new_tls_config, retrieve_certificate. split.
  - intros [s H]. assert (exists v, served_tls configured = Some v) as [v Hv].
    { destruct (served_tls configured) as [v|]; [eauto|]. exfalso. destruct cert, key; try discriminate H; destruct (files now _ _); discriminate H. }
    rewrite Hv in Hl. split; [eauto|]. destruct cert as [|c cert], key as [|k key]; [now left| | |]; right;
      (destruct (files now _ _) as [ce|]; [|discriminate H]); exists ce; (split; [reflexivity|]); first [left; discriminate|right; discriminate].
  - intros [[v Hv] H]. destruct (served_tls configured) as [w|]; [|now apply Hl in Hv].
    destruct H as [[-> ->]|[ce [Hc Hne]]]; [eauto|]. destruct cert as [|c cert], key as [|k key]; [destruct Hne as [Hne|Hne]; now elim Hne| | |]; rewrite Hc; eauto.
Qed.
Print Assumptions C159_starts.

(** The generated certificate: a client that trusts it can verify it in the name blocky.invalid while it is valid, and in no
    other name with a dot. *)
Theorem C159_self_signed : forall later files configured now serial s f name t,
  new_tls_config later files configured [] [] now serial = Some s ->
  (name = $"blocky.invalid" -> vf_trusts f (ts_cert s) = true -> (now <= t <= later now)%Z -> verified f (ts_cert s) name t) /\
  (verified f (ts_cert s) name t -> (now <= t <= later now)%Z /\ (name = $"blocky.invalid" \/ labels name = 1)).
Proof.
  intros later files configured now serial s f name t H. unfold new_tls_config in H. cbn [retrieve_certificate] in H.
  destruct (served_tls configured) as [v|]; [|discriminate H]. injection H as <-. cbn [ts_cert]. unfold verified. cbn [self_signed ce_from ce_to ce_names]. split.
  - intros -> Ht Hw. split; [exact Ht|]. split; [exact Hw|]. exists ($"blocky.invalid"). split; [now left|apply vf_exact].
  - intros [_ [Hw [n [Hn Hm]]]]. split; [exact Hw|]. apply vf_strict in Hm. destruct Hn as [<-|[<-|[]]].
    + destruct Hm as [<-|[Hm _]]; [now left|discriminate Hm].
    + right. destruct Hm as [<-|[_ <-]]; reflexivity.
Qed.
Print Assumptions C159_self_signed.

(** ** Cases and refutations *)
Definition modern : client_hello := {| ch_versions := [772; 771]%Z; ch_suites := [4865; 49195; 49199; 47]%N; ch_protos := [$"h2"; $"http/1.1"]; ch_groups := true |}.
Definition old : client_hello := {| ch_versions := [771; 770; 769]%Z; ch_suites := [49200; 10; 47]%N; ch_protos := []; ch_groups := true |}.
Definition pair (to : Z) : certificate := {| ce_key := KRsa; ce_names := [$"dns.example.com"]; ce_from := 0; ce_to := to; ce_serial := 1 |}.

Example C159_case :
  exists s, new_tls_config (fun t => t + 157766400)%Z (fun _ _ _ => Some (pair 7776000)) (Some $"1.1") $"cert.pem" $"key.pem" 1000 7 = Some s /\
  (exists c, accept s modern = Some c /\ cn_version c = 772%Z /\ cn_suite c = 4865%N) /\
  (exists c, accept s old = Some c /\ cn_version c = 771%Z /\ cn_suite c = 49200%N) /\
  accept s {| ch_versions := [770; 769]%Z; ch_suites := ch_suites old; ch_protos := []; ch_groups := true |} = None /\
  accept s {| ch_versions := [771]%Z; ch_suites := [10; 47; 49195]%N; ch_protos := []; ch_groups := true |} = None.
Proof. eexists. split; [vm_compute; reflexivity|]. repeat split; try (eexists; vm_compute; repeat split). Qed.

(** HTTP/2 is never agreed on, also with clients that offer it: DNS over HTTPS is served over HTTP/1.1 only. *)
Theorem C159_http2_refuted : forall later files configured cert key now serial s,
  new_tls_config later files configured cert key now serial = Some s -> ts_protos s = [] /\
  (forall ch c, accept s ch = Some c -> cn_proto c = None) /\
  exists ch, ch_protos ch = [$"h2"] /\ exists c, accept s ch = Some c /\ cn_proto c <> Some $"h2".
Proof.
  intros later files configured cert key now serial s H. pose proof (C159_accepts _ _ _ _ _ _ _ _ {| ch_versions := [772]%Z; ch_suites := [4865]%N; ch_protos := [$"h2"]; ch_groups := true |} H) as [A _].
  pose proof (proj1 (proj1 (C159_starts later files configured cert key now serial) (ex_intro _ s H))) as [v Hv].
  assert (ts_protos s = []) as Hp.
  { unfold new_tls_config in H. destruct (retrieve_certificate _ _ cert key); [|discriminate H]. destruct (served_tls configured); [|discriminate H]. now injection H as <-. }
  assert (forall ch c, accept s ch = Some c -> cn_proto c = None) as Hn.
  { intros ch c Ha. unfold accept in Ha. destruct (handshake _ _); [|discriminate Ha]. destruct (negb _); [discriminate Ha|]. destruct (pick_suite _ _ _); [|discriminate Ha].
    unfold pick_proto in Ha. rewrite Hp in Ha. now injection Ha as <-. }
  split; [exact Hp|]. split; [exact Hn|]. eexists. split; [|destruct (proj2 A) as [c Hc]].
  2: { cbn [ch_groups ch_versions ch_suites]. split; [reflexivity|]. exists v, 772%Z, 4865%N. split; [exact Hv|]. split.
       - split; [now left|]. split; [inversion Hv; lia|]. intros u [<-|[]] _. lia.
       - split; [now left|]. left. split; [reflexivity|]. unfold iana. cbn [In]. tauto. }
  2: { exists c. split; [exact Hc|]. rewrite (Hn _ _ Hc). discriminate. }
  reflexivity.
Qed.
Print Assumptions C159_http2_refuted.

(** A renewed certificate is not taken over: clients are shown the one of the start, though it has expired and the files hold
    a valid one; a restart helps. *)
Theorem C159_renewal_refuted : exists files start t s s', (start < t)%Z /\
  (forall u, exists c, files u $"cert.pem" $"key.pem" = Some c /\ (ce_from c <= u <= ce_to c)%Z) /\
  new_tls_config (fun u => u) files None $"cert.pem" $"key.pem" start 7 = Some s /\
  (forall ch c, accept s ch = Some c -> ~ (ce_from (cn_cert c) <= t <= ce_to (cn_cert c))%Z) /\
  new_tls_config (fun u => u) files None $"cert.pem" $"key.pem" t 8 = Some s' /\ (ce_from (ts_cert s') <= t <= ce_to (ts_cert s'))%Z.
Proof.
  set (files := fun (u : Z) (_ _ : str) => Some {| ce_key := KRsa; ce_names := [$"dns.example.com"]; ce_from := u - 10; ce_to := u + 100; ce_serial := 1 |}).
  exists files, 1000%Z, 2000%Z.
  assert (forall u n, new_tls_config (fun u => u) files None $"cert.pem" $"key.pem" u n =
    Some {| ts_min := 771; ts_suites := tls_cipher_suites; ts_protos := []; ts_cert := {| ce_key := KRsa; ce_names := [$"dns.example.com"]; ce_from := u - 10; ce_to := u + 100; ce_serial := 1 |} |}) as E by reflexivity.
  eexists _, _. split; [lia|]. split; [intros u; eexists; split; [reflexivity|]; cbn [ce_from ce_to]; lia|]. split; [apply E|]. split; [|split; [apply E|cbn [ts_cert ce_from ce_to]; lia]].
  intros ch c H. apply (proj2 (C159_accepts _ _ _ _ _ _ _ _ ch (E 1000%Z 7%N))) in H. rewrite H. cbn [ts_cert ce_from ce_to]. lia.
Qed.
Print Assumptions C159_renewal_refuted.

(** The wildcard of the generated certificate is not for all names: whoever trusts it cannot verify it in an ordinary name. *)
Theorem C159_any_name_refuted : forall later files configured now serial s f t,
  new_tls_config later files configured [] [] now serial = Some s -> In $"*" (ce_names (ts_cert s)) /\ ~ verified f (ts_cert s) $"dns.example.com" t.
Proof.
  intros later files configured now serial s f t H. split.
  - destruct (C159_certificate _ _ _ _ _ _ _ _ H) as [[_ [_ ->]]|[[E|E] _]]; [|now elim E|now elim E]. cbn. tauto.
  - intros V. destruct (C159_self_signed _ _ _ _ _ _ f ($"dns.example.com") t H) as [_ G]. destruct (G V) as [_ [E|E]]; discriminate E.
Qed.
Print Assumptions C159_any_name_refuted.
