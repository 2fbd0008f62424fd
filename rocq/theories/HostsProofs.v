(** Lemmas about the hosts-file resolver. *)
From Coq Require Import String Ascii List Arith Bool NArith ZArith Lia Permutation.
From Verif Require Import Str StrFacts StringCache StringCacheProofs Parsers ParsersSpec ParsersProofs ParsersProps Dns Resolver ResolverFacts
  Arpa Blocking BlockingSpec BlockingProofs Hosts HostsSpec.
Import ListNotations.

(** ** Lines and sources *)
Lemma host_line_iff parse_ip ip_of_text t : (exists w ws, words t (w :: ws)) -> forall e,
  host_line parse_ip ip_of_text t = Some e <-> host_line_means parse_ip ip_of_text t e.
Proof.
  intros [w [ws Hw]] e. destruct (address_part_total w) as [a Ha].
  assert (forall f, hosts_file_line parse_ip t = Some f -> hfe_interface f = match index_byte "%"%char w with Some i => skipn (S i) w | None => [] end) as Hif.
  { intros f. unfold hosts_file_line. rewrite (fields_words _ _ Hw). cbn [hd tl].
    destruct (index_byte "%"%char w); (destruct (parse_ip _); [|discriminate]; destruct (forallb validate_domain_name ws); [|discriminate];
      destruct ws; [discriminate|]; intros [= <-]; reflexivity). }
  pose proof (hosts_file_line_spec parse_ip t w ws a Hw Ha) as Hs. unfold host_line.
  assert (w = a /\ index_byte "%"%char w = None \/ exists i, w = a ++ "%"%char :: i /\ skipn (S (length a)) w = i /\ index_byte "%"%char w = Some (length a)) as Hia.
  { destruct Ha as [Hn [->|[i ->]]].
    - left. split; auto. now apply index_byte_None.
    - right. exists i. split; auto. split; [|now apply index_byte_app].
      clear. induction a; cbn in *; auto. }
  destruct (hosts_file_line parse_ip t) as [f|].
  - destruct Hs as [H1 [H2 H3]]. specialize (Hif f eq_refl). split.
    + intros [= <-]. exists w, a, (hfe_ip f). cbn. rewrite H2. split; auto. split; [apply Ha|]. split; [|auto].
      destruct Hia as [[-> E]|[i [Ei [Es E]]]]; rewrite E in Hif; [left; auto|right]. rewrite Hif, Es. exact Ei.
    + intros [w' [a' [c [K1 [K2 [K3 [K4 [K5 K6]]]]]]]].
      assert (w' :: he_name e :: he_aliases e = w :: ws) as E by (apply fields_words in K1, Hw; congruence).
      injection E as -> E. assert (a' = a /\ he_iface e = hfe_interface f) as [-> Eif].
      { destruct Hia as [[-> E']|[i [Ei [Es E']]]].
        - destruct K3 as [[<- K3]|K3]; [rewrite E' in Hif; split; congruence|].
          apply index_byte_None in E'. elim E'. rewrite K3. apply in_or_app. right. now left.
        - destruct K3 as [[<- K3]|K3].
          + exfalso. apply K2. rewrite Ei. apply in_or_app. right. now left.
          + assert (length a' = length a) as El.
            { rewrite K3, index_byte_app in E' by auto. now injection E'. }
            rewrite Ei in K3.
            assert (a' = a) as -> by (apply (f_equal (firstn (length a))) in K3; rewrite <- El in K3 at 2; rewrite !firstn_app, !Nat.sub_diag, !firstn_all in K3; cbn in K3; now rewrite !app_nil_r in K3).
            split; auto. apply app_inv_head in K3. injection K3 as ->. rewrite E', Es in Hif. auto. }
      destruct e as [eip eif en ea]. cbn in *. f_equal.
      assert (hfe_ip f = c) as <- by congruence. rewrite <- K5.
      injection (eq_trans H2 (eq_sym E)) as -> ->. now rewrite <- Eif.
  - split; [discriminate|]. intros [w' [a' [c [K1 [K2 [K3 [K4 [K5 K6]]]]]]]]. exfalso.
    assert (w' :: he_name e :: he_aliases e = w :: ws) as E by (apply fields_words in K1, Hw; congruence).
    injection E as -> E. subst ws.
    assert (address_part w a') as Ha' by (split; auto; destruct K3 as [[-> _]|K3]; [now left|right; eauto]).
    assert (a' = a) as -> by (apply address_part_split in Ha, Ha'; congruence).
    destruct Hs as [Hs|[Hs|Hs]]; [congruence|discriminate|].
    apply Exists_exists in Hs as [x [Hx Hg]]. rewrite Forall_forall in K6. apply Hg. auto.
Qed.

Lemma contents_words ls ts : contents ls ts -> forall t, In t ts -> exists w ws, words t (w :: ws).
Proof.
  induction 1 as [|l ls ts Hl Hc IH|l ls t ts Hl Ht Hc IH]; intros x Hx; [destruct Hx|auto|].
  destruct Hx as [<-|Hx]; [|auto].
  pose proof (words_total t) as W. destruct (fields t) as [|w ws]; [|eauto]. exfalso. inversion W; subst.
  destruct Hl as [b [body [a [tl [_ [_ [_ [_ [_ [-> [->|[[c [r [-> Hc']]] _]]]]]]]]]]]]; [contradiction|]. inversion H; auto.
Qed.

Lemma described_collected parse_ip ip_of_text ts : (forall t, In t ts -> exists w ws, words t (w :: ws)) -> forall es n,
  described (host_line_means parse_ip ip_of_text) ts es n <-> collected (host_line parse_ip ip_of_text) ts es n.
Proof.
  induction ts as [|t ts IH]; intros Hw es n.
  - split; intros H; inversion H; constructor.
  - assert (forall t0, In t0 ts -> exists w ws, words t0 (w :: ws)) as Hw' by (intros; apply Hw; now right).
    pose proof (host_line_iff parse_ip ip_of_text t (Hw t (or_introl eq_refl))) as Ht.
    split; intros H; inversion H; subst.
    + constructor; [now apply Ht|now apply IH].
    + apply col_bad; [|now apply IH]. destruct (host_line parse_ip ip_of_text t) as [e|]; auto. elim (H2 e). now apply Ht.
    + constructor; [now apply Ht|now apply IH].
    + apply des_bad; [|now apply IH]. intros e He. apply Ht in He. congruence.
Qed.

Lemma collected_fun {A} (p : str -> option A) ts l n : collected p ts l n -> forall l' n', collected p ts l' n' -> l = l' /\ n = n'.
Proof.
  induction 1 as [|t ts a l n Hp Hc IH|t ts l n Hp Hc IH]; intros l' n' H'; inversion H'; subst; auto; try congruence.
  - destruct (IH _ _ H4) as [-> ->]. split; congruence.
  - destruct (IH _ _ H4) as [-> ->]. split; congruence.
Qed.

Lemma is_loopback_iff i : is_loopback i = true <-> loopback i.
Proof.
  unfold is_loopback, loopback. destruct i as [b|b].
  - destruct b as [|x b]; [split; [discriminate|intros [[r H]|H]; discriminate]|]. rewrite N.eqb_eq. split.
    + intros ->. left. eauto.
    + intros [[r H]|H]; congruence.
  - rewrite byte_list_eqb_eq. split; [intros ->; right; reflexivity|]. intros [[r H]|H]; [discriminate|]. injection H as ->. reflexivity.
Qed.

Lemma keep_entry_iff cfg e : keep_entry cfg e = true <-> served (hf_filter cfg) e.
Proof.
  unfold keep_entry, served. destruct (he_iface e); [|split; [discriminate|intros [H _]; discriminate]].
  rewrite negb_true_iff, andb_false_iff, orb_false_iff. split.
  - intros H. split; auto. intros Hf. destruct H as [H|[H1 H2]]; [congruence|]. split.
    + intros Hl. apply is_loopback_iff in Hl. congruence.
    + now apply str_eqb_neq.
  - intros [_ H]. destruct (hf_filter cfg); [right|now left]. destruct (H eq_refl) as [H1 H2]. split.
    + destruct (is_loopback (he_ip e)) eqn:E; auto. apply is_loopback_iff in E. contradiction.
    + now apply str_eqb_neq.
Qed.

Lemma selected_filter {A} (P : A -> Prop) f : (forall x, f x = true <-> P x) -> forall l l', selected P l l' <-> l' = filter f l.
Proof.
  intros Hf. induction l as [|x l IH]; intros l'; cbn.
  - split; [inversion 1; auto|intros ->; constructor].
  - destruct (f x) eqn:E.
    + apply Hf in E as E'. split; [inversion 1; subst; [f_equal; now apply IH|contradiction]|]. intros ->. apply sel_keep; auto. now apply IH.
    + assert (~ P x) as E' by (intros Hp; apply Hf in Hp; congruence).
      split; [inversion 1; subst; [contradiction|now apply IH]|]. intros ->. apply sel_drop; auto. now apply IH.
Qed.

Lemma load_source_spec parse_ip ip_of_text cfg s es :
  source_means parse_ip ip_of_text cfg s es <-> load_source parse_ip ip_of_text cfg s = (es, false).
Proof.
  split.
  - intros [ls [ts [all [bad [-> [Hc [Hd [Hb Hs]]]]]]]]. cbn [load_source].
    apply described_collected in Hd; [|eapply contents_words; eauto].
    destruct (C08_error_budget_exact _ (host_line parse_ip ip_of_text) (hf_max_errors cfg) ls ScanEOF ts all bad Hc Hd) as [H _].
    rewrite (H Hb). apply (selected_filter _ _ (keep_entry_iff cfg)) in Hs. now rewrite Hs.
  - destruct s as [|ls e]; cbn [load_source]; [discriminate|].
    destruct (C08_every_source_covered _ (host_line parse_ip ip_of_text) ls) as [ts [good [bad [Hc Hd]]]].
    destruct (C08_error_budget_exact _ (host_line parse_ip ip_of_text) (hf_max_errors cfg) ls e ts good bad Hc Hd) as [H1 H2].
    assert ((hf_max_errors cfg = -1 \/ Z.of_nat bad <= Z.max (hf_max_errors cfg) 0)%Z \/
            (hf_max_errors cfg <> -1 /\ Z.max (hf_max_errors cfg) 0 < Z.of_nat bad)%Z) as [Hx|Hx] by lia.
    + rewrite (H1 Hx). destruct e; [|discriminate]. intros [= <-].
      exists ls, ts, good, bad. split; auto. split; auto. split; [apply described_collected; auto; eapply contents_words; eauto|].
      split; auto. now apply (selected_filter _ _ (keep_entry_iff cfg)).
    + destruct (H2 Hx) as [? [? [? [d [? [_ [_ [_ [_ ->]]]]]]]]]. discriminate.
Qed.

Lemma merge_In {A} (ls : list (list A)) r x : merge ls r -> In x r -> exists l, In l ls /\ In x l.
Proof.
  induction 1 as [|pre y l post rest Hm IH]; [intros []|]. intros [<-|Hi].
  - exists (y :: l). split; [apply in_or_app; right; now left|now left].
  - destruct (IH Hi) as [l' [H1 H2]]. apply in_app_or in H1 as [H1|[<-|H1]].
    + exists l'. split; auto. apply in_or_app. now left.
    + exists (y :: l). split; [apply in_or_app; right; now left|now right].
    + exists l'. split; auto. apply in_or_app. right. now right.
Qed.

(** ** The table *)
Lemma last_with_snoc {A} (P : A -> Prop) es x e :
  last_with P (es ++ [x]) e <-> (P x /\ e = x) \/ (~ P x /\ last_with P es e).
Proof.
  split.
  - intros [pre [post [E [Hp Hn]]]]. destruct post as [|y post] using rev_ind.
    + apply app_inj_tail in E as [_ ->]. auto.
    + right. rewrite app_comm_cons, app_assoc in E. apply app_inj_tail in E as [E ->]. split; [apply Hn; apply in_or_app; right; now left|].
      exists pre, post. split; auto. split; auto. intros z Hz. apply Hn. apply in_or_app. now left.
  - intros [[H ->]|[H [pre [post [-> [Hp Hn]]]]]].
    + exists es, []. split; auto.
    + exists pre, (post ++ [x]). split; [now rewrite <- app_assoc|]. split; auto.
      intros z Hz. apply in_app_or in Hz as [Hz|[<-|[]]]; auto.
Qed.

Lemma last_with_fun {A} (P : A -> Prop) es e e' : (forall x, P x \/ ~ P x) -> last_with P es e -> last_with P es e' -> e = e'.
Proof.
  intros Hd. induction es as [|x es IH] using rev_ind; intros H H'.
  - destruct H as [[|? ?] [? [E _]]]; discriminate.
  - apply last_with_snoc in H, H'. destruct H as [[H1 ->]|[H1 H]], H' as [[H1' ->]|[H1' H']]; auto; contradiction.
Qed.

Lemma last_with_In {A} (P : A -> Prop) es e : last_with P es e -> In e es /\ P e.
Proof. intros [pre [post [-> [H _]]]]. split; auto. apply in_or_app. right. now left. Qed.

Lemma last_with_exists {A} (P : A -> Prop) es : (forall x, P x \/ ~ P x) ->
  (exists e, last_with P es e) \/ (forall e, In e es -> ~ P e).
Proof.
  intros Hd. induction es as [|x es IH] using rev_ind; [right; intros e []|].
  destruct (Hd x) as [H|H].
  - left. exists x. apply last_with_snoc. auto.
  - destruct IH as [[e He]|IH].
    + left. exists e. apply last_with_snoc. auto.
    + right. intros e He. apply in_app_or in He as [He|[<-|[]]]; auto.
Qed.

Definition fam (t : N) (d : split_data) : family_data := if (t =? 1)%N then sd_v4 d else sd_v6 d.

Lemma of_family_dec t i : (t = 1 \/ t = 28)%N -> (of_family t i <-> is_v4 i = (t =? 1)%N).
Proof.
  intros [->| ->]; unfold of_family; cbn; destruct i; cbn; split; intros H; try discriminate; auto.
  - left. eauto.
  - destruct H as [[_ [b' H]]|[H _]]; discriminate.
  - destruct H as [[H _]|[_ [b' H]]]; discriminate.
  - right. eauto.
Qed.

Lemma of_family_em t i : of_family t i \/ ~ of_family t i.
Proof.
  destruct (N.eq_dec t 1) as [->|H1]; [|destruct (N.eq_dec t 28) as [->|H2]].
  - rewrite of_family_dec by auto. destruct (is_v4 i); cbn; [now left|right; discriminate].
  - rewrite of_family_dec by auto. destruct (is_v4 i); cbn; [right; discriminate|now left].
  - right. intros [[H _]|[H _]]; contradiction.
Qed.

Lemma main_for_em t n e : main_for t n e \/ ~ main_for t n e.
Proof.
  unfold main_for. destruct (of_family_em t (he_ip e)); [|tauto]. destruct (str_eqb (he_name e) n) eqn:E.
  - apply str_eqb_eq in E. auto.
  - apply str_eqb_neq in E. tauto.
Qed.
Lemma alias_for_em t n e : alias_for t n e \/ ~ alias_for t n e.
Proof.
  unfold alias_for. destruct (of_family_em t (he_ip e)); [|tauto]. destruct (str_in n (he_aliases e)) eqn:E.
  - apply str_in_In in E. auto.
  - right. intros [_ H']. apply str_in_In in H'. congruence.
Qed.

Lemma fam_add t d e : (t = 1 \/ t = 28)%N ->
  (of_family t (he_ip e) /\ fam t (split_add d e) = family_add (fam t d) e) \/
  (~ of_family t (he_ip e) /\ fam t (split_add d e) = fam t d).
Proof.
  intros Ht. rewrite of_family_dec by auto. unfold split_add, fam.
  destruct Ht as [->| ->]; cbn [N.eqb Pos.eqb]; destruct (is_v4 (he_ip e)); cbn;
    solve [left; split; reflexivity | right; split; [discriminate|reflexivity]].
Qed.

Lemma aliases_fold n (i : ip) : forall al (m : list (str * ip)), mget str_eqb n (fold_left (fun m a => mput str_eqb a i m) al m) =
  if str_in n al then Some i else mget str_eqb n m.
Proof.
  induction al as [|a al IH]; intros m; cbn [fold_left]; auto. rewrite IH.
  destruct (str_in n al) eqn:E.
  - assert (str_in n (a :: al) = true) as -> by (apply str_in_In; right; now apply str_in_In). reflexivity.
  - destruct (str_eqb n a) eqn:Ea.
    + apply str_eqb_eq in Ea. subst a. rewrite mget_mput_same.
      assert (str_in n (n :: al) = true) as -> by (apply str_in_In; now left). reflexivity.
    + apply str_eqb_neq in Ea. rewrite mget_mput_other by auto.
      assert (str_in n (a :: al) = false) as ->; auto.
      destruct (str_in n (a :: al)) eqn:Ex; auto. apply str_in_In in Ex as [->|Ex]; [congruence|]. apply str_in_In in Ex. congruence.
Qed.

Lemma table_hosts t n es : (t = 1 \/ t = 28)%N ->
  match mget str_eqb n (fd_hosts (fam t (fold_left split_add es empty_split))) with
  | Some (i, al) => exists e, last_with (main_for t n) es e /\ i = he_ip e /\ al = he_aliases e
  | None => forall e, In e es -> ~ main_for t n e
  end.
Proof.
  intros Ht. induction es as [|x es IH] using rev_ind.
  - destruct Ht as [->| ->]; cbn; auto.
  - rewrite fold_left_app. cbn [fold_left]. set (d := fold_left split_add es empty_split) in *.
    destruct (fam_add t d x Ht) as [[Hf ->]|[Hf ->]].
    + cbn [fd_hosts family_add]. destruct (str_eqb n (he_name x)) eqn:En.
      * apply str_eqb_eq in En. subst n. rewrite mget_mput_same. exists x. split; auto. apply last_with_snoc. left. split; auto. split; auto.
      * apply str_eqb_neq in En. rewrite mget_mput_other by auto.
        assert (~ main_for t n x) as Hx by (intros [_ H]; congruence).
        destruct (mget str_eqb n (fd_hosts (fam t d))) as [[i al]|].
        -- destruct IH as [e [H1 H2]]. exists e. split; auto. apply last_with_snoc. auto.
        -- intros e He. apply in_app_or in He as [He|[<-|[]]]; auto.
    + assert (~ main_for t n x) as Hx by (intros [H _]; auto).
      destruct (mget str_eqb n (fd_hosts (fam t d))) as [[i al]|].
      * destruct IH as [e [H1 H2]]. exists e. split; auto. apply last_with_snoc. auto.
      * intros e He. apply in_app_or in He as [He|[<-|[]]]; auto.
Qed.

Lemma table_aliases t n es : (t = 1 \/ t = 28)%N ->
  match mget str_eqb n (fd_aliases (fam t (fold_left split_add es empty_split))) with
  | Some i => exists e, last_with (alias_for t n) es e /\ i = he_ip e
  | None => forall e, In e es -> ~ alias_for t n e
  end.
Proof.
  intros Ht. induction es as [|x es IH] using rev_ind.
  - destruct Ht as [->| ->]; cbn; auto.
  - rewrite fold_left_app. cbn [fold_left]. set (d := fold_left split_add es empty_split) in *.
    assert (forall o : option ip, ~ alias_for t n x ->
      match o with Some i => exists e, last_with (alias_for t n) es e /\ i = he_ip e | None => forall e, In e es -> ~ alias_for t n e end ->
      match o with Some i => exists e, last_with (alias_for t n) (es ++ [x]) e /\ i = he_ip e | None => forall e, In e (es ++ [x]) -> ~ alias_for t n e end) as Hstep.
    { intros [i|] Hx H.
      - destruct H as [e [H1 H2]]. exists e. split; auto. apply last_with_snoc. auto.
      - intros e He. apply in_app_or in He as [He|[<-|[]]]; auto. }
    destruct (fam_add t d x Ht) as [[Hf ->]|[Hf ->]].
    + cbn [fd_aliases family_add]. rewrite aliases_fold. destruct (str_in n (he_aliases x)) eqn:En.
      * apply str_in_In in En. exists x. split; auto. apply last_with_snoc. left. split; auto. split; auto.
      * apply Hstep; auto. intros [_ H]. apply str_in_In in H. congruence.
    + apply Hstep; auto. intros [H _]. auto.
Qed.

Lemma split_get_spec t n es a : split_get (fold_left split_add es empty_split) t n = Some a <-> resolves t es n a.
Proof.
  assert ((t = 1 \/ t = 28)%N \/ (t <> 1 /\ t <> 28)%N) as [Ht|[Ht1 Ht2]] by lia.
  - assert (split_get (fold_left split_add es empty_split) t n = family_get (fam t (fold_left split_add es empty_split)) n) as ->.
    { unfold split_get, fam. destruct Ht as [->| ->]; reflexivity. }
    unfold family_get. pose proof (table_hosts t n es Ht) as H1. pose proof (table_aliases t n es Ht) as H2.
    unfold resolves. destruct (mget str_eqb n (fd_hosts (fam t (fold_left split_add es empty_split)))) as [[i al]|].
    + destruct H1 as [e [L [-> _]]]. split.
      * intros [= <-]. left. eauto.
      * intros [[e' [L' ->]]|[Hn _]].
        -- f_equal. f_equal. eapply last_with_fun; eauto using main_for_em.
        -- apply last_with_In in L as [L1 L2]. elim (Hn e L1 L2).
    + destruct (mget str_eqb n (fd_aliases (fam t (fold_left split_add es empty_split)))) as [i|].
      * destruct H2 as [e [L ->]]. split.
        -- intros [= <-]. right. eauto.
        -- intros [[e' [L' _]]|[_ [e' [L' ->]]]].
           ++ apply last_with_In in L' as [L1 L2]. elim (H1 e' L1 L2).
           ++ f_equal. f_equal. eapply last_with_fun; eauto using alias_for_em.
      * split; [discriminate|]. intros [[e' [L' _]]|[_ [e' [L' _]]]]; apply last_with_In in L' as [L1 L2]; [elim (H1 e' L1 L2)|elim (H2 e' L1 L2)].
  - unfold split_get. apply N.eqb_neq in Ht1, Ht2. unfold type_A, type_AAAA. rewrite Ht1, Ht2. split; [discriminate|].
    apply N.eqb_neq in Ht1, Ht2.
    intros [[e [L _]]|[_ [e [L _]]]]; apply last_with_In in L as [_ [[[H _]|[H _]] _]]; contradiction.
Qed.
