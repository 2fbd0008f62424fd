(** Lemmas about the custom DNS resolver. *)
From Coq Require Import String Ascii List Arith Bool NArith Lia Permutation.
From Verif Require Import Str StrFacts StringCacheSpec Dns Resolver ResolverFacts CachingSpec CachingProofs
  Blocking BlockingSpec BlockingProofs Arpa ArpaSpec ArpaProofs Custom CustomSpec.
Import ListNotations.

(** ** Tables built by repeated insertion *)

Lemma fold_mput {A V} (f : A -> str) (g : A -> V) k l : forall m0,
  let m := fold_left (fun m p => mput str_eqb (f p) (g p) m) l m0 in
  (exists p, In p l /\ f p = k /\ mget str_eqb k m = Some (g p)) \/
  ((forall p, In p l -> f p <> k) /\ mget str_eqb k m = mget str_eqb k m0).
Proof.
  induction l as [|p l IH] using rev_ind; intros m0; cbv zeta; [right; simpl; tauto|].
  rewrite fold_left_app. cbn [fold_left]. destruct (str_eqb k (f p)) eqn:E.
  - apply str_eqb_eq in E. left. exists p. split; [apply in_or_app; simpl; auto|]. split; auto.
    subst k. apply mget_mput_same; auto using str_eqb_eq.
  - apply str_eqb_neq in E. rewrite mget_mput_other; auto using str_eqb_eq.
    destruct (IH m0) as [[p' [H1 [H2 H3]]]|[H1 H2]].
    + left. exists p'. split; [apply in_or_app; auto|]. auto.
    + right. split; auto. intros p' Hp. apply in_app_or in Hp as [Hp|[<-|[]]]; auto.
Qed.

Lemma fold_mput_NoDup {A V} (f : A -> str) (g : A -> V) l : forall m0,
  NoDup (map fst m0) -> NoDup (map fst (fold_left (fun m p => mput str_eqb (f p) (g p) m) l m0)).
Proof.
  induction l as [|p l IH]; intros m0 H; simpl; auto. apply IH. apply mput_NoDup; auto using str_eqb_eq.
Qed.

(** ** The parents of a name *)

Lemma after_dots_In s x : In x (after_dots s) <-> exists p, s = p ++ dot :: x.
Proof.
  induction s as [|c s IH]; simpl.
  - split; [tauto|]. intros [[|y p] H]; discriminate.
  - destruct (Ascii.eqb_spec c dot) as [->|Hc].
    + simpl. rewrite IH. split.
      * intros [<-|[p ->]]; [exists []; reflexivity|exists (dot :: p); reflexivity].
      * intros [[|y p] H]; injection H; intros; subst; [left; auto|right; eauto].
    + rewrite IH. split.
      * intros [p ->]. exists (c :: p). reflexivity.
      * intros [[|y p] H]; injection H; intros; subst; [contradiction|eauto].
Qed.

Lemma candidates_In d x : In x (d :: after_dots d) <-> same_or_sub d x.
Proof. simpl. rewrite after_dots_In. unfold same_or_sub. split; intros [H|H]; auto. Qed.

Section First.
Context {V : Type}.
Variable m : list (str * V).

Lemma first_mapped_dots s :
  match first_mapped m (after_dots s) with
  | Some v => exists x, In x (after_dots s) /\ x <> [] /\ mget str_eqb x m = Some v /\
                forall y, In y (after_dots s) -> y <> [] -> mget str_eqb y m <> None -> length y <= length x
  | None => forall y, In y (after_dots s) -> y <> [] -> mget str_eqb y m = None
  end.
Proof.
  induction s as [|c s IH]; simpl; [tauto|].
  destruct (Ascii.eqb_spec c dot) as [->|Hc]; [|exact IH].
  assert (forall y, In y (after_dots s) -> length y <= length s) as Hlen.
  { intros y Hy. apply after_dots_In in Hy as [p ->]. rewrite app_length. simpl. lia. }
  cbn [first_mapped]. destruct s as [|c' s].
  - intros y [<-|Hy]; [contradiction|simpl in Hy; tauto].
  - destruct (mget str_eqb (c' :: s) m) as [v|] eqn:E.
    + exists (c' :: s). split; [simpl; auto|]. split; [discriminate|]. split; auto.
      intros y [<-|Hy] _ _; auto.
    + destruct (first_mapped m (after_dots (c' :: s))) as [v|].
      * destruct IH as [x [H1 [H2 [H3 H4]]]]. exists x. split; [now right|]. split; auto. split; auto.
        intros y [<-|Hy] Hn Hm; [congruence|auto].
      * intros y [<-|Hy] Hn; auto.
Qed.

Lemma first_mapped_spec d :
  match first_mapped m (d :: after_dots d) with
  | Some v => exists x, same_or_sub d x /\ x <> [] /\ mget str_eqb x m = Some v /\
                forall y, same_or_sub d y -> y <> [] -> mget str_eqb y m <> None -> length y <= length x
  | None => forall y, same_or_sub d y -> y <> [] -> mget str_eqb y m = None
  end.
Proof.
  pose proof (first_mapped_dots d) as H. cbn [first_mapped].
  assert (forall y, same_or_sub d y -> length y <= length d) as Hlen.
  { intros y [<-|[p ->]]; auto. rewrite app_length. simpl. lia. }
  destruct d as [|c d].
  - intros y [<-|[p Hp]] Hn; [contradiction|]. destruct p; discriminate.
  - destruct (mget str_eqb (c :: d) m) as [v|] eqn:E.
    + exists (c :: d). split; [now left|]. split; [discriminate|]. split; auto.
    + destruct (first_mapped m (after_dots (c :: d))) as [v|].
      * destruct H as [x [H1 [H2 [H3 H4]]]]. exists x. split; [apply candidates_In; now right|].
        split; auto. split; auto. intros y Hy Hn Hm. apply candidates_In in Hy as [<-|Hy]; [congruence|auto].
      * intros y Hy Hn. apply candidates_In in Hy as [<-|Hy]; auto.
Qed.
End First.

(** ** The table of records *)

Lemma plain_fun u d d' : plain_name u d -> plain_name u d' -> d = d'.
Proof. rewrite !plain_name_iff. congruence. Qed.

Lemma custom_records_sound cfg d es : mget str_eqb d (custom_records cfg) = Some es -> configured cfg d es.
Proof.
  unfold custom_records. cbv zeta. intros H.
  set (m := fold_left _ (cu_mapping cfg) []) in H.
  destruct (fold_mput (fun p : str * list rr => extract_domain_only (fst p)) snd d (cu_zone cfg) m)
    as [[[u es'] [H1 [H2 H3]]]|[H1 H2]].
  - left. rewrite H in H3. injection H3 as ->. exists u. split; auto. apply plain_name_iff. auto.
  - right. split; [intros u es' Hi Hp; apply plain_name_iff in Hp; apply (H1 (u, es')); auto|].
    rewrite H in H2. symmetry in H2.
    destruct (fold_mput (fun p : str * list rr => extract_domain_only (fst p))
                (fun p => map (set_ttl (cu_ttl cfg)) (snd p)) d (cu_mapping cfg) [])
      as [[[u es'] [G1 [G2 G3]]]|[G1 G2]].
    + subst m. rewrite H2 in G3. injection G3 as ->. exists u, es'. split; auto. split; [apply plain_name_iff; auto|].
      apply Forall2_map_r. intros x. split; [apply set_ttl_same|reflexivity].
    + subst m. rewrite H2 in G2. discriminate.
Qed.

Lemma custom_records_defined cfg d es : configured cfg d es -> mget str_eqb d (custom_records cfg) <> None.
Proof.
  unfold custom_records. cbv zeta. intros H.
  set (m := fold_left _ (cu_mapping cfg) []).
  destruct (fold_mput (fun p : str * list rr => extract_domain_only (fst p)) snd d (cu_zone cfg) m)
    as [[[u es'] [H1 [H2 H3]]]|[H1 H2]]; [congruence|]. rewrite H2.
  destruct H as [[u [Hi Hp]]|[_ [u [es0 [Hi [Hp _]]]]]].
  - apply plain_name_iff in Hp. exfalso. apply (H1 (u, es)); auto.
  - apply plain_name_iff in Hp. subst m.
    destruct (fold_mput (fun p : str * list rr => extract_domain_only (fst p))
                (fun p => map (set_ttl (cu_ttl cfg)) (snd p)) d (cu_mapping cfg) [])
      as [[[u' es'] [G1 [G2 G3]]]|[G1 G2]]; [congruence|]. exfalso. apply (G1 (u, es0)); auto.
Qed.

Definition distinct_cfg (cfg : custom_cfg) : Prop := distinct_names (cu_mapping cfg) /\ distinct_names (cu_zone cfg).

Lemma distinct_In l u es u' es' d : distinct_names l -> In (u, es) l -> In (u', es') l ->
  plain_name u d -> plain_name u' d -> (u, es) = (u', es').
Proof.
  intros H Hi Hj Hu Hu'. apply In_nth_error in Hi as [i Hi]. apply In_nth_error in Hj as [j Hj].
  assert (i = j) as -> by (eapply H; eauto). congruence.
Qed.

Lemma same_ttl_fun t l a b :
  Forall2 (fun e0 e => same_record e0 e /\ rr_ttl e = t) l a ->
  Forall2 (fun e0 e => same_record e0 e /\ rr_ttl e = t) l b -> a = b.
Proof.
  intros H; revert b; induction H as [|x y l a [H1 H2] _ IH]; intros b Hb; inversion Hb as [|x' y' l' b' [H3 H4] H5]; subst; auto.
  f_equal; auto. destruct H1 as [A1 [A2 [A3 A4]]], H3 as [B1 [B2 [B3 B4]]].
  destruct y as [n1 t1 c1 ttl1 d1], y' as [n2 t2 c2 ttl2 d2]; cbn [rr_name rr_type rr_class rr_ttl rr_data] in *. congruence.
Qed.

Lemma configured_fun cfg d es es' : distinct_cfg cfg -> configured cfg d es -> configured cfg d es' -> es = es'.
Proof.
  intros [Hm Hz] [[u [Hi Hp]]|[Hn [u [es0 [Hi [Hp Hf]]]]]] [[u' [Hi' Hp']]|[Hn' [u' [es0' [Hi' [Hp' Hf']]]]]].
  - pose proof (distinct_In _ _ _ _ _ _ Hz Hi Hi' Hp Hp'). congruence.
  - exfalso. eapply Hn'; eauto.
  - exfalso. eapply Hn; eauto.
  - pose proof (distinct_In _ _ _ _ _ _ Hm Hi Hi' Hp Hp') as E. injection E as -> ->. eapply same_ttl_fun; eauto.
Qed.

Lemma custom_records_iff cfg d es : distinct_cfg cfg ->
  mget str_eqb d (custom_records cfg) = Some es <-> configured cfg d es.
Proof.
  intros Hd. split; [apply custom_records_sound|]. intros H.
  destruct (mget str_eqb d (custom_records cfg)) as [es'|] eqn:E.
  - apply custom_records_sound in E. f_equal. eapply configured_fun; eauto.
  - exfalso. eapply custom_records_defined; eauto.
Qed.

Lemma custom_records_NoDup cfg : NoDup (map fst (custom_records cfg)).
Proof.
  unfold custom_records. cbv zeta.
  apply (fold_mput_NoDup (fun p : str * list rr => extract_domain_only (fst p)) snd).
  apply (fold_mput_NoDup (fun p : str * list rr => extract_domain_only (fst p)) (fun p => map (set_ttl (cu_ttl cfg)) (snd p))).
  constructor.
Qed.

Lemma lookup_decides cfg q :
  let d := extract_domain q in
  match first_mapped (custom_records cfg) (d :: after_dots d) with
  | Some es => decides cfg q es
  | None => forall x, ~ covers cfg q x
  end.
Proof.
  cbv zeta. pose proof (first_mapped_spec (custom_records cfg) (extract_domain q)) as H.
  destruct (first_mapped _ _) as [es|].
  - destruct H as [x [H1 [H2 [H3 H4]]]]. apply custom_records_sound in H3. exists x. split; [|split; auto].
    + split; [exact H2|]. split; [eauto|]. exists (extract_domain q). split; auto. now apply plain_name_iff.
    + intros d' [G1 [[es' G2] [n [G3 G4]]]]. apply plain_name_iff in G3. subst n. apply H4; auto.
      eapply custom_records_defined; eauto.
  - intros x [G1 [[es' G2] [n [G3 G4]]]]. apply plain_name_iff in G3. subst n.
    eapply custom_records_defined; eauto.
Qed.

Lemma sub_same_length n d d' : same_or_sub n d -> same_or_sub n d' -> length d = length d' -> d = d'.
Proof.
  assert (forall n d, same_or_sub n d -> exists p, n = p ++ d) as Hs.
  { intros x y [->|[p ->]]; [exists []; reflexivity|exists (p ++ [dot]); now rewrite <- app_assoc]. }
  intros H H' Hl. apply Hs in H as [p ->]. apply Hs in H' as [p' E].
  assert (length p = length p') by (apply (f_equal (@length ascii)) in E; rewrite !app_length in E; lia).
  assert (forall (a b c e : str), length a = length b -> a ++ c = b ++ e -> c = e) as Ha.
  { induction a as [|x a IH]; intros [|y b] c e; simpl; intros H0 H1; try discriminate; auto.
    injection H0 as H0. injection H1 as _ H1. apply (IH b); assumption. }
  eapply Ha; eauto.
Qed.

Lemma decides_fun cfg q es es' : distinct_cfg cfg -> decides cfg q es -> decides cfg q es' -> es = es'.
Proof.
  intros Hd [d [H1 [H2 H3]]] [d' [G1 [G2 G3]]].
  assert (d = d') as ->; [|eapply configured_fun; eauto].
  pose proof (H3 _ G1). pose proof (G3 _ H1).
  destruct H1 as [_ [_ [n [Hn Hs]]]], G1 as [_ [_ [n' [Hn' Hs']]]]. rewrite (plain_fun _ _ _ Hn' Hn) in Hs'.
  eapply sub_same_length; eauto. lia.
Qed.

Lemma lookup_decides_iff cfg q es : distinct_cfg cfg ->
  decides cfg q es -> first_mapped (custom_records cfg) (extract_domain q :: after_dots (extract_domain q)) = Some es.
Proof.
  intros Hd H. pose proof (lookup_decides cfg q) as L. cbv zeta in L. destruct (first_mapped _ _) as [es'|].
  - f_equal. eapply decides_fun; eauto.
  - exfalso. destruct H as [d [H _]]. apply (L d H).
Qed.

Lemma decides_name cfg q q' es : q_name q = q_name q' -> decides cfg q es -> decides cfg q' es.
Proof.
  intros E [d [[H1 [H2 H3]] [H4 H5]]]. exists d. rewrite E in H3. split; [split; auto|]. split; auto.
  intros d' [G1 [G2 G3]]. apply H5. split; [exact G1|]. split; [exact G2|]. now rewrite E.
Qed.

(** ** The recursion through CNAMEs ends *)

Definition same_prog (p p' : prog) : Prop := forall next, exec p next = exec p' next /\ forwarded p next = forwarded p' next.

Lemma same_refl p : same_prog p p.
Proof. split; reflexivity. Qed.

Lemma same_bind p p' f f' : same_prog p p' -> (forall r, same_prog (f r) (f' r)) -> same_prog (bind p f) (bind p' f').
Proof.
  intros H Hf next. rewrite !exec_bind, !forwarded_bind. destruct (H next) as [-> ->].
  destruct (exec p' next) as [r|]; [|auto]. destruct (Hf r next) as [-> ->]. auto.
Qed.

Section Fuel.
Variable cfg : custom_cfg.
Variable new_id : str -> N.

Lemma process_entries_same proc proc' req q cnames es :
  (forall e t, In e es -> rr_data e = DCNAME t -> ~ In (trim_suffix t $".") cnames ->
     forall rq, same_prog (proc (cnames ++ [trim_suffix t $"."]) rq) (proc' (cnames ++ [trim_suffix t $"."]) rq)) ->
  forall acc, same_prog (process_entries cfg new_id proc req q cnames es acc) (process_entries cfg new_id proc' req q cnames es acc).
Proof.
  induction es as [|e es IH]; intros H acc; [apply same_refl|].
  assert (forall acc, same_prog (process_entries cfg new_id proc req q cnames es acc) (process_entries cfg new_id proc' req q cnames es acc)) as IH'.
  { apply IH. intros e' t Hin. apply H. now right. }
  cbn [process_entries]. destruct (rr_data e) as [i|i|t|t|v|p w po t|o|o] eqn:E; try apply IH'; try apply same_refl.
  cbv zeta. destruct (q_type q =? type_CNAME)%N; [apply IH'|].
  destruct (str_in (trim_suffix t $".") cnames) eqn:Ei; [apply same_refl|].
  apply same_bind.
  - apply (H e t); [now left|exact E|]. intros Hin. apply str_in_In in Hin. congruence.
  - intros [resp|err]; [|apply same_refl]. destruct (rs_msg resp); [apply IH'|apply same_refl].
Qed.

Lemma first_mapped_In {V} (m : list (str * V)) names v : first_mapped m names = Some v -> exists k, In (k, v) m.
Proof.
  induction names as [|d ds IH]; simpl; [discriminate|]. destruct d as [|c d]; [discriminate|].
  destruct (mget str_eqb (c :: d) m) as [v'|] eqn:E; [|auto]. intros [= ->]. exists (c :: d).
  eapply mget_In; exact E.
Qed.

Lemma target_In k es e t : In (k, es) (custom_records cfg) -> In e es -> rr_data e = DCNAME t ->
  In (trim_suffix t $".") (cname_targets cfg).
Proof.
  intros H1 H2 H3. unfold cname_targets. apply in_flat_map. exists (k, es). split; auto.
  apply in_flat_map. exists e. split; auto. rewrite H3. now left.
Qed.

Lemma process_request_same s1 s2 : forall n1 n2 cnames req,
  NoDup cnames -> incl cnames (cname_targets cfg) ->
  length (cname_targets cfg) < n1 + length cnames -> length (cname_targets cfg) < n2 + length cnames ->
  same_prog (process_request cfg new_id s1 n1 cnames req) (process_request cfg new_id s2 n2 cnames req).
Proof.
  induction n1 as [|n1 IH]; intros n2 cnames req Hnd Hincl H1 H2.
  - exfalso. pose proof (NoDup_incl_length Hnd Hincl). lia.
  - destruct n2 as [|n2]; [exfalso; pose proof (NoDup_incl_length Hnd Hincl); lia|].
    cbn [process_request]. destruct (m_question (req_msg req)) as [|q qs]; [apply same_refl|]. cbv zeta.
    destruct (first_mapped _ _) as [es|] eqn:E; [|apply same_refl]. apply first_mapped_In in E as [k Hk].
    apply process_entries_same. intros e t He Hd Hni rq.
    assert (In (trim_suffix t $".") (cname_targets cfg)) as Ht by (eapply target_In; eauto).
    apply IH.
    + apply NoDup_rev in Hnd. rewrite <- (rev_involutive (cnames ++ _)). apply NoDup_rev. rewrite rev_app_distr. simpl.
      constructor; auto. rewrite <- in_rev. exact Hni.
    + intros x Hx. apply in_app_or in Hx as [Hx|[<-|[]]]; auto.
    + rewrite app_length. simpl. lia.
    + rewrite app_length. simpl. lia.
Qed.

(** ** Soundness *)
Variable next : next_fn.

Definition finish (req : request) (q : question) (ans : list rr) : option result :=
  match ans with
  | [] => if cu_filter cfg then Some (Ok (custom_reply req q [])) else next req
  | _ => Some (Ok (custom_reply req q ans))
  end.

Lemma custom_response_reply req q qs ans : m_question (req_msg req) = q :: qs -> custom_response req ans = custom_reply req q ans.
Proof.
  intros E. unfold custom_response, custom_reply, set_answer, set_reply, empty_msg. cbn. rewrite E.
  destruct (m_opcode (req_msg req) =? 0)%N; reflexivity.
Qed.

Lemma process_ip_contributes i q e : (rr_data e = DA i \/ rr_data e = DAAAA i) -> contributes q e (process_ip i q (rr_ttl e)).
Proof.
  intros H. assert ((exists d r, asks_for q i d /\ own_record q (q_type q) (rr_ttl e) d r /\ process_ip i q (rr_ttl e) = [r]) \/
      ((forall d, ~ asks_for q i d) /\ process_ip i q (rr_ttl e) = [])) as G.
  { unfold process_ip, is_supported_type, asks_for. destruct i as [b|b]; cbn [is_v4 negb andb orb].
    - rewrite orb_false_r. destruct (N.eqb_spec (q_type q) type_A) as [E|E].
      + left. exists (DA (IP4 b)). eexists. split; [split; [exact E|reflexivity]|]. split; [|reflexivity]. repeat split.
      + right. split; auto. intros d [Hd _]. apply E, Hd.
    - destruct (N.eqb_spec (q_type q) type_AAAA) as [E|E].
      + left. exists (DAAAA (IP6 b)). eexists. split; [split; [exact E|reflexivity]|]. rewrite E. split; [|reflexivity].
        split; [reflexivity|]. split; [exact E|]. repeat split.
      + right. split; auto. intros d [Hd _]. apply E, Hd. }
  unfold contributes. destruct H as [-> | ->]; exact G.
Qed.

Lemma process_txt_contributes v q e : rr_data e = DTXT v -> contributes q e (process_txt v q (rr_ttl e)).
Proof.
  intros H. unfold contributes, process_txt. rewrite H. destruct (N.eqb_spec (q_type q) type_TXT) as [E|E].
  - left. split; auto. eexists. split; [|reflexivity]. repeat split.
  - right. auto.
Qed.

Lemma process_srv_contributes p w po t q e : rr_data e = DSRV p w po t -> contributes q e (process_srv p w po t q (rr_ttl e)).
Proof.
  intros H. unfold contributes, process_srv. rewrite H. destruct (N.eqb_spec (q_type q) type_SRV) as [E|E].
  - left. split; auto. eexists. split; [|reflexivity]. repeat split.
  - right. auto.
Qed.

Lemma without_dot_trim t : without_dot t (trim_suffix t $".").
Proof.
  unfold without_dot. destruct (has_suffix t $".") eqn:E.
  - apply has_suffix_spec in E as [x ->]. left. now rewrite trim_suffix_app.
  - right. rewrite trim_suffix_not by assumption. split; auto. intros [x Hx]. assert (has_suffix t $"." = true) by (apply has_suffix_spec; eauto). congruence.
Qed.

Lemma process_entries_sound proc req q qs cnames :
  m_question (req_msg req) = q :: qs ->
  (forall cn rq r, exec (proc cn rq) next = Some (Ok r) -> answers cfg new_id next rq r) ->
  forall es acc r, exec (process_entries cfg new_id proc req q cnames es acc) next = Some (Ok r) ->
  exists ans, collects cfg new_id next req q es ans /\ finish req q (acc ++ ans) = Some (Ok r).
Proof.
  intros Hq Hp. induction es as [|e es IH]; intros acc r H.
  - exists []. split; [constructor|]. rewrite app_nil_r. cbn [process_entries] in H. unfold finish.
    destruct acc as [|a acc].
    + destruct (cu_filter cfg).
      * cbn [exec] in H. rewrite (custom_response_reply req q qs) in H by assumption. exact H.
      * rewrite exec_pass in H. exact H.
    + cbn [exec] in H. rewrite (custom_response_reply req q qs) in H by assumption. exact H.
  - assert (forall l, contributes q e l -> exec (process_entries cfg new_id proc req q cnames es (acc ++ l)) next = Some (Ok r) ->
      exists ans, collects cfg new_id next req q (e :: es) ans /\ finish req q (acc ++ ans) = Some (Ok r)) as Hplain.
    { intros l Hl Hx. apply IH in Hx as [ans [H1 H2]]. exists (l ++ ans). split; [now apply co_plain|]. now rewrite app_assoc. }
    cbn [process_entries] in H. destruct (rr_data e) as [i|i|t|t|v|p w po t|o|o] eqn:E; try discriminate.
    + apply (Hplain (process_ip i q (rr_ttl e))); auto. apply process_ip_contributes. auto.
    + apply (Hplain (process_ip i q (rr_ttl e))); auto. apply process_ip_contributes. auto.
    + cbv zeta in H. destruct (N.eqb_spec (q_type q) type_CNAME) as [Et|Et].
      * apply IH in H as [ans [H1 H2]]. exists (cname_record t q (rr_ttl e) :: ans). split.
        -- eapply co_cname_asked; eauto. repeat split.
        -- rewrite <- app_assoc in H2. exact H2.
      * destruct (str_in (trim_suffix t $".") cnames); [discriminate|]. rewrite exec_bind in H.
        destruct (exec (proc _ _) next) as [[resp|err]|] eqn:Ep; try discriminate.
        destruct (rs_msg resp) as [m|] eqn:Em; [|discriminate]. apply Hp in Ep.
        apply IH in H as [ans [H1 H2]]. exists (cname_record t q (rr_ttl e) :: m_answer m ++ ans). split.
        -- eapply co_cname; eauto using without_dot_trim. repeat split.
        -- rewrite <- app_assoc in H2. exact H2.
    + apply (Hplain (process_txt v q (rr_ttl e))); auto. now apply process_txt_contributes.
    + apply (Hplain (process_srv p w po t q (rr_ttl e))); auto. now apply process_srv_contributes.
Qed.

Lemma finish_answers req q qs es ans r :
  m_question (req_msg req) = q :: qs -> decides cfg q es -> collects cfg new_id next req q es ans ->
  finish req q ans = Some (Ok r) -> answers cfg new_id next req r.
Proof.
  intros Hq Hd Hc H. unfold finish in H. destruct ans as [|a ans].
  - destruct (cu_filter cfg) eqn:Ef.
    + injection H as <-. eapply an_mapped; eauto.
    + eapply an_other_type; eauto.
  - injection H as <-. eapply an_mapped; eauto. left. discriminate.
Qed.

Lemma process_request_sound : forall n cnames req r,
  exec (process_request cfg new_id Crash n cnames req) next = Some (Ok r) -> answers cfg new_id next req r.
Proof.
  induction n as [|n IH]; intros cnames req r H; [discriminate|]. cbn [process_request] in H.
  destruct (m_question (req_msg req)) as [|q qs] eqn:Eq; [discriminate|]. cbv zeta in H.
  pose proof (lookup_decides cfg q) as L. cbv zeta in L. destruct (first_mapped _ _) as [es|].
  - apply (process_entries_sound _ req q qs) in H; auto. destruct H as [ans [H1 H2]]. cbn [app] in H2.
    eapply finish_answers; eauto.
  - rewrite exec_pass in H. eapply an_next; eauto.
Qed.

(** ** Acyclicity *)
Scheme answers_mut := Induction for answers Sort Prop
  with collects_mut := Induction for collects Sort Prop.

Definition first_question (req : request) : option question := hd_error (m_question (req_msg req)).

Definition acc_req (req : request) : Prop :=
  forall q, first_question req = Some q -> Acc (fun b a => leads cfg (q_type q) a b) (q_name q).

Lemma Acc_intro_leads ty n : (forall n', leads cfg ty n n' -> Acc (fun b a => leads cfg ty a b) n') -> Acc (fun b a => leads cfg ty a b) n.
Proof. intros H. constructor. exact H. Qed.

Hypothesis distinct : distinct_cfg cfg.

Lemma fqdn_shape s : exists x, fqdn s = x ++ $".".
Proof.
  unfold fqdn. destruct (has_suffix s $".") eqn:E; [|eauto]. apply has_suffix_spec in E. exact E.
Qed.

Lemma fqdn_idem s : fqdn (fqdn s) = fqdn s.
Proof.
  unfold fqdn at 1. assert (has_suffix (fqdn s) $"." = true) as ->; auto. apply has_suffix_spec. apply fqdn_shape.
Qed.

Lemma follow_up_question req q t :
  first_question (follow_up new_id req q t) = Some {| q_name := fqdn t; q_type := q_type q; q_class := 1 |}.
Proof. reflexivity. Qed.

Lemma answers_acc req r : answers cfg new_id next req r -> acc_req req.
Proof.
  apply (answers_mut cfg new_id next
    (fun req r _ => acc_req req)
    (fun req q es ans _ => forall e t t', In e es -> rr_data e = DCNAME t -> q_type q <> 5%N -> without_dot t t' ->
        Acc (fun b a => leads cfg (q_type q) a b) (fqdn t'))).
  - intros rq q qs r0 Hq Hn _ q' Hq'. unfold first_question in Hq'. rewrite Hq in Hq'. injection Hq' as <-.
    apply Acc_intro_leads. intros n' [_ [es [e [t [t' [[d [Hc _]] _]]]]]]. exfalso. apply (Hn d).
    destruct Hc as [H1 [H2 H3]]. split; [exact H1|]. split; [exact H2|exact H3].
  - intros rq q qs es ans r0 Hq Hd _ IH _ _ q' Hq'. unfold first_question in Hq'. rewrite Hq in Hq'. injection Hq' as <-.
    apply Acc_intro_leads. intros n' [Ht [es' [e [t [t' [Hd' [Hi [He [Hw ->]]]]]]]]].
    assert (es' = es) as ->. { apply (decides_fun cfg q); auto. }
    eapply IH; eauto.
  - intros rq q qs es r0 Hq Hd _ IH _ _ q' Hq'. unfold first_question in Hq'. rewrite Hq in Hq'. injection Hq' as <-.
    apply Acc_intro_leads. intros n' [Ht [es' [e [t [t' [Hd' [Hi [He [Hw ->]]]]]]]]].
    assert (es' = es) as ->. { apply (decides_fun cfg q); auto. }
    eapply IH; eauto.
  - intros _ q e t t' [].
  - intros rq q e es l ans Hc _ IH e' t t' [<-|Hi] He Ht Hw; [|eapply IH; eauto].
    exfalso. unfold contributes in Hc. rewrite He in Hc. exact Hc.
  - intros rq q e es t r0 ans _ Ht _ _ _ e' t0 t' _ _ Ht'. contradiction.
  - intros rq q e es t t' r0 resp m ans He Ht Hw _ _ IHa _ _ IHc e' t0 t0' [<-|Hi] He' Ht' Hw'; [|eapply IHc; eauto].
    rewrite He in He'. injection He' as <-. rewrite (without_dot_fun _ _ _ Hw' Hw).
    specialize (IHa _ (follow_up_question _ _ _)). exact IHa.
Qed.

Lemma reaches_acc ty a b : reaches cfg ty a b -> Acc (fun b a => leads cfg ty a b) a ->
  Acc (fun b a => leads cfg ty a b) b.
Proof. induction 1; intros Ha; [apply Ha; assumption|]. apply IHreaches. apply Ha. assumption. Qed.

Lemma reaches_trans ty a b c : reaches cfg ty a b -> reaches cfg ty b c -> reaches cfg ty a c.
Proof. induction 1; intros H'; eapply re_more; eauto. Qed.

Lemma acc_not_self ty a : Acc (fun b a => leads cfg ty a b) a -> ~ reaches cfg ty a a.
Proof.
  induction 1 as [a Ha IH]. intros H.
  assert (exists b, leads cfg ty a b /\ (b = a \/ reaches cfg ty b a)) as [b [Hb Hc]].
  { inversion H; subst; eauto. }
  apply (IH b Hb). destruct Hc as [-> |Hc]; [exact H|].
  eapply reaches_trans; [exact Hc|now apply re_one].
Qed.

(** ** Completeness *)

Lemma own_record_fun q t ttl d r r' : own_record q t ttl d r -> own_record q t ttl d r' -> r = r'.
Proof.
  intros [A1 [A2 [A3 [A4 A5]]]] [B1 [B2 [B3 [B4 B5]]]].
  destruct r as [n1 t1 c1 x1 d1], r' as [n2 t2 c2 x2 d2]; cbn [rr_name rr_type rr_class rr_ttl rr_data] in *. congruence.
Qed.

Lemma asks_for_fun q i d d' : asks_for q i d -> asks_for q i d' -> d = d'.
Proof. unfold asks_for. destruct i; intros [_ ->] [_ ->]; reflexivity. Qed.

Lemma contributes_fun q e l l' : contributes q e l -> contributes q e l' -> l = l'.
Proof.
  unfold contributes. destruct (rr_data e) as [i|i|t|t|v|p w po t|o|o]; try tauto;
  intros [H|H] [G|G].
  1, 5: destruct H as [d [r [H1 [H2 ->]]]]; destruct G as [d' [r' [G1 [G2 ->]]]];
        rewrite (asks_for_fun _ _ _ _ G1 H1) in G2; f_equal; eapply own_record_fun; eauto.
  1, 4: destruct H as [d [r [H1 _]]]; destruct G as [G _]; exfalso; eapply G; eauto.
  1, 3: destruct H as [H _]; destruct G as [d' [r' [G1 _]]]; exfalso; eapply H; eauto.
  1, 2: destruct H as [_ ->]; destruct G as [_ ->]; reflexivity.
  1, 5: destruct H as [_ [r [H ->]]]; destruct G as [_ [r' [G ->]]]; f_equal; eapply own_record_fun; eauto.
  1, 4: destruct H as [H _]; destruct G as [G _]; contradiction.
  1, 3: destruct H as [H _]; destruct G as [G _]; contradiction.
  all: destruct H as [_ ->]; destruct G as [_ ->]; reflexivity.
Qed.

Lemma process_entries_complete proc req q qs cnames :
  m_question (req_msg req) = q :: qs ->
  forall es ans, collects cfg new_id next req q es ans ->
  (forall e t resp, In e es -> rr_data e = DCNAME t -> q_type q <> 5%N ->
     answers cfg new_id next (follow_up new_id req q (trim_suffix t $".")) resp ->
     ~ In (trim_suffix t $".") cnames /\
     exec (proc (cnames ++ [trim_suffix t $"."]) (follow_up new_id req q (trim_suffix t $"."))) next = Some (Ok resp)) ->
  forall acc, exec (process_entries cfg new_id proc req q cnames es acc) next = finish req q (acc ++ ans).
Proof.
  intros Hq. induction es as [|e es IH]; intros ans Hc Hp acc.
  - inversion Hc; subst. rewrite app_nil_r. cbn [process_entries]. unfold finish. destruct acc as [|a acc].
    + destruct (cu_filter cfg); [|apply exec_pass]. cbn [exec]. now rewrite (custom_response_reply req q qs).
    + cbn [exec]. now rewrite (custom_response_reply req q qs).
  - assert (forall e0 t resp, In e0 es -> rr_data e0 = DCNAME t -> q_type q <> 5%N ->
       answers cfg new_id next (follow_up new_id req q (trim_suffix t $".")) resp ->
       ~ In (trim_suffix t $".") cnames /\
       exec (proc (cnames ++ [trim_suffix t $"."]) (follow_up new_id req q (trim_suffix t $"."))) next = Some (Ok resp)) as Hp'.
    { intros e0 t resp Hi. apply Hp. now right. }
    inversion Hc as [|rq q0 e0 es0 l ans0 Hl Hc'|rq q0 e0 es0 t r ans0 Hd Ht Hr Hc'|rq q0 e0 es0 t t' r resp m ans0 Hd Ht Hw Hr Ha Hm Hc']; subst.
    + rewrite app_assoc. cbn [process_entries]. pose proof Hl as Hl'. unfold contributes in Hl.
      destruct (rr_data e) as [i|i|t|t|v|p w po t|o|o] eqn:E; try tauto.
      * rewrite <- (contributes_fun q e _ _ (process_ip_contributes i q e (or_introl E)) Hl'). now apply IH.
      * rewrite <- (contributes_fun q e _ _ (process_ip_contributes i q e (or_intror E)) Hl'). now apply IH.
      * rewrite <- (contributes_fun q e _ _ (process_txt_contributes v q e E) Hl'). now apply IH.
      * rewrite <- (contributes_fun q e _ _ (process_srv_contributes p w po t q e E) Hl'). now apply IH.
    + cbn [process_entries]. rewrite Hd. cbv zeta. rewrite Ht. change (5 =? type_CNAME)%N with true. cbv iota.
      assert (r = cname_record t q (rr_ttl e)) as -> by (eapply own_record_fun; [exact Hr|repeat split]).
      rewrite (IH ans0 Hc' Hp'). now rewrite <- app_assoc.
    + cbn [process_entries]. rewrite Hd. cbv zeta. destruct (N.eqb_spec (q_type q) type_CNAME) as [Et|_]; [contradiction|].
      assert (t' = trim_suffix t $".") as -> by (eapply without_dot_fun; [exact Hw|apply without_dot_trim]).
      destruct (Hp e t resp (or_introl eq_refl) Hd Ht Ha) as [Hn Hx].
      destruct (str_in (trim_suffix t $".") cnames) eqn:Ei; [exfalso; apply Hn; now apply str_in_In|].
      rewrite exec_bind. unfold target_request. unfold follow_up in Hx. rewrite Hx, Hm.
      assert (r = cname_record t q (rr_ttl e)) as -> by (eapply own_record_fun; [exact Hr|repeat split]).
      rewrite (IH ans0 Hc' Hp'). now rewrite <- app_assoc.
Qed.

Lemma process_request_complete s : forall n cnames req q r,
  first_question req = Some q -> answers cfg new_id next req r ->
  NoDup cnames -> incl cnames (cname_targets cfg) -> length (cname_targets cfg) < n + length cnames ->
  (forall c, In c cnames -> fqdn c = q_name q \/ reaches cfg (q_type q) (fqdn c) (q_name q)) ->
  exec (process_request cfg new_id s n cnames req) next = Some (Ok r).
Proof.
  induction n as [|n IH]; intros cnames req q r Hq Ha Hnd Hincl Hn Hvis.
  { exfalso. pose proof (NoDup_incl_length Hnd Hincl). lia. }
  pose proof (answers_acc _ _ Ha q Hq) as Hacc.
  unfold first_question in Hq. cbn [process_request].
  destruct (m_question (req_msg req)) as [|q0 qs] eqn:Eq; [discriminate|]. injection Hq as ->. cbv zeta.
  assert (forall es e t resp, decides cfg q es -> In e es -> rr_data e = DCNAME t -> q_type q <> 5%N ->
     answers cfg new_id next (follow_up new_id req q (trim_suffix t $".")) resp ->
     ~ In (trim_suffix t $".") cnames /\
     exec (process_request cfg new_id s n (cnames ++ [trim_suffix t $"."]) (follow_up new_id req q (trim_suffix t $"."))) next
       = Some (Ok resp)) as Hrec.
  { intros es e t resp Hd He Hdt Ht Hans.
    assert (leads cfg (q_type q) (q_name q) (fqdn (trim_suffix t $"."))) as Hl.
    { split; [exact Ht|]. exists es, e, t, (trim_suffix t $"."). split; [eapply decides_name; [|exact Hd]; reflexivity|].
      split; [exact He|]. split; [exact Hdt|]. split; [apply without_dot_trim|reflexivity]. }
    assert (~ In (trim_suffix t $".") cnames) as Hni.
    { intros Hi. apply (acc_not_self _ _ Hacc). destruct (Hvis _ Hi) as [E|R].
      - rewrite E in Hl. now apply re_one.
      - eapply re_more; eauto. }
    split; [exact Hni|]. eapply IH; [reflexivity|exact Hans| | | |].
    - apply NoDup_rev in Hnd. rewrite <- (rev_involutive (cnames ++ _)). apply NoDup_rev. rewrite rev_app_distr. simpl.
      constructor; auto. rewrite <- in_rev. exact Hni.
    - intros x Hx. apply in_app_or in Hx as [Hx|[<-|[]]]; auto.
      pose proof (lookup_decides_iff cfg q es distinct Hd) as L. apply first_mapped_In in L as [k Hk].
      eapply target_In; eauto.
    - rewrite app_length. simpl. lia.
    - cbn [q_name q_type]. intros c Hc. apply in_app_or in Hc as [Hc|[<-|[]]]; [|left; reflexivity].
      right. destruct (Hvis _ Hc) as [E|R]; [rewrite E; now apply re_one|].
      eapply reaches_trans; [exact R|]. now apply re_one. }
  inversion Ha as [rq q1 qs1 r1 Hq1 Hn1 Hx|rq q1 qs1 es ans r1 Hq1 Hd Hc Hf Hr|rq q1 qs1 es r1 Hq1 Hd Hc Hf Hx]; subst;
    rewrite Eq in Hq1; injection Hq1 as <- <-.
  - pose proof (lookup_decides cfg q) as L. cbv zeta in L. destruct (first_mapped _ _) as [es|].
    + exfalso. destruct L as [d [Hd _]]. apply (Hn1 d Hd).
    + rewrite exec_pass. exact Hx.
  - rewrite (lookup_decides_iff cfg q es distinct Hd).
    rewrite (process_entries_complete _ req q qs cnames Eq es ans Hc).
    + cbn [app]. unfold finish. destruct ans; [|reflexivity]. destruct Hf as [Hf| ->]; [contradiction|reflexivity].
    + intros e t resp He. apply (Hrec es e t resp Hd He).
  - rewrite (lookup_decides_iff cfg q es distinct Hd).
    rewrite (process_entries_complete _ req q qs cnames Eq es [] Hc).
    + cbn [app]. unfold finish. rewrite Hf. exact Hx.
    + intros e t resp He. apply (Hrec es e t resp Hd He).
Qed.

(** The resolver does not crash by itself. *)
Lemma process_entries_total proc req q cnames :
  (forall rq, next rq <> None) -> (forall rq r, next rq = Some (Ok r) -> rs_msg r <> None) ->
  (forall cn rq, m_question (req_msg rq) <> [] ->
     exec (proc cn rq) next <> None /\ forall r, exec (proc cn rq) next = Some (Ok r) -> rs_msg r <> None) ->
  forall es acc,
    exec (process_entries cfg new_id proc req q cnames es acc) next <> None /\
    forall r, exec (process_entries cfg new_id proc req q cnames es acc) next = Some (Ok r) -> rs_msg r <> None.
Proof.
  intros Hn Hm Hp. induction es as [|e es IH]; intros acc; cbn [process_entries].
  - destruct acc as [|a acc].
    + destruct (cu_filter cfg).
      * split; [discriminate|]. intros r [= <-]. discriminate.
      * rewrite exec_pass. split; [apply Hn|apply Hm].
    + split; [discriminate|]. intros r [= <-]. discriminate.
  - destruct (rr_data e) as [i|i|t|t|v|p w po t|o|o] eqn:E; try apply IH; try (split; [discriminate|intros r [=]]).
    cbv zeta. destruct (q_type q =? type_CNAME)%N; [apply IH|].
    destruct (str_in (trim_suffix t $".") cnames); [split; [discriminate|intros r [=]]|].
    rewrite exec_bind.
    destruct (Hp (cnames ++ [trim_suffix t $"."]) (target_request (new_id (trim_suffix t $".")) req q (trim_suffix t $"."))) as [H1 H2];
      [discriminate|].
    destruct (exec (proc _ _) next) as [[resp|err]|] eqn:Ex; [|split; [discriminate|intros r [=]]|contradiction].
    specialize (H2 resp eq_refl). destruct (rs_msg resp); [apply IH|contradiction].
Qed.

Lemma process_request_total s : s = Done (Err $"") ->
  (forall rq, next rq <> None) -> (forall rq r, next rq = Some (Ok r) -> rs_msg r <> None) ->
  forall n cnames req, m_question (req_msg req) <> [] ->
    exec (process_request cfg new_id s n cnames req) next <> None /\
    forall r, exec (process_request cfg new_id s n cnames req) next = Some (Ok r) -> rs_msg r <> None.
Proof.
  intros -> Hn Hm. induction n as [|n IH]; intros cnames req Hq; cbn [process_request].
  - split; [discriminate|intros r [=]].
  - destruct (m_question (req_msg req)) as [|q qs]; [contradiction|]. cbv zeta.
    destruct (first_mapped _ _) as [es|].
    + apply process_entries_total; auto.
    + rewrite exec_pass. split; [apply Hn|apply Hm].
Qed.
End Fuel.

(** ** The reverse table *)

Definition maps_to (records : list (str * list rr)) (i : ip) (u : str) : Prop :=
  exists es e, In (u, es) records /\ In e es /\ (rr_data e = DA i \/ rr_data e = DAAAA i).

Definition rev_list (m : list (str * list str)) (k : str) : list str :=
  match mget str_eqb k m with Some l => l | None => [] end.

Lemma add_reverse_spec url m e k u :
  In u (rev_list (add_reverse url m e) k) <->
  In u (rev_list m k) \/ (u = url /\ exists i, (rr_data e = DA i \/ rr_data e = DAAAA i) /\ k = reverse_addr i).
Proof.
  assert (forall i, In u (rev_list (mput str_eqb (reverse_addr i) (rev_list m (reverse_addr i) ++ [url]) m) k) <->
            In u (rev_list m k) \/ (u = url /\ k = reverse_addr i)) as H.
  { intros i. unfold rev_list at 1. destruct (str_eqb k (reverse_addr i)) eqn:E.
    - apply str_eqb_eq in E. subst k. rewrite mget_mput_same by apply str_eqb_eq.
      rewrite in_app_iff. simpl. split; [intros [H|[H|[]]]; auto|intros [H|[H _]]; auto].
    - apply str_eqb_neq in E. rewrite mget_mput_other by (auto using str_eqb_eq). unfold rev_list. tauto. }
  unfold add_reverse. destruct (rr_data e) as [i|i|t|t|v|p w po t|o|o] eqn:E;
    try (split; [tauto|intros [Hu|[_ [i [[Hi|Hi] _]]]]; [exact Hu|discriminate|discriminate]]).
  - cbv zeta. fold (rev_list m (reverse_addr i)). rewrite H. split.
    + intros [Hu|[Hu Hk]]; [auto|right; split; eauto].
    + intros [Hu|[Hu [j [[Hj|Hj] Hk]]]]; [auto| |discriminate]. injection Hj as <-. auto.
  - cbv zeta. fold (rev_list m (reverse_addr i)). rewrite H. split.
    + intros [Hu|[Hu Hk]]; [auto|right; split; eauto].
    + intros [Hu|[Hu [j [[Hj|Hj] Hk]]]]; [auto|discriminate|]. injection Hj as <-. auto.
Qed.

Lemma add_reverses_spec url es k u : forall m,
  In u (rev_list (fold_left (add_reverse url) es m) k) <->
  In u (rev_list m k) \/ (u = url /\ exists e i, In e es /\ (rr_data e = DA i \/ rr_data e = DAAAA i) /\ k = reverse_addr i).
Proof.
  induction es as [|e es IH]; intros m; simpl.
  - split; [tauto|]. intros [H|[_ [e [i [[] _]]]]]. exact H.
  - rewrite IH, add_reverse_spec. split.
    + intros [[H|[H [i [H1 H2]]]]|[H [e' [i [H1 H2]]]]]; [auto|right; split; eauto 8|right; split; eauto 8].
    + intros [H|[H [e' [i [[<-|H1] H2]]]]]; [auto|left; right; split; eauto|right; split; eauto].
Qed.

Lemma custom_reverse_spec records k u :
  In u (rev_list (custom_reverse records) k) <-> exists i, maps_to records i u /\ k = reverse_addr i.
Proof.
  unfold custom_reverse. assert (forall m,
    In u (rev_list (fold_left (fun m p => fold_left (add_reverse (fst p)) (snd p) m) records m) k) <->
    In u (rev_list m k) \/ exists i, maps_to records i u /\ k = reverse_addr i) as H.
  { induction records as [|[url es] records IH]; intros m; simpl.
    - split; [tauto|]. intros [H|[i [[es [e [[] _]]] _]]]. exact H.
    - rewrite IH, add_reverses_spec. split.
      + intros [[H|[-> [e [i [H1 [H2 H3]]]]]]|[i [[es' [e [H1 [H2 H3]]]] H4]]]; [auto| |].
        * right. exists i. split; auto. exists es, e. simpl. auto.
        * right. exists i. split; auto. exists es', e. simpl. auto.
      + intros [H|[i [[es' [e [[H1|H1] [H2 H3]]]] H4]]]; [auto| |].
        * injection H1 as <- <-. left. right. split; eauto 8.
        * right. exists i. split; auto. exists es', e. auto. }
  rewrite H. unfold rev_list. simpl. tauto.
Qed.

Lemma custom_reverse_nonempty records k l : mget str_eqb k (custom_reverse records) = Some l -> l <> [].
Proof.
  unfold custom_reverse. assert (forall url e m, (forall k l, mget str_eqb k m = Some l -> l <> []) ->
    forall k l, mget str_eqb k (add_reverse url m e) = Some l -> l <> []) as H1.
  { intros url e m Hm k0 l0. unfold add_reverse. cbv zeta. destruct (rr_data e) as [a|a|t|t|v|p w po t|o|o]; try exact (Hm k0 l0);
    (destruct (str_eqb k0 (reverse_addr a)) eqn:E;
     [apply str_eqb_eq in E; subst k0; rewrite mget_mput_same by apply str_eqb_eq; intros [= <-];
      destruct (mget _ _ m) as [l1|]; [destruct l1|]; discriminate
     |apply str_eqb_neq in E; rewrite mget_mput_other by (auto using str_eqb_eq); eauto]). }
  assert (forall url es m, (forall k l, mget str_eqb k m = Some l -> l <> []) ->
    forall k l, mget str_eqb k (fold_left (add_reverse url) es m) = Some l -> l <> []) as H2.
  { intros url es; induction es as [|e es IH]; intros m Hm; simpl; auto. apply IH. now apply H1. }
  assert (forall m, (forall k l, mget str_eqb k m = Some l -> l <> []) ->
    forall k l, mget str_eqb k (fold_left (fun m p => fold_left (add_reverse (fst p)) (snd p) m) records m) = Some l -> l <> []) as H3.
  { induction records as [|[url es] records IH]; intros m Hm; simpl; [exact Hm|]. apply IH. now apply H2. }
  apply H3. intros k0 l0 [=].
Qed.
