(** Properties of the rewriter (C38, C39, C78, C79). *)
From Coq Require Import String Ascii List Arith Bool NArith Lia Permutation.
From Verif Require Import Str StrFacts Dns Resolver ResolverFacts CachingSpec CachingProofs
  Blocking BlockingSpec BlockingProofs ArpaProofs Custom CustomProofs CustomProps Conditional ConditionalSpec ConditionalProps
  Rewriter RewriterSpec RewriterProofs.
Import ListNotations.

(** [iter] are orders of iteration over the rules as set up by the constructor, which
    visited the configured rules in some order. *)
Definition iterates (rules : list (str * str)) (iter : nat -> list (str * str)) : Prop :=
  exists ks, (forall k v, In (k, v) rules -> In k ks) /\ forall i, Permutation (lower_rules ks rules) (iter i).

Lemma set_question_same m : set_question (m_question m) m = m.
Proof. destruct m; reflexivity. Qed.
Lemma set_answer_same m : set_answer (m_answer m) m = m.
Proof. destruct m; reflexivity. Qed.
Lemma set_req_msg_same r : set_req_msg (req_msg r) r = r.
Proof. destruct r; reflexivity. Qed.

Lemma Forall2_map_same {A B} (R : A -> B -> Prop) (f : A -> B) l : (forall a, R a (f a)) -> Forall2 R l (map f l).
Proof. intros H. induction l; constructor; auto. Qed.

(** The shape of a run. *)
Lemma rewriter_shape rules iter req : distinct_rules rules -> iterates rules iter ->
  exists rq names (rewritten : bool), rewritten_request rules req rq /\
    (if rewritten then True else rq = req) /\
    (m_question (req_msg rq) <> m_question (req_msg req) -> rewritten = true) /\
    (forall n, restored req rq n (revert_name names n)) /\
    forall fallback inner, rewriter_resolve fallback iter inner req =
      match inner rq with
      | None => Crash
      | Some (res, lft) =>
          let req' := if rewritten then req else set_req_msg lft req in
          match res with
          | Err e => if fallback then pass req' else Done (Err e)
          | Ok r =>
              match rs_msg r with
              | None => pass req'
              | Some m =>
                  if fallback && match m_answer m with [] => true | _ => false end then pass req'
                  else if rewritten
                  then Done (Ok {| rs_msg := Some (revert names m); rs_reason := rs_reason r; rs_type := rs_type r |})
                  else Done (Ok r)
              end
          end
      end.
Proof.
  intros Hd [ks [Hks Hp]]. unfold rewriter_resolve.
  destruct (rewrite_questions iter 0 (m_question (req_msg req)) []) as [out names] eqn:E.
  destruct (rewrite_questions_spec rules Hd ks Hks iter Hp _ _ _ _ _ E) as [H1 [H2 [H3 H4]]].
  assert (length (m_question (req_msg req)) = length out) as Hlen by (eapply Forall2_len; eauto).
  exists (set_req_msg (set_question out (req_msg req)) req), names, (match names with [] => false | _ => true end).
  split. { split; [exact H1|reflexivity]. }
  assert (names = [] -> out = m_question (req_msg req)) as Hno. { intros ->. destruct H2 as [[_ H2]|H2]; [exact H2|contradiction]. }
  split. { destruct names; auto. rewrite Hno; auto. rewrite set_question_same. apply set_req_msg_same. }
  split. { destruct names; [|reflexivity]. intros Hne. exfalso. apply Hne. cbn. apply Hno. reflexivity. }
  split.
  { intros n. eapply restored_intro; [reflexivity|exact Hlen| |].
    - intros n0 o Hn. destruct (H3 n0 o Hn) as [A|A]; [exact A|discriminate].
    - intros n0 Hn. apply (H4 n0 Hn). }
  intros fallback inner. destruct names as [|n0 names]; [|reflexivity].
  rewrite Hno; auto. rewrite set_question_same, set_req_msg_same. reflexivity.
Qed.

Lemma restored_self req n : restored req req n n.
Proof.
  unfold restored. cbv zeta. destruct (in_dec (list_eq_dec ascii_dec) n (map q_name (m_question (req_msg req)))) as [H|H].
  - left. apply in_map_iff in H as [q [<- Hi]]. apply In_nth_error in Hi as [i Hi]. exists q, q. split; eauto.
  - right. split; auto. intros q q' [i [_ Hi]] <-. apply H. apply in_map_iff. exists q'. split; auto. eapply nth_error_In; eauto.
Qed.

Lemma restored_msg_self req m : restored_msg req req m m.
Proof.
  split; [now rewrite set_answer_same, set_question_same|]. split.
  - induction (m_question m); constructor; auto. split; auto. apply restored_self.
  - induction (m_answer m); constructor; auto. split; auto. apply restored_self.
Qed.

(** ** C38: the inner resolver is asked the rewritten questions; its answer comes back
    with the original names. *)
Theorem C38_invisible : forall rules iter req, distinct_rules rules -> iterates rules iter ->
  exists rq, rewritten_request rules req rq /\
    forall fallback inner next,
      (inner rq = None -> exec (rewriter_resolve fallback iter inner req) next = None) /\
      forall res lft, inner rq = Some (res, lft) ->
        (forall r m, res = Ok r -> rs_msg r = Some m -> fallback = false \/ m_answer m <> [] ->
           exists m', restored_msg req rq m m' /\
             exec (rewriter_resolve fallback iter inner req) next =
               Some (Ok {| rs_msg := Some m'; rs_reason := rs_reason r; rs_type := rs_type r |})) /\
        (forall e, res = Err e -> fallback = false -> exec (rewriter_resolve fallback iter inner req) next = Some (Err e)).
Proof.
  intros rules iter req Hd Hi. destruct (rewriter_shape rules iter req Hd Hi) as [rq [names [b [H1 [H2 [H3 [H4 H5]]]]]]].
  exists rq. split; [exact H1|]. intros fallback inner next. rewrite H5. split.
  { intros ->. reflexivity. }
  intros res lft Ein. rewrite Ein. cbv zeta. split.
  - intros r m -> Hm Hfb. rewrite Hm.
    assert (fallback && match m_answer m with [] => true | _ => false end = false) as ->.
    { destruct Hfb as [-> |Hfb]; auto. destruct (m_answer m); [contradiction|]. apply andb_false_r. }
    destruct b.
    + exists (revert names m). split; [|reflexivity]. split; [reflexivity|]. cbn. split.
      * apply Forall2_map_same. intros q. cbn. auto.
      * apply Forall2_map_same. intros x. cbn. repeat split; auto.
    + subst rq. exists m. split; [apply restored_msg_self|]. destruct r as [a b c]. cbn in *. now subst.
  - intros e -> ->. reflexivity.
Qed.
Print Assumptions C38_invisible.

(** Later resolvers see the original request, if some name was rewritten or if the inner
    resolver leaves the message alone; what is missing is an inner resolver that works on
    the original message (see [C38_later_request_refuted]). *)
Theorem C38_later_request_partial : forall rules iter req, distinct_rules rules -> iterates rules iter ->
  exists rq, rewritten_request rules req rq /\ forall fallback inner next res lft, inner rq = Some (res, lft) ->
      lft = req_msg rq \/ m_question (req_msg rq) <> m_question (req_msg req) ->
      forall rq', In rq' (forwarded (rewriter_resolve fallback iter inner req) next) -> rq' = req.
Proof.
  intros rules iter req Hd Hi. destruct (rewriter_shape rules iter req Hd Hi) as [rq [names [b [H1 [H2 [H3 [H4 H5]]]]]]].
  exists rq. split; [exact H1|]. intros fallback inner next res lft Ein. rewrite H5, Ein. cbv zeta.
  intros Hl rq' Hin.
    assert ((if b then req else set_req_msg lft req) = req) as Hreq.
    { destruct b; auto. subst rq. destruct Hl as [-> |Hl]; [apply set_req_msg_same|]. discriminate (H3 Hl). }
    rewrite Hreq in Hin. destruct res as [r|e].
    + destruct (rs_msg r) as [m|].
      * destruct (fallback && _); [|destruct b; destruct Hin]. rewrite forwarded_pass in Hin. destruct Hin as [<-|[]]. reflexivity.
      * rewrite forwarded_pass in Hin. destruct Hin as [<-|[]]. reflexivity.
    + destruct fallback; [|destruct Hin]. rewrite forwarded_pass in Hin. destruct Hin as [<-|[]]. reflexivity.
Qed.
Print Assumptions C38_later_request_partial.

(** The names come back exactly: for a request with one question whose name was
    rewritten, an inner answer to the rewritten question carries the client's question. *)
Theorem C38_question_restored : forall rules iter req q, distinct_rules rules -> iterates rules iter ->
  m_question (req_msg req) = [q] ->
  exists q', rewritten_question rules q q' /\
    forall inner next fallback r m lft,
      inner (set_req_msg (set_question [q'] (req_msg req)) req) = Some (Ok r, lft) -> rs_msg r = Some m ->
      m_question m = [q'] -> (forall x, In x (m_answer m) -> rr_name x = q_name q') ->
      fallback = false \/ m_answer m <> [] ->
      exists r' m', exec (rewriter_resolve fallback iter inner req) next = Some (Ok r') /\ rs_msg r' = Some m' /\
        m_question m' = [q] /\ (forall x, In x (m_answer m') -> rr_name x = q_name q) /\
        map rr_data (m_answer m') = map rr_data (m_answer m).
Proof.
  intros rules iter req q Hd Hi Hq. destruct (C38_invisible rules iter req Hd Hi) as [rq [[H1 H2] H3]].
  destruct (m_question (req_msg rq)) as [|q' [|q2 qs2]] eqn:Eb; rewrite Hq in H1; inversion H1 as [|a b l l' Hqq Hl Ea Eb']; subst; [|inversion Hl].
  clear H1 Hl. exists q'. split; [exact Hqq|]. intros inner next fallback r m lft Hin Hm Hmq Hma Hfb.
  destruct (H3 fallback inner next) as [_ H4].
  destruct (H4 (Ok r) lft Hin) as [H5 _]. destruct (H5 r m eq_refl Hm Hfb) as [m' [[R1 [R2 R3]] E]].
  eexists. exists m'. split; [exact E|]. split; [reflexivity|].
  assert (forall n n', restored req (set_req_msg (set_question [q'] (req_msg req)) req) n n' -> n = q_name q' -> n' = q_name q) as Hres.
  { intros n n' R ->. destruct R as [[a [b [[i [A1 A2]] [A3 A4]]]]|[A1 A2]].
    - rewrite Hq in A1. destruct i as [|[|i]]; cbn in A1; try discriminate. congruence.
    - exfalso. apply (A1 q q'); auto. exists 0. rewrite Hq. auto. }
  split.
  { rewrite Hmq in R2. inversion R2 as [|x y l l' [B1 [B2 B3]] Hl2]; subst. inversion Hl2; subst. f_equal.
    apply Hres in B1; auto. destruct Hqq as [n [_ Hqq]].
    assert (q_type q' = q_type q /\ q_class q' = q_class q) as [C1 C2].
    { destruct Hqq as [[p [k [v [_ [_ ->]]]]]|[_ ->]]; auto. }
    destruct y as [yn yt yc], q as [qn qt qc]. cbn in *. congruence. }
  clear - R3 Hma Hres. induction R3 as [|x y l l' [B1 [_ [_ [_ B5]]]] _ IH]; cbn.
  - split; [tauto|reflexivity].
  - destruct IH as [IH1 IH2]; [intros x' Hx; apply Hma; now right|]. split; [|congruence].
    intros x' [<-|Hx]; auto. eapply Hres; [exact B1|]. apply Hma. now left.
Qed.
Print Assumptions C38_question_restored.

(** ** C39: the next resolver is asked exactly in the stated cases, once, and its answer
    is the result. *)
Theorem C39_fallback_exact : forall rules iter req, distinct_rules rules -> iterates rules iter ->
  exists rq, rewritten_request rules req rq /\
    forall fallback inner next res lft, inner rq = Some (res, lft) ->
      let consulted := forwarded (rewriter_resolve fallback iter inner req) next in
      (consulted <> [] <-> silent res \/ (fallback = true /\ unsatisfying res)) /\
      (consulted <> [] -> exists rq', consulted = [rq'] /\ exec (rewriter_resolve fallback iter inner req) next = next rq').
Proof.
  intros rules iter req Hd Hi. destruct (rewriter_shape rules iter req Hd Hi) as [rq [names [b [H1 [H2 [H3 [H4 H5]]]]]]].
  exists rq. split; [exact H1|]. intros fallback inner next res lft Ein. cbv zeta. rewrite H5, Ein. cbv zeta.
  set (req' := if b then req else set_req_msg lft req). unfold silent, unsatisfying.
  destruct res as [r|e].
  - destruct (rs_msg r) as [m|] eqn:Em.
    + destruct fallback; cbn [andb].
      * destruct (m_answer m) as [|a l] eqn:Ea.
        -- rewrite forwarded_pass, exec_pass. split; [|intros _; eauto]. split; [|discriminate].
           intros _. right. split; auto. right. exists r, m. auto.
        -- destruct b; cbn [forwarded]; (split; [|intros H; congruence]); (split; [intros H; congruence|]);
             intros [[r' [[= <-] H]]|[_ [[e H]|[r' [m' [[= <-] [H H']]]]]]]; congruence.
      * destruct b; cbn [forwarded]; (split; [|intros H; congruence]); (split; [intros H; congruence|]);
          intros [[r' [[= <-] H]]|[H _]]; congruence.
    + rewrite forwarded_pass, exec_pass. split; [|intros _; eauto]. split; [|discriminate]. intros _. left. eauto.
  - destruct fallback.
    + rewrite forwarded_pass, exec_pass. split; [|intros _; eauto]. split; [|discriminate]. intros _. right. split; auto. left. eauto.
    + cbn [forwarded]. split; [|intros H; congruence]. split; [intros H; congruence|]. intros [[r [H _]]|[H _]]; discriminate.
Qed.
Print Assumptions C39_fallback_exact.

(** ** Examples *)
Definition ex_rules : list (str * str) := [($"Example.com", $"Fritz.box")].
Definition ex_iter : nat -> list (str * str) := fun _ => lower_rules [$"Example.com"] ex_rules.

Lemma ex_rules_distinct : distinct_rules ex_rules.
Proof. intros [|[|i]] [|[|j]] k0 v0 k1 v1 k; cbn; congruence. Qed.
Lemma ex_rules_iterates : iterates ex_rules ex_iter.
Proof. exists [$"Example.com"]. split; [|intros i; apply Permutation_refl]. intros k v [[= <- <-]|[]]. now left. Qed.

(** an inner resolver that answers every question with one address *)
Definition ex_inner : inner_fn := fun rq =>
  match m_question (req_msg rq) with
  | q :: _ => Some (Ok {| rs_msg := Some (set_answer [create_rr q 60 (DA (IP4 [192;168;1;1]%N))] (set_reply empty_msg (req_msg rq)));
                         rs_reason := []; rs_type := CONDITIONAL |}, req_msg rq)
  | [] => None
  end.

Example C38_example :
  distinct_rules ex_rules /\ iterates ex_rules ex_iter /\
  let req := new_request 5 $"NAS.example.com" 1 in
  (exists rq, rewritten_request ex_rules req rq /\
     map q_name (m_question (req_msg rq)) = [$"nas.fritz.box."]) /\
  exists r m, exec (rewriter_resolve true ex_iter ex_inner req) (fun _ => None) = Some (Ok r) /\ rs_msg r = Some m /\
    map q_name (m_question m) = [$"NAS.example.com."] /\ map rr_name (m_answer m) = [$"NAS.example.com."].
Proof.
  split; [exact ex_rules_distinct|]. split; [exact ex_rules_iterates|]. cbv zeta. split.
  - exists (set_req_msg (set_question [{| q_name := $"nas.fritz.box."; q_type := 1; q_class := 1 |}] (req_msg (new_request 5 $"NAS.example.com" 1)))
              (new_request 5 $"NAS.example.com" 1)). split; [|reflexivity]. split; [|reflexivity].
    cbn [m_question req_msg set_req_msg set_question new_request new_msg_with_question]. constructor; [|constructor].
    exists $"nas.example.com". split; [apply plain_name_iff; reflexivity|]. left. exists $"nas", $"example.com", $"fritz.box".
    split; [|split; [discriminate|reflexivity]]. split; [reflexivity|]. exists $"Example.com", $"Fritz.box".
    split; [now left|]. split; apply lowered_iff; reflexivity.
  - do 2 eexists. split; [vm_compute; reflexivity|]. repeat split; reflexivity.
Qed.

Example C39_example :
  (* inner fails: consulted iff fallback *)
  let req := new_request 5 $"nas.example.com" 1 in
  let failing : inner_fn := fun rq => Some (Err $"timeout", req_msg rq) in
  let next : next_fn := fun _ => Some (Err $"next") in
  forwarded (rewriter_resolve true ex_iter failing req) next = [req] /\
  forwarded (rewriter_resolve false ex_iter failing req) next = [] /\
  forwarded (rewriter_resolve false ex_iter (fun rq => Some (Ok no_response, req_msg rq)) req) next = [req] /\
  forwarded (rewriter_resolve true ex_iter ex_inner req) next = [].
Proof. cbv zeta. repeat split; vm_compute; reflexivity. Qed.

(** ** C38, the last clause: with conditional upstreams as inner resolver the request seen
    by later resolvers is not always the original one: if no rule applies, the inner
    resolver works on the original message and leaves its name in lower case. *)
Theorem C38_later_request_refuted :
  exists rules iter (mapping : list (str * nat)) ask req next rq', distinct_rules rules /\ iterates rules iter /\ distinct_zones mapping /\
    In rq' (forwarded (rewriter_resolve true iter (inner_conditional mapping ask) req) next) /\
    m_question (req_msg rq') <> m_question (req_msg req).
Proof.
  exists ex_rules, ex_iter, ex_map, (fun _ _ => Some (Err $"timeout")), (new_request 5 $"NAS.fritz.box" 1), (fun _ => None).
  eexists. split; [exact ex_rules_distinct|]. split; [exact ex_rules_iterates|]. split; [exact ex_map_distinct|].
  split; [vm_compute; left; reflexivity|]. vm_compute. discriminate.
Qed.
Print Assumptions C38_later_request_refuted.

(** ** C78: a custom CNAME to a name outside the custom zones works.  With any rewrite rule
    configured for custom DNS it crashes instead: the no-op resolver's response has no
    message.  The same custom configuration without rewriting answers. *)
Definition ex_cname : custom_cfg :=
  {| cu_mapping := [($"alias.lan", [mk_rr $"" 5 0 (DCNAME $"www.example.org")])]; cu_zone := []; cu_ttl := 60; cu_filter := true |}.
Definition ex_up : next_fn := fun rq =>
  match m_question (req_msg rq) with
  | q :: _ => Some (Ok {| rs_msg := Some (set_answer [create_rr q 60 (DA (IP4 [1;2;3;4]%N))] (set_reply empty_msg (req_msg rq)));
                         rs_reason := []; rs_type := RESOLVED |})
  | [] => None
  end.

Theorem C78_cname_with_rewriting_refuted :
  exists cfg rules iter req, distinct_cfg cfg /\ distinct_rules rules /\ iterates rules iter /\
    let custom := custom_resolve cfg (fun _ => 1%N) Crash (custom_records cfg) 5 in
    (exists r m, exec (custom req) ex_up = Some (Ok r) /\ rs_msg r = Some m /\ length (m_answer m) = 2) /\
    forall fallback next, exec (rewriter_resolve fallback iter (inner_prog custom) req) next = None.
Proof.
  exists ex_cname, ex_rules, ex_iter, (new_request 5 $"alias.lan" 1).
  split. { split; intros [|[|i]] [|[|j]] u es u' es' d; cbn; congruence. }
  split; [exact ex_rules_distinct|]. split; [exact ex_rules_iterates|]. cbv zeta. split.
  - do 2 eexists. split; [vm_compute; reflexivity|]. split; reflexivity.
  - intros fallback next. vm_compute. reflexivity.
Qed.
Print Assumptions C78_cname_with_rewriting_refuted.

(** ** C79: what is asked is determined by the configuration.  Not with overlapping rules. *)
Theorem C79_deterministic_refuted :
  exists rules iter iter' inner req next, distinct_rules rules /\ iterates rules iter /\ iterates rules iter' /\
    exec (rewriter_resolve false iter inner req) next <> exec (rewriter_resolve false iter' inner req) next.
Proof.
  exists [($"com", $"lan"); ($"example.com", $"home")],
    (fun _ => [($"com", $"lan"); ($"example.com", $"home")]), (fun _ => [($"example.com", $"home"); ($"com", $"lan")]),
    (fun rq => Some (Err (concat (map q_name (m_question (req_msg rq)))), req_msg rq)), (new_request 5 $"nas.example.com" 1), (fun _ => None).
  split.
  { intros [|[|[|i]]] [|[|[|j]]] k0 v0 k1 v1 k; cbn; try congruence; intros [= <- <-] [= <- <-] H0 H1;
      apply lowered_iff in H0, H1; vm_compute in H0, H1; congruence. }
  assert (forall k v, In (k, v) [($"com", $"lan"); ($"example.com", $"home")] -> In k [$"com"; $"example.com"]) as Hk.
  { intros k v [[= <- <-]|[[= <- <-]|[]]]; simpl; auto. }
  split; [exists [$"com"; $"example.com"]; split; [exact Hk|intros i; apply Permutation_refl]|].
  split; [exists [$"com"; $"example.com"]; split; [exact Hk|intros i; vm_compute; apply perm_swap]|].
  vm_compute. discriminate.
Qed.
Print Assumptions C79_deterministic_refuted.

Lemma rewrite_questions_ext iter iter' : (forall i d, to_lower d = d -> rewrite_domain (iter i) d = rewrite_domain (iter' i) d) ->
  forall qs i names, rewrite_questions iter i qs names = rewrite_questions iter' i qs names.
Proof.
  intros H. induction qs as [|q qs IH]; intros i names; cbn [rewrite_questions]; [reflexivity|]. cbv zeta.
  assert (to_lower (extract_domain_only (q_name q)) = extract_domain_only (q_name q)) as Hd.
  { destruct (proj2 (plain_name_iff (q_name q) _) eq_refl) as [s [_ Hl]]. apply lowered_iff in Hl. rewrite Hl. apply to_lower_idem. }
  rewrite (H i _ Hd). destruct (str_eqb _ _); rewrite IH; reflexivity.
Qed.

Lemma same_tail (p p' k k' : str) : p ++ dot :: k = p' ++ dot :: k' ->
  k = k' \/ (exists x, k = x ++ dot :: k') \/ (exists x, k' = x ++ dot :: k).
Proof.
  revert p'. induction p as [|a p IH]; intros [|b p'] H; cbn in H.
  - injection H as ->. auto.
  - injection H as <- ->. right. left. eauto.
  - injection H as -> <-. right. right. eauto.
  - injection H as <- H. apply (IH p' H).
Qed.

(** If no rule is about a sub-domain of another one, the orders of iteration do not
    matter: the missing part is a choice (such as the longest) among overlapping rules. *)
Theorem C79_deterministic_partial : forall rules iter iter' fallback inner req,
  distinct_rules rules -> iterates rules iter -> iterates rules iter' ->
  (forall k0 v0 k1 v1 k k', In (k0, v0) rules -> In (k1, v1) rules -> lowered k0 k -> lowered k1 k' ->
     forall x, k <> x ++ "."%char :: k') ->
  rewriter_resolve fallback iter inner req = rewriter_resolve fallback iter' inner req.
Proof.
  intros rules iter iter' fallback inner req Hd [ks [Hks Hp]] [ks' [Hks' Hp']] Hno. unfold rewriter_resolve.
  rewrite (rewrite_questions_ext iter iter'); [reflexivity|]. intros i d Hlow.
  destruct (rewrite_domain_spec (iter i) d) as [[p [k [v [A1 [A2 A3]]]]]|[A1 A2]];
    destruct (rewrite_domain_spec (iter' i) d) as [[p' [k' [v' [B1 [B2 B3]]]]]|[B1 B2]].
  - rewrite A3, B3.
    assert (applies rules d p k v) as [_ [k0 [v0 [I0 [L0 M0]]]]] by (apply (iter_applies rules Hd ks Hks iter Hp i); auto).
    assert (applies rules d p' k' v') as [_ [k1 [v1 [I1 [L1 M1]]]]] by (apply (iter_applies rules Hd ks' Hks' iter' Hp' i); auto).
    rewrite A2 in B2. destruct (same_tail p p' k k' B2) as [<-|[[x Hx]|[x Hx]]].
    + apply app_inv_tail in B2. subst p'. destruct (rules_fun rules Hd k0 v0 k1 v1 I0 I1) as [-> ->].
      { apply lowered_iff in L0, L1. congruence. }
      apply lowered_iff in M0, M1. congruence.
    + exfalso. exact (Hno k0 v0 k1 v1 k k' I0 I1 L0 L1 x Hx).
    + exfalso. exact (Hno k1 v1 k0 v0 k' k I1 I0 L1 L0 x Hx).
  - exfalso. assert (applies rules d p k v) as Ha by (apply (iter_applies rules Hd ks Hks iter Hp i); auto).
    apply (iter_applies rules Hd ks' Hks' iter' Hp' i) in Ha as [Hi He]; auto. exact (B1 p k v Hi He).
  - exfalso. assert (applies rules d p' k' v') as Ha by (apply (iter_applies rules Hd ks' Hks' iter' Hp' i); auto).
    apply (iter_applies rules Hd ks Hks iter Hp i) in Ha as [Hi He]; auto. exact (A1 p' k' v' Hi He).
  - congruence.
Qed.
Print Assumptions C79_deterministic_partial.
