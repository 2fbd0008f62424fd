(** C147: which handler serves a request; C148: headers and requests of web pages; C149: the start page and time limits. *)
From Coq Require Import String Ascii List Arith Bool NArith ZArith Lia.
From Verif Require Import Str StrFacts Num Dns Resolver Server ServerProps Http HttpSpec.
Import ListNotations.
Open Scope list_scope.

(** ** C147: routes *)
Lemma known_iff m : existsb (str_eqb m) known_methods = true <-> any_method m.
Proof.
  unfold any_method, known_methods. rewrite existsb_exists. split.
  - intros [x [Hx E]]. apply str_eqb_eq in E. now subst.
  - intros H. exists m. split; [exact H|apply str_eqb_refl].
Qed.

Lemma best_app rank m p : forall a b, best rank m p (a ++ b) = match best rank m p b with Some h => Some h | None => best rank m p a end.
Proof.
  induction a as [|r a IH]; intros b; cbn [app best]; [now destruct (best rank m p b)|]. rewrite IH. destruct (best rank m p b); [reflexivity|]. reflexivity.
Qed.

Lemma str_eqb_neq a b : a <> b -> str_eqb a b = false.
Proof. intros H. destruct (str_eqb a b) eqn:E; [|reflexivity]. apply str_eqb_eq in E. contradiction. Qed.

(** Routes with a text, for each part of the list. *)
Definition fixed (p : str) : option (str * http_handler) :=
  if str_eqb p $"/api/blocking/disable" then Some ($"GET", HApi ODisable)
  else if str_eqb p $"/api/blocking/enable" then Some ($"GET", HApi OEnable)
  else if str_eqb p $"/api/blocking/status" then Some ($"GET", HApi OStatus)
  else if str_eqb p $"/api/cache/flush" then Some ($"POST", HApi OFlush)
  else if str_eqb p $"/api/lists/refresh" then Some ($"POST", HApi ORefresh)
  else if str_eqb p $"/api/query" then Some ($"POST", HApi OQuery)
  else if str_eqb p $"/docs/openapi.yaml" then Some ($"GET", HDocs)
  else if str_eqb p $"/" then Some ($"GET", HRoot)
  else None.

Ltac literals p := repeat match goal with
  | |- context [str_eqb p ?t] => let E := fresh in destruct (str_eqb p t) eqn:E; [apply str_eqb_eq in E; subst p|]
  end.

Definition before : list route := api_routes ++
    [{| rt_method := None; rt_pattern := PText $"/debug"; rt_handler := fun _ => HDebug [] |};
     {| rt_method := None; rt_pattern := PText $"/debug/"; rt_handler := fun _ => HDebug [] |};
     {| rt_method := None; rt_pattern := PRest $"/debug/"; rt_handler := HDebug |};
     get $"/docs/openapi.yaml" HDocs;
     {| rt_method := None; rt_pattern := PRest $"/static/"; rt_handler := HStatic |};
     get $"/" HRoot].

Lemma best0_before m p : best 0 m p before =
  match fixed p with
  | Some (m', h) => if str_eqb m' m then Some h else None
  | None => if str_eqb p $"/debug" || str_eqb p $"/debug/" then Some (HDebug []) else None
  end.
Proof.
  unfold before, api_routes, get, post. cbn [app best rt_method rt_pattern rt_handler pattern_rank Nat.eqb andb pattern_value option_map].
  remember (fixed p) as f eqn:Ef. unfold fixed in Ef. revert Ef.
  destruct (str_eqb $"GET" m) eqn:Eg, (str_eqb $"POST" m) eqn:Ep; literals p; intros ->; cbv iota beta; rewrite ?Eg, ?Ep; reflexivity.
Qed.

Lemma best0_doh m p : best 0 m p doh_routes =
  if str_eqb p $"/dns-query" || str_eqb p $"/dns-query/" then if str_eqb $"POST" m then Some (HDohPost []) else if str_eqb $"GET" m then Some (HDohGet []) else None else None.
Proof.
  unfold doh_routes, get, post. cbn [app best rt_method rt_pattern rt_handler pattern_rank Nat.eqb andb pattern_value option_map].
  generalize (str_eqb $"GET" m) (str_eqb $"POST" m). intros g b. literals p; destruct g, b; reflexivity.
Qed.

Lemma best1_before m p : best 1 m p before = None.
Proof. reflexivity. Qed.

Definition doh_id (p : str) : option str := pattern_value (PParam $"/dns-query/") p.
Lemma best1_doh m p : best 1 m p doh_routes =
  if str_eqb $"POST" m then option_map HDohPost (doh_id p) else if str_eqb $"GET" m then option_map HDohGet (doh_id p) else None.
Proof.
  unfold doh_routes, get, post. cbn [app best rt_method rt_pattern rt_handler pattern_rank Nat.eqb andb]. fold (doh_id p).
  destruct (str_eqb $"POST" m) eqn:E1, (str_eqb $"GET" m) eqn:E2; destruct (doh_id p); try reflexivity.
Qed.

Lemma best2_before m p : best 2 m p before =
  match pattern_value (PRest $"/static/") p with Some r => Some (HStatic r) | None => option_map HDebug (pattern_value (PRest $"/debug/") p) end.
Proof.
  unfold before, api_routes, get, post. cbn [app best rt_method rt_pattern rt_handler pattern_rank Nat.eqb andb].
  destruct (pattern_value (PRest $"/static/") p), (pattern_value (PRest $"/debug/") p); reflexivity.
Qed.
Lemma best2_doh m p : best 2 m p doh_routes = None.
Proof. reflexivity. Qed.

Definition metrics_routes (c : metrics_conf) : list route :=
  if mc_enable c then [{| rt_method := None; rt_pattern := PText (mc_path c); rt_handler := fun _ => HMetrics |}] else [].

Lemma routes_are c rs : http_routes c = Some rs -> usable c /\ rs = before ++ metrics_routes c ++ doh_routes.
Proof.
  unfold http_routes, usable, metrics_routes. fold before. cbv zeta. destruct (mc_enable c).
  - destruct (has_prefix (mc_path c) $"/") eqn:E; [|discriminate]. intros [= <-]. split; [|reflexivity]. intros _. apply has_prefix_spec in E as [r ->]. now exists r.
  - intros [= <-]. split; [discriminate|reflexivity].
Qed.

Definition metrics_here (c : metrics_conf) (p : str) : bool := mc_enable c && str_eqb p (mc_path c).
Lemma metrics_here_iff c p : metrics_here c p = true <-> is_metrics c p.
Proof. unfold metrics_here, is_metrics. now rewrite andb_true_iff, str_eqb_eq. Qed.

Lemma best_metrics rank m p c : best rank m p (metrics_routes c) = if (rank =? 0) && metrics_here c p then Some HMetrics else None.
Proof.
  unfold metrics_routes, metrics_here. destruct (mc_enable c); [|now rewrite andb_false_r]. cbn [best rt_method rt_pattern rt_handler pattern_rank pattern_value].
  destruct rank; cbn [Nat.eqb andb]; [|reflexivity]. destruct (str_eqb p (mc_path c)); reflexivity.
Qed.

(** The handler, in one piece. *)
Definition route_of (c : metrics_conf) (m p : str) : option http_handler :=
  match (if str_eqb p $"/dns-query" || str_eqb p $"/dns-query/" then if str_eqb $"POST" m then Some (HDohPost []) else if str_eqb $"GET" m then Some (HDohGet []) else None else None) with
  | Some h => Some h
  | None =>
      if metrics_here c p then Some HMetrics
      else match (match fixed p with Some (m', h) => if str_eqb m' m then Some h else None | None => if str_eqb p $"/debug" || str_eqb p $"/debug/" then Some (HDebug []) else None end) with
        | Some h => Some h
        | None =>
            match (if str_eqb $"POST" m then option_map HDohPost (doh_id p) else if str_eqb $"GET" m then option_map HDohGet (doh_id p) else None) with
            | Some h => Some h
            | None => match pattern_value (PRest $"/static/") p with Some r => Some (HStatic r) | None => option_map HDebug (pattern_value (PRest $"/debug/") p) end
            end
        end
  end.

Lemma find_route_found c rs m p h : http_routes c = Some rs -> (find_route rs m p = Found h <-> any_method m /\ route_of c m p = Some h).
Proof.
  intros Hr. apply routes_are in Hr as [_ ->]. unfold find_route. rewrite <- known_iff. destruct (existsb (str_eqb m) known_methods); [|split; [discriminate|intros [? _]; discriminate]].
  unfold route_of. rewrite !best_app, best0_doh, best1_doh, best2_doh, !best_metrics, best0_before, best1_before, best2_before. cbn [Nat.eqb andb].
  destruct (if _ || _ then _ else _); [split; [intros [= <-]; auto|intros [_ [= <-]]; reflexivity]|].
  destruct (metrics_here c p); [split; [intros [= <-]; auto|intros [_ [= <-]]; reflexivity]|].
  destruct (match fixed p with Some _ => _ | None => _ end); [split; [intros [= <-]; auto|intros [_ [= <-]]; reflexivity]|].
  destruct (if str_eqb _ m then _ else _); [split; [intros [= <-]; auto|intros [_ [= <-]]; reflexivity]|].
  destruct (match pattern_value _ p with Some _ => _ | None => _ end); [split; [intros [= <-]; auto|intros [_ [= <-]]; reflexivity]|].
  split; [|intros [_ ?]; discriminate]. destruct (existsb _ _); discriminate.
Qed.

Lemma doh_id_iff p id : doh_id p = Some id <-> p = $"/dns-query/" ++ id /\ id <> [] /\ ~ In "/"%char id.
Proof.
  unfold doh_id. cbn [pattern_value]. split.
  - destruct (has_prefix p $"/dns-query/") eqn:E; [|discriminate]. apply has_prefix_spec in E as [r ->]. rewrite skipn_app, skipn_all, Nat.sub_diag. cbn [skipn app].
    destruct r as [|x r]; [discriminate|]. destruct (contains_byte "/" (x :: r)) eqn:Ec; [discriminate|]. intros [= <-]. split; [reflexivity|]. split; [discriminate|].
    intros Hin. apply contains_byte_In in Hin. congruence.
  - intros [-> [Hne Hs]]. assert (has_prefix ($"/dns-query/" ++ id) $"/dns-query/" = true) as -> by (apply has_prefix_spec; now exists id).
    rewrite skipn_app, skipn_all, Nat.sub_diag. cbn [skipn app]. destruct id as [|x r]; [congruence|].
    destruct (contains_byte "/" (x :: r)) eqn:Ec; [|reflexivity]. apply contains_byte_In in Ec. contradiction.
Qed.

Lemma rest_iff front p r : pattern_value (PRest front) p = Some r <-> p = front ++ r.
Proof.
  cbn [pattern_value]. split.
  - destruct (has_prefix p front) eqn:E; [|discriminate]. apply has_prefix_spec in E as [x ->]. rewrite skipn_app, skipn_all, Nat.sub_diag. cbn. now intros [= <-].
  - intros ->. assert (has_prefix (front ++ r) front = true) as -> by (apply has_prefix_spec; now exists r). now rewrite skipn_app, skipn_all, Nat.sub_diag.
Qed.

(** Every request is served by the handler of the table, ... *)
Theorem C147_table : forall c rs m p h, http_routes c = Some rs -> (find_route rs m p = Found h <-> serves c m p h).
Proof.
  intros c rs m p h Hr. rewrite (find_route_found c rs m p h Hr). clear Hr rs.
  assert (forall q, metrics_here c q = false <-> ~ is_metrics c q) as Hf.
  { intros q. rewrite <- metrics_here_iff. destruct (metrics_here c q); split; congruence. }
  split.
  - intros [Hm H]. unfold route_of in H.
    destruct (str_eqb p $"/dns-query" || str_eqb p $"/dns-query/") eqn:Ed.
    { apply orb_prop in Ed. assert (In p [$"/dns-query"; $"/dns-query/"]) as Hp by (destruct Ed as [E|E]; apply str_eqb_eq in E; subst; cbn; auto).
      destruct (str_eqb $"POST" m) eqn:Ep; [apply str_eqb_eq in Ep; subst m; injection H as <-; now constructor|].
      destruct (str_eqb $"GET" m) eqn:Eg; [apply str_eqb_eq in Eg; subst m; injection H as <-; now constructor|].
      destruct (metrics_here c p) eqn:Em.
      - injection H as <-. apply metrics_here_iff in Em. constructor; auto. intros [[<-|[<-|[]]] _]; discriminate.
      - exfalso. destruct Hp as [<-|[<-|[]]]; discriminate. }
    destruct (metrics_here c p) eqn:Em.
    { injection H as <-. apply metrics_here_iff in Em. constructor; auto. intros [_ [<-|[<-|[]]]]; discriminate. }
    apply Hf in Em. unfold fixed in H.
    repeat match type of H with context [str_eqb p ?t] => let E := fresh "E" in destruct (str_eqb p t) eqn:E; [apply str_eqb_eq in E; subst p|] end;
    try (match type of H with context [str_eqb ?x m] => let E := fresh "E" in destruct (str_eqb x m) eqn:E; [apply str_eqb_eq in E; subst m|] end; [injection H as <-; constructor; cbn; tauto|];
         exfalso; cbn in H; repeat match type of H with context [if ?b then _ else _] => destruct b end; discriminate).
    + injection H as <-. constructor; auto.
    + injection H as <-. apply (s_debug c m []); auto.
    + cbn [orb] in H. destruct (doh_id p) as [id|] eqn:Ei.
      * pose proof Ei as Ei'. apply doh_id_iff in Ei' as [-> [Hne Hs]].
        destruct (str_eqb $"POST" m) eqn:Ep; [apply str_eqb_eq in Ep; subst m; injection H as <-; now constructor|].
        destruct (str_eqb $"GET" m) eqn:Eg; [apply str_eqb_eq in Eg; subst m; injection H as <-; now constructor|]. discriminate.
      * assert ((match (match pattern_value (PRest $"/static/") p with Some r => Some (HStatic r) | None => option_map HDebug (pattern_value (PRest $"/debug/") p) end) with Some h => Some h | None => None end) = Some h) as H'
          by (destruct (str_eqb $"POST" m), (str_eqb $"GET" m); cbn [option_map] in H; revert H; destruct (match pattern_value _ p with Some _ => _ | None => _ end); auto).
        destruct (pattern_value (PRest $"/static/") p) as [r|] eqn:Es; [apply rest_iff in Es; subst p; injection H' as <-; now constructor|].
        destruct (pattern_value (PRest $"/debug/") p) as [r|] eqn:Eg; [apply rest_iff in Eg; subst p; injection H' as <-; now constructor|discriminate].
  - intros H. destruct H as [p Hp|p Hp|id Hne Hs Hm|id Hne Hs Hm|m p Hk Hm Hn|m p o Hin Hm|Hm|Hm|m Hk Hm|m rest Hk Hm|m rest Hk Hm].
    + split; [cbn; tauto|]. destruct Hp as [<-|[<-|[]]]; reflexivity.
    + split; [cbn; tauto|]. destruct Hp as [<-|[<-|[]]]; reflexivity.
    + split; [cbn; tauto|]. apply Hf in Hm. assert (doh_id ($"/dns-query/" ++ id) = Some id) as Hd by (now apply doh_id_iff). unfold route_of. rewrite Hm, Hd. destruct id; [congruence|]. reflexivity.
    + split; [cbn; tauto|]. apply Hf in Hm. assert (doh_id ($"/dns-query/" ++ id) = Some id) as Hd by (now apply doh_id_iff). unfold route_of. rewrite Hm, Hd. destruct id; [congruence|]. reflexivity.
    + split; [exact Hk|]. apply metrics_here_iff in Hm. unfold route_of. rewrite Hm.
      destruct (str_eqb p $"/dns-query" || str_eqb p $"/dns-query/") eqn:Ed; [|reflexivity].
      apply orb_prop in Ed. assert (In p [$"/dns-query"; $"/dns-query/"]) as Hp by (destruct Ed as [E|E]; apply str_eqb_eq in E; subst; cbn; auto).
      destruct (str_eqb $"POST" m) eqn:Ep; [apply str_eqb_eq in Ep; subst m; exfalso; apply Hn; cbn; tauto|].
      destruct (str_eqb $"GET" m) eqn:Eg; [apply str_eqb_eq in Eg; subst m; exfalso; apply Hn; cbn; tauto|]. reflexivity.
    + apply Hf in Hm. cbn [In] in Hin. repeat (destruct Hin as [Hin|Hin]; [injection Hin as <- <- <-; split; [cbn; tauto|unfold route_of; rewrite Hm; reflexivity]|]). destruct Hin.
    + apply Hf in Hm. split; [cbn; tauto|]. unfold route_of. rewrite Hm. reflexivity.
    + apply Hf in Hm. split; [cbn; tauto|]. unfold route_of. rewrite Hm. reflexivity.
    + apply Hf in Hm. split; [exact Hk|]. unfold route_of. rewrite Hm. reflexivity.
    + apply Hf in Hm. split; [exact Hk|]. unfold route_of. rewrite Hm. destruct rest as [|x rest]; [reflexivity|].
      assert (fixed ($"/debug/" ++ x :: rest) = None) as -> by reflexivity.
      assert (doh_id ($"/debug/" ++ x :: rest) = None) as -> by reflexivity. cbn [option_map].
      assert (pattern_value (PRest $"/debug/") ($"/debug/" ++ x :: rest) = Some (x :: rest)) as -> by (now apply rest_iff).
      destruct (str_eqb $"POST" m), (str_eqb $"GET" m); reflexivity.
    + apply Hf in Hm. split; [exact Hk|]. unfold route_of. rewrite Hm.
      assert (fixed ($"/static/" ++ rest) = None) as -> by reflexivity.
      assert (doh_id ($"/static/" ++ rest) = None) as -> by reflexivity. cbn [option_map].
      assert (pattern_value (PRest $"/static/") ($"/static/" ++ rest) = Some rest) as -> by (now apply rest_iff).
      destruct (str_eqb $"POST" m), (str_eqb $"GET" m); reflexivity.
Qed.
Print Assumptions C147_table.

Lemma best_some rank m p : forall rs r, In r rs -> pattern_rank (rt_pattern r) = rank -> (rt_method r = None \/ rt_method r = Some m) ->
  pattern_value (rt_pattern r) p <> None -> best rank m p rs <> None.
Proof.
  induction rs as [|r' rs IH]; intros r Hin Hr Hm Hv; [destruct Hin|]. cbn [best]. destruct (best rank m p rs) eqn:E; [discriminate|].
  destruct Hin as [->|Hin]; [|exfalso; exact (IH r Hin Hr Hm Hv eq_refl)]. rewrite Hr, Nat.eqb_refl.
  assert (match rt_method r with Some x => str_eqb x m | None => true end = true) as -> by (destruct Hm as [->| ->]; [reflexivity|apply str_eqb_refl]).
  cbn [andb]. destruct (pattern_value (rt_pattern r) p); [discriminate|congruence].
Qed.

Lemma best_match rank m p : forall rs h, best rank m p rs = Some h -> exists r, In r rs /\ pattern_value (rt_pattern r) p <> None.
Proof.
  induction rs as [|r rs IH]; intros h; cbn [best]; [discriminate|]. destruct (best rank m p rs) eqn:E.
  - intros _. destruct (IH _ eq_refl) as [x [Hx Hv]]. exists x. split; [now right|exact Hv].
  - destruct ((_ =? _) && _); [|discriminate]. intros H. exists r. split; [now left|]. destruct (pattern_value (rt_pattern r) p); [discriminate|discriminate H].
Qed.

Lemma matched_iff rs p : Forall (fun r => forall m, rt_method r = Some m -> any_method m) rs ->
  (existsb (fun r => match pattern_value (rt_pattern r) p with Some _ => true | None => false end) rs = true <-> exists m h, find_route rs m p = Found h).
Proof.
  intros Hk. rewrite existsb_exists. split.
  - intros [r [Hin Hv]]. rewrite Forall_forall in Hk.
    set (m := match rt_method r with Some m => m | None => $"GET" end).
    assert (rt_method r = None \/ rt_method r = Some m) as Hm by (unfold m; destruct (rt_method r); auto).
    assert (existsb (str_eqb m) known_methods = true) as Hkm.
    { apply known_iff. unfold m. destruct (rt_method r) eqn:E; [exact (Hk _ Hin _ E)|cbn; tauto]. }
    exists m. unfold find_route. rewrite Hkm.
    assert (pattern_value (rt_pattern r) p <> None) as Hv' by (destruct (pattern_value (rt_pattern r) p); [discriminate|discriminate Hv]).
    destruct (best 0 m p rs) eqn:E0; [eauto|]. destruct (best 1 m p rs) eqn:E1; [eauto|]. destruct (best 2 m p rs) eqn:E2; [eauto|]. exfalso.
    destruct (rt_pattern r) eqn:Ep; [apply (best_some 0 m p rs r)|apply (best_some 1 m p rs r)|apply (best_some 2 m p rs r)]; rewrite ?Ep; auto.
  - intros [m [h H]]. unfold find_route in H. destruct (existsb (str_eqb m) known_methods); [|discriminate].
    assert (exists r, In r rs /\ pattern_value (rt_pattern r) p <> None) as [r [Hin Hv]].
    { destruct (best 0 m p rs) eqn:E0; [now apply best_match in E0|]. destruct (best 1 m p rs) eqn:E1; [now apply best_match in E1|].
      destruct (best 2 m p rs) eqn:E2; [now apply best_match in E2|]. destruct (existsb _ rs); discriminate. }
    exists r. split; [exact Hin|]. destruct (pattern_value (rt_pattern r) p); [reflexivity|congruence].
Qed.

Lemma routes_methods c rs : http_routes c = Some rs -> Forall (fun r => forall m, rt_method r = Some m -> any_method m) rs.
Proof.
  intros H. apply routes_are in H as [_ ->]. unfold before, api_routes, metrics_routes, doh_routes, get, post, any_method.
  destruct (mc_enable c); cbn [app]; repeat (constructor; [cbn [rt_method]; intros m Hm; try discriminate Hm; injection Hm as <-; cbn; tauto|]); constructor.
Qed.

(** ... with 405 if only other methods have a handler for the path, and 404 if none has. *)
Theorem C147_refused : forall c rs m p, http_routes c = Some rs ->
  (find_route rs m p = NotAllowed <-> ~ any_method m \/ ((forall h, ~ serves c m p h) /\ exists m' h, serves c m' p h)) /\
  (find_route rs m p = NotFound <-> any_method m /\ forall m' h, ~ serves c m' p h).
Proof.
  intros c rs m p Hr. pose proof (matched_iff rs p (routes_methods c rs Hr)) as Hx. pose proof (fun m' h => C147_table c rs m' p h Hr) as Ht.
  assert ((exists m' h, find_route rs m' p = Found h) <-> exists m' h, serves c m' p h) as He.
  { split; intros [m' [h H]]; exists m', h; now apply Ht. }
  rewrite He in Hx. clear He. pose proof (known_iff m) as Hk.
  destruct (find_route rs m p) as [h| |] eqn:Ef.
  - assert (serves c m p h) as Hs by (now apply Ht). split; split; try discriminate.
    + intros [Hn|[Hn _]]; [|now destruct (Hn h)]. unfold find_route in Ef. destruct (existsb (str_eqb m) known_methods); [|discriminate]. destruct Hn. now apply Hk.
    + intros [_ Hn]. now destruct (Hn m h).
  - assert (forall h, ~ serves c m p h) as Hn by (intros h H; apply Ht in H; rewrite Ef in H; discriminate H).
    unfold find_route in Ef. destruct (existsb (str_eqb m) known_methods) eqn:Ek.
    + destruct (best 0 m p rs); [discriminate|]. destruct (best 1 m p rs); [discriminate|]. destruct (best 2 m p rs); [discriminate|].
      destruct (existsb _ rs) eqn:Em; [|discriminate]. clear Em. pose proof (proj1 Hx eq_refl) as Em. split; split; try discriminate; auto.
      intros [_ H]. destruct Em as [m' [h Hs]]. now destruct (H m' h).
    + split; split; try discriminate; auto. * intros _. left. intros H. apply Hk in H. discriminate. * intros [H _]. apply Hk in H. discriminate.
  - unfold find_route in Ef. destruct (existsb (str_eqb m) known_methods) eqn:Ek; [|discriminate].
    destruct (best 0 m p rs); [discriminate|]. destruct (best 1 m p rs); [discriminate|]. destruct (best 2 m p rs); [discriminate|].
    destruct (existsb _ rs) eqn:Em; [discriminate|].
    assert (forall m' h, ~ serves c m' p h) as Hn by (intros m' h H; assert (false = true) by (apply Hx; eauto); discriminate).
    split; split; try discriminate; auto.
    + intros [H|[_ [m' [h H]]]]; [destruct H; now apply Hk|now destruct (Hn m' h)].
    + intros _. split; [now apply Hk|exact Hn].
Qed.
Print Assumptions C147_refused.

(** The server can be started exactly if the path of the metrics is usable. *)
Theorem C147_started : forall c, (exists rs, http_routes c = Some rs) <-> usable c.
Proof.
  intros c. split.
  - intros [rs H]. now apply routes_are in H.
  - intros Hu. unfold http_routes. cbv zeta. destruct (mc_enable c) eqn:E; [|eauto]. destruct (Hu E) as [rest Hp].
    assert (has_prefix (mc_path c) $"/" = true) as -> by (apply has_prefix_spec; rewrite Hp; now exists rest). eauto.
Qed.
Print Assumptions C147_started.

(** A path without a slash at its start is accepted by the configuration and stops the program (chi panics) while it starts. *)
Theorem C147_started_refuted : exists c, mc_enable c = true /\ mc_path c = $"metrics" /\ http_routes c = None.
Proof. now exists {| mc_enable := true; mc_path := $"metrics" |}. Qed.
Print Assumptions C147_started_refuted.

(** The path of the metrics may take the place of another route, and of the DNS route only in part. *)
Theorem C147_metrics_refuted :
  (exists c rs, mc_enable c = true /\ http_routes c = Some rs /\ find_route rs $"GET" $"/api/blocking/status" = Found HMetrics) /\
  (exists c rs, mc_enable c = true /\ http_routes c = Some rs /\ find_route rs $"GET" (mc_path c) = Found (HDohGet [])).
Proof.
  split.
  - exists {| mc_enable := true; mc_path := $"/api/blocking/status" |}. eexists. split; [reflexivity|]. split; reflexivity.
  - exists {| mc_enable := true; mc_path := $"/dns-query" |}. eexists. split; [reflexivity|]. split; reflexivity.
Qed.
Print Assumptions C147_metrics_refuted.

Lemma routed_inj a b : Routed a = Routed b -> a = b.
Proof. congruence. Qed.

(** Nothing but the two routes for DNS resolves a query; its client is the one of the path. *)
Section Doh.
Variable L : lengths.
Variable unpack : list N -> option msg.
Variable pack_ok : msg -> bool.
Variable parse_ip : str -> option ip.
Variable ch : request -> msg * chain_result.

Theorem C147_doh : forall c rs r hs h host fw rem ct param body reqs a q,
  http_routes c = Some rs -> serve_http rs r = (hs, Routed (Found h)) ->
  doh_serve L unpack pack_ok parse_ip ch h host fw rem ct param body = (reqs, a) -> In q reqs ->
  In (rq_method r) [$"GET"; $"POST"] /\
  ((In (route_path r) [$"/dns-query"; $"/dns-query/"] /\ req_client_id q = client_id_from_host host) \/
   (exists id, route_path r = $"/dns-query/" ++ id /\ id <> [] /\ ~ In "/"%char id /\ req_client_id q = id)).
Proof.
  intros c rs r hs h host fw rem ct param body reqs a q Hr Hs Hd Hin.
  assert (find_route rs (rq_method r) (route_path r) = Found h) as Hf.
  { apply (f_equal snd) in Hs. unfold serve_http in Hs. destruct (_ && _); cbn [snd] in Hs; [discriminate|]. apply routed_inj in Hs. destruct (existsb _ _); [|discriminate]. destruct (has_prefix _ _); [exact Hs|discriminate]. }
  apply (C147_table c rs _ _ _ Hr) in Hf.
  assert (forall id, (match h with HDohGet i => i = id | HDohPost i => i = id | _ => False end) ->
     req_client_id q = match id with [] => client_id_from_host host | i => i end) as Hid.
  { intros id Hi. destruct h; try contradiction; subst; cbn [doh_serve] in Hd.
    - pose proof (C55_get L unpack pack_ok parse_ip ch param {| h_host := host; h_client_id := id; h_forwarded := fw; h_remote := rem |}) as C.
      destruct (doh_get _ _ _ _ _ _ _) as [qs an]. injection Hd as <- _. destruct C as [(p' & raw & m & _ & _ & _ & _ & -> & _)|[-> _]]; [|destruct Hin].
      destruct Hin as [<-|[]]. now destruct id.
    - pose proof (C55_post L unpack pack_ok parse_ip ch ct body {| h_host := host; h_client_id := id; h_forwarded := fw; h_remote := rem |}) as C.
      destruct (doh_post _ _ _ _ _ _ _ _) as [qs an]. injection Hd as <- _. destruct C as [(raw & m & _ & _ & _ & -> & _)|[-> _]]; [|destruct Hin].
      destruct Hin as [<-|[]]. now destruct id. }
  revert Hf Hid. generalize (rq_method r) (route_path r). intros m p Hf Hid.
  inversion Hf; subst; try (cbn [doh_serve] in Hd; injection Hd as <- _; destruct Hin).
  - split; [cbn; tauto|]. left. split; [assumption|]. now apply (Hid []).
  - split; [cbn; tauto|]. left. split; [assumption|]. now apply (Hid []).
  - split; [cbn; tauto|]. right. exists id. repeat split; auto. rewrite (Hid id eq_refl). destruct id; [contradiction|reflexivity].
  - split; [cbn; tauto|]. right. exists id. repeat split; auto. rewrite (Hid id eq_refl). destruct id; [contradiction|reflexivity].
Qed.
End Doh.
Print Assumptions C147_doh.

(** *** A configuration with metrics *)
Definition ex_metrics : metrics_conf := {| mc_enable := true; mc_path := $"/metrics" |}.
Definition ex_routes : list route := match http_routes ex_metrics with Some rs => rs | None => [] end.
Definition page_request (tls : bool) (method path : str) (hs : list (str * str)) : http_req :=
  {| rq_tls := tls; rq_method := method; rq_raw := []; rq_path := path; rq_header := fun n => match find (fun p => str_eqb (fst p) n) hs with Some p => snd p | None => [] end |}.

Example C147_example :
  http_routes ex_metrics = Some ex_routes /\
  find_route ex_routes $"GET" $"/dns-query/tv" = Found (HDohGet $"tv") /\ find_route ex_routes $"GET" $"/dns-query/tv/1" = NotFound /\
  find_route ex_routes $"POST" $"/dns-query" = Found (HDohPost []) /\ find_route ex_routes $"PUT" $"/dns-query" = NotAllowed /\
  find_route ex_routes $"GET" $"/metrics" = Found HMetrics /\ find_route ex_routes $"GET" $"/api/query" = NotAllowed /\
  find_route ex_routes $"PUT" $"/debug/pprof" = Found (HDebug $"pprof") /\ find_route ex_routes $"BREW" $"/coffee" = NotAllowed /\
  find_route ex_routes $"GET" $"/coffee" = NotFound /\
  (let unpack := fun raw => match raw with [0; 16; 131]%N => Some (example_query []) | _ => None end in
   map req_client_id (fst (doh_serve flat_lengths unpack (fun _ => true) (fun _ => None) (answering 2 []) (HDohGet $"tv") $"dns.example.com" [] $"192.0.2.7:4711" []
     (Some $"ABCD") None)) = [$"tv"]).
Proof. repeat split; vm_compute; reflexivity. Qed.

(** ** C148: headers, and pages of other origins *)

(** The four headers are in every answer over TLS, whatever is done with the request, and in none without TLS. *)
Theorem C148_headers : forall rs r name value, In (name, value) [($"strict-transport-security", $"max-age=63072000"); ($"x-frame-options", $"DENY");
    ($"x-content-type-options", $"nosniff"); ($"x-xss-protection", $"1; mode=block")] ->
  (rq_tls r = true -> header_is (fst (serve_http rs r)) name value) /\ (rq_tls r = false -> header_absent (fst (serve_http rs r)) name).
Proof.
  intros rs r name value Hin.
  assert (forall v, ~ In (name, v) (cors_actual r)) as Ha.
  { intros v H. unfold cors_actual in H. destruct (rq_header r $"Origin"); [|destruct (method_allowed _)]; cbn [In] in Hin, H; intuition (try congruence);
      repeat match goal with H : (_, _) = (_, _) |- _ => injection H; clear H; intros; subst end; discriminate. }
  assert (forall v, ~ In (name, v) (cors_preflight r)) as Hp.
  { intros v H. unfold cors_preflight in H. apply in_app_iff in H. destruct H as [H|H].
    - cbn [In] in Hin, H. repeat (destruct Hin as [Hin|Hin]; [injection Hin as <- <-; intuition discriminate|]). destruct Hin.
    - destruct (rq_header r $"Origin"); [destruct H|]. destruct (_ && _); [|destruct H]. apply in_app_iff in H. destruct H as [H|H].
      + cbn [In] in Hin, H. repeat (destruct Hin as [Hin|Hin]; [injection Hin as <- <-; intuition discriminate|]). destruct Hin.
      + apply in_app_iff in H. destruct H as [H|H].
        * destruct (header_list _); [destruct H|]. cbn [In] in Hin, H. repeat (destruct Hin as [Hin|Hin]; [injection Hin as <- <-; intuition discriminate|]). destruct Hin.
        * cbn [In] in Hin, H. repeat (destruct Hin as [Hin|Hin]; [injection Hin as <- <-; intuition discriminate|]). destruct Hin. }
  assert (exists rest, fst (serve_http rs r) = secure_headers r ++ rest /\ forall v, ~ In (name, v) rest) as [rest [-> Hr]].
  { unfold serve_http. destruct (_ && _); cbn [fst]; eauto. }
  unfold secure_headers. split; intros ->.
  - split; [apply in_or_app; left; exact Hin|]. intros v H. apply in_app_iff in H. destruct H as [H|H]; [|now destruct (Hr v)].
    cbn [In] in Hin, H. repeat (destruct Hin as [Hin|Hin]; [injection Hin as <- <-; repeat (destruct H as [H|H]; [try discriminate H; now injection H|]); destruct H|]). destruct Hin.
  - intros v H. now destruct (Hr v).
Qed.
Print Assumptions C148_headers.

(** Origin, methods and credentials in the headers. *)
Lemma origin_header (rs : list route) r name : In name [$"Access-Control-Allow-Origin"; $"Access-Control-Allow-Credentials"; $"Access-Control-Allow-Methods"; $"Access-Control-Allow-Headers"] ->
  forall v, In (name, v) (secure_headers r) -> False.
Proof. intros Hn v H. unfold secure_headers in H. destruct (rq_tls r); [|destruct H]. cbn [In] in Hn, H. intuition (subst; discriminate). Qed.

Lemma star_origin rs r v : In ($"Access-Control-Allow-Origin", v) (fst (serve_http rs r)) -> v = $"*".
Proof.
  assert (In $"Access-Control-Allow-Origin" [$"Access-Control-Allow-Origin"; $"Access-Control-Allow-Credentials"; $"Access-Control-Allow-Methods"; $"Access-Control-Allow-Headers"]) as Hn by (cbn; tauto).
  unfold serve_http. destruct (_ && _); cbn [fst]; intros H; apply in_app_iff in H; (destruct H as [H|H]; [now destruct (origin_header rs r _ Hn v)|]).
  - unfold cors_preflight in H. apply in_app_iff in H. destruct H as [H|H]; [cbn [In] in H; intuition discriminate|].
    destruct (rq_header r $"Origin"); [destruct H|]. destruct (_ && _); [|destruct H]. apply in_app_iff in H. destruct H as [H|H].
    + destruct H as [H|[H|[]]]; [injection H as <-; reflexivity|discriminate].
    + apply in_app_iff in H. destruct H as [H|H]; [destruct (header_list _); [destruct H|cbn [In] in H; intuition discriminate]|cbn [In] in H; intuition discriminate].
  - unfold cors_actual in H. destruct H as [H|H]; [discriminate|]. destruct (rq_header r $"Origin"); [destruct H|]. destruct (method_allowed _); [|destruct H].
    destruct H as [H|[H|[H|[]]]]; [injection H as <-; reflexivity|discriminate|discriminate].
Qed.

(** A page of any origin may read the answers to its GET and POST requests, ... *)
Theorem C148_read : forall rs r origin, from_page origin r -> In (rq_method r) [$"GET"; $"POST"] -> may_read origin false (fst (serve_http rs r)).
Proof.
  intros rs r origin [Hne [_ Ho]] Hm. apply mr_any; [reflexivity|]. split; [|intros v; apply star_origin].
  unfold serve_http. assert (str_eqb (rq_method r) $"OPTIONS" = false) as -> by (destruct Hm as [<-|[<-|[]]]; reflexivity). cbn [andb fst].
  apply in_or_app. right. unfold cors_actual. rewrite Ho. destruct origin; [congruence|].
  assert (method_allowed (rq_method r) = true) as -> by (destruct Hm as [<-|[<-|[]]]; reflexivity). right. now left.
Qed.
Print Assumptions C148_read.

(** ... but not if the browser sends cookies or passwords along, although this is allowed in the options of the server. *)
Theorem C148_credentials : forall rs r origin, from_page origin r -> ~ may_read origin true (fst (serve_http rs r)).
Proof. intros rs r origin [_ [Hs _]] [H _|[H _] _]; [discriminate|]. now apply star_origin in H. Qed.
Print Assumptions C148_credentials.
Theorem C148_credentials_refuted : exists r, from_page $"https://status.example" r /\ In ($"Access-Control-Allow-Credentials", $"true") (fst (serve_http ex_routes r)) /\
  ~ may_read $"https://status.example" true (fst (serve_http ex_routes r)).
Proof.
  assert (from_page $"https://status.example" (page_request true $"GET" $"/api/blocking/status" [($"Origin", $"https://status.example")])) as Hp by (repeat split; discriminate).
  eexists. split; [exact Hp|]. split; [|now apply C148_credentials]. apply nth_error_In with (n := 7). vm_compute. reflexivity.
Qed.
Print Assumptions C148_credentials_refuted.

(** *** Preflights *)
Definition flag (b : ascii) : bool := Ascii.eqb b "-" || Ascii.eqb b "_" || Ascii.eqb b ".".
Fixpoint canonical (upper : bool) (n : str) : str :=
  match n with
  | [] => []
  | b :: n => (if is_letter b then if upper then upper_char b else lower_char b else b) :: canonical (flag b) n
  end.

Lemma name_char_bool c : name_char c -> (is_letter c || is_name_char c) && negb (Ascii.eqb c " ") && negb (Ascii.eqb c ",") && Ascii.eqb (lower_char (upper_char c)) c && Ascii.eqb (lower_char c) c = true.
Proof.
  intros H. destruct c as [[] [] [] [] [] [] [] []]; try reflexivity; exfalso; unfold name_char in H; vm_compute N_of_ascii in H;
    destruct H as [[[H1 H2]|[H1 H2]]|H]; try (vm_compute in H1; congruence); try (vm_compute in H2; congruence); cbn [In] in H; intuition discriminate.
Qed.

Lemma name_char_ok c : ((97 <=? N_of_ascii c)%N && (N_of_ascii c <=? 122)%N) || Ascii.eqb c "-" = true -> name_char c.
Proof.
  intros H. apply orb_prop in H. destruct H as [H|H]; [|apply Ascii.eqb_eq in H; subst; right; now left].
  apply andb_prop in H as [H1 H2]. apply N.leb_le in H1, H2. left. left. now split.
Qed.

Lemma canonical_lower : forall n u, Forall name_char n -> lower (canonical u n) = n.
Proof.
  induction n as [|b n IH]; intros u Hn; [reflexivity|]. inversion Hn as [|? ? Hb Hr]; subst. cbn [canonical lower map]. fold (lower (canonical (flag b) n)). rewrite IH by exact Hr. f_equal.
  apply name_char_bool in Hb. rewrite !andb_true_iff in Hb. destruct Hb as [[[[_ _] _] H1] H2]. apply Ascii.eqb_eq in H1, H2.
  destruct (is_letter b); [destruct u|]; rewrite ?H1, ?H2; reflexivity.
Qed.

Lemma header_list_name : forall n h u s, Forall name_char n ->
  header_list_from h u (n ++ s) = match n with [] => header_list_from h u s | _ => header_list_from (h ++ canonical u n) (flag (List.last n " "%char)) s end.
Proof.
  induction n as [|b n IH]; intros h u s Hn; [reflexivity|]. inversion Hn as [|? ? Hb Hr]; subst. cbn [app header_list_from canonical].
  apply name_char_bool in Hb. rewrite !andb_true_iff in Hb. destruct Hb as [[[[Hc Hs] Hk] _] _]. apply negb_true_iff in Hs, Hk. rewrite Hs, Hk. cbn [orb].
  rewrite IH by exact Hr. fold (flag b). destruct (is_letter b) eqn:El.
  - destruct n as [|b' n]; [reflexivity|]. cbn [List.last]. rewrite <- app_assoc. reflexivity.
  - cbn [orb] in Hc. rewrite Hc. destruct n as [|b' n]; [reflexivity|]. cbn [List.last]. rewrite <- app_assoc. reflexivity.
Qed.

Lemma header_list_names : forall names, Forall sent_name names -> header_list (join $"," names) = map (canonical true) names.
Proof.
  unfold header_list. induction names as [|n [|n' names] IH]; intros Hn; [reflexivity| |]; inversion Hn as [|? ? [Hne Hc] Hr]; subst.
  - cbn [join map]. rewrite <- (app_nil_r n) at 1. rewrite header_list_name by exact Hc. destruct n as [|b n]; [congruence|]. reflexivity.
  - specialize (IH Hr). change (join $"," (n :: n' :: names)) with (n ++ $"," ++ join $"," (n' :: names)). rewrite header_list_name by exact Hc.
    destruct n as [|b n]; [congruence|]. cbn [app map]. cbn [header_list_from is_letter]. change ($"," ++ join $"," (n' :: names)) with (","%char :: join $"," (n' :: names)).
    cbn [header_list_from]. change (is_letter ",") with false. change (is_name_char ",") with false. change (Ascii.eqb "," " " || Ascii.eqb "," ",") with true. cbv iota.
    cbn [canonical app]. f_equal. exact IH.
Qed.

Definition listed : list str := [$"accept"; $"authorization"; $"content-type"; $"x-csrf-token"; $"origin"].
Lemma canonical_allowed n : Forall name_char n -> (In (canonical true n) allowed_headers <-> In n listed).
Proof.
  intros Hn. split; intros H.
  - apply (in_map lower) in H. rewrite canonical_lower in H by exact Hn. exact H.
  - cbn [listed In] in H. destruct H as [<-|[<-|[<-|[<-|[<-|[]]]]]]; cbn; tauto.
Qed.

Lemma upper_case_id m : upper_case m -> map upper_char m = m.
Proof.
  induction 1 as [|c m Hc Hm IH]; [reflexivity|]. cbn [map]. rewrite IH. f_equal. unfold upper_char. cbv zeta.
  destruct (N.leb_spec 97 (N_of_ascii c)); [|reflexivity]. destruct (N.leb_spec (N_of_ascii c) 122); [|reflexivity]. destruct Hc. split; assumption.
Qed.

(** A page may send a request which needs to be asked for if its method is GET, POST or OPTIONS and its headers are the usual ones; so DNS queries by
    POST with their content type, but nothing that a page could not send anyway to the REST interface. *)
Theorem C148_preflight : forall rs r origin m names, asks_for origin m names r -> upper_case m ->
  snd (serve_http rs r) = Preflight /\
  (may_send origin m names (fst (serve_http rs r)) <->
   In m [$"GET"; $"POST"; $"OPTIONS"] /\ forall n, In n names -> In n [$"accept"; $"authorization"; $"content-type"; $"x-csrf-token"; $"origin"]).
Proof.
  intros rs r origin m names [[Hne [Hst Ho]] [Hm [Hmne [Hrm [Hrh Hn]]]]] Hu.
  assert (serve_http rs r = (secure_headers r ++ cors_preflight r, Preflight)) as Es.
  { unfold serve_http. rewrite Hm, Hrm. cbn [andb]. rewrite str_eqb_refl. destruct m; [congruence|reflexivity]. }
  split; [now rewrite Es|].
  assert (method_allowed m = true <-> In m [$"GET"; $"POST"; $"OPTIONS"]) as Hma.
  { unfold method_allowed. rewrite (upper_case_id m Hu). cbn [existsb allowed_methods]. rewrite !orb_true_iff, !str_eqb_eq. cbn [In]. clear. split.
    - intros [H|[H|[H|H]]]; [| | |discriminate]; symmetry in H; tauto.
    - intros [H|[H|[H|[]]]]; symmetry in H; tauto. }
  assert (forallb (fun h => existsb (str_eqb h) allowed_headers) (header_list (rq_header r $"Access-Control-Request-Headers")) = true <-> forall n, In n names -> In n listed) as Hha.
  { rewrite Hrh, header_list_names by exact Hn. rewrite forallb_forall. rewrite Forall_forall in Hn. split.
    - intros H n Hin. apply canonical_allowed; [exact (proj2 (Hn n Hin))|]. specialize (H _ (in_map (canonical true) _ _ Hin)).
      apply existsb_exists in H as [x [Hx E]]. apply str_eqb_eq in E. now subst.
    - intros H x Hx. apply in_map_iff in Hx as [n [<- Hin]]. apply existsb_exists. exists (canonical true n). split; [|apply str_eqb_refl].
      apply canonical_allowed; [exact (proj2 (Hn n Hin))|now apply H]. }
  assert (forall name, In name [$"Access-Control-Allow-Origin"; $"Access-Control-Allow-Credentials"; $"Access-Control-Allow-Methods"; $"Access-Control-Allow-Headers"] ->
     forall v, In (name, v) (fst (serve_http rs r)) -> In (name, v) (cors_preflight r)) as Hpre.
  { intros name Hname v H. rewrite Es in H. cbn [fst] in H. apply in_app_iff in H. destruct H as [H|H]; [now destruct (origin_header rs r _ Hname v)|exact H]. }
  fold listed. rewrite <- Hma, <- Hha, <- andb_true_iff.
  destruct (method_allowed m && forallb (fun h => existsb (str_eqb h) allowed_headers) (header_list (rq_header r $"Access-Control-Request-Headers"))) eqn:Ea.
  - split; [reflexivity|]. intros _.
    assert (cors_preflight r = [($"Vary", $"Origin"); ($"Vary", $"Access-Control-Request-Method"); ($"Vary", $"Access-Control-Request-Headers")] ++
        [($"Access-Control-Allow-Origin", $"*"); ($"Access-Control-Allow-Methods", m)] ++
        match header_list (rq_header r $"Access-Control-Request-Headers") with [] => [] | hs => [($"Access-Control-Allow-Headers", join $", " hs)] end ++
        [($"Access-Control-Allow-Credentials", $"true"); ($"Access-Control-Max-Age", cors_max_age)]) as Ec.
    { unfold cors_preflight. rewrite Ho, Hrm, Ea, (upper_case_id m Hu). destruct origin; [congruence|]. destruct (header_list _); reflexivity. }
    split; [|split].
    + apply mr_any; [reflexivity|]. split; [|intros v; apply star_origin]. rewrite Es. cbn [fst]. apply in_or_app. right. rewrite Ec. apply in_or_app. right. now left.
    + right. split.
      * rewrite Es. cbn [fst]. apply in_or_app. right. rewrite Ec. apply in_or_app. right. right. now left.
      * intros v H. apply Hpre in H; [|cbn; tauto]. rewrite Ec in H. apply in_app_iff in H. destruct H as [H|H]; [cbn [In] in H; intuition discriminate|].
        apply in_app_iff in H. destruct H as [[H|[H|[]]]|H]; [discriminate|now injection H|]. apply in_app_iff in H.
        destruct H as [H|H]; [destruct (header_list _); [destruct H|cbn [In] in H; intuition discriminate]|cbn [In] in H; intuition discriminate].
    + intros n Hin. exists (header_list (rq_header r $"Access-Control-Request-Headers")). rewrite Hrh, (header_list_names names Hn). rewrite Hrh, (header_list_names names Hn) in Ec. split.
      * split.
        { rewrite Es. cbn [fst]. apply in_or_app. right. rewrite Ec. apply in_or_app. right. apply in_or_app. right. apply in_or_app. left.
          destruct names as [|x names]; [destruct Hin|]. now left. }
        { intros v H. apply Hpre in H; [|cbn; tauto]. rewrite Ec in H. apply in_app_iff in H. destruct H as [H|H]; [cbn [In] in H; intuition discriminate|].
          apply in_app_iff in H. destruct H as [H|H]; [cbn [In] in H; intuition discriminate|]. apply in_app_iff in H. destruct H as [H|H]; [|cbn [In] in H; intuition discriminate].
          destruct (map (canonical true) names) eqn:E; [destruct H|]. destruct H as [H|[]]. now injection H. }
      * rewrite map_map. rewrite Forall_forall in Hn. apply in_map_iff. exists n. split; [|exact Hin]. apply canonical_lower. exact (proj2 (Hn n Hin)).
  - split; [|discriminate]. intros [[Hc [Hv _]|[Hv _] _] _]; exfalso; (apply Hpre in Hv; [|cbn; tauto]); unfold cors_preflight in Hv; rewrite Ho, Hrm, Ea in Hv;
      destruct origin; try congruence; rewrite app_nil_r in Hv; cbn [In] in Hv; intuition discriminate.
Qed.
Print Assumptions C148_preflight.

(** A request without a question: any page can switch blocking off (GET), and flush the cache or load the lists again (POST without a body), and sees the answer. *)
Theorem C148_control_refuted : forall origin, origin <> [] -> origin <> $"*" -> forall o, In o [ODisable; OEnable; OFlush; ORefresh] ->
  exists r, from_page origin r /\ In (rq_method r) [$"GET"; $"POST"] /\ (forall n, n <> $"Origin" -> rq_header r n = []) /\
    snd (serve_http ex_routes r) = Routed (Found (HApi o)) /\ may_read origin false (fst (serve_http ex_routes r)).
Proof.
  intros origin Hne Hst o Ho.
  assert (exists m p, In m [$"GET"; $"POST"] /\ find_route ex_routes m p = Found (HApi o) /\ has_prefix p $"/" = true /\ p <> []) as [m [p [Hm [Hf [Hp Hpn]]]]].
  { cbn [In] in Ho. destruct Ho as [<-|[<-|[<-|[<-|[]]]]];
      [exists $"GET", $"/api/blocking/disable"|exists $"GET", $"/api/blocking/enable"|exists $"POST", $"/api/cache/flush"|exists $"POST", $"/api/lists/refresh"];
      repeat split; try reflexivity; try discriminate; cbn; tauto. }
  set (r := {| rq_tls := false; rq_method := m; rq_raw := []; rq_path := p; rq_header := fun n => if str_eqb n $"Origin" then origin else [] |}).
  assert (from_page origin r) as Hfp by (repeat split; assumption).
  exists r. split; [exact Hfp|]. split; [exact Hm|]. split; [|split].
  - intros n Hn. cbn [r rq_header]. now rewrite (str_eqb_neq n _ Hn).
  - unfold serve_http. cbn [r rq_method]. assert (str_eqb m $"OPTIONS" = false) as -> by (destruct Hm as [<-|[<-|[]]]; reflexivity). cbn [andb snd].
    assert (existsb (str_eqb m) known_methods = true) as -> by (destruct Hm as [<-|[<-|[]]]; reflexivity).
    assert (route_path r = p) as Er by (unfold r, route_path; cbn [rq_raw rq_path]; destruct p; [congruence|reflexivity]). fold r. rewrite Er, Hp, Hf. reflexivity.
  - apply C148_read; assumption.
Qed.
Print Assumptions C148_control_refuted.

Example C148_example :
  let r := page_request true $"OPTIONS" $"/dns-query" [($"Origin", $"https://page.example"); ($"Access-Control-Request-Method", $"POST");
    ($"Access-Control-Request-Headers", $"accept,content-type")] in
  asks_for $"https://page.example" $"POST" [$"accept"; $"content-type"] r /\
  In ($"Access-Control-Allow-Headers", $"Accept, Content-Type") (fst (serve_http ex_routes r)) /\
  (let bad := page_request true $"OPTIONS" $"/dns-query" [($"Origin", $"https://page.example"); ($"Access-Control-Request-Method", $"DELETE")] in
   ~ In $"Access-Control-Allow-Origin" (map fst (fst (serve_http ex_routes bad)))) /\
  length (fst (serve_http ex_routes (page_request true $"GET" $"/nothing" []))) = 5.
Proof.
  cbv zeta. split; [|split; [|split]].
  - split; [repeat split; discriminate|]. split; [reflexivity|]. split; [discriminate|]. split; [reflexivity|]. split; [reflexivity|].
    apply Forall_cons; [|apply Forall_cons; [|apply Forall_nil]]; (split; [discriminate|]); apply Forall_forall; intros x Hx; apply name_char_ok; revert x Hx; apply forallb_forall; reflexivity.
  - apply nth_error_In with (n := 9). vm_compute. reflexivity.
  - vm_compute. intros H. repeat (destruct H as [H|H]; [discriminate H|]). destruct H.
  - vm_compute. reflexivity.
Qed.

(** ** C149: the start page and time limits *)

(** Every link on the start page leads to a handler, ... *)
Theorem C149_links : forall c rs link title, http_routes c = Some rs -> In (link, title) (root_links c) -> exists h, find_route rs $"GET" link = Found h.
Proof.
  intros c rs link title Hr Hin.
  assert (exists h, serves c $"GET" link h) as [h Hs]; [|exists h; now apply (C147_table c rs)].
  assert (any_method $"GET") as Hg by (cbn; tauto).
  assert (forall p, In p [$"/dns-query"; $"/dns-query/"] -> exists h, serves c $"GET" p h) as Hd by (intros p Hp; eexists; now apply s_doh_get).
  assert (forall p, is_metrics c p -> exists h, serves c $"GET" p h) as Hmet.
  { intros p Hp. destruct (str_eqb p $"/dns-query") eqn:E1; [apply str_eqb_eq in E1; apply Hd; rewrite E1; cbn; tauto|].
    destruct (str_eqb p $"/dns-query/") eqn:E2; [apply str_eqb_eq in E2; apply Hd; rewrite E2; cbn; tauto|].
    exists HMetrics. apply s_metrics; auto. intros [_ [H|[H|[]]]]; rewrite <- H in *; [rewrite str_eqb_refl in E1|rewrite str_eqb_refl in E2]; discriminate. }
  assert (forall p, is_metrics c p \/ ~ is_metrics c p) as Hdec by (intros p; rewrite <- metrics_here_iff; destruct (metrics_here c p); [now left|right; discriminate]).
  unfold root_links in Hin. apply in_app_iff in Hin. destruct Hin as [[H|[H|[H|[]]]]|H].
  - injection H as <- _. destruct (Hdec $"/docs/openapi.yaml") as [Hm|Hm]; [now apply Hmet|]. exists HDocs. now apply s_docs.
  - injection H as <- _. destruct (Hdec $"/static/rapidoc.html") as [Hm|Hm]; [now apply Hmet|]. exists (HStatic $"rapidoc.html"). apply (s_static c $"GET" $"rapidoc.html"); assumption.
  - injection H as <- _. destruct (Hdec $"/debug/") as [Hm|Hm]; [now apply Hmet|]. exists (HDebug []). apply (s_debug c $"GET" []); assumption.
  - destruct (mc_enable c) eqn:E; [|destruct H]. destruct H as [H|[]]. injection H as <- _. apply Hmet. now split.
Qed.
Print Assumptions C149_links.

(** ... the one to the metrics to the metrics, and it is there only if they are enabled, unless their path is that of DNS queries. *)
Theorem C149_metrics_link : forall c rs, http_routes c = Some rs -> ~ In (mc_path c) [$"/dns-query"; $"/dns-query/"] ->
  (mc_enable c = true -> In (mc_path c, $"Prometheus endpoint") (root_links c) /\ find_route rs $"GET" (mc_path c) = Found HMetrics) /\
  (mc_enable c = false -> forall link, ~ In (link, $"Prometheus endpoint") (root_links c)).
Proof.
  intros c rs Hr Hd. split; intros E.
  - split; [unfold root_links; rewrite E; cbn; tauto|]. apply (C147_table c rs); [exact Hr|]. constructor; [cbn; tauto|now split|]. now intros [_ H].
  - intros link H. unfold root_links in H. rewrite E, app_nil_r in H. cbn [In] in H. intuition discriminate.
Qed.
Print Assumptions C149_metrics_link.

(** The three documented time limits for reading and writing of downloads change nothing about downloads; they limit the requests to the HTTP server. *)
Theorem C149_limits_refuted : forall d read header write,
  let d' := {| dc_timeout := dc_timeout d; dc_read := read; dc_read_header := header; dc_write := write; dc_attempts := dc_attempts d; dc_cooldown := dc_cooldown d |} in
  downloader_limits d' = downloader_limits d /\ http_server_limits d' = {| hm_read := read; hm_read_header := header; hm_write := write |}.
Proof. intros; split; reflexivity. Qed.
Print Assumptions C149_limits_refuted.

Example C149_example : map fst (root_links ex_metrics) = [$"/docs/openapi.yaml"; $"/static/rapidoc.html"; $"/debug/"; $"/metrics"] /\
  map (find_route ex_routes $"GET") (map fst (root_links ex_metrics)) = [Found HDocs; Found (HStatic $"rapidoc.html"); Found (HDebug []); Found HMetrics].
Proof. split; reflexivity. Qed.
