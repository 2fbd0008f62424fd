(** Theorems about the listeners of the server and its life. *)
From Coq Require Import String Ascii List Arith Bool NArith Lia.
From Verif Require Import Str StrFacts ConfUpstream Serve.
Import ListNotations.

(** ** C131: listeners *)

Section Listeners.
Context {C : Type}.
Variable load_pair : str -> str -> option C.
Variable generate : option C.
Variable listen : list str -> str -> bool.

(** The certificate: made by the program iff no file is configured. *)
Definition certificate_of (cert key : str) (c : C) : Prop :=
  (cert = [] /\ key = [] /\ generate = Some c) \/ ((cert <> [] \/ key <> []) /\ load_pair cert key = Some c).
Definition encrypted (p : ports) : Prop := p_https p <> [] \/ p_tls p <> [].
(** All addresses for HTTP can be opened, one after the other. *)
Definition can_open (addrs : list str) : Prop :=
  forall before a after, addrs = before ++ a :: after -> listen (rev before) a = true.

Lemma tcp_listeners_spec : forall addrs opened,
  match tcp_listeners listen opened addrs with
  | Some l => l = addrs /\ forall before a after, addrs = before ++ a :: after -> listen (rev before ++ opened) a = true
  | None => exists before a after, addrs = before ++ a :: after /\ listen (rev before ++ opened) a = false
  end.
Proof.
  induction addrs as [|a addrs IH]; intros opened; cbn [tcp_listeners].
  - split; [reflexivity|]. intros [|] ? ? ?; discriminate.
  - destruct (listen opened a) eqn:E; [|exists [], a, addrs; auto].
    specialize (IH (a :: opened)). destruct (tcp_listeners listen (a :: opened) addrs) as [l|].
    + destruct IH as [-> H]. split; [reflexivity|]. intros [|b before] a' after Heq; injection Heq as <- ->; [exact E|].
      cbn. rewrite <- app_assoc. now apply (H before a' after).
    + destruct IH as (before & a' & after & -> & H). exists (a :: before), a', after. split; [reflexivity|].
      cbn. now rewrite <- app_assoc.
Qed.

Lemma retrieve_spec cert key :
  match retrieve_certificate load_pair generate cert key with
  | Some c => certificate_of cert key c
  | None => forall c, ~ certificate_of cert key c
  end.
Proof.
  unfold retrieve_certificate, certificate_of. destruct cert as [|x cert]; [destruct key as [|y key]|].
  - destruct generate; [left; auto|]. intros c [(_ & _ & H)|[[H|H] _]]; congruence.
  - destruct (load_pair [] (y :: key)) eqn:E; [right; split; [right; discriminate|reflexivity]|].
    intros c [(_ & H & _)|[_ H]]; congruence.
  - destruct (load_pair (x :: cert) key) eqn:E; [right; split; [left; discriminate|reflexivity]|].
    intros c [(H & _ & _)|[_ H]]; congruence.
Qed.

Definition on (n : network) (ds : list (dns_server C)) : list str :=
  map ds_addr (filter (fun d => match n, ds_net d with NUdp, NUdp | NTcp, NTcp | NTls, NTls => true | _, _ => false end) ds).
Definition plain_http (hs : list (http_listener C)) : list str :=
  map hl_addr (filter (fun h => match hl_cert h with None => true | Some _ => false end) hs).
Definition tls_http (hs : list (http_listener C)) : list str :=
  map hl_addr (filter (fun h => match hl_cert h with None => false | Some _ => true end) hs).

Lemma filter_map_const {A B} (f : A -> B) (P : B -> bool) (l : list A) (b : bool) : (forall x, P (f x) = b) ->
  filter P (map f l) = if b then map f l else [].
Proof.
  intros H. induction l as [|x l IH]; [now destruct b|]. cbn. rewrite H, IH. now destruct b.
Qed.

(** A server that starts listens on exactly the configured addresses: UDP and TCP on each DNS address, TLS on each TLS
    address, HTTP without TLS on each HTTP address, with TLS on each HTTPS address; everything encrypted has the one certificate. *)
Theorem C131_listeners : forall p cert key rest ds hs, new_server load_pair generate listen p cert key rest = Some (ds, hs) ->
  on NUdp ds = p_dns p /\ on NTcp ds = p_dns p /\ on NTls ds = p_tls p /\
  plain_http hs = p_http p /\ tls_http hs = p_https p /\
  (forall d, In d ds -> ds_net d = NTls -> exists c, ds_cert d = Some c /\ certificate_of cert key c) /\
  (forall h c, In h hs -> hl_cert h = Some c -> certificate_of cert key c).
Proof.
  intros p cert key rest ds hs H. unfold new_server in H.
  set (need := match p_https p with [] => match p_tls p with [] => false | _ :: _ => true end | _ :: _ => true end) in H.
  assert (exists tls : option C, http_listeners listen p tls = Some (map (fun a => {| hl_addr := a; hl_cert := None |}) (p_http p), map (fun a => {| hl_addr := a; hl_cert := tls |}) (p_https p)) /\
            ds = create_servers p tls /\ hs = map (fun a => {| hl_addr := a; hl_cert := None |}) (p_http p) ++ map (fun a => {| hl_addr := a; hl_cert := tls |}) (p_https p) /\
            match tls with Some c => certificate_of cert key c | None => p_https p = [] /\ p_tls p = [] end) as (tls & _ & -> & -> & Ht).
  { assert (G : forall tls : option C, http_listeners listen p tls = None \/ http_listeners listen p tls =
      Some (map (fun a => {| hl_addr := a; hl_cert := None |}) (p_http p), map (fun a => {| hl_addr := a; hl_cert := tls |}) (p_https p))).
    { intros tls. unfold http_listeners. pose proof (tcp_listeners_spec (p_http p) []) as H1.
      destruct (tcp_listeners listen [] (p_http p)) as [l|]; [|auto]. destruct H1 as [-> _].
      pose proof (tcp_listeners_spec (p_https p) (rev (p_http p))) as H2.
      destruct (tcp_listeners listen (rev (p_http p)) (p_https p)) as [l2|]; [|auto]. destruct H2 as [-> _]. auto. }
    destruct need eqn:En.
    - pose proof (retrieve_spec cert key) as Hc. destruct (retrieve_certificate _ _ _ _) as [c|]; [|discriminate].
      destruct (G (Some c)) as [E|E]; rewrite E in H; [discriminate|]. destruct rest; [|discriminate]. injection H as <- <-. eauto 8.
    - destruct (G None) as [E|E]; rewrite E in H; [discriminate|]. destruct rest; [|discriminate]. injection H as <- <-.
      exists None. repeat split; auto; subst need; destruct (p_https p), (p_tls p); congruence. }
  unfold on, plain_http, tls_http, create_servers. rewrite !filter_app.
  assert (Hf : forall n f b, (forall x, (fun d : dns_server C => match n, ds_net d with NUdp, NUdp | NTcp, NTcp | NTls, NTls => true | _, _ => false end) (f x) = b) ->
     forall l : list str, filter (fun d => match n, ds_net d with NUdp, NUdp | NTcp, NTcp | NTls, NTls => true | _, _ => false end) (map f l) = if b then map f l else []).
  { intros n f b Hx l. now apply filter_map_const. }
  split; [rewrite (Hf NUdp _ true), !(Hf NUdp _ false) by reflexivity; rewrite !app_nil_r, map_map; apply map_id|].
  split; [rewrite (Hf NTcp _ false), (Hf NTcp _ true), (Hf NTcp _ false) by reflexivity; rewrite app_nil_r; cbn [app]; rewrite map_map; apply map_id|].
  split; [rewrite !(Hf NTls _ false), (Hf NTls _ true) by reflexivity; cbn [app]; rewrite map_map; apply map_id|].
  split.
  { rewrite (filter_map_const _ _ (p_http p) true) by reflexivity. destruct tls as [c|].
    - rewrite (filter_map_const _ _ (p_https p) false) by reflexivity. rewrite app_nil_r, map_map. apply map_id.
    - destruct Ht as [-> _]. cbn [map filter]. rewrite app_nil_r, map_map. apply map_id. }
  split.
  { rewrite (filter_map_const _ _ (p_http p) false) by reflexivity. destruct tls as [c|].
    - rewrite (filter_map_const _ _ (p_https p) true) by reflexivity. cbn [app]. rewrite map_map. apply map_id.
    - destruct Ht as [-> _]. reflexivity. }
  split.
  - intros d Hd Hn. rewrite !in_app_iff, !in_map_iff in Hd. destruct Hd as [(a & <- & _)|[(a & <- & _)|(a & <- & Ha)]]; try discriminate.
    destruct tls as [c|]; [cbn; eauto|]. destruct Ht as [_ Ht]. rewrite Ht in Ha. destruct Ha.
  - intros h c Hh Hc. rewrite in_app_iff, !in_map_iff in Hh. destruct Hh as [(a & <- & _)|(a & <- & _)]; cbn in Hc; [discriminate|].
    subst tls. exact Ht.
Qed.

(** It starts iff it has a certificate where one is needed, all HTTP addresses can be opened, and the rest can be made. *)
Theorem C131_starts : forall p cert key rest,
  (exists s, new_server load_pair generate listen p cert key rest = Some s) <->
  (encrypted p -> exists c, certificate_of cert key c) /\ can_open (p_http p ++ p_https p) /\ rest = true.
Proof.
  intros p cert key rest.
  assert (G : forall tls : option C, (exists x, http_listeners listen p tls = Some x) <-> can_open (p_http p ++ p_https p)).
  { intros tls. unfold http_listeners. pose proof (tcp_listeners_spec (p_http p) []) as H1.
    destruct (tcp_listeners listen [] (p_http p)) as [l|].
    2:{ destruct H1 as (b & a & af & E & H). split; [intros [x Hx]; discriminate|]. intros Ho. exfalso.
        rewrite E in Ho. specialize (Ho b a (af ++ p_https p)). rewrite app_nil_r in H. rewrite Ho in H; [discriminate|]. now rewrite <- app_assoc. }
    destruct H1 as [-> H1]. pose proof (tcp_listeners_spec (p_https p) (rev (p_http p))) as H2.
    destruct (tcp_listeners listen (rev (p_http p)) (p_https p)) as [l2|].
    2:{ destruct H2 as (b & a & af & E & H). split; [intros [x Hx]; discriminate|]. intros Ho. exfalso.
        rewrite E in Ho. specialize (Ho (p_http p ++ b) a af). rewrite rev_app_distr in Ho. rewrite Ho in H; [discriminate|]. now rewrite <- app_assoc. }
    destruct H2 as [-> H2]. split; [|eauto]. intros _ before a after E.
    destruct (Nat.lt_ge_cases (length before) (length (p_http p))) as [Hl|Hl].
    - destruct (app_eq_app _ _ _ _ E) as [z [[E1 E2]|[E1 E2]]].
      + destruct z as [|z0 z]; [rewrite E1, app_nil_r in Hl; lia|]. cbn in E2. injection E2 as -> E2.
        specialize (H1 before z0 z E1). now rewrite app_nil_r in H1.
      + rewrite E1, app_length in Hl. lia.
    - destruct (app_eq_app _ _ _ _ E) as [z [[E1 E2]|[E1 E2]]].
      + assert (z = []) as -> by (rewrite E1, app_length in Hl; destruct z; [auto|cbn in Hl; lia]).
        rewrite app_nil_r in E1. cbn in E2. rewrite <- E1. specialize (H2 [] a after (eq_sym E2)). exact H2.
      + specialize (H2 z a after E2). rewrite E1, rev_app_distr. exact H2. }
  unfold new_server.
  set (need := match p_https p with [] => match p_tls p with [] => false | _ :: _ => true end | _ :: _ => true end).
  assert (Hn : need = true <-> encrypted p).
  { unfold need, encrypted. destruct (p_https p), (p_tls p); split; intros H; try (destruct H; congruence); try discriminate; auto; [right|left|left]; discriminate. }
  assert (R : forall tls : option C, (exists s, match http_listeners listen p tls with Some (hs, ss) => if rest then Some (create_servers p tls, hs ++ ss) else None | None => None end = Some s)
     <-> can_open (p_http p ++ p_https p) /\ rest = true).
  { intros tls. rewrite <- (G tls). destruct (http_listeners listen p tls) as [[hs ss]|], rest; split.
    all: first [intros [s Hs]; discriminate|intros [[x Hx] ?]; discriminate|intros _; split; eauto; fail|intros _; eauto; fail|idtac]. }
  destruct need.
  - pose proof (retrieve_spec cert key) as Hc. destruct (retrieve_certificate _ _ _ _) as [c|].
    + rewrite (R (Some c)). split; [intros [H1 H2]; repeat split; eauto|intros (_ & H1 & H2); auto].
    + split; [intros [s Hs]; discriminate|]. intros (H & _). destruct (H (proj1 Hn eq_refl)) as [c Hx]. now elim (Hc c).
  - rewrite (R None). split; [intros [H1 H2]; repeat split; auto; intros He; apply Hn in He; discriminate|intros (_ & H1 & H2); auto].
Qed.
End Listeners.
Print Assumptions C131_listeners.
Print Assumptions C131_starts.

(** Without encrypted addresses the certificate files are not looked at. *)
Theorem C131_plain : forall C (load load' : str -> str -> option C) gen gen' listen p cert key cert' key' rest,
  p_https p = [] -> p_tls p = [] ->
  new_server load gen listen p cert key rest = new_server load' gen' listen p cert' key' rest.
Proof. intros C load load' gen gen' listen p cert key cert' key' rest H1 H2. unfold new_server. now rewrite H1, H2. Qed.
Print Assumptions C131_plain.

Definition ex_ports : ports := {| p_dns := listen_addresses $"53,[::1]:53"; p_http := listen_addresses $"4000"; p_https := listen_addresses $"443"; p_tls := listen_addresses $"853" |}.
Definition ex_load (c k : str) : option nat := if str_eqb c $"cert.pem" && str_eqb k $"key.pem" then Some 7 else None.
Example C131_cases :
  option_map (fun s => (map (fun d => (ds_net d, ds_addr d, ds_cert d)) (fst s), map (fun h => (hl_addr h, hl_cert h)) (snd s)))
    (new_server ex_load (Some 1) (fun _ _ => true) ex_ports $"cert.pem" $"key.pem" true) =
    Some ([(NUdp, $":53", None); (NUdp, $"[::1]:53", None); (NTcp, $":53", None); (NTcp, $"[::1]:53", None); (NTls, $":853", Some 7)],
          [($":4000", None); ($":443", Some 7)]) /\
  option_map (fun s => map (fun d => ds_cert d) (fst s)) (new_server ex_load (Some 1) (fun _ _ => true) ex_ports [] [] true) = Some [None; None; None; None; Some 1] /\
  new_server ex_load (Some 1) (fun _ _ => true) ex_ports $"cert.pem" [] true = None /\
  new_server ex_load (Some 1) (fun o a => negb (str_eqb a $":443")) ex_ports [] [] true = None.
Proof. repeat split; vm_compute; reflexivity. Qed.

(** An empty text for an address does not mean "no listener": a listener for the address ":" (any free port) is opened. *)
Theorem C131_empty_text_refuted : exists (p : ports) ds hs, p_http p = listen_addresses [] /\
  new_server (fun _ _ => None) (@None nat) (fun _ _ => true) p [] [] true = Some (ds, hs) /\ map hl_addr hs = [$":"].
Proof.
  exists {| p_dns := [$":53"]; p_http := listen_addresses []; p_https := []; p_tls := [] |}.
  do 2 eexists. split; [reflexivity|]. split; [vm_compute; reflexivity|reflexivity].
Qed.
Print Assumptions C131_empty_text_refuted.

(** ** C132: the life of the process *)

(** Did one of the servers fail? *)
Definition failed (p : process) : Prop := In Failed (pr_dns p) \/ In Failed (pr_http p).

Lemma in_replace {A} (l : list A) i (x y : A) : In x (replace l i y) -> x = y \/ In x l.
Proof.
  revert i; induction l as [|z l IH]; intros [|i]; cbn; auto; intros [H|H]; auto.
  destruct (IH i H); auto.
Qed.
Lemma in_replace_same {A} (l : list A) i (y : A) : i < length l -> In y (replace l i y).
Proof.
  revert i; induction l as [|z l IH]; intros [|i] H; cbn in *; try lia; auto. right. apply IH. lia.
Qed.
Lemma in_replace_other {A} (l : list A) i (x y z : A) : In x l -> nth_error l i = Some z -> z <> x -> In x (replace l i y).
Proof.
  revert i; induction l as [|w l IH]; intros [|i] H E Hz; cbn in *; try discriminate.
  - injection E as ->. destruct H; [congruence|auto].
  - destruct H; [auto|right; eauto].
Qed.
Lemma replace_length {A} (l : list A) i (y : A) : length (replace l i y) = length l.
Proof. revert i; induction l as [|z l IH]; intros [|i]; cbn; auto. Qed.
Lemma nth_replace {A} (l : list A) i j (y : A) : nth_error (replace l i y) j = if (i =? j) && (i <? length l) then Some y else nth_error l j.
Proof.
  revert i j; induction l as [|z l IH]; intros [|i] [|j]; cbn [replace nth_error length Nat.eqb andb]; auto.
  - rewrite andb_false_r. reflexivity.
  - rewrite IH. change (S i <? S (length l)) with (i <? length l). reflexivity.
Qed.

(** Facts about one goroutine. *)
Lemma start_one_spec l i ok : let '(l', n) := start_one l i ok in
  length l' = length l /\ (In Failed l -> In Failed l') /\ (n = 0 /\ (In Failed l' -> In Failed l) \/ n = 1 /\ In Failed l').
Proof.
  unfold start_one. destruct (nth_error l i) as [[| | |]|] eqn:E; try (repeat split; auto; left; split; auto; fail).
  assert (Hi : i < length l) by (apply nth_error_Some; congruence).
  destruct ok; rewrite replace_length; (split; [reflexivity|]).
  - split; [intros H; eapply in_replace_other; eauto; discriminate|]. left. split; [reflexivity|].
    intros H. apply in_replace in H. destruct H; [discriminate|auto].
  - pose proof (in_replace_same l i Failed Hi). auto.
Qed.
Lemma break_one_spec l i : let '(l', n) := break_one l i in
  length l' = length l /\ (In Failed l -> In Failed l') /\ (n = 0 /\ (In Failed l' -> In Failed l) \/ n = 1 /\ In Failed l').
Proof.
  unfold break_one. destruct (nth_error l i) as [[| | |]|] eqn:E; try (repeat split; auto; left; split; auto; fail).
  assert (Hi : i < length l) by (apply nth_error_Some; congruence).
  rewrite replace_length. split; [reflexivity|]. pose proof (in_replace_same l i Failed Hi). auto.
Qed.

(** The invariant: errors are queued iff a server failed, as long as none was taken. *)
Definition proc_inv (signalled : Prop) (p : process) : Prop :=
  match pr_ctl p with
  | Waiting => (failed p <-> pr_errs p <> 0) /\ (pr_signal p = true -> signalled)
  | Stopping k => signalled /\ k <= length (pr_dns p)
  | Ended true => failed p
  | Ended false => signalled
  end.

Lemma proc_step_inv (sg sg' : Prop) m p : proc_inv sg p -> (sg -> sg') -> (m = MSignal -> sg') -> proc_inv sg' (proc_step m p).
Proof.
  intros H Hs Hm. unfold proc_inv, proc_step, failed in *. destruct (pr_ctl p) as [|k|e] eqn:Ec.
  - destruct H as [H1 H2]. destruct m as [[|] i ok|[|] i| |[|]|ok].
    + pose proof (start_one_spec (pr_dns p) i ok) as Hx. destruct (start_one _ _ _) as [l n]. cbn. rewrite ?Ec.
      destruct Hx as (_ & Hk & [[-> Hb]|[-> Hb]]); (split; [|auto]); rewrite ?Nat.add_0_r; split; intros Hf.
      * apply H1. destruct Hf; auto.
      * apply H1 in Hf. destruct Hf; auto.
      * lia.
      * auto.
    + pose proof (start_one_spec (pr_http p) i ok) as Hx. destruct (start_one _ _ _) as [l n]. cbn. rewrite ?Ec.
      destruct Hx as (_ & Hk & [[-> Hb]|[-> Hb]]); (split; [|auto]); rewrite ?Nat.add_0_r; split; intros Hf.
      * apply H1. destruct Hf; auto.
      * apply H1 in Hf. destruct Hf; auto.
      * lia.
      * auto.
    + pose proof (break_one_spec (pr_dns p) i) as Hx. destruct (break_one _ _) as [l n]. cbn. rewrite ?Ec.
      destruct Hx as (_ & Hk & [[-> Hb]|[-> Hb]]); (split; [|auto]); rewrite ?Nat.add_0_r; split; intros Hf.
      * apply H1. destruct Hf; auto.
      * apply H1 in Hf. destruct Hf; auto.
      * lia.
      * auto.
    + pose proof (break_one_spec (pr_http p) i) as Hx. destruct (break_one _ _) as [l n]. cbn. rewrite ?Ec.
      destruct Hx as (_ & Hk & [[-> Hb]|[-> Hb]]); (split; [|auto]); rewrite ?Nat.add_0_r; split; intros Hf.
      * apply H1. destruct Hf; auto.
      * apply H1 in Hf. destruct Hf; auto.
      * lia.
      * auto.
    + cbn. rewrite ?Ec. auto.
    + destruct (pr_signal p) eqn:Es; cbn; [split; [auto|lia]|]. rewrite ?Ec, Es. split; [auto|discriminate].
    + destruct (pr_errs p) eqn:Ee; cbn.
      * rewrite ?Ec, Ee. auto.
      * apply H1. lia.
    + rewrite ?Ec. auto.
  - destruct H as [H1 H2]. destruct m as [[|] i ok|[|] i| |[|]|ok].
    + pose proof (start_one_spec (pr_dns p) i ok) as Hx. destruct (start_one _ _ _) as [l n]. cbn. rewrite ?Ec. destruct Hx as (-> & _). auto.
    + destruct (start_one _ _ _) as [l n]. cbn. rewrite ?Ec. auto.
    + pose proof (break_one_spec (pr_dns p) i) as Hx. destruct (break_one _ _) as [l n]. cbn. rewrite ?Ec. destruct Hx as (-> & _). auto.
    + destruct (break_one _ _) as [l n]. cbn. rewrite ?Ec. auto.
    + cbn. rewrite ?Ec. auto.
    + cbn. rewrite ?Ec. auto.
    + cbn. rewrite ?Ec. auto.
    + destruct (nth_error (pr_dns p) k) as [st|] eqn:En; [|cbn; auto].
      assert (k < length (pr_dns p)) by (apply nth_error_Some; congruence).
      destruct st; cbn; auto; [rewrite replace_length; auto|]. destruct ok; cbn; auto.
  - rewrite ?Ec. destruct e; auto.
Qed.

Lemma proc_run_inv dns http ms : proc_inv (In MSignal ms) (proc_run dns http ms).
Proof.
  unfold proc_run. induction ms as [|m ms IH] using rev_ind.
  - cbn. unfold proc_inv, failed. cbn. split; [|discriminate]. split; [|congruence].
    intros [H|H]; apply repeat_spec in H; discriminate.
  - rewrite fold_left_app. cbn [fold_left]. apply (proc_step_inv _ _ _ _ IH).
    + intros H. apply in_app_iff. auto.
    + intros ->. apply in_app_iff. right. now left.
Qed.

(** The program ends only after a signal or because a server failed: with an error only if a server failed, without one only after
    a signal. *)
Theorem C132_reason : forall dns http ms,
  match pr_ctl (proc_run dns http ms) with
  | Waiting => True
  | Stopping _ | Ended false => In MSignal ms
  | Ended true => failed (proc_run dns http ms)
  end.
Proof.
  intros dns http ms. pose proof (proc_run_inv dns http ms) as H. unfold proc_inv in H.
  destruct (pr_ctl _) as [| |[|]]; tauto.
Qed.
Print Assumptions C132_reason.

(** A server that fails is always noticed: the program is ending already, or the select can take the error and ends it with one.  As long as no server
    fails and no signal comes, it does not end. *)
Theorem C132_noticed : forall dns http ms, let p := proc_run dns http ms in
  (failed p -> pr_ctl p = Waiting -> pr_ctl (proc_step (MSelect false) p) = Ended true) /\
  (~ failed p -> ~ In MSignal ms -> pr_ctl p = Waiting /\ pr_ctl (proc_step (MSelect false) p) = Waiting /\ pr_ctl (proc_step (MSelect true) p) = Waiting).
Proof.
  intros dns http ms p. pose proof (proc_run_inv dns http ms) as H. fold p in H. clearbody p. unfold proc_inv in H. split.
  - intros Hf Hw. rewrite Hw in H. apply H in Hf. unfold proc_step. rewrite Hw. destruct (pr_errs p); [congruence|reflexivity].
  - intros Hf Hs. destruct (pr_ctl p) as [| |[|]] eqn:Ec; try tauto. split; [reflexivity|]. destruct H as [H1 H2].
    assert (pr_errs p = 0) as E0 by (destruct (Nat.eq_dec (pr_errs p) 0); tauto).
    assert (pr_signal p = false) as Es by (destruct (pr_signal p); tauto).
    unfold proc_step. cbn [pr_ctl]. rewrite ?Ec, ?E0, ?Es. cbn. rewrite ?Ec. auto.
Qed.
Print Assumptions C132_noticed.

(** Stopping comes to an end: after a signal is taken, one step of Stop for each DNS server and one more are enough, whatever else happens
    in between. *)
Definition left_of (p : process) : nat := match pr_ctl p with Stopping k => S (length (pr_dns p) - k) | _ => 0 end.

Lemma left_step m p : (forall k, pr_ctl p = Stopping k -> k <= length (pr_dns p)) -> pr_ctl p <> Waiting ->
  left_of (proc_step m p) <= left_of p - match m with MStop _ => 1 | _ => 0 end /\ pr_ctl (proc_step m p) <> Waiting /\
  (forall k, pr_ctl (proc_step m p) = Stopping k -> k <= length (pr_dns (proc_step m p))).
Proof.
  intros Hk Hw. unfold proc_step, left_of. destruct (pr_ctl p) as [|k|e] eqn:Ec; [congruence| |rewrite ?Ec; repeat split; [lia|discriminate|discriminate]].
  specialize (Hk k eq_refl). destruct m as [[|] i ok|[|] i| |[|]|ok].
  1:{ pose proof (start_one_spec (pr_dns p) i ok) as Hx. destruct (start_one _ _ _) as [l n]. cbn. rewrite ?Ec. destruct Hx as (-> & _).
      repeat split; [lia|discriminate|]. intros k' E. injection E as <-. exact Hk. }
  1:{ destruct (start_one _ _ _) as [l n]. cbn. rewrite ?Ec. repeat split; [lia|discriminate|]. intros k' E. injection E as <-. exact Hk. }
  1:{ pose proof (break_one_spec (pr_dns p) i) as Hx. destruct (break_one _ _) as [l n]. cbn. rewrite ?Ec. destruct Hx as (-> & _).
      repeat split; [lia|discriminate|]. intros k' E. injection E as <-. exact Hk. }
  1:{ destruct (break_one _ _) as [l n]. cbn. rewrite ?Ec. repeat split; [lia|discriminate|]. intros k' E. injection E as <-. exact Hk. }
  1-3: cbn; rewrite ?Ec; repeat split; [lia|discriminate|]; intros k' E; injection E as <-; exact Hk.
  destruct (nth_error (pr_dns p) k) as [st|] eqn:En; [|cbn; repeat split; [lia|discriminate|discriminate]].
  assert (k < length (pr_dns p)) by (apply nth_error_Some; congruence).
  destruct st; cbn [pr_ctl pr_dns]; try (repeat split; [lia|discriminate|discriminate]).
  - rewrite replace_length. repeat split; [lia|discriminate|]. intros k' E. injection E as <-. lia.
  - destruct ok; cbn [pr_ctl pr_dns]; repeat split; try discriminate; try lia. intros k' E. injection E as <-. lia.
Qed.

Theorem C132_stops : forall dns http ms ms', pr_ctl (proc_run dns http ms) <> Waiting ->
  length (filter (fun m => match m with MStop _ => true | _ => false end) ms') > dns ->
  exists e, pr_ctl (proc_run dns http (ms ++ ms')) = Ended e.
Proof.
  intros dns http ms ms' Hw Hn. unfold proc_run in *. rewrite fold_left_app.
  pose proof (proc_run_inv dns http ms) as Hi. unfold proc_run in Hi. set (p := fold_left _ ms _) in *.
  assert (Hl : length (pr_dns p) = dns).
  { unfold p. clear. induction ms as [|m ms IH] using rev_ind; [apply repeat_length|]. rewrite fold_left_app. cbn [fold_left]. rewrite <- IH at 2.
    set (p := fold_left _ ms _). unfold proc_step. destruct (pr_ctl p) as [|k|e]; [| |reflexivity].
    - destruct m as [[|] i ok|[|] i| |[|]|ok]; cbn; auto.
      + pose proof (start_one_spec (pr_dns p) i ok) as Hx. destruct (start_one _ _ _) as [l n]. apply Hx.
      + now destruct (start_one _ _ _).
      + pose proof (break_one_spec (pr_dns p) i) as Hx. destruct (break_one _ _) as [l n]. apply Hx.
      + now destruct (break_one _ _).
      + now destruct (pr_signal p).
      + now destruct (pr_errs p).
    - destruct m as [[|] i ok|[|] i| |[|]|ok]; cbn; auto.
      + pose proof (start_one_spec (pr_dns p) i ok) as Hx. destruct (start_one _ _ _) as [l n]. apply Hx.
      + now destruct (start_one _ _ _).
      + pose proof (break_one_spec (pr_dns p) i) as Hx. destruct (break_one _ _) as [l n]. apply Hx.
      + now destruct (break_one _ _).
      + destruct (nth_error (pr_dns p) k) as [[| | |]|]; cbn; auto; [apply replace_length|]. now destruct ok. }
  assert (Hk : forall k, pr_ctl p = Stopping k -> k <= length (pr_dns p)).
  { intros k E. unfold proc_inv in Hi. rewrite E in Hi. apply Hi. }
  assert (Hle : left_of p <= S dns).
  { unfold left_of. destruct (pr_ctl p); lia. }
  clear Hi Hl.
  assert (forall l p, (forall k, pr_ctl p = Stopping k -> k <= length (pr_dns p)) -> pr_ctl p <> Waiting ->
     left_of (fold_left (fun p m => proc_step m p) l p) <= left_of p - length (filter (fun m => match m with MStop _ => true | _ => false end) l) /\
     pr_ctl (fold_left (fun p m => proc_step m p) l p) <> Waiting) as G.
  { clear. induction l as [|m l IH]; intros p Hk Hw; [cbn; split; [lia|exact Hw]|].
    cbn [fold_left]. destruct (left_step m p Hk Hw) as (H1 & H2 & H3). destruct (IH _ H3 H2) as [H4 H5]. split; [|exact H5].
    destruct m; cbn [filter length]; lia. }
  destruct (G ms' p Hk Hw) as [H1 H2].
  assert (left_of (fold_left (fun p m => proc_step m p) ms' p) = 0) as H0 by lia.
  unfold left_of in H0. destruct (pr_ctl (fold_left _ ms' p)) as [|k|e]; [congruence|discriminate|eauto].
Qed.
Print Assumptions C132_stops.

(** When the signal is taken while all DNS servers serve, each of them is shut down before the program ends. *)
Theorem C132_graceful : forall p oks, pr_ctl p = Waiting -> pr_signal p = true -> Forall (eq Up) (pr_dns p) ->
  length oks = S (length (pr_dns p)) ->
  let p' := fold_left (fun p m => proc_step m p) (MSelect true :: map MStop oks) p in
  pr_ctl p' = Ended false /\ pr_dns p' = repeat Stopped (length (pr_dns p)).
Proof.
  intros p oks Hw Hs Hu Hl.
  assert (E : proc_step (MSelect true) p = {| pr_dns := pr_dns p; pr_http := pr_http p; pr_errs := pr_errs p; pr_signal := false; pr_ctl := Stopping 0 |}).
  { unfold proc_step. now rewrite Hw, Hs. }
  cbn [fold_left]. rewrite E. clear E.
  assert (G : forall todo oks done_ http errs sg, Forall (eq Up) todo -> length oks = S (length todo) ->
    let p' := fold_left (fun p m => proc_step m p) (map MStop oks)
      {| pr_dns := repeat Stopped done_ ++ todo; pr_http := http; pr_errs := errs; pr_signal := sg; pr_ctl := Stopping done_ |} in
    pr_ctl p' = Ended false /\ pr_dns p' = repeat Stopped (done_ + length todo)).
  { clear. induction todo as [|x todo IH]; intros oks d http errs sg Hu Hl.
    - destruct oks as [|o [|o' oks]]; try discriminate. cbn [map fold_left]. unfold proc_step. cbn [pr_ctl pr_dns].
      assert (nth_error (repeat Stopped d ++ []) d = None) as ->.
      { apply nth_error_None. rewrite app_length, repeat_length. cbn. lia. }
      cbn. rewrite app_nil_r, Nat.add_0_r. auto.
    - destruct oks as [|o oks]; [discriminate|]. inversion Hu as [|? ? Hx Hu']; subst.
      assert (E : proc_step (MStop o) {| pr_dns := repeat Stopped d ++ Up :: todo; pr_http := http; pr_errs := errs; pr_signal := sg; pr_ctl := Stopping d |} =
        {| pr_dns := replace (repeat Stopped d ++ Up :: todo) d Stopped; pr_http := http; pr_errs := errs; pr_signal := sg; pr_ctl := Stopping (S d) |}).
      { unfold proc_step. cbn [pr_ctl pr_dns pr_http pr_errs pr_signal].
        rewrite nth_error_app2 by (rewrite repeat_length; lia). rewrite repeat_length, Nat.sub_diag. reflexivity. }
      cbn [map fold_left]. rewrite E. clear E.
      assert (replace (repeat Stopped d ++ Up :: todo) d Stopped = repeat Stopped (S d) ++ todo) as ->.
      { clear. induction d as [|d IH]; [reflexivity|]. cbn [repeat app replace] in *. now rewrite IH. }
      replace (d + length (Up :: todo)) with (S d + length todo) by (cbn; lia). apply IH; [exact Hu'|]. cbn in Hl. lia. }
  exact (G (pr_dns p) oks 0 (pr_http p) (pr_errs p) false Hu Hl).
Qed.
Print Assumptions C132_graceful.

(** But a DNS server whose goroutine has not opened its socket when the signal comes makes Stop give up: the servers behind it are not shut down. *)
Theorem C132_stop_refuted : exists ms, In MSignal ms /\ let p := proc_run 2 0 ms in pr_ctl p = Ended false /\ pr_dns p = [Idle; Up] /\
  proc_step (MStop true) p = p.
Proof.
  exists [MStart true 1 true; MSignal; MSelect true; MStop true]. split; [cbn; auto|]. vm_compute. auto.
Qed.
Print Assumptions C132_stop_refuted.

Example C132_cases :
  (let p := proc_run 2 1 [MStart true 0 true; MStart false 0 true; MStart true 1 false] in (pr_ctl p, pr_dns p, pr_ctl (proc_step (MSelect false) p))) = (Waiting, [Up; Failed], Ended true) /\
  (let p := proc_run 2 1 [MStart true 0 true; MStart false 0 true; MStart true 1 true; MSignal; MSelect true; MBreak true 1; MStop true; MStop true; MStop true] in (pr_ctl p, pr_dns p)) = (Ended false, [Stopped; Failed]) /\
  (let p := proc_run 2 1 [MStart true 0 true; MStart true 1 true; MSignal] in (pr_ctl p, pr_signal p, pr_dns p)) = (Waiting, true, [Up; Up]).
Proof. repeat split; vm_compute; reflexivity. Qed.
