(** Theorems about the commands of the command line (C120 - C122). *)
From Coq Require Import String Ascii List Arith NArith ZArith Bool Lia.
From Verif Require Import Str StrFacts ArpaSpec ArpaProofs Num NumFacts Dns Blocking BlockingSpec BlockingProofs BlockingProps
  Duration DurationSpec DurationProps Api ApiSpec ApiProps Server ConfUpstream ConfUpstreamProofs LoadConf LoadConfSpec LoadConfProps Cli CliSpec.
Import ListNotations.
Open Scope list_scope.

(** ** C120: disabling blocking *)

Lemma pow10_pos p : (0 < 10 ^ p)%N.
Proof. apply N.neq_0_lt_0, N.pow_nonzero. lia. Qed.
Lemma pow10_S p : (10 ^ N.of_nat (S p) = 10 * 10 ^ N.of_nat p)%N.
Proof. rewrite Nat2N.inj_succ. apply N.pow_succ_r'. Qed.
Lemma pow10_split p v : (v mod 10 ^ N.of_nat (S p) = v mod 10 + 10 * ((v / 10) mod 10 ^ N.of_nat p))%N.
Proof. rewrite pow10_S. apply N.mod_mul_r; [lia|]. pose proof (pow10_pos (N.of_nat p)). lia. Qed.
Lemma pow10_div p v : (v / 10 / 10 ^ N.of_nat p = v / 10 ^ N.of_nat (S p))%N.
Proof. rewrite pow10_S, N.div_div; [reflexivity|lia|]. pose proof (pow10_pos (N.of_nat p)). lia. Qed.
Lemma digit_parse v : digit_val 10 (digit (v mod 10)) = Some (v mod 10)%N.
Proof. assert (v mod 10 < 10)%N by (apply N.mod_lt; lia). apply digit_val_digit; lia. Qed.

Lemma frac_true p : forall v acc, exists ds, frac_loop p v true acc = (ds ++ acc, (v / 10 ^ N.of_nat p)%N, true) /\ length ds = p /\
  parse_digits 10 0 ds = Some (v mod 10 ^ N.of_nat p)%N.
Proof.
  induction p as [|p IH]; intros v acc.
  - exists []. cbn [frac_loop app length parse_digits]. cbn [N.of_nat N.pow]. rewrite N.div_1_r, N.mod_1_r. auto.
  - cbn [frac_loop]. cbn [orb]. destruct (IH (v / 10)%N (digit (v mod 10) :: acc)) as [ds [E [Hl Hp]]].
    exists (ds ++ [digit (v mod 10)]). rewrite E, pow10_div, <- app_assoc. split; [reflexivity|]. split; [rewrite app_length; cbn; lia|].
    rewrite parse_digits_app, Hp. cbn [parse_digits]. rewrite digit_parse, pow10_split. f_equal. lia.
Qed.
Lemma frac_false p : forall v,
  ((v mod 10 ^ N.of_nat p = 0)%N /\ frac_loop p v false [] = ([], (v / 10 ^ N.of_nat p)%N, false)) \/
  exists ds k n, frac_loop p v false [] = (ds, (v / 10 ^ N.of_nat p)%N, true) /\ length ds + k = p /\ ds <> [] /\
    parse_digits 10 0 ds = Some n /\ (n * 10 ^ N.of_nat k = v mod 10 ^ N.of_nat p)%N.
Proof.
  induction p as [|p IH]; intros v.
  - left. cbn [frac_loop N.of_nat N.pow]. now rewrite N.div_1_r, N.mod_1_r.
  - cbn [frac_loop orb]. destruct (N.eqb_spec (v mod 10) 0) as [H0|H0]; cbn [negb].
    + rewrite <- pow10_div, pow10_split, H0. destruct (IH (v / 10)%N) as [[Hm E]|[ds [k [n [E [Hl [Hn [Hp Hv]]]]]]]].
      * left. split; [rewrite Hm; reflexivity|exact E].
      * right. exists ds, (S k), n. split; [exact E|]. split; [lia|]. split; [exact Hn|]. split; [exact Hp|]. rewrite pow10_S, <- Hv. lia.
    + right. destruct (frac_true p (v / 10) [digit (v mod 10)]) as [ds [E [Hl Hp]]].
      exists (ds ++ [digit (v mod 10)]), 0, (v mod 10 ^ N.of_nat (S p))%N. rewrite E, pow10_div. split; [reflexivity|].
      split; [rewrite app_length; cbn; lia|]. split; [now destruct ds|]. split; [|cbn [N.of_nat N.pow]; lia].
      rewrite parse_digits_app, Hp. cbn [parse_digits]. rewrite digit_parse, pow10_split. f_equal. lia.
Qed.

Lemma print_dec_number n : number_text 10 (print_dec n) n.
Proof.
  assert (n < 2 ^ (n + 1))%N as H by (pose proof (N.pow_gt_lin_r 2 (n + 1)); lia).
  pose proof (parse_print_dec (n + 1) n H) as E. apply parse_uint_iff in E; [|lia]. apply E.
Qed.
Lemma number_digits f n : number_text 10 f n -> digits f.
Proof.
  induction 1 as [c d Hd|s m c d Hs IH Hd].
  - constructor; [eauto|constructor].
  - apply Forall_app. split; [exact IH|]. constructor; [eauto|constructor].
Qed.

Section Fraction.
Variable fraction : str -> N -> N.
Hypothesis exact : exact_fraction fraction.

Lemma amount_frac prec un u : time_unit un (10 ^ N.of_nat prec) ->
  snd (fmt_frac prec u) = (u / 10 ^ N.of_nat prec)%N /\
  forall w, amount fraction (print_dec w ++ fst (fmt_frac prec u) ++ un) (w * 10 ^ N.of_nat prec + u mod 10 ^ N.of_nat prec).
Proof.
  intros Hu. unfold fmt_frac. destruct (frac_false prec u) as [[Hm E]|[ds [k [n [E [Hl [Hn [Hp Hv]]]]]]]]; rewrite E; cbn [fst snd]; (split; [reflexivity|]); intros w.
  - rewrite Hm, N.add_0_r. cbn [app]. apply amount_whole; [apply print_dec_number|exact Hu].
  - assert (number_text 10 ds n) as Hd by (apply parse_digits_text; [lia|exact Hn|exact Hp]).
    rewrite <- Hv, <- (exact ds n un (10 ^ N.of_nat prec)%N (10 ^ N.of_nat k)%N Hd Hu).
    + change ((dot :: ds) ++ un) with ($"." ++ ds ++ un). apply amount_point; [apply print_dec_number|eapply number_digits; eauto|exact Hn|exact Hu].
    + rewrite <- N.pow_add_r. f_equal. lia.
Qed.

Lemma format_amounts u : amounts fraction (duration_format u) u.
Proof.
  unfold duration_format. destruct (N.ltb_spec u 1000000000) as [H|H].
  - destruct (N.eqb_spec u 0) as [->|H0].
    { apply amounts_one. change 0%N with (0 * 1000000000)%N. change ($"0s") with (print_dec 0 ++ $"s"). apply amount_whole; [apply print_dec_number|constructor]. }
    assert (forall prec un, time_unit un (10 ^ N.of_nat prec) -> amounts fraction (let '(f, v) := fmt_frac prec u in print_dec v ++ f ++ un) u) as G.
    { intros prec un Hu. destruct (amount_frac prec un u Hu) as [Hs Ha]. destruct (fmt_frac prec u) as [f v]. cbn [fst snd] in Hs, Ha. subst v.
      apply amounts_one. specialize (Ha (u / 10 ^ N.of_nat prec)%N). replace (u / 10 ^ N.of_nat prec * 10 ^ N.of_nat prec + u mod 10 ^ N.of_nat prec)%N with u in Ha; [exact Ha|].
      rewrite N.mul_comm. apply N.div_mod. pose proof (pow10_pos (N.of_nat prec)). lia. }
    destruct (u <? 1000)%N; [|destruct (u <? 1000000)%N]; apply G; constructor.
  - destruct (amount_frac 9 ($"s") u) as [Hs Ha]; [constructor|]. destruct (fmt_frac 9 u) as [f v]. cbn [fst snd] in Hs, Ha.
    change (10 ^ N.of_nat 9)%N with 1000000000%N in *. set (t := (u mod 1000000000)%N) in *.
    assert (u = v * 1000000000 + t)%N as Hu by (subst v t; rewrite N.mul_comm; apply N.div_mod; lia). clearbody t. clear Hs.
    pose proof (N.div_mod v 60 ltac:(lia)) as D1. pose proof (N.div_mod (v / 60) 60 ltac:(lia)) as D2.
    specialize (Ha (v mod 60)%N). set (s0 := print_dec (v mod 60) ++ f ++ $"s") in *. clearbody s0.
    destruct (N.eqb_spec (v / 60) 0) as [E1|E1].
    { apply amounts_one. replace u with (v mod 60 * 1000000000 + t)%N; [exact Ha|]. lia. }
    assert (amounts fraction (print_dec ((v / 60) mod 60) ++ $"m" ++ s0) ((v / 60) mod 60 * 60000000000 + (v mod 60 * 1000000000 + t))) as Hm.
    { rewrite app_assoc. apply amounts_more; [|now apply amounts_one]. apply amount_whole; [apply print_dec_number|constructor]. }
    destruct (N.eqb_spec (v / 60 / 60) 0) as [E2|E2].
    { replace u with ((v / 60) mod 60 * 60000000000 + (v mod 60 * 1000000000 + t))%N; [exact Hm|]. lia. }
    replace u with (v / 60 / 60 * 3600000000000 + ((v / 60) mod 60 * 60000000000 + (v mod 60 * 1000000000 + t)))%N by lia.
    rewrite app_assoc. apply amounts_more; [|exact Hm]. apply amount_whole; [apply print_dec_number|constructor].
Qed.

(** The text of a duration means that duration. *)
Theorem C120_duration : forall d, signed (amounts fraction) (duration_string d) d.
Proof.
  intros d. unfold duration_string. destruct (Z.ltb_spec d 0) as [H|H].
  - change ("-"%char :: duration_format (Z.to_N (- d))) with ($"-" ++ duration_format (Z.to_N (- d))).
    replace d with (- Z.of_N (Z.to_N (- d)))%Z at 2 by lia. apply signed_minus, format_amounts.
  - replace d with (Z.of_N (Z.to_N d)) at 2 by lia. apply signed_none, format_amounts.
Qed.
End Fraction.
Print Assumptions C120_duration.

Lemma split_join_names gs : gs <> [] -> Forall list_name gs -> split_byte comma (join ($",") gs) = gs /\ join ($",") gs <> [].
Proof.
  intros Hn H. induction H as [|g gs [Hg Hc] Hgs IH]; [congruence|]. destruct gs as [|h gs].
  - cbn [join]. split; [now apply split_byte_no|exact Hg].
  - change (join ($",") (g :: h :: gs)) with (g ++ comma :: join ($",") (h :: gs)). rewrite split_byte_app. destruct IH as [IH _]; [discriminate|].
    rewrite IH. rewrite split_byte_no by exact Hc. split; [reflexivity|now destruct g].
Qed.
Lemma asks_names gs g : Forall list_name gs -> asks_group (Some (join ($",") gs)) g <-> In g gs.
Proof.
  intros H. destruct gs as [|x gs].
  - split; [intros [t [[= <-] [Hn _]]]; cbn in Hn; congruence|intros []].
  - destruct (split_join_names (x :: gs)) as [E Hn]; [discriminate|exact H|]. set (jn := join ($",") (x :: gs)) in *. split.
    + intros [t [Ht [_ Hp]]]. injection Ht as <-. apply comma_part_iff in Hp. now rewrite E in Hp.
    + intros Hin. exists jn. split; [reflexivity|]. split; [exact Hn|]. apply comma_part_iff. now rewrite E.
Qed.
Lemma asks_no_names gs : Forall list_name gs -> asks_all (Some (join ($",") gs)) <-> gs = [].
Proof.
  intros H. split; [|intros ->; right; reflexivity]. intros [Ha|Ha]; [discriminate|]. destruct gs as [|x gs]; [reflexivity|].
  destruct (split_join_names (x :: gs)) as [_ Hn]; [discriminate|exact H|]. exfalso. apply Hn. congruence.
Qed.

Lemma cli_asked fraction d : exact_fraction fraction -> (-9223372036854775808 <= d < 9223372036854775808)%Z ->
  asked_duration fraction (Some (duration_string d)) d.
Proof. intros Hx Hd. split; [left; now apply C120_duration|exact Hd]. Qed.

(** The groups named, or all, are disabled for the duration given. *)
Theorem C120_disable : forall fraction err cfg d gs now s, exact_fraction fraction ->
  (-9223372036854775808 <= d < 9223372036854775808)%Z -> Forall list_name gs -> (forall g, In g gs -> known cfg g) ->
  let '(s', ok) := cli_disable fraction err cfg d gs now s in
  ok = true /\ bt_enabled s' = false /\
  (forall g, In g (bt_disabled s') <-> In g gs \/ (gs = [] /\ known cfg g)) /\
  bt_timer s' = (if Z.eq_dec d 0 then None else Some (now + d)%Z).
Proof.
  intros fraction err cfg d gs now s Hx Hd Hn Hk. unfold cli_disable.
  pose proof (C111_disable fraction err cfg _ (Some (join ($",") gs)) now s d (cli_asked fraction d Hx Hd)) as H.
  destruct (api_disable fraction err cfg (Some (duration_string d)) (Some (join ($",") gs)) now s) as [s' r].
  destruct H as [-> [He [Hg Ht]]]; [intros g Hg; apply Hk; now apply asks_names|]. split; [reflexivity|]. split; [exact He|]. split; [|exact Ht].
  intros g. rewrite Hg. pose proof (asks_names gs g Hn). pose proof (asks_no_names gs Hn). tauto.
Qed.
Print Assumptions C120_disable.

(** With a group that is not known, the command fails and nothing changes for queries. *)
Theorem C120_unknown_partial : forall fraction err cfg d gs g now s, Forall list_name gs -> In g gs -> ~ known cfg g ->
  let '(s', ok) := cli_disable fraction err cfg d gs now s in ok = false /\ same_blocking s' s.
Proof.
  intros fraction err cfg d gs g now s Hn Hg Hk. unfold cli_disable.
  pose proof (C111_unknown_group_partial fraction err cfg (Some (duration_string d)) (Some (join ($",") gs)) g now s) as H.
  destruct (api_disable fraction err cfg (Some (duration_string d)) (Some (join ($",") gs)) now s) as [s' r].
  destruct H as [[text ->] Hs]; [now apply asks_names|exact Hk|]. split; [reflexivity|exact Hs].
Qed.
Print Assumptions C120_unknown_partial.

(** The command "status" afterwards. *)
Theorem C120_status_partial : forall fraction err cfg d gs now s s' t, exact_fraction fraction ->
  (-9223372036854775808 <= d < 9223372036854775808)%Z -> Forall list_name gs ->
  cli_disable fraction err cfg d gs now s = (s', true) ->
  exists names, (forall g, In g names <-> In g gs \/ (gs = [] /\ known cfg g)) /\
    forall n, (1 <= n /\ n * 1000000000 <= now + d - t < (n + 1) * 1000000000)%Z ->
      exists q, number_text 10 q (Z.to_N n) /\
        cli_status (api_blocking_status t s') = $"blocking disabled for groups: '" ++ join ($"; ") names ++ $"', for " ++ q ++ $" seconds".
Proof.
  intros fraction err cfg d gs now s s' t Hx Hd Hn H. unfold cli_disable in H.
  destruct (api_disable fraction err cfg (Some (duration_string d)) (Some (join ($",") gs)) now s) as [s1 r] eqn:E.
  destruct r; [|discriminate]. injection H as ->.
  pose proof (C111_status_partial fraction err cfg _ _ now s d s' t (cli_asked fraction d Hx Hd) E) as [He [[names [Hg Hi]] Ha]].
  exists names. split.
  - intros g. rewrite Hi. pose proof (asks_names gs g Hn). pose proof (asks_no_names gs Hn). tauto.
  - intros n Hr. apply Ha in Hr as Hs. unfold cli_status. rewrite He, Hg, Hs. exists (print_dec (Z.to_N n)). split; [apply print_dec_number|].
    destruct n as [|p|p]; [lia| |lia]. reflexivity.
Qed.
Print Assumptions C120_status_partial.

(** An empty name is not refused: all groups are disabled. *)
Theorem C120_empty_refuted : exists cfg g, ~ known cfg [] /\ known cfg g /\ forall fraction err,
  let '(s', ok) := cli_disable fraction err cfg 0 [[]] 0 blk_init in ok = true /\ In g (bt_disabled s').
Proof.
  exists ex_cfg, ($"ads"). split; [|split].
  - intros [H|[srcs [H|[H|[]]]]]; discriminate.
  - right. exists [$"ads.txt"]. now left.
  - intros fraction err. vm_compute. auto.
Qed.
Print Assumptions C120_empty_refuted.

Definition ex_fraction (f : str) (k : N) : N :=
  match parse_digits 10 0 f with Some n => (n * (k / 10 ^ N.of_nat (length f)))%N | None => 0%N end.
Lemma ex_fraction_exact : exact_fraction ex_fraction.
Proof.
  intros f n u k j Hf _ ->. unfold ex_fraction. assert (f <> []) as Hn by (eapply number_text_nonempty; eauto).
  apply parse_digits_text in Hf; [|lia|exact Hn]. rewrite Hf. f_equal. rewrite N.mul_comm. apply N.div_mul. pose proof (pow10_pos (N.of_nat (length f))). lia.
Qed.
Example C120_example :
  exact_fraction ex_fraction /\ Forall list_name [$"ads"; $"adult"] /\ (forall g, In g [$"ads"; $"adult"] -> known ex_cfg g) /\
  duration_string 5400000000000 = $"1h30m0s" /\ duration_string 300000000000 = $"5m0s" /\ duration_string 1500000000 = $"1.5s" /\ duration_string 0 = $"0s" /\
  duration_string (-1020000) = $"-1.02ms" /\
  (let '(s, ok) := cli_disable ex_fraction (fun _ => []) ex_cfg 300000000000 [$"ads"; $"adult"] 7 blk_init in
   (bt_disabled s, bt_timer s, ok, cli_status (api_blocking_status 1000000007 s)) =
   ([$"ads"; $"adult"], Some 300000000007%Z, true, $"blocking disabled for groups: 'ads; adult', for 299 seconds")).
Proof.
  split; [exact ex_fraction_exact|]. split; [repeat constructor; try discriminate; cbn; intuition discriminate|].
  split; [intros g [<-|[<-|[]]]; right; eexists; cbn; eauto|]. repeat split; vm_compute; reflexivity.
Qed.

(** ** C121: the address of the server *)
Section Config.
Context {cfg : Type}.
Variable defaults : cfg.
Variable yaml : list str -> option cfg.
Variable privacy : cfg -> bool.
Variable fs : str -> at_path.
Variable http_ports : cfg -> list str.

Lemma load_mandatory path : not_exist (fs path) = false ->
  load defaults yaml privacy fs path true = load defaults yaml privacy fs path false.
Proof.
  intros H. unfold load. f_equal. unfold load_config. replace (config_text (fs path) true) with (config_text (fs path) false); [reflexivity|].
  destruct (fs path) as [| |[c|es|t|]]; cbn in *; try discriminate; try reflexivity. now destruct t.
Qed.
Lemma load_missing path : not_exist (fs path) = true -> load defaults yaml privacy fs path true = None.
Proof. intros H. unfold load, load_config. destruct (fs path) as [| |[c|es|t|]]; cbn in *; try discriminate; try reflexivity. now destruct t. Qed.

Lemma init_path e c c' : init_config defaults yaml privacy fs http_ports e c = Some c' -> cl_path c' = pick_path e (cl_path c).
Proof.
  unfold init_config. destruct (load defaults yaml privacy fs (pick_path e (cl_path c)) false) as [cf|]; [|discriminate].
  destruct (http_ports cf); [now intros [= <-]|]. destruct (convert_port _); [now intros [= <-]|discriminate].
Qed.

(** The commands, started like the server, talk to it. *)
Theorem C121_address_partial : forall e c cf h p n l k,
  serve_config defaults yaml privacy fs http_ports e c = Some cf ->
  http_ports cf = (h ++ $":" ++ p) :: l -> ~ In ":"%char h -> ~ In ":"%char p -> number_text 10 p n -> (n < 65536)%N -> k <> KRefresh ->
  exists url, used_url defaults yaml privacy fs http_ports k e c = Some url /\ interface_at (h ++ $":" ++ p) url.
Proof.
  intros e c cf h p n l k Hs Hp Hh Hc Hn Hlt Hk. unfold used_url. assert (initialised k = true) as -> by (destruct k; [..|congruence]; reflexivity).
  unfold serve_config in Hs. destruct (init_config defaults yaml privacy fs http_ports e c) as [c'|] eqn:Ei; [|discriminate].
  pose proof (init_path e c c' Ei) as Hpath. rewrite Hpath in Hs. unfold init_config in Ei.
  destruct (not_exist (fs (pick_path e (cl_path c)))) eqn:Ex; [rewrite load_missing in Hs by exact Ex; discriminate|].
  rewrite load_mandatory in Hs by exact Ex. rewrite Hs, Hp in Ei.
  assert (split_byte colon (h ++ $":" ++ p) = [h; p]) as E.
  { change (h ++ $":" ++ p) with (h ++ colon :: p). rewrite split_byte_app, !split_byte_no by assumption. reflexivity. }
  rewrite E in Ei. cbn [length Nat.sub nth firstn join] in Ei.
  assert (convert_port p = Some n) as Ec.
  { apply convert_port_iff. exists [], p, []. rewrite app_nil_r. repeat split; auto. lia. }
  rewrite Ec in Ei. injection Ei as <-. cbn [option_map]. eexists. split; [reflexivity|]. unfold api_url, join_host_port. cbn [cl_host cl_port].
  assert (contains_byte colon h = false) as -> by now apply contains_byte_not_In.
  exists h, p, (print_dec n), n. repeat split; auto; [|apply print_dec_number].
  change (h ++ colon :: print_dec n) with (h ++ ($":" ++ print_dec n)). rewrite <- !app_assoc. reflexivity.
Qed.

(** Without a port of the interface in the configuration it is the address given by the flags. *)
Theorem C121_flags_partial : forall e c cf k, serve_config defaults yaml privacy fs http_ports e c = Some cf -> http_ports cf = [] ->
  used_url defaults yaml privacy fs http_ports k e c = Some (api_url c).
Proof.
  intros e c cf k Hs Hp. unfold used_url. destruct (initialised k); [|reflexivity].
  unfold serve_config in Hs. destruct (init_config defaults yaml privacy fs http_ports e c) as [c'|] eqn:Ei; [|discriminate].
  pose proof (init_path e c c' Ei) as Hpath. rewrite Hpath in Hs. unfold init_config in Ei.
  destruct (not_exist (fs (pick_path e (cl_path c)))) eqn:Ex; [rewrite load_missing in Hs by exact Ex; discriminate|].
  rewrite load_mandatory in Hs by exact Ex. rewrite Hs, Hp in Ei. injection Ei as <-. reflexivity.
Qed.

(** Without flags it is the interface at port 4000 of the same machine; the file is config.yml in the current directory, unless an
    environment variable names another: BLOCKY_CONFIG_FILE first, then CONFIG_FILE. *)
Theorem C121_defaults : forall e cf k, serve_config defaults yaml privacy fs http_ports e cli_defaults = Some cf ->
  (http_ports cf = [] -> used_url defaults yaml privacy fs http_ports k e cli_defaults = Some ($"http://localhost:4000/api")) /\
  exists path, fst (load_config defaults yaml privacy (fs path) true false) = Some cf /\
    match env_new e, env_old e with Some v, _ => path = v | None, Some v => path = v | None, None => path = $"./config.yml" end.
Proof.
  intros e cf k Hs. split; [intros Hp; rewrite (C121_flags_partial _ _ _ k Hs Hp); vm_compute; reflexivity|].
  unfold serve_config in Hs. destruct (init_config defaults yaml privacy fs http_ports e cli_defaults) as [c'|] eqn:Ei; [|discriminate].
  rewrite (init_path e _ c' Ei) in Hs. eexists. split; [exact Hs|]. unfold pick_path. cbn [cl_path cli_defaults].
  assert (str_eqb default_path default_path = true) as -> by reflexivity. destruct (env_new e), (env_old e); reflexivity.
Qed.

(** ** C122: validation *)

(** "Configuration is valid" is said of exactly the configurations the server starts with, if no environment variable names
    another one. *)
Theorem C122_validate_partial : forall e c, cl_path c <> $"./config.yml" \/ (env_new e = None /\ env_old e = None) ->
  validate_configuration defaults yaml privacy fs http_ports e c = true <->
  exists cf, serve_config defaults yaml privacy fs http_ports e c = Some cf.
Proof.
  intros e c H.
  assert (pick_path e (cl_path c) = cl_path c) as Hp.
  { unfold pick_path, default_path. destruct (str_eqb_spec (cl_path c) ($"./config.yml")) as [E|E]; [|reflexivity].
    destruct H as [H|[-> ->]]; [contradiction|reflexivity]. }
  unfold validate_configuration, serve_config.
  destruct (init_config defaults yaml privacy fs http_ports e c) as [c'|] eqn:Ei.
  - rewrite (init_path e c c' Ei), Hp. destruct (not_exist (fs (cl_path c))) eqn:Ex.
    + rewrite load_missing by exact Ex. split; [discriminate|now intros [cf Hc]].
    + split; [intros _|reflexivity]. rewrite load_mandatory by exact Ex. unfold init_config in Ei. rewrite Hp in Ei.
      destruct (load defaults yaml privacy fs (cl_path c) false) as [cf|]; [eauto|discriminate].
  - split; [now destruct (not_exist _)|now intros [cf Hc]].
Qed.
End Config.
Print Assumptions C121_address_partial.
Print Assumptions C121_flags_partial.
Print Assumptions C121_defaults.
Print Assumptions C122_validate_partial.

(** *** A small instance: the configuration is a list of ports, the text has one per line. *)
Definition ex_load (files : list (str * list str)) (p : str) : at_path :=
  match mget str_eqb p files with Some ls => Found (NFile (Some (join ["010"%char] ls))) | None => Missing end.
Definition ex_yaml (ls : list str) : option (list str) := Some ls.
Definition ex_url files := used_url ([] : list str) ex_yaml (fun _ => false) (ex_load files) (fun c => c).
Definition ex_serve files := serve_config ([] : list str) ex_yaml (fun _ => false) (ex_load files) (fun c => c).
Definition ex_validate files := validate_configuration ([] : list str) ex_yaml (fun _ => false) (ex_load files) (fun c => c).
Definition ex_flags (p : str) : cli := {| cl_path := p; cl_host := $"localhost"; cl_port := 4000 |}.
Definition no_env : environment := {| env_new := None; env_old := None |}.

Example C121_example :
  ex_serve [($"b.yml", [$"10.0.0.1:0080"])] no_env (ex_flags ($"b.yml")) = Some [$"10.0.0.1:0080"] /\
  ex_url [($"b.yml", [$"10.0.0.1:0080"])] KQuery no_env (ex_flags ($"b.yml")) = Some ($"http://10.0.0.1:80/api").
Proof. split; reflexivity. Qed.
Example C121_defaults_case : ex_serve [($"old.yml", [$":81"])] {| env_new := None; env_old := Some $"old.yml" |} cli_defaults = Some [$":81"] /\
  ex_serve [($"./config.yml", [$":80"])] no_env cli_defaults = Some [$":80"].
Proof. split; reflexivity. Qed.

(** A server listening at an IPv6 address cannot be reached: the brackets are doubled. *)
Theorem C121_ipv6_refuted : exists files c url,
  ex_serve files no_env c = Some [$"[::1]:4000"] /\ ex_url files KBlocking no_env c = Some url /\ ~ interface_at ($"[::1]:4000") url.
Proof.
  exists [($"b.yml", [$"[::1]:4000"])], (ex_flags ($"b.yml")), ($"http://[[::1]]:4000/api"). split; [reflexivity|]. split; [reflexivity|].
  intros [h [p [q [n [Ha [Hp [_ [Hu _]]]]]]]]. destruct h as [|x [|y h]].
  - discriminate.
  - injection Ha as _ <-. apply Hp. now left.
  - injection Ha as _ Hy _. injection Hu as _ Hz _. congruence.
Qed.
Print Assumptions C121_ipv6_refuted.

(** "blocky refresh" talks to another address than "blocky lists refresh". *)
Theorem C121_refresh_refuted : exists files c url,
  ex_serve files no_env c = Some [$":80"] /\ ex_url files KLists no_env c = Some ($"http://:80/api") /\
  ex_url files KRefresh no_env c = Some url /\ ~ interface_at ($":80") url.
Proof.
  exists [($"b.yml", [$":80"])], (ex_flags ($"b.yml")), ($"http://localhost:4000/api"). split; [reflexivity|]. split; [reflexivity|]. split; [reflexivity|].
  intros [h [p [q [n [Ha [Hp [_ [Hu _]]]]]]]]. destruct h as [|x h].
  - discriminate.
  - injection Ha as <- _. discriminate.
Qed.
Print Assumptions C121_refresh_refuted.

(** The flags for the address ("Default overridden by config and CLI") have no effect when the configuration has a port. *)
Theorem C121_override_refuted : exists files c, cl_host c = $"dns.lan" /\ cl_port c = 8080%N /\
  ex_url files KBlocking no_env c = Some ($"http://:80/api").
Proof. exists [($"b.yml", [$":80"])], {| cl_path := $"b.yml"; cl_host := $"dns.lan"; cl_port := 8080 |}. repeat split. Qed.
Print Assumptions C121_override_refuted.

(** With BLOCKY_CONFIG_FILE set, validation may accept what the server refuses, and refuse what it accepts. *)
Theorem C122_environment_refuted :
  (exists files e c, ex_validate files e c = true /\ ex_serve files e c = None) /\
  (exists files e c cf, ex_validate files e c = false /\ ex_serve files e c = Some cf).
Proof.
  split.
  - exists [($"./config.yml", [$":80"])], {| env_new := Some ($"/gone.yml"); env_old := None |}, cli_defaults. split; reflexivity.
  - exists [($"/app/config.yml", [$":80"])], {| env_new := Some ($"/app/config.yml"); env_old := None |}, cli_defaults, [$":80"]. split; reflexivity.
Qed.
Print Assumptions C122_environment_refuted.

Example C122_example :
  ex_validate [($"b.yml", [$":80"])] {| env_new := Some ($"x"); env_old := None |} (ex_flags ($"b.yml")) = true /\
  ex_validate [($"b.yml", [$":http"])] no_env (ex_flags ($"b.yml")) = false /\ ex_validate [] no_env cli_defaults = false /\
  ex_validate [($"./config.yml", [$"4000"])] no_env cli_defaults = true.
Proof. repeat split. Qed.
