(** Lemmas about the texts of upstreams. *)
From Coq Require Import String Ascii List Arith NArith Bool Lia ZifyBool ZifyNat ZifyN.
From Verif Require Import Str StrFacts Num NumFacts Dns Server ServerSpec ServerProps ParsersSpec ParsersProofs BlockingSpec BlockingProofs
  ArpaSpec Arpa ArpaProofs Ip IpSpec IpProofs IpProps ConfUpstream ConfUpstreamSpec.
Import ListNotations.
Open Scope list_scope.

Lemma alnum_iff c : alnum c = true <-> letter_or_digit c.
Proof. unfold alnum, letter_or_digit. lia. Qed.

Lemma last_app_one {A} (m : list A) d x : last (m ++ [d]) x = d.
Proof. induction m as [|y m IH]; [reflexivity|]. cbn [app last]. destruct (m ++ [d]) eqn:E; [destruct m; discriminate|exact IH]. Qed.

Lemma domain_label_iff l : domain_label l = true <-> label_text l.
Proof.
  split.
  - destruct l as [|c m]; [discriminate|]. unfold domain_label. intros H. apply andb_prop in H as [H Hf]. apply andb_prop in H as [Hc Hd].
    destruct (exists_last (l := c :: m)) as [m' [d E]]; [discriminate|]. rewrite E, last_app_one in Hd. destruct m' as [|x m'].
    + injection E as -> ->. apply label_one, alnum_iff, Hd.
    + cbn [app] in E. injection E as -> ->. apply label_more; [now apply alnum_iff|now apply alnum_iff|].
      cbn [forallb] in Hf. apply andb_prop in Hf as [_ Hf]. rewrite forallb_app in Hf. apply andb_prop in Hf as [Hf _].
      apply Forall_forall. intros y Hy. rewrite forallb_forall in Hf. specialize (Hf y Hy). apply orb_prop in Hf as [Hf|Hf].
      * left. now apply alnum_iff.
      * right. now apply Ascii.eqb_eq.
  - intros H. destruct H as [c Hc|c m d Hc Hd Hm].
    + cbn. apply alnum_iff in Hc. now rewrite Hc.
    + unfold domain_label. change (c :: m ++ [d]) with ((c :: m) ++ [d]). rewrite last_app_one. apply alnum_iff in Hc, Hd.
      cbn [app]. rewrite Hc, Hd. cbn [andb forallb]. rewrite Hc. cbn [orb andb]. rewrite forallb_app. cbn [forallb]. rewrite Hd.
      assert (forallb (fun x => alnum x || Ascii.eqb x "-") m = true) as ->; [|reflexivity].
      apply forallb_forall. intros y Hy. rewrite Forall_forall in Hm. destruct (Hm y Hy) as [X| ->]; [apply alnum_iff in X; now rewrite X|].
      apply orb_true_r.
Qed.

(** Characters of hosts. *)
Definition host_char (c : ascii) : Prop := letter_or_digit c \/ c = "-"%char \/ c = dot \/ c = ":"%char.

Lemma label_chars l : label_text l -> l <> [] /\ forall c, In c l -> letter_or_digit c \/ c = "-"%char.
Proof.
  intros H. destruct H as [c Hc|c m d Hc Hd Hm].
  - split; [discriminate|]. intros x [<-|[]]. now left.
  - split; [discriminate|]. intros x [<-|Hx]; [now left|]. apply in_app_iff in Hx as [Hx|[<-|[]]]; [|now left].
    rewrite Forall_forall in Hm. now apply Hm.
Qed.
Lemma label_no_dot l : label_text l -> ~ In dot l.
Proof.
  intros H Hd. apply (proj2 (label_chars _ H)) in Hd as [X|X]; [|discriminate]. unfold letter_or_digit in X. cbn in X. lia.
Qed.

Lemma valid_domain_iff s : valid_domain s = true <-> domain_text s.
Proof.
  unfold valid_domain. split.
  - intros H. rewrite <- (join_split dot s). pose proof (split_byte_nonempty dot s) as Hn. revert H Hn.
    induction (split_byte dot s) as [|l ls IH]; intros H Hn; [congruence|]. cbn [forallb] in H. apply andb_prop in H as [Hl H].
    apply domain_label_iff in Hl. destruct ls as [|l' ls]; [now apply domain_one|].
    change (join [dot] (l :: l' :: ls)) with (l ++ $"." ++ join [dot] (l' :: ls)). apply domain_more; [exact Hl|]. apply IH; [exact H|discriminate].
  - intros H. induction H as [l Hl|l d Hl _ IH].
    + rewrite split_byte_no by now apply label_no_dot. cbn [forallb]. apply domain_label_iff in Hl. now rewrite Hl.
    + change (l ++ $"." ++ d) with (l ++ dot :: d). rewrite split_byte_app, forallb_app, IH.
      rewrite split_byte_no by now apply label_no_dot. cbn [forallb]. apply domain_label_iff in Hl. now rewrite Hl.
Qed.

Lemma host_ok_iff h : host_ok h = true <-> host_text h.
Proof.
  unfold host_ok, host_text. destruct (go_parse_ip h) as [i|] eqn:E.
  - split; [|reflexivity]. intros _. right. exists i. now apply C101_read.
  - rewrite valid_domain_iff. split; [now left|]. intros [H|[i H]]; [exact H|]. apply C101_read in H. congruence.
Qed.

Lemma is_hex_host c : is_hex c -> host_char c.
Proof.
  unfold is_hex. intros H. left. unfold letter_or_digit. unfold digit_val in H.
  destruct ((48 <=? N_of_ascii c) && (N_of_ascii c <=? 57))%N eqn:E1; [lia|].
  destruct ((97 <=? N_of_ascii c) && (N_of_ascii c <=? 122))%N eqn:E2; [lia|].
  destruct ((65 <=? N_of_ascii c) && (N_of_ascii c <=? 90))%N eqn:E3; [lia|]. congruence.
Qed.

Lemma domain_chars d : domain_text d -> d <> [] /\ forall c, In c d -> letter_or_digit c \/ c = "-"%char \/ c = dot.
Proof.
  intros H. induction H as [l Hl|l d Hl _ [_ IH]]; destruct (label_chars _ Hl) as [Hn Hc].
  - split; [exact Hn|]. intros c X. destruct (Hc c X); auto.
  - split; [now apply app_nonempty|]. intros c X. apply in_app_iff in X as [X|[X|X]]; [destruct (Hc c X); auto|right; right; now rewrite <- X|now apply IH].
Qed.

Lemma ip_chars h i : ip_text h i -> h <> [] /\ Forall ip_char h.
Proof.
  assert (forall s b, ipv6_text s b -> s <> [] /\ Forall ip_char s) as H6.
  { intros s b H. split; [|eapply ipv6_chars; exact H]. intros ->. apply parse_v6_iff in H. discriminate. }
  intros H. destruct H as [s b H|s b H _|s b H]; [|eapply H6; exact H|eapply H6; exact H].
  split; [|eapply ipv4_chars; exact H]. intros ->. apply parse_v4_iff in H. discriminate.
Qed.

Lemma host_chars h : host_text h -> h <> [] /\ forall c, In c h -> host_char c.
Proof.
  intros [H|[i H]].
  - destruct (domain_chars _ H) as [Hn Hc]. split; [exact Hn|]. intros c X. unfold host_char. destruct (Hc c X) as [Y|[Y|Y]]; auto.
  - destruct (ip_chars _ _ H) as [Hn Hc]. split; [exact Hn|]. intros c X. rewrite Forall_forall in Hc.
    destruct (Hc c X) as [Y|[Y|Y]]; [now apply is_hex_host|right; right; now right|right; right; now left].
Qed.

Lemma host_not c h : host_text h -> (N_of_ascii c < 45 \/ N_of_ascii c = 47 \/ 58 < N_of_ascii c < 65 \/ 90 < N_of_ascii c < 97 \/ 122 < N_of_ascii c)%N -> ~ In c h.
Proof.
  intros H Hc X. apply (proj2 (host_chars _ H)) in X. unfold host_char, letter_or_digit in X.
  destruct X as [X|[X|[X|X]]]; [lia| | |]; subst c; cbn in Hc; lia.
Qed.
Lemma host_no_lbracket h : host_text h -> ~ In "["%char h.
Proof. intros H. apply host_not; [exact H|cbn; lia]. Qed.
Lemma host_no_rbracket h : host_text h -> ~ In "]"%char h.
Proof. intros H. apply host_not; [exact H|cbn; lia]. Qed.
Lemma host_no_slash h : host_text h -> ~ In "/"%char h.
Proof. intros H. apply host_not; [exact H|cbn; lia]. Qed.
Lemma host_no_hash h : host_text h -> ~ In "#"%char h.
Proof. intros H. apply host_not; [exact H|cbn; lia]. Qed.

Lemma tail_colons s b : tail_groups s b -> length b <= 2 * count_byte ":" s + 4.
Proof.
  induction 1 as [s b H|s b H|s b t c H _ IH].
  - rewrite (group_length _ _ H). lia.
  - inversion H; subst. cbn [length]. lia.
  - rewrite app_length, (group_length _ _ H).
    assert (forall x y, count_byte ":" (x ++ y) = count_byte ":" x + count_byte ":" y) as Ha.
    { induction x as [|z x IHx]; intros y; [reflexivity|]. cbn [app count_byte]. rewrite IHx. lia. }
    rewrite !Ha. cbn [count_byte lit list_ascii_of_string]. rewrite Ascii.eqb_refl. lia.
Qed.

Lemma two_colons s : 2 <= count_byte ":" s -> exists a b d, s = a ++ ":"%char :: b ++ ":"%char :: d.
Proof.
  assert (forall t, 1 <= count_byte ":" t -> exists b d, t = b ++ ":"%char :: d) as H1.
  { intros t Ht. assert (In ":"%char t) as Hin.
    { destruct (in_dec ascii_dec ":"%char t) as [X|X]; [exact X|]. apply count_byte_0 in X. lia. }
    apply in_split in Hin as [b [d ->]]. now exists b, d. }
  induction s as [|c s IH]; cbn [count_byte]; intros H; [lia|]. destruct (Ascii.eqb_spec c ":") as [->|Hc].
  - destruct (H1 s) as [b [d ->]]; [lia|]. now exists [], b, d.
  - destruct IH as [a [b [d ->]]]; [lia|]. now exists (c :: a), b, d.
Qed.

Lemma host_colons h : host_text h -> ~ In ":"%char h \/ exists a b d, h = a ++ ":"%char :: b ++ ":"%char :: d.
Proof.
  assert (forall s b, ipv6_text s b -> exists x y z, s = x ++ ":"%char :: y ++ ":"%char :: z) as H6.
  { intros s b H. inversion H as [? ? Ht Hl E1 E2|l lb z r rb Hl Hr Hz Hn E1 E2]; subst.
    - apply two_colons. apply tail_colons in Ht. lia.
    - now exists l, [], r. }
  intros [H|[i H]].
  - left. intros X. apply (proj2 (domain_chars _ H)) in X as [X|[X|X]]; [|discriminate|discriminate]. unfold letter_or_digit in X. cbn in X. lia.
  - destruct H as [s b H|s b H _|s b H]; [|right; eapply H6; exact H|right; eapply H6; exact H].
    left. intros X. apply ipv4_kind in H as Hk. inversion H as [p q r u a b1 c d Hp Hq Hr Hu E1 E2]; subst.
    assert (forall o n, octet o n -> ~ In ":"%char o) as Ho.
    { intros o n Hn Y. apply octet_hex in Hn. rewrite Forall_forall in Hn. specialize (Hn _ Y). now apply Hn. }
    repeat (apply in_app_iff in X as [X|X]; [try (eapply Ho in X; [exact X|eassumption]); cbn in X; destruct X as [X|[]]; discriminate|]).
    eapply Ho in X; [exact X|eassumption].
Qed.

(** ** Host and port *)
Lemma split_host_port_sound s h p : split_host_port s = Some (h, p) ->
  s = h ++ ":"%char :: p /\ ~ In ":"%char h \/ s = "["%char :: h ++ "]"%char :: ":"%char :: p.
Proof.
  unfold split_host_port, split_host. destruct (last_index_byte colon s) as [i|] eqn:El; [|discriminate].
  assert (s = firstn i s ++ ":"%char :: skipn (S i) s /\ i < length s) as [Es Hi].
  { unfold last_index_byte in El. destruct (index_byte colon (rev s)) as [j|] eqn:Ej; [|discriminate]. injection El as El.
    apply index_byte_Some in Ej as [Ej [_ Hj]]. rewrite rev_length in Hj. split; [|lia].
    assert (s = rev (skipn (S j) (rev s)) ++ ":"%char :: rev (firstn j (rev s))) as Es.
    { rewrite <- (rev_involutive s) at 1. rewrite Ej at 1. rewrite rev_app_distr. cbn [rev]. now rewrite <- app_assoc. }
    assert (length (rev (skipn (S j) (rev s))) = i) as Hl by (rewrite rev_length, skipn_length, rev_length; lia).
    generalize dependent (rev (skipn (S j) (rev s))). generalize (rev (firstn j (rev s))). clear. intros b a -> Hl. rewrite <- Hl.
    rewrite firstn_app, firstn_all, Nat.sub_diag, firstn_O, app_nil_r. f_equal. f_equal.
    rewrite skipn_app, skipn_all2 by lia. replace (S (length a) - length a) with 1 by lia. reflexivity. }
  destruct (match s with c :: _ => Ascii.eqb c lbracket | [] => false end) eqn:Eb.
  - destruct (index_byte rbracket s) as [e|] eqn:Ee; [|discriminate].
    destruct ((S e =? i) && negb (contains_byte lbracket (skipn 1 s)) && negb (contains_byte rbracket (skipn (S e) s))) eqn:Ec; [|discriminate].
    intros [= <- <-]. right. apply andb_prop in Ec as [Ec _]. apply andb_prop in Ec as [Ec _]. apply Nat.eqb_eq in Ec. subst i.
    apply index_byte_Some in Ee as [Ee [_ He]].
    assert (firstn (S e) s = firstn e s ++ ["]"%char]) as E1.
    { rewrite Ee at 1. assert (length (firstn e s) = e) as L by (rewrite firstn_length; lia).
      rewrite firstn_app, firstn_firstn, L. replace (Nat.min (S e) e) with e by lia. replace (S e - e) with 1 by lia. reflexivity. }
    assert (firstn e s = "["%char :: skipn 1 (firstn e s)) as E2.
    { destruct s as [|c s]; [discriminate|]. apply Ascii.eqb_eq in Eb. subst c. destruct e as [|e]; [discriminate Ee|reflexivity]. }
    rewrite Es at 1. rewrite E1, <- app_assoc. rewrite E2 at 1. reflexivity.
  - destruct (contains_byte colon (firstn i s) || contains_byte lbracket s || contains_byte rbracket s) eqn:Ec; [discriminate|].
    intros [= <- <-]. left. split; [exact Es|]. apply orb_false_elim in Ec as [Ec _]. apply orb_false_elim in Ec as [Ec _]. now apply contains_byte_not_In.
Qed.

Lemma split_host_port_plain h p : ~ In ":"%char h -> ~ In "["%char h -> ~ In "]"%char h -> ~ In ":"%char p -> ~ In "["%char p -> ~ In "]"%char p ->
  split_host_port (h ++ ":"%char :: p) = Some (h, p).
Proof.
  intros H1 H2 H3 H4 H5 H6. unfold split_host_port. rewrite (split_host_with_port _ h) by now apply wp_plain.
  change ":"%char with colon. rewrite last_index_byte_app by exact H4. f_equal. f_equal.
  rewrite skipn_app, skipn_all2 by lia. replace (S (length h) - length h) with 1 by lia. reflexivity.
Qed.

Lemma split_host_port_bracket h p : ~ In "["%char h -> ~ In "]"%char h -> ~ In ":"%char p -> ~ In "["%char p -> ~ In "]"%char p ->
  split_host_port ("["%char :: h ++ "]"%char :: ":"%char :: p) = Some (h, p).
Proof.
  intros H2 H3 H4 H5 H6. unfold split_host_port. rewrite (split_host_with_port _ h) by now apply wp_bracket.
  replace ("["%char :: h ++ "]"%char :: ":"%char :: p) with (("["%char :: h ++ ["]"%char]) ++ colon :: p) by (cbn [app]; now rewrite <- app_assoc).
  rewrite last_index_byte_app by exact H4. f_equal. f_equal.
  rewrite skipn_app, skipn_all2 by lia. replace (S (length ("["%char :: h ++ ["]"%char])) - length ("["%char :: h ++ ["]"%char])) with 1 by lia. reflexivity.
Qed.

Lemma split_host_port_None s : split_host s = None -> split_host_port s = None.
Proof. intros H. unfold split_host_port. now rewrite H. Qed.

Lemma no_port_bare h : host_text h -> split_host_port h = None.
Proof.
  intros H. apply split_host_port_None, C95_bare_address; [now apply host_no_lbracket|now apply host_no_rbracket|now apply host_colons].
Qed.
Lemma no_port_open h : host_text h -> split_host_port ("["%char :: h) = None.
Proof.
  intros H. apply split_host_port_None. unfold split_host. destruct (last_index_byte colon ("["%char :: h)); [|reflexivity].
  change (Ascii.eqb "["%char lbracket) with true. cbv iota.
  assert (index_byte rbracket ("["%char :: h) = None) as ->; [|reflexivity].
  apply index_byte_None. intros [X|X]; [discriminate|now apply host_no_rbracket in X].
Qed.
Lemma no_port_close h : host_text h -> split_host_port (h ++ ["]"%char]) = None.
Proof.
  intros H. apply split_host_port_None. unfold split_host. destruct (last_index_byte colon (h ++ ["]"%char])); [|reflexivity].
  assert (match h ++ ["]"%char] with c :: _ => Ascii.eqb c lbracket | [] => false end = false) as ->.
  { destruct h as [|c h]; [reflexivity|]. apply Ascii.eqb_neq. intros ->. apply (host_no_lbracket _ H). now left. }
  assert (contains_byte rbracket (h ++ ["]"%char]) = true) as ->; [|now rewrite orb_true_r].
  apply contains_byte_In, in_app_iff. right. now left.
Qed.
Lemma no_port_brackets h : host_text h -> split_host_port ("["%char :: h ++ ["]"%char]) = None.
Proof.
  intros H. apply split_host_port_None. unfold split_host. destruct (last_index_byte colon ("["%char :: h ++ ["]"%char])) as [i|] eqn:El; [|reflexivity].
  change (Ascii.eqb "["%char lbracket) with true. cbv iota.
  change ("["%char :: h ++ ["]"%char]) with (("["%char :: h) ++ rbracket :: []) at 1.
  rewrite index_byte_app by (intros [X|X]; [discriminate|now apply host_no_rbracket in X]).
  assert ((S (length ("["%char :: h)) =? i) = false) as ->; [|reflexivity].
  apply Nat.eqb_neq. unfold last_index_byte in El. destruct (index_byte colon (rev ("["%char :: h ++ ["]"%char]))) as [j|]; [|discriminate].
  injection El as <-. cbn [length]. rewrite app_length. cbn [length]. lia.
Qed.

(** ** Ports *)
Lemma white_code c : white c -> (9 <= N_of_ascii c <= 13 \/ N_of_ascii c = 32)%N.
Proof. intros H. apply is_space_white in H. unfold is_space in H. lia. Qed.

Lemma number_text_ends d p : number_text 10 d p ->
  (exists c r, d = c :: r /\ ~ white c) /\ exists r c, d = r ++ [c] /\ ~ white c.
Proof.
  assert (forall c x, is_digit 10 c x -> ~ white c) as Hd by (intros c x [H1 H2] Hw; apply white_code in Hw; lia).
  induction 1 as [c d H|s n c d _ [[c' [r [-> Hc]]] _] H].
  - split; [exists c, []|exists [], c]; split; auto; eapply Hd; exact H.
  - split; [exists c', (r ++ [c]); split; [reflexivity|exact Hc]|exists (c' :: r), c; split; auto; eapply Hd; exact H].
Qed.

Lemma convert_port_iff s p : convert_port s = Some p <-> port_text s p.
Proof.
  unfold convert_port, port_text. rewrite parse_uint_iff by lia. change (2 ^ 16)%N with 65536%N. split.
  - intros [Hn Hp]. assert (trimmed s (trim_space s)) as [a [b [E [Ha [Hb _]]]]] by now apply trimmed_iff.
    exists a, (trim_space s), b. repeat split; auto. lia.
  - intros [a [d [b [E [Ha [Hb [Hn Hp]]]]]]]. assert (d = trim_space s) as <-; [|split; [exact Hn|lia]].
    apply trimmed_iff. exists a, b. repeat split; auto. right. now apply number_text_ends in Hn.
Qed.

Lemma port_chars s p : port_text s p -> forall c, In c s -> white c \/ (48 <= N_of_ascii c <= 57)%N.
Proof.
  intros [a [d [b [-> [Ha [Hb [Hn _]]]]]]] c. rewrite !in_app_iff. intros [X|[X|X]].
  - left. now apply (proj1 (Forall_forall _ _) Ha).
  - right. clear -X Hn. induction Hn as [c' x H|s n c' x _ IH H].
    + destruct X as [<-|[]]. destruct H as [H1 H2]. lia.
    + apply in_app_iff in X as [X|[<-|[]]]; [auto|]. destruct H as [H1 H2]. lia.
  - left. now apply (proj1 (Forall_forall _ _) Hb).
Qed.
Lemma port_not c s p : port_text s p -> ~ white c -> (N_of_ascii c < 48 \/ 57 < N_of_ascii c)%N -> ~ In c s.
Proof. intros H Hw Hc X. destruct (port_chars _ _ H _ X); [auto|lia]. Qed.
