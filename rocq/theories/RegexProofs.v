(** Facts about the regular expression reader of Spec.v and the strings the
    code builds out of rules. *)
From Coq Require Import String.
From Verif Require Import PyStr Defs ParseUtils PyStrProofs DefsProofs Spec.
From Coq Require Import Lia.

(** ** Composition of rparse *)
Lemma parse_class_app_n : forall n a b l r, length a <= n ->
  parse_class a = Some (l, r) -> parse_class (a ++ b) = Some (l, r ++ b).
Proof.
  induction n as [|n IH]; intros a b l r Hn H; destruct a as [|c a]; cbn [parse_class app length] in *; try discriminate; try lia.
  destruct (N.eqb c 93). { inversion H; subst; auto. }
  destruct (N.eqb c 92).
  - destruct a as [|e a]; [discriminate|]. cbn [app].
    destruct (char_in e letters_digits); [discriminate|].
    destruct (parse_class a) as [[l' r']|] eqn:E; [|discriminate].
    rewrite (IH a b l' r') by (auto; simpl in Hn; lia). inversion H; subst; auto.
  - destruct (negb (is_plain c)); [discriminate|].
    destruct a as [|d a]; [discriminate|]. cbn [app].
    destruct (N.eqb d 45).
    + destruct a as [|e a]; [discriminate|]. cbn [app].
      destruct (is_plain e && (c <=? e)%N); [|discriminate].
      destruct (parse_class a) as [[l' r']|] eqn:E; [|discriminate].
      rewrite (IH a b l' r') by (auto; simpl in Hn; lia). inversion H; subst; auto.
    + destruct (parse_class (d :: a)) as [[l' r']|] eqn:E; [|discriminate].
      change (d :: a ++ b) with ((d :: a) ++ b).
      rewrite (IH (d :: a) b l' r') by (auto; simpl in *; lia). inversion H; subst; auto.
Qed.
Lemma parse_class_app : forall a b l r,
  parse_class a = Some (l, r) -> parse_class (a ++ b) = Some (l, r ++ b).
Proof. intros. eapply parse_class_app_n; eauto. Qed.

Lemma until_brace_app : forall s a r b,
  until_brace s = Some (a, r) -> until_brace (s ++ b) = Some (a, r ++ b).
Proof.
  induction s as [|c s IH]; simpl; intros a r b H; [discriminate|].
  destruct (N.eqb c 125). { inversion H; subst; auto. }
  destruct (until_brace s) as [[a' r']|] eqn:E; [|discriminate].
  rewrite (IH _ _ b eq_refl). inversion H; subst; auto.
Qed.
Definition no_quant (b : str) : Prop := match b with c :: _ => c <> 43%N /\ c <> 123%N | [] => True end.
Lemma parse_quant_app : forall s q r b, no_quant b ->
  parse_quant s = Some (q, r) -> parse_quant (s ++ b) = Some (q, r ++ b).
Proof.
  intros [|c s] q r b Hb H; simpl in *.
  - inversion H; subst. destruct b as [|d b]; auto. simpl in *. destruct Hb.
    destruct (N.eqb_spec d 43); [contradiction|]. destruct (N.eqb_spec d 123); [contradiction|auto].
  - destruct (N.eqb c 43). { inversion H; subst; auto. }
    destruct (N.eqb c 123).
    + destruct (until_brace s) as [[ds r']|] eqn:E; [|discriminate].
      rewrite (until_brace_app _ _ _ b E). destruct (number ds); [|discriminate].
      inversion H; subst; auto.
    + inversion H; subst; auto.
Qed.

Lemma rparse_n_no_quant : forall f s t, rparse_n f s = Some t -> no_quant s.
Proof.
  intros [|f] [|c s] t H; simpl in *; auto; try discriminate.
  destruct (N.eqb_spec c 91). { subst. split; discriminate. }
  destruct (is_plain c) eqn:E; [|discriminate].
  split; intros ->; vm_compute in E; discriminate.
Qed.

Lemma rparse_n_S : forall f s t, rparse_n f s = Some t -> rparse_n (S f) s = Some t.
Proof.
  induction f as [|f IH]; intros s t H; destruct s as [|c s]; auto; simpl in H; try discriminate.
  remember (S f) as f1. simpl.
  destruct (N.eqb c 91).
  - destruct (parse_class s) as [[[|i l] r]|]; try discriminate.
    destruct (parse_quant r) as [[q r']|]; try discriminate.
    destruct (rparse_n f r') eqn:E; [|discriminate]. rewrite (IH _ _ E). auto.
  - destruct (is_plain c); [|discriminate].
    destruct (rparse_n f s) eqn:E; [|discriminate]. rewrite (IH _ _ E). auto.
Qed.
Lemma rparse_n_plus : forall k g s t, rparse_n g s = Some t -> rparse_n (k + g) s = Some t.
Proof. induction k; intros; auto. apply (rparse_n_S (k + g)), IHk, H. Qed.
Lemma rparse_n_app : forall f a ta g b tb,
  rparse_n f a = Some ta -> rparse_n g b = Some tb ->
  rparse_n (f + g) (a ++ b) = Some (ta ++ tb).
Proof.
  induction f as [|f IH]; intros a ta g b tb Ha Hb; destruct a as [|c a]; simpl in Ha; try discriminate.
  - inversion Ha; subst; auto.
  - inversion Ha; subst. apply rparse_n_plus; auto.
  - simpl plus. cbn [app rparse_n].
    destruct (N.eqb c 91).
    + destruct (parse_class a) as [[[|i l] r]|] eqn:E; try discriminate.
      rewrite (parse_class_app _ b _ _ E).
      destruct (parse_quant r) as [[q r']|] eqn:Q; try discriminate.
      rewrite (parse_quant_app _ _ _ b (rparse_n_no_quant _ _ _ Hb) Q).
      destruct (rparse_n f r') as [ts|] eqn:R; [|discriminate].
      rewrite (IH _ _ _ _ _ R Hb). inversion Ha; subst; auto.
    + destruct (is_plain c); [|discriminate].
      destruct (rparse_n f a) as [ts|] eqn:R; [|discriminate].
      rewrite (IH _ _ _ _ _ R Hb). inversion Ha; subst; auto.
Qed.
Lemma rparse_app : forall a b ta tb,
  rparse a = Some ta -> rparse b = Some tb -> rparse (a ++ b) = Some (ta ++ tb).
Proof.
  unfold rparse. intros. rewrite app_length. apply rparse_n_app; auto.
Qed.
Lemma rparse_concat : forall l ts,
  Forall2 (fun a t => rparse a = Some t) l ts -> rparse (List.concat l) = Some (List.concat ts).
Proof.
  induction 1; simpl; auto. apply rparse_app; auto.
Qed.
Lemma rparse_plain : forall s, Forall (fun c => is_plain c = true) s ->
  rparse s = Some (map (fun c => RT [IChar c] (Some 1%N)) s).
Proof.
  induction 1 as [|c s Hc F IH]; auto.
  change (c :: s) with ([c] ++ s). rewrite map_app. apply rparse_app; auto.
  unfold rparse. simpl. rewrite Hc. destruct (N.eqb_spec c 91); auto.
  subst. vm_compute in Hc. discriminate.
Qed.

(** ** Matching token lists *)
Lemma toks_match_app : forall a b t,
  toks_match (a ++ b) t <-> exists t1 t2, t = t1 ++ t2 /\ toks_match a t1 /\ toks_match b t2.
Proof.
  induction a as [|k a IH]; simpl; intros b t.
  - split.
    + intros H. exists [], t; auto.
    + intros (t1 & t2 & -> & -> & H). auto.
  - split.
    + intros (x & y & -> & F & N & H). apply IH in H as (t1 & t2 & -> & H1 & H2).
      exists (x ++ t1), t2. rewrite app_assoc. split; auto. split; auto. exists x, t1; auto.
    + intros (t1 & t2 & -> & (x & y & -> & F & N & H1) & H2).
      exists x, (y ++ t2). rewrite app_assoc. split; auto. split; auto. split; auto.
      apply IH. eauto.
Qed.
Lemma regex_matches_app : forall p q s t,
  regex_matches p s -> regex_matches q t -> regex_matches (p ++ q) (s ++ t).
Proof.
  intros p q s t (tp & Hp & Mp) (tq & Hq & Mq). exists (tp ++ tq). split.
  - apply rparse_app; auto.
  - apply toks_match_app. eauto.
Qed.
Lemma regex_matches_nil : regex_matches [] [].
Proof. exists []. split; reflexivity. Qed.
Lemma toks_match_lits : forall s t,
  toks_match (map (fun c => RT [IChar c] (Some 1%N)) s) t <-> t = s.
Proof.
  induction s as [|c s IH]; simpl; intros t; [tauto|].
  split.
  - intros (a & b & -> & F & N & H). apply IH in H as ->.
    destruct a as [|x [|y a]]; simpl in N; try lia.
    inversion F as [|? ? Fx]; subst. simpl in Fx. rewrite orb_false_r in Fx.
    apply N.eqb_eq in Fx as ->. auto.
  - intros ->. exists [c], s. split; auto. split.
    + constructor; auto. simpl. rewrite N.eqb_refl; auto.
    + split; auto. apply IH; auto.
Qed.

(** ** Rules as class items *)
Definition rule_item (r : str) : item :=
  match r with
  | [a; _; b] => IRange a b
  | [_; e] => IChar e
  | [c] => IChar c
  | _ => IChar 0%N
  end.
Lemma rule_item_mem_ascii : forall c, (c < 128)%N -> forall r, In r RULES ->
  item_mem c (rule_item r) = match char_rule c with Some r' => str_eqb r' r | None => false end.
Proof.
  intros c L r Hr.
  pose proof (ascii_forall (fun c => forallb (fun r => Bool.eqb (item_mem c (rule_item r))
    (match char_rule c with Some r' => str_eqb r' r | None => false end)) RULES)
    ltac:(vm_compute; reflexivity) c L) as X. cbv beta in X.
  rewrite forallb_forall in X. apply X in Hr. apply eqb_prop in Hr. auto.
Qed.
Lemma rule_item_mem : forall c r, in_rules r = true ->
  (item_mem c (rule_item r) = true <-> char_rule c = Some r).
Proof.
  intros c r Hr. apply str_in_In in Hr.
  destruct (lt_or_ge_128 c) as [L|G].
  - rewrite (rule_item_mem_ascii c L r Hr). destruct (char_rule c) as [r'|].
    + rewrite str_eqb_eq. split; congruence.
    + split; discriminate.
  - rewrite char_rule_ge by auto. split; [|discriminate].
    intros H. exfalso. revert r Hr H.
    assert (X : Forall (fun r => match rule_item r with IRange a b => (b <? 128)%N | IChar d => (d <? 128)%N end = true) RULES).
    { apply Forall_forall. intros r Hr. revert r Hr. apply forallb_forall. vm_compute. reflexivity. }
    rewrite Forall_forall in X. intros r Hr H. apply X in Hr.
    unfold item_mem in H. destruct (rule_item r).
    + apply andb_true_iff in H as [_ H]. apply N.leb_le in H. apply N.ltb_lt in Hr. lia.
    + apply N.eqb_eq in H. apply N.ltb_lt in Hr. lia.
Qed.
Lemma set_mem_rules : forall c rs, Forall (fun r => in_rules r = true) rs ->
  (set_mem c (map rule_item rs) = true <-> exists r, In r rs /\ char_rule c = Some r).
Proof.
  intros c rs F. unfold set_mem. rewrite existsb_exists. rewrite Forall_forall in F. split.
  - intros (i & Hi & M). apply in_map_iff in Hi as (r & <- & Hr).
    exists r. split; auto. apply rule_item_mem; auto.
  - intros (r & Hr & E). exists (rule_item r). split; [apply in_map; auto|].
    apply rule_item_mem; auto.
Qed.

(** the heads of rules and the class reader *)
Definition no_dash (s : str) : Prop := match s with c :: _ => c <> 45%N | [] => True end.
Lemma rule_head : forall r, in_rules r = true -> r <> [] /\ no_dash r /\ forall s, no_dash (r ++ s).
Proof.
  intros r H. apply str_in_In in H.
  assert (X : forallb (fun r => match r with c :: _ => negb (N.eqb c 45) | [] => false end) RULES = true)
    by (vm_compute; reflexivity).
  rewrite forallb_forall in X. apply X in H. destruct r; [discriminate|].
  apply negb_true_iff, N.eqb_neq in H. repeat split; auto. discriminate.
Qed.
Lemma parse_class_rule : forall r s l t, in_rules r = true -> no_dash s ->
  parse_class s = Some (l, t) -> parse_class (r ++ s) = Some (rule_item r :: l, t).
Proof.
  intros r s l t Hr Hs H. apply str_in_In in Hr.
  assert (S : exists x s', s = x :: s').
  { destruct s as [|x s']; [discriminate|eauto]. }
  destruct S as (x & s' & ->). simpl in Hs. apply N.eqb_neq in Hs.
  unfold RULES in Hr. cbn [In app] in Hr.
  destruct Hr as [<-|[<-|[<-|Hr]]];
    [remember (x :: s') as s; simpl; rewrite H; reflexivity ..|].
  unfold SIGN_RULES in Hr. apply in_app_or in Hr.
  destruct Hr as [Hr|Hr]; apply in_map_iff in Hr as (c & <- & Hc).
  - assert (P : is_plain c = true /\ N.eqb c 93 = false /\ N.eqb c 92 = false).
    { revert c Hc. apply Forall_forall. repeat (constructor; [vm_compute; auto|]). constructor. }
    destruct P as (P & P1 & P2).
    change ([c] ++ x :: s') with (c :: x :: s').
    remember (x :: s') as s.
    cbn [parse_class]. rewrite P, P1, P2. subst s. cbn [negb]. rewrite Hs, H. reflexivity.
  - assert (P : char_in c letters_digits = false).
    { revert c Hc. apply Forall_forall. repeat (constructor; [vm_compute; auto|]). constructor. }
    change ([BACKSLASH; c] ++ x :: s') with (BACKSLASH :: c :: x :: s').
    remember (x :: s') as s.
    cbn [parse_class]. rewrite P, H. reflexivity.
Qed.
Lemma parse_class_rules : forall rs t, Forall (fun r => in_rules r = true) rs ->
  parse_class (List.concat rs ++ BRACKETS_R :: t) = Some (map rule_item rs, t).
Proof.
  induction 1 as [|r rs Hr F IH]; simpl; auto.
  rewrite <- app_assoc. apply parse_class_rule; auto.
  destruct F as [|r' rs' Hr' F']; simpl.
  - discriminate.
  - rewrite <- app_assoc. apply rule_head; auto.
Qed.

(** ** The text of a unit *)
Definition qstr (q : option N) : str :=
  match q with
  | None => [PLUS]
  | Some n => if N.eqb n 1 then [] else BRACES_L :: dec_str n ++ [BRACES_R]
  end.
Definition unit_str (body : str) (q : option N) : str :=
  BRACKETS_L :: body ++ BRACKETS_R :: qstr q.

Lemma specify_rule_unit : forall body n,
  specify_rule body n =
    if (n =? 0)%Z then Err EValue
    else Ok (unit_str body (if (n <? 0)%Z then None else Some (Z.to_N n))).
Proof.
  intros. unfold specify_rule, unit_str.
  destruct (Z.eqb_spec n 0) as [->|]; [reflexivity|].
  destruct (Z.eqb_spec n 1) as [->|].
  - reflexivity.
  - destruct (Z.ltb_spec n 0); auto.
    destruct (Z.ltb_spec 1 n); [|lia].
    unfold qstr. destruct (N.eqb_spec (Z.to_N n) 1); [lia|]. reflexivity.
Qed.

Lemma is_digit_in : forall c, is_digit c = true <-> char_in c digits = true.
Proof.
  intros c. destruct (lt_or_ge_128 c) as [L|G].
  - pose proof (ascii_forall (fun c => Bool.eqb (is_digit c) (char_in c digits))
      ltac:(vm_compute; reflexivity) c L) as X. apply eqb_prop in X. rewrite X; tauto.
  - rewrite is_digit_ge by auto. rewrite char_in_ge by (auto; vm_compute; auto). tauto.
Qed.
Lemma digits_val_dval : forall s a, Forall (fun c => is_digit c = true) s ->
  digits_val s a = Some (dval s a).
Proof.
  induction s as [|c s IH]; intros a F; auto. inversion F as [|? ? Hc Fs]; subst. cbn [digits_val dval].
  apply is_digit_in in Hc. rewrite Hc. apply IH; auto.
Qed.
Lemma number_dec_str : forall n, number (dec_str n) = Some n.
Proof.
  intros n. destruct (dec_str_spec n) as (F & Hn & Hv). unfold number.
  destruct (dec_str n) eqn:E; [congruence|]. rewrite <- E in *.
  rewrite digits_val_dval by auto. congruence.
Qed.
Lemma until_brace_digits : forall s r, Forall (fun c => is_digit c = true) s ->
  until_brace (s ++ BRACES_R :: r) = Some (s, r).
Proof.
  induction 1 as [|c s Hc F IH]; auto. simpl.
  destruct (N.eqb_spec c 125); [subst; discriminate|]. rewrite IH; auto.
Qed.
Lemma parse_quant_qstr : forall q, parse_quant (qstr q) = Some (q, []).
Proof.
  intros [n|]; [|reflexivity]. unfold qstr. destruct (N.eqb_spec n 1) as [->|Hn]; [reflexivity|].
  simpl. rewrite until_brace_digits by apply dec_str_digits. rewrite number_dec_str. auto.
Qed.
Lemma rparse_unit : forall rs q, rs <> [] -> Forall (fun r => in_rules r = true) rs ->
  rparse (unit_str (List.concat rs) q) = Some [RT (map rule_item rs) q].
Proof.
  intros rs q Hn F. unfold rparse, unit_str. cbn [length rparse_n].
  change (N.eqb BRACKETS_L 91) with true. cbv iota.
  rewrite parse_class_rules by auto.
  destruct rs as [|r rs]; [congruence|]. simpl map.
  rewrite parse_quant_qstr. destruct (length _); reflexivity.
Qed.
