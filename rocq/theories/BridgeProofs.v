(** From the lemmas about the model to the vocabulary of Spec.v (C01-C07, C10,
    C12, C13). *)
From Coq Require Import String.
From Verif Require Import PyStr Defs UrlLib ParseUtils PyStrProofs DefsProofs Spec RegexProofs
  PieceProofs LengthProofs QueryProofs UnitProofs.
From Coq Require Import Lia Sorted.

Lemma rule_space : forall c r, char_rule c = Some r -> r = space_text c.
Proof.
  intros c r H. apply str_eqb_eq.
  apply (rule_forall (fun c r => str_eqb r (space_text c)) ltac:(vm_compute; reflexivity) c r H).
Qed.
Lemma legal_space : forall c, legal c -> char_rule c = Some (space_text c).
Proof. intros c H. apply legal_rule in H as [r H]. rewrite (rule_space _ _ H) in H. auto. Qed.
Definition same_spaceb (a b : char) : bool :=
  (char_in a lowercase && char_in b lowercase) || (char_in a uppercase && char_in b uppercase)
  || (char_in a digits && char_in b digits) || N.eqb a b.
Lemma same_spaceb_iff : forall a b, same_spaceb a b = true <-> same_space a b.
Proof.
  intros. unfold same_spaceb, same_space. rewrite !orb_true_iff, !andb_true_iff, !char_in_In, N.eqb_eq. tauto.
Qed.
Lemma same_space_rule : forall a b ra rb, char_rule a = Some ra -> char_rule b = Some rb ->
  (same_space a b <-> ra = rb).
Proof.
  intros a b ra rb Ha Hb. rewrite <- same_spaceb_iff, <- str_eqb_eq.
  pose proof (rule_forall (fun a ra => forallb (fun b => match char_rule b with Some rb =>
     Bool.eqb (same_spaceb a b) (str_eqb ra rb) | None => true end) ascii_range)
     ltac:(vm_compute; reflexivity) a ra Ha) as X. cbv beta in X.
  rewrite forallb_forall in X.
  destruct (lt_or_ge_128 b) as [L|G]; [|rewrite char_rule_ge in Hb by auto; discriminate].
  specialize (X b (ascii_range_In _ L)). rewrite Hb in X. apply eqb_prop in X. rewrite X. tauto.
Qed.
Lemma ld_alnum : forall c, char_in c letters_digits = is_alnum c.
Proof.
  intros c. destruct (lt_or_ge_128 c) as [L|G].
  - pose proof (ascii_forall (fun c => Bool.eqb (char_in c letters_digits) (is_alnum c))
      ltac:(vm_compute; reflexivity) c L) as X. apply eqb_prop in X; auto.
  - rewrite is_alnum_ge, char_in_ge; auto.
Qed.

Lemma run_text_render : forall r w, run_ok (r, w) -> render (r, w) = run_text w /\ r = run_space w.
Proof.
  intros r [|c w] [Hn F]; cbn [fst snd] in *; [congruence|]. inversion F as [|? ? Hc Fw]; subst.
  pose proof (rule_space _ _ Hc) as ->. split; auto.
  unfold render, run_text. cbn [fst snd]. rewrite (sign_alnum _ _ Hc), ld_alnum.
  destruct (is_alnum c); auto. simpl negb. cbv iota. unfold unit_str, qstr.
  change (u "[") with [BRACKETS_L]. change (u "]") with [BRACKETS_R]. cbn [app]. f_equal. f_equal. f_equal.
  destruct (N.eqb_spec (N.of_nat (length (c :: w))) 1) as [E|E].
  - destruct w; auto. simpl length in E. lia.
  - destruct w; [simpl in E; congruence|reflexivity].
Qed.
Lemma runs_maximal : forall s, all_legal s -> maximal_runs s (map snd (runs s)).
Proof.
  intros s L. destruct (runs_spec s L) as (F & A & E). split; auto. split.
  - clear E A. induction F as [|[r w] l [Hn Hw] F IH]; simpl; constructor; auto. split; auto.
    intros x y Hx Hy. rewrite Forall_forall in Hw.
    apply (same_space_rule x y r r); auto.
  - clear E L. revert F A. generalize (runs s). induction l as [|[r w] l IH]; intros F A; simpl; auto.
    inversion F as [|? ? Hok F']; subst. destruct A as [A1 A2]. split; [|auto].
    destruct l as [|[r2 w2] l]; simpl; auto. intros x y Hx Hy Hs.
    inversion F' as [|? ? [_ H2] _]; subst. destruct Hok as [_ H1]. simpl in *.
    rewrite Forall_forall in H1, H2. apply (same_space_rule x y r r2) in Hs; auto.
Qed.

Lemma c01 : forall s,
  (Forall legal s -> exists p, piece_parse s = Ok p) /\
  (~ Forall legal s -> piece_parse s = Err EInvalidChar).
Proof.
  intros s. rewrite <- all_legal_iff. split; intros H.
  - rewrite piece_parse_legal; eauto.
  - apply piece_parse_illegal; auto.
Qed.
Lemma c02 : forall s p, piece_parse s = Ok p ->
  exists ws, maximal_runs s ws /\ pieces p = map run_text ws /\ rules p = map run_space ws.
Proof.
  intros s p H. apply piece_parse_iff in H as [L ->].
  exists (map snd (runs s)). split; [apply runs_maximal; auto|].
  destruct (runs_spec s L) as (F & _). unfold pp_of. simpl. rewrite !map_map.
  split; apply map_ext_in; intros [r w] Hi; rewrite Forall_forall in F; apply F in Hi;
    apply run_text_render in Hi as [? ?]; auto.
Qed.
(** maximal runs are unique, so c02 determines the result *)
Lemma same_space_refl : forall x, same_space x x.
Proof. intros. right; right; right; auto. Qed.
Lemma maximal_runs_unique : forall s ws ws', maximal_runs s ws -> maximal_runs s ws' -> ws = ws'.
Proof.
  intros s ws. revert s. induction ws as [|w ws IH]; intros s ws' (E & F & A) (E' & F' & A').
  - simpl in E. subst s. destruct ws' as [|w' ws']; auto. inversion F' as [|? ? [Hn _] _]; subst.
    destruct w'; simpl in E'; congruence.
  - destruct ws' as [|w' ws'].
    { simpl in E'. subst s. inversion F as [|? ? [Hn _] _]; subst. destruct w; simpl in *; congruence. }
    assert (X : w = w').
    { inversion F as [|? ? [Hn Hs] Ft]; subst. inversion F' as [|? ? [Hn' Hs'] Ft']; subst.
      simpl in E'. destruct A as [A1 _], A' as [A1' _].
      assert (G : forall (w w' : str) (ws ws' : list str), w <> [] -> w' <> [] ->
         (forall x y, In x w -> In y w -> same_space x y) -> (forall x y, In x w' -> In y w' -> same_space x y) ->
         Forall (fun w => w <> [] /\ forall x y, In x w -> In y w -> same_space x y) ws ->
         match ws with b :: _ => forall x y, In x w -> In y b -> ~ same_space x y | [] => True end ->
         w ++ List.concat ws = w' ++ List.concat ws' -> forall t, w' = w ++ t -> t = []).
      { clear. intros w w' ws ws' Hn Hn' Hs Hs' F A E t ->. destruct t as [|c t]; auto. exfalso.
        rewrite <- app_assoc in E. apply app_inv_head in E. simpl in E.
        destruct ws as [|b ws]; [discriminate|]. inversion F as [|? ? [Hb _] _]; subst.
        destruct b as [|d b]; [congruence|]. simpl in E. inversion E; subst.
        destruct w as [|x w]; [congruence|].
        apply (A x c); simpl; auto. apply Hs'; simpl; auto. right. apply in_or_app. simpl; auto. }
      assert (P : forall (a b c d : str), a ++ b = c ++ d -> (exists t, c = a ++ t) \/ (exists t, a = c ++ t)).
      { clear. induction a as [|x a IH]; intros b c d E; [left; exists c; auto|].
        destruct c as [|y c]; [right; exists (x :: a); auto|]. simpl in E. inversion E as [[E1 E2]]; subst.
        destruct (IH _ _ _ E2) as [[t ->]|[t ->]]; [left|right]; exists t; auto. }
      symmetry in E'. destruct (P _ _ _ _ E') as [[t Ht]|[t Ht]].
      - rewrite (G w w' ws ws' Hn Hn' Hs Hs' Ft A1 E' t Ht), app_nil_r in Ht. auto.
      - symmetry in E'. rewrite (G w' w ws' ws Hn' Hn Hs' Hs Ft' A1' E' t Ht), app_nil_r in Ht. auto. }
    subst w'. f_equal. simpl in *. inversion F; inversion F'; subst.
    apply (IH (List.concat ws)); repeat split; auto; try tauto. apply app_inv_head in E'. auto.
Qed.
Lemma c03 : forall s t ps pt, piece_parse s = Ok ps -> piece_parse t = Ok pt ->
  piece ps = piece pt -> s = t.
Proof.
  intros s t ps pt Hs Ht E. apply piece_parse_iff in Hs as [Ls ->], Ht as [Lt ->]. apply piece_inj; auto.
Qed.
Lemma c04 : forall s p, piece_parse s = Ok p ->
  piece_length p = Ok (Z.of_nat (length s + backslash_runs false s)).
Proof. intros s p H. apply piece_parse_iff in H as [L ->]. apply piece_length_spec; auto. Qed.
Lemma c04_clean : forall s p, piece_parse s = Ok p -> ~ In 92%N s ->
  piece_length p = Ok (Z.of_nat (length s)).
Proof. intros. rewrite (c04 s) by auto. rewrite bs_starts_zero by auto. rewrite Nat.add_0_r. auto. Qed.
Lemma c05 : forall s p, piece_parse s = Ok p -> forall t, regex_matches (piece p) t <-> t = s.
Proof. intros s p H t. apply piece_parse_iff in H as [L ->]. apply piece_regex; auto. Qed.

Lemma c06 : forall A (truthy : A -> bool) (l : list A) (x : A),
  filter_useless truthy (l ++ [x]) = filter truthy l ++ [x].
Proof. intros. apply filter_useless_snoc. Qed.

(** ** C07 *)
Lemma split_param_cases : forall p,
  (exists k v, p = k ++ EQUALS :: v /\ ~ In EQUALS k /\ split_param p = (k ++ [EQUALS], v)) \/
  (~ In EQUALS p /\ split_param p = (p, [])).
Proof.
  intros p. unfold split_param. destruct (cut EQUALS p) as [[k v]|] eqn:E.
  - apply cut_some in E as [-> H]. left. eauto.
  - apply cut_none in E. auto.
Qed.
Lemma c07_err : forall s, s <> [] ->
  (parse_query_string (Some s) = Err EIrregularURL <-> amp_misplaced s).
Proof.
  intros s Hs. destruct (parse_query_string_spec s Hs) as [P1 P2].
  rewrite <- split_empty_iff by auto. split.
  - intros H. destruct (in_dec str_dec [] (split_char AMPERSAND s)); auto. exfalso.
    rewrite P1 in H; [discriminate|]. apply Forall_forall. intros w Hw ->. auto.
  - intros H. apply P2. rewrite Forall_forall. intros F. apply (F []); auto.
Qed.
Lemma combine_map_l : forall A B C (f : A -> B) (g : A -> C) l,
  combine (map f l) (map g l) = map (fun x => (f x, g x)) l.
Proof. induction l; simpl; congruence. Qed.
Lemma c07_ok : forall s r, s <> [] -> parse_query_string (Some s) = r -> r <> Err EIrregularURL ->
  exists ks vs, r = Ok (ks, vs) /\ length ks = length vs /\ 1 <= length ks /\
    join [38%N] (map (fun kv => fst kv ++ snd kv) (combine ks vs)) = s /\
    Forall (fun kv => kv_ok (length ks =? 1) (fst kv) (snd kv) /\ ~ In 38%N (fst kv ++ snd kv)) (combine ks vs).
Proof.
  intros s r Hs H Hr. destruct (parse_query_string_spec s Hs) as [P1 P2].
  assert (F : Forall (fun w => w <> []) (split_char AMPERSAND s)).
  { destruct (in_dec str_dec [] (split_char AMPERSAND s)) as [Hi|Hi].
    - exfalso. apply Hr. rewrite <- H. apply P2. rewrite Forall_forall. intros F. apply (F []); auto.
    - apply Forall_forall. intros w Hw ->. auto. }
  rewrite P1 in H by auto. subst r. unfold query_spec.
  assert (NS : Forall (fun w => ~ In AMPERSAND w) (split_char AMPERSAND s))
    by (apply Forall_forall; apply split_char_nosep). pose proof (split_join AMPERSAND s) as SJ.
  pose proof (split_char_nonnil AMPERSAND s) as NN.
  set (ps := split_char AMPERSAND s) in *. clearbody ps.
  destruct ps as [|p [|p2 ps]]; [congruence| |].
  - simpl in SJ. subst p. inversion NS as [|? ? Hns _]; subst.
    destruct (split_param_cases s) as [(k & v & E & Hk & Ep)|[Hk Ep]]; rewrite Ep; simpl fst; simpl snd.
    + rewrite ends_with_char_app, N.eqb_refl. simpl negb. cbv iota.
      do 2 eexists. split; [reflexivity|]. simpl. repeat split; auto.
      { rewrite <- app_assoc. simpl. auto. }
      constructor; [|constructor]. simpl. split; [left; eauto|]. rewrite <- app_assoc. simpl. rewrite <- E. auto.
    + replace (ends_with_char EQUALS s) with false.
      2:{ symmetry. destruct (ends_with_char EQUALS s) eqn:Ee; auto. apply ends_with_char_iff in Ee as [a ->].
          exfalso. apply Hk. apply in_or_app. simpl; auto. }
      do 2 eexists. split; [reflexivity|]. simpl. repeat split; auto.
      constructor; [|constructor]. simpl. split; auto. right; right. auto.
  - set (l := p :: p2 :: ps) in *. do 2 eexists. split; [reflexivity|]. rewrite !map_length. split; auto.
    split; [unfold l; simpl; lia|]. rewrite combine_map_l, map_map. split.
    + rewrite <- SJ. f_equal. rewrite <- (map_id l) at 2. apply map_ext. intros w. apply split_param_app.
    + apply Forall_map. cbn [fst snd]. eapply Forall_impl; [|exact NS]. intros w Hw. cbv beta in *. cbn [fst snd].
      rewrite split_param_app. split; auto.
      destruct (split_param_cases w) as [(k & v & E & Hk & Ep)|[Hk Ep]]; rewrite Ep; simpl fst; simpl snd.
      * left; eauto.
      * right; left. auto.
Qed.

(** ** C10 *)
Lemma c10_inj : forall s t, Forall legal s -> Forall legal t ->
  normalize s (u "=") = normalize t (u "=") -> s = t.
Proof. intros s t Hs Ht. apply normalize_inj; apply all_legal_iff; auto. Qed.
Lemma c10_regex : forall s, Forall legal s ->
  exists k, normalize s (u "=") = Ok k /\ forall t, regex_matches k t <-> t = s.
Proof.
  intros s H. apply all_legal_iff in H. exists (ntext [EQUALS] s). split; [apply normalize_spec; auto|].
  intros t. apply ntext_regex; auto.
Qed.

(** ** C12 *)
Lemma space_texts_rules : forall r, In r space_texts <-> in_rules r = true.
Proof.
  intros r. unfold space_texts. rewrite in_map_iff. split.
  - intros (c & <- & H). apply legal_space in H. eapply rule_in_rules; eauto.
  - intros H. apply in_rules_char in H as [c H]. exists c. rewrite <- (rule_space _ _ H). split; auto.
    apply legal_rule; eauto.
Qed.
Lemma c12_ok : forall rs num, rs <> [] -> Forall (fun r => In r space_texts) rs ->
  StronglySorted str_lt rs -> (num < 0 \/ (Z.of_nat (length rs) <= num)%Z)%Z ->
  exists w, specify_rule (List.concat rs) num = Ok w /\
    parse_pattern_unit_string w = Ok (rs, if (num <? 0)%Z then (-1)%Z else num).
Proof.
  intros rs num Hn F S H.
  assert (F' : Forall (fun r => in_rules r = true) rs).
  { eapply Forall_impl; [|exact F]. intros r. apply space_texts_rules. }
  assert (L : 1 <= length rs) by (destruct rs; simpl; [congruence|lia]).
  destruct (Z.ltb_spec num 0) as [Hneg|Hpos].
  - exists (unit_str (List.concat rs) None). split.
    + rewrite specify_rule_unit. destruct (Z.eqb_spec num 0); [lia|]. destruct (Z.ltb_spec num 0); [|lia]. auto.
    + rewrite parse_unit_class by auto. rewrite sorted_set_id; auto.
  - exists (unit_str (List.concat rs) (Some (Z.to_N num))). split.
    + rewrite specify_rule_unit. destruct (Z.eqb_spec num 0); [lia|]. destruct (Z.ltb_spec num 0); [lia|]. auto.
    + rewrite parse_unit_class; auto. 2:{ rewrite sorted_set_id by auto. lia. }
      rewrite sorted_set_id by auto. simpl znum. rewrite Z2N.id; auto.
Qed.
Lemma c12_zero : forall r, specify_rule r 0 = Err EValue.
Proof. reflexivity. Qed.

(** ** C13 *)
Lemma scan_close_body : forall r p cls r', scan_close p r = Some (cls, r') ->
  exists body, cls = body ++ [93%N] /\
    (forall a b, p :: body = a ++ 93%N :: b -> a = [] \/ exists a', a = a' ++ [92%N]) /\
    (forall a, p :: body <> a ++ [92%N]).
Proof.
  induction r as [|c r IH]; intros p cls r' H; [discriminate|]. simpl in H.
  destruct (N.eqb c BRACKETS_R && negb (N.eqb p BACKSLASH)) eqn:E.
  - inversion H; subst. apply andb_true_iff in E as [E1 E2]. apply N.eqb_eq in E1. subst c.
    exists []. split; auto. split.
    + intros a b X. destruct a as [|x [|y a]]; auto; simpl in X; inversion X.
    + intros a X. destruct a as [|x [|y a]]; simpl in X; inversion X; subst. discriminate.
  - destruct (scan_close c r) as [[a b]|] eqn:Sc; [|discriminate]. inversion H; subst.
    destruct (IH _ _ _ Sc) as (body & -> & B1 & B2). exists (c :: body). split; auto. split.
    + intros a0 b0 X. destruct a0 as [|x a0]; auto. simpl in X. inversion X as [[X1 X2]]; subst x.
      destruct (B1 _ _ X2) as [->|[a' ->]]; right; [|exists (p :: a'); auto].
      exists []. simpl in X2. inversion X2; subst. simpl in E. apply negb_false_iff, N.eqb_eq in E. subst. auto.
    + intros a0 X. destruct a0 as [|x a0]; [discriminate|]. simpl in X. inversion X as [[X1 X2]]. eapply B2; eauto.
Qed.
Lemma digit_ascii_alnum : forall c r, char_rule c = Some r -> in_digit_ascii r = is_alnum c.
Proof.
  intros c r H. pose proof (rule_forall (fun c r => Bool.eqb (in_digit_ascii r) (is_alnum c))
    ltac:(vm_compute; reflexivity) c r H) as X. apply eqb_prop in X; auto.
Qed.
Lemma lit_unit_literal : forall r w, lit_unit r w -> literal_unit w.
Proof.
  intros r w (D & Hn & F). split; auto. split.
  - eapply Forall_impl; [|exact F]. intros c Hc. cbv beta in Hc. rewrite <- char_in_In, ld_alnum.
    rewrite <- (digit_ascii_alnum _ _ Hc). auto.
  - intros x y Hx Hy. rewrite Forall_forall in F. apply (same_space_rule x y r r); auto.
Qed.
Lemma cls_unit_bracket : forall w, cls_unit w -> bracket_unit w.
Proof.
  intros w (cls & q & -> & Hc & Hq). specialize (Hc []). rewrite app_nil_r in Hc.
  destruct (scan_close_body _ _ _ _ Hc) as (body & -> & B1 & B2).
  exists body, q. split. { simpl. rewrite <- app_assoc. auto. }
  split; [exact Hq|]. split.
  - intros a b E. destruct (B1 (91%N :: a) b) as [H|[a' H]]; [rewrite E; auto|discriminate|].
    destruct a' as [|x a']; [discriminate|]. simpl in H. inversion H; subst. eauto.
  - intros a E. apply (B2 (91%N :: a)). rewrite E. auto.
Qed.
Lemma literal_not_bracket : forall w, literal_unit w -> cls_unit w -> False.
Proof.
  intros w (_ & F & _) (cls & q & -> & _). inversion F as [|? ? H _]; subst.
  apply char_in_In in H. vm_compute in H. discriminate.
Qed.
Lemma c13_ok : forall p us, parse_pattern_string p = Ok us ->
  List.concat us = p /\ (p = [] -> us = [[]]) /\
  (p <> [] -> Forall (fun w => (literal_unit w \/ bracket_unit w) /\ parse_pattern_string w = Ok [w]) us /\ units_apart us).
Proof.
  intros p us H. apply parse_pattern_string_inv in H as [[-> ->]|(Hp & Hu & E & S)].
  - split; auto. split; auto. congruence.
  - split; auto. split; [congruence|]. intros _. clear Hu E Hp. revert S. generalize (@None str) as prev.
    induction us as [|w us IH]; intros prev S.
    + split; constructor.
    + destruct S as (k & K & Hk & S). destruct (IH _ S) as [I1 I2]. split.
      * constructor; auto. split.
        -- inversion K; subst; [left; eapply lit_unit_literal; eauto|right; apply cls_unit_bracket; auto].
        -- rewrite <- (app_nil_r w) at 1. apply (parse_pattern_string_forward [w]); [discriminate|].
           exists k. split; auto. split; [congruence|exact I].
      * split; auto. destruct us as [|w2 us]; auto. intros L1 L2 x y Hx Hy Hs.
        destruct S as (k2 & K2 & Hk2 & _).
        inversion K as [r1 ? (D1 & _ & F1)|? C1]; subst; [|exact (literal_not_bracket w L1 C1)].
        inversion K2 as [r2 ? (D2 & _ & F2)|? C2]; subst; [|exact (literal_not_bracket w2 L2 C2)].
        rewrite Forall_forall in F1, F2. apply (same_space_rule x y r1 r2) in Hs; auto. subst r2.
        apply Hk2; congruence.
Qed.
Lemma c13_err : forall p e, parse_pattern_string p = Err e -> e = EInvalidPattern.
Proof. exact parse_pattern_string_err. Qed.
