(** The units of a pattern read as regular expressions. *)
From Coq Require Import String.
From Verif Require Import PyStr Defs ParseUtils Spec Views Patterns PyStrProofs DefsProofs RegexProofs PieceProofs LengthProofs UnitProofs BridgeProofs EntProofs TokProofs FlatCluster PatUnits MatchLevel.
From Coq Require Import Lia Sorted.

Lemma scan_close_end : forall r p cls r', scan_close p r = Some (cls, r') -> exists body, cls = body ++ [BRACKETS_R].
Proof.
  induction r as [|c r IH]; intros p cls r' H; cbn [scan_close] in H; [discriminate|]. destruct (N.eqb c BRACKETS_R && negb (N.eqb p BACKSLASH))%bool eqn:E.
  - inversion H; subst. apply andb_true_iff in E. destruct E as [E _]. apply N.eqb_eq in E. subst c. exists []. reflexivity.
  - destruct (scan_close c r) as [[a b]|] eqn:S; [|discriminate]. inversion H; subst. destruct (IH _ _ _ S) as (body & ->). exists (c :: body). reflexivity.
Qed.
Lemma isdigit_not : forall n c, isdigit n = true -> isdigit_char c = false -> ~ In c n.
Proof.
  intros n c H N I. unfold isdigit in H. destruct n; [discriminate|]. rewrite forallb_forall in H. apply H in I. congruence.
Qed.
(** the number that a quantifier text stands for *)
Definition qnum (q : str) (z : Z) : Prop :=
  (q = [] /\ z = 1%Z) \/ (q = [PLUS] /\ z = (-1)%Z) \/
  exists ds n, q = BRACES_L :: ds ++ [BRACES_R] /\ isdigit ds = true /\ py_int ds = Ok n /\ z = Z.of_N n.
Definition cls_form (w : str) (x : punit) (l : list str) (q : str) : Prop :=
  w = BRACKETS_L :: List.concat l ++ BRACKETS_R :: q /\ Forall (fun r => in_rules r = true) l /\ pu_rules x = sorted_set l /\ qnum q (pu_num x) /\
  pu_num x <> 0%Z /\ (0 < pu_num x -> Z.of_nat (length (pu_rules x)) <= pu_num x)%Z.
Lemma quant_no_bracket : forall q, is_quant q -> ~ In BRACKETS_R q.
Proof.
  intros q [->|[->|(n & -> & D & _)]]; [intros []|intros [H|[]]; discriminate|]. intros [H|H]; [discriminate|]. apply in_app_iff in H. destruct H as [H|[H|[]]]; [|discriminate].
  revert H. apply isdigit_not; [exact D|reflexivity].
Qed.
Lemma unit_cls_inv : forall w x, mk_unit w = Ok x -> cls_unit w -> exists l q, cls_form w x l q.
Proof.
  intros w x H (cls & q & -> & SC & Q). specialize (SC []). rewrite app_nil_r in SC. apply scan_close_end in SC. destruct SC as (body & ->).
  unfold mk_unit in H. apply bind_ok in H. destruct H as ([rs n] & H & E). inversion E; subst x. clear E.
  unfold parse_pattern_unit_string in H. apply bind_ok in H. destruct H as ([rs' n'] & H & E).
  destruct ((0 <? n')%Z && (n' <? Z.of_nat (length rs'))%Z || (n' =? 0)%Z)%bool eqn:C; [discriminate|]. inversion E; subst rs' n'. clear E.
  apply orb_false_iff in C. destruct C as [C1 C2]. apply Z.eqb_neq in C2.
  change (negb (N.eqb BRACKETS_L BRACKETS_L)) with false in H. cbv iota in H. apply bind_ok in H. destruct H as (num & HN & H). apply bind_ok in H. destruct H as (rs' & HC & H). inversion H; subst rs' num. clear H.
  assert (W : BRACKETS_L :: (body ++ [BRACKETS_R]) ++ q = (BRACKETS_L :: body) ++ BRACKETS_R :: q) by (rewrite <- app_assoc; reflexivity).
  rewrite W in *. rewrite rfind_char_app in HC by (apply quant_no_bracket; exact Q).
  assert (SL : slice 1 (length (BRACKETS_L :: body)) ((BRACKETS_L :: body) ++ BRACKETS_R :: q) = body) by exact (slice_app _ [BRACKETS_L] body (BRACKETS_R :: q)).
  rewrite SL in HC.
  apply class_rules_inv in HC. destruct HC as (l & F & -> & ->). rewrite fold_insert_set in *. exists l, q.
  split; [reflexivity|]. split; [exact F|]. split; [reflexivity|]. cbn [pu_num pu_rules]. split; [|split; [exact C2|intros P; apply andb_false_iff in C1; destruct C1 as [C1|C1]; apply Z.ltb_ge in C1; [lia|exact C1]]].
  cbv zeta in HN. destruct Q as [->|[->|(ds & -> & D & _)]].
  - left. split; [reflexivity|]. rewrite last_snoc in HN. change (N.eqb BRACKETS_R BRACKETS_R) with true in HN. inversion HN. reflexivity.
  - right. left. split; [reflexivity|]. change ((BRACKETS_L :: List.concat l) ++ [BRACKETS_R; PLUS]) with ((BRACKETS_L :: List.concat l) ++ [BRACKETS_R] ++ [PLUS]) in HN. rewrite app_assoc, last_snoc in HN. inversion HN. reflexivity.
  - right. right. set (a := (BRACKETS_L :: List.concat l) ++ [BRACKETS_R; BRACES_L]) in *.
    assert (W2 : (BRACKETS_L :: List.concat l) ++ BRACKETS_R :: BRACES_L :: ds ++ [BRACES_R] = a ++ ds ++ [BRACES_R]) by (unfold a; rewrite <- app_assoc; reflexivity).
    rewrite W2 in HN. rewrite (app_assoc a ds [BRACES_R]), last_snoc in HN. change (N.eqb BRACES_R BRACKETS_R) with false in HN. change (N.eqb BRACES_R BRACES_R) with true in HN. cbv iota zeta in HN. rewrite <- app_assoc in HN.
    assert (R : rfind_char BRACES_L (a ++ ds ++ [BRACES_R]) = Some (length a - 1)).
    { unfold a. replace (((BRACKETS_L :: List.concat l) ++ [BRACKETS_R; BRACES_L]) ++ ds ++ [BRACES_R]) with ((BRACKETS_L :: List.concat l ++ [BRACKETS_R]) ++ BRACES_L :: (ds ++ [BRACES_R])) by (cbn [app]; rewrite <- !app_assoc; reflexivity).
      rewrite rfind_char_app.
      - f_equal. cbn [app length]. rewrite !app_length. cbn [length]. lia.
      - intros I. apply in_app_or in I as [I|[I|[]]]; [|discriminate]. revert I. apply isdigit_not; [exact D|reflexivity]. }
    rewrite R in HN. replace (S (length a - 1)) with (length a) in HN by (unfold a; cbn [app length]; lia).
    replace (length (a ++ ds ++ [BRACES_R]) - 1) with (length a + length ds) in HN by (rewrite !app_length; cbn [length]; lia).
    rewrite slice_app, D in HN. apply bind_ok in HN. destruct HN as (m & HM & HN). inversion HN. exists ds, m. auto.
Qed.
Lemma unit_lit_inv : forall w x r, mk_unit w = Ok x -> lit_unit r w -> pu_rules x = [r] /\ pu_num x = Z.of_nat (length w) /\ is_literal x = true.
Proof.
  intros w x r H (D & N & F). unfold mk_unit in H. rewrite (parse_unit_lit w r N F D) in H. cbn [bind] in H. inversion H; subst x. split; [reflexivity|]. split; [reflexivity|].
  unfold is_literal. cbn [pu_str]. destruct w as [|c w]; [congruence|]. inversion F as [|? ? Hc _]; subst.
  cbn [startswith]. rewrite (lit_char c r Hc D). reflexivity.
Qed.

(** ** as regular expressions *)
Lemma da_plain : forall c r, char_rule c = Some r -> in_digit_ascii r = true -> is_plain c = true.
Proof.
  intros c r H D. pose proof (rule_forall (fun c r => implb (in_digit_ascii r) (is_plain c)) ltac:(vm_compute; reflexivity) c r H) as X. cbv beta in X. rewrite D in X. exact X.
Qed.
Lemma parse_class_length : forall s l r, parse_class s = Some (l, r) -> length r <= length s.
Proof.
  assert (Z : forall n s l r, length s <= n -> parse_class s = Some (l, r) -> length r <= length s).
  { induction n as [|n IHn]; intros [|c s] l r Ln H; try discriminate; cbn [length] in *; [lia|]. cbn [parse_class] in H. destruct (N.eqb c 93); [inversion H; subst; lia|]. destruct (N.eqb c 92).
    - destruct s as [|e r']; [discriminate|]. destruct (char_in e letters_digits); [discriminate|]. destruct (parse_class r') as [[l' t']|] eqn:P; [|discriminate]. inversion H; subst. apply IHn in P; cbn [length] in *; lia.
    - destruct (negb (is_plain c)); [discriminate|]. destruct s as [|d r1]; [discriminate|]. destruct (N.eqb d 45).
      + destruct r1 as [|e r2]; [discriminate|]. destruct (is_plain e && (c <=? e)%N)%bool; [|discriminate]. destruct (parse_class r2) as [[l' t']|] eqn:P; [|discriminate]. inversion H; subst. apply IHn in P; cbn [length] in *; lia.
      + destruct (parse_class (d :: r1)) as [[l' t']|] eqn:P; [|discriminate]. inversion H; subst. apply IHn in P; cbn [length] in *; lia. }
  intros s l r H. eapply Z; [apply le_n|exact H].
Qed.
Lemma parse_quant_length : forall s q r, parse_quant s = Some (q, r) -> length r <= length s.
Proof.
  intros s q r2 E2. unfold parse_quant in E2. destruct s as [|c r]; [inversion E2; subst; apply le_n|]. destruct (N.eqb c 43); [inversion E2; subst; cbn; lia|]. destruct (N.eqb c 123); [|inversion E2; subst; apply le_n].
  destruct (until_brace r) as [[ds r']|] eqn:U; [|discriminate]. destruct (number ds); [|discriminate]. inversion E2; subst. cbn [length]. clear - U. revert ds r2 U.
  induction r as [|x r IH]; intros ds r2 U; cbn [until_brace] in U; [discriminate|]. destruct (N.eqb x 125); [inversion U; subst; cbn; lia|]. destruct (until_brace r) as [[a b]|]; [|discriminate]. inversion U; subst. specialize (IH _ _ eq_refl). cbn [length] in *. lia.
Qed.
Lemma rparse_n_any : forall f g s t, rparse_n f s = Some t -> length s <= g -> rparse_n g s = Some t.
Proof.
  induction f as [|f IH]; intros g s t H L; destruct s as [|c s]; try (destruct g; exact H); [discriminate|].
  destruct g as [|g]; [cbn in L; lia|]. cbn [rparse_n length] in *. assert (L' : length s <= g) by lia. destruct (N.eqb c 91).
  - destruct (parse_class s) as [[l r1]|] eqn:E; [|discriminate]. destruct l as [|i l]; [discriminate|]. destruct (parse_quant r1) as [[q r2]|] eqn:E2; [|discriminate].
    destruct (rparse_n f r2) as [ts|] eqn:E3; [|discriminate]. rewrite (IH g r2 ts E3); [exact H|]. apply parse_class_length in E. apply parse_quant_length in E2. lia.
  - destruct (is_plain c); [|discriminate]. destruct (rparse_n f s) as [ts|] eqn:E3; [|discriminate]. rewrite (IH g s ts E3 L'). exact H.
Qed.
Lemma rparse_any : forall f s t, rparse_n f s = Some t -> rparse s = Some t.
Proof. intros f s t H. unfold rparse. apply (rparse_n_any f); [exact H|apply le_n]. Qed.

(** a quantifier text that can be read *)
Definition qread (q : str) (m : option N) : Prop := parse_quant q = Some (m, []).
Lemma until_brace_at : forall ds rest, ~ In BRACES_R ds -> until_brace (ds ++ BRACES_R :: rest) = Some (ds, rest).
Proof.
  induction ds as [|c ds IH]; intros rest N; [reflexivity|]. cbn [app until_brace]. destruct (N.eqb_spec c 125) as [->|]; [destruct N; left; reflexivity|]. rewrite IH; [reflexivity|]. intros I. apply N. right. exact I.
Qed.
Lemma quant_split : forall q rest, is_quant q -> no_quant rest -> parse_quant (q ++ rest) = match parse_quant q with Some (m, _) => Some (m, rest) | None => None end.
Proof.
  intros q rest [->|[->|(ds & -> & D & N)]] NQ.
  - cbn [app]. unfold parse_quant. destruct rest as [|c r]; [reflexivity|]. destruct NQ as [A B]. apply N.eqb_neq in A, B. rewrite A, B. reflexivity.
  - reflexivity.
  - cbn [app]. rewrite <- app_assoc. cbn [app]. unfold parse_quant. change (N.eqb BRACES_L 43) with false. change (N.eqb BRACES_L 123) with true. cbv iota. rewrite !until_brace_at by exact N. destruct (number ds); reflexivity.
Qed.
Lemma number_int : forall ds n, number ds = Some n -> py_int ds = Ok n.
Proof.
  assert (X : forall ds a n, digits_val ds a = Some n -> int_acc ds a = Ok n).
  { induction ds as [|c ds IH]; intros a n H; cbn [digits_val int_acc] in *; [inversion H; reflexivity|]. destruct (char_in c digits) eqn:E; [|discriminate]. apply is_digit_in in E. rewrite (decimal_value_digit c E). apply IH. exact H. }
  intros [|c ds] n H; [discriminate|]. apply X. exact H.
Qed.
Lemma qnum_quant : forall q z, qnum q z -> is_quant q.
Proof.
  intros q z [[-> _]|[[-> _]|(ds & n & -> & D & _)]]; [left; reflexivity|right; left; reflexivity|]. right. right. exists ds. split; [reflexivity|]. split; [exact D|]. apply isdigit_not; [exact D|reflexivity].
Qed.
Lemma qnum_read : forall q z m r, qnum q z -> parse_quant q = Some (m, r) -> znum m = z.
Proof.
  intros q z m r [[-> ->]|[[-> ->]|(ds & n & -> & D & I & ->)]] H; try (cbn in H; inversion H; reflexivity).
  unfold parse_quant in H. change (N.eqb BRACES_L 43) with false in H. change (N.eqb BRACES_L 123) with true in H. cbv iota in H. rewrite until_brace_at in H by (apply isdigit_not; [exact D|reflexivity]).
  destruct (number ds) as [k|] eqn:E; [|discriminate]. inversion H; subst. apply number_int in E. rewrite E in I. inversion I. reflexivity.
Qed.
Lemma rparse_cls : forall f l q rest, Forall (fun r => in_rules r = true) l -> is_quant q -> no_quant rest ->
  rparse_n (S f) (BRACKETS_L :: List.concat l ++ BRACKETS_R :: q ++ rest) =
  match map rule_item l, parse_quant q with
  | [], _ => None
  | _, None => None
  | l', Some (m, _) => match rparse_n f rest with Some ts => Some (RT l' m :: ts) | None => None end
  end.
Proof.
  intros f l q rest F Q N. cbn [rparse_n]. change (N.eqb BRACKETS_L 91) with true. cbv iota. rewrite parse_class_rules by exact F. destruct (map rule_item l) as [|i l']; [reflexivity|].
  rewrite quant_split by assumption. destruct (parse_quant q) as [[m r]|]; reflexivity.
Qed.
(** each unit of a readable pattern is readable *)
Lemma rparse_units : forall us prev, seps prev us -> Forall (fun w => exists x, mk_unit w = Ok x) us -> rparse (List.concat us) <> None -> Forall (fun w => rparse w <> None) us.
Proof.
  assert (X : forall us prev f ts, seps prev us -> Forall (fun w => exists x, mk_unit w = Ok x) us -> rparse_n f (List.concat us) = Some ts -> Forall (fun w => rparse w <> None) us).
  { induction us as [|w us IH]; intros prev f ts S M H; [constructor|]. destruct S as (k & K & _ & S). inversion M as [|? ? (x & MX) M']; subst. pose proof (seps_no_quant _ _ S) as NQ. cbn [List.concat] in H. destruct K as [r w (D & N & F)|w C].
    - assert (P : Forall (fun c => is_plain c = true) w).
      { eapply Forall_impl; [|exact F]. intros c Hc. exact (da_plain c r Hc D). }
      constructor; [rewrite (rparse_plain w P); discriminate|]. clear - IH S M' H P.
      assert (Y : forall f ts, rparse_n f (w ++ List.concat us) = Some ts -> exists f' ts', rparse_n f' (List.concat us) = Some ts').
      { clear - P. induction P as [|c w Hc P IHp]; intros f ts H; [eauto|]. destruct f as [|f]; [discriminate|]. cbn [app rparse_n] in H. destruct (N.eqb_spec c 91) as [->|]; [discriminate|]. rewrite Hc in H. destruct (rparse_n f (w ++ List.concat us)) eqn:E; [|discriminate]. eapply IHp; exact E. }
      destruct (Y _ _ H) as (f' & ts' & H'). eapply IH; eauto.
    - destruct (unit_cls_inv _ _ MX C) as (l & q & W & FL & _ & QN & _). apply qnum_quant in QN. rewrite W in H. cbn [app] in H. rewrite <- app_assoc in H. cbn [app] in H. destruct f as [|f]; [discriminate|]. rewrite rparse_cls in H by assumption.
      destruct (map rule_item l) as [|i l'] eqn:EL; [discriminate|]. destruct (parse_quant q) as [[m r]|] eqn:EQ; [|discriminate]. destruct (rparse_n f (List.concat us)) as [ts'|] eqn:E; [|discriminate]. constructor; [|eapply IH; eauto].
      rewrite W. intros Z. unfold rparse in Z. cbn [length] in Z. rewrite <- (app_nil_r q) in Z at 2. rewrite rparse_cls in Z by (auto; exact Logic.I). rewrite EL, EQ in Z. cbn [rparse_n] in Z. destruct (length _); discriminate. }
  intros us prev S M R. destruct (rparse (List.concat us)) as [ts|] eqn:E; [|congruence]. unfold rparse in E. eapply X; eauto.
Qed.

(** ** units against texts *)
Definition ulen (t : str) : Z := Z.of_nat (length t).
Lemma pp_length : forall t pp, all_legal t -> ~ In 92%N t -> piece pp = piece (pp_of t) -> piece_length pp = Ok (ulen t).
Proof.
  intros t pp L B E. assert (X : piece_length pp = piece_length (pp_of t)) by (unfold piece_length; rewrite E; reflexivity). rewrite X.
  apply (c04_clean t); [apply piece_parse_iff; auto|exact B].
Qed.
Lemma unit_sound : forall x k t pp, mk_unit (pu_str x) = Ok x -> kind (pu_str x) k -> rparse (pu_str x) <> None -> all_legal t -> ~ In 92%N t -> piece pp = piece (pp_of t) ->
  cset t = sorted_set (pu_rules x) -> sacc (unit_mp x) pp -> regex_matches (pu_str x) t.
Proof.
  intros x k t pp MX K R L B EP EC A. assert (LEN := pp_length t pp L B EP). unfold sacc, unit_mp in A. cbn [mp_view mp_str num1 mp_units view_cls_from_units] in A. unfold num1 in A. cbn [mp_units] in A.
  destruct (is_literal x) eqn:EL.
  - rewrite <- A, EP. apply piece_regex; [exact L|reflexivity].
  - inversion K as [r w LU|w CU]; subst w; [destruct (unit_lit_inv _ _ _ MX LU) as (_ & _ & X); congruence|].
    destruct (unit_cls_inv _ _ MX CU) as (l & q & W & F & RU & Q & NZ & _). destruct (rparse (pu_str x)) as [ts|] eqn:RP; [|congruence]. exists ts. split; [exact RP|].
    pose proof RP as RP'. unfold rparse in RP. rewrite W in RP. cbn [length] in RP. rewrite <- (app_nil_r q) in RP at 2. rewrite rparse_cls in RP; [|exact F|eapply qnum_quant; exact Q|exact Logic.I].
    assert (MEM : Forall (fun c => set_mem c (map rule_item l) = true) t).
    { apply Forall_forall. intros c I. apply set_mem_rules; [exact F|]. unfold all_legal in L. rewrite Forall_forall in L. destruct (L c I) as [r Hr]. exists r. split; [|exact Hr].
      assert (J : In r (cset t)) by (apply cset_chars; [apply Forall_forall; exact L|eauto]). rewrite EC, RU in J. apply (proj1 (sorted_set_In _ _)) in J. apply (proj1 (sorted_set_In _ _)) in J. exact J. }
    destruct (map rule_item l) as [|i l'] eqn:EM; [discriminate|]. destruct (parse_quant q) as [[m r]|] eqn:PQ; [|discriminate].
    pose proof (qnum_read _ _ _ _ Q PQ) as Z. assert (TS : ts = [RT (i :: l') m]). { cbn [rparse_n] in RP. destruct (length _); inversion RP; reflexivity. } subst ts.
    cbn [toks_match rset rnum]. exists t, []. split; [rewrite app_nil_r; reflexivity|]. split; [exact MEM|]. split; [|reflexivity].
    assert (NT : t <> []). { intros ->. assert (X : sorted_set (pu_rules x) = []) by (rewrite <- EC; reflexivity). rewrite sorted_set_nil_iff, RU, sorted_set_nil_iff in X. subst l. discriminate. }
    destruct m as [n|]; [|exact NT]. cbn [znum] in Z. rewrite <- Z in A. destruct (Z.ltb_spec (Z.of_N n) 0) as [X|X]; [lia|]. rewrite LEN in A. unfold ulen in A. inversion A as [Y]. lia.
Qed.
