(** C45: the grammar of GrammarSpec.v is the language the parsers accept. *)
From Coq Require Import String.
From Verif Require Import PyStr Defs UrlLib ParseUtils Spec Views Trees Patterns Matcher MatchSpec GrammarSpec PyStrProofs DefsProofs RegexProofs PieceProofs LengthProofs QueryProofs UnitProofs BridgeProofs UrlProofs PackProofs EntProofs TokProofs FlatCluster PatUnits MatchLevel MatchUnits MatchNest.
From Coq Require Import Lia Sorted.

(** ** Splitting into units *)
Lemma lastc_snoc : forall a p x, lastc p (a ++ [x]) = x.
Proof. induction a as [|c a IH]; intros p x; [reflexivity|]. cbn [app lastc]. apply IH. Qed.
Lemma lastc_92 : forall r p, lastc p r = 92%N -> p = 92%N /\ r = [] \/ exists a, r = a ++ [92%N].
Proof.
  intros r. destruct r as [|x a _] using rev_ind; intros p H; [left; split; [exact H|reflexivity]|].
  rewrite lastc_snoc in H. subst. right. eauto.
Qed.
Lemma safe_intro : forall r p, (forall a b, r = a ++ 93%N :: b -> lastc p a = 92%N) -> lastc p r <> 92%N -> safe p r = true.
Proof.
  induction r as [|c r IH]; intros p A B; cbn [safe].
  - destruct (N.eqb_spec p BACKSLASH) as [E|E]; [|reflexivity]. exfalso. apply B. exact E.
  - apply andb_true_intro. split.
    + destruct (N.eqb_spec c BRACKETS_R) as [E|E]; [|reflexivity]. subst c. pose proof (A [] r eq_refl) as H. cbn [lastc] in H. subst p. reflexivity.
    + apply IH; [|exact B]. intros a b E. subst r. exact (A (c :: a) b eq_refl).
Qed.
Lemma bracket_cls : forall w, bracket_unit w -> cls_unit w.
Proof.
  intros w (body & q & -> & Q & A & B). exists (body ++ [93%N]), q. split; [cbn; rewrite <- app_assoc; reflexivity|]. split; [|exact Q].
  assert (S : safe BRACKETS_L body = true).
  { apply safe_intro.
    - intros a b E. destruct (A a b E) as (a' & ->). apply lastc_snoc.
    - intros E. apply lastc_92 in E. destruct E as [[E _]|(a & E)]; [discriminate|exact (B a E)]. }
  intros t. rewrite <- app_assoc. rewrite scan_close_safe by exact S. cbn [app scan_close]. rewrite (safe_last _ _ S). reflexivity.
Qed.
Lemma ld_legal : Forall legal letters_digits.
Proof.
  apply Forall_forall. intros x I. assert (H : forallb (fun c => char_in c legal_chars) letters_digits = true) by (vm_compute; reflexivity).
  rewrite forallb_forall in H. apply char_in_In. exact (H x I).
Qed.
Lemma literal_lit : forall c r, literal_unit (c :: r) -> lit_unit (space_text c) (c :: r).
Proof.
  intros c r (N & F & SS).
  assert (L : forall x, In x (c :: r) -> char_rule x = Some (space_text x) /\ in_digit_ascii (space_text x) = true).
  { intros x I. rewrite Forall_forall in F. specialize (F x I). apply char_in_In in F. rewrite ld_alnum in F.
    assert (K : char_rule x = Some (space_text x)).
    { apply legal_space. apply (proj1 (Forall_forall _ letters_digits) ld_legal). rewrite <- ld_alnum in F. apply char_in_In. exact F. }
    split; [exact K|]. rewrite (digit_ascii_alnum _ _ K). exact F. }
  split; [exact (proj2 (L c (or_introl eq_refl)))|]. split; [discriminate|]. apply Forall_forall. intros x I.
  destruct (L x I) as [K _]. rewrite K. f_equal. apply (same_space_rule x c _ _ K (proj1 (L c (or_introl eq_refl)))). apply SS; [exact I|left; reflexivity].
Qed.
Lemma unit_kind : forall w, literal_unit w \/ bracket_unit w ->
  (exists c r, w = c :: r /\ literal_unit w /\ kind w (Some (space_text c))) \/ (kind w None /\ ~ literal_unit w).
Proof.
  intros w [L|B].
  - left. destruct w as [|c r]; [destruct L as [L _]; congruence|]. exists c, r. split; [reflexivity|]. split; [exact L|]. constructor. apply literal_lit. exact L.
  - right. apply bracket_cls in B. split; [constructor; exact B|]. intros L. exact (literal_not_bracket _ L B).
Qed.
Lemma apart_seps : forall us prev, Forall (fun w => literal_unit w \/ bracket_unit w) us -> units_apart us ->
  (match us with [] => True | w :: _ => forall c r, w = c :: r -> literal_unit w -> prev <> Some (space_text c) end) -> seps prev us.
Proof.
  induction us as [|w us IH]; intros prev F A P; [exact Logic.I|]. inversion F as [|? ? FW FU]; subst. cbn [units_apart] in A. destruct A as [A1 A2].
  destruct (unit_kind w FW) as [(c & r & -> & L & K)|[K NL]].
  - exists (Some (space_text c)). split; [exact K|]. split; [intros _ E; exact (P c r eq_refl L (eq_sym E))|]. apply IH; [exact FU|exact A2|].
    destruct us as [|w2 us]; [exact Logic.I|]. intros c2 r2 -> L2 E. apply (A1 L L2 c c2); [left; reflexivity|left; reflexivity|].
    apply literal_lit in L. apply literal_lit in L2. destruct L as (_ & _ & L), L2 as (_ & _ & L2). inversion L as [|? ? K1 _]; subst. inversion L2 as [|? ? K2 _]; subst.
    apply (same_space_rule c c2 _ _ K1 K2). congruence.
  - exists None. split; [exact K|]. split; [congruence|]. apply IH; [exact FU|exact A2|]. destruct us as [|w2 us]; [exact Logic.I|]. intros; discriminate.
Qed.
Lemma split_exact : forall p us, parse_pattern_string p = Ok us <->
  (p = [] /\ us = [[]]) \/ (p <> [] /\ List.concat us = p /\ Forall (fun w => literal_unit w \/ bracket_unit w) us /\ units_apart us).
Proof.
  intros p us. split.
  - intros H. destruct p as [|c p]; [left; split; [reflexivity|inversion H; reflexivity]|]. right. split; [discriminate|].
    destruct (c13_ok _ _ H) as (E & _ & K). destruct (K ltac:(discriminate)) as [F A]. split; [exact E|]. split; [|exact A]. eapply Forall_impl; [|exact F]. intros a [X _]. exact X.
  - intros [[-> ->]|(N & E & F & A)]; [reflexivity|]. subst p. apply parse_pattern_string_forward; [intros ->; apply N; reflexivity|]. apply apart_seps; [exact F|exact A|]. destruct us; [exact Logic.I|]. intros; discriminate.
Qed.

(** ** One unit *)
Definition rule93 (r : str) : bool := str_eqb r [92; 93]%N || negb (char_in 93%N r).
Definition rule92 (r : str) : bool := str_eqb r (u "\\") || negb (N.eqb (last r 0%N) 92) .
Lemma rules_shape : Forall (fun r => rule93 r = true /\ rule92 r = true /\ r <> []) space_texts.
Proof.
  apply Forall_forall. intros r I. assert (H : forallb (fun r => rule93 r && rule92 r && match r with [] => false | _ => true end) space_texts = true) by (vm_compute; reflexivity).
  rewrite forallb_forall in H. specialize (H r I). apply andb_prop in H. destruct H as [H H3]. apply andb_prop in H. destruct H as [H1 H2]. split; [exact H1|]. split; [exact H2|]. destruct r; [discriminate H3|discriminate].
Qed.
Lemma rules_93 : forall r, In r space_texts -> forall a b, r = a ++ 93%N :: b -> exists a', a = a' ++ [92%N].
Proof.
  intros r I a b E. pose proof (proj1 (Forall_forall _ _) rules_shape r I) as (H & _ & _). unfold rule93 in H. apply orb_prop in H. destruct H as [H|H].
  - apply str_eqb_eq in H. rewrite H in E. destruct a as [|x [|y a]]; cbn in E; [discriminate| |destruct a; discriminate]. inversion E; subst. exists []. reflexivity.
  - exfalso. apply negb_true_iff in H. assert (K : char_in 93%N r = true) by (apply char_in_In; rewrite E; apply in_or_app; right; left; reflexivity). congruence.
Qed.
Lemma concat_bracket : forall l q, Forall (fun r => In r space_texts) l -> (forall l0, l <> l0 ++ [u "\\"]) -> quantifier_text q ->
  bracket_unit (u "[" ++ List.concat l ++ u "]" ++ q).
Proof.
  intros l q F B Q. exists (List.concat l), q. split; [reflexivity|]. split; [exact Q|]. split.
  - clear B Q. induction F as [|r l R F IH]; intros a b E; [destruct a; discriminate|]. cbn [List.concat] in E. apply app_eq_app in E. destruct E as (m & [[E1 E2]|[E1 E2]]).
    + destruct m as [|x m]; [rewrite app_nil_r in E1; cbn in E2; destruct (IH [] b (eq_sym E2)) as (a' & X); destruct a'; discriminate|]. cbn in E2. inversion E2; subst x. exact (rules_93 r R a m E1).
    + subst a. destruct (IH m b E2) as (a' & ->). exists (r ++ a'). apply app_assoc.
  - intros a E. destruct l as [|r l _] using rev_ind; [destruct a; discriminate|]. rewrite concat_app in E. cbn [List.concat] in E. rewrite app_nil_r in E. apply Forall_app in F. destruct F as [_ F]. inversion F as [|? ? R _]; subst.
    pose proof (proj1 (Forall_forall _ _) rules_shape r R) as (_ & H & NE). unfold rule92 in H. apply orb_prop in H. destruct H as [H|H].
    + apply str_eqb_eq in H. subst r. exact (B l eq_refl).
    + destruct r as [|x r _] using rev_ind; [congruence|]. rewrite last_snoc in H. rewrite app_assoc in E. apply app_inj_tail in E. destruct E as [_ E]. subst x. discriminate.
Qed.

(** numbers *)
Lemma int_acc_ok : forall ds acc n, int_acc ds acc = Ok n <-> exists vs, map decimal_value ds = map Some vs /\ n = fold_left (fun a d => 10 * a + d)%N vs acc.
Proof.
  induction ds as [|c ds IH]; intros acc n; cbn [int_acc map].
  - split; [intros H; inversion H; exists []; split; reflexivity|]. intros (vs & E & ->). destruct vs; [reflexivity|discriminate].
  - destruct (decimal_value c) as [d|].
    + rewrite IH. split; intros (vs & E & ->).
      * exists (d :: vs). split; [cbn [map]; congruence|reflexivity].
      * destruct vs as [|d' vs]; [discriminate|]. cbn [map] in E. inversion E; subst. exists vs. split; [assumption|reflexivity].
    + split; [discriminate|]. intros (vs & E & _). destruct vs; discriminate.
Qed.
Lemma decimal_int : forall ds n, decimal ds n <-> py_int ds = Ok n.
Proof.
  intros ds n. unfold decimal. destruct ds as [|c ds]; [split; [intros [H _]; congruence|discriminate]|]. cbn [py_int]. rewrite int_acc_ok. split; [intros [_ H]; exact H|intros H; split; [discriminate|exact H]].
Qed.
Lemma py_int_isdigit : forall ds n, py_int ds = Ok n -> isdigit ds = true.
Proof.
  intros ds n H. apply decimal_int in H. destruct H as (N & vs & E & _). destruct ds as [|c ds]; [congruence|]. clear N. unfold isdigit. apply forallb_forall. intros x I.
  assert (M : In (decimal_value x) (map Some vs)) by (rewrite <- E; apply in_map; exact I). apply in_map_iff in M. destruct M as (v & V & _). unfold isdigit_char. rewrite <- V. reflexivity.
Qed.
Lemma py_int_no : forall ds n c, py_int ds = Ok n -> isdigit_char c = false -> ~ In c ds.
Proof. intros ds n c H D. exact (isdigit_not ds c (py_int_isdigit _ _ H) D). Qed.
Lemma count_qnum : forall q n, count_text q n <-> qnum q n.
Proof.
  intros q n. unfold count_text, qnum. split; (intros [H|[H|(ds & k & E & D & Z)]]; [left; exact H|right; left; exact H|right; right; exists ds, k]).
  - apply decimal_int in D. split; [exact E|]. split; [exact (py_int_isdigit _ _ D)|]. split; [exact D|exact Z].
  - destruct Z as [Z Z']. split; [exact E|]. split; [apply decimal_int; exact Z|exact Z'].
Qed.
Lemma qnum_qtext : forall q n, qnum q n -> quantifier_text q.
Proof.
  intros q n [[-> _]|[[-> _]|(ds & k & -> & I & P & _)]]; [left; reflexivity|right; left; reflexivity|]. right. right. exists ds. split; [reflexivity|]. split; [exact I|]. apply (py_int_no ds k); [exact P|reflexivity].
Qed.
Lemma class_unit_ok : forall l q n, Forall (fun r => in_rules r = true) l -> qnum q n -> n <> 0%Z -> (0 < n -> Z.of_nat (length (sorted_set l)) <= n)%Z ->
  parse_pattern_unit_string (BRACKETS_L :: List.concat l ++ BRACKETS_R :: q) = Ok (sorted_set l, n).
Proof.
  intros l q n F Q N0 NL. unfold parse_pattern_unit_string. set (w := BRACKETS_L :: List.concat l ++ BRACKETS_R :: q).
  assert (Hp : slice 1 (match rfind_char BRACKETS_R w with Some t => t | None => length w - 1 end) w = List.concat l).
  { unfold w. change (BRACKETS_L :: List.concat l ++ BRACKETS_R :: q) with ((BRACKETS_L :: List.concat l) ++ BRACKETS_R :: q).
    rewrite rfind_char_app by (apply quant_no_bracket; exact (qnum_quant _ _ Q)).
    exact (slice_app _ [BRACKETS_L] (List.concat l) (BRACKETS_R :: q)). }
  change (negb (N.eqb BRACKETS_L BRACKETS_L)) with false. cbv iota. fold w. rewrite Hp. rewrite class_rules_concat by auto. rewrite fold_insert_set.
  match goal with |- context [bind (if N.eqb (last w 0%N) BRACKETS_R then _ else _) _] => idtac end.
  assert (Hn : (if N.eqb (last w 0%N) BRACKETS_R then Ok 1%Z
     else if N.eqb (last w 0%N) BRACES_R then
      let t1 := match rfind_char BRACES_L w with Some t => S t | None => 0 end in
      let num_str := slice t1 (length w - 1) w in
      if isdigit num_str then n <- py_int num_str ;; Ok (Z.of_N n) else Err EInvalidPattern
     else if N.eqb (last w 0%N) PLUS then Ok (-1)%Z else Ok 1%Z) = Ok n).
  { destruct Q as [[-> ->]|[[-> ->]|(ds & k & -> & I & P & ->)]]; unfold w.
    - rewrite app_comm_cons, last_snoc. reflexivity.
    - change (BRACKETS_L :: List.concat l ++ [BRACKETS_R; PLUS]) with ((BRACKETS_L :: List.concat l) ++ [BRACKETS_R] ++ [PLUS]). rewrite app_assoc, last_snoc. reflexivity.
    - set (a := BRACKETS_L :: List.concat l ++ [BRACKETS_R; BRACES_L]).
      assert (W : BRACKETS_L :: List.concat l ++ BRACKETS_R :: BRACES_L :: ds ++ [BRACES_R] = a ++ ds ++ [BRACES_R]) by (unfold a; cbn [app]; rewrite <- app_assoc; reflexivity).
      rewrite W. rewrite (app_assoc a ds [BRACES_R]), last_snoc. change (N.eqb BRACES_R BRACKETS_R) with false. change (N.eqb BRACES_R BRACES_R) with true. cbv iota zeta. rewrite <- app_assoc.
      assert (R : rfind_char BRACES_L (a ++ ds ++ [BRACES_R]) = Some (length a - 1)).
      { replace (a ++ ds ++ [BRACES_R]) with ((BRACKETS_L :: List.concat l ++ [BRACKETS_R]) ++ BRACES_L :: (ds ++ [BRACES_R])) by (unfold a; cbn [app]; rewrite <- !app_assoc; reflexivity).
        rewrite rfind_char_app.
        - f_equal. unfold a. cbn [app length]. rewrite !app_length. cbn [length]. lia.
        - intros J. apply in_app_or in J as [J|[J|[]]]; [|discriminate]. revert J. apply (py_int_no ds k); [exact P|reflexivity]. }
      rewrite R. replace (S (length a - 1)) with (length a) by (unfold a; cbn [app length]; rewrite app_length; cbn [length]; lia).
      assert (L1 : length (a ++ ds ++ [BRACES_R]) - 1 = length a + length ds) by (rewrite !app_length; cbn [length]; lia).
      rewrite L1. rewrite (slice_app _ a ds [BRACES_R]). rewrite I, P. reflexivity. }
  match type of Hn with ?x = _ => match goal with |- context [bind ?y _] => change y with x end end.
  rewrite Hn. cbn [bind].
  match goal with |- (if ?b then _ else _) = _ => destruct b eqn:C end; [|reflexivity].
  exfalso. apply orb_prop in C. destruct C as [C|C]; [|apply Z.eqb_eq in C; congruence]. apply andb_prop in C. destruct C as [C1 C2]. apply Z.ltb_lt in C1, C2. specialize (NL C1). exact (Z.lt_irrefl _ (Z.lt_le_trans _ _ _ C2 NL)).
Qed.

Definition unit_obs (x : punit) : str * list str * Z := (pu_str x, pu_rules x, pu_num x).
Lemma unit_obs_inj : forall x y, unit_obs x = unit_obs y -> x = y.
Proof. intros [a b c] [d e f] H. inversion H. reflexivity. Qed.
Lemma sorted_strict : forall rs l, StronglySorted str_lt rs -> (forall r, In r rs <-> In r l) -> rs = sorted_set l.
Proof.
  intros rs l S M. rewrite <- (sorted_set_id rs S). apply sorted_set_ext. exact M.
Qed.
Lemma unit_exact : forall x, (literal_unit (pu_str x) \/ bracket_unit (pu_str x)) /\ mk_unit (pu_str x) = Ok x <-> unit_means (pu_str x) (pu_rules x) (pu_num x).
Proof.
  intros x. split.
  - intros [[L|B] M].
    + destruct (pu_str x) as [|c r] eqn:E; [destruct L as [L _]; congruence|]. left. exists c, r. split; [reflexivity|]. split; [exact L|]. apply literal_lit in L. destruct (unit_lit_inv _ _ _ M L) as (A & B & _). split; [exact A|exact B].
    + right. pose proof B as B'. apply bracket_cls in B'. destruct (unit_cls_inv _ _ M B') as (l & q & W & F & R & Q & N0 & NL). exists l, q.
      split; [exact W|]. split; [eapply Forall_impl; [|exact F]; intros r; apply space_texts_rules|]. split.
      * intros l0 ->. destruct B as (body & q' & W' & Q' & _ & B). rewrite W' in W. rewrite concat_app in W. cbn [List.concat] in W. rewrite app_nil_r in W.
        assert (EB : body = List.concat l0 ++ u "\\").
        { assert (W1 : body ++ 93%N :: q' = (List.concat l0 ++ u "\\") ++ 93%N :: q) by (injection W as W1; exact W1). clear W. assert (rfind_char 93%N (body ++ 93%N :: q') = rfind_char 93%N ((List.concat l0 ++ u "\\") ++ 93%N :: q)) as RF by (f_equal; exact W1).
          rewrite !rfind_char_app in RF; [|apply quant_no_bracket; exact (qnum_quant _ _ Q)|apply quant_no_bracket; exact Q'].
          inversion RF as [RF1]. apply (f_equal (firstn (length body))) in W1. rewrite firstn_app_len in W1 by reflexivity. rewrite W1. rewrite RF1. rewrite firstn_app_len by reflexivity. reflexivity. }
        apply (B (List.concat l0 ++ [92%N])). rewrite EB. rewrite <- app_assoc. reflexivity.
      * rewrite R. split; [apply sorted_set_sorted|]. split; [intros r; apply sorted_set_In|]. rewrite <- R. split; [apply count_qnum; exact Q|]. split; [exact N0|exact NL].
  - intros [(c & r & E & L & R & N)|(l & q & W & F & B & S & M & Q & N0 & NL)].
    + split; [left; exact L|]. unfold mk_unit. rewrite E in L |- *. apply literal_lit in L. destruct L as (D & NE & FL). rewrite (parse_unit_lit _ _ NE FL D). cbn [bind]. destruct x as [w rs n]. cbn [pu_str pu_rules pu_num] in *. subst. reflexivity.
    + apply count_qnum in Q. split; [right; rewrite W; apply concat_bracket; [exact F|exact B|exact (qnum_qtext _ _ Q)]|].
      unfold mk_unit. destruct x as [w rs n]. cbn [pu_str pu_rules pu_num] in *. pose proof (sorted_strict rs l S M) as ->. subst w.
      assert (P : parse_pattern_unit_string (BRACKETS_L :: List.concat l ++ BRACKETS_R :: q) = Ok (sorted_set l, n)).
      { apply class_unit_ok; [eapply Forall_impl; [|exact F]; intros r; apply space_texts_rules|exact Q|exact N0|exact NL]. }
      match type of P with parse_pattern_unit_string ?y = _ => match goal with |- context [parse_pattern_unit_string ?z] => change z with y end end. rewrite P. reflexivity.
Qed.
Lemma mk_unit_str : forall w x, mk_unit w = Ok x -> pu_str x = w.
Proof. intros w x H. unfold mk_unit in H. apply bind_ok in H. destruct H as ([rs n] & _ & H). inversion H. reflexivity. Qed.
Lemma mapM_units : forall ws us, mapM mk_unit ws = Ok us <-> map pu_str us = ws /\ Forall (fun x => mk_unit (pu_str x) = Ok x) us.
Proof.
  induction ws as [|w ws IH]; intros us; cbn [mapM].
  - split; [intros H; inversion H; split; [reflexivity|constructor]|]. intros [H _]. destruct us; [reflexivity|discriminate].
  - split.
    + intros H. apply bind_ok in H. destruct H as (x & X & H). apply bind_ok in H. destruct H as (xs & XS & H). inversion H; subst. apply IH in XS. destruct XS as [A B]. pose proof (mk_unit_str _ _ X) as E. cbn [map]. split; [congruence|]. constructor; [congruence|exact B].
    + intros [A B]. destruct us as [|x us]; [discriminate|]. cbn [map] in A. inversion A; subst. inversion B as [|? ? B1 B2]; subst. rewrite B1. cbn [bind]. rewrite (proj2 (IH us) (conj eq_refl B2)). reflexivity.
Qed.
Lemma map_obs : forall us, map (fun x : str * list str * Z => fst (fst x)) (map unit_obs us) = map pu_str us.
Proof. intros. rewrite map_map. reflexivity. Qed.
Lemma part_exact : forall P us, pattern_units P = Ok us <-> part_means P (map unit_obs us).
Proof.
  intros P us. unfold pattern_units, part_means. rewrite map_obs. split.
  - intros H. apply bind_ok in H. destruct H as (ws & S & H). apply mapM_units in H. destruct H as [A B]. apply split_exact in S. destruct S as [[-> ->]|(N & E & F & AP)].
    + left. split; [reflexivity|]. destruct us as [|x [|y us]]; try discriminate. cbn [map] in *. inversion B as [|? ? B1 _]; subst. injection A as A. rewrite A in B1. cbn in B1. inversion B1. reflexivity.
    + right. subst ws. split; [exact N|]. split; [exact E|]. split; [|exact AP]. rewrite Forall_map in F. rewrite Forall_map. rewrite Forall_forall in *. intros x I. apply unit_exact. split; [apply (F x I)|apply (B x I)].
  - intros [[-> E]|(N & E & F & AP)].
    + destruct us as [|x [|y us]]; try discriminate. cbn [map] in E. injection E as E1 E2 E3. destruct x as [a b c]. cbn in *. subst. reflexivity.
    + rewrite Forall_map in F. assert (G : Forall (fun x => (literal_unit (pu_str x) \/ bracket_unit (pu_str x)) /\ mk_unit (pu_str x) = Ok x) us) by (eapply Forall_impl; [|exact F]; intros x; apply unit_exact).
      assert (S : parse_pattern_string P = Ok (map pu_str us)).
      { apply split_exact. right. split; [exact N|]. split; [exact E|]. split; [|exact AP]. rewrite Forall_map. eapply Forall_impl; [|exact G]. intros x [X _]. exact X. }
      rewrite S. cbn [bind]. apply mapM_units. split; [reflexivity|]. eapply Forall_impl; [|exact G]. intros x [_ X]. exact X.
Qed.

(** ** The three parts *)
Definition SQ : str := u "[\?]".
Definition occurs (s : str) : Prop := exists a b, s = a ++ SQ ++ b.
Lemma sq_start : forall s, startswith s SQ = true <-> exists b, s = SQ ++ b.
Proof.
  intros s. split.
  - intros H. apply startswith_app in H. eauto.
  - intros (b & ->). apply startswith_self.
Qed.
Lemma find_sq : forall s, match find SINGLE_QUESTION s with
  | Some i => exists a b, s = a ++ SQ ++ b /\ length a = i /\ ~ occurs a
  | None => ~ occurs s
  end.
Proof.
  assert (NN : ~ occurs []) by (intros (a & b & E); destruct a; discriminate).
  induction s as [|c s IH].
  - cbn. exact NN.
  - cbn [find]. destruct (startswith (c :: s) SINGLE_QUESTION) eqn:E.
    + apply sq_start in E. destruct E as (b & E). exists [], b. split; [exact E|]. split; [reflexivity|exact NN].
    + assert (K : forall t, c :: s <> SQ ++ t) by (intros t X; assert (Y : startswith (c :: s) SQ = true) by (apply sq_start; eauto); change SQ with SINGLE_QUESTION in Y; congruence).
      destruct (find SINGLE_QUESTION s) as [i|]; cbn [option_map].
      * destruct IH as (a & b & -> & L & NO). exists (c :: a), b. split; [reflexivity|]. split; [cbn; congruence|]. intros (a' & b' & E'). destruct a' as [|x a'].
        -- apply (K (b' ++ SQ ++ b)). change ((c :: a) ++ SQ ++ b = SQ ++ b' ++ SQ ++ b). rewrite E'. rewrite <- !app_assoc. reflexivity.
        -- inversion E'; subst. apply NO. exists a', b'. reflexivity.
      * intros (a' & b' & E'). destruct a' as [|x a']; [exact (K b' E')|]. inversion E'; subst. apply IH. exists a', b'. reflexivity.
Qed.
Lemma occurs_app : forall a b, occurs a -> occurs (a ++ b).
Proof. intros a b (x & y & ->). exists x, (y ++ b). rewrite <- !app_assoc. reflexivity. Qed.
Lemma find_sq_first : forall a b, ~ occurs a -> find SINGLE_QUESTION (a ++ SQ ++ b) = Some (length a).
Proof.
  intros a b NO. pose proof (find_sq (a ++ SQ ++ b)) as H. destruct (find SINGLE_QUESTION (a ++ SQ ++ b)) as [i|].
  - destruct H as (a' & b' & E & <- & NO'). f_equal. apply app_eq_app in E. destruct E as (l & [[E1 E2]|[E1 E2]]).
    + destruct l as [|x1 l]; [rewrite app_nil_r in E1; congruence|]. exfalso.
      destruct l as [|x2 [|x3 [|x4 l]]]; cbn in E2; inversion E2; subst. apply NO. exists a', l. reflexivity.
    + destruct l as [|x1 l]; [rewrite app_nil_r in E1; congruence|]. exfalso.
      destruct l as [|x2 [|x3 [|x4 l]]]; cbn in E2; inversion E2; subst. apply NO'. exists a, l. reflexivity.
  - exfalso. apply H. exists a, b. reflexivity.
Qed.
Lemma find_hash_char : forall s, match find_char NUMBER s with
  | Some i => exists a b, s = a ++ NUMBER :: b /\ length a = i /\ ~ In NUMBER a
  | None => ~ In NUMBER s
  end.
Proof.
  induction s as [|c s IH]; cbn [find_char]; [intros []|]. destruct (N.eqb_spec c NUMBER) as [->|NE].
  - exists [], s. split; [reflexivity|]. split; [reflexivity|intros []].
  - destruct (find_char NUMBER s) as [i|]; cbn [option_map].
    + destruct IH as (a & b & -> & <- & NO). exists (c :: a), b. split; [reflexivity|]. split; [reflexivity|]. intros [E|E]; [congruence|contradiction].
    + intros [E|E]; [congruence|contradiction].
Qed.
Lemma occurs_hash : forall a b i, ~ occurs a -> find SINGLE_QUESTION (a ++ NUMBER :: b) = Some i -> length a < i.
Proof.
  intros a b i NO F. pose proof (find_sq (a ++ NUMBER :: b)) as H. rewrite F in H. destruct H as (a' & b' & E & <- & NO'). apply app_eq_app in E. destruct E as (l & [[E1 E2]|[E1 E2]]).
  - exfalso. destruct l as [|x1 [|x2 [|x3 [|x4 l]]]]; cbn in E2; inversion E2; subst. apply NO. exists a', l. reflexivity.
  - destruct l as [|x l]; [cbn in E2; inversion E2|]. subst a'. rewrite app_length. cbn [length]. lia.
Qed.
Lemma sq_no_hash : ~ In NUMBER SQ.
Proof. intros H. vm_compute in H. intuition discriminate. Qed.
Lemma three_total : forall s, startswith s [SLASH] = true -> exists path q f, parse_url_pattern_string s = PRes (Some path) q f /\ three_parts s path q f.
Proof.
  intros s SS. assert (NS : forall b, s <> SQ ++ b) by (intros b ->; discriminate). assert (NH : forall b, s <> NUMBER :: b) by (intros b ->; discriminate).
  unfold parse_url_pattern_string. pose proof (find_sq s) as A. pose proof (find_hash_char s) as B. destruct (find SINGLE_QUESTION s) as [q|], (find_char NUMBER s) as [f|].
  - destruct A as (a & b & EA & LA & NA). destruct B as (a' & b' & EB & LB & NB). destruct q as [|q]; [exfalso; destruct a; [exact (NS b EA)|discriminate]|]. destruct f as [|f]; [exfalso; destruct a'; [exact (NH b' EB)|discriminate]|].
    destruct (Nat.ltb_spec (S q) (S f)) as [L|L].
    + assert (X : exists t, b = t ++ NUMBER :: b' /\ a' = a ++ SQ ++ t).
      { rewrite EA in EB. apply app_eq_app in EB. destruct EB as (l & [[E1 E2]|[E1 E2]]); [exfalso; subst a; rewrite app_length in LA; lia|]. apply app_eq_app in E2. destruct E2 as (l2 & [[E3 E4]|[E3 E4]]).
        - destruct l2 as [|y l2]; [rewrite app_nil_r in E3; cbn in E4; exists []; subst; rewrite app_nil_r; auto|]. exfalso. cbn in E4. inversion E4; subst y. apply sq_no_hash. rewrite E3. apply in_or_app. right. left. reflexivity.
        - exists l2. subst. auto. }
      destruct X as (t & -> & ->). exists a, (Some t), (Some b').
      split; [|split; [|split; [|split]]].
      * rewrite <- LA, <- LB. rewrite EA at 1. rewrite firstn_app_len by reflexivity. f_equal; f_equal.
        -- assert (X : slice (length (a ++ SQ)) (length (a ++ SQ) + length t) ((a ++ SQ) ++ t ++ NUMBER :: b') = t) by apply slice_app.
           rewrite <- app_assoc in X. rewrite <- EA in X. replace (length a + 4) with (length (a ++ SQ)) by (rewrite app_length; reflexivity).
           replace (length (a ++ SQ ++ t)) with (length (a ++ SQ) + length t) by (rewrite !app_length; lia). exact X.
        -- rewrite EB. replace ((a ++ SQ ++ t) ++ NUMBER :: b') with (((a ++ SQ ++ t) ++ [NUMBER]) ++ b') by (rewrite <- !app_assoc; reflexivity). apply skipn_app_len. rewrite (app_length _ [NUMBER]). reflexivity.
      * cbn [opt_text]. rewrite EA. change (u "[\?]") with SQ. rewrite <- !app_assoc. reflexivity.
      * intros I. apply NB. apply in_or_app. left. exact I.
      * intros x y E. apply NA. exists x, y. exact E.
      * intros t' E. inversion E; subst t'. intros I. apply NB. apply in_or_app. right. apply in_or_app. right. exact I.
    + exists a', None, (Some b'). split; [|split; [|split; [|split]]].
      * rewrite <- LB. rewrite EB at 1. rewrite firstn_app_len by reflexivity. f_equal; f_equal. rewrite EB. replace (a' ++ NUMBER :: b') with ((a' ++ [NUMBER]) ++ b') by (rewrite <- app_assoc; reflexivity). apply skipn_app_len. rewrite app_length. reflexivity.
      * exact EB.
      * exact NB.
      * intros x y E. assert (occurs a'). { exists x, y. exact E. } rewrite EA in EB. apply app_eq_app in EB. destruct EB as (l & [[E1 E2]|[E1 E2]]).
        -- subst a. apply NA. apply occurs_app. exact H.
        -- destruct l as [|z l]; [rewrite app_nil_r in E1; subst; apply NA; exact H|]. subst a'. rewrite app_length in LB. cbn [length] in LB. lia.
      * discriminate.
  - destruct A as (a & b & EA & LA & NA). destruct q as [|q]; [exfalso; destruct a; [exact (NS b EA)|discriminate]|]. exists a, (Some b), None. split; [|split; [|split; [|split]]].
    + rewrite <- LA. rewrite EA at 1. rewrite firstn_app_len by reflexivity. f_equal; f_equal. rewrite EA. rewrite app_assoc. apply skipn_app_len. rewrite app_length. reflexivity.
    + cbn [opt_text]. rewrite app_nil_r. exact EA.
    + intros I. apply B. rewrite EA. apply in_or_app. left. exact I.
    + intros x y E. apply NA. exists x, y. exact E.
    + intros t E I. inversion E; subst t. apply B. rewrite EA. apply in_or_app. right. apply in_or_app. right. exact I.
  - destruct B as (a' & b' & EB & LB & NB). destruct f as [|f]; [exfalso; destruct a'; [exact (NH b' EB)|discriminate]|]. exists a', None, (Some b'). split; [|split; [|split; [|split]]].
    + rewrite <- LB. rewrite EB at 1. rewrite firstn_app_len by reflexivity. f_equal; f_equal. rewrite EB. replace (a' ++ NUMBER :: b') with ((a' ++ [NUMBER]) ++ b') by (rewrite <- app_assoc; reflexivity). apply skipn_app_len. rewrite app_length. reflexivity.
    + exact EB.
    + exact NB.
    + intros x y E. apply A. rewrite EB. apply occurs_app. exists x, y. exact E.
    + discriminate.
  - exists s, None, None. split; [reflexivity|]. split; [cbn [opt_text]; rewrite app_nil_r; reflexivity|]. split; [exact B|]. split; [intros x y E; apply A; exists x, y; exact E|discriminate].
Qed.
Lemma three_unique : forall s p q f p' q' f', three_parts s p q f -> three_parts s p' q' f' -> p = p' /\ q = q' /\ f = f'.
Proof.
  assert (HASH : forall s p q f, three_parts s p q f -> find_char NUMBER s = match f with Some _ => Some (length (p ++ opt_text SQ q)) | None => None end).
  { intros s p q f (E & NP & _ & NQ). assert (N : ~ In NUMBER (p ++ opt_text SQ q)).
    { intros I. apply in_app_or in I. destruct I as [I|I]; [exact (NP I)|]. destruct q as [t|]; [|exact I]. cbn [opt_text] in I. apply in_app_or in I. destruct I as [I|I]; [exact (sq_no_hash I)|exact (NQ t eq_refl I)]. }
    change (u "[\?]") with SQ in E. rewrite app_assoc in E. subst s. destruct f as [t|]; cbn [opt_text]; [apply (find_char_first NUMBER); exact N|rewrite app_nil_r; apply find_char_none; exact N]. }
  assert (FST : forall s p q f, three_parts s p q f -> firstn (length (p ++ opt_text SQ q)) s = p ++ opt_text SQ q /\ skipn (length (p ++ opt_text SQ q)) s = opt_text [NUMBER] f).
  { intros s p q f (E & _). change (u "[\?]") with SQ in E. rewrite app_assoc in E. subst s. split; [apply firstn_app_len; reflexivity|apply skipn_app_len; reflexivity]. }
  assert (QQ : forall p q p' q', p ++ opt_text SQ q = p' ++ opt_text SQ q' -> ~ occurs p -> ~ occurs p' -> p = p' /\ q = q').
  { intros p q p' q' E NO NO'. destruct q as [t|], q' as [t'|]; cbn [opt_text] in E.
    - assert (F : find SINGLE_QUESTION (p ++ SQ ++ t) = find SINGLE_QUESTION (p' ++ SQ ++ t')) by (rewrite E; reflexivity). rewrite !find_sq_first in F by assumption. inversion F as [F1].
      destruct (app_eq_app _ _ _ _ E) as (l & [[E1 E2]|[E1 E2]]); (destruct l as [|x l]; [rewrite app_nil_r in E1; subst; cbn [app] in E2; apply app_inv_head in E2; subst; auto|subst; rewrite app_length in F1; cbn [length] in F1; lia]).
    - exfalso. apply NO'. rewrite app_nil_r in E. rewrite <- E. exists p, t. reflexivity.
    - exfalso. apply NO. rewrite app_nil_r in E. rewrite E. exists p', t'. reflexivity.
    - rewrite !app_nil_r in E. auto. }
  intros s p q f p' q' f' A B. pose proof (HASH _ _ _ _ A) as HA. pose proof (HASH _ _ _ _ B) as HB. rewrite HA in HB. destruct (FST _ _ _ _ A) as [A1 A2]. destruct (FST _ _ _ _ B) as [B1 B2].
  assert (NA : ~ occurs p) by (intros (x & y & E); destruct A as (_ & _ & A & _); exact (A x y E)). assert (NB : ~ occurs p') by (intros (x & y & E); destruct B as (_ & _ & B & _); exact (B x y E)).
  assert (EQ : p ++ opt_text SQ q = p' ++ opt_text SQ q' /\ f = f').
  { destruct f as [t|], f' as [t'|]; try discriminate.
    - inversion HB as [L]. rewrite L in A1, A2. rewrite A1 in B1. rewrite A2 in B2. cbn in B2. inversion B2. split; [symmetry; congruence|reflexivity].
    - destruct A as (EA & _), B as (EB & _). cbn [opt_text] in EA, EB. rewrite app_nil_r in EA, EB. split; [|reflexivity]. change (u "[\?]") with SQ in EA, EB. congruence. }
  destruct EQ as [EQ ->]. destruct (QQ _ _ _ _ EQ NA NB) as [-> ->]. auto.
Qed.
Lemma three_exact : forall s path q f, startswith s [SLASH] = true -> (parse_url_pattern_string s = PRes (Some path) q f <-> three_parts s path q f).
Proof.
  intros s path q f SS. destruct (three_total s SS) as (p & q' & f' & E & T). split.
  - intros H. rewrite H in E. inversion E; subst. exact T.
  - intros H. destruct (three_unique _ _ _ _ _ _ _ H T) as (-> & -> & ->). exact E.
Qed.

(** ** Path and query *)
Lemma three_slash : forall s p q f, three_parts s p q f -> startswith s [SLASH] = true -> exists r, p = SLASH :: r.
Proof.
  intros s p q f (E & _) SS. destruct p as [|c p].
  - exfalso. subst s. destruct q; [discriminate|]. destruct f; discriminate.
  - exists p. f_equal. subst s. cbn [app startswith] in SS. apply andb_prop in SS. destruct SS as [SS _]. apply N.eqb_eq in SS. exact SS.
Qed.
Lemma nonempty_eqb : forall w, nonempty w = negb (str_eqb w []).
Proof. intros []; reflexivity. Qed.
Lemma path_exact : forall r ps, filter_useless nonempty (tl (split_char SLASH (SLASH :: r))) = ps <-> path_parts (SLASH :: r) ps.
Proof.
  intros r ps. rewrite split_char_sep. cbn [tl]. unfold path_parts. split.
  - intros <-. pose proof (split_join SLASH r) as J. pose proof (fun w => split_char_nosep SLASH r w) as NS. pose proof (split_char_nonnil SLASH r) as NN. destruct (split_char SLASH r) as [|x l _] using rev_ind; [congruence|].
    exists l, x. split; [cbn; f_equal; symmetry; exact J|]. split; [apply Forall_forall; exact NS|]. rewrite c06. f_equal. apply filter_ext. exact nonempty_eqb.
  - intros (l & x & E & F & ->). assert (E' : r = join [SLASH] (l ++ [x])) by (cbn in E; injection E as E; exact E). subst r.
    assert (S : split_char SLASH (join [SLASH] (l ++ [x])) = l ++ [x]) by (apply split_join_inv; [intros X; apply app_eq_nil in X; destruct X; discriminate|exact F]).
    match type of S with ?a = _ => match goal with |- context [split_char SLASH ?z] => change (split_char SLASH z) with a end end. rewrite S. rewrite c06. f_equal. apply filter_ext. exact nonempty_eqb.
Qed.
Lemma query_exact : forall q ks vs, parse_query_string q = Ok (ks, vs) <-> query_parts q ks vs.
Proof.
  intros q ks vs. split.
  - intros H. pose proof (parse_query_ok _ _ _ H) as (L & N & F & J). destruct q as [t|]; cbn [query_parts].
    + split; [intros E; apply N in E; discriminate|]. split; [exact L|]. split; [symmetry; exact (J t eq_refl)|exact F].
    + cbn in H. inversion H. auto.
  - destruct q as [t|]; cbn [query_parts].
    + intros (N & L & -> & F). apply parse_query_forward; assumption.
    + intros [-> ->]. reflexivity.
Qed.
Lemma parts_exact : forall s d ks hf Ps, startswith s [SLASH] = true -> (analyze_url_pattern_string s = Ok (UM d ks hf, Ps) <-> pattern_parts s d ks hf Ps).
Proof.
  intros s d ks hf Ps SS. destruct (three_total s SS) as (p & q & f & E & T). destruct (three_slash _ _ _ _ T SS) as (r & ->). unfold analyze_url_pattern_string. rewrite E. cbn [rs_path rs_query rs_fragment]. unfold unpack.
  pose proof (proj1 (path_exact r _) eq_refl) as PP. set (ps := filter_useless nonempty (tl (split_char SLASH (SLASH :: r)))) in *.
  assert (PL : 0 < length ps) by (destruct PP as (l & x & _ & _ & ->); rewrite app_length; cbn [length]; lia).
  destruct (Nat.leb_spec (length ps) 0) as [X|_]; [lia|]. split.
  - intros H. apply bind_ok in H. destruct H as ([ks' vs] & Q & H). cbn [bind] in H. inversion H; subst. exists (SLASH :: r), q, f, ps, vs. split; [exact T|]. split; [exact PP|]. split; [apply query_exact; exact Q|]. split; [reflexivity|]. split; reflexivity.
  - intros (path & q' & f' & ps' & vs & T' & PP' & Q & -> & -> & ->). destruct (three_unique _ _ _ _ _ _ _ T T') as (<- & <- & <-). apply path_exact in PP'. fold ps in PP'. subst ps'. apply query_exact in Q. rewrite Q. reflexivity.
Qed.
Lemma parts_err : forall s e, startswith s [SLASH] = true -> analyze_url_pattern_string s = Err e -> e = EIrregularURL /\ exists path t f, three_parts s path (Some t) f /\ amp_misplaced t.
Proof.
  intros s e SS. destruct (three_total s SS) as (p & q & f & E & T). destruct (three_slash _ _ _ _ T SS) as (r & ->). unfold analyze_url_pattern_string. rewrite E. cbn [rs_path rs_query rs_fragment]. unfold unpack.
  pose proof (proj1 (path_exact r _) eq_refl) as PP. set (ps := filter_useless nonempty (tl (split_char SLASH (SLASH :: r)))) in *.
  assert (PL : 0 < length ps) by (destruct PP as (l & x & _ & _ & ->); rewrite app_length; cbn [length]; lia).
  destruct (Nat.leb_spec (length ps) 0) as [X|_]; [lia|]. intros H. destruct (parse_query_string q) as [[ks vs]|e'] eqn:Q; cbn [bind] in H; [discriminate|]. inversion H; subst e'.
  destruct q as [[|c t]|]; try discriminate.
  assert (DEC : forall r : res (list str * list str), r = Err EIrregularURL \/ r <> Err EIrregularURL) by (intros [x|[]]; (left; reflexivity) || (right; discriminate)).
  destruct (DEC (parse_query_string (Some (c :: t)))) as [X|X].
  - pose proof (eq_trans (eq_sym X) Q) as Y. inversion Y. split; [reflexivity|]. exists (SLASH :: r), (c :: t), f. split; [exact T|]. apply c07_err in X; [exact X|discriminate].
  - exfalso. destruct (c07_ok (c :: t) _ ltac:(discriminate) eq_refl X) as (ks & vs & K & _). pose proof (eq_trans (eq_sym K) Q) as Y. discriminate.
Qed.

(** ** Exceptions of one part *)
Definition odd_number (P : str) : Prop := exists a ds b, P = a ++ u "{" ++ ds ++ u "}" ++ b /\ isdigit ds = true /\ ~ exists n, decimal ds n.
Lemma int_acc_err : forall ds acc e, int_acc ds acc = Err e -> e = EValue.
Proof. induction ds as [|c ds IH]; intros acc e; cbn [int_acc]; [discriminate|]. destruct (decimal_value c); [apply IH|intros H; inversion H; reflexivity]. Qed.
Lemma unit_err : forall w e, literal_unit w \/ bracket_unit w -> mk_unit w = Err e -> e = EInvalidPattern \/ (e = EValue /\ odd_number w).
Proof.
  intros w e [L|B] H.
  - exfalso. destruct w as [|c r]; [destruct L as [L _]; congruence|]. apply literal_lit in L. destruct L as (D & NE & FL). unfold mk_unit in H. rewrite (parse_unit_lit _ _ NE FL D) in H. discriminate.
  - destruct B as (body & q & W & Q & _ & _). assert (HP : forall e', parse_pattern_unit_string w = Err e' -> e = e') by (intros e' X; unfold mk_unit in H; rewrite X in H; cbn in H; congruence).
    destruct (parse_pattern_unit_string w) as [[rs n]|e'] eqn:PE; [unfold mk_unit in H; rewrite PE in H; discriminate|]. rewrite <- (HP e' eq_refl) in PE. clear HP e' H.
    subst w. unfold parse_pattern_unit_string in PE. set (w := BRACKETS_L :: body ++ BRACKETS_R :: q) in PE.
    change (u "[" ++ body ++ u "]" ++ q) with w in *. unfold w at 1 in PE. change (negb (N.eqb BRACKETS_L BRACKETS_L)) with false in PE. cbv iota in PE. fold w in PE.
    match type of PE with bind (bind ?a ?f) _ = _ => destruct a as [num|e1] eqn:NE; cbn [bind] in PE end.
    + match type of PE with bind (bind ?a ?f) _ = _ => destruct a as [rs|e2] eqn:CE; cbn [bind] in PE end.
      * match type of PE with (if ?b then _ else _) = _ => destruct b end; inversion PE. left. reflexivity.
      * apply class_rules_err in CE; [|lia]. subst e2. inversion PE. left. reflexivity.
    + inversion PE; subst e1. cbv zeta in NE. destruct Q as [->|[->|(ds & -> & D & ND)]].
      * exfalso. unfold w in NE. rewrite app_comm_cons, last_snoc in NE. discriminate.
      * exfalso. unfold w in NE. change (BRACKETS_L :: body ++ BRACKETS_R :: u "+") with ((BRACKETS_L :: body) ++ [BRACKETS_R] ++ [PLUS]) in NE. rewrite app_assoc, last_snoc in NE. discriminate.
      * set (a := BRACKETS_L :: body ++ [BRACKETS_R; BRACES_L]).
        assert (WA : w = a ++ ds ++ [BRACES_R]) by (unfold w, a; cbn [app]; rewrite <- app_assoc; reflexivity).
        rewrite WA in NE. rewrite (app_assoc a ds [BRACES_R]), last_snoc in NE. change (N.eqb BRACES_R BRACKETS_R) with false in NE. change (N.eqb BRACES_R BRACES_R) with true in NE. cbv iota zeta in NE. rewrite <- app_assoc in NE.
        assert (R : rfind_char BRACES_L (a ++ ds ++ [BRACES_R]) = Some (length a - 1)).
        { replace (a ++ ds ++ [BRACES_R]) with ((BRACKETS_L :: body ++ [BRACKETS_R]) ++ BRACES_L :: (ds ++ [BRACES_R])) by (unfold a; cbn [app]; rewrite <- !app_assoc; reflexivity).
          rewrite rfind_char_app.
          - f_equal. unfold a. cbn [app length]. rewrite !app_length. cbn [length]. lia.
          - intros J. apply in_app_or in J as [J|[J|[]]]; [|discriminate]. revert J. apply isdigit_not; [exact D|reflexivity]. }
        rewrite R in NE. replace (S (length a - 1)) with (length a) in NE by (unfold a; cbn [app length]; rewrite app_length; cbn [length]; lia).
        assert (L1 : length (a ++ ds ++ [BRACES_R]) - 1 = length a + length ds) by (rewrite !app_length; cbn [length]; lia).
        rewrite L1 in NE. rewrite (slice_app _ a ds [BRACES_R]) in NE. rewrite D in NE. destruct (py_int ds) as [n|e1] eqn:PI; [discriminate|]. cbn [bind] in NE. inversion NE; subst e1. right.
        split; [destruct ds; [discriminate|exact (int_acc_err _ _ _ PI)]|]. exists (BRACKETS_L :: body ++ [BRACKETS_R]), ds, []. split; [rewrite WA; unfold a; cbn; rewrite <- !app_assoc; reflexivity|]. split; [exact D|]. intros (n & DN). apply decimal_int in DN. congruence.
Qed.
Lemma mapM_err : forall A B (f : A -> res B) l e, mapM f l = Err e -> exists x, In x l /\ f x = Err e.
Proof.
  intros A B f. induction l as [|x l IH]; intros e H; cbn [mapM] in H; [discriminate|]. destruct (f x) as [y|e'] eqn:F; cbn [bind] in H.
  - destruct (mapM f l) as [ys|e'] eqn:M; cbn [bind] in H; [discriminate|]. inversion H; subst. destruct (IH e eq_refl) as (z & I & Z). exists z. split; [right; exact I|exact Z].
  - inversion H; subst. exists x. split; [left; reflexivity|exact F].
Qed.
Lemma part_err : forall P e, pattern_units P = Err e -> e = EInvalidPattern \/ (e = EValue /\ odd_number P).
Proof.
  intros P e H. unfold pattern_units in H. destruct (parse_pattern_string P) as [ws|e'] eqn:S; cbn [bind] in H.
  - apply mapM_err in H. destruct H as (w & I & H). apply split_exact in S. destruct S as [[-> ->]|(N & E & F & _)].
    + exfalso. destruct I as [<-|[]]. discriminate.
    + rewrite Forall_forall in F. destruct (unit_err w e (F w I) H) as [X|[X (a & ds & b & -> & D)]]; [left; exact X|]. right. split; [exact X|]. apply in_split in I. destruct I as (l1 & l2 & ->).
      exists (List.concat l1 ++ a), ds, (b ++ List.concat l2). split; [|exact D]. rewrite <- E. rewrite concat_app. cbn [List.concat]. rewrite <- !app_assoc. reflexivity.
  - inversion H; subst. left. exact (c13_err _ _ S).
Qed.

(** ** load *)
Lemma obs_units : forall l, map unit_obs (map (fun x : str * list str * Z => PU (fst (fst x)) (snd (fst x)) (snd x)) l) = l.
Proof. intros l. rewrite map_map. erewrite map_ext; [apply map_id|]. intros [[a b] c]. reflexivity. Qed.
Lemma part_some : forall P, (exists us, pattern_units P = Ok us) <-> (exists l, part_means P l).
Proof.
  intros P. split; intros (x & H).
  - exists (map unit_obs x). apply part_exact. exact H.
  - rewrite <- (obs_units x) in H. apply part_exact in H. eauto.
Qed.
Lemma mk_patterns_some : forall l i d, (exists ms, mk_patterns i d l = Ok ms) <-> Forall (fun P => exists us, pattern_units P = Ok us) l.
Proof.
  induction l as [|P l IH]; intros i d; cbn [mk_patterns].
  - split; [constructor|eauto].
  - unfold mk_match_pattern. split.
    + intros (ms & H). destruct (pattern_units P) as [us|] eqn:E; cbn [bind] in H; [|discriminate]. destruct (mk_patterns (S i) d l) as [ms'|] eqn:E'; cbn [bind] in H; [|discriminate]. constructor; [eauto|]. apply (IH (S i) d). eauto.
    + intros F. inversion F as [|? ? (us & E) F']; subst. rewrite E. cbn [bind]. apply (IH (S i) d) in F'. destruct F' as (ms & M). rewrite M. cbn [bind]. eauto.
Qed.
Lemma mk_patterns_err : forall l i d e, mk_patterns i d l = Err e -> exists P, In P l /\ pattern_units P = Err e.
Proof.
  induction l as [|P l IH]; intros i d e H; cbn [mk_patterns] in H; [discriminate|]. unfold mk_match_pattern in H. destruct (pattern_units P) as [us|e'] eqn:E; cbn [bind] in H.
  - destruct (mk_patterns (S i) d l) as [ms'|e'] eqn:E'; cbn [bind] in H; [discriminate|]. inversion H; subst. destruct (IH _ _ _ E') as (Q & I & X). exists Q. split; [right; exact I|exact X].
  - inversion H; subst. exists P. split; [left; reflexivity|exact E].
Qed.
Theorem c45_accepts : forall nv h s me, (exists b, snd (match_load nv (mloads nv h) s me) = Ok b) <->
  startswith s (u "/") = true /\ exists d ks hf Ps, pattern_parts s d ks hf Ps /\ Forall (fun P => exists l, part_means P l) Ps.
Proof.
  intros nv h s me. change (u "/") with [SLASH]. rewrite mload_snd. unfold pat_parse. split.
  - intros (b & H). unfold parse in H. destruct (startswith s [SLASH]) eqn:SS.
    + split; [reflexivity|]. destruct (analyze_url_pattern_string s) as [[[d ks hf] Ps]|] eqn:A; cbn [bind] in H; [|discriminate]. exists d, ks, hf, Ps. split; [apply parts_exact; assumption|].
      destruct (mk_patterns 1 (path_depth (UM d ks hf)) Ps) as [ms|] eqn:M; cbn [bind] in H; [|discriminate].
      assert (F : Forall (fun P => exists us, pattern_units P = Ok us) Ps) by (apply (mk_patterns_some Ps 1 (path_depth (UM d ks hf))); eauto). eapply Forall_impl; [|exact F]. intros P. apply part_some.
    + exfalso. destruct (analyze_url nv s) as [[m Ps]|]; cbn [bind] in H; [|discriminate]. destruct (mapM piece_parse Ps); cbn [bind] in H; discriminate.
  - intros (SS & d & ks & hf & Ps & A & F). assert (LP : Ps <> []).
    { destruct A as (path & q & f & ps & vs & _ & PP & _ & _ & _ & ->). destruct PP as (l & x & _ & _ & ->). intros E. apply app_eq_nil in E. destruct E as [E _]. apply app_eq_nil in E. destruct E. discriminate. }
    apply parts_exact in A; [|exact SS]. assert (F' : Forall (fun P => exists us, pattern_units P = Ok us) Ps) by (eapply Forall_impl; [|exact F]; intros P; apply part_some).
    apply (mk_patterns_some Ps 1 (path_depth (UM d ks hf))) in F'. destruct F' as (ms & M). unfold parse. rewrite SS, A. cbn [bind]. rewrite M. cbn [bind]. destruct ms as [|p ms]; [|eauto].
    exfalso. apply mk_patterns_ok in M. destruct M as [_ M]. cbn in M. congruence.
Qed.
Theorem c45_rejects : forall nv h s me e, startswith s (u "/") = true -> snd (match_load nv (mloads nv h) s me) = Err e ->
  (e = EIrregularURL /\ exists path t f, three_parts s path (Some t) f /\ amp_misplaced t) \/
  exists d ks hf Ps P, pattern_parts s d ks hf Ps /\ In P Ps /\ (forall l, ~ part_means P l) /\
    (e = EInvalidPattern \/ (e = EValue /\ odd_number P)).
Proof.
  intros nv h s me e SS H. change (u "/") with [SLASH] in SS. rewrite mload_snd in H. unfold pat_parse, parse in H. rewrite SS in H.
  destruct (analyze_url_pattern_string s) as [[[d ks hf] Ps]|e'] eqn:A; cbn [bind] in H.
  - right. destruct (mk_patterns 1 (path_depth (UM d ks hf)) Ps) as [ms|e'] eqn:M; cbn [bind] in H.
    + exfalso. assert (LP : Ps <> []).
      { apply parts_exact in A; [|exact SS]. destruct A as (path & q & f & ps & vs & _ & PP & _ & _ & _ & ->). destruct PP as (l & x & _ & _ & ->). intros E. apply app_eq_nil in E. destruct E as [E _]. apply app_eq_nil in E. destruct E. discriminate. }
      destruct ms as [|p ms]; [apply mk_patterns_ok in M; destruct M as [_ M]; cbn in M; congruence|discriminate].
    + inversion H; subst e'. apply mk_patterns_err in M. destruct M as (P & I & PE). exists d, ks, hf, Ps, P. split; [apply parts_exact; assumption|]. split; [exact I|]. split; [|exact (part_err P e PE)].
      intros l X. assert (Y : exists us, pattern_units P = Ok us) by (apply part_some; eauto). destruct Y as (us & Y). congruence.
  - inversion H; subst e'. left. exact (parts_err s e SS A).
Qed.
Theorem c45_units : forall P us, pattern_units P = Ok us <-> part_means P (map (fun x => (pu_str x, pu_rules x, pu_num x)) us).
Proof. exact part_exact. Qed.
