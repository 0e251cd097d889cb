(** Backslashes in the patterns of make() (C64). *)
From Coq Require Import String.
From Verif Require Import PyStr Defs UrlLib ParseUtils Spec Views Trees Cluster Patterns Matcher Maker Observe MatchSpec TightSpec GrammarSpec BackSpec PyStrProofs DefsProofs DictProofs RegexProofs PieceProofs LengthProofs QueryProofs UnitProofs BridgeProofs UrlProofs PackProofs DigestProofs LoadProofs EntProofs TokProofs FlatCluster ViewProofs OuterLevel MakeProofs PatUnits PartProofs MatchUnits MatchTakes Grammar TightProofs JsonProofs.
From Coq Require Import Lia Sorted.

(** ** units *)
Definition num_ok (rs : list str) (n : option N) : Prop := match n with None => True | Some k => (N.of_nat (length rs) <= k)%N /\ k <> 0%N end.
Definition munit (p : str) : Prop :=
  literal_unit p \/ exists rs n, p = cunit_text (CCls rs n) /\ Forall (fun r => In r space_texts) rs /\
    StronglySorted (fun a b => str_ltb a b = true) rs /\ num_ok rs n.

Lemma cunit_unit : forall rs n, cunit_text (CCls rs n) = u "[" ++ List.concat rs ++ u "]" ++ qstr n.
Proof. intros rs [n|]; cbn [cunit_text qstr]; [|reflexivity]. destruct (N.eqb n 1); reflexivity. Qed.
Lemma qstr_count : forall rs n, num_ok rs n -> count_text (qstr n) (znum n) /\ znum n <> 0%Z /\ (0 < znum n -> Z.of_nat (length rs) <= znum n)%Z.
Proof.
  intros rs [n|] H; cbn [num_ok qstr znum] in *; [|split; [right; left; split; reflexivity|split; lia]].
  destruct H as [H1 H2]. split; [|split; lia]. destruct (N.eqb_spec n 1) as [->|E]; [left; split; reflexivity|]. right. right. exists (dec_str n), n.
  split; [reflexivity|]. split; [|reflexivity]. apply decimal_int. apply dec_str_int.
Qed.

Lemma rule_head : forall r, In r space_texts -> exists c t, r = c :: t /\ c <> 93%N.
Proof.
  intros r I. assert (H : forallb (fun r => match r with c :: _ => negb (N.eqb c 93) | [] => false end) space_texts = true) by (vm_compute; reflexivity).
  rewrite forallb_forall in H. specialize (H r I). destruct r as [|c t]; [discriminate|]. exists c, t. split; [reflexivity|]. destruct (N.eqb_spec c 93); [discriminate|assumption].
Qed.
Lemma code_unique : forall l rs a b, Forall (fun r => In r space_texts) l -> Forall (fun r => In r space_texts) rs ->
  List.concat l ++ 93%N :: a = List.concat rs ++ 93%N :: b -> l = rs /\ a = b.
Proof.
  induction l as [|r l IH]; intros [|r' rs] a b F F' E; cbn [List.concat app] in E.
  - inversion E. split; reflexivity.
  - apply Forall_inv in F'. destruct (rule_head r' F') as (c & t & -> & N). cbn in E. inversion E. congruence.
  - apply Forall_inv in F. destruct (rule_head r F) as (c & t & -> & N). cbn in E. inversion E. congruence.
  - inversion F as [|? ? R FL]; inversion F' as [|? ? R' FL']; subst. pose proof (proj1 (space_texts_rules _) R) as K. pose proof (proj1 (space_texts_rules _) R') as K'.
    destruct (rule_len_head r K) as (c & t & -> & L). destruct (rule_len_head r' K') as (c' & t' & -> & L').
    rewrite <- !app_assoc in E. assert (EC : c = c') by (cbn in E; congruence). subst c'.
    assert (LL : length (c :: t) = length (c :: t')) by congruence.
    assert (X : c :: t = c :: t' /\ List.concat l ++ 93%N :: a = List.concat rs ++ 93%N :: b).
    { revert LL E. generalize (c :: t) (c :: t'). intros x. induction x as [|y x IHx]; intros [|y' x'] LL E; try discriminate; [split; [reflexivity|exact E]|]. cbn in E. inversion E; subst. destruct (IHx x') as [-> X]; [cbn in LL; lia|assumption|]. split; [reflexivity|exact X]. }
    destruct X as [-> X]. destruct (IH rs a b FL FL' X) as [-> ->]. split; reflexivity.
Qed.

Lemma means_kind : forall w rs n, unit_means w rs n -> literal_unit w \/ bracket_unit w.
Proof.
  intros w rs n [(c & r & -> & L & _)|(l & q & -> & F & B & _ & _ & C & _)]; [left; exact L|]. right. apply concat_bracket; [exact F|exact B|]. apply qnum_qtext with n. apply count_qnum. exact C.
Qed.
Lemma head_of : forall p, munit p \/ (exists rs n, unit_means p rs n) -> (literal_unit p /\ exists c r, p = c :: r) \/ exists r, p = 91%N :: r.
Proof.
  intros p [[L|(rs & n & -> & _)]|(rs & n & [(c & r & -> & L & _)|(l & q & -> & _)])].
  - left. split; [exact L|]. destruct p as [|c r]; [destruct L; congruence|eauto].
  - right. rewrite cunit_unit. eexists. reflexivity.
  - left. eauto.
  - right. eexists. reflexivity.
Qed.
Lemma literal_91 : forall w c, literal_unit w -> In c w -> c <> 91%N /\ c <> 93%N /\ c <> 43%N /\ c <> 123%N.
Proof.
  intros w c (_ & F & _) I. rewrite Forall_forall in F. specialize (F c I).
  assert (H : forallb (fun c => negb (N.eqb c 91) && negb (N.eqb c 93) && negb (N.eqb c 43) && negb (N.eqb c 123)) letters_digits = true) by (vm_compute; reflexivity).
  rewrite forallb_forall in H. specialize (H c F). rewrite !andb_true_iff, !negb_true_iff, !N.eqb_neq in H. tauto.
Qed.
Lemma not_91 : forall c, In c letters_digits -> ~ same_space c 91%N.
Proof.
  intros c I S. destruct S as [[_ H]|[[_ H]|[[_ H]|H]]]; try (apply char_in_In in H; vm_compute in H; discriminate H).
  subst c. apply char_in_In in I. vm_compute in I. discriminate.
Qed.

(** what follows a unit *)
Lemma tail_no_quant : forall ps, Forall (fun p => munit p \/ exists rs n, unit_means p rs n) ps -> no_quant (List.concat ps).
Proof.
  intros [|p ps] F; [exact Logic.I|]. apply Forall_inv in F. cbn [List.concat]. destruct (head_of p F) as [(L & c & r & ->)|(r & ->)].
  - destruct (literal_91 _ c L (or_introl eq_refl)) as (_ & _ & A & B). cbn. split; assumption.
  - cbn. split; discriminate.
Qed.
Lemma tail_apart : forall p ps c0, literal_unit p -> In c0 p -> units_apart (p :: ps) -> Forall (fun p => munit p \/ exists rs n, unit_means p rs n) ps ->
  forall c r, List.concat ps = c :: r -> ~ same_space c0 c.
Proof.
  intros p [|q ps] c0 L I A F c r E; [discriminate|]. cbn [units_apart] in A. destruct A as [A _]. apply Forall_inv in F. cbn [List.concat] in E. destruct (head_of q F) as [(L2 & d & t & ->)|(t & ->)]; cbn in E; inversion E; subst.
  - apply (A L L2); [exact I|left; reflexivity].
  - apply not_91. destruct L as (_ & L & _). rewrite Forall_forall in L. apply L. exact I.
Qed.
Lemma span_unique : forall (Q : char -> Prop) a b x y, Forall Q a -> Forall Q b -> (forall c r, x = c :: r -> ~ Q c) -> (forall c r, y = c :: r -> ~ Q c) ->
  a ++ x = b ++ y -> a = b /\ x = y.
Proof.
  intros Q a. induction a as [|c a IH]; intros [|d b] x y A B X Y E; cbn [app] in E.
  - split; [reflexivity|exact E].
  - exfalso. apply Forall_inv in B. exact (X d _ E B).
  - exfalso. apply Forall_inv in A. exact (Y c _ (eq_sym E) A).
  - inversion E; subst. inversion A; inversion B; subst. destruct (IH b x y) as [-> ->]; auto.
Qed.

Lemma align : forall ps ws, Forall munit ps -> units_apart ps -> Forall (fun w => exists rs n, unit_means w rs n) ws -> units_apart ws ->
  List.concat ps = List.concat ws -> ps = ws.
Proof.
  induction ps as [|p ps IH]; intros ws F A G B E.
  - destruct ws as [|w ws]; [reflexivity|]. exfalso. apply Forall_inv in G. cbn [List.concat] in E. destruct (head_of w (or_intror G)) as [(_ & c & r & ->)|(r & ->)]; discriminate.
  - inversion F as [|? ? FP FS]; subst. destruct ws as [|w ws].
    { exfalso. cbn [List.concat] in E. destruct (head_of p (or_introl FP)) as [(_ & c & r & ->)|(r & ->)]; discriminate. }
    inversion G as [|? ? GW GS]; subst. cbn [List.concat] in E.
    assert (FS' : Forall (fun p => munit p \/ exists rs n, unit_means p rs n) ps) by (eapply Forall_impl; [|exact FS]; intros x X; left; exact X).
    assert (GS' : Forall (fun p => munit p \/ exists rs n, unit_means p rs n) ws) by (eapply Forall_impl; [|exact GS]; intros x X; right; exact X).
    assert (K : p = w /\ List.concat ps = List.concat ws).
    { destruct FP as [L|(rs & n & -> & FR & SR & NR)].
      - destruct GW as (rs & n & [(c & r & -> & L2 & _)|(l & q & -> & _)]).
        + destruct p as [|d p]; [destruct L; congruence|]. assert (d = c) by (cbn in E; congruence). subst d.
          apply (span_unique (same_space c)); [apply Forall_forall; intros x I; destruct L as (_ & _ & L); apply L; [left; reflexivity|exact I]
            |apply Forall_forall; intros x I; destruct L2 as (_ & _ & L2); apply L2; [left; reflexivity|exact I]
            |apply (tail_apart (c :: p)); [exact L|left; reflexivity|exact A|exact FS']
            |apply (tail_apart (c :: r)); [exact L2|left; reflexivity|exact B|exact GS']|exact E].
        + exfalso. destruct p as [|d p]; [destruct L; congruence|]. cbn in E. inversion E; subst. destruct (literal_91 _ _ L (or_introl eq_refl)) as (X & _). apply X. reflexivity.
      - rewrite cunit_unit in E. destruct GW as (rs' & n' & [(c & r & -> & L2 & _)|(l & q & -> & FL & BL & _ & _ & CQ & _)]).
        + exfalso. cbn in E. inversion E; subst. destruct (literal_91 _ _ L2 (or_introl eq_refl)) as (X & _). apply X. reflexivity.
        + cbn in E. inversion E as [E']. rewrite <- !app_assoc in E'. cbn [app] in E'. destruct (code_unique _ _ _ _ FR FL E') as [-> E2].
          assert (Q : q = qstr n /\ List.concat ps = List.concat ws).
          { assert (S1 : scan_quant (qstr n ++ List.concat ps) = Ok (qstr n, List.concat ps)) by (apply scan_quant_app; [apply dec_quant|apply tail_no_quant; exact FS']).
            assert (S2 : scan_quant (q ++ List.concat ws) = Ok (q, List.concat ws)) by (apply scan_quant_app; [apply qnum_qtext with n'; apply count_qnum; exact CQ|apply tail_no_quant; exact GS']).
            unfold str, char in *. rewrite E2 in S1. rewrite S1 in S2. inversion S2. split; reflexivity. }
          destruct Q as [-> Q]. split; [rewrite cunit_unit; reflexivity|exact Q]. }
    destruct K as [-> K]. f_equal. apply IH; [exact FS|apply A|exact GS|apply B|exact K].
Qed.

(** ** which parts are accepted *)
Lemma means_closed : forall w rs n, unit_means w rs n -> ~ left_open w.
Proof.
  intros w rs n M (a & q & E & NQ). destruct (means_kind w rs n M) as [L|(body & q' & E' & Q & _ & B)].
  - assert (I : In 91%N w) by (rewrite E; left; reflexivity). destruct (literal_91 w _ L I) as (X & _). congruence.
  - rewrite E in E'. assert (E2 : a ++ u "\]" ++ q = body ++ u "]" ++ q') by (injection E' as E'; exact E'). apply (B a).
    assert (NQ' : ~ In 93%N q').
    { destruct Q as [->|[->|(ds & -> & D & _)]]; [intros []|intros [X|[]]; discriminate|]. intros I. change (u "{" ++ ds ++ u "}") with (123%N :: ds ++ [125%N]) in I. destruct I as [I|I]; [discriminate|]. apply in_app_iff in I. destruct I as [I|[I|[]]]; [|discriminate]. exact (isdigit_not ds 93%N D eq_refl I). }
    change (u "\]" ++ q) with ([92%N] ++ [93%N] ++ q) in E2. rewrite app_assoc in E2.
    assert (U : forall x y (s t : str), ~ In 93%N s -> ~ In 93%N t -> x ++ 93%N :: s = y ++ 93%N :: t -> x = y).
    { intros x y s t NS NT EE. apply app_eq_app in EE. destruct EE as (m & [[X1 X2]|[X1 X2]]); (destruct m as [|z m]; [rewrite app_nil_r in X1; congruence|]); cbn in X2; inversion X2; subst; exfalso; [apply NT|apply NS]; apply in_app_iff; right; left; reflexivity. }
    symmetry. exact (U _ _ _ _ NQ NQ' E2).
Qed.
Lemma closed_means : forall p, munit p -> ~ left_open p -> exists rs n, unit_means p rs n.
Proof.
  intros p [L|(rs & n & -> & F & S0 & K)] NO.
  - destruct p as [|c r]; [destruct L; congruence|]. exists [space_text c], (Z.of_nat (length (c :: r))). left. exists c, r. auto.
  - exists rs, (znum n). right. exists rs, (qstr n). rewrite cunit_unit in *. destruct (qstr_count rs n K) as (C & N0 & NL).
    split; [reflexivity|]. split; [exact F|]. split; [|split; [exact S0|]; split; [reflexivity|]; split; [exact C|]; split; [exact N0|exact NL]].
    intros l0 ->. apply NO. exists (List.concat l0 ++ [92%N]), (qstr n). split; [|apply qstr_no_brackets]. rewrite concat_app. cbn [List.concat]. rewrite <- !app_assoc. reflexivity.
Qed.
Lemma units_iff : forall ps P, P <> [] -> List.concat ps = P -> Forall munit ps -> units_apart ps ->
  ((exists us, pattern_units P = Ok us) <-> Forall (fun p => ~ left_open p) ps).
Proof.
  intros ps P N E F A. split.
  - intros (us & H). apply part_exact in H. destruct H as [[H _]|(_ & C & M & A2)]; [contradiction|].
    assert (X : ps = map (fun x => fst (fst x)) (map unit_obs us)).
    { apply align; [exact F|exact A| |exact A2|congruence]. rewrite Forall_map. eapply Forall_impl; [|exact M]. intros x X. eexists. eexists. exact X. }
    rewrite X. rewrite Forall_map. eapply Forall_impl; [|exact M]. intros x Y. eapply means_closed. exact Y.
  - intros NO. assert (G : exists l, map (fun x : str * list str * Z => fst (fst x)) l = ps /\ Forall (fun x => unit_means (fst (fst x)) (snd (fst x)) (snd x)) l).
    { clear E A. induction F as [|p ps FP FS IH]; [exists []; split; [reflexivity|constructor]|]. inversion NO as [|? ? NP NS]; subst. destruct (IH NS) as (l & <- & L). destruct (closed_means p FP NP) as (rs & n & M). exists ((p, rs, n) :: l). split; [reflexivity|constructor; assumption]. }
    destruct G as (l & <- & L). assert (EQ : map unit_obs (map (fun x => PU (fst (fst x)) (snd (fst x)) (snd x)) l) = l).
    { clear. induction l as [|[[w rs] n] l IH]; [reflexivity|]. cbn [map]. f_equal. exact IH. }
    exists (map (fun x => PU (fst (fst x)) (snd (fst x)) (snd x)) l). apply part_exact. rewrite EQ. right. split; [exact N|]. split; [exact E|]. split; [exact L|exact A].
Qed.

(** ** parts *)
Lemma one_run : forall x, all_legal x -> x <> [] -> maximal_runs x [x] -> exists r, run_ok (r, x) /\ run_text x = render (r, x).
Proof.
  intros x L N M. pose proof (maximal_runs_unique x _ _ M (runs_maximal x L)) as E. destruct (runs_spec x L) as (F & _ & _). destruct (runs x) as [|[r w] [|b l]]; try discriminate. cbn in E. inversion E; subst w.
  apply Forall_inv in F. exists r. split; [exact F|]. symmetry. apply (run_text_render r x F).
Qed.
Lemma render_munit : forall rw, run_ok rw -> munit (render rw).
Proof.
  intros rw H. unfold render. destruct (in_sign_rules (fst rw)) eqn:S0.
  - right. exists [fst rw], (Some (N.of_nat (length (snd rw)))). split; [rewrite <- unit_cunit; cbn [List.concat]; rewrite app_nil_r; reflexivity|].
    split; [constructor; [apply space_texts_rules; apply run_ok_in_rules; exact H|constructor]|]. split; [constructor; constructor|]. destruct H as [N _]. cbn [num_ok length]. destruct (snd rw); [congruence|]. cbn [length]. lia.
  - left. apply (lit_unit_literal (fst rw)). split; [apply sign_or_alnum; [apply run_ok_in_rules; exact H|exact S0]|exact H].
Qed.
Lemma spaces_cset : forall x rs, all_legal x -> spaces_of rs x -> rs = cset x.
Proof. intros x rs L [S0 M]. symmetry. apply cset_iff; [exact L|apply sorted_set_id; exact S0|exact M]. Qed.
Lemma class_munit : forall x n, all_legal x -> x <> [] -> (n = None \/ n = Some (reported x)) -> munit (cunit_text (CCls (cset x) n)).
Proof.
  intros x n L N H. right. exists (cset x), n. split; [reflexivity|]. split; [eapply Forall_impl; [|apply cset_rules; exact L]; intros r; apply space_texts_rules|].
  split; [unfold cset; apply sorted_set_sorted|]. destruct H as [->| ->]; [exact Logic.I|]. cbn [num_ok]. unfold reported. pose proof (cset_length x L). destruct x; [congruence|]. cbn [length] in *. lia.
Qed.
Lemma part_munit : forall x p, all_legal x -> part_of x p -> munit p.
Proof.
  intros x p L (N & [[M ->]|(rs & R & H)]).
  - destruct (one_run x L N M) as (r & O & ->). apply render_munit. exact O.
  - rewrite (spaces_cset x rs L R) in *. destruct H as [->| ->]; apply class_munit; auto.
Qed.
Lemma numbered_length : forall rs n x, rs <> [] -> Forall (fun r => in_rules r = true) rs -> regex_matches (cunit_text (CCls rs (Some n))) x -> N.of_nat (length x) = n.
Proof.
  intros rs n x N F (ts & R & M). rewrite <- unit_cunit in R. rewrite rparse_unit in R by assumption. inversion R; subst ts. destruct M as (a & b & -> & _ & K & B). cbn [toks_match] in B. subst b. rewrite app_nil_r. exact K.
Qed.
Lemma part_matches : forall x p, Forall legal x -> part_of x p -> (regex_matches p x <-> ~ miscounted x p).
Proof.
  intros x p L0 PO. assert (L : all_legal x) by (apply all_legal_iff; exact L0). split.
  - intros R (I & rs & S0 & ->). destruct PO as (N & _). rewrite (spaces_cset x rs L S0) in R. apply numbered_length in R; [|apply cset_non; assumption|apply cset_rules; exact L].
    unfold reported in R. pose proof (bs_starts_pos x I). lia.
  - intros NM. destruct PO as (N & [[M ->]|(rs & S0 & H)]).
    + destruct (one_run x L N M) as (r & O & ->). exists (run_toks (r, x)). split; [apply rparse_run; exact O|]. apply run_toks_match; [exact O|reflexivity].
    + rewrite <- (unit_cunit rs), <- unit_cunit in H. pose proof (spaces_cset x rs L S0) as ->. destruct H as [->| ->].
      * apply cls_matches; [exact L|exact N|]. right. f_equal. unfold reported. rewrite bs_starts_zero; [rewrite Nat.add_0_r; reflexivity|]. intros I. apply NM. split; [exact I|]. exists (cset x). split; [exact S0|apply unit_cunit].
      * apply cls_matches; [exact L|exact N|]. left. reflexivity.
Qed.

(** ** the parts of a pattern of make() *)
Lemma ustr_literal : forall x, Forall run_ok (uruns x) -> literal_unit (ustr x) -> exists rw, x = UL rw /\ in_sign_rules (fst rw) = false.
Proof.
  intros x F L. assert (N : ~ In 91%N (ustr x)) by (intros I; apply (literal_91 _ _ L) in I; tauto). destruct x as [rw|w g]; unfold ustr in *; cbn [upu pu_str] in *.
  - exists rw. split; [reflexivity|]. unfold render in N. destruct (in_sign_rules (fst rw)); [|reflexivity]. exfalso. apply N. left. reflexivity.
  - exfalso. apply N. left. reflexivity.
Qed.
Lemma upat_apart : forall us, Forall run_ok (List.concat (map uruns us)) -> adj' (List.concat (map uruns us)) -> units_apart (map ustr us).
Proof.
  induction us as [|x us IH]; intros F A; [exact Logic.I|]. cbn [map List.concat] in F, A. apply Forall_app in F. destruct F as [F1 F2]. cbn [map units_apart]. split; [|apply IH; [exact F2|eapply adj'_app_r; exact A]].
  destruct us as [|y us]; [exact Logic.I|]. cbn [map] in *. intros L1 L2 c d I J E. cbn [List.concat] in F2. apply Forall_app in F2. destruct F2 as [F2 _]. destruct (ustr_literal x F1 L1) as (a & -> & SA). destruct (ustr_literal y F2 L2) as (b & -> & SB).
  unfold ustr in I, J. cbn [upu pu_str] in I, J. unfold render in I, J. rewrite SA in I. rewrite SB in J. cbn [uruns app adj'] in *. destruct A as [A _]. apply A.
  apply Forall_inv in F1. apply Forall_inv in F2. destruct F1 as [_ F1], F2 as [_ F2]. rewrite Forall_forall in F1, F2. apply (same_space_rule c d _ _ (F1 c I) (F2 d J)). exact E.
Qed.
Lemma upat_part : forall x, uok x -> Forall run_ok (uruns x) -> all_legal (cat (uruns x)) -> runs (cat (uruns x)) = uruns x -> part_of (cat (uruns x)) (ustr x).
Proof.
  intros x OK F L R. assert (N : cat (uruns x) <> []).
  { intros E. apply cat_nil in E; [|exact F]. destruct x as [rw|w g]; [discriminate|]. exact (OK E). }
  split; [exact N|]. destruct x as [[r w]|w g]; cbn [uruns] in *.
  - left. unfold cat in *. cbn [map List.concat snd] in *. rewrite app_nil_r in *. split; [pose proof (runs_maximal w L) as M; rewrite R in M; exact M|]. apply Forall_inv in F. apply (run_text_render r w F).
  - right. exists (cset (cat g)). split; [apply cset_spaces; exact L|]. unfold ustr. cbn [upu pu_str]. rewrite unit_cunit. unfold uquant. destruct w; [right; reflexivity|left; reflexivity].
Qed.
Lemma upat_cut : forall s P us, all_legal s -> upat s P us -> parts_of s P (map (fun x => (cat (uruns x), ustr x)) us).
Proof.
  intros s P us L U. pose proof (upat_parts s P us L U) as (C & LG & RO). destruct U as (A & OK & E). unfold parts_of. rewrite !map_map. cbn [fst snd]. split; [exact C|]. split; [symmetry; exact E|]. split.
  - rewrite Forall_map. apply Forall_forall. intros x I. cbn [fst snd]. rewrite Forall_forall in OK, LG. destruct (LG x I) as [L1 R1]. apply upat_part; auto.
    rewrite Forall_forall in RO |- *. intros rw J. apply RO. apply in_concat. exists (uruns x). split; [apply in_map; exact I|exact J].
  - apply upat_apart; [exact RO|]. rewrite A. apply (runs_spec s L).
Qed.
Lemma opat_cut : forall s P, all_legal s -> opat s P -> exists l, parts_of s P l.
Proof. intros s P L O. destruct (opat_upat s P L O) as (us & U). eexists. eapply upat_cut; eassumption. Qed.

Lemma parts_legal : forall s P l, all_legal s -> parts_of s P l -> Forall (fun xp => all_legal (fst xp)) l.
Proof.
  intros s P l L (<- & _). clear P. induction l as [|xp l IH]; [constructor|]. cbn [map List.concat] in L. apply Forall_app in L. destruct L. constructor; auto.
Qed.
Lemma parts_match : forall s P l, Forall legal s -> parts_of s P l -> Forall (fun xp => ~ miscounted (fst xp) (snd xp)) l -> regex_matches P s.
Proof.
  intros s P l L0 PO NM. assert (L : all_legal s) by (apply all_legal_iff; exact L0). pose proof (parts_legal s P l L PO) as LP. destruct PO as (<- & <- & F & _). clear L0 L.
  induction F as [|xp l H F IH]; [apply regex_matches_nil|]. inversion NM; inversion LP; subst. cbn [map List.concat]. apply regex_matches_app; [|apply IH; assumption]. apply part_matches; [apply all_legal_iff; assumption|exact H|assumption].
Qed.
Lemma parts_accepted : forall s P l, Forall legal s -> parts_of s P l -> ((exists us, pattern_units P = Ok us) <-> Forall (fun xp => ~ left_open (snd xp)) l).
Proof.
  intros s P l L0 PO. assert (L : all_legal s) by (apply all_legal_iff; exact L0). pose proof (parts_legal s P l L PO) as LP. destruct PO as (E1 & E2 & F & A).
  assert (U : Forall munit (map snd l)).
  { rewrite Forall_map. rewrite Forall_forall in LP, F |- *. intros xp I. eapply part_munit; [apply LP; exact I|apply F; exact I]. }
  destruct l as [|xp l].
  - cbn in E2. subst P. split; [constructor|]. intros _. eexists. vm_compute. reflexivity.
  - rewrite <- (Forall_map snd (fun p => ~ left_open p)). apply units_iff; [|exact E2|exact U|exact A]. intros ->. cbn [map List.concat] in E2, U. apply app_eq_nil in E2. destruct E2 as [E2 _]. apply Forall_inv in U. rewrite E2 in U. destruct (head_of [] (or_introl U)) as [(_ & c & r & X)|(r & X)]; discriminate.
Qed.

(** ** the exception *)
Lemma munit_ascii : forall p, munit p -> Forall (fun c => (c < 128)%N) p.
Proof.
  intros p [(_ & F & _)|(rs & n & -> & F & _)].
  - eapply Forall_impl; [|exact F]. intros c I. assert (H : forallb (fun c => N.ltb c 128) letters_digits = true) by (vm_compute; reflexivity). rewrite forallb_forall in H. apply N.ltb_lt. apply H. exact I.
  - rewrite cunit_unit. assert (H : forallb (fun r => forallb (fun c => N.ltb c 128) r) space_texts = true) by (vm_compute; reflexivity). rewrite forallb_forall in H.
    constructor; [reflexivity|]. cbn [app]. apply Forall_app. split.
    + apply Forall_forall. intros c I. apply in_concat in I. destruct I as (r & I & J). rewrite Forall_forall in F. specialize (H r (F r I)). rewrite forallb_forall in H. apply N.ltb_lt. apply H. exact J.
    + constructor; [reflexivity|]. cbn [app]. destruct n as [n|]; cbn [qstr]; [|repeat constructor]. destruct (N.eqb n 1); [constructor|]. constructor; [reflexivity|]. apply Forall_app. split; [|repeat constructor].
      apply Forall_forall. intros c I. destruct (N.ltb_spec c 128) as [X|X]; [exact X|]. exfalso. apply (dec_str_no c n); [|exact I]. unfold is_digit. apply andb_false_iff. right. apply N.leb_gt. unfold char in *. lia.
Qed.
Lemma ascii_odd : forall P, Forall (fun c => (c < 128)%N) P -> ~ odd_number P.
Proof.
  intros P A (a & ds & b & -> & D & N). apply N. apply Forall_app in A. destruct A as [_ A]. apply Forall_app in A. destruct A as [_ A]. apply Forall_app in A. destruct A as [A _].
  assert (V : exists vs, map decimal_value ds = map Some vs).
  { destruct ds as [|d ds]; [discriminate|]. unfold isdigit in D. rewrite forallb_forall in D. clear N. induction (d :: ds) as [|c l IH]; [exists []; reflexivity|]. inversion A; subst. destruct IH as (vs & E); [assumption|intros; apply D; right; assumption|].
    pose proof (ascii_forall (fun c => negb (isdigit_char c) || match decimal_value c with Some _ => true | None => false end) ltac:(vm_compute; reflexivity) c H1) as X. cbv beta in X. rewrite (D c (or_introl eq_refl)) in X. cbn [negb orb] in X.
    destruct (decimal_value c) as [v|] eqn:V; [|discriminate]. exists (v :: vs). cbn [map]. rewrite V, E. reflexivity. }
  destruct V as (vs & V). eexists. split; [intros ->; discriminate|]. exists vs. split; [exact V|reflexivity].
Qed.
Lemma parts_err : forall s P l e, Forall legal s -> parts_of s P l -> pattern_units P = Err e -> e = EInvalidPattern.
Proof.
  intros s P l e L0 PO H. destruct (part_err P e H) as [X|[_ X]]; [exact X|]. exfalso. revert X. apply ascii_odd.
  assert (L : all_legal s) by (apply all_legal_iff; exact L0). pose proof (parts_legal s P l L PO) as LP. destruct PO as (_ & <- & F & _).
  clear H. induction F as [|xp l H1 F IH]; [constructor|]. inversion LP; subst. cbn [map List.concat]. apply Forall_app. split; [|apply IH; assumption].
  apply munit_ascii. eapply part_munit; eassumption.
Qed.

(** ** loading *)
Lemma upat_read : forall s P us l, all_legal s -> upat s P us -> s <> [] -> pattern_units P = Ok l -> l = map upu us.
Proof.
  intros s P us l L U N H. pose proof (upat_parts s P us L U) as (C & LG & RO). destruct U as (A & OK & E).
  assert (RX : Forall (fun x => Forall run_ok (uruns x)) us).
  { rewrite Forall_forall in RO |- *. intros x I. apply Forall_forall. intros rw J. apply RO. apply in_concat. exists (uruns x). split; [apply in_map; exact I|exact J]. }
  assert (MU : Forall (fun x => mk_unit (ustr x) = Ok (upu x)) us).
  { rewrite Forall_forall in LG, OK, RX |- *. intros x I. apply mk_upu; [apply OK; exact I|apply RX; exact I|apply LG; exact I]. }
  assert (K : map ustr us = map pu_str l).
  { pose proof H as H0. apply part_exact in H0. destruct H0 as [[H0 _]|(_ & C2 & M & A2)].
    - exfalso. rewrite E in H0. destruct us as [|x us]; [cbn in C; congruence|]. cbn [map List.concat] in H0. apply app_eq_nil in H0. destruct H0 as [H0 _]. apply Forall_inv in MU. rewrite H0 in MU. unfold mk_unit in MU. cbn in MU. inversion MU as [X]. apply Forall_inv in OK. apply Forall_inv in RX. destruct x as [rw|w g]; cbn [upu uruns] in *; [|discriminate].
      apply (f_equal pu_rules) in X. cbn [pu_rules] in X. injection X as X. apply Forall_inv in RX. pose proof (run_ok_in_rules _ RX) as Y. rewrite <- X in Y. vm_compute in Y. discriminate.
    - rewrite map_map in A2, C2. apply align; [|rewrite E in C2; apply upat_apart; [exact RO|rewrite A; apply (runs_spec s L)]| |exact A2|etransitivity; [symmetry; exact E|symmetry; exact C2]].
      + rewrite Forall_map. rewrite Forall_forall in LG, OK, RX |- *. intros x I. apply part_munit with (cat (uruns x)); [apply LG; exact I|]. apply upat_part; [apply OK; exact I|apply RX; exact I|apply LG; exact I|apply LG; exact I].
      + rewrite Forall_map. rewrite Forall_map in M. eapply Forall_impl; [|exact M]. intros x X. eexists. eexists. exact X. }
  unfold pattern_units in H. apply bind_ok in H. destruct H as (ws & _ & H). apply mapM_units in H. destruct H as [W F]. clear - K F MU. revert l K F. induction MU as [|x us X MU IH]; intros [|y l] K F; try discriminate; [reflexivity|].
  cbn [map] in K. injection K as K1 K2. inversion F as [|? ? FY FL]; subst. cbn [map]. f_equal; [|apply IH; assumption]. rewrite <- K1 in FY. unfold ustr in *. congruence.
Qed.
Lemma opat_fuzzy : forall s P l, all_legal s -> opat s P -> pattern_units P = Ok l -> units_fuzzy l = fuzzy_rule (pp_of s).
Proof.
  intros s P l L O H. destruct (opat_upat s P L O) as (us & U). destruct s as [|c s].
  - rewrite (upat_empty P us U) in H. vm_compute in H. inversion H. reflexivity.
  - rewrite (upat_read _ P us l L U) by (discriminate || exact H). rewrite fuzzy_cset. eapply upat_fuzzy; eassumption.
Qed.
Lemma opat_fits : forall s P, all_legal s -> opat s P -> Spec.fits s P.
Proof. intros s P L O. destruct (opat_upat s P L O) as (us & U). eapply upat_fits; eassumption. Qed.

Lemma opats_read : forall pd raw Ps, Forall all_legal raw -> Forall2 opat raw Ps -> Forall (fun P => exists us, pattern_units P = Ok us) Ps ->
  forall i, exists mps, mk_patterns i pd Ps = Ok mps /\ map mp_fuzzy mps = map fuzzy_rule (map pp_of raw) /\ map mp_str mps = Ps.
Proof.
  intros pd raw Ps LR F. induction F as [|s P raw Ps O F IH]; intros G i.
  - exists []. cbn. auto.
  - inversion LR; inversion G as [|? ? (us & E) G']; subst. destruct (IH H2 G' (S i)) as (mps & E' & FZ' & ST).
    cbn [mk_patterns]. unfold mk_match_pattern. rewrite E. cbn [bind]. rewrite E'. cbn [bind]. eexists. split; [reflexivity|]. cbn [map mp_str]. unfold mp_fuzzy at 1. cbn [mp_units]. rewrite FZ', ST, (opat_fuzzy s P us H1 O E). auto.
Qed.
Lemma opats_bad : forall pd Ps i, Forall (fun P => forall e, pattern_units P = Err e -> e = EInvalidPattern) Ps -> ~ Forall (fun P => exists us, pattern_units P = Ok us) Ps ->
  mk_patterns i pd Ps = Err EInvalidPattern.
Proof.
  intros pd Ps. induction Ps as [|P Ps IH]; intros i F G; [exfalso; apply G; constructor|]. inversion F; subst. cbn [mk_patterns]. unfold mk_match_pattern. destruct (pattern_units P) as [us|e] eqn:E; cbn [bind].
  - rewrite IH; [reflexivity|assumption|]. intros X. apply G. constructor; [eauto|exact X].
  - rewrite (H1 e eq_refl). reflexivity.
Qed.

Lemma um_eta : forall m, UM (path_depth m) (query_keys m) (has_fragment m) = m.
Proof. intros []. reflexivity. Qed.
Section CLUSTER.
Context (nv : str -> bool) (h : list (str * option str)) (mcn : Z) (cs : list (url_meta * tree)) (m : url_meta) (t : tree) (nodes : list tree) (raw : list str).
Hypothesis (M : (2 <= mcn)%Z) (E : make mcn (loads nv h) = Ok cs) (I : In (m, t) cs) (IN : In nodes (paths t)) (LR0 : Forall (Forall legal) raw) (EP : path_pieces nodes = map piece_of raw).
Lemma LR : Forall all_legal raw.
Proof. eapply Forall_impl; [|exact LR0]. intros a Ha. apply all_legal_iff. exact Ha. Qed.
Lemma cluster_opat : Forall2 opat raw (path_patterns nodes) /\ exists url me, In (url, me) h /\ analyze_url nv url = Ok (m, raw).
Proof.
  destruct (cluster_path nv h mcn cs m t M E I) as (Ps & sid & mk & L & IM & EM & PP & PR & _).
  destruct (PR nodes IN) as (raw' & EP' & LR' & IR & F2 & _).
  assert (raw' = raw) by (apply pieces_inj; [exact LR'|exact LR|congruence]). subst raw'. rewrite (PP nodes IN). split; [exact F2|].
  destruct (c18_paths nv h sid mk IM) as (_ & _ & _ & PF). destruct (PF raw raw IR IR) as (_ & _ & _ & me & A). rewrite EM in A. apply in_accepted in A. destruct A as (url & J & A).
  apply url_path_parse in A. destruct A as (A & _ & _). exists url, me. auto.
Qed.
Lemma c64_parts : exists ls, cuts_of raw (path_patterns nodes) ls.
Proof.
  destruct cluster_opat as [F _]. pose proof LR as L. clear - F L. induction F as [|s P raw Ps O F IH]; [exists []; repeat split; constructor|].
  inversion L; subst. destruct (IH H2) as (ls & A & B & C). destruct (opat_cut s P H1 O) as (l & K). pose proof K as (K1 & K2 & _). exists (l :: ls). split; [|split].
  - cbn [map]. f_equal; [exact K1|exact A].
  - cbn [map]. f_equal; [exact K2|exact B].
  - constructor; [|exact C]. rewrite <- K1, <- K2 in K. exact K.
Qed.
Lemma cuts_pairs : forall (Q : str -> str -> Prop) raw Ps ls, Forall (Forall legal) raw -> cuts_of raw Ps ls ->
  (forall s P l, Forall legal s -> parts_of s P l -> In l ls -> Q P s) -> Forall2 Q Ps raw.
Proof.
  intros Q raw0 Ps ls L (<- & <- & F) H. induction F as [|l ls X F IH]; cbn [map]; [constructor|]. cbn [map] in L. inversion L; subst. constructor; [eapply H; [eassumption|exact X|left; reflexivity]|]. apply IH; [assumption|]. intros s P l0 A B C. eapply H; [exact A|exact B|right; exact C].
Qed.
Lemma c64_pieces : forall ls, cuts_of raw (path_patterns nodes) ls ->
  (forall l x p, In l ls -> In (x, p) l -> ~ miscounted x p) -> Forall2 regex_matches (path_patterns nodes) raw.
Proof.
  intros ls C NM. eapply cuts_pairs; [exact LR0|exact C|]. intros s P l L K J. eapply parts_match; [exact L|exact K|]. apply Forall_forall. intros [x p] X. eapply NM; eassumption.
Qed.
Lemma c64_units : forall ls, cuts_of raw (path_patterns nodes) ls ->
  (Forall (fun P => exists us, pattern_units P = Ok us) (path_patterns nodes) <-> forall l x p, In l ls -> In (x, p) l -> ~ left_open p).
Proof.
  intros ls C. pose proof LR0 as L. destruct C as (C1 & <- & C). rewrite <- C1 in L. clear - C L. split.
  - intros F l x p J X. rewrite Forall_map in F, L. rewrite Forall_forall in F, L, C. pose proof (proj1 (parts_accepted _ _ l (L l J) (C l J)) (F l J)) as Y. rewrite Forall_forall in Y. exact (Y (x, p) X).
  - intros H. rewrite Forall_map in *. rewrite Forall_forall in L, C |- *. intros l J. apply (parts_accepted _ _ l (L l J) (C l J)). apply Forall_forall. intros [x p] X. eapply H; eassumption.
Qed.
Lemma pack_slash : startswith (pack m (path_patterns nodes)) [SLASH] = true.
Proof. unfold pack; cbn [startswith]; match goal with |- context [startswith ?x []] => destruct x end; reflexivity. Qed.
Lemma pack_analyze : analyze_url_pattern_string (pack m (path_patterns nodes)) = Ok (m, path_patterns nodes).
Proof.
  destruct cluster_opat as (F & url & me & _ & A). assert (F4 : Forall2 Spec.fits raw (path_patterns nodes)).
  { pose proof LR as L. clear - F L. induction F; [constructor|]. inversion L; subst. constructor; [apply opat_fits; assumption|auto]. }
  exact (c11 _ _ _ _ _ A F4).
Qed.
Lemma pack_read : forall mps, mk_patterns 1 (path_depth m) (path_patterns nodes) = mps ->
  parse nv (pack m (path_patterns nodes)) = (ps <- mps ;; Ok (m, PPat ps)).
Proof. intros mps E1. unfold parse. rewrite pack_slash, pack_analyze. cbn [bind]. rewrite E1. reflexivity. Qed.
Lemma c64_accepts : forall ls, cuts_of raw (path_patterns nodes) ls -> (forall l x p, In l ls -> In (x, p) l -> ~ left_open p) ->
  exists mps, parse nv (pack m (path_patterns nodes)) = Ok (m, PPat mps) /\ map mp_str mps = path_patterns nodes /\ parsed_digest m (PPat mps) = digest_of m raw.
Proof.
  intros ls C NO. destruct cluster_opat as (F & _). destruct (opats_read (path_depth m) raw _ LR F (proj2 (c64_units ls C) NO) 1) as (mps & E1 & E2 & E3).
  exists mps. split; [rewrite (pack_read _ E1); reflexivity|]. split; [exact E3|]. unfold parsed_digest. rewrite E2. destruct (digest_of_legal m raw LR) as [D _]. symmetry. exact D.
Qed.
Lemma c64_rejects : forall ls l x p, cuts_of raw (path_patterns nodes) ls -> In l ls -> In (x, p) l -> left_open p ->
  forall st me, match_load nv st (pack m (path_patterns nodes)) me = (st, Err EInvalidPattern).
Proof.
  intros ls l x p C J X O st me. unfold match_load. erewrite pack_read; [|apply opats_bad].
  - reflexivity.
  - assert (F : Forall2 (fun P (_ : str) => forall e, pattern_units P = Err e -> e = EInvalidPattern) (path_patterns nodes) raw).
    { eapply (cuts_pairs (fun P (_ : str) => forall e, pattern_units P = Err e -> e = EInvalidPattern)); [exact LR0|exact C|]. intros s P l0 L K _ e. eapply parts_err; eassumption. }
    clear - F. induction F; constructor; assumption.
  - intros F. exact (proj1 (c64_units ls C) F l x p J X O).
Qed.
Lemma c64_load : forall ls, cuts_of raw (path_patterns nodes) ls -> (forall l x p, In l ls -> In (x, p) l -> ~ left_open p) ->
  forall h' me, exists b, snd (match_load nv (mloads nv h') (pack m (path_patterns nodes)) me) = Ok b.
Proof.
  intros ls C NO h' me. apply c45_accepts. split; [exact pack_slash|]. exists (path_depth m), (query_keys m), (has_fragment m), (path_patterns nodes). split.
  - apply parts_exact; [exact pack_slash|]. rewrite um_eta. exact pack_analyze.
  - eapply Forall_impl; [|exact (proj2 (c64_units ls C) NO)]. intros P. apply part_some.
Qed.
End CLUSTER.

Lemma c64_url : forall nv h mcn cs url me m raw p, (2 <= mcn)%Z -> make mcn (loads nv h) = Ok cs ->
  In (url, me) h -> url_path nv url = Some (m, raw) -> parse_url nv url = Ok p ->
  match up_query p with Some q => Forall legal q | None => True end ->
  forall t nodes ls, In (m, t) cs -> In nodes (paths t) -> path_pieces nodes = map piece_of raw ->
    cuts_of raw (path_patterns nodes) ls -> (forall l x p, In l ls -> In (x, p) l -> ~ miscounted x p) ->
    regex_matches (pack m (path_patterns nodes)) (url_text p).
Proof.
  intros nv h mcn cs url me m raw p M E IH U EU LQ t nodes ls I IN EP C NM. pose proof (url_path_parse _ _ _ _ U) as (A & LR & _). eapply c22_text; [exact A|exact EU|exact LQ|].
  eapply c64_pieces; [|exact C|exact NM]. eapply Forall_impl; [|exact LR]. intros a Ha. apply all_legal_iff. exact Ha.
Qed.
Lemma c64_accepted : forall nv h mcn cs m t nodes raw,
  (2 <= mcn)%Z -> make mcn (loads nv h) = Ok cs -> In (m, t) cs -> In nodes (paths t) ->
  Forall (Forall legal) raw -> path_pieces nodes = map piece_of raw ->
  forall ls, cuts_of raw (path_patterns nodes) ls -> (forall l x p, In l ls -> In (x, p) l -> ~ left_open p) ->
  (exists mps, parse nv (pack m (path_patterns nodes)) = Ok (m, PPat mps) /\ map mp_str mps = path_patterns nodes /\
     parsed_digest m (PPat mps) = digest_of m raw) /\
  forall h' me, exists b, snd (match_load nv (mloads nv h') (pack m (path_patterns nodes)) me) = Ok b.
Proof.
  intros nv h mcn cs m t nodes raw M E I IN L EP ls C NO. split; [eapply c64_accepts; eassumption|]. intros h' me. eapply c64_load; eassumption.
Qed.
(** a piece as it stands, with a backslash *)
Lemma piece_cut : forall s, all_legal s -> parts_of s (piece_of s) (map (fun w => (w, run_text w)) (map snd (runs s))).
Proof.
  intros s L. pose proof (runs_spec s L) as (F & _ & _).
  assert (U : upat s (piece_of s) (map UL (runs s))).
  { split; [|split].
    - rewrite map_map. clear. induction (runs s) as [|x l IH]; [reflexivity|]. cbn [map List.concat uruns app]. f_equal. exact IH.
    - rewrite Forall_map. apply Forall_forall. intros x _. exact Logic.I.
    - unfold piece_of. rewrite piece_parse_legal by exact L. unfold piece. cbn [pieces pp_of]. rewrite map_map. reflexivity. }
  pose proof (upat_cut s _ _ L U) as X.
  assert (R : map (fun x => (cat (uruns x), ustr x)) (map UL (runs s)) = map (fun w => (w, run_text w)) (map snd (runs s))).
  { rewrite !map_map. apply map_ext_in. intros [r w] J. rewrite Forall_forall in F. unfold cat, ustr. cbn [uruns map List.concat snd upu pu_str]. rewrite app_nil_r. f_equal. apply (run_text_render r w (F _ J)). }
  rewrite R in X. exact X.
Qed.
Lemma bs_run_open : forall s, all_legal s -> In 92%N s -> exists w, In w (map snd (runs s)) /\ left_open (run_text w).
Proof.
  intros s L I. pose proof (runs_spec s L) as (F & _ & C). rewrite <- C in I. apply in_concat in I. destruct I as (w & I & J). exists w. split; [exact I|].
  apply in_map_iff in I. destruct I as ([r w'] & X & I). cbn in X. subst w'. rewrite Forall_forall in F. pose proof (F _ I) as RO. pose proof (proj1 (run_text_render r w RO)) as <-.
  destruct RO as [N K]. cbn [fst snd] in *. rewrite Forall_forall in K. pose proof (K _ J) as R. change (char_rule 92%N) with (Some BSRULE) in R. inversion R; subst r. unfold render. cbn [fst snd].
  change (in_sign_rules BSRULE) with true. cbv iota. exists [92%N], (qstr (Some (N.of_nat (length w)))). split; [reflexivity|apply qstr_no_brackets].
Qed.
Lemma c64_single : forall nv h mcn cs m t nodes raw w,
  (2 <= mcn)%Z -> make mcn (loads nv h) = Ok cs -> In (m, t) cs -> paths t = [nodes] ->
  Forall (Forall legal) raw -> path_pieces nodes = map piece_of raw -> In w raw -> In 92%N w ->
  forall st me, match_load nv st (pack m (path_patterns nodes)) me = (st, Err EInvalidPattern).
Proof.
  intros nv h mcn cs m t nodes raw w M E I PT L EP IW B. assert (PE : path_patterns nodes = map piece_of raw).
  { destruct (c24 nv h mcn cs m t M E I) as [(n' & X & Y)|X]; rewrite PT in X; [inversion X; congruence|]. cbn in X. lia. }
  assert (LA : Forall all_legal raw) by (eapply Forall_impl; [|exact L]; intros a; apply all_legal_iff). rewrite Forall_forall in LA.
  destruct (bs_run_open w (LA w IW) B) as (x & J & O). set (f := fun s => map (fun w => (w, run_text w)) (map snd (runs s))).
  eapply (c64_rejects nv h mcn cs m t nodes raw M E I) with (ls := map f raw) (l := f w) (x := x) (p := run_text x); [rewrite PT; left; reflexivity|exact L|exact EP| | | |exact O].
  - rewrite PE. assert (K : forall s, In s raw -> parts_of s (piece_of s) (f s)) by (intros s Is; apply piece_cut; apply LA; exact Is).
    split; [|split].
    + rewrite map_map. rewrite <- (map_id raw) at 2. apply map_ext_in. intros s Is. apply (K s Is).
    + rewrite map_map. apply map_ext_in. intros s Is. apply (K s Is).
    + rewrite Forall_map. apply Forall_forall. intros s Is. pose proof (K s Is) as X. pose proof X as (X1 & X2 & _). revert X. generalize X1 X2. generalize (piece_of s). generalize (f s). clear. intros l p0 <- <-. trivial.
  - apply in_map. exact IW.
  - unfold f. apply (in_map (fun w => (w, run_text w))). exact J.
Qed.
Lemma c64_case :
  cuts_of [u "\ab\d"] [u "[\\a-z]{7}"] [[(u "\ab\d", u "[\\a-z]{7}")]] /\ miscounted (u "\ab\d") (u "[\\a-z]{7}") /\ ~ left_open (u "[\\a-z]{7}") /\
  left_open (u "[A-Z\\]{7}") /\ left_open (u "[\\]").
Proof.
  assert (SP : spaces_of [u "\\"; u "a-z"] (u "\ab\d")).
  { split; [repeat constructor|]. intros r. split.
    - intros [<-|[<-|[]]]; [exists 92%N|exists 97%N]; (split; [vm_compute; tauto|vm_compute; reflexivity]).
    - intros (c & I & <-). vm_compute in I. repeat destruct I as [<-|I]; [vm_compute; tauto..|destruct I]. }
  split; [|split; [|split; [|split]]].
  - split; [reflexivity|]. split; [reflexivity|]. constructor; [|constructor]. split; [reflexivity|]. split; [reflexivity|]. split; [|split; exact Logic.I]. constructor; [|constructor]. split; [discriminate|]. right. exists [u "\\"; u "a-z"]. split; [exact SP|]. left. vm_compute. reflexivity.
  - split; [vm_compute; tauto|]. exists [u "\\"; u "a-z"]. split; [exact SP|]. vm_compute. reflexivity.
  - intros (a & q & E & N). change (u "[\\a-z]{7}") with (u "[" ++ u "\\a-z" ++ u "]" ++ u "{7}") in E. cbn [app] in E.
    assert (X : u "\\a-z" ++ 93%N :: u "{7}" = (a ++ [92%N]) ++ 93%N :: q) by (rewrite <- app_assoc; exact (f_equal (@tl char) E)).
    apply app_eq_app in X. destruct X as (l & [[X1 X2]|[X1 X2]]).
    + destruct l as [|z l]; [rewrite app_nil_r in X1; do 7 (destruct a as [|? a]; [discriminate|]); destruct a; discriminate|]. cbn in X2. inversion X2; subst. apply N. apply in_app_iff. right. left. reflexivity.
    + destruct l as [|z l]; [rewrite app_nil_r in X1; do 7 (destruct a as [|? a]; [discriminate|]); destruct a; discriminate|]. cbn in X2. inversion X2; subst. destruct l as [|? [|? [|? [|? l]]]]; discriminate.
  - exists (u "A-Z\"), (u "{7}"). split; [reflexivity|]. vm_compute. intuition discriminate.
  - exists (u "\"), []. split; [reflexivity|]. intros [].
Qed.
