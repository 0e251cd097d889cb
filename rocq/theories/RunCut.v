(** How a piece with a run that changes is cut (C67). *)
From Coq Require Import String.
From Verif Require Import PyStr Defs UrlLib ParseUtils Views Trees Cluster Spec Patterns Matcher Maker Observe MatchSpec OneSpec TightSpec RunSpec PyStrProofs DefsProofs DictProofs RegexProofs PieceProofs LengthProofs BridgeProofs GroupProofs TreeProofs TokProofs LengthStage PieceStage EntProofs GenCluster FlatCluster ViewProofs KeyProofs TokUniq RouteProofs MultiStage OuterLevel OuterCluster OneLevel MatchTakes RunFam RunView RunLevel RunInert RunOuter.
From Coq Require Import Lia Permutation.

Lemma three_same : forall s, all_legal s -> length (runs s) = 3 -> vk (svB s) = vk (svL s) ->
  svL s = svB s /\ exists n d e, lform s n d e /\ e <> [].
Proof.
  intros s L N E. unfold vk in E. apply view_key_inj in E; [|apply svB_legal; exact L|apply svL_legal; exact L].
  pose proof (multi_mshape s L) as MS. pose proof (groups_multi s) as G. unfold svB in E. unfold g_multi in *.
  destruct (runs s) as [|a [|b [|d [|]]]] eqn:ER; try discriminate. cbn [map] in E, MS, G.
  destruct (ldsf_cross s [a] [b] [d] L G MS E) as (name & dot & ext & LF & NE & N1 & N2 & N3).
  pose proof (g_ldsf_form s name dot ext LF) as GL. pose proof LF as LF'. destruct LF as (R & D & AE & _). rewrite ER in R.
  assert (ADJ : adj' [a; b; d]) by (rewrite <- ER; apply runs_spec; exact L).
  assert (Hn : exists x, name = [x]).
  { apply eq_sym in N1. unfold nset in N1 at 1. cbn [nset map sorted_set fold_right set_insert] in N1.
    destruct (one_rule_one_run name (fst a)) as (x & X & _); [|exact N1|eauto]. rewrite R in ADJ. apply adj'_app_l in ADJ. exact ADJ. }
  destruct Hn as [x ->]. cbn [app] in R. inversion R as [[R1 R2 R3]]. destruct ext as [|e [|]]; try discriminate. injection R3 as R3. subst.
  split; [|exists [x], dot, [e]; split; [exact LF'|discriminate]]. unfold svL, svB, g_multi. rewrite GL, ER. reflexivity.
Qed.
Lemma dot_cut_len : forall t ws, dot_cut t ws -> length ws = 3.
Proof. intros t ws (n & d & e & -> & _). reflexivity. Qed.
Section T.
  Context (mcn : Z) (lp : bool) (t : str) (L : all_legal t) (N : t <> []).
  Definition byr : bool := ((length (runs t) <=? 3) || ((2 <=? length (g_mixed t)) && (Z.of_nat (length (runs t)) - Z.of_nat (length (g_mixed t)) <? mcn)%Z))%bool.
  Definition cc : cls := if byr then CBase else CMixed.
  Lemma cc3 : is3 cc.
  Proof. unfold cc, is3. destruct byr; auto. Qed.
  Lemma svB_len : length (svB t) = length (runs t).
  Proof. unfold svB, g_multi. rewrite !map_length. reflexivity. Qed.
  Lemma svX_len : length (svX t) = length (g_mixed t).
  Proof. unfold svX. apply map_length. Qed.
  Lemma cc_parts : parts_of mcn t (vsv cc t).
  Proof.
    exists (svB t), (svX t). split; [apply multi_cut; [exact L|reflexivity]|]. split; [apply mixed_cut_iff; [exact L|reflexivity]|]. cbv zeta. rewrite svB_len, svX_len.
    assert (B : byr = true <-> (length (runs t) <= 3 \/ (2 <= length (g_mixed t) /\ (Z.of_nat (length (runs t)) - Z.of_nat (length (g_mixed t)) < mcn)%Z))).
    { unfold byr. rewrite orb_true_iff, andb_true_iff, !Nat.leb_le, Z.ltb_lt. reflexivity. }
    unfold cc. split; intros X.
    - rewrite (proj2 B X). reflexivity.
    - destruct byr; [exfalso; apply X, B; reflexivity|reflexivity].
  Qed.
  Lemma cc_dest : (length (vsv cc t) = 1 /\ dcl (dest_piece mcn lp (pp_of t)) = None) \/
    (~ (lp = true /\ dot_cut t (vsv cc t)) /\ dcl (dest_piece mcn lp (pp_of t)) = Some cc) \/
    ((lp = true /\ dot_cut t (vsv cc t)) /\ dcl (dest_piece mcn lp (pp_of t)) = Some CLdsf /\ svL t = vsv cc t).
  Proof.
    pose proof (runs_nil t L N) as R0. pose proof svB_len as LB. pose proof svX_len as LX.
    assert (J0 : length (g_mixed t) <> 0). { intros E. destruct (g_mixed t) eqn:G; [|discriminate]. pose proof (groups_mixed t) as X. unfold groups in X. rewrite G in X. rewrite <- X in R0. apply R0. reflexivity. }
    assert (EQ : forall c, svL t = vsv c t -> (exists n d e, lform t n d e /\ e <> []) -> dot_cut t (vsv c t)) by (intros c E X; apply dot_cut_iff; [exact L|]; split; [symmetry; exact E|exact X]).
    assert (QE : forall c, dot_cut t (vsv c t) -> vsv c t = svL t) by (intros c D; apply dot_cut_iff in D; [apply D|exact L]).
    unfold cc, byr. unfold dest_piece. rewrite pieces_len. destruct (Nat.eqb_spec (length (runs t)) 1) as [K1|K1].
    { left. rewrite (proj2 (Nat.leb_le _ _)) by lia. cbn [orb vsv dcl]. rewrite LB. auto. }
    assert (OB : okB t) by (unfold okB; lia).
    rewrite multi_parts_vpart, mixed_parts_vpart, ldsf_parts_vpart by assumption. fold (svB t) (svX t) (svL t). rewrite !len_parts. fold (vk (svB t)) (vk (svX t)) (vk (svL t)). rewrite LB, LX.
    destruct (Nat.eqb_spec (length (runs t)) 3) as [K3|K3]; cbn [andb].
    { right. rewrite (proj2 (Nat.leb_le _ _)) by lia. cbn [orb]. destruct lp; [|left; split; [intros [X _]; discriminate X|reflexivity]]. destruct (str_eqb_spec (vk (svB t)) (vk (svL t))) as [E|E].
      - right. destruct (three_same t L K3 E) as [S1 S2]. split; [split; [reflexivity|apply (EQ CBase); assumption]|]. split; [reflexivity|exact S1].
      - left. split; [|reflexivity]. intros [_ D]. apply E. apply (QE CBase) in D. cbn [vsv] in D. rewrite D. reflexivity. }
    destruct (Nat.ltb_spec 3 (length (runs t))) as [K4|K4].
    2: { right. left. rewrite (proj2 (Nat.leb_le _ _)) by lia. cbn [orb vsv]. split; [|reflexivity]. intros [_ D]. apply dot_cut_len in D. lia. }
    rewrite (proj2 (Nat.leb_gt _ _)) by exact K4. cbn [orb]. destruct (Nat.eqb_spec (length (g_mixed t)) 1) as [J1|J1].
    { left. rewrite (proj2 (Nat.leb_gt _ _)) by lia. cbn [andb vsv dcl]. rewrite LX. auto. }
    rewrite (proj2 (Nat.leb_le 2 _)) by lia. cbn [andb]. destruct (Z.leb_spec mcn (Z.of_nat (length (runs t)) - Z.of_nat (length (g_mixed t)))) as [Q|Q].
    - right. rewrite (proj2 (Z.ltb_ge _ _) Q). destruct (Nat.eqb_spec (length (g_mixed t)) 3) as [J3|J3]; cbn [andb].
      + destruct lp; [|left; split; [intros [X _]; discriminate X|reflexivity]]. destruct (str_eqb_spec (vk (svX t)) (vk (svL t))) as [E|E].
        * right. destruct (three_mixed t L J3 E) as (_ & n & d & e & LF & NE & GX). pose proof (g_ldsf_form t n d e LF) as GL. assert (S1 : svL t = vsv CMixed t). { cbn [vsv]. unfold svL, svX. rewrite GL, GX. unfold ldsf_of. destruct e; [congruence|reflexivity]. }
          split; [split; [reflexivity|apply (EQ CMixed); [exact S1|eauto]]|]. split; [reflexivity|exact S1].
        * left. split; [|reflexivity]. intros [_ D]. apply E. apply (QE CMixed) in D. cbn [vsv] in D. rewrite D. reflexivity.
      + left. split; [|reflexivity]. cbn [vsv]. intros [_ D]. apply dot_cut_len in D. lia.
    - right. left. rewrite (proj2 (Z.ltb_lt _ _) Q). split; [|reflexivity]. cbn [vsv]. intros [_ D]. apply dot_cut_len in D. lia.
  Qed.
End T.
Lemma cat_app : forall a b, cat (a ++ b) = cat a ++ cat b.
Proof. intros a b. unfold cat. rewrite map_app, concat_app. reflexivity. Qed.
Lemma cat_concat : forall gs, cat (List.concat gs) = List.concat (map cat gs).
Proof. induction gs as [|g gs IH]; [reflexivity|]. cbn [List.concat map]. rewrite cat_app, IH. reflexivity. Qed.
Section M.
  Context (mcn : Z) (M2 : (2 <= mcn)%Z) (lp : bool) (r A B : str) (LA : all_legal A) (LB : all_legal B).
  Context (BA : forall A' x, A = A' ++ [x] -> char_rule x <> Some r) (BB : forall x B', B = x :: B' -> char_rule x <> Some r) (s0 : str) (O0 : one_sp r s0).
  Notation T := (TX A B).
  Lemma run_mode : exists oc As ga gb Bs A0 B0, fam r ga gb (fun s => cat (ga ++ (r, s) :: gb)) /\
    (forall s, one_sp r s -> dcl (dest_piece mcn lp (pp_of (T s))) = oc) /\ (forall c, exists As ga gb Bs, splits r T c As ga gb Bs) /\
    (whole_mode r T As ga gb Bs oc \/ part_mode r T As ga gb Bs oc) /\
    (all_legal A0 /\ all_legal B0 /\ List.concat (map (fun s => Pc s) As) = Pc A0 /\ List.concat (map (fun s => Pc s) Bs) = Pc B0) /\
    forall s, one_sp r s -> block mcn (lp = true) A s B A0 (cat ga) (cat gb) B0.
  Proof.
    pose proof (tx_fam r A B LA LB BA BB) as FT. set (RA := runs A) in *. set (RB := runs B) in *.
    assert (LT : forall s, one_sp r s -> all_legal (T s)) by (intros s O; apply (g_legal _ _ _ _ FT s O)). assert (NT : forall s, one_sp r s -> T s <> []) by (intros s O; apply (g_non _ _ _ _ FT s O)).
    assert (CC : forall s, one_sp r s -> cc mcn (T s) = cc mcn (T s0)).
    { intros s O. destruct (views_keys (T s) (T s0) (LT s O) (LT s0 O0) (t_fst r RA RB T FT s s0 O O0)) as (_ & (_ & LX & _) & LE). unfold cc, byr. rewrite !svX_len in LX. rewrite LX, LE. reflexivity. }
    set (c := cc mcn (T s0)) in *. pose proof (cc3 mcn (T s0)) as C3. fold c in C3.
    exists (dcl (dest_piece mcn lp (pp_of (T s0)))). set (oc := dcl (dest_piece mcn lp (pp_of (T s0)))).
    assert (OC : forall s, one_sp r s -> dcl (dest_piece mcn lp (pp_of (T s))) = oc) by (intros s O; apply dest_piece_cls; [apply LT; exact O|apply LT; exact O0|apply NT; exact O|apply (t_fst r RA RB T FT); assumption]).
    assert (SPL : forall c, exists As ga gb Bs, splits r T c As ga gb Bs).
    { intros c'. destruct (split_view r RA RB T FT s0 O0 c') as (GA & ga & gb & GB & _ & _ & FG & V). exists (map cat GA), ga, gb, (map cat GB). split; [exact FG|]. intros s O. rewrite vsv_vg, (V s O), map_app. reflexivity. }
    destruct (split_view r RA RB T FT s0 O0 c) as (GA & ga & gb & GB & EA & EB & FG & V).
    assert (SV : forall s, one_sp r s -> vsv c (T s) = map cat GA ++ cat (ga ++ (r, s) :: gb) :: map cat GB) by (intros s O; rewrite vsv_vg, (V s O), map_app; reflexivity).
    assert (MID : forall s, cat (ga ++ (r, s) :: gb) = cat ga ++ s ++ cat gb) by (intros s; rewrite cat_app; reflexivity).
    assert (TA : A = List.concat (map cat GA) ++ cat ga) by (rewrite <- cat_concat, <- cat_app, EA; symmetry; apply cat_runs; exact LA).
    assert (TB : B = cat gb ++ List.concat (map cat GB)) by (rewrite <- cat_concat, <- cat_app, EB; symmetry; apply cat_runs; exact LB).
    assert (GOK : groups (List.concat (map cat GA)) GA /\ all_legal (List.concat (map cat GA)) /\ groups (List.concat (map cat GB)) GB /\ all_legal (List.concat (map cat GB))).
    { pose proof (groups_ok (T s0) [List.concat GA; ga ++ (r, s0) :: gb; List.concat GB] (LT s0 O0)) as X. unfold groups in X at 1. cbn [List.concat] in X.
      assert (Y : List.concat GA ++ (ga ++ (r, s0) :: gb) ++ List.concat GB ++ [] = runs (T s0)). { rewrite (proj2 (FT s0 O0)), app_nil_r, <- app_assoc. cbn [app]. rewrite EB, app_assoc, EA. reflexivity. }
      specialize (X Y). inversion X as [|? ? [X1 X2] X']; subst. inversion X' as [|? ? _ X'']; subst. inversion X'' as [|? ? [X3 X4] _]; subst. rewrite !cat_concat in *. unfold groups. auto. }
    destruct GOK as (G1 & G2 & G3 & G4).
    assert (PART : forall P : str -> Prop, (forall s, one_sp r s -> parts_of mcn (A ++ s ++ B) (vsv c (T s)))) by (intros _ s O; rewrite <- (CC s O); apply (cc_parts mcn (T s) (LT s O))).
    specialize (PART (fun _ => True)).
    assert (WH : (oc = None \/ (oc = Some CLdsf /\ exists As' ga' gb', splits r T CLdsf As' ga' gb' [])) -> whole_mode r T [] RA RB [] oc).
    { intros X. split; [exact X|]. split; [reflexivity|]. split; [reflexivity|]. intros s O. rewrite <- (proj2 (FT s O)). apply cat_runs. apply LT. exact O. }
    assert (FGW : fam r RA RB (fun s => cat (RA ++ (r, s) :: RB))). { intros s O. rewrite <- (proj2 (FT s O)), cat_runs by (apply LT; exact O). rewrite (proj2 (FT s O)). split; [apply LT; exact O|reflexivity]. }
    assert (CA : cat RA = A) by (apply cat_runs; exact LA). assert (CB : cat RB = B) by (apply cat_runs; exact LB).
    assert (BLK : forall s, one_sp r s -> forall A0 a b B0, ((lp = true /\ dot_cut (T s) (vsv c (T s)) /\ map cat GB = []) -> A0 = [] /\ a = A /\ b = B /\ B0 = []) ->
       (~ (lp = true /\ dot_cut (T s) (vsv c (T s)) /\ map cat GB = []) -> A0 = List.concat (map cat GA) /\ a = cat ga /\ b = cat gb /\ B0 = List.concat (map cat GB)) -> block mcn (lp = true) A s B A0 a b B0).
    { intros s O A0 a b B0 H1 H2. exists (vsv c (T s)), (map cat GA), (map cat GB), (cat ga), (cat gb). split; [apply PART; exact O|]. split; [rewrite <- MID; apply SV; exact O|]. split; [exact TA|]. split; [exact TB|]. split; assumption. }
    pose proof (cc_dest mcn lp (T s0) (LT s0 O0) (NT s0 O0)) as D. fold c oc in D.
    assert (DS : forall s, one_sp r s -> (length (vsv c (T s)) = 1 /\ oc = None) \/ (~ (lp = true /\ dot_cut (T s) (vsv c (T s))) /\ oc = Some c) \/ ((lp = true /\ dot_cut (T s) (vsv c (T s))) /\ oc = Some CLdsf /\ svL (T s) = vsv c (T s))).
    { intros s O. pose proof (cc_dest mcn lp (T s) (LT s O) (NT s O)) as X. rewrite (CC s O), (OC s O) in X. exact X. }
    assert (CNL : c <> CLdsf) by (unfold c, cc; destruct (byr mcn (T s0)); discriminate).
    assert (LEG0 : all_legal []) by constructor.
    destruct D as [[D1 D2]|[[D1 D2]|(D1 & D2 & D3)]].
    - (* one part *)
      assert (E1 : GA = [] /\ GB = []). { rewrite (SV s0 O0), app_length in D1. cbn [length] in D1. rewrite !map_length in D1. destruct GA, GB; cbn [length] in D1; try lia. auto. } destruct E1 as [-> ->].
      exists [], RA, RB, [], [], []. split; [exact FGW|]. split; [exact OC|]. split; [exact SPL|]. split; [left; apply WH; left; exact D2|]. split; [repeat (split; [first [exact LEG0|reflexivity]|]); reflexivity|].
      intros s O. apply (BLK s O); [rewrite CA, CB; auto|]. intros _. rewrite CA, CB. cbn [map List.concat app] in TA, TB |- *. rewrite app_nil_r in TB. rewrite <- TA, <- TB. auto.
    - exists (map cat GA), ga, gb, (map cat GB), (List.concat (map cat GA)), (List.concat (map cat GB)). split; [exact FG|]. split; [exact OC|]. split; [exact SPL|]. split; [right; exists c; split; [exact D2|]; split; [split; assumption|]|].
      { destruct C3 as [E|[E|E]]; [rewrite E; apply andb_false_r..|congruence]. }
      split; [split; [exact G2|]; split; [exact G4|]; split; apply groups_piece; assumption|]. intros s O. apply (BLK s O); [|auto]. intros (X1 & X2 & _). exfalso. destruct (DS s O) as [[_ Y]|[[Y _]|(_ & Y & _)]]; [congruence|apply Y; auto|rewrite D2 in Y; injection Y as Y; congruence].
    - assert (DL : forall s, one_sp r s -> (lp = true /\ dot_cut (T s) (vsv c (T s))) /\ svL (T s) = vsv c (T s)). { intros s O. destruct (DS s O) as [[_ Y]|[[_ Y]|(Y1 & _ & Y2)]]; [congruence|rewrite D2 in Y; injection Y as Y; congruence|auto]. }
      assert (SPc : splits r T CLdsf (map cat GA) ga gb (map cat GB)). { split; [exact FG|]. intros s O. cbn [vsv]. rewrite (proj2 (DL s O)). apply SV. exact O. }
      destruct GB as [|g GB'] eqn:EGB.
      + exists [], RA, RB, [], [], []. split; [exact FGW|]. split; [exact OC|]. split; [exact SPL|]. split; [left; apply WH; right; split; [exact D2|]; exists (map cat GA), ga, gb; exact SPc|]. split; [repeat (split; [first [exact LEG0|reflexivity]|]); reflexivity|].
        intros s O. apply (BLK s O); [rewrite CA, CB; auto|]. intros X. exfalso. apply X. destruct (DL s O) as [[Y1 Y2] _]. auto.
      + rewrite <- EGB in *. assert (NG : is_nil (map cat GB) = false) by (rewrite EGB; reflexivity).
        exists (map cat GA), ga, gb, (map cat GB), (List.concat (map cat GA)), (List.concat (map cat GB)). split; [exact FG|]. split; [exact OC|]. split; [exact SPL|]. split; [right; exists CLdsf; split; [exact D2|]; split; [exact SPc|rewrite NG; reflexivity]|].
        split; [split; [exact G2|]; split; [exact G4|]; split; apply groups_piece; assumption|]. intros s O. apply (BLK s O); [|auto]. intros (_ & _ & X). rewrite X in NG. discriminate.
  Qed.
End M.
