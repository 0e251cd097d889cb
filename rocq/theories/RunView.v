(** Where a run stands in the views of a piece; the views depend on the character
    spaces only (C67). *)
From Coq Require Import String.
From Verif Require Import PyStr Defs UrlLib ParseUtils Views Trees Cluster Spec Patterns Matcher Maker Observe MatchSpec OneSpec PyStrProofs DefsProofs DictProofs RegexProofs PieceProofs LengthProofs BridgeProofs GroupProofs TreeProofs TokProofs LengthStage PieceStage EntProofs GenCluster FlatCluster ViewProofs KeyProofs TokUniq RouteProofs MultiStage OuterLevel OuterCluster OneLevel MatchTakes RunFam.
From Coq Require Import Lia Permutation.

(** *** the three views *)
Definition is3 (c : cls) : Prop := c = CBase \/ c = CMixed \/ c = CLdsf.
Definition vg (c : cls) (s : str) : list (list run) := match c with CBase => g_multi s | CMixed => g_mixed s | _ => g_ldsf s end.
Definition vsv (c : cls) : str -> list str := match c with CBase => svB | CMixed => svX | _ => svL end.
Definition vok (c : cls) : str -> Prop := match c with CBase => okB | CMixed => okX | _ => okL end.
Lemma vsv_vg : forall c s, vsv c s = map cat (vg c s).
Proof. intros [] s; reflexivity. Qed.
Lemma vg_groups : forall c s, groups s (vg c s).
Proof. intros [] s; first [apply groups_multi|apply groups_mixed|apply groups_ldsf]. Qed.
Lemma vg_fst : forall c s t, map fst (runs s) = map fst (runs t) -> map (map fst) (vg c s) = map (map fst) (vg c t).
Proof.
  intros c s t E. assert (L : map (map fst) (g_ldsf s) = map (map fst) (g_ldsf t)) by (rewrite !ldsf_fst, E; reflexivity).
  destruct c; cbn [vg]; try exact L.
  - unfold g_multi. rewrite !map_map. cbn [map]. rewrite <- !(map_map fst (fun r => [r])), E. reflexivity.
  - unfold g_mixed. rewrite !grp_fst, E. reflexivity.
Qed.
(** *** destinations *)
Definition dcl (d : dest) : option cls := match d with DView c _ => Some c | DLength => None end.
Lemma views_keys : forall s1 s2, all_legal s1 -> all_legal s2 -> map fst (runs s1) = map fst (runs s2) ->
  (vk (svB s1) = vk (svB s2) /\ vk (svX s1) = vk (svX s2) /\ vk (svL s1) = vk (svL s2)) /\ (length (svB s1) = length (svB s2) /\ length (svX s1) = length (svX s2) /\ length (svL s1) = length (svL s2)) /\ length (runs s1) = length (runs s2).
Proof.
  intros s1 s2 L1 L2 E. assert (LE : length (runs s1) = length (runs s2)) by (rewrite <- (map_length fst (runs s1)), E, map_length; reflexivity).
  assert (KX : kX s1 = kX s2) by (rewrite !kX_eq by assumption; apply k_of_fst; unfold g_mixed; rewrite !grp_fst, E; reflexivity).
  assert (KL : kL s1 = kL s2) by (rewrite !kL_eq by assumption; apply k_of_fst; rewrite !ldsf_fst, E; reflexivity).
  assert (KM : kM s1 = kM s2). { rewrite !kM_eq by assumption. rewrite <- !(map_map fst (fun r => [r])), E. reflexivity. }
  split; [split; [apply vk_of; exact KM|split; apply vk_of; assumption]|]. split; [|exact LE].
  apply (f_equal (@length _)) in KX, KL, KM. unfold kX, kL, kM in *. rewrite !map_length in *. auto.
Qed.
Lemma dest_piece_cls : forall mcn lp s1 s2, all_legal s1 -> all_legal s2 -> s1 <> [] -> map fst (runs s1) = map fst (runs s2) -> dcl (dest_piece mcn lp (pp_of s1)) = dcl (dest_piece mcn lp (pp_of s2)).
Proof.
  intros mcn lp s1 s2 L1 L2 N1 E. destruct (views_keys s1 s2 L1 L2 E) as ((VM & VX & VL) & (LM & LX & LL) & LE).
  unfold dest_piece. rewrite !pieces_len, LE. destruct (Nat.eqb_spec (length (runs s2)) 1) as [K1|K1]; [reflexivity|].
  assert (O1 : okB s1) by (unfold okB; pose proof (runs_nil s1 L1 N1); lia). assert (O2 : okB s2) by (unfold okB in *; lia).
  rewrite !multi_parts_vpart, !mixed_parts_vpart, !ldsf_parts_vpart by assumption.
  fold (svB s1) (svX s1) (svL s1) (svB s2) (svX s2) (svL s2). rewrite !len_parts.
  fold (vk (svB s1)) (vk (svX s1)) (vk (svL s1)) (vk (svB s2)) (vk (svX s2)) (vk (svL s2)).
  rewrite VX, VL, VM, LX, LM.
  repeat match goal with |- context [if ?b then _ else _] => destruct b end; reflexivity.
Qed.
Lemma dest_base_cls : forall lp s1 s2, all_legal s1 -> all_legal s2 -> okB s1 -> map fst (runs s1) = map fst (runs s2) -> dcl (dest_base lp (map vpart (svB s1)) (pp_of s1)) = dcl (dest_base lp (map vpart (svB s2)) (pp_of s2)).
Proof.
  intros lp s1 s2 L1 L2 O1 E. destruct (views_keys s1 s2 L1 L2 E) as ((VM & VX & VL) & (LM & LX & LL) & LE). assert (O2 : okB s2) by (unfold okB in *; lia).
  unfold dest_base. rewrite !mixed_parts_vpart, !ldsf_parts_vpart by assumption.
  fold (svX s1) (svL s1) (svX s2) (svL s2). rewrite !len_parts.
  fold (vk (svB s1)) (vk (svX s1)) (vk (svL s1)) (vk (svB s2)) (vk (svX s2)) (vk (svL s2)).
  rewrite VX, VL, VM, LX, LL.
  repeat match goal with |- context [if ?b then _ else _] => destruct b end; reflexivity.
Qed.
Lemma dest_mixed_cls : forall lp s1 s2, all_legal s1 -> all_legal s2 -> map fst (runs s1) = map fst (runs s2) -> dcl (dest_mixed lp (pp_of s1)) = dcl (dest_mixed lp (pp_of s2)).
Proof.
  intros lp s1 s2 L1 L2 E. destruct (views_keys s1 s2 L1 L2 E) as (_ & (_ & _ & LL) & _). unfold dest_mixed. rewrite !ldsf_parts_vpart by assumption.
  fold (svL s1) (svL s2). rewrite !len_parts, LL. repeat match goal with |- context [if ?b then _ else _] => destruct b end; reflexivity.
Qed.
(** *** the place of an element in a grouping *)
Lemma concat_split : forall A (gs : list (list A)) RA x RB, List.concat gs = RA ++ x :: RB ->
  exists GA a b GB, gs = GA ++ (a ++ x :: b) :: GB /\ List.concat GA ++ a = RA /\ b ++ List.concat GB = RB.
Proof.
  intros A. induction gs as [|g gs IH]; intros RA x RB E; [destruct RA; discriminate E|]. cbn [List.concat] in E.
  apply app_eq_app in E. destruct E as (l & [[E1 E2]|[E1 E2]]).
  - destruct l as [|y l].
    + rewrite app_nil_r in E1. cbn [app] in E2. destruct (IH [] x RB) as (GA & a & b & GB & X1 & X2 & X3); [symmetry; exact E2|]. exists (g :: GA), a, b, GB. subst. split; [reflexivity|]. split; [|reflexivity]. cbn [List.concat]. rewrite <- app_assoc, X2, app_nil_r. reflexivity.
    + cbn [app] in E2. injection E2 as -> E2. exists [], RA, l, gs. split; [rewrite E1; reflexivity|]. split; [reflexivity|symmetry; exact E2].
  - destruct (IH l x RB E2) as (GA & a & b & GB & X1 & X2 & X3). exists (g :: GA), a, b, GB. subst. split; [reflexivity|]. split; [|reflexivity]. cbn [List.concat]. rewrite <- app_assoc. reflexivity.
Qed.
Lemma concat_same : forall A (gs gs' : list (list A)), map (@length A) gs = map (@length A) gs' -> List.concat gs = List.concat gs' -> gs = gs'.
Proof.
  intros A. induction gs as [|g gs IH]; intros [|g' gs'] L E; try discriminate; [reflexivity|]. cbn [map List.concat] in L, E. injection L as L1 L2.
  assert (g = g' /\ List.concat gs = List.concat gs') as [-> E2].
  { clear - L1 E. revert g' L1 E. induction g as [|x g IHg]; intros [|y g'] L E; try discriminate; [auto|]. cbn [length app] in *. injection L as L. injection E as -> E. destruct (IHg g' L E) as [-> ->]. auto. }
  f_equal. apply IH; assumption.
Qed.
Lemma fst_lens : forall A B (gs gs' : list (list (A * B))), map (map fst) gs = map (map fst) gs' -> map (@length _) gs = map (@length _) gs'.
Proof.
  intros A B. induction gs as [|g gs IH]; intros [|g' gs'] E; try discriminate; [reflexivity|]. cbn [map] in *. injection E as E1 E2. f_equal; [|apply IH; exact E2].
  rewrite <- (map_length fst g), E1, map_length. reflexivity.
Qed.
(** *** texts with one changing run *)
Section V.
  Context (r A B : str) (LA : all_legal A) (LB : all_legal B).
  Context (BA : forall A' x, A = A' ++ [x] -> char_rule x <> Some r) (BB : forall x B', B = x :: B' -> char_rule x <> Some r).
  Definition TX (s : str) : str := A ++ s ++ B.
  Lemma tx_fam : fam r (runs A) (runs B) TX.
  Proof.
    intros s O. pose proof (one_legal r s O) as LS. split; [unfold TX; rewrite !legal_app; auto|]. destruct O as [NS F]. rewrite Forall_forall in F.
    assert (RB : runs (s ++ B) = (r, s) :: runs B).
    { rewrite runs_app; [rewrite (one_runs r s) by (split; [exact NS|apply Forall_forall; exact F]); reflexivity|exact LS|exact LB|]. intros x y a' b' EA EB SP. apply (BB y b' EB).
      assert (X : char_rule x = Some r) by (apply F; rewrite EA; apply in_or_app; right; left; reflexivity). subst B. inversion LB as [|? ? [ry Y] _]; subst. apply (proj1 (same_space_rule x y r ry X Y)) in SP. congruence. }
    unfold TX. rewrite runs_app; [rewrite RB; reflexivity|exact LA|apply legal_app; auto|]. intros x y a' b' EA EB SP. apply (BA a' x EA).
    destruct s as [|c s]; [congruence|]. cbn [app] in EB. inversion EB; subst y. assert (Y : char_rule c = Some r) by (apply F; left; reflexivity).
    assert (LX : all_legal [x]). { rewrite EA in LA. apply legal_app in LA. apply LA. } inversion LX as [|? ? [rx X] _]; subst. apply (proj1 (same_space_rule x c rx r X Y)) in SP. congruence.
  Qed.
End V.
Section W.
  Context (r : str) (RA RB : list run) (T : str -> str) (FT : fam r RA RB T) (s0 : str) (O0 : one_sp r s0).
  Lemma t_fst : forall s t, one_sp r s -> one_sp r t -> map fst (runs (T s)) = map fst (runs (T t)).
  Proof. intros s t O P. rewrite (proj2 (FT s O)), (proj2 (FT t P)), !map_app. reflexivity. Qed.
  Lemma split_view : forall c, exists GA ga gb GB, List.concat GA ++ ga = RA /\ gb ++ List.concat GB = RB /\
    fam r ga gb (fun s => cat (ga ++ (r, s) :: gb)) /\ forall s, one_sp r s -> vg c (T s) = GA ++ (ga ++ (r, s) :: gb) :: GB.
  Proof.
    intros c. pose proof (vg_groups c (T s0)) as G0. unfold groups in G0. rewrite (proj2 (FT s0 O0)) in G0. destruct (concat_split _ _ _ _ _ G0) as (GA & ga & gb & GB & E & EA & EB).
    assert (V : forall s, one_sp r s -> vg c (T s) = GA ++ (ga ++ (r, s) :: gb) :: GB).
    { intros s O. apply concat_same.
      - rewrite (fst_lens _ _ _ _ (vg_fst c (T s) (T s0) (t_fst s s0 O O0))), E, !map_app. cbn [map]. rewrite !app_length. reflexivity.
      - pose proof (vg_groups c (T s)) as G1. unfold groups in G1. rewrite G1, (proj2 (FT s O)), concat_app. cbn [List.concat]. rewrite <- app_assoc. cbn [app]. rewrite EB, app_assoc, EA. reflexivity. }
    exists GA, ga, gb, GB. split; [exact EA|]. split; [exact EB|]. split; [|exact V].
    intros s O. pose proof (groups_ok (T s) (vg c (T s)) (proj1 (FT s O)) (vg_groups c (T s))) as X. rewrite (V s O) in X. apply Forall_app in X. destruct X as [_ X]. inversion X as [|? ? [X1 X2] _]; subst. auto.
  Qed.
End W.
