(** Which clusters a text visits, in terms of the groups of its runs; a text whose
    view joins to the pattern of an earlier cluster would have been part of it. *)
From Coq Require Import String.
From Verif Require Import PyStr Defs ParseUtils Views Trees Cluster Spec Observe PyStrProofs DefsProofs DictProofs RegexProofs PieceProofs LengthProofs GroupProofs TreeProofs TokProofs LengthStage PieceStage EntProofs GenCluster FlatCluster ViewProofs KeyProofs TokUniq.
From Coq Require Import Lia Permutation.

Definition svB (s : str) : list str := map cat (g_multi s).
Definition svX (s : str) : list str := map cat (g_mixed s).
Definition svL (s : str) : list str := map cat (g_ldsf s).
Definition kM (s : str) : list (list str) := map cset (svB s).
Definition kX (s : str) : list (list str) := map cset (svX s).
Definition kL (s : str) : list (list str) := map cset (svL s).
Definition okB (s : str) : Prop := (2 <= length (runs s))%nat.
Definition okX (s : str) : Prop := okB s /\ length (g_mixed s) <> 1.
Definition okL (s : str) : Prop := okB s /\ length (g_ldsf s) <> 1.
Definition fB (_ : str) : bool := false.

Lemma grp_fB : forall l, grp (fr fB) l = map (fun rw => [rw]) l.
Proof. induction l as [|x l IH]; [reflexivity|]. cbn [grp map]. rewrite IH. reflexivity. Qed.
Lemma gF_fB : forall s, gF fB s = g_multi s.
Proof. intros. unfold gF, g_multi. apply grp_fB. Qed.
Lemma gF_mixed : forall s, gF in_mixed s = g_mixed s.
Proof. reflexivity. Qed.
Lemma flat_fB : forall gs, flat_map (grp (fr fB)) gs = map (fun rw => [rw]) (List.concat gs).
Proof. induction gs as [|g gs IH]; [reflexivity|]. cbn [flat_map List.concat]. rewrite IH, grp_fB, map_app. reflexivity. Qed.
Lemma kM_eq : forall s, all_legal s -> kM s = map (fun rw => [fst rw]) (runs s).
Proof. intros s L. unfold kM, svB. rewrite (cset_groups s (g_multi s) L (groups_multi s)). unfold g_multi. rewrite map_map. reflexivity. Qed.
Lemma kX_eq : forall s, all_legal s -> kX s = map (fun g => sorted_set (map fst g)) (g_mixed s).
Proof. intros s L. unfold kX, svX. apply (cset_groups s); [exact L|apply groups_mixed]. Qed.
Lemma kL_eq : forall s, all_legal s -> kL s = map (fun g => sorted_set (map fst g)) (g_ldsf s).
Proof. intros s L. unfold kL, svL. apply (cset_groups s); [exact L|apply groups_ldsf]. Qed.

Lemma base_absorb : forall s1 s2 gs P1 P2, all_legal s1 -> all_legal s2 -> fits (svB s1) P1 -> groups s2 gs -> fits (map cat gs) P2 ->
  List.concat P1 = List.concat P2 -> fits (svB s2) P1 /\ kM s1 = kM s2.
Proof.
  intros s1 s2 gs P1 P2 L1 L2 F1 G F2 E. unfold svB in *. rewrite <- gF_fB in F1. destruct (runs_spec s2 L2) as (H & A & _).
  destruct (fits_wk _ _ (gF_legal fB s1 L1) F1) as (l1 & A1 & B1 & W1). pose proof (wk_rparse l1 W1) as R1. rewrite B1 in R1.
  pose proof (gF_pure fB s1 P1 _ L1 F1 R1) as PU. rewrite E in R1. unfold groups in G. rewrite <- G in H, A.
  destruct (refine_all fB gs P2 _ H A F2 R1 PU) as (P' & F' & E'). rewrite flat_fB, G in F'. fold (g_multi s2) in F'. rewrite <- gF_fB in F'.
  destruct (same_blocks fB s1 s2 P1 P' L1 L2 F1 F') as [EQ K]; [congruence|]. rewrite gF_fB in *. subst P'. split; [exact F'|].
  unfold kM, svB. rewrite <- !gF_fB in *. exact K.
Qed.

Lemma lform_mixed : forall s name dot ext, lform s name dot ext -> g_mixed s = grp rmix name ++ [dot] :: (if is_nil ext then [] else [ext]).
Proof.
  intros s name dot ext (E & D & A & _). unfold g_mixed. rewrite E, grp_app.
  - do 2 f_equal. destruct ext as [|x ext]; [reflexivity|]. cbn [is_nil]. apply grp_all; [discriminate|]. apply forallb_forall. intros rw I.
    unfold alnums in A. rewrite Forall_forall in A. apply digit_ascii_mixed. apply A. exact I.
  - unfold rmix. rewrite D. reflexivity.
Qed.
Lemma mixed_absorb : forall s1 s2 name dot ext P1 P2, all_legal s1 -> all_legal s2 -> fits (svX s1) P1 -> lform s2 name dot ext -> fits (svL s2) P2 ->
  List.concat P1 = List.concat P2 ->
  fits (svX s2) P1 /\ kX s1 = kX s2 /\ (ext <> [] -> exists A Pe, P1 = A ++ [Pe] /\ nth_error P2 2 = Some Pe).
Proof.
  intros s1 s2 name dot ext P1 P2 L1 L2 F1 LF F2 E. unfold svX, svL in *. rewrite <- gF_mixed in F1. destruct (runs_spec s2 L2) as (H & A & _).
  destruct (fits_wk _ _ (gF_legal in_mixed s1 L1) F1) as (l1 & A1 & B1 & W1). pose proof (wk_rparse l1 W1) as R1. rewrite B1 in R1.
  pose proof (gF_pure in_mixed s1 P1 _ L1 F1 R1) as PU. rewrite E in R1.
  pose proof (lform_mixed s2 name dot ext LF) as GM. pose proof (groups_ldsf s2) as G.
  rewrite (g_ldsf_form s2 name dot ext LF) in F2, G. unfold groups in G. rewrite <- G in H, A.
  assert (GD : grp (fr in_mixed) [dot] = [[dot]]) by (cbn [grp]; destruct (fr in_mixed dot); reflexivity).
  assert (R : exists P', fits (map cat (g_mixed s2)) P' /\ List.concat P' = List.concat P2 /\ (ext <> [] -> exists B Pe, P' = B ++ [Pe] /\ nth_error P2 2 = Some Pe)).
  { destruct ext as [|x ext].
    - destruct (refine_all in_mixed (ldsf_of name dot []) P2 _ H A F2 R1 PU) as (P' & F' & E'). exists P'. split; [|split; [exact E'|congruence]].
      cbn [ldsf_of is_nil flat_map] in F'. rewrite GD in F'. cbn [app] in F'. rewrite GM. exact F'.
    - unfold ldsf_of in *. cbn [is_nil map] in F2. inversion F2 as [|? Pn ? ? Fn F3]; subst. inversion F3 as [|? Pd ? ? Fd F4]; subst. inversion F4 as [|? Pe ? ? Fe F5]; subst. inversion F5; subst.
      assert (T : exists T1 T2, rparse (List.concat [Pn; Pd]) = Some T1 /\ Forall (pure in_mixed) T1 /\ rparse Pe = Some T2).
      { cbn [is_nil List.concat] in A. destruct Fn as (k1 & K1 & ->), Fd as (k2 & K2 & ->), Fe as (k3 & K3 & ->).
        assert (LL : Forall all_legal (map cat [name; [dot]; x :: ext])).
        { apply (legal_groups s2); [exact L2|]. exact G. }
        inversion LL as [|? ? Q1 LL1]; subst. inversion LL1 as [|? ? Q2 LL2]; subst. inversion LL2 as [|? ? Q3 _]; subst.
        pose proof (wk_rparse [(cat name, k1); (cat [dot], k2)]) as X1. pose proof (wk_rparse [(cat name, k1); (cat [dot], k2); (cat (x :: ext), k3)]) as X2.
        unfold wstr in X1, X2. cbn [map fst snd] in X1, X2. rewrite X2 in R1 by (repeat constructor; assumption). inversion R1 as [R2].
        eexists. eexists. split; [apply X1; repeat constructor; assumption|]. split; [|apply pstr_rparse; assumption].
        rewrite <- R2 in PU. cbn [List.concat] in PU |- *. rewrite app_nil_r. rewrite app_assoc in PU. apply Forall_app in PU. apply PU. }
      destruct T as (T1 & T2 & R2 & PU1 & R3).
      cbn [is_nil] in H, A. change [name; [dot]; x :: ext] with ([name; [dot]] ++ [x :: ext]) in H, A. rewrite concat_app in H, A. apply Forall_app in H. destruct H as [H1 H2].
      destruct (refine_all in_mixed [name; [dot]] [Pn; Pd] T1 H1 (adj'_app_l _ _ A)) as (P' & F' & E'); [|exact R2|exact PU1|].
      { constructor; [exact Fn|]. constructor; [exact Fd|constructor]. }
      exists (P' ++ [Pe]). split; [|split].
      + rewrite GM. cbn [is_nil]. cbn [flat_map] in F'. rewrite GD in F'. cbn [app] in F'.
        replace (grp rmix name ++ [[dot]; x :: ext]) with ((grp rmix name ++ [[dot]]) ++ [x :: ext]) by (rewrite <- app_assoc; reflexivity).
        rewrite map_app. apply Forall2_app; [exact F'|]. constructor; [exact Fe|constructor].
      + rewrite concat_app, E'. cbn [List.concat]. rewrite app_nil_r, <- !app_assoc. reflexivity.
      + intros _. exists P', Pe. split; reflexivity. }
  destruct R as (P' & F' & E' & LAST). rewrite <- gF_mixed in F'.
  destruct (same_blocks in_mixed s1 s2 P1 P' L1 L2 F1 F') as [EQ K]; [congruence|]. subst P'. split; [exact F'|]. split; [exact K|exact LAST].
Qed.

(** *** single-rule groups *)
Lemma all_single : forall s, all_legal s -> Forall (fun C => exists r, C = [r]) (kX s) -> g_mixed s = g_multi s.
Proof.
  intros s L F. rewrite kX_eq in F by exact L. rewrite Forall_map in F. pose proof (groups_mixed s) as G. unfold groups in G.
  pose proof (groups_ok s _ L (groups_mixed s)) as GO. unfold g_multi. rewrite <- G. clear G.
  induction F as [|g gs [r H] F IH]; [reflexivity|]. inversion GO as [|? ? [GO1 GO2] GO3]; subst. cbn [List.concat].
  destruct (one_rule_one_run g r) as (x & -> & _); [rewrite <- GO1; apply runs_spec; exact GO2|exact H|]. cbn [app map]. rewrite <- (IH GO3). reflexivity.
Qed.
Lemma kM_single : forall s, all_legal s -> Forall (fun C => exists r, C = [r]) (kM s).
Proof. intros s L. rewrite kM_eq by exact L. rewrite Forall_map. apply Forall_forall. eauto. Qed.
Lemma kX_kM : forall s1 s2, all_legal s1 -> all_legal s2 -> kX s1 = kX s2 -> kM s2 = kX s2 -> g_mixed s1 = g_multi s1.
Proof. intros s1 s2 L1 L2 E K. apply all_single; [exact L1|]. rewrite E, <- K. apply kM_single. exact L2. Qed.

(** *** keys *)
Definition vk (ss : list str) : str := view_key (map vpart ss).
Lemma svB_legal : forall s, all_legal s -> Forall all_legal (svB s).
Proof. intros s L. apply (legal_groups s); [exact L|apply groups_multi]. Qed.
Lemma svX_legal : forall s, all_legal s -> Forall all_legal (svX s).
Proof. intros s L. apply (legal_groups s); [exact L|apply groups_mixed]. Qed.
Lemma svL_legal : forall s, all_legal s -> Forall all_legal (svL s).
Proof. intros s L. apply (legal_groups s); [exact L|apply groups_ldsf]. Qed.
Lemma key_BX : forall s t, all_legal s -> all_legal t -> vk (svB s) = vk (svX t) -> kM s = kX t.
Proof.
  intros s t L M E. unfold vk in E. apply view_key_inj in E; [|apply svB_legal; exact L|apply svX_legal; exact M].
  apply klist_mshape_inj; [apply multi_mshape; exact L|apply mixed_mshape; exact M|exact E].
Qed.
Lemma key_BB : forall s t, all_legal s -> all_legal t -> vk (svB s) = vk (svB t) -> kM s = kM t.
Proof.
  intros s t L M E. unfold vk in E. apply view_key_inj in E; [|apply svB_legal; assumption..].
  apply klist_mshape_inj; [apply multi_mshape; assumption..|exact E].
Qed.
Lemma key_XX : forall s t, all_legal s -> all_legal t -> vk (svX s) = vk (svX t) -> kX s = kX t.
Proof.
  intros s t L M E. unfold vk in E. apply view_key_inj in E; [|apply svX_legal; assumption..].
  apply klist_mshape_inj; [apply mixed_mshape; assumption..|exact E].
Qed.
Lemma key_LL : forall s t, all_legal s -> all_legal t -> okL s -> okL t -> vk (svL s) = vk (svL t) -> kL s = kL t.
Proof.
  intros s t L M [_ O1] [_ O2] E. unfold vk in E. apply view_key_inj in E; [|apply svL_legal; assumption..]. apply ldsf_key_inj; assumption.
Qed.
Lemma vk_of : forall ss ts, map cset ss = map cset ts -> vk ss = vk ts.
Proof. intros ss ts E. unfold vk. rewrite !view_key_klist, E. reflexivity. Qed.

(** *** the last-dot view of a joined pattern *)
Definition kD (t : rtok) : bool := match trules t with [r] => str_eqb r R_DOT | _ => false end.
Lemma last_tok : forall name k x r, Forall run_ok name -> adj' name -> (forall n0 rw, name = n0 ++ [rw] -> fst rw <> R_DOT) -> kok (cat name) k ->
  rev (ptoks (cat name) k) = x :: r -> kD x = false.
Proof.
  intros name k x r H A NL K E. destruct (group_ok name H A) as [L R].
  destruct (rev name) as [|rw rn] eqn:EN.
  { apply (f_equal (@rev _)) in EN. rewrite rev_involutive in EN. cbn in EN. subst name. destruct k; cbn [kok] in K; [discriminate E|exfalso; apply (proj1 K); reflexivity|exfalso; apply K; reflexivity]. }
  assert (NM : name = rev rn ++ [rw]) by (rewrite <- (rev_involutive name), EN; reflexivity).
  pose proof (NL _ _ NM) as ND. rewrite NM in H. apply Forall_app in H. destruct H as [_ H]. inversion H as [|? ? H1 _]; subst.
  destruct (run_trules rw H1) as [T TN]. rewrite Forall_forall in T.
  assert (CS : In (fst rw) (cset (cat (rev rn ++ [rw])))).
  { rewrite cset_group by exact R. apply sorted_set_In. rewrite map_app. apply in_app_iff. right. left. reflexivity. }
  assert (X : forall q, kD (RT (map rule_item (cset (cat (rev rn ++ [rw])))) q) = false).
  { intros q. unfold kD, trules. cbn [rset]. rewrite item_rules by (apply cset_rules; exact L). destruct (cset (cat (rev rn ++ [rw]))) as [|a [|]]; try reflexivity.
    destruct CS as [->|[]]. apply str_eqb_neq. exact ND. }
  destruct k; cbn [ptoks] in E; [|cbn in E; inversion E; apply X..].
  unfold ltoks in E. rewrite R, map_app, concat_app, rev_app_distr in E. cbn [map List.concat] in E. rewrite app_nil_r in E.
  assert (IX : In x (run_toks rw)).
  { apply in_rev. destruct (rev (run_toks rw)) as [|y l] eqn:EY; [|cbn [app] in E; inversion E; left; reflexivity].
    exfalso. apply (f_equal (@rev _)) in EY. rewrite rev_involutive in EY. cbn in EY. apply TN. exact EY. }
  unfold kD. rewrite (T x IX). apply str_eqb_neq. exact ND.
Qed.
Lemma same_ldsf : forall s1 s2 P1 P2, all_legal s1 -> all_legal s2 -> okL s1 -> okL s2 -> fits (svL s1) P1 -> fits (svL s2) P2 ->
  List.concat P1 = List.concat P2 -> P1 = P2 /\ kL s1 = kL s2.
Proof.
  intros s1 s2 P1 P2 L1 L2 [_ O1] [_ O2] F1 F2 E.
  destruct (fits_wk _ _ (svL_legal s1 L1) F1) as (l1 & A1 & B1 & W1). destruct (fits_wk _ _ (svL_legal s2 L2) F2) as (l2 & A2 & B2 & W2).
  pose proof (wk_rparse l1 W1) as R1. pose proof (wk_rparse l2 W2) as R2. rewrite B1, E, <- B2, R2 in R1. inversion R1 as [R]. clear R1 R2.
  assert (X : map wtoks l1 = map wtoks l2).
  { assert (SH : forall s l, all_legal s -> length (g_ldsf s) <> 1 -> map fst l = svL s -> Forall wok l -> exists a b e, 
       rev (List.concat (map wtoks l)) = e ++ b ++ a /\ b <> [] /\ Forall (fun t => kD t = false) e /\ Forall (fun t => kD t = true) b /\ (forall x r, a = x :: r -> kD x = false)
       /\ map wtoks l = rev a :: rev b :: (if is_nil e then [] else [rev e])).
    { clear. intros s l L O A W. destruct (g_ldsf_cases s) as [H|(name & dot & ext & LF)]; [rewrite H in O; cbn in O; congruence|].
      unfold svL in A. rewrite (g_ldsf_form s name dot ext LF) in A. destruct LF as (R & D & AL & _). destruct (runs_spec s L) as (H & AD & _). rewrite R in H, AD.
      apply Forall_app in H. destruct H as [H1 H2]. inversion H2 as [|? ? H3 H4]; subst.
      pose proof (adj'_app_l _ _ AD) as AN. pose proof (adj'_app_r _ _ AD) as AE. change (dot :: ext) with ([dot] ++ ext) in AE. apply adj'_app_r in AE.
      assert (NL : forall n0 rw, name = n0 ++ [rw] -> fst rw <> R_DOT).
      { intros n0 rw -> Q. rewrite <- app_assoc in AD. apply adj'_app_r in AD. cbn [app adj'] in AD. destruct AD as [AD _]. congruence. }
      unfold ldsf_of in A. destruct l as [|[w1 k1] [|[w2 k2] l]]; cbn [map fst] in A; try discriminate. inversion A as [[A1 A2 A3]]. subst w1 w2.
      inversion W as [|? ? [_ K1] W1]; subst. inversion W1 as [|? ? [_ K2] W2]; subst. cbn [fst snd] in *.
      assert (TB : Forall (fun t => kD t = true) (ptoks (cat [dot]) k2) /\ ptoks (cat [dot]) k2 <> []).
      { split; [apply Forall_forall; intros t I; unfold kD; rewrite (single_trules dot t k2 H3 I), D; apply str_eqb_refl|].
        destruct (group_ok [dot]) as [Ld _]; [constructor; [exact H3|constructor]|exact (conj Logic.I Logic.I)|]. apply ptoks_nonnil; [exact Ld|]. apply cat_nonnil; [constructor; [exact H3|constructor]|discriminate]. }
      destruct TB as [TB TN].
      assert (TR : rev (ptoks (cat [dot]) k2) <> []) by (intros Q; apply TN; rewrite <- (rev_involutive (ptoks (cat [dot]) k2)), Q; reflexivity).
      destruct ext as [|x ext]; cbn [is_nil map] in A3.
      - apply map_eq_nil in A3. subst l. exists (rev (ptoks (cat name) k1)), (rev (ptoks (cat [dot]) k2)), [].
        cbn [map wtoks fst snd List.concat is_nil]. rewrite app_nil_r, rev_app_distr, !rev_involutive. split; [reflexivity|]. split; [exact TR|]. split; [constructor|].
        split; [apply Forall_rev; exact TB|]. split; [|reflexivity]. intros y r. apply last_tok; assumption.
      - destruct l as [|[w3 k3] [|]]; cbn [map fst] in A3; try discriminate. inversion A3 as [A4]. subst w3. inversion W2 as [|? ? [_ K3] _]; subst. cbn [fst snd] in K3.
        assert (EN : ptoks (cat (x :: ext)) k3 <> []).
        { destruct (group_ok (x :: ext) H4 AE) as [Le _]. apply ptoks_nonnil; [exact Le|]. apply cat_nonnil; [exact H4|discriminate]. }
        exists (rev (ptoks (cat name) k1)), (rev (ptoks (cat [dot]) k2)), (rev (ptoks (cat (x :: ext)) k3)).
        cbn [map wtoks fst snd List.concat]. rewrite app_nil_r, !rev_app_distr, !rev_involutive, <- app_assoc. split; [reflexivity|]. split; [exact TR|].
        split. { apply Forall_rev. apply Forall_forall. intros t I. unfold kD. destruct (trules t) as [|r0 [|]] eqn:ET; try reflexivity.
          assert (J : In r0 (map fst (x :: ext))) by (apply (group_in (x :: ext) t k3 r0 H4 AE I); rewrite ET; left; reflexivity).
          apply str_eqb_neq. intros ->. exact (alnums_no_dot _ AL J). }
        split; [apply Forall_rev; exact TB|]. split; [intros y r; apply last_tok; assumption|].
        destruct (rev (ptoks (cat (x :: ext)) k3)) as [|y0 r0] eqn:Q; [|reflexivity].
        exfalso. apply EN. rewrite <- (rev_involutive (ptoks (cat (x :: ext)) k3)), Q. reflexivity. }
    destruct (SH s1 l1 L1 O1 A1 W1) as (a1 & b1 & e1 & E1 & N1 & X1 & Y1 & Z1 & ->). destruct (SH s2 l2 L2 O2 A2 W2) as (a2 & b2 & e2 & E2 & N2 & X2 & Y2 & Z2 & ->).
    rewrite R, E1 in E2.
    assert (HB : forall b a : list rtok, b <> [] -> Forall (fun t => kD t = true) b -> forall x r, b ++ a = x :: r -> kD x <> false).
    { clear. intros [|y b] a N F x r Q; [congruence|]. cbn [app] in Q. inversion Q; subst. inversion F; subst. congruence. }
    destruct (kspan kD false e1 e2 (b1 ++ a1) (b2 ++ a2) X1 X2 (HB _ _ N1 Y1) (HB _ _ N2 Y2) E2) as [-> E3].
    assert (HA : forall a : list rtok, (forall x r, a = x :: r -> kD x = false) -> forall x r, a = x :: r -> kD x <> true) by (intros a Q x r Q'; rewrite (Q x r Q'); discriminate).
    destruct (kspan kD true b1 b2 a1 a2 Y1 Y2 (HA _ Z1) (HA _ Z2) E3) as [-> ->]. reflexivity. }
  split.
  - rewrite <- B1, <- B2, <- (wk_untok l1 W1), <- (wk_untok l2 W2), X. reflexivity.
  - unfold kL. rewrite <- A1, <- A2, <- (wk_cset l1 W1), <- (wk_cset l2 W2), X. reflexivity.
Qed.

(** three runs whose key is the key of the last-dot view *)
Lemma three_multi : forall s, all_legal s -> length (runs s) = 3 -> vk (svB s) = vk (svL s) ->
  length (g_ldsf s) <> 1 /\ kM s = kX s.
Proof.
  intros s L N E. unfold vk in E. apply view_key_inj in E; [|apply svB_legal; exact L|apply svL_legal; exact L].
  pose proof (multi_mshape s L) as MS. pose proof (groups_multi s) as G. unfold svB in E. unfold g_multi in *.
  destruct (runs s) as [|a [|b [|d [|]]]] eqn:ER; try discriminate. cbn [map] in E, MS, G. 
  destruct (ldsf_cross s [a] [b] [d] L G MS E) as (name & dot & ext & LF & NE & N1 & N2 & N3).
  rewrite (g_ldsf_form s name dot ext LF). split; [destruct ext; [congruence|discriminate]|].
  pose proof (lform_mixed s name dot ext LF) as GM. destruct LF as (R & D & AE & _). rewrite ER in R.
  assert (ADJ : adj' [a; b; d]) by (rewrite <- ER; apply runs_spec; exact L).
  rewrite kM_eq, kX_eq by exact L. rewrite GM, ER.
  assert (Hn : exists x, name = [x]).
  { apply eq_sym in N1. unfold nset in N1 at 1. cbn [nset map sorted_set fold_right set_insert] in N1.
    destruct (one_rule_one_run name (fst a)) as (x & X & _); [|exact N1|eauto]. rewrite R in ADJ. apply adj'_app_l in ADJ. exact ADJ. }
  destruct Hn as [x ->]. cbn [app] in R. inversion R as [[R1 R2 R3]]. destruct ext as [|e [|]]; try discriminate. injection R3 as R3. subst.
  cbn [is_nil grp]. destruct (rmix x); cbn [app map sorted_set fold_right set_insert]; reflexivity.
Qed.
Lemma three_mixed : forall s, all_legal s -> length (g_mixed s) = 3 -> vk (svX s) = vk (svL s) ->
  length (g_ldsf s) <> 1 /\ exists name dot ext, lform s name dot ext /\ ext <> [] /\ g_mixed s = [name; [dot]; ext].
Proof.
  intros s L N E. unfold vk in E. apply view_key_inj in E; [|apply svX_legal; exact L|apply svL_legal; exact L].
  pose proof (mixed_mshape s L) as MS. pose proof (groups_mixed s) as G. unfold svX in E.
  destruct (g_mixed s) as [|a [|b [|d [|]]]] eqn:ER; try discriminate.
  destruct (ldsf_cross s a b d L G MS E) as (name & dot & ext & LF & NE & N1 & N2 & N3).
  rewrite (g_ldsf_form s name dot ext LF). split; [destruct ext; [congruence|discriminate]|].
  exists name, dot, ext. split; [exact LF|]. split; [exact NE|].
  pose proof (lform_mixed s name dot ext LF) as GM. rewrite ER in GM. destruct ext as [|e ext]; [congruence|]. cbn [is_nil] in GM.
  pose proof (grp_concat _ rmix name) as GC. destruct (grp rmix name) as [|g [|g' gs]]; cbn [app] in GM; try discriminate.
  - inversion GM as [[Q1 Q2 Q3]]. cbn [List.concat] in GC. rewrite app_nil_r in GC. congruence.
  - apply (f_equal (@length _)) in GM. cbn [length] in GM. rewrite app_length in GM. cbn [length] in GM. lia.
Qed.
(** the mixed key of a text with the same mixed spaces and the same extension *)
Lemma three_transfer : forall s1 s2 name dot ext, all_legal s1 -> all_legal s2 -> g_mixed s2 = [name; [dot]; ext] -> ext <> [] -> lform s2 name dot ext ->
  kX s1 = kX s2 -> (exists g1 g2 : list run, g_mixed s1 = [g1; g2; ext]) -> vk (svX s1) = vk (svL s1) /\ length (g_mixed s1) = 3.
Proof.
  intros s1 s2 name dot ext L1 L2 G2 NE LF K (g1 & g2 & G1). rewrite !kX_eq in K by assumption. rewrite G1, G2 in K. cbn [map] in K.
  destruct LF as (_ & D & AE & LE).
  assert (D2 : exists x, g2 = [x] /\ fst x = R_DOT).
  { pose proof (groups_ok s1 _ L1 (groups_mixed s1)) as GO. rewrite G1 in GO. inversion GO as [|? ? _ GO1]; subst. inversion GO1 as [|? ? [GO2 GO3] _]; subst.
    apply one_rule_one_run; [rewrite <- GO2; apply runs_spec; exact GO3|]. inversion K as [[K1 K2]]. rewrite K2. cbn [sorted_set map fold_right set_insert]. rewrite D. reflexivity. }
  destruct D2 as (x & -> & DX).
  assert (LF1 : lform s1 g1 x ext).
  { pose proof (groups_mixed s1) as G. unfold groups in G. rewrite G1 in G. cbn [List.concat app] in G. rewrite app_nil_r in G. split; [symmetry; exact G|]. auto. }
  split; [|rewrite G1; reflexivity]. apply vk_of. fold (kX s1) (kL s1). rewrite kX_eq, kL_eq by exact L1. rewrite G1, (g_ldsf_form s1 g1 x ext LF1).
  unfold ldsf_of. destruct ext; [congruence|reflexivity].
Qed.

(** *** destinations *)
Section Dest.
  Context (mcn : Z) (M2 : (2 <= mcn)%Z) (lp : bool).
  Definition to_ldsf3 (s : str) : Prop := length (g_mixed s) = 3 /\ lp = true /\ vk (svX s) = vk (svL s).
  Lemma len_parts : forall ss, length (map vpart ss) = length ss.
  Proof. intros. apply map_length. Qed.
  Lemma pieces_len : forall s, length (pieces (pp_of s)) = length (runs s).
  Proof. intros. unfold pp_of. cbn [pieces]. apply map_length. Qed.
  Lemma runs_nil : forall s, all_legal s -> s <> [] -> length (runs s) <> 0.
  Proof. intros s L N E. destruct (runs_spec s L) as (_ & _ & X). destruct (runs s); [apply N; exact (eq_sym X)|discriminate]. Qed.

  Lemma dest_piece_inv : forall s, all_legal s -> s <> [] ->
    match dest_piece mcn lp (pp_of s) with
    | DLength => True
    | DView c v => okB s /\
        match c with
        | CBase => v = map vpart (svB s)
        | CMixed => v = map vpart (svX s) /\ length (g_mixed s) <> 1 /\ kM s <> kX s /\ ~ to_ldsf3 s
        | CLdsf => v = map vpart (svL s) /\ lp = true /\ length (g_ldsf s) <> 1 /\ (kM s = kX s \/ to_ldsf3 s)
        | _ => False
        end
    end.
  Proof.
    intros s L N. unfold dest_piece. rewrite pieces_len. pose proof (runs_nil s L N) as R0.
    destruct (length (runs s) =? 1) eqn:E1; [exact Logic.I|]. apply Nat.eqb_neq in E1. assert (OB : okB s) by (unfold okB; lia).
    rewrite multi_parts_vpart, mixed_parts_vpart, ldsf_parts_vpart by assumption. fold (svB s) (svX s) (svL s).
    rewrite !len_parts. fold (vk (svB s)) (vk (svX s)) (vk (svL s)).
    assert (LB : length (svB s) = length (runs s)) by (unfold svB, g_multi; rewrite !map_length; reflexivity).
    assert (LX : length (svX s) = length (g_mixed s)) by (unfold svX; apply map_length). rewrite LB, LX.
    assert (NK : (length (g_mixed s) < length (runs s))%nat -> kM s <> kX s).
    { intros Q E. apply (f_equal (@length _)) in E. unfold kM, kX in E. rewrite !map_length, LB, LX in E. lia. }
    destruct (length (runs s) =? 3) eqn:E3.
    - apply Nat.eqb_eq in E3. cbn [andb]. destruct lp eqn:LP; [|split; [exact OB|reflexivity]].
      destruct (str_eqb_spec (vk (svB s)) (vk (svL s))) as [Q|Q]; [|split; [exact OB|reflexivity]].
      destruct (three_multi s L E3 Q) as [Q1 Q2]. split; [exact OB|]. repeat (split; [solve [auto]|]). auto.
    - cbn [andb]. destruct (3 <? length (runs s)) eqn:E4; [|split; [exact OB|reflexivity]].
      destruct (length (g_mixed s) =? 1) eqn:E5; [exact Logic.I|]. apply Nat.eqb_neq in E5.
      destruct (mcn <=? Z.of_nat (length (runs s)) - Z.of_nat (length (g_mixed s)))%Z eqn:E6; [|split; [exact OB|reflexivity]]. apply Z.leb_le in E6.
      assert (NK' : kM s <> kX s) by (apply NK; lia).
      destruct ((length (g_mixed s) =? 3) && lp) eqn:E7.
      + apply andb_prop in E7. destruct E7 as [E7 E8]. apply Nat.eqb_eq in E7.
        destruct (str_eqb_spec (vk (svX s)) (vk (svL s))) as [Q|Q].
        * destruct (three_mixed s L E7 Q) as [Q1 _]. split; [exact OB|]. split; [reflexivity|]. split; [exact E8|]. split; [exact Q1|]. right. repeat split; assumption.
        * split; [exact OB|]. split; [reflexivity|]. split; [exact E5|]. split; [exact NK'|]. intros (_ & _ & X). contradiction.
      + split; [exact OB|]. split; [reflexivity|]. split; [exact E5|]. split; [exact NK'|]. intros (X & Y & _). rewrite X, Y in E7. discriminate.
  Qed.
  Lemma dest_base_inv : forall s, all_legal s -> okB s ->
    match dest_base lp (map vpart (svB s)) (pp_of s) with
    | DLength => True
    | DView c v =>
        match c with
        | CMixed => v = map vpart (svX s) /\ length (g_mixed s) <> 1 /\ kM s <> kX s /\ ~ to_ldsf3 s
        | CLdsf => v = map vpart (svL s) /\ lp = true /\ length (g_ldsf s) <> 1 /\ (kM s = kX s \/ to_ldsf3 s)
        | _ => False
        end
    end.
  Proof.
    intros s L OB. unfold dest_base. rewrite mixed_parts_vpart, ldsf_parts_vpart by assumption. fold (svX s) (svL s).
    rewrite !len_parts. fold (vk (svB s)) (vk (svX s)) (vk (svL s)).
    assert (LX : length (svX s) = length (g_mixed s)) by (unfold svX; apply map_length).
    assert (LL : length (svL s) = length (g_ldsf s)) by (unfold svL; apply map_length). rewrite LX, LL.
    destruct (str_eqb_spec (vk (svB s)) (vk (svX s))) as [Q|Q].
    - apply key_BX in Q; [|exact L..]. destruct lp eqn:LP; [|exact Logic.I]. destruct (length (g_ldsf s) =? 1) eqn:E; [exact Logic.I|]. apply Nat.eqb_neq in E. auto.
    - assert (NK : kM s <> kX s) by (intros E; apply Q; apply vk_of; exact E).
      destruct (length (g_mixed s) =? 1) eqn:E5; [exact Logic.I|]. apply Nat.eqb_neq in E5.
      destruct ((length (g_mixed s) =? 3) && lp) eqn:E7.
      + apply andb_prop in E7. destruct E7 as [E7 E8]. apply Nat.eqb_eq in E7.
        destruct (str_eqb_spec (vk (svX s)) (vk (svL s))) as [Q'|Q'].
        * destruct (three_mixed s L E7 Q') as [Q1 _]. split; [reflexivity|]. split; [exact E8|]. split; [exact Q1|]. right. repeat split; assumption.
        * split; [reflexivity|]. split; [exact E5|]. split; [exact NK|]. intros (_ & _ & X). contradiction.
      + split; [reflexivity|]. split; [exact E5|]. split; [exact NK|]. intros (X & Y & _). rewrite X, Y in E7. discriminate.
  Qed.
  Lemma dest_mixed_inv : forall s, all_legal s ->
    match dest_mixed lp (pp_of s) with
    | DLength => True
    | DView c v => c = CLdsf /\ v = map vpart (svL s) /\ lp = true /\ length (g_ldsf s) <> 1
    end.
  Proof.
    intros s L. unfold dest_mixed. rewrite ldsf_parts_vpart by exact L. fold (svL s). rewrite len_parts.
    assert (LL : length (svL s) = length (g_ldsf s)) by (unfold svL; apply map_length). rewrite LL.
    destruct lp; [|exact Logic.I]. destruct (length (g_ldsf s) =? 1) eqn:E; [exact Logic.I|]. apply Nat.eqb_neq in E. auto.
  Qed.

  (** the destination depends on the rules only *)
  Lemma grp_fst : forall l, map (map fst) (grp rmix l) = grp in_mixed (map fst l).
  Proof.
    induction l as [|x l IH]; [reflexivity|]. cbn [grp map]. unfold rmix at 1. destruct (in_mixed (fst x)).
    - rewrite <- IH. destruct (grp rmix l) as [|[|y g] gs]; cbn [map]; try reflexivity. unfold rmix. destruct (in_mixed (fst y)); reflexivity.
    - cbn [map]. rewrite IH. reflexivity.
  Qed.
  Lemma ldsf_fst : forall s, map (map fst) (g_ldsf s) =
    match dot_index (map fst (runs s)) with
    | None => [map fst (runs s)]
    | Some i => let ext := skipn (i + 1) (map fst (runs s)) in
        if negb (forallb in_digit_ascii ext) then [map fst (runs s)]
        else firstn i (map fst (runs s)) :: firstn 1 (skipn i (map fst (runs s))) :: (if is_nil ext then [] else [ext])
    end.
  Proof.
    intros s. unfold g_ldsf. destruct (dot_index (map fst (runs s))) as [i|]; [|reflexivity]. cbv zeta.
    rewrite !skipn_map, !firstn_map. destruct (negb _); [reflexivity|].
    cbn [map]. f_equal. f_equal. destruct (skipn (i + 1) (runs s)); reflexivity.
  Qed.
  Lemma k_of_fst : forall (gs gs' : list (list run)), map (map fst) gs = map (map fst) gs' ->
    map (fun g => sorted_set (map fst g)) gs = map (fun g => sorted_set (map fst g)) gs'.
  Proof. intros gs gs' E. rewrite <- !(map_map (map fst) sorted_set). rewrite E. reflexivity. Qed.
  Lemma dest_rules : forall s1 s2, all_legal s1 -> all_legal s2 -> okB s1 -> map fst (runs s1) = map fst (runs s2) ->
    dest_piece mcn lp (pp_of s1) = DView CBase (map vpart (svB s1)) -> dest_piece mcn lp (pp_of s2) = DView CBase (map vpart (svB s2)) /\ okB s2.
  Proof.
    intros s1 s2 L1 L2 O1 E. assert (LE : length (runs s1) = length (runs s2)) by (rewrite <- (map_length fst (runs s1)), E, map_length; reflexivity).
    assert (O2 : okB s2) by (unfold okB in *; lia).
    assert (KX : kX s1 = kX s2) by (rewrite !kX_eq by assumption; apply k_of_fst; unfold g_mixed; rewrite !grp_fst, E; reflexivity).
    assert (KL : kL s1 = kL s2) by (rewrite !kL_eq by assumption; apply k_of_fst; rewrite !ldsf_fst, E; reflexivity).
    assert (KM : kM s1 = kM s2). { rewrite !kM_eq by assumption. rewrite <- !(map_map fst (fun r => [r])), E. reflexivity. }
    apply vk_of in KX as VX. apply vk_of in KL as VL. apply vk_of in KM as VM.
    assert (LX : length (svX s1) = length (svX s2)) by (apply (f_equal (@length _)) in KX; unfold kX in KX; rewrite !map_length in KX; exact KX).
    assert (LB : length (svB s1) = length (svB s2)) by (apply (f_equal (@length _)) in KM; unfold kM in KM; rewrite !map_length in KM; exact KM).
    unfold dest_piece. rewrite !pieces_len. rewrite !multi_parts_vpart, !mixed_parts_vpart, !ldsf_parts_vpart by assumption.
    fold (svB s1) (svX s1) (svL s1) (svB s2) (svX s2) (svL s2). rewrite !len_parts.
    fold (vk (svB s1)) (vk (svX s1)) (vk (svL s1)) (vk (svB s2)) (vk (svX s2)) (vk (svL s2)).
    rewrite VX, VL, VM, LX, LB, LE. intros H. split; [|exact O2].
    repeat match goal with |- context [if ?b then _ else _] => destruct b end; try discriminate H; reflexivity.
  Qed.
End Dest.
