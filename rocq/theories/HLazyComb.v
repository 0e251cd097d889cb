(** next() of make(combine=True) on the nodes as objects. *)
From Coq Require Import String.
From Verif Require Import PyStr Defs UrlLib ParseUtils Views Trees Cluster Patterns Matcher Maker Spec Observe Heap HeapSpec HCluster HCombine HMakeSpec
  PyStrProofs DefsProofs PieceProofs DictProofs TreeProofs EntProofs GenCluster FlatCluster OuterCluster TokProofs MakeProofs
  LoadProofs HeapProofs HeapLoad HeapState HeapTop HcBase HcBag HcLevel HcPaths HcStage HcLen HcRun HcProc HcLoop HcInst AnyOrder AnyGen AnyOuter AnySpec AnyMake
  Lazy LazyProofs HcMake HcCombine HcState HcTop HLazy HLazySpec HLazyProofs.
From Coq Require Import Lia Permutation.

Section Comb.
  Context (nv : str -> bool) (mcn : Z) (M2 : (2 <= mcn)%Z).
  Notation inner := (fun (d : nat) (kw : bool) (t : tree) => cluster_n 1 mcn d d kw t).
  (** *** The clusters of Cluster.v, one after the other *)
  Lemma subs_run : forall (f : tree -> res (list tree)) m st, (forall t todo c ts c1 st' r, f t = Ok ts -> foldM combine_one ts c = Ok c1 -> combines mcn st todo c1 st' r -> combines mcn st ((m, ROwn t) :: todo) c st' r) ->
    forall subs rs todo c c1 st' r, mapM f subs = Ok rs -> foldM combine_one (List.concat rs) c = Ok c1 -> combines mcn st todo c1 st' r ->
    combines mcn st (map (fun s => (m, ROwn s)) subs ++ todo) c st' r.
  Proof.
    intros f m st F subs. induction subs as [|t subs IH]; intros rs todo c c1 st' r E1 E2 C; cbn [mapM] in E1.
    - injection E1 as <-. cbn in E2. injection E2 as <-. exact C.
    - destruct (f t) as [ts|] eqn:E; cbn [bind] in E1; [|discriminate]. destruct (mapM f subs) as [rs'|] eqn:ER; cbn [bind] in E1; [|discriminate]. injection E1 as <-.
      cbn [List.concat] in E2. rewrite foldM_app in E2. destruct (foldM combine_one ts c) as [c2|] eqn:E3; cbn [bind] in E2; [|discriminate].
      cbn [map app]. eapply F; [exact E|exact E3|]. eapply IH; [reflexivity|exact E2|exact C].
  Qed.
  Lemma own_run : forall n m t st todo c ts c1 st' r, cluster_loop mcn inner n (depth m) (path_depth m) false t = Ok ts -> foldM combine_one ts c = Ok c1 ->
    combines mcn st todo c1 st' r -> combines mcn st ((m, ROwn t) :: todo) c st' r.
  Proof.
    intros n. induction n as [|n IH]; intros m t st todo c ts c1 st' r E EF C; [discriminate|]. cbn [cluster_loop] in E. destruct (t_cnt t <=? 0)%Z eqn:CP.
    - injection E as <-. cbn in EF. injection EF as <-. eapply cb_step; [discriminate| |exact C]. apply g_skip. cbn [tree_of]. lia.
    - destruct (process mcn inner (depth m) (path_depth m) false t) as [[t' b]|] eqn:EP; cbn [bind] in E; [|discriminate]. pose proof (lazy_process mcn _ _ _ EP) as PL. destruct b; cbn [negb] in E.
      + destruct (split_by_pattern t') as [subs|] eqn:ES; cbn [bind] in E; [|discriminate]. destruct (mapM _ subs) as [rs|] eqn:EM in E; cbn [bind] in E; [|discriminate]. injection E as <-.
        eapply cb_step; [discriminate|eapply g_split; [cbn [tree_of]; lia|exact PL|exact ES]|]. cbn [write]. eapply subs_run; [|exact EM|exact EF|exact C].
        intros t0 todo0 c0 ts0 c2 st0 r0 X1 X2 X3. eapply IH; eassumption.
      + injection E as <-. cbn [foldM] in EF. destruct (combine_one c t') as [c2|] eqn:EC; cbn [bind] in EF; [|discriminate]. injection EF as <-.
        eapply cb_cluster; [discriminate|eapply g_yield; [cbn [tree_of]; lia|exact PL]|exact EC|]. cbn [write]. exact C.
  Qed.
  Lemma maker_run : forall st sid mk ct, dget str_eqb sid st = Some mk -> maker_combine mcn mk = Ok ct -> (0 < t_cnt (mk_root mk))%Z ->
    combines mcn st [(mk_meta mk, RMaker sid)] (CT [] 0 []) (write st (RMaker sid) (mk_root (maker_after mcn mk))) (Ok ct).
  Proof.
    intros st sid mk ct DG E CP. unfold maker_combine, maker_make, cluster in E. destruct (cluster_n 2 mcn (depth (mk_meta mk)) (path_depth (mk_meta mk)) false (mk_root mk)) as [ts|] eqn:EC; cbn [bind] in E; [|discriminate].
    change (cluster_loop mcn inner (S (length (paths (mk_root mk)))) (depth (mk_meta mk)) (path_depth (mk_meta mk)) false (mk_root mk) = Ok ts) in EC. cbn [cluster_loop] in EC.
    assert (TR : tree_of st (RMaker sid) = mk_root mk) by (cbn [tree_of]; rewrite DG; reflexivity).
    unfold maker_after. assert (CB : (t_cnt (mk_root mk) <=? 0)%Z = false) by lia. rewrite CB in *.
    destruct (process mcn inner (depth (mk_meta mk)) (path_depth (mk_meta mk)) false (mk_root mk)) as [[t' b]|] eqn:EP; cbn [bind] in EC; [|discriminate]. cbn [mk_root].
    pose proof (lazy_process mcn _ _ _ EP) as PL. rewrite <- TR in PL. destruct b; cbn [negb] in EC.
    - destruct (split_by_pattern t') as [subs|] eqn:ES; cbn [bind] in EC; [|discriminate]. destruct (mapM _ subs) as [rs|] eqn:EM in EC; cbn [bind] in EC; [|discriminate]. injection EC as <-.
      eapply cb_step; [discriminate|eapply g_split; [rewrite TR; exact CP|exact PL|exact ES]|]. eapply subs_run; [|exact EM|exact E|apply cb_end].
      intros t0 todo0 c0 ts0 c2 st0 r0 X1 X2 X3. eapply own_run; eassumption.
    - injection EC as <-. cbn [foldM] in E. destruct (combine_one (CT [] 0 []) t') as [c2|] eqn:EC; cbn [bind] in E; [|discriminate]. injection E as <-.
      eapply cb_cluster; [discriminate|eapply g_yield; [rewrite TR; exact CP|exact PL]|exact EC|apply cb_end].
  Qed.
  (** *** next() *)
  Definition cgiven (g : ghost) (c : cgen) (H' : heap) (g' : ghost) (c' : cgen) (E : list atree) (o : hout) : Prop :=
    match o with
    | HTree m r => exists x ct, cnext mcn (map fm g) c (map fm g') c' (OTree m ct) /\ a_addr x = r /\ holds H' None 0 x /\ erase x = ptree ct /\ E = [x]
        /\ exists sid mk, In (sid, mk) (map fm g) /\ mk_meta mk = m /\ maker_combine mcn mk = Ok ct
    | HStop => cnext mcn (map fm g) c (map fm g') c' OStop
    | HRuntime => cnext mcn (map fm g) c (map fm g') c' ORuntime
    | HRaise _ | HYield _ _ => False
    end.
  Definition cnexted (h : list (str * option str)) (H : heap) (g : ghost) (c : cgen) (D : list atree) (x : hstate * cgen * hout) : Prop :=
    exists H' g' c' o E, x = (HS H' (map hm g'), c', o) /\ INV nv h H' g' (E ++ D) /\ ggrows g g' /\ length H <= length H' /\ cgiven g c H' g' c' E o.
  Lemma take_do : forall h H g size k D, INV nv h H g D -> cnexted h H g (COn size k) D (hctake mcn size k (HS H (map hm g))).
  Proof.
    intros h H g size k D IV. unfold hctake. cbn [hs_makers hs_heap]. rewrite map_length. destruct (length g =? size) eqn:ES; cbn [negb].
    2:{ apply Nat.eqb_neq in ES. exists H, g, CEnd, HRuntime, []. split; [reflexivity|]. split; [exact IV|]. split; [apply ggrows_refl|]. split; [lia|]. apply c_size. rewrite map_length. exact ES. }
    apply Nat.eqb_eq in ES. rewrite nth_error_map. destruct (nth_error g k) as [[sid [m s]]|] eqn:EK; cbn [option_map].
    2:{ exists H, g, CEnd, HStop, []. split; [reflexivity|]. split; [exact IV|]. split; [apply ggrows_refl|]. split; [lia|]. apply c_stop; [rewrite map_length; exact ES|]. rewrite nth_error_map, EK. reflexivity. }
    assert (NK : NoDup (map fst g)).
    { destruct (c18_keys nv h) as [X _]. rewrite <- (in_bare _ _ _ _ _ IV), keys_bare, map_map in X. exact X. }
    pose proof EK as EK0. apply nth_error_split in EK0. destruct EK0 as (x & y & EG & LX).
    assert (GS : forall z, gt (x ++ (sid, (m, z)) :: y) ++ D = gt (x ++ [(sid, (m, z))]) ++ (gt y ++ D)) by (intros z; unfold gt; rewrite !map_app; cbn [map snd]; rewrite <- !app_assoc; reflexivity).
    pose proof (in_whole _ _ _ _ _ IV) as W. rewrite EG, GS in W.
    assert (RD : ready m s) by (apply (ghost_full _ _ _ _ _ _ _ _ IV (nth_error_In _ _ EK))).
    destruct (HcState.combines_ok mcn M2 [(sid, (m, s))] x H [] (gt y ++ D) W) as (H' & g2 & rows & R & RO & W' & LE & WF); [constructor; [exact RD|constructor]|].
    inversion RO as [|a a' [yl c] ? ? ? CR RN]; subst. inversion RN; subst. destruct a' as [sid' [m' s1]]. unfold crow_ok in CR. cbn [fst snd] in CR.
    destruct CR as (-> & -> & MA & Ea & GR & BA & (Y1 & Y2 & Y3) & (ct & MC & EC) & LO). cbn [map fst snd app] in *.
    rewrite R. destruct yl as [[my ry] Hy]. cbn [y_meta y_root y_heap fst snd] in *. subst my ry.
    set (g' := x ++ (sid, (m, s1)) :: y).
    assert (HM : map hm g' = map hm (x ++ (sid, (m, s)) :: y)) by (unfold g'; rewrite !map_app; cbn [map]; unfold hm at 2 5; cbn [fst snd]; rewrite Ea; reflexivity).
    assert (DG : dget str_eqb sid (map fm (x ++ (sid, (m, s)) :: y)) = Some (MK m (erase s))).
    { rewrite (HeapState.dget_map _ _ fm (fun v => MK (fst v) (erase (snd v))) sid _) by reflexivity. rewrite (dget_in str_eqb str_eqb_iff _ _ _ NK (nth_error_In _ _ EK)). reflexivity. }
    assert (WR : write (map fm (x ++ (sid, (m, s)) :: y)) (RMaker sid) (erase s1) = map fm g').
    { cbn [write]. rewrite DG. cbn [mk_meta]. unfold g'. rewrite !map_app. cbn [map]. unfold fm at 2. cbn [fst snd]. rewrite dset_mid; [reflexivity|].
      rewrite map_map. cbn [fst fm]. rewrite map_app in NK. cbn [map fst] in NK. apply NoDup_remove_2 in NK. intros I. apply NK. apply in_app_iff. left. exact I. }
    assert (IC : In c (gt (x ++ [(sid, (m, s1))]) ++ (gt y ++ D) ++ [c])) by (rewrite !in_app_iff; right; right; left; reflexivity).
    exists H', g', (COn (length (x ++ (sid, (m, s)) :: y)) (S (length x))), (HTree m (a_addr c)), [c].
    split; [rewrite HM; reflexivity|]. split; [|split; [|split; [exact LE|]]].
    - split.
      + unfold g'. eapply whole_perm; [|exact W']. replace (gt (x ++ (sid, (m, s1)) :: y)) with (gt (x ++ [(sid, (m, s1))]) ++ gt y) by (unfold gt; rewrite !map_app; cbn [map]; rewrite <- app_assoc; reflexivity).
        rewrite <- !app_assoc. do 2 apply Permutation_app_head. apply Permutation_app_comm.
      + rewrite <- (in_bare _ _ _ _ _ IV). unfold g', bare_state. rewrite !map_app. cbn [map]. f_equal. f_equal. unfold fm, bare_maker. cbn [fst snd mk_meta mk_root]. rewrite BA. reflexivity.
      + cbn [app]. constructor; [exact (Forall_inv WF)|exact (in_wft _ _ _ _ _ IV)].
    - intros sid0 m1 s0 I. apply in_app_iff in I. destruct I as [I|[I|I]].
      + exists s0. split; [apply in_app_iff; auto|apply grows_refl].
      + injection I as <- <- <-. exists s1. split; [apply in_app_iff; right; left; reflexivity|exact GR].
      + exists s0. split; [apply in_app_iff; right; right; exact I|apply grows_refl].
    - exists c, ct. split; [|split; [reflexivity|split; [exact (proj1 (whole_in _ _ c W' IC))|split; [exact EC|split; [reflexivity|]]]]].
      2:{ exists sid, (MK m (erase s)). split; [change (sid, MK m (erase s)) with (fm (sid, (m, s))); apply in_map; eapply nth_error_In; exact EK|]. split; [reflexivity|exact MC]. }
      change m with (mk_meta (MK m (erase s))) at 3. apply (c_tree mcn _ _ _ sid (MK m (erase s))); [apply map_length|apply (map_nth_error fm) in EK; exact EK|].
      rewrite <- WR. replace (erase s1) with (mk_root (maker_after mcn (MK m (erase s)))) by (change (MK m (erase s)) with (snd (fm (sid, (m, s)))); rewrite <- MA; reflexivity).
      apply maker_run; [exact DG|exact MC|]. cbn [mk_root]. destruct RD as (Cs & _ & _ & OF). apply (wft_pos _ _ (proj1 (proj2 (proj1 OF)))).
  Qed.
  Lemma cnext_do : forall h H g c D, INV nv h H g D -> cnexted h H g c D (hcnext mcn (HS H (map hm g)) c).
  Proof.
    intros h H g c D IV. destruct c as [|size k|]; cbn [hcnext].
    - cbn [hs_makers]. rewrite map_length. destruct (take_do h H g (length g) 0 D IV) as (H' & g' & c' & o & E & R & I & G & L & X). exists H', g', c', o, E. repeat (split; [assumption|]).
      destruct o; cbn [cgiven] in *; try contradiction; [apply c_start; rewrite map_length; exact X|apply c_start; rewrite map_length; exact X|].
      destruct X as (x & ct & X & Y). exists x, ct. split; [apply c_start; rewrite map_length; exact X|exact Y].
    - apply take_do. exact IV.
    - exists H, g, CEnd, HStop, []. split; [reflexivity|]. split; [exact IV|]. split; [apply ggrows_refl|]. split; [lia|]. apply c_end.
  Qed.
End Comb.
