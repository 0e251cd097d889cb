(** A cluster that works on a view, when the texts differ in one run of one of its
    parts (C67). *)
From Coq Require Import String.
From Verif Require Import PyStr Defs UrlLib ParseUtils Views Trees Cluster Spec Patterns Matcher Maker Observe MatchSpec OneSpec PyStrProofs DefsProofs DictProofs RegexProofs PieceProofs LengthProofs BridgeProofs GroupProofs TreeProofs TokProofs LengthStage PieceStage EntProofs GenCluster FlatCluster ViewProofs KeyProofs MultiStage OneLevel OneTree OneCluster FanCluster RunFam RunFlat.
From Coq Require Import Lia Permutation.

Lemma mapM_in : forall A B (f : A -> res B) l ys x, mapM f l = Ok ys -> In x l -> exists y, f x = Ok y /\ In y ys.
Proof.
  intros A B f. induction l as [|a l IH]; intros ys x E I; [destruct I|]. cbn [mapM] in E. destruct (f a) as [b|] eqn:F; [|discriminate]. cbn [bind] in E.
  destruct (mapM f l) as [zs|]; [|discriminate]. cbn [bind] in E. inversion E; subst. destruct I as [->|I]; [exists b; split; [exact F|left; reflexivity]|].
  destruct (IH zs x eq_refl I) as (y & Y1 & Y2). exists y. split; [exact Y1|right; exact Y2].
Qed.
Section RS.
  Context (mcn : Z) (M2 : (2 <= mcn)%Z) (lp : bool) (c : cls) (sv : str -> list str) (ok : str -> Prop).
  Context (SVL : forall s, all_legal s -> ok s -> Forall all_legal (sv s)).
  Context (SVN : forall s, all_legal s -> ok s -> sv s <> []).
  Context (SVP : forall s, all_legal s -> ok s -> List.concat (map (fun t => piece (pp_of t)) (sv s)) = piece (pp_of s)).
  Context (SVK : forall s t, all_legal s -> ok s -> all_legal t -> ok t ->
             view_key (map vpart (sv s)) = view_key (map vpart (sv t)) -> map cset (sv s) = map cset (sv t)).
  Context (r : str) (ga gb : list run) (G : str -> str) (FM : fam r ga gb G) (As Bs : list str) (TX : str -> str).
  Context (SVT : forall s, one_sp r s -> sv (TX s) = As ++ G s :: Bs).
  Notation inner := (fun (d : nat) (kw : bool) (t : tree) => cluster_n 1 mcn d d kw t).
  Notation inner0 := (fun (d : nat) (kw : bool) (t : tree) => @Err (list tree) EFuel).
  Notation kd := (kd mcn Bs (cls_eqb c CLdsf)).
  Notation W ss s := (pstr (G s) (kd ss s)).
  Notation rCs := (rCs r ga gb).
  Notation vst := (vst sv ok). Notation vgood := (vgood sv ok).
  Notation preA := (map (fun s => Pc s) As). Notation postB := (map (fun s => Pc s) Bs).
  Lemma run_stage : forall l ss, oneset r ss -> ss <> [] -> (mcn <= Z.of_nat (length ss))%Z -> NoDup (map pc l) ->
    (forall vi, In vi l -> vc vi = 1%Z /\ exists s, In s ss /\ vst vi (TX s)) -> (forall s, In s ss -> exists vi, In vi l /\ vst vi (TX s)) ->
    exists dn fw, multi_stage mcn inner lp c l = Ok (dn, fw) /\ mspec mcn lp c sv ok l dn fw /\
      (forall s, In s ss -> kd ss s <> KLit -> In (c, Pc (TX s), List.concat (preA ++ W ss s :: postB)) dn) /\
      (forall vi s, In vi l -> In s ss -> vst vi (TX s) -> kd ss s = KLit -> In (forward lp c vi) fw).
  Proof.
    intros l ss OS SN BIG ND H1 H2. pose proof OS as [NS ON]. pose proof ON as ON'. rewrite Forall_forall in ON'.
    assert (VG : Forall vgood l). { apply Forall_forall. intros vi I. destruct (H1 vi I) as (C1 & s & S1 & S2). split; [exists (TX s); exact S2|rewrite C1; lia]. }
    destruct (multi_stage_spec mcn M2 lp c sv ok SVL SVN SVP SVK l VG ND) as (dn & fw & E & MSP). exists dn, fw. split; [exact E|]. split; [exact MSP|]. clear MSP.
    assert (CSX : forall s, In s ss -> map cset (sv (TX s)) = rCs As Bs). { intros s I. rewrite SVT by (apply ON'; exact I). unfold RunFlat.rCs. rewrite map_app. cbn [map]. rewrite (g_cset r ga gb G FM s (ON' s I)). reflexivity. }
    (* one bucket *)
    assert (LN : l <> []). { destruct ss as [|s ss]; [congruence|]. destruct (H2 s (or_introl eq_refl)) as (vi & I & _). intros ->. destruct I. }
    assert (KK : forall x y, In x l -> In y l -> vkey x = vkey y).
    { intros x y X Y. destruct (H1 x X) as (_ & s & S1 & S2), (H1 y Y) as (_ & t & T1 & T2). unfold vkey. destruct S2 as (_ & _ & E1 & _), T2 as (_ & _ & E2 & _). rewrite E1, E2.
      apply RouteProofs.vk_of. rewrite (CSX s S1), (CSX t T1). reflexivity. }
    unfold multi_stage in E. rewrite (foldM_pure _ _ multi_add (fun d vi => dset str_eqb (vkey vi) (step (dget str_eqb (vkey vi) d) vi) d)) in E.
    2: { intros d vi I. rewrite Forall_forall in VG. eapply (multi_add_pure sv ok); [exact SVN|apply VG; exact I]. }
    cbn [bind] in E. fold (gfold str_eqb vkey step l []) in E.
    destruct l as [|v0 l0] eqn:EL; [congruence|]. rewrite <- EL in *.
    assert (I0 : In v0 l) by (rewrite EL; left; reflexivity). clear EL l0.
    assert (DN : NoDup (map fst (gfold str_eqb vkey step l []))) by (apply gfold_NoDup; [exact str_eqb_iff|constructor]).
    assert (DK : forall k, In k (map fst (gfold str_eqb vkey step l [])) <-> k = vkey v0).
    { intros k. rewrite gfold_keys by exact str_eqb_iff. cbn [map In]. split; [intros [[]|X]|intros ->; right; apply in_map; exact I0]. apply in_map_iff in X. destruct X as (x & <- & X). apply KK; assumption. }
    pose proof (gfold_get str_eqb str_eqb_iff vkey step l [] (vkey v0)) as DG.
    replace (filter (fun x => str_eqb (vkey v0) (vkey x)) l) with l in DG.
    2: { symmetry. apply filter_true. intros x X. apply str_eqb_eq. apply KK; assumption. }
    assert (GF : exists b, gfold str_eqb vkey step l [] = [(vkey v0, b)]).
    { destruct (gfold str_eqb vkey step l []) as [|[k b] [|[k' b'] d]].
      - exfalso. apply (DK (vkey v0)). reflexivity.
      - exists b. f_equal. f_equal. apply DK. left. reflexivity.
      - exfalso. cbn [map fst] in DN, DK. inversion DN as [|? ? NX _]; subst. apply NX. left. rewrite (proj1 (DK k) (or_introl eq_refl)). apply DK. right. left. reflexivity. }
    destruct GF as (b & GF). rewrite GF in E, DG. cbn [dget] in DG. rewrite str_eqb_refl in DG. symmetry in DG. fold (vfold l) in DG. clear GF DN DK.
    cbn [mapM snd bind] in E.
    destruct (vfold_spec l b DG ND) as (OB & CB & _).
    destruct (bucket_tree sv ok SVL SVN SVP SVK l LN VG ND KK b DG) as (Cs & CSN & CSA & DEP & T2 & T3 & T4).
    assert (ECS : Cs = rCs As Bs). { destruct (H1 v0 I0) as (_ & s & S1 & S2). rewrite <- (CSA v0 (TX s) I0 S2). apply CSX. exact S1. } subst Cs.
    assert (PATH : forall vi s, In s ss -> vst vi (TX s) -> e_pieces (vent vi) = preA ++ Pc (G s) :: postB).
    { intros vi s I (_ & _ & EV & _). unfold e_pieces, vent. cbn [e_path fst]. rewrite EV, map_map, (map_ext _ _ vpart_piece), SVT by (apply ON'; exact I). rewrite map_app. reflexivity. }
    assert (SH : fsh r ga gb G As Bs (vb_root b) ss).
    { split; [split; [exact T2|split; [exact T3|]]|split; [|split; [exact OS|]]].
      - apply Forall_forall. intros e I. apply (Permutation_in _ T4) in I. apply in_map_iff in I. destruct I as (vi & <- & _). reflexivity.
      - apply Forall_forall. intros e I. apply (Permutation_in _ T4) in I. apply in_map_iff in I. destruct I as (vi & <- & I). apply (H1 vi I).
      - intros ks. split.
        + intros (e & I & <-). apply (Permutation_in _ T4) in I. apply in_map_iff in I. destruct I as (vi & <- & I). destruct (H1 vi I) as (_ & s & S1 & S2). exists s. split; [exact S1|]. apply PATH; assumption.
        + intros (s & I & ->). destruct (H2 s I) as (vi & V1 & V2). exists (vent vi). split; [eapply Permutation_in; [symmetry; exact T4|]; apply in_map; exact V1|]. apply PATH; assumption. }
    assert (CNT : (vb_count b <? mcn)%Z = false).
    { apply Z.ltb_ge. rewrite CB. assert (ZL : zsum (map vc l) = Z.of_nat (length l)).
      { clear - H1. induction l as [|x l IH]; [reflexivity|]. cbn [map zsum fold_right length]. change (fold_right Z.add 0%Z (map vc l)) with (zsum (map vc l)). rewrite IH by (intros vi I; apply H1; right; exact I). rewrite (proj1 (H1 x (or_introl eq_refl))). lia. }
      rewrite ZL. enough (length ss <= length l)%nat by lia. rewrite <- (map_length pc l), <- (map_length (fun s => Pc (TX s)) ss). apply NoDup_incl_length.
      - apply NoDup_map_on; [exact NS|]. intros s t S1 S2 EP. destruct (H2 s S1) as (v1 & V1 & V2), (H2 t S2) as (v2 & V3 & V4).
        assert (v1 = v2) as -> by (apply (NoDup_map_in _ _ pc l v1 v2 ND V1 V3); rewrite (vst_pc sv ok v1 _ V2), (vst_pc sv ok v2 _ V4); exact EP).
        pose proof (PATH v2 s S1 V2) as P1. rewrite (PATH v2 t S2 V4) in P1. apply app_inv_head in P1. injection P1 as P1. symmetry. apply (gp_inj r ga gb G FM); auto.
      - intros k K. apply in_map_iff in K. destruct K as (s & <- & K). destruct (H2 s K) as (vi & V1 & V2). rewrite <- (vst_pc sv ok vi _ V2). apply in_map. exact V1. }
    unfold multi_bucket in E. rewrite CNT, DEP in E. cbn [cluster_n] in E.
    destruct (flat_fan mcn M2 inner0 r ga gb G FM As Bs (cls_eqb c CLdsf) (length (rCs As Bs)) (S (length (paths (vb_root b)))) (vb_root b) ss SH ltac:(lia)) as (tqs & EC & _ & PT & COV & PE).
    rewrite EC in E. cbn [bind] in E. destruct (mapM (multi_tree mcn lp c b) (map fst tqs)) as [rs|] eqn:EM; [|discriminate]. cbn [bind flat_map fst snd] in E. rewrite !app_nil_r in E. inversion E; subst dn fw. clear E.
    (* one tree of the result *)
    assert (TREE : forall s, In s ss -> exists t vs, In (t, W ss s) tqs /\ ents t = map vent vs /\ Forall (fun v => In v l) vs /\
       zsum (map vc vs) = Z.of_nat (length (filter (fun x => str_eqb (W ss x) (W ss s)) ss)) /\ (forall vi, In vi l -> vst vi (TX s) -> In vi vs) /\
       transfer b t = Ok (map (fun vi => (pc vi, vi)) vs, zsum (map vc vs), List.concat (preA ++ W ss s :: postB))).
    { intros s I. destruct (COV s I) as (t & It). destruct (PT t _ It) as (SH' & _ & PAT). exists t.
      assert (SUB : Forall (fun e => In e (map vent l)) (ents t)).
      { apply Forall_forall. intros e Ie. eapply Permutation_in; [exact T4|]. eapply Permutation_in; [exact PE|]. apply in_flat_map. exists t. split; [apply in_map_iff; exists (t, W ss s); auto|exact Ie]. }
      destruct (pick_vis l _ SUB) as (vs & V1 & V2). exists vs.
      assert (LEN : length vs = length (filter (fun x => str_eqb (W ss x) (W ss s)) ss)).
      { assert (X : Permutation (map e_pieces (ents t)) (map (fun x => preA ++ Pc (G x) :: postB) (filter (fun x => str_eqb (W ss x) (W ss s)) ss))).
        { eapply fshape_pcs; [| |exact SH'].
          - intros y Y. apply Y.
          - intros l1 x y [_ OX] X Y. rewrite Forall_forall in OX. apply (gp_inj r ga gb G FM); auto. }
        apply Permutation_length in X. rewrite !map_length, V1, map_length in X. exact X. }
      assert (NV : NoDup vs). { destruct SH' as ((TK & _) & _). destruct TK as (_ & TK & _). apply ents_NoDup in TK. rewrite V1, map_map in TK. apply NoDup_map_inv in TK. exact TK. }
      split; [exact It|]. split; [exact V1|]. split; [exact V2|]. split.
      { rewrite <- LEN. clear - V2 H1. induction V2 as [|x vs I V2 IH]; [reflexivity|]. cbn [map zsum fold_right length]. change (fold_right Z.add 0%Z (map vc vs)) with (zsum (map vc vs)). rewrite IH, (proj1 (H1 x I)). lia. }
      split.
      { intros vi Iv Sv. assert (X : exists e, In e (ents t) /\ e_pieces e = preA ++ Pc (G s) :: postB). { apply SH'. exists s. split; [apply filter_In; rewrite str_eqb_eq; auto|reflexivity]. }
        destruct X as (e & E1 & E2). rewrite V1 in E1. apply in_map_iff in E1. destruct E1 as (w & <- & Iw). rewrite Forall_forall in V2.
        assert (w = vi) as <-; [|exact Iw]. destruct (H1 w (V2 w Iw)) as (_ & s' & S1 & S2). rewrite (PATH w s' S1 S2) in E2. apply app_inv_head in E2. injection E2 as E2.
        assert (s' = s) as -> by (apply (gp_inj r ga gb G FM); auto). apply (NoDup_map_in _ _ pc l); [exact ND|apply V2; exact Iw|exact Iv|]. rewrite (vst_pc sv ok w _ S2), (vst_pc sv ok vi _ Sv). reflexivity. }
      apply (transfer_ok sv ok SVP l VG ND b t vs _ OB V1 V2 NV). intros nodes In'. pose proof (PAT nodes In') as X. destruct nodes; [discriminate X|]. cbn [map tl] in *. injection X as _ X. exact X. }
    split.
    - intros s I K. destruct (TREE s I) as (t & vs & It & _ & _ & ZS & MEM & TR). destruct (H2 s I) as (vi & V1 & V2).
      destruct (mapM_in _ _ _ _ _ t EM) as (x & X1 & X2). { apply in_map_iff. exists (t, W ss s). auto. }
      apply in_flat_map. exists x. split; [exact X2|]. unfold multi_tree in X1. rewrite TR in X1. cbn [bind] in X1. pose proof (kd_part_big mcn r ga gb G FM Bs (cls_eqb c CLdsf) ss s OS I K) as PB. rewrite ZS in X1. rewrite (proj2 (Z.ltb_ge _ _) PB) in X1. inversion X1; subst x. cbn [fst].
      rewrite map_map. apply in_map_iff. exists vi. cbn [fst]. split; [rewrite (vst_pc sv ok vi _ V2); reflexivity|apply MEM; assumption].
    - intros vi s Iv I Sv K. destruct (TREE s I) as (t & vs & It & _ & _ & ZS & MEM & TR).
      destruct (mapM_in _ _ _ _ _ t EM) as (x & X1 & X2). { apply in_map_iff. exists (t, W ss s). auto. }
      apply in_flat_map. exists x. split; [exact X2|]. unfold multi_tree in X1. rewrite TR in X1. cbn [bind] in X1. rewrite ZS in X1.
      assert (PL : filter (fun x => str_eqb (W ss x) (W ss s)) ss = [s]) by (eapply (kd_part_lit mcn M2 r ga gb G FM Bs (cls_eqb c CLdsf)); eassumption). rewrite PL in X1. cbn [length] in X1. rewrite (proj2 (Z.ltb_lt (Z.of_nat 1) mcn)) in X1 by lia. inversion X1; subst x. cbn [snd].
      rewrite map_map. apply in_map_iff. exists vi. cbn [snd]. split; [reflexivity|apply MEM; assumption].
  Qed.
End RS.
