(** The clusters that work on views, when their input comes in another order. *)
From Coq Require Import String.
From Verif Require Import PyStr Defs ParseUtils Views Trees Cluster AnyOrder Spec Observe PyStrProofs DefsProofs DictProofs PieceProofs LengthProofs GroupProofs TreeProofs TokProofs LengthStage PieceStage EntProofs GenCluster FlatCluster KeyProofs MultiStage AnyBase AnyLevel AnyGen AnyFlat.
From Coq Require Import Lia Permutation.

Lemma mapM_rel : forall A B C D (R : A -> B -> Prop) (Q : C -> D -> Prop) (f : A -> res C) (g : B -> res D) l l' ys,
  PL R l l' -> mapM f l = Ok ys -> (forall x y a, In x l -> In y l' -> R x y -> f x = Ok a -> exists b, g y = Ok b /\ Q a b) ->
  exists zs, mapM g l' = Ok zs /\ PL Q ys zs.
Proof. intros A B C D R Q f g l l' ys H1 H2 H3. exact (mapM_any _ _ _ _ R Q f g l l' ys H1 H3 H2). Qed.

Section MS.
  Context (mcn : Z) (M2 : (2 <= mcn)%Z) (last_path : bool) (c : cls) (sv : str -> list str) (ok : str -> Prop).
  Context (SVL : forall s, all_legal s -> ok s -> Forall all_legal (sv s)).
  Context (SVN : forall s, all_legal s -> ok s -> sv s <> []).
  Context (SVP : forall s, all_legal s -> ok s -> List.concat (map (fun t => piece (pp_of t)) (sv s)) = piece (pp_of s)).
  Context (SVK : forall s t, all_legal s -> ok s -> all_legal t -> ok t ->
             view_key (map vpart (sv s)) = view_key (map vpart (sv t)) -> map cset (sv s) = map cset (sv t)).
  Notation inner := (fun (d : nat) (kw : bool) (t : tree) => cluster_n 1 mcn d d kw t).
  Notation inner' := (fun (d : nat) (kw : bool) (t : tree) => cluster_n_any 1 mcn d d kw t).
  Notation vst := (vst sv ok).
  Notation vgood := (vgood sv ok).

  Lemma vEq_vst : forall x y s, vEq x y -> vst x s -> vst y s.
  Proof. intros x y s [E1 (E2 & _)] (A & B & C & D). split; [exact A|]. split; [exact B|]. split; congruence. Qed.
  Lemma vEq_vc : forall x y, vEq x y -> vc x = vc y.
  Proof. intros x y [_ (_ & _ & E)]. exact E. Qed.
  Lemma vEq_pc : forall x y, vEq x y -> pc x = pc y.
  Proof. intros x y [_ E]. apply iEq_piece. exact E. Qed.
  Lemma vEq_key : forall x y, vEq x y -> vkey x = vkey y.
  Proof. intros x y [E _]. unfold vkey. rewrite E. reflexivity. Qed.
  Lemma vEq_ent : forall x y, vEq x y -> vent x = vent y.
  Proof. intros x y E. unfold vent. rewrite (vEq_vc x y E). destruct E as [-> _]. reflexivity. Qed.
  Lemma vEq_good : forall x y, vEq x y -> vgood x -> vgood y.
  Proof. intros x y E [(s & S) P]. split; [exists s; exact (vEq_vst x y s E S)|]. rewrite <- (vEq_vc x y E). exact P. Qed.
  Lemma vEq_forward : forall x y, vEq x y -> dEq (forward last_path c x) (forward last_path c y).
  Proof. intros x y [E1 E2]. split; [|exact E2]. cbn [forward fst]. destruct E2 as (E2 & _). rewrite E1, E2. reflexivity. Qed.

  Definition rSim (a b : done * list (dest * Cluster.item)) : Prop := Permutation (fst a) (fst b) /\ PL dEq (snd a) (snd b).
  Definition lgood (ls : list vitem) : Prop := ls <> [] /\ Forall vgood ls /\ NoDup (map pc ls) /\ forall x y, In x ls -> In y ls -> vkey x = vkey y.
  Lemma lgood_any : forall ls ls', PL vEq ls ls' -> lgood ls -> lgood ls'.
  Proof.
    intros ls ls' H (N & G & D & K). split; [|split; [|split]].
    - intros ->. apply N. apply PL_length in H. destruct ls; [reflexivity|discriminate].
    - eapply (PL_Forall vEq); [exact H|exact vEq_good|exact G].
    - eapply Permutation_NoDup; [apply (PL_map_eq vEq _ pc pc); [exact H|exact vEq_pc]|exact D].
    - intros x y X Y. destruct (PL_in_r vEq _ _ x H X) as (x0 & X0 & EX). destruct (PL_in_r vEq _ _ y H Y) as (y0 & Y0 & EY).
      rewrite <- (vEq_key _ _ EX), <- (vEq_key _ _ EY). apply K; assumption.
  Qed.
  Lemma bucket_inv : forall ls ls' b b' x o, lgood ls -> PL vEq ls ls' -> vfold ls = Some b -> vfold ls' = Some b' ->
    multi_bucket mcn inner last_path c b = Ok x -> multi_bucket_any mcn inner' last_path c b' o -> exists y, o = Ok y /\ rSim x y.
  Proof.
    intros ls ls' b b' x o LG H EB EB' E A. pose proof (lgood_any ls ls' H LG) as (N' & G' & D' & K'). destruct LG as (N & G & D & K).
    destruct (vfold_spec ls b EB D) as (OB & CB & _). destruct (vfold_spec ls' b' EB' D') as (OB' & CB' & _).
    assert (CC : zsum (map vc ls') = zsum (map vc ls)). { apply zsum_perm. symmetry. apply (PL_map_eq vEq); [exact H|exact vEq_vc]. }
    unfold multi_bucket in E. unfold multi_bucket_any in A. rewrite CB in E. rewrite CB', CC in A. destruct (zsum (map vc ls) <? mcn)%Z.
    { apply (f_equal (fun r => match r with Ok y => y | Err _ => x end)) in E. cbv beta iota in E. subst x. unfold just in A. eexists. split; [exact A|]. split; [constructor|]. cbn [snd].
      rewrite OB, OB', !map_map. cbn [snd]. eapply PL_map; [exact H|exact vEq_forward]. }
    destruct (bucket_tree sv ok SVL SVN SVP SVK ls N G D K b EB) as (Cs & CSN & CSA & DEP & T1 & T2 & T3).
    destruct (bucket_tree sv ok SVL SVN SVP SVK ls' N' G' D' K' b' EB') as (Cs' & _ & CSA' & DEP' & T1' & T2' & T3').
    assert (CE : Cs' = Cs).
    { destruct ls as [|v ls0]; [congruence|]. assert (Iv : In v (v :: ls0)) by (left; reflexivity). rewrite Forall_forall in G. destruct (G v Iv) as [(s & S) _].
      destruct (PL_in vEq _ _ v H Iv) as (w & Iw & EW). rewrite <- (CSA v s Iv S). symmetry. apply (CSA' w s Iw). exact (vEq_vst v w s EW S). }
    subst Cs'.
    assert (PE : Permutation (map vent ls) (map vent ls')) by (apply (PL_map_eq vEq); [exact H|exact vEq_ent]).
    assert (FU : forall t l, tok (fV Cs) (length Cs) 0 t -> t_val t = empty_parsed_piece -> Permutation (ents t) (map vent l) -> vfull Cs t).
    { clear. intros t l A B C. split; [exact A|]. split; [exact B|]. apply Forall_forall. intros e I. apply (Permutation_in _ C) in I. apply in_map_iff in I. destruct I as (v & <- & _). reflexivity. }
    assert (TS : tSame (vb_root b) (vb_root b')).
    { split; [congruence|]. intros e. assert (X : Permutation (ents (vb_root b)) (ents (vb_root b'))) by (rewrite T3, T3'; exact PE). split; apply Permutation_in; [exact X|symmetry; exact X]. }
    assert (PN : length (paths (vb_root b')) = length (paths (vb_root b))).
    { rewrite <- !ents_len. rewrite (Permutation_length T3), (Permutation_length T3'), !map_length. symmetry. exact (PL_length vEq _ _ H). }
    rewrite DEP in E. destruct A as (a & A1 & A2). rewrite DEP' in A1. cbn [cluster_n cluster_n_any] in E, A1. rewrite PN in A1.
    destruct (flat_cluster mcn M2 (fun (d : nat) (kw : bool) (t : tree) => Err EFuel) Cs CSN (length Cs) (cls_eqb c CLdsf) (S (length (paths (vb_root b)))) (vb_root b)) as (tps & E1 & P1 & _ & _);
      [lia|exact T1|exact T2|exact (proj2 (proj2 (FU _ _ T1 T2 T3)))|].
    destruct (flat_inv mcn M2 (fun (d : nat) (kw : bool) (t : tree) => Err EFuel) (fun (d : nat) (kw : bool) (t : tree) => just (Err EFuel)) (fun _ _ _ => eq_refl) Cs CSN (length Cs) (cls_eqb c CLdsf)
      (S (length (paths (vb_root b)))) (vb_root b) (vb_root b') (map fst tps) a (FU _ _ T1 T2 T3) (FU _ _ T1' T2' T3') TS E1 A1) as (ts' & -> & HT).
    rewrite E1 in E. cbn [bind] in E. unfold just in A2.
    destruct (mapM (multi_tree mcn last_path c b) (map fst tps)) as [rs|] eqn:EM; [|discriminate]. cbn [bind] in E.
    destruct (mapM_rel _ _ _ _ _ rSim _ (multi_tree mcn last_path c b') _ _ rs HT EM) as (rs' & ER & HR).
    2: { rewrite ER in A2. cbn [bind] in A2. eexists. split; [exact A2|]. apply (f_equal (fun r => match r with Ok y => y | Err _ => x end)) in E. cbv beta iota in E. subst x. split; cbn [fst snd].
         - apply (PL_flat_map_perm rSim); [exact HR|]. intros y z Y. apply Y.
         - eapply PL_flat_map; [exact HR|]. intros y z Y. apply Y. }
    intros t1 w y U W (FA & FB & EQ & Ps & HP & HP') EY.
    assert (SUB : Forall (fun e => In e (map vent ls)) (ents t1)).
    { apply Forall_forall. intros e I. eapply Permutation_in; [exact T3|]. eapply Permutation_in; [exact P1|]. apply in_flat_map. exists t1. auto. }
    assert (SUB' : Forall (fun e => In e (map vent ls')) (ents w)).
    { apply Forall_forall. intros e I. eapply Permutation_in; [exact PE|]. rewrite Forall_forall in SUB. apply SUB. apply EQ. exact I. }
    destruct (pick_vis ls _ SUB) as (vs & V1 & V2). destruct (pick_vis ls' _ SUB') as (vs' & V1' & V2').
    assert (ND : forall t l, vfull Cs t -> ents t = map vent l -> NoDup (map vent l)).
    { clear. intros t l ((_ & W & _) & _) X. apply ents_NoDup in W. rewrite X in W. apply NoDup_map_inv in W. exact W. }
    pose proof (ND t1 vs FA V1) as NV. pose proof (ND w vs' FB V1') as NV'.
    assert (VV : PL vEq vs vs').
    { apply (PL_key _ _ _ vent vent); [exact NV|exact NV'|rewrite <- V1, <- V1'; exact EQ|]. intros p q Ip Iq Epq. rewrite Forall_forall in V2, V2'.
      destruct (PL_in_r vEq _ _ q H (V2' q Iq)) as (r & Ir & Er). rewrite <- (vEq_ent r q Er) in Epq.
      assert (p = r) as ->; [|exact Er]. apply (NoDup_map_in _ _ pc ls); [exact D|auto|exact Ir|].
      rewrite <- (path_key sv ok SVP ls G p), <- (path_key sv ok SVP ls G r) by auto. unfold vent in Epq. inversion Epq. reflexivity. }
    assert (TP : forall t, (forall nodes, In nodes (paths t) -> map t_pattern nodes = Ps) -> forall nodes, In nodes (paths t) -> map t_pattern (tl nodes) = tl Ps).
    { clear. intros t X nodes I. rewrite <- (X nodes I). destruct nodes; reflexivity. }
    unfold multi_tree in *.
    rewrite (transfer_ok sv ok SVP ls G D b t1 vs (tl Ps) OB V1 V2 (NoDup_map_inv _ _ NV) (TP t1 HP)) in EY.
    rewrite (transfer_ok sv ok SVP ls' G' D' b' w vs' (tl Ps) OB' V1' V2' (NoDup_map_inv _ _ NV') (TP w HP')). cbn [bind] in *.
    assert (CV : zsum (map vc vs') = zsum (map vc vs)). { apply zsum_perm. symmetry. apply (PL_map_eq vEq); [exact VV|exact vEq_vc]. }
    rewrite CV. destruct (zsum (map vc vs) <? mcn)%Z; apply (f_equal (fun r => match r with Ok y => y | Err _ => y end)) in EY; cbv beta iota in EY; subst y; (eexists; split; [reflexivity|]); split; cbn [fst snd].
    - constructor.
    - rewrite !map_map. cbn [snd]. eapply PL_map; [exact VV|exact vEq_forward].
    - rewrite !map_map. cbn [fst]. apply (PL_map_eq vEq); [exact VV|]. intros p q Epq. rewrite (vEq_pc p q Epq). reflexivity.
    - apply PL_nil.
  Qed.

  Lemma multi_keeps : forall l, Forall vgood l -> NoDup (map pc l) -> multi_inv mcn inner inner' last_path c l.
  Proof.
    intros l G ND l' d f r H E A. unfold multi_stage in E. unfold multi_any in A.
    assert (G' : Forall vgood l') by (eapply (PL_Forall vEq); [exact H|exact vEq_good|exact G]).
    rewrite (foldM_pure _ _ multi_add (fun d vi => dset str_eqb (vkey vi) (step (dget str_eqb (vkey vi) d) vi) d)) in E.
    2: { intros d1 vi I. apply (multi_add_pure sv ok SVN). rewrite Forall_forall in G. auto. }
    rewrite (foldM_pure _ _ multi_add (fun d vi => dset str_eqb (vkey vi) (step (dget str_eqb (vkey vi) d) vi) d)) in A.
    2: { intros d1 vi I. apply (multi_add_pure sv ok SVN). rewrite Forall_forall in G'. auto. }
    cbn [bind] in E. destruct A as (a & A1 & A2). unfold just in A1. subst a.
    fold (gfold str_eqb vkey step l []) in E. fold (gfold str_eqb vkey step l' []) in A2.
    destruct A2 as (a & A2 & A3).
    assert (HD : PL (fun x y => fst x = fst y /\ exists ls ls', lgood ls /\ PL vEq ls ls' /\ vfold ls = Some (snd x) /\ vfold ls' = Some (snd y))
      (gfold str_eqb vkey step l []) (gfold str_eqb vkey step l' [])).
    { assert (DN : forall q, NoDup (map fst (gfold str_eqb vkey step q []))) by (intros q; apply gfold_NoDup; [exact str_eqb_iff|constructor]).
      assert (DG : forall q k b, In (k, b) (gfold str_eqb vkey step q []) -> vfold (filter (fun x => str_eqb k (vkey x)) q) = Some b).
      { intros q k b I. apply (dget_in str_eqb str_eqb_iff) in I; [|apply DN]. rewrite gfold_get in I by exact str_eqb_iff. exact I. }
      apply (PL_dict _ _ _ (fun b b' => exists ls ls', lgood ls /\ PL vEq ls ls' /\ vfold ls = Some b /\ vfold ls' = Some b')); [apply DN|apply DN| |].
      - intros k. rewrite !gfold_keys by exact str_eqb_iff. cbn [map In].
        assert (X : Permutation (map vkey l) (map vkey l')) by (apply (PL_map_eq vEq); [exact H|exact vEq_key]).
        split; (intros [[]|I]; right; eapply Permutation_in; [|exact I]); [exact X|symmetry; exact X].
      - intros k b b' I I'. apply DG in I, I'. eexists. eexists. split; [|split; [|split; [exact I|exact I']]].
        + split; [intros X; rewrite X in I; discriminate|]. split; [|split].
          * apply Forall_forall. intros x X. apply filter_In in X. rewrite Forall_forall in G. apply G. apply X.
          * clear - ND. induction l as [|x l IH]; [constructor|]. cbn [map] in ND. inversion ND as [|? ? N ND']; subst. cbn [filter]. destruct (str_eqb k (vkey x)); [|auto].
            cbn [map]. constructor; [|auto]. intros I. apply N. apply in_map_iff in I. destruct I as (y & Y1 & Y2). apply filter_In in Y2. apply in_map_iff. exists y. split; [exact Y1|apply Y2].
          * intros x y X Y. apply filter_In in X, Y. destruct X as [_ X], Y as [_ Y]. apply str_eqb_eq in X, Y. congruence.
        + apply PL_filter; [exact H|]. intros x y XY. rewrite (vEq_key x y XY). reflexivity. }
    destruct (mapM (fun kb : str * vbucket => multi_bucket mcn inner last_path c (snd kb)) (gfold str_eqb vkey step l [])) as [rs|] eqn:EM; [|discriminate]. cbn [bind] in E.
    destruct (mapR_rel _ _ _ _ _ rSim _ _ _ _ rs a HD EM A2) as (rs' & -> & HR).
    { intros kb kb' x o _ _ (_ & ls & ls' & L1 & L2 & L3 & L4) EX O. exact (bucket_inv ls ls' (snd kb) (snd kb') x o L1 L2 L3 L4 EX O). }
    unfold just in A3. apply (f_equal (fun r => match r with Ok y => y | Err _ => (d, f) end)) in E. cbv beta iota in E. inversion E; subst d f. eexists. eexists. split; [exact A3|]. split.
    - apply (PL_flat_map_perm rSim); [exact HR|]. intros y z Y. apply Y.
    - eapply PL_flat_map; [exact HR|]. intros y z Y. apply Y.
  Qed.
End MS.
