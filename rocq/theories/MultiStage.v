(** The clusters that work on views: what is finished, what is passed on, and why
    no text outside of a finished part fits its patterns. *)
From Coq Require Import String.
From Verif Require Import PyStr Defs ParseUtils Views Trees Cluster Spec Observe PyStrProofs DefsProofs DictProofs RegexProofs PieceProofs LengthProofs GroupProofs TreeProofs TokProofs LengthStage PieceStage EntProofs GenCluster FlatCluster ViewProofs KeyProofs.
From Coq Require Import Lia Permutation.

Lemma NoDup_map_on : forall A B (f : A -> B) l, NoDup l -> (forall x y, In x l -> In y l -> f x = f y -> x = y) -> NoDup (map f l).
Proof.
  intros A B f l ND. induction ND as [|x l N ND IH]; intros H; [constructor|]. cbn [map]. constructor.
  - intros I. apply in_map_iff in I. destruct I as (y & E & I). apply N. rewrite (H x y); cbn; auto.
  - apply IH. intros. apply H; cbn; auto.
Qed.
Lemma NoDup_map_in : forall A B (f : A -> B) l x y, NoDup (map f l) -> In x l -> In y l -> f x = f y -> x = y.
Proof.
  intros A B f l x y. induction l as [|z l IH]; intros ND X Y E; [destruct X|]. cbn [map] in ND. inversion ND as [|? ? N ND']; subst.
  destruct X as [->|X], Y as [->|Y]; auto.
  - exfalso. apply N. apply in_map_iff. exists y. auto.
  - exfalso. apply N. apply in_map_iff. exists x. auto.
Qed.

Notation vitem := (list parsed_piece * Cluster.item)%type.
Definition pc (vi : vitem) : str := it_piece (snd vi).
Definition vc (vi : vitem) : Z := it_count (snd vi).
Definition vkey (vi : vitem) : str := view_key (fst vi).
Definition kvof (vi : vitem) : list (parsed_piece * option str) * Z * (option (list str) -> option (list str)) :=
  (map (fun p => (p, None)) (fst vi), vc vi, add_meta None).
Definition vent (vi : vitem) : entry := (fst vi, vc vi, None).
Lemma kv_ent_kvof : forall vi, kv_ent (kvof vi) = vent vi.
Proof. intros vi. unfold kv_ent, kvof, vent. cbn [fst snd add_meta]. rewrite map_map. cbn [fst]. rewrite map_id. reflexivity. Qed.

Section MS.
  Context (mcn : Z) (M2 : (2 <= mcn)%Z) (last_path : bool) (c : cls) (sv : str -> list str) (ok : str -> Prop).
  Context (SVL : forall s, all_legal s -> ok s -> Forall all_legal (sv s)).
  Context (SVN : forall s, all_legal s -> ok s -> sv s <> []).
  Context (SVP : forall s, all_legal s -> ok s -> List.concat (map (fun t => piece (pp_of t)) (sv s)) = piece (pp_of s)).
  Context (SVK : forall s t, all_legal s -> ok s -> all_legal t -> ok t ->
             view_key (map vpart (sv s)) = view_key (map vpart (sv t)) -> map cset (sv s) = map cset (sv t)).
  Notation inner := (fun (d : nat) (kw : bool) (t : tree) => cluster_n 1 mcn d d kw t).

  Definition vst (vi : vitem) (s : str) : Prop :=
    all_legal s /\ ok s /\ fst vi = map vpart (sv s) /\ it_pp (snd vi) = pp_of s.
  Definition vgood (vi : vitem) : Prop := (exists s, vst vi s) /\ (0 < vc vi)%Z.

  Definition step (o : option vbucket) (vi : vitem) : vbucket :=
    let b := match o with Some b => b | None => VB (length (fst vi)) [] 0 new_root end in
    VB (vb_depth b) (dset str_eqb (pc vi) vi (vb_objs b)) (vb_count b + vc vi)
       (fst (build (vb_root b) (map (fun p => (p, None)) (fst vi)) (vc vi) (add_meta None) None)).
  Lemma multi_add_pure : forall d vi, vgood vi -> multi_add d vi = Ok (dset str_eqb (vkey vi) (step (dget str_eqb (vkey vi) d) vi) d).
  Proof.
    intros d vi [(s & L & O & F & _) _]. unfold multi_add, vb_add, build_from_parsed_pieces. fold (vkey vi).
    assert (N : map (fun p : parsed_piece => (p, @None str)) (fst vi) <> []).
    { rewrite F, map_map. intros E. apply map_eq_nil in E. exact (SVN s L O E). }
    set (b := match dget str_eqb (vkey vi) d with Some b => b | None => VB (length (fst vi)) [] 0 new_root end).
    destruct (build_some (add_meta None) (it_count (snd vi)) _ (vb_root b) None N) as [x X].
    destruct (build (vb_root b) (map (fun p : parsed_piece => (p, None)) (fst vi)) (it_count (snd vi)) (add_meta None) None) as [t o] eqn:EB.
    cbn [snd] in X. subst o. cbn [bind fst andb]. do 3 f_equal. unfold step. fold b. f_equal. unfold vc. rewrite EB. reflexivity.
  Qed.
  Definition vfold (ls : list vitem) : option vbucket := fold_left (fun o y => Some (step o y)) ls None.
  Lemma vfold_snoc : forall ls x, vfold (ls ++ [x]) = Some (step (vfold ls) x).
  Proof. intros. unfold vfold. rewrite fold_left_app. reflexivity. Qed.
  Lemma vfold_root : forall ls, option_map vb_root (vfold ls) = fold_left (fun o kv => Some (addp o kv)) (map kvof ls) None.
  Proof.
    intros ls. induction ls as [|x ls IH] using rev_ind; [reflexivity|]. rewrite vfold_snoc, map_app, fold_left_app. cbn [map fold_left]. rewrite <- IH.
    cbn [option_map]. f_equal. unfold step, addp, kvof. cbn [fst snd vb_root]. destruct (vfold ls); reflexivity.
  Qed.
  Lemma vfold_spec : forall ls b, vfold ls = Some b -> NoDup (map pc ls) ->
    vb_objs b = map (fun vi => (pc vi, vi)) ls /\ vb_count b = zsum (map vc ls)
    /\ exists x, In x ls /\ vb_depth b = length (fst x).
  Proof.
    intros ls. induction ls as [|x ls IH] using rev_ind; intros b E ND; [discriminate|]. rewrite vfold_snoc in E. inversion E as [E1]; clear E E1.
    rewrite map_app in ND. cbn [map] in ND. pose proof (NoDup_app_l _ _ _ ND) as ND1. apply NoDup_remove_2 in ND. rewrite app_nil_r in ND.
    unfold step. cbn [vb_objs vb_count vb_depth]. rewrite !map_app. cbn [map]. rewrite zsum_app. cbn [zsum fold_right].
    destruct (vfold ls) as [b0|] eqn:EF.
    - destruct (IH b0 eq_refl ND1) as (A & B & y & Y1 & Y2). rewrite A, B. split; [|split].
      + apply dset_append. apply dget_none; [exact str_eqb_iff|]. rewrite map_map. cbn [fst]. exact ND.
      + lia.
      + exists y. split; [apply in_app_iff; auto|exact Y2].
    - assert (ls = []) as ->. { destruct ls as [|y ls] using rev_ind; [reflexivity|]. rewrite vfold_snoc in EF. discriminate. }
      cbn [vb_objs vb_count vb_depth map app zsum fold_right]. split; [reflexivity|]. split; [lia|]. exists x. split; [left; reflexivity|reflexivity].
  Qed.

  (** parts that are finished, with their patterns; the rest is passed on *)
  Definition pdone (p : list vitem * list str) : done := map (fun vi => (c, pc vi, List.concat (snd p))) (fst p).
  Definition mspec (l : list vitem) (dn : done) (fw : list (dest * Cluster.item)) : Prop :=
    exists (parts : list (list vitem * list str)) (fwl : list vitem),
      Permutation l (flat_map fst parts ++ fwl)
      /\ Permutation dn (flat_map pdone parts)
      /\ Permutation fw (map (forward last_path c) fwl)
      /\ Forall (fun p => ((mcn <= zsum (map vc (fst p)))%Z /\ tightS (fun es => exists vi s, In vi (fst p) /\ vst vi s /\ es = sv s) (snd p)) /\
           (forall vi s, In vi (fst p) -> vst vi s -> fits (sv s) (snd p) /\
              (c = CLdsf -> exists x, nth_error (sv s) (length (sv s) - 1) = Some x /\ nth_error (snd p) (length (sv s) - 1) = Some (pstr x KLit))) /\
           (forall v1 v2 s, In v1 (fst p) -> In v2 l -> vkey v1 = vkey v2 -> ~ In v2 (fst p) -> vst v2 s -> ~ fits (sv s) (snd p))) parts.

  Lemma vst_fun : forall vi s t, vst vi s -> vst vi t -> s = t.
  Proof. intros vi s t (A & _ & _ & E) (B & _ & _ & E'). apply piece_inj; [assumption..|]. congruence. Qed.
  Lemma vst_pc : forall vi s, vst vi s -> pc vi = piece (pp_of s).
  Proof. intros vi s (_ & _ & _ & E). unfold pc, it_piece. rewrite E. reflexivity. Qed.
  Lemma vst_key : forall v1 v2 s1 s2, vst v1 s1 -> vst v2 s2 -> vkey v1 = vkey v2 -> map cset (sv s1) = map cset (sv s2).
  Proof.
    intros v1 v2 s1 s2 (A & B & C & _) (A' & B' & C' & _) K. unfold vkey in K. rewrite C, C' in K. apply SVK; assumption.
  Qed.

  Section Bucket.
    Context (ls : list vitem) (LN : ls <> []) (G : Forall vgood ls) (ND : NoDup (map pc ls)).
    Context (K : forall x y, In x ls -> In y ls -> vkey x = vkey y).
    Lemma find_vi : forall vi, In vi ls -> dget str_eqb (pc vi) (map (fun vi => (pc vi, vi)) ls) = Some vi.
    Proof.
      intros vi I. apply dget_in; [exact str_eqb_iff|rewrite map_map; cbn [fst]; exact ND|]. apply in_map_iff. exists vi. auto.
    Qed.
    Lemma path_key : forall vi, In vi ls -> List.concat (map piece (fst vi)) = pc vi.
    Proof.
      intros vi I. rewrite Forall_forall in G. destruct (G vi I) as [(s & S) _]. rewrite (vst_pc vi s S). destruct S as (L & O & E & _).
      rewrite E, map_map. rewrite (map_ext _ _ vpart_piece). apply SVP; assumption.
    Qed.
    Lemma pick_vis : forall es, Forall (fun e => In e (map vent ls)) es -> exists vs, es = map vent vs /\ Forall (fun v => In v ls) vs.
    Proof.
      clear. induction 1 as [|e es H F (vs & E & A)]; [exists []; split; [reflexivity|constructor]|].
      apply in_map_iff in H. destruct H as (v & H1 & H2). exists (v :: vs). cbn [map]. subst. split; [reflexivity|constructor; assumption].
    Qed.
    Lemma transfer_ok : forall b t vs Ps, vb_objs b = map (fun vi => (pc vi, vi)) ls -> ents t = map vent vs -> Forall (fun v => In v ls) vs ->
      NoDup vs -> (forall nodes, In nodes (paths t) -> map t_pattern (tl nodes) = Ps) ->
      transfer b t = Ok (map (fun vi => (pc vi, vi)) vs, zsum (map vc vs), List.concat Ps).
    Proof.
      intros b t vs Ps OB EV IN NV PT. unfold transfer.
      assert (F : Forall2 (fun nodes v => ent nodes = vent v /\ In v ls) (paths t) vs).
      { clear - EV IN. unfold ents in EV. revert vs EV IN. induction (paths t) as [|n l IH]; intros [|v vs] EV IN; try discriminate; [constructor|].
        cbn [map] in EV. assert (E1 : ent n = vent v) by congruence. assert (E2 : map ent l = map vent vs) by congruence. inversion IN; subst. constructor; [split; assumption|]. apply IH; assumption. }
      assert (GO : forall ns vs0 done0, Forall2 (fun nodes v => ent nodes = vent v /\ In v ls) ns vs0 -> NoDup (done0 ++ vs0) -> Forall (fun v => In v ls) done0 ->
        foldM (fun (s : list (str * vitem) * Z) nodes =>
               match dget str_eqb (List.concat (map t_piece (tl nodes))) (vb_objs b) with
               | None => Err EKey
               | Some vi => Ok (dset str_eqb (it_piece (snd vi)) vi (fst s), snd s + it_count (snd vi))%Z
               end) ns (map (fun vi => (pc vi, vi)) done0, zsum (map vc done0))
        = Ok (map (fun vi => (pc vi, vi)) (done0 ++ vs0), zsum (map vc (done0 ++ vs0)))).
      { induction ns as [|n ns IH]; intros vs0 done0 F0 N0 I0; inversion F0 as [|? v ? vs1 [E1 E2] F1]; subst; [rewrite app_nil_r; reflexivity|].
        cbn [foldM].
        assert (KE : List.concat (map t_piece (tl n)) = pc v).
        { rewrite <- (path_key v E2). pose proof (f_equal (fun e : entry => fst (fst e)) E1) as E3. cbn [ent vent fst] in E3. rewrite <- E3, map_map. reflexivity. }
        assert (FV : dget str_eqb (pc v) (vb_objs b) = Some v) by (rewrite OB; exact (find_vi v E2)).
        rewrite KE, FV. cbn [bind fst snd]. fold (pc v) (vc v).
        assert (NV0 : ~ In (pc v) (map pc done0)).
        { intros I. apply in_map_iff in I. destruct I as (w & W1 & W2). rewrite Forall_forall in I0.
          assert (w = v) as -> by (eapply (NoDup_map_in _ _ pc ls); eauto). apply NoDup_remove_2 in N0. apply N0. apply in_app_iff. auto. }
        rewrite dset_append by (apply dget_none; [exact str_eqb_iff|rewrite map_map; exact NV0]).
        specialize (IH vs1 (done0 ++ [v]) F1).
        rewrite <- app_assoc in IH. change ([v] ++ vs1) with (v :: vs1) in IH.
        assert (AC : (map (fun vi => (pc vi, vi)) done0 ++ [(pc v, v)], (zsum (map vc done0) + vc v)%Z) = (map (fun vi => (pc vi, vi)) (done0 ++ [v]), zsum (map vc (done0 ++ [v])))).
        { rewrite !map_app, zsum_app. cbn [map zsum fold_right]. rewrite Z.add_0_r. reflexivity. }
        rewrite AC. apply IH; [exact N0|]. apply Forall_app. split; [exact I0|constructor; [exact E2|constructor]]. }
      pose proof (GO (paths t) vs [] F NV (Forall_nil _)) as GO'. cbn [map app] in GO'. change (zsum []) with 0%Z in GO'.
      etransitivity; [apply (f_equal (fun r => '(objs, count) <- r ;; match paths t with [] => Err EAttr | nodes :: _ => Ok (objs, count, List.concat (map t_pattern (tl nodes))) end) GO')|]. cbn [bind].
      destruct (paths t) as [|n r] eqn:EP; [exfalso; exact (paths_nonnil _ EP)|]. rewrite (PT n) by (left; reflexivity). reflexivity.
    Qed.

    Lemma bucket_tree : forall b, vfold ls = Some b -> exists Cs, Cs <> [] /\ (forall vi s, In vi ls -> vst vi s -> map cset (sv s) = Cs)
      /\ vb_depth b = length Cs /\ tok (fV Cs) (length Cs) 0 (vb_root b) /\ t_val (vb_root b) = empty_parsed_piece /\ Permutation (ents (vb_root b)) (map vent ls).
    Proof.
      intros b EB. destruct (vfold_spec ls b EB ND) as (OB & CB & x0 & X1 & X2).
      assert (G' := G). rewrite Forall_forall in G'. destruct (G' x0 X1) as [(s0 & S0) _]. set (Cs := map cset (sv s0)).
      assert (CSN : Cs <> []). { unfold Cs. intros E. apply map_eq_nil in E. destruct S0 as (L & O & _). exact (SVN s0 L O E). }
      assert (CSA : forall vi s, In vi ls -> vst vi s -> map cset (sv s) = Cs).
      { intros vi s I S. apply (vst_key vi x0 s s0 S S0). apply K; assumption. }
      assert (DEP : vb_depth b = length Cs). { rewrite X2. destruct S0 as (_ & _ & E & _). rewrite E. unfold Cs. rewrite !map_length. reflexivity. }
      (* the tree *)
      destruct (adds_ok (fV Cs) (fVfun Cs) (fV0 Cs) (length Cs) (map kvof ls)) as (t & T1 & T2 & T3 & T4).
      { intros kv I. apply in_map_iff in I. destruct I as (vi & <- & I). unfold kvof. cbn [fst snd]. destruct (G' vi I) as [(s & S) P].
        pose proof (CSA vi s I S) as EC. destruct S as (L & O & E & _). split; [rewrite map_length, E, map_length, <- EC, map_length; reflexivity|]. split; [exact P|].
        rewrite E, map_map. clear E. pose proof (SVL s L O) as FL. revert FL EC. generalize (sv s) Cs. clear. intros ss Cs.
        intros FL <-.
        assert (X : forall pre ss, Forall all_legal ss ->
          Forall2 (fun (P : parsed_piece -> Prop) (kv : parsed_piece * option str) => P (fst kv)) (levels (fV (pre ++ map cset ss)) (S (length pre)) (length (map cset ss))) (map (fun x => (vpart x, None)) ss)).
        { clear. intros pre ss. revert pre. induction ss as [|s ss IH]; intros pre F; [constructor|]. inversion F as [|? ? H1 H2]; subst. unfold levels. cbn [map length seq]. constructor.
          - cbn [fst fV]. exists s. split; [exact H1|]. split; [reflexivity|]. rewrite nth_error_app2 by lia. rewrite Nat.sub_diag. reflexivity.
          - specialize (IH (pre ++ [cset s]) H2). rewrite <- app_assoc in IH. cbn [app] in IH. rewrite app_length in IH. cbn [length] in IH. rewrite Nat.add_1_r in IH. exact IH. }
        exact (X [] ss FL). }
      { rewrite map_map. rewrite (map_ext _ (fun vi => map piece (fst vi))).
        2: { intros vi. rewrite kv_ent_kvof. reflexivity. }
        apply NoDup_map_on; [apply NoDup_map_inv in ND; exact ND|]. intros a d A D E. apply (NoDup_map_in _ _ pc ls); [exact ND|assumption..|].
        rewrite <- (path_key a A), <- (path_key d D). congruence. }
      { intros E. apply map_eq_nil in E. exact (LN E). }
      assert (RT : vb_root b = t). { pose proof (vfold_root ls) as X. rewrite EB, T1 in X. cbn in X. congruence. }
      rewrite map_map in T4. rewrite (map_ext _ vent) in T4 by (intros; apply kv_ent_kvof).
      exists Cs. rewrite RT. auto 6.
    Qed.
    Lemma bucket_ok : forall b, vfold ls = Some b -> exists dn fw, multi_bucket mcn inner last_path c b = Ok (dn, fw) /\ mspec ls dn fw.
    Proof.
      intros b EB. destruct (vfold_spec ls b EB ND) as (OB & CB & x0 & X1 & X2). unfold multi_bucket.
      destruct (vb_count b <? mcn)%Z eqn:LT.
      { eexists. eexists. split; [reflexivity|]. exists [], ls. cbn [flat_map app]. split; [apply Permutation_refl|]. split; [apply Permutation_refl|].
        split; [rewrite OB, map_map; apply Permutation_refl|constructor]. }
      clear LT. assert (G' := G). rewrite Forall_forall in G'.
      destruct (bucket_tree b EB) as (Cs & CSN & CSA & DEP & T2 & T3 & T4). remember (vb_root b) as t eqn:RT. clear RT.
      rewrite DEP. cbn [cluster_n].
      destruct (flat_cluster mcn M2 (fun d kw t => Err EFuel) Cs CSN (length Cs) (cls_eqb c CLdsf) (S (length (paths t))) t) as (tps & E & P & F & FO).
      { lia. } { exact T2. } { exact T3. }
      { apply Forall_forall. intros e I. apply (Permutation_in _ T4) in I. apply in_map_iff in I. destruct I as (vi & <- & _). reflexivity. }
      change (fun (d : nat) (kw0 : bool) (t0 : tree) => @Err (list tree) EFuel) with (fun (d : nat) (kw0 : bool) (t0 : tree) => @Err (list tree) EFuel) in E.
      rewrite E. cbn [bind]. clear E.
      (* the members of every tree *)
      assert (SUB : forall tp, In tp tps -> Forall (fun e => In e (map vent ls)) (ents (fst tp))).
      { intros tp I. apply Forall_forall. intros e Ie. eapply Permutation_in; [exact T4|]. eapply Permutation_in; [exact P|].
        apply in_flat_map. exists (fst tp). split; [apply in_map; exact I|exact Ie]. }
      assert (VS : exists vss, Forall2 (fun tp vs => ents (fst tp) = map vent vs /\ Forall (fun v => In v ls) vs /\ NoDup vs) tps vss).
      { assert (SUB' : forall tp, In tp tps -> exists vs, ents (fst tp) = map vent vs /\ Forall (fun v => In v ls) vs /\ NoDup vs).
        { intros tp I. destruct (pick_vis _ (SUB tp I)) as (vs & V1 & V2). exists vs. split; [exact V1|]. split; [exact V2|].
          rewrite Forall_forall in F. destruct (F tp I) as [(_ & W & _) _]. apply ents_NoDup in W. rewrite V1, map_map in W. apply NoDup_map_inv in W. exact W. }
        clear - SUB'. induction tps as [|tp tps IH]; [exists []; constructor|]. destruct (SUB' tp) as [vs V]; [left; reflexivity|].
        destruct IH as [vss V']; [intros; apply SUB'; right; assumption|]. exists (vs :: vss). constructor; assumption. }
      destruct VS as [vss VS].
      assert (MM : mapM (multi_tree mcn last_path c b) (map fst tps)
        = Ok (map (fun tv => if (zsum (map vc (snd tv)) <? mcn)%Z then ([], map (forward last_path c) (snd tv)) else (pdone (snd tv, snd (fst tv)), [])) (combine tps vss))).
      { clear FO P T4 SUB. induction VS as [|tp vs tps vss (V1 & V2 & V3) VS IH]; [reflexivity|]. inversion F as [|? ? (F1 & F2 & _) F3]; subst. cbn [map mapM combine].
        unfold multi_tree at 1. rewrite (transfer_ok b (fst tp) vs (snd tp) OB V1 V2 V3 (proj1 (proj2 F2))). cbn [bind fst snd].
        destruct (zsum (map vc vs) <? mcn)%Z; cbn [bind]; rewrite IH by exact F3; cbn [bind]; do 3 f_equal; unfold pdone; rewrite map_map; reflexivity. }
      rewrite MM. cbn [bind].
      eexists. eexists. split; [reflexivity|].
      set (fin := filter (fun tv : tree * list str * list vitem => negb (zsum (map vc (snd tv)) <? mcn)%Z) (combine tps vss)).
      set (rest := filter (fun tv : tree * list str * list vitem => (zsum (map vc (snd tv)) <? mcn)%Z) (combine tps vss)).
      exists (map (fun tv => (snd tv, snd (fst tv))) fin), (flat_map snd rest).
      assert (PV : Permutation ls (List.concat vss)).
      { assert (EQ : flat_map ents (map fst tps) = map vent (List.concat vss)).
        { clear - VS. induction VS as [|tp vs tps vss (V1 & _) VS IH]; [reflexivity|]. cbn [map flat_map List.concat]. rewrite IH, V1, map_app. reflexivity. }
        symmetry. apply NoDup_Permutation_bis.
        - assert (W : NoDup (map e_pieces (map vent (List.concat vss)))).
          { rewrite <- EQ. apply (Permutation_NoDup (l := map e_pieces (ents t))).
            - apply Permutation_map. symmetry. exact P.
            - destruct T2 as (_ & W & _). apply ents_NoDup in W. exact W. }
          rewrite map_map in W. apply NoDup_map_inv in W. exact W.
        - rewrite <- (map_length vent (List.concat vss)), <- EQ. rewrite (Permutation_length P), (Permutation_length T4), map_length. lia.
        - intros v I. apply in_concat in I. destruct I as (vs & I1 & I2). clear - VS I1 I2.
          induction VS as [|tp vs' tps vss (_ & V2 & _) VS IH]; [destruct I1|]. destruct I1 as [->|I1]; [rewrite Forall_forall in V2; auto|auto]. }
      assert (LEN : length tps = length vss) by (apply Forall2_length in VS; exact VS).
      assert (MS : map snd (combine tps vss) = vss).
      { clear - LEN. revert vss LEN. induction tps as [|x l IH]; intros [|y m] L; try discriminate; [reflexivity|]. cbn [combine map snd]. rewrite IH by (cbn in L; lia). reflexivity. }
      split.
      { rewrite PV. rewrite <- MS at 1. unfold fin, rest. clear. rewrite <- flat_map_concat_map.
        assert (X : forall (l : list (tree * list str * list vitem)), Permutation (flat_map snd l)
          (flat_map fst (map (fun tv => (snd tv, snd (fst tv))) (filter (fun tv : tree * list str * list vitem => negb (zsum (map vc (snd tv)) <? mcn)%Z) l))
           ++ flat_map snd (filter (fun tv : tree * list str * list vitem => (zsum (map vc (snd tv)) <? mcn)%Z) l))).
        { induction l as [|tv l IH]; [constructor|]. cbn [flat_map filter]. destruct (zsum (map vc (snd tv)) <? mcn)%Z; cbn [negb map flat_map fst].
          - rewrite IH. rewrite !app_assoc. apply Permutation_app_tail. apply Permutation_app_comm.
          - rewrite IH. rewrite app_assoc. apply Permutation_refl. }
        apply X. }
      split.
      { unfold fin. clear. rewrite !flat_map_map. induction (combine tps vss) as [|tv l IH]; [constructor|]. cbn [map flat_map filter].
        destruct (zsum (map vc (snd tv)) <? mcn)%Z; cbn [negb fst snd app flat_map]; [exact IH|]. apply Permutation_app_head. exact IH. }
      split.
      { unfold rest. clear. rewrite flat_map_map. induction (combine tps vss) as [|tv l IH]; [constructor|]. cbn [map flat_map filter].
        destruct (zsum (map vc (snd tv)) <? mcn)%Z; cbn [negb fst snd app flat_map]; [|exact IH]. rewrite map_app. apply Permutation_app_head. exact IH. }
      rewrite Forall_map. apply Forall_forall. intros [tp vs] I. cbn [fst snd]. unfold fin in I. apply filter_In in I. destruct I as [I J].
      cbn [snd] in J. apply Bool.negb_true_iff in J. apply Z.ltb_ge in J.
      assert (PROP : ents (fst tp) = map vent vs /\ Forall (fun v => In v ls) vs /\ NoDup vs).
      { clear - VS I. induction VS as [|tp' vs' tps vss H VS IH]; [destruct I|]. destruct I as [I|I]; [inversion I; subst; exact H|auto]. }
      destruct PROP as (V1 & V2 & V3). assert (Itp : In tp tps) by (apply in_combine_l in I; exact I).
      pose proof F as F'. rewrite Forall_forall in F'. destruct (F' tp Itp) as [W [(PL & PP & PF & PK) TI]].
      assert (EST : forall vi s, In vi ls -> vst vi s -> estrs Cs (vent vi) (sv s)).
      { intros vi s Iv S. pose proof (CSA vi s Iv S) as EC. destruct S as (L & O & E & _). split; [exact E|]. split; [apply SVL; assumption|exact EC]. }
      assert (EST2 : forall es, (exists e, In e (ents (fst tp)) /\ estrs Cs e es) <-> exists vi s, In vi vs /\ vst vi s /\ es = sv s).
      { intros es. rewrite V1. rewrite Forall_forall in V2. split.
        - intros (e & I1 & I2). apply in_map_iff in I1. destruct I1 as (vi & <- & I1). destruct (G' vi (V2 vi I1)) as [(s & S) _]. exists vi, s. split; [exact I1|]. split; [exact S|].
          eapply estrs_inj; [exact I2|]. apply EST; auto.
        - intros (vi & s & I1 & I2 & ->). exists (vent vi). split; [apply in_map; exact I1|]. apply EST; auto. }
      split; [split; [exact J|]; intros l q Q; destruct (TI l q Q) as (ss & T5 & T7); exists ss; split; [exact T5|];
        intros s; rewrite T7; split; intros (es & E1 & E2); exists es; (split; [apply EST2; exact E1|exact E2])|]. split.
      - intros vi s Iv S. assert (Il : In vi ls) by (rewrite Forall_forall in V2; auto).
        assert (Ie : In (vent vi) (ents (fst tp))) by (rewrite V1; apply in_map; exact Iv).
        split; [apply (PF (vent vi)); [exact Ie|apply EST; assumption]|].
        intros ->. assert (LS : length (sv s) = length Cs) by (rewrite <- (CSA vi s Il S), map_length; reflexivity). rewrite LS.
        apply (PK eq_refl (vent vi)); [exact Ie|apply EST; assumption].
      - intros v1 v2 s I1 I2 _ NI S FT.
        assert (I2' : exists tp2, In tp2 tps /\ In (vent v2) (ents (fst tp2))).
        { assert (X : In (vent v2) (flat_map ents (map fst tps))).
          { eapply Permutation_in; [symmetry; exact P|]. eapply Permutation_in; [symmetry; exact T4|]. apply in_map. exact I2. }
          apply in_flat_map in X. destruct X as (t2 & X3 & X4). apply in_map_iff in X3. destruct X3 as (tp2 & <- & X3). eauto. }
        destruct I2' as (tp2 & J1 & J2).
        assert (NT : tp2 <> tp).
        { intros ->. apply NI. rewrite V1 in J2. apply in_map_iff in J2. destruct J2 as (w & W1 & W2).
          assert (w = v2) as <-; [|exact W2]. rewrite Forall_forall in V2. apply (NoDup_map_in _ _ pc ls); [exact ND|auto..|].
          rewrite <- (path_key w), <- (path_key v2) by auto. unfold vent in W1. inversion W1. congruence. }
        assert (CL : closed Cs tp tp2 \/ closed Cs tp2 tp).
        { clear - FO Itp J1 NT. induction FO as [|a l H FO IH]; [destruct Itp|]. rewrite Forall_forall in H. destruct Itp as [->|Itp], J1 as [->|J1]; auto. congruence. }
        destruct CL as [[CL _]|[_ CL]]; (eapply CL; [exact J2|apply EST; eassumption|exact FT]).
    Qed.
  End Bucket.

  Lemma mspec_app : forall l1 l2 d1 d2 f1 f2, (forall x y, In x l1 -> In y l2 -> vkey x <> vkey y) ->
    mspec l1 d1 f1 -> mspec l2 d2 f2 -> mspec (l1 ++ l2) (d1 ++ d2) (f1 ++ f2).
  Proof.
    intros l1 l2 d1 d2 f1 f2 NE (p1 & w1 & A1 & B1 & C1 & D1) (p2 & w2 & A2 & B2 & C2 & D2).
    exists (p1 ++ p2), (w1 ++ w2). rewrite !flat_map_app, map_app. split.
    { rewrite A1, A2. rewrite <- !app_assoc. apply Permutation_app_head. rewrite !app_assoc. apply Permutation_app_tail. apply Permutation_app_comm. }
    split; [rewrite B1, B2; apply Permutation_refl|]. split; [rewrite C1, C2; apply Permutation_refl|].
    assert (IN : forall l p w v, Permutation l (flat_map fst p ++ w) -> forall q : list vitem * list str, In q p -> In v (fst q) -> In v l).
    { clear. intros l p w v P q Q V. eapply Permutation_in; [symmetry; exact P|]. apply in_app_iff. left. apply in_flat_map. exists q. auto. }
    apply Forall_app. rewrite Forall_forall in D1, D2. split; apply Forall_forall; intros p I.
    - destruct (D1 p I) as (X & Y & Z). split; [exact X|]. split; [exact Y|]. intros v1 v2 s V1 V2 KK NI S. apply in_app_iff in V2. destruct V2 as [V2|V2]; [eapply Z; eauto|].
      exfalso. exact (NE v1 v2 (IN _ _ _ _ A1 p I V1) V2 KK).
    - destruct (D2 p I) as (X & Y & Z). split; [exact X|]. split; [exact Y|]. intros v1 v2 s V1 V2 KK NI S. apply in_app_iff in V2. destruct V2 as [V2|V2]; [|eapply Z; eauto].
      exfalso. exact (NE v2 v1 V2 (IN _ _ _ _ A2 p I V1) (eq_sym KK)).
  Qed.
  Lemma mspec_perm : forall l l' d f, Permutation l l' -> mspec l d f -> mspec l' d f.
  Proof.
    intros l l' d f P (p & w & A & B & C & D). exists p, w. split; [rewrite <- P; exact A|]. split; [exact B|]. split; [exact C|].
    eapply Forall_impl; [|exact D]. intros q (X & Y & Z). split; [exact X|]. split; [exact Y|]. intros v1 v2 s V1 V2. apply Z; [exact V1|].
    eapply Permutation_in; [symmetry; exact P|exact V2].
  Qed.

  Lemma multi_stage_spec : forall l, Forall vgood l -> NoDup (map pc l) ->
    exists dn fw, multi_stage mcn inner last_path c l = Ok (dn, fw) /\ mspec l dn fw.
  Proof.
    intros l G ND. unfold multi_stage.
    rewrite (foldM_pure _ _ multi_add (fun d vi => dset str_eqb (vkey vi) (step (dget str_eqb (vkey vi) d) vi) d)).
    2: { intros d vi I. apply multi_add_pure. rewrite Forall_forall in G. auto. }
    cbn [bind]. fold (gfold str_eqb vkey step l []). set (d := gfold str_eqb vkey step l []).
    assert (DN : NoDup (map fst d)) by (apply gfold_NoDup; [exact str_eqb_iff|constructor]).
    assert (DK : forall k, In k (map fst d) <-> In k (map vkey l)).
    { intros k. unfold d. rewrite gfold_keys by exact str_eqb_iff. cbn. tauto. }
    assert (DG : forall k b, In (k, b) d -> vfold (filter (fun x => str_eqb k (vkey x)) l) = Some b /\ filter (fun x => str_eqb k (vkey x)) l <> []).
    { intros k b I. apply (dget_in str_eqb str_eqb_iff) in I; [|exact DN]. unfold d in I. rewrite gfold_get in I by exact str_eqb_iff. cbn [dget] in I.
      split; [exact I|]. intros E. rewrite E in I. discriminate. }
    assert (CV : Permutation (flat_map (fun kb : str * vbucket => filter (fun x => str_eqb (fst kb) (vkey x)) l) d) l).
    { rewrite <- (flat_map_map _ _ _ fst (fun k => filter (fun x => str_eqb k (vkey x)) l)). apply cover_perm; [exact str_eqb_iff|exact DN|].
      intros x I. apply DK. apply in_map. exact I. }
    clear DK. clearbody d.
    assert (GO : exists rs, mapM (fun kb => multi_bucket mcn inner last_path c (snd kb)) d = Ok rs
       /\ mspec (flat_map (fun kb : str * vbucket => filter (fun x => str_eqb (fst kb) (vkey x)) l) d) (flat_map fst rs) (flat_map snd rs)).
    { clear CV. induction d as [|[k b] d IH].
      - exists []. split; [reflexivity|]. exists [], []. cbn. repeat (split; [constructor|]). constructor.
      - destruct IH as (rs & R1 & R2). { inversion DN; assumption. } { intros. apply DG. right. assumption. }
        destruct (DG k b) as [V N]; [left; reflexivity|].
        destruct (bucket_ok (filter (fun x => str_eqb k (vkey x)) l) N) with (b := b) as (dn & fw & B1 & B2).
        + apply Forall_forall. intros x I. apply filter_In in I. rewrite Forall_forall in G. apply G. apply I.
        + clear - ND. induction l as [|x l IH]; [constructor|]. cbn [map] in ND. inversion ND as [|? ? N ND']; subst. cbn [filter]. destruct (str_eqb k (vkey x)); [|auto].
          cbn [map]. constructor; [|auto]. intros I. apply N. apply in_map_iff in I. destruct I as (y & Y1 & Y2). apply filter_In in Y2. apply in_map_iff. exists y. split; [exact Y1|apply Y2].
        + intros x y X Y. apply filter_In in X, Y. destruct X as [_ X], Y as [_ Y]. apply str_eqb_eq in X, Y. congruence.
        + exact V.
        + cbn [mapM snd]. rewrite B1. cbn [bind]. rewrite R1. cbn [bind]. eexists. split; [reflexivity|]. cbn [flat_map fst snd].
          apply mspec_app; [|exact B2|exact R2]. intros x y X Y E. apply filter_In in X. destruct X as [_ X]. apply str_eqb_eq in X.
          apply in_flat_map in Y. destruct Y as ([k' b'] & Y1 & Y2). cbn [fst] in Y2. apply filter_In in Y2. destruct Y2 as [_ Y2]. apply str_eqb_eq in Y2.
          inversion DN as [|? ? NK _]; subst. apply NK. apply in_map_iff. exists (vkey y, b'). split; [cbn [fst]; congruence|exact Y1]. }
    destruct GO as (rs & R1 & R2). rewrite R1. cbn [bind]. eexists. eexists. split; [reflexivity|]. eapply mspec_perm; [exact CV|exact R2].
  Qed.
End MS.
