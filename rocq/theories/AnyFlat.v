(** cluster() on the tree of a view, in whatever order sets are gone through. *)
From Coq Require Import String.
From Verif Require Import PyStr Defs ParseUtils Views Trees Cluster AnyOrder Spec Observe PyStrProofs DefsProofs DictProofs PieceProofs LengthProofs GroupProofs TreeProofs TokProofs LengthStage PieceStage EntProofs GenCluster FlatCluster KeyProofs AnyBase AnyLevel AnyGen.
From Coq Require Import Lia Permutation.

(** a level that is finished by the piece cluster *)
Section Lit.
  Context (mcn : Z) (M2 : (2 <= mcn)%Z) (inner : nat -> bool -> tree -> res (list tree)) (inner' : nat -> bool -> tree -> rel (list tree)).
  Context (level : nat) (last_level last_path kw : bool).
  Lemma lit_any : forall ns ns' d0 dn r, ns <> [] -> Forall (fun n => 0 < pn_cnt n)%Z ns -> (level = 0 -> exists n, ns = [n]) -> vals_fun ns -> PL nSim ns ns' ->
    piece_stage mcn level last_level last_path kw ns = Ok (d0, []) -> run_level mcn inner level last_level last_path kw ns = Ok dn ->
    run_any mcn inner' level last_level last_path kw ns' r -> exists dn', r = Ok dn' /\ Permutation dn dn'.
  Proof.
    intros ns ns' d0 dn r NE POS L0 VF H PS RL A.
    assert (MS : forall c, multi_stage mcn inner last_path c [] = Ok ([], [])) by reflexivity.
    destruct (lf_nil mcn M2 level) as (d4 & bs & d5 & E1 & E2 & E3).
    assert (RL' : run_level mcn inner level last_level last_path kw ns = Ok (d0 ++ [] ++ [] ++ [] ++ d4 ++ d5)).
    { unfold run_level. rewrite PS. cbn [bind to_view flat_map app]. rewrite MS. cbn [bind app to_view flat_map]. rewrite MS.
      cbn [bind app to_view flat_map]. rewrite MS. cbn [bind app to_length flat_map]. rewrite E1. cbn [bind]. rewrite E2. reflexivity. }
    rewrite RL' in RL. assert (RE := f_equal (fun x => match x with Ok y => y | Err _ => [] end) RL). cbv beta iota in RE. subst dn.
    apply (run_any_inv mcn M2 inner inner' level last_level last_path kw [] ns ns' d0 [] [] [] [] [] [] [] d4 bs d5 r); try assumption;
      try exact (multi_inv_nil mcn inner inner' last_path _); try reflexivity; cbn [app to_length flat_map map]; try constructor. intros X. congruence.
  Qed.
End Lit.

Section Level.
  Context (mcn : Z) (M2 : (2 <= mcn)%Z) (inner : nat -> bool -> tree -> res (list tree)) (inner' : nat -> bool -> tree -> rel (list tree)).
  Context (level : nat) (last_level last_path kw : bool) (C : list str).
  Lemma flat_any : forall ns ns' dn r, ns <> [] -> (level = 0 -> exists n, ns = [n]) ->
    Forall (fun n => (exists s, all_legal s /\ t_val (pn_tree n) = vpart s /\ cset s = C) /\ (0 < pn_cnt n)%Z) ns -> vals_fun ns -> PL nSim ns ns' ->
    run_level mcn inner level last_level last_path kw ns = Ok dn ->
    run_any mcn inner' level last_level last_path kw ns' r -> exists dn', r = Ok dn' /\ Permutation dn dn'.
  Proof.
    intros ns ns' dn r NE L0 FA VF H RL A.
    assert (POS : Forall (fun n => 0 < pn_cnt n)%Z ns) by (eapply Forall_impl; [|exact FA]; intros n X; apply X).
    destruct (piece_stage_spec mcn M2 level last_level last_path kw ns NE POS L0) as [PS|(L1 & I2 & LK & TOT & PS)].
    { exact (lit_any mcn M2 inner inner' level last_level last_path kw ns ns' _ dn r NE POS L0 VF H PS RL A). }
    assert (FIND : forall i, In i (items ns) -> exists s, all_legal s /\ it_pp i = vpart s /\ cset s = C).
    { intros i I. apply items_bag in I. destruct I as (_ & _ & n & J1 & J2).
      rewrite Forall_forall in FA. destruct (FA n J1) as [(s & A' & B & D) _]. exists s. rewrite J2. auto. }
    assert (TV : forall c, to_view c (passed mcn last_path ns) = []).
    { intros c. unfold passed. revert FIND. generalize (items ns). clear. induction l as [|i l IH]; intros FIND; [reflexivity|].
      destruct (FIND i (or_introl eq_refl)) as (s & _ & E & _). cbn [map to_view flat_map fst]. rewrite E, dest_flat. cbn [app]. apply IH. intros. apply FIND. right. assumption. }
    assert (TL : to_length (passed mcn last_path ns) = items ns).
    { unfold passed. revert FIND. generalize (items ns). clear. induction l as [|i l IH]; intros FIND; [reflexivity|].
      destruct (FIND i (or_introl eq_refl)) as (s & _ & E & _). cbn [map to_length flat_map fst snd]. rewrite E, dest_flat. cbn [app]. f_equal. apply IH. intros. apply FIND. right. assumption. }
    assert (OK : Forall (item_ok (List.concat C)) (items ns)).
    { apply Forall_forall. intros i I. destruct (FIND i I) as (s & SL & S2 & SC). unfold item_ok. rewrite S2, vpart_plen by auto.
      split; [apply vpart_length; auto|]. split; [lia|]. split.
      - intros Z. assert (pl s = 0%N) as Z' by lia. apply pl_zero in Z'. unfold it_piece. rewrite S2, vpart_piece, Z'. reflexivity.
      - split; [rewrite vpart_fuzzy, SC; reflexivity|]. split; [apply (items_pat ns); exact I|].
        pose proof (items_count ns POS) as X. rewrite Forall_forall in X. apply X. exact I. }
    assert (INE : items ns <> []) by (intros E; rewrite E in I2; cbn in I2; lia).
    destruct (lf_spec mcn M2 level L1 (List.concat C) (items ns) INE OK (items_NoDup ns)) as (d4 & bs & d5 & E1 & E2 & _).
    assert (MS : forall c, multi_stage mcn inner last_path c [] = Ok ([], [])) by reflexivity.
    assert (RL' : run_level mcn inner level last_level last_path kw ns = Ok ([] ++ [] ++ [] ++ [] ++ d4 ++ d5)).
    { unfold run_level. rewrite PS. cbn [bind app]. rewrite TV, MS. cbn [bind app]. rewrite app_nil_r, TV, MS.
      cbn [bind app]. rewrite app_nil_r, TV, MS. cbn [bind app]. rewrite app_nil_r, TL, E1. cbn [bind]. rewrite E2. reflexivity. }
    rewrite RL' in RL. assert (RE := f_equal (fun x => match x with Ok y => y | Err _ => [] end) RL). cbv beta iota in RE. subst dn.
    apply (run_any_inv mcn M2 inner inner' level last_level last_path kw (List.concat C) ns ns' [] (passed mcn last_path ns) [] [] [] [] [] [] d4 bs d5 r); try assumption;
      rewrite ?app_nil_r, ?TV, ?TL; try assumption; try exact (multi_inv_nil mcn inner inner' last_path _); try reflexivity.
    - intros _. exact L1.
    - apply items_NoDup.
  Qed.
End Level.

Section Flat.
  Context (mcn : Z) (M2 : (2 <= mcn)%Z) (inner : nat -> bool -> tree -> res (list tree)) (inner' : nat -> bool -> tree -> rel (list tree)).
  Context (IA : forall d kw t, inner' d kw t (inner d kw t)).
  Context (Cs : list (list str)) (CN : Cs <> []) (pd : nat) (kw : bool).
  Notation D := (length Cs).
  Notation fV := (fV Cs).
  Lemma level_vals : forall V : nat -> parsed_piece -> Prop, (forall l a b, V l a -> V l b -> piece a = piece b -> a = b) -> forall level ns, level_ok V level ns -> vals_fun ns.
  Proof.
    intros V Vfun level ns (_ & _ & F) n m N M E. rewrite Forall_forall in F. apply (Vfun level); [apply (F n N)|apply (F m M)|exact E].
  Qed.
  Lemma flat_LA : forall level ns ns' dn r, (level <= D)%nat -> level_ok fV level ns -> PL nSim ns ns' -> rl mcn inner D pd kw level ns = Ok dn ->
     run_any mcn inner' level (D - level =? 0) (pd =? level) kw ns' r -> exists dn', r = Ok dn' /\ Permutation dn dn'.
  Proof.
    intros level ns ns' dn r LD LO H RL A. pose proof (level_vals fV (fVfun Cs) level ns LO) as VF. destruct LO as (NE & L0 & F).
    assert (POS : Forall (fun n => 0 < pn_cnt n)%Z ns) by (eapply Forall_impl; [|exact F]; intros n X; apply X).
    destruct level as [|l].
    - destruct (piece_stage_spec mcn M2 0 (D - 0 =? 0) (pd =? 0) kw ns NE POS L0) as [PS|(L1 & _)]; [|lia].
      exact (lit_any mcn M2 inner inner' 0 _ _ kw ns ns' _ dn r NE POS L0 VF H PS RL A).
    - assert (X : exists C, nth_error Cs l = Some C). { destruct (nth_error Cs l) as [C|] eqn:E; [eauto|]. apply nth_error_None in E. lia. }
      destruct X as [C EC].
      apply (flat_any mcn M2 inner inner' (S l) (D - S l =? 0) (pd =? S l) kw C ns ns' dn r NE L0); [|exact VF|exact H|exact RL|exact A].
      apply Forall_forall. intros n N. rewrite Forall_forall in F. destruct (F n N) as [(s & S1 & S2 & S3) P]. split; [|exact P]. exists s. split; [exact S1|]. split; [exact S2|]. congruence.
  Qed.
  Definition vfull (t : tree) : Prop := tok fV D 0 t /\ t_val t = empty_parsed_piece /\ Forall (fun e => e_meta e = None) (ents t).
  Lemma flat_inv : forall fuel t t' ts r, vfull t -> vfull t' -> tSame t t' ->
    cluster_loop mcn inner fuel D pd kw t = Ok ts -> cluster_loop_any mcn inner' fuel D pd kw t' r -> exists ts', r = Ok ts' /\
    PL (fun a b => vfull a /\ vfull b /\ (forall e, In e (ents a) <-> In e (ents b)) /\
        exists Ps, (forall nodes, In nodes (paths a) -> map t_pattern nodes = Ps) /\ (forall nodes, In nodes (paths b) -> map t_pattern nodes = Ps)) ts ts'.
  Proof.
    exact (loop_inv mcn inner inner' IA fV (fVfun Cs) (fV0 Cs) (fV00 Cs) D pd kw (D1 Cs CN) good (flat_LL mcn M2 inner Cs pd kw) flat_LA nometa nometa_id).
  Qed.
End Flat.
