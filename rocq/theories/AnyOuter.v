(** cluster() on the tree of a maker, in whatever order sets are gone through. *)
From Coq Require Import String.
From Verif Require Import PyStr Defs ParseUtils Views Trees Cluster AnyOrder Spec Observe PyStrProofs DefsProofs DictProofs PieceProofs LengthProofs GroupProofs TreeProofs TokProofs LengthStage PieceStage EntProofs GenCluster FlatCluster ViewProofs KeyProofs TokUniq RouteProofs MultiStage OuterLevel OuterCluster AnyBase AnyLevel AnyGen AnyFlat AnyMulti.
From Coq Require Import Lia Permutation.

Lemma NoDup_app_r : forall A (l m : list A), NoDup (l ++ m) -> NoDup m.
Proof. induction l as [|x l IH]; intros m H; [exact H|]. inversion H. auto. Qed.

Section OL.
  Context (mcn : Z) (M2 : (2 <= mcn)%Z) (level : nat) (last_level lp kw : bool) (C : list str).
  Notation inner := (fun (d : nat) (kw : bool) (t : tree) => cluster_n 1 mcn d d kw t).
  Notation inner' := (fun (d : nat) (kw : bool) (t : tree) => cluster_n_any 1 mcn d d kw t).
  Lemma keeps_base : forall l, Forall (vgood svB okB) l -> NoDup (map pc l) -> multi_inv mcn inner inner' lp CBase l.
  Proof.
    apply (multi_keeps mcn M2 lp CBase svB okB).
    - intros s L _. apply svB_legal. exact L.
    - intros s L O E. unfold svB, g_multi in E. apply map_eq_nil in E. apply map_eq_nil in E. unfold okB in O. rewrite E in O. cbn in O. lia.
    - intros s L O. apply groups_piece; [exact L|apply groups_multi].
    - intros s t L _ L' _ E. apply (key_BB s t L L' E).
  Qed.
  Lemma keeps_mixed : forall l, Forall (vgood svX okX) l -> NoDup (map pc l) -> multi_inv mcn inner inner' lp CMixed l.
  Proof.
    apply (multi_keeps mcn M2 lp CMixed svX okX).
    - intros s L _. apply svX_legal. exact L.
    - intros s L [O _] E. unfold svX in E. apply map_eq_nil in E. pose proof (groups_mixed s) as G. unfold groups in G. rewrite E in G. unfold okB in O. rewrite <- G in O. cbn in O. lia.
    - intros s L O. apply groups_piece; [exact L|apply groups_mixed].
    - intros s t L _ L' _ E. apply (key_XX s t L L' E).
  Qed.
  Lemma keeps_ldsf : forall l, Forall (vgood svL okL) l -> NoDup (map pc l) -> multi_inv mcn inner inner' lp CLdsf l.
  Proof.
    apply (multi_keeps mcn M2 lp CLdsf svL okL).
    - intros s L _. apply svL_legal. exact L.
    - intros s L [O _] E. unfold svL in E. apply map_eq_nil in E. pose proof (groups_ldsf s) as G. unfold groups in G. rewrite E in G. unfold okB in O. rewrite <- G in O. cbn in O. lia.
    - intros s L O. apply groups_piece; [exact L|apply groups_ldsf].
    - intros s t L O L' O' E. apply (key_LL s t L L' O O' E).
  Qed.
  Lemma outer_any : forall ns ns' dn r, ns <> [] -> (level = 0 -> exists n, ns = [n]) ->
    Forall (fun n => (exists s, all_legal s /\ t_val (pn_tree n) = pp_of s /\ cset s = C) /\ (0 < pn_cnt n)%Z) ns -> vals_fun ns -> PL nSim ns ns' ->
    run_level mcn inner level last_level lp kw ns = Ok dn ->
    run_any mcn inner' level last_level lp kw ns' r -> exists dn', r = Ok dn' /\ Permutation dn dn'.
  Proof.
    intros ns ns' dn r NE L0 FA VF H RL A.
    assert (POS : Forall (fun n => 0 < pn_cnt n)%Z ns) by (eapply Forall_impl; [|exact FA]; intros n X; apply X).
    destruct (piece_stage_spec mcn M2 level last_level lp kw ns NE POS L0) as [PS|(L1 & I2 & LK & TOT & PS)].
    { exact (lit_any mcn M2 inner inner' level last_level lp kw ns ns' _ dn r NE POS L0 VF H PS RL A). }
    assert (IS : forall i, In i (items ns) -> exists s, ist i s /\ cset s = C).
    { intros i I. apply items_bag in I. destruct I as (_ & _ & n & J1 & J2). rewrite Forall_forall in FA. destruct (FA n J1) as [(s & X & B & E) _].
      exists s. split; [split; [exact X|congruence]|exact E]. }
    assert (NC : C <> []).
    { intros ->. assert (EM : forall i, In i (items ns) -> it_piece i = []).
      { intros i I. destruct (IS i I) as (s & S & SC). apply cset_nil in SC; [|apply S]. subst s. rewrite (ist_piece i [] S). reflexivity. }
      pose proof (items_NoDup ns) as ND. destruct (items ns) as [|i [|j l]]; cbn in I2; try lia. cbn [map] in ND. inversion ND as [|? ? X _]; subst. apply X. left.
      rewrite (EM i), (EM j) by (cbn; auto). reflexivity. }
    assert (IO : Forall (fun i => (exists s, ist i s /\ s <> [] /\ cset s = C) /\ it_pat i = it_piece i /\ (0 < it_count i)%Z) (items ns)).
    { apply Forall_forall. intros i I. destruct (IS i I) as (s & S & SC). split; [exists s; split; [exact S|]; split; [intros ->; apply NC; rewrite <- SC; reflexivity|exact SC]|].
      split; [apply (items_pat ns); exact I|]. pose proof (items_count ns POS) as X. rewrite Forall_forall in X. apply X. exact I. }
    destruct (stages mcn M2 level lp C (items ns) L1 (items_NoDup ns) IO)
      as (d1 & f1 & d2 & f2 & d3 & f3 & l2 & l3 & p1 & w1 & p2 & w2 & p3 & w3 & E1 & X2 & E2 & X3 & E3 & B1 & B2 & B3 & _ & _ & _ & (N1 & N2 & N3) & PP).
    fold (passed mcn lp ns) in *. set (f0 := passed mcn lp ns) in *. subst l2 l3. set (ll := to_length (f0 ++ f1 ++ f2 ++ f3)) in *.
    assert (IL : incl ll (items ns)). { intros i I. eapply Permutation_in; [symmetry; exact PP|]. rewrite !in_app_iff. auto. }
    assert (NL : NoDup (map it_piece ll)).
    { pose proof (items_NoDup ns) as X. eapply Permutation_NoDup in X; [|apply Permutation_map; exact PP]. rewrite !map_app in X.
      do 3 (apply NoDup_app_r in X). exact X. }
    destruct (final_stage mcn M2 level lp C (items ns) L1 IO ll IL NL) as (d4 & bs & d5 & cF & E4 & E5 & _).
    assert (RL' : run_level mcn inner level last_level lp kw ns = Ok ([] ++ d1 ++ d2 ++ d3 ++ d4 ++ d5)).
    { unfold run_level. rewrite PS. cbn [bind]. fold f0. rewrite E1. cbn [bind]. rewrite E2. cbn [bind]. rewrite E3. cbn [bind]. fold ll. rewrite E4. cbn [bind]. rewrite E5. reflexivity. }
    rewrite RL' in RL. assert (RE := f_equal (fun x => match x with Ok y => y | Err _ => [] end) RL). cbv beta iota in RE. subst dn.
    apply (run_any_inv mcn M2 inner inner' level last_level lp kw (List.concat C) ns ns' [] f0 d1 f1 d2 f2 d3 f3 d4 bs d5 r); try assumption.
    - apply keeps_base; [|exact N1]. eapply Forall_impl; [|exact B1]. intros vi (I & s & V & _). exact (vgood_of C (items ns) IO _ _ vi s I V).
    - apply keeps_mixed; [|exact N2]. eapply Forall_impl; [|exact B2]. intros vi (I & s & V & _). exact (vgood_of C (items ns) IO _ _ vi s I V).
    - apply keeps_ldsf; [|exact N3]. eapply Forall_impl; [|exact B3]. intros vi (I & s & V & _). exact (vgood_of C (items ns) IO _ _ vi s I V).
    - intros _. exact L1.
    - apply Forall_forall. intros i I. apply (item_ok_of level C (items ns) L1 IO). apply IL. exact I.
  Qed.
End OL.

Section OC.
  Context (mcn : Z) (M2 : (2 <= mcn)%Z) (Cs : list (list str)) (CN : Cs <> []) (pd : nat) (kw : bool).
  Notation D := (length Cs).
  Notation inner := (fun (d : nat) (kw : bool) (t : tree) => cluster_n 1 mcn d d kw t).
  Notation inner' := (fun (d : nat) (kw : bool) (t : tree) => cluster_n_any 1 mcn d d kw t).
  Notation oV := (oV Cs).
  Lemma outer_LA : forall level ns ns' dn r, (level <= D)%nat -> level_ok oV level ns -> PL nSim ns ns' -> rl mcn inner D pd kw level ns = Ok dn ->
     run_any mcn inner' level (D - level =? 0) (pd =? level) kw ns' r -> exists dn', r = Ok dn' /\ Permutation dn dn'.
  Proof.
    intros level ns ns' dn r LD LO H RL A. pose proof (level_vals oV (oVfun Cs) level ns LO) as VF. destruct LO as (NE & L0 & F).
    assert (POS : Forall (fun n => 0 < pn_cnt n)%Z ns) by (eapply Forall_impl; [|exact F]; intros n X; apply X).
    destruct level as [|l].
    - destruct (piece_stage_spec mcn M2 0 (D - 0 =? 0) (pd =? 0) kw ns NE POS L0) as [PS|(L1 & _)]; [|lia].
      exact (lit_any mcn M2 inner inner' 0 _ _ kw ns ns' _ dn r NE POS L0 VF H PS RL A).
    - assert (X : exists C, nth_error Cs l = Some C). { destruct (nth_error Cs l) as [C|] eqn:E; [eauto|]. apply nth_error_None in E. lia. }
      destruct X as [C EC].
      apply (outer_any mcn M2 (S l) (D - S l =? 0) (pd =? S l) kw C ns ns' dn r NE L0); [|exact VF|exact H|exact RL|exact A].
      apply Forall_forall. intros n N. rewrite Forall_forall in F. destruct (F n N) as [(s & S1 & S2 & S3) P]. split; [|exact P]. exists s. split; [exact S1|]. split; [exact S2|]. congruence.
  Qed.
  Definition ofull (t : tree) : Prop := tok oV D 0 t /\ t_val t = empty_parsed_piece /\ Forall (fun e => meta_sorted (e_meta e)) (ents t).
  Definition oSame (a b : tree) : Prop := ofull a /\ ofull b /\ (forall e, In e (ents a) <-> In e (ents b)) /\
    exists Ps, (forall nodes, In nodes (paths a) -> map t_pattern nodes = Ps) /\ (forall nodes, In nodes (paths b) -> map t_pattern nodes = Ps).
  Lemma outer_inv : forall t t' ts r, ofull t -> ofull t' -> tSame t t' ->
    cluster_n 2 mcn D pd kw t = Ok ts -> cluster_n_any 2 mcn D pd kw t' r -> exists ts', r = Ok ts' /\ PL oSame ts ts'.
  Proof.
    intros t t' ts r F F' S E A. cbn [cluster_n cluster_n_any] in *.
    assert (PN : length (paths t') = length (paths t)).
    { rewrite <- !ents_len. apply Permutation_length. symmetry. apply (tSame_perm D); [apply F|apply F'|exact S]. }
    rewrite PN in A.
    exact (loop_inv mcn inner inner' (fun d kw t => cluster_n_is_any 1 mcn d d kw t) oV (oVfun Cs) (oV0 Cs) (oV00 Cs) D pd kw (D1 Cs CN) good (outer_LL mcn M2 Cs pd kw) outer_LA meta_sorted meta_sorted_id
      _ t t' ts r F F' S E A).
  Qed.
End OC.
