(** make() on the nodes as objects: one maker. *)
From Coq Require Import String.
From Verif Require Import PyStr Defs UrlLib ParseUtils Views Trees Cluster Patterns Matcher Maker Spec Observe Heap HeapSpec HCluster HMakeSpec
  PyStrProofs DefsProofs DictProofs TreeProofs EntProofs GenCluster FlatCluster OuterCluster
  LoadProofs HeapProofs HeapLoad HeapState HcBase HcBag HcLevel HcPaths HcStage HcLen HcRun HcProc HcLoop HcInst AnyOrder AnyGen AnyOuter AnySpec AnyMake LazyProofs.
From Coq Require Import Lia Permutation.

(** trees of one shape with the same nodes *)
Fixpoint tsize (t : tree) : nat := let '(T _ _ _ _ ks) := t in S (fold_right (fun k n => tsize k + n) 0 ks).
Lemma addrs_size : forall s, length (addrs s) = tsize (erase s).
Proof.
  induction s as [a v p c m ks IH] using atree_ind'. cbn [addrs erase tsize length]. f_equal.
  induction IH as [|k ks Hk F IHk]; [reflexivity|]. cbn [flat_map map fold_right]. rewrite app_length, Hk, IHk. reflexivity.
Qed.
Lemma tsize_bare : forall t, tsize (bare t) = tsize t.
Proof.
  fix IH 1. intros [v p c m ks]. cbn [bare tsize]. f_equal. induction ks as [|k ks IHk]; [reflexivity|]. cbn [map fold_right]. rewrite (IH k), IHk. reflexivity.
Qed.
Lemma same_shape_grows : forall s s', bare (erase s) = bare (erase s') -> addrs s = addrs s' -> grows s s'.
Proof.
  induction s as [a v p c m ks IH] using atree_ind'. intros [a' v' p' c' m' ks'] E A. cbn [addrs] in A. injection A as <- A.
  cbn [erase bare] in E. injection E as <- <- <- EK.
  assert (F : Forall2 (fun k k' => a_piece k = a_piece k' /\ grows k k') ks ks').
  { clear c m. revert ks' A EK. induction IH as [|k ks Hk F IHk]; intros [|k' ks'] A EK; try discriminate; [constructor|].
    cbn [map] in EK. injection EK as E1 E2. cbn [flat_map] in A.
    assert (L : length (addrs k) = length (addrs k')) by (rewrite !addrs_size, <- (tsize_bare (erase k)), <- (tsize_bare (erase k')), E1; reflexivity).
    assert (A1 : addrs k = addrs k' /\ flat_map addrs ks = flat_map addrs ks').
    { revert A L. generalize (addrs k) (addrs k'). induction l as [|x l IHl]; intros [|y l'] A L; try discriminate; [auto|]. cbn in A, L. injection A as <- A.
      destruct (IHl l' A) as [-> ->]; [lia|]. auto. }
    destruct A1 as [A1 A2]. constructor; [|apply IHk; assumption]. split; [|apply Hk; assumption].
    destruct k, k'. cbn in E1 |- *. injection E1 as <-. reflexivity. }
  intros ks0 b. destruct ks0 as [|k0 r]; [auto|]. rewrite !aat_cons. cbn [a_kids]. clear -F. induction F as [|k k' l l' [P G] F IHF]; [auto|].
  unfold akid in *. cbn [List.find]. rewrite P. destruct (str_eqb k0 (a_piece k')); [apply G|exact IHF].
Qed.

Section One.
  Context (mcn : Z) (M2 : (2 <= mcn)%Z) (Cs : list (list str)) (CN : Cs <> []) (pd : nat) (kw : bool) (m : url_meta).
  Notation D := (length Cs).
  Notation inner := (fun (d : nat) (kw : bool) (t : tree) => cluster_n 1 mcn d d kw t).
  Notation innerH := (fun (d : nat) (kw : bool) r b => hcluster_n 1 hproc mcn d d kw r b).
  Definition taking : addr -> prog (heap * list yielded) unit := fun a s => ((fst s, snd s ++ [(m, a, fst s)]), Ok tt).
  (** a result as it was handed over *)
  Definition handed (y : yielded) (x : atree) : Prop := y_meta y = m /\ y_root y = a_addr x /\ holds (y_heap y) None 0 x.
  Lemma in1 : forall d k s ts, vtree d (erase s) -> cluster_n 1 mcn d d k (erase s) = Ok ts -> yields (hcluster_n 1 hproc mcn d d k (a_addr s)) s ts.
  Proof. intros d k s ts (Cs' & C1 & -> & C2). apply (flat_yields mcn M2 Cs' C1). exact C2. Qed.
  Lemma LK2 : forall level ns dn, (level <= D)%nat -> level_ok (oV Cs) level ns -> run_level mcn inner level (D - level =? 0) (pd =? level) kw ns = Ok dn ->
     NoDup (map fst (pattern_map dn)) /\ (forall k, In k (map fst (pattern_map dn)) <-> In k (map pn_piece ns)).
  Proof.
    intros level ns dn LE LO R. destruct (outer_LL mcn M2 Cs pd kw level ns LE LO) as (dn' & R' & A & B & _).
    unfold rl in R'. assert (dn' = dn) as -> by congruence. auto.
  Qed.
  Lemma maker_run : forall s H o ts, holds H None 0 s -> NoDup (addrs s) -> ofull Cs (erase s) -> cluster_n 2 mcn D pd kw (erase s) = Ok ts ->
    exists H' s' xs out split, hcluster_n 2 (list yielded) mcn D pd kw (a_addr s) taking (H, o) = ((H', o ++ out), Ok tt)
      /\ process mcn inner D pd kw (erase s) = Ok (erase s', split) /\ (t_cnt (erase s) <=? 0)%Z = false
      /\ a_addr s' = a_addr s /\ addrs s' = addrs s /\ holds H' None 0 s' /\ agree (fun a => ~ In a (addrs s)) H H'
      /\ Forall2 handed out xs /\ map erase xs = ts
      /\ ((split = false /\ xs = [s']) \/
          (split = true /\ (2 <= length xs)%nat /\ Forall (holds H' None 0) xs /\ NoDup (flat_map addrs xs) /\ (forall a, In a (flat_map addrs xs) -> length H <= a))).
  Proof.
    intros s H o ts Ho ND TK E.
    assert (TKo : otok Cs (erase s)) by (split; apply TK).
    assert (CP : (t_cnt (erase s) <=? 0)%Z = false) by (apply Z.leb_gt; apply (wft_pos _ _ (proj1 (proj2 (proj1 TK))))).
    change (hcluster_n 2 (list yielded) mcn D pd kw (a_addr s) taking) with
      (andthen (on_heap (dump_tree (a_addr s))) (fun ps => hloop (X := list yielded) mcn innerH (S (length ps)) D pd kw (a_addr s) taking)).
    rewrite (then_ok _ _ _ _ _ _ _ _ (on_heap_ok _ _ _ _ o _ _ (dump_tree_ok s H Ho ND))).
    pose proof E as E2. change (cluster_n 2 mcn D pd kw (erase s)) with (cluster_loop mcn inner (S (length (paths (erase s)))) D pd kw (erase s)) in E. rewrite <- apaths_erase, map_length in E. rewrite map_length.
    set (fuel := length (apaths s)) in *. cbn [cluster_loop] in E. cbn [hloop].
    destruct (holds_node _ _ _ _ Ho) as (n & En & _ & _ & _ & Ec & _).
    assert (RC : on_heap (reading (fun H => n <- get H (a_addr s) ;; Ok (n_count n))) (H, o) = ((H, o), Ok (a_cnt s))).
    { apply on_heap_ok. unfold reading. rewrite (get_ok _ _ _ En). cbn. rewrite Ec. reflexivity. }
    rewrite (then_ok _ _ _ _ _ _ _ _ RC). rewrite CP in E. rewrite HcBase.erase_cnt in CP. rewrite CP.
    destruct (process mcn inner D pd kw (erase s)) as [[t split]|] eqn:Ep; [|discriminate]. cbn [bind] in E.
    destruct (hprocess_ok mcn innerH inner vtree in1 (oV Cs) D pd kw LK2 (outer_fine mcn M2 Cs pd kw) s H t split Ho ND (proj1 TK) Ep) as (H1 & s1 & R1 & Er & Ea & Eas & Ho1 & Fu1 & A1).
    rewrite (then_ok _ _ _ _ _ _ _ _ (on_heap_ok _ _ _ _ o _ _ R1)).
    destruct split; cbn [negb] in E |- *.
    - destruct (split_by_pattern t) as [subs|] eqn:Es; [|discriminate]. cbn [bind] in E.
      match type of E with bind ?m _ = _ => destruct m as [rs|] eqn:Em; [|discriminate] end. cbn [bind] in E. injection E as <-.
      rewrite <- Er in Es. destruct (hsplit_ok H1 s1 subs Ho1 Fu1 ltac:(rewrite Eas; exact ND) Es) as (H2 & sl & R2 & E3 & A2 & Ho2 & N2 & W2).
      rewrite Ea in R2. rewrite (then_ok _ _ _ _ _ _ _ _ (on_heap_ok _ _ _ _ o _ _ R2)).
      assert (TK1 : otok Cs (erase s1)).
      { unfold process in Ep. destruct (proc mcn inner D 0 pd kw [PN None [] (erase s)]) as [p|]; [|discriminate]. cbn [bind] in Ep. injection Ep as Et _.
        rewrite Er, <- Et. split; [apply annotate_tok; apply TKo|rewrite annotate_ents; apply TKo]. }
      assert (YS : Forall2 (fun s0 ts0 => yields (fun body => hloop (X := list yielded) mcn innerH fuel D pd kw (a_addr s0) body) s0 ts0) sl rs).
      { pose proof (otok_split Cs CN _ _ TK1 Es) as FT. rewrite <- E3 in Em, FT. apply mapM_ok in Em.
        assert (IH : forall s0 ts0, otok Cs (erase s0) -> cluster_loop mcn inner fuel D pd kw (erase s0) = Ok ts0 ->
          yields (fun body => hloop (X := list yielded) mcn innerH fuel D pd kw (a_addr s0) body) s0 ts0).
        { intros s0 ts0. apply (loop_yields mcn innerH inner vtree in1 (oV Cs) D pd kw LK2 (outer_fine mcn M2 Cs pd kw) (otok Cs)).
          - intros t0 T0. apply T0.
          - intros t0 p [X Y]. split; [apply annotate_tok; exact X|rewrite annotate_ents; exact Y].
          - exact (otok_split Cs CN). }
        clear - IH Em FT. remember (map erase sl) as l eqn:El. revert sl El.
        induction Em as [|t0 r0 l rs Et Em IHm]; intros sl El; destruct sl as [|s0 sl]; try discriminate; [constructor|].
        cbn in El. injection El as -> ->. inversion FT; subst. constructor; [apply IH; assumption|apply IHm; auto]. }
      set (J := fun (F : addr -> Prop) (l : list tree) (Hx : heap) (st : list yielded) => exists xs out, map erase xs = l /\ st = o ++ out /\ Forall2 handed out xs
         /\ (forall a, F a <-> a < length H1 \/ In a (flat_map addrs xs)) /\ agree (fun a => a < length H1) H1 Hx
         /\ Forall (holds Hx None 0) xs /\ NoDup (flat_map addrs xs) /\ (forall a, In a (flat_map addrs xs) -> length H1 <= a)).
      destruct (each_yields (list yielded) (fun a body => hloop mcn innerH fuel D pd kw a body) sl rs YS taking J (List.concat rs) [] [] (fun a => a < length H1) H2 o)
        as (F3 & H3 & st3 & R3 & (xs & out & X1 & X2 & X3 & X4 & X5 & X6 & X7 & X8) & A3 & U3).
      { cbn. rewrite app_nil_r. reflexivity. }
      { intros F l Ha Hb st (xs & out & X1 & X2 & X3 & X4 & X5 & X6 & X7 & X8) Ag. exists xs, out. split; [exact X1|]. split; [exact X2|]. split; [exact X3|]. split; [exact X4|].
        split; [|split; [|auto]].
        - apply (agree_trans _ _ Ha); [exact X5|]. apply (agree_weak F); [|exact Ag]. intros a La. apply X4. left. exact La.
        - apply Forall_forall. intros x Ix. rewrite Forall_forall in X6. apply (holds_agree x Ha Hb None 0 F (X6 x Ix) Ag). intros a Ia. apply X4. right. apply in_flat_map. eauto. }
      { intros F l Hx st (xs & out & X1 & X2 & X3 & X4 & X5 & X6 & X7 & X8) a Fa. apply X4 in Fa. destruct Fa as [Fa|Fa].
        - destruct X5. lia.
        - apply in_flat_map in Fa. destruct Fa as (x & Ix & Ia). rewrite Forall_forall in X6. exact (holds_lt _ _ _ _ (X6 x Ix) a Ia). }
      { intros F l Hx st x r (xs & out & X1 & X2 & X3 & X4 & X5 & X6 & X7 & X8) _ Hox Fx Nx DJ.
        exists (fun a => F a \/ In a (addrs x)), Hx, (st ++ [(m, a_addr x, Hx)]). split; [reflexivity|]. split; [|split; [apply agree_refl|tauto]].
        exists (xs ++ [x]), (out ++ [(m, a_addr x, Hx)]). split; [rewrite map_app, X1; reflexivity|]. split; [rewrite X2, app_assoc; reflexivity|].
        assert (FM : flat_map addrs (xs ++ [x]) = flat_map addrs xs ++ addrs x) by (rewrite flat_map_app; cbn; rewrite app_nil_r; reflexivity).
        split; [apply Forall2_app; [exact X3|constructor; [|constructor]]; split; [reflexivity|split; [reflexivity|exact Hox]]|].
        rewrite FM. split; [intros a; rewrite in_app_iff, X4; tauto|]. split; [exact X5|]. split; [apply Forall_app; split; [exact X6|constructor; [exact Hox|constructor]]|]. split.
        - apply nd_app. split; [exact X7|]. split; [exact Nx|]. intros a Ia Ix. apply (DJ a Ix). apply X4. right. exact Ia.
        - intros a Ia. apply in_app_iff in Ia. destruct Ia as [Ia|Ia]; [auto|]. destruct (Nat.lt_ge_cases a (length H1)) as [Q|Q]; [|exact Q].
          exfalso. apply (DJ a Ia). apply X4. left. exact Q. }
      { exists [], []. split; [reflexivity|]. split; [rewrite app_nil_r; reflexivity|]. split; [constructor|]. split; [intros a; cbn; tauto|].
        split; [apply (agree_weak (fun _ => True)); auto|]. split; [constructor|]. split; [constructor|intros a []]. }
      { exact Ho2. } { exact N2. } { intros a Ia. pose proof (W2 a Ia). lia. }
      cbn [app] in X1. subst st3. exists H3, s1, xs, out, true. split; [exact R3|]. split; [rewrite Er; reflexivity|]. split; [rewrite HcBase.erase_cnt; exact CP|]. split; [exact Ea|]. split; [exact Eas|].
      split; [|split; [|split; [exact X3|split; [exact X1|right]]]].
      + apply (holds_agree s1 H1 H3 None 0 _ Ho1 X5). intros a Ia. exact (holds_lt _ _ _ _ Ho1 a Ia).
      + destruct A1 as [L1 Q1]. destruct X5 as [L5 Q5]. split; [lia|]. intros a Na La. rewrite Q5 by lia. apply Q1; auto.
      + split; [reflexivity|]. split; [|split; [exact X6|split; [exact X7|]]].
        * rewrite <- (map_length erase xs), X1. apply (flag mcn M2 Cs CN pd kw (erase s) t (List.concat rs) TK); [|exact E2].
          pose proof (process_is_any mcn inner (fun d kw t => cluster_n_any 1 mcn d d kw t)) as PA. rewrite <- Ep. apply PA. intros. apply cluster_n_is_any.
        * intros a Ia. pose proof (X8 a Ia). destruct A1. lia.
    - assert (ts = [t]) as -> by congruence.
      exists H1, s1, [s1], [(m, a_addr s1, H1)], false. split; [cbn; rewrite Ea; reflexivity|]. split; [rewrite Er; reflexivity|]. split; [rewrite HcBase.erase_cnt; exact CP|]. split; [exact Ea|]. split; [exact Eas|].
      split; [exact Ho1|]. split; [exact A1|]. split; [constructor; [|constructor]; split; [reflexivity|split; [reflexivity|exact Ho1]]|]. split; [cbn; rewrite Er; reflexivity|]. left. auto.
  Qed.
End One.
