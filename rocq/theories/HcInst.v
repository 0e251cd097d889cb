(** make() on the nodes as objects: the trees of views and the trees of makers. *)
From Coq Require Import String.
From Verif Require Import PyStr Defs UrlLib ParseUtils Views Trees Cluster Patterns Matcher Maker Spec Observe Heap HeapSpec HCluster
  PyStrProofs DefsProofs DictProofs RegexProofs PieceProofs LengthProofs GroupProofs TreeProofs TokProofs LengthStage PieceStage EntProofs GenCluster FlatCluster ViewProofs KeyProofs TokUniq RouteProofs MultiStage OuterLevel OuterCluster
  LoadProofs HeapProofs HeapLoad HcBase HcBag HcLevel HcPaths HcStage HcLen HcRun HcProc HcLoop.
From Coq Require Import Lia Permutation.

(** cluster() satisfies the loop rule when its parts do *)
Lemma cluster_yields : forall X mcn nest (V : nat -> parsed_piece -> Prop) D pd kw (Pin : nat -> tree -> Prop) (TOK : tree -> Prop),
  (forall d kw s ts, Pin d (erase s) -> cluster_n nest mcn d d kw (erase s) = Ok ts -> yields (hcluster_n nest hproc mcn d d kw (a_addr s)) s ts) ->
  (forall level ns dn, (level <= D)%nat -> level_ok V level ns -> run_level mcn (fun d kw t => cluster_n nest mcn d d kw t) level (D - level =? 0) (pd =? level) kw ns = Ok dn ->
     NoDup (map fst (pattern_map dn)) /\ (forall k, In k (map fst (pattern_map dn)) <-> In k (map pn_piece ns))) ->
  (forall level ns, (level <= D)%nat -> level_ok V level ns -> fine Pin mcn (fun d kw t => cluster_n nest mcn d d kw t) level (D - level =? 0) (pd =? level) kw ns) ->
  (forall t, TOK t -> tok V D 0 t) -> (forall t p, TOK t -> TOK (annotate p t)) -> (forall t subs, TOK t -> split_by_pattern t = Ok subs -> Forall TOK subs) ->
  forall s ts, TOK (erase s) -> cluster_n (S nest) mcn D pd kw (erase s) = Ok ts -> yields (hcluster_n (S nest) X mcn D pd kw (a_addr s)) s ts.
Proof.
  intros X mcn nest V D pd kw Pin TOK IN LK FI T1 T2 T3 s ts TK E.
  intros body J TS l0 r0 F H st ET JA JL BODY J0 Ho ND DJ. cbn [hcluster_n].
  rewrite (then_ok _ _ _ _ _ _ _ _ (on_heap_ok _ _ _ _ st _ _ (dump_tree_ok s H Ho ND))).
  cbn [cluster_n] in E. rewrite <- apaths_erase, map_length in E. rewrite map_length.
  apply (loop_yields mcn (fun d kw r b => hcluster_n nest hproc mcn d d kw r b) (fun d kw t => cluster_n nest mcn d d kw t) Pin IN V D pd kw LK FI TOK T1 T2 T3 X _ s ts TK E body J TS l0 r0 F H st ET JA JL BODY J0 Ho ND DJ).
Qed.

Section Flat.
  Context (mcn : Z) (M2 : (2 <= mcn)%Z) (Cs : list (list str)) (CN : Cs <> []) (pd : nat) (kw : bool).
  Notation D := (length Cs).
  Notation inner := (fun (d : nat) (kw : bool) (t : tree) => cluster_n 0 mcn d d kw t).
  Definition ftok (t : tree) : Prop := tok (fV Cs) D 0 t /\ Forall (fun e => FlatCluster.nometa (e_meta e)) (ents t).
  Lemma ftok_split : forall t subs, ftok t -> split_by_pattern t = Ok subs -> Forall ftok subs.
  Proof.
    intros t subs [W MO] E.
    destruct (split_ok (fV Cs) (fVfun Cs) (fV0 Cs) D (FlatCluster.D1 Cs CN) FlatCluster.nometa nometa_id t W MO) as (ids & subs' & E' & _ & _ & F & P).
    assert (subs' = subs) as -> by congruence. apply Forall_forall. intros s Is. split.
    - clear -F Is. induction F as [|i x ids l (A & _) F IH]; [destruct Is|]. destruct Is as [<-|Is]; auto.
    - apply Forall_forall. intros e Ie. rewrite Forall_forall in MO. apply MO. apply (Permutation_in _ P). apply in_flat_map. eauto.
  Qed.
  Lemma flat_fine : forall Pin level ns, (level <= D)%nat -> level_ok (fV Cs) level ns ->
    fine Pin mcn inner level (D - level =? 0) (pd =? level) kw ns.
  Proof.
    intros Pin level ns LE (NE & L0 & FA) d0 f0 E.
    assert (POS : Forall (fun n => 0 < pn_cnt n)%Z ns) by (eapply Forall_impl; [|exact FA]; intros n H; apply H).
    assert (NV : forall c, to_view c f0 = []).
    { destruct (piece_stage_spec mcn M2 level (D - level =? 0) (pd =? level) kw ns NE POS L0) as [PS|(L1 & I2 & LK & TOT & PS)].
      - assert (f0 = []) as -> by congruence. reflexivity.
      - assert (f0 = passed mcn (pd =? level) ns) as -> by congruence. intros c.
        destruct (to_view c (passed mcn (pd =? level) ns)) as [|[v i] l] eqn:Ev; [reflexivity|]. exfalso.
        assert (I : In (v, i) (to_view c (passed mcn (pd =? level) ns))) by (rewrite Ev; left; reflexivity).
        apply to_view_in in I. unfold passed in I. apply in_map_iff in I. destruct I as (j & Ej & Ij). injection Ej as Ed <-.
        apply items_bag in Ij. destruct Ij as (_ & _ & n & In1 & In2). rewrite Forall_forall in FA. destruct (FA n In1) as [Hv _].
        destruct level as [|l']; [lia|]. destruct Hv as (s & _ & Hv & _). rewrite In2, Hv, dest_flat in Ed. discriminate. }
    rewrite !NV. split; [intros d Q; assert (d = []) as -> by (cbn in Q; congruence); constructor|].
    intros d1 f1 Q1. assert (f1 = []) as -> by (cbn in Q1; congruence). rewrite !app_nil_r, !NV.
    split; [intros d Q; assert (d = []) as -> by (cbn in Q; congruence); constructor|].
    intros d2 f2 Q2. assert (f2 = []) as -> by (cbn in Q2; congruence). cbn [app]. rewrite app_nil_r, NV.
    intros d Q; assert (d = []) as -> by (cbn in Q; congruence); constructor.
  Qed.
  Lemma flat_yields : forall X s ts, ftok (erase s) -> cluster_n 1 mcn D pd kw (erase s) = Ok ts -> yields (hcluster_n 1 X mcn D pd kw (a_addr s)) s ts.
  Proof.
    intros X. apply (cluster_yields X mcn 0 (fV Cs) D pd kw (fun _ _ => False) ftok).
    - intros d k s ts [].
    - intros level ns dn LE LO R. destruct (flat_LL mcn M2 inner Cs pd kw level ns LE LO) as (dn' & R' & A & B & _).
      unfold rl in R'. assert (dn' = dn) as -> by congruence. auto.
    - apply flat_fine.
    - intros t T. apply T.
    - intros t p [A B]. split; [apply annotate_tok; exact A|rewrite annotate_ents; exact B].
    - exact ftok_split.
  Qed.
End Flat.

(** what the loop over the view trees needs to know of them *)
Definition vtree (d : nat) (t : tree) : Prop := exists Cs, Cs <> [] /\ d = length Cs /\ ftok Cs t.

Section Buckets.
  Context (mcn : Z) (M2 : (2 <= mcn)%Z) (last_path : bool) (c : cls) (sv : str -> list str) (ok : str -> Prop).
  Context (SVL : forall s, all_legal s -> ok s -> Forall all_legal (sv s)).
  Context (SVN : forall s, all_legal s -> ok s -> sv s <> []).
  Context (SVP : forall s, all_legal s -> ok s -> List.concat (map (fun t => piece (pp_of t)) (sv s)) = piece (pp_of s)).
  Context (SVK : forall s t, all_legal s -> ok s -> all_legal t -> ok t ->
             view_key (map vpart (sv s)) = view_key (map vpart (sv t)) -> map cset (sv s) = map cset (sv t)).
  Lemma buckets_fine : forall l, Forall (vgood sv ok) l -> NoDup (map pc l) ->
    forall d, foldM multi_add l [] = Ok d -> Forall (fun kb => vtree (vb_depth (snd kb)) (vb_root (snd kb))) d.
  Proof.
    intros l G ND d E.
    rewrite (foldM_pure _ _ multi_add (fun d vi => dset str_eqb (vkey vi) (MultiStage.step (dget str_eqb (vkey vi) d) vi) d)) in E.
    2: { intros d' vi I. apply (multi_add_pure sv ok SVN). rewrite Forall_forall in G. auto. }
    assert (d = gfold str_eqb vkey MultiStage.step l []) as -> by (unfold gfold; congruence). clear E.
    apply Forall_forall. intros [k b] I. cbn [snd].
    assert (DN : NoDup (map fst (gfold str_eqb vkey MultiStage.step l []))) by (apply gfold_NoDup; [exact str_eqb_iff|constructor]).
    apply (dget_in str_eqb str_eqb_iff) in I; [|exact DN]. rewrite gfold_get in I by exact str_eqb_iff. cbn [dget] in I.
    change (vfold (filter (fun x => str_eqb k (vkey x)) l) = Some b) in I.
    assert (N : filter (fun x => str_eqb k (vkey x)) l <> []) by (intros Q; rewrite Q in I; discriminate).
    assert (ND' : NoDup (map pc (filter (fun x => str_eqb k (vkey x)) l))).
    { clear - ND. induction l as [|x l IH]; [constructor|]. cbn [map] in ND. inversion ND as [|? ? N ND']; subst. cbn [filter]. destruct (str_eqb k (vkey x)); [|auto].
      cbn [map]. constructor; [|auto]. intros I. apply N. apply in_map_iff in I. destruct I as (y & Y1 & Y2). apply filter_In in Y2. apply in_map_iff. exists y. split; [exact Y1|apply Y2]. }
    assert (G' : Forall (vgood sv ok) (filter (fun x => str_eqb k (vkey x)) l)).
    { apply Forall_forall. intros x Ix. apply filter_In in Ix. rewrite Forall_forall in G. apply G. apply Ix. }
    destruct (bucket_tree sv ok SVL SVN SVP SVK (filter (fun x => str_eqb k (vkey x)) l) N G' ND') with (b := b) as (Cs & C1 & C2 & C3 & C4 & C5 & C6).
    { intros x y Hx Hy. apply filter_In in Hx, Hy. destruct Hx as [_ Hx], Hy as [_ Hy]. apply str_eqb_eq in Hx, Hy. congruence. }
    { exact I. }
    exists Cs. split; [exact C1|]. split; [exact C3|]. split; [exact C4|].
    apply Forall_forall. intros e Ie. apply (Permutation_in _ C6) in Ie. apply in_map_iff in Ie. destruct Ie as (vi & <- & _). reflexivity.
  Qed.
End Buckets.

Section Outer.
  Context (mcn : Z) (M2 : (2 <= mcn)%Z) (Cs : list (list str)) (CN : Cs <> []) (pd : nat) (kw : bool).
  Notation D := (length Cs).
  Notation inner := (fun (d : nat) (kw : bool) (t : tree) => cluster_n 1 mcn d d kw t).
  Definition otok (t : tree) : Prop := tok (oV Cs) D 0 t /\ Forall (fun e => meta_sorted (e_meta e)) (ents t).
  Lemma otok_split : forall t subs, otok t -> split_by_pattern t = Ok subs -> Forall otok subs.
  Proof.
    intros t subs [W MO] E.
    destruct (split_ok (oV Cs) (oVfun Cs) (oV0 Cs) D (FlatCluster.D1 Cs CN) meta_sorted meta_sorted_id t W MO) as (ids & subs' & E' & _ & _ & F & P).
    assert (subs' = subs) as -> by congruence. apply Forall_forall. intros s Is. split.
    - clear -F Is. induction F as [|i x ids l (A & _) F IH]; [destruct Is|]. destruct Is as [<-|Is]; auto.
    - apply Forall_forall. intros e Ie. rewrite Forall_forall in MO. apply MO. apply (Permutation_in _ P). apply in_flat_map. eauto.
  Qed.
  Lemma outer_fine : forall level ns, (level <= D)%nat -> level_ok (oV Cs) level ns ->
    fine vtree mcn inner level (D - level =? 0) (pd =? level) kw ns.
  Proof.
    intros level ns LE (NE & L0 & FA) d0 f0 E.
    assert (POS : Forall (fun n => 0 < pn_cnt n)%Z ns) by (eapply Forall_impl; [|exact FA]; intros n H; apply H).
    destruct (piece_stage_spec mcn M2 level (D - level =? 0) (pd =? level) kw ns NE POS L0) as [PS|(L1 & I2 & LK & TOT & PS)].
    - assert (f0 = []) as -> by congruence.
      split; [intros d Q; assert (d = []) as -> by (cbn in Q; congruence); constructor|].
      intros d1 f1 Q1. assert (f1 = []) as -> by (cbn in Q1; congruence).
      split; [intros d Q; assert (d = []) as -> by (cbn in Q; congruence); constructor|].
      intros d2 f2 Q2. assert (f2 = []) as -> by (cbn in Q2; congruence).
      intros d Q; assert (d = []) as -> by (cbn in Q; congruence); constructor.
    - destruct level as [|l]; [lia|].
      assert (X : exists C, nth_error Cs l = Some C).
      { destruct ns as [|n ns]; [congruence|]. inversion FA as [|? ? [H1 H2] _]; subst. destruct H1 as (s & _ & _ & H1). eauto. }
      destruct X as [C HC].
      assert (FA' : Forall (fun n => (exists s, all_legal s /\ t_val (pn_tree n) = pp_of s /\ cset s = C) /\ (0 < pn_cnt n)%Z) ns).
      { eapply Forall_impl; [|exact FA]. intros n [(s & A & B & Q) P]. split; [|exact P]. exists s. split; [exact A|]. split; [exact B|]. congruence. }
      assert (IS : forall i, In i (items ns) -> exists s, ist i s /\ cset s = C).
      { intros i I. apply items_bag in I. destruct I as (_ & _ & n & J1 & J2). rewrite Forall_forall in FA'. destruct (FA' n J1) as [(s & A & B & Q) _].
        exists s. split; [split; [exact A|congruence]|exact Q]. }
      assert (NI : items ns <> []) by (intros Q; rewrite Q in I2; cbn in I2; lia).
      assert (NC : C <> []).
      { intros ->. assert (EM : forall i, In i (items ns) -> it_piece i = []).
        { intros i I. destruct (IS i I) as (s & S & SC). apply cset_nil in SC; [|apply S]. subst s. rewrite (ist_piece i [] S). reflexivity. }
        pose proof (items_NoDup ns) as ND. destruct (items ns) as [|i [|j r]]; cbn in I2; try lia. cbn [map] in ND. inversion ND as [|? ? Q _]; subst. apply Q. left.
        rewrite (EM i), (EM j) by (cbn; auto). reflexivity. }
      assert (IO : Forall (fun i => (exists s, ist i s /\ s <> [] /\ cset s = C) /\ it_pat i = it_piece i /\ (0 < it_count i)%Z) (items ns)).
      { apply Forall_forall. intros i I. destruct (IS i I) as (s & S & SC). split; [exists s; split; [exact S|]; split; [intros ->; apply NC; rewrite <- SC; reflexivity|exact SC]|].
        split; [apply (items_pat ns); exact I|]. pose proof (items_count ns POS) as Q. rewrite Forall_forall in Q. apply Q. exact I. }
      assert (f0 = passed mcn (pd =? S l) ns) as -> by congruence. clear E PS. unfold passed.
      destruct (stages mcn M2 (S l) (pd =? S l) C (items ns) L1 (items_NoDup ns) IO)
        as (d1 & f1 & d2 & f2 & d3 & f3 & l2 & l3 & p1 & w1 & p2 & w2 & p3 & w3 & E1 & -> & E2 & -> & E3 & B1 & B2 & B3 & _ & _ & _ & (N1 & N2 & N3) & _).
      split; [|intros d1' f1' Q1; assert (f1' = f1) as -> by congruence; split; [|intros d2' f2' Q2; assert (f2' = f2) as -> by congruence]].
      + apply (buckets_fine svB okB).
        { intros s L _. apply svB_legal. exact L. }
        { intros s L O Q. unfold svB, g_multi in Q. apply map_eq_nil in Q. apply map_eq_nil in Q. unfold okB in O. rewrite Q in O. cbn in O. lia. }
        { intros s L O. apply groups_piece; [exact L|apply groups_multi]. }
        { intros s t L _ L' _ Q. apply (key_BB s t L L' Q). }
        { eapply Forall_impl; [|exact B1]. intros vi (I & s & V & _). eapply vgood_of; eauto. }
        { exact N1. }
      + apply (buckets_fine svX okX).
        { intros s L _. apply svX_legal. exact L. }
        { intros s L [O _] Q. unfold svX in Q. apply map_eq_nil in Q. pose proof (groups_mixed s) as G. unfold groups in G. rewrite Q in G. unfold okB in O. rewrite <- G in O. cbn in O. lia. }
        { intros s L O. apply groups_piece; [exact L|apply groups_mixed]. }
        { intros s t L _ L' _ Q. apply (key_XX s t L L' Q). }
        { eapply Forall_impl; [|exact B2]. intros vi (I & s & V & _). eapply vgood_of; eauto. }
        { exact N2. }
      + apply (buckets_fine svL okL).
        { intros s L _. apply svL_legal. exact L. }
        { intros s L [O _] Q. unfold svL in Q. apply map_eq_nil in Q. pose proof (groups_ldsf s) as G. unfold groups in G. rewrite Q in G. unfold okB in O. rewrite <- G in O. cbn in O. lia. }
        { intros s L O. apply groups_piece; [exact L|apply groups_ldsf]. }
        { intros s t L O L' O' Q. apply (key_LL s t L L' O O' Q). }
        { eapply Forall_impl; [|exact B3]. intros vi (I & s & V & _). eapply vgood_of; eauto. }
        { exact N3. }
  Qed.
  Lemma outer_yields : forall X s ts, otok (erase s) -> cluster_n 2 mcn D pd kw (erase s) = Ok ts -> yields (hcluster_n 2 X mcn D pd kw (a_addr s)) s ts.
  Proof.
    intros X. apply (cluster_yields X mcn 1 (oV Cs) D pd kw vtree otok).
    - intros d k s ts (Cs' & C1 & -> & C2). apply (flat_yields mcn M2 Cs' C1); exact C2.
    - intros level ns dn LE LO R. destruct (outer_LL mcn M2 Cs pd kw level ns LE LO) as (dn' & R' & A & B & _).
      unfold rl in R'. assert (dn' = dn) as -> by congruence. auto.
    - apply outer_fine.
    - intros t T. apply T.
    - intros t p [A B]. split; [apply annotate_tok; exact A|rewrite annotate_ents; exact B].
    - exact otok_split.
  Qed.
End Outer.
