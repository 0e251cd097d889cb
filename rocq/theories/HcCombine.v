(** make(combine=True) on the nodes as objects: one maker. *)
From Coq Require Import String.
From Verif Require Import PyStr Defs UrlLib ParseUtils Views Trees Cluster Patterns Matcher Maker Spec Observe Heap HeapSpec HCluster HCombine HMakeSpec
  PyStrProofs DefsProofs DictProofs TreeProofs EntProofs GenCluster FlatCluster OuterCluster PartProofs
  LoadProofs HeapProofs HeapLoad HeapState HcBase HcBag HcLevel HcPaths HcStage HcLen HcRun HcProc HcLoop HcInst AnyOrder AnyGen AnyOuter AnySpec AnyMake LazyProofs HcMake.
From Coq Require Import Lia Permutation.

(** ** Combined trees as trees *)
Lemma pat_piece : forall p, piece (pat_value p) = p.
Proof. intros p. unfold piece, pat_value. cbn. apply app_nil_r. Qed.
Lemma ptree_piece : forall t, t_piece (ptree t) = c_val t.
Proof. intros [v c ks]. apply pat_piece. Qed.
Lemma split_of : forall k ks, kid_split k (map ptree ks) =
  match ckid_split k ks with Some (a, x, b) => Some (map ptree a, ptree x, map ptree b) | None => None end.
Proof.
  intros k ks. induction ks as [|t ks IH]; [reflexivity|]. cbn [map kid_split ckid_split]. rewrite ptree_piece. destruct (str_eqb k (c_val t)); [reflexivity|].
  rewrite IH. destruct (ckid_split k ks) as [[[a x] b]|]; reflexivity.
Qed.
Definition pkvs (ps : list str) : list (parsed_piece * option str) := map (fun p => (pat_value p, None)) ps.
Lemma build_of : forall count ps t new, fst (build (ptree t) (pkvs ps) count nometa new) = ptree (cbuild t ps count).
Proof.
  intros count ps. induction ps as [|p ps IH]; intros [v c ks] new; [reflexivity|]. cbn [pkvs map ptree build cbuild]. rewrite pat_piece, split_of.
  destruct (ckid_split p ks) as [[[a x] b]|].
  - pose proof (IH x (Some false)) as E. destruct (build (ptree x) (map (fun p0 => (pat_value p0, None)) ps) count nometa (Some false)) as [k' n] eqn:B. unfold pkvs in E. rewrite B in E. cbn [fst] in *. subst k'.
    cbn [ptree]. rewrite map_app. reflexivity.
  - pose proof (IH (CT p 0 []) (Some true)) as E. cbn [ptree map] in E. unfold pkvs in E. destruct (build (T (pat_value p) None 0 None []) (map (fun p0 => (pat_value p0, None)) ps) count nometa (Some true)) as [k' n]. cbn [fst] in *. subst k'.
    cbn [ptree]. rewrite map_app. reflexivity.
Qed.
Lemma path_len : forall d t nodes l, wft d t -> paths t = nodes :: l -> length (tl nodes) = d.
Proof.
  intros d t nodes l W E. pose proof (ents_depth d t W) as F. unfold ents in F. rewrite E in F. cbn [map] in F. apply Forall_inv in F. rename F into X.
  unfold ent, e_path in X. cbn [fst] in X. rewrite map_length in X. exact X.
Qed.
Lemma combine_wft : forall d ts ct0 ct, Forall (wft d) ts -> wft d (ptree ct0) \/ (fresh (ptree ct0) /\ ts <> []) -> foldM combine_one ts ct0 = Ok ct -> wft d (ptree ct).
Proof.
  intros d ts. induction ts as [|t ts IH]; intros ct0 ct F W E; cbn [foldM] in E.
  - injection E as <-. destruct W as [W|[_ W]]; [exact W|congruence].
  - apply bind_ok in E. destruct E as (c1 & E1 & E). inversion F; subst. apply (IH c1 ct); [assumption| |exact E]. left.
    unfold combine_one in E1. destruct (paths t) as [|nodes l] eqn:EP; [discriminate|]. pose proof (path_len d t nodes l H1 EP) as L.
    assert (c1 = cbuild ct0 (map t_pattern (tl nodes)) (t_cnt t)) as -> by (destruct (tl nodes); [discriminate|congruence]).
    rewrite <- (build_of (t_cnt t) _ ct0 None). assert (LK : length (pkvs (map t_pattern (tl nodes))) = d) by (unfold pkvs; rewrite !map_length; exact L).
    rewrite <- LK. apply build_wft; [apply (wft_pos d t); assumption|]. rewrite LK. tauto.
Qed.

Lemma foldM_app : forall A S (f : S -> A -> res S) a b s, foldM f (a ++ b) s = bind (foldM f a s) (foldM f b).
Proof. intros A S f a b. induction a as [|x a IH]; intros s; [reflexivity|]. cbn [app foldM]. destruct (f s x) as [s'|]; [apply IH|reflexivity]. Qed.

(** ** One cluster *)
Lemma apaths_hd : forall s l, In l (apaths s) -> exists r, l = s :: r.
Proof.
  intros s l I. rewrite apaths_eq in I. destruct (a_kids s) as [|k ks]; [destruct I as [<-|[]]; eauto|].
  apply in_map_iff in I. destruct I as (r & <- & _). eauto.
Qed.
Lemma pvalues_ok : forall l H, Forall (known H) l ->
  collect (map a_addr l) (fun b => andthen (node_pattern_of b) (fun p => ret (pat_value p, @None str))) H = (H, Ok (pkvs (map (fun y => t_pattern (erase y)) l))).
Proof.
  induction l as [|y l IH]; intros H F; [reflexivity|]. inversion F as [|a b [Fy (par & dep & Ho)] F']; subst. cbn [map collect].
  rewrite (then_ok _ _ _ _ _ _ H (pat_value (t_pattern (erase y)), None)) by (rewrite (then_ok _ _ _ _ _ _ _ _ (pattern_ok y H par dep Ho Fy)); reflexivity).
  rewrite (then_ok _ _ _ _ _ _ _ _ (IH H F')). reflexivity.
Qed.
Lemma combine_step : forall x c H ct ct', holds H None 0 x -> full x -> NoDup (addrs x) -> holds H None 0 c -> NoDup (addrs c) ->
  erase c = ptree ct -> combine_one ct (erase x) = Ok ct' ->
  exists H' c', hcombine_one (a_addr c) (a_addr x) H = (H', Ok tt) /\ holds H' None 0 c' /\ step H H' c c' /\ NoDup (addrs c') /\ erase c' = ptree ct'.
Proof.
  intros x c H ct ct' Hx Fx Nx Hc Nc Ec E. unfold hcombine_one. rewrite (then_ok _ _ _ _ _ _ _ _ (dump_tree_ok x H Hx Nx)).
  unfold combine_one in E. rewrite <- apaths_erase in E. pose proof (paths_known x H Hx Fx) as K. pose proof (apaths_hd x) as HD.
  destruct (apaths x) as [|nodes l]; [discriminate|]. cbn [map] in *. apply Forall_inv in K. destruct (HD nodes (or_introl eq_refl)) as (r & ->). apply Forall_inv_tail in K. cbn [map tl] in *.
  rewrite (then_ok _ _ _ _ _ _ _ _ (pvalues_ok r H K)). destruct (holds_node _ _ _ _ Hx) as (n & En & _ & _ & _ & Cn & _).
  rewrite (then_ok _ _ _ _ _ _ H (a_cnt x)) by (unfold reading; rewrite (get_ok _ _ _ En); cbn; rewrite Cn; reflexivity).
  set (ps := map (fun y => t_pattern (erase y)) r) in *.
  assert (ER : r <> [] /\ ct' = cbuild ct ps (a_cnt x)).
  { destruct r as [|y r]; [discriminate|]. split; [discriminate|]. cbn [map] in E. unfold ps. cbn [map]. rewrite HcBase.erase_cnt, map_map in E. injection E as <-. reflexivity. }
  destruct ER as [NR ->]. assert (NK : pkvs ps <> []) by (unfold pkvs, ps; destruct r; [congruence|discriminate]).
  destruct (HeapProofs.loop_ok (a_cnt x) (pkvs ps) c H None 0 None Hc Nc) as (H1 & c1 & b & E1 & A1 & S1 & R1 & _).
  rewrite Ec in *. rewrite (build_of (a_cnt x) ps ct None) in R1. rewrite (build_new nometa (a_cnt x) (pkvs ps) (ptree ct) None NK) in E1.
  exists H1, c1. split.
  { unfold andthen. unfold build_tree. rewrite E1. reflexivity. }
  split; [exact A1|]. split; [exact S1|]. split; [|exact R1]. apply (st_nd _ _ _ _ S1); [exact Nc|]. exact (holds_lt _ _ _ _ Hc).
Qed.

Section One.
  Context (mcn : Z) (M2 : (2 <= mcn)%Z) (Cs : list (list str)) (CN : Cs <> []) (pd : nat) (kw : bool).
  Notation D := (length Cs).
  Notation inner := (fun (d : nat) (kw : bool) (t : tree) => cluster_n 1 mcn d d kw t).
  Notation innerH := (fun (d : nat) (kw : bool) r b => hcluster_n 1 hproc mcn d d kw r b).
  Lemma combine_run : forall s H (o : list yielded) ts ct, holds H None 0 s -> NoDup (addrs s) -> ofull Cs (erase s) -> cluster_n 2 mcn D pd kw (erase s) = Ok ts ->
    foldM combine_one ts (CT [] 0 []) = Ok ct ->
    exists H' s' c split, hcluster_n 2 (list yielded) mcn D pd kw (a_addr s) (fun a => on_heap (hcombine_one (length H) a)) (H ++ [new_node None (pat_value []) None], o) = ((H', o), Ok tt)
      /\ process mcn inner D pd kw (erase s) = Ok (erase s', split) /\ (t_cnt (erase s) <=? 0)%Z = false
      /\ a_addr s' = a_addr s /\ addrs s' = addrs s /\ holds H' None 0 s' /\ agree (fun a => ~ In a (addrs s)) H H'
      /\ a_addr c = length H /\ holds H' None 0 c /\ NoDup (addrs c) /\ (forall a, In a (addrs c) -> length H <= a) /\ erase c = ptree ct.
  Proof.
    intros s H o ts ct Hs0 ND TK E EC.
    assert (TKo : otok Cs (erase s)) by (split; apply TK).
    assert (CP : (t_cnt (erase s) <=? 0)%Z = false) by (apply Z.leb_gt; apply (wft_pos _ _ (proj1 (proj2 (proj1 TK))))).
    set (H0 := H ++ [new_node None (pat_value []) None]). set (root := length H). set (body := fun a => on_heap (X := list yielded) (hcombine_one root a)).
    assert (Ho : holds H0 None 0 s) by (apply holds_app; exact Hs0).
    assert (LT : forall a, In a (addrs s) -> a < root) by (intros a Ia; exact (holds_lt _ _ _ _ Hs0 a Ia)).
    set (c0 := AT root (pat_value []) None 0 None []).
    assert (Hc0 : holds H0 None 0 c0).
    { apply holds_iff. split; [|constructor]. exists (new_node None (pat_value []) None). split; [apply app_new|]. cbn. auto 10. }
    assert (L0 : length H0 = S root) by (unfold H0; rewrite app_length; cbn; unfold root; lia).
    change (hcluster_n 2 (list yielded) mcn D pd kw (a_addr s) body) with
      (andthen (on_heap (dump_tree (a_addr s))) (fun ps => hloop (X := list yielded) mcn innerH (S (length ps)) D pd kw (a_addr s) body)).
    rewrite (then_ok _ _ _ _ _ _ _ _ (on_heap_ok _ _ _ _ o _ _ (dump_tree_ok s H0 Ho ND))).
    change (cluster_n 2 mcn D pd kw (erase s)) with (cluster_loop mcn inner (S (length (paths (erase s)))) D pd kw (erase s)) in E. rewrite <- apaths_erase, map_length in E. rewrite map_length.
    set (fuel := length (apaths s)) in *. cbn [cluster_loop] in E. cbn [hloop].
    destruct (holds_node _ _ _ _ Ho) as (n & En & _ & _ & _ & Ec & _).
    assert (RC : on_heap (reading (fun H => bind (get H (a_addr s)) (fun n => Ok (n_count n)))) (H0, o) = ((H0, o), Ok (a_cnt s))).
    { apply on_heap_ok. unfold reading. rewrite (get_ok _ _ _ En). cbn. rewrite Ec. reflexivity. }
    rewrite (then_ok _ _ _ _ _ _ _ _ RC). rewrite CP in E. rewrite HcBase.erase_cnt in CP. rewrite CP.
    destruct (process mcn inner D pd kw (erase s)) as [[t split]|] eqn:Ep; [|discriminate]. cbn [bind] in E.
    destruct (hprocess_ok mcn innerH inner vtree (in1 mcn M2) (oV Cs) D pd kw (LK2 mcn M2 Cs pd kw) (outer_fine mcn M2 Cs pd kw) s H0 t split Ho ND (proj1 TK) Ep) as (H1 & s1 & R1 & Er & Ea & Eas & Ho1 & Fu1 & A1).
    rewrite (then_ok _ _ _ _ _ _ _ _ (on_heap_ok _ _ _ _ o _ _ R1)).
    assert (Hc1 : holds H1 None 0 c0). { apply (holds_agree c0 H0 H1 None 0 _ Hc0 A1). intros a [<-|[]] Ia. pose proof (LT _ Ia). unfold c0 in *. lia. }
    assert (L1 : length H0 <= length H1) by apply A1.
    assert (AG1 : agree (fun a => ~ In a (addrs s)) H H1).
    { split; [unfold root in L0; lia|]. intros a Na La. destruct A1 as [_ A1]. rewrite A1; [apply app_old; exact La|exact Na|unfold root in L0; lia]. }
    destruct split; cbn [negb] in E |- *.
    - destruct (split_by_pattern t) as [subs|] eqn:Es; [|discriminate]. cbn [bind] in E.
      match type of E with bind ?m _ = _ => destruct m as [rs|] eqn:Em; [|discriminate] end. cbn [bind] in E. injection E as <-.
      rewrite <- Er in Es. destruct (hsplit_ok H1 s1 subs Ho1 Fu1 ltac:(rewrite Eas; exact ND) Es) as (H2 & sl & R2 & E3 & A2 & Ho2 & N2 & W2).
      rewrite Ea in R2. rewrite (then_ok _ _ _ _ _ _ _ _ (on_heap_ok _ _ _ _ o _ _ R2)).
      assert (TK1 : otok Cs (erase s1)).
      { unfold process in Ep. destruct (proc mcn inner D 0 pd kw [PN None [] (erase s)]) as [p|]; [|discriminate]. cbn [bind] in Ep. injection Ep as Et _.
        rewrite Er, <- Et. split; [apply annotate_tok; apply TKo|rewrite annotate_ents; apply TKo]. }
      assert (YS : Forall2 (fun s0 ts0 => yields (fun body => hloop (X := list yielded) mcn innerH fuel D pd kw (a_addr s0) body) s0 ts0) sl rs).
      { pose proof (otok_split Cs CN _ _ TK1 Es) as FT. rewrite <- E3 in Em, FT. apply mapM_ok in Em.
        assert (IH : forall s0 ts0, otok Cs (erase s0) -> cluster_loop mcn inner fuel D pd kw (erase s0) = Ok ts0 ->
          yields (fun body => hloop (X := list yielded) mcn innerH fuel D pd kw (a_addr s0) body) s0 ts0).
        { intros s0 ts0. apply (loop_yields mcn innerH inner vtree (in1 mcn M2) (oV Cs) D pd kw (LK2 mcn M2 Cs pd kw) (outer_fine mcn M2 Cs pd kw) (otok Cs)).
          - intros t0 T0. apply T0.
          - intros t0 p [X Y]. split; [apply annotate_tok; exact X|rewrite annotate_ents; exact Y].
          - exact (otok_split Cs CN). }
        clear - IH Em FT. remember (map erase sl) as l eqn:El. revert sl El.
        induction Em as [|t0 r0 l rs Et Em IHm]; intros sl El; destruct sl as [|s0 sl]; try discriminate; [constructor|].
        cbn in El. injection El as -> ->. inversion FT; subst. constructor; [apply IH; assumption|apply IHm; auto]. }
      set (J := fun (F : addr -> Prop) (l : list tree) (Hx : heap) (st : list yielded) => exists c ctx, st = o /\ foldM combine_one l (CT [] 0 []) = Ok ctx
         /\ erase c = ptree ctx /\ a_addr c = root /\ holds Hx None 0 c /\ NoDup (addrs c) /\ (forall a, In a (addrs c) -> a = root \/ length H1 <= a)
         /\ (forall a, F a <-> a < length H1 \/ In a (addrs c)) /\ agree (fun a => a < length H1 /\ a <> root) H1 Hx).
      assert (RT : In root (addrs c0)) by (left; reflexivity).
      destruct (each_yields (list yielded) (fun a body => hloop mcn innerH fuel D pd kw a body) sl rs YS body J (List.concat rs) [] [] (fun a => a < length H1) H2 o)
        as (F3 & H3 & st3 & R3 & (c & ctx & X1 & X2 & X3 & X4 & X5 & X6 & X7 & X8 & X9) & A3 & U3).
      { cbn. rewrite app_nil_r. reflexivity. }
      { intros F l Ha Hb st (c & ctx & X1 & X2 & X3 & X4 & X5 & X6 & X7 & X8 & X9) Ag. exists c, ctx. repeat (split; [assumption|]). split; [|split; [exact X6|split; [exact X7|split; [exact X8|]]]].
        - apply (holds_agree c Ha Hb None 0 F X5 Ag). intros a Ia. apply X8. auto.
        - apply (agree_trans _ _ Ha); [exact X9|]. apply (agree_weak F); [|exact Ag]. intros a [La _]. apply X8. auto. }
      { intros F l Hx st (c & ctx & X1 & X2 & X3 & X4 & X5 & X6 & X7 & X8 & X9) a Fa. apply X8 in Fa. destruct Fa as [Fa|Fa]; [destruct X9; lia|exact (holds_lt _ _ _ _ X5 a Fa)]. }
      { intros F l Hx st x r (c & ctx & X1 & X2 & X3 & X4 & X5 & X6 & X7 & X8 & X9) ET Hox Fx Nx DJ.
        assert (exists ct1, combine_one ctx (erase x) = Ok ct1 /\ foldM combine_one (l ++ [erase x]) (CT [] 0 []) = Ok ct1) as (ct1 & C1 & C2).
        { clear - EC ET X2. rewrite ET in EC. rewrite foldM_app in EC |- *. rewrite X2 in *. cbn [bind foldM] in *. destruct (combine_one ctx (erase x)) as [ct1|]; [|discriminate]. exists ct1. auto. }
        destruct (combine_step x c Hx ctx ct1 Hox Fx Nx X5 X6 X3 C1) as (Hy & c' & Q1 & Q2 & Q3 & Q4 & Q5).
        exists (fun a => a < length H1 \/ In a (addrs c')), Hy, st. split; [|split; [|split]].
        - unfold body. rewrite X4 in Q1. exact (on_heap_ok _ _ _ _ st _ _ Q1).
        - exists c', ct1. split; [exact X1|]. split; [exact C2|]. split; [exact Q5|]. split; [rewrite (st_addr _ _ _ _ Q3); exact X4|]. split; [exact Q2|]. split; [exact Q4|].
          split; [|split; [tauto|]].
          + intros a Ia. apply (st_in _ _ _ _ Q3) in Ia. destruct Ia as [Ia|Ia]; [apply X7; exact Ia|]. right. destruct X9. lia.
          + destruct X9 as [LX QX]. split; [pose proof (st_len _ _ _ _ Q3); lia|]. intros a [La Ra] La'. rewrite (st_frame _ _ _ _ Q3); [apply QX; auto|lia|]. intros Ia. apply X7 in Ia. lia.
        - split; [apply (st_len _ _ _ _ Q3)|]. intros a Na La. apply (st_frame _ _ _ _ Q3); [exact La|]. intros Ia. apply Na. apply X8. auto.
        - intros a [La|Ia]; [left; apply X8; auto|]. apply (st_in _ _ _ _ Q3) in Ia. destruct Ia as [Ia|Ia]; [left; apply X8; auto|right; right; lia]. }
      { exists c0, (CT [] 0 []). split; [reflexivity|]. split; [reflexivity|]. split; [reflexivity|]. split; [reflexivity|]. split; [apply (holds_agree c0 H1 H2 None 0 _ Hc1 A2); auto|].
        split; [constructor; [intros []|constructor]|]. split; [intros a [<-|[]]; auto|]. split; [intros a; split; [auto|]; intros [La|[<-|[]]]; [exact La|cbn; lia]|].
        apply (agree_weak (fun _ => True)); auto. }
      { exact Ho2. } { exact N2. } { intros a Ia. pose proof (W2 a Ia). lia. }
      cbn [app] in X2. rewrite EC in X2. injection X2 as <-. subst st3. exists H3, s1, c, true. split; [exact R3|]. split; [rewrite Er; reflexivity|]. split; [rewrite HcBase.erase_cnt; exact CP|]. split; [exact Ea|]. split; [exact Eas|].
      split; [|split; [|split; [exact X4|split; [exact X5|split; [exact X6|split; [|exact X3]]]]]].
      + apply (holds_agree s1 H1 H3 None 0 _ Ho1 X9). intros a Ia. split; [exact (holds_lt _ _ _ _ Ho1 a Ia)|]. rewrite Eas in Ia. pose proof (LT a Ia). lia.
      + destruct AG1 as [L Q]. destruct X9 as [L9 Q9]. split; [lia|]. intros a Na La. rewrite Q9 by (unfold root; lia). apply Q; auto.
      + intros a Ia. apply X7 in Ia. unfold root in *. lia.
    - assert (ts = [t]) as -> by congruence. cbn [foldM] in EC. apply bind_ok in EC. destruct EC as (ct1 & C1 & C2). injection C2 as ->. rewrite <- Er in C1.
      destruct (combine_step s1 c0 H1 (CT [] 0 []) ct Ho1 Fu1 ltac:(rewrite Eas; exact ND) Hc1 ltac:(constructor; [intros []|constructor]) eq_refl C1) as (H2 & c & Q1 & Q2 & Q3 & Q4 & Q5).
      assert (Fr : forall a, In a (addrs s1) -> nth_error H2 a = nth_error H1 a).
      { intros a Ia. apply (st_frame _ _ _ _ Q3); [exact (holds_lt _ _ _ _ Ho1 a Ia)|]. intros [<-|[]]. rewrite Eas in Ia. pose proof (LT _ Ia). lia. }
      exists H2, s1, c, false. split; [unfold body; rewrite <- Ea; exact (on_heap_ok _ _ _ _ o _ _ Q1)|]. split; [rewrite Er; reflexivity|]. split; [rewrite HcBase.erase_cnt; exact CP|]. split; [exact Ea|]. split; [exact Eas|].
      split; [exact (holds_frame _ _ _ _ _ Ho1 Fr)|]. split; [|split; [exact (st_addr _ _ _ _ Q3)|split; [exact Q2|split; [exact Q4|split; [|exact Q5]]]]].
      + destruct AG1 as [L Q]. split; [pose proof (st_len _ _ _ _ Q3); lia|]. intros a Na La. rewrite (st_frame _ _ _ _ Q3); [apply Q; auto|lia|]. intros [<-|[]]. unfold c0, root in La. lia.
      + intros a Ia. apply (st_in _ _ _ _ Q3) in Ia. destruct Ia as [[<-|[]]|Ia]; unfold root in *; lia.
  Qed.
End One.
