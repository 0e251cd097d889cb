(** make() as a generator on the nodes as objects: one step, next(). *)
From Coq Require Import String.
From Verif Require Import PyStr Defs UrlLib ParseUtils Views Trees Cluster Patterns Matcher Maker Spec Observe Heap HeapSpec HCluster HMakeSpec
  PyStrProofs DefsProofs PieceProofs DictProofs TreeProofs EntProofs GenCluster FlatCluster OuterCluster TokProofs MakeProofs
  LoadProofs HeapProofs HeapLoad HeapState HeapTop HcBase HcBag HcLevel HcPaths HcStage HcLen HcRun HcProc HcLoop HcInst AnyOrder AnyGen AnyOuter AnySpec AnyMake
  Lazy LazyProofs HcMake HcState HcTop HLazy HLazySpec.
From Coq Require Import Lia Permutation.

Section Step.
  Context (nv : str -> bool) (mcn : Z) (M2 : (2 <= mcn)%Z).
  Notation inner := (fun (d : nat) (kw : bool) (t : tree) => cluster_n 1 mcn d d kw t).
  Notation innerH := (fun (d : nat) (kw : bool) r b => hcluster_n 1 hproc mcn d d kw r b).
  (** a tree that cluster() can be called on *)
  Definition ready (m : url_meta) (s : atree) : Prop := exists Cs, Cs <> [] /\ length Cs = depth m /\ ofull Cs (erase s).
  Definition clusters (m : url_meta) (n : nat) (t : tree) : Prop := exists ts, cluster_loop mcn inner n (depth m) (path_depth m) false t = Ok ts.
  Lemma ready_clusters : forall m s, ready m s -> exists n, clusters m n (erase s).
  Proof.
    intros m s (Cs & CN & LD & O1 & O2 & O3). destruct (outer_cluster mcn M2 Cs CN (path_depth m) false (erase s) O1 O2 O3) as (tps & EC & _).
    rewrite LD in EC. exists (S (length (paths (erase s)))), (map fst tps). exact EC.
  Qed.
  Lemma ready_wft : forall m s, ready m s -> exists d, wft d (erase s).
  Proof. intros m s (Cs & CN & LD & O1 & _). eexists. apply O1. Qed.

  Definition fate_of (b : bool) (sl : list atree) : fate := if b then FSplit (map a_addr sl) else FYield.
  Lemma item_do : forall m s H n, ready m s -> clusters m n (erase s) -> holds H None 0 s -> NoDup (addrs s) ->
    exists H' s1 b sl, hroot mcn m (a_addr s) H = (H', Ok (fate_of b sl))
      /\ (0 < t_cnt (erase s))%Z /\ process mcn inner (depth m) (path_depth m) false (erase s) = Ok (erase s1, b)
      /\ a_addr s1 = a_addr s /\ addrs s1 = addrs s /\ holds H' None 0 s1 /\ agree (fun a => ~ In a (addrs s)) H H' /\ ready m s1
      /\ (b = false -> sl = [])
      /\ (b = true -> split_by_pattern (erase s1) = Ok (map erase sl) /\ sl <> [] /\ exists n', n = S n' /\ Forall (fun x => clusters m n' (erase x)) sl)
      /\ Forall (holds H' None 0) sl /\ NoDup (flat_map addrs sl) /\ (forall a, In a (flat_map addrs sl) -> length H <= a) /\ Forall (ready m) sl.
  Proof.
    intros m s H n (Cs & CN & LD & TK) (ts & E) Ho ND.
    assert (CP : (t_cnt (erase s) <=? 0)%Z = false) by (apply Z.leb_gt; apply (wft_pos _ _ (proj1 (proj2 (proj1 TK))))).
    destruct n as [|n]; [discriminate|]. cbn [cluster_loop] in E. rewrite CP in E.
    destruct (holds_node _ _ _ _ Ho) as (nd & En & _ & _ & _ & Ec & _).
    assert (RC : reading (fun H => n <- get H (a_addr s) ;; Ok (n_count n)) H = (H, Ok (a_cnt s))) by (unfold reading; rewrite (get_ok _ _ _ En); cbn; rewrite Ec; reflexivity).
    unfold hroot. rewrite (then_ok _ _ _ _ _ _ _ _ RC). pose proof CP as CP'. rewrite HcBase.erase_cnt in CP'. rewrite CP'.
    rewrite <- LD in *.
    destruct (process mcn inner (length Cs) (path_depth m) false (erase s)) as [[t b]|] eqn:Ep; [|discriminate]. cbn [bind] in E.
    destruct (hprocess_ok mcn innerH inner vtree (in1 mcn M2) (oV Cs) (length Cs) (path_depth m) false (LK2 mcn M2 Cs (path_depth m) false) (outer_fine mcn M2 Cs (path_depth m) false) s H t b Ho ND (proj1 TK) Ep) as (H1 & s1 & R1 & Er & Ea & Eas & Ho1 & Fu1 & A1).
    rewrite (then_ok _ _ _ _ _ _ _ _ R1).
    assert (TK1 : ofull Cs (erase s1)).
    { unfold process in Ep. destruct (proc mcn inner (length Cs) 0 (path_depth m) false [PN None [] (erase s)]) as [p|]; [|discriminate]. cbn [bind] in Ep. injection Ep as Et _.
      rewrite Er, <- Et. destruct TK as (T1 & T2 & T3). split; [apply annotate_tok; exact T1|]. split; [rewrite annotate_val; exact T2|rewrite annotate_ents; exact T3]. }
    assert (RD : ready m s1) by (exists Cs; auto).
    destruct b; cbn [negb] in E |- *.
    - destruct (split_by_pattern t) as [subs|] eqn:Es; [|discriminate]. cbn [bind] in E.
      match type of E with bind ?m _ = _ => destruct m as [rs|] eqn:Em; [|discriminate] end.
      rewrite <- Er in Es. destruct (hsplit_ok H1 s1 subs Ho1 Fu1 ltac:(rewrite Eas; exact ND) Es) as (H2 & sl & R2 & E3 & A2 & Ho2 & N2 & W2).
      rewrite Ea in R2. rewrite (then_ok _ _ _ _ _ _ _ _ R2).
      destruct TK1 as (T1 & T2 & T3).
      destruct (split_ok (oV Cs) (oVfun Cs) (oV0 Cs) (length Cs) (FlatCluster.D1 Cs CN) meta_sorted meta_sorted_id (erase s1) T1 T3) as (ids & subs' & Es' & _ & IN & F2 & _).
      assert (subs' = subs) as -> by congruence.
      assert (OS : Forall (otok Cs) subs) by (apply (otok_split Cs CN (erase s1) subs); [split; assumption|exact Es]).
      exists H2, s1, true, sl. split; [reflexivity|]. split; [apply Z.leb_gt; exact CP|]. split; [rewrite Er; reflexivity|]. split; [exact Ea|]. split; [exact Eas|].
      split; [apply (holds_agree s1 H1 H2 None 0 _ Ho1 A2); auto|]. split; [destruct A1 as [L1 Q1], A2 as [L2 Q2]; split; [lia|]; intros a Na La; rewrite Q2 by (auto; lia); apply Q1; auto|].
      split; [exact RD|]. split; [discriminate|]. split; [intros _|].
      + split; [rewrite E3; exact Es|]. split.
        * intros ->. cbn in E3. subst subs. inversion F2; subst. destruct (paths (erase s1)) as [|p0 r0] eqn:EP; [|exact (IN p0 (or_introl eq_refl))].
          apply (ents_nonnil (erase s1)). unfold ents. rewrite EP. reflexivity.
        * exists n. split; [reflexivity|]. apply mapM_ok in Em. rewrite <- E3 in Em. clear -Em LD. unfold clusters. rewrite <- LD.
          remember (map erase sl) as l eqn:El. revert sl El. induction Em as [|t0 r0 l rs Et Em IH]; intros [|s0 sl] El; try discriminate; [constructor|].
          cbn in El. injection El as -> ->. constructor; [eauto|apply IH; reflexivity].
      + split; [exact Ho2|]. split; [exact N2|]. split; [intros a Ia; specialize (W2 a Ia); destruct A1; lia|].
        rewrite <- E3 in F2, OS. clear -F2 OS CN LD. rewrite Forall_map in OS. rewrite Forall_forall in *. intros x Ix. destruct (OS x Ix) as [X1 X2].
        exists Cs. split; [exact CN|]. split; [exact LD|]. split; [exact X1|]. split; [|exact X2].
        revert ids F2. induction sl as [|y sl IH]; intros ids F2; [destruct Ix|]. inversion F2 as [|i0 s0 l0 l1 (_ & B & _) F3]; subst. destruct Ix as [->|Ix]; [exact B|].
        apply (IH ltac:(intros z Iz; apply OS; right; exact Iz) Ix l0 F3).
    - exists H1, s1, false, []. split; [reflexivity|]. split; [apply Z.leb_gt; exact CP|]. split; [rewrite Er; reflexivity|]. split; [exact Ea|]. split; [exact Eas|].
      split; [exact Ho1|]. split; [exact A1|]. split; [exact RD|]. split; [auto|]. split; [discriminate|]. split; [constructor|]. split; [constructor|]. split; [intros a []|constructor].
  Qed.

  (** *** Generators with the trees of their roots *)
  Inductive ggen := QNew | QOn (size taken : nat) (todo : list (url_meta * atree)) | QEnd.
  Definition owns (q : ggen) : list atree := match q with QOn _ _ l => map snd l | _ => [] end.
  Definition ho (q : ggen) : hgen :=
    match q with QNew => HGNew | QOn n k l => HGOn n k (map (fun x => (fst x, a_addr (snd x))) l) | QEnd => HGEnd end.
  Definition lo (q : ggen) : gen :=
    match q with QNew => GNew | QOn n k l => GOn n k (map (fun x => (fst x, ROwn (erase (snd x)))) l) | QEnd => GEnd end.
  Definition qready (q : ggen) : Prop := match q with QOn _ _ l => Forall (fun x => ready (fst x) (snd x)) l | _ => True end.

  Lemma INV_perm : forall h H g fs fs', Permutation fs fs' -> INV nv h H g fs -> INV nv h H g fs'.
  Proof.
    intros h H g fs fs' P [A B C]. split; [|exact B|].
    - eapply whole_perm; [|exact A]. apply Permutation_app_head. exact P.
    - rewrite Forall_forall in *. intros x I. apply C. eapply Permutation_in; [apply Permutation_sym; exact P|exact I].
  Qed.
  Record moved (h : list (str * option str)) (H : heap) (g : ghost) (q : ggen) (D : list atree) (H' : heap) (g' : ghost) (q' : ggen) (E : list atree) : Prop := {
    mv_inv : INV nv h H' g' (owns q' ++ E ++ D);
    mv_ready : qready q';
    mv_grows : ggrows g g';
    mv_len : length H <= length H';
    mv_hm : map hm g' = map hm g
  }.
  Definition given (H : heap) (g : ghost) (q : ggen) (H' : heap) (g' : ghost) (q' : ggen) (E : list atree) (o : hout) : Prop :=
    match o with
    | HYield m r => exists w x, next mcn (map fm g) (lo q) (map fm g') (lo q') (OYield m w (erase x)) /\ a_addr x = r /\ holds H' None 0 x
        /\ match w with None => In x E | Some sid => In (sid, (m, x)) g' end
    | HStop => next mcn (map fm g) (lo q) (map fm g') (lo q') OStop
    | HRuntime => next mcn (map fm g) (lo q) (map fm g') (lo q') ORuntime
    | HRaise _ | HTree _ _ => False
    end.
  Definition goes_on (g : ghost) (q : ggen) (g' : ghost) (q' : ggen) : Prop :=
    forall st gn o, next mcn (map fm g') (lo q') st gn o -> next mcn (map fm g) (lo q) st gn o.
  Lemma moved_trans : forall h H g q D H1 g1 q1 E1 H' g' q' E, moved h H g q D H1 g1 q1 E1 -> moved h H1 g1 q1 (E1 ++ D) H' g' q' E -> moved h H g q D H' g' q' (E ++ E1).
  Proof.
    intros h H g q D H1 g1 q1 E1 H' g' q' E [A1 A2 A3 A4 A5] [B1 B2 B3 B4 B5]. split; [rewrite <- app_assoc; exact B1|exact B2|eapply ggrows_trans; eassumption|lia|congruence].
  Qed.
  Lemma given_later : forall H g q g1 q1 E1 H' g' q' E o, goes_on g q g1 q1 -> forall H1, given H1 g1 q1 H' g' q' E o -> given H g q H' g' q' (E ++ E1) o.
  Proof.
    intros H g q g1 q1 E1 H' g' q' E o GO H1. destruct o as [m r| | |e|m r]; cbn [given]; auto. intros (w & x & N & A & B & C). exists w, x. split; [apply GO; exact N|]. split; [exact A|].
    split; [exact B|]. destruct w; [exact C|apply in_app_iff; auto].
  Qed.
  Lemma lazy_process : forall m t r, process mcn inner (depth m) (path_depth m) false t = r -> process_lazy mcn m t r.
  Proof.
    intros m t r <-. unfold process_lazy. apply (process_is_any mcn inner (fun d kw t => cluster_n_any 1 mcn d d kw t)). intros. apply cluster_n_is_any.
  Qed.
  Lemma lo_subs : forall m sl l, map (fun x : url_meta * atree => (fst x, ROwn (erase (snd x)))) (map (fun s => (m, s)) sl ++ l)
    = map (fun s => (m, ROwn s)) (map erase sl) ++ map (fun x => (fst x, ROwn (erase (snd x)))) l.
  Proof. intros m sl l. rewrite map_app, !map_map. reflexivity. Qed.
  Lemma ho_subs : forall m sl l, map (fun x : url_meta * atree => (fst x, a_addr (snd x))) (map (fun s => (m, s)) sl ++ l)
    = map (fun s => (m, s)) (map a_addr sl) ++ map (fun x : url_meta * atree => (fst x, a_addr (snd x))) l.
  Proof. intros m sl l. rewrite map_app, !map_map. reflexivity. Qed.
  Lemma snd_subs : forall (m : url_meta) (sl : list atree) l, map snd (map (fun s => (m, s)) sl ++ l) = sl ++ map snd l.
  Proof. intros m sl l. rewrite map_app, map_map, map_id. reflexivity. Qed.
  Lemma ready_subs : forall m sl l, Forall (ready m) sl -> Forall (fun x => ready (fst x) (snd x)) l -> Forall (fun x => ready (fst x) (snd x)) (map (fun s => (m, s)) sl ++ l).
  Proof. intros m sl l A B. apply Forall_app. split; [rewrite Forall_map; exact A|exact B]. Qed.
  (** the step of [q] when a root is worked on *)
  Definition worked (h : list (str * option str)) (H : heap) (g : ghost) (q : ggen) (D : list atree) (n : nat) (r : hstate * hgen * option hout) : Prop :=
    exists H' g' q' E o, r = (HS H' (map hm g'), ho q', o) /\ moved h H g q D H' g' q' E /\
      match o with
      | Some o => given H g q H' g' q' E o
      | None => goes_on g q g' q' /\ exists n' size k m s l, n = S n' /\ q' = QOn size k ((m, s) :: l) /\ clusters m n' (erase s)
      end.

  Lemma own_work : forall h H g size k m s l D n, INV nv h H g (owns (QOn size k ((m, s) :: l)) ++ D) -> qready (QOn size k ((m, s) :: l)) -> clusters m n (erase s) ->
    worked h H g (QOn size k ((m, s) :: l)) D n (hstep mcn (HS H (map hm g)) (ho (QOn size k ((m, s) :: l)))).
  Proof.
    intros h H g size k m s l D n IV RD CL. cbn [owns map snd app] in IV. cbn [qready] in RD. apply Forall_cons_iff in RD. destruct RD as [RD RL]. cbn [fst snd] in RD.
    pose proof (in_whole _ _ _ _ _ IV) as W. destruct (whole_in _ _ s W ltac:(apply in_app_iff; right; left; reflexivity)) as [Hs ND].
    destruct (item_do m s H n RD CL Hs ND) as (H' & s1 & b & sl & R & CP & EP & Ea & Eas & Ho1 & AG & RD1 & B0 & B1 & Hsl & Nsl & Fsl & Rsl).
    assert (W1 : whole H' (gt g ++ s1 :: (map snd l ++ D))).
    { apply (whole_rep H H' _ s); [exact W|exact Ho1|rewrite Eas; exact ND|exact AG|]. intros c Ic. rewrite Eas in Ic. auto. }
    assert (W2 : whole H' ((gt g ++ s1 :: (map snd l ++ D)) ++ sl)).
    { apply whole_app; [exact W1|exact Hsl|exact Nsl|]. intros a Ia Ix. apply Fsl in Ix. assert (a < length H); [|lia]. apply (whole_lt _ _ _ W).
      rewrite flat_map_app in *. cbn [flat_map] in *. rewrite <- Eas. exact Ia. }
    set (q' := QOn size k (map (fun s => (m, s)) sl ++ l)).
    assert (MV : moved h H g (QOn size k ((m, s) :: l)) D H' g q' [s1]).
    { split; [split| | | |].
      - eapply whole_perm; [|exact W2]. cbn [q' owns]. rewrite snd_subs, <- (app_assoc (gt g)). apply Permutation_app_head. cbn [app].
        apply Permutation_trans with (s1 :: (sl ++ map snd l) ++ D); [|apply Permutation_middle]. constructor.
        rewrite <- (app_assoc sl). apply Permutation_app_comm.
      - exact (in_bare _ _ _ _ _ IV).
      - pose proof (in_wft _ _ _ _ _ IV) as WF. apply Forall_cons_iff in WF. destruct WF as [_ WF]. apply Forall_app in WF. destruct WF as [WF1 WF2].
        cbn [q' owns]. rewrite snd_subs, !Forall_app. split; [split; [|exact WF1]|split; [constructor; [eapply ready_wft; exact RD1|constructor]|exact WF2]].
        eapply Forall_impl; [|exact Rsl]. intros x. apply ready_wft.
      - cbn [q' qready]. apply ready_subs; assumption.
      - apply ggrows_refl.
      - apply AG.
      - reflexivity. }
    cbn [ho map hstep]. unfold hwork. cbn [fst snd hs_heap hs_makers]. rewrite R. exists H', g, q', [s1]. unfold fate_of.
    assert (TR : tree_of (map fm g) (ROwn (erase s)) = erase s) by reflexivity.
    destruct b.
    - destruct (B1 eq_refl) as (ES & NE & n' & -> & CS). exists None. split; [cbn [q' ho]; rewrite ho_subs; reflexivity|]. split; [exact MV|]. split.
      + intros st gn o N. eapply next_later; [|exact N]. cbn [lo map fst snd q']. rewrite lo_subs. change (map fm g) with (write (map fm g) (ROwn (erase s)) (erase s1)) at 2. eapply g_split; [exact CP|apply lazy_process; exact EP|exact ES].
      + destruct sl as [|s0 sl]; [congruence|]. exists n', size, k, m, s0, (map (fun s => (m, s)) sl ++ l). split; [reflexivity|]. split; [reflexivity|]. apply Forall_inv in CS. exact CS.
    - pose proof (B0 eq_refl) as SL0. subst sl. exists (Some (HYield m (a_addr s))). split; [reflexivity|]. split; [exact MV|]. exists None, s1. split; [|split; [exact Ea|split; [exact Ho1|left; reflexivity]]].
      apply next_now. cbn [lo map fst snd q' app]. change (map fm g) with (write (map fm g) (ROwn (erase s)) (erase s1)) at 2. change None with (maker_of (ROwn (erase s))). apply g_yield; [exact CP|apply lazy_process; exact EP].
  Qed.
  Lemma maker_work : forall h H g size k sid m s D n, INV nv h H g D -> length g = size -> nth_error g k = Some (sid, (m, s)) -> clusters m n (erase s) ->
    worked h H g (QOn size k []) D n (hstep mcn (HS H (map hm g)) (ho (QOn size k []))).
  Proof.
    intros h H g size k sid m s D n IV LS EK CL.
    assert (RD : ready m s) by (apply (ghost_full _ _ _ _ _ _ _ _ IV (nth_error_In _ _ EK))).
    assert (NK : NoDup (map fst g)).
    { destruct (c18_keys nv h) as [X _]. rewrite <- (in_bare _ _ _ _ _ IV), keys_bare, map_map in X. exact X. }
    pose proof EK as EK0. apply nth_error_split in EK0. destruct EK0 as (x & y & EG & LX).
    assert (GS : forall z, gt (x ++ (sid, (m, z)) :: y) ++ D = gt x ++ z :: (gt y ++ D)) by (intros z; unfold gt; rewrite map_app; cbn [map snd]; rewrite <- app_assoc; reflexivity).
    pose proof (in_whole _ _ _ _ _ IV) as W. rewrite EG, GS in W. destruct (whole_in _ _ s W ltac:(apply in_app_iff; right; left; reflexivity)) as [Hs ND].
    destruct (item_do m s H n RD CL Hs ND) as (H' & s1 & b & sl & R & CP & EP & Ea & Eas & Ho1 & AG & RD1 & B0 & B1 & Hsl & Nsl & Fsl & Rsl).
    set (g' := x ++ (sid, (m, s1)) :: y).
    assert (W1 : whole H' (gt g' ++ D)).
    { unfold g'. rewrite GS. apply (whole_rep H H' _ s); [exact W|exact Ho1|rewrite Eas; exact ND|exact AG|]. intros c Ic. rewrite Eas in Ic. auto. }
    assert (W2 : whole H' ((gt g' ++ D) ++ sl)).
    { apply whole_app; [exact W1|exact Hsl|exact Nsl|]. intros a Ia Ix. apply Fsl in Ix. assert (a < length H); [|lia]. apply (whole_lt _ _ _ W).
      unfold g' in Ia. rewrite GS in Ia. rewrite flat_map_app in *. cbn [flat_map] in *. rewrite <- Eas. exact Ia. }
    assert (HM : map hm g' = map hm g) by (rewrite EG; unfold g'; rewrite !map_app; cbn [map]; unfold hm at 2 5; cbn [fst snd]; rewrite Ea; reflexivity).
    assert (GR : grows s s1) by (apply same_shape_grows; [symmetry; eapply bare_process; exact EP|symmetry; exact Eas]).
    set (q' := QOn size (S k) (map (fun s => (m, s)) sl)).
    assert (MV : moved h H g (QOn size k []) D H' g' q' []).
    { split; [split| | | |].
      - eapply whole_perm; [|exact W2]. cbn [q' owns app]. rewrite map_map, map_id, <- app_assoc. apply Permutation_app_head. apply Permutation_app_comm.
      - rewrite <- (in_bare _ _ _ _ _ IV), EG. unfold g', bare_state. rewrite !map_app. cbn [map]. f_equal. f_equal. unfold fm, bare_maker. cbn [fst snd mk_meta mk_root].
        rewrite (bare_process _ _ _ _ _ _ _ _ EP). reflexivity.
      - cbn [q' owns app]. rewrite map_map, map_id, Forall_app. split; [|exact (in_wft _ _ _ _ _ IV)]. eapply Forall_impl; [|exact Rsl]. intros z. apply ready_wft.
      - cbn [q' qready]. rewrite Forall_map. exact Rsl.
      - rewrite EG. intros sid0 m1 s0 I. apply in_app_iff in I. destruct I as [I|[I|I]].
        + exists s0. split; [apply in_app_iff; auto|apply grows_refl].
        + injection I as <- <- <-. exists s1. split; [apply in_app_iff; right; left; reflexivity|exact GR].
        + exists s0. split; [apply in_app_iff; right; right; exact I|apply grows_refl].
      - apply AG.
      - exact HM. }
    assert (DG : dget str_eqb sid (map fm g) = Some (MK m (erase s))).
    { rewrite (HeapState.dget_map _ _ fm (fun v => MK (fst v) (erase (snd v))) sid g) by reflexivity. rewrite (dget_in str_eqb str_eqb_iff _ _ _ NK (nth_error_In _ _ EK)). reflexivity. }
    assert (TR : tree_of (map fm g) (RMaker sid) = erase s) by (cbn [tree_of]; rewrite DG; reflexivity).
    assert (WR : write (map fm g) (RMaker sid) (erase s1) = map fm g').
    { cbn [write]. rewrite DG. cbn [mk_meta]. rewrite EG. unfold g'. rewrite !map_app. cbn [map]. unfold fm at 2. cbn [fst snd]. rewrite dset_mid; [reflexivity|].
      rewrite map_map. cbn [fst fm]. rewrite EG, map_app in NK. cbn [map fst] in NK. apply NoDup_remove_2 in NK. intros I. apply NK. apply in_app_iff. left. exact I. }
    assert (TK : gstep mcn (map fm g) (GOn size k []) (map fm g) (GOn size (S k) [(m, RMaker sid)]) None).
    { change m with (mk_meta (MK m (erase s))) at 1. apply g_take; [rewrite map_length; exact LS|]. apply (map_nth_error fm) in EK. exact EK. }
    cbn [ho map hstep hs_makers]. rewrite map_length, LS, Nat.eqb_refl. cbn [negb]. rewrite (map_nth_error hm _ _ EK). unfold hwork. cbn [hm hk_meta hk_root fst snd hs_heap hs_makers]. rewrite R. exists H', g', q', []. unfold fate_of.
    destruct b.
    - destruct (B1 eq_refl) as (ES & NE & n' & -> & CS). exists None. split; [rewrite HM; cbn [q' ho]; rewrite !map_map, app_nil_r; reflexivity|]. split; [exact MV|]. split.
      + intros st gn o N. eapply next_later; [exact TK|]. eapply next_later; [|exact N]. rewrite <- WR. cbn [lo q'].
        replace (map (fun x0 : url_meta * atree => (fst x0, ROwn (erase (snd x0)))) (map (fun s : atree => (m, s)) sl)) with (map (fun s => (m, ROwn s)) (map erase sl) ++ []) by (rewrite app_nil_r, !map_map; reflexivity).
        eapply g_split; [rewrite TR; exact CP|rewrite TR; apply lazy_process; exact EP|exact ES].
      + destruct sl as [|s0 sl]; [congruence|]. exists n', size, (S k), m, s0, (map (fun s => (m, s)) sl). split; [reflexivity|]. split; [reflexivity|]. apply Forall_inv in CS. exact CS.
    - pose proof (B0 eq_refl) as SL0. subst sl. exists (Some (HYield m (a_addr s))). split; [rewrite HM; reflexivity|]. split; [exact MV|].
      exists (Some sid), s1. split; [|split; [exact Ea|split; [exact Ho1|unfold g'; apply in_app_iff; right; left; reflexivity]]].
      eapply next_later; [exact TK|]. apply next_now. rewrite <- WR. change (Some sid) with (maker_of (RMaker sid)). apply g_yield; [rewrite TR; exact CP|rewrite TR; apply lazy_process; exact EP].
  Qed.

  (** *** next() *)
  Definition nexted (h : list (str * option str)) (H : heap) (g : ghost) (q : ggen) (D : list atree) : Prop :=
    exists H' g' q' o E, hnext mcn (HS H (map hm g)) (ho q) (HS H' (map hm g')) (ho q') o /\ moved h H g q D H' g' q' E /\ given H g q H' g' q' E o.
  Lemma later : forall h H g q D H1 g1 q1 E1, hstep mcn (HS H (map hm g)) (ho q) = (HS H1 (map hm g1), ho q1, None) -> moved h H g q D H1 g1 q1 E1 -> goes_on g q g1 q1 ->
    nexted h H1 g1 q1 (E1 ++ D) -> nexted h H g q D.
  Proof.
    intros h H g q D H1 g1 q1 E1 ST MV GO (H' & g' & q' & o & E & N & MV' & GV). exists H', g', q', o, (E ++ E1). split; [eapply hnext_later; eassumption|].
    split; [eapply moved_trans; eassumption|eapply given_later; eassumption].
  Qed.
  Lemma head_next : forall n h H g size k m s l D, INV nv h H g (owns (QOn size k ((m, s) :: l)) ++ D) -> qready (QOn size k ((m, s) :: l)) -> clusters m n (erase s) ->
    nexted h H g (QOn size k ((m, s) :: l)) D.
  Proof.
    intros n. induction n as [|n IH]; intros h H g size k m s l D IV RD CL; [destruct CL; discriminate|].
    destruct (own_work h H g size k m s l D _ IV RD CL) as (H1 & g1 & q1 & E1 & o & ST & MV & X). destruct o as [o|].
    - exists H1, g1, q1, o, E1. split; [apply hnext_now; exact ST|]. auto.
    - destruct X as (GO & n' & size' & k' & m' & s' & l' & En & -> & CL'). injection En as <-. eapply later; [exact ST|exact MV|exact GO|].
      apply IH; [apply (mv_inv _ _ _ _ _ _ _ _ _ MV)|apply (mv_ready _ _ _ _ _ _ _ _ _ MV)|exact CL'].
  Qed.
  Lemma on_next : forall h H g size k D, INV nv h H g D -> nexted h H g (QOn size k []) D.
  Proof.
    intros h H g size k D IV.
    assert (ID : forall o, hstep mcn (HS H (map hm g)) (HGOn size k []) = (HS H (map hm g), HGEnd, Some o) -> given H g (QOn size k []) H g QEnd [] o -> nexted h H g (QOn size k []) D).
    { intros o ST GV. exists H, g, QEnd, o, []. split; [apply hnext_now; exact ST|]. split; [|exact GV]. split; [exact IV|exact I|apply ggrows_refl|lia|reflexivity]. }
    destruct (Nat.eq_dec (length g) size) as [LS|LS].
    - destruct (nth_error g k) as [[sid [m s]]|] eqn:EK.
      + destruct (ready_clusters m s (ghost_full _ _ _ _ _ _ _ _ IV (nth_error_In _ _ EK))) as (n & CL).
        destruct (maker_work h H g size k sid m s D n IV LS EK CL) as (H1 & g1 & q1 & E1 & o & ST & MV & X). destruct o as [o|].
        * exists H1, g1, q1, o, E1. split; [apply hnext_now; exact ST|]. auto.
        * destruct X as (GO & n' & size' & k' & m' & s' & l' & En & -> & CL'). eapply later; [exact ST|exact MV|exact GO|].
          eapply head_next; [apply (mv_inv _ _ _ _ _ _ _ _ _ MV)|apply (mv_ready _ _ _ _ _ _ _ _ _ MV)|exact CL'].
      + apply (ID HStop).
        * cbn [hstep hs_makers]. rewrite map_length, LS, Nat.eqb_refl. cbn [negb]. rewrite nth_error_map, EK. reflexivity.
        * apply next_now. apply g_stop; [rewrite map_length; exact LS|rewrite nth_error_map, EK; reflexivity].
    - apply (ID HRuntime).
      + cbn [hstep hs_makers]. rewrite map_length. apply Nat.eqb_neq in LS. rewrite LS. reflexivity.
      + apply next_now. apply g_size. rewrite map_length. exact LS.
  Qed.
  Lemma next_do : forall h H g q D, INV nv h H g (owns q ++ D) -> qready q -> nexted h H g q D.
  Proof.
    intros h H g [|size k [|[m s] l]|] D IV RD.
    - eapply later with (E1 := []) (q1 := QOn (length g) 0 []); [cbn [hstep ho]; cbn [hs_makers]; rewrite map_length; reflexivity| | |].
      + split; [exact IV|constructor|apply ggrows_refl|lia|reflexivity].
      + intros st gn o N. eapply next_later; [|exact N]. cbn [lo map]. replace (length g) with (length (map fm g)) by apply map_length. apply g_start.
      + apply on_next. exact IV.
    - apply on_next. exact IV.
    - destruct (ready_clusters m s ltac:(apply Forall_inv in RD; exact RD)) as (n & CL). exact (head_next n h H g size k m s l D IV RD CL).
    - exists H, g, QEnd, HStop, []. split; [apply hnext_now; reflexivity|]. split; [split; [exact IV|exact I|apply ggrows_refl|lia|reflexivity]|]. apply next_now. constructor.
  Qed.
  Lemma hnext_det : forall st g st' g' o, hnext mcn st g st' g' o -> forall st2 g2 o2, hnext mcn st g st2 g2 o2 -> st2 = st' /\ g2 = g' /\ o2 = o.
  Proof.
    intros st g st' g' o N. induction N as [st g st' g' o E|st g st1 g1 st' g' o E N IH]; intros st2 g2 o2 N2; inversion N2; subst.
    - match goal with X : hstep _ _ _ = _ |- _ => rewrite E in X; inversion X; auto end.
    - match goal with X : hstep _ _ _ = _ |- _ => rewrite E in X; discriminate end.
    - match goal with X : hstep _ _ _ = _ |- _ => rewrite E in X; discriminate end.
    - match goal with X : hstep _ _ _ = _ |- _ => rewrite E in X; inversion X; subst end. apply IH. assumption.
  Qed.
End Step.
