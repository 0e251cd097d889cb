(** The level of a piece tree where the texts differ in one run (C67). *)
From Coq Require Import String.
From Verif Require Import PyStr Defs UrlLib ParseUtils Views Trees Cluster Spec Patterns Matcher Maker Observe MatchSpec OneSpec PyStrProofs DefsProofs DictProofs RegexProofs PieceProofs LengthProofs BridgeProofs GroupProofs TreeProofs TokProofs LengthStage PieceStage EntProofs GenCluster FlatCluster ViewProofs KeyProofs TokUniq RouteProofs MultiStage OuterLevel OuterCluster AnyOuter OneLevel OneTree OneCluster FanCluster RunFam RunFlat RunStage RunView RunLevel RunInert.
From Coq Require Import Lia Permutation.

Section RO.
  Context (mcn : Z) (M2 : (2 <= mcn)%Z) (level : nat) (L1 : (1 <= level)%nat) (ll lp : bool).
  Context (r : str) (RA RB : list run) (TX : str -> str) (FT : fam r RA RB TX).
  Context (As : list str) (ga gb : list run) (Bs : list str) (FG : fam r ga gb (fun s => cat (ga ++ (r, s) :: gb))) (oc : option cls).
  Context (OC : forall s, one_sp r s -> dcl (dest_piece mcn lp (pp_of (TX s))) = oc).
  Context (SPL : forall c, exists As ga gb Bs, splits r TX c As ga gb Bs).
  (** the piece is worked on as a whole, or part by part *)
  Definition whole_mode : Prop := (oc = None \/ (oc = Some CLdsf /\ exists As' ga' gb', splits r TX CLdsf As' ga' gb' [])) /\ As = [] /\ Bs = [] /\ forall s, one_sp r s -> cat (ga ++ (r, s) :: gb) = TX s.
  Definition part_mode : Prop := exists c, oc = Some c /\ splits r TX c As ga gb Bs /\ (is_nil Bs && cls_eqb c CLdsf)%bool = false.
  Context (MODE : whole_mode \/ part_mode).
  Notation C := (gC r RA RB). Notation G s := (cat (ga ++ (r, s) :: gb)).
  Notation inner := (fun (d : nat) (kw : bool) (t : tree) => cluster_n 1 mcn d d kw t).
  Notation preA := (map (fun s => Pc s) As). Notation postB := (map (fun s => Pc s) Bs).
  Definition WX (ss : list str) (s : str) : str := List.concat (preA ++ pstr (G s) (okind mcn ss s) :: postB).
  Lemma LEG : forall s, one_sp r s -> all_legal (TX s).
  Proof. intros s O. apply (g_legal r RA RB TX FT s O). Qed.
  Lemma TNE : forall s, one_sp r s -> TX s <> [].
  Proof. intros s O. apply (g_non r RA RB TX FT s O). Qed.
  Lemma tx_inj : forall s t, one_sp r s -> one_sp r t -> Pc (TX s) = Pc (TX t) -> s = t.
  Proof. intros s t O P. apply (gp_inj r RA RB TX FT s t O P). Qed.
  Lemma dest_ok : forall s, one_sp r s -> match dest_piece mcn lp (pp_of (TX s)) with DView c v => is3 c /\ vok c (TX s) /\ v = map vpart (vsv c (TX s)) | DLength => True end.
  Proof.
    intros s O. pose proof (dest_piece_inv mcn M2 lp (TX s) (LEG s O) (TNE s O)) as X. destruct (dest_piece mcn lp (pp_of (TX s))) as [c v|]; [|exact Logic.I]. destruct X as [OB X]. unfold is3. destruct c; try contradiction; cbn [vok vsv].
    - auto. - destruct X as (X1 & X2 & _). split; [auto|]. split; [split; assumption|exact X1]. - destruct X as (X1 & _ & X2 & _). split; [auto|]. split; [split; assumption|exact X1].
  Qed.
  Lemma oc_ok : forall s c, one_sp r s -> oc = Some c -> is3 c /\ vok c (TX s) /\ dest_piece mcn lp (pp_of (TX s)) = DView c (map vpart (vsv c (TX s))).
  Proof.
    intros s c O E. pose proof (dest_ok s O) as X. pose proof (OC s O) as Y. destruct (dest_piece mcn lp (pp_of (TX s))) as [c' v|]; cbn [dcl] in Y; [|congruence]. assert (c' = c) by congruence. subst c'. destruct X as (X1 & X2 & X3). split; [exact X1|]. split; [exact X2|]. rewrite X3. reflexivity.
  Qed.
  Lemma wx_lit : forall ss s, one_sp r s -> okind mcn ss s = KLit -> WX ss s = Pc (TX s).
  Proof.
    intros ss s O K. unfold WX. rewrite K. change (pstr (G s) KLit) with (Pc (G s)). destruct MODE as [(_ & -> & -> & E)|(c & E & [_ SV] & _)].
    - rewrite (E s O). cbn. rewrite app_nil_r. reflexivity.
    - destruct (oc_ok s c O E) as (C3 & OK & _). pose proof (vw_P _ _ _ (vwl_of c C3) (TX s) (LEG s O) OK) as X. rewrite (SV s O), map_app in X. exact X.
  Qed.
  (** what is left after the cluster of the view *)
  Lemma left_over : forall c sv ok (its : list Cluster.item) ss dA fA l dB lls, oneset r ss -> ss <> [] -> steadyb mcn ss -> (mcn <= Z.of_nat (length ss))%Z ->
    Permutation (map it_piece its) (map (fun s => Pc (TX s)) ss) -> NoDup (map it_piece its) -> NoDup (map pc l) ->
    mspec mcn lp c sv ok l dA fA ->
    (forall s, In s ss -> okind mcn ss s <> KLit -> In (c, Pc (TX s), WX ss s) dA) ->
    (forall s, In s ss -> okind mcn ss s = KLit -> exists vi, In vi l /\ pc vi = Pc (TX s) /\ In (forward lp c vi) fA) ->
    Permutation (map it_piece its) (map key dA ++ map key dB ++ map it_piece lls) -> dB = [] \/ (mcn <= Z.of_nat (length dB))%Z ->
    dB = [] /\ (Z.of_nat (length lls) < mcn)%Z /\ forall s, In s ss -> okind mcn ss s = KLit -> In (Pc (TX s)) (map it_piece lls).
  Proof.
    intros c sv ok its ss dA fA l dB lls OS SN ST BIG PI NI NL MSP HA HB PP DB. pose proof OS as [NS ON]. rewrite Forall_forall in ON.
    assert (LEN : length ss = length dA + length dB + length lls). { apply Permutation_length in PP. apply Permutation_length in PI. rewrite !app_length, !map_length in *. lia. }
    pose proof (lits_few mcn M2 ss SN ST BIG) as FEW. pose proof (filter_split_len _ (litb mcn ss) ss) as FS.
    assert (LA : length (filter (fun s => negb (litb mcn ss s)) ss) <= length dA).
    { rewrite <- (map_length (fun s => Pc (TX s))), <- (map_length key dA). apply NoDup_incl_length.
      - apply NoDup_map_on; [apply NoDup_filter; exact NS|]. intros x y X Y E. apply filter_In in X, Y. apply tx_inj; [apply ON; apply X|apply ON; apply Y|exact E].
      - intros k K. apply in_map_iff in K. destruct K as (s & <- & K). apply filter_In in K. destruct K as [K1 K2]. apply in_map_iff. exists (c, Pc (TX s), WX ss s). split; [reflexivity|]. apply HA; [exact K1|].
        intros X. unfold litb in K2. rewrite X in K2. discriminate. }
    assert (TOT : (Z.of_nat (length dB) + Z.of_nat (length lls) < mcn)%Z) by (clear - LEN FEW FS LA; lia).
    assert (ED : dB = []) by (destruct DB as [->|DB]; [reflexivity|lia]). subst dB. split; [reflexivity|]. split; [cbn [length] in TOT; lia|].
    intros s I K. assert (J : In (Pc (TX s)) (map it_piece its)). { eapply Permutation_in; [symmetry; exact PI|]. apply in_map_iff. exists s. auto. }
    eapply Permutation_in in J; [|exact PP]. cbn [map app] in J. apply in_app_or in J. destruct J as [J|J]; [|exact J]. exfalso.
    destruct (HB s I K) as (vi & V1 & V2 & V3). destruct MSP as (parts & fwl & P1 & P2 & P3 & _).
    eapply Permutation_in in V3; [|exact P3]. apply in_map_iff in V3. destruct V3 as (w & W1 & W2). assert (SW : snd w = snd vi) by (unfold forward in W1; inversion W1; reflexivity).
    apply in_map_iff in J. destruct J as (e & E1 & E2). eapply Permutation_in in E2; [|exact P2]. apply in_flat_map in E2. destruct E2 as (p & E2 & E3). unfold pdone in E3. apply in_map_iff in E3. destruct E3 as (v & E3 & E4). subst e. cbn [key fst snd] in E1.
    assert (X : NoDup (map pc (flat_map fst parts) ++ map pc fwl)). { rewrite <- map_app. eapply Permutation_NoDup; [apply Permutation_map; exact P1|exact NL]. }
    eapply (NoDup_app_disj _ _ _ X (pc v)).
    - apply in_map. apply in_flat_map. eauto.
    - apply in_map_iff. exists w. split; [|exact W2]. unfold pc at 1. rewrite SW. unfold key in E1. cbn [fst snd] in E1. fold (pc vi). rewrite V2. symmetry. exact E1.
  Qed.
  Lemma lit_all : forall ss, (mcn <= Z.of_nat (length ss))%Z -> ~ steadyb mcn ss -> forall c, LIT mcn r TX ss c.
  Proof.
    intros ss BIG NS c. destruct (SPL c) as (As' & ga' & gb' & Bs' & SP). exists As', ga', gb', Bs'. split; [exact SP|]. intros s I. unfold kd. destruct (is_nil Bs' && cls_eqb c CLdsf)%bool; [reflexivity|]. apply unsteady_lit; assumption.
  Qed.
  Lemma run_level_fan : forall ns ss, ns <> [] -> oneset r ss -> Permutation (map (fun n => t_val (pn_tree n)) ns) (map (fun s => pp_of (TX s)) ss) -> Forall (fun n => pn_cnt n = 1%Z) ns ->
    exists dn, run_level mcn inner level ll lp false ns = Ok dn /\ forall s, In s ss -> dget str_eqb (Pc (TX s)) (pattern_map dn) = Some (WX ss s).
  Proof.
    intros ns ss NE OS PE C1. pose proof OS as [NS ON]. pose proof ON as ON'. rewrite Forall_forall in ON'.
    assert (PP : Permutation (map pn_piece ns) (map (fun s => Pc (TX s)) ss)).
    { apply (Permutation_map piece) in PE. rewrite !map_map in PE. exact PE. }
    assert (NDP : NoDup (map pn_piece ns)).
    { eapply Permutation_NoDup; [symmetry; exact PP|]. apply NoDup_map_on; [exact NS|]. intros x y X Y. apply tx_inj; apply ON'; assumption. }
    assert (LEN : length ns = length ss) by (apply Permutation_length in PE; rewrite !map_length in PE; exact PE).
    assert (SN : ss <> []) by (intros ->; destruct ns; [congruence|discriminate LEN]).
    assert (POS : Forall (fun n => 0 < pn_cnt n)%Z ns) by (eapply Forall_impl; [|exact C1]; intros n H; cbn beta in H; lia).
    assert (NV : forall n, In n ns -> exists s, In s ss /\ t_val (pn_tree n) = pp_of (TX s)).
    { intros n I. assert (X : In (t_val (pn_tree n)) (map (fun s => pp_of (TX s)) ss)) by (eapply Permutation_in; [exact PE|]; apply (in_map (fun n => t_val (pn_tree n))); exact I). apply in_map_iff in X. destruct X as (s & X1 & X2). exists s. auto. }
    assert (FI : bags ns = map (fun n => (pn_piece n, [n])) ns) by (apply dgroup_distinct; exact NDP).
    assert (IPP : Permutation (map it_pp (items ns)) (map (fun s => pp_of (TX s)) ss)). { unfold items. rewrite FI, !map_map. cbn [fst snd first_val it_pp]. exact PE. }
    assert (IPC : Permutation (map it_piece (items ns)) (map (fun s => Pc (TX s)) ss)). { apply (Permutation_map piece) in IPP. rewrite !map_map in IPP. exact IPP. }
    assert (ONE : Forall (fun i => it_count i = 1%Z) (items ns)).
    { unfold items. rewrite FI, map_map. cbn [fst snd]. clear - C1. induction C1 as [|n ns H C1 IH]; [constructor|]. cbn [map]. constructor; [|exact IH]. unfold it_count, bag_count. cbn [it_bag map zsum fold_right]. rewrite H. reflexivity. }
    rewrite Forall_forall in ONE.
    destruct (outer_level mcn M2 level ll lp false C ns NE ltac:(lia)) as (dn & RL & KP & _ & _ & FEWL & _).
    { apply Forall_forall. intros n I. destruct (NV n I) as (s & S1 & S2). rewrite Forall_forall in POS. split; [|apply POS; exact I]. exists (TX s). split; [apply LEG, ON'; exact S1|]. split; [exact S2|]. apply (g_cset r RA RB TX FT), ON'. exact S1. }
    exists dn. split; [exact RL|].
    enough (G : forall s, In s ss -> exists c', In (c', Pc (TX s), WX ss s) dn).
    { intros s I. destruct (G s I) as (c' & X). apply dget_in; [exact str_eqb_iff| |].
      - unfold pattern_map. rewrite map_map. cbn [fst]. change (NoDup (map key dn)). eapply Permutation_NoDup; [symmetry; exact KP|apply items_NoDup].
      - unfold pattern_map. apply in_map_iff. exists (c', Pc (TX s), WX ss s). split; [reflexivity|exact X]. }
    destruct (Z.ltb_spec (Z.of_nat (length ss)) mcn) as [FEW|BIG].
    { intros s I. assert (ZS : zsum (map pn_cnt ns) = Z.of_nat (length ns)).
      { clear - C1. induction C1 as [|n ns H C1 IH]; [reflexivity|]. cbn [map zsum fold_right length]. change (fold_right Z.add 0%Z (map pn_cnt ns)) with (zsum (map pn_cnt ns)). rewrite IH, H. lia. }
      assert (ZF : (zsum (map pn_cnt ns) < mcn)%Z) by (rewrite ZS, LEN; exact FEW). specialize (FEWL (or_introl ZF)). rewrite Forall_forall in FEWL.
      assert (J : In (Pc (TX s)) (map key dn)). { eapply Permutation_in; [symmetry; exact KP|]. eapply Permutation_in; [symmetry; exact IPC|]. apply in_map_iff. exists s. auto. }
      apply in_map_iff in J. destruct J as ([[c' k] q] & J1 & J2). pose proof (FEWL _ J2) as Q. cbn [key fst snd] in J1, Q. unfold key in Q, J1. cbn [fst snd] in J1, Q. subst k q. exists c'. rewrite wx_lit; [exact J2|apply ON'; exact I|]. unfold okind. rewrite (proj2 (Z.ltb_lt _ _) FEW). reflexivity. }
    (* the stages *)
    pose proof (piece_stage_ones mcn level ll lp false ns M2 (andb_false_r ll) NDP C1 NE ltac:(rewrite LEN; exact BIG)) as PS.
    assert (IS : forall i, In i (items ns) -> exists s, In s ss /\ it_pp i = pp_of (TX s)).
    { intros i I. assert (X : In (it_pp i) (map (fun s => pp_of (TX s)) ss)) by (eapply Permutation_in; [exact IPP|]; apply in_map; exact I). apply in_map_iff in X. destruct X as (s & X1 & X2). exists s. auto. }
    assert (SI : forall s, In s ss -> exists i, In i (items ns) /\ it_pp i = pp_of (TX s)).
    { intros s I. assert (X : In (pp_of (TX s)) (map it_pp (items ns))) by (eapply Permutation_in; [symmetry; exact IPP|]; apply in_map_iff; exists s; auto). apply in_map_iff in X. destruct X as (i & X1 & X2). exists i. auto. }
    assert (IO : Forall (fun i => (exists s, ist i s /\ s <> [] /\ cset s = C) /\ it_pat i = it_piece i /\ (0 < it_count i)%Z) (items ns)).
    { apply Forall_forall. intros i I. destruct (IS i I) as (s & S1 & S2). pose proof (ON' s S1) as O. split; [exists (TX s); split; [split; [apply LEG; exact O|exact S2]|]; split; [apply TNE; exact O|apply (g_cset r RA RB TX FT); exact O]|].
      split; [apply (items_pat ns); exact I|]. rewrite (ONE i I). lia. }
    assert (LS : (exists c, oc = Some c /\ splits r TX c As ga gb Bs /\ (is_nil Bs && cls_eqb c CLdsf)%bool = false /\ steadyb mcn ss) \/
      ((forall c, is3 c -> oc <> None -> (oc = Some CLdsf -> c = CLdsf) -> LIT mcn r TX ss c) /\ forall s, In s ss -> pstr (TX s) (okind mcn ss s) = WX ss s)).
    { assert (UN : ~ steadyb mcn ss -> (forall c, is3 c -> oc <> None -> (oc = Some CLdsf -> c = CLdsf) -> LIT mcn r TX ss c) /\ forall s, In s ss -> pstr (TX s) (okind mcn ss s) = WX ss s).
      { intros NS'. split; [intros c _ _ _; apply lit_all; assumption|]. intros s I. pose proof (unsteady_lit mcn ss s BIG NS' I) as K. rewrite (wx_lit ss s (ON' s I) K), K. reflexivity. }
      destruct MODE as [(W1 & W2 & W3 & W4)|(c & P1 & P2 & P3)].
      - right. split.
        + intros c _ NO CE. destruct W1 as [W1|(W1 & As' & ga' & gb' & SP)]; [congruence|]. rewrite (CE W1). exists As', ga', gb', []. split; [exact SP|]. intros s I. unfold kd. cbn. reflexivity.
        + intros s I. unfold WX. rewrite W2, W3, (W4 s (ON' s I)). cbn. rewrite app_nil_r. reflexivity.
      - destruct (steady_dec mcn ss) as [ST|NS']; [left; exists c; auto|right; apply UN; exact NS']. }
    destruct LS as [(c & EC & [FMc SVT] & KBc & ST)|[LITS WE]].
    2: { (* nothing is found in a view *)
      assert (FL : flow TX (items ns) ss (passed mcn lp ns) oc).
      { split; [unfold passed; rewrite map_map; cbn [snd]; rewrite map_id; apply Permutation_refl|]. intros d i I. unfold passed in I. apply in_map_iff in I. destruct I as (j & I1 & I2). injection I1 as <- ->. destruct (IS i I2) as (s & S1 & S2). pose proof (ON' s S1) as O. rewrite S2. split; [apply OC; exact O|]. exists s. split; [exact S1|]. split; [reflexivity|]. apply dest_ok. exact O. }
      destruct (inert1 mcn M2 lp r RA RB TX FT (items ns) (items_NoDup ns) ONE ss OS SN BIG IS SI _ oc FL) as (f1 & f2 & f3 & E1 & E2 & E3 & PT).
      { intros c E. destruct ss as [|s0 ss']; [congruence|]. apply (oc_ok s0 c (ON' s0 (or_introl eq_refl)) E). } { exact LITS. }
      set (lls := to_length (passed mcn lp ns ++ f1 ++ f2 ++ f3)) in *.
      destruct (lf_fam r RA RB TX FT mcn M2 (fun s => pp_of (TX s))) with (level := level) (its := lls) (ss := ss) as (d4 & bks & d5 & c & E4 & E5 & P); try assumption.
      { reflexivity. } { intros s O. rewrite fuzzy_cset, (g_cset r RA RB TX FT s O). reflexivity. } { intros s O. rewrite (piece_length_spec _ (LEG s O)). f_equal. unfold TokProofs.pl. lia. }
      { rewrite <- IPP. apply Permutation_map. exact PT. } { apply Forall_forall. intros i I. apply (items_pat ns). eapply Permutation_in; [exact PT|exact I]. } { apply Forall_forall. intros i I. apply ONE. eapply Permutation_in; [exact PT|exact I]. }
      assert (RL' : run_level mcn inner level ll lp false ns = Ok ([] ++ [] ++ [] ++ [] ++ d4 ++ d5)).
      { unfold run_level. rewrite PS. cbn [bind]. rewrite E1. cbn [bind]. rewrite E2. cbn [bind]. rewrite E3. cbn [bind]. fold lls. rewrite E4. cbn [bind]. rewrite E5. reflexivity. }
      rewrite RL' in RL. assert (RE := f_equal (fun x => match x with Ok y => y | Err _ => [] end) RL). cbv beta iota in RE. subst dn. cbn [app].
      intros s I. exists c. eapply Permutation_in; [symmetry; exact P|]. apply in_map_iff. exists s. split; [rewrite (WE s I); reflexivity|exact I]. }
    set (sv := vsv c) in *. set (ok := vok c). assert (DOK : forall s, one_sp r s -> is3 c /\ ok (TX s) /\ dest_piece mcn lp (pp_of (TX s)) = DView c (map vpart (sv (TX s)))) by (intros s O; exact (oc_ok s c O EC)).
    assert (C3 : is3 c). { destruct ss as [|s0 ss']; [congruence|]. apply (DOK s0 (ON' s0 (or_introl eq_refl))). }
    assert (OKT : forall s, one_sp r s -> ok (TX s)) by (intros s O; apply (DOK s O)). assert (DEST : forall s, one_sp r s -> dest_piece mcn lp (pp_of (TX s)) = DView c (map vpart (sv (TX s)))) by (intros s O; apply (DOK s O)).
    assert (KO : forall ss' s, kd mcn Bs (cls_eqb c CLdsf) ss' s = okind mcn ss' s) by (intros ss' s; unfold kd; rewrite KBc; reflexivity).
    destruct (stages mcn M2 level lp C (items ns) L1 (items_NoDup ns) IO)
      as (d1 & f1 & d2 & f2 & d3 & f3 & l2 & l3 & p1 & w1 & p2 & w2 & p3 & w3 & E1 & X2 & E2 & X3 & E3 & B1 & B2 & B3 & (_ & Q1 & _) & (_ & Q2 & _) & (_ & Q3 & _) & (N1 & N2 & N3) & PPI).
    fold (passed mcn lp ns) in *. set (f0 := passed mcn lp ns) in *. set (lls := to_length (f0 ++ f1 ++ f2 ++ f3)) in *.
    assert (IL : incl lls (items ns)). { intros i I. eapply Permutation_in; [symmetry; exact PPI|]. rewrite !in_app_iff. auto. }
    assert (NL : NoDup (map it_piece lls)).
    { pose proof (items_NoDup ns) as X. eapply Permutation_NoDup in X; [|apply Permutation_map; exact PPI]. rewrite !map_app in X.
      do 3 (apply NoDup_app_r in X). exact X. }
    destruct (final_stage mcn M2 level lp C (items ns) L1 IO lls IL NL) as (d4 & bks & d5 & cF & E4 & E5 & _).
    assert (RL' : run_level mcn inner level ll lp false ns = Ok ([] ++ d1 ++ d2 ++ d3 ++ d4 ++ d5)).
    { unfold run_level. rewrite PS. cbn [bind]. fold f0. rewrite E1. cbn [bind]. rewrite <- X2, E2. cbn [bind]. rewrite <- X3, E3. cbn [bind]. fold lls. rewrite E4. cbn [bind]. rewrite E5. reflexivity. }
    rewrite RL' in RL. assert (RE := f_equal (fun x => match x with Ok y => y | Err _ => [] end) RL). cbv beta iota in RE. subst dn. cbn [app].
    assert (KD : forall cc (p : list (list vitem * list str)) d, Permutation d (flat_map (pdone cc) p) -> Permutation (map key d) (map it_piece (map snd (flat_map fst p)))).
    { intros cc p d Q. rewrite Q. clear. induction p as [|x p IH]; [constructor|]. cbn [flat_map]. rewrite !map_app. apply Permutation_app; [|exact IH]. unfold pdone. rewrite !map_map. apply Permutation_refl. }
    assert (KPI : Permutation (map it_piece (items ns)) (map key d1 ++ map key d2 ++ map key d3 ++ map it_piece lls)).
    { rewrite (KD _ _ _ Q1), (KD _ _ _ Q2), (KD _ _ _ Q3). rewrite <- !map_app. apply Permutation_map. exact PPI. }
    (* the items of the view *)
    set (lv := to_view c f0).
    assert (HV1 : forall vi, In vi lv -> In (snd vi) (items ns) /\ vc vi = 1%Z /\ exists s, In s ss /\ vst sv ok vi (TX s)).
    { intros [v i] I. unfold lv in I. apply to_view_in in I. unfold f0, passed in I. apply in_map_iff in I. destruct I as (j & I1 & I2). inversion I1; subst j. cbn [snd]. split; [exact I2|]. split; [apply ONE; exact I2|].
      destruct (IS i I2) as (s & S1 & S2). exists s. split; [exact S1|]. pose proof (ON' s S1) as O. split; [apply LEG; exact O|]. split; [apply OKT; exact O|]. cbn [fst snd]. split; [|exact S2]. rewrite S2, (DEST s O) in H0. inversion H0. reflexivity. }
    assert (HV2 : forall s, In s ss -> exists vi, In vi lv /\ vst sv ok vi (TX s)).
    { intros s I. destruct (SI s I) as (i & I1 & I2). pose proof (ON' s I) as O. exists (map vpart (sv (TX s)), i). split.
      - unfold lv. apply to_view_in. unfold f0, passed. apply in_map_iff. exists i. split; [|exact I1]. rewrite I2, (DEST s O). reflexivity.
      - split; [apply LEG; exact O|]. split; [apply OKT; exact O|]. split; [reflexivity|exact I2]. }
    assert (NOV : forall c', c' <> c -> to_view c' f0 = []).
    { intros c' N. destruct (to_view c' f0) as [|[v i] l] eqn:X; [reflexivity|]. exfalso. assert (Y : In (v, i) (to_view c' f0)) by (rewrite X; left; reflexivity). apply to_view_in in Y. unfold f0, passed in Y. apply in_map_iff in Y. destruct Y as (j & Y1 & Y2).
      inversion Y1; subst j. destruct (IS i Y2) as (s & S1 & S2). rewrite S2, (DEST s (ON' s S1)) in H0. inversion H0. congruence. }
    assert (VG : forall sv' ok' l, (forall vi, In vi l -> In (snd vi) (items ns) /\ exists s, vst sv' ok' vi s) -> Forall (vgood sv' ok') l /\ forall vi, In vi l -> vc vi = 1%Z).
    { intros sv' ok' l H. split; [apply Forall_forall|]; intros vi I; destruct (H vi I) as (A & s & B); [exact (vgood_of C (items ns) IO _ _ vi s A B)|apply ONE; exact A]. }
    assert (NLV : NoDup (map pc lv)).
    { assert (X : forall l, map snd (to_view c (map (fun i => (dest_piece mcn lp (it_pp i), i)) l)) = filter (fun i => match dest_piece mcn lp (it_pp i) with DView c' _ => cls_eqb c c' | DLength => false end) l).
      { induction l as [|i l IH]; [reflexivity|]. cbn [map to_view flat_map filter fst snd]. destruct (dest_piece mcn lp (it_pp i)) as [c' v|]; [|exact IH]. destruct (cls_eqb c c'); cbn [app map snd]; [f_equal|]; exact IH. }
      unfold lv, f0, passed. unfold pc. rewrite <- (map_map snd it_piece), X. pose proof (items_NoDup ns) as Y. clear - Y. induction (items ns) as [|i l IH]; [constructor|]. cbn [map] in Y. inversion Y as [|? ? NI Y']; subst. cbn [filter].
      destruct (match dest_piece mcn lp (it_pp i) with DView c' _ => cls_eqb c c' | DLength => false end); [|auto]. cbn [map]. constructor; [|auto]. intros J. apply NI. apply in_map_iff in J. destruct J as (j & J1 & J2). apply filter_In in J2. apply in_map_iff. exists j. split; [exact J1|apply J2]. }
    destruct (vwl_of c C3) as [vL vN vP vK]. fold sv ok in vL, vN, vP, vK.
    destruct (run_stage mcn M2 lp c sv ok vL vN vP vK r ga gb _ FMc As Bs TX SVT lv ss OS SN BIG NLV) as (dA & fA & EA & MSP & HA & HB).
    { intros vi I. destruct (HV1 vi I) as (_ & A & B). split; assumption. } { exact HV2. }
    assert (HA' : forall s, In s ss -> okind mcn ss s <> KLit -> In (c, Pc (TX s), WX ss s) dA) by (intros s I K; specialize (HA s I); rewrite !KO in HA; exact (HA K)).
    assert (DONE : exists dB, Permutation (map it_piece (items ns)) (map key dA ++ map key dB ++ map it_piece lls) /\ (dB = [] \/ (mcn <= Z.of_nat (length dB))%Z) /\ incl dA (d1 ++ d2 ++ d3)).
    { assert (NIL : forall c', multi_stage mcn inner lp c' [] = Ok ([], [])) by reflexivity.
      destruct (VG svX okX l2) as [G2 O2]. { intros vi I. rewrite Forall_forall in B2. destruct (B2 vi I) as (A & s & B & _). eauto. }
      destruct (VG svL okL l3) as [G3 O3]. { intros vi I. rewrite Forall_forall in B3. destruct (B3 vi I) as (A & s & B & _). eauto. }
      pose proof (stage_len mcn lp CMixed svX okX l2 d2 f2 M2 vwl_mixed G2 N2 O2 E2) as Z2. pose proof (stage_len mcn lp CLdsf svL okL l3 d3 f3 M2 vwl_ldsf G3 N3 O3 E3) as Z3.
      destruct C3 as [->|[->| ->]].
      - fold lv in E1. rewrite EA in E1. inversion E1; subst d1 f1. exists (d2 ++ d3). split; [rewrite map_app, <- app_assoc; exact KPI|]. split; [|intros e I; apply in_or_app; left; exact I].
        destruct Z2 as [->|Z2]; destruct Z3 as [->|Z3]; [left; reflexivity|right; rewrite app_length; lia..].
      - rewrite (NOV CBase) in E1 by discriminate. rewrite NIL in E1. inversion E1; subst d1 f1. rewrite app_nil_r in X2. fold lv in X2. subst l2. rewrite EA in E2. inversion E2; subst d2 f2. exists d3. split; [exact KPI|]. split; [exact Z3|]. intros e I. cbn [app]. apply in_or_app. left. exact I.
      - rewrite (NOV CBase) in E1 by discriminate. rewrite NIL in E1. inversion E1; subst d1 f1. rewrite app_nil_r, (NOV CMixed) in X2 by discriminate. subst l2. rewrite NIL in E2. inversion E2; subst d2 f2.
        cbn [app] in X3. rewrite app_nil_r in X3. fold lv in X3. subst l3. rewrite EA in E3. inversion E3; subst d3 f3. exists []. split; [exact KPI|]. split; [left; reflexivity|]. intros e I. cbn [app]. exact I. }
    destruct DONE as (dB & KPD & DB & INC).
    destruct (left_over c sv ok (items ns) ss dA fA lv dB lls OS SN ST BIG IPC (items_NoDup ns) NLV MSP HA') as (_ & FEWL' & LITS).
    { intros s I K. destruct (HV2 s I) as (vi & V1 & V2). exists vi. split; [exact V1|]. split; [apply (vst_pc sv ok); exact V2|]. apply (HB vi s V1 I V2). rewrite KO. exact K. } { exact KPD. } { exact DB. }
    intros s I. destruct (okind mcn ss s) eqn:K.
    - pose proof (LITS s I K) as J. assert (LNE : lls <> []) by (intros X; rewrite X in J; destruct J).
      assert (IOK : Forall (item_ok (List.concat C)) lls). { apply Forall_forall. intros i Ii. apply (item_ok_of level C (items ns) L1 IO). apply IL. exact Ii. }
      destruct (lf_spec mcn M2 level L1 (List.concat C) lls LNE IOK NL) as (d4' & bs' & d5' & E4' & E5' & OUT). rewrite E4 in E4'. inversion E4'; subst d4' bs'. rewrite E5 in E5'. inversion E5'; subst d5'.
      assert (LBC : forall l, incl l lls -> (lb_count l = Z.of_nat (length l))%Z).
      { intros l IN. apply (ones level L1). apply Forall_forall. intros i Ii. apply ONE, IL, IN. exact Ii. }
      assert (FIN : exists c', Permutation (d4 ++ d5) (map (fun i => (c', it_piece i, it_piece i)) lls)).
      { inversion OUT as [c' d P|n p d i j _ _ Ii _ _ _ _ LB P|p d i j _ _ _ _ LB P]; subst.
        - exists c'. exact P.
        - exfalso. rewrite LBC in LB by (intros x X; apply filter_In in X; apply X). match type of LB with context [filter ?f lls] => pose proof (filter_split_len _ f lls) end. match goal with H : _ + _ = length lls |- _ => clear - H LB FEWL' end. match type of H with ?a + _ = ?b => assert (X : a <= b) by (rewrite <- H; apply Nat.le_add_r) end. apply (Z.lt_irrefl mcn). eapply Z.le_lt_trans; [exact LB|]. eapply Z.le_lt_trans; [apply inj_le; exact X|exact FEWL'].
        - exfalso. rewrite LBC in LB by apply incl_refl. lia. }
      destruct FIN as (c' & FIN). exists c'. rewrite wx_lit; [|apply ON'; exact I|exact K]. rewrite !in_app_iff. right. right. right. apply in_app_iff. eapply Permutation_in; [symmetry; exact FIN|].
      apply in_map_iff in J. destruct J as (i & J1 & J2). apply in_map_iff. exists i. split; [rewrite J1; reflexivity|exact J2].
    - exists c. rewrite !app_assoc, <- (app_assoc _ d4), in_app_iff. left. rewrite <- app_assoc. apply INC. apply HA'; [exact I|congruence].
    - exists c. rewrite !app_assoc, <- (app_assoc _ d4), in_app_iff. left. rewrite <- app_assoc. apply INC. apply HA'; [exact I|congruence].
  Qed.
End RO.
