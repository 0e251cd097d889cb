(** cluster() on the tree of a view whose paths differ at one level, in texts that
    differ in one run (C67). *)
From Coq Require Import String.
From Verif Require Import PyStr Defs UrlLib ParseUtils Views Trees Cluster Spec Patterns Matcher Maker Observe MatchSpec OneSpec PyStrProofs DefsProofs DictProofs RegexProofs PieceProofs LengthProofs BridgeProofs GroupProofs TreeProofs TokProofs LengthStage PieceStage EntProofs GenCluster FlatCluster ViewProofs MultiStage OneLevel OneTree OneCluster FanCluster RunFam.
From Coq Require Import Lia Permutation.

(** pieces and values *)
Lemma vals_of_pieces : forall (f : str -> parsed_piece) (ns : list pnode) ss,
  (forall n s, In n ns -> In s ss -> pn_piece n = piece (f s) -> t_val (pn_tree n) = f s) ->
  Permutation (map pn_piece ns) (map (fun s => piece (f s)) ss) -> Permutation (map (fun n => t_val (pn_tree n)) ns) (map f ss).
Proof.
  intros f ns ss H P. destruct (Permutation_map_inv _ _ P) as (ss' & E & P').
  rewrite (Permutation_map f P'). assert (X : map (fun n => t_val (pn_tree n)) ns = map f ss').
  { assert (H' : forall n s, In n ns -> In s ss' -> pn_piece n = piece (f s) -> t_val (pn_tree n) = f s). { intros n s A B. apply H; [exact A|]. eapply Permutation_in; [symmetry; exact P'|exact B]. }
    clear - H' E. revert ss' E H'. induction ns as [|n ns IH]; intros [|s ss] E H; try discriminate; [reflexivity|]. cbn [map] in E. injection E as E1 E2. cbn [map]. f_equal; [apply H; [left; reflexivity|left; reflexivity|exact E1]|].
    apply IH; [exact E2|]. intros m t A B. apply H; right; assumption. }
  rewrite X. apply Permutation_refl.
Qed.
(** *** the piece cluster *)
Lemma piece_stage_ones : forall mcn level ll lp kw ns, (2 <= mcn)%Z -> (ll && kw)%bool = false -> NoDup (map pn_piece ns) -> Forall (fun n => pn_cnt n = 1%Z) ns -> ns <> [] -> (mcn <= Z.of_nat (length ns))%Z ->
  piece_stage mcn level ll lp kw ns = Ok ([], passed mcn lp ns).
Proof.
  intros mcn level ll lp kw ns M2 LK ND C1 NE L. unfold piece_stage. rewrite group_nodes_eq. unfold piece_bags.
  assert (FI : bags ns = map (fun n => (pn_piece n, [n])) ns) by (apply dgroup_distinct; exact ND).
  assert (BN : is_nil (bags ns) = false). { rewrite FI. destruct ns; [congruence|reflexivity]. }
  rewrite BN, LK. assert (LB : length (bags ns) = length ns) by (rewrite FI; apply map_length). rewrite LB, (proj2 (Z.ltb_ge _ _) L).
  rewrite (mapM_pure _ _ _ (fun kb => inr (dest_piece mcn lp (first_val (snd kb)), IT (first_val (snd kb)) (fst kb) (snd kb)))).
  2: { intros [k b] I. unfold piece_one. cbn [fst snd]. assert (X : exists n, b = [n] /\ pn_cnt n = 1%Z). { rewrite FI in I. apply in_map_iff in I. destruct I as (n & I1 & I2). inversion I1; subst. exists n. rewrite Forall_forall in C1. auto. }
       destruct X as (n & -> & X). unfold bag_count. cbn [map zsum fold_right]. rewrite X. cbn [Z.add]. rewrite (proj2 (Z.ltb_lt 1 mcn)) by lia. cbn [bind]. unfold piece_item. cbn [snd fst]. reflexivity. }
  cbn [bind]. unfold passed, items. rewrite map_map. do 2 f_equal.
  + clear; induction (bags ns) as [|x l IH]; [reflexivity|exact IH].
  + clear; induction (bags ns) as [|x l IH]; [reflexivity|]. cbn [map rights]. f_equal. exact IH.
Qed.
Lemma ones_sum : forall ns : list pnode, Forall (fun n => pn_cnt n = 1%Z) ns -> zsum (map pn_cnt ns) = Z.of_nat (length ns).
Proof. intros ns C1. induction C1 as [|n ns H C1 IH]; [reflexivity|]. cbn [map zsum fold_right length]. change (fold_right Z.add 0%Z (map pn_cnt ns)) with (zsum (map pn_cnt ns)). rewrite IH, H. lia. Qed.
Lemma ones_items : forall ns, NoDup (map pn_piece ns) -> Forall (fun n => pn_cnt n = 1%Z) ns -> Forall (fun i => it_count i = 1%Z) (items ns) /\ map it_pp (items ns) = map (fun n => t_val (pn_tree n)) ns.
Proof.
  intros ns ND C1. assert (FI : bags ns = map (fun n => (pn_piece n, [n])) ns) by (apply dgroup_distinct; exact ND). unfold items. rewrite FI, !map_map. cbn [fst snd first_val it_pp]. split; [|reflexivity].
  clear - C1. induction C1 as [|n ns H C1 IH]; [constructor|]. cbn [map]. constructor; [|exact IH]. unfold it_count, bag_count. cbn [it_bag map zsum fold_right]. rewrite H. reflexivity.
Qed.
Section Flat.
  Context (mcn : Z) (M2 : (2 <= mcn)%Z) (inner : nat -> bool -> tree -> res (list tree)).
  Context (r : str) (ga gb : list run) (G : str -> str) (FM : fam r ga gb G) (As Bs : list str) (kw : bool) (pd : nat).
  Definition rCs : list (list str) := map cset As ++ gC r ga gb :: map cset Bs.
  Lemma rCs_non : rCs <> [].
  Proof. unfold rCs. destruct (map cset As); discriminate. Qed.
  (** the last part of a name is left alone *)
  Definition kd (ss : list str) (s : str) : kind1 := if (is_nil Bs && kw)%bool then KLit else okind mcn ss s.
  Notation D := (length rCs).
  Notation W ss s := (pstr (G s) (kd ss s)).
  Lemma D_last : (D - S (length As) =? 0) = is_nil Bs.
  Proof. unfold rCs. rewrite app_length. cbn [length]. rewrite !map_length. destruct Bs as [|b B]; cbn [length is_nil]; [apply Nat.eqb_eq|apply Nat.eqb_neq]; lia. Qed.
  Lemma kd_lit : (is_nil Bs && kw)%bool = true -> forall ss s, kd ss s = KLit.
  Proof. intros H ss s. unfold kd. rewrite H. reflexivity. Qed.
  Lemma kd_ok : (is_nil Bs && kw)%bool = false -> forall ss s, kd ss s = okind mcn ss s.
  Proof. intros H ss s. unfold kd. rewrite H. reflexivity. Qed.
  Lemma kd_few : forall ss s, (Z.of_nat (length ss) < mcn)%Z -> kd ss s = KLit.
  Proof. intros ss s L. unfold kd, okind. rewrite (proj2 (Z.ltb_lt _ _) L). destruct (is_nil Bs && kw)%bool; reflexivity. Qed.
  Lemma flat_fanL : forall ns ss, level_ok (fV rCs) (S (length (map (fun s => Pc s) As))) ns -> oneset r ss -> Permutation (map pn_piece ns) (map (fun s => Pc (G s)) ss) -> Forall (fun n => pn_cnt n = 1%Z) ns ->
     exists dn, rl mcn inner D pd kw (S (length (map (fun s => Pc s) As))) ns = Ok dn /\ forall s, In s ss -> dget str_eqb (Pc (G s)) (pattern_map dn) = Some (W ss s).
  Proof.
    intros ns ss (NE & L0 & LV) OS P C1. rewrite map_length in *. pose proof OS as [ND ON]. rewrite Forall_forall in ON. unfold rl. rewrite D_last.
    assert (LEN : length ns = length ss) by (apply Permutation_length in P; rewrite !map_length in P; exact P).
    assert (NDP : NoDup (map pn_piece ns)). { eapply Permutation_NoDup; [symmetry; exact P|]. apply NoDup_map_on; [exact ND|]. intros x y X Y. apply (gp_inj r ga gb G FM); auto. }
    assert (PV : Permutation (map (fun n => t_val (pn_tree n)) ns) (map (fun s => vpart (G s)) ss)).
    { apply vals_of_pieces; [|erewrite (map_ext (fun s => piece (vpart (G s)))); [exact P|intros s; apply vpart_piece]]. intros n s I J E. rewrite Forall_forall in LV. destruct (LV n I) as [(s' & L & V & _) _]. unfold pn_piece, t_piece in E. rewrite V, !vpart_piece in E.
      apply piece_inj in E; [|exact L|apply (g_legal r ga gb G FM); apply ON; exact J]. subst s'. exact V. }
    destruct (ones_items ns NDP C1) as [ONE IPP].
    assert (FIN : forall dn c ks, NoDup (map snd (map fst dn)) -> (forall s, In s ss -> In (c, Pc (G s), ks s) dn) -> forall s, In s ss -> dget str_eqb (Pc (G s)) (pattern_map dn) = Some (ks s)).
    { intros dn c ks NDn IN s I. apply dget_in; [exact str_eqb_iff| |].
      - unfold pattern_map. rewrite map_map. cbn [fst]. rewrite map_map in NDn. exact NDn.
      - unfold pattern_map. apply in_map_iff. exists (c, Pc (G s), ks s). split; [reflexivity|apply IN; exact I]. }
    destruct ((is_nil Bs && kw) || (Z.of_nat (length ss) <? mcn)%Z)%bool eqn:LF.
    - assert (KL : forall s, kd ss s = KLit). { apply orb_prop in LF. destruct LF as [LF|LF]; intros s; [apply kd_lit; exact LF|apply kd_few, Z.ltb_lt; exact LF]. }
      destruct (flat_level mcn M2 inner (S (length As)) (is_nil Bs) (pd =? S (length As)) kw (gC r ga gb) ns NE L0) as (dn & ss' & M & c & E & FL & FC & NDs & MO & KS & PD & LIT).
      { apply Forall_forall. intros n I. assert (X : In (t_val (pn_tree n)) (map (fun s => vpart (G s)) ss)) by (eapply Permutation_in; [exact PV|]; apply (in_map (fun n => t_val (pn_tree n))); exact I). apply in_map_iff in X. destruct X as (s & X1 & X2).
        rewrite Forall_forall in C1. rewrite (C1 n I). split; [|lia]. exists (G s). split; [apply (g_legal r ga gb G FM), ON; exact X2|]. split; [symmetry; exact X1|]. apply (g_cset r ga gb G FM). apply ON. exact X2. }
      exists dn. split; [exact E|]. assert (M = MLit) as ->. { apply LIT. apply orb_prop in LF. destruct LF as [LF|LF]; [right; exact LF|left]. rewrite (ones_sum ns C1), LEN. apply Z.ltb_lt. exact LF. }
      apply (FIN dn c).
      + eapply Permutation_NoDup; [apply Permutation_map, Permutation_map; symmetry; exact PD|]. rewrite !map_map. cbn [fst snd]. apply NoDup_map_on; [exact NDs|]. intros x y X Y. rewrite Forall_forall in FL. apply piece_inj; auto.
      + intros s I. rewrite KL. change (pstr (G s) KLit) with (Pc (G s)). assert (J : In (Pc (G s)) (map (fun s => Pc s) ss')). { apply KS. eapply Permutation_in; [symmetry; exact P|]. apply in_map_iff. exists s. auto. }
        apply in_map_iff in J. destruct J as (t & J1 & J2). eapply Permutation_in; [symmetry; exact PD|]. apply in_map_iff. exists t. split; [cbn [mpat pstr]; rewrite J1; reflexivity|exact J2].
    - apply orb_false_iff in LF. destruct LF as [LK LF]. apply Z.ltb_ge in LF.
      assert (PS : piece_stage mcn (S (length As)) (is_nil Bs) (pd =? S (length As)) kw ns = Ok ([], passed mcn (pd =? S (length As)) ns)) by (apply piece_stage_ones; [exact M2|exact LK|exact NDP|exact C1|exact NE|rewrite LEN; exact LF]).
      assert (DL : forall i, In i (items ns) -> dest_piece mcn (pd =? S (length As)) (it_pp i) = DLength).
      { intros i I. assert (Y : In (it_pp i) (map (fun s => vpart (G s)) ss)) by (eapply Permutation_in; [exact PV|]; rewrite <- IPP; apply in_map; exact I). apply in_map_iff in Y. destruct Y as (s & Y1 & Y2). rewrite <- Y1. reflexivity. }
      set (lp := pd =? S (length As)) in *.
      assert (TV : forall c, to_view c (passed mcn lp ns) = []).
      { intros c. apply no_view. intros di I. unfold passed in I. apply in_map_iff in I. destruct I as (i & <- & I). apply DL. exact I. }
      assert (TL : to_length (passed mcn lp ns) = items ns).
      { unfold passed. clear - DL. induction (items ns) as [|i l IH]; [reflexivity|]. cbn [map to_length flat_map fst snd]. rewrite (DL i (or_introl eq_refl)). cbn [app]. f_equal. apply IH. intros j J. apply DL. right. exact J. }
      assert (MS : forall c, multi_stage mcn inner lp c [] = Ok ([], [])) by reflexivity.
      destruct (lf_fam r ga gb G FM mcn M2 (fun s => vpart (G s))) with (level := S (length As)) (its := items ns) (ss := ss) as (d4 & bks & d5 & c & E1 & E2 & Q).
      { intros s O. apply vpart_piece. } { intros s O. rewrite vpart_fuzzy, (g_cset r ga gb G FM s O). reflexivity. } { intros s O. apply vpart_length. apply (g_legal r ga gb G FM). exact O. }
      { lia. } { exact OS. } { rewrite IPP. exact PV. } { apply Forall_forall. apply items_pat. } { exact ONE. } { exact LF. }
      exists (d4 ++ d5). split.
      { unfold run_level. rewrite PS. cbn [bind app]. rewrite TV, MS. cbn [bind app]. rewrite app_nil_r, TV, MS.
        cbn [bind app]. rewrite app_nil_r, TV, MS. cbn [bind app]. rewrite app_nil_r, TL, E1. cbn [bind]. rewrite E2. reflexivity. }
      apply (FIN (d4 ++ d5) c).
      + eapply Permutation_NoDup; [apply Permutation_map, Permutation_map; symmetry; exact Q|]. rewrite !map_map. cbn [fst snd]. apply NoDup_map_on; [exact ND|]. intros x y X Y. apply (gp_inj r ga gb G FM); auto.
      + intros s I. rewrite (kd_ok LK). eapply Permutation_in; [symmetry; exact Q|]. apply in_map_iff. exists s. auto.
  Qed.
  Definition fsh (t : tree) (ss : list str) : Prop := fshape (fV rCs) D nometa (map (fun s => Pc s) As) (map (fun s => Pc s) Bs) (fun s => Pc (G s)) (oneset r) t ss.
  Definition fpt (t : tree) (ss : list str) (q : str) : Prop := fpart (fV rCs) D nometa (map (fun s => Pc s) As) (map (fun s => Pc s) Bs) (fun s => Pc (G s)) (oneset r) t ss q.
  Notation part ss s := (filter (fun t => str_eqb (W ss t) (W ss s)) ss).
  Lemma kd_part_lit : forall ss s, oneset r ss -> In s ss -> kd ss s = KLit -> part ss s = [s].
  Proof.
    intros ss s OS I K. destruct (is_nil Bs && kw)%bool eqn:LK.
    - apply filter_one; [apply OS|exact I|]. intros t T. rewrite str_eqb_eq, !(kd_lit LK). split; [|intros ->; reflexivity]. intros E. destruct OS as [_ ON]. rewrite Forall_forall in ON. apply (gp_inj r ga gb G FM); auto.
    - rewrite (kd_ok LK) in K. erewrite filter_ext; [exact (part_lit r ga gb G FM mcn M2 ss s OS I K)|]. intros t. cbn beta. rewrite !(kd_ok LK). reflexivity.
  Qed.
  Lemma kd_part_big : forall ss s, oneset r ss -> In s ss -> kd ss s <> KLit -> (mcn <= Z.of_nat (length (part ss s)))%Z.
  Proof.
    intros ss s OS I K. destruct (is_nil Bs && kw)%bool eqn:LK; [exfalso; apply K; apply kd_lit; exact LK|]. rewrite (kd_ok LK) in K. erewrite filter_ext; [exact (part_big r ga gb G FM mcn ss s OS I K)|]. intros t. cbn beta. rewrite !(kd_ok LK). reflexivity.
  Qed.
  Lemma kd_stable : forall ss s, oneset r ss -> In s ss -> W (part ss s) s = W ss s.
  Proof.
    intros ss s OS I. destruct (is_nil Bs && kw)%bool eqn:LK; [rewrite !(kd_lit LK); reflexivity|]. rewrite <- (g_stable r ga gb G FM mcn M2 ss s OS I) at 2 || idtac.
    rewrite (kd_ok LK ss s), (kd_ok LK _ s). erewrite (filter_ext (fun t => str_eqb (W ss t) _)); [exact (g_stable r ga gb G FM mcn M2 ss s OS I)|]. intros t. cbn beta. rewrite !(kd_ok LK). reflexivity.
  Qed.
  Lemma flat_fan : forall fuel t ss, fsh t ss -> (length (paths t) < fuel)%nat -> exists tqs, cluster_loop mcn inner fuel D pd kw t = Ok (map fst tqs) /\
    NoDup (map snd tqs) /\ (forall t' q, In (t', q) tqs -> fpt t' (filter (fun s => str_eqb (W ss s) q) ss) q) /\
    (forall s, In s ss -> exists t', In (t', W ss s) tqs) /\ Permutation (flat_map ents (map fst tqs)) (ents t).
  Proof.
    apply (fan_cluster mcn M2 inner (fV rCs) (fVfun rCs) (fV0 rCs) (fV00 rCs) D pd kw (FlatCluster.D1 rCs rCs_non) good good_join (flat_LL mcn M2 inner rCs pd kw) nometa nometa_id
      (map (fun s => Pc s) As) (map (fun s => Pc s) Bs) (fun s => Pc (G s)) (oneset r) (fun ss s => W ss s)).
    - intros ss X. apply X.
    - intros ss s OS I. apply oneset_part. exact OS.
    - intros ss s t [_ ON] I J. rewrite Forall_forall in ON. apply (gp_inj r ga gb G FM); auto.
    - apply flat_fanL.
    - apply kd_stable.
  Qed.
End Flat.
