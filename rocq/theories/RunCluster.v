(** The clusters of URLs that differ in one run (C67). *)
From Coq Require Import String.
From Verif Require Import PyStr Defs UrlLib ParseUtils Views Trees Cluster Spec Patterns Matcher Maker Observe MatchSpec OneSpec PyStrProofs DefsProofs DictProofs RegexProofs PieceProofs LengthProofs BridgeProofs GroupProofs TreeProofs TokProofs LengthStage PieceStage EntProofs GenCluster FlatCluster ViewProofs KeyProofs TokUniq RouteProofs MultiStage OuterLevel OuterCluster OneLevel OneCluster FanCluster RunFam RunFlat RunStage RunView RunLevel RunInert RunOuter.
From Coq Require Import Lia Permutation.

Section RC.
  Context (mcn : Z) (M2 : (2 <= mcn)%Z) (Cs : list (list str)) (CN : Cs <> []) (pd : nat) (r : str) (pre post : list str).
  Context (RA RB : list run) (TX : str -> str) (FT : fam r RA RB TX).
  Context (As : list str) (ga gb : list run) (Bs : list str) (FG : fam r ga gb (fun s => cat (ga ++ (r, s) :: gb))) (oc : option cls).
  Context (OC : forall s, one_sp r s -> dcl (dest_piece mcn (pd =? S (length pre)) (pp_of (TX s))) = oc).
  Context (SPL : forall c, exists As ga gb Bs, splits r TX c As ga gb Bs).
  Context (MODE : whole_mode r TX As ga gb Bs oc \/ part_mode r TX As ga gb Bs oc).
  Notation D := (length Cs).
  Notation inner := (fun (d : nat) (kw : bool) (t : tree) => cluster_n 1 mcn d d kw t).
  Notation G s := (cat (ga ++ (r, s) :: gb)).
  Notation W ss s := (pstr (G s) (okind mcn ss s)).
  Notation WX := (WX mcn r As ga gb Bs).
  Notation PA := (List.concat (map (fun s => Pc s) As)). Notation PB := (List.concat (map (fun s => Pc s) Bs)).
  Lemma wx_eq : forall ss s, WX ss s = PA ++ W ss s ++ PB.
  Proof. intros ss s. unfold RunOuter.WX. rewrite concat_app. reflexivity. Qed.
  Lemma wx_eqb : forall ss s t, str_eqb (WX ss t) (WX ss s) = str_eqb (W ss t) (W ss s).
  Proof.
    intros ss s t. rewrite !wx_eq. destruct (str_eqb_spec (W ss t) (W ss s)) as [->|N]; [apply str_eqb_refl|]. destruct (str_eqb_spec (PA ++ W ss t ++ PB) (PA ++ W ss s ++ PB)) as [E|]; [|reflexivity]. apply app_inv_head, app_inv_tail in E. congruence.
  Qed.
  Lemma wx_filter : forall ss s, filter (fun t => str_eqb (WX ss t) (WX ss s)) ss = filter (fun t => str_eqb (W ss t) (W ss s)) ss.
  Proof. intros ss s. apply filter_ext. intros t. apply wx_eqb. Qed.
  Lemma run_fanL : forall ns ss, level_ok (oV Cs) (S (length pre)) ns -> oneset r ss -> Permutation (map pn_piece ns) (map (fun s => Pc (TX s)) ss) -> Forall (fun n => pn_cnt n = 1%Z) ns ->
     exists dn, rl mcn inner D pd false (S (length pre)) ns = Ok dn /\ forall s, In s ss -> dget str_eqb (Pc (TX s)) (pattern_map dn) = Some (WX ss s).
  Proof.
    intros ns ss (NE & _ & LV) ON P C1. unfold rl.
    eapply run_level_fan; try eassumption.
    - lia.
    - apply vals_of_pieces; [|exact P]. intros n s I J E. rewrite Forall_forall in LV. destruct ON as [_ ON]. rewrite Forall_forall in ON. destruct (LV n I) as [(s' & L & V & _) _]. unfold pn_piece, t_piece in E. rewrite V in E.
      apply piece_inj in E; [|exact L|apply (g_legal r RA RB TX FT); apply ON; exact J]. subst s'. exact V.
  Qed.
  Definition rsh (t : tree) (ss : list str) : Prop := fshape (oV Cs) D meta_sorted pre post (fun s => Pc (TX s)) (oneset r) t ss.
  Definition rpt (t : tree) (ss : list str) (q : str) : Prop := fpart (oV Cs) D meta_sorted pre post (fun s => Pc (TX s)) (oneset r) t ss q.
  Lemma run_cluster : forall t ss, rsh t ss -> exists tqs, cluster_n 2 mcn D pd false t = Ok (map fst tqs) /\
    NoDup (map snd tqs) /\ (forall t' q, In (t', q) tqs -> rpt t' (filter (fun s => str_eqb (WX ss s) q) ss) q) /\
    (forall s, In s ss -> exists t', In (t', WX ss s) tqs) /\ Permutation (flat_map ents (map fst tqs)) (ents t).
  Proof.
    intros t ss SH. change (cluster_n 2 mcn D pd false t) with (cluster_loop mcn inner (S (length (paths t))) D pd false t).
    refine (fan_cluster mcn M2 inner (oV Cs) (oVfun Cs) (oV0 Cs) (oV00 Cs) D pd false (FlatCluster.D1 Cs CN) good good_join (outer_LL mcn M2 Cs pd false) meta_sorted meta_sorted_id
      pre post (fun s => Pc (TX s)) (oneset r) WX _ _ _ run_fanL _ (S (length (paths t))) t ss SH _).
    - intros l X. apply X.
    - intros l s OS I. apply oneset_part. exact OS.
    - intros l s x [_ ON] I J. rewrite Forall_forall in ON. apply (gp_inj r RA RB TX FT); apply ON; assumption.
    - intros l s OS I. rewrite wx_filter, !wx_eq. do 2 f_equal. apply (g_stable r ga gb (fun s => G s) FG mcn M2 l s OS I).
    - apply Nat.lt_succ_diag_r.
  Qed.
End RC.
