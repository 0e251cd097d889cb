(** Clusters of views that find nothing pass everything on to the cluster by length
    (C67). *)
From Coq Require Import String.
From Verif Require Import PyStr Defs UrlLib ParseUtils Views Trees Cluster Spec Patterns Matcher Maker Observe MatchSpec OneSpec PyStrProofs DefsProofs DictProofs RegexProofs PieceProofs LengthProofs BridgeProofs GroupProofs TreeProofs TokProofs LengthStage PieceStage EntProofs GenCluster FlatCluster ViewProofs KeyProofs TokUniq RouteProofs MultiStage OuterLevel OuterCluster AnyOuter OneLevel OneTree OneCluster FanCluster RunFam RunFlat RunStage RunView RunLevel.
From Coq Require Import Lia Permutation.

Definition later (c : cls) (o : option cls) : Prop := match c with CBase => o <> Some CBase | CMixed => o = None \/ o = Some CLdsf | _ => o = None end.
Section RI.
  Context (mcn : Z) (M2 : (2 <= mcn)%Z) (lp : bool) (r : str) (RA RB : list run) (T : str -> str) (FT : fam r RA RB T).
  Context (its : list Cluster.item) (NI : NoDup (map it_piece its)) (ONE : forall i, In i its -> it_count i = 1%Z) (ss : list str) (OS : oneset r ss) (SN : ss <> []) (BIG : (mcn <= Z.of_nat (length ss))%Z).
  Context (IS : forall i, In i its -> exists s, In s ss /\ it_pp i = pp_of (T s)) (SI : forall s, In s ss -> exists i, In i its /\ it_pp i = pp_of (T s)).
  Notation inner := (fun (d : nat) (kw : bool) (t : tree) => cluster_n 1 mcn d d kw t).
  (** the part of the view with the run that changes *)
  Definition splits (c : cls) (As : list str) (ga gb : list run) (Bs : list str) : Prop :=
    fam r ga gb (fun s => cat (ga ++ (r, s) :: gb)) /\ forall s, one_sp r s -> vsv c (T s) = As ++ cat (ga ++ (r, s) :: gb) :: Bs.
  (** the items, all with destinations of one class *)
  Definition flow (f : list (dest * Cluster.item)) (oc : option cls) : Prop :=
    Permutation (map snd f) its /\ forall d i, In (d, i) f -> dcl d = oc /\ exists s, In s ss /\ it_pp i = pp_of (T s) /\
      match d with DView c v => is3 c /\ vok c (T s) /\ v = map vpart (vsv c (T s)) | DLength => True end.
  Definition LIT (c : cls) : Prop := exists As ga gb Bs, splits c As ga gb Bs /\ forall s, In s ss -> kd mcn Bs (cls_eqb c CLdsf) ss s = KLit.
  Lemma flow_other : forall f oc c, flow f oc -> oc <> Some c -> to_view c f = [].
  Proof.
    intros f oc c [_ F] N. destruct (to_view c f) as [|[v i] l] eqn:X; [reflexivity|]. exfalso. assert (Y : In (v, i) (to_view c f)) by (rewrite X; left; reflexivity). apply to_view_in in Y. destruct (F _ _ Y) as [D _]. cbn [dcl] in D. congruence.
  Qed.
  Lemma flow_view_len : forall f c, flow f (Some c) -> to_length f = [].
  Proof.
    intros f c [_ F]. induction f as [|[d i] f IH]; [reflexivity|]. cbn [to_length flat_map fst]. destruct (F d i (or_introl eq_refl)) as [D _]. destruct d; [|discriminate]. apply IH. intros d' i' I. apply F. right. exact I.
  Qed.
  Lemma flow_len : forall f, flow f None -> Permutation (to_length f) its.
  Proof.
    intros f [P F]. replace (to_length f) with (map snd f); [exact P|]. clear P. induction f as [|[d i] f IH]; [reflexivity|]. cbn [to_length flat_map fst snd map]. destruct (F d i (or_introl eq_refl)) as [D _]. destruct d; [discriminate|]. cbn [app]. f_equal. apply IH. intros d' i' I. apply F. right. exact I.
  Qed.
  Lemma flow_view : forall f c, flow f (Some c) -> map snd (to_view c f) = map snd f.
  Proof.
    intros f c [_ F]. induction f as [|[d i] f IH]; [reflexivity|]. cbn [to_view flat_map fst snd map]. destruct (F d i (or_introl eq_refl)) as [D _]. destruct d as [c' v|]; [|discriminate]. cbn [dcl] in D. injection D as ->.
    replace (cls_eqb c c) with true by (destruct c; reflexivity). cbn [app map snd]. f_equal. apply IH. intros d' i' I. apply F. right. exact I.
  Qed.
  Lemma in_flow : forall f oc i, flow f oc -> In i its -> exists d, In (d, i) f.
  Proof. intros f oc i [P _] I. eapply Permutation_in in I; [|symmetry; exact P]. apply in_map_iff in I. destruct I as ([d j] & E & I). cbn [snd] in E. subst j. exists d. exact I. Qed.
  Lemma flow_H1 : forall f c, flow f (Some c) -> forall vi, In vi (to_view c f) -> In (snd vi) its /\ vc vi = 1%Z /\ exists s, In s ss /\ vst (vsv c) (vok c) vi (T s).
  Proof.
    intros f c F [v i] I. apply to_view_in in I. assert (II : In i its). { destruct F as [P _]. eapply Permutation_in; [exact P|]. apply (in_map snd) in I. exact I. } cbn [snd]. split; [exact II|]. split; [apply ONE; exact II|].
    destruct F as [_ F]. destruct (F _ _ I) as (_ & s & S1 & S2 & _ & S3 & S4). exists s. split; [exact S1|]. destruct OS as [_ ON]. rewrite Forall_forall in ON. split; [apply (g_legal r RA RB T FT); apply ON; exact S1|]. split; [exact S3|]. split; [exact S4|exact S2].
  Qed.
  Lemma flow_H2 : forall f c, flow f (Some c) -> forall s, In s ss -> exists vi, In vi (to_view c f) /\ vst (vsv c) (vok c) vi (T s).
  Proof.
    intros f c F s I. destruct (SI s I) as (i & I1 & I2). destruct (in_flow f _ i F I1) as [d D]. destruct F as [_ F]. destruct (F _ _ D) as (E & s' & S1 & S2 & S3). destruct d as [c' v|]; [|discriminate]. cbn [dcl] in E. injection E as ->.
    destruct OS as [_ ON]. rewrite Forall_forall in ON. assert (s' = s). { apply (gp_inj r RA RB T FT); [apply ON; assumption..|]. congruence. } subst s'. exists (v, i). split; [apply to_view_in; exact D|]. destruct S3 as (_ & S3 & S4).
    split; [apply (g_legal r RA RB T FT); apply ON; exact I|]. split; [exact S3|]. split; [exact S4|exact I2].
  Qed.
  Lemma flow_ND : forall f c, flow f (Some c) -> NoDup (map pc (to_view c f)).
  Proof.
    intros f c F. unfold pc. rewrite <- (map_map snd it_piece), (flow_view f c F). eapply Permutation_NoDup; [apply Permutation_map; symmetry; apply F|exact NI].
  Qed.
  Lemma forward_cls : forall c s0 s vi, is3 c -> In s0 ss -> In s ss -> vst (vsv c) (vok c) vi (T s) -> vok c (T s0) ->
    dcl (fst (forward lp c vi)) = dcl (fst (forward lp c (map vpart (vsv c (T s0)), IT (pp_of (T s0)) [] []))) /\ later c (dcl (fst (forward lp c vi))) /\
    match fst (forward lp c vi) with DView c' v => is3 c' /\ vok c' (T s) /\ v = map vpart (vsv c' (T s)) | DLength => True end.
  Proof.
    intros c s0 s vi C I0 I (L & O & V & E) O0. destruct OS as [_ ON]. rewrite Forall_forall in ON. pose proof (ON s I) as OI. pose proof (ON s0 I0) as OI0. pose proof (g_legal r RA RB T FT s0 OI0) as L0.
    pose proof (t_fst r RA RB T FT s s0 OI OI0) as TF. unfold forward. cbn [fst snd it_pp]. rewrite V, E. destruct C as [->|[->| ->]]; cbn [vsv vok later] in *.
    - split; [apply dest_base_cls; assumption|]. pose proof (dest_base_inv lp (T s) L O) as X. destruct (dest_base lp (map vpart (svB (T s))) (pp_of (T s))) as [c' v|]; [|split; [discriminate|exact Logic.I]]. destruct c'; try contradiction; cbn [dcl]; (split; [discriminate|]).
      + destruct X as (X1 & X2 & _). split; [right; left; reflexivity|]. split; [split; assumption|exact X1].
      + destruct X as (X1 & _ & X2 & _). split; [right; right; reflexivity|]. split; [split; assumption|exact X1].
    - split; [apply dest_mixed_cls; assumption|]. pose proof (dest_mixed_inv lp (T s) L) as X. destruct (dest_mixed lp (pp_of (T s))) as [c' v|]; [|split; [left; reflexivity|exact Logic.I]]. destruct X as (-> & X1 & _ & X2). cbn [dcl]. split; [right; reflexivity|]. split; [right; right; reflexivity|]. destruct O as [O _]. split; [split; assumption|exact X1].
    - split; [reflexivity|]. split; [reflexivity|exact Logic.I].
  Qed.
  Lemma inert : forall f c, is3 c -> flow f (Some c) -> LIT c -> exists fw oc, multi_stage mcn inner lp c (to_view c f) = Ok ([], fw) /\ flow fw oc /\ later c oc.
  Proof.
    intros f c C F (As & ga & gb & Bs & [FM SV] & LT). destruct (vwl_of c C) as [vL vN vP vK].
    destruct (run_stage mcn M2 lp c (vsv c) (vok c) vL vN vP vK r ga gb _ FM As Bs T SV (to_view c f) ss OS SN BIG (flow_ND f c F)) as (dn & fw & E & (parts & fwl & P1 & P2 & P3 & _) & _ & HB).
    { intros vi I. destruct (flow_H1 f c F vi I) as (_ & A & B). split; assumption. } { exact (flow_H2 f c F). }
    set (l := to_view c f) in *. assert (NL : NoDup (map pc l)) by exact (flow_ND f c F).
    assert (PN : flat_map fst parts = []).
    { destruct (flat_map fst parts) as [|v vs] eqn:X; [reflexivity|]. exfalso. assert (IV : In v l) by (eapply Permutation_in; [symmetry; exact P1|left; reflexivity]).
      destruct (flow_H1 f c F v IV) as (_ & _ & s & S1 & S2). pose proof (HB v s IV S1 S2 (LT s S1)) as W. eapply Permutation_in in W; [|exact P3]. apply in_map_iff in W. destruct W as (w & W1 & W2).
      assert (SW : snd w = snd v) by (unfold forward in W1; inversion W1; reflexivity). eapply Permutation_NoDup in NL; [|apply Permutation_map; exact P1]. rewrite map_app in NL.
      eapply (NoDup_app_disj _ _ _ NL (pc v)); [left; reflexivity|]. apply in_map_iff. exists w. split; [unfold pc; rewrite SW; reflexivity|exact W2]. }
    rewrite PN in P1. cbn [app] in P1.
    assert (DN : dn = []).
    { assert (X : flat_map (pdone c) parts = []). { clear - PN. induction parts as [|p ps IH]; [reflexivity|]. cbn [flat_map] in *. apply app_eq_nil in PN. destruct PN as [P1 P2]. unfold pdone at 1. rewrite P1. apply IH. exact P2. }
      rewrite X in P2. apply Permutation_sym, Permutation_nil in P2. exact P2. }
    subst dn. destruct ss as [|s0 ss'] eqn:ES; [congruence|]. rewrite <- ES in *. assert (I0 : In s0 ss) by (rewrite ES; left; reflexivity).
    destruct (flow_H2 f c F s0 I0) as (v0 & V0 & V1). exists fw, (dcl (fst (forward lp c (map vpart (vsv c (T s0)), IT (pp_of (T s0)) [] [])))). split; [exact E|].
    assert (O0 : vok c (T s0)) by apply V1.
    assert (FW : forall d i, In (d, i) fw -> exists vi, In vi l /\ forward lp c vi = (d, i)).
    { intros d i I. eapply Permutation_in in I; [|exact P3]. apply in_map_iff in I. destruct I as (vi & I1 & I2). exists vi. split; [eapply Permutation_in; [symmetry; exact P1|exact I2]|exact I1]. }
    split; [split|].
    - transitivity (map snd f); [|apply F]. rewrite <- (flow_view f c F). fold l. rewrite P3, map_map. erewrite map_ext; [|intros vi; exact (eq_refl (snd vi))]. apply Permutation_map. symmetry. exact P1.
    - intros d i I. destruct (FW d i I) as (vi & I1 & I2). destruct (flow_H1 f c F vi I1) as (_ & _ & s & S1 & S2). destruct (forward_cls c s0 s vi C I0 S1 S2 O0) as (X1 & _ & X2). rewrite I2 in X1, X2. cbn [fst] in X1, X2. split; [exact X1|]. exists s. split; [exact S1|]. split; [|exact X2].
      assert (SE : snd vi = i) by (unfold forward in I2; inversion I2; reflexivity). rewrite <- SE. apply S2.
    - destruct (forward_cls c s0 s0 v0 C I0 I0 V1 O0) as (X1 & X2 & _). rewrite <- X1. exact X2.
  Qed.
  Lemma nil_stage : forall c, multi_stage mcn inner lp c [] = Ok ([], []).
  Proof. reflexivity. Qed.
  Lemma inert3 : forall f oc, flow f oc -> oc = None \/ oc = Some CLdsf -> (oc = Some CLdsf -> LIT CLdsf) ->
    exists f3, multi_stage mcn inner lp CLdsf (to_view CLdsf f) = Ok ([], f3) /\ Permutation (to_length (f ++ f3)) its.
  Proof.
    intros f oc F [->| ->] L.
    - exists []. rewrite (flow_other f None CLdsf F) by discriminate. split; [reflexivity|]. rewrite app_nil_r. apply flow_len. exact F.
    - destruct (inert f CLdsf (or_intror (or_intror eq_refl)) F (L eq_refl)) as (fw & oc & E & F' & LT). cbn [later] in LT. subst oc. exists fw. split; [exact E|]. rewrite to_length_app, (flow_view_len f _ F). apply flow_len. exact F'.
  Qed.
  Lemma inert2 : forall f oc, flow f oc -> oc <> Some CBase -> (forall c, oc = Some c -> is3 c) -> (oc = Some CMixed -> LIT CMixed) -> (oc = Some CMixed \/ oc = Some CLdsf -> LIT CLdsf) ->
    exists f2 f3, multi_stage mcn inner lp CMixed (to_view CMixed f) = Ok ([], f2) /\ multi_stage mcn inner lp CLdsf (to_view CLdsf (f ++ f2)) = Ok ([], f3) /\ Permutation (to_length (f ++ f2 ++ f3)) its.
  Proof.
    intros f oc F NB C3 LX LL. assert (D : oc = Some CMixed \/ oc = None \/ oc = Some CLdsf). { destruct oc as [c|]; [|auto]. destruct (C3 c eq_refl) as [->|[->| ->]]; [congruence|auto|auto]. }
    destruct D as [->|D].
    - destruct (inert f CMixed (or_intror (or_introl eq_refl)) F (LX eq_refl)) as (f2 & oc & E & F' & LT). cbn [later] in LT. destruct (inert3 f2 oc F' LT (fun _ => LL (or_introl eq_refl))) as (f3 & E3 & P). exists f2, f3. split; [exact E|].
      rewrite to_view_app, (flow_other f _ CLdsf F) by discriminate. split; [exact E3|]. rewrite to_length_app, (flow_view_len f _ F). exact P.
    - destruct (inert3 f oc F D) as (f3 & E3 & P). { intros ->. apply LL. auto. } exists [], f3. rewrite (flow_other f oc CMixed F) by (destruct D as [->| ->]; discriminate). split; [reflexivity|]. rewrite app_nil_r. split; [exact E3|exact P].
  Qed.
  Lemma inert1 : forall f oc, flow f oc -> (forall c, oc = Some c -> is3 c) -> (forall c, is3 c -> oc <> None -> (oc = Some CLdsf -> c = CLdsf) -> LIT c) ->
    exists f1 f2 f3, multi_stage mcn inner lp CBase (to_view CBase f) = Ok ([], f1) /\ multi_stage mcn inner lp CMixed (to_view CMixed (f ++ f1)) = Ok ([], f2) /\
      multi_stage mcn inner lp CLdsf (to_view CLdsf (f ++ f1 ++ f2)) = Ok ([], f3) /\ Permutation (to_length (f ++ f1 ++ f2 ++ f3)) its.
  Proof.
    intros f oc F C3 LC. assert (D : oc = Some CBase \/ oc <> Some CBase). { destruct oc as [[]|]; auto; right; discriminate. }
    destruct D as [->|D].
    - assert (LA : forall c, is3 c -> LIT c) by (intros c C; apply LC; [exact C|discriminate|discriminate]).
      destruct (inert f CBase (or_introl eq_refl) F (LA _ (or_introl eq_refl))) as (f1 & oc & E & F' & LT). cbn [later] in LT. destruct (inert2 f1 oc F' LT) as (f2 & f3 & E2 & E3 & P).
      { intros c ->. destruct F' as [P F']. destruct ss as [|s0 ss'] eqn:ES; [congruence|]. destruct (SI s0 (or_introl eq_refl)) as (i & I & _). eapply Permutation_in in I; [|symmetry; exact P]. apply in_map_iff in I. destruct I as ([d j] & _ & I). destruct (F' _ _ I) as (X & sx & _ & _ & Y). destruct d as [c' v|]; [|discriminate]. injection X as ->. apply Y. }
      { intros _. apply LA. right. left. reflexivity. } { intros _. apply LA. right. right. reflexivity. }
      exists f1, f2, f3. split; [exact E|]. rewrite (to_view_app CMixed), (flow_other f _ CMixed F) by discriminate. split; [exact E2|]. rewrite (to_view_app CLdsf), (flow_other f _ CLdsf F) by discriminate. split; [exact E3|]. rewrite to_length_app, (flow_view_len f _ F). exact P.
    - destruct (inert2 f oc F D C3) as (f2 & f3 & E2 & E3 & P).
      { intros ->. apply LC; [right; left; reflexivity|discriminate..]. } { intros X. apply LC; [right; right; reflexivity|intros ->; destruct X; discriminate|reflexivity]. }
      exists [], f2, f3. rewrite (flow_other f oc CBase F D). split; [reflexivity|]. rewrite app_nil_r. split; [exact E2|]. split; [exact E3|exact P].
  Qed.
End RI.
