(** One level of a piece tree: every piece gets a pattern made of groups of its
    runs, and no two clusters give the same pattern. *)
From Coq Require Import String.
From Verif Require Import PyStr Defs ParseUtils Views Trees Cluster Spec Observe PyStrProofs DefsProofs DictProofs RegexProofs PieceProofs LengthProofs GroupProofs TreeProofs TokProofs LengthStage PieceStage EntProofs GenCluster FlatCluster ViewProofs KeyProofs TokUniq RouteProofs MultiStage.
From Coq Require Import Lia Permutation.

(** *** permutations of appended lists *)
Lemma perm_head : forall A (a l r R : list A), Permutation r (a ++ R) -> Permutation l R -> Permutation (a ++ l) r.
Proof. intros A a l r R H1 H2. rewrite H1. apply Permutation_app_head. exact H2. Qed.
Lemma perm_step : forall A (a b x R : list A), Permutation x (a ++ R) -> Permutation (b ++ x) (a ++ b ++ R).
Proof. intros A a b x R H. rewrite H. apply Permutation_app_swap_app. Qed.
Lemma perm_nil : forall A (l r : list A), Permutation (l ++ []) (r ++ []) -> Permutation l r.
Proof. intros A l r H. rewrite !app_nil_r in H. exact H. Qed.
Ltac bring := first [apply Permutation_refl | eapply perm_step; bring].
Ltac perm := apply perm_nil; rewrite <- ?app_assoc; repeat first [apply Permutation_refl | eapply perm_head; [bring|]].

Lemma NoDup_app_disj : forall A (a b : list A), NoDup (a ++ b) -> forall x, In x a -> ~ In x b.
Proof.
  intros A a b. induction a as [|y a IH]; intros N x I; [destruct I|]. cbn [app] in N. inversion N as [|? ? N1 N2]; subst.
  destruct I as [->|I]; [|apply IH; assumption]. intros J. apply N1. apply in_app_iff. right. exact J.
Qed.
Lemma to_view_in : forall c L v i, In (v, i) (to_view c L) <-> In (DView c v, i) L.
Proof.
  intros c L v i. unfold to_view. rewrite in_flat_map. split.
  - intros ([d j] & I1 & I2). cbn [fst snd] in I2. destruct d as [c' v'|]; [|destruct I2]. destruct (cls_eqb c c') eqn:E; [|destruct I2].
    apply cls_eqb_eq in E. subst c'. destruct I2 as [I2|[]]. inversion I2; subst. exact I1.
  - intros I. exists (DView c v, i). split; [exact I|]. cbn [fst snd]. rewrite (proj2 (cls_eqb_eq c c) eq_refl). left. reflexivity.
Qed.
Lemma to_view_app : forall c a b, to_view c (a ++ b) = to_view c a ++ to_view c b.
Proof. intros. unfold to_view. apply flat_map_app. Qed.
Lemma to_length_app : forall a b, to_length (a ++ b) = to_length a ++ to_length b.
Proof. intros. unfold to_length. apply flat_map_app. Qed.
Definition routed (d : dest) : Prop := match d with DLength => True | DView c _ => c = CBase \/ c = CMixed \/ c = CLdsf end.
Lemma split_dests : forall L, Forall (fun di => routed (fst di)) L ->
  Permutation (map snd L) (map snd (to_view CBase L) ++ map snd (to_view CMixed L) ++ map snd (to_view CLdsf L) ++ to_length L).
Proof.
  assert (V : forall c d i L, to_view c ((d, i) :: L) = match d with DView c' v => if cls_eqb c c' then [(v, i)] else [] | DLength => [] end ++ to_view c L) by reflexivity.
  assert (W : forall d i L, to_length ((d, i) :: L) = match d with DView _ _ => [] | DLength => [i] end ++ to_length L) by reflexivity.
  induction 1 as [|[d i] L H F IH]; [constructor|]. rewrite !V, W. change (map snd ((d, i) :: L)) with ([i] ++ map snd L). rewrite IH. clear V W IH.
  destruct d as [c v|]; cbn [fst] in H.
  - destruct H as [->|[->| ->]]; cbn [cls_eqb]; rewrite !map_app; cbn [map snd]; rewrite ?app_nil_l; perm.
  - rewrite ?app_nil_l. perm.
Qed.

(** what a pattern says about a text: groups of its runs, each literal, of a fixed
    length or of any length *)
Definition opat (s P : str) : Prop := exists gs Ps, groups s gs /\ fits (map cat gs) Ps /\ P = List.concat Ps.
(** the groups are those of one of the views *)
Definition vgrps (lp : bool) (s : str) (gs : list (list run)) : Prop :=
  gs = [runs s] \/ gs = g_multi s \/ gs = g_mixed s \/ (lp = true /\ gs = g_ldsf s).
Definition vpat (lp : bool) (s P : str) : Prop := exists gs Ps, vgrps lp s gs /\ fits (map cat gs) Ps /\ P = List.concat Ps.
Lemma vgrps_groups : forall lp s gs, vgrps lp s gs -> groups s gs.
Proof. intros lp s gs [->|[->|[->|[_ ->]]]]; [unfold groups; cbn; apply app_nil_r|apply groups_multi|apply groups_mixed|apply groups_ldsf]. Qed.
Lemma vpat_opat : forall lp s P, vpat lp s P -> opat s P.
Proof. intros lp s P (gs & Ps & V & F & E). exists gs, Ps. split; [eapply vgrps_groups; exact V|auto]. Qed.
Lemma cat_runs : forall s, all_legal s -> cat (runs s) = s.
Proof. intros s L. unfold cat. destruct (runs_spec s L) as (_ & _ & E). exact E. Qed.
Lemma vpat_pat1 : forall lp s P, all_legal s -> pat1 s P -> vpat lp s P.
Proof.
  intros lp s P L H. exists [runs s], [P]. split; [left; reflexivity|]. split; [|cbn; rewrite app_nil_r; reflexivity].
  cbn [map]. rewrite cat_runs by exact L. constructor; [exact H|constructor].
Qed.

(** the texts of a set, cut by one of the views, have one pattern, and this pattern
    says no less than the level's mode demands *)
Definition vw (lp : bool) (sv : str -> list str) : Prop := sv = (fun s => [s]) \/ sv = svB \/ sv = svX \/ (lp = true /\ sv = svL).
Definition tight (lp : bool) (X : str -> Prop) (q : str) : Prop := exists sv Ps, vw lp sv /\ q = List.concat Ps /\
  (forall s, X s -> fits (sv s) Ps) /\ tightS (fun es => exists s, X s /\ es = sv s) Ps.
Lemma tight_one : forall lp X ss M q C, Forall all_legal ss -> Forall (fun s => cset s = C) ss -> mode_ok M ss ->
  (forall s, In s ss -> mpat M s = q) -> (forall s, In s ss <-> X s) -> tight lp X q.
Proof.
  intros lp X ss M q C LG CS MO MP IN. exists (fun s => [s]), [q]. split; [left; reflexivity|]. split; [cbn; rewrite app_nil_r; reflexivity|]. split.
  - intros s I. apply IN in I. constructor; [|constructor]. rewrite <- (MP s I). exact (mode_pat1 M ss C LG CS MO s I).
  - intros [|l] q' Q; cbn in Q; [|destruct l; discriminate]. inversion Q; subst q'. exists ss. split; [exists M, C; auto|].
    intros s. rewrite IN. split; [intros I; exists [s]; split; [exists s; auto|reflexivity]|].
    intros (es & (s' & I & ->) & Q'). cbn in Q'. inversion Q'; subst. exact I.
Qed.
Lemma tight_ext : forall lp X Y q, (forall s, X s <-> Y s) -> tight lp X q -> tight lp Y q.
Proof.
  intros lp X Y q H (sv & Ps & A & B & C & D). exists sv, Ps. split; [exact A|]. split; [exact B|]. split; [intros s I; apply C, H; exact I|].
  intros l p Q. destruct (D l p Q) as (ss & E & G). exists ss. split; [exact E|]. intros s. rewrite G.
  split; intros (es & (s' & I & ->) & I2); exists (sv s'); (split; [exists s'; split; [apply H; exact I|reflexivity]|exact I2]).
Qed.

Section OL.
  Context (mcn : Z) (M2 : (2 <= mcn)%Z) (level : nat) (last_level lp kw : bool) (C : list str).
  Notation inner := (fun (d : nat) (kw : bool) (t : tree) => cluster_n 1 mcn d d kw t).

  Definition ist (i : Cluster.item) (s : str) : Prop := all_legal s /\ it_pp i = pp_of s.
  Lemma ist_fun : forall i s t, ist i s -> ist i t -> s = t.
  Proof. intros i s t [A E] [B E']. apply piece_inj; [assumption..|]. congruence. Qed.
  Lemma ist_piece : forall i s, ist i s -> it_piece i = piece (pp_of s).
  Proof. intros i s [_ E]. unfold it_piece. rewrite E. reflexivity. Qed.

  Definition key (e : cls * str * str) : str := snd (fst e).
  Definition clsof (e : cls * str * str) : cls := fst (fst e).
  (** an entry of a class *)
  Definition ent_of (items : list Cluster.item) (e : cls * str * str) : Prop :=
    exists i s, In i items /\ ist i s /\ key e = it_piece i /\ vpat lp s (snd e).

  Section Loop.
    Context (its : list Cluster.item) (L1 : (1 <= level)%nat) (I2 : its <> []).
    Context (ND : NoDup (map it_piece its)).
    Context (IO : Forall (fun i => (exists s, ist i s /\ s <> [] /\ cset s = C) /\ it_pat i = it_piece i /\ (0 < it_count i)%Z) its).
    Notation f0 := (map (fun i => (dest_piece mcn lp (it_pp i), i)) its).

    Lemma its_ist : forall i, In i its -> exists s, ist i s /\ s <> [] /\ cset s = C.
    Proof. intros i I. rewrite Forall_forall in IO. apply IO. exact I. Qed.
    Lemma its_cnt : forall i, In i its -> (0 < it_count i)%Z.
    Proof. intros i I. rewrite Forall_forall in IO. apply IO. exact I. Qed.
    Lemma f0_in : forall d i, In (d, i) f0 -> In i its /\ d = dest_piece mcn lp (it_pp i).
    Proof. intros d i I. apply in_map_iff in I. destruct I as (j & E & I). inversion E; subst. auto. Qed.
    Lemma f0_routed : Forall (fun di => routed (fst di)) f0.
    Proof.
      apply Forall_forall. intros [d i] I. apply f0_in in I. destruct I as [I ->]. cbn [fst]. destruct (its_ist i I) as (s & [L E] & N & _). rewrite E.
      pose proof (dest_piece_inv mcn M2 lp s L N) as X. destruct (dest_piece mcn lp (pp_of s)) as [c v|]; [|exact Logic.I]. destruct X as [_ X]. destruct c; cbn; auto; contradiction.
    Qed.
    Lemma perm0 : Permutation its (map snd (to_view CBase f0) ++ map snd (to_view CMixed f0) ++ map snd (to_view CLdsf f0) ++ to_length f0).
    Proof. rewrite <- split_dests by exact f0_routed. rewrite map_map. cbn [snd]. rewrite map_id. apply Permutation_refl. Qed.

    (** what is known about the members of a stage *)
    Definition inB (vi : vitem) : Prop := In (snd vi) its /\ exists s, vst svB okB vi s /\ dest_piece mcn lp (pp_of s) = DView CBase (map vpart (svB s)).
    Definition inX (vi : vitem) : Prop := In (snd vi) its /\ exists s, vst svX okX vi s /\ kM s <> kX s /\ ~ to_ldsf3 lp s.
    Definition inL (l2 : list vitem) (vi : vitem) : Prop := In (snd vi) its /\ exists s, vst svL okL vi s /\ lp = true /\
      (kM s = kX s \/ to_ldsf3 lp s \/ exists v2, In v2 l2 /\ snd v2 = snd vi).

    Lemma vgood_of : forall sv ok vi s, In (snd vi) its -> vst sv ok vi s -> vgood sv ok vi.
    Proof. intros sv ok vi s I V. split; [eauto|]. apply its_cnt. exact I. Qed.
    Lemma NoDup_sub : forall (a b : list Cluster.item), Permutation its (a ++ b) -> NoDup (map it_piece a).
    Proof. intros a b P. apply (NoDup_app_l _ (map it_piece a) (map it_piece b)). rewrite <- map_app. apply (Permutation_NoDup (Permutation_map it_piece P)). exact ND. Qed.
    Lemma pcs : forall l : list vitem, map pc l = map it_piece (map snd l).
    Proof. intros. rewrite map_map. reflexivity. Qed.

    Lemma stages : exists d1 f1 d2 f2 d3 f3 l2 l3 p1 w1 p2 w2 p3 w3,
      multi_stage mcn inner lp CBase (to_view CBase f0) = Ok (d1, f1)
      /\ l2 = to_view CMixed (f0 ++ f1) /\ multi_stage mcn inner lp CMixed l2 = Ok (d2, f2)
      /\ l3 = to_view CLdsf (f0 ++ f1 ++ f2) /\ multi_stage mcn inner lp CLdsf l3 = Ok (d3, f3)
      /\ Forall inB (to_view CBase f0) /\ Forall inX l2 /\ Forall (inL l2) l3
      /\ (Permutation (to_view CBase f0) (flat_map fst p1 ++ w1) /\ Permutation d1 (flat_map (pdone CBase) p1) /\
           Forall (fun p => tightS (fun es => exists vi s, In vi (fst p) /\ vst svB okB vi s /\ es = svB s) (snd p) /\ (forall vi s, In vi (fst p) -> vst svB okB vi s -> fits (svB s) (snd p)) /\
             (forall v1 v2 s, In v1 (fst p) -> In v2 (to_view CBase f0) -> vkey v1 = vkey v2 -> ~ In v2 (fst p) -> vst svB okB v2 s -> ~ fits (svB s) (snd p))) p1)
      /\ (Permutation l2 (flat_map fst p2 ++ w2) /\ Permutation d2 (flat_map (pdone CMixed) p2) /\
           Forall (fun p => tightS (fun es => exists vi s, In vi (fst p) /\ vst svX okX vi s /\ es = svX s) (snd p) /\ (forall vi s, In vi (fst p) -> vst svX okX vi s -> fits (svX s) (snd p)) /\
             (forall v1 v2 s, In v1 (fst p) -> In v2 l2 -> vkey v1 = vkey v2 -> ~ In v2 (fst p) -> vst svX okX v2 s -> ~ fits (svX s) (snd p))) p2)
      /\ (Permutation l3 (flat_map fst p3 ++ w3) /\ Permutation d3 (flat_map (pdone CLdsf) p3) /\
           Forall (fun p => tightS (fun es => exists vi s, In vi (fst p) /\ vst svL okL vi s /\ es = svL s) (snd p) /\
             (forall v1 v2 s, In v1 (fst p) -> In v2 l3 -> vkey v1 = vkey v2 -> ~ In v2 (fst p) -> vst svL okL v2 s -> ~ fits (svL s) (snd p)) /\
             forall vi s, In vi (fst p) -> vst svL okL vi s -> fits (svL s) (snd p) /\
              exists x, nth_error (svL s) (length (svL s) - 1) = Some x /\ nth_error (snd p) (length (svL s) - 1) = Some (pstr x KLit)) p3)
      /\ (NoDup (map pc (to_view CBase f0)) /\ NoDup (map pc l2) /\ NoDup (map pc l3))
      /\ Permutation its (map snd (flat_map fst p1) ++ map snd (flat_map fst p2) ++ map snd (flat_map fst p3) ++ to_length (f0 ++ f1 ++ f2 ++ f3)).
    Proof.
      pose proof perm0 as P0.
      (* base *)
      assert (B1 : Forall inB (to_view CBase f0)).
      { apply Forall_forall. intros [v i] I. apply to_view_in in I. apply f0_in in I. destruct I as [I D]. split; [exact I|].
        destruct (its_ist i I) as (s & [L E] & N & _). rewrite E in D. exists s. pose proof (dest_piece_inv mcn M2 lp s L N) as X. rewrite <- D in X. destruct X as [OB ->].
        split; [|symmetry; exact D]. split; [exact L|]. split; [exact OB|]. split; [reflexivity|exact E]. }
      destruct (multi_stage_spec mcn M2 lp CBase svB okB) with (l := to_view CBase f0) as (d1 & f1 & E1 & p1 & w1 & S1a & S1b & S1c & S1d).
      { intros s L _. apply svB_legal. exact L. }
      { intros s L O E. unfold svB, g_multi in E. apply map_eq_nil in E. apply map_eq_nil in E. unfold okB in O. rewrite E in O. cbn in O. lia. }
      { intros s L O. apply groups_piece; [exact L|apply groups_multi]. }
      { intros s t L _ L' _ E. apply (key_BB s t L L' E). }
      { eapply Forall_impl; [|exact B1]. intros vi (I & s & V & _). eapply vgood_of; eauto. }
      { rewrite pcs. eapply NoDup_sub. exact P0. }
      assert (W1 : forall vi, In vi w1 -> inB vi).
      { intros vi I. rewrite Forall_forall in B1. apply B1. eapply Permutation_in; [symmetry; exact S1a|]. apply in_app_iff. auto. }
      assert (F1 : forall d i, In (d, i) f1 -> exists vi s, In vi w1 /\ i = snd vi /\ vst svB okB vi s /\ d = dest_base lp (map vpart (svB s)) (pp_of s)).
      { intros d i I. apply (Permutation_in _ S1c) in I. apply in_map_iff in I. destruct I as (vi & E & I). destruct (W1 vi I) as (_ & s & V & _).
        exists vi, s. unfold forward in E. inversion E; subst. split; [exact I|]. split; [reflexivity|]. split; [exact V|]. destruct V as (_ & _ & V1 & V2). rewrite V1, V2. reflexivity. }
      assert (R1 : Forall (fun di => routed (fst di)) f1).
      { apply Forall_forall. intros [d i] I. destruct (F1 d i I) as (vi & s & _ & _ & (L & O & _) & ->). cbn [fst].
        pose proof (dest_base_inv lp s L O) as X. destruct (dest_base lp (map vpart (svB s)) (pp_of s)) as [c v|]; [|exact Logic.I]. destruct c; cbn; auto; contradiction. }
      assert (NB1 : to_view CBase f1 = []).
      { destruct (to_view CBase f1) as [|[v i] r] eqn:E; [reflexivity|]. exfalso. assert (I : In (v, i) (to_view CBase f1)) by (rewrite E; left; reflexivity).
        apply to_view_in in I. destruct (F1 _ _ I) as (vi & s & _ & _ & (L & O & _) & D). pose proof (dest_base_inv lp s L O) as X. rewrite <- D in X. exact X. }
      pose proof (split_dests f1 R1) as P1. rewrite NB1 in P1. cbn [map app] in P1.
      assert (Q1 : Permutation (map snd f1) (map snd w1)) by (rewrite S1c, map_map; apply Permutation_refl).
      apply (Permutation_map snd) in S1a as S1a'. rewrite map_app in S1a'.
      (* mixed *)
      set (l2 := to_view CMixed (f0 ++ f1)).
      assert (B2 : Forall inX l2).
      { apply Forall_forall. intros [v i] I. unfold l2 in I. apply to_view_in in I. apply in_app_iff in I. destruct I as [I|I].
        - apply f0_in in I. destruct I as [I D]. split; [exact I|]. destruct (its_ist i I) as (s & [L E] & N & _). rewrite E in D. exists s.
          pose proof (dest_piece_inv mcn M2 lp s L N) as X. rewrite <- D in X. destruct X as (OB & -> & N1 & NK & NT).
          split; [|split; assumption]. split; [exact L|]. split; [split; assumption|]. split; [reflexivity|exact E].
        - destruct (F1 _ _ I) as (vi & s & Iw & -> & V & D). split; [apply (W1 vi Iw)|]. exists s. destruct V as (L & O & _ & E).
          pose proof (dest_base_inv lp s L O) as X. rewrite <- D in X. destruct X as (-> & N1 & NK & NT).
          split; [|split; assumption]. split; [exact L|]. split; [split; assumption|]. split; [reflexivity|exact E]. }
      assert (X2 : map snd l2 = map snd (to_view CMixed f0) ++ map snd (to_view CMixed f1)) by (unfold l2; rewrite to_view_app, map_app; reflexivity).
      assert (T2 : Permutation its (map snd l2 ++ map snd (flat_map fst p1) ++ map snd (to_view CLdsf f0) ++ to_length f0 ++ map snd (to_view CLdsf f1) ++ to_length f1)).
      { rewrite P0 at 1. rewrite S1a', <- Q1, P1, X2. perm. }
      destruct (multi_stage_spec mcn M2 lp CMixed svX okX) with (l := l2) as (d2 & f2 & E2 & p2 & w2 & S2a & S2b & S2c & S2d).
      { intros s L _. apply svX_legal. exact L. }
      { intros s L [O _] E. unfold svX in E. apply map_eq_nil in E. pose proof (groups_mixed s) as G. unfold groups in G. rewrite E in G. unfold okB in O. rewrite <- G in O. cbn in O. lia. }
      { intros s L O. apply groups_piece; [exact L|apply groups_mixed]. }
      { intros s t L _ L' _ E. apply (key_XX s t L L' E). }
      { eapply Forall_impl; [|exact B2]. intros vi (I & s & V & _). eapply vgood_of; eauto. }
      { rewrite pcs. eapply NoDup_sub. exact T2. }
      assert (W2 : forall vi, In vi w2 -> inX vi /\ In vi l2).
      { intros vi I. rewrite Forall_forall in B2. assert (J : In vi l2). { eapply Permutation_in; [symmetry; exact S2a|]. apply in_app_iff. auto. } auto. }
      assert (F2 : forall d i, In (d, i) f2 -> exists vi s, In vi w2 /\ i = snd vi /\ vst svX okX vi s /\ d = dest_mixed lp (pp_of s)).
      { intros d i I. apply (Permutation_in _ S2c) in I. apply in_map_iff in I. destruct I as (vi & E & I). destruct (W2 vi I) as [(_ & s & V & _) _].
        exists vi, s. unfold forward in E. inversion E; subst. split; [exact I|]. split; [reflexivity|]. split; [exact V|]. destruct V as (_ & _ & V1 & V2). rewrite V2. reflexivity. }
      assert (R2 : Forall (fun di => routed (fst di)) f2).
      { apply Forall_forall. intros [d i] I. destruct (F2 d i I) as (vi & s & _ & _ & (L & O & _) & ->). cbn [fst].
        pose proof (dest_mixed_inv lp s L) as X. destruct (dest_mixed lp (pp_of s)) as [c v|]; [|exact Logic.I]. destruct X as [-> _]. cbn. auto. }
      assert (NB2 : forall c, c <> CLdsf -> to_view c f2 = []).
      { intros c NC. destruct (to_view c f2) as [|[v i] r] eqn:E; [reflexivity|]. exfalso. assert (I : In (v, i) (to_view c f2)) by (rewrite E; left; reflexivity).
        apply to_view_in in I. destruct (F2 _ _ I) as (vi & s & _ & _ & (L & O & _) & D). pose proof (dest_mixed_inv lp s L) as X. rewrite <- D in X. destruct X. congruence. }
      pose proof (split_dests f2 R2) as P2. rewrite !NB2 in P2 by discriminate. cbn [map app] in P2.
      assert (Q2 : Permutation (map snd f2) (map snd w2)) by (rewrite S2c, map_map; apply Permutation_refl).
      apply (Permutation_map snd) in S2a as S2a'. rewrite map_app in S2a'.
      (* last dot *)
      set (l3 := to_view CLdsf (f0 ++ f1 ++ f2)).
      assert (B3 : Forall (inL l2) l3).
      { apply Forall_forall. intros [v i] I. unfold l3 in I. apply to_view_in in I. rewrite !in_app_iff in I. destruct I as [I|[I|I]].
        - apply f0_in in I. destruct I as [I D]. split; [exact I|]. destruct (its_ist i I) as (s & [L E] & N & _). rewrite E in D. exists s.
          pose proof (dest_piece_inv mcn M2 lp s L N) as X. rewrite <- D in X. destruct X as (OB & -> & LP & N1 & X).
          split; [|split; [exact LP|destruct X; auto]]. split; [exact L|]. split; [split; assumption|]. split; [reflexivity|exact E].
        - destruct (F1 _ _ I) as (vi & s & Iw & -> & V & D). split; [apply (W1 vi Iw)|]. exists s. destruct V as (L & O & _ & E).
          pose proof (dest_base_inv lp s L O) as X. rewrite <- D in X. destruct X as (-> & LP & N1 & X).
          split; [|split; [exact LP|destruct X; auto]]. split; [exact L|]. split; [split; assumption|]. split; [reflexivity|exact E].
        - destruct (F2 _ _ I) as (vi & s & Iw & -> & V & D). split; [apply (W2 vi Iw)|]. exists s. destruct V as (L & [O _] & _ & E).
          pose proof (dest_mixed_inv lp s L) as X. rewrite <- D in X. destruct X as (_ & -> & LP & N1).
          split; [|split; [exact LP|right; right; exists vi; split; [apply (W2 vi Iw)|reflexivity]]].
          split; [exact L|]. split; [split; assumption|]. split; [reflexivity|exact E]. }
      assert (X3 : map snd l3 = map snd (to_view CLdsf f0) ++ map snd (to_view CLdsf f1) ++ map snd (to_view CLdsf f2)) by (unfold l3; rewrite !to_view_app, !map_app; reflexivity).
      assert (T3 : Permutation its (map snd l3 ++ map snd (flat_map fst p1) ++ map snd (flat_map fst p2) ++ to_length f0 ++ to_length f1 ++ to_length f2)).
      { rewrite T2 at 1. rewrite S2a', <- Q2, P2, X3. perm. }
      destruct (multi_stage_spec mcn M2 lp CLdsf svL okL) with (l := l3) as (d3 & f3 & E3 & p3 & w3 & S3a & S3b & S3c & S3d).
      { intros s L _. apply svL_legal. exact L. }
      { intros s L [O _] E. unfold svL in E. apply map_eq_nil in E. pose proof (groups_ldsf s) as G. unfold groups in G. rewrite E in G. unfold okB in O. rewrite <- G in O. cbn in O. lia. }
      { intros s L O. apply groups_piece; [exact L|apply groups_ldsf]. }
      { intros s t L O L' O' E. apply (key_LL s t L L' O O' E). }
      { eapply Forall_impl; [|exact B3]. intros vi (I & s & V & _). eapply vgood_of; eauto. }
      { rewrite pcs. eapply NoDup_sub. exact T3. }
      assert (Q3 : Permutation (to_length f3) (map snd w3)).
      { assert (X : forall L, Permutation L (map (forward lp CLdsf) w3) -> Permutation (to_length L) (map snd w3)).
        { intros L P. assert (Y : Permutation (to_length L) (to_length (map (forward lp CLdsf) w3))).
          { unfold to_length. apply Permutation_flat_map. exact P. }
          rewrite Y. clear. induction w3 as [|vi w IH]; [constructor|]. cbn [map to_length flat_map forward fst snd app]. constructor. exact IH. }
        apply X. exact S3c. }
      apply (Permutation_map snd) in S3a as S3a'. rewrite map_app in S3a'.
      exists d1, f1, d2, f2, d3, f3, l2, l3, p1, w1, p2, w2, p3, w3.
      split; [exact E1|]. split; [reflexivity|]. split; [exact E2|]. split; [reflexivity|]. split; [exact E3|].
      split; [exact B1|]. split; [exact B2|]. split; [exact B3|].
      split.
      { split; [exact S1a|]. split; [exact S1b|]. eapply Forall_impl; [|exact S1d]. intros p ((_ & T) & Y & Z). split; [exact T|]. split; [|exact Z]. intros vi s I V. apply (Y vi s I V). }
      split.
      { split; [exact S2a|]. split; [exact S2b|]. eapply Forall_impl; [|exact S2d]. intros p ((_ & T) & Y & Z). split; [exact T|]. split; [|exact Z]. intros vi s I V. apply (Y vi s I V). }
      split.
      { split; [exact S3a|]. split; [exact S3b|]. eapply Forall_impl; [|exact S3d]. intros p ((_ & T) & Y & Z). split; [exact T|]. split; [exact Z|]. intros vi s I V. destruct (Y vi s I V) as [Y1 Y2]. split; [exact Y1|apply Y2; reflexivity]. }
      split; [split; [rewrite pcs; eapply NoDup_sub; exact P0|split; rewrite pcs; eapply NoDup_sub; [exact T2|exact T3]]|].
      rewrite !to_length_app. rewrite T3 at 1. rewrite S3a', <- Q3. perm.
    Qed.

    (** the last two clusters *)
    Lemma item_ok_of : forall i, In i its -> item_ok (List.concat C) i.
    Proof.
      intros i I. rewrite Forall_forall in IO. destruct (IO i I) as ((s & [L E] & _ & EC) & P & Q). unfold item_ok, plen. rewrite E, piece_length_spec by exact L.
      split; [reflexivity|]. split; [lia|]. split.
      - intros Z. assert (s = []) as -> by (destruct s; [reflexivity|cbn [length] in Z; lia]). unfold it_piece. rewrite E. reflexivity.
      - split; [rewrite fuzzy_cset, EC; reflexivity|]. split; [exact P|exact Q].
    Qed.
    Lemma plen_pl : forall i s, ist i s -> plen (it_pp i) = Z.of_N (TokProofs.pl s).
    Proof. intros i s [L E]. unfold plen. rewrite E, piece_length_spec by exact L. unfold TokProofs.pl. rewrite nat_N_Z. reflexivity. Qed.
    Lemma final_stage : forall ll, incl ll its -> NoDup (map it_piece ll) ->
      exists d4 bs d5 cF, length_stage mcn level ll = Ok (d4, bs) /\ fuzzy_stage mcn bs = Ok d5
        /\ Permutation (map key (d4 ++ d5)) (map it_piece ll)
        /\ Forall (fun e => clsof e = cF /\ exists i s k, In i ll /\ ist i s /\ key e = it_piece i /\ kok s k /\ snd e = pstr s k) (d4 ++ d5)
        /\ (ll <> [] -> forall q, (forall e, In e (d4 ++ d5) -> snd e = q) -> tight lp (fun s => exists i, In i ll /\ ist i s) q).
    Proof.
      intros ll IN NL. destruct ll as [|i0 l0].
      { destruct (lf_nil mcn M2 level) as (d4 & bs & d5 & E1 & E2 & E3). exists d4, bs, d5, CLength. rewrite E3. split; [exact E1|]. split; [exact E2|].
        split; [constructor|]. split; [constructor|]. intros X. congruence. }
      set (ll := i0 :: l0) in *.
      assert (OK : Forall (item_ok (List.concat C)) ll) by (apply Forall_forall; intros i I; apply item_ok_of; apply IN; exact I).
      destruct (lf_spec mcn M2 level L1 (List.concat C) ll ltac:(discriminate) OK NL) as (d4 & bs & d5 & E1 & E2 & OUT).
      assert (FI : forall i, In i ll -> exists s, ist i s /\ s <> [] /\ cset s = C) by (intros i I; apply its_ist; apply IN; exact I).
      assert (TX : exists ss, (forall s, In s ss <-> exists i, In i ll /\ ist i s) /\ Forall all_legal ss /\ Forall (fun s => cset s = C) ss).
      { clear - FI. induction ll as [|i l IH]; [exists []; split; [intros s; split; [intros []|intros (i & [] & _)]|split; constructor]|].
        destruct IH as (ss & A & B & D); [intros j J; apply FI; right; exact J|]. destruct (FI i (or_introl eq_refl)) as (s & S & _ & SC). exists (s :: ss).
        split; [|split; constructor; try assumption; apply S]. intros s'. split.
        - intros [<-|J]; [exists i; split; [left; reflexivity|exact S]|]. apply A in J. destruct J as (j & J1 & J2). exists j. split; [right; exact J1|exact J2].
        - intros (j & [<-|J1] & J2); [left; exact (ist_fun i s s' S J2)|right; apply A; eauto]. }
      destruct TX as (ss & SI & SL & SCs).
      assert (TQ : forall M (g : Cluster.item -> cls * str * str) d, mode_ok M ss -> Permutation d (map g ll) -> (forall i s, In i ll -> ist i s -> snd (g i) = mpat M s) ->
        ll <> [] -> forall q, (forall e, In e d -> snd e = q) -> tight lp (fun s => exists i, In i ll /\ ist i s) q).
      { intros M g d MO P G _ q Q. apply (tight_one lp _ ss M q C SL SCs MO); [|exact SI]. intros s I. apply SI in I. destruct I as (i & J1 & J2).
        rewrite <- (G i s J1 J2). apply Q. eapply Permutation_in; [symmetry; exact P|]. apply in_map. exact J1. }
      inversion OUT as [c d P|n p d i j SP N1 Ii Ij NP Pi Pj _ P|p d i j SP Ii Ij NP _ P]; subst d.
      - exists d4, bs, d5, c. split; [exact E1|]. split; [exact E2|]. split; [rewrite P, map_map; apply Permutation_refl|].
        split; [|apply (TQ MLit _ _ Logic.I P); intros i s _ S; cbn [snd mpat pstr]; apply ist_piece; exact S].
        apply Forall_forall. intros e I. apply (Permutation_in _ P) in I. apply in_map_iff in I. destruct I as (i & <- & I). split; [reflexivity|].
        destruct (FI i I) as (s & S & _). exists i, s, KLit. split; [exact I|]. split; [exact S|]. split; [reflexivity|]. split; [exact Logic.I|]. cbn [snd pstr]. apply ist_piece. exact S.
      - exists d4, bs, d5, CLength. split; [exact E1|]. split; [exact E2|]. split; [rewrite P, map_map; apply Permutation_refl|].
        split; [|refine (TQ (MSpec (Z.to_N n)) _ _ _ P _)].
        2: { destruct (FI i Ii) as (si & Si & _ & SCi). destruct (FI j Ij) as (sj & Sj & _ & SCj). split; [lia|]. exists si, sj.
             split; [apply SI; eauto|]. split; [apply SI; eauto|]. split; [intros ->; apply NP; rewrite (ist_piece i sj Si), (ist_piece j sj Sj); reflexivity|].
             rewrite (plen_pl i si Si) in Pi. rewrite (plen_pl j sj Sj) in Pj. split; lia. }
        2: { intros x s I S. cbn [snd mpat]. destruct (FI x I) as (s' & S' & _ & SC'). assert (s' = s) as -> by (apply (ist_fun x); assumption).
             rewrite (plen_pl x s S). destruct (N.eqb_spec (TokProofs.pl s) (Z.to_N n)) as [Q|Q].
             - rewrite (proj2 (Z.eqb_eq _ _)) by lia. cbn [pstr]. rewrite specify_rule_unit in SP. rewrite (proj2 (Z.eqb_neq n 0)) in SP by lia. inversion SP as [SP']. rewrite (proj2 (Z.ltb_ge n 0)) by lia.
               rewrite SC', Q. reflexivity.
             - rewrite (proj2 (Z.eqb_neq _ _)) by lia. cbn [pstr]. apply ist_piece. exact S. }
        apply Forall_forall. intros e I. apply (Permutation_in _ P) in I. apply in_map_iff in I. destruct I as (x & <- & I). split; [reflexivity|].
        destruct (FI x I) as (s & S & SN & SC). destruct (Z.eqb_spec (plen (it_pp x)) n) as [Q|Q].
        + exists x, s, KSpec. split; [exact I|]. split; [exact S|]. split; [reflexivity|]. split.
          * split; [exact SN|]. destruct (FI i Ii) as (si & Si & _ & SCi). destruct (FI j Ij) as (sj & Sj & _ & SCj).
            rewrite (plen_pl x s S) in Q. rewrite (plen_pl i si Si) in Pi. rewrite (plen_pl j sj Sj) in Pj.
            destruct (str_eqb_spec si s) as [->|NE].
            -- exists sj. split; [apply Sj|]. split; [|split; [congruence|lia]]. intros ->. apply NP. rewrite (ist_piece i s Si), (ist_piece j s Sj). reflexivity.
            -- exists si. split; [apply Si|]. split; [exact NE|]. split; [congruence|lia].
          * cbn [snd pstr]. rewrite specify_rule_unit in SP. rewrite (proj2 (Z.eqb_neq n 0)) in SP by lia. inversion SP as [SP']. rewrite (proj2 (Z.ltb_ge n 0)) by lia.
            rewrite (plen_pl x s S) in Q. rewrite SC. do 2 f_equal. lia.
        + exists x, s, KLit. split; [exact I|]. split; [exact S|]. split; [reflexivity|]. split; [exact Logic.I|]. cbn [snd pstr]. apply ist_piece. exact S.
      - exists d4, bs, d5, CFuzzy. split; [exact E1|]. split; [exact E2|]. split; [rewrite P, map_map; apply Permutation_refl|].
        split; [|refine (TQ MWild _ _ _ P _)].
        2: { destruct (FI i Ii) as (si & Si & _ & SCi). destruct (FI j Ij) as (sj & Sj & _ & SCj). exists si, sj. split; [apply SI; eauto|]. split; [apply SI; eauto|].
             rewrite (plen_pl i si Si), (plen_pl j sj Sj) in NP. lia. }
        2: { intros x s I S. cbn [snd mpat pstr]. destruct (FI x I) as (s' & S' & _ & SC'). assert (s' = s) as -> by (apply (ist_fun x); assumption).
             unfold wildcard_rule in SP. rewrite specify_rule_unit in SP. cbn in SP. inversion SP. rewrite SC'. reflexivity. }
        apply Forall_forall. intros e I. apply (Permutation_in _ P) in I. apply in_map_iff in I. destruct I as (x & <- & I). split; [reflexivity|].
        destruct (FI x I) as (s & S & SN & SC). exists x, s, KWild. split; [exact I|]. split; [exact S|]. split; [reflexivity|]. split; [exact SN|].
        cbn [snd pstr]. unfold wildcard_rule in SP. rewrite specify_rule_unit in SP. cbn in SP. inversion SP. rewrite SC. reflexivity.
    Qed.

    Lemma two_multi : forall s, okB s -> (2 <= length (filter (fun g : list run => negb (is_nil g)) (g_multi s)))%nat.
    Proof.
      intros s O. unfold okB in O. assert (E : filter (fun g : list run => negb (is_nil g)) (g_multi s) = g_multi s).
      { unfold g_multi. induction (runs s) as [|x l IH]; [reflexivity|]. cbn [map filter is_nil negb]. f_equal.
        clear. induction l as [|x l IH]; [reflexivity|]. cbn [map filter is_nil negb]. f_equal. exact IH. }
      rewrite E. unfold g_multi. rewrite map_length. exact O.
    Qed.
    Lemma two_mixed : forall s, okX s -> (2 <= length (filter (fun g : list run => negb (is_nil g)) (g_mixed s)))%nat.
    Proof.
      intros s [O N]. assert (E : filter (fun g : list run => negb (is_nil g)) (g_mixed s) = g_mixed s).
      { pose proof (grp_nonnil _ rmix (runs s)) as X. fold (g_mixed s) in X. clear - X. induction X as [|g gs H X IH]; [reflexivity|]. cbn [filter]. destruct g; [congruence|]. cbn [is_nil negb]. f_equal. exact IH. }
      rewrite E. pose proof (groups_mixed s) as G. unfold groups in G. unfold okB in O. rewrite <- G in O.
      destruct (g_mixed s) as [|a [|b r]]; cbn [length List.concat] in *; lia.
    Qed.
    Lemma two_ldsf : forall s, okL s -> (2 <= length (filter (fun g : list run => negb (is_nil g)) (g_ldsf s)))%nat.
    Proof.
      intros s [O N]. destruct (g_ldsf_cases s) as [E|(name & dot & ext & LF)]; [rewrite E in N; cbn in N; congruence|].
      rewrite (g_ldsf_form s name dot ext LF). destruct LF as (R & _). unfold okB in O. rewrite R in O. unfold ldsf_of.
      destruct name as [|x name], ext as [|e ext]; cbn [is_nil filter negb length]; try lia. cbn in O. lia.
    Qed.

    (** a part that has all the items *)
    Lemma one_part : forall sv ok p l v0 v' s0 s', NoDup (map pc l) -> In v0 (fst p) -> In v' l -> (forall v, In v (fst p) -> In v l) -> vst sv ok v0 s0 -> vst sv ok v' s' ->
      map cset (sv s0) = map cset (sv s') -> fits (sv s') (snd p) ->
      (forall v1 v2 s, In v1 (fst p) -> In v2 l -> vkey v1 = vkey v2 -> ~ In v2 (fst p) -> vst sv ok v2 s -> ~ fits (sv s) (snd p)) -> In v' (@fst (list vitem) (list str) p).
    Proof.
      intros sv ok p l v0 v' s0 s' NL J0 J' SUB V0 V' CE F CL. destruct (in_dec str_dec (pc v') (map pc (fst p))) as [I|I].
      - apply in_map_iff in I. destruct I as (v & E & I). assert (v = v') as <- by (apply (NoDup_map_in _ _ pc l); auto). exact I.
      - exfalso. refine (CL v0 v' s' J0 J' _ _ V' F); [|intros X; apply I; apply in_map; exact X].
        unfold vkey. destruct V0 as (_ & _ & V0 & _), V' as (_ & _ & V' & _). rewrite V0, V'. apply vk_of. exact CE.
    Qed.
    Lemma tight_part : forall sv ok p, vw lp sv -> (forall vi, In vi (fst p) -> In (snd vi) its /\ exists s, vst sv ok vi s) ->
      (forall i, In i its -> exists vi, In vi (fst p) /\ snd vi = i) -> (forall vi s, In vi (fst p) -> vst sv ok vi s -> fits (sv s) (snd p)) ->
      tightS (fun es => exists vi s, In vi (fst p) /\ vst sv ok vi s /\ es = sv s) (@snd (list vitem) (list str) p) ->
      tight lp (fun s => exists i, In i its /\ ist i s) (List.concat (snd p)).
    Proof.
      intros sv ok p VW HI HA HF HT. exists sv, (snd p). split; [exact VW|]. split; [reflexivity|].
      assert (X : forall s i, In i its -> ist i s -> exists vi, In vi (fst p) /\ vst sv ok vi s /\ snd vi = i).
      { intros s i I S. destruct (HA i I) as (vi & J1 & J2). exists vi. split; [exact J1|]. split; [|exact J2]. destruct (HI vi J1) as (_ & s' & V).
        assert (s' = s) as <-; [|exact V]. apply (ist_fun i); [|exact S]. subst i. destruct V as (A & _ & _ & D). split; assumption. }
      split.
      - intros s (i & I & S). destruct (X s i I S) as (vi & J1 & J2 & _). apply (HF vi s J1 J2).
      - intros l q Q. destruct (HT l q Q) as (ss & A & D). exists ss. split; [exact A|]. intros s. rewrite D. split.
        + intros (es & (vi & s' & J1 & J2 & ->) & N). exists (sv s'). split; [|exact N]. exists s'. split; [|reflexivity]. exists (snd vi). split; [apply HI; exact J1|].
          destruct J2 as (A' & _ & _ & D'). split; assumption.
        + intros (es & (s' & (i & I & S) & ->) & N). exists (sv s'). split; [|exact N]. destruct (X s' i I S) as (vi & J1 & J2 & _). exists vi, s'. auto.
    Qed.

    Definition rest (f0 : list (dest * Cluster.item)) : res done :=
      '(d1, f1) <- multi_stage mcn inner lp CBase (to_view CBase f0) ;;
      '(d2, f2) <- multi_stage mcn inner lp CMixed (to_view CMixed (f0 ++ f1)) ;;
      '(d3, f3) <- multi_stage mcn inner lp CLdsf (to_view CLdsf (f0 ++ f1 ++ f2)) ;;
      '(d4, bs) <- length_stage mcn level (to_length (f0 ++ f1 ++ f2 ++ f3)) ;;
      d5 <- fuzzy_stage mcn bs ;;
      Ok ([] ++ d1 ++ d2 ++ d3 ++ d4 ++ d5).
    Definition progress (dn : done) : Prop := forall e e', In e dn -> In e' dn -> snd e = snd e' -> clsof e = clsof e'.

    Lemma loop_level : exists dn, rest f0 = Ok dn /\ Permutation (map key dn) (map it_piece its) /\ Forall (ent_of its) dn /\ progress dn
      /\ (forall q, (forall e, In e dn -> snd e = q) -> tight lp (fun s => exists i, In i its /\ ist i s) q).
    Proof.
      destruct stages as (d1 & f1 & d2 & f2 & d3 & f3 & l2 & l3 & p1 & w1 & p2 & w2 & p3 & w3 & E1 & EL2 & E2 & EL3 & E3 & B1 & B2 & B3 & (S1a & S1b & S1d) & (S2a & S2b & S2d) & (S3a & S3b & S3d) & (NB1 & NB2 & NB3) & PT).
      set (ll := to_length (f0 ++ f1 ++ f2 ++ f3)) in *.
      assert (LN : NoDup (map it_piece ll)). { eapply NoDup_sub. rewrite PT. instantiate (1 := map snd (flat_map fst p1) ++ map snd (flat_map fst p2) ++ map snd (flat_map fst p3)). perm. }
      assert (LI : incl ll its). { intros i I. eapply Permutation_in; [symmetry; exact PT|]. rewrite !in_app_iff. auto. }
      destruct (final_stage ll LI LN) as (d4 & bs & d5 & cF & E4 & E5 & KF & FF & TF).
      set (dn := d1 ++ d2 ++ d3 ++ d4 ++ d5).
      assert (KD : forall c ps, map key (flat_map (pdone c) ps) = map it_piece (map snd (flat_map fst ps))).
      { clear. intros c ps. induction ps as [|p ps IH]; [reflexivity|]. cbn [flat_map]. rewrite !map_app, IH. f_equal. unfold pdone. rewrite !map_map. reflexivity. }
      assert (PK : Permutation (map key dn) (map it_piece its)).
      { unfold dn. rewrite !map_app. rewrite S1b, S2b, S3b, !KD. rewrite <- (map_app key d4 d5), KF. rewrite PT. rewrite !map_app. apply Permutation_refl. }
      assert (NK : NoDup (map key dn)) by (apply (Permutation_NoDup (Permutation_sym PK)); exact ND).
      assert (UQ : forall e e', In e dn -> In e' dn -> key e = key e' -> e = e') by (intros e e' I I'; apply (NoDup_map_in _ _ key dn); assumption).
      assert (DD1 : forall e, In e d1 -> exists p vi, In p p1 /\ In vi (fst p) /\ e = (CBase, pc vi, List.concat (snd p))).
      { intros e I. apply (Permutation_in _ S1b) in I. apply in_flat_map in I. destruct I as (p & I3 & I4). unfold pdone in I4. apply in_map_iff in I4. destruct I4 as (vi & <- & I4). eauto. }
      assert (DD2 : forall e, In e d2 -> exists p vi, In p p2 /\ In vi (fst p) /\ e = (CMixed, pc vi, List.concat (snd p))).
      { intros e I. apply (Permutation_in _ S2b) in I. apply in_flat_map in I. destruct I as (p & I3 & I4). unfold pdone in I4. apply in_map_iff in I4. destruct I4 as (vi & <- & I4). eauto. }
      assert (DD3 : forall e, In e d3 -> exists p vi, In p p3 /\ In vi (fst p) /\ e = (CLdsf, pc vi, List.concat (snd p))).
      { intros e I. apply (Permutation_in _ S3b) in I. apply in_flat_map in I. destruct I as (p & I3 & I4). unfold pdone in I4. apply in_map_iff in I4. destruct I4 as (vi & <- & I4). eauto. }
      assert (MK1 : forall p vi, In p p1 -> In vi (fst p) -> In (CBase, pc vi, List.concat (snd p)) dn).
      { intros p vi I J. unfold dn. apply in_app_iff. left. eapply Permutation_in; [symmetry; exact S1b|]. apply in_flat_map. exists p. split; [exact I|]. unfold pdone. apply in_map_iff. eauto. }
      assert (MK2 : forall p vi, In p p2 -> In vi (fst p) -> In (CMixed, pc vi, List.concat (snd p)) dn).
      { intros p vi I J. unfold dn. rewrite !in_app_iff. right. left. eapply Permutation_in; [symmetry; exact S2b|]. apply in_flat_map. exists p. split; [exact I|]. unfold pdone. apply in_map_iff. eauto. }
      assert (SUB1 : forall p vi, In p p1 -> In vi (fst p) -> In vi (to_view CBase f0)).
      { intros p vi I J. eapply Permutation_in; [symmetry; exact S1a|]. apply in_app_iff. left. apply in_flat_map. eauto. }
      assert (SUB2 : forall p vi, In p p2 -> In vi (fst p) -> In vi l2).
      { intros p vi I J. eapply Permutation_in; [symmetry; exact S2a|]. apply in_app_iff. left. apply in_flat_map. eauto. }
      assert (SUB3 : forall p vi, In p p3 -> In vi (fst p) -> In vi l3).
      { intros p vi I J. eapply Permutation_in; [symmetry; exact S3a|]. apply in_app_iff. left. apply in_flat_map. eauto. }
      rewrite Forall_forall in B1, B2, B3, S1d, S2d, S3d, FF.
      (* facts about the entries of each stage *)
      assert (EN1 : forall e, In e d1 -> exists p vi s, In p p1 /\ In vi (fst p) /\ e = (CBase, pc vi, List.concat (snd p)) /\ In (snd vi) its /\ vst svB okB vi s /\ dest_piece mcn lp (pp_of s) = DView CBase (map vpart (svB s)) /\ fits (svB s) (snd p)).
      { intros e I. destruct (DD1 e I) as (p & vi & P1 & P2 & P3). destruct (B1 vi (SUB1 p vi P1 P2)) as (Q1 & s & Q2 & Q3). exists p, vi, s.
        repeat (split; [assumption|]). apply (proj1 (proj2 (S1d p P1)) vi s P2 Q2). }
      assert (EN2 : forall e, In e d2 -> exists p vi s, In p p2 /\ In vi (fst p) /\ e = (CMixed, pc vi, List.concat (snd p)) /\ In (snd vi) its /\ vst svX okX vi s /\ kM s <> kX s /\ ~ to_ldsf3 lp s /\ fits (svX s) (snd p)).
      { intros e I. destruct (DD2 e I) as (p & vi & P1 & P2 & P3). destruct (B2 vi (SUB2 p vi P1 P2)) as (Q1 & s & Q2 & Q3 & Q4). exists p, vi, s.
        repeat (split; [assumption|]). apply (proj1 (proj2 (S2d p P1)) vi s P2 Q2). }
      assert (EN3 : forall e, In e d3 -> exists p vi s, In p p3 /\ In vi (fst p) /\ e = (CLdsf, pc vi, List.concat (snd p)) /\ In (snd vi) its /\ vst svL okL vi s /\ lp = true
          /\ (kM s = kX s \/ to_ldsf3 lp s \/ exists v2, In v2 l2 /\ snd v2 = snd vi) /\ fits (svL s) (snd p)
          /\ exists x, nth_error (svL s) (length (svL s) - 1) = Some x /\ nth_error (snd p) (length (svL s) - 1) = Some (pstr x KLit)).
      { intros e I. destruct (DD3 e I) as (p & vi & P1 & P2 & P3). destruct (B3 vi (SUB3 p vi P1 P2)) as (Q1 & s & Q2 & Q3 & Q4). exists p, vi, s.
        repeat (split; [assumption|]). apply (proj2 (proj2 (S3d p P1)) vi s P2 Q2). }
      assert (IV : forall sv ok vi s, vst sv ok vi s -> ist (snd vi) s) by (intros sv ok vi s (A & _ & _ & D); split; assumption).
      exists dn. split.
      { unfold rest. rewrite E1. cbn [bind]. rewrite <- EL2, E2. cbn [bind]. rewrite <- EL3, E3. cbn [bind]. fold ll. rewrite E4. cbn [bind]. rewrite E5. reflexivity. }
      split; [exact PK|]. split.
      { apply Forall_forall. intros e I. unfold dn in I. rewrite !in_app_iff in I. destruct I as [I|[I|[I|I]]].
        - destruct (EN1 e I) as (p & vi & s & P1 & P2 & -> & P3 & P4 & _ & P5). exists (snd vi), s. split; [exact P3|]. split; [eapply IV; exact P4|]. split; [reflexivity|].
          exists (g_multi s), (snd p). split; [right; left; reflexivity|]. split; [exact P5|reflexivity].
        - destruct (EN2 e I) as (p & vi & s & P1 & P2 & -> & P3 & P4 & _ & _ & P5). exists (snd vi), s. split; [exact P3|]. split; [eapply IV; exact P4|]. split; [reflexivity|].
          exists (g_mixed s), (snd p). split; [right; right; left; reflexivity|]. split; [exact P5|reflexivity].
        - destruct (EN3 e I) as (p & vi & s & P1 & P2 & -> & P3 & P4 & PL & _ & P5 & _). exists (snd vi), s. split; [exact P3|]. split; [eapply IV; exact P4|]. split; [reflexivity|].
          exists (g_ldsf s), (snd p). split; [right; right; right; split; [exact PL|reflexivity]|]. split; [exact P5|reflexivity].
        - destruct (FF e ltac:(apply in_app_iff; exact I)) as (_ & i & s & k & P1 & P2 & P3 & P4 & P5). exists i, s. split; [apply LI; exact P1|]. split; [exact P2|]. split; [exact P3|].
          apply vpat_pat1; [apply P2|]. exists k. auto. }
      (* base against later views *)
      assert (BASE : forall e e' i2 s2 gs P2, In e d1 -> In e' dn -> clsof e' <> CBase -> In i2 its -> ist i2 s2 -> key e' = it_piece i2 -> groups s2 gs -> fits (map cat gs) P2 ->
         snd e = List.concat P2 -> False).
      { intros e e' i2 s2 gs P2 I I' NC J2 IS KE G F2 EQ. destruct (EN1 e I) as (p & v1 & s1 & P1 & Q1 & -> & J1 & V1 & D1 & F1). cbn [snd] in EQ.
        destruct (base_absorb s1 s2 gs (snd p) P2) as [AF AK]; [apply V1|apply IS|exact F1|exact G|exact F2|exact EQ|].
        assert (RE : map fst (runs s1) = map fst (runs s2)).
        { rewrite !kM_eq in AK by (apply V1 || apply IS). apply (f_equal (map (fun C => hd [] C))) in AK. rewrite !map_map in AK. exact AK. }
        destruct (dest_rules mcn lp s1 s2) as [D2 O2]; [apply V1|apply IS|apply V1|exact RE|exact D1|].
        set (w := (map vpart (svB s2), i2) : vitem).
        assert (IW : In w (to_view CBase f0)).
        { apply to_view_in. apply in_map_iff. exists i2. split; [|exact J2]. destruct IS as [_ IE]. rewrite IE, D2. reflexivity. }
        assert (VW : vst svB okB w s2) by (split; [apply IS|]; split; [exact O2|]; split; [reflexivity|apply IS]).
        refine (proj2 (proj2 (S1d p P1)) v1 w s2 Q1 IW _ _ VW AF).
        - unfold vkey. destruct V1 as (_ & _ & V1 & _). rewrite V1. unfold w. cbn [fst]. apply vk_of. exact AK.
        - intros IN. pose proof (MK1 p w P1 IN) as X. assert (Y : (CBase, pc w, List.concat (snd p)) = e') by (apply UQ; [exact X|exact I'|cbn; symmetry; exact KE]).
          apply NC. rewrite <- Y. reflexivity. }
      assert (MIX : forall e e', In e d2 -> In e' d3 -> In e' dn -> snd e = snd e' -> False).
      { intros e e' I I' J' EQ. destruct (EN2 e I) as (p & v1 & s1 & P1 & Q1 & -> & J1 & V1 & NK1 & NT1 & F1).
        destruct (EN3 e' I') as (q & v2 & s2 & P2 & Q2 & -> & J2 & V2 & LP & CASES & F2 & LIT). cbn [snd] in EQ.
        assert (LG1 : all_legal s1) by apply V1. assert (LG2 : all_legal s2) by apply V2.
        assert (OL2 : okL s2) by apply V2.
        destruct CASES as [KK|[T3|(v' & I2' & SV)]].
        - destruct (g_ldsf_cases s2) as [X|(name & dot & ext & LF)]; [destruct OL2 as [_ O]; rewrite X in O; cbn in O; congruence|].
          destruct (mixed_absorb s1 s2 name dot ext (snd p) (snd q) LG1 LG2 F1 LF F2 EQ) as (_ & KX & _).
          apply NK1. unfold kM, kX, svB, svX. rewrite (kX_kM s1 s2 LG1 LG2 KX KK). reflexivity.
        - destruct T3 as (T1 & _ & T2). destruct (three_mixed s2 LG2 T1 T2) as (_ & name & dot & ext & LF & NE & GM).
          destruct (mixed_absorb s1 s2 name dot ext (snd p) (snd q) LG1 LG2 F1 LF F2 EQ) as (_ & KX & LA). destruct (LA NE) as (A & Pe & LA1 & LA2). clear LA.
          assert (L3 : length (g_mixed s1) = 3). { apply (f_equal (@length _)) in KX. rewrite !kX_eq, !map_length, GM in KX by assumption. exact KX. }
          destruct (g_mixed s1) as [|a [|b [|d [|]]]] eqn:G1; try discriminate. clear L3.
          destruct LIT as (x & LX1 & LX2). unfold svL in LX1, LX2. rewrite (g_ldsf_form s2 name dot ext LF) in LX1, LX2. unfold ldsf_of in LX1, LX2.
          destruct ext as [|e0 ext]; [congruence|]. cbn [is_nil map length Nat.sub] in LX1, LX2. cbn [nth_error] in LX1. inversion LX1; subst x. rewrite LA2 in LX2. inversion LX2 as [LX3].
          unfold svX in F1. rewrite G1 in F1. cbn [map] in F1. rewrite LA1 in F1. inversion F1 as [|? ? ? ? _ F3 X0 X1]; subst. inversion F3 as [|? ? ? ? _ F4 X2 X3]; subst.
          inversion F4 as [|? ? ? ? F5 F6 X4 X5]; subst. inversion F6; subst.
          assert (PE : pat1 (cat d) (pstr (cat (e0 :: ext)) KLit)).
          { destruct A as [|a1 [|a2 [|a3 A]]]; cbn [app] in X1; try discriminate; inversion X1; subst; try assumption. destruct A; discriminate. }
          destruct PE as (k & K1 & K2). cbn [pstr] in K2.
          assert (GO1 := groups_ok s1 _ LG1 (groups_mixed s1)). rewrite G1 in GO1. inversion GO1 as [|? ? _ GO2]; subst. inversion GO2 as [|? ? _ GO3]; subst. inversion GO3 as [|? ? [R1 R2] _]; subst.
          assert (GO4 := groups_ok s2 _ LG2 (groups_mixed s2)). rewrite GM in GO4. inversion GO4 as [|? ? _ GO5]; subst. inversion GO5 as [|? ? _ GO6]; subst. inversion GO6 as [|? ? [R3 R4] _]; subst.
          apply lit_vs_class in K2; [|exact R4|exact R2|exact K1].
          assert (d = e0 :: ext) as -> by (rewrite <- R1, <- R3, K2; reflexivity).
          apply NT1. destruct (three_transfer s1 s2 name dot (e0 :: ext) LG1 LG2 GM NE LF KX) as [Y1 Y2]; [rewrite G1; eauto|].
          split; [rewrite G1; reflexivity|]. split; [exact LP|exact Y1].
        - destruct (g_ldsf_cases s2) as [X|(name & dot & ext & LF)]; [destruct OL2 as [_ O]; rewrite X in O; cbn in O; congruence|].
          destruct (mixed_absorb s1 s2 name dot ext (snd p) (snd q) LG1 LG2 F1 LF F2 EQ) as (FX & KX & _).
          destruct (B2 v' I2') as (_ & s' & V' & _). assert (s' = s2) as ->. { apply (ist_fun (snd v2)); [rewrite <- SV; eapply IV; exact V'|eapply IV; exact V2]. }
          refine (proj2 (proj2 (S2d p P1)) v1 v' s2 Q1 I2' _ _ V' FX).
          + unfold vkey. destruct V1 as (_ & _ & V1 & _), V' as (_ & _ & V' & _). rewrite V1, V'. apply vk_of. exact KX.
          + intros IN. pose proof (MK2 p v' P1 IN) as X. assert (Y : (CMixed, pc v', List.concat (snd p)) = (CLdsf, pc v2, List.concat (snd q))).
            { apply UQ; [exact X|exact J'|]. cbn. unfold pc. rewrite SV. reflexivity. }
            discriminate. }
      assert (FIN : forall e e' i1 s1 gs P1, In e dn -> In i1 its -> ist i1 s1 -> key e = it_piece i1 -> groups s1 gs -> fits (map cat gs) P1 -> snd e = List.concat P1 ->
          (2 <= length (filter (fun g : list run => negb (is_nil g)) gs))%nat -> In e' (d4 ++ d5) -> ~ In e (d4 ++ d5) -> snd e = snd e' -> False).
      { intros e e' i1 s1 gs P1 I J1 IS KE G F1 SE TW I' NC EQ. destruct (FF e' I') as (_ & i2 & s2 & k & Q1 & Q2 & Q3 & Q4 & Q5).
        assert (I'' : In e' dn) by (unfold dn; rewrite !in_app_iff; apply in_app_iff in I'; tauto).
        assert (EC : List.concat P1 = pstr s2 k) by congruence.
        assert (DEC : k = KLit \/ k <> KLit) by (destruct k; [left; reflexivity|right; discriminate..]).
        destruct DEC as [->|NK'].
        - assert (s1 = s2) as -> by (eapply lit_joined; [apply IS|apply Q2|exact G|exact F1|exact EC]).
          apply NC. rewrite (UQ e e' I I''); [exact I'|]. rewrite KE, Q3, (ist_piece i1 s2 IS), (ist_piece i2 s2 Q2). reflexivity.
        - pose proof (one_joined s1 s2 gs P1 k ltac:(apply IS) ltac:(apply Q2) G F1 Q4 NK' EC) as X. lia. }
      assert (DJ : forall e, In e d1 \/ In e d2 \/ In e d3 -> ~ In e (d4 ++ d5)).
      { intros e X Y. assert (PD : Permutation (map key dn) (map key (d1 ++ d2 ++ d3) ++ map key (d4 ++ d5))) by (rewrite <- map_app; unfold dn; rewrite !app_assoc; apply Permutation_refl).
        apply (Permutation_NoDup PD) in NK. refine (NoDup_app_disj _ _ _ NK (key e) _ _); apply in_map; [rewrite !in_app_iff; tauto|exact Y]. }
      assert (ORD : forall e e', In e dn -> In e' dn -> snd e = snd e' ->
          (In e d1 /\ (In e' d2 \/ In e' d3 \/ In e' (d4 ++ d5))) \/ (In e d2 /\ (In e' d3 \/ In e' (d4 ++ d5))) \/ (In e d3 /\ In e' (d4 ++ d5)) -> False).
      { intros e e' I I' EQ [[A B]|[[A B]|[A B]]].
        - destruct (EN1 e A) as (p & v1 & s1 & P1 & Q1 & -> & J1 & V1 & _ & F1). destruct B as [B|[B|B]].
          + destruct (EN2 e' B) as (q & v2 & s2 & P2 & Q2 & -> & J2 & V2 & _ & _ & F2). eapply (BASE _ _ (snd v2) s2 (g_mixed s2) (snd q) A I'); [discriminate|exact J2|eapply IV; exact V2|reflexivity|apply groups_mixed|exact F2|exact EQ].
          + destruct (EN3 e' B) as (q & v2 & s2 & P2 & Q2 & -> & J2 & V2 & _ & _ & F2 & _). eapply (BASE _ _ (snd v2) s2 (g_ldsf s2) (snd q) A I'); [discriminate|exact J2|eapply IV; exact V2|reflexivity|apply groups_ldsf|exact F2|exact EQ].
          + eapply (FIN _ e' (snd v1) s1 (g_multi s1) (snd p) I J1); [eapply IV; exact V1|reflexivity|apply groups_multi|exact F1|reflexivity|apply two_multi; apply V1|exact B|apply DJ; tauto|exact EQ].
        - destruct B as [B|B]; [exact (MIX e e' A B I' EQ)|].
          destruct (EN2 e A) as (p & v1 & s1 & P1 & Q1 & -> & J1 & V1 & _ & _ & F1).
          eapply (FIN _ e' (snd v1) s1 (g_mixed s1) (snd p) I J1); [eapply IV; exact V1|reflexivity|apply groups_mixed|exact F1|reflexivity|apply two_mixed; apply V1|exact B|apply DJ; tauto|exact EQ].
        - destruct (EN3 e A) as (p & v1 & s1 & P1 & Q1 & -> & J1 & V1 & _ & _ & F1 & _).
          eapply (FIN _ e' (snd v1) s1 (g_ldsf s1) (snd p) I J1); [eapply IV; exact V1|reflexivity|apply groups_ldsf|exact F1|reflexivity|apply two_ldsf; apply V1|exact B|apply DJ; tauto|exact EQ]. }
      assert (SPL : forall e, In e dn -> In e d1 \/ In e d2 \/ In e d3 \/ In e (d4 ++ d5)) by (intros x X; unfold dn in X; rewrite !in_app_iff in X; rewrite in_app_iff; tauto).
      split.
      2: { intros q UN. assert (NE : exists e0, In e0 dn).
        { destruct its as [|i0 r0]; [congruence|]. destruct dn as [|e0 r]; [|exists e0; left; reflexivity]. exfalso. apply Permutation_length in PK. cbn in PK. lia. }
        destruct NE as [e0 I0].
        assert (ENT : forall i, In i its -> exists e, In e dn /\ key e = it_piece i).
        { intros i I. assert (X : In (it_piece i) (map key dn)) by (eapply Permutation_in; [symmetry; exact PK|]; apply in_map; exact I). apply in_map_iff in X. destruct X as (e & X1 & X2). eauto. }
        assert (UI : forall i j, In i its -> In j its -> it_piece i = it_piece j -> i = j) by (intros i j I J; apply (NoDup_map_in _ _ it_piece its); assumption).
        destruct (SPL e0 I0) as [A|[A|[A|A]]].
        - assert (AL : forall e, In e dn -> In e d1).
          { intros e I. destruct (SPL e I) as [B|B]; [exact B|]. exfalso. apply (ORD e0 e I0 I); [rewrite (UN e I), (UN e0 I0); reflexivity|tauto]. }
          destruct (EN1 e0 A) as (p & v0 & s0 & P1 & Q1 & EE0 & J0 & V0 & _ & F0). rewrite <- (UN e0 I0), EE0. cbn [snd].
          apply (tight_part svB okB p); [right; left; reflexivity| | |apply (S1d p P1)|apply (S1d p P1)].
          + intros vi J. destruct (B1 vi (SUB1 p vi P1 J)) as (X1 & s & X2 & _). eauto.
          + intros i I. destruct (ENT i I) as (e & Ie & Ke). destruct (EN1 e (AL e Ie)) as (p' & v' & s' & P1' & Q1' & EE & J' & V' & _ & F'). exists v'.
            assert (CC : List.concat (snd p) = List.concat (snd p')) by (pose proof (UN e0 I0) as X; pose proof (UN e Ie) as Y; rewrite EE0 in X; rewrite EE in Y; cbn [snd] in X, Y; congruence).
            destruct (same_blocks fB s0 s' (snd p) (snd p')) as [EP EC]; [apply V0|apply V'|rewrite gF_fB; exact F0|rewrite gF_fB; exact F'|exact CC|]. rewrite !gF_fB in EC. split.
            * apply (one_part svB okB p (to_view CBase f0) v0 v' s0 s' NB1 Q1 (SUB1 p' v' P1' Q1') (fun v => SUB1 p v P1) V0 V' EC); [rewrite EP; exact F'|apply (S1d p P1)].
            * apply UI; [exact J'|exact I|]. rewrite <- Ke, EE. reflexivity.
        - assert (AL : forall e, In e dn -> In e d2).
          { intros e I. destruct (SPL e I) as [B|[B|B]]; [|exact B|]; exfalso; [apply (ORD e e0 I I0)|apply (ORD e0 e I0 I)]; try tauto; rewrite (UN e I), (UN e0 I0); reflexivity. }
          destruct (EN2 e0 A) as (p & v0 & s0 & P1 & Q1 & EE0 & J0 & V0 & _ & _ & F0). rewrite <- (UN e0 I0), EE0. cbn [snd].
          apply (tight_part svX okX p); [right; right; left; reflexivity| | |apply (S2d p P1)|apply (S2d p P1)].
          + intros vi J. destruct (B2 vi (SUB2 p vi P1 J)) as (X1 & s & X2 & _). eauto.
          + intros i I. destruct (ENT i I) as (e & Ie & Ke). destruct (EN2 e (AL e Ie)) as (p' & v' & s' & P1' & Q1' & EE & J' & V' & _ & _ & F'). exists v'.
            assert (CC : List.concat (snd p) = List.concat (snd p')) by (pose proof (UN e0 I0) as X; pose proof (UN e Ie) as Y; rewrite EE0 in X; rewrite EE in Y; cbn [snd] in X, Y; congruence).
            destruct (same_blocks in_mixed s0 s' (snd p) (snd p')) as [EP EC]; [apply V0|apply V'|exact F0|exact F'|exact CC|]. split.
            * apply (one_part svX okX p l2 v0 v' s0 s' NB2 Q1 (SUB2 p' v' P1' Q1') (fun v => SUB2 p v P1) V0 V' EC); [rewrite EP; exact F'|apply (S2d p P1)].
            * apply UI; [exact J'|exact I|]. rewrite <- Ke, EE. reflexivity.
        - assert (AL : forall e, In e dn -> In e d3).
          { intros e I. destruct (SPL e I) as [B|[B|[B|B]]]; [| |exact B|]; exfalso; [apply (ORD e e0 I I0)|apply (ORD e e0 I I0)|apply (ORD e0 e I0 I)]; try tauto; rewrite (UN e I), (UN e0 I0); reflexivity. }
          destruct (EN3 e0 A) as (p & v0 & s0 & P1 & Q1 & EE0 & J0 & V0 & LP & _ & F0 & _). rewrite <- (UN e0 I0), EE0. cbn [snd].
          apply (tight_part svL okL p); [right; right; right; split; [exact LP|reflexivity]| | |intros vi s X Y; apply (proj2 (proj2 (S3d p P1)) vi s X Y)|apply (S3d p P1)].
          + intros vi J. destruct (B3 vi (SUB3 p vi P1 J)) as (X1 & s & X2 & _). eauto.
          + intros i I. destruct (ENT i I) as (e & Ie & Ke). destruct (EN3 e (AL e Ie)) as (p' & v' & s' & P1' & Q1' & EE & J' & V' & _ & _ & F' & _). exists v'.
            assert (CC : List.concat (snd p) = List.concat (snd p')) by (pose proof (UN e0 I0) as X; pose proof (UN e Ie) as Y; rewrite EE0 in X; rewrite EE in Y; cbn [snd] in X, Y; congruence).
            destruct (same_ldsf s0 s' (snd p) (snd p')) as [EP EC]; [apply V0|apply V'|apply V0|apply V'|exact F0|exact F'|exact CC|]. split.
            * apply (one_part svL okL p l3 v0 v' s0 s' NB3 Q1 (SUB3 p' v' P1' Q1') (fun v => SUB3 p v P1) V0 V' EC); [rewrite EP; exact F'|apply (S3d p P1)].
            * apply UI; [exact J'|exact I|]. rewrite <- Ke, EE. reflexivity.
        - assert (AL : forall e, In e dn -> In e (d4 ++ d5)).
          { intros e I. destruct (SPL e I) as [B|[B|[B|B]]]; [| | |exact B]; exfalso; apply (ORD e e0 I I0); try tauto; rewrite (UN e I), (UN e0 I0); reflexivity. }
          assert (ALL : forall i, In i its -> In i ll).
          { intros i I. destruct (ENT i I) as (e & Ie & Ke). destruct (FF e (AL e Ie)) as (_ & j & s & k & X1 & X2 & X3 & _).
            assert (i = j) as ->; [|exact X1]. apply UI; [exact I|apply LI; exact X1|congruence]. }
          apply (tight_ext lp (fun s => exists i, In i ll /\ ist i s)).
          + intros s. split; intros (i & X & Y); exists i; split; auto.
          + apply TF.
            * intros X. destruct its as [|i0 r0]; [congruence|]. specialize (ALL i0 (or_introl eq_refl)). rewrite X in ALL. destruct ALL.
            * intros e X. apply UN. unfold dn. apply in_app_iff in X. rewrite !in_app_iff. tauto. }
      intros e e' I I' EQ.
      assert (DEC : clsof e = clsof e' \/ clsof e <> clsof e') by (destruct (cls_eqb (clsof e) (clsof e')) eqn:X; [left; apply cls_eqb_eq; exact X|right; intros Y; apply cls_eqb_eq in Y; congruence]).
      destruct DEC as [D|NC]; [exact D|exfalso].
      assert (S1 : forall e, In e d1 -> clsof e = CBase) by (intros x X; destruct (EN1 x X) as (? & ? & ? & _ & _ & -> & _); reflexivity).
      assert (S2 : forall e, In e d2 -> clsof e = CMixed) by (intros x X; destruct (EN2 x X) as (? & ? & ? & _ & _ & -> & _); reflexivity).
      assert (S3 : forall e, In e d3 -> clsof e = CLdsf) by (intros x X; destruct (EN3 x X) as (? & ? & ? & _ & _ & -> & _); reflexivity).
      assert (S4 : forall e, In e (d4 ++ d5) -> clsof e = cF) by (intros x X; destruct (FF x X) as (Y & _); exact Y).
      destruct (SPL e I) as [A|[A|[A|A]]], (SPL e' I') as [B|[B|[B|B]]];
        first [ apply NC; rewrite ?S1, ?S2, ?S3, ?S4 by assumption; first [reflexivity | rewrite (S1 e A), (S1 e' B); reflexivity | rewrite (S2 e A), (S2 e' B); reflexivity | rewrite (S3 e A), (S3 e' B); reflexivity | rewrite (S4 e A), (S4 e' B); reflexivity]
              | apply (ORD e e' I I' EQ); tauto
              | apply (ORD e' e I' I (eq_sym EQ)); tauto ].
    Qed.
  End Loop.

  Lemma outer_level : forall ns, ns <> [] -> (level = 0 -> exists n, ns = [n]) ->
    Forall (fun n => (exists s, all_legal s /\ t_val (pn_tree n) = pp_of s /\ cset s = C) /\ (0 < pn_cnt n)%Z) ns ->
    exists dn, run_level mcn inner level last_level lp kw ns = Ok dn
      /\ Permutation (map key dn) (map it_piece (items ns)) /\ Forall (ent_of (items ns)) dn /\ progress dn
      /\ ((zsum (map pn_cnt ns) < mcn)%Z \/ last_level && kw = true -> Forall (fun e => snd e = key e) dn)
      /\ (forall q, (forall e, In e dn -> snd e = q) -> tight lp (fun s => exists i, In i (items ns) /\ ist i s) q).
  Proof.
    intros ns NE L0 FA.
    assert (POS : Forall (fun n => 0 < pn_cnt n)%Z ns) by (eapply Forall_impl; [|exact FA]; intros n H; apply H).
    assert (IS : forall i, In i (items ns) -> exists s, ist i s /\ cset s = C).
    { intros i I. apply items_bag in I. destruct I as (_ & _ & n & I1 & I2). rewrite Forall_forall in FA. destruct (FA n I1) as [(s & A & B & E) _].
      exists s. split; [split; [exact A|congruence]|exact E]. }
    destruct (piece_stage_spec mcn M2 level last_level lp kw ns NE POS L0) as [PS|(L1 & I2 & LK & TOT & PS)].
    - exists (literal ns). assert (MS : forall c, multi_stage mcn inner lp c [] = Ok ([], [])) by reflexivity. split.
      { unfold run_level. rewrite PS. cbn [bind to_view flat_map app]. rewrite MS. cbn [bind app to_view flat_map]. rewrite MS.
        cbn [bind app to_view flat_map]. rewrite MS. cbn [bind app to_length flat_map].
        destruct (lf_nil mcn M2 level) as (d4 & bs & d5 & E1 & E2 & E3). rewrite E1. cbn [bind]. rewrite E2. cbn [bind].
        apply app_eq_nil in E3. destruct E3 as [-> ->]. rewrite !app_nil_r. reflexivity. }
      unfold literal. split; [rewrite map_map; apply Permutation_refl|]. split; [|split; [|split]].
      + apply Forall_forall. intros e I. apply in_map_iff in I. destruct I as (i & <- & I). destruct (IS i I) as (s & S & _). exists i, s.
        split; [exact I|]. split; [exact S|]. split; [reflexivity|]. cbn [snd]. rewrite (ist_piece i s S). apply vpat_pat1; [apply S|]. exists KLit. split; [exact Logic.I|reflexivity].
      + intros e e' I I' _. apply in_map_iff in I, I'. destruct I as (? & <- & _), I' as (? & <- & _). reflexivity.
      + intros _. apply Forall_forall. intros e I. apply in_map_iff in I. destruct I as (? & <- & _). reflexivity.
      + intros q Q. assert (TX : exists ss, (forall s, In s ss <-> exists i, In i (items ns) /\ ist i s) /\ Forall all_legal ss /\ Forall (fun s => cset s = C) ss).
        { clear - IS. induction (items ns) as [|i l IH]; [exists []; split; [intros s; split; [intros []|intros (i & [] & _)]|split; constructor]|].
          destruct IH as (ss & A & B & D); [intros j J; apply IS; right; exact J|]. destruct (IS i (or_introl eq_refl)) as (s & S & SC). exists (s :: ss).
          split; [|split; constructor; try assumption; apply S]. intros s'. split.
          - intros [<-|J]; [exists i; split; [left; reflexivity|exact S]|]. apply A in J. destruct J as (j & J1 & J2). exists j. split; [right; exact J1|exact J2].
          - intros (j & [<-|J1] & J2); [left; exact (ist_fun i s s' S J2)|right; apply A; eauto]. }
        destruct TX as (ss & SI & SL & SCs). apply (tight_one lp _ ss MLit q C SL SCs Logic.I); [|exact SI]. intros s I. apply SI in I. destruct I as (i & I1 & I2).
        cbn [mpat pstr]. rewrite <- (ist_piece i s I2). apply (Q (CPiece, it_piece i, it_piece i)). apply in_map_iff. exists i. split; [reflexivity|exact I1].
    - assert (NI : items ns <> []) by (intros E; rewrite E in I2; cbn in I2; lia).
      assert (NC : C <> []).
      { intros ->. assert (EM : forall i, In i (items ns) -> it_piece i = []).
        { intros i I. destruct (IS i I) as (s & S & SC). apply cset_nil in SC; [|apply S]. subst s. rewrite (ist_piece i [] S). reflexivity. }
        pose proof (items_NoDup ns) as ND. destruct (items ns) as [|i [|j r]]; cbn in I2; try lia. cbn [map] in ND. inversion ND as [|? ? X _]; subst. apply X. left.
        rewrite (EM i), (EM j) by (cbn; auto). reflexivity. }
      destruct (loop_level (items ns) L1 NI (items_NoDup ns)) as (dn & E & P & F & G & TG).
      { apply Forall_forall. intros i I. destruct (IS i I) as (s & S & SC). split; [exists s; split; [exact S|]; split; [intros ->; apply NC; rewrite <- SC; reflexivity|exact SC]|].
        split; [apply (items_pat ns); exact I|]. pose proof (items_count ns POS) as X. rewrite Forall_forall in X. apply X. exact I. }
      exists dn. split; [unfold run_level; rewrite PS; exact E|]. split; [exact P|]. split; [exact F|]. split; [exact G|]. split; [|exact TG].
      intros [X|X]; [lia|congruence].
  Qed.
End OL.
