(** The piece cluster: either every bag keeps its piece or every bag is passed on. *)
From Coq Require Import String.
From Verif Require Import PyStr Defs ParseUtils Views Trees Cluster PyStrProofs DictProofs GroupProofs LengthStage.
From Coq Require Import Lia Permutation.

Definition bags (ns : list pnode) : list (str * bag) := dgroup str_eqb pn_piece (fun n => n) ns.
Lemma group_nodes_eq : forall ns, group_nodes ns = bags ns.
Proof. intros. apply (dapp_dgroup pnode pnode pn_piece (fun n => n)). Qed.

Definition first_val (b : bag) : parsed_piece := match b with [] => empty_parsed_piece | n :: _ => t_val (pn_tree n) end.
Definition items (ns : list pnode) : list item := map (fun kb => IT (first_val (snd kb)) (fst kb) (snd kb)) (bags ns).

Lemma bags_in : forall ns k b, In (k, b) (bags ns) ->
  b = filter (fun n => str_eqb k (pn_piece n)) ns /\ b <> [] /\ piece (first_val b) = k.
Proof.
  intros ns k b H. apply dgroup_in in H; [|exact str_eqb_iff]. destruct H as [H1 H2]. rewrite map_id in H1.
  split; [exact H1|]. split; [exact H2|]. destruct b as [|n b]; [congruence|].
  assert (I : In n (n :: b)) by (left; reflexivity). rewrite H1 in I. apply filter_In in I. destruct I as [_ I].
  apply str_eqb_eq in I. cbn [first_val]. exact (eq_sym I).
Qed.
Lemma items_piece : forall ns, map it_piece (items ns) = map fst (bags ns).
Proof.
  intros ns. unfold items. rewrite map_map. apply map_ext_in. intros [k b] H. cbn [fst snd].
  apply bags_in in H. unfold it_piece. cbn [it_pp]. apply H.
Qed.
Lemma items_NoDup : forall ns, NoDup (map it_piece (items ns)).
Proof. intros. rewrite items_piece. apply dgroup_NoDup. exact str_eqb_iff. Qed.
Lemma items_in : forall ns k, In k (map it_piece (items ns)) <-> In k (map pn_piece ns).
Proof. intros. rewrite items_piece. apply dgroup_keys. exact str_eqb_iff. Qed.
Lemma items_pat : forall ns i, In i (items ns) -> it_pat i = it_piece i.
Proof.
  intros ns i H. unfold items in H. apply in_map_iff in H. destruct H as ([k b] & H1 & H2). subst i. cbn [fst snd].
  apply bags_in in H2. unfold it_piece. cbn [it_pp it_pat]. symmetry. apply H2.
Qed.
Lemma items_bag : forall ns i, In i (items ns) ->
  it_bag i = filter (fun n => str_eqb (it_piece i) (pn_piece n)) ns /\ it_bag i <> []
  /\ exists n, In n ns /\ it_pp i = t_val (pn_tree n).
Proof.
  intros ns i H. unfold items in H. apply in_map_iff in H. destruct H as ([k b] & H1 & H2). subst i. cbn [fst snd].
  apply bags_in in H2. destruct H2 as (H2 & H3 & H4). unfold it_piece. cbn [it_pp it_bag]. rewrite H4.
  split; [exact H2|]. split; [exact H3|]. destruct b as [|n b]; [congruence|]. exists n. split; [|reflexivity].
  assert (I : In n (n :: b)) by (left; reflexivity). rewrite H2 in I. apply filter_In in I. apply I.
Qed.
Lemma bag_count_pos : forall b, b <> [] -> Forall (fun n => 0 < pn_cnt n)%Z b -> (0 < bag_count b)%Z.
Proof.
  intros [|n b] H FA; [congruence|]. unfold bag_count.
  assert (P : Forall (fun z => 0 < z)%Z (map pn_cnt (n :: b))) by (rewrite Forall_map; exact FA).
  apply zsum_pos in P. rewrite map_length in P. cbn [length] in P. lia.
Qed.
Lemma items_count : forall ns, Forall (fun n => 0 < pn_cnt n)%Z ns -> Forall (fun i => 0 < it_count i)%Z (items ns).
Proof.
  intros ns FA. apply Forall_forall. intros i I. apply items_bag in I. destruct I as (I1 & I2 & _).
  apply bag_count_pos; [exact I2|]. rewrite I1. apply Forall_forall. intros n H. apply filter_In in H.
  rewrite Forall_forall in FA. apply FA. apply H.
Qed.
Lemma items_total : forall ns, lb_count (items ns) = zsum (map pn_cnt ns).
Proof.
  intros ns. unfold lb_count, items. rewrite map_map. unfold it_count. cbn [it_bag].
  rewrite <- (zsum_perm _ _ (Permutation_map pn_cnt (dgroup_perm _ str_eqb str_eqb_iff _ pn_piece ns))).
  fold (bags ns). induction (bags ns) as [|[k b] r IH]; [reflexivity|]. cbn [map flat_map fst snd]. rewrite map_app, zsum_app.
  rewrite <- IH. reflexivity.
Qed.
Lemma items_nil : forall ns, items ns = [] -> ns = [].
Proof.
  intros ns H. unfold items in H. apply map_eq_nil in H. eapply dgroup_nil; [exact str_eqb_iff|exact H].
Qed.

Section P.
  Context (mcn : Z) (M2 : (2 <= mcn)%Z) (level : nat) (last_level last_path kw : bool).
  Definition literal (ns : list pnode) : done := map (fun i => (CPiece, it_piece i, it_piece i)) (items ns).
  Definition passed (ns : list pnode) : list (dest * item) := map (fun i => (dest_piece mcn last_path (it_pp i), i)) (items ns).

  Lemma literal_eq : forall ns, map (fun kb : str * bag => (CPiece, fst kb, fst kb)) (bags ns) = literal ns.
  Proof.
    intros ns. unfold literal, items. rewrite map_map. apply map_ext_in. intros [k b] H. apply bags_in in H.
    destruct H as (_ & _ & H). unfold it_piece. cbn [fst snd it_pp]. rewrite H. reflexivity.
  Qed.

  Lemma piece_stage_spec : forall ns, ns <> [] -> Forall (fun n => 0 < pn_cnt n)%Z ns ->
    (level = 0 -> exists n, ns = [n]) ->
    piece_stage mcn level last_level last_path kw ns = Ok (literal ns, [])
    \/ (1 <= level)%nat /\ (2 <= length (items ns))%nat /\ last_level && kw = false /\ (mcn <= zsum (map pn_cnt ns))%Z
       /\ piece_stage mcn level last_level last_path kw ns = Ok ([], passed ns).
  Proof.
    intros ns NE FA L0. unfold piece_stage, piece_bags. rewrite group_nodes_eq, literal_eq.
    assert (BN : bags ns <> []). { intros E. apply NE. eapply dgroup_nil; [exact str_eqb_iff|exact E]. }
    destruct (is_nil (bags ns)) eqn:E0; [destruct (bags ns); [congruence|discriminate]|]. clear E0.
    destruct (last_level && kw) eqn:LK; [left; reflexivity|].
    assert (LEN : length (items ns) = length (bags ns)) by (unfold items; apply map_length).
    assert (CNT : map (fun kb : str * bag => bag_count (snd kb)) (bags ns) = map it_count (items ns)).
    { unfold items. rewrite map_map. reflexivity. }
    assert (POS : Forall (fun z => 0 < z)%Z (map it_count (items ns))).
    { rewrite Forall_map. apply items_count. exact FA. }
    pose proof (items_total ns) as TOT. unfold lb_count in TOT.
    assert (LOOP : (1 <= level)%nat -> (r <- mapM (piece_one mcn level last_path) (bags ns) ;; Ok (lefts r, rights r)) = Ok ([], passed ns)).
    { intros L1. rewrite (mapM_pure _ _ _ (fun kb => inr (dest_piece mcn last_path (first_val (snd kb)), IT (first_val (snd kb)) (fst kb) (snd kb)))).
      - cbn [bind]. unfold passed, items. rewrite map_map. cbn [it_pp].
        assert (LR : forall bs : list (str * bag),
          @lefts (cls * str * str) _ (map (fun kb => inr (dest_piece mcn last_path (first_val (snd kb)), IT (first_val (snd kb)) (fst kb) (snd kb))) bs) = []
          /\ @rights (cls * str * str) _ (map (fun kb => inr (dest_piece mcn last_path (first_val (snd kb)), IT (first_val (snd kb)) (fst kb) (snd kb))) bs)
             = map (fun kb => (dest_piece mcn last_path (first_val (snd kb)), IT (first_val (snd kb)) (fst kb) (snd kb))) bs).
        { induction bs as [|b bs [IH1 IH2]]; [split; reflexivity|]. cbn [map lefts rights]. rewrite IH2. auto. }
        destruct (LR (bags ns)) as [-> ->]. reflexivity.
      - intros [k b] I. apply bags_in in I. destruct I as (_ & I & _). unfold piece_one. cbn [fst snd].
        assert (K : (if (bag_count b <? mcn)%Z then Ok false
             else if (mcn <=? bag_pcount b - bag_count b)%Z then Ok false else pre_seek mcn level b) = Ok false).
        { destruct (_ <? _)%Z; [reflexivity|]. destruct (_ <=? _)%Z; [reflexivity|]. apply pre_seek_false. exact L1. }
        rewrite K. cbn [bind]. unfold piece_item. cbn [fst snd]. destruct b as [|n b]; [congruence|]. reflexivity. }
    assert (ONE : length (bags ns) = 1 -> (Z.of_nat (length (bags ns)) <? mcn)%Z = true /\
       exists m, max_count (map it_count (items ns)) = Ok m /\ confused (zsum (map it_count (items ns))) m mcn = false).
    { intros H. split; [apply Z.ltb_lt; lia|]. destruct (items ns) as [|i [|j r]] eqn:EI.
      - exfalso. apply BN. unfold items in EI. apply map_eq_nil in EI. exact EI.
      - exists (it_count i). split; [reflexivity|]. cbn [map zsum fold_right]. rewrite Z.add_0_r. apply confused_self. exact M2.
      - cbn [length] in LEN. rewrite H in LEN. lia. }
    rewrite CNT. destruct (Nat.eq_dec (length (bags ns)) 1) as [O|O].
    - destruct (ONE O) as [O1 (m & O2 & O3)]. rewrite O1, O2. cbn [bind]. rewrite O3. cbn [negb]. left. reflexivity.
    - assert (L1 : (1 <= level)%nat).
      { destruct level; [|lia]. exfalso. destruct (L0 eq_refl) as [n L0']. subst ns. apply O. reflexivity. }
      assert (TWO : (2 <= length (items ns))%nat).
      { rewrite LEN. destruct (bags ns) as [|a [|b r]]; [congruence|cbn in O; lia|cbn; lia]. }
      rewrite (LOOP L1). destruct (Z.of_nat (length (bags ns)) <? mcn)%Z eqn:E1.
      + destruct (max_count_ok (map it_count (items ns))) as [m Hm].
        { intros E. apply map_eq_nil in E. rewrite E in TWO. cbn in TWO. lia. }
        rewrite Hm. cbn [bind]. destruct (confused (zsum (map it_count (items ns))) m mcn) eqn:CF; cbn [negb]; [|left; reflexivity].
        right. repeat split; auto. rewrite <- TOT. unfold confused in CF. destruct (zsum (map it_count (items ns)) <? mcn)%Z eqn:LT; [discriminate|].
        apply Z.ltb_ge in LT. exact LT.
      + right. repeat split; auto. apply Z.ltb_ge in E1. apply zsum_pos in POS. rewrite map_length in POS. lia.
  Qed.
End P.
