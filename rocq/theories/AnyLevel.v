(** The clusters of one level when their input comes in another order. *)
From Coq Require Import String.
From Verif Require Import PyStr Defs ParseUtils Views Trees Cluster AnyOrder PyStrProofs DictProofs GroupProofs LengthStage PieceStage AnyBase.
From Coq Require Import Lia Permutation.

Definition iEq (i i' : item) : Prop := it_pp i = it_pp i' /\ it_pat i = it_pat i' /\ it_count i = it_count i'.
Definition nSim (n n' : pnode) : Prop := t_val (pn_tree n) = t_val (pn_tree n') /\ pn_cnt n = pn_cnt n'.
Definition dEq (x y : dest * item) : Prop := fst x = fst y /\ iEq (snd x) (snd y).
Definition vEq (x y : list parsed_piece * item) : Prop := fst x = fst y /\ iEq (snd x) (snd y).

Lemma iEq_refl : forall i, iEq i i.
Proof. intros i. repeat split. Qed.
Lemma iEq_piece : forall i j, iEq i j -> it_piece i = it_piece j.
Proof. intros i j (E & _). unfold it_piece. rewrite E. reflexivity. Qed.
Lemma iEq_set : forall p i j, iEq i j -> iEq (set_pat p i) (set_pat p j).
Proof. intros p i j (A & B & C). repeat split; cbn; auto. Qed.
Lemma finish_any : forall c b b', PL iEq b b' -> Permutation (finish c b) (finish c b').
Proof.
  intros c b b' H. unfold finish. apply (PL_map_eq iEq); [exact H|]. intros x y E. rewrite (iEq_piece x y E). destruct E as (_ & -> & _). reflexivity.
Qed.
Lemma set_any : forall p b b', PL iEq b b' -> PL iEq (map (set_pat p) b) (map (set_pat p) b').
Proof. intros p b b' H. eapply PL_map; [exact H|]. intros x y. apply iEq_set. Qed.
Lemma counts_any : forall b b', PL iEq b b' -> Permutation (map it_count b) (map it_count b').
Proof. intros b b' H. apply (PL_map_eq iEq); [exact H|]. intros x y E. apply E. Qed.
Lemma lb_count_any : forall b b', PL iEq b b' -> lb_count b = lb_count b'.
Proof. intros b b' H. unfold lb_count. apply zsum_perm. apply counts_any. exact H. Qed.
Lemma lb_counts_any : forall bs bs', PL (PL iEq) bs bs' -> Permutation (map lb_count bs) (map lb_count bs').
Proof. intros bs bs' H. apply (PL_map_eq (PL iEq)); [exact H|]. exact lb_count_any. Qed.
Lemma pieces_any : forall b b', PL iEq b b' -> Permutation (map it_piece b) (map it_piece b').
Proof. intros b b' H. apply (PL_map_eq iEq); [exact H|]. exact iEq_piece. Qed.

Section LF.
  Context (mcn : Z) (M2 : (2 <= mcn)%Z) (level : nat) (L1 : (1 <= level)%nat) (F : str).
  Lemma item_ok_any : forall i j, iEq i j -> item_ok F i -> item_ok F j.
  Proof. intros i j E. pose proof (iEq_piece i j E) as P. destruct E as (A & B & C). unfold item_ok. rewrite A, B, C, P. auto. Qed.
  Lemma lac_any : forall b b', PL iEq b b' -> length_as_cluster mcn b = length_as_cluster mcn b'.
  Proof.
    intros b b' H. unfold length_as_cluster. rewrite <- (PL_length _ _ _ H), <- (lb_count_any _ _ H).
    destruct (_ <? _)%Z; [|reflexivity]. destruct (_ <? _)%Z; [reflexivity|]. pose proof (counts_any _ _ H) as P.
    destruct (max_count (map it_count b)) as [m|e] eqn:E.
    - rewrite (max_count_perm _ _ P m E). reflexivity.
    - destruct (map it_count b) eqn:EB; [|discriminate]. apply Permutation_nil in P. rewrite P. rewrite E. reflexivity.
  Qed.
  Lemma lpat_any : forall b b', PL iEq b b' -> Forall (item_ok F) b -> (forall i j, In i b -> In j b -> plen (it_pp i) = plen (it_pp j)) ->
    length_pattern b = length_pattern b'.
  Proof.
    intros b b' H OK SAME. destruct b' as [|j b'].
    - apply PL_length in H. destruct b; [reflexivity|discriminate].
    - destruct (PL_in_r iEq _ _ j H (or_introl eq_refl)) as (i & I & E). destruct b as [|k b]; [destruct I|]. cbn [length_pattern].
      assert (KI : plen (it_pp k) = plen (it_pp i)) by (apply SAME; [left; reflexivity|exact I]). rewrite Forall_forall in OK.
      destruct (OK k (or_introl eq_refl)) as (K1 & _ & _ & K2 & _). destruct (OK i I) as (I1 & _ & _ & I2 & _).
      destruct E as (<- & _). rewrite K1, I1, KI, K2, I2. reflexivity.
  Qed.
  Lemma buckets_any : forall l l', PL iEq l l' -> PL (PL iEq) (buckets l) (buckets l').
  Proof.
    intros l l' H. unfold buckets. eapply PL_map; [eapply (PL_dgroupZ _ _ _ _ iEq iEq); [exact H|]|].
    - intros x y _ _ E. split; [|exact E]. cbv beta. destruct E as (-> & _). reflexivity.
    - intros x y E. apply E.
  Qed.
  Definition sRel {A B} (R : A -> A -> Prop) (Q : B -> B -> Prop) (x y : A + B) : Prop :=
    match x, y with inl a, inl b => R a b | inr a, inr b => Q a b | _, _ => False end.
  Lemma lefts_app : forall A B (a b : list (A + B)), lefts (a ++ b) = lefts a ++ lefts b.
  Proof. intros A B a b. induction a as [|[x|x] a IH]; cbn; congruence. Qed.
  Lemma rights_app : forall A B (a b : list (A + B)), rights (a ++ b) = rights a ++ rights b.
  Proof. intros A B a b. induction a as [|[x|x] a IH]; cbn; congruence. Qed.
  Lemma lefts_fm : forall A B (a : list (A + B)), lefts a = flat_map (fun s => match s with inl x => [x] | inr _ => [] end) a.
  Proof. intros A B a. induction a as [|[x|x] a IH]; cbn; congruence. Qed.
  Lemma rights_fm : forall A B (a : list (A + B)), rights a = flat_map (fun s => match s with inr x => [x] | inl _ => [] end) a.
  Proof. intros A B a. induction a as [|[x|x] a IH]; cbn; congruence. Qed.
  Lemma lefts_any : forall A B (R : A -> A -> Prop) (Q : B -> B -> Prop) r r', PL (sRel R Q) r r' -> PL R (lefts r) (lefts r').
  Proof.
    intros A B R Q r r' H. rewrite !lefts_fm. eapply PL_flat_map; [exact H|]. intros [x|x] [y|y] E; cbn in E; try destruct E; try apply PL_nil.
    apply PL_cons; [exact E|apply PL_nil].
  Qed.
  Lemma rights_any : forall A B (R : A -> A -> Prop) (Q : B -> B -> Prop) r r', PL (sRel R Q) r r' -> PL Q (rights r) (rights r').
  Proof.
    intros A B R Q r r' H. rewrite !rights_fm. eapply PL_flat_map; [exact H|]. intros [x|x] [y|y] E; cbn in E; try destruct E; try apply PL_nil.
    apply PL_cons; [exact E|apply PL_nil].
  Qed.
  Lemma concat_any : forall A (l l' : list (list A)), PL (@Permutation A) l l' -> Permutation (List.concat l) (List.concat l').
  Proof. intros A l l' H. rewrite <- (map_id l), <- (map_id l'), <- !flat_map_concat_map. eapply PL_flat_map_perm; [exact H|]. auto. Qed.
  Lemma is_nil_any : forall A B (R : A -> B -> Prop) l l', PL R l l' -> is_nil l = is_nil l'.
  Proof. intros A B R l l' H. apply PL_length in H. destruct l, l'; try discriminate; reflexivity. Qed.

  Lemma len_any : forall l l' d bs, Forall (item_ok F) l -> NoDup (map it_piece l) -> PL iEq l l' ->
    length_stage mcn level l = Ok (d, bs) ->
    exists d' bs', length_stage mcn level l' = Ok (d', bs') /\ Permutation d d' /\ PL (PL iEq) bs bs'.
  Proof.
    intros l l' d bs OK ND H E.
    assert (OK' : Forall (item_ok F) l') by (eapply PL_Forall; [exact H|exact item_ok_any|exact OK]).
    assert (ND' : NoDup (map it_piece l')) by (eapply Permutation_NoDup; [apply pieces_any; exact H|exact ND]).
    unfold length_stage in *. rewrite (len_fold F) in * by assumption. cbn [bind] in *. fold (buckets l) in E. fold (buckets l').
    pose proof (buckets_any l l' H) as B. rewrite <- (is_nil_any _ _ _ _ _ B).
    destruct (is_nil (buckets l)); [inversion E; subst; exists [], []; split; [reflexivity|split; [constructor|apply PL_nil]]|].
    pose proof (lb_counts_any _ _ B) as P. rewrite <- (PL_length _ _ _ B), <- (zsum_perm _ _ P).
    assert (PB : forall b b', In b (buckets l) -> PL iEq b b' -> length_pattern b = length_pattern b').
    { intros b b' I HB. apply lpat_any; [exact HB|exact (bucket_ok F l b OK I)|]. intros i j Ii Ij. apply bucket_in in I. destruct I as (_ & n & ->).
      apply filter_In in Ii, Ij. destruct Ii as [_ Ii], Ij as [_ Ij]. apply Z.eqb_eq in Ii, Ij. congruence. }
    assert (LOOP : (r <- mapM (length_one mcn level) (buckets l) ;; Ok (List.concat (lefts r), rights r)) = Ok (d, bs) ->
       exists d' bs', (r <- mapM (length_one mcn level) (buckets l') ;; Ok (List.concat (lefts r), rights r)) = Ok (d', bs') /\ Permutation d d' /\ PL (PL iEq) bs bs').
    { clear E. intros E. destruct (mapM (length_one mcn level) (buckets l)) as [r|] eqn:ER; [|discriminate]. cbn [bind] in E. inversion E; subst; clear E.
      destruct (mapM_any _ _ _ _ (PL iEq) (sRel (@Permutation _) (PL iEq)) (length_one mcn level) (length_one mcn level) _ _ r B) with (2 := ER) as (r' & ER' & HR).
      - intros x y a X Y XY EA. unfold length_one in *. rewrite <- (lac_any x y XY), <- (PB x y X XY). destruct (length_as_cluster mcn x) as [[|]|]; [| |discriminate]; cbn [bind] in *.
        + rewrite !(pre_seek_false _ _ L1) in *. cbn [bind] in *. destruct (length_pattern x) as [p|]; [|discriminate]. cbn [bind] in *. inversion EA; subst.
          eexists. split; [reflexivity|]. cbn [sRel]. apply set_any. exact XY.
        + inversion EA; subst. eexists. split; [reflexivity|]. exact XY.
      - rewrite ER'. cbn [bind]. eexists. eexists. split; [reflexivity|]. split; [apply concat_any; eapply lefts_any; exact HR|eapply rights_any; exact HR]. }
    destruct (Z.of_nat (length (buckets l)) <? mcn)%Z; [|exact (LOOP E)].
    destruct (max_count (map lb_count (buckets l))) as [m|] eqn:EM; [|discriminate]. rewrite (max_count_perm _ _ P m EM). cbn [bind] in *.
    destruct (negb _); [|exact (LOOP E)]. clear LOOP.
    destruct (mapM (length_final mcn) (buckets l)) as [r|] eqn:ER; [|discriminate]. cbn [bind] in E. inversion E; subst; clear E.
    destruct (mapM_any _ _ _ _ (PL iEq) (@Permutation _) (length_final mcn) (length_final mcn) _ _ r B) with (2 := ER) as (r' & ER' & HR).
    - intros x y a X Y XY EA. unfold length_final in *. rewrite <- (lac_any x y XY), <- (PB x y X XY). destruct (length_as_cluster mcn x) as [[|]|]; [| |discriminate]; cbn [bind] in *.
      + destruct (length_pattern x) as [p|]; [|discriminate]. cbn [bind] in *. inversion EA; subst. eexists. split; [reflexivity|]. apply finish_any. apply set_any. exact XY.
      + inversion EA; subst. eexists. split; [reflexivity|]. apply finish_any. exact XY.
    - rewrite ER'. cbn [bind]. eexists. eexists. split; [reflexivity|]. split; [apply concat_any; exact HR|apply PL_nil].
  Qed.
  (** the buckets that are passed on are filled, with items of the same fuzzy rule *)
  Definition bs_ok (bs : list (list item)) : Prop := (forall b, In b bs -> b <> []) /\ (forall i, In i (List.concat bs) -> fuzzy_rule (it_pp i) = F).
  Lemma len_bs : forall l d bs, Forall (item_ok F) l -> NoDup (map it_piece l) -> length_stage mcn level l = Ok (d, bs) -> bs_ok bs.
  Proof.
    intros l d bs OK ND E. unfold length_stage in E. rewrite (len_fold F l OK ND) in E. cbn [bind] in E. fold (buckets l) in E.
    assert (NIL : bs_ok []) by (split; [intros b []|intros i []]).
    assert (LOOP : (r <- mapM (length_one mcn level) (buckets l) ;; Ok (List.concat (lefts r), rights r)) = Ok (d, bs) -> bs_ok bs).
    { clear E. intros E. destruct (mapM (length_one mcn level) (buckets l)) as [r|] eqn:ER; [|discriminate]. cbn [bind] in E. inversion E; subst; clear E.
      assert (BO : forall b, In b (buckets l) -> b <> [] /\ Forall (item_ok F) b).
      { intros b I. split; [apply bucket_in in I; apply I|]. exact (bucket_ok F l b OK I). }
      revert r ER BO. generalize (buckets l). intros bl. clear - L1. induction bl as [|b bl IH]; intros r ER BO.
      - cbn [mapM] in ER. inversion ER; subst. split; [intros b []|intros i []].
      - cbn [mapM] in ER. destruct (length_one mcn level b) as [y|] eqn:EY; [|discriminate]. cbn [bind] in ER.
        destruct (mapM (length_one mcn level) bl) as [ys|] eqn:EYS; [|discriminate]. cbn [bind] in ER. inversion ER; subst; clear ER.
        destruct (IH ys eq_refl (fun b0 I => BO b0 (or_intror I))) as [N1 N2].
        assert (Y : exists b', y = inr b' /\ (b' = b \/ exists p, b' = map (set_pat p) b)).
        { unfold length_one in EY. destruct (length_as_cluster mcn b) as [[|]|]; [| |discriminate]; cbn [bind] in EY.
          - rewrite (pre_seek_false _ _ L1) in EY. cbn [bind] in EY. destruct (length_pattern b) as [p|]; [|discriminate]. cbn [bind] in EY. inversion EY; subst. eauto.
          - inversion EY; subst. eauto. }
        destruct Y as (b' & -> & Y). cbn [rights]. destruct (BO b (or_introl eq_refl)) as [B1 B2]. split.
        + intros x [<-|X]; [|exact (N1 x X)]. destruct Y as [->|(p & ->)]; [exact B1|]. intros E. apply map_eq_nil in E. exact (B1 E).
        + intros i I. cbn [List.concat] in I. apply in_app_iff in I. destruct I as [I|I]; [|exact (N2 i I)]. rewrite Forall_forall in B2. destruct Y as [->|(p & ->)].
          * apply B2. exact I.
          * apply in_map_iff in I. destruct I as (j & <- & J). cbn [set_pat it_pp]. apply B2. exact J. }
    destruct (is_nil (buckets l)); [inversion E; subst; exact NIL|].
    destruct (_ <? _)%Z; [|exact (LOOP E)]. destruct (max_count _) as [m|]; [|discriminate]. cbn [bind] in E. destruct (negb _); [|exact (LOOP E)].
    destruct (mapM (length_final mcn) (buckets l)); [|discriminate]. cbn [bind] in E. inversion E; subst. exact NIL.
  Qed.

End LF.
(** *** the fuzzy cluster *)
Section FZ.
  Context (mcn : Z) (M2 : (2 <= mcn)%Z) (F : str).
  Notation bs_ok := (bs_ok F).
  Definition fdec (bs : list (list item)) : bool :=
    (mcn <=? Z.of_nat (length bs))%Z || (negb (zsum (map lb_count bs) <? mcn)%Z &&
      match max_count (map lb_count bs) with Ok m => confused (zsum (map lb_count bs)) m mcn | Err _ => false end).
  Lemma fdec_any : forall bs bs', length bs = length bs' -> Permutation (map lb_count bs) (map lb_count bs') -> fdec bs = fdec bs'.
  Proof.
    intros bs bs' L P. unfold fdec. rewrite L, (zsum_perm _ _ P). f_equal. f_equal.
    destruct (max_count (map lb_count bs)) as [m|e] eqn:E.
    - rewrite (max_count_perm _ _ P m E). reflexivity.
    - destruct (map lb_count bs) eqn:EB; [|discriminate]. apply Permutation_nil in P. rewrite P. reflexivity.
  Qed.
  Definition fout (w : str) (bs : list (list item)) : done :=
    if fdec bs then map (fun i => (CFuzzy, it_piece i, w)) (List.concat bs) else finish CFuzzy (List.concat bs).
  Lemma fuzzy_any_spec : forall bs w r, wildcard_rule F = Ok w -> bs_ok bs -> fuzzy_any mcn bs r -> exists d, r = Ok d /\ Permutation d (fout w bs).
  Proof.
    intros bs w r W [NB HF] (s & S1 & S2). unfold just in S1. subst s.
    destruct (fuzzy_fold mcn F w W bs [] false None [] NB HF (or_introl eq_refl) (fun _ => conj eq_refl eq_refl)) as (c2 & fp2 & dn2 & A1 & A2 & q & A3 & A4 & A5).
    { symmetry. apply Z.leb_gt. cbn. lia. }
    rewrite A1 in S2. cbn [fst snd app] in *. destruct S2 as (cached & P & ->).
    assert (S2 : forall i, In i (List.concat cached) -> In i (List.concat bs)).
    { intros i I. rewrite A3, concat_app. apply in_app_iff. left. apply in_concat in I. destruct I as (b & I1 & I2). apply in_concat. exists b. split; [|exact I2]. eapply Permutation_in; [symmetry; exact P|exact I1]. }
    assert (NC : cached <> [] -> exists i, In i (List.concat cached)).
    { intros N. destruct cached as [|b c2']; [congruence|]. destruct b as [|x b].
      - exfalso. apply (NB []); [rewrite A3; apply in_app_iff; left; eapply Permutation_in; [symmetry; exact P|left; reflexivity]|reflexivity].
      - exists x. left. reflexivity. }
    assert (PC : Permutation (List.concat cached) (List.concat c2)). { apply concat_any. apply (PL_impl _ _ eq); [intros x y _ _ ->; apply Permutation_refl|]. apply PL_perm. symmetry. exact P. }
    unfold fuzzy_end. assert (PM : Permutation (map lb_count c2) (map lb_count cached)) by (apply Permutation_map; exact P).
    assert (FS : forall (X : cached <> []), fuzzy_set fp2 cached = Ok (w, map (fun i => (CFuzzy, it_piece i, w)) (List.concat cached))).
    { intros X. apply (fuzzy_set_ok F); [exact W|exact A2|exact (NC X)|]. intros i I. apply HF. apply S2. exact I. }
    destruct (mcn <=? Z.of_nat (length c2))%Z eqn:LE.
    - assert (FD : fdec bs = true). { unfold fdec. apply Z.leb_le in LE. rewrite A3, app_length. destruct (_ <=? _)%Z eqn:X; [reflexivity|]. apply Z.leb_gt in X. lia. }
      unfold fout. rewrite FD, FS.
      + cbn [bind]. eexists. split; [reflexivity|]. rewrite A4, A3, concat_app, map_app, PC. apply Permutation_app_comm.
      + intros ->. apply Permutation_sym, Permutation_nil in P. subst c2. apply Z.leb_le in LE. cbn in LE. lia.
    - pose proof (A5 eq_refl) as ->. rewrite app_nil_r in A3. subst c2. cbn [List.concat map] in A4. subst dn2.
      assert (DE : fdec bs = negb (zsum (map lb_count cached) <? mcn)%Z && match max_count (map lb_count cached) with Ok m => confused (zsum (map lb_count cached)) m mcn | Err _ => false end).
      { rewrite (fdec_any bs cached (Permutation_length P) PM). unfold fdec. rewrite <- (Permutation_length P), LE. reflexivity. }
      unfold fout. rewrite DE. destruct (zsum (map lb_count cached) <? mcn)%Z eqn:LT; cbn [negb andb].
      + eexists. split; [reflexivity|]. unfold finish. apply Permutation_map. exact PC.
      + assert (NE : cached <> []). { intros ->. apply Z.ltb_ge in LT. cbn in LT. lia. }
        destruct (max_count_ok (map lb_count cached)) as [m Hm]. { intros E. apply map_eq_nil in E. exact (NE E). }
        rewrite Hm. cbn [bind]. destruct (confused _ m mcn).
        * rewrite (FS NE). cbn [bind]. eexists. split; [reflexivity|]. apply Permutation_map. exact PC.
        * eexists. split; [reflexivity|]. unfold finish. apply Permutation_map. exact PC.
  Qed.
  Lemma fuzzy_is_any : forall bs, fuzzy_any mcn bs (fuzzy_stage mcn bs).
  Proof.
    intros bs. unfold fuzzy_any, fuzzy_stage. eexists. split; [reflexivity|]. destruct (foldM (fuzzy_add mcn) bs _) as [[[[c f] p] d]|]; [|reflexivity].
    cbn [bind fst snd]. exists c. split; [apply Permutation_refl|reflexivity].
  Qed.
  Lemma bs_ok_any : forall bs bs', PL (PL iEq) bs bs' -> bs_ok bs -> bs_ok bs'.
  Proof.
    intros bs bs' H [N1 N2]. split.
    - intros b' I ->. destruct (PL_in_r _ _ _ _ H I) as (b & B & HB). apply (N1 b B). apply PL_length in HB. destruct b; [reflexivity|discriminate].
    - intros i I. apply PL_concat in H. destruct (PL_in_r _ _ _ _ H I) as (j & J & E). destruct E as (<- & _). exact (N2 j J).
  Qed.
  Lemma fuz_any : forall bs bs' d r, bs_ok bs -> PL (PL iEq) bs bs' -> fuzzy_stage mcn bs = Ok d -> fuzzy_any mcn bs' r ->
    exists d', r = Ok d' /\ Permutation d d'.
  Proof.
    intros bs bs' d r OK H E A. destruct (wildcard_ok F) as [w W].
    destruct (fuzzy_any_spec bs w (fuzzy_stage mcn bs) W OK (fuzzy_is_any bs)) as (d0 & E0 & P0). rewrite E in E0. inversion E0; subst d0.
    destruct (fuzzy_any_spec bs' w r W (bs_ok_any bs bs' H OK) A) as (d' & -> & P'). exists d'. split; [reflexivity|]. rewrite P0, P'. unfold fout.
    rewrite <- (fdec_any bs bs' (PL_length _ _ _ H) (lb_counts_any _ _ H)). apply PL_concat in H. destruct (fdec bs).
    - apply (PL_map_eq iEq); [exact H|]. intros x y XY. rewrite (iEq_piece x y XY). reflexivity.
    - apply finish_any. exact H.
  Qed.
End FZ.

(** *** the piece cluster *)
Lemma Forall2_PL_trans : forall A B C (R : A -> B -> Prop) (Q : B -> C -> Prop) (S : A -> C -> Prop) l m n, PL R l m -> Forall2 Q m n ->
  (forall x y z, R x y -> Q y z -> S x z) -> PL S l n.
Proof.
  intros A B C R Q S l m n H F HS. apply (PL_impl _ _ (fun x z => exists y, R x y /\ Q y z)); [intros x z _ _ (y & X & Y); eauto|].
  eapply PL_trans; [exact H|apply PL_F2; exact F].
Qed.
Definition bSim (a b : str * bag) : Prop := fst a = fst b /\ PL nSim (snd a) (snd b).
Lemma nSim_piece : forall n m, nSim n m -> pn_piece n = pn_piece m.
Proof. intros n m (E & _). unfold pn_piece, t_piece. rewrite E. reflexivity. Qed.
Lemma bags_sim : forall ns ns' bs, PL nSim ns ns' -> bags_any (group_nodes ns') bs -> PL bSim (bags ns) bs.
Proof.
  intros ns ns' bs H B. rewrite group_nodes_eq in B.
  apply (Forall2_PL_trans _ _ _ bSim (fun b b' => fst b = fst b' /\ Permutation (snd b) (snd b')) bSim _ (bags ns')).
  - unfold bags, bSim. apply (PL_dgroup _ _ _ _ nSim nSim); [exact H|]. intros x y _ _ E. split; [apply nSim_piece; exact E|exact E].
  - exact B.
  - intros x y z [X1 X2] [Y1 Y2]. split; [etransitivity; [exact X1|exact Y1]|]. eapply PL_perm_r; eassumption.
Qed.
Section P.
  Context (mcn : Z) (M2 : (2 <= mcn)%Z) (level : nat) (last_level last_path kw : bool).
  Definition pass (kb : str * bag) : dest * item := (dest_piece mcn last_path (first_val (snd kb)), IT (first_val (snd kb)) (fst kb) (snd kb)).
  Lemma piece_loop : forall bs, (1 <= level)%nat -> Forall (fun kb => snd kb <> []) bs ->
    (r <- mapM (piece_one mcn level last_path) bs ;; Ok (lefts r, rights r)) = Ok ([], map pass bs).
  Proof.
    intros bs L1 NB. rewrite (mapM_pure _ _ _ (fun kb => inr (pass kb))).
    - cbn [bind].
      assert (LR : forall bs : list (str * bag), @lefts (cls * str * str) _ (map (fun kb => inr (pass kb)) bs) = [] /\ @rights (cls * str * str) _ (map (fun kb => inr (pass kb)) bs) = map pass bs).
      { clear. induction bs as [|b bs [IH1 IH2]]; [split; reflexivity|]. cbn [map lefts rights]. rewrite IH2. auto. }
      destruct (LR bs) as [-> ->]. reflexivity.
    - intros [k b] I. rewrite Forall_forall in NB. apply NB in I. cbn [snd] in I. unfold piece_one. cbn [fst snd].
      assert (K : (if (bag_count b <? mcn)%Z then Ok false
           else if (mcn <=? bag_pcount b - bag_count b)%Z then Ok false else pre_seek mcn level b) = Ok false).
      { destruct (_ <? _)%Z; [reflexivity|]. destruct (_ <=? _)%Z; [reflexivity|]. apply pre_seek_false. exact L1. }
      rewrite K. cbn [bind]. unfold piece_item. cbn [fst snd]. destruct b as [|n b]; [congruence|]. reflexivity.
  Qed.
  Definition vals_fun (ns : list pnode) : Prop :=
    forall n m, In n ns -> In m ns -> pn_piece n = pn_piece m -> t_val (pn_tree n) = t_val (pn_tree m).
  Lemma piece_any_inv : forall ns ns' d f r, ns <> [] -> Forall (fun n => 0 < pn_cnt n)%Z ns -> (level = 0 -> exists n, ns = [n]) -> vals_fun ns ->
    PL nSim ns ns' -> piece_stage mcn level last_level last_path kw ns = Ok (d, f) -> piece_any mcn level last_level last_path kw ns' r ->
    exists d' f', r = Ok (d', f') /\ Permutation d d' /\ PL dEq f f'.
  Proof.
    intros ns ns' d f r NE POS L0 VF H E (bs & B & ->). destruct (Nat.eq_dec level 0) as [Z0|N0].
    - destruct (L0 Z0) as [n ->]. pose proof (PL_length _ _ _ H) as L. destruct ns' as [|n' [|? ?]]; try discriminate. clear L.
      destruct (PL_in _ _ _ n H (or_introl eq_refl)) as (m & [<-|[]] & S).
      assert (EB : bs = group_nodes [n']).
      { inversion B as [|x [k b] l l' [X1 X2] X3]; subst. inversion X3; subst. cbn in X1, X2. apply Permutation_length_1_inv in X2. subst. reflexivity. }
      subst bs. fold (piece_stage mcn level last_level last_path kw [n']).
      assert (POS' : Forall (fun n => 0 < pn_cnt n)%Z [n']). { eapply PL_Forall; [exact H| |exact POS]. cbv beta. intros x y (_ & <-). auto. }
      assert (L0' : level = 0 -> exists n, [n'] = [n]) by eauto.
      destruct (piece_stage_spec mcn M2 level last_level last_path kw [n'] ltac:(discriminate) POS' L0') as [PS|(X & _)]; [|lia].
      destruct (piece_stage_spec mcn M2 level last_level last_path kw [n] NE POS L0) as [PS'|(X & _)]; [|lia].
      rewrite PS' in E. inversion E; subst. rewrite PS. eexists. eexists. split; [reflexivity|]. split; [|apply PL_nil].
      unfold literal, items, bags, dgroup, gfold. cbn. unfold it_piece. cbn. destruct S as (-> & _). apply Permutation_refl.
    - assert (L1 : (1 <= level)%nat) by lia. pose proof (bags_sim ns ns' bs H B) as S. unfold piece_stage, piece_bags in *. rewrite group_nodes_eq in E.
      assert (NB : Forall (fun kb => snd kb <> []) (bags ns)). { apply Forall_forall. intros [k b] I. apply bags_in in I. apply I. }
      assert (NB' : Forall (fun kb => snd kb <> []) bs).
      { eapply PL_Forall; [exact S| |exact NB]. cbv beta. intros [k b] [k' b'] [_ XY] N Q. cbn [snd] in *. subst b'. apply PL_length in XY. destruct b; [exact (N eq_refl)|discriminate]. }
      rewrite (piece_loop _ L1 NB) in E. rewrite (piece_loop _ L1 NB').
      assert (LIT : Permutation (map (fun kb : str * bag => (CPiece, fst kb, fst kb)) (bags ns)) (map (fun kb : str * bag => (CPiece, fst kb, fst kb)) bs)).
      { apply (PL_map_eq bSim); [exact S|]. intros x y [-> _]. reflexivity. }
      assert (BC : forall x y, bSim x y -> bag_count (snd x) = bag_count (snd y)).
      { intros x y [_ XY]. unfold bag_count. apply zsum_perm. apply (PL_map_eq nSim); [exact XY|]. intros a b Q. apply Q. }
      assert (CNT : Permutation (map (fun kb : str * bag => bag_count (snd kb)) (bags ns)) (map (fun kb : str * bag => bag_count (snd kb)) bs)).
      { apply (PL_map_eq bSim); [exact S|]. exact BC. }
      assert (PASS : PL dEq (map pass (bags ns)) (map pass bs)).
      { eapply PL_map; [|intros x y XY; exact XY]. apply (PL_impl _ _ bSim); [|exact S]. intros [k b] [k' b'] I I' [K X]. cbn [fst snd] in *. subst k'.
        assert (FV : first_val b = first_val b').
        { apply bags_in in I. destruct I as (I1 & I2 & I3). destruct b as [|n b]; [congruence|]. destruct b' as [|n' b']; [apply PL_length in X; discriminate|]. cbn [first_val] in *.
          destruct (PL_in_r _ _ _ n' X (or_introl eq_refl)) as (m & M & [<- _]).
          assert (Q : forall q, In q (n :: b) -> In q ns /\ k = pn_piece q). { intros q Q. rewrite I1 in Q. apply filter_In in Q. destruct Q as [Q1 Q2]. apply str_eqb_eq in Q2. auto. }
          apply VF; [apply Q; left; reflexivity|apply Q; exact M|]. rewrite <- (proj2 (Q n (or_introl eq_refl))), <- (proj2 (Q m M)). reflexivity. }
        unfold pass. cbn [fst snd]. split; cbn [fst snd]; [rewrite FV; reflexivity|]. repeat split; cbn [it_pp it_pat]; [exact FV|]. apply (BC (k, b) (k, b')). split; [reflexivity|exact X]. }
      rewrite <- (is_nil_any _ _ _ _ _ S). destruct (is_nil (bags ns)); [inversion E; subst; exists [], []; split; [reflexivity|split; [constructor|apply PL_nil]]|].
      destruct (last_level && kw); [inversion E; subst; eexists; eexists; split; [reflexivity|split; [exact LIT|apply PL_nil]]|].
      rewrite <- (PL_length _ _ _ S). destruct (_ <? _)%Z.
      + destruct (max_count _) as [m|] eqn:EM in E; [|discriminate]. rewrite (max_count_perm _ _ CNT m EM). cbn [bind] in *. rewrite <- (zsum_perm _ _ CNT).
        destruct (negb _); inversion E; subst; eexists; eexists; (split; [reflexivity|]); split; solve [exact LIT|apply PL_nil|constructor|exact PASS].
      + inversion E; subst. eexists; eexists; split; [reflexivity|]. split; [constructor|exact PASS].
  Qed.
End P.

(** *** a whole level *)
Lemma to_view_any : forall c f f', PL dEq f f' -> PL vEq (to_view c f) (to_view c f').
Proof.
  intros c f f' H. unfold to_view. eapply PL_flat_map; [exact H|]. intros x y [E I]. rewrite <- E. destruct (fst x) as [c' v|]; [|apply PL_nil].
  destruct (cls_eqb c c'); [|apply PL_nil]. apply PL_cons; [split; [reflexivity|exact I]|apply PL_nil].
Qed.
Lemma to_length_any : forall f f', PL dEq f f' -> PL iEq (to_length f) (to_length f').
Proof.
  intros f f' H. unfold to_length. eapply PL_flat_map; [exact H|]. intros x y [E I]. rewrite <- E. destruct (fst x) as [c' v|]; [apply PL_nil|].
  apply PL_cons; [exact I|apply PL_nil].
Qed.
Section Run.
  Context (mcn : Z) (M2 : (2 <= mcn)%Z) (inner : nat -> bool -> tree -> res (list tree)) (inner' : nat -> bool -> tree -> rel (list tree)).
  Context (level : nat) (last_level last_path kw : bool) (F : str).
  Definition multi_inv (c : cls) (l : list (list parsed_piece * item)) : Prop :=
    forall l' d f r, PL vEq l l' -> multi_stage mcn inner last_path c l = Ok (d, f) -> multi_any mcn inner' last_path c l' r ->
      exists d' f', r = Ok (d', f') /\ Permutation d d' /\ PL dEq f f'.
  Lemma multi_inv_nil : forall c, multi_inv c [].
  Proof.
    intros c l' d f r H E A. apply PL_length in H. destruct l'; [|discriminate]. cbn in E. inversion E; subst. cbn in A.
    destruct A as (x & X & A). unfold just in X. subst x. destruct A as (x & X & A). cbn in X. unfold just in X, A. subst x. cbn in A. subst r.
    exists [], []. split; [reflexivity|]. split; [constructor|apply PL_nil].
  Qed.
  Lemma run_any_inv : forall ns ns' d0 f0 d1 f1 d2 f2 d3 f3 d4 bs d5 r,
    ns <> [] -> Forall (fun n => 0 < pn_cnt n)%Z ns -> (level = 0 -> exists n, ns = [n]) -> vals_fun ns -> PL nSim ns ns' ->
    piece_stage mcn level last_level last_path kw ns = Ok (d0, f0) ->
    multi_inv CBase (to_view CBase f0) -> multi_stage mcn inner last_path CBase (to_view CBase f0) = Ok (d1, f1) ->
    multi_inv CMixed (to_view CMixed (f0 ++ f1)) -> multi_stage mcn inner last_path CMixed (to_view CMixed (f0 ++ f1)) = Ok (d2, f2) ->
    multi_inv CLdsf (to_view CLdsf (f0 ++ f1 ++ f2)) -> multi_stage mcn inner last_path CLdsf (to_view CLdsf (f0 ++ f1 ++ f2)) = Ok (d3, f3) ->
    (to_length (f0 ++ f1 ++ f2 ++ f3) <> [] -> (1 <= level)%nat) ->
    Forall (item_ok F) (to_length (f0 ++ f1 ++ f2 ++ f3)) -> NoDup (map it_piece (to_length (f0 ++ f1 ++ f2 ++ f3))) ->
    length_stage mcn level (to_length (f0 ++ f1 ++ f2 ++ f3)) = Ok (d4, bs) -> fuzzy_stage mcn bs = Ok d5 ->
    run_any mcn inner' level last_level last_path kw ns' r ->
    exists dn, r = Ok dn /\ Permutation (d0 ++ d1 ++ d2 ++ d3 ++ d4 ++ d5) dn.
  Proof.
    intros ns ns' d0 f0 d1 f1 d2 f2 d3 f3 d4 bs d5 r NE POS L0 VF H E0 I1 E1 I2 E2 I3 E3 L1 OK ND E4 E5 A.
    destruct A as (a0 & A0 & A). destruct (piece_any_inv mcn M2 level last_level last_path kw ns ns' d0 f0 a0 NE POS L0 VF H E0 A0) as (d0' & f0' & -> & P0 & F0).
    destruct A as (a1 & A1 & A). destruct (I1 _ d1 f1 a1 (to_view_any CBase _ _ F0) E1 A1) as (d1' & f1' & -> & P1 & F1).
    pose proof (PL_app _ _ _ _ _ F0 F1) as F01.
    destruct A as (a2 & A2 & A). destruct (I2 _ d2 f2 a2 (to_view_any CMixed _ _ F01) E2 A2) as (d2' & f2' & -> & P2 & F2).
    pose proof (PL_app _ _ _ _ _ F0 (PL_app _ _ _ _ _ F1 F2)) as F012.
    destruct A as (a3 & A3 & A). destruct (I3 _ d3 f3 a3 (to_view_any CLdsf _ _ F012) E3 A3) as (d3' & f3' & -> & P3 & F3).
    pose proof (PL_app _ _ _ _ _ F0 (PL_app _ _ _ _ _ F1 (PL_app _ _ _ _ _ F2 F3))) as F0123. apply to_length_any in F0123.
    destruct A as (a4 & A4 & A). unfold just in A4. subst a4.
    assert (X4 : exists d4' bs', length_stage mcn level (to_length (f0' ++ f1' ++ f2' ++ f3')) = Ok (d4', bs') /\ Permutation d4 d4' /\ PL (PL iEq) bs bs' /\ bs_ok F bs).
    { destruct (to_length (f0 ++ f1 ++ f2 ++ f3)) as [|i l] eqn:EL.
      - apply PL_length in F0123. destruct (to_length (f0' ++ f1' ++ f2' ++ f3')); [|discriminate]. exists d4, bs. split; [exact E4|]. cbn in E4. inversion E4; subst.
        split; [constructor|]. split; [apply PL_nil|split; [intros b []|intros i []]].
      - assert (L : (1 <= level)%nat) by (apply L1; discriminate).
        destruct (len_any mcn level L F _ _ d4 bs OK ND F0123 E4) as (d4' & bs' & X1 & X2 & X3). exists d4', bs'. split; [exact X1|]. split; [exact X2|]. split; [exact X3|].
        exact (len_bs mcn level L F _ _ _ OK ND E4). }
    destruct X4 as (d4' & bs' & X1 & X2 & X3 & X4). rewrite X1 in A. destruct A as (a5 & A5 & A).
    destruct (fuz_any mcn M2 F bs bs' d5 a5 X4 X3 E5 A5) as (d5' & -> & P5). unfold just in A. subst r. eexists. split; [reflexivity|].
    repeat apply Permutation_app; assumption.
  Qed.
End Run.
