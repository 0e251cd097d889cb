(** make() on the nodes as objects: bags and buckets of the nodes of a level. *)
From Coq Require Import String.
From Verif Require Import PyStr Defs UrlLib ParseUtils Views Trees Cluster Patterns Matcher Maker Heap HeapSpec HCluster
  PyStrProofs DefsProofs TreeProofs DictProofs LoadProofs HeapProofs HeapLoad HeapState GroupProofs HcBase.
From Coq Require Import Lia Permutation.

Definition apn_from (b : list anode) (d : list (option addr)) : list (option addr) :=
  fold_left (fun d x => sadd oaddr_eqb (an_up x) d) b d.
Definition apn (b : list anode) := apn_from b [].
Definition hbag_of (b : list anode) : hbag := HBag (map an_addr b) (apn b) (bag_count (map er b)) (bag_pcount (map er b)).
Definition groups (l : list anode) : list (str * list anode) := dgroup str_eqb an_piece (fun x => x) l.
Definition bucket_of (l : list anode) : hbucket := HBucket (map (onv hbag_of) (groups l)) (zsum (map an_cnt l)).

Lemma oaddr_eqb_iff : forall a b, oaddr_eqb a b = true <-> a = b.
Proof.
  intros [a|] [b|]; simpl; split; intros E; try discriminate; auto.
  - apply Nat.eqb_eq in E. congruence.
  - inversion E. apply Nat.eqb_refl.
Qed.
Lemma sadd_in : forall A (eqb : A -> A -> bool) (E : forall a b, eqb a b = true <-> a = b) x l y,
  In y (sadd eqb x l) <-> y = x \/ In y l.
Proof.
  intros A eqb E x l y. unfold sadd. destruct (existsb (eqb x) l) eqn:B.
  - apply existsb_exists in B. destruct B as (z & Iz & Ez). apply E in Ez. subst z. split; [auto|]. intros [->|I]; auto.
  - rewrite in_app_iff. simpl. intuition auto.
Qed.
Lemma sadd_nodup : forall A (eqb : A -> A -> bool) (E : forall a b, eqb a b = true <-> a = b) x l,
  NoDup l -> NoDup (sadd eqb x l).
Proof.
  intros A eqb E x l ND. unfold sadd. destruct (existsb (eqb x) l) eqn:B; [exact ND|].
  apply (Permutation_NoDup (l := x :: l)); [apply Permutation_cons_append|]. constructor; [|exact ND].
  intros I. assert (existsb (eqb x) l = true); [|congruence]. apply existsb_exists. exists x. split; [exact I|]. apply E. reflexivity.
Qed.
Lemma sadd_new : forall A (eqb : A -> A -> bool) (E : forall a b, eqb a b = true <-> a = b) x l, ~ In x l -> sadd eqb x l = l ++ [x].
Proof.
  intros A eqb E x l N. unfold sadd. destruct (existsb (eqb x) l) eqn:B; [|reflexivity].
  apply existsb_exists in B. destruct B as (z & Iz & Ez). apply E in Ez. subst. tauto.
Qed.
Lemma sadd_old : forall A (eqb : A -> A -> bool) (E : forall a b, eqb a b = true <-> a = b) x l, In x l -> sadd eqb x l = l.
Proof.
  intros A eqb E x l I. unfold sadd. assert (B : existsb (eqb x) l = true); [|rewrite B; reflexivity].
  apply existsb_exists. exists x. split; [exact I|]. apply E. reflexivity.
Qed.

(** *** adding nodes *)
(** what is needed of a node to be added *)
Definition seen_in (H : heap) (x : anode) : Prop :=
  (exists n, nth_error H (an_addr x) = Some n /\ n_value n = a_val (an_t x) /\ n_count n = an_cnt x /\ n_parent n = an_up x)
  /\ (forall i a c, an_par x = Some (i, a, c) -> exists n, nth_error H a = Some n /\ n_count n = c).
Lemma map_snoc : forall A B (f : A -> B) l x, map f (l ++ [x]) = map f l ++ [f x].
Proof. intros. apply map_app. Qed.
Lemma bag_add_ok : forall H b x, seen_in H x -> ~ In (an_addr x) (map an_addr b) ->
  bag_add H (an_addr x) (hbag_of b) = Ok (hbag_of (b ++ [x])).
Proof.
  intros H b x [(n & A & B & C & D) P] N. unfold bag_add. rewrite (get_ok _ _ _ A). cbn [bind]. rewrite D.
  assert (E : (match an_up x with Some p => np <- get H p ;; Ok (n_count np) | None => Ok (n_count n) end)
    = Ok (match pn_parent (er x) with Some (_, c) => c | None => pn_cnt (er x) end)).
  { unfold an_up, er. cbn. destruct (an_par x) as [[[i a] c]|] eqn:Ep; cbn.
    - destruct (P i a c eq_refl) as (np & Np & Cp). rewrite (get_ok _ _ _ Np). cbn. rewrite Cp. reflexivity.
    - unfold pn_cnt. cbn. rewrite erase_cnt, C. reflexivity. }
  rewrite E. cbn [bind]. unfold hbag_of. cbn. f_equal. rewrite !map_snoc.
  rewrite (sadd_new _ _ Nat.eqb_eq) by exact N. unfold apn, apn_from. rewrite fold_left_app. cbn.
  f_equal.
  - unfold bag_count. rewrite map_snoc, zsum_app. cbn. rewrite er_cnt, C. lia.
  - unfold bag_pcount. rewrite map_snoc, zsum_app. f_equal. cbn [zsum fold_right]. rewrite Z.add_0_r. reflexivity.
Qed.
Lemma bucket_add_ok : forall H l x, seen_in H x -> ~ In (an_addr x) (map an_addr l) ->
  bucket_add_node H (an_addr x) (bucket_of l) = Ok (bucket_of (l ++ [x])).
Proof.
  intros H l x S N. pose proof S as [(n & A & B & C & D) _]. unfold bucket_add_node. rewrite (get_ok _ _ _ A). cbn [bind].
  rewrite B. change (piece (a_val (an_t x))) with (an_piece x). cbn [bucket_of bk_objs].
  rewrite (dget_onv str_eqb hbag_of).
  set (b := match dget str_eqb (an_piece x) (groups l) with Some b => b | None => [] end).
  assert (E : (match option_map hbag_of (dget str_eqb (an_piece x) (groups l)) with Some o => o | None => new_bag end) = hbag_of b).
  { unfold b. destruct (dget str_eqb (an_piece x) (groups l)); reflexivity. }
  rewrite E. rewrite bag_add_ok; [|exact S|].
  - cbn [bind]. unfold bucket_of. cbn [bk_count]. f_equal. f_equal.
    + rewrite (dset_onv str_eqb hbag_of). f_equal. unfold groups. rewrite (dgroup_snoc str_eqb). f_equal.
      unfold b, dstep, groups. destruct (dget _ _ _); reflexivity.
    + rewrite map_snoc, zsum_app. cbn. rewrite C. lia.
  - unfold b. destruct (dget str_eqb (an_piece x) (groups l)) as [b'|] eqn:Eb; [|intros []].
    apply (dget_some_in str_eqb str_eqb_iff) in Eb. apply (dgroup_in str_eqb str_eqb_iff) in Eb. destruct Eb as [-> _].
    rewrite map_id. intros I. apply N. apply in_map_iff in I. destruct I as (y & Ey & Iy). apply filter_In in Iy.
    rewrite <- Ey. apply in_map. tauto.
Qed.
Lemma bucket_add_all : forall H l2 l1, Forall (seen_in H) l2 -> NoDup (map an_addr (l1 ++ l2)) ->
  foldM (fun b a => bucket_add_node H a b) (map an_addr l2) (bucket_of l1) = Ok (bucket_of (l1 ++ l2)).
Proof.
  intros H. induction l2 as [|x l2 IH]; intros l1 F ND; [rewrite app_nil_r; reflexivity|].
  inversion F as [|a b Sx F']; subst. cbn [map foldM]. rewrite bucket_add_ok; [|exact Sx|].
  - cbn [bind]. rewrite IH; [|exact F'|]; rewrite <- app_assoc; [reflexivity|exact ND].
  - rewrite map_app in ND. cbn in ND. apply NoDup_remove_2 in ND. intros I. apply ND. apply in_or_app. left. exact I.
Qed.

(** *** the distinct parents *)
Lemma ids_eqb_iff : forall a b, ids_eqb a b = true <-> a = b.
Proof.
  induction a as [|x a IH]; intros [|y b]; simpl; split; intros E; try discriminate; auto.
  - apply andb_prop in E. destruct E as [E1 E2]. apply str_eqb_iff in E1. apply IH in E2. congruence.
  - inversion E; subst. rewrite (proj2 (str_eqb_iff y y) eq_refl), (proj2 (IH b) eq_refl). reflexivity.
Qed.
Section Parents.
  Context (H : heap) (lv : list anode).
  Context (PARC : forall x i a c, In x lv -> an_par x = Some (i, a, c) -> exists n, nth_error H a = Some n /\ n_count n = c).
  Context (PID : forall x y i a c i' a' c', In x lv -> In y lv -> an_par x = Some (i, a, c) -> an_par y = Some (i', a', c') ->
    (i = i' <-> a = a')).
  Context (PSOME : forall x, In x lv -> an_par x <> None).
  (** the two lists of parents run in step *)
  Definition pair_ok (o : option addr) (d : list str * Z) : Prop :=
    exists x i a c, In x lv /\ an_par x = Some (i, a, c) /\ o = Some a /\ d = (i, c).
  Lemma parents_step : forall b pn d, incl b lv -> Forall2 pair_ok pn d ->
    Forall2 pair_ok (apn_from b pn) (fold_left (fun d n => match pn_parent n with Some (i, c) => dset ids_eqb i c d | None => d end) (map er b) d).
  Proof.
    induction b as [|x b IH]; intros pn d I F; [exact F|]. cbn [map fold_left apn_from].
    assert (Ix : In x lv) by (apply I; left; reflexivity).
    destruct (an_par x) as [[[i a] c]|] eqn:Ep; [|exfalso; exact (PSOME x Ix Ep)].
    apply IH; [intros y Iy; apply I; right; exact Iy|].
    change (pn_parent (er x)) with (option_map (fun t => (fst (fst t), snd t)) (an_par x)). unfold an_up. rewrite Ep. cbn [option_map fst snd].
    clear IH I. induction F as [|o [i' c'] pn d P F IH].
    - cbn. unfold sadd. cbn. constructor; [|constructor]. exists x, i, a, c. auto.
    - destruct P as (y & i2 & a2 & c2 & Iy & Ey & -> & E2). inversion E2; subst i2 c2. clear E2.
      cbn [dset]. destruct (ids_eqb i i') eqn:Ei.
      + apply ids_eqb_iff in Ei. subst i'. assert (a = a2) by (apply (proj1 (PID x y i a c i a2 c' Ix Iy Ep Ey)); reflexivity). subst a2.
        rewrite sadd_old; [|apply oaddr_eqb_iff|left; reflexivity]. constructor; [|exact F]. exists x, i, a, c. auto.
      + assert (Ha : a <> a2).
        { intros ->. assert (i = i') by (apply (PID x y i a2 c i' a2 c' Ix Iy Ep Ey); reflexivity). subst.
          rewrite (proj2 (ids_eqb_iff i' i') eq_refl) in Ei. discriminate. }
        unfold sadd in *. cbn [existsb oaddr_eqb]. rewrite (proj2 (Nat.eqb_neq a a2) Ha). cbn [orb].
        destruct (existsb (oaddr_eqb (Some a)) pn); cbn; (constructor; [|exact IH]); exists y, i', a2, c'; auto.
  Qed.
  Lemma counts_ok : forall pn d, Forall2 pair_ok pn d ->
    mapM (fun p => match p with Some a => n <- get H a ;; Ok (n_count n) | None => Err EAttr end) pn = Ok (map snd d).
  Proof.
    intros pn d F. apply mapM_ok. induction F as [|o [i c] pn d P F IH]; constructor; [|exact IH].
    destruct P as (x & i2 & a & c2 & Ix & Ex & -> & E2). inversion E2; subst. destruct (PARC x i2 a c2 Ix Ex) as (n & Hn & Cn).
    rewrite (get_ok _ _ _ Hn). cbn. rewrite Cn. reflexivity.
  Qed.
End Parents.
Lemma apn_app : forall b b' d, apn_from (b ++ b') d = apn_from b' (apn_from b d).
Proof. intros. apply fold_left_app. Qed.
(** the parents of a bag, added to a set that may have some of them *)
Lemma apn_again : forall b d, fold_left (fun d p => sadd oaddr_eqb p d) (apn b) d = apn_from b d.
Proof.
  assert (A : forall b e d, fold_left (fun d p => sadd oaddr_eqb p d) (apn_from b e) d
                            = apn_from b (fold_left (fun d p => sadd oaddr_eqb p d) e d)).
  { induction b as [|x b IH]; intros e d; [reflexivity|]. cbn [apn_from fold_left]. rewrite IH. f_equal.
    unfold sadd at 2. destruct (existsb (oaddr_eqb (an_up x)) e) eqn:B.
    - rewrite sadd_old; [reflexivity|exact oaddr_eqb_iff|].
      assert (M : forall l acc o, In o l \/ In o acc -> In o (fold_left (fun d p => sadd oaddr_eqb p d) l acc)).
      { induction l as [|p l IHl]; intros acc o [I|I]; cbn; auto; [destruct I|apply IHl|apply IHl].
        - destruct I as [->|I]; [right; apply (sadd_in _ _ oaddr_eqb_iff); auto|left; exact I].
        - right. apply (sadd_in _ _ oaddr_eqb_iff). auto. }
      apply M. left. apply existsb_exists in B. destruct B as (z & Iz & Ez). apply oaddr_eqb_iff in Ez. subst. exact Iz.
    - rewrite fold_left_app. reflexivity. }
  intros b d. unfold apn. rewrite A. reflexivity.
Qed.
