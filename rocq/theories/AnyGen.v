(** cluster() gives the same parts for the same paths, in whatever order dicts and
    sets are gone through. *)
From Coq Require Import String.
From Verif Require Import PyStr Defs ParseUtils Views Trees Cluster Patterns Matcher Maker AnyOrder Observe PyStrProofs DictProofs GroupProofs TreeProofs LengthStage PieceStage EntProofs GenCluster AnyBase AnyLevel.
From Coq Require Import Lia Permutation.

(** *** the order of insertion is one of the orders *)
Lemma rbind_det : forall A B (m : res A) (m' : rel A) (f : A -> res B) (f' : A -> rel B),
  m' m -> (forall x, m = Ok x -> f' x (f x)) -> rbind m' f' (bind m f).
Proof. intros A B m m' f f' H1 H2. exists m. split; [exact H1|]. destruct m as [x|]; [apply H2|]; reflexivity. Qed.
Lemma mapR_det : forall A B (f : A -> res B) (g : A -> rel B) l, (forall x, g x (f x)) -> mapR g l (mapM f l).
Proof.
  intros A B f g l H. induction l as [|x l IH]; [reflexivity|]. cbn [mapR mapM]. apply rbind_det; [apply H|]. intros y _. apply rbind_det; [exact IH|]. intros ys _. reflexivity.
Qed.
Lemma bags_any_refl : forall bs, bags_any bs bs.
Proof. intros bs. unfold bags_any. induction bs; constructor; auto. Qed.
Section Det.
  Context (mcn : Z) (inner : nat -> bool -> tree -> res (list tree)) (inner' : nat -> bool -> tree -> rel (list tree)).
  Context (IA : forall d kw t, inner' d kw t (inner d kw t)).
  Lemma multi_is_any : forall lp c l, multi_any mcn inner' lp c l (multi_stage mcn inner lp c l).
  Proof.
    intros lp c l. unfold multi_any, multi_stage. apply rbind_det; [reflexivity|]. intros d _. apply rbind_det; [|reflexivity].
    apply mapR_det. intros kb. unfold multi_bucket_any, multi_bucket. destruct (_ <? _)%Z; [reflexivity|]. apply rbind_det; [apply IA|]. intros ts _. reflexivity.
  Qed.
  Lemma run_is_any : forall level ll lp kw ns, run_any mcn inner' level ll lp kw ns (run_level mcn inner level ll lp kw ns).
  Proof.
    intros level ll lp kw ns. unfold run_any, run_level.
    apply rbind_det; [exists (group_nodes ns); split; [apply bags_any_refl|reflexivity]|]. intros [d0 f0] _.
    apply rbind_det; [apply multi_is_any|]. intros [d1 f1] _. apply rbind_det; [apply multi_is_any|]. intros [d2 f2] _.
    apply rbind_det; [apply multi_is_any|]. intros [d3 f3] _. apply rbind_det; [reflexivity|]. intros [d4 bs] _.
    apply rbind_det; [apply fuzzy_is_any|]. intros d5 _. reflexivity.
  Qed.
  Lemma proc_is_any : forall d level pd kw ns, proc_any mcn inner' d level pd kw ns (proc mcn inner d level pd kw ns).
  Proof.
    induction d as [|d IH]; intros level pd kw ns; cbn [proc_any proc]; (apply rbind_det; [apply run_is_any|]); intros dn _; [reflexivity|].
    apply rbind_det; [|reflexivity]. exists (group_nodes ns). split; [apply bags_any_refl|]. unfold next_groups. apply mapR_det. intros g.
    apply rbind_det; [apply IH|reflexivity].
  Qed.
  Lemma process_is_any : forall d pd kw t, process_any mcn inner' d pd kw t (process mcn inner d pd kw t).
  Proof. intros. unfold process_any, process. apply rbind_det; [apply proc_is_any|reflexivity]. Qed.
  Lemma loop_is_any : forall fuel d pd kw t, cluster_loop_any mcn inner' fuel d pd kw t (cluster_loop mcn inner fuel d pd kw t).
  Proof.
    induction fuel as [|fuel IH]; intros d pd kw t; cbn [cluster_loop_any cluster_loop]; [reflexivity|]. destruct (_ <=? _)%Z; [reflexivity|].
    apply rbind_det; [apply process_is_any|]. intros [t' s] _. destruct (negb s); [reflexivity|]. apply rbind_det; [reflexivity|]. intros subs _.
    apply rbind_det; [apply mapR_det; intros; apply IH|reflexivity].
  Qed.
End Det.
Lemma cluster_n_is_any : forall nest mcn d pd kw t, cluster_n_any nest mcn d pd kw t (cluster_n nest mcn d pd kw t).
Proof.
  induction nest as [|nest IH]; intros; cbn [cluster_n_any cluster_n]; [reflexivity|]. apply loop_is_any. intros. apply IH.
Qed.

Lemma mapR_rel : forall A B C D (R : A -> B -> Prop) (Q : C -> D -> Prop) (f : A -> res C) (g : B -> rel D) l l' ys r,
  PL R l l' -> mapM f l = Ok ys -> mapR g l' r ->
  (forall x y a o, In x l -> In y l' -> R x y -> f x = Ok a -> g y o -> exists b, o = Ok b /\ Q a b) -> exists zs, r = Ok zs /\ PL Q ys zs.
Proof. intros A B C D R Q f g l l' ys r H1 H2 H3 H4. exact (mapR_any _ _ _ _ R Q f g l l' ys r H1 H4 H2 H3). Qed.

(** *** dicts *)
Lemma PL_key : forall A B K (key : A -> K) (key' : B -> K) (R : A -> B -> Prop) l l',
  NoDup (map key l) -> NoDup (map key' l') -> (forall k, In k (map key l) <-> In k (map key' l')) ->
  (forall x y, In x l -> In y l' -> key x = key' y -> R x y) -> PL R l l'.
Proof.
  intros A B K key key' R l l' N N' KS H.
  assert (M : forall C (f : C -> K) (q : list C), map fst (map (fun x => (f x, x)) q) = map f q) by (intros; rewrite map_map; reflexivity).
  assert (S : forall C (f : C -> K) (q : list C), map snd (map (fun x => (f x, x)) q) = q) by (intros; rewrite map_map, map_id; reflexivity).
  pose proof (PL_dict K A B R (map (fun x => (key x, x)) l) (map (fun x => (key' x, x)) l')) as X. rewrite !M in X.
  rewrite <- (S A key l), <- (S B key' l'). eapply PL_map; [apply X; [exact N|exact N'|exact KS|]|intros x y E; apply E].
  intros k v w V W. apply in_map_iff in V, W. destruct V as (x & E & V), W as (y & E' & W). inversion E; subst. inversion E'; subst. auto.
Qed.
Lemma dget_perm : forall V (d d' : list (str * V)) k, Permutation d d' -> NoDup (map fst d) -> dget str_eqb k d = dget str_eqb k d'.
Proof.
  intros V d d' k P N. assert (N' : NoDup (map fst d')) by (eapply Permutation_NoDup; [apply Permutation_map; exact P|exact N]).
  destruct (dget str_eqb k d) as [v|] eqn:E.
  - apply (dget_some_in str_eqb str_eqb_iff) in E. symmetry. apply (dget_in str_eqb str_eqb_iff); [exact N'|]. eapply Permutation_in; eassumption.
  - symmetry. apply (dget_none str_eqb str_eqb_iff) in E. apply (dget_none str_eqb str_eqb_iff). intros I. apply E. eapply Permutation_in; [apply Permutation_map; symmetry; exact P|exact I].
Qed.
Lemma dget_PL : forall V W (R : V -> W -> Prop) (d : list (str * V)) (d' : list (str * W)) k, PL (fun a b => fst a = fst b /\ R (snd a) (snd b)) d d' -> NoDup (map fst d) ->
  match dget str_eqb k d, dget str_eqb k d' with Some a, Some b => R a b | None, None => True | _, _ => False end.
Proof.
  intros V W R d d' k P N.
  assert (KP : Permutation (map fst d) (map fst d')) by (eapply PL_map_eq; [exact P|intros x y E; apply E]).
  assert (N' : NoDup (map fst d')) by (eapply Permutation_NoDup; [exact KP|exact N]).
  destruct (dget str_eqb k d) as [v|] eqn:E, (dget str_eqb k d') as [w|] eqn:E'.
  - apply (dget_some_in str_eqb str_eqb_iff) in E. destruct (PL_in _ _ _ _ P E) as ([k' w'] & I & K & H). cbn [fst snd] in *. subst k'.
    apply (dget_in str_eqb str_eqb_iff) in I; [|exact N']. assert (w = w') by congruence. subst. exact H.
  - apply (dget_some_in str_eqb str_eqb_iff) in E. apply (dget_none str_eqb str_eqb_iff) in E'. apply E'. eapply Permutation_in; [exact KP|]. apply in_map_iff. exists (k, v). auto.
  - apply (dget_some_in str_eqb str_eqb_iff) in E'. apply (dget_none str_eqb str_eqb_iff) in E. apply E. eapply Permutation_in; [symmetry; exact KP|]. apply in_map_iff. exists (k, w). auto.
  - exact I.
Qed.
Lemma pat_eqb_eq : forall a b, pat_eqb a b = true <-> a = b.
Proof.
  intros [c s] [c' s']. unfold pat_eqb. cbn [fst snd]. rewrite andb_true_iff, cls_eqb_eq, str_eqb_iff. split; [intros [-> ->]; reflexivity|intros E; inversion E; auto].
Qed.
Lemma dedup_in : forall l x, In x (dedup pat_eqb l) <-> In x l.
Proof.
  induction l as [|y l IH]; intros x; [reflexivity|]. cbn [dedup]. destruct (existsb (pat_eqb y) l) eqn:E.
  - rewrite IH. split; [cbn; auto|]. intros [->|I]; [|exact I]. apply existsb_exists in E. destruct E as (z & Z & E). apply pat_eqb_eq in E. congruence.
  - cbn [In]. rewrite IH. reflexivity.
Qed.
Lemma dedup_NoDup : forall l, NoDup (dedup pat_eqb l).
Proof.
  induction l as [|y l IH]; [constructor|]. cbn [dedup]. destruct (existsb (pat_eqb y) l) eqn:E; [exact IH|]. constructor; [|exact IH].
  intros I. apply (proj1 (dedup_in l y)) in I. rewrite <- not_true_iff_false in E. apply E. apply existsb_exists. exists y. split; [exact I|apply pat_eqb_eq; reflexivity].
Qed.
Lemma pattern_num_perm : forall d d' : done, Permutation d d' -> pattern_num d = pattern_num d'.
Proof.
  intros d d' P. unfold pattern_num. apply Permutation_length. apply NoDup_Permutation; [apply dedup_NoDup|apply dedup_NoDup|].
  intros x. rewrite !dedup_in. split; apply Permutation_in; apply Permutation_map; [|symmetry]; exact P.
Qed.

(** *** processors *)
Fixpoint psim (d : nat) (p p' : ptree) {struct d} : Prop :=
  match p, p' with
  | PT pm n nx, PT pm' n' nx' =>
      Permutation pm pm' /\ NoDup (map fst pm) /\ n = n' /\ NoDup (map fst nx) /\
      match d with
      | O => nx = [] /\ nx' = []
      | S d' => PL (fun a b => fst a = fst b /\ psim d' (snd a) (snd b)) nx nx'
      end
  end.
Lemma psim_split : forall d p p', psim d p p' -> can_be_split p = can_be_split p'.
Proof.
  induction d as [|d IH]; intros [pm n nx] [pm' n' nx'] (_ & _ & <- & _ & H); cbn [can_be_split]; destruct (1 <? n); try reflexivity.
  - destruct H as [-> ->]. reflexivity.
  - pose proof (PL_length _ _ _ H) as L. destruct nx as [|[q p] [|x nx]], nx' as [|[q' p'] [|x' nx']]; try discriminate L; try reflexivity.
    destruct (PL_in _ _ _ (q, p) H (or_introl eq_refl)) as ([q1 p1] & [E|[]] & K). inversion E; subst. apply IH. apply K.
Qed.
Lemma psim_path : forall d p p', psim d p p' -> forall ks, pt_path p ks = pt_path p' ks.
Proof.
  induction d as [|d IH]; intros [pm n nx] [pm' n' nx'] (P & N & <- & N2 & H) [|k ks]; try reflexivity; cbn [pt_path]; rewrite <- (dget_perm _ pm pm' k P N);
    destruct (dget str_eqb k pm) as [q|]; try reflexivity; f_equal.
  - destruct H as [-> ->]. reflexivity.
  - pose proof (dget_PL _ _ _ _ _ q H N2) as X. destruct (dget str_eqb q nx) as [a|], (dget str_eqb q nx') as [b|]; try destruct X; try reflexivity. apply IH. exact X.
Qed.
Lemma psim_annotate : forall d p p', psim d p p' -> forall t, annotate p t = annotate p' t.
Proof.
  induction d as [|d IH]; intros [pm n nx] [pm' n' nx'] (P & N & <- & N2 & H) [v pat c m ks]; cbn [annotate]; rewrite <- (dget_perm _ pm pm' _ P N);
    destruct (dget str_eqb (piece v) pm) as [q|]; try reflexivity; f_equal.
  - destruct H as [-> ->]. reflexivity.
  - pose proof (dget_PL _ _ _ _ _ q H N2) as X. destruct (dget str_eqb q nx) as [a|], (dget str_eqb q nx') as [b|]; try destruct X; try reflexivity.
    apply map_ext. intros t. apply IH. exact X.
Qed.

(** *** trees with the same paths *)
Definition tSame (t t' : tree) : Prop := t_val t = t_val t' /\ forall e, In e (ents t) <-> In e (ents t').
Definition nEq (n n' : pnode) : Prop := tSame (pn_tree n) (pn_tree n').
Lemma tSame_refl : forall t, tSame t t.
Proof. intros t. split; [reflexivity|]. tauto. Qed.
Lemma tSame_perm : forall d t t', wft d t -> wft d t' -> tSame t t' -> Permutation (ents t) (ents t').
Proof.
  intros d t t' W W' [_ H]. apply NoDup_Permutation; [| |exact H]; apply NoDup_map_inv with (f := e_pieces); eapply ents_NoDup; eassumption.
Qed.
Lemma tSame_cnt : forall d t t', wft d t -> wft d t' -> tSame t t' -> t_cnt t = t_cnt t'.
Proof.
  intros d t t' W W' H. rewrite (ents_cnt d t W), (ents_cnt d t' W'). apply zsum_perm. apply Permutation_map. eapply tSame_perm; eassumption.
Qed.
Section Gen.
  Context (mcn : Z) (inner : nat -> bool -> tree -> res (list tree)) (inner' : nat -> bool -> tree -> rel (list tree)).
  Context (IA : forall d kw t, inner' d kw t (inner d kw t)).
  Context (V : nat -> parsed_piece -> Prop).
  Context (Vfun : forall l a b, V l a -> V l b -> piece a = piece b -> a = b).
  Context (V0 : V 0 empty_parsed_piece).
  Context (V00 : forall p, V 0 p -> piece p = []).
  Context (D pd : nat) (kw : bool) (D1 : (1 <= D)%nat).
  Notation rl := (rl mcn inner D pd kw).
  Context (good : str -> Prop).
  Context (good_join : forall l l', length l = length l' -> Forall good l -> Forall good l' ->
             join [SLASH] l = join [SLASH] l' -> l = l').
  Context (LL : forall level ns, (level <= D)%nat -> level_ok V level ns ->
     exists dn, rl level ns = Ok dn /\ NoDup (map fst (pattern_map dn))
       /\ (forall k, In k (map fst (pattern_map dn)) <-> In k (map pn_piece ns))
       /\ Forall good (map snd (pattern_map dn))
       /\ ((forall q1 q2, In q1 (map snd (pattern_map dn)) -> In q2 (map snd (pattern_map dn)) -> q1 = q2) -> (pattern_num dn <= 1)%nat)).
  Context (LA : forall level ns ns' dn r, (level <= D)%nat -> level_ok V level ns -> PL nSim ns ns' -> rl level ns = Ok dn ->
     run_any mcn inner' level (D - level =? 0) (pd =? level) kw ns' r -> exists dn', r = Ok dn' /\ Permutation dn dn').

  Lemma tSame_kids : forall d level t t', tok V (S d) level t -> tok V (S d) level t' -> tSame t t' -> PL tSame (t_kids t) (t_kids t').
  Proof.
    assert (SUB : forall d level t t', tok V (S d) level t -> tok V (S d) level t' -> tSame t t' -> forall k, In k (t_kids t) -> forall e, In e (ents k) ->
       exists k', In k' (t_kids t') /\ t_val k' = t_val k /\ In e (ents k')).
    { intros d level t t' W W' [_ H] k K e E. destruct (tok_kids V d level t W) as [N _]. destruct (tok_kids V d level t' W') as [N' _].
      assert (I : In (push (t_val k) e) (ents t)). { rewrite (ents_kids t N). apply in_flat_map. exists k. split; [exact K|]. apply in_map. exact E. }
      apply H in I. rewrite (ents_kids t' N') in I. apply in_flat_map in I. destruct I as (k' & K' & I). apply in_map_iff in I. destruct I as (e' & EE & E').
      exists k'. split; [exact K'|]. unfold push, e_path, e_cnt, e_meta in EE. destruct e as [[a b] c], e' as [[a' b'] c']. cbn [fst snd] in EE. inversion EE; subst. auto. }
    intros d level t t' W W' H.
    assert (H' : tSame t' t) by (destruct H as [A B]; split; [congruence|intros e; symmetry; apply B]).
    assert (NDK : forall x, tok V (S d) level x -> NoDup (map t_piece (t_kids x))). { intros x (_ & X & _). cbn [wft] in X. apply X. }
    destruct (tok_kids V d level t W) as [_ K1]. destruct (tok_kids V d level t' W') as [_ K2]. rewrite Forall_forall in K1, K2.
    assert (KEYS : forall t t', tok V (S d) level t -> tok V (S d) level t' -> tSame t t' -> forall q, In q (map t_piece (t_kids t)) -> In q (map t_piece (t_kids t'))).
    { clear - SUB. intros t t' W W' H q Q. apply in_map_iff in Q. destruct Q as (k & <- & K). destruct (ents k) as [|e l] eqn:E; [destruct (ents_nonnil k E)|].
      destruct (SUB d level t t' W W' H k K e) as (k' & K' & VV & _); [rewrite E; left; reflexivity|]. apply in_map_iff. exists k'. split; [unfold t_piece; rewrite VV; reflexivity|exact K']. }
    apply (PL_key _ _ _ t_piece t_piece); [apply NDK; exact W|apply NDK; exact W'| |].
    - intros q. split; apply KEYS; assumption.
    - intros k k' K K' E.
      assert (VV : t_val k = t_val k'). { apply (Vfun (S level)); [apply (K1 k K)|apply (K2 k' K')|exact E]. }
      assert (ONE : forall t t', tok V (S d) level t -> tok V (S d) level t' -> tSame t t' -> forall k k', In k (t_kids t) -> In k' (t_kids t') -> t_val k = t_val k' ->
        forall e, In e (ents k) -> In e (ents k')).
      { clear - SUB NDK. intros t t' W W' H k k' K K' VV e I. destruct (SUB d level t t' W W' H k K e I) as (k2 & K2 & V2 & I2).
        assert (X : k2 = k').
        { pose proof (kid_in_nodup (t_kids t') k2 (NDK t' W') K2) as X2. pose proof (kid_in_nodup (t_kids t') k' (NDK t' W') K') as X'.
          assert (Y : t_piece k2 = t_piece k') by (unfold t_piece; congruence). rewrite Y in X2. congruence. }
        subst k2. exact I2. }
      split; [exact VV|]. intros e. split.
      + apply (ONE t t'); assumption.
      + apply (ONE t' t); try assumption. congruence.
  Qed.
  Lemma nEq_sim : forall d level ns ns', Forall (fun n => tok V d level (pn_tree n)) ns -> Forall (fun n => tok V d level (pn_tree n)) ns' -> PL nEq ns ns' -> PL nSim ns ns'.
  Proof.
    intros d level ns ns' F F' H. rewrite Forall_forall in F, F'. apply (PL_impl _ _ nEq); [|exact H]. intros x y X Y E. split; [apply E|].
    unfold pn_cnt. apply (tSame_cnt d); [apply (F x X)|apply (F' y Y)|exact E].
  Qed.
  Lemma kids_eq : forall d level n n', tok V (S d) level (pn_tree n) -> tok V (S d) level (pn_tree n') -> nEq n n' -> PL nEq (pn_kids n) (pn_kids n').
  Proof. intros d level n n' W W' H. unfold pn_kids. eapply PL_map; [eapply tSame_kids; eassumption|]. intros x y E. exact E. Qed.
  Lemma next_eq : forall pm bags, next_bags pm bags = map (fun g => (fst g, List.concat (snd g))) (dgroup str_eqb (fun n => node_pattern pm (pn_tree n)) pn_kids (flat_map snd bags)).
  Proof. intros pm bags. unfold next_bags. f_equal. exact (dapp_dgroup pnode (list pnode) (fun n => node_pattern pm (pn_tree n)) pn_kids (flat_map snd bags)). Qed.
  Lemma next_ok : forall d level pm bags, Forall (fun n => tok V (S d) level (pn_tree n)) (flat_map snd bags) ->
    forall g, In g (next_bags pm bags) -> nodes_ok V d (S level) (snd g).
  Proof.
    intros d level pm bags F g I. rewrite next_eq in I. apply in_map_iff in I. destruct I as ([q ks] & <- & I). cbn [fst snd]. apply dgroup_in in I; [|exact str_eqb_iff].
    destruct I as [I1 I2]. rewrite Forall_forall in F.
    assert (KS : forall l, In l ks -> l <> [] /\ Forall (fun x => tok V d (S level) (pn_tree x)) l).
    { intros l L. rewrite I1 in L. apply in_map_iff in L. destruct L as (n & <- & N). apply filter_In in N. apply (pn_kids_tok V d level n). apply F. apply N. }
    split; [|split; [discriminate|]].
    - destruct ks as [|l ks]; [congruence|]. destruct (KS l (or_introl eq_refl)) as [N _]. destruct l; [congruence|]. discriminate.
    - apply Forall_forall. intros x X. apply in_concat in X. destruct X as (l & L & X). destruct (KS l L) as [_ K]. rewrite Forall_forall in K. apply K. exact X.
  Qed.
  Lemma mapM_fst : forall (f : list pnode -> res ptree) l ys, mapM (fun g : str * list pnode => p <- f (snd g) ;; Ok (fst g, p)) l = Ok ys -> map fst ys = map fst l.
  Proof.
    intros f l. induction l as [|g l IH]; intros ys E; cbn [mapM] in E; [inversion E; reflexivity|]. destruct (f (snd g)) as [p|]; [|discriminate]. cbn [bind] in E.
    destruct (mapM _ l) as [zs|]; [|discriminate]. cbn [bind] in E. inversion E; subst. cbn [map fst]. f_equal. apply IH. reflexivity.
  Qed.
  Lemma proc_inv : forall d level ns ns' p r, (level + d = D)%nat -> nodes_ok V d level ns -> nodes_ok V d level ns' -> PL nEq ns ns' ->
    proc mcn inner d level pd kw ns = Ok p -> proc_any mcn inner' d level pd kw ns' r -> exists p', r = Ok p' /\ psim d p p'.
  Proof.
    induction d as [|d IH]; intros level ns ns' p r LD OK OK' H E A; cbn [proc proc_any] in *.
    all: pose proof (nodes_level V _ level ns OK) as LO.
    all: pose proof (nEq_sim _ level ns ns' (proj2 (proj2 OK)) (proj2 (proj2 OK')) H) as HS.
    all: destruct (LL level ns ltac:(lia) LO) as (dn & R1 & ND & KD & _); pose proof R1 as RL; unfold GenCluster.rl in R1.
    - replace (D - level) with 0 in R1 by lia. rewrite R1 in E. cbn [bind] in E. inversion E; subst p; clear E.
      destruct A as (a & A1 & A2). replace (0 =? 0) with (D - level =? 0) in A1 by (f_equal; lia). destruct (LA level ns ns' dn a ltac:(lia) LO HS RL A1) as (dn' & -> & P).
      unfold just in A2. subst r. eexists. split; [reflexivity|]. cbn [psim]. split; [apply Permutation_map; exact P|]. split; [exact ND|]. split; [apply pattern_num_perm; exact P|].
      split; [constructor|]. auto.
    - replace (D - level) with (S d) in R1 by lia. rewrite R1 in E. cbn [bind] in E.
      destruct A as (a & A1 & A2). replace (S d =? 0) with (D - level =? 0) in A1 by (f_equal; lia). destruct (LA level ns ns' dn a ltac:(lia) LO HS RL A1) as (dn' & -> & P).
      destruct A2 as (o & (bs & B & A2) & A3).
      destruct (mapM _ (next_groups (pattern_map dn) ns)) as [nx|] eqn:EN in E; [|discriminate]. cbn [bind] in E. inversion E; subst p; clear E.
      assert (PM : Permutation (pattern_map dn) (pattern_map dn')) by (apply Permutation_map; exact P).
      assert (P1 : Permutation (flat_map snd (group_nodes ns)) ns). { rewrite group_nodes_eq. apply (dgroup_perm _ str_eqb str_eqb_iff _ pn_piece ns). }
      assert (P2 : Permutation (flat_map snd bs) ns').
      { transitivity (flat_map snd (group_nodes ns')); [|rewrite group_nodes_eq; apply (dgroup_perm _ str_eqb str_eqb_iff _ pn_piece ns')].
        symmetry. clear - B. induction B as [|x y l l' [_ X] F IH]; [constructor|]. cbn [flat_map]. apply Permutation_app; assumption. }
      assert (HN : PL nEq (flat_map snd (group_nodes ns)) (flat_map snd bs)).
      { eapply PL_perm_l; [exact P1|]. eapply PL_perm_r; [exact H|]. symmetry. exact P2. }
      assert (T1 : Forall (fun n => tok V (S d) level (pn_tree n)) (flat_map snd (group_nodes ns))).
      { eapply Permutation_Forall; [symmetry; exact P1|]. apply OK. }
      assert (T2 : Forall (fun n => tok V (S d) level (pn_tree n)) (flat_map snd bs)).
      { eapply Permutation_Forall; [symmetry; exact P2|]. apply OK'. }
      assert (NX : PL (fun a b => fst a = fst b /\ PL nEq (snd a) (snd b)) (next_bags (pattern_map dn) (group_nodes ns)) (next_bags (pattern_map dn') bs)).
      { rewrite !next_eq. eapply PL_map; [eapply (PL_dgroup _ _ _ _ nEq (PL nEq)); [exact HN|]|].
        - intros x y X Y XY. rewrite Forall_forall in T1, T2. split; [|eapply kids_eq; [apply (T1 x X)|apply (T2 y Y)|exact XY]].
          cbv beta. unfold node_pattern. destruct XY as [VV _]. unfold t_piece. rewrite <- VV, <- (dget_perm _ _ _ _ PM ND).
          destruct (dget str_eqb (piece (t_val (pn_tree x))) (pattern_map dn)) as [q|] eqn:Q; [reflexivity|]. exfalso. apply (dget_none str_eqb str_eqb_iff) in Q. apply Q.
          apply KD. change (piece (t_val (pn_tree x))) with (pn_piece x). apply in_map. eapply Permutation_in; [exact P1|exact X].
        - intros x y [XY1 XY2]. cbn [fst snd]. split; [exact XY1|apply PL_concat; exact XY2]. }
      assert (NK : NoDup (map fst nx)).
      { rewrite (mapM_fst _ _ _ EN). unfold next_groups. rewrite next_eq, map_map. cbn [fst]. apply dgroup_NoDup. exact str_eqb_iff. }
      unfold next_groups in EN.
      destruct (mapR_rel _ _ _ _ _ (fun a b : str * ptree => fst a = fst b /\ psim d (snd a) (snd b)) _ _ _ _ nx o NX EN A2) as (nx' & -> & Q).
      + intros g g' x o' G G' [K HG] X O. destruct (proc mcn inner d (S level) pd kw (snd g)) as [q|] eqn:EP; [|discriminate]. cbn [bind] in X. inversion X; subst x; clear X.
        destruct O as (o1 & O1 & O2).
        destruct (IH (S level) (snd g) (snd g') q o1 ltac:(lia)) as (q' & -> & PS); [exact (next_ok d level _ _ T1 g G)|exact (next_ok d level _ _ T2 g' G')|exact HG|exact EP|exact O1|].
        unfold just in O2. subst o'. eexists. split; [reflexivity|]. cbn [fst snd]. auto.
      + unfold just in A3. subst r. eexists. split; [reflexivity|]. cbn [psim]. split; [exact PM|]. split; [exact ND|]. split; [apply pattern_num_perm; exact P|].
        split; [exact NK|exact Q].
  Qed.
  Context (meta_ok : option (list str) -> Prop) (meta_id : forall m, meta_ok m -> update_meta m None = m).
  Notation metas_ok := (metas_ok meta_ok).
  Definition tfull (t : tree) : Prop := tok V D 0 t /\ t_val t = empty_parsed_piece /\ metas_ok t.
  (** two parts with the same paths and the same patterns *)
  Definition cSame (a b : tree) : Prop :=
    tfull a /\ tfull b /\ (forall e, In e (ents a) <-> In e (ents b)) /\
    exists Ps, (forall nodes, In nodes (paths a) -> map t_pattern nodes = Ps) /\ (forall nodes, In nodes (paths b) -> map t_pattern nodes = Ps).
  Lemma in_combine_F2 : forall A B (R : A -> B -> Prop) l l', Forall2 R l l' -> forall x y, In (x, y) (combine l l') -> R x y.
  Proof. intros A B R l l' F. induction F as [|a b l l' H F IH]; intros x y I; [destruct I|]. destruct I as [I|I]; [inversion I; subst; exact H|auto]. Qed.
  Lemma combine_fst : forall A B (l : list A) (l' : list B), length l = length l' -> map fst (combine l l') = l.
  Proof. induction l as [|x l IH]; intros [|y l'] E; try discriminate; [reflexivity|]. cbn. f_equal. apply IH. cbn in E. lia. Qed.
  Lemma combine_snd : forall A B (l : list A) (l' : list B), length l = length l' -> map snd (combine l l') = l'.
  Proof. induction l as [|x l IH]; intros [|y l'] E; try discriminate; [reflexivity|]. cbn. f_equal. apply IH. cbn in E. lia. Qed.
  Lemma loop_inv : forall fuel t t' ts r, tfull t -> tfull t' -> tSame t t' ->
    cluster_loop mcn inner fuel D pd kw t = Ok ts -> cluster_loop_any mcn inner' fuel D pd kw t' r -> exists ts', r = Ok ts' /\ PL cSame ts ts'.
  Proof.
    induction fuel as [|fuel IH]; intros t t' ts r (W & TV & MO) (W' & TV' & MO') S E A; [discriminate|]. cbn [cluster_loop cluster_loop_any] in *.
    rewrite <- (tSame_cnt D t t' (proj1 (proj2 W)) (proj1 (proj2 W')) S) in A.
    destruct (t_cnt t <=? 0)%Z eqn:C0. { apply Z.leb_le in C0. pose proof (wft_pos D t (proj1 (proj2 W))). lia. }
    destruct (proc_ok mcn inner V D pd kw D1 good LL D 0 (ns0 t) eq_refl (ns0_ok V D t W)) as (p & P1 & P2).
    destruct (proc_ok mcn inner V D pd kw D1 good LL D 0 (ns0 t') eq_refl (ns0_ok V D t' W')) as (p2 & P3 & P4).
    assert (HN : PL nEq (ns0 t) (ns0 t')). { apply PL_cons; [exact S|apply PL_nil]. }
    destruct (proc_inv D 0 (ns0 t) (ns0 t') p (Ok p2) eq_refl (ns0_ok V D t W) (ns0_ok V D t' W') HN P1) as (p2' & X & PS2).
    { rewrite <- P3. apply proc_is_any. exact IA. }
    inversion X; subst p2'; clear X.
    unfold process in E. fold (ns0 t) in E. rewrite P1 in E. cbn [bind] in E.
    destruct A as (a & (a1 & A1 & A2) & A). fold (ns0 t') in A1.
    destruct (proc_inv D 0 (ns0 t) (ns0 t') p a1 eq_refl (ns0_ok V D t W) (ns0_ok V D t' W') HN P1 A1) as (p' & -> & PS).
    unfold just in A2. subst a. rewrite <- (psim_split D p p' PS), <- (psim_annotate D p p' PS) in A.
    assert (AN : annotate p t' = annotate p2 t') by (apply (psim_annotate D); exact PS2). rewrite AN in A.
    assert (PATH : forall ks, pt_path p2 ks = pt_path p ks) by (intros ks; symmetry; apply (psim_path D); exact PS2).
    pose proof (fun nodes => annotate_root mcn inner V V00 D pd kw D1 good LL t p W P2 nodes) as R1.
    pose proof (fun nodes => annotate_root mcn inner V V00 D pd kw D1 good LL t' p2 W' P4 nodes) as R2.
    assert (EA : ents (annotate p t) = ents t) by apply annotate_ents.
    assert (EB : ents (annotate p2 t') = ents t') by apply annotate_ents.
    destruct (can_be_split p) eqn:CS; cbn [negb] in *.
    2: { inversion E; subst ts; clear E. unfold just in A. subst r. eexists. split; [reflexivity|]. apply PL_cons; [|apply PL_nil].
         split; [split; [apply annotate_tok; exact W|split; [rewrite annotate_val; exact TV|unfold GenCluster.metas_ok; rewrite annotate_ents; exact MO]]|].
         split; [split; [apply annotate_tok; exact W'|split; [rewrite annotate_val; exact TV'|unfold GenCluster.metas_ok; rewrite annotate_ents; exact MO']]|].
         split; [rewrite EA, EB; apply S|].
         assert (E0 : exists e0, In e0 (ents t)). { pose proof (ents_nonnil t) as X. destruct (ents t) as [|e0 es]; [congruence|]. exists e0. left. reflexivity. } destruct E0 as [e0 E0].
         exists (pt_path p ([] :: e_pieces e0)). split.
         - intros nodes N. rewrite (R1 nodes N). apply (can_split_uniform mcn inner V D pd kw D1 good LL D 0 (ns0 t) p eq_refl P2 CS).
           + apply (under_ent V V00 D t); [exact W|]. rewrite <- EA. apply in_map. exact N.
           + apply (under_ent V V00 D t); [exact W|exact E0].
         - intros nodes N. rewrite (R2 nodes N), PATH. apply (can_split_uniform mcn inner V D pd kw D1 good LL D 0 (ns0 t) p eq_refl P2 CS).
           + apply (under_ent V V00 D t); [exact W|]. apply S. rewrite <- EB. apply in_map. exact N.
           + apply (under_ent V V00 D t); [exact W|exact E0]. }
    assert (WA : tok V D 0 (annotate p t)) by (apply annotate_tok; exact W). assert (MA : metas_ok (annotate p t)) by (unfold GenCluster.metas_ok; rewrite EA; exact MO).
    assert (WB : tok V D 0 (annotate p2 t')) by (apply annotate_tok; exact W'). assert (MB : metas_ok (annotate p2 t')) by (unfold GenCluster.metas_ok; rewrite EB; exact MO').
    destruct (split_ok V Vfun V0 D D1 meta_ok meta_id (annotate p t) WA MA) as (ids & subs & S1 & S2 & S3 & S4 & S5).
    destruct (split_ok V Vfun V0 D D1 meta_ok meta_id (annotate p2 t') WB MB) as (ids' & subs' & Q1 & Q2 & Q3 & Q4 & Q5).
    rewrite S1 in E. cbn [bind] in E. destruct A as (o & O1 & O2). unfold just in O1. subst o. rewrite Q1 in O2.
    set (pid := fun e : entry => join [SLASH] (pt_path p ([] :: e_pieces e))).
    assert (MEM : forall (ta : tree) l, (forall nodes, In nodes (paths ta) -> path_id nodes = pid (ent nodes)) -> forall id sub,
      Permutation (ents sub) (map ent (filter (fun nodes => str_eqb id (path_id nodes)) (paths ta))) -> l = ents ta -> forall e, In e (ents sub) <-> In e l /\ pid e = id).
    { clear. intros ta l HP id sub P -> e. split.
      - intros I. apply (Permutation_in _ P) in I. apply in_map_iff in I. destruct I as (nodes & <- & I). apply filter_In in I. destruct I as [I1 I2]. apply str_eqb_eq in I2.
        split; [apply in_map; exact I1|]. rewrite <- (HP nodes I1). symmetry. exact I2.
      - intros [I <-]. unfold ents in I. apply in_map_iff in I. destruct I as (nodes & <- & I). eapply Permutation_in; [symmetry; exact P|]. apply in_map. apply filter_In. split; [exact I|].
        apply str_eqb_eq. symmetry. apply HP. exact I. }
    assert (PA : forall nodes, In nodes (paths (annotate p t)) -> path_id nodes = pid (ent nodes)).
    { intros nodes N. unfold path_id, pid. rewrite (R1 nodes N). reflexivity. }
    assert (PB : forall nodes, In nodes (paths (annotate p2 t')) -> path_id nodes = pid (ent nodes)).
    { intros nodes N. unfold path_id, pid. rewrite (R2 nodes N), PATH. reflexivity. }
    assert (F1 : forall id sub, In (id, sub) (combine ids subs) -> tok V D 0 sub /\ t_val sub = empty_parsed_piece /\ forall e, In e (ents sub) <-> In e (ents t) /\ pid e = id).
    { intros id sub I. destruct (in_combine_F2 _ _ _ _ _ S4 id sub I) as (X1 & X2 & X3). split; [exact X1|]. split; [exact X2|]. apply (MEM (annotate p t)); [exact PA|exact X3|symmetry; exact EA]. }
    assert (F2 : forall id sub, In (id, sub) (combine ids' subs') -> tok V D 0 sub /\ t_val sub = empty_parsed_piece /\ forall e, In e (ents sub) <-> In e (ents t') /\ pid e = id).
    { intros id sub I. destruct (in_combine_F2 _ _ _ _ _ Q4 id sub I) as (X1 & X2 & X3). split; [exact X1|]. split; [exact X2|]. apply (MEM (annotate p2 t')); [exact PB|exact X3|symmetry; exact EB]. }
    assert (L1 : length ids = length subs) by (clear - S4; induction S4; cbn; congruence). assert (L2 : length ids' = length subs') by (clear - Q4; induction Q4; cbn; congruence).
    assert (IDS : forall id, In id ids <-> exists e, In e (ents t) /\ pid e = id).
    { intros id. split.
      - intros I. rewrite <- (combine_fst _ _ ids subs L1) in I. apply in_map_iff in I. destruct I as ([i sub] & <- & I). destruct (F1 _ _ I) as (_ & _ & X). cbn [fst].
        destruct (ents sub) as [|e l] eqn:ES; [destruct (ents_nonnil sub ES)|]. exists e. apply X. left. reflexivity.
      - intros (e & I & <-). rewrite <- EA in I. unfold ents in I. apply in_map_iff in I. destruct I as (nodes & <- & I). rewrite <- (PA nodes I). apply S3. exact I. }
    assert (IDS' : forall id, In id ids' <-> exists e, In e (ents t') /\ pid e = id).
    { intros id. split.
      - intros I. rewrite <- (combine_fst _ _ ids' subs' L2) in I. apply in_map_iff in I. destruct I as ([i sub] & <- & I). destruct (F2 _ _ I) as (_ & _ & X). cbn [fst].
        destruct (ents sub) as [|e l] eqn:ES; [destruct (ents_nonnil sub ES)|]. exists e. apply X. left. reflexivity.
      - intros (e & I & <-). rewrite <- EB in I. unfold ents in I. apply in_map_iff in I. destruct I as (nodes & <- & I). rewrite <- (PB nodes I). apply Q3. exact I. }
    assert (SUBS : PL (fun a b => tfull a /\ tfull b /\ tSame a b) subs subs').
    { rewrite <- (combine_snd _ _ ids subs L1), <- (combine_snd _ _ ids' subs' L2). eapply PL_map; [apply (PL_dict _ _ _ (fun a b => tfull a /\ tfull b /\ tSame a b))|intros x y XY; apply XY].
      - rewrite (combine_fst _ _ ids subs L1). exact S2.
      - rewrite (combine_fst _ _ ids' subs' L2). exact Q2.
      - intros k. rewrite (combine_fst _ _ ids subs L1), (combine_fst _ _ ids' subs' L2), IDS, IDS'. split; intros (e & I & <-); exists e; (split; [apply S; exact I|reflexivity]).
      - intros k a b I J. destruct (F1 _ _ I) as (X1 & X2 & X3). destruct (F2 _ _ J) as (Y1 & Y2 & Y3). unfold GenCluster.metas_ok in MO, MO'. rewrite Forall_forall in MO, MO'. split; [|split].
        + split; [exact X1|]. split; [exact X2|]. apply Forall_forall. intros e Ie. apply MO. apply X3 in Ie. apply Ie.
        + split; [exact Y1|]. split; [exact Y2|]. apply Forall_forall. intros e Ie. apply MO'. apply Y3 in Ie. apply Ie.
        + split; [congruence|]. intros e. rewrite X3, Y3. destruct S as [_ S]. rewrite (S e). tauto. }
    destruct (mapM (cluster_loop mcn inner fuel D pd kw) subs) as [rs|] eqn:ER; [|discriminate]. cbn [bind] in E. inversion E; subst ts; clear E.
    destruct O2 as (o & O3 & O4).
    destruct (mapR_rel _ _ _ _ _ (PL cSame) _ _ _ _ rs o SUBS ER O3) as (rs' & -> & HR).
    - intros x y a o' X Y (XY1 & XY2 & XY3) EX OY. exact (IH x y a o' XY1 XY2 XY3 EX OY).
    - unfold just in O4. subst r. eexists. split; [reflexivity|]. apply PL_concat. exact HR.
  Qed.
End Gen.
