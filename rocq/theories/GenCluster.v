(** cluster() for any level processing that gives every piece a pattern: it
    terminates, partitions the paths and leaves every part with one pattern. *)
From Coq Require Import String.
From Verif Require Import PyStr Defs ParseUtils Trees Cluster Observe PyStrProofs DictProofs GroupProofs TreeProofs LengthStage PieceStage EntProofs.
From Coq Require Import Lia Permutation.

(** *** annotate *)
Lemma annotate_val : forall p t, t_val (annotate p t) = t_val t.
Proof. intros [pm n nx] [v pt c m ks]. cbn [annotate]. destruct (dget str_eqb (piece v) pm); reflexivity. Qed.
Lemma annotate_cnt : forall p t, t_cnt (annotate p t) = t_cnt t.
Proof. intros [pm n nx] [v pt c m ks]. cbn [annotate]. destruct (dget str_eqb (piece v) pm); reflexivity. Qed.
Lemma annotate_meta : forall p t, t_meta (annotate p t) = t_meta t.
Proof. intros [pm n nx] [v pt c m ks]. cbn [annotate]. destruct (dget str_eqb (piece v) pm); reflexivity. Qed.
Lemma annotate_piece : forall p t, t_piece (annotate p t) = t_piece t.
Proof. intros. unfold t_piece. rewrite annotate_val. reflexivity. Qed.
Lemma annotate_kids : forall p t, t_kids (annotate p t) = t_kids t \/ exists p', t_kids (annotate p t) = map (annotate p') (t_kids t).
Proof.
  intros [pm n nx] [v pt c m ks]. cbn [annotate]. destruct (dget str_eqb (piece v) pm) as [q|]; [|left; reflexivity].
  cbn [t_kids]. destruct (dget str_eqb q nx) as [p'|]; [right; eauto|left; reflexivity].
Qed.
Lemma annotate_ents : forall t p, ents (annotate p t) = ents t.
Proof.
  induction t as [v pt c m ks IH] using tree_ind'. intros p.
  destruct ks as [|k ks].
  - rewrite !ents_leaf; [rewrite annotate_cnt, annotate_meta; reflexivity|reflexivity|].
    destruct (annotate_kids p (T v pt c m [])) as [H|[p' H]]; rewrite H; reflexivity.
  - rewrite (ents_kids (T v pt c m (k :: ks))) by discriminate. cbn [t_kids].
    destruct (annotate_kids p (T v pt c m (k :: ks))) as [H|[p' H]]; cbn [t_kids] in H.
    + rewrite ents_kids by (rewrite H; discriminate). rewrite H. reflexivity.
    + rewrite ents_kids by (rewrite H; discriminate). rewrite H. clear H. revert IH. generalize (k :: ks). clear.
      intros l FA. induction FA as [|x l Hx FA IH]; [reflexivity|]. cbn [map flat_map]. rewrite IH, annotate_val, Hx. reflexivity.
Qed.
Lemma annotate_wft : forall d t p, wft d t -> wft d (annotate p t).
Proof.
  induction d as [|d IH]; intros t p W.
  - destruct W as [W1 W2]. split; [rewrite annotate_cnt; exact W1|].
    destruct (annotate_kids p t) as [H|[p' H]]; rewrite H, W2; reflexivity.
  - destruct W as (W1 & W2 & W3 & W4 & W5). cbn [wft]. rewrite annotate_cnt.
    destruct (annotate_kids p t) as [H|[p' H]]; rewrite H; [auto|].
    split; [exact W1|]. split; [intros E; apply map_eq_nil in E; auto|].
    rewrite !map_map. rewrite (map_ext (fun x => t_piece (annotate p' x)) t_piece) by (intros; apply annotate_piece).
    rewrite (map_ext (fun x => t_cnt (annotate p' x)) t_cnt) by (intros; apply annotate_cnt).
    split; [exact W3|]. split; [exact W4|]. rewrite Forall_map. eapply Forall_impl; [|exact W5]. intros k Hk. apply IH. exact Hk.
Qed.
Lemma annotate_vals : forall Ps t p, vals_ok Ps t -> vals_ok Ps (annotate p t).
Proof.
  induction Ps as [|P Ps IH]; intros t p H; [exact I|]. cbn [vals_ok] in *.
  destruct (annotate_kids p t) as [E|[p' E]]; rewrite E; [exact H|]. rewrite Forall_map.
  eapply Forall_impl; [|exact H]. intros k [H1 H2]. rewrite annotate_val. split; [exact H1|]. apply IH. exact H2.
Qed.
Lemma annotate_tok : forall V d l t p, tok V d l t -> tok V d l (annotate p t).
Proof.
  intros V d l t p (H1 & H2 & H3). split; [rewrite annotate_val; exact H1|].
  split; [apply annotate_wft; exact H2|apply annotate_vals; exact H3].
Qed.

(** the patterns a processor gives to a path *)
Fixpoint pt_path (p : ptree) (ks : list str) : list str :=
  match ks, p with
  | [], _ => []
  | k :: r, PT pm _ nx =>
      match dget str_eqb k pm with
      | None => []
      | Some q => q :: match dget str_eqb q nx with Some p' => pt_path p' r | None => [] end
      end
  end.

Lemma flat_map_map : forall A B C (f : A -> B) (g : B -> list C) l, flat_map g (map f l) = flat_map (fun x => g (f x)) l.
Proof. intros. induction l as [|x l IH]; [reflexivity|]. cbn [map flat_map]. rewrite IH. reflexivity. Qed.

Section Gen.
  Context (mcn : Z) (inner : nat -> bool -> tree -> res (list tree)).
  Context (V : nat -> parsed_piece -> Prop).
  Context (Vfun : forall l a b, V l a -> V l b -> piece a = piece b -> a = b).
  Context (V0 : V 0 empty_parsed_piece).
  Context (V00 : forall p, V 0 p -> piece p = []).
  Context (D pd : nat) (kw : bool) (D1 : (1 <= D)%nat).
  Definition rl (level : nat) (ns : list pnode) : res done :=
    run_level mcn inner level (D - level =? 0) (pd =? level) kw ns.
  Context (good : str -> Prop).
  Context (good_join : forall l l', length l = length l' -> Forall good l -> Forall good l' ->
             join [SLASH] l = join [SLASH] l' -> l = l').
  Definition level_ok (level : nat) (ns : list pnode) : Prop :=
    ns <> [] /\ (level = 0 -> exists n, ns = [n]) /\ Forall (fun n => V level (t_val (pn_tree n)) /\ (0 < pn_cnt n)%Z) ns.
  Context (LL : forall level ns, (level <= D)%nat -> level_ok level ns ->
     exists dn, rl level ns = Ok dn /\ NoDup (map fst (pattern_map dn))
       /\ (forall k, In k (map fst (pattern_map dn)) <-> In k (map pn_piece ns))
       /\ Forall good (map snd (pattern_map dn))
       /\ ((forall q1 q2, In q1 (map snd (pattern_map dn)) -> In q2 (map snd (pattern_map dn)) -> q1 = q2) -> (pattern_num dn <= 1)%nat)).

  Definition nodes_ok (d level : nat) (ns : list pnode) : Prop :=
    ns <> [] /\ (level = 0 -> exists n, ns = [n]) /\ Forall (fun n => tok V d level (pn_tree n)) ns.
  Lemma nodes_level : forall d level ns, nodes_ok d level ns -> level_ok level ns.
  Proof.
    intros d level ns (H1 & H2 & H3). split; [exact H1|]. split; [exact H2|]. eapply Forall_impl; [|exact H3].
    intros n (A & B & _). split; [exact A|]. eapply wft_pos; exact B.
  Qed.

  Fixpoint pspec (d level : nat) (ns : list pnode) (p : ptree) {struct d} : Prop :=
    nodes_ok d level ns /\
    match p with
    | PT pm n nx =>
        exists dn, rl level ns = Ok dn /\ pm = pattern_map dn /\ n = pattern_num dn /\
          match d with
          | O => nx = []
          | S d' => NoDup (map fst nx) /\ (forall q, In q (map fst nx) <-> In q (map snd pm))
                    /\ forall q p', In (q, p') nx -> exists ns',
                         (forall x, In x ns' <-> exists n, In n ns /\ dget str_eqb (pn_piece n) pm = Some q /\ In x (pn_kids n))
                         /\ pspec d' (S level) ns' p' /\ (zsum (map pn_cnt ns') <= zsum (map pn_cnt ns))%Z
          end
    end.

  Lemma pspec_nodes : forall d level ns p, pspec d level ns p -> nodes_ok d level ns.
  Proof. intros [|d] level ns p H; apply H. Qed.

  Lemma pn_kids_tok : forall d level n, tok V (S d) level (pn_tree n) ->
    pn_kids n <> [] /\ Forall (fun x => tok V d (S level) (pn_tree x)) (pn_kids n).
  Proof.
    intros d level n H. apply tok_kids in H. destruct H as [H1 H2]. unfold pn_kids. split.
    - intros E. apply map_eq_nil in E. auto.
    - rewrite Forall_map. exact H2.
  Qed.

  Lemma pm_get : forall level ns dn, (level <= D)%nat -> level_ok level ns -> rl level ns = Ok dn ->
    forall n, In n ns -> exists q, dget str_eqb (pn_piece n) (pattern_map dn) = Some q /\ In q (map snd (pattern_map dn)).
  Proof.
    intros level ns dn LE OK E n I. destruct (LL level ns LE OK) as (dn' & H1 & H2 & H3 & _).
    rewrite E in H1. inversion H1; subst dn'; clear H1.
    assert (K : In (pn_piece n) (map fst (pattern_map dn))) by (apply H3; apply in_map; exact I).
    apply in_map_iff in K. destruct K as ([k q] & K1 & K2). cbn [fst] in K1. subst k.
    exists q. split; [apply dget_in; [exact str_eqb_iff|exact H2|exact K2]|]. apply in_map_iff. exists (pn_piece n, q). auto.
  Qed.
  Lemma pm_node : forall level ns dn, (level <= D)%nat -> level_ok level ns -> rl level ns = Ok dn ->
    forall q, In q (map snd (pattern_map dn)) -> exists n, In n ns /\ dget str_eqb (pn_piece n) (pattern_map dn) = Some q.
  Proof.
    intros level ns dn LE OK E q I. destruct (LL level ns LE OK) as (dn' & H1 & H2 & H3 & _).
    rewrite E in H1. inversion H1; subst dn'; clear H1.
    apply in_map_iff in I. destruct I as ([k q'] & I1 & I2). cbn [snd] in I1. subst q'.
    assert (K : In k (map pn_piece ns)). { apply H3. apply in_map_iff. exists (k, q). auto. }
    apply in_map_iff in K. destruct K as (n & K1 & K2). exists n. split; [exact K2|].
    rewrite K1. apply dget_in; [exact str_eqb_iff|exact H2|exact I2].
  Qed.

  Lemma kids_sum : forall d level l, Forall (fun n => tok V (S d) level (pn_tree n)) l ->
    zsum (map pn_cnt (List.concat (map pn_kids l))) = zsum (map pn_cnt l).
  Proof.
    intros d level l F. induction F as [|n l H F IH]; [reflexivity|]. cbn [map List.concat]. rewrite map_app, zsum_app, IH.
    change (zsum (pn_cnt n :: map pn_cnt l)) with (pn_cnt n + zsum (map pn_cnt l))%Z. f_equal.
    destruct H as (_ & (_ & _ & _ & H & _) & _). unfold pn_cnt at 2. rewrite H. unfold pn_kids. rewrite map_map. reflexivity.
  Qed.
  Lemma gsum_perm : forall a b, Permutation a b -> zsum a = zsum b.
  Proof. intros a b P. induction P; cbn in *; unfold zsum in *; cbn in *; lia. Qed.
  Lemma zsum_filter : forall (f : pnode -> bool) l, (forall n, In n l -> (0 < pn_cnt n)%Z) -> (zsum (map pn_cnt (filter f l)) <= zsum (map pn_cnt l))%Z.
  Proof.
    intros f l. induction l as [|n l IH]; intros H; [unfold zsum; cbn; lia|]. cbn [filter map].
    change (zsum (pn_cnt n :: map pn_cnt l)) with (pn_cnt n + zsum (map pn_cnt l))%Z.
    specialize (IH (fun x X => H x (or_intror X))). pose proof (H n (or_introl eq_refl)) as X.
    destruct (f n); [cbn [map]; change (zsum (pn_cnt n :: map pn_cnt (filter f l))) with (pn_cnt n + zsum (map pn_cnt (filter f l)))%Z|]; lia.
  Qed.
  Lemma proc_ok : forall d level ns, (level + d = D)%nat -> nodes_ok d level ns ->
    exists p, proc mcn inner d level pd kw ns = Ok p /\ pspec d level ns p.
  Proof.
    induction d as [|d IH]; intros level ns LD OK.
    - destruct (LL level ns) as (dn & H1 & _); [lia|eapply nodes_level; exact OK|].
      assert (E : run_level mcn inner level (0 =? 0) (pd =? level) kw ns = Ok dn).
      { unfold rl in H1. replace (D - level) with 0 in H1 by lia. exact H1. }
      cbn [proc]. rewrite E. cbn [bind]. eexists. split; [reflexivity|]. cbn [pspec]. split; [exact OK|]. exists dn. auto.
    - destruct (LL level ns) as (dn & H1 & H2 & H3 & _); [lia|eapply nodes_level; exact OK|].
      assert (E : run_level mcn inner level (S d =? 0) (pd =? level) kw ns = Ok dn).
      { unfold rl in H1. replace (D - level) with (S d) in H1 by lia. exact H1. }
      cbn [proc]. rewrite E. cbn [bind].
      set (key := fun n => node_pattern (pattern_map dn) (pn_tree n)).
      set (nodes := flat_map snd (bags ns)).
      assert (NI : forall n, In n nodes <-> In n ns).
      { intros n. split; apply Permutation_in; [|apply Permutation_sym]; apply (dgroup_perm _ str_eqb str_eqb_iff _ pn_piece ns). }
      assert (KEY : forall n, In n ns -> dget str_eqb (pn_piece n) (pattern_map dn) = Some (key n)).
      { intros n I. destruct (pm_get level ns dn ltac:(lia) (nodes_level _ _ _ OK) H1 n I) as (q & Q & _).
        unfold key, node_pattern. fold (pn_piece n). rewrite Q. reflexivity. }
      assert (NG : next_groups (pattern_map dn) ns = map (fun g => (fst g, List.concat (snd g))) (dgroup str_eqb key pn_kids nodes)).
      { unfold next_groups, next_bags. rewrite group_nodes_eq. fold nodes. f_equal. exact (dapp_dgroup pnode (list pnode) key pn_kids nodes). }
      rewrite NG.
      assert (GR : forall q ks, In (q, ks) (dgroup str_eqb key pn_kids nodes) ->
         (forall x, In x (List.concat ks) <-> exists n, In n ns /\ dget str_eqb (pn_piece n) (pattern_map dn) = Some q /\ In x (pn_kids n))
         /\ nodes_ok d (S level) (List.concat ks) /\ (zsum (map pn_cnt (List.concat ks)) <= zsum (map pn_cnt ns))%Z).
      { intros q ks I. apply dgroup_in in I; [|exact str_eqb_iff]. destruct I as [I1 I2].
        assert (ME : forall x, In x (List.concat ks) <-> exists n, In n ns /\ dget str_eqb (pn_piece n) (pattern_map dn) = Some q /\ In x (pn_kids n)).
        { intros x. rewrite I1. rewrite in_concat. split.
          - intros (y & Y1 & Y2). apply in_map_iff in Y1. destruct Y1 as (n & Y1 & Y3). subst y. apply filter_In in Y3.
            destruct Y3 as [Y3 Y4]. apply str_eqb_eq in Y4. apply NI in Y3. exists n. split; [exact Y3|]. split; [|exact Y2].
            rewrite KEY by exact Y3. congruence.
          - intros (n & N1 & N2 & N3). exists (pn_kids n). split; [|exact N3]. apply in_map. apply filter_In. split; [apply NI; exact N1|].
            apply str_eqb_eq. rewrite KEY in N2 by exact N1. congruence. }
        split; [exact ME|]. destruct OK as (OK1 & OK2 & OK3). rewrite Forall_forall in OK3. split; [split; [|split]|].
        - destruct (filter (fun x => str_eqb q (key x)) nodes) as [|n r] eqn:FE; [cbn in I1; congruence|].
          assert (In n (n :: r)) as I3 by (left; reflexivity). rewrite <- FE in I3. apply filter_In in I3. destruct I3 as [I3 I4]. apply str_eqb_eq in I4.
          apply NI in I3. destruct (pn_kids_tok d level n (OK3 n I3)) as [KN _].
          destruct (pn_kids n) as [|x xs] eqn:KE; [congruence|]. intros EE.
          assert (J : In x (List.concat ks)). { apply ME. exists n. split; [exact I3|]. split; [rewrite KEY by exact I3; congruence|]. rewrite KE. left. reflexivity. }
          rewrite EE in J. destruct J.
        - discriminate.
        - apply Forall_forall. intros x X. apply ME in X. destruct X as (n & X1 & _ & X2).
          destruct (pn_kids_tok d level n (OK3 n X1)) as [_ KT]. rewrite Forall_forall in KT. apply KT. exact X2.
        - rewrite I1. rewrite (kids_sum d level).
          + rewrite <- (gsum_perm _ _ (Permutation_map pn_cnt (dgroup_perm _ str_eqb str_eqb_iff _ pn_piece ns))). apply zsum_filter.
            intros n N. apply NI in N. eapply wft_pos. apply (OK3 n N).
          + apply Forall_forall. intros n N. apply filter_In in N. apply OK3. apply NI. apply N. }
      assert (MM : forall l, (forall q ks, In (q, ks) l -> nodes_ok d (S level) (List.concat ks)) ->
         exists nx, mapM (fun g => p <- proc mcn inner d (S level) pd kw (snd g) ;; Ok (fst g, p)) (map (fun g : str * list (list pnode) => (fst g, List.concat (snd g))) l) = Ok nx
           /\ Forall2 (fun g (e : str * ptree) => fst e = fst g /\ pspec d (S level) (List.concat (snd g)) (snd e)) l nx).
      { induction l as [|[q ks] l IHl]; intros HL; [exists []; split; [reflexivity|constructor]|].
        destruct (IH (S level) (List.concat ks)) as (p & P1 & P2); [lia|apply (HL q ks); left; reflexivity|].
        destruct IHl as (nx & N1 & N2). { intros. eapply HL. right. eassumption. }
        exists ((q, p) :: nx). split.
        - cbn [map mapM fst snd]. rewrite P1. cbn [bind]. rewrite N1. reflexivity.
        - constructor; [split; [reflexivity|exact P2]|exact N2]. }
      destruct (MM (dgroup str_eqb key pn_kids nodes)) as (nx & N1 & N2). { intros q ks I. apply (GR q ks I). }
      rewrite N1. cbn [bind]. eexists. split; [reflexivity|]. cbn [pspec]. split; [exact OK|]. exists dn.
      split; [exact H1|]. split; [reflexivity|]. split; [reflexivity|].
      assert (FE : map fst nx = map fst (dgroup str_eqb key pn_kids nodes)).
      { clear - N2. induction N2 as [|g e l l' [A B] F IH]; [reflexivity|]. cbn [map]. rewrite IH, A. reflexivity. }
      split; [rewrite FE; apply dgroup_NoDup; exact str_eqb_iff|]. split.
      + intros q. rewrite FE, dgroup_keys by exact str_eqb_iff. split.
        * intros I. apply in_map_iff in I. destruct I as (n & I1 & I2). apply NI in I2.
          destruct (pm_get level ns dn ltac:(lia) (nodes_level _ _ _ OK) H1 n I2) as (q' & Q1 & Q2).
          rewrite KEY in Q1 by exact I2. congruence.
        * intros I. destruct (pm_node level ns dn ltac:(lia) (nodes_level _ _ _ OK) H1 q I) as (n & Q1 & Q2).
          rewrite KEY in Q2 by exact Q1. inversion Q2. apply in_map. apply NI. exact Q1.
      + intros q p' I. clear FE N1 MM NG. revert I GR. generalize (dgroup str_eqb key pn_kids nodes), nx, N2. clear.
        intros l0 nx0 N2. induction N2 as [|[q0 ks] e l l' [A B] F IHF]; intros I GR; [destruct I|].
        destruct I as [I|I].
        * subst e. cbn [fst snd] in *. subst q0. destruct (GR q ks (or_introl eq_refl)) as (G1 & _ & G2). eauto.
        * apply IHF; [exact I|]. intros. apply GR. right. assumption.
  Qed.

  (** *** patterns of paths *)
  Definition under (ns : list pnode) (ks : list str) : Prop :=
    exists n nodes, In n ns /\ In nodes (paths (pn_tree n)) /\ ks = map t_piece nodes.

  Lemma under_kids : forall d level ns ks, nodes_ok (S d) level ns -> under ns ks ->
    exists n r, In n ns /\ ks = pn_piece n :: r /\ under (pn_kids n) r.
  Proof.
    intros d level ns ks OK (n & nodes & H1 & H2 & H3). rewrite paths_eq in H2.
    destruct OK as (_ & _ & OK). rewrite Forall_forall in OK. destruct (tok_kids V d level _ (OK n H1)) as [K1 _].
    destruct (t_kids (pn_tree n)) as [|k0 kk] eqn:E; [congruence|]. rewrite <- E in *. apply in_map_iff in H2. destruct H2 as (nd & H2 & H4).
    apply in_flat_map in H4. destruct H4 as (k & H4 & H5). subst nodes. exists n, (map t_piece nd). split; [exact H1|].
    split; [exact H3|]. exists (PN (Some (pn_id n, pn_cnt n)) (pn_id n ++ [t_piece k]) k), nd.
    split; [unfold pn_kids; apply in_map_iff; exists k; auto|]. split; [exact H5|reflexivity].
  Qed.
  Lemma under_cons : forall d level ns n r, nodes_ok (S d) level ns -> In n ns -> under (pn_kids n) r -> under ns (pn_piece n :: r).
  Proof.
    intros d level ns n r OK I (k & nodes & H1 & H2 & H3). exists n, (pn_tree n :: nodes). split; [exact I|].
    destruct OK as (_ & _ & OK). rewrite Forall_forall in OK. destruct (tok_kids V d level _ (OK n I)) as [K1 _].
    split; [|subst r; reflexivity]. rewrite paths_eq. destruct (t_kids (pn_tree n)) as [|k0 kk] eqn:E; [congruence|]. rewrite <- E.
    apply in_map. apply in_flat_map. unfold pn_kids in H1. apply in_map_iff in H1. destruct H1 as (x & H1 & H4). subst k.
    exists x. auto.
  Qed.
  Lemma under_leaf : forall level ns ks, nodes_ok 0 level ns -> under ns ks -> exists n, In n ns /\ ks = [pn_piece n].
  Proof.
    intros level ns ks (_ & _ & OK) (n & nodes & H1 & H2 & H3). rewrite Forall_forall in OK.
    rewrite paths_eq, (tok_leaf V level _ (OK n H1)) in H2. destruct H2 as [H2|[]]. subst. exists n. auto.
  Qed.
  Lemma under_some : forall d level ns n, nodes_ok d level ns -> In n ns -> exists r, under ns (pn_piece n :: r).
  Proof.
    intros d level ns n OK I. destruct (paths (pn_tree n)) as [|nodes r] eqn:E; [exfalso; exact (paths_nonnil _ E)|].
    assert (J : In nodes (paths (pn_tree n))) by (rewrite E; left; reflexivity).
    pose proof (paths_head _ _ J) as [r' ->]. exists (map t_piece r'). exists n, (pn_tree n :: r'). auto.
  Qed.

  Lemma pt_path_step : forall d level ns pm m nx, (level + S d = D)%nat -> pspec (S d) level ns (PT pm m nx) ->
    forall n, In n ns -> exists q p' ns', dget str_eqb (pn_piece n) pm = Some q /\ dget str_eqb q nx = Some p'
      /\ pspec d (S level) ns' p' /\ incl (pn_kids n) ns' /\ good q
      /\ (forall r, pt_path (PT pm m nx) (pn_piece n :: r) = q :: pt_path p' r).
  Proof.
    intros d level ns pm m nx LD (OK & dn & H1 & H2 & H3 & H4 & H5 & H6) n I. subst pm m.
    destruct (pm_get level ns dn ltac:(lia) (nodes_level _ _ _ OK) H1 n I) as (q & Q1 & Q2).
    assert (G : good q).
    { destruct (LL level ns ltac:(lia) (nodes_level _ _ _ OK)) as (dn' & L1 & _ & _ & L2 & _). rewrite H1 in L1. inversion L1; subst dn'.
      rewrite Forall_forall in L2. apply L2. exact Q2. }
    assert (Q3 : In q (map fst nx)) by (apply H5; exact Q2).
    apply in_map_iff in Q3. destruct Q3 as ([q' p'] & Q3 & Q4). cbn [fst] in Q3. subst q'.
    destruct (H6 q p' Q4) as (ns' & N1 & N2 & _). apply (dget_in str_eqb str_eqb_iff) in Q4; [|exact H4].
    exists q, p', ns'. split; [exact Q1|]. split; [exact Q4|]. split; [exact N2|]. split.
    - intros x X. apply N1. exists n. auto.
    - split; [exact G|]. intros r. cbn [pt_path]. rewrite Q1, Q4. reflexivity.
  Qed.
  Lemma pt_path_leaf : forall level ns pm m nx, (level + 0 = D)%nat -> pspec 0 level ns (PT pm m nx) ->
    forall n, In n ns -> exists q, dget str_eqb (pn_piece n) pm = Some q /\ good q /\ pt_path (PT pm m nx) [pn_piece n] = [q].
  Proof.
    intros level ns pm m nx LD (OK & dn & H1 & H2 & H3 & H4) n I. subst pm m nx.
    destruct (pm_get level ns dn ltac:(lia) (nodes_level _ _ _ OK) H1 n I) as (q & Q1 & Q2).
    exists q. split; [exact Q1|]. split.
    - destruct (LL level ns ltac:(lia) (nodes_level _ _ _ OK)) as (dn' & L1 & _ & _ & L2 & _). rewrite H1 in L1. inversion L1; subst dn'.
      rewrite Forall_forall in L2. apply L2. exact Q2.
    - cbn [pt_path]. rewrite Q1. reflexivity.
  Qed.

  Lemma under_mono : forall a b r, incl a b -> under a r -> under b r.
  Proof. intros a b r H (n & nodes & H1 & H2). exists n, nodes. split; [apply H; exact H1|exact H2]. Qed.

  Lemma pt_path_ok : forall d level ns p ks, (level + d = D)%nat -> pspec d level ns p -> under ns ks ->
    length (pt_path p ks) = S d /\ Forall good (pt_path p ks).
  Proof.
    induction d as [|d IH]; intros level ns [pm m nx] ks LD PS U; pose proof (pspec_nodes _ _ _ _ PS) as OK.
    - destruct (under_leaf _ _ _ OK U) as (n & I & ->). destruct (pt_path_leaf _ _ _ _ _ LD PS n I) as (q & _ & G & E).
      rewrite E. split; [reflexivity|]. constructor; [exact G|constructor].
    - destruct (under_kids _ _ _ _ OK U) as (n & r & I & -> & U').
      destruct (pt_path_step _ _ _ _ _ _ LD PS n I) as (q & p' & ns' & _ & _ & PS' & IN & G & E). rewrite E.
      destruct (IH (S level) ns' p' r ltac:(lia) PS' (under_mono _ _ _ IN U')) as [L F].
      cbn [length]. rewrite L. split; [reflexivity|]. constructor; assumption.
  Qed.

  Lemma annotate_paths : forall d level ns p n, (level + d = D)%nat -> pspec d level ns p -> In n ns ->
    map (map t_pattern) (paths (annotate p (pn_tree n))) = map (fun nodes => pt_path p (map t_piece nodes)) (paths (pn_tree n)).
  Proof.
    induction d as [|d IH]; intros level ns [pm m nx] n LD PS I; pose proof (pspec_nodes _ _ _ _ PS) as OK;
      destruct OK as (_ & _ & OK); rewrite Forall_forall in OK; pose proof (OK n I) as W.
    - destruct (pt_path_leaf _ _ _ _ _ LD PS n I) as (q & Q & _ & E). pose proof (tok_leaf V level _ W) as K.
      rewrite (paths_eq (pn_tree n)), K. cbn [map]. fold (pn_piece n). rewrite E.
      unfold pn_piece in *. destruct (pn_tree n) as [v pt c mt ks]. cbn [t_kids] in K. subst ks. unfold t_piece in Q. cbn [t_val] in Q. cbn [annotate]. rewrite Q.
      destruct (dget str_eqb q nx); reflexivity.
    - destruct (pt_path_step _ _ _ _ _ _ LD PS n I) as (q & p' & ns' & Q & Q' & PS' & IN & _ & E).
      destruct (tok_kids V d level _ W) as [K1 _].
      assert (EN : annotate (PT pm m nx) (pn_tree n) = T (t_val (pn_tree n)) (Some q) (t_cnt (pn_tree n)) (t_meta (pn_tree n)) (map (annotate p') (t_kids (pn_tree n)))).
      { unfold pn_piece in *. destruct (pn_tree n) as [v pt c mt ks]. unfold t_piece in Q. cbn [t_val] in Q. cbn [annotate]. rewrite Q, Q'. reflexivity. }
      rewrite EN, (paths_eq (pn_tree n)). rewrite paths_eq. cbn [t_kids].
      destruct (t_kids (pn_tree n)) as [|k0 kk] eqn:KE; [congruence|]. rewrite <- KE. rewrite KE at 1. cbn [map].
      change (annotate p' k0 :: map (annotate p') kk) with (map (annotate p') (k0 :: kk)). rewrite <- KE. rewrite !map_map.
      assert (KIDS : forall k, In k (t_kids (pn_tree n)) ->
         map (map t_pattern) (paths (annotate p' k)) = map (fun nodes => pt_path p' (map t_piece nodes)) (paths k)).
      { intros k Ik. apply (IH (S level) ns' p' (PN (Some (pn_id n, pn_cnt n)) (pn_id n ++ [t_piece k]) k) ltac:(lia) PS').
        apply IN. unfold pn_kids. apply in_map_iff. exists k. auto. }
      clear KE K1. revert KIDS. generalize (t_kids (pn_tree n)). intros l KIDS.
      rewrite (map_ext (fun x => map t_pattern (T (t_val (pn_tree n)) (Some q) (t_cnt (pn_tree n)) (t_meta (pn_tree n)) (map (annotate p') l) :: x)) (fun x => q :: map t_pattern x)) by reflexivity.
      rewrite (map_ext (fun x => pt_path (PT pm m nx) (map t_piece (pn_tree n :: x))) (fun x => q :: pt_path p' (map t_piece x))) by (intros x; exact (E (map t_piece x))).
      induction l as [|k l IHl]; [reflexivity|]. cbn [map flat_map]. rewrite !map_app. f_equal.
      + rewrite <- (map_map (map t_pattern) (cons q)), KIDS by (left; reflexivity). rewrite map_map. reflexivity.
      + apply IHl. intros. apply KIDS. right. assumption.
  Qed.

  Lemma can_split_uniform : forall d level ns p, (level + d = D)%nat -> pspec d level ns p -> can_be_split p = false ->
    forall k1 k2, under ns k1 -> under ns k2 -> pt_path p k1 = pt_path p k2.
  Proof.
    assert (PN : forall dn, (pattern_num dn <= 1)%nat -> forall q1 q2, In q1 (map snd (pattern_map dn)) -> In q2 (map snd (pattern_map dn)) -> q1 = q2).
    { intros dn H q1 q2 I1 I2. unfold pattern_map in *. rewrite map_map in *. cbn [snd] in *.
      apply in_map_iff in I1. destruct I1 as (e1 & E1 & I1). apply in_map_iff in I2. destruct I2 as (e2 & E2 & I2).
      unfold pattern_num in H.
      assert (DD : forall l (x : cls * str), In x l -> In x (dedup pat_eqb l)).
      { clear. induction l as [|y l IH]; intros x I; [destruct I|]. cbn [dedup]. destruct (existsb (pat_eqb y) l) eqn:E.
        - destruct I as [->|I]; [|auto]. apply IH. apply existsb_exists in E. destruct E as (z & Z1 & Z2).
          unfold pat_eqb in Z2. apply Bool.andb_true_iff in Z2. destruct Z2 as [Z2 Z3]. apply cls_eqb_eq in Z2. apply str_eqb_eq in Z3.
          destruct x, z. cbn [fst snd] in *. subst. exact Z1.
        - destruct I as [->|I]; [left; reflexivity|right; auto]. }
      assert (J1 : In (fst (fst e1), snd e1) (dedup pat_eqb (map (fun e : cls * str * str => (fst (fst e), snd e)) dn))).
      { apply DD. apply in_map_iff. exists e1. auto. }
      assert (J2 : In (fst (fst e2), snd e2) (dedup pat_eqb (map (fun e : cls * str * str => (fst (fst e), snd e)) dn))).
      { apply DD. apply in_map_iff. exists e2. auto. }
      destruct (dedup pat_eqb _) as [|a [|b r]]; [destruct J1| |cbn in H; lia].
      destruct J1 as [J1|[]], J2 as [J2|[]]. congruence. }
    induction d as [|d IH]; intros level ns [pm m nx] LD PS CS k1 k2 U1 U2; pose proof (pspec_nodes _ _ _ _ PS) as OK.
    - destruct (under_leaf _ _ _ OK U1) as (n1 & I1 & ->). destruct (under_leaf _ _ _ OK U2) as (n2 & I2 & ->).
      destruct (pt_path_leaf _ _ _ _ _ LD PS n1 I1) as (q1 & Q1 & _ & E1). destruct (pt_path_leaf _ _ _ _ _ LD PS n2 I2) as (q2 & Q2 & _ & E2).
      rewrite E1, E2. destruct PS as (_ & dn & H1 & H2 & H3 & H4). cbn [can_be_split] in CS.
      destruct (1 <? m) eqn:LT; [discriminate|]. apply Nat.ltb_ge in LT. f_equal. subst pm m. apply (PN dn LT).
      + apply (dget_some_in str_eqb str_eqb_iff) in Q1. apply in_map_iff. exists (pn_piece n1, q1). auto.
      + apply (dget_some_in str_eqb str_eqb_iff) in Q2. apply in_map_iff. exists (pn_piece n2, q2). auto.
    - destruct (under_kids _ _ _ _ OK U1) as (n1 & r1 & I1 & -> & U1'). destruct (under_kids _ _ _ _ OK U2) as (n2 & r2 & I2 & -> & U2').
      destruct (pt_path_step _ _ _ _ _ _ LD PS n1 I1) as (q1 & p1 & ns1 & Q1 & G1 & PS1 & IN1 & _ & E1).
      destruct (pt_path_step _ _ _ _ _ _ LD PS n2 I2) as (q2 & p2 & ns2 & Q2 & G2 & PS2 & IN2 & _ & E2).
      rewrite E1, E2. pose proof PS as PS0. destruct PS as (_ & dn & H1 & H2 & H3 & H4 & H5 & H6). cbn [can_be_split] in CS.
      destruct (1 <? m) eqn:LT; [discriminate|]. apply Nat.ltb_ge in LT.
      assert (q1 = q2).
      { subst pm m. apply (PN dn LT).
        - apply (dget_some_in str_eqb str_eqb_iff) in Q1. apply in_map_iff. exists (pn_piece n1, q1). auto.
        - apply (dget_some_in str_eqb str_eqb_iff) in Q2. apply in_map_iff. exists (pn_piece n2, q2). auto. }
      subst q2. rewrite G1 in G2. inversion G2; subst p2. f_equal.
      destruct nx as [|[q' p'] [|z nx]]; [discriminate G1| |discriminate CS].
      cbn [dget] in G1. destruct (str_eqb q1 q') eqn:EQ; [|discriminate]. apply str_eqb_eq in EQ. inversion G1; subst q' p'. clear G1.
      destruct (H6 q1 p1 (or_introl eq_refl)) as (ns' & N1 & N2 & _).
      apply (IH (S level) ns' p1 ltac:(lia) N2 CS).
      + eapply under_mono; [|exact U1']. intros x X. apply N1. exists n1. auto.
      + eapply under_mono; [|exact U2']. intros x X. apply N1. exists n2. auto.
  Qed.

  Lemma can_split_differ : forall d level ns p, (level + d = D)%nat -> pspec d level ns p -> can_be_split p = true ->
    exists k1 k2, under ns k1 /\ under ns k2 /\ pt_path p k1 <> pt_path p k2.
  Proof.
    assert (TOP : forall d level ns pm m nx, (level + d = D)%nat -> pspec d level ns (PT pm m nx) -> (1 < m)%nat ->
       exists k1 k2, under ns k1 /\ under ns k2 /\ pt_path (PT pm m nx) k1 <> pt_path (PT pm m nx) k2).
    { intros d level ns pm m nx LD PS LT. pose proof (pspec_nodes _ _ _ _ PS) as OK.
      assert (X : exists dn, rl level ns = Ok dn /\ pm = pattern_map dn /\ m = pattern_num dn).
      { destruct d; destruct PS as (_ & dn & H1 & H2 & H3 & _); eauto. }
      destruct X as (dn & H1 & H2 & H3).
      destruct (LL level ns ltac:(lia) (nodes_level _ _ _ OK)) as (dn' & L1 & L2 & _ & _ & L3). rewrite H1 in L1. inversion L1; subst dn'. clear L1.
      assert (Y : exists q1 q2, In q1 (map snd pm) /\ In q2 (map snd pm) /\ q1 <> q2).
      { subst pm. destruct (map snd (pattern_map dn)) as [|q l] eqn:E.
        - exfalso. subst m. assert (pattern_num dn <= 1)%nat; [|lia]. apply L3. intros ? ? [].
        - destruct (list_eq_dec str_dec (filter (fun x => negb (str_eqb q x)) l) []) as [Z|Z].
          + exfalso. subst m. assert (pattern_num dn <= 1)%nat; [|lia]. apply L3.
            assert (ALL : forall x, In x (q :: l) -> x = q).
            { intros x [->|I]; [reflexivity|]. destruct (str_eqb_spec q x) as [->|N]; [reflexivity|]. exfalso.
              assert (J : In x (filter (fun x => negb (str_eqb q x)) l)).
              { apply filter_In. split; [exact I|]. destruct (str_eqb_spec q x); [contradiction|reflexivity]. }
              rewrite Z in J. destruct J. }
            intros x y Hx Hy. rewrite (ALL x Hx), (ALL y Hy). reflexivity.
          + destruct (filter (fun x => negb (str_eqb q x)) l) as [|x r] eqn:FE; [congruence|].
            assert (J : In x (filter (fun x => negb (str_eqb q x)) l)) by (rewrite FE; left; reflexivity).
            apply filter_In in J. destruct J as [J1 J2]. exists q, x. split; [left; reflexivity|]. split; [right; exact J1|].
            intros ->. rewrite str_eqb_refl in J2. discriminate. }
      destruct Y as (q1 & q2 & Y1 & Y2 & Y3). subst pm.
      destruct (pm_node level ns dn ltac:(lia) (nodes_level _ _ _ OK) H1 q1 Y1) as (n1 & I1 & Q1).
      destruct (pm_node level ns dn ltac:(lia) (nodes_level _ _ _ OK) H1 q2 Y2) as (n2 & I2 & Q2).
      destruct (under_some d level ns n1 OK I1) as [r1 U1]. destruct (under_some d level ns n2 OK I2) as [r2 U2].
      exists (pn_piece n1 :: r1), (pn_piece n2 :: r2). split; [exact U1|]. split; [exact U2|]. cbn [pt_path]. rewrite Q1, Q2. congruence. }
    induction d as [|d IH]; intros level ns [pm m nx] LD PS CS; cbn [can_be_split] in CS.
    - destruct (1 <? m) eqn:LT; [apply Nat.ltb_lt in LT; eapply TOP; eassumption|].
      destruct PS as (_ & dn & _ & _ & _ & ->). discriminate.
    - destruct (1 <? m) eqn:LT; [apply Nat.ltb_lt in LT; eapply TOP; eassumption|].
      pose proof (pspec_nodes _ _ _ _ PS) as OK. pose proof PS as PS0. destruct PS as (_ & dn & H1 & H2 & H3 & H4 & H5 & H6).
      destruct nx as [|[q p'] [|[q2 p2] nx]]; [discriminate| |].
      + destruct (H6 q p' (or_introl eq_refl)) as (ns' & N1 & N2 & _).
        destruct (IH (S level) ns' p' ltac:(lia) N2 CS) as (k1 & k2 & U1 & U2 & NE).
        assert (GO : forall k, under ns' k -> exists k', under ns k' /\ pt_path (PT pm m [(q, p')]) k' = q :: pt_path p' k).
        { intros k (x & nodes & X1 & X2 & X3). apply N1 in X1. destruct X1 as (n & X4 & X5 & X6). exists (pn_piece n :: k).
          split; [eapply under_cons; [exact OK|exact X4|]; exists x, nodes; auto|]. cbn [pt_path]. rewrite X5. cbn [dget]. rewrite str_eqb_refl. reflexivity. }
        destruct (GO k1 U1) as (k1' & U1' & E1). destruct (GO k2 U2) as (k2' & U2' & E2). exists k1', k2'. rewrite E1, E2.
        split; [exact U1'|]. split; [exact U2'|]. congruence.
      + subst pm. assert (Q1 : In q (map snd (pattern_map dn))) by (apply H5; left; reflexivity).
        assert (Q2 : In q2 (map snd (pattern_map dn))) by (apply H5; right; left; reflexivity).
        cbn [map fst] in H4. inversion H4 as [|? ? NI _]; subst. assert (NE : q <> q2) by (intros ->; apply NI; left; reflexivity).
        destruct (pm_node level ns dn ltac:(lia) (nodes_level _ _ _ OK) H1 q Q1) as (n1 & I1 & G1).
        destruct (pm_node level ns dn ltac:(lia) (nodes_level _ _ _ OK) H1 q2 Q2) as (n2 & I2 & G2).
        destruct (under_some (S d) level ns n1 OK I1) as [r1 U1]. destruct (under_some (S d) level ns n2 OK I2) as [r2 U2].
        exists (pn_piece n1 :: r1), (pn_piece n2 :: r2). split; [exact U1|]. split; [exact U2|]. cbn [pt_path]. rewrite G1, G2. congruence.
  Qed.
  (** *** splitting *)
  Definition ns0 (t : tree) : list pnode := [PN None [] t].
  Lemma ns0_ok : forall t, tok V D 0 t -> nodes_ok D 0 (ns0 t).
  Proof. intros t H. split; [discriminate|]. split; [intros _; eexists; reflexivity|]. constructor; [exact H|constructor]. Qed.

  Lemma map_ext_inv : forall A B (f g : A -> B) l, map f l = map g l -> forall x, In x l -> f x = g x.
  Proof.
    intros A B f g l. induction l as [|y l IH]; intros H x I; [destruct I|]. cbn [map] in H. inversion H.
    destruct I as [->|I]; auto.
  Qed.
  Lemma root_piece : forall t, tok V D 0 t -> t_piece t = [].
  Proof. intros t (H & _). apply V00. exact H. Qed.
  Lemma piece_ent : forall t nodes, tok V D 0 t -> In nodes (paths t) -> map t_piece nodes = [] :: e_pieces (ent nodes).
  Proof.
    intros t nodes W I. apply paths_head in I. destruct I as [r ->]. cbn [map]. rewrite (root_piece t W). f_equal.
    unfold e_pieces, e_path, ent. cbn [fst tl]. rewrite map_map. reflexivity.
  Qed.
  Lemma under_ent : forall t e, tok V D 0 t -> In e (ents t) -> under (ns0 t) ([] :: e_pieces e).
  Proof.
    intros t e W I. unfold ents in I. apply in_map_iff in I. destruct I as (nodes & <- & I).
    exists (PN None [] t), nodes. split; [left; reflexivity|]. split; [exact I|]. rewrite (piece_ent t) by assumption. reflexivity.
  Qed.
  Lemma under_ent_inv : forall t ks, tok V D 0 t -> under (ns0 t) ks -> exists e, In e (ents t) /\ ks = [] :: e_pieces e.
  Proof.
    intros t ks W (n & nodes & [<-|[]] & I & ->). exists (ent nodes). split; [apply in_map; exact I|]. apply (piece_ent t); assumption.
  Qed.
  Lemma annotate_root : forall t p, tok V D 0 t -> pspec D 0 (ns0 t) p -> forall nodes, In nodes (paths (annotate p t)) ->
    map t_pattern nodes = pt_path p ([] :: e_pieces (ent nodes)).
  Proof.
    intros t p W PS.
    apply (map_ext_inv _ _ (map t_pattern) (fun nodes => pt_path p ([] :: e_pieces (ent nodes)))).
    pose proof (annotate_paths D 0 (ns0 t) p (PN None [] t) eq_refl PS (or_introl eq_refl)) as E. cbn [pn_tree] in E.
    rewrite E. clear E.
    rewrite <- (map_map ent (fun e => pt_path p ([] :: e_pieces e))). fold (ents (annotate p t)). rewrite annotate_ents. unfold ents.
    rewrite map_map. apply map_ext_in. intros nodes I. rewrite (piece_ent t nodes W I). reflexivity.
  Qed.

  Definition node_kv (nodes : list tree) : list (parsed_piece * option str) * Z * (option (list str) -> option (list str)) :=
    (map (fun n => (t_val n, Some (t_pattern n))) (tl nodes), t_cnt (path_leaf nodes), update_meta (t_meta (path_leaf nodes))).

  Context (meta_ok : option (list str) -> Prop) (meta_id : forall m, meta_ok m -> update_meta m None = m).
  Definition metas_ok (t : tree) : Prop := Forall (fun e => meta_ok (e_meta e)) (ents t).

  Lemma split_ok : forall t, tok V D 0 t -> metas_ok t -> exists ids subs, split_by_pattern t = Ok subs
    /\ NoDup ids /\ (forall nodes, In nodes (paths t) -> In (path_id nodes) ids)
    /\ Forall2 (fun id sub => tok V D 0 sub /\ t_val sub = empty_parsed_piece
          /\ Permutation (ents sub) (map ent (filter (fun nodes => str_eqb id (path_id nodes)) (paths t)))) ids subs
    /\ Permutation (flat_map ents subs) (ents t).
  Proof.
    intros t W MO.
    pose proof (ents_vals V D 0 t W) as EV. pose proof (ents_pos D t (proj1 (proj2 W))) as EP. pose proof (ents_NoDup D t (proj1 (proj2 W))) as EN.
    pose proof (ents_depth D t (proj1 (proj2 W))) as ED. unfold ents in EV, EP, ED. rewrite Forall_map in EV, EP, ED. rewrite Forall_forall in EV, EP, ED.
    unfold metas_ok, ents in MO. rewrite Forall_map, Forall_forall in MO.
    assert (TL : forall nodes, In nodes (paths t) -> exists a b, tl nodes = a :: b /\ rev (tl nodes) <> [] /\ hd new_root (rev (tl nodes)) = path_leaf nodes).
    { intros nodes I. specialize (ED nodes I). cbn in ED. rewrite map_length in ED. destruct nodes as [|n [|a b]]; [cbn in ED; lia|cbn in ED; lia|].
      exists a, b. split; [reflexivity|]. cbn [tl]. split.
      - intros E. apply (f_equal (@length tree)) in E. rewrite rev_length in E. discriminate.
      - unfold path_leaf. change (last (n :: a :: b) new_root) with (last (a :: b) new_root).
        destruct (exists_last (l := a :: b) ltac:(discriminate)) as (l' & z & E). rewrite E, rev_app_distr, last_last. reflexivity. }
    assert (ADD : forall d nodes, In nodes (paths t) ->
       split_add d nodes = Ok (dset str_eqb (path_id nodes) (addp (dget str_eqb (path_id nodes) d) (node_kv nodes)) d)).
    { intros d nodes I. destruct (TL nodes I) as (a & b & T1 & T2 & T3). unfold split_add, build_from_nodes.
      destruct (rev (tl nodes)) as [|z r] eqn:RE; [congruence|]. cbn [hd] in T3. subst z.
      unfold addp, node_kv. cbn [fst snd].
      set (sub := match dget str_eqb (path_id nodes) d with Some t0 => t0 | None => new_root end).
      destruct (build_some (update_meta (t_meta (path_leaf nodes))) (t_cnt (path_leaf nodes)) (map (fun n => (t_val n, Some (t_pattern n))) (tl nodes)) sub None) as [bb Hb].
      { rewrite T1. discriminate. }
      destruct (build sub _ _ _ None) as [sub' o]. cbn [snd] in Hb. subst o. reflexivity. }
    assert (FO : forall l d, (forall x, In x l -> In x (paths t)) ->
       foldM split_add l d = Ok (gfold str_eqb path_id (fun o nodes => addp o (node_kv nodes)) l d)).
    { induction l as [|x l IH]; intros d HL; [reflexivity|]. cbn [foldM gfold fold_left]. rewrite ADD by (apply HL; left; reflexivity). cbn [bind].
      apply IH. intros. apply HL. right. assumption. }
    unfold split_by_pattern. rewrite FO by auto. cbn [bind].
    set (dd := gfold str_eqb path_id (fun o nodes => addp o (node_kv nodes)) (paths t) []).
    assert (ND : NoDup (map fst dd)) by (apply gfold_NoDup; [exact str_eqb_iff|constructor]).
    assert (KE : forall nodes, In nodes (paths t) -> In (path_id nodes) (map fst dd)).
    { intros nodes I. apply gfold_keys; [exact str_eqb_iff|]. right. apply in_map. exact I. }
    assert (EE : forall id sub, In (id, sub) dd -> tok V D 0 sub /\ t_val sub = empty_parsed_piece
          /\ Permutation (ents sub) (map ent (filter (fun nodes => str_eqb id (path_id nodes)) (paths t)))).
    { intros id sub I. apply (dget_in str_eqb str_eqb_iff) in I; [|exact ND]. unfold dd in I. rewrite gfold_get in I by exact str_eqb_iff. cbn [dget] in I.
      set (fl := filter (fun x => str_eqb id (path_id x)) (paths t)) in *.
      assert (FL : forall x, In x fl -> In x (paths t)) by (intros x Hx; apply filter_In in Hx; apply Hx).
      assert (KV : forall x, In x fl -> kv_ent (node_kv x) = ent x).
      { intros x Hx. apply FL in Hx. unfold kv_ent, node_kv, ent. cbn [fst snd]. rewrite map_map. cbn [fst].
        f_equal. apply meta_id. specialize (MO x Hx). exact MO. }
      assert (MAPF : forall l (o : option tree), fold_left (fun o y => Some (addp o (node_kv y))) l o = fold_left (fun o kv => Some (addp o kv)) (map node_kv l) o).
      { clear. induction l as [|x l IH]; intros o; [reflexivity|]. cbn [fold_left map]. apply IH. }
      rewrite MAPF in I.
      destruct (adds_ok V Vfun V0 D (map node_kv fl)) as (t' & A1 & A2 & A3 & A4).
      - intros kv Hkv. apply in_map_iff in Hkv. destruct Hkv as (x & <- & Hx). apply FL in Hx. specialize (EV x Hx). specialize (EP x Hx). specialize (ED x Hx).
        unfold node_kv. cbn [fst snd]. split; [rewrite map_length; cbn in ED; rewrite map_length in ED; exact ED|]. split; [exact EP|].
        cbn in EV. clear - EV. revert EV. generalize (levels V 1 D). generalize (tl x). clear. induction l as [|n l IH]; intros Ps H; inversion H; subst; cbn [map]; constructor; auto.
      - rewrite map_map. rewrite (map_ext_in _ (fun x => e_pieces (ent x))) by (intros x Hx; rewrite KV by exact Hx; reflexivity).
        unfold ents in EN. rewrite map_map in EN. clear - EN. unfold fl. induction (paths t) as [|x l IH]; [constructor|].
        cbn [map filter] in *. inversion EN; subst. destruct (str_eqb id (path_id x)); cbn [map]; auto. constructor; [|auto].
        intros I. apply H1. apply in_map_iff in I. destruct I as (y & I1 & I2). apply filter_In in I2. rewrite <- I1. apply (in_map (fun x => e_pieces (ent x))). apply I2.
      - intros E. apply map_eq_nil in E. rewrite E in I. discriminate.
      - rewrite A1 in I. inversion I; subst t'. split; [exact A2|]. split; [exact A3|]. rewrite map_map in A4.
        rewrite (map_ext_in _ ent) in A4 by exact KV. exact A4. }
    exists (map fst dd), (map snd dd). split; [reflexivity|]. split; [exact ND|]. split; [exact KE|]. split.
    - clear - EE. induction dd as [|[id sub] l IH]; cbn [map fst snd]; constructor.
      + apply EE. left. reflexivity.
      + apply IH. intros. apply EE. right. assumption.
    - apply Permutation_trans with (map ent (flat_map (fun k => filter (fun x => str_eqb k (path_id x)) (paths t)) (map fst dd))).
      + clear - EE. induction dd as [|[id sub] l IH]; [constructor|]. cbn [map fst snd flat_map]. rewrite map_app. apply Permutation_app.
        * apply EE. left. reflexivity.
        * apply IH. intros. apply EE. right. assumption.
      + unfold ents. apply Permutation_map. apply cover_perm; [exact str_eqb_iff|exact ND|exact KE].
  Qed.

  (** *** cluster *)
  Definition settled (t : tree) : Prop :=
    exists t0 p, tok V D 0 t0 /\ pspec D 0 (ns0 t0) p /\ can_be_split p = false /\ t = annotate p t0.
  Definition sep (t1 t2 : tree) : Prop :=
    exists T0 p P1 P2, tok V D 0 T0 /\ pspec D 0 (ns0 T0) p /\ P1 <> P2
      /\ (forall e, In e (ents t1) -> In e (ents T0) /\ pt_path p ([] :: e_pieces e) = P1)
      /\ (forall e, In e (ents t2) -> In e (ents T0) /\ pt_path p ([] :: e_pieces e) = P2).

  Lemma FOP_app : forall A (R : A -> A -> Prop) a b, ForallOrdPairs R a -> ForallOrdPairs R b ->
    (forall x y, In x a -> In y b -> R x y) -> ForallOrdPairs R (a ++ b).
  Proof.
    intros A R a b Ha Hb H. induction Ha as [|x a Hx Ha IH]; [exact Hb|]. cbn [app]. constructor.
    - apply Forall_app. split; [exact Hx|]. apply Forall_forall. intros y Y. apply H; [left; reflexivity|exact Y].
    - apply IH. intros. apply H; [right|]; assumption.
  Qed.

  Lemma loop_ok : forall fuel t, (length (paths t) < fuel)%nat -> tok V D 0 t -> t_val t = empty_parsed_piece -> metas_ok t ->
    exists ts, cluster_loop mcn inner fuel D pd kw t = Ok ts
      /\ Permutation (flat_map ents ts) (ents t)
      /\ Forall (fun t' => tok V D 0 t' /\ settled t' /\ t_val t' = empty_parsed_piece) ts
      /\ ForallOrdPairs sep ts.
  Proof.
    induction fuel as [|fuel IH]; intros t LT W TV MO; [lia|]. cbn [cluster_loop].
    destruct (t_cnt t <=? 0)%Z eqn:C0. { apply Z.leb_le in C0. pose proof (wft_pos D t (proj1 (proj2 W))). lia. }
    destruct (proc_ok D 0 (ns0 t) eq_refl (ns0_ok t W)) as (p & P1 & P2).
    unfold process. fold (ns0 t). rewrite P1. cbn [bind].
    destruct (can_be_split p) eqn:CS; cbn [negb].
    2: { exists [annotate p t]. split; [reflexivity|]. split; [cbn [flat_map]; rewrite app_nil_r, annotate_ents; apply Permutation_refl|].
         split; [|constructor; [constructor|constructor]]. constructor; [|constructor]. split; [apply annotate_tok; exact W|].
         split; [exists t, p; auto|]. rewrite annotate_val. exact TV. }
    set (ta := annotate p t).
    assert (WA : tok V D 0 ta) by (apply annotate_tok; exact W).
    assert (MA : metas_ok ta) by (unfold metas_ok, ta; rewrite annotate_ents; exact MO).
    destruct (split_ok ta WA MA) as (ids & subs & S1 & S2 & S3 & S4 & S5). rewrite S1. cbn [bind].
    assert (EA : ents ta = ents t) by apply annotate_ents.
    assert (PID : forall nodes, In nodes (paths ta) -> path_id nodes = join [SLASH] (pt_path p ([] :: e_pieces (ent nodes)))).
    { intros nodes I. unfold path_id. rewrite (annotate_root t p W P2 nodes I). reflexivity. }
    assert (PINJ : forall e1 e2, In e1 (ents t) -> In e2 (ents t) ->
       join [SLASH] (pt_path p ([] :: e_pieces e1)) = join [SLASH] (pt_path p ([] :: e_pieces e2)) ->
       pt_path p ([] :: e_pieces e1) = pt_path p ([] :: e_pieces e2)).
    { intros e1 e2 I1 I2 J. destruct (pt_path_ok D 0 (ns0 t) p _ eq_refl P2 (under_ent t e1 W I1)) as [A1 A2].
      destruct (pt_path_ok D 0 (ns0 t) p _ eq_refl P2 (under_ent t e2 W I2)) as [B1 B2].
      apply good_join; [congruence| | |]; assumption. }
    (* every part is smaller *)
    assert (SUB : forall id sub, In (id, sub) (combine ids subs) -> (length (paths sub) < length (paths t))%nat
        /\ tok V D 0 sub /\ t_val sub = empty_parsed_piece /\ metas_ok sub
        /\ (forall e, In e (ents sub) -> In e (ents t) /\ join [SLASH] (pt_path p ([] :: e_pieces e)) = id)).
    { intros id sub I.
      assert (X : tok V D 0 sub /\ t_val sub = empty_parsed_piece
          /\ Permutation (ents sub) (map ent (filter (fun nodes => str_eqb id (path_id nodes)) (paths ta)))).
      { clear - S4 I. induction S4 as [|i s l l' H F IHF]; [destruct I|]. destruct I as [I|I]; [inversion I; subst; exact H|auto]. }
      destruct X as (X1 & X2 & X3).
      assert (X4 : forall e, In e (ents sub) -> In e (ents t) /\ join [SLASH] (pt_path p ([] :: e_pieces e)) = id).
      { intros e E. apply (Permutation_in _ X3) in E. apply in_map_iff in E. destruct E as (nodes & E1 & E2). apply filter_In in E2. destruct E2 as [E2 E3].
        apply str_eqb_eq in E3. rewrite PID in E3 by exact E2. subst e. split; [|symmetry; exact E3]. rewrite <- EA. apply in_map. exact E2. }
      split; [|split; [exact X1|]; split; [exact X2|]; split; [|exact X4]].
      - apply Permutation_length in X3. rewrite map_length, ents_len in X3. rewrite X3.
        destruct (can_split_differ D 0 (ns0 t) p eq_refl P2 CS) as (k1 & k2 & U1 & U2 & NE).
        destruct (under_ent_inv t k1 W U1) as (e1 & E1 & ->). destruct (under_ent_inv t k2 W U2) as (e2 & E2 & ->).
        assert (LEN : length (paths t) = length (paths ta)) by (rewrite <- !ents_len, EA; reflexivity). rewrite LEN.
        assert (OUT : exists nodes, In nodes (paths ta) /\ str_eqb id (path_id nodes) = false).
        { destruct (str_eqb id (join [SLASH] (pt_path p ([] :: e_pieces e1)))) eqn:Q1.
          - apply str_eqb_eq in Q1. rewrite <- EA in E2. unfold ents in E2. apply in_map_iff in E2. destruct E2 as (nodes & E2 & E3).
            exists nodes. split; [exact E3|]. rewrite PID by exact E3. rewrite E2. destruct (str_eqb_spec id (join [SLASH] (pt_path p ([] :: e_pieces e2)))) as [Q|Q]; [|reflexivity].
            exfalso. apply NE. apply PINJ; [exact E1| |congruence]. rewrite <- EA, <- E2. apply in_map. exact E3.
          - rewrite <- EA in E1. unfold ents in E1. apply in_map_iff in E1. destruct E1 as (nodes & E1 & E3). exists nodes. split; [exact E3|].
            rewrite PID by exact E3. rewrite E1. exact Q1. }
        destruct OUT as (nodes & O1 & O2). clear - O1 O2. induction (paths ta) as [|x l IHl]; [destruct O1|]. cbn [filter length].
        assert (LE : forall l0, (length (filter (fun n => str_eqb id (path_id n)) l0) <= length l0)%nat).
        { clear. induction l0 as [|y l0 IH0]; cbn [filter length]; [lia|]. destruct (str_eqb id (path_id y)); cbn [length]; lia. }
        destruct O1 as [->|O1].
        + rewrite O2. specialize (LE l). lia.
        + destruct (str_eqb id (path_id x)); cbn [length]; [apply IHl in O1; lia|]. apply IHl in O1. lia.
      - unfold metas_ok. apply Forall_forall. intros e E. apply X4 in E. unfold metas_ok in MO. rewrite Forall_forall in MO. apply MO. apply E. }
    assert (MM : forall ids subs, length ids = length subs -> NoDup ids ->
       (forall id sub, In (id, sub) (combine ids subs) -> (length (paths sub) < length (paths t))%nat
        /\ tok V D 0 sub /\ t_val sub = empty_parsed_piece /\ metas_ok sub
        /\ (forall e, In e (ents sub) -> In e (ents t) /\ join [SLASH] (pt_path p ([] :: e_pieces e)) = id)) ->
       exists rs, mapM (cluster_loop mcn inner fuel D pd kw) subs = Ok rs
         /\ Permutation (flat_map ents (List.concat rs)) (flat_map ents subs)
         /\ Forall (fun t' => tok V D 0 t' /\ settled t' /\ t_val t' = empty_parsed_piece) (List.concat rs)
         /\ ForallOrdPairs sep (List.concat rs)).
    { clear S1 S2 S3 S4 S5 SUB ids subs. induction ids as [|id ids IHs]; intros [|sub subs] LE ND SUB; try discriminate.
      - exists []. split; [reflexivity|]. split; [constructor|]. split; constructor.
      - injection LE as LE. inversion ND as [|? ? ND1 ND2]; subst.
        destruct (SUB id sub (or_introl eq_refl)) as (B1 & B2 & B3 & B4 & B5).
        destruct (IH sub ltac:(lia) B2 B3 B4) as (ts & T1 & T2 & T3 & T4).
        destruct (IHs subs LE ND2) as (rs & R1 & R2 & R3 & R4). { intros. apply SUB. right. assumption. }
        exists (ts :: rs). split; [cbn [mapM]; rewrite T1; cbn [bind]; rewrite R1; reflexivity|]. cbn [List.concat flat_map].
        split; [rewrite flat_map_app; apply Permutation_app; assumption|]. split; [apply Forall_app; auto|].
        apply FOP_app; [exact T4|exact R4|]. intros x y X Y.
        assert (EX : forall e, In e (ents x) -> In e (ents sub)).
        { intros e E. eapply Permutation_in; [exact T2|]. apply in_flat_map. eauto. }
        assert (EY : forall e, In e (ents y) -> exists id' sub', In (id', sub') (combine ids subs) /\ In e (ents sub')).
        { intros e E. assert (J : In e (flat_map ents subs)). { eapply Permutation_in; [exact R2|]. apply in_flat_map. eauto. }
          apply in_flat_map in J. destruct J as (sub' & J1 & J2). clear - LE J1 J2. revert subs LE J1. induction ids as [|i ids IHi]; intros [|s subs] LE J1; try discriminate; [destruct J1|].
          destruct J1 as [->|J1]; [exists i, sub'; split; [left; reflexivity|exact J2]|]. destruct (IHi subs ltac:(cbn in LE; lia) J1) as (a & b & C1 & C2).
          exists a, b. split; [right; exact C1|exact C2]. }
        destruct (ents x) as [|ex lx] eqn:EXE; [exfalso; exact (ents_nonnil x EXE)|].
        destruct (ents y) as [|ey ly] eqn:EYE; [exfalso; exact (ents_nonnil y EYE)|].
        exists t, p, (pt_path p ([] :: e_pieces ex)), (pt_path p ([] :: e_pieces ey)). split; [exact W|]. split; [exact P2|].
        assert (XJ : forall e, In e (ex :: lx) -> In e (ents t) /\ join [SLASH] (pt_path p ([] :: e_pieces e)) = id).
        { intros e E. apply B5. apply EX. exact E. }
        assert (YU : forall e, In e (ents y) -> exists id', In id' ids /\ In e (ents t) /\ join [SLASH] (pt_path p ([] :: e_pieces e)) = id').
        { intros e E. rewrite EYE in E. destruct (EY e E) as (id' & sub' & C1 & C2). exists id'.
          destruct (SUB id' sub' (or_intror C1)) as (_ & _ & _ & _ & C5). split; [apply in_combine_l in C1; exact C1|]. apply C5. exact C2. }
        assert (YS : settled y). { rewrite Forall_forall in R3. apply R3. exact Y. }
        rewrite EYE in YU.
        split; [|split].
        + intros EQ. destruct (XJ ex (or_introl eq_refl)) as [_ J1]. destruct (YU ey (or_introl eq_refl)) as (id' & J2 & _ & J3).
          rewrite EQ in J1. rewrite J1 in J3. subst id'. auto.
        + intros e E. rewrite EXE in E. destruct (XJ e E) as [J1 J2]. split; [exact J1|]. apply PINJ; [exact J1|apply XJ; left; reflexivity|].
          destruct (XJ ex (or_introl eq_refl)) as [_ J3]. congruence.
        + (* y lies inside one part *)
          assert (ONE : exists id' sub', In (id', sub') (combine ids subs) /\ forall e, In e (ey :: ly) -> In e (ents sub')).
          { clear - Y R1 LE IH SUB EYE LT. revert subs rs R1 LE SUB Y. induction ids as [|i ids IHi]; intros [|s subs] rs R1 LE SUB Y; try discriminate.
            - cbn in R1. inversion R1; subst. destruct Y.
            - cbn [mapM] in R1. destruct (SUB i s (or_intror (or_introl eq_refl))) as (B1 & B2 & B3 & B4 & B5).
              destruct (IH s ltac:(lia) B2 B3 B4) as (ts & T1 & T2 & _). rewrite T1 in R1. cbn [bind] in R1.
              destruct (mapM (cluster_loop mcn inner fuel D pd kw) subs) as [rs'|] eqn:RM; [|discriminate]. cbn [bind] in R1. inversion R1; subst rs. clear R1.
              cbn [List.concat] in Y. apply in_app_or in Y. destruct Y as [Y|Y].
              + exists i, s. split; [left; reflexivity|]. intros e E. eapply Permutation_in; [exact T2|]. apply in_flat_map. exists y. rewrite EYE. auto.
              + destruct (IHi subs rs' RM ltac:(cbn in LE; lia)) as (id' & sub' & C1 & C2).
                * intros a b [C|C]; apply SUB; [left; exact C|right; right; exact C].
                * exact Y.
                * exists id', sub'. split; [right; exact C1|exact C2]. }
          destruct ONE as (id' & sub' & C1 & C2). destruct (SUB id' sub' (or_intror C1)) as (_ & _ & _ & _ & C5).
          intros e E. rewrite EYE in E. destruct (C5 e (C2 e E)) as [J1 J2]. split; [exact J1|].
          destruct (C5 ey (C2 ey (or_introl eq_refl))) as [J3 J4]. apply PINJ; [exact J1|exact J3|congruence]. }
    assert (S6 : length ids = length subs) by (apply Forall2_length in S4; exact S4).
    destruct (MM ids subs S6 S2 SUB) as (rs & R1 & R2 & R3 & R4). rewrite R1. cbn [bind].
    exists (List.concat rs). split; [reflexivity|]. split; [|split; assumption].
    eapply Permutation_trans; [exact R2|]. rewrite <- EA. exact S5.
  Qed.

  (** *** levels of an unsplit tree, and where two parts separate *)
  Lemma under_head : forall d level ns ks, nodes_ok d level ns -> under ns ks -> exists n r, In n ns /\ ks = pn_piece n :: r.
  Proof.
    intros d level ns ks OK (n & nodes & H1 & H2 & H3). apply paths_head in H2. destruct H2 as [r ->]. exists n, (map t_piece r). auto.
  Qed.
  Lemma uniform_levels : forall d level ns p, (level + d = D)%nat -> pspec d level ns p -> can_be_split p = false ->
    forall j, (j <= d)%nat -> exists nsj dn q, level_ok (level + j) nsj /\ rl (level + j) nsj = Ok dn
      /\ (forall k, In k (map pn_piece nsj) <-> exists ks, under ns ks /\ nth_error ks j = Some k)
      /\ (forall k, In k (map pn_piece nsj) -> dget str_eqb k (pattern_map dn) = Some q)
      /\ (forall ks, under ns ks -> nth_error (pt_path p ks) j = Some q)
      /\ (zsum (map pn_cnt nsj) <= zsum (map pn_cnt ns))%Z.
  Proof.
    induction d as [|d IH]; intros level ns [pm m nx] LD PS CS j LE; pose proof (pspec_nodes _ _ _ _ PS) as OK.
    - assert (j = 0) by lia. subst j. rewrite Nat.add_0_r.
      destruct OK as (NE & O0 & OF). destruct ns as [|n0 ns1] eqn:NS; [congruence|]. rewrite <- NS in *.
      assert (I0 : In n0 ns) by (rewrite NS; left; reflexivity).
      destruct (pt_path_leaf _ _ _ _ _ LD PS n0 I0) as (q & Q & _ & E).
      pose proof PS as PS0. destruct PS as (OK & dn & H1 & H2 & H3 & H4).
      exists ns, dn, q. split; [eapply nodes_level; exact OK|]. split; [exact H1|].
      assert (U0 : under ns [pn_piece n0]). { destruct (under_some 0 level ns n0 OK I0) as [r U]. destruct (under_leaf _ _ _ OK U) as (n' & _ & E'). inversion E'; subst r. exact U. }
      assert (ALL : forall n, In n ns -> dget str_eqb (pn_piece n) (pattern_map dn) = Some q).
      { intros n I. destruct (pt_path_leaf _ _ _ _ _ LD PS0 n I) as (q' & Q' & _ & E').
        destruct (under_some 0 level ns n OK I) as [r U]. destruct (under_leaf _ _ _ OK U) as (n' & _ & E''). inversion E''; subst r.
        pose proof (can_split_uniform 0 level ns _ LD PS0 CS _ _ U U0) as X. rewrite E, E' in X. inversion X; subst q'. rewrite <- H2. exact Q'. }
      split; [|split; [|split; [|lia]]].
      + intros k. split.
        * intros I. apply in_map_iff in I. destruct I as (n & <- & I). destruct (under_some 0 level ns n OK I) as [r U].
          exists (pn_piece n :: r). split; [exact U|reflexivity].
        * intros (ks & U & N). destruct (under_leaf _ _ _ OK U) as (n & I & ->). cbn in N. inversion N. apply in_map. exact I.
      + intros k I. apply in_map_iff in I. destruct I as (n & <- & I). apply ALL. exact I.
      + intros ks U. rewrite (can_split_uniform 0 level ns _ LD PS0 CS _ _ U U0), E. reflexivity.
    - destruct OK as (NE & O0 & OF). destruct ns as [|n0 ns1] eqn:NS; [congruence|]. rewrite <- NS in *.
      assert (I0 : In n0 ns) by (rewrite NS; left; reflexivity).
      destruct (pt_path_step _ _ _ _ _ _ LD PS n0 I0) as (q & p' & ns' & Q & Q' & PS' & IN & _ & E).
      pose proof PS as PS0. destruct PS as (OK & dn & H1 & H2 & H3 & H4 & H5 & H6).
      assert (U0 : exists r, under ns (pn_piece n0 :: r)) by (apply (under_some (S d) level ns n0 OK I0)). destruct U0 as [r0 U0].
      assert (ALL : forall n, In n ns -> dget str_eqb (pn_piece n) pm = Some q).
      { intros n I. destruct (pt_path_step _ _ _ _ _ _ LD PS0 n I) as (q1 & p1 & ns1' & Q1 & _ & _ & _ & _ & E1).
        destruct (under_some (S d) level ns n OK I) as [r U].
        pose proof (can_split_uniform (S d) level ns _ LD PS0 CS _ _ U U0) as X. rewrite E, E1 in X. inversion X; subst q1. exact Q1. }
      destruct j as [|j].
      + rewrite Nat.add_0_r. exists ns, dn, q. split; [eapply nodes_level; exact OK|]. split; [exact H1|]. split; [|split; [|split; [|lia]]].
        * intros k. split.
          -- intros I. apply in_map_iff in I. destruct I as (n & <- & I). destruct (under_some (S d) level ns n OK I) as [r U].
             exists (pn_piece n :: r). split; [exact U|reflexivity].
          -- intros (ks & U & N). destruct (under_head _ _ _ _ OK U) as (n & r & I & ->). cbn in N. inversion N. apply in_map. exact I.
        * intros k I. apply in_map_iff in I. destruct I as (n & <- & I). rewrite <- H2. apply ALL. exact I.
        * intros ks U. rewrite (can_split_uniform (S d) level ns _ LD PS0 CS _ _ U U0), E. reflexivity.
      + cbn [can_be_split] in CS. destruct (1 <? m); [discriminate|].
        destruct nx as [|[q' p''] [|z nx]]; [discriminate Q'| |discriminate CS]. cbn [dget] in Q'.
        destruct (str_eqb q q') eqn:EQ; [|discriminate]. apply str_eqb_eq in EQ. subst q'. inversion Q'; subst p''. clear Q'.
        destruct (H6 q p' (or_introl eq_refl)) as (nk & K1 & K2 & K3).
        destruct (IH (S level) nk p' ltac:(lia) K2 CS j ltac:(lia)) as (nsj & dnj & qj & J1 & J2 & J3 & J4 & J5 & J6).
        replace (level + S j) with (S level + j) by lia. exists nsj, dnj, qj. split; [exact J1|]. split; [exact J2|].
        assert (UK : forall n r, In n ns -> under (pn_kids n) r -> under nk r).
        { intros n r I U. eapply under_mono; [|exact U]. intros x X. apply K1. exists n. auto. }
        split; [|split; [|split; [|lia]]].
        * intros k. rewrite J3. split.
          -- intros (ks & (x & nodes & X1 & X2 & X3) & N). apply K1 in X1. destruct X1 as (n & X4 & X5 & X6).
             exists (pn_piece n :: ks). split; [|exact N]. eapply under_cons; [exact OK|exact X4|]. exists x, nodes. auto.
          -- intros (ks & U & N). destruct (under_kids _ _ _ _ OK U) as (n & r & I & -> & U'). exists r. split; [|exact N]. eapply UK; eassumption.
        * exact J4.
        * intros ks U. destruct (under_kids _ _ _ _ OK U) as (n & r & I & -> & U').
          assert (PP : pt_path (PT pm m [(q, p')]) (pn_piece n :: r) = q :: pt_path p' r).
          { cbn [pt_path]. rewrite (ALL n I). cbn [dget]. rewrite str_eqb_refl. reflexivity. }
          rewrite PP. cbn [nth_error]. apply J5. eapply UK; eassumption.
  Qed.

  Lemma first_diff : forall d level ns p (S1 S2 : list str -> Prop) P1 P2, (level + d = D)%nat -> pspec d level ns p ->
    (exists k, S1 k) -> (exists k, S2 k) -> P1 <> P2 ->
    (forall k, S1 k -> under ns k /\ pt_path p k = P1) -> (forall k, S2 k -> under ns k /\ pt_path p k = P2) ->
    exists j nsj dn q1 q2, (j <= d)%nat /\ level_ok (level + j) nsj /\ rl (level + j) nsj = Ok dn /\ q1 <> q2
      /\ (forall k, S1 k -> exists x, nth_error k j = Some x /\ In x (map pn_piece nsj) /\ dget str_eqb x (pattern_map dn) = Some q1)
      /\ (forall k, S2 k -> exists x, nth_error k j = Some x /\ In x (map pn_piece nsj) /\ dget str_eqb x (pattern_map dn) = Some q2).
  Proof.
    induction d as [|d IH]; intros level ns [pm m nx] S1 S2 P1 P2 LD PS N1 N2 NE A1 A2; pose proof (pspec_nodes _ _ _ _ PS) as OK.
    - pose proof PS as PS0. destruct PS as (_ & dn & H1 & H2 & H3 & H4).
      assert (HD : forall S P, (exists k, S k) -> (forall k, S k -> under ns k /\ pt_path (PT pm m nx) k = P) ->
        exists q, P = [q] /\ forall k, S k -> exists x, nth_error k 0 = Some x /\ In x (map pn_piece ns) /\ dget str_eqb x (pattern_map dn) = Some q).
      { intros S P [k0 K0] A. destruct (A k0 K0) as [U0 E0]. destruct (under_leaf _ _ _ OK U0) as (n & I & ->).
        destruct (pt_path_leaf _ _ _ _ _ LD PS0 n I) as (q & Q & _ & E). rewrite E in E0. exists q. split; [auto|].
        intros k K. destruct (A k K) as [U E1]. destruct (under_leaf _ _ _ OK U) as (n1 & I1 & ->).
        destruct (pt_path_leaf _ _ _ _ _ LD PS0 n1 I1) as (q1 & Q1 & _ & E2). rewrite E2 in E1. exists (pn_piece n1). split; [reflexivity|].
        split; [apply in_map; exact I1|]. rewrite <- H2, Q1. congruence. }
      destruct (HD S1 P1 N1 A1) as (q1 & E1 & B1). destruct (HD S2 P2 N2 A2) as (q2 & E2 & B2).
      exists 0, ns, dn, q1, q2. rewrite Nat.add_0_r. split; [lia|]. split; [eapply nodes_level; exact OK|]. split; [exact H1|].
      split; [congruence|]. split; assumption.
    - pose proof PS as PS0. destruct PS as (_ & dn & H1 & H2 & H3 & H4 & H5 & H6).
      assert (HD : forall S P, (exists k, S k) -> (forall k, S k -> under ns k /\ pt_path (PT pm m nx) k = P) ->
        exists q p' P', P = q :: P' /\ dget str_eqb q nx = Some p'
          /\ forall k, S k -> exists n r, In n ns /\ k = pn_piece n :: r /\ under (pn_kids n) r /\ dget str_eqb (pn_piece n) pm = Some q /\ pt_path p' r = P').
      { intros S P [k0 K0] A. destruct (A k0 K0) as [U0 E0]. destruct (under_kids _ _ _ _ OK U0) as (n & r & I & -> & U0').
        destruct (pt_path_step _ _ _ _ _ _ LD PS0 n I) as (q & p' & ns' & Q & Q' & _ & _ & _ & E). rewrite E in E0. exists q, p', (pt_path p' r).
        split; [auto|]. split; [exact Q'|].
        intros k K. destruct (A k K) as [U E1]. destruct (under_kids _ _ _ _ OK U) as (n1 & r1 & I1 & -> & U1).
        destruct (pt_path_step _ _ _ _ _ _ LD PS0 n1 I1) as (q1 & p1 & ns1 & Q1 & Q1' & _ & _ & _ & E2). rewrite E2, <- E0 in E1. inversion E1; subst q1.
        exists n1, r1. rewrite Q' in Q1'. inversion Q1'; subst p1. auto. }
      destruct (HD S1 P1 N1 A1) as (q1 & p1 & P1' & E1 & G1 & B1). destruct (HD S2 P2 N2 A2) as (q2 & p2 & P2' & E2 & G2 & B2).
      destruct (str_dec q1 q2) as [EQ|NQ].
      + subst q2. rewrite G1 in G2. inversion G2; subst p2. clear G2.
        assert (G1' := G1). apply (dget_some_in str_eqb str_eqb_iff) in G1'. destruct (H6 q1 p1 G1') as (nk & K1 & K2 & _).
        set (Q1 := fun r => exists n, In n ns /\ S1 (pn_piece n :: r) /\ under nk r /\ pt_path p1 r = P1').
        set (Q2 := fun r => exists n, In n ns /\ S2 (pn_piece n :: r) /\ under nk r /\ pt_path p1 r = P2').
        assert (C1 : forall k, S1 k -> exists n r, k = pn_piece n :: r /\ Q1 r).
        { intros k K. destruct (B1 k K) as (n & r & X1 & X2 & X3 & X4 & X5). exists n, r. split; [exact X2|]. subst k. exists n. repeat split; auto.
          eapply under_mono; [|exact X3]. intros x X. apply K1. exists n. auto. }
        assert (C2 : forall k, S2 k -> exists n r, k = pn_piece n :: r /\ Q2 r).
        { intros k K. destruct (B2 k K) as (n & r & X1 & X2 & X3 & X4 & X5). exists n, r. split; [exact X2|]. subst k. exists n. repeat split; auto.
          eapply under_mono; [|exact X3]. intros x X. apply K1. exists n. auto. }
        destruct (IH (S level) nk p1 Q1 Q2 P1' P2' ltac:(lia) K2) as (j & nsj & dnj & qa & qb & J0 & J1 & J2 & J3 & J4 & J5).
        * destruct N1 as [k K]. destruct (C1 k K) as (n & r & _ & X). eauto.
        * destruct N2 as [k K]. destruct (C2 k K) as (n & r & _ & X). eauto.
        * congruence.
        * intros r (n & _ & _ & X & Y). auto.
        * intros r (n & _ & _ & X & Y). auto.
        * exists (S j), nsj, dnj, qa, qb. replace (level + S j) with (S level + j) by lia. split; [lia|]. split; [exact J1|]. split; [exact J2|]. split; [exact J3|].
          split.
          -- intros k K. destruct (C1 k K) as (n & r & -> & X). exact (J4 r X).
          -- intros k K. destruct (C2 k K) as (n & r & -> & X). exact (J5 r X).
      + exists 0, ns, dn, q1, q2. rewrite Nat.add_0_r. split; [lia|]. split; [eapply nodes_level; exact OK|]. split; [exact H1|]. split; [exact NQ|]. split.
        * intros k K. destruct (B1 k K) as (n & r & I & -> & _ & Q & _). exists (pn_piece n). split; [reflexivity|]. split; [apply in_map; exact I|]. rewrite <- H2. exact Q.
        * intros k K. destruct (B2 k K) as (n & r & I & -> & _ & Q & _). exists (pn_piece n). split; [reflexivity|]. split; [apply in_map; exact I|]. rewrite <- H2. exact Q.
  Qed.
End Gen.
