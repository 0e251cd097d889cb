(** Facts about piece trees. *)
From Coq Require Import String.
From Verif Require Import PyStr Defs ParseUtils Trees Observe PyStrProofs.
From Coq Require Import Lia Permutation.

Lemma tree_ind' : forall P : tree -> Prop,
  (forall v p c m ks, Forall P ks -> P (T v p c m ks)) -> forall t, P t.
Proof.
  intros P H. fix IH 1. intros [v p c m ks]. apply H.
  induction ks as [|k ks IHks]; constructor; [apply IH | exact IHks].
Qed.

Lemma kid_split_some : forall k ks a x b, kid_split k ks = Some (a, x, b) ->
  ks = a ++ x :: b /\ t_piece x = k /\ ~ In k (map t_piece a).
Proof.
  intros k ks. induction ks as [|y ks IH]; intros a x b H; cbn [kid_split] in H; [discriminate|].
  destruct (str_eqb_spec k (t_piece y)) as [E|E].
  - inversion H; subst; clear H. repeat split; auto.
  - destruct (kid_split k ks) as [[[a' x'] b']|]; [|discriminate]. inversion H; subst; clear H.
    destruct (IH a' x b eq_refl) as (H1 & H2 & H3). subst ks. repeat split; auto.
    cbn [map In]. intros [D|D]; [congruence|auto].
Qed.
Lemma kid_split_none : forall k ks, kid_split k ks = None <-> ~ In k (map t_piece ks).
Proof.
  intros k ks. induction ks as [|y ks IH]; cbn [kid_split map In]; [tauto|].
  destruct (str_eqb_spec k (t_piece y)) as [E|E].
  - split; [discriminate|]. intros H. exfalso. apply H. left. congruence.
  - destruct (kid_split k ks) as [[[a x] b]|].
    + split; [discriminate|]. intros H. exfalso. apply H. right.
      destruct (in_dec str_dec k (map t_piece ks)) as [D|D]; [exact D|]. apply IH in D. discriminate.
    + split; [|reflexivity]. intros _ [D|D]; [congruence|]. apply IH in D; auto.
Qed.

Definition kid (k : str) (ks : list tree) := List.find (fun c => str_eqb k (t_piece c)) ks.
Lemma kid_app_skip : forall k a l, ~ In k (map t_piece a) -> kid k (a ++ l) = kid k l.
Proof.
  intros k a l H. induction a as [|y a IH]; [reflexivity|]. cbn [app kid List.find].
  destruct (str_eqb_spec k (t_piece y)) as [E|E].
  - exfalso. apply H. left. congruence.
  - apply IH. intros D. apply H. right. exact D.
Qed.
Lemma kid_cons_eq : forall k x l, t_piece x = k -> kid k (x :: l) = Some x.
Proof. intros k x l H. unfold kid. cbn [List.find]. rewrite H, str_eqb_refl. reflexivity. Qed.
Lemma kid_cons_neq : forall k x l, t_piece x <> k -> kid k (x :: l) = kid k l.
Proof.
  intros k x l H. unfold kid. cbn [List.find]. destruct (str_eqb_spec k (t_piece x)); [congruence|reflexivity].
Qed.
Lemma kid_none : forall k l, ~ In k (map t_piece l) -> kid k l = None.
Proof. intros k l H. rewrite <- (app_nil_r l), kid_app_skip by exact H. reflexivity. Qed.
Lemma kid_mid : forall k a x x' b, t_piece x = t_piece x' -> k <> t_piece x ->
  kid k (a ++ x' :: b) = kid k (a ++ x :: b).
Proof.
  intros k a x x' b H N. induction a as [|y a IH].
  - cbn [app]. rewrite !kid_cons_neq by congruence. reflexivity.
  - unfold kid in *. cbn [app List.find]. destruct (str_eqb k (t_piece y)); [reflexivity|exact IH].
Qed.
Lemma kid_some_in : forall k l x, kid k l = Some x -> In x l /\ t_piece x = k.
Proof.
  intros k l x H. unfold kid in H. apply find_some in H. destruct H as [H1 H2].
  apply str_eqb_eq in H2. auto.
Qed.
Lemma kid_in : forall k l, In k (map t_piece l) -> exists x, kid k l = Some x.
Proof.
  intros k l H. destruct (kid k l) as [x|] eqn:E; [eauto|]. exfalso. unfold kid in E.
  apply in_map_iff in H. destruct H as (x & H1 & H2). pose proof (find_none _ _ E x H2) as D.
  cbv beta in D. rewrite H1, str_eqb_refl in D. discriminate.
Qed.
Lemma kid_in_nodup : forall l x, NoDup (map t_piece l) -> In x l -> kid (t_piece x) l = Some x.
Proof.
  induction l as [|y l IH]; intros x H I; [destruct I|]. cbn [map] in H. inversion H; subst.
  destruct I as [I|I]; [subst; apply kid_cons_eq; reflexivity|].
  rewrite kid_cons_neq; [apply IH; auto|]. intros E. apply H2. rewrite E. apply in_map. exact I.
Qed.

Lemma node_at_cons : forall t k r,
  node_at t (k :: r) = match kid k (t_kids t) with Some c => node_at c r | None => None end.
Proof. reflexivity. Qed.

Section Build.
  Context (f : option (list str) -> option (list str)) (count : Z).
  Notation keys kvs := (map (fun kv : parsed_piece * option str => piece (fst kv)) kvs).

  Lemma build_val : forall kvs t new, t_val (fst (build t kvs count f new)) = t_val t.
  Proof.
    intros kvs [v p c m ks] new. destruct kvs as [|[pp pat] r]; cbn [build]; [reflexivity|].
    destruct (kid_split (piece pp) ks) as [[[a k] b]|].
    - destruct (build k r count f (Some false)). reflexivity.
    - destruct (build (T pp pat 0 None []) r count f (Some true)). reflexivity.
  Qed.
  Lemma build_piece : forall kvs t new, t_piece (fst (build t kvs count f new)) = t_piece t.
  Proof. intros. unfold t_piece. rewrite build_val. reflexivity. Qed.
  Lemma build_pat : forall kvs t new, t_pat (fst (build t kvs count f new)) = t_pat t.
  Proof.
    intros kvs [v p c m ks] new. destruct kvs as [|[pp pat] r]; cbn [build]; [reflexivity|].
    destruct (kid_split (piece pp) ks) as [[[a k] b]|].
    - destruct (build k r count f (Some false)). reflexivity.
    - destruct (build (T pp pat 0 None []) r count f (Some true)). reflexivity.
  Qed.
  Lemma build_cnt : forall kvs t new, t_cnt (fst (build t kvs count f new)) = (t_cnt t + count)%Z.
  Proof.
    intros kvs [v p c m ks] new. destruct kvs as [|[pp pat] r]; cbn [build]; [reflexivity|].
    destruct (kid_split (piece pp) ks) as [[[a k] b]|].
    - destruct (build k r count f (Some false)). reflexivity.
    - destruct (build (T pp pat 0 None []) r count f (Some true)). reflexivity.
  Qed.

  (** the kids after building through the child [pp] *)
  Lemma build_kids : forall pp pat r t new,
    t_kids (fst (build t ((pp, pat) :: r) count f new)) =
    match kid_split (piece pp) (t_kids t) with
    | Some (a, k, b) => a ++ fst (build k r count f (Some false)) :: b
    | None => t_kids t ++ [fst (build (T pp pat 0 None []) r count f (Some true))]
    end.
  Proof.
    intros pp pat r [v p c m ks] new. cbn [build t_kids].
    destruct (kid_split (piece pp) ks) as [[[a k] b]|].
    - destruct (build k r count f (Some false)). reflexivity.
    - destruct (build (T pp pat 0 None []) r count f (Some true)). reflexivity.
  Qed.

  Lemma build_kid_other : forall pp pat r t new k, k <> piece pp ->
    kid k (t_kids (fst (build t ((pp, pat) :: r) count f new))) = kid k (t_kids t).
  Proof.
    intros pp pat r t new k H. rewrite build_kids.
    destruct (kid_split (piece pp) (t_kids t)) as [[[a x] b]|] eqn:E.
    - apply kid_split_some in E. destruct E as (E1 & E2 & _). rewrite E1. apply kid_mid.
      + rewrite build_piece. reflexivity.
      + congruence.
    - destruct (kid k (t_kids t)) as [y|] eqn:K.
      + unfold kid in *. clear -K. induction (t_kids t) as [|z l IH]; [discriminate|]. cbn [app List.find] in *.
        destruct (str_eqb k (t_piece z)); [exact K|apply IH; exact K].
      + clear E. induction (t_kids t) as [|z l IH].
        * cbn [app]. rewrite kid_cons_neq; [reflexivity|]. rewrite build_piece. unfold t_piece. cbn [t_val]. congruence.
        * unfold kid in *. cbn [app List.find] in *. destruct (str_eqb k (t_piece z)); [discriminate|auto].
  Qed.
  Lemma build_kid_same : forall pp pat r t new,
    exists n', kid (piece pp) (t_kids (fst (build t ((pp, pat) :: r) count f new))) =
    Some (fst (build (match kid (piece pp) (t_kids t) with
                      | Some x => x
                      | None => T pp pat 0 None []
                      end) r count f n'))
    /\ n' = Some (match kid (piece pp) (t_kids t) with Some _ => false | None => true end).
  Proof.
    intros pp pat r t new. rewrite build_kids.
    destruct (kid_split (piece pp) (t_kids t)) as [[[a x] b]|] eqn:E.
    - apply kid_split_some in E. destruct E as (E1 & E2 & E3). rewrite E1.
      exists (Some false). rewrite !kid_app_skip by assumption.
      rewrite kid_cons_eq by (rewrite build_piece; exact E2). rewrite kid_cons_eq by exact E2. auto.
    - apply kid_split_none in E. exists (Some true).
      rewrite (kid_none _ _ E), kid_app_skip by exact E.
      rewrite kid_cons_eq by (rewrite build_piece; reflexivity). auto.
  Qed.

  Lemma node_at_build : forall kvs t new ks,
    cnt_at (fst (build t kvs count f new)) ks =
      (cnt_at t ks + if prefixb ks (keys kvs) then count else 0)%Z
    /\ meta_at (fst (build t kvs count f new)) ks =
         (if prefixb ks (keys kvs) && (length ks =? length kvs) then f (meta_at t ks) else meta_at t ks)
    /\ (node_at (fst (build t kvs count f new)) ks = None <->
        node_at t ks = None /\ prefixb ks (keys kvs) = false).
  Proof.
    induction kvs as [|[pp pat] r IH]; intros t new ks.
    - destruct t as [v p c m kk]. cbn [build fst map]. destruct ks as [|k ks].
      + cbn. repeat split; try (intros; discriminate); intros [H _]; discriminate H.
      + cbn [prefixb]. unfold cnt_at, meta_at. rewrite !node_at_cons. cbn [t_kids].
        replace (S (length ks) =? 0) with false by reflexivity. rewrite andb_false_r.
        split; [lia|]. split; [reflexivity|tauto].
    - destruct ks as [|k ks].
      + cbn [prefixb map length]. unfold cnt_at, meta_at. cbn [node_at].
        rewrite build_cnt. cbn [Nat.eqb]. rewrite andb_false_r.
        split; [reflexivity|]. split.
        * destruct t as [v p c m kk]. cbn [build].
          destruct (kid_split (piece pp) kk) as [[[a x] b]|].
          -- destruct (build x r count f (Some false)). reflexivity.
          -- destruct (build (T pp pat 0 None []) r count f (Some true)). reflexivity.
        * split; [intros H; discriminate|intros [H _]; discriminate].
      + cbn [prefixb map length fst]. destruct (str_eqb_spec k (piece pp)) as [E|E].
        * subst k. destruct (build_kid_same pp pat r t new) as (n' & K & _).
          unfold cnt_at, meta_at. rewrite !node_at_cons, K. cbn [andb Nat.eqb].
          destruct (IH (match kid (piece pp) (t_kids t) with Some x => x | None => T pp pat 0 None [] end) n' ks)
            as (I1 & I2 & I3).
          unfold cnt_at, meta_at in I1, I2. rewrite I1, I2, I3.
          destruct (kid (piece pp) (t_kids t)) as [x|]; [tauto|].
          destruct ks as [|k2 ks]; cbn [node_at t_kids List.find t_cnt t_meta prefixb].
          -- split; [lia|]. split; [reflexivity|]. split; intros [H H']; discriminate.
          -- split; [lia|]. split; [reflexivity|]. tauto.
        * cbn [andb]. unfold cnt_at, meta_at. rewrite !node_at_cons, build_kid_other by exact E.
          split; [lia|]. split; [reflexivity|tauto].
  Qed.

  Lemma build_new : forall kvs t new, kvs <> [] ->
    snd (build t kvs count f new) =
      Some (match node_at t (keys kvs) with Some _ => false | None => true end).
  Proof.
    assert (L : forall kvs t new, snd (build t kvs count f new) =
      match kvs with [] => new | _ => Some (match node_at t (keys kvs) with Some _ => false | None => true end) end).
    { induction kvs as [|[pp pat] r IH]; intros [v p c m kk] new; [reflexivity|].
      cbn [build map fst]. rewrite node_at_cons. cbn [t_kids].
      destruct (kid_split (piece pp) kk) as [[[a x] b]|] eqn:E.
      - apply kid_split_some in E. destruct E as (E1 & E2 & E3). subst kk.
        rewrite kid_app_skip by exact E3. rewrite kid_cons_eq by exact E2.
        specialize (IH x (Some false)). destruct (build x r count f (Some false)) as [k' n].
        cbn [snd] in *. rewrite IH. destruct r; reflexivity.
      - apply kid_split_none in E. rewrite kid_none by exact E.
        specialize (IH (T pp pat 0 None []) (Some true)).
        destruct (build (T pp pat 0 None []) r count f (Some true)) as [k' n].
        cbn [snd] in *. rewrite IH. destruct r; reflexivity. }
    intros kvs t new H. rewrite L. destruct kvs; [congruence|reflexivity].
  Qed.
End Build.

(** ** Well formed trees: all leaves at depth [d], counts add up *)
Fixpoint wft (d : nat) (t : tree) : Prop :=
  (0 < t_cnt t)%Z /\
  match d with
  | O => t_kids t = []
  | S d' => t_kids t <> [] /\ NoDup (map t_piece (t_kids t))
            /\ t_cnt t = fold_right Z.add 0%Z (map t_cnt (t_kids t)) /\ Forall (wft d') (t_kids t)
  end.
Definition fresh (t : tree) : Prop := t_kids t = [] /\ t_cnt t = 0%Z.

Lemma sum_app : forall a b, fold_right Z.add 0%Z (a ++ b) = (fold_right Z.add 0 a + fold_right Z.add 0 b)%Z.
Proof. intros a b. induction a as [|x a IH]; cbn [app fold_right]; [lia|]. rewrite IH. lia. Qed.

Lemma wft_pos : forall d t, wft d t -> (0 < t_cnt t)%Z.
Proof. intros [|d] t H; apply H. Qed.

Lemma build_wft : forall f count, (0 < count)%Z -> forall kvs t new,
  wft (length kvs) t \/ fresh t -> wft (length kvs) (fst (build t kvs count f new)).
Proof.
  intros f count C. induction kvs as [|[pp pat] r IH]; intros t new H.
  - cbn [length wft]. rewrite build_cnt. split.
    + destruct H as [H|[_ H]]; [apply wft_pos in H; lia|lia].
    + destruct t as [v p c m ks]. cbn [build fst t_kids]. destruct H as [[_ H]|[H _]]; exact H.
  - cbn [length wft]. rewrite build_cnt, build_kids.
    assert (P : (0 < t_cnt t + count)%Z).
    { destruct H as [H|[_ H]]; [apply wft_pos in H; lia|lia]. }
    split; [exact P|].
    assert (ND : NoDup (map t_piece (t_kids t))).
    { destruct H as [H|[H _]]; [apply H|rewrite H; constructor]. }
    assert (SM : t_cnt t = fold_right Z.add 0%Z (map t_cnt (t_kids t))).
    { destruct H as [H|[H H']]; [apply H|rewrite H, H'; reflexivity]. }
    assert (FA : Forall (wft (length r)) (t_kids t)).
    { destruct H as [H|[H _]]; [apply H|rewrite H; constructor]. }
    destruct (kid_split (piece pp) (t_kids t)) as [[[a x] b]|] eqn:E.
    + apply kid_split_some in E. destruct E as (E1 & E2 & E3). rewrite E1 in *.
      split; [destruct a; discriminate|].
      rewrite !map_app in *. cbn [map] in *. rewrite build_piece.
      split; [exact ND|]. split.
      * rewrite sum_app in *. cbn [fold_right] in *. rewrite build_cnt. lia.
      * apply Forall_app in FA. destruct FA as [F1 F2]. inversion F2; subst.
        apply Forall_app. split; [exact F1|]. constructor; [|assumption]. apply IH. left. assumption.
    + apply kid_split_none in E. split; [destruct (t_kids t); discriminate|].
      rewrite !map_app. cbn [map]. rewrite build_piece. unfold t_piece at 2. cbn [t_val]. split.
      * rewrite <- (rev_involutive (map t_piece (t_kids t) ++ [piece pp])). apply NoDup_rev.
        rewrite rev_app_distr. cbn [rev app]. constructor.
        -- intros D. apply in_rev in D. auto.
        -- apply NoDup_rev. exact ND.
      * split.
        -- rewrite sum_app. cbn [fold_right]. rewrite build_cnt. cbn [t_cnt]. lia.
        -- apply Forall_app. split; [exact FA|]. constructor; [|constructor]. apply IH.
           right. split; reflexivity.
Qed.

(** ** Replacing the meta of one node *)
Fixpoint upd_meta (t : tree) (ks : list str) (f : option (list str) -> option (list str)) : tree :=
  match t, ks with
  | T v p c m kk, [] => T v p c (f m) kk
  | T v p c m kk, k :: r =>
      T v p c m (match kid_split k kk with
                 | Some (a, x, b) => a ++ upd_meta x r f :: b
                 | None => kk
                 end)
  end.
Lemma upd_meta_val : forall t ks f, t_val (upd_meta t ks f) = t_val t.
Proof. intros [v p c m kk] ks f. destruct ks; reflexivity. Qed.
Lemma upd_meta_piece : forall t ks f, t_piece (upd_meta t ks f) = t_piece t.
Proof. intros. unfold t_piece. rewrite upd_meta_val. reflexivity. Qed.
Lemma upd_meta_cnt : forall t ks f, t_cnt (upd_meta t ks f) = t_cnt t.
Proof. intros [v p c m kk] ks f. destruct ks; reflexivity. Qed.
Lemma kid_split_mid : forall k a x b, ~ In k (map t_piece a) -> t_piece x = k ->
  kid_split k (a ++ x :: b) = Some (a, x, b).
Proof.
  intros k a x b H E. induction a as [|y a IH].
  - cbn [app kid_split]. rewrite E, str_eqb_refl. reflexivity.
  - cbn [app kid_split]. destruct (str_eqb_spec k (t_piece y)) as [D|D].
    + exfalso. apply H. left. congruence.
    + rewrite IH; [reflexivity|]. intros I. apply H. right. exact I.
Qed.

Lemma incr_build : forall f count kvs t new,
  node_at t (map (fun kv : parsed_piece * option str => piece (fst kv)) kvs) <> None ->
  incr_path (fst (build t kvs count f new))
            (map (fun kv : parsed_piece * option str => piece (fst kv)) kvs) (- count)
  = upd_meta t (map (fun kv : parsed_piece * option str => piece (fst kv)) kvs) f.
Proof.
  intros f count. induction kvs as [|[pp pat] r IH]; intros [v p c m kk] new H.
  - cbn [map build fst incr_path upd_meta]. f_equal. lia.
  - cbn [map fst] in H. rewrite node_at_cons in H. cbn [t_kids] in H.
    cbn [map fst build upd_meta].
    destruct (kid_split (piece pp) kk) as [[[a x] b]|] eqn:E.
    + apply kid_split_some in E. destruct E as (E1 & E2 & E3). subst kk.
      rewrite kid_app_skip in H by exact E3. rewrite kid_cons_eq in H by exact E2.
      specialize (IH x (Some false) H). pose proof (build_piece f count r x (Some false)) as BP.
      destruct (build x r count f (Some false)) as [k' n]. cbn [fst] in *.
      cbn [incr_path]. rewrite kid_split_mid by (try exact E3; congruence).
      rewrite IH. f_equal. lia.
    + apply kid_split_none in E. rewrite kid_none in H by exact E. congruence.
Qed.

Lemma upd_meta_wft : forall f ks d t, wft d t -> wft d (upd_meta t ks f).
Proof.
  intros f. induction ks as [|k r IH]; intros d [v p c m kk] H.
  - destruct d; exact H.
  - cbn [upd_meta]. destruct d as [|d].
    + destruct H as [H1 H2]. cbn [t_kids] in H2. subst kk. cbn [kid_split]. split; [exact H1|reflexivity].
    + destruct H as (H1 & H2 & H3 & H4 & H5). cbn [t_kids t_cnt] in *.
      destruct (kid_split k kk) as [[[a x] b]|] eqn:E; [|repeat split; assumption].
      apply kid_split_some in E. destruct E as (E1 & E2 & E3). subst kk.
      cbn [wft t_kids t_cnt]. rewrite !map_app in *. cbn [map] in *.
      rewrite upd_meta_piece, upd_meta_cnt. split; [exact H1|]. split; [destruct a; discriminate|].
      split; [exact H3|]. split; [exact H4|]. apply Forall_app in H5. destruct H5 as [F1 F2].
      inversion F2; subst. apply Forall_app. split; [exact F1|]. constructor; [apply IH; assumption|assumption].
Qed.

Lemma upd_meta_at : forall f ks t k0,
  cnt_at (upd_meta t ks f) k0 = cnt_at t k0
  /\ meta_at (upd_meta t ks f) k0 =
     (if prefixb k0 ks && (length k0 =? length ks) && (match node_at t k0 with Some _ => true | None => false end)
      then f (meta_at t k0) else meta_at t k0)
  /\ (node_at (upd_meta t ks f) k0 = None <-> node_at t k0 = None).
Proof.
  intros f. induction ks as [|k r IH]; intros [v p c m kk] k0.
  - destruct k0 as [|x k0].
    + cbn. repeat split; intros; discriminate.
    + unfold cnt_at, meta_at. cbn [upd_meta prefixb andb]. rewrite !node_at_cons. cbn [t_kids]. tauto.
  - destruct k0 as [|x k0].
    + unfold cnt_at, meta_at. cbn [upd_meta node_at prefixb length Nat.eqb andb t_cnt t_meta].
      repeat split; intros; discriminate.
    + unfold cnt_at, meta_at. cbn [upd_meta prefixb length Nat.eqb]. rewrite !node_at_cons. cbn [t_kids].
      destruct (kid_split k kk) as [[[a y] b]|] eqn:E.
      * apply kid_split_some in E. destruct E as (E1 & E2 & E3). subst kk.
        destruct (str_eqb_spec x k) as [D|D].
        -- subst x. rewrite !kid_app_skip by exact E3.
           rewrite kid_cons_eq by (rewrite upd_meta_piece; exact E2). rewrite kid_cons_eq by exact E2.
           cbn [andb]. destruct (IH y k0) as (I1 & I2 & I3). unfold cnt_at, meta_at in I1, I2.
           rewrite I1, I2. tauto.
        -- cbn [andb]. rewrite (kid_mid x a y (upd_meta y r f) b); [tauto| |congruence].
           rewrite upd_meta_piece. reflexivity.
      * apply kid_split_none in E. destruct (str_eqb_spec x k) as [D|D]; [|cbn [andb]; tauto].
        subst x. rewrite kid_none by exact E. rewrite andb_false_r. tauto.
Qed.

(** ** Paths *)
Fixpoint along (t : tree) (ks : list str) : list tree :=
  t :: match ks with
       | [] => []
       | k :: r => match kid k (t_kids t) with Some c => along c r | None => [] end
       end.
Lemma paths_eq : forall t, paths t = match t_kids t with
                                     | [] => [[t]]
                                     | ks => map (cons t) (flat_map paths ks)
                                     end.
Proof. intros [v p c m [|k ks]]; reflexivity. Qed.
Lemma along_pieces : forall ks t, node_at t ks <> None -> path_pieces (along t ks) = ks.
Proof.
  unfold path_pieces. induction ks as [|k r IH]; intros t H; [reflexivity|].
  rewrite node_at_cons in H. cbn [along]. destruct (kid k (t_kids t)) as [c|] eqn:E; [|congruence].
  cbn [tl]. apply kid_some_in in E. destruct E as [_ E]. specialize (IH c H).
  destruct r; cbn [along map tl] in *; [rewrite E; reflexivity|]. rewrite E. f_equal. exact IH.
Qed.
Lemma along_leaf : forall ks t n, node_at t ks = Some n -> path_leaf (along t ks) = n.
Proof.
  unfold path_leaf. induction ks as [|k r IH]; intros t n H; [inversion H; reflexivity|].
  rewrite node_at_cons in H. cbn [along]. destruct (kid k (t_kids t)) as [c|] eqn:E; [|congruence].
  specialize (IH c n H). destruct r; exact IH.
Qed.
Lemma paths_nonnil : forall t, paths t <> [].
Proof.
  induction t as [v p c m ks IH] using tree_ind'. rewrite paths_eq. cbn [t_kids].
  destruct ks as [|k ks]; [discriminate|]. inversion IH; subst. cbn [flat_map].
  destruct (paths k); [congruence|discriminate].
Qed.
Lemma in_paths : forall d t, wft d t -> forall nodes,
  In nodes (paths t) <-> exists ks, length ks = d /\ node_at t ks <> None /\ nodes = along t ks.
Proof.
  induction d as [|d IH]; intros t W nodes.
  - destruct W as [_ W]. rewrite paths_eq, W. split.
    + intros [H|[]]. exists []. repeat split; [discriminate|]. subst. reflexivity.
    + intros (ks & H1 & _ & H2). destruct ks; [|discriminate]. subst. left. reflexivity.
  - destruct W as (_ & W1 & W2 & _ & W3). rewrite paths_eq. destruct (t_kids t) as [|k0 kk] eqn:K; [congruence|].
    rewrite <- K in *. clear W1. rewrite in_map_iff. split.
    + intros (x & H1 & H2). apply in_flat_map in H2. destruct H2 as (c & H2 & H3).
      rewrite Forall_forall in W3. apply (IH c (W3 c H2)) in H3. destruct H3 as (ks & H3 & H4 & H5).
      exists (t_piece c :: ks). rewrite node_at_cons. cbn [along length].
      rewrite (kid_in_nodup _ _ W2 H2). subst. auto.
    + intros (ks & H1 & H2 & H3). destruct ks as [|k ks]; [discriminate|]. rewrite node_at_cons in H2.
      cbn [along] in H3. destruct (kid k (t_kids t)) as [c|] eqn:E; [|congruence].
      apply kid_some_in in E. destruct E as [E1 E2]. exists (along c ks). split; [auto|].
      apply in_flat_map. exists c. split; [exact E1|]. rewrite Forall_forall in W3.
      apply (IH c (W3 c E1)). exists ks. injection H1 as H1. auto.
Qed.
Lemma NoDup_map_cons : forall A (x : A) l, NoDup l -> NoDup (map (cons x) l).
Proof.
  intros A x l H. induction H; cbn [map]; constructor; [|assumption].
  intros D. apply in_map_iff in D. destruct D as (y & D1 & D2). inversion D1; subst. auto.
Qed.
Lemma NoDup_app_intro : forall A (a b : list A), NoDup a -> NoDup b -> (forall x, In x a -> ~ In x b) -> NoDup (a ++ b).
Proof.
  intros A a b Ha Hb D. induction Ha as [|x a Hx Ha IH]; [exact Hb|]. cbn [app]. constructor.
  - intros I. apply in_app_or in I. destruct I as [I|I]; [auto|]. apply (D x); [left; reflexivity|exact I].
  - apply IH. intros y I. apply D. right. exact I.
Qed.
Lemma paths_head : forall t nodes, In nodes (paths t) -> exists r, nodes = t :: r.
Proof.
  intros t nodes H. rewrite paths_eq in H. destruct (t_kids t).
  - destruct H as [H|[]]. subst. exists []. reflexivity.
  - apply in_map_iff in H. destruct H as (r & H & _). subst. exists r. reflexivity.
Qed.
Lemma paths_NoDup : forall d t, wft d t -> NoDup (map path_pieces (paths t)).
Proof.
  induction d as [|d IH]; intros t W.
  - destruct W as [_ W]. rewrite paths_eq, W. repeat constructor. intros [].
  - destruct W as (_ & W1 & W2 & _ & W3). rewrite paths_eq. destruct (t_kids t) as [|k0 kk] eqn:K; [congruence|].
    clear W1 K. revert W2 W3. generalize (k0 :: kk). clear k0 kk. intros l W2 W3.
    rewrite map_map. unfold path_pieces at 1. cbn [tl].
    induction l as [|k l IHl]; [constructor|]. cbn [flat_map]. rewrite map_app.
    cbn [map] in W2. inversion W2; subst. inversion W3; subst.
    assert (Q : forall k, map (map t_piece) (paths k) = map (cons (t_piece k)) (map path_pieces (paths k))).
    { intros k'. rewrite map_map. apply map_ext_in. intros nodes I. apply paths_head in I.
      destruct I as (r & I). subst. reflexivity. }
    apply NoDup_app_intro.
    + rewrite Q. apply NoDup_map_cons. apply IH. assumption.
    + apply IHl; assumption.
    + intros x I J. rewrite Q in I. apply in_map_iff in I. destruct I as (y & I & _). subst x.
      apply in_map_iff in J. destruct J as (nodes & J1 & J2). apply in_flat_map in J2.
      destruct J2 as (k' & J2 & J3). apply paths_head in J3. destruct J3 as (r & J3). subst nodes.
      cbn [map] in J1. inversion J1. apply H1. rewrite <- H0. apply in_map. exact J2.
Qed.
Lemma in_paths_iff : forall d t, wft d t -> forall ks,
  In ks (map path_pieces (paths t)) <-> length ks = d /\ node_at t ks <> None.
Proof.
  intros d t W ks. rewrite in_map_iff. split.
  - intros (nodes & H1 & H2). apply (in_paths d t W) in H2. destruct H2 as (k' & H2 & H3 & H4). subst nodes.
    rewrite along_pieces in H1 by exact H3. subst. auto.
  - intros [H1 H2]. exists (along t ks). split; [apply along_pieces; exact H2|].
    apply (in_paths d t W). eauto.
Qed.
Lemma in_members : forall d t, wft d t -> forall ks m,
  In (ks, m) (members t) <-> length ks = d /\ node_at t ks <> None /\ m = meta_at t ks.
Proof.
  intros d t W ks m. unfold members. rewrite in_map_iff. split.
  - intros (nodes & H1 & H2). apply (in_paths d t W) in H2. destruct H2 as (k' & H2 & H3 & H4). subst nodes.
    rewrite along_pieces in H1 by exact H3. destruct (node_at t k') as [n|] eqn:E; [|congruence].
    rewrite (along_leaf _ _ n E) in H1. inversion H1; subst. unfold meta_at. rewrite E. auto.
  - intros (H1 & H2 & H3). exists (along t ks). split.
    + rewrite along_pieces by exact H2. destruct (node_at t ks) as [n|] eqn:E; [|congruence].
      rewrite (along_leaf _ _ n E). unfold meta_at in H3. rewrite E in H3. subst. reflexivity.
    + apply (in_paths d t W). eauto.
Qed.
Lemma members_fst : forall t, map fst (members t) = map path_pieces (paths t).
Proof. intros. unfold members. rewrite map_map. reflexivity. Qed.
Lemma members_NoDup : forall d t, wft d t -> NoDup (members t).
Proof.
  intros d t W. apply (NoDup_map_inv fst). rewrite members_fst. apply (paths_NoDup d). exact W.
Qed.

(** count of a node: the sum of the counts of the leaves below *)
Lemma cnt_paths : forall d t, wft d t ->
  t_cnt t = fold_right Z.add 0%Z (map (fun nodes => t_cnt (path_leaf nodes)) (paths t)).
Proof.
  induction d as [|d IH]; intros t W.
  - destruct W as [_ W]. rewrite paths_eq, W. cbn. lia.
  - destruct W as (_ & W1 & _ & W2 & W3). rewrite paths_eq. destruct (t_kids t) as [|k0 kk] eqn:K; [congruence|].
    rewrite W2. clear W1 W2 K. revert W3. generalize (k0 :: kk). intros l W3.
    rewrite map_map. induction W3 as [|k l H W3 IHl]; [reflexivity|].
    cbn [flat_map map fold_right]. rewrite map_app, sum_app, IHl, (IH k H). f_equal. f_equal.
    apply map_ext_in. intros nodes I. apply paths_head in I. destruct I as (r & I). subst nodes.
    unfold path_leaf. destruct r; reflexivity.
Qed.

(** ** dump_tree *)
Lemma dump_gen_spec : forall t nodes, exists tail,
  dump_gen t nodes = (map (app nodes) (paths t), nodes ++ t :: tail)
  /\ tail = [].
Proof.
  induction t as [v p c m ks IH] using tree_ind'. intros nodes. exists []. split; [|reflexivity].
  cbn [dump_gen leaf t_kids is_nil]. destruct ks as [|k0 kk].
  - cbn. reflexivity.
  - unfold leaf. cbn [is_nil t_kids]. rewrite paths_eq. cbn [t_kids].
    set (t := T v p c m (k0 :: kk)).
    assert (G : forall l, Forall (fun t => forall nodes, exists tail,
        dump_gen t nodes = (map (app nodes) (paths t), nodes ++ t :: tail) /\ tail = []) l ->
      (fix go (ks : list tree) (cur : list tree) : list (list tree) * list tree :=
         match ks with
         | [] => ([], cur)
         | k :: r => let '(ys, cur1) := dump_gen k cur in
                     let '(zs, cur2) := go r (removelast cur1) in (ys ++ zs, cur2)
         end) l (nodes ++ [t]) = (map (app nodes) (map (cons t) (flat_map paths l)), nodes ++ [t])).
    { clear IH. intros l IH. induction IH as [|k l H _ IHl]; [reflexivity|].
      cbn [flat_map]. destruct (H (nodes ++ [t])) as (tail & E & E2). subst tail. rewrite E.
      rewrite removelast_last. rewrite IHl. rewrite !map_app. f_equal.
      f_equal. rewrite !map_map. apply map_ext. intros x. rewrite <- app_assoc. reflexivity. }
    exact (G (k0 :: kk) IH).
Qed.
Lemma dump_gen_all : forall t, dump_gen t [] = (paths t, [t]).
Proof.
  intros t. destruct (dump_gen_spec t []) as (tail & E & E2). subst. rewrite E. cbn [app].
  f_equal. exact (map_id (paths t)).
Qed.

(** ** Values of the nodes, level by level *)
Fixpoint vals_ok (Ps : list (parsed_piece -> Prop)) (t : tree) : Prop :=
  match Ps with
  | [] => True
  | P :: Ps' => Forall (fun k => P (t_val k) /\ vals_ok Ps' k) (t_kids t)
  end.
Lemma vals_ok_leaf : forall Ps t, t_kids t = [] -> vals_ok Ps t.
Proof. intros [|P Ps] t H; [exact I|]. cbn [vals_ok]. rewrite H. constructor. Qed.
Lemma build_vals : forall f count kvs Ps t new, vals_ok Ps t ->
  Forall2 (fun (P : parsed_piece -> Prop) (kv : parsed_piece * option str) => P (fst kv)) Ps kvs ->
  vals_ok Ps (fst (build t kvs count f new)).
Proof.
  intros f count. induction kvs as [|[pp pat] r IH]; intros Ps t new V F; inversion F as [|P kv Ps' kvs' HP HF]; subst.
  - exact I.
  - cbn [vals_ok fst] in *. rewrite build_kids.
    destruct (kid_split (piece pp) (t_kids t)) as [[[a k] b]|] eqn:E.
    + apply kid_split_some in E. destruct E as (E1 & E2 & E3). rewrite E1 in V. apply Forall_app in V.
      destruct V as [V1 V2]. inversion V2; subst. apply Forall_app. split; [exact V1|].
      constructor; [|assumption]. rewrite build_val. match goal with H : _ /\ _ |- _ => destruct H as [H31 H32] end.
      split; [exact H31|]. apply IH; assumption.
    + apply Forall_app. split; [exact V|]. constructor; [|constructor]. rewrite build_val. cbn [t_val].
      split; [assumption|]. apply IH; [|assumption]. apply vals_ok_leaf. reflexivity.
Qed.
Lemma upd_meta_vals : forall f ks Ps t, vals_ok Ps t -> vals_ok Ps (upd_meta t ks f).
Proof.
  intros f. induction ks as [|k r IH]; intros [|P Ps] [v p c m kk] V; try exact I.
  - exact V.
  - cbn [upd_meta vals_ok t_kids] in *. destruct (kid_split k kk) as [[[a x] b]|] eqn:E; [|exact V].
    apply kid_split_some in E. destruct E as (E1 & E2 & E3). subst kk. apply Forall_app in V.
    destruct V as [V1 V2]. inversion V2; subst. apply Forall_app. split; [exact V1|].
    constructor; [|assumption]. rewrite upd_meta_val. destruct H1 as [H11 H12]. split; [exact H11|].
    apply IH. exact H12.
Qed.
