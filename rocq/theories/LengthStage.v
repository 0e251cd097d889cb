(** The length and fuzzy clusters: what they do to a list of bags. *)
From Coq Require Import String.
From Verif Require Import PyStr Defs ParseUtils Views Trees Cluster PyStrProofs DictProofs GroupProofs.
From Coq Require Import Lia Permutation.

Lemma cls_eqb_eq : forall a b, cls_eqb a b = true <-> a = b.
Proof. intros [] []; cbn; split; congruence. Qed.

Definition plen (p : parsed_piece) : Z := match piece_length p with Ok n => n | Err _ => 0%Z end.

Lemma confused_self : forall c t, (2 <= t)%Z -> confused c c t = false.
Proof.
  intros c t H. unfold confused. destruct (c <? t)%Z eqn:E; [reflexivity|]. apply Z.ltb_ge in E.
  replace (c - c)%Z with 0%Z by lia. destruct (t <=? 0)%Z eqn:E2; [apply Z.leb_le in E2; lia|].
  rewrite Bool.andb_false_r. apply Z.ltb_ge. lia.
Qed.

Lemma max_count_ok : forall l, l <> [] -> exists m, max_count l = Ok m.
Proof. intros [|x l] H; [congruence|]. eexists. reflexivity. Qed.
Lemma fold_max_ge : forall l x, (x <= fold_left Z.max l x)%Z /\ Forall (fun y => y <= fold_left Z.max l x)%Z l.
Proof.
  induction l as [|y l IH]; intros x; cbn [fold_left]; [split; [lia|constructor]|].
  destruct (IH (Z.max x y)) as [A B]. split; [lia|]. constructor; [lia|exact B].
Qed.
Lemma fold_max_in : forall l x, In (fold_left Z.max l x) (x :: l).
Proof.
  induction l as [|y l IH]; intros x; cbn [fold_left]; [left; reflexivity|].
  destruct (IH (Z.max x y)) as [A|A].
  - rewrite <- A. destruct (Z.max_spec x y) as [[_ ->]|[_ ->]]; [right; left|left]; reflexivity.
  - right. right. exact A.
Qed.
Lemma max_count_spec : forall l m, max_count l = Ok m -> In m l /\ Forall (fun y => y <= m)%Z l.
Proof.
  intros [|x l] m H; [discriminate|]. cbn in H. inversion H; subst; clear H. split; [apply fold_max_in|].
  destruct (fold_max_ge l x). constructor; assumption.
Qed.

(** two big members make the whole confused *)
Lemma confused_two : forall l m t i j, max_count l = Ok m -> Forall (fun z => 0 < z)%Z l ->
  i <> j -> (t <= nth i l 0)%Z -> (t <= nth j l 0)%Z -> (i < length l)%nat -> (j < length l)%nat -> (0 < t)%Z ->
  confused (zsum l) m t = true.
Proof.
  intros l m t i j M P N Hi Hj Li Lj T. apply max_count_spec in M. destruct M as [M1 M2].
  apply In_nth with (d := 0%Z) in M1. destruct M1 as (k & Lk & M1).
  rewrite Forall_forall in M2. assert (Mi : (t <= m)%Z) by (specialize (M2 (nth i l 0)%Z (nth_In _ _ Li)); lia).
  assert (E : exists j', j' <> k /\ (j' < length l)%nat /\ (t <= nth j' l 0)%Z).
  { destruct (Nat.eq_dec i k) as [->|D]; [exists j|exists i]; auto. }
  destruct E as (j' & E1 & E2 & E3).
  assert (O : forall l k j', k <> j' -> (k < length l)%nat -> (j' < length l)%nat -> Forall (fun z => 0 < z)%Z l ->
     (nth k l 0 + nth j' l 0 <= zsum l)%Z).
  { clear. assert (Z1 : forall l j, (j < length l)%nat -> Forall (fun z => 0 < z)%Z l -> (nth j l 0 <= zsum l)%Z).
    { induction l as [|x l IH]; intros j Lj F; [cbn in Lj; lia|]. inversion F as [|? ? F1 F2]; subst. cbn [zsum fold_right].
      fold (zsum l). pose proof (zsum_pos l F2). destruct j; cbn [nth]; [lia|]. cbn in Lj. specialize (IH j ltac:(lia) F2). lia. }
    induction l as [|x l IH]; intros k j N Lk Lj F; [cbn in Lj; lia|]. inversion F as [|? ? F1 F2]; subst.
    cbn [zsum fold_right]. fold (zsum l). cbn in Lk, Lj. destruct k, j; cbn [nth]; try congruence.
    - specialize (Z1 l j ltac:(lia) F2). lia.
    - specialize (Z1 l k ltac:(lia) F2). lia.
    - specialize (IH k j ltac:(lia) ltac:(lia) ltac:(lia) F2). lia. }
  specialize (O l k j' (fun e => E1 (eq_sym e)) Lk E2 P). rewrite M1 in O.
  unfold confused. destruct (zsum l <? t)%Z eqn:A; [apply Z.ltb_lt in A; lia|].
  assert ((t <=? m)%Z = true) as -> by (apply Z.leb_le; exact Mi).
  assert ((t <=? zsum l - m)%Z = true) as -> by (apply Z.leb_le; lia). reflexivity.
Qed.

Section LF.
  Context (mcn : Z) (M2 : (2 <= mcn)%Z) (level : nat) (L1 : (1 <= level)%nat).
  Context (F : str).

  Definition item_ok (i : item) : Prop :=
    piece_length (it_pp i) = Ok (plen (it_pp i)) /\ (0 <= plen (it_pp i))%Z
    /\ (plen (it_pp i) = 0%Z -> it_piece i = []) /\ fuzzy_rule (it_pp i) = F
    /\ it_pat i = it_piece i /\ (0 < it_count i)%Z.
  Notation pl i := (plen (it_pp i)).

  Lemma pre_seek_false : forall l, pre_seek mcn level l = Ok false.
  Proof.
    intros l. unfold pre_seek. destruct level as [|[|n]]; [lia|reflexivity|]. cbn [seek_loop].
    unfold piece_seek. destruct (_ <=? _)%Z; reflexivity.
  Qed.

  Lemma len_fold : forall l, Forall item_ok l -> NoDup (map it_piece l) ->
    foldM len_add l [] = Ok (dgroup Z.eqb (fun i => pl i) (fun i => i) l).
  Proof.
    assert (G : forall l l0, Forall item_ok l -> NoDup (map it_piece (l0 ++ l)) ->
      foldM len_add l (dgroup Z.eqb (fun i => pl i) (fun i => i) l0)
      = Ok (dgroup Z.eqb (fun i => pl i) (fun i => i) (l0 ++ l))).
    { induction l as [|i l IH]; intros l0 FA ND; [rewrite app_nil_r; reflexivity|].
      inversion FA as [|? ? Hi FA']; subst. cbn [foldM]. unfold len_add at 1. destruct Hi as (Hi & _).
      rewrite Hi. cbn [bind].
      assert (E : dget Z.eqb (pl i) (dgroup Z.eqb (fun i => pl i) (fun i => i) l0) =
        match filter (fun x => Z.eqb (pl i) (pl x)) l0 with [] => None | f => Some f end).
      { rewrite dgroup_get by exact Z.eqb_eq. destruct (filter _ l0) as [|x r]; [reflexivity|]. rewrite map_id. reflexivity. }
      pose proof (dgroup_snoc Z.eqb (fun i => pl i) (fun i : item => i) l0 i) as SN. cbv beta in SN.
      assert (A : l0 ++ i :: l = (l0 ++ [i]) ++ l) by (rewrite <- app_assoc; reflexivity).
      destruct (filter (fun x => Z.eqb (pl i) (pl x)) l0) as [|x r] eqn:FL.
      - rewrite E in SN |- *. cbn [bind dstep] in *. rewrite dset_append in SN by exact E. rewrite <- SN, A.
        apply IH; [assumption|]. rewrite <- A. exact ND.
      - rewrite E in SN |- *. cbn [dstep] in SN.
        assert (NI : str_in (it_piece i) (map it_piece (x :: r)) = false).
        { destruct (str_in (it_piece i) (map it_piece (x :: r))) eqn:Q; [|reflexivity]. exfalso.
          apply str_in_In in Q. rewrite map_app in ND. cbn [map] in ND. apply NoDup_remove_2 in ND. apply ND.
          apply in_app_iff. left. apply in_map_iff in Q. destruct Q as (y & Q1 & Q2). rewrite <- Q1. apply in_map.
          rewrite <- FL in Q2. apply filter_In in Q2. apply Q2. }
        rewrite NI. cbn [bind]. rewrite <- SN, A. apply IH; [assumption|]. rewrite <- A. exact ND. }
    intros l FA ND. apply (G l [] FA ND).
  Qed.

  (** the buckets by length *)
  Definition buckets (l : list item) : list (list item) := map snd (dgroup Z.eqb (fun i => pl i) (fun i => i) l).
  Lemma buckets_perm : forall l, Permutation (List.concat (buckets l)) l.
  Proof.
    intros l. unfold buckets. rewrite <- flat_map_concat_map. apply dgroup_perm. exact Z.eqb_eq.
  Qed.
  Lemma bucket_in : forall l b, In b (buckets l) ->
    b <> [] /\ exists n, b = filter (fun x => Z.eqb n (pl x)) l.
  Proof.
    intros l b H. unfold buckets in H. apply in_map_iff in H. destruct H as ([k b'] & H1 & H2). cbn in H1. subst b'.
    apply dgroup_in in H2; [|exact Z.eqb_eq]. destruct H2 as [H2 H3]. rewrite map_id in H2. eauto.
  Qed.
  Lemma bucket_same : forall l b b' i i', In b (buckets l) -> In b' (buckets l) -> In i b -> In i' b' ->
    pl i = pl i' -> b = b'.
  Proof.
    intros l b b' i i' H H' I I' E. apply bucket_in in H. apply bucket_in in H'.
    destruct H as [_ [n H]], H' as [_ [n' H']]. subst. apply filter_In in I. apply filter_In in I'.
    destruct I as [_ I], I' as [_ I']. apply Z.eqb_eq in I. apply Z.eqb_eq in I'.
    assert (n = n') as -> by congruence. reflexivity.
  Qed.
  Lemma buckets_NoDup : forall l, NoDup (buckets l).
  Proof.
    intros l. unfold buckets.
    assert (G : forall d : list (Z * list item), NoDup (map fst d) ->
       (forall k b, In (k, b) d -> b <> [] /\ forall x, In x b -> pl x = k) -> NoDup (map snd d)).
    { induction d as [|[k b] d IH]; intros ND H; [constructor|]. cbn [map fst snd] in *. inversion ND; subst. constructor.
      - intros I. apply in_map_iff in I. destruct I as ([k' b'] & I1 & I2). cbn in I1. subst b'.
        destruct (H k b (or_introl eq_refl)) as [B1 B2]. destruct (H k' b (or_intror I2)) as [_ B3].
        destruct b as [|x b]; [congruence|]. assert (k = k').
        { rewrite <- (B2 x), <- (B3 x) by (left; reflexivity). reflexivity. }
        subst. apply H2. apply in_map_iff. exists (k', x :: b). auto.
      - apply IH; [assumption|]. intros. apply H. right. assumption. }
    apply G; [apply dgroup_NoDup; exact Z.eqb_eq|]. intros k b H. apply dgroup_in in H; [|exact Z.eqb_eq].
    destruct H as [H1 H2]. split; [exact H2|]. rewrite map_id in H1. subst b. intros x I. apply filter_In in I.
    destruct I as [_ I]. apply Z.eqb_eq in I. congruence.
  Qed.
  Lemma buckets_nil : forall l, buckets l = [] -> l = [].
  Proof.
    intros l H. unfold buckets in H. apply map_eq_nil in H. eapply dgroup_nil; [exact Z.eqb_eq|exact H].
  Qed.

  Lemma lb_count_pos : forall l, l <> [] -> Forall item_ok l -> (0 < lb_count l)%Z.
  Proof.
    intros [|i l] H FA; [congruence|]. unfold lb_count.
    assert (P : Forall (fun z => 0 < z)%Z (map it_count (i :: l))).
    { rewrite Forall_map. eapply Forall_impl; [|exact FA]. intros a Ha. apply Ha. }
    apply zsum_pos in P. rewrite map_length in P. cbn [length] in P. lia.
  Qed.
  Lemma lac_one : forall i, length_as_cluster mcn [i] = Ok false.
  Proof.
    intros i. unfold length_as_cluster. cbn [length]. destruct (Z.of_nat 1 <? mcn)%Z eqn:E; [|apply Z.ltb_ge in E; lia].
    destruct (lb_count [i] <? mcn)%Z; [reflexivity|]. cbn [max_count map fold_left bind]. unfold lb_count. cbn [map zsum fold_right].
    replace (it_count i + 0)%Z with (it_count i) by lia. rewrite confused_self by exact M2. reflexivity.
  Qed.
  Lemma lac_ok : forall b, exists y, length_as_cluster mcn b = Ok y /\
    (y = true -> (2 <= length b)%nat /\ (Forall item_ok b -> mcn <= lb_count b)%Z).
  Proof.
    intros [|i [|j b]].
    - exists false. unfold length_as_cluster. cbn [length]. destruct (_ <? _)%Z eqn:E; [|apply Z.ltb_ge in E; lia].
      cbn. destruct (0 <? mcn)%Z eqn:E2; [split; [reflexivity|discriminate]|]. apply Z.ltb_ge in E2. lia.
    - exists false. split; [apply lac_one|discriminate].
    - unfold length_as_cluster. destruct (_ <? _)%Z eqn:E.
      + destruct (lb_count _ <? mcn)%Z eqn:E2; [exists false; split; [reflexivity|discriminate]|].
        apply Z.ltb_ge in E2. destruct (max_count_ok (map it_count (i :: j :: b))) as [m Hm]; [discriminate|].
        rewrite Hm. cbn [bind]. eexists. split; [reflexivity|]. intros _. split; [cbn; lia|]. intros _. exact E2.
      + exists true. split; [reflexivity|]. intros _. split; [cbn; lia|]. intros FA. apply Z.ltb_ge in E.
        assert (P : Forall (fun z => 0 < z)%Z (map it_count (i :: j :: b))).
        { rewrite Forall_map. eapply Forall_impl; [|exact FA]. intros a Ha. apply Ha. }
        apply zsum_pos in P. rewrite map_length in P. unfold lb_count. lia.
  Qed.

  (** what a bucket of at least two bags gets *)
  Lemma length_pattern_ok : forall b i, Forall item_ok b -> (2 <= length b)%nat -> NoDup (map it_piece b) ->
    (forall j, In j b -> pl j = pl i) ->
    exists p, length_pattern b = Ok p /\ specify_rule F (pl i) = Ok p /\ (1 <= pl i)%Z.
  Proof.
    intros [|x [|y b]] i FA LE ND SM; try (cbn in LE; lia).
    inversion FA as [|? ? Hx FA1]; subst. inversion FA1 as [|? ? Hy _]; subst.
    assert (N : pl i <> 0%Z).
    { intros Z. cbn [map] in ND. inversion ND as [|? ? ND1 _]; subst. apply ND1. left.
      destruct Hx as (_ & _ & Hx & _), Hy as (_ & _ & Hy & _).
      rewrite Hx, Hy; [reflexivity| |]; rewrite SM; auto; [right; left; reflexivity|left; reflexivity]. }
    cbn [length_pattern]. destruct Hx as (H1 & H2 & _ & H3 & _). rewrite H1. cbn [bind]. rewrite H3.
    rewrite (SM x (or_introl eq_refl)) in *. assert (1 <= pl i)%Z by lia.
    unfold specify_rule. destruct (pl i =? 1)%Z eqn:E1; [eauto|]. apply Z.eqb_neq in E1. destruct (pl i <? 0)%Z eqn:E; [apply Z.ltb_lt in E; lia|].
    destruct (1 <? pl i)%Z eqn:E2; [eauto|]. apply Z.ltb_ge in E2. lia.
  Qed.

  (** the three outcomes *)
  Inductive outcome (l : list item) : done -> Prop :=
  | OLit : forall c d, Permutation d (map (fun i => (c, it_piece i, it_piece i)) l) -> outcome l d
  | OSpec : forall n p d i j, specify_rule F n = Ok p -> (1 <= n)%Z -> In i l -> In j l -> it_piece i <> it_piece j ->
      pl i = n -> pl j = n ->
      (mcn <= lb_count (filter (fun i => Z.eqb n (pl i)) l))%Z ->
      Permutation d (map (fun i => (CLength, it_piece i, if (pl i =? n)%Z then p else it_piece i)) l) ->
      outcome l d
  | OWild : forall p d i j, wildcard_rule F = Ok p -> In i l -> In j l -> pl i <> pl j ->
      (mcn <= lb_count l)%Z ->
      Permutation d (map (fun i => (CFuzzy, it_piece i, p)) l) -> outcome l d.

  Lemma finish_perm : forall c a b, Permutation a b -> Permutation (finish c a) (finish c b).
  Proof. intros. unfold finish. apply Permutation_map. assumption. Qed.
  Lemma finish_lit : forall c l, Forall item_ok l -> finish c l = map (fun i => (c, it_piece i, it_piece i)) l.
  Proof.
    intros c l H. unfold finish. apply map_ext_in. intros i I. rewrite Forall_forall in H. apply H in I.
    destruct I as (_ & _ & _ & _ & -> & _). reflexivity.
  Qed.
  Lemma finish_set : forall c p l, finish c (map (set_pat p) l) = map (fun i => (c, it_piece i, p)) l.
  Proof. intros. unfold finish. rewrite map_map. reflexivity. Qed.

  Lemma lb_count_perm : forall a b, Permutation a b -> lb_count a = lb_count b.
  Proof. intros. unfold lb_count. apply zsum_perm. apply Permutation_map. assumption. Qed.
  Lemma lb_concat : forall bs, lb_count (List.concat bs) = zsum (map lb_count bs).
  Proof.
    intros bs. induction bs as [|b bs IH]; [reflexivity|]. cbn [List.concat map zsum fold_right]. unfold lb_count in *.
    rewrite map_app, zsum_app. fold (zsum (map (fun b => zsum (map it_count b)) bs)). unfold lb_count in IH. rewrite IH. reflexivity.
  Qed.

  Lemma mapM_pure : forall A B (f : A -> res B) (g : A -> B) l, (forall x, In x l -> f x = Ok (g x)) -> mapM f l = Ok (map g l).
  Proof.
    intros A B f g l. induction l as [|x l IH]; intros H; [reflexivity|]. cbn [mapM map].
    rewrite H by (left; reflexivity). cbn [bind]. rewrite IH; [reflexivity|]. intros. apply H. right. assumption.
  Qed.
  Lemma NoDup_bucket : forall l b, NoDup (map it_piece l) -> In b (buckets l) -> NoDup (map it_piece b).
  Proof.
    intros l b H I. apply bucket_in in I. destruct I as [_ [n ->]]. clear - H.
    induction l as [|x l IH]; [constructor|]. cbn [map filter] in *. inversion H; subst.
    destruct (n =? pl x)%Z; cbn [map]; auto. constructor; [|auto]. intros I. apply H2.
    apply in_map_iff in I. destruct I as (y & I1 & I2). apply filter_In in I2. rewrite <- I1. apply in_map. apply I2.
  Qed.
  Lemma bucket_ok : forall l b, Forall item_ok l -> In b (buckets l) -> Forall item_ok b.
  Proof.
    intros l b H I. apply bucket_in in I. destruct I as [_ [n ->]]. apply Forall_forall. intros x Hx.
    apply filter_In in Hx. rewrite Forall_forall in H. apply H. apply Hx.
  Qed.
  Lemma two_diff : forall (b : list item), (2 <= length b)%nat -> NoDup (map it_piece b) ->
    exists i j, In i b /\ In j b /\ it_piece i <> it_piece j.
  Proof.
    intros [|x [|y b]] H ND; try (cbn in H; lia). exists x, y. split; [left; reflexivity|]. split; [right; left; reflexivity|].
    cbn [map] in ND. inversion ND as [|? ? H1 _]; subst. intros E. apply H1. left. congruence.
  Qed.

  (** fuzzy_stage turns everything into the wildcard *)
  Lemma fuzzy_set_ok : forall fp bs w, wildcard_rule F = Ok w -> (fp = None \/ fp = Some w) ->
    (exists i, In i (List.concat bs)) -> (forall i, In i (List.concat bs) -> fuzzy_rule (it_pp i) = F) ->
    fuzzy_set fp bs = Ok (w, map (fun i => (CFuzzy, it_piece i, w)) (List.concat bs)).
  Proof.
    intros fp bs w W [->| ->] [i I] H; unfold fuzzy_set.
    - destruct (List.concat bs) as [|x r] eqn:E; [destruct I|]. rewrite H by (left; reflexivity). rewrite W. cbn [bind].
      rewrite finish_set. reflexivity.
    - cbn [bind]. rewrite finish_set. reflexivity.
  Qed.
  Lemma fuzzy_fold : forall w, wildcard_rule F = Ok w -> forall bs cached force fp dn,
      (forall b, In b bs -> b <> []) -> (forall i, In i (List.concat bs) -> fuzzy_rule (it_pp i) = F) ->
      (fp = None \/ fp = Some w) -> (force = false -> fp = None /\ dn = []) ->
      force = (mcn <=? Z.of_nat (length cached))%Z ->
      exists c2 fp2 dn2, foldM (fuzzy_add mcn) bs (cached, force, fp, dn) = Ok (c2, (mcn <=? Z.of_nat (length c2))%Z, fp2, dn2)
        /\ (fp2 = None \/ fp2 = Some w)
        /\ (if force then c2 = cached /\ dn2 = dn ++ map (fun i => (CFuzzy, it_piece i, w)) (List.concat bs)
            else exists r, cached ++ bs = c2 ++ r /\ dn2 = map (fun i => (CFuzzy, it_piece i, w)) (List.concat r)
                 /\ ((mcn <=? Z.of_nat (length c2))%Z = false -> r = [])).
  Proof.
    intros w W. induction bs as [|b bs IH]; intros cached force fp dn NB HF FP FD EF.
      - cbn [foldM]. exists cached, fp, dn. split; [rewrite EF; reflexivity|]. split; [exact FP|].
        destruct force; [split; [reflexivity|rewrite app_nil_r; reflexivity]|]. exists []. rewrite app_nil_r.
        split; [reflexivity|]. split; [apply FD; reflexivity|reflexivity].
      - cbn [foldM]. destruct force eqn:FC.
        + cbn [fuzzy_add]. rewrite (fuzzy_set_ok fp [b] w W FP).
          * cbn [bind]. cbn [List.concat]. rewrite app_nil_r.
            destruct (IH cached true (Some w) (dn ++ map (fun i => (CFuzzy, it_piece i, w)) b)) as (c2 & fp2 & dn2 & A1 & A2 & A3 & A4).
            -- intros. apply NB. right. assumption.
            -- intros. apply HF. cbn [List.concat]. apply in_app_iff. right. assumption.
            -- right. reflexivity.
            -- discriminate.
            -- exact EF.
            -- exists c2, fp2, dn2. split; [exact A1|]. split; [exact A2|]. split; [exact A3|]. rewrite A4, map_app, app_assoc. reflexivity.
          * cbn [List.concat]. rewrite app_nil_r. destruct b as [|x b]; [exfalso; apply (NB []); [left|]; reflexivity|]. exists x. left. reflexivity.
          * cbn [List.concat]. rewrite app_nil_r. intros i I. apply HF. cbn [List.concat]. apply in_app_iff. left. exact I.
        + cbn [fuzzy_add]. destruct (FD eq_refl) as [FD1 FD2]. subst fp dn. cbn [bind].
          destruct (IH (cached ++ [b]) (mcn <=? Z.of_nat (length (cached ++ [b])))%Z None []) as (c2 & fp2 & dn2 & A1 & A2 & A3).
          -- intros. apply NB. right. assumption.
          -- intros. apply HF. cbn [List.concat]. apply in_app_iff. right. assumption.
          -- left. reflexivity.
          -- intros. split; reflexivity.
          -- reflexivity.
          -- exists c2, fp2, dn2. split; [exact A1|]. split; [exact A2|].
             destruct (mcn <=? Z.of_nat (length (cached ++ [b])))%Z eqn:LE.
             ++ destruct A3 as [A3 A4]. subst c2. exists bs. rewrite <- app_assoc. split; [reflexivity|]. split; [exact A4|].
                intros. congruence.
             ++ destruct A3 as (r & A3 & A4 & A5). exists r. rewrite <- app_assoc in A3. auto.
  Qed.
  Lemma fuzzy_wild : forall bs w, wildcard_rule F = Ok w -> bs <> [] ->
    (forall b, In b bs -> b <> []) -> (forall i, In i (List.concat bs) -> fuzzy_rule (it_pp i) = F) ->
    ((mcn <= Z.of_nat (length bs))%Z \/
     (mcn <= zsum (map lb_count bs))%Z /\ exists m, max_count (map lb_count bs) = Ok m /\ confused (zsum (map lb_count bs)) m mcn = true) ->
    exists d, fuzzy_stage mcn bs = Ok d /\ Permutation d (map (fun i => (CFuzzy, it_piece i, w)) (List.concat bs)).
  Proof.
    intros bs w W NE NB HF C.
    destruct (fuzzy_fold w W bs [] false None [] NB HF (or_introl eq_refl) (fun _ => conj eq_refl eq_refl)) as (c2 & fp2 & dn2 & A1 & A2 & r & A3 & A4 & A5).
    { symmetry. apply Z.leb_gt. cbn. lia. }
    unfold fuzzy_stage, fuzzy_end. rewrite A1. cbn [bind app] in *.
    assert (S2 : forall i, In i (List.concat c2) -> In i (List.concat bs)).
    { intros i I. rewrite A3, concat_app. apply in_app_iff. left. exact I. }
    assert (NC : c2 <> [] -> exists i, In i (List.concat c2)).
    { intros N. destruct c2 as [|b c2']; [congruence|]. destruct b as [|x b].
      - exfalso. apply (NB []); [rewrite A3; left|]; reflexivity.
      - exists x. left. reflexivity. }
    destruct (mcn <=? Z.of_nat (length c2))%Z eqn:LE.
    - rewrite (fuzzy_set_ok fp2 c2 w W A2).
      + cbn [bind]. eexists. split; [reflexivity|]. rewrite A4, A3, concat_app, map_app. apply Permutation_app_comm.
      + apply NC. intros ->. apply Z.leb_le in LE. cbn in LE. lia.
      + intros i I. apply HF. apply S2. exact I.
    - rewrite (A5 eq_refl), app_nil_r in A3. subst c2. apply Z.leb_gt in LE.
      destruct C as [C|[C1 [m [C2 C3]]]]; [lia|]. destruct (_ <? _)%Z eqn:LT; [apply Z.ltb_lt in LT; lia|].
      rewrite C2. cbn [bind]. rewrite C3. rewrite (fuzzy_set_ok fp2 bs w W A2 (NC NE) HF). cbn [bind].
      eexists. split; [reflexivity|]. rewrite A4, (A5 eq_refl). apply Permutation_refl.
  Qed.

  Definition lac (b : list item) : bool := match length_as_cluster mcn b with Ok y => y | Err _ => false end.
  Lemma lac_eq : forall b, length_as_cluster mcn b = Ok (lac b).
  Proof. intros b. unfold lac. destruct (lac_ok b) as (y & -> & _). reflexivity. Qed.
  Definition bpat (b : list item) : str := match length_pattern b with Ok p => p | Err _ => [] end.
  Lemma bpat_eq : forall l b, Forall item_ok l -> NoDup (map it_piece l) -> In b (buckets l) -> lac b = true ->
    length_pattern b = Ok (bpat b).
  Proof.
    intros l b FA ND I Y. destruct (lac_ok b) as (y & Hy & Q). unfold lac in Y. rewrite Hy in Y. subst y.
    destruct (Q eq_refl) as [Q1 _]. pose proof (bucket_in l b I) as [NE [n B]].
    destruct b as [|x b]; [congruence|].
    destruct (length_pattern_ok (x :: b) x) as (p & P1 & _); auto.
    - eapply bucket_ok; eauto.
    - eapply NoDup_bucket; eauto.
    - intros j J. assert (Hx : In x (x :: b)) by (left; reflexivity). rewrite B in J, Hx. apply filter_In in J. apply filter_In in Hx.
      destruct J as [_ J], Hx as [_ Hx]. apply Z.eqb_eq in J. apply Z.eqb_eq in Hx. congruence.
    - unfold bpat. rewrite P1. reflexivity.
  Qed.
  Lemma wildcard_ok : exists w, wildcard_rule F = Ok w.
  Proof. eexists. reflexivity. Qed.

  Lemma lf_spec : forall l, l <> [] -> Forall item_ok l -> NoDup (map it_piece l) ->
    exists d4 bs d5, length_stage mcn level l = Ok (d4, bs) /\ fuzzy_stage mcn bs = Ok d5 /\ outcome l (d4 ++ d5).
  Proof.
    intros l NE FA ND. unfold length_stage. rewrite len_fold by assumption. cbn [bind]. fold (buckets l).
    pose proof (buckets_perm l) as BP. pose proof (buckets_NoDup l) as BN.
    assert (BNE : buckets l <> []) by (intros E; apply NE; apply buckets_nil; exact E).
    assert (BNB : forall b, In b (buckets l) -> b <> []) by (intros b I; apply (bucket_in l b I)).
    assert (POS : Forall (fun z => 0 < z)%Z (map lb_count (buckets l))).
    { rewrite Forall_map. apply Forall_forall. intros b I. apply lb_count_pos; [apply BNB; exact I|]. eapply bucket_ok; eauto. }
    destruct (max_count_ok (map lb_count (buckets l))) as [m Hm].
    { intros E. apply map_eq_nil in E. auto. }
    (* the loop branch *)
    assert (LOOP : ((mcn <= Z.of_nat (length (buckets l)))%Z \/
        confused (zsum (map lb_count (buckets l))) m mcn = true) ->
      exists d4 bs d5, (r <- mapM (length_one mcn level) (buckets l) ;; Ok (List.concat (lefts r), rights r)) = Ok (d4, bs)
        /\ fuzzy_stage mcn bs = Ok d5 /\ outcome l (d4 ++ d5)).
    { intros C.
      set (g := fun b => if lac b then map (set_pat (bpat b)) b else b).
      rewrite (mapM_pure _ _ _ (fun b => inr (g b))).
      2: { intros b I. unfold length_one. rewrite lac_eq. cbn [bind]. unfold g. destruct (lac b) eqn:Y; [|reflexivity].
           rewrite pre_seek_false. cbn [bind]. rewrite (bpat_eq l) by assumption. reflexivity. }
      cbn [bind].
      assert (LR : forall bs, List.concat (lefts (map (fun b => @inr done (list item) (g b)) bs)) = []
               /\ rights (map (fun b => @inr done (list item) (g b)) bs) = map g bs).
      { induction bs as [|b bs [IH1 IH2]]; [split; reflexivity|]. cbn [map lefts rights]. rewrite IH2. auto. }
      destruct (LR (buckets l)) as [LR1 LR2]. rewrite LR1, LR2. clear LR LR1 LR2.
      assert (GC : forall b, lb_count (g b) = lb_count b).
      { intros b. unfold g. destruct (lac b); [|reflexivity]. unfold lb_count. rewrite map_map. reflexivity. }
      assert (GCM : map lb_count (map g (buckets l)) = map lb_count (buckets l)).
      { rewrite map_map. apply map_ext. exact GC. }
      assert (TOT : zsum (map lb_count (buckets l)) = lb_count l).
      { rewrite <- lb_concat. apply lb_count_perm. exact BP. }
      assert (GE : (mcn <= lb_count l)%Z).
      { destruct C as [C|C].
        - apply zsum_pos in POS. rewrite map_length in POS. lia.
        - unfold confused in C. destruct (_ <? _)%Z eqn:LT; [discriminate|]. apply Z.ltb_ge in LT. lia. }
      destruct wildcard_ok as [w W].
      destruct (fuzzy_wild (map g (buckets l)) w W) as (d5 & D1 & D2).
      - intros E. apply map_eq_nil in E. auto.
      - intros b I. apply in_map_iff in I. destruct I as (b0 & I1 & I2). subst b. unfold g. apply BNB in I2.
        destruct (lac b0); [|exact I2]. intros E. apply map_eq_nil in E. auto.
      - intros i I. apply in_concat in I. destruct I as (b & I1 & I2). apply in_map_iff in I1.
        destruct I1 as (b0 & I1 & I3). subst b. pose proof (bucket_ok l b0 FA I3) as OK. rewrite Forall_forall in OK.
        unfold g in I2. destruct (lac b0).
        + apply in_map_iff in I2. destruct I2 as (i0 & I2 & I4). subst i. apply OK in I4. cbn [set_pat it_pp]. apply I4.
        + apply OK in I2. apply I2.
      - rewrite map_length, GCM, TOT. destruct C as [C|C]; [left; exact C|]. right. split; [exact GE|].
        exists m. rewrite TOT in C. auto.
      - exists [], (map g (buckets l)), d5. split; [reflexivity|]. split; [exact D1|]. cbn [app].
        assert (TWO : exists i j, In i l /\ In j l /\ pl i <> pl j).
        { assert (LE : (2 <= length (buckets l))%nat).
          { destruct C as [C|C]; [lia|]. destruct (buckets l) as [|b [|b' bs]] eqn:E; [congruence| |cbn; lia].
            exfalso. cbn in Hm. inversion Hm; subst m. cbn [map zsum fold_right] in C. rewrite Z.add_0_r in C.
            rewrite confused_self in C by exact M2. discriminate. }
          destruct (buckets l) as [|b [|b' bs]] eqn:E; try (cbn in LE; lia).
          assert (Ib : In b (buckets l)) by (rewrite E; left; reflexivity).
          assert (Ib' : In b' (buckets l)) by (rewrite E; right; left; reflexivity).
          destruct b as [|i b]; [exfalso; exact (BNB [] (or_introl eq_refl) eq_refl)|].
          destruct b' as [|j b']; [exfalso; exact (BNB [] (or_intror (or_introl eq_refl)) eq_refl)|].
          exists i, j. split; [|split].
          - eapply Permutation_in; [exact BP|]. cbn [List.concat app]. left. reflexivity.
          - eapply Permutation_in; [exact BP|]. cbn [List.concat]. apply in_app_iff. right. left. reflexivity.
          - intros EQ. pose proof (bucket_same l _ _ i j Ib Ib' (or_introl eq_refl) (or_introl eq_refl) EQ) as X.
            rewrite X in BN. inversion BN as [|? ? N1 _]; subst. apply N1. left. reflexivity. }
        destruct TWO as (i & j & T1 & T2 & T3). eapply (OWild l w d5 i j); try eassumption.
        apply (Permutation_trans D2).
        assert (Q : map (fun i => (CFuzzy, it_piece i, w)) (List.concat (map g (buckets l)))
                    = map (fun i => (CFuzzy, it_piece i, w)) (List.concat (buckets l))).
        { rewrite !concat_map, map_map. f_equal. apply map_ext. intros b. unfold g. destruct (lac b); [|reflexivity].
          rewrite map_map. reflexivity. }
        rewrite Q. apply Permutation_map. exact BP. }
    destruct (is_nil (buckets l)) eqn:E0; [destruct (buckets l); [congruence|discriminate]|]. clear E0.
    destruct (Z.of_nat (length (buckets l)) <? mcn)%Z eqn:E1.
    2: { apply Z.ltb_ge in E1. apply LOOP. left. exact E1. }
    rewrite Hm. cbn [bind]. destruct (confused (zsum (map lb_count (buckets l))) m mcn) eqn:CF; cbn [negb].
    { apply LOOP. right. reflexivity. }
    clear LOOP.
    set (g := fun b => if lac b then finish CLength (map (set_pat (bpat b)) b) else finish CLength b).
    rewrite (mapM_pure _ _ _ g).
    2: { intros b I. unfold length_final. rewrite lac_eq. cbn [bind]. unfold g. destruct (lac b) eqn:Y; [|reflexivity].
         rewrite (bpat_eq l) by assumption. reflexivity. }
    cbn [bind]. exists (List.concat (map g (buckets l))), [], []. split; [reflexivity|].
    split. { unfold fuzzy_stage, fuzzy_end. cbn [foldM bind]. cbn [zsum fold_right map]. destruct (0 <? mcn)%Z eqn:Z0; [reflexivity|]. apply Z.ltb_ge in Z0. lia. }
    rewrite app_nil_r.
    (* at most one bucket is a cluster *)
    assert (UNI : forall b b', In b (buckets l) -> In b' (buckets l) -> lac b = true -> lac b' = true -> b = b').
    { intros b b' I I' Y Y'. apply In_nth with (d := []) in I as I1. apply In_nth with (d := []) in I' as I1'.
      destruct I1 as (k & K1 & K2), I1' as (k' & K1' & K2'). destruct (Nat.eq_dec k k') as [->|D]; [congruence|]. exfalso.
      assert (BIG : forall b, In b (buckets l) -> lac b = true -> (mcn <= lb_count b)%Z).
      { intros b0 I0 Y0. destruct (lac_ok b0) as (y & Hy & Q). unfold lac in Y0. rewrite Hy in Y0. subst y.
        apply (Q eq_refl). eapply bucket_ok; eauto. }
      assert (NT : forall k, (k < length (buckets l))%nat -> nth k (map lb_count (buckets l)) 0%Z = lb_count (nth k (buckets l) [])).
      { intros k0 H0. rewrite (nth_indep _ 0%Z (lb_count [])) by (rewrite map_length; exact H0). apply map_nth. }
      rewrite (confused_two (map lb_count (buckets l)) m mcn k k' Hm POS D) in CF; [discriminate| | | | |lia].
      - rewrite NT, K2 by exact K1. auto.
      - rewrite NT, K2' by exact K1'. auto.
      - rewrite map_length. exact K1.
      - rewrite map_length. exact K1'. }
    destruct (existsb lac (buckets l)) eqn:EX.
    - apply existsb_exists in EX. destruct EX as (b & I & Y).
      pose proof (bucket_in l b I) as [NEb [n B]]. destruct (lac_ok b) as (y & Hy & Q).
      assert (y = true) by (unfold lac in Y; rewrite Hy in Y; exact Y). subst y. destruct (Q eq_refl) as [Q1 Q2].
      destruct (two_diff b Q1 (NoDup_bucket l b ND I)) as (i & j & Ii & Ij & D).
      assert (PN : forall x, In x b -> pl x = n).
      { intros x Hx. rewrite B in Hx. apply filter_In in Hx. destruct Hx as [_ Hx]. apply Z.eqb_eq in Hx. congruence. }
      assert (INL : forall x, In x b -> In x l).
      { intros x Hx. rewrite B in Hx. apply filter_In in Hx. apply Hx. }
      destruct (length_pattern_ok b i) as (p & P1 & P2 & P3); auto.
      { eapply bucket_ok; eauto. } { eapply NoDup_bucket; eauto. } { intros x Hx. rewrite (PN x), (PN i) by auto. reflexivity. }
      rewrite (PN i Ii) in *. apply (OSpec l n p _ i j); auto.
      { rewrite B in Q2. rewrite <- B in Q2. rewrite <- B. apply Q2. eapply bucket_ok; eauto. }
      apply Permutation_trans with (map (fun i0 => (CLength, it_piece i0, if (pl i0 =? n)%Z then p else it_piece i0)) (List.concat (buckets l))).
      2: { apply Permutation_map. exact BP. }
      rewrite concat_map.
      assert (MQ : map g (buckets l) = map (map (fun i0 => (CLength, it_piece i0, if (pl i0 =? n)%Z then p else it_piece i0))) (buckets l)); [|rewrite MQ; apply Permutation_refl].
      apply map_ext_in. intros b' I'. unfold g.
      destruct (lac b') eqn:Y'.
      + rewrite (UNI b' b) by assumption. rewrite finish_set. apply map_ext_in. intros x Hx. rewrite (PN x Hx), Z.eqb_refl.
        unfold bpat. rewrite P1. reflexivity.
      + rewrite finish_lit by (eapply bucket_ok; eauto). apply map_ext_in. intros x Hx. destruct (pl x =? n)%Z eqn:EQ; [|reflexivity].
        exfalso. apply Z.eqb_eq in EQ. assert (b' = b).
        { apply (bucket_same l b' b x i I' I Hx Ii). rewrite EQ, (PN i Ii). reflexivity. }
        subst. congruence.
    - apply (OLit l CLength).
      apply Permutation_trans with (map (fun i0 => (CLength, it_piece i0, it_piece i0)) (List.concat (buckets l))).
      2: { apply Permutation_map. exact BP. }
      rewrite concat_map.
      assert (MQ : map g (buckets l) = map (map (fun i0 => (CLength, it_piece i0, it_piece i0))) (buckets l)); [|rewrite MQ; apply Permutation_refl].
      apply map_ext_in. intros b' I'. unfold g.
      destruct (lac b') eqn:Y'.
      + exfalso. assert (existsb lac (buckets l) = true) by (apply existsb_exists; eauto). congruence.
      + apply finish_lit. eapply bucket_ok; eauto.
  Qed.
  Lemma lf_nil : exists d4 bs d5, length_stage mcn level [] = Ok (d4, bs) /\ fuzzy_stage mcn bs = Ok d5 /\ d4 ++ d5 = [].
  Proof.
    clear L1. exists [], [], []. split; [reflexivity|]. split; [|reflexivity]. unfold fuzzy_stage, fuzzy_end. cbn [foldM bind]. cbn [zsum fold_right map].
    destruct (0 <? mcn)%Z eqn:Z0; [reflexivity|]. apply Z.ltb_ge in Z0. lia.
  Qed.
End LF.
