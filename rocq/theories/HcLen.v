(** make() on the nodes as objects: the last two clusters of a level. *)
From Coq Require Import String.
From Verif Require Import PyStr Defs UrlLib ParseUtils Views Trees Cluster Patterns Matcher Maker Heap HeapSpec HCluster
  PyStrProofs DefsProofs TreeProofs DictProofs LoadProofs HeapProofs HeapLoad HeapState GroupProofs HcBase HcBag HcLevel HcPaths HcStage.
From Coq Require Import Lia Permutation.

Definition ekey (e : cls * str * str) : str := snd (fst e).
Lemma finish_keys : forall c b, map ekey (finish c b) = map it_piece b.
Proof. intros. unfold finish. rewrite map_map. reflexivity. Qed.
Lemma set_pat_keys : forall p b, map it_piece (map (set_pat p) b) = map it_piece b.
Proof. intros. rewrite map_map. reflexivity. Qed.

(** ** What becomes of the pieces *)
Section Keys.
  Context (mcn : Z) (level : nat).
  Lemma length_one_keys : forall b r, length_one mcn level b = Ok r ->
    match r with inl d => map ekey d | inr b' => map it_piece b' end = map it_piece b.
  Proof.
    intros b r E. unfold length_one in E. destruct (length_as_cluster mcn b) as [[]|]; cbn [bind] in E; try discriminate.
    - destruct (pre_seek mcn level (flat_map it_bag b)) as [s|]; cbn [bind] in E; [|discriminate].
      destruct (length_pattern b) as [p|]; cbn [bind] in E; [|discriminate].
      destruct s; injection E as <-; [rewrite finish_keys|]; apply set_pat_keys.
    - injection E as <-. reflexivity.
  Qed.
  Lemma ones_keys : forall bs rs, mapM (length_one mcn level) bs = Ok rs ->
    Permutation (map ekey (List.concat (lefts rs)) ++ map it_piece (List.concat (rights rs))) (map it_piece (List.concat bs)).
  Proof.
    induction bs as [|b bs IH]; intros rs E; cbn in E.
    - assert (rs = []) as -> by congruence. reflexivity.
    - destruct (length_one mcn level b) as [r|] eqn:E1; [|discriminate]. cbn [bind] in E.
      destruct (mapM (length_one mcn level) bs) as [rs'|] eqn:E2; [|discriminate]. cbn [bind] in E.
      assert (rs = r :: rs') as -> by congruence. pose proof (length_one_keys b r E1) as K. specialize (IH rs' eq_refl).
      cbn [List.concat]. rewrite map_app. destruct r as [d|b']; cbn [lefts rights List.concat]; rewrite map_app, K.
      + rewrite <- app_assoc. apply Permutation_app_head. exact IH.
      + rewrite Permutation_app_swap_app. apply Permutation_app_head. exact IH.
  Qed.
  Lemma final_keys : forall bs rs, mapM (length_final mcn) bs = Ok rs -> map ekey (List.concat rs) = map it_piece (List.concat bs).
  Proof.
    induction bs as [|b bs IH]; intros rs E; cbn in E.
    - assert (rs = []) as -> by congruence. reflexivity.
    - destruct (length_final mcn b) as [r|] eqn:E1; [|discriminate]. cbn [bind] in E.
      destruct (mapM (length_final mcn) bs) as [rs'|] eqn:E2; [|discriminate]. cbn [bind] in E.
      assert (rs = r :: rs') as -> by congruence. cbn [List.concat]. rewrite !map_app, (IH rs' eq_refl). f_equal.
      unfold length_final in E1. destruct (length_as_cluster mcn b) as [[]|]; cbn [bind] in E1; try discriminate.
      + destruct (length_pattern b) as [p|]; cbn [bind] in E1; [|discriminate]. injection E1 as <-. rewrite finish_keys. apply set_pat_keys.
      + injection E1 as <-. apply finish_keys.
  Qed.
  Lemma fuzzy_set_keys : forall fp bs p r, fuzzy_set fp bs = Ok (p, r) -> map ekey r = map it_piece (List.concat bs).
  Proof.
    intros fp bs p r E. unfold fuzzy_set in E. match type of E with bind ?m _ = _ => destruct m; [|discriminate] end. cbn [bind] in E.
    injection E as _ <-. rewrite finish_keys. apply set_pat_keys.
  Qed.
  Lemma adds_keys : forall bs c f fp dn c' f' fp' dn', foldM (fuzzy_add mcn) bs (c, f, fp, dn) = Ok (c', f', fp', dn') ->
    Permutation (map ekey dn' ++ map it_piece (List.concat c')) (map ekey dn ++ map it_piece (List.concat c) ++ map it_piece (List.concat bs)).
  Proof.
    induction bs as [|b bs IH]; intros c f fp dn c' f' fp' dn' E; cbn [foldM] in E.
    - injection E as <- <- <- <-. cbn. rewrite app_nil_r. reflexivity.
    - cbn [fuzzy_add] in E. destruct f.
      + destruct (fuzzy_set fp [b]) as [[p r]|] eqn:Ef; [|discriminate]. cbn [bind] in E. apply IH in E. rewrite E.
        rewrite map_app, (fuzzy_set_keys _ _ _ _ Ef). cbn [List.concat]. rewrite app_nil_r, map_app, <- app_assoc.
        apply Permutation_app_head. apply Permutation_app_swap_app.
      + cbn [bind] in E. apply IH in E. rewrite E. rewrite concat_app. cbn [List.concat]. rewrite app_nil_r, !map_app, <- !app_assoc. reflexivity.
  Qed.
  Lemma end_keys : forall c f fp dn d, fuzzy_end mcn (c, f, fp, dn) = Ok d -> map ekey d = map ekey dn ++ map it_piece (List.concat c).
  Proof.
    intros c f fp dn d E. unfold fuzzy_end in E. cbv zeta in E.
    assert (K : Ok (dn ++ finish CFuzzy (List.concat c)) = Ok d -> map ekey d = map ekey dn ++ map it_piece (List.concat c)).
    { intros X. injection X as <-. rewrite map_app, finish_keys. reflexivity. }
    assert (S : ('(_, r) <- fuzzy_set fp c ;; Ok (dn ++ r)) = Ok d -> map ekey d = map ekey dn ++ map it_piece (List.concat c)).
    { intros X. destruct (fuzzy_set fp c) as [[p r]|] eqn:Ef; [|discriminate]. cbn [bind] in X. injection X as <-.
      rewrite map_app, (fuzzy_set_keys _ _ _ _ Ef). reflexivity. }
    destruct f; [auto|]. destruct (_ <? mcn)%Z; [auto|]. destruct (max_count (map lb_count c)) as [m|]; [|discriminate]. cbn [bind] in E.
    destruct (confused _ _ _); auto.
  Qed.
  Lemma len_add_perm : forall l d d', foldM len_add l d = Ok d' ->
    Permutation (List.concat (map snd d')) (List.concat (map snd d) ++ l).
  Proof.
    induction l as [|i l IH]; intros d d' E; cbn [foldM] in E.
    - injection E as <-. rewrite app_nil_r. reflexivity.
    - destruct (len_add d i) as [d1|] eqn:E1; [|discriminate]. cbn [bind] in E. rewrite (IH _ _ E).
      assert (P : Permutation (List.concat (map snd d1)) (List.concat (map snd d) ++ [i])).
      { unfold len_add in E1. destruct (piece_length (it_pp i)) as [n|]; [|discriminate]. cbn [bind] in E1.
        destruct (dget Z.eqb n d) as [b|] eqn:D.
        - destruct (str_in _ _); [discriminate|]. injection E1 as <-. clear E IH. induction d as [|[k x] d IHd]; [discriminate|]. cbn in D |- *.
          destruct (Z.eqb n k) eqn:Ek.
          + injection D as <-. cbn. rewrite <- !app_assoc. apply Permutation_app_head. apply Permutation_app_comm.
          + cbn. rewrite <- app_assoc. apply Permutation_app_head. apply IHd. exact D.
        - injection E1 as <-. rewrite map_app, concat_app. cbn. reflexivity. }
      rewrite P, <- app_assoc. reflexivity.
  Qed.
  Lemma len_add_some : forall l d d', foldM len_add l d = Ok d' -> Forall (fun nb => snd nb <> []) d -> Forall (fun nb => snd nb <> []) d'.
  Proof.
    induction l as [|i l IH]; intros d d' E F; cbn [foldM] in E; [injection E as <-; exact F|].
    destruct (len_add d i) as [d1|] eqn:E1; [|discriminate]. cbn [bind] in E. apply (IH _ _ E).
    unfold len_add in E1. destruct (piece_length (it_pp i)) as [n|]; [|discriminate]. cbn [bind] in E1.
    destruct (dget Z.eqb n d) as [b|] eqn:D.
    - destruct (str_in _ _); [discriminate|]. injection E1 as <-. apply Forall_forall. intros x Ix.
      destruct (In_dset_cases _ _ Z.eqb Z.eqb_eq _ _ _ _ Ix) as [->|Ix']; [|exact (proj1 (Forall_forall _ _) F x Ix')].
      cbn. intros X. apply app_eq_nil in X. destruct X. discriminate.
    - injection E1 as <-. apply Forall_app. split; [exact F|]. constructor; [discriminate|constructor].
  Qed.
  Lemma lenfuz_keys : forall l d4 bs d5, length_stage mcn level l = Ok (d4, bs) -> fuzzy_stage mcn bs = Ok d5 ->
    Permutation (map ekey (d4 ++ d5)) (map it_piece l).
  Proof.
    intros l d4 bs d5 E4 E5. unfold length_stage in E4. destruct (foldM len_add l []) as [d|] eqn:Ed; [|discriminate]. cbn [bind] in E4. cbv zeta in E4.
    pose proof (len_add_perm _ _ _ Ed) as P. cbn [List.concat map app] in P.
    assert (FZ : Permutation (map ekey d5) (map it_piece (List.concat bs))).
    { unfold fuzzy_stage in E5. destruct (foldM (fuzzy_add mcn) bs ([], false, None, [])) as [[[[c f] fp] dn]|] eqn:Ef; [|discriminate].
      cbn [bind] in E5. rewrite (end_keys _ _ _ _ _ E5). rewrite (adds_keys _ _ _ _ _ _ _ _ _ Ef). reflexivity. }
    rewrite map_app, FZ. rewrite <- (Permutation_map it_piece P).
    assert (LOOP : (r <- mapM (length_one mcn level) (map snd d) ;; Ok (List.concat (lefts r), rights r)) = Ok (d4, bs) ->
      Permutation (map ekey d4 ++ map it_piece (List.concat bs)) (map it_piece (List.concat (map snd d)))).
    { intros X. destruct (mapM (length_one mcn level) (map snd d)) as [r|] eqn:Er; [|discriminate]. cbn [bind] in X. injection X as <- <-.
      apply ones_keys. exact Er. }
    destruct (is_nil (map snd d)) eqn:En.
    { injection E4 as <- <-. destruct (map snd d); [reflexivity|discriminate]. }
    destruct (_ <? mcn)%Z; [|auto]. destruct (max_count (map lb_count (map snd d))) as [m|]; [|discriminate]. cbn [bind] in E4.
    destruct (negb _); [|auto]. destruct (mapM (length_final mcn) (map snd d)) as [r|] eqn:Er; [|discriminate]. cbn [bind] in E4.
    injection E4 as <- <-. cbn. rewrite app_nil_r, (final_keys _ _ Er). reflexivity.
  Qed.
End Keys.

Section Len.
  Context (mcn : Z) (level : nat) (Hs : heap) (lv : list anode).
  Context (NODE : forall x, In x lv -> exists n, nth_error Hs (an_addr x) = Some n /\ n_value n = a_val (an_t x) /\ n_count n = an_cnt x).
  Context (NDA : NoDup (map an_addr lv)).
  Context (PARC : forall x i a c, In x lv -> an_par x = Some (i, a, c) -> exists n, nth_error Hs a = Some n /\ n_count n = c).
  Context (PID : forall x y i a c i' a' c', In x lv -> In y lv -> an_par x = Some (i, a, c) -> an_par y = Some (i', a', c') ->
    (i = i' <-> a = a')).
  Context (PSOME : psome level lv).
  Local Notation LV := (HcLevel.LV Hs lv).
  Local Notation hb_of := (HcLevel.hb_of lv).
  Local Notation nodes_of := (HcLevel.nodes_of lv).
  Local Notation itok := (HcLevel.itok0 lv).
  Local Notation lbk := (HcStage.lbk lv).

  (** the patterns of the items and of the finished pieces *)
  Definition live (W : list (str * str)) (l : list Cluster.item) : Prop := Forall (fun i => wr W (it_piece i) = Some (it_pat i)) l.
  Definition donew (W : list (str * str)) (d : list (cls * str * str)) : Prop := Forall (fun e => wr W (ekey e) = Some (snd e)) d.
  Definition wb (p : str) (l : list Cluster.item) : list (str * str) := map (fun i => (it_piece i, p)) l.
  Lemma wb_keys : forall p l, map fst (wb p l) = map it_piece l.
  Proof. intros. unfold wb. rewrite map_map. reflexivity. Qed.
  Lemma live_off : forall W p b l, live W l -> (forall i, In i l -> ~ In (it_piece i) (map it_piece b)) -> live (W ++ wb p b) l.
  Proof.
    intros W p b l L N. apply Forall_forall. intros i Ii. rewrite wr_app, (wr_none (wb p b)); [exact (proj1 (Forall_forall _ _) L i Ii)|].
    rewrite wb_keys. exact (N i Ii).
  Qed.
  Lemma done_off : forall W p b d, donew W d -> (forall e, In e d -> ~ In (ekey e) (map it_piece b)) -> donew (W ++ wb p b) d.
  Proof.
    intros W p b d L N. apply Forall_forall. intros e Ie. rewrite wr_app, (wr_none (wb p b)); [exact (proj1 (Forall_forall _ _) L e Ie)|].
    rewrite wb_keys. exact (N e Ie).
  Qed.
  Lemma live_on : forall W p b, live (W ++ wb p b) (map (set_pat p) b).
  Proof.
    intros W p b. apply Forall_forall. intros i Ii. apply in_map_iff in Ii. destruct Ii as (j & <- & Ij). cbn [set_pat it_pat].
    change (it_piece (set_pat p j)) with (it_piece j). rewrite wr_app.
    assert (X : wr (wb p b) (it_piece j) = Some p).
    { unfold wb. rewrite <- (map_map it_piece (fun k => (k, p))). apply wr_const. apply in_map. exact Ij. }
    rewrite X. reflexivity.
  Qed.
  Lemma live_done : forall W c b, live W b -> donew W (finish c b).
  Proof. intros W c b L. unfold donew, finish. apply Forall_map. exact L. Qed.
  Lemma lbk_pat : forall p b, lbk (map (set_pat p) b) = lbk b.
  Proof. intros p b. unfold HcStage.lbk, lb_count. rewrite !map_map. reflexivity. Qed.
  Lemma itok_pat : forall p b, Forall itok b -> Forall itok (map (set_pat p) b).
  Proof. intros p b F. apply Forall_map. exact F. Qed.

  Record I2 (H : heap) (st : hproc) (W : list (str * str)) (dn : list (cls * str * str)) (cached : list (list Cluster.item))
      (force : bool) (fp : option str) (rem : list (list Cluster.item)) : Prop := {
    l_lv : LV H W;
    l_pats : forall c, pats_ok (hp_pats st c) c dn;
    l_st : hp_bucket st = bucket_of lv /\ hp_cached st = map lbk cached /\ hp_ccount st = zsum (map lb_count cached)
           /\ hp_force st = force /\ hp_fuzzy st = fp;
    l_fp : forall p, fp = Some p -> In p (hp_pats st CFuzzy);
    l_items : Forall itok (List.concat cached ++ List.concat rem);
    l_live : live W (List.concat cached ++ List.concat rem);
    l_done : donew W dn;
    l_nd : NoDup (map ekey dn ++ map it_piece (List.concat cached ++ List.concat rem))
  }.
  Lemma I2_perm : forall H st W dn dn' c f fp rem, I2 H st W dn c f fp rem -> Permutation dn dn' -> I2 H st W dn' c f fp rem.
  Proof.
    intros H st W dn dn' c f fp rem [A1 A2 A3 A4 A5 A6 A7 A8] P. constructor; auto.
    - intros c0. destruct (A2 c0) as [B1 B2]. split; [exact B1|]. intros p. rewrite B2. split; intros (k & I); exists k.
      + exact (Permutation_in _ P I).
      + exact (Permutation_in _ (Permutation_sym P) I).
    - unfold donew in *. rewrite <- P. exact A7.
    - apply (Permutation_NoDup (l := map ekey dn ++ map it_piece (List.concat c ++ List.concat rem))); [|exact A8].
      apply Permutation_app_tail. apply Permutation_map. exact P.
  Qed.

  (** ** patterns given to buckets *)
  Lemma bucket_set_ok : forall p b H W, LV H W -> exists H', bucket_set (lbk b) p H = (H', Ok tt) /\ LV H' (W ++ wb p b).
  Proof.
    intros p. unfold bucket_set, HcStage.lbk. cbn [bk_objs]. induction b as [|i b IH]; intros H W L.
    - exists H. cbn. rewrite app_nil_r. auto.
    - destruct (bag_set_ok Hs lv NDA H W (it_piece i) p L) as (H1 & E1 & L1 & _). destruct (IH H1 _ L1) as (H2 & E2 & L2).
      exists H2. cbn [map each snd]. rewrite (then_ok _ _ _ _ _ _ _ _ E1). split; [exact E2|]. rewrite <- app_assoc in L2. exact L2.
  Qed.
  Lemma cached_set_ok : forall p bs H W, LV H W -> exists H', cached_set (map lbk bs) p H = (H', Ok tt) /\ LV H' (W ++ wb p (List.concat bs)).
  Proof.
    intros p. unfold cached_set. induction bs as [|b bs IH]; intros H W L.
    - exists H. cbn. rewrite app_nil_r. auto.
    - destruct (bucket_set_ok p b H W L) as (H1 & E1 & L1). destruct (IH H1 _ L1) as (H2 & E2 & L2). exists H2. cbn [map each].
      rewrite (then_ok _ _ _ _ _ _ _ _ E1). split; [exact E2|]. cbn [List.concat]. unfold wb in *. rewrite map_app, app_assoc. exact L2.
  Qed.
  Lemma bucket_pick_ok : forall i b H W, LV H W -> itok i -> parsed_of (bucket_pick (lbk (i :: b))) H = Ok (it_pp i).
  Proof. intros i b H W L It. exact (pick_ok0 Hs lv NODE H W i L It). Qed.
  (** the pattern of the first node of a bag *)
  Lemma node_read : forall H W i, LV H W -> itok i -> wr W (it_piece i) = Some (it_pat i) ->
    exists a, bag_pick (hb_of (it_piece i)) = Ok a /\ node_pattern_of a H = (H, Ok (it_pat i)).
  Proof.
    intros H W i L [_ (x & r & E & P)] Wr. unfold HcLevel.hb_of, hbag_of, bag_pick. cbn. rewrite E. cbn. exists (an_addr x). split; [reflexivity|].
    assert (Ix : In x (nodes_of (it_piece i))) by (rewrite E; left; reflexivity). apply nodes_of_in in Ix. destruct Ix as [Ix Px].
    destruct (NODE x Ix) as (n & En & _). destruct L as (_ & _ & C). pose proof (C x n Ix En) as Hx. rewrite Px, Wr in Hx.
    unfold node_pattern_of. rewrite (get_ok _ _ _ Hx). reflexivity.
  Qed.
  Lemma pats_more : forall st dn c b, (forall c0, pats_ok (hp_pats st c0) c0 dn) -> forall p, In p (hp_pats st c) ->
    forall c0, pats_ok (hp_pats st c0) c0 (dn ++ finish c (map (set_pat p) b)).
  Proof.
    intros st dn c b P p Ip c0. destruct (P c0) as [P1 P2]. split; [exact P1|]. intros q. rewrite P2. split; intros (k & I).
    - exists k. apply in_or_app. left. exact I.
    - apply in_app_or in I. destruct I as [I|I]; [eauto|]. unfold finish in I. apply in_map_iff in I. destruct I as (j & Ej & Ij).
      apply in_map_iff in Ij. destruct Ij as (j2 & <- & _). cbn in Ej. injection Ej as <- _ <-. apply (P c). exact Ip.
  Qed.

  (** ** seek and size *)
  Lemma hlen_ok : forall b, Forall itok b -> hlength_as_cluster mcn (lbk b) = length_as_cluster mcn b.
  Proof.
    intros b F. unfold hlength_as_cluster, length_as_cluster. cbn [HcStage.lbk bk_objs bk_count]. rewrite map_length, map_map. cbn [snd].
    assert (E : map (fun i => hb_count (hb_of (it_piece i))) b = map it_count b).
    { apply map_ext_in. intros i Ii. apply count_ok0. exact (proj1 (Forall_forall _ _) F i Ii). }
    unfold HcLevel.hb_of in *. rewrite E. reflexivity.
  Qed.
  Lemma bucket_seek_ok : forall b H W, LV H W -> Forall itok b ->
    hseek mcn level (bucket_pnodes (lbk b)) (bk_count (lbk b)) H = (H, pre_seek mcn level (flat_map it_bag b)).
  Proof.
    intros b H W L F.
    assert (E1 : flat_map it_bag b = map er (flat_map (fun i => nodes_of (it_piece i)) b)).
    { induction F as [|i b [Ei _] F IH]; [reflexivity|]. cbn [flat_map]. rewrite map_app, <- Ei, IH. reflexivity. }
    assert (E2 : bucket_pnodes (lbk b) = apn (flat_map (fun i => nodes_of (it_piece i)) b)).
    { unfold bucket_pnodes, HcStage.lbk, apn. cbn [bk_objs]. generalize (@nil (option addr)). clear. induction b as [|i b IH]; intros d; [reflexivity|].
      cbn [map fold_left snd flat_map]. rewrite apn_app. unfold HcLevel.hb_of at 2. cbn [hbag_of hb_pnodes]. rewrite apn_again. apply IH. }
    assert (E3 : bk_count (lbk b) = bag_count (flat_map it_bag b)).
    { cbn. unfold lb_count, it_count, bag_count. clear. induction b as [|i b IH]; [reflexivity|]. cbn [map flat_map]. rewrite map_app, zsum_app, <- IH. reflexivity. }
    rewrite E3, E1, E2. apply (hseek_ok mcn level Hs lv PARC PID PSOME H W _ L). intros x Ix. apply in_flat_map in Ix. destruct Ix as (i & _ & Ix).
    apply nodes_of_in in Ix. tauto.
  Qed.

  (** ** the steps *)
  Lemma nd_split : forall dn (cached b rem : list Cluster.item), NoDup (map ekey dn ++ map it_piece (cached ++ b ++ rem)) ->
    (forall i, In i (cached ++ rem) -> ~ In (it_piece i) (map it_piece b)) /\ (forall e, In e dn -> ~ In (ekey e) (map it_piece b)).
  Proof.
    intros dn cached b rem ND.
    assert (P : Permutation (map ekey dn ++ map it_piece (cached ++ b ++ rem)) (map it_piece b ++ (map ekey dn ++ map it_piece (cached ++ rem)))).
    { rewrite !map_app. rewrite (Permutation_app_swap_app (map it_piece cached) (map it_piece b)). apply Permutation_app_swap_app. }
    assert (ND2 := Permutation_NoDup P ND). clear P ND.
    assert (X : forall y, In y (map it_piece b) -> ~ In y (map ekey dn ++ map it_piece (cached ++ rem))).
    { intros y Iy Iz. induction (map it_piece b) as [|k ks IH]; [destruct Iy|]. cbn in ND2. inversion ND2; subst. destruct Iy as [->|Iy].
      - apply H1. apply in_or_app. right. exact Iz.
      - apply IH; auto. }
    split.
    - intros i Ii Ib. apply (X _ Ib). apply in_or_app. right. apply in_map. exact Ii.
    - intros e Ie Ib. apply (X _ Ib). apply in_or_app. left. apply in_map. exact Ie.
  Qed.
  (** the nodes of the next bucket get the pattern [p] *)
  Lemma I2_write : forall p H H' st W dn c f fp b rem, I2 H st W dn c f fp (b :: rem) -> LV H' (W ++ wb p b) ->
    I2 H' st (W ++ wb p b) dn c f fp (map (set_pat p) b :: rem).
  Proof.
    intros p H H' st W dn c f fp b rem [A1 A2 A3 A4 A5 A6 A7 A8] L. cbn [List.concat] in *.
    destruct (nd_split dn (List.concat c) b (List.concat rem) A8) as [N1 N2].
    assert (PM : forall l, map it_piece (List.concat c ++ map (set_pat p) b ++ l) = map it_piece (List.concat c ++ b ++ l)).
    { intros l. rewrite !map_app, set_pat_keys. reflexivity. }
    constructor; auto; cbn [List.concat].
    - apply Forall_app in A5. destruct A5 as [B1 B2]. apply Forall_app in B2. destruct B2 as [B2 B3]. apply Forall_app. split; [exact B1|].
      apply Forall_app. split; [apply itok_pat; exact B2|exact B3].
    - unfold live in A6. apply Forall_app in A6. destruct A6 as [B1 B2]. apply Forall_app in B2. destruct B2 as [B2 B3].
      apply Forall_app. split; [|apply Forall_app; split].
      + apply live_off; [exact B1|]. intros i Ii. apply N1. apply in_or_app. left. exact Ii.
      + apply live_on.
      + apply live_off; [exact B3|]. intros i Ii. apply N1. apply in_or_app. right. exact Ii.
    - apply done_off; auto.
    - rewrite PM. exact A8.
  Qed.
  (** the next bucket is finished *)
  Lemma I2_finish : forall cl H st st' W dn c f fp b rem, I2 H st W dn c f fp (b :: rem) ->
    (forall c0, pats_ok (hp_pats st' c0) c0 (dn ++ finish cl b)) ->
    hp_bucket st' = hp_bucket st -> hp_cached st' = hp_cached st -> hp_ccount st' = hp_ccount st -> hp_force st' = hp_force st -> hp_fuzzy st' = hp_fuzzy st ->
    I2 H st' W (dn ++ finish cl b) c f fp rem.
  Proof.
    intros cl H st st' W dn c f fp b rem [A1 A2 A3 A4 A5 A6 A7 A8] P E1 E2 E3 E4 E5. cbn [List.concat] in *.
    apply Forall_app in A5. destruct A5 as [B1 B2]. apply Forall_app in B2. destruct B2 as [B2 B3].
    unfold live in A6. apply Forall_app in A6. destruct A6 as [C1 C2]. apply Forall_app in C2. destruct C2 as [C2 C3].
    constructor; auto.
    - rewrite E1, E2, E3, E4, E5. exact A3.
    - intros p Ep. destruct A3 as (_ & _ & _ & _ & Fz). apply A4 in Ep. apply (P CFuzzy). apply (A2 CFuzzy) in Ep. destruct Ep as (k & Ik).
      exists k. apply in_or_app. left. exact Ik.
    - apply Forall_app. split; assumption.
    - apply Forall_app. split; assumption.
    - apply Forall_app. split; [exact A7|]. apply live_done. exact C2.
    - rewrite map_app, finish_keys, <- app_assoc. eapply Permutation_NoDup; [|exact A8]. apply Permutation_app_head.
      rewrite !map_app. apply Permutation_app_swap_app.
  Qed.
  Lemma add_patterns_gen : forall cl b H st W dn, LV H W -> Forall itok b -> live W b -> (forall c, pats_ok (hp_pats st c) c dn) ->
    exists st', add_patterns cl (lbk b) (H, st) = ((H, st'), Ok tt) /\ (forall c, pats_ok (hp_pats st' c) c (dn ++ finish cl b))
      /\ hp_bucket st' = hp_bucket st /\ hp_cached st' = hp_cached st /\ hp_ccount st' = hp_ccount st /\ hp_force st' = hp_force st /\ hp_fuzzy st' = hp_fuzzy st.
  Proof.
    intros cl. unfold add_patterns, HcStage.lbk. cbn [bk_objs]. induction b as [|i b IH]; intros H st W dn L F Lv P.
    - exists st. cbn. rewrite app_nil_r. auto 8.
    - inversion F as [|x y It F']; subst. inversion Lv as [|x y Wi Lv']; subst.
      destruct (node_read H W i L It Wi) as (a & Ea & En).
      destruct (IH H (put_pattern cl (it_pat i) st) W (dn ++ [(cl, it_piece i, it_pat i)]) L F' Lv') as (st' & E' & P' & R).
      { apply (pats_add st dn cl (it_pat i) [it_piece i] P). discriminate. }
      exists st'. split; [|split; [|exact R]].
      + cbn [map each snd].
        rewrite (then_ok _ _ _ _ _ _ (H, put_pattern cl (it_pat i) st) tt); [exact E'|].
        rewrite (then_ok _ _ _ _ _ _ (H, st) a); [|unfold lift; f_equal; exact Ea].
        rewrite (then_ok _ _ _ _ _ _ _ _ (on_heap_ok _ _ _ _ st _ _ En)). reflexivity.
      + cbn [finish map]. rewrite <- app_assoc in P'. exact P'.
  Qed.
  Lemma add_patterns_ok : forall cl H st W dn c f fp b rem, I2 H st W dn c f fp (b :: rem) ->
    exists st', add_patterns cl (lbk b) (H, st) = ((H, st'), Ok tt) /\ I2 H st' W (dn ++ finish cl b) c f fp rem.
  Proof.
    intros cl H st W dn c f fp b rem I. pose proof I as [A1 A2 A3 A4 A5 A6 A7 A8]. cbn [List.concat] in *.
    apply Forall_app in A5. destruct A5 as [B1 B2]. apply Forall_app in B2. destruct B2 as [B2 B3].
    unfold live in A6. apply Forall_app in A6. destruct A6 as [C1 C2]. apply Forall_app in C2. destruct C2 as [C2 C3].
    destruct (add_patterns_gen cl b H st W dn A1 B2 C2 A2) as (st' & E & P & R1 & R2 & R3 & R4 & R5).
    exists st'. split; [exact E|]. apply (I2_finish cl H st st' W dn c f fp b rem I P R1 R2 R3 R4 R5).
  Qed.
  Lemma length_set_ok : forall wp H st W dn c f fp b rem p, I2 H st W dn c f fp (b :: rem) -> length_pattern b = Ok p ->
    exists H' st' W', length_set (lbk b) wp (H, st) = ((H', st'), Ok tt)
      /\ if wp then I2 H' st' W' (dn ++ finish CLength (map (set_pat p) b)) c f fp rem
         else I2 H' st' W' dn c f fp (map (set_pat p) b :: rem).
  Proof.
    intros wp H st W dn c f fp b rem p I Ep. destruct b as [|i b]; [discriminate|]. cbn [length_pattern] in Ep.
    destruct (piece_length (it_pp i)) as [n|] eqn:En; [|discriminate]. cbn [bind] in Ep.
    assert (It : itok i).
    { pose proof (l_items _ _ _ _ _ _ _ _ I) as A. cbn [List.concat] in A. apply Forall_app in A. destruct A as [_ A]. inversion A; auto. }
    unfold length_set. rewrite (then_ok _ _ _ _ _ _ (H, st) (it_pp i)).
    2:{ apply on_heap_ok. unfold reading. rewrite (bucket_pick_ok i b H W (l_lv _ _ _ _ _ _ _ _ I) It). reflexivity. }
    rewrite (then_ok _ _ _ _ _ _ (H, st) n); [|unfold lift; rewrite En; reflexivity].
    rewrite (then_ok _ _ _ _ _ _ (H, st) p); [|unfold lift; rewrite Ep; reflexivity].
    destruct (bucket_set_ok p (i :: b) H W (l_lv _ _ _ _ _ _ _ _ I)) as (H1 & E1 & L1).
    rewrite (then_ok _ _ _ _ _ _ _ _ (on_heap_ok _ _ _ _ st _ _ E1)).
    pose proof (I2_write p H H1 st W dn c f fp (i :: b) rem I L1) as I1.
    destruct wp.
    - exists H1, (put_pattern CLength p st), (W ++ wb p (i :: b)). split; [reflexivity|].
      apply (I2_finish CLength H1 st _ _ _ _ _ _ _ _ I1); auto.
      unfold finish. rewrite map_map.
      change (map (fun x => (CLength, it_piece (set_pat p x), it_pat (set_pat p x))) (i :: b)) with (map (fun x => (CLength, it_piece x, p)) (i :: b)).
      rewrite <- (map_map it_piece (fun k => (CLength, k, p))). apply pats_add; [exact (l_pats _ _ _ _ _ _ _ _ I1)|discriminate].
    - exists H1, st, (W ++ wb p (i :: b)). split; [reflexivity|exact I1].
  Qed.

  (** ** FuzzyPatternCluster *)
  (** the buckets [bs], the next ones in [rem] or all those in [cached], get the fuzzy pattern *)
  Lemma fuzzy_write : forall H st W dn c f fp bs p r, LV H W -> (forall c0, pats_ok (hp_pats st c0) c0 dn) ->
    (forall p, fp = Some p -> In p (hp_pats st CFuzzy)) -> hp_fuzzy st = fp -> hp_force st = f -> hp_cached st = map lbk c ->
    Forall itok (List.concat bs) -> (forall b, In b bs -> b <> []) -> fuzzy_set fp bs = Ok (p, r) ->
    exists H' st', fuzzy_set_on (map lbk bs) (H, st) = ((H', st'), Ok tt) /\ LV H' (W ++ wb p (List.concat bs))
      /\ r = finish CFuzzy (map (set_pat p) (List.concat bs)) /\ (forall c0, pats_ok (hp_pats st' c0) c0 (dn ++ r))
      /\ In p (hp_pats st' CFuzzy) /\ hp_fuzzy st' = Some p /\ hp_bucket st' = hp_bucket st /\ hp_cached st' = hp_cached st
      /\ hp_ccount st' = hp_ccount st /\ hp_force st' = hp_force st.
  Proof.
    intros H st W dn c f fp bs p r L P FP Ef Ec Eca It NE E. unfold fuzzy_set in E. unfold fuzzy_set_on.
    rewrite (then_ok _ _ _ self _ _ (H, st) st) by reflexivity. rewrite Ef.
    match type of E with bind ?m _ = _ => destruct m as [q|] eqn:Eq; [|discriminate] end. cbn [bind] in E. injection E as -> <-.
    destruct (cached_set_ok p bs H W L) as (H' & E' & L'). destruct fp as [p0|].
    - injection Eq as ->. rewrite (then_ok _ _ _ _ _ _ (H, st) p) by reflexivity. exists H', st. split; [apply on_heap_ok; exact E'|].
      split; [exact L'|]. split; [reflexivity|]. split; [apply pats_more; auto|]. auto 8.
    - destruct bs as [|b bs]; [discriminate|]. destruct b as [|i b]; [exfalso; exact (NE [] (or_introl eq_refl) eq_refl)|].
      cbn [List.concat app] in Eq, It. inversion It as [|x y Ii _]; subst x y.
      exists H', (put_pattern CFuzzy p (set_fuzzy (Some p) st)). split.
      + rewrite (then_ok _ _ _ _ _ _ (H, put_pattern CFuzzy p (set_fuzzy (Some p) st)) p); [apply on_heap_ok; exact E'|].
        rewrite (then_ok _ _ _ _ _ _ (H, st) (it_pp i)).
        2:{ apply on_heap_ok. unfold reading. cbn [map cached_pick]. rewrite (bucket_pick_ok i b H W L Ii). reflexivity. }
        rewrite (then_ok _ _ _ _ _ _ (H, st) p); [|unfold lift; rewrite Eq; reflexivity]. reflexivity.
      + split; [exact L'|]. split; [reflexivity|]. split; [|split; [|auto 8]].
        * unfold finish. rewrite map_map.
          change (map (fun x => (CFuzzy, it_piece (set_pat p x), it_pat (set_pat p x))) (List.concat ((i :: b) :: bs)))
            with (map (fun x => (CFuzzy, it_piece x, p)) (List.concat ((i :: b) :: bs))).
          rewrite <- (map_map it_piece (fun k => (CFuzzy, k, p))). apply (pats_add (set_fuzzy (Some p) st)); [exact P|discriminate].
        * cbn. apply (sadd_in _ _ str_eqb_iff). left. reflexivity.
  Qed.
  Lemma add_fuzzy_ok : forall H st W dn c f fp df b rem c' f' fp' df', I2 H st W dn c f fp (b :: rem) -> b <> [] ->
    fuzzy_add mcn (c, f, fp, df) b = Ok (c', f', fp', df') ->
    exists H' st' W' nd, add_to_fuzzy mcn (lbk b) (H, st) = ((H', st'), Ok tt) /\ df' = df ++ nd /\ I2 H' st' W' (dn ++ nd) c' f' fp' rem.
  Proof.
    intros H st W dn c f fp df b rem c' f' fp' df' I Nb E. pose proof I as [A1 A2 A3 A4 A5 A6 A7 A8]. cbn [List.concat] in *.
    destruct A3 as (S1 & S2 & S3 & S4 & S5). apply Forall_app in A5. destruct A5 as [B1 B2]. apply Forall_app in B2. destruct B2 as [B2 B3].
    unfold add_to_fuzzy. rewrite (then_ok _ _ _ self _ _ (H, st) st) by reflexivity. rewrite S4. cbn [fuzzy_add] in E. destruct f.
    - destruct (fuzzy_set fp [b]) as [[p r]|] eqn:Ef; [|discriminate]. cbn [bind] in E. injection E as <- <- <- <-.
      destruct (fuzzy_write H st W dn c true fp [b] p r A1 A2 A4 S5 S4 S2) as (H1 & st1 & E1 & L1 & Er & P1 & Ip & F1 & R1 & R2 & R3 & R4).
      { cbn [List.concat]. rewrite app_nil_r. exact B2. } { intros b0 [<-|[]]. exact Nb. } { exact Ef. }
      cbn [List.concat] in L1, Er. rewrite app_nil_r in L1, Er.
      exists H1, st1, (W ++ wb p b), r. split; [exact E1|]. split; [reflexivity|].
      pose proof (I2_write p H H1 st W dn c true fp b rem I L1) as I1. subst r.
      pose proof I1 as [D1 D2 D3 D4 D5 D6 D7 D8]. cbn [List.concat] in *.
      apply Forall_app in D5. destruct D5 as [E5 E6]. apply Forall_app in E6. destruct E6 as [E6 E7].
      unfold live in D6. apply Forall_app in D6. destruct D6 as [G1 G2]. apply Forall_app in G2. destruct G2 as [G2 G3].
      constructor; auto.
      + rewrite R1, R2, R3, R4. auto.
      + intros q Eq. injection Eq as <-. exact Ip.
      + apply Forall_app. split; assumption.
      + apply Forall_app. split; assumption.
      + apply Forall_app. split; [exact D7|]. apply live_done. exact G2.
      + rewrite map_app, finish_keys, <- app_assoc. eapply Permutation_NoDup; [|exact D8]. apply Permutation_app_head.
        rewrite !map_app. apply Permutation_app_swap_app.
    - cbn [bind] in E. injection E as <- <- <- <-. cbv zeta.
      exists H. eexists. exists W, []. split; [reflexivity|]. split; [symmetry; apply app_nil_r|]. rewrite app_nil_r.
      assert (CC : List.concat (c ++ [b]) = List.concat c ++ b) by (rewrite concat_app; cbn; rewrite app_nil_r; reflexivity).
      constructor; auto; try (rewrite CC, <- app_assoc; assumption).
      + rewrite S2, S3. cbn. split; [exact S1|]. split; [rewrite map_app; reflexivity|]. split; [|].
        * rewrite map_app, zsum_app. cbn. lia.
        * rewrite app_length, map_length, app_length. cbn. auto.
      + rewrite CC, <- app_assoc. apply Forall_app. split; [exact B1|]. apply Forall_app. split; assumption.
  Qed.
  Lemma keep_ok : forall l H st W dn, LV H W -> Forall itok (List.concat l) -> live W (List.concat l) -> (forall c, pats_ok (hp_pats st c) c dn) ->
    exists st', each (map lbk l) (add_patterns CFuzzy) (H, st) = ((H, st'), Ok tt) /\ hp_bucket st' = hp_bucket st
      /\ (forall c, pats_ok (hp_pats st' c) c (dn ++ finish CFuzzy (List.concat l))).
  Proof.
    induction l as [|b l IH]; intros H st W dn L F Lv P.
    - exists st. cbn. rewrite app_nil_r. auto.
    - cbn [List.concat] in F, Lv. apply Forall_app in F. destruct F as [F1 F2]. unfold live in Lv. apply Forall_app in Lv. destruct Lv as [V1 V2].
      destruct (add_patterns_gen CFuzzy b H st W dn L F1 V1 P) as (st1 & E1 & P1 & R1 & _).
      destruct (IH H st1 W _ L F2 V2 P1) as (st2 & E2 & R2 & P2). exists st2. cbn [map each]. rewrite (then_ok _ _ _ _ _ _ _ _ E1).
      split; [exact E2|]. split; [congruence|]. cbn [List.concat]. unfold finish in *. rewrite map_app, app_assoc. exact P2.
  Qed.
  Lemma fuzzy_cluster_ok : forall H st W dn c f fp df d, I2 H st W (dn ++ df) c f fp [] -> Forall (fun b => b <> []) c ->
    fuzzy_end mcn (c, f, fp, df) = Ok d ->
    exists H' st' W', fuzzy_cluster mcn (H, st) = ((H', st'), Ok tt) /\ LV H' W' /\ donew W' (dn ++ d)
      /\ (forall c0, pats_ok (hp_pats st' c0) c0 (dn ++ d)) /\ hp_bucket st' = bucket_of lv.
  Proof.
    intros H st W dn c f fp df d I NE E. pose proof I as [A1 A2 A3 A4 A5 A6 A7 A8]. destruct A3 as (S1 & S2 & S3 & S4 & S5).
    unfold fuzzy_cluster. rewrite (then_ok _ _ _ self _ _ (H, st) st) by reflexivity. cbv zeta. rewrite S4, S3, S2.
    cbn [List.concat] in *. rewrite app_nil_r in *.
    assert (SET : ('(_, r) <- fuzzy_set fp c ;; Ok (df ++ r)) = Ok d ->
      exists H' st' W', fuzzy_set_on (map lbk c) (H, st) = ((H', st'), Ok tt) /\ LV H' W' /\ donew W' (dn ++ d)
      /\ (forall c0, pats_ok (hp_pats st' c0) c0 (dn ++ d)) /\ hp_bucket st' = bucket_of lv).
    { intros X. destruct (fuzzy_set fp c) as [[p r]|] eqn:Ef; [|discriminate]. cbn [bind] in X. injection X as <-.
      destruct (fuzzy_write H st W (dn ++ df) c f fp c p r A1 A2 A4 S5 S4 S2 A5) as (H1 & st1 & E1 & L1 & Er & P1 & Ip & F1 & R1 & _); [|exact Ef|].
      { intros b Ib. exact (proj1 (Forall_forall _ _) NE b Ib). }
      exists H1, st1, (W ++ wb p (List.concat c)). split; [exact E1|]. split; [exact L1|]. split; [|split; [rewrite app_assoc; exact P1|rewrite R1; exact S1]].
      rewrite app_assoc. apply Forall_app. split.
      - apply done_off; [exact A7|]. apply (nd_split (dn ++ df) [] (List.concat c) []). cbn. rewrite app_nil_r. exact A8.
      - rewrite Er. apply live_done. apply live_on. }
    assert (KEEP : Ok (df ++ finish CFuzzy (List.concat c)) = Ok d ->
      exists H' st' W', each (map lbk c) (add_patterns CFuzzy) (H, st) = ((H', st'), Ok tt) /\ LV H' W' /\ donew W' (dn ++ d)
      /\ (forall c0, pats_ok (hp_pats st' c0) c0 (dn ++ d)) /\ hp_bucket st' = bucket_of lv).
    { intros X. injection X as <-. destruct (keep_ok c H st W (dn ++ df) A1 A5 A6 A2) as (st' & E' & R' & P'). exists H, st', W.
      split; [exact E'|]. split; [exact A1|]. split; [|split; [rewrite app_assoc; exact P'|rewrite R'; exact S1]].
      rewrite app_assoc. apply Forall_app. split; [exact A7|]. apply live_done. exact A6. }
    unfold fuzzy_end in E. cbv zeta in E. destruct f; [exact (SET E)|]. destruct (_ <? mcn)%Z; [exact (KEEP E)|].
    rewrite map_map. change (map (fun x => bk_count (lbk x)) c) with (map lb_count c).
    destruct (max_count (map lb_count c)) as [m|] eqn:Em; [|discriminate]. cbn [bind] in E.
    rewrite (then_ok _ _ _ _ _ _ (H, st) m); [|reflexivity]. destruct (confused _ _ _); auto.
  Qed.

  (** ** LengthPatternCluster *)
  Lemma fuzzy_some : forall bs c f fp df c' f' fp' df', foldM (fuzzy_add mcn) bs (c, f, fp, df) = Ok (c', f', fp', df') ->
    Forall (fun b : list Cluster.item => b <> []) bs -> Forall (fun b => b <> []) c -> Forall (fun b => b <> []) c'.
  Proof.
    induction bs as [|b bs IH]; intros c f fp df c' f' fp' df' E F1 F2; cbn [foldM] in E.
    - injection E as <- _ _ _. exact F2.
    - inversion F1; subst. cbn [fuzzy_add] in E. destruct f.
      + destruct (fuzzy_set fp [b]) as [[p r]|]; [|discriminate]. cbn [bind] in E. apply IH in E; auto.
      + cbn [bind] in E. apply IH in E; auto. apply Forall_app. auto.
  Qed.
  Lemma rights_some : forall bs rs, mapM (length_one mcn level) bs = Ok rs -> Forall (fun b : list Cluster.item => b <> []) bs -> Forall (fun b => b <> []) (rights rs).
  Proof.
    intros bs rs E. apply mapM_ok in E. induction E as [|b r bs rs E _ IH]; intros F; [constructor|]. inversion F; subst. specialize (IH H2).
    destruct r as [d|b']; cbn [rights]; [exact IH|]. constructor; [|exact IH]. apply length_one_keys in E. destruct b; [congruence|].
    intros ->. discriminate.
  Qed.
  Local Notation lbody := (fun b =>
      y <~ lift (hlength_as_cluster mcn b) ;;
      if y : bool then
        k <~ on_heap (hseek mcn level (bucket_pnodes b) (bk_count b)) ;;
        if k : bool then length_set b true
        else length_set b false ;;; add_to_fuzzy mcn b
      else add_to_fuzzy mcn b).
  Lemma len_loop : forall rem H st W dn c f fp df rs c' f' fp' df', mapM (length_one mcn level) rem = Ok rs ->
    foldM (fuzzy_add mcn) (rights rs) (c, f, fp, df) = Ok (c', f', fp', df') ->
    I2 H st W dn c f fp rem -> Forall (fun b => b <> []) rem ->
    exists H' st' W' dn' nd, each (map lbk rem) lbody (H, st) = ((H', st'), Ok tt)
      /\ I2 H' st' W' dn' c' f' fp' [] /\ Permutation dn' (dn ++ List.concat (lefts rs) ++ nd) /\ df' = df ++ nd.
  Proof.
    induction rem as [|b rem IH]; intros H st W dn c f fp df rs c' f' fp' df' E1 E2 I NE.
    - cbn in E1. assert (rs = []) as -> by congruence. cbn in E2. injection E2 as <- <- <- <-. exists H, st, W, dn, [].
      cbn. rewrite !app_nil_r. auto.
    - cbn [mapM] in E1. destruct (length_one mcn level b) as [r|] eqn:Eb; [|discriminate]. cbn [bind] in E1.
      destruct (mapM (length_one mcn level) rem) as [rs'|] eqn:Er; [|discriminate]. cbn [bind] in E1. assert (rs = r :: rs') as -> by congruence. clear E1.
      inversion NE as [|x y Nb NE']; subst x y.
      assert (Ib : Forall itok b).
      { pose proof (l_items _ _ _ _ _ _ _ _ I) as A. cbn [List.concat] in A. apply Forall_app in A. destruct A as [_ A]. apply Forall_app in A. tauto. }
      unfold length_one in Eb. destruct (length_as_cluster mcn b) as [y|] eqn:Ey; [|discriminate]. cbn [bind] in Eb.
      assert (FZ : forall H0 st0 W0 dn0 b', lbk b' = lbk b -> b' <> [] -> r = inr b' -> I2 H0 st0 W0 dn0 c f fp (b' :: rem) -> Permutation dn0 dn ->
        exists H' st' W' dn' nd, (s <~ add_to_fuzzy mcn (lbk b) ;; each (map lbk rem) lbody) (H0, st0) = ((H', st'), Ok tt)
          /\ I2 H' st' W' dn' c' f' fp' [] /\ Permutation dn' (dn ++ List.concat (lefts (r :: rs')) ++ nd) /\ df' = df ++ nd).
      { intros H0 st0 W0 dn0 b' Eq Nb' -> I0 P0. cbn [rights foldM] in E2.
        destruct (fuzzy_add mcn (c, f, fp, df) b') as [[[[c1 f1] fp1] df1]|] eqn:Ea; [|discriminate]. cbn [bind] in E2.
        destruct (add_fuzzy_ok H0 st0 W0 dn0 c f fp df b' rem c1 f1 fp1 df1 I0 Nb' Ea) as (H1 & st1 & W1 & nd1 & F1 & -> & I1).
        destruct (IH _ _ _ _ _ _ _ _ rs' _ _ _ _ eq_refl E2 I1 NE') as (H2 & st2 & W2 & dn2 & nd2 & F2 & J2 & P2 & Q2).
        exists H2, st2, W2, dn2, (nd1 ++ nd2). rewrite Eq in F1. rewrite (then_ok _ _ _ _ _ _ _ _ F1). split; [exact F2|]. split; [exact J2|].
        split; [|rewrite app_assoc; exact Q2]. rewrite P2, P0. cbn [lefts]. rewrite <- app_assoc. apply Permutation_app_head.
        apply Permutation_app_swap_app. }
      cbn [map each].
      assert (YS : lift (hlength_as_cluster mcn (lbk b)) (H, st) = ((H, st), Ok y)) by (unfold lift; rewrite hlen_ok, Ey by exact Ib; reflexivity).
      destruct y.
      + destruct (pre_seek mcn level (flat_map it_bag b)) as [s|] eqn:Es; [|discriminate]. cbn [bind] in Eb.
        destruct (length_pattern b) as [p|] eqn:Ep; [|discriminate]. cbn [bind] in Eb. cbv zeta in Eb.
        pose proof (bucket_seek_ok b H W (l_lv _ _ _ _ _ _ _ _ I) Ib) as Sk. rewrite Es in Sk.
        destruct s.
        * injection Eb as <-. destruct (length_set_ok true H st W dn c f fp b rem p I Ep) as (H1 & st1 & W1 & F1 & I1). cbn [rights] in E2.
          destruct (IH _ _ _ _ _ _ _ _ rs' _ _ _ _ eq_refl E2 I1 NE') as (H2 & st2 & W2 & dn2 & nd2 & F2 & J2 & P2 & Q2).
          exists H2, st2, W2, dn2, nd2. split; [|split; [exact J2|split; [|exact Q2]]].
          -- rewrite (then_ok _ _ _ _ _ _ (H1, st1) tt); [exact F2|]. rewrite (then_ok _ _ _ _ _ _ _ _ YS).
             rewrite (then_ok _ _ _ _ _ _ _ _ (on_heap_ok _ _ _ _ st _ _ Sk)). exact F1.
          -- rewrite P2. cbn [lefts List.concat]. rewrite <- !app_assoc. reflexivity.
        * injection Eb as <-. destruct (length_set_ok false H st W dn c f fp b rem p I Ep) as (H1 & st1 & W1 & F1 & I1).
          destruct (FZ H1 st1 W1 dn _ (lbk_pat p b)) as (H2 & st2 & W2 & dn2 & nd2 & F2 & J2).
          { destruct b; [congruence|discriminate]. } { reflexivity. } { exact I1. } { reflexivity. }
          exists H2, st2, W2, dn2, nd2. split; [|exact J2]. rewrite <- F2.
          unfold andthen at 1. rewrite (then_ok _ _ _ _ _ _ _ _ YS).
          rewrite (then_ok _ _ _ _ _ _ _ _ (on_heap_ok _ _ _ _ st _ _ Sk)). rewrite (then_ok _ _ _ _ _ _ _ _ F1). reflexivity.
      + injection Eb as <-. destruct (FZ H st W dn b eq_refl Nb eq_refl I (Permutation_refl _)) as (H2 & st2 & W2 & dn2 & nd2 & F2 & J2).
        exists H2, st2, W2, dn2, nd2. split; [|exact J2]. rewrite <- F2. unfold andthen at 1. rewrite (then_ok _ _ _ _ _ _ _ _ YS). reflexivity.
  Qed.
  Local Notation fbody := (fun b => y <~ lift (hlength_as_cluster mcn b) ;; if y : bool then length_set b true else add_patterns CLength b).
  Lemma final_loop : forall rem H st W dn c f fp rs, mapM (length_final mcn) rem = Ok rs -> I2 H st W dn c f fp rem ->
    exists H' st' W', each (map lbk rem) fbody (H, st) = ((H', st'), Ok tt) /\ I2 H' st' W' (dn ++ List.concat rs) c f fp [].
  Proof.
    induction rem as [|b rem IH]; intros H st W dn c f fp rs E I.
    - cbn in E. assert (rs = []) as -> by congruence. exists H, st, W. cbn. rewrite app_nil_r. auto.
    - cbn [mapM] in E. destruct (length_final mcn b) as [r|] eqn:Eb; [|discriminate]. cbn [bind] in E.
      destruct (mapM (length_final mcn) rem) as [rs'|] eqn:Er; [|discriminate]. cbn [bind] in E. assert (rs = r :: rs') as -> by congruence. clear E.
      assert (Ib : Forall itok b).
      { pose proof (l_items _ _ _ _ _ _ _ _ I) as A. cbn [List.concat] in A. apply Forall_app in A. destruct A as [_ A]. apply Forall_app in A. tauto. }
      unfold length_final in Eb. destruct (length_as_cluster mcn b) as [y|] eqn:Ey; [|discriminate]. cbn [bind] in Eb.
      assert (YS : lift (hlength_as_cluster mcn (lbk b)) (H, st) = ((H, st), Ok y)) by (unfold lift; rewrite hlen_ok, Ey by exact Ib; reflexivity).
      assert (ST : exists H1 st1 W1, (if y then length_set (lbk b) true else add_patterns CLength (lbk b)) (H, st) = ((H1, st1), Ok tt)
         /\ I2 H1 st1 W1 (dn ++ r) c f fp rem).
      { destruct y.
        - destruct (length_pattern b) as [p|] eqn:Ep; [|discriminate]. cbn [bind] in Eb. injection Eb as <-.
          destruct (length_set_ok true H st W dn c f fp b rem p I Ep) as (H1 & st1 & W1 & F1 & I1). eauto.
        - injection Eb as <-. destruct (add_patterns_ok CLength H st W dn c f fp b rem I) as (st1 & F1 & I1). eauto. }
      destruct ST as (H1 & st1 & W1 & F1 & I1). destruct (IH _ _ _ _ _ _ _ rs' eq_refl I1) as (H2 & st2 & W2 & F2 & J2).
      exists H2, st2, W2. cbn [map each List.concat]. rewrite app_assoc. split; [|exact J2].
      rewrite (then_ok _ _ _ _ _ _ (H1, st1) tt); [exact F2|]. rewrite (then_ok _ _ _ _ _ _ _ _ YS). exact F1.
  Qed.
  Lemma length_fuzzy_ok : forall H st W dn l d d4 bs d5, foldM len_add l [] = Ok d -> hp_lengths st = map (onv lbk) d ->
    I2 H st W dn [] false None (map snd d) -> length_stage mcn level l = Ok (d4, bs) -> fuzzy_stage mcn bs = Ok d5 ->
    exists H' st' W' dn', (length_cluster mcn level ;;; fuzzy_cluster mcn) (H, st) = ((H', st'), Ok tt)
      /\ LV H' W' /\ Permutation dn' (dn ++ d4 ++ d5) /\ donew W' dn' /\ (forall c0, pats_ok (hp_pats st' c0) c0 dn') /\ hp_bucket st' = bucket_of lv.
  Proof.
    intros H st W dn l d d4 bs d5 Ed El I E4 E5.
    assert (NE : Forall (fun b => b <> []) (map snd d)).
    { apply Forall_map. apply (len_add_some _ _ _ Ed). constructor. }
    assert (EB : map snd (hp_lengths st) = map lbk (map snd d)) by (rewrite El, !map_map; reflexivity).
    assert (LOOP : (r <- mapM (length_one mcn level) (map snd d) ;; Ok (List.concat (lefts r), rights r)) = Ok (d4, bs) ->
      exists H' st' W' dn', (each (map lbk (map snd d)) lbody ;;; fuzzy_cluster mcn) (H, st) = ((H', st'), Ok tt)
      /\ LV H' W' /\ Permutation dn' (dn ++ d4 ++ d5) /\ donew W' dn' /\ (forall c0, pats_ok (hp_pats st' c0) c0 dn') /\ hp_bucket st' = bucket_of lv).
    { intros X. destruct (mapM (length_one mcn level) (map snd d)) as [rs|] eqn:Er; [|discriminate]. cbn [bind] in X. injection X as <- <-.
      unfold fuzzy_stage in E5. destruct (foldM (fuzzy_add mcn) (rights rs) ([], false, None, [])) as [[[[c1 f1] fp1] df1]|] eqn:Ef; [|discriminate].
      cbn [bind] in E5.
      destruct (len_loop _ _ _ _ _ _ _ _ _ _ _ _ _ _ Er Ef I NE) as (H1 & st1 & W1 & dn1 & nd & F1 & I1 & P1 & Q1). cbn [app] in Q1. subst df1.
      assert (I1' : I2 H1 st1 W1 ((dn ++ List.concat (lefts rs)) ++ nd) c1 f1 fp1 []).
      { apply (I2_perm _ _ _ dn1); [exact I1|]. rewrite P1, <- app_assoc. reflexivity. }
      destruct (fuzzy_cluster_ok H1 st1 W1 _ c1 f1 fp1 nd d5 I1') as (H2 & st2 & W2 & F2 & A & B & C & D).
      { apply (fuzzy_some _ _ _ _ _ _ _ _ _ Ef); [|constructor]. exact (rights_some _ _ Er NE). } { exact E5. }
      exists H2, st2, W2, ((dn ++ List.concat (lefts rs)) ++ d5). rewrite (then_ok _ _ _ _ _ _ _ _ F1). split; [exact F2|]. split; [exact A|].
      split; [rewrite <- app_assoc; reflexivity|]. auto. }
    assert (NOF : bs = [] -> forall H st W dn, I2 H st W dn [] false None [] -> 
      exists H' st' W' , fuzzy_cluster mcn (H, st) = ((H', st'), Ok tt)
      /\ LV H' W' /\ donew W' (dn ++ d5) /\ (forall c0, pats_ok (hp_pats st' c0) c0 (dn ++ d5)) /\ hp_bucket st' = bucket_of lv).
    { intros -> H0 st0 W0 dn0 I0. apply (fuzzy_cluster_ok H0 st0 W0 dn0 [] false None [] d5); [rewrite app_nil_r; exact I0|constructor|exact E5]. }
    unfold length_stage in E4. rewrite Ed in E4. cbn [bind] in E4. cbv zeta in E4.
    assert (LE : length_cluster mcn level (H, st) =
      (let bs := map lbk (map snd d) in
       if is_nil bs then ret tt
       else if (Z.of_nat (length bs) <? mcn)%Z then
         m <~ lift (max_count (map bk_count bs)) ;;
         if negb (confused (zsum (map bk_count bs)) m mcn) then each bs fbody else each bs lbody
       else each bs lbody) (H, st)).
    { unfold length_cluster. rewrite (then_ok _ _ _ self _ _ (H, st) st) by reflexivity. cbv zeta. rewrite EB. reflexivity. }
    cbv zeta in LE. rewrite map_length in LE.
    assert (MC : map bk_count (map lbk (map snd d)) = map lb_count (map snd d)) by (rewrite map_map; reflexivity). rewrite MC in LE.
    unfold andthen at 1. rewrite LE. clear LE.
    destruct (map snd d) as [|b0 br] eqn:Em.
    { injection E4 as <- <-. cbn [is_nil map ret]. destruct (NOF eq_refl H st W dn I) as (H2 & st2 & W2 & F2 & A & B & C & D).
      exists H2, st2, W2, (dn ++ d5). split; [exact F2|]. split; [exact A|]. split; [reflexivity|]. auto. }
    rewrite <- Em in *. assert (NN : is_nil (map lbk (map snd d)) = false) by (rewrite Em; reflexivity).
    assert (NN2 : is_nil (map snd d) = false) by (rewrite Em; reflexivity). rewrite NN. rewrite NN2 in E4. clear NN NN2.
    destruct (Z.of_nat (length (map snd d)) <? mcn)%Z; [|exact (LOOP E4)].
    destruct (max_count (map lb_count (map snd d))) as [m|] eqn:Emx; [|discriminate]. cbn [bind] in E4.
    unfold andthen at 1. cbn [lift]. destruct (negb _); [|exact (LOOP E4)].
    destruct (mapM (length_final mcn) (map snd d)) as [rs|] eqn:Er; [|discriminate]. cbn [bind] in E4. injection E4 as <- <-.
    destruct (final_loop _ _ _ _ _ _ _ _ _ Er I) as (H1 & st1 & W1 & F1 & I1). rewrite F1.
    destruct (NOF eq_refl H1 st1 W1 _ I1) as (H2 & st2 & W2 & F2 & A & B & C & D).
    exists H2, st2, W2, ((dn ++ List.concat rs) ++ d5). split; [exact F2|]. split; [exact A|]. split; [rewrite <- app_assoc; reflexivity|]. auto.
  Qed.
End Len.
