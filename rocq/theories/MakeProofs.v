(** From the loads of a PatternMaker to the clusters that make() yields. *)
From Coq Require Import String.
From Verif Require Import PyStr Defs UrlLib ParseUtils Spec Views Trees Cluster Patterns Matcher Maker Observe PyStrProofs DefsProofs DictProofs RegexProofs PieceProofs LengthProofs UrlProofs DigestProofs GroupProofs TreeProofs LoadProofs TokProofs LengthStage PieceStage EntProofs GenCluster FlatCluster ViewProofs KeyProofs TokUniq RouteProofs MultiStage OuterLevel OuterCluster.
From Coq Require Import Lia Permutation.

Lemma fold_insert_In : forall l s x, In x (fold_left (fun s x => set_insert x s) l s) <-> In x l \/ In x s.
Proof.
  induction l as [|y l IH]; intros s x; cbn [fold_left In]; [tauto|]. rewrite IH.
  change (set_insert y s) with (set_insert y s). rewrite set_insert_In. intuition congruence.
Qed.
Lemma fold_insert_sorted : forall l s, Sorted.StronglySorted str_lt s -> Sorted.StronglySorted str_lt (fold_left (fun s x => set_insert x s) l s).
Proof. induction l as [|y l IH]; intros s S; cbn [fold_left]; [exact S|]. apply IH. apply set_insert_sorted. exact S. Qed.
Lemma meta_set_sorted : forall l, meta_sorted (meta_set l).
Proof.
  intros [|x l]; [reflexivity|]. unfold meta_sorted, meta_set, update_meta.
  destruct (sorted_set (x :: l)) as [|y r] eqn:E; [apply (proj1 (sorted_set_nil_iff _)) in E; discriminate|]. f_equal. rewrite <- E. apply sorted_unique.
  - apply fold_insert_sorted. constructor.
  - apply sorted_set_sorted.
  - intros z. rewrite fold_insert_In. cbn [In]. tauto.
Qed.

Lemma loads_val : forall nv h, Forall (fun sm => t_val (mk_root (snd sm)) = empty_parsed_piece) (loads nv h).
Proof.
  intros nv h. induction h as [|[url meta] h IH] using rev_ind; [constructor|]. rewrite loads_snoc.
  set (st := loads nv h) in *. clearbody st. unfold load.
  destruct (parse nv url) as [[m [[|p l]|[|p l]]]|e]; try exact IH.
  set (sid := parsed_digest m (PUrl (p :: l))).
  set (mk := match dget str_eqb sid st with Some _ => _ | None => _ end).
  assert (V : t_val (mk_root mk) = empty_parsed_piece).
  { unfold mk. destruct (dget str_eqb sid st) as [mk0|] eqn:E; [|reflexivity].
    apply (dget_some_in str_eqb str_eqb_iff) in E. rewrite Forall_forall in IH. apply (IH _ E). }
  assert (X : t_val (mk_root (fst (maker_load mk (p :: l) meta))) = empty_parsed_piece).
  { unfold maker_load, build_from_parsed_pieces.
    set (kvs := map (fun p => (p, @None str)) (p :: l)).
    pose proof (build_val (add_meta meta) 1 kvs (mk_root mk) None) as BV.
    destruct (build (mk_root mk) kvs 1 (add_meta meta) None) as [t1 [n1|]] eqn:B; cbn [fst snd mk_root] in *.
    - rewrite <- V, <- BV. destruct (true && negb n1); [|reflexivity]. destruct t1 as [v0 p0 c0 m0 k0]. reflexivity.
    - rewrite build_val. exact V. }
  destruct (maker_load mk (p :: l) meta) as [mk' o]. cbn [fst] in X |- *.
  clear - IH X. induction IH as [|[k v] st H F IH]; cbn [dset].
  - constructor; [exact X|constructor].
  - destruct (str_eqb sid k); constructor; assumption.
Qed.

Lemma cset_level : forall raw0 t, Forall all_legal raw0 -> vals_ok (level_vals raw0) t ->
  forall pre, vals_ok (levels (oV (map cset (pre ++ raw0))) (S (length pre)) (length raw0)) t.
Proof.
  induction raw0 as [|r raw0 IH]; intros t L V pre; [exact Logic.I|]. inversion L as [|? ? Lr L']; subst.
  unfold levels. cbn [length seq map vals_ok level_vals] in *. rewrite Forall_forall in V |- *. intros k I. destruct (V k I) as [V1 V2]. split.
  - destruct V1 as (s & S1 & S2 & S3). exists s. split; [exact S1|]. split; [exact S2|].
    rewrite nth_error_map, nth_error_app2 by lia. rewrite Nat.sub_diag. cbn [nth_error option_map]. f_equal.
    apply cset_fuzzy; [exact Lr|exact S1|]. rewrite <- S3, S2. reflexivity.
  - specialize (IH k L' V2 (pre ++ [r])). rewrite <- app_assoc, app_length in IH. cbn [app length] in IH. rewrite Nat.add_1_r in IH. exact IH.
Qed.

(** what is known about the tree of a maker *)
Record mfacts (nv : str -> bool) (h : list (str * option str)) (sid : str) (mk : maker) (raw0 : list str) : Prop := {
  mf_url : exists url0, url_path nv url0 = Some (mk_meta mk, raw0);
  mf_dig : digest_of (mk_meta mk) raw0 = sid;
  mf_leg : Forall all_legal raw0;
  mf_dep : length raw0 = depth (mk_meta mk);
  mf_non : raw0 <> [];
  mf_tok : tok (oV (map cset raw0)) (length raw0) 0 (mk_root mk);
  mf_val : t_val (mk_root mk) = empty_parsed_piece;
  mf_met : Forall (fun e => meta_sorted (e_meta e)) (ents (mk_root mk));
  mf_cnt : Forall (fun e => e_cnt e = 1%Z) (ents (mk_root mk));
  mf_pcs : Permutation (map e_pieces (ents (mk_root mk))) (map (map piece_of) (distinct_paths nv sid h));
  mf_mem : forall e, In e (ents (mk_root mk)) -> e_meta e = meta_at (mk_root mk) (e_pieces e)
}.
Lemma in_ents : forall d t, wft d t -> forall e, In e (ents t) -> exists n, node_at t (e_pieces e) = Some n /\ length (e_pieces e) = d /\ e_cnt e = t_cnt n /\ e_meta e = t_meta n.
Proof.
  intros d t W e I. unfold ents in I. apply in_map_iff in I. destruct I as (nodes & <- & I).
  apply (in_paths d t W) in I. destruct I as (ks & L & N & ->). destruct (node_at t ks) as [n|] eqn:E; [|congruence].
  assert (K : e_pieces (ent (along t ks)) = ks).
  { rewrite <- (along_pieces ks t) at 2 by congruence. unfold e_pieces, e_path, ent, path_pieces. cbn [fst]. rewrite map_map. reflexivity. }
  exists n. rewrite K. split; [exact E|]. split; [exact L|]. unfold ent, e_cnt, e_meta. cbn [fst snd]. rewrite (along_leaf _ _ n E). split; reflexivity.
Qed.
Lemma maker_facts : forall nv h sid mk, In (sid, mk) (loads nv h) -> exists raw0, mfacts nv h sid mk raw0.
Proof.
  intros nv h sid mk H. pose proof (loads_val nv h) as LV. rewrite Forall_forall in LV. specialize (LV _ H). cbn [snd] in LV.
  destruct (c18_paths nv h sid mk H) as (W & PI & ND & PF).
  pose proof H as H'. apply loads_maker in H'. destruct H' as [GN [(url0 & raw0 & U0 & D0 & _ & TK)]].
  destruct (url_path_depth _ _ _ _ U0) as [LD NR]. pose proof (url_path_parse _ _ _ _ U0) as (_ & LG & _).
  assert (TO : tok (oV (map cset raw0)) (length raw0) 0 (mk_root mk)).
  { split; [exact LV|]. split; [rewrite LD; exact W|]. apply (cset_level raw0 _ LG (ok_vals _ _ _ TK) []). }
  exists raw0. split; try assumption.
  - exists url0. exact U0.
  - apply Forall_forall. intros e I. destruct (in_ents _ _ W e I) as (n & N1 & N2 & N3 & N4). rewrite N4.
    assert (M : meta_at (mk_root mk) (e_pieces e) = t_meta n) by (unfold meta_at; rewrite N1; reflexivity). rewrite <- M.
    rewrite (ok_meta _ _ _ TK).
    + apply meta_set_sorted.
    + unfold level_vals. rewrite map_length. congruence.
    + intros Z. rewrite Z in N2. destruct raw0; [congruence|]. cbn [length] in *. lia.
  - apply Forall_forall. intros e I. destruct (in_ents _ _ W e I) as (n & N1 & N2 & N3 & N4).
    assert (IP : In (e_pieces e) (map path_pieces (paths (mk_root mk)))).
    { rewrite <- ents_pieces. apply in_map. exact I. }
    apply PI in IP. destruct IP as (raw & IR & ER).
    assert (LR : Forall all_legal raw).
    { unfold distinct_paths in IR. apply nodup_In in IR. eapply group_legal. exact IR. }
    pose proof (c15_counts nv h sid mk raw H) as C. rewrite <- ER in C. unfold cnt_at in C. rewrite N1 in C. rewrite N3, C.
    + assert (X : length (filter (prefixb raw) (distinct_paths nv sid h)) = 1).
      { assert (ND' : NoDup (distinct_paths nv sid h)) by apply NoDup_nodup.
        assert (LL : forall r, In r (distinct_paths nv sid h) -> length r = length raw).
        { intros r Ir. destruct (PF r raw Ir IR) as (A & _). destruct (PF raw raw IR IR) as (B & _). congruence. }
        revert IR ND' LL. clear. induction (distinct_paths nv sid h) as [|x l IH]; intros I N L; [destruct I|].
        inversion N as [|? ? N1 N2]; subst. cbn [filter]. destruct (prefixb raw x) eqn:P.
        - apply prefixb_eq in P; [|symmetry; apply L; left; reflexivity]. subst x. cbn [length]. f_equal.
          assert (Z : filter (prefixb raw) l = []).
          { clear IH. assert (Q : forall y, In y l -> prefixb raw y = false).
            { intros y Iy. destruct (prefixb raw y) eqn:Py; [|reflexivity]. exfalso. apply prefixb_eq in Py; [|symmetry; apply L; right; exact Iy].
              subst y. contradiction. }
            clear - Q. induction l as [|y l IH]; [reflexivity|]. cbn [filter]. rewrite (Q y) by (left; reflexivity). apply IH.
            intros z Iz. apply Q. right. exact Iz. }
          rewrite Z. reflexivity.
        - destruct I as [->|I]; [rewrite prefixb_refl in P; discriminate|]. apply IH; [exact I|exact N2|]. intros r Ir. apply L. right. exact Ir. }
      rewrite X. reflexivity.
    + eapply Forall_impl; [|exact LR]. intros a Ha. apply all_legal_iff. exact Ha.
  - rewrite ents_pieces. apply NoDup_Permutation; [exact ND| |].
    + assert (Z : forall l : list (list str), NoDup l -> (forall x, In x l -> Forall all_legal x) -> NoDup (map (map piece_of) l)).
      { clear. induction 1 as [|x l N1 N2 IH]; intros L; cbn [map]; constructor.
        - intros I. apply in_map_iff in I. destruct I as (y & E & Iy). apply pieces_inj in E; [subst; contradiction| |]; apply L; [right; exact Iy|left; reflexivity].
        - apply IH. intros y Iy. apply L. right. exact Iy. }
      apply Z; [apply NoDup_nodup|]. intros x Ix. unfold distinct_paths in Ix. apply nodup_In in Ix. eapply group_legal. exact Ix.
    + intros ks. rewrite PI, in_map_iff. split; intros (raw & A & B); exists raw; auto.
  - intros e I. destruct (in_ents _ _ W e I) as (n & N1 & N2 & N3 & N4). unfold meta_at. rewrite N1. exact N4.
Qed.

Notation mparts mcn raw0 mk := (fun tp : tree * list str => tok (oV (map cset raw0)) (length (map cset raw0)) 0 (fst tp)
  /\ t_val (fst tp) = empty_parsed_piece /\ opart mcn (map cset raw0) (path_depth (mk_meta mk)) (fst tp) (snd tp)).
Lemma maker_clusters : forall nv h sid mk raw0 mcn, (2 <= mcn)%Z -> mfacts nv h sid mk raw0 ->
  exists tps, maker_make mcn mk = Ok (map fst tps) /\ Permutation (flat_map ents (map fst tps)) (ents (mk_root mk))
    /\ Forall (mparts mcn raw0 mk) tps.
Proof.
  intros nv h sid mk raw0 mcn M F. unfold maker_make, cluster.
  assert (CN : map cset raw0 <> []) by (destruct raw0; [destruct (mf_non _ _ _ _ _ F eq_refl)|discriminate]).
  pose proof (mf_tok _ _ _ _ _ F) as W. rewrite <- (mf_dep _ _ _ _ _ F). rewrite <- (map_length cset raw0) in W |- *.
  apply (outer_cluster mcn M (map cset raw0) CN _ _ _ W); [apply F|apply F].
Qed.

(** ** C19 *)
Lemma mapM_all : forall A B (f : A -> res B) l, (forall x, In x l -> exists y, f x = Ok y) -> exists ys, mapM f l = Ok ys /\ Forall2 (fun x y => f x = Ok y) l ys.
Proof.
  intros A B f l H. induction l as [|x l IH]; [exists []; split; [reflexivity|constructor]|].
  destruct (H x (or_introl eq_refl)) as [y Hy]. destruct IH as (ys & E & F); [intros z Iz; apply H; right; exact Iz|].
  exists (y :: ys). cbn [mapM]. rewrite Hy. cbn [bind]. rewrite E. split; [reflexivity|]. constructor; assumption.
Qed.
Lemma c19 : forall nv h mcn, (2 <= mcn)%Z -> exists cs, make mcn (loads nv h) = Ok cs.
Proof.
  intros nv h mcn M. unfold make.
  destruct (mapM_all _ _ (fun sm => ts <- maker_make mcn (snd sm) ;; Ok (map (fun t => (mk_meta (snd sm), t)) ts)) (loads nv h)) as (ys & E & _).
  - intros [sid mk] I. destruct (maker_facts nv h sid mk I) as (raw0 & F). destruct (maker_clusters nv h sid mk raw0 mcn M F) as (tps & E & _).
    cbn [snd]. rewrite E. cbn [bind]. eexists. reflexivity.
  - rewrite E. cbn [bind]. eexists. reflexivity.
Qed.
Lemma run_level_small : forall mcn inner t pd kw, (mcn <= 1)%Z -> (0 < t_cnt t)%Z -> t_val t = empty_parsed_piece ->
  run_level mcn inner 0 false (pd =? 0) kw [PN None [] t] = Err (if (mcn =? 1)%Z then EAttr else EUnbound).
Proof.
  intros mcn inner [v p c m ks] pd kw M C V. cbn [t_val t_cnt] in V, C. subst v. unfold run_level, piece_stage, piece_bags, group_nodes, dapp.
  cbn [fold_left dget app is_nil pn_piece t_piece t_val pn_tree map fst snd length]. cbn [andb].
  assert (N : (Z.of_nat 1 <? mcn)%Z = false) by (apply Z.ltb_ge; exact M). cbn [length]. rewrite N. cbn [mapM].
  unfold piece_one, bag_count, bag_pcount, zsum. cbn [map fst snd fold_right pn_cnt t_cnt pn_tree pn_parent].
  assert (N1 : (c + 0 <? mcn)%Z = false) by (apply Z.ltb_ge; lia). unfold pn_cnt, t_cnt. cbn [pn_tree]. rewrite N1. rewrite Z.sub_diag.
  destruct (Z.eqb_spec mcn 1) as [->|NE].
  - reflexivity.
  - assert (N2 : (mcn <=? 0)%Z = true) by (apply Z.leb_le; lia). rewrite N2. cbn [bind piece_item snd]. 
    reflexivity.
Qed.
Lemma c19_small : forall nv h mcn, (mcn <= 1)%Z -> loads nv h <> [] ->
  make mcn (loads nv h) = Err (if (mcn =? 1)%Z then EAttr else EUnbound).
Proof.
  intros nv h mcn M NE. destruct (loads nv h) as [|[sid mk] st] eqn:L; [congruence|].
  assert (I : In (sid, mk) (loads nv h)) by (rewrite L; left; reflexivity).
  destruct (maker_facts nv h sid mk I) as (raw0 & F).
  assert (X : maker_make mcn mk = Err (if (mcn =? 1)%Z then EAttr else EUnbound)).
  { unfold maker_make, cluster.
    change (cluster_n 2 mcn (depth (mk_meta mk)) (path_depth (mk_meta mk)) false (mk_root mk)) with
      (cluster_loop mcn (fun (d : nat) (kw : bool) (t : tree) => cluster_n 1 mcn d d kw t) (S (length (paths (mk_root mk)))) (depth (mk_meta mk)) (path_depth (mk_meta mk)) false (mk_root mk)).
    generalize (fun (d : nat) (kw : bool) (t : tree) => cluster_n 1 mcn d d kw t). intros inner.
    cbn [cluster_loop]. pose proof (mf_tok _ _ _ _ _ F) as (_ & W & _). pose proof (wft_pos _ _ W) as P.
    destruct (Z.leb_spec (t_cnt (mk_root mk)) 0) as [P'|_]; [exfalso; lia|].
    unfold process. pose proof (mf_dep _ _ _ _ _ F) as DE. destruct (depth (mk_meta mk)) as [|d] eqn:DD.
    { exfalso. pose proof (mf_non _ _ _ _ _ F). destruct raw0; [congruence|discriminate]. }
    cbn [proc]. change (S d =? 0) with false. rewrite (run_level_small mcn inner (mk_root mk) (path_depth (mk_meta mk)) false M P (mf_val _ _ _ _ _ F)). reflexivity. }
  unfold make. cbn [mapM snd]. rewrite X. reflexivity.
Qed.

(** ** all clusters *)
Notation mpart mcn nv h m t Ps := (exists sid mk raw0, In (sid, mk) (loads nv h) /\ m = mk_meta mk /\ mfacts nv h sid mk raw0
   /\ tok (oV (map cset raw0)) (length (map cset raw0)) 0 t /\ opart mcn (map cset raw0) (path_depth (mk_meta mk)) t Ps /\ (forall e, In e (ents t) -> In e (ents (mk_root mk)))).
Lemma make_all : forall nv h mcn, (2 <= mcn)%Z -> exists cs, make mcn (loads nv h) = Ok cs
  /\ Permutation (flat_map (fun mt => map (pair (fst mt)) (ents (snd mt))) cs)
                 (flat_map (fun sm => map (pair (mk_meta (snd sm))) (ents (mk_root (snd sm)))) (loads nv h))
  /\ (forall m t, In (m, t) cs -> exists Ps, mpart mcn nv h m t Ps).
Proof.
  intros nv h mcn M. unfold make.
  assert (G : forall st, (forall sm, In sm st -> In sm (loads nv h)) -> exists rs,
    mapM (fun sm => ts <- maker_make mcn (snd sm) ;; Ok (map (fun t => (mk_meta (snd sm), t)) ts)) st = Ok rs
    /\ Permutation (flat_map (fun mt => map (pair (fst mt)) (ents (snd mt))) (List.concat rs))
                 (flat_map (fun sm => map (pair (mk_meta (snd sm))) (ents (mk_root (snd sm)))) st)
    /\ (forall m t, In (m, t) (List.concat rs) -> exists Ps, mpart mcn nv h m t Ps)).
  { induction st as [|[sid mk] st IH]; intros S.
    - exists []. split; [reflexivity|]. split; [constructor|]. intros m t [].
    - destruct IH as (rs & E & P & F); [intros sm I; apply S; right; exact I|].
      assert (I : In (sid, mk) (loads nv h)) by (apply S; left; reflexivity).
      destruct (maker_facts nv h sid mk I) as (raw0 & MF). destruct (maker_clusters nv h sid mk raw0 mcn M MF) as (tps & E' & P' & F').
      exists (map (fun t => (mk_meta mk, t)) (map fst tps) :: rs). cbn [mapM snd]. rewrite E'. cbn [bind]. rewrite E. cbn [bind]. split; [reflexivity|]. split.
      + cbn [List.concat flat_map snd]. rewrite flat_map_app. apply Permutation_app; [|exact P].
        apply Permutation_trans with (map (pair (mk_meta mk)) (flat_map ents (map fst tps))); [|apply Permutation_map; exact P'].
        clear. induction tps as [|tp tps IH]; [constructor|]. cbn [map flat_map fst snd]. rewrite map_app. apply Permutation_app_head. exact IH.
      + intros m t J. cbn [List.concat] in J. apply in_app_or in J. destruct J as [J|J]; [|apply F; exact J].
        apply in_map_iff in J. destruct J as (t' & J1 & J2). inversion J1; subst. apply in_map_iff in J2. destruct J2 as ([t0 Ps] & J2 & J3). cbn [fst] in J2. subst t0.
        rewrite Forall_forall in F'. destruct (F' _ J3) as (A & B & C). exists Ps. exists sid, mk, raw0. split; [exact I|]. split; [reflexivity|]. split; [exact MF|].
        split; [exact A|]. split; [exact C|]. intros e Ie. apply (Permutation_in _ P'). apply in_flat_map. exists t. split; [|exact Ie].
        apply in_map_iff. exists (t, Ps). split; [reflexivity|exact J3]. }
  destruct (G (loads nv h) (fun _ I => I)) as (rs & E & P & F). exists (List.concat rs). rewrite E. cbn [bind]. auto.
Qed.
Lemma make_ok : forall nv h mcn cs, (2 <= mcn)%Z -> make mcn (loads nv h) = Ok cs ->
  Permutation (flat_map (fun mt => map (pair (fst mt)) (ents (snd mt))) cs)
                 (flat_map (fun sm => map (pair (mk_meta (snd sm))) (ents (mk_root (snd sm)))) (loads nv h))
  /\ (forall m t, In (m, t) cs -> exists Ps, mpart mcn nv h m t Ps).
Proof.
  intros nv h mcn cs M E. destruct (make_all nv h mcn M) as (cs' & E' & X). rewrite E in E'. inversion E'; subst. exact X.
Qed.

(** ** C20 *)
Lemma in_loaded : forall nv h m ks, In (m, ks) (loaded nv h) <-> exists raw me, In (m, raw, me) (accepted nv h) /\ ks = map piece_of raw.
Proof.
  intros. unfold loaded. rewrite nodup_In, in_map_iff. split.
  - intros ([[m' raw] me] & E & I). cbn [fst snd] in E. inversion E; subst. eauto.
  - intros (raw & me & I & ->). exists (m, raw, me). auto.
Qed.
Lemma flat_pieces : forall (m : url_meta) t, map (fun me : url_meta * entry => (fst me, e_pieces (snd me))) (map (pair m) (ents t)) = map (fun nodes => (m, path_pieces nodes)) (paths t).
Proof.
  intros. rewrite map_map. cbn [fst snd]. unfold ents. rewrite map_map. apply map_ext. intros nodes.
  unfold e_pieces, e_path, ent, path_pieces. cbn [fst]. rewrite map_map. reflexivity.
Qed.
Lemma map_flat_map : forall A B C (f : B -> C) (g : A -> list B) l, map f (flat_map g l) = flat_map (fun x => map f (g x)) l.
Proof. intros. induction l as [|x l IH]; [reflexivity|]. cbn [flat_map]. rewrite map_app, IH. reflexivity. Qed.
Lemma loads_disjoint : forall nv h sid1 mk1 sid2 mk2 raw, In (sid1, mk1) (loads nv h) -> In (sid2, mk2) (loads nv h) ->
  mk_meta mk1 = mk_meta mk2 -> In raw (distinct_paths nv sid1 h) -> In raw (distinct_paths nv sid2 h) -> (sid1, mk1) = (sid2, mk2).
Proof.
  intros nv h sid1 mk1 sid2 mk2 raw I1 I2 E R1 R2. destruct (c18_paths nv h sid1 mk1 I1) as (_ & _ & _ & P1). destruct (c18_paths nv h sid2 mk2 I2) as (_ & _ & _ & P2).
  destruct (P1 raw raw R1 R1) as (_ & _ & D1 & _). destruct (P2 raw raw R2 R2) as (_ & _ & D2 & _). assert (S : sid1 = sid2) by congruence. clear D1 D2. subst sid2. f_equal.
  destruct (loads_ok nv h) as [ND _]. pose proof (dget_in str_eqb str_eqb_iff _ _ _ ND I1) as X. pose proof (dget_in str_eqb str_eqb_iff _ _ _ ND I2) as Y. congruence.
Qed.
Lemma NoDup_flat_map_intro : forall A B (f : A -> list B) l, NoDup l -> (forall x, In x l -> NoDup (f x)) ->
  (forall x y b, In x l -> In y l -> In b (f x) -> In b (f y) -> x = y) -> NoDup (flat_map f l).
Proof.
  intros A B f l N. induction N as [|x l N1 N2 IH]; intros H1 H2; [constructor|]. cbn [flat_map]. apply NoDup_app_intro.
  - apply H1. left. reflexivity.
  - apply IH; [intros y I; apply H1; right; exact I|]. intros y z b Iy Iz. apply H2; right; assumption.
  - intros b I J. apply in_flat_map in J. destruct J as (y & Iy & J). apply N1. rewrite (H2 x y b); auto; [left; reflexivity|right; exact Iy].
Qed.
Lemma c20 : forall nv h mcn cs, (2 <= mcn)%Z -> make mcn (loads nv h) = Ok cs ->
  Permutation (flat_map (fun mt => map (fun nodes => (fst mt, path_pieces nodes)) (paths (snd mt))) cs) (loaded nv h).
Proof.
  intros nv h mcn cs M E. destruct (make_ok nv h mcn cs M E) as [P _].
  apply Permutation_map with (f := fun me : url_meta * entry => (fst me, e_pieces (snd me))) in P. rewrite !map_flat_map in P.
  assert (A : forall A (f : A -> url_meta) (g : A -> tree) l, flat_map (fun x => map (fun me : url_meta * entry => (fst me, e_pieces (snd me))) (map (pair (f x)) (ents (g x)))) l
     = flat_map (fun x => map (fun nodes => (f x, path_pieces nodes)) (paths (g x))) l).
  { intros. induction l as [|x l IH]; [reflexivity|]. cbn [flat_map]. rewrite flat_pieces, IH. reflexivity. }
  rewrite (A _ fst snd) in P. rewrite (A _ (fun sm => mk_meta (snd sm)) (fun sm => mk_root (snd sm))) in P. clear A.
  etransitivity; [exact P|]. clear P E cs.
  assert (MI : forall sm m ks, In sm (loads nv h) -> (In (m, ks) (map (fun nodes => (mk_meta (snd sm), path_pieces nodes)) (paths (mk_root (snd sm)))) <->
     m = mk_meta (snd sm) /\ exists raw, In raw (distinct_paths nv (fst sm) h) /\ ks = map piece_of raw)).
  { intros [sid mk] m ks I. destruct (c18_paths nv h sid mk I) as (_ & PI & _ & _). cbn [fst snd]. rewrite <- PI. rewrite !in_map_iff. split.
    - intros (nodes & E & J). inversion E; subst. split; [reflexivity|]. exists nodes. auto.
    - intros (-> & nodes & E & J). exists nodes. subst. auto. }
  apply NoDup_Permutation.
  - apply NoDup_flat_map_intro.
    + destruct (loads_ok nv h) as [ND _]. apply (NoDup_map_inv fst). exact ND.
    + intros [sid mk] I. destruct (c18_paths nv h sid mk I) as (_ & _ & ND & _). cbn [snd]. apply (NoDup_map_inv snd). rewrite map_map. exact ND.
    + intros sm1 sm2 [m ks] I1 I2 J1 J2. apply MI in J1; [|exact I1]. apply MI in J2; [|exact I2]. destruct J1 as (-> & raw1 & R1 & E1), J2 as (EM & raw2 & R2 & E2).
      assert (raw1 = raw2). { apply pieces_inj; [| |congruence]; [unfold distinct_paths in R1; apply nodup_In in R1|unfold distinct_paths in R2; apply nodup_In in R2]; eapply group_legal; eassumption. }
      subst raw2. destruct sm1 as [sid1 mk1], sm2 as [sid2 mk2]. cbn [fst snd] in *. eapply loads_disjoint; eassumption.
  - apply NoDup_nodup.
  - intros [m ks]. rewrite in_loaded, in_flat_map. split.
    + intros (sm & I & J). apply MI in J; [|exact I]. destruct J as (-> & raw & R & ->). destruct sm as [sid mk]. cbn [fst snd] in *.
      destruct (c18_paths nv h sid mk I) as (_ & _ & _ & PF). destruct (PF raw raw R R) as (_ & _ & _ & me & A). eauto.
    + intros (raw & me & A & ->). destruct (c18_keys nv h) as [ND KI].
      assert (IS : In (digest_of m raw) (map fst (loads nv h))) by (apply KI; eauto).
      apply in_map_iff in IS. destruct IS as ([sid mk] & E & I). cbn [fst] in E. subst sid. exists (digest_of m raw, mk). split; [exact I|]. apply MI; [exact I|]. cbn [fst snd].
      apply in_accepted in A. destruct A as (url & A1 & A2).
      assert (R : In raw (distinct_paths nv (digest_of m raw) h)).
      { unfold distinct_paths. apply nodup_In. apply in_map_iff. exists (raw, me). split; [reflexivity|]. apply in_group. exists url, m. auto. }
      split; [|exists raw; auto]. destruct (maker_facts nv h _ mk I) as (raw0 & MF). destruct (mf_url _ _ _ _ _ MF) as (url0 & U0). pose proof (mf_dig _ _ _ _ _ MF) as D0.
      pose proof (digest_iff _ _ _ _ _ _ _ U0 A2) as DI. apply (proj1 DI) in D0. symmetry. apply D0.
Qed.
