(** make() on the nodes as objects: the processors of a tree. *)
From Coq Require Import String.
From Verif Require Import PyStr Defs UrlLib ParseUtils Views Trees Cluster Patterns Matcher Maker Heap HeapSpec HCluster
  PyStrProofs DefsProofs TreeProofs DictProofs LoadProofs HeapProofs HeapLoad HeapState GroupProofs EntProofs GenCluster HcBase HcBag HcLevel HcPaths HcStage HcLen HcRun.
From Coq Require Import Lia Permutation.

(** ** The patterns written into the nodes of a tree *)
Fixpoint aann (p : ptree) (s : atree) : atree :=
  match p, s with
  | PT pm _ nx, AT a v pat c m ks =>
      match dget str_eqb (piece v) pm with
      | None => s
      | Some q => AT a v (Some q) c m (match dget str_eqb q nx with Some p' => map (aann p') ks | None => ks end)
      end
  end.
Lemma aann_erase : forall s p, erase (aann p s) = annotate p (erase s).
Proof.
  intros s. induction s as [a v pat c m ks IH] using atree_ind'. intros [pm n nx]. cbn [aann annotate erase].
  destruct (dget str_eqb (piece v) pm) as [q|]; [|reflexivity]. cbn [erase]. f_equal.
  destruct (dget str_eqb q nx) as [p'|]; [|reflexivity]. rewrite !map_map. apply map_ext_in. intros k Ik. rewrite Forall_forall in IH. apply IH. exact Ik.
Qed.
Lemma aann_addrs : forall s p, addrs (aann p s) = addrs s.
Proof.
  intros s. induction s as [a v pat c m ks IH] using atree_ind'. intros [pm n nx]. cbn [aann].
  destruct (dget str_eqb (piece v) pm) as [q|]; [|reflexivity]. cbn [addrs]. f_equal.
  destruct (dget str_eqb q nx) as [p'|]; [|reflexivity]. rewrite !flat_map_concat_map, map_map. f_equal. apply map_ext_in. intros k Ik.
  rewrite Forall_forall in IH. apply IH. exact Ik.
Qed.
Lemma aann_addr : forall s p, a_addr (aann p s) = a_addr s.
Proof. intros [a v pat c m ks] [pm n nx]. cbn. destruct (dget _ _ _); reflexivity. Qed.
Lemma aann_piece : forall s p, a_piece (aann p s) = a_piece s.
Proof. intros [a v pat c m ks] [pm n nx]. cbn. destruct (dget _ _ _); reflexivity. Qed.

(** ** Grouping *)
Lemma dgroup_map : forall K (eqb : K -> K -> bool) X Y V (f : X -> Y) (key : Y -> K) (val : Y -> V) l,
  dgroup eqb key val (map f l) = dgroup eqb (fun x => key (f x)) (fun x => val (f x)) l.
Proof.
  intros. unfold dgroup, gfold. generalize (@nil (K * list V)). induction l as [|x l IH]; intros d; [reflexivity|]. cbn. apply IH.
Qed.
Lemma dgroup_onv : forall K (eqb : K -> K -> bool) X V W (key : X -> K) (val : X -> V) (g : V -> W) l,
  dgroup eqb key (fun x => g (val x)) l = map (onv (map g)) (dgroup eqb key val l).
Proof.
  intros. induction l as [|x l IH] using rev_ind; [reflexivity|]. rewrite !dgroup_snoc, IH, dget_onv, <- dset_onv. f_equal.
  destruct (dget eqb (key x) (dgroup eqb key val l)); cbn; [rewrite map_app|]; reflexivity.
Qed.
Definition nxA (pat : anode -> str) (l : list anode) : list (str * list anode) :=
  map (onv (@List.concat anode)) (dgroup str_eqb pat an_kids l).
Lemma next_er : forall pm lv, next_groups pm (map er lv) =
  map (onv (map er)) (nxA (fun x => node_pattern pm (erase (an_t x))) (flat_map snd (groups lv))).
Proof.
  intros pm lv. unfold next_groups, next_bags. rewrite group_er.
  assert (E : flat_map snd (map (fun k => (k, map er (nodes_of lv k))) (keys lv)) = map er (flat_map snd (groups lv))).
  { rewrite (groups_eq lv) at 1. rewrite !flat_map_concat_map, !map_map, concat_map, map_map. reflexivity. }
  rewrite E. rewrite (dapp_dgroup _ _ (fun n => node_pattern pm (pn_tree n)) pn_kids). rewrite dgroup_map. cbn [er pn_tree].
  assert (E2 : forall l, dgroup str_eqb (fun x : anode => node_pattern pm (erase (an_t x))) (fun x => pn_kids (er x)) l
     = dgroup str_eqb (fun x : anode => node_pattern pm (erase (an_t x))) (fun x => map er (an_kids x)) l).
  { intros l. unfold dgroup, gfold. generalize (@nil (str * list (list pnode))). induction l as [|x l IH]; intros d; [reflexivity|]. cbn [fold_left].
    unfold dstep. rewrite er_kids. apply IH. }
  rewrite E2, dgroup_onv. unfold nxA. rewrite !map_map. apply map_ext. intros [k b]. unfold onv. cbn [fst snd]. rewrite concat_map. reflexivity.
Qed.
Lemma nxA_get : forall pat l k, dget str_eqb k (nxA pat l) =
  match filter (fun x => str_eqb k (pat x)) l with [] => None | f => Some (flat_map an_kids f) end.
Proof.
  intros. unfold nxA. rewrite dget_onv, (dgroup_get str_eqb str_eqb_iff). destruct (filter _ l) as [|x f]; [reflexivity|]. cbn [option_map].
  rewrite flat_map_concat_map. reflexivity.
Qed.
Lemma nxA_snoc : forall pat l x, nxA pat (l ++ [x]) =
  dset str_eqb (pat x) (match dget str_eqb (pat x) (nxA pat l) with Some b => b | None => [] end ++ an_kids x) (nxA pat l).
Proof.
  intros. unfold nxA. rewrite dgroup_snoc, dget_onv, <- dset_onv. f_equal. unfold dstep.
  destruct (dget str_eqb (pat x) (dgroup str_eqb pat an_kids l)) as [b|]; cbn [option_map]; [|cbn; rewrite app_nil_r; reflexivity].
  rewrite concat_app. cbn. rewrite app_nil_r. reflexivity.
Qed.
Lemma nxA_keys : forall pat l k, In k (map fst (nxA pat l)) <-> In k (map pat l).
Proof. intros. unfold nxA. rewrite onv_keys. apply (dgroup_keys str_eqb str_eqb_iff). Qed.
Lemma nxA_NoDup : forall pat l, NoDup (map fst (nxA pat l)).
Proof. intros. unfold nxA. rewrite onv_keys. apply (dgroup_NoDup str_eqb str_eqb_iff). Qed.
Lemma nxA_in : forall pat l k b, In (k, b) (nxA pat l) -> b = flat_map an_kids (filter (fun x => str_eqb k (pat x)) l) /\ filter (fun x => str_eqb k (pat x)) l <> [].
Proof.
  intros pat l k b I. unfold nxA in I. apply in_map_iff in I. destruct I as ([k' b'] & E & I). unfold onv in E. cbn in E. injection E as -> <-.
  apply (dgroup_in str_eqb str_eqb_iff) in I. destruct I as [-> N]. rewrite flat_map_concat_map. split; [reflexivity|]. intros X. rewrite X in N. auto.
Qed.
Lemma nxA_perm : forall pat l, Permutation (flat_map snd (nxA pat l)) (flat_map an_kids l).
Proof.
  intros pat l.
  assert (E : flat_map snd (nxA pat l) = flat_map an_kids (flat_map (fun k => filter (fun x => str_eqb k (pat x)) l) (map fst (nxA pat l)))).
  { assert (X : forall d, incl d (nxA pat l) -> flat_map snd d = flat_map an_kids (flat_map (fun k => filter (fun x => str_eqb k (pat x)) l) (map fst d))).
    { induction d as [|[k b] d IH]; intros Ic; [reflexivity|]. cbn [flat_map map fst snd]. rewrite flat_map_app, <- IH by (intros y Y; apply Ic; right; exact Y).
      f_equal. apply (nxA_in pat l k b). apply Ic. left. reflexivity. }
    apply X. apply incl_refl. }
  rewrite E. rewrite !flat_map_concat_map. rewrite <- !flat_map_concat_map. apply Permutation_flat_map.
  apply (cover_perm str_eqb str_eqb_iff); [apply nxA_NoDup|]. intros x Ix. apply nxA_keys. apply in_map. exact Ix.
Qed.
Lemma groups_perm : forall lv, Permutation (flat_map snd (groups lv)) lv.
Proof. intros. unfold groups. apply (dgroup_perm _ str_eqb str_eqb_iff). Qed.

(** ** Nodes of a level *)
Definition laddrs (lv : list anode) : list addr := flat_map (fun x => addrs (an_t x)) lv.
Record lev (H : heap) (level : nat) (lv : list anode) : Prop := {
  v_holds : Forall (fun x => holds H (an_up x) level (an_t x)) lv;
  v_nd : NoDup (laddrs lv);
  v_ids : forall x y, In x lv -> In y lv -> an_id x = an_id y -> x = y;
  v_par : forall x i a c, In x lv -> an_par x = Some (i, a, c) -> (exists n, nth_error H a = Some n /\ n_count n = c) /\ ~ In a (laddrs lv);
  v_pid : forall x y i a c i' a' c', In x lv -> In y lv -> an_par x = Some (i, a, c) -> an_par y = Some (i', a', c') -> (i = i' <-> a = a');
  v_some : level <> 0 -> forall x, In x lv -> an_par x <> None
}.
Lemma laddrs_top : forall lv x, In x lv -> In (an_addr x) (laddrs lv).
Proof. intros lv x I. unfold laddrs. apply in_flat_map. exists x. split; [exact I|apply addr_in]. Qed.
Lemma laddrs_nd : forall lv, NoDup (laddrs lv) -> NoDup (map an_addr lv).
Proof.
  induction lv as [|x lv IH]; intros N; [constructor|]. cbn in *. apply nd_app in N. destruct N as (_ & N2 & N3). constructor; [|auto].
  intros I. apply (N3 (an_addr x)); [apply addr_in|]. apply in_map_iff in I. destruct I as (y & <- & Iy). apply laddrs_top. exact Iy.
Qed.
Lemma lev_agree : forall H H' P level lv, lev H level lv -> agree P H H' -> (forall a, In a (laddrs lv) -> P a) ->
  (forall x i a c, In x lv -> an_par x = Some (i, a, c) -> P a) -> lev H' level lv.
Proof.
  intros H H' P level lv [A1 A2 A3 A4 A5 A6] Ag Pl Pp. constructor; auto.
  - apply Forall_forall. intros x Ix. rewrite Forall_forall in A1. apply (holds_agree _ H H' _ _ P); auto. intros a Ia. apply Pl. apply in_flat_map. eauto.
  - intros x i a c Ix E. destruct (A4 x i a c Ix E) as [(n & En & Ec) N]. split; [|exact N]. exists n. split; [|exact Ec].
    rewrite (proj2 Ag a); [exact En|eauto|]. apply nth_error_Some. congruence.
Qed.
Lemma laddrs_kids : forall x, addrs (an_t x) = an_addr x :: laddrs (an_kids x).
Proof.
  intros [pr i [a v p c m ks]]. cbn. f_equal. unfold laddrs, an_kids. cbn. rewrite flat_map_concat_map, (flat_map_concat_map _ (map _ _)), map_map. reflexivity.
Qed.
Lemma laddrs_next : forall lv, Permutation (laddrs lv) (map an_addr lv ++ laddrs (flat_map an_kids lv)).
Proof.
  induction lv as [|x lv IH]; [reflexivity|]. unfold laddrs in *. cbn [flat_map map]. rewrite laddrs_kids, flat_map_app. cbn [app]. constructor.
  rewrite IH. unfold laddrs. rewrite Permutation_app_swap_app. reflexivity.
Qed.
Lemma kids_in : forall x y, In y (an_kids x) -> exists k, In k (a_kids (an_t x)) /\ y = AN (Some (an_id x, an_addr x, an_cnt x)) (an_id x ++ [a_piece k]) k.
Proof. intros x y I. unfold an_kids in I. apply in_map_iff in I. destruct I as (k & <- & Ik). eauto. Qed.
(** the children of some of the nodes *)
Lemma lev_kids : forall H level lv sub, lev H level lv -> (forall x, In x lv -> NoDup (map a_piece (a_kids (an_t x)))) -> incl sub lv -> NoDup (laddrs sub) ->
  lev H (Datatypes.S level) (flat_map an_kids sub) /\ (forall x, In x (flat_map an_kids sub) -> exists i a c, an_par x = Some (i, a, c) /\ In a (map an_addr sub)).
Proof.
  intros H level lv sub [A1 A2 A3 A4 A5 A6] NK Ic NS.
  assert (PX : forall x, In x (flat_map an_kids sub) -> exists y k, In y sub /\ In k (a_kids (an_t y)) /\ x = AN (Some (an_id y, an_addr y, an_cnt y)) (an_id y ++ [a_piece k]) k).
  { intros x I. apply in_flat_map in I. destruct I as (y & Iy & I). destruct (kids_in y x I) as (k & Ik & E). eauto. }
  pose proof (laddrs_next sub) as PN. assert (NN := Permutation_NoDup PN NS). apply nd_app in NN. destruct NN as (N1 & N2 & N3).
  split.
  - constructor.
    + apply Forall_forall. intros x Ix. destruct (PX x Ix) as (y & k & Iy & Ik & ->). cbn. rewrite Forall_forall in A1.
      pose proof (holds_kids _ _ _ _ (A1 y (Ic y Iy))) as HK. rewrite Forall_forall in HK. apply HK. exact Ik.
    + exact N2.
    + intros x y Ix Iy E. destruct (PX x Ix) as (x0 & k & Ix0 & Ik & ->). destruct (PX y Iy) as (y0 & k' & Iy0 & Ik' & ->). cbn in E.
      apply app_inj_tail in E. destruct E as [E1 E2]. assert (x0 = y0) as -> by (apply A3; auto).
      assert (k = k') as -> by (apply (nodup_inj _ _ a_piece (a_kids (an_t y0))); auto). reflexivity.
    + intros x i a c Ix E. destruct (PX x Ix) as (y & k & Iy & Ik & ->). cbn in E. injection E as <- <- <-. split.
      * rewrite Forall_forall in A1. destruct (holds_node _ _ _ _ (A1 y (Ic y Iy))) as (n & En & _ & _ & _ & Ec & _). exists n. split; [exact En|exact Ec].
      * intros Z. apply (N3 (an_addr y)); [apply in_map; exact Iy|exact Z].
    + intros x y i a c i' a' c' Ix Iy E E'. destruct (PX x Ix) as (x0 & k & Ix0 & Ik & ->). destruct (PX y Iy) as (y0 & k' & Iy0 & Ik' & ->).
      cbn in E, E'. injection E as <- <- <-. injection E' as <- <- <-. split; intros Z.
      * assert (x0 = y0) as -> by (apply A3; auto). reflexivity.
      * assert (x0 = y0) as -> by (apply (nodup_inj _ _ an_addr sub); auto). reflexivity.
    + intros _ x Ix. destruct (PX x Ix) as (y & k & _ & _ & ->). discriminate.
  - intros x Ix. destruct (PX x Ix) as (y & k & Iy & Ik & ->). cbn. exists (an_id y), (an_addr y), (an_cnt y). split; [reflexivity|apply in_map; exact Iy].
Qed.

(** ** _create_next_level_processors *)
Lemma nd_filter_flat : forall (f : anode -> bool) l l', NoDup (map an_addr (flat_map an_kids (l ++ l'))) -> NoDup (map an_addr (flat_map an_kids (filter f l ++ l'))).
Proof.
  intros f. assert (SUB : forall l l' a, In a (map an_addr (flat_map an_kids (filter f l ++ l'))) -> In a (map an_addr (flat_map an_kids (l ++ l')))).
  { intros l l' a I. apply in_map_iff in I. destruct I as (x & <- & Ix). apply in_map. apply in_flat_map in Ix. destruct Ix as (y & Iy & Ix). apply in_flat_map.
    exists y. split; [|exact Ix]. apply in_app_or in Iy. apply in_or_app. destruct Iy as [Iy|Iy]; [left|right; exact Iy]. apply filter_In in Iy. tauto. }
  induction l as [|x l IH]; intros l' N; [exact N|]. cbn [app flat_map filter] in *. rewrite map_app in N. apply nd_app in N. destruct N as (N1 & N2 & N3).
  destruct (f x); [|apply IH; exact N2]. cbn [app flat_map]. rewrite map_app. apply nd_app. split; [exact N1|]. split; [apply IH; exact N2|].
  intros a Ia Z. apply (N3 a Ia). apply SUB. exact Z.
Qed.
Lemma create_ok : forall H pat l2 l1,
  (forall x, In x l2 -> node_pattern_of (an_addr x) H = (H, Ok (pat x)) /\ (exists n, nth_error H (an_addr x) = Some n /\ kids_of n = dict_of (a_kids (an_t x)))
     /\ Forall (seen_in H) (an_kids x)) ->
  NoDup (map an_addr (flat_map an_kids (l1 ++ l2))) ->
  create_next (map an_addr l2) (map (onv bucket_of) (nxA pat l1)) H = (H, Ok (map (onv bucket_of) (nxA pat (l1 ++ l2)))).
Proof.
  intros H pat. induction l2 as [|x l2 IH]; intros l1 A ND.
  - rewrite app_nil_r. reflexivity.
  - destruct (A x (or_introl eq_refl)) as (E1 & (n & En & Ek) & F). cbn [map create_next]. rewrite (then_ok _ _ _ _ _ _ _ _ E1).
    set (old := match dget str_eqb (pat x) (nxA pat l1) with Some b => b | None => [] end).
    assert (EO : match dget str_eqb (pat x) (map (onv bucket_of) (nxA pat l1)) with Some b => b | None => new_bucket end = bucket_of old).
    { unfold old. rewrite dget_onv. destruct (dget str_eqb (pat x) (nxA pat l1)); reflexivity. }
    rewrite EO.
    assert (EA : add_children H (an_addr x) (bucket_of old) = Ok (bucket_of (old ++ an_kids x))).
    { unfold add_children. rewrite (get_ok _ _ _ En). cbn [bind]. rewrite Ek.
      assert (X : forall l b, foldM (fun b e => bucket_add_node H (snd e) b) (dict_of l) b = foldM (fun b a => bucket_add_node H a b) (map a_addr l) b).
      { induction l as [|k l IHl]; intros b; [reflexivity|]. cbn. destruct (bucket_add_node H (a_addr k) b); cbn; auto. }
      rewrite X. assert (Y : map a_addr (a_kids (an_t x)) = map an_addr (an_kids x)) by (unfold an_kids; rewrite map_map; reflexivity).
      rewrite Y. apply bucket_add_all; [exact F|].
      assert (OE : old ++ an_kids x = flat_map an_kids (filter (fun y => str_eqb (pat x) (pat y)) l1 ++ [x])).
      { unfold old. rewrite nxA_get, flat_map_app. cbn. rewrite app_nil_r. destruct (filter _ l1); reflexivity. }
      rewrite OE. apply nd_filter_flat. assert (S : l1 ++ x :: l2 = (l1 ++ [x]) ++ l2) by (rewrite <- app_assoc; reflexivity).
      rewrite S, flat_map_app, map_app in ND. apply nd_app in ND. tauto. }
    rewrite (then_ok _ _ _ _ _ _ H (bucket_of (old ++ an_kids x))) by (unfold reading; rewrite EA; reflexivity).
    rewrite dset_onv. assert (S : l1 ++ x :: l2 = (l1 ++ [x]) ++ l2) by (rewrite <- app_assoc; reflexivity). rewrite S.
    assert (EX : dset str_eqb (pat x) (old ++ an_kids x) (nxA pat l1) = nxA pat (l1 ++ [x])) by (rewrite nxA_snoc; reflexivity).
    rewrite EX. apply IH; [|rewrite <- S; exact ND]. intros y Iy. apply A. right. exact Iy.
Qed.

Section Proc.
  Context (mcn : Z) (innerH : nat -> bool -> addr -> (addr -> lprog unit) -> lprog unit) (innerP : nat -> bool -> tree -> res (list tree))
    (Pin : nat -> tree -> Prop).
  Context (INNER : forall d kw s ts, Pin d (erase s) -> innerP d kw (erase s) = Ok ts -> yields (innerH d kw (a_addr s)) s ts).
  Context (V : nat -> parsed_piece -> Prop) (D pd : nat) (kw : bool).
  Context (LK : forall level ns dn, (level <= D)%nat -> level_ok V level ns -> run_level mcn innerP level (D - level =? 0) (pd =? level) kw ns = Ok dn ->
     NoDup (map fst (pattern_map dn)) /\ (forall k, In k (map fst (pattern_map dn)) <-> In k (map pn_piece ns))).
  Context (FINE : forall level ns, (level <= D)%nat -> level_ok V level ns -> fine Pin mcn innerP level (D - level =? 0) (pd =? level) kw ns).

  (** one level: the nodes have the patterns of the dict, nothing else has changed *)
  Lemma level_run : forall d level lv H dn, (level + d = D)%nat -> lev H level lv -> nodes_ok V d level (map er lv) ->
    run_level mcn innerP level (d =? 0) (pd =? level) kw (map er lv) = Ok dn ->
    exists H1 st1, run_clusters mcn innerH level (d =? 0) (pd =? level) kw (H, new_proc (bucket_of lv)) = ((H1, st1), Ok tt)
      /\ hp_bucket st1 = bucket_of lv /\ hpattern_num st1 = pattern_num dn /\ length H <= length H1
      /\ (forall a, a < length H -> ~ In a (map an_addr lv) -> nth_error H1 a = nth_error H a)
      /\ (forall x, In x lv -> exists n q, nth_error H (an_addr x) = Some n /\ dget str_eqb (an_piece x) (pattern_map dn) = Some q
            /\ nth_error H1 (an_addr x) = Some (set_npat (Some q) n)).
  Proof.
    intros d level lv H dn LD L NO E. pose proof L as [A1 A2 A3 A4 A5 A6].
    assert (LO : level_ok V level (map er lv)) by (apply (nodes_level V d); exact NO).
    assert (DL : (D - level =? 0) = (d =? 0)) by (replace (D - level) with d by lia; reflexivity).
    assert (NODE : forall x, In x lv -> exists n, nth_error H (an_addr x) = Some n /\ n_value n = a_val (an_t x) /\ n_count n = an_cnt x).
    { intros x Ix. rewrite Forall_forall in A1. destruct (holds_node _ _ _ _ (A1 x Ix)) as (n & En & _ & Ev & _ & Ec & _). eauto. }
    destruct (LK level (map er lv) dn) as [K1 K2]; [lia|exact LO|rewrite DL; exact E|].
    assert (EK : map fst (pattern_map dn) = map ekey dn) by (unfold pattern_map; rewrite map_map; reflexivity).
    destruct (run_clusters_ok mcn level (d =? 0) (pd =? level) kw H lv innerH innerP Pin INNER NODE (laddrs_nd lv A2)) with (dn := dn) as (H1 & st1 & W & dn' & R & LVW & PD & DW & PP & RB).
    - intros x i a c Ix Ex. apply (A4 x i a c Ix Ex).
    - exact A5.
    - intros Lv x Ix. apply A6; [lia|exact Ix].
    - exact E.
    - rewrite <- EK. exact K1.
    - pose proof (FINE level (map er lv) ltac:(lia) LO) as FN. rewrite DL in FN. exact FN.
    - exists H1, st1. split; [exact R|]. split; [exact RB|]. split; [exact (pattern_num_ok st1 dn dn' PP PD)|]. destruct LVW as (B1 & B2 & B3).
      split; [exact B1|]. split; [exact B2|]. intros x Ix. destruct (NODE x Ix) as (n & En & _).
      assert (IK : In (an_piece x) (map fst (pattern_map dn))).
      { apply K2. rewrite map_map. apply in_map_iff. exists x. split; [apply er_piece|exact Ix]. }
      apply in_map_iff in IK. destruct IK as ([k q] & Ek & Iq). cbn in Ek. subst k. exists n, q. split; [exact En|].
      split; [apply (dget_in str_eqb str_eqb_iff); [exact K1|exact Iq]|]. rewrite (B3 x n Ix En).
      unfold pattern_map in Iq. apply in_map_iff in Iq. destruct Iq as (e & Ee & Ie). injection Ee as Ek Eq.
      assert (Ie' : In e dn') by (exact (Permutation_in _ (Permutation_sym PD) Ie)).
      pose proof (proj1 (Forall_forall _ _) DW e Ie') as We. unfold ekey in We. rewrite Ek, Eq in We. rewrite We. reflexivity.
  Qed.

  Definition got (H : heap) (level : nat) (p : ptree) (x : anode) : Prop :=
    holds H (an_up x) level (aann p (an_t x)) /\ full (aann p (an_t x)).
  Lemma got_agree : forall H H' P level p x, got H level p x -> agree P H H' -> (forall a, In a (addrs (an_t x)) -> P a) -> got H' level p x.
  Proof.
    intros H H' P level p x [A B] Ag Pa. split; [|exact B]. apply (holds_agree _ H H' _ _ P A Ag). rewrite aann_addrs. exact Pa.
  Qed.

  Section Groups.
    Context (d level : nat).
    Context (IH : forall lv H p, lev H (Datatypes.S level) lv -> nodes_ok V d (Datatypes.S level) (map er lv) ->
      proc mcn innerP d (Datatypes.S level) pd kw (map er lv) = Ok p ->
      exists H' q, hproc_run mcn innerH d (Datatypes.S level) pd kw (bucket_of lv) H = (H', Ok q) /\ hcan_be_split q = can_be_split p
        /\ Forall (got H' (Datatypes.S level) p) lv /\ agree (fun a => ~ In a (laddrs lv)) H H').
    Lemma groups_run : forall (gs : list (str * list anode)) H ps,
      (forall g, In g gs -> lev H (Datatypes.S level) (snd g) /\ nodes_ok V d (Datatypes.S level) (map er (snd g))) ->
      NoDup (laddrs (flat_map snd gs)) ->
      (forall x i a c, In x (flat_map snd gs) -> an_par x = Some (i, a, c) -> ~ In a (laddrs (flat_map snd gs))) ->
      mapM (fun g => p <- proc mcn innerP d (Datatypes.S level) pd kw (snd g) ;; Ok (fst g, p)) (map (onv (map er)) gs) = Ok ps ->
      exists H' qs, collect (map (onv bucket_of) gs) (fun g => p <~ hproc_run mcn innerH d (Datatypes.S level) pd kw (snd g) ;; ret (fst g, p)) H = (H', Ok qs)
        /\ Forall2 (fun a b => hcan_be_split (snd a) = can_be_split (snd b)) qs ps
        /\ Forall2 (fun g gp => fst g = fst gp /\ Forall (got H' (Datatypes.S level) (snd gp)) (snd g)) gs ps
        /\ agree (fun a => ~ In a (laddrs (flat_map snd gs))) H H'.
    Proof.
      induction gs as [|[k b] gs IHg]; intros H ps A ND PO E.
      - cbn in E. assert (ps = []) as -> by congruence. exists H, []. cbn. repeat split; auto; constructor.
      - cbn [map mapM onv fst snd] in E. destruct (proc mcn innerP d (Datatypes.S level) pd kw (map er b)) as [p|] eqn:Ep; [|discriminate]. cbn [bind] in E.
        match type of E with bind ?m _ = _ => destruct m as [ps'|] eqn:Eps; [|discriminate] end. cbn [bind] in E.
        assert (ps = (k, p) :: ps') as -> by congruence. clear E.
        cbn [flat_map snd] in ND, PO. unfold laddrs in ND. rewrite flat_map_app in ND. apply nd_app in ND. destruct ND as (N1 & N2 & N3).
        assert (SP : forall a, In a (laddrs (b ++ flat_map snd gs)) <-> In a (laddrs b) \/ In a (laddrs (flat_map snd gs))).
        { intros a. unfold laddrs. rewrite flat_map_app, in_app_iff. reflexivity. }
        destruct (A (k, b) (or_introl eq_refl)) as [Lb Nb]. cbn [snd] in Lb, Nb.
        destruct (IH b H p Lb Nb Ep) as (H1 & q & R1 & S1 & G1 & A1).
        destruct (IHg H1 ps') as (H2 & qs & R2 & S2 & G2 & A2).
        + intros g Ig. destruct (A g (or_intror Ig)) as [Lg Ng]. split; [|exact Ng].
          apply (lev_agree H H1 _ _ _ Lg A1).
          * intros a Ia Z. apply (N3 a Z). apply in_flat_map in Ia. destruct Ia as (x & Ix & Ia). apply in_flat_map. exists x. split; [|exact Ia].
            apply in_flat_map. exists g. auto.
          * intros x i a c Ix Ex Z. assert (Ix' : In x (b ++ flat_map snd gs)) by (apply in_or_app; right; apply in_flat_map; exists g; auto).
            apply (PO x i a c Ix' Ex). apply SP. left. exact Z.
        + exact N2.
        + intros x i a c Ix Ex Z. assert (Ix' : In x (b ++ flat_map snd gs)) by (apply in_or_app; right; exact Ix).
          apply (PO x i a c Ix' Ex). apply SP. right. exact Z.
        + reflexivity.
        + exists H2, ((k, q) :: qs). split; [|split; [|split]].
          * cbn [map collect onv fst snd]. rewrite (then_ok _ _ _ _ _ _ H1 (k, q)).
            -- rewrite (then_ok _ _ _ _ _ _ _ _ R2). reflexivity.
            -- rewrite (then_ok _ _ _ _ _ _ _ _ R1). reflexivity.
          * constructor; assumption.
          * constructor; [|exact G2]. cbn [fst snd]. split; [reflexivity|]. apply Forall_forall. intros x Ix. rewrite Forall_forall in G1.
            apply (got_agree H1 H2 _ _ _ _ (G1 x Ix) A2). intros a Ia Z. apply (N3 a); [|exact Z]. apply in_flat_map. exists x. auto.
          * cbn [flat_map snd]. apply (agree_trans _ H H1 H2).
            -- apply (agree_weak (fun a => ~ In a (laddrs b))); [|exact A1]. intros a Na Z. apply Na. apply SP. left. exact Z.
            -- apply (agree_weak (fun a => ~ In a (laddrs (flat_map snd gs)))); [|exact A2]. intros a Na Z. apply Na. apply SP. right. exact Z.
    Qed.
  End Groups.

  Lemma set_holds : forall H H' par dep a v p c m ks n q, holds H par dep (AT a v p c m ks) -> nth_error H a = Some n ->
    nth_error H' a = Some (set_npat (Some q) n) -> forall ks', Forall2 (fun k k' => a_piece k = a_piece k' /\ a_addr k = a_addr k') ks ks' ->
    Forall (holds H' (Some a) (Datatypes.S dep)) ks' ->
    holds H' par dep (AT a v (Some q) c m ks').
  Proof.
    intros H H' par dep a v p c m ks n q Ho En En' ks' F2 F. apply holds_iff in Ho. destruct Ho as [(n0 & E0 & B1 & B2 & B3 & B4 & B5 & B6 & B7) _].
    assert (n0 = n) as -> by congruence. apply holds_iff. split; [|exact F]. exists (set_npat (Some q) n). split; [exact En'|]. cbn.
    split; [exact B1|]. split; [exact B2|]. split; [reflexivity|]. split; [exact B4|]. split; [exact B5|]. split; [|exact B7].
    unfold entries in *. cbn. rewrite B6. unfold dict_of. clear -F2. induction F2 as [|k k' ks ks' [E1 E2] F2 IH]; [reflexivity|]. cbn. rewrite E1, E2, IH. reflexivity.
  Qed.

  Lemma hproc_ok : forall d level lv H p, (level + d = D)%nat -> lev H level lv -> nodes_ok V d level (map er lv) ->
    proc mcn innerP d level pd kw (map er lv) = Ok p ->
    exists H' q, hproc_run mcn innerH d level pd kw (bucket_of lv) H = (H', Ok q) /\ hcan_be_split q = can_be_split p
      /\ Forall (got H' level p) lv /\ agree (fun a => ~ In a (laddrs lv)) H H'.
  Proof.
    induction d as [|d IH]; intros level lv H p LD L NO E.
    - cbn [proc] in E. destruct (run_level mcn innerP level (0 =? 0) (pd =? level) kw (map er lv)) as [dn|] eqn:Er; [|discriminate].
      cbn [bind] in E. cbv zeta in E. injection E as <-.
      destruct (level_run 0 level lv H dn LD L NO Er) as (H1 & st1 & R & RB & RN & B1 & B2 & B3).
      exists H1, (HPT (hpattern_num st1) []). split; [|split; [|split]].
      + cbn [hproc_run]. rewrite R. reflexivity.
      + cbn [hcan_be_split can_be_split]. rewrite RN. reflexivity.
      + apply Forall_forall. intros x Ix. destruct (B3 x Ix) as (n & q & En & Eq & En'). pose proof (v_holds _ _ _ L) as Hx. rewrite Forall_forall in Hx. specialize (Hx x Ix).
        assert (KX : a_kids (an_t x) = []).
        { destruct NO as (_ & _ & F). rewrite Forall_forall in F. specialize (F (er x) (in_map er lv x Ix)). apply tok_leaf in F. cbn in F.
          rewrite erase_kids in F. destruct (a_kids (an_t x)); [reflexivity|discriminate]. }
        unfold got, an_addr, an_piece, a_piece in *. destruct (an_t x) as [a v pt c m ks]. cbn [a_kids] in KX. subst ks. cbn [a_addr a_val] in *.
        cbn [aann]. rewrite Eq. cbn [dget]. split.
        * apply (set_holds H H1 _ _ a v pt c m [] n q Hx En En'); constructor.
        * apply full_iff. split; [discriminate|constructor].
      + split; [exact B1|]. intros a Na La. apply B2; [exact La|]. intros Z. apply Na. apply in_map_iff in Z. destruct Z as (x & <- & Ix). apply laddrs_top. exact Ix.
    - cbn [proc] in E. destruct (run_level mcn innerP level (Datatypes.S d =? 0) (pd =? level) kw (map er lv)) as [dn|] eqn:Er; [|discriminate].
      cbn [bind] in E. cbv zeta in E. rewrite next_er in E.
      destruct (level_run (Datatypes.S d) level lv H dn LD L NO Er) as (H1 & st1 & R & RB & RN & B1 & B2 & B3).
      set (pat := fun x => node_pattern (pattern_map dn) (erase (an_t x))) in *. set (ol := flat_map snd (groups lv)) in *.
      match type of E with bind ?m _ = _ => destruct m as [ps|] eqn:Eps; [|discriminate] end. cbn [bind] in E. injection E as <-.
      pose proof (groups_perm lv) as PO. fold ol in PO.
      assert (PAT : forall x, In x lv -> dget str_eqb (an_piece x) (pattern_map dn) = Some (pat x)).
      { intros x Ix. destruct (B3 x Ix) as (n & q & _ & Eq & _). unfold pat, node_pattern. rewrite erase_piece. fold (an_piece x). rewrite Eq. reflexivity. }
      pose proof (v_holds _ _ _ L) as Hx. pose proof (v_nd _ _ _ L) as Nx.
      pose proof (laddrs_next lv) as PN. assert (NN := Permutation_NoDup PN Nx). apply nd_app in NN. destruct NN as (N1 & N2 & N3).
      (* the trees below are as before *)
      assert (KH : forall x, In x lv -> Forall (holds H1 (Some (an_addr x)) (Datatypes.S level)) (a_kids (an_t x))).
      { intros x Ix. rewrite Forall_forall in Hx. apply Forall_forall. intros k Ik. pose proof (holds_kids _ _ _ _ (Hx x Ix)) as HK. rewrite Forall_forall in HK.
        apply (holds_frame _ H); [exact (HK k Ik)|]. intros a Ia. apply B2; [exact (holds_lt _ _ _ _ (HK k Ik) a Ia)|]. intros Z. apply (N3 a Z).
        apply in_flat_map. exists (AN (Some (an_id x, an_addr x, an_cnt x)) (an_id x ++ [a_piece k]) k). split; [|exact Ia]. apply in_flat_map. exists x.
        split; [exact Ix|]. unfold an_kids. apply in_map_iff. exists k. auto. }
      assert (TOP : forall x, In x lv -> exists n q, nth_error H1 (an_addr x) = Some n /\ n_pattern n = Some q /\ q = pat x /\ n_count n = an_cnt x /\ kids_of n = dict_of (a_kids (an_t x))).
      { intros x Ix. destruct (B3 x Ix) as (n & q & En & Eq & En'). rewrite (PAT x Ix) in Eq. injection Eq as <-. rewrite Forall_forall in Hx.
        destruct (holds_node _ _ _ _ (Hx x Ix)) as (n0 & E0 & _ & _ & _ & Ec & _ & Ek). unfold an_addr in *. assert (n0 = n) as -> by congruence.
        exists (set_npat (Some (pat x)) n), (pat x). split; [exact En'|]. split; [reflexivity|]. split; [reflexivity|]. split; [exact Ec|exact Ek]. }
      assert (NOK : forall x, In x lv -> NoDup (map a_piece (a_kids (an_t x)))).
      { intros x Ix. destruct NO as (_ & _ & F). rewrite Forall_forall in F. specialize (F (er x) (in_map er lv x Ix)). destruct F as (_ & (_ & _ & ND & _) & _).
        cbn in ND. rewrite erase_kids, map_map in ND. erewrite map_ext; [exact ND|]. intros k. symmetry. apply erase_piece. }
      (* the level below, in the heap H1 *)
      assert (LK1 : forall sub, incl sub lv -> NoDup (laddrs sub) -> lev H1 (Datatypes.S level) (flat_map an_kids sub)).
      { intros sub Ic NS. destruct (lev_kids H level lv sub L NOK Ic NS) as [[C1 C2 C3 C4 C5 C6] CP]. constructor; auto.
        - apply Forall_forall. intros y Iy. apply in_flat_map in Iy. destruct Iy as (x & Ix & Iy). destruct (kids_in x y Iy) as (k & Ik & ->). cbn.
          pose proof (KH x (Ic x Ix)) as F. rewrite Forall_forall in F. apply F. exact Ik.
        - intros y i a c Iy Ey. destruct (C4 y i a c Iy Ey) as [_ Na]. split; [|exact Na]. apply in_flat_map in Iy. destruct Iy as (x & Ix & Iy).
          destruct (kids_in x y Iy) as (k & Ik & ->). cbn in Ey. injection Ey as <- <- <-. destruct (TOP x (Ic x Ix)) as (n & q & En & _ & _ & Ec & _). eauto. }
      assert (SUBN : forall sub, incl sub lv -> NoDup sub -> NoDup (laddrs sub)).
      { intros sub Ic Ns. clear -Ic Ns Nx. induction Ns as [|x sub Nxs Ns IHs]; [constructor|]. cbn. apply nd_app.
        assert (Ix : In x lv) by (apply Ic; left; reflexivity). assert (Ic' : incl sub lv) by (intros y Y; apply Ic; right; exact Y).
        assert (D2 : forall y, In y lv -> NoDup (addrs (an_t y)) /\ forall z, In z lv -> z <> y -> forall a, In a (addrs (an_t y)) -> ~ In a (addrs (an_t z))).
        { clear -Nx. induction lv as [|w lv IH]; intros y Iy; [destruct Iy|]. cbn in Nx. apply nd_app in Nx. destruct Nx as (M1 & M2 & M3).
          destruct Iy as [->|Iy].
          - split; [exact M1|]. intros z [->|Iz] Nz a Ia Z; [congruence|]. apply (M3 a Ia). apply in_flat_map. eauto.
          - destruct (IH M2 y Iy) as [Q1 Q2]. split; [exact Q1|]. intros z [->|Iz] Nz a Ia Z; [|exact (Q2 z Iz Nz a Ia Z)]. apply (M3 a Z). apply in_flat_map. eauto. }
        destruct (D2 x Ix) as [Q1 Q2]. split; [exact Q1|]. split; [apply IHs; exact Ic'|]. intros a Ia Z. apply in_flat_map in Z. destruct Z as (z & Iz & Z).
        apply (Q2 z (Ic' z Iz)) with (a := a); auto. intros ->. contradiction. }
      assert (NDlv : NoDup lv) by (apply (NoDup_map_inv an_addr); exact N1).
      assert (NDol : NoDup ol) by (apply (Permutation_NoDup (Permutation_sym PO)); exact NDlv).
      assert (ICol : incl ol lv) by (intros x Ix; exact (Permutation_in _ PO Ix)).
      (* create_next *)
      pose proof (LK1 ol ICol (SUBN ol ICol NDol)) as Lall.
      assert (CN : create_next (map an_addr ol) (map (onv bucket_of) (nxA pat [])) H1 = (H1, Ok (map (onv bucket_of) (nxA pat ([] ++ ol))))).
      { apply create_ok.
        - intros x Ix. destruct (TOP x (ICol x Ix)) as (n & q & En & Ep & Eq & Ec & Ek). split; [|split].
          + unfold node_pattern_of. rewrite (get_ok _ _ _ En), Ep, Eq. reflexivity.
          + exists n. auto.
          + apply Forall_forall. intros y Iy. destruct (kids_in x y Iy) as (k & Ik & ->). pose proof (KH x (ICol x Ix)) as F. rewrite Forall_forall in F.
            destruct (holds_node _ _ _ _ (F k Ik)) as (m & Em & E1 & E2 & _ & E4 & _). split.
            * exists m. cbn. auto.
            * intros i a c Ei. cbn in Ei. injection Ei as <- <- <-. exists n. auto.
        - cbn [app]. apply laddrs_nd. exact (v_nd _ _ _ Lall). }
      cbn [app] in CN. change (map (onv bucket_of) (nxA pat [])) with (@nil (str * hbucket)) in CN.
      pose proof (nxA_perm pat ol) as PX.
      assert (PXL : Permutation (laddrs (flat_map snd (nxA pat ol))) (laddrs (flat_map an_kids ol))) by (unfold laddrs; apply Permutation_flat_map; exact PX).
      destruct (groups_run d level (fun lv0 H0 p0 => IH (Datatypes.S level) lv0 H0 p0 ltac:(lia)) (nxA pat ol) H1 ps) as (H2 & qs & R2 & S2 & G2 & A2).
      + intros [k b] Ig. destruct (nxA_in pat ol k b Ig) as [-> Nf]. cbn [snd]. set (sub := filter (fun x => str_eqb k (pat x)) ol) in *.
        assert (Is : incl sub lv) by (intros x Ix; apply ICol; apply filter_In in Ix; tauto).
        split; [apply LK1; [exact Is|apply SUBN; [exact Is|apply NoDup_filter; exact NDol]]|].
        destruct NO as (_ & _ & F). rewrite Forall_forall in F. split; [|split; [discriminate|]].
        * destruct sub as [|x sub']; [congruence|]. assert (Ix : In x lv) by (apply Is; left; reflexivity).
          destruct (pn_kids_tok V d level (er x) (F (er x) (in_map er lv x Ix))) as [NE _]. rewrite er_kids in NE. cbn. destruct (an_kids x); [auto|discriminate].
        * apply Forall_forall. intros y Iy. apply in_map_iff in Iy. destruct Iy as (y0 & <- & Iy). apply in_flat_map in Iy. destruct Iy as (x & Ix & Iy).
          destruct (pn_kids_tok V d level (er x) (F (er x) (in_map er lv x (Is x Ix)))) as [_ FK]. rewrite er_kids in FK. rewrite Forall_forall in FK. apply FK. apply in_map. exact Iy.
      + apply (Permutation_NoDup (Permutation_sym PXL)). exact (v_nd _ _ _ Lall).
      + intros x i a c Ix Ex Z. apply (Permutation_in _ PX) in Ix. apply (Permutation_in _ PXL) in Z. exact (proj2 (v_par _ _ _ Lall x i a c Ix Ex) Z).
      + exact Eps.
      + exists H2, (HPT (hpattern_num st1) qs). split; [|split; [|split]].
        * cbn [hproc_run]. rewrite R, RB.
          assert (EO : flat_map (fun kb => hb_nodes (snd kb)) (bk_objs (bucket_of lv)) = map an_addr ol).
          { unfold bucket_of, ol. cbn [bk_objs]. rewrite !flat_map_concat_map, concat_map, !map_map. reflexivity. }
          rewrite EO. rewrite (then_ok _ _ _ _ _ _ _ _ CN). rewrite (then_ok _ _ _ _ _ _ _ _ R2). reflexivity.
        * cbn [hcan_be_split can_be_split]. rewrite RN. destruct (1 <? pattern_num dn); [reflexivity|].
          clear -S2. inversion S2 as [|[k q] [k' p] qs' ps' E1 S3]; subst; [reflexivity|]. inversion S3; subst; [exact E1|]. reflexivity.
        * apply Forall_forall. intros x Ix. destruct (B3 x Ix) as (n & q & En & Eq & En'). rewrite (PAT x Ix) in Eq. injection Eq as <-.
          rewrite Forall_forall in Hx. specialize (Hx x Ix).
          (* its group *)
          assert (KG : exists b p', In (pat x, b) (nxA pat ol) /\ dget str_eqb (pat x) ps = Some p' /\ incl (an_kids x) b /\ Forall (got H2 (Datatypes.S level) p') b).
          { assert (Ixo : In x ol) by (exact (Permutation_in _ (Permutation_sym PO) Ix)).
            assert (KI : In (pat x) (map fst (nxA pat ol))) by (apply nxA_keys; apply in_map; exact Ixo).
            apply in_map_iff in KI. destruct KI as ([k b] & Ek & Ib). cbn in Ek. subst k.
            assert (FF : forall gs ps, Forall2 (fun g gp => fst g = fst gp /\ Forall (got H2 (Datatypes.S level) (snd gp)) (snd g)) gs ps -> NoDup (map fst gs) ->
              In (pat x, b) gs -> exists p', dget str_eqb (pat x) ps = Some p' /\ Forall (got H2 (Datatypes.S level) p') b).
            { clear. intros gs ps F. induction F as [|g gp gs ps [E1 E2] F IHF]; intros ND I; [destruct I|]. cbn in ND. inversion ND; subst.
              destruct I as [->|I].
              - exists (snd gp). destruct gp as [k p]. cbn in *. subst k. rewrite (proj2 (str_eqb_iff _ _) eq_refl). auto.
              - destruct (IHF H3 I) as (p' & E & G). exists p'. split; [|exact G]. destruct gp as [k p]. cbn in *. destruct (str_eqb (pat x) k) eqn:Ek; [|exact E].
                apply str_eqb_iff in Ek. exfalso. apply H1. rewrite E1, <- Ek. apply in_map_iff. exists (pat x, b). auto. }
            destruct (FF _ _ G2 (nxA_NoDup pat ol) Ib) as (p' & E' & G'). exists b, p'. split; [exact Ib|]. split; [exact E'|]. split; [|exact G'].
            destruct (nxA_in pat ol (pat x) b Ib) as [-> _]. intros y Iy. apply in_flat_map. exists x. split; [|exact Iy]. apply filter_In. split; [exact Ixo|].
            apply str_eqb_iff. reflexivity. }
          destruct KG as (b & p' & Ib & Ep' & Ick & Gb).
          assert (En2 : nth_error H2 (an_addr x) = Some (set_npat (Some (pat x)) n)).
          { rewrite (proj2 A2); [exact En'| |apply nth_error_Some; congruence]. intros Z. apply (Permutation_in _ PXL) in Z.
            apply (N3 (an_addr x)); [apply in_map; exact Ix|]. apply in_flat_map in Z. destruct Z as (y & Iy & Z). apply in_flat_map. exists y. split; [|exact Z].
            apply in_flat_map in Iy. destruct Iy as (w & Iw & Iy). apply in_flat_map. exists w. split; [exact (ICol w Iw)|exact Iy]. }
          assert (GK : Forall (fun k => holds H2 (Some (an_addr x)) (Datatypes.S level) (aann p' k) /\ full (aann p' k)) (a_kids (an_t x))).
          { apply Forall_forall. intros k Ik. rewrite Forall_forall in Gb. apply (Gb (AN (Some (an_id x, an_addr x, an_cnt x)) (an_id x ++ [a_piece k]) k)).
            apply Ick. unfold an_kids. apply in_map_iff. exists k. auto. }
          pose proof (PAT x Ix) as Px. unfold got, an_addr, an_piece, a_piece in *. revert GK. destruct (an_t x) as [a v pt c m ks]. cbn [a_addr a_val a_kids] in *.
          intros GK. cbn [aann]. rewrite Px, Ep'. split.
          -- apply (set_holds H H2 _ _ a v pt c m ks n (pat x) Hx En En2).
             ++ clear. induction ks as [|k ks IHk]; constructor; auto. rewrite aann_piece, aann_addr. auto.
             ++ apply Forall_map. revert GK. apply Forall_impl. tauto.
          -- apply full_iff. split; [discriminate|]. apply Forall_map. revert GK. apply Forall_impl. tauto.
        * apply (agree_trans _ H H1 H2).
          -- split; [exact B1|]. intros a Na La. apply B2; [exact La|]. intros Z. apply Na. apply (Permutation_in _ (Permutation_sym PN)). apply in_or_app. left. exact Z.
          -- apply (agree_weak _ _ _ _ (fun a X => X) ). apply (agree_weak (fun a => ~ In a (laddrs (flat_map snd (nxA pat ol))))); [|exact A2].
             intros a Na Z. apply Na. apply (Permutation_in _ (Permutation_sym PN)). apply in_or_app. right. apply (Permutation_in _ PXL) in Z.
             apply in_flat_map in Z. destruct Z as (y & Iy & Z). apply in_flat_map. exists y. split; [|exact Z].
             apply in_flat_map in Iy. destruct Iy as (w & Iw & Iy). apply in_flat_map. exists w. split; [exact (ICol w Iw)|exact Iy].
  Qed.

  (** process() *)
  Lemma hprocess_ok : forall s H t split, holds H None 0 s -> NoDup (addrs s) -> tok V D 0 (erase s) -> process mcn innerP D pd kw (erase s) = Ok (t, split) ->
    exists H' s', hprocess mcn innerH D pd kw (a_addr s) H = (H', Ok split) /\ erase s' = t /\ a_addr s' = a_addr s /\ addrs s' = addrs s
      /\ holds H' None 0 s' /\ full s' /\ agree (fun a => ~ In a (addrs s)) H H'.
  Proof.
    intros s H t split Ho ND Tk E. unfold process in E. destruct (proc mcn innerP D 0 pd kw [PN None [] (erase s)]) as [p|] eqn:Ep; [|discriminate]. cbn [bind] in E.
    injection E as <- <-. set (x := AN None [] s).
    assert (L : lev H 0 [x]).
    { constructor.
      - constructor; [exact Ho|constructor].
      - cbn. rewrite app_nil_r. exact ND.
      - intros y z [<-|[]] [<-|[]] _. reflexivity.
      - intros y i a c [<-|[]] X. discriminate.
      - intros y z i a c i' a' c' [<-|[]] _ X. discriminate.
      - congruence. }
    assert (NO : nodes_ok V D 0 (map er [x])).
    { split; [discriminate|]. split; [intros _; exists (er x); reflexivity|]. constructor; [exact Tk|constructor]. }
    destruct (hproc_ok D 0 [x] H p eq_refl L NO Ep) as (H' & q & R & S & G & A).
    inversion G as [|y z [G1 G2] _]; subst y z. exists H', (aann p s). split; [|split; [apply aann_erase|split; [apply aann_addr|split; [apply aann_addrs|split; [exact G1|split; [exact G2|]]]]]].
    - unfold hprocess.
      assert (B : bucket_add_node H (a_addr s) new_bucket = Ok (bucket_of [x])).
      { apply (bucket_add_ok H [] x); [|intros []]. destruct (holds_node _ _ _ _ Ho) as (n & En & E1 & E2 & _ & E4 & _). split; [exists n; auto|]. intros i a c X. discriminate. }
      rewrite (then_ok _ _ _ _ _ _ H (bucket_of [x])) by (unfold reading; rewrite B; reflexivity).
      rewrite (then_ok _ _ _ _ _ _ _ _ R). unfold ret. rewrite S. reflexivity.
    - cbn in A. rewrite app_nil_r in A. exact A.
  Qed.
End Proc.
