(** make() on the nodes as objects: the state of the clusters of one level. *)
From Coq Require Import String.
From Verif Require Import PyStr Defs UrlLib ParseUtils Views Trees Cluster Patterns Matcher Maker Heap HeapSpec HCluster
  PyStrProofs DefsProofs TreeProofs DictProofs LoadProofs HeapProofs HeapLoad HeapState GroupProofs HcBase HcBag.
From Coq Require Import Lia Permutation.

Lemma cls_eqb_iff : forall a b, cls_eqb a b = true <-> a = b.
Proof. intros [] []; simpl; split; intros E; try discriminate; reflexivity. Qed.
Lemma dset_dset : forall K V (eqb : K -> K -> bool) (E : forall a b, eqb a b = true <-> a = b) k (v v' : V) d,
  dset eqb k v' (dset eqb k v d) = dset eqb k v' d.
Proof.
  intros K V eqb E k v v'. induction d as [|[k2 v2] d IH]; cbn.
  - rewrite (proj2 (E k k) eq_refl). reflexivity.
  - destruct (eqb k k2) eqn:B; cbn.
    + rewrite B. reflexivity.
    + rewrite B, IH. reflexivity.
Qed.
(** assigning the same pattern to several nodes *)
Lemma set_each : forall p l H, exists H', each l (fun a => node_set a p) H = (H', Ok tt) /\ length H' = length H
  /\ (forall a, In a l -> nth_error H' a = option_map (wn (Some p)) (nth_error H a))
  /\ (forall a, ~ In a l -> nth_error H' a = nth_error H a).
Proof.
  intros p. induction l as [|b l IH]; intros H.
  - exists H. repeat split; auto. intros a [].
  - destruct (IH (put H b (set_npat (Some p)))) as (H' & E & L & N1 & N2). exists H'. split.
    + rewrite (each_cons _ _ _ _ _ _ (put H b (set_npat (Some p)))); [exact E|reflexivity].
    + split; [rewrite L; apply put_length|].
      assert (SELF : nth_error (put H b (set_npat (Some p))) b = option_map (wn (Some p)) (nth_error H b)).
      { destruct (nth_error H b) as [n|] eqn:Hb; [rewrite (put_same _ _ _ _ Hb); reflexivity|].
        apply nth_error_None. rewrite put_length. apply nth_error_None. exact Hb. }
      split.
      * intros a Ia. destruct (in_dec Nat.eq_dec a l) as [J|J].
        -- rewrite (N1 a J). destruct (Nat.eq_dec a b) as [->|D]; [|rewrite put_other by auto; reflexivity].
           rewrite SELF. destruct (nth_error H b); reflexivity.
        -- destruct Ia as [->|Ia]; [|tauto]. rewrite (N2 a J). exact SELF.
      * intros a Ia. rewrite N2 by (intros X; apply Ia; right; exact X). apply put_other. intros ->. apply Ia. left. reflexivity.
Qed.
Lemma nodup_inj : forall A B (f : A -> B) l x y, NoDup (map f l) -> In x l -> In y l -> f x = f y -> x = y.
Proof.
  intros A B f. induction l as [|z l IH]; intros x y ND Ix Iy E; [destruct Ix|]. inversion ND as [|a b Hn Hd]; subst.
  destruct Ix as [->|Ix], Iy as [->|Iy]; auto.
  - exfalso. apply Hn. rewrite E. apply in_map. exact Iy.
  - exfalso. apply Hn. rewrite <- E. apply in_map. exact Ix.
Qed.
Lemma In_dset_cases : forall K V (eqb : K -> K -> bool) (E : forall a b, eqb a b = true <-> a = b) k (v : V) d x,
  In x (dset eqb k v d) -> x = (k, v) \/ In x d.
Proof.
  intros K V eqb E k v. induction d as [|[k' v'] d IH]; intros x I; cbn in I.
  - destruct I as [<-|[]]. left. reflexivity.
  - destruct (eqb k k') eqn:Ek.
    + destruct I as [<-|I]; [|right; right; exact I]. apply E in Ek. subst. left. reflexivity.
    + destruct I as [<-|I]; [right; left; reflexivity|]. destruct (IH x I); [left; auto|right; right; auto].
Qed.

(** below the second level every node has a parent *)
Definition psome (level : nat) (lv : list anode) : Prop := 2 <= level -> forall x, In x lv -> an_par x <> None.

Section Level.
  Context (mcn : Z) (level : nat) (Hs : heap) (lv : list anode).
  Context (NODE : forall x, In x lv -> exists n, nth_error Hs (an_addr x) = Some n /\ n_value n = a_val (an_t x) /\ n_count n = an_cnt x).
  Context (NDA : NoDup (map an_addr lv)).
  Context (PARC : forall x i a c, In x lv -> an_par x = Some (i, a, c) -> exists n, nth_error Hs a = Some n /\ n_count n = c).
  Context (PID : forall x y i a c i' a' c', In x lv -> In y lv -> an_par x = Some (i, a, c) -> an_par y = Some (i', a', c') ->
    (i = i' <-> a = a')).
  Context (PSOME : psome level lv).

  Definition nodes_of (k : str) : list anode := filter (fun x => str_eqb k (an_piece x)) lv.
  Definition hb_of (k : str) : hbag := hbag_of (nodes_of k).
  Lemma nodes_of_in : forall k x, In x (nodes_of k) <-> In x lv /\ an_piece x = k.
  Proof.
    intros k x. unfold nodes_of. rewrite filter_In. split; intros [A B]; (split; [exact A|]).
    - apply str_eqb_iff in B. auto.
    - apply str_eqb_iff. auto.
  Qed.
  (** the nodes of the level have the patterns that [W] gives them, all other nodes from
      before are as before *)
  Definition LV (H : heap) (W : list (str * str)) : Prop :=
    length Hs <= length H
    /\ (forall a, a < length Hs -> ~ In a (map an_addr lv) -> nth_error H a = nth_error Hs a)
    /\ (forall x n, In x lv -> nth_error Hs (an_addr x) = Some n -> nth_error H (an_addr x) = Some (wn (wr W (an_piece x)) n)).
  Lemma LV_start : LV Hs [].
  Proof. split; [lia|]. split; auto. Qed.
  Lemma LV_frame : forall H H' W, LV H W -> length H <= length H' -> (forall a, a < length Hs -> nth_error H' a = nth_error H a) -> LV H' W.
  Proof.
    intros H H' W (A & B & C) L F. split; [lia|]. split.
    - intros a La N. rewrite F by exact La. apply B; auto.
    - intros x n Ix En. rewrite F; [apply C; auto|]. apply nth_error_Some. congruence.
  Qed.
  Lemma LV_get : forall H W a n, LV H W -> nth_error Hs a = Some n -> exists o, nth_error H a = Some (wn o n).
  Proof.
    intros H W a n (A & B & C) E. destruct (in_dec Nat.eq_dec a (map an_addr lv)) as [I|I].
    - apply in_map_iff in I. destruct I as (x & <- & Ix). eexists. apply C; eauto.
    - exists None. cbn. rewrite B; auto. apply nth_error_Some. congruence.
  Qed.
  Lemma wn_value : forall o n, n_value (wn o n) = n_value n. Proof. intros [p|] n; reflexivity. Qed.
  Lemma wn_count : forall o n, n_count (wn o n) = n_count n. Proof. intros [p|] n; reflexivity. Qed.
  Lemma bag_set_ok : forall H W k p, LV H W -> exists H', bag_set (hb_of k) p H = (H', Ok tt) /\ LV H' (W ++ [(k, p)])
    /\ length H' = length H /\ (forall a, ~ In a (map an_addr lv) -> nth_error H' a = nth_error H a).
  Proof.
    intros H W k p (A & B & C). unfold bag_set, hb_of. cbn [hbag_of hb_nodes].
    destruct (set_each p (map an_addr (nodes_of k)) H) as (H' & E & L & N1 & N2). exists H'. split; [exact E|].
    assert (IN : forall a, In a (map an_addr (nodes_of k)) -> In a (map an_addr lv)).
    { intros a I. apply in_map_iff in I. destruct I as (x & <- & Ix). apply nodes_of_in in Ix. apply in_map. tauto. }
    assert (FR : forall a, ~ In a (map an_addr lv) -> nth_error H' a = nth_error H a).
    { intros a I. apply N2. auto. }
    split; [|split; [exact L|exact FR]]. split; [lia|]. split.
    - intros a La I. rewrite FR by exact I. apply B; auto.
    - intros x n Ix En. rewrite wr_app. cbn [wr].
      destruct (in_dec Nat.eq_dec (an_addr x) (map an_addr (nodes_of k))) as [J|J].
      + rewrite (N1 _ J), (C x n Ix En). apply in_map_iff in J. destruct J as (y & Ey & Iy). apply nodes_of_in in Iy. destruct Iy as [Iy Py].
        assert (y = x) as -> by (exact (nodup_inj _ _ _ _ _ _ NDA Iy Ix Ey)).
        rewrite Py, (proj2 (str_eqb_iff k k) eq_refl). cbn [option_map]. rewrite wn_wn. reflexivity.
      + rewrite (N2 _ J), (C x n Ix En). destruct (str_eqb (an_piece x) k) eqn:Ek; [|reflexivity]. exfalso. apply J. apply in_map. apply nodes_of_in.
        apply str_eqb_iff in Ek. auto.
  Qed.

  (** an item of Cluster.v and the bag it stands for *)
  Definition itok0 (i : Cluster.item) : Prop :=
    it_bag i = map er (nodes_of (it_piece i)) /\ exists x r, nodes_of (it_piece i) = x :: r /\ it_pp i = a_val (an_t x).
  (** while its nodes have their pieces as patterns *)
  Definition itok (i : Cluster.item) : Prop := itok0 i /\ it_pat i = it_piece i.
  Lemma pick_ok0 : forall H W i, LV H W -> itok0 i -> parsed_of (bag_pick (hb_of (it_piece i))) H = Ok (it_pp i).
  Proof.
    intros H W i L [_ (x & r & E & P)]. unfold hb_of, hbag_of, bag_pick, parsed_of. cbn. rewrite E. cbn.
    assert (Ix : In x lv) by (apply (nodes_of_in (it_piece i)); rewrite E; left; reflexivity).
    destruct (NODE x Ix) as (n & En & Vn & Cn). destruct (LV_get _ _ _ _ L En) as [o Eo].
    rewrite (get_ok _ _ _ Eo). cbn. rewrite wn_value, Vn, P. reflexivity.
  Qed.
  Lemma pick_ok : forall H W i, LV H W -> itok i -> parsed_of (bag_pick (hb_of (it_piece i))) H = Ok (it_pp i).
  Proof. intros H W i L [It _]. exact (pick_ok0 H W i L It). Qed.
  Lemma count_ok0 : forall i, itok0 i -> hb_count (hb_of (it_piece i)) = it_count i.
  Proof. intros i [E _]. unfold it_count. rewrite E. reflexivity. Qed.
  Lemma count_ok : forall i, itok i -> hb_count (hb_of (it_piece i)) = it_count i.
  Proof. intros i [E _]. exact (count_ok0 i E). Qed.
  Lemma hseek_ok : forall H W b, LV H W -> incl b lv ->
    hseek mcn level (apn b) (bag_count (map er b)) H = (H, pre_seek mcn level (map er b)).
  Proof.
    intros H W b L I. unfold hseek, reading, pre_seek. destruct level as [|[|k]] eqn:El; try reflexivity. f_equal.
    assert (P2 : forall x i a c, In x lv -> an_par x = Some (i, a, c) -> exists n, nth_error H a = Some n /\ n_count n = c).
    { intros x i a c Ix Ep. destruct (PARC x i a c Ix Ep) as (n & En & Cn). destruct (LV_get _ _ _ _ L En) as [o Eo].
      exists (wn o n). split; [exact Eo|]. rewrite wn_count. exact Cn. }
    unfold apn. rewrite (counts_ok H lv P2 _ _ (parents_step lv PID (PSOME ltac:(lia)) b [] [] I (Forall2_nil _))). cbn [bind]. reflexivity.
  Qed.

  (** *** view buckets with the references of their trees *)
  Definition vdict := list (str * (vbucket * atree)).
  Definition ho (vi : list parsed_piece * Cluster.item) : hvbag := (fst vi, hb_of (it_piece (snd vi))).
  Definition hvb (bs : vbucket * atree) : hvbucket :=
    HVBucket (vb_depth (fst bs)) (map (onv ho) (vb_objs (fst bs))) (vb_count (fst bs)) (a_addr (snd bs)).
  Record VT (H : heap) (gv : cls -> vdict) : Prop := {
    vt_holds : forall c k b s, In (k, (b, s)) (gv c) -> holds H None 0 s /\ NoDup (addrs s) /\ erase s = vb_root b
      /\ (forall a, In a (addrs s) -> length Hs <= a)
      /\ Forall (fun o => fst o = it_piece (snd (snd o)) /\ itok (snd (snd o))) (vb_objs b);
    vt_disj : forall c k b s c' k' b' s' a, In (k, (b, s)) (gv c) -> In (k', (b', s')) (gv c') ->
      In a (addrs s) -> In a (addrs s') -> c = c' /\ k = k';
    vt_keys : forall c, NoDup (map fst (gv c))
  }.
  Definition foot (gv : cls -> vdict) (a : addr) : Prop :=
    a < length Hs \/ exists c k b s, In (k, (b, s)) (gv c) /\ In a (addrs s).
  Definition ext (gv : cls -> vdict) (H : heap) (gv' : cls -> vdict) (H' : heap) : Prop :=
    agree (fun a => ~ foot gv a) H H' /\ (forall a, foot gv' a -> foot gv a \/ length H <= a).
  Lemma ext_refl : forall gv H, ext gv H gv H.
  Proof. intros. split; [apply agree_refl|auto]. Qed.
  Lemma ext_trans : forall g1 H1 g2 H2 g3 H3, ext g1 H1 g2 H2 -> ext g2 H2 g3 H3 -> ext g1 H1 g3 H3.
  Proof.
    intros g1 H1 g2 H2 g3 H3 [[L1 A1] F1] [[L2 A2] F2]. split.
    - split; [lia|]. intros a N La. rewrite A2; [apply A1; auto| |lia]. intros Fa. destruct (F1 a Fa); [tauto|lia].
    - intros a Fa. destruct (F2 a Fa) as [X|X]; [|right; lia]. apply F1. exact X.
  Qed.
  Lemma VT_frame : forall H H' gv, VT H gv -> agree (fun a => foot gv a /\ length Hs <= a) H H' -> VT H' gv.
  Proof.
    intros H H' gv V A. constructor; [|exact (vt_disj _ _ V)|exact (vt_keys _ _ V)].
    intros c k b s I. destruct (vt_holds _ _ V c k b s I) as (Ho & R & R2 & R3 & R4). split; [|auto].
    apply (holds_agree _ _ _ _ _ _ Ho A). intros a Ia. split; [right; eauto 8|auto].
  Qed.
  Lemma VT_sub : forall H gv gv', VT H gv -> (forall c x, In x (gv' c) -> In x (gv c)) -> (forall c, NoDup (map fst (gv' c))) -> VT H gv'.
  Proof.
    intros H gv gv' V S N. constructor; [| |exact N].
    - intros c k b s I. apply (vt_holds _ _ V c k b s (S _ _ I)).
    - intros c k b s c' k' b' s' a I J. exact (vt_disj _ _ V c k b s c' k' b' s' a (S _ _ I) (S _ _ J)).
  Qed.
  Definition upd (gv : cls -> vdict) (c : cls) (l : vdict) : cls -> vdict := fun c' => if cls_eqb c c' then l else gv c'.
  Lemma upd_same : forall gv c l, upd gv c l c = l.
  Proof. intros. unfold upd. rewrite (proj2 (cls_eqb_iff c c) eq_refl). reflexivity. Qed.
  Lemma upd_other : forall gv c l c', c' <> c -> upd gv c l c' = gv c'.
  Proof. intros. unfold upd. destruct (cls_eqb c c') eqn:E; [|reflexivity]. apply cls_eqb_iff in E. congruence. Qed.
  (** members of a changed dict *)
  Lemma upd_in : forall gv c key v c' x, NoDup (map fst (gv c)) -> In x (upd gv c (dset str_eqb key v (gv c)) c') ->
    (c' = c /\ x = (key, v)) \/ (~ (c' = c /\ fst x = key) /\ In x (gv c')).
  Proof.
    intros gv c key v c' x ND I. unfold upd in I. destruct (cls_eqb c c') eqn:E.
    - apply cls_eqb_iff in E. subst c'. destruct (dset_in _ _ str_eqb str_eqb_iff _ _ _ _ ND I) as [->|[A B]]; [left; auto|].
      right. split; [tauto|exact B].
    - right. split; [|exact I]. intros [-> _]. rewrite (proj2 (cls_eqb_iff c c) eq_refl) in E. discriminate.
  Qed.
  (** replacing the tree under one key by one that took its own or new nodes *)
  Lemma VT_put : forall H H' gv c key b s, VT H gv -> length H <= length H' ->
    holds H' None 0 s -> NoDup (addrs s) -> erase s = vb_root b -> (forall a, In a (addrs s) -> length Hs <= a) ->
    Forall (fun o => fst o = it_piece (snd (snd o)) /\ itok (snd (snd o))) (vb_objs b) ->
    (forall a, In a (addrs s) -> length H <= a \/ exists b0 s0, In (key, (b0, s0)) (gv c) /\ In a (addrs s0)) ->
    (forall a, a < length H -> (forall b0 s0, In (key, (b0, s0)) (gv c) -> ~ In a (addrs s0)) -> nth_error H' a = nth_error H a) ->
    VT H' (upd gv c (dset str_eqb key (b, s) (gv c))).
  Proof.
    intros H H' gv c key b s V L Ho Nd Er Lo Ob OWN FR.
    assert (OTHER : forall c1 k1 b1 s1 a, ~ (c1 = c /\ k1 = key) -> In (k1, (b1, s1)) (gv c1) -> In a (addrs s1) ->
      ~ In a (addrs s) /\ nth_error H' a = nth_error H a).
    { intros c1 k1 b1 s1 a N I1 Ia. destruct (vt_holds _ _ V _ _ _ _ I1) as (Ho1 & _).
      pose proof (holds_lt _ _ _ _ Ho1 a Ia) as La. split.
      - intros Is. destruct (OWN a Is) as [X|(b0 & s0 & I0 & A0)]; [lia|].
        destruct (vt_disj _ _ V _ _ _ _ _ _ _ _ _ I1 I0 Ia A0). tauto.
      - apply FR; [exact La|]. intros b0 s0 I0 A0. destruct (vt_disj _ _ V _ _ _ _ _ _ _ _ _ I1 I0 Ia A0). tauto. }
    constructor.
    - intros c1 k1 b1 s1 I. apply upd_in in I; [|apply (vt_keys _ _ V)]. destruct I as [[-> E]|[N I]].
      + inversion E; subst. auto 6.
      + destruct (vt_holds _ _ V _ _ _ _ I) as (Ho1 & R). split; [|exact R].
        apply (holds_frame _ _ _ _ _ Ho1). intros a Ia. exact (proj2 (OTHER _ _ _ _ _ N I Ia)).
    - intros c1 k1 b1 s1 c2 k2 b2 s2 a I1 I2 A1 A2. apply upd_in in I1; [|apply (vt_keys _ _ V)]. apply upd_in in I2; [|apply (vt_keys _ _ V)].
      destruct I1 as [[-> E1]|[N1 I1]], I2 as [[-> E2]|[N2 I2]].
      + inversion E1; inversion E2; subst. auto.
      + inversion E1; subst. exfalso. exact (proj1 (OTHER _ _ _ _ _ N2 I2 A2) A1).
      + inversion E2; subst. exfalso. exact (proj1 (OTHER _ _ _ _ _ N1 I1 A1) A2).
      + exact (vt_disj _ _ V _ _ _ _ _ _ _ _ _ I1 I2 A1 A2).
    - intros c1. unfold upd. destruct (cls_eqb c c1); [|apply (vt_keys _ _ V)]. apply (dset_NoDup str_eqb str_eqb_iff). apply (vt_keys _ _ V).
  Qed.
  Lemma put_ext : forall H H' gv c key b s, NoDup (map fst (gv c)) -> length H <= length H' ->
    (forall a, In a (addrs s) -> length H <= a \/ exists b0 s0, In (key, (b0, s0)) (gv c) /\ In a (addrs s0)) ->
    (forall a, a < length H -> (forall b0 s0, In (key, (b0, s0)) (gv c) -> ~ In a (addrs s0)) -> nth_error H' a = nth_error H a) ->
    ext gv H (upd gv c (dset str_eqb key (b, s) (gv c))) H'.
  Proof.
    intros H H' gv c key b s ND L OWN FR. split.
    - split; [exact L|]. intros a N La. apply FR; [exact La|]. intros b0 s0 I0 A0. apply N. right. eauto 8.
    - intros a [La|(c1 & k1 & b1 & s1 & I & A)]; [left; left; exact La|].
      apply upd_in in I; [|exact ND]. destruct I as [[-> E]|[_ I]].
      + inversion E; subst. destruct (OWN a A) as [X|(b0 & s0 & I0 & A0)]; [right; exact X|]. left. right. eauto 8.
      + left. right. eauto 8.
  Qed.

  (** 402-407, 126-136 *)
  Lemma add_view_ok : forall H st W gv c v i d', VT H gv -> LV H W -> itok i ->
    hp_views st c = map (onv hvb) (gv c) -> multi_add (map (onv fst) (gv c)) (v, i) = Ok d' ->
    exists H' l', add_to_view c v (hb_of (it_piece i)) (H, st) = ((H', set_views c (map (onv hvb) l') st), Ok tt)
      /\ map (onv fst) l' = d' /\ VT H' (upd gv c l') /\ LV H' W /\ ext gv H (upd gv c l') H'.
  Proof.
    intros H st W gv c v i d' V L It Es M. unfold multi_add in M. cbn [fst snd] in M. set (key := view_key v) in *.
    assert (Vn : v <> []).
    { intros ->. unfold vb_add, build_from_parsed_pieces in M. cbn [fst map] in M.
      match type of M with context [vb_root ?b] => destruct (vb_root b) as [vv pp cc mm kk] end. cbn in M. discriminate. }
    unfold add_to_view. rewrite (then_ok _ _ _ self _ _ (H, st) st) by reflexivity. fold key. rewrite Es, (dget_onv str_eqb hvb).
    rewrite (dget_onv str_eqb fst) in M.
    (* the bucket, old or new *)
    assert (B : exists H1 b s,
      (match option_map hvb (dget str_eqb key (gv c)) with
       | Some bk => ret bk
       | None => r <~ on_heap new_root_node ;; ret (HVBucket (length v) [] 0 r)
       end) (H, st) = ((H1, st), Ok (hvb (b, s)))
      /\ b = match option_map fst (dget str_eqb key (gv c)) with Some b => b | None => VB (length v) [] 0 new_root end
      /\ VT H1 (upd gv c (dset str_eqb key (b, s) (gv c))) /\ LV H1 W /\ ext gv H (upd gv c (dset str_eqb key (b, s) (gv c))) H1).
    { destruct (dget str_eqb key (gv c)) as [[b s]|] eqn:D; cbn [option_map fst].
      - exists H, b, s. apply (dget_some_in str_eqb str_eqb_iff) in D. destruct (vt_holds _ _ V _ _ _ _ D) as (A1 & A2 & A3 & A4 & A5).
        split; [reflexivity|]. split; [reflexivity|]. split; [|split; [exact L|]].
        + apply (VT_put H); auto; intros a Ia; right; eauto.
        + apply put_ext; auto; [apply (vt_keys _ _ V)|]. intros a Ia. right. eauto.
      - set (nn := new_node None empty_parsed_piece None). exists (H ++ [nn]), (VB (length v) [] 0 new_root), (AT (length H) empty_parsed_piece None 0 None []).
        split; [reflexivity|]. split; [reflexivity|].
        assert (Ln : length H <= length (H ++ [nn])) by (rewrite app_length; lia).
        assert (OWN : forall a, In a (addrs (AT (length H) empty_parsed_piece None 0 None [])) -> length H <= a \/ exists b0 s0, In (key, (b0, s0)) (gv c) /\ In a (addrs s0)).
        { cbn. intros a [<-|[]]. left. lia. }
        assert (FR : forall a, a < length H -> (forall b0 s0, In (key, (b0, s0)) (gv c) -> ~ In a (addrs s0)) -> nth_error (H ++ [nn]) a = nth_error H a).
        { intros a La _. apply app_old. exact La. }
        assert (LH : length Hs <= length H) by exact (proj1 L).
        split; [|split].
        + apply (VT_put H); auto.
          * apply holds_iff. split; [|constructor]. exists nn. rewrite app_new. cbn. repeat split. left. reflexivity.
          * cbn. constructor; [intros []|constructor].
          * cbn. intros a [<-|[]]. exact LH.
          * constructor.
        + apply (LV_frame H); auto. intros a La. apply app_old. lia.
        + apply put_ext; auto. apply (vt_keys _ _ V). }
    destruct B as (H1 & b & s & Eb & Bb & V1 & L1 & X1). rewrite (then_ok _ _ _ _ _ _ _ _ Eb).
    rewrite (then_ok _ _ _ _ _ _ (H1, st) (it_pp i)); [|apply on_heap_ok; unfold reading; rewrite (pick_ok _ _ _ L1 It); reflexivity].
    rewrite <- Bb in M. set (g1 := upd gv c (dset str_eqb key (b, s) (gv c))) in *.
    assert (I1 : In (key, (b, s)) (g1 c)).
    { unfold g1. rewrite upd_same. apply (dset_same_in _ _ str_eqb str_eqb_iff). }
    destruct (vt_holds _ _ V1 _ _ _ _ I1) as (A1 & A2 & A3 & A4 & A5).
    destruct (build_from_ok s H1 v (it_count i) None false A1 A2 Vn) as (t & new & Et & H2 & s2 & x & E2 & Ho2 & St & Nd2 & Er2 & _).
    rewrite count_ok by exact It. cbn [hvb hv_root snd].
    rewrite (then_ok _ _ _ _ _ _ (H2, st) (x, new)); [|apply on_heap_ok; exact E2].
    unfold vb_add in M. cbn [fst snd] in M. rewrite <- A3, Et in M. cbn [bind fst] in M.
    assert (Md : d' = dset str_eqb key (VB (vb_depth b) (dset str_eqb (it_piece i) (v, i) (vb_objs b)) (vb_count b + it_count i) t) (map (onv fst) (gv c))) by congruence.
    set (b2 := VB (vb_depth b) (dset str_eqb (it_piece i) (v, i) (vb_objs b)) (vb_count b + it_count i) t) in *.
    assert (K1 : NoDup (map fst (g1 c))) by apply (vt_keys _ _ V1).
    assert (UN : forall b0 s0, In (key, (b0, s0)) (g1 c) -> s0 = s).
    { intros b0 s0 I0. pose proof (dget_in str_eqb str_eqb_iff _ _ _ K1 I0) as D0.
      pose proof (dget_in str_eqb str_eqb_iff _ _ _ K1 I1) as D1. congruence. }
    assert (OWN : forall a, In a (addrs s2) -> length H1 <= a \/ exists b0 s0, In (key, (b0, s0)) (g1 c) /\ In a (addrs s0)).
    { intros a Ia. apply (st_in _ _ _ _ St) in Ia. destruct Ia as [Ia|Ia]; [right; eauto|left; lia]. }
    assert (FR : forall a, a < length H1 -> (forall b0 s0, In (key, (b0, s0)) (g1 c) -> ~ In a (addrs s0)) -> nth_error H2 a = nth_error H1 a).
    { intros a La N. apply (st_frame _ _ _ _ St a La). apply (N b s I1). }
    pose proof (st_len _ _ _ _ St) as Ln.
    assert (G : upd g1 c (dset str_eqb key (b2, s2) (g1 c)) = upd g1 c (dset str_eqb key (b2, s2) (gv c))).
    { unfold g1 at 2. rewrite upd_same, (dset_dset _ _ str_eqb str_eqb_iff). reflexivity. }
    assert (V2 : VT H2 (upd g1 c (dset str_eqb key (b2, s2) (g1 c)))).
    { apply (VT_put H1); auto.
      - intros a Ia. apply (st_in _ _ _ _ St) in Ia. destruct Ia as [Ia|Ia]; [exact (A4 a Ia)|]. pose proof (proj1 L1). lia.
      - cbn [b2 vb_objs]. apply Forall_forall. intros o Io.
        destruct (In_dset_cases _ _ str_eqb str_eqb_iff _ _ _ _ Io) as [->|Io']; [cbn; auto|].
        exact (proj1 (Forall_forall _ _) A5 o Io'). }
    assert (X2 : ext g1 H1 (upd g1 c (dset str_eqb key (b2, s2) (g1 c))) H2) by (apply put_ext; auto).
    exists H2, (dset str_eqb key (b2, s2) (gv c)). split; [|split; [|split; [|split]]].
    - unfold update. cbn [fst snd]. f_equal. f_equal. f_equal. rewrite <- (dset_onv str_eqb hvb). f_equal.
      unfold hvb. cbn [fst snd b2 vb_depth vb_objs vb_count hv_depth hv_objs hv_count]. f_equal; [|symmetry; apply (st_addr _ _ _ _ St)].
      rewrite <- (dset_onv str_eqb ho). reflexivity.
    - rewrite Md. symmetry. apply (dset_onv str_eqb (fst (A := vbucket) (B := atree)) key (b2, s2)).
    - rewrite G in V2. apply (VT_sub _ _ _ V2).
      + intros c0 y Iy. unfold upd in *. destruct (cls_eqb c c0) eqn:Ec; [exact Iy|]. unfold g1, upd. rewrite Ec. exact Iy.
      + intros c0. unfold upd. destruct (cls_eqb c c0); [apply (dset_NoDup str_eqb str_eqb_iff)|]; apply (vt_keys _ _ V).
    - apply (LV_frame H1); auto. intros a La. apply (st_frame _ _ _ _ St); [pose proof (proj1 L1); lia|].
      intros Ia. pose proof (A4 a Ia). lia.
    - apply (ext_trans _ _ _ _ _ _ X1). rewrite G in X2. destruct X2 as [Y1 Y2]. split; [exact Y1|].
      intros a [Fa|(c0 & k0 & b0 & s0 & I0 & A0)]; [left; left; exact Fa|]. apply Y2. right. exists c0, k0, b0, s0. split; [|exact A0].
      unfold upd in *. destruct (cls_eqb c c0) eqn:Ec; [exact I0|]. unfold g1, upd. rewrite Ec. exact I0.
  Qed.
End Level.
