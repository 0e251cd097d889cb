(** make() on the nodes as objects: the first four clusters of a level. *)
From Coq Require Import String.
From Verif Require Import PyStr Defs UrlLib ParseUtils Views Trees Cluster Patterns Matcher Maker Heap HeapSpec HCluster
  PyStrProofs DefsProofs TreeProofs DictProofs LoadProofs HeapProofs HeapLoad HeapState GroupProofs HcBase HcBag HcLevel HcPaths.
From Coq Require Import Lia Permutation.

Lemma fM_app : forall A B (f : B -> A -> res B) l1 l2 s, foldM f (l1 ++ l2) s = (x <- foldM f l1 s ;; foldM f l2 x).
Proof. induction l1 as [|x l IH]; intros l2 s; [reflexivity|]. cbn. destruct (f s x); [apply IH|reflexivity]. Qed.
Lemma fM_step : forall A B (f : B -> A -> res B) l x r s d e, foldM f l s = Ok d -> foldM f (l ++ x :: r) s = Ok e ->
  exists d', f d x = Ok d' /\ foldM f (l ++ [x]) s = Ok d'.
Proof.
  intros A B f l x r s d e E E2. rewrite fM_app, E in E2. cbn in E2. destruct (f d x) as [d'|] eqn:Ef; [|discriminate].
  exists d'. split; [reflexivity|]. rewrite fM_app, E. cbn. rewrite Ef. reflexivity.
Qed.
Lemma to_view_one : forall c a b, to_view c (a ++ b) = to_view c a ++ to_view c b.
Proof. intros. unfold to_view. apply flat_map_app. Qed.
Lemma to_length_one : forall a b, to_length (a ++ b) = to_length a ++ to_length b.
Proof. intros. unfold to_length. apply flat_map_app. Qed.

(** the patterns of a class *)
Definition pats_ok (l : list str) (c : cls) (dn : list (cls * str * str)) : Prop :=
  NoDup l /\ forall p, In p l <-> exists k, In (c, k, p) dn.
Lemma pats_add : forall st dn c p ks, (forall c0, pats_ok (hp_pats st c0) c0 dn) -> ks <> [] ->
  forall c0, pats_ok (hp_pats (put_pattern c p st) c0) c0 (dn ++ map (fun k => (c, k, p)) ks).
Proof.
  intros st dn c p ks P N c0. cbn. destruct (P c0) as [P1 P2]. unfold pats_ok. destruct (cls_eqb c c0) eqn:E.
  - apply cls_eqb_iff in E. subst c0. split; [apply (sadd_nodup _ _ str_eqb_iff); exact P1|].
    intros q. rewrite (sadd_in _ _ str_eqb_iff), P2. split.
    + intros [->|(k & I)].
      * destruct ks as [|k ks]; [congruence|]. exists k. apply in_or_app. right. left. reflexivity.
      * exists k. apply in_or_app. left. exact I.
    + intros (k & I). apply in_app_or in I. destruct I as [I|I]; [right; eauto|].
      apply in_map_iff in I. destruct I as (k2 & Ek & _). inversion Ek. left. reflexivity.
  - split; [exact P1|]. intros q. rewrite P2. split; intros (k & I); exists k; [apply in_or_app; left; exact I|].
    apply in_app_or in I. destruct I as [I|I]; [exact I|]. apply in_map_iff in I. destruct I as (k2 & Ek & _). inversion Ek; subst.
    rewrite (proj2 (cls_eqb_iff c0 c0) eq_refl) in E. discriminate.
Qed.

(** where things are forwarded to *)
Definition views3 := [CBase; CMixed; CLdsf].
Definition dest_in (act : list cls) (d : dest) : Prop := match d with DView c _ => In c act | DLength => True end.
Ltac dests := repeat match goal with |- dest_in _ (if ?b then _ else _) => destruct b end; cbn; auto 6.
Lemma dest_piece_in : forall mcn lp p, dest_in views3 (dest_piece mcn lp p).
Proof. intros. unfold dest_piece, views3. cbv zeta. dests. Qed.
Definition later (c : cls) : list cls := match c with CBase => [CMixed; CLdsf] | CMixed => [CLdsf] | _ => [] end.
Lemma forward_in : forall lp c vi, dest_in (later c) (fst (forward lp c vi)).
Proof. intros lp [] [v i]; unfold forward; cbn [fst snd later]; unfold dest_base, dest_mixed; cbv zeta; dests. Qed.

Section Stage.
  Context (mcn : Z) (level : nat) (last_level last_path kw : bool) (Hs : heap) (lv : list anode).
  Context (innerH : nat -> bool -> addr -> (addr -> lprog unit) -> lprog unit) (innerP : nat -> bool -> tree -> res (list tree))
    (Pin : nat -> tree -> Prop).
  Context (INNER : forall d kw s ts, Pin d (erase s) -> innerP d kw (erase s) = Ok ts -> yields (innerH d kw (a_addr s)) s ts).
  Context (NODE : forall x, In x lv -> exists n, nth_error Hs (an_addr x) = Some n /\ n_value n = a_val (an_t x) /\ n_count n = an_cnt x).
  Context (NDA : NoDup (map an_addr lv)).
  Context (PARC : forall x i a c, In x lv -> an_par x = Some (i, a, c) -> exists n, nth_error Hs a = Some n /\ n_count n = c).
  Context (PID : forall x y i a c i' a' c', In x lv -> In y lv -> an_par x = Some (i, a, c) -> an_par y = Some (i', a', c') ->
    (i = i' <-> a = a')).
  Context (PSOME : psome level lv).
  (** everything that is forwarded at this level *)
  Context (FL : list (dest * Cluster.item)).
  Context (OKV : forall c, In c views3 -> exists d, foldM multi_add (to_view c FL) [] = Ok d).
  Context (OKL : exists d, foldM len_add (to_length FL) [] = Ok d).

  Local Notation LV := (HcLevel.LV Hs lv).
  Local Notation VT := (HcLevel.VT Hs lv).
  Local Notation hb_of := (HcLevel.hb_of lv).
  Local Notation nodes_of := (HcLevel.nodes_of lv).
  Local Notation itok := (HcLevel.itok lv).
  Local Notation ho := (HcLevel.ho lv).
  Local Notation hvb := (HcLevel.hvb lv).
  Local Notation foot := (HcLevel.foot Hs).
  Local Notation ext := (HcLevel.ext Hs).

  Definition lbk (b : list Cluster.item) : hbucket := HBucket (map (fun i => (it_piece i, hb_of (it_piece i))) b) (lb_count b).
  Record Inv (act : list cls) (H : heap) (st : hproc) (W : list (str * str)) (fl : list (dest * Cluster.item))
      (dn : list (cls * str * str)) (gv : cls -> vdict) : Prop := {
    i_lv : LV H W;
    i_vt : VT H gv;
    i_views : forall c, In c act -> foldM multi_add (to_view c fl) [] = Ok (map (onv fst) (gv c)) /\ hp_views st c = map (onv hvb) (gv c);
    i_len : exists d, foldM len_add (to_length fl) [] = Ok d /\ hp_lengths st = map (onv lbk) d;
    i_pats : forall c, pats_ok (hp_pats st c) c dn;
    i_rest : hp_bucket st = bucket_of lv /\ hp_cached st = [] /\ hp_ccount st = 0%Z /\ hp_force st = false /\ hp_fuzzy st = None;
    i_items : Forall (fun di => itok (snd di)) fl
  }.
  Lemma lev_lt : forall a, In a (map an_addr lv) -> a < length Hs.
  Proof. intros a I. apply in_map_iff in I. destruct I as (x & <- & Ix). destruct (NODE x Ix) as (n & En & _). apply nth_error_Some. congruence. Qed.
  Lemma Inv_frame : forall act H H' st W fl dn gv, Inv act H st W fl dn gv -> agree (foot gv) H H' -> Inv act H' st W fl dn gv.
  Proof.
    intros act H H' st W fl dn gv I A. destruct I as [I1 I2 I3 I4 I5 I6 I7]. constructor; auto.
    - apply (LV_frame Hs lv H H' W I1 (proj1 A)). intros a La. apply (proj2 A); [left; exact La|]. pose proof (proj1 I1). lia.
    - apply (VT_frame Hs lv H H' gv I2). apply (agree_weak (foot gv)); [tauto|exact A].
  Qed.
  Lemma Inv_foot : forall act H st W fl dn gv, Inv act H st W fl dn gv -> forall a, foot gv a -> a < length H.
  Proof.
    intros act H st W fl dn gv I a [La|(c & k & b & s & Ig & Ia)]; [pose proof (proj1 (i_lv _ _ _ _ _ _ _ I)); lia|].
    destruct (vt_holds _ _ _ _ (i_vt _ _ _ _ _ _ _ I) _ _ _ _ Ig) as (Ho & _). exact (holds_lt _ _ _ _ Ho a Ia).
  Qed.
  (** a pattern is given to the nodes of a bag *)
  Lemma Inv_set : forall act H st W fl dn gv k p, Inv act H st W fl dn gv ->
    exists H', on_heap (bag_set (hb_of k) p) (H, st) = ((H', st), Ok tt) /\ Inv act H' st (W ++ [(k, p)]) fl dn gv /\ ext gv H gv H'.
  Proof.
    intros act H st W fl dn gv k p I. destruct (bag_set_ok Hs lv NDA H W k p (i_lv _ _ _ _ _ _ _ I)) as (H' & E & L & Ln & F).
    exists H'. split; [apply on_heap_ok; exact E|]. destruct I as [I1 I2 I3 I4 I5 I6 I7]. split.
    - constructor; auto. apply (VT_frame Hs lv H H' gv I2). split; [lia|]. intros a [_ La] _. apply F. intros X. apply lev_lt in X. lia.
    - split; [|auto]. split; [lia|]. intros a N La. apply F. intros X. apply N. left. apply lev_lt. exact X.
  Qed.
  Lemma Inv_pat : forall act H st W fl dn gv c p ks, Inv act H st W fl dn gv -> ks <> [] ->
    Inv act H (put_pattern c p st) W fl (dn ++ map (fun k => (c, k, p)) ks) gv.
  Proof.
    intros act H st W fl dn gv c p ks [I1 I2 I3 I4 I5 I6 I7] N. constructor; auto. apply pats_add; auto.
  Qed.
  Lemma Inv_pick : forall act H st W fl dn gv i, Inv act H st W fl dn gv -> itok i ->
    on_heap (X := hproc) (reading (parsed_of (bag_pick (hb_of (it_piece i))))) (H, st) = ((H, st), Ok (it_pp i)).
  Proof.
    intros act H st W fl dn gv i I It. apply on_heap_ok. unfold reading.
    rewrite (pick_ok Hs lv NODE H W i (i_lv _ _ _ _ _ _ _ I) It). reflexivity.
  Qed.

  (** *** adding to the other clusters *)
  Lemma add_length_ok : forall act H st W fl dn gv i d d', Inv act H st W fl dn gv -> itok i ->
    foldM len_add (to_length fl) [] = Ok d -> hp_lengths st = map (onv lbk) d -> len_add d i = Ok d' ->
    add_to_length (hb_of (it_piece i)) (H, st) = ((H, set_lengths (map (onv lbk) d') st), Ok tt).
  Proof.
    intros act H st W fl dn gv i d d' I It Ed El A. unfold add_to_length. rewrite (then_ok _ _ _ _ _ _ _ _ (Inv_pick _ _ _ _ _ _ _ _ I It)).
    unfold len_add in A. destruct (piece_length (it_pp i)) as [n|] eqn:En; [|discriminate]. cbn [bind] in A.
    rewrite (then_ok _ _ _ _ _ _ (H, st) n) by reflexivity.
    rewrite (then_ok _ _ _ self _ _ (H, st) st) by reflexivity. rewrite El, (dget_onv Z.eqb lbk).
    assert (B : exists bk, (match option_map lbk (dget Z.eqb n d) with Some bk => bk | None => new_bucket end) = lbk bk
      /\ dget str_eqb (it_piece i) (bk_objs (lbk bk)) = None /\ d' = dset Z.eqb n (bk ++ [i]) d).
    { destruct (dget Z.eqb n d) as [b|] eqn:Dn; cbn [option_map].
      - destruct (str_in (it_piece i) (map it_piece b)) eqn:Si; [discriminate|]. exists b. split; [reflexivity|]. split; [|congruence].
        apply (dget_none str_eqb str_eqb_iff). cbn. rewrite map_map. cbn. intros X.
        rewrite <- Bool.not_true_iff_false in Si. apply Si. apply str_in_In. exact X.
      - exists []. split; [reflexivity|]. split; [reflexivity|]. rewrite (dset_append Z.eqb _ n) by exact Dn. cbn. congruence. }
    destruct B as (bk & -> & Dk & ->).
    rewrite (then_ok _ _ _ _ _ _ (H, st) (lbk (bk ++ [i]))).
    - unfold update. cbn [fst snd]. rewrite <- (dset_onv Z.eqb lbk). reflexivity.
    - apply on_heap_ok. unfold reading, bucket_add_bag.
      rewrite (pick_ok Hs lv NODE H W i (i_lv _ _ _ _ _ _ _ I) It). cbn [bind].
      change (piece (it_pp i)) with (it_piece i). rewrite Dk. f_equal. f_equal. unfold lbk at 3. f_equal.
      + rewrite (dset_append str_eqb) by exact Dk. cbn. rewrite map_app. reflexivity.
      + change (bk_count (lbk bk)) with (lb_count bk). rewrite (count_ok lv i It). unfold lb_count. rewrite map_app, zsum_app. cbn. lia.
  Qed.
  Lemma add_to_ok : forall act H st W fl dn gv d i, Inv act H st W fl dn gv -> itok i -> incl act views3 -> dest_in act d ->
    (exists r, FL = fl ++ (d, i) :: r) ->
    exists H' st' gv', add_to d (hb_of (it_piece i)) (H, st) = ((H', st'), Ok tt) /\ Inv act H' st' W (fl ++ [(d, i)]) dn gv'
      /\ ext gv H gv' H' /\ (forall c, ~ In c act -> gv' c = gv c).
  Proof.
    intros act H st W fl dn gv d i I It IA Di (r & EF). pose proof I as [I1 I2 I3 I4 I5 I6 I7].
    destruct I4 as (dl & Ed & El).
    assert (IT' : Forall (fun di => itok (snd di)) (fl ++ [(d, i)])) by (apply Forall_app; split; [exact I7|constructor; [exact It|constructor]]).
    destruct d as [c v|]; cbn [add_to].
    - cbn in Di. destruct (I3 c Di) as [E1 E2]. destruct (OKV c (IA c Di)) as (dd & Edd).
      rewrite EF, to_view_one in Edd. change (to_view c ((DView c v, i) :: r)) with ((if cls_eqb c c then [(v, i)] else []) ++ to_view c r) in Edd.
      rewrite (proj2 (cls_eqb_iff c c) eq_refl) in Edd. cbn [app] in Edd.
      destruct (fM_step _ _ _ _ _ _ _ _ _ E1 Edd) as (d' & M & M2).
      destruct (add_view_ok Hs lv NODE H st W gv c v i d' I2 I1 It E2 M) as (H' & l' & A1 & A2 & A3 & A4 & A5).
      exists H', (set_views c (map (onv hvb) l') st), (upd gv c l'). split; [exact A1|]. split; [|split; [exact A5|]].
      + constructor; auto.
        * intros c0 Ic. rewrite to_view_one. cbn [to_view flat_map fst snd].
          destruct (cls_eqb c0 c) eqn:Ec.
          -- apply cls_eqb_iff in Ec. subst c0. cbn [app]. rewrite upd_same. split.
             ++ rewrite <- A2 in M2. exact M2.
             ++ cbn. rewrite (proj2 (cls_eqb_iff c c) eq_refl). reflexivity.
          -- rewrite upd_other by (intros ->; rewrite (proj2 (cls_eqb_iff c c) eq_refl) in Ec; discriminate).
             cbn [app]. rewrite app_nil_r. destruct (I3 c0 Ic) as [X1 X2]. split; [exact X1|]. cbn.
             destruct (cls_eqb c c0) eqn:Ec2; [|exact X2]. apply cls_eqb_iff in Ec2. subst.
             rewrite (proj2 (cls_eqb_iff c0 c0) eq_refl) in Ec. discriminate.
        * exists dl. rewrite to_length_one. cbn. rewrite app_nil_r. auto.
      + intros c0 N. apply upd_other. intros ->. tauto.
    - destruct OKL as (dd & Edd). rewrite EF, to_length_one in Edd. cbn [to_length flat_map fst snd app] in Edd.
      destruct (fM_step _ _ _ _ _ _ _ _ _ Ed Edd) as (d' & M & M2).
      exists H, (set_lengths (map (onv lbk) d') st), gv. split; [exact (add_length_ok _ _ _ _ _ _ _ _ _ _ I It Ed El M)|].
      split; [|split; [apply ext_refl|auto]]. constructor; auto.
      + intros c0 Ic. rewrite to_view_one. cbn. rewrite app_nil_r. exact (I3 c0 Ic).
      + exists d'. rewrite to_length_one. cbn. split; [exact M2|reflexivity].
  Qed.

  (** *** PiecePatternCluster *)
  Definition keys : list str := map fst (groups lv).
  Lemma groups_eq : groups lv = map (fun k => (k, nodes_of k)) keys.
  Proof.
    unfold keys, groups. rewrite (dgroup_eq str_eqb str_eqb_iff) at 1. apply map_ext. intros k. rewrite map_id. reflexivity.
  Qed.
  Lemma keys_some : forall k, In k keys -> exists x r, nodes_of k = x :: r.
  Proof.
    intros k I. unfold keys, groups in I. apply (dgroup_keys str_eqb str_eqb_iff) in I. apply in_map_iff in I. destruct I as (x & E & Ix).
    destruct (nodes_of k) as [|y r] eqn:En; [|eauto]. exfalso.
    assert (X : In x (nodes_of k)) by (apply nodes_of_in; auto). rewrite En in X. exact X.
  Qed.
  Lemma group_er : group_nodes (map er lv) = map (fun k => (k, map er (nodes_of k))) keys.
  Proof.
    unfold group_nodes. rewrite (dapp_dgroup _ _ pn_piece (fun n => n) (map er lv)).
    assert (G : forall l, dgroup str_eqb pn_piece (fun n => n) (map er l) = map (onv (map er)) (groups l)).
    { intros l. induction l as [|x l IH] using rev_ind; [reflexivity|]. rewrite map_snoc. unfold groups in *.
      rewrite !(dgroup_snoc str_eqb). rewrite IH, er_piece, (dget_onv str_eqb (map er)), <- (dset_onv str_eqb (map er)). f_equal.
      unfold dstep. destruct (dget str_eqb (an_piece x) (dgroup str_eqb an_piece (fun x => x) l)); cbn; [rewrite map_app|]; reflexivity. }
    rewrite G, groups_eq, map_map. reflexivity.
  Qed.
  Lemma item_ok : forall k, In k keys -> exists i, piece_item (k, map er (nodes_of k)) = Ok i /\ it_piece i = k /\ it_pat i = k /\ itok i.
  Proof.
    intros k I. destruct (keys_some k I) as (x & r & E). unfold piece_item. cbn [snd fst]. rewrite E. cbn [map].
    eexists. split; [reflexivity|]. assert (P : it_piece (IT (t_val (pn_tree (er x))) k (er x :: map er r)) = k).
    { unfold it_piece. cbn. rewrite erase_val. assert (X : In x (nodes_of k)) by (rewrite E; left; reflexivity).
      apply nodes_of_in in X. exact (proj2 X). }
    split; [exact P|]. split; [reflexivity|]. unfold HcLevel.itok, HcLevel.itok0. rewrite P, E. cbn. split; [|reflexivity]. split; [reflexivity|]. exists x, r. rewrite erase_val. auto.
  Qed.
  Lemma piece_set_ok : forall act H st W fl dn gv k wb, Inv act H st W fl dn gv -> In k keys ->
    exists H' st', piece_set (hb_of k) wb (H, st) = ((H', st'), Ok tt)
      /\ Inv act H' st' (W ++ [(k, k)]) fl (dn ++ (if wb then [(CPiece, k, k)] else [])) gv /\ ext gv H gv H'.
  Proof.
    intros act H st W fl dn gv k wb I Ik. destruct (item_ok k Ik) as (i & _ & Pi & _ & It).
    subst k. unfold piece_set. rewrite (then_ok _ _ _ _ _ _ _ _ (Inv_pick _ _ _ _ _ _ _ _ I It)).
    change (piece (it_pp i)) with (it_piece i). set (k := it_piece i) in *.
    destruct (Inv_set _ _ _ _ _ _ _ k k I) as (H' & E & I' & X). rewrite (then_ok _ _ _ _ _ _ _ _ E).
    destruct wb.
    - exists H', (put_pattern CPiece k st). split; [reflexivity|]. split; [|exact X].
      apply (Inv_pat _ _ _ _ _ _ _ CPiece k [k] I'). discriminate.
    - exists H', st. split; [reflexivity|]. rewrite app_nil_r. auto.
  Qed.
  Lemma literal_ok : forall ks act H st W fl dn gv, Inv act H st W fl dn gv -> incl ks keys ->
    exists H' st', each (map hb_of ks) (fun b => piece_set b true) (H, st) = ((H', st'), Ok tt)
      /\ Inv act H' st' (W ++ map (fun k => (k, k)) ks) fl (dn ++ map (fun k => (CPiece, k, k)) ks) gv /\ ext gv H gv H'.
  Proof.
    induction ks as [|k ks IH]; intros act H st W fl dn gv I S.
    - exists H, st. cbn. rewrite !app_nil_r. split; [reflexivity|]. split; [exact I|apply ext_refl].
    - destruct (piece_set_ok _ _ _ _ _ _ _ k true I) as (H1 & st1 & E1 & I1 & X1); [apply S; left; reflexivity|].
      destruct (IH _ _ _ _ _ _ _ I1) as (H2 & st2 & E2 & I2 & X2); [intros y Y; apply S; right; exact Y|].
      exists H2, st2. cbn [map each]. rewrite (then_ok _ _ _ _ _ _ _ _ E1). split; [exact E2|]. rewrite <- !app_assoc in I2.
      split; [exact I2|]. exact (ext_trans _ _ _ _ _ _ _ X1 X2).
  Qed.
  Lemma piece_loop_ok : forall ks rs H st W fl dn gv, Inv views3 H st W fl dn gv -> incl ks keys ->
    mapM (piece_one mcn level last_path) (map (fun k => (k, map er (nodes_of k))) ks) = Ok rs ->
    (exists r, FL = fl ++ rights rs ++ r) ->
    exists H' st' gv', each (map hb_of ks) (fun b =>
        keep <~ (if (hb_count b <? mcn)%Z then ret false
                 else if (mcn <=? hb_pcount b - hb_count b)%Z then ret false
                 else on_heap (hseek mcn level (hb_pnodes b) (hb_count b))) ;;
        if keep : bool then piece_set b true
        else piece_set b false ;;; piece_forward mcn last_path b) (H, st) = ((H', st'), Ok tt)
      /\ Inv views3 H' st' (W ++ map (fun k => (k, k)) ks) (fl ++ rights rs) (dn ++ lefts rs) gv' /\ ext gv H gv' H'.
  Proof.
    induction ks as [|k ks IH]; intros rs H st W fl dn gv I S E (r & EF).
    - cbn in E. assert (rs = []) as -> by congruence. exists H, st, gv. cbn. rewrite !app_nil_r.
      split; [reflexivity|]. split; [exact I|apply ext_refl].
    - cbn [map mapM] in E. destruct (piece_one mcn level last_path (k, map er (nodes_of k))) as [r1|] eqn:E1; [|discriminate].
      cbn [bind] in E. destruct (mapM (piece_one mcn level last_path) (map (fun k => (k, map er (nodes_of k))) ks)) as [rs'|] eqn:E2; [|discriminate].
      cbn [bind] in E. assert (rs = r1 :: rs') as -> by congruence. clear E.
      assert (Ik : In k keys) by (apply S; left; reflexivity).
      assert (Sk : incl ks keys) by (intros y Y; apply S; right; exact Y).
      destruct (item_ok k Ik) as (i & Ei & Pi & _ & It). subst k.
      cbn [map each]. unfold piece_one in E1. cbn [fst snd] in E1.
      match type of E1 with bind ?m _ = _ => destruct m as [keep|] eqn:Ek; [|discriminate]; cbn [bind] in E1 end.
      assert (K : (if (hb_count (hb_of (it_piece i)) <? mcn)%Z then ret false
                 else if (mcn <=? hb_pcount (hb_of (it_piece i)) - hb_count (hb_of (it_piece i)))%Z then ret false
                 else on_heap (hseek mcn level (hb_pnodes (hb_of (it_piece i))) (hb_count (hb_of (it_piece i))))) (H, st) = ((H, st), Ok keep)).
      { unfold HcLevel.hb_of, hbag_of. cbn [hb_count hb_pcount hb_pnodes].
        destruct (bag_count (map er (nodes_of (it_piece i))) <? mcn)%Z; [unfold ret; congruence|].
        destruct (mcn <=? bag_pcount (map er (nodes_of (it_piece i))) - bag_count (map er (nodes_of (it_piece i))))%Z; [unfold ret; congruence|].
        apply on_heap_ok. rewrite (hseek_ok mcn level Hs lv PARC PID PSOME H W); [rewrite Ek; reflexivity|apply (i_lv _ _ _ _ _ _ _ I)|].
        intros x Ix. apply nodes_of_in in Ix. tauto. }
      unfold andthen at 1. rewrite (then_ok _ _ _ _ _ _ _ _ K). destruct keep.
      + assert (r1 = inl (CPiece, it_piece i, it_piece i)) as -> by congruence. cbn [lefts rights] in *.
        destruct (piece_set_ok _ _ _ _ _ _ _ (it_piece i) true I Ik) as (H1 & st1 & F1 & I1 & X1). rewrite F1.
        destruct (IH rs' _ _ _ _ _ _ I1 Sk eq_refl) as (H2 & st2 & g2 & F2 & I2 & X2); [exists r; exact EF|].
        exists H2, st2, g2. split; [exact F2|]. rewrite <- !app_assoc in I2. split; [exact I2|exact (ext_trans _ _ _ _ _ _ _ X1 X2)].
      + rewrite Ei in E1. cbn [bind] in E1. assert (r1 = inr (dest_piece mcn last_path (it_pp i), i)) as -> by congruence. cbn [lefts rights] in *.
        destruct (piece_set_ok _ _ _ _ _ _ _ (it_piece i) false I Ik) as (H1 & st1 & F1 & I1 & X1). rewrite app_nil_r in I1.
        destruct (add_to_ok views3 H1 st1 _ fl dn gv (dest_piece mcn last_path (it_pp i)) i I1 It) as (H2 & st2 & g2 & F2 & I2 & X2 & _).
        { intros c X; exact X. } { apply dest_piece_in. } { exists (rights rs' ++ r). exact EF. }
        unfold andthen at 1. rewrite F1. unfold piece_forward.
        rewrite (then_ok _ _ _ _ _ _ _ _ (Inv_pick _ _ _ _ _ _ _ _ I1 It)). rewrite F2.
        destruct (IH rs' _ _ _ _ _ _ I2 Sk eq_refl) as (H3 & st3 & g3 & F3 & I3 & X3); [exists r; rewrite <- app_assoc; exact EF|].
        exists H3, st3, g3. split; [exact F3|]. rewrite <- !app_assoc in I3. split; [exact I3|].
        exact (ext_trans _ _ _ _ _ _ _ X1 (ext_trans _ _ _ _ _ _ _ X2 X3)).
  Qed.
  Lemma bags_total : zsum (map an_cnt lv) = zsum (map (fun k => bag_count (map er (nodes_of k))) keys).
  Proof.
    assert (P : Permutation (flat_map nodes_of keys) lv).
    { apply (cover_perm str_eqb str_eqb_iff an_piece); [apply (dgroup_NoDup str_eqb str_eqb_iff)|].
      intros x Ix. apply (dgroup_keys str_eqb str_eqb_iff). apply in_map. exact Ix. }
    rewrite <- (zsum_perm _ _ (Permutation_map an_cnt P)). rewrite flat_map_concat_map, concat_map, map_map. clear P.
    induction keys as [|k ks IH]; [reflexivity|]. cbn [map List.concat]. rewrite zsum_app, IH. cbn [zsum fold_right]. f_equal.
    unfold bag_count. rewrite map_map. f_equal. apply map_ext. intros x. symmetry. apply er_cnt.
  Qed.
  Lemma piece_cluster_ok : forall d0 f0 H st W fl dn gv, Inv views3 H st W fl dn gv ->
    piece_stage mcn level last_level last_path kw (map er lv) = Ok (d0, f0) -> (exists r, FL = fl ++ f0 ++ r) ->
    exists H' st' gv', piece_cluster mcn level last_level last_path kw (H, st) = ((H', st'), Ok tt)
      /\ Inv views3 H' st' (W ++ map (fun k => (k, k)) keys) (fl ++ f0) (dn ++ d0) gv' /\ ext gv H gv' H'.
  Proof.
    intros d0 f0 H st W fl dn gv I E EF. unfold piece_cluster.
    rewrite (then_ok _ _ _ self _ _ (H, st) st) by reflexivity. rewrite (proj1 (i_rest _ _ _ _ _ _ _ I)).
    assert (B : map snd (bk_objs (bucket_of lv)) = map hb_of keys).
    { unfold bucket_of. cbn [bk_objs]. rewrite groups_eq, !map_map. reflexivity. }
    rewrite B. cbv zeta. unfold piece_stage in E. rewrite group_er in E. unfold piece_bags in E. cbv zeta in E.
    assert (NIL : forall A B (f : A -> B) l, is_nil (map f l) = is_nil l) by (intros A0 B0 f [|x l]; reflexivity).
    rewrite NIL in E. rewrite NIL. destruct (is_nil keys) eqn:En.
    { destruct keys; [|discriminate]. assert (d0 = [] /\ f0 = []) as [-> ->] by (split; congruence).
      exists H, st, gv. cbn [map]. rewrite !app_nil_r. split; [reflexivity|]. split; [exact I|apply ext_refl]. }
    assert (LIT : d0 = map (fun kb : str * bag => (CPiece, fst kb, fst kb)) (map (fun k => (k, map er (nodes_of k))) keys) -> f0 = [] ->
      exists H' st' gv', each (map hb_of keys) (fun b => piece_set b true) (H, st) = ((H', st'), Ok tt)
      /\ Inv views3 H' st' (W ++ map (fun k => (k, k)) keys) (fl ++ f0) (dn ++ d0) gv' /\ ext gv H gv' H').
    { intros -> ->. destruct (literal_ok keys _ _ _ _ _ _ _ I (incl_refl _)) as (H' & st' & A1 & A2 & A3).
      exists H', st', gv. rewrite map_map, app_nil_r. auto. }
    assert (LOOP : (r <- mapM (piece_one mcn level last_path) (map (fun k => (k, map er (nodes_of k))) keys) ;; Ok (lefts r, rights r)) = Ok (d0, f0) ->
      exists H' st' gv', each (map hb_of keys) (fun b =>
        keep <~ (if (hb_count b <? mcn)%Z then ret false
                 else if (mcn <=? hb_pcount b - hb_count b)%Z then ret false
                 else on_heap (hseek mcn level (hb_pnodes b) (hb_count b))) ;;
        if keep : bool then piece_set b true
        else piece_set b false ;;; piece_forward mcn last_path b) (H, st) = ((H', st'), Ok tt)
      /\ Inv views3 H' st' (W ++ map (fun k => (k, k)) keys) (fl ++ f0) (dn ++ d0) gv' /\ ext gv H gv' H').
    { intros X. destruct (mapM (piece_one mcn level last_path) (map (fun k => (k, map er (nodes_of k))) keys)) as [rs|] eqn:Er; [|discriminate].
      cbn [bind] in X. assert (d0 = lefts rs /\ f0 = rights rs) as [-> ->] by (split; congruence).
      apply piece_loop_ok; auto. apply incl_refl. }
    destruct (last_level && kw); [apply LIT; congruence|].
    rewrite map_length in E. rewrite map_length. destruct (Z.of_nat (length keys) <? mcn)%Z; [|apply LOOP; exact E].
    rewrite !map_map in E. cbn [snd] in E. rewrite map_map. cbn [HcLevel.hb_of hbag_of hb_count].
    change (map (fun x => hb_count (hb_of x)) keys) with (map (fun k => bag_count (map er (nodes_of k))) keys).
    destruct (max_count (map (fun k => bag_count (map er (nodes_of k))) keys)) as [m|] eqn:Em; [|discriminate]. cbn [bind] in E.
    unfold andthen at 1. unfold lift. cbn [bucket_of bk_count]. rewrite bags_total.
    destruct (confused _ m mcn); cbn [negb] in *; [apply LOOP; exact E|apply LIT; [|congruence]].
    rewrite map_map. inversion E. reflexivity.
  Qed.
  (** *** MultiPatternCluster *)
  Definition objs_ok (objs : list (str * (list parsed_piece * Cluster.item))) : Prop :=
    Forall (fun o => fst o = it_piece (snd (snd o)) /\ itok (snd (snd o))) objs.
  Lemma forwards_ok : forall c objs act H st W fl dn gv, act = later c -> incl act views3 -> Inv act H st W fl dn gv -> objs_ok objs ->
    (exists r, FL = fl ++ map (fun kv => forward last_path c (snd kv)) objs ++ r) ->
    exists H' st' gv', each (map (onv ho) objs) (fun kv => view_forward last_path c (snd kv)) (H, st) = ((H', st'), Ok tt)
      /\ Inv act H' st' W (fl ++ map (fun kv => forward last_path c (snd kv)) objs) dn gv'
      /\ ext gv H gv' H' /\ (forall c, ~ In c act -> gv' c = gv c).
  Proof.
    intros c. induction objs as [|[k [v i]] objs IH]; intros act H st W fl dn gv Ea Ia I O (r & EF).
    - exists H, st, gv. cbn. rewrite app_nil_r. split; [reflexivity|]. split; [exact I|]. split; [apply ext_refl|auto].
    - inversion O as [|a b [Ok1 It] O']; subst a b. cbn [fst snd] in *.
      destruct (add_to_ok act H st W fl dn gv (fst (forward last_path c (v, i))) i I It Ia) as (H1 & st1 & g1 & E1 & I1 & X1 & U1).
      { subst act. apply forward_in. } { eexists. exact EF. }
      destruct (IH act H1 st1 W _ dn g1 Ea Ia I1 O') as (H2 & st2 & g2 & E2 & I2 & X2 & U2).
      { exists r. rewrite <- app_assoc. exact EF. }
      assert (VF : view_forward last_path c (ho (v, i)) (H, st) = ((H1, st1), Ok tt)).
      { unfold view_forward. rewrite (then_ok _ _ _ _ _ _ _ _ (Inv_pick _ _ _ _ _ _ _ _ I It)). exact E1. }
      exists H2, st2, g2. cbn [map each]. split; [|split; [|split]].
      + change (snd (onv ho (k, (v, i)))) with (ho (v, i)). rewrite (then_ok _ _ _ _ _ _ _ _ VF). exact E2.
      + rewrite <- app_assoc in I2. exact I2.
      + exact (ext_trans _ _ _ _ _ _ _ X1 X2).
      + intros c0 N. rewrite (U2 c0 N), (U1 c0 N). reflexivity.
  Qed.
  (** 142-152 *)
  Lemma transfer_loop_ok : forall b sroot H W l objs count pat objs' count', LV H W -> objs_ok (vb_objs b) -> objs_ok objs ->
    Forall (Forall (known H)) l ->
    foldM (fun s nodes =>
               let key := List.concat (map t_piece (tl nodes)) in
               match dget str_eqb key (vb_objs b) with
               | None => Err EKey
               | Some vi => Ok (dset str_eqb (it_piece (snd vi)) vi (fst s), snd s + it_count (snd vi))%Z
               end) (map (map erase) l) (objs, count) = Ok (objs', count') ->
    transfer_loop (hvb (b, sroot)) (map (map a_addr) l) (map (onv ho) objs) count pat H
      = (H, Ok (map (onv ho) objs', count', match pat with
                                            | Some p => Some p
                                            | None => match l with [] => None | nodes :: _ => Some (List.concat (map t_pattern (tl (map erase nodes)))) end
                                            end)) /\ objs_ok objs' /\ (l <> [] \/ objs <> [] -> objs' <> []).
  Proof.
    intros b sroot H W. induction l as [|nodes l IH]; intros objs count pat objs' count' L Ob Oo K E.
    - cbn in E. assert (objs' = objs /\ count' = count) as [-> ->] by (split; congruence). cbn. split; [destruct pat; reflexivity|].
      split; [exact Oo|]. intros [X|X]; [congruence|exact X].
    - inversion K as [|x y Kn K']; subst x y. cbn [map foldM] in E. cbv zeta in E. cbn [fst snd] in E.
      destruct (dget str_eqb (List.concat (map t_piece (tl (map erase nodes)))) (vb_objs b)) as [[v i]|] eqn:D; [|discriminate].
      cbn [bind fst snd] in E.
      assert (It : fst (List.concat (map t_piece (tl (map erase nodes))), (v, i)) = it_piece i /\ itok i).
      { apply (dget_some_in str_eqb str_eqb_iff) in D. exact (proj1 (Forall_forall _ _) Ob _ D). }
      destruct It as [_ It]. cbn [map transfer_loop].
      assert (TL : tl (map a_addr nodes) = map a_addr (tl nodes)) by (destruct nodes; reflexivity).
      assert (TL2 : tl (map erase nodes) = map erase (tl nodes)) by (destruct nodes; reflexivity).
      assert (Kt : Forall (known H) (tl nodes)) by (destruct nodes; [constructor|inversion Kn; auto]).
      rewrite TL. rewrite (then_ok _ _ _ _ _ _ H (map (fun y => t_piece (erase y)) (tl nodes))); [|unfold reading; rewrite pieces_read by exact Kt; reflexivity].
      cbn [HcLevel.hvb hv_objs fst]. rewrite <- (map_map erase t_piece), <- TL2, (dget_onv str_eqb ho), D. cbn [option_map HcLevel.ho fst snd].
      rewrite (then_ok _ _ _ _ _ _ H (it_pp i)); [|unfold reading; rewrite (pick_ok Hs lv NODE H W i L It); reflexivity].
      rewrite (then_ok _ _ _ _ _ _ H (Some (match pat with Some p => p | None => List.concat (map t_pattern (tl (map erase nodes))) end))).
      2:{ destruct pat as [p|]; [reflexivity|]. rewrite (then_ok _ _ _ _ _ _ _ _ (patterns_ok _ _ Kt)).
          rewrite TL2, (map_map erase t_pattern). reflexivity. }
      change (piece (it_pp i)) with (it_piece i). rewrite (count_ok lv i It).
      change (v, HcLevel.hb_of lv (it_piece i)) with (ho (v, i)). rewrite (dset_onv str_eqb ho).
      destruct (IH (dset str_eqb (it_piece i) (v, i) objs) (count + it_count i)%Z
                  (Some (match pat with Some p => p | None => List.concat (map t_pattern (tl (map erase nodes))) end)) objs' count' L Ob) as (R1 & R2 & R3); [|exact K'|exact E|].
      { apply Forall_forall. intros o Io. destruct (In_dset_cases _ _ str_eqb str_eqb_iff _ _ _ _ Io) as [->|Io']; [cbn; auto|].
        exact (proj1 (Forall_forall _ _) Oo o Io'). }
      split; [|split; [exact R2|]].
      + destruct pat as [p|]; exact R1.
      + intros _. apply R3. right. intros X. assert (Z : In (it_piece i, (v, i)) (dset str_eqb (it_piece i) (v, i) objs)) by apply (dset_same_in _ _ str_eqb str_eqb_iff).
        rewrite X in Z. exact Z.
  Qed.
  Lemma sets_ok : forall p objs act H st W fl dn gv, Inv act H st W fl dn gv -> objs_ok objs ->
    exists H', each (map (onv ho) objs) (fun kv => on_heap (bag_set (snd (snd kv)) p)) (H, st) = ((H', st), Ok tt)
      /\ Inv act H' st (W ++ map (fun kv => (fst kv, p)) objs) fl dn gv /\ ext gv H gv H'.
  Proof.
    intros p. induction objs as [|[k [v i]] objs IH]; intros act H st W fl dn gv I O.
    - exists H. cbn. rewrite app_nil_r. split; [reflexivity|]. split; [exact I|apply ext_refl].
    - inversion O as [|a b [Ok1 It] O']; subst a b. cbn [fst snd] in *.
      destruct (Inv_set _ _ _ _ _ _ _ (it_piece i) p I) as (H1 & E1 & I1 & X1).
      destruct (IH _ _ _ _ _ _ _ I1 O') as (H2 & E2 & I2 & X2). exists H2.
      cbn [map each onv snd HcLevel.ho fst]. rewrite (then_ok _ _ _ _ _ _ _ _ E1). split; [exact E2|].
      rewrite <- app_assoc in I2. rewrite Ok1. split; [exact I2|exact (ext_trans _ _ _ _ _ _ _ X1 X2)].
  Qed.
  Lemma body_ok : forall c b sroot x d f act H st W fl dn gv, act = later c -> incl act views3 -> Inv act H st W fl dn gv ->
    objs_ok (vb_objs b) -> holds H None 0 x -> full x -> NoDup (addrs x) -> (forall a, In a (addrs x) -> ~ foot gv a) ->
    multi_tree mcn last_path c b (erase x) = Ok (d, f) -> (exists r, FL = fl ++ f ++ r) ->
    exists H' st' gv', multi_body mcn last_path c (hvb (b, sroot)) (a_addr x) (H, st) = ((H', st'), Ok tt)
      /\ Inv act H' st' (W ++ pattern_map d) (fl ++ f) (dn ++ d) gv' /\ ext gv H gv' H' /\ (forall c, ~ In c act -> gv' c = gv c).
  Proof.
    intros c b sroot x d f act H st W fl dn gv Ea Ia I Ob Ho Fx ND NF M EF.
    set (H1 := H ++ [new_node None empty_parsed_piece None]).
    assert (A1 : agree (fun _ => True) H H1). { split; [unfold H1; rewrite app_length; lia|]. intros a _ La. apply app_old. exact La. }
    assert (X1 : ext gv H gv H1). { split; [apply (agree_weak _ _ _ _ (fun _ _ => Logic.I) A1)|auto]. }
    assert (I1 : Inv act H1 st W fl dn gv) by (apply (Inv_frame _ _ _ _ _ _ _ _ I); apply (agree_weak _ _ _ _ (fun _ _ => Logic.I) A1)).
    assert (Ho1 : holds H1 None 0 x) by (apply holds_app; exact Ho).
    unfold multi_tree, transfer in M.
    match type of M with context [foldM ?g _ _] => destruct (foldM g (paths (erase x)) ([], 0%Z)) as [[objs count]|] eqn:Ef; [|discriminate] end.
    cbn [bind] in M. rewrite <- apaths_erase in Ef.
    destruct (transfer_loop_ok b sroot H1 W (apaths x) [] 0%Z None objs count (i_lv _ _ _ _ _ _ _ I1) Ob (Forall_nil _) (paths_known x H1 Ho1 Fx) Ef) as (T1 & T2 & T3).
    rewrite <- apaths_erase in M. destruct (apaths x) as [|nodes l] eqn:Ep; [cbn in M; discriminate|].
    cbn [map] in M. cbn [bind] in M. set (pat := List.concat (map t_pattern (tl (map erase nodes)))) in *.
    assert (TR : on_heap (htransfer (hvb (b, sroot)) (a_addr x)) (H, st) = ((H1, st), Ok (map (onv ho) objs, count, Some pat))).
    { apply on_heap_ok. unfold htransfer. rewrite (then_ok _ _ _ new_root_node _ H H1 (length H)) by reflexivity.
      rewrite (then_ok _ _ _ _ _ _ _ _ (dump_tree_ok x H1 Ho1 ND)). rewrite Ep. exact T1. }
    unfold multi_body. rewrite (then_ok _ _ _ _ _ _ _ _ TR). destruct (count <? mcn)%Z.
    - assert (d = [] /\ f = map (fun kv => forward last_path c (snd kv)) objs) as [-> ->] by (split; congruence).
      destruct (forwards_ok c objs act H1 st W fl dn gv Ea Ia I1 T2 EF) as (H2 & st2 & g2 & E2 & I2 & X2 & U2).
      exists H2, st2, g2. cbn [pattern_map map]. rewrite !app_nil_r. split; [exact E2|]. split; [exact I2|]. split; [exact (ext_trans _ _ _ _ _ _ _ X1 X2)|exact U2].
    - assert (M' : Ok (map (fun kv : str * (list parsed_piece * Cluster.item) => (c, fst kv, pat)) objs, []) = Ok (d, f)) by exact M.
      injection M' as <- <-. clear M.
      destruct (sets_ok pat objs act H1 st W fl dn gv I1 T2) as (H2 & E2 & I2 & X2).
      exists H2, (put_pattern c pat st), gv. rewrite (then_ok _ _ _ _ _ _ _ _ E2). split; [reflexivity|]. split; [|split; [exact (ext_trans _ _ _ _ _ _ _ X1 X2)|auto]].
      rewrite app_nil_r. unfold pattern_map. rewrite map_map. cbn [fst snd].
      rewrite <- (map_map fst (fun k => (c, k, pat))). apply Inv_pat; [exact I2|].
      intros X. apply map_eq_nil in X. revert X. apply T3. left. discriminate.
  Qed.
  Lemma pattern_map_app : forall a b, pattern_map (a ++ b) = pattern_map a ++ pattern_map b.
  Proof. intros. unfold pattern_map. apply map_app. Qed.
  Lemma mM_app : forall A B (f : A -> res B) a b, mapM f (a ++ b) = (x <- mapM f a ;; y <- mapM f b ;; Ok (x ++ y)).
  Proof.
    intros A B f. induction a as [|x a IH]; intros b; cbn [app mapM].
    - cbn. destruct (mapM f b); reflexivity.
    - destruct (f x); [|reflexivity]. cbn. rewrite IH. destruct (mapM f a); [|reflexivity]. cbn. destruct (mapM f b); reflexivity.
  Qed.
  Lemma bucket_ok : forall c k b s rem d f act H st W fl dn gv, act = later c -> incl act views3 -> ~ In c act -> Inv act H st W fl dn gv ->
    gv c = (k, (b, s)) :: rem -> Pin (vb_depth b) (vb_root b) -> multi_bucket mcn innerP last_path c b = Ok (d, f) -> (exists r, FL = fl ++ f ++ r) ->
    exists H' st' gv', (if (hv_count (hvb (b, s)) <? mcn)%Z then each (hv_objs (hvb (b, s))) (fun kv => view_forward last_path c (snd kv))
                        else innerH (hv_depth (hvb (b, s))) (cls_eqb c CLdsf) (hv_root (hvb (b, s))) (multi_body mcn last_path c (hvb (b, s)))) (H, st) = ((H', st'), Ok tt)
      /\ Inv act H' st' (W ++ pattern_map d) (fl ++ f) (dn ++ d) gv' /\ ext gv H gv' H' /\ gv' c = rem.
  Proof.
    intros c k b s rem d f act H st W fl dn gv Ea Ia Nc I Eg P M EF.
    assert (Ik : In (k, (b, s)) (gv c)) by (rewrite Eg; left; reflexivity).
    destruct (vt_holds _ _ _ _ (i_vt _ _ _ _ _ _ _ I) _ _ _ _ Ik) as (Ho & ND & Er & Lo & Ob).
    set (g1 := upd gv c rem).
    assert (SUB : forall c0 y, In y (g1 c0) -> In y (gv c0)).
    { intros c0 y Iy. unfold g1, upd in Iy. destruct (cls_eqb c c0) eqn:Ec; [|exact Iy]. apply cls_eqb_iff in Ec. subst. rewrite Eg. right. exact Iy. }
    assert (V1 : VT H g1).
    { apply (VT_sub Hs lv H gv g1 (i_vt _ _ _ _ _ _ _ I) SUB). intros c0. unfold g1, upd.
      pose proof (vt_keys _ _ _ _ (i_vt _ _ _ _ _ _ _ I) c0) as K. destruct (cls_eqb c c0) eqn:Ec; [|exact K].
      apply cls_eqb_iff in Ec. subst. rewrite Eg in K. inversion K; auto. }
    assert (I1 : Inv act H st W fl dn g1).
    { destruct I as [J1 J2 J3 J4 J5 J6 J7]. constructor; auto. intros c0 Ic. unfold g1. rewrite upd_other; [auto|]. intros ->. tauto. }
    assert (X1 : ext gv H g1 H).
    { split; [apply agree_refl|]. intros a [La|(c0 & k0 & b0 & s0 & I0 & A0)]; [left; left; exact La|]. left. right. exists c0, k0, b0, s0. auto. }
    assert (DIS : forall a, In a (addrs s) -> ~ foot g1 a).
    { intros a Ia' [La|(c0 & k0 & b0 & s0 & I0 & A0)]; [pose proof (Lo a Ia'); lia|].
      destruct (vt_disj _ _ _ _ (i_vt _ _ _ _ _ _ _ I) _ _ _ _ _ _ _ _ _ Ik (SUB _ _ I0) Ia' A0) as [<- <-].
      unfold g1 in I0. rewrite upd_same in I0. pose proof (vt_keys _ _ _ _ (i_vt _ _ _ _ _ _ _ I) c) as K. rewrite Eg in K. inversion K as [|x y Kn _]; subst.
      apply Kn. change k with (fst (k, (b0, s0))). apply in_map. exact I0. }
    unfold multi_bucket in M. cbn [HcLevel.hvb hv_count hv_objs hv_depth hv_root fst snd].
    destruct (vb_count b <? mcn)%Z.
    { assert (d = [] /\ f = map (fun kv => forward last_path c (snd kv)) (vb_objs b)) as [-> ->] by (split; congruence).
      destruct (forwards_ok c (vb_objs b) act H st W fl dn g1 Ea Ia I1 Ob EF) as (H2 & st2 & g2 & E2 & I2 & X2 & U2).
      exists H2, st2, g2. cbn [pattern_map map]. rewrite !app_nil_r. split; [exact E2|]. split; [exact I2|].
      split; [exact (ext_trans _ _ _ _ _ _ _ X1 X2)|]. rewrite (U2 c Nc). apply upd_same. }
    destruct (innerP (vb_depth b) (cls_eqb c CLdsf) (vb_root b)) as [ts|] eqn:Et; [|discriminate]. cbn [bind] in M.
    destruct (mapM (multi_tree mcn last_path c b) ts) as [RS|] eqn:Em; [|discriminate]. cbn [bind] in M.
    assert (d = flat_map fst RS /\ f = flat_map snd RS) as [-> ->] by (split; congruence). clear M.
    rewrite <- Er in P, Et.
    set (J := fun (F : addr -> Prop) (l : list tree) (H : heap) (st : hproc) => exists rs gv',
      (forall a, F a <-> foot gv' a) /\ mapM (multi_tree mcn last_path c b) l = Ok rs /\ gv' c = rem
      /\ Inv act H st (W ++ pattern_map (flat_map fst rs)) (fl ++ flat_map snd rs) (dn ++ flat_map fst rs) gv').
    destruct (INNER (vb_depth b) (cls_eqb c CLdsf) s ts P Et (multi_body mcn last_path c (hvb (b, s))) J ts [] [] (foot g1) H st) as (F' & H' & st' & E' & (rs & g' & Fg & Ers & Grem & I') & A' & N').
    { rewrite app_nil_r. reflexivity. }
    { intros F l Ha Hb sta (rs & g' & Fg & Ers & Gr & I') A. exists rs, g'. split; [exact Fg|]. split; [exact Ers|]. split; [exact Gr|].
      apply (Inv_frame _ _ _ _ _ _ _ _ I'). apply (agree_weak F); [|exact A]. intros a. apply Fg. }
    { intros F l Ha sta (rs & g' & Fg & Ers & Gr & I') a Fa. apply Fg in Fa. exact (Inv_foot _ _ _ _ _ _ _ I' a Fa). }
    { intros F l Ha sta x r (rs & g' & Fg & Ers & Gr & I') ET Hx Fx Nx Dx.
      assert (Em2 := Em). rewrite ET, mM_app, Ers in Em2. cbn [bind mapM] in Em2.
      destruct (multi_tree mcn last_path c b (erase x)) as [[d1 f1]|] eqn:E1; [|discriminate]. cbn [bind] in Em2.
      destruct (mapM (multi_tree mcn last_path c b) r) as [rs2|] eqn:E2; [|discriminate]. cbn [bind] in Em2.
      assert (RS = rs ++ (d1, f1) :: rs2) as ER by congruence.
      destruct (body_ok c b s x d1 f1 act Ha sta _ _ _ g' Ea Ia I' Ob Hx Fx Nx) as (H2 & st2 & g2 & B1 & B2 & B3 & B4).
      { intros a Iax Fa. apply (Dx a Iax). apply Fg. exact Fa. } { exact E1. }
      { destruct EF as (r0 & EF). exists (flat_map snd rs2 ++ r0). rewrite EF, ER, flat_map_app. cbn [flat_map snd]. rewrite <- !app_assoc. reflexivity. }
      exists (foot g2), H2, st2. split; [exact B1|]. split; [|split].
      - exists (rs ++ [(d1, f1)]), g2. split; [tauto|]. split.
        + rewrite mM_app, Ers. cbn [bind mapM]. rewrite E1. reflexivity.
        + split; [rewrite (B4 c Nc); exact Gr|]. rewrite !flat_map_app. cbn [flat_map fst snd]. rewrite !app_nil_r, pattern_map_app, !app_assoc. exact B2.
      - apply (agree_weak (fun a => ~ foot g' a)); [|exact (proj1 B3)]. intros a N X. apply N. apply Fg. exact X.
      - intros a Fa. destruct (proj2 B3 a Fa) as [X|X]; [left; apply Fg; exact X|right; right; exact X]. }
    { exists [], g1. split; [tauto|]. split; [reflexivity|]. split; [apply upd_same|]. cbn. rewrite !app_nil_r. exact I1. }
    { exact Ho. } { exact ND. } { exact DIS. }
    cbn [app] in Ers. assert (rs = RS) as -> by congruence. exists H', st', g'. split; [exact E'|]. split; [exact I'|]. split; [|exact Grem]. split.
    - apply (agree_weak (fun a => ~ foot g1 a /\ ~ In a (addrs s))); [|exact A']. intros a N. split.
      + intros [La|(c0 & k0 & b0 & s0 & I0 & A0)]; apply N; [left; exact La|right; exists c0, k0, b0, s0; auto].
      + intros Ia'. apply N. right. exists c, k, b, s. auto.
    - intros a Fa. apply Fg in Fa. destruct (N' a Fa) as [X|[X|X]]; [|left; right; exists c, k, b, s; auto|right; exact X].
      destruct X as [La|(c0 & k0 & b0 & s0 & I0 & A0)]; [left; left; exact La|left; right; exists c0, k0, b0, s0; auto].
  Qed.
  Lemma multi_cluster_ok : forall c d f act H st W fl dn gv, act = later c -> incl (c :: act) views3 -> ~ In c act ->
    Inv (c :: act) H st W fl dn gv ->
    (forall d, foldM multi_add (to_view c fl) [] = Ok d -> Forall (fun kb => Pin (vb_depth (snd kb)) (vb_root (snd kb))) d) ->
    multi_stage mcn innerP last_path c (to_view c fl) = Ok (d, f) -> (exists r, FL = fl ++ f ++ r) ->
    exists H' st' gv', multi_cluster mcn innerH last_path c (H, st) = ((H', st'), Ok tt)
      /\ Inv act H' st' (W ++ pattern_map d) (fl ++ f) (dn ++ d) gv' /\ ext gv H gv' H'.
  Proof.
    intros c d f act H st W fl dn gv Ea Ia Nc I PB M EF. unfold multi_cluster.
    rewrite (then_ok _ _ _ self _ _ (H, st) st) by reflexivity.
    destruct (i_views _ _ _ _ _ _ _ I c (or_introl eq_refl)) as [E1 E2]. unfold multi_stage in M. rewrite E1 in M. cbn [bind] in M.
    specialize (PB _ E1).
    destruct (mapM (fun kb => multi_bucket mcn innerP last_path c (snd kb)) (map (onv fst) (gv c))) as [RS|] eqn:Em; [|discriminate].
    cbn [bind] in M. assert (d = flat_map fst RS /\ f = flat_map snd RS) as [-> ->] by (split; congruence). clear M.
    rewrite E2, map_map. cbn [onv snd].
    assert (I0 : Inv act H st W fl dn gv).
    { destruct I as [J1 J2 J3 J4 J5 J6 J7]. constructor; auto. intros c0 Ic. apply J3. right. exact Ic. }
    assert (IA : incl act views3) by (intros x X; apply Ia; right; exact X).
    clear E1 E2 I Ia. remember (gv c) as rem eqn:Er. symmetry in Er.
    revert RS H st W fl dn gv Er PB Em EF I0. induction rem as [|[k [b s]] rem IH]; intros RS H st W fl dn gv Er PB Em EF I0.
    - cbn in Em. assert (RS = []) as -> by congruence. exists H, st, gv. cbn. rewrite !app_nil_r. split; [reflexivity|]. split; [exact I0|apply ext_refl].
    - cbn [map onv fst snd mapM] in Em. destruct (multi_bucket mcn innerP last_path c b) as [[d1 f1]|] eqn:E1; [|discriminate]. cbn [bind] in Em.
      destruct (mapM (fun kb => multi_bucket mcn innerP last_path c (snd kb)) (map (onv fst) rem)) as [RS2|] eqn:E2; [|discriminate]. cbn [bind] in Em.
      assert (RS = (d1, f1) :: RS2) as -> by congruence. inversion PB as [|x y P1 P2]; subst x y. cbn [onv fst snd] in P1.
      destruct EF as (r & EF). cbn [flat_map fst snd] in EF.
      destruct (bucket_ok c k b s rem d1 f1 act H st W fl dn gv Ea IA Nc I0 Er P1 E1) as (H1 & st1 & g1 & F1 & I1 & X1 & G1).
      { exists (flat_map snd RS2 ++ r). rewrite EF, <- !app_assoc. reflexivity. }
      destruct (IH RS2 H1 st1 (W ++ pattern_map d1) (fl ++ f1) (dn ++ d1) g1 G1 P2 eq_refl) as (H2 & st2 & g2 & F2 & I2 & X2); [|exact I1|].
      { exists r. rewrite EF, <- !app_assoc. reflexivity. }
      exists H2, st2, g2. cbn [map each snd]. rewrite (then_ok _ _ _ _ _ _ _ _ F1). split; [exact F2|].
      cbn [flat_map fst snd]. rewrite pattern_map_app, !app_assoc. split; [exact I2|exact (ext_trans _ _ _ _ _ _ _ X1 X2)].
  Qed.
End Stage.
