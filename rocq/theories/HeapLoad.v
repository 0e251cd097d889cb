(** The nodes as objects: loading. *)
From Coq Require Import String.
From Verif Require Import PyStr Defs UrlLib ParseUtils Spec Trees Patterns Matcher Maker Observe Heap HeapSpec
  PyStrProofs DefsProofs TreeProofs DictProofs LoadProofs HeapProofs.
From Coq Require Import Lia Permutation.

(** a change of the attributes of the nodes of [s] that keeps its shape *)
Record same (H H' : heap) (s s' : atree) : Prop := {
  sm_len : length H' = length H;
  sm_frame : forall b, ~ In b (addrs s) -> nth_error H' b = nth_error H b;
  sm_addrs : addrs s' = addrs s;
  sm_addr : a_addr s' = a_addr s;
  sm_val : a_val s' = a_val s;
  sm_at : forall ks, aat s' ks = aat s ks
}.
Lemma aat_swap : forall a v p c m x k k' y v' p' c' m', a_piece k = a_piece k' -> ~ In (a_piece k) (map a_piece x) ->
  (forall ks, aat k' ks = aat k ks) ->
  forall ks, aat (AT a v' p' c' m' (x ++ k' :: y)) ks = aat (AT a v p c m (x ++ k :: y)) ks.
Proof.
  intros a v p c m x k k' y v' p' c' m' P N0 G ks. destruct ks as [|z r]; [reflexivity|]. rewrite !aat_cons. cbn [a_kids].
  destruct (str_dec z (a_piece k)) as [->|Q].
  - rewrite akid_mid by (try congruence; auto). rewrite akid_mid by auto. apply G.
  - rewrite (akid_swap z x k k' y P Q). reflexivity.
Qed.
(** changing something in one child *)
Lemma mid_holds : forall H H' par dep a v p c m x k k' y,
  holds H par dep (AT a v p c m (x ++ k :: y)) -> NoDup (addrs (AT a v p c m (x ++ k :: y))) ->
  holds H' (Some a) (S dep) k' -> same H H' k k' -> holds H' par dep (AT a v p c m (x ++ k' :: y)).
Proof.
  intros H H' par dep a v p c m x k k' y Hs ND Hk' SK. cbn [addrs] in ND. rewrite flat_mid in ND.
  destruct (nd_mid _ _ _ _ ND) as (NDk & NDa & NDd). apply holds_iff in Hs. destruct Hs as [(n & E & R) K].
  apply Forall_app in K. destruct K as [Kx K]. apply Forall_cons_iff in K. destruct K as [Kk Ky].
  apply holds_iff. split.
  - exists n. rewrite (sm_frame _ _ _ _ SK) by (intros Q; apply NDa; rewrite !in_app_iff; auto). split; [exact E|].
    destruct R as (R1 & R2 & R3 & R4 & R5 & R6 & R7). repeat (split; [assumption|]). split; [|exact R7].
    rewrite R6. unfold dict_of. rewrite !map_app. cbn [map]. unfold a_piece. rewrite (sm_val _ _ _ _ SK), (sm_addr _ _ _ _ SK). reflexivity.
  - assert (FR : forall l, Forall (holds H (Some a) (S dep)) l -> (forall b, In b (flat_map addrs l) -> ~ In b (addrs k)) ->
              Forall (holds H' (Some a) (S dep)) l).
    { intros l Fl Q. rewrite Forall_forall in *. intros z Hz. eapply holds_frame; [apply Fl; exact Hz|].
      intros b Hb. apply (sm_frame _ _ _ _ SK). apply Q. apply in_flat_map. eauto. }
    apply Forall_app. split; [|constructor; [exact Hk'|]]; apply FR; auto; intros b Hb Q; destruct (NDd b Q); contradiction.
Qed.
Lemma mid_same : forall H H' a v p c m x k k' y v' p' c' m', ~ In (a_piece k) (map a_piece x) -> v' = v ->
  same H H' k k' -> same H H' (AT a v p c m (x ++ k :: y)) (AT a v' p' c' m' (x ++ k' :: y)).
Proof.
  intros H H' a v p c m x k k' y v' p' c' m' N0 -> SK. constructor; cbn [addrs a_addr a_val]; rewrite ?flat_mid.
  - apply (sm_len _ _ _ _ SK).
  - intros b Hb. apply (sm_frame _ _ _ _ SK). intros Q. apply Hb. right. rewrite !in_app_iff. auto.
  - rewrite (sm_addrs _ _ _ _ SK). reflexivity.
  - reflexivity.
  - reflexivity.
  - apply aat_swap; [|exact N0|apply (sm_at _ _ _ _ SK)]. unfold a_piece. rewrite (sm_val _ _ _ _ SK). reflexivity.
Qed.
Lemma same_trans : forall H H1 H2 s s1 s2, same H H1 s s1 -> same H1 H2 s1 s2 -> same H H2 s s2.
Proof.
  intros H H1 H2 s s1 s2 A B. constructor.
  - rewrite (sm_len _ _ _ _ B). apply (sm_len _ _ _ _ A).
  - intros b Hb. rewrite (sm_frame _ _ _ _ B), (sm_frame _ _ _ _ A); auto. rewrite (sm_addrs _ _ _ _ A). exact Hb.
  - rewrite (sm_addrs _ _ _ _ B). apply (sm_addrs _ _ _ _ A).
  - rewrite (sm_addr _ _ _ _ B). apply (sm_addr _ _ _ _ A).
  - rewrite (sm_val _ _ _ _ B). apply (sm_val _ _ _ _ A).
  - intros ks. rewrite (sm_at _ _ _ _ B). apply (sm_at _ _ _ _ A).
Qed.
(** changing the attributes of the root *)
Lemma root_put : forall H par dep a v p c m ks f c' m',
  holds H par dep (AT a v p c m ks) -> NoDup (addrs (AT a v p c m ks)) ->
  (forall n, n_parent (f n) = n_parent n /\ n_value (f n) = n_value n /\ n_pattern (f n) = n_pattern n
             /\ n_children (f n) = n_children n) ->
  (forall n, n_level n = None \/ n_level n = Some dep -> n_level (f n) = None \/ n_level (f n) = Some dep) ->
  (forall n, n_count n = c -> n_count (f n) = c') -> (forall n, n_meta n = m -> n_meta (f n) = m') ->
  holds (put H a f) par dep (AT a v p c' m' ks)
  /\ same H (put H a f) (AT a v p c m ks) (AT a v p c' m' ks).
Proof.
  intros H par dep a v p c m ks f c' m' Hs ND F1 FL F2 F3. apply holds_iff in Hs. destruct Hs as [(n & E & R) K]. split.
  - apply holds_iff. split.
    + exists (f n). rewrite (put_same _ _ _ _ E). split; [reflexivity|].
      destruct (F1 n) as (G1 & G2 & G3 & G4). destruct R as (R1 & R2 & R3 & R4 & R5 & R6 & R7).
      repeat (split; [solve [congruence | auto]|]). split; [|auto]. unfold entries in *. rewrite G4. exact R6.
    + rewrite Forall_forall in *. intros k Hk. eapply holds_frame; [apply K; exact Hk|]. intros b Hb. apply put_other.
      intros ->. apply NoDup_cons_iff in ND. destruct ND as [ND _]. apply ND. apply in_flat_map. eauto.
  - constructor; cbn; rewrite ?put_length; auto.
    + intros b Hb. apply put_other. intros ->. tauto.
    + intros l. destruct l; reflexivity.
Qed.

Lemma incr_ok : forall d ks s H par dep b f,
  holds H par dep s -> NoDup (addrs s) -> aat s ks = Some b ->
  exists H' s', incr_up (length ks + S f) H b d =
      match par with None => (H', Ok tt) | Some q => incr_up f H' q d end
    /\ holds H' par dep s' /\ same H H' s s' /\ erase s' = incr_path (erase s) ks d.
Proof.
  intros d ks. induction ks as [|k r IH]; intros [a v p c m l] H par dep b f Hs ND EA.
  - cbn in EA. injection EA as <-. cbn [length plus incr_up].
    destruct (root_put H par dep a v p c m l (add_count d) (c + d)%Z m Hs ND) as [A B]; try (cbn; auto; fail).
    { cbn. intros n ->. reflexivity. }
    apply holds_iff in Hs. destruct Hs as [(n & E & R) K]. rewrite (get_ok _ _ _ E). destruct R as (R1 & _). rewrite R1.
    exists (put H a (add_count d)), (AT a v p (c + d) m l). split; [destruct par; reflexivity|]. auto.
  - rewrite aat_cons in EA. cbn [a_kids] in EA. destruct (akid k l) as [z|] eqn:EK; [|discriminate].
    destruct (akid_some _ _ _ EK) as (x & y & -> & KP & KN).
    pose proof Hs as Hs0. pose proof ND as ND0. cbn [addrs] in ND. rewrite flat_mid in ND. destruct (nd_mid _ _ _ _ ND) as (NDk & NDa & NDd).
    apply holds_iff in Hs. destruct Hs as [_ K]. apply Forall_app in K. destruct K as [_ K]. apply Forall_cons_iff in K. destruct K as [Kz _].
    destruct (IH z H (Some a) (S dep) b (S f) Kz NDk EA) as (H1 & z' & E1 & A1 & S1 & R1).
    assert (Hm := mid_holds _ _ _ _ _ _ _ _ _ _ _ _ _ Hs0 ND0 A1 S1).
    assert (KN' : ~ In (a_piece z) (map a_piece x)) by (rewrite KP; exact KN).
    assert (Sm := mid_same H H1 a v p c m x z z' y v p c m KN' eq_refl S1).
    assert (ND1 : NoDup (addrs (AT a v p c m (x ++ z' :: y)))) by (rewrite (sm_addrs _ _ _ _ Sm); exact ND0).
    destruct (root_put H1 par dep a v p c m (x ++ z' :: y) (add_count d) (c + d)%Z m Hm ND1) as [A2 S2]; try (cbn; auto; fail).
    { cbn. intros n ->. reflexivity. }
    exists (put H1 a (add_count d)), (AT a v p (c + d) m (x ++ z' :: y)).
    split; [|split; [exact A2|split; [eapply same_trans; eassumption|]]].
    + replace (length (k :: r) + S f) with (length r + S (S f)) by (cbn; lia). rewrite E1. cbn [incr_up].
      apply holds_iff in Hm. destruct Hm as [(n & E & R) _]. rewrite (get_ok _ _ _ E). destruct R as (-> & _). destruct par; reflexivity.
    + cbn [erase incr_path]. rewrite (split_erase _ x z y KN KP), map_app. cbn [map]. rewrite R1. reflexivity.
Qed.
Lemma meta_ok : forall data ks s H par dep b,
  holds H par dep s -> NoDup (addrs s) -> aat s ks = Some b ->
  exists s', holds (put H b (node_add_meta data)) par dep s' /\ same H (put H b (node_add_meta data)) s s'
    /\ erase s' = upd_meta (erase s) ks (add_meta data).
Proof.
  intros data ks. induction ks as [|k r IH]; intros [a v p c m l] H par dep b Hs ND EA.
  - cbn in EA. injection EA as <-.
    destruct (root_put H par dep a v p c m l (node_add_meta data) c (add_meta data m) Hs ND) as [A B]; try (cbn; auto; fail).
    { cbn. intros n ->. reflexivity. }
    exists (AT a v p c (add_meta data m) l). auto.
  - rewrite aat_cons in EA. cbn [a_kids] in EA. destruct (akid k l) as [z|] eqn:EK; [|discriminate].
    destruct (akid_some _ _ _ EK) as (x & y & -> & KP & KN).
    pose proof Hs as Hs0. pose proof ND as ND0. cbn [addrs] in ND. rewrite flat_mid in ND. destruct (nd_mid _ _ _ _ ND) as (NDk & NDa & NDd).
    apply holds_iff in Hs. destruct Hs as [_ K]. apply Forall_app in K. destruct K as [_ K]. apply Forall_cons_iff in K. destruct K as [Kz _].
    destruct (IH z H (Some a) (S dep) b Kz NDk EA) as (z' & A1 & S1 & R1).
    assert (KN' : ~ In (a_piece z) (map a_piece x)) by (rewrite KP; exact KN).
    exists (AT a v p c m (x ++ z' :: y)). split; [eapply mid_holds; eassumption|]. split; [apply mid_same; auto|].
    cbn [erase upd_meta]. rewrite (split_erase _ x z y KN KP), map_app. cbn [map]. rewrite R1. reflexivity.
Qed.
Lemma level_ok_set : forall ks s H par dep b,
  holds H par dep s -> NoDup (addrs s) -> aat s ks = Some b ->
  holds (put H b (set_level (Some (dep + length ks)))) par dep s
  /\ same H (put H b (set_level (Some (dep + length ks)))) s s.
Proof.
  intros ks. induction ks as [|k r IH]; intros [a v p c m l] H par dep b Hs ND EA.
  - cbn in EA. injection EA as <-. rewrite Nat.add_0_r. apply root_put; cbn; auto.
  - rewrite aat_cons in EA. cbn [a_kids] in EA. destruct (akid k l) as [z|] eqn:EK; [|discriminate].
    destruct (akid_some _ _ _ EK) as (x & y & -> & KP & KN).
    pose proof Hs as Hs0. pose proof ND as ND0. cbn [addrs] in ND. rewrite flat_mid in ND. destruct (nd_mid _ _ _ _ ND) as (NDk & NDa & NDd).
    apply holds_iff in Hs. destruct Hs as [_ K]. apply Forall_app in K. destruct K as [_ K]. apply Forall_cons_iff in K. destruct K as [Kz _].
    destruct (IH z H (Some a) (S dep) b Kz NDk EA) as (A1 & S1).
    replace (S dep + length r) with (dep + length (k :: r)) in A1, S1 by (cbn; lia).
    assert (KN' : ~ In (a_piece z) (map a_piece x)) by (rewrite KP; exact KN).
    split; [eapply mid_holds; eassumption|]. apply mid_same; auto.
Qed.

(** ** Facts about the trees of Trees.v *)
Lemma upd_build : forall f count kvs t new, upd_meta (fst (build t kvs count nometa new)) (keys kvs) f = fst (build t kvs count f new).
Proof.
  intros f count kvs. induction kvs as [|[pp pat] r IH]; intros [v p c m ks] new; [reflexivity|]. cbn [build map fst].
  destruct (kid_split (piece pp) ks) as [[[a k] b]|] eqn:E.
  - destruct (kid_split_some _ _ _ _ _ E) as (-> & P & N0).
    pose proof (IH k (Some false)) as IHk. pose proof (build_piece nometa count r k (Some false)) as BP.
    destruct (build k r count nometa (Some false)) as [k1 n1]. destruct (build k r count f (Some false)) as [k2 n2].
    cbn [fst] in *. cbn [upd_meta]. rewrite kid_split_mid by (try congruence; auto). rewrite IHk. reflexivity.
  - apply kid_split_none in E. pose proof (IH (T pp pat 0 None []) (Some true)) as IHk.
    pose proof (build_piece nometa count r (T pp pat 0 None []) (Some true)) as BP.
    destruct (build (T pp pat 0 None []) r count nometa (Some true)) as [k1 n1].
    destruct (build (T pp pat 0 None []) r count f (Some true)) as [k2 n2].
    cbn [fst] in *. cbn [upd_meta]. rewrite kid_split_mid by (try exact BP; auto). rewrite IHk. reflexivity.
Qed.
Lemma build_new_any : forall f g count kvs t new, snd (build t kvs count f new) = snd (build t kvs count g new).
Proof.
  intros f g count kvs. induction kvs as [|[pp pat] r IH]; intros [v p c m ks] new; [reflexivity|]. cbn [build].
  destruct (kid_split (piece pp) ks) as [[[a k] b]|] eqn:E.
  - pose proof (IH k (Some false)) as X. destruct (build k r count f (Some false)), (build k r count g (Some false)). exact X.
  - pose proof (IH (T pp pat 0 None []) (Some true)) as X.
    destruct (build (T pp pat 0 None []) r count f (Some true)), (build (T pp pat 0 None []) r count g (Some true)). exact X.
Qed.
Lemma upd_piece' : forall t ks f, t_piece (upd_meta t ks f) = t_piece t.
Proof. exact upd_meta_piece. Qed.
Lemma incr_piece : forall ks t d, t_piece (incr_path t ks d) = t_piece t.
Proof. intros [|k r] [v p c m l] d; reflexivity. Qed.
Lemma upd_incr : forall f d ks t, upd_meta (incr_path t ks d) ks f = incr_path (upd_meta t ks f) ks d.
Proof.
  intros f d ks. induction ks as [|k r IH]; intros [v p c m l]; [reflexivity|]. cbn [incr_path upd_meta].
  destruct (kid_split k l) as [[[a x] b]|] eqn:E.
  - destruct (kid_split_some _ _ _ _ _ E) as (-> & P & N0).
    rewrite !kid_split_mid by (rewrite ?incr_piece, ?upd_meta_piece; auto). rewrite IH. reflexivity.
  - rewrite E. reflexivity.
Qed.

(** ** build_from_parsed_pieces *)
Lemma same_step : forall H H' s s', same H H' s s' -> step H H' s s'.
Proof.
  intros H H' s s' A. constructor.
  - rewrite (sm_len _ _ _ _ A). lia.
  - intros b _. apply (sm_frame _ _ _ _ A).
  - intros b. rewrite (sm_addrs _ _ _ _ A), (sm_len _ _ _ _ A). split; [auto|]. intros [X|X]; [exact X|lia].
  - rewrite (sm_addrs _ _ _ _ A). auto.
  - apply (sm_addr _ _ _ _ A).
  - apply (sm_val _ _ _ _ A).
  - intros ks a. rewrite (sm_at _ _ _ _ A). auto.
Qed.
Lemma step_trans : forall H H1 H2 s s1 s2, (forall b, In b (addrs s) -> b < length H) ->
  step H H1 s s1 -> step H1 H2 s1 s2 -> step H H2 s s2.
Proof.
  intros H H1 H2 s s1 s2 L A B. pose proof (st_len _ _ _ _ A) as LA. pose proof (st_len _ _ _ _ B) as LB.
  assert (L1 : forall b, In b (addrs s1) -> b < length H1).
  { intros b Hb. apply (st_in _ _ _ _ A) in Hb. destruct Hb as [Hb|Hb]; [|lia]. specialize (L b Hb). lia. }
  constructor.
  - lia.
  - intros b Hb N0. rewrite (st_frame _ _ _ _ B); [|lia|rewrite (st_in _ _ _ _ A); intros [X|X]; [auto|lia]].
    apply (st_frame _ _ _ _ A); auto.
  - intros b. rewrite (st_in _ _ _ _ B), (st_in _ _ _ _ A). split; [intros [[X|X]|X]; auto; right; lia|].
    intros [X|X]; auto. destruct (Nat.lt_ge_cases b (length H1)); [left; right; lia|right; lia].
  - intros N0 _. apply (st_nd _ _ _ _ B); [apply (st_nd _ _ _ _ A); auto|exact L1].
  - rewrite (st_addr _ _ _ _ B). apply (st_addr _ _ _ _ A).
  - rewrite (st_val _ _ _ _ B). apply (st_val _ _ _ _ A).
  - eapply grows_trans; [apply (st_grows _ _ _ _ A)|apply (st_grows _ _ _ _ B)].
Qed.
(** the length of a path is bounded by the number of nodes *)
Lemma path_bound : forall ks s b, aat s ks = Some b -> length ks < length (addrs s).
Proof.
  intros ks. induction ks as [|k r IH]; intros [a v p c m l] b E; cbn [addrs length]; [lia|].
  rewrite aat_cons in E. cbn [a_kids] in E. destruct (akid k l) as [z|] eqn:EK; [|discriminate].
  destruct (akid_some _ _ _ EK) as (x & y & -> & _). rewrite flat_mid, !app_length. specialize (IH _ _ E). lia.
Qed.
Lemma nodup_bound : forall (l : list addr) (n : nat), NoDup l -> (forall b, In b l -> b < n) -> length l <= n.
Proof.
  intros l n N0 L. rewrite <- (seq_length n 0). apply NoDup_incl_length; [exact N0|]. intros b Hb. apply in_seq. specialize (L b Hb). lia.
Qed.
Lemma build_from_ok : forall s H pps count meta uniq, holds H None 0 s -> NoDup (addrs s) -> pps <> [] ->
  exists t new, build_from_parsed_pieces (erase s) pps count meta uniq = Ok (t, new) /\
  exists H' s' b, hbuild_from_parsed_pieces H (a_addr s) pps count meta uniq = (H', Ok (b, new))
    /\ holds H' None 0 s' /\ step H H' s s' /\ NoDup (addrs s') /\ erase s' = t /\ aat s' (map piece pps) = Some b.
Proof.
  intros s H pps count meta uniq Hs ND NE. unfold build_from_parsed_pieces, hbuild_from_parsed_pieces, build_tree.
  set (kvs := map (fun p => (p, None)) pps).
  assert (EK : keys kvs = map piece pps) by (unfold kvs; rewrite map_map; reflexivity).
  assert (NK : kvs <> []) by (unfold kvs; destruct pps; [contradiction|discriminate]).
  assert (LH := holds_lt _ _ _ _ Hs).
  destruct (loop_ok count kvs s H None 0 None Hs ND) as (H1 & s1 & b & E1 & A1 & S1 & R1 & P1).
  rewrite E1. pose proof (upd_build (add_meta meta) count kvs (erase s) None) as UB.
  pose proof (build_new_any (add_meta meta) nometa count kvs (erase s) None) as BN.
  rewrite (build_new nometa count kvs (erase s) None NK) in *.
  destruct (build (erase s) kvs count (add_meta meta) None) as [t0 o0]. cbn [fst snd] in *. subst o0.
  set (new := match node_at (erase s) (keys kvs) with Some _ => false | None => true end) in *.
  eexists. exists new. split; [reflexivity|].
  assert (ND1 : NoDup (addrs s1)) by (apply (st_nd _ _ _ _ S1); assumption).
  assert (L1 := holds_lt _ _ _ _ A1).
  assert (PB : length (keys kvs) < length H1).
  { pose proof (path_bound _ _ _ P1). pose proof (nodup_bound _ _ ND1 L1). lia. }
  destruct (uniq && negb new).
  - destruct (incr_ok (0 - count) (keys kvs) s1 H1 None 0 b (length H1 - length (keys kvs) - 1) A1 ND1 P1)
      as (H2 & s2 & E2 & A2 & S2 & R2).
    replace (length (keys kvs) + S (length H1 - length (keys kvs) - 1)) with (length H1) in E2 by lia. rewrite E2.
    assert (ND2 : NoDup (addrs s2)) by (rewrite (sm_addrs _ _ _ _ S2); exact ND1).
    assert (P2 : aat s2 (keys kvs) = Some b) by (rewrite (sm_at _ _ _ _ S2); exact P1).
    destruct (meta_ok meta (keys kvs) s2 H2 None 0 b A2 ND2 P2) as (s3 & A3 & S3 & R3).
    exists (put H2 b (node_add_meta meta)), s3, b. split; [reflexivity|]. split; [exact A3|].
    split; [|split; [|split]].
    + eapply step_trans; [exact LH|exact S1|]. apply same_step. eapply same_trans; eassumption.
    + rewrite (sm_addrs _ _ _ _ S3). exact ND2.
    + rewrite R3, R2, R1, upd_incr, UB, EK. f_equal.
    + rewrite <- EK, (sm_at _ _ _ _ S3). exact P2.
  - destruct (meta_ok meta (keys kvs) s1 H1 None 0 b A1 ND1 P1) as (s3 & A3 & S3 & R3).
    exists (put H1 b (node_add_meta meta)), s3, b. split; [reflexivity|]. split; [exact A3|].
    split; [|split; [|split]].
    + eapply step_trans; [exact LH|exact S1|]. apply same_step. exact S3.
    + rewrite (sm_addrs _ _ _ _ S3). exact ND1.
    + rewrite R3, R1, UB. reflexivity.
    + rewrite <- EK, (sm_at _ _ _ _ S3). exact P1.
Qed.
