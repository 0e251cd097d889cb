(** The nodes as objects. *)
From Coq Require Import String.
From Verif Require Import PyStr Defs UrlLib ParseUtils Spec Trees Patterns Matcher Maker Observe Heap HeapSpec
  PyStrProofs DefsProofs TreeProofs DictProofs LoadProofs.
From Coq Require Import Lia Permutation.

(** ** Lists of nodes *)
Lemma put_length : forall H a f, length (put H a f) = length H.
Proof. induction H as [|n H IH]; intros [|a] f; cbn; auto. Qed.
Lemma put_same : forall H a f n, nth_error H a = Some n -> nth_error (put H a f) a = Some (f n).
Proof. induction H as [|x H IH]; intros [|a] f n E; cbn in *; try discriminate; [congruence|auto]. Qed.
Lemma put_other : forall H a f b, b <> a -> nth_error (put H a f) b = nth_error H b.
Proof.
  induction H as [|x H IH]; intros [|a] f [|b] E; cbn; auto; congruence.
Qed.
Lemma get_ok : forall H a n, nth_error H a = Some n -> get H a = Ok n.
Proof. intros H a n E. unfold get. rewrite E. reflexivity. Qed.
Lemma app_old : forall (H : heap) l a, a < length H -> nth_error (H ++ l) a = nth_error H a.
Proof. intros. apply nth_error_app1. assumption. Qed.
Lemma app_new : forall (H : heap) n, nth_error (H ++ [n]) (length H) = Some n.
Proof. intros. rewrite nth_error_app2 by lia. rewrite Nat.sub_diag. reflexivity. Qed.

(** ** Trees with the references of their nodes *)
Inductive atree := AT (aa : addr) (av : parsed_piece) (ap : option str) (ac : Z) (am : option (list str)) (ak : list atree).
Definition a_addr s := let '(AT a _ _ _ _ _) := s in a.
Definition a_val s := let '(AT _ v _ _ _ _) := s in v.
Definition a_kids s := let '(AT _ _ _ _ _ ks) := s in ks.
Definition a_piece s := piece (a_val s).
Lemma atree_ind' : forall P : atree -> Prop,
  (forall a v p c m ks, Forall P ks -> P (AT a v p c m ks)) -> forall s, P s.
Proof.
  intros P HP. fix IH 1. intros [a v p c m ks]. apply HP.
  induction ks as [|k ks IHks]; constructor; [apply IH|exact IHks].
Qed.
Fixpoint erase (s : atree) : tree :=
  let '(AT _ v p c m ks) := s in T v p c m (map erase ks).
Fixpoint addrs (s : atree) : list addr :=
  let '(AT a _ _ _ _ ks) := s in a :: flat_map addrs ks.
Definition dict_of (ks : list atree) : list (str * addr) := map (fun k => (a_piece k, a_addr k)) ks.
Definition node_holds (H : heap) (par : option addr) (dep : nat) (s : atree) : Prop :=
  let '(AT a v p c m ks) := s in
  exists n, nth_error H a = Some n /\ n_parent n = par /\ n_value n = v /\ n_pattern n = p /\ n_count n = c
    /\ n_meta n = m /\ entries n = dict_of ks /\ (n_level n = None \/ n_level n = Some dep).
Fixpoint holds (H : heap) (par : option addr) (dep : nat) (s : atree) : Prop :=
  node_holds H par dep s /\
  let '(AT a _ _ _ _ ks) := s in
  (fix all (l : list atree) : Prop := match l with [] => True | k :: r => holds H (Some a) (S dep) k /\ all r end) ks.
Lemma holds_iff : forall H par dep a v p c m ks,
  holds H par dep (AT a v p c m ks) <->
  node_holds H par dep (AT a v p c m ks) /\ Forall (holds H (Some a) (S dep)) ks.
Proof.
  intros. cbn [holds]. apply and_iff_compat_l. induction ks as [|k r IH].
  - split; [constructor|intros; exact Logic.I].
  - split.
    + intros [A B]. constructor; [exact A|]. apply IH. exact B.
    + intros F. apply Forall_cons_iff in F. destruct F as [A B]. split; [exact A|]. apply IH. exact B.
Qed.
Lemma erase_piece : forall s, t_piece (erase s) = a_piece s.
Proof. intros [a v p c m ks]. reflexivity. Qed.
Lemma addr_in : forall s, In (a_addr s) (addrs s).
Proof. intros [a v p c m ks]. left. reflexivity. Qed.

Lemma holds_frame : forall s H H' par dep, holds H par dep s ->
  (forall a, In a (addrs s) -> nth_error H' a = nth_error H a) -> holds H' par dep s.
Proof.
  induction s as [a v p c m ks IH] using atree_ind'. intros H H' par dep Hs F.
  apply holds_iff in Hs. destruct Hs as [(n & E & R) K]. apply holds_iff. split.
  - exists n. split; [|exact R]. rewrite F; [exact E|]. left. reflexivity.
  - rewrite Forall_forall in *. intros k Hk. apply (IH k Hk H); [apply K; exact Hk|].
    intros b Hb. apply F. right. apply in_flat_map. exists k. auto.
Qed.
Lemma holds_lt : forall s H par dep, holds H par dep s -> forall a, In a (addrs s) -> a < length H.
Proof.
  induction s as [a v p c m ks IH] using atree_ind'. intros H par dep Hs b Hb.
  apply holds_iff in Hs. destruct Hs as [(n & E & R) K]. destruct Hb as [<-|Hb].
  - apply nth_error_Some. congruence.
  - apply in_flat_map in Hb. destruct Hb as (k & Hk & Hb). rewrite Forall_forall in *. eauto.
Qed.

(** the reference at a path *)
Fixpoint aat (s : atree) (ks : list str) : option addr :=
  match ks with
  | [] => Some (a_addr s)
  | k :: r => match List.find (fun c => str_eqb k (a_piece c)) (a_kids s) with
              | Some c => aat c r
              | None => None
              end
  end.
Definition akid (k : str) (ks : list atree) := List.find (fun c => str_eqb k (a_piece c)) ks.
Lemma aat_cons : forall s k r, aat s (k :: r) = match akid k (a_kids s) with Some c => aat c r | None => None end.
Proof. reflexivity. Qed.
Lemma akid_some : forall k ks c, akid k ks = Some c ->
  exists x y, ks = x ++ c :: y /\ a_piece c = k /\ ~ In k (map a_piece x).
Proof.
  intros k ks c. unfold akid. induction ks as [|z ks IH]; cbn [List.find]; [discriminate|].
  destruct (str_eqb k (a_piece z)) eqn:E.
  - intros X. injection X as <-. apply str_eqb_iff in E. exists [], ks. cbn. auto.
  - intros X. destruct (IH X) as (x & y & -> & P & N0). exists (z :: x), y. cbn. split; [reflexivity|].
    split; [exact P|]. intros [Q|Q]; [|contradiction]. rewrite Q in E.
    assert (T0 : str_eqb k k = true) by (apply str_eqb_iff; reflexivity). congruence.
Qed.
Lemma akid_none : forall k ks, akid k ks = None <-> ~ In k (map a_piece ks).
Proof.
  intros k ks. unfold akid. induction ks as [|z ks IH]; cbn [List.find map In]; [tauto|].
  destruct (str_eqb k (a_piece z)) eqn:E.
  - apply str_eqb_iff in E. split; [discriminate|]. intros X. exfalso. apply X. left. congruence.
  - rewrite IH. split; [|tauto]. intros X [Q|Q]; [|tauto]. rewrite Q in E.
    assert (T0 : str_eqb k k = true) by (apply str_eqb_iff; reflexivity). congruence.
Qed.
Lemma akid_mid : forall k x c y, ~ In k (map a_piece x) -> a_piece c = k -> akid k (x ++ c :: y) = Some c.
Proof.
  intros k x c y N0 P. unfold akid. induction x as [|z x IH]; cbn [app List.find].
  - destruct (str_eqb k (a_piece c)) eqn:E; [reflexivity|]. subst.
    assert (T0 : str_eqb (a_piece c) (a_piece c) = true) by (apply str_eqb_iff; reflexivity). congruence.
  - destruct (str_eqb k (a_piece z)) eqn:E.
    + apply str_eqb_iff in E. exfalso. apply N0. left. congruence.
    + apply IH. intros Q. apply N0. right. exact Q.
Qed.
(** replacing or appending a child *)
Lemma akid_swap : forall k x c c' y, a_piece c = a_piece c' -> k <> a_piece c ->
  akid k (x ++ c' :: y) = akid k (x ++ c :: y).
Proof.
  intros k x c c' y P Q. unfold akid. induction x as [|z x IH]; cbn [app List.find].
  - rewrite <- P. destruct (str_eqb k (a_piece c)) eqn:E; [|reflexivity]. apply str_eqb_iff in E. contradiction.
  - rewrite IH. reflexivity.
Qed.
Lemma akid_app : forall k x y c, akid k x = Some c -> akid k (x ++ y) = Some c.
Proof.
  intros k x y c. unfold akid. induction x as [|z x IH]; cbn [app List.find]; [discriminate|].
  destruct (str_eqb k (a_piece z)); auto.
Qed.
Lemma dict_get : forall k ks, dget str_eqb k (dict_of ks) = option_map a_addr (akid k ks).
Proof.
  intros k ks. unfold akid, dict_of. induction ks as [|z ks IH]; cbn [map dget List.find]; [reflexivity|].
  destruct (str_eqb k (a_piece z)); [reflexivity|exact IH].
Qed.
Lemma split_erase : forall k x c y, ~ In k (map a_piece x) -> a_piece c = k ->
  kid_split k (map erase (x ++ c :: y)) = Some (map erase x, erase c, map erase y).
Proof.
  intros k x c y N0 P. rewrite map_app. cbn [map]. apply kid_split_mid.
  - rewrite map_map. intros Q. apply N0. rewrite (map_ext _ _ erase_piece) in Q. exact Q.
  - rewrite erase_piece. exact P.
Qed.
Lemma split_erase_none : forall k ks, akid k ks = None -> kid_split k (map erase ks) = None.
Proof.
  intros k ks E. apply kid_split_none. apply akid_none in E. rewrite map_map, (map_ext _ _ erase_piece). exact E.
Qed.

Definition grows (s s' : atree) : Prop := forall ks a, aat s ks = Some a -> aat s' ks = Some a.
Lemma grows_refl : forall s, grows s s.
Proof. intros s ks a E. exact E. Qed.
Lemma grows_trans : forall a b c, grows a b -> grows b c -> grows a c.
Proof. intros a b c A B ks x E. auto. Qed.
Lemma grows_mid : forall a v p c m x k k' y v' p' c' m', a_piece k = a_piece k' -> ~ In (a_piece k) (map a_piece x) ->
  grows k k' -> grows (AT a v p c m (x ++ k :: y)) (AT a v' p' c' m' (x ++ k' :: y)).
Proof.
  intros a v p c m x k k' y v' p' c' m' P N0 G ks b. destruct ks as [|z r]; [auto|]. rewrite !aat_cons. cbn [a_kids].
  destruct (str_dec z (a_piece k)) as [->|Q].
  - rewrite akid_mid by auto. rewrite akid_mid by (try congruence; auto). apply G.
  - rewrite (akid_swap z x k k' y P Q). auto.
Qed.
Lemma grows_app : forall a v p c m ks k v' p' c' m', grows (AT a v p c m ks) (AT a v' p' c' m' (ks ++ [k])).
Proof.
  intros a v p c m ks k v' p' c' m' l b. destruct l as [|z r]; [auto|]. rewrite !aat_cons. cbn [a_kids].
  destruct (akid z ks) as [c0|] eqn:E; [|discriminate]. rewrite (akid_app z ks [k] c0 E). auto.
Qed.

(** [step H H' s s']: going from heap [H] with [s] to heap [H'] with [s'] touches
    only the nodes of [s]; the new nodes are those of [s'] *)
Record step (H H' : heap) (s s' : atree) : Prop := {
  st_len : length H <= length H';
  st_frame : forall b, b < length H -> ~ In b (addrs s) -> nth_error H' b = nth_error H b;
  st_in : forall b, In b (addrs s') <-> In b (addrs s) \/ length H <= b < length H';
  st_nd : NoDup (addrs s) -> (forall b, In b (addrs s) -> b < length H) -> NoDup (addrs s');
  st_addr : a_addr s' = a_addr s;
  st_val : a_val s' = a_val s;
  st_grows : grows s s'
}.
Lemma nd_app : forall (a b : list addr), NoDup (a ++ b) <-> NoDup a /\ NoDup b /\ (forall x, In x a -> ~ In x b).
Proof.
  intros a b. split; [|intros (A & B & D); apply NoDup_app_intro; assumption].
  induction a as [|z a IH]; cbn [app]; intros N0; [repeat split; [constructor|exact N0|intros x []]|].
  apply NoDup_cons_iff in N0. destruct N0 as [Z N0]. rewrite in_app_iff in Z. destruct (IH N0) as (A & B & D).
  split; [constructor; tauto|]. split; [exact B|]. intros x [<-|X]; [tauto|auto].
Qed.
Lemma nd_mid : forall a x (k : list addr) y, NoDup (a :: x ++ k ++ y) ->
  NoDup k /\ ~ In a (x ++ k ++ y) /\ (forall b, In b k -> ~ In b x /\ ~ In b y).
Proof.
  intros a x k y N0. apply NoDup_cons_iff in N0. destruct N0 as [A N0]. apply nd_app in N0. destruct N0 as (Nx & N0 & D).
  apply nd_app in N0. destruct N0 as (Nk & Ny & D'). split; [exact Nk|]. split; [exact A|]. intros b Hb. split; [|auto].
  intros Q. apply (D b Q). apply in_app_iff. auto.
Qed.
Lemma flat_mid : forall x k y, flat_map addrs (x ++ k :: y) = flat_map addrs x ++ addrs k ++ flat_map addrs y.
Proof. intros. rewrite flat_map_app. reflexivity. Qed.
Lemma nd_replace : forall a x (k k' : list addr) y n, NoDup (a :: x ++ k ++ y) ->
  (forall b, In b (a :: x ++ k ++ y) -> b < n) -> NoDup k' ->
  (forall b, In b k' -> In b k \/ n <= b) -> NoDup (a :: x ++ k' ++ y).
Proof.
  intros a x k k' y n N0 L N1 I1. destruct (nd_mid _ _ _ _ N0) as (_ & A & D).
  apply NoDup_cons_iff in N0. destruct N0 as [_ N0]. constructor.
  - rewrite !in_app_iff in *. intros [X|[X|X]]; [tauto| |tauto]. destruct (I1 _ X) as [Y|Y]; [tauto|].
    assert (a < n) by (apply L; left; reflexivity). lia.
  - apply nd_app in N0. destruct N0 as (Nx & N0 & D1). apply nd_app in N0. destruct N0 as (Nk & Ny & D2).
    apply nd_app. split; [exact Nx|]. split; [apply nd_app; split; [exact N1|]; split; [exact Ny|]|].
    + intros b Hb Hy. destruct (I1 b Hb) as [Y|Y]; [destruct (D b Y); contradiction|].
      assert (b < n); [|lia]. apply L. right. rewrite !in_app_iff. auto.
    + intros b Hx Hb. apply in_app_iff in Hb. destruct Hb as [Hb|Hb].
      * destruct (I1 b Hb) as [Y|Y]; [destruct (D b Y); contradiction|].
        assert (b < n); [|lia]. apply L. right. rewrite !in_app_iff. auto.
      * apply (D1 b Hx). apply in_app_iff. auto.
Qed.

(** ** build_tree *)
Notation keys kvs := (map (fun kv : parsed_piece * option str => piece (fst kv)) kvs).
Definition nometa (m : option (list str)) := m.
Lemma loop_ok : forall count kvs s H par dep new,
  holds H par dep s -> NoDup (addrs s) ->
  exists H' s' b,
    build_loop (put H (a_addr s) (add_count count)) (a_addr s) kvs count new
      = (H', Ok (b, snd (build (erase s) kvs count nometa new)))
    /\ holds H' par dep s' /\ step H H' s s' /\ erase s' = fst (build (erase s) kvs count nometa new)
    /\ aat s' (keys kvs) = Some b.
Proof.
  intros count kvs. induction kvs as [|[pp pat] r IH]; intros [a v p c m ks] H par dep new Hs ND.
  - cbn [build_loop erase build]. exists (put H a (add_count count)), (AT a v p (c + count) m ks), a.
    split; [reflexivity|]. apply holds_iff in Hs. destruct Hs as [(n & E & R) K].
    split; [|split; [|split; [reflexivity|reflexivity]]].
    + apply holds_iff. split.
      * exists (add_count count n). rewrite (put_same _ _ _ _ E). split; [reflexivity|]. destruct R as (R1 & R2 & R3 & R4 & R5 & R6 & R7).
        cbn. repeat (split; [congruence||exact R6|]). exact R7.
      * rewrite Forall_forall in *. intros k Hk. eapply holds_frame; [apply K; exact Hk|]. intros b Hb. apply put_other.
        intros ->. apply NoDup_cons_iff in ND. destruct ND as [ND _]. apply ND. apply in_flat_map. eauto.
    + constructor; cbn; rewrite ?put_length; auto.
      * intros b Hb Hn. apply put_other. intros ->. apply Hn. left. reflexivity.
      * intros b. split; [auto|]. intros [X|X]; [exact X|lia].
      * intros l x E'. destruct l; exact E'.
  - cbn [a_addr build_loop]. unfold add_child. pose proof Hs as Hs0. apply holds_iff in Hs. destruct Hs as [(n & E & R) K].
    destruct R as (R1 & R2 & R3 & R4 & R5 & R6 & R7).
    rewrite (get_ok _ _ _ (put_same _ _ (add_count count) _ E)).
    assert (DD : match n_children (add_count count n) with Some d => d | None => [] end = dict_of ks) by exact R6.
    rewrite DD, dict_get. cbn [erase build].
    assert (LH : forall b, In b (addrs (AT a v p c m ks)) -> b < length H) by (apply (holds_lt _ _ _ _ Hs0)).
    assert (La : a < length H) by (apply LH; left; reflexivity).
    destruct (akid (piece pp) ks) as [k|] eqn:EK; cbn [option_map].
    + destruct (akid_some _ _ _ EK) as (x & y & -> & KP & KN). cbn [addrs] in ND, LH. rewrite flat_mid in ND, LH.
      destruct (nd_mid _ _ _ _ ND) as (NDk & NDa & NDd).
      set (H1 := put (put H a (add_count count)) a (set_children (Some (dict_of (x ++ k :: y))))).
      assert (F1 : forall b, b <> a -> nth_error H1 b = nth_error H b)
        by (intros b Hb; unfold H1; rewrite !put_other by exact Hb; reflexivity).
      assert (L1 : length H1 = length H) by (unfold H1; rewrite !put_length; reflexivity).
      assert (E1 : nth_error H1 a = Some (set_children (Some (dict_of (x ++ k :: y))) (add_count count n)))
        by (unfold H1; apply put_same, put_same, E).
      rewrite Forall_app in K. destruct K as [Kx K]. apply Forall_cons_iff in K. destruct K as [Kk Ky].
      assert (Hk1 : holds H1 (Some a) (S dep) k).
      { eapply holds_frame; [exact Kk|]. intros b Hb. apply F1. intros ->. apply NDa. rewrite !in_app_iff. auto. }
      destruct (IH k H1 (Some a) (S dep) (Some false) Hk1 NDk) as (H' & k' & b & EB & Hk' & SK & ER & EA).
      exists H', (AT a v p (c + count) m (x ++ k' :: y)), b.
      rewrite (split_erase _ x k y KN KP).
      destruct (build (erase k) r count nometa (Some false)) as [tk nn] eqn:EBB. cbn [fst snd] in *.
      split; [exact EB|].
      assert (PK : a_piece k' = a_piece k) by (unfold a_piece; rewrite (st_val _ _ _ _ SK); reflexivity).
      assert (FA : nth_error H' a = nth_error H1 a).
      { apply (st_frame _ _ _ _ SK); [lia|]. intros Q. apply NDa. rewrite !in_app_iff. auto. }
      split; [|split; [|split]].
      * apply holds_iff. split.
        { exists (set_children (Some (dict_of (x ++ k :: y))) (add_count count n)). split; [congruence|]. cbn.
          repeat (split; [congruence|]). split; [|exact R7]. unfold dict_of. rewrite !map_app. cbn [map].
          rewrite PK, (st_addr _ _ _ _ SK). reflexivity. }
        { assert (FR : forall l, Forall (holds H (Some a) (S dep)) l ->
                    (forall b0, In b0 (flat_map addrs l) -> b0 <> a /\ ~ In b0 (addrs k) /\ b0 < length H) ->
                    Forall (holds H' (Some a) (S dep)) l).
          { intros l Fl Q. rewrite Forall_forall in *. intros z Hz. eapply holds_frame; [apply Fl; exact Hz|].
            intros b0 Hb0. destruct (Q b0) as (Q1 & Q2 & Q3); [apply in_flat_map; eauto|].
            rewrite (st_frame _ _ _ _ SK) by (auto; lia). apply F1. exact Q1. }
          apply Forall_app. split; [|constructor; [exact Hk'|]].
          - apply FR; [exact Kx|]. intros b0 Hb0. split; [|split].
            + intros ->. apply NDa. rewrite in_app_iff. auto.
            + intros Q. destruct (NDd b0 Q). contradiction.
            + apply LH. right. rewrite in_app_iff. auto.
          - apply FR; [exact Ky|]. intros b0 Hb0. split; [|split].
            + intros ->. apply NDa. rewrite !in_app_iff. auto.
            + intros Q. destruct (NDd b0 Q). contradiction.
            + apply LH. right. rewrite !in_app_iff. auto. }
      * pose proof (st_len _ _ _ _ SK) as SL. constructor; cbn [addrs]; rewrite ?flat_mid; try reflexivity.
        { lia. }
        { intros b0 Hb0 Hn. cbn [In] in Hn. rewrite !in_app_iff in Hn.
          rewrite (st_frame _ _ _ _ SK) by (try lia; tauto). apply F1. intros ->. tauto. }
        { intros b0. cbn [In]. rewrite !in_app_iff, (st_in _ _ _ _ SK), L1. tauto. }
        { intros _ _. apply (nd_replace a (flat_map addrs x) (addrs k) (addrs k') (flat_map addrs y) (length H)); auto.
          - apply (st_nd _ _ _ _ SK); [exact NDk|]. intros b0 Hb0. rewrite L1. apply LH. right. rewrite !in_app_iff. auto.
          - intros b0 Hb0. apply (st_in _ _ _ _ SK) in Hb0. rewrite L1 in Hb0. destruct Hb0; [auto|right; lia]. }
        { apply grows_mid; [congruence| |apply (st_grows _ _ _ _ SK)]. rewrite KP. exact KN. }
      * cbn [erase]. rewrite map_app. cbn [map]. rewrite ER. reflexivity.
      * cbn [map fst]. rewrite aat_cons. cbn [a_kids]. rewrite (akid_mid _ x k' y KN) by congruence. exact EA.
    + rewrite (split_erase_none _ _ EK). rewrite put_length.
      set (cc := length H).
      set (H1 := put (put H a (add_count count)) a (set_children (Some (dict_of ks ++ [(piece pp, cc)]))) ++ [new_node (Some a) pp pat]).
      set (k := AT cc pp pat 0 None []).
      assert (L0 : length (put (put H a (add_count count)) a (set_children (Some (dict_of ks ++ [(piece pp, cc)])))) = cc)
        by (rewrite !put_length; reflexivity).
      assert (L1 : length H1 = S cc) by (unfold H1; rewrite app_length, L0; cbn; lia).
      assert (F1 : forall b, b < cc -> b <> a -> nth_error H1 b = nth_error H b).
      { intros b Lb Hb. unfold H1. rewrite app_old by lia. rewrite !put_other by exact Hb. reflexivity. }
      assert (E1 : nth_error H1 a = Some (set_children (Some (dict_of ks ++ [(piece pp, cc)])) (add_count count n))).
      { unfold H1. rewrite app_old by lia. apply put_same, put_same, E. }
      assert (Ec : nth_error H1 cc = Some (new_node (Some a) pp pat)).
      { unfold H1. rewrite <- L0 at 2. apply app_new. }
      assert (Hk1 : holds H1 (Some a) (S dep) k).
      { apply holds_iff. split; [|constructor]. exists (new_node (Some a) pp pat). split; [exact Ec|]. cbn. auto 10. }
      assert (NDk : NoDup (addrs k)) by (cbn; repeat constructor; intros []).
      destruct (IH k H1 (Some a) (S dep) (Some true) Hk1 NDk) as (H' & k' & b & EB & Hk' & SK & ER & EA).
      cbn [a_addr erase map] in EB, ER. unfold k in EB, ER at 1. cbn [a_addr erase map] in EB, ER.
      exists H', (AT a v p (c + count) m (ks ++ [k'])), b.
      destruct (build (T pp pat 0 None []) r count nometa (Some true)) as [tk nn] eqn:EBB. cbn [fst snd] in *.
      split; [exact EB|].
      assert (PK : a_piece k' = piece pp) by (unfold a_piece; rewrite (st_val _ _ _ _ SK); reflexivity).
      assert (FA : nth_error H' a = nth_error H1 a).
      { apply (st_frame _ _ _ _ SK); [lia|]. cbn. intros [Q|[]]. lia. }
      cbn [addrs] in ND, LH. pose proof ND as ND0. apply NoDup_cons_iff in ND0. destruct ND0 as [NDa NDr].
      pose proof (st_len _ _ _ _ SK) as SL.
      split; [|split; [|split]].
      * apply holds_iff. split.
        { exists (set_children (Some (dict_of ks ++ [(piece pp, cc)])) (add_count count n)). split; [congruence|]. cbn.
          repeat (split; [congruence|]). split; [|exact R7]. unfold dict_of. rewrite !map_app. cbn [map].
          rewrite PK, (st_addr _ _ _ _ SK). reflexivity. }
        { apply Forall_app. split; [|constructor; [exact Hk'|constructor]].
          rewrite Forall_forall in *. intros z Hz. eapply holds_frame; [apply K; exact Hz|].
          intros b0 Hb0. assert (Q : In b0 (flat_map addrs ks)) by (apply in_flat_map; eauto).
          assert (Lb : b0 < cc) by (apply LH; right; exact Q).
          rewrite (st_frame _ _ _ _ SK); [|lia|cbn; intros [X|[]]; lia]. apply F1; [exact Lb|]. intros ->. contradiction. }
      * constructor; cbn [addrs]; rewrite ?flat_map_app; cbn [flat_map]; rewrite ?app_nil_r; try reflexivity.
        { lia. }
        { intros b0 Hb0 Hn. cbn [In] in Hn. fold cc in Hb0.
          rewrite (st_frame _ _ _ _ SK); [|lia|cbn; intros [X|[]]; lia]. apply F1; [exact Hb0|]. intros ->. tauto. }
        { intros b0. cbn [In]. rewrite !in_app_iff, (st_in _ _ _ _ SK), L1. cbn [addrs k flat_map In].
          split; [|intuition lia]. intros [X|[X|[[X|[]]|X]]]; auto; right; fold cc; lia. }
        { intros _ _. change (NoDup ((a :: flat_map addrs ks) ++ addrs k')). apply NoDup_app_intro; [exact ND| |].
          - apply (st_nd _ _ _ _ SK); [exact NDk|]. cbn. intros b0 [<-|[]]. lia.
          - intros b0 Hb0 Hk0. apply (st_in _ _ _ _ SK) in Hk0. cbn in Hk0. specialize (LH b0 Hb0). fold cc in LH. destruct Hk0 as [[X|[]]|X]; lia. }
        { apply grows_app. }
      * cbn [erase]. rewrite map_app. cbn [map]. rewrite ER. reflexivity.
      * cbn [map fst]. rewrite aat_cons. cbn [a_kids].
        rewrite (akid_mid _ ks k' [] (proj1 (akid_none _ _) EK)) by exact PK. exact EA.
Qed.
