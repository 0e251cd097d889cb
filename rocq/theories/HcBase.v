(** make() on the nodes as objects: programs, heaps, and what it means that a loop over
    cluster() works. *)
From Coq Require Import String.
From Verif Require Import PyStr Defs UrlLib ParseUtils Views Trees Cluster Patterns Matcher Maker Heap HeapSpec HCluster
  PyStrProofs DefsProofs TreeProofs DictProofs LoadProofs HeapProofs HeapLoad HeapState GroupProofs.
From Coq Require Import Lia Permutation.

(** ** Programs *)
Lemma then_ok : forall X A B (m : prog X A) (f : A -> prog X B) s s1 a, m s = (s1, Ok a) -> andthen m f s = f a s1.
Proof. intros X A B m f s s1 a E. unfold andthen. rewrite E. reflexivity. Qed.
Lemma each_cons : forall X A (x : A) l (body : A -> prog X unit) s s1, body x s = (s1, Ok tt) ->
  each (x :: l) body s = each l body s1.
Proof. intros X A x l body s s1 E. simpl. rewrite (then_ok _ _ _ _ _ _ _ _ E). reflexivity. Qed.
Lemma each_app : forall X A (l1 l2 : list A) (body : A -> prog X unit) s s1, each l1 body s = (s1, Ok tt) ->
  each (l1 ++ l2) body s = each l2 body s1.
Proof.
  intros X A. induction l1 as [|x l IH]; intros l2 body s s1 E; cbn [app each] in *.
  - inversion E. reflexivity.
  - unfold andthen in *. destruct (body x s) as [s2 [[]|e]]; [|discriminate]. apply IH; auto.
Qed.
Lemma on_heap_ok : forall X A (m : prog heap A) H (x : X) H1 r, m H = (H1, r) -> on_heap m (H, x) = ((H1, x), r).
Proof. intros X A m H x H1 r E. unfold on_heap. cbn. rewrite E. reflexivity. Qed.

(** ** Heaps *)
Definition agree (P : addr -> Prop) (H H' : heap) : Prop :=
  length H <= length H' /\ forall a, P a -> a < length H -> nth_error H' a = nth_error H a.
Lemma agree_refl : forall P H, agree P H H.
Proof. intros P H. split; auto. Qed.
Lemma agree_trans : forall P H1 H2 H3, agree P H1 H2 -> agree P H2 H3 -> agree P H1 H3.
Proof. intros P H1 H2 H3 [L1 A1] [L2 A2]. split; [lia|]. intros a Pa L. rewrite A2, A1; auto. lia. Qed.
Lemma agree_weak : forall (P Q : addr -> Prop) H H', (forall a, Q a -> P a) -> agree P H H' -> agree Q H H'.
Proof. intros P Q H H' I [L A]. split; auto. Qed.
Lemma holds_agree : forall s H H' par dep P, holds H par dep s -> agree P H H' -> (forall a, In a (addrs s) -> P a) -> holds H' par dep s.
Proof.
  intros s H H' par dep P Ho [L A] I. apply (holds_frame s H H' par dep Ho). intros a Ia. apply A; auto.
  exact (holds_lt s H par dep Ho a Ia).
Qed.
Lemma put_out : forall H a f, length H <= a -> put H a f = H.
Proof. induction H as [|n H IH]; intros [|a] f L; simpl in *; try reflexivity; [lia|]. rewrite IH by lia. reflexivity. Qed.
Lemma holds_app : forall s H l par dep, holds H par dep s -> holds (H ++ l) par dep s.
Proof.
  intros s H l par dep Ho. apply (holds_frame s H (H ++ l) par dep Ho). intros a Ia.
  apply app_old. exact (holds_lt s H par dep Ho a Ia).
Qed.

(** all nodes have a pattern *)
Fixpoint full (s : atree) : Prop :=
  let '(AT _ _ p _ _ ks) := s in p <> None /\ (fix all (l : list atree) : Prop := match l with [] => True | k :: r => full k /\ all r end) ks.
Lemma full_iff : forall a v p c m ks, full (AT a v p c m ks) <-> p <> None /\ Forall full ks.
Proof.
  intros a v p c m ks. simpl. split; intros [A B]; (split; [exact A|]); clear A; induction ks as [|k r IH].
  - constructor.
  - destruct B as [B1 B2]. constructor; [exact B1|exact (IH B2)].
  - exact Logic.I.
  - inversion B as [|x l B1 B2]; subst. split; [exact B1|exact (IH B2)].
Qed.
Definition a_cnt (s : atree) : Z := let '(AT _ _ _ c _ _) := s in c.
Definition a_pat (s : atree) : option str := let '(AT _ _ p _ _ _) := s in p.
Definition a_meta (s : atree) : option (list str) := let '(AT _ _ _ _ m _) := s in m.
Lemma holds_node : forall s H par dep, holds H par dep s -> exists n, nth_error H (a_addr s) = Some n /\ n_parent n = par
  /\ n_value n = a_val s /\ n_pattern n = a_pat s /\ n_count n = a_cnt s /\ n_meta n = a_meta s /\ kids_of n = dict_of (a_kids s).
Proof.
  intros [a v p c m ks] H par dep Ho. apply holds_iff in Ho. destruct Ho as [(n & A & B & C & D & E & F & G & _) _].
  exists n. cbn. repeat split; auto.
Qed.
Lemma holds_kids : forall s H par dep, holds H par dep s -> Forall (holds H (Some (a_addr s)) (Datatypes.S dep)) (a_kids s).
Proof. intros [a v p c m ks] H par dep Ho. apply holds_iff in Ho. exact (proj2 Ho). Qed.
Lemma erase_cnt : forall s, t_cnt (erase s) = a_cnt s. Proof. intros [a v p c m ks]. reflexivity. Qed.
Lemma erase_val : forall s, t_val (erase s) = a_val s. Proof. intros [a v p c m ks]. reflexivity. Qed.
Lemma erase_kids : forall s, t_kids (erase s) = map erase (a_kids s). Proof. intros [a v p c m ks]. reflexivity. Qed.
Lemma erase_pat : forall s, t_pat (erase s) = a_pat s. Proof. intros [a v p c m ks]. reflexivity. Qed.
Lemma erase_meta : forall s, t_meta (erase s) = a_meta s. Proof. intros [a v p c m ks]. reflexivity. Qed.

(** The loop [run body] over the results [ts] of cluster() on the tree [s]: [J] holds of the
    part [F] of the nodes, the results so far, the nodes and the attributes of the one who
    runs the loop. *)
Definition yields {X} (run : (addr -> prog (heap * X) unit) -> prog (heap * X) unit) (s : atree) (ts : list tree) : Prop :=
  forall (body : addr -> prog (heap * X) unit) (J : (addr -> Prop) -> list tree -> heap -> X -> Prop) (TS l0 r0 : list tree) F H st,
  TS = l0 ++ ts ++ r0 ->
  (forall F l H H' st, J F l H st -> agree F H H' -> J F l H' st) ->
  (forall F l H st, J F l H st -> forall a, F a -> a < length H) ->
  (forall F l H st x r, J F l H st -> TS = l ++ erase x :: r -> holds H None 0 x -> full x -> NoDup (addrs x) ->
     (forall a, In a (addrs x) -> ~ F a) ->
     exists F' H' st', body (a_addr x) (H, st) = ((H', st'), Ok tt) /\ J F' (l ++ [erase x]) H' st'
       /\ agree (fun a => ~ F a) H H' /\ (forall a, F' a -> F a \/ In a (addrs x) \/ length H <= a)) ->
  J F l0 H st -> holds H None 0 s -> NoDup (addrs s) -> (forall a, In a (addrs s) -> ~ F a) ->
  exists F' H' st', run body (H, st) = ((H', st'), Ok tt) /\ J F' (l0 ++ ts) H' st'
    /\ agree (fun a => ~ F a /\ ~ In a (addrs s)) H H' /\ (forall a, F' a -> F a \/ In a (addrs s) \/ length H <= a).

(** ** Nodes of a level, with their references *)
Record anode := AN { an_par : option (list str * addr * Z); an_id : list str; an_t : atree }.
Definition an_addr (x : anode) : addr := a_addr (an_t x).
Definition an_piece (x : anode) : str := a_piece (an_t x).
Definition an_cnt (x : anode) : Z := a_cnt (an_t x).
Definition an_up (x : anode) : option addr := option_map (fun t => snd (fst t)) (an_par x).
(** as Cluster.v has it *)
Definition er (x : anode) : pnode :=
  PN (option_map (fun t => (fst (fst t), snd t)) (an_par x)) (an_id x) (erase (an_t x)).
Lemma er_piece : forall x, pn_piece (er x) = an_piece x.
Proof. intros x. unfold pn_piece, er. cbn. apply erase_piece. Qed.
Lemma er_cnt : forall x, pn_cnt (er x) = an_cnt x.
Proof. intros x. unfold pn_cnt, er. cbn. apply erase_cnt. Qed.
Definition an_kids (x : anode) : list anode :=
  map (fun k => AN (Some (an_id x, an_addr x, an_cnt x)) (an_id x ++ [a_piece k]) k) (a_kids (an_t x)).
Lemma er_kids : forall x, pn_kids (er x) = map er (an_kids x).
Proof.
  intros x. unfold pn_kids, an_kids, er. cbn. rewrite erase_kids, !map_map. apply map_ext. intros k. cbn.
  unfold pn_cnt. cbn. rewrite erase_cnt, erase_piece. reflexivity.
Qed.

(** dicts whose values are mapped *)
Section DMap.
  Context {K V W : Type} (eqb : K -> K -> bool) (f : V -> W).
  Definition onv (x : K * V) : K * W := (fst x, f (snd x)).
  Lemma dget_onv : forall k d, dget eqb k (map onv d) = option_map f (dget eqb k d).
  Proof. intros k. induction d as [|[k' v] d IH]; [reflexivity|]. cbn. destruct (eqb k k'); [reflexivity|exact IH]. Qed.
  Lemma dset_onv : forall k v d, dset eqb k (f v) (map onv d) = map onv (dset eqb k v d).
  Proof.
    intros k v. induction d as [|[k' v'] d IH]; [reflexivity|]. cbn. destruct (eqb k k'); [reflexivity|].
    cbn. rewrite IH. reflexivity.
  Qed.
  Lemma onv_keys : forall d, map fst (map onv d) = map fst d.
  Proof. intros d. rewrite map_map. reflexivity. Qed.
End DMap.
Lemma dset_in : forall K V (eqb : K -> K -> bool) (E : forall a b, eqb a b = true <-> a = b) k (v : V) d x,
  NoDup (map fst d) -> In x (dset eqb k v d) -> (x = (k, v)) \/ (fst x <> k /\ In x d).
Proof.
  intros K V eqb E k v. induction d as [|[k' v'] d IH]; intros x ND I; cbn in I.
  - destruct I as [<-|[]]. left. reflexivity.
  - inversion ND as [|a b Hn Hd]; subst. destruct (eqb k k') eqn:Ek.
    + apply E in Ek. subst k'. destruct I as [<-|I]; [left; reflexivity|]. right. split; [|right; exact I].
      intros Ex. apply Hn. rewrite <- Ex. apply in_map. exact I.
    + destruct I as [<-|I].
      * right. split; [|left; reflexivity]. cbn. intros ->. assert (eqb k k = true) by (apply E; reflexivity). congruence.
      * destruct (IH x Hd I) as [->|[A B]]; [left; reflexivity|]. right. split; [exact A|right; exact B].
Qed.
Lemma dset_same_in : forall K V (eqb : K -> K -> bool) (E : forall a b, eqb a b = true <-> a = b) k (v : V) d,
  In (k, v) (dset eqb k v d).
Proof. intros. apply (dget_some_in eqb E). apply (dget_dset_same eqb E). Qed.

(** *** writes *)
(** the last pattern that a trace of writes gives to a piece *)
Fixpoint wr (W : list (str * str)) (k : str) : option str :=
  match W with
  | [] => None
  | (k', p) :: r => match wr r k with Some q => Some q | None => if str_eqb k k' then Some p else None end
  end.
Lemma wr_app : forall W V k, wr (W ++ V) k = match wr V k with Some q => Some q | None => wr W k end.
Proof.
  induction W as [|[k' p] W IH]; intros V k; [cbn; destruct (wr V k); reflexivity|].
  cbn. rewrite IH. destruct (wr V k); [reflexivity|]. reflexivity.
Qed.
Lemma wr_none : forall W k, ~ In k (map fst W) -> wr W k = None.
Proof.
  induction W as [|[k' p] W IH]; intros k N; [reflexivity|]. cbn in *. rewrite IH by tauto.
  destruct (str_eqb k k') eqn:E; [|reflexivity]. apply str_eqb_iff in E. subst. tauto.
Qed.
Lemma wr_in : forall W k p, NoDup (map fst W) -> In (k, p) W -> wr W k = Some p.
Proof.
  induction W as [|[k' q] W IH]; intros k p ND I; [destruct I|]. cbn in *. inversion ND as [|a b Hn Hd]; subst.
  destruct I as [E|I].
  - inversion E; subst. rewrite (wr_none W k Hn). rewrite (proj2 (str_eqb_iff k k) eq_refl). reflexivity.
  - rewrite (IH k p Hd I). reflexivity.
Qed.
Lemma wr_const : forall ks p k, In k ks -> wr (map (fun k => (k, p)) ks) k = Some p.
Proof.
  induction ks as [|x ks IH]; intros p k I; [destruct I|]. cbn. destruct (wr (map (fun k => (k, p)) ks) k) eqn:E.
  - destruct (in_dec str_dec k ks) as [J|J]; [rewrite (IH p k J) in E; congruence|].
    rewrite wr_none in E; [discriminate|]. rewrite map_map. cbn. rewrite map_id. exact J.
  - destruct I as [->|I]; [rewrite (proj2 (str_eqb_iff k k) eq_refl); reflexivity|]. rewrite (IH p k I) in E. discriminate.
Qed.
Definition wn (o : option str) (n : node) : node := match o with Some p => set_npat (Some p) n | None => n end.
Lemma wn_wn : forall o p n, wn (Some p) (wn o n) = wn (Some p) n.
Proof. intros [q|] p n; reflexivity. Qed.
