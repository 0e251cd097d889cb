(** cluster() on the tree of a maker: it terminates, partitions the paths, and
    every part has one pattern that is made of groups of the runs of its paths. *)
From Coq Require Import String.
From Verif Require Import PyStr Defs ParseUtils Views Trees Cluster Spec Observe PyStrProofs DefsProofs DictProofs RegexProofs PieceProofs LengthProofs GroupProofs TreeProofs TokProofs LengthStage PieceStage EntProofs GenCluster FlatCluster ViewProofs KeyProofs TokUniq RouteProofs MultiStage OuterLevel.
From Coq Require Import Lia Permutation.

Lemma opat_good : forall s P, all_legal s -> opat s P -> good P.
Proof.
  intros s P L (gs & Ps & G & F & ->). apply good_concat. pose proof (legal_groups s gs L G) as LG. revert LG F. generalize (map cat gs). clear.
  intros l LG F. induction F as [|x q l Ps (k & K & ->) F IH]; [constructor|]. inversion LG; subst. constructor; [apply pstr_good; assumption|apply IH; assumption].
Qed.

(** the patterns of a path, position by position *)
Definition vpats (pd : nat) (ss Ps : list str) : Prop := length ss = length Ps /\
  forall l x y, nth_error ss l = Some x -> nth_error Ps l = Some y -> vpat (pd =? S l) x y.
Lemma vpats_opats : forall pd ss Ps, vpats pd ss Ps -> Forall2 opat ss Ps.
Proof.
  intros pd ss Ps [L H]. assert (F : forall (a b : list str), length a = length b -> (forall l x y, nth_error a l = Some x -> nth_error b l = Some y -> opat x y) -> Forall2 opat a b).
  { clear. induction a as [|x a IH]; intros [|y b] L H; try discriminate; constructor.
    - apply (H 0 x y); reflexivity.
    - apply IH; [cbn in L; lia|]. intros l x' y' X Y. apply (H (S l) x' y'); assumption. }
  apply F; [exact L|]. intros l x y X Y. eapply vpat_opat. apply (H l x y X Y).
Qed.

Section OC.
  Context (mcn : Z) (M2 : (2 <= mcn)%Z).
  Context (Cs : list (list str)) (CN : Cs <> []) (pd : nat) (kw : bool).
  Notation D := (length Cs).
  Notation inner := (fun (d : nat) (kw : bool) (t : tree) => cluster_n 1 mcn d d kw t).
  Definition oV (l : nat) (p : parsed_piece) : Prop :=
    match l with
    | O => p = empty_parsed_piece
    | S l => exists s, all_legal s /\ p = pp_of s /\ nth_error Cs l = Some (cset s)
    end.
  Lemma oVfun : forall l a b, oV l a -> oV l b -> piece a = piece b -> a = b.
  Proof.
    intros [|l] a b A B E; cbn [oV] in *; [congruence|].
    destruct A as (s & A1 & A2 & _), B as (t & B1 & B2 & _). subst. apply piece_inj in E; [|assumption..]. congruence.
  Qed.
  Lemma oV0 : oV 0 empty_parsed_piece.
  Proof. reflexivity. Qed.
  Lemma oV00 : forall p, oV 0 p -> piece p = [].
  Proof. intros p ->. reflexivity. Qed.
  Notation orl := (rl mcn inner D pd kw).
  Notation D1 := (FlatCluster.D1 Cs CN).

  Lemma outer_root : forall ns, level_ok oV 0 ns -> orl 0 ns = Ok [(CPiece, [], [])] /\ forall k, In k (map pn_piece ns) <-> k = [].
  Proof. intros ns H. apply (flat_root mcn M2 inner Cs pd kw ns H). Qed.
  Lemma outer_step : forall l ns, level_ok oV (S l) ns -> exists C dn, nth_error Cs l = Some C /\ orl (S l) ns = Ok dn
      /\ NoDup (map fst (pattern_map dn)) /\ (forall k, In k (map fst (pattern_map dn)) <-> In k (map pn_piece ns))
      /\ (forall k q, In (k, q) (pattern_map dn) -> exists s, all_legal s /\ cset s = C /\ k = piece (pp_of s) /\ vpat (pd =? S l) s q)
      /\ ((forall q1 q2, In q1 (map snd (pattern_map dn)) -> In q2 (map snd (pattern_map dn)) -> q1 = q2) -> (pattern_num dn <= 1)%nat)
      /\ ((zsum (map pn_cnt ns) < mcn)%Z \/ (D - S l =? 0) && kw = true -> forall k q, In (k, q) (pattern_map dn) -> q = k)
      /\ (forall q, (forall k q', In (k, q') (pattern_map dn) -> q' = q) -> tight (pd =? S l) (fun s => all_legal s /\ In (piece (pp_of s)) (map pn_piece ns)) q).
  Proof.
    intros l ns (NE & L0 & FA).
    assert (X : exists C, nth_error Cs l = Some C).
    { destruct ns as [|n ns]; [congruence|]. inversion FA as [|? ? [H1 H2] _]; subst. destruct H1 as (s & _ & _ & H1). eauto. }
    destruct X as [C HC].
    assert (FA' : Forall (fun n => (exists s, all_legal s /\ t_val (pn_tree n) = pp_of s /\ cset s = C) /\ (0 < pn_cnt n)%Z) ns).
    { eapply Forall_impl; [|exact FA]. intros n [(s & A & B & E) P]. split; [|exact P]. exists s. split; [exact A|]. split; [exact B|]. congruence. }
    destruct (outer_level mcn M2 (S l) (D - S l =? 0) (pd =? S l) kw C ns NE L0 FA') as (dn & E & P & F & G & H & TG).
    exists C, dn. split; [exact HC|]. split; [exact E|].
    assert (PM1 : map fst (pattern_map dn) = map key dn) by (unfold pattern_map; rewrite map_map; reflexivity).
    assert (PM : forall k q, In (k, q) (pattern_map dn) <-> exists e, In e dn /\ k = key e /\ q = snd e).
    { intros k q. unfold pattern_map. rewrite in_map_iff. split; [intros (e & X & I); inversion X; subst; eauto|intros (e & I & -> & ->); exists e; auto]. }
    rewrite PM1. split; [apply (Permutation_NoDup (Permutation_sym P)); apply items_NoDup|].
    split. { intros k. rewrite <- items_in. split; apply Permutation_in; [exact P|symmetry; exact P]. }
    rewrite Forall_forall in F. split; [|split; [|split]].
    - intros k q I. apply PM in I. destruct I as (e & I & -> & ->). destruct (F e I) as (i & s & I1 & I2 & I3 & I4).
      exists s. split; [apply I2|]. split; [|split; [rewrite I3; apply ist_piece; exact I2|exact I4]].
      apply items_bag in I1. destruct I1 as (_ & _ & n & I5 & I6). rewrite Forall_forall in FA'. destruct (FA' n I5) as [(s' & A & B & Q) _].
      assert (s = s') as -> by (apply (ist_fun i); [exact I2|split; [exact A|congruence]]). exact Q.
    - intros EQ. apply pattern_num_le1. intros e e' I I'. assert (Q : snd e = snd e').
      { apply EQ; unfold pattern_map; rewrite map_map; cbn [snd]; apply in_map; assumption. }
      split; [apply (G e e' I I' Q)|exact Q].
    - intros Q k q I. apply PM in I. destruct I as (e & I & -> & ->). specialize (H Q). rewrite Forall_forall in H. apply H. exact I.
    - intros q Q. apply (tight_ext _ (fun s => exists i, In i (items ns) /\ ist i s)).
      + intros s. split.
        * intros (i & I & S). split; [apply S|]. apply items_in. rewrite <- (ist_piece i s S). apply in_map. exact I.
        * intros [LS I]. apply items_in in I. apply in_map_iff in I. destruct I as (i & Ei & I). exists i. split; [exact I|].
          apply items_bag in I. destruct I as (_ & _ & n & I5 & I6). rewrite Forall_forall in FA'. destruct (FA' n I5) as [(s' & A & B & _) _].
          assert (S' : ist i s') by (split; [exact A|congruence]). rewrite (ist_piece i s' S') in Ei. apply piece_inj in Ei; [|assumption..]. subst s'. exact S'.
      + apply TG. intros e I. apply (Q (key e)). apply PM. eauto.
  Qed.

  Lemma outer_LL : forall level ns, (level <= D)%nat -> level_ok oV level ns ->
     exists dn, orl level ns = Ok dn /\ NoDup (map fst (pattern_map dn))
       /\ (forall k, In k (map fst (pattern_map dn)) <-> In k (map pn_piece ns))
       /\ Forall good (map snd (pattern_map dn))
       /\ ((forall q1 q2, In q1 (map snd (pattern_map dn)) -> In q2 (map snd (pattern_map dn)) -> q1 = q2) -> (pattern_num dn <= 1)%nat).
  Proof.
    intros [|l] ns LE OK.
    - destruct (outer_root ns OK) as [E K]. eexists. split; [exact E|]. cbn. split; [constructor; [intros []|constructor]|].
      split; [intros k; rewrite K; split; [intros [<-|[]]; reflexivity|intros ->; left; reflexivity]|].
      split; [constructor; [exact good_nil|constructor]|]. intros. lia.
    - destruct (outer_step l ns OK) as (C & dn & HC & E & ND & K & O & PN & _ & _). exists dn. split; [exact E|]. split; [exact ND|]. split; [exact K|].
      split; [|exact PN]. apply Forall_forall. intros q I. apply in_map_iff in I. destruct I as ([k q'] & <- & I). destruct (O k q' I) as (s & L & _ & _ & OP).
      eapply opat_good; [exact L|eapply vpat_opat; exact OP].
  Qed.

  (** a meta as it is stored: None or a set *)
  Definition meta_sorted (m : option (list str)) : Prop := update_meta m None = m.
  Lemma meta_sorted_id : forall m, meta_sorted m -> update_meta m None = m.
  Proof. intros m H. exact H. Qed.

  (** the texts of an entry *)
  Definition ostrs (e : entry) (ss : list str) : Prop := e_path e = map pp_of ss /\ Forall all_legal ss /\ map cset ss = Cs.
  Lemma ents_ostrs : forall t, tok oV D 0 t -> forall e, In e (ents t) -> exists ss, ostrs e ss.
  Proof.
    intros t W e I. pose proof (ents_vals oV D 0 t W) as EV. rewrite Forall_forall in EV. specialize (EV e I).
    assert (G : forall n k path, Forall2 (fun P v => P v) (levels oV (S n) k) path -> (n + k = D)%nat ->
       exists ss, path = map pp_of ss /\ Forall all_legal ss /\ map cset ss = skipn n Cs).
    { intros n k. revert n. induction k as [|k IH]; intros n path F L.
      - inversion F; subst. exists []. split; [reflexivity|]. split; [constructor|]. rewrite skipn_all2 by lia. reflexivity.
      - unfold levels in F. cbn [seq map] in F. inversion F as [|? v ? path' Hv F']; subst. destruct Hv as (s & S1 & S2 & S3).
        destruct (IH (S n) path' F') as (ss & A & B & C); [lia|]. exists (s :: ss). cbn [map]. rewrite A, S2. split; [reflexivity|].
        split; [constructor; assumption|]. rewrite C. clear - S3. revert n S3. induction Cs as [|c l IH]; intros [|n] H; try discriminate.
        + cbn in H. inversion H. reflexivity.
        + cbn [nth_error] in H. cbn [skipn]. apply IH in H. exact H. }
    destruct (G 0 D (e_path e) EV eq_refl) as (ss & A & B & C). exists ss. split; [exact A|]. split; [exact B|exact C].
  Qed.
  Lemma ostrs_pieces : forall e ss, ostrs e ss -> e_pieces e = map (fun s => piece (pp_of s)) ss.
  Proof. intros e ss (E & _). unfold e_pieces. rewrite E, map_map. reflexivity. Qed.

  (** a part with its patterns (without the root's) *)
  Definition opart (t : tree) (Ps : list str) : Prop :=
    length Ps = D /\ (forall nodes, In nodes (paths t) -> map t_pattern (tl nodes) = Ps)
    /\ (forall e ss, In e (ents t) -> ostrs e ss -> vpats pd ss Ps)
    /\ ((t_cnt t < mcn)%Z -> forall e, In e (ents t) -> Ps = e_pieces e)
    /\ (forall l q, nth_error Ps l = Some q -> tight (pd =? S l) (fun s => exists e ss, In e (ents t) /\ ostrs e ss /\ nth_error ss l = Some s) q).

  Lemma settled_opart : forall t, tok oV D 0 t -> settled mcn inner oV D pd kw t -> exists Ps, opart t Ps.
  Proof.
    intros t W (t0 & p & W0 & PS & CS & ->).
    pose proof (can_split_uniform mcn inner oV D pd kw D1 good outer_LL D 0 (ns0 t0) p eq_refl PS CS) as UNI.
    destruct (ents t0) as [|e0 r0] eqn:E0; [exfalso; exact (ents_nonnil _ E0)|].
    assert (I0 : In e0 (ents t0)) by (rewrite E0; left; reflexivity). clear r0 E0.
    pose proof (under_ent oV oV00 D t0 e0 W0 I0) as U0.
    assert (ALL : forall e, In e (ents (annotate p t0)) -> pt_path p ([] :: e_pieces e) = pt_path p ([] :: e_pieces e0)).
    { intros e I. rewrite annotate_ents in I. apply UNI; [apply (under_ent oV oV00 D t0 e W0 I)|exact U0]. }
    destruct (pt_path_ok mcn inner oV D pd kw D1 good outer_LL D 0 (ns0 t0) p _ eq_refl PS U0) as [LEN _].
    set (Q := pt_path p ([] :: e_pieces e0)) in *.
    assert (LQ : length (tl Q) = D) by (destruct Q; cbn in *; [discriminate|lia]).
    assert (LV : forall l e ss, (l < D)%nat -> In e (ents (annotate p t0)) -> ostrs e ss -> exists s q, nth_error ss l = Some s /\ nth_error (tl Q) l = Some q
      /\ vpat (pd =? S l) s q /\ ((t_cnt t0 < mcn)%Z -> q = piece (pp_of s))).
    { intros l e ss Hl I ES. rewrite annotate_ents in I.
      destruct (uniform_levels mcn inner oV D pd kw D1 good outer_LL D 0 (ns0 t0) p eq_refl PS CS (S l) ltac:(lia)) as (nsj & dn & q & LO & RL & KK & KD & KP & SUM).
      cbn [Nat.add] in *. destruct (outer_step l nsj LO) as (C & dn' & HC & RL' & ND & K & O & PN & SM & _).
      rewrite RL in RL'. inversion RL'; subst dn'. clear RL'.
      assert (LS : length ss = D) by (destruct ES as (_ & _ & ES); rewrite <- ES; rewrite map_length; reflexivity).
      destruct (nth_error ss l) as [s|] eqn:NS; [|apply nth_error_None in NS; lia]. exists s, q. split; [reflexivity|].
      split. { specialize (KP _ U0). fold Q in KP. destruct Q; [discriminate|]. exact KP. }
      assert (IK : In (piece (pp_of s)) (map pn_piece nsj)).
      { apply KK. exists ([] :: e_pieces e). split; [apply (under_ent oV oV00 D t0 e W0 I)|]. cbn [nth_error]. rewrite (ostrs_pieces _ _ ES), nth_error_map, NS. reflexivity. }
      pose proof (KD _ IK) as G. apply (dget_some_in str_eqb str_eqb_iff) in G. destruct (O _ _ G) as (s' & L' & _ & EQ & OP).
      assert (LG : all_legal s). { destruct ES as (_ & ES & _). rewrite Forall_forall in ES. apply ES. eapply nth_error_In; exact NS. }
      apply piece_inj in EQ; [|assumption..]. subst s'. split; [exact OP|]. intros SMALL. assert (EQ0 : zsum (map pn_cnt (ns0 t0)) = t_cnt t0) by (unfold zsum, ns0, pn_cnt; cbn [map fold_right pn_tree]; apply Z.add_0_r). rewrite EQ0 in SUM. apply (SM (or_introl (Z.le_lt_trans _ _ _ SUM SMALL)) _ _ G). }
    exists (tl Q). split; [exact LQ|]. split; [|split; [|split]].
    - intros nodes I. pose proof (annotate_root mcn inner oV oV00 D pd kw D1 good outer_LL t0 p W0 PS nodes I) as E.
      rewrite (ALL (ent nodes)) in E by (apply in_map; exact I). rewrite <- E. destruct nodes; reflexivity.
    - intros e ss I ES. assert (LS : length ss = D) by (destruct ES as (_ & _ & ES); rewrite <- ES; rewrite map_length; reflexivity).
      split; [congruence|]. intros l x y X Y. assert (Hl : (l < D)%nat) by (rewrite <- LS; apply nth_error_Some; congruence).
      destruct (LV l e ss Hl I ES) as (s & q & A & B & G & _). congruence.
    - intros SMALL e I. rewrite annotate_cnt in SMALL. destruct (ents_ostrs _ W e I) as (ss & ES).
      assert (LS : length ss = D) by (destruct ES as (_ & _ & ES); rewrite <- ES; rewrite map_length; reflexivity).
      rewrite (ostrs_pieces e ss ES). assert (F : forall (a b : list str), length a = length b -> (forall l x y, nth_error a l = Some x -> nth_error b l = Some y -> x = y) -> a = b).
      { clear. induction a as [|x a IH]; intros [|y b] L H; try discriminate; [reflexivity|]. f_equal.
        - apply (H 0 x y); reflexivity.
        - apply IH; [cbn in L; lia|]. intros l x' y' X Y. apply (H (S l) x' y'); assumption. }
      apply F; [rewrite map_length; congruence|]. intros l x y X Y. assert (Hl : (l < D)%nat) by (rewrite <- LQ; apply nth_error_Some; congruence).
      destruct (LV l e ss Hl I ES) as (s & q & A & B & _ & G). rewrite nth_error_map, A in Y. cbn [option_map] in Y. specialize (G SMALL). congruence.
    - intros l q NQ. assert (Hl : (l < D)%nat) by (rewrite <- LQ; apply nth_error_Some; congruence).
      destruct (uniform_levels mcn inner oV D pd kw D1 good outer_LL D 0 (ns0 t0) p eq_refl PS CS (S l) ltac:(lia)) as (nsj & dn & q0 & LO & RL & KK & KD & KP & _).
      cbn [Nat.add] in *. destruct (outer_step l nsj LO) as (C & dn' & HC & RL' & ND & K & O & PN & _ & TG).
      rewrite RL in RL'. inversion RL'; subst dn'. clear RL'.
      assert (q0 = q) as ->. { specialize (KP _ U0). fold Q in KP. destruct Q; [discriminate|]. cbn [nth_error tl] in KP, NQ. congruence. }
      apply (tight_ext _ (fun s => all_legal s /\ In (piece (pp_of s)) (map pn_piece nsj))).
      + intros s. rewrite annotate_ents. rewrite annotate_ents in ALL. split.
        * intros [LS I]. apply KK in I. destruct I as (ks & I1 & I2). destruct (under_ent_inv oV oV00 D t0 ks W0 I1) as (e & Ie & ->).
          destruct (ents_ostrs t0 W0 e Ie) as (ss & ES). exists e, ss. split; [exact Ie|]. split; [exact ES|].
          cbn [nth_error] in I2. rewrite (ostrs_pieces _ _ ES), nth_error_map in I2. destruct (nth_error ss l) as [s'|] eqn:NS; [|discriminate]. cbn [option_map] in I2.
          inversion I2 as [I3]. apply piece_inj in I3; [congruence| |exact LS]. destruct ES as (_ & ES & _). rewrite Forall_forall in ES. apply ES. eapply nth_error_In; exact NS.
        * intros (e & ss & Ie & ES & NS). split; [destruct ES as (_ & ES & _); rewrite Forall_forall in ES; apply ES; eapply nth_error_In; exact NS|].
          apply KK. exists ([] :: e_pieces e). split; [apply (under_ent oV oV00 D t0 e W0 Ie)|]. cbn [nth_error]. rewrite (ostrs_pieces _ _ ES), nth_error_map, NS. reflexivity.
      + apply TG. intros k q' I. assert (IK : In k (map pn_piece nsj)) by (apply K; apply in_map_iff; exists (k, q'); auto).
        pose proof (KD k IK) as X. rewrite (dget_in str_eqb str_eqb_iff _ _ _ ND I) in X. congruence.
  Qed.

  Lemma outer_cluster : forall t, tok oV D 0 t -> t_val t = empty_parsed_piece -> Forall (fun e => meta_sorted (e_meta e)) (ents t) ->
    exists tps, cluster_n 2 mcn D pd kw t = Ok (map fst tps)
      /\ Permutation (flat_map ents (map fst tps)) (ents t)
      /\ Forall (fun tp => tok oV D 0 (fst tp) /\ t_val (fst tp) = empty_parsed_piece /\ opart (fst tp) (snd tp)) tps.
  Proof.
    intros t W TV MO.
    destruct (loop_ok mcn inner oV oVfun oV0 oV00 D pd kw D1 good good_join outer_LL meta_sorted meta_sorted_id (S (length (paths t))) t ltac:(lia) W TV MO) as (ts & E & P & F & _).
    assert (X : exists Pss, Forall2 (fun t Ps => tok oV D 0 t /\ t_val t = empty_parsed_piece /\ opart t Ps) ts Pss).
    { clear - F M2 CN. induction F as [|t ts (A & B & C) F (Pss & IH)]; [exists []; constructor|]. destruct (settled_opart t A B) as (Ps & X).
      exists (Ps :: Pss). constructor; auto. }
    destruct X as [Pss X]. exists (combine ts Pss).
    assert (MF : map fst (combine ts Pss) = ts). { clear - X. induction X as [|t p ts Pss H X IH]; [reflexivity|]. cbn [combine map fst]. rewrite IH. reflexivity. }
    rewrite MF. split; [exact E|]. split; [exact P|].
    clear - X. induction X as [|t Ps ts Pss H X IH]; [constructor|]. cbn [combine]. constructor; assumption.
  Qed.
End OC.
