(** The clusters of URLs that differ at one position (C52). *)
From Coq Require Import String.
From Verif Require Import PyStr Defs UrlLib ParseUtils Views Trees Cluster Spec Patterns Matcher Maker Observe MatchSpec OneSpec PyStrProofs DefsProofs DictProofs RegexProofs PieceProofs LengthProofs BridgeProofs GroupProofs TreeProofs TokProofs LengthStage PieceStage EntProofs GenCluster FlatCluster OuterCluster AnyOuter OneLevel OneTree.
From Coq Require Import Lia Permutation.

Lemma filter_true : forall A (f : A -> bool) l, (forall x, In x l -> f x = true) -> filter f l = l.
Proof. intros A f l. induction l as [|x l IH]; intros H; [reflexivity|]. cbn [filter]. rewrite (H x (or_introl eq_refl)). f_equal. apply IH. intros y Y. apply H. right. exact Y. Qed.
(** *** a part alone gets the pattern it had *)
Section Stable.
  Context (mcn : Z) (M2 : (2 <= mcn)%Z) (r : str).
  Notation W ss s := (pstr s (okind mcn ss s)).
  Lemma filter_one : forall (f : str -> bool) ss s, NoDup ss -> In s ss -> (forall t, In t ss -> f t = true <-> t = s) -> filter f ss = [s].
  Proof.
    intros f ss s ND. induction ND as [|x l N ND IH]; intros I H; [destruct I|]. cbn [filter]. destruct (str_dec x s) as [->|NE].
    - rewrite (proj2 (H s (or_introl eq_refl)) eq_refl). f_equal. clear IH I. induction l as [|y l IHl]; [reflexivity|]. cbn [filter]. destruct (f y) eqn:E.
      + exfalso. apply N. left. apply H; [right; left; reflexivity|exact E].
      + apply IHl; [intros X; apply N; right; exact X|inversion ND; assumption|]. intros t [->|T]; apply H; [left; reflexivity|right; right; exact T].
    - destruct I as [E|I]; [congruence|]. destruct (f x) eqn:E; [exfalso; apply NE; apply H; [left; reflexivity|exact E]|]. apply IH; [exact I|]. intros t T. apply H. right. exact T.
  Qed.
  Lemma of_length_in : forall n (ss : list str) s, In s (of_length n ss) <-> In s ss /\ length s = n.
  Proof. intros n ss s. unfold of_length. rewrite filter_In, Nat.eqb_eq. reflexivity. Qed.
  Lemma of_length_all : forall n (ss : list str), (forall s, In s ss -> length s = n) -> of_length n ss = ss.
  Proof.
    intros n ss H. unfold of_length. induction ss as [|s ss IH]; [reflexivity|]. cbn [filter]. rewrite (proj2 (Nat.eqb_eq _ _) (H s (or_introl eq_refl))). f_equal. apply IH. intros t T. apply H. right. exact T.
  Qed.
  Lemma uniform_spec : forall n (ss : list str) s, (forall t, In t ss -> length t = n) -> In s ss -> (mcn <= Z.of_nat (length ss))%Z -> okind mcn ss s = KSpec.
  Proof.
    intros n ss s H I L. unfold okind. rewrite (proj2 (Z.ltb_ge _ _) L). unfold mixb.
    assert (A : length (lengths ss) <= 1). { change 1 with (length [n]). apply NoDup_incl_length; [apply NoDup_nodup|]. intros x X. apply in_lengths in X. destruct X as (t & T & <-). left. symmetry. apply H. exact T. }
    destruct (Z.leb_spec mcn (Z.of_nat (length (lengths ss)))); [lia|]. cbn [orb].
    destruct (largest_in ss) as (t & T & ->); [intros ->; destruct I|]. rewrite (H t T), (of_length_all n ss H), confused_self by exact M2. rewrite (H s I), (of_length_all n ss H). rewrite (proj2 (Z.leb_le _ _) L). reflexivity.
  Qed.
  Lemma two_of : forall (l : list str) s, NoDup l -> In s l -> 2 <= length l -> exists t, In t l /\ t <> s.
  Proof.
    intros l s ND I L. destruct l as [|a [|b l]]; cbn [length] in L; try lia. destruct (str_dec a s) as [->|N]; [|exists a; split; [left; reflexivity|exact N]]. exists b. split; [right; left; reflexivity|]. inversion ND as [|? ? X _]; subst. intros ->. apply X. left. reflexivity.
  Qed.
  Lemma okind_kok : forall ss s, NoDup ss -> Forall (one_sp r) ss -> In s ss -> kok s (okind mcn ss s).
  Proof.
    intros ss s ND ON I. unfold okind. rewrite Forall_forall in ON. pose proof (ON s I) as [NS _]. destruct (Z.of_nat (length ss) <? mcn)%Z; [exact Logic.I|]. destruct (mixb mcn ss); [exact NS|].
    destruct (Z.leb_spec mcn (Z.of_nat (length (of_length (length s) ss)))) as [L|L]; [|exact Logic.I]. split; [exact NS|]. destruct (two_of (of_length (length s) ss) s) as (t & T & NE).
    - unfold of_length. apply NoDup_filter. exact ND. - apply of_length_in. auto. - lia.
    - apply of_length_in in T. destruct T as [T LT]. exists t. split; [eapply one_legal; apply ON; exact T|]. split; [exact NE|]. rewrite (one_cset r t (ON t T)), (one_cset r s (ON s I)). split; [reflexivity|].
      apply N2Z.inj. rewrite (one_pl r t (ON t T)), (one_pl r s (ON s I)), LT. reflexivity.
  Qed.
  Lemma stable : forall ss q s, NoDup ss -> Forall (one_sp r) ss -> In s ss -> W ss s = q -> W (filter (fun t => str_eqb (W ss t) q) ss) s = q.
  Proof.
    intros ss q s ND ON I E. pose proof ON as ON'. rewrite Forall_forall in ON'. assert (LG : forall t, In t ss -> all_legal t) by (intros t T; eapply one_legal; apply ON'; exact T).
    assert (ALONE : okind mcn ss s = KLit -> (forall t, In t ss -> W ss t = q -> t = s) -> W (filter (fun t => str_eqb (W ss t) q) ss) s = q).
    { intros K H. rewrite (filter_one _ ss s ND I).
      - unfold okind at 1. cbn [length]. rewrite (proj2 (Z.ltb_lt (Z.of_nat 1) mcn)) by lia. rewrite <- E, K. reflexivity.
      - intros t T. rewrite str_eqb_eq. split; [apply H; exact T|]. intros ->. exact E. }
    assert (LIT : okind mcn ss s = KLit -> W (filter (fun t => str_eqb (W ss t) q) ss) s = q).
    { intros K. apply ALONE; [exact K|]. intros t T ET. rewrite <- E, K in ET. change (pstr s KLit) with (piece (pp_of s)) in ET. symmetry in ET. apply lit_vs_class in ET; [congruence| | |].
      - apply LG. exact I. - apply LG. exact T. - apply okind_kok; assumption. }
    destruct (okind mcn ss s) eqn:K; [apply LIT; reflexivity| |].
    - assert (F : filter (fun t => str_eqb (W ss t) q) ss = of_length (length s) ss).
      { unfold of_length. apply filter_ext_in. intros t T. destruct (Nat.eqb_spec (length t) (length s)) as [L|L].
        - apply str_eqb_eq. rewrite <- E. assert (KT : okind mcn ss t = KSpec). { rewrite <- K. unfold okind. rewrite L. reflexivity. } rewrite KT. cbn [pstr]. rewrite (one_cset r t (ON' t T)), (one_cset r s (ON' s I)).
          do 2 f_equal. apply N2Z.inj. rewrite (one_pl r t (ON' t T)), (one_pl r s (ON' s I)), L. reflexivity.
        - destruct (str_eqb_spec (W ss t) q) as [X|X]; [|reflexivity]. exfalso. apply L. rewrite <- E in X. destruct (okind mcn ss t) eqn:KT.
          + change (pstr t KLit) with (piece (pp_of t)) in X. apply lit_vs_class in X; [congruence|apply LG; exact T|apply LG; exact I|]. rewrite <- K. apply okind_kok; assumption.
          + apply pstr_class_inj in X; [|apply LG; assumption|apply LG; assumption|rewrite <- KT; apply okind_kok; assumption|rewrite <- K; apply okind_kok; assumption|discriminate|discriminate]. destruct X as (_ & _ & X). specialize (X eq_refl).
            apply (f_equal Z.of_N) in X. rewrite (one_pl r t (ON' t T)), (one_pl r s (ON' s I)) in X. lia.
          + exfalso. clear - K KT. unfold okind in K, KT. destruct (Z.of_nat (length ss) <? mcn)%Z; [discriminate|]. destruct (mixb mcn ss); [discriminate|]. destruct (mcn <=? Z.of_nat (length (of_length (length t) ss)))%Z; discriminate. }
      rewrite F. rewrite (uniform_spec (length s)); [exact E| | |].
      + intros t T. apply of_length_in in T. apply T. + apply of_length_in. auto.
      + unfold okind in K. destruct (Z.of_nat (length ss) <? mcn)%Z; [discriminate|]. destruct (mixb mcn ss); [discriminate|]. destruct (Z.leb_spec mcn (Z.of_nat (length (of_length (length s) ss)))); [assumption|discriminate].
    - assert (F : filter (fun t => str_eqb (W ss t) q) ss = ss).
      { assert (X : forall t, In t ss -> str_eqb (W ss t) q = true). { intros t T. apply str_eqb_eq. rewrite <- E. assert (KT : okind mcn ss t = KWild). { clear - K. unfold okind in *. destruct (Z.of_nat (length ss) <? mcn)%Z; [discriminate|]. destruct (mixb mcn ss); [reflexivity|]. destruct (mcn <=? Z.of_nat (length (of_length (length s) ss)))%Z; discriminate. }
          rewrite KT. cbn [pstr]. rewrite (one_cset r t (ON' t T)), (one_cset r s (ON' s I)). reflexivity. }
        apply filter_true. exact X. }
      rewrite F, K. exact E.
  Qed.
End Stable.

(** *** the loop *)
Section C.
  Context (mcn : Z) (M2 : (2 <= mcn)%Z) (Cs : list (list str)) (CN : Cs <> []) (pd : nat) (r : str) (pre post : list str).
  Notation D := (length Cs).
  Notation inner := (fun (d : nat) (kw : bool) (t : tree) => cluster_n 1 mcn d d kw t).
  Notation psp := (pspec mcn inner (oV Cs) D pd false).
  Notation Pc s := (piece (pp_of s)).
  Notation W ss s := (pstr s (okind mcn ss s)).
  Definition shape (t : tree) (ss : list str) : Prop :=
    ofull Cs t /\ Forall (fun e => e_cnt e = 1%Z) (ents t) /\ (NoDup ss /\ Forall (one_sp r) ss) /\
    forall ks, (exists e, In e (ents t) /\ e_pieces e = ks) <-> exists s, In s ss /\ ks = pre ++ Pc s :: post.
  Lemma DD : (1 <= D)%nat. Proof. destruct Cs; [congruence|cbn; lia]. Qed.
  Lemma shape_len : forall t ss, shape t ss -> length (ents t) = length ss.
  Proof.
    intros t ss ((TK & _ & _) & _ & (ND & ON) & U).
    assert (P : Permutation (map e_pieces (ents t)) (map (fun s => pre ++ Pc s :: post) ss)).
    { apply NoDup_Permutation.
      - apply (ents_NoDup D). apply TK.
      - clear - ND ON. induction ND as [|s ss N ND IH]; [constructor|]. inversion ON; subst. cbn [map]. constructor; [|auto]. intros I. apply in_map_iff in I. destruct I as (t & I1 & I2). apply app_inv_head in I1. injection I1 as I1.
        rewrite Forall_forall in H2. apply piece_inj in I1; [|eapply one_legal; eauto..]. subst. auto.
      - intros ks. rewrite !in_map_iff. transitivity (exists e, In e (ents t) /\ e_pieces e = ks); [split; intros (e & A & B); exists e; auto|]. rewrite U. split; intros (s & A & B); exists s; auto. }
    apply Permutation_length in P. rewrite !map_length in P. exact P.
  Qed.
  Lemma shape_cnt : forall t ss, shape t ss -> t_cnt t = Z.of_nat (length ss).
  Proof.
    intros t ss S. rewrite <- (shape_len t ss S). destruct S as ((TK & _ & _) & C & _). rewrite (ents_cnt D t) by apply TK. clear - C. induction C as [|e l E C IH]; [reflexivity|]. cbn [map zsum fold_right length].
    change (fold_right Z.add 0%Z (map e_cnt l)) with (zsum (map e_cnt l)). rewrite IH, E. lia.
  Qed.
  Lemma one_proc : forall t ss, shape t ss -> exists p, proc mcn inner D 0 pd false (ns0 t) = Ok p /\ psp D 0 (ns0 t) p /\ forall s, In s ss -> pt_path p ([] :: pre ++ Pc s :: post) = [] :: pre ++ W ss s :: post.
  Proof.
    intros t ss S. pose proof (shape_cnt t ss S) as SC. destruct S as ((TK & TV & _) & C & (ND & ON) & U).
    destruct (proc_ok mcn inner (oV Cs) D pd false DD good (outer_LL mcn M2 Cs pd false) D 0 (ns0 t) eq_refl (ns0_ok (oV Cs) D t TK)) as (p & P1 & P2).
    exists p. split; [exact P1|]. split; [exact P2|]. intros s I.
    apply (walk mcn M2 Cs pd r ss post ND ON) with (ks0 := [] :: pre) (d := D) (level := 0) (ns := ns0 t) (p := p); [exact P2|right; discriminate| | |exact I].
    - intros ks. split.
      + intros X. destruct (under_ent_inv _ (oV00 Cs) D t ks TK X) as (e & E1 & ->). destruct (proj1 (U (e_pieces e)) (ex_intro _ e (conj E1 eq_refl))) as (s' & A & B). exists s'. split; [exact A|]. rewrite B. reflexivity.
      + intros (s' & A & ->). destruct (proj2 (U (pre ++ Pc s' :: post)) (ex_intro _ s' (conj A eq_refl))) as (e & E1 & E2). cbn [app]. rewrite <- E2. apply (under_ent _ (oV00 Cs) D t e TK E1).
    - unfold ns0. cbn [map zsum fold_right]. unfold pn_cnt. cbn [pn_tree]. rewrite SC. lia.
  Qed.
  (** the patterns of a processed tree *)
  Lemma one_pats : forall t ss p, shape t ss -> psp D 0 (ns0 t) p -> (forall s, In s ss -> pt_path p ([] :: pre ++ Pc s :: post) = [] :: pre ++ W ss s :: post) ->
    forall nodes, In nodes (paths (annotate p t)) -> exists s, In s ss /\ path_pieces nodes = pre ++ Pc s :: post /\ map t_pattern nodes = [] :: pre ++ W ss s :: post.
  Proof.
    intros t ss p S P H nodes I. destruct S as ((TK & TV & _) & _ & _ & U).
    pose proof (annotate_root mcn inner (oV Cs) (oV00 Cs) D pd false DD good (outer_LL mcn M2 Cs pd false) t p TK P nodes I) as A.
    assert (IE : In (ent nodes) (ents t)) by (rewrite <- (annotate_ents t p); apply in_map; exact I).
    destruct (proj1 (U _) (ex_intro _ _ (conj IE eq_refl))) as (s & S1 & S2). exists s. split; [exact S1|]. rewrite <- S2. split.
    - unfold path_pieces, ent, e_pieces, e_path. cbn [fst]. rewrite map_map. reflexivity.
    - rewrite A, S2. apply H. exact S1.
  Qed.
  (** a tree that is not split *)
  Lemma one_whole : forall fuel t ss q, shape t ss -> (forall s, In s ss -> W ss s = q) ->
    exists t', cluster_loop mcn inner (S fuel) D pd false t = Ok [t'] /\ ents t' = ents t /\ forall nodes, In nodes (paths t') -> exists s, In s ss /\ path_pieces nodes = pre ++ Pc s :: post /\ map t_pattern nodes = [] :: pre ++ q :: post.
  Proof.
    intros fuel t ss q S Q. destruct (one_proc t ss S) as (p & P1 & P2 & P3). exists (annotate p t). split; [|split; [apply annotate_ents|]].
    - cbn [cluster_loop]. destruct S as ((TK & TV & _) & _ & _ & U). destruct (t_cnt t <=? 0)%Z eqn:C0. { apply Z.leb_le in C0. pose proof (wft_pos D t (proj1 (proj2 TK))). lia. }
      unfold process. fold (ns0 t). rewrite P1. cbn [bind]. destruct (can_be_split p) eqn:CS; [|reflexivity]. exfalso.
      destruct (can_split_differ mcn inner (oV Cs) D pd false DD good (outer_LL mcn M2 Cs pd false) D 0 (ns0 t) p eq_refl P2 CS) as (k1 & k2 & U1 & U2 & NE). apply NE.
      destruct (under_ent_inv _ (oV00 Cs) D t k1 TK U1) as (e1 & E1 & ->). destruct (under_ent_inv _ (oV00 Cs) D t k2 TK U2) as (e2 & E2 & ->).
      destruct (proj1 (U _) (ex_intro _ _ (conj E1 eq_refl))) as (s1 & S1 & ->). destruct (proj1 (U _) (ex_intro _ _ (conj E2 eq_refl))) as (s2 & S2 & ->). rewrite (P3 s1 S1), (P3 s2 S2), (Q s1 S1), (Q s2 S2). reflexivity.
    - intros nodes I. destruct (one_pats t ss p S P2 P3 nodes I) as (s & A & B & X). exists s. rewrite (Q s A) in X. auto.
  Qed.
  Lemma join_good : forall (a b : list str), length a = length b -> Forall good a -> Forall good b -> join [SLASH] a = join [SLASH] b -> a = b.
  Proof. exact good_join. Qed.
  Definition has (t : tree) (s : str) : Prop := exists nodes, In nodes (paths t) /\ path_pieces nodes = pre ++ Pc s :: post.
  Lemma one_cluster : forall t ss, shape t ss -> exists ts, cluster_n 2 mcn D pd false t = Ok ts /\
    (forall t', In t' ts -> exists q, forall nodes, In nodes (paths t') -> exists s, In s ss /\ path_pieces nodes = pre ++ Pc s :: post /\ W ss s = q /\ path_patterns nodes = pre ++ q :: post) /\
    NoDup (map (fun t' => path_patterns (hd [] (paths t'))) ts) /\ (forall s, In s ss -> exists t', In t' ts /\ has t' s).
  Proof.
    intros t ss S. change (cluster_n 2 mcn D pd false t) with (cluster_loop mcn inner (Datatypes.S (length (paths t))) D pd false t). destruct (one_proc t ss S) as (p & P1 & P2 & P3).
    pose proof S as ((TK & TV & MO) & CT & (ND & ON) & U).
    assert (PNE : forall x : tree, paths x <> []) by (intros x X; apply (ents_nonnil x); unfold ents; rewrite X; reflexivity).
    assert (HS : forall x (l : list str), shape x l -> forall s, In s l -> has x s).
    { intros x l (_ & _ & _ & UX) s I. destruct (proj2 (UX _) (ex_intro _ s (conj I eq_refl))) as (e & E1 & E2). unfold ents in E1. apply in_map_iff in E1. destruct E1 as (nodes & <- & E1). exists nodes. split; [exact E1|]. rewrite <- E2. unfold path_pieces, ent, e_pieces, e_path. cbn [fst]. rewrite map_map. reflexivity. }
    assert (HE : forall x y, ents x = ents y -> forall s, has x s -> has y s).
    { intros x y E s (nodes & A & B). assert (X : In (path_pieces nodes) (map path_pieces (paths y))). { rewrite <- ents_pieces, <- E, ents_pieces. apply in_map. exact A. } apply in_map_iff in X. destruct X as (nodes' & X1 & X2). exists nodes'. split; [exact X2|]. congruence. }
    destruct (can_be_split p) eqn:CS.
    2: { (* one part *)
      assert (Q : exists q, forall s, In s ss -> W ss s = q).
      { destruct ss as [|s0 ss0]; [exists []; intros s []|]. exists (W (s0 :: ss0) s0). intros s I.
        assert (X : forall x, In x (s0 :: ss0) -> under (ns0 t) ([] :: pre ++ Pc x :: post)).
        { intros x J. destruct (proj2 (U _) (ex_intro _ x (conj J eq_refl))) as (e & E1 & <-). apply (under_ent _ (oV00 Cs) D t e TK E1). }
        pose proof (can_split_uniform mcn inner (oV Cs) D pd false DD good (outer_LL mcn M2 Cs pd false) D 0 (ns0 t) p eq_refl P2 CS _ _ (X s I) (X s0 (or_introl eq_refl))) as Y.
        rewrite (P3 s I), (P3 s0 (or_introl eq_refl)) in Y. injection Y as Y. apply app_inv_head in Y. congruence. }
      destruct Q as (q & Q). destruct (one_whole (length (paths t)) t ss q S Q) as (t' & A & EE & B). exists [t']. split; [exact A|]. split; [|split].
      - intros t2 [<-|[]]. exists q. intros nodes I. destruct (B nodes I) as (s & X & Y & Z). exists s. split; [exact X|]. split; [exact Y|]. split; [apply Q; exact X|]. apply paths_head in I. destruct I as (y & ->). cbn [map] in Z. injection Z as _ Z. exact Z.
      - cbn [map]. constructor; [intros []|constructor].
      - intros s I. exists t'. split; [left; reflexivity|]. apply (HE t t' (eq_sym EE)). apply (HS t ss S s I). }
    cbn [cluster_loop]. destruct (t_cnt t <=? 0)%Z eqn:C0. { apply Z.leb_le in C0. pose proof (wft_pos D t (proj1 (proj2 TK))). lia. }
    unfold process. fold (ns0 t). rewrite P1. cbn [bind]. rewrite CS. cbn [negb].
    destruct (split_ok (oV Cs) (oVfun Cs) (oV0 Cs) D DD meta_sorted meta_sorted_id (annotate p t)) as (ids & subs & S1 & S2 & S3 & S4 & S5).
    { apply annotate_tok. exact TK. } { unfold metas_ok. rewrite annotate_ents. exact MO. }
    rewrite S1. cbn [bind].
    assert (GD : forall s, In s ss -> length ([] :: pre ++ W ss s :: post) = Datatypes.S D /\ Forall good ([] :: pre ++ W ss s :: post)).
    { intros s I. rewrite <- (P3 s I). apply (pt_path_ok mcn inner (oV Cs) D pd false DD good (outer_LL mcn M2 Cs pd false) D 0 (ns0 t) p _ eq_refl P2).
      destruct (proj2 (U _) (ex_intro _ s (conj I eq_refl))) as (e & E1 & <-). apply (under_ent _ (oV00 Cs) D t e TK E1). }
    assert (SUB : forall id sub, tok (oV Cs) D 0 sub -> t_val sub = empty_parsed_piece ->
       Permutation (ents sub) (map ent (filter (fun nodes => str_eqb id (path_id nodes)) (paths (annotate p t)))) ->
       exists q, shape sub (filter (fun s => str_eqb (W ss s) q) ss) /\ id = join [SLASH] ([] :: pre ++ q :: post)).
    { intros id sub K1 K2 K3. destruct (ents sub) as [|e0 es] eqn:ES; [destruct (ents_nonnil sub ES)|]. rewrite <- ES in K3.
      assert (EI : forall e, In e (ents sub) <-> In e (ents t) /\ exists s, In s ss /\ e_pieces e = pre ++ Pc s :: post /\ id = join [SLASH] ([] :: pre ++ W ss s :: post)).
      { intros e. assert (X : In e (ents sub) <-> In e (map ent (filter (fun nodes => str_eqb id (path_id nodes)) (paths (annotate p t))))) by (split; apply Permutation_in; [exact K3|symmetry; exact K3]). rewrite X, in_map_iff. split.
        - intros (nodes & <- & I). apply filter_In in I. destruct I as [I E]. apply str_eqb_eq in E. destruct (one_pats t ss p S P2 P3 nodes I) as (s & A & B & C). split; [rewrite <- (annotate_ents t p); apply in_map; exact I|]. exists s. split; [exact A|]. split.
          + rewrite <- B. unfold path_pieces, ent, e_pieces, e_path. cbn [fst]. rewrite map_map. reflexivity.
          + rewrite E. unfold path_id. rewrite C. reflexivity.
        - intros (I & s & A & B & C). rewrite <- (annotate_ents t p) in I. apply in_map_iff in I. destruct I as (nodes & <- & I). exists nodes. split; [reflexivity|]. apply filter_In. split; [exact I|]. apply str_eqb_eq. rewrite C. unfold path_id.
          destruct (one_pats t ss p S P2 P3 nodes I) as (s' & A' & B' & C'). rewrite C'. do 2 f_equal. assert (s' = s) as ->; [|reflexivity].
          assert (Y : pre ++ Pc s' :: post = pre ++ Pc s :: post). { rewrite <- B', <- B. unfold path_pieces, ent, e_pieces, e_path. cbn [fst]. rewrite map_map. reflexivity. }
          apply app_inv_head in Y. injection Y as Y. rewrite Forall_forall in ON. apply piece_inj in Y; [exact Y|eapply one_legal; apply ON; eassumption..]. }
      destruct (proj1 (EI e0)) as (_ & s0 & I0 & _ & ID). { rewrite ES. left. reflexivity. } exists (W ss s0). split; [|exact ID].
      assert (IFF : forall s, In s ss -> (id = join [SLASH] ([] :: pre ++ W ss s :: post) <-> W ss s = W ss s0)).
      { intros s I. split; [|intros ->; exact ID]. intros E. rewrite ID in E. destruct (GD s I) as [G1 G2]. destruct (GD s0 I0) as [G3 G4]. apply join_good in E; [|transitivity (Datatypes.S D); [exact G3|symmetry; exact G1]|exact G4|exact G2]. injection E as E. apply app_inv_head in E. congruence. }
      split; [split; [exact K1|]; split; [exact K2|]|split; [|split; [split|]]].
      - apply Forall_forall. intros e E. apply EI in E. rewrite Forall_forall in MO. apply MO. apply E.
      - apply Forall_forall. intros e E. apply EI in E. rewrite Forall_forall in CT. apply CT. apply E.
      - apply NoDup_filter. exact ND.
      - apply Forall_forall. intros s I. apply filter_In in I. rewrite Forall_forall in ON. apply ON. apply I.
      - intros ks. split.
        + intros (e & E & <-). apply EI in E. destruct E as (_ & s & A & B & C). exists s. split; [|exact B]. apply filter_In. split; [exact A|]. apply str_eqb_eq. apply IFF; assumption.
        + intros (s & I & ->). apply filter_In in I. destruct I as [I E]. apply str_eqb_eq in E. destruct (proj2 (U _) (ex_intro _ s (conj I eq_refl))) as (e & E1 & E2). exists e. split; [|exact E2]. apply EI. split; [exact E1|]. exists s. split; [exact I|]. split; [exact E2|]. apply IFF; assumption. }
    assert (FU : exists f, length (paths t) = Datatypes.S f). { pose proof (PNE t). destruct (paths t); [congruence|]. eexists. reflexivity. }
    destruct FU as (f & FU). rewrite FU.
    assert (MM : exists ts, mapM (cluster_loop mcn inner (Datatypes.S f) D pd false) subs = Ok (map (fun x => [x]) ts) /\
       (forall t', In t' ts -> exists q, forall nodes, In nodes (paths t') -> exists s, In s ss /\ path_pieces nodes = pre ++ Pc s :: post /\ W ss s = q /\ map t_pattern nodes = [] :: pre ++ q :: post) /\
       map (fun t' => join [SLASH] ([] :: path_patterns (hd [] (paths t')))) ts = ids /\ (forall e, In e (flat_map ents subs) -> In e (flat_map ents ts))).
    { clear S1 S2 S3 S5. induction S4 as [|id sub ids subs (K1 & K2 & K3) S4 (ts & IH1 & IH2 & IH3 & IH4)].
      - exists []. split; [reflexivity|]. split; [intros t' []|]. split; [reflexivity|auto].
      - destruct (SUB id sub K1 K2 K3) as (q & SH & ID).
        destruct (one_whole f sub (filter (fun s => str_eqb (W ss s) q) ss) q SH) as (t' & A & EE & B).
        { intros s I. pose proof I as I'. apply filter_In in I'. destruct I' as [I' E]. apply str_eqb_eq in E. apply (stable mcn M2 r ss q s ND ON I' E). }
        exists (t' :: ts). split; [cbn [mapM]; rewrite A; cbn [bind]; rewrite IH1; reflexivity|]. split; [|split].
        + intros t2 [<-|I2]; [|apply IH2; exact I2]. exists q. intros nodes I. destruct (B nodes I) as (s & X & Y & Z). apply filter_In in X. destruct X as [X E]. apply str_eqb_eq in E. exists s. auto.
        + cbn [map]. f_equal; [|exact IH3]. rewrite ID. pose proof (PNE t') as NE. destruct (paths t') as [|nodes ps] eqn:EP; [congruence|]. destruct (B nodes (or_introl eq_refl)) as (s & _ & _ & Z). cbn [hd]. do 2 f_equal.
          assert (I : In nodes (paths t')) by (rewrite EP; left; reflexivity). apply paths_head in I. destruct I as (y & ->). cbn [map] in Z. injection Z as _ Z. exact Z.
        + intros e E. cbn [flat_map] in *. rewrite in_app_iff in *. rewrite EE. destruct E as [E|E]; [left; exact E|right; apply IH4; exact E]. }
    destruct MM as (ts & A & B & ID & EC). rewrite A. cbn [bind]. exists ts. split; [|split; [|split]].
    - f_equal. clear. induction ts as [|x l IH]; [reflexivity|]. cbn [map List.concat app]. f_equal. exact IH.
    - intros t' I. destruct (B t' I) as (q & Q). exists q. intros nodes J. destruct (Q nodes J) as (s & X & Y & Z1 & Z2). exists s. split; [exact X|]. split; [exact Y|]. split; [exact Z1|]. apply paths_head in J. destruct J as (y & ->). cbn [map] in Z2. injection Z2 as _ Z2. exact Z2.
    - rewrite <- ID in S2. rewrite <- (map_map (fun t' => path_patterns (hd [] (paths t'))) (fun Ps => join [SLASH] ([] :: Ps))) in S2. apply NoDup_map_inv in S2. exact S2.
    - intros s I. destruct (proj2 (U _) (ex_intro _ s (conj I eq_refl))) as (e & E1 & E2). assert (X : In e (flat_map ents ts)). { apply EC. eapply Permutation_in; [symmetry; exact S5|]. rewrite annotate_ents. exact E1. }
      apply in_flat_map in X. destruct X as (t' & T1 & T2). exists t'. split; [exact T1|]. unfold ents in T2. apply in_map_iff in T2. destruct T2 as (nodes & <- & T2). exists nodes. split; [exact T2|]. rewrite <- E2. unfold path_pieces, ent, e_pieces, e_path. cbn [fst]. rewrite map_map. reflexivity.
  Qed.
End C.
