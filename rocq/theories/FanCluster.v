(** cluster() on a tree whose paths differ at one level only, for any level
    processing: the parts are given by the patterns of that level (C67). *)
From Coq Require Import String.
From Verif Require Import PyStr Defs ParseUtils Trees Cluster Observe PyStrProofs DictProofs GroupProofs TreeProofs LengthStage PieceStage EntProofs GenCluster OneLevel.
From Coq Require Import Lia Permutation.

Lemma pos_ones : forall ns : list pnode, (forall n, In n ns -> 0 < pn_cnt n)%Z -> (Z.of_nat (length ns) <= zsum (map pn_cnt ns))%Z /\ ((zsum (map pn_cnt ns) <= Z.of_nat (length ns))%Z -> Forall (fun n => pn_cnt n = 1%Z) ns).
Proof.
  induction ns as [|n ns IH]; intros H; [split; [cbn; lia|constructor]|]. destruct IH as [A B]; [intros; apply H; right; assumption|]. pose proof (H n (or_introl eq_refl)).
  cbn [map zsum fold_right length]. change (fold_right Z.add 0%Z (map pn_cnt ns)) with (zsum (map pn_cnt ns)). split; [lia|]. intros X. constructor; [lia|]. apply B. lia.
Qed.

Section F.
  Context (mcn : Z) (M2 : (2 <= mcn)%Z) (inner : nat -> bool -> tree -> res (list tree)).
  Context (V : nat -> parsed_piece -> Prop).
  Context (Vfun : forall l a b, V l a -> V l b -> piece a = piece b -> a = b).
  Context (V0 : V 0 empty_parsed_piece).
  Context (V00 : forall p, V 0 p -> piece p = []).
  Context (D pd : nat) (kw : bool) (DD : (1 <= D)%nat).
  Context (good : str -> Prop).
  Context (good_join : forall l l', length l = length l' -> Forall good l -> Forall good l' ->
             join [SLASH] l = join [SLASH] l' -> l = l').
  Context (LL : forall level ns, (level <= D)%nat -> level_ok V level ns ->
     exists dn, rl mcn inner D pd kw level ns = Ok dn /\ NoDup (map fst (pattern_map dn))
       /\ (forall k, In k (map fst (pattern_map dn)) <-> In k (map pn_piece ns))
       /\ Forall good (map snd (pattern_map dn))
       /\ ((forall q1 q2, In q1 (map snd (pattern_map dn)) -> In q2 (map snd (pattern_map dn)) -> q1 = q2) -> (pattern_num dn <= 1)%nat)).
  Context (meta_ok : option (list str) -> Prop) (meta_id : forall m, meta_ok m -> update_meta m None = m).
  (** the level where the paths differ: below [pre]; its texts, their pieces and
      the patterns they get *)
  Context (pre post : list str) (Pc : str -> str) (okss : list str -> Prop) (W : list str -> str -> str).
  Context (okss_ND : forall ss, okss ss -> NoDup ss).
  Context (okss_part : forall ss s, okss ss -> In s ss -> okss (filter (fun t => str_eqb (W ss t) (W ss s)) ss)).
  Context (pc_inj : forall ss s t, okss ss -> In s ss -> In t ss -> Pc s = Pc t -> s = t).
  Context (fanL : forall ns ss, level_ok V (S (length pre)) ns -> okss ss -> Permutation (map pn_piece ns) (map Pc ss) -> Forall (fun n => pn_cnt n = 1%Z) ns ->
     exists dn, rl mcn inner D pd kw (S (length pre)) ns = Ok dn /\ forall s, In s ss -> dget str_eqb (Pc s) (pattern_map dn) = Some (W ss s)).
  Context (stableW : forall ss s, okss ss -> In s ss -> W (filter (fun t => str_eqb (W ss t) (W ss s)) ss) s = W ss s).

  Notation psp := (pspec mcn inner V D pd kw).
  Lemma pstep : forall d level ns pm m nx k q, psp (S d) level ns (PT pm m nx) -> dget str_eqb k pm = Some q ->
    exists p' ns', psp d (S level) ns' p' /\ (forall x, In x ns' <-> exists n, In n ns /\ dget str_eqb (pn_piece n) pm = Some q /\ In x (pn_kids n))
      /\ (zsum (map pn_cnt ns') <= zsum (map pn_cnt ns))%Z /\ forall r, pt_path (PT pm m nx) (k :: r) = q :: pt_path p' r.
  Proof.
    intros d level ns pm m nx k q H G. cbn [pspec] in H. destruct H as (_ & dn & _ & _ & _ & ND & KE & NX).
    assert (I : In q (map fst nx)). { apply KE. apply (dget_some_in str_eqb str_eqb_iff) in G. apply (in_map snd) in G. exact G. }
    apply in_map_iff in I. destruct I as ([q' p'] & E & I). cbn [fst] in E. subst q'. destruct (NX q p' I) as (ns' & A & B & C). exists p', ns'. split; [exact B|]. split; [exact A|]. split; [exact C|].
    intros r. cbn [pt_path]. rewrite G. rewrite (dget_in str_eqb str_eqb_iff _ _ _ ND I). reflexivity.
  Qed.
  Lemma under_next : forall d level ns (pm : list (str * str)) q ns', nodes_ok V (S d) level ns ->
    (forall x, In x ns' <-> exists n, In n ns /\ dget str_eqb (pn_piece n) pm = Some q /\ In x (pn_kids n)) ->
    forall r, under ns' r <-> exists k, dget str_eqb k pm = Some q /\ under ns (k :: r).
  Proof.
    intros d level ns pm q ns' N H r. split.
    - intros (x & nodes & I & J & ->). apply H in I. destruct I as (n & A & B & C). exists (pn_piece n). split; [exact B|]. eapply under_cons; [exact N|exact A|]. exists x, nodes. auto.
    - intros (k & G & X). destruct (under_kids _ _ _ _ _ N X) as (n & r' & A & B & C). injection B as -> ->. destruct C as (x & nodes & I & J & ->). exists x, nodes. split; [|auto]. apply H. exists n. auto.
  Qed.
  (** one piece at the level *)
  Lemma const_step : forall d level ns p k, psp d level ns p -> (forall ks, under ns ks -> exists r, ks = k :: r) ->
    exists m nx, p = PT [(k, k)] m nx /\ forall n, In n ns -> pn_piece n = k.
  Proof.
    intros d level ns [pm m nx] k H U. pose proof (pspec_nodes _ _ _ _ _ _ _ _ _ _ H) as N.
    assert (K : forall n, In n ns -> pn_piece n = k). { intros n I. destruct (under_some _ _ _ _ _ N I) as [r X]. apply U in X. destruct X as (r' & X). congruence. }
    destruct N as (NE & _). exists m, nx. split; [|exact K]. destruct d; cbn [pspec] in H; destruct H as (_ & dn & RL & -> & _); unfold rl in RL; rewrite (const_level mcn M2 _ _ _ _ _ ns k NE K) in RL; inversion RL; reflexivity.
  Qed.
  Lemma under_nonempty : forall d level ns, nodes_ok V d level ns -> exists ks, under ns ks.
  Proof. intros d level ns N. pose proof N as (NE & _). destruct ns as [|n ns]; [congruence|]. destruct (under_some _ _ _ _ _ N (or_introl eq_refl)) as [r X]. eexists. exact X. Qed.
  Lemma const_pt : forall d level ns p ps, psp d level ns p -> (forall ks, under ns ks -> ks = ps) -> pt_path p ps = ps.
  Proof.
    induction d as [|d IH]; intros level ns p ps H U; pose proof (pspec_nodes _ _ _ _ _ _ _ _ _ _ H) as N; destruct (under_nonempty _ _ _ N) as (ks & X).
    - destruct (under_leaf _ _ _ _ N X) as (n & I & E). rewrite (U ks X) in E. subst ps. destruct (const_step 0 level ns p (pn_piece n) H) as (m & nx & -> & _). { intros ks' Y. rewrite (U ks' Y). exists []. reflexivity. }
      cbn [pspec] in H. destruct H as (_ & dn & _ & _ & _ & ->). cbn [pt_path dget]. rewrite str_eqb_refl. reflexivity.
    - destruct (under_kids _ _ _ _ _ N X) as (n & r & I & E & _). rewrite (U ks X) in E. subst ps. set (k := pn_piece n) in *. destruct (const_step (S d) level ns p k H) as (m & nx & -> & K). { intros ks' Y. rewrite (U ks' Y). exists r. reflexivity. }
      assert (G : dget str_eqb k [(k, k)] = Some k) by (cbn [dget]; rewrite str_eqb_refl; reflexivity).
      destruct (pstep _ _ _ _ _ _ k k H G) as (p' & ns' & P & NS & _ & ->). f_equal. apply (IH (S level) ns' p' r P). intros ks' Y.
      apply (proj1 (under_next _ _ _ _ _ _ N NS ks')) in Y. destruct Y as (k' & _ & Y). apply U in Y. congruence.
  Qed.
  Section Texts.
    Context (ss : list str) (OK : okss ss).
    Lemma fan_pt : forall d ns p, psp d (S (length pre)) ns p -> (forall ks, under ns ks <-> exists s, In s ss /\ ks = Pc s :: post) -> (zsum (map pn_cnt ns) <= Z.of_nat (length ss))%Z ->
      forall s, In s ss -> pt_path p (Pc s :: post) = W ss s :: post.
    Proof.
      intros d ns p H U Z. pose proof (pspec_nodes _ _ _ _ _ _ _ _ _ _ H) as N. pose proof N as (NE & _ & TK). pose proof (okss_ND ss OK) as ND.
      assert (TV : forall n, In n ns -> exists s, In s ss /\ pn_piece n = Pc s /\ (0 < pn_cnt n)%Z).
      { intros n I. rewrite Forall_forall in TK. destruct (TK n I) as (_ & WF & _). destruct (under_some _ _ _ _ _ N I) as [r' X]. apply U in X. destruct X as (s & J & X). injection X as X _.
        exists s. split; [exact J|]. split; [exact X|]. exact (wft_pos _ _ WF). }
      destruct (pos_ones ns) as [Z1 Z2]. { intros n I. destruct (TV n I) as (s & _ & _ & X). exact X. }
      assert (PM : Permutation (map Pc ss) (map pn_piece ns)).
      { apply NoDup_Permutation_bis.
        - clear - ND OK pc_inj. assert (X : forall l, incl l ss -> NoDup l -> NoDup (map Pc l)).
          { induction l as [|x l IH]; intros IN NL; [constructor|]. inversion NL as [|? ? A B]; subst. cbn [map]. constructor; [|apply IH; [intros y Y; apply IN; right; exact Y|exact B]].
            intros J. apply in_map_iff in J. destruct J as (y & E & J). apply pc_inj with (ss := ss) in E; [subst y; auto|exact OK|apply IN; right; exact J|apply IN; left; reflexivity]. }
          apply X; [apply incl_refl|exact ND].
        - rewrite !map_length. lia.
        - intros x I. apply in_map_iff in I. destruct I as (s & <- & I). destruct (proj2 (U (Pc s :: post)) (ex_intro _ s (conj I eq_refl))) as (n & nodes & J1 & J2 & J3). apply in_map_iff. exists n. split; [|exact J1].
          destruct (paths_head (pn_tree n) nodes J2) as (y & ->). injection J3 as J3 _. symmetry. exact J3. }
      assert (LN : length ns = length ss) by (apply Permutation_length in PM; rewrite !map_length in PM; lia).
      destruct (fanL ns ss) as (dn & RL & GET); [eapply nodes_level; exact N|exact OK|symmetry; exact PM|apply Z2; lia|].
      destruct p as [pm m nx]. assert (EP : pm = pattern_map dn). { destruct d; cbn [pspec] in H; destruct H as (_ & dn' & RL' & -> & _); rewrite RL in RL'; inversion RL'; reflexivity. }
      intros s I. specialize (GET s I). rewrite <- EP in GET. destruct d as [|d].
      - destruct (under_leaf _ _ _ _ N (proj2 (U (Pc s :: post)) (ex_intro _ s (conj I eq_refl)))) as (n & _ & X). injection X as _ X. rewrite X.
        cbn [pspec] in H. destruct H as (_ & _ & _ & _ & _ & ->). cbn [pt_path]. rewrite GET. reflexivity.
      - destruct (pstep _ _ _ _ _ _ _ _ H GET) as (p' & ns' & P & NS & _ & ->). f_equal. apply (const_pt d (S (S (length pre))) ns' p' post P). intros ks Y.
        apply (proj1 (under_next _ _ _ _ _ _ N NS ks)) in Y. destruct Y as (k' & _ & Y). apply U in Y. destruct Y as (s' & _ & Y). congruence.
    Qed.
    Lemma walk : forall ks0 d level ns p, psp d level ns p -> (level + length ks0 = S (length pre))%nat -> (forall ks, under ns ks <-> exists s, In s ss /\ ks = ks0 ++ Pc s :: post) -> (zsum (map pn_cnt ns) <= Z.of_nat (length ss))%Z ->
      forall s, In s ss -> pt_path p (ks0 ++ Pc s :: post) = ks0 ++ W ss s :: post.
    Proof.
      induction ks0 as [|k ks0 IH]; intros d level ns p H L U Z s I.
      - cbn [length] in L. rewrite Nat.add_0_r in L. subst level. apply (fan_pt d ns p H U Z s I).
      - pose proof (pspec_nodes _ _ _ _ _ _ _ _ _ _ H) as N. cbn [app]. destruct (const_step d level ns p k H) as (m & nx & -> & K). { intros ks X. apply U in X. destruct X as (s' & _ & ->). exists (ks0 ++ Pc s' :: post). reflexivity. }
        assert (G : dget str_eqb k [(k, k)] = Some k) by (cbn [dget]; rewrite str_eqb_refl; reflexivity).
        destruct d as [|d].
        + exfalso. destruct (under_leaf _ _ _ _ N (proj2 (U ((k :: ks0) ++ Pc s :: post)) (ex_intro _ s (conj I eq_refl)))) as (n & _ & X). injection X as _ X. destruct ks0; discriminate.
        + destruct (pstep _ _ _ _ _ _ k k H G) as (p' & ns' & P & NS & ZZ & ->). f_equal. apply (IH d (S level) ns' p' P); [cbn [length] in L; lia| |lia|exact I]. intros ks. rewrite (under_next _ _ _ _ _ _ N NS ks). split.
          * intros (k' & _ & X). apply U in X. destruct X as (s' & J & X). injection X as _ X. exists s'. auto.
          * intros (s' & J & X). exists k. split; [exact G|]. apply U. exists s'. split; [exact J|]. rewrite X. reflexivity.
    Qed.
  End Texts.

  (** *** the loop *)
  Definition fshape (t : tree) (ss : list str) : Prop :=
    (tok V D 0 t /\ t_val t = empty_parsed_piece /\ metas_ok meta_ok t) /\ Forall (fun e => e_cnt e = 1%Z) (ents t) /\ okss ss /\
    forall ks, (exists e, In e (ents t) /\ e_pieces e = ks) <-> exists s, In s ss /\ ks = pre ++ Pc s :: post.
  Lemma fshape_pcs : forall t ss, fshape t ss -> Permutation (map e_pieces (ents t)) (map (fun s => pre ++ Pc s :: post) ss).
  Proof.
    intros t ss ((TK & _ & _) & _ & OK & U). apply NoDup_Permutation.
    - apply (ents_NoDup D). apply TK.
    - pose proof (okss_ND ss OK) as ND. assert (X : forall l, incl l ss -> NoDup l -> NoDup (map (fun s => pre ++ Pc s :: post) l)).
      { induction l as [|x l IH]; intros IN NL; [constructor|]. inversion NL as [|? ? A B]; subst. cbn [map]. constructor; [|apply IH; [intros y Y; apply IN; right; exact Y|exact B]].
        intros J. apply in_map_iff in J. destruct J as (y & E & J). apply app_inv_head in E. injection E as E. apply pc_inj with (ss := ss) in E; [subst y; auto|exact OK|apply IN; right; exact J|apply IN; left; reflexivity]. }
      apply X; [apply incl_refl|exact ND].
    - intros ks. rewrite !in_map_iff. transitivity (exists e, In e (ents t) /\ e_pieces e = ks); [split; intros (e & A & B); exists e; auto|]. rewrite U. split; intros (s & A & B); exists s; auto.
  Qed.
  Lemma fshape_cnt : forall t ss, fshape t ss -> t_cnt t = Z.of_nat (length ss).
  Proof.
    intros t ss S. pose proof (Permutation_length (fshape_pcs t ss S)) as L. rewrite !map_length in L. rewrite <- L. destruct S as ((TK & _ & _) & C & _). rewrite (ents_cnt D t) by apply TK. clear - C. induction C as [|e l E C IH]; [reflexivity|]. cbn [map zsum fold_right length].
    change (fold_right Z.add 0%Z (map e_cnt l)) with (zsum (map e_cnt l)). rewrite IH, E. lia.
  Qed.
  Lemma fan_proc : forall t ss, fshape t ss -> exists p, proc mcn inner D 0 pd kw (ns0 t) = Ok p /\ psp D 0 (ns0 t) p /\ forall s, In s ss -> pt_path p ([] :: pre ++ Pc s :: post) = [] :: pre ++ W ss s :: post.
  Proof.
    intros t ss S. pose proof (fshape_cnt t ss S) as SC. destruct S as ((TK & TV & _) & C & OK & U).
    destruct (proc_ok mcn inner V D pd kw DD good LL D 0 (ns0 t) eq_refl (ns0_ok V D t TK)) as (p & P1 & P2).
    exists p. split; [exact P1|]. split; [exact P2|]. intros s I.
    apply (walk ss OK) with (ks0 := [] :: pre) (d := D) (level := 0) (ns := ns0 t) (p := p); [exact P2|reflexivity| | |exact I].
    - intros ks. split.
      + intros X. destruct (under_ent_inv _ V00 D t ks TK X) as (e & E1 & ->). destruct (proj1 (U (e_pieces e)) (ex_intro _ e (conj E1 eq_refl))) as (s' & A & B). exists s'. split; [exact A|]. rewrite B. reflexivity.
      + intros (s' & A & ->). destruct (proj2 (U (pre ++ Pc s' :: post)) (ex_intro _ s' (conj A eq_refl))) as (e & E1 & E2). cbn [app]. rewrite <- E2. apply (under_ent _ V00 D t e TK E1).
    - unfold ns0. cbn [map zsum fold_right]. unfold pn_cnt. cbn [pn_tree]. rewrite SC. lia.
  Qed.
  (** the patterns of a processed tree *)
  Lemma fan_pats : forall t ss p, fshape t ss -> psp D 0 (ns0 t) p -> (forall s, In s ss -> pt_path p ([] :: pre ++ Pc s :: post) = [] :: pre ++ W ss s :: post) ->
    forall nodes, In nodes (paths (annotate p t)) -> exists s, In s ss /\ e_pieces (ent nodes) = pre ++ Pc s :: post /\ map t_pattern nodes = [] :: pre ++ W ss s :: post.
  Proof.
    intros t ss p S P H nodes I. destruct S as ((TK & TV & _) & _ & _ & U).
    pose proof (annotate_root mcn inner V V00 D pd kw DD good LL t p TK P nodes I) as A.
    assert (IE : In (ent nodes) (ents t)) by (rewrite <- (annotate_ents t p); apply in_map; exact I).
    destruct (proj1 (U _) (ex_intro _ _ (conj IE eq_refl))) as (s & S1 & S2). exists s. split; [exact S1|]. split; [exact S2|]. rewrite A, S2. apply H. exact S1.
  Qed.
  Definition fpart (t : tree) (ss : list str) (q : str) : Prop :=
    fshape t ss /\ ss <> [] /\ forall nodes, In nodes (paths t) -> map t_pattern nodes = [] :: pre ++ q :: post.
  Lemma fshape_annotate : forall p t ss, fshape t ss -> fshape (annotate p t) ss.
  Proof.
    intros p t ss ((TK & TV & MO) & C & O & U). unfold fshape, metas_ok. rewrite annotate_ents, annotate_val. split; [|auto]. split; [apply annotate_tok; exact TK|]. split; [exact TV|exact MO].
  Qed.
  Lemma fshape_non : forall t ss, fshape t ss -> ss <> [].
  Proof. intros t ss S ->. pose proof (Permutation_length (fshape_pcs t [] S)) as L. rewrite !map_length in L. cbn in L. apply (ents_nonnil t). destruct (ents t); [reflexivity|discriminate L]. Qed.
  (** a tree that is not split *)
  Lemma fan_whole : forall fuel t ss q, fshape t ss -> (forall s, In s ss -> W ss s = q) ->
    exists t', cluster_loop mcn inner (S fuel) D pd kw t = Ok [t'] /\ ents t' = ents t /\ fpart t' ss q.
  Proof.
    intros fuel t ss q S Q. destruct (fan_proc t ss S) as (p & P1 & P2 & P3). exists (annotate p t). split; [|split; [apply annotate_ents|]].
    - cbn [cluster_loop]. destruct S as ((TK & TV & _) & _ & _ & U). destruct (t_cnt t <=? 0)%Z eqn:C0. { apply Z.leb_le in C0. pose proof (wft_pos D t (proj1 (proj2 TK))). lia. }
      unfold process. fold (ns0 t). rewrite P1. cbn [bind]. destruct (can_be_split p) eqn:CS; [|reflexivity]. exfalso.
      destruct (can_split_differ mcn inner V D pd kw DD good LL D 0 (ns0 t) p eq_refl P2 CS) as (k1 & k2 & U1 & U2 & NE). apply NE.
      destruct (under_ent_inv _ V00 D t k1 TK U1) as (e1 & E1 & ->). destruct (under_ent_inv _ V00 D t k2 TK U2) as (e2 & E2 & ->).
      destruct (proj1 (U _) (ex_intro _ _ (conj E1 eq_refl))) as (s1 & S1 & ->). destruct (proj1 (U _) (ex_intro _ _ (conj E2 eq_refl))) as (s2 & S2 & ->). rewrite (P3 s1 S1), (P3 s2 S2), (Q s1 S1), (Q s2 S2). reflexivity.
    - split; [apply fshape_annotate; exact S|]. split; [exact (fshape_non t ss S)|]. intros nodes I. destruct (fan_pats t ss p S P2 P3 nodes I) as (s & A & B & X). rewrite (Q s A) in X. exact X.
  Qed.
  Lemma fan_cluster : forall fuel t ss, fshape t ss -> (length (paths t) < fuel)%nat -> exists tqs, cluster_loop mcn inner fuel D pd kw t = Ok (map fst tqs) /\
    NoDup (map snd tqs) /\ (forall t' q, In (t', q) tqs -> fpart t' (filter (fun s => str_eqb (W ss s) q) ss) q) /\
    (forall s, In s ss -> exists t', In (t', W ss s) tqs) /\ Permutation (flat_map ents (map fst tqs)) (ents t).
  Proof.
    intros fuel t ss S FU. destruct (fan_proc t ss S) as (p & P1 & P2 & P3). destruct fuel as [|fuel]; [lia|].
    pose proof S as ((TK & TV & MO) & CT & OK & U).
    assert (PNE : forall x : tree, paths x <> []) by (intros x X; apply (ents_nonnil x); unfold ents; rewrite X; reflexivity).
    destruct (can_be_split p) eqn:CS.
    2: { (* one part *)
      destruct ss as [|s0 ss0] eqn:ES; [destruct (fshape_non t [] S eq_refl)|]. rewrite <- ES in *. assert (I0 : In s0 ss) by (rewrite ES; left; reflexivity).
      assert (Q : forall s, In s ss -> W ss s = W ss s0).
      { intros s I. assert (X : forall x, In x ss -> under (ns0 t) ([] :: pre ++ Pc x :: post)).
        { intros x J. destruct (proj2 (U _) (ex_intro _ x (conj J eq_refl))) as (e & E1 & <-). apply (under_ent _ V00 D t e TK E1). }
        pose proof (can_split_uniform mcn inner V D pd kw DD good LL D 0 (ns0 t) p eq_refl P2 CS _ _ (X s I) (X s0 I0)) as Y.
        rewrite (P3 s I), (P3 s0 I0) in Y. injection Y as Y. apply app_inv_head in Y. congruence. }
      destruct (fan_whole fuel t ss (W ss s0) S Q) as (t' & A & EE & B). exists [(t', W ss s0)]. cbn [map fst snd flat_map]. split; [exact A|]. split; [|split; [|split]].
      - constructor; [intros []|constructor].
      - intros t2 q [X|[]]. injection X as <- <-. assert (F : filter (fun s => str_eqb (W ss s) (W ss s0)) ss = ss).
        { clear - Q. assert (G : forall l, incl l ss -> filter (fun s => str_eqb (W ss s) (W ss s0)) l = l); [|apply G; apply incl_refl].
          induction l as [|x l IH]; intros IN; [reflexivity|]. cbn [filter]. rewrite (Q x) by (apply IN; left; reflexivity). rewrite str_eqb_refl. f_equal. apply IH. intros y Y. apply IN. right. exact Y. }
        rewrite F. exact B.
      - intros s I. exists t'. left. rewrite (Q s I). reflexivity.
      - rewrite app_nil_r, EE. apply Permutation_refl. }
    cbn [cluster_loop]. destruct (t_cnt t <=? 0)%Z eqn:C0. { apply Z.leb_le in C0. pose proof (wft_pos D t (proj1 (proj2 TK))). lia. }
    unfold process. fold (ns0 t). rewrite P1. cbn [bind]. rewrite CS. cbn [negb].
    destruct (split_ok V Vfun V0 D DD meta_ok meta_id (annotate p t)) as (ids & subs & S1 & S2 & S3 & S4 & S5).
    { apply annotate_tok. exact TK. } { unfold metas_ok. rewrite annotate_ents. exact MO. }
    rewrite S1. cbn [bind].
    assert (GD : forall s, In s ss -> length ([] :: pre ++ W ss s :: post) = Datatypes.S D /\ Forall good ([] :: pre ++ W ss s :: post)).
    { intros s I. rewrite <- (P3 s I). apply (pt_path_ok mcn inner V D pd kw DD good LL D 0 (ns0 t) p _ eq_refl P2).
      destruct (proj2 (U _) (ex_intro _ s (conj I eq_refl))) as (e & E1 & <-). apply (under_ent _ V00 D t e TK E1). }
    assert (SUB : forall id sub, tok V D 0 sub -> t_val sub = empty_parsed_piece ->
       Permutation (ents sub) (map ent (filter (fun nodes => str_eqb id (path_id nodes)) (paths (annotate p t)))) ->
       exists s0, In s0 ss /\ fshape sub (filter (fun s => str_eqb (W ss s) (W ss s0)) ss) /\ id = join [SLASH] ([] :: pre ++ W ss s0 :: post)).
    { intros id sub K1 K2 K3. destruct (ents sub) as [|e0 es] eqn:ES; [destruct (ents_nonnil sub ES)|]. rewrite <- ES in K3.
      assert (EI : forall e, In e (ents sub) <-> In e (ents t) /\ exists s, In s ss /\ e_pieces e = pre ++ Pc s :: post /\ id = join [SLASH] ([] :: pre ++ W ss s :: post)).
      { intros e. assert (X : In e (ents sub) <-> In e (map ent (filter (fun nodes => str_eqb id (path_id nodes)) (paths (annotate p t))))) by (split; apply Permutation_in; [exact K3|symmetry; exact K3]). rewrite X, in_map_iff. split.
        - intros (nodes & <- & I). apply filter_In in I. destruct I as [I E]. apply str_eqb_eq in E. destruct (fan_pats t ss p S P2 P3 nodes I) as (s & A & B & C). split; [rewrite <- (annotate_ents t p); apply in_map; exact I|]. exists s. split; [exact A|]. split; [exact B|].
          rewrite E. unfold path_id. rewrite C. reflexivity.
        - intros (I & s & A & B & C). rewrite <- (annotate_ents t p) in I. apply in_map_iff in I. destruct I as (nodes & <- & I). exists nodes. split; [reflexivity|]. apply filter_In. split; [exact I|]. apply str_eqb_eq. rewrite C. unfold path_id.
          destruct (fan_pats t ss p S P2 P3 nodes I) as (s' & A' & B' & C'). rewrite C'. do 2 f_equal. assert (s' = s) as ->; [|reflexivity].
          assert (Y : pre ++ Pc s' :: post = pre ++ Pc s :: post) by (rewrite <- B', <- B; reflexivity).
          apply app_inv_head in Y. injection Y as Y. apply (pc_inj ss s' s OK A' A Y). }
      destruct (proj1 (EI e0)) as (_ & s0 & I0 & _ & ID). { rewrite ES. left. reflexivity. } exists s0. split; [exact I0|]. split; [|exact ID].
      assert (IFF : forall s, In s ss -> (id = join [SLASH] ([] :: pre ++ W ss s :: post) <-> W ss s = W ss s0)).
      { intros s I. split; [|intros ->; exact ID]. intros E. rewrite ID in E. destruct (GD s I) as [G1 G2]. destruct (GD s0 I0) as [G3 G4]. apply good_join in E; [|transitivity (Datatypes.S D); [exact G3|symmetry; exact G1]|exact G4|exact G2]. injection E as E. apply app_inv_head in E. congruence. }
      split; [split; [exact K1|]; split; [exact K2|]|split; [|split]].
      - apply Forall_forall. intros e E. apply EI in E. unfold metas_ok in MO. rewrite Forall_forall in MO. apply MO. apply E.
      - apply Forall_forall. intros e E. apply EI in E. rewrite Forall_forall in CT. apply CT. apply E.
      - apply okss_part; assumption.
      - intros ks. split.
        + intros (e & E & <-). apply EI in E. destruct E as (_ & s & A & B & C). exists s. split; [|exact B]. apply filter_In. split; [exact A|]. apply str_eqb_eq. apply IFF; assumption.
        + intros (s & I & ->). apply filter_In in I. destruct I as [I E]. apply str_eqb_eq in E. destruct (proj2 (U _) (ex_intro _ s (conj I eq_refl))) as (e & E1 & E2). exists e. split; [|exact E2]. apply EI. split; [exact E1|]. exists s. split; [exact I|]. split; [exact E2|]. apply IFF; assumption. }
    destruct fuel as [|f]. { exfalso. pose proof (PNE t) as X. destruct (paths t); [congruence|cbn [length] in FU; lia]. }
    assert (MM : exists tqs, mapM (cluster_loop mcn inner (Datatypes.S f) D pd kw) subs = Ok (map (fun x => [x]) (map fst tqs)) /\
       (forall t' q, In (t', q) tqs -> fpart t' (filter (fun s => str_eqb (W ss s) q) ss) q) /\
       map (fun tq => join [SLASH] ([] :: pre ++ snd tq :: post)) tqs = ids /\ flat_map ents (map fst tqs) = flat_map ents subs).
    { clear S1 S2 S3 S5. induction S4 as [|id sub ids subs (K1 & K2 & K3) S4 (tqs & IH1 & IH2 & IH3 & IH4)].
      - exists []. split; [reflexivity|]. split; [intros t' q []|]. split; reflexivity.
      - destruct (SUB id sub K1 K2 K3) as (s0 & I0 & SH & ID).
        destruct (fan_whole f sub (filter (fun s => str_eqb (W ss s) (W ss s0)) ss) (W ss s0) SH) as (t' & A & EE & B).
        { intros s I. apply filter_In in I. destruct I as [I' E]. apply str_eqb_eq in E. rewrite <- E. apply stableW; assumption. }
        exists ((t', W ss s0) :: tqs). cbn [map fst snd]. split; [cbn [mapM]; rewrite A; cbn [bind]; rewrite IH1; reflexivity|]. split; [|split].
        + intros t2 q [X|I2]; [injection X as <- <-; exact B|apply IH2; exact I2].
        + f_equal; [symmetry; exact ID|exact IH3].
        + cbn [flat_map]. rewrite IH4, EE. reflexivity. }
    destruct MM as (tqs & A & B & ID & EC). rewrite A. cbn [bind]. exists tqs. split; [|split; [|split; [exact B|split]]].
    - f_equal. clear. induction (map fst tqs) as [|x l IH]; [reflexivity|]. cbn [map List.concat app]. f_equal. exact IH.
    - rewrite <- ID in S2. rewrite <- (map_map snd (fun q => join [SLASH] ([] :: pre ++ q :: post))) in S2. apply NoDup_map_inv in S2. exact S2.
    - intros s I. destruct (proj2 (U _) (ex_intro _ s (conj I eq_refl))) as (e & E1 & E2). assert (X : In e (flat_map ents (map fst tqs))). { rewrite EC. eapply Permutation_in; [symmetry; exact S5|]. rewrite annotate_ents. exact E1. }
      apply in_flat_map in X. destruct X as (t' & T1 & T2). apply in_map_iff in T1. destruct T1 as ([t2 q] & E & T1). cbn [fst] in E. subst t2. exists t'. destruct (B t' q T1) as ((_ & _ & _ & UT) & _ & _).
      destruct (proj1 (UT _) (ex_intro _ e (conj T2 eq_refl))) as (s' & J1 & J2). apply filter_In in J1. destruct J1 as [J1 J3]. apply str_eqb_eq in J3. rewrite E2 in J2. apply app_inv_head in J2. injection J2 as J2. apply (pc_inj ss s s' OK I J1) in J2. subst s'. rewrite J3. exact T1.
    - rewrite EC, S5, annotate_ents. apply Permutation_refl.
  Qed.
End F.
