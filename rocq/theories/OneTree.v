(** The trees of URLs that differ at one position (C52). *)
From Coq Require Import String.
From Verif Require Import PyStr Defs UrlLib ParseUtils Views Trees Cluster Spec Patterns Matcher Maker Observe MatchSpec OneSpec PyStrProofs DefsProofs DictProofs RegexProofs PieceProofs LengthProofs BridgeProofs GroupProofs TreeProofs TokProofs LengthStage PieceStage EntProofs GenCluster FlatCluster OuterCluster OneLevel.
From Coq Require Import Lia Permutation.

Section T.
  Context (mcn : Z) (M2 : (2 <= mcn)%Z) (Cs : list (list str)) (pd : nat).
  Notation D := (length Cs).
  Notation inner := (fun (d : nat) (kw : bool) (t : tree) => cluster_n 1 mcn d d kw t).
  Notation psp := (pspec mcn inner (oV Cs) D pd false).
  Notation Pc s := (piece (pp_of s)).

  Lemma pstep : forall d level ns pm m nx k q, psp (S d) level ns (PT pm m nx) -> dget str_eqb k pm = Some q ->
    exists p' ns', psp d (S level) ns' p' /\ (forall x, In x ns' <-> exists n, In n ns /\ dget str_eqb (pn_piece n) pm = Some q /\ In x (pn_kids n))
      /\ (zsum (map pn_cnt ns') <= zsum (map pn_cnt ns))%Z /\ forall r, pt_path (PT pm m nx) (k :: r) = q :: pt_path p' r.
  Proof.
    intros d level ns pm m nx k q H G. cbn [pspec] in H. destruct H as (_ & dn & _ & _ & _ & ND & KE & NX).
    assert (I : In q (map fst nx)). { apply KE. apply (dget_some_in str_eqb str_eqb_iff) in G. apply (in_map snd) in G. exact G. }
    apply in_map_iff in I. destruct I as ([q' p'] & E & I). cbn [fst] in E. subst q'. destruct (NX q p' I) as (ns' & A & B & C). exists p', ns'. split; [exact B|]. split; [exact A|]. split; [exact C|].
    intros r. cbn [pt_path]. rewrite G. rewrite (dget_in str_eqb str_eqb_iff _ _ _ ND I). reflexivity.
  Qed.
  Lemma under_next : forall d level ns (pm : list (str * str)) q ns', nodes_ok (oV Cs) (S d) level ns ->
    (forall x, In x ns' <-> exists n, In n ns /\ dget str_eqb (pn_piece n) pm = Some q /\ In x (pn_kids n)) ->
    forall r, under ns' r <-> exists k, dget str_eqb k pm = Some q /\ under ns (k :: r).
  Proof.
    intros d level ns pm q ns' N H r. split.
    - intros (x & nodes & I & J & ->). apply H in I. destruct I as (n & A & B & C). exists (pn_piece n). split; [exact B|]. eapply under_cons; [exact N|exact A|]. exists x, nodes. auto.
    - intros (k & G & X). destruct (under_kids _ _ _ _ _ N X) as (n & r' & A & B & C). injection B as -> ->. destruct C as (x & nodes & I & J & ->). exists x, nodes. split; [|auto]. apply H. exists n. auto.
  Qed.
  (** one piece at the level *)
  Lemma const_step : forall d level ns p k, psp d level ns p -> (forall ks, under ns ks -> exists r, ks = k :: r) ->
    exists m nx, p = PT [(k, k)] m nx /\ forall n, In n ns -> pn_piece n = k.
  Proof.
    intros d level ns [pm m nx] k H U. pose proof (pspec_nodes _ _ _ _ _ _ _ _ _ _ H) as N.
    assert (K : forall n, In n ns -> pn_piece n = k). { intros n I. destruct (under_some _ _ _ _ _ N I) as [r X]. apply U in X. destruct X as (r' & X). congruence. }
    destruct N as (NE & _). exists m, nx. split; [|exact K]. destruct d; cbn [pspec] in H; destruct H as (_ & dn & RL & -> & _); unfold rl in RL; rewrite (const_level mcn M2 _ _ _ _ _ ns k NE K) in RL; inversion RL; reflexivity.
  Qed.
  Lemma under_nonempty : forall d level ns, nodes_ok (oV Cs) d level ns -> exists ks, under ns ks.
  Proof. intros d level ns N. pose proof N as (NE & _). destruct ns as [|n ns]; [congruence|]. destruct (under_some _ _ _ _ _ N (or_introl eq_refl)) as [r X]. eexists. exact X. Qed.
  Lemma const_pt : forall d level ns p post, psp d level ns p -> (forall ks, under ns ks -> ks = post) -> pt_path p post = post.
  Proof.
    induction d as [|d IH]; intros level ns p post H U; pose proof (pspec_nodes _ _ _ _ _ _ _ _ _ _ H) as N; destruct (under_nonempty _ _ _ N) as (ks & X).
    - destruct (under_leaf _ _ _ _ N X) as (n & I & E). rewrite (U ks X) in E. subst post. destruct (const_step 0 level ns p (pn_piece n) H) as (m & nx & -> & _). { intros ks' Y. rewrite (U ks' Y). exists []. reflexivity. }
      cbn [pspec] in H. destruct H as (_ & dn & _ & _ & _ & ->). cbn [pt_path dget]. rewrite str_eqb_refl. reflexivity.
    - destruct (under_kids _ _ _ _ _ N X) as (n & r & I & E & _). rewrite (U ks X) in E. subst post. set (k := pn_piece n) in *. destruct (const_step (S d) level ns p k H) as (m & nx & -> & K). { intros ks' Y. rewrite (U ks' Y). exists r. reflexivity. }
      assert (G : dget str_eqb k [(k, k)] = Some k) by (cbn [dget]; rewrite str_eqb_refl; reflexivity).
      destruct (pstep _ _ _ _ _ _ k k H G) as (p' & ns' & P & NS & _ & ->). f_equal. apply (IH (S level) ns' p' r P). intros ks' Y.
      apply (proj1 (under_next _ _ _ _ _ _ N NS ks')) in Y. destruct Y as (k' & _ & Y). apply U in Y. congruence.
  Qed.
  Lemma zsum_pos_len : forall ns : list pnode, (forall n, In n ns -> 0 < pn_cnt n)%Z -> (Z.of_nat (length ns) <= zsum (map pn_cnt ns))%Z /\ ((zsum (map pn_cnt ns) <= Z.of_nat (length ns))%Z -> Forall (fun n => pn_cnt n = 1%Z) ns).
  Proof.
    induction ns as [|n ns IH]; intros H; [split; [cbn; lia|constructor]|]. destruct IH as [A B]; [intros; apply H; right; assumption|]. pose proof (H n (or_introl eq_refl)).
    cbn [map zsum fold_right length]. change (fold_right Z.add 0%Z (map pn_cnt ns)) with (zsum (map pn_cnt ns)). split; [lia|]. intros X. constructor; [lia|]. apply B. lia.
  Qed.
  Section S.
    Context (r : str) (ss : list str) (post : list str) (ND : NoDup ss) (ON : Forall (one_sp r) ss) (SN : ss <> []).
    Notation W s := (pstr s (okind mcn ss s)).
    Lemma one_inj : forall s t, In s ss -> all_legal t -> Pc s = Pc t -> s = t.
    Proof. intros s t I L E. rewrite Forall_forall in ON. apply piece_inj; [eapply one_legal; apply ON; exact I|exact L|exact E]. Qed.
    Lemma fan_pt : forall d l ns p, psp d (S l) ns p -> (forall ks, under ns ks <-> exists s, In s ss /\ ks = Pc s :: post) -> (zsum (map pn_cnt ns) <= Z.of_nat (length ss))%Z ->
      forall s, In s ss -> pt_path p (Pc s :: post) = W s :: post.
    Proof.
      intros d l ns p H U Z. pose proof (pspec_nodes _ _ _ _ _ _ _ _ _ _ H) as N. pose proof N as (NE & _ & TK).
      assert (TV : forall n, In n ns -> exists s, In s ss /\ t_val (pn_tree n) = pp_of s /\ (0 < pn_cnt n)%Z).
      { intros n I. rewrite Forall_forall in TK. destruct (TK n I) as (V & WF & _). destruct V as (s' & L & E & _). destruct (under_some _ _ _ _ _ N I) as [r' X]. apply U in X. destruct X as (s & J & X). injection X as X _.
        unfold pn_piece, t_piece in X. rewrite E in X. symmetry in X. apply (one_inj s s' J L) in X. subst s'. exists s. split; [exact J|]. split; [exact E|]. exact (wft_pos _ _ WF). }
      destruct (zsum_pos_len ns) as [Z1 Z2]. { intros n I. destruct (TV n I) as (s & _ & _ & X). exact X. }
      assert (PM : Permutation (map pp_of ss) (map (fun n => t_val (pn_tree n)) ns)).
      { apply NoDup_Permutation_bis.
        - clear - ND ON. induction ND as [|s ss X ND' IH]; [constructor|]. inversion ON; subst. cbn [map]. constructor; [|auto]. intros I. apply in_map_iff in I. destruct I as (t & I1 & I2). rewrite Forall_forall in H2.
          assert (t = s) as ->; [|auto]. apply piece_inj; [eapply one_legal; apply H2; exact I2|eapply one_legal; eassumption|congruence].
        - rewrite !map_length. lia.
        - intros x I. apply in_map_iff in I. destruct I as (s & <- & I). destruct (proj2 (U (Pc s :: post)) (ex_intro _ s (conj I eq_refl))) as (n & nodes & J1 & J2 & J3). apply in_map_iff. exists n. split; [|exact J1].
          destruct (TV n J1) as (s' & K1 & K2 & _). rewrite K2. f_equal. symmetry. apply one_inj; [exact I|rewrite Forall_forall in ON; eapply one_legal; apply ON; exact K1|].
          assert (Y : pn_piece n = Pc s). { destruct (paths_head (pn_tree n) nodes J2) as (y & ->). injection J3 as J3 _. symmetry. exact J3. }
          rewrite <- Y. unfold pn_piece, t_piece. rewrite K2. reflexivity. }
      assert (LN : length ns = length ss) by (apply Permutation_length in PM; rewrite !map_length in PM; lia).
      destruct (fan_level mcn M2 inner (S l) (D - S l =? 0) (pd =? S l) ltac:(lia) r ns ss NE ND ON) as (dn & RL & GET).
      { symmetry. exact PM. } { apply Z2. lia. }
      destruct p as [pm m nx]. assert (EP : pm = pattern_map dn). { destruct d; cbn [pspec] in H; destruct H as (_ & dn' & RL' & -> & _); unfold rl in RL'; rewrite RL in RL'; inversion RL'; reflexivity. }
      intros s I. specialize (GET s I). rewrite <- EP in GET. destruct d as [|d].
      - destruct (under_leaf _ _ _ _ N (proj2 (U (Pc s :: post)) (ex_intro _ s (conj I eq_refl)))) as (n & _ & X). injection X as _ X. rewrite X.
        cbn [pspec] in H. destruct H as (_ & _ & _ & _ & _ & ->). cbn [pt_path]. rewrite GET. reflexivity.
      - destruct (pstep _ _ _ _ _ _ _ _ H GET) as (p' & ns' & P & NS & _ & ->). f_equal. apply (const_pt d (S (S l)) ns' p' post P). intros ks Y.
        apply (proj1 (under_next _ _ _ _ _ _ N NS ks)) in Y. destruct Y as (k' & _ & Y). apply U in Y. destruct Y as (s' & _ & Y). congruence.
    Qed.
    Lemma walk : forall ks0 d level ns p, psp d level ns p -> (1 <= level \/ ks0 <> []) -> (forall ks, under ns ks <-> exists s, In s ss /\ ks = ks0 ++ Pc s :: post) -> (zsum (map pn_cnt ns) <= Z.of_nat (length ss))%Z ->
      forall s, In s ss -> pt_path p (ks0 ++ Pc s :: post) = ks0 ++ W s :: post.
    Proof.
      induction ks0 as [|k ks0 IH]; intros d level ns p H L U Z s I.
      - destruct L as [L|L]; [|congruence]. destruct level as [|l]; [lia|]. apply (fan_pt d l ns p H U Z s I).
      - pose proof (pspec_nodes _ _ _ _ _ _ _ _ _ _ H) as N. cbn [app]. destruct (const_step d level ns p k H) as (m & nx & -> & K). { intros ks X. apply U in X. destruct X as (s' & _ & ->). exists (ks0 ++ Pc s' :: post). reflexivity. }
        assert (G : dget str_eqb k [(k, k)] = Some k) by (cbn [dget]; rewrite str_eqb_refl; reflexivity).
        destruct d as [|d].
        + exfalso. destruct (under_leaf _ _ _ _ N (proj2 (U ((k :: ks0) ++ Pc s :: post)) (ex_intro _ s (conj I eq_refl)))) as (n & _ & X). injection X as _ X. destruct ks0; discriminate.
        + destruct (pstep _ _ _ _ _ _ k k H G) as (p' & ns' & P & NS & ZZ & ->). f_equal. apply (IH d (S level) ns' p' P); [left; lia| |lia|exact I]. intros ks. rewrite (under_next _ _ _ _ _ _ N NS ks). split.
          * intros (k' & _ & X). apply U in X. destruct X as (s' & J & X). injection X as _ X. exists s'. auto.
          * intros (s' & J & X). exists k. split; [exact G|]. apply U. exists s'. split; [exact J|]. rewrite X. reflexivity.
    Qed.
  End S.
End T.
