(** A cluster alone is clustered as before (C51). *)
From Coq Require Import String.
From Verif Require Import PyStr Defs UrlLib ParseUtils Spec Views Trees Cluster Patterns Matcher Maker AnyOrder Observe MatchSpec OwnSpec AnySpec StableSpec PyStrProofs DefsProofs DictProofs PieceProofs LengthProofs UrlProofs DigestProofs GroupProofs TreeProofs LoadProofs TokProofs LengthStage PieceStage EntProofs GenCluster FlatCluster TokUniq OuterCluster MakeProofs JsonProofs AnyBase AnyLevel AnyGen AnyFlat AnyMulti AnyOuter AnyMake.
From Coq Require Import Lia Permutation Sorted.

(** *** a cluster is what process() left unsplit *)
Section OC.
  Context (mcn : Z) (M2 : (2 <= mcn)%Z) (Cs : list (list str)) (CN : Cs <> []) (pd : nat) (kw : bool).
  Notation D := (length Cs).
  Notation inner := (fun (d : nat) (kw : bool) (t : tree) => cluster_n 1 mcn d d kw t).
  Lemma loop_fix : forall fuel t ts, ofull Cs t -> cluster_loop mcn inner fuel D pd kw t = Ok ts ->
    forall t', In t' ts -> exists t0, ofull Cs t0 /\ (0 < t_cnt t0)%Z /\ process mcn inner D pd kw t0 = Ok (t', false) /\ ents t' = ents t0 /\ t_val t' = t_val t0.
  Proof.
    induction fuel as [|fuel IH]; intros t ts F E t' I; [discriminate|]. cbn [cluster_loop] in E.
    destruct (t_cnt t <=? 0)%Z eqn:C0; [inversion E; subst; contradiction|]. apply Z.leb_gt in C0.
    destruct (process mcn inner D pd kw t) as [[t1 b]|e] eqn:EP; [|discriminate]. cbn [bind] in E.
    assert (X : exists p, t1 = annotate p t). { unfold process in EP. destruct (proc mcn inner D 0 pd kw [PN None [] t]) as [p|]; [|discriminate]. cbn [bind] in EP. inversion EP. exists p. reflexivity. }
    destruct X as (p & ->). destruct b; cbn [negb] in E.
    - destruct F as (F1 & F2 & F3).
      assert (D1 : (1 <= D)%nat) by (destruct Cs; [congruence|cbn; lia]).
      destruct (split_ok (oV Cs) (oVfun Cs) (oV0 Cs) D D1 meta_sorted meta_sorted_id (annotate p t)) as (ids & subs & S1 & _ & _ & S4 & _).
      { apply annotate_tok. exact F1. } { unfold metas_ok. rewrite annotate_ents. exact F3. }
      rewrite S1 in E. cbn [bind] in E. destruct (mapM _ subs) as [rs|] eqn:EM; [|discriminate]. cbn [bind] in E. inversion E; subst ts.
      apply in_concat in I. destruct I as (r & I1 & I2). apply mapM_out in EM.
      assert (Y : exists sub, In sub subs /\ cluster_loop mcn inner fuel D pd kw sub = Ok r). { clear - EM I1. induction EM as [|x y xs ys H EM IH]; [destruct I1|]. destruct I1 as [->|I1]; [exists x; split; [left; reflexivity|exact H]|]. destruct (IH I1) as (s & A & B). exists s. split; [right; exact A|exact B]. }
      destruct Y as (sub & Y1 & Y2). apply (IH sub r); [|exact Y2|exact I2].
      assert (Z : exists id, tok (oV Cs) D 0 sub /\ t_val sub = empty_parsed_piece /\ Permutation (ents sub) (map ent (filter (fun nodes => str_eqb id (path_id nodes)) (paths (annotate p t))))).
      { clear - S4 Y1. induction S4 as [|x y xs ys H S4 IH]; [destruct Y1|]. destruct Y1 as [->|Y1]; [exists x; exact H|auto]. }
      destruct Z as (id & Z1 & Z2 & Z3). split; [exact Z1|]. split; [exact Z2|]. apply Forall_forall. intros e J. apply (Permutation_in _ Z3) in J. apply in_map_iff in J. destruct J as (nodes & <- & J). apply filter_In in J.
      rewrite Forall_forall in F3. apply F3. rewrite <- (annotate_ents t p). apply in_map. apply J.
    - inversion E; subst ts. destruct I as [<-|[]]. exists t. split; [exact F|]. split; [exact C0|]. split; [exact EP|]. split; [apply annotate_ents|apply annotate_val].
  Qed.
  Lemma cluster_fix : forall t ts, ofull Cs t -> cluster_n 2 mcn D pd kw t = Ok ts -> forall t', In t' ts ->
    exists t0, ofull Cs t0 /\ ents t' = ents t0 /\ t_val t' = t_val t0 /\ cluster_n 2 mcn D pd kw t0 = Ok [t'].
  Proof.
    intros t ts F E t' I. cbn [cluster_n] in E. destruct (loop_fix _ t ts F E t' I) as (t0 & A & B & P & G & H). exists t0. split; [exact A|]. split; [exact G|]. split; [exact H|].
    change (cluster_loop mcn inner (S (length (paths t0))) D pd kw t0 = Ok [t']). cbn [cluster_loop]. rewrite (proj2 (Z.leb_gt _ _) B), P. reflexivity.
  Qed.
End OC.

(** *** the loads of one cluster *)
Lemma one_key : forall (st : list (str * maker)) k, NoDup (map fst st) -> (forall x, In x (map fst st) <-> x = k) -> exists mk, st = [(k, mk)].
Proof.
  intros [|[a mk] [|[b mk'] st]] k N K; cbn [map fst] in *.
  - destruct (proj2 (K k) eq_refl).
  - exists mk. do 2 f_equal. apply K. left. reflexivity.
  - exfalso. inversion N as [|? ? N1 _]; subst. apply N1. left. transitivity k; [apply K; right; left; reflexivity|symmetry; apply K; left; reflexivity].
Qed.
Lemma make_in : forall mcn st cs m t, make mcn st = Ok cs -> In (m, t) cs -> exists sid mk ts, In (sid, mk) st /\ m = mk_meta mk /\ maker_make mcn mk = Ok ts /\ In t ts.
Proof.
  intros mcn st cs m t E I. unfold make in E. destruct (mapM _ st) as [rs|] eqn:ER; [|discriminate]. cbn [bind] in E. inversion E; subst cs. apply in_concat in I. destruct I as (r & I1 & I2).
  apply mapM_out in ER. clear E. induction ER as [|[sid mk] r0 st rs H ER IH]; [destruct I1|]. destruct I1 as [->|I1].
  - cbn [snd] in H. destruct (maker_make mcn mk) as [ts|] eqn:EM; [|discriminate]. cbn [bind] in H. inversion H; subst r. apply in_map_iff in I2. destruct I2 as (t' & J & K). inversion J; subst. exists sid, mk, ts.
    split; [left; reflexivity|]. auto.
  - destruct (IH I1) as (a & b & c & A & B). exists a, b, c. split; [right; exact A|exact B].
Qed.
Lemma in_pieces : forall t ks, (exists nodes, In nodes (paths t) /\ path_pieces nodes = ks) <-> exists e, In e (ents t) /\ e_pieces e = ks.
Proof.
  intros t ks. assert (X : In ks (map path_pieces (paths t)) <-> In ks (map e_pieces (ents t))) by (rewrite ents_pieces; reflexivity). rewrite !in_map_iff in X.
  split; intros (x & A & B).
  - destruct (proj1 X (ex_intro _ x (conj B A))) as (y & C & D). exists y. auto.
  - destruct (proj2 X (ex_intro _ x (conj B A))) as (y & C & D). exists y. auto.
Qed.
Lemma c51 : forall nv h h' mcn cs m t, (2 <= mcn)%Z -> make mcn (loads nv h) = Ok cs -> In (m, t) cs ->
  (forall l, In l h' <-> In l h /\ of_cluster nv m t (fst l)) ->
  exists t', make mcn (loads nv h') = Ok [(m, t')] /\ same_cluster (m, t) (m, t').
Proof.
  intros nv h h' mcn cs m t M E I H'. destruct (make_in _ _ _ _ _ E I) as (sid & mk & ts & IM & -> & EM & IT). clear E I cs.
  destruct (maker_facts nv h sid mk IM) as (raw0 & F).
  assert (FE : forall e, In e (ents t) -> In e (ents (mk_root mk))).
  { destruct (maker_clusters nv h sid mk raw0 mcn M F) as (tps & A & B & _). rewrite A in EM. inversion EM; subst ts. intros e J. eapply Permutation_in; [exact B|]. apply in_flat_map. exists t. auto. }
  (* the loads of [h] at the entries of the maker *)
  assert (LO : forall e, In e (ents (mk_root mk)) -> exists url me raw, In (url, me) h /\ url_path nv url = Some (mk_meta mk, raw) /\ digest_of (mk_meta mk) raw = sid /\ map piece_of raw = e_pieces e).
  { intros e J. assert (X : In (e_pieces e) (map e_pieces (ents (mk_root mk)))) by (apply in_map; exact J). eapply Permutation_in in X; [|exact (mf_pcs _ _ _ _ _ F)].
    apply in_map_iff in X. destruct X as (r & X1 & X2). unfold distinct_paths in X2. apply nodup_In in X2. apply in_map_iff in X2. destruct X2 as ([r' me] & X3 & X2). cbn [fst] in X3. subst r'.
    apply in_group in X2. destruct X2 as (url & m & U1 & U2 & U3). destruct (mf_url _ _ _ _ _ F) as [url0 U0].
    destruct (proj1 (digest_iff _ _ _ _ _ _ _ U2 U0)) as [EQ _]; [rewrite U3, (mf_dig _ _ _ _ _ F); reflexivity|]. subst m. exists url, me, r. auto. }
  assert (OC : forall url raw, url_path nv url = Some (mk_meta mk, raw) -> (exists e, In e (ents t) /\ e_pieces e = map piece_of raw) -> of_cluster nv (mk_meta mk) t url).
  { intros url raw U X. apply in_pieces in X. destruct X as (nodes & X1 & X2). exists raw, nodes. auto. }
  assert (CO : forall url, of_cluster nv (mk_meta mk) t url -> exists raw, url_path nv url = Some (mk_meta mk, raw) /\ digest_of (mk_meta mk) raw = sid /\ exists e, In e (ents t) /\ e_pieces e = map piece_of raw).
  { intros url (raw & nodes & U & X1 & X2). destruct (proj1 (in_pieces t (map piece_of raw)) (ex_intro _ nodes (conj X1 X2))) as (e & J & P). exists raw. split; [exact U|]. split; [|exists e; auto].
    destruct (LO e (FE e J)) as (url2 & me & raw2 & _ & U2 & D2 & P2). assert (raw = raw2) as ->; [|exact D2]. apply pieces_inj.
    - apply (url_path_parse _ _ _ _ U). - apply (url_path_parse _ _ _ _ U2). - congruence. }
  (* one maker *)
  destruct (one_key (loads nv h') sid) as (mk' & EL).
  { apply c18_keys. }
  { intros x. rewrite (proj2 (c18_keys nv h') x). split.
    - intros (m & raw & me & A & D). apply in_accepted in A. destruct A as (url & A & U). apply H' in A. destruct A as [_ A]. cbn [fst] in A. destruct (CO url A) as (raw2 & U2 & D2 & _). rewrite U in U2. inversion U2; subst. reflexivity.
    - intros ->. destruct (ents t) as [|e es] eqn:ET; [destruct (ents_nonnil t ET)|]. destruct (LO e) as (url & me & raw & A & U & D & P); [apply FE; left; reflexivity|].
      exists (mk_meta mk), raw, me. split; [|exact D]. apply in_accepted. exists url. split; [|exact U]. apply H'. split; [exact A|]. cbn [fst]. apply (OC url raw U). exists e. split; [left; reflexivity|symmetry; exact P]. }
  assert (I' : In (sid, mk') (loads nv h')) by (rewrite EL; left; reflexivity).
  destruct (maker_facts nv h' sid mk' I') as (raw' & F').
  destruct (mf_url _ _ _ _ _ F) as [url0 U0]. destruct (mf_url _ _ _ _ _ F') as [url0' U0'].
  destruct (proj1 (digest_iff _ _ _ _ _ _ _ U0 U0')) as [EQ SS]; [rewrite (mf_dig _ _ _ _ _ F), (mf_dig _ _ _ _ _ F'); reflexivity|].
  pose proof (ss_cset raw0 raw' (mf_leg _ _ _ _ _ F) (mf_leg _ _ _ _ _ F') SS) as EC.
  assert (CN : map cset raw0 <> []) by (destruct raw0; [destruct (mf_non _ _ _ _ _ F eq_refl)|discriminate]).
  assert (CL : length (map cset raw0) = depth (mk_meta mk)) by (rewrite map_length; exact (mf_dep _ _ _ _ _ F)).
  pose proof (mf_tok _ _ _ _ _ F) as W. pose proof (mf_tok _ _ _ _ _ F') as W'. rewrite <- (map_length cset raw0) in W. rewrite <- (map_length cset raw'), <- EC in W'.
  assert (OF : ofull (map cset raw0) (mk_root mk)) by (split; [exact W|split; apply F]).
  assert (OF' : ofull (map cset raw0) (mk_root mk')) by (split; [exact W'|split; apply F']).
  unfold maker_make, cluster in EM. rewrite <- CL in EM. destruct (cluster_fix mcn (map cset raw0) CN _ _ _ _ OF EM t IT) as (t0 & O0 & E0 & V0 & C0).
  assert (TS : tSame t0 (mk_root mk')).
  { split; [rewrite (proj1 (proj2 O0)), (mf_val _ _ _ _ _ F'); reflexivity|].
    assert (ME : forall e e', In e (ents (mk_root mk)) -> In e (ents t) -> In e' (ents (mk_root mk')) -> e_pieces e' = e_pieces e -> e' = e).
    { intros e e' J JT J' P. apply (entry_eq (map cset raw0)).
      - apply (ents_ostrs (map cset raw0) (mk_root mk')); [exact W'|exact J'].
      - apply (ents_ostrs (map cset raw0) (mk_root mk)); [exact W|exact J].
      - exact P.
      - pose proof (mf_cnt _ _ _ _ _ F) as C. pose proof (mf_cnt _ _ _ _ _ F') as C'. rewrite Forall_forall in C, C'. rewrite (C e J), (C' e' J'). reflexivity.
      - rewrite (mf_mem _ _ _ _ _ F e J), (mf_mem _ _ _ _ _ F' e' J'), P.
        destruct (loads_maker nv h sid mk IM) as [_ [(u1 & r1 & A1 & A2 & A3 & A4)]]. destruct (loads_maker nv h' sid mk' I') as [_ [(u2 & r2 & B1 & B2 & B3 & B4)]].
        assert (LE : length (e_pieces e) = depth (mk_meta mk)). { destruct (in_ents _ _ (proj1 (proj2 W)) e J) as (_ & _ & L & _). rewrite L. exact CL. }
        assert (NE : e_pieces e <> []). { intros X. rewrite X in LE. destruct (url_path_depth _ _ _ _ A1) as [D N]. rewrite <- D in LE. destruct r1; [congruence|discriminate]. }
        destruct (url_path_depth _ _ _ _ A1) as [D1 _]. destruct (url_path_depth _ _ _ _ B1) as [D2 _].
        rewrite (ok_meta _ _ _ A4), (ok_meta _ _ _ B4) by (try exact NE; unfold LoadProofs.level_vals; rewrite map_length; congruence).
        apply meta_set_ext. intros x. rewrite !path_metas_in. unfold keyed. rewrite !in_map_iff. split; intros ([r me] & X1 & X2); exists (r, me); (split; [exact X1|]); cbn [fst snd] in X1; injection X1 as X1 ->; apply in_group in X2; destruct X2 as (url & m & Y1 & Y2 & Y3); apply in_group; exists url, m; (split; [|split; [exact Y2|exact Y3]]).
        + apply H' in Y1. apply Y1.
        + apply H'. split; [exact Y1|]. cbn [fst]. destruct (proj1 (digest_iff _ _ _ _ _ _ _ Y2 U0)) as [-> _]; [rewrite Y3, (mf_dig _ _ _ _ _ F); reflexivity|].
          apply (OC url r Y2). exists e. split; [exact JT|symmetry; exact X1]. }
    intros e. rewrite <- E0. split.
    - intros J. destruct (LO e (FE e J)) as (url & me & raw & A & U & D & P).
      assert (X : In (e_pieces e) (map e_pieces (ents (mk_root mk')))).
      { eapply Permutation_in; [symmetry; exact (mf_pcs _ _ _ _ _ F')|]. rewrite <- P. apply in_map. unfold distinct_paths. apply nodup_In. apply in_map_iff. exists (raw, me). split; [reflexivity|].
        apply in_group. exists url, (mk_meta mk). split; [|auto]. apply H'. split; [exact A|]. apply (OC url raw U). exists e. auto. }
      apply in_map_iff in X. destruct X as (e' & X1 & X2). rewrite <- (ME e e' (FE e J) J X2 X1). exact X2.
    - intros J. assert (X : In (e_pieces e) (map e_pieces (ents (mk_root mk')))) by (apply in_map; exact J). eapply Permutation_in in X; [|exact (mf_pcs _ _ _ _ _ F')].
      apply in_map_iff in X. destruct X as (r & X1 & X2). unfold distinct_paths in X2. apply nodup_In in X2. apply in_map_iff in X2. destruct X2 as ([r' me] & X3 & X2). cbn [fst] in X3. subst r'.
      apply in_group in X2. destruct X2 as (url & m & Y1 & Y2 & Y3). apply H' in Y1. destruct Y1 as [_ Y1]. cbn [fst] in Y1. destruct (CO url Y1) as (raw2 & V1 & _ & e2 & V2 & V3). rewrite Y2 in V1. inversion V1; subst raw2.
      rewrite (ME e2 e (FE e2 V2) V2 J); [exact V2|congruence]. }
  destruct (outer_inv mcn M (map cset raw0) CN _ _ _ _ _ _ O0 OF' TS C0 (cluster_n_is_any 2 mcn _ (path_depth (mk_meta mk)) false (mk_root mk'))) as (ts' & C1 & P).
  pose proof (PL_length _ _ _ P) as PLn. destruct ts' as [|t' [|]]; try discriminate PLn. destruct (PL_in _ _ _ t P (or_introl eq_refl)) as (t1 & [->|[]] & OS). exists t1. split; [|apply (oSame_cluster (map cset raw0)); exact OS].
  unfold make. rewrite EL. cbn [mapM snd]. unfold maker_make, cluster. rewrite <- EQ, <- CL, C1. reflexivity.
Qed.
