(** make() on URLs that differ at one position (C52). *)
From Coq Require Import String.
From Verif Require Import PyStr Defs UrlLib ParseUtils Views Trees Cluster Spec Patterns Matcher Maker Observe MatchSpec OneSpec PyStrProofs DefsProofs DictProofs RegexProofs PieceProofs LengthProofs BridgeProofs GroupProofs TreeProofs LoadProofs TokProofs LengthStage PieceStage EntProofs GenCluster FlatCluster OuterCluster MakeProofs AnyOuter AnyMake TightProofs Stable OneLevel OneTree OneCluster.
From Coq Require Import Lia Permutation.

Lemma in_space_one : forall r s, all_legal s -> in_space r s -> one_sp r s.
Proof.
  intros r s L [N H]. split; [exact N|]. apply Forall_forall. intros c I. rewrite <- (H c I). apply legal_space. apply all_legal_iff in L. rewrite Forall_forall in L. apply L. exact I.
Qed.
Lemma one_piece : forall r s, one_sp r s -> piece (pp_of s) = run_text s.
Proof.
  intros r s H. unfold piece, pp_of. cbn [pieces]. rewrite (one_runs r s H). cbn [map List.concat]. rewrite app_nil_r. apply (run_text_render r s). destruct H as [N F]. split; [exact N|]. exact F.
Qed.
Lemma one_pattern_ok : forall mcn r ss s, (2 <= mcn)%Z -> NoDup ss -> Forall (one_sp r) ss -> In s ss -> one_pattern mcn r ss s (pstr s (okind mcn ss s)).
Proof.
  intros mcn r ss s M ND ON I. pose proof (okind_kok mcn M r ss s ND ON I) as KO. rewrite Forall_forall in ON. pose proof (ON s I) as O. pose proof (one_piece r s O) as EP. pose proof (one_cset r s O) as EC.
  assert (SP : okind mcn ss s = KSpec -> TokProofs.pl s = N.of_nat (length s)).
  { intros K. rewrite K in KO. apply N2Z.inj. rewrite (one_pl r s O), nat_N_Z. unfold bs. destruct (str_eqb_spec r BS_RULE) as [->|]; [|lia]. exfalso. apply (sign_no_spec s BS_RULE); [eapply one_legal; exact O|exact EC|reflexivity|exact KO]. }
  unfold one_pattern, mixed_lengths. cbv zeta.
  assert (MX : (mcn <= Z.of_nat (length ss))%Z -> mixb mcn ss = true <-> ((mcn <= Z.of_nat (length (lengths ss)))%Z \/ (mcn <= Z.of_nat (largest ss) /\ mcn <= Z.of_nat (length ss) - Z.of_nat (largest ss))%Z \/ (Z.abs (Z.of_nat (largest ss) - (Z.of_nat (length ss) - Z.of_nat (largest ss))) < mcn - 1)%Z)).
  { intros L. unfold mixb, confused. rewrite (proj2 (Z.ltb_ge _ _) L), orb_true_iff, Z.leb_le. destruct (_ && _)%bool eqn:B; [apply andb_true_iff in B; rewrite !Z.leb_le in B; tauto|]. apply andb_false_iff in B. rewrite !Z.leb_gt in B. rewrite Z.ltb_lt. split; [tauto|]. intros [?|[?|?]]; [tauto|lia|tauto]. }
  unfold okind in *. destruct (Z.ltb_spec (Z.of_nat (length ss)) mcn) as [L|L].
  - split; [intros _; exact EP|]. split; [|split]; intros X; lia.
  - specialize (MX L). split; [intros X; lia|]. destruct (mixb mcn ss).
    + split; [intros _ _; cbn [pstr]; rewrite EC; apply (unit_cunit [r] None)|]. split; intros _ X; exfalso; apply X; apply MX; reflexivity.
    + split; [intros _ X; apply MX in X; discriminate|]. destruct (Z.leb_spec mcn (Z.of_nat (length (of_length (length s) ss)))) as [Q|Q].
      * split; [intros _ _ _|intros _ _ X; lia]. cbn [pstr]. rewrite EC, (SP eq_refl). apply (unit_cunit [r] (Some _)).
      * split; [intros _ _ X; lia|]. intros _ _ _. exact EP.
Qed.
Lemma same_spaces_refl : forall s, same_spaces s s.
Proof. intros s. split; intros x I; exists x; (split; [exact I|apply same_space_refl]). Qed.
Lemma one_same : forall r a b, one_sp r a -> one_sp r b -> same_spaces a b.
Proof.
  intros r a b [NA FA] [NB FB]. rewrite Forall_forall in FA, FB. assert (X : forall x y, In x a -> In y b -> same_space x y) by (intros x y X Y; apply (same_space_rule x y r r (FA x X) (FB y Y)); reflexivity).
  split; intros x I.
  - destruct b as [|y b]; [congruence|]. exists y. split; [left; reflexivity|]. apply X; [exact I|left; reflexivity].
  - destruct a as [|y a]; [congruence|]. exists y. split; [left; reflexivity|]. apply X; [left; reflexivity|exact I].
Qed.
Lemma c52 : forall nv h mcn m pre post r ss, (2 <= mcn)%Z -> one_varies nv h m pre post r ss ->
  exists cs, make mcn (loads nv h) = Ok cs /\
    (forall m' t nodes, In (m', t) cs -> In nodes (paths t) -> m' = m /\ exists s P, In s ss /\ path_pieces nodes = map piece_of (pre ++ s :: post) /\
       one_pattern mcn r ss s P /\ path_patterns nodes = map piece_of pre ++ P :: map piece_of post) /\
    NoDup (map (fun mt => path_patterns (hd [] (paths (snd mt)))) cs) /\
    (forall s, In s ss -> exists t nodes, In (m, t) cs /\ In nodes (paths t) /\ path_pieces nodes = map piece_of (pre ++ s :: post)).
Proof.
  intros nv h mcn m pre post r ss M (ND & H1 & H2).
  assert (LG : forall s, In s ss -> Forall all_legal (pre ++ s :: post) /\ one_sp r s).
  { intros s I. apply H2 in I. destruct I as (url & me & I & U). pose proof (proj1 (proj2 (url_path_parse _ _ _ _ U))) as L. split; [exact L|]. destruct (H1 _ _ _ _ I U) as (_ & s' & E & S). apply app_inv_head in E. injection E as <-.
    apply in_space_one; [|exact S]. apply Forall_app in L. destruct L as [_ L]. inversion L. assumption. }
  destruct ss as [|s0 ss0].
  { assert (E : loads nv h = []). { destruct (loads nv h) as [|[k mk] st] eqn:E; [reflexivity|]. exfalso. destruct (proj1 (proj2 (c18_keys nv h) k)) as (m' & raw & me & A & _); [rewrite E; left; reflexivity|]. apply in_accepted in A. destruct A as (url & A & U).
      destruct (H1 _ _ _ _ A U) as (-> & s & -> & _). apply (H2 s). exists url, me. auto. }
    rewrite E. exists []. split; [reflexivity|]. split; [intros ? ? ? []|]. split; [constructor|intros ? []]. }
  set (ss := s0 :: ss0) in *. assert (I0 : In s0 ss) by (left; reflexivity). destruct (proj1 (H2 s0) I0) as (url0 & me0 & A0 & U0).
  assert (ALL : forall url me m' raw, In (url, me) h -> url_path nv url = Some (m', raw) -> m' = m /\ exists s, In s ss /\ raw = pre ++ s :: post).
  { intros url me m' raw A U. destruct (H1 _ _ _ _ A U) as (-> & s & -> & _). split; [reflexivity|]. exists s. split; [|reflexivity]. apply H2. exists url, me. auto. }
  assert (SD : forall s, In s ss -> digest_of m (pre ++ s :: post) = digest_of m (pre ++ s0 :: post)).
  { intros s I. destruct (proj1 (H2 s) I) as (url & me & A & U). apply (digest_iff _ _ _ _ _ _ _ U U0). split; [reflexivity|]. apply Forall2_app; [|constructor].
    - clear. induction pre; constructor; [apply same_spaces_refl|assumption].
    - apply (one_same r); apply LG; assumption.
    - clear. induction post; constructor; [apply same_spaces_refl|assumption]. }
  set (sid := digest_of m (pre ++ s0 :: post)) in *.
  destruct (one_key (loads nv h) sid) as (mk & EL).
  { apply c18_keys. }
  { intros x. rewrite (proj2 (c18_keys nv h) x). split.
    - intros (m' & raw & me & A & D). apply in_accepted in A. destruct A as (url & A & U). destruct (ALL _ _ _ _ A U) as (-> & s & I & ->). rewrite <- D. apply SD. exact I.
    - intros ->. exists m, (pre ++ s0 :: post), me0. split; [|reflexivity]. apply in_accepted. exists url0. auto. }
  assert (IM : In (sid, mk) (loads nv h)) by (rewrite EL; left; reflexivity).
  destruct (maker_facts nv h sid mk IM) as (raw0 & F). destruct (mf_url _ _ _ _ _ F) as [url1 U1].
  destruct (proj1 (digest_iff _ _ _ _ _ _ _ U1 U0)) as [EQ _]; [rewrite (mf_dig _ _ _ _ _ F); reflexivity|].
  assert (CN : map cset raw0 <> []) by (destruct raw0; [destruct (mf_non _ _ _ _ _ F eq_refl)|discriminate]).
  assert (CL : length (map cset raw0) = depth (mk_meta mk)) by (rewrite map_length; exact (mf_dep _ _ _ _ _ F)).
  pose proof (mf_tok _ _ _ _ _ F) as W. rewrite <- (map_length cset raw0) in W.
  assert (PC : forall s, In s ss -> map piece_of (pre ++ s :: post) = map piece_of pre ++ piece (pp_of s) :: map piece_of post).
  { intros s I. rewrite map_app. cbn [map]. do 2 f_equal. unfold piece_of. rewrite piece_parse_legal; [reflexivity|]. eapply one_legal. apply LG. exact I. }
  assert (ON : Forall (one_sp r) ss) by (apply Forall_forall; intros s I; apply LG; exact I).
  assert (SH : shape (map cset raw0) r (map piece_of pre) (map piece_of post) (mk_root mk) ss).
  { split; [split; [exact W|]; split; apply F|]. split; [apply F|]. split; [split; [exact ND|exact ON]|]. intros ks.
    assert (X : (exists e, In e (ents (mk_root mk)) /\ e_pieces e = ks) <-> In ks (map (map piece_of) (distinct_paths nv sid h))).
    { transitivity (In ks (map e_pieces (ents (mk_root mk)))).
      - rewrite in_map_iff. split; intros (e & A & B); exists e; auto.
      - split; apply Permutation_in; [|symmetry]; exact (mf_pcs _ _ _ _ _ F). }
    rewrite X, in_map_iff. unfold distinct_paths. split.
    - intros (raw & <- & I). apply nodup_In in I. apply in_map_iff in I. destruct I as ([raw' me] & E & I). cbn [fst] in E. subst raw'. apply in_group in I. destruct I as (url & m' & A & U & _). destruct (ALL _ _ _ _ A U) as (-> & s & I & ->). exists s. split; [exact I|]. apply PC. exact I.
    - intros (s & I & ->). exists (pre ++ s :: post). split; [apply PC; exact I|]. apply nodup_In. destruct (proj1 (H2 s) I) as (url & me & A & U). apply in_map_iff. exists (pre ++ s :: post, me). split; [reflexivity|]. apply in_group. exists url, m. auto. }
  destruct (one_cluster mcn M (map cset raw0) CN (path_depth (mk_meta mk)) r _ _ (mk_root mk) ss SH) as (ts & T1 & T2 & T3 & T4).
  exists (map (fun t => (mk_meta mk, t)) ts). split; [|split; [|split]].
  - unfold make. rewrite EL. cbn [mapM snd]. unfold maker_make, cluster. rewrite <- CL, T1. cbn [bind List.concat]. rewrite app_nil_r. reflexivity.
  - intros m' t nodes I J. apply in_map_iff in I. destruct I as (t' & E & I). injection E as <- ->. split; [exact EQ|]. destruct (T2 t I) as (q & Q). destruct (Q nodes J) as (s & A & B & C & D). exists s, q. split; [exact A|]. split; [rewrite (PC s A); exact B|]. split; [|exact D].
    rewrite <- C. apply one_pattern_ok; assumption.
  - rewrite map_map. exact T3.
  - intros s I. destruct (T4 s I) as (t & A & nodes & B & C). exists t, nodes. split; [apply in_map_iff; exists t; rewrite EQ; auto|]. split; [exact B|]. rewrite (PC s I). exact C.
Qed.
