(** What make() says about the loads: metadata, patterns, sizes of the clusters. *)
From Coq Require Import String.
From Verif Require Import PyStr Defs UrlLib ParseUtils Spec Views Trees Cluster Patterns Matcher Maker Observe PyStrProofs DefsProofs DictProofs RegexProofs PieceProofs LengthProofs QueryProofs BridgeProofs UrlProofs PackProofs UnitProofs DigestProofs TreeProofs LoadProofs TokProofs EntProofs GenCluster FlatCluster ViewProofs OuterLevel OuterCluster MakeProofs PatUnits.
From Coq Require Import Lia Permutation.

Lemma in_paths_ent : forall t nodes, In nodes (paths t) -> In (ent nodes) (ents t).
Proof. intros t nodes I. unfold ents. apply in_map. exact I. Qed.
Lemma ent_pieces_path : forall nodes, e_pieces (ent nodes) = path_pieces nodes.
Proof. intros nodes. unfold e_pieces, e_path, ent, path_pieces. cbn [fst]. rewrite map_map. reflexivity. Qed.

(** a path of a cluster and the load it comes from *)
Lemma cluster_path : forall nv h mcn cs m t, (2 <= mcn)%Z -> make mcn (loads nv h) = Ok cs -> In (m, t) cs ->
  exists Ps sid mk, length Ps = depth m /\ In (sid, mk) (loads nv h) /\ mk_meta mk = m
    /\ (forall nodes, In nodes (paths t) -> path_patterns nodes = Ps)
    /\ (forall nodes, In nodes (paths t) -> exists raw, path_pieces nodes = map piece_of raw /\ Forall all_legal raw
          /\ In raw (distinct_paths nv sid h) /\ Forall2 opat raw Ps /\ vpats (path_depth m) raw Ps)
    /\ ((t_cnt t < mcn)%Z -> forall nodes, In nodes (paths t) -> Ps = path_pieces nodes)
    /\ (forall nodes, In nodes (paths t) -> t_cnt (path_leaf nodes) = 1%Z /\ t_meta (path_leaf nodes) = meta_at (mk_root mk) (path_pieces nodes))
    /\ NoDup (map path_pieces (paths t))
    /\ t_cnt t = Z.of_nat (length (paths t))
    /\ (forall l q, nth_error Ps l = Some q -> tight (path_depth m =? S l) (fun s => exists nodes raw, In nodes (paths t) /\ Forall all_legal raw /\ path_pieces nodes = map piece_of raw /\ nth_error raw l = Some s) q).
Proof.
  intros nv h mcn cs m t M E I. destruct (make_ok nv h mcn cs M E) as [_ X]. destruct (X m t I) as (Ps & sid & mk & raw0 & IM & EM & MF & W & (LP & PP & OP & SM & TG) & SUB).
  exists Ps, sid, mk. split; [rewrite LP, map_length, (mf_dep _ _ _ _ _ MF); congruence|]. split; [exact IM|]. split; [congruence|]. split; [exact PP|].
  assert (WT := proj1 (proj2 W)).
  assert (ONE : Forall (fun e => e_cnt e = 1%Z) (ents t)).
  { apply Forall_forall. intros e IE. pose proof (mf_cnt _ _ _ _ _ MF) as C1. rewrite Forall_forall in C1. apply C1. apply SUB. exact IE. }
  split; [|split; [|split; [|split; [|split]]]].
  - intros nodes IN. pose proof (in_paths_ent _ _ IN) as IE. destruct (ents_ostrs _ t W _ IE) as (ss & ES).
    pose proof (OP _ _ IE ES) as F2. pose proof (ostrs_pieces _ _ _ ES) as EP. destruct ES as (_ & LS & _).
    assert (J : In (e_pieces (ent nodes)) (map (map piece_of) (distinct_paths nv sid h))).
    { eapply Permutation_in; [apply (mf_pcs _ _ _ _ _ MF)|]. apply in_map. apply SUB. exact IE. }
    apply in_map_iff in J. destruct J as (raw & ER & IR).
    assert (LR : Forall all_legal raw) by (unfold distinct_paths in IR; apply nodup_In in IR; eapply group_legal; exact IR).
    assert (raw = ss). { apply pieces_inj; [exact LR|exact LS|]. rewrite ER, EP. rewrite piece_of_legal by exact LS. rewrite map_map. reflexivity. }
    subst ss. exists raw. rewrite <- ent_pieces_path. rewrite ER. split; [reflexivity|]. split; [exact LR|]. split; [exact IR|]. split; [eapply vpats_opats; exact F2|]. rewrite EM. exact F2.
  - intros SMALL nodes IN. rewrite <- ent_pieces_path. apply (SM SMALL). apply in_paths_ent. exact IN.
  - intros nodes IN. pose proof (in_paths_ent _ _ IN) as IE. rewrite Forall_forall in ONE. split; [exact (ONE _ IE)|].
    rewrite <- ent_pieces_path. rewrite <- (mf_mem _ _ _ _ _ MF) by (apply SUB; exact IE). reflexivity.
  - rewrite <- ents_pieces. eapply ents_NoDup. exact WT.
  - rewrite (ents_cnt _ _ WT). replace (length (paths t)) with (length (ents t)) by (unfold ents; apply map_length).
    clear - ONE. induction ONE as [|e l H F IH]; [reflexivity|]. cbn [map zsum length]. unfold zsum in *. cbn [fold_right]. lia.
  - intros l q Q. rewrite <- EM in *. apply (tight_ext _ (fun s => exists e ss, In e (ents t) /\ ostrs (map cset raw0) e ss /\ nth_error ss l = Some s)); [|apply TG; exact Q].
    assert (EP : forall e ss, ostrs (map cset raw0) e ss -> Forall all_legal ss /\ e_pieces e = map piece_of ss).
    { intros e ss ES. pose proof (ostrs_pieces _ _ _ ES) as EX. destruct ES as (_ & LS & _). split; [exact LS|]. rewrite EX, piece_of_legal by exact LS. rewrite map_map. reflexivity. }
    intros s. split.
    + intros (e & ss & Ie & ES & NS). destruct (EP e ss ES) as [LS EX]. unfold ents in Ie. apply in_map_iff in Ie. destruct Ie as (nodes & <- & Ie). exists nodes, ss.
      split; [exact Ie|]. split; [exact LS|]. split; [|exact NS]. rewrite <- ent_pieces_path. exact EX.
    + intros (nodes & raw & IN & LR & ER & NS). pose proof (in_paths_ent _ _ IN) as IE. destruct (ents_ostrs _ t W _ IE) as (ss & ES). destruct (EP _ ss ES) as [LS EX].
      exists (ent nodes), ss. split; [exact IE|]. split; [exact ES|]. assert (raw = ss) as <-; [|exact NS]. apply pieces_inj; [exact LR|exact LS|]. rewrite <- ER, <- EX. symmetry. apply ent_pieces_path.
Qed.

(** C20: metadata and counts *)
Lemma c20_meta : forall nv h mcn cs m t nodes raw, (2 <= mcn)%Z -> make mcn (loads nv h) = Ok cs -> In (m, t) cs -> In nodes (paths t) ->
  Forall (Forall legal) raw -> path_pieces nodes = map piece_of raw ->
  t_cnt (path_leaf nodes) = 1%Z /\
  match t_meta (path_leaf nodes) with
  | None => forall x, ~ In (m, raw, Some x) (accepted nv h)
  | Some l => l <> [] /\ NoDup l /\ forall x, In x l <-> In (m, raw, Some x) (accepted nv h)
  end.
Proof.
  intros nv h mcn cs m t nodes raw M E I IN LR EP. destruct (cluster_path nv h mcn cs m t M E I) as (Ps & sid & mk & _ & IM & EM & _ & PR & _ & LF & _ & _).
  destruct (LF nodes IN) as [C1 MT]. destruct (PR nodes IN) as (raw' & EP' & LR' & IR & _).
  assert (raw' = raw). { apply pieces_inj; [exact LR'| |congruence]. eapply Forall_impl; [|exact LR]. intros a Ha. apply all_legal_iff. exact Ha. }
  subst raw'. split; [exact C1|]. rewrite MT, EP. destruct (c16 nv h sid mk raw IM IR) as [_ X]. rewrite EM in X. exact X.
Qed.
Lemma c20_count : forall nv h mcn cs m t, (2 <= mcn)%Z -> make mcn (loads nv h) = Ok cs -> In (m, t) cs ->
  t_cnt t = Z.of_nat (length (paths t)) /\ paths t <> [].
Proof.
  intros nv h mcn cs m t M E I. destruct (cluster_path nv h mcn cs m t M E I) as (Ps & sid & mk & _ & _ & _ & _ & _ & _ & _ & _ & C & _).
  split; [exact C|]. intros N. apply (ents_nonnil t). unfold ents. rewrite N. reflexivity.
Qed.
(** C21 *)
Lemma c21 : forall nv h mcn cs m t, (2 <= mcn)%Z -> make mcn (loads nv h) = Ok cs -> In (m, t) cs ->
  exists Ps, length Ps = depth m /\ forall nodes, In nodes (paths t) -> path_patterns nodes = Ps.
Proof.
  intros nv h mcn cs m t M E I. destruct (cluster_path nv h mcn cs m t M E I) as (Ps & sid & mk & L & _ & _ & PP & _). exists Ps. auto.
Qed.
(** C24 *)
Lemma c24 : forall nv h mcn cs m t, (2 <= mcn)%Z -> make mcn (loads nv h) = Ok cs -> In (m, t) cs ->
  (exists nodes, paths t = [nodes] /\ path_patterns nodes = path_pieces nodes) \/ (mcn <= Z.of_nat (length (paths t)))%Z.
Proof.
  intros nv h mcn cs m t M E I. destruct (cluster_path nv h mcn cs m t M E I) as (Ps & sid & mk & L & _ & _ & PP & _ & SM & _ & ND & C & _).
  destruct (Z.lt_ge_cases (t_cnt t) mcn) as [S|S]; [left|right; lia]. specialize (SM S).
  destruct (c20_count nv h mcn cs m t M E I) as [_ NN]. destruct (paths t) as [|a [|b r]]; [congruence| |].
  - exists a. split; [reflexivity|]. rewrite (PP a) by (left; reflexivity). apply SM. left. reflexivity.
  - exfalso. cbn [map] in ND. inversion ND as [|? ? N1 _]; subst. apply N1. left. rewrite <- (SM a), <- (SM b); [reflexivity|right; left; reflexivity|left; reflexivity].
Qed.

(** ** C22 *)
Lemma opat_matches : forall s P, all_legal s -> ~ In 92%N s -> opat s P -> regex_matches P s.
Proof. intros s P L B O. destruct (opat_upat s P L O) as (us & U). eapply upat_matches; eassumption. Qed.
Lemma c22_pieces : forall nv h mcn cs m t nodes raw, (2 <= mcn)%Z -> make mcn (loads nv h) = Ok cs -> In (m, t) cs -> In nodes (paths t) ->
  Forall (Forall legal) raw -> path_pieces nodes = map piece_of raw -> Forall (fun w => ~ In 92%N w) raw ->
  Forall2 regex_matches (path_patterns nodes) raw.
Proof.
  intros nv h mcn cs m t nodes raw M E I IN LR EP NB. destruct (cluster_path nv h mcn cs m t M E I) as (Ps & sid & mk & L & _ & _ & PP & PR & _).
  destruct (PR nodes IN) as (raw' & EP' & LR' & IR & F2 & _).
  assert (raw' = raw). { apply pieces_inj; [exact LR'| |congruence]. eapply Forall_impl; [|exact LR]. intros a Ha. apply all_legal_iff. exact Ha. }
  subst raw'. rewrite (PP nodes IN). clear - LR' NB F2. induction F2 as [|s P raw Ps O F2 IH]; [constructor|]. inversion LR'; inversion NB; subst.
  constructor; [apply opat_matches; assumption|apply IH; assumption].
Qed.
Lemma plain1 : forall c, is_plain c = true -> regex_matches [c] [c].
Proof.
  intros c P. exists (map (fun c => RT [IChar c] (Some 1%N)) [c]). split; [apply rparse_plain; constructor; [exact P|constructor]|].
  cbn. exists [c], []. split; [reflexivity|]. split; [constructor; [cbn; rewrite N.eqb_refl; reflexivity|constructor]|]. split; reflexivity.
Qed.
Lemma join_cons2 : forall (c : char) (a b : str) l, join [c] (a :: b :: l) = a ++ [c] ++ join [c] (b :: l).
Proof. intros. apply join_cons. Qed.
Lemma join_matches : forall c, is_plain c = true -> forall Ps raw, Forall2 regex_matches Ps raw -> regex_matches (join [c] Ps) (join [c] raw).
Proof.
  intros c P Ps raw F. induction F as [|p w Ps raw H F IH]; [apply regex_matches_nil|]. inversion F as [|p' w' Ps' raw' H' F']; subst.
  - cbn. exact H.
  - rewrite !join_cons2. apply regex_matches_app; [exact H|]. apply regex_matches_app; [apply plain1; exact P|exact IH].
Qed.
Lemma squeeze_plain : forall w r, ~ In SLASH w -> squeeze (w ++ r) = w ++ squeeze r.
Proof.
  induction w as [|c w IH]; intros r N; [reflexivity|]. cbn [app squeeze]. destruct (N.eqb_spec c 47) as [->|]; [exfalso; apply N; left; reflexivity|].
  cbn [andb]. rewrite IH by (intros I; apply N; right; exact I). reflexivity.
Qed.
Lemma filter_useless_cons : forall (a : str) l, l <> [] -> filter_useless nonempty (a :: l) = (if nonempty a then [a] else []) ++ filter_useless nonempty l.
Proof.
  intros a l N. destruct (exists_last N) as (l' & x & ->). rewrite app_comm_cons, !filter_useless_snoc. cbn [filter]. destruct (nonempty a); reflexivity.
Qed.
Lemma squeeze_segs : forall segs, segs <> [] -> Forall (fun w => ~ In SLASH w) segs ->
  squeeze (SLASH :: join [SLASH] segs) = SLASH :: join [SLASH] (filter_useless nonempty segs).
Proof.
  induction segs as [|w segs IH]; intros N F; [congruence|]. inversion F as [|? ? W F']; subst. destruct segs as [|x segs].
  - change (join [SLASH] [w]) with w. change (filter_useless nonempty [w]) with [w]. change (join [SLASH] [w]) with w.
    destruct w as [|c w]; [reflexivity|]. cbn [squeeze]. destruct (N.eqb_spec c 47) as [->|]; [exfalso; apply W; left; reflexivity|].
    rewrite andb_false_r. f_equal. rewrite <- (app_nil_r w). rewrite (squeeze_plain w); [reflexivity|]. intros I; apply W; right; exact I.
  - rewrite join_cons2. assert (NX : x :: segs <> []) by discriminate. specialize (IH NX F'). rewrite filter_useless_cons by discriminate.
    destruct w as [|c w].
    + cbn [app nonempty]. change (squeeze (SLASH :: SLASH :: join [SLASH] (x :: segs))) with (squeeze (SLASH :: join [SLASH] (x :: segs))). exact IH.
    + change (nonempty (c :: w)) with true. cbn iota. change ([c :: w] ++ filter_useless nonempty (x :: segs)) with ((c :: w) :: filter_useless nonempty (x :: segs)).
      assert (NF : filter_useless nonempty (x :: segs) <> []) by (intros Z; apply filter_useless_nil in Z; discriminate).
      destruct (filter_useless nonempty (x :: segs)) as [|y l]; [congruence|]. rewrite join_cons2.
      assert (Q : squeeze (SLASH :: (c :: w) ++ [SLASH] ++ join [SLASH] (x :: segs)) = SLASH :: squeeze ((c :: w) ++ SLASH :: join [SLASH] (x :: segs))).
      { cbn [app squeeze]. destruct (N.eqb_spec c 47) as [->|]; [exfalso; apply W; left; reflexivity|]. reflexivity. }
      etransitivity; [exact Q|]. rewrite squeeze_plain by exact W. rewrite IH. reflexivity.
Qed.
Lemma from_slash_plain : forall w r, ~ In SLASH w -> from_slash (w ++ SLASH :: r) = SLASH :: r.
Proof.
  induction w as [|c w IH]; intros r N; [reflexivity|]. cbn [app from_slash]. destruct (N.eqb_spec c 47) as [->|]; [exfalso; apply N; left; reflexivity|].
  apply IH. intros I; apply N; right; exact I.
Qed.
Lemma path_text : forall p, filter_useless nonempty (tl (split_char SLASH p)) <> [] ->
  squeeze (from_slash p) = SLASH :: join [SLASH] (filter_useless nonempty (tl (split_char SLASH p))).
Proof.
  intros p N. pose proof (split_join SLASH p) as J. pose proof (split_char_nosep SLASH p) as S. destruct (split_char SLASH p) as [|w segs]; [exfalso; apply N; reflexivity|].
  cbn [tl] in *. assert (NS : segs <> []) by (intros ->; apply N; reflexivity). rewrite <- squeeze_segs; [|exact NS|apply Forall_forall; intros x I; apply S; right; exact I].
  rewrite <- J. destruct segs as [|x segs]; [congruence|]. rewrite join_cons2. cbn [app]. rewrite from_slash_plain; [reflexivity|]. apply S. left. reflexivity.
Qed.
Lemma Forall2_app3 : forall A B (R : A -> B -> Prop) a b c l, Forall2 R l (a ++ b ++ c) ->
  exists x y z, l = x ++ y ++ z /\ Forall2 R x a /\ Forall2 R y b /\ Forall2 R z c.
Proof.
  intros A B R a b c l F. apply Forall2_app_inv_r in F. destruct F as (x & r & F1 & F & ->). apply Forall2_app_inv_r in F. destruct F as (y & z & F2 & F3 & ->).
  exists x, y, z. auto.
Qed.
Lemma c22_text : forall nv url m raw p pats, analyze_url nv url = Ok (m, raw) -> parse_url nv url = Ok p ->
  match up_query p with Some q => Forall legal q | None => True end ->
  Forall2 regex_matches pats raw -> regex_matches (pack m pats) (url_text p).
Proof.
  intros nv url m raw p pats H E LQ F. unfold analyze_url in H. rewrite E in H. cbn [bind] in H. unfold unpack in H.
  set (pp := filter_useless nonempty (tl (split_char SLASH (up_path p)))) in *.
  destruct (Nat.leb_spec (length pp) 0) as [|LP]; [discriminate|].
  destruct (parse_query_string (up_query p)) as [[ks vs]|] eqn:Q; [|discriminate]. cbn [bind] in H.
  destruct (mapM (fun k => normalize k [EQUALS]) ks) as [nks|] eqn:K; [|discriminate]. cbn [bind] in H.
  inversion H; subst m raw. clear H. apply parse_query_ok in Q as (L & KN & FQ & J).
  apply Forall2_app3 in F. destruct F as (P1 & P2 & P3 & -> & F1 & F2 & F3).
  assert (L1 : length P1 = length pp) by (eapply Forall2_length; exact F1). assert (L2 : length P2 = length vs) by (eapply Forall2_length; exact F2). pose proof (mapM_length _ _ _ _ _ K) as LK.
  unfold pack. cbn [path_depth query_keys has_fragment]. rewrite <- L1. rewrite firstn_app, firstn_all, Nat.sub_diag. cbn [firstn]. rewrite app_nil_r.
  assert (EI : length P1 + length nks = length P1 + length P2) by lia. rewrite EI. rewrite slice_app. rewrite (app_assoc P1 P2 P3). rewrite skipn_app_len by (rewrite app_length; reflexivity).
  unfold url_text. rewrite path_text by (fold pp; intros Z; rewrite Z in LP; cbn in LP; lia). fold pp.
  change (SLASH :: join [SLASH] P1 ++ ?x) with ([SLASH] ++ join [SLASH] P1 ++ x). change ((SLASH :: join [SLASH] pp) ++ ?x) with ([SLASH] ++ join [SLASH] pp ++ x).
  apply regex_matches_app; [apply plain1; reflexivity|]. apply regex_matches_app; [apply join_matches; [reflexivity|exact F1]|]. apply regex_matches_app.
  - destruct (up_query p) as [q|].
    + assert (NK : ks <> []) by (intros Z; destruct KN as [KN _]; specialize (KN Z); discriminate).
      destruct (Nat.ltb_spec 0 (length nks)) as [_|B]; [|exfalso; destruct ks; [congruence|cbn in LK; lia]].
      change (63%N :: q) with ([63%N] ++ q). apply regex_matches_app.
      { eexists. split; [vm_compute; reflexivity|]. exists [63%N], []. split; [reflexivity|]. split; [constructor; [vm_compute; reflexivity|constructor]|]. split; reflexivity. }
      rewrite <- (J q eq_refl) in LQ |- *. apply join_matches; [reflexivity|].
      assert (LKV : Forall (fun kv => Forall legal (fst kv)) (combine ks vs)).
      { apply Forall_forall. intros kv I. apply Forall_forall. intros c IC. rewrite Forall_forall in LQ. apply LQ.
        clear - I IC. induction (combine ks vs) as [|x l IH]; [destruct I|]. cbn [map]. destruct l as [|y l].
        - destruct I as [->|[]]. cbn. apply in_or_app. left. exact IC.
        - cbn [map]. rewrite join_cons2. apply in_or_app. destruct I as [->|I]; [left; apply in_or_app; left; exact IC|right; right; apply IH; exact I]. }
      clear - F2 K L LKV. revert nks vs P2 K L F2 LKV. induction ks as [|k ks IH]; intros nks vs P2 K L F2 LKV.
      * inversion K; subst. constructor.
      * cbn [mapM] in K. destruct (normalize k [EQUALS]) as [nk|] eqn:EK; [|discriminate]. cbn [bind] in K. destruct (mapM (fun k => normalize k [EQUALS]) ks) as [nks'|] eqn:K'; [|discriminate]. cbn [bind] in K. inversion K; subst.
        destruct vs as [|v vs]; [discriminate|]. inversion F2 as [|P' v' P2' vs' H2 F2']; subst. cbn [combine map fst snd] in *. inversion LKV as [|? ? LK1 LK2]; subst. cbn [fst] in LK1. constructor.
        -- apply regex_matches_app; [|exact H2]. destruct (c10_regex k LK1) as (k' & E1 & E2). change (u "=") with [EQUALS] in E1. rewrite EK in E1. inversion E1; subst k'. apply E2. reflexivity.
        -- apply (IH nks' vs P2' eq_refl); [injection L; auto|exact F2'|exact LK2].
    + destruct KN as [_ KN]. rewrite (KN eq_refl) in *. destruct nks; [|discriminate]. apply regex_matches_nil.
  - destruct (up_fragment p) as [f|]; [|apply regex_matches_nil]. inversion F3 as [|P' f' P3' z H3 F3']; subst. inversion F3'; subst.
    change (NUMBER :: List.concat [P']) with ([NUMBER] ++ (P' ++ [])). rewrite app_nil_r. change (35%N :: f) with ([NUMBER] ++ f). apply regex_matches_app; [apply plain1; reflexivity|exact H3].
Qed.
Lemma c22_url : forall nv h mcn cs url me m raw p, (2 <= mcn)%Z -> make mcn (loads nv h) = Ok cs ->
  In (url, me) h -> url_path nv url = Some (m, raw) -> parse_url nv url = Ok p ->
  Forall (fun w => ~ In 92%N w) raw -> match up_query p with Some q => Forall legal q | None => True end ->
  (exists t nodes, In (m, t) cs /\ In nodes (paths t) /\ path_pieces nodes = map piece_of raw) /\
  (forall t nodes, In (m, t) cs -> In nodes (paths t) -> path_pieces nodes = map piece_of raw ->
     regex_matches (pack m (path_patterns nodes)) (url_text p)).
Proof.
  intros nv h mcn cs url me m raw p M E IH U EU NB LQ. pose proof (url_path_parse _ _ _ _ U) as (A & LR & _). split.
  - assert (I : In (m, map piece_of raw) (loaded nv h)). { apply in_loaded. exists raw, me. split; [|reflexivity]. apply in_accepted. exists url. auto. }
    apply (Permutation_in _ (Permutation_sym (c20 nv h mcn cs M E))) in I. apply in_flat_map in I. destruct I as ([m' t] & I & J). cbn [fst snd] in J.
    apply in_map_iff in J. destruct J as (nodes & EQ & J). inversion EQ; subst. exists t, nodes. auto.
  - intros t nodes I IN EP. eapply c22_text; [exact A|exact EU|exact LQ|]. eapply c22_pieces; [exact M|exact E|exact I|exact IN| |exact EP|exact NB].
    eapply Forall_impl; [|exact LR]. intros a Ha. apply all_legal_iff. exact Ha.
Qed.

(** ** C23 *)
Lemma opat_units : forall s P, all_legal s -> ~ In 92%N s -> opat s P -> exists us, pattern_units P = Ok us /\ units_fuzzy us = fuzzy_rule (pp_of s) /\ Spec.fits s P.
Proof.
  intros s P L B O. destruct (opat_upat s P L O) as (us & U). pose proof (upat_fits s P us L U) as F. destruct s as [|c s].
  - rewrite (upat_empty P us U) in *. eexists. split; [vm_compute; reflexivity|]. split; [reflexivity|exact F].
  - exists (map upu us). split; [eapply upat_units; [exact L|exact B|discriminate|exact U]|]. split; [|exact F]. rewrite fuzzy_cset. eapply upat_fuzzy; eassumption.
Qed.
Lemma opats_parse : forall pd raw Ps, Forall all_legal raw -> Forall (fun w => ~ In 92%N w) raw -> Forall2 opat raw Ps ->
  forall i, exists mps, mk_patterns i pd Ps = Ok mps /\ map mp_fuzzy mps = map fuzzy_rule (map pp_of raw) /\ map mp_str mps = Ps /\ Forall2 Spec.fits raw Ps.
Proof.
  intros pd raw Ps LR NB F. induction F as [|s P raw Ps O F IH]; intros i.
  - exists []. cbn. auto.
  - inversion LR; inversion NB; subst. destruct (opat_units s P) as (us & E & FZ & FT); try assumption. destruct (IH H2 H6 (S i)) as (mps & E' & FZ' & ST & FT').
    cbn [mk_patterns]. unfold mk_match_pattern. rewrite E. cbn [bind]. rewrite E'. cbn [bind]. eexists. split; [reflexivity|]. cbn [map mp_str]. unfold mp_fuzzy at 1. cbn [mp_units]. rewrite FZ, FZ', ST. auto.
Qed.
Lemma c23 : forall nv h mcn cs m t nodes raw, (2 <= mcn)%Z -> make mcn (loads nv h) = Ok cs -> In (m, t) cs -> In nodes (paths t) ->
  Forall (Forall legal) raw -> path_pieces nodes = map piece_of raw -> Forall (fun w => ~ In 92%N w) raw ->
  exists mps, parse nv (pack m (path_patterns nodes)) = Ok (m, PPat mps) /\ map mp_str mps = path_patterns nodes
    /\ parsed_digest m (PPat mps) = digest_of m raw.
Proof.
  intros nv h mcn cs m t nodes raw M E I IN LR EP NB. destruct (cluster_path nv h mcn cs m t M E I) as (Ps & sid & mk & L & IM & EM & PP & PR & _).
  destruct (PR nodes IN) as (raw' & EP' & LR' & IR & F2 & _).
  assert (raw' = raw). { apply pieces_inj; [exact LR'| |congruence]. eapply Forall_impl; [|exact LR]. intros a Ha. apply all_legal_iff. exact Ha. }
  subst raw'. rewrite (PP nodes IN).
  destruct (opats_parse (path_depth m) raw Ps LR' NB F2 1) as (mps & E1 & E2 & E3 & E4).
  destruct (c18_paths nv h sid mk IM) as (_ & _ & _ & PF). destruct (PF raw raw IR IR) as (_ & _ & _ & me & A). rewrite EM in A. apply in_accepted in A. destruct A as (url & _ & A).
  apply url_path_parse in A. destruct A as (A & _ & _). pose proof (c11 _ _ _ _ _ A E4) as PK. exists mps. split; [|split; [exact E3|]].
  - unfold parse. assert (SW : startswith (pack m Ps) [SLASH] = true) by (unfold pack; cbn [startswith]; match goal with |- context [startswith ?x []] => destruct x end; reflexivity). rewrite SW. clear SW. rewrite PK. cbn [bind]. rewrite E1. reflexivity.
  - unfold parsed_digest. rewrite E2. destruct (digest_of_legal m raw LR') as [D _]. symmetry. exact D.
Qed.

(** ** C32 *)
Lemma ckid_split_find : forall p ks, match ckid_split p ks with
  | Some (a, k, b) => ks = a ++ k :: b /\ str_eqb p (c_val k) = true /\ Forall (fun c => str_eqb p (c_val c) = false) a
  | None => Forall (fun c => str_eqb p (c_val c) = false) ks end.
Proof.
  intros p ks. induction ks as [|k ks IH]; cbn [ckid_split]; [constructor|]. destruct (str_eqb p (c_val k)) eqn:E; [auto|].
  destruct (ckid_split p ks) as [[[a x] b]|]; [destruct IH as (-> & H & F); split; [reflexivity|]; split; [exact H|constructor; assumption]|constructor; assumption].
Qed.
Lemma find_skip : forall A (f : A -> bool) a r, Forall (fun c => f c = false) a -> List.find f (a ++ r) = List.find f r.
Proof. intros A f a r F. induction F as [|x a H F IH]; [reflexivity|]. cbn [app List.find]. rewrite H. exact IH. Qed.
Lemma find_none_all : forall A (f : A -> bool) a, Forall (fun c => f c = false) a -> List.find f a = None.
Proof. intros A f a F. induction F as [|x a H F IH]; [reflexivity|]. cbn [List.find]. rewrite H. exact IH. Qed.
Lemma cbuild_val : forall ps t c, c_val (cbuild t ps c) = c_val t.
Proof. intros [|p ps] [v n ks] c; cbn [cbuild]; [reflexivity|]. destruct (ckid_split p ks) as [[[a k] b]|]; reflexivity. Qed.
Lemma find_app_one : forall (q : str) (a b : list ctree) k,
  List.find (fun c => str_eqb q (c_val c)) (a ++ k :: b) = match List.find (fun c => str_eqb q (c_val c)) a with Some x => Some x | None => if str_eqb q (c_val k) then Some k else List.find (fun c => str_eqb q (c_val c)) b end.
Proof. intros q a b k. induction a as [|x a IH]; cbn [app List.find]; [reflexivity|]. destruct (str_eqb q (c_val x)); [reflexivity|exact IH]. Qed.
Lemma cbuild_cnt : forall ps t c Q, ccnt_at (cbuild t ps c) Q = (ccnt_at t Q + if prefixb Q ps then c else 0)%Z.
Proof.
  induction ps as [|p ps IH]; intros [v n ks] c Q.
  - destruct Q as [|q Q]; cbn [cbuild ccnt_at c_kids c_cnt prefixb]; lia.
  - cbn [cbuild]. pose proof (ckid_split_find p ks) as SP. destruct (ckid_split p ks) as [[[a k] b]|].
    + destruct SP as (-> & EK & FA). destruct Q as [|q Q]; cbn [ccnt_at c_kids c_cnt prefixb]; [lia|].
      rewrite !find_app_one. rewrite cbuild_val. apply str_eqb_eq in EK.
      destruct (str_eqb q p) eqn:QP; cbn [andb].
      * apply str_eqb_eq in QP. subst q. rewrite find_none_all by exact FA. rewrite <- EK, str_eqb_refl. apply IH.
      * destruct (List.find _ a); [lia|]. rewrite <- EK, QP. lia.
    + destruct Q as [|q Q]; cbn [ccnt_at c_kids c_cnt prefixb]; [lia|].
      rewrite find_app_one. rewrite cbuild_val. cbn [c_val List.find].
      destruct (str_eqb q p) eqn:QP; cbn [andb].
      * apply str_eqb_eq in QP. subst q. rewrite find_none_all by exact SP. rewrite IH. destruct Q; cbn [ccnt_at c_cnt c_kids List.find]; lia.
      * destruct (List.find _ ks); lia.
Qed.
Lemma combine_cnt : forall ts t0, (forall t, In t ts -> exists nodes, hd_error (paths t) = Some nodes /\ tl nodes <> []) ->
  exists ct, foldM combine_one ts t0 = Ok ct /\
  forall Q, ccnt_at ct Q = (ccnt_at t0 Q + zsum (map (fun t => if prefixb Q (path_patterns (hd [] (paths t))) then t_cnt t else 0%Z) ts))%Z.
Proof.
  induction ts as [|t ts IH]; intros t0 H.
  - exists t0. split; [reflexivity|]. intros Q. cbn. lia.
  - destruct (H t (or_introl eq_refl)) as (nodes & HD & TN). destruct (paths t) as [|n l] eqn:EP; [discriminate|]. inversion HD; subst n.
    set (t1 := cbuild t0 (map t_pattern (tl nodes)) (t_cnt t)).
    assert (C1 : combine_one t0 t = Ok t1). { unfold combine_one. rewrite EP. unfold t1. clear - TN. destruct (tl nodes); [congruence|]. reflexivity. }
    destruct (IH t1) as (ct & E & C). { intros x I. apply H. right. exact I. }
    exists ct. split; [cbn [foldM]; rewrite C1; cbn [bind]; exact E|]. intros Q. rewrite C. unfold t1. rewrite cbuild_cnt. cbn [map]. rewrite EP. unfold zsum. cbn [fold_right hd].
    unfold path_patterns at 2. lia.
Qed.
Lemma zsum_filter : forall A B (f : A -> list B) (p : B -> bool) (g : A -> Z) l,
  (forall x, In x l -> g x = Z.of_nat (length (filter p (f x)))) -> zsum (map g l) = Z.of_nat (length (filter p (flat_map f l))).
Proof.
  induction l as [|x l IH]; intros H; [reflexivity|]. cbn [map flat_map]. rewrite filter_app, app_length. unfold zsum in *. cbn [fold_right].
  rewrite IH by (intros y I; apply H; right; exact I). rewrite (H x) by (left; reflexivity). lia.
Qed.
Lemma filter_all : forall A (p : A -> bool) l, Forall (fun x => p x = true) l -> filter p l = l.
Proof. intros A p l F. induction F as [|x l H F IH]; [reflexivity|]. cbn [filter]. rewrite H, IH. reflexivity. Qed.
Lemma filter_none : forall A (p : A -> bool) l, Forall (fun x => p x = false) l -> filter p l = [].
Proof. intros A p l F. induction F as [|x l H F IH]; [reflexivity|]. cbn [filter]. rewrite H. exact IH. Qed.
Lemma c32 : forall nv h mcn sid mk, (2 <= mcn)%Z -> In (sid, mk) (loads nv h) ->
  exists ts ct, maker_make mcn mk = Ok ts /\ maker_combine mcn mk = Ok ct /\
    ccnt_at ct [] = Z.of_nat (length (distinct_paths nv sid h)) /\
    forall Q, ccnt_at ct Q = Z.of_nat (length (filter (fun nodes => prefixb Q (path_patterns nodes)) (flat_map paths ts))).
Proof.
  intros nv h mcn sid mk M I. destruct (maker_facts nv h sid mk I) as (raw0 & MF). destruct (maker_clusters nv h sid mk raw0 mcn M MF) as (tps & E & P & F).
  assert (X : forall t, In t (map fst tps) -> (exists Ps, length Ps = length raw0 /\ forall nodes, In nodes (paths t) -> path_patterns nodes = Ps) /\ t_cnt t = Z.of_nat (length (paths t)) /\ paths t <> []).
  { intros t IT. apply in_map_iff in IT. destruct IT as ([t' Ps] & EQ & IT). cbn [fst] in EQ. subst t'. rewrite Forall_forall in F. destruct (F _ IT) as (W & _ & (LP & PP & _)). cbn [fst snd] in *.
    split; [exists Ps; rewrite LP, map_length; auto|]. assert (WT := proj1 (proj2 W)). split.
    - rewrite (ents_cnt _ _ WT). replace (length (paths t)) with (length (ents t)) by (unfold ents; apply map_length).
      assert (ONE : Forall (fun e => e_cnt e = 1%Z) (ents t)).
      { apply Forall_forall. intros e IE. pose proof (mf_cnt _ _ _ _ _ MF) as C1. rewrite Forall_forall in C1. apply C1. eapply Permutation_in; [exact P|]. apply in_flat_map. exists t. split; [apply in_map_iff; exists (t, Ps); auto|exact IE]. }
      clear - ONE. induction ONE as [|e l H F IH]; [reflexivity|]. cbn [map length]. unfold zsum in *. cbn [fold_right]. lia.
    - intros N. apply (ents_nonnil t). unfold ents. rewrite N. reflexivity. }
  destruct (combine_cnt (map fst tps) (CT [] 0 [])) as (ct & EC & C).
  { intros t IT. destruct (X t IT) as ((Ps & LP & PP) & _ & NN). destruct (paths t) as [|nodes l]; [congruence|]. exists nodes. split; [reflexivity|]. intros TN.
    pose proof (PP nodes (or_introl eq_refl)) as Q. unfold path_patterns in Q. rewrite TN in Q. subst Ps. pose proof (mf_non _ _ _ _ _ MF) as NR. destruct raw0; [congruence|discriminate]. }
  exists (map fst tps), ct. split; [exact E|]. split; [unfold maker_combine; rewrite E; exact EC|].
  assert (G : forall Q, ccnt_at ct Q = Z.of_nat (length (filter (fun nodes => prefixb Q (path_patterns nodes)) (flat_map paths (map fst tps))))).
  { intros Q. rewrite C. replace (ccnt_at (CT [] 0 []) Q) with 0%Z by (destruct Q; reflexivity). rewrite Z.add_0_l. apply zsum_filter. intros t IT. destruct (X t IT) as ((Ps & LP & PP) & CT & NN).
    destruct (paths t) as [|n0 l] eqn:EP; [congruence|]. cbn [hd]. rewrite (PP n0) by (left; reflexivity). destruct (prefixb Q Ps) eqn:PB.
    - rewrite filter_all; [exact CT|]. apply Forall_forall. intros n J. rewrite (PP n J). exact PB.
    - rewrite filter_none; [reflexivity|]. apply Forall_forall. intros n J. rewrite (PP n J). exact PB. }
  split; [|exact G]. rewrite G. rewrite filter_all by (apply Forall_forall; reflexivity). f_equal.
  transitivity (length (flat_map ents (map fst tps))).
  - clear. induction (map fst tps) as [|t l IH]; [reflexivity|]. cbn [flat_map]. rewrite !app_length, IH. f_equal. unfold ents. rewrite map_length. reflexivity.
  - rewrite (Permutation_length P). rewrite <- (map_length e_pieces). rewrite (Permutation_length (mf_pcs _ _ _ _ _ MF)). apply map_length.
Qed.

(** ** C41 *)
Lemma NoDup_flat_map_nth : forall A B (f : A -> list B) l i j a b x, NoDup (flat_map f l) ->
  nth_error l i = Some a -> nth_error l j = Some b -> In x (f a) -> In x (f b) -> i = j.
Proof.
  induction l as [|y l IH]; intros i j a b x ND I J XA XB; [destruct i; discriminate|]. cbn [flat_map] in ND.
  assert (DJ : forall z, In z (f y) -> ~ In z (flat_map f l)). { intros z Z1 Z2. revert ND Z1 Z2. clear. induction (f y) as [|w r IH]; intros ND Z1 Z2; [destruct Z1|]. cbn [app] in ND. inversion ND; subst. destruct Z1 as [->|Z1]; [apply H1; apply in_or_app; right; exact Z2|apply IH; assumption]. }
  assert (ND2 : NoDup (flat_map f l)) by (clear - ND; induction (f y) as [|w r IH]; [exact ND|cbn [app] in ND; inversion ND; subst; apply IH; assumption]).
  destruct i as [|i], j as [|j]; cbn [nth_error] in I, J; [reflexivity| | |f_equal; eapply IH; eassumption].
  - inversion I; subst. exfalso. apply (DJ x XA). apply in_flat_map. exists b. split; [eapply nth_error_In; exact J|exact XB].
  - inversion J; subst. exfalso. apply (DJ x XB). apply in_flat_map. exists a. split; [eapply nth_error_In; exact I|exact XA].
Qed.
Lemma pieces_regex : forall raw1 raw2, Forall all_legal raw1 -> Forall2 regex_matches (map piece_of raw1) raw2 -> raw2 = raw1.
Proof.
  intros raw1 raw2 L F. rewrite piece_of_legal in F by exact L. revert raw2 F. induction L as [|s raw1 H L IH]; intros raw2 F; inversion F as [|? w ? raw2' M F']; subst; [reflexivity|].
  f_equal; [apply piece_regex; assumption|apply IH; exact F'].
Qed.
Lemma c41 : forall nv h mcn cs i j m1 t1 m2 t2 n1 n2 raw1 raw2, (2 <= mcn)%Z -> make mcn (loads nv h) = Ok cs -> i <> j ->
  nth_error cs i = Some (m1, t1) -> nth_error cs j = Some (m2, t2) -> In n1 (paths t1) -> In n2 (paths t2) ->
  Forall (Forall legal) raw1 -> path_pieces n1 = map piece_of raw1 -> Forall (fun w => ~ In 92%N w) raw1 ->
  Forall (Forall legal) raw2 -> path_pieces n2 = map piece_of raw2 -> Forall (fun w => ~ In 92%N w) raw2 ->
  pack m1 (path_patterns n1) = pack m2 (path_patterns n2) ->
  m1 = m2 /\ digest_of m1 raw1 = digest_of m2 raw2 /\ (mcn <= Z.of_nat (length (paths t1)))%Z /\ (mcn <= Z.of_nat (length (paths t2)))%Z.
Proof.
  intros nv h mcn cs i j m1 t1 m2 t2 n1 n2 raw1 raw2 M E NE I J N1 N2 L1 P1 B1 L2 P2 B2 PK.
  assert (I1 : In (m1, t1) cs) by (eapply nth_error_In; exact I). assert (J1 : In (m2, t2) cs) by (eapply nth_error_In; exact J).
  destruct (c23 nv h mcn cs m1 t1 n1 raw1 M E I1 N1 L1 P1 B1) as (mps1 & X1 & Y1 & Z1). destruct (c23 nv h mcn cs m2 t2 n2 raw2 M E J1 N2 L2 P2 B2) as (mps2 & X2 & Y2 & Z2).
  rewrite PK, X2 in X1. inversion X1; subst m2 mps2. split; [reflexivity|]. split; [etransitivity; [symmetry; exact Z1|exact Z2]|].
  assert (EQ : path_patterns n1 = path_patterns n2) by (etransitivity; [symmetry; exact Y1|exact Y2]).
  assert (LL : forall raw, Forall (Forall legal) raw -> Forall all_legal raw) by (intros raw HL; eapply Forall_impl; [|exact HL]; intros a Ha; apply all_legal_iff; exact Ha).
  assert (DIFF : raw1 <> raw2).
  { intros ->. apply NE. pose proof (c20 nv h mcn cs M E) as PM. assert (ND : NoDup (loaded nv h)) by apply NoDup_nodup. apply (Permutation_NoDup (Permutation_sym PM)) in ND.
    eapply NoDup_flat_map_nth with (x := (m1, map piece_of raw2)); [exact ND|exact I|exact J| |]; (cbn [fst snd]; apply in_map_iff; exists n1; split; [rewrite P1; reflexivity|exact N1]) || (cbn [fst snd]; apply in_map_iff; exists n2; split; [rewrite P2; reflexivity|exact N2]). }
  split.
  - destruct (c24 nv h mcn cs m1 t1 M E I1) as [(n & EN & EP)|G]; [|exact G]. exfalso. apply DIFF. symmetry. apply pieces_regex; [apply LL; exact L1|].
    rewrite EN in N1. destruct N1 as [<-|[]]. rewrite <- P1, <- EP, EQ. eapply c22_pieces; eassumption.
  - destruct (c24 nv h mcn cs m1 t2 M E J1) as [(n & EN & EP)|G]; [|exact G]. exfalso. apply DIFF. apply pieces_regex; [apply LL; exact L2|].
    rewrite EN in N2. destruct N2 as [<-|[]]. rewrite <- P2, <- EP, <- EQ. eapply (c22_pieces nv h mcn cs m1 t1); eassumption.
Qed.
