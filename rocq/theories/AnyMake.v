(** make() gives the same clusters for the same loads: in whatever order they came,
    after whatever calls of make(), in whatever order sets are gone through. *)
From Coq Require Import String.
From Verif Require Import PyStr Defs UrlLib ParseUtils Spec Views Trees Cluster Patterns Matcher Maker AnyOrder Observe MatchSpec OwnSpec AnySpec PyStrProofs DefsProofs DictProofs PieceProofs LengthProofs UrlProofs DigestProofs GroupProofs TreeProofs LoadProofs TokProofs LengthStage PieceStage EntProofs GenCluster FlatCluster TokUniq OuterCluster MakeProofs AnyBase AnyLevel AnyGen AnyFlat AnyMulti AnyOuter.
From Coq Require Import Lia Permutation Sorted.

(** *** trees up to their patterns *)
Lemma erase_val : forall t, t_val (bare t) = t_val t.
Proof. intros [v p c m ks]. reflexivity. Qed.
Lemma erase_cnt : forall t, t_cnt (bare t) = t_cnt t.
Proof. intros [v p c m ks]. reflexivity. Qed.
Lemma erase_meta : forall t, t_meta (bare t) = t_meta t.
Proof. intros [v p c m ks]. reflexivity. Qed.
Lemma erase_kids : forall t, t_kids (bare t) = map bare (t_kids t).
Proof. intros [v p c m ks]. reflexivity. Qed.
Lemma erase_piece : forall t, t_piece (bare t) = t_piece t.
Proof. intros t. unfold t_piece. rewrite erase_val. reflexivity. Qed.
Lemma erase_split : forall k ks, kid_split k (map bare ks) =
  match kid_split k ks with Some (a, x, b) => Some (map bare a, bare x, map bare b) | None => None end.
Proof.
  intros k ks. induction ks as [|t ks IH]; [reflexivity|]. cbn [map kid_split]. rewrite erase_piece. destruct (str_eqb k (t_piece t)); [reflexivity|].
  rewrite IH. destruct (kid_split k ks) as [[[a x] b]|]; reflexivity.
Qed.
Lemma build_erase : forall count f pps t new,
  build (bare t) (map (fun p => (p, None)) pps) count f new =
  (bare (fst (build t (map (fun p => (p, None)) pps) count f new)), snd (build t (map (fun p => (p, None)) pps) count f new)).
Proof.
  intros count f. induction pps as [|p pps IH]; intros [v pt c m ks] new; [reflexivity|]. cbn [bare map build]. rewrite erase_split.
  destruct (kid_split (piece p) ks) as [[[a x] b]|].
  - rewrite IH. destruct (build x _ count f (Some false)) as [k' n]. cbn [fst snd bare]. rewrite map_app. reflexivity.
  - specialize (IH (T p None 0 None []) (Some true)). cbn [bare map] in IH.
    destruct (build (T p None 0 None []) (map (fun p => (p, None)) pps) count f (Some true)) as [k' n].
    cbn [fst snd] in IH. assert (E : bare k' = k') by congruence. cbn [fst snd bare]. rewrite map_app. cbn [map]. rewrite E. reflexivity.
Qed.
Lemma incr_erase : forall d ks t, incr_path (bare t) ks d = bare (incr_path t ks d).
Proof.
  intros d. induction ks as [|k ks IH]; intros [v pt c m kids]; [reflexivity|]. cbn [bare incr_path]. rewrite erase_split. f_equal.
  destruct (kid_split k kids) as [[[a x] b]|]; [|reflexivity]. rewrite map_app. cbn [map]. rewrite IH. reflexivity.
Qed.
Lemma maker_load_erase : forall mk pps meta, maker_load (bare_maker mk) pps meta = (bare_maker (fst (maker_load mk pps meta)), snd (maker_load mk pps meta)).
Proof.
  intros [um t] pps meta. unfold maker_load, bare_maker, build_from_parsed_pieces. cbn [mk_meta mk_root]. rewrite !build_erase.
  destruct (build t (map (fun p => (p, None)) pps) 1 (add_meta meta) None) as [t' [n|]]; cbn [fst snd mk_meta mk_root].
  - rewrite incr_erase. destruct (true && negb n); reflexivity.
  - reflexivity.
Qed.
Lemma dget_erase : forall k st, dget str_eqb k (bare_state st) = option_map bare_maker (dget str_eqb k st).
Proof. intros k st. induction st as [|[k' mk] st IH]; [reflexivity|]. cbn [bare_state map fst snd dget]. destruct (str_eqb k k'); [reflexivity|exact IH]. Qed.
Lemma dset_erase : forall k mk st, dset str_eqb k (bare_maker mk) (bare_state st) = bare_state (dset str_eqb k mk st).
Proof. intros k mk st. induction st as [|[k' mk'] st IH]; [reflexivity|]. cbn [bare_state map fst snd dset]. destruct (str_eqb k k'); [reflexivity|]. cbn [map fst snd]. f_equal. exact IH. Qed.
Lemma load_erase : forall nv st url meta, load nv (bare_state st) url meta = (bare_state (fst (load nv st url meta)), snd (load nv st url meta)).
Proof.
  intros nv st url meta. unfold load. destruct (parse nv url) as [[m [[|p pps]|[|q qs]]]|e]; try reflexivity. rewrite dget_erase.
  set (sid := parsed_digest m (PUrl (p :: pps))).
  assert (X : match option_map bare_maker (dget str_eqb sid st) with Some mk => mk | None => MK m new_root end
              = bare_maker (match dget str_eqb sid st with Some mk => mk | None => MK m new_root end)) by (destruct (dget str_eqb sid st); reflexivity).
  rewrite X, maker_load_erase. destruct (maker_load _ (p :: pps) meta) as [mk' o]. cbn [fst snd]. rewrite dset_erase. reflexivity.
Qed.
Lemma loads_erased : forall nv h, bare_state (loads nv h) = loads nv h.
Proof.
  intros nv h. induction h as [|[url meta] h IH] using rev_ind; [reflexivity|]. rewrite loads_snoc. pose proof (load_erase nv (loads nv h) url meta) as E. rewrite IH in E.
  apply (f_equal fst) in E. symmetry. exact E.
Qed.
Lemma erase_annotate : forall t p, bare (annotate p t) = bare t.
Proof.
  induction t as [v pt c m ks IH] using tree_ind'. intros [pm n nx]. cbn [annotate]. destruct (dget str_eqb (piece v) pm) as [q|]; [|reflexivity]. cbn [bare]. f_equal.
  destruct (dget str_eqb q nx) as [p'|]; [|reflexivity]. rewrite map_map. apply map_ext_in. intros k K. rewrite Forall_forall in IH. apply IH. exact K.
Qed.
Lemma after_erase : forall mcn mk mk', maker_after_any mcn mk mk' -> bare_maker mk' = bare_maker mk.
Proof.
  intros mcn mk mk' A. unfold maker_after_any in A. destruct (_ <=? _)%Z; [subst; reflexivity|]. destruct A as (r & (a & A1 & A2) & ->). destruct a as [p|e].
  - unfold just in A2. subst r. unfold bare_maker. cbn [mk_meta mk_root]. rewrite erase_annotate. reflexivity.
  - subst r. reflexivity.
Qed.
Lemma event_loads_snoc : forall es e, event_loads (es ++ [e]) = event_loads es ++ match e with Load url meta => [(url, meta)] | Make => [] end.
Proof. intros. unfold event_loads. rewrite flat_map_app. cbn [flat_map]. rewrite app_nil_r. reflexivity. Qed.
Lemma run_erase : forall nv mcn es st, run_events nv mcn es st -> bare_state st = loads nv (event_loads es).
Proof.
  intros nv mcn es st R. induction R as [|es e st st' R IH H]; [reflexivity|]. rewrite event_loads_snoc. destruct e as [url meta|]; cbn [step_any] in H.
  - subst st'. rewrite loads_snoc, <- IH, load_erase. reflexivity.
  - rewrite app_nil_r, <- IH. clear - H. unfold bare_state. induction H as [|sm sm' l l' [E1 E2] F IH]; [reflexivity|]. cbn [map]. rewrite IH, E1. f_equal. f_equal.
    destruct E2 as [->|E2]; [reflexivity|]. apply (after_erase mcn). exact E2.
Qed.
Lemma ents_erase : forall t, ents (bare t) = ents t.
Proof.
  induction t as [v pt c m ks IH] using tree_ind'. destruct ks as [|k ks]; [reflexivity|]. rewrite ents_kids by discriminate. rewrite (ents_kids (T v pt c m (k :: ks))) by discriminate.
  rewrite erase_kids. cbn [t_kids]. rewrite flat_map_map. rewrite !flat_map_concat_map. f_equal. apply map_ext_in. intros x X. rewrite Forall_forall in IH. rewrite erase_val, (IH x X). reflexivity.
Qed.
Lemma wft_erase : forall d t, wft d (bare t) -> wft d t.
Proof.
  induction d as [|d IH]; intros t [H1 H2]; cbn [wft] in *; rewrite erase_cnt in *; rewrite erase_kids in *; (split; [exact H1|]).
  - destruct (t_kids t); [reflexivity|discriminate].
  - destruct H2 as (A & B & C & D). rewrite map_map in B, C. rewrite (map_ext _ t_piece erase_piece) in B. rewrite (map_ext _ t_cnt erase_cnt) in C.
    split; [intros E; rewrite E in A; apply A; reflexivity|]. split; [exact B|]. split; [exact C|]. rewrite Forall_map in D. eapply Forall_impl; [|exact D]. exact IH.
Qed.
Lemma vals_erase : forall Ps t, vals_ok Ps (bare t) -> vals_ok Ps t.
Proof.
  induction Ps as [|P Ps IH]; intros t H; [exact Logic.I|]. cbn [vals_ok] in *. rewrite erase_kids, Forall_map in H. eapply Forall_impl; [|exact H]. intros k [A B]. rewrite erase_val in A. auto.
Qed.
Lemma tok_erase : forall V d l t, tok V d l (bare t) -> tok V d l t.
Proof. intros V d l t (A & B & C). rewrite erase_val in A. split; [exact A|]. split; [apply wft_erase; exact B|apply vals_erase; exact C]. Qed.

(** *** the same loads give the same trees *)
Lemma same_accepted : forall nv h h', same_loads h h' -> forall e, In e (accepted nv h) <-> In e (accepted nv h').
Proof. intros nv h h' S [[m raw] me]. rewrite !in_accepted. split; intros (url & I & U); exists url; (split; [apply S; exact I|exact U]). Qed.
Lemma same_group : forall nv h h' sid, same_loads h h' -> forall e, In e (group nv sid h) <-> In e (group nv sid h').
Proof. intros nv h h' sid S [raw me]. rewrite !in_group. split; intros (url & m & I & U); exists url, m; (split; [apply S; exact I|exact U]). Qed.
Lemma meta_set_ext : forall l l', (forall x, In x l <-> In x l') -> meta_set l = meta_set l'.
Proof.
  intros l l' H. unfold meta_set. destruct l as [|x l], l' as [|y l']; try reflexivity.
  - destruct (proj2 (H y)); left; reflexivity.
  - destruct (proj1 (H x)); left; reflexivity.
  - f_equal. apply sorted_set_ext. exact H.
Qed.
Lemma ss_cset : forall a b, Forall all_legal a -> Forall all_legal b -> Forall2 same_spaces a b -> map cset a = map cset b.
Proof.
  intros a b A B F. revert A B. induction F as [|x y a b H F IH]; intros A B; [reflexivity|]. inversion A; inversion B; subst. cbn [map]. rewrite IH by assumption. f_equal.
  apply cset_fuzzy; [assumption..|]. apply (fuzzy_rule_iff x y); auto using piece_parse_legal.
Qed.
Lemma entry_eq : forall Cs e e', (exists ss, ostrs Cs e ss) -> (exists ss, ostrs Cs e' ss) -> e_pieces e = e_pieces e' -> e_cnt e = e_cnt e' -> e_meta e = e_meta e' -> e = e'.
Proof.
  intros Cs [[p c] m] [[p' c'] m'] (ss & S) (ss' & S') P C M. cbn [e_cnt e_meta fst snd] in C, M. subst c' m'. do 2 f_equal.
  assert (X : ss = ss').
  { apply pieces_inj; [apply S|apply S'|]. rewrite (piece_of_legal ss), (piece_of_legal ss'), !map_map by (apply S || apply S').
    rewrite <- (ostrs_pieces Cs _ ss S), <- (ostrs_pieces Cs _ ss' S'). exact P. }
  subst ss'. destruct S as [S _], S' as [S' _]. cbn [e_path fst] in S, S'. congruence.
Qed.
Lemma same_makers : forall nv h h' sid mk mk', same_loads h h' -> In (sid, mk) (loads nv h) -> In (sid, mk') (loads nv h') ->
  mk_meta mk = mk_meta mk' /\ exists Cs, Cs <> [] /\ length Cs = depth (mk_meta mk) /\ ofull Cs (mk_root mk) /\ ofull Cs (mk_root mk') /\ tSame (mk_root mk) (mk_root mk').
Proof.
  intros nv h h' sid mk mk' SL I I'. destruct (maker_facts nv h sid mk I) as (raw & F). destruct (maker_facts nv h' sid mk' I') as (raw' & F').
  destruct (mf_url _ _ _ _ _ F) as [url U]. destruct (mf_url _ _ _ _ _ F') as [url' U'].
  destruct (proj1 (digest_iff _ _ _ _ _ _ _ U U')) as [EM SS]; [rewrite (mf_dig _ _ _ _ _ F), (mf_dig _ _ _ _ _ F'); reflexivity|].
  split; [exact EM|]. exists (map cset raw). pose proof (ss_cset raw raw' (mf_leg _ _ _ _ _ F) (mf_leg _ _ _ _ _ F') SS) as EC.
  split; [destruct raw; [destruct (mf_non _ _ _ _ _ F eq_refl)|discriminate]|]. split; [rewrite map_length; exact (mf_dep _ _ _ _ _ F)|].
  pose proof (mf_tok _ _ _ _ _ F) as W. pose proof (mf_tok _ _ _ _ _ F') as W'. rewrite <- (map_length cset raw) in W. rewrite <- (map_length cset raw'), <- EC in W'.
  split; [split; [exact W|split; [apply F|apply F]]|]. split; [split; [exact W'|split; [apply F'|apply F']]|].
  split; [rewrite (mf_val _ _ _ _ _ F), (mf_val _ _ _ _ _ F'); reflexivity|].
  assert (SUB : forall h h' mk mk' raw raw', same_loads h h' -> In (sid, mk) (loads nv h) -> In (sid, mk') (loads nv h') -> mfacts nv h sid mk raw -> mfacts nv h' sid mk' raw' -> map cset raw = map cset raw' ->
    forall e, In e (ents (mk_root mk)) -> In e (ents (mk_root mk'))).
  { clear. intros h h' mk mk' raw raw' SL I I' F F' EC e E.
    assert (DP : forall x, In x (distinct_paths nv sid h) -> In x (distinct_paths nv sid h')).
    { intros x X. unfold distinct_paths in *. apply nodup_In in X. apply nodup_In. apply in_map_iff in X. destruct X as ([r me] & <- & X). apply in_map_iff. exists (r, me). split; [reflexivity|].
      apply (same_group nv h h' sid SL). exact X. }
    assert (P : In (e_pieces e) (map e_pieces (ents (mk_root mk')))).
    { eapply Permutation_in; [symmetry; exact (mf_pcs _ _ _ _ _ F')|]. assert (X : In (e_pieces e) (map e_pieces (ents (mk_root mk)))) by (apply in_map; exact E).
      eapply Permutation_in in X; [|exact (mf_pcs _ _ _ _ _ F)]. apply in_map_iff in X. destruct X as (r & <- & X). apply in_map. apply DP. exact X. }
    apply in_map_iff in P. destruct P as (e' & P & E').
    pose proof (mf_tok _ _ _ _ _ F) as W. pose proof (mf_tok _ _ _ _ _ F') as W'.
    assert (e' = e) as ->; [|exact E'].
    apply (entry_eq (map cset raw)).
    - apply (ents_ostrs (map cset raw) (mk_root mk')); [|exact E']. rewrite EC, map_length. exact W'.
    - apply (ents_ostrs (map cset raw) (mk_root mk)); [|exact E]. rewrite map_length. exact W.
    - exact P.
    - pose proof (mf_cnt _ _ _ _ _ F) as C. pose proof (mf_cnt _ _ _ _ _ F') as C'. rewrite Forall_forall in C, C'. rewrite (C e E), (C' e' E'). reflexivity.
    - rewrite (mf_mem _ _ _ _ _ F e E), (mf_mem _ _ _ _ _ F' e' E'), P.
      destruct (loads_maker nv h sid mk I) as [_ [(u1 & r1 & A1 & A2 & A3 & A4)]]. destruct (loads_maker nv h' sid mk' I') as [_ [(u2 & r2 & B1 & B2 & B3 & B4)]].
      assert (LE : length (e_pieces e) = depth (mk_meta mk)).
      { destruct (in_ents _ _ (proj1 (proj2 W)) e E) as (_ & _ & L & _). rewrite L. exact (mf_dep _ _ _ _ _ F). }
      assert (LE' : length (e_pieces e) = depth (mk_meta mk')).
      { rewrite <- P. destruct (in_ents _ _ (proj1 (proj2 W')) e' E') as (_ & _ & L & _). rewrite L. exact (mf_dep _ _ _ _ _ F'). }
      assert (NE : e_pieces e <> []). { intros X. rewrite X in LE. destruct (url_path_depth _ _ _ _ A1) as [D N]. rewrite <- D in LE. destruct r1; [congruence|discriminate]. }
      destruct (url_path_depth _ _ _ _ A1) as [D1 _]. destruct (url_path_depth _ _ _ _ B1) as [D2 _].
      rewrite (ok_meta _ _ _ A4), (ok_meta _ _ _ B4) by (try exact NE; unfold LoadProofs.level_vals; rewrite map_length; congruence).
      apply meta_set_ext. intros x. rewrite !path_metas_in. unfold keyed. rewrite !in_map_iff. split; intros ([r me] & X1 & X2); exists (r, me); (split; [exact X1|]); apply (same_group nv h h' sid SL); exact X2. }
  intros e. split.
  - apply (SUB h h' mk mk' raw raw'); assumption.
  - apply (SUB h' h mk' mk raw' raw); try assumption; [|congruence]. intros l. symmetry. apply SL.
Qed.

(** *** the states that are reached *)
Lemma bare_in : forall st sid mk, In (sid, mk) st -> In (sid, bare_maker mk) (bare_state st).
Proof. intros st sid mk I. unfold bare_state. apply in_map_iff. exists (sid, mk). split; [reflexivity|exact I]. Qed.
Lemma ofull_bare : forall Cs t, ofull Cs (bare t) -> ofull Cs t.
Proof. intros Cs t (A & B & C). split; [apply tok_erase; exact A|]. rewrite erase_val in B. rewrite ents_erase in C. auto. Qed.
Lemma tSame_bare : forall t t', tSame (bare t) (bare t') -> tSame t t'.
Proof. intros t t' [A B]. unfold tSame. rewrite !erase_val, !ents_erase in *. auto. Qed.
Lemma keys_bare : forall st, map fst (bare_state st) = map fst st.
Proof. intros st. unfold bare_state. rewrite map_map. reflexivity. Qed.
Definition mSame (mk mk' : maker) : Prop := mk_meta mk = mk_meta mk' /\ exists Cs, Cs <> [] /\ length Cs = depth (mk_meta mk) /\
  ofull Cs (mk_root mk) /\ ofull Cs (mk_root mk') /\ tSame (mk_root mk) (mk_root mk').
Lemma same_states : forall nv h h' st st', same_loads h h' -> bare_state st = loads nv h -> bare_state st' = loads nv h' ->
  PL (fun a b => fst a = fst b /\ mSame (snd a) (snd b)) st st'.
Proof.
  intros nv h h' st st' SL R R'. destruct (c18_keys nv h) as [N K]. destruct (c18_keys nv h') as [N' K'].
  rewrite <- R, keys_bare in N, K. rewrite <- R', keys_bare in N', K'. apply PL_dict; [exact N|exact N'| |].
  - intros k. rewrite K, K'. split; intros (m & raw & me & I & D); exists m, raw, me; (split; [|exact D]); apply (same_accepted nv _ _ SL); exact I.
  - intros sid mk mk' I I'. apply bare_in in I. apply bare_in in I'. rewrite R in I. rewrite R' in I'.
    destruct (same_makers nv _ _ sid _ _ SL I I') as (E & Cs & A & B & C & D & S). split; [exact E|]. exists Cs. split; [exact A|]. split; [exact B|].
    split; [apply ofull_bare; exact C|]. split; [apply ofull_bare; exact D|apply tSame_bare; exact S].
Qed.
Lemma ents_members : forall d t t', wft d t -> wft d t' -> (forall e, In e (ents t) <-> In e (ents t')) -> Permutation (members t) (members t') /\ t_cnt t = t_cnt t'.
Proof.
  intros d t t' W W' S. assert (P : Permutation (ents t) (ents t')).
  { apply NoDup_Permutation; [apply (NoDup_map_inv e_pieces); apply (ents_NoDup d); exact W|apply (NoDup_map_inv e_pieces); apply (ents_NoDup d); exact W'|exact S]. }
  split.
  - assert (X : forall t, members t = map (fun e => (e_pieces e, e_meta e)) (ents t)).
    { intros x. unfold members, ents. rewrite map_map. apply map_ext. intros nodes. unfold path_pieces, e_pieces, e_path, e_meta, ent. cbn [fst snd]. rewrite map_map. reflexivity. }
    rewrite !X. apply Permutation_map. exact P.
  - rewrite (ents_cnt d t W), (ents_cnt d t' W'). apply zsum_perm. apply Permutation_map. exact P.
Qed.
Lemma oSame_cluster : forall Cs m a b, oSame Cs a b -> same_cluster (m, a) (m, b).
Proof.
  intros Cs m a b (A & B & S & Ps & P & Q). unfold same_cluster. cbn [fst snd]. destruct (ents_members (length Cs) a b) as [X Y]; [apply A|apply B|exact S|].
  split; [reflexivity|]. split; [exact X|]. split; [exact Y|]. exists (tl Ps). unfold path_patterns. split; intros nodes I.
  - rewrite <- (P nodes I). destruct nodes; reflexivity.
  - rewrite <- (Q nodes I). destruct nodes; reflexivity.
Qed.
Lemma same_cluster_trans_l : forall x y z, paths (snd x) <> [] -> same_cluster x y -> same_cluster x z -> same_cluster y z.
Proof.
  intros x y z N (A & B & C & Ps & D & E) (A' & B' & C' & Ps' & D' & E'). split; [congruence|]. split; [eapply Permutation_trans; [symmetry; exact B|exact B']|]. split; [congruence|].
  exists Ps. split; [exact E|]. assert (Ps = Ps') as ->; [|exact E']. destruct (paths (snd x)) as [|n l]; [congruence|]. rewrite <- (D n), <- (D' n); [reflexivity|left; reflexivity..].
Qed.

(** *** make() *)
Lemma make_any_bare : forall nv mcn h h' st r, (2 <= mcn)%Z -> same_loads h h' -> bare_state st = loads nv h' -> make_any mcn st r ->
  exists cs cs', make mcn (loads nv h) = Ok cs /\ r = Ok cs' /\ PL same_cluster cs cs'.
Proof.
  intros nv mcn h h' st r M SL R A. destruct (c19 nv h mcn M) as (cs & E). exists cs. unfold make in E. destruct (mapM _ (loads nv h)) as [rs|] eqn:ER; [|discriminate]. cbn [bind] in E.
  pose proof (same_states nv h h' _ st SL (loads_erased nv h) R) as S.
  destruct A as (a & A1 & A2).
  destruct (mapR_rel _ _ _ _ _ (PL same_cluster) _ _ _ _ rs a S ER A1) as (zs & -> & P).
  2: { unfold just in A2. subst r. exists (List.concat zs).
  split; [unfold make; rewrite ER; exact E|]. split; [reflexivity|]. inversion E; subst. apply PL_concat. exact P. }
  intros [sid mk] [sid' mk'] a0 o I I' [_ (EM & Cs & CN & CL & F & F' & TS)] D O. cbn [snd] in *.
  unfold maker_make, cluster, cluster_any in *. destruct O as (ts' & O1 & O2). rewrite <- EM in O1, O2. rewrite <- CL in D, O1.
  destruct (cluster_n 2 mcn (length Cs) (path_depth (mk_meta mk)) false (mk_root mk)) as [ts|] eqn:ET; [|discriminate]. cbn [bind] in D.
  destruct (outer_inv mcn M Cs CN _ _ _ _ ts ts' F F' TS ET O1) as (zs & -> & P). unfold just in O2. subst o. eexists. split; [reflexivity|]. inversion D; subst a0.
  eapply PL_map; [exact P|]. intros x y. apply oSame_cluster.
Qed.
Lemma make_any_of : forall nv mcn h es st r, (2 <= mcn)%Z -> same_loads h (event_loads es) -> run_events nv mcn es st -> make_any mcn st r ->
  exists cs cs', make mcn (loads nv h) = Ok cs /\ r = Ok cs' /\ PL same_cluster cs cs'.
Proof. intros nv mcn h es st r M SL R A. exact (make_any_bare nv mcn h _ st r M SL (run_erase nv mcn es st R) A). Qed.
Lemma c40 : forall nv mcn es es' st st' r r', (2 <= mcn)%Z -> same_loads (event_loads es) (event_loads es') ->
  run_events nv mcn es st -> run_events nv mcn es' st' -> make_any mcn st r -> make_any mcn st' r' ->
  exists cs cs', r = Ok cs /\ r' = Ok cs' /\ same_clusters cs cs'.
Proof.
  intros nv mcn es es' st st' r r' M SL R R' A A'. destruct (make_any_of nv mcn (event_loads es) es st r M) as (cs0 & cs & E0 & -> & P); [intros l; reflexivity|exact R|exact A|].
  destruct (make_any_of nv mcn (event_loads es) es' st' r' M SL R' A') as (cs0' & cs' & E0' & -> & P'). rewrite E0 in E0'. inversion E0'; subst cs0'.
  exists cs, cs'. split; [reflexivity|]. split; [reflexivity|]. change (PL same_cluster cs cs').
  pose proof (PL_trans _ _ _ _ _ _ _ _ (PL_sym _ _ _ _ _ P) P') as Q. eapply PL_impl; [|exact Q]. intros x y I J (z & Z1 & Z2). apply (same_cluster_trans_l z x y); [|exact Z1|exact Z2].
  clear. destruct z as [m t]. cbn [snd]. intros X. pose proof (ents_nonnil t) as N. unfold ents in N. rewrite X in N. apply N. reflexivity.
Qed.

(** *** there are such runs *)
Lemma make_is_any : forall mcn st, make_any mcn st (make mcn st).
Proof.
  intros mcn st. unfold make_any, make. apply rbind_det.
  - apply mapR_det. intros [sid mk]. apply rbind_det; [apply cluster_n_is_any|intros ts; reflexivity].
  - intros rs. reflexivity.
Qed.
Lemma after_is_any : forall mcn mk, exists mk', maker_after_any mcn mk mk'.
Proof.
  intros mcn mk. unfold maker_after_any. destruct (t_cnt (mk_root mk) <=? 0)%Z; [eexists; reflexivity|]. eexists. eexists. split; [|reflexivity].
  apply process_is_any. intros. apply cluster_n_is_any.
Qed.
Lemma run_exists : forall nv mcn es, exists st, run_events nv mcn es st.
Proof.
  intros nv mcn es. induction es as [|e es [st IH]] using rev_ind; [exists []; constructor|].
  destruct e as [url me|].
  - eexists. econstructor; [exact IH|reflexivity].
  - assert (X : exists st', Forall2 (fun sm sm' => fst sm = fst sm' /\ (snd sm' = snd sm \/ maker_after_any mcn (snd sm) (snd sm'))) st st').
    { clear. induction st as [|[sid mk] st [st' IH]]; [exists []; constructor|]. destruct (after_is_any mcn mk) as [mk' A]. exists ((sid, mk') :: st'). constructor; [|exact IH]. auto. }
    destruct X as [st' X]. exists st'. econstructor; [exact IH|exact X].
Qed.
Lemma c25_loads : forall nv mcn es st, run_events nv mcn es st -> bare_state st = loads nv (event_loads es) /\
  forall url meta, snd (load nv st url meta) = snd (load nv (loads nv (event_loads es)) url meta).
Proof.
  intros nv mcn es st R. apply run_erase in R. split; [exact R|]. intros url meta. rewrite <- R, load_erase. reflexivity.
Qed.
Lemma same_cluster_pattern : forall a b, same_cluster a b -> cluster_pattern a = cluster_pattern b.
Proof.
  intros [m t] [m' t'] (A & _ & _ & Ps & P & Q). cbn [fst snd] in *. subst m'. unfold cluster_pattern. cbn [fst snd]. f_equal.
  assert (X : forall t, (forall nodes, In nodes (paths t) -> path_patterns nodes = Ps) -> path_patterns (hd [] (paths t)) = Ps).
  { clear. intros t H. pose proof (ents_nonnil t) as N. unfold ents in N. destruct (paths t) as [|n l]; [destruct (N eq_refl)|]. apply H. left. reflexivity. }
  rewrite (X t P), (X t' Q). reflexivity.
Qed.
Lemma same_clusters_patterns : forall cs cs', same_clusters cs cs' -> Permutation (map cluster_pattern cs) (map cluster_pattern cs').
Proof. intros cs cs' P. apply (PL_map_eq same_cluster); [exact P|]. exact same_cluster_pattern. Qed.
Lemma c40_patterns : forall nv mcn es es' st st' r r', (2 <= mcn)%Z -> same_loads (event_loads es) (event_loads es') ->
  run_events nv mcn es st -> run_events nv mcn es' st' -> make_any mcn st r -> make_any mcn st' r' ->
  exists cs cs', r = Ok cs /\ r' = Ok cs' /\ Permutation (map cluster_pattern cs) (map cluster_pattern cs').
Proof.
  intros nv mcn es es' st st' r r' M SL R R' A A'. destruct (c40 nv mcn es es' st st' r r' M SL R R' A A') as (cs & cs' & E & E' & S).
  exists cs, cs'. split; [exact E|]. split; [exact E'|]. apply same_clusters_patterns. exact S.
Qed.
Lemma c40_det : forall nv mcn h h', (2 <= mcn)%Z -> same_loads h h' ->
  exists cs cs', make mcn (loads nv h) = Ok cs /\ make mcn (loads nv h') = Ok cs' /\ same_clusters cs cs'.
Proof.
  intros nv mcn h h' M SL.
  destruct (make_any_of nv mcn h (map (fun l => Load (fst l) (snd l)) h') (loads nv h') (make mcn (loads nv h')) M) as (cs & cs' & A & B & P).
  - assert (EL : event_loads (map (fun l => Load (fst l) (snd l)) h') = h').
    { clear. induction h' as [|[url me] h IH]; [reflexivity|]. cbn [map event_loads flat_map app fst snd]. f_equal. exact IH. }
    rewrite EL. exact SL.
  - clear. induction h' as [|[url me] h IH] using rev_ind; [constructor|]. rewrite map_app, loads_snoc. cbn [map fst snd]. econstructor; [exact IH|reflexivity].
  - apply make_is_any.
  - exists cs, cs'. auto.
Qed.
Lemma c25 : forall nv mcn es st r, (2 <= mcn)%Z -> run_events nv mcn es st -> make_any mcn st r ->
  exists cs cs', make mcn (loads nv (event_loads es)) = Ok cs /\ r = Ok cs' /\ same_clusters cs cs'.
Proof. intros nv mcn es st r M R A. apply (make_any_of nv mcn (event_loads es) es st r M); [intros l; reflexivity|exact R|exact A]. Qed.
