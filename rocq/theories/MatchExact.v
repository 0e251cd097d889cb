(** Matching on canonical patterns finds exactly the patterns that accept the
    pieces (C28). *)
From Coq Require Import String.
From Verif Require Import PyStr Defs UrlLib ParseUtils Spec Views Trees Patterns Matcher Observe MatchSpec PyStrProofs DefsProofs DictProofs RegexProofs PieceProofs LengthProofs UnitProofs BridgeProofs LoadProofs EntProofs TokProofs FlatCluster ViewProofs KeyProofs PatUnits MatchVms MatchTree MatchSem MatchLevel MatchNest MatchDigest MatchUnits MatchKeys MatchSound MatchTop.
From Coq Require Import Lia Sorted Permutation.

(** ** units whose text is determined by the rules and the number *)
Definition ucanon (x : punit) : Prop := is_literal x = true \/ exists q, pu_str x = unit_str (List.concat (uset x)) q /\ znum q = pu_num x.
Lemma znum_inj : forall a b, znum a = znum b -> a = b.
Proof. intros [a|] [b|] H; cbn [znum] in H; try reflexivity; try (destruct a; discriminate); try (destruct b; discriminate). f_equal. lia. Qed.
Lemma ucanon_same : forall x y, ucanon x -> ucanon y -> is_literal x = false -> is_literal y = false -> uset x = uset y -> pu_num x = pu_num y -> pu_str x = pu_str y.
Proof.
  intros x y [X|(q & X & QX)] [Y|(r & Y & QY)] LX LY E N; try congruence. assert (q = r) by (apply znum_inj; congruence). subst r. rewrite X, Y, E. reflexivity.
Qed.
Lemma unit_length_lit : forall x, mp_view (unit_mp x) = VLength -> is_literal x = false.
Proof. intros x H. cbn in H. destruct (is_literal x); [discriminate|reflexivity]. Qed.

(** ** inner trees *)
Definition ucol (q : match_pattern) (C : list str) : Prop := exists x, q = unit_mp x /\ ucanon x /\ uset x = C.
Definition uhist (Cs : list (list str)) (hist : list hent) : Prop := Forall (fun h : hent => Forall2 ucol (fst h) Cs) hist.
Definition lengthy (pp : parsed_piece) : Prop := exists n, piece_length pp = Ok n.
Lemma uhist_tails : forall k C Cs hist, uhist (C :: Cs) hist -> uhist Cs (tails k hist).
Proof. intros k C Cs hist H. unfold uhist in *. rewrite Forall_forall in *. intros [r me] I. apply tails_In in I. destruct I as (q & _ & I). specialize (H _ I). cbn [fst] in *. inversion H; assumption. Qed.
Lemma inner_exact_at : forall parts Cs hist, hist_ok unit_ok hist -> uhist Cs hist -> length parts = length Cs -> Forall lengthy parts -> exact_at inner0 im0 (oacc sacc) (map Some parts) hist.
Proof.
  induction parts as [|o parts IH]; intros Cs hist OK U L P; [exact Logic.I|]. destruct Cs as [|C Cs]; [discriminate|]. inversion P as [|? ? P1 P2]; subst. cbn [map exact_at]. split.
  - assert (F : Forall unit_ok (heads hist)) by (apply heads_ok; exact OK). assert (HC : forall p, In p (heads hist) -> ucol p C).
    { intros p I. apply heads_In in I. destruct I as (r & me & I). unfold uhist in U. rewrite Forall_forall in U. specialize (U _ I). cbn [fst] in U. inversion U; assumption. }
    apply level_views; [apply heads_NoDup|]. intros v FV.
    assert (SV : simple v = true). { destruct (filter (is_view v) (heads hist)) as [|x r] eqn:E; [congruence|]. assert (J : In x (filter (is_view v) (heads hist))) by (rewrite E; left; reflexivity). apply in_view in J. destruct J as [J <-]. rewrite Forall_forall in F. apply unit_ok_simple. apply F. exact J. }
    apply simple_exact; [apply heads_NoDup| |exact SV| |exact P1].
    + eapply Forall_impl; [|exact F]. intros p X. apply unit_ok_simple. exact X.
    + intros p q IP IQ VP VQ N. destruct (HC p IP) as (x & -> & CX & EX). destruct (HC q IQ) as (y & -> & CY & EY). apply unit_length_lit in VP. apply unit_length_lit in VQ. cbn [unit_mp mp_str] in *. apply ucanon_same; auto; congruence.
  - intros p I. apply (IH Cs); [apply tails_ok; exact OK|eapply uhist_tails; exact U|cbn [length] in L; lia|exact P2].
Qed.

(** ** one position *)
Definition acc2 (p : match_pattern) (pp : parsed_piece) : Prop :=
  if simple (mp_view p) then sacc p pp
  else view_key (view_parts (mp_view p) pp) = ukey p /\ Forall2 (fun x part => sacc (unit_mp x) part) (mp_units p) (view_parts (mp_view p) pp).
(** what is needed of a pattern *)
Definition pcanon (p : match_pattern) : Prop := mp_ok p /\ Forall ucanon (mp_units p) /\
  (multi (mp_view p) -> mp_str p <> [] /\ rparse (mp_str p) <> None /\ (mp_view p = VMixed -> slash_units p)).
Lemma units_path_inj : forall us vs, Forall (fun x => mk_unit (pu_str x) = Ok x) us -> Forall (fun x => mk_unit (pu_str x) = Ok x) vs -> map pu_str us = map pu_str vs -> us = vs.
Proof. induction us as [|x us IH]; intros [|y vs] U V E; try discriminate; [reflexivity|]. inversion U; inversion V; subst. cbn [map] in E. inversion E as [[E1 E2]]. f_equal; [apply unit_mp_inj; assumption|apply IH; assumption]. Qed.
Lemma skey_units : forall us, skey (map unit_mp us) = map pu_str us.
Proof. intros us. rewrite map_map. reflexivity. Qed.
Lemma ment_inj : forall p q me, mp_ok p -> mp_ok q -> ment p = (map unit_mp (mp_units q), me) -> mp_str p = mp_str q.
Proof.
  intros p q me P Q E. unfold ment in E. inversion E as [[E1 E2]]. destruct (mp_ok_facts p P) as (_ & CP & _ & _). destruct (mp_ok_facts q Q) as (_ & CQ & _ & _). rewrite <- CP, <- CQ, <- !skey_units, E1. reflexivity.
Qed.
Lemma lmeta_In : forall hist m, In ([], Some m) hist -> exists m', lmeta hist = Some m'.
Proof.
  induction hist as [|[ps me] hist IH] using rev_ind; intros m I; [destruct I|]. rewrite lmeta_snoc. unfold meta_step. cbn [fst snd]. apply in_app_iff in I. destruct I as [I|[I|[]]].
  - destruct (IH _ I) as (m' & E). destruct ps; [destruct me; eauto|eauto].
  - inversion I; subst. eauto.
Qed.
Lemma descend_unit_In : forall us r me (hist : list hent), In (map unit_mp us ++ r, me) hist -> In (r, me) (descend (map unit_mp us) hist).
Proof.
  induction us as [|x us IH]; intros r me hist I; [exact I|]. unfold descend. cbn [map fold_left]. apply IH. apply tails_In. exists (unit_mp x). split; [reflexivity|exact I].
Qed.
Lemma sacc_parts : forall us parts, Forall2 (oacc sacc) (map unit_mp us) (map Some parts) <-> Forall2 (fun x part => sacc (unit_mp x) part) us parts.
Proof.
  induction us as [|x us IH]; intros [|o parts]; cbn [map]; split; intros H; inversion H; subst; constructor; auto; apply IH; assumption.
Qed.
Lemma multi_exact : forall l v s, Forall pcanon l -> NoDup (skey l) -> multi v -> all_legal s -> ~ In 92%N s ->
  exists ks, view_match im1 v (body inner1 v l) (Some (pp_of s)) = Ok ks /\ NoDup ks /\ forall k, In k ks <-> exists p, In p l /\ mp_view p = v /\ mp_str p = k /\ acc2 p (pp_of s).
Proof.
  intros l v s CA ND M L B. assert (NB : new_body v = BMulti []) by (destruct M as [->|[->| ->]]; reflexivity). unfold body. rewrite NB. fold (bfold inner1 (BMulti []) (filter (is_view v) l)).
  assert (CAF : Forall pcanon (filter (is_view v) l)). { apply Forall_forall. intros p J. apply filter_In in J. rewrite Forall_forall in CA. apply CA. apply J. }
  assert (OKF : Forall mp_ok (filter (is_view v) l)) by (eapply Forall_impl; [|exact CAF]; intros p P; apply P).
  destruct (multi_body _ OKF) as (d & E & D). rewrite E. cbn [view_match the_piece bind]. rewrite D. set (parts := view_parts v (pp_of s)). set (r := view_key parts). set (l' := filter (has_ukey r) (filter (is_view v) l)).
  assert (SV : simple v = false) by (destruct M as [->|[->| ->]]; reflexivity).
  assert (IL : forall p, In p l' <-> In p l /\ mp_view p = v /\ r = ukey p). { intros p. unfold l'. rewrite filter_In, in_view. unfold has_ukey. rewrite str_eqb_iff. intuition. }
  assert (ACC : forall p, mp_view p = v -> (acc2 p (pp_of s) <-> r = ukey p /\ Forall2 (fun x part => sacc (unit_mp x) part) (mp_units p) parts)).
  { intros p V. unfold acc2. rewrite V, SV. reflexivity. }
  destruct l' as [|p0 l''] eqn:EL.
  { exists []. split; [reflexivity|]. split; [constructor|]. intros k. split; [intros []|]. intros (p & P1 & P2 & _ & A). apply ACC in A; [|exact P2]. destruct (proj2 (IL p)). tauto. }
  cbv beta iota. rewrite <- EL in *. assert (NE : l' <> []) by congruence. assert (I0 : In p0 l') by (rewrite EL; left; reflexivity). clear EL l''. clearbody l'.
  (* the patterns under this key *)
  set (gs := vgroups v s). assert (KU : forall p, In p l' -> mp_ok p /\ Forall ucanon (mp_units p) /\ parts = map vpart (map cat gs) /\ map cset (map cat gs) = map uset (mp_units p)).
  { intros p I. apply IL in I. destruct I as (I1 & I2 & I3). rewrite Forall_forall in CA. destruct (CA p I1) as (OK & UC & X). split; [exact OK|]. split; [exact UC|]. rewrite I2 in X. destruct (X M) as (X1 & X2 & X3).
    pose proof (key_units p s OK X1 X2) as KU. rewrite I2 in KU. apply KU; auto. }
  assert (OKL : Forall mp_ok l') by (apply Forall_forall; intros p I; apply KU; exact I). pose proof (ment_ok l' OKL) as HO.
  destruct (KU p0 I0) as (_ & _ & EPT & E0). set (Cs := map cset (map cat gs)) in *. assert (LC : length parts = length Cs) by (rewrite EPT; unfold Cs; rewrite !map_length; reflexivity).
  assert (UH : uhist Cs (map ment l')).
  { unfold uhist. rewrite Forall_map. apply Forall_forall. intros p I. destruct (KU p I) as (_ & UC & _ & EC). cbn [ment fst]. rewrite EC. clear - UC. induction UC as [|x us X UC IH]; cbn [map]; constructor; [exists x; auto|exact IH]. }
  assert (UN : uniform (length (map Some parts)) (map ment l')).
  { unfold uniform. unfold uhist in UH. eapply Forall_impl; [|exact UH]. intros h X. rewrite map_length, LC. eapply Forall2_length. exact X. }
  assert (CO : coherent (map ment l')).
  { intros i ps me qs me' p q P Q NP NQ EE. unfold hist_ok in HO. rewrite Forall_forall in HO. pose proof (HO _ P) as HP. pose proof (HO _ Q) as HQ. cbn [fst] in *. rewrite Forall_forall in HP, HQ.
    destruct (HP p (nth_error_In _ _ NP)) as (x & -> & X). destruct (HQ q (nth_error_In _ _ NQ)) as (y & -> & Y). f_equal. apply unit_mp_inj; assumption. }
  assert (LP : Forall lengthy parts).
  { rewrite EPT. rewrite Forall_map. pose proof (vgroups_groups v s) as GR. fold gs in GR. pose proof (legal_groups s gs L GR) as LG. pose proof (groups_concat s gs L GR) as GC. apply Forall_forall. intros t I. rewrite Forall_forall in LG.
    exists (ulen t). apply pp_length; [apply LG; exact I| |apply vpart_piece]. intros J. apply B. rewrite <- GC. eapply incl_concat; eauto. }
  assert (OS : map Some parts <> []). { intros Z. apply (f_equal (@length _)) in Z. rewrite map_length in Z. cbn [length] in Z. rewrite LC, E0, map_length in Z. destruct (mp_ok_facts p0 (proj1 (KU p0 I0))) as (X & _). destruct (mp_units p0); [congruence|discriminate]. }
  assert (HN : map ment l' <> []) by (destruct l'; [congruence|discriminate]).
  pose proof (inner_exact_at parts Cs (map ment l') HO UH LC LP) as EX.
  destruct (nmatch_exact inner0 unit_ok regok0 im0 (oacc sacc) (map Some parts) empty_match_pattern (map ment l') HO UN CO HN OS EX) as (fs & F1 & F2 & F3).
  unfold im1. rewrite nmatch1. fold (mtree l') in F1. rewrite F1. cbn [bind].
  (* the reference stored at the end of a path *)
  assert (REF : forall path k, In (path, k) fs -> exists p, In p l' /\ path = map unit_mp (mp_units p) /\ m_meta k = Some (MRef (mp_str p))).
  { intros path k I. apply F3 in I. destruct I as ((me & I) & _ & ->). apply in_map_iff in I. destruct I as (p & EP & I). exists p. split; [exact I|]. assert (EPA : path = map unit_mp (mp_units p)) by (unfold ment in EP; congruence). split; [exact EPA|].
    unfold found_node. rewrite (grow_eq inner0 unit_ok regok0).
    2: { clear - HO. unfold descend. revert HO. generalize (map ment l'). induction path as [|q path IH]; intros h X; [exact X|]. cbn [fold_left]. apply IH. apply tails_ok. exact X. }
    cbn [m_meta]. assert (J : In ([], Some (MRef (mp_str p))) (descend path (map ment l'))). { rewrite EPA. apply descend_unit_In. rewrite app_nil_r. apply (in_map ment). exact I. }
    destruct (lmeta_In _ _ J) as (m' & EM). rewrite EM. apply lmeta_some in EM. apply descend_In in EM. destruct EM as (qs & EQ & K). rewrite app_nil_r in K. apply in_map_iff in K. destruct K as (q & Q1 & Q2).
    assert (QS : skey qs = map pu_str (mp_units q)) by (rewrite <- skey_units; unfold ment in Q1; congruence). assert (MQ : m' = MRef (mp_str q)) by (unfold ment in Q1; congruence). rewrite MQ. do 2 f_equal.
    rewrite Forall_forall in OKL. destruct (mp_ok_facts p (OKL p I)) as (_ & CP & _ & _). destruct (mp_ok_facts q (OKL q Q2)) as (_ & CQ & _ & _). rewrite <- CP, <- CQ, <- QS, EQ, EPA, skey_units. reflexivity. }
  set (ref := fun f : found => match m_meta (snd f) with Some (MRef k) => k | _ => [] end).
  exists (map ref fs). split; [|split].
  - clear - REF. induction fs as [|[path k] fs IH]; [reflexivity|]. cbn [map mapM]. destruct (REF path k (or_introl eq_refl)) as (p & _ & _ & E). unfold ref at 1. cbn [snd]. rewrite E. cbn [bind]. rewrite IH; [reflexivity|]. intros path' k' I. apply REF. right. exact I.
  - clear - REF F2 OKL. rewrite Forall_forall in OKL. induction fs as [|[path k] fs IH]; [constructor|]. cbn [map] in *. inversion F2 as [|? ? A C]; subst. constructor; [|apply IH; [exact C|intros path' k' I; apply REF; right; exact I]].
    intros I. apply A. apply in_map_iff in I. destruct I as ([path' k'] & E & I). apply in_map_iff. exists (path', k'). split; [|exact I]. cbn [fst]. destruct (REF path k (or_introl eq_refl)) as (p & P1 & -> & E1). destruct (REF path' k' (or_intror I)) as (q & Q1 & -> & E2).
    unfold ref in E. cbn [snd] in E. rewrite E1, E2 in E. destruct (mp_ok_same p q (OKL p P1) (OKL q Q1) (eq_sym E)) as [-> _]. reflexivity.
  - intros k. rewrite in_map_iff. split.
    + intros ([path n] & ER & I). destruct (REF path n I) as (p & P1 & EPA & EM). unfold ref in ER. cbn [snd] in ER. rewrite EM in ER. exists p. pose proof P1 as P1'. apply IL in P1'. destruct P1' as (Q1 & Q2 & Q3). split; [exact Q1|]. split; [exact Q2|]. split; [exact ER|].
      apply ACC; [exact Q2|]. split; [exact Q3|]. apply F3 in I. destruct I as (_ & I & _). rewrite EPA in I. apply sacc_parts. exact I.
    + intros (p & P1 & P2 & P3 & A). apply ACC in A; [|exact P2]. destruct A as [A1 A2]. assert (IP : In p l') by (apply IL; auto).
      assert (I : In (map unit_mp (mp_units p), found_node inner0 (map unit_mp (mp_units p)) empty_match_pattern (map ment l')) fs). { apply F3. split; [exists (Some (MRef (mp_str p))); apply (in_map ment); exact IP|]. split; [apply sacc_parts; exact A2|reflexivity]. }
      eexists. split; [|exact I]. destruct (REF _ _ I) as (q & Q1 & Q2 & Q3). unfold ref. cbn [snd]. rewrite Q3, <- P3. rewrite Forall_forall in OKL. apply (f_equal (fun z => skey z)) in Q2. rewrite !skey_units in Q2.
      destruct (mp_ok_facts p (OKL p IP)) as (_ & CP & _ & _). destruct (mp_ok_facts q (OKL q Q1)) as (_ & CQ & _ & _). rewrite <- CP, <- CQ, Q2. reflexivity.
Qed.

(** ** the outer tree *)
Definition fhist (FZ : list str) (hist : list hent) : Prop := Forall (fun h : hent => Forall2 (fun p f => pcanon p /\ mp_fuzzy p = f) (fst h) FZ) hist.
Lemma fhist_tails : forall k C Cs hist, fhist (C :: Cs) hist -> fhist Cs (tails k hist).
Proof. intros k C Cs hist H. unfold fhist in *. rewrite Forall_forall in *. intros [r me] I. apply tails_In in I. destruct I as (q & _ & I). specialize (H _ I). cbn [fst] in *. inversion H; assumption. Qed.
Lemma pcanon_str : forall p, pcanon p -> mp_view p = VLength -> exists x, mp_units p = [x] /\ pu_str x = mp_str p /\ is_literal x = false /\ ucanon x /\ num1 p = pu_num x /\ mp_fuzzy p = List.concat (uset x).
Proof.
  intros p (OK & UC & _) V. destruct (simple_unit p OK (or_introl V)) as (x & EU & ES & EP & LX). exists x. rewrite EU in UC. inversion UC; subst. repeat (split; [assumption|]). split; [unfold num1; rewrite EU; reflexivity|]. unfold mp_fuzzy, units_fuzzy. rewrite EU. cbn [flat_map]. rewrite app_nil_r. reflexivity.
Qed.
Lemma outer_exact_at : forall raw FZ hist, hist_ok mp_ok hist -> fhist FZ hist -> length raw = length FZ -> Forall all_legal raw -> Forall (fun w => ~ In 92%N w) raw ->
  exact_at inner1 im1 (oacc acc2) (map Some (map pp_of raw)) hist.
Proof.
  induction raw as [|w raw IH]; intros FZ hist OK U L LG B; [exact Logic.I|]. destruct FZ as [|f FZ]; [discriminate|]. inversion LG as [|? ? LW LG2]; subst. inversion B as [|? ? BW B2]; subst. cbn [map exact_at]. split.
  - assert (F : Forall mp_ok (heads hist)) by (apply heads_ok; exact OK). assert (HC : forall p, In p (heads hist) -> pcanon p /\ mp_fuzzy p = f).
    { intros p I. apply heads_In in I. destruct I as (r & me & I). unfold fhist in U. rewrite Forall_forall in U. specialize (U _ I). cbn [fst] in U. inversion U; assumption. }
    apply level_views; [apply heads_NoDup|]. intros v FV. destruct (simple v) eqn:SV.
    + destruct (simple_exact inner1 im1 (heads hist) v (pp_of w)) as (ks & K1 & K2 & K3); [apply heads_NoDup| |exact SV| | |].
      * eapply Forall_impl; [|exact F]. intros p X. apply mp_ok_facts. exact X.
      * intros p q IP IQ VP VQ N. destruct (HC p IP) as [CP FP]. destruct (HC q IQ) as [CQ FQ]. destruct (pcanon_str p CP VP) as (x & _ & <- & LX & UX & NX & FX). destruct (pcanon_str q CQ VQ) as (y & _ & <- & LY & UY & NY & FY).
        destruct UX as [UX|(a & UX & AX)]; [congruence|]. destruct UY as [UY|(b & UY & AY)]; [congruence|]. assert (a = b) by (apply znum_inj; congruence). subst b. rewrite UX, UY. f_equal. congruence.
      * exists (ulen w). apply pp_length; auto.
      * exists ks. split; [exact K1|]. split; [exact K2|]. intros k. rewrite K3. split; intros (p & P1 & P2 & P3 & P4); exists p; repeat (split; [assumption|]); cbn [oacc] in *; unfold acc2 in *; rewrite P2, SV in *; exact P4.
    + apply multi_exact; auto; [apply Forall_forall; intros p I; apply HC; exact I|apply heads_NoDup|apply simple_multi; exact SV].
  - intros p I. apply (IH FZ); [apply tails_ok; exact OK|eapply fhist_tails; exact U|cbn [length] in L; lia|exact LG2|exact B2].
Qed.
(** ** match() *)
Lemma acc_paths : forall path raw, Forall2 (oacc acc2) path (map Some (map pp_of raw)) <-> Forall2 acc2 path (map pp_of raw).
Proof. induction path as [|p path IH]; intros [|w raw]; cbn [map]; split; intros H; inversion H; subst; constructor; auto; apply IH; assumption. Qed.
Theorem match_exact : forall nv h url m raw, url_path nv url = Some (m, raw) -> Forall (fun w => ~ In 92%N w) raw ->
  (forall s mt m' ps, In (s, mt) h -> pat_parse nv s = Some (m', ps) -> Forall pcanon ps) ->
  exists fs, match_url nv (mloads nv h) url = Ok fs /\ NoDup (map (fun f => map mp_str (fst f)) fs) /\
    forall path, (exists node, In (path, node) fs) <->
      (exists s mt, In (s, mt) h /\ pat_parse nv s = Some (m, path)) /\ map mp_fuzzy path = map fuzzy_rule (map pp_of raw) /\ Forall2 acc2 path (map pp_of raw).
Proof.
  intros nv h url m raw U B CA. destruct (url_path_parse _ _ _ _ U) as (A & L & P). unfold match_url. rewrite P. cbn [bind]. rewrite mloads_get. set (sid := parsed_digest m (PUrl (map pp_of raw))).
  destruct (digest_of_legal m raw L) as [_ MP].
  assert (SAME : forall path mt s, In (s, mt) h -> pat_parse nv s = Some (m, path) -> map mp_fuzzy path = map fuzzy_rule (map pp_of raw) -> In (path, option_map MUser mt) (mhist nv sid h)).
  { intros path mt s I PP EF. apply mhist_In. exists s, m, mt. split; [exact I|]. split; [exact PP|]. split; [|reflexivity]. unfold sid, parsed_digest. cbn. rewrite EF. reflexivity. }
  assert (INV : forall path me, In (path, me) (mhist nv sid h) -> (exists s mt, In (s, mt) h /\ pat_parse nv s = Some (m, path)) /\ map mp_fuzzy path = map fuzzy_rule (map pp_of raw)).
  { intros path me I. apply mhist_In in I. destruct I as (s & m' & mt & I & PP & D & _). destruct (url_digest_inj _ _ _ _ _ _ _ _ A MP PP (eq_sym D)) as [<- E]. split; [eauto|auto]. }
  destruct (the_matcher nv sid h) as [x|] eqn:T.
  2: { exists []. split; [reflexivity|]. split; [constructor|]. intros path. split; [intros (node & [])|]. intros ((s & mt & I & PP) & EF & _). pose proof (SAME _ _ _ I PP EF) as X. unfold the_matcher in T. unfold mhist in X. destruct (mentries nv sid h) as [|[? ?] ?]; [destruct X|discriminate]. }
  assert (R : mm_root x = mroot nv sid h /\ mhist nv sid h <> []). { unfold the_matcher in T. unfold mhist. destruct (mentries nv sid h) as [|[m' e] r]; [discriminate|]. inversion T. split; [reflexivity|discriminate]. }
  destruct R as [R HN]. rewrite R, nmatch2. cbn [match_objs]. unfold mroot.
  assert (FH : fhist (map fuzzy_rule (map pp_of raw)) (mhist nv sid h)).
  { apply Forall_forall. intros [path me] I. cbn [fst]. destruct (INV _ _ I) as ((s & mt & J & PP) & E). specialize (CA _ _ _ _ J PP). rewrite <- E. clear - CA. induction CA as [|p l Q CA IH]; cbn [map]; constructor; auto. }
  assert (UNI : uniform (length (map Some (map pp_of raw))) (mhist nv sid h)).
  { apply Forall_forall. intros [path me] I. cbn [fst]. destruct (INV _ _ I) as [_ E]. apply (f_equal (@length _)) in E. rewrite !map_length in *. exact E. }
  assert (OS : map Some (map pp_of raw) <> []).
  { destruct (mhist nv sid h) as [|[path me] r] eqn:EH; [congruence|]. inversion UNI as [|? ? LL _]; subst. cbn [fst] in LL. destruct (INV path me (or_introl eq_refl)) as ((s & mt & _ & PP) & _). apply pat_parse_ok in PP. destruct PP as (_ & NE & _). intros Z. rewrite Z in LL. destruct path; [congruence|discriminate]. }
  pose proof (outer_exact_at raw _ (mhist nv sid h) (mhist_ok nv sid h) FH ltac:(rewrite !map_length; reflexivity) L B) as EX.
  destruct (nmatch_exact inner1 mp_ok regok1 im1 (oacc acc2) _ empty_match_pattern _ (mhist_ok nv sid h) UNI (mhist_coherent nv sid h) HN OS EX) as (fs & F1 & F2 & F3).
  exists fs. split; [exact F1|]. split; [exact F2|]. intros path. split.
  - intros (node & I). apply F3 in I. destruct I as ((me & I) & J & _). destruct (INV _ _ I) as [X Y]. split; [exact X|]. split; [exact Y|]. apply acc_paths. exact J.
  - intros ((s & mt & I & PP) & EF & J). eexists. apply F3. split; [exists (option_map MUser mt); eapply SAME; eassumption|]. split; [apply acc_paths; exact J|reflexivity].
Qed.
