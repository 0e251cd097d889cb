(** When match() raises nothing (C48). *)
From Coq Require Import String.
From Verif Require Import PyStr Defs UrlLib ParseUtils Spec Views Trees Patterns Matcher Observe MatchSpec PyStrProofs DefsProofs DictProofs RegexProofs PieceProofs LengthProofs UnitProofs BridgeProofs LoadProofs EntProofs TokProofs FlatCluster ViewProofs KeyProofs PatUnits MatchVms MatchTree MatchSem MatchLevel MatchNest MatchDigest MatchUnits MatchKeys MatchSound MatchTop MatchExact MatchTakes MatchPos.
From Coq Require Import Lia Sorted Permutation.

Lemma mapM_total : forall A B (f : A -> res B) l, (forall x, In x l -> exists y, f x = Ok y) -> exists ys, mapM f l = Ok ys.
Proof.
  induction l as [|x l IH]; intros H; [exists []; reflexivity|]. destruct (H x (or_introl eq_refl)) as (y & E). destruct IH as (ys & F); [intros z I; apply H; right; exact I|].
  exists (y :: ys). cbn [mapM]. rewrite E. cbn [bind]. rewrite F. reflexivity.
Qed.

Section Total.
  Context (inner : mnode -> list match_pattern -> mmeta -> mnode * res bool).
  Context (ok : match_pattern -> Prop).
  Context (regok : forall l p, Forall ok l -> ok p -> snd (register inner (regs inner l) p) = None).
  Context (inner_m : mnode -> list mobj -> res (list (option mmeta))).
  Notation grow := (grow inner).

  (** every view of a level answers, with keys of children *)
  Definition level_total (l : list match_pattern) (o : mobj) : Prop :=
    forall v, filter (is_view v) l <> [] -> exists ks, view_match inner_m v (body inner v l) o = Ok ks /\ forall k, In k ks -> In k (skey l).
  Fixpoint total_at (os : list mobj) (hist : list hent) : Prop :=
    match os with
    | [] => True
    | o :: os' => level_total (heads hist) o /\ forall p, In p (heads hist) -> total_at os' (tails (mp_str p) hist)
    end.
  Lemma nmatch_total : forall os q hist, hist_ok ok hist -> uniform (length os) hist -> os <> [] -> total_at os hist ->
    exists fs, nmatch inner_m os (grow q hist) = Ok fs.
  Proof.
    induction os as [|o os IH]; intros q hist OK U NO T; [congruence|]. clear NO. destruct T as [LT T]. cbn [nmatch length] in *.
    assert (VMS : m_vms (grow q hist) = regs inner (heads hist)) by (rewrite (grow_eq inner ok regok) by exact OK; reflexivity). rewrite VMS. clear VMS.
    destruct (regs_ok inner (heads hist)) as [S V].
    match goal with |- exists fs, bind (mapM ?f ?l) _ = _ => destruct (mapM_total _ _ f l) as (ys & E) end.
    2: { exists (List.concat ys). rewrite E. reflexivity. }
    intros [v b] I. cbn [fst snd]. apply (vget_In v b _ S) in I. rewrite V in I.
    destruct (LT v) as (ks & EK & KS); [intros Z; rewrite Z in I; discriminate|].
    assert (b = body inner v (heads hist)) by (destruct (filter (is_view v) (heads hist)); [discriminate|inversion I; reflexivity]). subst b. rewrite EK. cbn [bind].
    assert (KID : forall k, In k ks -> exists p, In p (heads hist) /\ kid_by_key (grow q hist) k = Ok (kid inner hist p)).
    { intros k J. pose proof (grow_kid inner ok regok q hist k OK) as G. destruct (kid_by_key (grow q hist) k) as [x|e]; [destruct G as (p & P1 & P2 & ->); eauto|exfalso; apply G; apply KS; exact J]. }
    destruct (mapM_total _ _ (kid_by_key (grow q hist)) ks) as (nodes & EN); [intros k J; destruct (KID k J) as (p & _ & E); eauto|]. rewrite EN. cbn [bind].
    destruct nodes as [|k0 nodes]; [eexists; reflexivity|]. destruct (m_leaf k0) eqn:LF; [eexists; reflexivity|].
    assert (NODE : forall n, In n (k0 :: nodes) -> exists p, In p (heads hist) /\ n = kid inner hist p).
    { intros n J. destruct (mapM_In _ _ _ _ _ _ EN J) as (k & K1 & K2). destruct (KID k K1) as (p & P1 & P2). exists p. split; [exact P1|]. congruence. }
    assert (UT : forall p, uniform (length os) (tails (mp_str p) hist)) by (intros p; apply tails_uniform; exact U).
    assert (ON : os <> []).
    { intros ->. destruct (NODE k0 (or_introl eq_refl)) as (p & P1 & ->). unfold kid in LF. rewrite (grow_leaf inner ok regok) in LF by (apply tails_ok; exact OK).
      rewrite (proj2 (uniform_heads 0 (tails (mp_str p) hist) (UT p) (proj1 (heads_key _ _) (in_map _ _ _ P1))) eq_refl) in LF. discriminate. }
    match goal with |- exists y, bind (mapM ?f ?l) _ = _ => destruct (mapM_total _ _ f l) as (zs & EZ) end.
    2: { rewrite EZ. eexists. reflexivity. }
    intros n J. destruct (NODE n J) as (p & P1 & ->). destruct (IH p (tails (mp_str p) hist)) as (f & F); [apply tails_ok; exact OK|apply UT|exact ON|apply T; exact P1|].
    unfold kid. rewrite F. eexists. reflexivity.
  Qed.
End Total.

Lemma simple_total : forall inner im l v pp, NoDup (skey l) -> Forall (fun p => mp_units p <> []) l -> simple v = true -> lengthy pp ->
  exists ks, view_match im v (body inner v l) (Some pp) = Ok ks /\ forall k, In k ks -> In k (skey l).
Proof.
  intros inner im l v pp ND NE S (n & EL).
  assert (X : exists ks, view_match im v (body inner v l) (Some pp) = Ok ks).
  { unfold body. fold (bfold inner (new_body v) (filter (is_view v) l)). destruct v; try discriminate; cbn [new_body].
    - rewrite piece_body by (apply NoDup_filter_key; exact ND). eexists. reflexivity.
    - destruct (length_body inner (filter (is_view VLength) l)) as (d & E & _); [apply Forall_forall; intros p J; apply filter_In in J; rewrite Forall_forall in NE; apply NE; apply J|]. rewrite E. cbn [view_match the_piece bind]. rewrite EL. eexists. reflexivity.
    - rewrite fuzzy_body. eexists. reflexivity. }
  destruct X as (ks & E). exists ks. split; [exact E|]. intros k I. destruct (simple_hit inner im l v pp ks k ND NE S E I) as (p & P1 & _ & <- & _). apply in_map. exact P1.
Qed.

(** ** inner trees *)
Lemma inner_total_at : forall parts hist, hist_ok unit_ok hist -> Forall lengthy parts -> total_at inner0 im0 (map Some parts) hist.
Proof.
  induction parts as [|pp parts IH]; intros hist OK L; [exact Logic.I|]. inversion L as [|? ? L1 L2]; subst. cbn [map total_at]. split; [|intros p _; apply IH; [apply tails_ok; exact OK|exact L2]].
  assert (F : Forall unit_ok (heads hist)) by (apply heads_ok; exact OK). intros v FV.
  apply simple_total; [apply heads_NoDup|eapply Forall_impl; [|exact F]; intros p X; apply unit_ok_simple; exact X| |exact L1].
  destruct (filter (is_view v) (heads hist)) as [|x r] eqn:E; [congruence|]. assert (J : In x (filter (is_view v) (heads hist))) by (rewrite E; left; reflexivity). apply in_view in J. destruct J as [J <-]. rewrite Forall_forall in F. apply unit_ok_simple. apply F. exact J.
Qed.

(** what is needed of a pattern *)
Definition pgood (p : match_pattern) : Prop := mp_ok p /\ (multi (mp_view p) -> mp_str p <> [] /\ rparse (mp_str p) <> None /\ (mp_view p = VMixed -> slash_units p)).
Lemma part_lengthy : forall s, all_legal s -> lengthy (pp_of s) /\ lengthy (vpart s).
Proof. intros s L. split; eexists; [apply piece_length_spec; exact L|apply vpart_length; exact L]. Qed.

Lemma lmeta_ref : forall hist : list hent, hist <> [] -> Forall (fun h : hent => fst h = [] /\ exists k, snd h = Some (MRef k)) hist -> exists k, lmeta hist = Some (MRef k).
Proof.
  intros hist N F. destruct (exists_last N) as (l & [ps me] & E). rewrite E in *. apply Forall_app in F. destruct F as [_ F]. inversion F as [|? ? [A (k & B)] _]; subst. cbn [fst snd] in *. subst.
  rewrite lmeta_snoc. exists k. reflexivity.
Qed.

Lemma multi_total : forall l v s, Forall pgood l -> NoDup (skey l) -> multi v -> all_legal s ->
  exists ks, view_match im1 v (body inner1 v l) (Some (pp_of s)) = Ok ks /\ forall k, In k ks -> In k (skey l).
Proof.
  intros l v s CA ND M L.
  assert (OKL0 : Forall mp_ok l) by (eapply Forall_impl; [|exact CA]; intros p P; apply P).
  assert (X : exists ks, view_match im1 v (body inner1 v l) (Some (pp_of s)) = Ok ks).
  2: { destruct X as (ks & E). exists ks. split; [exact E|]. intros k I. destruct (multi_hit l v _ ks k OKL0 ND M E I) as (p & P1 & _ & <- & _). apply in_map. exact P1. }
  assert (NB : new_body v = BMulti []) by (destruct M as [->|[->| ->]]; reflexivity). unfold body. rewrite NB. fold (bfold inner1 (BMulti []) (filter (is_view v) l)).
  assert (OKF : Forall mp_ok (filter (is_view v) l)). { apply Forall_forall. intros p J. apply filter_In in J. rewrite Forall_forall in OKL0. apply OKL0. apply J. }
  destruct (multi_body _ OKF) as (d & E & D). rewrite E. cbn [view_match the_piece bind]. rewrite D. set (parts := view_parts v (pp_of s)). set (r := view_key parts). set (l' := filter (has_ukey r) (filter (is_view v) l)).
  assert (IL : forall p, In p l' <-> In p l /\ mp_view p = v /\ r = ukey p). { intros p. unfold l'. rewrite filter_In, in_view. unfold has_ukey. rewrite str_eqb_iff. intuition. }
  destruct l' as [|p0 l''] eqn:EL; [exists []; reflexivity|].
  cbv beta iota. rewrite <- EL in *. assert (NE : l' <> []) by congruence. assert (I0 : In p0 l') by (rewrite EL; left; reflexivity). clear EL l''. clearbody l'.
  set (gs := vgroups v s). assert (KU : forall p, In p l' -> mp_ok p /\ parts = map vpart (map cat gs) /\ map cset (map cat gs) = map uset (mp_units p)).
  { intros p I. apply IL in I. destruct I as (I1 & I2 & I3). rewrite Forall_forall in CA. destruct (CA p I1) as (OK & X). split; [exact OK|]. rewrite I2 in X. destruct (X M) as (X1 & X2 & X3).
    pose proof (key_units p s OK X1 X2) as KU. rewrite I2 in KU. apply KU; auto. }
  assert (OKL : Forall mp_ok l') by (apply Forall_forall; intros p I; apply KU; exact I). pose proof (ment_ok l' OKL) as HO.
  assert (LEN : forall p, In p l' -> length (mp_units p) = length parts). { intros p I. destruct (KU p I) as (_ & EPT & EC). apply (f_equal (@length _)) in EC. rewrite EPT. rewrite !map_length in *. symmetry. exact EC. }
  assert (UN : uniform (length (map Some parts)) (map ment l')).
  { unfold uniform. rewrite Forall_map. apply Forall_forall. intros p I. cbn [ment fst]. rewrite !map_length. apply LEN. exact I. }
  assert (LP : Forall lengthy parts).
  { destruct (KU p0 I0) as (_ & EPT & _). rewrite EPT. rewrite Forall_map. pose proof (vgroups_groups v s) as GR. fold gs in GR. pose proof (legal_groups s gs L GR) as LG. apply Forall_forall. intros t I. rewrite Forall_forall in LG. apply part_lengthy. apply LG. exact I. }
  assert (OS : map Some parts <> []). { intros Z. apply (f_equal (@length _)) in Z. rewrite map_length in Z. cbn [length] in Z. specialize (LEN p0 I0). destruct (mp_ok_facts p0 (proj1 (KU p0 I0))) as (X & _). destruct (mp_units p0); [congruence|]. cbn [length] in LEN. lia. }
  destruct (nmatch_total inner0 unit_ok regok0 im0 (map Some parts) empty_match_pattern (map ment l') HO UN OS (inner_total_at _ _ HO LP)) as (fs & F1).
  unfold im1. rewrite nmatch1. fold (mtree l') in F1. rewrite F1. cbn [bind].
  apply mapM_total. intros m IM. apply in_map_iff in IM. destruct IM as ([path node] & EM & IM). cbn [snd] in EM. unfold mtree in F1.
  destruct (nmatch_sound inner0 unit_ok regok0 im0 _ _ _ _ HO F1 path node IM) as (PN & HT & ->).
  assert (LEN2 : length path = length (map Some parts)) by (apply (nmatch_full inner0 unit_ok regok0 im0 (map Some parts) empty_match_pattern (map ment l') fs HO UN F1 path _ IM)).
  pose proof (hits_descend inner0 im0 _ _ _ HT PN) as DN. assert (D0 : uniform 0 (descend path (map ment l'))) by (apply descend_uniform; rewrite Nat.add_0_r, LEN2; exact UN).
  rewrite (grow_eq inner0 unit_ok regok0) in EM.
  2: { clear - HO. unfold descend. revert HO. generalize (map ment l'). induction path as [|p path IH]; intros h X; [exact X|]. cbn [fold_left]. apply IH. apply tails_ok. exact X. }
  cbn [m_meta] in EM. destruct (lmeta_ref _ DN) as (k & EK).
  { unfold uniform in D0. rewrite Forall_forall in *. intros [ps me] J. specialize (D0 _ J). cbn [fst snd] in *. split; [destruct ps; [reflexivity|discriminate]|].
    apply descend_In in J. destruct J as (qs & _ & J). apply in_map_iff in J. destruct J as (p & EP & _). unfold ment in EP. injection EP as _ EP. exists (mp_str p). symmetry. exact EP. }
  rewrite <- EM, EK. exists k. reflexivity.
Qed.

Definition ghist (hist : list hent) : Prop := Forall (fun h : hent => Forall pgood (fst h)) hist.
Lemma outer_total_at : forall raw hist, ghist hist -> Forall all_legal raw -> total_at inner1 im1 (map Some (map pp_of raw)) hist.
Proof.
  induction raw as [|w raw IH]; intros hist G LG; [exact Logic.I|]. inversion LG as [|? ? LW LG2]; subst. cbn [map total_at]. split.
  - assert (F : Forall pgood (heads hist)) by (exact (heads_ok pgood hist G)). intros v FV. destruct (simple v) eqn:SV.
    + apply simple_total; [apply heads_NoDup| |exact SV|apply part_lengthy; exact LW]. eapply Forall_impl; [|exact F]. intros p X. apply mp_ok_facts. apply X.
    + apply multi_total; [exact F|apply heads_NoDup|apply simple_multi; exact SV|exact LW].
  - intros p I. apply IH; [exact (tails_ok pgood _ _ G)|exact LG2].
Qed.

Lemma pgood_of : forall p, mp_ok p -> rparse (mp_str p) <> None -> slash_alone (mp_str p) -> pgood p.
Proof.
  intros p OK R SA. split; [exact OK|]. intros M. assert (NE : mp_str p <> []).
  { intros E. destruct OK as (b & HP). rewrite E in HP. destruct b; cbn in HP; inversion HP as [X]; rewrite <- X in M; destruct M as [M|[M|M]]; discriminate. }
  split; [exact NE|]. split; [exact R|]. intros _. apply slash_alone_units; assumption.
Qed.

Theorem c48 : forall nv h url m raw, url_path nv url = Some (m, raw) ->
  (forall s me b Ps, In (s, me) h -> snd (match_load nv [] s me) = Ok b -> analyze_url_pattern_string s = Ok (m, Ps) -> Forall (fun P => rparse P <> None /\ slash_alone P) Ps) ->
  exists fs, match_url nv (mloads nv h) url = Ok fs.
Proof.
  intros nv h url m raw U CA. destruct (url_path_parse _ _ _ _ U) as (A & L & P). unfold match_url. rewrite P. cbn [bind]. rewrite mloads_get. set (sid := parsed_digest m (PUrl (map pp_of raw))).
  destruct (digest_of_legal m raw L) as [_ MP].
  assert (INV : forall path me, In (path, me) (mhist nv sid h) -> (exists s mt, In (s, mt) h /\ pat_parse nv s = Some (m, path)) /\ length path = length raw).
  { intros path me I. apply mhist_In in I. destruct I as (s & m' & mt & I & PP & D & _). destruct (url_digest_inj _ _ _ _ _ _ _ _ A MP PP (eq_sym D)) as [<- E]. split; [eauto|]. apply (f_equal (@length _)) in E. rewrite !map_length in E. symmetry. exact E. }
  destruct (the_matcher nv sid h) as [x|] eqn:T; [|exists []; reflexivity].
  assert (R : mm_root x = mroot nv sid h /\ mhist nv sid h <> []). { unfold the_matcher in T. unfold mhist. destruct (mentries nv sid h) as [|[m' e] r]; [discriminate|]. inversion T. split; [reflexivity|discriminate]. }
  destruct R as [R HN]. rewrite R, nmatch2. cbn [match_objs]. unfold mroot.
  assert (UNI : uniform (length (map Some (map pp_of raw))) (mhist nv sid h)).
  { apply Forall_forall. intros [path me] I. cbn [fst]. rewrite !map_length. eapply INV. exact I. }
  assert (OS : map Some (map pp_of raw) <> []).
  { destruct (mhist nv sid h) as [|[path me] r] eqn:EH; [congruence|]. inversion UNI as [|? ? LL _]; subst. cbn [fst] in LL. destruct (INV path me (or_introl eq_refl)) as ((s & mt & _ & PP) & _). apply pat_parse_ok in PP. destruct PP as (_ & NE & _). intros Z. rewrite Z in LL. destruct path; [congruence|discriminate]. }
  apply (nmatch_total inner1 mp_ok regok1 im1 _ empty_match_pattern _ (mhist_ok nv sid h) UNI OS). apply outer_total_at; [|exact L].
  apply Forall_forall. intros [path me] I. cbn [fst]. destruct (INV _ _ I) as ((s & mt & J & PP) & _). destruct (pat_parse_load nv s mt m path PP) as (b & LD).
  pose proof (CA s mt b (map mp_str path) J LD (proj1 (proj2 (pat_parse_analyze nv _ _ _ PP)))) as F. destruct (pat_parse_ok _ _ _ _ PP) as (OK & _). rewrite Forall_map in F.
  rewrite Forall_forall in *. intros p IP. destruct (F p IP). apply pgood_of; auto.
Qed.

(** ** Which exceptions there are *)
Lemma mapM_err : forall A B (f : A -> res B) l e, mapM f l = Err e -> exists x, In x l /\ f x = Err e.
Proof.
  induction l as [|x l IH]; intros e H; cbn [mapM] in H; [discriminate|]. destruct (f x) as [y|e'] eqn:E; cbn [bind] in H.
  - destruct (mapM f l) as [ys|e'] eqn:F; cbn [bind] in H; [discriminate|]. inversion H; subst. destruct (IH e eq_refl) as (z & I & Z). exists z. split; [right; exact I|exact Z].
  - inversion H; subst. exists x. split; [left; reflexivity|exact E].
Qed.

Section Errs.
  Context (inner : mnode -> list match_pattern -> mmeta -> mnode * res bool).
  Context (ok : match_pattern -> Prop).
  Context (regok : forall l p, Forall ok l -> ok p -> snd (register inner (regs inner l) p) = None).
  Context (inner_m : mnode -> list mobj -> res (list (option mmeta))).
  Context (E : exn -> Prop) (EI : E EIndex).
  Notation grow := (grow inner).
  Definition level_errs (l : list match_pattern) (o : mobj) : Prop :=
    forall v, match view_match inner_m v (body inner v l) o with Ok ks => filter (is_view v) l <> [] -> forall k, In k ks -> In k (skey l) | Err e => filter (is_view v) l <> [] -> E e end.
  Lemma nmatch_errs : forall os q hist e, hist_ok ok hist -> (forall l o, Forall ok l -> NoDup (skey l) -> In o os -> level_errs l o) ->
    nmatch inner_m os (grow q hist) = Err e -> E e.
  Proof.
    induction os as [|o os IH]; intros q hist e OK LE H; cbn [nmatch] in H; [inversion H; subst; exact EI|].
    assert (VMS : m_vms (grow q hist) = regs inner (heads hist)) by (rewrite (grow_eq inner ok regok) by exact OK; reflexivity). rewrite VMS in H. clear VMS.
    destruct (regs_ok inner (heads hist)) as [S V].
    match type of H with bind ?x _ = _ => destruct x as [rs|e'] eqn:EM end; cbn [bind] in H; [discriminate|]. inversion H; subst; clear H.
    apply mapM_err in EM. destruct EM as ([v b] & I & EM). cbn [fst snd] in EM. apply (vget_In v b _ S) in I. rewrite V in I.
    assert (NF : filter (is_view v) (heads hist) <> []) by (intros Z; rewrite Z in I; discriminate).
    assert (b = body inner v (heads hist)) by (destruct (filter (is_view v) (heads hist)); [discriminate|inversion I; reflexivity]). subst b. clear I.
    pose proof (LE (heads hist) o (heads_ok ok _ OK) (heads_NoDup _) (or_introl eq_refl) v) as LV.
    destruct (view_match inner_m v (body inner v (heads hist)) o) as [ks|e'] eqn:EK; cbn [bind] in EM; [|inversion EM; subst; apply LV; exact NF].
    specialize (LV NF).
    destruct (mapM (kid_by_key (grow q hist)) ks) as [nodes|e'] eqn:EN; cbn [bind] in EM.
    2: { inversion EM; subst. apply mapM_err in EN. destruct EN as (k & J & EN). pose proof (grow_kid inner ok regok q hist k OK) as G. rewrite EN in G. exfalso. apply G. apply LV. exact J. }
    destruct nodes as [|k0 nodes]; [discriminate|]. destruct (m_leaf k0); [discriminate|].
    match type of EM with bind ?x _ = _ => destruct x as [zs|e'] eqn:EZ end; cbn [bind] in EM; [discriminate|]. inversion EM; subst; clear EM.
    apply mapM_err in EZ. destruct EZ as (n & J & EZ). destruct (mapM_In _ _ _ _ _ _ EN J) as (k & K1 & K2). pose proof (grow_kid inner ok regok q hist k OK) as G. rewrite K2 in G. destruct G as (p & P1 & P2 & ->).
    destruct (nmatch inner_m os (kid inner hist p)) as [f|e'] eqn:EF; cbn [bind] in EZ; [discriminate|]. inversion EZ; subst. unfold kid in EF.
    apply (IH p (tails (mp_str p) hist) e); [apply tails_ok; exact OK|intros l o' A B C; apply LE; [exact A|exact B|right; exact C]|exact EF].
  Qed.
End Errs.

Lemma parts_lengthy : forall v s, all_legal s -> multi v -> Forall lengthy (view_parts v (pp_of s)).
Proof.
  intros v s L M. destruct M as [->|[->| ->]]; cbn [view_parts].
  - rewrite multi_parts_vpart by exact L. rewrite Forall_map. apply Forall_forall. intros t I. apply part_lengthy. pose proof (legal_groups s _ L (vgroups_groups VMulti s)) as LG. rewrite Forall_forall in LG. apply LG. exact I.
  - destruct (le_lt_dec 2 (length (runs s))) as [N|N].
    + rewrite mixed_parts_vpart by assumption. rewrite Forall_map. apply Forall_forall. intros t I. apply part_lengthy. pose proof (legal_groups s _ L (vgroups_groups VMixed s)) as LG. rewrite Forall_forall in LG. apply LG. exact I.
    + assert (MP : mixed_parts (pp_of s) = [pp_of s]). { unfold mixed_parts. destruct (length (rules (pp_of s)) <=? 1) eqn:E; [reflexivity|]. apply Nat.leb_gt in E. unfold pp_of in E. cbn [rules] in E. rewrite map_length in E. lia. }
      rewrite MP. constructor; [apply part_lengthy; exact L|constructor].
  - rewrite ldsf_parts_vpart by exact L. rewrite Forall_map. apply Forall_forall. intros t I. apply part_lengthy. pose proof (legal_groups s _ L (vgroups_groups VLdsf s)) as LG. rewrite Forall_forall in LG. apply LG. exact I.
Qed.

Definition two (e : exn) : Prop := e = EIndex \/ e = EAttr.
Lemma simple_errs : forall inner im l v pp, NoDup (skey l) -> Forall (fun p => mp_units p <> []) l -> simple v = true -> lengthy pp ->
  match view_match im v (body inner v l) (Some pp) with Ok ks => filter (is_view v) l <> [] -> forall k, In k ks -> In k (skey l) | Err e => filter (is_view v) l <> [] -> two e end.
Proof. intros inner im l v pp ND NE S L. destruct (simple_total inner im l v pp ND NE S L) as (ks & -> & H). intros _. exact H. Qed.
Lemma inner_errs : forall parts hist e, hist_ok unit_ok hist -> Forall lengthy parts -> nmatch im0 (map Some parts) (grow inner0 empty_match_pattern hist) = Err e -> two e.
Proof.
  intros parts hist e OK L H. refine (nmatch_errs inner0 unit_ok regok0 im0 two (or_introl eq_refl) _ _ _ e OK _ H).
  intros l o F ND I v. apply in_map_iff in I. destruct I as (pp & <- & I). rewrite Forall_forall in L. specialize (L pp I).
  destruct (simple v) eqn:SV; [apply simple_errs; [exact ND|eapply Forall_impl; [|exact F]; intros p X; apply unit_ok_simple; exact X|exact SV|exact L]|].
  assert (FN : filter (is_view v) l = []).
  { destruct (filter (is_view v) l) as [|x r] eqn:Q; [reflexivity|]. assert (J : In x (filter (is_view v) l)) by (rewrite Q; left; reflexivity). apply in_view in J. destruct J as [J <-]. rewrite Forall_forall in F. destruct (unit_ok_simple _ (F x J)) as [X _]. congruence. }
  destruct (view_match im0 v (body inner0 v l) (Some pp)); intros NF; congruence.
Qed.
Lemma multi_errs : forall l v s, Forall mp_ok l -> NoDup (skey l) -> multi v -> all_legal s ->
  match view_match im1 v (body inner1 v l) (Some (pp_of s)) with Ok ks => filter (is_view v) l <> [] -> forall k, In k ks -> In k (skey l) | Err e => filter (is_view v) l <> [] -> two e end.
Proof.
  intros l v s OK ND M L. destruct (view_match im1 v (body inner1 v l) (Some (pp_of s))) as [ks|e] eqn:H.
  { intros _ k I. destruct (multi_hit l v _ ks k OK ND M H I) as (p & P1 & _ & <- & _). apply in_map. exact P1. }
  intros _. assert (NB : new_body v = BMulti []) by (destruct M as [->|[->| ->]]; reflexivity). unfold body in H. rewrite NB in H. fold (bfold inner1 (BMulti []) (filter (is_view v) l)) in H.
  assert (OKF : Forall mp_ok (filter (is_view v) l)). { apply Forall_forall. intros p J. apply filter_In in J. rewrite Forall_forall in OK. apply OK. apply J. }
  destruct (multi_body _ OKF) as (d & E & D). rewrite E in H. cbn [view_match the_piece bind] in H. rewrite D in H. set (r := view_key (view_parts v (pp_of s))) in *. set (l' := filter (has_ukey r) (filter (is_view v) l)) in *.
  assert (H' : (ms <- im1 (mtree l') (map Some (view_parts v (pp_of s))) ;; mapM (fun m => match m with Some (MRef k) => Ok k | _ => Err EAttr end) ms) = Err e).
  { destruct l' as [|x l'']; [discriminate|exact H]. }
  clear H. assert (OKL : Forall mp_ok l'). { apply Forall_forall. intros p J. apply filter_In in J. rewrite Forall_forall in OKF. apply OKF. apply J. }
  unfold im1 in H'. rewrite nmatch1 in H'. unfold mtree in H'.
  destruct (nmatch im0 (map Some (view_parts v (pp_of s))) (grow inner0 empty_match_pattern (map ment l'))) as [fs|e'] eqn:EN; cbn [bind] in H'.
  - apply mapM_err in H'. destruct H' as (m & _ & H'). right. destruct m as [[?|?]|]; inversion H'; reflexivity.
  - inversion H'; subst. exact (inner_errs _ _ _ (ment_ok l' OKL) (parts_lengthy v s L M) EN).
Qed.
Theorem c48_two : forall nv h url m raw e, url_path nv url = Some (m, raw) -> match_url nv (mloads nv h) url = Err e -> e = EIndex \/ e = EAttr.
Proof.
  intros nv h url m raw e U H. destruct (url_path_parse _ _ _ _ U) as (A & L & P). unfold match_url in H. rewrite P in H. cbn [bind] in H. rewrite mloads_get in H. set (sid := parsed_digest m (PUrl (map pp_of raw))) in *.
  destruct (the_matcher nv sid h) as [x|] eqn:T; [|discriminate].
  assert (R : mm_root x = mroot nv sid h). { unfold the_matcher in T. destruct (mentries nv sid h) as [|[m' y] r]; [discriminate|]. inversion T. reflexivity. }
  rewrite R, nmatch2 in H. cbn [match_objs] in H. unfold mroot in H.
  refine (nmatch_errs inner1 mp_ok regok1 im1 two (or_introl eq_refl) _ _ _ e (mhist_ok nv sid h) _ H).
  intros l o F ND I v. apply in_map_iff in I. destruct I as (pp & <- & I). apply in_map_iff in I. destruct I as (w & <- & I). rewrite Forall_forall in L. specialize (L w I).
  destruct (simple v) eqn:SV.
  - apply simple_errs; [exact ND|eapply Forall_impl; [|exact F]; intros p X; apply mp_ok_facts; exact X|exact SV|apply part_lengthy; exact L].
  - apply multi_errs; [exact F|exact ND|apply simple_multi; exact SV|exact L].
Qed.
