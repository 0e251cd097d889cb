(** Loading a pattern again (C29). *)
From Coq Require Import String.
From Verif Require Import PyStr Defs UrlLib ParseUtils Spec Views Trees Patterns Matcher Observe MatchSpec PyStrProofs DefsProofs DictProofs LoadProofs MatchVms MatchTree MatchSem MatchLevel MatchNest MatchDigest MatchSound MatchTop.
From Coq Require Import Lia.

(** related outcomes *)
Definition rres {A B} (R : A -> B -> Prop) (x : res A) (y : res B) : Prop :=
  match x, y with Ok a, Ok b => R a b | Err e, Err e' => e = e' | _, _ => False end.
Lemma mapM_rres : forall A B C D (E : A -> B -> Prop) (R : C -> D -> Prop) (f : A -> res C) (g : B -> res D) l l', Forall2 E l l' ->
  (forall x y, E x y -> rres R (f x) (g y)) -> rres (Forall2 R) (mapM f l) (mapM g l').
Proof.
  intros A B C D E R f g l l' F H. induction F as [|x y l l' X F IH]; [constructor|]. cbn [mapM]. specialize (H x y X). destruct (f x), (g y); cbn [rres bind] in *; try contradiction; auto.
  destruct (mapM f l), (mapM g l'); cbn [rres bind] in *; try contradiction; auto.
Qed.
Lemma rres_bind : forall A B C D (E : A -> B -> Prop) (R : C -> D -> Prop) x y (f : A -> res C) (g : B -> res D), rres E x y -> (forall a b, E a b -> rres R (f a) (g b)) -> rres R (bind x f) (bind y g).
Proof. intros A B C D E R x y f g X H. destruct x, y; cbn [rres bind] in *; try contradiction; auto. Qed.
Lemma Forall2_refl : forall A (l : list A), Forall2 eq l l.
Proof. induction l; constructor; auto. Qed.

Section Eqv.
  Context (inner : mnode -> list match_pattern -> mmeta -> mnode * res bool).
  Context (ok : match_pattern -> Prop).
  Context (regok : forall l p, Forall ok l -> ok p -> snd (register inner (regs inner l) p) = None).
  Context (inner_m : mnode -> list mobj -> res (list (option mmeta))).
  Notation grow := (grow inner).
  Notation kid := (kid inner).
  Definition eqv (h1 h2 : list hent) : Prop := forall path, heads (descend path h1) = heads (descend path h2).
  Definition same_paths (f g : list found) : Prop := map fst f = map fst g.
  Lemma same_concat : forall fs gs, Forall2 same_paths fs gs -> same_paths (List.concat fs) (List.concat gs).
  Proof. intros fs gs F. induction F as [|f g fs gs H F IH]; [reflexivity|]. unfold same_paths in *. cbn [List.concat]. rewrite !map_app. congruence. Qed.
  Lemma nmatch_eqv : forall os q h1 h2, hist_ok ok h1 -> hist_ok ok h2 -> eqv h1 h2 -> rres same_paths (nmatch inner_m os (grow q h1)) (nmatch inner_m os (grow q h2)).
  Proof.
    induction os as [|o os IH]; intros q h1 h2 O1 O2 EQ; [reflexivity|]. cbn [nmatch]. pose proof (EQ []) as EH. unfold descend in EH. cbn [fold_left] in EH.
    apply rres_bind with (E := Forall2 same_paths); [|intros a b; apply same_concat].
    apply mapM_rres with (E := eq).
    { rewrite !(grow_eq inner ok regok) by assumption. cbn [m_vms]. rewrite EH. apply Forall2_refl. }
    intros vb ? <-. apply rres_bind with (E := eq); [destruct (view_match inner_m (fst vb) (snd vb) o); reflexivity|]. intros ks ? <-.
    apply rres_bind with (E := Forall2 (fun a b => exists p, In p (heads h1) /\ a = kid h1 p /\ b = kid h2 p)).
    { apply mapM_rres with (E := eq); [apply Forall2_refl|]. intros k ? <-. pose proof (grow_kid inner ok regok q h1 k O1) as G1. pose proof (grow_kid inner ok regok q h2 k O2) as G2. rewrite <- EH in G2.
      assert (EE : forall n e, kid_by_key n k = Err e -> e = EKey). { intros n e. unfold kid_by_key. destruct (mkid_split k (m_kids n)) as [[[? ?] ?]|]; congruence. }
      destruct (kid_by_key (grow q h1) k) as [x|e] eqn:K1, (kid_by_key (grow q h2) k) as [y|e'] eqn:K2; cbn [rres].
      - destruct G1 as (p & P1 & P2 & ->). destruct G2 as (p' & P1' & P2' & ->). assert (p' = p) by (apply (key_unique (heads h1)); [apply heads_NoDup|assumption..|congruence]). subst p'. exists p. auto.
      - destruct G1 as (p & P1 & P2 & _). apply G2. rewrite <- P2. apply in_map. exact P1.
      - destruct G2 as (p & P1 & P2 & _). apply G1. rewrite <- P2. apply in_map. exact P1.
      - apply EE in K1. apply EE in K2. congruence. }
    intros n1 n2 F.
    assert (PATS : Forall2 (fun a b => m_pat a = m_pat b) n1 n2). { clear - F. induction F as [|a b l l' (p & _ & -> & ->) F IHF]; constructor; auto. unfold MatchTree.kid. rewrite !grow_pat. reflexivity. }
    assert (LEAF : forall p, In p (heads h1) -> m_leaf (kid h1 p) = m_leaf (kid h2 p)).
    { intros p I. unfold MatchTree.kid. rewrite !(grow_leaf inner ok regok) by (apply tails_ok; assumption). specialize (EQ [p]). unfold descend in EQ. cbn [fold_left] in EQ. rewrite EQ. reflexivity. }
    destruct n1 as [|a n1], n2 as [|b n2]; try (inversion F; fail); [reflexivity|].
    assert (LF : m_leaf a = m_leaf b). { inversion F as [|? ? ? ? (p & I & -> & ->) _]; subst. apply LEAF. exact I. } rewrite <- LF. destruct (m_leaf a).
    - cbn [rres]. unfold same_paths. rewrite !map_map. cbn [fst]. clear - PATS. induction PATS; cbn [map]; congruence.
    - apply rres_bind with (E := Forall2 same_paths); [|intros x y; apply same_concat].
      apply mapM_rres with (E := fun a b => exists p, In p (heads h1) /\ a = kid h1 p /\ b = kid h2 p); [exact F|]. intros x y (p & I & -> & ->).
      apply rres_bind with (E := same_paths).
      + unfold MatchTree.kid. apply IH; [apply tails_ok; assumption..|]. intros path. exact (EQ (p :: path)).
      + intros f g S. cbn [rres]. unfold same_paths in *. rewrite !map_map. cbn [fst]. unfold MatchTree.kid. rewrite !grow_pat. rewrite <- !(map_map fst (cons p)). congruence.
  Qed.
  (** an entry that is there already *)
  Lemma eqv_snoc : forall ps me me' hist, In (ps, me) hist -> eqv hist (hist ++ [(ps, me')]).
  Proof.
    intros ps me me' hist I path. revert ps hist I. induction path as [|p path IH]; intros ps hist I.
    - unfold descend. cbn [fold_left]. rewrite heads_snoc. unfold head_add. cbn [fst]. destruct ps as [|q r]; [reflexivity|]. assert (K : has_key (mp_str q) (heads hist) = true); [|rewrite K; reflexivity].
      apply has_key_iff. apply heads_key. intros E. assert (X : In (r, me) (tails (mp_str q) hist)) by (apply tails_In; eauto). rewrite E in X. destruct X.
    - unfold descend. cbn [fold_left]. rewrite tails_snoc. cbn [fst snd]. destruct ps as [|q r]; [rewrite app_nil_r; reflexivity|]. destruct (str_eqb (mp_str p) (mp_str q)) eqn:E; [|rewrite app_nil_r; reflexivity].
      apply str_eqb_iff in E. apply (IH r (tails (mp_str p) hist)). apply tails_In. eauto.
  Qed.
End Eqv.

(** ** the loads of one pattern *)
Lemma pattern_path_parse : forall nv s s', startswith s [SLASH] = true -> startswith s' [SLASH] = true -> analyze_url_pattern_string s = analyze_url_pattern_string s' -> pat_parse nv s = pat_parse nv s'.
Proof. intros nv s s' A B E. unfold pat_parse, parse. rewrite A, B, E. reflexivity. Qed.
Lemma prefix_full : forall a b : list str, prefixb a b = true -> length a = length b -> a = b.
Proof.
  induction a as [|x a IH]; intros [|y b] P L; try discriminate; [reflexivity|]. cbn [prefixb] in P. apply andb_true_iff in P. destruct P as [P Q]. apply str_eqb_iff in P. f_equal; [exact P|apply IH; [exact Q|cbn [length] in L; lia]].
Qed.
Lemma prefix_refl : forall a : list str, prefixb a a = true.
Proof. induction a as [|x a IH]; [reflexivity|]. cbn [prefixb]. rewrite IH, (proj2 (str_eqb_iff x x) eq_refl). reflexivity. Qed.
Lemma c29_new : forall nv h s me b, snd (match_load nv (mloads nv h) s me) = Ok b ->
  (b = false <-> exists s' me', In (s', me') h /\ startswith s' (u "/") = true /\ analyze_url_pattern_string s' = analyze_url_pattern_string s).
Proof.
  intros nv h s me b H. rewrite mload_snd in H. destruct (pat_parse nv s) as [[m ps]|] eqn:PP; [|discriminate]. inversion H as [HB]. clear H HB b. destruct (pat_parse_analyze _ _ _ _ PP) as (SS & AN & MK). rewrite negb_false_iff, existsb_exists. split.
  - intros ([qs mt] & I & P). cbn [fst] in P. apply mhist_In in I. destruct I as (s' & m' & mt' & I & PP' & D & _). destruct (pat_digest_inj _ _ _ _ _ _ _ PP PP' (eq_sym D)) as [<- EF]. apply (f_equal (@length _)) in EF. rewrite !map_length in EF.
    apply prefix_full in P; [|rewrite !map_length; exact EF]. destruct (pat_parse_analyze _ _ _ _ PP') as (SS' & AN' & MK'). exists s', mt'. split; [exact I|]. split; [exact SS'|]. rewrite AN, AN', P. reflexivity.
  - intros (s' & me' & I & SS' & E). exists (ps, option_map MUser me'). split; [|apply prefix_refl]. apply mhist_In. exists s', m, me'. split; [exact I|]. split; [|auto]. rewrite <- PP. apply pattern_path_parse; auto.
Qed.
(** a load that is not new changes no result *)
Lemma c29_same : forall nv h s me, snd (match_load nv (mloads nv h) s me) = Ok false -> forall url,
  rres same_paths (match_url nv (mloads nv h) url) (match_url nv (mloads nv (h ++ [(s, me)])) url).
Proof.
  intros nv h s me H url. pose proof (proj1 (c29_new nv h s me false H) eq_refl) as (s' & me' & I & SS & E). unfold match_url. destruct (parse nv url) as [[m p]|]; cbn [bind]; [|reflexivity]. rewrite !mloads_get. set (sid := parsed_digest m p).
  rewrite mload_snd in H. destruct (pat_parse nv s) as [[m1 ps]|] eqn:PP; [|discriminate]. clear H. destruct (pat_parse_analyze _ _ _ _ PP) as (SS1 & _ & _).
  assert (PP' : pat_parse nv s' = Some (m1, ps)) by (rewrite <- PP; apply pattern_path_parse; auto).
  unfold the_matcher. rewrite mentries_snoc, PP. destruct (str_eqb sid (parsed_digest m1 (PPat ps))) eqn:D.
  - apply str_eqb_iff in D. assert (J : In (ps, option_map MUser me') (mhist nv sid h)) by (apply mhist_In; exists s', m1, me'; auto).
    assert (R : rres same_paths (nmatch_n 2 (mroot nv sid h) (match_objs p)) (nmatch_n 2 (mroot nv sid (h ++ [(s, me)])) (match_objs p))).
    { rewrite !nmatch2. unfold mroot. apply (nmatch_eqv inner1 mp_ok regok1); [apply mhist_ok..|]. unfold mhist. rewrite mentries_snoc, PP, (proj2 (str_eqb_iff _ _) D), map_app. cbn [map snd]. eapply eqv_snoc. exact J. }
    unfold mhist in J. destruct (mentries nv sid h) as [|[m2 e] r]; [destruct J|]. exact R.
  - rewrite app_nil_r. assert (R : mroot nv sid (h ++ [(s, me)]) = mroot nv sid h) by (unfold mroot, mhist; rewrite mentries_snoc, PP, D, app_nil_r; reflexivity). rewrite R.
    destruct (mentries nv sid h) as [|[m2 e] r]; [reflexivity|]. cbn [mm_root]. destruct (nmatch_n 2 _ _); reflexivity.
Qed.

(** ** the metas *)
Definition seqb (a b : list str) : {a = b} + {a <> b} := list_eq_dec (list_eq_dec N.eq_dec) a b.
Definition lm (K : list str) (hist : list hent) : option mmeta :=
  fold_left (fun o (e : hent) => if seqb (skey (fst e)) K then match snd e with Some _ => snd e | None => o end else o) hist None.
Lemma lm_snoc : forall K hist e, lm K (hist ++ [e]) = if seqb (skey (fst e)) K then match snd e with Some _ => snd e | None => lm K hist end else lm K hist.
Proof. intros. unfold lm. rewrite fold_left_app. reflexivity. Qed.
Lemma lm_nil : forall hist, lm [] hist = lmeta hist.
Proof.
  induction hist as [|[ps me] hist IH] using rev_ind; [reflexivity|]. rewrite lm_snoc, lmeta_snoc. unfold meta_step. cbn [fst snd]. destruct ps as [|p ps]; cbn [map]; (destruct (seqb _ _) as [E|E]; [try discriminate|try congruence]); rewrite ?IH; reflexivity.
Qed.
Lemma lm_cons : forall k K hist, lm (k :: K) hist = lm K (tails k hist).
Proof.
  intros k K. induction hist as [|[ps me] hist IH] using rev_ind; [reflexivity|]. rewrite lm_snoc, tails_snoc. cbn [fst snd]. destruct ps as [|p r]; cbn [map].
  - rewrite app_nil_r. destruct (seqb _ _); [discriminate|exact IH].
  - destruct (str_eqb k (mp_str p)) eqn:E.
    + apply str_eqb_iff in E. subst k. rewrite lm_snoc. cbn [fst snd]. rewrite IH. destruct (seqb (mp_str p :: _) _) as [A|A], (seqb (skey r) _) as [B|B]; try reflexivity; congruence.
    + rewrite app_nil_r. destruct (seqb _ _) as [A|A]; [|exact IH]. exfalso. inversion A. subst k. rewrite (proj2 (str_eqb_iff _ _) eq_refl) in E. discriminate.
Qed.
Lemma lm_descend : forall path hist, lmeta (descend path hist) = lm (skey path) hist.
Proof. induction path as [|p path IH]; intros hist; [symmetry; apply lm_nil|]. unfold descend. cbn [fold_left map]. rewrite lm_cons. apply IH. Qed.
Lemma lm_last : forall nv m ps s0 h, pat_parse nv s0 = Some (m, ps) -> exists o, lm (skey ps) (mhist nv (parsed_digest m (PPat ps)) h) = option_map MUser o /\ last_meta h (m, skey ps) o.
Proof.
  intros nv m ps s0 h P0. induction h as [|[s me] h (o & IH & LM)] using rev_ind; [exists None; split; [reflexivity|intros s x []]|].
  set (sid := parsed_digest m (PPat ps)) in *. unfold mhist. rewrite mentries_snoc, map_app. fold (mhist nv sid h). destruct (pat_parse_analyze _ _ _ _ P0) as (S0 & A0 & M0).
  assert (KEEP : ~ (same_pattern (m, skey ps) s /\ me <> None) -> last_meta (h ++ [(s, me)]) (m, skey ps) o).
  { intros N. destruct o as [x|]; cbn [last_meta] in *.
    - destruct LM as (h1 & s1 & h2 & -> & A & B). exists h1, s1, (h2 ++ [(s, me)]). rewrite <- app_assoc. split; [reflexivity|]. split; [exact A|]. intros s' x' I. apply in_app_iff in I. destruct I as [I|[I|[]]]; [eauto|]. inversion I; subst. intros SP. apply N. split; [exact SP|discriminate].
    - intros s' x' I. apply in_app_iff in I. destruct I as [I|[I|[]]]; [eauto|]. inversion I; subst. intros SP. apply N. split; [exact SP|discriminate]. }
  assert (NOT : ~ (same_pattern (m, skey ps) s /\ me <> None) -> lm (skey ps) (mhist nv sid h) = option_map MUser o -> exists o', lm (skey ps) (mhist nv sid h) = option_map MUser o' /\ last_meta (h ++ [(s, me)]) (m, skey ps) o') by (intros N L; exists o; auto).
  destruct (pat_parse nv s) as [[m' qs]|] eqn:PP.
  - destruct (pat_parse_analyze _ _ _ _ PP) as (S1 & A1 & M1). destruct (str_eqb sid (parsed_digest m' (PPat qs))) eqn:D.
    + apply str_eqb_iff in D. cbn [map snd]. rewrite lm_snoc. cbn [fst snd]. destruct (pat_digest_inj _ _ _ _ _ _ _ P0 PP D) as [<- _]. destruct (seqb (skey qs) (skey ps)) as [E|E].
      * destruct me as [x|]; cbn [option_map]; [|apply NOT; [intros [_ X]; congruence|exact IH]]. exists (Some x). split; [reflexivity|]. exists h, s, []. split; [reflexivity|]. split; [|intros ? ? []]. split; [exact S1|]. rewrite A1, E. reflexivity.
      * apply NOT; [|exact IH]. intros [[_ X] _]. rewrite A1 in X. inversion X. congruence.
    + cbn [map]. rewrite app_nil_r. apply NOT; [|exact IH]. intros [[_ X] _]. rewrite A1 in X. inversion X as [[X1 X2]]. subst m'. rewrite X2 in M1. assert (qs = ps) by congruence. subst qs. fold sid in D. rewrite (proj2 (str_eqb_iff _ _) eq_refl) in D. discriminate.
  - cbn [map]. rewrite app_nil_r. apply NOT; [|exact IH]. intros [[X1 X2] _]. rewrite (pattern_path_parse nv s s0) in PP; [congruence|exact X1|exact S0|congruence].
Qed.
Lemma c29_meta : forall nv h url m raw fs path node, url_path nv url = Some (m, raw) -> match_url nv (mloads nv h) url = Ok fs -> In (path, node) fs ->
  exists o, m_meta node = option_map MUser o /\ last_meta h (m, map mp_str path) o.
Proof.
  intros nv h url m raw fs path node U M I. destruct (match_history _ _ _ _ _ _ _ _ U M I) as (s & mt & sid & -> & _ & PP & _ & _ & _ & ->). destruct (lm_last nv m path s h PP) as (o & E & L). exists o. split; [|exact L].
  unfold found_node. rewrite (grow_eq inner1 mp_ok regok1). { cbn [m_meta]. rewrite lm_descend. exact E. }
  assert (G : forall p hist, hist_ok mp_ok hist -> hist_ok mp_ok (descend p hist)). { induction p as [|q p IH]; intros hist OK; [exact OK|]. unfold descend. cbn [fold_left]. apply IH. apply tails_ok. exact OK. }
  apply G. apply mhist_ok.
Qed.
