(** The history behind the matches of PatternMatcher (C26, C27, C29). *)
From Coq Require Import String.
From Verif Require Import PyStr Defs UrlLib ParseUtils Spec Views Trees Patterns Matcher Observe MatchSpec PyStrProofs DefsProofs DictProofs RegexProofs PieceProofs LengthProofs UnitProofs BridgeProofs LoadProofs EntProofs TokProofs FlatCluster ViewProofs KeyProofs PatUnits MatchVms MatchTree MatchSem MatchLevel MatchNest MatchDigest MatchUnits MatchKeys MatchSound.
From Coq Require Import Lia Sorted Permutation.

Section Full.
  Context (inner : mnode -> list match_pattern -> mmeta -> mnode * res bool).
  Context (ok : match_pattern -> Prop).
  Context (regok : forall l p, Forall ok l -> ok p -> snd (register inner (regs inner l) p) = None).
  Context (inner_m : mnode -> list mobj -> res (list (option mmeta))).
  Notation grow := (grow inner).
  Notation kid := (kid inner).
  Lemma kid_leaf : forall hist p d, hist_ok ok hist -> uniform (S d) hist -> In p (heads hist) -> m_leaf (kid hist p) = (d =? 0).
  Proof.
    intros hist p d OK U I. unfold MatchTree.kid. rewrite (grow_leaf inner ok regok) by (apply tails_ok; exact OK).
    assert (TU : uniform d (tails (mp_str p) hist)) by (apply tails_uniform; exact U). assert (TN : tails (mp_str p) hist <> []) by (apply heads_key; apply in_map; exact I).
    pose proof (uniform_heads _ _ TU TN) as UH. destruct (heads (tails (mp_str p) hist)), d; cbn [length is_nil Nat.eqb] in *; try reflexivity; [destruct UH as [UH _]; discriminate (UH eq_refl)|destruct UH as [_ UH]; discriminate (UH eq_refl)].
  Qed.
  Lemma nmatch_full : forall os q hist fs, hist_ok ok hist -> uniform (length os) hist -> nmatch inner_m os (grow q hist) = Ok fs -> forall path k, In (path, k) fs -> length path = length os.
  Proof.
    induction os as [|o os IH]; intros q hist fs OK U H path k I; [discriminate|]. cbn [nmatch] in H.
    match type of H with bind ?x _ = _ => destruct x as [rs|e] eqn:EM end; cbn [bind] in H; [|discriminate]. inversion H; subst; clear H.
    apply in_concat in I. destruct I as (ys & I1 & I2). destruct (mapM_In _ _ _ _ _ _ EM I1) as ([v b] & IV & E). clear EM I1 rs. cbn [fst snd] in E.
    destruct (view_match inner_m v b o) as [ks|e] eqn:EK; cbn [bind] in E; [|discriminate].
    destruct (mapM (kid_by_key (grow q hist)) ks) as [nodes|e] eqn:EN; cbn [bind] in E; [|discriminate].
    assert (NODE : forall n, In n nodes -> exists p, In p (heads hist) /\ n = kid hist p).
    { intros n J. destruct (mapM_In _ _ _ _ _ _ EN J) as (key & K1 & K2). pose proof (grow_kid inner ok regok q hist key OK) as G. rewrite K2 in G. destruct G as (p & P1 & P2 & P3). subst key. eauto. }
    destruct nodes as [|k0 nodes]; [inversion E; subst; destruct I2|].
    destruct (NODE k0 (or_introl eq_refl)) as (p0 & P0 & E0). assert (LF : m_leaf k0 = (length os =? 0)) by (rewrite E0; apply kid_leaf; assumption). rewrite LF in E. destruct os as [|o2 os]; cbn [length Nat.eqb] in E.
    - inversion E; subst; clear E. change (([m_pat (kid hist p0)], kid hist p0) :: map (fun k => ([m_pat k], k)) nodes) with (map (fun k => ([m_pat k], k)) (kid hist p0 :: nodes)) in I2. apply in_map_iff in I2. destruct I2 as (n & X & J). inversion X; subst. reflexivity.
    - match type of E with bind ?x _ = _ => destruct x as [fs|e] eqn:EF end; cbn [bind] in E; [|discriminate]. inversion E; subst ys; clear E. apply in_concat in I2. destruct I2 as (zs & J1 & J2).
      destruct (mapM_In _ _ _ _ _ _ EF J1) as (n & N1 & N2). destruct (NODE _ N1) as (p & P1 & ->). destruct (nmatch inner_m (o2 :: os) (kid hist p)) as [f|e] eqn:EQ; cbn [bind] in N2; [|discriminate]. inversion N2; subst zs; clear N2.
      apply in_map_iff in J2. destruct J2 as ([path' k'] & X & J2). cbn [fst snd] in X. inversion X; subst; clear X. cbn [length].
      f_equal. apply (IH p (tails (mp_str p) hist) f (tails_ok ok _ _ OK) (tails_uniform _ _ _ U) EQ path' k J2).
  Qed.
End Full.
Lemma descend_uniform : forall path d hist, uniform (length path + d) hist -> uniform d (descend path hist).
Proof. induction path as [|p path IH]; intros d hist U; [exact U|]. unfold descend. cbn [fold_left]. apply IH. apply tails_uniform. exact U. Qed.

(** ** the entries of one digest *)
Lemma mhist_In : forall nv sid h ps me, In (ps, me) (mhist nv sid h) <->
  exists s m mt, In (s, mt) h /\ pat_parse nv s = Some (m, ps) /\ parsed_digest m (PPat ps) = sid /\ me = option_map MUser mt.
Proof.
  intros. unfold mhist. rewrite in_map_iff. unfold mentries. split.
  - intros ([m [ps' me']] & E & I). cbn [snd] in E. inversion E; subst. apply in_flat_map in I. destruct I as ([s mt] & I & J). cbn [fst snd] in J. destruct (pat_parse nv s) as [[m' qs]|] eqn:PP; [|destruct J].
    destruct (str_eqb sid (parsed_digest m' (PPat qs))) eqn:D; [|destruct J]. destruct J as [J|[]]. inversion J; subst. apply str_eqb_iff in D. exists s, m, mt. auto.
  - intros (s & m & mt & I & PP & D & ->). exists (m, (ps, option_map MUser mt)). split; [reflexivity|]. apply in_flat_map. exists (s, mt). split; [exact I|]. cbn [fst snd]. rewrite PP. rewrite (proj2 (str_eqb_iff _ _) (eq_sym D)). left. reflexivity.
Qed.
Lemma pat_parse_analyze : forall nv s m ps, pat_parse nv s = Some (m, ps) -> startswith s [SLASH] = true /\ analyze_url_pattern_string s = Ok (m, map mp_str ps) /\ mk_patterns 1 (path_depth m) (map mp_str ps) = Ok ps.
Proof.
  intros nv s m ps H. apply pat_parse_ok in H. destruct H as (_ & _ & H). unfold parse in H. destruct (startswith s [SLASH]) eqn:SS.
  - split; [reflexivity|]. apply bind_ok in H. destruct H as ([m' l] & A & H). apply bind_ok in H. destruct H as (ms & B & H). inversion H; subst. destruct (mk_patterns_ok _ _ _ _ B) as [_ C]. rewrite C. auto.
  - apply bind_ok in H. destruct H as ([m' l] & A & H). apply bind_ok in H. destruct H as (ms & B & H). discriminate.
Qed.
Lemma mp_ok_same : forall p q, mp_ok p -> mp_ok q -> mp_str p = mp_str q -> mp_units p = mp_units q /\ mp_fuzzy p = mp_fuzzy q.
Proof.
  intros p q [b P] [c Q] E. rewrite E in P. unfold mk_match_pattern in *. destruct (pattern_units (mp_str q)) as [us|]; cbn [bind] in *; [|discriminate]. assert (HP : p = MP (mp_str q) us (view_cls_from_units us b)) by congruence. assert (HQ : q = MP (mp_str q) us (view_cls_from_units us c)) by congruence. rewrite HP, HQ. split; reflexivity.
Qed.
(** entries of one digest with equal strings are equal *)
Lemma mhist_strs : forall nv sid h ps me qs me', In (ps, me) (mhist nv sid h) -> In (qs, me') (mhist nv sid h) -> skey ps = skey qs -> ps = qs.
Proof.
  intros nv sid h ps me qs me' P Q E. apply mhist_In in P. apply mhist_In in Q. destruct P as (s & m & mt & _ & P & D & _). destruct Q as (s' & m' & mt' & _ & Q & D' & _).
  assert (D2 : parsed_digest m (PPat ps) = parsed_digest m' (PPat qs)) by congruence. destruct (pat_digest_inj _ _ _ _ _ _ _ P Q D2) as [<- _]. apply pat_parse_analyze in P. apply pat_parse_analyze in Q. destruct P as (_ & _ & P). destruct Q as (_ & _ & Q). rewrite E in P. congruence.
Qed.
Lemma mk_patterns_nth : forall l i d ms n p, mk_patterns i d l = Ok ms -> nth_error ms n = Some p -> mk_match_pattern (mp_str p) (i + n =? d) = Ok p.
Proof.
  induction l as [|w l IH]; intros i d ms n p H N; cbn [mk_patterns] in H; [inversion H; subst; destruct n; discriminate|].
  destruct (mk_match_pattern w (i =? d)) as [m|] eqn:E; cbn [bind] in H; [|discriminate]. destruct (mk_patterns (S i) d l) as [ms'|] eqn:E'; cbn [bind] in H; [|discriminate]. inversion H; subst.
  destruct n as [|n]; cbn [nth_error] in N.
  - inversion N; subst. assert (S : mp_str p = w). { clear - E. unfold mk_match_pattern in E. apply bind_ok in E. destruct E as (us & _ & E). inversion E. reflexivity. } rewrite S, Nat.add_0_r. exact E.
  - rewrite <- Nat.add_succ_comm. apply (IH _ _ _ _ _ E' N).
Qed.
Lemma mhist_coherent : forall nv sid h, coherent (mhist nv sid h).
Proof.
  intros nv sid h i ps me qs me' p q P Q NP NQ E. apply mhist_In in P. apply mhist_In in Q. destruct P as (s & m & mt & _ & P & D & _). destruct Q as (s' & m' & mt' & _ & Q & D' & _).
  assert (D2 : parsed_digest m (PPat ps) = parsed_digest m' (PPat qs)) by congruence. destruct (pat_digest_inj _ _ _ _ _ _ _ P Q D2) as [<- _]. apply pat_parse_analyze in P. apply pat_parse_analyze in Q. destruct P as (_ & _ & P). destruct Q as (_ & _ & Q).
  pose proof (mk_patterns_nth _ _ _ _ _ _ P NP) as X. pose proof (mk_patterns_nth _ _ _ _ _ _ Q NQ) as Y. rewrite E in X. congruence.
Qed.
Lemma mhist_uniform : forall nv sid h ps me, In (ps, me) (mhist nv sid h) -> uniform (length ps) (mhist nv sid h).
Proof.
  intros nv sid h ps me P. apply Forall_forall. intros [qs me'] Q. cbn [fst]. apply mhist_In in P. apply mhist_In in Q. destruct P as (s & m & mt & _ & P & D & _). destruct Q as (s' & m' & mt' & _ & Q & D' & _).
  assert (D2 : parsed_digest m (PPat ps) = parsed_digest m' (PPat qs)) by congruence. destruct (pat_digest_inj _ _ _ _ _ _ _ P Q D2) as [_ E]. apply (f_equal (@length _)) in E. rewrite !map_length in E. auto.
Qed.

(** ** what match() sees *)
Lemma hits_path : forall inner im path os hist qs r me, hits inner im path os hist -> coherent hist -> In (qs ++ r, me) hist -> skey qs = skey path -> qs = path.
Proof.
  intros inner im. induction path as [|p path IH]; intros os hist qs r me H C I E; destruct qs as [|q qs]; try discriminate; [reflexivity|]. destruct os as [|o os]; [destruct H|]. destruct H as (A & _ & H). cbn [map] in E. inversion E as [[E1 E2]].
  apply heads_In in A. destruct A as (r' & me' & A). assert (q = p) by (apply (C 0 _ _ _ _ q p I A); [reflexivity|reflexivity|exact E1]). subst q. f_equal. apply (IH os (tails (mp_str p) hist) qs r me H (tails_coherent _ _ C)); [|exact E2]. apply tails_In. exists p. auto.
Qed.
(** a returned path is a loaded pattern with the structure of the URL *)
Lemma match_history : forall nv h url m raw fs path node, url_path nv url = Some (m, raw) -> match_url nv (mloads nv h) url = Ok fs -> In (path, node) fs ->
  exists s mt sid, sid = parsed_digest m (PPat path) /\ In (s, mt) h /\ pat_parse nv s = Some (m, path) /\ map mp_fuzzy path = map fuzzy_rule (map pp_of raw) /\ length path = length raw /\ hits inner1 im1 path (map Some (map pp_of raw)) (mhist nv sid h) /\ node = found_node inner1 path empty_match_pattern (mhist nv sid h).
Proof.
  intros nv h url m raw fs path node U M I. destruct (url_path_parse _ _ _ _ U) as (A & L & P). unfold match_url in M. rewrite P in M. cbn [bind] in M. rewrite mloads_get in M. set (sid := parsed_digest m (PUrl (map pp_of raw))) in *.
  destruct (digest_of_legal m raw L) as [_ MP].
  destruct (the_matcher nv sid h) as [x|] eqn:T; [|inversion M; subst; destruct I]. assert (R : mm_root x = mroot nv sid h). { unfold the_matcher in T. destruct (mentries nv sid h) as [|[m' e] r]; [discriminate|]. inversion T. reflexivity. }
  rewrite R, nmatch2 in M. cbn [match_objs] in M. unfold mroot in M.
  assert (UNI : uniform (length raw) (mhist nv sid h)).
  { apply Forall_forall. intros [qs me] Q. cbn [fst]. apply mhist_In in Q. destruct Q as (s & m' & mt & _ & Q & D & _). destruct (url_digest_inj _ _ _ _ _ _ _ _ A MP Q (eq_sym D)) as [_ E]. apply (f_equal (@length _)) in E. rewrite !map_length in E. auto. }
  destruct (nmatch_sound inner1 mp_ok regok1 im1 _ _ _ _ (mhist_ok nv sid h) M _ _ I) as (NE & H & N).
  assert (LEN : length path = length raw). { rewrite (nmatch_full inner1 mp_ok regok1 im1 (map Some (map pp_of raw)) empty_match_pattern (mhist nv sid h) fs (mhist_ok nv sid h)) with (path := path) (k := node); [rewrite !map_length; reflexivity|rewrite !map_length; exact UNI|exact M|exact I]. }
  pose proof (hits_descend inner1 im1 _ _ _ H NE) as DN. assert (D0 : uniform 0 (descend path (mhist nv sid h))) by (apply descend_uniform; rewrite Nat.add_0_r, LEN; exact UNI).
  destruct (descend path (mhist nv sid h)) as [|[r me] l] eqn:DE; [congruence|]. assert (r = []) by (inversion D0 as [|? ? X _]; subst; cbn [fst] in X; destruct r; [reflexivity|discriminate]). subst r.
  destruct (descend_In path (mhist nv sid h) [] me) as (qs & E & J); [rewrite DE; left; reflexivity|]. pose proof (hits_path inner1 im1 _ _ _ _ _ _ H (mhist_coherent nv sid h) J E) as ->. rewrite app_nil_r in J.
  pose proof J as K. apply mhist_In in K. destruct K as (s & m' & mt & K1 & K2 & K3 & K4). destruct (url_digest_inj _ _ _ _ _ _ _ _ A MP K2 (eq_sym K3)) as [<- EF]. exists s, mt, sid. repeat (split; [first [assumption|symmetry; assumption]|]). unfold found_node. rewrite DE. exact N.
Qed.
Lemma acc1_sound : forall raw path, Forall all_legal raw -> Forall (fun w => ~ In 92%N w) raw -> Forall mp_ok path -> map mp_fuzzy path = map fuzzy_rule (map pp_of raw) -> Forall2 acc1 path (map pp_of raw) ->
  Forall2 (fun P w => rparse P <> None -> slash_alone P -> regex_matches P w) (map mp_str path) raw.
Proof.
  intros raw path. revert raw. induction path as [|p path IH]; intros [|w raw] L B OK EF F; inversion F; subst; [constructor|]. inversion L; subst. inversion B; subst. inversion OK; subst. cbn [map] in *. inversion EF as [[E1 E2]].
  constructor; [|apply IH; assumption]. intros R SA. apply pos_sound; auto. intros VM. apply slash_alone_units; auto. intros E. match goal with OKP : mp_ok p |- _ => destruct OKP as (b & HP) end. rewrite E in HP. destruct b; cbn in HP; inversion HP as [X]; rewrite <- X in VM; discriminate.
Qed.
Lemma match_accepts : forall nv sid h path raw, length path = length raw -> hits inner1 im1 path (map Some (map pp_of raw)) (mhist nv sid h) -> Forall2 acc1 path (map pp_of raw).
Proof.
  intros nv sid h path raw L H. destruct (outer_hits _ _ _ (mhist_ok nv sid h) H) as (a & b & E & F). assert (LA : length path = length a) by (eapply Forall2_length; exact F).
  pose proof (f_equal (@length _) E) as LE. rewrite map_length, app_length in LE. assert (b = []) by (destruct b; [reflexivity|cbn [length] in LE; lia]). subst b. rewrite app_nil_r in E. rewrite E. exact F.
Qed.
Lemma c26 : forall nv h url m raw fs path node, url_path nv url = Some (m, raw) -> Forall (fun w => ~ In 92%N w) raw ->
  match_url nv (mloads nv h) url = Ok fs -> In (path, node) fs ->
  exists s me, In (s, me) h /\ analyze_url_pattern_string s = Ok (m, map mp_str path) /\
    Forall2 (fun P w => rparse P <> None -> slash_alone P -> regex_matches P w) (map mp_str path) raw.
Proof.
  intros nv h url m raw fs path node U B M I. destruct (match_history _ _ _ _ _ _ _ _ U M I) as (s & mt & sid & _ & IS & PP & EF & L & H & _). exists s, mt. split; [exact IS|]. split; [apply (pat_parse_analyze nv); exact PP|].
  destruct (url_path_parse _ _ _ _ U) as (_ & LG & _). destruct (pat_parse_ok _ _ _ _ PP) as (OK & _ & _). apply acc1_sound; auto. apply (match_accepts nv sid h); assumption.
Qed.
