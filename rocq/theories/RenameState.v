(** Renaming letters and digits commutes with PatternMatcher (C58): states, loads, matches. *)
From Coq Require Import String.
From Verif Require Import PyStr Defs UrlLib ParseUtils Spec Views Trees Cluster Patterns Matcher Maker Observe MatchSpec GrammarSpec UrlSpec RenameSpec PyStrProofs DefsProofs DictProofs RegexProofs PieceProofs LengthProofs BridgeProofs DigestProofs LoadProofs MatchLevel MatchNest MatchDigest Grammar UrlExact Para Rename RenameUnits RenameMatch.
From Coq Require Import Lia.

Lemma reads_iff : forall s m Ps, reads s (m, Ps) <-> startswith s [SLASH] = true /\ analyze_url_pattern_string s = Ok (m, Ps).
Proof.
  intros s [d ks hf] Ps. unfold reads. change (u "/") with [SLASH]. cbn [fst snd path_depth query_keys has_fragment]. split; intros [A B]; (split; [exact A|]); apply (parts_exact s d ks hf Ps A); exact B.
Qed.
Lemma reads_fun : forall s x y, reads s x -> reads s y -> x = y.
Proof. intros s [m a] [n b] X Y. apply reads_iff in X, Y. destruct X as [_ X], Y as [_ Y]. congruence. Qed.
Lemma pat_parse_iff : forall nv s m ps, pat_parse nv s = Some (m, ps) <-> ps <> [] /\ exists Ps, reads s (m, Ps) /\ mk_patterns 1 (path_depth m) Ps = Ok ps.
Proof.
  intros nv s m ps. split.
  - intros E. destruct (pat_parse_ok _ _ _ _ E) as (_ & NE & P). split; [exact NE|]. unfold parse in P. destruct (startswith s [SLASH]) eqn:S0.
    + apply bind_ok in P. destruct P as ([m' Ps] & A & P). apply bind_ok in P. destruct P as (ms & B & P). inversion P; subst. exists Ps. split; [apply reads_iff; auto|exact B].
    + apply bind_ok in P. destruct P as ([m' Ps] & A & P). apply bind_ok in P. destruct P as (ms & B & P). discriminate.
  - intros (NE & Ps & RD & MK). apply reads_iff in RD. destruct RD as [S0 A]. unfold pat_parse, parse. rewrite S0, A. cbn [bind]. rewrite MK. cbn [bind]. destruct ps; [congruence|reflexivity].
Qed.
Section St.
  Context (f g : char -> char) (RN : renaming f g) (nv : str -> bool).
  Notation pR := (pR f).
  Notation mnR := (mnR f).
  Lemma parse_R : forall s s' m ps, renamed_pattern f s s' -> pat_parse nv s = Some (m, ps) -> exists ps', pat_parse nv s' = Some (rename_meta f m, ps') /\ Forall2 pR ps ps'.
  Proof.
    intros s s' m ps RP E. apply pat_parse_iff in E. destruct E as (NE & Ps & RD & MK). destruct (mks_R f g RN _ _ _ _ MK) as (ps' & MK' & F). exists ps'. split; [|exact F]. apply pat_parse_iff. split; [intros ->; inversion F; subst; congruence|].
    exists (map (rename_text f) Ps). split; [|exact MK']. apply (proj2 (RP (rename_meta f m, map (rename_text f) Ps))). exists (m, Ps). split; [exact RD|reflexivity].
  Qed.
End St.
Lemma parts_inv : forall f g, renaming f g -> forall x, rename_parts g (rename_parts f x) = x.
Proof.
  intros f g RN [[d ks hf] Ps]. unfold rename_parts, rename_meta. cbn [fst snd path_depth query_keys has_fragment]. rewrite !map_map.
  assert (I : forall l, map (fun x => rename_text g (rename_text f x)) l = l). { intros l. rewrite <- (map_id l) at 2. apply map_ext. intros a. apply (rename_inv f g RN a Outside). }
  rewrite !I. reflexivity.
Qed.
Lemma renamed_sym : forall f g s s', renaming f g -> renamed_pattern f s s' -> renamed_pattern g s' s.
Proof.
  intros f g s s' RN RP x. split.
  - intros RD. exists (rename_parts f x). split; [apply RP; exists x; auto|symmetry; apply (parts_inv f g RN)].
  - intros (x' & RD & ->). apply RP in RD. destruct RD as (y & RD & ->). rewrite (parts_inv f g RN). exact RD.
Qed.
Section St2.
  Context (f g : char -> char) (RN : renaming f g) (nv : str -> bool).
  Notation pR := (pR f).
  Notation mnR := (mnR f).
  Lemma parse_none : forall s s', renamed_pattern f s s' -> pat_parse nv s = None -> pat_parse nv s' = None.
  Proof.
    intros s s' RP E. destruct (pat_parse nv s') as [[m ps]|] eqn:E'; [|reflexivity]. destruct (parse_R g f (sym_renaming f g RN) nv s' s m ps (renamed_sym f g s s' RN RP) E') as (ps' & X & _). congruence.
  Qed.
  Definition SR (k k' : str) : Prop := exists m fz, packed m fz /\ packed (rename_meta f m) fz /\ k = pack m fz /\ k' = pack (rename_meta f m) fz.
  Lemma SR_eq : forall a a' b b', SR a a' -> SR b b' -> str_eqb a b = str_eqb a' b'.
  Proof.
    intros a a' b b' (m & fz & P & P' & -> & ->) (n & gz & Q & Q' & -> & ->). apply eq_iff_eq_true. rewrite !str_eqb_iff. split; intros E.
    - destruct (packed_inj _ _ _ _ P Q E) as [-> ->]. reflexivity.
    - destruct (packed_inj _ _ _ _ P' Q' E) as [E1 ->]. apply (meta_inj f g RN) in E1. subst. reflexivity.
  Qed.
  Definition maR (x x' : matcher) : Prop := mm_meta x' = rename_meta f (mm_meta x) /\ mnR (mm_root x) (mm_root x').
  Definition mstR := Forall2 (pairR SR maR).
  Lemma fuzzies : forall ps ps', Forall2 pR ps ps' -> map mp_fuzzy ps' = map mp_fuzzy ps.
  Proof. intros ps ps' F. symmetry. eapply F2_eq; [exact F|]. intros a b P. symmetry. exact (pR_fuzzy f a b P). Qed.
  Lemma mload_R : forall st st' s s' me, mstR st st' -> renamed_pattern f s s' ->
    mstR (fst (match_load nv st s me)) (fst (match_load nv st' s' me)) /\
    ((exists e e', snd (match_load nv st s me) = Err e /\ snd (match_load nv st' s' me) = Err e') \/ snd (match_load nv st s me) = snd (match_load nv st' s' me)).
  Proof.
    intros st st' s s' me ST RP. rewrite !match_load_eq. destruct (pat_parse nv s) as [[m ps]|] eqn:E.
    - destruct (parse_R f g RN nv s s' m ps RP E) as (ps' & E' & F). rewrite E'. cbv zeta.
      assert (K : SR (parsed_digest m (PPat ps)) (parsed_digest (rename_meta f m) (PPat ps'))).
      { exists m, (map mp_fuzzy ps). split; [exact (pat_packed _ _ _ _ E)|]. split; [rewrite <- (fuzzies _ _ F); exact (pat_packed _ _ _ _ E')|]. split; [reflexivity|]. unfold parsed_digest. rewrite (fuzzies _ _ F). reflexivity. }
      set (x := match dget str_eqb (parsed_digest m (PPat ps)) st with Some x => x | None => MM m new_mroot end). set (x' := match dget str_eqb (parsed_digest (rename_meta f m) (PPat ps')) st' with Some x => x | None => MM (rename_meta f m) new_mroot end).
      assert (X : maR x x'). { pose proof (dget_R str_eqb str_eqb SR maR SR_eq _ _ _ _ K ST) as D. unfold x, x'. destruct (dget str_eqb _ st), (dget str_eqb _ st'); try contradiction; [exact D|]. split; [reflexivity|apply mroot_R]. }
      destruct X as [XM XR]. assert (MR : optR (mmR f) (option_map MUser me) (option_map MUser me)) by (destruct me; cbn; auto).
      pose proof (mbuild_n_R f g RN 2 _ _ _ _ _ _ XR F MR) as B. destruct (mbuild_n 2 (mm_root x) ps (option_map MUser me)) as [r o], (mbuild_n 2 (mm_root x') ps' (option_map MUser me)) as [r' o']. destruct B as [B1 B2]. cbn [fst snd] in *. split; [|right; exact B2].
      apply (dset_R str_eqb str_eqb SR maR SR_eq); [exact K|split; [exact XM|exact B1]|exact ST].
    - rewrite (parse_none s s' RP E). cbn [fst snd]. split; [exact ST|left; eexists _, _; split; reflexivity].
  Qed.
  Lemma mloads_R : forall h h', Forall2 (renamed_pload f) h h' -> mstR (mloads nv h) (mloads nv h').
  Proof.
    unfold mloads. intros h h' F. assert (G : forall st st', mstR st st' -> mstR (fold_left (fun st l => fst (match_load nv st (fst l) (snd l))) h st) (fold_left (fun st l => fst (match_load nv st (fst l) (snd l))) h' st')).
    { induction F as [|[s a] [s' b] h0 h0' [A B] F IH]; intros st st' ST; [exact ST|]. cbn [fst snd] in *. subst b. cbn [fold_left fst snd]. apply IH. apply mload_R; assumption. }
    apply G. constructor.
  Qed.
  Lemma match_R : forall h h' url url' m raw, Forall2 (renamed_pload f) h h' -> url_path nv url = Some (m, raw) -> url_path nv url' = Some (rename_path f (m, raw)) ->
    resR (Forall2 (foR f)) (match_url nv (mloads nv h) url) (match_url nv (mloads nv h') url').
  Proof.
    intros h h' url url' m raw F P P'. destruct (url_path_parse _ _ _ _ P) as (A & L & PA), (url_path_parse _ _ _ _ P') as (A' & L' & PA'). cbn [fst snd rename_path] in *.
    assert (FZ : map fuzzy_rule (map pp_of (map (map f) raw)) = map fuzzy_rule (map pp_of raw)). { rewrite !map_map. apply map_ext_in. intros w I. apply (fuzzy_pp f g RN). rewrite Forall_forall in L. apply L, I. }
    assert (MM0 : forall l, Forall all_legal l -> mapM piece_parse l = Ok (map pp_of l)). { intros l FL. apply mapM_forall2. induction FL as [|w l W FL IH]; cbn [map]; constructor; [|exact IH]. apply piece_parse_iff. auto. }
    unfold match_url. rewrite PA, PA'. cbn [bind].
    assert (K : SR (parsed_digest m (PUrl (map pp_of raw))) (parsed_digest (rename_meta f m) (PUrl (map pp_of (map (map f) raw))))).
    { exists m, (map fuzzy_rule (map pp_of raw)). split; [exact (url_packed _ _ _ _ _ A (MM0 _ L))|]. split; [rewrite <- FZ; exact (url_packed _ _ _ _ _ A' (MM0 _ L'))|]. split; [reflexivity|]. unfold parsed_digest. rewrite FZ. reflexivity. }
    pose proof (dget_R str_eqb str_eqb SR maR SR_eq _ _ _ _ K (mloads_R _ _ F)) as D. destruct (dget str_eqb _ (mloads nv h)), (dget str_eqb _ (mloads nv h')); try contradiction; [|constructor].
    apply (nmatch_n_R f g RN); [exact (proj2 D)|]. cbn [match_objs]. clear - L RN. induction L as [|w l W L IH]; cbn [map]; constructor; [|exact IH]. apply (V_pp f g RN w W).
  Qed.
  Lemma view_R : forall x y, foR f x y -> view_found y = rename_found f (view_found x).
  Proof.
    intros [a n] [b n'] [A B]. unfold view_found, rename_found. cbn [fst snd] in *. f_equal.
    - rewrite map_map. symmetry. eapply F2_eq; [exact A|]. intros p p' (_ & _ & ->). reflexivity.
    - pose proof (m_meta_R _ _ _ B) as X. destruct (m_meta n) as [[x|k]|], (m_meta n') as [[x'|k']|]; try contradiction; cbn in *; congruence.
  Qed.
  Lemma up_lt_R : forall a a' b b', Forall2 pR a a' -> Forall2 pR b b' -> up_lt a' b' = up_lt a b.
  Proof.
    intros a a' b b' A. revert b b'. induction A as [|x x' a0 a0' X A IH]; intros b b' B; [reflexivity|]. destruct B as [|y y' b0 b0' Y B]; [reflexivity|]. cbn [up_lt].
    rewrite <- (R_eq f g RN _ _ _ _ (pR_str f x x' X) (pR_str f y y' Y)). rewrite (IH _ _ B), (pR_lt f g RN x x' y y' X Y). reflexivity.
  Qed.
  Lemma lt_R : forall x x' y y', foR f x x' -> foR f y y' -> found_lt x' y' = found_lt x y.
  Proof. intros x x' y y' [X _] [Y _]. unfold found_lt. apply up_lt_R; apply F2_rev; assumption. Qed.
  Lemma c58_match : forall h h' url url' m raw, Forall2 (renamed_pload f) h h' -> url_path nv url = Some (m, raw) -> url_path nv url' = Some (rename_path f (m, raw)) ->
    match match_url nv (mloads nv h) url, match_url nv (mloads nv h') url' with
    | Ok fs, Ok fs' => map view_found fs' = map (rename_found f) (map view_found fs) /\
        forall i j x y x' y', nth_error fs i = Some x -> nth_error fs j = Some y -> nth_error fs' i = Some x' -> nth_error fs' j = Some y' -> found_lt x' y' = found_lt x y
    | Err e, Err e' => e = e'
    | _, _ => False
    end.
  Proof.
    intros h h' url url' m raw F P P'. pose proof (match_R _ _ _ _ _ _ F P P') as X. destruct (match_url nv (mloads nv h) url), (match_url nv (mloads nv h') url'); try exact X. cbn [resR] in X. split.
    - rewrite map_map. symmetry. eapply F2_eq; [exact X|]. intros v w VW. symmetry. exact (view_R v w VW).
    - intros i j x y x' y' A B A' B'. pose proof (F2_nth_error _ _ _ _ _ i X) as I. pose proof (F2_nth_error _ _ _ _ _ j X) as J. rewrite A, A' in I. rewrite B, B' in J. exact (lt_R _ _ _ _ I J).
  Qed.
  Lemma c58_load : forall h h' s s' me, Forall2 (renamed_pload f) h h' -> renamed_pattern f s s' -> forall b, snd (match_load nv (mloads nv h') s' me) = Ok b <-> snd (match_load nv (mloads nv h) s me) = Ok b.
  Proof. intros h h' s s' me F RP b. destruct (mload_R _ _ s s' me (mloads_R _ _ F) RP) as [_ [(e & e' & -> & ->)|E]]; [split; discriminate|rewrite E; tauto]. Qed.
End St2.
