(** match() of a pattern (C60). *)
From Coq Require Import String.
From Verif Require Import PyStr Defs UrlLib ParseUtils Spec Views Trees Patterns Matcher Observe MatchSpec GrammarSpec SlashSpec PyStrProofs DefsProofs DictProofs RegexProofs PieceProofs LengthProofs UnitProofs BridgeProofs LoadProofs EntProofs TokProofs FlatCluster ViewProofs KeyProofs PatUnits MatchVms MatchTree MatchSem MatchLevel MatchNest MatchDigest MatchUnits MatchKeys MatchSound MatchTop MatchExact MatchTakes MatchPos MatchTotal MatchReload Grammar.
From Coq Require Import Lia Sorted Permutation.

Definition fz (p : match_pattern) : bool := vcls_eqb (mp_view p) VFuzzy.
Definition all_fz (hist : list hent) : bool := forallb (fun h : hent => forallb fz (fst h)) hist.
Lemma fz_iff : forall p, fz p = true <-> mp_view p = VFuzzy.
Proof. intros p. apply vcls_eqb_iff. Qed.
Lemma mapM_dich : forall A B (f : A -> res B) e l, (forall x, In x l -> (exists y, f x = Ok y) \/ f x = Err e) -> (exists x, In x l /\ f x = Err e) -> mapM f l = Err e.
Proof.
  induction l as [|a l IH]; intros D (x & I & E); [destruct I|]. cbn [mapM]. destruct (D a (or_introl eq_refl)) as [(y & Y)|Y]; rewrite Y; cbn [bind]; [|reflexivity].
  destruct I as [->|I]; [congruence|]. rewrite IH; [reflexivity|intros z J; apply D; right; exact J|eauto].
Qed.

Section None.
  Context (inner : mnode -> list match_pattern -> mmeta -> mnode * res bool).
  Context (ok : match_pattern -> Prop).
  Context (regok : forall l p, Forall ok l -> ok p -> snd (register inner (regs inner l) p) = None).
  Context (inner_m : mnode -> list mobj -> res (list (option mmeta))).
  Notation grow := (grow inner).

  Lemma view_none : forall v l, v <> VFuzzy -> view_match inner_m v (body inner v l) None = Err EAttr.
  Proof. intros v l N. pose proof (body_shape inner v l) as B. destruct v, (body inner _ l); try discriminate; try congruence; reflexivity. Qed.
  Lemma fuzzy_all : forall l, body inner VFuzzy l = BFuzzy (skey (filter fz l)).
  Proof. intros l. unfold body. apply (fuzzy_body inner). Qed.

  Lemma regs_fuzzy : forall l, Forall (fun p => mp_view p = VFuzzy) l -> regs inner l = match l with [] => [] | _ => [(VFuzzy, BFuzzy (skey l))] end.
  Proof.
    intros l F. destruct (regs_ok inner l) as [SS V].
    assert (FL : forall v, filter (is_view v) l = if vcls_eqb v VFuzzy then l else []).
    { intros v. clear SS V. induction F as [|p l P F IH]; [destruct (vcls_eqb v VFuzzy); reflexivity|]. cbn [filter]. rewrite IH. unfold is_view. rewrite P. destruct v; reflexivity. }
    assert (ONLY : forall v b, In (v, b) (regs inner l) -> v = VFuzzy /\ b = BFuzzy (skey l) /\ l <> []).
    { intros v b I. apply (vget_In v b _ SS) in I. rewrite V, FL in I. destruct (vcls_eqb v VFuzzy) eqn:E; [|discriminate]. apply vcls_eqb_iff in E. subst v. split; [reflexivity|].
      destruct l as [|p l0]; [discriminate|]. split; [|discriminate]. injection I as I. rewrite <- I, fuzzy_all. f_equal. f_equal. specialize (FL VFuzzy). exact FL. }
    destruct (regs inner l) as [|[v b] [|[w c] r]].
    - destruct l as [|p l]; [reflexivity|]. specialize (V VFuzzy). rewrite FL in V. discriminate.
    - destruct (ONLY v b (or_introl eq_refl)) as (-> & -> & N). destruct l; [congruence|reflexivity].
    - exfalso. destruct (ONLY v b (or_introl eq_refl)) as (-> & _). destruct (ONLY w c (or_intror (or_introl eq_refl))) as (-> & _). unfold vms_sorted in SS. cbn [map] in SS. inversion SS as [|? ? _ X]; subst. inversion X; subst. unfold vord in *. cbn in *. lia.
  Qed.

  Definition facc (p : match_pattern) (o : mobj) : Prop := True.
  Lemma all_fz_heads : forall hist, all_fz hist = true -> Forall (fun p => mp_view p = VFuzzy) (heads hist).
  Proof.
    intros hist A. apply Forall_forall. intros p I. destruct (heads_In _ _ I) as (r & me & J). unfold all_fz in A. rewrite forallb_forall in A. specialize (A _ J). cbn [fst forallb] in A. apply andb_prop in A. apply fz_iff. apply A.
  Qed.
  Lemma all_fz_tails : forall k hist, all_fz hist = true -> all_fz (tails k hist) = true.
  Proof.
    intros k hist A. unfold all_fz in *. rewrite forallb_forall in *. intros [r me] I. apply tails_In in I. destruct I as (q & _ & I). specialize (A _ I). cbn [fst forallb] in *. apply andb_prop in A. apply A.
  Qed.
  Lemma fz_exact : forall os hist, Forall (fun o : mobj => o = None) os -> all_fz hist = true -> exact_at inner inner_m facc os hist.
  Proof.
    induction os as [|o os IH]; intros hist F A; [exact Logic.I|]. inversion F as [|? ? -> F']; subst. cbn [exact_at]. split; [|intros p _; apply IH; [exact F'|apply all_fz_tails; exact A]].
    pose proof (all_fz_heads hist A) as H. pose proof (regs_fuzzy _ H) as R. unfold level_exact. rewrite R. destruct (heads hist) as [|p l] eqn:E.
    - exists []. cbn. split; [reflexivity|]. split; [constructor|]. intros k. split; [intros []|intros (q & [] & _)].
    - rewrite <- E in *. exists [skey (heads hist)]. cbn [mapM fst snd view_match bind List.concat]. rewrite app_nil_r. split; [reflexivity|]. split; [apply heads_NoDup|].
      intros k. rewrite in_map_iff. split; [intros (q & <- & I); exists q; unfold facc; auto|intros (q & I & <- & _); eauto].
  Qed.
  Lemma fz_found : forall os q hist, Forall (fun o : mobj => o = None) os -> hist_ok ok hist -> uniform (length os) hist -> coherent hist -> hist <> [] -> os <> [] -> all_fz hist = true ->
    exists fs, nmatch inner_m os (grow q hist) = Ok fs /\ NoDup (map (fun f => skey (fst f)) fs) /\
      forall path k, In (path, k) fs <-> (exists me, In (path, me) hist) /\ k = found_node inner path q hist.
  Proof.
    intros os q hist F OK U C N NO A. destruct (nmatch_exact inner ok regok inner_m facc os q hist OK U C N NO (fz_exact os hist F A)) as (fs & E & ND & X). exists fs. split; [exact E|]. split; [exact ND|].
    intros path k. rewrite X. split; [intros (H1 & _ & H2); auto|]. intros [(me & I) H2]. split; [eauto|]. split; [|exact H2].
    unfold uniform in U. rewrite Forall_forall in U. specialize (U _ I). cbn [fst] in U. clear - U. revert os U. induction path as [|p path IH]; intros [|o os] L; try discriminate; constructor; [exact Logic.I|apply IH; cbn in L; lia].
  Qed.

  Lemma none_raises : forall os q hist, Forall (fun o : mobj => o = None) os -> hist_ok ok hist -> uniform (length os) hist -> coherent hist -> hist <> [] -> os <> [] -> all_fz hist = false ->
    nmatch inner_m os (grow q hist) = Err EAttr.
  Proof.
    induction os as [|o os IH]; intros q hist F OK U C N NO A; [congruence|]. clear NO. inversion F as [|? ? -> F']; subst. cbn [nmatch length] in *.
    assert (VMS : m_vms (grow q hist) = regs inner (heads hist)) by (rewrite (grow_eq inner ok regok) by exact OK; reflexivity). rewrite VMS. clear VMS.
    destruct (regs_ok inner (heads hist)) as [SS V].
    assert (TN : forall p, In p (heads hist) -> tails (mp_str p) hist <> []) by (intros p I; apply heads_key; apply in_map; exact I).
    assert (KN : forall p, In p (heads hist) -> os <> [] -> (exists fs, nmatch inner_m os (kid inner hist p) = Ok fs) \/ nmatch inner_m os (kid inner hist p) = Err EAttr).
    { intros p I NO. unfold kid. destruct (all_fz (tails (mp_str p) hist)) eqn:E.
      - left. destruct (fz_found os p (tails (mp_str p) hist)) as (fs & X & _); [exact F'|apply tails_ok; exact OK|apply tails_uniform; exact U|apply tails_coherent; exact C|apply TN; exact I|exact NO|exact E|]. eauto.
      - right. apply IH; [exact F'|apply tails_ok; exact OK|apply tails_uniform; exact U|apply tails_coherent; exact C|apply TN; exact I|exact NO|exact E]. }
    assert (LEAF : forall p, In p (heads hist) -> m_leaf (kid inner hist p) = match os with [] => true | _ => false end).
    { intros p I. unfold kid. rewrite (grow_leaf inner ok regok) by (apply tails_ok; exact OK). pose proof (uniform_heads (length os) (tails (mp_str p) hist) (tails_uniform _ _ _ U) (TN p I)) as X.
      destruct (heads (tails (mp_str p) hist)); destruct os; try reflexivity; exfalso; [destruct X as [X _]; discriminate (X eq_refl)|destruct X as [_ X]; discriminate (X eq_refl)]. }
    assert (KID : forall p, In p (heads hist) -> kid_by_key (grow q hist) (mp_str p) = Ok (kid inner hist p)).
    { intros p I. pose proof (grow_kid inner ok regok q hist (mp_str p) OK) as G. destruct (kid_by_key (grow q hist) (mp_str p)) as [x|e].
      - destruct G as (p' & I' & E' & ->). rewrite (key_unique (heads hist) p' p (heads_NoDup hist) I' I E'). reflexivity.
      - exfalso. apply G. apply in_map. exact I. }
    assert (NODES : mapM (kid_by_key (grow q hist)) (skey (filter fz (heads hist))) = Ok (map (kid inner hist) (filter fz (heads hist)))).
    { assert (G : forall l, incl l (heads hist) -> mapM (kid_by_key (grow q hist)) (skey l) = Ok (map (kid inner hist) l)).
      { induction l as [|p l IHl]; intros IN; [reflexivity|]. cbn [map mapM]. rewrite KID by (apply IN; left; reflexivity). cbn [bind]. rewrite IHl by (intros z J; apply IN; right; exact J). reflexivity. }
      apply G. intros p I. apply filter_In in I. apply I. }
    match goal with |- bind (mapM ?f ?l) _ = _ => set (g := f) end.
    assert (GN : forall v b, In (v, b) (regs inner (heads hist)) -> v <> VFuzzy -> g (v, b) = Err EAttr).
    { intros v b I NV. apply (vget_In v b _ SS) in I. rewrite V in I. assert (b = body inner v (heads hist)) by (destruct (filter (is_view v) (heads hist)); [discriminate|inversion I; reflexivity]). subst b. unfold g. cbn [fst snd]. rewrite view_none by exact NV. reflexivity. }
    assert (GF : forall b, In (VFuzzy, b) (regs inner (heads hist)) -> g (VFuzzy, b) = match os with [] => Ok (map (fun k => ([m_pat k], k)) (map (kid inner hist) (filter fz (heads hist)))) | _ =>
        fs <- mapM (fun k => f <- nmatch inner_m os k ;; Ok (map (fun pn => (m_pat k :: fst pn, snd pn)) f)) (map (kid inner hist) (filter fz (heads hist))) ;; Ok (List.concat fs) end).
    { intros b I. apply (vget_In _ b _ SS) in I. rewrite V in I. assert (BE : b = body inner VFuzzy (heads hist)) by (destruct (filter (is_view VFuzzy) (heads hist)); [discriminate|inversion I; reflexivity]). subst b. unfold g. cbn [fst snd]. rewrite fuzzy_all. cbn [view_match bind]. rewrite NODES. cbn [bind].
      destruct (filter fz (heads hist)) as [|p l] eqn:E; [destruct os; reflexivity|]. cbn [map]. rewrite LEAF; [destruct os; reflexivity|]. assert (J : In p (filter fz (heads hist))) by (rewrite E; left; reflexivity). apply filter_In in J. apply J. }
    assert (ONK : forall p, In p (filter fz (heads hist)) -> In p (heads hist)) by (intros p I; apply filter_In in I; apply I).
    assert (GO : mapM g (regs inner (heads hist)) = Err EAttr); [|rewrite GO; reflexivity].
    apply mapM_dich.
    - intros [v b] I. destruct (vcls_eqb v VFuzzy) eqn:EV; [|right; apply GN; [exact I|intros ->; discriminate]]. apply vcls_eqb_iff in EV. subst v. rewrite (GF b I). destruct os as [|o os']; [left; eexists; reflexivity|].
      set (os := o :: os') in *. assert (NO : os <> []) by discriminate. clearbody os.
      match goal with |- (exists y, bind (mapM ?f ?l) _ = _) \/ _ => set (kf := f); set (kl := l) end.
      assert (DI : forall k, In k kl -> (exists y, kf k = Ok y) \/ kf k = Err EAttr).
      { intros k J. unfold kl in J. apply in_map_iff in J. destruct J as (p & <- & J). unfold kf. destruct (KN p (ONK p J) NO) as [(fs & X)|X]; rewrite X; [left; eexists; reflexivity|right; reflexivity]. }
      assert (R : (exists ys, mapM kf kl = Ok ys) \/ mapM kf kl = Err EAttr).
      { clear -DI. induction kl as [|k l IHl]; [left; exists []; reflexivity|]. cbn [mapM]. destruct (DI k (or_introl eq_refl)) as [(y & Y)|Y]; rewrite Y; cbn [bind]; [|right; reflexivity]. destruct IHl as [(ys & YS)|YS]; [intros z J; apply DI; right; exact J| |]; rewrite YS; cbn [bind]; [left; eexists; reflexivity|right; reflexivity]. }
      destruct R as [(ys & R)|R]; rewrite R; [left; eexists; reflexivity|right; reflexivity].
    - unfold all_fz in A. destruct (forallb fz (heads hist)) eqn:HF.
      + (* all heads are open: the culprit is below *)
        assert (X : exists p r me, In (p :: r, me) hist /\ forallb fz r = false /\ In p (heads hist)).
        { apply Bool.not_true_iff_false in A. rewrite forallb_forall in A. destruct (existsb (fun h : hent => negb (forallb fz (fst h))) hist) eqn:EX.
          - apply existsb_exists in EX. destruct EX as ([ps me] & I & X). cbn [fst] in X. destruct ps as [|p r]; [discriminate|]. exists p, r, me. 
            assert (K : In (mp_str p) (skey (heads hist))). { apply heads_key. intros Z. assert (T : In (r, me) (tails (mp_str p) hist)) by (apply tails_In; eauto). rewrite Z in T. destruct T. }
            apply in_map_iff in K. destruct K as (p' & E & K). destruct (heads_In _ _ K) as (r' & me' & I'). assert (p' = p) by (apply (C 0 _ _ _ _ p' p I' I); [reflexivity|reflexivity|exact E]). subst p'.
            split; [exact I|]. split; [|exact K]. rewrite forallb_forall in HF. cbn [forallb] in X. rewrite (HF p K) in X. cbn [andb] in X. destruct (forallb fz r); [discriminate|reflexivity].
          - exfalso. apply A. intros h I. destruct (forallb fz (fst h)) eqn:E; [reflexivity|]. assert (Y : existsb (fun h : hent => negb (forallb fz (fst h))) hist = true) by (apply existsb_exists; exists h; rewrite E; auto). congruence. }
        destruct X as (p & r & me & I & FR & PH). assert (NO : os <> []).
        { intros ->. unfold uniform in U. rewrite Forall_forall in U. specialize (U _ I). cbn [fst length] in U. destruct r; [discriminate|discriminate]. }
        assert (PF : In p (filter fz (heads hist))). { apply filter_In. rewrite forallb_forall in HF. auto. }
        assert (B : In (VFuzzy, body inner VFuzzy (heads hist)) (regs inner (heads hist))).
        { apply (vget_In _ _ _ SS). rewrite V. destruct (filter (is_view VFuzzy) (heads hist)) eqn:E; [|reflexivity]. exfalso. change (is_view VFuzzy) with fz in E. rewrite E in PF. destruct PF. }
        exists (VFuzzy, body inner VFuzzy (heads hist)). split; [exact B|]. rewrite (GF _ B). destruct os as [|o os']; [congruence|]. set (os := o :: os') in *. clearbody os.
        rewrite (mapM_dich _ _ _ EAttr); [reflexivity| |].
        * intros k J. apply in_map_iff in J. destruct J as (p1 & <- & J). destruct (KN p1 (ONK p1 J) NO) as [(fs & X)|X]; rewrite X; [left; eexists; reflexivity|right; reflexivity].
        * exists (kid inner hist p). split; [apply in_map; exact PF|]. unfold kid. rewrite IH; [reflexivity|exact F'|apply tails_ok; exact OK|apply tails_uniform; exact U|apply tails_coherent; exact C|apply TN; exact PH|exact NO|].
          apply Bool.not_true_iff_false. unfold all_fz. rewrite forallb_forall. intros Z. assert (T : In (r, me) (tails (mp_str p) hist)) by (apply tails_In; eauto). specialize (Z _ T). cbn [fst] in Z. congruence.
      + apply Bool.not_true_iff_false in HF. rewrite forallb_forall in HF. destruct (existsb (fun p => negb (fz p)) (heads hist)) eqn:EX.
        * apply existsb_exists in EX. destruct EX as (p & I & X). assert (NV : mp_view p <> VFuzzy). { intros E. apply fz_iff in E. rewrite E in X. discriminate. }
          assert (B : In (mp_view p, body inner (mp_view p) (heads hist)) (regs inner (heads hist))).
          { apply (vget_In _ _ _ SS). rewrite V. destruct (filter (is_view (mp_view p)) (heads hist)) eqn:E; [|reflexivity]. exfalso. assert (J : In p (filter (is_view (mp_view p)) (heads hist))) by (apply in_view; auto). rewrite E in J. destruct J. }
          exists (mp_view p, body inner (mp_view p) (heads hist)). split; [exact B|]. apply GN; assumption.
        * exfalso. apply HF. intros p I. destruct (fz p) eqn:E; [reflexivity|]. assert (Y : existsb (fun p => negb (fz p)) (heads hist) = true) by (apply existsb_exists; exists p; rewrite E; auto). congruence.
  Qed.
End None.
