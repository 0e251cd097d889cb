(** Patterns generalise only what differs (C50). *)
From Coq Require Import String.
From Verif Require Import PyStr Defs UrlLib ParseUtils Spec Views Trees Cluster Patterns Matcher Maker Observe MatchSpec TightSpec PyStrProofs DefsProofs DictProofs RegexProofs PieceProofs LengthProofs QueryProofs UnitProofs BridgeProofs LoadProofs EntProofs TokProofs TokUniq FlatCluster ViewProofs KeyProofs RouteProofs OuterLevel OuterCluster MakeProofs PatUnits PartProofs MatchVms MatchTree MatchSem MatchLevel MatchNest MatchDigest MatchUnits MatchKeys MatchSound MatchTop MatchExact MatchTakes.
From Coq Require Import Lia Sorted Permutation.

Lemma piece_literal : forall s, all_legal s -> literal_text s (piece (pp_of s)).
Proof.
  intros s L. destruct (c02 s (pp_of s)) as (ws & A & B & _); [apply piece_parse_iff; auto|]. exists ws. split; [exact A|]. unfold piece. rewrite B. reflexivity.
Qed.
Lemma literal_piece : forall s P, all_legal s -> literal_text s P -> P = piece (pp_of s).
Proof. intros s P L (ws & A & ->). destruct (piece_literal s L) as (ws' & A' & ->). rewrite (maximal_runs_unique s ws ws' A A'). reflexivity. Qed.
Lemma cset_spaces : forall s, all_legal s -> spaces_of (cset s) s.
Proof.
  intros s L. split; [unfold cset; apply sorted_set_sorted|]. apply cset_iff; [exact L| |reflexivity]. apply cset_sorted.
Qed.
Lemma unit_cunit : forall rs n, unit_str (List.concat rs) n = cunit_text (CCls rs n).
Proof. intros rs [n|]; unfold unit_str, cunit_text, qstr; [|reflexivity]. destruct (N.eqb n 1); reflexivity. Qed.

Lemma tcol_called : forall ss q, ss <> [] -> tcol ss q -> called_for (fun s => In s ss) q.
Proof.
  intros ss q NE (M & C & LG & CS & MO & MP). rewrite Forall_forall in LG, CS. destruct M as [|n|]; cbn [mode_ok] in MO.
  - left. destruct ss as [|x ss]; [congruence|]. exists x. pose proof (MP x (or_introl eq_refl)) as X. cbn [mpat pstr] in X. split.
    + intros y. split; [|intros ->; left; reflexivity]. intros I. pose proof (MP y I) as Y. cbn [mpat pstr] in Y. apply piece_inj; [apply LG; exact I|apply LG; left; reflexivity|congruence].
    + rewrite <- X. apply piece_literal. apply LG. left. reflexivity.
  - right. left. destruct MO as (N0 & a & b & A & B & AB & PA & PB).
    assert (K : kok a KSpec). { split; [intros ->; apply N0; rewrite <- PA; reflexivity|]. exists b. split; [auto|]. split; [congruence|]. split; [rewrite !CS by assumption; reflexivity|congruence]. }
    assert (QA : q = pstr a KSpec). { rewrite <- (MP a A). cbn [mpat]. rewrite PA, N.eqb_refl. reflexivity. }
    assert (ALL : forall x, In x ss -> pl x = n).
    { intros x I. pose proof (MP x I) as X. cbn [mpat] in X. destruct (N.eqb_spec (pl x) n) as [E|E]; [exact E|]. rewrite QA in X. cbn [pstr] in X.
      apply (lit_vs_class x a KSpec) in X; [subst x; exact PA|auto..]. }
    exists C, n. split; [|split; [exists a, b; auto|]].
    + intros x I. split; [rewrite <- (CS x I); apply cset_spaces; auto|]. exact (ALL x I).
    + rewrite QA. cbn [pstr]. rewrite (CS a A), PA. apply unit_cunit.
  - right. right. destruct MO as (a & b & A & B & AB). exists C. split; [|split; [exists a, b; auto|]].
    + intros x I. rewrite <- (CS x I). apply cset_spaces. auto.
    + rewrite <- (MP a A). cbn [mpat pstr]. rewrite (CS a A). apply unit_cunit.
Qed.
Lemma called_ext : forall X Y q, (forall s, X s <-> Y s) -> called_for X q -> called_for Y q.
Proof.
  intros X Y q H [(x & A & B)|[(rs & n & A & (x & y & B & B' & B'') & D)|(rs & A & (x & y & B & B' & B'') & D)]].
  - left. exists x. split; [intros y; rewrite <- H; apply A|exact B].
  - right. left. exists rs, n. split; [intros z Z; apply A, H; exact Z|]. split; [|exact D]. exists x, y. split; [apply H; exact B|]. split; [apply H; exact B'|exact B''].
  - right. right. exists rs. split; [intros z Z; apply A, H; exact Z|]. split; [|exact D]. exists x, y. split; [apply H; exact B|]. split; [apply H; exact B'|exact B''].
Qed.

(** *** the views and the cuts *)
Lemma lform_cut : forall s n d e, all_legal s -> lform s n d e -> name_dots_ext s (svL s).
Proof.
  intros s n d e L F. destruct e as [|x e].
  - unfold svL. rewrite (g_ldsf_form _ _ _ _ F). destruct F as (R & D & _ & _). destruct (runs_spec s L) as (FR & AR & CR). rewrite R in FR, AR, CR.
    apply Forall_app in FR. destruct FR as [FN FR]. pose proof (Forall_inv FR) as OD. cbn [ldsf_of is_nil map].
    exists (cat n), (cat [d]), []. split; [reflexivity|]. split; [rewrite <- CR; rewrite map_app, concat_app, app_nil_r; reflexivity|].
    assert (ED : cat [d] = snd d) by (unfold cat; cbn; apply app_nil_r). destruct OD as [ND FD]. rewrite D in FD. split; [|split; [|split; [|split]]].
    + intros n' E. destruct n as [|y n _] using rev_ind; [destruct n'; discriminate|]. apply Forall_app in FN. destruct FN as [_ FN]. inversion FN as [|? ? [NY FY] _]; subst.
      unfold cat in E. rewrite map_app, concat_app in E. cbn [map List.concat] in E. rewrite app_nil_r in E. destruct (snd y) as [|c w _] eqn:EY using rev_ind; [congruence|]. rewrite app_assoc in E. change (u ".") with [46%N] in E. apply app_inj_tail in E. destruct E as [_ ->].
      apply Forall_app in FY. destruct FY as [_ FY]. inversion FY as [|? ? Y _]; subst. rewrite dot_rule in Y. inversion Y as [Y']. rewrite <- app_assoc in AR. apply adj'_app_r in AR. cbn [app adj'] in AR. destruct AR as [AR _]. congruence.
    + rewrite ED. exact ND.
    + rewrite ED. eapply Forall_impl; [|exact FD]. intros c Hc. symmetry. apply rule_dot. exact Hc.
    + constructor.
    + exists []. split; [split; [reflexivity|split; [constructor|exact Logic.I]]|cbn; lia].
  - assert (H : dot_cut s (svL s)) by (apply dot_cut_iff; [exact L|]; split; [reflexivity|exists n, d, (x :: e); split; [exact F|discriminate]]).
    destruct H as (n' & d' & e' & E & ES & A & B & D & NE & G). exists n', d', e'. split; [|auto]. destruct e'; [congruence|exact E].
Qed.

Section Pos.
  Context (lp : bool) (X : str -> Prop) (LX : forall s, X s -> all_legal s) (NX : exists s, X s).
  Lemma tight_cut : forall q, tight lp X q ->
    exists w cut Ps, (w = LastDot -> lp = true) /\ q = List.concat Ps /\
      (forall s, X s -> cut_by w s (cut s) /\ length (cut s) = length Ps) /\
      (forall j p, nth_error Ps j = Some p -> called_for (fun x => exists s, X s /\ nth_error (cut s) j = Some x) p).
  Proof.
    intros q (sv & Ps & V & Q & F & T).
    assert (LEN : forall s, X s -> length (sv s) = length Ps) by (intros s I; specialize (F s I); clear - F; induction F; cbn; congruence).
    assert (CF : forall j p, nth_error Ps j = Some p -> called_for (fun x => exists s, X s /\ nth_error (sv s) j = Some x) p).
    { intros j p Hp. destruct (T j p Hp) as (ss & TC & IN). apply (called_ext (fun s => In s ss)).
      - intros x. rewrite IN. split; [intros (es & (s & I & ->) & N); eauto|intros (s & I & N); exists (sv s); eauto].
      - apply tcol_called; [|exact TC]. destruct NX as (s0 & I0). destruct (nth_error (sv s0) j) as [x|] eqn:EX.
        + assert (In x ss) by (apply IN; exists (sv s0); eauto). intros ->; contradiction.
        + apply nth_error_None in EX. rewrite (LEN s0 I0) in EX. assert (j < length Ps) by (apply nth_error_Some; congruence). lia. }
    assert (GO : forall w, (w = LastDot -> lp = true) -> (forall s, X s -> cut_by w s (sv s)) -> exists w cut Ps, (w = LastDot -> lp = true) /\ q = List.concat Ps /\
      (forall s, X s -> cut_by w s (cut s) /\ length (cut s) = length Ps) /\
      (forall j p, nth_error Ps j = Some p -> called_for (fun x => exists s, X s /\ nth_error (cut s) j = Some x) p)).
    { intros w W H. exists w, sv, Ps. split; [exact W|]. split; [exact Q|]. split; [|exact CF]. intros s I. split; [apply H; exact I|apply LEN; exact I]. }
    destruct V as [->|[->|[->|[HL ->]]]].
    - apply (GO Whole); [discriminate|]. reflexivity.
    - apply (GO Runs); [discriminate|]. intros s I. apply multi_cut; [auto|reflexivity].
    - apply (GO Mixed); [discriminate|]. intros s I. apply mixed_cut_iff; [auto|reflexivity].
    - destruct (Nat.eq_dec (length Ps) 1) as [E|E].
      + apply (GO Whole); [discriminate|]. intros s I. specialize (LEN s I). rewrite E in LEN. destruct (g_ldsf_cases s) as [H|(n & d & e & H)].
        * unfold svL. rewrite H. cbn [map cut_by]. rewrite cat_runs by auto. reflexivity.
        * unfold svL in LEN. rewrite (g_ldsf_form _ _ _ _ H), map_length in LEN. unfold ldsf_of in LEN. cbn in LEN. discriminate.
      + apply (GO LastDot); [auto|]. intros s I. specialize (LEN s I). destruct (g_ldsf_cases s) as [H|(n & d & e & H)].
        * unfold svL in LEN. rewrite H in LEN. cbn in LEN. congruence.
        * eapply lform_cut; [auto|exact H].
  Qed.
End Pos.

Lemma c50 : forall nv h mcn cs m t i P, (2 <= mcn)%Z -> make mcn (loads nv h) = Ok cs -> In (m, t) cs -> pattern_at t i P ->
  exists w cut Ps, (w = LastDot -> path_depth m = S i) /\ P = List.concat Ps /\
    (forall s, at_position t i s -> cut_by w s (cut s) /\ length (cut s) = length Ps) /\
    (forall j p, nth_error Ps j = Some p -> called_for (fun x => exists s, at_position t i s /\ nth_error (cut s) j = Some x) p).
Proof.
  intros nv h mcn cs m t i P M E I (nodes & IN & NP). destruct (cluster_path nv h mcn cs m t M E I) as (Ps & sid & mk & LP & _ & _ & PP & PR & _ & _ & _ & _ & TG).
  rewrite (PP nodes IN) in NP. specialize (TG i P NP).
  assert (AX : forall s, at_position t i s <-> exists nodes raw, In nodes (paths t) /\ Forall all_legal raw /\ path_pieces nodes = map piece_of raw /\ nth_error raw i = Some s).
  { intros s. split; intros (nd & raw & A & B & D); exists nd, raw; (split; [exact A|]); (split; [|exact D]); eapply Forall_impl; [|exact B| |exact B]; intros x; apply all_legal_iff. }
  apply (tight_ext _ _ (at_position t i)) in TG; [|intros s; symmetry; apply AX]. apply tight_cut in TG.
  - destruct TG as (w & cut & Qs & A & B). exists w, cut, Qs. split; [|exact B]. intros W. apply A in W. apply Nat.eqb_eq in W. exact W.
  - intros s X. apply AX in X. destruct X as (_ & raw & _ & L & _ & N). rewrite Forall_forall in L. apply L. eapply nth_error_In. exact N.
  - destruct (PR nodes IN) as (raw & EP & LR & _ & F2 & _). destruct (nth_error raw i) as [s|] eqn:ES.
    + exists s. apply AX. exists nodes, raw. auto.
    + exfalso. apply nth_error_None in ES. assert (i < length Ps) by (apply nth_error_Some; congruence). apply Forall2_length in F2. lia.
Qed.

(** *** a position is literal exactly if all URLs of the cluster have the same piece there *)
Lemma at_position_legal : forall t i s, at_position t i s -> all_legal s.
Proof. intros t i s (_ & raw & _ & L & _ & N). rewrite Forall_forall in L. apply all_legal_iff. apply L. eapply nth_error_In. exact N. Qed.
Lemma vw_groups : forall lp sv s, vw lp sv -> all_legal s -> exists gs, groups s gs /\ sv s = map cat gs.
Proof.
  intros lp sv s [->|[->|[->|[_ ->]]]] L; [exists [runs s]; split; [apply app_nil_r|cbn [map]; rewrite cat_runs by exact L; reflexivity]|exists (g_multi s)|exists (g_mixed s)|exists (g_ldsf s)]; (split; [|reflexivity]); [apply groups_multi|apply groups_mixed|apply groups_ldsf].
Qed.
Lemma tight_same : forall lp (X : str -> Prop) q s, all_legal s -> X s -> (forall s', X s' -> s' = s) -> tight lp X q -> q = piece (pp_of s).
Proof.
  intros lp X q s L I U (sv & Ps & V & -> & F & T). destruct (vw_groups lp sv s V L) as (gs & G & ES). rewrite <- (groups_piece s gs L G), <- ES. f_equal.
  pose proof (F s I) as FS. pose proof (legal_groups s gs L G) as LG. rewrite <- ES in LG.
  assert (C : forall j p x, nth_error Ps j = Some p -> nth_error (sv s) j = Some x -> p = piece (pp_of x)).
  { intros j p x Hp Hx. assert (LX : all_legal x) by (rewrite Forall_forall in LG; apply LG; eapply nth_error_In; exact Hx). destruct (T j p Hp) as (ss & TC & IN).
    assert (IX : forall y, In y ss <-> y = x). { intros y. rewrite IN. split; [intros (es & (s' & I' & ->) & N); rewrite (U s' I') in N; congruence|intros ->; exists (sv s); eauto]. }
    apply tcol_called in TC; [|intros Z; assert (Y : In x ss) by (apply IX; reflexivity); rewrite Z in Y; contradiction].
    destruct TC as [(y & A & B)|[(rs & n & _ & (a & b & A & B & D) & _)|(rs & _ & (a & b & A & B & D) & _)]].
    - assert (y = x) by (apply IX, A; reflexivity). subst y. apply literal_piece; assumption.
    - apply IX in A, B. congruence.
    - apply IX in A, B. congruence. }
  clear - FS C. revert C. induction FS as [|x p xs ps _ FS IH]; intros C; [reflexivity|]. cbn [map]. rewrite (C 0 p x eq_refl eq_refl). f_equal. apply IH. intros j. exact (C (S j)).
Qed.
Lemma c50_literal : forall nv h mcn cs m t i P s, (2 <= mcn)%Z -> make mcn (loads nv h) = Ok cs -> In (m, t) cs ->
  pattern_at t i P -> at_position t i s -> (literal_text s P <-> forall s', at_position t i s' -> s' = s).
Proof.
  intros nv h mcn cs m t i P s M E I (nodes & IN & NP) AS. destruct (cluster_path nv h mcn cs m t M E I) as (Ps & sid & mk & LP & _ & _ & PP & PR & _ & _ & _ & _ & TG).
  rewrite (PP nodes IN) in NP. specialize (TG i P NP). pose proof (at_position_legal _ _ _ AS) as LS. split.
  - intros LT s' AS'. apply literal_piece in LT; [|exact LS]. pose proof (at_position_legal _ _ _ AS') as LS'. destruct AS' as (nd & raw & IN' & LR & EP & NR).
    destruct (PR nd IN') as (raw' & EP' & LR' & _ & F2 & _).
    assert (raw' = raw). { apply pieces_inj; [exact LR'| |congruence]. eapply Forall_impl; [|exact LR]. intros x. apply all_legal_iff. }
    subst raw'. assert (O : opat s' P). { clear - F2 NP NR. revert i NP NR. induction F2 as [|x y xs ys O F2 IH]; intros [|i] NP NR; cbn in NP, NR; try discriminate; [inversion NP; inversion NR; subst; exact O|eauto]. }
    destruct O as (gs & Qs & G & FQ & EQ). apply (lit_joined s' s gs Qs LS' LS G FQ). cbn [pstr]. congruence.
  - intros U. assert (P = piece (pp_of s)) as ->; [|apply piece_literal; exact LS].
    apply (tight_same (path_depth m =? S i) (at_position t i)); [exact LS|exact AS|exact U|]. eapply tight_ext; [|exact TG].
    intros s'. split; intros (nd & raw & A & B & D); exists nd, raw; (split; [exact A|]); (split; [|exact D]); eapply Forall_impl; [|exact B| |exact B]; intros x; apply all_legal_iff.
Qed.
