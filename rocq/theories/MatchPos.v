(** What the matcher accepts at one position is what the pattern takes (C28). *)
From Coq Require Import String.
From Verif Require Import PyStr Defs UrlLib ParseUtils Spec Views Trees Patterns Matcher Observe MatchSpec PyStrProofs DefsProofs DictProofs RegexProofs PieceProofs LengthProofs UnitProofs BridgeProofs LoadProofs EntProofs TokProofs FlatCluster ViewProofs KeyProofs PatUnits MatchVms MatchTree MatchSem MatchLevel MatchNest MatchDigest MatchUnits MatchKeys MatchSound MatchTop MatchExact MatchTakes.
From Coq Require Import Lia Sorted Permutation.

(** ** the view of a canonical pattern *)
Definition oneb (x : cunit) : bool := length (pu_rules (cu x)) <=? 1.
Definition litb (x : cunit) : bool := is_literal (cu x).
Lemma oneb_iff : forall x, oneb x = true <-> one_space x.
Proof. intros [w|rs n]; unfold oneb; cbn [cu pu_rules one_space]; [cbn; tauto|apply Nat.leb_le]. Qed.
Lemma lit_one : forall x, litb x = true -> oneb x = true.
Proof. intros [w|rs n] H; [reflexivity|]. unfold litb in H. rewrite cls_no_lit in H. unfold oneb. cbn [cu pu_rules]. destruct rs as [|r [|r' rs]]; try discriminate. reflexivity. Qed.
Lemma multi_cls : forall us acc, multi_view_cls (map cu us) acc = if forallb oneb us then (if forallb litb us then acc else VMulti) else VMixed.
Proof.
  induction us as [|x us IH]; intros acc; [reflexivity|]. cbn [map multi_view_cls forallb]. fold (litb x). destruct (litb x) eqn:E.
  - rewrite (lit_one x E). cbn [andb]. apply IH.
  - assert (X : (1 <? length (pu_rules (cu x))) = negb (oneb x)). { unfold oneb. destruct (Nat.leb_spec (length (pu_rules (cu x))) 1); [apply Nat.ltb_ge; lia|apply Nat.ltb_lt; lia]. }
    rewrite X. destruct (oneb x); cbn [negb andb]; [|reflexivity]. rewrite IH. destruct (forallb oneb us), (forallb litb us); reflexivity.
Qed.
Lemma da_space : forall r, In r space_texts -> in_digit_ascii r = true -> In r [u "0-9"; u "A-Z"; u "a-z"].
Proof. intros r I H. unfold in_digit_ascii in H. assert (D : Forall (fun r => str_in r [R_DIGIT; R_LOWER; R_UPPER; R_ASCII] = true -> In r [u "0-9"; u "A-Z"; u "a-z"]) space_texts). { clear. unfold space_texts. repeat (apply Forall_cons; [vm_compute; first [intros _; tauto|discriminate]|]). apply Forall_nil. } rewrite Forall_forall in D. exact (D r I H). Qed.
Lemma da_three : forall r, In r [u "0-9"; u "A-Z"; u "a-z"] -> in_digit_ascii r = true.
Proof. intros r [<-|[<-|[<-|[]]]]; reflexivity. Qed.
Lemma lit_da : forall w, literal_unit w -> in_digit_ascii (run_space w) = true.
Proof. intros w H. apply (proj1 (literal_run w H)). Qed.
Lemma dotted_iff : forall us, Forall cunit_ok us -> (dotted us <-> ldsf_units (map cu us) = true).
Proof.
  intros us OK. split.
  - intros (a & n & e & -> & H). cbn [map ldsf_units]. change (pu_rules (cu (CCls [u "\."] n))) with [R_DOT]. cbn beta iota. rewrite str_eqb_refl. cbn [andb]. inversion OK as [|? ? _ OK1]; subst. inversion OK1 as [|? ? _ OK2]; subst. inversion OK2 as [|? ? O3 _]; subst.
    apply forallb_forall. intros r I. destruct e as [w|rs k]; cbn [cu pu_rules] in I; [destruct I as [<-|[]]; apply lit_da; exact O3|]. apply da_three. exact (H r I).
  - intros H. destruct us as [|a [|d [|e [|f us]]]]; try discriminate. cbn [map ldsf_units] in H. apply andb_true_iff in H. destruct H as [H1 H2]. inversion OK as [|? ? _ OK1]; subst. inversion OK1 as [|? ? OD OK2]; subst. inversion OK2 as [|? ? O3 _]; subst.
    destruct d as [w|rs n].
    + exfalso. cbn [cu pu_rules] in H1. apply str_eqb_eq in H1. pose proof (lit_da w OD) as X. rewrite H1 in X. discriminate.
    + cbn [cu pu_rules] in H1. destruct rs as [|r [|r' rs]]; try discriminate. apply str_eqb_eq in H1. subst r. exists a, n, e. split; [reflexivity|]. destruct e as [w|rs k]; [exact Logic.I|]. intros r I. apply da_space; [|rewrite forallb_forall in H2; apply H2; exact I].
      destruct O3 as (_ & _ & F & _). rewrite Forall_forall in F. apply (F r I).
Qed.

(** ** units against groups *)
Lemma units_fit : forall us ws, Forall cunit_ok us -> Forall all_legal ws -> Forall (fun w => ~ In 92%N w) ws ->
  (Forall2 unit_fits us ws <-> map cset ws = map uset (map cu us) /\ Forall2 (fun x part => sacc (unit_mp x) part) (map cu us) (map vpart ws)).
Proof.
  induction us as [|x us IH]; intros ws OK L B.
  - split; [intros H; inversion H; split; [reflexivity|constructor]|]. intros [H _]. destruct ws; [constructor|discriminate].
  - inversion OK as [|? ? O1 O2]; subst. split.
    + intros H. inversion H as [|? g ? ws' H1 H2]; subst. inversion L as [|? ? L1 L2]; subst. inversion B as [|? ? B1 B2]; subst. apply (IH ws' O2 L2 B2) in H2. destruct H2 as [E F]. apply (cu_fits x g (vpart g) O1 L1 B1 (vpart_piece g)) in H1. destruct H1 as [E1 F1]. cbn [map]. split; [congruence|constructor; assumption].
    + intros [E F]. destruct ws as [|g ws]; [discriminate|]. inversion L as [|? ? L1 L2]; subst. inversion B as [|? ? B1 B2]; subst. cbn [map] in E, F. inversion E as [[E1 E2]]. inversion F as [|? ? ? ? F1 F2]; subst. constructor; [apply (cu_fits x g (vpart g) O1 L1 B1 (vpart_piece g)); auto|apply (IH ws O2 L2 B2); auto].
Qed.
Lemma groups_nobs : forall s gs, all_legal s -> groups s gs -> ~ In 92%N s -> Forall (fun w => ~ In 92%N w) (map cat gs).
Proof. intros s gs L G B. apply Forall_forall. intros w I J. apply B. rewrite <- (groups_concat s gs L G). apply in_concat. eauto. Qed.
Lemma lit_rules : forall x, cunit_ok x -> litb x = true -> exists r, uset (cu x) = [r].
Proof. intros x OK H. destruct (cu_uset x OK) as [E _]. rewrite E. destruct x as [w|rs n]; [eexists; reflexivity|]. unfold litb in H. rewrite cls_no_lit in H. cbn [cu pu_rules]. destruct rs as [|r [|r' rs]]; try discriminate. eexists; reflexivity. Qed.
Lemma one_run : forall g r, runs (cat g) = g -> all_legal (cat g) -> cset (cat g) = [r] -> g = [(r, cat g)].
Proof. intros g r R L E. rewrite <- R at 1. apply runs_one. apply one_rule_run; assumption. Qed.
Lemma view_cut : forall b us w ws, 2 <= length us -> Forall cunit_ok us -> all_legal w -> ~ In 92%N w -> Forall2 unit_fits us ws ->
  (cut_for b us w ws <-> ws = map cat (vgroups (view_cls_from_units (map cu us) b) w)).
Proof.
  intros b us w ws N OK L B F. assert (CF : cut_for b us w ws <-> (b = true /\ dotted us /\ dot_cut w ws) \/ (~ (b = true /\ dotted us) /\ ((Forall one_space us /\ maximal_runs w ws) \/ (~ Forall one_space us /\ mixed_cut w ws)))) by (destruct us as [|x [|y us]]; [cbn in N; lia..|reflexivity]).
  assert (VW : view_cls_from_units (map cu us) b = let v := multi_view_cls (map cu us) VPiece in if b && negb (vcls_eqb v VPiece) && ldsf_units (map cu us) then VLdsf else v) by (destruct us as [|x [|y us]]; [cbn in N; lia..|reflexivity]).
  rewrite CF, VW. cbv zeta. rewrite multi_cls. clear CF VW.
  assert (DI := dotted_iff us OK). assert (OI : forallb oneb us = true <-> Forall one_space us). { rewrite forallb_forall, Forall_forall. split; intros H x I; apply oneb_iff; apply H; exact I. }
  rewrite dot_cut_iff, multi_cut, mixed_cut_iff by exact L.
  assert (REST : ~ (b = true /\ dotted us) -> ((b = true /\ dotted us /\ ws = map cat (g_ldsf w) /\ exists n d e, lform w n d e /\ e <> []) \/ (~ (b = true /\ dotted us) /\ ((Forall one_space us /\ ws = map cat (g_multi w)) \/ (~ Forall one_space us /\ ws = map cat (g_mixed w))))) <->
    ws = map cat (vgroups (if forallb oneb us then if forallb litb us then VPiece else VMulti else VMixed) w)).
  { intros ND. rewrite <- OI. destruct (forallb oneb us) eqn:E1; [destruct (forallb litb us) eqn:E2|]; cbn [vgroups]; (split; [intros [(X & Y & _)|(_ & [[X Y]|[X Y]])]; [exfalso; apply ND; auto|auto; congruence|auto; try congruence; exfalso; apply X; reflexivity]|intros H; right; split; [exact ND|]; auto]). }
  destruct b; [|cbn [andb]; apply REST; intros [X _]; discriminate]. destruct (ldsf_units (map cu us)) eqn:LD; [|rewrite andb_false_r; apply REST; intros [_ X]; apply DI in X; discriminate].
  clear REST. assert (D : dotted us) by (apply DI; reflexivity). rewrite andb_true_r. cbn [andb].
  transitivity (ws = map cat (g_ldsf w) /\ exists n d e, lform w n d e /\ e <> []).
  { split; [intros [(_ & _ & H)|(H & _)]; [exact H|exfalso; apply H; auto]|intros H; left; auto]. }
  destruct (negb (vcls_eqb (if forallb oneb us then if forallb litb us then VPiece else VMulti else VMixed) VPiece)) eqn:NP.
  - cbn [vgroups]. split; [intros [H _]; exact H|]. intros ->. split; [reflexivity|]. destruct D as (a & n & e & -> & _). apply Forall2_length in F. rewrite map_length in F. cbn [length] in F.
    destruct (g_ldsf_cases w) as [H|(n' & d & e' & LF)]; [rewrite H in F; discriminate|]. exists n', d, e'. split; [exact LF|]. rewrite (g_ldsf_form _ _ _ _ LF) in F. unfold ldsf_of in F. intros ->. discriminate.
  - assert (AL : forallb litb us = true) by (destruct (forallb oneb us), (forallb litb us); [reflexivity|discriminate..]). assert (AO : forallb oneb us = true) by (destruct (forallb oneb us), (forallb litb us); [reflexivity|discriminate..]). rewrite AO, AL. cbn [vgroups].
    destruct D as (a & n & e & EU & HE). rewrite EU in *. cbn [forallb] in AL. rewrite !andb_true_iff in AL. destruct AL as (A1 & A2 & A3 & _). inversion OK as [|? ? O1 OK1]; subst. inversion OK1 as [|? ? O2 OK2]; subst. inversion OK2 as [|? ? O3 _]; subst.
    destruct (lit_rules _ O1 A1) as (r1 & R1). destruct (lit_rules _ O3 A3) as (r3 & R3).
    split.
    + intros (-> & n' & d & e' & LF & NE). pose proof (groups_ok w _ L (groups_ldsf w)) as GO. pose proof (groups_nobs w _ L (groups_ldsf w) B) as GB. rewrite (g_ldsf_form _ _ _ _ LF) in *. unfold ldsf_of in *. destruct e' as [|y e']; [congruence|]. cbn [is_nil map] in *.
      apply units_fit in F; [|exact OK| |exact GB]. 2:{ inversion GO as [|? ? G1 GO1]; subst. inversion GO1 as [|? ? G2 GO2]; subst. inversion GO2 as [|? ? G3 _]; subst. constructor; [apply G1|]. constructor; [apply G2|]. constructor; [apply G3|constructor]. }
      destruct F as [F _]. cbn [map] in F. inversion F as [[F1 F2 F3]]. rewrite R1 in F1. rewrite R3 in F3. inversion GO as [|? ? [G1 L1] GO1]; subst. inversion GO1 as [|? ? [G2 L2] GO2]; subst. inversion GO2 as [|? ? [G3 L3] _]; subst.
      pose proof (one_run _ _ G1 L1 F1) as E1. pose proof (one_run _ _ G3 L3 F3) as E3. destruct LF as (RW & _). unfold g_multi. rewrite RW, E1, E3. cbn [app map]. unfold cat. cbn. rewrite !app_nil_r. reflexivity.
    + intros ->. pose proof (groups_ok w _ L (groups_multi w)) as GO. pose proof (groups_nobs w _ L (groups_multi w) B) as GB. pose proof (legal_groups w _ L (groups_multi w)) as GL. pose proof F as F'. apply units_fit in F'; [|exact OK|exact GL|exact GB]. destruct F' as [EC _]. unfold g_multi in *. apply Forall2_length in F. rewrite !map_length in F. cbn [length] in F.
      destruct (runs w) as [|x [|d [|z [|z' l]]]] eqn:RW; try discriminate. cbn [map] in *.
      inversion GO as [|? ? [G1 L1] GO1]; subst. inversion GO1 as [|? ? [G2 L2] GO2]; subst. inversion GO2 as [|? ? [G3 L3] _]; subst. pose proof (f_equal (fun l => nth 1 l []) EC) as C2. pose proof (f_equal (fun l => nth 2 l []) EC) as C3. cbn [nth] in C2, C3. rewrite (cset_group _ G2) in C2. rewrite (cset_group _ G3) in C3. cbn in C2, C3. assert (FD : fst d = R_DOT) by (inversion C2 as [C2']; rewrite C2'; reflexivity).
      assert (FZ : in_digit_ascii (fst z) = true). { destruct (cu_uset e O3) as [EU _]. rewrite EU in *. destruct e as [v|rs k]; cbn [cu pu_rules] in *; [inversion C3 as [X]; rewrite X; apply lit_da; exact O3|]. apply da_three. apply HE. rewrite <- C3. left. reflexivity. }
      assert (LF : lform w [x] d [z]). { split; [exact RW|]. split; [exact FD|]. split; [constructor; [exact FZ|constructor]|cbn; lia]. } split; [|exists [x], d, [z]; split; [exact LF|discriminate]].
      rewrite (g_ldsf_form _ _ _ _ LF). reflexivity.
Qed.

(** ** the whole piece *)
Lemma rules_in : forall x, cunit_ok x -> forall r, In r (pu_rules (cu x)) <-> In r (uset (cu x)).
Proof. intros x OK r. rewrite (proj1 (cu_uset x OK)). reflexivity. Qed.
Lemma cset_parts : forall w gs r, all_legal w -> groups w gs -> (In r (cset w) <-> exists c, In c (map cset (map cat gs)) /\ In r c).
Proof.
  intros w gs r L G. rewrite (cset_groups w gs L G). unfold cset. rewrite sorted_set_In. unfold pp_of. cbn [rules]. rewrite <- G. split.
  - intros I. apply in_map_iff in I. destruct I as (rw & <- & I). apply in_concat in I. destruct I as (g & I & J). exists (sorted_set (map fst g)). split; [apply in_map_iff; exists g; auto|]. apply sorted_set_In. apply in_map. exact J.
  - intros (c & I & J). apply in_map_iff in I. destruct I as (g & <- & I). apply (proj1 (sorted_set_In _ _)) in J. apply in_map_iff in J. destruct J as (rw & <- & J). apply in_map. apply in_concat. eauto.
Qed.
Lemma fuzzy_fit : forall w gs us, all_legal w -> groups w gs -> Forall cunit_ok us -> map cset (map cat gs) = map uset (map cu us) -> fuzzy_rule (pp_of w) = units_fuzzy (map cu us).
Proof.
  intros w gs us L G OK E. rewrite fuzzy_cset. unfold units_fuzzy. f_equal. rewrite <- cset_sorted. apply sorted_unique; [apply sorted_set_sorted..|]. intros r. rewrite !sorted_set_In, (cset_parts w gs r L G), E, in_flat_map. rewrite Forall_forall in OK. split.
  - intros (c & I & J). rewrite map_map in I. apply in_map_iff in I. destruct I as (x & <- & I). exists (cu x). split; [apply in_map; exact I|]. apply rules_in; auto.
  - intros (y & I & J). apply in_map_iff in I. destruct I as (x & <- & I). exists (uset (cu x)). split; [apply in_map; apply in_map; exact I|]. apply rules_in; auto.
Qed.
Lemma fuzzy_one : forall w x, all_legal w -> cunit_ok x -> (fuzzy_rule (pp_of w) = units_fuzzy [cu x] <-> cset w = uset (cu x)).
Proof.
  intros w x L OK. rewrite fuzzy_cset. unfold units_fuzzy. cbn [flat_map]. rewrite app_nil_r. fold (uset (cu x)). split; [|intros ->; reflexivity]. apply concat_rules_inj; [apply cset_rules; exact L|]. rewrite (proj1 (cu_uset x OK)). apply (cu_uset x OK).
Qed.
Lemma reads_ok : forall P us b, reads P us -> us <> [] -> mk_match_pattern P b = Ok (MP P (map cu us) (view_cls_from_units (map cu us) b)).
Proof. intros P us b R N. unfold mk_match_pattern. rewrite (cu_units P us R N). reflexivity. Qed.
Lemma reads_rparse : forall P us, reads P us -> rparse P <> None.
Proof.
  intros P us (<- & OK & _). assert (X : exists ts, Forall2 (fun a t => rparse a = Some t) (map cunit_text us) ts).
  { clear - OK. induction OK as [|x us O OK IH]; [exists []; constructor|]. destruct IH as (ts & IH). pose proof (cu_rparse x O) as H. rewrite cu_text in H. destruct (rparse (cunit_text x)) as [t|] eqn:E; [|congruence]. exists (t :: ts). constructor; assumption. }
  destruct X as (ts & X). rewrite (rparse_concat _ _ X). discriminate.
Qed.
Definition slash_ok (us : list cunit) : Prop := 2 <= length us -> Forall (fun x => match x with CLit _ => True | CCls rs _ => In (u "/") rs -> rs = [u "/"] end) us.
Lemma reads_pcanon : forall P us b p, reads P us -> slash_ok us -> mk_match_pattern P b = Ok p -> pcanon p.
Proof.
  intros P us b p R SL H. destruct (list_eq_dec N.eq_dec P []) as [->|NE].
  - cbn in H. inversion H; subst p. split; [exists b; reflexivity|]. split; [constructor; [left; reflexivity|constructor]|]. cbn. intros [M|[M|M]]; discriminate.
  - assert (N : us <> []) by (intros ->; destruct R as [R _]; apply NE; symmetry; exact R). pose proof (reads_ok P us b R N) as E. rewrite E in H. inversion H; subst p. destruct R as (RC & OK & RA). split; [exists b; exact E|]. cbn [mp_units mp_str mp_view]. split; [rewrite Forall_map; eapply Forall_impl; [|exact OK]; apply cu_ucanon|].
    intros M. split; [exact NE|]. split; [eapply reads_rparse; split; [exact RC|split; assumption]|]. intros V. unfold slash_units. cbn [mp_units]. rewrite Forall_map. destruct (le_lt_dec 2 (length us)) as [L2|L2].
    + specialize (SL L2). eapply Forall_impl; [|exact SL]. intros [w|rs n] X; cbn [cu pu_rules]; [|exact X]. intros [I|[]]. rewrite I. reflexivity.
    + exfalso. destruct us as [|x [|y us]]; [congruence| |cbn in L2; lia]. clear - V. cbn [map view_cls_from_units] in V. destruct (is_literal (cu x)); [discriminate|]. destruct (pu_num (cu x) <? 0)%Z; discriminate.
Qed.

Theorem pos_exact : forall P us b p w, reads P us -> slash_ok us -> mk_match_pattern P b = Ok p -> all_legal w -> ~ In 92%N w ->
  (mp_fuzzy p = fuzzy_rule (pp_of w) /\ acc2 p (pp_of w) <-> exists ws, cut_for b us w ws /\ Forall2 unit_fits us ws).
Proof.
  intros P us b p w R SL H L B. destruct us as [|x [|y us0]] eqn:EUS.
  - assert (P = []) by (destruct R as [R _]; cbn in R; congruence). subst P. cbn in H. inversion H; subst p. unfold mp_fuzzy, acc2, sacc. cbn [mp_units mp_view simple mp_str]. split.
    + intros [_ E]. assert (w = []). { apply piece_inj; [exact L|constructor|]. rewrite E. reflexivity. } subst w. exists []. split; [|constructor]. cbn [cut_for]. right. split; [intros (_ & a & n & e & X & _); discriminate|]. left. split; [constructor|]. apply runs_maximal. constructor.
    + intros (ws & C & F). inversion F; subst ws. assert (w = []). { destruct C as [(_ & (a & n & e & X & _) & _)|(_ & [[_ (X & _)]|[_ (X & _)]])]; [discriminate|cbn in X; congruence..]. } subst w. split; reflexivity.
  - pose proof (reads_ok P [x] b R ltac:(discriminate)) as E. destruct R as (RC & OK & _). pose proof (Forall_inv OK) as O1. assert (EP : P = pu_str (cu x)) by (rewrite cu_text, <- RC; cbn [map List.concat]; apply app_nil_r).
    assert (HP : p = unit_mp (cu x)). { rewrite E in H. injection H as <-. rewrite EP. reflexivity. } clear H E RC EP. subst p. cbn [cut_for]. unfold mp_fuzzy. change (mp_units (unit_mp (cu x))) with [cu x].
    assert (A : acc2 (unit_mp (cu x)) (pp_of w) <-> sacc (unit_mp (cu x)) (pp_of w)). { unfold acc2. destruct (unit_view (cu x)) as [V|[V|V]]; unfold unit_mp in *; cbn [mp_view] in *; rewrite V; reflexivity. }
    rewrite A. transitivity (unit_fits x w).
    + rewrite (cu_fits x w (pp_of w) O1 L B eq_refl). rewrite <- (fuzzy_one w x L O1). intuition.
    + split; [intros F; exists [w]; split; [reflexivity|constructor; [exact F|constructor]]|]. intros (ws & -> & F). inversion F; assumption.
  - rewrite <- EUS in R, SL |- *. assert (N2 : 2 <= length us) by (rewrite EUS; cbn; lia). assert (NE : us <> []) by (rewrite EUS; discriminate). clear EUS x y us0. pose proof (reads_ok P us b R NE) as E. pose proof (reads_pcanon P us b p R SL H) as (OKP & _ & MU). pose proof (reads_rparse P us R) as RP. rewrite E in H. inversion H; subst p. clear H. pose proof R as (RC & OK & RA).
    set (V := view_cls_from_units (map cu us) b) in *. set (gs := vgroups V w). assert (GR : groups w gs) by apply vgroups_groups. pose proof (legal_groups w gs L GR) as GL. pose proof (groups_nobs w gs L GR B) as GB.
    transitivity (Forall2 unit_fits us (map cat gs)).
    2:{ split; [intros F; exists (map cat gs); split; [|exact F]; apply (view_cut b us w _ N2 OK L B F); reflexivity|]. intros (ws & C & F). apply (view_cut b us w ws N2 OK L B F) in C. rewrite C in F. exact F. }
    unfold mp_fuzzy. cbn [mp_units]. rewrite (units_fit us (map cat gs) OK GL GB).
    assert (CASES : (V = VPiece /\ forallb litb us = true) \/ multi V).
    { clear - N2. unfold V. assert (VW : view_cls_from_units (map cu us) b = let v := multi_view_cls (map cu us) VPiece in if b && negb (vcls_eqb v VPiece) && ldsf_units (map cu us) then VLdsf else v) by (destruct us as [|x [|y us]]; [cbn in N2; lia..|reflexivity]). rewrite VW. cbv zeta. rewrite multi_cls. unfold multi.
      destruct (forallb oneb us), (forallb litb us), (b && negb (vcls_eqb _ VPiece) && ldsf_units (map cu us))%bool eqn:EB; cbn in EB |- *; auto. }
    destruct CASES as [[EV AL]|M].
    + unfold acc2, sacc. cbn [mp_view mp_str]. rewrite EV. cbn [simple]. unfold gs. rewrite EV. cbn [vgroups]. split.
      * intros [_ EP]. destruct (list_eq_dec N.eq_dec w []) as [->|NW].
        { exfalso. cbn in EP. apply NE. destruct R as [_ [_ _]]. apply (reads_nil us). rewrite EP. repeat split; assumption. }
        assert (UP : upat w P (map UL (runs w))). { split; [rewrite map_map; cbn [uruns]; apply (groups_multi w)|]. split; [rewrite Forall_map; apply Forall_forall; intros; exact Logic.I|]. rewrite map_map. rewrite <- EP. unfold piece, pp_of. cbn [pieces]. reflexivity. }
        pose proof (upat_units w P _ L B NW UP) as U. rewrite (cu_units P us R NE) in U. inversion U as [EU]. clear U. rewrite map_map in EU.
        pose proof (runs_spec w L) as (RO & _ & _). unfold g_multi. clear - EU RO AL OK. revert us EU AL OK. induction RO as [|rw l O RO IH]; intros us EU AL OK; [destruct us; [split; [reflexivity|constructor]|discriminate]|].
        destruct us as [|x us]; [discriminate|]. cbn [map forallb] in *. apply andb_true_iff in AL. destruct AL as [A1 A2]. inversion OK as [|? ? O1 O2]; subst. inversion EU as [[EX ES]]. destruct (IH us ES A2 O2) as [I1 I2].
        assert (CW : cat [rw] = snd rw) by (unfold cat; cbn; apply app_nil_r). assert (RR : runs (snd rw) = [rw]) by (destruct rw as [r g]; apply runs_one; exact O).
        split.
        { f_equal; [|exact I1]. rewrite (proj1 (cu_uset x O1)), EX. cbn [upu pu_rules]. rewrite cset_group; [reflexivity|]. rewrite CW. exact RR. }
        { constructor; [|exact I2]. unfold sacc, unit_mp. cbn [mp_view mp_str view_cls_from_units]. change (is_literal (cu x)) with (litb x). rewrite A1, vpart_piece, EX. cbn [upu pu_str]. rewrite CW. destruct rw as [r g]. exact (piece_run r g O). }
      * intros [EC F]. split; [symmetry; eapply fuzzy_fit; [exact L|apply groups_multi|exact OK|exact EC]|]. rewrite <- (groups_piece w _ L (groups_multi w)), <- RC. f_equal. clear - F AL. rewrite map_map in F. revert us AL F. generalize (g_multi w). induction l as [|g l IH]; intros us AL F; (destruct us as [|x us]; cbn [map] in F; inversion F as [|? ? ? ? F1 F2]; subst; try reflexivity).
        cbn [forallb] in AL. apply andb_true_iff in AL. destruct AL as [A1 A2]. cbn [map]. f_equal; [|apply IH; assumption]. unfold sacc, unit_mp in F1. cbn [mp_view mp_str view_cls_from_units] in F1. change (is_literal (cu x)) with (litb x) in F1. rewrite A1, vpart_piece in F1. rewrite F1. apply cu_text.
    + unfold acc2. cbn [mp_view mp_units]. assert (SV : simple V = false) by (destruct M as [->|[->| ->]]; reflexivity). rewrite SV. destruct (MU M) as (NEP & _ & SLU). split.
      * intros [_ [K F]]. destruct (key_units _ w OKP NEP RP M SLU L K) as [K1 K2]. cbn [mp_view mp_units] in K1, K2. fold gs in K1, K2. split; [exact K2|]. rewrite <- K1. exact F.
      * intros [EC F]. split; [symmetry; eapply fuzzy_fit; eassumption|]. destruct (view_groups V w L M) as [K D]. fold gs in K, D. destruct D as [D|D]; [|exfalso; apply (f_equal (@length _)) in EC; rewrite !map_length in EC; lia].
        split; [rewrite K, ukey_klist; cbn [mp_units]; rewrite EC; reflexivity|]. rewrite D. exact F.
Qed.

(** ** one reading *)
Lemma cu_inj : forall x y, cunit_ok x -> cunit_ok y -> cu x = cu y -> x = y.
Proof.
  intros [w|rs n] [v|ss k] X Y E.
  - inversion E; reflexivity.
  - exfalso. cbn [cu] in E. inversion E as [[E1 E2 E3]]. destruct X as (_ & F & _). rewrite E1 in F. inversion F as [|? ? F1 _]; subst. revert F1. clear. vm_compute. intuition discriminate.
  - exfalso. cbn [cu] in E. inversion E as [[E1 E2 E3]]. destruct Y as (_ & F & _). rewrite <- E1 in F. inversion F as [|? ? F1 _]; subst. revert F1. clear. vm_compute. intuition discriminate.
  - cbn [cu] in E. inversion E as [[E1 E2 E3]]. f_equal. apply znum_inj. exact E3.
Qed.
Lemma reads_unique : forall P us vs, reads P us -> reads P vs -> us = vs.
Proof.
  intros P us vs A B. destruct us as [|x us]; [destruct A as [A _]; cbn in A; subst P; symmetry; apply reads_nil; exact B|]. destruct vs as [|y vs]; [destruct B as [B _]; cbn in B; subst P; apply reads_nil in A; discriminate|].
  pose proof (cu_units _ _ A ltac:(discriminate)) as UA. pose proof (cu_units _ _ B ltac:(discriminate)) as UB. rewrite UA in UB. assert (E : map cu (x :: us) = map cu (y :: vs)) by congruence. clear UA UB. destruct A as (_ & A & _). destruct B as (_ & B & _). revert A B E. generalize (x :: us) (y :: vs). clear.
  induction l as [|x us IH]; intros [|y vs] A B E; try discriminate; [reflexivity|]. inversion A; inversion B; subst. cbn [map] in E. inversion E as [[E1 E2]]. f_equal; [apply cu_inj; assumption|apply IH; assumption].
Qed.
Lemma takes_pos : forall P b p w, canonical P -> mk_match_pattern P b = Ok p -> all_legal w -> ~ In 92%N w -> (mp_fuzzy p = fuzzy_rule (pp_of w) /\ acc2 p (pp_of w) <-> takes b P w).
Proof.
  intros P b p w (us & R & SL) H L B. rewrite (pos_exact P us b p w R SL H L B). split; [intros (ws & C & F); exists us, ws; auto|]. intros (vs & ws & R' & C & F). rewrite (reads_unique P vs us R' R) in *. exists ws. auto.
Qed.
Lemma reads_mk : forall P us b, reads P us -> exists p, mk_match_pattern P b = Ok p.
Proof. intros P us b R. destruct us as [|x us]; [destruct R as [R _]; cbn in R; subst P; eexists; reflexivity|]. eexists. apply (reads_ok P (x :: us)); [exact R|discriminate]. Qed.
Lemma mk_patterns_all : forall Ps i d, Forall (fun P => forall b, exists p, mk_match_pattern P b = Ok p) Ps -> exists ps, mk_patterns i d Ps = Ok ps.
Proof. induction Ps as [|P Ps IH]; intros i d F; [eexists; reflexivity|]. inversion F as [|? ? F1 F2]; subst. destruct (F1 (i =? d)) as (p & E). destruct (IH (S i) d F2) as (ps & E'). cbn [mk_patterns]. rewrite E. cbn [bind]. rewrite E'. eexists; reflexivity. Qed.
Lemma forall2_nth : forall A B (R : A -> B -> Prop) l l', Forall2 R l l' <-> length l = length l' /\ forall i x y, nth_error l i = Some x -> nth_error l' i = Some y -> R x y.
Proof.
  induction l as [|a l IH]; intros l'.
  - split; [intros H; inversion H; split; [reflexivity|intros []; discriminate]|]. intros [H _]. destruct l'; [constructor|discriminate].
  - split.
    + intros H. inversion H as [|? b ? l2 H1 H2]; subst. apply IH in H2. destruct H2 as [E H2]. split; [cbn; congruence|]. intros [|i] x y X Y; cbn in X, Y; [inversion X; inversion Y; subst; exact H1|eapply H2; eassumption].
    + intros [E H]. destruct l' as [|b l2]; [discriminate|]. constructor; [apply (H 0); reflexivity|]. apply IH. split; [cbn in E; congruence|]. intros i x y X Y. apply (H (S i)); assumption.
Qed.
Lemma pat_parse_load : forall nv s me m ps, pat_parse nv s = Some (m, ps) -> exists b, snd (match_load nv [] s me) = Ok b.
Proof. intros nv s me m ps H. pose proof (mload_snd nv [] s me) as E. cbn [mloads fold_left] in E. rewrite E, H. eexists; reflexivity. Qed.
Lemma pat_parse_intro : forall nv s m Ps ps, startswith s [SLASH] = true -> analyze_url_pattern_string s = Ok (m, Ps) -> mk_patterns 1 (path_depth m) Ps = Ok ps -> ps <> [] -> pat_parse nv s = Some (m, ps).
Proof. intros nv s m Ps ps SS A K N. unfold pat_parse, parse. rewrite SS, A. cbn [bind]. rewrite K. cbn [bind]. destruct ps; [congruence|reflexivity]. Qed.

Theorem c28 : forall nv h url m raw, url_path nv url = Some (m, raw) -> Forall (fun w => ~ In 92%N w) raw -> accepted_canonical nv h ->
  exists fs, match_url nv (mloads nv h) url = Ok fs /\ NoDup (map (fun f => map mp_str (fst f)) fs) /\
    forall Ps, In Ps (map (fun f => map mp_str (fst f)) fs) <->
      exists s me, In (s, me) h /\ startswith s (u "/") = true /\ analyze_url_pattern_string s = Ok (m, Ps) /\ length Ps = length raw /\
        forall i P w, nth_error Ps i = Some P -> nth_error raw i = Some w -> takes (S i =? path_depth m) P w.
Proof.
  intros nv h url m raw U B AC.
  assert (CAN : forall s mt m' ps, In (s, mt) h -> pat_parse nv s = Some (m', ps) -> Forall canonical (map mp_str ps)).
  { intros s mt m' ps I P. destruct (pat_parse_load nv s mt m' ps P) as (b & L). apply (AC s mt b m' _ I L). apply (pat_parse_analyze nv). exact P. }
  destruct (match_exact nv h url m raw U B) as (fs & M & ND & X).
  { intros s mt m' ps I P. specialize (CAN _ _ _ _ I P). apply pat_parse_analyze in P. destruct P as (_ & _ & K). rewrite Forall_map in CAN. rewrite Forall_forall in CAN |- *. intros p J. destruct (In_nth_error _ _ J) as (n & N). pose proof (mk_patterns_nth _ _ _ _ _ _ K N) as E. destruct (CAN p J) as (us & R & SL). exact (reads_pcanon _ us _ p R SL E). }
  exists fs. split; [exact M|]. split; [exact ND|]. destruct (url_path_parse _ _ _ _ U) as (_ & LG & _). destruct (url_path_depth _ _ _ _ U) as [_ NR].
  assert (POS : forall path ps0, mk_patterns 1 (path_depth m) ps0 = Ok path -> Forall canonical ps0 -> (map mp_fuzzy path = map fuzzy_rule (map pp_of raw) /\ Forall2 acc2 path (map pp_of raw) <-> length ps0 = length raw /\ forall i P w, nth_error ps0 i = Some P -> nth_error raw i = Some w -> takes (S i =? path_depth m) P w)).
  { intros path ps0 K C. destruct (mk_patterns_ok _ _ _ _ K) as [_ ES]. assert (LP : length path = length ps0) by (rewrite <- ES, map_length; reflexivity).
    assert (T : forall i p w, nth_error path i = Some p -> nth_error raw i = Some w -> (mp_fuzzy p = fuzzy_rule (pp_of w) /\ acc2 p (pp_of w) <-> takes (S i =? path_depth m) (mp_str p) w)).
    { intros i p w NP NW. apply takes_pos; [| | |].
      - rewrite Forall_forall in C. apply C. rewrite <- ES. apply in_map. eapply nth_error_In. exact NP.
      - exact (mk_patterns_nth _ _ _ _ _ _ K NP).
      - rewrite Forall_forall in LG. apply LG. eapply nth_error_In. exact NW.
      - rewrite Forall_forall in B. apply B. eapply nth_error_In. exact NW. }
    split.
    - intros [EF F]. apply forall2_nth in F. rewrite map_length in F. destruct F as [L F]. split; [congruence|]. intros i P w NP NW. rewrite <- ES in NP. rewrite nth_error_map in NP. destruct (nth_error path i) as [p|] eqn:EP; [|discriminate]. inversion NP; subst P. apply (T i p w EP NW). split.
      + pose proof (f_equal (fun l => nth_error l i) EF) as Z. cbn beta in Z. rewrite !nth_error_map, EP, NW in Z. cbn in Z. congruence.
      + apply (F i); [exact EP|]. rewrite nth_error_map, NW. reflexivity.
    - intros [L F]. assert (G : forall i p w, nth_error path i = Some p -> nth_error raw i = Some w -> mp_fuzzy p = fuzzy_rule (pp_of w) /\ acc2 p (pp_of w)). { intros i p w NP NW. apply (T i p w NP NW). apply (F i); [|exact NW]. rewrite <- ES, nth_error_map, NP. reflexivity. }
      assert (LL : length path = length raw) by congruence. clear - G LL. revert raw LL G. induction path as [|p path IH]; intros [|w raw] LL G; try discriminate; [split; [reflexivity|constructor]|]. destruct (G 0 p w eq_refl eq_refl) as [G1 G2]. destruct (IH raw) as [I1 I2]; [cbn in LL; congruence|intros i q v NP NW; apply (G (S i)); assumption|]. cbn [map]. split; [congruence|constructor; assumption]. }
  intros Ps. split.
  - intros I. apply in_map_iff in I. destruct I as ([path node] & <- & I). cbn [fst]. assert (E : exists node, In (path, node) fs) by eauto. apply X in E. destruct E as ((s & mt & IS & PP) & EF & AF). exists s, mt. split; [exact IS|]. pose proof (CAN _ _ _ _ IS PP) as C. apply pat_parse_analyze in PP. destruct PP as (SS & AN & K). split; [exact SS|]. split; [exact AN|]. apply (POS path _ K C). auto.
  - intros (s & me & I & SS & AN & L & T). assert (RD : Forall (fun P => exists us, reads P us) Ps). { apply Forall_forall. intros P J. destruct (In_nth_error _ _ J) as (n & N). destruct (nth_error raw n) as [w|] eqn:NW; [|apply nth_error_None in NW; assert (n < length Ps) by (apply nth_error_Some; congruence); lia]. destruct (T n P w N NW) as (us & ws & R & _). eauto. }
    destruct (mk_patterns_all Ps 1 (path_depth m)) as (path & K); [eapply Forall_impl; [|exact RD]; intros P (us & R) b; eapply reads_mk; exact R|]. destruct (mk_patterns_ok _ _ _ _ K) as [_ ES].
    assert (PN : path <> []). { intros ->. cbn in ES. subst Ps. destruct raw; [congruence|discriminate]. } assert (PP := pat_parse_intro nv s m Ps path SS AN K PN). assert (C := CAN _ _ _ _ I PP). rewrite ES in C. destruct (proj2 (POS path Ps K C) (conj L T)) as [EF AF].
    destruct (proj2 (X path)) as (node & IN); [split; [exists s, me; auto|auto]|]. apply in_map_iff. exists (path, node). auto.
Qed.
Lemma c28_order : forall nv h h' url m raw fs fs', url_path nv url = Some (m, raw) -> Forall (fun w => ~ In 92%N w) raw ->
  accepted_canonical nv h -> accepted_canonical nv h' -> (forall s, (exists me, In (s, me) h) <-> (exists me, In (s, me) h')) ->
  match_url nv (mloads nv h) url = Ok fs -> match_url nv (mloads nv h') url = Ok fs' -> forall Ps, In Ps (parts_of fs) <-> In Ps (parts_of fs').
Proof.
  intros nv h h' url m raw fs fs' U B A A' S M M' Ps. destruct (c28 nv h url m raw U B A) as (gs & G & _ & X). destruct (c28 nv h' url m raw U B A') as (gs' & G' & _ & X'). rewrite M in G. rewrite M' in G'. inversion G; inversion G'; subst. unfold parts_of. rewrite X, X'. split; intros (s & me & I & R); (destruct (S s) as [S1 S2]); [destruct (S1 (ex_intro _ me I)) as (me' & J)|destruct (S2 (ex_intro _ me I)) as (me' & J)]; exists s, me'; auto.
Qed.
Lemma c28_more : forall nv h h' url m raw fs fs', url_path nv url = Some (m, raw) -> Forall (fun w => ~ In 92%N w) raw ->
  accepted_canonical nv (h ++ h') -> match_url nv (mloads nv h) url = Ok fs -> match_url nv (mloads nv (h ++ h')) url = Ok fs' ->
  forall Ps, In Ps (parts_of fs) -> In Ps (parts_of fs').
Proof.
  intros nv h h' url m raw fs fs' U B A M M' Ps I. assert (A0 : accepted_canonical nv h) by (intros s me b m' Qs J; apply (A s me b m' Qs); apply in_app_iff; left; exact J).
  destruct (c28 nv h url m raw U B A0) as (gs & G & _ & X). destruct (c28 nv _ url m raw U B A) as (gs' & G' & _ & X'). rewrite M in G. rewrite M' in G'. inversion G; inversion G'; subst. apply X'. apply X in I. destruct I as (s & me & J & R). exists s, me. split; [apply in_app_iff; left; exact J|exact R].
Qed.

(** ** deciding the readings, for the examples *)
Definition cunit_okb (x : cunit) : bool :=
  match x with
  | CLit w => negb (is_nil w) && forallb (fun c => char_in c letters_digits) w && forallb (fun a => forallb (same_spaceb a) w) w
  | CCls rs n => negb (is_nil rs) && forallb (fun r => str_in r space_texts && negb (str_eqb r [92%N; 92%N])) rs &&
      (fix srt (l : list str) : bool := match l with [] => true | a :: t => forallb (str_ltb a) t && srt t end) rs &&
      match n with None => true | Some k => N.leb (N.of_nat (length rs)) k end
  end.
Fixpoint apartb (us : list cunit) : bool :=
  match us with
  | CLit a :: t => match t with CLit b :: _ => forallb (fun x => forallb (fun y => negb (same_spaceb x y)) b) a | _ => true end && apartb t
  | _ :: t => apartb t
  | [] => true
  end.
Definition canonb (us : list cunit) : bool := forallb cunit_okb us && apartb us &&
  forallb (fun x => match x with CLit _ => true | CCls rs _ => negb (str_in (u "/") rs) || str_eqb (List.concat rs) (u "/") end) us.
Lemma str_in_iff : forall s l, str_in s l = true <-> In s l.
Proof. intros s l. unfold str_in. rewrite existsb_exists. split; [intros (x & I & E); apply str_eqb_eq in E; subst; exact I|intros I; exists s; split; [exact I|apply str_eqb_refl]]. Qed.
Lemma cunit_okb_ok : forall x, cunit_okb x = true -> cunit_ok x.
Proof.
  intros [w|rs n] H; cbn [cunit_okb cunit_ok] in *; rewrite !andb_true_iff in H.
  - destruct H as [[A B] C]. split; [destruct w; [discriminate|discriminate]|]. split; [apply Forall_forall; intros c I; rewrite forallb_forall in B; apply char_in_In; exact (B c I)|]. intros a b I J. rewrite forallb_forall in C. specialize (C a I). rewrite forallb_forall in C. apply same_spaceb_iff. exact (C b J).
  - destruct H as [[[A B] C] D]. split; [destruct rs; discriminate|]. split; [|split].
    + clear - C. induction rs as [|a rs IH]; [constructor|]. apply andb_true_iff in C. destruct C as [C1 C2]. constructor; [apply IH; exact C2|]. apply Forall_forall. rewrite forallb_forall in C1. exact C1.
    + apply Forall_forall. intros r I. rewrite forallb_forall in B. specialize (B r I). apply andb_true_iff in B. destruct B as [B1 B2]. split; [apply str_in_iff; exact B1|]. intros ->. rewrite str_eqb_refl in B2. discriminate.
    + destruct n; [apply N.leb_le; exact D|exact Logic.I].
Qed.
Lemma cls_not_literal : forall rs n, ~ literal_unit (cunit_text (CCls rs n)).
Proof. intros rs n (_ & F & _). apply Forall_inv in F. revert F. clear. vm_compute. intuition discriminate. Qed.
Lemma apartb_ok : forall us, Forall cunit_ok us -> apartb us = true -> units_apart (map cunit_text us).
Proof.
  induction us as [|x us IH]; intros OK H; [exact Logic.I|]. inversion OK as [|? ? O1 O2]; subst. cbn [map units_apart]. destruct x as [w|rs n].
  - cbn [apartb] in H. apply andb_true_iff in H. destruct H as [H1 H2]. split; [|apply IH; assumption]. destruct us as [|[v|rs n] us]; [exact Logic.I| |cbn [map]; intros _ Y; exfalso; exact (cls_not_literal _ _ Y)].
    cbn [map cunit_text]. intros _ _ a b I J S. rewrite forallb_forall in H1. specialize (H1 a I). rewrite forallb_forall in H1. specialize (H1 b J). apply same_spaceb_iff in S. rewrite S in H1. discriminate.
  - cbn [apartb] in H. split; [|apply IH; assumption]. destruct us as [|y us]; [exact Logic.I|]. cbn [map]. intros Y. exfalso. exact (cls_not_literal _ _ Y).
Qed.
Lemma canonb_ok : forall us P, List.concat (map cunit_text us) = P -> canonb us = true -> reads P us /\ canonical P.
Proof.
  intros us P E H. unfold canonb in H. rewrite !andb_true_iff in H. destruct H as [[A B] C]. assert (OK : Forall cunit_ok us) by (apply Forall_forall; intros x I; apply cunit_okb_ok; rewrite forallb_forall in A; exact (A x I)). assert (R : reads P us) by (split; [exact E|split; [exact OK|apply apartb_ok; assumption]]).
  split; [exact R|]. exists us. split; [exact R|]. intros _. apply Forall_forall. intros x I. rewrite forallb_forall in C. specialize (C x I). rewrite Forall_forall in OK. specialize (OK x I). destruct x as [w|rs n]; [exact Logic.I|]. intros J. apply str_in_iff in J. rewrite J in C. cbn [negb orb] in C. apply str_eqb_eq in C. apply concat_rules_inj; [apply (cu_uset _ OK)|constructor; [reflexivity|constructor]|exact C].
Qed.
Lemma runs_of_text : forall s ws, legalb s = true -> map snd (runs s) = ws -> maximal_runs s ws.
Proof. intros s ws L <-. apply runs_maximal. apply legalb_iff. exact L. Qed.
