(** match() of a pattern, in terms of the grammar (C60). *)
From Coq Require Import String.
From Verif Require Import PyStr Defs UrlLib ParseUtils Spec Views Trees Patterns Matcher Observe MatchSpec GrammarSpec SlashSpec PyStrProofs DefsProofs DictProofs RegexProofs PieceProofs LengthProofs UnitProofs BridgeProofs LoadProofs EntProofs TokProofs FlatCluster ViewProofs KeyProofs PatUnits MatchVms MatchTree MatchSem MatchLevel MatchNest MatchDigest MatchUnits MatchKeys MatchSound MatchTop MatchExact MatchTakes MatchPos MatchTotal MatchReload Grammar MatchSlash.
From Coq Require Import Lia Sorted Permutation.

Lemma part_of : forall p l, mp_ok p -> (part_means (mp_str p) l <-> l = map unit_obs (mp_units p)).
Proof.
  intros p l OK. pose proof (mp_ok_units p OK) as H. split.
  - intros M. pose proof (obs_units l) as E. rewrite <- E in M. apply part_exact in M. rewrite H in M. injection M as M. rewrite <- E, <- M. reflexivity.
  - intros ->. apply part_exact. exact H.
Qed.
Lemma count_neg : forall q n, count_text q n -> (n < 0)%Z -> n = (-1)%Z.
Proof. intros q n [[_ ->]|[[_ ->]|(ds & k & _ & _ & ->)]] L; lia. Qed.
Lemma view_units : forall p, mp_ok p -> exists b, mp_view p = view_cls_from_units (mp_units p) b.
Proof. intros p (b & H). exists b. unfold mk_match_pattern in H. apply bind_ok in H. destruct H as (us & _ & H). destruct p. inversion H; subst. reflexivity. Qed.
Lemma multi_not : forall us v, v <> VFuzzy -> multi_view_cls us v <> VFuzzy.
Proof.
  induction us as [|x us IH]; intros v N; [exact N|]. cbn [multi_view_cls]. repeat match goal with |- context [if ?b then _ else _] => destruct b end; first [discriminate|apply IH; first [exact N|discriminate]].
Qed.
Lemma fz_open : forall p, mp_ok p -> (mp_view p = VFuzzy <-> open_class (mp_str p)).
Proof.
  intros p OK. destruct (view_units p OK) as (b & V). split.
  - intros E. rewrite V in E. pose proof (proj2 (part_of p _ OK) eq_refl) as M. destruct (mp_units p) as [|x [|y us]] eqn:EU.
    + exfalso. cbn [view_cls_from_units multi_view_cls] in E. destruct b; discriminate.
    + cbn [view_cls_from_units] in E. destruct (is_literal x); [discriminate|]. destruct (Z.ltb_spec (pu_num x) 0) as [L|L]; [|discriminate]. cbn [map] in M. destruct M as [[_ M]|(_ & C & F & _)].
      * unfold unit_obs in M. injection M as _ _ M. lia.
      * cbn [map List.concat] in C. rewrite app_nil_r in C. inversion F as [|? ? F1 _]; subst. unfold unit_obs in F1, C. cbn [fst snd] in F1, C. rewrite C in F1. exists (pu_rules x).
        assert (N1 : pu_num x = (-1)%Z).
        { destruct F1 as [(c & r & _ & _ & _ & Z)|(l & q & _ & _ & _ & _ & _ & Q & _)]; [lia|]. apply (count_neg q); assumption. }
        rewrite N1 in F1. exact F1.
    + exfalso. cbn [view_cls_from_units] in E. match type of E with (if ?c then _ else _) = _ => destruct c end; [discriminate|]. exact (multi_not (x :: y :: us) VPiece (fun X => match X with end) E).
  - intros (rs & M). set (x := PU (mp_str p) rs (-1)%Z).
    assert (PM : part_means (mp_str p) (map unit_obs [x])).
    { right. cbn [map List.concat unit_obs x pu_str pu_rules pu_num fst snd]. split; [|split; [apply app_nil_r|split; [constructor; [exact M|constructor]|]]].
      - intros Z. destruct M as [(c & r & E & _)|(l & q & E & _)]; rewrite Z in E; discriminate.
      - cbn. repeat split; auto. }
    apply (part_of p _ OK) in PM. assert (EU : mp_units p = [x]). { destruct (mp_units p) as [|y [|z us]]; try discriminate. cbn [map] in PM. injection PM as P1 P2 P3. destruct y as [a b1 c]. cbn in *. subst. reflexivity. }
    rewrite V, EU. cbn [view_cls_from_units]. assert (IL : is_literal x = false).
    { destruct M as [(c & r & _ & _ & _ & Z)|(l & q & E & _)]; [exfalso; lia|]. unfold is_literal, x. cbn [pu_str pu_rules pu_num]. rewrite E. change (startswith (u "[" ++ List.concat l ++ u "]" ++ q) [BRACKETS_L]) with (startswith (List.concat l ++ u "]" ++ q) []). assert (SW : forall w : str, startswith w [] = true) by (intros [|? ?]; reflexivity). rewrite SW. destruct rs as [|r [|? ?]]; reflexivity. }
    rewrite IL. reflexivity.
Qed.

(** ** the spaces of a part *)
Definition rset (p : match_pattern) : list str := match mp_str p with [] => [] | _ => sorted_set (flat_map pu_rules (mp_units p)) end.
Lemma rset_facts : forall p, mp_ok p -> StronglySorted str_lt (rset p) /\ Forall (fun r => in_rules r = true) (rset p) /\ List.concat (rset p) = mp_fuzzy p /\ forall r, In r (rset p) <-> names (mp_str p) r.
Proof.
  intros p OK. pose proof (proj2 (part_of p _ OK) eq_refl) as M. unfold rset, mp_fuzzy, units_fuzzy.
  assert (NA : forall r, names (mp_str p) r <-> exists x, In x (mp_units p) /\ In r (pu_rules x) /\ r <> []).
  { intros r. unfold names. split.
    - intros (l & x & L & I & J & N). apply (part_of p _ OK) in L. subst l. apply in_map_iff in I. destruct I as (y & <- & I). exists y. auto.
    - intros (x & I & J & N). exists (map unit_obs (mp_units p)), (unit_obs x). split; [exact M|]. split; [apply in_map; exact I|]. auto. }
  destruct M as [[E M]|(NE & _ & F & _)].
  - rewrite E. assert (EU : mp_units p = [PU [] [[]] 1%Z]). { destruct (mp_units p) as [|y [|z us]]; try discriminate. cbn [map] in M. injection M as P1 P2 P3. destruct y as [a b1 c]. cbn in *. subst. reflexivity. }
    rewrite EU. split; [constructor|]. split; [constructor|]. split; [reflexivity|]. intros r. rewrite <- E, NA, EU. split; [intros []|]. intros (x & [<-|[]] & [<-|[]] & N). congruence.
  - assert (IR : forall r, In r (flat_map pu_rules (mp_units p)) -> In r space_texts).
    { intros r I. apply in_flat_map in I. destruct I as (x & I & J). rewrite Forall_map in F. rewrite Forall_forall in F. specialize (F x I). unfold unit_obs in F. cbn [fst snd] in F.
      destruct F as [(c & r0 & EX & L & R & _)|(l & q & _ & FL & _ & _ & R & _)].
      - rewrite R in J. destruct J as [<-|[]]. apply space_texts_rules. rename r0 into w. match goal with E : pu_str x = c :: w |- _ => rewrite E in L end. apply literal_lit in L. destruct L as (_ & _ & FC). inversion FC as [|? ? FC1 _]; subst. eapply rule_in_rules. exact FC1.
      - apply R in J. rewrite Forall_forall in FL. apply FL. exact J. }
    destruct (mp_str p) as [|c0 w0] eqn:ES; [congruence|]. rewrite <- ES in *. split; [apply sorted_set_sorted|]. split.
    + apply Forall_forall. intros r I. apply (proj1 (sorted_set_In _ r)) in I. apply space_texts_rules. apply IR. exact I.
    + split; [reflexivity|]. intros r. rewrite NA. split.
      * intros I. apply (proj1 (sorted_set_In _ r)) in I. pose proof (IR r I) as J. apply in_flat_map in I. destruct I as (x & I & K). exists x. split; [exact I|]. split; [exact K|].
        intros ->. vm_compute in J. repeat (destruct J as [J|J]; [discriminate|]). destruct J.
      * intros (x & I & J & _). apply sorted_set_In. apply in_flat_map. eauto.
Qed.
Lemma fuzzy_alike : forall p q, mp_ok p -> mp_ok q -> (mp_fuzzy p = mp_fuzzy q <-> alike (mp_str p) (mp_str q)).
Proof.
  intros p q OP OQ. destruct (rset_facts p OP) as (S1 & R1 & <- & N1). destruct (rset_facts q OQ) as (S2 & R2 & <- & N2). unfold alike. split.
  - intros E r. apply concat_rules_inj in E; [|assumption..]. rewrite <- N1, <- N2, E. tauto.
  - intros A. f_equal. apply sorted_unique; [assumption..|]. intros r. rewrite N1, N2. apply A.
Qed.
Lemma fuzzy_alikes : forall ps qs, Forall mp_ok ps -> Forall mp_ok qs -> (map mp_fuzzy ps = map mp_fuzzy qs <-> Forall2 alike (map mp_str ps) (map mp_str qs)).
Proof.
  induction ps as [|p ps IH]; intros [|q qs] OP OQ; cbn [map].
  - split; [constructor|reflexivity].
  - split; [discriminate|intros H; inversion H].
  - split; [discriminate|intros H; inversion H].
  - inversion OP; inversion OQ; subst. split.
    + intros E. injection E as E1 E2. constructor; [apply fuzzy_alike; assumption|apply IH; assumption].
    + intros E. inversion E; subst. f_equal; [apply fuzzy_alike; assumption|apply IH; assumption].
Qed.

(** ** accepted patterns *)
Lemma accepted_parse : forall nv s me b, snd (match_load nv [] s me) = Ok b -> exists m ps, pat_parse nv s = Some (m, ps).
Proof.
  intros nv s me b H. pose proof (mload_snd nv [] s me) as E. cbn [mloads fold_left] in E. rewrite E in H. destruct (pat_parse nv s) as [[m ps]|]; [eauto|discriminate].
Qed.
Lemma alike_hist : forall nv h s m ps Qs, pat_parse nv s = Some (m, ps) ->
  (alike_load nv h m (map mp_str ps) Qs <-> exists qs me, In (qs, me) (mhist nv (parsed_digest m (PPat ps)) h) /\ map mp_str qs = Qs).
Proof.
  intros nv h s m ps Qs P. destruct (pat_parse_ok _ _ _ _ P) as (OP & _ & _). split.
  - intros (s' & me & b & I & L & A & F). destruct (accepted_parse _ _ _ _ L) as (m' & qs & Q). destruct (pat_parse_analyze _ _ _ _ Q) as (_ & A' & _). rewrite A' in A. injection A as -> <-. destruct (pat_parse_ok _ _ _ _ Q) as (OQ & _ & _).
    exists qs, (option_map MUser me). split; [|reflexivity]. apply mhist_In. exists s', m, me. split; [exact I|]. split; [exact Q|]. split; [|reflexivity]. unfold parsed_digest. f_equal. symmetry. apply fuzzy_alikes; assumption.
  - intros (qs & me & I & <-). apply mhist_In in I. destruct I as (s' & m' & mt & I & Q & D & _). destruct (pat_digest_inj _ _ _ _ _ _ _ Q P D) as [-> E]. destruct (pat_parse_ok _ _ _ _ Q) as (OQ & _ & _).
    destruct (pat_parse_load nv s' mt m qs Q) as (b & L). exists s', mt, b. split; [exact I|]. split; [exact L|]. split; [apply (pat_parse_analyze nv); exact Q|]. apply fuzzy_alikes; [assumption..|]. symmetry. exact E.
Qed.
Lemma hist_fz : forall nv h s m ps, pat_parse nv s = Some (m, ps) ->
  (all_fz (mhist nv (parsed_digest m (PPat ps)) h) = true <-> forall Qs, alike_load nv h m (map mp_str ps) Qs -> Forall open_class Qs).
Proof.
  intros nv h s m ps P. pose proof (mhist_ok nv (parsed_digest m (PPat ps)) h) as OK. unfold hist_ok in OK. rewrite Forall_forall in OK. unfold all_fz. rewrite forallb_forall. split.
  - intros A Qs L. apply (alike_hist nv h s m ps Qs P) in L. destruct L as (qs & me & I & <-). specialize (A _ I). specialize (OK _ I). cbn [fst] in *. rewrite Forall_map. rewrite forallb_forall in A. rewrite Forall_forall in *. intros q J. apply fz_open; [apply OK; exact J|]. apply fz_iff. apply A. exact J.
  - intros A [qs me] I. cbn [fst]. specialize (OK _ I). cbn [fst] in OK. rewrite forallb_forall. intros q J. apply fz_iff. apply fz_open; [rewrite Forall_forall in OK; apply OK; exact J|].
    assert (L : alike_load nv h m (map mp_str ps) (map mp_str qs)) by (apply (alike_hist nv h s m ps _ P); eauto). specialize (A _ L). rewrite Forall_map in A. rewrite Forall_forall in A. apply A. exact J.
Qed.
Lemma none_objs : forall ps : list match_pattern, Forall (fun o : mobj => o = None) (match_objs (PPat ps)) /\ length (match_objs (PPat ps)) = length ps.
Proof. intros ps. cbn [match_objs]. split; [apply Forall_forall; intros o I; apply in_map_iff in I; destruct I as (p & <- & _); reflexivity|apply map_length]. Qed.

Section Top.
  Context (nv : str -> bool) (h : list (str * option str)) (s : str) (m : url_meta) (ps : list match_pattern) (P : pat_parse nv s = Some (m, ps)).
  Let sid := parsed_digest m (PPat ps).
  Lemma slash_match : match_url nv (mloads nv h) s = match mhist nv sid h with [] => Ok [] | _ => nmatch im1 (match_objs (PPat ps)) (grow inner1 empty_match_pattern (mhist nv sid h)) end.
  Proof.
    destruct (pat_parse_ok _ _ _ _ P) as (_ & _ & PA). unfold match_url. rewrite PA. cbn [bind]. rewrite mloads_get. fold sid. unfold the_matcher, mroot, mhist. destruct (mentries nv sid h) as [|[m' e] r]; [reflexivity|]. cbn [map mm_root]. rewrite nmatch2. reflexivity.
  Qed.
  Lemma slash_uniform : uniform (length (match_objs (PPat ps))) (mhist nv sid h).
  Proof.
    rewrite (proj2 (none_objs ps)). apply Forall_forall. intros [qs me] Q. cbn [fst]. apply mhist_In in Q. destruct Q as (s' & m' & mt & _ & Q & D & _). destruct (pat_digest_inj _ _ _ _ _ _ _ Q P D) as [_ E]. apply (f_equal (@length _)) in E. rewrite !map_length in E. exact E.
  Qed.
  Lemma slash_objs : match_objs (PPat ps) <> [].
  Proof. destruct (pat_parse_ok _ _ _ _ P) as (_ & N & _). destruct ps; [congruence|discriminate]. Qed.
End Top.

Theorem c60_found : forall nv h s m Ps b me, snd (match_load nv [] s me) = Ok b -> analyze_url_pattern_string s = Ok (m, Ps) ->
  (forall Qs, alike_load nv h m Ps Qs -> Forall open_class Qs) ->
  exists fs, match_url nv (mloads nv h) s = Ok fs /\ NoDup (parts_of fs) /\ (forall Qs, In Qs (parts_of fs) <-> alike_load nv h m Ps Qs) /\
    forall f, In f fs -> exists o, m_meta (snd f) = option_map MUser o /\ last_meta h (m, map mp_str (fst f)) o.
Proof.
  intros nv h s m Ps b me L A O. destruct (accepted_parse _ _ _ _ L) as (m' & ps & P). destruct (pat_parse_analyze _ _ _ _ P) as (_ & A' & _). rewrite A' in A. injection A as -> <-.
  apply (hist_fz nv h s m ps P) in O. rewrite (slash_match nv h s m ps P). set (sid := parsed_digest m (PPat ps)) in *. 
  assert (AH := fun Qs => alike_hist nv h s m ps Qs P). fold sid in AH. destruct (mhist nv sid h) as [|e0 r0] eqn:EH.
  - exists []. split; [reflexivity|]. split; [constructor|]. split; [|intros f []]. intros Qs. rewrite AH. split; [intros []|intros (qs & mt & [] & _)].
  - assert (NE : mhist nv sid h <> []) by congruence. rewrite <- EH in *. clear EH.
    destruct (fz_found inner1 mp_ok regok1 im1 (match_objs (PPat ps)) empty_match_pattern (mhist nv sid h) (proj1 (none_objs ps)) (mhist_ok nv sid h) (slash_uniform nv h s m ps P) (mhist_coherent nv sid h) NE (slash_objs nv s m ps P) O) as (fs & E & ND & X).
    exists fs. split; [exact E|]. split; [exact ND|]. split.
    + intros Qs. rewrite AH. unfold parts_of. rewrite in_map_iff. split.
      * intros ([path k] & <- & I). apply X in I. destruct I as [(mt & I) _]. eauto.
      * intros (qs & mt & I & <-). exists (qs, found_node inner1 qs empty_match_pattern (mhist nv sid h)). split; [reflexivity|]. apply X. eauto.
    + intros [path k] I. cbn [fst snd]. apply X in I. destruct I as [(mt & I) ->]. apply mhist_In in I. destruct I as (s' & m' & mt' & _ & Q & D & _). destruct (pat_digest_inj _ _ _ _ _ _ _ Q P D) as [-> _].
      destruct (lm_last nv m path s' h Q) as (o & E1 & E2). exists o. split; [|exact E2]. unfold found_node. rewrite (grow_eq inner1 mp_ok regok1).
      { cbn [m_meta]. rewrite lm_descend. rewrite <- E1. f_equal. f_equal. symmetry. exact D. }
      assert (G : forall p hist, hist_ok mp_ok hist -> hist_ok mp_ok (descend p hist)). { induction p as [|q p IH]; intros hist OK; [exact OK|]. unfold descend. cbn [fold_left]. apply IH. apply tails_ok. exact OK. }
      apply G. apply mhist_ok.
Qed.
Theorem c60_raises : forall nv h s m Ps b me Qs, snd (match_load nv [] s me) = Ok b -> analyze_url_pattern_string s = Ok (m, Ps) ->
  alike_load nv h m Ps Qs -> ~ Forall open_class Qs -> match_url nv (mloads nv h) s = Err EAttr.
Proof.
  intros nv h s m Ps b me Qs L A K O. destruct (accepted_parse _ _ _ _ L) as (m' & ps & P). destruct (pat_parse_analyze _ _ _ _ P) as (_ & A' & _). rewrite A' in A. injection A as -> <-.
  rewrite (slash_match nv h s m ps P). assert (F : all_fz (mhist nv (parsed_digest m (PPat ps)) h) = false). { apply Bool.not_true_iff_false. intros F. apply O. apply (proj1 (hist_fz nv h s m ps P) F). exact K. }
  set (sid := parsed_digest m (PPat ps)) in *. destruct (mhist nv sid h) as [|e0 r0] eqn:EH; [discriminate|]. assert (NE : mhist nv sid h <> []) by congruence. rewrite <- EH in *. clear EH.
  exact (none_raises inner1 mp_ok regok1 im1 (match_objs (PPat ps)) empty_match_pattern (mhist nv sid h) (proj1 (none_objs ps)) (mhist_ok nv sid h) (slash_uniform nv h s m ps P) (mhist_coherent nv sid h) NE (slash_objs nv s m ps P) F).
Qed.
Theorem c60_rejected : forall nv h s me e st, startswith s (u "/") = true -> snd (match_load nv (mloads nv h) s me) = Err e -> match_url nv st s = Err e.
Proof.
  intros nv h s me e st SS L. rewrite mload_snd in L. destruct (pat_parse nv s) as [[m ps]|] eqn:P; [discriminate|]. injection L as L. unfold match_url. unfold pat_parse in P. destruct (parse nv s) as [[m [l|l]]|e'] eqn:PA; cbn [bind].
  - exfalso. change (u "/") with [SLASH] in SS. unfold parse in PA. rewrite SS in PA. apply bind_ok in PA. destruct PA as ([m' l'] & _ & PA). apply bind_ok in PA. destruct PA as (ms & _ & PA). discriminate.
  - exfalso. destruct l as [|p l]; [|discriminate]. change (u "/") with [SLASH] in SS. unfold parse in PA. rewrite SS in PA. apply bind_ok in PA. destruct PA as ([m' Ps] & A & PA). apply bind_ok in PA. destruct PA as (ms & M & PA). injection PA as <- ->.
    apply mk_patterns_ok in M. destruct M as [_ M]. destruct m' as [d ks hf]. apply parts_exact in A; [|exact SS]. destruct A as (path & q & f & ps & vs & _ & PP & _ & _ & _ & E). destruct PP as (l1 & x & _ & _ & ->). rewrite E in M. cbn [map] in M.
    symmetry in M. apply app_eq_nil in M. destruct M as [M _]. apply app_eq_nil in M. destruct M. discriminate.
  - congruence.
Qed.
(** the answer of pattern-match *)
Theorem c60_decides : forall nv h s m Ps b me, snd (match_load nv [] s me) = Ok b -> analyze_url_pattern_string s = Ok (m, Ps) ->
  (forall Qs, alike_load nv h m Ps Qs -> Forall open_class Qs) \/ (exists Qs, alike_load nv h m Ps Qs /\ ~ Forall open_class Qs).
Proof.
  intros nv h s m Ps b me L A. destruct (accepted_parse _ _ _ _ L) as (m' & ps & P). destruct (pat_parse_analyze _ _ _ _ P) as (_ & A' & _). rewrite A' in A. injection A as -> <-.
  pose proof (hist_fz nv h s m ps P) as H. set (hist := mhist nv (parsed_digest m (PPat ps)) h) in *. destruct (all_fz hist) eqn:F; [left; apply H; reflexivity|]. right. clear H. unfold all_fz in F.
  destruct (existsb (fun x : hent => negb (forallb fz (fst x))) hist) eqn:EX.
  - apply existsb_exists in EX. destruct EX as ([qs mt] & I & X). cbn [fst] in X. exists (map mp_str qs). split; [apply (alike_hist nv h s m ps _ P); eauto|]. intros O. pose proof (mhist_ok nv (parsed_digest m (PPat ps)) h) as OK. unfold hist_ok in OK. rewrite Forall_forall in OK. specialize (OK _ I). cbn [fst] in OK.
    rewrite Forall_map in O. rewrite Forall_forall in *. assert (Y : forallb fz qs = true) by (apply forallb_forall; intros q J; apply fz_iff; apply fz_open; [apply OK; exact J|apply O; exact J]). rewrite Y in X. discriminate.
  - exfalso. apply Bool.not_true_iff_false in F. apply F. apply forallb_forall. intros x I. destruct (forallb fz (fst x)) eqn:E; [reflexivity|]. assert (Y : existsb (fun x : hent => negb (forallb fz (fst x))) hist = true) by (apply existsb_exists; exists x; rewrite E; auto). congruence.
Qed.
