(** C27: the patterns of clusters in the matcher. *)
From Coq Require Import String.
From Verif Require Import PyStr Defs UrlLib ParseUtils Spec Views Trees Cluster Patterns Matcher Maker Observe MatchSpec OwnSpec PyStrProofs DefsProofs DictProofs RegexProofs PieceProofs LengthProofs UnitProofs QueryProofs BridgeProofs UrlProofs PackProofs LoadProofs TokProofs EntProofs FlatCluster ViewProofs KeyProofs OuterLevel OuterCluster MakeProofs PatUnits PartProofs MatchKeys MatchTakes MatchPos.
From Coq Require Import Lia Permutation Sorted.

(** the unit of an item *)
Definition uc (x : uitem) : cunit :=
  match x with
  | UL rw => if in_sign_rules (fst rw) then CCls [fst rw] (Some (N.of_nat (length (snd rw)))) else CLit (snd rw)
  | UC w g => CCls (cset (cat g)) (if w then None else Some (N.of_nat (length (cat g))))
  end.
Lemma uc_text : forall x, ~ In 92%N (cat (uruns x)) -> cunit_text (uc x) = ustr x.
Proof.
  intros [rw|w g] B; unfold ustr; cbn [uc upu pu_str uruns] in *.
  - unfold render. destruct (in_sign_rules (fst rw)); [|reflexivity]. rewrite <- cu_text. cbn [cu pu_str List.concat]. rewrite app_nil_r. reflexivity.
  - rewrite <- cu_text. cbn [cu pu_str]. unfold uquant. destruct w; [reflexivity|]. unfold TokProofs.pl. rewrite bs_starts_zero by exact B. rewrite Nat.add_0_r. reflexivity.
Qed.
Lemma in_rules_space : forall r, in_rules r = true -> In r space_texts.
Proof.
  intros r H. apply str_in_In in H. assert (X : forallb (fun r => str_in r space_texts) RULES = true) by (vm_compute; reflexivity).
  rewrite forallb_forall in X. apply str_in_iff. apply X. exact H.
Qed.

Definition xok (x : uitem) : Prop := uok x /\ Forall run_ok (uruns x) /\ adj' (uruns x) /\ all_legal (cat (uruns x)) /\ runs (cat (uruns x)) = uruns x /\ ~ In 92%N (cat (uruns x)).
Lemma cat1 : forall rw, cat [rw] = snd rw.
Proof. intros rw. unfold cat. cbn [map List.concat]. apply app_nil_r. Qed.
Lemma run_sp : forall rw c, run_ok rw -> In c (snd rw) -> space_text c = fst rw.
Proof.
  intros rw c [_ F] I. rewrite Forall_forall in F. pose proof (F c I) as H. assert (L : legal c) by (apply legal_rule; eauto). rewrite (legal_space c L) in H. congruence.
Qed.
Lemma uc_ok : forall x, xok x -> cunit_ok (uc x).
Proof.
  intros [rw|w g] (OK & RO & AD & L & R & B); cbn [uc uruns] in *.
  - inversion RO as [|? ? H _]; subst. rewrite cat1 in *. destruct (in_sign_rules (fst rw)) eqn:S.
    + split; [discriminate|]. split; [constructor; constructor|]. split.
      * constructor; [|constructor]. split; [apply in_rules_space; apply run_ok_in_rules; exact H|]. intros E. apply B. destruct H as [N F]. destruct (snd rw) as [|c t]; [congruence|].
        left. apply Forall_inv in F. rewrite E in F. apply bs_rule in F. exact F.
      * destruct H as [N _]. destruct (snd rw); [congruence|]. cbn [length]. lia.
    + apply (lit_unit_literal (fst rw)). split; [apply sign_or_alnum; [apply run_ok_in_rules; exact H|exact S]|]. exact H.
  - cbn [uok] in OK. assert (N : cat g <> []) by (intros E; apply OK; apply cat_nil; assumption). split; [apply cset_non; assumption|]. split; [apply sorted_set_sorted|]. split.
    + pose proof (cset_rules _ L) as CR. pose proof (cset_no_bs _ L B) as NB. rewrite Forall_forall in CR |- *. intros r I. split; [apply in_rules_space; apply CR; exact I|].
      intros ->. apply NB. exact I.
    + destruct w; [exact Logic.I|]. pose proof (cset_length _ L). lia.
Qed.
Lemma uc_fits : forall x, xok x -> unit_fits (uc x) (cat (uruns x)).
Proof.
  intros [rw|w g] (OK & RO & AD & L & R & B); cbn [uc uruns] in *.
  - inversion RO as [|? ? H _]; subst. rewrite cat1 in *. destruct (in_sign_rules (fst rw)) eqn:S; [|reflexivity]. cbn [unit_fits]. split; [|reflexivity].
    intros r. split.
    + intros [<-|[]]. destruct H as [N F]. destruct (snd rw) as [|c t] eqn:E; [congruence|]. exists c. split; [left; reflexivity|]. apply run_sp; [split; [rewrite E; discriminate|rewrite E; exact F]|rewrite E; left; reflexivity].
    + intros (c & I & <-). left. symmetry. apply run_sp; assumption.
  - cbn [unit_fits]. split; [|destruct w; [exact Logic.I|reflexivity]]. apply cset_iff; [exact L|apply cset_sorted|reflexivity].
Qed.
Lemma xok_all : forall s P xs, all_legal s -> ~ In 92%N s -> upat s P xs -> Forall xok xs /\ adj' (List.concat (map uruns xs)) /\ List.concat (map (fun x => cat (uruns x)) xs) = s.
Proof.
  intros s P xs L B U. destruct (upat_parts s P xs L U) as (C & LG & RO). destruct U as (A & OK & _).
  assert (AD : adj' (List.concat (map uruns xs))) by (rewrite A; apply (runs_spec s L)). split; [|split; assumption].
  rewrite <- C in B. clear C A L s. induction xs as [|x xs IH]; [constructor|]. cbn [map List.concat] in *.
  inversion OK as [|? ? O1 O2]; subst. inversion LG as [|? ? [L1 R1] L2]; subst. apply Forall_app in RO. destruct RO as [RO1 RO2]. constructor.
  - split; [exact O1|]. split; [exact RO1|]. split; [eapply adj'_app_l; exact AD|]. split; [exact L1|]. split; [exact R1|]. intros I. apply B. apply in_app_iff. left. exact I.
  - apply IH; try assumption; [|eapply adj'_app_r; exact AD]. intros I. apply B. apply in_app_iff. right. exact I.
Qed.
Lemma uc_apart : forall xs, Forall xok xs -> adj' (List.concat (map uruns xs)) -> units_apart (map cunit_text (map uc xs)).
Proof.
  induction xs as [|x xs IH]; intros F AD; [exact Logic.I|]. inversion F as [|? ? X1 X2]; subst. cbn [map List.concat units_apart] in *.
  split; [|apply IH; [exact X2|eapply adj'_app_r; exact AD]]. destruct xs as [|y xs]; [exact Logic.I|]. cbn [map]. intros LA LB a b Ia Ib SS.
  inversion X2 as [|? ? Y1 _]; subst. destruct x as [rw|w g]; [|exact (cls_not_literal _ _ LA)]. destruct y as [rw'|w g]; [|exact (cls_not_literal _ _ LB)].
  cbn [uc] in *. destruct (in_sign_rules (fst rw)); [exact (cls_not_literal _ _ LA)|]. destruct (in_sign_rules (fst rw')); [exact (cls_not_literal _ _ LB)|]. cbn [cunit_text] in *.
  cbn [map uruns List.concat app adj'] in AD. destruct AD as [AD _]. destruct X1 as (_ & R1 & _), Y1 as (_ & R2 & _). apply Forall_inv in R1, R2. destruct R1 as [_ R1], R2 as [_ R2]. rewrite Forall_forall in R1, R2.
  apply AD. apply (same_space_rule a b _ _ (R1 a Ia) (R2 b Ib)). exact SS.
Qed.
Lemma own_reads : forall s P xs, all_legal s -> ~ In 92%N s -> upat s P xs -> reads P (map uc xs) /\ Forall2 unit_fits (map uc xs) (map (fun x => cat (uruns x)) xs).
Proof.
  intros s P xs L B U. destruct (xok_all s P xs L B U) as (X & AD & _). destruct U as (_ & _ & E). split; [split; [|split]|].
  - rewrite E. f_equal. rewrite map_map. apply map_ext_in. intros x I. rewrite Forall_forall in X. apply uc_text. apply (X x I).
  - rewrite Forall_map. eapply Forall_impl; [|exact X]. exact uc_ok.
  - apply uc_apart; assumption.
  - clear - X. induction X as [|x xs H X IH]; constructor; [apply uc_fits; exact H|exact IH].
Qed.

(** ** when the own cut is the matcher's cut *)
Lemma mixed_text_iff : forall r, in_rules r = true -> (In r mixed_texts <-> in_mixed r = true).
Proof.
  intros r R. apply str_in_In in R. assert (X : forallb (fun r => Bool.eqb (in_mixed r) (str_in r mixed_texts)) RULES = true) by (vm_compute; reflexivity).
  rewrite forallb_forall in X. apply X in R. apply Bool.eqb_prop in R. rewrite <- str_in_iff. rewrite R. reflexivity.
Qed.
Lemma fit_mixed : forall x w c, cunit_ok x -> unit_fits x w -> all_legal w -> all_mixed x -> In c w -> mixed_char c = true.
Proof.
  intros x w c OK F L M I. assert (LC : all_legal [c]) by (constructor; [|constructor]; unfold all_legal in L; rewrite Forall_forall in L; apply L; exact I). inversion LC as [|? ? [r Hr] _]; subst.
  rewrite <- (mixed_rule c r Hr). assert (LG : legal c) by (apply legal_rule; eauto). pose proof (legal_space c LG) as S. rewrite S in Hr. inversion Hr; subst r.
  destruct x as [l|rs n]; cbn [unit_fits all_mixed cunit_ok] in *.
  - subst l. destruct OK as (_ & LD & _). rewrite Forall_forall in LD. rewrite (mixed_rule c _ S). unfold mixed_char. apply char_in_In. apply in_app_iff. left. apply LD. exact I.
  - destruct F as [F _]. apply mixed_text_iff; [eapply rule_in_rules; exact S|]. apply M. apply F. exists c. auto.
Qed.
Lemma fit_sign : forall x w c, cunit_ok x -> unit_fits x w -> all_legal w -> one_sign x -> In c w -> mixed_char c = false /\ forall d, In d w -> d = c.
Proof.
  intros x w c OK F L M I. destruct x as [l|rs n]; [destruct M|]. destruct M as (r & -> & M). cbn [unit_fits cunit_ok] in *. destruct F as [F _].
  assert (H : forall d, In d w -> char_rule d = Some r). { intros d J. assert (S : space_text d = r). { assert (Q : In (space_text d) [r]) by (apply F; exists d; auto). destruct Q as [->|[]]. reflexivity. } rewrite <- S. apply legal_space. apply legal_rule. unfold all_legal in L. rewrite Forall_forall in L. apply L. exact J. }
  assert (MX : in_mixed r = false). { apply Bool.not_true_is_false. intros E. apply M. apply mixed_text_iff; [eapply rule_in_rules; apply (H c I)|exact E]. }
  split; [rewrite <- (mixed_rule c r (H c I)); exact MX|]. intros d J. assert (S : in_sign_rules r = true).
  { pose proof (rule_in_rules _ _ (H c I)) as R. apply str_in_In in R. assert (X : forallb (fun r => in_mixed r || in_sign_rules r) RULES = true) by (vm_compute; reflexivity). rewrite forallb_forall in X. apply X in R. rewrite MX in R. exact R. }
  apply (sign_rule_inj d c r (H d J) (H c I) S).
Qed.

Lemma mixed_cut_form : forall us ws, Forall cunit_ok us -> Forall all_legal ws -> Forall2 unit_fits us ws ->
  Forall (fun w => w <> [] /\ forall x y, In x w -> In y w -> mixed_with x y) ws -> blocks_apart ws -> mixed_form us.
Proof.
  intros us ws OK L F. induction F as [|x w us ws H F IH]; intros W BA; [exact Logic.I|]. inversion OK as [|? ? O1 O2]; subst. inversion L as [|? ? L1 L2]; subst. inversion W as [|? ? [N1 W1] W2]; subst.
  cbn [mixed_form blocks_apart] in *. destruct BA as [B1 B2]. split; [|split; [|apply IH; assumption]].
  - destruct x as [l|rs n]; [left; exact Logic.I|]. cbn [all_mixed one_sign unit_fits cunit_ok] in *. destruct H as [H _].
    assert (SP : forall c, In c w -> char_rule c = Some (space_text c)). { intros c I. apply legal_space. apply legal_rule. unfold all_legal in L1. rewrite Forall_forall in L1. apply L1. exact I. }
    destruct w as [|c w]; [congruence|]. destruct (mixed_char c) eqn:M.
    + left. intros r I. apply H in I. destruct I as (d & I & <-). pose proof (SP d I) as S. apply mixed_text_iff; [eapply rule_in_rules; exact S|]. rewrite (mixed_rule d _ S).
      destruct (proj1 (mixed_with_iff c d) (W1 c d (or_introl eq_refl) I)) as [[_ E]| <-]; assumption.
    + right. exists (space_text c). assert (ALL : forall d, In d (c :: w) -> d = c). { intros d I. destruct (proj1 (mixed_with_iff c d) (W1 c d (or_introl eq_refl) I)) as [[E _]| <-]; [congruence|reflexivity]. }
      split.
      * destruct O1 as (NE & SS & _). destruct rs as [|r [|r' rs]]; [congruence| |].
        -- f_equal. destruct (proj1 (H r) (or_introl eq_refl)) as (d & I & <-). rewrite (ALL d I). reflexivity.
        -- exfalso. destruct (proj1 (H r) (or_introl eq_refl)) as (d & I & E). destruct (proj1 (H r') (or_intror (or_introl eq_refl))) as (d' & I' & E'). rewrite (ALL d I) in E. rewrite (ALL d' I') in E'.
           apply StronglySorted_inv in SS. destruct SS as [_ SS]. apply Forall_inv in SS. rewrite <- E, <- E' in SS. rewrite str_ltb_irrefl in SS. discriminate.
      * intros I. pose proof (SP c (or_introl eq_refl)) as S. apply mixed_text_iff in I; [|eapply rule_in_rules; exact S]. rewrite (mixed_rule c _ S) in I. congruence.
  - destruct F as [|y w' us ws H' F]; [exact Logic.I|]. intros [M1 M2]. inversion O2; inversion L2; inversion W2 as [|? ? [N2 _] _]; subst.
    destruct w as [|a w]; [congruence|]. destruct w' as [|b w']; [congruence|]. apply (B1 a b (or_introl eq_refl) (or_introl eq_refl)). apply mixed_with_iff. left.
    split; [eapply fit_mixed; [exact O1|exact H|assumption|assumption|left; reflexivity]|eapply fit_mixed; [|exact H'|eassumption|exact M2|left; reflexivity]; assumption].
Qed.
Lemma one_rule_x : forall x, xok x -> (match uc x with CLit _ => True | CCls rs _ => length rs <= 1 end) -> exists rw, uruns x = [rw].
Proof.
  intros [rw|w g] (OK & RO & AD & L & R & B) H; cbn [uruns uc] in *; [eauto|]. assert (N : cat g <> []) by (intros E; apply OK; apply cat_nil; assumption).
  pose proof (cset_non _ L N) as CN. destruct (cset (cat g)) as [|r [|r' l]] eqn:E; [congruence| |cbn in H; lia].
  unfold cset, pp_of in E. cbn [rules] in E. rewrite R in E. destruct (one_rule_one_run g r AD E) as (x & -> & _). eauto.
Qed.
Lemma form_mixed_cut : forall xs, Forall xok xs -> adj' (List.concat (map uruns xs)) -> mixed_form (map uc xs) -> blocks_apart (map (fun x => cat (uruns x)) xs)
  /\ Forall (fun w => w <> [] /\ forall x y, In x w -> In y w -> mixed_with x y) (map (fun x => cat (uruns x)) xs).
Proof.
  induction xs as [|x xs IH]; intros X AD M; [split; [exact Logic.I|constructor]|]. inversion X as [|? ? X1 X2]; subst. cbn [map List.concat mixed_form blocks_apart] in *.
  destruct M as (M1 & M2 & M3). destruct (IH X2 (adj'_app_r _ _ AD) M3) as [I1 I2]. pose proof (uc_ok x X1) as O1. pose proof (uc_fits x X1) as F1. pose proof X1 as (K1 & RO1 & AD1 & L1 & R1 & B1). split; [split; [|exact I1]|constructor; [|exact I2]].
  - destruct xs as [|y xs]; [exact Logic.I|]. cbn [map] in *. intros a b Ia Ib W. apply mixed_with_iff in W. inversion X2 as [|? ? Y1 _]; subst. pose proof (uc_ok y Y1) as O2. pose proof (uc_fits y Y1) as F2. pose proof Y1 as (_ & RO2 & AD2 & L2 & R2 & B2).
    cbn [mixed_form] in M3. destruct M3 as (M3 & _). destruct M1 as [M1|M1], M3 as [M3|M3].
    + apply M2. auto.
    + pose proof (fit_mixed _ _ a O1 F1 L1 M1 Ia). destruct (fit_sign _ _ b O2 F2 L2 M3 Ib) as [E _]. destruct W as [[_ W]| ->]; congruence.
    + pose proof (fit_mixed _ _ b O2 F2 L2 M3 Ib). destruct (fit_sign _ _ a O1 F1 L1 M1 Ia) as [E _]. destruct W as [[W _]| ->]; congruence.
    + destruct (fit_sign _ _ a O1 F1 L1 M1 Ia) as [E _]. destruct W as [[W _]| ->]; [congruence|].
      destruct (one_rule_x x X1) as (rw & E1). { destruct (uc x); [exact Logic.I|]. destruct M1 as (r & -> & _). cbn. lia. }
      destruct (one_rule_x y Y1) as (rw' & E2). { destruct (uc y); [exact Logic.I|]. destruct M3 as (r & -> & _). cbn. lia. }
      cbn [map List.concat] in AD. rewrite E1, E2 in *. cbn [app adj'] in AD. destruct AD as [AD _]. rewrite cat1 in *. apply Forall_inv in RO1, RO2. apply AD. rewrite <- (run_sp rw b RO1 Ia). apply run_sp; assumption.
  - split; [intros E; apply cat_nil in E; [|exact RO1]; destruct x; cbn in *; [discriminate|contradiction]|].
    intros a b Ia Ib. apply mixed_with_iff. destruct M1 as [M1|M1].
    + left. split; eapply fit_mixed; eauto.
    + right. destruct (fit_sign _ _ b O1 F1 L1 M1 Ib) as [_ E]. apply E. exact Ia.
Qed.
Lemma parts_legal : forall s xs, all_legal s -> List.concat xs = s -> Forall all_legal xs.
Proof.
  intros s xs L E. apply Forall_forall. intros w I. unfold all_legal in *. rewrite Forall_forall in *. intros c J. apply L. rewrite <- E. apply in_concat. eauto.
Qed.
Lemma takes_findable : forall b P us s, all_legal s -> reads P us -> takes b P s -> findable b us s.
Proof.
  intros b P us s L R (us' & ws & R' & C & F). rewrite (reads_unique _ _ _ R' R) in *. destruct us as [|x [|y us]]; [left; cbn; lia..|]. right. cbn [cut_for] in C.
  destruct C as [(A & D & C)|(A & [[O _]|[O (E & W & BA)]])]; [left; eauto|right; auto|]. right. split; [exact A|]. right.
  eapply mixed_cut_form; [apply R|eapply parts_legal; [exact L|exact E]|exact F|exact W|exact BA].
Qed.
Lemma findable_takes : forall b P xs s, all_legal s -> ~ In 92%N s -> upat s P xs -> findable b (map uc xs) s -> takes b P s.
Proof.
  intros b P xs s L B U H. destruct (own_reads s P xs L B U) as [R F]. destruct (xok_all s P xs L B U) as (X & AD & C). exists (map uc xs).
  destruct (Nat.le_gt_cases (length xs) 1) as [LE|GT].
  { destruct xs as [|x [|y xs]]; [| |cbn in LE; lia].
    - exists []. split; [exact R|]. split; [|constructor]. cbn [map cut_for]. right. split; [intros (_ & a & n & e & E & _); discriminate|]. left. split; [constructor|]. cbn in C. subst s. split; [reflexivity|]. split; [constructor|exact Logic.I].
    - exists [s]. split; [exact R|]. split; [reflexivity|]. cbn [map List.concat] in C, F. rewrite app_nil_r in C. rewrite C in F. exact F. }
  assert (LX : length (map uc xs) = length xs) by apply map_length.
  exists (map (fun x => cat (uruns x)) xs). split; [exact R|]. split; [|exact F].
  assert (G : (b = true /\ dotted (map uc xs) /\ dot_cut s (map (fun x => cat (uruns x)) xs)) \/
         (~ (b = true /\ dotted (map uc xs)) /\
           ((Forall one_space (map uc xs) /\ maximal_runs s (map (fun x => cat (uruns x)) xs)) \/ (~ Forall one_space (map uc xs) /\ mixed_cut s (map (fun x => cat (uruns x)) xs))))); [|destruct (map uc xs) as [|? [|? ?]]; [cbn in LX; lia..|exact G]].
  destruct H as [H|[(HB & HD & ws & HC)|(HN & H)]]; [lia| |].
  - left. split; [exact HB|]. split; [exact HD|]. apply (dot_cut_iff s ws L) in HC. destruct HC as [-> (n & d & e & LF & NE)].
    apply dot_cut_iff; [exact L|]. split; [|eauto]. destruct HD as (a & k & ec & E & EC).
    destruct xs as [|x1 [|x2 [|x3 [|? ?]]]]; try discriminate. cbn [map] in E. injection E as E1 E2 E3. pose proof (Forall_inv X) as X1. pose proof (Forall_inv (Forall_inv_tail X)) as X2. pose proof (Forall_inv (Forall_inv_tail (Forall_inv_tail X))) as X3. subst a ec.
    destruct (one_rule_x x2 X2) as (rw & ER). { rewrite E2. cbn. lia. }
    assert (DR : fst rw = R_DOT). { pose proof (uc_fits x2 X2) as F2. rewrite E2, ER, cat1 in F2. destruct F2 as [F2 _]. destruct X2 as (_ & RO & _). rewrite ER in RO. apply Forall_inv in RO.
      destruct (proj1 (F2 (u "\.")) (or_introl eq_refl)) as (c & I & SP). rewrite <- (run_sp rw c RO I). exact SP. }
    assert (AL : alnums (uruns x3)).
    { pose proof (uc_fits x3 X3) as F3. pose proof (uc_ok x3 X3) as O3. destruct X3 as (_ & RO & _ & L3 & _). unfold alnums. apply Forall_forall. intros rw' I. rewrite Forall_forall in RO. specialize (RO rw' I).
      destruct rw' as [r w]. destruct RO as [N FR]. cbn [fst snd] in *. destruct w as [|c w]; [congruence|]. assert (IC : In c (cat (uruns x3))) by (apply in_cat; exists (r, c :: w); split; [exact I|left; reflexivity]).
      pose proof (Forall_inv FR) as HR. cbv beta in HR. destruct (uc x3) as [l|rs q].
      - cbn [unit_fits] in F3. subst l. destruct O3 as (_ & O3 & _). rewrite Forall_forall in O3. apply (alnum_ld c r HR). apply O3. exact IC.
      - apply da_three. apply EC. destruct F3 as [F3 _]. apply F3. exists c. split; [exact IC|]. assert (LG : legal c) by (apply legal_rule; eauto). rewrite (legal_space c LG) in HR. congruence. }
    assert (RS : runs s = uruns x1 ++ rw :: uruns x3). { destruct U as (U & _ & _). cbn [map List.concat] in U. rewrite ER, app_nil_r in U. symmetry. exact U. }
    assert (Q : forall (n1 n2 : list run) d1 d2 e1 e2, alnums e1 -> alnums e2 -> fst d1 = R_DOT -> fst d2 = R_DOT -> n1 ++ d1 :: e1 = n2 ++ d2 :: e2 -> n1 = n2 /\ d1 = d2 /\ e1 = e2).
    { clear. assert (Z : forall e (n2 : list run) (d2 : run) e2 , alnums e -> fst d2 = R_DOT -> e = n2 ++ d2 :: e2 -> False).
      { intros e n2 d2 e2 A D E. unfold alnums in A. rewrite E in A. apply Forall_app in A. destruct A as [_ A]. apply Forall_inv in A. rewrite D, dot_not_alnum in A. discriminate. }
      induction n1 as [|x n1 IH]; intros [|y n2] d1 d2 e1 e2 A1 A2 D1 D2 E; cbn [app] in E; inversion E; subst; auto.
      - exfalso. eapply (Z _ n2 d2 e2 A1 D2). reflexivity.
      - exfalso. eapply (Z _ n1 d1 e1 A2 D1). reflexivity.
      - destruct (IH n2 d1 d2 e1 e2 A1 A2 D1 D2) as (-> & -> & ->); auto. }
    pose proof (g_ldsf_form s n d e LF) as GF. destruct LF as (LF1 & LF2 & LF3 & LF4). rewrite LF1 in RS. destruct (Q _ _ _ _ _ _ LF3 AL LF2 DR RS) as (-> & -> & ->).
    rewrite GF. unfold ldsf_of. cbn [map]. rewrite ER. destruct (uruns x3); [congruence|]. reflexivity.
  - right. split; [exact HN|]. destruct (Forall_dec one_space) with (l := map uc xs) as [O|O]; [intros [l|rs k]; cbn [one_space]; [left; exact Logic.I|apply le_dec]| |].
    + left. split; [exact O|]. apply multi_cut; [exact L|]. destruct U as (U & _ & _). unfold g_multi. rewrite <- U. rewrite Forall_map in O. clear - O X. induction X as [|x xs X1 X IH]; [reflexivity|].
      inversion O as [|? ? O1 O2]; subst. destruct (one_rule_x x X1) as (rw & E). { destruct (uc x); [exact Logic.I|exact O1]. }
      cbn [map List.concat]. rewrite E. cbn [app map]. f_equal. apply IH. exact O2.
    + right. split; [exact O|]. destruct H as [H|H]; [contradiction|]. destruct (form_mixed_cut xs X AD H) as [I1 I2]. split; [exact C|]. split; assumption.
Qed.

(** ** patterns of clusters are canonical *)
Definition gitem (g : list run) (xg : list uitem) : Prop := xg = map UL g \/ (g <> [] /\ exists w, xg = [UC w g]).
Lemma group_items : forall s gs Ps, all_legal s -> groups s gs -> FlatCluster.fits (map cat gs) Ps -> exists xss, Forall2 gitem gs xss /\ upat s (List.concat Ps) (List.concat xss).
Proof.
  intros s gs Ps L G F. pose proof (groups_ok s gs L G) as GO. unfold groups in G.
  assert (X : exists xss, Forall2 gitem gs xss /\ List.concat (map uruns (List.concat xss)) = List.concat gs /\ Forall uok (List.concat xss) /\ List.concat Ps = List.concat (map ustr (List.concat xss))).
  { clear G. revert Ps F. induction GO as [|g gs [R LG] GO IH]; intros Ps F.
    - inversion F; subst. exists []. split; [constructor|]. split; [reflexivity|]. split; [constructor|reflexivity].
    - cbn [map] in F. inversion F as [|? q ? Ps' H F']; subst. destruct (IH Ps' F') as (xss & A0 & A & B & C). destruct H as (k & K & ->).
      assert (NE : k <> KLit -> g <> []). { intros NK ->. destruct k; [congruence|destruct K as [K _]; apply K; reflexivity|apply K; reflexivity]. }
      assert (CS : forall w, g <> [] -> ustr (UC w g) = pstr (cat g) k -> exists xss, Forall2 gitem (g :: gs) xss /\ List.concat (map uruns (List.concat xss)) = List.concat (g :: gs) /\ Forall uok (List.concat xss) /\ List.concat (pstr (cat g) k :: Ps') = List.concat (map ustr (List.concat xss))).
      { intros w N E. exists ([UC w g] :: xss). split; [constructor; [right; eauto|exact A0]|]. cbn [List.concat app map]. rewrite A, C, E. split; [reflexivity|]. split; [constructor; [exact N|exact B]|reflexivity]. }
      destruct k; [|apply (CS false); [apply NE; discriminate|reflexivity]|apply (CS true); [apply NE; discriminate|reflexivity]]. clear CS.
      exists (map UL g :: xss). split; [constructor; [left; reflexivity|exact A0]|]. cbn [List.concat]. rewrite !map_app, !concat_app, A. split.
      + f_equal. rewrite map_map. clear. induction g as [|x g IH]; [reflexivity|]. cbn [map List.concat uruns app] in *. f_equal. exact IH.
      + split; [apply Forall_app; split; [|exact B]; rewrite Forall_map; apply Forall_forall; intros; exact Logic.I|].
        rewrite C. f_equal. cbn [pstr]. unfold piece, pp_of. cbn [pieces]. rewrite R, map_map. reflexivity. }
  destruct X as (xss & A0 & A & B & C). exists xss. split; [exact A0|]. split; [congruence|]. split; assumption.
Qed.
Lemma cset_one : forall rw, run_ok rw -> cset (cat [rw]) = [fst rw].
Proof. intros rw H. unfold cset, pp_of. cbn [rules]. rewrite runs_cat; [reflexivity|constructor; [exact H|constructor]|cbn; auto]. Qed.
Lemma vpat_canonical : forall lp s P, all_legal s -> ~ In 92%N s -> (lp = true -> ~ In 47%N s) -> vpat lp s P -> exists xs, upat s P xs /\ canonical P.
Proof.
  intros lp s P L B SL (gs & Ps & V & F & ->). destruct (group_items s gs Ps L (vgrps_groups _ _ _ V) F) as (xss & A & U). exists (List.concat xss). split; [exact U|].
  destruct (own_reads _ _ _ L B U) as [R _]. exists (map uc (List.concat xss)). split; [exact R|]. intros LEN. rewrite map_length in LEN. rewrite Forall_map. apply Forall_forall. intros x I.
  destruct (runs_spec s L) as (RO & _ & _). pose proof (vgrps_groups _ _ _ V) as G. unfold groups in G.
  destruct x as [rw|w g]; cbn [uc]; [destruct (in_sign_rules (fst rw)); [|exact Logic.I]; intros [->|[]]; reflexivity|]. intros SI.
  assert (IG : In g gs /\ (gs = [g] -> length (List.concat xss) = 1)).
  { clear - A I. induction A as [|g0 xg gs xss H A IH]; [destruct I|]. cbn [List.concat] in I. apply in_app_or in I. destruct I as [I|I].
    - destruct H as [->|[_ [w' ->]]]; [apply in_map_iff in I; destruct I as (? & ? & _); discriminate|]. destruct I as [I|[]]. inversion I; subst. split; [left; reflexivity|]. intros E. assert (gs = []) by congruence. subst gs. inversion A; subst. reflexivity.
    - destruct (IH I) as [I1 I2]. split; [right; exact I1|]. intros E. assert (gs = []) by congruence. subst gs. destruct I1. }
  destruct IG as [IG IL]. assert (RG : Forall run_ok g). { apply Forall_forall. intros rw J. rewrite Forall_forall in RO. apply RO. rewrite <- G. apply in_concat. eauto. }
  assert (ONE : forall rw, g = [rw] -> cset (cat g) = [u "/"]). { intros rw ->. apply Forall_inv in RG. rewrite cset_one in * by exact RG. destruct SI as [->|[]]. reflexivity. }
  destruct V as [->|[->|[->|[LP _]]]].
  - exfalso. destruct IG as [<-|[]]. specialize (IL eq_refl). lia.
  - unfold g_multi in IG. apply in_map_iff in IG. destruct IG as (rw & E & _). apply (ONE rw). symmetry. exact E.
  - assert (Q : forallb rmix g = true \/ exists rw, g = [rw]).
    { unfold g_mixed in IG. revert IG. clear. generalize (runs s). intros l I. pose proof (blocks_grp _ rmix l) as BL. revert BL I. generalize (grp rmix l). generalize false. intros b bs. revert b.
      induction bs as [|g0 bs IH]; intros b BL I; [destruct I|]. cbn [blocks] in BL. destruct BL as [_ [(B1 & _ & B2)|(x & B1 & _ & B2)]]; (destruct I as [->|I]; [eauto|eapply IH; [exact B2|exact I]]). }
    destruct Q as [Q|[rw Q]]; [|apply (ONE rw Q)]. exfalso. rewrite forallb_forall in Q. 
    assert (LG : all_legal (cat g)) by (unfold all_legal in *; rewrite Forall_forall in *; intros c J; apply in_cat in J; destruct J as (rw & J1 & J2); specialize (RG rw J1); destruct RG as [_ RG]; rewrite Forall_forall in RG; eexists; apply RG; exact J2).
    apply (proj1 (cset_chars _ _ LG)) in SI. destruct SI as (c & J & HR). apply in_cat in J. destruct J as (rw & J1 & J2). specialize (Q rw J1). unfold rmix in Q. rewrite Forall_forall in RG. destruct (RG rw J1) as [_ FR]. rewrite Forall_forall in FR. rewrite (FR c J2) in HR. inversion HR as [E]. rewrite E in Q. discriminate.
  - exfalso. apply (SL LP). assert (LG : all_legal (cat g)) by (unfold all_legal in *; rewrite Forall_forall in *; intros c J; apply in_cat in J; destruct J as (rw & J1 & J2); specialize (RG rw J1); destruct RG as [_ RG]; rewrite Forall_forall in RG; eexists; apply RG; exact J2).
    apply (proj1 (cset_chars _ _ LG)) in SI. destruct SI as (c & J & HR). assert (c = 47%N) by (apply (sign_rule_inj c 47%N (u "/")); [exact HR|reflexivity|reflexivity]). subst c.
    apply in_cat in J. destruct J as (rw & J1 & J2). rewrite <- (cat_runs s L). apply in_cat. exists rw. split; [|exact J2]. rewrite <- G. apply in_concat. eauto.
Qed.

(** ** C27 *)
Lemma own_cluster : forall nv h mcn cs m t nodes, (2 <= mcn)%Z -> make mcn (loads nv h) = Ok cs -> no_bs nv h -> In (m, t) cs -> In nodes (paths t) ->
  exists raw, path_pieces nodes = map piece_of raw /\ Forall all_legal raw /\ Forall (fun w => ~ In 92%N w) raw /\ length (path_patterns nodes) = length raw
    /\ analyze_url_pattern_string (cluster_pattern (m, t)) = Ok (m, path_patterns nodes)
    /\ forall i w P, nth_error raw i = Some w -> nth_error (path_patterns nodes) i = Some P -> exists xs, upat w P xs /\ canonical P.
Proof.
  intros nv h mcn cs m t nodes M E NB I IN. destruct (cluster_path nv h mcn cs m t M E I) as (Ps & sid & mk & L & IM & EM & PP & PR & _).
  destruct (PR nodes IN) as (raw & EP & LR & IR & F2 & VP). exists raw. split; [exact EP|]. split; [exact LR|].
  destruct (c18_paths nv h sid mk IM) as (_ & _ & _ & PF). destruct (PF raw raw IR IR) as (_ & _ & _ & me & A). rewrite EM in A. apply in_accepted in A. destruct A as (url & IU & A).
  pose proof (NB url me m raw IU A) as NR. split; [exact NR|]. apply url_path_parse in A. destruct A as (A & _ & _). rewrite (PP nodes IN).
  assert (LP : length Ps = length raw) by (symmetry; apply VP). split; [exact LP|]. split.
  - destruct (opats_parse (path_depth m) raw Ps LR NR F2 1) as (mps & _ & _ & _ & E4). unfold cluster_pattern. cbn [fst snd].
    assert (HD : In (hd [] (paths t)) (paths t)) by (destruct (paths t); [destruct IN|left; reflexivity]). rewrite (PP _ HD). exact (c11 _ _ _ _ _ A E4).
  - intros i w P N1 N2. destruct VP as [_ VP]. apply (vpat_canonical (path_depth m =? S i) w P).
    + rewrite Forall_forall in LR. apply LR. eapply nth_error_In. exact N1.
    + rewrite Forall_forall in NR. apply NR. eapply nth_error_In. exact N1.
    + intros Q. apply Nat.eqb_eq in Q. apply c09 in A. destruct A as (pp & vs & fr & -> & PD & _ & _ & _ & _ & FP & _).
      rewrite nth_error_app1 in N1 by lia. apply nth_error_In in N1. rewrite Forall_forall in FP. apply FP in N1. apply N1.
    + apply (VP i w P N1 N2).
Qed.
Lemma pack_slash : forall m Ps, startswith (pack m Ps) (u "/") = true.
Proof. intros m Ps. unfold pack. change (u "/") with [SLASH]. cbn [startswith]. match goal with |- context [startswith ?x []] => destruct x end; reflexivity. Qed.
Lemma c27_gen : forall nv h mcn cs hp url m raw t nodes me', (2 <= mcn)%Z -> make mcn (loads nv h) = Ok cs -> no_bs nv h ->
  (forall s me, In (s, me) hp -> In s (map cluster_pattern cs)) ->
  url_path nv url = Some (m, raw) -> Forall (fun w => ~ In 92%N w) raw -> In (m, t) cs -> In nodes (paths t) -> path_pieces nodes = map piece_of raw ->
  In (cluster_pattern (m, t), me') hp ->
  exists fs uss, match_url nv (mloads nv hp) url = Ok fs /\ Forall2 reads (path_patterns nodes) uss /\
    (In (path_patterns nodes) (parts_of fs) <-> forall i us w, nth_error uss i = Some us -> nth_error raw i = Some w -> findable (S i =? path_depth m) us w).
Proof.
  intros nv h mcn cs hp url m raw t nodes me' M E NB HP U NR I IN EP IP.
  assert (AC : accepted_canonical nv hp).
  { intros s me0 b m0 Ps0 IS _ A. apply HP in IS. apply in_map_iff in IS. destruct IS as ([m1 t1] & <- & I1).
    destruct (c20_count nv h mcn cs m1 t1 M E I1) as [_ NP].
    assert (HD : In (hd [] (paths t1)) (paths t1)) by (destruct (paths t1); [congruence|left; reflexivity]).
    destruct (own_cluster nv h mcn cs m1 t1 _ M E NB I1 HD) as (raw1 & _ & _ & _ & LL & A1 & H). rewrite A1 in A. inversion A; subst. apply Forall_forall. intros P IP0. apply In_nth_error in IP0. destruct IP0 as [i N].
    assert (exists w, nth_error raw1 i = Some w) as [w W]. { destruct (nth_error raw1 i) eqn:Z; [eauto|]. apply nth_error_None in Z. assert (i < length raw1) by (rewrite <- LL; apply nth_error_Some; congruence). lia. }
    destruct (H i w P W N) as (_ & _ & C). exact C. }
  destruct (c28 nv hp url m raw U NR AC) as (fs & EF & _ & ME). destruct (own_cluster nv h mcn cs m t nodes M E NB I IN) as (raw' & EP' & LR' & _ & LL & A & H).
  pose proof (url_path_parse _ _ _ _ U) as (_ & LR & _).
  assert (raw' = raw) by (apply pieces_inj; [exact LR'|exact LR|congruence]). subst raw'.
  assert (Q : exists xss, length xss = length raw /\ forall i xs w P, nth_error xss i = Some xs -> nth_error raw i = Some w -> nth_error (path_patterns nodes) i = Some P -> upat w P xs).
  { revert LL H. generalize (path_patterns nodes). clear. induction raw as [|w raw IH]; intros [|P Ps] LL H; try discriminate.
    - exists []. split; [reflexivity|]. intros [|i] xs w P N; discriminate.
    - destruct (IH Ps) as (xss & L1 & H1); [cbn in LL; lia|intros i; apply (H (S i))|]. destruct (H 0 w P eq_refl eq_refl) as (xs & U & _). exists (xs :: xss). split; [cbn; lia|].
      intros [|i] xs' w' P'; cbn [nth_error]; [congruence|]. apply H1. }
  destruct Q as (xss & LX & HX). exists fs, (map (map uc) xss). split; [exact EF|].
  assert (RD : Forall2 reads (path_patterns nodes) (map (map uc) xss)).
  { apply forall2_nth. split; [rewrite map_length; lia|]. intros i P us N1 N2. rewrite nth_error_map in N2. destruct (nth_error xss i) as [xs|] eqn:N3; [|discriminate]. cbn [option_map] in N2. inversion N2; subst.
    destruct (nth_error raw i) as [w|] eqn:N4; [|apply nth_error_None in N4; assert (i < length (path_patterns nodes)) by (apply nth_error_Some; congruence); lia].
    rewrite Forall_forall in LR, NR. eapply own_reads; [apply LR; eapply nth_error_In; exact N4|apply NR; eapply nth_error_In; exact N4|eapply HX; eassumption]. }
  split; [exact RD|]. rewrite (ME (path_patterns nodes)). split.
  - intros (s & me0 & IS & _ & A0 & _ & T) i us w N1 N2. assert (exists P, nth_error (path_patterns nodes) i = Some P) as [P N3]. { destruct (nth_error (path_patterns nodes) i) eqn:Z; [eauto|]. apply nth_error_None in Z. assert (i < length raw) by (apply nth_error_Some; congruence). lia. }
    eapply takes_findable; [rewrite Forall_forall in LR; apply LR; eapply nth_error_In; exact N2| |exact (T i P w N3 N2)].
    exact (proj2 (proj1 (forall2_nth _ _ _ _ _) RD) i P us N3 N1).
  - intros T. exists (cluster_pattern (m, t)), me'. split; [exact IP|]. split; [apply pack_slash|]. split; [exact A|]. split; [exact LL|]. intros i P w N1 N2.
    assert (exists xs, nth_error xss i = Some xs) as [xs N3]. { destruct (nth_error xss i) eqn:Z; [eauto|]. apply nth_error_None in Z. assert (i < length raw) by (apply nth_error_Some; congruence). lia. }
    rewrite Forall_forall in LR, NR. eapply findable_takes; [apply LR; eapply nth_error_In; exact N2|apply NR; eapply nth_error_In; exact N2|eapply HX; eassumption|].
    apply T; [rewrite nth_error_map, N3; reflexivity|exact N2].
Qed.
Theorem c27 : forall nv h mcn cs hp url me m raw t nodes me', (2 <= mcn)%Z -> make mcn (loads nv h) = Ok cs -> no_bs nv h ->
  (forall s me, In (s, me) hp -> In s (map cluster_pattern cs)) ->
  In (url, me) h -> url_path nv url = Some (m, raw) -> In (m, t) cs -> In nodes (paths t) -> path_pieces nodes = map piece_of raw ->
  In (cluster_pattern (m, t), me') hp ->
  exists fs uss, match_url nv (mloads nv hp) url = Ok fs /\ Forall2 reads (path_patterns nodes) uss /\
    (In (path_patterns nodes) (parts_of fs) <-> forall i us w, nth_error uss i = Some us -> nth_error raw i = Some w -> findable (S i =? path_depth m) us w).
Proof.
  intros nv h mcn cs hp url me m raw t nodes me' M E NB HP IU U. exact (c27_gen nv h mcn cs hp url m raw t nodes me' M E NB HP U (NB url me m raw IU U)).
Qed.
