(** The pieces that a canonical pattern takes, and what the matcher accepts (C28). *)
From Coq Require Import String.
From Verif Require Import PyStr Defs UrlLib ParseUtils Spec Views Trees Patterns Matcher Observe MatchSpec PyStrProofs DefsProofs DictProofs RegexProofs PieceProofs LengthProofs UnitProofs BridgeProofs LoadProofs EntProofs TokProofs FlatCluster ViewProofs KeyProofs PatUnits MatchVms MatchTree MatchSem MatchLevel MatchNest MatchDigest MatchUnits MatchKeys MatchSound MatchTop MatchExact.
From Coq Require Import Lia Sorted Permutation.

(** ** cutting a piece *)
Lemma mixed_cut_unique : forall s ws ws', mixed_cut s ws -> mixed_cut s ws' -> ws = ws'.
Proof.
  intros s ws. revert s. induction ws as [|w ws IH]; intros s ws' (E & F & A) (E' & F' & A').
  - simpl in E. subst s. destruct ws' as [|w' ws']; auto. inversion F' as [|? ? [Hn _] _]; subst.
    destruct w'; simpl in E'; congruence.
  - destruct ws' as [|w' ws'].
    { simpl in E'. subst s. inversion F as [|? ? [Hn _] _]; subst. destruct w; simpl in *; congruence. }
    assert (X : w = w').
    { inversion F as [|? ? [Hn Hs] Ft]; subst. inversion F' as [|? ? [Hn' Hs'] Ft']; subst.
      simpl in E'. destruct A as [A1 _], A' as [A1' _].
      assert (G : forall (w w' : str) (ws ws' : list str), w <> [] -> w' <> [] ->
         (forall x y, In x w -> In y w -> mixed_with x y) -> (forall x y, In x w' -> In y w' -> mixed_with x y) ->
         Forall (fun w => w <> [] /\ forall x y, In x w -> In y w -> mixed_with x y) ws ->
         match ws with b :: _ => forall x y, In x w -> In y b -> ~ mixed_with x y | [] => True end ->
         w ++ List.concat ws = w' ++ List.concat ws' -> forall t, w' = w ++ t -> t = []).
      { clear. intros w w' ws ws' Hn Hn' Hs Hs' F A E t ->. destruct t as [|c t]; auto. exfalso.
        rewrite <- app_assoc in E. apply app_inv_head in E. simpl in E.
        destruct ws as [|b ws]; [discriminate|]. inversion F as [|? ? [Hb _] _]; subst.
        destruct b as [|d b]; [congruence|]. simpl in E. inversion E; subst.
        destruct w as [|x w]; [congruence|].
        apply (A x c); simpl; auto. apply Hs'; simpl; auto. right. apply in_or_app. simpl; auto. }
      assert (P : forall (a b c d : str), a ++ b = c ++ d -> (exists t, c = a ++ t) \/ (exists t, a = c ++ t)).
      { clear. induction a as [|x a IH]; intros b c d E; [left; exists c; auto|].
        destruct c as [|y c]; [right; exists (x :: a); auto|]. simpl in E. inversion E as [[E1 E2]]; subst.
        destruct (IH _ _ _ E2) as [[t ->]|[t ->]]; [left|right]; exists t; auto. }
      symmetry in E'. destruct (P _ _ _ _ E') as [[t Ht]|[t Ht]].
      - rewrite (G w w' ws ws' Hn Hn' Hs Hs' Ft A1 E' t Ht), app_nil_r in Ht. auto.
      - symmetry in E'. rewrite (G w' w ws' ws Hn' Hn Hs' Hs Ft' A1' E' t Ht), app_nil_r in Ht. auto. }
    subst w'. f_equal. simpl in *. inversion F; inversion F'; subst.
    apply (IH (List.concat ws)); repeat split; auto; try tauto. apply app_inv_head in E'. auto.
Qed.

Lemma multi_cut : forall s ws, all_legal s -> (maximal_runs s ws <-> ws = map cat (g_multi s)).
Proof.
  intros s ws L. assert (E : map cat (g_multi s) = map snd (runs s)). { unfold g_multi. rewrite map_map. apply map_ext. intros x. unfold cat. cbn. apply app_nil_r. }
  rewrite E. split; [intros M; apply (maximal_runs_unique s); [exact M|apply runs_maximal; exact L]|intros ->; apply runs_maximal; exact L].
Qed.
Definition mixed_char (c : char) : bool := char_in c (letters_digits ++ u "%").
Lemma mixed_rule : forall c r, char_rule c = Some r -> in_mixed r = mixed_char c.
Proof.
  intros c r H. assert (L : legal c) by (apply legal_rule; eauto). rewrite (legal_space c L) in H. inversion H; subst. clear H.
  assert (X : forallb (fun c => Bool.eqb (in_mixed (space_text c)) (mixed_char c)) legal_chars = true) by (vm_compute; reflexivity).
  rewrite forallb_forall in X. apply X in L. apply Bool.eqb_prop in L. exact L.
Qed.
Lemma mixed_with_iff : forall a b, mixed_with a b <-> (mixed_char a = true /\ mixed_char b = true) \/ a = b.
Proof. intros a b. unfold mixed_with, mixed_char. rewrite !char_in_In. reflexivity. Qed.
Lemma run_mixed : forall rw c, run_ok rw -> In c (snd rw) -> mixed_char c = rmix rw.
Proof. intros rw c [_ F] I. rewrite Forall_forall in F. specialize (F c I). symmetry. unfold rmix. apply mixed_rule. exact F. Qed.
Lemma in_cat : forall g c, In c (cat g) <-> exists rw, In rw g /\ In c (snd rw).
Proof.
  intros g c. unfold cat. rewrite in_concat. split.
  - intros (w & I & J). apply in_map_iff in I. destruct I as (rw & <- & I). eauto.
  - intros (rw & I & J). exists (snd rw). split; [apply in_map; exact I|exact J].
Qed.
Lemma sign_run_chars : forall rw c d, run_ok rw -> rmix rw = false -> In c (snd rw) -> In d (snd rw) -> c = d.
Proof.
  intros rw c d [_ F] M I J. rewrite Forall_forall in F. apply (sign_rule_inj c d (fst rw)); [apply F; exact I|apply F; exact J|].
  destruct (in_sign_rules (fst rw)) eqn:S; [reflexivity|]. assert (R : in_rules (fst rw) = true) by (eapply rule_in_rules; apply F; exact I). pose proof (sign_or_alnum _ R S) as A. apply digit_ascii_mixed in A. unfold rmix in M. congruence.
Qed.
Lemma blocks_cut : forall bs prev, blocks rmix prev bs -> Forall run_ok (List.concat bs) -> adj' (List.concat bs) ->
  Forall (fun w => w <> [] /\ forall x y, In x w -> In y w -> mixed_with x y) (map cat bs) /\ blocks_apart (map cat bs) /\
  (prev = true -> match map cat bs with [] => True | w :: _ => forall x, In x w -> mixed_char x = false end).
Proof.
  induction bs as [|b bs IH]; intros prev B F A; [repeat split; constructor|]. cbn [blocks] in B. destruct B as [N B]. cbn [List.concat] in F, A. apply Forall_app in F. destruct F as [F1 F2]. pose proof (adj'_app_r _ _ A) as A2.
  assert (NC : cat b <> []). { intros E. apply N. apply cat_nil; assumption. }
  cbn [map]. destruct B as [(B1 & -> & B3)|(x & -> & B1 & B2)].
  - destruct (IH true B3 F2 A2) as (C1 & C2 & C3). rewrite forallb_forall in B1. rewrite Forall_forall in F1.
    assert (MX : forall c, In c (cat b) -> mixed_char c = true). { intros c I. apply in_cat in I. destruct I as (rw & I & J). rewrite (run_mixed rw c); auto. }
    split; [constructor; [|exact C1]; split; [exact NC|]; intros c d I J; apply mixed_with_iff; left; split; auto|]. split; [|discriminate]. split; [|exact C2].
    specialize (C3 eq_refl). destruct (map cat bs) as [|w r]; [exact Logic.I|]. intros c d I J M. apply mixed_with_iff in M. specialize (MX c I). specialize (C3 d J). destruct M as [[_ M]|M]; congruence.
  - destruct (IH false B2 F2 A2) as (C1 & C2 & _). inversion F1 as [|? ? OX _]; subst. assert (EX : cat [x] = snd x) by (unfold cat; cbn; apply app_nil_r). rewrite EX in *.
    assert (MX : forall c, In c (snd x) -> mixed_char c = false). { intros c I. rewrite (run_mixed x c); auto. }
    split; [constructor; [|exact C1]; split; [exact NC|]; intros c d I J; apply mixed_with_iff; right; apply (sign_run_chars x); auto|]. split; [|intros _; exact MX]. split; [|exact C2].
    destruct bs as [|b2 bs]; [exact Logic.I|]. cbn [map]. intros c d I J M. apply mixed_with_iff in M. specialize (MX c I). destruct M as [[M _]|M]; [congruence|]. subst d.
    destruct b2 as [|y b2]; [destruct B2 as [Z _]; congruence|]. cbn [List.concat app] in A, F2. destruct A as [A _]. inversion F2 as [|? ? OY FY]; subst.
    apply in_cat in J. destruct J as (rw & J1 & J2). destruct B2 as [_ [(Q & _ & _)|(z & Q & _ & _)]].
    + rewrite forallb_forall in Q. specialize (Q rw J1). apply Forall_app in FY. destruct FY as [FY _]. assert (OR : run_ok rw) by (destruct J1 as [<-|J1]; [exact OY|rewrite Forall_forall in FY; auto]). rewrite <- (run_mixed rw c OR J2) in Q. congruence.
    + inversion Q; subst. destruct J1 as [->|[]]. destruct OX as [_ OX]. destruct OY as [_ OY]. rewrite Forall_forall in OX, OY. specialize (OX c I). specialize (OY c J2). congruence.
Qed.
Lemma mixed_cut_iff : forall s ws, all_legal s -> (mixed_cut s ws <-> ws = map cat (g_mixed s)).
Proof.
  intros s ws L. assert (M : mixed_cut s (map cat (g_mixed s))).
  { pose proof (runs_spec s L) as (F & A & _). destruct (blocks_cut (g_mixed s) false) as (C1 & C2 & _); [apply blocks_grp|unfold g_mixed; rewrite grp_concat; exact F|unfold g_mixed; rewrite grp_concat; exact A|].
    split; [apply groups_concat; [exact L|apply groups_mixed]|auto]. }
  split; [intros H; apply (mixed_cut_unique s); assumption|intros ->; exact M].
Qed.
Lemma alnum_ld : forall c r, char_rule c = Some r -> (in_digit_ascii r = true <-> In c letters_digits).
Proof. intros c r H. rewrite (digit_ascii_alnum c r H), <- ld_alnum, char_in_In. reflexivity. Qed.
Lemma dot_rule : char_rule 46%N = Some R_DOT.
Proof. reflexivity. Qed.
Lemma rule_dot : forall c, char_rule c = Some R_DOT -> c = 46%N.
Proof. intros c H. apply (sign_rule_inj c 46%N R_DOT); [exact H|reflexivity|reflexivity]. Qed.
Lemma legal_app : forall a b, all_legal (a ++ b) <-> all_legal a /\ all_legal b.
Proof. intros. apply Forall_app. Qed.
Lemma runs_one : forall r w, run_ok (r, w) -> runs w = [(r, w)].
Proof. intros r w H. symmetry. apply runs_of_unique. split; [constructor; [exact H|constructor]|]. split; [exact (conj Logic.I Logic.I)|]. cbn. apply app_nil_r. Qed.
(** runs of a concatenation at a border of character spaces *)
Lemma adj'_app : forall a b, adj' a -> adj' b -> (forall x y a' b', a = a' ++ [x] -> b = y :: b' -> fst x <> fst y) -> adj' (a ++ b).
Proof.
  induction a as [|x a IH]; intros b A B H; [exact B|]. cbn [app adj']. destruct A as [A1 A2]. split; [|apply IH; [exact A2|exact B|]; intros y z a' b' -> ->; apply (H y z (x :: a') b' eq_refl eq_refl)].
  destruct a as [|y a]; [|exact A1]. cbn [app]. destruct b as [|z b]; [exact Logic.I|]. apply (H x z [] b eq_refl eq_refl).
Qed.
Lemma runs_app : forall a b, all_legal a -> all_legal b -> (forall x y a' b', a = a' ++ [x] -> b = y :: b' -> ~ same_space x y) -> runs (a ++ b) = runs a ++ runs b.
Proof.
  intros a b LA LB H. symmetry. apply runs_of_unique. destruct (runs_spec a LA) as (FA & AA & CA). destruct (runs_spec b LB) as (FB & AB & CB). split; [apply Forall_app; auto|]. split; [|rewrite map_app, concat_app; congruence].
  apply adj'_app; [exact AA|exact AB|]. intros x y a' b' EA EB E. rewrite EA in *. rewrite EB in *. clear EA EB. apply Forall_app in FA. destruct FA as [_ FA]. inversion FA as [|? ? [NX FX] _]; subst. inversion FB as [|? ? [NY FY] _]; subst.
  destruct (snd x) as [|cx wx _] eqn:EX using rev_ind; [congruence|]. destruct (snd y) as [|cy wy] eqn:EY; [congruence|]. rewrite map_app, concat_app in H. cbn [map List.concat] in H. rewrite EX, EY, app_nil_r in H. 
  apply (H cx cy (List.concat (map snd a') ++ wx) (wy ++ List.concat (map snd b'))); [rewrite app_assoc; reflexivity|reflexivity|].
  apply Forall_app in FX. destruct FX as [_ FX]. inversion FX; subst. inversion FY; subst. apply (same_space_rule cx cy (fst x) (fst y)); assumption.
Qed.
Lemma dot_cut_iff : forall s ws, all_legal s -> (dot_cut s ws <-> ws = map cat (g_ldsf s) /\ exists n d e, lform s n d e /\ e <> []).
Proof.
  intros s ws L. split.
  - intros (n & d & e & -> & -> & NN & ND & FD & NE & FE & rs & RS & RL). rewrite legal_app, legal_app in L. destruct L as (LN & LD & LE).
    assert (OD : run_ok (R_DOT, d)). { split; [exact ND|]. eapply Forall_impl; [|exact FD]. intros c <-. reflexivity. }
    assert (SPD : forall c, same_space c 46%N -> all_legal [c] -> c = 46%N). { intros c S LC. inversion LC as [|? ? [r Hr] _]; subst. pose proof Hr as Hr'. apply (proj1 (same_space_rule c 46%N r R_DOT Hr dot_rule)) in S. subst r. apply rule_dot. exact Hr. }
    assert (RE : runs (d ++ e) = (R_DOT, d) :: runs e).
    { rewrite runs_app; [rewrite (runs_one R_DOT d OD); reflexivity|exact LD|exact LE|]. intros x y a' b' EA EB S. rewrite EA in FD. apply Forall_app in FD. destruct FD as [_ FD]. inversion FD as [|? ? X _]; subst x. rewrite EB in FE, LE. inversion FE as [|? ? Y _]; subst. inversion LE as [|? ? LY _]; subst.
      assert (y = 46%N). { apply SPD; [|constructor; [exact LY|constructor]]. destruct S as [[A B]|[[A B]|[[A B]|A]]]; [right|right|right|]; try (exfalso; revert A; apply (fun H => H); clear; vm_compute; intuition discriminate). right; right; right. congruence. } subst y. revert Y. clear. vm_compute. intuition discriminate. }
    assert (RN : runs (n ++ d ++ e) = runs n ++ (R_DOT, d) :: runs e).
    { rewrite runs_app; [rewrite RE; reflexivity|exact LN|apply legal_app; auto|]. intros x y a' b' EA EB S. destruct d as [|cd d]; [congruence|]. inversion FD as [|? ? X _]; subst cd. cbn [app] in EB. inversion EB; subst y. rewrite EA in LN. apply legal_app in LN. destruct LN as [_ LX].
      apply (NN a'). rewrite EA. f_equal. change (u ".") with [46%N]. f_equal. apply SPD; assumption. }
    assert (LF : lform (n ++ d ++ e) (runs n) (R_DOT, d) (runs e)).
    { split; [exact RN|]. split; [reflexivity|]. split.
      - unfold alnums. apply Forall_forall. intros rw I. destruct (runs_spec e LE) as (F & _ & C). rewrite Forall_forall in F. specialize (F rw I). destruct F as [N F]. destruct (snd rw) as [|c w] eqn:EW; [congruence|]. inversion F as [|? ? Hc _]; subst. apply (proj2 (alnum_ld c _ Hc)). rewrite Forall_forall in FE. apply FE. rewrite <- C. apply in_concat. exists (snd rw). split; [apply in_map; exact I|rewrite EW; left; reflexivity].
      - rewrite (maximal_runs_unique e rs (map snd (runs e)) RS (runs_maximal e LE)), map_length in RL. exact RL. }
    split.
    + rewrite (g_ldsf_form _ _ _ _ LF). unfold ldsf_of. assert (RNE : runs e <> []). { intros E. destruct (runs_spec e LE) as (_ & _ & C). rewrite E in C. cbn in C. congruence. }
      assert (CN : forall t, all_legal t -> cat (runs t) = t) by (intros t LT; apply (runs_spec t LT)).
      destruct (runs e) as [|r0 re] eqn:ER; [congruence|]. cbn [is_nil map]. rewrite <- ER, (CN n LN), (CN e LE). unfold cat. cbn. rewrite app_nil_r. reflexivity.
    + exists (runs n), (R_DOT, d), (runs e). split; [exact LF|]. intros E. destruct (runs_spec e LE) as (_ & _ & C). rewrite E in C. cbn in C. congruence.
  - intros (-> & n & d & e & F & NE). rewrite (g_ldsf_form _ _ _ _ F). destruct F as (R & D & A & LE). destruct (runs_spec s L) as (FR & AR & CR). rewrite R in FR, AR, CR. 
    apply Forall_app in FR. destruct FR as [FN FR]. pose proof (Forall_inv FR) as OD. pose proof (Forall_inv_tail FR) as FE.
    unfold ldsf_of. destruct e as [|x e]; [congruence|]. cbn [is_nil map]. exists (cat n), (cat [d]), (cat (x :: e)). split; [reflexivity|]. split; [rewrite <- CR; rewrite map_app, concat_app; cbn [map List.concat]; unfold cat; cbn [map List.concat]; rewrite app_nil_r; reflexivity|].
    assert (ED : cat [d] = snd d) by (unfold cat; cbn; apply app_nil_r). destruct OD as [ND FD]. rewrite D in FD. split; [|split; [|split; [|split; [|split]]]].
    + intros n' E. assert (RN : runs (cat n) = n) by (apply runs_cat; [exact FN|eapply adj'_app_l; exact AR]). destruct n as [|y n _] using rev_ind; [destruct n'; discriminate|]. apply Forall_app in FN. destruct FN as [_ FN]. inversion FN as [|? ? [NY FY] _]; subst.
      unfold cat in E. rewrite map_app, concat_app in E. cbn [map List.concat] in E. rewrite app_nil_r in E. destruct (snd y) as [|c w _] eqn:EY using rev_ind; [congruence|]. rewrite app_assoc in E. change (u ".") with [46%N] in E. apply app_inj_tail in E. destruct E as [_ ->].
      apply Forall_app in FY. destruct FY as [_ FY]. inversion FY as [|? ? Y _]; subst. rewrite dot_rule in Y. inversion Y as [Y']. rewrite <- app_assoc in AR. apply adj'_app_r in AR. cbn [app adj'] in AR. destruct AR as [AR _]. congruence.
    + rewrite ED. exact ND.
    + rewrite ED. eapply Forall_impl; [|exact FD]. intros c Hc. symmetry. apply rule_dot. exact Hc.
    + intros E. apply cat_nil in E; [discriminate|exact FE].
    + apply Forall_forall. intros c I. apply in_cat in I. destruct I as (rw & I & J). unfold alnums in A. rewrite Forall_forall in A, FE. specialize (A rw I). destruct (FE rw I) as [_ F]. rewrite Forall_forall in F. apply (proj1 (alnum_ld c _ (F c J))). exact A.
    + exists (map snd (x :: e)). split; [|rewrite map_length; exact LE]. assert (RE : runs (cat (x :: e)) = x :: e) by (apply runs_cat; [exact FE|apply adj'_app_r in AR; apply AR]). rewrite <- RE at 2. apply runs_maximal. apply run_ok_legal. exact FE.
Qed.

(** ** the units of a canonical pattern *)
Definition cu (x : cunit) : punit :=
  match x with
  | CLit w => PU w [run_space w] (Z.of_nat (length w))
  | CCls rs n => PU (unit_str (List.concat rs) n) rs (znum n)
  end.
Lemma cu_text : forall x, pu_str (cu x) = cunit_text x.
Proof. intros [w|rs [n|]]; reflexivity. Qed.
Lemma literal_run : forall w, literal_unit w -> lit_unit (run_space w) w /\ run_ok (run_space w, w).
Proof.
  intros w (N & F & S). destruct w as [|c w]; [congruence|]. cbn [run_space]. assert (H : Forall (fun d => char_rule d = Some (space_text c)) (c :: w)).
  { rewrite Forall_forall in F |- *. assert (X : forall d, In d (c :: w) -> char_rule d = Some (space_text d)). { intros d I. apply legal_space. specialize (F d I). unfold legal, legal_chars. apply in_app_iff. left. revert F. unfold letters_digits. clear. intros F. vm_compute in F |- *. intuition. }
    intros d I. rewrite (X d I). f_equal. apply (proj1 (same_space_rule d c _ _ (X d I) (X c (or_introl eq_refl)))). apply S; [exact I|left; reflexivity]. }
  split; [|split; [discriminate|exact H]]. split; [|split; [discriminate|exact H]]. inversion F as [|? ? Fc _]; subst. inversion H as [|? ? Hc _]; subst. apply (proj2 (alnum_ld c _ Hc)). exact Fc.
Qed.
Lemma cls_facts : forall rs n, cunit_ok (CCls rs n) -> rs <> [] /\ sorted_set rs = rs /\ Forall (fun r => in_rules r = true) rs /\ ~ In BSRULE rs /\ (match n with Some k => (N.of_nat (length rs) <= k /\ k <> 0)%N | None => True end).
Proof.
  intros rs n (N & S & F & L). split; [exact N|]. split; [apply sorted_set_id; exact S|]. split; [eapply Forall_impl; [|exact F]; intros r [R _]; apply space_texts_rules; exact R|]. split; [intros I; rewrite Forall_forall in F; apply (F _ I); reflexivity|].
  destruct n as [k|]; [|exact Logic.I]. split; [exact L|]. destruct rs; [congruence|]. cbn [length] in L. lia.
Qed.
Definition ckind (x : cunit) : option str := match x with CLit w => Some (run_space w) | CCls _ _ => None end.
Lemma cu_kind : forall x, cunit_ok x -> kind (cunit_text x) (ckind x).
Proof.
  intros [w|rs n] OK.
  - cbn [cunit_text ckind]. apply K_lit. apply literal_run. exact OK.
  - rewrite <- cu_text. destruct (cls_facts rs n OK) as (_ & _ & F & B & _). cbn [cu pu_str ckind]. apply class_kind; assumption.
Qed.
Lemma cu_mk : forall x, cunit_ok x -> mk_unit (pu_str (cu x)) = Ok (cu x).
Proof.
  intros [w|rs n] OK; unfold mk_unit; cbn [cu pu_str].
  - destruct (literal_run w OK) as [(D & N & F) _]. rewrite (parse_unit_lit w (run_space w)) by assumption. reflexivity.
  - destruct (cls_facts rs n OK) as (_ & S & F & _ & L). rewrite parse_unit_class; [|exact F|destruct n; rewrite ?S; exact L]. rewrite S. reflexivity.
Qed.
Lemma cu_seps : forall us prev, Forall cunit_ok us -> units_apart (map cunit_text us) -> (match us with x :: _ => prev <> None -> ckind x <> prev | [] => True end) -> seps prev (map cunit_text us).
Proof.
  induction us as [|x us IH]; intros prev OK A H; [exact Logic.I|]. inversion OK as [|? ? O1 O2]; subst. cbn [map seps units_apart] in *. destruct A as [A1 A2]. exists (ckind x). split; [apply cu_kind; exact O1|]. split; [exact H|]. apply IH; [exact O2|exact A2|].
  destruct us as [|y us]; [exact Logic.I|]. cbn [map] in A1. destruct x as [w|]; [|intros X; exfalso; apply X; reflexivity]. destruct y as [w'|]; [|discriminate]. intros _ E. cbn [ckind cunit_text cunit_ok] in *. inversion O2 as [|? ? O3 _]; subst. cbn [cunit_ok] in O3.
  destruct (literal_run w O1) as [_ [N F]]. destruct (literal_run w' O3) as [_ [N' F']]. destruct w as [|c w]; [cbn in N; congruence|]. destruct w' as [|c' w']; [cbn in N'; congruence|]. cbn [fst snd] in *. inversion F; inversion F'; subst. apply (A1 O1 O3 c c'); [left; reflexivity|left; reflexivity|]. eapply (proj2 (same_space_rule c c' _ _ ltac:(eassumption) ltac:(eassumption))). congruence.
Qed.
Lemma cu_units : forall P us, reads P us -> us <> [] -> pattern_units P = Ok (map cu us).
Proof.
  intros P us (<- & OK & A) N. unfold pattern_units. rewrite parse_pattern_string_forward; [|intros E; apply map_eq_nil in E; contradiction|apply cu_seps; auto; destruct us; [exact Logic.I|intros X; congruence]].
  cbn [bind]. clear - OK. induction OK as [|x us O OK IH]; [reflexivity|]. cbn [map mapM]. rewrite <- cu_text, cu_mk by exact O. cbn [bind]. rewrite IH. reflexivity.
Qed.
Lemma reads_nil : forall us, reads [] us -> us = [].
Proof.
  intros us (E & OK & _). destruct us as [|x us]; [reflexivity|]. exfalso. cbn [map List.concat] in E. apply app_eq_nil in E. destruct E as [E _]. inversion OK as [|? ? O _]; subst. destruct x as [w|rs n]; [destruct O as [O _]; cbn in E; congruence|discriminate].
Qed.
Lemma cu_uset : forall x, cunit_ok x -> uset (cu x) = pu_rules (cu x) /\ Forall (fun r => in_rules r = true) (pu_rules (cu x)).
Proof.
  intros [w|rs n] OK; cbn [cu pu_rules]; unfold uset; cbn [pu_rules].
  - split; [reflexivity|]. constructor; [|constructor]. apply (run_ok_in_rules (run_space w, w)). apply literal_run. exact OK.
  - destruct (cls_facts rs n OK) as (_ & S & F & _). auto.
Qed.
Lemma cu_rparse : forall x, cunit_ok x -> rparse (pu_str (cu x)) <> None.
Proof.
  intros [w|rs n] OK; cbn [cu pu_str].
  - destruct (literal_run w OK) as [(D & N & F) _]. rewrite rparse_plain; [discriminate|]. eapply Forall_impl; [|exact F]. intros c Hc. exact (da_plain c _ Hc D).
  - destruct (cls_facts rs n OK) as (N & _ & F & _). rewrite rparse_unit by assumption. discriminate.
Qed.
Lemma cu_ucanon : forall x, cunit_ok x -> ucanon (cu x).
Proof.
  intros [w|rs n] OK.
  - left. destruct (literal_run w OK) as [(D & N & F) _]. eapply unit_lit_inv; [apply (cu_mk (CLit w) OK)|split; [exact D|split; [exact N|exact F]]].
  - right. exists n. destruct (cu_uset _ OK) as [E _]. rewrite E. split; reflexivity.
Qed.
Lemma cls_no_lit : forall rs n, is_literal (cu (CCls rs n)) = match rs with [r] => (0 <? znum n)%Z && negb (in_digit_ascii r) | _ => false end.
Proof. intros rs n. unfold is_literal. cbn [cu pu_str pu_rules pu_num]. unfold unit_str. assert (X : forall t, startswith (BRACKETS_L :: t) [BRACKETS_L] = true) by (intros []; reflexivity). rewrite X. reflexivity. Qed.

(** ** one unit against one text *)
Lemma cset_iff : forall g rs, all_legal g -> sorted_set rs = rs -> (cset g = rs <-> forall r, In r rs <-> exists c, In c g /\ space_text c = r).
Proof.
  intros g rs L S. assert (E : forall r, (exists c, In c g /\ space_text c = r) <-> In r (cset g)).
  { intros r. rewrite cset_chars by exact L. unfold all_legal in L. rewrite Forall_forall in L. split; intros (c & I & H); exists c; (split; [exact I|]); destruct (L c I) as [r' Hr]; pose proof (rule_space _ _ Hr); congruence. }
  split; [intros <- r; rewrite E; reflexivity|]. intros H. rewrite <- S, <- cset_sorted. apply sorted_unique; [apply sorted_set_sorted..|]. intros r. rewrite !sorted_set_In, H, E. reflexivity.
Qed.
Lemma piece_run : forall r g, run_ok (r, g) -> piece (pp_of g) = render (r, g).
Proof. intros r g H. unfold piece, pp_of. cbn [pieces]. rewrite (runs_one r g H). cbn. apply app_nil_r. Qed.
Lemma one_rule_run : forall g r, all_legal g -> cset g = [r] -> run_ok (r, g).
Proof.
  intros g r L E. split; [intros X; cbn [snd] in X; subst g; discriminate|]. cbn [fst snd]. apply Forall_forall. intros c I. unfold all_legal in L. pose proof L as L'. rewrite Forall_forall in L'. destruct (L' c I) as [r' Hr]. assert (J : In r' (cset g)) by (apply cset_chars; [exact L|eauto]). rewrite E in J. destruct J as [->|[]]. exact Hr.
Qed.
Lemma cu_fits : forall x g pp, cunit_ok x -> all_legal g -> ~ In 92%N g -> piece pp = piece (pp_of g) -> (unit_fits x g <-> cset g = uset (cu x) /\ sacc (unit_mp (cu x)) pp).
Proof.
  intros x g pp OK L B EP. destruct (cu_uset x OK) as [EU FR]. rewrite EU. destruct x as [w|rs n]; cbn [unit_fits].
  - destruct (literal_run w OK) as [(D & N & F) RO]. assert (LI : is_literal (cu (CLit w)) = true) by (eapply unit_lit_inv; [apply (cu_mk (CLit w) OK)|split; [exact D|split; [exact N|exact F]]]).
    unfold sacc, unit_mp. cbn [mp_view mp_str]. cbn [view_cls_from_units]. rewrite LI, EP. cbn [cu pu_str pu_rules].
    assert (PW : piece (pp_of w) = w). { rewrite (piece_run _ _ RO). unfold render. cbn [fst snd]. destruct (in_sign_rules (run_space w)) eqn:S; [|reflexivity]. exfalso. destruct w as [|c w]; [congruence|]. inversion F as [|? ? Hc _]; subst. rewrite (sign_alnum _ _ Hc) in S. rewrite (digit_ascii_alnum _ _ Hc) in D. rewrite D in S. discriminate. }
    assert (LW : all_legal w) by (eapply Forall_impl; [|exact F]; intros c Hc; exists (run_space w); exact Hc). split.
    + intros ->. split; [|exact PW]. unfold cset, pp_of. cbn [rules]. rewrite (runs_one _ _ RO). reflexivity.
    + intros [_ E]. apply piece_inj; [exact L|exact LW|]. rewrite E. symmetry. exact PW.
  - destruct (cls_facts rs n OK) as (N & S & F & _ & LN). change (pu_rules (cu (CCls rs n))) with rs. rewrite <- (cset_iff g rs L S). unfold sacc, unit_mp. cbn [mp_view mp_str num1 mp_units view_cls_from_units]. unfold num1. cbn [mp_units]. rewrite cls_no_lit. cbn [cu pu_num pu_str].
    assert (PL := pp_length g pp L B EP). unfold ulen in PL.
    assert (GEN : cset g = rs /\ match n with Some k => N.of_nat (length g) = k | None => True end <-> cset g = rs /\ match (if (znum n <? 0)%Z then VFuzzy else VLength) with VPiece => piece pp = unit_str (List.concat rs) n | VLength => piece_length pp = Ok (znum n) | VFuzzy => True | _ => False end).
    { destruct n as [k|]; cbn [znum]; [|reflexivity]. destruct (Z.ltb_spec (Z.of_N k) 0) as [X|X]; [lia|]. rewrite PL. split; intros [H1 H2]; (split; [exact H1|]); [f_equal; lia|inversion H2; lia]. }
    destruct rs as [|r [|r' rs]]; [exact GEN| |exact GEN].
    destruct ((0 <? znum n)%Z && negb (in_digit_ascii r))%bool eqn:LI; [|exact GEN]. clear GEN. apply andb_true_iff in LI. destruct LI as [L1 L2]. destruct n as [k|]; [|discriminate]. apply negb_true_iff in L2.
    split; intros [H1 H2]; (split; [exact H1|]).
    + rewrite EP. pose proof (one_rule_run g r L H1) as RO. rewrite (piece_run _ _ RO). unfold render. cbn [fst snd]. destruct (in_sign_rules r) eqn:SR; [subst k; cbn [List.concat]; rewrite app_nil_r; reflexivity|]. inversion F as [|? ? FR1 _]; subst. pose proof (sign_or_alnum r FR1 SR). congruence.
    + rewrite EP in H2. pose proof (one_rule_run g r L H1) as RO. rewrite (piece_run _ _ RO) in H2. unfold render in H2. cbn [fst snd] in H2. destruct (in_sign_rules r) eqn:SR; [|inversion F as [|? ? FR1 _]; subst; pose proof (sign_or_alnum r FR1 SR); congruence].
      pose proof (rparse_unit [r] (Some k) N F) as R1. pose proof (rparse_unit [r] (Some (N.of_nat (length g))) N F) as R2. rewrite <- H2 in R1. cbn [List.concat] in R2. rewrite app_nil_r in R2. rewrite R2 in R1. inversion R1. reflexivity.
Qed.
