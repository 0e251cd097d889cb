(** The key of a view determines the character spaces of its parts. *)
From Coq Require Import String.
From Verif Require Import PyStr Defs ParseUtils Views Spec PyStrProofs DefsProofs RegexProofs PieceProofs LengthProofs UnitProofs DigestProofs TokProofs FlatCluster ViewProofs.
From Coq Require Import Lia.

Definition R_SL : str := [SLASH].
Lemma concat_rules_inj : forall a b, Forall (fun r => in_rules r = true) a -> Forall (fun r => in_rules r = true) b ->
  List.concat a = List.concat b -> a = b.
Proof.
  assert (Z : forall a, Forall (fun r => in_rules r = true) a -> List.concat a = [] -> a = []).
  { intros [|r a] F E; [reflexivity|]. inversion F as [|? ? Hr _]; subst. cbn [List.concat] in E. apply app_eq_nil in E. destruct E as [E _].
    destruct (rule_len_head r Hr) as (x & y & X & _). congruence. }
  intros a b A B E. destruct a as [|r a].
  - symmetry. apply Z; [exact B|]. symmetry. exact E.
  - destruct b as [|r' b]; [apply Z; assumption|].
    pose proof (rparse_unit (r :: a) None ltac:(discriminate) A) as X. rewrite E in X. rewrite (rparse_unit (r' :: b) None ltac:(discriminate) B) in X.
    inversion X as [[X1 X2]]. rewrite <- (item_rules (r :: a) A), <- (item_rules (r' :: b) B). cbn [map]. congruence.
Qed.

Fixpoint klist (Cs : list (list str)) : list str :=
  match Cs with
  | [] => []
  | C :: r => match r with [] => C | _ => C ++ R_SL :: klist r end
  end.
Lemma klist_cons : forall C D r, klist (C :: D :: r) = C ++ R_SL :: klist (D :: r).
Proof. reflexivity. Qed.
Lemma klist_rules : forall Cs, Forall (Forall (fun r => in_rules r = true)) Cs -> Forall (fun r => in_rules r = true) (klist Cs).
Proof.
  induction 1 as [|C Cs H F IH]; [constructor|]. destruct Cs as [|D r]; [exact H|]. rewrite klist_cons.
  apply Forall_app. split; [exact H|]. constructor; [reflexivity|exact IH].
Qed.
Lemma view_key_klist : forall ss, view_key (map vpart ss) = List.concat (klist (map cset ss)).
Proof.
  intros ss. unfold view_key, fuzzy_join. rewrite map_map. rewrite (map_ext _ _ vpart_fuzzy).
  induction ss as [|s ss IH]; [reflexivity|]. destruct ss as [|t ss]; [reflexivity|]. cbn [map]. rewrite klist_cons, join_cons.
  cbn [map] in IH. rewrite IH, concat_app. reflexivity.
Qed.
Lemma view_key_inj : forall a b, Forall all_legal a -> Forall all_legal b ->
  view_key (map vpart a) = view_key (map vpart b) -> klist (map cset a) = klist (map cset b).
Proof.
  intros a b A B E. rewrite !view_key_klist in E. apply concat_rules_inj in E; [exact E| |]; apply klist_rules; rewrite Forall_map;
    (eapply Forall_impl; [|eassumption]); intros s L; apply cset_rules; exact L.
Qed.

(** *** shapes *)
Definition mshape (C : list str) : Prop :=
  (C <> [] /\ Forall (fun r => in_mixed r = true) C) \/ (exists r, C = [r] /\ in_mixed r = false).
Lemma sl_not_mixed : in_mixed R_SL = false.
Proof. reflexivity. Qed.
Lemma span_eq : forall (f : str -> bool) x a b a' b', f x = false -> Forall (fun r => f r = true) a -> Forall (fun r => f r = true) a' ->
  a ++ x :: b = a' ++ x :: b' -> a = a' /\ b = b'.
Proof.
  intros f x. induction a as [|r a IH]; intros b [|r' a'] b' X F F' E; cbn [app] in E; inversion E; subst.
  - auto.
  - inversion F'; congruence.
  - inversion F; congruence.
  - inversion F; inversion F'; subst. destruct (IH b a' b' X) as [-> ->]; auto.
Qed.
Lemma span_end : forall (f : str -> bool) x a a' b', f x = false -> Forall (fun r => f r = true) a -> a = a' ++ x :: b' -> False.
Proof.
  intros f x a a' b' X F ->. apply Forall_app in F. destruct F as [_ F]. inversion F; congruence.
Qed.
Lemma klist_mshape_inj : forall a b, Forall mshape a -> Forall mshape b -> klist a = klist b -> a = b.
Proof.
  assert (NN : forall a, Forall mshape a -> a <> [] -> klist a <> []).
  { intros [|C [|D r]] F N E; [congruence| |].
    - cbn in E. subst. inversion F as [|? ? [[X _]|(r & X & _)] _]; congruence.
    - rewrite klist_cons in E. apply app_eq_nil in E. destruct E; discriminate. }
  induction a as [|C a IH]; intros b A B E.
  - destruct b as [|D b]; [reflexivity|]. exfalso. apply (NN (D :: b) B); [discriminate|]. symmetry. exact E.
  - destruct b as [|D b]; [exfalso; apply (NN (C :: a) A); [discriminate|exact E]|].
    inversion A as [|? ? HC FA]; subst. inversion B as [|? ? HD FB]; subst.
    assert (HEAD : forall X Y tx ty, mshape X -> mshape Y -> (tx = [] \/ exists t, tx = R_SL :: t) -> (ty = [] \/ exists t, ty = R_SL :: t) ->
      X ++ tx = Y ++ ty -> X = Y /\ tx = ty).
    { clear. intros X Y tx ty [[X1 X2]|(r & -> & X2)] [[Y1 Y2]|(r' & -> & Y2)] TX TY E.
      - destruct TX as [->|[t ->]], TY as [->|[t' ->]]; rewrite ?app_nil_r in E.
        + auto.
        + exfalso. exact (span_end in_mixed R_SL _ _ _ sl_not_mixed X2 E).
        + exfalso. exact (span_end in_mixed R_SL _ _ _ sl_not_mixed Y2 (eq_sym E)).
        + apply (span_eq in_mixed) in E; [|exact sl_not_mixed|assumption..]. destruct E as [-> ->]. auto.
      - exfalso. destruct X as [|x X]; [congruence|]. cbn [app] in E. inversion E; subst. inversion X2; congruence.
      - exfalso. destruct Y as [|y Y]; [congruence|]. cbn [app] in E. inversion E; subst. inversion Y2; congruence.
      - cbn [app] in E. inversion E; subst. auto. }
    assert (FORM : forall X x, klist (X :: x) = X ++ match x with [] => [] | _ => R_SL :: klist x end).
    { intros X [|y x]; [cbn; rewrite app_nil_r; reflexivity|reflexivity]. }
    rewrite !FORM in E. apply HEAD in E; [|assumption|assumption|destruct a; eauto|destruct b; eauto].
    destruct E as [-> E]. f_equal. destruct a, b; try discriminate; [reflexivity|]. inversion E as [E']. apply IH; assumption.
Qed.

(** shapes of the views *)
Lemma cset_group : forall g, runs (cat g) = g -> cset (cat g) = sorted_set (map fst g).
Proof. intros g H. unfold cset, pp_of. cbn [rules]. rewrite H. reflexivity. Qed.
Lemma cset_groups : forall s gs, all_legal s -> groups s gs -> map cset (map cat gs) = map (fun g => sorted_set (map fst g)) gs.
Proof.
  intros s gs L G. pose proof (groups_ok s gs L G) as F. rewrite map_map. apply map_ext_in. intros g I.
  rewrite Forall_forall in F. apply cset_group. apply F. exact I.
Qed.
Lemma legal_groups : forall s gs, all_legal s -> groups s gs -> Forall all_legal (map cat gs).
Proof.
  intros s gs L G. rewrite Forall_map. eapply Forall_impl; [|exact (groups_ok s gs L G)]. intros g H. apply H.
Qed.
Lemma single_mshape : forall r, mshape [r].
Proof. intros r. destruct (in_mixed r) eqn:E; [left; split; [discriminate|constructor; [exact E|constructor]]|right; eauto]. Qed.
Lemma multi_mshape : forall s, all_legal s -> Forall mshape (map cset (map cat (g_multi s))).
Proof.
  intros s L. rewrite (cset_groups s _ L (groups_multi s)). unfold g_multi. rewrite map_map. rewrite Forall_map.
  apply Forall_forall. intros rw _. cbn [map sorted_set fold_right set_insert]. apply single_mshape.
Qed.
Lemma blocks_in : forall A (f : A -> bool) bs prev, blocks f prev bs ->
  Forall (fun b => b <> [] /\ (forallb f b = true \/ exists x, b = [x] /\ f x = false)) bs.
Proof.
  intros A f bs. induction bs as [|b bs IH]; intros prev B; [constructor|].
  destruct B as [N [(B1 & _ & B)|(x & B1 & B2 & B)]]; (constructor; [|eapply IH; exact B]); eauto.
Qed.
Lemma mixed_mshape : forall s, all_legal s -> Forall mshape (map cset (map cat (g_mixed s))).
Proof.
  intros s L. rewrite (cset_groups s _ L (groups_mixed s)). rewrite Forall_map.
  eapply Forall_impl; [|exact (blocks_in _ _ _ _ (blocks_grp run rmix (runs s)))].
  intros g [N [F|(x & -> & F)]].
  - left. split; [rewrite sorted_set_nil_iff; intros E; apply map_eq_nil in E; auto|]. apply Forall_forall. intros r I.
    apply (proj1 (sorted_set_In _ _)) in I. apply in_map_iff in I. destruct I as (rw & <- & I). rewrite forallb_forall in F. apply (F rw I).
  - right. exists (fst x). split; [reflexivity|exact F].
Qed.

(** the three forms of the last-dot view *)
Definition alnums (g : list run) : Prop := Forall (fun rw => in_digit_ascii (fst rw) = true) g.
Definition lform (s : str) (name : list run) (dot : run) (ext : list run) : Prop :=
  runs s = name ++ dot :: ext /\ fst dot = R_DOT /\ alnums ext /\ (length ext <= 2)%nat.
Definition ldsf_of (name : list run) (dot : run) (ext : list run) : list (list run) :=
  name :: [dot] :: (if is_nil ext then [] else [ext]).
Lemma dot_not_alnum : in_digit_ascii R_DOT = false.
Proof. reflexivity. Qed.
Lemma alnums_no_dot : forall g, alnums g -> ~ In R_DOT (map fst g).
Proof.
  intros g F I. apply in_map_iff in I. destruct I as (rw & E & I). unfold alnums in F. rewrite Forall_forall in F. specialize (F rw I).
  rewrite E in F. discriminate.
Qed.
Lemma g_ldsf_form : forall s name dot ext, lform s name dot ext -> g_ldsf s = ldsf_of name dot ext.
Proof.
  intros s name dot ext (E & D & A & L). unfold g_ldsf. rewrite E, map_app. cbn [map]. rewrite D.
  rewrite dot_index_intro by (rewrite ?map_length; try exact L; apply alnums_no_dot; exact A). rewrite map_length.
  replace (length name + 1) with (length (name ++ [dot])) by (rewrite app_length; reflexivity).
  change (name ++ dot :: ext) with (name ++ [dot] ++ ext). rewrite app_assoc.
  replace (skipn (length (name ++ [dot])) ((name ++ [dot]) ++ ext)) with ext.
  2: { rewrite skipn_app, skipn_all, Nat.sub_diag. reflexivity. }
  assert (F : forallb in_digit_ascii (map fst ext) = true).
  { apply forallb_forall. intros r I. apply in_map_iff in I. destruct I as (rw & <- & I). unfold alnums in A. rewrite Forall_forall in A. auto. }
  rewrite F. cbn [negb]. unfold ldsf_of. rewrite <- app_assoc. cbn [app]. f_equal; [|f_equal].
  - rewrite firstn_app, Nat.sub_diag, firstn_all. cbn [firstn]. apply app_nil_r.
  - rewrite skipn_app, skipn_all, Nat.sub_diag. reflexivity.
Qed.
Lemma g_ldsf_cases : forall s, g_ldsf s = [runs s] \/ exists name dot ext, lform s name dot ext.
Proof.
  intros s. destruct (dot_index (map fst (runs s))) as [i|] eqn:E; [|left; unfold g_ldsf; rewrite E; reflexivity].
  destruct (forallb in_digit_ascii (map fst (skipn (i + 1) (runs s)))) eqn:F; [|left; unfold g_ldsf; rewrite E, F; reflexivity].
  right. pose proof E as E0. apply dot_index_some in E. rewrite map_length in E. destruct E as (E1 & E2 & E3 & E4).
  rewrite nth_error_map in E3. destruct (nth_error (runs s) i) as [dot|] eqn:ED; [|discriminate]. cbn in E3. inversion E3 as [E5].
  exists (firstn i (runs s)), dot, (skipn (i + 1) (runs s)). split.
  - rewrite <- (firstn_skipn i (runs s)) at 1. f_equal. clear - ED. revert i ED. induction (runs s) as [|x l IH]; intros [|i] H; try discriminate.
    + cbn in *. inversion H. reflexivity.
    + cbn [nth_error] in H. cbn [skipn plus]. apply IH. exact H.
  - split; [exact E5|]. split.
    + apply Forall_forall. intros rw I. rewrite forallb_forall in F. apply F. apply in_map. exact I.
    + rewrite skipn_length. lia.
Qed.
Definition nset (g : list run) : list str := sorted_set (map fst g).
Lemma ldsf_csets : forall s name dot ext, all_legal s -> lform s name dot ext ->
  map cset (map cat (g_ldsf s)) = nset name :: [R_DOT] :: (if is_nil ext then [] else [nset ext]).
Proof.
  intros s name dot ext L F. rewrite (cset_groups s _ L (groups_ldsf s)), (g_ldsf_form s name dot ext F). unfold ldsf_of. cbn [map].
  destruct F as (_ & D & _). unfold nset. cbn [sorted_set fold_right set_insert]. rewrite D. destruct ext; reflexivity.
Qed.
Lemma nset_alnum : forall g, alnums g -> Forall (fun r => in_digit_ascii r = true) (nset g).
Proof.
  intros g A. apply Forall_forall. intros r I. unfold nset in I. apply (proj1 (sorted_set_In _ _)) in I. apply in_map_iff in I.
  destruct I as (rw & <- & I). unfold alnums in A. rewrite Forall_forall in A. auto.
Qed.
Lemma nset_nil : forall g, nset g = [] <-> g = [].
Proof. intros g. unfold nset. rewrite sorted_set_nil_iff. split; [apply map_eq_nil|intros ->; reflexivity]. Qed.
Lemma nset_NoDup : forall g, NoDup (nset g).
Proof. intros. apply sorted_NoDup, sorted_set_sorted. Qed.
Lemma rspan_eq : forall (f : str -> bool) x a b a' b', f x = false -> Forall (fun r => f r = true) b -> Forall (fun r => f r = true) b' ->
  a ++ x :: b = a' ++ x :: b' -> a = a' /\ b = b'.
Proof.
  intros f x a b a' b' X F F' E. apply (f_equal (@rev str)) in E. rewrite !rev_app_distr in E. cbn [rev] in E. rewrite <- !app_assoc in E. cbn [app] in E.
  apply (span_eq f) in E; [|exact X|apply Forall_rev; assumption..]. destruct E as [E1 E2].
  apply (f_equal (@rev str)) in E1, E2. rewrite !rev_involutive in E1, E2. auto.
Qed.
Lemma last_eq : forall A (a b : list A) x y, a ++ [x] = b ++ [y] -> a = b /\ x = y.
Proof. intros. apply app_inj_tail. assumption. Qed.
(** keys of two last-dot views *)
Lemma ldsf_key_inj : forall s t, all_legal s -> all_legal t -> length (g_ldsf s) <> 1 -> length (g_ldsf t) <> 1 ->
  klist (map cset (map cat (g_ldsf s))) = klist (map cset (map cat (g_ldsf t))) -> map cset (map cat (g_ldsf s)) = map cset (map cat (g_ldsf t)).
Proof.
  intros s t Ls Lt Ns Nt E.
  destruct (g_ldsf_cases s) as [H|(n & d & e & Fs)]; [rewrite H in Ns; cbn in Ns; congruence|].
  destruct (g_ldsf_cases t) as [H|(n' & d' & e' & Ft)]; [rewrite H in Nt; cbn in Nt; congruence|].
  rewrite (ldsf_csets s n d e Ls Fs), (ldsf_csets t n' d' e' Lt Ft) in *. destruct Fs as (_ & _ & A & _), Ft as (_ & _ & A' & _).
  apply nset_alnum in A, A'. destruct e as [|x e], e' as [|x' e']; cbn [is_nil] in *; rewrite ?klist_cons in E; cbn [klist app] in E.
  - change (nset n ++ R_SL :: [R_DOT]) with (nset n ++ [R_SL] ++ [R_DOT]) in E. change (nset n' ++ R_SL :: [R_DOT]) with (nset n' ++ [R_SL] ++ [R_DOT]) in E.
    rewrite !app_assoc in E. apply last_eq in E. destruct E as [E _]. apply last_eq in E. destruct E as [-> _]. reflexivity.
  - exfalso. destruct (nset (x' :: e')) as [|r l] eqn:EN using rev_ind; [apply nset_nil in EN; discriminate|]. apply Forall_app in A'. destruct A' as [_ A'].
    inversion A' as [|? ? A1 _]; subst. change (R_SL :: R_DOT :: R_SL :: l ++ [r]) with (([R_SL; R_DOT; R_SL] ++ l) ++ [r]) in E.
    change (R_SL :: [R_DOT]) with ([R_SL] ++ [R_DOT]) in E. rewrite !app_assoc in E. apply last_eq in E. destruct E as [_ E]. subst r. discriminate.
  - exfalso. destruct (nset (x :: e)) as [|r l] eqn:EN using rev_ind; [apply nset_nil in EN; discriminate|]. apply Forall_app in A. destruct A as [_ A].
    inversion A as [|? ? A1 _]; subst. change (R_SL :: R_DOT :: R_SL :: l ++ [r]) with (([R_SL; R_DOT; R_SL] ++ l) ++ [r]) in E.
    change (R_SL :: [R_DOT]) with ([R_SL] ++ [R_DOT]) in E. rewrite !app_assoc in E. apply last_eq in E. destruct E as [_ E]. subst r. discriminate.
  - change (R_SL :: R_DOT :: R_SL :: nset (x :: e)) with ([R_SL; R_DOT] ++ R_SL :: nset (x :: e)) in E.
    change (R_SL :: R_DOT :: R_SL :: nset (x' :: e')) with ([R_SL; R_DOT] ++ R_SL :: nset (x' :: e')) in E. rewrite !app_assoc in E.
    apply (rspan_eq in_digit_ascii) in E; [|reflexivity|assumption..]. destruct E as [E1 E2]. rewrite E2.
    change [R_SL; R_DOT] with ([R_SL] ++ [R_DOT]) in E1. rewrite !app_assoc in E1. apply last_eq in E1. destruct E1 as [E1 _]. apply last_eq in E1. destruct E1 as [-> _]. reflexivity.
Qed.
(** a view of three groups with the key of the last-dot view *)
Lemma mshape_last : forall C r l, mshape C -> C = l ++ [r] -> (in_mixed r = true /\ Forall (fun r => in_mixed r = true) C) \/ (in_mixed r = false /\ C = [r]).
Proof.
  intros C r l [[N F]|(x & -> & X)] E.
  - left. split; [|exact F]. subst C. apply Forall_app in F. destruct F as [_ F]. inversion F; assumption.
  - right. destruct l as [|y l]; [inversion E; subst; auto|]. inversion E. destruct l; discriminate.
Qed.
Lemma one_rule_one_run : forall g r, adj' g -> sorted_set (map fst g) = [r] -> exists x, g = [x] /\ fst x = r.
Proof.
  intros g r A E. assert (X : forall x, In x g -> fst x = r).
  { intros x I. assert (J : In (fst x) (sorted_set (map fst g))) by (apply sorted_set_In; apply in_map; exact I). rewrite E in J. destruct J as [J|[]]. auto. }
  destruct g as [|x [|y g]]; [discriminate| |].
  - exists x. split; [reflexivity|]. apply X. left. reflexivity.
  - exfalso. destruct A as [A _]. apply A. rewrite (X x), (X y); cbn; auto.
Qed.
Lemma ldsf_cross : forall s g1 g2 g3, all_legal s -> groups s [g1; g2; g3] -> Forall mshape (map cset (map cat [g1; g2; g3])) ->
  klist (map cset (map cat [g1; g2; g3])) = klist (map cset (map cat (g_ldsf s))) ->
  exists name dot ext, lform s name dot ext /\ ext <> [] /\ nset g1 = nset name /\ nset g2 = [R_DOT] /\ nset g3 = nset ext.
Proof.
  intros s g1 g2 g3 L G M E. rewrite (cset_groups s _ L G) in *. cbn [map] in *.
  fold (nset g1) (nset g2) (nset g3) in *. rewrite !klist_cons in E. cbn [klist] in E.
  destruct (g_ldsf_cases s) as [H|(n & d & e & F)].
  - exfalso. pose proof (cset_groups s _ L (groups_ldsf s)) as X. rewrite H in *. rewrite X in E. cbn [map klist] in E. fold (nset (runs s)) in E.
    pose proof (nset_NoDup (runs s)) as N. rewrite <- E in N. apply NoDup_remove_2 in N. apply N. apply in_app_iff. right.
    apply in_app_iff. right. left. reflexivity.
  - exists n, d, e. rewrite (ldsf_csets s n d e L F) in E. split; [exact F|]. destruct F as (R & D & A & LE).
    inversion M as [|? ? M1 Mr]; subst. inversion Mr as [|? ? M2 Mr']; subst. inversion Mr' as [|? ? M3 _]; subst. clear Mr Mr' M.
    destruct e as [|x e]; cbn [is_nil] in E.
    + exfalso. rewrite klist_cons in E. cbn [klist] in E.
      assert (E' : (nset g1 ++ R_SL :: nset g2) ++ R_SL :: nset g3 = (nset n ++ [R_SL]) ++ [R_DOT]).
      { rewrite <- !app_assoc. cbn [app]. exact E. }
      assert (G3 : nset g3 = [R_DOT]).
      { destruct (nset g3) as [|r l _] eqn:EN using rev_ind; [destruct M3 as [[M3 _]|(r & M3 & _)]; congruence|].
        change (R_SL :: l ++ [r]) with ((R_SL :: l) ++ [r]) in E'. rewrite app_assoc in E'. apply last_eq in E'. destruct E' as [_ ->].
        destruct (mshape_last _ _ _ M3 eq_refl) as [[X _]|[_ X]]; [discriminate|]. exact X. }
      rewrite G3 in E'. change [R_SL; R_DOT] with ([R_SL] ++ [R_DOT]) in E'. rewrite app_assoc in E'. apply last_eq in E'. destruct E' as [E' _]. apply last_eq in E'. destruct E' as [E' _].
      assert (AG : adj' g3). { destruct (runs_spec s L) as (_ & AD & _). rewrite <- G in AD. cbn [List.concat] in AD. apply adj'_app_r in AD. apply adj'_app_r in AD. rewrite app_nil_r in AD. exact AD. }
      destruct (one_rule_one_run g3 R_DOT AG G3) as (x & -> & X).
      unfold groups in G. cbn [List.concat app] in G. rewrite R in G. rewrite app_assoc in G. apply last_eq in G. destruct G as [G _].
      assert (I : In R_SL (nset n)) by (rewrite <- E'; apply in_app_iff; right; left; reflexivity).
      unfold nset in I. apply (proj1 (sorted_set_In _ _)) in I. rewrite <- G, map_app in I. apply in_app_iff in I.
      pose proof (nset_NoDup n) as ND. rewrite <- E' in ND. apply NoDup_remove_2 in ND. apply ND. apply in_app_iff.
      destruct I as [I|I]; [left|right]; apply sorted_set_In; exact I.
    + split; [discriminate|]. rewrite !klist_cons in E. cbn [klist] in E. pose proof (nset_alnum _ A) as AL. set (N := nset (x :: e)) in *.
      assert (NN : N <> []) by (unfold N; rewrite nset_nil; discriminate). clearbody N.
      assert (E' : (nset g1 ++ R_SL :: nset g2) ++ R_SL :: nset g3 = (nset n ++ [R_SL; R_DOT]) ++ R_SL :: N).
      { rewrite <- !app_assoc. cbn [app]. exact E. }
      assert (MX : Forall (fun r => in_mixed r = true) N) by (eapply Forall_impl; [|exact AL]; apply digit_ascii_mixed).
      assert (G3 : Forall (fun r => in_mixed r = true) (nset g3)).
      { destruct (nset g3) as [|r l _] eqn:EN using rev_ind; [constructor|]. destruct N as [|r' l' _] using rev_ind; [congruence|].
        assert (E2 : (((nset g1 ++ R_SL :: nset g2) ++ R_SL :: l) ++ [r]) = (((nset n ++ [R_SL; R_DOT]) ++ R_SL :: l') ++ [r'])).
        { rewrite <- !app_assoc. cbn [app]. rewrite <- !app_assoc in E'. cbn [app] in E'. exact E'. }
        apply last_eq in E2. destruct E2 as [_ ->]. apply Forall_app in MX. destruct MX as [_ MX]. inversion MX as [|? ? MR _]; subst.
        destruct (mshape_last _ _ _ M3 eq_refl) as [[_ X]|[X _]]; [exact X|congruence]. }
      apply (rspan_eq in_mixed) in E'; [|reflexivity|exact G3|exact MX]. destruct E' as [E' ->].
      assert (G2 : nset g2 = [R_DOT]).
      { destruct (nset g2) as [|r l _] eqn:EN using rev_ind; [destruct M2 as [[M2 _]|(r & M2 & _)]; congruence|].
        assert (E2 : ((nset g1 ++ R_SL :: l) ++ [r]) = ((nset n ++ [R_SL]) ++ [R_DOT])).
        { rewrite <- !app_assoc. cbn [app]. exact E'. }
        apply last_eq in E2. destruct E2 as [_ ->].
        destruct (mshape_last _ _ _ M2 eq_refl) as [[X _]|[_ X]]; [discriminate|]. exact X. }
      rewrite G2 in E'. change [R_SL; R_DOT] with ([R_SL] ++ [R_DOT]) in E'. rewrite !app_assoc in E'. apply last_eq in E'. destruct E' as [E' _]. apply last_eq in E'. destruct E' as [-> _]. auto.
Qed.
