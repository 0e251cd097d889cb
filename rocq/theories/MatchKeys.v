(** The key under which a pattern of several units is filed determines the
    character spaces of its units, up to classes that mix '/' with other spaces. *)
From Coq Require Import String.
From Verif Require Import PyStr Defs ParseUtils Spec Views Patterns Matcher PyStrProofs DefsProofs RegexProofs PieceProofs LengthProofs UnitProofs BridgeProofs EntProofs TokProofs FlatCluster ViewProofs KeyProofs PatUnits MatchDigest MatchLevel MatchUnits.
From Coq Require Import Lia Sorted.

Definition not_sl (r : str) : bool := negb (str_eqb r R_SL).
Definition sshape (C : list str) : Prop := (C <> [] /\ Forall (fun r => not_sl r = true) C) \/ C = [R_SL].
Lemma sl_is_sl : not_sl R_SL = false.
Proof. reflexivity. Qed.
Lemma klist_form : forall X x, klist (X :: x) = X ++ match x with [] => [] | _ => R_SL :: klist x end.
Proof. intros X [|y x]; [cbn; rewrite app_nil_r; reflexivity|reflexivity]. Qed.
Lemma klist_sshape_inj : forall a b, Forall sshape a -> Forall sshape b -> klist a = klist b -> a = b.
Proof.
  assert (NN : forall a, Forall sshape a -> a <> [] -> klist a <> []).
  { intros [|C [|D r]] F N E; [congruence| |].
    - cbn in E. subst. inversion F as [|? ? [[X _]|X] _]; congruence.
    - rewrite klist_cons in E. apply app_eq_nil in E. destruct E; discriminate. }
  induction a as [|C a IH]; intros b A B E.
  - destruct b as [|D b]; [reflexivity|]. exfalso. apply (NN (D :: b) B); [discriminate|]. symmetry. exact E.
  - destruct b as [|D b]; [exfalso; apply (NN (C :: a) A); [discriminate|exact E]|].
    inversion A as [|? ? HC FA]; subst. inversion B as [|? ? HD FB]; subst.
    assert (HEAD : forall X Y tx ty, sshape X -> sshape Y -> (tx = [] \/ exists t, tx = R_SL :: t) -> (ty = [] \/ exists t, ty = R_SL :: t) ->
      X ++ tx = Y ++ ty -> X = Y /\ tx = ty).
    { clear. intros X Y tx ty [[X1 X2]| ->] [[Y1 Y2]| ->] TX TY E.
      - destruct TX as [->|[t ->]], TY as [->|[t' ->]]; rewrite ?app_nil_r in E.
        + auto.
        + exfalso. exact (span_end not_sl R_SL _ _ _ sl_is_sl X2 E).
        + exfalso. exact (span_end not_sl R_SL _ _ _ sl_is_sl Y2 (eq_sym E)).
        + apply (span_eq not_sl) in E; [|exact sl_is_sl|assumption..]. destruct E as [-> ->]. auto.
      - exfalso. destruct X as [|x X]; [congruence|]. cbn [app] in E. inversion E; subst. inversion X2; discriminate.
      - exfalso. destruct Y as [|y Y]; [congruence|]. cbn [app] in E. inversion E; subst. inversion Y2; discriminate.
      - cbn [app] in E. inversion E; subst. auto. }
    rewrite !klist_form in E. apply HEAD in E; [|assumption|assumption|destruct a; eauto|destruct b; eauto].
    destruct E as [-> E]. f_equal. destruct a, b; try discriminate; [reflexivity|]. inversion E as [E']. apply IH; assumption.
Qed.
Lemma single_sshape : forall r, sshape [r].
Proof.
  intros r. destruct (not_sl r) eqn:E; [left; split; [discriminate|constructor; [exact E|constructor]]|right]. unfold not_sl in E. apply negb_false_iff in E. apply str_eqb_eq in E. congruence.
Qed.
Lemma mshape_sshape : forall C, mshape C -> sshape C.
Proof.
  intros C [[N F]|(r & -> & _)]; [|apply single_sshape]. left. split; [exact N|]. eapply Forall_impl; [|exact F]. intros r M. unfold not_sl. destruct (str_eqb r R_SL) eqn:E; [|reflexivity]. apply str_eqb_eq in E. subst r. discriminate.
Qed.

(** ** the key of a pattern *)
Definition uset (x : punit) : list str := sorted_set (pu_rules x).
Lemma ukey_klist : forall p, ukey p = List.concat (klist (map uset (mp_units p))).
Proof.
  intros p. unfold ukey, fuzzy_join. change (fun x => List.concat (uset x)) with pu_fuzzy in *. induction (mp_units p) as [|x us IH]; [reflexivity|]. destruct us as [|y us]; [reflexivity|]. cbn [map]. rewrite klist_cons, join_cons. cbn [map] in IH. rewrite IH, concat_app. reflexivity.
Qed.
(** ** the key of a piece *)
Definition multi (v : vcls) : Prop := v = VMulti \/ v = VMixed \/ v = VLdsf.
Definition vgroups (v : vcls) (s : str) : list (list run) :=
  match v with VMixed => g_mixed s | VLdsf => g_ldsf s | _ => g_multi s end.
Lemma vgroups_groups : forall v s, groups s (vgroups v s).
Proof. intros [] s; cbn [vgroups]; try apply groups_multi; [apply groups_mixed|apply groups_ldsf]. Qed.
Lemma view_groups : forall v s, all_legal s -> multi v -> view_key (view_parts v (pp_of s)) = List.concat (klist (map cset (map cat (vgroups v s)))) /\
  (view_parts v (pp_of s) = map vpart (map cat (vgroups v s)) \/ length (vgroups v s) <= 1).
Proof.
  intros v s L [->|[->| ->]]; cbn [view_parts vgroups].
  - rewrite multi_parts_vpart by exact L. rewrite view_key_klist. auto.
  - destruct (le_lt_dec 2 (length (runs s))) as [N|N]; [rewrite mixed_parts_vpart by assumption; rewrite view_key_klist; auto|].
    assert (G : (runs s = [] /\ g_mixed s = []) \/ exists x, runs s = [x] /\ g_mixed s = [[x]]).
    { unfold g_mixed. destruct (runs s) as [|x [|y r]]; [left; auto| |cbn in N; lia]. right. exists x. split; [reflexivity|]. cbn. match goal with |- (if ?b then _ else _) = _ => destruct b end; reflexivity. }
    assert (MP : mixed_parts (pp_of s) = [pp_of s]). { unfold mixed_parts. destruct (length (rules (pp_of s)) <=? 1) eqn:E; [reflexivity|]. apply Nat.leb_gt in E. unfold pp_of in E. cbn [rules] in E. rewrite map_length in E. lia. }
    rewrite MP. assert (VK : view_key [pp_of s] = fuzzy_rule (pp_of s)) by reflexivity. rewrite VK, fuzzy_cset. destruct G as [[R G]|(x & R & G)]; rewrite G.
    + split; [|right; cbn; lia]. unfold cset, pp_of. cbn [rules]. rewrite R. reflexivity.
    + split; [|right; cbn; lia]. cbn [map klist]. f_equal. pose proof (groups_ok s (g_mixed s) L (groups_mixed s)) as GO. rewrite G in GO. inversion GO as [|? ? [GR _] _]; subst. rewrite (cset_group _ GR). unfold cset, pp_of. cbn [rules]. rewrite R. reflexivity.
  - rewrite ldsf_parts_vpart by exact L. rewrite view_key_klist. auto.
Qed.

(** ** the units of a readable pattern *)
Lemma seps_kinds : forall us prev, seps prev us -> Forall (fun w => exists k, kind w k) us.
Proof. induction us as [|w us IH]; intros prev S; [constructor|]. destruct S as (k & K & _ & S). constructor; [eauto|eapply IH; exact S]. Qed.
Definition good_unit (x : punit) : Prop := mk_unit (pu_str x) = Ok x /\ (exists k, kind (pu_str x) k) /\ rparse (pu_str x) <> None.
Lemma good_units : forall p, mp_ok p -> mp_str p <> [] -> rparse (mp_str p) <> None -> Forall good_unit (mp_units p) /\ seps None (map pu_str (mp_units p)).
Proof.
  intros p OK NE R. pose proof (mp_ok_units p OK) as U. destruct (mp_ok_facts p OK) as (_ & C & _ & MK). unfold pattern_units in U. apply bind_ok in U. destruct U as (ws & W & U).
  apply mapM_ok in U. assert (E : map pu_str (mp_units p) = ws). { clear - U. induction U as [|w x ws us X U IH]; [reflexivity|]. cbn [map]. rewrite (mk_unit_str _ _ X), IH. reflexivity. }
  apply parse_pattern_string_inv in W. destruct W as [[W _]|(_ & _ & CW & S)]; [congruence|]. rewrite <- E in S. split; [|exact S].
  assert (RR : Forall (fun w => rparse w <> None) (map pu_str (mp_units p))).
  { apply (rparse_units _ None S); [|rewrite C; exact R]. rewrite Forall_map. eapply Forall_impl; [|exact MK]. intros x X. exists x. exact X. }
  apply seps_kinds in S. rewrite Forall_map in S, RR. clear - MK S RR. induction (mp_units p) as [|x us IH]; [constructor|]. inversion MK; inversion S; inversion RR; subst. constructor; [split; [assumption|split; assumption]|apply IH; assumption].
Qed.
(** the rules of a unit *)
Lemma good_rules : forall x, good_unit x -> pu_rules x <> [] /\ uset x = pu_rules x /\ Forall (fun r => in_rules r = true) (pu_rules x).
Proof.
  intros x (MX & (k & K) & R). inversion K as [r w LU E1 E2|w CU E1 E2]; subst.
  - destruct (unit_lit_inv _ _ _ MX LU) as (A & _). unfold uset. rewrite A. split; [discriminate|]. split; [reflexivity|]. constructor; [|constructor]. destruct LU as (D & N & F). destruct (pu_str x) as [|c w]; [congruence|]. inversion F as [|? ? Hc _]; subst. eapply rule_in_rules; exact Hc.
  - destruct (unit_cls_inv _ _ MX CU) as (l & q & W & F & RU & Q & _). split; [|split].
    + rewrite RU, sorted_set_nil_iff. intros ->. apply R. rewrite W. reflexivity.
    + unfold uset. rewrite RU. apply sorted_set_id. apply sorted_set_sorted.
    + rewrite RU. apply Forall_forall. intros r I. apply (proj1 (sorted_set_In _ _)) in I. rewrite Forall_forall in F. auto.
Qed.
Lemma lit_one_rule : forall x, good_unit x -> is_literal x = true -> exists r, pu_rules x = [r].
Proof.
  intros x (MX & (k & K) & R) L. inversion K as [r w LU E1 E2|w CU E1 E2]; subst; [destruct (unit_lit_inv _ _ _ MX LU) as (A & _); eauto|].
  destruct CU as (cls & q & W & _). unfold is_literal in L. rewrite W in L. assert (SW : startswith (BRACKETS_L :: cls ++ q) [BRACKETS_L] = true) by (destruct (cls ++ q); reflexivity). rewrite SW in L. clear SW. cbn [negb] in L. destruct (pu_rules x) as [|r [|r' l]]; try discriminate. eauto.
Qed.
(** which view a pattern has *)
Lemma view_cases : forall p, mp_ok p -> multi (mp_view p) -> 2 <= length (mp_units p) /\
  (mp_view p = VMulti -> Forall (fun x => is_literal x = true \/ length (pu_rules x) <= 1) (mp_units p)) /\ (mp_view p = VLdsf -> ldsf_units (mp_units p) = true).
Proof.
  intros p (b & H) M. unfold mk_match_pattern in H. apply bind_ok in H. destruct H as (us & U & H). assert (E : mp_units p = us /\ mp_view p = view_cls_from_units us b) by (inversion H as [H']; auto). destruct E as [E1 E2]. rewrite E1, E2 in *. clear H E1 E2.
  destruct (units_facts _ _ U) as (NE & _). destruct us as [|x [|y us]]; [congruence| |].
  - exfalso. cbn [view_cls_from_units] in M. destruct (is_literal x); [destruct M as [M|[M|M]]; discriminate|]. destruct (pu_num x <? 0)%Z; destruct M as [M|[M|M]]; discriminate.
  - split; [cbn; lia|]. cbn [view_cls_from_units] in *. set (l := x :: y :: us) in *. clearbody l. assert (NL : forall us acc, multi_view_cls us acc = VLdsf -> acc = VLdsf).
    { clear. induction us as [|x us IH]; intros acc E; [exact E|]. cbn [multi_view_cls] in E. destruct (is_literal x); [exact (IH _ E)|]. destruct (1 <? length (pu_rules x)); [discriminate|]. apply IH in E. discriminate. }
    split.
    + intros E. assert (V : multi_view_cls l VPiece = VMulti). { destruct (b && negb (vcls_eqb (multi_view_cls l VPiece) VPiece) && ldsf_units l)%bool; [discriminate|exact E]. }
      clear - V. revert V. generalize VPiece. induction l as [|x l IH]; intros acc V; [constructor|]. cbn [multi_view_cls] in V. destruct (is_literal x) eqn:EL; [constructor; [auto|apply (IH _ V)]|].
      destruct (Nat.ltb_spec 1 (length (pu_rules x))); [discriminate|]. constructor; [right; lia|apply (IH _ V)].
    + intros E. destruct (b && negb (vcls_eqb (multi_view_cls l VPiece) VPiece) && ldsf_units l)%bool eqn:X; [|apply NL in E; discriminate]. apply andb_true_iff in X. apply X.
Qed.
(** a class that holds '/' holds nothing else *)
Definition slash_units (p : match_pattern) : Prop := Forall (fun x => In R_SL (pu_rules x) -> pu_rules x = [R_SL]) (mp_units p).
Lemma good_sshape : forall x, good_unit x -> (In R_SL (pu_rules x) -> pu_rules x = [R_SL]) -> sshape (uset x).
Proof.
  intros x G S. destruct (good_rules x G) as (N & U & _). rewrite U. destruct (in_dec (list_eq_dec N.eq_dec) R_SL (pu_rules x)) as [I|I]; [right; exact (S I)|]. left. split; [exact N|]. apply Forall_forall. intros r J. unfold not_sl.
  destruct (str_eqb r R_SL) eqn:E; [|reflexivity]. apply str_eqb_eq in E. subst r. contradiction.
Qed.
Lemma one_rule_sl : forall x, length (pu_rules x) <= 1 -> In R_SL (pu_rules x) -> pu_rules x = [R_SL].
Proof. intros x L I. destruct (pu_rules x) as [|r [|r' l]]; [destruct I| |cbn in L; lia]. destruct I as [->|[]]. reflexivity. Qed.

Theorem key_units : forall p s, mp_ok p -> mp_str p <> [] -> rparse (mp_str p) <> None -> multi (mp_view p) -> (mp_view p = VMixed -> slash_units p) -> all_legal s ->
  view_key (view_parts (mp_view p) (pp_of s)) = ukey p ->
  view_parts (mp_view p) (pp_of s) = map vpart (map cat (vgroups (mp_view p) s)) /\ map cset (map cat (vgroups (mp_view p) s)) = map uset (mp_units p).
Proof.
  intros p s OK NE R M SL L E. destruct (good_units p OK NE R) as [G _]. destruct (view_cases p OK M) as (N2 & VM & VL). destruct (view_groups (mp_view p) s L M) as [K D]. rewrite K, ukey_klist in E. clear K.
  set (gs := vgroups (mp_view p) s) in *. pose proof (vgroups_groups (mp_view p) s) as GR. fold gs in GR.
  assert (E' : klist (map cset (map cat gs)) = klist (map uset (mp_units p))).
  { apply concat_rules_inj; [apply klist_rules|apply klist_rules|exact E].
    - rewrite Forall_map. eapply Forall_impl; [|exact (legal_groups s gs L GR)]. intros t T. apply cset_rules. exact T.
    - rewrite Forall_map. eapply Forall_impl; [|exact G]. intros x X. destruct (good_rules x X) as (_ & U & F). rewrite U. exact F. }
  assert (EQ : map cset (map cat gs) = map uset (mp_units p)).
  { destruct M as [V|[V|V]]; unfold gs in *; rewrite V in *; cbn [vgroups] in *.
    - apply klist_sshape_inj; [| |exact E'].
      + eapply Forall_impl; [|exact (multi_mshape s L)]. apply mshape_sshape.
      + rewrite Forall_map. specialize (VM eq_refl). clear - VM G. induction G as [|x us X G IH]; [constructor|]. inversion VM as [|? ? V1 V2]; subst. constructor; [|apply IH; exact V2]. apply good_sshape; [exact X|]. apply one_rule_sl. destruct V1 as [V1|V1]; [|exact V1]. destruct (lit_one_rule x X V1) as (r & ->). apply le_n.
    - apply klist_sshape_inj; [| |exact E'].
      + eapply Forall_impl; [|exact (mixed_mshape s L)]. apply mshape_sshape.
      + rewrite Forall_map. specialize (SL eq_refl). unfold slash_units in SL. clear - SL G. induction G as [|x us X G IH]; [constructor|]. inversion SL; subst. constructor; [apply good_sshape; assumption|apply IH; assumption].
    - specialize (VL eq_refl). unfold ldsf_units in VL. destruct (mp_units p) as [|x1 [|x2 [|x3 [|x4 us]]]] eqn:EU; try discriminate. apply andb_true_iff in VL. destruct VL as [V2 V3].
      inversion G as [|? ? G1 Gr]; subst. inversion Gr as [|? ? G2 Gr2]; subst. inversion Gr2 as [|? ? G3 _]; subst. clear Gr Gr2 G.
      destruct (good_rules x2 G2) as (_ & U2 & _). destruct (good_rules x3 G3) as (N3 & U3 & _).
      assert (X2 : uset x2 = [R_DOT]). { rewrite U2. destruct (pu_rules x2) as [|r [|r' l]]; try discriminate. apply str_eqb_eq in V2. subst r. reflexivity. }
      cbn [map] in E' |- *. rewrite X2 in *. rewrite !klist_cons in E'. cbn [klist app] in E'. rewrite U3 in *. set (C1 := uset x1) in *. set (C3 := pu_rules x3) in *. clearbody C1 C3.
      assert (A3 : Forall (fun r => in_digit_ascii r = true) C3) by (apply Forall_forall; rewrite forallb_forall in V3; exact V3).
      destruct (g_ldsf_cases s) as [H|(n & d & e & F)].
      + exfalso. pose proof (cset_groups s _ L (groups_ldsf s)) as X. rewrite H in *. rewrite X in E'. cbn [map klist] in E'. fold (nset (runs s)) in E'. pose proof (nset_NoDup (runs s)) as ND. rewrite E' in ND. apply NoDup_remove_2 in ND. apply ND. apply in_app_iff. right. right. left. reflexivity.
      + rewrite (ldsf_csets s n d e L F) in *. destruct F as (RS & _ & A & _). apply nset_alnum in A. destruct e as [|y e]; cbn [is_nil] in *.
        * exfalso. rewrite klist_cons in E'. cbn [klist] in E'. destruct C3 as [|r l _] using rev_ind; [congruence|]. apply Forall_app in A3. destruct A3 as [_ A3]. inversion A3 as [|? ? A4 _]; subst.
          assert (Z : (nset n ++ [R_SL]) ++ [R_DOT] = (C1 ++ R_SL :: R_DOT :: R_SL :: l) ++ [r]) by (rewrite <- !app_assoc; cbn [app]; exact E'). apply last_eq in Z. destruct Z as [_ <-]. discriminate.
        * rewrite !klist_cons in E'. cbn [klist] in E'. assert (Z : (nset n ++ [R_SL; R_DOT]) ++ R_SL :: nset (y :: e) = (C1 ++ [R_SL; R_DOT]) ++ R_SL :: C3) by (rewrite <- !app_assoc; cbn [app]; exact E').
          apply (rspan_eq in_digit_ascii) in Z; [|reflexivity|assumption..]. destruct Z as [Z1 ->]. change [R_SL; R_DOT] with ([R_SL] ++ [R_DOT]) in Z1. rewrite !app_assoc in Z1. apply last_eq in Z1. destruct Z1 as [Z1 _]. apply last_eq in Z1. destruct Z1 as [-> _]. reflexivity. }
  split; [|exact EQ]. destruct D as [D|D]; [exact D|]. exfalso. apply (f_equal (@length _)) in EQ. rewrite !map_length in EQ. lia.
Qed.
