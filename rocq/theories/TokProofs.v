(** The patterns a clustering can give to a part of a piece: the text itself, a
    class with a length, a class with '+'.  Their tokens and their '/' *)
From Coq Require Import String.
From Verif Require Import PyStr Defs ParseUtils Views Spec PyStrProofs DefsProofs RegexProofs PieceProofs LengthProofs UnitProofs BridgeProofs DigestProofs.
From Coq Require Import Lia.

(** *** '/' outside of brackets *)
Inductive st := SOut | SIn | SEsc.
Definition scan1 (q : st) (c : char) : option st :=
  match q with
  | SOut => if N.eqb c 91 then Some SIn else if N.eqb c 47 then None else Some SOut
  | SIn => if N.eqb c 92 then Some SEsc else if N.eqb c 93 then Some SOut else Some SIn
  | SEsc => Some SIn
  end.
Fixpoint scan (q : st) (s : str) : option st :=
  match s with
  | [] => Some q
  | c :: r => match scan1 q c with Some q' => scan q' r | None => None end
  end.
Definition good (s : str) : Prop := scan SOut s = Some SOut.

Lemma scan_app : forall a b q, scan q (a ++ b) = match scan q a with Some q' => scan q' b | None => None end.
Proof.
  induction a as [|c a IH]; intros b q; [reflexivity|]. cbn [app scan]. destruct (scan1 q c) as [q'|]; [apply IH|reflexivity].
Qed.
Lemma good_app : forall a b, good a -> good b -> good (a ++ b).
Proof. unfold good. intros a b A B. rewrite scan_app, A. exact B. Qed.
Lemma good_nil : good [].
Proof. reflexivity. Qed.
Lemma good_concat : forall l, Forall good l -> good (List.concat l).
Proof. induction 1; [exact good_nil|]. cbn [List.concat]. apply good_app; assumption. Qed.
Lemma scan_head : forall a a' b b' q, scan q a = Some SOut -> scan q a' = Some SOut ->
  a ++ 47%N :: b = a' ++ 47%N :: b' -> a = a' /\ b = b'.
Proof.
  induction a as [|c a IH]; intros [|c' a'] b b' q A A' E; cbn [app] in E.
  - inversion E. auto.
  - inversion E; subst. cbn [scan] in *. inversion A; subst. cbn in A'. discriminate.
  - inversion E; subst. cbn [scan] in *. inversion A'; subst. cbn in A. discriminate.
  - inversion E; subst. cbn [scan] in *. destruct (scan1 q c') as [q'|]; [|discriminate].
    destruct (IH a' b b' q' A A' H1) as [-> ->]. auto.
Qed.
Lemma good_join : forall l l', length l = length l' -> Forall good l -> Forall good l' ->
  join [SLASH] l = join [SLASH] l' -> l = l'.
Proof.
  induction l as [|x l IH]; intros [|x' l'] L F F' E; try discriminate; [reflexivity|].
  inversion F as [|? ? G F1]; subst. inversion F' as [|? ? G' F1']; subst.
  destruct l as [|y l], l' as [|y' l']; try discriminate.
  - cbn [join] in E. congruence.
  - rewrite !join_cons in E. cbn [app] in E. apply (scan_head _ _ _ _ SOut) in E; [|exact G|exact G'].
    destruct E as [-> E]. f_equal. apply IH; [|exact F1|exact F1'|exact E]. cbn [length] in *. lia.
Qed.

Lemma alnum_good : forall s, Forall (fun c => is_alnum c = true) s -> good s.
Proof.
  unfold good. induction 1 as [|c s Hc F IH]; [reflexivity|]. cbn [scan].
  assert (X : scan1 SOut c = Some SOut).
  { destruct (lt_or_ge_128 c) as [L|G]; [|rewrite is_alnum_ge in Hc by exact G; discriminate].
    pose proof (ascii_forall (fun c => implb (is_alnum c) (match scan1 SOut c with Some SOut => true | _ => false end))
      ltac:(vm_compute; reflexivity) c L) as X. cbv beta in X. rewrite Hc in X. cbn [implb] in X.
    destruct (scan1 SOut c) as [[]|]; try discriminate. reflexivity. }
  rewrite X. exact IH.
Qed.
Lemma rule_scan : forall r, in_rules r = true -> scan SIn r = Some SIn.
Proof.
  intros r H. apply str_in_In in H.
  assert (X : forallb (fun r => match scan SIn r with Some SIn => true | _ => false end) RULES = true) by (vm_compute; reflexivity).
  rewrite forallb_forall in X. apply X in H. destruct (scan SIn r) as [[]|]; try discriminate. reflexivity.
Qed.
Lemma rules_scan : forall rs, Forall (fun r => in_rules r = true) rs -> scan SIn (List.concat rs) = Some SIn.
Proof.
  induction 1 as [|r rs Hr F IH]; [reflexivity|]. cbn [List.concat]. rewrite scan_app, rule_scan by exact Hr. exact IH.
Qed.
Lemma qstr_scan : forall q, scan SOut (qstr q) = Some SOut.
Proof.
  intros [n|]; [|reflexivity]. unfold qstr. destruct (N.eqb n 1); [reflexivity|]. cbn [scan].
  change (scan1 SOut BRACES_L) with (Some SOut). cbv iota. rewrite scan_app.
  rewrite (alnum_good (dec_str n)); [reflexivity|]. eapply Forall_impl; [|apply dec_str_digits].
  intros c H. cbv beta in H. unfold is_alnum. rewrite H. apply Bool.orb_true_r.
Qed.
Lemma unit_good : forall rs q, Forall (fun r => in_rules r = true) rs -> good (unit_str (List.concat rs) q).
Proof.
  intros rs q F. unfold good, unit_str. cbn [scan]. change (scan1 SOut BRACKETS_L) with (Some SIn). cbv iota.
  rewrite scan_app, rules_scan by exact F. cbn [scan]. change (scan1 SIn BRACKETS_R) with (Some SOut). cbv iota. apply qstr_scan.
Qed.
Lemma render_good : forall rw, run_ok rw -> good (render rw).
Proof.
  intros rw H. unfold render. destruct (in_sign_rules (fst rw)) eqn:S.
  - pose proof (unit_good [fst rw]) as X. cbn [List.concat] in X. rewrite app_nil_r in X. apply X.
    constructor; [apply run_ok_in_rules; exact H|constructor].
  - apply alnum_good. apply run_ok_alnum; assumption.
Qed.
Lemma piece_good : forall s, all_legal s -> good (piece (pp_of s)).
Proof.
  intros s H. apply runs_spec in H. destruct H as (F & _). unfold piece, pp_of. cbn [pieces]. apply good_concat.
  rewrite Forall_map. eapply Forall_impl; [|exact F]. intros rw. apply render_good.
Qed.

(** *** rules of tokens *)
Definition item_rule (i : Spec.item) : str :=
  match i with
  | IRange a b => [a; 45%N; b]
  | IChar c => match char_rule c with Some r => r | None => [] end
  end.
Definition trules (k : rtok) : list str := map item_rule (rset k).
Lemma item_rule_item : forall r, in_rules r = true -> item_rule (rule_item r) = r.
Proof.
  intros r H. apply str_in_In in H.
  assert (X : forallb (fun r => str_eqb (item_rule (rule_item r)) r) RULES = true) by (vm_compute; reflexivity).
  rewrite forallb_forall in X. apply X in H. apply str_eqb_eq. exact H.
Qed.
Lemma item_rules : forall rs, Forall (fun r => in_rules r = true) rs -> map item_rule (map rule_item rs) = rs.
Proof.
  intros rs F. rewrite map_map. rewrite <- (map_id rs) at 2. apply map_ext_in. intros r I. apply item_rule_item.
  rewrite Forall_forall in F. apply F. exact I.
Qed.

Definition cset (s : str) : list str := sorted_set (rules (pp_of s)).
Lemma fuzzy_cset : forall s, fuzzy_rule (pp_of s) = List.concat (cset s).
Proof. intros. apply fuzzy_rule_concat. Qed.
Lemma cset_rules : forall s, all_legal s -> Forall (fun r => in_rules r = true) (cset s).
Proof.
  intros s H. apply Forall_forall. intros r I. unfold cset in I. apply (proj1 (sorted_set_In _ _)) in I.
  pose proof (rules_in_rules s H) as X. rewrite Forall_forall in X. apply X. exact I.
Qed.
Lemma cset_chars : forall s r, all_legal s -> (In r (cset s) <-> exists c, In c s /\ char_rule c = Some r).
Proof. intros s r H. unfold cset. rewrite sorted_set_In. apply rules_of_chars. exact H. Qed.
Lemma cset_nil : forall s, all_legal s -> cset s = [] -> s = [].
Proof.
  intros [|c s] H E; [reflexivity|]. exfalso. inversion H as [|? ? [r Hr] _]; subst.
  assert (I : In r (cset (c :: s))) by (apply cset_chars; [exact H|exists c; split; [left; reflexivity|exact Hr]]).
  rewrite E in I. destruct I.
Qed.
Lemma cset_fuzzy : forall s t, all_legal s -> all_legal t ->
  (fuzzy_rule (pp_of s) = fuzzy_rule (pp_of t) <-> cset s = cset t).
Proof.
  intros s t Hs Ht. rewrite !fuzzy_cset. split; [|congruence]. intros E.
  apply concat_set_inj; [apply rules_in_rules; exact Hs|apply rules_in_rules; exact Ht|exact E].
Qed.

Definition ltoks (s : str) : list rtok := List.concat (map run_toks (runs s)).
Lemma run_trules : forall rw, run_ok rw -> Forall (fun k => trules k = [fst rw]) (run_toks rw) /\ run_toks rw <> [].
Proof.
  intros rw H. unfold run_toks. destruct (in_sign_rules (fst rw)) eqn:S.
  - split; [|discriminate]. constructor; [|constructor]. unfold trules. cbn [rset map].
    rewrite item_rule_item by (apply run_ok_in_rules; exact H). reflexivity.
  - destruct H as [N F]. split.
    + rewrite Forall_map. eapply Forall_impl; [|exact F]. intros c Hc. cbv beta in Hc. unfold trules. cbn [rset map item_rule].
      rewrite Hc. reflexivity.
    + intros E. apply map_eq_nil in E. auto.
Qed.

(** *** patterns of a part *)
Definition pl (s : str) : N := N.of_nat (length s + bs_starts false s).
Inductive kind1 := KLit | KSpec | KWild.
Definition pstr (s : str) (k : kind1) : str :=
  match k with
  | KLit => piece (pp_of s)
  | KSpec => unit_str (List.concat (cset s)) (Some (pl s))
  | KWild => unit_str (List.concat (cset s)) None
  end.
Definition ptoks (s : str) (k : kind1) : list rtok :=
  match k with
  | KLit => ltoks s
  | KSpec => [RT (map rule_item (cset s)) (Some (pl s))]
  | KWild => [RT (map rule_item (cset s)) None]
  end.
Definition kok (s : str) (k : kind1) : Prop :=
  match k with
  | KLit => True
  | KSpec => s <> [] /\ exists s', all_legal s' /\ s' <> s /\ cset s' = cset s /\ pl s' = pl s
  | KWild => s <> []
  end.
Lemma pstr_rparse : forall s k, all_legal s -> kok s k -> rparse (pstr s k) = Some (ptoks s k).
Proof.
  intros s k L K.
  assert (N : k <> KLit -> cset s <> []).
  { intros N E. apply cset_nil in E; [|exact L]. destruct k; [congruence| |]; [destruct K|]; auto. }
  destruct k; cbn [pstr ptoks].
  - apply rparse_piece. exact L.
  - apply rparse_unit; [apply N; discriminate|apply cset_rules; exact L].
  - apply rparse_unit; [apply N; discriminate|apply cset_rules; exact L].
Qed.
Lemma pstr_good : forall s k, all_legal s -> good (pstr s k).
Proof.
  intros s [] L; cbn [pstr]; [apply piece_good; exact L| |]; apply unit_good; apply cset_rules; exact L.
Qed.

Lemma sign_runs_one : forall s r, all_legal s -> cset s = [r] -> in_sign_rules r = true ->
  exists c, char_rule c = Some r /\ s = repeat c (length s).
Proof.
  intros s r L E S. destruct (in_rules_char r) as [c Hc].
  { pose proof (cset_rules s L) as F. rewrite E in F. inversion F; assumption. }
  exists c. split; [exact Hc|]. apply Forall_eq_repeat. apply Forall_forall. intros d I.
  unfold all_legal in L. pose proof L as L'. rewrite Forall_forall in L'. destruct (L' d I) as [r' R'].
  assert (X : In r' (cset s)) by (apply cset_chars; [exact L|exists d; auto]). rewrite E in X. destruct X as [X|[]]. subst r'.
  eapply sign_rule_inj; eauto.
Qed.
Lemma bs_starts_repeat : forall c n m, (c = 92%N -> n = 0 <-> m = 0) -> bs_starts false (repeat c n) = bs_starts false (repeat c m).
Proof.
  assert (T : forall n, bs_starts true (repeat 92%N n) = 0) by (induction n; [reflexivity|exact IHn]).
  intros c n m H. destruct (N.eqb_spec c 92) as [->|NE].
  - specialize (H eq_refl). destruct n, m; try reflexivity; try (exfalso; lia). cbn [repeat bs_starts]. rewrite !T. reflexivity.
  - rewrite !bs_starts_zero; [reflexivity| |]; intros I; apply repeat_spec in I; congruence.
Qed.
(** a text of one symbol is determined by its length *)
Lemma sign_no_spec : forall s r, all_legal s -> cset s = [r] -> in_sign_rules r = true -> ~ kok s KSpec.
Proof.
  intros s r L E S (NE & s' & L' & D & C & P). apply D.
  destruct (sign_runs_one s r L E S) as (c & Hc & Es). rewrite E in C. destruct (sign_runs_one s' r L' C S) as (c' & Hc' & Es').
  assert (c' = c) as -> by (eapply sign_rule_inj; eauto). unfold pl in P.
  assert (N' : s' <> []). { intros ->. apply (f_equal (@length str)) in C. discriminate. }
  assert (B : bs_starts false s' = bs_starts false s).
  { rewrite Es, Es'. apply bs_starts_repeat. intros _. destruct s, s'; try congruence. cbn [length]. split; discriminate. }
  rewrite B in P. assert (length s' = length s) by lia. rewrite Es, Es'. congruence.
Qed.
