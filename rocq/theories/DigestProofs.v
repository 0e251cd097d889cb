(** Fuzzy rules and digests (C14). *)
From Coq Require Import String.
From Verif Require Import PyStr Defs UrlLib ParseUtils Spec PyStrProofs DefsProofs PieceProofs UnitProofs BridgeProofs UrlProofs PackProofs.
From Coq Require Import Lia.

Lemma fuzzy_rule_concat : forall p, fuzzy_rule p = List.concat (sorted_set (rules p)).
Proof.
  intros [ps rs]. unfold fuzzy_rule. simpl. destruct rs as [|r [|r2 rs]]; auto.
  destruct r; simpl; rewrite ?app_nil_r; auto.
Qed.
(** the set of rules of a parsed piece is the set of rules of its characters *)
Lemma rules_of_chars : forall s r, all_legal s ->
  (In r (rules (pp_of s)) <-> exists c, In c s /\ char_rule c = Some r).
Proof.
  intros s r L. destruct (runs_spec s L) as (F & _ & C). unfold pp_of. cbn [rules].
  rewrite Forall_forall in F. split.
  - intros H. apply in_map_iff in H as ([r' w] & E & Hi). cbn [fst] in E. subst r'.
    pose proof (F _ Hi) as [Hw Hr]. cbn [fst snd] in *. destruct w as [|c w]; [congruence|].
    exists c. split.
    + rewrite <- C. apply in_concat. exists (c :: w). split; [|left; auto].
      apply in_map_iff. exists (r, c :: w). auto.
    + rewrite Forall_forall in Hr. apply Hr. left; auto.
  - intros (c & Hc & Hr). rewrite <- C in Hc. apply in_concat in Hc as (w & Hw & Hc).
    apply in_map_iff in Hw as ([r' w'] & E & Hi). cbn [snd] in E. subst w'.
    apply in_map_iff. exists (r', w). split; auto. cbn [fst].
    destruct (F _ Hi) as [_ G]. cbn [fst snd] in G. rewrite Forall_forall in G. apply G in Hc. congruence.
Qed.
Lemma rules_in_rules : forall s, all_legal s -> Forall (fun r => in_rules r = true) (rules (pp_of s)).
Proof.
  intros s L. apply Forall_forall. intros r H. apply rules_of_chars in H as (c & _ & E); auto.
  eapply rule_in_rules; eauto.
Qed.
Lemma concat_set_inj : forall l1 l2, Forall (fun r => in_rules r = true) l1 -> Forall (fun r => in_rules r = true) l2 ->
  List.concat (sorted_set l1) = List.concat (sorted_set l2) -> sorted_set l1 = sorted_set l2.
Proof.
  assert (X : forall l, Forall (fun r => in_rules r = true) l ->
    class_rules (S (length (List.concat (sorted_set l)))) (List.concat (sorted_set l)) [] = Ok (sorted_set l)).
  { intros l F. rewrite class_rules_concat; [|apply Forall_forall|lia].
    - rewrite fold_insert_set. rewrite sorted_set_id; auto. apply sorted_set_sorted.
    - intros r H. apply (proj1 (sorted_set_In l r)) in H. rewrite Forall_forall in F. apply F; auto. }
  intros l1 l2 F1 F2 E. pose proof (X l1 F1) as X1. rewrite E, (X l2 F2) in X1. inversion X1. auto.
Qed.
Lemma spaces_rules : forall s t, all_legal s -> all_legal t ->
  (same_spaces s t <-> forall r, In r (rules (pp_of s)) <-> In r (rules (pp_of t))).
Proof.
  intros s t Ls Lt. unfold same_spaces. split.
  - intros [H1 H2] r. rewrite !rules_of_chars by auto. split.
    + intros (c & Hc & E). destruct (H1 c Hc) as (d & Hd & Sd). exists d. split; auto.
      unfold all_legal in Lt. rewrite Forall_forall in Lt. destruct (Lt d Hd) as [rd Ed].
      rewrite (proj1 (same_space_rule c d r rd E Ed)) by auto. auto.
    + intros (c & Hc & E). destruct (H2 c Hc) as (d & Hd & Sd). exists d. split; auto.
      unfold all_legal in Ls. rewrite Forall_forall in Ls. destruct (Ls d Hd) as [rd Ed].
      rewrite <- (proj1 (same_space_rule d c rd r Ed E)) by auto. auto.
  - intros H. split.
    + intros x Hx. pose proof Ls as Ls'. unfold all_legal in Ls'. rewrite Forall_forall in Ls'.
      destruct (Ls' x Hx) as [r E]. assert (I : In r (rules (pp_of t))) by (apply H, rules_of_chars; eauto).
      apply rules_of_chars in I as (y & Hy & Ey); auto. exists y. split; auto. eapply same_space_rule; eauto.
    + intros x Hx. pose proof Lt as Lt'. unfold all_legal in Lt'. rewrite Forall_forall in Lt'.
      destruct (Lt' x Hx) as [r E]. assert (I : In r (rules (pp_of s))) by (apply H, rules_of_chars; eauto).
      apply rules_of_chars in I as (y & Hy & Ey); auto. exists y. split; auto. eapply same_space_rule; eauto.
Qed.
Lemma fuzzy_rule_iff : forall s t ps pt, piece_parse s = Ok ps -> piece_parse t = Ok pt ->
  (fuzzy_rule ps = fuzzy_rule pt <-> same_spaces s t).
Proof.
  intros s t ps pt Hs Ht. apply piece_parse_iff in Hs as [Ls ->], Ht as [Lt ->].
  rewrite !fuzzy_rule_concat, spaces_rules by auto. split.
  - intros E. apply concat_set_inj in E; try (apply rules_in_rules; auto).
    intros r. rewrite <- (sorted_set_In (rules (pp_of s))), <- (sorted_set_In (rules (pp_of t))), E. tauto.
  - intros H. f_equal. apply sorted_set_ext. auto.
Qed.
Lemma rule_special : forall c r, char_rule c = Some r -> forall x, In x (u "/?#&=") -> In x r -> x = c.
Proof.
  intros c r H x Hx Hr.
  pose proof (rule_forall (fun c r => forallb (fun x => negb (char_in x r) || N.eqb x c) (u "/?#&="))
     ltac:(vm_compute; reflexivity) c r H) as X. cbv beta in X. rewrite forallb_forall in X.
  apply X in Hx. apply char_in_In in Hr. rewrite Hr in Hx. apply N.eqb_eq in Hx. auto.
Qed.
Lemma fits_fuzzy : forall s p, piece_parse s = Ok p -> fits s (fuzzy_rule p).
Proof.
  intros s p H. apply piece_parse_iff in H as [L ->]. rewrite fuzzy_rule_concat. split.
  - intros c Hc I. apply in_concat in I as (r & Hr & I). apply (proj1 (sorted_set_In _ r)) in Hr.
    apply rules_of_chars in Hr as (d & Hd & E); auto. rewrite (rule_special d r E c Hc I). auto.
  - split.
    + intros E. destruct s as [|c s]; auto. exfalso.
      unfold all_legal in L. inversion L as [|? ? [r Er] L']; subst.
      assert (I : In r (sorted_set (rules (pp_of (c :: s))))).
      { apply sorted_set_In, rules_of_chars; auto. exists c. split; [left|]; auto. }
      apply in_split in I as (a & b & Eq). rewrite Eq, concat_app in E. apply app_eq_nil in E as [_ E].
      cbn [List.concat] in E. apply app_eq_nil in E as [E _].
      apply rule_in_rules in Er. destruct (rule_len_head r Er) as (x & y & Z & _). congruence.
    + intros ->. reflexivity.
Qed.
Lemma c14 : forall nv1 nv2 url1 url2 m1 m2 raw1 raw2 p1 p2,
  analyze_url nv1 url1 = Ok (m1, raw1) -> mapM piece_parse raw1 = Ok p1 ->
  analyze_url nv2 url2 = Ok (m2, raw2) -> mapM piece_parse raw2 = Ok p2 ->
  (fuzzy_digest m1 (map fuzzy_rule p1) = fuzzy_digest m2 (map fuzzy_rule p2) <->
   m1 = m2 /\ Forall2 same_spaces raw1 raw2).
Proof.
  intros nv1 nv2 url1 url2 m1 m2 raw1 raw2 p1 p2 A1 P1 A2 P2.
  apply mapM_ok in P1, P2. unfold fuzzy_digest, digest.
  assert (FF : forall raw p, Forall2 (fun x y => piece_parse x = Ok y) raw p -> Forall2 fits raw (map fuzzy_rule p)).
  { induction 1; constructor; auto. apply fits_fuzzy; auto. }
  split.
  - intros E. eapply pack_inj in E as [E1 E2]; eauto. split; auto.
    clear -P1 P2 E2. revert raw2 p2 P2 E2. induction P1 as [|x y l l' H F IH]; intros raw2 p2 P2 E2.
    + destruct P2; [constructor|discriminate].
    + destruct P2 as [|x2 y2 l2 l2' H2 F2]; [discriminate|]. cbn [map] in E2. injection E2 as Ea Eb.
      constructor; eauto. eapply fuzzy_rule_iff; eauto.
  - intros [-> F]. f_equal. clear -P1 P2 F. revert p1 p2 P1 P2.
    induction F as [|x y l l' H F IH]; intros p1 p2 P1 P2; inversion P1; inversion P2; subst; auto.
    cbn [map]. f_equal; auto. eapply fuzzy_rule_iff; eauto.
Qed.
