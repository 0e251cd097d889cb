(** Facts about the character and rule tables. *)
From Coq Require Import String.
From Verif Require Import PyStr Defs PyStrProofs Spec.
From Coq Require Import Lia.

(** Finite case analysis on a character: everything below 128 is computed. *)
Definition ascii_range : list N := map N.of_nat (seq 0 128).
Lemma ascii_range_In : forall c, (c < 128)%N -> In c ascii_range.
Proof.
  intros c H. unfold ascii_range. apply in_map_iff. exists (N.to_nat c).
  split; [apply N2Nat.id|]. apply in_seq. lia.
Qed.
Lemma ascii_forall : forall (f : N -> bool), forallb f ascii_range = true ->
  forall c, (c < 128)%N -> f c = true.
Proof. intros f H c Hc. rewrite forallb_forall in H. apply H, ascii_range_In, Hc. Qed.
Lemma lt_or_ge_128 : forall c, (c < 128)%N \/ (128 <= c)%N.
Proof. intros; lia. Qed.

Lemma char_in_ge : forall s c, forallb (fun x => x <? 128)%N s = true -> (128 <= c)%N -> char_in c s = false.
Proof.
  intros s c H Hc. apply char_in_false. intros X. rewrite forallb_forall in H.
  apply H in X. apply N.ltb_lt in X. lia.
Qed.

Lemma is_lower_ge : forall c, (128 <= c)%N -> is_lower c = false.
Proof. intros. unfold is_lower. apply andb_false_iff. right. apply N.leb_gt. lia. Qed.
Lemma is_upper_ge : forall c, (128 <= c)%N -> is_upper c = false.
Proof. intros. unfold is_upper. apply andb_false_iff. right. apply N.leb_gt. lia. Qed.
Lemma is_digit_ge : forall c, (128 <= c)%N -> is_digit c = false.
Proof. intros. unfold is_digit. apply andb_false_iff. right. apply N.leb_gt. lia. Qed.
Lemma is_alnum_ge : forall c, (128 <= c)%N -> is_alnum c = false.
Proof. intros. unfold is_alnum. rewrite is_lower_ge, is_upper_ge, is_digit_ge; auto. Qed.

Lemma char_rule_ge : forall c, (128 <= c)%N -> char_rule c = None.
Proof.
  intros. unfold char_rule. rewrite is_lower_ge, is_upper_ge, is_digit_ge by auto.
  rewrite !char_in_ge; auto.
Qed.

(** A boolean fact about a character with a rule is a finite check. *)
Lemma rule_forall : forall (f : N -> str -> bool),
  forallb (fun c => match char_rule c with Some r => f c r | None => true end) ascii_range = true ->
  forall c r, char_rule c = Some r -> f c r = true.
Proof.
  intros f H c r E.
  destruct (lt_or_ge_128 c) as [L|G].
  - pose proof (ascii_forall _ H c L) as X. simpl in X. rewrite E in X. auto.
  - rewrite char_rule_ge in E by auto. discriminate.
Qed.

Lemma legal_rule : forall c, legal c <-> exists r, char_rule c = Some r.
Proof.
  intros c. unfold legal. rewrite <- char_in_In.
  destruct (lt_or_ge_128 c) as [L|G].
  - pose proof (ascii_forall (fun c => Bool.eqb (char_in c legal_chars)
       (match char_rule c with Some _ => true | None => false end))
       ltac:(vm_compute; reflexivity) c L) as X.
    apply eqb_prop in X. rewrite X. destruct (char_rule c); split; eauto.
    + discriminate.
    + intros [r E]; discriminate.
  - rewrite char_rule_ge by auto. rewrite char_in_ge by (auto; vm_compute; reflexivity).
    split; [discriminate|]. intros [r E]; discriminate.
Qed.
Lemma not_legal_rule : forall c, ~ legal c <-> char_rule c = None.
Proof.
  intros c. rewrite legal_rule. destruct (char_rule c) as [r|]; split; auto.
  - intros H; exfalso; eauto.
  - discriminate.
  - intros _ [r E]; discriminate.
Qed.

Lemma rule_in_rules : forall c r, char_rule c = Some r -> in_rules r = true.
Proof. apply rule_forall. vm_compute. reflexivity. Qed.
Lemma in_rules_char : forall r, in_rules r = true -> exists c, char_rule c = Some r.
Proof.
  intros r H. apply str_in_In in H.
  assert (X : forallb (fun r => existsb (fun c => match char_rule c with
     Some r' => str_eqb r r' | None => false end) ascii_range) RULES = true)
    by (vm_compute; reflexivity).
  rewrite forallb_forall in X. apply X in H. apply existsb_exists in H as (c & _ & H).
  exists c. destruct (char_rule c); [|discriminate]. apply str_eqb_eq in H. congruence.
Qed.
Lemma alnum_rule : forall c, is_alnum c = true ->
  exists r, char_rule c = Some r /\ in_digit_ascii r = true /\ in_sign_rules r = false.
Proof.
  intros c H. destruct (lt_or_ge_128 c) as [L|G].
  - pose proof (ascii_forall (fun c => implb (is_alnum c) (match char_rule c with
       Some r => in_digit_ascii r && negb (in_sign_rules r) | None => false end))
       ltac:(vm_compute; reflexivity) c L) as X. simpl in X. rewrite H in X. simpl in X.
    destruct (char_rule c) as [r|]; [|discriminate]. exists r.
    apply andb_true_iff in X as [? X]. apply negb_true_iff in X. auto.
  - rewrite is_alnum_ge in H by auto. discriminate.
Qed.
Lemma sign_alnum : forall c r, char_rule c = Some r -> in_sign_rules r = negb (is_alnum c).
Proof.
  intros c r H.
  pose proof (rule_forall (fun c r => Bool.eqb (in_sign_rules r) (negb (is_alnum c)))
    ltac:(vm_compute; reflexivity) c r H) as X. apply eqb_prop in X; auto.
Qed.
Lemma sign_rule_inj : forall c d r, char_rule c = Some r -> char_rule d = Some r ->
  in_sign_rules r = true -> c = d.
Proof.
  intros c d r Hc Hd S.
  pose proof (rule_forall (fun c r => implb (in_sign_rules r)
     (forallb (fun d => match char_rule d with Some r' => implb (str_eqb r r') (N.eqb c d) | None => true end) ascii_range))
     ltac:(vm_compute; reflexivity) c r Hc) as X. cbv beta in X. rewrite S in X. cbn [implb] in X.
  rewrite forallb_forall in X.
  assert (L : (d < 128)%N).
  { destruct (lt_or_ge_128 d); auto. rewrite char_rule_ge in Hd; [discriminate|auto]. }
  specialize (X d (ascii_range_In d L)). rewrite Hd, str_eqb_refl in X. simpl in X.
  apply N.eqb_eq; auto.
Qed.
