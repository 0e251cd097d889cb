(** Facts about the Python built-ins of PyStr.v. *)
From Coq Require Import String.
From Verif Require Import PyStr Defs UrlLib.
From Coq Require Import Lia Sorted Permutation.

Lemma str_eqb_eq : forall a b, str_eqb a b = true <-> a = b.
Proof.
  induction a as [|x a IH]; destruct b as [|y b]; simpl; try (split; congruence).
  rewrite andb_true_iff, N.eqb_eq, IH. split; [intros [-> ->]; auto|intros H; inversion H; auto].
Qed.
Lemma str_eqb_refl : forall a, str_eqb a a = true.
Proof. intros; apply str_eqb_eq; reflexivity. Qed.
Lemma str_eqb_neq : forall a b, str_eqb a b = false <-> a <> b.
Proof.
  intros a b. rewrite <- str_eqb_eq. destruct (str_eqb a b); split; congruence.
Qed.
Lemma str_eqb_spec : forall a b, reflect (a = b) (str_eqb a b).
Proof.
  intros. destruct (str_eqb a b) eqn:E; constructor.
  - apply str_eqb_eq; auto.
  - apply str_eqb_neq; auto.
Qed.
Lemma str_eqb_sym : forall a b, str_eqb a b = str_eqb b a.
Proof.
  intros. destruct (str_eqb_spec a b), (str_eqb_spec b a); congruence.
Qed.
Definition str_dec : forall a b : str, {a = b} + {a <> b} := list_eq_dec N.eq_dec.

Lemma char_in_In : forall c s, char_in c s = true <-> In c s.
Proof.
  intros. unfold char_in. rewrite existsb_exists. split.
  - intros (x & Hx & E). apply N.eqb_eq in E. subst; auto.
  - intros H. exists c. split; auto. apply N.eqb_refl.
Qed.
Lemma char_in_false : forall c s, char_in c s = false <-> ~ In c s.
Proof.
  intros. rewrite <- char_in_In. destruct (char_in c s); intuition congruence.
Qed.
Lemma str_in_In : forall x l, str_in x l = true <-> In x l.
Proof.
  intros. unfold str_in. rewrite existsb_exists. split.
  - intros (y & Hy & E). apply str_eqb_eq in E. subst; auto.
  - intros H. exists x. split; auto. apply str_eqb_refl.
Qed.
Lemma str_in_false : forall x l, str_in x l = false <-> ~ In x l.
Proof.
  intros. rewrite <- str_in_In. destruct (str_in x l); intuition congruence.
Qed.

(** ** Order *)
Lemma str_ltb_irrefl : forall a, str_ltb a a = false.
Proof. induction a; simpl; auto. rewrite N.eqb_refl; auto. Qed.
Lemma str_ltb_trans : forall a b c,
  str_ltb a b = true -> str_ltb b c = true -> str_ltb a c = true.
Proof.
  induction a as [|x a IH]; intros [|y b] [|z c]; simpl; try congruence.
  destruct (N.eqb_spec x y), (N.eqb_spec y z), (N.eqb_spec x z); subst; try congruence;
    rewrite ?N.ltb_lt; try lia; eauto.
Qed.
Lemma str_ltb_total : forall a b, a = b \/ str_ltb a b = true \/ str_ltb b a = true.
Proof.
  induction a as [|x a IH]; intros [|y b]; simpl; auto.
  rewrite (N.eqb_sym y x).
  destruct (N.eqb_spec x y) as [->|n].
  - destruct (IH b) as [->|[H|H]]; auto.
  - rewrite !N.ltb_lt. right. lia.
Qed.
Lemma str_ltb_asym : forall a b, str_ltb a b = true -> str_ltb b a = false.
Proof.
  intros a b H. destruct (str_ltb b a) eqn:E; auto.
  pose proof (str_ltb_trans _ _ _ H E) as X. rewrite str_ltb_irrefl in X; auto.
Qed.
Definition str_lt (a b : str) : Prop := str_ltb a b = true.

(** ** Sets *)
Lemma set_insert_In : forall x l y, In y (set_insert x l) <-> y = x \/ In y l.
Proof.
  induction l as [|z l IH]; simpl; intros y.
  - intuition.
  - destruct (str_eqb_spec x z) as [->|n].
    + simpl. intuition.
    + destruct (str_ltb x z); simpl; rewrite ?IH; intuition.
Qed.
Lemma sorted_set_In : forall l y, In y (sorted_set l) <-> In y l.
Proof.
  induction l as [|x l IH]; simpl; intros y; [tauto|].
  rewrite set_insert_In, IH. intuition.
Qed.
Lemma set_insert_sorted : forall x l,
  StronglySorted str_lt l -> StronglySorted str_lt (set_insert x l).
Proof.
  induction l as [|z l IH]; simpl; intros H.
  - repeat constructor.
  - inversion H as [|? ? Hs Hf]; subst.
    destruct (str_eqb_spec x z) as [->|n]; auto.
    destruct (str_ltb x z) eqn:E.
    + constructor; auto. constructor; auto.
      eapply Forall_impl; [|exact Hf]. intros a Ha. eapply str_ltb_trans; eauto.
    + constructor; auto. apply Forall_forall. intros y Hy.
      apply set_insert_In in Hy. destruct Hy as [->|Hy].
      * destruct (str_ltb_total x z) as [|[|]]; try congruence; auto.
      * rewrite Forall_forall in Hf; auto.
Qed.
Lemma sorted_set_sorted : forall l, StronglySorted str_lt (sorted_set l).
Proof. induction l; simpl; [constructor|apply set_insert_sorted; auto]. Qed.
Lemma sorted_unique : forall l1 l2,
  StronglySorted str_lt l1 -> StronglySorted str_lt l2 ->
  (forall x, In x l1 <-> In x l2) -> l1 = l2.
Proof.
  induction l1 as [|a l1 IH]; intros [|b l2] H1 H2 E; auto.
  - exfalso. apply (proj2 (E b)); left; auto.
  - exfalso. apply (proj1 (E a)); left; auto.
  - inversion H1 as [|? ? S1 F1]; inversion H2 as [|? ? S2 F2]; subst.
    rewrite Forall_forall in F1, F2.
    assert (a = b).
    { destruct (proj1 (E a) (or_introl eq_refl)) as [|Ha]; auto.
      destruct (proj2 (E b) (or_introl eq_refl)) as [|Hb]; auto.
      pose proof (F1 _ Hb) as X; pose proof (F2 _ Ha) as Y.
      unfold str_lt in *. rewrite (str_ltb_asym _ _ X) in Y. discriminate. }
    subst b. f_equal. apply IH; auto.
    intros x. split; intros Hx.
    + destruct (proj1 (E x) (or_intror Hx)) as [<-|]; auto.
      pose proof (F1 _ Hx) as X. unfold str_lt in X. rewrite str_ltb_irrefl in X. discriminate.
    + destruct (proj2 (E x) (or_intror Hx)) as [<-|]; auto.
      pose proof (F2 _ Hx) as X. unfold str_lt in X. rewrite str_ltb_irrefl in X. discriminate.
Qed.
Lemma sorted_set_ext : forall l1 l2, (forall x, In x l1 <-> In x l2) -> sorted_set l1 = sorted_set l2.
Proof.
  intros. apply sorted_unique; try apply sorted_set_sorted.
  intros x. rewrite !sorted_set_In. auto.
Qed.
Lemma set_insert_noop : forall x l, StronglySorted str_lt l -> In x l -> set_insert x l = l.
Proof.
  intros. apply sorted_unique; auto using set_insert_sorted.
  intros y. rewrite set_insert_In. intuition; subst; auto.
Qed.
Lemma sorted_set_id : forall l, StronglySorted str_lt l -> sorted_set l = l.
Proof. intros. apply sorted_unique; auto using sorted_set_sorted. intros; apply sorted_set_In. Qed.
Lemma sorted_NoDup : forall l, StronglySorted str_lt l -> NoDup l.
Proof.
  induction 1 as [|a l S IH F]; constructor; auto.
  intros H. rewrite Forall_forall in F. apply F in H. unfold str_lt in H.
  rewrite str_ltb_irrefl in H; discriminate.
Qed.
Lemma sorted_set_length_le : forall l, length (sorted_set l) <= length l.
Proof.
  intros. apply NoDup_incl_length.
  - apply sorted_NoDup, sorted_set_sorted.
  - intros x; apply sorted_set_In.
Qed.
Lemma sorted_set_nil_iff : forall l, sorted_set l = [] <-> l = [].
Proof.
  intros l. split.
  - intros H. destruct l as [|x l]; auto. exfalso.
    assert (X : In x (sorted_set (x :: l))) by (apply sorted_set_In; left; auto).
    rewrite H in X. inversion X.
  - intros ->; reflexivity.
Qed.

(** ** Exceptions *)
Lemma Forall2_length : forall A B (P : A -> B -> Prop) l l', Forall2 P l l' -> length l = length l'.
Proof. induction 1; simpl; auto. Qed.
Lemma bind_ok : forall A B (m : res A) (f : A -> res B) b,
  bind m f = Ok b -> exists a, m = Ok a /\ f a = Ok b.
Proof. intros A B [a|e] f b; simpl; intros H; [eauto|discriminate]. Qed.
Lemma mapM_ok : forall A B (f : A -> res B) l l',
  mapM f l = Ok l' <-> Forall2 (fun x y => f x = Ok y) l l'.
Proof.
  induction l as [|x l IH]; simpl; intros l'.
  - split; intros H; [inversion H; constructor|inversion H; auto].
  - split; intros H.
    + apply bind_ok in H as (y & Hy & H). apply bind_ok in H as (ys & Hys & H).
      inversion H; subst. constructor; auto. apply IH; auto.
    + inversion H as [|? y ? ys Hy Hys]; subst. rewrite Hy; simpl.
      apply IH in Hys. rewrite Hys; auto.
Qed.
Lemma mapM_pure : forall A B (f : A -> res B) (g : A -> B) l,
  (forall x, In x l -> f x = Ok (g x)) -> mapM f l = Ok (map g l).
Proof.
  induction l as [|x l IH]; simpl; intros H; auto.
  rewrite (H x) by auto; simpl. rewrite IH by auto. auto.
Qed.
Lemma mapM_length : forall A B (f : A -> res B) l l', mapM f l = Ok l' -> length l' = length l.
Proof. intros A B f l l' H. apply mapM_ok in H. symmetry. eapply Forall2_length; eauto. Qed.

(** ** Decimal numbers *)
Lemma decimal_value_ascii : forall d, (d < 10)%N -> decimal_value (48 + d)%N = Some d.
Proof.
  intros d H. unfold decimal_value, decimal_zeros. cbn [decimal_in].
  replace ((48 <=? 48 + d) && (48 + d <? 48 + 10))%N with true.
  - f_equal. lia.
  - symmetry. apply andb_true_iff. rewrite N.leb_le, N.ltb_lt. lia.
Qed.
Lemma decimal_value_digit : forall c, is_digit c = true -> decimal_value c = Some (c - 48)%N.
Proof.
  intros c H. unfold is_digit in H. apply andb_true_iff in H. rewrite !N.leb_le in H.
  replace c with (48 + (c - 48))%N at 1 by lia. apply decimal_value_ascii. lia.
Qed.
Fixpoint dval (ds : str) (a : N) : N :=
  match ds with [] => a | c :: r => dval r (10 * a + (c - 48))%N end.
Lemma dval_app : forall x y a, dval (x ++ y) a = dval y (dval x a).
Proof. induction x; simpl; auto. Qed.
Lemma int_acc_digits : forall ds a, Forall (fun c => is_digit c = true) ds ->
  int_acc ds a = Ok (dval ds a).
Proof.
  induction ds as [|c ds IH]; intros a F; auto.
  inversion F; subst. cbn [int_acc]. rewrite decimal_value_digit by auto. apply IH; auto.
Qed.
Lemma dec_aux_spec : forall fuel n acc,
  (n < 2 ^ N.of_nat fuel)%N -> fuel <> O ->
  exists ds, dec_aux fuel n acc = ds ++ acc /\ Forall (fun c => is_digit c = true) ds
     /\ ds <> [] /\ dval ds 0 = n.
Proof.
  induction fuel as [|fuel IH]; intros n acc Hn Hf; [congruence|].
  cbn [dec_aux]. cbv zeta.
  assert (D : is_digit (48 + n mod 10)%N = true).
  { unfold is_digit. pose proof (N.mod_lt n 10 ltac:(discriminate)) as H.
    rewrite andb_true_iff, !N.leb_le.
    revert H; generalize (n mod 10)%N; clear; intros; lia. }
  destruct (n <? 10)%N eqn:E.
  - apply N.ltb_lt in E. rewrite N.mod_small in * by auto.
    exists [(48 + n)%N]. repeat split; auto; try discriminate.
    cbn [dval]. lia.
  - apply N.ltb_ge in E.
    assert (Hd : (n / 10 < 2 ^ N.of_nat fuel)%N).
    { rewrite Nat2N.inj_succ, N.pow_succ_r' in Hn.
      apply N.div_lt_upper_bound; lia. }
    assert (Hf' : fuel <> O).
    { intros ->. change (2 ^ N.of_nat 1)%N with 2%N in Hn. lia. }
    destruct (IH (n / 10)%N ((48 + n mod 10)%N :: acc) Hd Hf') as (ds & H1 & H2 & H3 & H4).
    exists (ds ++ [(48 + n mod 10)%N]). rewrite H1, <- app_assoc. split; auto. split; [|split].
    + apply Forall_app; auto.
    + destruct ds; discriminate.
    + rewrite dval_app, H4. cbn [dval].
      rewrite (N.div_mod' n 10) at 3. f_equal.
      generalize (n mod 10)%N; intros; lia.
Qed.
Lemma log2_fuel : forall n, (n < 2 ^ N.of_nat (S (N.to_nat (N.log2 n))))%N.
Proof.
  intros n. rewrite Nat2N.inj_succ, N2Nat.id.
  destruct (N.eq_dec n 0) as [->|H]; [simpl; lia|].
  apply N.log2_spec; lia.
Qed.
Lemma dec_str_spec : forall n, Forall (fun c => is_digit c = true) (dec_str n)
  /\ dec_str n <> [] /\ dval (dec_str n) 0 = n.
Proof.
  intros n. unfold dec_str.
  destruct (dec_aux_spec (S (N.to_nat (N.log2 n))) n [] (log2_fuel n)) as (ds & H1 & H2 & H3 & H4); [discriminate|].
  rewrite H1, app_nil_r. auto.
Qed.
Lemma dec_str_int : forall n, py_int (dec_str n) = Ok n.
Proof.
  intros n. destruct (dec_str_spec n) as (F & Hn & Hv).
  unfold py_int. destruct (dec_str n) eqn:E; [congruence|]. rewrite <- E in *.
  rewrite int_acc_digits; congruence.
Qed.
Lemma dec_str_inj : forall n m, dec_str n = dec_str m -> n = m.
Proof.
  intros n m H. pose proof (dec_str_int n) as A. rewrite H, dec_str_int in A. congruence.
Qed.
Lemma dec_str_digits : forall n, Forall (fun c => is_digit c = true) (dec_str n).
Proof. intros n. apply dec_str_spec. Qed.
Lemma dec_str_nonempty : forall n, dec_str n <> [].
Proof.
  intros n H. pose proof (dec_str_int n) as A. rewrite H in A. discriminate.
Qed.
Lemma dec_str_isdigit : forall n, isdigit (dec_str n) = true.
Proof.
  intros n. pose proof (dec_str_nonempty n). pose proof (dec_str_digits n) as F.
  unfold isdigit. destruct (dec_str n) eqn:E; [congruence|]. rewrite <- E in *.
  apply forallb_forall. rewrite Forall_forall in F. intros x Hx. apply F in Hx.
  unfold isdigit_char. rewrite decimal_value_digit; auto.
Qed.

(** ** cut, split and join *)
Lemma cut_app : forall c a b, ~ In c a -> cut c (a ++ c :: b) = Some (a, b).
Proof.
  induction a as [|x a IH]; simpl; intros b H.
  - rewrite N.eqb_refl; auto.
  - destruct (N.eqb_spec x c); [exfalso; auto|]. rewrite IH; auto.
Qed.
Lemma cut_some : forall c s a b, cut c s = Some (a, b) -> s = a ++ c :: b /\ ~ In c a.
Proof.
  induction s as [|x s IH]; simpl; intros a b H; [discriminate|].
  destruct (N.eqb_spec x c).
  - inversion H; subst; auto.
  - destruct (cut c s) as [[a' b']|]; [|discriminate]. inversion H; subst.
    destruct (IH _ _ eq_refl) as [-> H']. split; auto. simpl; intuition.
Qed.
Lemma cut_none : forall c s, cut c s = None <-> ~ In c s.
Proof.
  induction s as [|x s IH]; simpl; [intuition|].
  destruct (N.eqb_spec x c).
  - split; [discriminate|]. intros H; exfalso; auto.
  - destruct (cut c s) as [[a b]|].
    + split; [discriminate|]. intros H. exfalso. apply H. right.
      destruct (in_dec N.eq_dec c s); auto. exfalso. apply IH in n0. discriminate.
    + split; auto. intros _ [|]; auto. apply IH; auto.
Qed.
Lemma cut_length : forall c s a b, cut c s = Some (a, b) -> length s = length a + S (length b).
Proof. intros. apply cut_some in H as [-> _]. rewrite app_length. auto. Qed.

Lemma split_char_nonnil : forall c s, split_char c s <> [].
Proof.
  induction s as [|x s IH]; simpl; [discriminate|].
  destruct (N.eqb x c); [discriminate|]. destruct (split_char c s); [auto|discriminate].
Qed.
Lemma split_join : forall c s, join [c] (split_char c s) = s.
Proof.
  induction s as [|x s IH]; simpl; auto.
  destruct (N.eqb_spec x c) as [->|n].
  - destruct (split_char c s) eqn:E; [exfalso; eapply split_char_nonnil; eauto|].
    simpl in *. rewrite IH; auto.
  - destruct (split_char c s) as [|w ws] eqn:E; [exfalso; eapply split_char_nonnil; eauto|].
    destruct ws; simpl in *; congruence.
Qed.
Lemma split_char_nosep : forall c s w, In w (split_char c s) -> ~ In c w.
Proof.
  induction s as [|x s IH]; simpl; intros w H.
  - destruct H as [<-|[]]; auto.
  - destruct (N.eqb_spec x c) as [->|n].
    + destruct H as [<-|H]; auto.
    + destruct (split_char c s) as [|w' ws] eqn:E.
      * destruct H as [<-|[]]. simpl; intuition.
      * destruct H as [<-|H].
        -- intros [|H']; auto. eapply IH; [left; reflexivity|auto].
        -- eapply IH; right; auto.
Qed.
Lemma split_char_app : forall c a s, ~ In c a ->
  split_char c (a ++ s) =
  match split_char c s with w :: ws => (a ++ w) :: ws | [] => [a] end.
Proof.
  induction a as [|x a IH]; simpl; intros s H.
  - destruct (split_char c s) eqn:E; [exfalso; eapply split_char_nonnil; eauto|auto].
  - destruct (N.eqb_spec x c); [exfalso; auto|]. rewrite IH by auto.
    destruct (split_char c s); auto.
Qed.
Lemma split_char_sep : forall c s, split_char c (c :: s) = [] :: split_char c s.
Proof. intros. simpl. rewrite N.eqb_refl. auto. Qed.
Lemma split_join_inv : forall c l, l <> [] -> Forall (fun w => ~ In c w) l ->
  split_char c (join [c] l) = l.
Proof.
  induction l as [|a l IH]; intros Hn F; [congruence|].
  inversion F as [|? ? Ha Fl]; subst.
  destruct l as [|b l].
  - simpl. rewrite <- (app_nil_r a) at 1. rewrite split_char_app by auto. simpl.
    rewrite app_nil_r; auto.
  - change (join [c] (a :: b :: l)) with (a ++ c :: join [c] (b :: l)).
    rewrite split_char_app by auto.
    rewrite split_char_sep, IH by (auto; discriminate). rewrite app_nil_r. auto.
Qed.
Lemma join_inj : forall c l1 l2, l1 <> [] -> l2 <> [] ->
  Forall (fun w => ~ In c w) l1 -> Forall (fun w => ~ In c w) l2 ->
  join [c] l1 = join [c] l2 -> l1 = l2.
Proof.
  intros. rewrite <- (split_join_inv c l1), <- (split_join_inv c l2) by auto. congruence.
Qed.
Lemma join_cons : forall sep x y l, join sep (x :: y :: l) = x ++ sep ++ join sep (y :: l).
Proof. reflexivity. Qed.

Lemma is_digit_not : forall c x, is_digit c = true -> is_digit x = false -> c <> x.
Proof. congruence. Qed.
