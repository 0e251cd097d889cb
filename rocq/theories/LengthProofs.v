(** ParsedPiece.piece_length: proofs. *)
From Coq Require Import String.
From Verif Require Import PyStr Defs ParseUtils PyStrProofs DefsProofs Spec RegexProofs PieceProofs.
From Coq Require Import Lia.

Definition BS_RULE : str := [BACKSLASH; BACKSLASH].
Definition bs (r : str) : Z := if str_eqb r BS_RULE then 1 else 0.

(** characters that piece_length passes over *)
Definition inert (c : char) : bool :=
  negb (N.eqb c BRACKETS_L || N.eqb c BRACKETS_R || N.eqb c BACKSLASH || N.eqb c BRACES_L).
Lemma alnum_inert : forall c, is_alnum c = true -> inert c = true.
Proof.
  intros c H. destruct (lt_or_ge_128 c) as [L|G].
  - pose proof (ascii_forall (fun c => implb (is_alnum c) (inert c)) ltac:(vm_compute; reflexivity) c L) as X.
    cbv beta in X. rewrite H in X. auto.
  - rewrite is_alnum_ge in H by auto. discriminate.
Qed.
Lemma inert_false : forall c, inert c = true ->
  N.eqb c BRACKETS_L = false /\ N.eqb c BRACKETS_R = false /\ N.eqb c BACKSLASH = false /\ N.eqb c BRACES_L = false.
Proof.
  intros c H. unfold inert in H. apply negb_true_iff in H.
  apply orb_false_iff in H as [H ?]. apply orb_false_iff in H as [H ?]. apply orb_false_iff in H as [? ?]. auto.
Qed.
Lemma plen_inert : forall w fuel whole prev rest len,
  Forall (fun c => inert c = true) w -> length w <= fuel ->
  plen_loop fuel whole prev (w ++ rest) len =
  plen_loop (fuel - length w) whole (match rev w with c :: _ => Some c | [] => prev end) rest len.
Proof.
  induction w as [|c w IH]; intros fuel whole prev rest len F H.
  - simpl. rewrite Nat.sub_0_r. auto.
  - inversion F as [|? ? Hc Fw]; subst. simpl in H. destruct fuel as [|fuel]; [lia|].
    destruct (inert_false c Hc) as (E1 & E2 & E3 & E4).
    cbn [app plen_loop length]. rewrite E1, E2, E3, E4. simpl orb. cbv iota.
    rewrite IH by (auto; lia). simpl Nat.sub. f_equal. simpl rev.
    destruct (rev w); auto.
Qed.

(** the effect of one class unit *)
Lemma plen_open : forall fuel whole prev r len, prev <> Some BACKSLASH ->
  plen_loop (S fuel) whole prev (BRACKETS_L :: r) len = plen_loop fuel whole (Some BRACKETS_L) r (len - 1)%Z.
Proof.
  intros. simpl. destruct prev as [q|]; auto.
  destruct (N.eqb_spec q BACKSLASH); [congruence|auto].
Qed.
Lemma plen_rule : forall rule c fuel whole rest len,
  char_rule c = Some rule -> in_sign_rules rule = true -> 3 <= fuel ->
  exists prev,
  plen_loop fuel whole (Some BRACKETS_L) (rule ++ BRACKETS_R :: rest) len =
  plen_loop (fuel - length rule - 1) whole prev rest (len - Z.of_nat (length rule) + bs rule)%Z
  /\ prev = Some BRACKETS_R.
Proof.
  intros rule c fuel whole rest len Hc Hs Hf.
  destruct fuel as [|[|[|fuel]]]; try lia.
  apply rule_in_rules in Hc. apply str_in_In in Hc.
  assert (X : Forall (fun rule => in_sign_rules rule = true ->
     exists prev, plen_loop (S (S (S fuel))) whole (Some BRACKETS_L) (rule ++ BRACKETS_R :: rest) len =
     plen_loop (S (S (S fuel)) - length rule - 1) whole prev rest (len - Z.of_nat (length rule) + bs rule)%Z
     /\ prev = Some BRACKETS_R) RULES).
  { unfold RULES, SIGN_RULES. apply Forall_app. split.
    - repeat (constructor; [intros Y; vm_compute in Y; discriminate|]). constructor.
    - apply Forall_app. split; apply Forall_forall; intros r Hr;
        apply in_map_iff in Hr as (d & <- & Hd); intros _; exists (Some BRACKETS_R);
        (split; [|reflexivity]).
      + replace (S (S (S fuel)) - length [d] - 1) with (S fuel) by (simpl; lia).
        generalize (S fuel). intros f. revert d Hd. apply Forall_forall.
        repeat (constructor; [simpl; f_equal; unfold bs; simpl; lia|]). constructor.
      + replace (S (S (S fuel)) - length [BACKSLASH; d] - 1) with fuel by (simpl; lia).
        revert d Hd. apply Forall_forall.
        repeat (constructor; [simpl; f_equal; unfold bs; simpl; lia|]). constructor. }
  rewrite Forall_forall in X. apply X; auto.
Qed.
Lemma plen_quant : forall n fuel whole rest len, (1 <= n)%N -> length (qstr (Some n)) <= fuel ->
  no_quant rest ->
  exists fuel' prev,
  plen_loop fuel whole (Some BRACKETS_R) (qstr (Some n) ++ rest) len =
  plen_loop fuel' whole prev rest (len + Z.of_N n - 1 - Z.of_nat (length (qstr (Some n))))%Z
  /\ fuel - length (qstr (Some n)) <= fuel' /\ prev <> Some BACKSLASH.
Proof.
  intros n fuel whole rest len Hn Hf Hr. unfold qstr in *. destruct (N.eqb_spec n 1) as [->|n1].
  - exists fuel, (Some BRACKETS_R). split; [|split; [simpl; lia|discriminate]].
    simpl. f_equal. lia.
  - simpl length in Hf. destruct fuel as [|fuel]; [lia|].
    exists fuel, (Some BRACES_R). split; [|split; [simpl; lia|discriminate]].
    cbn [app plen_loop]. rewrite <- app_assoc. cbn [app].
    change (N.eqb BRACES_L BRACKETS_L || N.eqb BRACES_L BRACKETS_R) with false.
    change (N.eqb BRACES_L BACKSLASH) with false. change (N.eqb BRACES_L BRACES_L) with true.
    unfold bind at 1. change (N.eqb BRACKETS_R BRACKETS_R) with true. cbv iota.
    rewrite cut_app.
    + rewrite dec_str_int. unfold bind. f_equal. simpl length. rewrite app_length. simpl. lia.
    + intros H. pose proof (dec_str_digits n) as F. rewrite Forall_forall in F. apply F in H.
      vm_compute in H. discriminate.
Qed.

Lemma render_no_quant : forall rw rest, run_ok rw -> no_quant (render rw ++ rest).
Proof.
  intros rw rest H. unfold render. destruct (in_sign_rules (fst rw)) eqn:S.
  - simpl. split; discriminate.
  - pose proof (run_ok_alnum _ H S) as F. destruct H as [Hn _].
    destruct (snd rw) as [|c w]; [congruence|]. inversion F as [|? ? Hc _]; subst. simpl.
    split; intros ->; vm_compute in Hc; discriminate.
Qed.

Lemma plen_run : forall rw fuel whole prev rest len,
  run_ok rw -> prev <> Some BACKSLASH -> no_quant rest ->
  length (render rw) < fuel ->
  exists fuel' prev',
  plen_loop fuel whole prev (render rw ++ rest) len =
  plen_loop fuel' whole prev' rest (len + Z.of_nat (length (snd rw)) - Z.of_nat (length (render rw)) + bs (fst rw))%Z
  /\ fuel - length (render rw) <= fuel' /\ prev' <> Some BACKSLASH.
Proof.
  intros [rule w] fuel whole prev rest len Hok Hp Hq Hf. simpl fst; simpl snd.
  unfold render in *. simpl fst in *; simpl snd in *.
  destruct (in_sign_rules rule) eqn:S.
  - destruct Hok as [Hn F]. simpl in Hn, F. destruct w as [|c w]; [congruence|].
    inversion F as [|? ? Hc _]; subst.
    unfold unit_str in *. simpl length in Hf. rewrite app_length in Hf. simpl length in Hf.
    destruct fuel as [|fuel]; [lia|].
    cbn [app]. rewrite plen_open by auto. rewrite <- app_assoc. cbn [app].
    assert (L : 1 <= length rule).
    { destruct rule; [vm_compute in S; discriminate|simpl; lia]. }
    destruct (plen_rule rule c fuel whole (qstr (Some (N.of_nat (length (c :: w)))) ++ rest) (len - 1)%Z Hc S) as (prev1 & E1 & ->).
    { lia. }
    rewrite E1.
    destruct (plen_quant (N.of_nat (length (c :: w))) (fuel - length rule - 1) whole rest
       (len - 1 - Z.of_nat (length rule) + bs rule)%Z) as (fuel2 & prev2 & E2 & L2 & P2); auto.
    { simpl; lia. }
    { simpl length at 1 in Hf. simpl length. lia. }
    exists fuel2, prev2. rewrite E2. split; [|split]; auto.
    + f_equal. rewrite nat_N_Z. simpl length. rewrite app_length. simpl length. lia.
    + simpl length. rewrite app_length. simpl length. simpl length in L2. lia.
  - pose proof (run_ok_alnum _ Hok S) as F. simpl in F.
    exists (fuel - length w), (match rev w with c :: _ => Some c | [] => prev end).
    rewrite plen_inert.
    + split; [|split]; auto.
      * f_equal. unfold bs. destruct (str_eqb_spec rule BS_RULE) as [->|]; [vm_compute in S; discriminate|lia].
      * destruct (rev w) as [|c w'] eqn:E; auto. intros X; inversion X; subst.
        assert (H : In BACKSLASH w) by (apply in_rev; rewrite E; left; auto).
        rewrite Forall_forall in F. apply F in H. vm_compute in H. discriminate.
    + eapply Forall_impl; [|exact F]. apply alnum_inert.
    + lia.
Qed.

Definition bs_sum (l : list run) : Z := fold_right (fun rw z => bs (fst rw) + z)%Z 0%Z l.
Lemma plen_runs : forall l fuel whole prev len,
  Forall run_ok l -> prev <> Some BACKSLASH ->
  length (List.concat (map render l)) < fuel ->
  plen_loop fuel whole prev (List.concat (map render l)) len =
  Ok (len + Z.of_nat (length (List.concat (map snd l))) - Z.of_nat (length (List.concat (map render l))) + bs_sum l)%Z.
Proof.
  induction l as [|rw l IH]; intros fuel whole prev len F Hp Hf.
  - simpl. destruct fuel; [simpl in Hf; lia|]. simpl. f_equal. lia.
  - inversion F as [|? ? Hok F']; subst. cbn [map List.concat] in *.
    rewrite !app_length in *.
    destruct (plen_run rw fuel whole prev (List.concat (map render l)) len) as (fuel' & prev' & E & L & P); auto.
    + destruct l as [|rw2 l]; simpl; auto. apply render_no_quant. inversion F'; auto.
    + lia.
    + rewrite E, IH by (auto; lia). f_equal. cbn [bs_sum fold_right]. fold (bs_sum l). lia.
Qed.

(** number of maximal runs of backslashes, counted on the raw text *)
Notation bs_starts := backslash_runs.
Lemma char_rule_bs : forall c r, char_rule c = Some r -> (N.eqb c 92 = str_eqb r BS_RULE).
Proof.
  intros c r H.
  pose proof (rule_forall (fun c r => Bool.eqb (N.eqb c 92) (str_eqb r BS_RULE))
    ltac:(vm_compute; reflexivity) c r H) as X. apply eqb_prop in X; auto.
Qed.
Lemma bs_starts_run : forall w r rest pb,
  w <> [] -> Forall (fun c => char_rule c = Some r) w ->
  (str_eqb r BS_RULE = true -> pb = false) ->
  Z.of_nat (bs_starts pb (w ++ rest)) = (bs r + Z.of_nat (bs_starts (str_eqb r BS_RULE) rest))%Z.
Proof.
  intros w r rest pb Hn F Hp. destruct w as [|c w]; [congruence|]. clear Hn.
  inversion F as [|? ? Hc Fw]; subst. cbn [app bs_starts]. rewrite (char_rule_bs _ _ Hc).
  assert (X : forall w, Forall (fun c => char_rule c = Some r) w ->
     bs_starts (str_eqb r BS_RULE) (w ++ rest) = bs_starts (str_eqb r BS_RULE) rest).
  { clear. induction 1 as [|c w Hc Fw IH]; auto. cbn [app bs_starts]. rewrite (char_rule_bs _ _ Hc).
    destruct (str_eqb r BS_RULE) eqn:E; simpl; auto. }
  unfold bs. destruct (str_eqb r BS_RULE) eqn:E.
  - rewrite (Hp eq_refl). rewrite X by auto. lia.
  - rewrite X by auto. lia.
Qed.
Lemma bs_sum_starts : forall l pb, Forall run_ok l -> adj' l ->
  (match l with rw :: _ => str_eqb (fst rw) BS_RULE = true -> pb = false | [] => True end) ->
  bs_sum l = Z.of_nat (bs_starts pb (List.concat (map snd l))).
Proof.
  induction l as [|[r w] l IH]; intros pb F A H; auto.
  inversion F as [|? ? [Hn Hr] F']; subst. simpl in Hn, Hr.
  cbn [map List.concat bs_sum fold_right snd fst]. rewrite (bs_starts_run w r) by auto. fold (bs_sum l).
  f_equal. destruct A as [A1 A2]. apply IH; auto.
  destruct l as [|[r2 w2] l]; auto. simpl in *. intros E. apply str_eqb_eq in E. subst.
  apply str_eqb_neq; auto.
Qed.
Lemma piece_length_spec : forall s, all_legal s ->
  piece_length (pp_of s) = Ok (Z.of_nat (length s + bs_starts false s)).
Proof.
  intros s H. apply runs_spec in H as (F & A & E).
  unfold piece_length, piece, pp_of. simpl pieces.
  rewrite plen_runs; auto; [|discriminate].
  f_equal. rewrite E, Nat2Z.inj_add.
  rewrite (bs_sum_starts _ false), E; auto. { lia. }
  destruct (runs s); auto.
Qed.
Lemma bs_starts_zero : forall s pb, ~ In 92%N s -> bs_starts pb s = 0.
Proof.
  induction s as [|c s IH]; intros pb Hi; auto.
  simpl in *. destruct (N.eqb_spec c 92); [exfalso; auto|]. auto.
Qed.
Lemma bs_starts_pos : forall s, In 92%N s -> 0 < bs_starts false s.
Proof.
  induction s as [|c s IH]; simpl; [tauto|]. intros [->|H].
  - rewrite N.eqb_refl. lia.
  - destruct (N.eqb c 92); [lia|auto].
Qed.
