(** PieceParser.parse and ParsedPiece: proofs. *)
From Coq Require Import String.
From Verif Require Import PyStr Defs ParseUtils PyStrProofs DefsProofs Spec RegexProofs.
From Coq Require Import Lia.

(** ** Runs *)
Notation run := (str * str)%type.
Definition run_ok (rw : run) : Prop :=
  snd rw <> [] /\ Forall (fun c => char_rule c = Some (fst rw)) (snd rw).
Fixpoint adj (l : list run) : Prop :=
  match l with
  | a :: (b :: _) as t => fst a <> fst b /\ adj t
  | _ => True
  end.
Fixpoint adj' (l : list run) : Prop :=
  match l with
  | [] => True
  | a :: t => match t with [] => True | b :: _ => fst a <> fst b end /\ adj' t
  end.
Lemma adj_adj' : forall l, adj' l -> adj l.
Proof.
  induction l as [|a [|b l] IH]; simpl; auto. intros [H1 H2]. split; auto. apply IH; auto.
Qed.
Definition runs_of (s : str) (l : list run) : Prop :=
  Forall run_ok l /\ adj' l /\ List.concat (map snd l) = s.

Fixpoint runs (s : str) : list run :=
  match s with
  | [] => []
  | c :: r =>
      match char_rule c with
      | None => []
      | Some rule =>
          match runs r with
          | (rl, w) :: t => if str_eqb rl rule then (rl, c :: w) :: t
                            else (rule, [c]) :: (rl, w) :: t
          | [] => [(rule, [c])]
          end
      end
  end.
Definition all_legal (s : str) : Prop := Forall (fun c => exists r, char_rule c = Some r) s.
Lemma all_legal_iff : forall s, all_legal s <-> Forall legal s.
Proof.
  intros s. unfold all_legal. split; apply Forall_impl; intros; apply legal_rule; auto.
Qed.

Lemma runs_of_unique : forall s l, runs_of s l -> l = runs s.
Proof.
  induction s as [|c s IH]; intros l (F & A & E).
  - destruct l as [|[r w] l]; auto. inversion F as [|? ? [Hw _] _]; subst.
    destruct w; simpl in *; congruence.
  - destruct l as [|[r w] l]; [discriminate|].
    inversion F as [|? ? [Hw Hr] F']; subst. destruct w as [|d w]; [simpl in Hw; congruence|].
    simpl in E. inversion E; subst d. clear E. simpl in Hr. inversion Hr as [|? ? Hc Hr']; subst.
    simpl. rewrite Hc. destruct A as [A1 A2]. simpl in A1.
    destruct w as [|d w].
    + rewrite <- (IH l) by (repeat split; auto).
      destruct l as [|[r' w'] l]; auto. simpl in A1.
      destruct (str_eqb_spec r' r); [congruence|auto].
    + rewrite <- (IH ((r, d :: w) :: l)).
      * rewrite str_eqb_refl; auto.
      * repeat split; auto. constructor; auto. split; simpl; auto. discriminate.
Qed.
Lemma runs_spec : forall s, all_legal s -> runs_of s (runs s).
Proof.
  induction s as [|c s IH]; intros F.
  - repeat split; constructor.
  - inversion F as [|? ? [r Hc] Fs]; subst. specialize (IH Fs) as (I1 & I2 & I3).
    simpl. rewrite Hc. destruct (runs s) as [|[rl w] t] eqn:E.
    + repeat split; auto.
      * repeat constructor; simpl; auto. discriminate.
      * simpl in *. congruence.
    + inversion I1 as [|? ? [Hw Hr] F']; subst.
      destruct (str_eqb_spec rl r) as [->|n].
      * split; [|split]; auto.
        -- constructor; auto. split; simpl; auto. discriminate.
      * split; [|split]; auto.
        -- constructor; auto. split; simpl; auto. discriminate.
        -- split; auto.
Qed.

(** define_loop computes the runs *)
Definition legalb (s : str) : bool :=
  forallb (fun c => match char_rule c with Some _ => true | None => false end) s.
Lemma legalb_iff : forall s, legalb s = true <-> all_legal s.
Proof.
  intros s. unfold legalb, all_legal. rewrite forallb_forall, Forall_forall.
  split; intros H c Hc; specialize (H c Hc).
  - destruct (char_rule c) eqn:E; eauto. discriminate.
  - destruct H as [r ->]; auto.
Qed.

Lemma adj'_snoc : forall l a, adj' (l ++ [a]) <->
  adj' l /\ match rev l with [] => True | b :: _ => fst b <> fst a end.
Proof.
  induction l as [|x l IH]; intros a; simpl; [tauto|].
  rewrite IH. destruct l as [|y l]; simpl; [tauto|].
  destruct (rev l ++ [y]) eqn:E; [destruct (rev l); discriminate|]. simpl. tauto.
Qed.

Lemma define_loop_spec : forall s acc,
  Forall run_ok (rev acc) -> adj' (rev acc) ->
  (all_legal s -> exists acc', define_loop s acc = Ok acc' /\
     runs_of (List.concat (map snd (rev acc)) ++ s) (rev acc')) /\
  (~ all_legal s -> define_loop s acc = Err EInvalidChar).
Proof.
  induction s as [|c s IH]; intros acc F A; simpl.
  - split.
    + intros _. exists acc. rewrite app_nil_r. repeat split; auto.
    + intros H. exfalso. apply H. constructor.
  - destruct (char_rule c) as [rule|] eqn:E.
    2:{ split; auto. intros H. inversion H as [|? ? [r X] _]; subst. congruence. }
    assert (L : all_legal (c :: s) <-> all_legal s).
    { split; intros H; [inversion H; auto|constructor; eauto]. }
    assert (K : forall acc1, Forall run_ok (rev acc1) -> adj' (rev acc1) ->
      List.concat (map snd (rev acc1)) = List.concat (map snd (rev acc)) ++ [c] ->
      (all_legal (c :: s) -> exists acc', define_loop s acc1 = Ok acc' /\
        runs_of (List.concat (map snd (rev acc)) ++ c :: s) (rev acc')) /\
      (~ all_legal (c :: s) -> define_loop s acc1 = Err EInvalidChar)).
    { intros acc1 F1 A1 E1. destruct (IH acc1 F1 A1) as [I1 I2]. rewrite L. split; auto.
      intros H. destruct (I1 H) as (acc' & H1 & H2). exists acc'. split; auto.
      rewrite E1 in H2. rewrite <- app_assoc in H2. auto. }
    destruct acc as [|[rl l] acc'].
    + apply K; simpl; auto. repeat constructor; simpl; auto. discriminate.
    + simpl in F, A. apply Forall_app in F as [F1 F2]. inversion F2 as [|? ? [Hw Hr] _]; subst. simpl in *.
      destruct (str_eqb_spec rl rule) as [->|n].
      * apply K; simpl.
        -- apply Forall_app; split; auto. repeat constructor; simpl.
           ++ destruct l; discriminate.
           ++ apply Forall_app; auto.
        -- apply adj'_snoc in A. apply adj'_snoc. auto.
        -- rewrite !map_app, !concat_app. simpl. rewrite !app_nil_r, <- app_assoc. auto.
      * apply K; simpl.
        -- apply Forall_app; split; [apply Forall_app; split|]; auto.
           constructor; [|constructor]. split; simpl; auto. discriminate.
        -- apply adj'_snoc. split; auto. rewrite rev_app_distr. simpl. auto.
        -- rewrite !map_app, !concat_app. simpl. rewrite !app_nil_r; auto.
Qed.

(** ** Rendering of a run *)
Definition render (rw : run) : str :=
  if in_sign_rules (fst rw) then unit_str (fst rw) (Some (N.of_nat (length (snd rw))))
  else snd rw.
Lemma normalize_letter_render : forall rw, snd rw <> [] ->
  normalize_letter (snd rw) (fst rw) = Ok (render rw).
Proof.
  intros [r w] H. unfold normalize_letter, render. simpl in *.
  destruct (in_sign_rules r); auto. rewrite specify_rule_unit.
  destruct w; [congruence|]. simpl length.
  destruct (Z.eqb_spec (Z.of_nat (S (length w))) 0); [lia|].
  destruct (Z.ltb_spec (Z.of_nat (S (length w))) 0); [lia|].
  rewrite <- nat_N_Z, N2Z.id. auto.
Qed.

Definition pp_of (s : str) : parsed_piece := PP (map render (runs s)) (map fst (runs s)).

Lemma piece_parse_legal : forall s, all_legal s -> piece_parse s = Ok (pp_of s).
Proof.
  intros s H. unfold piece_parse.
  destruct (define_loop_spec s [] ltac:(constructor) ltac:(constructor)) as [D _].
  destruct (D H) as (acc & E & R). simpl in R. rewrite E. simpl.
  pose proof (runs_of_unique _ _ R) as U. destruct R as (F & _ & _).
  rewrite (mapM_pure _ _ _ render).
  - simpl. rewrite U. reflexivity.
  - intros rw Hrw. rewrite Forall_forall in F. apply normalize_letter_render, F, Hrw.
Qed.
Lemma piece_parse_illegal : forall s, ~ all_legal s -> piece_parse s = Err EInvalidChar.
Proof.
  intros s H. unfold piece_parse.
  destruct (define_loop_spec s [] ltac:(constructor) ltac:(constructor)) as [_ D].
  rewrite (D H). auto.
Qed.
Lemma piece_parse_iff : forall s p, piece_parse s = Ok p <-> all_legal s /\ p = pp_of s.
Proof.
  intros s p. destruct (legalb s) eqn:E.
  - apply legalb_iff in E. rewrite piece_parse_legal by auto. split; [intros H; inversion H; auto|].
    intros [_ ->]; auto.
  - assert (~ all_legal s) by (rewrite <- legalb_iff; congruence).
    rewrite piece_parse_illegal by auto. split; [discriminate|]. intros []; contradiction.
Qed.

(** ** Regular expression of a run *)
Lemma alnum_plain : forall c, is_alnum c = true -> is_plain c = true.
Proof.
  intros c H. destruct (lt_or_ge_128 c) as [L|G].
  - pose proof (ascii_forall (fun c => implb (is_alnum c) (is_plain c)) ltac:(vm_compute; reflexivity) c L) as X.
    cbv beta in X. rewrite H in X. auto.
  - rewrite is_alnum_ge in H by auto. discriminate.
Qed.
Definition run_toks (rw : run) : list rtok :=
  if in_sign_rules (fst rw) then [RT [rule_item (fst rw)] (Some (N.of_nat (length (snd rw))))]
  else map (fun c => RT [IChar c] (Some 1%N)) (snd rw).
Lemma run_ok_alnum : forall rw, run_ok rw -> in_sign_rules (fst rw) = false ->
  Forall (fun c => is_alnum c = true) (snd rw).
Proof.
  intros [r w] [_ F] S. simpl in *. eapply Forall_impl; [|exact F].
  intros c Hc. cbv beta in Hc. apply sign_alnum in Hc. rewrite S in Hc.
  destruct (is_alnum c); auto; discriminate.
Qed.
Lemma run_ok_sign : forall rw, run_ok rw -> in_sign_rules (fst rw) = true ->
  exists c, char_rule c = Some (fst rw) /\ snd rw = repeat c (length (snd rw)).
Proof.
  intros [r w] [Hn F] S. simpl in *. destruct w as [|c w]; [congruence|].
  inversion F as [|? ? Hc Fw]; subst. exists c. split; auto.
  apply Forall_eq_repeat. constructor; auto. eapply Forall_impl; [|exact Fw].
  intros d Hd. cbv beta in Hd. symmetry. eapply sign_rule_inj; eauto.
Qed.
Lemma run_ok_in_rules : forall rw, run_ok rw -> in_rules (fst rw) = true.
Proof.
  intros [r w] [Hn F]. destruct w as [|c w]; simpl in *; [congruence|].
  inversion F; subst. eapply rule_in_rules; eauto.
Qed.
Lemma rparse_run : forall rw, run_ok rw -> rparse (render rw) = Some (run_toks rw).
Proof.
  intros rw H. unfold render, run_toks. destruct (in_sign_rules (fst rw)) eqn:S.
  - pose proof (rparse_unit [fst rw] (Some (N.of_nat (length (snd rw)))) ltac:(discriminate)) as X.
    simpl in X. rewrite app_nil_r in X. apply X. repeat constructor. apply run_ok_in_rules; auto.
  - apply rparse_plain. eapply Forall_impl; [|apply run_ok_alnum; eauto].
    apply alnum_plain.
Qed.
Lemma run_toks_match : forall rw t, run_ok rw -> (toks_match (run_toks rw) t <-> t = snd rw).
Proof.
  intros rw t H. unfold run_toks. destruct (in_sign_rules (fst rw)) eqn:S.
  - destruct (run_ok_sign _ H S) as (c & Hc & E). simpl. split.
    + intros (a & b & -> & F & N & ->). rewrite app_nil_r. rewrite E.
      apply Nat2N.inj in N. rewrite <- N. apply Forall_eq_repeat.
      eapply Forall_impl; [|exact F]. intros d Hd. cbv beta in Hd.
      unfold set_mem in Hd. simpl in Hd. rewrite orb_false_r in Hd.
      apply rule_item_mem in Hd; [|apply run_ok_in_rules; auto].
      eapply sign_rule_inj; eauto.
    + intros ->. exists (snd rw), []. rewrite app_nil_r. repeat split; auto.
      destruct H as [_ F]. eapply Forall_impl; [|exact F]. intros d Hd. cbv beta in Hd.
      unfold set_mem. simpl. rewrite orb_false_r. apply rule_item_mem; auto.
      eapply rule_in_rules; eauto.
  - apply toks_match_lits.
Qed.
Lemma rparse_piece : forall s, all_legal s ->
  rparse (piece (pp_of s)) = Some (List.concat (map run_toks (runs s))).
Proof.
  intros s H. apply runs_spec in H as (F & _ & _). unfold piece, pp_of. simpl.
  apply rparse_concat. induction F; simpl; constructor; auto. apply rparse_run; auto.
Qed.
Lemma runs_match : forall l t, Forall run_ok l ->
  (toks_match (List.concat (map run_toks l)) t <-> t = List.concat (map snd l)).
Proof.
  induction l as [|rw l IH]; intros t F; simpl; [tauto|].
  inversion F; subst. rewrite toks_match_app. split.
  - intros (t1 & t2 & -> & M1 & M2). apply run_toks_match in M1; auto. apply IH in M2; auto. congruence.
  - intros ->. exists (snd rw), (List.concat (map snd l)). rewrite run_toks_match, IH; auto.
Qed.
Lemma piece_regex : forall s t, all_legal s -> (regex_matches (piece (pp_of s)) t <-> t = s).
Proof.
  intros s t H. unfold regex_matches. rewrite rparse_piece by auto.
  destruct (runs_spec s H) as (F & _ & E). split.
  - intros (toks & X & M). inversion X; subst. apply runs_match in M; auto. congruence.
  - intros ->. eexists; split; [reflexivity|]. apply runs_match; auto.
Qed.
Lemma piece_inj : forall s t, all_legal s -> all_legal t ->
  piece (pp_of s) = piece (pp_of t) -> s = t.
Proof.
  intros s t Hs Ht E. apply piece_regex; auto. rewrite <- E. apply piece_regex; auto.
Qed.
