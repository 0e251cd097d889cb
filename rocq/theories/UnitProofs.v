(** specify_rule / parse_pattern_unit_string / parse_pattern_string: proofs. *)
From Coq Require Import String.
From Verif Require Import PyStr Defs UrlLib ParseUtils PyStrProofs DefsProofs Spec RegexProofs PieceProofs.
From Coq Require Import Lia Sorted.

(** ** rfind and slices *)
Lemma rfind_char_none : forall c s, ~ In c s -> rfind_char c s = None.
Proof.
  induction s as [|x s IH]; simpl; intros H; auto. rewrite IH by auto.
  destruct (N.eqb_spec x c); auto. exfalso; auto.
Qed.
Lemma rfind_char_app : forall c a b, ~ In c b -> rfind_char c (a ++ c :: b) = Some (length a).
Proof.
  induction a as [|x a IH]; intros b H; simpl.
  - rewrite rfind_char_none by auto. rewrite N.eqb_refl; auto.
  - rewrite IH; auto.
Qed.
Lemma slice_app : forall A (a b c : list A), slice (length a) (length a + length b) (a ++ b ++ c) = b.
Proof.
  intros. unfold slice. rewrite skipn_app, skipn_all, Nat.sub_diag. simpl.
  replace (length a + length b - length a) with (length b) by lia.
  rewrite firstn_app, firstn_all, Nat.sub_diag. simpl. apply app_nil_r.
Qed.

(** ** The rules of a class *)
Lemma rule_len_head : forall r, in_rules r = true -> exists c t, r = c :: t /\
  length r = (if is_alnum c then 3 else if N.eqb c BACKSLASH then 2 else 1).
Proof.
  intros r H. apply str_in_In in H.
  assert (X : forallb (fun r => match r with c :: _ => Nat.eqb (length r)
     (if is_alnum c then 3 else if N.eqb c BACKSLASH then 2 else 1) | [] => false end) RULES = true)
    by (vm_compute; reflexivity).
  rewrite forallb_forall in X. apply X in H. destruct r as [|c t]; [discriminate|].
  apply Nat.eqb_eq in H. eauto.
Qed.
Lemma class_rules_concat : forall rs fuel acc,
  Forall (fun r => in_rules r = true) rs -> length (List.concat rs) < fuel ->
  class_rules fuel (List.concat rs) acc = Ok (fold_left (fun a r => set_insert r a) rs acc).
Proof.
  induction rs as [|r rs IH]; intros fuel acc F H.
  - destruct fuel; [simpl in H; lia|]. reflexivity.
  - inversion F as [|? ? Hr F']; subst. destruct fuel as [|fuel]; [lia|].
    destruct (rule_len_head r Hr) as (c & t & E & L).
    cbn [List.concat class_rules]. rewrite E at 1. cbn [app].
    rewrite <- L. rewrite firstn_app, firstn_all, Nat.sub_diag. simpl firstn. rewrite app_nil_r.
    rewrite Hr. rewrite skipn_app, skipn_all, Nat.sub_diag. simpl skipn. simpl app.
    rewrite IH; auto. cbn [List.concat] in H. rewrite app_length in H.
    rewrite E in H. simpl in H. lia.
Qed.
Lemma fold_insert_In : forall rs acc x,
  In x (fold_left (fun a r => set_insert r a) rs acc) <-> In x rs \/ In x acc.
Proof.
  induction rs as [|r rs IH]; intros acc x; simpl; [tauto|].
  rewrite IH, set_insert_In. intuition.
Qed.
Lemma fold_insert_sorted : forall rs acc, StronglySorted str_lt acc ->
  StronglySorted str_lt (fold_left (fun a r => set_insert r a) rs acc).
Proof. induction rs; simpl; intros; auto. apply IHrs, set_insert_sorted; auto. Qed.
Lemma fold_insert_set : forall rs, fold_left (fun a r => set_insert r a) rs [] = sorted_set rs.
Proof.
  intros. apply sorted_unique.
  - apply fold_insert_sorted. constructor.
  - apply sorted_set_sorted.
  - intros x. rewrite fold_insert_In, sorted_set_In. simpl. tauto.
Qed.

(** conversely every accepted class is a concatenation of rules *)
Lemma class_rules_inv : forall fuel p acc rs,
  class_rules fuel p acc = Ok rs ->
  exists l, Forall (fun r => in_rules r = true) l /\ p = List.concat l /\
    rs = fold_left (fun a r => set_insert r a) l acc.
Proof.
  induction fuel as [|fuel IH]; intros p acc rs H; [discriminate|].
  cbn [class_rules] in H. destruct p as [|c p].
  - inversion H; subst. exists []. repeat split; constructor.
  - set (n := if is_alnum c then 3 else if N.eqb c BACKSLASH then 2 else 1) in *.
    destruct (in_rules (firstn n (c :: p))) eqn:E; [|discriminate].
    apply IH in H as (l & F & Hp & ->). exists (firstn n (c :: p) :: l). split; [|split]; auto.
    cbn [List.concat]. rewrite <- Hp. symmetry. apply firstn_skipn.
Qed.
Lemma class_rules_err : forall fuel p acc e, length p < fuel -> class_rules fuel p acc = Err e -> e = EInvalidPattern.
Proof.
  induction fuel as [|fuel IH]; intros p acc e L H; [lia|].
  cbn [class_rules] in H. destruct p as [|c p]; [discriminate|].
  set (n := if is_alnum c then 3 else if N.eqb c BACKSLASH then 2 else 1) in *.
  destruct (in_rules (firstn n (c :: p))); [|congruence].
  apply IH in H; auto. rewrite skipn_length. cbn [length] in *.
  assert (1 <= n) by (unfold n; destruct (is_alnum c), (N.eqb c BACKSLASH); lia).
  clearbody n. lia.
Qed.

(** ** Units *)
Definition znum (q : option N) : Z := match q with None => -1 | Some n => Z.of_N n end.
Lemma qstr_no_brackets : forall q, ~ In BRACKETS_R (qstr q).
Proof.
  intros [n|]; unfold qstr.
  - destruct (N.eqb n 1); [auto|]. intros [H|H]; [discriminate|].
    apply in_app_or in H as [H|[H|[]]]; [|discriminate].
    pose proof (dec_str_digits n) as F. rewrite Forall_forall in F. apply F in H. discriminate.
  - intros [H|[]]. discriminate.
Qed.
Lemma last_snoc : forall A (l : list A) x d, last (l ++ [x]) d = x.
Proof. intros. apply last_last. Qed.
Lemma parse_unit_class : forall rs q,
  Forall (fun r => in_rules r = true) rs ->
  (match q with Some n => (N.of_nat (length (sorted_set rs)) <= n /\ n <> 0)%N | None => True end) ->
  parse_pattern_unit_string (unit_str (List.concat rs) q) = Ok (sorted_set rs, znum q).
Proof.
  intros rs q F Hq. unfold parse_pattern_unit_string, unit_str.
  set (w := BRACKETS_L :: List.concat rs ++ BRACKETS_R :: qstr q).
  assert (Hp : slice 1 (match rfind_char BRACKETS_R w with Some t => t | None => length w - 1 end) w = List.concat rs).
  { unfold w. change (BRACKETS_L :: List.concat rs ++ BRACKETS_R :: qstr q)
      with ((BRACKETS_L :: List.concat rs) ++ BRACKETS_R :: qstr q).
    rewrite rfind_char_app by apply qstr_no_brackets.
    change ((BRACKETS_L :: List.concat rs) ++ BRACKETS_R :: qstr q) with ([BRACKETS_L] ++ List.concat rs ++ BRACKETS_R :: qstr q).
    apply (slice_app _ [BRACKETS_L] (List.concat rs)). }
  change (negb (N.eqb BRACKETS_L BRACKETS_L)) with false. cbv iota. fold w.
  rewrite Hp. rewrite class_rules_concat by auto. rewrite fold_insert_set.
  assert (Hn : (if N.eqb (last w 0%N) BRACKETS_R then Ok 1%Z
     else if N.eqb (last w 0%N) BRACES_R then
      let t1 := match rfind_char BRACES_L w with Some t => S t | None => 0 end in
      let num_str := slice t1 (length w - 1) w in
      if isdigit num_str then n <- py_int num_str ;; Ok (Z.of_N n) else Err EInvalidPattern
     else if N.eqb (last w 0%N) PLUS then Ok (-1)%Z else Ok 1%Z) = Ok (znum q)).
  { destruct q as [n|]; unfold w, qstr.
    - destruct (N.eqb_spec n 1) as [->|Hn1].
      + rewrite app_comm_cons, last_snoc. reflexivity.
      + replace (BRACKETS_L :: List.concat rs ++ BRACKETS_R :: BRACES_L :: dec_str n ++ [BRACES_R])
          with ((BRACKETS_L :: List.concat rs ++ [BRACKETS_R; BRACES_L]) ++ dec_str n ++ [BRACES_R])
          by (simpl; rewrite <- app_assoc; reflexivity).
        rewrite (app_assoc _ (dec_str n) [BRACES_R]), last_snoc.
        change (N.eqb BRACES_R BRACKETS_R) with false. change (N.eqb BRACES_R BRACES_R) with true. cbv iota zeta.
        rewrite <- app_assoc.
        set (a := BRACKETS_L :: List.concat rs ++ [BRACKETS_R; BRACES_L]).
        assert (R : rfind_char BRACES_L (a ++ dec_str n ++ [BRACES_R]) = Some (length a - 1)).
        { unfold a. replace ((BRACKETS_L :: List.concat rs ++ [BRACKETS_R; BRACES_L]) ++ dec_str n ++ [BRACES_R])
            with ((BRACKETS_L :: List.concat rs ++ [BRACKETS_R]) ++ BRACES_L :: (dec_str n ++ [BRACES_R]))
            by (simpl; rewrite <- !app_assoc; reflexivity).
          rewrite rfind_char_app.
          - f_equal. simpl. rewrite !app_length. simpl. lia.
          - intros H. apply in_app_or in H as [H|[H|[]]]; [|discriminate].
            pose proof (dec_str_digits n) as D. rewrite Forall_forall in D. apply D in H. discriminate. }
        rewrite R. replace (S (length a - 1)) with (length a) by (unfold a; simpl; lia).
        replace (length (a ++ dec_str n ++ [BRACES_R]) - 1) with (length a + length (dec_str n))
          by (rewrite !app_length; simpl; lia).
        rewrite slice_app, dec_str_isdigit, dec_str_int. reflexivity.
    - replace (BRACKETS_L :: List.concat rs ++ [BRACKETS_R; PLUS])
        with ((BRACKETS_L :: List.concat rs ++ [BRACKETS_R]) ++ [PLUS])
        by (simpl; rewrite <- app_assoc; reflexivity).
      rewrite last_snoc. reflexivity. }
  cbv zeta in *. rewrite Hn. simpl bind.
  destruct q as [n|]; simpl znum.
  - destruct Hq as [H1 H2].
    assert (X : (Z.of_N n <? Z.of_nat (length (sorted_set rs)))%Z = false) by (apply Z.ltb_ge; lia).
    unfold bind. etransitivity; [|reflexivity].
    replace (Z.of_N n =? 0)%Z with false by (symmetry; apply Z.eqb_neq; lia).
    match goal with |- context [(Z.of_N n <? ?x)%Z] => change (Z.of_N n <? x)%Z with (Z.of_N n <? Z.of_nat (length (sorted_set rs)))%Z end.
    rewrite X, andb_false_r. reflexivity.
  - reflexivity.
Qed.
Lemma parse_unit_lit : forall w r, w <> [] -> Forall (fun c => char_rule c = Some r) w ->
  in_digit_ascii r = true ->
  parse_pattern_unit_string w = Ok ([r], Z.of_nat (length w)).
Proof.
  intros [|c w] r Hn F D; [congruence|]. inversion F as [|? ? Hc _]; subst.
  unfold parse_pattern_unit_string.
  destruct (N.eqb_spec c BRACKETS_L) as [->|_].
  { exfalso. vm_compute in Hc. inversion Hc; subst. vm_compute in D. discriminate. }
  simpl negb. cbv iota. rewrite Hc. unfold bind.
  assert (X : forall A (x : A), (Z.of_nat (length (c :: w)) <? Z.of_nat (length [x]))%Z = false)
    by (intros; apply Z.ltb_ge; simpl length; lia).
  rewrite X.
  destruct (Z.eqb_spec (Z.of_nat (length (c :: w))) 0); [simpl in *; lia|].
  rewrite andb_false_r. reflexivity.
Qed.

(** ** Splitting a pattern into units *)
Lemma scan_close_split : forall r p cls r', scan_close p r = Some (cls, r') ->
  r = cls ++ r' /\ forall t, scan_close p (cls ++ t) = Some (cls, t).
Proof.
  induction r as [|c r IH]; intros p cls r' H; [discriminate|]. simpl in H.
  destruct (N.eqb c BRACKETS_R && negb (N.eqb p BACKSLASH)) eqn:E.
  - inversion H; subst. split; auto. intros t. simpl. rewrite E. auto.
  - destruct (scan_close c r) as [[a b]|] eqn:S; [|discriminate]. inversion H; subst.
    destruct (IH _ _ _ S) as [-> K]. split; auto. intros t. simpl. rewrite E, K. auto.
Qed.
(** a quantifier text *)
Definition is_quant (q : str) : Prop :=
  q = [] \/ q = [PLUS] \/ exists n, q = BRACES_L :: n ++ [BRACES_R] /\ isdigit n = true /\ ~ In BRACES_R n.
Lemma scan_quant_ok : forall r q r', scan_quant r = Ok (q, r') -> r = q ++ r' /\ is_quant q.
Proof.
  intros [|c r] q r' H; simpl in H.
  - inversion H; subst. split; auto. left; auto.
  - destruct (N.eqb_spec c BRACES_L) as [->|].
    + destruct (cut BRACES_R r) as [[n r1]|] eqn:C; [|discriminate].
      destruct (isdigit n) eqn:D; [|discriminate]. inversion H; subst.
      apply cut_some in C as [-> Hn]. split.
      * simpl. rewrite <- app_assoc. auto.
      * right; right. eauto.
    + destruct (N.eqb_spec c PLUS) as [->|].
      * inversion H; subst. split; auto. right; left; auto.
      * inversion H; subst. split; auto. left; auto.
Qed.
Lemma scan_quant_app : forall q r, is_quant q -> no_quant r -> scan_quant (q ++ r) = Ok (q, r).
Proof.
  intros q r [->|[->|(n & -> & D & Hn)]] Hr.
  - simpl. destruct r as [|c r]; auto. simpl in Hr. destruct Hr. simpl.
    destruct (N.eqb_spec c BRACES_L); [contradiction|]. destruct (N.eqb_spec c PLUS); [contradiction|auto].
  - reflexivity.
  - simpl. rewrite <- app_assoc. simpl. rewrite cut_app by auto. rewrite D. auto.
Qed.
Lemma scan_quant_err : forall r e, scan_quant r = Err e -> e = EInvalidPattern.
Proof.
  intros [|c r] e H; simpl in H; [discriminate|].
  destruct (N.eqb c BRACES_L).
  - destruct (cut BRACES_R r) as [[n r1]|]; [|congruence]. destruct (isdigit n); congruence.
  - destruct (N.eqb c PLUS); discriminate.
Qed.

(** a unit is a run of one alphanumeric character space or a bracket unit *)
Definition lit_unit (r : str) (w : str) : Prop :=
  in_digit_ascii r = true /\ w <> [] /\ Forall (fun c => char_rule c = Some r) w.
Definition cls_unit (w : str) : Prop :=
  exists cls q, w = BRACKETS_L :: cls ++ q /\
    (forall t, scan_close BRACKETS_L (cls ++ t) = Some (cls, t)) /\ is_quant q.
Inductive kind : str -> option str -> Prop :=
| K_lit r w : lit_unit r w -> kind w (Some r)
| K_cls w : cls_unit w -> kind w None.
(** [seps prev us]: units in order, neighbouring literals of different spaces *)
Fixpoint seps (prev : option str) (us : list str) : Prop :=
  match us with
  | [] => True
  | w :: us' => exists k, kind w k /\ (prev <> None -> k <> prev) /\ seps k us'
  end.

Lemma lit_char : forall c r, char_rule c = Some r -> in_digit_ascii r = true -> N.eqb c BRACKETS_L = false.
Proof.
  intros c r H D. apply N.eqb_neq. intros ->. vm_compute in H. inversion H; subst. vm_compute in D. discriminate.
Qed.
Lemma kind_no_quant : forall w k t, kind w k -> no_quant (w ++ t).
Proof.
  intros w k t [r w' (D & Hn & F)|w' (cls & q & -> & _)].
  - destruct w' as [|c w']; [congruence|]. inversion F as [|? ? Hc _]; subst. simpl.
    split; intros ->; vm_compute in Hc; inversion Hc; subst; vm_compute in D; discriminate.
  - simpl. split; discriminate.
Qed.
Lemma seps_no_quant : forall p us, seps p us -> no_quant (List.concat us).
Proof.
  intros p [|w us] H; simpl; auto. destruct H as (k & K & _). eapply kind_no_quant; eauto.
Qed.

Lemma pps_lit : forall w fuel r rest units s,
  Forall (fun c => char_rule c = Some r) w -> in_digit_ascii r = true -> length w <= fuel ->
  pps_loop fuel (w ++ rest) units s (Some r) = pps_loop (fuel - length w) rest units (s ++ w) (Some r).
Proof.
  induction w as [|c w IH]; intros fuel r rest units s F D L.
  - rewrite app_nil_r, Nat.sub_0_r. auto.
  - inversion F as [|? ? Hc Fw]; subst. destruct fuel as [|fuel]; [simpl in L; lia|].
    cbn [app pps_loop]. rewrite (lit_char c r Hc D), Hc, D, str_eqb_refl. simpl negb. cbv iota.
    rewrite IH by (auto; simpl in L; lia). rewrite <- app_assoc. reflexivity.
Qed.
Definition flush (units : list str) (s : str) (last : option str) : list str :=
  match last with Some _ => units ++ [s] | None => units end.
Lemma pps_forward : forall us fuel units s last,
  seps last us -> length (List.concat us) < fuel -> (last = None -> s = []) ->
  pps_loop fuel (List.concat us) units s last = Ok (flush units s last ++ us).
Proof.
  induction us as [|w us IH]; intros fuel units s last HS HL Hs.
  - destruct fuel; [simpl in HL; lia|]. simpl. unfold flush. destruct last; rewrite ?app_nil_r; auto.
  - destruct HS as (k & K & Hk & HS). cbn [List.concat] in *. rewrite app_length in HL.
    destruct K as [r w (D & Hn & F)|w (cls & q & -> & Hc & Hq)].
    + destruct w as [|c w]; [congruence|]. inversion F as [|? ? Hcr Fw]; subst.
      destruct fuel as [|fuel]; [lia|]. simpl in HL.
      cbn [app pps_loop]. rewrite (lit_char c r Hcr D), Hcr, D. simpl negb. cbv iota.
      assert (G : forall units', pps_loop fuel (w ++ List.concat us) units' [c] (Some r) = Ok (units' ++ (c :: w) :: us)).
      { intros units'. rewrite pps_lit by (auto; lia). rewrite IH by (auto; try lia; discriminate).
        unfold flush. rewrite <- app_assoc. auto. }
      destruct last as [lr|].
      * destruct (str_eqb_spec r lr) as [->|_]. { exfalso. apply Hk; congruence. }
        rewrite G. auto.
      * rewrite Hs by auto. simpl app. rewrite G. auto.
    + destruct fuel as [|fuel]; [lia|]. simpl in HL. rewrite app_length in HL.
      cbn [app pps_loop]. change (N.eqb BRACKETS_L BRACKETS_L) with true. cbv iota.
      assert (Hsq : scan_quant (q ++ List.concat us) = Ok (q, List.concat us)).
      { apply scan_quant_app; auto. eapply seps_no_quant; eauto. }
      destruct last as [lr|].
      * rewrite <- app_assoc, Hc, Hsq. simpl bind. rewrite IH by (auto; lia).
        unfold flush. rewrite <- app_assoc. auto.
      * rewrite <- app_assoc, Hc, Hsq. simpl bind. rewrite IH by (auto; lia).
        unfold flush. rewrite <- app_assoc. auto.
Qed.
Lemma parse_pattern_string_forward : forall us, us <> [] -> seps None us ->
  parse_pattern_string (List.concat us) = Ok us.
Proof.
  intros us Hn S. unfold parse_pattern_string.
  assert (X : List.concat us <> []).
  { destruct us as [|w us]; [congruence|]. destruct S as (k & K & _). simpl. intros E.
    apply app_eq_nil in E as [-> _]. inversion K as [r w' (_ & H & _)|w' (cls & q & H & _)]; subst; congruence. }
  destruct (List.concat us) eqn:E; [congruence|]. rewrite <- E.
  rewrite pps_forward; auto.
Qed.

Lemma pps_inv : forall fuel rest units s last,
  length rest < fuel -> (last = None -> s = []) ->
  (forall r, last = Some r -> lit_unit r s) ->
  match pps_loop fuel rest units s last with
  | Ok us => match last with
             | None => exists us', us = units ++ us' /\ List.concat us' = rest /\ seps None us'
             | Some r => exists w us', us = units ++ (s ++ w) :: us' /\ w ++ List.concat us' = rest /\
                 lit_unit r (s ++ w) /\ seps (Some r) us'
             end
  | Err e => e = EInvalidPattern
  end.
Proof.
  induction fuel as [|fuel IH]; intros rest units s last HL Hs Hl; [lia|].
  destruct rest as [|c rest].
  { simpl. destruct last as [r|].
    - exists [], []. rewrite app_nil_r. split; [auto|split; [auto|split; [apply Hl; auto|exact I]]].
    - exists []. rewrite app_nil_r. simpl; auto. }
  simpl in HL. cbn [pps_loop]. destruct (N.eqb_spec c BRACKETS_L) as [->|Hc].
  - assert (G : forall units', match
        match scan_close BRACKETS_L rest with
        | None => Err EInvalidPattern
        | Some (cls, r1) => '(q, r2) <- scan_quant r1 ;;
            pps_loop fuel r2 (units' ++ [BRACKETS_L :: cls ++ q]) [] None
        end with
        | Ok us => exists us', us = units' ++ us' /\ List.concat us' = BRACKETS_L :: rest /\
             seps None us' /\ forall p, seps p us'
        | Err e => e = EInvalidPattern
        end).
    { intros units'. destruct (scan_close BRACKETS_L rest) as [[cls r1]|] eqn:Sc; auto.
      destruct (scan_close_split _ _ _ _ Sc) as [-> K].
      destruct (scan_quant r1) as [[q r2]|e] eqn:Sq; [|simpl; eapply scan_quant_err; eauto].
      apply scan_quant_ok in Sq as [-> Q]. simpl bind.
      rewrite !app_length in HL. specialize (IH r2 (units' ++ [BRACKETS_L :: cls ++ q]) [] None).
      destruct (pps_loop _ _ _ _ _); [|apply IH; auto; [lia|discriminate]].
      destruct IH as (us' & -> & E & Hsp); auto; [lia|discriminate|].
      exists ((BRACKETS_L :: cls ++ q) :: us'). rewrite <- app_assoc. split; auto. split.
      - simpl. rewrite E, <- app_assoc. auto.
      - assert (C : cls_unit (BRACKETS_L :: cls ++ q)) by (exists cls, q; auto).
        split.
        + exists None. repeat split; auto. constructor; auto.
        + intros p. exists None. repeat split; auto. { constructor; auto. } }
    destruct last as [r|]; cbv iota beta zeta.
    + specialize (G (units ++ [s])). 
      match type of G with match ?X with _ => _ end =>
        match goal with |- match ?Y with _ => _ end => change Y with X; destruct X end end; [|exact G].
      destruct G as (us' & -> & E & _ & P). exists [], us'. rewrite app_nil_r, <- app_assoc. split; [auto|split; [auto|split; [apply Hl; auto|apply P]]].
    + rewrite (Hs eq_refl). specialize (G units). 
      match type of G with match ?X with _ => _ end =>
        match goal with |- match ?Y with _ => _ end => change Y with X; destruct X end end; [|exact G].
      destruct G as (us' & -> & E & P & _). eauto.
  - destruct (char_rule c) as [rule|] eqn:Ec; auto.
    destruct (in_digit_ascii rule) eqn:D; simpl negb; cbv iota; auto.
    assert (L1 : lit_unit rule [c]). { repeat split; auto. discriminate. }
    destruct last as [lr|].
    + destruct (str_eqb_spec rule lr) as [->|Hne].
      * specialize (IH rest units (s ++ [c]) (Some lr)).
        destruct (pps_loop _ _ _ _ _); [|apply IH; auto; try lia; try discriminate].
        2:{ intros r E; inversion E; subst. destruct (Hl r eq_refl) as (A & B & C).
            repeat split; auto. { destruct s; discriminate. } apply Forall_app; auto. }
        destruct IH as (w & us' & -> & E & L & S); try lia; try discriminate.
        { intros r E; inversion E; subst. destruct (Hl r eq_refl) as (A & B & C).
            repeat split; auto. { destruct s; discriminate. } apply Forall_app; auto. }
        exists (c :: w), us'. rewrite <- app_assoc in *. simpl in *. rewrite E. auto.
      * specialize (IH rest (units ++ [s]) [c] (Some rule)).
        destruct (pps_loop _ _ _ _ _); [|apply IH; auto; try lia; try discriminate].
        2:{ intros r E; inversion E; subst; auto. }
        destruct IH as (w & us' & -> & E & L & S); try lia; try discriminate.
        { intros r E; inversion E; subst; auto. }
        exists [], (([c] ++ w) :: us'). rewrite app_nil_r, <- app_assoc. split; auto. split.
        { simpl in *. rewrite E. auto. }
        split; [apply Hl; auto|]. exists (Some rule). split; [constructor; auto|]. split; auto. congruence.
    + rewrite (Hs eq_refl). specialize (IH rest units ([] ++ [c]) (Some rule)).
      destruct (pps_loop _ _ _ _ _); [|apply IH; auto; try lia; try discriminate].
      2:{ intros r E; inversion E; subst; auto. }
      destruct IH as (w & us' & -> & E & L & S); try lia; try discriminate.
      { intros r E; inversion E; subst; auto. }
      exists (([c] ++ w) :: us'). simpl app in *. split; auto. split.
      { simpl. rewrite E. auto. }
      exists (Some rule). split; [constructor; auto|]. split; auto.
Qed.
Lemma parse_pattern_string_inv : forall p us, parse_pattern_string p = Ok us ->
  (p = [] /\ us = [[]]) \/ (p <> [] /\ us <> [] /\ List.concat us = p /\ seps None us).
Proof.
  intros [|c p] us H.
  - inversion H; auto.
  - right. unfold parse_pattern_string in H.
    pose proof (pps_inv (S (length (c :: p))) (c :: p) [] [] None) as X. rewrite H in X.
    destruct X as (us' & E & C & S); auto; try discriminate. simpl in E. subst us'.
    split; [discriminate|]. repeat split; auto. intros ->. discriminate.
Qed.
Lemma parse_pattern_string_err : forall p e, parse_pattern_string p = Err e -> e = EInvalidPattern.
Proof.
  intros [|c p] e H; [discriminate|]. unfold parse_pattern_string in H.
  pose proof (pps_inv (S (length (c :: p))) (c :: p) [] [] None) as X. rewrite H in X.
  apply X; auto; discriminate.
Qed.
