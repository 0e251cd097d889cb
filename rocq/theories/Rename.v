(** Renaming letters and digits commutes with make() (C56). *)
From Coq Require Import String.
From Verif Require Import PyStr Defs UrlLib ParseUtils Spec Views Trees Cluster Patterns Matcher Maker Observe GrammarSpec UrlSpec RenameSpec PyStrProofs DefsProofs DictProofs RegexProofs PieceProofs LengthProofs BridgeProofs DigestProofs LoadProofs MakeProofs Local UrlExact Pipe Para.
From Coq Require Import Lia.

(** ** spaces *)
Lemma in_lower : forall c, In c lowercase <-> is_lower c = true.
Proof.
  intros c. destruct (lt_or_ge_128 c) as [L|L].
  - pose proof (ascii_forall (fun c => Bool.eqb (char_in c lowercase) (is_lower c)) ltac:(vm_compute; reflexivity) c L) as X. cbv beta in X. apply Bool.eqb_prop in X. rewrite <- X. split; apply char_in_In.
  - rewrite is_lower_ge by exact L. split; [|discriminate]. intros I. apply char_in_In in I. rewrite char_in_ge in I; [discriminate|reflexivity|exact L].
Qed.
Lemma in_upper : forall c, In c uppercase <-> is_upper c = true.
Proof.
  intros c. destruct (lt_or_ge_128 c) as [L|L].
  - pose proof (ascii_forall (fun c => Bool.eqb (char_in c uppercase) (is_upper c)) ltac:(vm_compute; reflexivity) c L) as X. cbv beta in X. apply Bool.eqb_prop in X. rewrite <- X. split; apply char_in_In.
  - rewrite is_upper_ge by exact L. split; [|discriminate]. intros I. apply char_in_In in I. rewrite char_in_ge in I; [discriminate|reflexivity|exact L].
Qed.
Lemma in_digit : forall c, In c Spec.digits <-> is_digit c = true.
Proof.
  intros c. destruct (lt_or_ge_128 c) as [L|L].
  - pose proof (ascii_forall (fun c => Bool.eqb (char_in c Spec.digits) (is_digit c)) ltac:(vm_compute; reflexivity) c L) as X. cbv beta in X. apply Bool.eqb_prop in X. rewrite <- X. split; apply char_in_In.
  - rewrite is_digit_ge by exact L. split; [|discriminate]. intros I. apply char_in_In in I. rewrite char_in_ge in I; [discriminate|reflexivity|exact L].
Qed.
Lemma kinds_apart : forall c, (is_lower c = true -> is_upper c = false /\ is_digit c = false) /\ (is_upper c = true -> is_lower c = false /\ is_digit c = false) /\ (is_digit c = true -> is_lower c = false /\ is_upper c = false).
Proof.
  intros c. unfold is_lower, is_upper, is_digit. split; [|split]; intros H; apply andb_true_iff in H; rewrite !N.leb_le in H; split; apply andb_false_iff; rewrite !N.leb_gt; lia.
Qed.

Section Ren.
  Context (f g : char -> char) (RN : renaming f g).
  Lemma f_id : forall c, is_alnum c = false -> f c = c.
  Proof. intros c H. apply (proj2 (proj2 RN)). intros I. apply char_in_In in I. rewrite ld_alnum in I. congruence. Qed.
  Lemma f_kinds : forall c, is_lower (f c) = is_lower c /\ is_upper (f c) = is_upper c /\ is_digit (f c) = is_digit c.
  Proof.
    intros c. destruct RN as (_ & K & _). destruct (K c) as (KL & KU & KD). rewrite in_lower, in_lower in KL. rewrite in_upper, in_upper in KU. rewrite in_digit, in_digit in KD.
    destruct (is_alnum c) eqn:A.
    - unfold is_alnum in A. rewrite !orb_true_iff in A. destruct (kinds_apart c) as (L1 & U1 & D1), (kinds_apart (f c)) as (L2 & U2 & D2). destruct A as [[A|A]|A].
      + rewrite A, (KL A). destruct (L1 A), (L2 (KL A)). repeat split; congruence.
      + rewrite A, (KU A). destruct (U1 A), (U2 (KU A)). repeat split; congruence.
      + rewrite A, (KD A). destruct (D1 A), (D2 (KD A)). repeat split; congruence.
    - rewrite f_id by exact A. auto.
  Qed.
  Lemma f_alnum : forall c, is_alnum (f c) = is_alnum c.
  Proof. intros c. unfold is_alnum. destruct (f_kinds c) as (-> & -> & ->). reflexivity. Qed.
  Lemma f_rule : forall c, char_rule (f c) = char_rule c.
  Proof.
    intros c. destruct (is_alnum c) eqn:A; [|rewrite f_id by exact A; reflexivity]. unfold char_rule. destruct (f_kinds c) as (-> & -> & ->). unfold is_alnum in A. destruct (is_lower c), (is_upper c), (is_digit c); try reflexivity. discriminate A.
  Qed.
  Lemma f_inj : forall a b, f a = f b -> a = b.
  Proof. intros a b H. rewrite <- (proj1 (proj1 RN a)), <- (proj1 (proj1 RN b)), H. reflexivity. Qed.
  Lemma f_special : forall c x, is_alnum x = false -> N.eqb (f c) x = N.eqb c x.
  Proof.
    intros c x H. destruct (N.eqb_spec c x) as [->|NE]; [rewrite f_id by exact H; apply N.eqb_refl|]. apply N.eqb_neq. intros E. apply NE, f_inj. rewrite E, f_id by exact H. reflexivity.
  Qed.
  Lemma f_legal : forall c, char_in (f c) legal_chars = char_in c legal_chars.
  Proof.
    intros c. apply eq_iff_eq_true. rewrite !char_in_In. change (legal (f c) <-> legal c). rewrite !legal_rule, f_rule. reflexivity.
  Qed.
  Lemma map_legal : forall s, all_legal s -> all_legal (map f s).
  Proof. intros s H. unfold all_legal in *. apply Forall_map. eapply Forall_impl; [|exact H]. intros c (r & E). exists r. rewrite f_rule. exact E. Qed.
  Lemma sym_renaming : renaming g f.
  Proof.
    split; [intros c; split; apply (proj1 RN)|]. assert (G : forall c, f (g c) = c) by (intros c; apply (proj1 RN)). split.
    - intros c. rewrite !in_lower, !in_upper, !in_digit. destruct (f_kinds (g c)) as (A & B & C). rewrite G in A, B, C. rewrite A, B, C. auto.
    - intros c H. apply f_inj. rewrite G. symmetry. apply f_id. rewrite <- ld_alnum. destruct (char_in c letters_digits) eqn:E; [|reflexivity]. apply char_in_In in E. contradiction.
  Qed.

  (** ** texts *)
  Definition end_place (p : place) (s : str) : place := fold_left next_place s p.
  Lemma rename_app : forall a b p, rename_from f p (a ++ b) = rename_from f p a ++ rename_from f (end_place p a) b.
  Proof. induction a as [|c a IH]; intros b p; [reflexivity|]. cbn [app rename_from end_place fold_left]. rewrite IH. reflexivity. Qed.
  Lemma end_app : forall a b p, end_place p (a ++ b) = end_place (end_place p a) b.
  Proof. intros. unfold end_place. apply fold_left_app. Qed.
  Lemma next_f : forall p c, next_place p (match p with Outside => f c | _ => c end) = next_place p c.
  Proof. intros [] c; cbn [next_place]; rewrite ?f_special by reflexivity; reflexivity. Qed.
  Lemma rename_inv : forall s p, rename_from g p (rename_from f p s) = s.
  Proof.
    induction s as [|c s IH]; intros p; [reflexivity|]. cbn [rename_from]. rewrite next_f, IH. f_equal. destruct p; try reflexivity. apply (proj1 RN).
  Qed.
  Lemma rename_inj : forall a b, rename_text f a = rename_text f b -> a = b.
  Proof. intros a b H. rewrite <- (rename_inv a Outside), <- (rename_inv b Outside). unfold rename_text in H. rewrite H. reflexivity. Qed.
  Definition R (a a' : str) : Prop := end_place Outside a = Outside /\ a' = rename_text f a.
  Lemma R_eq : forall a a' b b', R a a' -> R b b' -> str_eqb a b = str_eqb a' b'.
  Proof.
    intros a a' b b' [_ ->] [_ ->]. apply eq_iff_eq_true. rewrite !str_eqb_iff. split; [intros ->; reflexivity|apply rename_inj].
  Qed.
  Lemma R_nil : R [] [].
  Proof. split; reflexivity. Qed.
  Lemma R_app : forall a a' b b', R a a' -> R b b' -> R (a ++ b) (a' ++ b').
  Proof. intros a a' b b' [A ->] [B ->]. split; [rewrite end_app, A; exact B|]. unfold rename_text. rewrite rename_app, A. reflexivity. Qed.
  Lemma R_concat : forall l l', Forall2 R l l' -> R (List.concat l) (List.concat l').
  Proof. intros l l' F. induction F; cbn [List.concat]; [apply R_nil|apply R_app; assumption]. Qed.
  Lemma R_slash : R [SLASH] [SLASH].
  Proof. split; [reflexivity|]. unfold rename_text. cbn [rename_from]. rewrite f_id by reflexivity. reflexivity. Qed.
  Lemma R_join : forall l l', Forall2 R l l' -> R (join [SLASH] l) (join [SLASH] l').
  Proof.
    intros l l' F. induction F as [|a b l l' H F IH]; [apply R_nil|]. destruct F as [|c d l l' H2 F]; [exact H|]. change (R (a ++ [SLASH] ++ join [SLASH] (c :: l)) (b ++ [SLASH] ++ join [SLASH] (d :: l'))). apply R_app; [exact H|]. apply R_app; [apply R_slash|exact IH].
  Qed.
  Lemma R_alnum : forall s, Forall (fun c => is_alnum c = true) s -> R s (map f s).
  Proof.
    intros s F. induction F as [|c s H F [IH1 IH2]]; [apply R_nil|]. apply (R_app [c] [f c]); [|split; assumption]. assert (A : N.eqb c 91 = false /\ N.eqb c 123 = false) by (split; apply N.eqb_neq; intros ->; discriminate H). split; [|reflexivity].
    unfold end_place. cbn [fold_left next_place]. destruct A as [-> ->]. reflexivity.
  Qed.
  (** class bodies *)
  Definition inside (r : str) : Prop := rename_from f Class r = r /\ end_place Class r = Class.
  Lemma inside_app : forall a b, inside a -> inside b -> inside (a ++ b).
  Proof. intros a b [A1 A2] [B1 B2]. split; [rewrite rename_app, A1, A2, B1; reflexivity|rewrite end_app, A2; exact B2]. Qed.
  Lemma inside_concat : forall l, Forall inside l -> inside (List.concat l).
  Proof. intros l F. induction F; cbn [List.concat]; [split; reflexivity|apply inside_app; assumption]. Qed.
  Lemma inside_rule : forall r, in_rules r = true -> inside r.
  Proof.
    intros r H. assert (I : In r RULES). { unfold in_rules, str_in in H. apply existsb_exists in H. destruct H as (x & I & E). apply str_eqb_iff in E. subst. exact I. }
    clear H. vm_compute in I. repeat (destruct I as [<-|I]; [split; reflexivity|]). destruct I.
  Qed.
  Lemma braces : forall ds t, ~ In 125%N ds -> rename_from f Braces (ds ++ 125%N :: t) = ds ++ 125%N :: rename_from f Outside t /\ end_place Braces (ds ++ 125%N :: t) = end_place Outside t.
  Proof.
    induction ds as [|c ds IH]; intros t NI; [split; reflexivity|]. assert (E : N.eqb c 125 = false) by (apply N.eqb_neq; intros ->; apply NI; left; reflexivity). destruct (IH t) as [A B]; [intros I; apply NI; right; exact I|].
    unfold end_place in *. cbn [app rename_from fold_left next_place]. rewrite E, A, B. split; reflexivity.
  Qed.
  Lemma R_unit : forall r q, inside r -> R (unit_str r q) (unit_str r q).
  Proof.
    intros r q [I1 I2]. unfold unit_str. assert (Q : R (qstr q) (qstr q)).
    { destruct q as [n|]; cbn [qstr].
      - destruct (N.eqb n 1); [apply R_nil|]. destruct (braces (dec_str n) []) as [A B]; [intros I; pose proof (dec_str_digits n) as F; rewrite Forall_forall in F; apply F in I; discriminate I|].
        split; [exact B|]. unfold rename_text. cbn [rename_from next_place]. rewrite f_id by reflexivity. change (BRACES_L :: dec_str n ++ [BRACES_R] = BRACES_L :: rename_from f Braces (dec_str n ++ [BRACES_R])). f_equal. symmetry. exact A.
      - split; [reflexivity|]. unfold rename_text. cbn [rename_from]. rewrite f_id by reflexivity. reflexivity. }
    destruct Q as [Q1 Q2]. split.
    - unfold end_place. cbn [fold_left]. change (end_place Class (r ++ BRACKETS_R :: qstr q) = Outside). rewrite end_app, I2. exact Q1.
    - unfold rename_text. cbn [rename_from]. rewrite f_id by reflexivity. f_equal. change (r ++ BRACKETS_R :: qstr q = rename_from f Class (r ++ BRACKETS_R :: qstr q)). rewrite rename_app, I1, I2. f_equal. change (BRACKETS_R :: qstr q = BRACKETS_R :: rename_from f Outside (qstr q)). f_equal. exact Q2.
  Qed.
  Lemma R_spec : forall r n q, inside r -> specify_rule r n = Ok q -> R q q.
  Proof. intros r n q I H. rewrite specify_rule_unit in H. destruct (n =? 0)%Z; [discriminate|]. inversion H; subst. apply R_unit. exact I. Qed.

  (** ** runs *)
  Definition rrun (rw : run) : run := (fst rw, map f (snd rw)).
  Lemma rrun_ok : forall rw, run_ok rw -> run_ok (rrun rw).
  Proof.
    intros [r w] [A B]. cbn [fst snd rrun run_ok] in *. split; cbn [snd fst]; [destruct w; [congruence|discriminate]|]. apply Forall_map. eapply Forall_impl; [|exact B]. intros c E. cbn beta. rewrite f_rule. exact E.
  Qed.
  Lemma R_render : forall rw, run_ok rw -> R (render rw) (render (rrun rw)).
  Proof.
    intros rw OK. unfold render. cbn [rrun fst snd]. rewrite map_length. destruct (in_sign_rules (fst rw)) eqn:S1.
    - apply R_unit. apply inside_rule. apply run_ok_in_rules. exact OK.
    - apply R_alnum. apply run_ok_alnum; assumption.
  Qed.
  Lemma runs_map : forall s, runs (map f s) = map rrun (runs s).
  Proof.
    induction s as [|c s IH]; [reflexivity|]. cbn [map runs]. rewrite f_rule, IH. destruct (char_rule c) as [rule|]; [|reflexivity]. destruct (runs s) as [|[rl w] t]; [reflexivity|]. cbn [map rrun fst snd]. destruct (str_eqb rl rule); reflexivity.
  Qed.
  Definition W (a a' : str) : Prop := exists l, Forall run_ok l /\ a = List.concat (map render l) /\ a' = List.concat (map render (map rrun l)).
  Lemma W_R : forall a a', W a a' -> R a a'.
  Proof. intros a a' (l & F & -> & ->). apply R_concat. rewrite map_map. eapply F2_map with (P := fun x y => x = y /\ run_ok x); [|intros x y [<- H]; apply R_render; exact H]. induction F; constructor; auto. Qed.
  Lemma W_nil : W [] [].
  Proof. exists []. split; [constructor|split; reflexivity]. Qed.
  Lemma W_app : forall a a' b b', W a a' -> W b b' -> W (a ++ b) (a' ++ b').
  Proof. intros a a' b b' (l & F & -> & ->) (k & G & -> & ->). exists (l ++ k). split; [apply Forall_app; auto|]. rewrite !map_app, !concat_app. auto. Qed.
  Lemma W_concat : forall l l', Forall2 W l l' -> W (List.concat l) (List.concat l').
  Proof. intros l l' F. induction F; cbn [List.concat]; [apply W_nil|apply W_app; assumption]. Qed.
  Lemma W_length : forall p p', W (piece p) (piece p') -> piece_length p = piece_length p'.
  Proof.
    intros p p' (l & F & E & E'). unfold piece_length. rewrite E, E'. assert (F' : Forall run_ok (map rrun l)) by (apply Forall_map; eapply Forall_impl; [|exact F]; exact rrun_ok).
    rewrite plen_runs by (auto; try discriminate; lia). rewrite plen_runs by (auto; try discriminate; lia).
    assert (A : length (List.concat (map snd (map rrun l))) = length (List.concat (map snd l))). { clear. induction l as [|[r w] l IH]; [reflexivity|]. cbn [map List.concat rrun fst snd]. rewrite !app_length, map_length, IH. reflexivity. }
    assert (B : bs_sum (map rrun l) = bs_sum l). { clear. induction l as [|[r w] l IH]; [reflexivity|]. unfold bs_sum in *. cbn [map fold_right rrun fst]. rewrite IH. reflexivity. }
    rewrite A, B. f_equal. lia.
  Qed.
  (** ** parsed pieces *)
  Definition V (p p' : parsed_piece) : Prop := rules p = rules p' /\ Forall inside (rules p) /\ Forall2 W (pieces p) (pieces p').
  Lemma V_piece : forall p p', V p p' -> R (piece p) (piece p').
  Proof. intros p p' (_ & _ & F). apply W_R, W_concat, F. Qed.
  Lemma V_len : forall p p', V p p' -> piece_length p = piece_length p'.
  Proof. intros p p' (_ & _ & F). apply W_length, W_concat, F. Qed.
  Lemma V_rule : forall p p', V p p' -> fuzzy_rule p = fuzzy_rule p'.
  Proof. intros p p' (E & _). unfold fuzzy_rule. rewrite E. reflexivity. Qed.
  Lemma V_num : forall p p', V p p' -> length (pieces p) = length (pieces p').
  Proof. intros p p' (_ & _ & F). eapply F2_len. exact F. Qed.
  Lemma inside_set : forall l, Forall inside l -> inside (List.concat (sorted_set l)).
  Proof. intros l F. apply inside_concat. apply Forall_forall. intros x I. apply (proj1 (sorted_set_In l x)) in I. rewrite Forall_forall in F. apply F, I. Qed.
  Lemma inside_fuzzy : forall p, Forall inside (rules p) -> inside (fuzzy_rule p).
  Proof. intros p F. rewrite fuzzy_rule_concat. apply inside_set, F. Qed.
  Lemma V_spec : forall p p' n q, V p p' -> specify_rule (fuzzy_rule p) n = Ok q -> R q q.
  Proof. intros p p' n q (_ & F & _) H. eapply R_spec; [|exact H]. apply inside_fuzzy, F. Qed.
  Lemma parts_V : forall ps ps' rs, Forall2 W ps ps' -> Forall inside rs -> Forall2 V (mk_parts ps rs) (mk_parts ps' rs).
  Proof.
    intros ps ps' rs F. revert rs. unfold mk_parts. induction F as [|a b ps ps' H F IH]; intros rs I; [constructor|]. destruct I as [|r rs I0 I]; [constructor|]. cbn [combine map fst snd]. constructor; [|apply IH; exact I]. split; [reflexivity|]. split; cbn [rules pieces]; (constructor; [assumption|constructor]).
  Qed.
  Lemma V_multi : forall p p', V p p' -> Forall2 V (multi_parts p) (multi_parts p').
  Proof. intros p p' (E & I & F). unfold multi_parts. rewrite <- E. apply parts_V; assumption. Qed.
  Definition mxR (a b : list str * list str * list str * list str * bool) : Prop :=
    match a, b with (mp, mr, tp, tr, tm), (mp', mr', tp', tr', tm') => Forall2 W mp mp' /\ mr = mr' /\ Forall inside mr /\ Forall2 W tp tp' /\ tr = tr' /\ Forall inside tr /\ tm = tm' end.
  Lemma mix_loop_R : forall ps ps' rs mp mp' mr tp tp' tr tm, Forall2 W ps ps' -> Forall inside rs -> Forall2 W mp mp' -> Forall inside mr -> Forall2 W tp tp' -> Forall inside tr ->
    mxR (mix_loop (combine ps rs) mp mr tp tr tm) (mix_loop (combine ps' rs) mp' mr tp' tr tm).
  Proof.
    intros ps ps' rs mp mp' mr tp tp' tr tm F. revert rs mp mp' mr tp tp' tr tm. induction F as [|a b ps ps' H F IH]; intros rs mp mp' mr tp tp' tr tm I MP MR TP TR; [repeat split; assumption|]. destruct I as [|r rs I0 I]; [repeat split; assumption|].
    cbn [combine mix_loop]. destruct (in_mixed r).
    - destruct (negb (is_nil tr) && negb tm)%bool; apply IH; auto; try (apply Forall2_app; auto); try (apply Forall_app; auto); repeat constructor; auto.
    - destruct (negb (is_nil tr) && tm)%bool; apply IH; auto; try (apply Forall2_app; auto); try (apply Forall_app; split; auto); repeat constructor; auto; try (apply W_concat; assumption); try (apply inside_set; assumption).
  Qed.
  Lemma mix_R : forall ps ps' rs, Forall2 W ps ps' -> Forall inside rs ->
    Forall2 W (fst (mix ps rs)) (fst (mix ps' rs)) /\ snd (mix ps rs) = snd (mix ps' rs) /\ Forall inside (snd (mix ps rs)).
  Proof.
    intros ps ps' rs F I. unfold mix. pose proof (mix_loop_R ps ps' rs [] [] [] [] [] [] false F I ltac:(constructor) ltac:(constructor) ltac:(constructor) ltac:(constructor)) as M.
    destruct (mix_loop (combine ps rs) [] [] [] [] false) as [[[[mp mr] tp] tr] tm], (mix_loop (combine ps' rs) [] [] [] [] false) as [[[[mp' mr'] tp'] tr'] tm']. destruct M as (A & <- & B & C & <- & D & <-).
    destruct tm; cbn [fst snd]; (split; [apply Forall2_app; [exact A|]|split; [reflexivity|apply Forall_app; split; [exact B|]]]); try assumption; repeat constructor; [apply W_concat; exact C|apply inside_set; exact D|apply inside_set; exact D].
  Qed.
  Lemma V_mixed : forall p p', V p p' -> Forall2 V (mixed_parts p) (mixed_parts p').
  Proof.
    intros p p' H. pose proof H as (E & I & F). unfold mixed_parts. rewrite <- E. destruct (length (rules p) <=? 1); [repeat constructor; apply H|]. destruct (mix_R _ _ _ F I) as (A & B & C). destruct (mix (pieces p) (rules p)) as [mp mr], (mix (pieces p') (rules p)) as [mp' mr']. cbn [fst snd] in *. subst mr'. apply parts_V; assumption.
  Qed.
  Lemma F2_skipn : forall A B (P : A -> B -> Prop) l l' n, Forall2 P l l' -> Forall2 P (skipn n l) (skipn n l').
  Proof. intros A B P l l' n F. revert n. induction F; intros [|n]; cbn [skipn]; auto. Qed.
  Lemma F2_firstn : forall A B (P : A -> B -> Prop) l l' n, Forall2 P l l' -> Forall2 P (firstn n l) (firstn n l').
  Proof. intros A B P l l' n F. revert n. induction F; intros [|n]; cbn [firstn]; constructor; auto. Qed.
  Lemma F2_nth : forall A B (P : A -> B -> Prop) l l' n d d', Forall2 P l l' -> P d d' -> P (nth n l d) (nth n l' d').
  Proof. intros A B P l l' n d d' F D. revert n. induction F; intros [|n]; cbn [nth]; auto. Qed.
  Lemma Forall_skipn' : forall A (P : A -> Prop) l n, Forall P l -> Forall P (skipn n l).
  Proof. intros A P l n F. revert n. induction F; intros [|n]; cbn [skipn]; auto. Qed.
  Lemma Forall_firstn' : forall A (P : A -> Prop) l n, Forall P l -> Forall P (firstn n l).
  Proof. intros A P l n F. revert n. induction F; intros [|n]; cbn [firstn]; constructor; auto. Qed.
  Lemma Forall_nth' : forall A (P : A -> Prop) l n d, Forall P l -> P d -> P (nth n l d).
  Proof. intros A P l n d F D. revert n. induction F; intros [|n]; cbn [nth]; auto. Qed.
  Lemma V_ldsf : forall p p', V p p' -> Forall2 V (ldsf_parts p) (ldsf_parts p').
  Proof.
    intros p p' H. pose proof H as (E & I & F). unfold ldsf_parts. cbv zeta. assert (WH : Forall2 V [PP [piece p] [fuzzy_rule p]] [PP [piece p'] [fuzzy_rule p']]).
    { rewrite <- (V_rule _ _ H). constructor; [|constructor]. split; [reflexivity|]. split; cbn [rules pieces]; [constructor; [apply inside_fuzzy, I|constructor]|]. constructor; [apply W_concat, F|constructor]. }
    rewrite <- E. destruct (dot_index (rules p)) as [i|]; [|exact WH]. destruct (negb _); [exact WH|].
    destruct (mix_R _ _ (skipn (i + 1) (rules p)) (F2_skipn _ _ _ _ _ (i + 1) F) (Forall_skipn' _ _ _ (i + 1) I)) as (A & B & C). destruct (mix (skipn (i + 1) (pieces p)) (skipn (i + 1) (rules p))) as [mp mr], (mix (skipn (i + 1) (pieces p')) (skipn (i + 1) (rules p))) as [mp' mr']. cbn [fst snd] in *. subst mr'.
    apply parts_V.
    - constructor; [apply W_concat, F2_firstn, F|]. constructor; [apply F2_nth; [exact F|apply W_nil]|exact A].
    - constructor; [apply inside_set, Forall_firstn', I|]. constructor; [apply Forall_nth'; [exact I|split; reflexivity]|exact C].
  Qed.
  Lemma V_empty : V empty_parsed_piece empty_parsed_piece.
  Proof. split; [reflexivity|]. split; constructor. Qed.
  Lemma V_pp : forall s, all_legal s -> V (pp_of s) (pp_of (map f s)).
  Proof.
    intros s L. destruct (runs_spec s L) as (OK & _ & _). unfold pp_of. rewrite runs_map. split; cbn [rules pieces]; [rewrite map_map; reflexivity|]. split.
    - apply Forall_map. eapply Forall_impl; [|exact OK]. intros rw H. apply inside_rule, run_ok_in_rules, H.
    - rewrite map_map. eapply F2_map with (P := fun x y => x = y /\ run_ok x).
      + clear - OK. induction OK; constructor; auto.
      + intros x y [<- H]. exists [x]. split; [repeat constructor; apply H|]. cbn [map List.concat]. rewrite !app_nil_r. auto.
  Qed.
  Lemma fuzzy_pp : forall s, all_legal s -> fuzzy_rule (pp_of (map f s)) = fuzzy_rule (pp_of s).
  Proof. intros s L. symmetry. apply V_rule, V_pp, L. Qed.

  (** ** makers *)
  Definition MR (m m' : url_meta) : Prop := m' = rename_meta f m.
  Lemma MR_depth : forall m m', MR m m' -> depth m = depth m' /\ path_depth m = path_depth m'.
  Proof. intros m m' ->. unfold depth. cbn [rename_meta path_depth query_keys has_fragment]. rewrite map_length. auto. Qed.
  Lemma meta_inj : forall m m', rename_meta f m = rename_meta f m' -> m = m'.
  Proof.
    intros [d ks b] [d' ks' b'] H. inversion H as [[D K B]]. f_equal. clear - K RN. revert ks' K. induction ks as [|k ks IH]; intros [|k' ks'] K; try discriminate; [reflexivity|]. inversion K. f_equal; [apply rename_inj; assumption|apply IH; assumption].
  Qed.
  Context (nv : str -> bool).
  Definition KR (k k' : str) : Prop := exists url url' m raw, url_path nv url = Some (m, raw) /\ url_path nv url' = Some (rename_meta f m, map (map f) raw) /\
    k = digest_of m raw /\ k' = digest_of (rename_meta f m) (map (map f) raw).
  Lemma same_map : forall s t, all_legal s -> all_legal t -> (same_spaces s t <-> same_spaces (map f s) (map f t)).
  Proof.
    intros s t S1 T1. pose proof (map_legal _ S1) as S2. pose proof (map_legal _ T1) as T2.
    rewrite <- (fuzzy_rule_iff s t (pp_of s) (pp_of t)) by (apply piece_parse_legal; assumption). rewrite <- (fuzzy_rule_iff (map f s) (map f t) (pp_of (map f s)) (pp_of (map f t))) by (apply piece_parse_legal; assumption). rewrite !fuzzy_pp by assumption. reflexivity.
  Qed.
  Lemma same_maps : forall a b, Forall all_legal a -> Forall all_legal b -> (Forall2 same_spaces a b <-> Forall2 same_spaces (map (map f) a) (map (map f) b)).
  Proof.
    intros a b A. revert b. induction A as [|x a X A IH]; intros b B.
    - split; intros F; [inversion F; constructor|]. destruct b; [constructor|inversion F].
    - destruct B as [|y b Y B]; [split; intros F; inversion F|]. cbn [map]. split; intros F; inversion F; subst; constructor; try (apply IH; assumption); apply (same_map x y X Y); assumption.
  Qed.
  Lemma KR_eq : forall a a' b b', KR a a' -> KR b b' -> str_eqb a b = str_eqb a' b'.
  Proof.
    intros a a' b b' (u1 & u1' & m & raw & P1 & P1' & -> & ->) (u2 & u2' & m2 & raw2 & P2 & P2' & -> & ->). apply eq_iff_eq_true. rewrite !str_eqb_iff. rewrite (digest_iff nv u1 u2 _ _ _ _ P1 P2), (digest_iff nv u1' u2' _ _ _ _ P1' P2').
    destruct (url_path_parse _ _ _ _ P1) as (_ & L1 & _), (url_path_parse _ _ _ _ P2) as (_ & L2 & _). rewrite (same_maps _ _ L1 L2). split; intros [E F]; (split; [|exact F]); [congruence|apply meta_inj; exact E].
  Qed.
  Definition stateR := stR R V MR KR.
  Lemma load_R : forall st st' url url' me m raw, stateR st st' -> url_path nv url = Some (m, raw) -> url_path nv url' = Some (rename_meta f m, map (map f) raw) ->
    stateR (fst (load nv st url me)) (fst (load nv st' url' me)) /\ snd (load nv st url me) = snd (load nv st' url' me).
  Proof.
    intros st st' url url' me m raw ST P P'. destruct (url_path_parse _ _ _ _ P) as (_ & L & PA), (url_path_parse _ _ _ _ P') as (_ & L' & PA'). destruct (url_path_depth _ _ _ _ P) as [_ NR].
    assert (K : KR (digest_of m raw) (digest_of (rename_meta f m) (map (map f) raw))) by (exists url, url', m, raw; auto).
    destruct (digest_of_legal m raw L) as [D1 _], (digest_of_legal (rename_meta f m) (map (map f) raw) L') as [D2 _].
    unfold load. rewrite PA, PA'. destruct raw as [|w raw]; [congruence|]. cbn [map]. change (pp_of w :: map pp_of raw) with (map pp_of (w :: raw)). change (pp_of (map f w) :: map pp_of (map (map f) raw)) with (map pp_of (map (map f) (w :: raw))).
    unfold parsed_digest. rewrite <- D1, <- D2. pose proof (dget_R str_eqb str_eqb KR (mkR R V MR) KR_eq _ _ _ _ K ST) as G.
    assert (F : Forall2 V (map pp_of (w :: raw)) (map pp_of (map (map f) (w :: raw)))). { rewrite (map_map (map f) pp_of). eapply F2_map with (P := fun x y => x = y /\ all_legal x); [clear - L; induction L; constructor; auto|]. intros x y [<- X]. apply V_pp, X. }
    set (mk := match dget str_eqb (digest_of m (w :: raw)) st with Some mk => mk | None => MK m new_root end). set (mk' := match dget str_eqb (digest_of (rename_meta f m) (map (map f) (w :: raw))) st' with Some mk => mk | None => MK (rename_meta f m) new_root end).
    assert (MM : mkR R V MR mk mk'). { unfold mk, mk'. destruct (dget str_eqb (digest_of m (w :: raw)) st), (dget str_eqb _ st'); try contradiction; [exact G|]. split; [reflexivity|]. apply root_R. exact V_empty. }
    pose proof (maker_load_R R V R_eq V_piece MR mk mk' _ _ me MM F) as [LL OO]. destruct (maker_load mk _ me) as [mk1 o1], (maker_load mk' _ me) as [mk2 o2]. cbn [fst snd] in *. split; [|exact OO]. apply dset_R; [exact KR_eq|exact K|exact LL|exact ST].
  Qed.
  Lemma loads_R : forall h h', Forall2 (renamed_load nv f) h h' -> stateR (loads nv h) (loads nv h').
  Proof.
    intros h. induction h as [|[url me] h IH] using rev_ind; intros h' F; [inversion F; constructor|]. apply Forall2_app_inv_l in F. destruct F as (h1 & h2 & F1 & F2 & ->). inversion F2 as [|x [url' me'] l l' [M P] F3]; subst. inversion F3; subst. cbn [fst snd] in *. subst me'. specialize (IH h1 F1). rewrite !loads_snoc.
    destruct (url_path nv url) as [[m raw]|] eqn:U; cbn [option_map] in P.
    - apply (load_R _ _ url url' me m raw IH U P).
    - rewrite (load_other nv h url me U), (load_other nv h1 url' me P). exact IH.
  Qed.
  Lemma rows_R : forall t t', treeR R V t t' -> rows t' = map (map (rename_row f)) (rows t).
  Proof.
    intros t t' H. unfold rows. pose proof (paths_R R V t t' H) as P. rewrite map_map. symmetry. eapply F2_eq; [exact P|]. intros a b AB. rewrite map_map. eapply F2_eq; [exact AB|]. intros x y XY. unfold node_row, rename_row.
    rewrite (t_cnt_R _ _ _ _ XY), (t_meta_R _ _ _ _ XY). f_equal. f_equal. f_equal; symmetry; [apply (t_piece_R R V V_piece _ _ XY)|apply (t_pattern_R R V V_piece _ _ XY)].
  Qed.
  Lemma renamed_make : forall mcn h h', Forall2 (renamed_load nv f) h h' ->
    view_clusters (make mcn (loads nv h')) = rename_clusters f (view_clusters (make mcn (loads nv h))).
  Proof.
    intros mcn h h' F. pose proof (make_R R V R_eq R_concat R_join V_piece V_len V_rule V_num V_spec V_multi V_mixed V_ldsf V_empty MR KR MR_depth mcn _ _ (loads_R _ _ F)) as M.
    destruct (make mcn (loads nv h)) as [cs|e], (make mcn (loads nv h')) as [cs'|e']; try contradiction; cbn [view_clusters rename_clusters]; [|cbn in M; subst; reflexivity]. f_equal. rewrite map_map. symmetry. eapply F2_eq; [exact M|]. intros [m t] [m' t'] [A B]. cbn [fst snd] in *. f_equal; [symmetry; exact A|symmetry; apply rows_R, B].
  Qed.
  Lemma renamed_answer : forall h h' url url' me m raw, Forall2 (renamed_load nv f) h h' -> url_path nv url = Some (m, raw) -> url_path nv url' = Some (rename_path f (m, raw)) ->
    snd (load nv (loads nv h') url' me) = snd (load nv (loads nv h) url me).
  Proof. intros h h' url url' me m raw F P P'. symmetry. apply (load_R _ _ url url' me m raw (loads_R _ _ F) P P'). Qed.

  (** ** keys *)
  Lemma frag_R : forall c w w2, is_alnum c = false -> Forall (eq c) w -> norm_frag [EQUALS] w = Ok w2 -> norm_frag [EQUALS] (map f w) = Ok (rename_text f w2) /\ R w2 (rename_text f w2).
  Proof.
    intros c w w2 NA F H. assert (E : map f w = w). { clear H. induction F as [|x w <- F IH]; [reflexivity|]. cbn [map]. rewrite f_id by exact NA. rewrite IH. reflexivity. } rewrite E, H. enough (R w2 w2) as X; [destruct X as [X1 X2]; rewrite <- X2; split; [reflexivity|split; assumption]|].
    destruct w as [|d w]; [inversion H; apply R_nil|]. inversion F; subst d. cbn [norm_frag] in H. destruct (char_in c [EQUALS]) eqn:I.
    - inversion H; subst. apply char_in_In in I. destruct I as [<-|[]]. clear - F RN. induction F as [|x l <- F IH]; [apply R_nil|]. apply (R_app [EQUALS] [EQUALS]); [|exact IH]. split; [reflexivity|]. unfold rename_text. cbn [rename_from]. rewrite f_id by reflexivity. reflexivity.
    - eapply R_spec; [|exact H]. unfold get_rule_fmt. destruct (char_rule c) as [r|] eqn:CR; [|split; reflexivity]. apply inside_rule. eapply rule_in_rules. exact CR.
  Qed.
  Definition nlR (a b : str * str * option char) : Prop := pairR (pairR R (fun x y => y = map f x)) (fun x y => y = option_map f x) a b.
  Lemma nloop_R : forall s out out' frag last, R out out' -> frag_ok last frag -> resR nlR (normalize_loop [EQUALS] s out frag last) (normalize_loop [EQUALS] (map f s) out' (map f frag) (option_map f last)).
  Proof.
    induction s as [|c s IH]; intros out out' frag last OO FO; [split; [split; [exact OO|reflexivity]|reflexivity]|]. cbn [normalize_loop map].
    eapply resR_bind with (P := fun a b => R (fst a) (fst b) /\ snd b = map f (snd a) /\ frag_ok (Some c) (snd a ++ [c])).
    - rewrite f_alnum. destruct (is_alnum c) eqn:AC.
      + destruct last as [lc|]; cbn [option_map].
        * rewrite f_alnum. destruct (is_alnum lc) eqn:AL; cbn [frag_ok] in FO; rewrite AL in FO.
          -- split; [exact OO|]. split; [reflexivity|]. cbn [frag_ok snd]. rewrite AC. apply Forall_app. split; [exact FO|repeat constructor; exact AC].
          -- destruct frag as [|w0 fr]; [split; [exact OO|]; split; [reflexivity|]; cbn [frag_ok snd app]; rewrite AC; repeat constructor; exact AC|]. cbn [map]. change (f w0 :: map f fr) with (map f (w0 :: fr)).
             destruct (norm_frag [EQUALS] (w0 :: fr)) as [w2|e] eqn:NF.
             ++ destruct (frag_R lc _ _ AL FO NF) as [-> RR]. cbn [bind resR]. split; [apply R_app; assumption|]. split; [reflexivity|]. cbn [frag_ok snd app]. rewrite AC. repeat constructor. exact AC.
             ++ exfalso. cbn [norm_frag] in NF. destruct (char_in w0 [EQUALS]); [discriminate|]. rewrite specify_rule_unit in NF. destruct (Z.eqb_spec (Z.of_nat (length (w0 :: fr))) 0) as [Z0|]; [cbn [length] in Z0; lia|discriminate].
        * cbn in FO. subst frag. split; [exact OO|]. split; [reflexivity|]. cbn [frag_ok snd app]. rewrite AC. repeat constructor. exact AC.
      + assert (LE : match option_map f last with Some lc => N.eqb lc (f c) | None => false end = match last with Some lc => N.eqb lc c | None => false end). { destruct last as [lc|]; [|reflexivity]. cbn [option_map]. rewrite (f_id c AC). apply f_special. exact AC. }
        rewrite LE. destruct (match last with Some lc => N.eqb lc c | None => false end) eqn:SAME.
        * destruct last as [lc|]; [|discriminate]. apply N.eqb_eq in SAME. subst lc. cbn [frag_ok] in FO. rewrite AC in FO. split; [exact OO|]. split; [reflexivity|]. cbn [frag_ok snd]. rewrite AC. apply Forall_app. split; [exact FO|repeat constructor].
        * assert (NEW : frag_ok (Some c) ([] ++ [c])) by (cbn [frag_ok app]; rewrite AC; repeat constructor). destruct frag as [|w0 fr]; [split; [exact OO|]; split; [reflexivity|exact NEW]|]. cbn [map]. change (f w0 :: map f fr) with (map f (w0 :: fr)). rewrite f_alnum.
          destruct last as [lc|]; [|cbn in FO; discriminate]. cbn [frag_ok] in FO. destruct (is_alnum lc) eqn:AL.
          -- inversion FO as [|? ? W0 FR]; subst. rewrite W0. cbn [bind resR]. split; [apply R_app; [exact OO|apply R_alnum; exact FO]|]. split; [reflexivity|exact NEW].
          -- pose proof FO as FO2. inversion FO2 as [|? ? W0 FR]; subst. rewrite AL. destruct (norm_frag [EQUALS] (w0 :: fr)) as [w2|e] eqn:NF.
             ++ destruct (frag_R w0 _ _ AL FO NF) as [-> RR]. cbn [bind resR]. split; [apply R_app; assumption|]. split; [reflexivity|exact NEW].
             ++ exfalso. cbn [norm_frag] in NF. destruct (char_in w0 [EQUALS]); [discriminate|]. rewrite specify_rule_unit in NF. destruct (Z.eqb_spec (Z.of_nat (length (w0 :: fr))) 0) as [Z0|]; [cbn [length] in Z0; lia|discriminate].
    - intros [o1 f1] [o2 f2] (A & B & C). cbn [fst snd] in *. subst f2. replace (map f f1 ++ [f c]) with (map f (f1 ++ [c])) by (rewrite map_app; reflexivity). change (Some (f c)) with (option_map f (Some c)). apply IH; assumption.
  Qed.
  Lemma nloop_ok : forall s out frag last o fr l, frag_ok last frag -> normalize_loop [EQUALS] s out frag last = Ok (o, fr, l) -> frag_ok l fr.
  Proof.
    induction s as [|c s IH]; intros out frag last o fr l FO H; [inversion H; subst; exact FO|]. cbn [normalize_loop] in H. match type of H with bind ?m _ = _ => destruct m as [[o1 f1]|] eqn:E; [|discriminate] end. cbn [bind] in H. eapply IH; [|exact H]. clear IH H.
    cbn [frag_ok]. destruct (is_alnum c) eqn:AC.
    - assert (F1 : Forall (fun c => is_alnum c = true) f1); [|apply Forall_app; split; [exact F1|repeat constructor; exact AC]].
      destruct last as [lc|]; [|cbn in FO; subst; inversion E; subst; try constructor]. cbn in FO. destruct (is_alnum lc); [inversion E; subst; exact FO|]. destruct frag as [|w0 w1]; [inversion E; subst; try constructor|].
      destruct (norm_frag [EQUALS] (w0 :: w1)) as [w|] eqn:NF; [|discriminate]. cbn [bind] in E. inversion E; subst; try constructor.
    - assert (F1 : Forall (eq c) f1); [|apply Forall_app; split; [exact F1|repeat constructor]].
      destruct last as [lc|].
      + destruct (N.eqb_spec lc c) as [->|NE]; [inversion E; subst; cbn in FO; rewrite AC in FO; exact FO|]. destruct frag as [|w0 w1]; [inversion E; subst; try constructor|].
        match type of E with bind ?q _ = _ => destruct q as [w|]; [|discriminate E] end. cbn [bind] in E. inversion E; subst; try constructor.
      + cbn in FO. subst frag. inversion E; subst; try constructor.
  Qed.
  Lemma key_renamed : forall k k', normalize k [EQUALS] = Ok k' -> normalize (map f k) [EQUALS] = Ok (rename_text f k').
  Proof.
    intros k k' H. unfold normalize in *. pose proof (nloop_R k [] [] [] None R_nil eq_refl) as NL. destruct (normalize_loop [EQUALS] k [] [] None) as [[[o fr] l]|] eqn:E; [|discriminate]. pose proof (nloop_ok _ _ _ _ _ _ _ (eq_refl : frag_ok None []) E) as FO. cbn [map option_map] in NL.
    destruct (normalize_loop [EQUALS] (map f k) [] [] None) as [[[o' fr'] l']|]; [|contradiction]. destruct NL as [[A B] C]. cbn [fst snd] in *. subst fr' l'. cbn [bind] in *. destruct l as [lc|]; cbn [option_map]; cbn [frag_ok] in FO.
    - rewrite f_alnum. destruct (is_alnum lc) eqn:AL; cbn [bind] in *.
      + inversion H; subst. f_equal. apply (proj2 (R_app _ _ _ _ A (R_alnum _ FO))).
      + destruct (norm_frag [EQUALS] fr) as [w2|] eqn:NF; [|discriminate]. cbn [bind] in H. inversion H; subst. destruct (frag_R lc _ _ AL FO NF) as [-> RR]. cbn [bind]. f_equal. apply (proj2 (R_app _ _ _ _ A RR)).
    - subst fr. cbn [bind map] in *. inversion H; subst. rewrite !app_nil_r. f_equal. apply (proj2 A).
  Qed.
  Lemma keys_renamed : forall ks ks', mapM (fun k => normalize k [EQUALS]) ks = Ok ks' -> mapM (fun k => normalize k [EQUALS]) (map (map f) ks) = Ok (map (rename_text f) ks').
  Proof.
    intros ks ks' H. apply mapM_forall2 in H. apply mapM_forall2. eapply F2_map; [exact H|]. intros k k' E. apply key_renamed. exact E.
  Qed.

  (** ** structure *)
  Lemma in_f : forall x s, is_alnum x = false -> (In x (map f s) <-> In x s).
  Proof.
    intros x s A. rewrite in_map_iff. split; [intros (c & E & I)|intros I; exists x; split; [apply f_id; exact A|exact I]]. rewrite <- (f_id x A) in E. apply f_inj in E. subst. exact I.
  Qed.
  Lemma join_map : forall (sep : str) l, map f sep = sep -> map f (join sep l) = join sep (map (map f) l).
  Proof. intros sep l E. induction l as [|a [|b l] IH]; [reflexivity|reflexivity|]. change (map f (a ++ sep ++ join sep (b :: l)) = map f a ++ sep ++ join sep (map (map f) (b :: l))). rewrite !map_app, E, IH. reflexivity. Qed.
  Lemma combine_map' : forall (ks vs : list str), map (fun kv : str * str => fst kv ++ snd kv) (combine (map (map f) ks) (map (map f) vs)) = map (map f) (map (fun kv : str * str => fst kv ++ snd kv) (combine ks vs)).
  Proof. induction ks as [|k ks IH]; intros [|v vs]; try reflexivity. cbn [map combine fst snd]. rewrite IH, map_app. reflexivity. Qed.
  Lemma kv_map : forall b k v, kv_ok b k v -> kv_ok b (map f k) (map f v).
  Proof.
    intros b k v [(k0 & -> & NI)|[(B & NI & ->)|(B & -> & NI)]].
    - left. exists (map f k0). rewrite map_app. cbn [map]. rewrite (f_id 61%N) by reflexivity. split; [reflexivity|]. rewrite in_f by reflexivity. exact NI.
    - right. left. split; [exact B|]. split; [rewrite in_f by reflexivity; exact NI|reflexivity].
    - right. right. split; [exact B|]. split; [reflexivity|rewrite in_f by reflexivity; exact NI].
  Qed.
  Lemma sep_f : forall x, is_alnum x = false -> map f [x] = [x].
  Proof. intros x H. cbn [map]. rewrite f_id by exact H. reflexivity. Qed.
  Lemma path_parts_map : forall path ps, path_parts path ps -> path_parts (map f path) (map (map f) ps).
  Proof.
    intros path ps (l & x & -> & F & ->). exists (map (map f) l), (map f x). split.
    - rewrite map_app, join_map by (apply (sep_f 47%N); reflexivity). rewrite map_app. f_equal. apply (sep_f 47%N). reflexivity.
    - split; [change [map f x] with (map (map f) [x]); rewrite <- map_app; apply Forall_map; eapply Forall_impl; [|exact F]; intros w NI; rewrite in_f by reflexivity; exact NI|]. rewrite map_app. f_equal. clear. induction l as [|w l IH]; [reflexivity|]. cbn [map filter]. replace (str_eqb (map f w) []) with (str_eqb w []) by (destruct w; reflexivity). destruct (negb _); cbn [map]; rewrite IH; reflexivity.
  Qed.
  Lemma query_parts_map : forall q ks vs, query_parts q ks vs -> query_parts (option_map (map f) q) (map (map f) ks) (map (map f) vs).
  Proof.
    intros [t|] ks vs Q; cbn [query_parts option_map] in *; [|destruct Q as [-> ->]; auto]. destruct Q as (N0 & LE & -> & F). split; [destruct ks; [congruence|discriminate]|]. split; [rewrite !map_length; exact LE|]. split.
    - rewrite combine_map'. apply join_map. apply (sep_f 38%N). reflexivity.
    - unfold str, char in *. rewrite (map_length (map f) ks). revert F. generalize (length ks =? 1). intros b F. clear - F RN. revert vs F. induction ks as [|k ks IH]; intros [|v vs] F; try constructor.
      + cbn [map combine fst snd] in *. inversion F as [|? ? (K & A & B) F']; subst. split; [apply kv_map; exact K|]. split; [rewrite <- map_app, in_f by reflexivity; exact A|]. intros E. specialize (B E). cbn [fst] in B. destruct k; [congruence|discriminate].
      + apply IH. cbn [combine] in F. inversion F; assumption.
  Qed.
  Lemma url_pieces_map : forall path q fr d ks hf raw, url_pieces path q fr d ks hf raw -> url_pieces (map f path) (option_map (map f) q) (option_map (map f) fr) d (map (map f) ks) hf (map (map f) raw).
  Proof.
    intros path q fr d ks hf raw (ps & vs & P & Q & -> & -> & ->). exists (map (map f) ps), (map (map f) vs). split; [apply path_parts_map; exact P|]. split; [apply query_parts_map; exact Q|]. rewrite map_length. split; [reflexivity|]. split; [destruct fr; reflexivity|]. rewrite !map_app. destruct fr; reflexivity.
  Qed.
  Lemma analyze_map : forall url url' s h p q fr s' h' p' c, absolute url s h p q fr -> cut_params s p c -> host_ok nv h ->
    absolute url' s' h' p' (option_map (map f) q) (option_map (map f) fr) -> cut_params s' p' (map f c) -> host_ok nv h' ->
    forall m raw, analyze_url nv url = Ok (m, raw) -> analyze_url nv url' = Ok (rename_meta f m, map (map f) raw).
  Proof.
    intros url url' s h p q fr s' h' p' c A C H A' C' H' [d ks hf] raw E. apply (abs_analyze nv _ _ _ _ _ _ _ A C H) in E. destruct E as (ks0 & U & K). apply (abs_analyze nv _ _ _ _ _ _ _ A' C' H'). exists (map (map f) ks0). split; [apply url_pieces_map; exact U|apply keys_renamed; exact K].
  Qed.
End Ren.
Lemma renamed_analysis : forall nv f g url url', renaming f g -> renamed_url nv f url url' -> url_path nv url' = option_map (rename_path f) (url_path nv url).
Proof.
  intros nv f g url url' RN (s & h & p & q & fr & s' & h' & p' & c & A & C & H & A' & C' & H').
  assert (NS : forall url s h p q fr, absolute url s h p q fr -> startswith url (u "/") = false).
  { clear. intros url s h p q fr (-> & ((c & r & -> & I) & _) & _). change (u "/") with [47%N]. cbn [app startswith]. destruct (N.eqb_spec c 47) as [->|NE]; [|reflexivity].
    exfalso. apply char_in_In in I. vm_compute in I. discriminate. }
  unfold url_path. rewrite (NS _ _ _ _ _ _ A), (NS _ _ _ _ _ _ A'). destruct (analyze_url nv url) as [[m raw]|e] eqn:E.
  - rewrite (analyze_map f g RN nv _ _ _ _ _ _ _ _ _ _ _ A C H A' C' H' m raw E). assert (L : forallb (forallb (fun c => char_in c legal_chars)) (map (map f) raw) = forallb (forallb (fun c => char_in c legal_chars)) raw).
    { clear - RN. induction raw as [|w raw IH]; [reflexivity|]. cbn [map forallb]. rewrite IH. f_equal. induction w as [|x w IHw]; [reflexivity|]. cbn [map forallb]. rewrite (f_legal f g RN), IHw. reflexivity. }
    rewrite L. destruct (forallb (forallb (fun c => char_in c legal_chars)) raw); reflexivity.
  - destruct (analyze_url nv url') as [[m' raw']|e'] eqn:E'; [|reflexivity]. exfalso. pose proof (sym_renaming f g RN) as RN'.
    assert (GG : forall s, map g (map f s) = s) by (intros s0; rewrite map_map; rewrite <- (map_id s0) at 2; apply map_ext; intros x; apply (proj1 RN)).
    assert (OO : forall o, option_map (map g) (option_map (map f) o) = o) by (intros [t|]; cbn [option_map]; [rewrite GG|]; reflexivity).
    rewrite <- (OO q), <- (OO fr) in A. rewrite <- (GG c) in C. pose proof (analyze_map g f RN' nv _ _ _ _ _ _ _ _ _ _ _ A' C' H' A C H m' raw' E'). congruence.
Qed.
