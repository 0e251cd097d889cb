(** Renaming letters and digits in patterns (C58): units and parts. *)
From Coq Require Import String.
From Verif Require Import PyStr Defs UrlLib ParseUtils Spec Views Trees Cluster Patterns Matcher Maker Observe MatchSpec GrammarSpec UrlSpec RenameSpec PyStrProofs DefsProofs DictProofs RegexProofs PieceProofs LengthProofs BridgeProofs DigestProofs LoadProofs MatchLevel MatchNest MatchDigest Grammar Para Rename.
From Coq Require Import Lia.

Section Units.
  Context (f g : char -> char) (RN : renaming f g).
  Notation rt := (rename_text f).
  Notation Rf := (R f).
  Definition closed (s : str) : Prop := end_place Outside s = Outside.
  Lemma closed_R : forall s, closed s -> Rf s (rt s).
  Proof. intros s C. split; [exact C|reflexivity]. Qed.
  Lemma closed_concat : forall ws, Forall closed ws -> closed (List.concat ws) /\ rt (List.concat ws) = List.concat (map rt ws).
  Proof.
    intros ws F. destruct (R_concat f ws (map rt ws)) as [A B]; [|split; [exact A|symmetry; exact B]]. induction F as [|w ws C F IH]; [constructor|]. constructor; [apply closed_R; exact C|exact IH].
  Qed.
  Lemma alnum_of : forall w, Forall (fun c => In c letters_digits) w -> Forall (fun c => is_alnum c = true) w.
  Proof. intros w F. revert F. apply Forall_impl. intros c I. rewrite <- ld_alnum. apply char_in_In. exact I. Qed.
  Lemma f_space : forall x y, same_space x y <-> same_space (f x) (f y).
  Proof.
    assert (D : forall a b, same_space a b -> same_space (f a) (f b)).
    { destruct RN as (_ & K & _). intros a b [[A B]|[[A B]|[[A B]| ->]]]; [left|right; left|right; right; left|right; right; right; reflexivity]; split; apply K; assumption. }
    intros x y. split; [apply D|]. intros [[A B]|[[A B]|[[A B]|E]]].
    1-3: destruct (f_kinds f g RN x) as (X1 & X2 & X3); destruct (f_kinds f g RN y) as (Y1 & Y2 & Y3).
    - apply in_lower in A, B. left. split; apply in_lower; congruence.
    - apply in_upper in A, B. right. left. split; apply in_upper; congruence.
    - apply in_digit in A, B. right. right. left. split; apply in_digit; congruence.
    - right. right. right. apply (f_inj f g RN). exact E.
  Qed.
  Lemma f_ld : forall c, In c letters_digits -> In (f c) letters_digits.
  Proof. intros c I. apply char_in_In. rewrite ld_alnum, (f_alnum f g RN), <- ld_alnum. apply char_in_In. exact I. Qed.
  Lemma f_text : forall c, In c letters_digits -> space_text (f c) = space_text c.
  Proof.
    intros c I. unfold space_text. destruct (f_kinds f g RN c) as (A & B & C). 
    assert (L : forall x, char_in x lowercase = is_lower x). { intros x. destruct (is_lower x) eqn:E; [apply char_in_In, in_lower, E|]. destruct (char_in x lowercase) eqn:E'; [|reflexivity]. apply char_in_In, in_lower in E'. congruence. }
    assert (U : forall x, char_in x uppercase = is_upper x). { intros x. destruct (is_upper x) eqn:E; [apply char_in_In, in_upper, E|]. destruct (char_in x uppercase) eqn:E'; [|reflexivity]. apply char_in_In, in_upper in E'. congruence. }
    assert (G : forall x, char_in x Spec.digits = is_digit x). { intros x. destruct (is_digit x) eqn:E; [apply char_in_In, in_digit, E|]. destruct (char_in x Spec.digits) eqn:E'; [|reflexivity]. apply char_in_In, in_digit in E'. congruence. }
    rewrite !L, !U, !G, A, B, C. destruct (is_lower c) eqn:E1; [reflexivity|]. destruct (is_upper c) eqn:E2; [reflexivity|]. destruct (is_digit c) eqn:E3; [reflexivity|].
    exfalso. apply char_in_In in I. rewrite ld_alnum in I. unfold is_alnum in I. rewrite ?E1, ?E2, ?E3 in I. cbn in I. try discriminate.
  Qed.
  Lemma literal_map : forall w, literal_unit w -> literal_unit (map f w).
  Proof.
    intros w (NE & LD & SM). split; [destruct w; [congruence|discriminate]|]. split.
    - apply Forall_forall. intros c I. apply in_map_iff in I. destruct I as (d & <- & I). apply f_ld. rewrite Forall_forall in LD. apply LD. exact I.
    - intros x y I J. apply in_map_iff in I, J. destruct I as (a & <- & I), J as (b & <- & J). apply (proj1 (f_space a b)). apply SM; assumption.
  Qed.
  Lemma literal_rt : forall w, literal_unit w -> closed w /\ rt w = map f w.
  Proof. intros w (_ & LD & _). destruct (R_alnum f w (alnum_of w LD)) as [A B]. split; [exact A|symmetry; exact B]. Qed.

  Lemma closed_app : forall a b, closed a -> closed b -> closed (a ++ b) /\ rt (a ++ b) = rt a ++ rt b.
  Proof. intros a b A B. destruct (R_app f a (rt a) b (rt b) (closed_R a A) (closed_R b B)) as [X Y]. split; [exact X|symmetry; exact Y]. Qed.
  Lemma quant_rt : forall q n, count_text q n -> closed q /\ rt q = q.
  Proof.
    intros q n [[-> _]|[[-> _]|(ds & k & -> & D & _)]]; [split; reflexivity| |].
    - split; [reflexivity|]. change (u "+") with [43%N]. unfold rename_text. cbn [rename_from]. rewrite (f_id f g RN) by reflexivity. reflexivity.
    - destruct (braces f ds []) as [A B]. { apply decimal_int in D. apply (py_int_no ds k 125%N D). vm_compute. reflexivity. }
      split; [exact B|]. change (u "{" ++ ds ++ u "}") with (123%N :: ds ++ [125%N]). unfold rename_text. cbn [rename_from next_place]. rewrite (f_id f g RN) by reflexivity.
      change (123%N :: rename_from f Braces (ds ++ [125%N]) = 123%N :: ds ++ [125%N]). f_equal. exact A.
  Qed.
  Lemma class_rt : forall l q n, Forall (fun r => In r space_texts) l -> count_text q n ->
    let w := u "[" ++ List.concat l ++ u "]" ++ q in closed w /\ rt w = w.
  Proof.
    intros l q n F C w. destruct (quant_rt q n C) as [Q1 Q2].
    assert (I : inside f (List.concat l)). { apply inside_concat. revert F. apply Forall_impl. intros r I. apply inside_rule. apply space_texts_rules. exact I. }
    destruct I as [I1 I2].
    assert (X : end_place Outside w = end_place Outside q). { unfold w. change (u "[" ++ List.concat l ++ u "]" ++ q) with ([91%N] ++ (List.concat l ++ ([93%N] ++ q))). rewrite end_app. change (end_place Outside [91%N]) with Class. rewrite end_app, I2, end_app. reflexivity. }
    split; [unfold closed; rewrite X; exact Q1|]. unfold rename_text, w. change (u "[" ++ List.concat l ++ u "]" ++ q) with ([91%N] ++ (List.concat l ++ ([93%N] ++ q))).
    rewrite (rename_app f [91%N]). change (end_place Outside [91%N]) with Class. rewrite rename_app, I1, I2, rename_app. change (end_place Class [93%N]) with Outside. change (rename_from f Class [93%N]) with [93%N].
    fold (rt q). rewrite Q2. cbn [rename_from]. rewrite (f_id f g RN) by reflexivity. reflexivity.
  Qed.

  (** *** units *)
  Definition good (x : punit) : Prop := x = PU [] [[]] 1%Z \/ unit_means (pu_str x) (pu_rules x) (pu_num x).
  Definition ru (x : punit) : punit := PU (rt (pu_str x)) (pu_rules x) (pu_num x).
  Lemma means_rt : forall w rs n, unit_means w rs n -> closed w /\ unit_means (rt w) rs n /\ startswith (rt w) [BRACKETS_L] = startswith w [BRACKETS_L] /\ (literal_unit (rt w) -> rt w = map f w).
  Proof.
    intros w rs n [(c & r & -> & LU & RS & NM)|(l & q & -> & F & LS & SS & EQ & CT & NZ & LE)].
    - destruct (literal_rt _ LU) as [C E]. assert (IC : In c letters_digits) by (destruct LU as (_ & LD & _); inversion LD; assumption). split; [exact C|]. rewrite E. split.
      + left. exists (f c), (map f r). split; [reflexivity|]. split; [apply literal_map; exact LU|]. split; [rewrite f_text by exact IC; exact RS|]. change (f c :: map f r) with (map f (c :: r)). rewrite map_length. exact NM.
      + split; [|intros _; reflexivity]. cbn [map startswith]. assert (NB : forall d, In d letters_digits -> N.eqb d BRACKETS_L = false) by (intros d I; apply N.eqb_neq; intros ->; apply char_in_In in I; vm_compute in I; discriminate). rewrite (NB _ IC), (NB _ (f_ld c IC)). reflexivity.
    - destruct (class_rt l q n F CT) as [C E]. cbv zeta in C, E. split; [exact C|]. rewrite E. split; [right; exists l, q; auto 10|]. split; [reflexivity|].
      intros (_ & LD & _). inversion LD as [|? ? X _]; subst. apply char_in_In in X. vm_compute in X. discriminate.
  Qed.
  Lemma good_rt : forall x, good x -> closed (pu_str x) /\ good (ru x) /\ startswith (rt (pu_str x)) [BRACKETS_L] = startswith (pu_str x) [BRACKETS_L].
  Proof.
    intros x [->|M]; [split; [reflexivity|]; split; [left; reflexivity|reflexivity]|]. destruct (means_rt _ _ _ M) as (A & B & C & _). split; [exact A|]. split; [right; exact B|exact C].
  Qed.
  Lemma lit_ru : forall x, good x -> is_literal (ru x) = is_literal x.
  Proof. intros x G. unfold is_literal, ru. cbn [pu_str pu_rules pu_num]. destruct (good_rt x G) as (_ & _ & ->). reflexivity. Qed.
  Lemma view_ru : forall us b, Forall good us -> view_cls_from_units (map ru us) b = view_cls_from_units us b.
  Proof.
    intros us b G. assert (MV : forall us, Forall good us -> forall a, multi_view_cls (map ru us) a = multi_view_cls us a).
    { clear us b G. intros us G. induction G as [|x us H G IH]; intros a; [reflexivity|]. cbn [map multi_view_cls]. rewrite (lit_ru x H), !IH. reflexivity. }
    assert (LD : forall us, ldsf_units (map ru us) = ldsf_units us). { intros [|a [|d [|e [|z t]]]]; reflexivity. }
    unfold view_cls_from_units. destruct us as [|x [|y us]].
    - reflexivity.
    - inversion G; subst. cbn [map]. rewrite lit_ru by assumption. reflexivity.
    - change (map ru (x :: y :: us)) with (ru x :: ru y :: map ru us). cbv iota beta. change (ru x :: ru y :: map ru us) with (map ru (x :: y :: us)). rewrite MV by exact G. rewrite LD. reflexivity.
  Qed.
  Lemma apart_rt : forall us, Forall good us -> Forall (fun x => pu_str x <> []) us -> units_apart (map pu_str us) -> units_apart (map pu_str (map ru us)).
  Proof.
    intros us G NE. induction G as [|x us H G IH]; intros A; [exact Logic.I|]. inversion NE as [|? ? N1 N2]; subst. cbn [map units_apart] in *. destruct A as [A1 A2]. split; [|apply IH; assumption].
    destruct us as [|y us]; [exact Logic.I|]. cbn [map] in *. inversion G as [|? ? H2 _]; subst. inversion N2 as [|? ? N3 _]; subst. intros L1 L2 a b I J.
    destruct H as [->|M1]; [cbn in N1; congruence|]. destruct H2 as [->|M2]; [cbn in N3; congruence|].
    destruct (means_rt _ _ _ M1) as (_ & _ & _ & E1). destruct (means_rt _ _ _ M2) as (_ & _ & _ & E2). cbn [ru pu_str] in L1, L2, I, J. pose proof (E1 L1) as E1'. pose proof (E2 L2) as E2'. rewrite E1' in L1, I. rewrite E2' in L2, J.
    apply in_map_iff in I, J. destruct I as (a' & <- & I), J as (b' & <- & J). rewrite <- f_space.
    assert (LU : forall z, unit_means (pu_str z) (pu_rules z) (pu_num z) -> literal_unit (map f (pu_str z)) -> literal_unit (pu_str z)).
    { intros z [(c & r & E & LU & _)|(l & q & E & _)] L; [rewrite E in *; exact LU|]. destruct L as (_ & LD & _). rewrite E in LD. cbn [map app] in LD. inversion LD as [|? ? X _]; subst. change (In (f 91%N) letters_digits) in X. rewrite (f_id f g RN) in X by reflexivity. apply char_in_In in X. vm_compute in X. discriminate. }
    apply A1; [apply (LU x M1 L1)|apply (LU y M2 L2)|exact I|exact J].
  Qed.
  Lemma obs_ru : forall us, map (fun x : str * list str * Z => fst (fst x)) (map unit_obs us) = map pu_str us.
  Proof. apply map_obs. Qed.
  Theorem part_rt : forall P us, pattern_units P = Ok us -> closed P /\ Forall good us /\ pattern_units (rt P) = Ok (map ru us).
  Proof.
    intros P us H. apply part_exact in H. destruct H as [[-> E]|(NE & CC & F & AP)].
    - assert (us = [PU [] [[]] 1%Z]). { destruct us as [|x [|y us]]; try discriminate. f_equal. cbn [map] in E. destruct x as [a b c]. cbn in E. injection E as E1 E2 E3. subst. reflexivity. }
      subst us. split; [reflexivity|]. split; [constructor; [left; reflexivity|constructor]|]. reflexivity.
    - rewrite map_obs in CC, AP. assert (G : Forall (fun x => unit_means (pu_str x) (pu_rules x) (pu_num x)) us) by (rewrite Forall_map in F; exact F).
      assert (GG : Forall good us) by (revert G; apply Forall_impl; intros x M; right; exact M).
      assert (NN : Forall (fun x => pu_str x <> []) us). { revert G. apply Forall_impl. intros x [(c & r & -> & _)|(l & q & -> & _)]; discriminate. }
      assert (CL : Forall closed (map pu_str us)). { rewrite Forall_map. revert GG. apply Forall_impl. intros x H. apply good_rt. exact H. }
      destruct (closed_concat _ CL) as [C1 C2]. rewrite CC in C1, C2. split; [exact C1|]. split; [exact GG|]. apply part_exact. right.
      assert (PS : map pu_str (map ru us) = map rt (map pu_str us)) by (rewrite !map_map; reflexivity).
      split; [|split; [|split]].
      + intros E. apply NE. destruct P; [reflexivity|discriminate].
      + rewrite map_obs, PS. symmetry. exact C2.
      + rewrite !Forall_map. revert G. apply Forall_impl. intros x M. cbn [unit_obs ru fst snd pu_str pu_rules pu_num]. destruct (means_rt _ _ _ M) as (_ & X & _). exact X.
      + rewrite map_obs. apply apart_rt; assumption.
  Qed.

  (** *** patterns of one position *)
  Definition pR (p p' : match_pattern) : Prop := Forall good (mp_units p) /\ closed (mp_str p) /\ p' = MP (rt (mp_str p)) (map ru (mp_units p)) (mp_view p).
  Lemma mk_R : forall P b p, mk_match_pattern P b = Ok p -> exists p', mk_match_pattern (rt P) b = Ok p' /\ pR p p'.
  Proof.
    intros P b p H. unfold mk_match_pattern in H. destruct (pattern_units P) as [us|e] eqn:E; [|discriminate]. cbn [bind] in H. inversion H; subst. destruct (part_rt P us E) as (C & G & E').
    eexists. unfold mk_match_pattern. rewrite E'. cbn [bind]. split; [reflexivity|]. rewrite (view_ru us b G). split; [exact G|]. split; [exact C|]. reflexivity.
  Qed.
  Lemma mks_R : forall l i d ps, mk_patterns i d l = Ok ps -> exists ps', mk_patterns i d (map rt l) = Ok ps' /\ Forall2 pR ps ps'.
  Proof.
    induction l as [|P l IH]; intros i d ps H; cbn [mk_patterns map] in *; [inversion H; exists []; split; [reflexivity|constructor]|].
    destruct (mk_match_pattern P (i =? d)) as [p|e] eqn:E; [|discriminate]. cbn [bind] in H. destruct (mk_patterns (S i) d l) as [r|e] eqn:E2; [|discriminate]. cbn [bind] in H. inversion H; subst.
    destruct (mk_R P _ p E) as (p' & A & B). destruct (IH (S i) d r E2) as (r' & C & D). rewrite A. cbn [bind]. rewrite C. cbn [bind]. eexists. split; [reflexivity|]. constructor; assumption.
  Qed.
  Lemma pR_fuzzy : forall p p', pR p p' -> mp_fuzzy p' = mp_fuzzy p.
  Proof. intros p p' (_ & _ & ->). unfold mp_fuzzy, units_fuzzy. cbn [mp_units]. f_equal. f_equal. induction (mp_units p) as [|x us IH]; [reflexivity|]. cbn [map flat_map ru pu_rules]. rewrite IH. reflexivity. Qed.
  Lemma pR_str : forall p p', pR p p' -> Rf (mp_str p) (mp_str p').
  Proof. intros p p' (_ & C & ->). cbn [mp_str]. apply closed_R. exact C. Qed.
  Lemma pR_view : forall p p', pR p p' -> mp_view p' = mp_view p.
  Proof. intros p p' (_ & _ & ->). reflexivity. Qed.
  Lemma pR_empty : pR empty_match_pattern empty_match_pattern.
  Proof. split; [constructor; [left; reflexivity|constructor]|]. split; reflexivity. Qed.
  Lemma pR_lt : forall p p' q q', pR p p' -> pR q q' -> mp_lt p' q' = mp_lt p q.
  Proof.
    intros p p' q q' (G & _ & ->) (G' & _ & ->). unfold mp_lt. cbn [mp_view]. assert (K : forall p, Forall good (mp_units p) -> cmp_key (MP (rt (mp_str p)) (map ru (mp_units p)) (mp_view p)) = cmp_key p).
    { clear - RN. intros p G. unfold cmp_key. cbn [mp_units]. rewrite <- map_rev, map_map. apply Forall_rev in G. induction G as [|x us H G IH]; [reflexivity|]. cbn [map]. f_equal; [|exact IH].
      change [ru x] with (map ru [x]). rewrite view_ru; [reflexivity|constructor; [exact H|constructor]]. }
    rewrite !K by assumption. reflexivity.
  Qed.
End Units.
