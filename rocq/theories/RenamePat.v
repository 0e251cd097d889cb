(** Renaming the text of a pattern renames its structure and its parts (C58). *)
From Coq Require Import String.
From Verif Require Import PyStr Defs UrlLib ParseUtils Spec Views Trees Cluster Patterns Matcher Maker Observe MatchSpec GrammarSpec UrlSpec RenameSpec PyStrProofs DefsProofs DictProofs RegexProofs PieceProofs BridgeProofs Grammar Para Rename RenameUnits RenameState.
From Coq Require Import Lia.

Section Pat.
  Context (f g : char -> char) (RN : renaming f g).
  Notation rt := (rename_text f).
  Lemma rf_char : forall x p, is_alnum x = false -> match p with Outside => f x | _ => x end = x.
  Proof. intros x p A. destruct p; try reflexivity. exact (f_id f g RN x A). Qed.
  Lemma in_rt : forall x s p, is_alnum x = false -> (In x (rename_from f p s) <-> In x s).
  Proof.
    intros x s p A. revert p. induction s as [|c s IH]; intros p; [tauto|]. cbn [rename_from In]. rewrite IH. split; (intros [E|I]; [left|right; exact I]).
    - destruct p; try exact E. apply (f_inj f g RN). rewrite E. symmetry. exact (f_id f g RN x A).
    - subst c. exact (rf_char x p A).
  Qed.
  Lemma part_closed : forall P l, part_means P l -> closed P.
  Proof.
    intros P l M. assert (E : pattern_units P = Ok (map (fun x : str * list str * Z => PU (fst (fst x)) (snd (fst x)) (snd x)) l)). { apply part_exact. rewrite map_map. cbn [pu_str pu_rules pu_num]. replace (map _ l) with l; [exact M|]. rewrite <- (map_id l) at 1. apply map_ext. intros [[a b] c]. reflexivity. }
    exact (proj1 (part_rt f g RN _ _ E)).
  Qed.
  Lemma sep_closed : forall x, is_alnum x = false -> N.eqb x 91 = false -> N.eqb x 123 = false -> closed [x] /\ rt [x] = [x].
  Proof. intros x A B C. unfold closed, end_place, rename_text. cbn [fold_left next_place rename_from]. rewrite B, C, (f_id f g RN x A). auto. Qed.
  Lemma join_closed : forall x l, is_alnum x = false -> N.eqb x 91 = false -> N.eqb x 123 = false -> Forall closed l -> closed (join [x] l) /\ rt (join [x] l) = join [x] (map rt l).
  Proof.
    intros x l A B C F. destruct (sep_closed x A B C) as [CX RX]. induction F as [|w l W F IH]; [split; reflexivity|]. destruct l as [|w2 l]; [split; [exact W|reflexivity]|]. destruct IH as [I1 I2].
    change (join [x] (w :: w2 :: l)) with (w ++ [x] ++ join [x] (w2 :: l)). change (join [x] (map rt (w :: w2 :: l))) with (rt w ++ [x] ++ join [x] (map rt (w2 :: l))).
    destruct (closed_app f [x] (join [x] (w2 :: l)) CX I1) as [D1 D2]. destruct (closed_app f w ([x] ++ join [x] (w2 :: l)) W D1) as [E1 E2]. split; [exact E1|]. rewrite E2, D2, RX, I2. reflexivity.
  Qed.
  Lemma rt_nil : forall w, str_eqb (rt w) [] = str_eqb w [].
  Proof. intros [|c w]; reflexivity. Qed.
  Lemma path_rt : forall path ps, path_parts path ps -> Forall closed ps -> closed path /\ path_parts (rt path) (map rt ps).
  Proof.
    intros path ps (l & x & -> & F & ->) CL. apply Forall_app in CL. destruct CL as [CL CX]. assert (CA : Forall closed (l ++ [x])). { apply Forall_app. split; [|exact CX]. apply Forall_forall. intros w I. destruct (str_eqb w []) eqn:E; [apply str_eqb_iff in E; subst; reflexivity|]. rewrite Forall_forall in CL. apply CL, filter_In. rewrite E. auto. }
    change (u "/") with [47%N] in *. destruct (join_closed 47%N _ eq_refl eq_refl eq_refl CA) as [J1 J2]. destruct (sep_closed 47%N eq_refl eq_refl eq_refl) as [S1 S2]. destruct (closed_app f _ _ S1 J1) as [T1 T2]. split; [exact T1|]. exists (map rt l), (rt x). change [rt x] with (map rt [x]). rewrite <- map_app. split; [etransitivity; [exact T2|]; rewrite S2, J2; reflexivity|]. split.
    - apply Forall_map. eapply Forall_impl; [|exact F]. intros w NI. unfold rename_text. rewrite in_rt by reflexivity. exact NI.
    - rewrite map_app. f_equal. clear. induction l as [|w l IH]; [reflexivity|]. cbn [map filter]. rewrite rt_nil. destruct (negb _); cbn [map]; rewrite IH; reflexivity.
  Qed.
  Lemma kv_rt : forall b k v, kv_ok b k v -> kv_ok b (rt k) (rt v).
  Proof.
    intros b k v [(k0 & -> & NI)|[(B & NI & ->)|(B & -> & NI)]].
    - left. exists (rt k0). unfold rename_text. rewrite rename_app. cbn [rename_from]. rewrite (rf_char 61%N) by reflexivity. split; [reflexivity|]. rewrite in_rt by reflexivity. exact NI.
    - right. left. split; [exact B|]. split; [unfold rename_text; rewrite in_rt by reflexivity; exact NI|reflexivity].
    - right. right. split; [exact B|]. split; [reflexivity|unfold rename_text; rewrite in_rt by reflexivity; exact NI].
  Qed.
  Lemma kvs_rt : forall ks vs, Forall closed ks -> Forall closed vs ->
    Forall closed (map (fun kv : str * str => fst kv ++ snd kv) (combine ks vs)) /\
    map (fun kv : str * str => fst kv ++ snd kv) (combine (map rt ks) (map rt vs)) = map rt (map (fun kv : str * str => fst kv ++ snd kv) (combine ks vs)).
  Proof.
    intros ks vs K. revert vs. induction K as [|k ks C K IH]; intros vs V0; [split; [constructor|reflexivity]|]. destruct V0 as [|v vs D V0]; [split; [constructor|reflexivity]|]. cbn [map combine fst snd]. destruct (IH _ V0) as [I1 I2]. destruct (closed_app f k v C D) as [E1 E2]. split; [constructor; assumption|]. rewrite E2, I2. reflexivity.
  Qed.
  Lemma query_rt : forall q ks vs, query_parts q ks vs -> Forall closed ks -> Forall closed vs -> (forall t, q = Some t -> closed t) /\ query_parts (option_map rt q) (map rt ks) (map rt vs).
  Proof.
    intros [t|] ks vs Q CK CV; cbn [query_parts option_map] in *; [|destruct Q as [-> ->]; split; [intros t E; discriminate|auto]]. destruct Q as (N0 & LE & -> & F). destruct (kvs_rt ks vs CK CV) as [C1 C2]. change (u "&") with [38%N]. destruct (join_closed 38%N _ eq_refl eq_refl eq_refl C1) as [J1 J2]. split; [intros t E; inversion E; subst; exact J1|].
    split; [destruct ks; [congruence|discriminate]|]. split; [rewrite !map_length; exact LE|]. split; [etransitivity; [exact J2|]; f_equal; symmetry; exact C2|].
    assert (LK : length (map rt ks) = length ks) by apply map_length. unfold str, char in *. rewrite LK. clear LK. revert F. generalize (length ks =? 1). intros b F. clear - F RN CK CV. revert vs F CV. induction CK as [|k ks C CK IH]; intros [|v vs] F CV; try constructor.
    - cbn [map combine fst snd] in *. inversion CV as [|? ? V1 V2]; subst. inversion F as [|? ? (K & A & B) F']; subst. cbn [fst snd] in *. split; [apply kv_rt; exact K|]. split; [intros I; apply A; apply (in_rt 38%N (k ++ v) Outside eq_refl); pose proof (proj2 (closed_app f k v C V1)) as EE; unfold rename_text in EE, I; unfold str, char in *; rewrite EE; exact I|]. intros E. specialize (B E). destruct k; [congruence|discriminate].
    - cbn [combine] in F. inversion F; inversion CV; subst. apply IH; assumption.
  Qed.
  Lemma qmark_rt : closed (u "[\?]") /\ rt (u "[\?]") = u "[\?]".
  Proof. unfold closed, rename_text. change (u "[\?]") with [91; 92; 63; 93]%N. cbn [rename_from next_place N.eqb Pos.eqb]. rewrite (f_id f g RN 91%N eq_refl). split; reflexivity. Qed.
  Lemma rt_qmark : forall p a b, rename_from f p (a ++ u "[\?]" ++ b) = rename_from f p a ++ u "[\?]" ++ rename_from f (end_place p (a ++ u "[\?]")) b.
  Proof.
    intros p a b. rewrite rename_app. f_equal. rewrite rename_app. rewrite <- end_app. f_equal. change (u "[\?]") with [91; 92; 63; 93]%N. cbn [rename_from]. rewrite !rf_char by reflexivity. reflexivity.
  Qed.
End Pat.
Lemma no_qmark : forall f g path, renaming f g -> (forall a b, path <> a ++ u "[\?]" ++ b) -> forall a b, rename_text f path <> a ++ u "[\?]" ++ b.
Proof.
  intros f g path RN H a b E. apply (H (rename_from g Outside a) (rename_from g (end_place Outside (a ++ u "[\?]")) b)). rewrite <- (rt_qmark g f (sym_renaming f g RN)). rewrite <- E. symmetry. exact (rename_inv f g RN path Outside).
Qed.
Lemma parts_rt : forall f g s d ks hf Ps, renaming f g -> pattern_parts s d ks hf Ps -> Forall closed ks -> Forall closed Ps -> pattern_parts (rename_text f s) d (map (rename_text f) ks) hf (map (rename_text f) Ps).
Proof.
  intros f g s d ks hf Ps RN (path & q & fr & ps & vs & (E & NH & NQ & QH) & P & Q & -> & -> & ->) CK CP. apply Forall_app in CP. destruct CP as [CP CV]. apply Forall_app in CV. destruct CV as [CV CF].
  destruct (path_rt f g RN _ _ P CP) as [C1 P']. destruct (query_rt f g RN _ _ _ Q CK CV) as [C2 Q'].
  exists (rename_text f path), (option_map (rename_text f) q), (option_map (rename_text f) fr), (map (rename_text f) ps), (map (rename_text f) vs).
  split; [split; [|split; [|split]]|].
  - rewrite E. destruct (qmark_rt f g RN) as [M1 M2]. destruct (sep_closed f g RN 35%N eq_refl eq_refl eq_refl) as [H1 H2].
    assert (X : closed (opt_text (u "[\?]") q) /\ rename_text f (opt_text (u "[\?]") q) = opt_text (u "[\?]") (option_map (rename_text f) q)).
    { destruct q as [t|]; [|split; reflexivity]. cbn [opt_text option_map]. destruct (closed_app f _ t M1 (C2 t eq_refl)) as [A B]. split; [exact A|]. rewrite B, M2. reflexivity. }
    assert (Y : closed (opt_text (u "#") fr) /\ rename_text f (opt_text (u "#") fr) = opt_text (u "#") (option_map (rename_text f) fr)).
    { destruct fr as [t|]; [|split; reflexivity]. cbn [opt_text option_map]. change (u "#") with [35%N]. inversion CF; subst. destruct (closed_app f [35%N] t H1) as [A B]; [assumption|]. split; [exact A|]. etransitivity; [exact B|]. f_equal. exact H2. }
    destruct X as [X1 X2], Y as [Y1 Y2]. destruct (closed_app f _ _ X1 Y1) as [Z1 Z2]. destruct (closed_app f _ _ C1 Z1) as [_ W2]. rewrite W2, Z2, X2, Y2. reflexivity.
  - unfold rename_text. rewrite (in_rt f g RN) by reflexivity. exact NH.
  - exact (no_qmark f g path RN NQ).
  - intros t T0. destruct q as [t0|]; [|discriminate]. inversion T0; subst. unfold rename_text. rewrite (in_rt f g RN) by reflexivity. apply QH. reflexivity.
  - split; [exact P'|]. split; [exact Q'|]. split; [rewrite map_length; reflexivity|]. split; [destruct fr; reflexivity|]. rewrite !map_app. destruct fr; reflexivity.
Qed.
Lemma c58_patterns : forall f g s d ks hf Ps, renaming f g -> startswith s (u "/") = true -> pattern_parts s d ks hf Ps -> Forall (fun P => exists l, part_means P l) Ps -> Forall balanced ks -> renamed_pattern f s (rename_text f s).
Proof.
  intros f g s d ks hf Ps RN S0 PP M CK. assert (CP : Forall closed Ps). { eapply Forall_impl; [|exact M]. intros P (l & PM). exact (part_closed f g RN P l PM). }
  assert (A : reads s (UM d ks hf, Ps)) by (split; assumption). assert (B : reads (rename_text f s) (rename_parts f (UM d ks hf, Ps))).
  { split; [|exact (parts_rt f g s d ks hf Ps RN PP CK CP)]. change (u "/") with [47%N] in *. destruct s as [|c s]; [discriminate|]. cbn [startswith] in S0. apply andb_true_iff in S0. destruct S0 as [C _]. apply N.eqb_eq in C. subst c. cbn [rename_text rename_from]. rewrite (f_id f g RN 47%N eq_refl). destruct (rename_from f (next_place Outside 47%N) s); reflexivity. }
  intros x'. split.
  - intros RD. exists (UM d ks hf, Ps). split; [exact A|]. exact (reads_fun _ _ _ RD B).
  - intros (x & RD & ->). rewrite (reads_fun _ _ _ RD A). exact B.
Qed.
