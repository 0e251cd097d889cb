(** The clusterer looks at the texts of pieces only through equality, length and rules:
    it maps related trees to related trees. *)
From Coq Require Import String.
From Verif Require Import PyStr Defs UrlLib ParseUtils Views Trees Cluster Patterns Matcher Maker Observe PyStrProofs TreeProofs.
From Coq Require Import Lia.

(** ** results and lists *)
Definition resR {A B} (P : A -> B -> Prop) (x : res A) (y : res B) : Prop :=
  match x, y with Ok a, Ok b => P a b | Err e, Err e' => e = e' | _, _ => False end.
Definition optR {A B} (P : A -> B -> Prop) (x : option A) (y : option B) : Prop :=
  match x, y with Some a, Some b => P a b | None, None => True | _, _ => False end.
Definition pairR {A B C D} (P : A -> B -> Prop) (Q : C -> D -> Prop) (x : A * C) (y : B * D) : Prop := P (fst x) (fst y) /\ Q (snd x) (snd y).
Definition sumR {A B C D} (P : A -> B -> Prop) (Q : C -> D -> Prop) (x : A + C) (y : B + D) : Prop :=
  match x, y with inl a, inl b => P a b | inr c, inr d => Q c d | _, _ => False end.
Lemma resR_bind : forall A B C D (P : A -> B -> Prop) (Q : C -> D -> Prop) x y f g,
  resR P x y -> (forall a b, P a b -> resR Q (f a) (g b)) -> resR Q (bind x f) (bind y g).
Proof. intros A B C D P Q [a|e] [b|e'] f g H K; cbn in *; auto; contradiction. Qed.
Lemma resR_eq : forall A (x : res A), resR eq x x.
Proof. intros A []; reflexivity. Qed.
Lemma resR_eq' : forall A (x y : res A), x = y -> resR eq x y.
Proof. intros A x y ->. apply resR_eq. Qed.
Lemma mapM_R : forall A B C D (P : A -> B -> Prop) (Q : C -> D -> Prop) f g l l',
  Forall2 P l l' -> (forall a b, P a b -> resR Q (f a) (g b)) -> resR (Forall2 Q) (mapM f l) (mapM g l').
Proof.
  intros A B C D P Q f g l l' F K. induction F as [|a b l l' H F IH]; [constructor|]. cbn [mapM]. eapply resR_bind; [apply K, H|]. intros c d CD. eapply resR_bind; [exact IH|]. intros r r' RR. constructor; assumption.
Qed.
Lemma foldM_R : forall A B C D (P : A -> B -> Prop) (Q : C -> D -> Prop) f g l l' s s',
  Forall2 P l l' -> Q s s' -> (forall s s' a b, Q s s' -> P a b -> resR Q (f s a) (g s' b)) -> resR Q (foldM f l s) (foldM g l' s').
Proof.
  intros A B C D P Q f g l l' s s' F QS K. revert s s' QS. induction F as [|a b l l' H F IH]; intros s s' QS; [exact QS|]. cbn [foldM]. eapply resR_bind; [apply K; eassumption|]. intros c d CD. apply IH. exact CD.
Qed.
Lemma F2_map : forall A B C D (P : A -> B -> Prop) (Q : C -> D -> Prop) (f : A -> C) (g : B -> D) l l',
  Forall2 P l l' -> (forall a b, P a b -> Q (f a) (g b)) -> Forall2 Q (map f l) (map g l').
Proof. intros A B C D P Q f g l l' F K. induction F; cbn [map]; constructor; auto. Qed.
Lemma F2_eq : forall A B C (P : A -> B -> Prop) (f : A -> C) (g : B -> C) l l',
  Forall2 P l l' -> (forall a b, P a b -> f a = g b) -> map f l = map g l'.
Proof. intros A B C P f g l l' F K. induction F; cbn [map]; f_equal; auto. Qed.
Lemma F2_refl : forall A (l : list A), Forall2 eq l l.
Proof. intros A l. induction l; constructor; auto. Qed.
Lemma F2_flat : forall A B C D (P : A -> B -> Prop) (Q : C -> D -> Prop) (f : A -> list C) (g : B -> list D) l l',
  Forall2 P l l' -> (forall a b, P a b -> Forall2 Q (f a) (g b)) -> Forall2 Q (flat_map f l) (flat_map g l').
Proof. intros A B C D P Q f g l l' F K. induction F; cbn [flat_map]; [constructor|apply Forall2_app; auto]. Qed.
Lemma F2_concat : forall A B (P : A -> B -> Prop) l l', Forall2 (Forall2 P) l l' -> Forall2 P (List.concat l) (List.concat l').
Proof. intros A B P l l' F. induction F; cbn [List.concat]; [constructor|apply Forall2_app; auto]. Qed.
Lemma F2_len : forall A B (P : A -> B -> Prop) l l', Forall2 P l l' -> length l = length l'.
Proof. intros A B P l l' F. induction F; cbn [length]; auto. Qed.
Lemma F2_tl : forall A B (P : A -> B -> Prop) l l', Forall2 P l l' -> Forall2 P (tl l) (tl l').
Proof. intros A B P l l' F. destruct F; [constructor|assumption]. Qed.
Lemma F2_rev : forall A B (P : A -> B -> Prop) l l', Forall2 P l l' -> Forall2 P (rev l) (rev l').
Proof. intros A B P l l' F. induction F; cbn [rev]; [constructor|apply Forall2_app; [assumption|repeat constructor; assumption]]. Qed.
Lemma F2_snoc : forall A B (P : A -> B -> Prop) l l' x y, Forall2 P l l' -> P x y -> Forall2 P (l ++ [x]) (l' ++ [y]).
Proof. intros. apply Forall2_app; [assumption|constructor; [assumption|constructor]]. Qed.
Lemma F2_impl : forall A B (P Q : A -> B -> Prop) l l', (forall a b, P a b -> Q a b) -> Forall2 P l l' -> Forall2 Q l l'.
Proof. intros A B P Q l l' K F. induction F; constructor; auto. Qed.
Lemma lefts_R : forall A B C D (P : A -> B -> Prop) (Q : C -> D -> Prop) l l', Forall2 (sumR P Q) l l' -> Forall2 P (lefts l) (lefts l').
Proof. intros A B C D P Q l l' F. induction F as [|[a|c] [b|d] l l' H F IH]; cbn [lefts]; try contradiction; [constructor|constructor; assumption|exact IH]. Qed.
Lemma rights_R : forall A B C D (P : A -> B -> Prop) (Q : C -> D -> Prop) l l', Forall2 (sumR P Q) l l' -> Forall2 Q (rights l) (rights l').
Proof. intros A B C D P Q l l' F. induction F as [|[a|c] [b|d] l l' H F IH]; cbn [rights]; try contradiction; [constructor|exact IH|constructor; assumption]. Qed.

Section Dict.
  Context {K K' V W : Type} (eqb : K -> K -> bool) (eqb' : K' -> K' -> bool) (R : K -> K' -> Prop) (Q : V -> W -> Prop).
  Context (EQ : forall a a' b b', R a a' -> R b b' -> eqb a b = eqb' a' b').
  Notation dR := (Forall2 (pairR R Q)).
  Lemma dget_R : forall k k' d d', R k k' -> dR d d' -> optR Q (dget eqb k d) (dget eqb' k' d').
  Proof. intros k k' d d' KK F. induction F as [|[a v] [b w] d d' [H1 H2] F IH]; [exact Logic.I|]. cbn [dget]. cbn [fst snd] in *. rewrite (EQ k k' a b KK H1). destruct (eqb' k' b); [exact H2|exact IH]. Qed.
  Lemma dset_R : forall k k' v w d d', R k k' -> Q v w -> dR d d' -> dR (dset eqb k v d) (dset eqb' k' w d').
  Proof.
    intros k k' v w d d' KK QQ F. induction F as [|[a x] [b y] d d' [H1 H2] F IH]; [constructor; [split; assumption|constructor]|]. cbn [dset]. cbn [fst snd] in *. rewrite (EQ k k' a b KK H1). destruct (eqb' k' b); constructor; try assumption; split; assumption.
  Qed.
End Dict.

Section Para.
  (** related texts (pieces, patterns) and related parsed pieces *)
  Context (R : str -> str -> Prop) (V : parsed_piece -> parsed_piece -> Prop).
  Context (R_eq : forall a a' b b', R a a' -> R b b' -> str_eqb a b = str_eqb a' b').
  Context (R_concat : forall l l', Forall2 R l l' -> R (List.concat l) (List.concat l')).
  Context (R_join : forall l l', Forall2 R l l' -> R (join [SLASH] l) (join [SLASH] l')).
  Context (V_piece : forall p p', V p p' -> R (piece p) (piece p')).
  Context (V_len : forall p p', V p p' -> piece_length p = piece_length p').
  Context (V_rule : forall p p', V p p' -> fuzzy_rule p = fuzzy_rule p').
  Context (V_num : forall p p', V p p' -> length (pieces p) = length (pieces p')).
  Context (V_spec : forall p p' n q, V p p' -> specify_rule (fuzzy_rule p) n = Ok q -> R q q).
  Context (V_multi : forall p p', V p p' -> Forall2 V (multi_parts p) (multi_parts p')).
  Context (V_mixed : forall p p', V p p' -> Forall2 V (mixed_parts p) (mixed_parts p')).
  Context (V_ldsf : forall p p', V p p' -> Forall2 V (ldsf_parts p) (ldsf_parts p')).
  Context (V_empty : V empty_parsed_piece empty_parsed_piece).

  Lemma key_R : forall l l', Forall2 V l l' -> view_key l = view_key l'.
  Proof. intros l l' F. unfold view_key. f_equal. apply (F2_eq _ _ _ V); [exact F|exact V_rule]. Qed.

  (** ** trees *)
  Inductive treeR : tree -> tree -> Prop :=
  | TR : forall v v' p p' c m ks ks', V v v' -> optR R p p' -> Forall2 treeR ks ks' -> treeR (T v p c m ks) (T v' p' c m ks').
  Lemma t_val_R : forall t t', treeR t t' -> V (t_val t) (t_val t'). Proof. intros ? ? []. assumption. Qed.
  Lemma t_piece_R : forall t t', treeR t t' -> R (t_piece t) (t_piece t'). Proof. intros t t' H. apply V_piece, t_val_R, H. Qed.
  Lemma t_cnt_R : forall t t', treeR t t' -> t_cnt t = t_cnt t'. Proof. intros ? ? []. reflexivity. Qed.
  Lemma t_meta_R : forall t t', treeR t t' -> t_meta t = t_meta t'. Proof. intros ? ? []. reflexivity. Qed.
  Lemma t_kids_R : forall t t', treeR t t' -> Forall2 treeR (t_kids t) (t_kids t'). Proof. intros ? ? []. assumption. Qed.
  Lemma t_pattern_R : forall t t', treeR t t' -> R (t_pattern t) (t_pattern t').
  Proof. intros t t' H. pose proof (t_piece_R _ _ H) as P. destruct H as [v v' [p|] [p'|] c m ks ks' VV PP KK]; try contradiction; [exact PP|exact P]. Qed.
  Lemma root_R : treeR new_root new_root.
  Proof. constructor; [exact V_empty|exact Logic.I|constructor]. Qed.
  Definition splitR (a b : list tree * tree * list tree) : Prop := pairR (pairR (Forall2 treeR) treeR) (Forall2 treeR) a b.
  Lemma kid_split_R : forall k k' ks ks', R k k' -> Forall2 treeR ks ks' -> optR splitR (kid_split k ks) (kid_split k' ks').
  Proof.
    intros k k' ks ks' KK F. induction F as [|x y ks ks' H F IH]; [exact Logic.I|]. cbn [kid_split]. rewrite (R_eq k k' _ _ KK (t_piece_R _ _ H)). destruct (str_eqb k' (t_piece y)); [split; [split; [constructor|exact H]|exact F]|].
    destruct (kid_split k ks) as [[[a x0] b]|], (kid_split k' ks') as [[[a' x0'] b']|]; try contradiction; [|exact Logic.I]. destruct IH as [[A B] C]. split; [split; [constructor; assumption|exact B]|exact C].
  Qed.
  Definition kvR (a b : parsed_piece * option str) : Prop := pairR V (optR R) a b.
  Lemma build_R : forall c f kvs kvs' t t' n, Forall2 kvR kvs kvs' -> treeR t t' ->
    treeR (fst (build t kvs c f n)) (fst (build t' kvs' c f n)) /\ snd (build t kvs c f n) = snd (build t' kvs' c f n).
  Proof.
    intros c f kvs kvs' t t' n F. revert t t' n. induction F as [|[pp pat] [pp' pat'] kvs kvs' [HV HP] F IH]; intros t t' n H; destruct H as [v v' p p' cc m ks ks' VV PP KK]; cbn [build].
    - split; [|reflexivity]. constructor; assumption.
    - cbn [fst snd] in *. pose proof (kid_split_R _ _ _ _ (V_piece _ _ HV) KK) as S1. destruct (kid_split (piece pp) ks) as [[[a x] b]|], (kid_split (piece pp') ks') as [[[a' x'] b']|]; try contradiction.
      + destruct S1 as [[A B] C]. cbn [fst snd] in *. destruct (IH x x' (Some false) B) as [I1 I2]. destruct (build x kvs c f (Some false)) as [k1 n1], (build x' kvs' c f (Some false)) as [k2 n2]. cbn [fst snd] in *. split; [|exact I2]. constructor; try assumption. apply Forall2_app; [exact A|constructor; assumption].
      + destruct (IH (T pp pat 0 None []) (T pp' pat' 0 None []) (Some true)) as [I1 I2]; [constructor; [exact HV|exact HP|constructor]|]. destruct (build (T pp pat 0 None []) kvs c f (Some true)) as [k1 n1], (build (T pp' pat' 0 None []) kvs' c f (Some true)) as [k2 n2]. cbn [fst snd] in *. split; [|exact I2]. constructor; try assumption. apply F2_snoc; assumption.
  Qed.
  Lemma incr_R : forall d ks ks' t t', Forall2 R ks ks' -> treeR t t' -> treeR (incr_path t ks d) (incr_path t' ks' d).
  Proof.
    intros d ks ks' t t' F. revert t t'. induction F as [|k k' ks ks' H F IH]; intros t t' [v v' p p' cc m l l' VV PP KK]; cbn [incr_path]; constructor; try assumption.
    pose proof (kid_split_R _ _ _ _ H KK) as S1. destruct (kid_split k l) as [[[a x] b]|], (kid_split k' l') as [[[a' x'] b']|]; try contradiction; [|exact KK]. destruct S1 as [[A B] C]. cbn [fst snd] in *. apply Forall2_app; [exact A|constructor; auto].
  Qed.
  Lemma bfpp_R : forall t t' pps pps' c me un, treeR t t' -> Forall2 V pps pps' ->
    resR (pairR treeR eq) (build_from_parsed_pieces t pps c me un) (build_from_parsed_pieces t' pps' c me un).
  Proof.
    intros t t' pps pps' c me un H F. unfold build_from_parsed_pieces. assert (K : Forall2 kvR (map (fun p => (p, None)) pps) (map (fun p => (p, None)) pps')) by (eapply F2_map; [exact F|]; intros a b AB; split; [exact AB|exact Logic.I]).
    destruct (build_R c (add_meta me) _ _ _ _ None K H) as [A B]. destruct (build t _ c _ None) as [t1 n1], (build t' _ c _ None) as [t2 n2]. cbn [fst snd] in A, B. subst n2. destruct n1 as [new|]; [|reflexivity]. split; [|reflexivity]. cbn [fst].
    destruct (un && negb new)%bool; [|exact A]. apply incr_R; [|exact A]. eapply F2_map; [exact F|exact V_piece].
  Qed.
  Lemma bfn_R : forall t t' ns ns', treeR t t' -> Forall2 treeR ns ns' -> resR (pairR treeR eq) (build_from_nodes t ns) (build_from_nodes t' ns').
  Proof.
    intros t t' ns ns' H F. unfold build_from_nodes. pose proof (F2_rev _ _ _ _ _ F) as FR. destruct FR as [|x y l l' XY FR]; [reflexivity|]. rewrite (t_cnt_R _ _ XY), (t_meta_R _ _ XY).
    assert (K : Forall2 kvR (map (fun n => (t_val n, Some (t_pattern n))) ns) (map (fun n => (t_val n, Some (t_pattern n))) ns')) by (eapply F2_map; [exact F|]; intros a b AB; split; [apply t_val_R, AB|apply t_pattern_R, AB]).
    destruct (build_R (t_cnt y) (update_meta (t_meta y)) _ _ _ _ None K H) as [A B]. destruct (build t _ _ _ None) as [t1 n1], (build t' _ _ _ None) as [t2 n2]. cbn [fst snd] in A, B. subst n2. destruct n1 as [new|]; [split; [exact A|reflexivity]|reflexivity].
  Qed.
  Lemma paths_R : forall t t', treeR t t' -> Forall2 (Forall2 treeR) (paths t) (paths t').
  Proof.
    induction t as [v p c m ks IH] using tree_ind'. intros t' H. pose proof H as H0. inversion H as [v0 v' p0 p' c0 m0 ks0 ks' VV PP KK]; subst. assert (L : Forall2 (Forall2 treeR) (flat_map paths ks) (flat_map paths ks')).
    { clear - IH KK. induction KK as [|x y ks ks' XY KK IHK]; [constructor|]. inversion IH; subst. cbn [flat_map]. apply Forall2_app; auto. }
    destruct KK as [|x y ks ks' XY KK]; [repeat constructor; assumption|]. change (paths (T v p c m (x :: ks))) with (map (cons (T v p c m (x :: ks))) (flat_map paths (x :: ks))). change (paths (T v' p' c m (y :: ks'))) with (map (cons (T v' p' c m (y :: ks'))) (flat_map paths (y :: ks'))).
    eapply F2_map; [exact L|]. intros a b AB. constructor; assumption.
  Qed.

  (** ** nodes and items of a processor *)
  Notation idsR := (Forall2 R).
  Definition pnR (n n' : pnode) : Prop := optR (pairR idsR eq) (pn_parent n) (pn_parent n') /\ idsR (pn_id n) (pn_id n') /\ treeR (pn_tree n) (pn_tree n').
  Definition itR (i i' : item) : Prop := V (it_pp i) (it_pp i') /\ R (it_pat i) (it_pat i') /\ Forall2 pnR (it_bag i) (it_bag i').
  Definition viR (a b : list parsed_piece * item) : Prop := pairR (Forall2 V) itR a b.
  Definition destR (a b : dest) : Prop := match a, b with DLength, DLength => True | DView c v, DView c' v' => c = c' /\ Forall2 V v v' | _, _ => False end.
  Definition diR (a b : dest * item) : Prop := pairR destR itR a b.
  Definition doR (a b : cls * str * str) : Prop := pairR (pairR eq R) R a b.
  Definition fwR (a b : list (cls * str * str) * list (dest * item)) : Prop := pairR (Forall2 doR) (Forall2 diR) a b.
  Lemma ids_R : forall a a' b b', idsR a a' -> idsR b b' -> ids_eqb a b = ids_eqb a' b'.
  Proof. intros a a' b b' A. revert b b'. induction A as [|x y a a' XY A IH]; intros b b' [|z w b0 b0' ZW B]; cbn [ids_eqb]; try reflexivity. rewrite (R_eq _ _ _ _ XY ZW), (IH _ _ B). reflexivity. Qed.
  Lemma pn_cnt_R : forall n n', pnR n n' -> pn_cnt n = pn_cnt n'. Proof. intros n n' (_ & _ & H). apply t_cnt_R, H. Qed.
  Lemma pn_piece_R : forall n n', pnR n n' -> R (pn_piece n) (pn_piece n'). Proof. intros n n' (_ & _ & H). apply t_piece_R, H. Qed.
  Lemma bag_count_R : forall b b', Forall2 pnR b b' -> bag_count b = bag_count b'.
  Proof. intros b b' F. unfold bag_count. f_equal. eapply F2_eq; [exact F|exact pn_cnt_R]. Qed.
  Lemma bag_pcount_R : forall b b', Forall2 pnR b b' -> bag_pcount b = bag_pcount b'.
  Proof.
    intros b b' F. unfold bag_pcount. f_equal. eapply F2_eq; [exact F|]. intros n n' H. pose proof (pn_cnt_R _ _ H) as C. destruct H as (P & _ & _). destruct (pn_parent n) as [[i c]|], (pn_parent n') as [[i' c']|]; try contradiction; [apply P|exact C].
  Qed.
  Lemma p_nodes_R : forall b b', Forall2 pnR b b' -> Forall2 (pairR idsR eq) (p_nodes b) (p_nodes b').
  Proof.
    intros b b' F. unfold p_nodes. assert (G : forall d d', Forall2 (pairR idsR (@eq Z)) d d' -> Forall2 (pairR idsR eq) (fold_left (fun d n => match pn_parent n with Some (i, c) => dset ids_eqb i c d | None => d end) b d) (fold_left (fun d n => match pn_parent n with Some (i, c) => dset ids_eqb i c d | None => d end) b' d')); [|apply G; constructor].
    induction F as [|n n' b b' H F IH]; intros d d' DD; [exact DD|]. cbn [fold_left]. apply IH. destruct H as (P & _ & _). destruct (pn_parent n) as [[i c]|], (pn_parent n') as [[i' c']|]; try contradiction; [|exact DD]. destruct P as [P1 P2]. apply dset_R; [exact ids_R|exact P1|exact P2|exact DD].
  Qed.
  Lemma dapp_R : forall A B (Q : A -> B -> Prop) k k' x y d d', R k k' -> Q x y -> Forall2 (pairR R (Forall2 Q)) d d' -> Forall2 (pairR R (Forall2 Q)) (dapp k x d) (dapp k' y d').
  Proof.
    intros A B Q k k' x y d d' KK XY DD. unfold dapp. pose proof (dget_R str_eqb str_eqb R (Forall2 Q) R_eq k k' d d' KK DD) as G. destruct (dget str_eqb k d) as [l|], (dget str_eqb k' d') as [l'|]; try contradiction.
    - apply dset_R; [exact R_eq|exact KK|apply F2_snoc; assumption|exact DD].
    - apply F2_snoc; [exact DD|]. split; [exact KK|]. repeat constructor; assumption.
  Qed.
  Notation bagsR := (Forall2 (pairR R (Forall2 pnR))).
  Lemma group_R : forall ns ns', Forall2 pnR ns ns' -> bagsR (group_nodes ns) (group_nodes ns').
  Proof.
    intros ns ns' F. unfold group_nodes. assert (G : forall d d', bagsR d d' -> bagsR (fold_left (fun d n => dapp (pn_piece n) n d) ns d) (fold_left (fun d n => dapp (pn_piece n) n d) ns' d')); [|apply G; constructor].
    induction F as [|n n' ns ns' H F IH]; intros d d' DD; [exact DD|]. cbn [fold_left]. apply IH. apply dapp_R; [apply pn_piece_R, H|exact H|exact DD].
  Qed.
  Lemma it_count_R : forall i i', itR i i' -> it_count i = it_count i'. Proof. intros i i' (_ & _ & H). apply bag_count_R, H. Qed.
  Lemma it_piece_R : forall i i', itR i i' -> R (it_piece i) (it_piece i'). Proof. intros i i' (H & _ & _). apply V_piece, H. Qed.

  Section L.
    Context (mcn : Z) (inner : nat -> bool -> tree -> res (list tree)) (level : nat) (last_level last_path kw : bool).
    Context (inner_R : forall d k t t', treeR t t' -> resR (Forall2 treeR) (inner d k t) (inner d k t')).
    Lemma pre_seek_R : forall b b', Forall2 pnR b b' -> pre_seek mcn level b = pre_seek mcn level b'.
    Proof.
      intros b b' F. unfold pre_seek, piece_seek. destruct level as [|[|l]]; try reflexivity. rewrite (bag_count_R _ _ F). replace (map snd (p_nodes b)) with (map snd (p_nodes b')); [reflexivity|]. symmetry. eapply F2_eq; [apply p_nodes_R, F|]. intros x y [_ H]. exact H.
    Qed.
    Lemma dest_piece_R : forall p p', V p p' -> destR (dest_piece mcn last_path p) (dest_piece mcn last_path p').
    Proof.
      intros p p' H. unfold dest_piece. cbv zeta. pose proof (V_multi _ _ H) as A. pose proof (V_mixed _ _ H) as B. pose proof (V_ldsf _ _ H) as C. rewrite (V_num _ _ H), (F2_len _ _ _ _ _ A), (F2_len _ _ _ _ _ B), (key_R _ _ A), (key_R _ _ B), (key_R _ _ C).
      repeat match goal with |- destR (if ?b then _ else _) (if ?b then _ else _) => destruct b end; try exact Logic.I; split; auto.
    Qed.
    Lemma dest_base_R : forall v v' p p', Forall2 V v v' -> V p p' -> destR (dest_base last_path v p) (dest_base last_path v' p').
    Proof.
      intros v v' p p' A0 H. unfold dest_base. cbv zeta. pose proof (V_mixed _ _ H) as B. pose proof (V_ldsf _ _ H) as C. rewrite (key_R _ _ A0), (F2_len _ _ _ _ _ B), (F2_len _ _ _ _ _ C), (key_R _ _ B), (key_R _ _ C).
      repeat match goal with |- destR (if ?b then _ else _) (if ?b then _ else _) => destruct b end; try exact Logic.I; split; auto.
    Qed.
    Lemma dest_mixed_R : forall p p', V p p' -> destR (dest_mixed last_path p) (dest_mixed last_path p').
    Proof.
      intros p p' H. unfold dest_mixed. cbv zeta. pose proof (V_ldsf _ _ H) as C. rewrite (F2_len _ _ _ _ _ C). destruct last_path; [|exact Logic.I]. destruct (_ =? 1); [exact Logic.I|split; auto].
    Qed.
    Lemma piece_one_R : forall a b, pairR R (Forall2 pnR) a b -> resR (sumR doR diR) (piece_one mcn level last_path a) (piece_one mcn level last_path b).
    Proof.
      intros [k b] [k' b'] [KK BB]. cbn [fst snd] in KK, BB. unfold piece_one. cbn [fst snd]. rewrite (bag_count_R _ _ BB), (bag_pcount_R _ _ BB), (pre_seek_R _ _ BB). eapply resR_bind; [apply resR_eq|]. intros keep ? <-. destruct keep; [split; [split; [reflexivity|exact KK]|exact KK]|].
      unfold piece_item. cbn [fst snd]. destruct BB as [|n n' b b' H BB]; [reflexivity|]. cbn [bind]. pose proof H as (_ & _ & TT). apply t_val_R in TT. split; [apply dest_piece_R, TT|]. split; [exact TT|]. split; [exact KK|]. constructor; assumption.
    Qed.
    Lemma piece_bags_R : forall d d', bagsR d d' -> resR fwR (piece_bags mcn level last_level last_path kw d) (piece_bags mcn level last_level last_path kw d').
    Proof.
      intros d d' DD. unfold piece_bags, bag in *. cbv zeta. rewrite (F2_len _ _ _ _ _ DD). rewrite (F2_eq _ _ _ _ (fun kb : str * list pnode => bag_count (snd kb)) (fun kb : str * list pnode => bag_count (snd kb)) _ _ DD) by (intros a b [_ H]; apply bag_count_R, H).
      assert (LIT : Forall2 doR (map (fun kb : str * list pnode => (CPiece, fst kb, fst kb)) d) (map (fun kb : str * list pnode => (CPiece, fst kb, fst kb)) d')) by (eapply F2_map; [exact DD|]; intros a b [H _]; split; [split; [reflexivity|exact H]|exact H]).
      assert (LOOP : resR fwR (r <- mapM (piece_one mcn level last_path) d ;; Ok (lefts r, rights r)) (r <- mapM (piece_one mcn level last_path) d' ;; Ok (lefts r, rights r))).
      { eapply resR_bind; [eapply mapM_R; [exact DD|exact piece_one_R]|]. intros r r' RR. split; cbn [fst snd]; [eapply lefts_R; exact RR|eapply rights_R; exact RR]. }
      replace (is_nil d) with (is_nil d') by (destruct DD; reflexivity). destruct (is_nil d'); [split; constructor|]. destruct (last_level && kw)%bool; [split; [exact LIT|constructor]|]. destruct (Z.ltb _ _); [|exact LOOP]. eapply resR_bind; [apply resR_eq|]. intros m ? <-. destruct (negb _); [split; [exact LIT|constructor]|exact LOOP].
    Qed.
    Lemma forward_R : forall c a b, viR a b -> diR (forward last_path c a) (forward last_path c b).
    Proof. intros c a b [VV II]. unfold forward. split; [|exact II]. cbn [fst snd]. pose proof (proj1 II) as PP. destruct c; try exact Logic.I; [apply dest_base_R; assumption|apply dest_mixed_R; assumption]. Qed.

    Definition vbR (a b : vbucket) : Prop := vb_depth a = vb_depth b /\ Forall2 (pairR R viR) (vb_objs a) (vb_objs b) /\ vb_count a = vb_count b /\ treeR (vb_root a) (vb_root b).
    Lemma vb_add_R : forall vi vi' b b', viR vi vi' -> vbR b b' -> resR vbR (vb_add vi b) (vb_add vi' b').
    Proof.
      intros vi vi' b b' [VV II] (B1 & B2 & B3 & B4). unfold vb_add. rewrite (it_count_R _ _ II). eapply resR_bind; [apply bfpp_R; assumption|]. intros r r' [R1 _]. split; [exact B1|]. split; [|split; [cbn [vb_count]; rewrite B3; reflexivity|exact R1]].
      apply dset_R; [exact R_eq|apply it_piece_R, II|split; assumption|exact B2].
    Qed.
    Lemma multi_add_R : forall d d' vi vi', Forall2 (pairR eq vbR) d d' -> viR vi vi' -> resR (Forall2 (pairR eq vbR)) (multi_add d vi) (multi_add d' vi').
    Proof.
      intros d d' vi vi' DD II. unfold multi_add. cbv zeta. rewrite (key_R _ _ (proj1 II)). assert (EQ : forall a a' b b' : str, a = a' -> b = b' -> str_eqb a b = str_eqb a' b') by (intros; subst; reflexivity).
      pose proof (dget_R str_eqb str_eqb eq vbR EQ (view_key (fst vi')) _ _ _ eq_refl DD) as G. rewrite (F2_len _ _ _ _ _ (proj1 II)).
      eapply resR_bind; [apply vb_add_R; [exact II|]|].
      - destruct (dget str_eqb _ d) as [b|], (dget str_eqb _ d') as [b'|]; try contradiction; [exact G|]. split; [reflexivity|]. split; [constructor|]. split; [reflexivity|exact root_R].
      - intros b b' BB. apply dset_R; [exact EQ|reflexivity|exact BB|exact DD].
    Qed.
    Lemma transfer_R : forall b b' t t', vbR b b' -> treeR t t' -> resR (pairR (pairR (Forall2 (pairR R viR)) eq) R) (transfer b t) (transfer b' t').
    Proof.
      intros b b' t t' (B1 & B2 & B3 & B4) H. unfold transfer. pose proof (paths_R _ _ H) as P. eapply resR_bind with (P := pairR (Forall2 (pairR R viR)) eq).
      - eapply foldM_R; [exact P|split; [constructor|reflexivity]|]. intros s s' ns ns' [S1 S2] NN. cbv zeta. assert (KK : R (List.concat (map t_piece (tl ns))) (List.concat (map t_piece (tl ns')))) by (apply R_concat; eapply F2_map; [apply F2_tl, NN|exact t_piece_R]).
        pose proof (dget_R str_eqb str_eqb R viR R_eq _ _ _ _ KK B2) as G. destruct (dget str_eqb _ (vb_objs b)) as [vi|], (dget str_eqb _ (vb_objs b')) as [vi'|]; try contradiction; [|reflexivity]. split; cbn [fst snd].
        + apply dset_R; [exact R_eq|apply it_piece_R, (proj2 G)|exact G|exact S1].
        + rewrite S2, (it_count_R _ _ (proj2 G)). reflexivity.
      - intros [o c] [o' c'] [O C]. cbn [fst snd] in O, C. subst c'. destruct P as [|ns ns' l l' NN P]; [reflexivity|]. split; [split; [exact O|reflexivity]|]. apply R_concat. eapply F2_map; [apply F2_tl, NN|exact t_pattern_R].
    Qed.
    Lemma multi_tree_R : forall c b b' t t', vbR b b' -> treeR t t' -> resR fwR (multi_tree mcn last_path c b t) (multi_tree mcn last_path c b' t').
    Proof.
      intros c b b' t t' BB H. unfold multi_tree. eapply resR_bind; [apply transfer_R; eassumption|]. intros [[o n] p] [[o' n'] p'] [[O N] P]. cbn [fst snd] in O, N, P. subst n'. destruct (n <? mcn)%Z; split; cbn [fst snd]; try constructor.
      - eapply F2_map; [exact O|]. intros x y [_ XY]. apply forward_R. exact XY.
      - eapply F2_map; [exact O|]. intros x y [XY _]. split; [split; [reflexivity|exact XY]|exact P].
    Qed.
    Lemma flat_fw : forall rs rs', Forall2 fwR rs rs' -> fwR (flat_map fst rs, flat_map snd rs) (flat_map fst rs', flat_map snd rs').
    Proof. intros rs rs' F. split; cbn [fst snd]; eapply F2_flat; try exact F; intros a b AB; apply AB. Qed.
    Lemma multi_bucket_R : forall c b b', vbR b b' -> resR fwR (multi_bucket mcn inner last_path c b) (multi_bucket mcn inner last_path c b').
    Proof.
      intros c b b' BB. pose proof BB as (B1 & B2 & B3 & B4). unfold multi_bucket. rewrite B1, B3. destruct (vb_count b' <? mcn)%Z.
      - split; [constructor|]. eapply F2_map; [exact B2|]. intros x y [_ XY]. apply forward_R. exact XY.
      - eapply resR_bind; [apply inner_R, B4|]. intros ts ts' TT. eapply resR_bind; [eapply mapM_R; [exact TT|]; intros t t' H; apply multi_tree_R; [exact BB|exact H]|]. intros rs rs' RR. apply flat_fw. exact RR.
    Qed.
    Lemma multi_stage_R : forall c l l', Forall2 viR l l' -> resR fwR (multi_stage mcn inner last_path c l) (multi_stage mcn inner last_path c l').
    Proof.
      intros c l l' F. unfold multi_stage. eapply resR_bind with (P := Forall2 (pairR eq vbR)); [eapply foldM_R; [exact F|constructor|]; intros; apply multi_add_R; assumption|]. intros d d' DD.
      eapply resR_bind; [eapply mapM_R; [exact DD|]; intros a b [_ AB]; apply multi_bucket_R, AB|]. intros rs rs' RR. apply flat_fw. exact RR.
    Qed.
    Lemma to_view_R : forall c l l', Forall2 diR l l' -> Forall2 viR (to_view c l) (to_view c l').
    Proof.
      intros c l l' F. unfold to_view. eapply F2_flat; [exact F|]. intros [d i] [d' i'] [D I0]. cbn [fst snd] in *. destruct d as [c1 v|], d' as [c2 v'|]; try contradiction; [|constructor]. destruct D as [<- VV]. destruct (cls_eqb c c1); [|apply Forall2_nil]. apply Forall2_cons; [split; assumption|apply Forall2_nil].
    Qed.
    Lemma to_length_R : forall l l', Forall2 diR l l' -> Forall2 itR (to_length l) (to_length l').
    Proof. intros l l' F. unfold to_length. eapply F2_flat; [exact F|]. intros [d i] [d' i'] [D I0]. cbn [fst snd] in *. destruct d, d'; try contradiction; [constructor|]. repeat constructor; apply I0. Qed.

    Notation lbR := (Forall2 itR).
    Lemma lb_count_R : forall b b', lbR b b' -> lb_count b = lb_count b'.
    Proof. intros b b' F. unfold lb_count. f_equal. eapply F2_eq; [exact F|exact it_count_R]. Qed.
    Lemma lac_R : forall b b', lbR b b' -> length_as_cluster mcn b = length_as_cluster mcn b'.
    Proof. intros b b' F. unfold length_as_cluster. rewrite (F2_len _ _ _ _ _ F), (lb_count_R _ _ F), (F2_eq _ _ _ _ it_count it_count _ _ F it_count_R). reflexivity. Qed.
    Lemma str_in_R : forall x x' l l', R x x' -> Forall2 R l l' -> str_in x l = str_in x' l'.
    Proof. intros x x' l l' X F. unfold str_in. induction F as [|a b l l' AB F IH]; [reflexivity|]. cbn [existsb]. rewrite (R_eq _ _ _ _ X AB), IH. reflexivity. Qed.
    Lemma len_add_R : forall d d' i i', Forall2 (pairR eq lbR) d d' -> itR i i' -> resR (Forall2 (pairR eq lbR)) (len_add d i) (len_add d' i').
    Proof.
      intros d d' i i' DD II. unfold len_add. rewrite (V_len _ _ (proj1 II)). eapply resR_bind; [apply resR_eq|]. intros n ? <-. assert (EQ : forall a a' b b' : Z, a = a' -> b = b' -> Z.eqb a b = Z.eqb a' b') by (intros; subst; reflexivity).
      pose proof (dget_R Z.eqb Z.eqb eq lbR EQ n _ _ _ eq_refl DD) as G. destruct (dget Z.eqb n d) as [b|], (dget Z.eqb n d') as [b'|]; try contradiction.
      - rewrite (str_in_R (it_piece i) (it_piece i') (map it_piece b) (map it_piece b')); [|apply it_piece_R, II|eapply F2_map; [exact G|exact it_piece_R]]. destruct (str_in _ _); [reflexivity|]. apply dset_R; [exact EQ|reflexivity|apply F2_snoc; assumption|exact DD].
      - apply F2_snoc; [exact DD|]. split; [reflexivity|]. repeat constructor; apply II.
    Qed.
    Lemma length_pattern_R : forall b b', lbR b b' -> resR R (length_pattern b) (length_pattern b').
    Proof.
      intros b b' F. unfold length_pattern. destruct F as [|i i' b b' II F]; [reflexivity|]. rewrite (V_len _ _ (proj1 II)), (V_rule _ _ (proj1 II)). eapply resR_bind; [apply resR_eq|]. intros n ? <-. destruct (specify_rule (fuzzy_rule (it_pp i')) n) as [q|] eqn:E; [|reflexivity].
      eapply V_spec; [exact (proj1 II)|]. rewrite (V_rule _ _ (proj1 II)). exact E.
    Qed.
    Lemma set_pat_R : forall p p' b b', R p p' -> lbR b b' -> lbR (map (set_pat p) b) (map (set_pat p') b').
    Proof. intros p p' b b' PP F. eapply F2_map; [exact F|]. intros i i' (A & B & C). split; [exact A|]. split; [exact PP|exact C]. Qed.
    Lemma finish_R : forall c b b', lbR b b' -> Forall2 doR (finish c b) (finish c b').
    Proof. intros c b b' F. unfold finish. eapply F2_map; [exact F|]. intros i i' II. split; [split; [reflexivity|apply it_piece_R, II]|apply II]. Qed.
    Lemma length_final_R : forall b b', lbR b b' -> resR (Forall2 doR) (length_final mcn b) (length_final mcn b').
    Proof.
      intros b b' F. unfold length_final. rewrite (lac_R _ _ F). eapply resR_bind; [apply resR_eq|]. intros y ? <-. destruct y; [|apply finish_R, F]. eapply resR_bind; [apply length_pattern_R, F|]. intros p p' PP. apply finish_R, set_pat_R; assumption.
    Qed.
    Lemma length_one_R : forall b b', lbR b b' -> resR (sumR (Forall2 doR) lbR) (length_one mcn level b) (length_one mcn level b').
    Proof.
      intros b b' F. unfold length_one. rewrite (lac_R _ _ F). eapply resR_bind; [apply resR_eq|]. intros y ? <-. destruct y; [|exact F]. rewrite (pre_seek_R (flat_map it_bag b) (flat_map it_bag b')) by (eapply F2_flat; [exact F|]; intros i i' II; apply II).
      eapply resR_bind; [apply resR_eq|]. intros s ? <-. eapply resR_bind; [apply length_pattern_R, F|]. intros p p' PP. cbv zeta. destruct s; cbn [resR sumR]; [apply finish_R|]; apply set_pat_R; assumption.
    Qed.
    Definition lfR (a b : list (cls * str * str) * list (list item)) : Prop := pairR (Forall2 doR) (Forall2 lbR) a b.
    Lemma length_stage_R : forall l l', lbR l l' -> resR lfR (length_stage mcn level l) (length_stage mcn level l').
    Proof.
      intros l l' F. unfold length_stage. cbv zeta. eapply resR_bind with (P := Forall2 (pairR eq lbR)); [eapply foldM_R; [exact F|constructor|]; intros; apply len_add_R; assumption|]. intros d d' DD.
      assert (BS : Forall2 lbR (map snd d) (map snd d')) by (eapply F2_map; [exact DD|]; intros a b [_ AB]; exact AB). revert BS. generalize (map snd d) (map snd d'). intros ls ls' BS. clear DD d d'.
      rewrite (F2_len _ _ _ _ _ BS), (F2_eq _ _ _ _ lb_count lb_count _ _ BS lb_count_R).
      assert (LOOP : resR lfR (r <- mapM (length_one mcn level) ls ;; Ok (List.concat (lefts r), rights r)) (r <- mapM (length_one mcn level) ls' ;; Ok (List.concat (lefts r), rights r))).
      { eapply resR_bind; [eapply mapM_R; [exact BS|exact length_one_R]|]. intros r r' RR. split; cbn [fst snd]; [apply F2_concat; eapply lefts_R; exact RR|eapply rights_R; exact RR]. }
      replace (is_nil ls) with (is_nil ls') by (destruct BS; reflexivity). destruct (is_nil ls'); [split; constructor|]. destruct (Z.ltb _ _); [|exact LOOP]. eapply resR_bind; [apply resR_eq|]. intros m ? <-. destruct (negb _); [|exact LOOP].
      eapply resR_bind; [eapply mapM_R; [exact BS|exact length_final_R]|]. intros r r' RR. split; [apply F2_concat, RR|constructor].
    Qed.
    Lemma fuzzy_set_R : forall fp fp' ls ls', optR R fp fp' -> Forall2 lbR ls ls' -> resR (pairR R (Forall2 doR)) (fuzzy_set fp ls) (fuzzy_set fp' ls').
    Proof.
      intros fp fp' ls ls' PP F. unfold fuzzy_set. pose proof (F2_concat _ _ _ _ _ F) as C. eapply resR_bind with (P := R).
      - destruct fp as [p|], fp' as [p'|]; try contradiction; [exact PP|]. destruct C as [|i i' l l' II C]; [reflexivity|]. rewrite (V_rule _ _ (proj1 II)). unfold wildcard_rule. destruct (specify_rule _ _) as [q|] eqn:E; [|reflexivity]. eapply V_spec; [exact (proj1 II)|]. rewrite (V_rule _ _ (proj1 II)). exact E.
      - intros p p' RP. split; [exact RP|]. apply finish_R, set_pat_R; assumption.
    Qed.
    Definition fsR (s s' : list (list item) * bool * option str * list (cls * str * str)) : Prop := pairR (pairR (pairR (Forall2 lbR) eq) (optR R)) (Forall2 doR) s s'.
    Lemma fuzzy_add_R : forall s s' b b', fsR s s' -> lbR b b' -> resR fsR (fuzzy_add mcn s b) (fuzzy_add mcn s' b').
    Proof.
      intros [[[c f] p] dn] [[[c' f'] p'] dn'] b b' [[[C F] P] D] BB. cbn [fst snd] in *. subst f'. unfold fuzzy_add. destruct f.
      - eapply resR_bind; [apply fuzzy_set_R; [exact P|repeat constructor; exact BB]|]. intros [q r] [q' r'] [Q RR]. cbn [fst snd] in *. split; [split; [split; [exact C|reflexivity]|exact Q]|apply Forall2_app; assumption].
      - cbv zeta. assert (CC : Forall2 lbR (c ++ [b]) (c' ++ [b'])) by (apply F2_snoc; assumption). rewrite (F2_len _ _ _ _ _ CC). split; [split; [split; [exact CC|reflexivity]|exact P]|exact D].
    Qed.
    Lemma fuzzy_end_R : forall s s', fsR s s' -> resR (Forall2 doR) (fuzzy_end mcn s) (fuzzy_end mcn s').
    Proof.
      intros [[[c f] p] dn] [[[c' f'] p'] dn'] [[[C F] P] D]. cbn [fst snd] in *. subst f'. unfold fuzzy_end. cbv zeta. rewrite (F2_eq _ _ _ _ lb_count lb_count _ _ C lb_count_R).
      assert (KEEP : Forall2 doR (dn ++ finish CFuzzy (List.concat c)) (dn' ++ finish CFuzzy (List.concat c'))) by (apply Forall2_app; [exact D|apply finish_R, F2_concat, C]).
      assert (SET : resR (Forall2 doR) ('(_, r) <- fuzzy_set p c ;; Ok (dn ++ r)) ('(_, r) <- fuzzy_set p' c' ;; Ok (dn' ++ r))).
      { eapply resR_bind; [apply fuzzy_set_R; eassumption|]. intros [q r] [q' r'] [Q RR]. cbn [fst snd] in *. apply Forall2_app; assumption. }
      destruct f; [exact SET|]. destruct (Z.ltb _ _); [exact KEEP|]. eapply resR_bind; [apply resR_eq|]. intros m ? <-. destruct (confused _ _ _); [exact SET|exact KEEP].
    Qed.
    Lemma fuzzy_stage_R : forall ls ls', Forall2 lbR ls ls' -> resR (Forall2 doR) (fuzzy_stage mcn ls) (fuzzy_stage mcn ls').
    Proof.
      intros ls ls' F. unfold fuzzy_stage. eapply resR_bind with (P := fsR); [|exact fuzzy_end_R]. eapply foldM_R; [exact F| |intros; apply fuzzy_add_R; assumption]. split; [split; [split; [constructor|reflexivity]|exact Logic.I]|constructor].
    Qed.
    Lemma run_level_R : forall ns ns', Forall2 pnR ns ns' -> resR (Forall2 doR) (run_level mcn inner level last_level last_path kw ns) (run_level mcn inner level last_level last_path kw ns').
    Proof.
      intros ns ns' F. unfold run_level, piece_stage. eapply resR_bind; [apply piece_bags_R, group_R, F|]. intros [d0 f0] [d0' f0'] [D0 F0]. cbn [fst snd] in *.
      eapply resR_bind; [apply multi_stage_R, to_view_R, F0|]. intros [d1 f1] [d1' f1'] [D1 F1]. cbn [fst snd] in *.
      eapply resR_bind; [apply multi_stage_R, to_view_R, Forall2_app; [exact F0|exact F1]|]. intros [d2 f2] [d2' f2'] [D2 F2]. cbn [fst snd] in *.
      eapply resR_bind; [apply multi_stage_R, to_view_R, Forall2_app; [exact F0|apply Forall2_app; [exact F1|exact F2]]|]. intros [d3 f3] [d3' f3'] [D3 F3]. cbn [fst snd] in *.
      eapply resR_bind; [apply length_stage_R, to_length_R, Forall2_app; [exact F0|apply Forall2_app; [exact F1|apply Forall2_app; [exact F2|exact F3]]]|]. intros [d4 ls] [d4' ls'] [D4 LS]. cbn [fst snd] in *.
      eapply resR_bind; [apply fuzzy_stage_R, LS|]. intros d5 d5' D5. cbn [resR]. repeat apply Forall2_app; assumption.
    Qed.
  End L.

  (** ** processors *)
  Fixpoint ptR (d : nat) (p p' : ptree) : Prop :=
    match p, p' with
    | PT pm n nx, PT pm' n' nx' => Forall2 (pairR R R) pm pm' /\ n = n' /\
        match d with O => nx = [] /\ nx' = [] | S d => Forall2 (pairR R (ptR d)) nx nx' end
    end.
  Lemma existsb_R : forall A B (P : A -> B -> Prop) f g l l', Forall2 P l l' -> (forall a b, P a b -> f a = g b) -> existsb f l = existsb g l'.
  Proof. intros A B P f g l l' F K. induction F as [|a b l l' AB F IH]; [reflexivity|]. cbn [existsb]. rewrite (K _ _ AB), IH. reflexivity. Qed.
  Lemma pattern_num_R : forall d d', Forall2 doR d d' -> pattern_num d = pattern_num d'.
  Proof.
    intros d d' F. unfold pattern_num. set (Q := pairR (@eq cls) R). assert (G : Forall2 Q (map (fun e => (fst (fst e), snd e)) d) (map (fun e => (fst (fst e), snd e)) d')) by (eapply F2_map; [exact F|]; intros a b [[A _] B]; split; [exact A|exact B]).
    revert G. generalize (map (fun e : cls * str * str => (fst (fst e), snd e)) d) (map (fun e : cls * str * str => (fst (fst e), snd e)) d'). intros l l' G. assert (E : forall a a' b b', Q a a' -> Q b b' -> pat_eqb a b = pat_eqb a' b') by (intros [? ?] [? ?] [? ?] [? ?] [A1 A2] [B1 B2]; cbn [fst snd] in *; subst; unfold pat_eqb; cbn [fst snd]; rewrite (R_eq _ _ _ _ A2 B2); reflexivity).
    induction G as [|a b l l' AB G IH]; [reflexivity|]. cbn [dedup]. rewrite (existsb_R _ _ Q (pat_eqb a) (pat_eqb b) _ _ G) by (intros; apply E; assumption). destruct (existsb (pat_eqb b) l'); [exact IH|]. cbn [length]. rewrite IH. reflexivity.
  Qed.
  Lemma pattern_map_R : forall d d', Forall2 doR d d' -> Forall2 (pairR R R) (pattern_map d) (pattern_map d').
  Proof. intros d d' F. unfold pattern_map. eapply F2_map; [exact F|]. intros a b [[_ A] B]. split; assumption. Qed.
  Lemma node_pattern_R : forall pm pm' t t', Forall2 (pairR R R) pm pm' -> treeR t t' -> R (node_pattern pm t) (node_pattern pm' t').
  Proof.
    intros pm pm' t t' P H. unfold node_pattern. pose proof (dget_R str_eqb str_eqb R R R_eq _ _ _ _ (t_piece_R _ _ H) P) as G. destruct (dget str_eqb (t_piece t) pm), (dget str_eqb (t_piece t') pm'); try contradiction; [exact G|apply t_pattern_R, H].
  Qed.
  Lemma pn_kids_R : forall n n', pnR n n' -> Forall2 pnR (pn_kids n) (pn_kids n').
  Proof.
    intros n n' H. pose proof (pn_cnt_R _ _ H) as C. destruct H as (P & I0 & TT). unfold pn_kids. eapply F2_map; [apply t_kids_R, TT|]. intros k k' KK. split; [split; [exact I0|exact C]|]. split; [apply F2_snoc; [exact I0|apply t_piece_R, KK]|exact KK].
  Qed.
  Lemma next_groups_R : forall pm pm' ns ns', Forall2 (pairR R R) pm pm' -> Forall2 pnR ns ns' -> Forall2 (pairR R (Forall2 pnR)) (next_groups pm ns) (next_groups pm' ns').
  Proof.
    intros pm pm' ns ns' P F. unfold next_groups, next_bags. assert (L : Forall2 pnR (flat_map snd (group_nodes ns)) (flat_map snd (group_nodes ns'))) by (eapply F2_flat; [apply group_R, F|]; intros a b AB; apply AB).
    eapply F2_map with (P := pairR R (Forall2 (Forall2 pnR))); [|intros a b [A B]; split; [exact A|apply F2_concat, B]].
    set (step := fun pm d n => dapp (node_pattern pm (pn_tree n)) (pn_kids n) d). change (Forall2 (pairR R (Forall2 (Forall2 pnR))) (fold_left (step pm) (flat_map snd (group_nodes ns)) []) (fold_left (step pm') (flat_map snd (group_nodes ns')) [])).
    assert (G : forall l l' d d', Forall2 pnR l l' -> Forall2 (pairR R (Forall2 (Forall2 pnR))) d d' -> Forall2 (pairR R (Forall2 (Forall2 pnR))) (fold_left (step pm) l d) (fold_left (step pm') l' d')); [|apply G; [exact L|constructor]].
    clear - P R_eq V_piece. intros l l' d d' F. revert d d'. induction F as [|n n' l l' H F IH]; intros d d' DD; [exact DD|]. cbn [fold_left]. apply IH. unfold step. apply dapp_R; [apply node_pattern_R; [exact P|apply H]|apply pn_kids_R, H|exact DD].
  Qed.
  Section C.
    Context (mcn : Z) (inner : nat -> bool -> tree -> res (list tree)).
    Context (inner_R : forall d k t t', treeR t t' -> resR (Forall2 treeR) (inner d k t) (inner d k t')).
    Lemma proc_R : forall d level pd kw ns ns', Forall2 pnR ns ns' -> resR (ptR d) (proc mcn inner d level pd kw ns) (proc mcn inner d level pd kw ns').
    Proof.
      induction d as [|d IH]; intros level pd kw ns ns' F; cbn [proc]; (eapply resR_bind; [apply run_level_R; [exact inner_R|exact F]|]); intros dn dn' D; pose proof (pattern_map_R _ _ D) as PM; cbv zeta; rewrite (pattern_num_R _ _ D).
      - split; [exact PM|]. auto.
      - eapply resR_bind.
        + eapply mapM_R; [apply next_groups_R; [exact PM|exact F]|]. intros a b [A B]. instantiate (1 := pairR R (ptR d)). eapply resR_bind; [apply IH; exact B|]. intros p p' PP. split; [exact A|exact PP].
        + intros nx nx' NX. split; [exact PM|]. auto.
    Qed.
    Lemma annotate_R : forall d p p' t t', ptR d p p' -> treeR t t' -> treeR (annotate p t) (annotate p' t').
    Proof.
      induction d as [|d IH]; intros [pm n nx] [pm' n' nx'] t t' P H; destruct P as (PM & _ & NX); pose proof (dget_R str_eqb str_eqb R R R_eq _ _ _ _ (t_piece_R _ _ H) PM) as G; pose proof H as HH; destruct H as [v v' q q' c m ks ks' VV QQ KK]; unfold t_piece in G; cbn [t_val] in G; cbn [annotate];
        destruct (dget str_eqb (piece v) pm) as [x|], (dget str_eqb (piece v') pm') as [y|]; try contradiction; try exact HH; constructor; try assumption.
      - destruct NX as [-> ->]. exact KK.
      - pose proof (dget_R str_eqb str_eqb R (ptR d) R_eq _ _ _ _ G NX) as G2. destruct (dget str_eqb x nx) as [a|], (dget str_eqb y nx') as [b|]; try contradiction; [|exact KK]. eapply F2_map; [exact KK|]. intros k k' K1. apply IH; assumption.
    Qed.
    Lemma can_be_split_R : forall d p p', ptR d p p' -> can_be_split p = can_be_split p'.
    Proof.
      induction d as [|d IH]; intros [pm n nx] [pm' n' nx'] P; destruct P as (_ & <- & NX); cbn [can_be_split].
      - destruct NX as [-> ->]. reflexivity.
      - destruct (1 <? n); [reflexivity|]. destruct NX as [|[k q] [k' q'] nx nx' [_ Q] NX]; [reflexivity|]. destruct NX; [apply IH; exact Q|reflexivity].
    Qed.
    Lemma process_R : forall d pd kw t t', treeR t t' -> resR (pairR treeR eq) (process mcn inner d pd kw t) (process mcn inner d pd kw t').
    Proof.
      intros d pd kw t t' H. unfold process. eapply resR_bind; [apply proc_R; repeat constructor; exact H|]. intros p p' P. split; [eapply annotate_R; eassumption|eapply can_be_split_R; exact P].
    Qed.
    Lemma split_R : forall t t', treeR t t' -> resR (Forall2 treeR) (split_by_pattern t) (split_by_pattern t').
    Proof.
      intros t t' H. unfold split_by_pattern. eapply resR_bind with (P := Forall2 (pairR R treeR)).
      - eapply foldM_R; [apply paths_R, H|constructor|]. intros d d' ns ns' DD NN. unfold split_add. cbv zeta.
        assert (PI : R (path_id ns) (path_id ns')) by (apply R_join; eapply F2_map; [exact NN|exact t_pattern_R]).
        pose proof (dget_R str_eqb str_eqb R treeR R_eq _ _ _ _ PI DD) as G. eapply resR_bind; [apply bfn_R; [|apply F2_tl, NN]|].
        + destruct (dget str_eqb (path_id ns) d), (dget str_eqb (path_id ns') d'); try contradiction; [exact G|exact root_R].
        + intros [s b] [s' b'] [SS _]. apply dset_R; [exact R_eq|exact PI|exact SS|exact DD].
      - intros d d' DD. eapply F2_map; [exact DD|]. intros a b AB. apply AB.
    Qed.
    Lemma loop_R : forall fuel d pd kw t t', treeR t t' -> resR (Forall2 treeR) (cluster_loop mcn inner fuel d pd kw t) (cluster_loop mcn inner fuel d pd kw t').
    Proof.
      induction fuel as [|fuel IH]; intros d pd kw t t' H; [reflexivity|]. cbn [cluster_loop]. rewrite (t_cnt_R _ _ H). destruct (t_cnt t' <=? 0)%Z; [constructor|]. eapply resR_bind; [apply process_R, H|]. intros [s b] [s' b'] [SS E]. cbn [fst snd] in *. subst b'. destruct (negb b); [repeat constructor; exact SS|].
      eapply resR_bind; [apply split_R, SS|]. intros l l' LL. eapply resR_bind; [eapply mapM_R; [exact LL|]; intros; apply IH; assumption|]. intros rs rs' RR. apply F2_concat. exact RR.
    Qed.
  End C.
  Lemma cluster_n_R : forall nest mcn d pd kw t t', treeR t t' -> resR (Forall2 treeR) (cluster_n nest mcn d pd kw t) (cluster_n nest mcn d pd kw t').
  Proof.
    induction nest as [|nest IH]; intros mcn d pd kw t t' H; [reflexivity|]. cbn [cluster_n]. rewrite (F2_len _ _ _ _ _ (paths_R _ _ H)). apply loop_R; [|exact H]. intros; apply IH; assumption.
  Qed.
  (** ** makers *)
  Section M.
  Context (MR : url_meta -> url_meta -> Prop) (KR : str -> str -> Prop).
  Context (MR_depth : forall m m', MR m m' -> depth m = depth m' /\ path_depth m = path_depth m').
  Definition mkR (mk mk' : maker) : Prop := MR (mk_meta mk) (mk_meta mk') /\ treeR (mk_root mk) (mk_root mk').
  Definition stR (st st' : state) : Prop := Forall2 (pairR KR mkR) st st'.
  Lemma maker_load_R : forall mk mk' pps pps' me, mkR mk mk' -> Forall2 V pps pps' -> pairR mkR eq (maker_load mk pps me) (maker_load mk' pps' me).
  Proof.
    intros mk mk' pps pps' me [M H] F. unfold maker_load. pose proof (bfpp_R _ _ _ _ 1 me true H F) as B. destruct (build_from_parsed_pieces (mk_root mk) pps 1 me true) as [[t n]|e], (build_from_parsed_pieces (mk_root mk') pps' 1 me true) as [[t' n']|e']; try contradiction.
    - destruct B as [B1 B2]. cbn [fst snd] in *. subst. split; [split; [exact M|exact B1]|reflexivity].
    - cbn in B. subst e'. split; [|reflexivity]. split; [exact M|]. apply build_R; [|exact H]. eapply F2_map; [exact F|]. intros a b AB. split; [exact AB|exact Logic.I].
  Qed.
  Definition clR (a b : url_meta * tree) : Prop := pairR MR treeR a b.
  Lemma make_R : forall mcn st st', stR st st' -> resR (Forall2 clR) (make mcn st) (make mcn st').
  Proof.
    intros mcn st st' F. unfold make. eapply resR_bind with (P := Forall2 (Forall2 clR)); [|intros rs rs' RR; apply F2_concat, RR].
    eapply mapM_R; [exact F|]. intros [k mk] [k' mk'] [_ [M H]]. cbn [fst snd] in *. unfold maker_make, cluster. destruct (MR_depth _ _ M) as [-> ->]. eapply resR_bind; [apply cluster_n_R, H|]. intros ts ts' TT. eapply F2_map; [exact TT|]. intros a b AB. split; [exact M|exact AB].
  Qed.
  End M.
End Para.
