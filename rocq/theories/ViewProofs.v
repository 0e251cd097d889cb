(** Views regroup the runs of a piece (C38). *)
From Coq Require Import String.
From Verif Require Import PyStr Defs ParseUtils Views Spec PyStrProofs DefsProofs RegexProofs PieceProofs LengthProofs DigestProofs TokProofs FlatCluster.
From Coq Require Import Lia.

(** the text of consecutive runs *)
Definition cat (g : list run) : str := List.concat (map snd g).

Lemma adj'_app_l : forall a b, adj' (a ++ b) -> adj' a.
Proof.
  induction a as [|x a IH]; intros b H; [exact Logic.I|]. cbn [app adj'] in *. destruct H as [H1 H2]. split; [|eapply IH; exact H2].
  destruct a; [exact Logic.I|exact H1].
Qed.
Lemma adj'_app_r : forall a b, adj' (a ++ b) -> adj' b.
Proof. induction a as [|x a IH]; intros b H; [exact H|]. apply IH. apply H. Qed.
Lemma run_ok_legal : forall g, Forall run_ok g -> all_legal (cat g).
Proof.
  intros g F. unfold all_legal, cat. apply Forall_forall. intros c I. apply in_concat in I. destruct I as (w & I1 & I2).
  apply in_map_iff in I1. destruct I1 as (rw & <- & I1). rewrite Forall_forall in F. destruct (F rw I1) as [_ X].
  rewrite Forall_forall in X. eauto.
Qed.
Lemma runs_cat : forall g, Forall run_ok g -> adj' g -> runs (cat g) = g.
Proof. intros g F A. symmetry. apply runs_of_unique. split; [exact F|]. split; [exact A|reflexivity]. Qed.

(** [gs] groups the runs of [s] *)
Definition groups (s : str) (gs : list (list run)) : Prop := List.concat gs = runs s.
Lemma groups_ok : forall s gs, all_legal s -> groups s gs -> Forall (fun g => runs (cat g) = g /\ all_legal (cat g)) gs.
Proof.
  intros s gs L G. destruct (runs_spec s L) as (F & A & _). unfold groups in G. rewrite <- G in F, A. clear - F A.
  induction gs as [|g gs IH]; [constructor|]. cbn [List.concat] in *. apply Forall_app in F. destruct F as [F1 F2].
  constructor; [|apply IH; [exact F2|eapply adj'_app_r; exact A]]. apply adj'_app_l in A.
  split; [apply runs_cat; assumption|apply run_ok_legal; assumption].
Qed.
Lemma groups_concat : forall s gs, all_legal s -> groups s gs -> List.concat (map cat gs) = s.
Proof.
  intros s gs L G. destruct (runs_spec s L) as (_ & _ & E). rewrite <- E at 1. rewrite <- G. unfold cat.
  clear. induction gs as [|g gs IH]; [reflexivity|]. cbn [map List.concat]. rewrite IH, map_app, concat_app. reflexivity.
Qed.
Lemma groups_piece : forall s gs, all_legal s -> groups s gs ->
  List.concat (map (fun t => piece (pp_of t)) (map cat gs)) = piece (pp_of s).
Proof.
  intros s gs L G. pose proof (groups_ok s gs L G) as F. unfold piece, pp_of. cbn [pieces]. rewrite <- G. clear G.
  rewrite map_map. induction F as [|g gs [A _] F IH]; [reflexivity|]. cbn [map List.concat]. rewrite IH, A, map_app, concat_app. reflexivity.
Qed.
Definition gpiece (g : list run) : str := List.concat (map render g).
Definition grule (g : list run) : str := List.concat (sorted_set (map fst g)).
Lemma groups_parts : forall s gs, all_legal s -> groups s gs -> mk_parts (map gpiece gs) (map grule gs) = map vpart (map cat gs).
Proof.
  intros s gs L G. pose proof (groups_ok s gs L G) as F. clear G L. unfold mk_parts.
  induction F as [|g gs [A _] F IH]; [reflexivity|]. cbn [map combine fst snd]. rewrite IH. f_equal.
  unfold vpart. rewrite fuzzy_rule_concat. unfold piece, pp_of, gpiece, grule. cbn [pieces rules]. rewrite A. reflexivity.
Qed.

(** *** grouping by a flag *)
Fixpoint grp {A} (f : A -> bool) (l : list A) : list (list A) :=
  match l with
  | [] => []
  | x :: r =>
      if f x then match grp f r with
                  | (y :: g) :: gs => if f y then (x :: y :: g) :: gs else [x] :: (y :: g) :: gs
                  | gs => [x] :: gs
                  end
      else [x] :: grp f r
  end.
Lemma grp_concat : forall A (f : A -> bool) l, List.concat (grp f l) = l.
Proof.
  induction l as [|x l IH]; [reflexivity|]. cbn [grp]. destruct (f x); [|cbn; rewrite IH; reflexivity].
  destruct (grp f l) as [|[|y g] gs]; cbn in IH |- *; try (rewrite IH; reflexivity).
  destruct (f y); cbn; rewrite <- IH; reflexivity.
Qed.
(** what the blocks look like *)
Fixpoint blocks {A} (f : A -> bool) (prev : bool) (bs : list (list A)) : Prop :=
  match bs with
  | [] => True
  | b :: r => b <> [] /\ ((forallb f b = true /\ prev = false /\ blocks f true r)
                          \/ (exists x, b = [x] /\ f x = false /\ blocks f false r))
  end.
Lemma grp_blocks_f : forall A (f : A -> bool) bs prev b, blocks f prev bs -> forallb f b = true -> b <> [] -> (prev = true) ->
  grp f (b ++ List.concat bs) = b :: grp f (List.concat bs).
Proof.
  intros A f bs prev b. induction b as [|x b IH]; intros BL F N P; [congruence|]. cbn [forallb] in F. apply Bool.andb_true_iff in F. destruct F as [F1 F2].
  cbn [app grp]. rewrite F1. destruct b as [|y b].
  - cbn [app]. destruct bs as [|b0 bs]; [reflexivity|]. cbn [blocks] in BL. destruct BL as [N0 [(B1 & B2 & _)|(z & -> & B1 & B2)]]; [congruence|].
    cbn [List.concat app grp]. rewrite B1, B1. reflexivity.
  - rewrite IH by (assumption || discriminate). cbn [forallb] in F2. apply Bool.andb_true_iff in F2. rewrite (proj1 F2). reflexivity.
Qed.
Lemma grp_blocks : forall A (f : A -> bool) bs prev, blocks f prev bs -> grp f (List.concat bs) = bs.
Proof.
  intros A f bs. induction bs as [|b bs IH]; intros prev H; [reflexivity|]. cbn [blocks] in H. destruct H as [N [(B1 & B2 & B3)|(x & -> & B1 & B2)]].
  - cbn [List.concat]. rewrite (grp_blocks_f A f bs true b B3 B1 N eq_refl). rewrite (IH true B3). reflexivity.
  - cbn [List.concat app grp]. rewrite B1, (IH false B2). reflexivity.
Qed.
Lemma blocks_weak : forall A (f : A -> bool) bs prev, blocks f prev bs -> blocks f false bs.
Proof. intros A f [|b bs] prev H; [exact H|]. destruct H as [N [(B1 & B2 & B3)|B]]; split; auto. Qed.
Lemma blocks_grp : forall A (f : A -> bool) l, blocks f false (grp f l).
Proof.
  intros A f l. induction l as [|x l IH]; [exact Logic.I|]. cbn [grp]. destruct (f x) eqn:FX.
  - destruct (grp f l) as [|[|y g] gs] eqn:E.
    + cbn [blocks forallb]. rewrite FX. split; [discriminate|]. left. auto.
    + cbn [blocks] in IH. destruct IH as [N _]. congruence.
    + cbn [blocks] in IH. destruct IH as [N [(B1 & B2 & B3)|(z & Z1 & Z2 & Z3)]].
      * pose proof B1 as B1'. cbn [forallb] in B1. apply Bool.andb_true_iff in B1. rewrite (proj1 B1). cbn [blocks]. split; [discriminate|].
        left. split; [|auto]. change (forallb f (x :: y :: g)) with (f x && forallb f (y :: g)). rewrite FX, B1'. reflexivity.
      * inversion Z1; subst. rewrite Z2. cbn [blocks forallb]. rewrite FX. split; [discriminate|]. left. split; [reflexivity|]. split; [reflexivity|].
        split; [discriminate|]. right. exists z. auto.
  - cbn [blocks]. split; [discriminate|]. right. exists x. auto.
Qed.
Lemma grp_nonnil : forall A (f : A -> bool) l, Forall (fun b => b <> []) (grp f l).
Proof.
  intros A f l. pose proof (blocks_grp A f l) as B. revert B. generalize (grp f l), false. intros bs. induction bs as [|b bs IH]; intros prev B; [constructor|].
  destruct B as [N [(_ & _ & B)|(x & _ & _ & B)]]; constructor; eauto.
Qed.
Lemma grp_all : forall A (f : A -> bool) l, l <> [] -> forallb f l = true -> grp f l = [l].
Proof.
  intros A f l N F. pose proof (grp_blocks A f [l] false) as X. cbn [List.concat] in X. rewrite app_nil_r in X. apply X.
  split; [exact N|]. left. split; [exact F|]. split; [reflexivity|exact Logic.I].
Qed.
Lemma grp_app : forall A (f : A -> bool) a x b, f x = false -> grp f (a ++ x :: b) = grp f a ++ [x] :: grp f b.
Proof.
  intros A f a x b FX.
  assert (X : List.concat (grp f a ++ [x] :: grp f b) = a ++ x :: b).
  { rewrite concat_app. cbn [List.concat app]. rewrite !grp_concat. reflexivity. }
  rewrite <- X. apply grp_blocks with (prev := false).
  assert (G : forall bs prev, blocks f prev bs -> blocks f prev (bs ++ [x] :: grp f b)).
  { induction bs as [|c bs IH]; intros prev B.
    - cbn [app blocks]. split; [discriminate|]. right. exists x. split; [reflexivity|]. split; [exact FX|apply blocks_grp].
    - cbn [app blocks] in *. destruct B as [N [(B1 & B2 & B3)|(z & Z1 & Z2 & Z3)]]; (split; [exact N|]); [left; auto|right; exists z; auto]. }
  apply G. apply blocks_grp.
Qed.

(** *** mix *)
Definition rmix (rw : run) : bool := in_mixed (fst rw).
Definition mix_end (r : list str * list str * list str * list str * bool) : list str * list str :=
  let '(mp, mr, tp, tr, tm) := r in
  if tm : bool then (mp ++ [List.concat tp], mr ++ [List.concat (sorted_set tr)]) else (mp ++ tp, mr ++ tr).
Lemma combine_map : forall (l : list run), combine (map render l) (map fst l) = map (fun rw => (render rw, fst rw)) l.
Proof. induction l as [|x l IH]; [reflexivity|]. cbn [map combine]. rewrite IH. reflexivity. Qed.
Lemma grp_false_app : forall A (f : A -> bool) t l, forallb (fun x => negb (f x)) t = true -> grp f (t ++ l) = map (fun x => [x]) t ++ grp f l.
Proof.
  intros A f t l. induction t as [|x t IH]; intros H; [reflexivity|]. cbn [forallb] in H. apply Bool.andb_true_iff in H. destruct H as [H1 H2].
  apply Bool.negb_true_iff in H1. cbn [app grp map]. rewrite H1, IH by exact H2. reflexivity.
Qed.
Lemma gpiece_one : forall x, gpiece [x] = render x.
Proof. intros. unfold gpiece. cbn [map List.concat]. apply app_nil_r. Qed.
Lemma grule_one : forall x, grule [x] = fst x.
Proof. intros. unfold grule. cbn [map sorted_set fold_right set_insert List.concat]. apply app_nil_r. Qed.
Lemma mix_loop_grp : forall l mp mr t tm,
  (if tm : bool then t <> [] /\ forallb rmix t = true else forallb (fun x => negb (rmix x)) t = true) ->
  mix_end (mix_loop (map (fun rw => (render rw, fst rw)) l) mp mr (map render t) (map fst t) tm)
  = (mp ++ map gpiece (grp rmix (t ++ l)), mr ++ map grule (grp rmix (t ++ l))).
Proof.
  induction l as [|x l IH]; intros mp mr t tm H.
  - cbn [map mix_loop mix_end]. rewrite app_nil_r. destruct tm.
    + destruct H as [N F]. rewrite grp_all by assumption. reflexivity.
    + pose proof (grp_false_app run rmix t [] H) as G. rewrite app_nil_r in G. rewrite G. cbn [grp]. rewrite app_nil_r, !map_map.
      rewrite (map_ext _ _ gpiece_one), (map_ext _ _ grule_one). reflexivity.
  - cbn [map mix_loop]. fold (rmix x). destruct (rmix x) eqn:RX.
    + destruct tm.
      * cbn [negb]. rewrite Bool.andb_false_r. destruct H as [N F].
        specialize (IH mp mr (t ++ [x]) true). rewrite !map_app, <- !app_assoc in IH. cbn [map app] in IH. apply IH.
        split; [destruct t; discriminate|]. rewrite forallb_app, F. cbn [forallb]. rewrite RX. reflexivity.
      * destruct t as [|y t].
        -- cbn [map is_nil negb andb app]. apply (IH mp mr [x] true). split; [discriminate|]. cbn [forallb]. rewrite RX. reflexivity.
        -- cbn [map is_nil negb andb]. change (render y :: map render t) with (map render (y :: t)). change (fst y :: map fst t) with (map fst (y :: t)).
           etransitivity; [apply (IH (mp ++ map render (y :: t)) (mr ++ map fst (y :: t)) [x] true); split; [discriminate|cbn [forallb]; rewrite RX; reflexivity]|].
           rewrite (grp_false_app run rmix (y :: t) (x :: l) H). cbn [app]. rewrite !map_app, !map_map.
           rewrite (map_ext _ _ gpiece_one), (map_ext _ _ grule_one), <- !app_assoc. reflexivity.
    + destruct tm.
      * destruct H as [N F]. destruct t as [|y t]; [congruence|]. cbn [map is_nil negb andb].
        change (render y :: map render t) with (map render (y :: t)). change (fst y :: map fst t) with (map fst (y :: t)).
        etransitivity; [apply (IH _ _ [x] false); cbn [forallb]; rewrite RX; reflexivity|]. change ([x] ++ l) with (x :: l).
        rewrite (grp_app run rmix (y :: t) x l RX), (grp_all run rmix (y :: t)) by assumption.
        cbn [grp]. rewrite RX. cbn [app map]. rewrite <- !app_assoc. reflexivity.
      * rewrite Bool.andb_false_r. specialize (IH mp mr (t ++ [x]) false). rewrite !map_app, <- !app_assoc in IH. cbn [map app] in IH. apply IH.
        rewrite forallb_app, H. cbn [forallb]. rewrite RX. reflexivity.
Qed.
Lemma mix_grp : forall l, mix (map render l) (map fst l) = (map gpiece (grp rmix l), map grule (grp rmix l)).
Proof.
  intros l. unfold mix. rewrite combine_map. pose proof (mix_loop_grp l [] [] [] false eq_refl) as X. cbn [map app] in X.
  unfold mix_end in X. exact X.
Qed.

(** *** the groups of each view *)
Definition g_multi (s : str) : list (list run) := map (fun rw => [rw]) (runs s).
Definition g_mixed (s : str) : list (list run) := grp rmix (runs s).
Definition g_ldsf (s : str) : list (list run) :=
  match dot_index (map fst (runs s)) with
  | None => [runs s]
  | Some i =>
      let ext := skipn (i + 1) (runs s) in
      if negb (forallb in_digit_ascii (map fst ext)) then [runs s]
      else firstn i (runs s) :: firstn 1 (skipn i (runs s)) :: (if is_nil ext then [] else [ext])
  end.

Lemma first_dot_some : forall l idx j, first_dot l idx = Some j -> (idx <= j)%nat /\ (j <= 2)%nat /\ nth_error l (j - idx) = Some R_DOT
  /\ forall k, (k < j - idx)%nat -> nth_error l k <> Some R_DOT.
Proof.
  induction l as [|r l IH]; intros idx j H; [discriminate|]. cbn [first_dot] in H. destruct (2 <? idx) eqn:E; [discriminate|]. apply Nat.ltb_ge in E.
  destruct (str_eqb_spec r R_DOT) as [->|NE].
  - inversion H; subst. rewrite Nat.sub_diag. split; [lia|]. split; [lia|]. split; [reflexivity|]. intros k K. lia.
  - apply IH in H. destruct H as (H1 & H2 & H3 & H4). split; [lia|]. split; [lia|]. replace (j - idx) with (S (j - S idx)) by lia. split; [exact H3|].
    intros [|k] K; cbn [nth_error]; [congruence|]. apply H4. lia.
Qed.
Lemma dot_index_some : forall rs i, dot_index rs = Some i ->
  (i < length rs)%nat /\ (length rs - i <= 3)%nat /\ nth_error rs i = Some R_DOT /\ ~ In R_DOT (skipn (i + 1) rs).
Proof.
  intros rs i H. unfold dot_index in H. destruct (first_dot (rev rs) 0) as [j|] eqn:E; [|discriminate]. inversion H as [H']; clear H.
  apply first_dot_some in E. destruct E as (_ & E2 & E3 & E4). rewrite Nat.sub_0_r in *.
  assert (L : (j < length rs)%nat) by (rewrite <- rev_length; apply nth_error_Some; congruence).
  subst i. split; [lia|]. split; [lia|].
  assert (NR : forall k, (k < length rs)%nat -> nth_error (rev rs) k = nth_error rs (length rs - k - 1)).
  { clear. intros k K. rewrite <- (rev_involutive rs) at 2 3. set (q := rev rs) in *. rewrite rev_length.
    assert (K' : (k < length q)%nat) by (unfold q; rewrite rev_length; exact K). clearbody q. clear rs K.
    rewrite (nth_error_nth' q [] K'). symmetry. rewrite (nth_error_nth' (rev q) []) by (rewrite rev_length; lia).
    rewrite rev_nth by lia. do 2 f_equal. lia. }
  split; [rewrite <- NR by exact L; exact E3|].
  intros I. apply In_nth_error in I. destruct I as [k K].
  assert (KN : nth_error rs (length rs - j - 1 + 1 + k) = Some R_DOT).
  { revert K. generalize (length rs - j - 1 + 1). clear. intros n. revert rs. induction n as [|n IH]; intros rs H; [exact H|].
    destruct rs as [|r rs]; [destruct k; discriminate|]. cbn [skipn plus nth_error] in *. apply IH. exact H. }
  assert (KL : (length rs - j - 1 + 1 + k < length rs)%nat) by (apply nth_error_Some; congruence).
  apply (E4 (j - 1 - k)); [lia|]. rewrite NR by lia. replace (length rs - (j - 1 - k) - 1) with (length rs - j - 1 + 1 + k) by lia. exact KN.
Qed.
Lemma dot_index_intro : forall a b, length b <= 2 -> ~ In R_DOT b -> dot_index (a ++ R_DOT :: b) = Some (length a).
Proof.
  intros a b L N. unfold dot_index. rewrite rev_app_distr. cbn [rev]. rewrite <- !app_assoc.
  assert (G : forall l idx rest, idx + length l <= 2 -> ~ In R_DOT l -> first_dot (l ++ R_DOT :: rest) idx = Some (idx + length l)).
  { induction l as [|r l IH]; intros idx rest H NI; cbn [app first_dot].
    - destruct (2 <? idx) eqn:E; [apply Nat.ltb_lt in E; cbn in H; lia|]. rewrite str_eqb_refl. cbn. f_equal. lia.
    - destruct (2 <? idx) eqn:E; [apply Nat.ltb_lt in E; cbn in H; lia|]. destruct (str_eqb_spec r R_DOT) as [->|NE]; [exfalso; apply NI; left; reflexivity|].
      rewrite IH; [cbn [length]; f_equal; lia|cbn [length] in H; lia|]. intros I. apply NI. right. exact I. }
  cbn [app]. rewrite (G (rev b) 0 (rev a)).
  - rewrite rev_length, app_length. cbn [length]. f_equal. lia.
  - rewrite rev_length. lia.
  - rewrite <- in_rev. exact N.
Qed.

Lemma groups_multi : forall s, groups s (g_multi s).
Proof. intros s. unfold groups, g_multi. induction (runs s) as [|x l IH]; [reflexivity|]. cbn [map List.concat app]. rewrite IH. reflexivity. Qed.
Lemma groups_mixed : forall s, groups s (g_mixed s).
Proof. intros s. apply grp_concat. Qed.
Lemma groups_ldsf : forall s, groups s (g_ldsf s).
Proof.
  intros s. unfold groups, g_ldsf. destruct (dot_index (map fst (runs s))) as [i|] eqn:E; [|cbn; apply app_nil_r].
  destruct (negb _); [cbn; apply app_nil_r|]. apply dot_index_some in E. destruct E as (E1 & _). rewrite map_length in E1.
  assert (X : firstn 1 (skipn i (runs s)) ++ skipn (i + 1) (runs s) = skipn i (runs s)).
  { rewrite <- (firstn_skipn 1 (skipn i (runs s))) at 2. f_equal. clear. generalize (runs s). intros l. revert i. induction l as [|x l IH]; intros [|i]; try reflexivity.
    cbn [skipn plus]. destruct i; apply IH. }
  cbn [List.concat]. destruct (skipn (i + 1) (runs s)) as [|y r] eqn:EX.
  - cbn [is_nil List.concat]. rewrite app_nil_r in *. rewrite X. apply firstn_skipn.
  - cbn [is_nil List.concat]. rewrite app_nil_r. rewrite X. apply firstn_skipn.
Qed.

(** *** the views of a parsed piece *)
Lemma multi_parts_vpart : forall s, all_legal s -> multi_parts (pp_of s) = map vpart (map cat (g_multi s)).
Proof.
  intros s L. rewrite <- (groups_parts s (g_multi s) L (groups_multi s)). unfold multi_parts, pp_of, g_multi. cbn [pieces rules].
  rewrite !map_map. rewrite (map_ext _ _ gpiece_one), (map_ext _ _ grule_one). reflexivity.
Qed.
Lemma mixed_parts_vpart : forall s, all_legal s -> (2 <= length (runs s))%nat -> mixed_parts (pp_of s) = map vpart (map cat (g_mixed s)).
Proof.
  intros s L N. rewrite <- (groups_parts s (g_mixed s) L (groups_mixed s)). unfold mixed_parts, pp_of. cbn [pieces rules]. rewrite map_length.
  destruct (length (runs s) <=? 1) eqn:E; [apply Nat.leb_le in E; lia|]. rewrite mix_grp. reflexivity.
Qed.
Lemma digit_ascii_mixed : forall r, in_digit_ascii r = true -> in_mixed r = true.
Proof.
  intros r H. unfold in_digit_ascii in H. apply str_in_In in H. unfold in_mixed. apply str_in_In.
  cbn [In] in *. tauto.
Qed.
Lemma ldsf_parts_vpart : forall s, all_legal s -> ldsf_parts (pp_of s) = map vpart (map cat (g_ldsf s)).
Proof.
  intros s L. rewrite <- (groups_parts s (g_ldsf s) L (groups_ldsf s)).
  assert (W : [PP [piece (pp_of s)] [fuzzy_rule (pp_of s)]] = mk_parts (map gpiece [runs s]) (map grule [runs s])).
  { unfold mk_parts. cbn [map combine fst snd]. rewrite fuzzy_rule_concat. reflexivity. }
  unfold ldsf_parts, g_ldsf. cbn [rules pieces pp_of]. destruct (dot_index (map fst (runs s))) as [i|] eqn:E; [|exact W].
  rewrite skipn_map. destruct (forallb in_digit_ascii (map fst (skipn (i + 1) (runs s)))) eqn:FA; cbn [negb]; [|exact W].
  rewrite skipn_map, mix_grp. apply dot_index_some in E. destruct E as (E1 & _). rewrite map_length in E1.
  assert (X : exists x, firstn 1 (skipn i (runs s)) = [x] /\ nth i (map render (runs s)) [] = render x /\ nth i (map fst (runs s)) [] = fst x).
  { revert E1. generalize (runs s). clear. intros l. revert i. induction l as [|x l IH]; intros [|i] H; cbn [length] in H; try lia.
    - exists x. auto.
    - destruct (IH i) as (y & Y1 & Y2); [lia|]. exists y. auto. }
  destruct X as (x & X1 & X2 & X3). rewrite X1, X2, X3. rewrite !firstn_map. fold (gpiece (firstn i (runs s))). fold (grule (firstn i (runs s))).
  cbn [map]. rewrite gpiece_one, grule_one. set (ext := skipn (i + 1) (runs s)) in *. destruct ext as [|y r] eqn:EX.
  - reflexivity.
  - rewrite <- EX in *. assert (NE : ext <> []) by (rewrite EX; discriminate). rewrite (grp_all run rmix ext).
    + destruct ext; [congruence|]. reflexivity.
    + exact NE.
    + apply forallb_forall. intros z Z. unfold rmix. apply digit_ascii_mixed. rewrite forallb_forall in FA. apply FA. apply in_map. exact Z.
Qed.
