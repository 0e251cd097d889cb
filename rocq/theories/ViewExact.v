(** What the views of a piece are, exactly. *)
From Coq Require Import String.
From Verif Require Import PyStr Defs UrlLib ParseUtils Spec Views Trees Cluster ViewSpec PyStrProofs DefsProofs PieceProofs DigestProofs TokProofs FlatCluster ViewProofs.
From Coq Require Import Lia.

Definition pr (rw : run) : str * str := (render rw, fst rw).
Lemma pr_list : forall s, combine (pieces (pp_of s)) (rules (pp_of s)) = map pr (runs s).
Proof. intros s. unfold pp_of. cbn [pieces rules]. apply combine_map. Qed.
Lemma concat_map_map : forall A B (f : A -> B) gs, List.concat (map (map f) gs) = map f (List.concat gs).
Proof. intros. induction gs as [|g gs IH]; [reflexivity|]. cbn [map List.concat]. rewrite IH, map_app. reflexivity. Qed.
Lemma groups_regroups : forall s gs, all_legal s -> groups s gs -> regroups (map pr (runs s)) (map (map pr) gs) (map vpart (map cat gs)).
Proof.
  intros s gs L G. split; [rewrite concat_map_map; f_equal; exact G|]. rewrite <- (groups_parts s gs L G). clear L G. unfold mk_parts.
  induction gs as [|g gs IH]; [constructor|]. cbn [map combine fst snd]. constructor; [|exact IH]. split.
  - unfold piece. cbn [pieces List.concat]. rewrite app_nil_r. unfold gpiece. rewrite map_map. reflexivity.
  - exists (sorted_set (map fst g)). split; [apply sorted_set_sorted|]. split.
    + intros r. rewrite map_map. apply sorted_set_In.
    + rewrite fuzzy_rule_concat. cbn [rules sorted_set fold_right set_insert List.concat]. apply app_nil_r.
Qed.
Lemma regroups_piece : forall l gs parts, regroups l gs parts -> List.concat (map piece parts) = List.concat (map fst l).
Proof.
  intros l gs parts [<- F]. induction F as [|g p gs parts [H _] F IH]; [reflexivity|]. cbn [map List.concat]. rewrite IH, H, map_app, concat_app. reflexivity.
Qed.
Lemma whole_regroups : forall s, all_legal s -> regroups (map pr (runs s)) [map pr (runs s)] [PP [piece (pp_of s)] [fuzzy_rule (pp_of s)]].
Proof.
  intros s L. pose proof (groups_regroups s [runs s] L) as X. cbn [map] in X. assert (G : groups s [runs s]) by (unfold groups; cbn; apply app_nil_r).
  specialize (X G). unfold vpart in X. rewrite (proj1 (proj2 (runs_spec s L))) in X || idtac. destruct (runs_spec s L) as (_ & _ & E). unfold cat in X. rewrite E in X. exact X.
Qed.
Lemma mixed_iff : forall x, is_mixed (pr x) <-> rmix x = true.
Proof. intros x. unfold rmix, in_mixed. rewrite str_in_In. reflexivity. Qed.
Lemma word_iff : forall x, is_word (pr x) <-> in_digit_ascii (fst x) = true.
Proof. intros x. unfold in_digit_ascii. rewrite str_in_In. reflexivity. Qed.
Lemma mixed_forall : forall g, Forall is_mixed (map pr g) <-> forallb rmix g = true.
Proof.
  intros g. rewrite forallb_forall, Forall_map, Forall_forall. split; intros H x I; apply mixed_iff; auto.
Qed.
Lemma blocks_mixed : forall bs prev, blocks rmix prev bs -> Forall (fun g => g <> [] /\ (Forall is_mixed g \/ exists x, g = [x] /\ ~ is_mixed x)) (map (map pr) bs)
  /\ (forall a g1 g2 b, map (map pr) bs = a ++ g1 :: g2 :: b -> ~ (Forall is_mixed g1 /\ Forall is_mixed g2))
  /\ (prev = true -> match bs with [] => True | b :: _ => ~ Forall is_mixed (map pr b) end).
Proof.
  induction bs as [|b bs IH]; intros prev B.
  - split; [constructor|]. split; [intros [|] ? ? ? H; discriminate|]. intros _. exact Logic.I.
  - destruct B as [N [(B1 & B2 & B3)|(x & -> & B1 & B2)]].
    + destruct (IH true B3) as (I1 & I2 & I3). cbn [map]. split; [|split].
      * constructor; [|exact I1]. split; [destruct b; [congruence|discriminate]|]. left. apply mixed_forall. exact B1.
      * intros [|y a] g1 g2 r E [M1 M2].
        -- cbn [app] in E. destruct bs as [|b2 bs]; [discriminate|]. cbn [map] in E. inversion E; subst. exact (I3 eq_refl M2).
        -- cbn [app] in E. inversion E; subst. eapply I2; [eassumption|split; assumption].
      * intros ->. discriminate.
    + destruct (IH false B2) as (I1 & I2 & I3). cbn [map]. assert (NM : ~ is_mixed (pr x)) by (rewrite mixed_iff; congruence). split; [|split].
      * constructor; [|exact I1]. split; [discriminate|]. right. exists (pr x). auto.
      * intros [|y a] g1 g2 r E [M1 M2].
        -- cbn [app] in E. destruct bs as [|b2 bs]; [discriminate|]. cbn [map] in E. inversion E; subst. inversion M1; subst. contradiction.
        -- cbn [app] in E. inversion E; subst. eapply I2; [eassumption|split; assumption].
      * intros _ H. inversion H; subst. contradiction.
Qed.
Lemma skipn_skipn' : forall A (l : list A) n m, skipn n (skipn m l) = skipn (m + n) l.
Proof. intros A l n m. revert l. induction m as [|m IH]; intros l; [reflexivity|]. destruct l; [apply skipn_nil|]. apply IH. Qed.
Lemma dot_iff : forall x, is_dot (pr x) <-> fst x = R_DOT.
Proof. intros. reflexivity. Qed.
Lemma word_not_dot : forall x, is_word x -> ~ is_dot x.
Proof. intros x W D. unfold is_dot in D. unfold is_word in W. rewrite D in W. vm_compute in W. repeat destruct W as [W|W]; try discriminate. exact W. Qed.
Lemma ldsf_split : forall s, all_legal s -> dot_split (map pr (runs s)) (map (map pr) (g_ldsf s)).
Proof.
  intros s L. unfold g_ldsf, dot_split.
  assert (UNI : (exists pre d ext, map pr (runs s) = pre ++ d :: ext /\ is_dot d /\ Forall is_word ext /\ length ext <= 2) ->
     exists i, dot_index (map fst (runs s)) = Some i /\ forallb in_digit_ascii (map fst (skipn (i + 1) (runs s))) = true).
  { intros (pre & d & ext & E & D & W & LE).
    assert (ES : map fst (runs s) = map snd pre ++ R_DOT :: map snd ext).
    { transitivity (map snd (map pr (runs s))); [rewrite map_map; reflexivity|]. rewrite E, map_app. cbn [map]. rewrite D. reflexivity. }
    assert (NI : ~ In R_DOT (map snd ext)). { intros I. apply in_map_iff in I. destruct I as (x & DX & I). rewrite Forall_forall in W. apply (word_not_dot x (W x I)). exact DX. }
    exists (length (map snd pre)). rewrite ES. split; [apply dot_index_intro; [rewrite map_length; exact LE|exact NI]|].
    rewrite <- skipn_map. rewrite ES. replace (length (map snd pre) + 1) with (length (map snd pre ++ [R_DOT])) by (rewrite app_length; reflexivity).
    change (map snd pre ++ R_DOT :: map snd ext) with (map snd pre ++ [R_DOT] ++ map snd ext). rewrite app_assoc.
    rewrite skipn_app, skipn_all, Nat.sub_diag. cbn [app skipn]. apply forallb_forall. intros r I. apply in_map_iff in I. destruct I as (x & <- & I). rewrite Forall_forall in W.
    unfold in_digit_ascii. apply str_in_In. exact (W x I). }
  destruct (dot_index (map fst (runs s))) as [i|] eqn:E.
  - destruct (forallb in_digit_ascii (map fst (skipn (i + 1) (runs s)))) eqn:F; cbn [negb].
    + left. apply dot_index_some in E. destruct E as (E1 & E2 & E3 & E4). rewrite map_length in *.
      assert (X : exists x, firstn 1 (skipn i (runs s)) = [x] /\ fst x = R_DOT).
      { rewrite nth_error_map in E3. destruct (nth_error (runs s) i) as [x|] eqn:NE; [|discriminate]. inversion E3 as [E3']. exists x. split; [|reflexivity].
        apply nth_error_split in NE. destruct NE as (a & b & -> & <-). rewrite skipn_app, skipn_all, Nat.sub_diag. reflexivity. }
      destruct X as (x & X1 & X2). exists (map pr (firstn i (runs s))), (pr x), (map pr (skipn (i + 1) (runs s))).
      assert (SP : runs s = firstn i (runs s) ++ x :: skipn (i + 1) (runs s)).
      { rewrite <- (firstn_skipn i (runs s)) at 1. f_equal. rewrite <- (firstn_skipn 1 (skipn i (runs s))). rewrite X1, skipn_skipn'. reflexivity. }
      split; [rewrite SP at 1; rewrite map_app; reflexivity|]. split; [exact X2|]. split.
      * rewrite Forall_map, Forall_forall. intros y I. apply word_iff. rewrite forallb_forall in F. apply F. apply in_map. exact I.
      * split; [rewrite map_length, skipn_length; lia|]. cbn [map]. rewrite X1. cbn [map]. destruct (skipn (i + 1) (runs s)); reflexivity.
    + right. split; [|reflexivity]. intros X. apply UNI in X. destruct X as (j & EJ & FJ). inversion EJ; subst. rewrite F in FJ. discriminate.
  - right. split; [|reflexivity]. intros X. apply UNI in X. destruct X as (j & EJ & _). discriminate.
Qed.
Lemma c38 : forall s p, piece_parse s = Ok p ->
  regroups (combine (pieces p) (rules p)) (map (fun x => [x]) (combine (pieces p) (rules p))) (multi_parts p) /\
  (length (rules p) <= 1 /\ mixed_parts p = [p] \/
   2 <= length (rules p) /\ exists gs, regroups (combine (pieces p) (rules p)) gs (mixed_parts p) /\ mixed_groups gs) /\
  (exists gs, regroups (combine (pieces p) (rules p)) gs (ldsf_parts p) /\ dot_split (combine (pieces p) (rules p)) gs) /\
  regroups (combine (pieces p) (rules p)) [combine (pieces p) (rules p)] (fuzzy_parts p) /\
  List.concat (map fst (combine (pieces p) (rules p))) = piece p.
Proof.
  intros s p H. apply piece_parse_iff in H. destruct H as [L ->]. rewrite pr_list. split; [|split; [|split; [|split]]].
  - rewrite multi_parts_vpart by exact L. replace (map (fun x => [x]) (map pr (runs s))) with (map (map pr) (g_multi s)); [apply groups_regroups; [exact L|apply groups_multi]|].
    unfold g_multi. rewrite !map_map. reflexivity.
  - assert (LR : length (rules (pp_of s)) = length (runs s)) by apply map_length. rewrite LR. destruct (le_lt_dec (length (runs s)) 1) as [LE|GT]; [left|right].
    + split; [exact LE|]. unfold mixed_parts, pp_of. cbn [rules]. rewrite map_length. apply Nat.leb_le in LE. rewrite LE. reflexivity.
    + split; [lia|]. exists (map (map pr) (g_mixed s)). rewrite mixed_parts_vpart by (assumption || lia). split; [apply groups_regroups; [exact L|apply groups_mixed]|].
      pose proof (blocks_mixed _ _ (blocks_grp _ rmix (runs s))) as (B1 & B2 & _). split; assumption.
  - exists (map (map pr) (g_ldsf s)). rewrite ldsf_parts_vpart by exact L. split; [apply groups_regroups; [exact L|apply groups_ldsf]|apply ldsf_split; exact L].
  - apply whole_regroups. exact L.
  - rewrite map_map. reflexivity.
Qed.
Lemma c38_join : forall s p, piece_parse s = Ok p ->
  Forall (fun parts => List.concat (map piece parts) = piece p) [multi_parts p; mixed_parts p; ldsf_parts p; fuzzy_parts p].
Proof.
  intros s p H. destruct (c38 s p H) as (A & B & (gs & C & _) & D & E). rewrite <- E. constructor; [|constructor; [|constructor; [|constructor; [|constructor]]]].
  - eapply regroups_piece. exact A.
  - destruct B as [(_ & ->)|(_ & gs' & B & _)]; [|eapply regroups_piece; exact B]. cbn. rewrite app_nil_r. symmetry. exact E.
  - eapply regroups_piece. exact C.
  - eapply regroups_piece. exact D.
Qed.
