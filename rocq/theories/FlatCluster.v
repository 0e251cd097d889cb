(** cluster() on the tree of a view: every level is clustered by length or with
    '+', the parts partition the paths, and no path outside of a part fits the
    patterns of the part. *)
From Coq Require Import String.
From Verif Require Import PyStr Defs ParseUtils Views Trees Cluster Spec Observe PyStrProofs DefsProofs DictProofs RegexProofs PieceProofs LengthProofs GroupProofs TreeProofs TokProofs LengthStage PieceStage EntProofs GenCluster.
From Coq Require Import Lia Permutation.

Definition vpart (s : str) : parsed_piece := PP [piece (pp_of s)] [fuzzy_rule (pp_of s)].
Lemma vpart_piece : forall s, piece (vpart s) = piece (pp_of s).
Proof. intros. unfold piece, vpart. cbn [pieces List.concat]. apply app_nil_r. Qed.
Lemma vpart_fuzzy : forall s, fuzzy_rule (vpart s) = List.concat (cset s).
Proof. intros. rewrite <- fuzzy_cset. unfold fuzzy_rule at 1, vpart. cbn [rules]. destruct (fuzzy_rule (pp_of s)); reflexivity. Qed.
Lemma vpart_length : forall s, all_legal s -> piece_length (vpart s) = Ok (Z.of_N (pl s)).
Proof.
  intros s L. unfold piece_length. rewrite vpart_piece. fold (piece_length (pp_of s)). rewrite piece_length_spec by exact L.
  unfold pl. rewrite nat_N_Z. reflexivity.
Qed.
Lemma vpart_plen : forall s, all_legal s -> plen (vpart s) = Z.of_N (pl s).
Proof. intros s L. unfold plen. rewrite vpart_length by exact L. reflexivity. Qed.
Lemma vpart_inj : forall s t, all_legal s -> all_legal t -> vpart s = vpart t -> s = t.
Proof. intros s t A B E. apply piece_inj; [assumption..|]. rewrite <- !vpart_piece, E. reflexivity. Qed.
Lemma pl_zero : forall s, pl s = 0%N -> s = [].
Proof. intros [|c s] H; [reflexivity|]. unfold pl in H. cbn [length] in H. lia. Qed.

Definition pat1 (s P : str) : Prop := exists k, kok s k /\ P = pstr s k.

Lemma lit_vs_class : forall s1 s2 k, all_legal s1 -> all_legal s2 -> kok s2 k ->
  piece (pp_of s1) = pstr s2 k -> s1 = s2.
Proof.
  intros s1 s2 k L1 L2 K E. destruct k; [apply piece_inj; assumption|exfalso|exfalso].
  - pose proof (pstr_rparse s2 KSpec L2 K) as R. rewrite <- E, rparse_piece in R by exact L1. cbn [ptoks] in R. inversion R as [R1]; clear R.
    destruct (runs_spec s1 L1) as (F & _ & _). destruct (runs s1) as [|rw l]; [discriminate|]. inversion F as [|? ? Hr Fl]; subst.
    cbn [map List.concat] in R1. destruct (run_trules rw Hr) as [T N]. destruct (run_toks rw) as [|k l0] eqn:ER; [congruence|].
    cbn [app] in R1. inversion R1 as [[R2 R3]]. clear R1. inversion T as [|? ? T1 T2]; subst. unfold trules in T1. cbn [rset] in T1.
    rewrite item_rules in T1 by (apply cset_rules; exact L2).
    destruct (in_sign_rules (fst rw)) eqn:SG; [exact (sign_no_spec s2 _ L2 T1 SG K)|].
    unfold run_toks in ER. rewrite SG in ER. destruct (snd rw) as [|c w] eqn:Q; [discriminate|]. cbn [map] in ER. inversion ER as [[E1 E2 E3]].
    rewrite T1 in E1. cbn [map] in E1. inversion E1 as [E4]. destruct Hr as [_ Hr]. rewrite Q in Hr. inversion Hr as [|? ? Hc _]; subst.
    pose proof (rule_forall (fun c r => implb (negb (in_sign_rules r)) (match rule_item r with IChar _ => false | _ => true end))
      ltac:(vm_compute; reflexivity) c _ Hc) as X. cbv beta in X. rewrite SG, <- E4 in X. discriminate.
  - pose proof (pstr_rparse s2 KWild L2 K) as R. rewrite <- E, rparse_piece in R by exact L1. cbn [ptoks] in R. inversion R as [R1]; clear R.
    assert (Y : forall l, Forall (fun k => rnum k <> None) (List.concat (map run_toks l))).
    { clear. induction l as [|rw l IH]; [constructor|]. cbn [map List.concat]. apply Forall_app. split; [|exact IH].
      unfold run_toks. destruct (in_sign_rules (fst rw)); [constructor; [discriminate|constructor]|]. rewrite Forall_map.
      apply Forall_forall. intros; discriminate. }
    specialize (Y (runs s1)). rewrite R1 in Y. inversion Y as [|? ? Y1 _]. cbn in Y1. congruence.
Qed.
(** the same pattern for two texts with the same character spaces *)
Lemma pstr_class_inj : forall s1 s2 k1 k2, all_legal s1 -> all_legal s2 -> kok s1 k1 -> kok s2 k2 ->
  k1 <> KLit -> k2 <> KLit -> pstr s1 k1 = pstr s2 k2 -> k1 = k2 /\ cset s1 = cset s2 /\ (k1 = KSpec -> pl s1 = pl s2).
Proof.
  intros s1 s2 k1 k2 L1 L2 K1 K2 N1 N2 E. pose proof (pstr_rparse s1 k1 L1 K1) as R1. pose proof (pstr_rparse s2 k2 L2 K2) as R2.
  rewrite E, R2 in R1. inversion R1 as [R]. clear R1 R2.
  assert (C : map rule_item (cset s2) = map rule_item (cset s1)) by (destruct k1, k2; cbn [ptoks] in R; try congruence; inversion R; assumption).
  apply (f_equal (map item_rule)) in C. rewrite !item_rules in C by (apply cset_rules; assumption).
  destruct k1, k2; cbn [ptoks] in R; try congruence; inversion R; auto.
  split; [reflexivity|]. split; [congruence|]. discriminate.
Qed.

Lemma pattern_num_le1 : forall d : done, (forall e e', In e d -> In e' d -> fst (fst e) = fst (fst e') /\ snd e = snd e') ->
  (pattern_num d <= 1)%nat.
Proof.
  intros d H. unfold pattern_num.
  assert (G : forall l : list (cls * str), (forall x y, In x l -> In y l -> x = y) -> (length (dedup pat_eqb l) <= 1)%nat).
  { induction l as [|x l IH]; intros A; [cbn; lia|]. cbn [dedup]. destruct l as [|y l].
    - cbn. lia.
    - assert (E : existsb (pat_eqb x) (y :: l) = true).
      { cbn [existsb]. rewrite (A x y) by (cbn; auto). unfold pat_eqb. rewrite str_eqb_refl.
        rewrite (proj2 (cls_eqb_eq (fst y) (fst y)) eq_refl). reflexivity. }
      rewrite E. apply IH. intros. apply A; right; assumption. }
  apply G. intros x y X Y. apply in_map_iff in X, Y. destruct X as (e & <- & X), Y as (e' & <- & Y).
  destruct (H e e' X Y) as [-> ->]. reflexivity.
Qed.

Inductive mode := MLit | MSpec (n : N) | MWild.
Definition mpat (M : mode) (s : str) : str :=
  match M with
  | MLit => pstr s KLit
  | MSpec n => if N.eqb (pl s) n then pstr s KSpec else pstr s KLit
  | MWild => pstr s KWild
  end.
Definition mode_ok (M : mode) (ss : list str) : Prop :=
  match M with
  | MLit => True
  | MSpec n => n <> 0%N /\ exists s s', In s ss /\ In s' ss /\ s <> s' /\ pl s = n /\ pl s' = n
  | MWild => exists s s', In s ss /\ In s' ss /\ pl s <> pl s'
  end.
Lemma mode_pat1 : forall M ss C, Forall all_legal ss -> Forall (fun s => cset s = C) ss -> mode_ok M ss ->
  forall s, In s ss -> pat1 s (mpat M s).
Proof.
  intros M ss C FL FC MO s I. rewrite Forall_forall in FL, FC. destruct M as [|n|]; cbn [mpat].
  - exists KLit. split; [exact Logic.I|reflexivity].
  - destruct (N.eqb_spec (pl s) n) as [E|E]; [|exists KLit; split; [exact Logic.I|reflexivity]].
    exists KSpec. split; [|reflexivity]. destruct MO as (N0 & a & b & A & B & AB & PA & PB). split.
    + intros ->. apply N0. rewrite <- E. reflexivity.
    + destruct (str_eqb_spec a s) as [->|NE]; [exists b|exists a]; (split; [auto|]); (split; [congruence|]); (split; [rewrite !FC by assumption; reflexivity|congruence]).
  - exists KWild. split; [|reflexivity]. destruct MO as (a & b & A & B & AB). intros ->. apply AB.
    assert (Z : forall x, In x ss -> x = []). { intros x X. apply cset_nil; [auto|]. rewrite (FC x X), <- (FC [] I). reflexivity. }
    rewrite (Z a A), (Z b B). reflexivity.
Qed.

Section Level.
  Context (mcn : Z) (M2 : (2 <= mcn)%Z) (inner : nat -> bool -> tree -> res (list tree)).
  Context (level : nat) (last_level last_path kw : bool) (C : list str).
  Lemma dest_flat : forall s, dest_piece mcn last_path (vpart s) = DLength.
  Proof. reflexivity. Qed.

  Lemma flat_level : forall ns, ns <> [] -> (level = 0 -> exists n, ns = [n]) ->
    Forall (fun n => (exists s, all_legal s /\ t_val (pn_tree n) = vpart s /\ cset s = C) /\ (0 < pn_cnt n)%Z) ns ->
    exists dn ss M c, run_level mcn inner level last_level last_path kw ns = Ok dn
      /\ Forall all_legal ss /\ Forall (fun s => cset s = C) ss /\ NoDup ss /\ mode_ok M ss
      /\ (forall k, In k (map pn_piece ns) <-> In k (map (fun s => piece (pp_of s)) ss))
      /\ Permutation dn (map (fun s => (c, piece (pp_of s), mpat M s)) ss)
      /\ ((zsum (map pn_cnt ns) < mcn)%Z \/ last_level && kw = true -> M = MLit).
  Proof.
    intros ns NE L0 FA.
    assert (POS : Forall (fun n => 0 < pn_cnt n)%Z ns) by (eapply Forall_impl; [|exact FA]; intros n H; apply H).
    assert (SS : exists ss, map it_pp (items ns) = map vpart ss /\ Forall all_legal ss /\ Forall (fun s => cset s = C) ss).
    { assert (X : Forall (fun i => exists s, all_legal s /\ it_pp i = vpart s /\ cset s = C) (items ns)).
      { apply Forall_forall. intros i I. apply items_bag in I. destruct I as (_ & _ & n & I1 & I2).
        rewrite Forall_forall in FA. destruct (FA n I1) as [(s & A & B & D) _]. exists s. rewrite I2. auto. }
      induction X as [|i l (s & A & B & D) X (ss & IH1 & IH2 & IH3)]; [exists []; split; [reflexivity|split; constructor]|].
      exists (s :: ss). cbn [map]. rewrite IH1, B. split; [reflexivity|]. split; constructor; assumption. }
    destruct SS as (ss & SV & SL & SC).
    assert (PIECES : map it_piece (items ns) = map (fun s => piece (pp_of s)) ss).
    { unfold it_piece. rewrite <- (map_map it_pp piece), SV, map_map. apply map_ext. apply vpart_piece. }
    assert (ND : NoDup ss). { pose proof (items_NoDup ns) as X. rewrite PIECES in X. apply NoDup_map_inv in X. exact X. }
    assert (KEYS : forall k, In k (map pn_piece ns) <-> In k (map (fun s => piece (pp_of s)) ss)).
    { intros k. rewrite <- PIECES. symmetry. apply items_in. }
    assert (MS : forall c, multi_stage mcn inner last_path c [] = Ok ([], [])) by reflexivity.
    destruct (piece_stage_spec mcn M2 level last_level last_path kw ns NE POS L0) as [PS|(L1 & I2 & LK & TOT & PS)].
    - exists (literal ns), ss, MLit, CPiece. split.
      { unfold run_level. rewrite PS. cbn [bind to_view flat_map app]. rewrite MS. cbn [bind app to_view flat_map]. rewrite MS.
        cbn [bind app to_view flat_map]. rewrite MS. cbn [bind app to_length flat_map].
        destruct (lf_nil mcn M2 level) as (d4 & bs & d5 & E1 & E2 & E3). rewrite E1. cbn [bind]. rewrite E2. cbn [bind].
        apply app_eq_nil in E3. destruct E3 as [-> ->]. rewrite !app_nil_r. reflexivity. }
      do 4 (split; [assumption || exact Logic.I|]). split; [exact KEYS|]. split; [|reflexivity].
      unfold literal. rewrite <- (map_map it_piece (fun k => (CPiece, k, k))), PIECES, map_map. apply Permutation_refl.
    - assert (TV : forall c, to_view c (passed mcn last_path ns) = []).
      { intros c. unfold passed. assert (X : forall l ss, map it_pp l = map vpart ss -> to_view c (map (fun i => (dest_piece mcn last_path (it_pp i), i)) l) = []).
        { induction l as [|i l IH]; intros [|s s0] E; try discriminate; [reflexivity|]. cbn [map] in E. inversion E as [[E1 E2]].
          cbn [map to_view flat_map fst]. rewrite E1, dest_flat. cbn [app]. apply (IH s0 E2). }
        apply (X (items ns) ss SV). }
      assert (TL : to_length (passed mcn last_path ns) = items ns).
      { unfold passed. assert (X : forall l ss, map it_pp l = map vpart ss -> to_length (map (fun i => (dest_piece mcn last_path (it_pp i), i)) l) = l).
        { induction l as [|i l IH]; intros [|s s0] E; try discriminate; [reflexivity|]. cbn [map] in E. inversion E as [[E1 E2]].
          cbn [map to_length flat_map fst snd]. rewrite E1, dest_flat. cbn [app]. f_equal. apply (IH s0 E2). }
        apply (X (items ns) ss SV). }
      assert (OK : Forall (item_ok (List.concat C)) (items ns)).
      { apply Forall_forall. intros i I.
        assert (X : exists s, In s ss /\ it_pp i = vpart s).
        { assert (Y : In (it_pp i) (map vpart ss)) by (rewrite <- SV; apply in_map; exact I).
          apply in_map_iff in Y. destruct Y as (s & Y1 & Y2). exists s. auto. }
        destruct X as (s & S1 & S2). rewrite Forall_forall in SL, SC. unfold item_ok. rewrite S2, vpart_plen by auto.
        split; [apply vpart_length; auto|]. split; [lia|]. split.
        - intros Z. assert (pl s = 0%N) as Z' by lia. apply pl_zero in Z'. unfold it_piece. rewrite S2, vpart_piece, Z'. reflexivity.
        - split; [rewrite vpart_fuzzy, SC by exact S1; reflexivity|]. split; [apply (items_pat ns); exact I|].
          pose proof (items_count ns POS) as X. rewrite Forall_forall in X. apply X. exact I. }
      assert (INE : items ns <> []) by (intros E; rewrite E in I2; cbn in I2; lia).
      destruct (lf_spec mcn M2 level L1 (List.concat C) (items ns) INE OK (items_NoDup ns)) as (d4 & bs & d5 & E1 & E2 & OUT).
      assert (RL : run_level mcn inner level last_level last_path kw ns = Ok (d4 ++ d5)).
      { unfold run_level. rewrite PS. cbn [bind app]. rewrite TV, MS. cbn [bind app]. rewrite app_nil_r, TV, MS.
        cbn [bind app]. rewrite app_nil_r, TV, MS. cbn [bind app]. rewrite app_nil_r, TL, E1. cbn [bind]. rewrite E2. reflexivity. }
      assert (IL : (zsum (map pn_cnt ns) < mcn)%Z \/ last_level && kw = true -> False) by (intros [?|?]; [lia|congruence]).
      assert (CONV : forall (f : Cluster.item -> cls * str * str) (g : str -> cls * str * str),
         (forall i s, In s ss -> it_pp i = vpart s -> f i = g s) -> map f (items ns) = map g ss).
      { intros f g FG. revert SV FG. clear. generalize (items ns). intros l. revert ss. induction l as [|i l IH]; intros [|s ss] E FG; try discriminate; [reflexivity|].
        cbn [map] in *. inversion E as [[E1 E2]]. rewrite (FG i s) by (auto; left; reflexivity). f_equal. apply IH; [exact E2|].
        intros. apply FG; [right|]; assumption. }
      assert (FIND : forall i, In i (items ns) -> exists s, In s ss /\ it_pp i = vpart s /\ all_legal s).
      { intros i I. assert (Y : In (it_pp i) (map vpart ss)) by (rewrite <- SV; apply in_map; exact I).
          apply in_map_iff in Y. destruct Y as (s & Y1 & Y2). exists s. rewrite Forall_forall in SL. auto. }
      rewrite Forall_forall in SL, SC. inversion OUT as [c d P|n p d i j SP N1 Ii Ij NP Pi Pj _ P|p d i j SP Ii Ij NP _ P]; subst d.
      + exists (d4 ++ d5), ss, MLit, c. split; [exact RL|]. do 2 (split; [apply Forall_forall; assumption|]).
        split; [exact ND|]. split; [exact Logic.I|].
        split; [exact KEYS|]. split; [|reflexivity]. rewrite P. erewrite CONV; [apply Permutation_refl|].
        intros i s _ E. cbn [mpat pstr]. unfold it_piece. rewrite E, vpart_piece. reflexivity.
      + destruct (FIND i Ii) as (s & S1 & S2 & S3). destruct (FIND j Ij) as (s' & S1' & S2' & S3').
        rewrite S2, vpart_plen in Pi by exact S3. rewrite S2', vpart_plen in Pj by exact S3'.
        exists (d4 ++ d5), ss, (MSpec (pl s)), CLength. split; [exact RL|]. do 2 (split; [apply Forall_forall; assumption|]). split; [exact ND|].
        split; [|split; [exact KEYS|split; [|intros Q; destruct (IL Q)]]].
        * split; [lia|]. exists s, s'. do 2 (split; [assumption|]). split; [|split; [reflexivity|lia]].
          intros ->. apply NP. unfold it_piece. congruence.
        * rewrite P. erewrite CONV; [apply Permutation_refl|]. intros i0 s0 I0 E. cbn [mpat]. unfold it_piece. rewrite E, vpart_piece, vpart_plen by auto.
          destruct (N.eqb_spec (pl s0) (pl s)) as [Q|Q].
          -- rewrite (proj2 (Z.eqb_eq (Z.of_N (pl s0)) n)) by lia. rewrite specify_rule_unit in SP.
             rewrite (proj2 (Z.eqb_neq n 0)) in SP by lia. inversion SP as [SP']. rewrite (proj2 (Z.ltb_ge n 0)) by lia.
             cbn [pstr]. rewrite SC by exact I0. do 3 f_equal. lia.
          -- rewrite (proj2 (Z.eqb_neq (Z.of_N (pl s0)) n)) by lia. reflexivity.
      + destruct (FIND i Ii) as (s & S1 & S2 & S3). destruct (FIND j Ij) as (s' & S1' & S2' & S3').
        rewrite S2, S2', !vpart_plen in NP by assumption.
        exists (d4 ++ d5), ss, MWild, CFuzzy. split; [exact RL|]. do 2 (split; [apply Forall_forall; assumption|]). split; [exact ND|].
        split; [|split; [exact KEYS|split; [|intros Q; destruct (IL Q)]]].
        * exists s, s'. do 2 (split; [assumption|]). congruence.
        * rewrite P. erewrite CONV; [apply Permutation_refl|]. intros i0 s0 I0 E. cbn [mpat]. unfold it_piece. rewrite E, vpart_piece.
          unfold wildcard_rule in SP. rewrite specify_rule_unit in SP. cbn in SP. inversion SP. cbn [pstr]. rewrite SC by exact I0. reflexivity.
  Qed.
End Level.

(** a path of strings fits a list of patterns *)
Definition fits (ss Ps : list str) : Prop := Forall2 pat1 ss Ps.

Section Flat.
  Context (mcn : Z) (M2 : (2 <= mcn)%Z) (inner : nat -> bool -> tree -> res (list tree)).
  Context (Cs : list (list str)) (CN : Cs <> []) (pd : nat) (kw : bool).
  Notation D := (length Cs).
  Definition fV (l : nat) (p : parsed_piece) : Prop :=
    match l with
    | O => p = empty_parsed_piece
    | S l => exists s, all_legal s /\ p = vpart s /\ nth_error Cs l = Some (cset s)
    end.
  Lemma fVfun : forall l a b, fV l a -> fV l b -> piece a = piece b -> a = b.
  Proof.
    intros [|l] a b A B E; cbn [fV] in *; [congruence|].
    destruct A as (s & A1 & A2 & _), B as (t & B1 & B2 & _). subst. rewrite !vpart_piece in E. apply piece_inj in E; [|assumption..].
    congruence.
  Qed.
  Lemma fV0 : fV 0 empty_parsed_piece.
  Proof. reflexivity. Qed.
  Lemma fV00 : forall p, fV 0 p -> piece p = [].
  Proof. intros p ->. reflexivity. Qed.
  Lemma D1 : (1 <= D)%nat.
  Proof. destruct Cs; [congruence|cbn; lia]. Qed.

  Notation frl := (rl mcn inner D pd kw).
  Lemma flat_root : forall ns, level_ok fV 0 ns -> frl 0 ns = Ok [(CPiece, [], [])] /\ forall k, In k (map pn_piece ns) <-> k = [].
  Proof.
    intros ns (NE & L0 & FA). destruct (L0 eq_refl) as [n ->]. inversion FA as [|? ? [H1 H2] _]; subst. cbn [fV] in H1.
    assert (P : pn_piece n = []). { unfold pn_piece, t_piece. rewrite H1. reflexivity. }
    assert (POS : Forall (fun n => 0 < pn_cnt n)%Z [n]) by (constructor; [exact H2|constructor]).
    assert (I : items [n] = [IT empty_parsed_piece [] [n]]).
    { unfold items, bags, dgroup. cbn. rewrite P, H1. reflexivity. }
    split.
    - unfold rl, run_level. destruct (piece_stage_spec mcn M2 0 (D - 0 =? 0) (pd =? 0) kw [n] NE POS L0) as [PS|(L1 & _)]; [|lia].
      assert (LI : literal [n] = [(CPiece, [], [])]) by (unfold literal; rewrite I; reflexivity). rewrite LI in PS. rewrite PS.
      cbn. destruct (0 <? mcn)%Z eqn:Q; [reflexivity|apply Z.ltb_ge in Q; lia].
    - intros k. cbn [map In]. rewrite P. split; [intros [<-|[]]; reflexivity|intros ->; left; reflexivity].
  Qed.
  Lemma flat_step : forall l ns, level_ok fV (S l) ns -> exists C dn ss M c, nth_error Cs l = Some C
      /\ frl (S l) ns = Ok dn
      /\ Forall all_legal ss /\ Forall (fun s => cset s = C) ss /\ NoDup ss /\ mode_ok M ss
      /\ (forall k, In k (map pn_piece ns) <-> In k (map (fun s => piece (pp_of s)) ss))
      /\ Permutation dn (map (fun s => (c, piece (pp_of s), mpat M s)) ss)
      /\ ((D - S l =? 0) && kw = true -> M = MLit).
  Proof.
    intros l ns (NE & L0 & FA).
    assert (X : exists C, nth_error Cs l = Some C).
    { destruct ns as [|n ns]; [congruence|]. inversion FA as [|? ? [H1 H2] _]; subst. destruct H1 as (s & _ & _ & H1). eauto. }
    destruct X as [C HC]. unfold rl.
    destruct (flat_level mcn M2 inner (S l) (D - S l =? 0) (pd =? S l) kw C ns NE L0) as (dn & ss & M & c & H).
    - eapply Forall_impl; [|exact FA]. intros n [(s & A & B & E) P]. split; [|exact P]. exists s. split; [exact A|]. split; [exact B|]. congruence.
    - exists C, dn, ss, M, c. split; [exact HC|]. destruct H as (H1 & H2 & H3 & H4 & H5 & H6 & H7 & H8). repeat (split; [assumption|]). auto.
  Qed.
  (** what the pattern map says *)
  Lemma flat_get : forall l ns dn ss M c, Forall all_legal ss -> NoDup ss ->
    Permutation dn (map (fun s => (c, piece (pp_of s), mpat M s)) ss) -> (level_ok fV (S l) ns) ->
    forall s, In s ss -> dget str_eqb (piece (pp_of s)) (pattern_map dn) = Some (mpat M s).
  Proof.
    intros l ns dn ss M c FL ND P _ s I. apply dget_in; [exact str_eqb_iff| |].
    - unfold pattern_map. rewrite map_map. cbn [fst].
      apply (Permutation_NoDup (l := map (fun s => piece (pp_of s)) ss)).
      + symmetry. rewrite P, map_map. cbn [fst snd]. apply Permutation_refl.
      + clear - FL ND. induction ND as [|s ss N ND IH]; [constructor|]. inversion FL; subst. cbn [map]. constructor; [|auto].
        intros I. apply in_map_iff in I. destruct I as (t & I1 & I2). rewrite Forall_forall in H2. apply piece_inj in I1; [|auto..]. subst. auto.
    - unfold pattern_map. apply in_map_iff. exists (c, piece (pp_of s), mpat M s). split; [reflexivity|].
      eapply Permutation_in; [symmetry; exact P|]. apply in_map_iff. exists s. auto.
  Qed.

  Lemma flat_LL : forall level ns, (level <= D)%nat -> level_ok fV level ns ->
     exists dn, frl level ns = Ok dn /\ NoDup (map fst (pattern_map dn))
       /\ (forall k, In k (map fst (pattern_map dn)) <-> In k (map pn_piece ns))
       /\ Forall good (map snd (pattern_map dn))
       /\ ((forall q1 q2, In q1 (map snd (pattern_map dn)) -> In q2 (map snd (pattern_map dn)) -> q1 = q2) -> (pattern_num dn <= 1)%nat).
  Proof.
    intros [|l] ns LE OK.
    - destruct (flat_root ns OK) as [E K]. eexists. split; [exact E|]. cbn. split; [constructor; [intros []|constructor]|].
      split; [intros k; rewrite K; split; [intros [<-|[]]; reflexivity|intros ->; left; reflexivity]|].
      split; [constructor; [exact good_nil|constructor]|]. intros. lia.
    - destruct (flat_step l ns OK) as (C & dn & ss & M & c & HC & E & FL & FC & ND & MO & K & P & _). exists dn. split; [exact E|].
      assert (PM1 : Permutation (map fst (pattern_map dn)) (map (fun s => piece (pp_of s)) ss)).
      { unfold pattern_map. rewrite P, !map_map. cbn [fst snd]. apply Permutation_refl. }
      assert (PM2 : Permutation (map snd (pattern_map dn)) (map (fun s => mpat M s) ss)).
      { unfold pattern_map. rewrite P, !map_map. cbn [fst snd]. apply Permutation_refl. }
      split.
      { apply (Permutation_NoDup (Permutation_sym PM1)). clear - FL ND. induction ND as [|s ss N ND IH]; [constructor|]. inversion FL; subst. cbn [map]. constructor; [|auto].
        intros I. apply in_map_iff in I. destruct I as (t & I1 & I2). rewrite Forall_forall in H2. apply piece_inj in I1; [|auto..]. subst. auto. }
      split. { intros k. rewrite K. split; apply Permutation_in; [exact PM1|symmetry; exact PM1]. }
      split.
      { apply Forall_forall. intros q I. apply (Permutation_in _ PM2) in I. apply in_map_iff in I. destruct I as (s & <- & I).
        rewrite Forall_forall in FL. destruct M; cbn [mpat]; try (apply pstr_good; auto). destruct (N.eqb (pl s) n); apply pstr_good; auto. }
      intros EQ. apply pattern_num_le1. intros e e' I I'. split.
      + apply (Permutation_in _ P) in I, I'. apply in_map_iff in I, I'. destruct I as (? & <- & _), I' as (? & <- & _). reflexivity.
      + apply EQ; unfold pattern_map; rewrite map_map; cbn [snd]; apply in_map; assumption.
  Qed.

  Definition nometa (m : option (list str)) : Prop := m = None.
  Lemma nometa_id : forall m, nometa m -> update_meta m None = m.
  Proof. intros m ->. reflexivity. Qed.

  (** the strings of an entry *)
  Definition estrs (e : entry) (ss : list str) : Prop := e_path e = map vpart ss /\ Forall all_legal ss /\ map cset ss = Cs.
  Lemma ents_strs : forall t, tok fV D 0 t -> forall e, In e (ents t) -> exists ss, estrs e ss.
  Proof.
    intros t W e I. pose proof (ents_vals fV D 0 t W) as EV. rewrite Forall_forall in EV. specialize (EV e I).
    assert (G : forall n k path, Forall2 (fun P v => P v) (levels fV (S n) k) path -> (n + k = D)%nat ->
       exists ss, path = map vpart ss /\ Forall all_legal ss /\ map cset ss = skipn n Cs).
    { intros n k. revert n. induction k as [|k IH]; intros n path F L.
      - inversion F; subst. exists []. split; [reflexivity|]. split; [constructor|]. rewrite skipn_all2 by lia. reflexivity.
      - unfold levels in F. cbn [seq map] in F. inversion F as [|? v ? path' Hv F']; subst. destruct Hv as (s & S1 & S2 & S3).
        destruct (IH (S n) path' F') as (ss & A & B & C); [lia|]. exists (s :: ss). cbn [map]. rewrite A, S2. split; [reflexivity|].
        split; [constructor; assumption|]. rewrite C. clear - S3. revert n S3. induction Cs as [|c l IH]; intros [|n] H; try discriminate.
        + cbn in H. inversion H. reflexivity.
        + cbn [nth_error] in H. cbn [skipn]. apply IH in H. exact H. }
    destruct (G 0 D (e_path e) EV eq_refl) as (ss & A & B & C). exists ss. split; [exact A|]. split; [exact B|exact C].
  Qed.
  Lemma estrs_pieces : forall e ss, estrs e ss -> e_pieces e = map (fun s => piece (pp_of s)) ss.
  Proof. intros e ss (E & _). unfold e_pieces. rewrite E, map_map. apply map_ext. apply vpart_piece. Qed.
  Lemma estrs_inj : forall e ss ss', estrs e ss -> estrs e ss' -> ss = ss'.
  Proof.
    intros e ss ss' (A & B & _) (A' & B' & _). rewrite A in A'. clear A. revert ss' A' B'. induction B as [|s ss L B IH]; intros [|t ss'] E F; try discriminate; [reflexivity|].
    cbn [map] in E. inversion E. inversion F; subst. f_equal; [|apply IH; assumption].
    apply vpart_inj; [assumption..|]. unfold vpart. congruence.
  Qed.

  (** a finished part and its patterns (without the root's) *)
  Definition part (t : tree) (Ps : list str) : Prop :=
    length Ps = D /\ (forall nodes, In nodes (paths t) -> map t_pattern (tl nodes) = Ps)
    /\ (forall e ss, In e (ents t) -> estrs e ss -> fits ss Ps)
    /\ (kw = true -> forall e ss, In e (ents t) -> estrs e ss -> exists s, nth_error ss (D - 1) = Some s /\ nth_error Ps (D - 1) = Some (pstr s KLit)).
  Lemma settled_part : forall t, tok fV D 0 t -> settled mcn inner fV D pd kw t -> exists Ps, part t Ps /\
    forall l, (l < D)%nat -> exists C ss M q, nth_error Cs l = Some C /\ nth_error Ps l = Some q
      /\ Forall all_legal ss /\ Forall (fun s => cset s = C) ss /\ mode_ok M ss
      /\ (forall s, In s ss <-> exists e es, In e (ents t) /\ estrs e es /\ nth_error es l = Some s)
      /\ (forall s, In s ss -> mpat M s = q) /\ ((D - S l =? 0) && kw = true -> M = MLit).
  Proof.
    intros t W (t0 & p & W0 & PS & CS & ->).
    pose proof (can_split_uniform mcn inner fV D pd kw D1 good flat_LL D 0 (ns0 t0) p eq_refl PS CS) as UNI.
    destruct (ents t0) as [|e0 r0] eqn:E0; [exfalso; exact (ents_nonnil _ E0)|].
    assert (I0 : In e0 (ents t0)) by (rewrite E0; left; reflexivity). clear r0 E0.
    pose proof (under_ent fV fV00 D t0 e0 W0 I0) as U0.
    assert (ALL : forall e, In e (ents (annotate p t0)) -> pt_path p ([] :: e_pieces e) = pt_path p ([] :: e_pieces e0)).
    { intros e I. rewrite annotate_ents in I. apply UNI; [apply (under_ent fV fV00 D t0 e W0 I)|exact U0]. }
    destruct (pt_path_ok mcn inner fV D pd kw D1 good flat_LL D 0 (ns0 t0) p _ eq_refl PS U0) as [LEN _].
    set (Q := pt_path p ([] :: e_pieces e0)) in *.
    assert (LV : forall l, (l < D)%nat -> exists C ss M q, nth_error Cs l = Some C /\ nth_error (tl Q) l = Some q
      /\ Forall all_legal ss /\ Forall (fun s => cset s = C) ss /\ mode_ok M ss
      /\ (forall s, In s ss <-> exists e es, In e (ents (annotate p t0)) /\ estrs e es /\ nth_error es l = Some s)
      /\ (forall s, In s ss -> mpat M s = q) /\ ((D - S l =? 0) && kw = true -> M = MLit)).
    { intros l Hl. destruct (uniform_levels mcn inner fV D pd kw D1 good flat_LL D 0 (ns0 t0) p eq_refl PS CS (S l) ltac:(lia)) as (nsj & dn & q & LO & RL & KK & KD & KP & _).
      cbn [Nat.add] in *. destruct (flat_step l nsj LO) as (C & dn' & ss & M & c & HC & RL' & FL & FC & ND & MO & K & P & LK).
      rewrite RL in RL'. inversion RL'; subst dn'. clear RL'. exists C, ss, M, q. split; [exact HC|]. split.
      { specialize (KP _ U0). fold Q in KP. destruct Q; [discriminate|]. exact KP. }
      do 3 (split; [assumption|]). split.
      - intros s. split.
        + intros I. assert (J : In (piece (pp_of s)) (map pn_piece nsj)) by (apply K; apply in_map_iff; exists s; auto).
          apply KK in J. destruct J as (ks & J1 & J2). destruct (under_ent_inv fV fV00 D t0 ks W0 J1) as (e & E1 & E2).
          destruct (ents_strs t0 W0 e E1) as [es ES]. exists e, es. split; [rewrite annotate_ents; exact E1|]. split; [exact ES|].
          subst ks. cbn [nth_error] in J2. rewrite (estrs_pieces _ _ ES), nth_error_map in J2. destruct (nth_error es l) as [s'|] eqn:EN; [|discriminate].
          cbn in J2. inversion J2 as [J3]. f_equal. destruct ES as (_ & ES & _). rewrite Forall_forall in ES, FL. apply nth_error_In in EN.
          apply piece_inj; auto.
        + intros (e & es & E1 & ES & EN). rewrite annotate_ents in E1.
          assert (J : In (piece (pp_of s)) (map pn_piece nsj)).
          { apply KK. exists ([] :: e_pieces e). split; [apply (under_ent fV fV00 D t0 e W0 E1)|]. cbn [nth_error].
            rewrite (estrs_pieces _ _ ES), nth_error_map, EN. reflexivity. }
          apply K in J. apply in_map_iff in J. destruct J as (s' & J1 & J2). destruct ES as (_ & ES & _). rewrite Forall_forall in ES, FL. apply nth_error_In in EN.
          apply piece_inj in J1; [subst; exact J2|auto..].
      - split; [|exact LK]. intros s I. pose proof (flat_get l nsj dn ss M c FL ND P LO s I) as G.
        assert (J : In (piece (pp_of s)) (map pn_piece nsj)) by (apply K; apply in_map_iff; exists s; auto).
        rewrite (KD _ J) in G. congruence. }
    exists (tl Q). split; [|exact LV]. split; [destruct Q; cbn in *; [discriminate|lia]|]. split.
    - intros nodes I. pose proof (annotate_root mcn inner fV fV00 D pd kw D1 good flat_LL t0 p W0 PS nodes I) as E.
      rewrite (ALL (ent nodes)) in E by (apply in_map; exact I). rewrite <- E. destruct nodes; reflexivity.
    - split; [|intros KW e ss I ES; assert (LS : length ss = D) by (destruct ES as (_ & _ & ES); rewrite <- ES; rewrite map_length; reflexivity);
        pose proof D1 as DD; destruct (LV (D - 1) ltac:(lia)) as (C & sl & M & q & HC & HQ & FL & FC & MO & KS & KQ & LK);
        destruct (nth_error ss (D - 1)) as [x|] eqn:X; [|apply nth_error_None in X; lia];
        assert (IX : In x sl) by (apply KS; exists e, ss; auto);
        assert (M = MLit) as -> by (apply LK; rewrite KW; replace (D - S (D - 1)) with 0 by lia; reflexivity);
        exists x; split; [reflexivity|]; rewrite HQ; f_equal; symmetry; exact (KQ x IX)].
      intros e ss I ES. assert (LS : length ss = D) by (destruct ES as (_ & _ & ES); rewrite <- ES; rewrite map_length; reflexivity).
      assert (LQ : length (tl Q) = D) by (destruct Q; cbn in *; [discriminate|lia]).
      assert (F : forall (a b : list str), length a = length b -> (forall l x y, nth_error a l = Some x -> nth_error b l = Some y -> pat1 x y) -> Forall2 pat1 a b).
      { clear. induction a as [|x a IH]; intros [|y b] L H; try discriminate; constructor.
        - apply (H 0 x y); reflexivity.
        - apply IH; [cbn in L; lia|]. intros l x' y' X Y. apply (H (S l) x' y'); assumption. }
      apply F; [congruence|]. intros l x y X Y.
      assert (Hl : (l < D)%nat) by (rewrite <- LS; apply nth_error_Some; congruence).
      destruct (LV l Hl) as (C & sl & M & q & HC & HQ & FL & FC & MO & KS & KQ & _). rewrite Y in HQ. inversion HQ; subst q.
      assert (IX : In x sl) by (apply KS; exists e, ss; auto). rewrite <- (KQ x IX). eapply mode_pat1; eauto.
  Qed.

  Lemma sep_closed : forall t1 t2 Ps1, tok fV D 0 t1 -> tok fV D 0 t2 -> settled mcn inner fV D pd kw t1 ->
    sep mcn inner fV D pd kw t1 t2 \/ sep mcn inner fV D pd kw t2 t1 -> part t1 Ps1 ->
    forall e ss, In e (ents t2) -> estrs e ss -> ~ fits ss Ps1.
  Proof.
    intros t1 t2 Ps1 W1 W2 ST SP PT e2 es2 I2 ES2 FT.
    assert (SP' : exists T0 p P1 P2, tok fV D 0 T0 /\ pspec mcn inner fV D pd kw D 0 (ns0 T0) p /\ P1 <> P2
      /\ (forall e, In e (ents t1) -> In e (ents T0) /\ pt_path p ([] :: e_pieces e) = P1)
      /\ (forall e, In e (ents t2) -> In e (ents T0) /\ pt_path p ([] :: e_pieces e) = P2)).
    { destruct SP as [(T0 & p & P1 & P2 & A & B & N & C & E)|(T0 & p & P1 & P2 & A & B & N & C & E)].
      - exists T0, p, P1, P2. auto.
      - exists T0, p, P2, P1. auto. }
    clear SP. destruct SP' as (T0 & p & P1 & P2 & W0 & PS & NE & A1 & A2).
    destruct (settled_part t1 W1 ST) as (Ps' & PT' & LV).
    assert (Ps' = Ps1) as ->.
    { destruct PT as (_ & PT & _), PT' as (_ & PT' & _). destruct (paths t1) as [|nodes r] eqn:E; [exfalso; exact (paths_nonnil _ E)|].
      rewrite <- (PT nodes), <- (PT' nodes) by (left; reflexivity). reflexivity. }
    destruct (ents t1) as [|e1 r1] eqn:E1; [exfalso; exact (ents_nonnil _ E1)|]. rewrite <- E1 in *.
    assert (I1 : In e1 (ents t1)) by (rewrite E1; left; reflexivity). clear r1 E1.
    destruct (first_diff mcn inner fV D pd kw D1 good flat_LL D 0 (ns0 T0) p
      (fun k => exists e, In e (ents t1) /\ k = [] :: e_pieces e) (fun k => k = [] :: e_pieces e2) P1 P2 eq_refl PS)
      as (j & nsj & dn & q1 & q2 & LE & LO & RL & NQ & B1 & B2).
    { exists ([] :: e_pieces e1). exists e1. auto. }
    { eexists. reflexivity. }
    { exact NE. }
    { intros k (e & I & ->). destruct (A1 e I) as [J1 J2]. split; [apply (under_ent fV fV00 D T0 e W0 J1)|exact J2]. }
    { intros k ->. destruct (A2 e2 I2) as [J1 J2]. split; [apply (under_ent fV fV00 D T0 e2 W0 J1)|exact J2]. }
    cbn [Nat.add] in *. destruct j as [|l].
    { destruct (B1 ([] :: e_pieces e1)) as (x & X1 & _ & X2). { exists e1. auto. }
      destruct (B2 ([] :: e_pieces e2) eq_refl) as (y & Y1 & _ & Y2). cbn [nth_error] in X1, Y1. congruence. }
    destruct (flat_step l nsj LO) as (C & dn' & ss & M & c & HC & RL' & FL & FC & ND & MO & K & P & _).
    rewrite RL in RL'. inversion RL'; subst dn'. clear RL'.
    assert (POS : forall e es q, estrs e es -> (exists x, nth_error ([] :: e_pieces e) (S l) = Some x /\ In x (map pn_piece nsj) /\ dget str_eqb x (pattern_map dn) = Some q) ->
       exists s, nth_error es l = Some s /\ In s ss /\ mpat M s = q).
    { intros e es q ES (x & X1 & X2 & X3). cbn [nth_error] in X1. rewrite (estrs_pieces _ _ ES), nth_error_map in X1.
      destruct (nth_error es l) as [s|] eqn:EN; [|discriminate]. cbn in X1. inversion X1; subst x. exists s. split; [reflexivity|].
      apply K in X2. apply in_map_iff in X2. destruct X2 as (s' & Q1 & Q2). destruct ES as (_ & ES & _). pose proof ES as ES'. rewrite Forall_forall in ES'.
      pose proof FL as FL'. rewrite Forall_forall in FL'. apply piece_inj in Q1; [|apply FL'; exact Q2|apply ES'; eapply nth_error_In; exact EN]. subst s'.
      split; [exact Q2|]. pose proof (flat_get l nsj dn ss M c FL ND P LO s Q2) as G. assert (SOM : Some (mpat M s) = Some q) by (rewrite <- G, <- X3; reflexivity). inversion SOM. reflexivity. }
    destruct (POS e2 es2 q2 ES2 (B2 _ eq_refl)) as (s2 & N2 & S2 & Q2).
    assert (T1 : forall e es, In e (ents t1) -> estrs e es -> exists s, nth_error es l = Some s /\ In s ss /\ mpat M s = q1).
    { intros e es I ES. apply (POS e es q1 ES). apply B1. exists e. auto. }
    assert (LD : (l < D)%nat) by lia.
    destruct (LV l LD) as (C' & S1 & M' & q & HC' & HQ & FL1 & FC1 & MO1 & KS & KQ & _). rewrite HC in HC'. inversion HC'; subst C'. clear HC'.
    assert (T2 : forall s, In s S1 -> In s ss /\ mpat M s = q1).
    { intros s I. apply KS in I. destruct I as (e & es & E1 & E2 & E3). destruct (T1 e es E1 E2) as (s' & F1 & F2 & F3). rewrite E3 in F1. inversion F1; subst. auto. }
    assert (NS : exists s1, In s1 S1).
    { destruct (ents_strs t1 W1 e1 I1) as [es ES]. destruct (T1 e1 es I1 ES) as (s & F1 & _). exists s. apply KS. exists e1, es. auto. }
    destruct NS as [s1 S1I].
    assert (PAT : pat1 s2 q).
    { revert N2 HQ FT. clear. unfold fits. revert l Ps1. induction es2 as [|x es2 IH]; intros [|l] [|y Ps1] N2 HQ FT; try discriminate; inversion FT; subst.
      - cbn in *. congruence.
      - cbn [nth_error] in *. eapply IH; eauto. }
    rewrite Forall_forall in FL, FC, FL1, FC1.
    assert (ONE : forall s, In s S1 -> s = s1 -> True) by auto. clear ONE.
    destruct (list_eq_dec str_dec (filter (fun s => negb (str_eqb s1 s)) S1) []) as [Z|Z].
    - (* one string *)
      assert (ALL : forall s, In s S1 -> s = s1).
      { intros s I. destruct (str_eqb_spec s1 s) as [->|N]; [reflexivity|]. exfalso.
        assert (J : In s (filter (fun s => negb (str_eqb s1 s)) S1)).
        { apply filter_In. split; [exact I|]. apply Bool.negb_true_iff. apply str_eqb_neq. exact N. }
        rewrite Z in J. destruct J. }
      assert (M' = MLit) as ->.
      { destruct M'; [reflexivity| |]; cbn [mode_ok] in MO1.
        - destruct MO1 as (_ & a & b & A & B & AB & _). exfalso. apply AB. rewrite (ALL a A), (ALL b B). reflexivity.
        - destruct MO1 as (a & b & A & B & AB). exfalso. apply AB. rewrite (ALL a A), (ALL b B). reflexivity. }
      pose proof (KQ s1 S1I) as Q1. cbn [mpat pstr] in Q1. destruct PAT as (k & KO & KP). rewrite <- Q1 in KP.
      apply lit_vs_class in KP; [|apply FL1; exact S1I|apply FL; exact S2|exact KO]. subst s2.
      apply NQ. rewrite <- Q2. symmetry. apply T2. exact S1I.
    - destruct (filter (fun s => negb (str_eqb s1 s)) S1) as [|s1' r] eqn:EF; [congruence|]. clear Z.
      assert (J : In s1' S1 /\ s1' <> s1).
      { assert (J : In s1' (s1' :: r)) by (left; reflexivity). rewrite <- EF in J. apply filter_In in J. destruct J as [J1 J2].
        apply Bool.negb_true_iff in J2. apply str_eqb_neq in J2. auto. }
      destruct J as [S1I' D']. clear EF r. destruct M as [|n|].
      + apply D'. destruct (T2 s1 S1I) as [X1 X2], (T2 s1' S1I') as [Y1 Y2]. cbn [mpat pstr] in X2, Y2. apply piece_inj; auto. congruence.
      + assert (KO : forall s, In s ss -> pl s = n -> kok s KSpec).
        { intros s I E. cbn [mode_ok] in MO. destruct MO as (N0 & a & b & A & B & AB & PA & PB). split.
          - intros ->. apply N0. rewrite <- E. reflexivity.
          - destruct (str_eqb_spec a s) as [->|NN]; [exists b|exists a]; (split; [auto|]); (split; [congruence|]); (split; [rewrite !FC by assumption; reflexivity|congruence]). }
        assert (ALLN : forall s, In s S1 -> pl s = n).
        { intros s I. destruct (N.eq_dec (pl s) n) as [E|E]; [exact E|exfalso].
          destruct (T2 s I) as [X1 X2]. cbn [mpat] in X2. rewrite (proj2 (N.eqb_neq _ _) E) in X2. cbn [pstr] in X2.
          assert (O : exists s', In s' S1 /\ s' <> s).
          { destruct (str_eqb_spec s s1) as [->|NN]; [exists s1'|exists s1]; auto. }
          destruct O as (s' & O1 & O2). destruct (T2 s' O1) as [Y1 Y2]. cbn [mpat] in Y2. destruct (N.eqb_spec (pl s') n) as [E'|E'].
          - rewrite <- Y2 in X2. apply lit_vs_class in X2; auto.
          - cbn [pstr] in Y2. apply O2. apply piece_inj; auto. congruence. }
        assert (N2' : pl s2 <> n).
        { intros E. apply NQ. destruct (T2 s1 S1I) as [X1 X2]. rewrite <- X2, <- Q2. cbn [mpat]. rewrite E, (ALLN s1 S1I), N.eqb_refl.
          cbn [pstr]. rewrite E, (ALLN s1 S1I), (FC s1 X1), (FC s2 S2). reflexivity. }
        destruct PAT as (k & KOK & KP). destruct M' as [|m|].
        * pose proof (KQ s1 S1I) as A. pose proof (KQ s1' S1I') as B. cbn [mpat pstr] in A, B. apply D'. apply piece_inj; auto. congruence.
        * cbn [mode_ok] in MO1. destruct MO1 as (_ & a & b & A & B & AB & PA & PB).
          assert (m = n) as -> by (rewrite <- PA; apply ALLN; exact A).
          pose proof (KQ s1 S1I) as Q. cbn [mpat] in Q. rewrite (ALLN s1 S1I), N.eqb_refl in Q. rewrite <- Q in KP.
          assert (KO1 : kok s1 KSpec) by (apply KO; [apply T2; exact S1I|apply ALLN; exact S1I]).
          destruct k.
          -- symmetry in KP. change (pstr s2 KLit) with (piece (pp_of s2)) in KP. apply lit_vs_class in KP; [|auto..]. subst. apply N2'. apply ALLN. exact S1I.
          -- apply pstr_class_inj in KP; [|auto; try discriminate..]; try discriminate. destruct KP as (_ & _ & KP). apply N2'. rewrite <- (KP eq_refl). apply ALLN. exact S1I.
          -- apply pstr_class_inj in KP; [|auto; try discriminate..]; try discriminate. destruct KP as (KP & _). discriminate.
        * cbn [mode_ok] in MO1. destruct MO1 as (a & b & A & B & AB). apply AB. rewrite (ALLN a A), (ALLN b B). reflexivity.
      + apply NQ. destruct (T2 s1 S1I) as [X1 X2]. rewrite <- X2, <- Q2. cbn [mpat pstr]. rewrite (FC s1 X1), (FC s2 S2). reflexivity.
  Qed.

  (** cluster() on a view tree *)
  Definition tcol (ss : list str) (q : str) : Prop := exists M C, Forall all_legal ss /\ Forall (fun s => cset s = C) ss /\ mode_ok M ss /\ forall s, In s ss -> mpat M s = q.
  Definition tightS (S : list str -> Prop) (Ps : list str) : Prop := forall l q, nth_error Ps l = Some q ->
    exists ss, tcol ss q /\ (forall s, In s ss <-> exists es, S es /\ nth_error es l = Some s).
  Definition closed (a b : tree * list str) : Prop :=
    (forall e ss, In e (ents (fst b)) -> estrs e ss -> ~ fits ss (snd a)) /\ (forall e ss, In e (ents (fst a)) -> estrs e ss -> ~ fits ss (snd b)).
  Lemma flat_cluster : forall fuel t, (length (paths t) < fuel)%nat -> tok fV D 0 t -> t_val t = empty_parsed_piece ->
    Forall (fun e => e_meta e = None) (ents t) ->
    exists tps, cluster_loop mcn inner fuel D pd kw t = Ok (map fst tps)
      /\ Permutation (flat_map ents (map fst tps)) (ents t)
      /\ Forall (fun tp => tok fV D 0 (fst tp) /\ part (fst tp) (snd tp) /\ tightS (fun es => exists e, In e (ents (fst tp)) /\ estrs e es) (snd tp)) tps
      /\ ForallOrdPairs closed tps.
  Proof.
    intros fuel t LT W TV MO.
    destruct (loop_ok mcn inner fV fVfun fV0 fV00 D pd kw D1 good good_join flat_LL nometa nometa_id fuel t LT W TV MO) as (ts & E & P & F & FO).
    assert (X : exists Pss, Forall2 (fun t Ps => tok fV D 0 t /\ settled mcn inner fV D pd kw t /\ (part t Ps /\ tightS (fun es => exists e, In e (ents t) /\ estrs e es) Ps)) ts Pss).
    { clear - F M2 CN. induction F as [|t ts (A & B & _) F (Pss & IH)]; [exists []; constructor|]. destruct (settled_part t A B) as (Ps & X & TI).
      exists (Ps :: Pss). constructor; [|exact IH]. split; [exact A|]. split; [exact B|]. split; [exact X|].
      intros l q Q. assert (Hl : (l < D)%nat) by (destruct X as [<- _]; apply nth_error_Some; congruence).
      destruct (TI l Hl) as (C & ss & M & q' & _ & Q' & LG & CS & MO & IN & MP & _). assert (q' = q) as -> by congruence. exists ss. split; [exists M, C; auto|].
      intros s. rewrite IN. split; [intros (e & es & A1 & A2 & A3); exists es; eauto|intros (es & (e & A1 & A2) & A3); exists e, es; auto]. }
    destruct X as [Pss X]. clear F.
    assert (L : length ts = length Pss) by (apply Forall2_length in X; exact X).
    exists (combine ts Pss).
    assert (MF : map fst (combine ts Pss) = ts). { clear - L. revert Pss L. induction ts as [|t ts IH]; intros [|p Pss] L; try discriminate; [reflexivity|]. cbn [combine map fst]. rewrite IH by (cbn in L; lia). reflexivity. }
    rewrite MF. split; [exact E|]. split; [exact P|]. split.
    - clear - X. induction X as [|t Ps ts Pss (A & _ & B) X IH]; [constructor|]. cbn [combine]. constructor; [split; assumption|exact IH].
    - clear E P L MF. induction X as [|t1 Ps1 ts Pss (A & B & C & _) X IH]; [constructor|]. cbn [combine]. inversion FO as [|? ? FO1 FO2]; subst. constructor.
      + apply Forall_forall. intros [t2 Ps2] I. apply in_combine_l in I as I2. rewrite Forall_forall in FO1. specialize (FO1 t2 I2).
        assert (Y : tok fV D 0 t2 /\ settled mcn inner fV D pd kw t2 /\ part t2 Ps2).
        { clear - X I. induction X as [|t Ps ts Pss (H1 & H2 & H3 & _) X IH]; [destruct I|]. destruct I as [I|I]; [inversion I; subst; auto|auto]. }
        destruct Y as (Y1 & Y2 & Y3). split; cbn [fst snd].
        * apply (sep_closed t1 t2 Ps1 A Y1 B (or_introl FO1) C).
        * apply (sep_closed t2 t1 Ps2 Y1 A Y2 (or_intror FO1) Y3).
      + apply IH. exact FO2.
  Qed.
End Flat.
