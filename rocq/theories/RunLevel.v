(** One level of a piece tree whose texts differ in one run of characters: exactly
    what it is given (C67). *)
From Coq Require Import String.
From Verif Require Import PyStr Defs UrlLib ParseUtils Views Trees Cluster Spec Patterns Matcher Maker Observe MatchSpec OneSpec PyStrProofs DefsProofs DictProofs RegexProofs PieceProofs LengthProofs BridgeProofs GroupProofs TreeProofs TokProofs LengthStage PieceStage EntProofs GenCluster FlatCluster ViewProofs KeyProofs TokUniq RouteProofs MultiStage OuterLevel OuterCluster AnyOuter OneLevel OneTree OneCluster FanCluster RunFam RunFlat RunStage RunView.
From Coq Require Import Lia Permutation.

(** *** what the clusters of views need to know *)
Record vwl (c : cls) (sv : str -> list str) (ok : str -> Prop) : Prop := {
  vw_L : forall s, all_legal s -> ok s -> Forall all_legal (sv s);
  vw_N : forall s, all_legal s -> ok s -> sv s <> [];
  vw_P : forall s, all_legal s -> ok s -> List.concat (map (fun t => piece (pp_of t)) (sv s)) = piece (pp_of s);
  vw_K : forall s t, all_legal s -> ok s -> all_legal t -> ok t ->
             view_key (map vpart (sv s)) = view_key (map vpart (sv t)) -> map cset (sv s) = map cset (sv t) }.
Lemma vwl_base : vwl CBase svB okB.
Proof.
  split.
  - intros s L _. apply svB_legal. exact L.
  - intros s L O E. unfold svB, g_multi in E. apply map_eq_nil in E. apply map_eq_nil in E. unfold okB in O. rewrite E in O. cbn in O. lia.
  - intros s L O. apply groups_piece; [exact L|apply groups_multi].
  - intros s t L _ L' _ E. apply (key_BB s t L L' E).
Qed.
Lemma vwl_mixed : vwl CMixed svX okX.
Proof.
  split.
  - intros s L _. apply svX_legal. exact L.
  - intros s L [O _] E. unfold svX in E. apply map_eq_nil in E. pose proof (groups_mixed s) as G. unfold groups in G. rewrite E in G. unfold okB in O. rewrite <- G in O. cbn in O. lia.
  - intros s L O. apply groups_piece; [exact L|apply groups_mixed].
  - intros s t L _ L' _ E. apply (key_XX s t L L' E).
Qed.
Lemma vwl_ldsf : vwl CLdsf svL okL.
Proof.
  split.
  - intros s L _. apply svL_legal. exact L.
  - intros s L [O _] E. unfold svL in E. apply map_eq_nil in E. pose proof (groups_ldsf s) as G. unfold groups in G. rewrite E in G. unfold okB in O. rewrite <- G in O. cbn in O. lia.
  - intros s L O. apply groups_piece; [exact L|apply groups_ldsf].
  - intros s t L O L' O' E. apply (key_LL s t L L' O O' E).
Qed.
Lemma vwl_of : forall c, is3 c -> vwl c (vsv c) (vok c).
Proof. intros c [->|[->| ->]]; [exact vwl_base|exact vwl_mixed|exact vwl_ldsf]. Qed.
(** a cluster of a view finishes nothing or [mcn] texts *)
Lemma stage_len : forall mcn lp c sv ok l dn fw, (2 <= mcn)%Z -> vwl c sv ok -> Forall (vgood sv ok) l -> NoDup (map pc l) -> (forall vi, In vi l -> vc vi = 1%Z) ->
  multi_stage mcn (fun (d : nat) (kw : bool) (t : tree) => cluster_n 1 mcn d d kw t) lp c l = Ok (dn, fw) -> dn = [] \/ (mcn <= Z.of_nat (length dn))%Z.
Proof.
  intros mcn lp c sv ok l dn fw M2 [A B C D] G ND ON E. destruct (multi_stage_spec mcn M2 lp c sv ok A B C D l G ND) as (dn' & fw' & E' & parts & fwl & P1 & P2 & _ & F).
  rewrite E in E'. inversion E'; subst dn' fw'. destruct parts as [|p parts]; [left; cbn [flat_map] in P2; apply Permutation_sym, Permutation_nil in P2; exact P2|]. right.
  inversion F as [|? ? [[Z _] _] _]; subst. apply Permutation_length in P2. cbn [flat_map] in P2. rewrite app_length in P2. unfold pdone at 1 in P2. rewrite map_length in P2.
  assert (X : zsum (map vc (fst p)) = Z.of_nat (length (fst p))).
  { assert (S : forall vi, In vi (fst p) -> vc vi = 1%Z). { intros vi I. apply ON. eapply Permutation_in; [symmetry; exact P1|]. cbn [flat_map]. rewrite !in_app_iff. auto. }
    clear - S. induction (fst p) as [|x l IH]; [reflexivity|]. cbn [map zsum fold_right length]. change (fold_right Z.add 0%Z (map vc l)) with (zsum (map vc l)). rewrite IH by (intros vi I; apply S; right; exact I). rewrite (S x (or_introl eq_refl)). lia. }
  lia.
Qed.
(** *** few texts are left alone *)
Section Few.
  Context (mcn : Z) (M2 : (2 <= mcn)%Z).
  Definition steadyb (ss : list str) : Prop := (Z.of_nat (length ss) < mcn)%Z \/ mixb mcn ss = true \/ (mcn <= Z.of_nat (largest ss))%Z.
  Definition litb (ss : list str) (s : str) : bool := match okind mcn ss s with KLit => true | _ => false end.
  Lemma filter_split_len : forall A (f : A -> bool) l, length (filter f l) + length (filter (fun x => negb (f x)) l) = length l.
  Proof. intros A f. induction l as [|x l IH]; [reflexivity|]. cbn [filter]. destruct (f x); cbn [negb length]; lia. Qed.
  Lemma lits_few : forall ss, ss <> [] -> steadyb ss -> (mcn <= Z.of_nat (length ss))%Z -> (Z.of_nat (length (filter (litb ss) ss)) < mcn)%Z.
  Proof.
    intros ss NE ST L. destruct (mixb mcn ss) eqn:MX.
    - replace (filter (litb ss) ss) with (@nil str); [cbn; lia|]. symmetry. assert (X : forall l, filter (litb ss) l = []); [|apply X]. intros l. induction l as [|x l IH]; [reflexivity|]. cbn [filter].
      unfold litb at 1, okind. rewrite (proj2 (Z.ltb_ge _ _) L), MX. exact IH.
    - destruct ST as [ST|[ST|ST]]; [lia|congruence|]. unfold mixb in MX. apply orb_false_iff in MX. destruct MX as [MX1 MX]. unfold confused in MX. rewrite (proj2 (Z.ltb_ge _ _) L) in MX. cbv zeta in MX.
      rewrite (proj2 (Z.leb_le _ _) ST) in MX. cbn [andb] in MX. destruct (Z.leb_spec mcn (Z.of_nat (length ss) - Z.of_nat (largest ss))) as [Q|Q]; [discriminate|].
      destruct (largest_in ss NE) as (s & I & EQ). rewrite EQ in *. assert (FS : length (of_length (length s) ss) + length (filter (fun t => negb (length t =? length s)) ss) = length ss) by exact (filter_split_len _ (fun t => length t =? length s) ss).
      enough (length (filter (litb ss) ss) <= length (filter (fun t => negb (length t =? length s)) ss)) by (clear - H FS Q; lia).
      assert (X : forall l, length (filter (litb ss) l) <= length (filter (fun t => negb (length t =? length s)) l)); [|apply X]. intros l. induction l as [|x l IH]; [reflexivity|]. cbn [filter].
      destruct (Nat.eqb_spec (length x) (length s)) as [E|E]; cbn [negb].
      + replace (litb ss x) with false; [exact IH|]. symmetry. unfold litb, okind. rewrite (proj2 (Z.ltb_ge _ _) L), E, (proj2 (Z.leb_le _ _) ST). destruct (mixb mcn ss); reflexivity.
      + destruct (litb ss x); cbn [length]; lia.
  Qed.
  (** without a length that is shared, nothing is found *)
  Lemma unsteady_lit : forall ss s, (mcn <= Z.of_nat (length ss))%Z -> ~ steadyb ss -> In s ss -> okind mcn ss s = KLit.
  Proof.
    intros ss s L NS I. unfold okind. rewrite (proj2 (Z.ltb_ge _ _) L). destruct (mixb mcn ss) eqn:MX; [exfalso; apply NS; right; left; exact MX|].
    destruct (Z.leb_spec mcn (Z.of_nat (length (of_length (length s) ss)))) as [Q|Q]; [|reflexivity]. exfalso. apply NS. right. right. pose proof (largest_ge ss s I). lia.
  Qed.
  Lemma steady_dec : forall ss, steadyb ss \/ ~ steadyb ss.
  Proof. intros ss. unfold steadyb. destruct (mixb mcn ss); [tauto|]. destruct (Z.ltb_spec (Z.of_nat (length ss)) mcn); [tauto|]. destruct (Z.leb_spec mcn (Z.of_nat (largest ss))); [tauto|]. right. intros [?|[?|?]]; [lia|congruence|lia]. Qed.
End Few.
