(** Texts that differ in one run, wherever it stands: what the clusters by length
    give them, and why a part alone gets the pattern it had (C67). *)
From Coq Require Import String.
From Verif Require Import PyStr Defs UrlLib ParseUtils Views Trees Cluster Spec Patterns Matcher Maker Observe MatchSpec OneSpec PyStrProofs DefsProofs DictProofs RegexProofs PieceProofs LengthProofs BridgeProofs GroupProofs TreeProofs TokProofs LengthStage PieceStage EntProofs GenCluster FlatCluster ViewProofs MultiStage OneLevel OneTree OneCluster.
From Coq Require Import Lia Permutation.

Notation Pc s := (piece (pp_of s)).
Definition oneset (r : str) (ss : list str) : Prop := NoDup ss /\ Forall (one_sp r) ss.
Lemma oneset_part : forall r ss f, oneset r ss -> oneset r (filter f ss).
Proof. intros r ss f [ND ON]. split; [apply NoDup_filter; exact ND|]. apply Forall_forall. intros x X. apply filter_In in X. rewrite Forall_forall in ON. apply ON. apply X. Qed.
(** the texts: runs [ga], the run that changes, runs [gb] *)
Definition fam (r : str) (ga gb : list run) (G : str -> str) : Prop := forall s, one_sp r s -> all_legal (G s) /\ runs (G s) = ga ++ (r, s) :: gb.
Definition gC (r : str) (ga gb : list run) : list str := sorted_set (map fst ga ++ r :: map fst gb).
Definition gK (r : str) (ga gb : list run) : Z := (Z.of_nat (length (cat ga)) + Z.of_nat (length (cat gb)) + bs_sum (ga ++ (r, []) :: gb))%Z.
Lemma bs_sum_app : forall a b, bs_sum (a ++ b) = (bs_sum a + bs_sum b)%Z.
Proof. induction a as [|x a IH]; intros b; [reflexivity|]. cbn [app]. unfold bs_sum in *. cbn [fold_right]. rewrite IH. lia. Qed.
Section Fam.
  Context (r : str) (ga gb : list run) (G : str -> str) (FM : fam r ga gb G).
  Notation C := (gC r ga gb). Notation K := (gK r ga gb).
  Lemma g_legal : forall s, one_sp r s -> all_legal (G s).
  Proof. intros s O. apply (FM s O). Qed.
  Lemma g_non : forall s, one_sp r s -> G s <> [].
  Proof. intros s O E. destruct (FM s O) as [_ R]. rewrite E in R. destruct ga; discriminate R. Qed.
  Lemma g_inj : forall s t, one_sp r s -> one_sp r t -> G s = G t -> s = t.
  Proof. intros s t O P E. destruct (FM s O) as [_ R], (FM t P) as [_ Q]. rewrite E, Q in R. apply app_inv_head in R. injection R as R. symmetry. exact R. Qed.
  Lemma gp_inj : forall s t, one_sp r s -> one_sp r t -> Pc (G s) = Pc (G t) -> s = t.
  Proof. intros s t O P E. apply g_inj; [exact O|exact P|]. apply piece_inj; [apply g_legal; assumption..|exact E]. Qed.
  Lemma g_cset : forall s, one_sp r s -> cset (G s) = C.
  Proof. intros s O. unfold cset, gC, pp_of. cbn [rules]. rewrite (proj2 (FM s O)), map_app. reflexivity. Qed.
  Lemma g_pl : forall s, one_sp r s -> Z.of_N (TokProofs.pl (G s)) = (Z.of_nat (length s) + K)%Z.
  Proof.
    intros s O. destruct (FM s O) as [L R]. destruct (runs_spec (G s) L) as (F & A & E). unfold TokProofs.pl. rewrite nat_N_Z, Nat2Z.inj_add.
    assert (B : Z.of_nat (backslash_runs false (G s)) = bs_sum (ga ++ (r, s) :: gb)).
    { rewrite <- R. rewrite (bs_sum_starts (runs (G s)) false F A) by (destruct (runs (G s)); [exact Logic.I|reflexivity]). rewrite E. reflexivity. }
    rewrite B. rewrite <- E at 1. rewrite R, map_app, concat_app, app_length. cbn [map List.concat snd]. rewrite app_length. unfold gK, cat. rewrite !bs_sum_app. change (bs_sum ((r, s) :: gb)) with (bs_sum ((r, []) :: gb)). lia.
  Qed.
  Section St.
    Context (mcn : Z) (M2 : (2 <= mcn)%Z).
    Notation W ss s := (pstr (G s) (okind mcn ss s)).
    Notation part ss s := (filter (fun t => str_eqb (W ss t) (W ss s)) ss).
    Lemma g_kok : forall ss s, oneset r ss -> In s ss -> kok (G s) (okind mcn ss s).
    Proof.
      intros ss s [ND ON] I. unfold okind. rewrite Forall_forall in ON. pose proof (g_non s (ON s I)) as NS. destruct (Z.of_nat (length ss) <? mcn)%Z; [exact Logic.I|]. destruct (mixb mcn ss); [exact NS|].
      destruct (Z.leb_spec mcn (Z.of_nat (length (of_length (length s) ss)))) as [L|L]; [|exact Logic.I]. split; [exact NS|]. destruct (two_of (of_length (length s) ss) s) as (t & T & NE).
      - unfold of_length. apply NoDup_filter. exact ND. - apply of_length_in. auto. - lia.
      - apply of_length_in in T. destruct T as [T LT]. exists (G t). split; [apply g_legal, ON; exact T|]. split; [intros E; apply NE; apply g_inj; auto|]. rewrite (g_cset t (ON t T)), (g_cset s (ON s I)). split; [reflexivity|].
        apply N2Z.inj. rewrite (g_pl t (ON t T)), (g_pl s (ON s I)), LT. reflexivity.
    Qed.
    Lemma g_lit : forall ss s t, oneset r ss -> In s ss -> In t ss -> okind mcn ss s = KLit -> W ss t = W ss s -> t = s.
    Proof.
      intros ss s t OS I T K E. rewrite K in E. change (pstr (G s) KLit) with (Pc (G s)) in E. symmetry in E. symmetry. pose proof OS as [_ ON]. rewrite Forall_forall in ON.
      apply lit_vs_class in E; [apply g_inj; auto|apply g_legal; auto..|]. apply g_kok; assumption.
    Qed.
    Lemma part_lit : forall ss s, oneset r ss -> In s ss -> okind mcn ss s = KLit -> part ss s = [s].
    Proof.
      intros ss s OS I K. apply filter_one; [apply OS|exact I|]. intros t T. rewrite str_eqb_eq. split; [|intros ->; reflexivity]. apply g_lit; assumption.
    Qed.
    Lemma part_big : forall ss s, oneset r ss -> In s ss -> okind mcn ss s <> KLit -> (mcn <= Z.of_nat (length (part ss s)))%Z.
    Proof.
      intros ss s [ND ON] I K. pose proof ON as ON'. rewrite Forall_forall in ON'.
      assert (X : exists l, NoDup l /\ (mcn <= Z.of_nat (length l))%Z /\ forall t, In t l -> In t ss /\ W ss t = W ss s).
      { unfold okind in K. destruct (Z.ltb_spec (Z.of_nat (length ss)) mcn) as [L|L]; [congruence|]. destruct (mixb mcn ss) eqn:MX.
        - exists ss. split; [exact ND|]. split; [exact L|]. intros t T. split; [exact T|]. unfold okind. rewrite (proj2 (Z.ltb_ge _ _) L), MX. cbn [pstr]. rewrite (g_cset t (ON' t T)), (g_cset s (ON' s I)). reflexivity.
        - destruct (Z.leb_spec mcn (Z.of_nat (length (of_length (length s) ss)))) as [Q|Q]; [|congruence]. exists (of_length (length s) ss). split; [apply NoDup_filter; exact ND|]. split; [exact Q|].
          intros t T. apply of_length_in in T. destruct T as [T LT]. split; [exact T|]. unfold okind. rewrite (proj2 (Z.ltb_ge _ _) L), MX, LT, (proj2 (Z.leb_le _ _) Q). cbn [pstr].
          rewrite (g_cset t (ON' t T)), (g_cset s (ON' s I)). do 2 f_equal. apply N2Z.inj. rewrite (g_pl t (ON' t T)), (g_pl s (ON' s I)), LT. reflexivity. }
      destruct X as (l & NL & LL & SUB). enough (length l <= length (part ss s))%nat by lia. apply NoDup_incl_length; [exact NL|]. intros t T. apply filter_In. rewrite str_eqb_eq. apply SUB. exact T.
    Qed.
    Lemma g_stable : forall ss s, oneset r ss -> In s ss -> W (part ss s) s = W ss s.
    Proof.
      intros ss s OS I. pose proof OS as [ND ON]. pose proof ON as ON'. rewrite Forall_forall in ON'.
      destruct (okind mcn ss s) eqn:K.
      - pose proof (part_lit ss s OS I K) as X. rewrite K in X. rewrite X. unfold okind. cbn [length]. rewrite (proj2 (Z.ltb_lt (Z.of_nat 1) mcn)) by lia. reflexivity.
      - assert (F : filter (fun t => str_eqb (W ss t) (pstr (G s) KSpec)) ss = of_length (length s) ss).
        { unfold of_length. apply filter_ext_in. intros t T. destruct (Nat.eqb_spec (length t) (length s)) as [L|L].
          - apply str_eqb_eq. assert (KT : okind mcn ss t = KSpec). { rewrite <- K. unfold okind. rewrite L. reflexivity. } rewrite KT. cbn [pstr]. rewrite (g_cset t (ON' t T)), (g_cset s (ON' s I)).
            do 2 f_equal. apply N2Z.inj. rewrite (g_pl t (ON' t T)), (g_pl s (ON' s I)), L. reflexivity.
          - destruct (str_eqb_spec (W ss t) (pstr (G s) KSpec)) as [X|X]; [|reflexivity]. exfalso. apply L. destruct (okind mcn ss t) eqn:KT.
            + rewrite <- K in X. rewrite <- KT in X. rewrite (g_lit ss t s OS T I KT); [reflexivity|]. symmetry. exact X.
            + apply pstr_class_inj in X; [|apply g_legal; auto|apply g_legal; auto|rewrite <- KT; apply g_kok; assumption|rewrite <- K; apply g_kok; assumption|discriminate|discriminate]. destruct X as (_ & _ & X). specialize (X eq_refl).
              apply (f_equal Z.of_N) in X. rewrite (g_pl t (ON' t T)), (g_pl s (ON' s I)) in X. lia.
            + exfalso. clear - K KT. unfold okind in K, KT. destruct (Z.of_nat (length ss) <? mcn)%Z; [discriminate|]. destruct (mixb mcn ss); [discriminate|]. destruct (mcn <=? Z.of_nat (length (of_length (length t) ss)))%Z; discriminate. }
        rewrite F. rewrite (uniform_spec mcn M2 (length s)); [reflexivity| | |].
        + intros t T. apply of_length_in in T. apply T. + apply of_length_in. auto.
        + unfold okind in K. destruct (Z.of_nat (length ss) <? mcn)%Z; [discriminate|]. destruct (mixb mcn ss); [discriminate|]. destruct (Z.leb_spec mcn (Z.of_nat (length (of_length (length s) ss)))); [assumption|discriminate].
      - assert (F : filter (fun t => str_eqb (W ss t) (pstr (G s) KWild)) ss = ss).
        { apply filter_true. intros t T. apply str_eqb_eq. assert (KT : okind mcn ss t = KWild). { clear - K. unfold okind in *. destruct (Z.of_nat (length ss) <? mcn)%Z; [discriminate|]. destruct (mixb mcn ss); [reflexivity|]. destruct (mcn <=? Z.of_nat (length (of_length (length s) ss)))%Z; discriminate. }
            rewrite KT. cbn [pstr]. rewrite (g_cset t (ON' t T)), (g_cset s (ON' s I)). reflexivity. }
        rewrite F, K. reflexivity.
    Qed.
    (** *** the length and fuzzy clusters *)
    Context (Vf : str -> parsed_piece).
    Context (V1 : forall s, one_sp r s -> piece (Vf s) = Pc (G s)) (V2 : forall s, one_sp r s -> fuzzy_rule (Vf s) = List.concat C) (V3 : forall s, one_sp r s -> piece_length (Vf s) = Ok (Z.of_N (TokProofs.pl (G s)))).
    Lemma v_plen : forall s, one_sp r s -> plen (Vf s) = (Z.of_nat (length s) + K)%Z.
    Proof. intros s O. unfold plen. rewrite (V3 s O). apply g_pl. exact O. Qed.
    Lemma lf_fam : forall level its ss, (1 <= level)%nat -> oneset r ss -> Permutation (map it_pp its) (map Vf ss) -> Forall (fun i => it_pat i = it_piece i) its -> Forall (fun i => it_count i = 1%Z) its -> (mcn <= Z.of_nat (length ss))%Z ->
      exists d4 bks d5 c, length_stage mcn level its = Ok (d4, bks) /\ fuzzy_stage mcn bks = Ok d5 /\ Permutation (d4 ++ d5) (map (fun s => (c, Pc (G s), W ss s)) ss).
    Proof.
      intros level its ss' L1 OS' PE PAT ONE L'. destruct (Permutation_map_inv _ _ PE) as (ss & SV & P). symmetry in P.
      assert (OS : oneset r ss). { split; [eapply Permutation_NoDup; [symmetry; exact P|apply OS']|eapply Permutation_Forall; [symmetry; exact P|apply OS']]. }
      assert (L : (mcn <= Z.of_nat (length ss))%Z) by (rewrite (Permutation_length P); exact L').
      enough (X : exists d4 bks d5 c, length_stage mcn level its = Ok (d4, bks) /\ fuzzy_stage mcn bks = Ok d5 /\ Permutation (d4 ++ d5) (map (fun s => (c, Pc (G s), W ss s)) ss)).
      { destruct X as (d4 & bks & d5 & c & E1 & E2 & Q). exists d4, bks, d5, c. split; [exact E1|]. split; [exact E2|]. rewrite Q, (Permutation_map _ P). erewrite map_ext; [apply Permutation_refl|]. intros s. rewrite (okind_perm mcn ss ss' s P). reflexivity. }
      clear ss' OS' PE P L'. pose proof OS as [ND F]. pose proof F as F'. rewrite Forall_forall in F'.
      assert (LI : length its = length ss) by (rewrite <- (map_length it_pp), SV, map_length; reflexivity).
      assert (FIND : forall i, In i its -> exists s, In s ss /\ it_pp i = Vf s /\ one_sp r s).
      { intros i I. assert (Y : In (it_pp i) (map Vf ss)) by (rewrite <- SV; apply in_map; exact I). apply in_map_iff in Y. destruct Y as (s & Y1 & Y2). exists s. auto. }
      assert (NDP : NoDup (map it_piece its)).
      { assert (E : map it_piece its = map (fun s => piece (Vf s)) ss) by (unfold it_piece; rewrite <- (map_map it_pp piece), SV, map_map; reflexivity). rewrite E. apply NoDup_map_on; [exact ND|]. intros x y X Y EQ. rewrite !V1 in EQ by auto. apply gp_inj; auto. }
      assert (OK : Forall (item_ok (List.concat C)) its).
      { apply Forall_forall. intros i I. destruct (FIND i I) as (s & S1 & S2 & S3). unfold item_ok. rewrite S2. rewrite (v_plen s S3), (V3 s S3), (g_pl s S3).
        pose proof (g_pl s S3) as GP. split; [reflexivity|]. split; [lia|]. split.
        - intros Z. exfalso. rewrite Z in GP. apply (g_non s S3). apply pl_zero. apply N2Z.inj. rewrite GP. reflexivity.
        - split; [apply V2; exact S3|]. rewrite Forall_forall in PAT, ONE. split; [apply PAT; exact I|]. rewrite (ONE i I). lia. }
      assert (INE : its <> []) by (intros X; rewrite X in LI; cbn [length] in LI; lia).
      assert (CL : forall s, In s ss -> csize its (IT (Vf s) [] []) = Z.of_nat (length (of_length (length s) ss))).
      { intros s I. unfold csize. cbn [it_pp]. f_equal. rewrite (length_filter_map _ _ (fun p => Z.eqb (plen (Vf s)) (plen p)) it_pp), SV, <- length_filter_map. unfold of_length. f_equal. apply filter_ext_in. intros t T.
        rewrite (v_plen s (F' s I)), (v_plen t (F' t T)). destruct (Nat.eqb_spec (length t) (length s)) as [Q|Q]; [apply Z.eqb_eq|apply Z.eqb_neq]; lia. }
      destruct (lf_exact mcn M2 level L1 (List.concat C) its INE OK NDP ONE) as (m & d4 & bks & d5 & Hm & E1 & E2 & WILD & SPEC); [rewrite LI; exact L|].
      exists d4, bks, d5.
      assert (CONV : forall (f : Cluster.item -> cls * str * str) (g : str -> cls * str * str),
         (forall i s, In s ss -> it_pp i = Vf s -> f i = g s) -> map f its = map g ss).
      { intros f g FG. revert SV FG. clear. revert ss. induction its as [|i l IH]; intros [|s ss] E FG; try discriminate; [reflexivity|].
        cbn [map] in *. inversion E as [[E1 E2]]. rewrite (FG i s) by (auto; left; reflexivity). f_equal. apply IH; [exact E2|].
        intros. apply FG; [right|]; assumption. }
      assert (KEYS : Permutation (map fst (dgroup Z.eqb (fun i => plen (it_pp i)) (fun i => i) its)) (map (fun n => Z.of_nat n + K)%Z (lengths ss))).
      { apply NoDup_Permutation.
        - apply dgroup_NoDup. apply Z.eqb_eq.
        - apply FinFun.Injective_map_NoDup; [|apply NoDup_nodup]. intros a b H. lia.
        - intros z. rewrite (dgroup_keys Z.eqb Z.eqb_eq), <- (map_map it_pp plen), SV, map_map, !in_map_iff. split.
          + intros (s & A & B). exists (length s). rewrite <- (v_plen s (F' s B)). split; [exact A|]. apply in_lengths. exists s. auto.
          + intros (n & A & B). apply in_lengths in B. destruct B as (s & B & <-). exists s. rewrite (v_plen s (F' s B)). auto. }
      assert (NB : length (buckets its) = length (lengths ss)).
      { unfold buckets. rewrite map_length, <- (map_length fst). rewrite (Permutation_length KEYS), map_length. reflexivity. }
      assert (MB : m = Z.of_nat (largest ss)).
      { assert (BC : forall b i s, In b (buckets its) -> In i b -> In s ss -> it_pp i = Vf s -> lb_count b = Z.of_nat (length (of_length (length s) ss))).
        { intros b i s IB II IS EI. rewrite (ones level L1 b).
          - rewrite (bucket_of its b i IB II). pose proof (CL s IS) as X. unfold csize in X. cbn [it_pp] in X. rewrite <- X, EI. reflexivity.
          - destruct (bucket_in _ _ IB) as (_ & n & ->). apply Forall_forall. intros j J. apply filter_In in J. rewrite Forall_forall in ONE. apply ONE. apply J. }
        destruct (max_count_spec _ _ Hm) as [IM GM]. rewrite Forall_forall in GM. apply in_map_iff in IM. destruct IM as (b & EB & IB).
        assert (SNE : ss <> []) by (intros X; rewrite X in L; cbn [length] in L; lia).
        apply Z.le_antisymm.
        - destruct (bucket_in _ _ IB) as (NB' & n & QB). destruct b as [|i b]; [congruence|]. assert (II : In i its) by (assert (X : In i (i :: b)) by (left; reflexivity); rewrite QB in X; apply filter_In in X; apply X).
          destruct (FIND i II) as (s & S1 & S2 & S3). rewrite <- EB, (BC (i :: b) i s IB (or_introl eq_refl) S1 S2). apply inj_le, largest_ge. exact S1.
        - destruct (largest_in ss SNE) as (s & S1 & ->).
          assert (X : exists i, In i its /\ it_pp i = Vf s). { assert (Y : In (Vf s) (map it_pp its)) by (rewrite SV; apply in_map; exact S1). apply in_map_iff in Y. destruct Y as (i & A & B). exists i. auto. }
          destruct X as (i & I1 & I2). pose proof (buckets_perm its) as BP. eapply Permutation_in in I1; [|symmetry; exact BP]. apply in_concat in I1. destruct I1 as (b' & J1 & J2).
          rewrite <- (BC b' i s J1 J2 S1 I2). apply GM. apply in_map. exact J1. }
      assert (PCE : forall i s, In s ss -> it_pp i = Vf s -> it_piece i = Pc (G s)) by (intros i s I X; unfold it_piece; rewrite X; apply V1; auto).
      rewrite NB, LI, MB in WILD, SPEC. unfold okind. rewrite (proj2 (Z.ltb_ge _ _) L). unfold mixb.
      assert (WW : forall w, wildcard_rule (List.concat C) = Ok w -> Permutation (d4 ++ d5) (map (fun i => (CFuzzy, it_piece i, w)) its) -> Permutation (d4 ++ d5) (map (fun s => (CFuzzy, Pc (G s), pstr (G s) KWild)) ss)).
      { intros w W1 W2. rewrite W2. erewrite CONV; [apply Permutation_refl|]. intros i s I X. rewrite (PCE i s I X).
        unfold wildcard_rule in W1. rewrite specify_rule_unit in W1. cbn [Z.eqb Z.ltb Z.compare] in W1. inversion W1. cbn [pstr]. rewrite (g_cset s (F' s I)). reflexivity. }
      destruct (Z.leb_spec mcn (Z.of_nat (length (lengths ss)))) as [Q|Q]; cbn [orb].
      + destruct (WILD (or_introl Q)) as (w & W1 & W2). exists CFuzzy. split; [exact E1|]. split; [exact E2|]. apply (WW w); assumption.
      + destruct (confused (Z.of_nat (length ss)) (Z.of_nat (largest ss)) mcn) eqn:CF.
        * destruct (WILD (or_intror eq_refl)) as (w & W1 & W2). exists CFuzzy. split; [exact E1|]. split; [exact E2|]. apply (WW w); assumption.
        * exists CLength. split; [exact E1|]. split; [exact E2|]. rewrite (SPEC ltac:(lia) eq_refl). erewrite CONV; [apply Permutation_refl|]. intros i s I X. rewrite (PCE i s I X).
          assert (CS : csize its i = Z.of_nat (length (of_length (length s) ss))) by (rewrite <- (CL s I); unfold csize; rewrite X; reflexivity). rewrite CS.
          destruct (mcn <=? Z.of_nat (length (of_length (length s) ss)))%Z; [|reflexivity]. f_equal. unfold spec_of. rewrite X. pose proof (F' s I) as O.
          rewrite (v_plen s O), <- (g_pl s O), specify_rule_unit.
          assert (0 < TokProofs.pl (G s))%N. { destruct (TokProofs.pl (G s)) eqn:Z0; [|lia]. exfalso. apply (g_non s O). apply pl_zero. exact Z0. }
          destruct (Z.eqb_spec (Z.of_N (TokProofs.pl (G s))) 0); [lia|]. destruct (Z.ltb_spec (Z.of_N (TokProofs.pl (G s))) 0); [lia|]. cbn [pstr]. rewrite (g_cset s O), N2Z.id. reflexivity.
    Qed.
  End St.
End Fam.
