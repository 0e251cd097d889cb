(** One level whose pieces are single runs: exactly what it is given (C52). *)
From Coq Require Import String.
From Verif Require Import PyStr Defs UrlLib ParseUtils Views Trees Cluster Spec Patterns Matcher Maker Observe MatchSpec OneSpec PyStrProofs DefsProofs DictProofs RegexProofs PieceProofs LengthProofs BridgeProofs GroupProofs TreeProofs TokProofs LengthStage PieceStage EntProofs GenCluster FlatCluster.
From Coq Require Import Lia Permutation.

(** *** groups *)
Lemma dgroup_distinct : forall X V (key : X -> str) (val : X -> V) l, NoDup (map key l) -> dgroup str_eqb key val l = map (fun x => (key x, [val x])) l.
Proof.
  intros X V key val l. induction l as [|x l IH] using rev_ind; intros N; [reflexivity|]. rewrite map_app in N. cbn [map] in N. pose proof (NoDup_app_l _ _ _ N) as N1.
  assert (NI : ~ In (key x) (map key l)). { apply NoDup_remove_2 in N. rewrite app_nil_r in N. exact N. }
  rewrite dgroup_snoc, IH by exact N1. assert (G : dget str_eqb (key x) (map (fun x => (key x, [val x])) l) = None).
  { apply (dget_none str_eqb str_eqb_iff). rewrite map_map. exact NI. }
  rewrite G. cbn [dstep]. rewrite dset_append by exact G. rewrite map_app. reflexivity.
Qed.
Lemma dgroup_const : forall X V (key : X -> str) (val : X -> V) k l, l <> [] -> (forall x, In x l -> key x = k) -> dgroup str_eqb key val l = [(k, map val l)].
Proof.
  intros X V key val k l. induction l as [|x l IH] using rev_ind; intros N K; [congruence|]. rewrite dgroup_snoc. rewrite (K x) by (apply in_app_iff; right; left; reflexivity).
  destruct l as [|y l]; [reflexivity|]. rewrite IH; [|discriminate|intros z Z; apply K; apply in_app_iff; left; exact Z]. cbn [dget dset]. rewrite str_eqb_refl. cbn [dstep]. rewrite map_app. reflexivity.
Qed.
Lemma no_view : forall c (l : list (dest * Cluster.item)), (forall di, In di l -> fst di = DLength) -> to_view c l = [].
Proof. intros c l. induction l as [|[d i] l IH]; intros H; [reflexivity|]. cbn [to_view flat_map]. rewrite (H (d, i)) by (left; reflexivity). cbn [fst app]. apply IH. intros x X. apply H. right. exact X. Qed.

Section L.
  Context (mcn : Z) (M2 : (2 <= mcn)%Z) (inner : nat -> bool -> tree -> res (list tree)) (level : nat) (ll lp kw : bool).
  Lemma fuzzy_nil : fuzzy_stage mcn [] = Ok [].
  Proof. unfold fuzzy_stage, fuzzy_end. cbn [foldM bind zsum fold_right map]. destruct (0 <? mcn)%Z eqn:Z0; [reflexivity|]. apply Z.ltb_ge in Z0. lia. Qed.
  (** all nodes have one piece *)
  Lemma const_level : forall ns k, ns <> [] -> (forall n, In n ns -> pn_piece n = k) -> run_level mcn inner level ll lp kw ns = Ok [(CPiece, k, k)].
  Proof.
    intros ns k N K. unfold run_level, piece_stage. rewrite group_nodes_eq. unfold bags. rewrite (dgroup_const _ _ pn_piece (fun n => n) k ns N K), map_id.
    assert (E : piece_bags mcn level ll lp kw [(k, ns)] = Ok ([(CPiece, k, k)], [])).
    { unfold piece_bags. cbn [is_nil map fst snd length]. destruct (ll && kw); [reflexivity|]. destruct (Z.of_nat 1 <? mcn)%Z eqn:L; [|apply Z.ltb_ge in L; lia].
      cbn [max_count fold_left bind zsum fold_right]. rewrite Z.add_0_r, confused_self by exact M2. reflexivity. }
    assert (MS : forall c, multi_stage mcn inner lp c [] = Ok ([], [])) by reflexivity.
    rewrite E. cbn [bind to_view flat_map app]. rewrite MS. cbn [bind app to_view flat_map]. rewrite MS. cbn [bind app to_view flat_map]. rewrite MS. cbn [bind app to_length flat_map].
    change (length_stage mcn level []) with (@Ok (done * list (list Cluster.item)) ([], [])). cbn [bind]. rewrite fuzzy_nil. reflexivity.
  Qed.
  Lemma const_next : forall ns k, ns <> [] -> (forall n, In n ns -> pn_piece n = k) -> next_groups [(k, k)] ns = [(k, List.concat (map pn_kids ns))].
  Proof.
    intros ns k N K. unfold next_groups, next_bags. rewrite group_nodes_eq. unfold bags. rewrite (dgroup_const _ _ pn_piece (fun n => n) k ns N K), map_id. cbn [flat_map snd]. rewrite app_nil_r.
    rewrite (dapp_dgroup pnode (list pnode) (fun n => node_pattern [(k, k)] (pn_tree n)) pn_kids ns). rewrite (dgroup_const _ _ _ _ k ns N); [reflexivity|].
    intros n I. unfold node_pattern. cbn [dget]. specialize (K n I). unfold pn_piece in K. rewrite K, str_eqb_refl. reflexivity.
  Qed.

  (** *** the length and fuzzy clusters on bags of one URL each *)
  Section LF.
    Context (L1 : (1 <= level)%nat) (F : str).
    Notation pli i := (plen (it_pp i)).
    Notation lac := (lac mcn). Notation bpat := (bpat).
    Definition spec_of (i : Cluster.item) : str := match specify_rule F (pli i) with Ok p => p | Err _ => [] end.
    Definition csize (l : list Cluster.item) (i : Cluster.item) : Z := Z.of_nat (length (filter (fun j => Z.eqb (pli i) (pli j)) l)).
    Lemma ones : forall l : list Cluster.item, Forall (fun i => it_count i = 1%Z) l -> lb_count l = Z.of_nat (length l).
    Proof. intros l H. unfold lb_count. induction H as [|i l E H IH]; [reflexivity|]. cbn [map zsum fold_right length]. change (fold_right Z.add 0%Z (map it_count l)) with (zsum (map it_count l)). rewrite IH, E. lia. Qed.
    Lemma lac_ones : forall b, Forall (fun i => it_count i = 1%Z) b -> lac b = (mcn <=? Z.of_nat (length b))%Z.
    Proof.
      intros b O. unfold LengthStage.lac, length_as_cluster. rewrite (ones b O). destruct (Z.of_nat (length b) <? mcn)%Z eqn:E.
      - apply Z.ltb_lt in E. symmetry. apply Z.leb_gt. exact E.
      - apply Z.ltb_ge in E. symmetry. apply Z.leb_le. exact E.
    Qed.
    Lemma bucket_of : forall l b i, In b (buckets l) -> In i b -> b = filter (fun j => Z.eqb (pli i) (pli j)) l.
    Proof.
      intros l b i B I. destruct (bucket_in l b B) as (_ & n & E). rewrite E in I. apply filter_In in I. destruct I as [_ I]. apply Z.eqb_eq in I. rewrite E, I. reflexivity.
    Qed.
    Lemma lf_exact : forall l, l <> [] -> Forall (item_ok F) l -> NoDup (map it_piece l) -> Forall (fun i => it_count i = 1%Z) l -> (mcn <= Z.of_nat (length l))%Z ->
      exists m d4 bs d5, max_count (map lb_count (buckets l)) = Ok m /\ length_stage mcn level l = Ok (d4, bs) /\ fuzzy_stage mcn bs = Ok d5 /\
        ((mcn <= Z.of_nat (length (buckets l)))%Z \/ confused (Z.of_nat (length l)) m mcn = true ->
           exists w, wildcard_rule F = Ok w /\ Permutation (d4 ++ d5) (map (fun i => (CFuzzy, it_piece i, w)) l)) /\
        (~ (mcn <= Z.of_nat (length (buckets l)))%Z -> confused (Z.of_nat (length l)) m mcn = false ->
           Permutation (d4 ++ d5) (map (fun i => (CLength, it_piece i, if (mcn <=? csize l i)%Z then spec_of i else it_piece i)) l)).
    Proof.
      intros l NE FA ND ON TOTM. unfold length_stage. rewrite (len_fold F) by assumption. cbn [bind]. fold (buckets l).
      pose proof (buckets_perm l) as BP.
      assert (BNE : buckets l <> []) by (intros E; apply NE; apply buckets_nil; exact E).
      assert (BNB : forall b, In b (buckets l) -> b <> []) by (intros b I; apply (bucket_in l b I)).
      assert (BON : forall b, In b (buckets l) -> Forall (fun i => it_count i = 1%Z) b).
      { intros b I. destruct (bucket_in l b I) as (_ & n & ->). rewrite Forall_forall in *. intros i J. apply filter_In in J. apply ON. apply J. }
      destruct (max_count_ok (map lb_count (buckets l))) as [m Hm]. { intros E. apply map_eq_nil in E. auto. }
      assert (TOT : zsum (map lb_count (buckets l)) = Z.of_nat (length l)).
      { rewrite <- lb_concat, (lb_count_perm _ _ BP). apply ones. exact ON. }
      exists m.
      assert (LOOP : ((mcn <= Z.of_nat (length (buckets l)))%Z \/ confused (Z.of_nat (length l)) m mcn = true) ->
        exists d4 bs d5 w, (r <- mapM (length_one mcn level) (buckets l) ;; Ok (List.concat (lefts r), rights r)) = Ok (d4, bs)
          /\ fuzzy_stage mcn bs = Ok d5 /\ wildcard_rule F = Ok w /\ Permutation (d4 ++ d5) (map (fun i => (CFuzzy, it_piece i, w)) l)).
      { intros C.
        set (g := fun b => if lac b then map (set_pat (bpat b)) b else b).
        rewrite (mapM_pure _ _ _ (fun b => inr (g b))).
        2: { intros b I. unfold length_one. rewrite (lac_eq mcn M2 level L1 F). cbn [bind]. unfold g. destruct (lac b) eqn:Y; [|reflexivity].
             rewrite pre_seek_false by exact L1. cbn [bind]. rewrite (bpat_eq mcn M2 level L1 F l) by assumption. reflexivity. }
        cbn [bind].
        assert (LR : forall bs, List.concat (lefts (map (fun b => @inr done (list Cluster.item) (g b)) bs)) = []
                 /\ rights (map (fun b => @inr done (list Cluster.item) (g b)) bs) = map g bs).
        { induction bs as [|b bs [IH1 IH2]]; [split; reflexivity|]. cbn [map lefts rights]. rewrite IH2. auto. }
        destruct (LR (buckets l)) as [LR1 LR2]. rewrite LR1, LR2. clear LR LR1 LR2.
        assert (GC : forall b, lb_count (g b) = lb_count b).
        { intros b. unfold g. destruct (lac b); [|reflexivity]. unfold lb_count. rewrite map_map. reflexivity. }
        assert (GCM : map lb_count (map g (buckets l)) = map lb_count (buckets l)) by (rewrite map_map; apply map_ext; exact GC).
        destruct (wildcard_ok F) as [w W].
        destruct (fuzzy_wild mcn M2 level L1 F (map g (buckets l)) w W) as (d5 & D1 & D2).
        - intros E. apply map_eq_nil in E. auto.
        - intros b I. apply in_map_iff in I. destruct I as (b0 & I1 & I2). subst b. unfold g. apply BNB in I2.
          destruct (lac b0); [|exact I2]. intros E. apply map_eq_nil in E. auto.
        - intros i I. apply in_concat in I. destruct I as (b & I1 & I2). apply in_map_iff in I1.
          destruct I1 as (b0 & I1 & I3). subst b. pose proof (bucket_ok F l b0 FA I3) as OK. rewrite Forall_forall in OK.
          unfold g in I2. destruct (lac b0).
          + apply in_map_iff in I2. destruct I2 as (i0 & I2 & I4). subst i. apply OK in I4. cbn [set_pat it_pp]. apply I4.
          + apply OK in I2. apply I2.
        - rewrite map_length, GCM, TOT. destruct C as [C|C]; [left; exact C|]. right. split; [exact TOTM|]. exists m. auto.
        - exists [], (map g (buckets l)), d5, w. split; [reflexivity|]. split; [exact D1|]. split; [exact W|]. cbn [app].
          apply (Permutation_trans D2).
          assert (Q : map (fun i => (CFuzzy, it_piece i, w)) (List.concat (map g (buckets l))) = map (fun i => (CFuzzy, it_piece i, w)) (List.concat (buckets l))).
          { rewrite !concat_map, map_map. f_equal. apply map_ext. intros b. unfold g. destruct (lac b); [|reflexivity]. rewrite map_map. reflexivity. }
          rewrite Q. apply Permutation_map. exact BP. }
      destruct (is_nil (buckets l)) eqn:E0; [destruct (buckets l); [congruence|discriminate]|]. clear E0.
      destruct (Z.of_nat (length (buckets l)) <? mcn)%Z eqn:E1.
      2: { apply Z.ltb_ge in E1. destruct (LOOP (or_introl E1)) as (d4 & bs & d5 & w & X1 & X2 & X3 & X4). exists d4, bs, d5. split; [exact Hm|]. split; [exact X1|]. split; [exact X2|].
           split; [intros _; exists w; auto|]. intros X. lia. }
      apply Z.ltb_lt in E1. rewrite Hm. cbn [bind]. rewrite TOT. destruct (confused (Z.of_nat (length l)) m mcn) eqn:CF; cbn [negb].
      { destruct (LOOP (or_intror eq_refl)) as (d4 & bs & d5 & w & X1 & X2 & X3 & X4). exists d4, bs, d5. split; [reflexivity|]. split; [exact X1|]. split; [exact X2|].
        split; [intros _; exists w; auto|discriminate]. }
      clear LOOP.
      set (g := fun b => if lac b then finish CLength (map (set_pat (bpat b)) b) else finish CLength b).
      rewrite (mapM_pure _ _ _ g).
      2: { intros b I. unfold length_final. rewrite (lac_eq mcn M2 level L1 F). cbn [bind]. unfold g. destruct (lac b) eqn:Y; [|reflexivity].
           rewrite (bpat_eq mcn M2 level L1 F l) by assumption. reflexivity. }
      cbn [bind]. exists (List.concat (map g (buckets l))), [], []. split; [reflexivity|]. split; [reflexivity|]. split; [apply fuzzy_nil|].
      rewrite app_nil_r. split; [intros [X|X]; [lia|discriminate]|]. intros _ _.
      apply Permutation_trans with (map (fun i => (CLength, it_piece i, if (mcn <=? csize l i)%Z then spec_of i else it_piece i)) (List.concat (buckets l))).
      2: { apply Permutation_map. exact BP. }
      rewrite concat_map.
      assert (MQ : map g (buckets l) = map (map (fun i => (CLength, it_piece i, if (mcn <=? csize l i)%Z then spec_of i else it_piece i))) (buckets l)); [|rewrite MQ; apply Permutation_refl].
      apply map_ext_in. intros b I. unfold g. rewrite (lac_ones b (BON b I)).
      assert (CS : forall i, In i b -> csize l i = Z.of_nat (length b)).
      { intros i J. unfold csize. rewrite <- (bucket_of l b i I J). reflexivity. }
      destruct (mcn <=? Z.of_nat (length b))%Z eqn:Y.
      - rewrite finish_set. apply map_ext_in. intros x X. rewrite (CS x X), Y. f_equal. apply Z.leb_le in Y.
        destruct (length_pattern_ok level L1 F b x) as (p & P1 & P2 & P3).
        + eapply bucket_ok; eauto. + lia. + eapply NoDup_bucket; eauto.
        + intros j J. rewrite (bucket_of l b x I X) in J. apply filter_In in J. destruct J as [_ J]. apply Z.eqb_eq in J. congruence.
        + unfold LengthStage.bpat, spec_of. rewrite P1, P2. reflexivity.
      - rewrite finish_lit with (F := F) by (eapply bucket_ok; eauto). apply map_ext_in. intros x X. rewrite (CS x X), Y. reflexivity.
    Qed.
  End LF.
End L.

(** *** texts of one space *)
Definition one_sp (r s : str) : Prop := s <> [] /\ Forall (fun c => char_rule c = Some r) s.
Lemma one_runs : forall r s, one_sp r s -> runs s = [(r, s)].
Proof.
  intros r s [N F]. induction F as [|c s E F IH]; [congruence|]. cbn [runs]. rewrite E. destruct s as [|d s]; [reflexivity|]. rewrite IH by discriminate. rewrite str_eqb_refl. reflexivity.
Qed.
Lemma one_legal : forall r s, one_sp r s -> all_legal s.
Proof. intros r s [_ F]. eapply Forall_impl; [|exact F]. intros c E. cbn beta in E. exists r; exact E. Qed.
Lemma one_cset : forall r s, one_sp r s -> cset s = [r].
Proof. intros r s H. unfold cset, pp_of. cbn [rules]. rewrite (one_runs r s H). reflexivity. Qed.
Lemma one_pl : forall r s, one_sp r s -> Z.of_N (TokProofs.pl s) = (Z.of_nat (length s) + bs r)%Z.
Proof.
  intros r s [N F]. unfold TokProofs.pl. rewrite nat_N_Z, Nat2Z.inj_add. f_equal. pose proof (bs_starts_run s r [] false N F (fun _ => eq_refl)) as X. rewrite app_nil_r in X. rewrite X. cbn [backslash_runs]. lia.
Qed.
Lemma one_plen : forall r s, one_sp r s -> plen (pp_of s) = (Z.of_nat (length s) + bs r)%Z.
Proof. intros r s H. unfold plen. rewrite piece_length_spec by (eapply one_legal; exact H). rewrite <- (one_pl r s H). unfold TokProofs.pl. rewrite nat_N_Z. reflexivity. Qed.

(** *** the lengths *)
Lemma in_lengths : forall ss n, In n (lengths ss) <-> exists s, In s ss /\ length s = n.
Proof. intros ss n. unfold lengths. rewrite nodup_In, in_map_iff. split; intros (s & A & B); exists s; auto. Qed.
Lemma fold_max_spec : forall l, (forall x, In x l -> x <= fold_right Nat.max 0 l) /\ (l <> [] -> In (fold_right Nat.max 0 l) l).
Proof.
  induction l as [|a l [IH1 IH2]]; [split; [intros x []|congruence]|]. cbn [fold_right]. split.
  - intros x [->|I]; [lia|]. specialize (IH1 x I). lia.
  - intros _. destruct l as [|b l]; [left; cbn; lia|]. specialize (IH2 ltac:(discriminate)). destruct (Nat.max_spec a (fold_right Nat.max 0 (b :: l))) as [[_ ->]|[_ ->]]; [right; exact IH2|left; reflexivity].
Qed.
Lemma largest_ge : forall ss s, In s ss -> length (of_length (length s) ss) <= largest ss.
Proof. intros ss s I. unfold largest. apply (proj1 (fold_max_spec _)). apply in_map_iff. exists (length s). split; [reflexivity|]. apply in_lengths. exists s. auto. Qed.
Lemma largest_in : forall ss, ss <> [] -> exists s, In s ss /\ largest ss = length (of_length (length s) ss).
Proof.
  intros ss N. assert (NE : map (fun n => length (of_length n ss)) (lengths ss) <> []).
  { destruct ss as [|s ss]; [congruence|]. intros E. apply map_eq_nil in E. assert (Y : In (length s) (lengths (s :: ss))) by (apply in_lengths; exists s; split; [left|]; reflexivity). rewrite E in Y. destruct Y. }
  pose proof (proj2 (fold_max_spec _) NE) as X. fold (largest ss) in X. apply in_map_iff in X. destruct X as (n & E & I). apply in_lengths in I. destruct I as (s & I & <-). exists s. auto.
Qed.
Lemma of_length_perm : forall n a b, Permutation a b -> Permutation (of_length n a) (of_length n b).
Proof.
  intros n a b P. unfold of_length. induction P as [|x a b P IH|x y a|a b c P1 IH1 P2 IH2]; cbn [filter].
  - constructor.
  - destruct (length x =? n); [constructor|]; exact IH.
  - destruct (length x =? n), (length y =? n); try apply Permutation_refl. constructor.
  - exact (perm_trans IH1 IH2).
Qed.
Lemma lengths_perm : forall a b, Permutation a b -> length (lengths a) = length (lengths b).
Proof.
  intros a b P. apply Permutation_length. apply NoDup_Permutation; [apply NoDup_nodup|apply NoDup_nodup|]. intros n. rewrite !in_lengths. split; intros (s & A & B); exists s; (split; [|exact B]); [eapply Permutation_in; eassumption|eapply Permutation_in; [symmetry; exact P|exact A]].
Qed.
Lemma largest_perm : forall a b, Permutation a b -> largest a = largest b.
Proof.
  assert (X : forall a b, Permutation a b -> largest a <= largest b).
  { intros a b P. destruct a as [|x a]; [cbn; lia|]. destruct (largest_in (x :: a) ltac:(discriminate)) as (s & I & ->). rewrite (Permutation_length (of_length_perm (length s) _ _ P)). apply largest_ge. eapply Permutation_in; eassumption. }
  intros a b P. apply Nat.le_antisymm; apply X; [exact P|symmetry; exact P].
Qed.

(** *** the pattern of a text *)
Section K.
  Context (mcn : Z).
  Definition mixb (ss : list str) : bool := ((mcn <=? Z.of_nat (length (lengths ss))) || confused (Z.of_nat (length ss)) (Z.of_nat (largest ss)) mcn)%Z%bool.
  Definition okind (ss : list str) (s : str) : kind1 :=
    if (Z.of_nat (length ss) <? mcn)%Z then KLit else if mixb ss then KWild else if (mcn <=? Z.of_nat (length (of_length (length s) ss)))%Z then KSpec else KLit.
  Lemma okind_perm : forall a b s, Permutation a b -> okind a s = okind b s.
  Proof.
    intros a b s P. unfold okind, mixb. rewrite (Permutation_length P), (lengths_perm a b P), (largest_perm a b P), (Permutation_length (of_length_perm (length s) a b P)). reflexivity.
  Qed.
End K.

(** *** the level where the texts differ *)
Lemma length_filter_map : forall A B (f : B -> bool) (g : A -> B) l, length (filter (fun x => f (g x)) l) = length (filter f (map g l)).
Proof. intros A B f g l. induction l as [|x l IH]; [reflexivity|]. cbn [map filter]. destruct (f (g x)); cbn [length]; congruence. Qed.
Section Fan.
  Context (mcn : Z) (M2 : (2 <= mcn)%Z) (inner : nat -> bool -> tree -> res (list tree)) (level : nat) (ll lp : bool) (L1 : (1 <= level)%nat) (r : str).
  Lemma fan_items : forall ns ss, NoDup ss -> Forall (one_sp r) ss -> map (fun n => t_val (pn_tree n)) ns = map pp_of ss ->
    bags ns = map (fun n => (pn_piece n, [n])) ns.
  Proof.
    intros ns ss ND F E. unfold bags. apply dgroup_distinct. unfold pn_piece, t_piece.
    assert (X : map (fun n => piece (t_val (pn_tree n))) ns = map (fun s => piece (pp_of s)) ss) by (rewrite <- (map_map (fun n => t_val (pn_tree n)) piece), E, map_map; reflexivity).
    change (NoDup (map (fun n => piece (t_val (pn_tree n))) ns)). rewrite X. clear - ND F. induction ND as [|s ss N ND IH]; [constructor|]. inversion F; subst. cbn [map]. constructor; [|auto].
    intros I. apply in_map_iff in I. destruct I as (t & I1 & I2). rewrite Forall_forall in H2. apply piece_inj in I1; [|eapply one_legal; eauto..]. subst. auto.
  Qed.
  Lemma piece_stage_fan : forall ns ss, ns <> [] -> NoDup ss -> Forall (one_sp r) ss -> map (fun n => t_val (pn_tree n)) ns = map pp_of ss -> Forall (fun n => pn_cnt n = 1%Z) ns ->
    piece_stage mcn level ll lp false ns = if (Z.of_nat (length ss) <? mcn)%Z then Ok (literal ns, []) else Ok ([], passed mcn lp ns).
  Proof.
    intros ns ss NE ND F E C1. unfold piece_stage. rewrite group_nodes_eq. unfold piece_bags.
    assert (LB : length (bags ns) = length ss) by (rewrite (fan_items ns ss ND F E), map_length, <- (map_length (fun n => t_val (pn_tree n)) ns), E, map_length; reflexivity).
    assert (BN : is_nil (bags ns) = false). { rewrite (fan_items ns ss ND F E). destruct ns; [congruence|reflexivity]. }
    rewrite BN, andb_false_r, LB.
    assert (CC : map (fun kb : str * bag => bag_count (snd kb)) (bags ns) = repeat 1%Z (length (bags ns))).
    { rewrite (fan_items ns ss ND F E), map_map, map_length. cbn [snd]. clear - C1. induction C1 as [|n ns H C1 IH]; [reflexivity|]. cbn [map length repeat snd]. rewrite IH. f_equal. unfold bag_count. cbn [map zsum fold_right]. rewrite H. reflexivity. }
    destruct (Z.of_nat (length ss) <? mcn)%Z eqn:L.
    - rewrite CC. assert (ZS : forall n, zsum (repeat 1%Z n) = Z.of_nat n) by (induction n as [|n IH]; [reflexivity|]; cbn [repeat zsum fold_right]; change (fold_right Z.add 0%Z (repeat 1%Z n)) with (zsum (repeat 1%Z n)); lia).
      destruct (max_count_ok (repeat 1%Z (length (bags ns)))) as [m Hm]. { rewrite LB. destruct ss; [|discriminate]. destruct ns; [congruence|discriminate E]. }
      rewrite Hm. cbn [bind]. rewrite ZS, LB. unfold confused. rewrite L. cbn [negb]. rewrite literal_eq. reflexivity.
    - rewrite (mapM_pure _ _ _ (fun kb => inr (dest_piece mcn lp (first_val (snd kb)), IT (first_val (snd kb)) (fst kb) (snd kb)))).
      2: { intros [k b] I. unfold piece_one. cbn [fst snd]. assert (X : bag_count b = 1%Z). { apply (in_map (fun kb : str * bag => bag_count (snd kb))) in I. rewrite CC in I. apply repeat_spec in I. exact I. }
           rewrite X. destruct (1 <? mcn)%Z eqn:L'; [|apply Z.ltb_ge in L'; lia]. cbn [bind]. unfold piece_item. cbn [snd fst]. destruct b as [|n b]; [discriminate X|]. reflexivity. }
      cbn [bind]. unfold passed, items. rewrite map_map. do 2 f_equal.
      + clear; induction (bags ns) as [|x l IH]; [reflexivity|exact IH].
      + clear; induction (bags ns) as [|x l IH]; [reflexivity|]. cbn [map rights]. f_equal. exact IH.
  Qed.
  Lemma fan_level : forall ns ss, ns <> [] -> NoDup ss -> Forall (one_sp r) ss -> Permutation (map (fun n => t_val (pn_tree n)) ns) (map pp_of ss) -> Forall (fun n => pn_cnt n = 1%Z) ns ->
    exists dn, run_level mcn inner level ll lp false ns = Ok dn /\ forall s, In s ss -> dget str_eqb (piece (pp_of s)) (pattern_map dn) = Some (pstr s (okind mcn ss s)).
  Proof.
    intros ns ss' NE ND' F' PE C1. destruct (Permutation_map_inv _ _ PE) as (ss & E & P). symmetry in P.
    assert (ND : NoDup ss) by (eapply Permutation_NoDup; [symmetry; exact P|exact ND']).
    assert (F : Forall (one_sp r) ss) by (eapply Permutation_Forall; [symmetry; exact P|exact F']).
    enough (G : exists dn c, run_level mcn inner level ll lp false ns = Ok dn /\ Permutation dn (map (fun s => (c, piece (pp_of s), pstr s (okind mcn ss s))) ss)).
    { destruct G as (dn & c & R & Q). exists dn. split; [exact R|]. intros s I. rewrite <- (okind_perm mcn ss ss' s P). apply dget_in; [exact str_eqb_iff| |].
      - unfold pattern_map. rewrite map_map. cbn [fst].
        apply (Permutation_NoDup (l := map (fun s => piece (pp_of s)) ss)).
        + symmetry. rewrite Q, map_map. cbn [fst snd]. apply Permutation_refl.
        + clear - ND F. induction ND as [|s ss N ND IH]; [constructor|]. inversion F; subst. cbn [map]. constructor; [|auto].
          intros I. apply in_map_iff in I. destruct I as (t & I1 & I2). rewrite Forall_forall in H2. apply piece_inj in I1; [|eapply one_legal; eauto..]. subst. auto.
      - unfold pattern_map. apply in_map_iff. exists (c, piece (pp_of s), pstr s (okind mcn ss s)). split; [reflexivity|].
        eapply Permutation_in; [symmetry; exact Q|]. apply in_map_iff. exists s. split; [reflexivity|]. eapply Permutation_in; [symmetry; exact P|exact I]. }
    clear ss' ND' F' PE P.
    assert (SV : map it_pp (items ns) = map pp_of ss).
    { unfold items. rewrite (fan_items ns ss ND F E), !map_map. cbn [fst snd first_val it_pp]. exact E. }
    assert (PIECES : map it_piece (items ns) = map (fun s => piece (pp_of s)) ss).
    { unfold it_piece. rewrite <- (map_map it_pp piece), SV, map_map. reflexivity. }
    assert (LI : length (items ns) = length ss) by (rewrite <- (map_length it_pp), SV, map_length; reflexivity).
    assert (MS : forall c, multi_stage mcn inner lp c [] = Ok ([], [])) by reflexivity.
    pose proof (piece_stage_fan ns ss NE ND F E C1) as PS. destruct (Z.of_nat (length ss) <? mcn)%Z eqn:L.
    - exists (literal ns), CPiece. split.
      { unfold run_level. rewrite PS. cbn [bind to_view flat_map app]. rewrite MS. cbn [bind app to_view flat_map]. rewrite MS.
        cbn [bind app to_view flat_map]. rewrite MS. cbn [bind app to_length flat_map].
        destruct (lf_nil mcn M2 level) as (d4 & bs & d5 & E1 & E2 & E3). rewrite E1. cbn [bind]. rewrite E2. cbn [bind].
        apply app_eq_nil in E3. destruct E3 as [-> ->]. rewrite !app_nil_r. reflexivity. }
      unfold literal. rewrite <- (map_map it_piece (fun k => (CPiece, k, k))), PIECES, map_map. unfold okind. rewrite L. apply Permutation_refl.
    - apply Z.ltb_ge in L.
      assert (DL : forall i, In i (items ns) -> dest_piece mcn lp (it_pp i) = DLength).
      { intros i I. assert (Y : In (it_pp i) (map pp_of ss)) by (rewrite <- SV; apply in_map; exact I). apply in_map_iff in Y. destruct Y as (s & Y1 & Y2). rewrite <- Y1.
        rewrite Forall_forall in F. unfold dest_piece, pp_of. cbn [pieces]. rewrite (one_runs r s (F s Y2)). reflexivity. }
      assert (TV : forall c, to_view c (passed mcn lp ns) = []).
      { intros c. apply no_view. intros di I. unfold passed in I. apply in_map_iff in I. destruct I as (i & <- & I). apply DL. exact I. }
      assert (TL : to_length (passed mcn lp ns) = items ns).
      { unfold passed. clear - DL. induction (items ns) as [|i l IH]; [reflexivity|]. cbn [map to_length flat_map fst snd]. rewrite (DL i (or_introl eq_refl)). cbn [app]. f_equal. apply IH. intros j J. apply DL. right. exact J. }
      assert (POS : Forall (fun n => 0 < pn_cnt n)%Z ns) by (eapply Forall_impl; [|exact C1]; intros n H; cbn beta in H; lia).
      assert (FIND : forall i, In i (items ns) -> exists s, In s ss /\ it_pp i = pp_of s /\ one_sp r s).
      { intros i I. assert (Y : In (it_pp i) (map pp_of ss)) by (rewrite <- SV; apply in_map; exact I).
          apply in_map_iff in Y. destruct Y as (s & Y1 & Y2). exists s. rewrite Forall_forall in F. auto. }
      assert (OK : Forall (item_ok (List.concat [r])) (items ns)).
      { apply Forall_forall. intros i I. destruct (FIND i I) as (s & S1 & S2 & S3). pose proof (one_legal r s S3) as SL. unfold item_ok, plen. rewrite S2, piece_length_spec by exact SL.
        split; [reflexivity|]. split; [lia|]. split.
        - intros Z. assert (s = []) as -> by (destruct s; [reflexivity|cbn [length] in Z; lia]). unfold it_piece. rewrite S2. reflexivity.
        - split; [rewrite fuzzy_cset, (one_cset r s S3); reflexivity|]. split; [apply (items_pat ns); exact I|]. pose proof (items_count ns POS) as X. rewrite Forall_forall in X. apply X. exact I. }
      assert (INE : items ns <> []) by (intros X; apply items_nil in X; auto).
      assert (ON : Forall (fun i => it_count i = 1%Z) (items ns)).
      { unfold items. rewrite (fan_items ns ss ND F E), map_map. cbn [fst snd]. clear - C1. induction C1 as [|n ns H C1 IH]; [constructor|]. cbn [map]. constructor; [|exact IH]. unfold it_count, bag_count. cbn [it_bag map zsum fold_right]. rewrite H. reflexivity. }
      assert (CL : forall s, In s ss -> csize (items ns) (IT (pp_of s) [] []) = Z.of_nat (length (of_length (length s) ss))).
      { intros s I. unfold csize. cbn [it_pp]. f_equal. rewrite (length_filter_map _ _ (fun p => Z.eqb (plen (pp_of s)) (plen p)) it_pp), SV, <- length_filter_map. unfold of_length. f_equal. apply filter_ext_in. intros t T.
        rewrite Forall_forall in F. rewrite (one_plen r s (F s I)), (one_plen r t (F t T)). destruct (Nat.eqb_spec (length t) (length s)) as [Q|Q]; [apply Z.eqb_eq|apply Z.eqb_neq]; lia. }
      destruct (lf_exact mcn M2 level L1 (List.concat [r]) (items ns) INE OK (items_NoDup ns) ON) as (m & d4 & bks & d5 & Hm & E1 & E2 & WILD & SPEC); [rewrite LI; exact L|].
      assert (RL : run_level mcn inner level ll lp false ns = Ok (d4 ++ d5)).
      { unfold run_level. rewrite PS. cbn [bind app]. rewrite TV, MS. cbn [bind app]. rewrite app_nil_r, TV, MS.
        cbn [bind app]. rewrite app_nil_r, TV, MS. cbn [bind app]. rewrite app_nil_r, TL, E1. cbn [bind]. rewrite E2. reflexivity. }
      assert (CONV : forall (f : Cluster.item -> cls * str * str) (g : str -> cls * str * str),
         (forall i s, In s ss -> it_pp i = pp_of s -> f i = g s) -> map f (items ns) = map g ss).
      { intros f g FG. revert SV FG. clear. generalize (items ns). intros l. revert ss. induction l as [|i l IH]; intros [|s ss] E FG; try discriminate; [reflexivity|].
        cbn [map] in *. inversion E as [[E1 E2]]. rewrite (FG i s) by (auto; left; reflexivity). f_equal. apply IH; [exact E2|].
        intros. apply FG; [right|]; assumption. }
      (* the buckets are the classes of texts of one length *)
      assert (KEYS : Permutation (map fst (dgroup Z.eqb (fun i => plen (it_pp i)) (fun i => i) (items ns))) (map (fun n => Z.of_nat n + bs r)%Z (lengths ss))).
      { apply NoDup_Permutation.
        - apply dgroup_NoDup. apply Z.eqb_eq.
        - apply FinFun.Injective_map_NoDup; [|apply NoDup_nodup]. intros a b H. lia.
        - intros z. rewrite (dgroup_keys Z.eqb Z.eqb_eq), <- (map_map it_pp plen), SV, map_map, !in_map_iff. rewrite Forall_forall in F. split.
          + intros (s & A & B). exists (length s). rewrite <- (one_plen r s (F s B)). split; [exact A|]. apply in_lengths. exists s. auto.
          + intros (n & A & B). apply in_lengths in B. destruct B as (s & B & <-). exists s. rewrite (one_plen r s (F s B)). auto. }
      assert (NB : length (buckets (items ns)) = length (lengths ss)).
      { unfold buckets. rewrite map_length, <- (map_length fst). rewrite (Permutation_length KEYS), map_length. reflexivity. }
      assert (MB : m = Z.of_nat (largest ss)).
      { assert (BC : forall b i s, In b (buckets (items ns)) -> In i b -> In s ss -> it_pp i = pp_of s -> lb_count b = Z.of_nat (length (of_length (length s) ss))).
        { intros b i s IB II IS EI. rewrite (ones level L1 b).
          - rewrite (bucket_of (items ns) b i IB II). pose proof (CL s IS) as X. unfold csize in X. cbn [it_pp] in X. rewrite <- X, EI. reflexivity.
          - destruct (bucket_in _ _ IB) as (_ & n & ->). apply Forall_forall. intros j J. apply filter_In in J. rewrite Forall_forall in ON. apply ON. apply J. }
        destruct (max_count_spec _ _ Hm) as [IM GM]. rewrite Forall_forall in GM. apply in_map_iff in IM. destruct IM as (b & EB & IB).
        assert (SNE : ss <> []) by (intros ->; cbn in LI; destruct (items ns); [congruence|discriminate]).
        apply Z.le_antisymm.
        - destruct (bucket_in _ _ IB) as (NB' & n & QB). destruct b as [|i b]; [congruence|]. assert (II : In i (items ns)) by (assert (X : In i (i :: b)) by (left; reflexivity); rewrite QB in X; apply filter_In in X; apply X).
          destruct (FIND i II) as (s & S1 & S2 & S3). rewrite <- EB, (BC (i :: b) i s IB (or_introl eq_refl) S1 S2). apply inj_le, largest_ge. exact S1.
        - destruct (largest_in ss SNE) as (s & S1 & ->).
          assert (X : exists i, In i (items ns) /\ it_pp i = pp_of s). { assert (Y : In (pp_of s) (map it_pp (items ns))) by (rewrite SV; apply in_map; exact S1). apply in_map_iff in Y. destruct Y as (i & A & B). exists i. auto. }
          destruct X as (i & I1 & I2). pose proof (buckets_perm (items ns)) as BP. eapply Permutation_in in I1; [|symmetry; exact BP]. apply in_concat in I1. destruct I1 as (b' & J1 & J2).
          rewrite <- (BC b' i s J1 J2 S1 I2). apply GM. apply in_map. exact J1. }
      rewrite NB, LI, MB in WILD, SPEC. unfold okind. rewrite (proj2 (Z.ltb_ge _ _) L). unfold mixb.
      destruct (Z.leb_spec mcn (Z.of_nat (length (lengths ss)))) as [Q|Q]; cbn [orb].
      + destruct (WILD (or_introl Q)) as (w & W1 & W2). exists (d4 ++ d5), CFuzzy. split; [exact RL|]. rewrite W2. erewrite CONV; [apply Permutation_refl|]. intros i s I X. unfold it_piece. rewrite X.
        unfold wildcard_rule in W1. rewrite specify_rule_unit in W1. cbn [Z.eqb Z.ltb Z.compare] in W1. inversion W1. cbn [pstr]. rewrite Forall_forall in F. rewrite (one_cset r s (F s I)). reflexivity.
      + destruct (confused (Z.of_nat (length ss)) (Z.of_nat (largest ss)) mcn) eqn:CF.
        * destruct (WILD (or_intror eq_refl)) as (w & W1 & W2). exists (d4 ++ d5), CFuzzy. split; [exact RL|]. rewrite W2. erewrite CONV; [apply Permutation_refl|]. intros i s I X. unfold it_piece. rewrite X.
          unfold wildcard_rule in W1. rewrite specify_rule_unit in W1. cbn [Z.eqb Z.ltb Z.compare] in W1. inversion W1. cbn [pstr]. rewrite Forall_forall in F. rewrite (one_cset r s (F s I)). reflexivity.
        * exists (d4 ++ d5), CLength. split; [exact RL|]. rewrite (SPEC ltac:(lia) eq_refl). erewrite CONV; [apply Permutation_refl|]. intros i s I X. unfold it_piece. rewrite X.
          assert (CS : csize (items ns) i = Z.of_nat (length (of_length (length s) ss))) by (rewrite <- (CL s I); unfold csize; rewrite X; reflexivity). rewrite CS.
          destruct (mcn <=? Z.of_nat (length (of_length (length s) ss)))%Z; [|reflexivity]. f_equal. unfold spec_of. rewrite X. rewrite Forall_forall in F. pose proof (F s I) as O.
          rewrite (one_plen r s O), <- (one_pl r s O), specify_rule_unit.
          assert (0 < TokProofs.pl s)%N. { pose proof (one_pl r s O) as Y. destruct O as [NS _]. destruct s; [congruence|]. cbn [length] in Y. unfold bs in Y. destruct (str_eqb r BS_RULE); lia. }
          destruct (Z.eqb_spec (Z.of_N (TokProofs.pl s)) 0); [lia|]. destruct (Z.ltb_spec (Z.of_N (TokProofs.pl s)) 0); [lia|]. cbn [pstr]. rewrite (one_cset r s O), N2Z.id. reflexivity.
  Qed.
End Fan.
