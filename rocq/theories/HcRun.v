(** make() on the nodes as objects: one level. *)
From Coq Require Import String.
From Verif Require Import PyStr Defs UrlLib ParseUtils Views Trees Cluster Patterns Matcher Maker Heap HeapSpec HCluster
  PyStrProofs DefsProofs TreeProofs DictProofs LoadProofs HeapProofs HeapLoad HeapState GroupProofs HcBase HcBag HcLevel HcPaths HcStage HcLen.
From Coq Require Import Lia Permutation.

Lemma wr_id : forall ks k, In k ks -> wr (map (fun k => (k, k)) ks) k = Some k.
Proof.
  induction ks as [|x ks IH]; intros k I; [destruct I|]. cbn. destruct (wr (map (fun k => (k, k)) ks) k) eqn:E.
  - destruct (in_dec str_dec k ks) as [J|J]; [rewrite (IH k J) in E; congruence|]. rewrite wr_none in E; [discriminate|]. rewrite map_map, map_id. exact J.
  - destruct I as [->|I]; [rewrite (proj2 (str_eqb_iff k k) eq_refl); reflexivity|]. rewrite (IH k I) in E. discriminate.
Qed.
Lemma to_view_later : forall c l, Forall (fun di => dest_in (later c) (fst di)) l -> forall c', ~ In c' (later c) -> to_view c' l = [].
Proof.
  intros c l F c' N. induction l as [|[d i] l IH]; [reflexivity|]. inversion F as [|x y D F' Ex]; subst x y. unfold to_view in *. cbn [flat_map fst snd].
  rewrite (IH F'). destruct d as [c0 v|]; [|reflexivity]. cbn in D. destruct (cls_eqb c' c0) eqn:E; [|reflexivity]. apply cls_eqb_iff in E. congruence.
Qed.
Lemma multi_dests : forall mcn inner lp c l d f, multi_stage mcn inner lp c l = Ok (d, f) -> Forall (fun di => dest_in (later c) (fst di)) f.
Proof.
  intros mcn inner lp c l d f E. unfold multi_stage in E. destruct (foldM multi_add l []) as [dd|]; [|discriminate]. cbn [bind] in E.
  match type of E with bind ?m _ = _ => destruct m as [rs|] eqn:Em; [|discriminate] end. cbn [bind] in E.
  assert (f = flat_map snd rs) as -> by congruence. clear E. apply mapM_ok in Em.
  induction Em as [|kb r dd rs Eb _ IH]; [constructor|]. cbn [flat_map]. apply Forall_app. split; [|exact IH]. clear IH.
  unfold multi_bucket in Eb. destruct (_ <? mcn)%Z.
  - assert (snd r = map (fun kv => forward lp c (snd kv)) (vb_objs (snd kb))) as -> by (destruct r; cbn; congruence).
    apply Forall_map. apply Forall_forall. intros x _. apply forward_in.
  - destruct (inner _ _ _) as [ts|]; [|discriminate]. cbn [bind] in Eb.
    match type of Eb with bind ?m _ = _ => destruct m as [rs'|] eqn:Em'; [|discriminate] end. cbn [bind] in Eb.
    assert (snd r = flat_map snd rs') as -> by (destruct r; cbn; congruence). apply mapM_ok in Em'. clear Eb.
    induction Em' as [|t r' ts rs' Et _ IH]; [constructor|]. cbn [flat_map]. apply Forall_app. split; [|exact IH].
    unfold multi_tree in Et.
    destruct (transfer (snd kb) t) as [[[objs count] pattern]|]; [|discriminate]. cbn [bind] in Et. destruct (count <? mcn)%Z.
    + assert (snd r' = map (fun kv => forward lp c (snd kv)) objs) as -> by (destruct r'; cbn; congruence).
      apply Forall_map. apply Forall_forall. intros z _. apply forward_in.
    + assert (snd r' = []) as -> by (destruct r'; cbn; congruence). constructor.
Qed.

Lemma pat_eqb_iff : forall a b : cls * str, pat_eqb a b = true <-> a = b.
Proof.
  intros [c p] [c' p']. unfold pat_eqb. cbn [fst snd]. rewrite andb_true_iff, cls_eqb_iff, str_eqb_iff. split; [intros [-> ->]; reflexivity|].
  intros X. injection X as -> ->. auto.
Qed.
Lemma dedup_in : forall l (x : cls * str), In x (dedup pat_eqb l) <-> In x l.
Proof.
  induction l as [|y l IH]; intros x; [reflexivity|]. cbn [dedup]. destruct (existsb (pat_eqb y) l) eqn:E.
  - rewrite IH. cbn. split; [auto|]. intros [->|I]; [|exact I]. apply existsb_exists in E. destruct E as (z & Iz & Ez). apply pat_eqb_iff in Ez. congruence.
  - cbn. rewrite IH. reflexivity.
Qed.
Lemma dedup_NoDup : forall l : list (cls * str), NoDup (dedup pat_eqb l).
Proof.
  induction l as [|y l IH]; [constructor|]. cbn [dedup]. destruct (existsb (pat_eqb y) l) eqn:E; [exact IH|]. constructor; [|exact IH].
  rewrite dedup_in. intros I. assert (X : existsb (pat_eqb y) l = true) by (apply existsb_exists; exists y; split; [exact I|apply pat_eqb_iff; reflexivity]).
  congruence.
Qed.

(** the trees that the buckets of a level make *)
Definition fine (Pin : nat -> tree -> Prop) (mcn : Z) (innerP : nat -> bool -> tree -> res (list tree)) (level : nat) (last_level last_path kw : bool) (ns : list pnode) : Prop :=
  forall d0 f0, piece_stage mcn level last_level last_path kw ns = Ok (d0, f0) ->
    (forall d, foldM multi_add (to_view CBase f0) [] = Ok d -> Forall (fun kb => Pin (vb_depth (snd kb)) (vb_root (snd kb))) d) /\
    forall d1 f1, multi_stage mcn innerP last_path CBase (to_view CBase f0) = Ok (d1, f1) ->
    (forall d, foldM multi_add (to_view CMixed (f0 ++ f1)) [] = Ok d -> Forall (fun kb => Pin (vb_depth (snd kb)) (vb_root (snd kb))) d) /\
    forall d2 f2, multi_stage mcn innerP last_path CMixed (to_view CMixed (f0 ++ f1)) = Ok (d2, f2) ->
    (forall d, foldM multi_add (to_view CLdsf (f0 ++ f1 ++ f2)) [] = Ok d -> Forall (fun kb => Pin (vb_depth (snd kb)) (vb_root (snd kb))) d).

Section Run.
  Context (mcn : Z) (level : nat) (last_level last_path kw : bool) (Hs : heap) (lv : list anode).
  Context (innerH : nat -> bool -> addr -> (addr -> lprog unit) -> lprog unit) (innerP : nat -> bool -> tree -> res (list tree))
    (Pin : nat -> tree -> Prop).
  Context (INNER : forall d kw s ts, Pin d (erase s) -> innerP d kw (erase s) = Ok ts -> yields (innerH d kw (a_addr s)) s ts).
  Context (NODE : forall x, In x lv -> exists n, nth_error Hs (an_addr x) = Some n /\ n_value n = a_val (an_t x) /\ n_count n = an_cnt x).
  Context (NDA : NoDup (map an_addr lv)).
  Context (PARC : forall x i a c, In x lv -> an_par x = Some (i, a, c) -> exists n, nth_error Hs a = Some n /\ n_count n = c).
  Context (PID : forall x y i a c i' a' c', In x lv -> In y lv -> an_par x = Some (i, a, c) -> an_par y = Some (i', a', c') ->
    (i = i' <-> a = a')).
  Context (PSOME : psome level lv).

  Lemma piece_lit : forall d0 f0, piece_stage mcn level last_level last_path kw (map er lv) = Ok (d0, f0) ->
    Forall (fun e => snd e = ekey e /\ In (ekey e) (keys lv)) d0.
  Proof.
    intros d0 f0 E. unfold piece_stage in E. rewrite group_er in E. unfold piece_bags in E. cbv zeta in E.
    assert (LIT : Forall (fun e => snd e = ekey e /\ In (ekey e) (keys lv))
       (map (fun kb => (CPiece, fst kb, fst kb)) (map (fun k => (k, map er (nodes_of lv k))) (keys lv)))).
    { rewrite map_map. apply Forall_map. apply Forall_forall. intros k Ik. cbn. auto. }
    assert (X : forall ks r, incl ks (keys lv) -> mapM (piece_one mcn level last_path) (map (fun k => (k, map er (nodes_of lv k))) ks) = Ok r ->
       Forall (fun e => snd e = ekey e /\ In (ekey e) (keys lv)) (lefts r)).
    { induction ks as [|k ks IH]; intros r Ic E0; cbn [map mapM] in E0.
      - assert (r = []) as -> by congruence. constructor.
      - destruct (piece_one mcn level last_path (k, map er (nodes_of lv k))) as [x|] eqn:E1; [|discriminate]. cbn [bind] in E0.
        match type of E0 with bind ?m _ = _ => destruct m as [r'|] eqn:E2; [|discriminate] end. cbn [bind] in E0.
        assert (r = x :: r') as -> by congruence. pose proof (IH r' (fun y Y => Ic y (or_intror Y)) eq_refl) as A.
        unfold piece_one in E1. cbv zeta in E1. cbn [fst snd] in E1.
        match type of E1 with bind ?m _ = _ => destruct m as [q|] eqn:Eq; [|discriminate] end. cbn [bind] in E1.
        destruct q.
        + assert (x = inl (CPiece, k, k)) as -> by congruence. cbn [lefts]. constructor; [|exact A]. split; [reflexivity|].
          apply Ic. left. reflexivity.
        + match type of E1 with bind ?m _ = _ => destruct m as [q|] eqn:Eq'; [|discriminate] end. cbn [bind] in E1.
          assert (x = inr (dest_piece mcn last_path (it_pp q), q)) as -> by congruence. exact A. }
    assert (LOOP : (r <- mapM (piece_one mcn level last_path) (map (fun k => (k, map er (nodes_of lv k))) (keys lv)) ;; Ok (lefts r, rights r)) = Ok (d0, f0) ->
      Forall (fun e => snd e = ekey e /\ In (ekey e) (keys lv)) d0).
    { intros Y. match type of Y with bind ?m _ = _ => destruct m as [r|] eqn:Er; [|discriminate] end. cbn [bind] in Y. injection Y as <- _.
      exact (X _ _ (incl_refl _) Er). }
    destruct (is_nil _); [assert (d0 = []) as -> by congruence; constructor|].
    destruct (last_level && kw); [assert (D := LIT); injection E as <- _; exact D|].
    destruct (_ <? mcn)%Z; [|auto]. destruct (max_count _); [|discriminate]. cbn [bind] in E. destruct (negb _); [|auto].
    injection E as <- _. exact LIT.
  Qed.

  Theorem run_clusters_ok : forall dn, run_level mcn innerP level last_level last_path kw (map er lv) = Ok dn -> NoDup (map ekey dn) ->
    fine Pin mcn innerP level last_level last_path kw (map er lv) ->
    exists H' st' W' dn', run_clusters mcn innerH level last_level last_path kw (Hs, new_proc (bucket_of lv)) = ((H', st'), Ok tt)
      /\ HcLevel.LV Hs lv H' W' /\ Permutation dn' dn /\ donew W' dn' /\ (forall c, pats_ok (hp_pats st' c) c dn') /\ hp_bucket st' = bucket_of lv.
  Proof.
    intros dn E ND FN. unfold run_level in E.
    destruct (piece_stage mcn level last_level last_path kw (map er lv)) as [[d0 f0]|] eqn:E0; [|discriminate]. cbn [bind] in E.
    destruct (FN d0 f0 E0) as [P1 FN1].
    destruct (multi_stage mcn innerP last_path CBase (to_view CBase f0)) as [[d1 f1]|] eqn:E1; [|discriminate]. cbn [bind] in E.
    destruct (FN1 d1 f1 eq_refl) as [P2 FN2].
    destruct (multi_stage mcn innerP last_path CMixed (to_view CMixed (f0 ++ f1))) as [[d2 f2]|] eqn:E2; [|discriminate]. cbn [bind] in E.
    pose proof (FN2 d2 f2 eq_refl) as P3.
    destruct (multi_stage mcn innerP last_path CLdsf (to_view CLdsf (f0 ++ f1 ++ f2))) as [[d3 f3]|] eqn:E3; [|discriminate]. cbn [bind] in E.
    destruct (length_stage mcn level (to_length (f0 ++ f1 ++ f2 ++ f3))) as [[d4 bs]|] eqn:E4; [|discriminate]. cbn [bind] in E.
    destruct (fuzzy_stage mcn bs) as [d5|] eqn:E5; [|discriminate]. cbn [bind] in E. injection E as <-.
    set (FL := f0 ++ f1 ++ f2 ++ f3) in *.
    pose proof (multi_dests _ _ _ _ _ _ _ E1) as M1. pose proof (multi_dests _ _ _ _ _ _ _ E2) as M2. pose proof (multi_dests _ _ _ _ _ _ _ E3) as M3.
    assert (V1 : to_view CBase FL = to_view CBase f0).
    { unfold FL. rewrite !to_view_one, (to_view_later _ _ M1), (to_view_later _ _ M2), (to_view_later _ _ M3), !app_nil_r; [reflexivity|..]; cbn; intuition discriminate. }
    assert (V2 : to_view CMixed FL = to_view CMixed (f0 ++ f1)).
    { unfold FL. rewrite !to_view_one, (to_view_later _ _ M2), (to_view_later _ _ M3), !app_nil_r; [reflexivity|..]; cbn; intuition discriminate. }
    assert (V3 : to_view CLdsf FL = to_view CLdsf (f0 ++ f1 ++ f2)).
    { unfold FL. rewrite !to_view_one, (to_view_later _ _ M3), !app_nil_r; [reflexivity|..]; cbn; intuition discriminate. }
    assert (OKV : forall c, In c views3 -> exists d, foldM multi_add (to_view c FL) [] = Ok d).
    { intros c [<-|[<-|[<-|[]]]].
      - rewrite V1. unfold multi_stage in E1. destruct (foldM multi_add (to_view CBase f0) []); [eauto|discriminate].
      - rewrite V2. unfold multi_stage in E2. destruct (foldM multi_add (to_view CMixed (f0 ++ f1)) []); [eauto|discriminate].
      - rewrite V3. unfold multi_stage in E3. destruct (foldM multi_add (to_view CLdsf (f0 ++ f1 ++ f2)) []); [eauto|discriminate]. }
    assert (OKL : exists d, foldM len_add (to_length FL) [] = Ok d).
    { unfold length_stage in E4. destruct (foldM len_add (to_length FL) []); [eauto|discriminate]. }
    assert (I0 : Inv Hs lv views3 Hs (new_proc (bucket_of lv)) [] [] [] (fun _ => [])).
    { constructor.
      - apply LV_start.
      - constructor; [intros ? ? ? ? []|intros ? ? ? ? ? ? ? ? ? []|constructor].
      - intros c _. split; reflexivity.
      - exists []. split; reflexivity.
      - intros c. split; [constructor|]. intros p. split; [intros []|intros (k & [])].
      - cbn. auto.
      - constructor. }
    unfold run_clusters.
    destruct (piece_cluster_ok mcn level last_level last_path kw Hs lv NODE NDA PARC PID PSOME FL OKV OKL d0 f0 _ _ _ _ _ _ I0 E0) as (H1 & st1 & g1 & X1 & I1 & _).
    { exists (f1 ++ f2 ++ f3). reflexivity. }
    rewrite (then_ok _ _ _ _ _ _ _ _ X1). cbn [app] in I1.
    destruct (multi_cluster_ok mcn last_path Hs lv innerH innerP Pin INNER NODE NDA FL OKV OKL CBase d1 f1 [CMixed; CLdsf] _ _ _ _ _ _ eq_refl (incl_refl _)
      ltac:(cbn; intuition discriminate) I1 P1 E1) as (H2 & st2 & g2 & X2 & I2 & _).
    { exists (f2 ++ f3). reflexivity. }
    rewrite (then_ok _ _ _ _ _ _ _ _ X2).
    destruct (multi_cluster_ok mcn last_path Hs lv innerH innerP Pin INNER NODE NDA FL OKV OKL CMixed d2 f2 [CLdsf] _ _ _ _ _ _ eq_refl
      ltac:(intros x [<-|[<-|[]]]; cbn; auto) ltac:(cbn; intuition discriminate) I2 P2 E2) as (H3 & st3 & g3 & X3 & I3 & _).
    { exists f3. rewrite <- app_assoc. reflexivity. }
    rewrite (then_ok _ _ _ _ _ _ _ _ X3). replace ((f0 ++ f1) ++ f2) with (f0 ++ f1 ++ f2) in I3 by (rewrite <- app_assoc; reflexivity).
    destruct (multi_cluster_ok mcn last_path Hs lv innerH innerP Pin INNER NODE NDA FL OKV OKL CLdsf d3 f3 [] _ _ _ _ _ _ eq_refl
      ltac:(intros x [<-|[]]; cbn; auto) ltac:(cbn; intuition discriminate) I3 P3 E3) as (H4 & st4 & g4 & X4 & I4 & _).
    { exists []. rewrite app_nil_r, <- !app_assoc. reflexivity. }
    rewrite (then_ok _ _ _ _ _ _ _ _ X4).
    replace ((f0 ++ f1 ++ f2) ++ f3) with FL in I4 by (unfold FL; rewrite <- !app_assoc; reflexivity).
    destruct I4 as [J1 J2 J3 (d & Ed & El) J5 (R1 & R2 & R3 & R4 & R5) J7].
    pose proof (lenfuz_keys mcn level _ _ _ _ E4 E5) as PK. pose proof (len_add_perm _ _ _ Ed) as PL. cbn [List.concat map app] in PL.
    set (dn3 := ((d0 ++ d1) ++ d2) ++ d3) in *.
    assert (DE : d0 ++ d1 ++ d2 ++ d3 ++ d4 ++ d5 = dn3 ++ d4 ++ d5) by (unfold dn3; rewrite <- !app_assoc; reflexivity).
    assert (ND3 : NoDup (map ekey dn3 ++ map it_piece (List.concat (map snd d)))).
    { rewrite DE, map_app in ND. eapply Permutation_NoDup; [|exact ND]. apply Permutation_app_head. rewrite PK. apply Permutation_map. symmetry. exact PL. }
    set (W4 := (((map (fun k => (k, k)) (keys lv)) ++ pattern_map d1) ++ pattern_map d2) ++ pattern_map d3) in *.
    assert (WE : W4 = map (fun k => (k, k)) (keys lv) ++ pattern_map (d1 ++ d2 ++ d3)).
    { unfold W4. rewrite !pattern_map_app, <- !app_assoc. reflexivity. }
    assert (PMK : forall dd, map fst (pattern_map dd) = map ekey dd) by (intros dd; unfold pattern_map; rewrite map_map; reflexivity).
    assert (D3 : dn3 = d0 ++ d1 ++ d2 ++ d3) by (unfold dn3; rewrite <- !app_assoc; reflexivity).
    assert (NDM : NoDup (map ekey (d0 ++ d1 ++ d2 ++ d3)) /\ (forall k, In k (map ekey (d0 ++ d1 ++ d2 ++ d3)) -> ~ In k (map it_piece (List.concat (map snd d))))).
    { rewrite <- D3. clear -ND3. induction (map ekey dn3) as [|k ks IH]; [split; [constructor|intros ? []]|]. cbn in ND3. inversion ND3; subst.
      destruct (IH H2) as [A B]. split; [constructor; [intros Z; apply H1; apply in_or_app; left; exact Z|exact A]|]. intros y [<-|Iy]; [|apply B; exact Iy].
      intros Z. apply H1. apply in_or_app. right. exact Z. }
    destruct NDM as [NDM1 NDM2]. rewrite map_app in NDM1, NDM2.
    assert (NDM3 : NoDup (map ekey (d1 ++ d2 ++ d3)) /\ (forall k, In k (map ekey d0) -> ~ In k (map ekey (d1 ++ d2 ++ d3)))).
    { clear -NDM1. induction (map ekey d0) as [|k ks IH]; [split; [exact NDM1|intros ? []]|]. cbn in NDM1. inversion NDM1; subst.
      destruct (IH H2) as [A B]. split; [exact A|]. intros y [<-|Iy]; [|apply B; exact Iy].
      intros Z. apply H1. apply in_or_app. right. exact Z. }
    destruct NDM3 as [NDM3 NDM4].
    assert (I4' : HcLen.I2 Hs lv H4 st4 W4 dn3 [] false None (map snd d)).
    { constructor; cbn [List.concat app].
      - exact J1.
      - exact J5.
      - rewrite R2, R3. auto.
      - discriminate.
      - rewrite PL. unfold to_length. apply Forall_forall. intros i Ii. apply in_flat_map in Ii. destruct Ii as ([dd j] & Ij & Ii). cbn in Ii.
        destruct dd; [destruct Ii|]. destruct Ii as [<-|[]]. exact (proj1 (proj1 (Forall_forall _ _) J7 _ Ij)).
      - unfold live. rewrite PL. unfold to_length. apply Forall_forall. intros i Ii. pose proof Ii as Ii'. apply in_flat_map in Ii. destruct Ii as ([dd j] & Ij & Ii). cbn in Ii.
        destruct dd; [destruct Ii|]. destruct Ii as [->|[]]. destruct (proj1 (Forall_forall _ _) J7 _ Ij) as [It Ep]. cbn in It, Ep.
        rewrite WE, wr_app, (wr_none (pattern_map _)), Ep.
        + apply wr_id. destruct It as [_ (x & r & Ex & _)]. unfold keys. apply (dgroup_keys str_eqb str_eqb_iff).
          assert (Ix : In x (nodes_of lv (it_piece i))) by (rewrite Ex; left; reflexivity). apply nodes_of_in in Ix. destruct Ix as [Ix <-]. apply in_map. exact Ix.
        + rewrite PMK. intros Z. apply (NDM2 (it_piece i)); [apply in_or_app; right; exact Z|]. apply in_map. rewrite PL. exact Ii'.
      - rewrite D3. apply Forall_app. split.
        + pose proof (piece_lit d0 f0 E0) as LT. apply Forall_forall. intros e Ie. destruct (proj1 (Forall_forall _ _) LT e Ie) as [S1 S2].
          rewrite WE, wr_app, (wr_none (pattern_map _)), S1; [apply wr_id; exact S2|]. rewrite PMK. apply NDM4. apply in_map. exact Ie.
        + apply Forall_forall. intros e Ie. rewrite WE, wr_app, (wr_in _ _ (snd e)); [reflexivity|rewrite PMK; exact NDM3|].
          unfold pattern_map. apply in_map_iff. exists e. split; [reflexivity|exact Ie].
      - exact ND3. }
    destruct (length_fuzzy_ok mcn level Hs lv NODE NDA PARC PID PSOME _ _ _ _ _ _ _ _ _ Ed El I4' E4 E5) as (H5 & st5 & W5 & dn5 & X5 & A & B & C & D & F).
    exists H5, st5, W5, dn5. split; [exact X5|]. split; [exact A|]. split; [rewrite B, DE; reflexivity|]. auto.
  Qed.
  Lemma pattern_num_ok : forall st' dn dn', (forall c, pats_ok (hp_pats st' c) c dn') -> Permutation dn' dn -> hpattern_num st' = pattern_num dn.
  Proof.
    intros st' dn dn' P Pm. unfold hpattern_num, pattern_num.
    set (cs := [CPiece; CBase; CMixed; CLdsf; CLength; CFuzzy]).
    assert (E : fold_right (fun c n => length (hp_pats st' c) + n) 0 cs = length (flat_map (fun c => map (fun p => (c, p)) (hp_pats st' c)) cs)).
    { generalize cs. induction cs0 as [|c l IH]; [reflexivity|]. cbn [fold_right flat_map]. rewrite app_length, map_length, IH. reflexivity. }
    rewrite E. apply Permutation_length. apply NoDup_Permutation.
    - assert (NC : NoDup cs) by (unfold cs; repeat constructor; cbn; intuition discriminate).
      revert NC. generalize cs. induction cs0 as [|c l IH]; intros NC; [constructor|]. inversion NC; subst. cbn [flat_map].
      assert (N1 : NoDup (map (fun p => (c, p)) (hp_pats st' c))).
      { apply FinFun.Injective_map_NoDup; [intros x y X; congruence|]. apply (P c). }
      revert N1. assert (DJ : forall x, In x (map (fun p => (c, p)) (hp_pats st' c)) -> ~ In x (flat_map (fun c => map (fun p => (c, p)) (hp_pats st' c)) l)).
      { intros x Ix Iy. apply in_map_iff in Ix. destruct Ix as (p & <- & _). apply in_flat_map in Iy. destruct Iy as (c2 & Ic & Iy).
        apply in_map_iff in Iy. destruct Iy as (q & Eq & _). injection Eq as -> _. contradiction. }
      revert DJ. specialize (IH H2). generalize (map (fun p => (c, p)) (hp_pats st' c)). intros a DJ N1. induction N1 as [|x a N N1 IHa]; [exact IH|].
      cbn. constructor; [|apply IHa; intros y Iy; apply DJ; right; exact Iy]. intros Z. apply in_app_or in Z. destruct Z as [Z|Z]; [contradiction|].
      exact (DJ x (or_introl eq_refl) Z).
    - apply dedup_NoDup.
    - intros [c p]. rewrite dedup_in. rewrite in_flat_map. split.
      + intros (c2 & _ & I). apply in_map_iff in I. destruct I as (q & Eq & Iq). injection Eq as -> ->. apply (P c) in Iq. destruct Iq as (k & Ik).
        apply in_map_iff. exists (c, k, p). split; [reflexivity|]. exact (Permutation_in _ Pm Ik).
      + intros I. apply in_map_iff in I. destruct I as ([[c2 k] q] & Eq & Ik). cbn in Eq. injection Eq as -> ->. exists c. split; [destruct c; cbn; auto 8|].
        apply in_map. apply (P c). exists k. exact (Permutation_in _ (Permutation_sym Pm) Ik).
  Qed.
End Run.
