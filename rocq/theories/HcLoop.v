(** make() on the nodes as objects: split_by_pattern() and cluster(). *)
From Coq Require Import String.
From Verif Require Import PyStr Defs UrlLib ParseUtils Views Trees Cluster Patterns Matcher Maker Observe Heap HeapSpec HCluster
  PyStrProofs DefsProofs TreeProofs DictProofs LoadProofs HeapProofs HeapLoad HeapState GroupProofs EntProofs GenCluster HcBase HcBag HcLevel HcPaths HcStage HcLen HcRun HcProc.
From Coq Require Import Lia Permutation.

Lemma meta2_ok : forall data ks s H par dep b,
  holds H par dep s -> NoDup (addrs s) -> aat s ks = Some b ->
  exists s', holds (put H b (node_update_meta data)) par dep s' /\ same H (put H b (node_update_meta data)) s s'
    /\ erase s' = upd_meta (erase s) ks (update_meta data).
Proof.
  intros data ks. induction ks as [|k r IH]; intros [a v p c m l] H par dep b Hs ND EA.
  - cbn in EA. injection EA as <-.
    destruct (root_put H par dep a v p c m l (node_update_meta data) c (update_meta data m) Hs ND) as [A B]; try (cbn; auto; fail).
    { cbn. intros n ->. reflexivity. }
    exists (AT a v p c (update_meta data m) l). auto.
  - rewrite aat_cons in EA. cbn [a_kids] in EA. destruct (akid k l) as [z|] eqn:EK; [|discriminate].
    destruct (akid_some _ _ _ EK) as (x & y & -> & KP & KN).
    pose proof Hs as Hs0. pose proof ND as ND0. cbn [addrs] in ND. rewrite flat_mid in ND. destruct (nd_mid _ _ _ _ ND) as (NDk & NDa & NDd).
    apply holds_iff in Hs. destruct Hs as [_ K]. apply Forall_app in K. destruct K as [_ K]. apply Forall_cons_iff in K. destruct K as [Kz _].
    destruct (IH z H (Some a) (Datatypes.S dep) b Kz NDk EA) as (z' & A1 & S1 & R1).
    assert (KN' : ~ In (a_piece z) (map a_piece x)) by (rewrite KP; exact KN).
    exists (AT a v p c m (x ++ z' :: y)). split; [eapply mid_holds; eassumption|]. split; [apply mid_same; auto|].
    cbn [erase upd_meta]. rewrite (split_erase _ x z y KN KP), map_app. cbn [map]. rewrite R1. reflexivity.
Qed.
Lemma values_ok : forall l H, Forall (known H) l ->
  collect (map a_addr l) (fun a => v <~ reading (fun H => n <- get H a ;; Ok (n_value n)) ;; p <~ node_pattern_of a ;; ret (v, Some p)) H
  = (H, Ok (map (fun y => (t_val (erase y), Some (t_pattern (erase y)))) l)).
Proof.
  induction l as [|y l IH]; intros H F; [reflexivity|]. inversion F as [|x z (Fy & par & dep & Hy) F']; subst. cbn [map collect].
  destruct (holds_node _ _ _ _ Hy) as (n & En & _ & Ev & _).
  rewrite (then_ok _ _ _ _ _ _ H (t_val (erase y), Some (t_pattern (erase y)))).
  - rewrite (then_ok _ _ _ _ _ _ _ _ (IH H F')). reflexivity.
  - rewrite (then_ok _ _ _ _ _ _ H (a_val y)) by (unfold reading; rewrite (get_ok _ _ _ En); cbn; rewrite Ev; reflexivity).
    rewrite (then_ok _ _ _ _ _ _ _ _ (pattern_ok y H par dep Hy Fy)). rewrite erase_val. reflexivity.
Qed.

(** build_from_piece_pattern_nodes *)
Lemma build_nodes_ok : forall l s H t new, holds H None 0 s -> NoDup (addrs s) -> Forall (known H) l ->
  (forall y a, In y l -> In a (addrs y) -> ~ In a (addrs s)) -> build_from_nodes (erase s) (map erase l) = Ok (t, new) ->
  exists H' s' b, hbuild_from_nodes (a_addr s) (map a_addr l) H = (H', Ok (b, new))
    /\ holds H' None 0 s' /\ step H H' s s' /\ NoDup (addrs s') /\ erase s' = t.
Proof.
  intros l s H t new Hs ND K DJ E. unfold build_from_nodes in E. unfold hbuild_from_nodes. rewrite <- map_rev in E |- *.
  destruct (rev l) as [|y rl] eqn:El; [discriminate|]. cbn [map] in E |- *.
  assert (Iy : In y l) by (apply in_rev; rewrite El; left; reflexivity).
  rewrite (then_ok _ _ _ _ _ _ _ _ (values_ok l H K)). rewrite map_map in E.
  set (kvs := map (fun y => (t_val (erase y), Some (t_pattern (erase y)))) l) in *.
  assert (NK : kvs <> []) by (unfold kvs; destruct l; [destruct Iy|discriminate]).
  pose proof (proj1 (Forall_forall _ _) K y Iy) as (Fy & par & dep & Hy). destruct (holds_node _ _ _ _ Hy) as (n & En & _ & _ & _ & Ec & Em & _).
  rewrite (then_ok _ _ _ _ _ _ H (a_cnt y)) by (unfold reading; rewrite (get_ok _ _ _ En); cbn; rewrite Ec; reflexivity).
  rewrite erase_cnt, erase_meta in E.
  assert (LH := holds_lt _ _ _ _ Hs).
  destruct (HeapProofs.loop_ok (a_cnt y) kvs s H None 0 None Hs ND) as (H1 & s1 & b & E1 & A1 & S1 & R1 & P1).
  pose proof (upd_build (update_meta (a_meta y)) (a_cnt y) kvs (erase s) None) as UB.
  pose proof (build_new_any (update_meta (a_meta y)) nometa (a_cnt y) kvs (erase s) None) as BN.
  rewrite (build_new nometa (a_cnt y) kvs (erase s) None NK) in *.
  destruct (build (erase s) kvs (a_cnt y) (update_meta (a_meta y)) None) as [t0 o0]. cbn [fst snd] in *. subst o0.
  injection E as <- <-.
  assert (ND1 : NoDup (addrs s1)) by (apply (st_nd _ _ _ _ S1); assumption).
  rewrite (then_ok _ _ _ _ _ _ H1 (b, match node_at (erase s) (HeapProofs.keys kvs) with Some _ => false | None => true end)).
  2:{ unfold build_tree. rewrite E1. reflexivity. }
  assert (En1 : nth_error H1 (a_addr y) = Some n).
  { rewrite (st_frame _ _ _ _ S1); [exact En|apply nth_error_Some; congruence|]. apply (DJ y); [exact Iy|apply addr_in]. }
  rewrite (then_ok _ _ _ _ _ _ H1 (a_meta y)) by (unfold reading; rewrite (get_ok _ _ _ En1); cbn; rewrite Em; reflexivity).
  destruct (meta2_ok (a_meta y) (HeapProofs.keys kvs) s1 H1 None 0 b A1 ND1 P1) as (s3 & A3 & S3 & R3).
  exists (put H1 b (node_update_meta (a_meta y))), s3, b. split; [reflexivity|]. split; [exact A3|]. split; [|split].
  - eapply step_trans; [exact LH|exact S1|]. apply same_step. exact S3.
  - rewrite (sm_addrs _ _ _ _ S3). exact ND1.
  - rewrite R3, R1, UB. reflexivity.
Qed.

(** ** split_by_pattern *)
Section Split.
  Context (H0 : heap).
  Record SP (H : heap) (d : list (str * atree)) : Prop := {
    sp_ag : agree (fun _ => True) H0 H;
    sp_holds : Forall (fun e => holds H None 0 (snd e)) d;
    sp_nd : NoDup (flat_map (fun e => addrs (snd e)) d);
    sp_new : forall a, In a (flat_map (fun e => addrs (snd e)) d) -> length H0 <= a
  }.
  Lemma dset_flat : forall k v (d : list (str * atree)) a, In a (flat_map (fun e => addrs (snd e)) (dset str_eqb k v d)) ->
    In a (addrs v) \/ In a (flat_map (fun e => addrs (snd e)) d).
  Proof.
    intros k v d a I. apply in_flat_map in I. destruct I as (e & Ie & Ia). destruct (In_dset_cases _ _ str_eqb str_eqb_iff _ _ _ _ Ie) as [->|Ie'].
    - left. exact Ia.
    - right. apply in_flat_map. eauto.
  Qed.
  (** replacing one tree by another that has its nodes and new ones *)
  Lemma SP_put : forall H H' k v d, SP H d -> length H <= length H' ->
    (forall a, a < length H0 -> nth_error H' a = nth_error H a) -> holds H' None 0 v -> NoDup (addrs v) ->
    (forall e a, In e d -> fst e <> k -> In a (addrs (snd e)) -> nth_error H' a = nth_error H a /\ ~ In a (addrs v)) ->
    (forall a, In a (addrs v) -> length H0 <= a) -> NoDup (map fst d) ->
    SP H' (dset str_eqb k v d).
  Proof.
    intros H H' k v d [A1 A2 A3 A4] LE FR Hv Nv DJ NW ND. constructor.
    - split; [destruct A1; lia|]. intros a _ La. rewrite FR by exact La. apply (proj2 A1); auto.
    - apply Forall_forall. intros e Ie. destruct (dset_in _ _ str_eqb str_eqb_iff k v d e ND Ie) as [->|[Ne Ie']]; [exact Hv|].
      rewrite Forall_forall in A2. apply (holds_frame _ H); [exact (A2 e Ie')|]. intros a Ia. exact (proj1 (DJ e a Ie' Ne Ia)).
    - clear A2 A4 A1 FR LE NW Hv. induction d as [|[k' w] d IH].
      + cbn. rewrite app_nil_r. exact Nv.
      + cbn in *. apply nd_app in A3. destruct A3 as (N1 & N2 & N3). inversion ND as [|x y Nk ND']; subst. destruct (str_eqb k k') eqn:Ek.
        * cbn. apply str_eqb_iff in Ek. subst k'. apply nd_app. split; [exact Nv|]. split; [exact N2|]. intros a Ia Z. apply in_flat_map in Z. destruct Z as (e & Ie & Z).
          apply (DJ e a (or_intror Ie)) in Z; [tauto|]. intros X. apply Nk. rewrite <- X. apply in_map. exact Ie.
        * cbn. apply nd_app. split; [exact N1|]. split; [apply IH; auto; intros e a Ie; apply DJ; right; exact Ie|].
          intros a Ia Z. apply dset_flat in Z. destruct Z as [Z|Z]; [|exact (N3 a Ia Z)].
          apply (DJ (k', w) a (or_introl eq_refl)) in Ia; [tauto|]. cbn. intros ->. rewrite (proj2 (str_eqb_iff k k) eq_refl) in Ek. discriminate.
    - intros a Ia. apply dset_flat in Ia. destruct Ia as [Ia|Ia]; auto.
  Qed.
  Lemma split_loop_ok : forall ls d H dP, SP H d -> NoDup (map fst d) -> Forall (Forall (known H0)) ls -> (forall l y a, In l ls -> In y l -> In a (addrs y) -> a < length H0) ->
    foldM split_add (map (map erase) ls) (map (onv erase) d) = Ok dP ->
    exists H' d', hsplit_loop (map (map a_addr) ls) (map (onv a_addr) d) H = (H', Ok (map (onv a_addr) d')) /\ SP H' d' /\ map (onv erase) d' = dP /\ length H <= length H'.
  Proof.
    induction ls as [|l ls IH]; intros d H dP P ND K LT E.
    - cbn in E. injection E as <-. exists H, d. cbn. auto.
    - inversion K as [|x z Kl K']; subst. cbn [map foldM] in E.
      destruct (split_add (map (onv erase) d) (map erase l)) as [d1|] eqn:E1; [|discriminate]. cbn [bind] in E.
      unfold split_add in E1. cbv zeta in E1. set (pid := path_id (map erase l)) in *.
      pose proof P as [A1 A2 A3 A4].
      assert (KA : forall Hx, agree (fun _ => True) H0 Hx -> Forall (known Hx) l).
      { intros Hx Ag. apply Forall_forall. intros y Iy. rewrite Forall_forall in Kl. apply (known_agree H0 Hx (fun _ => True) y (Kl y Iy) Ag). auto. }
      assert (EP : collect (map a_addr l) node_pattern_of H = (H, Ok (map t_pattern (map erase l)))).
      { rewrite (patterns_ok l H (KA H A1)), map_map. reflexivity. }
      cbn [map hsplit_loop]. rewrite (then_ok _ _ _ _ _ _ _ _ EP). cbv zeta. fold pid. rewrite (dget_onv str_eqb erase) in E1. rewrite (dget_onv str_eqb a_addr).
      assert (SUB : exists s Hs, (match option_map a_addr (dget str_eqb pid d) with Some a => ret a | None => new_root_node end) H = (Hs, Ok (a_addr s))
         /\ erase s = match option_map erase (dget str_eqb pid d) with Some t => t | None => new_root end
         /\ holds Hs None 0 s /\ NoDup (addrs s) /\ (forall a, In a (addrs s) -> length H0 <= a) /\ length H <= length Hs
         /\ (forall a, a < length H -> nth_error Hs a = nth_error H a)
         /\ (forall e a, In e d -> fst e <> pid -> In a (addrs (snd e)) -> ~ In a (addrs s))).
      { destruct (dget str_eqb pid d) as [s|] eqn:Ed.
        - exists s, H. apply (dget_some_in str_eqb str_eqb_iff) in Ed. rewrite Forall_forall in A2. split; [reflexivity|]. split; [reflexivity|].
          split; [exact (A2 _ Ed)|].
          assert (SI : forall a, In a (addrs s) -> In a (flat_map (fun e => addrs (snd e)) d)) by (intros a Ia; apply in_flat_map; exists (pid, s); auto).
          assert (DD : NoDup (addrs s) /\ (forall e a, In e d -> fst e <> pid -> In a (addrs (snd e)) -> ~ In a (addrs s))).
          { clear -A3 Ed. induction d as [|w d IHd]; [destruct Ed|]. cbn in A3. apply nd_app in A3. destruct A3 as (N1 & N2 & N3). destruct Ed as [->|Ed].
            - split; [exact N1|]. intros e a [<-|Ie] Ne Ia Z; [apply Ne; reflexivity|]. apply (N3 a Z). apply in_flat_map. eauto.
            - destruct (IHd Ed N2) as [Q1 Q2]. split; [exact Q1|]. intros e a [->|Ie] Ne Ia Z; [|exact (Q2 e a Ie Ne Ia Z)].
              apply (N3 a Ia). apply in_flat_map. exists (pid, s). auto. }
          destruct DD as [D1 D2]. split; [exact D1|]. split; [intros a Ia; apply A4; auto|]. split; [lia|]. split; [auto|exact D2].
        - exists (AT (length H) empty_parsed_piece None 0 None []), (H ++ [new_node None empty_parsed_piece None]). split; [reflexivity|]. split; [reflexivity|].
          split; [|split; [|split; [|split; [|split]]]].
          + apply holds_iff. split; [|constructor]. exists (new_node None empty_parsed_piece None). split; [apply app_new|]. cbn. auto 10.
          + cbn. constructor; [intros []|constructor].
          + cbn. intros a [<-|[]]. destruct A1; lia.
          + rewrite app_length. lia.
          + intros a La. apply app_old. exact La.
          + intros e a Ie _ Ia. cbn. intros [<-|[]]. rewrite Forall_forall in A2. pose proof (holds_lt _ _ _ _ (A2 e Ie) _ Ia). lia. }
      destruct SUB as (s & Hs & ES & ER & HS & NS & NW & LS & FS & DS).
      rewrite (then_ok _ _ _ _ _ _ _ _ ES). rewrite <- ER in E1.
      match type of E1 with bind ?m _ = _ => destruct m as [[t new]|] eqn:Eb; [|discriminate] end. cbn [bind] in E1. injection E1 as <-.
      assert (AgS : agree (fun _ => True) H0 Hs).
      { destruct A1 as [L1 F1]. split; [lia|]. intros a _ La. rewrite FS by lia. apply F1; auto. }
      assert (TL : forall A B (f : A -> B) (x : list A), tl (map f x) = map f (tl x)) by (intros A B f [|y x]; reflexivity).
      rewrite TL in Eb |- *.
      assert (IT : forall y, In y (tl l) -> In y l) by (intros y; destruct l; [auto|right; auto]).
      destruct (build_nodes_ok (tl l) s Hs t new HS NS) as (H1 & s1 & b & R1 & B1 & S1 & N1 & Er1).
      { apply Forall_forall. intros y Iy. pose proof (KA Hs AgS) as F. rewrite Forall_forall in F. apply F. auto. }
      { intros y a Iy Ia Z. pose proof (LT l y a (or_introl eq_refl) (IT y Iy) Ia). pose proof (NW a Z). lia. }
      { exact Eb. }
      rewrite (then_ok _ _ _ _ _ _ _ _ R1).
      assert (EA : a_addr s1 = a_addr s) by (exact (st_addr _ _ _ _ S1)).
      assert (P1 : SP H1 (dset str_eqb pid s1 d)).
      { apply (SP_put H H1 pid s1 d P); auto.
        - pose proof (st_len _ _ _ _ S1). lia.
        - intros a La. rewrite (st_frame _ _ _ _ S1); [apply FS; destruct A1; lia|destruct AgS; lia|]. intros Z. pose proof (NW a Z). lia.
        - intros e a Ie Ne Ia. assert (La : a < length H) by (rewrite Forall_forall in A2; exact (holds_lt _ _ _ _ (A2 e Ie) a Ia)).
          split.
          + rewrite (st_frame _ _ _ _ S1); [apply FS; exact La|lia|]. exact (DS e a Ie Ne Ia).
          + intros Z. apply (st_in _ _ _ _ S1) in Z. destruct Z as [Z|Z]; [exact (DS e a Ie Ne Ia Z)|lia].
        - intros a Ia. apply (st_in _ _ _ _ S1) in Ia. destruct Ia as [Ia|Ia]; [auto|]. destruct A1; lia. }
      destruct (IH (dset str_eqb pid s1 d) H1 dP P1) as (H2 & d2 & R2 & P2 & E2 & L2).
      { apply (dset_NoDup str_eqb str_eqb_iff). exact ND. } { exact K'. } { intros l0 y a Il. apply (LT l0 y a). right. exact Il. }
      { rewrite <- (dset_onv str_eqb erase), Er1. exact E. }
      exists H2, d2. split; [|split; [exact P2|split; [exact E2|pose proof (st_len _ _ _ _ S1); lia]]].
      rewrite <- R2, <- EA, (dset_onv str_eqb a_addr). reflexivity.
  Qed.
  Lemma hsplit_ok : forall s subs, holds H0 None 0 s -> full s -> NoDup (addrs s) -> split_by_pattern (erase s) = Ok subs ->
    exists H' sl, hsplit (a_addr s) H0 = (H', Ok (map a_addr sl)) /\ map erase sl = subs /\ agree (fun _ => True) H0 H'
      /\ Forall (holds H' None 0) sl /\ NoDup (flat_map addrs sl) /\ (forall a, In a (flat_map addrs sl) -> length H0 <= a).
  Proof.
    intros s subs Hs Fs ND E. unfold split_by_pattern in E. destruct (foldM split_add (paths (erase s)) []) as [dP|] eqn:Ed; [|discriminate]. cbn [bind] in E.
    injection E as <-. rewrite <- apaths_erase in Ed.
    destruct (split_loop_ok (apaths s) [] H0 dP) as (H' & d & R & [A1 A2 A3 A4] & Ee & _).
    - constructor; [apply agree_refl|constructor|constructor|intros a []].
    - constructor.
    - exact (paths_known s H0 Hs Fs).
    - intros l y a Il Iy Ia. pose proof (apaths_subs s l y Il Iy) as Sy. destruct (subs_holds s H0 None 0 y Hs Sy) as (par' & dep' & Hy). exact (holds_lt _ _ _ _ Hy a Ia).
    - exact Ed.
    - assert (FM : flat_map (fun e => addrs (snd e)) d = flat_map addrs (map snd d)) by (rewrite !flat_map_concat_map, map_map; reflexivity).
      exists H', (map snd d). split; [|split; [|split; [exact A1|split; [|split]]]].
      + unfold hsplit. rewrite (then_ok _ _ _ _ _ _ _ _ (dump_tree_ok s H0 Hs ND)). rewrite (then_ok _ _ _ _ _ _ _ _ R). unfold ret. rewrite !map_map. reflexivity.
      + rewrite <- Ee, !map_map. reflexivity.
      + apply Forall_map. exact A2.
      + rewrite <- FM. exact A3.
      + rewrite <- FM. exact A4.
  Qed.
End Split.

(** ** Loops over several trees *)
Lemma each_yields : forall X (run : addr -> (addr -> prog (heap * X) unit) -> prog (heap * X) unit) sl tss,
  Forall2 (fun s ts => yields (run (a_addr s)) s ts) sl tss ->
  forall (body : addr -> prog (heap * X) unit) (J : (addr -> Prop) -> list tree -> heap -> X -> Prop) (TS l0 r0 : list tree) F H st,
  TS = l0 ++ List.concat tss ++ r0 ->
  (forall F l H H' st, J F l H st -> agree F H H' -> J F l H' st) ->
  (forall F l H st, J F l H st -> forall a, F a -> a < length H) ->
  (forall F l H st x r, J F l H st -> TS = l ++ erase x :: r -> holds H None 0 x -> full x -> NoDup (addrs x) ->
     (forall a, In a (addrs x) -> ~ F a) ->
     exists F' H' st', body (a_addr x) (H, st) = ((H', st'), Ok tt) /\ J F' (l ++ [erase x]) H' st'
       /\ agree (fun a => ~ F a) H H' /\ (forall a, F' a -> F a \/ In a (addrs x) \/ length H <= a)) ->
  J F l0 H st -> Forall (holds H None 0) sl -> NoDup (flat_map addrs sl) -> (forall a, In a (flat_map addrs sl) -> ~ F a) ->
  exists F' H' st', each (map a_addr sl) (fun r => run r body) (H, st) = ((H', st'), Ok tt) /\ J F' (l0 ++ List.concat tss) H' st'
    /\ agree (fun a => ~ F a /\ ~ In a (flat_map addrs sl)) H H' /\ (forall a, F' a -> F a \/ In a (flat_map addrs sl) \/ length H <= a).
Proof.
  intros X run sl tss F2. induction F2 as [|s ts sl tss Y F2 IH]; intros body J TS l0 r0 F H st ET JA JL BODY J0 Ho ND DJ.
  - exists F, H, st. cbn. rewrite app_nil_r. split; [reflexivity|]. split; [exact J0|]. split; [apply agree_refl|]. auto.
  - cbn [List.concat flat_map map] in *. inversion Ho as [|x y Hs Ho']; subst x y. apply nd_app in ND. destruct ND as (N1 & N2 & N3).
    destruct (Y body J TS l0 (List.concat tss ++ r0) F H st) as (F1 & H1 & st1 & R1 & J1 & A1 & U1); auto.
    { rewrite ET, <- app_assoc. reflexivity. } { intros a Ia. apply DJ. apply in_or_app. left. exact Ia. }
    destruct (IH body J TS (l0 ++ ts) r0 F1 H1 st1) as (F3 & H3 & st3 & R3 & J3 & A3 & U3); auto.
    { rewrite ET, <- !app_assoc. reflexivity. }
    { apply Forall_forall. intros s' Is. rewrite Forall_forall in Ho'. apply (holds_agree s' H H1 None 0 _ (Ho' s' Is) A1). intros a Ia.
      assert (Ia' : In a (flat_map addrs sl)) by (apply in_flat_map; eauto). split; [apply DJ; apply in_or_app; right; exact Ia'|]. intros Z. exact (N3 a Z Ia'). }
    { intros a Ia Z. destruct (U1 a Z) as [Q|[Q|Q]].
      - apply (DJ a); [apply in_or_app; right; exact Ia|exact Q].
      - exact (N3 a Q Ia).
      - apply in_flat_map in Ia. destruct Ia as (s' & Is & Ia). rewrite Forall_forall in Ho'. pose proof (holds_lt _ _ _ _ (Ho' s' Is) a Ia). lia. }
    exists F3, H3, st3. split; [|split; [|split]].
    + cbn [each]. rewrite (then_ok _ _ _ _ _ _ _ _ R1). exact R3.
    + rewrite <- app_assoc in J3. exact J3.
    + destruct A1 as [L1 E1]. destruct A3 as [L3 E3]. split; [lia|]. intros a [Na Nb] La.
      rewrite E3; [apply E1; [split; [exact Na|intros Z; apply Nb; apply in_or_app; left; exact Z]|exact La]| |lia].
      split; [|intros Z; apply Nb; apply in_or_app; right; exact Z]. intros Z. destruct (U1 a Z) as [Q|[Q|Q]]; [tauto|apply Nb; apply in_or_app; left; exact Q|lia].
    + intros a Za. destruct (U3 a Za) as [Q|[Q|Q]].
      * destruct (U1 a Q) as [Q2|[Q2|Q2]]; auto. right. left. apply in_or_app. left. exact Q2.
      * right. left. apply in_or_app. right. exact Q.
      * right. right. destruct A1. lia.
Qed.

Section Loop.
  Context (mcn : Z) (innerH : nat -> bool -> addr -> (addr -> lprog unit) -> lprog unit) (innerP : nat -> bool -> tree -> res (list tree))
    (Pin : nat -> tree -> Prop).
  Context (INNER : forall d kw s ts, Pin d (erase s) -> innerP d kw (erase s) = Ok ts -> yields (innerH d kw (a_addr s)) s ts).
  Context (V : nat -> parsed_piece -> Prop) (D pd : nat) (kw : bool).
  Context (LK : forall level ns dn, (level <= D)%nat -> level_ok V level ns -> run_level mcn innerP level (D - level =? 0) (pd =? level) kw ns = Ok dn ->
     NoDup (map fst (pattern_map dn)) /\ (forall k, In k (map fst (pattern_map dn)) <-> In k (map pn_piece ns))).
  Context (FINE : forall level ns, (level <= D)%nat -> level_ok V level ns -> fine Pin mcn innerP level (D - level =? 0) (pd =? level) kw ns).
  (** what is known of the trees of the loop *)
  Context (TOK : tree -> Prop) (TOKV : forall t, TOK t -> tok V D 0 t) (TOKA : forall t p, TOK t -> TOK (annotate p t))
    (TOKS : forall t subs, TOK t -> split_by_pattern t = Ok subs -> Forall TOK subs).

  Lemma loop_yields : forall X fuel s ts, TOK (erase s) -> cluster_loop mcn innerP fuel D pd kw (erase s) = Ok ts ->
    yields (fun body => hloop (X := X) mcn innerH fuel D pd kw (a_addr s) body) s ts.
  Proof.
    intros X. induction fuel as [|fuel IH]; intros s ts TK E; [discriminate|].
    intros body J TS l0 r0 F H st ET JA JL BODY J0 Ho ND DJ. cbn [cluster_loop] in E. cbn [hloop].
    destruct (holds_node _ _ _ _ Ho) as (n & En & _ & _ & _ & Ec & _).
    assert (RC : on_heap (reading (fun H => n <- get H (a_addr s) ;; Ok (n_count n))) (H, st) = ((H, st), Ok (a_cnt s))).
    { apply on_heap_ok. unfold reading. rewrite (get_ok _ _ _ En). cbn. rewrite Ec. reflexivity. }
    rewrite (then_ok _ _ _ _ _ _ _ _ RC). rewrite erase_cnt in E. destruct (a_cnt s <=? 0)%Z.
    { assert (ts = []) as -> by congruence. exists F, H, st. rewrite app_nil_r. split; [reflexivity|]. split; [exact J0|]. split; [apply agree_refl|]. auto. }
    destruct (process mcn innerP D pd kw (erase s)) as [[t split]|] eqn:Ep; [|discriminate]. cbn [bind] in E.
    destruct (hprocess_ok mcn innerH innerP Pin INNER V D pd kw LK FINE s H t split Ho ND (TOKV _ TK) Ep) as (H1 & s1 & R1 & Er & Ea & Eas & Ho1 & Fu1 & A1).
    assert (TK1 : TOK (erase s1)).
    { unfold process in Ep. destruct (proc mcn innerP D 0 pd kw [PN None [] (erase s)]) as [p|]; [|discriminate]. cbn [bind] in Ep. injection Ep as Et _.
      rewrite Er, <- Et. apply TOKA. exact TK. }
    rewrite (then_ok _ _ _ _ _ _ _ _ (on_heap_ok _ _ _ _ st _ _ R1)).
    assert (J1 : J F l0 H1 st).
    { apply (JA F l0 H H1 st J0). apply (agree_weak (fun a => ~ In a (addrs s))); [|exact A1]. intros a Fa Z. exact (DJ a Z Fa). }
    destruct split; cbn [negb] in E |- *.
    - destruct (split_by_pattern t) as [subs|] eqn:Es; [|discriminate]. cbn [bind] in E.
      match type of E with bind ?m _ = _ => destruct m as [rs|] eqn:Em; [|discriminate] end. cbn [bind] in E. injection E as <-.
      rewrite <- Er in Es. destruct (hsplit_ok H1 s1 subs Ho1 Fu1 ltac:(rewrite Eas; exact ND) Es) as (H2 & sl & R2 & E2 & A2 & Ho2 & N2 & W2).
      rewrite Ea in R2. rewrite (then_ok _ _ _ _ _ _ _ _ (on_heap_ok _ _ _ _ st _ _ R2)).
      assert (J2 : J F l0 H2 st).
      { apply (JA F l0 H1 H2 st J1). apply (agree_weak (fun _ => True)); auto. }
      assert (YS : Forall2 (fun s0 ts0 => yields (fun body => hloop (X := X) mcn innerH fuel D pd kw (a_addr s0) body) s0 ts0) sl rs).
      { pose proof (TOKS _ _ TK1 Es) as FT. rewrite <- E2 in Em, FT. apply mapM_ok in Em. clear -IH Em FT. remember (map erase sl) as l eqn:El. revert sl El.
        induction Em as [|t r l rs Et Em IHm]; intros sl El; destruct sl as [|s sl]; try discriminate; [constructor|].
        cbn in El. injection El as -> ->. inversion FT; subst. constructor; [apply IH; assumption|apply IHm; auto]. }
      destruct (each_yields X (fun a body => hloop mcn innerH fuel D pd kw a body) sl rs YS body J TS l0 r0 F H2 st ET JA JL BODY J2 Ho2 N2) as (F3 & H3 & st3 & R3 & J3 & A3 & U3).
      { intros a Ia Fa. pose proof (W2 a Ia). pose proof (JL _ _ _ _ J1 a Fa). lia. }
      exists F3, H3, st3. split; [exact R3|]. split; [exact J3|].
      destruct A1 as [L1 E1]. destruct A2 as [L2 E2']. destruct A3 as [L3 E3]. split.
      + split; [lia|]. intros a [Na Nb] La. rewrite E3; [rewrite E2' by (auto; lia); apply E1; auto| |lia]. split; [exact Na|]. intros Z. pose proof (W2 a Z). lia.
      + intros a Fa. destruct (U3 a Fa) as [Q|[Q|Q]]; [auto|right; right; pose proof (W2 a Q); lia|right; right; lia].
    - assert (ts = [erase s1]) as -> by congruence.
      destruct (BODY F l0 H1 st s1 r0 J1) as (F2 & H2 & st2 & R2 & J2 & A2 & U2); auto.
      { rewrite Eas. exact ND. } { rewrite Eas. exact DJ. }
      rewrite Ea in R2. rewrite Eas in U2. exists F2, H2, st2. split; [exact R2|]. split; [exact J2|]. destruct A1 as [L1 E1]. destruct A2 as [L2 E2]. split.
      + split; [lia|]. intros a [Na Nb] La. rewrite E2 by (auto; lia). apply E1; auto.
      + intros a Fa. destruct (U2 a Fa) as [Q|[Q|Q]]; auto. right. right. lia.
  Qed.
End Loop.
