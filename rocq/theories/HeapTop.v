(** The nodes as objects: histories of loads. *)
From Coq Require Import String.
From Verif Require Import PyStr Defs UrlLib ParseUtils Spec Trees Patterns Matcher Maker Observe Heap HeapSpec
  PyStrProofs DefsProofs PieceProofs TreeProofs DictProofs LoadProofs HeapProofs HeapLoad HeapState.
From Coq Require Import Lia Permutation.

Lemma hrun_snoc : forall nv es st e, hrun nv st (es ++ [e]) =
  (fst (hstep nv (fst (hrun nv st es)) e), snd (hrun nv st es) ++ [snd (hstep nv (fst (hrun nv st es)) e)]).
Proof.
  intros nv es. induction es as [|x es IH]; intros st e; cbn [app hrun].
  - cbn [fst snd app]. destruct (hstep nv st e) as [s1 o]. reflexivity.
  - destruct (hstep nv st x) as [s1 o]. rewrite IH. destruct (hrun nv s1 es) as [s2 os]. reflexivity.
Qed.
Lemma loads_in_snoc : forall es e, loads_in (es ++ [e]) =
  loads_in es ++ match e with ELoad url me => [(url, me)] | ELevel _ => [] end.
Proof. intros es e. unfold loads_in. rewrite flat_map_app. cbn. rewrite app_nil_r. reflexivity. Qed.
Lemma nth_snoc : forall A (l : list A) x i y, nth_error (l ++ [x]) i = Some y ->
  (i < length l /\ nth_error l i = Some y) \/ (i = length l /\ y = x).
Proof.
  intros A l x i y E. destruct (Nat.lt_ge_cases i (length l)) as [L|L].
  - rewrite nth_error_app1 in E by exact L. auto.
  - rewrite nth_error_app2 in E by exact L. destruct (i - length l) as [|k] eqn:D.
    + cbn in E. injection E as <-. right. split; [lia|reflexivity].
    + cbn in E. destruct k; discriminate.
Qed.
Lemma firstn_snoc : forall A (l : list A) x i, i <= length l -> firstn i (l ++ [x]) = firstn i l.
Proof. intros A l x i L. rewrite firstn_app. replace (i - length l) with 0 by lia. cbn. apply app_nil_r. Qed.

(** the maker of a ghost entry *)
Lemma ghost_maker : forall nv h g sid m s, loads nv h = map fm g -> In (sid, (m, s)) g ->
  In (sid, MK m (erase s)) (loads nv h).
Proof. intros nv h g sid m s E I. rewrite E. change (sid, MK m (erase s)) with (fm (sid, (m, s))). apply in_map. exact I. Qed.
Lemma maker_meta : forall nv h url m raw mk, url_path nv url = Some (m, raw) -> In (digest_of m raw, mk) (loads nv h) ->
  mk_meta mk = m.
Proof.
  intros nv h url m raw mk U I. destruct (loads_maker _ _ _ _ I) as [_ [(url0 & raw0 & U0 & D & _)]].
  symmetry. apply (digest_iff nv url url0 m raw _ _ U U0). symmetry. exact D.
Qed.
Lemma inv_in : forall H g sid m s, inv H g -> In (sid, (m, s)) g -> holds H None 0 s /\ NoDup (addrs s).
Proof.
  intros H g sid m s IV I. split.
  - pose proof (iv_holds _ _ IV) as F. rewrite Forall_forall in F. apply (F _ I).
  - apply in_split in I. destruct I as (x & y & ->). pose proof (iv_nd _ _ IV) as N0. unfold g_addrs in N0. rewrite flat_map_app in N0.
    cbn [flat_map snd] in N0. apply nd_app in N0. destruct N0 as (_ & N0 & _). apply nd_app in N0. tauto.
Qed.
Lemma inv_one : forall H g sid m s sid' m' s' b, inv H g -> In (sid, (m, s)) g -> In (sid', (m', s')) g ->
  In b (addrs s) -> In b (addrs s') -> (sid, (m, s)) = (sid', (m', s')).
Proof.
  intros H g sid m s sid' m' s' b IV I I' A A'. apply in_split in I. destruct I as (x & y & ->).
  pose proof (iv_nd _ _ IV) as N0. unfold g_addrs in N0. rewrite flat_map_app in N0.
  cbn [flat_map snd] in N0. apply nd_app in N0. destruct N0 as (_ & N0 & D1). apply nd_app in N0. destruct N0 as (_ & _ & D2).
  apply in_app_iff in I'. destruct I' as [I'|[I'|I']]; [|exact I'|].
  - exfalso. apply (D1 b); [apply in_flat_map; exists (sid', (m', s')); auto|]. apply in_app_iff. auto.
  - exfalso. apply (D2 b A). apply in_flat_map. exists (sid', (m', s')). auto.
Qed.
Lemma at_in : forall ks s b, aat s ks = Some b -> In b (addrs s).
Proof.
  intros ks. induction ks as [|k r IH]; intros [a v p c m l] b E; [cbn in E; injection E as <-; left; reflexivity|].
  rewrite aat_cons in E. cbn [a_kids] in E. destruct (akid k l) as [z|] eqn:EK; [|discriminate].
  destruct (akid_some _ _ _ EK) as (x & y & -> & _). right. rewrite flat_mid, !in_app_iff. right. left. eapply IH. exact E.
Qed.

(** the invariant of a run *)
Record good (nv : str -> bool) (es : list event) (outs : list outcome) (H : heap) (g : ghost) : Prop := {
  gd_inv : inv H g;
  gd_loads : loads nv (loads_in es) = map fm g;
  gd_len : length outs = length es;
  gd_load : forall i url me, nth_error es i = Some (ELoad url me) ->
    exists r, nth_error outs i = Some (OLoad r) /\
      match r with
      | Err e => snd (load nv (loads nv (loads_in (firstn i es))) url me) = Err e
      | Ok (b, new) => snd (load nv (loads nv (loads_in (firstn i es))) url me) = Ok new /\
          exists m raw s, url_path nv url = Some (m, raw) /\ In (digest_of m raw, (m, s)) g
            /\ aat s (map piece_of raw) = Some b
      end
}.
Lemma level_gen : forall nv h H g b, loads nv h = map fm g -> inv H g ->
  exists H' r, level H b = (H', r) /\ inv H' g /\ length H' = length H /\
    match r with
    | Ok l => exists sid m s ks, In (sid, (m, s)) g /\ aat s ks = Some b /\ l = length ks
    | Err _ => length H <= b
    end.
Proof.
  intros nv h H g b E IV. destruct (Nat.lt_ge_cases b (length H)) as [L|L].
  - pose proof L as Q. apply (iv_all _ _ IV) in Q. apply in_flat_map in Q. destruct Q as ([sid [m s]] & I & Hb). cbn [snd] in Hb.
    destruct (inv_in _ _ _ _ _ IV I) as [Hs ND].
    destruct (c18_paths _ _ _ _ (ghost_maker _ _ _ _ _ _ E I)) as [W _]. cbn [mk_root] in W.
    destruct (addr_at _ _ _ W Hb) as [ks EA].
    destruct (level_at s H ks b Hs ND EA) as (H' & E1 & L1 & F1 & A1 & S1).
    exists H', (Ok (length ks)). split; [exact E1|]. split; [|split; [exact L1|exists sid, m, s, ks; auto]].
    apply in_split in I. destruct I as (x & y & ->). destruct (inv_step H H' x y sid m s s IV A1 (same_step _ _ _ _ S1) ND) as [X _]. exact X.
  - exists H, (Err EFuel). unfold level, get. assert (N0 : nth_error H b = None) by (apply nth_error_None; exact L). rewrite N0. auto.
Qed.
Lemma good_step : forall nv es outs H g e, good nv es outs H g ->
  exists H' g', hstep nv (HS H (map hm g)) e = (HS H' (map hm g'), snd (hstep nv (HS H (map hm g)) e))
    /\ good nv (es ++ [e]) (outs ++ [snd (hstep nv (HS H (map hm g)) e)]) H' g' /\ ggrows g g'.
Proof.
  intros nv es outs H g e [IV LD LN GL]. destruct e as [url me|b]; cbn [hstep].
  - destruct (load_gen nv H g url me IV) as (H' & g' & r & E & EL & IV' & GG & R). rewrite E. exists H', g'.
    split; [reflexivity|]. cbn [snd]. split; [|exact GG].
    assert (LD' : loads nv (loads_in (es ++ [ELoad url me])) = map fm g') by (rewrite loads_in_snoc, loads_snoc, LD; exact EL).
    constructor; [exact IV'|exact LD'|rewrite !app_length; cbn; lia|].
    intros i url0 me0 Ei. destruct (nth_snoc _ _ _ _ _ Ei) as [[Li Ei']|[-> Ee]].
    + destruct (GL i url0 me0 Ei') as (r0 & O & G). exists r0. split; [rewrite nth_error_app1 by lia; exact O|].
      rewrite firstn_snoc by lia. destruct r0 as [[b0 n0]|e0]; [|exact G]. destruct G as (G1 & m & raw & s & U & I & A). split; [exact G1|].
      destruct (GG _ _ _ I) as (s' & I' & Gs). exists m, raw, s'. auto.
    + injection Ee as <- <-. exists r. split; [rewrite nth_error_app2 by lia; rewrite LN, Nat.sub_diag; reflexivity|].
      rewrite firstn_snoc, firstn_all by lia. rewrite LD. destruct r as [[b0 n0]|e0]; [|exact R].
      destruct R as (R1 & m & pps & m0 & s & EP & I & A). split; [exact R1|].
      destruct (url_path nv url0) as [[m1 raw]|] eqn:U.
      * destruct (url_path_parse _ _ _ _ U) as (_ & LG & P). rewrite EP in P. injection P as -> ->.
        destruct (digest_of_legal m1 raw LG) as [D _]. unfold parsed_digest in I. rewrite <- D in I.
        rewrite <- (piece_of_legal raw LG) in A.
        pose proof (maker_meta nv _ url0 m1 raw _ U (ghost_maker _ _ _ _ _ _ LD' I)) as M0. cbn in M0. subst m0.
        exists m1, raw, s. auto.
      * exfalso. destruct (url_path_none _ _ U) as [[e E']|(m1 & ms & E')]; rewrite EP in E'; discriminate.
  - cbn [hs_heap hs_makers]. destruct (level_gen nv _ H g b LD IV) as (H' & r & E & IV' & LL & _). rewrite E. exists H', g. split; [reflexivity|].
    cbn [snd]. split; [|apply ggrows_refl]. constructor; [exact IV'| |rewrite !app_length; cbn; lia|].
    + rewrite loads_in_snoc, app_nil_r. exact LD.
    + intros i url0 me0 Ei. destruct (nth_snoc _ _ _ _ _ Ei) as [[Li Ei']|[-> Ee]]; [|discriminate].
      destruct (GL i url0 me0 Ei') as (r0 & O & G). exists r0. split; [rewrite nth_error_app1 by lia; exact O|].
      rewrite firstn_snoc by lia. exact G.
Qed.
Lemma run_good : forall nv es, exists H g, fst (hrun nv hnew es) = HS H (map hm g) /\ good nv es (snd (hrun nv hnew es)) H g.
Proof.
  intros nv es. induction es as [|e es IH] using rev_ind.
  - exists [], []. split; [reflexivity|]. constructor; [apply inv_nil|reflexivity|reflexivity|]. intros i url me E. destruct i; discriminate.
  - destruct IH as (H & g & E & G). destruct (good_step nv es _ H g e G) as (H' & g' & E1 & G1 & _).
    rewrite hrun_snoc, E. cbn [fst snd]. exists H', g'. split; [rewrite E1; reflexivity|exact G1].
Qed.

(** ** The theorems *)
Lemma c65_tree : forall nv es, let st := fst (hrun nv hnew es) in
  Forall2 (fun x y => fst x = fst y /\ hk_meta (snd x) = mk_meta (snd y)
                      /\ reads (hs_heap st) (hk_root (snd x)) (mk_root (snd y)))
    (hs_makers st) (loads nv (loads_in es)).
Proof.
  intros nv es st. unfold st. destruct (run_good nv es) as (H & g & -> & G). cbn [hs_heap hs_makers].
  rewrite (gd_loads _ _ _ _ _ G). pose proof (iv_holds _ _ (gd_inv _ _ _ _ _ G)) as F. clear G. induction g as [|[sid [m s]] g IH]; cbn [map]; [constructor|].
  apply Forall_cons_iff in F. destruct F as [F1 F2]. constructor; [|apply IH; exact F2]. cbn. split; [reflexivity|]. split; [reflexivity|].
  eapply holds_reads. exact F1.
Qed.
Lemma c65_results : forall nv es i url me, nth_error es i = Some (ELoad url me) ->
  exists r, nth_error (snd (hrun nv hnew es)) i = Some (OLoad r) /\
    match r with
    | Ok (_, new) => snd (load nv (loads nv (loads_in (firstn i es))) url me) = Ok new
    | Err e => snd (load nv (loads nv (loads_in (firstn i es))) url me) = Err e
    end.
Proof.
  intros nv es i url me E. destruct (run_good nv es) as (H & g & _ & G). destruct (gd_load _ _ _ _ _ G i url me E) as (r & O & R).
  exists r. split; [exact O|]. destruct r as [[b n]|e]; [apply R|exact R].
Qed.
Lemma filter_one : forall (l : list (list str)) p x, NoDup l -> In x l -> (forall y, In y l -> p y = true <-> y = x) ->
  length (filter p l) = 1.
Proof.
  intros l p x. induction l as [|z l IH]; intros N0 I F; [destruct I|]. apply NoDup_cons_iff in N0. destruct N0 as [Z N0]. cbn [filter].
  destruct (path_dec z x) as [->|Q].
  - assert (P : p x = true) by (apply F; [left; reflexivity|reflexivity]). rewrite P. cbn [length]. f_equal.
    assert (FE : filter p l = []); [|rewrite FE; reflexivity]. clear IH N0 I P.
    assert (FF : forall y, In y l -> p y = false).
    { intros y Hy. destruct (p y) eqn:Py; [|reflexivity]. apply F in Py; [subst; contradiction|right; exact Hy]. }
    clear - FF. induction l as [|z l IH]; [reflexivity|]. cbn. rewrite FF by (left; reflexivity). apply IH. intros y Hy. apply FF. right. exact Hy.
  - destruct I as [I|I]; [contradiction|]. destruct (p z) eqn:Pz; [apply F in Pz; [contradiction|left; reflexivity]|].
    apply IH; auto. intros y Hy. apply F. right. exact Hy.
Qed.
(** no node has a pattern yet *)
Lemma no_pattern : forall nv h sid mk, In (sid, mk) (loads nv h) -> forall ks n, node_at (mk_root mk) ks = Some n -> t_pat n = None.
Proof.
  assert (BP : forall kvs t f c nw, Forall (fun kv : parsed_piece * option str => snd kv = None) kvs ->
        (forall ks n, node_at t ks = Some n -> t_pat n = None) -> forall ks n, node_at (fst (build t kvs c f nw)) ks = Some n -> t_pat n = None).
      { intros kvs. induction kvs as [|[pp pat] r IH]; intros t f c nw FK NT ks n E.
        - destruct t as [v p cc m kk]. cbn [build fst] in E. destruct ks as [|k ks].
          + cbn in E. injection E as <-. apply (NT [] (T v p cc m kk)). reflexivity.
          + apply (NT (k :: ks)). exact E.
        - apply Forall_cons_iff in FK. destruct FK as [F1 F2]. cbn in F1. subst pat. destruct ks as [|k ks].
          + assert (E0 : Some (fst (build t ((pp, None) :: r) c f nw)) = Some n) by exact E. apply (f_equal (option_map t_pat)) in E0.
            cbn [option_map] in E0. rewrite build_pat in E0. rewrite (NT [] t eq_refl) in E0. congruence.
          + rewrite node_at_cons in E. destruct (str_dec k (piece pp)) as [->|Q].
            * destruct (build_kid_same f c pp None r t nw) as (n' & EK & _). rewrite EK in E.
              apply (IH _ f c n' F2) in E; [exact E|]. intros ks0 n0 E0. destruct (kid (piece pp) (t_kids t)) as [x|] eqn:EX.
              -- apply (NT (piece pp :: ks0)). rewrite node_at_cons, EX. exact E0.
              -- destruct ks0; cbn in E0; [injection E0 as <-; reflexivity|discriminate].
            * rewrite build_kid_other in E by exact Q. apply (NT (k :: ks)). rewrite node_at_cons. exact E. }
      assert (IP : forall ks0 t d, (forall ks n, node_at t ks = Some n -> t_pat n = None) -> forall ks n, node_at (incr_path t ks0 d) ks = Some n -> t_pat n = None).
      { intros ks0. induction ks0 as [|k0 r IH]; intros [v p cc m kk] d NT ks n E.
        - cbn [incr_path] in E. destruct ks as [|k ks]; [cbn in E; injection E as <-; apply (NT [] (T v p cc m kk)); reflexivity|apply (NT (k :: ks)); exact E].
        - cbn [incr_path] in E. destruct ks as [|k ks]; [cbn in E; injection E as <-; apply (NT [] (T v p cc m kk)); reflexivity|].
          rewrite node_at_cons in E. cbn [t_kids] in E. destruct (kid_split k0 kk) as [[[a1 x] b1]|] eqn:EK.
          + destruct (kid_split_some _ _ _ _ _ EK) as (-> & P & N0). destruct (str_dec k k0) as [->|Q].
            * rewrite kid_app_skip in E by exact N0. rewrite kid_cons_eq in E by (rewrite incr_piece; exact P).
              apply (IH x d) in E; [exact E|]. intros ks1 n1 E1. apply (NT (k0 :: ks1)). rewrite node_at_cons. cbn [t_kids].
              rewrite kid_app_skip by exact N0. rewrite kid_cons_eq by exact P. exact E1.
            * rewrite (kid_mid k a1 x (incr_path x r d) b1) in E by (rewrite ?incr_piece; congruence). apply (NT (k :: ks)). rewrite node_at_cons. exact E.
          + apply (NT (k :: ks)). rewrite node_at_cons. exact E. }
      intros nv0 h. induction h as [|[url me] h IH] using rev_ind; intros sid mk I; [destruct I|]. rewrite loads_snoc in I.
      unfold load in I. destruct (parse nv0 url) as [[m0 [[|p0 pps]|[|q l]]]|e]; cbn [fst] in I; try (apply (IH sid mk I); fail).
      set (P := p0 :: pps) in *. set (sid0 := parsed_digest m0 (PUrl P)) in *.
      set (mk0 := match dget str_eqb sid0 (loads nv0 h) with Some mk => mk | None => MK m0 new_root end) in *.
      assert (N0 : forall ks n, node_at (mk_root mk0) ks = Some n -> t_pat n = None).
      { unfold mk0. destruct (dget str_eqb sid0 (loads nv0 h)) as [mk1|] eqn:ED.
        - apply (IH sid0). apply (dget_some_in str_eqb str_eqb_iff). exact ED.
        - intros ks n E. destruct ks; cbn in E; [injection E as <-; reflexivity|discriminate]. }
      destruct (maker_load mk0 P me) as [mk1 o] eqn:EL. cbn [fst] in I.
      assert (N1 : forall ks n, node_at (mk_root mk1) ks = Some n -> t_pat n = None).
      { assert (FK : Forall (fun kv : parsed_piece * option str => snd kv = None) (map (fun p => (p, None)) P))
          by (rewrite Forall_map, Forall_forall; reflexivity).
        unfold maker_load, build_from_parsed_pieces in EL.
        pose proof (BP _ (mk_root mk0) (add_meta me) 1%Z None FK N0) as B1.
        pose proof (BP _ (mk_root mk0) (fun m => m) 1%Z None FK N0) as B2.
        destruct (build (mk_root mk0) (map (fun p => (p, None)) P) 1 (add_meta me) None) as [t1 [nw|]]; injection EL as <- <-.
        - destruct nw; [exact B1|]. exact (IP (map piece P) t1 (-1)%Z B1).
        - exact B2. }
      apply (dget_in str_eqb str_eqb_iff) in I; [|apply (dset_NoDup str_eqb str_eqb_iff); apply c18_keys].
      destruct (str_dec sid sid0) as [->|Q].
      - rewrite (dget_dset_same str_eqb str_eqb_iff) in I. injection I as <-. exact N1.
      - rewrite (dget_dset_other str_eqb str_eqb_iff) in I by exact Q. apply (IH sid). apply (dget_some_in str_eqb str_eqb_iff). exact I.
Qed.
Lemma c65_node : forall nv es i url me a new,
  nth_error es i = Some (ELoad url me) -> nth_error (snd (hrun nv hnew es)) i = Some (OLoad (Ok (a, new))) ->
  let st := fst (hrun nv hnew es) in
  exists m raw mk n, url_path nv url = Some (m, raw) /\ In (digest_of m raw, mk) (hs_makers st)
    /\ chain (hs_heap st) a (map piece_of raw) (hk_root mk)
    /\ nth_error (hs_heap st) a = Some n /\ n_count n = 1%Z /\ entries n = [] /\ n_pattern n = None
    /\ match n_meta n with
       | None => forall x, ~ In (m, raw, Some x) (accepted nv (loads_in es))
       | Some l => l <> [] /\ NoDup l /\ forall x, In x l <-> In (m, raw, Some x) (accepted nv (loads_in es))
       end.
Proof.
  intros nv es i url me a new E O st. unfold st. destruct (run_good nv es) as (H & g & -> & G). cbn [hs_heap hs_makers].
  destruct (gd_load _ _ _ _ _ G i url me E) as (r & O' & R). rewrite O in O'. injection O' as <-. destruct R as (_ & m & raw & s & U & I & A).
  destruct (inv_in _ _ _ _ _ (gd_inv _ _ _ _ _ G) I) as [Hs ND].
  pose proof (ghost_maker _ _ _ _ _ _ (gd_loads _ _ _ _ _ G) I) as IM.
  destruct (at_sub _ _ _ _ _ _ Hs A) as (sub & par & Hsub & Ea & EN).
  destruct sub as [a0 v p c me0 kk]. cbn [a_addr] in Ea. subst a0. pose proof Hsub as Hsub0. apply holds_iff in Hsub.
  destruct Hsub as [(n & En & R1 & R2 & R3 & R4 & R5 & R6 & R7) _].
  exists m, raw, (HMK m (a_addr s)), n. split; [exact U|]. split; [change (digest_of m raw, HMK m (a_addr s)) with (hm (digest_of m raw, (m, s))); apply in_map; exact I|].
  split; [apply root_chain; assumption|]. split; [exact En|].
  assert (IA : In (url, me) (loads_in es)).
  { unfold loads_in. apply in_flat_map. exists (ELoad url me). split; [eapply nth_error_In; exact E|left; reflexivity]. }
  assert (IG : In raw (distinct_paths nv (digest_of m raw) (loads_in es))).
  { unfold distinct_paths. apply nodup_In. apply in_map_iff. exists (raw, me). split; [reflexivity|]. apply in_group. exists url, m. auto. }
  destruct (url_path_parse _ _ _ _ U) as (_ & LG & _).
  destruct (c18_paths _ _ _ _ IM) as (W & WP & _ & WD). cbn [mk_root mk_meta] in *.
  destruct (url_path_depth _ _ _ _ U) as [LD NE].
  assert (LG' : Forall (Forall legal) raw) by (eapply Forall_impl; [|exact LG]; intros z Hz; apply all_legal_iff; exact Hz).
  split; [|split; [|split]].
  - rewrite R4. pose proof (c15_counts nv (loads_in es) _ _ raw IM LG') as CC. cbn [mk_root] in CC. unfold cnt_at in CC.
    rewrite EN in CC. cbn [erase t_cnt] in CC. rewrite CC. rewrite (filter_one _ _ raw); [reflexivity|apply NoDup_nodup|exact IG|].
    intros y Hy. split.
    + intros Q. symmetry. apply prefixb_eq; [exact Q|]. destruct (WD y y Hy Hy) as [LY _]. lia.
    + intros ->. apply prefixb_refl.
  - rewrite R6. assert (KN : forall d t ks n0, wft d t -> length ks = d -> node_at t ks = Some n0 -> t_kids n0 = []).
    { intros d. induction d as [|d IHd]; intros t ks n0 Wt Lk Nk.
      - destruct ks; [|discriminate]. cbn in Nk. injection Nk as <-. apply Wt.
      - destruct ks as [|k ks]; [discriminate|]. rewrite node_at_cons in Nk. destruct (kid k (t_kids t)) as [c0|] eqn:EK; [|discriminate].
        destruct (kid_some_in _ _ _ EK) as [Ic _]. cbn [wft] in Wt. destruct Wt as (_ & _ & _ & _ & Wt). rewrite Forall_forall in Wt.
        apply (IHd c0 ks n0); [apply Wt; exact Ic|cbn in Lk; lia|exact Nk]. }
    assert (LL : length (map piece_of raw) = depth m) by (rewrite map_length; exact LD).
    specialize (KN _ _ _ _ W LL EN). cbn [erase t_kids] in KN. destruct kk; [reflexivity|discriminate].
  - (* the pattern *)
    rewrite R3. apply (no_pattern _ _ _ _ IM) in EN. exact EN.
  - rewrite R5. destruct (c16 nv (loads_in es) _ _ raw IM IG) as [_ M]. cbn [mk_root mk_meta] in M. unfold meta_at in M. rewrite EN in M.
    cbn [erase t_meta] in M. exact M.
Qed.
Lemma c65_same : forall nv es i j url me a new url' me' a' new',
  nth_error es i = Some (ELoad url me) -> nth_error (snd (hrun nv hnew es)) i = Some (OLoad (Ok (a, new))) ->
  nth_error es j = Some (ELoad url' me') -> nth_error (snd (hrun nv hnew es)) j = Some (OLoad (Ok (a', new'))) ->
  (a = a' <-> url_path nv url = url_path nv url').
Proof.
  intros nv es i j url me a new url' me' a' new' Ei Oi Ej Oj. destruct (run_good nv es) as (H & g & _ & G).
  destruct (gd_load _ _ _ _ _ G i url me Ei) as (r & O' & R). rewrite Oi in O'. injection O' as <-. destruct R as (_ & m & raw & s & U & I & A).
  destruct (gd_load _ _ _ _ _ G j url' me' Ej) as (r' & O' & R'). rewrite Oj in O'. injection O' as <-. destruct R' as (_ & m' & raw' & s' & U' & I' & A').
  rewrite U, U'. split.
  - intros <-. pose proof (inv_one _ _ _ _ _ _ _ _ a (gd_inv _ _ _ _ _ G) I I' (at_in _ _ _ A) (at_in _ _ _ A')) as Q. injection Q as _ <- <-.
    destruct (inv_in _ _ _ _ _ (gd_inv _ _ _ _ _ G) I) as [Hs _].
    destruct (chain_det _ _ _ _ (root_chain _ _ _ _ Hs A) _ _ (root_chain _ _ _ _ Hs A')) as [Q _].
    destruct (url_path_parse _ _ _ _ U) as (_ & L1 & _). destruct (url_path_parse _ _ _ _ U') as (_ & L2 & _).
    apply pieces_inj in Q; [|assumption|assumption]. subst. reflexivity.
  - intros Q. injection Q as <- <-. pose proof (ghost_maker _ _ _ _ _ _ (gd_loads _ _ _ _ _ G) I) as M1.
    assert (NK : NoDup (map fst g)).
    { destruct (c18_keys nv (loads_in es)) as [X _]. rewrite (gd_loads _ _ _ _ _ G), map_map in X. exact X. }
    apply (dget_in str_eqb str_eqb_iff _ _ _ NK) in I. apply (dget_in str_eqb str_eqb_iff _ _ _ NK) in I'. rewrite I in I'. injection I' as <-.
    rewrite A in A'. injection A' as <-. reflexivity.
Qed.
Lemma c65_new : forall nv es i url me a new,
  nth_error es i = Some (ELoad url me) -> nth_error (snd (hrun nv hnew es)) i = Some (OLoad (Ok (a, new))) ->
  (new = true <-> forall j b, j < i -> nth_error (snd (hrun nv hnew es)) j <> Some (OLoad (Ok (a, b)))).
Proof.
  intros nv es i url me a new E O. destruct (c65_results nv es i url me E) as (r & O' & R). rewrite O in O'. injection O' as <-.
  assert (UP : exists m raw, url_path nv url = Some (m, raw)) by (destruct (c65_node _ _ _ _ _ _ _ E O) as (m & raw & _ & _ & U & _); eauto).
  destruct UP as (m & raw & U). pose proof (c15_new nv (loads_in (firstn i es)) url me) as CN. rewrite U, R in CN.
  assert (KEY : (exists me0, In (m, raw, me0) (accepted nv (loads_in (firstn i es)))) <->
                exists j b, j < i /\ nth_error (snd (hrun nv hnew es)) j = Some (OLoad (Ok (a, b)))).
  { split.
    - intros (me0 & I). apply in_accepted in I. destruct I as (url0 & I & U0). unfold loads_in in I. apply in_flat_map in I.
      destruct I as (ev & Iv & Ie). destruct ev as [u0 m0|]; [|destruct Ie]. destruct Ie as [Ie|[]]. injection Ie as -> ->.
      apply In_nth_error in Iv. destruct Iv as [j Ej]. assert (Lj : j < i).
      { assert (X : j < length (firstn i es)) by (apply nth_error_Some; congruence). rewrite firstn_length in X. lia. }
      assert (Ej' : nth_error es j = Some (ELoad url0 me0)).
      { rewrite <- (firstn_skipn i es). rewrite nth_error_app1; [exact Ej|]. apply nth_error_Some. congruence. }
      destruct (c65_results nv es j url0 me0 Ej') as (r & Oj & Rj). pose proof (c15_new nv (loads_in (firstn j es)) url0 me0) as C0. rewrite U0 in C0.
      destruct r as [[a0 n0]|e0]; [|rewrite Rj in C0; destruct C0 as [[C0 _]|[C0 _]]; discriminate].
      exists j, n0. split; [exact Lj|]. rewrite Oj. f_equal. f_equal. f_equal. f_equal.
      apply (c65_same nv es j i url0 me0 a0 n0 url me a new Ej' Oj E O). congruence.
    - intros (j & b & Lj & Oj). assert (EV : exists url0 me0, nth_error es j = Some (ELoad url0 me0)).
      { destruct (run_good nv es) as (H & g & _ & G). assert (Lo : j < length es).
        { rewrite <- (gd_len _ _ _ _ _ G). apply nth_error_Some. congruence. }
        destruct (nth_error es j) as [[url0 me0|b0]|] eqn:Ee; [eauto| |apply nth_error_None in Ee; lia].
        exfalso. clear - Ee Oj. revert Ee Oj. generalize hnew. revert j. induction es as [|e es IH]; intros j st Ee Oj; [destruct j; discriminate|].
        cbn [hrun] in Oj. destruct (hstep nv st e) as [s1 o] eqn:ES. destruct (hrun nv s1 es) as [s2 os] eqn:ER. cbn [snd] in Oj. destruct j as [|j].
        - cbn in Ee, Oj. injection Ee as ->. injection Oj as ->. cbn in ES. destruct (level (hs_heap st) b0). discriminate.
        - cbn in Ee, Oj. apply (IH j s1); [exact Ee|]. rewrite ER. exact Oj. }
      destruct EV as (url0 & me0 & Ej). exists me0. apply in_accepted. exists url0. split.
      + unfold loads_in. apply in_flat_map. exists (ELoad url0 me0). split; [|left; reflexivity].
        rewrite <- (firstn_skipn i es) in Ej. destruct (Nat.lt_ge_cases j (length (firstn i es))) as [L|L].
        * rewrite nth_error_app1 in Ej by exact L. eapply nth_error_In. exact Ej.
        * exfalso. assert (X : i < length es) by (apply nth_error_Some; congruence). rewrite firstn_length in L. lia.
      + rewrite <- U. apply (c65_same nv es j i url0 me0 a b url me a new Ej Oj E O). reflexivity. }
  split.
  - intros -> j b Lj Oj. destruct CN as [[_ CN]|[CN _]]; [|discriminate]. apply CN. apply KEY. eauto.
  - intros NO. destruct CN as [[CN _]|[_ CN]]; [injection CN as ->; reflexivity|]. apply KEY in CN. destruct CN as (j & b & Lj & Oj). exfalso. exact (NO j b Lj Oj).
Qed.
Lemma c65_level : forall nv es a ps r, let st := fst (hrun nv hnew es) in
  chain (hs_heap st) a ps r -> snd (level (hs_heap st) a) = Ok (length ps).
Proof.
  intros nv es a ps r st. unfold st. destruct (run_good nv es) as (H & g & -> & G). cbn [hs_heap]. intros C.
  destruct (level_gen nv _ H g a (gd_loads _ _ _ _ _ G) (gd_inv _ _ _ _ _ G)) as (H' & r0 & E & _ & _ & R). rewrite E. cbn [snd].
  destruct r0 as [l|e].
  - destruct R as (sid & m & s & ks & I & A & ->). destruct (inv_in _ _ _ _ _ (gd_inv _ _ _ _ _ G) I) as [Hs _].
    destruct (chain_det _ _ _ _ C _ _ (root_chain _ _ _ _ Hs A)) as [-> _]. reflexivity.
  - exfalso. assert (X : a < length H); [|lia]. apply nth_error_Some. inversion C as [x n En|x n b0 ps0 r1 En]; subst; rewrite En; discriminate.
Qed.
Lemma c65_every : forall nv es a, let st := fst (hrun nv hnew es) in a < length (hs_heap st) ->
  exists sid mk pre n, In (sid, mk) (hs_makers st) /\ Forall (Forall legal) pre
    /\ chain (hs_heap st) a (map piece_of pre) (hk_root mk) /\ nth_error (hs_heap st) a = Some n
    /\ n_count n = Z.of_nat (length (filter (prefixb pre) (distinct_paths nv sid (loads_in es))))
    /\ (0 < n_count n)%Z.
Proof.
  intros nv es a st. unfold st. destruct (run_good nv es) as (H & g & -> & G). cbn [hs_heap hs_makers]. intros L.
  destruct G as [IV LD _ _]. apply (iv_all _ _ IV) in L. apply in_flat_map in L. destruct L as ([sid [m s]] & I & Hb). cbn [snd] in Hb.
  destruct (inv_in _ _ _ _ _ IV I) as [Hs _]. pose proof (ghost_maker _ _ _ _ _ _ LD I) as IM.
  destruct (c18_paths _ _ _ _ IM) as [W _]. cbn [mk_root mk_meta] in W.
  destruct (addr_at _ _ _ W Hb) as [ks EA]. destruct (at_sub _ _ _ _ _ _ Hs EA) as (sub & par & Hsub & Ea & EN).
  destruct sub as [a0 v p c me0 kk]. cbn [a_addr] in Ea. subst a0. apply holds_iff in Hsub. destruct Hsub as [(n & En & R1 & R2 & R3 & R4 & _) _].
  destruct (loads_maker _ _ _ _ IM) as [NE [(url0 & raw0 & U0 & D0 & _ & TK)]]. cbn [mk_root mk_meta] in *.
  assert (PRE : exists pre, Forall (Forall legal) pre /\ map piece_of pre = ks).
  { destruct ks as [|k ks]; [exists []; split; [constructor|reflexivity]|].
    assert (X : node_at (erase s) (k :: ks) <> None) by congruence. apply (ok_node _ _ _ TK) in X; [|discriminate].
    destruct X as (e & Ie & P). unfold keyed in Ie. apply in_map_iff in Ie. destruct Ie as ([raw me] & <- & Ie). cbn [fst] in P.
    assert (LG : Forall all_legal raw) by (apply (group_legal nv sid (loads_in es)); apply in_map_iff; exists (raw, me); auto).
    exists (firstn (length (k :: ks)) raw). split; [eapply Forall_impl; [intros z Hz; apply all_legal_iff; exact Hz|]; apply Forall_forall; intros z Hz; rewrite Forall_forall in LG; apply LG; rewrite <- (firstn_skipn (length (k :: ks)) raw); apply in_app_iff; left; exact Hz|]. rewrite <- firstn_map. clear - P. revert P.
    generalize (map piece_of raw) as l. generalize (k :: ks) as z. induction z as [|x z IH]; intros [|y l] P; cbn in *; try reflexivity; [discriminate|].
    apply andb_true_iff in P. destruct P as [P1 P2]. apply str_eqb_iff in P1. subst. f_equal. apply IH. exact P2. }
  destruct PRE as (pre & LG & <-). exists sid, (HMK m (a_addr s)), pre, n.
  split; [change (sid, HMK m (a_addr s)) with (hm (sid, (m, s))); apply in_map; exact I|]. split; [exact LG|].
  split; [apply root_chain; assumption|]. split; [exact En|].
  assert (CE : n_count n = Z.of_nat (length (filter (prefixb pre) (distinct_paths nv sid (loads_in es))))).
  { rewrite R4. pose proof (c15_counts nv (loads_in es) _ _ pre IM LG) as CC. cbn [mk_root] in CC. unfold cnt_at in CC.
    rewrite EN in CC. cbn [erase t_cnt] in CC. exact CC. }
  split; [exact CE|]. rewrite R4.
  assert (PW : forall d t ks0 n0, wft d t -> node_at t ks0 = Some n0 -> (0 < t_cnt n0)%Z).
  { intros d. induction d as [|d IHd]; intros t ks0 n0 Wt Nk.
    - destruct ks0 as [|k ks0]; [cbn in Nk; injection Nk as <-; apply Wt|]. destruct Wt as [_ Wt]. rewrite node_at_cons, Wt in Nk. discriminate.
    - destruct ks0 as [|k ks0]; [cbn in Nk; injection Nk as <-; apply Wt|]. rewrite node_at_cons in Nk. destruct (kid k (t_kids t)) as [c0|] eqn:EK; [|discriminate].
      destruct (kid_some_in _ _ _ EK) as [Ic _]. cbn [wft] in Wt. destruct Wt as (_ & _ & _ & _ & Wt). rewrite Forall_forall in Wt. eapply IHd; [apply Wt; exact Ic|exact Nk]. }
  apply (PW _ _ _ _ W EN).
Qed.
