(** make() as a generator on the nodes as objects: a PatternMaker in use. *)
From Coq Require Import String.
From Verif Require Import PyStr Defs UrlLib ParseUtils Views Trees Cluster Patterns Matcher Maker Spec Observe Heap HeapSpec HCluster HMakeSpec
  PyStrProofs DefsProofs PieceProofs DictProofs TreeProofs EntProofs GenCluster FlatCluster OuterCluster TokProofs MakeProofs
  LoadProofs HeapProofs HeapLoad HeapState HeapTop AnyOuter AnySpec AnyMake HcBase HcMake HcState HcTop HcCombTop LocalSpec Lazy LazySpec LazyProofs HLazy HLazySpec HLazyProofs HLazyComb.
From Coq Require Import Lia Permutation.

Section Top.
  Context (nv : str -> bool) (mcn : Z) (M2 : (2 <= mcn)%Z).
  (** the tree of a result *)
  Definition handed_over (g : ghost) (ds : list atree) (m : url_meta) (r : addr) (Hy : heap) (w : option str) (x : atree) : Prop :=
    a_addr x = r /\ holds Hy None 0 x /\ match w with None => In x ds | Some sid => exists s, In (sid, (m, s)) g /\ a_addr s = r end.
  Definition entry_ok (g : ghost) (ds : list atree) (e : use) (o : got) : Prop :=
    match e, o with
    | ULoad url _, GLoad (Ok (a, _)) => exists m raw s, url_path nv url = Some (m, raw) /\ In (digest_of m raw, (m, s)) g /\ aat s (map piece_of raw) = Some a
    | ULoad _ _, GLoad (Err _) => True
    | ULevel _, GLevel _ => True
    | UMake _, GMake => True
    | UNext _, GNext (HYield m r) Hy => exists w x, handed_over g ds m r Hy w x
    | UNext _, GNext (HTree m r) Hy => exists x, handed_over g ds m r Hy None x
    | UNext _, GNext (HRaise _) _ => False
    | UNext _, GNext _ _ => True
    | _, _ => False
    end.
  Definition outcome_ok (g : ghost) (ds : list atree) (x : nat * hout * heap) (y : nat * out) : Prop :=
    let '(i, o, H) := x in fst y = i /\
    match o, snd y with
    | HYield m r, OYield m' w t => m = m' /\ exists x, t = erase x /\ handed_over g ds m r H w x
    | HTree m r, OTree m' ct => m = m' /\ exists x, ptree ct = erase x /\ handed_over g ds m r H None x
    | HStop, OStop => True
    | HRuntime, ORuntime => True
    | _, _ => False
    end.
  Lemma grows_addr : forall s s', grows s s' -> a_addr s' = a_addr s.
  Proof. intros s s' G. specialize (G [] (a_addr s)). cbn in G. destruct s, s'. cbn in *. specialize (G eq_refl). congruence. Qed.
  Lemma handed_mono : forall g g' ds ds' m r Hy w x, ggrows g g' -> incl ds ds' -> handed_over g ds m r Hy w x -> handed_over g' ds' m r Hy w x.
  Proof.
    intros g g' ds ds' m r Hy w x GG IC (A & B & C). split; [exact A|]. split; [exact B|]. destruct w as [sid|]; [|apply IC; exact C].
    destruct C as (s & I & Es). destruct (GG _ _ _ I) as (s' & I' & G). exists s'. split; [exact I'|]. rewrite (grows_addr _ _ G). exact Es.
  Qed.
  Lemma entry_mono : forall g g' ds ds' es log, ggrows g g' -> incl ds ds' -> Forall2 (entry_ok g ds) es log -> Forall2 (entry_ok g' ds') es log.
  Proof.
    intros g g' ds ds' es log GG IC. apply Forall2_imp. intros e o. destruct e as [url me|b|b|i], o as [[[a new]|e]|r| |[m r| | |e|m r] Hy]; cbn [entry_ok]; auto.
    - intros (m & raw & s & U & I & A). destruct (GG _ _ _ I) as (s' & I' & G). exists m, raw, s'. auto.
    - intros (w & x & X). exists w, x. eapply handed_mono; eassumption.
    - intros (x & X). exists x. eapply handed_mono; eassumption.
  Qed.
  Lemma outcome_mono : forall g g' ds ds' l l', ggrows g g' -> incl ds ds' -> Forall2 (outcome_ok g ds) l l' -> Forall2 (outcome_ok g' ds') l l'.
  Proof.
    intros g g' ds ds' l l' GG IC. apply Forall2_imp. intros [[i o] H] [j o']. unfold outcome_ok. cbn [fst snd]. intros [E X]. split; [exact E|].
    destruct o, o'; auto; destruct X as (-> & x & E' & X); (split; [reflexivity|]); exists x; (split; [exact E'|]); eapply handed_mono; eassumption.
  Qed.

  (** a generator of either kind *)
  Inductive lgen := LP (q : ggen) | LC (c : cgen).
  Definition lowns (l : lgen) : list atree := match l with LP q => owns q | LC _ => [] end.
  Definition lho (l : lgen) : hagen := match l with LP q => HPlain (ho q) | LC c => HCombined c end.
  Definition llo (l : lgen) : agen := match l with LP q => Plain (lo q) | LC c => Combined c end.
  Definition lready (l : lgen) : Prop := match l with LP q => qready q | LC _ => True end.
  Lemma hanext_det : forall st g st' g' o, hanext mcn st g st' g' o -> forall st2 g2 o2, hanext mcn st g st2 g2 o2 -> st2 = st' /\ g2 = g' /\ o2 = o.
  Proof.
    intros st g st' g' o N st2 g2 o2 N2. destruct N as [g st' g' o N|g st' g' o N]; inversion N2 as [? ? ? ? N3|? ? ? ? N3]; subst.
    - destruct (hnext_det mcn _ _ _ _ _ N _ _ _ N3) as (-> & -> & ->). auto.
    - rewrite N in N3. injection N3 as -> -> ->. auto.
  Qed.
  (** next() of either *)
  Lemma lnext_do : forall h H g l D, INV nv h H g (lowns l ++ D) -> lready l -> exists H' g' l' o E oT,
    hanext mcn (HS H (map hm g)) (lho l) (HS H' (map hm g')) (lho l') o /\ INV nv h H' g' (lowns l' ++ E ++ D) /\ lready l' /\ ggrows g g'
    /\ anext mcn (map fm g) (llo l) (map fm g') (llo l') oT
    /\ match o, oT with
       | HYield m r, OYield m' w t => m' = m /\ exists x, t = erase x /\ a_addr x = r /\ holds H' None 0 x /\ match w with None => In x E | Some sid => In (sid, (m, x)) g' end
       | HTree m r, OTree m' ct => m' = m /\ exists x, ptree ct = erase x /\ a_addr x = r /\ holds H' None 0 x /\ In x E
       | HStop, OStop => True
       | HRuntime, ORuntime => True
       | _, _ => False
       end.
  Proof.
    intros h H g [q|c] D IV RQ; cbn [lowns lready] in *.
    - destruct (next_do nv mcn M2 _ H g q _ IV RQ) as (H1 & g1 & q1 & o1 & E & N & MV & GV). exists H1, g1, (LP q1), o1, E.
      pose proof (mv_grows _ _ _ _ _ _ _ _ _ _ MV) as GG. pose proof (mv_inv _ _ _ _ _ _ _ _ _ _ MV) as IV1. pose proof (mv_ready _ _ _ _ _ _ _ _ _ _ MV) as RD1.
      destruct o1 as [m r| | |e|m r]; cbn [HLazyProofs.given] in GV; try contradiction.
      + destruct GV as (w & x & NX & Ea & Hx & Q). exists (OYield m w (erase x)). split; [constructor; exact N|]. split; [exact IV1|]. split; [exact RD1|]. split; [exact GG|]. split; [constructor; exact NX|].
        split; [reflexivity|]. exists x. auto.
      + exists OStop. split; [constructor; exact N|]. split; [exact IV1|]. split; [exact RD1|]. split; [exact GG|]. split; [constructor; exact GV|exact I].
      + exists ORuntime. split; [constructor; exact N|]. split; [exact IV1|]. split; [exact RD1|]. split; [exact GG|]. split; [constructor; exact GV|exact I].
    - cbn [app] in IV. destruct (cnext_do nv mcn M2 _ H g c _ IV) as (H1 & g1 & c1 & o1 & E & N & IV1 & GG & LE & GV). exists H1, g1, (LC c1), o1, E.
      destruct o1 as [m r| | |e|m r]; cbn [cgiven] in GV; try contradiction.
      + exists OStop. split; [constructor; exact N|]. split; [exact IV1|]. split; [exact I|]. split; [exact GG|]. split; [constructor; exact GV|exact I].
      + exists ORuntime. split; [constructor; exact N|]. split; [exact IV1|]. split; [exact I|]. split; [exact GG|]. split; [constructor; exact GV|exact I].
      + destruct GV as (x & ct & NX & Ea & Hx & EC & -> & _). exists (OTree m ct). split; [constructor; exact N|]. split; [exact IV1|]. split; [exact I|]. split; [exact GG|]. split; [constructor; exact NX|].
        split; [reflexivity|]. exists x. split; [symmetry; exact EC|]. split; [exact Ea|]. split; [exact Hx|left; reflexivity].
  Qed.
  Record good_use (es : list use) (st : hstate) (gs : list hagen) (log : list got) (H : heap) (g : ghost) (ds : list atree) (gg : list lgen) (logT : list (nat * out)) : Prop := {
    gu_st : st = HS H (map hm g);
    gu_gs : gs = map lho gg;
    gu_ready : Forall lready gg;
    gu_inv : INV nv (uloads es) H g (flat_map lowns gg ++ ds);
    gu_uses : uses nv mcn (acts es) (map fm g) (map llo gg) logT;
    gu_out : Forall2 (outcome_ok g ds) (nexts es log) logT;
    gu_log : Forall2 (entry_ok g ds) es log;
    gu_once : forall p p' m m' r Hy Hy', p < p' -> result log p m r Hy -> result log p' m' r Hy' -> exists sid s, In (sid, (m, s)) g /\ a_addr s = r;
    gu_load : forall p url me r, nth_error es p = Some (ULoad url me) -> nth_error log p = Some (GLoad r) ->
      match r with Ok (_, new) => snd (load nv (loads nv (uloads (firstn p es))) url me) = Ok new | Err e => snd (load nv (loads nv (uloads (firstn p es))) url me) = Err e end;
    gu_count : length gg = umakes es
  }.
  Lemma nexts_app : forall es log e o, length es = length log -> nexts (es ++ [e]) (log ++ [o]) = nexts es log ++ nexts [e] [o].
  Proof.
    intros es log e o L. unfold nexts. rewrite <- flat_map_app. f_equal. revert log L. induction es as [|x es IH]; intros [|y log] L; try discriminate; [reflexivity|].
    cbn [app combine]. f_equal. apply IH. cbn in L. lia.
  Qed.
  Lemma acts_app : forall es e, acts (es ++ [e]) = acts es ++ acts [e].
  Proof. intros. apply flat_map_app. Qed.
  Lemma uloads_app : forall es e, uloads (es ++ [e]) = uloads es ++ uloads [e].
  Proof. intros. apply flat_map_app. Qed.
  Lemma makes_app : forall es e, umakes (es ++ [e]) = umakes es + umakes [e].
  Proof. intros. unfold umakes. rewrite filter_app, app_length. reflexivity. Qed.
  Lemma nth_last : forall A (l : list A) x p y, nth_error (l ++ [x]) p = Some y -> (p < length l /\ nth_error l p = Some y) \/ (p = length l /\ y = x).
  Proof.
    intros A l x p y E. destruct (Nat.lt_ge_cases p (length l)) as [L|L]; [left; rewrite nth_error_app1 in E by exact L; auto|].
    right. rewrite nth_error_app2 in E by exact L. destruct (p - length l) as [|z] eqn:Z; [cbn in E; injection E as <-; split; [lia|reflexivity]|destruct z; discriminate].
  Qed.
  (** loads are told what they are told after the loads before them *)
  Lemma load_keep : forall es log e o, length es = length log ->
    (forall p url me r, nth_error es p = Some (ULoad url me) -> nth_error log p = Some (GLoad r) ->
      match r with Ok (_, new) => snd (load nv (loads nv (uloads (firstn p es))) url me) = Ok new | Err e => snd (load nv (loads nv (uloads (firstn p es))) url me) = Err e end) ->
    (forall url me r, e = ULoad url me -> o = GLoad r ->
      match r with Ok (_, new) => snd (load nv (loads nv (uloads es)) url me) = Ok new | Err e => snd (load nv (loads nv (uloads es)) url me) = Err e end) ->
    forall p url me r, nth_error (es ++ [e]) p = Some (ULoad url me) -> nth_error (log ++ [o]) p = Some (GLoad r) ->
      match r with Ok (_, new) => snd (load nv (loads nv (uloads (firstn p (es ++ [e])))) url me) = Ok new | Err e' => snd (load nv (loads nv (uloads (firstn p (es ++ [e])))) url me) = Err e' end.
  Proof.
    intros es log e o L A B p url me r E O. apply nth_last in E. apply nth_last in O. destruct E as [[P E]|[P E]], O as [[P' O]|[P' O]]; try lia.
    - rewrite firstn_app. replace (p - length es) with 0 by lia. cbn [firstn]. rewrite app_nil_r. eapply A; eassumption.
    - subst p. rewrite firstn_app, Nat.sub_diag, firstn_all. cbn [firstn]. rewrite app_nil_r. apply B; congruence.
  Qed.
  (** a use that is no result *)
  Lemma once_keep : forall (log : list got) o (g g' : ghost), ggrows g g' -> (forall m r Hy, o <> GNext (HYield m r) Hy /\ o <> GNext (HTree m r) Hy) ->
    (forall p p' m m' r Hy Hy', p < p' -> result log p m r Hy -> result log p' m' r Hy' -> exists sid s, In (sid, (m, s)) g /\ a_addr s = r) ->
    forall p p' m m' r Hy Hy', p < p' -> result (log ++ [o]) p m r Hy -> result (log ++ [o]) p' m' r Hy' -> exists sid s, In (sid, (m, s)) g' /\ a_addr s = r.
  Proof.
    intros log o g g' GG NO A p p' m m' r Hy Hy' L R R'.
    assert (K : forall p m r Hy, result (log ++ [o]) p m r Hy -> result log p m r Hy).
    { intros p0 m0 r0 H0 [X|X]; apply nth_last in X; (destruct X as [[_ X]|[_ X]]; [unfold result; auto|exfalso; destruct (NO m0 r0 H0); congruence]). }
    apply K in R. apply K in R'.
    destruct (A p p' m m' r Hy Hy' L R R') as (sid & s & I & E). destruct (GG _ _ _ I) as (s' & I' & G). exists sid, s'. split; [exact I'|]. rewrite (grows_addr _ _ G). exact E.
  Qed.
  Lemma set_map : forall A B (f : A -> B) l i x, set_nth i (f x) (map f l) = map f (set_nth i x l).
  Proof. intros A B f l. induction l as [|y l IH]; intros [|i] x; cbn; auto. rewrite IH. reflexivity. Qed.
  Lemma set_split : forall A (l : list A) i x, nth_error l i = Some x -> exists a b, l = a ++ x :: b /\ forall y, set_nth i y l = a ++ y :: b.
  Proof.
    intros A l. induction l as [|z l IH]; intros [|i] x E; try discriminate; cbn in E.
    - injection E as ->. exists [], l. auto.
    - destruct (IH i x E) as (a & b & -> & S). exists (z :: a), b. split; [reflexivity|]. intros y. cbn. rewrite S. reflexivity.
  Qed.
  Lemma result_tree : forall g ds es log p m r Hy, Forall2 (entry_ok g ds) es log -> result log p m r Hy -> exists w x, handed_over g ds m r Hy w x.
  Proof.
    intros g ds es log p m r Hy F. revert p. induction F as [|e o es log EO F IH]; intros [|p] [R|R]; try discriminate; cbn in R.
    - injection R as ->. destruct e; cbn [entry_ok] in EO; try contradiction. exact EO.
    - injection R as ->. destruct e; cbn [entry_ok] in EO; try contradiction. destruct EO as (x & X). exists None, x. exact X.
    - apply (IH p). left. exact R.
    - apply (IH p). right. exact R.
  Qed.
  Lemma uses_ok : forall es st gs log, huses nv mcn es st gs log -> exists H g ds gg logT, good_use es st gs log H g ds gg logT.
  Proof.
    intros es st gs log U. induction U as [|es st gs log url me st' r U (H & g & ds & gg & logT & [A1 A2 A3 A4 A5 A6 A7 A8 A9 A10]) EL
      |es st gs log a H' r U (H & g & ds & gg & logT & [A1 A2 A3 A4 A5 A6 A7 A8 A9 A10]) EL
      |es st gs log cb U (H & g & ds & gg & logT & [A1 A2 A3 A4 A5 A6 A7 A8 A9 A10])
      |es st gs log i gn st' gn' o U (H & g & ds & gg & logT & [A1 A2 A3 A4 A5 A6 A7 A8 A9 A10]) EG EN].
    - exists [], [], [], [], []. split; [reflexivity|reflexivity|constructor|apply INV_nil|constructor|constructor|constructor| | |reflexivity].
      + intros [|p] p' m m' r Hy Hy' L [R|R]; discriminate R.
      + intros [|p] url me r R; discriminate R.
    - pose proof (Forall2_length _ _ _ _ _ A7) as LL. subst st. destruct (load_do nv _ H g _ url me A4) as (H1 & g1 & r1 & E & EL1 & IV & GG & LE & X). rewrite E in EL. injection EL as <- <-.
      exists H1, g1, ds, gg, logT. split; try assumption; try reflexivity.
      + rewrite uloads_app. exact IV.
      + rewrite acts_app. cbn [acts flat_map app]. rewrite <- EL1. apply use_load. exact A5.
      + rewrite nexts_app by exact LL. cbn [nexts combine flat_map app]. rewrite app_nil_r. eapply outcome_mono; [exact GG|apply incl_refl|exact A6].
      + apply Forall2_app; [eapply entry_mono; [exact GG|apply incl_refl|exact A7]|]. constructor; [|constructor]. destruct r1 as [[a new]|e]; [|exact I].
        destruct X as (_ & m & pps & m0 & s & EP & I & A). cbn [entry_ok]. destruct (url_path nv url) as [[m1 raw]|] eqn:UP.
        * destruct (url_path_parse _ _ _ _ UP) as (_ & LG & P). rewrite EP in P. injection P as -> ->.
          destruct (digest_of_legal m1 raw LG) as [D _]. unfold parsed_digest in I. rewrite <- D in I. rewrite <- (piece_of_legal raw LG) in A.
          assert (M0 : m0 = m1).
          { assert (IM : In (digest_of m1 raw, MK m0 (erase s)) (map fm g1)) by (change (digest_of m1 raw, MK m0 (erase s)) with (fm (digest_of m1 raw, (m0, s))); apply in_map; exact I).
            apply bare_in in IM. rewrite (in_bare _ _ _ _ _ IV) in IM. apply (maker_meta nv _ url m1 raw _ UP) in IM. exact IM. }
          subst m0. exists m1, raw, s. auto.
        * exfalso. destruct (url_path_none _ _ UP) as [[e E']|(m1 & ms & E')]; rewrite EP in E'; discriminate.
      + eapply once_keep; [exact GG|split; discriminate|exact A8].
      + apply load_keep; [exact LL|exact A9|]. intros url0 me0 r0 E1 E2. injection E1 as <- <-. injection E2 as <-. rewrite <- (in_bare _ _ _ _ _ A4), load_erase.
        destruct r1 as [[a new]|e]; [apply X|exact X].
      + rewrite makes_app. cbn. lia.
    - pose proof (Forall2_length _ _ _ _ _ A7) as LL. subst st. cbn [hs_heap hs_makers] in *. destruct (level_do nv _ H g _ a A4) as (H1 & r1 & E & IV & LE & _). rewrite E in EL. injection EL as <- <-.
      exists H1, g, ds, gg, logT. split; try assumption; try reflexivity.
      + rewrite uloads_app. cbn. rewrite app_nil_r. exact IV.
      + rewrite acts_app. cbn. rewrite app_nil_r. exact A5.
      + rewrite nexts_app by exact LL. cbn [nexts combine flat_map app]. rewrite app_nil_r. exact A6.
      + apply Forall2_app; [exact A7|]. constructor; [exact I|constructor].
      + eapply once_keep; [apply ggrows_refl|split; discriminate|exact A8].
      + apply load_keep; [exact LL|exact A9|]. discriminate.
      + rewrite makes_app. cbn. lia.
    - pose proof (Forall2_length _ _ _ _ _ A7) as LL. exists H, g, ds, (gg ++ [if cb then LC CNew else LP QNew]), logT. split; try assumption.
      + rewrite A2, map_app. destruct cb; reflexivity.
      + apply Forall_app. split; [exact A3|]. constructor; [destruct cb; exact I|constructor].
      + rewrite uloads_app. cbn. rewrite app_nil_r, flat_map_app. destruct cb; cbn; rewrite app_nil_r; exact A4.
      + rewrite acts_app, map_app. pose proof (use_make nv mcn _ _ _ _ cb A5) as X. destruct cb; exact X.
      + rewrite nexts_app by exact LL. cbn [nexts combine flat_map app]. rewrite app_nil_r. exact A6.
      + apply Forall2_app; [exact A7|]. constructor; [exact I|constructor].
      + eapply once_keep; [apply ggrows_refl|split; discriminate|exact A8].
      + apply load_keep; [exact LL|exact A9|]. discriminate.
      + rewrite makes_app, app_length. cbn. lia.
    - pose proof (Forall2_length _ _ _ _ _ A7) as LL. subst st gs. rewrite nth_error_map in EG. destruct (nth_error gg i) as [q|] eqn:EQ; [|discriminate]. cbn [option_map] in EG. injection EG as <-.
      destruct (set_split _ _ _ _ EQ) as (ga & gb & Egg & SET).
      assert (PM : forall q0 D, Permutation (flat_map lowns (ga ++ q0 :: gb) ++ D) (lowns q0 ++ (flat_map lowns ga ++ flat_map lowns gb) ++ D)).
      { intros q0 D. rewrite flat_map_app. cbn [flat_map]. rewrite !app_assoc. apply Permutation_app_tail. apply Permutation_app_tail. apply Permutation_app_comm. }
      rewrite Egg in A4. apply (INV_perm nv _ _ _ _ _ (PM q ds)) in A4.
      assert (RQ : lready q) by (rewrite Forall_forall in A3; apply A3; eapply nth_error_In; exact EQ).
      destruct (lnext_do _ H g q _ A4 RQ) as (H1 & g1 & q1 & o1 & E & oT & N & IV & RD1 & GG & NX & GV).
      destruct (hanext_det _ _ _ _ _ N _ _ _ EN) as (-> & -> & ->). clear EN.
      assert (IC : incl ds (E ++ ds)) by (apply incl_appr, incl_refl).
      assert (OUT : outcome_ok g1 (E ++ ds) (i, o1, H1) (i, oT) /\ entry_ok g1 (E ++ ds) (UNext i) (GNext o1 H1)
        /\ forall m r, o1 = HYield m r \/ o1 = HTree m r -> exists x, a_addr x = r /\ (In x E \/ exists sid m, In (sid, (m, x)) g1)).
      { destruct o1 as [m r| | |e|m r], oT as [m' w t|m' ct| | |e']; try contradiction.
        - destruct GV as (-> & x & -> & Ea & Hx & Q).
          assert (HO : handed_over g1 (E ++ ds) m r H1 w x).
          { split; [exact Ea|]. split; [exact Hx|]. destruct w as [sid|]; [exists x; auto|apply in_app_iff; auto]. }
          split; [|split; [exists w, x; exact HO|]]. { cbn. split; [reflexivity|]. split; [reflexivity|]. exists x. auto. }
          intros m0 r0 [X|X]; [|discriminate]. injection X as <- <-. exists x. split; [exact Ea|]. destruct w as [sid|]; eauto.
        - split; [cbn; auto|]. split; [exact I|]. intros m r [X|X]; discriminate X.
        - split; [cbn; auto|]. split; [exact I|]. intros m r [X|X]; discriminate X.
        - destruct GV as (-> & x & EC & Ea & Hx & Q).
          assert (HO : handed_over g1 (E ++ ds) m r H1 None x) by (split; [exact Ea|]; split; [exact Hx|]; apply in_app_iff; auto).
          split; [|split; [exists x; exact HO|]]. { cbn. split; [reflexivity|]. split; [reflexivity|]. exists x. auto. }
          intros m0 r0 [X|X]; [discriminate|]. injection X as <- <-. exists x. auto. }
      destruct OUT as (OO & EO & RT).
      assert (IVN : INV nv (uloads (es ++ [UNext i])) H1 g1 (flat_map lowns (set_nth i q1 gg) ++ E ++ ds)).
      { rewrite uloads_app. cbn. rewrite app_nil_r. rewrite SET. eapply INV_perm; [|exact IV]. eapply Permutation_trans; [|apply Permutation_sym; apply PM].
        apply Permutation_app_head. rewrite !app_assoc. apply Permutation_app_tail. rewrite <- app_assoc. apply Permutation_app_comm. }
      exists H1, g1, (E ++ ds), (set_nth i q1 gg), (logT ++ [(i, oT)]). split.
      + reflexivity.
      + apply set_map.
      + rewrite SET. rewrite Egg in A3. rewrite Forall_app, Forall_cons_iff in *. destruct A3 as (X1 & _ & X3). split; [exact X1|]. split; [exact RD1|exact X3].
      + exact IVN.
      + rewrite acts_app. rewrite <- (set_map _ _ llo). eapply use_next; [exact A5|rewrite nth_error_map, EQ; reflexivity|exact NX].
      + rewrite nexts_app by exact LL. apply Forall2_app; [eapply outcome_mono; [exact GG|exact IC|exact A6]|]. cbn. constructor; [exact OO|constructor].
      + apply Forall2_app; [eapply entry_mono; [exact GG|exact IC|exact A7]|]. constructor; [exact EO|constructor].
      + intros p p' m m' r Hy Hy' L R R'. pose proof (Forall2_length _ _ _ _ _ A7) as _.
        assert (K : forall p m r Hy, result (log ++ [GNext o1 H1]) p m r Hy -> (p < length log /\ result log p m r Hy) \/ (p = length log /\ (o1 = HYield m r \/ o1 = HTree m r))).
        { intros p0 m0 r0 H0 [X|X]; apply nth_last in X; (destruct X as [[X1 X]|[X1 X]]; [left; unfold result; auto|right; split; [exact X1|injection X as <- <-; auto]]). }
        cbn [hs_heap] in R, R'. apply K in R. apply K in R'.
        destruct R as [[P R]|[P R]]; [|destruct R' as [[P' _]|[P' _]]; lia]. destruct R' as [[P' R']|[P' R']].
        * destruct (A8 p p' m m' r Hy Hy' L R R') as (sid & s & I & Es). destruct (GG _ _ _ I) as (s' & I' & G). exists sid, s'. split; [exact I'|]. rewrite (grows_addr _ _ G). exact Es.
        * destruct (RT _ _ R') as (x & Ea & Q). pose proof (result_tree _ _ _ _ _ _ _ _ A7 R) as EP.
          destruct EP as (w0 & x0 & (Ex0 & _ & Q0)). destruct w0 as [sid0|].
          -- destruct Q0 as (s & I & Es). destruct (GG _ _ _ I) as (s' & I' & G). exists sid0, s'. split; [exact I'|]. rewrite (grows_addr _ _ G). exact Es.
          -- exfalso. pose proof (wh_nd _ _ (in_whole _ _ _ _ _ IV)) as NDW.
             assert (HA : forall s0 : atree, In (a_addr s0) (addrs s0)) by (intros [? ? ? ? ? ?]; left; reflexivity).
             assert (I0 : In r (flat_map addrs ds)) by (apply in_flat_map; exists x0; split; [exact Q0|rewrite <- Ex0; apply HA]).
             rewrite !flat_map_app in NDW. apply nd_app in NDW. destruct NDW as (_ & NDW & DJ). destruct Q as [Q|(sid & m0 & Q)].
             ++ apply nd_app in NDW. destruct NDW as (_ & NDW & _). apply nd_app in NDW. destruct NDW as (_ & _ & DJ2). apply (DJ2 r); [|rewrite in_app_iff; auto].
                apply in_flat_map. exists x. split; [exact Q|rewrite <- Ea; apply HA].
             ++ apply (DJ r); [|rewrite !in_app_iff; auto]. apply in_flat_map. exists x. split; [eapply in_gt; exact Q|rewrite <- Ea; apply HA].
      + apply load_keep; [exact LL|exact A9|]. discriminate.
      + rewrite makes_app, SET, app_length. rewrite Egg, app_length in A10. cbn in *. lia.
  Qed.

  (** *** The trees and the outcomes *)
  Lemma c70_refines : forall es st gs log, huses nv mcn es st gs log -> exists stT gsT logT, uses nv mcn (acts es) stT gsT logT
    /\ Forall2 (fun x y => fst x = fst y /\ hk_meta (snd x) = mk_meta (snd y) /\ reads (hs_heap st) (hk_root (snd x)) (mk_root (snd y))) (hs_makers st) stT
    /\ Forall2 (same_outcome st) (nexts es log) logT.
  Proof.
    intros es st gs log U. destruct (uses_ok _ _ _ _ U) as (H & g & ds & gg & logT & [A1 A2 A3 A4 A5 A6 A7 A8 A9 A10]). eexists _, _, logT. split; [exact A5|]. subst st. cbn [hs_heap hs_makers]. split.
    - pose proof (wh_holds _ _ (in_whole _ _ _ _ _ A4)) as F. apply Forall_app in F. destruct F as [F _]. clear -F.
      induction g as [|[sid [m s]] g IH]; cbn [map]; [constructor|]. cbn [gt map snd] in F.
      apply Forall_cons_iff in F. destruct F as [F1 F2]. constructor; [|apply IH; exact F2]. cbn. split; [reflexivity|]. split; [reflexivity|]. eapply holds_reads. exact F1.
    - eapply Forall2_imp; [|exact A6]. intros [[i o] Hy] [j oT]. unfold outcome_ok, same_outcome. cbn [fst snd]. intros [E X]. split; [exact E|].
      assert (NR : forall root x, a_addr x = root -> In x ds -> ~ maker_root (HS H (map hm g)) root).
      { intros root x Ex Q (sm & I & Er). cbn [hs_makers] in I. apply in_map_iff in I. destruct I as ([sid [m s]] & <- & I). cbn in Er.
        assert (HA : forall s0 : atree, In (a_addr s0) (addrs s0)) by (intros [? ? ? ? ? ?]; left; reflexivity).
        pose proof (wh_nd _ _ (in_whole _ _ _ _ _ A4)) as N. rewrite flat_map_app in N. apply nd_app in N. destruct N as (_ & _ & DJ). apply (DJ root).
        - apply in_flat_map. exists s. split; [eapply in_gt; exact I|rewrite <- Er; apply HA].
        - apply in_flat_map. exists x. split; [apply in_app_iff; auto|rewrite <- Ex; apply HA]. }
      destruct o as [m r| | |e|m r], oT as [m' w t|m' ct| | |e']; auto.
      + destruct X as (-> & x & -> & Ex & Hx & Q). split; [reflexivity|]. split; [rewrite <- Ex; eapply holds_reads; exact Hx|]. destruct w as [sid|]; [|exact (NR r x Ex Q)].
        destruct Q as (s & I & Es). cbn [hs_makers]. rewrite <- Es. change (sid, HMK m' (a_addr s)) with (hm (sid, (m', s))). apply in_map. exact I.
      + destruct X as (-> & x & EC & Ex & Hx & Q). split; [reflexivity|]. split; [rewrite <- Ex, EC; eapply holds_reads; exact Hx|exact (NR r x Ex Q)].
  Qed.
  Lemma c70_returns : forall es st gs log, huses nv mcn es st gs log -> length gs = umakes es /\
    forall i, i < umakes es -> exists st' gs' o, huses nv mcn (es ++ [UNext i]) st' gs' (log ++ [GNext o (hs_heap st')]) /\ (forall e, o <> HRaise e).
  Proof.
    intros es st gs log U. destruct (uses_ok _ _ _ _ U) as (H & g & ds & gg & logT & [A1 A2 A3 A4 A5 A6 A7 A8 A9 A10]). split; [rewrite A2, map_length; exact A10|].
    intros i Li. rewrite <- A10 in Li. destruct (nth_error gg i) as [q|] eqn:EQ; [|apply nth_error_None in EQ; lia].
    destruct (set_split _ _ _ _ EQ) as (ga & gb & Egg & SET).
    assert (P : Permutation (flat_map lowns gg ++ ds) (lowns q ++ (flat_map lowns ga ++ flat_map lowns gb) ++ ds)).
    { rewrite Egg, flat_map_app. cbn [flat_map]. rewrite !app_assoc. apply Permutation_app_tail. apply Permutation_app_tail. apply Permutation_app_comm. }
    apply (INV_perm nv _ _ _ _ _ P) in A4.
    assert (RQ : lready q) by (rewrite Forall_forall in A3; apply A3; eapply nth_error_In; exact EQ).
    destruct (lnext_do _ H g q _ A4 RQ) as (H1 & g1 & q1 & o1 & E & oT & N & IV & RD1 & GG & NX & GV).
    exists (HS H1 (map hm g1)), (set_nth i (lho q1) gs), o1. split.
    - eapply hu_next; [exact U|rewrite A2, nth_error_map, EQ; reflexivity|]. rewrite A1. exact N.
    - intros e ->. destruct oT; exact GV.
  Qed.
  Lemma c70_one : forall es st gs log, huses nv mcn es st gs log -> forall st2 gs2 log2, huses nv mcn es st2 gs2 log2 -> st2 = st /\ gs2 = gs /\ log2 = log.
  Proof.
    intros es st gs log U. induction U as [|es st gs log url me st' r U IH EL|es st gs log a H' r U IH EL|es st gs log cb U IH|es st gs log i gn st' gn' o U IH EG EN]; intros st2 gs2 log2 U2; inversion U2; subst;
      try (match goal with X : _ ++ [_] = [] |- _ => destruct (app_cons_not_nil _ _ _ (eq_sym X)) end); try (match goal with X : [] = _ ++ [_] |- _ => destruct (app_cons_not_nil _ _ _ X) end); auto;
      match goal with X : _ ++ [_] = _ ++ [_] |- _ => apply app_inj_tail in X; destruct X as [X1 X2]; try discriminate X2; inversion X2; subst end;
      match goal with X : huses _ _ es _ _ _ |- _ => destruct (IH _ _ _ X) as (-> & -> & ->) end.
    - match goal with X : hload _ _ _ _ = _ |- _ => rewrite EL in X; inversion X; subst end. auto.
    - match goal with X : level _ _ = _ |- _ => rewrite EL in X; inversion X; subst end. auto.
    - auto.
    - match goal with X : nth_error gs i = Some _ |- _ => rewrite EG in X; inversion X; subst end.
      match goal with X : hanext _ _ _ ?s2 ?g2 ?o2 |- context[?s2] => destruct (hanext_det _ _ _ _ _ EN _ _ _ X) as (-> & -> & ->) end. auto.
  Qed.
  (** *** Results *)
  Lemma own_root : forall (g : ghost) sid m s H, In (sid, (m, s)) g -> maker_root (HS H (map hm g)) (a_addr s).
  Proof. intros g sid m s H I. exists (hm (sid, (m, s))). split; [apply in_map; exact I|reflexivity]. Qed.
  Lemma c70_kept : forall es st gs log p m r Hy t, huses nv mcn es st gs log -> result log p m r Hy -> ~ maker_root st r -> reads Hy r t -> reads (hs_heap st) r t.
  Proof.
    intros es st gs log p m r Hy t U R NM RD. destruct (uses_ok _ _ _ _ U) as (H & g & ds & gg & logT & [A1 A2 A3 A4 A5 A6 A7 A8 A9 A10]). subst st.
    destruct (result_tree _ _ _ _ _ _ _ _ A7 R) as (w & x & Ex & Hx & Q). destruct w as [sid|].
    - destruct Q as (s & I & <-). exfalso. apply NM. eapply own_root. exact I.
    - subst r. rewrite (reads_det _ _ _ _ RD (holds_reads _ _ _ _ Hx)). eapply holds_reads. apply (whole_in _ _ x (in_whole _ _ _ _ _ A4)). rewrite !in_app_iff. auto.
  Qed.
  Lemma c70_once : forall es st gs log p p' m m' r Hy Hy', huses nv mcn es st gs log -> p < p' -> result log p m r Hy -> result log p' m' r Hy' -> maker_root st r.
  Proof.
    intros es st gs log p p' m m' r Hy Hy' U L R R'. destruct (uses_ok _ _ _ _ U) as (H & g & ds & gg & logT & [A1 A2 A3 A4 A5 A6 A7 A8 A9 A10]). subst st.
    destruct (A8 _ _ _ _ _ _ _ L R R') as (sid & s & I & <-). eapply own_root. exact I.
  Qed.
  (** *** Nodes *)
  Lemma root_of : forall H g ds gg es log r, Forall2 (entry_ok g ds) es log -> user_root (HS H (map hm g)) log r -> exists x, In x (gt g ++ flat_map lowns gg ++ ds) /\ a_addr x = r.
  Proof.
    intros H g ds gg es log r F [(sm & I & <-)|(p & m & Hy & R)].
    - cbn [hs_makers] in I. apply in_map_iff in I. destruct I as ([sid [m s]] & <- & I). exists s. split; [apply in_app_iff; left; eapply in_gt; exact I|reflexivity].
    - destruct (result_tree _ _ _ _ _ _ _ _ F R) as (w & x & Ex & _ & Q). destruct w as [sid|].
      + destruct Q as (s & I & Es). exists s. split; [apply in_app_iff; left; eapply in_gt; exact I|exact Es].
      + exists x. split; [rewrite !in_app_iff; auto|exact Ex].
  Qed.
  Lemma c70_down : forall es st gs log r ks a, huses nv mcn es st gs log -> user_root st log r -> down (hs_heap st) r ks a ->
    chain (hs_heap st) a ks r /\ snd (level (hs_heap st) a) = Ok (length ks).
  Proof.
    intros es st gs log r ks a U IR DN. destruct (uses_ok _ _ _ _ U) as (H & g & ds & gg & logT & [A1 A2 A3 A4 A5 A6 A7 A8 A9 A10]). subst st. cbn [hs_heap] in *.
    destruct (root_of H g ds gg es log r A7 IR) as (x & Ix & Ea).
    destruct (whole_in _ _ x (in_whole _ _ _ _ _ A4) Ix) as [Ho _]. destruct (held_wft _ _ _ _ _ _ A4 Ix) as [d W].
    pose proof (down_at _ _ _ _ DN x None 0 d Ho W Ea) as A. split; [rewrite <- Ea; apply root_chain; assumption|].
    destruct (level_do nv _ H g _ a A4) as (H' & r' & EL & _ & _ & Q). rewrite EL. cbn [snd]. apply (Q x ks Ix A).
  Qed.
  Lemma c70_apart : forall es st gs log r ks r' ks' a, huses nv mcn es st gs log -> user_root st log r -> down (hs_heap st) r ks a ->
    user_root st log r' -> down (hs_heap st) r' ks' a -> r = r' /\ ks = ks'.
  Proof.
    intros es st gs log r ks r' ks' a U I D I' D'. destruct (c70_down _ _ _ _ _ _ _ U I D) as [C _]. destruct (c70_down _ _ _ _ _ _ _ U I' D') as [C' _].
    destruct (chain_det _ _ _ _ C _ _ C') as [-> ->]. auto.
  Qed.
  Lemma inv_node : forall h H g fs url me m raw s a, INV nv h H g fs -> In (url, me) h -> url_path nv url = Some (m, raw) -> In (digest_of m raw, (m, s)) g ->
    aat s (map piece_of raw) = Some a -> exists mk n, In (digest_of m raw, mk) (map hm g)
      /\ chain H a (map piece_of raw) (hk_root mk)
      /\ nth_error H a = Some n /\ n_count n = 1%Z /\ entries n = []
      /\ match n_meta n with
         | None => forall x, ~ In (m, raw, Some x) (accepted nv h)
         | Some l => l <> [] /\ NoDup l /\ forall x, In x l <-> In (m, raw, Some x) (accepted nv h)
         end.
  Proof.
    intros h H g fs url me m raw s a IV IA U I A.
    destruct (whole_in _ _ s (in_whole _ _ _ _ _ IV) ltac:(apply in_app_iff; left; eapply in_gt; exact I)) as [Hs ND].
    assert (IM : In (digest_of m raw, MK m (erase s)) (map fm g)) by (change (digest_of m raw, MK m (erase s)) with (fm (digest_of m raw, (m, s))); apply in_map; exact I).
    apply bare_in in IM. rewrite (in_bare _ _ _ _ _ IV) in IM. unfold bare_maker in IM. cbn [mk_root mk_meta] in IM.
    destruct (at_sub _ _ _ _ _ _ Hs A) as (sub & par & Hsub & Ea & EN0).
    assert (EN : node_at (bare (erase s)) (map piece_of raw) = Some (bare (erase sub))) by (rewrite bare_at, EN0; reflexivity).
    destruct sub as [a0 v p c me0 kk]. cbn [a_addr] in Ea. subst a0. apply holds_iff in Hsub.
    destruct Hsub as [(n & En & R1 & R2 & R3 & R4 & R5 & R6 & R7) _].
    exists (HMK m (a_addr s)), n. split; [change (digest_of m raw, HMK m (a_addr s)) with (hm (digest_of m raw, (m, s))); apply in_map; exact I|].
    split; [apply root_chain; assumption|]. split; [exact En|].
    assert (IG : In raw (distinct_paths nv (digest_of m raw) (h))).
    { unfold distinct_paths. apply nodup_In. apply in_map_iff. exists (raw, me). split; [reflexivity|]. apply in_group. exists url, m. auto. }
    destruct (url_path_parse _ _ _ _ U) as (_ & LG & _).
    destruct (c18_paths _ _ _ _ IM) as (W & WP & _ & WD). cbn [mk_root mk_meta] in *.
    destruct (url_path_depth _ _ _ _ U) as [LD NE].
    assert (LG' : Forall (Forall legal) raw) by (eapply Forall_impl; [|exact LG]; intros z Hz; apply all_legal_iff; exact Hz).
    split; [|split].
    - rewrite R4. pose proof (c15_counts nv (h) _ _ raw IM LG') as CC. cbn [mk_root] in CC. unfold cnt_at in CC.
      rewrite EN in CC. cbn [erase bare t_cnt] in CC. rewrite CC. rewrite (filter_one _ _ raw); [reflexivity|apply NoDup_nodup|exact IG|].
      intros y Hy. split.
      + intros Q. symmetry. apply prefixb_eq; [exact Q|]. destruct (WD y y Hy Hy) as [LY _]. lia.
      + intros ->. apply prefixb_refl.
    - rewrite R6. assert (KN : forall d t ks n0, wft d t -> length ks = d -> node_at t ks = Some n0 -> t_kids n0 = []).
      { intros d. induction d as [|d IHd]; intros t ks n0 Wt Lk Nk.
        - destruct ks; [|discriminate]. cbn in Nk. injection Nk as <-. apply Wt.
        - destruct ks as [|k ks]; [discriminate|]. rewrite node_at_cons in Nk. destruct (kid k (t_kids t)) as [c0|] eqn:EK; [|discriminate].
          destruct (kid_some_in _ _ _ EK) as [Ic _]. cbn [wft] in Wt. destruct Wt as (_ & _ & _ & _ & Wt). rewrite Forall_forall in Wt.
          apply (IHd c0 ks n0); [apply Wt; exact Ic|cbn in Lk; lia|exact Nk]. }
      assert (LL : length (map piece_of raw) = depth m) by (rewrite map_length; exact LD).
      specialize (KN _ _ _ _ W LL EN). cbn [erase bare t_kids] in KN. destruct kk; [reflexivity|discriminate].
    - rewrite R5. destruct (c16 nv (h) _ _ raw IM IG) as [_ M]. cbn [mk_root mk_meta] in M. unfold meta_at in M. rewrite EN in M.
      cbn [erase bare t_meta] in M. exact M.
  Qed.
  Lemma load_entry : forall g ds es log p url me a new, Forall2 (entry_ok g ds) es log -> nth_error es p = Some (ULoad url me) -> nth_error log p = Some (GLoad (Ok (a, new))) ->
    exists m raw s, url_path nv url = Some (m, raw) /\ In (digest_of m raw, (m, s)) g /\ aat s (map piece_of raw) = Some a.
  Proof.
    intros g ds es log p url me a new F. revert p. induction F as [|e o es log EO F IH]; intros [|p] E O; try discriminate; cbn in E, O; [|eapply IH; eassumption].
    injection E as ->. injection O as ->. exact EO.
  Qed.
  Lemma c70_node : forall es st gs log p url me a new, huses nv mcn es st gs log ->
    nth_error es p = Some (ULoad url me) -> nth_error log p = Some (GLoad (Ok (a, new))) ->
    exists m raw mk n, url_path nv url = Some (m, raw) /\ In (digest_of m raw, mk) (hs_makers st)
      /\ chain (hs_heap st) a (map piece_of raw) (hk_root mk)
      /\ nth_error (hs_heap st) a = Some n /\ n_count n = 1%Z /\ entries n = []
      /\ match n_meta n with
         | None => forall x, ~ In (m, raw, Some x) (accepted nv (uloads es))
         | Some l => l <> [] /\ NoDup l /\ forall x, In x l <-> In (m, raw, Some x) (accepted nv (uloads es))
         end.
  Proof.
    intros es st gs log p url me a new U E O. destruct (uses_ok _ _ _ _ U) as (H & g & ds & gg & logT & [A1 A2 A3 A4 A5 A6 A7 A8 A9 A10]). subst st. cbn [hs_heap hs_makers].
    destruct (load_entry _ _ _ _ _ _ _ _ _ A7 E O) as (m & raw & s & UP & I & A).
    assert (IA : In (url, me) (uloads es)).
    { unfold uloads. apply in_flat_map. exists (ULoad url me). split; [eapply nth_error_In; exact E|left; reflexivity]. }
    destruct (inv_node _ _ _ _ _ _ _ _ _ _ A4 IA UP I A) as (mk & n & X). exists m, raw, mk, n. auto.
  Qed.
  Lemma c70_same : forall es st gs log i j url me a new url' me' a' new', huses nv mcn es st gs log ->
    nth_error es i = Some (ULoad url me) -> nth_error log i = Some (GLoad (Ok (a, new))) ->
    nth_error es j = Some (ULoad url' me') -> nth_error log j = Some (GLoad (Ok (a', new'))) ->
    (a = a' <-> url_path nv url = url_path nv url').
  Proof.
    intros es st gs log i j url me a new url' me' a' new' U Ei Oi Ej Oj. destruct (uses_ok _ _ _ _ U) as (H & g & ds & gg & logT & [A1 A2 A3 A4 A5 A6 A7 A8 A9 A10]). subst st.
    destruct (load_entry _ _ _ _ _ _ _ _ _ A7 Ei Oi) as (m & raw & s & UP & I & A). destruct (load_entry _ _ _ _ _ _ _ _ _ A7 Ej Oj) as (m' & raw' & s' & UP' & I' & A').
    rewrite UP, UP'. split.
    - intros <-. destruct (whole_in _ _ s (in_whole _ _ _ _ _ A4) ltac:(apply in_app_iff; left; eapply in_gt; exact I)) as [Hs _].
      destruct (whole_in _ _ s' (in_whole _ _ _ _ _ A4) ltac:(apply in_app_iff; left; eapply in_gt; exact I')) as [Hs' _].
      destruct (chain_det _ _ _ _ (root_chain _ _ _ _ Hs A) _ _ (root_chain _ _ _ _ Hs' A')) as [Q QR].
      destruct (url_path_parse _ _ _ _ UP) as (_ & L1 & _). destruct (url_path_parse _ _ _ _ UP') as (_ & L2 & _).
      apply pieces_inj in Q; [|assumption|assumption]. subst raw'.
      assert (SS : (digest_of m raw, (m, s)) = (digest_of m' raw, (m', s'))).
      { pose proof (wh_nd _ _ (in_whole _ _ _ _ _ A4)) as N. rewrite flat_map_app in N. apply nd_app in N. destruct N as (N & _).
        clear -N I I' QR. induction g as [|x g IH]; [destruct I|]. cbn [gt map flat_map] in N. apply nd_app in N. destruct N as (_ & N & DJ).
        assert (HA : forall s0 : atree, In (a_addr s0) (addrs s0)) by (intros [? ? ? ? ? ?]; left; reflexivity).
        assert (IN : forall sd md sx, In (sd, (md, sx)) g -> In (a_addr sx) (flat_map addrs (map (fun x => snd (snd x)) g))).
        { intros sd md sx Ix. apply in_flat_map. exists sx. split; [|apply HA]. apply in_map_iff. exists (sd, (md, sx)). auto. }
        destruct I as [->|I], I' as [E'|I']; [exact E'| | |apply IH; assumption]; exfalso; [|rewrite E' in DJ]; cbn [fst snd] in DJ.
        - apply (DJ (a_addr s)); [apply HA|]. rewrite QR. eapply IN. exact I'.
        - apply (DJ (a_addr s')); [apply HA|]. rewrite <- QR. eapply IN. exact I. }
      injection SS as DD -> ->. f_equal.
    - intros Q. injection Q as <- <-.
      assert (NK : NoDup (map fst g)) by (destruct (c18_keys nv (uloads es)) as [X _]; rewrite <- (in_bare _ _ _ _ _ A4), keys_bare, map_map in X; exact X).
      apply (dget_in str_eqb str_eqb_iff _ _ _ NK) in I. apply (dget_in str_eqb str_eqb_iff _ _ _ NK) in I'. rewrite I in I'. injection I' as <-. congruence.
  Qed.
  Lemma c70_load : forall es st gs log p url me, huses nv mcn es st gs log -> nth_error es p = Some (ULoad url me) -> exists r, nth_error log p = Some (GLoad r) /\
    match r with Ok (_, new) => snd (load nv (loads nv (uloads (firstn p es))) url me) = Ok new | Err e => snd (load nv (loads nv (uloads (firstn p es))) url me) = Err e end.
  Proof.
    intros es st gs log p url me U E. destruct (uses_ok _ _ _ _ U) as (H & g & ds & gg & logT & [A1 A2 A3 A4 A5 A6 A7 A8 A9 A10]).
    assert (X : exists r, nth_error log p = Some (GLoad r)).
    { clear -A7 E. revert p E. induction A7 as [|e o es log EO F IH]; intros [|p] E; try discriminate; cbn in E; [|apply IH; exact E]. injection E as ->. destruct o as [r| | |]; cbn in EO; try contradiction. exists r. reflexivity. }
    destruct X as (r & O). exists r. split; [exact O|]. eapply A9; eassumption.
  Qed.
  Lemma c70_new : forall es st gs log i url me a new, huses nv mcn es st gs log ->
    nth_error es i = Some (ULoad url me) -> nth_error log i = Some (GLoad (Ok (a, new))) ->
    (new = true <-> forall j b, j < i -> nth_error log j <> Some (GLoad (Ok (a, b)))).
  Proof.
    intros es st gs log i url me a new US E O. destruct (c70_load _ _ _ _ i url me US E) as (r & O' & R). assert (r = Ok (a, new)) as -> by congruence.
    assert (UP : exists m raw, url_path nv url = Some (m, raw)) by (destruct (c70_node _ _ _ _ _ _ _ _ _ US E O) as (m & raw & _ & _ & U & _); eauto).
    destruct UP as (m & raw & U). pose proof (c15_new nv (uloads (firstn i es)) url me) as CN. rewrite U, R in CN.
    assert (Li : i < length es) by (apply nth_error_Some; congruence).
    assert (KEY : (exists me0, In (m, raw, me0) (accepted nv (uloads (firstn i es)))) <->
                  exists j b, j < i /\ nth_error log j = Some (GLoad (Ok (a, b)))).
    { split.
      - intros (me0 & I). apply in_accepted in I. destruct I as (url0 & I & U0). unfold uloads in I. apply in_flat_map in I.
        destruct I as (ev & Iv & Ie). destruct ev as [u0 m0| | |]; [|destruct Ie|destruct Ie|destruct Ie]. destruct Ie as [Ie|[]]. injection Ie as -> ->.
        apply In_nth_error in Iv. destruct Iv as [j Ej]. assert (Lj : j < i).
        { assert (X : j < length (firstn i es)) by (apply nth_error_Some; congruence). rewrite firstn_length in X. lia. }
        assert (Ej' : nth_error es j = Some (ULoad url0 me0)).
        { rewrite <- (firstn_skipn i es). rewrite nth_error_app1; [exact Ej|]. apply nth_error_Some. congruence. }
        destruct (c70_load _ _ _ _ j url0 me0 US Ej') as (r & Oj & Rj). pose proof (c15_new nv (uloads (firstn j es)) url0 me0) as C0. rewrite U0 in C0.
        destruct r as [[a0 n0]|e0]; [|rewrite Rj in C0; destruct C0 as [[C0 _]|[C0 _]]; discriminate].
        exists j, n0. split; [exact Lj|]. rewrite Oj. do 4 f_equal.
        apply (c70_same es st gs log j i url0 me0 a0 n0 url me a new US Ej' Oj E O). congruence.
      - intros (j & b & Lj & Oj). destruct (nth_error es j) as [d|] eqn:Ed; [|apply nth_error_None in Ed; lia].
        assert (EV : exists url0 me0, d = ULoad url0 me0).
        { destruct (uses_ok _ _ _ _ US) as (H & g & ds & gg & logT & X). pose proof (gu_log _ _ _ _ _ _ _ _ _ X) as F. clear -F Ed Oj. revert j Ed Oj.
          induction F as [|e o es log EO F IH]; intros [|j] Ed Oj; try discriminate; cbn in Ed, Oj; [|eapply IH; eassumption]. injection Ed as ->. injection Oj as ->. destruct d; cbn in EO; try contradiction. eauto. }
        destruct EV as (url0 & me0 & ->). exists me0. apply in_accepted. exists url0. split.
        + unfold uloads. apply in_flat_map. exists (ULoad url0 me0). split; [|left; reflexivity].
          rewrite <- (firstn_skipn i es) in Ed. rewrite nth_error_app1 in Ed by (rewrite firstn_length; lia). eapply nth_error_In. exact Ed.
        + rewrite <- U. apply (c70_same es st gs log j i url0 me0 a b url me a new US Ed Oj E O). reflexivity. }
    split.
    - intros -> j b Lj Oj. destruct CN as [[_ CN]|[CN _]]; [|discriminate]. apply CN. apply KEY. eauto.
    - intros NO. destruct CN as [[CN _]|[_ CN]]; [injection CN as ->; reflexivity|]. apply KEY in CN. destruct CN as (j & b & Lj & Oj). exfalso. exact (NO j b Lj Oj).
  Qed.
  (** *** A generator that is not disturbed; the makers *)
  Lemma acts_loads : forall es, act_loads (acts es) = uloads es.
  Proof. intros es. induction es as [|[url me|a|cb|i] es IH]; cbn; [reflexivity| | | |]; f_equal; exact IH. Qed.
  Lemma acts_makes : forall es, LazySpec.makes (acts es) = umakes es.
  Proof. intros es. induction es as [|[url me|a|cb|i] es IH]; [reflexivity| | | |]; unfold LazySpec.makes, umakes in *; cbn; auto. Qed.
  Lemma outcome_in : forall st l l' i o H, Forall2 (same_outcome st) l l' -> In (i, o, H) l -> exists oT, In (i, oT) l' /\ match o, oT with HStop, OStop => True | HRuntime, ORuntime => True | HYield _ _, OYield _ _ _ => True | HTree _ _, OTree _ _ => True | _, _ => False end.
  Proof.
    intros st l l' i o H F. induction F as [|x y l l' S F IH]; intros I; [destruct I|]. destruct I as [->|I].
    - destruct y as [j oT]. cbn [same_outcome fst snd] in S. destruct S as [<- S]. exists oT. split; [left; reflexivity|]. destruct o, oT; try contradiction; exact Logic.I.
    - destruct (IH I) as (oT & J & X). exists oT. split; [right; exact J|exact X].
  Qed.
  Lemma results_given : forall st l l' i, Forall2 (same_outcome st) l l' ->
    Forall2 (fun y c => y_meta y = fst c /\ reads (y_heap y) (y_root y) (snd c)) (results_of i l) (LazySpec.given i l').
  Proof.
    intros st l l' i F. induction F as [|[[j o] H] [j' oT] l l' S F IH]; [constructor|]. cbn [same_outcome fst snd] in S. destruct S as [-> S].
    unfold results_of, LazySpec.given in *. cbn [flat_map fst snd]. destruct o as [m r| | |e|m r], oT as [m' w t|m' t| | |e']; try contradiction.
    - destruct S as (-> & R & _). destruct (j =? i); [|exact IH]. cbn [app]. constructor; [|exact IH]. cbn. auto.
    - destruct (j =? i); exact IH.
    - destruct (j =? i); exact IH.
    - destruct (j =? i); exact IH.
  Qed.
  Lemma trees_given_ok : forall st l l' i, Forall2 (same_outcome st) l l' ->
    Forall2 (fun y c => y_meta y = fst c /\ reads (y_heap y) (y_root y) (ptree (snd c))) (trees_of i l) (LazySpec.trees_given i l').
  Proof.
    intros st l l' i F. induction F as [|[[j o] H] [j' oT] l l' S F IH]; [constructor|]. cbn [same_outcome fst snd] in S. destruct S as [-> S].
    unfold trees_of, LazySpec.trees_given in *. cbn [flat_map fst snd]. destruct o as [m r| | |e|m r], oT as [m' w t|m' t| | |e']; try contradiction.
    4:{ destruct S as (-> & R & _). destruct (j =? i); [|exact IH]. cbn [app]. constructor; [|exact IH]. cbn. auto. }
    all: destruct (j =? i); exact IH.
  Qed.
  Lemma c70_combined : forall es es' st gs log, huses nv mcn (es ++ UMake true :: es') st gs log -> uloads es' = [] -> let l := nexts (es ++ UMake true :: es') log in
    (forall H, ~ In (umakes es, HRuntime, H) l) /\
    ((exists H, In (umakes es, HStop, H) l) ->
     Forall2 (fun sid y => exists due ct, make mcn (loads nv (own_loads nv sid (uloads es))) = Ok due /\ combined (y_meta y) due ct /\ reads (y_heap y) (y_root y) (ptree ct))
       (digests nv (uloads es)) (trees_of (umakes es) l)).
  Proof.
    intros es es' st gs log U NL l. destruct (c70_refines _ _ _ _ U) as (stT & gsT & logT & UT & _ & F). fold l in F.
    replace (acts (es ++ UMake true :: es')) with (acts es ++ AMake true :: acts es') in UT by (unfold acts; rewrite flat_map_app; reflexivity).
    destruct (c61_drain nv mcn _ _ _ _ _ M2 UT) as [D1 D2]; [rewrite acts_loads; exact NL|]. rewrite acts_makes, acts_loads in *. split.
    - intros H I. destruct (outcome_in _ _ _ _ _ _ F I) as (oT & J & X). destruct oT; try contradiction; exact (D1 J).
    - intros (H & I). destruct (outcome_in _ _ _ _ _ _ F I) as (oT & J & X). destruct oT; try contradiction. specialize (D2 J).
      pose proof (trees_given_ok _ _ _ (umakes es) F) as T. revert D2 T. generalize (trees_of (umakes es) l). generalize (LazySpec.trees_given (umakes es) logT). clear.
      intros l1 l2 D. revert l2. induction D as [|sid x ss l1 (due & E & C) D IH]; intros l2 T; inversion T as [|y c l2' l1' [T1 T2] T3]; subst; constructor; [|apply IH; exact T3].
      exists due, (snd x). split; [exact E|]. split; [rewrite T1; exact C|exact T2].
  Qed.
  Lemma hnext_tree : forall st g st' g' o m r, hnext mcn st g st' g' o -> o = HTree m r -> False.
  Proof.
    assert (W : forall size k m0 a todo st st' g' m r, hwork mcn size k m0 a todo st = (st', g', Some (HTree m r)) -> False).
    { intros size k m0 a todo st st' g' m r E. unfold hwork in E. destruct (hroot mcn m0 a (hs_heap st)) as [H1 [[| |subs]|e]]; discriminate E. }
    intros st g st' g' o m r N. induction N as [st g st' g' o E|st g st1 g1 st' g' o E N IH]; intros ->; [|exact (IH eq_refl)].
    destruct g as [|size k [|[m0 a] todo]|]; cbn [hstep] in E; try discriminate; [|exact (W _ _ _ _ _ _ _ _ _ _ E)].
    destruct (negb _); [discriminate|]. destruct (nth_error _ k); [exact (W _ _ _ _ _ _ _ _ _ _ E)|discriminate].
  Qed.
  Lemma c70_tree : forall es st gs log, huses nv mcn es st gs log -> forall p m r Hy, nth_error log p = Some (GNext (HTree m r) Hy) ->
    exists sid due ct, let h := uloads (firstn p es) in In sid (digests nv h) /\ make mcn (loads nv (own_loads nv sid h)) = Ok due /\ combined m due ct /\ c_val ct = [] /\ reads Hy r (ptree ct).
  Proof.
    intros es st gs log U. assert (LL : forall es st gs log, huses nv mcn es st gs log -> length es = length log).
    { intros es0 st0 gs0 log0 X. destruct (uses_ok _ _ _ _ X) as (H & g & ds & gg & logT & Y). exact (Forall2_length _ _ _ _ _ (gu_log _ _ _ _ _ _ _ _ _ Y)). }
    assert (FN : forall A (l : list A) e p, p <= length l -> firstn p (l ++ [e]) = firstn p l).
    { intros A l e p L. rewrite firstn_app. replace (p - length l) with 0 by lia. cbn [firstn]. apply app_nil_r. }
    induction U as [|es st gs log url me st' r0 U IH EL|es st gs log a H' r0 U IH EL|es st gs log cb U IH|es st gs log i gn st' gn' o U IH EG EN]; intros p m r Hy E; pose proof I as LLE; try pose proof (LL _ _ _ _ U) as LE; cbn zeta in *.
    - destruct p; discriminate E.
    - apply nth_last in E. destruct E as [[P E]|[P E]]; [|discriminate]. rewrite FN by lia. apply IH. exact E.
    - apply nth_last in E. destruct E as [[P E]|[P E]]; [|discriminate]. rewrite FN by lia. apply IH. exact E.
    - apply nth_last in E. destruct E as [[P E]|[P E]]; [|discriminate]. rewrite FN by lia. apply IH. exact E.
    - apply nth_last in E. destruct E as [[P E]|[P E]]; [rewrite FN by lia; apply IH; exact E|]. injection E as E1 E2. subst o Hy p.
      rewrite FN by lia. rewrite <- LE, firstn_all. destruct (uses_ok _ _ _ _ U) as (H & g & ds & gg & logT & [A1 A2 A3 A4 A5 A6 A7 A8 A9 A10]). subst st.
      inversion EN as [g0 s0 g0' o0 N|g0 s0 g0' o0 N]; subst.
      + exfalso. exact (hnext_tree _ _ _ _ _ _ _ N eq_refl).
      + assert (A4' : INV nv (uloads es) H g ([] ++ flat_map lowns gg ++ ds)) by exact A4. destruct (cnext_do nv mcn M2 _ H g g0 _ A4') as (H1 & g1 & c1 & o1 & E & N1 & IV1 & GG & _ & GV).
        rewrite N in N1. injection N1 as -> -> <-. cbn [cgiven] in GV. destruct GV as (x & ct & _ & Ea & Hx & EC & _ & sid & mk & IM & EM & MC).
        destruct (maker_combined nv mcn M2 _ _ sid mk (in_bare _ _ _ _ _ A4) IM) as (due & ct' & D1 & D2 & D3 & D4). assert (ct' = ct) as -> by congruence.
        exists sid, due, ct. split; [destruct (keys_ok nv _ _ (in_bare _ _ _ _ _ A4)) as [K _]; rewrite <- K; change sid with (fst (sid, mk)); apply in_map; exact IM|].
        split; [exact D1|]. split; [rewrite <- EM; exact D3|]. split; [exact D4|]. cbn [hs_heap]. rewrite <- Ea, <- EC. eapply holds_reads. exact Hx.
  Qed.
  Lemma c70_undisturbed : forall es es' st gs log, huses nv mcn (es ++ UMake false :: es') st gs log -> uloads es' = [] -> let l := nexts (es ++ UMake false :: es') log in
    (forall H, ~ In (umakes es, HRuntime, H) l) /\
    ((exists H, In (umakes es, HStop, H) l) -> exists cs ts, make mcn (loads nv (uloads es)) = Ok cs /\ same_clusters cs ts
      /\ Forall2 (fun y c => y_meta y = fst c /\ reads (y_heap y) (y_root y) (snd c)) (results_of (umakes es) l) ts).
  Proof.
    intros es es' st gs log U NL l. destruct (c70_refines _ _ _ _ U) as (stT & gsT & logT & UT & _ & F). fold l in F.
    replace (acts (es ++ UMake false :: es')) with (acts es ++ AMake false :: acts es') in UT by (unfold acts; rewrite flat_map_app; reflexivity).
    destruct (c55_drain nv mcn _ _ _ _ _ M2 UT) as [D1 D2]; [rewrite acts_loads; exact NL|]. rewrite acts_makes, acts_loads in *. split.
    - intros H I. destruct (outcome_in _ _ _ _ _ _ F I) as (oT & J & X). destruct oT; try contradiction; exact (D1 J).
    - intros (H & I). destruct (outcome_in _ _ _ _ _ _ F I) as (oT & J & X). destruct oT; try contradiction. destruct (D2 J) as (cs & E & S). exists cs, (LazySpec.given (umakes es) logT).
      split; [exact E|]. split; [exact S|]. eapply results_given. exact F.
  Qed.
  Lemma c70_makers : forall es st gs log, huses nv mcn es st gs log ->
    Forall2 (fun x y => fst x = fst y /\ hk_meta (snd x) = mk_meta (snd y) /\ exists t, reads (hs_heap st) (hk_root (snd x)) t /\ bare t = mk_root (snd y)) (hs_makers st) (loads nv (uloads es)).
  Proof.
    intros es st gs log U. destruct (uses_ok _ _ _ _ U) as (H & g & ds & gg & logT & [A1 A2 A3 A4 A5 A6 A7 A8 A9 A10]). subst st. cbn [hs_heap hs_makers].
    rewrite <- (in_bare _ _ _ _ _ A4). pose proof (wh_holds _ _ (in_whole _ _ _ _ _ A4)) as F. apply Forall_app in F. destruct F as [F _]. clear -F.
    induction g as [|[sid [m s]] g IH]; cbn [map bare_state]; [constructor|]. cbn [gt map snd] in F.
    apply Forall_cons_iff in F. destruct F as [F1 F2]. constructor; [|apply IH; exact F2]. cbn. split; [reflexivity|]. split; [reflexivity|]. exists (erase s). split; [eapply holds_reads; exact F1|reflexivity].
  Qed.
End Top.
