(** make() on the nodes as objects: a PatternMaker with the results it has given out. *)
From Coq Require Import String.
From Verif Require Import PyStr Defs UrlLib ParseUtils Views Trees Cluster Patterns Matcher Maker Spec Observe Heap HeapSpec HCluster HMakeSpec
  PyStrProofs DefsProofs DictProofs TreeProofs EntProofs GenCluster FlatCluster OuterCluster TokProofs MakeProofs
  LoadProofs HeapProofs HeapLoad HeapState HeapTop AnyOuter AnySpec AnyMake HCombine PartProofs HcBase HcMake HcCombine.
From Coq Require Import Lia Permutation.

(** ** Trees that share no nodes *)
Record whole (H : heap) (l : list atree) : Prop := {
  wh_holds : Forall (holds H None 0) l;
  wh_nd : NoDup (flat_map addrs l)
}.
Lemma whole_in : forall H l s, whole H l -> In s l -> holds H None 0 s /\ NoDup (addrs s).
Proof.
  intros H l s [F N] I. split; [rewrite Forall_forall in F; auto|]. apply in_split in I. destruct I as (x & y & ->).
  rewrite flat_map_app in N. cbn [flat_map] in N. apply nd_app in N. destruct N as (_ & N & _). apply nd_app in N. tauto.
Qed.
Lemma whole_lt : forall H l b, whole H l -> In b (flat_map addrs l) -> b < length H.
Proof.
  intros H l b W I. apply in_flat_map in I. destruct I as (s & Is & Ib). destruct (whole_in _ _ _ W Is) as [A _]. exact (holds_lt _ _ _ _ A b Ib).
Qed.
Lemma whole_perm : forall H l l', Permutation l l' -> whole H l -> whole H l'.
Proof.
  intros H l l' P [F N]. split; [eapply Permutation_Forall; eassumption|]. eapply Permutation_NoDup; [|exact N]. apply Permutation_flat_map. exact P.
Qed.
Lemma whole_ext : forall H H' l, whole H l -> agree (fun _ => True) H H' -> whole H' l.
Proof.
  intros H H' l [F N] A. split; [|exact N]. rewrite Forall_forall in *. intros s I. apply (holds_agree s H H' None 0 _ (F s I) A). auto.
Qed.
Lemma whole_app : forall H l xs, whole H l -> Forall (holds H None 0) xs -> NoDup (flat_map addrs xs) ->
  (forall a, In a (flat_map addrs l) -> ~ In a (flat_map addrs xs)) -> whole H (l ++ xs).
Proof.
  intros H l xs [F N] FX NX DJ. split; [apply Forall_app; auto|]. rewrite flat_map_app. apply nd_app. auto.
Qed.
Lemma whole_rep : forall H H' x s s' y, whole H (x ++ s :: y) -> holds H' None 0 s' -> NoDup (addrs s') ->
  agree (fun a => ~ In a (addrs s)) H H' -> (forall b, In b (addrs s') -> In b (addrs s) \/ length H <= b) -> whole H' (x ++ s' :: y).
Proof.
  intros H H' x s s' y W Ho ND A I. assert (W2 : whole H (s :: x ++ y)) by (eapply whole_perm; [|exact W]; apply Permutation_sym, Permutation_middle).
  apply (whole_perm _ (s' :: x ++ y)); [apply Permutation_middle|]. destruct W2 as [F N]. apply Forall_cons_iff in F. destruct F as [_ F].
  cbn [flat_map] in N. apply nd_app in N. destruct N as (_ & N & DJ). split.
  - constructor; [exact Ho|]. rewrite Forall_forall in *. intros z Iz. apply (holds_agree z H H' None 0 _ (F z Iz) A). intros a Ia Is.
    apply (DJ a Is). apply in_flat_map. eauto.
  - cbn [flat_map]. apply nd_app. split; [exact ND|]. split; [exact N|]. intros a Ia Ix. apply I in Ia. destruct Ia as [Ia|Ia]; [exact (DJ a Ia Ix)|].
    assert (a < length H); [|lia]. apply (whole_lt H (x ++ y)); [|exact Ix]. split; [exact F|exact N].
Qed.
Lemma whole_step : forall H H' x s s' y, whole H (x ++ s :: y) -> holds H' None 0 s' -> step H H' s s' -> NoDup (addrs s') -> whole H' (x ++ s' :: y).
Proof.
  intros H H' x s s' y W Ho ST ND. apply (whole_rep H H' x s); auto.
  - split; [apply (st_len _ _ _ _ ST)|]. intros a Na La. apply (st_frame _ _ _ _ ST); auto.
  - intros b Ib. apply (st_in _ _ _ _ ST) in Ib. destruct Ib as [Ib|Ib]; [auto|right; lia].
Qed.

(** ** The state *)
Definition gt (g : ghost) : list atree := map (fun x => snd (snd x)) g.
Record INV (nv : str -> bool) (h : list (str * option str)) (H : heap) (g : ghost) (fs : list atree) : Prop := {
  in_whole : whole H (gt g ++ fs);
  in_bare : bare_state (map fm g) = loads nv h;
  in_wft : Forall (fun s => exists d, wft d (erase s)) fs
}.
Lemma INV_nil : forall nv, INV nv [] [] [] [].
Proof. intros nv. split; [split; constructor|reflexivity|constructor]. Qed.
Lemma in_gt : forall g sid m s, In (sid, (m, s)) g -> In s (gt g).
Proof. intros g sid m s I. apply in_map_iff. exists (sid, (m, s)). auto. Qed.
Lemma ghost_full : forall nv h H g fs sid m s, INV nv h H g fs -> In (sid, (m, s)) g ->
  exists Cs, Cs <> [] /\ length Cs = depth m /\ ofull Cs (erase s).
Proof.
  intros nv h H g fs sid m s IV I. assert (IM : In (sid, MK m (erase s)) (map fm g)) by (change (sid, MK m (erase s)) with (fm (sid, (m, s))); apply in_map; exact I).
  apply bare_in in IM. rewrite (in_bare _ _ _ _ _ IV) in IM. destruct (maker_facts nv h _ _ IM) as (raw0 & F).
  exists (map cset raw0). split; [pose proof (mf_non _ _ _ _ _ F); destruct raw0; [contradiction|discriminate]|].
  split; [rewrite map_length; exact (mf_dep _ _ _ _ _ F)|]. apply ofull_bare. split; [rewrite map_length; exact (mf_tok _ _ _ _ _ F)|].
  split; [exact (mf_val _ _ _ _ _ F)|exact (mf_met _ _ _ _ _ F)].
Qed.
Lemma held_wft : forall nv h H g fs s, INV nv h H g fs -> In s (gt g ++ fs) -> exists d, wft d (erase s).
Proof.
  intros nv h H g fs s IV I. apply in_app_iff in I. destruct I as [I|I].
  - apply in_map_iff in I. destruct I as ([sid [m s0]] & <- & I). destruct (ghost_full _ _ _ _ _ _ _ _ IV I) as (Cs & _ & _ & F). eexists. apply F.
  - pose proof (in_wft _ _ _ _ _ IV) as F. rewrite Forall_forall in F. auto.
Qed.

(** ** load() *)
Lemma load_do : forall nv h H g fs url me, INV nv h H g fs ->
  exists H' g' r, hload nv (HS H (map hm g)) url me = (HS H' (map hm g'), r)
    /\ fst (load nv (map fm g) url me) = map fm g' /\ INV nv (h ++ [(url, me)]) H' g' fs /\ ggrows g g' /\ length H <= length H'
    /\ match r with
       | Err e => snd (load nv (map fm g) url me) = Err e
       | Ok (b, new) => snd (load nv (map fm g) url me) = Ok new /\
           exists m pps m0 s, parse nv url = Ok (m, PUrl pps) /\ In (parsed_digest m (PUrl pps), (m0, s)) g'
             /\ aat s (map piece pps) = Some b
       end.
Proof.
  intros nv h H g fs url me IV.
  assert (BA : forall g', fst (load nv (map fm g) url me) = map fm g' -> bare_state (map fm g') = loads nv (h ++ [(url, me)])).
  { intros g' E. pose proof (load_erase nv (map fm g) url me) as LE. rewrite (in_bare _ _ _ _ _ IV), E in LE. rewrite loads_snoc, LE. reflexivity. }
  assert (X : exists H' g' r, hload nv (HS H (map hm g)) url me = (HS H' (map hm g'), r)
    /\ fst (load nv (map fm g) url me) = map fm g' /\ whole H' (gt g' ++ fs) /\ ggrows g g' /\ length H <= length H'
    /\ match r with
       | Err e => snd (load nv (map fm g) url me) = Err e
       | Ok (b, new) => snd (load nv (map fm g) url me) = Ok new /\
           exists m pps m0 s, parse nv url = Ok (m, PUrl pps) /\ In (parsed_digest m (PUrl pps), (m0, s)) g'
             /\ aat s (map piece pps) = Some b
       end).
  2: { destruct X as (H' & g' & r & A & B & C & X). exists H', g', r. split; [exact A|]. split; [exact B|]. split; [|exact X].
       split; [exact C|apply BA; exact B|exact (in_wft _ _ _ _ _ IV)]. }
  clear BA. pose proof (in_whole _ _ _ _ _ IV) as W. clear IV. unfold hload, load.
  assert (ID : forall (e : exn), exists H' g' (r : res (addr * bool)), (HS H (map hm g), Err e) = (HS H' (map hm g'), r)
    /\ map fm g = map fm g' /\ whole H' (gt g' ++ fs) /\ ggrows g g' /\ length H <= length H' /\ match r with Err e' => @Err bool e = Err e' | Ok _ => False end).
  { intros e. exists H, g, (Err e). repeat (split; [auto using ggrows_refl|]). reflexivity. }
  destruct (parse nv url) as [[m [[|p pps]|[|q l]]]|e] eqn:EP; cbn [fst snd].
  - destruct (ID EIndex) as (H' & g' & r & A & B & C & D & L & E). exists H', g', r. repeat (split; [assumption|]). destruct r as [[b n]|e0]; [destruct E|exact E].
  - clear ID. set (P := p :: pps). set (sid := parsed_digest m (PUrl P)). cbn [hs_makers hs_heap].
    rewrite (dget_map _ _ hm (fun v => HMK (fst v) (a_addr (snd v))) sid g) by reflexivity.
    rewrite (dget_map _ _ fm (fun v => MK (fst v) (erase (snd v))) sid g) by reflexivity.
    unfold maker_load. assert (NP : P <> []) by discriminate.
    destruct (dget str_eqb sid g) as [[m0 s]|] eqn:EG; cbn [option_map fst snd mk_root mk_meta].
    + destruct (dget_split _ _ _ _ EG) as (x & y & -> & NX).
      assert (GS : forall z, gt (x ++ (sid, (m0, z)) :: y) ++ fs = gt x ++ z :: (gt y ++ fs)) by (intros z; unfold gt; rewrite map_app; cbn [map snd]; rewrite <- app_assoc; reflexivity).
      rewrite GS in W. destruct (whole_in _ _ s W ltac:(apply in_app_iff; right; left; reflexivity)) as [Hs N0].
      destruct (build_from_ok s H P 1 me true Hs N0 NP) as (t & new & EB & H' & s' & b & EH & Hs' & ST & ND' & ER & EA).
      cbn [hk_root]. rewrite EB, EH. pose proof (whole_step _ _ _ _ _ _ W Hs' ST ND') as W'.
      exists H', (x ++ (sid, (m0, s')) :: y), (Ok (b, new)). cbn [fst snd]. split; [|split; [|split; [|split; [|split; [apply (st_len _ _ _ _ ST)|]]]]].
      * f_equal. f_equal. rewrite !map_app. cbn [map]. f_equal. f_equal. unfold hm. cbn. rewrite (st_addr _ _ _ _ ST). reflexivity.
      * rewrite !map_app. cbn [map]. unfold fm at 2. cbn [fst snd]. rewrite dset_mid; [|rewrite map_map; exact NX].
        f_equal. unfold fm at 2. cbn [fst snd]. rewrite ER. reflexivity.
      * rewrite GS. exact W'.
      * intros sid0 m1 s0 I. apply in_app_iff in I. destruct I as [I|[I|I]].
        -- exists s0. split; [apply in_app_iff; auto|apply grows_refl].
        -- injection I as <- <- <-. exists s'. split; [apply in_app_iff; right; left; reflexivity|apply (st_grows _ _ _ _ ST)].
        -- exists s0. split; [apply in_app_iff; right; right; exact I|apply grows_refl].
      * split; [reflexivity|]. exists m, P, m0, s'. split; [reflexivity|]. split; [apply in_app_iff; right; left; reflexivity|exact EA].
    + set (s := AT (length H) empty_parsed_piece None 0 None []). set (H1 := H ++ [new_node None empty_parsed_piece None]).
      assert (A1 : agree (fun _ => True) H H1) by (split; [unfold H1; rewrite app_length; lia|intros a _ La; apply app_old; exact La]).
      assert (Hs : holds H1 None 0 s) by (apply holds_iff; split; [|constructor]; exists (new_node None empty_parsed_piece None); split; [apply app_new|cbn; auto 10]).
      assert (N0 : NoDup (addrs s)) by (cbn; repeat constructor; intros []).
      assert (GS : forall z, gt (g ++ [(sid, (m, z))]) ++ fs = gt g ++ z :: fs) by (intros z; unfold gt; rewrite map_app; cbn [map snd]; rewrite <- app_assoc; reflexivity).
      assert (W1 : whole H1 (gt g ++ s :: fs)).
      { apply (whole_perm _ ((gt g ++ fs) ++ [s])).
        - rewrite <- app_assoc. apply Permutation_app_head. apply Permutation_sym, Permutation_cons_append.
        - apply whole_app; [eapply whole_ext; eassumption|constructor; [exact Hs|constructor]|cbn [flat_map]; rewrite app_nil_r; exact N0|].
          intros a Ia Is. apply (whole_lt _ _ _ W) in Ia. cbn in Is. destruct Is as [<-|[]]. lia. }
      destruct (build_from_ok s H1 P 1 me true Hs N0 NP) as (t & new & EB & H' & s' & b & EH & Hs' & ST & ND' & ER & EA).
      change (erase s) with new_root in EB. change (a_addr s) with (length H) in EH. cbn [hk_root]. fold H1. rewrite EB, EH.
      pose proof (whole_step _ _ _ _ _ _ W1 Hs' ST ND') as W'.
      exists H', (g ++ [(sid, (m, s'))]), (Ok (b, new)). cbn [fst snd].
      split; [|split; [|split; [|split; [|split; [pose proof (st_len _ _ _ _ ST); destruct A1; lia|]]]]].
      * f_equal. f_equal. rewrite map_app. cbn [map]. f_equal. unfold hm. cbn. rewrite (st_addr _ _ _ _ ST). reflexivity.
      * rewrite map_app. cbn [map]. unfold fm at 3. cbn [fst snd]. rewrite ER. apply dset_new.
        rewrite (dget_map _ _ fm (fun v => MK (fst v) (erase (snd v))) sid g) by reflexivity. rewrite EG. reflexivity.
      * rewrite GS. exact W'.
      * intros sid0 m1 s0 I. exists s0. split; [apply in_app_iff; auto|apply grows_refl].
      * split; [reflexivity|]. exists m, P, m, s'. split; [reflexivity|]. split; [apply in_app_iff; right; left; reflexivity|exact EA].
  - destruct (ID EIndex) as (H' & g' & r & A & B & C & D & L & E). exists H', g', r. repeat (split; [assumption|]). destruct r as [[b n]|e0]; [destruct E|exact E].
  - destruct (ID EValue) as (H' & g' & r & A & B & C & D & L & E). exists H', g', r. repeat (split; [assumption|]). destruct r as [[b n]|e0]; [destruct E|exact E].
  - destruct (ID e) as (H' & g' & r & A & B & C & D & L & E). exists H', g', r. repeat (split; [assumption|]). destruct r as [[b n]|e0]; [destruct E|exact E].
Qed.

(** ** level *)
Lemma level_frame : forall H b H' r, level H b = (H', r) -> length H' = length H /\ forall x, x <> b -> nth_error H' x = nth_error H x.
Proof.
  intros H b H' r E. unfold level in E. destruct (get H b) as [n|]; [|injection E as <- _; auto].
  destruct (n_level n); [injection E as <- _; auto|]. destruct (climb _ _ _); injection E as <- _; [|auto].
  split; [apply put_length|]. intros x Hx. apply put_other. exact Hx.
Qed.
Lemma level_do : forall nv h H g fs b, INV nv h H g fs ->
  exists H' r, level H b = (H', r) /\ INV nv h H' g fs /\ length H' = length H
    /\ forall s ks, In s (gt g ++ fs) -> aat s ks = Some b -> r = Ok (length ks).
Proof.
  intros nv h H g fs b IV. destruct (level H b) as [H' r] eqn:E. destruct (level_frame _ _ _ _ E) as [LL FR].
  pose proof (in_whole _ _ _ _ _ IV) as W. exists H', r. split; [reflexivity|].
  destruct (in_dec Nat.eq_dec b (flat_map addrs (gt g ++ fs))) as [I|N].
  - apply in_flat_map in I. destruct I as (s & Is & Ib). destruct (whole_in _ _ _ W Is) as [Hs ND]. destruct (held_wft _ _ _ _ _ _ IV Is) as [d Wt].
    destruct (addr_at _ _ _ Wt Ib) as [ks EA]. destruct (level_at s H ks b Hs ND EA) as (H2 & E2 & _ & _ & Ho2 & SM). assert (H2 = H') as -> by congruence. assert (r = Ok (length ks)) as -> by congruence.
    split; [|split; [exact LL|]].
    + split; [|exact (in_bare _ _ _ _ _ IV)|exact (in_wft _ _ _ _ _ IV)]. apply in_split in Is. destruct Is as (x & y & Es). rewrite Es in *.
      apply (whole_step H H' x s s y W Ho2 (same_step _ _ _ _ SM) ND).
    + intros s2 ks2 I2 E3. destruct (whole_in _ _ _ W I2) as [Hs2 _]. destruct (chain_det _ _ _ _ (root_chain _ _ _ _ Hs EA) _ _ (root_chain _ _ _ _ Hs2 E3)) as [-> _]. reflexivity.
  - split; [|split; [exact LL|]].
    + split; [|exact (in_bare _ _ _ _ _ IV)|exact (in_wft _ _ _ _ _ IV)]. destruct W as [F ND]. split; [|exact ND]. rewrite Forall_forall in *. intros s Is.
      apply (holds_frame s H H' None 0 (F s Is)). intros a Ia. apply FR. intros ->. apply N. apply in_flat_map. eauto.
    + intros s ks Is EA. exfalso. apply N. apply in_flat_map. exists s. split; [exact Is|eapply at_in; exact EA].
Qed.

(** ** make() *)
(** what one maker gives out: the results, their trees, those of them that are new *)
Definition row_ok (mcn : Z) (lo : nat) (x x' : str * (url_meta * atree)) (row : list yielded * list atree * list atree) : Prop :=
  let '(ys, xs, new) := row in
  fst x' = fst x /\ fst (snd x') = fst (snd x) /\ snd (fm x') = maker_after mcn (snd (fm x)) /\ a_addr (snd (snd x')) = a_addr (snd (snd x))
  /\ grows (snd (snd x)) (snd (snd x')) /\ bare (erase (snd (snd x'))) = bare (erase (snd (snd x)))
  /\ Forall2 (handed (fst (snd x))) ys xs /\ maker_make mcn (snd (fm x)) = Ok (map erase xs)
  /\ ((xs = [snd (snd x')] /\ new = []) \/ (new = xs /\ 2 <= length xs /\ forall a, In a (flat_map addrs xs) -> lo <= a)).
Inductive rows_ok (mcn : Z) (lo : nat) : ghost -> ghost -> list (list yielded * list atree * list atree) -> Prop :=
| rows_nil : rows_ok mcn lo [] [] []
| rows_cons : forall x x' row g g' rows, row_ok mcn lo x x' row -> rows_ok mcn lo g g' rows -> rows_ok mcn lo (x :: g) (x' :: g') (row :: rows).
Definition rys (rows : list (list yielded * list atree * list atree)) := flat_map (fun r => fst (fst r)) rows.
Definition rxs (rows : list (list yielded * list atree * list atree)) := flat_map (fun r => snd (fst r)) rows.
Definition rnew (rows : list (list yielded * list atree * list atree)) := flat_map (fun r => snd r) rows.
Lemma row_lo : forall mcn lo lo' g g' rows, lo <= lo' -> rows_ok mcn lo' g g' rows -> rows_ok mcn lo g g' rows.
Proof.
  intros mcn lo lo' g g' rows L R. induction R as [|x x' [[ys xs] new] g g' rows R1 R IH]; constructor; [|exact IH].
  unfold row_ok in *. repeat match goal with H : _ /\ _ |- _ => destruct H end. repeat (split; [assumption|]).
  match goal with H : _ \/ _ |- _ => destruct H as [X|(-> & X2 & X3)] end; [left; exact X|]. right. split; [reflexivity|]. split; [exact X2|].
  intros a Ia. specialize (X3 a Ia). lia.
Qed.
Lemma bare_process : forall mcn inner d pd kw t t' b, process mcn inner d pd kw t = Ok (t', b) -> bare t' = bare t.
Proof.
  intros mcn inner d pd kw t t' b E. unfold process in E. destruct (proc mcn inner d 0 pd kw [PN None [] t]) as [p|]; [|discriminate]. cbn [bind] in E.
  injection E as <- _. apply erase_annotate.
Qed.
Lemma makes_ok : forall mcn, (2 <= mcn)%Z -> forall g2 g1 H o fs,
  whole H (gt (g1 ++ g2) ++ fs) -> Forall (fun x => exists Cs, Cs <> [] /\ length Cs = depth (fst (snd x)) /\ ofull Cs (erase (snd (snd x)))) g2 ->
  exists H' g2' rows, hmake mcn (map hm g2) (H, o) = ((H', o ++ rys rows), Ok tt)
    /\ rows_ok mcn (length H) g2 g2' rows /\ whole H' (gt (g1 ++ g2') ++ fs ++ rnew rows) /\ length H <= length H'
    /\ Forall (fun s => exists d, wft d (erase s)) (rnew rows).
Proof.
  intros mcn M2 g2. induction g2 as [|[sid [m s]] g2 IH]; intros g1 H o fs W F.
  - exists H, [], []. split; [cbn; rewrite app_nil_r; reflexivity|]. split; [constructor|]. split; [cbn; rewrite !app_nil_r in *; exact W|]. split; [lia|constructor].
  - apply Forall_cons_iff in F. destruct F as [(Cs & CN & LD & OF) F]. cbn [fst snd] in *.
    assert (GS : forall z l, gt (g1 ++ (sid, (m, z)) :: l) ++ fs = gt g1 ++ z :: (gt l ++ fs)) by (intros z l; unfold gt; rewrite map_app; cbn [map snd]; rewrite <- app_assoc; reflexivity).
    rewrite GS in W. destruct (whole_in _ _ s W ltac:(apply in_app_iff; right; left; reflexivity)) as [Hs ND].
    destruct OF as (O1 & O2 & O3) eqn:EOF.
    destruct (outer_cluster mcn M2 Cs CN (path_depth m) false (erase s) O1 O2 O3) as (tps & EC & _ & TP).
    destruct (maker_run mcn M2 Cs CN (path_depth m) false m s H o (map fst tps) Hs ND OF EC) as (H1 & s' & xs & out & split & R & EP & CP & EA & EAS & Ho1 & AG & HD & ME & CASE).
    rewrite LD in R, EP, EC.
    assert (GR : grows s s') by (apply same_shape_grows; [symmetry; eapply bare_process; exact EP|symmetry; exact EAS]).
    assert (W1 : whole H1 (gt g1 ++ s' :: (gt g2 ++ fs))).
    { apply (whole_rep H H1 _ s); [exact W|exact Ho1|rewrite EAS; exact ND|exact AG|]. intros b Ib. rewrite EAS in Ib. auto. }
    set (new := if split then xs else []).
    assert (W2 : whole H1 (gt ((g1 ++ [(sid, (m, s'))]) ++ g2) ++ fs ++ new)).
    { rewrite <- (app_assoc g1). cbn [app]. rewrite app_assoc, GS. unfold new. destruct CASE as [[-> _]|(-> & _ & X1 & X2 & X3)]; [rewrite app_nil_r; exact W1|].
      apply whole_app; [exact W1|exact X1|exact X2|]. intros a Ia Ix. apply X3 in Ix.
      assert (a < length H); [|lia]. apply (whole_lt _ _ _ W). rewrite flat_map_app in *. cbn [flat_map] in *. rewrite <- EAS. exact Ia. }
    destruct (IH (g1 ++ [(sid, (m, s'))]) H1 (o ++ out) (fs ++ new) W2 F) as (H' & g2' & rows & R' & RO & W' & L' & WF).
    exists H', ((sid, (m, s')) :: g2'), ((out, xs, new) :: rows).
    split; [|split; [|split; [|split; [destruct AG; lia|]]]].
    + cbn [map]. unfold hmake. rewrite (each_cons _ _ _ _ _ _ (H1, o ++ out)).
      * unfold hmake in R'. rewrite R'. unfold rys. cbn [flat_map fst]. rewrite <- app_assoc. reflexivity.
      * exact R.
    + constructor; [|apply (row_lo mcn (length H) (length H1)); [destruct AG; lia|exact RO]].
      unfold row_ok. cbn [fst snd fm]. split; [reflexivity|]. split; [reflexivity|]. split.
      { unfold maker_after. cbn [mk_root mk_meta]. rewrite CP, EP. reflexivity. }
      split; [exact EA|]. split; [exact GR|]. split; [eapply bare_process; exact EP|]. split; [exact HD|]. split; [unfold maker_make, cluster; cbn [mk_root mk_meta]; rewrite ME; exact EC|].
      unfold new. destruct CASE as [[-> ->]|(-> & X0 & _ & _ & X3)]; [left; auto|right]. auto.
    + unfold rnew. cbn [flat_map snd]. rewrite <- (app_assoc g1) in W'. cbn [app] in W'. rewrite <- (app_assoc fs) in W'. exact W'.
    + unfold rnew. cbn [flat_map snd]. apply Forall_app. split; [|exact WF]. unfold new. destruct split; [|constructor].
      apply Forall_forall. intros x Ix. assert (It : In (erase x) (map fst tps)) by (rewrite <- ME; apply in_map; exact Ix).
      apply in_map_iff in It. destruct It as (tp & Et & It). rewrite Forall_forall in TP. destruct (TP tp It) as (T1 & _). rewrite Et in T1. eexists. apply T1.
Qed.
Lemma make_do : forall nv mcn h H g fs, (2 <= mcn)%Z -> INV nv h H g fs ->
  exists H' g' rows, hmake mcn (map hm g) (H, []) = ((H', rys rows), Ok tt)
    /\ rows_ok mcn (length H) g g' rows /\ INV nv h H' g' (fs ++ rnew rows) /\ length H <= length H'.
Proof.
  intros nv mcn h H g fs M2 IV.
  destruct (makes_ok mcn M2 g [] H [] fs (in_whole _ _ _ _ _ IV)) as (H' & g' & rows & R & RO & W & L & WF).
  { apply Forall_forall. intros [sid [m s]] I. exact (ghost_full _ _ _ _ _ _ _ _ IV I). }
  exists H', g', rows. split; [exact R|]. split; [exact RO|]. split; [|exact L]. split; [exact W| |apply Forall_app; split; [exact (in_wft _ _ _ _ _ IV)|exact WF]].
  rewrite <- (in_bare _ _ _ _ _ IV). clear -RO. induction RO as [|x x' [[ys xs] new] g g' rows R RO IH]; [reflexivity|]. cbn [map bare_state]. unfold bare_state in IH. rewrite IH. f_equal.
  destruct R as (A & B & _ & _ & _ & C & _). unfold bare_maker, fm. cbn [fst snd mk_meta mk_root]. rewrite A, B, C. reflexivity.
Qed.

(** ** make(combine=True) *)
(** what one maker gives out: the result and its tree *)
Definition crow_ok (mcn : Z) (lo : nat) (x x' : str * (url_meta * atree)) (row : yielded * atree) : Prop :=
  let '(y, c) := row in
  fst x' = fst x /\ fst (snd x') = fst (snd x) /\ snd (fm x') = maker_after mcn (snd (fm x)) /\ a_addr (snd (snd x')) = a_addr (snd (snd x))
  /\ grows (snd (snd x)) (snd (snd x')) /\ bare (erase (snd (snd x'))) = bare (erase (snd (snd x)))
  /\ handed (fst (snd x)) y c /\ (exists ct, maker_combine mcn (snd (fm x)) = Ok ct /\ erase c = ptree ct)
  /\ forall a, In a (addrs c) -> lo <= a.
Inductive crows_ok (mcn : Z) (lo : nat) : ghost -> ghost -> list (yielded * atree) -> Prop :=
| crows_nil : crows_ok mcn lo [] [] []
| crows_cons : forall x x' row g g' rows, crow_ok mcn lo x x' row -> crows_ok mcn lo g g' rows -> crows_ok mcn lo (x :: g) (x' :: g') (row :: rows).
Lemma crow_lo : forall mcn lo lo' g g' rows, lo <= lo' -> crows_ok mcn lo' g g' rows -> crows_ok mcn lo g g' rows.
Proof.
  intros mcn lo lo' g g' rows L R. induction R as [|x x' [y c] g g' rows R RO IH]; constructor; [|exact IH].
  destruct R as (A & B & C & D & E & F & G & I & J). repeat (split; [assumption|]). intros a Ia. specialize (J a Ia). lia.
Qed.
Lemma combines_ok : forall mcn, (2 <= mcn)%Z -> forall g2 g1 H o fs,
  whole H (gt (g1 ++ g2) ++ fs) -> Forall (fun x => exists Cs, Cs <> [] /\ length Cs = depth (fst (snd x)) /\ ofull Cs (erase (snd (snd x)))) g2 ->
  exists H' g2' rows, hmake_combine mcn (map hm g2) (H, o) = ((H', o ++ map fst rows), Ok tt)
    /\ crows_ok mcn (length H) g2 g2' rows /\ whole H' (gt (g1 ++ g2') ++ fs ++ map snd rows) /\ length H <= length H'
    /\ Forall (fun s => exists d, wft d (erase s)) (map snd rows).
Proof.
  intros mcn M2 g2. induction g2 as [|[sid [m s]] g2 IH]; intros g1 H o fs W F.
  - exists H, [], []. split; [cbn; rewrite app_nil_r; reflexivity|]. split; [constructor|]. split; [cbn; rewrite !app_nil_r in *; exact W|]. split; [lia|constructor].
  - apply Forall_cons_iff in F. destruct F as [(Cs & CN & LD & OF) F]. cbn [fst snd] in *.
    assert (GS : forall z l, gt (g1 ++ (sid, (m, z)) :: l) ++ fs = gt g1 ++ z :: (gt l ++ fs)) by (intros z l; unfold gt; rewrite map_app; cbn [map snd]; rewrite <- app_assoc; reflexivity).
    rewrite GS in W. destruct (whole_in _ _ s W ltac:(apply in_app_iff; right; left; reflexivity)) as [Hs ND].
    destruct OF as (O1 & O2 & O3) eqn:EOF.
    destruct (outer_cluster mcn M2 Cs CN (path_depth m) false (erase s) O1 O2 O3) as (tps & EC & PM & TP).
    assert (WT : Forall (wft (length Cs)) (map fst tps)).
    { apply Forall_forall. intros t It. apply in_map_iff in It. destruct It as (tp & Et & It). rewrite Forall_forall in TP. destruct (TP tp It) as (T1 & _). rewrite Et in T1. apply T1. }
    assert (NT : map fst tps <> []).
    { intros N. rewrite N in PM. cbn in PM. apply Permutation_nil in PM. exact (ents_nonnil _ PM). }
    destruct (combine_cnt (map fst tps) (CT [] 0 [])) as (ct & ECT & _).
    { intros t It. rewrite Forall_forall in WT. pose proof (WT t It) as Wt. pose proof (paths_nonnil t) as PN. destruct (paths t) as [|nodes l] eqn:EP; [congruence|]. exists nodes. split; [reflexivity|].
      pose proof (path_len _ _ _ _ Wt EP) as LN. intros TN. rewrite TN in LN. destruct Cs; [congruence|discriminate]. }
    assert (WC : wft (length Cs) (ptree ct)) by (apply (combine_wft _ (map fst tps) (CT [] 0 [])); [exact WT|right; split; [split; reflexivity|exact NT]|exact ECT]).
    destruct (combine_run mcn M2 Cs CN (path_depth m) false s H o (map fst tps) ct Hs ND OF EC ECT) as (H1 & s' & c & split & R & EP & CP & EA & EAS & Ho1 & AG & CA & CH & CND & CN1 & CE).
    rewrite LD in R, EP, EC.
    assert (GR : grows s s') by (apply same_shape_grows; [symmetry; eapply bare_process; exact EP|symmetry; exact EAS]).
    assert (W1 : whole H1 (gt g1 ++ s' :: (gt g2 ++ fs))).
    { apply (whole_rep H H1 _ s); [exact W|exact Ho1|rewrite EAS; exact ND|exact AG|]. intros b Ib. rewrite EAS in Ib. auto. }
    assert (W2 : whole H1 (gt ((g1 ++ [(sid, (m, s'))]) ++ g2) ++ fs ++ [c])).
    { rewrite <- (app_assoc g1). cbn [app]. rewrite app_assoc, GS.
      apply whole_app; [exact W1|constructor; [exact CH|constructor]|cbn; rewrite app_nil_r; exact CND|]. intros a Ia Ix. cbn in Ix. rewrite app_nil_r in Ix. apply CN1 in Ix.
      assert (a < length H); [|lia]. apply (whole_lt _ _ _ W). rewrite flat_map_app in *. cbn [flat_map] in *. rewrite <- EAS. exact Ia. }
    destruct (IH (g1 ++ [(sid, (m, s'))]) H1 (o ++ [(m, length H, H1)]) (fs ++ [c]) W2 F) as (H' & g2' & rows & R' & RO & W' & L' & WF).
    exists H', ((sid, (m, s')) :: g2'), (((m, length H, H1), c) :: rows).
    split; [|split; [|split; [|split; [destruct AG; lia|]]]].
    + cbn [map]. unfold hmake_combine. rewrite (each_cons _ _ _ _ _ _ (H1, o ++ [(m, length H, H1)])).
      * unfold hmake_combine in R'. rewrite R'. cbn [map fst]. rewrite <- app_assoc. reflexivity.
      * unfold new_tree_node. rewrite (then_ok _ _ _ _ _ _ _ _ (on_heap_ok _ _ _ _ o _ _ eq_refl)). cbn [hm fst snd hk_meta hk_root] in *.
        rewrite (then_ok _ _ _ _ _ _ _ _ R). reflexivity.
    + constructor; [|apply (crow_lo mcn (length H) (length H1)); [destruct AG; lia|exact RO]].
      unfold crow_ok. cbn [fst snd fm]. split; [reflexivity|]. split; [reflexivity|]. split.
      { unfold maker_after. cbn [mk_root mk_meta]. rewrite CP, EP. reflexivity. }
      split; [exact EA|]. split; [exact GR|]. split; [eapply bare_process; exact EP|]. split; [split; [reflexivity|split; [symmetry; exact CA|exact CH]]|]. split; [|exact CN1].
      exists ct. split; [|exact CE]. unfold maker_combine, maker_make, cluster. cbn [mk_root mk_meta]. rewrite EC. exact ECT.
    + cbn [map snd]. rewrite <- (app_assoc g1) in W'. cbn [app] in W'. rewrite <- (app_assoc fs) in W'. exact W'.
    + cbn [map snd]. constructor; [|exact WF]. exists (length Cs). rewrite CE. exact WC.
Qed.
Lemma combine_do : forall nv mcn h H g fs, (2 <= mcn)%Z -> INV nv h H g fs ->
  exists H' g' rows, hmake_combine mcn (map hm g) (H, []) = ((H', map fst rows), Ok tt)
    /\ crows_ok mcn (length H) g g' rows /\ INV nv h H' g' (fs ++ map snd rows) /\ length H <= length H'.
Proof.
  intros nv mcn h H g fs M2 IV.
  destruct (combines_ok mcn M2 g [] H [] fs (in_whole _ _ _ _ _ IV)) as (H' & g' & rows & R & RO & W & L & WF).
  { apply Forall_forall. intros [sid [m s]] I. exact (ghost_full _ _ _ _ _ _ _ _ IV I). }
  exists H', g', rows. split; [exact R|]. split; [exact RO|]. split; [|exact L]. split; [exact W| |apply Forall_app; split; [exact (in_wft _ _ _ _ _ IV)|exact WF]].
  rewrite <- (in_bare _ _ _ _ _ IV). clear -RO. induction RO as [|x x' [y c] g g' rows R RO IH]; [reflexivity|]. cbn [map bare_state]. unfold bare_state in IH. rewrite IH. f_equal.
  destruct R as (A & B & _ & _ & _ & C & _). unfold bare_maker, fm. cbn [fst snd mk_meta mk_root]. rewrite A, B, C. reflexivity.
Qed.
