(** The nodes as objects: a PatternMaker. *)
From Coq Require Import String.
From Verif Require Import PyStr Defs UrlLib ParseUtils Spec Trees Patterns Matcher Maker Observe Heap HeapSpec
  PyStrProofs DefsProofs PieceProofs TreeProofs DictProofs LoadProofs HeapProofs HeapLoad.
From Coq Require Import Lia Permutation.

(** the makers with the trees with references *)
Definition ghost := list (str * (url_meta * atree)).
Definition hm (x : str * (url_meta * atree)) : str * hmaker := (fst x, HMK (fst (snd x)) (a_addr (snd (snd x)))).
Definition fm (x : str * (url_meta * atree)) : str * maker := (fst x, MK (fst (snd x)) (erase (snd (snd x)))).
Definition g_addrs (g : ghost) : list addr := flat_map (fun x => addrs (snd (snd x))) g.
Record inv (H : heap) (g : ghost) : Prop := {
  iv_holds : Forall (fun x => holds H None 0 (snd (snd x))) g;
  iv_nd : NoDup (g_addrs g);
  iv_all : forall b, In b (g_addrs g) <-> b < length H
}.
Definition ggrows (g g' : ghost) : Prop := forall sid m s, In (sid, (m, s)) g ->
  exists s', In (sid, (m, s')) g' /\ grows s s'.
Lemma ggrows_refl : forall g, ggrows g g.
Proof. intros g sid m s I. exists s. split; [exact I|apply grows_refl]. Qed.
Lemma ggrows_trans : forall a b c, ggrows a b -> ggrows b c -> ggrows a c.
Proof.
  intros a b c A B sid m s I. destruct (A _ _ _ I) as (s1 & I1 & G1). destruct (B _ _ _ I1) as (s2 & I2 & G2).
  exists s2. split; [exact I2|]. eapply grows_trans; eassumption.
Qed.
Lemma inv_nil : inv [] [].
Proof. constructor; [constructor|constructor|]. intros b. cbn. split; [intros []|lia]. Qed.

Lemma dget_map : forall V W (f : str * V -> str * W) (h : V -> W) sid (g : list (str * V)),
  (forall x, f x = (fst x, h (snd x))) -> dget str_eqb sid (map f g) = option_map h (dget str_eqb sid g).
Proof.
  intros V W f h sid g Hf. induction g as [|[k v] g IH]; cbn [map dget]; [reflexivity|]. rewrite Hf. cbn [fst snd].
  destruct (str_eqb sid k); [reflexivity|exact IH].
Qed.
Lemma dget_split : forall V sid (g : list (str * V)) v, dget str_eqb sid g = Some v ->
  exists x y, g = x ++ (sid, v) :: y /\ ~ In sid (map fst x).
Proof.
  intros V sid g v. induction g as [|[k w] g IH]; cbn [dget]; [discriminate|]. destruct (str_eqb sid k) eqn:E.
  - intros X. injection X as ->. apply str_eqb_iff in E. subst. exists [], g. cbn. auto.
  - intros X. destruct (IH X) as (x & y & -> & N0). exists ((k, w) :: x), y. split; [reflexivity|]. cbn. intros [Q|Q]; [|auto].
    subst. assert (T0 : str_eqb sid sid = true) by (apply str_eqb_iff; reflexivity). congruence.
Qed.
Lemma dset_mid : forall V sid (x : list (str * V)) v v' y, ~ In sid (map fst x) ->
  dset str_eqb sid v' (x ++ (sid, v) :: y) = x ++ (sid, v') :: y.
Proof.
  intros V sid x v v' y N0. assert (T0 : str_eqb sid sid = true) by (apply str_eqb_iff; reflexivity).
  induction x as [|[k w] x IH]; cbn [app dset]; [rewrite T0; reflexivity|].
  destruct (str_eqb sid k) eqn:E; [apply str_eqb_iff in E; subst; exfalso; apply N0; left; reflexivity|].
  rewrite IH; [reflexivity|]. intros Q. apply N0. right. exact Q.
Qed.
Lemma dset_new : forall V sid (d : list (str * V)) v, dget str_eqb sid d = None -> dset str_eqb sid v d = d ++ [(sid, v)].
Proof.
  intros V sid d v. induction d as [|[k w] d IH]; cbn [dget dset app]; [reflexivity|].
  destruct (str_eqb sid k); [discriminate|]. intros X. rewrite IH by exact X. reflexivity.
Qed.
Lemma dget_mid : forall V sid (x : list (str * V)) v y, ~ In sid (map fst x) -> dget str_eqb sid (x ++ (sid, v) :: y) = Some v.
Proof.
  intros V sid x v y N0. assert (T0 : str_eqb sid sid = true) by (apply str_eqb_iff; reflexivity).
  induction x as [|[k w] x IH]; cbn [app dget]; [rewrite T0; reflexivity|].
  destruct (str_eqb sid k) eqn:E; [apply str_eqb_iff in E; subst; exfalso; apply N0; left; reflexivity|].
  apply IH. intros Q. apply N0. right. exact Q.
Qed.

(** replacing the tree of one maker *)
Lemma inv_step : forall H H' (x y : ghost) sid m s s',
  inv H (x ++ (sid, (m, s)) :: y) -> holds H' None 0 s' -> step H H' s s' -> NoDup (addrs s') ->
  inv H' (x ++ (sid, (m, s')) :: y) /\ ggrows (x ++ (sid, (m, s)) :: y) (x ++ (sid, (m, s')) :: y).
Proof.
  intros H H' x y sid m s s' [Ih In0 Ia] Hs' ST ND'. pose proof (st_len _ _ _ _ ST) as LN.
  assert (FL : forall z, g_addrs (x ++ (sid, (m, z)) :: y) = g_addrs x ++ addrs z ++ g_addrs y)
    by (intros z; unfold g_addrs; rewrite flat_map_app; reflexivity).
  rewrite FL in In0. pose proof In0 as In1. apply nd_app in In1. destruct In1 as (Nx & In1 & D1). apply nd_app in In1. destruct In1 as (Ns & Ny & D2).
  assert (LT : forall b, In b (g_addrs x ++ addrs s ++ g_addrs y) -> b < length H) by (intros b Hb; apply Ia; rewrite FL; exact Hb).
  split.
  - constructor.
    + apply Forall_app in Ih. destruct Ih as [Fx F]. apply Forall_cons_iff in F. destruct F as [_ Fy].
      assert (FR : forall l : ghost, Forall (fun z => holds H None 0 (snd (snd z))) l ->
                (forall b, In b (g_addrs l) -> ~ In b (addrs s) /\ b < length H) ->
                Forall (fun z => holds H' None 0 (snd (snd z))) l).
      { intros l Fl Q. rewrite Forall_forall in *. intros z Hz. eapply holds_frame; [apply Fl; exact Hz|]. intros b Hb.
        destruct (Q b) as [Q1 Q2]; [apply in_flat_map; eauto|]. apply (st_frame _ _ _ _ ST); auto. }
      apply Forall_app. split; [|constructor; [exact Hs'|]].
      * apply FR; [exact Fx|]. intros b Hb. split; [|apply LT; rewrite !in_app_iff; auto]. intros Q. apply (D1 b Hb). apply in_app_iff. auto.
      * apply FR; [exact Fy|]. intros b Hb. split; [|apply LT; rewrite !in_app_iff; auto]. intros Q. apply (D2 b Q). exact Hb.
    + rewrite FL. apply nd_app. split; [exact Nx|]. split; [apply nd_app; split; [exact ND'|]; split; [exact Ny|]|].
      * intros b Hb Hy. apply (st_in _ _ _ _ ST) in Hb. destruct Hb as [Hb|Hb]; [apply (D2 b Hb Hy)|].
        assert (b < length H) by (apply LT; rewrite !in_app_iff; auto). lia.
      * intros b Hx Hb. apply in_app_iff in Hb. destruct Hb as [Hb|Hb]; [|apply (D1 b Hx); apply in_app_iff; auto].
        apply (st_in _ _ _ _ ST) in Hb. destruct Hb as [Hb|Hb]; [apply (D1 b Hx); apply in_app_iff; auto|].
        assert (b < length H) by (apply LT; rewrite !in_app_iff; auto). lia.
    + intros b. rewrite FL, !in_app_iff, (st_in _ _ _ _ ST). specialize (Ia b). rewrite FL, !in_app_iff in Ia.
      split; [intros Q; assert (Q' : (b < length H) \/ (length H <= b < length H')) by tauto; lia|].
      intros Q. destruct (Nat.lt_ge_cases b (length H)) as [Z|Z]; [apply Ia in Z; tauto|]. right. left. right. lia.
  - intros sid0 m0 s0 I. apply in_app_iff in I. destruct I as [I|[I|I]].
    + exists s0. split; [apply in_app_iff; auto|apply grows_refl].
    + injection I as <- <- <-. exists s'. split; [apply in_app_iff; right; left; reflexivity|apply (st_grows _ _ _ _ ST)].
    + exists s0. split; [apply in_app_iff; right; right; exact I|apply grows_refl].
Qed.
(** a new maker *)
Lemma inv_new : forall H g sid m, inv H g ->
  let s := AT (length H) empty_parsed_piece None 0 None [] in
  inv (H ++ [new_node None empty_parsed_piece None]) (g ++ [(sid, (m, s))])
  /\ ggrows g (g ++ [(sid, (m, s))]) /\ holds (H ++ [new_node None empty_parsed_piece None]) None 0 s.
Proof.
  intros H g sid m [Ih In0 Ia] s.
  assert (FL : g_addrs (g ++ [(sid, (m, s))]) = g_addrs g ++ [length H]) by (unfold g_addrs; rewrite flat_map_app; reflexivity).
  assert (HS0 : holds (H ++ [new_node None empty_parsed_piece None]) None 0 s).
  { apply holds_iff. split; [|constructor]. exists (new_node None empty_parsed_piece None). split; [apply app_new|]. cbn. auto 10. }
  split; [|split; [|exact HS0]].
  - constructor.
    + apply Forall_app. split; [|constructor; [exact HS0|constructor]].
      rewrite Forall_forall in *. intros z Hz. eapply holds_frame; [apply Ih; exact Hz|]. intros b Hb. apply app_old.
      apply Ia. apply in_flat_map. eauto.
    + rewrite FL. apply nd_app. split; [exact In0|]. split; [repeat constructor; intros []|]. intros b Hb [<-|[]]. apply Ia in Hb. lia.
    + intros b. rewrite FL, in_app_iff, app_length. cbn [In length]. rewrite Ia. lia.
  - intros sid0 m0 s0 I. exists s0. split; [apply in_app_iff; auto|apply grows_refl].
Qed.

Lemma load_gen : forall nv H g url me, inv H g ->
  exists H' g' r, hload nv (HS H (map hm g)) url me = (HS H' (map hm g'), r)
    /\ fst (load nv (map fm g) url me) = map fm g' /\ inv H' g' /\ ggrows g g'
    /\ match r with
       | Err e => snd (load nv (map fm g) url me) = Err e
       | Ok (b, new) => snd (load nv (map fm g) url me) = Ok new /\
           exists m pps m0 s, parse nv url = Ok (m, PUrl pps) /\ In (parsed_digest m (PUrl pps), (m0, s)) g'
             /\ aat s (map piece pps) = Some b
       end.
Proof.
  intros nv H g url me IV. unfold hload, load.
  assert (ID : forall (e : exn), exists H' g' (r : res (addr * bool)), (HS H (map hm g), Err e) = (HS H' (map hm g'), r)
    /\ map fm g = map fm g' /\ inv H' g' /\ ggrows g g' /\ match r with Err e' => @Err bool e = Err e' | Ok _ => False end).
  { intros e. exists H, g, (Err e). repeat (split; [auto using ggrows_refl|]). reflexivity. }
  destruct (parse nv url) as [[m [[|p pps]|[|q l]]]|e] eqn:EP; cbn [fst snd].
  - destruct (ID EIndex) as (H' & g' & r & A & B & C & D & E). exists H', g', r. repeat (split; [assumption|]). destruct r as [[b n]|e0]; [destruct E|exact E].
  - clear ID. set (P := p :: pps). set (sid := parsed_digest m (PUrl P)). cbn [hs_makers hs_heap].
    rewrite (dget_map _ _ hm (fun v => HMK (fst v) (a_addr (snd v))) sid g) by reflexivity.
    rewrite (dget_map _ _ fm (fun v => MK (fst v) (erase (snd v))) sid g) by reflexivity.
    unfold maker_load. assert (NP : P <> []) by discriminate.
    destruct (dget str_eqb sid g) as [[m0 s]|] eqn:EG; cbn [option_map fst snd mk_root mk_meta].
    + destruct (dget_split _ _ _ _ EG) as (x & y & -> & NX).
      pose proof (iv_holds _ _ IV) as F. apply Forall_app in F. destruct F as [_ F]. apply Forall_cons_iff in F. destruct F as [Hs _].
      pose proof (iv_nd _ _ IV) as N0. unfold g_addrs in N0. rewrite flat_map_app in N0. cbn [flat_map snd] in N0.
      apply nd_app in N0. destruct N0 as (_ & N0 & _). apply nd_app in N0. destruct N0 as (N0 & _).
      cbn [fst snd] in Hs. destruct (build_from_ok s H P 1 me true Hs N0 NP) as (t & new & EB & H' & s' & b & EH & Hs' & ST & ND' & ER & EA).
      cbn [hk_root]. rewrite EB, EH. destruct (inv_step _ _ _ _ _ _ _ _ IV Hs' ST ND') as [IV' GG].
      exists H', (x ++ (sid, (m0, s')) :: y), (Ok (b, new)). cbn [fst snd]. split; [|split; [|split; [exact IV'|split; [exact GG|]]]].
      * f_equal. f_equal. rewrite !map_app. cbn [map]. f_equal. f_equal. unfold hm. cbn. rewrite (st_addr _ _ _ _ ST). reflexivity.
      * rewrite !map_app. cbn [map]. unfold fm at 2. cbn [fst snd]. rewrite dset_mid; [|rewrite map_map; exact NX].
        f_equal. unfold fm at 2. cbn [fst snd]. rewrite ER. reflexivity.
      * split; [reflexivity|]. exists m, P, m0, s'. split; [reflexivity|]. split; [apply in_app_iff; right; left; reflexivity|exact EA].
    + destruct (inv_new H g sid m IV) as (IV1 & GG1 & Hs). set (s := AT (length H) empty_parsed_piece None 0 None []) in *.
      set (H1 := H ++ [new_node None empty_parsed_piece None]) in *.
      assert (N0 : NoDup (addrs s)) by (cbn; repeat constructor; intros []).
      destruct (build_from_ok s H1 P 1 me true Hs N0 NP) as (t & new & EB & H' & s' & b & EH & Hs' & ST & ND' & ER & EA).
      change (erase s) with new_root in EB. change (a_addr s) with (length H) in EH. cbn [hk_root]. rewrite EB, EH.
      destruct (inv_step _ _ _ _ _ _ _ _ IV1 Hs' ST ND') as [IV' GG].
      exists H', (g ++ [(sid, (m, s'))]), (Ok (b, new)). cbn [fst snd].
      split; [|split; [|split; [exact IV'|split; [eapply ggrows_trans; eassumption|]]]].
      * f_equal. f_equal. rewrite map_app. cbn [map]. f_equal. unfold hm. cbn. rewrite (st_addr _ _ _ _ ST). reflexivity.
      * rewrite map_app. cbn [map]. unfold fm at 3. cbn [fst snd]. rewrite ER. apply dset_new.
        rewrite (dget_map _ _ fm (fun v => MK (fst v) (erase (snd v))) sid g) by reflexivity. rewrite EG. reflexivity.
      * split; [reflexivity|]. exists m, P, m, s'. split; [reflexivity|]. split; [apply in_app_iff; right; left; reflexivity|exact EA].
  - destruct (ID EIndex) as (H' & g' & r & A & B & C & D & E). exists H', g', r. repeat (split; [assumption|]). destruct r as [[b n]|e0]; [destruct E|exact E].
  - destruct (ID EValue) as (H' & g' & r & A & B & C & D & E). exists H', g', r. repeat (split; [assumption|]). destruct r as [[b n]|e0]; [destruct E|exact E].
  - destruct (ID e) as (H' & g' & r & A & B & C & D & E). exists H', g', r. repeat (split; [assumption|]). destruct r as [[b n]|e0]; [destruct E|exact E].
Qed.

(** ** Reading *)
Lemma at_sub : forall ks s H par dep b, holds H par dep s -> aat s ks = Some b ->
  exists sub par', holds H par' (dep + length ks) sub /\ a_addr sub = b /\ node_at (erase s) ks = Some (erase sub).
Proof.
  intros ks. induction ks as [|k r IH]; intros [a v p c m l] H par dep b Hs EA.
  - cbn in EA. injection EA as <-. exists (AT a v p c m l), par. rewrite Nat.add_0_r. auto.
  - rewrite aat_cons in EA. cbn [a_kids] in EA. destruct (akid k l) as [z|] eqn:EK; [|discriminate].
    destruct (akid_some _ _ _ EK) as (x & y & -> & KP & KN).
    apply holds_iff in Hs. destruct Hs as [_ K]. apply Forall_app in K. destruct K as [_ K]. apply Forall_cons_iff in K. destruct K as [Kz _].
    destruct (IH z H (Some a) (S dep) b Kz EA) as (sub & par' & A & B & C). exists sub, par'.
    split; [replace (dep + length (k :: r)) with (S dep + length r) by (cbn; lia); exact A|]. split; [exact B|].
    rewrite node_at_cons. cbn [erase t_kids]. rewrite map_app. cbn [map].
    rewrite kid_app_skip by (rewrite map_map, (map_ext _ _ erase_piece); exact KN).
    rewrite kid_cons_eq by (rewrite erase_piece; exact KP). exact C.
Qed.
Lemma at_chain : forall ks s H par dep b ps r, holds H par dep s -> chain H (a_addr s) ps r -> aat s ks = Some b ->
  chain H b (ps ++ ks) r.
Proof.
  intros ks. induction ks as [|k l IH]; intros [a v p c m kk] H par dep b ps r Hs CH EA.
  - cbn in EA. injection EA as <-. rewrite app_nil_r. exact CH.
  - rewrite aat_cons in EA. cbn [a_kids] in EA. destruct (akid k kk) as [z|] eqn:EK; [|discriminate].
    destruct (akid_some _ _ _ EK) as (x & y & -> & KP & KN).
    apply holds_iff in Hs. destruct Hs as [_ K]. apply Forall_app in K. destruct K as [_ K]. apply Forall_cons_iff in K. destruct K as [Kz _].
    replace (ps ++ k :: l) with ((ps ++ [k]) ++ l) by (rewrite <- app_assoc; reflexivity).
    apply (IH z H (Some a) (S dep) b (ps ++ [k]) r Kz); [|exact EA].
    destruct z as [a1 v1 p1 c1 m1 k1]. cbn [a_addr] in *. apply holds_iff in Kz. destruct Kz as [(n & E & R1 & R2 & _) _].
    rewrite <- KP. cbn [a_piece a_val]. unfold a_piece. cbn [a_val]. rewrite <- R2. eapply chain_up; eassumption.
Qed.
Lemma root_chain : forall s H ks b, holds H None 0 s -> aat s ks = Some b -> chain H b ks (a_addr s).
Proof.
  intros s H ks b Hs EA. change ks with ([] ++ ks). eapply at_chain; [exact Hs| |exact EA].
  destruct s as [a v p c m l]. apply holds_iff in Hs. destruct Hs as [(n & E & R1 & _) _]. eapply chain_root; eassumption.
Qed.
Lemma chain_det : forall H a ps r, chain H a ps r -> forall ps' r', chain H a ps' r' -> ps = ps' /\ r = r'.
Proof.
  intros H a ps r C. induction C as [r n E P|a n b ps r E P C IH]; intros ps' r' C'; inversion C' as [r0 n' E' P' EQ1 EQ2 EQ3|a0 n' b' ps0 r0 E' P' C0 EQ1 EQ2 EQ3]; subst.
  - auto.
  - rewrite E in E'. injection E' as <-. congruence.
  - rewrite E in E'. injection E' as <-. congruence.
  - rewrite E in E'. injection E' as <-. rewrite P in P'. injection P' as <-. destruct (IH _ _ C0) as [-> ->]. auto.
Qed.
Lemma holds_reads : forall s H par dep, holds H par dep s -> reads H (a_addr s) (erase s).
Proof.
  induction s as [a v p c m ks IH] using atree_ind'. intros H par dep Hs. apply holds_iff in Hs. destruct Hs as [(n & E & R) K].
  destruct R as (R1 & <- & <- & <- & <- & R6 & R7). cbn [a_addr erase]. apply reads_node; [exact E|]. rewrite R6. unfold dict_of.
  clear R6 E. induction ks as [|k ks IHk]; cbn [map]; [constructor|]. apply Forall_cons_iff in IH, K. destruct IH as [I1 I2], K as [K1 K2].
  constructor; [|apply IHk; assumption]. cbn [fst snd]. rewrite erase_piece. split; [reflexivity|]. eapply I1. exact K1.
Qed.
Lemma reads_det : forall H t a t', reads H a t -> reads H a t' -> t = t'.
Proof.
  intros H t. induction t as [v p c m ks IH] using tree_ind'. intros a t' R R'. inversion R as [a0 n ts E F EQ1 EQ2]; subst.
  inversion R' as [a0 n' ts' E' F' EQ1 EQ2]; subst. rewrite E in E'. injection E' as <-. f_equal. clear R R' E.
  revert ts' F'. induction F as [|e t es ts [A B] F IHF]; intros ts' F'; inversion F' as [|e' t' es' ts1 [A' B'] F1]; subst; [reflexivity|].
  apply Forall_cons_iff in IH. destruct IH as [I1 I2]. f_equal; [eapply I1; eassumption|]. apply IHF; assumption.
Qed.
(** every node is found at some path *)
Lemma addr_at : forall d s b, wft d (erase s) -> In b (addrs s) -> exists ks, aat s ks = Some b.
Proof.
  intros d. induction d as [|d IH]; intros [a v p c m l] b W Hb.
  - cbn in W. destruct W as [_ W]. destruct l; [|discriminate]. destruct Hb as [<-|[]]. exists []. reflexivity.
  - destruct Hb as [<-|Hb]; [exists []; reflexivity|]. apply in_flat_map in Hb. destruct Hb as (k & Hk & Hb).
    cbn [wft erase t_kids] in W. destruct W as (_ & _ & ND & _ & W). rewrite map_map, (map_ext _ _ erase_piece) in ND.
    rewrite Forall_map, Forall_forall in W. destruct (IH k b (W k Hk) Hb) as [ks E]. exists (a_piece k :: ks). rewrite aat_cons. cbn [a_kids].
    apply in_split in Hk. destruct Hk as (x & y & ->). rewrite map_app in ND. cbn [map] in ND.
    rewrite akid_mid; [exact E| |reflexivity]. intros Q. apply NoDup_remove_2 in ND. apply ND. apply in_app_iff. auto.
Qed.
Lemma climb_at : forall ks s H par dep b f, holds H par dep s -> aat s ks = Some b ->
  exists n, nth_error H b = Some n /\ (n_level n = None \/ n_level n = Some (dep + length ks)) /\
    climb (length ks + f) H (n_parent n) = (l <- climb f H par ;; Ok (length ks + l)).
Proof.
  intros ks. induction ks as [|k r IH]; intros [a v p c m kk] H par dep b f Hs EA.
  - cbn in EA. injection EA as <-. apply holds_iff in Hs. destruct Hs as [(n & E & R1 & R2 & R3 & R4 & R5 & R6 & R7) _].
    exists n. rewrite Nat.add_0_r. split; [exact E|]. split; [exact R7|]. rewrite R1. cbn. destruct (climb f H par); reflexivity.
  - rewrite aat_cons in EA. cbn [a_kids] in EA. destruct (akid k kk) as [z|] eqn:EK; [|discriminate].
    destruct (akid_some _ _ _ EK) as (x & y & -> & KP & KN).
    apply holds_iff in Hs. destruct Hs as [(na & Ea & R1 & _) K]. apply Forall_app in K. destruct K as [_ K]. apply Forall_cons_iff in K. destruct K as [Kz _].
    destruct (IH z H (Some a) (S dep) b (S f) Kz EA) as (n & E & LV & CL). exists n. split; [exact E|].
    split; [replace (dep + length (k :: r)) with (S dep + length r) by (cbn; lia); exact LV|].
    replace (length (k :: r) + f) with (length r + S f) by (cbn; lia). rewrite CL. cbn [climb]. rewrite (get_ok _ _ _ Ea). cbn [bind].
    rewrite R1. destruct (climb f H par) as [l|e]; cbn [bind]; [|reflexivity]. f_equal. cbn. lia.
Qed.
Lemma level_at : forall s H ks b, holds H None 0 s -> NoDup (addrs s) -> aat s ks = Some b ->
  exists H', level H b = (H', Ok (length ks)) /\ length H' = length H
    /\ (forall x, x <> b -> nth_error H' x = nth_error H x)
    /\ holds H' None 0 s /\ same H H' s s.
Proof.
  intros s H ks b Hs ND EA.
  assert (PB : length ks < length H).
  { pose proof (path_bound _ _ _ EA). pose proof (nodup_bound _ _ ND (holds_lt _ _ _ _ Hs)). lia. }
  destruct (climb_at ks s H None 0 b (length H - length ks) Hs EA) as (n & E & LV & CL).
  unfold level. rewrite (get_ok _ _ _ E).
  assert (SM : forall x, same x x s s) by (intros x; constructor; auto).
  destruct LV as [LV|LV]; rewrite LV.
  - replace (length ks + (length H - length ks)) with (length H) in CL by lia. rewrite CL.
    assert (CN : climb (length H - length ks) H None = Ok 0) by (destruct (length H - length ks); reflexivity).
    rewrite CN. cbn [bind]. rewrite Nat.add_0_r. exists (put H b (set_level (Some (length ks)))).
    destruct (level_ok_set ks s H None 0 b Hs ND EA) as [A B]. cbn [plus] in A, B.
    split; [reflexivity|]. split; [apply put_length|]. split; [intros x Hx; apply put_other; exact Hx|]. auto.
  - exists H. auto.
Qed.
