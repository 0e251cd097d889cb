(** The generator of make() gives, digest by digest, the clusters at the time it gets there. *)
From Coq Require Import String.
From Verif Require Import PyStr Defs UrlLib ParseUtils Spec Views Trees Cluster Patterns Matcher Maker AnyOrder Lazy Observe MatchSpec OwnSpec AnySpec LocalSpec LazySpec PyStrProofs DefsProofs DictProofs PieceProofs LengthProofs UrlProofs DigestProofs GroupProofs TreeProofs LoadProofs TokProofs LengthStage PieceStage EntProofs GenCluster FlatCluster TokUniq OuterCluster MakeProofs AnyBase AnyLevel AnyGen AnyFlat AnyMulti AnyOuter AnyMake Local Stable PartProofs EteProofs.
From Coq Require Import Lia Permutation.

(** *** mapR *)
Lemma mapR_safe : forall A B (g : A -> rel B) l, (forall x, exists r, g x r) -> (forall r, mapR g l r -> exists ys, r = Ok ys) ->
  Forall (fun x => forall r, g x r -> exists y, r = Ok y) l.
Proof.
  intros A B g l EX. induction l as [|x l IH]; intros H; [constructor|].
  assert (HX : forall r, g x r -> exists y, r = Ok y).
  { intros [y|e] G; [eauto|]. destruct (H (Err e)) as (ys & E); [exists (Err e); auto|discriminate]. }
  constructor; [exact HX|]. apply IH. intros r R. destruct (EX x) as (rx & GX). destruct (HX rx GX) as (y & ->).
  destruct r as [ys|e]; [eauto|]. destruct (H (Err e)) as (zs & E); [|discriminate]. exists (Ok y). split; [exact GX|]. exists (Err e). auto.
Qed.
Lemma mapR_F2 : forall A B (g : A -> rel B) l ys, Forall2 (fun x y => g x (Ok y)) l ys -> mapR g l (Ok ys).
Proof. intros A B g l ys F. induction F as [|x y l ys H F IH]; [reflexivity|]. exists (Ok y). split; [exact H|]. exists (Ok ys). split; [exact IH|reflexivity]. Qed.

(** *** one tree *)
Section One.
  Context (mcn : Z).
  Notation inn := (fun (d : nat) (kw : bool) (t : tree) => cluster_n_any 1 mcn d d kw t).
  Definition lp (m : url_meta) (f : nat) (t : tree) : rel (list tree) := cluster_loop_any mcn inn f (depth m) (path_depth m) false t.
  Definition safe (m : url_meta) (f : nat) (t : tree) : Prop := forall r, lp m f t r -> exists q, r = Ok q.
  Lemma lp_some : forall m f t, exists r, lp m f t r.
  Proof. intros. eexists. apply loop_is_any. intros. apply cluster_n_is_any. Qed.
  Lemma safe_fuel : forall m t, ~ safe m 0 t.
  Proof. intros m t H. destruct (H (Err EFuel) eq_refl). discriminate. Qed.
  Lemma safe_none : forall m f t, safe m f t -> (t_cnt t <= 0)%Z -> lp m f t (Ok []).
  Proof. intros m [|f] t S C; [destruct (safe_fuel _ _ S)|]. unfold lp. cbn [cluster_loop_any]. apply Z.leb_le in C. rewrite C. reflexivity. Qed.
  Lemma lp_process : forall m f t p, (0 < t_cnt t)%Z -> process_lazy mcn m t p -> forall r,
    match p with
    | Ok (t', false) => r = Ok [t']
    | Ok (t', true) => match split_by_pattern t' with Ok subs => exists rr, mapR (lp m f) subs rr /\ match rr with Ok rs => r = Ok (List.concat rs) | Err e => r = Err e end | Err e => r = Err e end
    | Err e => r = Err e
    end -> lp m (S f) t r.
  Proof.
    intros m f t p C P r H. unfold lp. cbn [cluster_loop_any]. apply Z.leb_gt in C. rewrite C. exists p. split; [exact P|].
    destruct p as [[t' [|]]|e]; cbn [negb]; [|exact H|exact H]. exists (split_by_pattern t'). split; [reflexivity|]. destruct (split_by_pattern t') as [subs|e]; [|exact H].
    destruct H as (rr & H1 & H2). exists rr. split; [exact H1|]. destruct rr; exact H2.
  Qed.
  Lemma safe_process : forall m f t p, safe m f t -> (0 < t_cnt t)%Z -> process_lazy mcn m t p -> exists f', f = S f' /\
    match p with
    | Ok (t', false) => lp m f t (Ok [t'])
    | Ok (t', true) => exists subs, split_by_pattern t' = Ok subs /\ Forall (safe m f') subs /\
        forall qs, Forall2 (fun s q => lp m f' s (Ok q)) subs qs -> lp m f t (Ok (List.concat qs))
    | Err e => False
    end.
  Proof.
    intros m [|f] t p S C P; [destruct (safe_fuel _ _ S)|]. exists f. split; [reflexivity|]. pose proof (lp_process m f t p C P) as L. destruct p as [[t' [|]]|e].
    - destruct (split_by_pattern t') as [subs|e] eqn:E; [|destruct (S _ (L _ eq_refl)); discriminate]. exists subs. split; [reflexivity|]. split.
      + apply mapR_safe; [apply lp_some|]. intros r R. destruct r as [ys|e]; [eauto|]. destruct (S (Err e)) as (q & Q); [apply L; exists (Err e); auto|discriminate].
      + intros qs F. apply L. exists (Ok qs). split; [apply mapR_F2; exact F|reflexivity].
    - exact (L _ eq_refl).
    - destruct (S _ (L _ eq_refl)). discriminate.
  Qed.
  Lemma process_bare : forall m t t' b, process_lazy mcn m t (Ok (t', b)) -> bare t' = bare t.
  Proof. intros m t t' b (p & P1 & P2). destruct p as [p|e]; [|discriminate]. unfold just in P2. inversion P2. apply erase_annotate. Qed.
End One.

(** *** split or not *)
Section Flag.
  Context (mcn : Z) (M2 : (2 <= mcn)%Z) (Cs : list (list str)) (CN : Cs <> []) (pd : nat) (kw : bool).
  Notation D := (length Cs).
  Notation inner := (fun (d : nat) (kw : bool) (t : tree) => cluster_n 1 mcn d d kw t).
  Notation inner' := (fun (d : nat) (kw : bool) (t : tree) => cluster_n_any 1 mcn d d kw t).
  Lemma flag : forall t t' ts, ofull Cs t -> process_any mcn inner' D pd kw t (Ok (t', true)) -> cluster_n 2 mcn D pd kw t = Ok ts -> (2 <= length ts)%nat.
  Proof.
    intros t t' ts F P E. destruct (outer_cluster mcn M2 Cs CN pd kw t (proj1 F) (proj1 (proj2 F)) (proj2 (proj2 F))) as (tps & E' & PE & _). rewrite E in E'. inversion E'; subst ts; clear E'.
    destruct (map fst tps) as [|x [|y l]] eqn:EM; [| |cbn [length]; lia].
    - cbn [flat_map] in PE. apply Permutation_nil in PE. pose proof (ents_nonnil t) as N. congruence.
    - exfalso. cbn [flat_map] in PE. rewrite app_nil_r in PE. change (cluster_loop mcn inner (S (length (paths t))) D pd kw t = Ok [x]) in E. destruct (loop_fix mcn Cs CN pd kw _ t [x] F E x (or_introl eq_refl)) as (t0 & F0 & _ & P0 & G0 & V0).
      assert (TS : tSame t0 t). { split; [rewrite (proj1 (proj2 F0)), (proj1 (proj2 F)); reflexivity|]. intros e. rewrite <- G0. split; intros I; [exact (Permutation_in _ PE I)|exact (Permutation_in _ (Permutation_sym PE) I)]. }
      unfold process in P0. destruct (proc mcn inner D 0 pd kw [PN None [] t0]) as [p|] eqn:EP; [|discriminate]. cbn [bind] in P0. inversion P0; subst x. destruct P as (r & R1 & R2).
      destruct (proc_inv mcn inner inner' (oV Cs) (oVfun Cs) D pd kw (D1 Cs CN) good (outer_LL mcn M2 Cs pd kw) (outer_LA mcn M2 Cs pd kw) D 0 (ns0 t0) (ns0 t) p r eq_refl
        (ns0_ok (oV Cs) D t0 (proj1 F0)) (ns0_ok (oV Cs) D t (proj1 F))) as (p' & -> & PS); [|exact EP|exact R1|].
      { exists (ns0 t0). split; [apply Permutation_refl|]. constructor; [exact TS|constructor]. }
      unfold just in R2. inversion R2. apply psim_split in PS. congruence.
  Qed.
End Flag.

(** *** the maker of a digest *)
Lemma dget_nth : forall (st : list (str * maker)) k sid mk, NoDup (map fst st) -> nth_error st k = Some (sid, mk) -> dget str_eqb sid st = Some mk.
Proof. intros st k sid mk ND E. apply nth_error_In in E. apply (dget_in str_eqb str_eqb_iff); assumption. Qed.
Section Use.
  Context (nv : str -> bool) (mcn : Z) (M : (2 <= mcn)%Z).
  Lemma bare_own : forall h st sid mk, bare_state st = loads nv h -> dget str_eqb sid st = Some mk -> bare_state [(sid, mk)] = loads nv (own_loads nv sid h).
  Proof. intros h st sid mk B G. rewrite own_state, <- B, dget_erase, G. reflexivity. Qed.
  Lemma take_ok : forall h st sid mk, bare_state st = loads nv h -> dget str_eqb sid st = Some mk -> exists due, make mcn (loads nv (own_loads nv sid h)) = Ok due /\
    (forall r, cluster_any mcn (mk_meta mk) false (mk_root mk) r -> exists ts, r = Ok ts /\ PL same_cluster due (map (fun t => (mk_meta mk, t)) ts)) /\
    (forall t', process_lazy mcn (mk_meta mk) (mk_root mk) (Ok (t', true)) -> (2 <= length due)%nat).
  Proof.
    intros h st sid mk B G. pose proof (bare_own h st sid mk B G) as BO. destruct (c19 nv (own_loads nv sid h) mcn M) as (due & E). exists due. split; [exact E|].
    assert (SL : forall h, same_loads h h) by (intros x l; reflexivity).
    assert (MA : forall r, cluster_any mcn (mk_meta mk) false (mk_root mk) r -> exists ts, r = Ok ts /\ PL same_cluster due (map (fun t => (mk_meta mk, t)) ts)).
    { intros r R. destruct (make_any_bare nv mcn (own_loads nv sid h) _ [(sid, mk)] (match r with Ok ts => Ok (map (fun t => (mk_meta mk, t)) ts) | Err e => Err e end) M (SL _) BO) as (cs & cs' & E1 & E2 & P).
      - exists (match r with Ok ts => Ok [map (fun t => (mk_meta mk, t)) ts] | Err e => Err e end). split.
        + exists (match r with Ok ts => Ok (map (fun t => (mk_meta mk, t)) ts) | Err e => Err e end). split; [exists r; split; [exact R|destruct r; reflexivity]|]. destruct r; [|reflexivity]. exists (Ok []). split; reflexivity.
        + destruct r; [|reflexivity]. cbn [List.concat]. rewrite app_nil_r. reflexivity.
      - rewrite E in E1. inversion E1; subst cs. destruct r as [ts|]; [|discriminate]. inversion E2; subst cs'. exists ts. auto. }
    split; [exact MA|]. intros t' P.
    destruct (same_states nv _ _ _ [(sid, mk)] (SL _) BO BO) as (l & _ & F2). inversion F2 as [|a b la lb [_ (EM & Cs & CN & CL & _ & F & _)] _]; subst. cbn [snd] in *. rewrite EM in CL.
    destruct (MA _ (cluster_n_is_any 2 mcn (depth (mk_meta mk)) (path_depth (mk_meta mk)) false (mk_root mk))) as (ts & ET & P2). apply PL_length in P2. rewrite map_length in P2. rewrite P2.
    unfold process_lazy in P. rewrite <- CL in P, ET. exact (flag mcn M Cs CN _ _ _ _ ts F P ET).
  Qed.
  Lemma keys_ok : forall h st, bare_state st = loads nv h -> map fst st = digests nv h /\ NoDup (map fst st).
  Proof. intros h st B. rewrite <- keys_bare, B. split; [apply digests_keys|apply c18_keys]. Qed.

  (** *** what is left to do *)
  Definition item_t := (nat * (url_meta * ref))%type.
  Definition isafe (st : state) (x : item_t) : Prop := safe mcn (fst (snd x)) (fst x) (tree_of st (snd (snd x))).
  Fixpoint dens (st : state) (l : list item_t) (q : list (url_meta * tree)) : Prop :=
    match l with
    | [] => q = []
    | x :: l => exists ts q', lp mcn (fst (snd x)) (fst x) (tree_of st (snd (snd x))) (Ok ts) /\ dens st l q' /\ q = map (fun t => (fst (snd x), t)) ts ++ q'
    end.
  Definition own (x : url_meta * ref) : Prop := match snd x with ROwn _ => True | RMaker _ => False end.
  Lemma dens_some : forall st l, Forall (isafe st) l -> exists q, dens st l q.
  Proof.
    intros st l F. induction F as [|x l H F [q IH]]; [exists []; reflexivity|]. destruct (lp_some mcn (fst (snd x)) (fst x) (tree_of st (snd (snd x)))) as (r & R). destruct (H r R) as (ts & ->).
    eexists. exists ts, q. split; [exact R|]. split; [exact IH|reflexivity].
  Qed.
  Lemma own_tree : forall st st' x, own x -> tree_of st (snd x) = tree_of st' (snd x).
  Proof. intros st st' [m [s|t]] O; [destruct O|reflexivity]. Qed.
  Lemma isafe_st : forall st st' l, Forall (fun x => own (snd x)) l -> Forall (isafe st) l -> Forall (isafe st') l.
  Proof. intros st st' l O F. rewrite Forall_forall in *. intros x I. unfold isafe. rewrite (own_tree st' st (snd x) (O x I)). apply F. exact I. Qed.
  Lemma dens_st : forall st st' l q, Forall (fun x => own (snd x)) l -> dens st l q -> dens st' l q.
  Proof.
    intros st st'. induction l as [|x l IH]; intros q O D; [exact D|]. inversion O as [|a b O1 O2]; subst. destruct D as (ts & q' & A & B & C). exists ts, q'. rewrite (own_tree st' st _ O1). auto.
  Qed.
  Lemma dens_subs : forall st f m subs l q, dens st (map (fun s => (f, (m, ROwn s))) subs ++ l) q ->
    exists qs q', Forall2 (fun s q => lp mcn m f s (Ok q)) subs qs /\ dens st l q' /\ q = map (fun t => (m, t)) (List.concat qs) ++ q'.
  Proof.
    intros st f m subs l. induction subs as [|s subs IH]; intros q D; [exists [], q; auto|]. cbn [map app dens fst snd tree_of] in D. destruct D as (ts & q' & A & B & ->).
    destruct (IH q' B) as (qs & q2 & C & E & ->). exists (ts :: qs), q2. split; [constructor; assumption|]. split; [exact E|]. cbn [List.concat]. rewrite map_app, <- app_assoc. reflexivity.
  Qed.

  (** *** a generator and its specification *)
  Definition shape (st : state) (sid : str) (due ys : list (url_meta * tree)) (todo : list (url_meta * ref)) : Prop :=
    (Forall own todo /\ (todo <> [] -> (2 <= length due)%nat)) \/
    (exists m, todo = [(m, RMaker sid)] /\ ys = [] /\ forall t', process_lazy mcn m (tree_of st (RMaker sid)) (Ok (t', true)) -> (2 <= length due)%nat).
  Definition inv (st : state) (g : gen) (sg : sgen) : Prop :=
    match sg with
    | SNew => g = GNew
    | SEnd => g = GEnd
    | SOn size k sid due ys => exists l, g = GOn size k (map snd l) /\ (k <= size)%nat /\ Forall (isafe st) l /\
        (forall q, dens st l q -> PL same_cluster due (ys ++ q)) /\ shape st sid due ys (map snd l)
    end.
  (** between two calls of next() *)
  Definition idle (g : gen) : Prop := match g with GOn _ _ todo => Forall own todo | _ => True end.
  Lemma inv_idle : forall st st' g sg, idle g -> inv st g sg -> inv st' g sg.
  Proof.
    intros st st' g [|size k sid due ys|] I H; [exact H| |exact H]. destruct H as (l & -> & K & S & Q & SH). exists l. cbn [idle] in I.
    assert (I' : Forall (fun x => own (snd x)) l) by (rewrite Forall_map in I; exact I).
    split; [reflexivity|]. split; [exact K|]. split; [apply (isafe_st st); assumption|]. split; [intros q D; apply Q; apply (dens_st st'); assumption|].
    left. split; [exact I|]. destruct SH as [[_ X]|(m & E & _)]; [exact X|]. rewrite E in I. inversion I as [|a b X]. destruct X.
  Qed.
  Lemma write_bare : forall st r t, bare t = bare (tree_of st r) -> bare_state (write st r t) = bare_state st.
  Proof.
    intros st [sid|x] t E; [|reflexivity]. cbn [write tree_of] in *. destruct (dget str_eqb sid st) as [mk|] eqn:G; [|reflexivity]. rewrite <- dset_erase. unfold bare_maker. cbn [mk_meta mk_root]. rewrite E.
    change (MK (mk_meta mk) (bare (mk_root mk))) with (bare_maker mk). rewrite dset_erase. f_equal. clear E. revert G. induction st as [|[k x] st IH]; [discriminate|]. cbn [dget dset]. destruct (str_eqb sid k) eqn:EK; [|intros G; f_equal; exact (IH G)].
    apply str_eqb_eq in EK. intros G. inversion G. reflexivity.
  Qed.
  Lemma gstep_bare : forall st g st' g' o, gstep mcn st g st' g' o -> bare_state st' = bare_state st.
  Proof. intros st g st' g' o G. inversion G; subst; try reflexivity; apply write_bare; eapply process_bare; eassumption. Qed.

  Notation sn := (spec_next nv mcn).
  Lemma nil_map : forall A B (f : A -> B) l, map f l = [] -> l = []. Proof. intros A B f [|x l] E; [reflexivity|discriminate]. Qed.
  Lemma step_none : forall h st g st' g' sg, bare_state st = loads nv h -> gstep mcn st g st' g' None -> inv st g sg ->
    exists sg1, inv st' g' sg1 /\ forall sg' o, sn h sg1 sg' o -> sn h sg sg' o.
  Proof.
    intros h st g st' g' sg B G I. destruct (keys_ok h st B) as [KD ND]. assert (LD : length (digests nv h) = length st) by (rewrite <- KD; apply map_length).
    inversion G; subst; clear G.
    - (* start *) destruct sg as [|size k sid due ys|]; [|destruct I as (l & E & _); discriminate|discriminate]. exists (SOn (length st') 0 [] [] []). split.
      + exists []. split; [reflexivity|]. split; [lia|]. split; [constructor|]. split; [intros q D; cbn in D; subst q; apply PL_refl; intros x []|]. left. split; [constructor|intros X; destruct (X eq_refl)].
      + intros sg' o S. rewrite <- LD in S. apply sn_start. exact S.
    - (* take *) destruct sg as [|size k0 sid0 due ys|]; [discriminate| |discriminate]. destruct I as (l & E & K & SA & Q & SH). inversion E; subst size k0. symmetry in H3. apply nil_map in H3. subst l.
      match goal with X : nth_error st' k = Some (sid, mk) |- _ => rename X into NE end.
      pose proof (dget_nth st' k sid mk ND NE) as DG. destruct (take_ok h st' sid mk B DG) as (due' & EM & MA & FL).
      assert (KK : (k < length st')%nat) by (apply nth_error_Some; congruence).
      exists (SOn (length st') (S k) sid due' []). split.
      + exists [(S (length (paths (mk_root mk))), (mk_meta mk, RMaker sid))]. split; [reflexivity|]. split; [lia|].
        assert (TR : tree_of st' (RMaker sid) = mk_root mk) by (cbn [tree_of]; rewrite DG; reflexivity).
        split; [|split].
        * constructor; [|constructor]. unfold isafe. cbn [fst snd]. rewrite TR. intros r R. destruct (MA r R) as (ts & -> & _). eauto.
        * intros q (ts & q' & A & D & ->). cbn [fst snd] in *. cbn in D. subst q'. rewrite TR in A. destruct (MA _ A) as (ts' & E' & P). inversion E'; subst ts'. rewrite app_nil_r. exact P.
        * right. exists (mk_meta mk). split; [reflexivity|]. split; [reflexivity|]. intros t'. rewrite TR. apply FL.
      + intros sg' o S'. apply (sn_take nv mcn h _ _ _ _ _ sid due'); [|exact LD| |exact EM|exact S'].
        * specialize (Q [] eq_refl). rewrite app_nil_r in Q. exact Q.
        * rewrite <- KD. rewrite nth_error_map, NE. reflexivity.
    - (* skip *) destruct sg as [|size0 k0 sid0 due ys|]; [discriminate| |discriminate]. destruct I as (l & E & K & SA & Q & SH). inversion E; subst size0 k0. destruct l as [|[f [m' r']] l]; [discriminate|]. inversion H3; subst m' r' todo. clear H3.
      inversion SA as [|a b S1 S2]; subst. exists (SOn size k sid0 due ys). split; [|auto]. exists l. split; [reflexivity|]. split; [exact K|]. split; [exact S2|]. split.
      + intros q D. apply Q. exists [], q. split; [apply safe_none; [exact S1|assumption]|]. split; [exact D|reflexivity].
      + destruct SH as [[O D]|(m0 & E0 & YE & _)].
        * cbn [map] in O. inversion O; subst. left. split; [assumption|]. intros _. apply D. discriminate.
        * cbn [map snd] in E0. inversion E0 as [[X1 X2 X3]]. left. rewrite X3. split; [constructor|]. intros X. destruct (X eq_refl).
    - (* split *) destruct sg as [|size0 k0 sid0 due ys|]; [discriminate| |discriminate]. destruct I as (l & E & K & SA & Q & SH). inversion E; subst size0 k0. destruct l as [|[f [m' r']] l]; [discriminate|].
      match goal with X : _ = map snd _ |- _ => inversion X; subst m' r' todo; clear X end.
      inversion SA as [|a b S1 S2]; subst. unfold isafe in S1. cbn [fst snd] in S1.
      match goal with X : process_lazy _ _ _ _ |- _ => rename X into PR end.
      destruct (safe_process mcn m f _ _ S1 ltac:(assumption) PR) as (f' & -> & subs' & ES & SS & LL). match goal with X : split_by_pattern t = Ok subs |- _ => rewrite X in ES; inversion ES; subst subs'; clear ES X end.
      assert (OL : Forall (fun x => own (snd x)) l).
      { destruct SH as [[O _]|(m0 & E0 & _)]; [cbn [map] in O; inversion O; subst; rewrite Forall_map in *; assumption|]. cbn [map snd] in E0. inversion E0 as [[X1 X2 X3]]. apply nil_map in X3. subst l. constructor. }
      assert (OS : Forall (fun x : item_t => own (snd x)) (map (fun s => (f', (m, ROwn s))) subs ++ l)) by (apply Forall_app; split; [apply Forall_map; apply Forall_forall; intros; exact Logic.I|exact OL]).
      exists (SOn size k sid0 due ys). split; [|auto]. exists (map (fun s => (f', (m, ROwn s))) subs ++ l). split; [rewrite map_app, map_map; reflexivity|]. split; [exact K|]. split; [|split].
      + apply (isafe_st st); [exact OS|]. apply Forall_app. split; [|exact S2]. apply Forall_map. exact SS.
      + intros q D. apply (dens_st _ st _ _ OS) in D. apply dens_subs in D. destruct D as (qs & q' & F & D & ->). apply Q. exists (List.concat qs), q'. split; [apply LL; exact F|]. split; [exact D|reflexivity].
      + left. split; [rewrite Forall_map; exact OS|]. intros _. destruct SH as [[_ D]|(m0 & E0 & _ & FL)]; [apply D; discriminate|]. cbn [map snd] in E0. inversion E0; subst. apply (FL t). exact PR.
  Qed.
  Lemma step_some : forall h st g st' g' o sg, bare_state st = loads nv h -> gstep mcn st g st' g' (Some o) -> inv st g sg ->
    exists sg', inv st' g' sg' /\ idle g' /\ sn h sg sg' o.
  Proof.
    intros h st g st' g' o sg B G I. destruct (keys_ok h st B) as [KD ND]. assert (LD : length (digests nv h) = length st) by (rewrite <- KD; apply map_length).
    inversion G; subst; clear G.
    - destruct sg as [|size0 k0 sid0 due ys|]; [discriminate| |discriminate]. destruct I as (l & E & K & SA & Q & SH). inversion E; subst size0 k0. match goal with X : [] = map snd _ |- _ => symmetry in X; apply nil_map in X; subst l end.
      exists SEnd. split; [reflexivity|]. split; [exact Logic.I|]. apply sn_size; [|congruence]. specialize (Q [] eq_refl). rewrite app_nil_r in Q. exact Q.
    - destruct sg as [|size0 k0 sid0 due ys|]; [discriminate| |discriminate]. destruct I as (l & E & K & SA & Q & SH). inversion E; subst size0 k0. match goal with X : [] = map snd _ |- _ => symmetry in X; apply nil_map in X; subst l end.
      exists SEnd. split; [reflexivity|]. split; [exact Logic.I|]. apply sn_stop; [|exact LD|]. specialize (Q [] eq_refl). rewrite app_nil_r in Q. exact Q.
      match goal with X : nth_error _ _ = None |- _ => apply nth_error_None in X end. lia.
    - destruct sg as [|size0 k0 sid0 due ys|]; [discriminate| |discriminate]. destruct I as (l & E & K & SA & Q & SH). inversion E; subst size0 k0. destruct l as [|[f [m' r']] l]; [discriminate|].
      match goal with X : _ = map snd _ |- _ => inversion X; subst m' r' todo; clear X end.
      inversion SA as [|a b S1 S2]; subst. unfold isafe in S1. cbn [fst snd] in S1.
      match goal with X : process_lazy _ _ _ _ |- _ => rename X into PR end.
      destruct (safe_process mcn m f _ _ S1 ltac:(assumption) PR) as (f' & -> & LL).
      assert (OL : Forall (fun x => own (snd x)) l).
      { destruct SH as [[O _]|(m0 & E0 & _)]; [cbn [map] in O; inversion O; subst; rewrite Forall_map in *; assumption|]. cbn [map snd] in E0. inversion E0 as [[X1 X2 X3]]. apply nil_map in X3. subst l. constructor. }
      assert (Q' : forall q, dens st l q -> PL same_cluster due (ys ++ (m, t) :: q)).
      { intros q D. apply (Q ((m, t) :: q)). exists [t], q. split; [exact LL|]. split; [exact D|reflexivity]. }
      destruct (dens_some st l S2) as (rest & DR).
      exists (SOn size k sid0 due (ys ++ [(m, t)])). split; [|split].
      + exists l. split; [reflexivity|]. split; [exact K|]. split; [apply (isafe_st st); assumption|]. split.
        * intros q D. apply (dens_st _ st _ _ OL) in D. rewrite <- app_assoc. apply Q'. exact D.
        * left. split; [rewrite Forall_map; exact OL|]. intros NE. destruct SH as [[_ D]|(m0 & E0 & _)]; [apply D; discriminate|]. cbn [map snd] in E0. inversion E0. congruence.
      + cbn [idle]. rewrite Forall_map. exact OL.
      + apply (sn_more nv mcn h _ _ _ _ _ _ _ _ rest); [apply Q'; exact DR|]. destruct SH as [[O D]|(m0 & E0 & YE & _)].
        * cbn [map snd] in O. inversion O as [|a b O1 O2]; subst. destruct r as [s|x]; [destruct O1|]. cbn [maker_of]. cbn [map] in D. destruct (length due =? 1) eqn:EL; [|reflexivity]. apply Nat.eqb_eq in EL. specialize (D ltac:(discriminate)). lia.
        * cbn [map snd] in E0. inversion E0 as [[X1 X2 X3]]. apply nil_map in X3. subst l ys. cbn in DR. subst rest. specialize (Q' [] eq_refl). apply PL_length in Q'. cbn [app length] in Q'. rewrite Q'. reflexivity.
    - destruct sg as [|size0 k0 sid0 due ys|]; [discriminate| |discriminate]. destruct I as (l & E & K & SA & Q & SH). inversion E; subst size0 k0. destruct l as [|[f [m' r']] l]; [discriminate|].
      match goal with X : _ = map snd _ |- _ => inversion X; subst m' r' todo; clear X end. inversion SA as [|a b S1 S2]; subst. unfold isafe in S1. cbn [fst snd] in S1.
      match goal with X : process_lazy _ _ _ _ |- _ => rename X into PR end. destruct (safe_process mcn m f _ _ S1 ltac:(assumption) PR) as (f' & _ & []).
    - destruct sg as [|size0 k0 sid0 due ys|]; [discriminate| |discriminate]. destruct I as (l & E & K & SA & Q & SH). inversion E; subst size0 k0. destruct l as [|[f [m' r']] l]; [discriminate|].
      match goal with X : _ = map snd _ |- _ => inversion X; subst m' r' todo; clear X end. inversion SA as [|a b S1 S2]; subst. unfold isafe in S1. cbn [fst snd] in S1.
      match goal with X : process_lazy _ _ _ _ |- _ => rename X into PR end. destruct (safe_process mcn m f _ _ S1 ltac:(assumption) PR) as (f' & _ & subs & E1 & _). congruence.
    - destruct sg as [|size0 k0 sid0 due ys|]; [discriminate|destruct I as (l & E & _); discriminate|]. exists SEnd. split; [reflexivity|]. split; [exact Logic.I|apply sn_end].
  Qed.
  Lemma next_sound : forall st g st' g' o, next mcn st g st' g' o -> forall h sg, bare_state st = loads nv h -> inv st g sg ->
    exists sg', inv st' g' sg' /\ idle g' /\ sn h sg sg' o /\ bare_state st' = loads nv h.
  Proof.
    intros st g st' g' o N. induction N as [st g st' g' o G|st g st1 g1 st' g' o G N IH]; intros h sg B I.
    - destruct (step_some h st g st' g' o sg B G I) as (sg' & A & C & D). exists sg'. rewrite (gstep_bare _ _ _ _ _ G). auto.
    - destruct (step_none h st g st1 g1 sg B G I) as (sg1 & I1 & K). destruct (IH h sg1) as (sg' & A & C & D & E); [rewrite (gstep_bare _ _ _ _ _ G); exact B|exact I1|]. exists sg'. auto.
  Qed.

  (** *** next() returns *)
  Definition goes (st : state) (g : gen) : Prop := exists st' g' o, next mcn st g st' g' o.
  Lemma goes_later : forall st g st1 g1, gstep mcn st g st1 g1 None -> goes st1 g1 -> goes st g.
  Proof. intros st g st1 g1 G (st' & g' & o & N). exists st', g', o. eapply next_later; eassumption. Qed.
  Lemma item_go : forall f m r st size k todo, safe mcn m f (tree_of st r) ->
    (forall st2, bare_state st2 = bare_state st -> goes st2 (GOn size k todo)) -> goes st (GOn size k ((m, r) :: todo)).
  Proof.
    induction f as [|f IH]; intros m r st size k todo SA NX; [destruct (safe_fuel _ _ _ SA)|].
    destruct (Z_le_gt_dec (t_cnt (tree_of st r)) 0) as [C|C]; [eapply goes_later; [apply g_skip; exact C|apply NX; reflexivity]|]. apply Z.gt_lt in C.
    pose proof (process_is_any mcn (fun d kw t => cluster_n 1 mcn d d kw t) (fun d kw t => cluster_n_any 1 mcn d d kw t) (fun d kw t => cluster_n_is_any 1 mcn d d kw t) (depth m) (path_depth m) false (tree_of st r)) as P. change (process_lazy mcn m (tree_of st r) (process mcn (fun d kw t => cluster_n 1 mcn d d kw t) (depth m) (path_depth m) false (tree_of st r))) in P.
    destruct (safe_process mcn m _ _ _ SA C P) as (f' & E & X). inversion E; subst f'. clear E. destruct (process _ _ _ _ _ _) as [[t' [|]]|e]; [|do 3 eexists; apply next_now; eapply g_yield; eassumption|destruct X].
    destruct X as (subs & ES & SS & _). eapply goes_later; [eapply g_split; eassumption|].
    assert (W : bare_state (write st r t') = bare_state st) by (apply write_bare; eapply process_bare; eassumption). clear ES P.
    assert (GO : forall st2, bare_state st2 = bare_state st -> goes st2 (GOn size k (map (fun s => (m, ROwn s)) subs ++ todo))).
    { clear W. induction SS as [|s subs S1 S2 IHS]; [exact NX|]. intros st2 B. cbn [map app]. apply IH; [exact S1|]. intros st3 B3. apply IHS. congruence. }
    apply GO. exact W.
  Qed.
  Lemma head_go : forall n h st size k, (length st - k <= n)%nat -> bare_state st = loads nv h -> goes st (GOn size k []).
  Proof.
    induction n as [|n IH]; intros h st size k LE B; destruct (Nat.eq_dec (length st) size) as [E|E]; try (do 3 eexists; apply next_now; apply g_size; exact E).
    - do 3 eexists. apply next_now. apply g_stop; [exact E|]. apply nth_error_None. lia.
    - destruct (nth_error st k) as [[sid mk]|] eqn:NE; [|do 3 eexists; apply next_now; apply g_stop; assumption].
      eapply goes_later; [apply g_take; eassumption|]. destruct (keys_ok h st B) as [_ ND]. pose proof (dget_nth st k sid mk ND NE) as DG. destruct (take_ok h st sid mk B DG) as (due & _ & MA & _).
      apply (item_go (S (length (paths (mk_root mk))))).
      + cbn [tree_of]. rewrite DG. intros r R. destruct (MA r R) as (ts & -> & _). eauto.
      + intros st2 B2. apply (IH h); [|congruence]. assert (L2 : length st2 = length st) by (apply (f_equal (@length _)) in B2; unfold bare_state in B2; rewrite !map_length in B2; exact B2).
        assert (k < length st)%nat by (apply nth_error_Some; congruence). lia.
  Qed.
  Lemma idle_go : forall h st g sg, bare_state st = loads nv h -> idle g -> inv st g sg -> goes st g.
  Proof.
    intros h st g [|size k sid due ys|] B ID I.
    - cbn in I. subst g. eapply goes_later; [apply g_start|]. eapply head_go; [reflexivity|exact B].
    - destruct I as (l & -> & _ & SA & _). cbn [idle] in ID. rewrite Forall_map in ID. revert st B SA. induction ID as [|[f [m r]] l O ID IH]; intros st B SA; [eapply head_go; [reflexivity|exact B]|].
      inversion SA as [|a b S1 S2]; subst. cbn [map snd]. apply (item_go f); [exact S1|]. intros st2 B2. apply IH; [congruence|]. apply (isafe_st st); assumption.
    - cbn in I. subst g. do 3 eexists. apply next_now. apply g_end.
  Qed.

  (** *** combine=True *)
  Lemma combines_ok : forall st todo c st' r, combines mcn st todo c st' r -> forall l, map snd l = todo -> Forall (isafe st) l -> Forall (fun x : item_t => own (snd x)) (tl l) ->
    exists q, dens st l q /\ r = foldM combine_one (map snd q) c /\ bare_state st' = bare_state st.
  Proof.
    intros st todo c st' r C. induction C as [st c|st todo c st1 todo1 st' r NE G C IH|st todo c st1 todo1 m w t c1 st' r NE G C1 C IH|st todo c st1 g m w t e NE G C1|st todo c st1 g e NE G]; intros l E SA O.
    - apply nil_map in E. subst l. exists []. split; [reflexivity|]. split; reflexivity.
    - pose proof (gstep_bare _ _ _ _ _ G) as BS. destruct l as [|[f [m r0]] l]; [subst todo; destruct (NE eq_refl)|]. subst todo. inversion SA as [|a b S1 S2]; subst. unfold isafe in S1. cbn [fst snd tl map] in S1, O, G. inversion G; subst.
      + destruct (IH l eq_refl S2) as (q & D & E2 & B2); [clear - O; destruct O; [constructor|assumption]|]. exists q. split; [|split; [exact E2|congruence]]. exists [], q. split; [apply safe_none; [exact S1|assumption]|]. split; [exact D|reflexivity].
      + match goal with X : process_lazy _ _ _ _ |- _ => rename X into PR end.
        destruct (safe_process mcn m f _ _ S1 ltac:(assumption) PR) as (f' & -> & subs' & ES & SS & LL). match goal with X : split_by_pattern t = Ok subs |- _ => rewrite X in ES; inversion ES; subst subs'; clear ES X end.
        assert (OS : Forall (fun x : item_t => own (snd x)) (map (fun s => (f', (m, ROwn s))) subs ++ l)) by (apply Forall_app; split; [apply Forall_map; apply Forall_forall; intros; exact Logic.I|exact O]).
        destruct (IH (map (fun s => (f', (m, ROwn s))) subs ++ l)) as (q & D & E2 & B2).
        * rewrite map_app, map_map. reflexivity.
        * apply (isafe_st st); [exact OS|]. apply Forall_app. split; [|exact S2]. apply Forall_map. exact SS.
        * clear - OS. destruct OS; [constructor|assumption].
        * exists q. split; [|split; [exact E2|congruence]]. apply (dens_st _ st _ _ OS) in D. apply dens_subs in D. destruct D as (qs & q' & F & D & ->). exists (List.concat qs), q'. split; [apply LL; exact F|]. split; [exact D|reflexivity].
    - pose proof (gstep_bare _ _ _ _ _ G) as BS. destruct l as [|[f [m0 r0]] l]; [subst todo; destruct (NE eq_refl)|]. subst todo. inversion SA as [|a b S1 S2]; subst. unfold isafe in S1. cbn [fst snd tl map] in S1, O, G. inversion G; subst.
      match goal with X : process_lazy _ _ _ _ |- _ => rename X into PR end. destruct (safe_process mcn m f _ _ S1 ltac:(assumption) PR) as (f' & -> & LL).
      destruct (IH l eq_refl) as (q & D & E2 & B2); [apply (isafe_st st); [exact O|exact S2]|clear - O; destruct O; [constructor|assumption]|].
      apply (dens_st _ st _ _ O) in D. exists ((m, t) :: q). split; [exists [t], q; split; [exact LL|]; split; [exact D|reflexivity]|]. split; [|congruence]. cbn [map snd foldM]. rewrite C1. exact E2.
    - pose proof (gstep_bare _ _ _ _ _ G) as BS. destruct l as [|[f [m0 r0]] l]; [subst todo; destruct (NE eq_refl)|]. subst todo. inversion SA as [|a b S1 S2]; subst. unfold isafe in S1. cbn [fst snd tl map] in S1, O, G. inversion G; subst.
      match goal with X : process_lazy _ _ _ _ |- _ => rename X into PR end. destruct (safe_process mcn m f _ _ S1 ltac:(assumption) PR) as (f' & -> & LL).
      destruct (dens_some st l S2) as (q & D). exists ((m, t) :: q). split; [exists [t], q; split; [exact LL|]; split; [exact D|reflexivity]|]. split; [|exact BS]. cbn [map snd foldM]. rewrite C1. reflexivity.
    - exfalso. destruct l as [|[f [m r0]] l]; [subst todo; destruct (NE eq_refl)|]. subst todo. inversion SA as [|a b S1 S2]; subst. unfold isafe in S1. cbn [fst snd tl map] in S1, O, G. inversion G; subst;
        match goal with X : process_lazy _ _ _ _ |- _ => rename X into PR end.
      + destruct (safe_process mcn m f _ _ S1 ltac:(assumption) PR) as (f' & _ & []).
      + destruct (safe_process mcn m f _ _ S1 ltac:(assumption) PR) as (f' & _ & subs & E1 & _). congruence.
  Qed.
  Definition cgoes (st : state) (todo : list (url_meta * ref)) (c : ctree) : Prop := exists st' r, combines mcn st todo c st' r.
  Lemma item_cgo : forall f m r st todo c, safe mcn m f (tree_of st r) -> (forall st2 c2, cgoes st2 todo c2) -> cgoes st ((m, r) :: todo) c.
  Proof.
    induction f as [|f IH]; intros m r st todo c SA NX; [destruct (safe_fuel _ _ _ SA)|].
    destruct (Z_le_gt_dec (t_cnt (tree_of st r)) 0) as [C|C]; [destruct (NX st c) as (st' & r' & X); exists st', r'; eapply cb_step; [discriminate|apply g_skip; exact C|exact X]|]. apply Z.gt_lt in C.
    pose proof (process_is_any mcn (fun d kw t => cluster_n 1 mcn d d kw t) (fun d kw t => cluster_n_any 1 mcn d d kw t) (fun d kw t => cluster_n_is_any 1 mcn d d kw t) (depth m) (path_depth m) false (tree_of st r)) as P. change (process_lazy mcn m (tree_of st r) (process mcn (fun d kw t => cluster_n 1 mcn d d kw t) (depth m) (path_depth m) false (tree_of st r))) in P.
    destruct (safe_process mcn m _ _ _ SA C P) as (f' & E & X). inversion E; subst f'. clear E. destruct (process _ _ _ _ _ _) as [[t' [|]]|e]; [| |destruct X].
    - destruct X as (subs & ES & SS & _).
      assert (GO : forall st2 c2, cgoes st2 (map (fun s => (m, ROwn s)) subs ++ todo) c2).
      { clear ES P. induction SS as [|s subs S1 S2 IHS]; [exact NX|]. intros st2 c2. cbn [map app]. apply IH; [exact S1|exact IHS]. }
      destruct (GO (write st r t') c) as (st' & r' & Y). exists st', r'. eapply cb_step; [discriminate|eapply g_split; eassumption|exact Y].
    - destruct (combine_one c t') as [c1|e] eqn:E1.
      + destruct (NX (write st r t') c1) as (st' & r' & Y). exists st', r'. eapply cb_cluster; [discriminate|eapply g_yield; eassumption|exact E1|exact Y].
      + do 2 eexists. eapply cb_bad; [discriminate|eapply g_yield; eassumption|exact E1].
  Qed.
  Lemma cwf_neat : forall d t, cwf d t -> neat d t.
  Proof.
    induction d as [|d IH]; intros t W; [exact W|]. cbn [cwf neat] in *. destruct W as (A & B & F). split; [exact A|]. split; [exact B|]. eapply Forall_impl; [|exact F]. intros k (C & D). split; [exact C|apply IH; exact D].
  Qed.
  Lemma PL_zsum : forall A (R : A -> A -> Prop) (f : A -> Z) l l', (forall x y, R x y -> f x = f y) -> PL R l l' -> zsum (map f l) = zsum (map f l').
  Proof.
    intros A R f l l' H (l1 & P & F). transitivity (zsum (map f l1)).
    - clear F. induction P as [|x k k' P IH|x y k|k k' k'' P1 IH1 P2 IH2]; unfold zsum in *; cbn [map fold_right] in *; lia.
    - clear P. induction F as [|x y l1 l' XY F IH]; [reflexivity|]. unfold zsum in *. cbn [map fold_right]. rewrite (H _ _ XY). lia.
  Qed.
  Lemma combined_ok : forall h sid mk0 due ts, loads nv (own_loads nv sid h) = [(sid, mk0)] -> make mcn (loads nv (own_loads nv sid h)) = Ok due ->
    PL same_cluster due (map (fun t => (mk_meta mk0, t)) ts) -> exists ct, foldM combine_one ts (CT [] 0 []) = Ok ct /\ combined (mk_meta mk0) due ct.
  Proof.
    intros h sid mk0 due ts EL EM P. assert (IN : In (sid, mk0) (loads nv (own_loads nv sid h))) by (rewrite EL; left; reflexivity).
    destruct (c32 nv _ mcn sid mk0 M IN) as (ts0 & ct0 & E1 & E2 & _ & CN). destruct (maker_ts nv _ mcn sid mk0 ts0 M IN E1) as (TN & TS).
    assert (ED : due = map (fun t => (mk_meta mk0, t)) ts0).
    { rewrite EL in EM. unfold make in EM. cbn [mapM snd] in EM. rewrite E1 in EM. cbn [bind] in EM. inversion EM. cbn [List.concat]. apply app_nil_r. }
    assert (TS' : forall t, In t ts -> (0 < t_cnt t)%Z /\ exists nodes, hd_error (paths t) = Some nodes /\ length (path_patterns nodes) = depth (mk_meta mk0)).
    { intros t I. destruct P as (l1 & PE & F). assert (I' : In (mk_meta mk0, t) (map (fun t => (mk_meta mk0, t)) ts)) by (apply in_map_iff; eauto).
      assert (X : exists a, In a l1 /\ same_cluster a (mk_meta mk0, t)). { clear - F I'. induction F as [|x y l l' H F IH]; [destruct I'|]. destruct I' as [->|I']; [exists x; split; [left; reflexivity|exact H]|]. destruct (IH I') as (a & A & B). exists a. split; [right; exact A|exact B]. }
      destruct X as (a & IA & (_ & PM & CE & Ps & P1 & P2)). apply (Permutation_in _ (Permutation_sym PE)) in IA. rewrite ED in IA. apply in_map_iff in IA as (t0 & <- & IA). cbn [snd] in *. destruct (TS t0 IA) as (C0 & N0 & L0). split; [lia|].
      assert (NP : paths t <> []). { intros N0'. apply N0. apply Permutation_length in PM. unfold members in PM. rewrite !map_length, N0' in PM. apply length_zero_iff_nil. exact PM. }
      destruct (paths t) as [|nodes l]; [congruence|]. exists nodes. split; [reflexivity|]. rewrite (P2 nodes) by (left; reflexivity). destruct (paths t0) as [|n0 l0]; [congruence|]. rewrite <- (P1 n0) by (left; reflexivity). apply L0. left. reflexivity. }
    assert (DP : depth (mk_meta mk0) <> 0).
    { destruct ts0 as [|t0 ts0]; [congruence|]. destruct (maker_facts nv _ sid mk0 IN) as (raw0 & MF). pose proof (mf_non _ _ _ _ _ MF) as NR. destruct (maker_clusters nv _ sid mk0 raw0 mcn M MF) as (tps & E' & _ & F). rewrite E1 in E'. inversion E' as [EQ]. destruct tps as [|[t1 Ps] tps]; [discriminate|]. inversion EQ; subst t1.
      inversion F as [|? ? (_ & _ & LP & PP & _) _]; subst. cbn [fst snd] in *. destruct (TS t0 (or_introl eq_refl)) as (_ & N0 & L0). destruct (paths t0) as [|n0 l0]; [congruence|]. assert (A : length Ps = depth (mk_meta mk0)) by (etransitivity; [|exact (L0 n0 (or_introl eq_refl))]; apply f_equal; symmetry; exact (PP n0 (or_introl eq_refl))). rewrite LP, map_length in A. rewrite <- A. destruct raw0; [congruence|discriminate]. }
    destruct (combine_cnt ts (CT [] 0 [])) as (ct & EC & C).
    { intros t I. destruct (TS' t I) as (_ & nodes & HD & LN). exists nodes. split; [exact HD|]. intros TL. unfold path_patterns in LN. rewrite TL in LN. cbn in LN. congruence. }
    destruct (combine_cnt ts0 (CT [] 0 [])) as (ct1 & EC1 & C1).
    { intros t I. destruct (TS t I) as (_ & NP & LN). destruct (paths t) as [|nodes l]; [congruence|]. exists nodes. split; [reflexivity|]. intros TL. specialize (LN nodes (or_introl eq_refl)). unfold path_patterns in LN. rewrite TL in LN. cbn in LN. congruence. }
    unfold maker_combine in E2. rewrite E1 in E2. cbn [bind] in E2. assert (ct1 = ct0) by congruence. subst ct1. exists ct. split; [exact EC|].
    assert (NT : ts <> []). { intros ->. apply PL_length in P. rewrite ED in P. destruct ts0; [congruence|discriminate]. }
    split; [rewrite ED; destruct ts0; [congruence|discriminate]|]. split; [rewrite ED; apply Forall_map; apply Forall_forall; reflexivity|]. split.
    - apply cwf_neat. destruct (combine_wf (depth (mk_meta mk0)) ts (CT [] 0 []) ct TS' (or_introl eq_refl) EC) as [(X & _)|W]; [congruence|exact W].
    - intros Q. replace (flat_map (fun c => paths (snd c)) due) with (flat_map paths ts0) by (rewrite ED; clear; induction ts0 as [|t l IH]; [reflexivity|cbn [flat_map map snd]; rewrite IH; reflexivity]).
      rewrite <- CN, C, C1. f_equal. set (g := fun t : tree => if prefixb Q (path_patterns (hd [] (paths t))) then t_cnt t else 0%Z).
      transitivity (zsum (map (fun x : url_meta * tree => g (snd x)) (map (fun t => (mk_meta mk0, t)) ts))); [rewrite map_map; reflexivity|]. transitivity (zsum (map (fun x : url_meta * tree => g (snd x)) due)); [|rewrite ED, map_map; reflexivity].
      symmetry. destruct P as (l1 & PE & F). assert (X : Forall2 (fun a b => same_cluster a b /\ In (snd b) ts) l1 (map (fun t => (mk_meta mk0, t)) ts)).
      { assert (Y : Forall (fun b : url_meta * tree => In (snd b) ts) (map (fun t => (mk_meta mk0, t)) ts)) by (apply Forall_map; apply Forall_forall; auto). revert F Y. generalize (map (fun t => (mk_meta mk0, t)) ts). clear. intros l F Y. induction F as [|x y l1 l H F IH]; [constructor|]. inversion Y; subst. constructor; auto. }
      apply (PL_zsum _ (fun a b => same_cluster a b /\ In (snd b) ts)); [|exists l1; split; assumption]. intros a b ((_ & PM & CE & Ps & P1 & P2) & IB). unfold g. rewrite CE.
      destruct (TS' _ IB) as (_ & nodes & HD & _). destruct (paths (snd b)) as [|nb lb] eqn:EB; [discriminate|]. destruct (paths (snd a)) as [|na la] eqn:EA; [apply Permutation_length in PM; unfold members in PM; rewrite !map_length, EA, EB in PM; discriminate|].
      cbn [hd]. rewrite (P1 na) by (left; reflexivity). rewrite (P2 nb) by (left; reflexivity). reflexivity.
  Qed.
  Definition cok (g : cgen) : Prop := match g with COn size k => (k <= size)%nat | _ => True end.
  Lemma cnext_sound : forall h st g st' g' o, cnext mcn st g st' g' o -> bare_state st = loads nv h -> cok g -> spec_cnext nv mcn h g g' o /\ cok g' /\ bare_state st' = loads nv h.
  Proof.
    intros h st g st' g' o N B. destruct (keys_ok h st B) as [KD ND]. assert (LD : length (digests nv h) = length st) by (rewrite <- KD; apply map_length).
    assert (COM : forall k sid mk st' r, nth_error st k = Some (sid, mk) -> combines mcn st [(mk_meta mk, RMaker sid)] (CT [] 0 []) st' r ->
      exists due ct, make mcn (loads nv (own_loads nv sid h)) = Ok due /\ r = Ok ct /\ combined (mk_meta mk) due ct /\ bare_state st' = loads nv h).
    { intros k sid mk st2 r NE C. pose proof (dget_nth st k sid mk ND NE) as DG. destruct (take_ok h st sid mk B DG) as (due & EM & MA & _). pose proof (bare_own h st sid mk B DG) as BO.
      assert (TR : tree_of st (RMaker sid) = mk_root mk) by (cbn [tree_of]; rewrite DG; reflexivity).
      destruct (combines_ok _ _ _ _ _ C [(S (length (paths (mk_root mk))), (mk_meta mk, RMaker sid))] eq_refl) as (q & D & E & BS).
      - constructor; [|constructor]. unfold isafe. cbn [fst snd]. rewrite TR. intros r0 R. destruct (MA r0 R) as (ts & -> & _). eauto.
      - constructor.
      - destruct D as (ts & q' & A & D & ->). cbn [fst snd] in *. cbn in D. subst q'. rewrite TR in A. destruct (MA _ A) as (ts' & E' & P). inversion E'; subst ts'.
        destruct (combined_ok h sid (bare_maker mk) due ts (eq_sym BO) EM P) as (ct & EC & CC). exists due, ct. split; [exact EM|]. split; [|split; [exact CC|congruence]].
        rewrite E, app_nil_r, map_map. cbn [snd]. rewrite map_id. exact EC. }
    induction N as [st' g o N IH|size k L|size k L NE|size k sid mk st' t L NE C|size k sid mk st' e L NE C|]; intros K.
    - destruct IH as (A & D & E); [cbn; lia|]. split; [apply sc_start; rewrite LD; exact A|]. auto.
    - split; [apply sc_size; congruence|]. split; [exact Logic.I|exact B].
    - cbn [cok] in K. apply nth_error_None in NE. assert (k = size) by lia. subst k. split; [apply sc_stop; congruence|]. split; [exact Logic.I|exact B].
    - destruct (COM k sid mk st' _ NE C) as (due & ct & EM & E & CC & BS). inversion E; subst ct. split; [|split; [|exact BS]].
      + apply (sc_tree nv mcn h _ _ sid due); [congruence| |exact EM|exact CC]. rewrite <- KD, nth_error_map, NE. reflexivity.
      + cbn [cok]. assert (k < length st)%nat by (apply nth_error_Some; congruence). lia.
    - destruct (COM k sid mk st' _ NE C) as (due & ct & EM & E & CC & BS). discriminate.
    - split; [constructor|]. split; [exact Logic.I|exact B].
  Qed.
  Lemma cnext_goes : forall h st g, bare_state st = loads nv h -> exists st' g' o, cnext mcn st g st' g' o.
  Proof.
    intros h st g B. destruct (keys_ok h st B) as [KD ND].
    assert (G : forall size k, exists st' g' o, cnext mcn st (COn size k) st' g' o).
    { intros size k. destruct (Nat.eq_dec (length st) size) as [E|E]; [|do 3 eexists; apply c_size; exact E]. destruct (nth_error st k) as [[sid mk]|] eqn:NE; [|do 3 eexists; apply c_stop; assumption].
      pose proof (dget_nth st k sid mk ND NE) as DG. destruct (take_ok h st sid mk B DG) as (due & _ & MA & _).
      destruct (item_cgo (S (length (paths (mk_root mk)))) (mk_meta mk) (RMaker sid) st [] (CT [] 0 [])) as (st' & [ct|e] & C).
      - cbn [tree_of]. rewrite DG. intros r R. destruct (MA r R) as (ts & -> & _). eauto.
      - intros st2 c2. do 2 eexists. apply cb_end.
      - do 3 eexists. eapply c_tree; eassumption.
      - do 3 eexists. eapply c_raise; eassumption. }
    destruct g as [|size k|]; [|apply G|do 3 eexists; apply c_end]. destruct (G (length st) 0) as (st' & g' & o & N). do 3 eexists. apply c_start. exact N.
  Qed.

  (** *** use *)
  Lemma act_snoc : forall es e, act_loads (es ++ [e]) = act_loads es ++ match e with ALoad url meta => [(url, meta)] | _ => [] end.
  Proof. intros es e. unfold act_loads. rewrite flat_map_app. cbn [flat_map]. rewrite app_nil_r. reflexivity. Qed.
  Lemma F2_set : forall A B (R : A -> B -> Prop) l l' i x y, Forall2 R l l' -> R x y -> Forall2 R (set_nth i x l) (set_nth i y l').
  Proof. intros A B R l l' i x y F H. revert i. induction F as [|a b l l' H1 F IH]; intros [|i]; cbn [set_nth]; constructor; auto. Qed.
  Lemma F2_nth : forall A B (R : A -> B -> Prop) l l' i x, Forall2 R l l' -> nth_error l i = Some x -> exists y, nth_error l' i = Some y /\ R x y.
  Proof. intros A B R l l' i x F. revert i. induction F as [|a b l l' H1 F IH]; intros [|i] E; cbn [nth_error] in *; try discriminate; [inversion E; subst; eauto|auto]. Qed.
  Definition ainv (st : state) (g : agen) (sg : asgen) : Prop :=
    match g, sg with
    | Plain g, SPlain sg => inv st g sg /\ idle g
    | Combined g, SCombined sg => g = sg /\ cok g
    | _, _ => False
    end.
  Lemma ainv_st : forall st st' g sg, ainv st g sg -> ainv st' g sg.
  Proof. intros st st' [g|g] [sg|sg] H; try exact H. destruct H as [H I]. split; [apply (inv_idle st); assumption|exact I]. Qed.
  Lemma invs_st : forall st st' gs sgs, Forall2 (ainv st) gs sgs -> Forall2 (ainv st') gs sgs.
  Proof. intros st st' gs sgs F. induction F as [|g sg gs sgs H F IH]; [constructor|]. constructor; [apply (ainv_st st); assumption|auto]. Qed.
  Lemma anext_sound : forall h st g st' g' o sg, anext mcn st g st' g' o -> bare_state st = loads nv h -> ainv st g sg ->
    exists sg', ainv st' g' sg' /\ spec_anext nv mcn h sg sg' o /\ bare_state st' = loads nv h.
  Proof.
    intros h st g st' g' o sg [g1 st1 g1' o1 N|g1 st1 g1' o1 N] B I; destruct sg as [sg|sg]; try contradiction.
    - destruct I as [I ID]. destruct (next_sound _ _ _ _ _ N h sg B I) as (sg' & I' & ID' & SN & BS). exists (SPlain sg'). split; [split; assumption|]. split; [apply sa_plain; exact SN|exact BS].
    - destruct I as [<- K]. destruct (cnext_sound h _ _ _ _ _ N B K) as (SN & K' & BS). exists (SCombined g1'). split; [split; [reflexivity|exact K']|]. split; [apply sa_combined; exact SN|exact BS].
  Qed.
  Lemma uses_sound : forall es st gs log, uses nv mcn es st gs log ->
    exists sgs, spec_uses nv mcn es sgs log /\ Forall2 (ainv st) gs sgs /\ bare_state st = loads nv (act_loads es).
  Proof.
    intros es st gs log U. induction U as [|es st gs log url meta U (sgs & A & B & D)|es st gs log cb U (sgs & A & B & D)|es st gs log i g st' g' o U (sgs & A & B & D) NE N].
    - exists []. split; [constructor|]. split; [constructor|reflexivity].
    - exists sgs. split; [apply su_load; exact A|]. split; [apply (invs_st st); assumption|]. rewrite act_snoc, loads_snoc, <- D, load_erase. reflexivity.
    - exists (sgs ++ [if cb then SCombined CNew else SPlain SNew]). split; [apply su_make; exact A|]. split; [apply Forall2_app; [exact B|constructor; [|constructor]]|rewrite act_snoc, app_nil_r; exact D]. destruct cb; (split; [reflexivity|exact Logic.I]).
    - destruct (F2_nth _ _ _ _ _ i g B NE) as (sg & NS & I). destruct (anext_sound _ st g st' g' o sg N D I) as (sg' & I' & SN & BS).
      exists (set_nth i sg' sgs). split; [eapply su_next; eassumption|]. split; [apply F2_set; [apply (invs_st st); assumption|exact I']|]. rewrite act_snoc, app_nil_r. exact BS.
  Qed.
End Use.
Lemma c55 : forall nv mcn es st gs log, (2 <= mcn)%Z -> uses nv mcn es st gs log -> exists sgs, spec_uses nv mcn es sgs log.
Proof. intros nv mcn es st gs log M U. destruct (uses_sound nv mcn M es st gs log U) as (sgs & A & _). eauto. Qed.
Lemma c55_returns : forall nv mcn es st gs log i g, (2 <= mcn)%Z -> uses nv mcn es st gs log -> nth_error gs i = Some g ->
  (exists st' g' o, anext mcn st g st' g' o) /\ forall st' g' e, ~ anext mcn st g st' g' (ORaise e).
Proof.
  intros nv mcn es st gs log i g M U NE. destruct (uses_sound nv mcn M es st gs log U) as (sgs & A & B & D). destruct (F2_nth _ _ _ _ _ i g B NE) as (sg & NS & I). split.
  - destruct g as [g|g], sg as [sg|sg]; try contradiction.
    + destruct I as [I ID]. destruct (idle_go nv mcn M _ st g sg D ID I) as (st' & g' & o & N). do 3 eexists. apply an_plain. exact N.
    + destruct (cnext_goes nv mcn M _ st g D) as (st' & g' & o & N). do 3 eexists. apply an_combined. exact N.
  - intros st' g' e N. destruct (anext_sound nv mcn M _ _ _ _ _ _ _ N D I) as (sg' & _ & SN & _). clear - SN. remember (ORaise e) as o eqn:EO. destruct SN as [g0 g1 o SN|g0 g1 o SN]; induction SN; try discriminate; auto.
Qed.

(** *** clusters seen later *)
Lemma keys_write : forall st r t, map fst (write st r t) = map fst st.
Proof.
  intros st [sid|t0] t; cbn [write]; [|reflexivity]. destruct (dget str_eqb sid st) as [mk|] eqn:G; [|reflexivity].
  revert G. induction st as [|[k v] st IH]; cbn [dget dset map fst]; intros G; [discriminate|]. destruct (str_eqb sid k) eqn:E; cbn [map fst]; [apply str_eqb_iff in E; subst; reflexivity|]. rewrite IH; [reflexivity|exact G].
Qed.
Lemma keys_gstep : forall mcn st g st' g' o, gstep mcn st g st' g' o -> map fst st' = map fst st.
Proof. intros mcn st g st' g' o G. destruct G; try reflexivity; apply keys_write. Qed.
Lemma keys_next : forall mcn st g st' g' o, next mcn st g st' g' o -> map fst st' = map fst st.
Proof. intros mcn st g st' g' o N. induction N as [st g st' g' o G|st g st1 g1 st' g' o G N IH]; [eapply keys_gstep; exact G|]. rewrite IH. eapply keys_gstep; exact G. Qed.
Lemma whose_next : forall mcn st g st' g' o, next mcn st g st' g' o -> forall m sid t, o = OYield m (Some sid) t -> In sid (map fst st').
Proof.
  intros mcn st g st' g' o N. induction N as [st g st' g' o G|st g st1 g1 st' g' o G N IH]; [|exact IH]. intros m sid t E. subst o. rewrite (keys_gstep _ _ _ _ _ _ G). inversion G; subst.
  match goal with H : maker_of ?r = _ |- _ => destruct r; inversion H; subst end. match goal with H : (0 < _)%Z |- _ => cbn [tree_of] in H; destruct (dget str_eqb sid st) as [mk|] eqn:DG; [|discriminate H] end.
  apply (in_map fst st (sid, mk)). revert DG. clear. induction st as [|[k v] st IH]; cbn [dget]; [discriminate|]. destruct (str_eqb sid k) eqn:E; [intros X; inversion X; apply str_eqb_iff in E; subst; left; reflexivity|right; auto].
Qed.
Lemma dset_keeps : forall (V : Type) (k x : str) (v : V) d, In x (map fst d) -> In x (map fst (dset str_eqb k v d)).
Proof. intros V k x v d. induction d as [|[k' v'] d IH]; cbn [dset map fst]; [intros []|]. destruct (str_eqb k k') eqn:E; cbn [map fst]; intros [H|H]; [left|right|left|right]; auto. Qed.
Lemma load_keeps : forall nv st url meta x, In x (map fst st) -> In x (map fst (fst (load nv st url meta))).
Proof.
  intros nv st url meta x H. unfold load. destruct (parse nv url) as [[m [[|p ps]|[|p ps]]]|e]; try exact H. cbv zeta. destruct (maker_load _ _ _) as [mk' o]. apply dset_keeps. exact H.
Qed.
Lemma keys_combines : forall mcn st todo c st' r, combines mcn st todo c st' r -> map fst st' = map fst st.
Proof. intros mcn st todo c st' r C. induction C; try reflexivity; try (rewrite IHC); eapply keys_gstep; eassumption. Qed.
Lemma keys_anext : forall mcn st g st' g' o, anext mcn st g st' g' o -> map fst st' = map fst st.
Proof. intros mcn st g st' g' o [g1 st1 g1' o1 N|g1 st1 g1' o1 N]; [eapply keys_next; exact N|]. induction N; try reflexivity; try assumption; eapply keys_combines; eassumption. Qed.
Lemma whose_anext : forall mcn st g st' g' m sid t, anext mcn st g st' g' (OYield m (Some sid) t) -> In sid (map fst st').
Proof. intros mcn st g st' g' m sid t N. inversion N as [g1 st1 g1' o1 N1|g1 st1 g1' o1 N1]; subst; [eapply whose_next; [exact N1|reflexivity]|]. exfalso. clear N. remember (OYield m (Some sid) t) as o. induction N1; try discriminate; auto. Qed.
Lemma uses_keys : forall nv mcn es st gs log, uses nv mcn es st gs log -> forall i m sid t, In (i, OYield m (Some sid) t) log -> In sid (map fst st).
Proof.
  intros nv mcn es st gs log U. induction U as [|es st gs log url meta U IH|es st gs log cb U IH|es st gs log i g st' g' o U IH NE N]; intros j m sid t H.
  - destruct H.
  - apply load_keeps. eauto.
  - eauto.
  - apply in_app_iff in H as [H|[H|[]]]; [rewrite (keys_anext _ _ _ _ _ _ N); eauto|]. inversion H; subst. eapply whose_anext. exact N.
Qed.
Lemma c55_later : forall nv mcn es st gs log i m sid t, (2 <= mcn)%Z -> uses nv mcn es st gs log -> In (i, OYield m (Some sid) t) log ->
  exists mk, loads nv (own_loads nv sid (act_loads es)) = [(sid, mk)] /\ bare (later st (Some sid) t) = mk_root mk.
Proof.
  intros nv mcn es st gs log i m sid t M U H. pose proof (uses_keys _ _ _ _ _ _ U _ _ _ _ H) as K. destruct (uses_sound nv mcn M es st gs log U) as (_ & _ & _ & B).
  destruct (keys_ok nv (act_loads es) st B) as [_ ND]. apply in_map_iff in K as ([k mk] & E & IN). cbn [fst] in E. subst k. assert (G : dget str_eqb sid st = Some mk) by (apply (dget_in str_eqb str_eqb_iff); assumption).
  exists (bare_maker mk). split; [rewrite <- (bare_own nv (act_loads es) st sid mk B G); reflexivity|]. cbn [later tree_of]. rewrite G. reflexivity.
Qed.

(** *** a generator that is emptied without loads in between *)
Lemma set_nth_length : forall A i (x : A) l, length (set_nth i x l) = length l.
Proof. intros A i x l. revert i. induction l as [|y l IH]; intros [|i]; cbn [set_nth length]; auto. Qed.
Lemma set_nth_same : forall A i (x : A) l, (i < length l)%nat -> nth_error (set_nth i x l) i = Some x.
Proof. intros A i x l. revert i. induction l as [|y l IH]; intros [|i] H; cbn [set_nth length nth_error] in *; try lia; [reflexivity|apply IH; lia]. Qed.
Lemma set_nth_other : forall A i j (x : A) l, i <> j -> nth_error (set_nth i x l) j = nth_error l j.
Proof. intros A i j x l. revert i j. induction l as [|y l IH]; intros [|i] [|j] H; cbn [set_nth nth_error]; try reflexivity; [lia|apply IH; lia]. Qed.
Lemma spec_length : forall nv mcn es gs log, spec_uses nv mcn es gs log -> length gs = makes es /\ Forall (fun x => fst x < length gs)%nat log.
Proof.
  intros nv mcn es gs log U. unfold makes. induction U as [|es gs log url meta U [A B]|es gs log cb U [A B]|es gs log i g g' o U [A B] NE N]; try (rewrite filter_app, app_length; cbn [filter length]).
  - split; [reflexivity|constructor].
  - split; [lia|exact B].
  - rewrite app_length. cbn [length]. split; [lia|]. eapply Forall_impl; [|exact B]. intros a H. cbn in H. lia.
  - rewrite set_nth_length. split; [lia|]. apply Forall_app. split; [exact B|]. constructor; [|constructor]. cbn [fst]. apply nth_error_Some. congruence.
Qed.
Lemma given_app : forall i a b, given i (a ++ b) = given i a ++ given i b.
Proof. intros i a b. unfold given. apply flat_map_app. Qed.
Section Drain.
  Context (nv : str -> bool) (mcn : Z) (h : list (str * option str)).
  Definition dues (l : list str) (ds : list (list (url_meta * tree))) : Prop := Forall2 (fun sid due => make mcn (loads nv (own_loads nv sid h)) = Ok due) l ds.
  Definition done (sg : sgen) (ys : list (url_meta * tree)) : Prop :=
    match sg with
    | SNew => ys = []
    | SOn size k sid due cur => size = length (digests nv h) /\ (k <= size)%nat /\ exists ds E prev, dues (firstn k (digests nv h)) ds /\ List.concat ds = E ++ due /\ ys = prev ++ cur /\
        PL same_cluster E prev
    | SEnd => exists ds, dues (digests nv h) ds /\ PL same_cluster (List.concat ds) ys
    end.
  Lemma done_next : forall sg sg' o, spec_next nv mcn h sg sg' o -> forall ys, done sg ys ->
    done sg' (ys ++ match o with OYield m _ t => [(m, t)] | _ => [] end) /\ o <> ORuntime /\ (o = OStop -> sg' = SEnd).
  Proof.
    intros sg sg' o N. induction N as [sg o N IH|size k sid due ys m w t rest SC W|size k sid due ys sid' due' sg o SC L NE MK N IH|size k sid due ys SC L K|size k sid due ys SC L|]; intros tot D.
    - apply IH. cbn [done] in *. subst tot. split; [reflexivity|]. split; [lia|]. exists [], [], []. split; [constructor|]. split; [reflexivity|]. split; [reflexivity|apply PL_nil].
    - cbn [done] in D |- *. destruct D as (A & B & ds & E & prev & D1 & D2 & D3 & D4). split; [|split; [discriminate|discriminate]]. split; [exact A|]. split; [exact B|]. exists ds, E, prev. subst tot. rewrite <- app_assoc. auto.
    - apply IH. cbn [done] in D |- *. destruct D as (A & B & ds & E & prev & D1 & D2 & D3 & D4). split; [exact A|]. assert (KL : (k < length (digests nv h))%nat) by (apply nth_error_Some; congruence). split; [lia|].
      exists (ds ++ [due']), (E ++ due), (prev ++ ys). split; [|split; [|split; [rewrite app_nil_r; exact D3|apply PL_app; [exact D4|exact SC]]]].
      + assert (F : firstn (S k) (digests nv h) = firstn k (digests nv h) ++ [sid']).
        { clear - NE. revert k NE. induction (digests nv h) as [|d l IHl]; intros [|k] NE; try discriminate; [inversion NE; reflexivity|]. cbn [nth_error] in NE. cbn [firstn]. cbn [firstn] in IHl. rewrite IHl; [reflexivity|exact NE]. }
        unfold dues. rewrite F. apply Forall2_app; [exact D1|constructor; [exact MK|constructor]].
      + rewrite concat_app, D2. cbn [List.concat]. rewrite app_nil_r. reflexivity.
    - cbn [done] in D |- *. destruct D as (A & B & ds & E & prev & D1 & D2 & D3 & D4). split; [|split; [discriminate|reflexivity]]. exists ds. rewrite app_nil_r. subst k tot. rewrite L in *. rewrite <- L, firstn_all in D1. split; [exact D1|]. rewrite D2. apply PL_app; [exact D4|exact SC].
    - cbn [done] in D. destruct D as (A & _). congruence.
    - rewrite app_nil_r. split; [exact D|split; [discriminate|reflexivity]].
  Qed.
  Definition shown (sid : str) (x : url_meta * ctree) : Prop := exists due, make mcn (loads nv (own_loads nv sid h)) = Ok due /\ combined (fst x) due (snd x).
  Definition cdone (g : cgen) (ts : list (url_meta * ctree)) : Prop :=
    match g with
    | CNew => ts = []
    | COn size k => size = length (digests nv h) /\ (k <= size)%nat /\ Forall2 shown (firstn k (digests nv h)) ts
    | CEnd => Forall2 shown (digests nv h) ts
    end.
  Lemma firstn_snoc : forall A (l : list A) k x, nth_error l k = Some x -> firstn (S k) l = firstn k l ++ [x].
  Proof. intros A l. induction l as [|d l IHl]; intros [|k] x NE; try discriminate; [inversion NE; reflexivity|]. cbn [nth_error] in NE. cbn [firstn]. cbn [firstn] in IHl. rewrite (IHl k x NE). reflexivity. Qed.
  Lemma cdone_next : forall g g' o, spec_cnext nv mcn h g g' o -> forall ts, cdone g ts ->
    cdone g' (ts ++ match o with OTree m t => [(m, t)] | _ => [] end) /\ o <> ORuntime /\ (o = OStop -> g' = CEnd).
  Proof.
    intros g g' o N. induction N as [g o N IH|size k sid due m ct L NE MK C|size L|size k L|]; intros ts D.
    - apply IH. cbn [cdone] in *. subst ts. split; [reflexivity|]. split; [lia|constructor].
    - cbn [cdone] in D |- *. destruct D as (A & B & F). split; [|split; discriminate]. split; [exact A|]. assert (KL : (k < length (digests nv h))%nat) by (apply nth_error_Some; congruence). split; [lia|].
      rewrite (firstn_snoc _ _ _ _ NE). apply Forall2_app; [exact F|]. constructor; [|constructor]. exists due. split; assumption.
    - cbn [cdone] in D |- *. destruct D as (A & B & F). rewrite app_nil_r. split; [|split; [discriminate|reflexivity]]. rewrite A, firstn_all in F. exact F.
    - cbn [cdone] in D. destruct D as (A & _). congruence.
    - rewrite app_nil_r. split; [exact D|split; [discriminate|reflexivity]].
  Qed.
  Definition adone (g : asgen) (ys : list (url_meta * tree)) (ts : list (url_meta * ctree)) : Prop :=
    match g with SPlain g => done g ys | SCombined g => cdone g ts end.
  Definition ended (g : asgen) : Prop := match g with SPlain g => g = SEnd | SCombined g => g = CEnd end.
  Definition kind (g : asgen) : bool := match g with SPlain _ => false | SCombined _ => true end.
  Lemma adone_next : forall g g' o, spec_anext nv mcn h g g' o -> forall ys ts, adone g ys ts ->
    adone g' (ys ++ match o with OYield m _ t => [(m, t)] | _ => [] end) (ts ++ match o with OTree m t => [(m, t)] | _ => [] end) /\ o <> ORuntime /\ (o = OStop -> ended g') /\ kind g' = kind g /\ (ended g -> ended g').
  Proof.
    intros g g' o [g0 g1 o1 N|g0 g1 o1 N] ys ts D; cbn [adone] in *.
    - destruct (done_next _ _ _ N ys D) as (A & B & C). repeat (split; [assumption|]). split; [reflexivity|]. cbn [ended]. intros ->. inversion N. reflexivity.
    - destruct (cdone_next _ _ _ N ts D) as (A & B & C). repeat (split; [assumption|]). split; [reflexivity|]. cbn [ended]. intros ->. inversion N. reflexivity.
  Qed.
End Drain.
Lemma dues_make : forall nv mcn h ds, dues nv mcn h (digests nv h) ds -> make mcn (loads nv h) = Ok (List.concat ds).
Proof.
  intros nv mcn h ds D. rewrite c49_make. replace (mapM (fun sid => make mcn (loads nv (own_loads nv sid h))) (digests nv h)) with (Ok ds); [reflexivity|].
  unfold dues in D. induction D as [|x y l l' E D IH]; [reflexivity|]. cbn [mapM bind]. rewrite E. cbn [bind]. rewrite <- IH. reflexivity.
Qed.
Lemma rev_case : forall A (l : list A), l = [] \/ exists l' x, l = l' ++ [x].
Proof. intros A l. induction l as [|x l _] using rev_ind; [left; reflexivity|right; eauto]. Qed.
Lemma act_nil : forall es x, act_loads (es ++ [x]) = [] -> act_loads es = [].
Proof. intros es x H. unfold act_loads in *. rewrite flat_map_app in H. apply app_eq_nil in H as [H _]. exact H. Qed.
Lemma act_mid : forall es cb es', act_loads es' = [] -> act_loads (es ++ AMake cb :: es') = act_loads es.
Proof. intros es cb es' H. unfold act_loads in *. rewrite flat_map_app. cbn [flat_map app]. rewrite H, app_nil_r. reflexivity. Qed.
Lemma given_none : forall i log, (forall x, In x log -> (fst x < i)%nat) -> given i log = [] /\ trees_given i log = [].
Proof.
  intros i log H. induction log as [|[j o] log IH]; [split; reflexivity|]. destruct IH as [A B]; [intros x I; apply H; right; exact I|]. pose proof (H (j, o) (or_introl eq_refl)) as J. cbn [fst] in J.
  assert (X : (j =? i) = false) by (apply Nat.eqb_neq; lia). unfold given, trees_given. cbn [flat_map fst]. rewrite X. split; assumption.
Qed.
Lemma drain : forall nv mcn all gs log, spec_uses nv mcn all gs log -> forall es cb es', all = es ++ AMake cb :: es' -> act_loads es' = [] ->
  exists sg, nth_error gs (makes es) = Some sg /\ adone nv mcn (act_loads es) sg (given (makes es) log) (trees_given (makes es) log) /\
    ~ In (makes es, ORuntime) log /\ (In (makes es, OStop) log -> ended sg) /\ kind sg = cb.
Proof.
  intros nv mcn all gs log U. induction U as [|all gs log url meta U IH|all gs log cb0 U IH|all gs log i g g' o U IH NE N]; intros es cb es' E Q.
  - destruct es; discriminate.
  - destruct (rev_case _ es') as [->|(es1 & x & ->)]; [apply app_inj_tail in E as [_ E]; discriminate|]. rewrite app_comm_cons, app_assoc in E. apply app_inj_tail in E as [-> <-]. exfalso. clear - Q. unfold act_loads in Q. rewrite flat_map_app in Q. apply app_eq_nil in Q as [_ Q]. discriminate.
  - destruct (rev_case _ es') as [->|(es1 & x & ->)].
    + apply app_inj_tail in E as [-> E]. inversion E; subst cb0. destruct (spec_length _ _ _ _ _ U) as [L F]. rewrite Forall_forall in F. rewrite L in F. exists (if cb then SCombined CNew else SPlain SNew). assert (NI : forall o, ~ In (makes es, o) log) by (intros o H; specialize (F _ H); cbn [fst] in F; lia).
      split; [rewrite nth_error_app2, L, Nat.sub_diag by lia; reflexivity|]. destruct (given_none _ _ F) as [G1 G2]. rewrite G1, G2. split; [destruct cb; reflexivity|]. split; [apply NI|]. split; [intros H; destruct (NI _ H)|destruct cb; reflexivity].
    + rewrite app_comm_cons, app_assoc in E. apply app_inj_tail in E as [-> <-]. destruct (IH es cb es1 eq_refl (act_nil _ _ Q)) as (sg & A & B & C & D). exists sg. split; [|auto]. rewrite nth_error_app1; [exact A|]. apply nth_error_Some. congruence.
  - destruct (rev_case _ es') as [->|(es1 & x & ->)]; [apply app_inj_tail in E as [_ E]; discriminate|]. rewrite app_comm_cons, app_assoc in E. apply app_inj_tail in E as [-> <-]. pose proof (act_nil _ _ Q) as Q1. destruct (IH es cb es1 eq_refl Q1) as (sg & A & B & C & D & KD).
    rewrite given_app. assert (TA : forall k a b, trees_given k (a ++ b) = trees_given k a ++ trees_given k b) by (intros; apply flat_map_app). rewrite TA.
    rewrite (act_mid es cb es1 Q1) in N. destruct (Nat.eq_dec i (makes es)) as [->|NI].
    + rewrite A in NE. inversion NE; subst g. destruct (adone_next nv mcn _ _ _ _ N _ _ B) as (X & Y & Z0 & K1 & K2). exists g'. split; [apply set_nth_same; apply nth_error_Some; congruence|]. split; [|split; [|split]].
      * unfold given at 2, trees_given at 2. cbn [flat_map fst snd]. rewrite Nat.eqb_refl, !app_nil_r. exact X.
      * intros H. apply in_app_iff in H as [H|[H|[]]]; [auto|]. inversion H. congruence.
      * intros H. apply in_app_iff in H as [H|[H|[]]]; [|inversion H; auto]. auto.
      * congruence.
    + exists sg. split; [rewrite set_nth_other by exact NI; exact A|]. split; [|split; [|split; [|exact KD]]].
      * unfold given at 2, trees_given at 2. cbn [flat_map fst snd]. apply Nat.eqb_neq in NI. rewrite NI. cbn [app]. rewrite !app_nil_r. exact B.
      * intros H. apply in_app_iff in H as [H|[H|[]]]; [auto|]. inversion H. congruence.
      * intros H. apply in_app_iff in H as [H|[H|[]]]; [auto|]. inversion H. congruence.
Qed.
Lemma c55_drain : forall nv mcn es es' st gs log, (2 <= mcn)%Z -> uses nv mcn (es ++ AMake false :: es') st gs log -> act_loads es' = [] ->
  ~ In (makes es, ORuntime) log /\
  (In (makes es, OStop) log -> exists cs, make mcn (loads nv (act_loads es)) = Ok cs /\ same_clusters cs (given (makes es) log)).
Proof.
  intros nv mcn es es' st gs log M U Q. destruct (c55 _ _ _ _ _ _ M U) as (sgs & SU). destruct (drain _ _ _ _ _ SU es false es' eq_refl Q) as (sg & A & B & C & D & K). split; [exact C|]. intros H. specialize (D H). destruct sg as [sg|sg]; [|discriminate]. cbn [ended] in D. subst sg. destruct B as (ds & B1 & B2).
  exists (List.concat ds). split; [apply dues_make; exact B1|exact B2].
Qed.
(** *** combine=True *)
Lemma c61_tree : forall nv mcn es st gs log i m ct, (2 <= mcn)%Z -> uses nv mcn es st gs log -> In (i, OTree m ct) log ->
  exists es1 es2 sid due, es = es1 ++ ANext i :: es2 /\ In sid (digests nv (act_loads es1)) /\
    make mcn (loads nv (own_loads nv sid (act_loads es1))) = Ok due /\ combined m due ct.
Proof.
  intros nv mcn es st gs log i m ct M U H. destruct (c55 _ _ _ _ _ _ M U) as (sgs & SU). clear U.
  assert (G : forall all gs log, spec_uses nv mcn all gs log -> In (i, OTree m ct) log -> exists es1 es2 sid due, all = es1 ++ ANext i :: es2 /\ In sid (digests nv (act_loads es1)) /\ make mcn (loads nv (own_loads nv sid (act_loads es1))) = Ok due /\ combined m due ct).
  { clear. intros all gs log U. induction U as [|all gs log url meta U IH|all gs log cb0 U IH|all gs log j g g' o U IH NE N]; intros H.
    - destruct H.
    - destruct (IH H) as (es1 & es2 & sid & due & -> & X). exists es1, (es2 ++ [ALoad url meta]), sid, due. split; [rewrite <- app_assoc; reflexivity|exact X].
    - destruct (IH H) as (es1 & es2 & sid & due & -> & X). exists es1, (es2 ++ [AMake cb0]), sid, due. split; [rewrite <- app_assoc; reflexivity|exact X].
    - apply in_app_iff in H as [H|[H|[]]].
      + destruct (IH H) as (es1 & es2 & sid & due & -> & X). exists es1, (es2 ++ [ANext j]), sid, due. split; [rewrite <- app_assoc; reflexivity|exact X].
      + inversion H; subst j o. exists all, []. remember (OTree m ct) as o' eqn:EO. destruct N as [g0 g1 o N|g0 g1 o N].
        * exfalso. clear - N EO. induction N; try discriminate; auto.
        * clear H NE. induction N; try discriminate; auto. inversion EO; subst. exists sid, due. split; [reflexivity|]. split; [eapply nth_error_In; eassumption|]. split; assumption. }
  eapply G; eassumption.
Qed.
Lemma c61_drain : forall nv mcn es es' st gs log, (2 <= mcn)%Z -> uses nv mcn (es ++ AMake true :: es') st gs log -> act_loads es' = [] ->
  ~ In (makes es, ORuntime) log /\
  (In (makes es, OStop) log -> Forall2 (fun sid x => exists due, make mcn (loads nv (own_loads nv sid (act_loads es))) = Ok due /\ combined (fst x) due (snd x)) (digests nv (act_loads es)) (trees_given (makes es) log)).
Proof.
  intros nv mcn es es' st gs log M U Q. destruct (c55 _ _ _ _ _ _ M U) as (sgs & SU). destruct (drain _ _ _ _ _ SU es true es' eq_refl Q) as (sg & A & B & C & D & K). split; [exact C|]. intros H. specialize (D H). destruct sg as [sg|sg]; [discriminate|]. cbn [ended] in D. subst sg. exact B.
Qed.
Lemma is_process : forall mcn m t t' b, process mcn (fun d kw t => cluster_n 1 mcn d d kw t) (depth m) (path_depth m) false t = Ok (t', b) -> process_lazy mcn m t (Ok (t', b)).
Proof. intros mcn m t t' b E. unfold process_lazy. rewrite <- E. apply process_is_any. intros d kw t0. apply cluster_n_is_any. Qed.
