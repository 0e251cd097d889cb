(** The two levels of match trees, and the state of a PatternMatcher as a function
    of the patterns loaded. *)
From Coq Require Import String.
From Verif Require Import PyStr Defs UrlLib ParseUtils Spec Views Trees Patterns Matcher Observe MatchSpec PyStrProofs DefsProofs DictProofs BridgeProofs MatchVms MatchTree MatchSem MatchLevel.
From Coq Require Import Lia Permutation Sorted.

Definition inner0 (t : mnode) (qs : list match_pattern) (r : mmeta) : mnode * res bool := mbuild_n 0 t qs (Some r).
Definition inner1 (t : mnode) (qs : list match_pattern) (r : mmeta) : mnode * res bool := mbuild_n 1 t qs (Some r).
Definition im0 (t : mnode) (l : list mobj) : res (list (option mmeta)) := fs <- nmatch_n 0 t l ;; Ok (map (fun f => m_meta (snd f)) fs).
Definition im1 (t : mnode) (l : list mobj) : res (list (option mmeta)) := fs <- nmatch_n 1 t l ;; Ok (map (fun f => m_meta (snd f)) fs).
Lemma nest1 : forall n ps me, mbuild_n 1 n ps me = mbuild inner0 n ps me None.
Proof. reflexivity. Qed.
Lemma nest2 : forall n ps me, mbuild_n 2 n ps me = mbuild inner1 n ps me None.
Proof. reflexivity. Qed.
Lemma nmatch1 : forall n os, nmatch_n 1 n os = nmatch im0 os n.
Proof. reflexivity. Qed.
Lemma nmatch2 : forall n os, nmatch_n 2 n os = nmatch im1 os n.
Proof. reflexivity. Qed.

(** ** bodies keep their shape *)
Definition shape (v : vcls) (b : vbody) : bool :=
  match v, b with
  | VPiece, BPiece _ | VLength, BLength _ | VFuzzy, BFuzzy _ => true
  | VMulti, BMulti _ | VMixed, BMulti _ | VLdsf, BMulti _ => true
  | _, _ => false
  end.
Lemma new_shape : forall v, shape v (new_body v) = true.
Proof. intros []; reflexivity. Qed.
Lemma add_shape : forall inner v b p, shape v b = true -> shape v (fst (add_match_node inner b p)) = true.
Proof.
  intros inner v b p S. destruct v, b; try discriminate; cbn [add_match_node]; try reflexivity.
  all: try (destruct (mp_units p); reflexivity).
  all: destruct (mapM _ (mp_units p)); [destruct (inner _ _ _)|]; reflexivity.
Qed.
Lemma bfold_shape : forall inner v l b, shape v b = true -> shape v (bfold inner b l) = true.
Proof. intros inner v l. induction l as [|p l IH]; intros b S; [exact S|]. unfold bfold. cbn [fold_left]. apply IH. apply add_shape. exact S. Qed.
Lemma body_shape : forall inner v l, shape v (body inner v l) = true.
Proof. intros. apply (bfold_shape inner v (filter (is_view v) l) (new_body v)). apply new_shape. Qed.

(** ** the inner trees *)
Definition unit_ok (p : match_pattern) : Prop := exists x, p = unit_mp x /\ mk_unit (pu_str x) = Ok x.
Lemma unit_ok_simple : forall p, unit_ok p -> simple (mp_view p) = true /\ mp_units p <> [].
Proof. intros p (x & -> & _). split; [|discriminate]. destruct (unit_view x) as [E|[E|E]]; cbn [unit_mp mp_view]; rewrite E; reflexivity. Qed.
Lemma regok0 : forall l p, Forall unit_ok l -> unit_ok p -> snd (register inner0 (regs inner0 l) p) = None.
Proof.
  intros l p _ P. rewrite regs_err. apply unit_ok_simple in P. destruct P as [S NE]. pose proof (body_shape inner0 (mp_view p) l) as B.
  destruct (mp_view p), (body inner0 _ l); try discriminate; cbn [add_match_node snd]; try reflexivity. destruct (mp_units p); [congruence|reflexivity].
Qed.
Lemma unit_mp_inj : forall x y, mk_unit (pu_str x) = Ok x -> mk_unit (pu_str y) = Ok y -> pu_str x = pu_str y -> x = y.
Proof. intros x y X Y E. rewrite E in X. congruence. Qed.

(** the entry that a pattern makes in the tree of a MultiPatternViewMatcher *)
Definition ment (p : match_pattern) : hent := (map unit_mp (mp_units p), Some (MRef (mp_str p))).
Definition has_ukey (r : str) (p : match_pattern) : bool := str_eqb r (ukey p).
Definition mtree (l : list match_pattern) : mnode := grow inner0 empty_match_pattern (map ment l).
Lemma ment_ok : forall l, Forall mp_ok l -> hist_ok unit_ok (map ment l).
Proof.
  intros l F. unfold hist_ok. rewrite Forall_map. eapply Forall_impl; [|exact F]. intros p P. cbn [ment fst]. rewrite Forall_map.
  destruct (mp_ok_facts p P) as (_ & _ & _ & U). eapply Forall_impl; [|exact U]. intros x X. exists x. auto.
Qed.
Lemma multi_add : forall l p, Forall mp_ok l -> mp_ok p ->
  mapM (fun x => mk_match_pattern (pu_str x) false) (mp_units p) = Ok (map unit_mp (mp_units p)) /\
  fst (inner1 (mtree l) (map unit_mp (mp_units p)) (MRef (mp_str p))) = mtree (l ++ [p]) /\
  exists b, snd (inner1 (mtree l) (map unit_mp (mp_units p)) (MRef (mp_str p))) = Ok b.
Proof.
  intros l p F P. destruct (mp_ok_facts p P) as (NE & _ & M & U). split; [exact M|]. split.
  - unfold mtree. rewrite map_app. cbn [map]. rewrite grow_snoc. reflexivity.
  - unfold inner1. rewrite nest1. unfold mtree. rewrite (mbuild_snd inner0 unit_ok regok0).
    + destruct (mp_units p); [congruence|]. cbn [map]. eauto.
    + apply ment_ok. exact F.
    + rewrite Forall_map. eapply Forall_impl; [|exact U]. intros x X. exists x. auto.
Qed.
Lemma multi_body : forall l, Forall mp_ok l -> exists d, bfold inner1 (BMulti []) l = BMulti d /\
  forall r, dget str_eqb r d = match filter (has_ukey r) l with [] => None | l' => Some (mtree l') end.
Proof.
  induction l as [|p l IH] using rev_ind; intros F; [exists []; split; reflexivity|]. apply Forall_app in F. destruct F as [F F1]. inversion F1 as [|? ? P _]; subst. destruct (IH F) as (d & E & D).
  rewrite bfold_snoc, E. cbn [add_match_node]. fold (ukey p).
  assert (T : match dget str_eqb (ukey p) d with Some t => t | None => new_mroot end = mtree (filter (has_ukey (ukey p)) l)). { rewrite D. destruct (filter (has_ukey (ukey p)) l); reflexivity. }
  rewrite T. assert (FO : Forall mp_ok (filter (has_ukey (ukey p)) l)). { apply Forall_forall. intros q I. apply filter_In in I. rewrite Forall_forall in F. apply F. apply I. }
  destruct (multi_add _ p FO P) as (M & A & _). rewrite M. destruct (inner1 _ _ _) as [t' out] eqn:EI. cbn [fst] in A |- *. exists (dset str_eqb (ukey p) t' d). split; [reflexivity|]. intros r. rewrite filter_app. cbn [filter].
  unfold has_ukey at 2. destruct (str_eqb r (ukey p)) eqn:ER.
  - apply str_eqb_iff in ER. subst r. rewrite (dget_dset_same str_eqb str_eqb_iff), A. destruct (filter (has_ukey (ukey p)) l); reflexivity.
  - rewrite app_nil_r, (dget_dset_other str_eqb str_eqb_iff); [apply D|]. intros X. apply (proj2 (str_eqb_iff r (ukey p))) in X. congruence.
Qed.
Lemma regok1 : forall l p, Forall mp_ok l -> mp_ok p -> snd (register inner1 (regs inner1 l) p) = None.
Proof.
  intros l p F P. rewrite regs_err. pose proof (body_shape inner1 (mp_view p) l) as B. destruct (mp_ok_facts p P) as (NE & _).
  assert (FF : Forall mp_ok (filter (is_view (mp_view p)) l)). { apply Forall_forall. intros q I. apply filter_In in I. rewrite Forall_forall in F. apply F. apply I. }
  assert (MB : new_body (mp_view p) = BMulti [] -> snd (add_match_node inner1 (body inner1 (mp_view p) l) p) = None).
  { intros N. unfold body. rewrite N. fold (bfold inner1 (BMulti []) (filter (is_view (mp_view p)) l)). destruct (multi_body _ FF) as (d & -> & D). cbn [add_match_node]. fold (ukey p).
    assert (T : match dget str_eqb (ukey p) d with Some t => t | None => new_mroot end = mtree (filter (has_ukey (ukey p)) (filter (is_view (mp_view p)) l))). { rewrite D. destruct (filter (has_ukey (ukey p)) _); reflexivity. }
    rewrite T. assert (FO : Forall mp_ok (filter (has_ukey (ukey p)) (filter (is_view (mp_view p)) l))). { apply Forall_forall. intros q I. apply filter_In in I. rewrite Forall_forall in FF. apply FF. apply I. }
    destruct (multi_add _ p FO P) as (M & _ & (b & S)). rewrite M. destruct (inner1 _ _ _) as [t' out]. cbn [snd] in *. rewrite S. reflexivity. }
  destruct (mp_view p) eqn:EV; try (apply MB; reflexivity).
  all: destruct (body inner1 _ l); try discriminate; cbn [add_match_node snd]; try reflexivity. destruct (mp_units p); [congruence|reflexivity].
Qed.

(** ** the state *)
(** the entry of an accepted load: structure, patterns and meta *)
Definition pat_parse (nv : str -> bool) (s : str) : option (url_meta * list match_pattern) :=
  match parse nv s with
  | Ok (m, PPat []) => None
  | Ok (m, PPat ps) => Some (m, ps)
  | _ => None
  end.
Definition mentries (nv : str -> bool) (sid : str) (h : list (str * option str)) : list (url_meta * hent) :=
  flat_map (fun l => match pat_parse nv (fst l) with
                     | Some (m, ps) => if str_eqb sid (parsed_digest m (PPat ps)) then [(m, (ps, option_map MUser (snd l)))] else []
                     | None => []
                     end) h.
Definition mhist (nv : str -> bool) (sid : str) (h : list (str * option str)) : list hent := map snd (mentries nv sid h).

Lemma mk_patterns_ok : forall l i d ms, mk_patterns i d l = Ok ms -> Forall mp_ok ms /\ map mp_str ms = l.
Proof.
  induction l as [|p l IH]; intros i d ms H; cbn [mk_patterns] in H; [inversion H; split; [constructor|reflexivity]|].
  destruct (mk_match_pattern p (i =? d)) as [m|] eqn:E; cbn [bind] in H; [|discriminate]. destruct (mk_patterns (S i) d l) as [ms'|] eqn:E'; cbn [bind] in H; [|discriminate]. inversion H; subst.
  destruct (IH _ _ _ E') as [A B]. assert (S : mp_str m = p). { unfold mk_match_pattern in E. apply bind_ok in E. destruct E as (us & _ & E). inversion E. reflexivity. }
  split; [|cbn [map]; congruence]. constructor; [|exact A]. exists (i =? d). rewrite S. exact E.
Qed.
Lemma pat_parse_ok : forall nv s m ps, pat_parse nv s = Some (m, ps) -> Forall mp_ok ps /\ ps <> [] /\ parse nv s = Ok (m, PPat ps).
Proof.
  intros nv s m ps H. unfold pat_parse in H. destruct (parse nv s) as [[m' [l|l]]|] eqn:E; try discriminate. destruct l as [|p l]; [discriminate|]. inversion H; subst. split; [|split; [discriminate|reflexivity]].
  unfold parse in E. destruct (startswith s [SLASH]).
  - apply bind_ok in E. destruct E as ([m' ps] & _ & E). apply bind_ok in E. destruct E as (ms & E & E'). inversion E'; subst. apply mk_patterns_ok in E. apply E.
  - apply bind_ok in E. destruct E as ([m' ps] & _ & E). apply bind_ok in E. destruct E as (ms & E & E'). discriminate.
Qed.
Lemma mhist_ok : forall nv sid h, hist_ok mp_ok (mhist nv sid h).
Proof.
  intros nv sid h. unfold hist_ok, mhist. rewrite Forall_map. apply Forall_forall. intros [m [ps me]] I. cbn [snd fst]. unfold mentries in I. apply in_flat_map in I. destruct I as ([s mt] & _ & I). cbn [fst snd] in I.
  destruct (pat_parse nv s) as [[m' ps']|] eqn:E; [|destruct I]. destruct (str_eqb _ _); [|destruct I]. destruct I as [I|[]]. inversion I; subst. apply pat_parse_ok in E. apply E.
Qed.
Definition mroot (nv : str -> bool) (sid : str) (h : list (str * option str)) : mnode := grow inner1 empty_match_pattern (mhist nv sid h).
Definition the_matcher (nv : str -> bool) (sid : str) (h : list (str * option str)) : option matcher :=
  match mentries nv sid h with
  | [] => None
  | (m, _) :: _ => Some (MM m (mroot nv sid h))
  end.
Lemma match_load_eq : forall nv st s me, match_load nv st s me =
  match pat_parse nv s with
  | Some (m, ps) =>
      let sid := parsed_digest m (PPat ps) in
      let x := match dget str_eqb sid st with Some x => x | None => MM m new_mroot end in
      let '(root, o) := mbuild_n 2 (mm_root x) ps (option_map MUser me) in
      (dset str_eqb sid (MM (mm_meta x) root) st, o)
  | None => (st, Err match parse nv s with
                     | Err e => e
                     | Ok (_, PUrl []) | Ok (_, PPat []) => EIndex
                     | Ok _ => EValue
                     end)
  end.
Proof. intros. unfold match_load, pat_parse. destruct (parse nv s) as [[m [[|p l]|[|p l]]]|]; reflexivity. Qed.
Lemma mentries_snoc : forall nv sid h s me, mentries nv sid (h ++ [(s, me)]) = mentries nv sid h ++
  match pat_parse nv s with Some (m, ps) => if str_eqb sid (parsed_digest m (PPat ps)) then [(m, (ps, option_map MUser me))] else [] | None => [] end.
Proof. intros. unfold mentries. rewrite flat_map_app. cbn [flat_map fst snd]. rewrite app_nil_r. reflexivity. Qed.
Lemma mloads_snoc : forall nv h s me, mloads nv (h ++ [(s, me)]) = fst (match_load nv (mloads nv h) s me).
Proof. intros. unfold mloads. rewrite fold_left_app. reflexivity. Qed.
Lemma mloads_get : forall nv h sid, dget str_eqb sid (mloads nv h) = the_matcher nv sid h.
Proof.
  intros nv h. induction h as [|[s me] h IH] using rev_ind; intros sid; [reflexivity|]. rewrite mloads_snoc, match_load_eq. unfold the_matcher, mroot, mhist. rewrite mentries_snoc.
  destruct (pat_parse nv s) as [[m ps]|] eqn:E; [|cbn [fst]; rewrite app_nil_r; apply IH]. cbv zeta. set (sd := parsed_digest m (PPat ps)).
  destruct (mbuild_n 2 _ ps _) as [root o] eqn:EB. cbn [fst]. destruct (str_eqb sid sd) eqn:ES.
  - apply str_eqb_iff in ES. subst sid. rewrite (dget_dset_same str_eqb str_eqb_iff). rewrite IH in *. unfold the_matcher in *. rewrite map_app. cbn [map]. rewrite grow_snoc. unfold step. cbn [fst snd].
    rewrite <- nest2. unfold mroot, mhist in EB. destruct (mentries nv sd h) as [|[m' e] r]; cbn [mm_root mm_meta app map] in *.
    + cbn [snd]. unfold grow. cbn [fold_left]. change (new_mnode empty_match_pattern) with new_mroot. rewrite EB. reflexivity.
    + rewrite EB. reflexivity.
  - rewrite app_nil_r, (dget_dset_other str_eqb str_eqb_iff); [apply IH|]. intros X. apply (proj2 (str_eqb_iff sid sd)) in X. congruence.
Qed.
(** the outcome of a load *)
Lemma mload_snd : forall nv h s me, snd (match_load nv (mloads nv h) s me) =
  match pat_parse nv s with
  | Some (m, ps) => Ok (negb (existsb (fun e : hent => prefixb (skey ps) (skey (fst e))) (mhist nv (parsed_digest m (PPat ps)) h)))
  | None => Err match parse nv s with
                | Err e => e
                | Ok (_, PUrl []) | Ok (_, PPat []) => EIndex
                | Ok _ => EValue
                end
  end.
Proof.
  intros. rewrite match_load_eq. destruct (pat_parse nv s) as [[m ps]|] eqn:E; [|reflexivity]. cbv zeta. rewrite mloads_get. set (sd := parsed_digest m (PPat ps)). apply pat_parse_ok in E. destruct E as (OK & NE & _).
  assert (R : mm_root match the_matcher nv sd h with Some x => x | None => MM m new_mroot end = mroot nv sd h). { unfold the_matcher, mroot, mhist. destruct (mentries nv sd h) as [|[m' e] r]; reflexivity. }
  rewrite R. rewrite nest2. pose proof (mbuild_snd inner1 mp_ok regok1 ps empty_match_pattern (mhist nv sd h) (option_map MUser me) None (mhist_ok nv sd h) OK) as X. fold (mroot nv sd h) in X.
  destruct (mbuild inner1 (mroot nv sd h) ps (option_map MUser me) None) as [root o]. cbn [snd] in *. rewrite X. destruct ps; [congruence|reflexivity].
Qed.
Lemma c17_matcher : forall nv h s me e, snd (match_load nv (mloads nv h) s me) = Err e -> fst (match_load nv (mloads nv h) s me) = mloads nv h.
Proof. intros nv h s me e H. rewrite mload_snd in H. rewrite match_load_eq. destruct (pat_parse nv s) as [[m ps]|]; [discriminate|reflexivity]. Qed.

(** ** C37 *)
Section Sorted.
  Definition all_sorted (n : mnode) : Prop := forall x, node_in x n -> vms_sorted (m_vms x).
  Definition body_sorted (b : vbody) : Prop := match b with BMulti d => Forall (fun e => all_sorted (snd e)) d | _ => True end.
  Lemma all_sorted_eq : forall p c m ks vms, all_sorted (MN p c m ks vms) <-> vms_sorted vms /\ Forall all_sorted ks /\ Forall (fun vb => body_sorted (snd vb)) vms.
  Proof.
    intros p c m ks vms. split.
    - intros H. split; [exact (H _ (ni_self _))|]. split.
      + apply Forall_forall. intros k I x X. apply H. apply (ni_kid x (MN p c m ks vms) k); assumption.
      + apply Forall_forall. intros [v b] I. cbn [snd]. destruct b as [d|d|d|l]; cbn; auto. apply Forall_forall. intros [r t] J x X. apply H. apply (ni_view x (MN p c m ks vms) v d r t); assumption.
    - intros (S & K & B) x X. inversion X as [|n k I Y|n v d r t I J Y]; subst; cbn [m_kids m_vms] in *; [exact S| |].
      + rewrite Forall_forall in K. apply (K k I). exact Y.
      + rewrite Forall_forall in B. specialize (B _ I). cbn in B. rewrite Forall_forall in B. apply (B _ J). exact Y.
  Qed.
  Lemma new_sorted : forall p, all_sorted (new_mnode p).
  Proof. intros p. apply all_sorted_eq. repeat split; constructor. Qed.
  Context (inner : mnode -> list match_pattern -> mmeta -> mnode * res bool).
  Context (inner_sorted : forall t ps r, all_sorted t -> all_sorted (fst (inner t ps r))).
  Lemma dset_sorted : forall k t (d : list (str * mnode)), Forall (fun e => all_sorted (snd e)) d -> all_sorted t -> Forall (fun e => all_sorted (snd e)) (dset str_eqb k t d).
  Proof. intros k t d F T. induction F as [|[k' t'] d H F IH]; cbn [dset]; [repeat constructor; exact T|]. destruct (str_eqb k k'); constructor; auto. Qed.
  Lemma add_sorted : forall b p, body_sorted b -> body_sorted (fst (add_match_node inner b p)).
  Proof.
    intros b p B. destruct b as [d|d|d|l]; cbn [add_match_node]; [exact Logic.I|destruct (mp_units p); exact Logic.I| |exact Logic.I]. cbn in B.
    set (r := fuzzy_join _). set (t := match dget str_eqb r d with Some t => t | None => new_mroot end). assert (T : all_sorted t).
    { unfold t. destruct (dget str_eqb r d) as [t0|] eqn:E; [|apply new_sorted]. apply (dget_some_in str_eqb str_eqb_iff) in E. rewrite Forall_forall in B. apply (B _ E). }
    destruct (mapM _ (mp_units p)) as [ps|e].
    - pose proof (inner_sorted t ps (MRef (mp_str p)) T) as X. destruct (inner t ps (MRef (mp_str p))) as [t' out]. apply dset_sorted; [exact B|exact X].
    - apply dset_sorted; assumption.
  Qed.
  Lemma register_sorted : forall vms p, vms_sorted vms -> Forall (fun vb => body_sorted (snd vb)) vms ->
    vms_sorted (fst (register inner vms p)) /\ Forall (fun vb => body_sorted (snd vb)) (fst (register inner vms p)).
  Proof.
    intros vms p S F. destruct (register_ok inner vms p S) as (_ & S' & G). split; [exact S'|]. apply Forall_forall. intros [w b] I. cbn [snd]. apply (vget_In w b _ S') in I. rewrite G in I.
    destruct (vcls_eqb (mp_view p) w) eqn:E.
    - inversion I; subst. apply add_sorted. destruct (vget (mp_view p) vms) as [b0|] eqn:V; [|destruct (mp_view p); cbn; constructor]. apply (vget_In _ _ _ S) in V. rewrite Forall_forall in F. apply (F _ V).
    - apply (vget_In _ _ _ S) in I. rewrite Forall_forall in F. apply (F _ I).
  Qed.
  Lemma mkid_split_eq : forall k ks a x b, mkid_split k ks = Some (a, x, b) -> ks = a ++ x :: b.
  Proof.
    induction ks as [|y ks IH]; intros a x b H; cbn [mkid_split] in H; [discriminate|]. destruct (str_eqb k (m_key y)); [inversion H; reflexivity|].
    destruct (mkid_split k ks) as [[[a' x'] b']|]; [|discriminate]. inversion H; subst. cbn [app]. rewrite <- (IH _ _ _ eq_refl). reflexivity.
  Qed.
  Lemma mbuild_sorted : forall ps n me new, all_sorted n -> all_sorted (fst (mbuild inner n ps me new)).
  Proof.
    induction ps as [|q r IH]; intros [p c m ks vms] me new H; cbn [mbuild]; apply all_sorted_eq in H; destruct H as (S & K & B).
    - apply all_sorted_eq. auto.
    - destruct (mkid_split (mp_str q) ks) as [[[a k] b]|] eqn:E.
      + apply mkid_split_eq in E. subst ks. apply Forall_app in K. destruct K as [K1 K2]. inversion K2 as [|? ? K3 K4]; subst. specialize (IH k me (Some false) K3). destruct (mbuild inner k r me (Some false)) as [k' o]. cbn [fst] in *.
        apply all_sorted_eq. split; [exact S|]. split; [|exact B]. apply Forall_app. auto.
      + destruct (register_sorted vms q S B) as [S' B']. destruct (register inner vms q) as [vms' [e|]]; cbn [fst] in *.
        * apply all_sorted_eq. split; [exact S'|]. split; [|exact B']. apply Forall_app. split; [exact K|]. constructor; [apply new_sorted|constructor].
        * specialize (IH (new_mnode q) me (Some true) (new_sorted q)). destruct (mbuild inner (new_mnode q) r me (Some true)) as [k' o]. cbn [fst] in *.
          apply all_sorted_eq. split; [exact S'|]. split; [|exact B']. apply Forall_app. split; [exact K|]. constructor; [exact IH|constructor].
  Qed.
End Sorted.
Lemma mbuild_n_sorted : forall nest n ps me, all_sorted n -> all_sorted (fst (mbuild_n nest n ps me)).
Proof. induction nest as [|nest IH]; intros n ps me H; [exact H|]. cbn [mbuild_n]. apply mbuild_sorted; [|exact H]. intros t qs r T. apply IH. exact T. Qed.
Lemma mloads_sorted : forall nv h sid x, In (sid, x) (mloads nv h) -> all_sorted (mm_root x).
Proof.
  intros nv h. induction h as [|[s me] h IH] using rev_ind; intros sid x I; [destruct I|]. rewrite mloads_snoc, match_load_eq in I. destruct (pat_parse nv s) as [[m ps]|]; [|exact (IH sid x I)]. cbv zeta in I.
  set (sd := parsed_digest m (PPat ps)) in *. set (y := match dget str_eqb sd (mloads nv h) with Some x => x | None => MM m new_mroot end) in *.
  assert (Y : all_sorted (mm_root y)). { unfold y. destruct (dget str_eqb sd (mloads nv h)) as [z|] eqn:E; [|apply new_sorted]. apply (dget_some_in str_eqb str_eqb_iff) in E. exact (IH _ _ E). }
  pose proof (mbuild_n_sorted 2 (mm_root y) ps (option_map MUser me) Y) as X. destruct (mbuild_n 2 (mm_root y) ps (option_map MUser me)) as [root o]. cbn [fst] in *.
  revert I IH X. clear. generalize (mloads nv h). intros st. induction st as [|[k v] st IHs]; cbn [dset]; intros I IH X.
  - destruct I as [I|[]]. inversion I; subst. exact X.
  - destruct (str_eqb sd k).
    + destruct I as [I|I]; [inversion I; subst; exact X|apply (IH sid); right; exact I].
    + destruct I as [I|I]; [inversion I; subst; apply (IH sid); left; reflexivity|]. apply IHs; [exact I| |exact X]. intros s0 x0 J. apply (IH s0). right. exact J.
Qed.
Lemma search_finds : forall vms v b, vms_sorted vms -> In (v, b) vms -> exists i, get_matcher vms v = Ok (i, vms) /\ nth_error vms i = Some (v, b).
Proof.
  intros vms v b S I. destruct (get_matcher_ok v vms S) as (a & c & b' & (i & E & ->) & SX & [V|(V & _ & N)]).
  - exists (length a). rewrite E, <- V. split; [reflexivity|]. apply (vget_In v b vms S) in I. assert (J : In (v, b') vms) by (rewrite V; apply in_app_iff; right; left; reflexivity). apply (vget_In v b' vms S) in J.
    assert (b = b') by congruence. subst b'. rewrite V, nth_error_app2, Nat.sub_diag by lia. reflexivity.
  - apply (vget_In v b vms S) in I. congruence.
Qed.
Lemma mloads_search : forall nv h sid x n v b, In (sid, x) (mloads nv h) -> node_in n (mm_root x) -> In (v, b) (m_vms n) ->
  exists i, get_matcher (m_vms n) v = Ok (i, m_vms n) /\ nth_error (m_vms n) i = Some (v, b).
Proof. intros nv h sid x n v b I J K. apply search_finds; [|exact K]. exact (mloads_sorted _ _ _ _ I _ J). Qed.
Lemma mloads_insert : forall nv h sid x n v, In (sid, x) (mloads nv h) -> node_in n (mm_root x) ->
  (forall b, ~ In (v, b) (m_vms n)) -> exists i l, get_matcher (m_vms n) v = Ok (i, l) /\
    nth_error l i = Some (v, new_body v) /\ firstn i l ++ skipn (S i) l = m_vms n /\
    vms_sorted l.
Proof.
  intros nv h sid x n v I J K. assert (S : vms_sorted (m_vms n)) by exact (mloads_sorted _ _ _ _ I _ J).
  destruct (get_matcher_ok v (m_vms n) S) as (a & c & b' & (i & E & ->) & SX & [V|(V & X & N)]).
  - exfalso. apply (K b'). rewrite V. apply in_app_iff. right. left. reflexivity.
  - exists (length a), (a ++ (v, b') :: c). rewrite X in *.
    split; [exact E|]. split; [rewrite nth_error_app2, Nat.sub_diag by lia; reflexivity|]. split; [|exact (SX _)].
    rewrite firstn_app, Nat.sub_diag, firstn_all, app_nil_r. rewrite skipn_app, skipn_all2 by lia. replace (Datatypes.S (length a) - length a) with 1 by lia. cbn [skipn app]. symmetry. exact V.
Qed.
Lemma c37 : forall nv h sid x n, In (sid, x) (mloads nv h) -> node_in n (mm_root x) ->
  StronglySorted lt (map (fun vb => view_order (fst vb)) (m_vms n)).
Proof. intros nv h sid x n I J. exact (mloads_sorted _ _ _ _ I _ J). Qed.
