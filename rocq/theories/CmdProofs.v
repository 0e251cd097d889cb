(** pattern-make: what the loader counts, what the formatters print. *)
From Coq Require Import String.
From Verif Require Import PyStr Defs UrlLib ParseUtils Spec Views Trees Cluster Patterns Matcher Maker Format Cmd Observe PyStrProofs DefsProofs DictProofs PieceProofs BridgeProofs TreeProofs LoadProofs EntProofs MakeProofs PartProofs.
From Coq Require Import Lia Permutation.

(** ** strip *)
Lemma blank_space : forall b, blank_byte b = is_space b.
Proof.
  intros b. unfold blank_byte, is_space. apply Bool.eq_true_iff_eq. rewrite char_in_In, orb_true_iff, andb_true_iff, !N.leb_le, N.eqb_eq. cbn [In]. split.
  - intuition (subst; lia).
  - intros [H| ->]; [|tauto]. assert (b = 9 \/ b = 10 \/ b = 11 \/ b = 12 \/ b = 13)%N by lia. intuition.
Qed.
Lemma forallb_blank : forall l, forallb blank_byte l = forallb is_space l.
Proof. induction l as [|b l IH]; [reflexivity|]. cbn [forallb]. rewrite blank_space, IH. reflexivity. Qed.
Lemma lstrip_split : forall l, exists a, l = a ++ lstrip l /\ forallb is_space a = true /\ match lstrip l with [] => True | b :: _ => is_space b = false end.
Proof.
  intros l. induction l as [|b l IH]; [exists []; repeat split|]. destruct IH as (a & E & F & H). cbn [lstrip]. destruct (is_space b) eqn:S.
  - exists (b :: a). cbn [app forallb]. rewrite S, F. split; [f_equal; exact E|]. auto.
  - exists []. rewrite S. auto.
Qed.
Lemma forallb_rev : forall A (f : A -> bool) l, forallb f (rev l) = forallb f l.
Proof. intros A f l. apply Bool.eq_true_iff_eq. rewrite !forallb_forall. split; intros H x I; apply H; [apply (proj1 (in_rev _ _)); exact I|apply (proj2 (in_rev _ _)); exact I]. Qed.
Lemma rstrip_split : forall l, exists a, l = rstrip l ++ a /\ forallb is_space a = true /\ match rev (rstrip l) with [] => True | b :: _ => is_space b = false end.
Proof.
  intros l. destruct (lstrip_split (rev l)) as (a & E & F & H). exists (rev a). unfold rstrip. split; [|split; [rewrite forallb_rev; exact F|rewrite rev_involutive; exact H]].
  rewrite <- rev_app_distr, <- E, rev_involutive. reflexivity.
Qed.
Lemma strip_split : forall l, exists a b, l = a ++ strip l ++ b /\ forallb blank_byte (a ++ b) = true /\
  match strip l with [] => True | x :: _ => blank_byte x = false end /\ match rev (strip l) with [] => True | x :: _ => blank_byte x = false end.
Proof.
  intros l. unfold strip. destruct (lstrip_split l) as (a & E1 & F1 & H1). destruct (rstrip_split (lstrip l)) as (b & E2 & F2 & H2). exists a, b.
  split; [rewrite E1 at 1; f_equal; exact E2|]. split; [rewrite forallb_blank, forallb_app; apply andb_true_intro; split; [exact F1|exact F2]|]. split.
  - destruct (rstrip (lstrip l)) as [|x r] eqn:E; [exact Logic.I|]. rewrite E2 in H1. cbn [app] in H1. rewrite blank_space. exact H1.
  - destruct (rev (rstrip (lstrip l))) as [|x r]; [exact Logic.I|]. rewrite blank_space. exact H2.
Qed.
Lemma strip_nil : forall l, strip l = [] <-> forallb blank_byte l = true.
Proof.
  intros l. destruct (strip_split l) as (a & b & E & F & H & _). split.
  - intros Z. rewrite Z in E. rewrite E. exact F.
  - intros B. destruct (strip l) as [|x r]; [reflexivity|]. exfalso. rewrite E in B. rewrite forallb_app in B. apply andb_true_iff in B. destruct B as [_ B]. cbn [app forallb] in B.
    apply andb_true_iff in B. destruct B as [B _]. congruence.
Qed.

(** ** C36 *)
Lemma accepted_app : forall nv a b, accepted nv (a ++ b) = accepted nv a ++ accepted nv b.
Proof. intros. unfold accepted. apply flat_map_app. Qed.
Lemma loaded_snoc : forall nv h url me m raw, url_path nv url = Some (m, raw) ->
  length (loaded nv (h ++ [(url, me)])) = length (loaded nv h) + (if in_dec mp_dec (m, map piece_of raw) (loaded nv h) then 0 else 1).
Proof.
  intros nv h url me m raw U. unfold loaded. rewrite accepted_app, map_app. assert (E : accepted nv [(url, me)] = [(m, raw, me)]) by (unfold accepted; cbn [flat_map fst snd]; rewrite U; reflexivity).
  rewrite E. cbn [map fst snd]. generalize (map (fun e : url_meta * list str * option str => (fst (fst e), map piece_of (snd (fst e)))) (accepted nv h)). clear. intros l.
  set (x := (m, map piece_of raw)). clearbody x. destruct (in_dec mp_dec x (nodup mp_dec l)) as [I|N].
  - rewrite Nat.add_0_r. apply Permutation_length. apply NoDup_Permutation; try apply NoDup_nodup. intros y. rewrite !nodup_In, in_app_iff. cbn [In]. apply nodup_In in I. intuition (subst; auto).
  - transitivity (length (x :: nodup mp_dec l)); [|cbn [length]; lia]. apply Permutation_length. apply NoDup_Permutation; [apply NoDup_nodup|constructor; [exact N|apply NoDup_nodup]|].
    intros y. cbn [In]. rewrite !nodup_In, in_app_iff. cbn [In]. tauto.
Qed.
Definition stats_of (nv : str -> bool) (wm : bool) (lines : list str) : mstats :=
  ST (Z.of_nat (length lines))
     (Z.of_nat (length (filter (fun l => is_blank (kind_of_line nv l)) lines)))
     (Z.of_nat (length (loaded nv (line_loads nv wm lines))))
     (Z.of_nat (length (line_loads nv wm lines)))
     (Z.of_nat (length (filter (fun l => is_bad (kind_of_line nv l)) lines))).
Lemma line_loads_app : forall nv wm a b, line_loads nv wm (a ++ b) = line_loads nv wm a ++ line_loads nv wm b.
Proof. intros. unfold line_loads. apply flat_map_app. Qed.
Lemma make_load_ok : forall nv wm lines, make_load nv wm lines = (loads nv (line_loads nv wm lines), stats_of nv wm lines).
Proof.
  intros nv wm lines. induction lines as [|line lines IH] using rev_ind; [reflexivity|].
  unfold make_load in *. rewrite fold_left_app, IH. cbn [fold_left]. unfold make_line, stats_of. rewrite line_loads_app, !filter_app, !app_length.
  cbn [filter]. set (h := line_loads nv wm lines). unfold line_loads at 1 2 3. cbn [flat_map]. rewrite app_nil_r.
  assert (K : kind_of_line nv line = match strip line with [] => LBlank | _ => match utf8_decode (strip line) with Ok url => match url_path nv url with Some _ => LUrl url | None => LBad end | Err _ => LBad end end).
  { unfold kind_of_line. destruct (forallb blank_byte line) eqn:B.
    - apply strip_nil in B. rewrite B. reflexivity.
    - destruct (strip line) eqn:S; [|reflexivity]. apply strip_nil in S. congruence. }
  rewrite K. destruct (strip line) as [|b r]; [cbn [is_blank is_bad length]; rewrite app_nil_r; f_equal; f_equal; lia|]. set (sl := b :: r). clearbody sl. clear K b r.
  destruct (utf8_decode sl) as [url|e].
  2:{ cbn [is_blank is_bad length]. rewrite app_nil_r. f_equal. f_equal; lia. }
  pose proof (c15_new nv h url (if wm then Some url else None)) as N. destruct (load nv (loads nv h) url (if wm then Some url else None)) as [st' o] eqn:EL.
  destruct (url_path nv url) as [[m raw]|] eqn:U.
  - cbn [is_blank is_bad length snd] in *. rewrite loads_snoc, EL. cbn [fst]. rewrite (loaded_snoc nv h url _ m raw U).
    assert (D : In (m, map piece_of raw) (loaded nv h) <-> exists me, In (m, raw, me) (accepted nv h)).
    { rewrite in_loaded. split.
      - intros (raw' & me & A & E). exists me. assert (raw = raw'); [|congruence]. pose proof (url_path_parse _ _ _ _ U) as (_ & L & _). apply in_accepted in A. destruct A as (url' & _ & A). pose proof (url_path_parse _ _ _ _ A) as (_ & L' & _). apply pieces_inj; assumption.
      - intros (me & A). exists raw, me. auto. }
    destruct N as [[-> N]|[-> N]]; destruct (in_dec mp_dec (m, map piece_of raw) (loaded nv h)) as [I|I]; try (exfalso; tauto); f_equal; f_equal; lia.
  - destruct N as [e N]. cbn [snd] in N. subst o. cbn [is_blank is_bad length]. rewrite app_nil_r. f_equal; [|f_equal; lia].
    pose proof (c17_maker nv (loads nv h) url (if wm then Some url else None) e) as X. rewrite EL in X. exact (X eq_refl).
Qed.
Lemma lines_count : forall nv wm lines, length lines = length (filter (fun l => is_blank (kind_of_line nv l)) lines) + length (line_loads nv wm lines) + length (filter (fun l => is_bad (kind_of_line nv l)) lines).
Proof.
  intros nv wm lines. induction lines as [|l lines IH]; [reflexivity|]. unfold line_loads in *. cbn [length filter flat_map]. rewrite app_length. destruct (kind_of_line nv l); cbn [is_blank is_bad length]; lia.
Qed.
Lemma nodup_length : forall A (dec : forall a b : A, {a = b} + {a <> b}) l, length (nodup dec l) <= length l.
Proof. intros. apply NoDup_incl_length; [apply NoDup_nodup|]. intros x I. apply nodup_In in I. exact I. Qed.
Lemma loaded_le : forall nv h, length (loaded nv h) <= length h.
Proof.
  intros. unfold loaded. etransitivity; [apply nodup_length|]. rewrite map_length. unfold accepted. induction h as [|x h IH]; [cbn; lia|]. cbn [flat_map length]. rewrite app_length. destruct (url_path nv (fst x)) as [[? ?]|]; cbn [length]; lia.
Qed.
Lemma loaded_makers : forall nv h, Z.of_nat (length (loaded nv h)) = zsum (map (fun sm => t_cnt (mk_root (snd sm))) (loads nv h)).
Proof.
  intros nv h. destruct (c19 nv h 2 ltac:(lia)) as (cs & E). pose proof (c20 nv h 2 cs ltac:(lia) E) as P1. destruct (make_ok nv h 2 cs ltac:(lia) E) as [P2 _].
  apply Permutation_length in P1. apply Permutation_length in P2. rewrite <- P1.
  assert (X : length (flat_map (fun mt : url_meta * tree => map (fun nodes => (fst mt, path_pieces nodes)) (paths (snd mt))) cs) = length (flat_map (fun mt : url_meta * tree => map (pair (fst mt)) (ents (snd mt))) cs)).
  { clear. induction cs as [|x cs IH]; [reflexivity|]. cbn [flat_map]. rewrite !app_length, IH, !map_length. unfold ents. rewrite map_length. reflexivity. }
  rewrite X, P2. clear.
  assert (F : forall l, incl l (loads nv h) -> Z.of_nat (length (flat_map (fun sm : str * maker => map (pair (mk_meta (snd sm))) (ents (mk_root (snd sm)))) l)) = zsum (map (fun sm => t_cnt (mk_root (snd sm))) l)).
  { induction l as [|[sid mk] l IH]; intros I; [reflexivity|]. cbn [flat_map map]. rewrite app_length, Nat2Z.inj_add, IH by (intros x Ix; apply I; right; exact Ix). unfold zsum. cbn [fold_right snd]. f_equal.
    assert (IM : In (sid, mk) (loads nv h)) by (apply I; left; reflexivity). rewrite (c15_root nv h sid mk IM). destruct (maker_facts nv h sid mk IM) as (raw0 & MF).
    pose proof (Permutation_length (mf_pcs _ _ _ _ _ MF)) as PL. rewrite !map_length in PL. rewrite map_length, PL. reflexivity. }
  apply F. intros x I. exact I.
Qed.
Lemma c36 : forall nv wm lines st a e uq v i, make_load nv wm lines = (st, ST a e uq v i) ->
  st = loads nv (line_loads nv wm lines) /\
  a = Z.of_nat (length lines) /\ e = Z.of_nat (length (filter (fun l => is_blank (kind_of_line nv l)) lines)) /\
  i = Z.of_nat (length (filter (fun l => is_bad (kind_of_line nv l)) lines)) /\
  v = Z.of_nat (length (line_loads nv wm lines)) /\ (a = e + v + i)%Z /\ (uq <= v)%Z /\
  uq = Z.of_nat (length (loaded nv (line_loads nv wm lines))) /\
  uq = zsum (map (fun sm => t_cnt (mk_root (snd sm))) st).
Proof.
  intros nv wm lines st a e uq v i H. rewrite make_load_ok in H. inversion H; subst; clear H. pose proof (lines_count nv wm lines). pose proof (loaded_le nv (line_loads nv wm lines)).
  rewrite <- loaded_makers. repeat split; lia.
Qed.

(** ** C34 *)
Definition leaf_metas (nodes : list tree) : list str := match t_meta (path_leaf nodes) with Some l => l | None => [] end.
Lemma metas_leaf : forall root, metas root = flat_map leaf_metas (paths root).
Proof.
  intros root. unfold metas. assert (X : forall l, flat_map (fun nodes => match rev nodes with n :: _ => match t_meta n with Some l => l | None => [] end | [] => [] end) l = flat_map leaf_metas l).
  { induction l as [|nodes l IH]; [reflexivity|]. cbn [flat_map]. rewrite IH. f_equal. unfold leaf_metas, path_leaf. destruct (rev nodes) as [|n r] eqn:E.
    - apply (f_equal (@rev tree)) in E. rewrite rev_involutive in E. subst. reflexivity.
    - apply (f_equal (@rev tree)) in E. rewrite rev_involutive in E. cbn [rev] in E. rewrite E, last_last. reflexivity. }
  apply X.
Qed.
Lemma NoDup_flat_map_pairs : forall A B C (k : A -> B) (f : A -> list C) l, NoDup (map k l) -> (forall x, In x l -> NoDup (f x)) -> NoDup (flat_map (fun x => map (pair (k x)) (f x)) l).
Proof.
  induction l as [|x l IH]; intros ND F; [constructor|]. cbn [map flat_map] in *. inversion ND as [|? ? N1 N2]; subst. apply NoDup_app_intro.
  - apply FinFun.Injective_map_NoDup; [intros a b E; inversion E; reflexivity|]. apply F. left. reflexivity.
  - apply IH; [exact N2|]. intros y I. apply F. right. exact I.
  - intros y I J. apply in_map_iff in I. destruct I as (c & <- & I). apply in_flat_map in J. destruct J as (z & J & K). apply in_map_iff in K. destruct K as (c' & E & K). inversion E. apply N1. rewrite <- H0. apply in_map. exact J.
Qed.
Lemma c34 : forall nv h mcn cs m t, (2 <= mcn)%Z -> make mcn (loads nv h) = Ok cs -> In (m, t) cs ->
  exists Ps pairs, (forall nodes, In nodes (paths t) -> path_patterns nodes = Ps) /\
    NoDup pairs /\
    (forall ks x, In (ks, x) pairs <-> exists nodes raw, In nodes (paths t) /\ path_pieces nodes = ks /\
        Forall (Forall legal) raw /\ ks = map piece_of raw /\ In (m, raw, Some x) (accepted nv h)) /\
    fmt_pattern m t = [pack m Ps] /\
    fmt_cluster m t = pack m Ps :: map (fun kx => 9%N :: snd kx) pairs /\
    fmt_inline m t = Ok (map (fun kx => pack m Ps ++ 9%N :: snd kx) pairs) /\
    fmt_json m t = [u "{" ++ json_str (u "ptn") ++ u ": " ++ json_str (pack m Ps) ++ u ", "
       ++ json_str (u "cnt") ++ u ": " ++ dec_str (N.of_nat (length (paths t))) ++ u "}"].
Proof.
  intros nv h mcn cs m t M E I. destruct (cluster_path nv h mcn cs m t M E I) as (Ps & sid & mk & _ & IM & EM & PP & PR & _ & LF & ND & CN & _).
  destruct (c20_count nv h mcn cs m t M E I) as [_ NN].
  set (pairs := flat_map (fun nodes => map (pair (path_pieces nodes)) (leaf_metas nodes)) (paths t)).
  assert (MET : metas t = map snd pairs).
  { rewrite metas_leaf. unfold pairs. rewrite map_flat_map. apply flat_map_ext. intros nodes. rewrite map_map. cbn [snd]. rewrite map_id. reflexivity. }
  assert (LM : forall nodes, In nodes (paths t) -> NoDup (leaf_metas nodes) /\ forall raw x, Forall (Forall legal) raw -> path_pieces nodes = map piece_of raw -> (In x (leaf_metas nodes) <-> In (m, raw, Some x) (accepted nv h))).
  { intros nodes IN. destruct (PR nodes IN) as (raw & EP & LR & IR & _).
    assert (LR' : Forall (Forall legal) raw) by (eapply Forall_impl; [|exact LR]; intros a Ha; apply all_legal_iff; exact Ha).
    destruct (c20_meta nv h mcn cs m t nodes raw M E I IN LR' EP) as [_ X]. unfold leaf_metas.
    assert (U : forall raw2, Forall (Forall legal) raw2 -> path_pieces nodes = map piece_of raw2 -> raw2 = raw).
    { intros raw2 L2 E2. apply pieces_inj; [|exact LR|congruence]. eapply Forall_impl; [|exact L2]; intros a Ha; apply all_legal_iff; exact Ha. }
    destruct (t_meta (path_leaf nodes)) as [l|].
    - destruct X as (_ & N & X). split; [exact N|]. intros raw2 x L2 E2. rewrite (U raw2 L2 E2). apply X.
    - split; [constructor|]. intros raw2 x L2 E2. rewrite (U raw2 L2 E2). split; [intros []|apply X]. }
  exists Ps, pairs. split; [exact PP|]. split; [|split].
  - unfold pairs. apply NoDup_flat_map_pairs; [exact ND|]. intros nodes IN. apply (LM nodes IN).
  - intros ks x. unfold pairs. rewrite in_flat_map. split.
    + intros (nodes & IN & J). apply in_map_iff in J. destruct J as (y & EQ & J). inversion EQ; subst. destruct (PR nodes IN) as (raw & EP & LR & _).
      assert (LR' : Forall (Forall legal) raw) by (eapply Forall_impl; [|exact LR]; intros a Ha; apply all_legal_iff; exact Ha).
      exists nodes, raw. split; [exact IN|]. split; [reflexivity|]. split; [exact LR'|]. split; [exact EP|]. apply (LM nodes IN); assumption.
    + intros (nodes & raw & IN & <- & LR & EP & A). exists nodes. split; [exact IN|]. apply in_map_iff. exists x. split; [reflexivity|]. apply (LM nodes IN) with (raw := raw); assumption.
  - assert (FP : fmt_pattern m t = [pack m Ps]). { unfold fmt_pattern. pose proof (PP) as Q. destruct (paths t) as [|n l]; [congruence|]. rewrite <- (Q n (or_introl eq_refl)). reflexivity. }
    split; [exact FP|]. split; [|split].
    + unfold fmt_cluster. rewrite FP, MET, map_map. reflexivity.
    + unfold fmt_inline. rewrite FP. cbn [rev app]. rewrite MET, map_map. reflexivity.
    + unfold fmt_json. rewrite CN. pose proof (PP) as Q. destruct (paths t) as [|n l] eqn:EQ; [congruence|]. rewrite <- (Q n (or_introl eq_refl)).
      unfold json_int. destruct (Z.ltb_spec (Z.of_nat (length (n :: l))) 0); [lia|]. rewrite <- nat_N_Z, N2Z.id. reflexivity.
Qed.
Lemma c34_run : forall nv mcn f lines, (2 <= mcn)%Z -> exists out, make_run nv mcn f lines = Ok out.
Proof.
  intros nv mcn f lines M. unfold make_run. rewrite make_load_ok. cbn [fst]. unfold make_process. destruct (c19 nv (line_loads nv (wants_url f) lines) mcn M) as (cs & E). rewrite E. cbn [bind].
  destruct (mapM_all _ _ (fun mt : url_meta * tree => pformat f (fst mt) (snd mt)) cs) as (ys & EY & _); [|rewrite EY; cbn [bind]; eauto].
  intros [m t] I. cbn [fst snd]. destruct f; cbn [pformat]; eauto. destruct (c34 nv _ mcn cs m t M E I) as (Ps & pairs & _ & _ & _ & _ & _ & X & _). eauto.
Qed.
