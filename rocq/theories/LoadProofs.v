(** Loading into a Maker and a PatternMaker. *)
From Coq Require Import String.
From Verif Require Import PyStr Defs UrlLib ParseUtils Spec Trees Observe Patterns Matcher Maker
  PyStrProofs DefsProofs PieceProofs UrlProofs DigestProofs TreeProofs DictProofs.
From Coq Require Import Lia Permutation.

Definition path_dec : forall a b : list str, {a = b} + {a <> b} := list_eq_dec str_dec.
Definition ndcount (p : list str -> bool) (l : list (list str)) : Z :=
  Z.of_nat (length (filter p (nodup path_dec l))).

Lemma filter_perm : forall A (p : A -> bool) l l', Permutation l l' -> length (filter p l) = length (filter p l').
Proof.
  intros A p l l' H. induction H; cbn [filter]; try destruct (p x); try destruct (p y); cbn [length]; congruence.
Qed.
Lemma ndcount_ext : forall p l l', (forall x, In x l <-> In x l') -> ndcount p l = ndcount p l'.
Proof.
  intros p l l' H. unfold ndcount. f_equal. apply filter_perm. apply NoDup_Permutation; try apply NoDup_nodup.
  intros x. rewrite !nodup_In. apply H.
Qed.
Lemma ndcount_snoc : forall p l x,
  ndcount p (l ++ [x]) =
  (ndcount p l + if in_dec path_dec x l then 0 else if p x then 1 else 0)%Z.
Proof.
  intros p l x. rewrite (ndcount_ext p (l ++ [x]) (x :: l)).
  - unfold ndcount. cbn [nodup]. destruct (in_dec path_dec x l); [lia|]. cbn [filter].
    destruct (p x); cbn [length]; lia.
  - intros y. rewrite in_app_iff. cbn. tauto.
Qed.

(** the metas loaded with a path *)
Definition path_metas (ks : list str) (E : list (list str * option str)) : list str :=
  flat_map (fun e => if path_dec (fst e) ks then match snd e with Some x => [x] | None => [] end else []) E.
Definition meta_set (l : list str) : option (list str) :=
  match l with [] => None | _ => Some (sorted_set l) end.

Lemma prefixb_refl : forall ks, prefixb ks ks = true.
Proof. induction ks as [|k ks IH]; [reflexivity|]. cbn. rewrite str_eqb_refl. exact IH. Qed.
Lemma prefixb_eq : forall a b, prefixb a b = true -> length a = length b -> a = b.
Proof.
  induction a as [|x a IH]; intros [|y b] H L; try discriminate; [reflexivity|].
  cbn in H. apply andb_true_iff in H. destruct H as [H1 H2]. apply str_eqb_eq in H1. subst.
  f_equal. apply IH; [exact H2|]. injection L. auto.
Qed.

Record tree_ok (Ps : list (parsed_piece -> Prop)) (E : list (list str * option str)) (t : tree) : Prop := {
  ok_wft : E <> [] -> wft (length Ps) t;
  ok_new : E = [] -> t = new_root;
  ok_vals : vals_ok Ps t;
  ok_cnt : forall ks, cnt_at t ks = ndcount (prefixb ks) (map fst E);
  ok_node : forall ks, ks <> [] -> (node_at t ks <> None <-> exists e, In e E /\ prefixb ks (fst e) = true);
  ok_meta : forall ks, length ks = length Ps -> ks <> [] -> meta_at t ks = meta_set (path_metas ks E)
}.
Lemma tree_ok_nil : forall Ps, tree_ok Ps [] new_root.
Proof.
  intros Ps. constructor.
  - congruence.
  - reflexivity.
  - apply vals_ok_leaf. reflexivity.
  - intros [|k ks]; reflexivity.
  - intros [|k ks] H; [congruence|]. cbn. split; [congruence|]. intros (e & [] & _).
  - intros [|k ks] _ H; [congruence|]. reflexivity.
Qed.

Lemma path_metas_app : forall ks E E', path_metas ks (E ++ E') = path_metas ks E ++ path_metas ks E'.
Proof. intros. unfold path_metas. apply flat_map_app. Qed.
Lemma set_snoc : forall l x, sorted_set (l ++ [x]) = set_insert x (sorted_set l).
Proof.
  intros l x. change (set_insert x (sorted_set l)) with (sorted_set (x :: l)).
  apply sorted_set_ext. intros y. rewrite in_app_iff. cbn. tauto.
Qed.
Lemma meta_set_snoc : forall l m, meta_set (l ++ match m with Some x => [x] | None => [] end) = add_meta m (meta_set l).
Proof.
  intros l [x|]; cbn [add_meta].
  - assert (H : meta_set (l ++ [x]) = Some (sorted_set (l ++ [x]))) by (destruct l; reflexivity).
    rewrite H, set_snoc. destruct l; reflexivity.
  - rewrite app_nil_r. reflexivity.
Qed.

Lemma tree_load : forall Ps E t pps meta,
  Ps <> [] -> (forall e, In e E -> length (fst e) = length Ps) ->
  tree_ok Ps E t -> Forall2 (fun (P : parsed_piece -> Prop) p => P p) Ps pps ->
  let ks := map piece pps in
  exists t', build_from_parsed_pieces t pps 1 meta true
             = Ok (t', if in_dec path_dec ks (map fst E) then false else true)
    /\ tree_ok Ps (E ++ [(ks, meta)]) t'.
Proof.
  intros Ps E t pps meta NE LE OK F ks. destruct OK as [O1 O2 O3 O4 O5 O6].
  assert (LP : length pps = length Ps) by (symmetry; eapply Forall2_length; exact F).
  assert (LK : length ks = length Ps) by (unfold ks; rewrite map_length; exact LP).
  assert (KN : ks <> []) by (destruct Ps; [congruence|]; destruct ks; [discriminate|congruence]).
  set (kvs := map (fun p => (p, @None str)) pps).
  assert (KV : map (fun kv : parsed_piece * option str => piece (fst kv)) kvs = ks)
    by (unfold kvs, ks; rewrite map_map; reflexivity).
  assert (KL : length kvs = length Ps) by (unfold kvs; rewrite map_length; exact LP).
  assert (KVN : kvs <> []) by (intros Z; rewrite Z in KL; destruct Ps; [congruence|discriminate]).
  assert (INE : node_at t ks <> None <-> In ks (map fst E)).
  { rewrite (O5 ks KN), in_map_iff. split.
    - intros (e & H1 & H2). exists e. split; [|exact H1]. symmetry. apply prefixb_eq; [exact H2|].
      rewrite LK. symmetry. apply LE. exact H1.
    - intros (e & H1 & H2). exists e. split; [exact H2|]. rewrite H1. apply prefixb_refl. }
  unfold build_from_parsed_pieces. fold kvs. change (map piece pps) with ks.
  pose proof (build_new (add_meta meta) 1 kvs t None KVN) as BN. rewrite KV in BN.
  destruct (build t kvs 1 (add_meta meta) None) as [t1 n1] eqn:B. cbn [snd] in BN. subst n1.
  assert (T1 : t1 = fst (build t kvs 1 (add_meta meta) None)) by (rewrite B; reflexivity).
  pose proof (node_at_build (add_meta meta) 1 kvs t None) as NB. rewrite KV, KL, <- T1 in NB.
  assert (FV : Forall2 (fun (P : parsed_piece -> Prop) (kv : parsed_piece * option str) => P (fst kv)) Ps kvs).
  { unfold kvs. clear -F. induction F; cbn [map]; constructor; auto. }
  assert (NODE : forall k0, k0 <> [] ->
     ((node_at t k0 <> None \/ prefixb k0 ks = true) <->
      exists e, In e (E ++ [(ks, meta)]) /\ prefixb k0 (fst e) = true)).
  { intros k0 H0. rewrite (O5 k0 H0). split.
    - intros [(e & H1 & H2)|H].
      + exists e. rewrite in_app_iff. auto.
      + exists (ks, meta). rewrite in_app_iff. cbn. auto.
    - intros (e & H1 & H2). apply in_app_or in H1. destruct H1 as [H1|[H1|[]]].
      + left. exists e. auto.
      + subst e. right. exact H2. }
  assert (META : forall k0, length k0 = length Ps -> k0 <> [] ->
     meta_set (path_metas k0 (E ++ [(ks, meta)])) =
     (if prefixb k0 ks && (length k0 =? length Ps) then add_meta meta (meta_at t k0) else meta_at t k0)).
  { intros k0 L0 N0. rewrite path_metas_app, (O6 k0 L0 N0). cbn [path_metas flat_map fst snd].
    rewrite app_nil_r. rewrite L0, Nat.eqb_refl, andb_true_r. destruct (path_dec ks k0) as [D|D].
    - subst k0. rewrite prefixb_refl. apply meta_set_snoc.
    - destruct (prefixb k0 ks) eqn:Q.
      + exfalso. apply D. symmetry. apply prefixb_eq; [exact Q|congruence].
      + rewrite app_nil_r. reflexivity. }
  destruct (in_dec path_dec ks (map fst E)) as [IN|NI].
  - (* already there *)
    assert (N : node_at t ks <> None) by (apply INE; exact IN).
    destruct (node_at t ks) as [n|] eqn:NA; [|congruence]. cbn [negb andb].
    exists (upd_meta t ks (add_meta meta)). split.
    + rewrite T1. rewrite <- KV. change (Z.opp 1) with (- (1))%Z. rewrite incr_build; [reflexivity|].
      rewrite KV, NA. discriminate.
    + assert (EN : E <> []) by (intros Z; subst; destruct IN).
      constructor.
      * intros _. apply upd_meta_wft. auto.
      * intros Z. destruct E; discriminate.
      * apply upd_meta_vals. exact O3.
      * intros k0. destruct (upd_meta_at (add_meta meta) ks t k0) as (U & _ & _).
        rewrite U, O4, map_app. cbn [map fst]. rewrite ndcount_snoc.
        destruct (in_dec path_dec ks (map fst E)); [lia|contradiction].
      * intros k0 H0. destruct (upd_meta_at (add_meta meta) ks t k0) as (_ & _ & U).
        rewrite <- (NODE k0 H0). split.
        -- intros H. left. intros Z. apply H. apply U. exact Z.
        -- intros [H|H].
           ++ intros Z. apply H. apply U. exact Z.
           ++ assert (H' : node_at t k0 <> None).
              { apply (O5 k0 H0). apply in_map_iff in IN. destruct IN as (e & I1 & I2).
                exists e. rewrite I1. auto. }
              intros Z. apply H'. apply U. exact Z.
      * intros k0 L0 N0. destruct (upd_meta_at (add_meta meta) ks t k0) as (_ & U & _).
        rewrite U, (META k0 L0 N0), LK.
        destruct (prefixb k0 ks) eqn:Q; [|reflexivity]. cbn [andb].
        rewrite L0, Nat.eqb_refl. cbn [andb].
        assert (k0 = ks) by (apply prefixb_eq; congruence). subst k0. rewrite NA. reflexivity.
  - assert (N : node_at t ks = None).
    { destruct (node_at t ks) eqn:NA; [|reflexivity]. exfalso. apply NI, INE. congruence. }
    rewrite N. cbn [negb andb]. exists t1. split; [reflexivity|]. constructor.
    + intros _. rewrite T1, <- KL. apply build_wft; [lia|]. rewrite KL.
      destruct E as [|e E]; [right|left; apply O1; discriminate]. rewrite (O2 eq_refl). split; reflexivity.
    + intros Z. destruct E; discriminate.
    + rewrite T1. apply build_vals; assumption.
    + intros k0. destruct (NB k0) as (U & _ & _). rewrite U, O4, map_app. cbn [map fst].
      rewrite ndcount_snoc. destruct (in_dec path_dec ks (map fst E)); [contradiction|]. reflexivity.
    + intros k0 H0. destruct (NB k0) as (_ & _ & U). rewrite <- (NODE k0 H0).
      destruct (prefixb k0 ks) eqn:C.
      * split; [intros _; right; reflexivity|]. intros _ Z. apply U in Z. destruct Z as [_ Z]. discriminate.
      * split.
        -- intros H. left. intros Z. apply H, U. auto.
        -- intros [H|H]; [|discriminate]. intros Z. apply H, U, Z.
    + intros k0 L0 N0. destruct (NB k0) as (_ & U & _). rewrite U, (META k0 L0 N0). reflexivity.
Qed.

(** ** PatternMaker.load *)
Lemma url_path_parse : forall nv url m raw, url_path nv url = Some (m, raw) ->
  analyze_url nv url = Ok (m, raw) /\ Forall all_legal raw /\
  parse nv url = Ok (m, PUrl (map pp_of raw)).
Proof.
  intros nv url m raw H. unfold url_path in H. change (u "/") with [SLASH] in H.
  unfold parse. destruct (startswith url [SLASH]); [discriminate|].
  destruct (analyze_url nv url) as [[m' raw']|e]; [|discriminate].
  destruct (forallb (forallb (fun c => char_in c legal_chars)) raw') eqn:L; [|discriminate]. inversion H; subst.
  assert (A : Forall all_legal raw).
  { apply Forall_forall. intros s Hs. rewrite forallb_forall in L. specialize (L s Hs).
    apply all_legal_iff, Forall_forall. intros c Hc. rewrite forallb_forall in L. apply char_in_In. auto. }
  split; [reflexivity|]. split; [exact A|]. cbn [bind].
  rewrite (proj2 (mapM_ok _ _ piece_parse raw (map pp_of raw))); [reflexivity|].
  clear -A. induction A; cbn [map]; constructor; auto. apply piece_parse_legal. assumption.
Qed.
Lemma url_path_none : forall nv url, url_path nv url = None ->
  (exists e, parse nv url = Err e) \/ (exists m ms, parse nv url = Ok (m, PPat ms)).
Proof.
  intros nv url H. unfold url_path in H. change (u "/") with [SLASH] in H.
  unfold parse. destruct (startswith url [SLASH]).
  - destruct (analyze_url_pattern_string url) as [[m ps]|e]; cbn [bind]; [|eauto].
    destruct (mk_patterns 1 (path_depth m) ps) as [ms|e]; cbn [bind]; eauto.
  - destruct (analyze_url nv url) as [[m raw]|e]; cbn [bind]; [|eauto]. left.
    destruct (forallb (forallb (fun c => char_in c legal_chars)) raw) eqn:L; [discriminate|].
    destruct (mapM piece_parse raw) as [l|e] eqn:M; cbn [bind]; [|eauto]. exfalso.
    apply mapM_ok in M. assert (X : forallb (forallb (fun c => char_in c legal_chars)) raw = true).
    { clear -M. induction M as [|x y l l' H F IH]; cbn [forallb]; [reflexivity|].
      apply piece_parse_iff in H. destruct H as [H _]. apply all_legal_iff in H.
      rewrite IH, andb_true_r. apply forallb_forall. intros c Hc. apply char_in_In.
      rewrite Forall_forall in H. apply H. exact Hc. }
    congruence.
Qed.
Lemma digest_of_legal : forall m raw, Forall all_legal raw ->
  digest_of m raw = fuzzy_digest m (map fuzzy_rule (map pp_of raw)) /\ mapM piece_parse raw = Ok (map pp_of raw).
Proof.
  intros m raw A. assert (M : mapM piece_parse raw = Ok (map pp_of raw)).
  { apply mapM_ok. induction A; cbn [map]; constructor; auto. apply piece_parse_legal. assumption. }
  unfold digest_of. rewrite M. auto.
Qed.
Lemma piece_of_legal : forall raw, Forall all_legal raw -> map piece_of raw = map piece (map pp_of raw).
Proof.
  intros raw A. induction A; cbn [map]; [reflexivity|]. f_equal; [|assumption].
  unfold piece_of. rewrite piece_parse_legal by assumption. reflexivity.
Qed.
Lemma pieces_inj : forall a b, Forall all_legal a -> Forall all_legal b ->
  map piece_of a = map piece_of b -> a = b.
Proof.
  intros a b A B H. rewrite !piece_of_legal in H by assumption. revert b B H.
  induction A as [|x a Hx A IH]; intros [|y b] B H; try discriminate; [reflexivity|].
  inversion B; subst. injection H as E1 E2. f_equal; [|apply IH; assumption].
  apply (piece_inj x y); assumption.
Qed.
Lemma digest_iff : forall nv url1 url2 m1 raw1 m2 raw2,
  url_path nv url1 = Some (m1, raw1) -> url_path nv url2 = Some (m2, raw2) ->
  (digest_of m1 raw1 = digest_of m2 raw2 <-> m1 = m2 /\ Forall2 same_spaces raw1 raw2).
Proof.
  intros nv url1 url2 m1 raw1 m2 raw2 H1 H2.
  apply url_path_parse in H1. destruct H1 as (A1 & L1 & _). apply url_path_parse in H2. destruct H2 as (A2 & L2 & _).
  destruct (digest_of_legal m1 raw1 L1) as [D1 M1]. destruct (digest_of_legal m2 raw2 L2) as [D2 M2].
  rewrite D1, D2. eapply c14; eassumption.
Qed.
Lemma url_path_depth : forall nv url m raw, url_path nv url = Some (m, raw) -> length raw = depth m /\ raw <> [].
Proof.
  intros nv url m raw H. apply url_path_parse in H. destruct H as (A & _ & _). apply c09 in A.
  destruct A as (pp & vs & fr & E & _ & _ & _ & D & L & _). split; [exact D|].
  intros Z. subst raw. destruct pp; [inversion L|discriminate].
Qed.

(** the predicate for the values of each level *)
Definition level_val (r : str) (p : parsed_piece) : Prop :=
  exists s, all_legal s /\ p = pp_of s /\ fuzzy_rule p = fuzzy_rule (pp_of r).
Definition level_vals (raw : list str) : list (parsed_piece -> Prop) := map level_val raw.
Definition keyed (E : list (list str * option str)) : list (list str * option str) :=
  map (fun e => (map piece_of (fst e), snd e)) E.

Record maker_ok (nv : str -> bool) (sid : str) (h : list (str * option str)) (mk : maker) : Prop := {
  mo_url : exists url0 raw0, url_path nv url0 = Some (mk_meta mk, raw0) /\ digest_of (mk_meta mk) raw0 = sid
           /\ In url0 (map fst h) /\ tree_ok (level_vals raw0) (keyed (group nv sid h)) (mk_root mk)
}.
Definition st_ok (nv : str -> bool) (h : list (str * option str)) (st : state) : Prop :=
  NoDup (map fst st) /\
  forall sid, match dget str_eqb sid st with
              | None => group nv sid h = []
              | Some mk => group nv sid h <> [] /\ maker_ok nv sid h mk
              end.

Lemma accepted_app : forall nv h h', accepted nv (h ++ h') = accepted nv h ++ accepted nv h'.
Proof. intros. unfold accepted. apply flat_map_app. Qed.
Lemma group_snoc : forall nv sid h url meta, group nv sid (h ++ [(url, meta)]) =
  group nv sid h ++ match url_path nv url with
                    | Some (m, raw) => if str_eqb sid (digest_of m raw) then [(raw, meta)] else []
                    | None => []
                    end.
Proof.
  intros. unfold group. rewrite accepted_app, filter_app, map_app. f_equal. unfold accepted. cbn [flat_map fst snd].
  rewrite app_nil_r. destruct (url_path nv url) as [[m raw]|]; [|reflexivity]. cbn [filter fst snd].
  destruct (str_eqb sid (digest_of m raw)); reflexivity.
Qed.
Lemma in_accepted : forall nv h m raw meta, In (m, raw, meta) (accepted nv h) <->
  exists url, In (url, meta) h /\ url_path nv url = Some (m, raw).
Proof.
  intros nv h m raw meta. unfold accepted. rewrite in_flat_map. split.
  - intros ([url me] & H1 & H2). cbn [fst snd] in H2. destruct (url_path nv url) as [[m' raw']|] eqn:E; [|destruct H2].
    destruct H2 as [H2|[]]. inversion H2; subst. eauto.
  - intros (url & H1 & H2). exists (url, meta). split; [exact H1|]. cbn [fst snd]. rewrite H2. left. reflexivity.
Qed.
Lemma in_group : forall nv sid h raw meta, In (raw, meta) (group nv sid h) <->
  exists url m, In (url, meta) h /\ url_path nv url = Some (m, raw) /\ digest_of m raw = sid.
Proof.
  intros nv sid h raw meta. unfold group. rewrite in_map_iff. split.
  - intros ([[m r] me] & H1 & H2). cbn [fst snd] in H1. inversion H1; subst. apply filter_In in H2.
    destruct H2 as [H2 H3]. cbn [fst snd] in H3. apply str_eqb_eq in H3. apply in_accepted in H2.
    destruct H2 as (url & H4 & H5). exists url, m. auto.
  - intros (url & m & H1 & H2 & H3). exists (m, raw, meta). split; [reflexivity|]. apply filter_In.
    split; [apply in_accepted; eauto|]. cbn [fst snd]. apply str_eqb_eq. auto.
Qed.
Lemma level_vals_same : forall raw0 raw, Forall all_legal raw0 -> Forall all_legal raw ->
  Forall2 same_spaces raw0 raw -> Forall2 (fun (P : parsed_piece -> Prop) p => P p) (level_vals raw0) (map pp_of raw).
Proof.
  intros raw0 raw L0 L F. unfold level_vals. induction F; cbn [map]; constructor.
  - inversion L0; inversion L; subst. exists y. split; [assumption|]. split; [reflexivity|].
    symmetry. apply (fuzzy_rule_iff x y); auto using piece_parse_legal.
  - inversion L0; inversion L; subst. auto.
Qed.
Lemma same_spaces_refl : forall s, same_spaces s s.
Proof. intros s. split; intros x H; exists x; split; auto; right; right; right; reflexivity. Qed.

Lemma load_step : forall nv h st url meta, st_ok nv h st ->
  st_ok nv (h ++ [(url, meta)]) (fst (load nv st url meta)) /\
  match url_path nv url with
  | Some (m, raw) => snd (load nv st url meta)
      = Ok (if in_dec path_dec raw (map fst (group nv (digest_of m raw) h)) then false else true)
  | None => fst (load nv st url meta) = st /\ exists e, snd (load nv st url meta) = Err e
  end.
Proof.
  intros nv h st url meta [ND OK].
  assert (MONO : forall sid mk, maker_ok nv sid h mk ->
    group nv sid (h ++ [(url, meta)]) = group nv sid h -> maker_ok nv sid (h ++ [(url, meta)]) mk).
  { intros sid mk [(url0 & raw0 & X1 & X2 & X3 & X4)] G. constructor. exists url0, raw0.
    split; [exact X1|]. split; [exact X2|]. split; [rewrite map_app, in_app_iff; auto|]. rewrite G. exact X4. }
  destruct (url_path nv url) as [[m raw]|] eqn:U.
  - pose proof (url_path_parse _ _ _ _ U) as (A & L & P).
    destruct (url_path_depth _ _ _ _ U) as [DP NR].
    destruct (digest_of_legal m raw L) as [DG MP].
    unfold load. rewrite P.
    destruct (map pp_of raw) as [|p0 pps0] eqn:EPP; [destruct raw; [congruence|discriminate]|]. rewrite <- EPP.
    unfold parsed_digest. rewrite <- EPP in DG. rewrite <- DG. set (sid := digest_of m raw) in *.
    set (mk := match dget str_eqb sid st with Some mk => mk | None => MK m new_root end).
    assert (MK0 : exists raw0, mk_meta mk = m /\ Forall all_legal raw0 /\ Forall2 same_spaces raw0 raw /\
       (exists url0, url_path nv url0 = Some (m, raw0) /\ (In url0 (map fst h) \/ url0 = url)) /\ digest_of m raw0 = sid /\
       tree_ok (level_vals raw0) (keyed (group nv sid h)) (mk_root mk)).
    { specialize (OK sid). unfold mk. destruct (dget str_eqb sid st) as [mk0|].
      - destruct OK as [_ [(url0 & raw0 & X1 & X2 & X3 & X4)]].
        pose proof (digest_iff _ _ _ _ _ _ _ X1 U) as DI. fold sid in DI.
        destruct (proj1 DI X2) as [E F]. exists raw0. split; [exact E|].
        split; [apply url_path_parse in X1; apply X1|]. split; [exact F|]. rewrite E in *.
        split; [exists url0; auto|]. split; assumption.
      - exists raw. cbn [mk_meta mk_root]. split; [reflexivity|]. split; [exact L|]. split.
        + clear. induction raw; constructor; auto using same_spaces_refl.
        + split; [exists url; auto|]. split; [reflexivity|]. rewrite OK. apply tree_ok_nil. }
    destruct MK0 as (raw0 & MM & L0 & F & (url0 & U0 & IN0) & D0 & TK).
    assert (NP : level_vals raw0 <> []).
    { destruct raw0; [|discriminate]. destruct raw; [congruence|inversion F]. }
    assert (LE : forall e, In e (keyed (group nv sid h)) -> length (fst e) = length (level_vals raw0)).
    { intros e He. unfold keyed in He. apply in_map_iff in He. destruct He as ([r me] & E1 & E2). subst e. cbn [fst].
      apply in_group in E2. destruct E2 as (url1 & m1 & I1 & I2 & I3).
      pose proof (digest_iff _ _ _ _ _ _ _ I2 U) as DI. destruct (proj1 DI I3) as [_ G].
      unfold level_vals. rewrite !map_length. apply Forall2_length in G, F. congruence. }
    destruct (tree_load _ _ _ (map pp_of raw) meta NP LE TK (level_vals_same _ _ L0 L F)) as (t' & B & TK').
    unfold maker_load. rewrite B. cbn [fst snd].
    rewrite <- (piece_of_legal raw L) in TK' |- *.
    assert (KEY : keyed (group nv sid (h ++ [(url, meta)])) = keyed (group nv sid h) ++ [(map piece_of raw, meta)]).
    { rewrite group_snoc, U. fold sid. rewrite str_eqb_refl. unfold keyed. rewrite map_app. reflexivity. }
    split.
    + split; [apply dset_NoDup; [exact str_eqb_iff|exact ND]|]. intros sid'.
      destruct (str_dec sid' sid) as [->|NS].
      * rewrite dget_dset_same by exact str_eqb_iff. split.
        -- rewrite group_snoc, U. fold sid. rewrite str_eqb_refl. intros Z. apply app_eq_nil in Z. destruct Z; discriminate.
        -- constructor. cbn [mk_meta mk_root]. rewrite MM. exists url0, raw0. split; [exact U0|]. split; [exact D0|].
           split; [|rewrite KEY; exact TK']. rewrite map_app, in_app_iff. cbn [map fst In]. destruct IN0; auto.
      * rewrite dget_dset_other by (exact str_eqb_iff || exact NS).
        assert (G : group nv sid' (h ++ [(url, meta)]) = group nv sid' h).
        { rewrite group_snoc, U. fold sid. destruct (str_eqb_spec sid' sid); [congruence|]. apply app_nil_r. }
        specialize (OK sid'). destruct (dget str_eqb sid' st); rewrite G; [|exact OK].
        destruct OK as [O1 O2]. split; [exact O1|]. apply MONO; assumption.
    + f_equal. unfold keyed. rewrite map_map. cbn [fst].
      destruct (in_dec path_dec (map piece_of raw) _) as [I1|I1]; destruct (in_dec path_dec raw _) as [I2|I2]; try reflexivity; exfalso.
      * apply I2. apply in_map_iff in I1. destruct I1 as ([r me] & E1 & E2). cbn [fst] in E1.
        apply in_map_iff. exists (r, me). split; [|exact E2]. cbn [fst].
        apply in_group in E2. destruct E2 as (url1 & m1 & J1 & J2 & J3). apply url_path_parse in J2.
        apply pieces_inj; [apply J2|exact L|exact E1].
      * apply I1. apply in_map_iff in I2. destruct I2 as ([r me] & E1 & E2). cbn [fst] in E1. subst r.
        apply in_map_iff. exists (raw, me). auto.
  - assert (ST : fst (load nv st url meta) = st /\ exists e, snd (load nv st url meta) = Err e).
    { unfold load. destruct (url_path_none _ _ U) as [[e ->]|(m & ms & ->)].
      - split; [reflexivity|]. exists e. reflexivity.
      - destruct ms; (split; [reflexivity|eexists; reflexivity]). }
    split; [|exact ST]. destruct ST as [-> _]. split; [exact ND|]. intros sid.
    assert (G : group nv sid (h ++ [(url, meta)]) = group nv sid h) by (rewrite group_snoc, U; apply app_nil_r).
    specialize (OK sid). destruct (dget str_eqb sid st); rewrite G; [|exact OK].
    destruct OK as [O1 O2]. split; [exact O1|]. apply MONO; assumption.
Qed.
Lemma loads_snoc : forall nv h url meta, loads nv (h ++ [(url, meta)]) = fst (load nv (loads nv h) url meta).
Proof. intros. unfold loads. rewrite fold_left_app. reflexivity. Qed.
Lemma loads_ok : forall nv h, st_ok nv h (loads nv h).
Proof.
  intros nv h. induction h as [|[url meta] h IH] using rev_ind.
  - split; [constructor|]. intros sid. reflexivity.
  - rewrite loads_snoc. apply load_step. exact IH.
Qed.

(** ** Observations *)
Lemma nodup_map_inj : forall (f : list str -> list str) l,
  (forall x y, In x l -> In y l -> f x = f y -> x = y) ->
  nodup path_dec (map f l) = map f (nodup path_dec l).
Proof.
  intros f l. induction l as [|x l IH]; intros H; [reflexivity|]. cbn [map nodup].
  assert (IH' : nodup path_dec (map f l) = map f (nodup path_dec l)).
  { apply IH. intros a b Ha Hb. apply H; right; assumption. }
  destruct (in_dec path_dec (f x) (map f l)) as [I1|I1]; destruct (in_dec path_dec x l) as [I2|I2].
  - exact IH'.
  - exfalso. apply I2. apply in_map_iff in I1. destruct I1 as (y & E & Iy).
    rewrite <- (H y x); auto; [right; assumption|left; reflexivity].
  - exfalso. apply I1. apply in_map. exact I2.
  - cbn [map]. f_equal. exact IH'.
Qed.
Lemma prefix_pieces : forall pre raw, Forall all_legal pre -> Forall all_legal raw ->
  prefixb (map piece_of pre) (map piece_of raw) = prefixb pre raw.
Proof.
  intros pre raw P. revert raw. induction P as [|x pre Hx P IH]; intros [|y raw] R; try reflexivity.
  inversion R as [|? ? Hy R']; subst. cbn [map prefixb]. rewrite (IH raw R'). f_equal.
  destruct (str_eqb_spec x y) as [->|N]; [apply str_eqb_refl|].
  destruct (str_eqb_spec (piece_of x) (piece_of y)) as [E|E]; [|reflexivity]. exfalso. apply N.
  assert (X : [x] = [y]) by (apply pieces_inj; [repeat constructor; exact Hx|repeat constructor; exact Hy|
    cbn [map]; f_equal; exact E]). congruence.
Qed.
Lemma group_legal : forall nv sid h raw, In raw (map fst (group nv sid h)) -> Forall all_legal raw.
Proof.
  intros nv sid h raw H. apply in_map_iff in H. destruct H as ([r me] & E & I). cbn [fst] in E. subst r.
  apply in_group in I. destruct I as (url & m & _ & U & _). apply url_path_parse in U. apply U.
Qed.
Lemma keyed_fst : forall E, map fst (keyed E) = map (map piece_of) (map fst E).
Proof. intros. unfold keyed. rewrite !map_map. reflexivity. Qed.
Lemma loads_maker : forall nv h sid mk, In (sid, mk) (loads nv h) ->
  group nv sid h <> [] /\ maker_ok nv sid h mk.
Proof.
  intros nv h sid mk H. destruct (loads_ok nv h) as [ND OK]. specialize (OK sid).
  rewrite (dget_in str_eqb str_eqb_iff sid mk _ ND H) in OK. exact OK.
Qed.
Lemma filter_map_length : forall A B (f : A -> B) (p : B -> bool) (q : A -> bool) l,
  (forall x, In x l -> p (f x) = q x) -> length (filter p (map f l)) = length (filter q l).
Proof.
  intros A B f p q l. induction l as [|x l IH]; intros H; [reflexivity|]. cbn [map filter].
  rewrite (H x) by (left; reflexivity). assert (E : length (filter p (map f l)) = length (filter q l))
    by (apply IH; intros; apply H; right; assumption).
  destruct (q x); cbn [length]; congruence.
Qed.
Lemma c15_counts : forall nv h sid mk pre, In (sid, mk) (loads nv h) -> Forall (Forall legal) pre ->
  cnt_at (mk_root mk) (map piece_of pre) = Z.of_nat (length (filter (prefixb pre) (distinct_paths nv sid h))).
Proof.
  intros nv h sid mk pre H LP. apply loads_maker in H. destruct H as [_ [(url0 & raw0 & _ & _ & _ & TK)]].
  rewrite (ok_cnt _ _ _ TK). rewrite keyed_fst. unfold ndcount, distinct_paths.
  rewrite nodup_map_inj.
  - f_equal. apply filter_map_length. intros x Hx. apply prefix_pieces.
    + apply Forall_impl with (2 := LP). intros a Ha. apply all_legal_iff. exact Ha.
    + apply nodup_In in Hx. eapply group_legal. exact Hx.
  - intros x y Hx Hy. apply pieces_inj; eapply group_legal; eassumption.
Qed.
Lemma group_accepted : forall nv h m raw, (exists url, url_path nv url = Some (m, raw)) ->
  (In raw (map fst (group nv (digest_of m raw) h)) <-> exists meta, In (m, raw, meta) (accepted nv h)).
Proof.
  intros nv h m raw (url & U). split.
  - intros H. apply in_map_iff in H. destruct H as ([r me] & E & I). cbn [fst] in E. subst r.
    apply in_group in I. destruct I as (url1 & m1 & I1 & I2 & I3).
    destruct (proj1 (digest_iff _ _ _ _ _ _ _ I2 U) I3) as [-> _].
    exists me. apply in_accepted. eauto.
  - intros (me & I). apply in_accepted in I. destruct I as (url1 & I1 & I2).
    apply in_map_iff. exists (raw, me). split; [reflexivity|]. apply in_group. exists url1, m. auto.
Qed.
Lemma c15_new : forall nv h url meta,
  match url_path nv url with
  | Some (m, raw) =>
      (snd (load nv (loads nv h) url meta) = Ok true /\ ~ (exists me, In (m, raw, me) (accepted nv h))) \/
      (snd (load nv (loads nv h) url meta) = Ok false /\ exists me, In (m, raw, me) (accepted nv h))
  | None => exists e, snd (load nv (loads nv h) url meta) = Err e
  end.
Proof.
  intros nv h url meta. destruct (load_step nv h (loads nv h) url meta (loads_ok nv h)) as [_ X].
  destruct (url_path nv url) as [[m raw]|] eqn:U; [|apply X].
  pose proof (group_accepted nv h m raw (ex_intro _ url U)) as G.
  destruct (in_dec path_dec raw (map fst (group nv (digest_of m raw) h))) as [I|I]; [right|left];
    (split; [exact X|]).
  - apply G. exact I.
  - intros Z. apply I. apply G. exact Z.
Qed.

Lemma path_metas_in : forall ks E x, In x (path_metas ks E) <-> In (ks, Some x) E.
Proof.
  intros ks E x. unfold path_metas. rewrite in_flat_map. split.
  - intros ([k me] & I & H). cbn [fst snd] in H. destruct (path_dec k ks) as [->|]; [|destruct H].
    destruct me as [y|]; [|destruct H]. destruct H as [->|[]]. exact I.
  - intros I. exists (ks, Some x). split; [exact I|]. cbn [fst snd].
    destruct (path_dec ks ks); [left; reflexivity|congruence].
Qed.
Lemma c16 : forall nv h sid mk raw, In (sid, mk) (loads nv h) -> In raw (distinct_paths nv sid h) ->
  node_at (mk_root mk) (map piece_of raw) <> None /\
  match meta_at (mk_root mk) (map piece_of raw) with
  | None => forall x, ~ In (mk_meta mk, raw, Some x) (accepted nv h)
  | Some l => l <> [] /\ NoDup l /\ forall x, In x l <-> In (mk_meta mk, raw, Some x) (accepted nv h)
  end.
Proof.
  intros nv h sid mk raw H D. apply loads_maker in H. destruct H as [_ [(url0 & raw0 & U0 & D0 & _ & TK)]].
  unfold distinct_paths in D. apply nodup_In in D. pose proof (group_legal _ _ _ _ D) as LR.
  apply in_map_iff in D. destruct D as ([r me] & E & I). cbn [fst] in E. subst r.
  pose proof I as I'. apply in_group in I'. destruct I' as (url1 & m1 & I1 & I2 & I3).
  pose proof (digest_iff _ _ _ _ _ _ _ I2 U0) as DI. rewrite I3, D0 in DI. destruct (proj1 DI eq_refl) as [-> SS].
  destruct (url_path_depth _ _ _ _ I2) as [_ NR].
  assert (LK : length (map piece_of raw) = length (level_vals raw0)).
  { unfold level_vals. rewrite !map_length. eapply Forall2_length. exact SS. }
  assert (NK : map piece_of raw <> []) by (destruct raw; [congruence|discriminate]).
  split.
  - apply (ok_node _ _ _ TK _ NK). exists (map piece_of raw, me). split.
    + unfold keyed. apply in_map_iff. exists (raw, me). auto.
    + apply prefixb_refl.
  - rewrite (ok_meta _ _ _ TK _ LK NK).
    assert (M : forall x, In x (path_metas (map piece_of raw) (keyed (group nv sid h))) <->
       In (mk_meta mk, raw, Some x) (accepted nv h)).
    { intros x. rewrite path_metas_in. split.
      - intros J. unfold keyed in J. apply in_map_iff in J. destruct J as ([r me'] & E & J). cbn [fst snd] in E.
        inversion E as [[E1 E2]]. subst me'.
        assert (r = raw).
        { apply pieces_inj; [|exact LR|exact E1]. eapply group_legal. apply in_map_iff. exists (r, Some x). eauto. }
        subst r. apply in_group in J. destruct J as (url2 & m2 & J1 & J2 & J3).
        pose proof (digest_iff _ _ _ _ _ _ _ J2 U0) as DI2. rewrite J3, D0 in DI2.
        destruct (proj1 DI2 eq_refl) as [-> _]. apply in_accepted. eauto.
      - intros J. apply in_accepted in J. destruct J as (url2 & J1 & J2). unfold keyed. apply in_map_iff.
        exists (raw, Some x). split; [reflexivity|]. apply in_group. exists url2, (mk_meta mk). auto. }
    unfold meta_set. destruct (path_metas _ _) as [|x0 l0] eqn:PM.
    + intros x J. apply M in J. destruct J.
    + split; [|split].
      * intros Z. assert (In x0 (sorted_set (x0 :: l0))) by (apply sorted_set_In; left; reflexivity).
        rewrite Z in H. destruct H.
      * apply sorted_NoDup. apply sorted_set_sorted.
      * intros x. rewrite <- M. apply sorted_set_In.
Qed.
Lemma c17_maker : forall nv st url meta e, snd (load nv st url meta) = Err e -> fst (load nv st url meta) = st.
Proof.
  intros nv st url meta e H. unfold load in *.
  destruct (parse nv url) as [[m [[|p l]|[|p l]]]|e']; try reflexivity.
  unfold maker_load in *. set (mk := match dget _ _ _ with Some _ => _ | None => _ end) in *. clearbody mk.
  assert (X : exists t n, build_from_parsed_pieces (mk_root mk) (p :: l) 1 meta true = Ok (t, n)).
  { unfold build_from_parsed_pieces.
    set (kvs := map (fun p => (p, @None str)) (p :: l)).
    pose proof (build_new (add_meta meta) 1 kvs (mk_root mk) None ltac:(discriminate)) as B.
    destruct (build (mk_root mk) kvs 1 (add_meta meta) None) as [t1 n1]. cbn [snd] in B. rewrite B. eauto. }
  destruct X as (t & n & X). rewrite X in H. discriminate.
Qed.
Lemma c18_keys : forall nv h, NoDup (map fst (loads nv h)) /\
  forall sid, In sid (map fst (loads nv h)) <->
    exists m raw meta, In (m, raw, meta) (accepted nv h) /\ digest_of m raw = sid.
Proof.
  intros nv h. destruct (loads_ok nv h) as [ND OK]. split; [exact ND|]. intros sid. specialize (OK sid). split.
  - intros I. destruct (dget str_eqb sid (loads nv h)) as [mk|] eqn:E.
    + destruct OK as [G _]. destruct (group nv sid h) as [|[raw me] l] eqn:EG; [congruence|].
      assert (J : In (raw, me) (group nv sid h)) by (rewrite EG; left; reflexivity).
      apply in_group in J. destruct J as (url & m & J1 & J2 & J3). exists m, raw, me. split; [|exact J3].
      apply in_accepted. eauto.
    + exfalso. apply (dget_none str_eqb str_eqb_iff) in E. contradiction.
  - intros (m & raw & me & I & D). apply in_accepted in I. destruct I as (url & I1 & I2).
    destruct (dget str_eqb sid (loads nv h)) as [mk|] eqn:E.
    + apply (dget_some_in str_eqb str_eqb_iff) in E. apply in_map_iff. exists (sid, mk). auto.
    + exfalso. assert (J : In (raw, me) (group nv sid h)) by (apply in_group; exists url, m; auto).
      rewrite OK in J. destruct J.
Qed.
Lemma c18_paths : forall nv h sid mk, In (sid, mk) (loads nv h) ->
  wft (depth (mk_meta mk)) (mk_root mk) /\
  (forall ks, In ks (map path_pieces (paths (mk_root mk))) <->
     exists raw, In raw (distinct_paths nv sid h) /\ ks = map piece_of raw) /\
  NoDup (map path_pieces (paths (mk_root mk))) /\
  (forall raw1 raw2, In raw1 (distinct_paths nv sid h) -> In raw2 (distinct_paths nv sid h) ->
     length raw1 = depth (mk_meta mk) /\ Forall2 same_spaces raw1 raw2 /\ digest_of (mk_meta mk) raw1 = sid /\
     exists meta, In (mk_meta mk, raw1, meta) (accepted nv h)).
Proof.
  intros nv h sid mk H. apply loads_maker in H. destruct H as [GN [(url0 & raw0 & U0 & D0 & _ & TK)]].
  destruct (url_path_depth _ _ _ _ U0) as [LD _].
  assert (LL : length (level_vals raw0) = depth (mk_meta mk)) by (unfold level_vals; rewrite map_length; exact LD).
  assert (W : wft (depth (mk_meta mk)) (mk_root mk)).
  { rewrite <- LL. apply (ok_wft _ _ _ TK). destruct (group nv sid h); [congruence|discriminate]. }
  assert (ALL : forall raw me, In (raw, me) (group nv sid h) ->
     length raw = depth (mk_meta mk) /\ Forall2 same_spaces raw raw0 /\ digest_of (mk_meta mk) raw = sid
     /\ In (mk_meta mk, raw, me) (accepted nv h) /\ raw <> []).
  { intros raw me I. apply in_group in I. destruct I as (url1 & m1 & I1 & I2 & I3).
    pose proof (digest_iff _ _ _ _ _ _ _ I2 U0) as DI. rewrite I3, D0 in DI. destruct (proj1 DI eq_refl) as [-> SS].
    split; [apply (url_path_depth _ _ _ _ I2)|]. split; [exact SS|]. split; [exact I3|]. split.
    - apply in_accepted. eauto.
    - apply (url_path_depth _ _ _ _ I2). }
  assert (DPI : forall raw, In raw (distinct_paths nv sid h) <-> exists me, In (raw, me) (group nv sid h)).
  { intros raw. unfold distinct_paths. rewrite nodup_In, in_map_iff. split.
    - intros ([r me] & E & I). cbn [fst] in E. subst. eauto.
    - intros (me & I). exists (raw, me). auto. }
  split; [exact W|]. split; [|split].
  - intros ks. rewrite (in_paths_iff _ _ W). split.
    + intros [LK N]. destruct (list_eq_dec str_dec ks []) as [->|KN].
      * exfalso. destruct (group nv sid h) as [|[raw me] g] eqn:EG; [congruence|].
        destruct (ALL raw me) as (A1 & _ & _ & _ & A5); [left; reflexivity|]. destruct raw; [congruence|].
        cbn [length] in A1, LK. rewrite <- LK in A1. discriminate.
      * apply (ok_node _ _ _ TK ks KN) in N. destruct N as ([k me] & I & P). cbn [fst] in P.
        unfold keyed in I. apply in_map_iff in I. destruct I as ([raw me'] & E & I). cbn [fst snd] in E.
        inversion E; subst. exists raw. split; [apply DPI; eauto|]. apply prefixb_eq; [exact P|].
        rewrite map_length. destruct (ALL raw me I) as [A _]. congruence.
    + intros (raw & I & ->). apply DPI in I. destruct I as (me & I). destruct (ALL raw me I) as (A1 & _ & _ & _ & A5).
      split; [rewrite map_length; exact A1|]. apply (ok_node _ _ _ TK).
      * destruct raw; [congruence|discriminate].
      * exists (map piece_of raw, me). split; [|apply prefixb_refl]. unfold keyed. apply in_map_iff. exists (raw, me). auto.
  - eapply paths_NoDup. exact W.
  - intros raw1 raw2 I1 I2. apply DPI in I1. destruct I1 as (me1 & I1). apply DPI in I2. destruct I2 as (me2 & I2).
    destruct (ALL _ _ I1) as (A1 & A2 & A3 & A4 & _).
    split; [exact A1|]. split; [|split; [exact A3|eauto]].
    apply in_group in I1. destruct I1 as (url1 & m1 & _ & J1 & K1).
    apply in_group in I2. destruct I2 as (url2 & m2 & _ & J2 & K2).
    apply (digest_iff _ _ _ _ _ _ _ J1 J2). congruence.
Qed.
Lemma c15_root : forall nv h sid mk, In (sid, mk) (loads nv h) ->
  t_cnt (mk_root mk) = Z.of_nat (length (distinct_paths nv sid h)).
Proof.
  intros nv h sid mk H. pose proof (c15_counts nv h sid mk [] H ltac:(constructor)) as C.
  unfold cnt_at in C. cbn [map node_at] in C. rewrite C. f_equal. clear C.
  induction (distinct_paths nv sid h) as [|x l IH]; [reflexivity|]. cbn [filter prefixb length] in *. f_equal. exact IH.
Qed.
