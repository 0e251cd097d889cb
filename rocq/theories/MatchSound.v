(** What a match returned by PatternMatcher says about the URL (C26). *)
From Coq Require Import String.
From Verif Require Import PyStr Defs UrlLib ParseUtils Spec Views Trees Patterns Matcher Observe MatchSpec PyStrProofs DefsProofs DictProofs RegexProofs PieceProofs LengthProofs UnitProofs BridgeProofs EntProofs TokProofs FlatCluster ViewProofs KeyProofs PatUnits MatchVms MatchTree MatchSem MatchLevel MatchNest MatchDigest MatchUnits MatchKeys.
From Coq Require Import Lia Sorted Permutation.

(** ** descending into a history *)
Lemma descend_In : forall path hist r me, In (r, me) (descend path hist) -> exists qs, skey qs = skey path /\ In (qs ++ r, me) hist.
Proof.
  induction path as [|p path IH]; intros hist r me I; [exists []; auto|]. unfold descend in I. cbn [fold_left] in I. destruct (IH _ _ _ I) as (qs & E & J). apply tails_In in J. destruct J as (q & Q & J). exists (q :: qs). cbn [map app]. split; [congruence|exact J].
Qed.
Lemma lmeta_some : forall hist m, lmeta hist = Some m -> In ([], Some m) hist.
Proof.
  induction hist as [|[ps me] hist IH] using rev_ind; intros m H; [discriminate|]. rewrite lmeta_snoc in H. apply in_app_iff. unfold meta_step in H. cbn [fst snd] in H. destruct ps as [|p ps]; [|left; apply IH; exact H].
  destruct me as [m'|]; [right; left; congruence|left; apply IH; exact H].
Qed.
Lemma hits_heads : forall inner im path os hist, hits inner im path os hist -> Forall (fun p => exists h : hent, In h hist /\ In p (fst h)) path.
Proof.
  intros inner im. induction path as [|p path IH]; intros [|o os] hist H; try constructor; try (destruct H as (A & _ & H)).
  - destruct H.
  - destruct H.
  - apply heads_In in A. destruct A as (r & me & A). exists (p :: r, me). split; [exact A|left; reflexivity].
  - apply IH in H. eapply Forall_impl; [|exact H]. intros q ([r me] & I & J). apply tails_In in I. destruct I as (x & _ & I). exists (x :: r, me). split; [exact I|right; exact J].
Qed.

(** ** acceptance of a piece by a pattern *)
Definition acc1 (p : match_pattern) (pp : parsed_piece) : Prop :=
  if simple (mp_view p) then sacc p pp
  else view_key (view_parts (mp_view p) pp) = ukey p /\
       exists a b, view_parts (mp_view p) pp = a ++ b /\ Forall2 (fun x part => sacc (unit_mp x) part) (mp_units p) a.
Lemma simple_multi : forall v, simple v = false -> multi v.
Proof. intros [] H; try discriminate; unfold multi; auto. Qed.
Lemma inner_hit : forall l q pp, Forall unit_ok l -> NoDup (skey l) -> In q l -> hit1 inner0 im0 l q (Some pp) -> sacc q pp.
Proof.
  intros l q pp F ND I (v & b & ks & V & H & K). destruct (regs_ok inner0 l) as [S VG]. rewrite VG in V. destruct (filter (is_view v) l) as [|x r] eqn:EF; [discriminate|]. inversion V; subst b. clear V.
  assert (SV : simple v = true). { assert (J : In x (filter (is_view v) l)) by (rewrite EF; left; reflexivity). apply in_view in J. destruct J as [J <-]. rewrite Forall_forall in F. apply unit_ok_simple. apply F. exact J. }
  assert (NE : Forall (fun p => mp_units p <> []) l) by (eapply Forall_impl; [|exact F]; intros p P; apply unit_ok_simple; exact P).
  destruct (simple_hit inner0 im0 l v pp ks (mp_str q) ND NE SV H K) as (p & P1 & _ & P3 & P4). assert (p = q) by (apply (key_unique l); assumption). subst p. exact P4.
Qed.
Lemma inner_hits : forall path os hist, hist_ok unit_ok hist -> hits inner0 im0 path (map Some os) hist ->
  exists a b, os = a ++ b /\ Forall2 sacc path a.
Proof.
  induction path as [|q path IH]; intros os hist OK H; [exists [], os; split; [reflexivity|constructor]|]. destruct os as [|o os]; [destruct H|]. cbn [map hits] in H. destruct H as (A & B & H).
  destruct (IH os _ (tails_ok unit_ok _ _ OK) H) as (a & b & -> & F). exists (o :: a), b. split; [reflexivity|]. constructor; [|exact F]. apply (inner_hit (heads hist)); [apply heads_ok; exact OK|apply heads_NoDup|exact A|exact B].
Qed.
Lemma path_units : forall path qs, Forall unit_ok path -> Forall unit_ok qs -> skey qs = skey path -> qs = path.
Proof.
  induction path as [|p path IH]; intros [|q qs] P Q E; try discriminate; [reflexivity|]. cbn [map] in E. inversion E as [[E1 E2]]. inversion P as [|? ? (x & -> & X) P']; subst. inversion Q as [|? ? (y & -> & Y) Q']; subst. cbn [unit_mp mp_str] in E1.
  rewrite (unit_mp_inj y x Y X E1). f_equal. apply IH; assumption.
Qed.
Lemma multi_hit : forall l v pp ks k, Forall mp_ok l -> NoDup (skey l) -> multi v -> view_match im1 v (body inner1 v l) (Some pp) = Ok ks -> In k ks ->
  exists p, In p l /\ mp_view p = v /\ mp_str p = k /\ acc1 p pp.
Proof.
  intros l v pp ks k OK ND M H I. assert (NB : new_body v = BMulti []) by (destruct M as [->|[->| ->]]; reflexivity). unfold body in H. rewrite NB in H. fold (bfold inner1 (BMulti []) (filter (is_view v) l)) in H.
  assert (OKF : Forall mp_ok (filter (is_view v) l)). { apply Forall_forall. intros p J. apply filter_In in J. rewrite Forall_forall in OK. apply OK. apply J. }
  destruct (multi_body _ OKF) as (d & E & D). rewrite E in H. cbn [view_match the_piece bind] in H. rewrite D in H. set (r := view_key (view_parts v pp)) in *. set (l' := filter (has_ukey r) (filter (is_view v) l)) in *.
  assert (H' : l' <> [] /\ (ms <- im1 (mtree l') (map Some (view_parts v pp)) ;; mapM (fun m => match m with Some (MRef k) => Ok k | _ => Err EAttr end) ms) = Ok ks).
  { destruct l' as [|x l'']; [inversion H; subst; destruct I|]. split; [discriminate|exact H]. }
  destruct H' as [NE H']. apply bind_ok in H'. destruct H' as (ms & E1 & E2). clear H.
  destruct (mapM_In _ _ _ _ _ _ E2 I) as (m & IM & EM). destruct m as [[mm|k']|]; try discriminate. inversion EM; subst k'. clear EM E2 I.
  unfold im1 in E1. apply bind_ok in E1. destruct E1 as (fs & E1 & E2). inversion E2; subst ms. clear E2. apply in_map_iff in IM. destruct IM as ([path node] & EN & IM). cbn [snd] in EN.
  assert (OKL : Forall mp_ok l'). { apply Forall_forall. intros p J. apply filter_In in J. rewrite Forall_forall in OKF. apply OKF. apply J. }
  rewrite nmatch1 in E1. unfold mtree in E1. destruct (nmatch_sound inner0 unit_ok regok0 im0 _ _ _ _ (ment_ok l' OKL) E1 path node IM) as (PN & HT & ->).
  rewrite (grow_eq inner0 unit_ok regok0) in EN.
  2: { clear - OKL. unfold descend. assert (X : hist_ok unit_ok (map ment l')) by (apply ment_ok; exact OKL). revert X. generalize (map ment l'). induction path as [|p path IH]; intros h X; [exact X|]. cbn [fold_left]. apply IH. apply tails_ok. exact X. }
  cbn [m_meta] in EN. apply lmeta_some in EN. apply descend_In in EN. destruct EN as (qs & EQ & J). rewrite app_nil_r in J. apply in_map_iff in J. destruct J as (p & EP & J). unfold ment in EP. inversion EP as [[Q1 Q2]].
  assert (J' := J). unfold l' in J'. apply filter_In in J'. destruct J' as [J1 J2]. apply in_view in J1. destruct J1 as [J0 J1]. exists p. split; [exact J0|]. split; [exact J1|]. split; [first [exact Q2|reflexivity]|].
  assert (U : Forall unit_ok path).
  { pose proof (hits_heads _ _ _ _ _ HT) as HH. eapply Forall_impl; [|exact HH]. intros q ([ps me] & I1 & I2). pose proof (ment_ok l' OKL) as X. unfold hist_ok in X. rewrite Forall_forall in X. specialize (X _ I1). cbn [fst] in *. rewrite Forall_forall in X. auto. }
  assert (UQ : Forall unit_ok qs). { rewrite <- Q1. pose proof (ment_ok l' OKL) as X. unfold hist_ok in X. rewrite Forall_forall in X. specialize (X _ (in_map ment _ _ J)). exact X. }
  pose proof (path_units path qs U UQ EQ) as PQ. subst path. unfold acc1. rewrite J1. replace (simple v) with false by (destruct M as [->|[->| ->]]; reflexivity). split.
  - unfold has_ukey in J2. apply str_eqb_iff in J2. exact J2.
  - destruct (inner_hits qs (view_parts v pp) _ (ment_ok l' OKL) HT) as (a & b & EA & F). exists a, b. split; [exact EA|]. rewrite <- Q1 in F. clear - F. revert a F. induction (mp_units p) as [|x us IH]; intros a F; inversion F; subst; constructor; auto.
Qed.
Lemma outer_hit : forall l q pp, Forall mp_ok l -> NoDup (skey l) -> In q l -> hit1 inner1 im1 l q (Some pp) -> acc1 q pp.
Proof.
  intros l q pp F ND I (v & b & ks & V & H & K). destruct (regs_ok inner1 l) as [S VG]. rewrite VG in V. destruct (filter (is_view v) l) as [|x r] eqn:EF; [discriminate|]. inversion V; subst b. clear V.
  assert (NE : Forall (fun p => mp_units p <> []) l) by (eapply Forall_impl; [|exact F]; intros p P; apply mp_ok_facts; exact P).
  destruct (simple v) eqn:SV.
  - destruct (simple_hit inner1 im1 l v pp ks (mp_str q) ND NE SV H K) as (p & P1 & P2 & P3 & P4). assert (p = q) by (apply (key_unique l); assumption). subst p. unfold acc1. rewrite P2, SV. exact P4.
  - destruct (multi_hit l v pp ks (mp_str q) F ND (simple_multi v SV) H K) as (p & P1 & _ & P3 & P4). assert (p = q) by (apply (key_unique l); assumption). subst p. exact P4.
Qed.
Lemma outer_hits : forall path os hist, hist_ok mp_ok hist -> hits inner1 im1 path (map Some os) hist -> exists a b, os = a ++ b /\ Forall2 acc1 path a.
Proof.
  induction path as [|q path IH]; intros os hist OK H; [exists [], os; split; [reflexivity|constructor]|]. destruct os as [|o os]; [destruct H|]. cbn [map hits] in H. destruct H as (A & B & H).
  destruct (IH os _ (tails_ok mp_ok _ _ OK) H) as (a & b & -> & F). exists (o :: a), b. split; [reflexivity|]. constructor; [|exact F]. apply (outer_hit (heads hist)); [apply heads_ok; exact OK|apply heads_NoDup|exact A|exact B].
Qed.

(** ** one position *)
Lemma simple_unit : forall p, mp_ok p -> mp_view p = VLength \/ mp_view p = VFuzzy -> exists x, mp_units p = [x] /\ pu_str x = mp_str p /\ p = unit_mp x /\ is_literal x = false.
Proof.
  intros p OK V. destruct (mp_ok_facts p OK) as (NE & C & _ & _). destruct OK as (b & H). unfold mk_match_pattern in H. apply bind_ok in H. destruct H as (us & U & H). assert (E : mp_units p = us /\ mp_view p = view_cls_from_units us b) by (inversion H as [H']; auto). destruct E as [E1 E2].
  destruct us as [|x [|y us]]; [congruence| |].
  - exists x. rewrite E1 in C. cbn [map List.concat] in C. rewrite app_nil_r in C. split; [exact E1|]. split; [exact C|]. split; [|rewrite E2 in V; cbn in V; destruct (is_literal x); [destruct V; discriminate|reflexivity]].
    unfold unit_mp. rewrite C. clear - E1 E2. destruct p. simpl in *. subst. reflexivity.
  - exfalso. rewrite E2 in V. cbn [view_cls_from_units] in V. assert (NL : forall us acc, multi_view_cls us acc = VLength \/ multi_view_cls us acc = VFuzzy -> acc = VLength \/ acc = VFuzzy).
    { clear. induction us as [|x us IH]; intros acc E; [exact E|]. cbn [multi_view_cls] in E. destruct (is_literal x); [exact (IH _ E)|]. destruct (1 <? length (pu_rules x)); [destruct E; discriminate|]. apply IH in E. destruct E; discriminate. }
    destruct (b && _ && _)%bool; [destruct V; discriminate|]. apply NL in V. destruct V; discriminate.
Qed.
Lemma vpart_ok : forall t, piece (vpart t) = piece (pp_of t).
Proof. exact vpart_piece. Qed.
Lemma regex_concat : forall us ts, Forall2 (fun x t => regex_matches (pu_str x) t) us ts -> regex_matches (List.concat (map pu_str us)) (List.concat ts).
Proof. induction 1; [apply regex_matches_nil|]. cbn [map List.concat]. apply regex_matches_app; assumption. Qed.
Lemma incl_concat : forall A (x : A) l ll, In l ll -> In x l -> In x (List.concat ll).
Proof. intros. apply in_concat. eauto. Qed.
Lemma pos_sound : forall p s, mp_ok p -> all_legal s -> ~ In 92%N s -> rparse (mp_str p) <> None -> (mp_view p = VMixed -> slash_units p) ->
  fuzzy_rule (pp_of s) = mp_fuzzy p -> acc1 p (pp_of s) -> regex_matches (mp_str p) s.
Proof.
  intros p s OK L B R SL FZ A. destruct (list_eq_dec N.eq_dec (mp_str p) []) as [EP|NE].
  - assert (U : p = MP [] [PU [] [[]] 1%Z] VPiece). { destruct OK as (b & H). rewrite EP in H. destruct b; cbn in H; inversion H; reflexivity. }
    subst p. cbn in A. assert (s = []). { apply piece_inj; [exact L|constructor|exact A]. } subst s. apply regex_matches_nil.
  - destruct (good_units p OK NE R) as [G _]. destruct (mp_ok_facts p OK) as (_ & C & _ & _). unfold acc1 in A. destruct (simple (mp_view p)) eqn:SV.
    + destruct (mp_view p) eqn:V; try discriminate.
      * unfold sacc in A. rewrite V in A. rewrite <- A. apply piece_regex; [exact L|reflexivity].
      * destruct (simple_unit p OK (or_introl V)) as (x & EU & ES & EP & _). rewrite EU in G. pose proof (Forall_inv G) as GX. destruct (good_rules x GX) as (_ & U & F). rewrite <- ES. rewrite EP in A. destruct GX as (MX & (k & K) & RX).
        apply (unit_sound x k s (pp_of s)); [assumption..|reflexivity| |exact A]. fold (uset x). rewrite U. apply concat_rules_inj; [apply cset_rules; exact L|exact F|]. rewrite <- fuzzy_cset, FZ. unfold mp_fuzzy. rewrite EU. unfold units_fuzzy. cbn [flat_map]. rewrite app_nil_r. fold (uset x). rewrite U. reflexivity.
      * destruct (simple_unit p OK (or_intror V)) as (x & EU & ES & EP & _). rewrite EU in G. pose proof (Forall_inv G) as GX. destruct (good_rules x GX) as (_ & U & F). rewrite <- ES. rewrite EP in A. destruct GX as (MX & (k & K) & RX).
        apply (unit_sound x k s (pp_of s)); [assumption..|reflexivity| |exact A]. fold (uset x). rewrite U. apply concat_rules_inj; [apply cset_rules; exact L|exact F|]. rewrite <- fuzzy_cset, FZ. unfold mp_fuzzy. rewrite EU. unfold units_fuzzy. cbn [flat_map]. rewrite app_nil_r. fold (uset x). rewrite U. reflexivity.
    + destruct A as (K & a & b & EA & FA). destruct (key_units p s OK NE R (simple_multi _ SV) SL L K) as [VP ES]. set (gs := vgroups (mp_view p) s) in *. pose proof (vgroups_groups (mp_view p) s) as GR. fold gs in GR.
      pose proof (groups_concat s gs L GR) as GC. pose proof (legal_groups s gs L GR) as LG. rewrite VP in EA. rewrite <- C, <- GC. apply regex_concat.
      assert (LEN : length a = length (mp_units p)) by (symmetry; eapply Forall2_length; exact FA). assert (b = []). { apply (f_equal (@length _)) in EA. apply (f_equal (@length _)) in ES. rewrite !map_length in *. rewrite app_length in EA. destruct b; [reflexivity|]. cbn [length] in EA. lia. }
      subst b. rewrite app_nil_r in EA. subst a. assert (BG : Forall (fun t => ~ In 92%N t) (map cat gs)). { apply Forall_forall. intros t I J. apply B. rewrite <- GC. eapply incl_concat; eauto. }
      clear - FA ES LG BG G. revert FA ES LG BG G. generalize (map cat gs) (mp_units p). induction l as [|t l IH]; intros us FA ES LG BG G; cbn [map] in *; destruct us as [|x us]; try discriminate; [constructor|].
      inversion FA; subst. inversion LG; inversion BG; inversion G as [|? ? (MX & (k & K) & RX) ?]; subst. cbn [map] in ES. inversion ES as [[E1 E2]]. constructor; [|apply IH; assumption].
      apply (unit_sound x k t (vpart t)); try assumption. apply vpart_piece.
Qed.
Lemma rule_of_char : forall r, in_rules r = true -> exists c, char_rule c = Some r.
Proof. intros r H. apply in_rules_char. exact H. Qed.
Lemma slash_alone_units : forall p, mp_ok p -> mp_str p <> [] -> rparse (mp_str p) <> None -> slash_alone (mp_str p) -> slash_units p.
Proof.
  intros p OK NE R SA. destruct (good_units p OK NE R) as [G _]. destruct (mp_ok_facts p OK) as (_ & C & _ & _). unfold slash_units.
  assert (RC : exists tss, Forall2 (fun w t => rparse w = Some t) (map pu_str (mp_units p)) tss).
  { clear - G. induction G as [|x us (_ & _ & X) G IH]; [exists []; constructor|]. destruct IH as (tss & IH). destruct (rparse (pu_str x)) as [t|] eqn:E; [|congruence]. exists (t :: tss). constructor; assumption. }
  destruct RC as (tss & F2). pose proof (rparse_concat _ _ F2) as RP. rewrite C in RP. apply Forall_forall. intros x I SL.
  pose proof (proj1 (Forall_forall _ _) G x I) as (MX & (k & K) & RX). inversion K as [r w LU E1 E2|w CU E1 E2]; subst.
  - destruct (unit_lit_inv _ _ _ MX LU) as (A & _). rewrite A in *. destruct SL as [->|[]]. reflexivity.
  - destruct (unit_cls_inv _ _ MX CU) as (l & q & W & F & RU & Q & _).
    assert (T : exists m, In (RT (map rule_item l) m) (List.concat tss)).
    { assert (T1 : exists m, rparse (pu_str x) = Some [RT (map rule_item l) m]).
      { destruct (rparse (pu_str x)) as [ts|] eqn:RP'; [|congruence]. unfold rparse in RP'. rewrite W in RP'. cbn [length] in RP'. rewrite <- (app_nil_r q) in RP' at 2. rewrite rparse_cls in RP'; [|exact F|eapply qnum_quant; exact Q|exact Logic.I].
        destruct (map rule_item l) as [|i l']; [discriminate|]. destruct (parse_quant q) as [[m r]|]; [|discriminate]. exists m. cbn [rparse_n] in RP'. destruct (length _); inversion RP'; reflexivity. }
      destruct T1 as (m & T1). exists m. clear - F2 I T1. revert tss F2. induction (mp_units p) as [|y us IH]; intros tss F2; [destruct I|]. cbn [map] in F2. inversion F2 as [|? t ? tss' E F2']; subst. cbn [List.concat]. apply in_app_iff. destruct I as [->|I]; [left; rewrite T1 in E; inversion E; left; reflexivity|right; apply IH; assumption]. }
    destruct T as (m & T). specialize (SA _ _ RP T). cbn [rset] in SA. rewrite RU in SL. apply (proj1 (sorted_set_In _ _)) in SL.
    assert (S47 : set_mem 47%N (map rule_item l) = true). { apply set_mem_rules; [exact F|]. exists R_SL. split; [exact SL|reflexivity]. }
    assert (ALL : forall r, In r l -> r = R_SL). { intros r J. rewrite Forall_forall in F. destruct (rule_of_char r (F r J)) as (c & Hc). assert (c = 47%N). { apply (SA S47). apply set_mem_rules; [apply Forall_forall; exact F|eauto]. } subst c. change (char_rule 47%N) with (Some R_SL) in Hc. congruence. }
    rewrite RU. apply sorted_unique; [apply sorted_set_sorted|repeat constructor|]. intros r. rewrite sorted_set_In. split; [intros J; left; symmetry; apply ALL; exact J|intros [<-|[]]; exact SL].
Qed.
