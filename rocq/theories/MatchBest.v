(** C30 and C31: the order of match results. *)
From Coq Require Import String.
From Verif Require Import PyStr Defs UrlLib ParseUtils Spec Views Trees Cluster Patterns Matcher Maker Observe MatchSpec PyStrProofs DefsProofs DictProofs RegexProofs PieceProofs LengthProofs UnitProofs QueryProofs BridgeProofs UrlProofs PackProofs LoadProofs TokProofs EntProofs FlatCluster ViewProofs KeyProofs OuterLevel PatUnits MatchKeys MatchDigest MatchNest MatchTop MatchExact MatchTakes MatchPos OwnSpec OrderSpec MatchOwn.
From Coq Require Import Lia Permutation Sorted.

(** ** a strict order *)
Lemma mp_lt_irrefl : forall a, mp_lt a a = false.
Proof. intros a. unfold mp_lt, vcls_eqb. rewrite Nat.eqb_refl. apply str_ltb_irrefl. Qed.
Lemma mp_lt_trans : forall a b c, mp_lt a b = true -> mp_lt b c = true -> mp_lt a c = true.
Proof.
  intros a b c. unfold mp_lt, vcls_eqb. destruct (Nat.eqb_spec (view_order (mp_view a)) (view_order (mp_view b))) as [E1|N1];
    destruct (Nat.eqb_spec (view_order (mp_view b)) (view_order (mp_view c))) as [E2|N2];
    destruct (Nat.eqb_spec (view_order (mp_view a)) (view_order (mp_view c))) as [E3|N3]; rewrite ?Nat.ltb_lt; intros H1 H2; try lia.
  eapply str_ltb_trans; eassumption.
Qed.
Lemma up_lt_irrefl : forall l, up_lt l l = false.
Proof. induction l as [|x l IH]; [reflexivity|]. cbn [up_lt]. rewrite (proj2 (str_eqb_eq _ _) eq_refl). exact IH. Qed.
Definition made (b : bool) (p : match_pattern) : Prop := mk_match_pattern (mp_str p) b = Ok p.
Lemma made_det : forall b p q, made b p -> made b q -> mp_str p = mp_str q -> p = q.
Proof. unfold made. intros b p q H1 H2 E. rewrite E in H1. congruence. Qed.
Definition flags (n d : nat) : list bool := map (fun i => i =? d) (seq 1 n).
Lemma mk_made : forall l i d ms, mk_patterns i d l = Ok ms -> Forall2 made (map (fun j => j =? d) (seq i (length l))) ms.
Proof.
  induction l as [|w l IH]; intros i d ms H; cbn [mk_patterns] in H; [inversion H; constructor|].
  destruct (mk_match_pattern w (i =? d)) as [p|] eqn:E; cbn [bind] in H; [|discriminate]. destruct (mk_patterns (S i) d l) as [ms'|] eqn:E'; cbn [bind] in H; [|discriminate]. inversion H; subst.
  cbn [length seq map]. constructor; [|apply IH; exact E']. unfold made. pose proof E as E0. unfold mk_match_pattern in E. destruct (pattern_units w); cbn [bind] in E; [|discriminate]. injection E as E. rewrite <- E at 1. cbn [mp_str]. exact E0.
Qed.
Lemma up_lt_trans : forall fl a b c, Forall2 made fl a -> Forall2 made fl b -> Forall2 made fl c -> up_lt a b = true -> up_lt b c = true -> up_lt a c = true.
Proof.
  intros fl a b c Fa. revert b c. induction Fa as [|f x fl a Hx Fa IH]; intros b c Fb Fc H1 H2; [inversion Fb; subst; discriminate|].
  inversion Fb as [|? y ? b' Hy Fb']; subst. inversion Fc as [|? z ? c' Hz Fc']; subst. cbn [up_lt] in *.
  destruct (str_eqb (mp_str x) (mp_str y)) eqn:E1.
  - apply str_eqb_eq in E1. pose proof (made_det _ _ _ Hx Hy E1) as E. subst y. destruct (str_eqb (mp_str x) (mp_str z)) eqn:E2; [|exact H2]. exact (IH b' c' Fb' Fc' H1 H2).
  - destruct (str_eqb (mp_str y) (mp_str z)) eqn:E2.
    + apply str_eqb_eq in E2. pose proof (made_det _ _ _ Hy Hz E2) as E. subst z. rewrite E1. exact H1.
    + pose proof (mp_lt_trans _ _ _ H1 H2) as T. destruct (str_eqb (mp_str x) (mp_str z)) eqn:E3; [|exact T].
      apply str_eqb_eq in E3. pose proof (made_det _ _ _ Hx Hz E3) as E. subst z. rewrite mp_lt_irrefl in T. discriminate.
Qed.
Lemma forall2_rev : forall A B (R : A -> B -> Prop) l l', Forall2 R l l' -> Forall2 R (rev l) (rev l').
Proof. intros A B R l l' F. induction F as [|x y l l' H F IH]; [constructor|]. cbn [rev]. apply Forall2_app; [exact IH|constructor; [exact H|constructor]]. Qed.
Lemma parse_made : forall nv s m l, parse nv s = Ok (m, PPat l) -> Forall2 made (flags (depth m) (path_depth m)) l.
Proof.
  intros nv s m l H. unfold parse in H. destruct (startswith s [SLASH]); [|destruct (analyze_url nv s) as [[m0 l0]|]; cbn [bind] in H; [destruct (mapM piece_parse l0); discriminate|discriminate]].
  destruct (analyze_url_pattern_string s) as [[m' Ps]|] eqn:A; cbn [bind] in H; [|discriminate]. destruct (mk_patterns 1 (path_depth m') Ps) as [ms|] eqn:K; cbn [bind] in H; [|discriminate]. inversion H; subst m' ms.
  apply mk_made in K. unfold flags. assert (L : length Ps = depth m); [|rewrite <- L; exact K].
  apply analyze_pattern_spec in A. destruct A as (pp & vs & fr & -> & A1 & _ & A2 & A3 & _). unfold depth. rewrite A1, A2, A3, !app_length. destruct fr; cbn [length]; lia.
Qed.
Lemma c30_irrefl : forall a, found_lt a a = false.
Proof. intros a. apply up_lt_irrefl. Qed.
Lemma c30_trans : forall nv s1 s2 s3 m a b c, parse nv s1 = Ok (m, PPat (fst a)) -> parse nv s2 = Ok (m, PPat (fst b)) -> parse nv s3 = Ok (m, PPat (fst c)) ->
  found_lt a b = true -> found_lt b c = true -> found_lt a c = true.
Proof.
  intros nv s1 s2 s3 m a b c A B C. unfold found_lt. apply (up_lt_trans (rev (flags (depth m) (path_depth m)))); apply forall2_rev; eapply parse_made; eassumption.
Qed.

Lemma ld_legal : forall c, In c letters_digits -> legal c.
Proof.
  intros c I. assert (X : forallb (fun c => char_in c legal_chars) letters_digits = true) by (vm_compute; reflexivity). rewrite forallb_forall in X. apply char_in_In. apply X. exact I.
Qed.
(** ** total on the patterns that take a piece *)
Definition dig (x : cunit) : nat := view_order (view_cls_from_units [cu x] false).
Lemma same_unit : forall x y g, cunit_ok x -> cunit_ok y -> unit_fits x g -> unit_fits y g -> all_legal g -> dig x = dig y -> x = y.
Proof.
  assert (MIX : forall l rs n, cunit_ok (CLit l) -> cunit_ok (CCls rs n) -> unit_fits (CCls rs n) l -> dig (CCls rs n) <> 0).
  { intros l rs n OL OC [F _] D. unfold dig, view_cls_from_units in D. rewrite cls_no_lit in D. destruct rs as [|r [|r' rs]]; try (destruct (pu_num _ <? 0)%Z; discriminate).
    destruct ((0 <? znum n)%Z && negb (in_digit_ascii r)) eqn:E; [|destruct (pu_num _ <? 0)%Z; discriminate]. apply andb_true_iff in E. destruct E as [_ E].
    destruct OL as (N & LD & _). destruct l as [|c l]; [congruence|]. apply Forall_inv in LD. assert (S : In (space_text c) [r]) by (apply F; exists c; split; [left; reflexivity|reflexivity]). destruct S as [S|[]].
    pose proof (ld_legal c LD) as LC. rewrite S in E.
    rewrite (proj2 (alnum_ld c _ (legal_space c LC)) LD) in E. discriminate. }
  assert (LIT : forall l, cunit_ok (CLit l) -> dig (CLit l) = 0).
  { intros l OL. unfold dig, view_cls_from_units. replace (is_literal (cu (CLit l))) with true; [reflexivity|]. unfold is_literal. cbn [cu pu_str]. destruct OL as (N & LD & _). destruct l as [|c l]; [congruence|]. apply Forall_inv in LD. cbn [startswith].
    destruct (N.eqb_spec c BRACKETS_L) as [->|NE]; [apply char_in_In in LD; vm_compute in LD; discriminate|]. reflexivity. }
  intros x y g OX OY FX FY L D. destruct x as [l|rs n], y as [l'|rs' n'].
  - cbn [unit_fits] in *. congruence.
  - exfalso. cbn [unit_fits] in FX. subst g. rewrite (LIT l OX) in D. symmetry in D. exact (MIX l rs' n' OX OY FY D).
  - exfalso. cbn [unit_fits] in FY. subst g. rewrite (LIT l' OY) in D. exact (MIX l' rs n OY OX FX D).
  - destruct (cls_facts rs n OX) as (N1 & S1 & _ & _ & K1), (cls_facts rs' n' OY) as (N2 & S2 & _ & _ & K2). destruct FX as [F1 L1], FY as [F2 L2].
    assert (rs = rs'). { pose proof (proj2 (cset_iff g rs L S1) F1). pose proof (proj2 (cset_iff g rs' L S2) F2). congruence. } subst rs'. f_equal.
    destruct n as [k|], n' as [k'|]; [congruence| | |reflexivity]; exfalso; unfold dig, view_cls_from_units in D; rewrite !cls_no_lit in D; cbn [cu pu_num znum] in D.
    + clear MIX LIT. assert (Z0 : (Z.of_N k <? 0)%Z = false) by (apply Z.ltb_ge; lia). rewrite Z0 in D. cbn in D. destruct rs as [|r [|r' rs]]; cbn in D; try discriminate. match type of D with context [if ?b then VPiece else VLength] => destruct b end; discriminate.
    + clear MIX LIT. assert (Z0 : (Z.of_N k' <? 0)%Z = false) by (apply Z.ltb_ge; lia). rewrite Z0 in D. cbn in D. destruct rs as [|r [|r' rs]]; cbn in D; try discriminate. match type of D with context [if ?b then VPiece else VLength] => destruct b end; discriminate.
Qed.

Lemma takes_nil : forall b P us, reads P us -> takes b P [] -> us = [].
Proof.
  intros b P us R (us' & ws & R' & C & F). rewrite (reads_unique _ _ _ R' R) in *. destruct us as [|x [|y us]]; [reflexivity| |]; exfalso.
  - cbn [cut_for] in C. subst ws. inversion F as [|? ? ? ? H _]; subst. destruct R as (_ & OK & _). apply Forall_inv in OK. destruct x as [l|rs n]; cbn [unit_fits cunit_ok] in *.
    + subst l. destruct OK as [N _]. congruence.
    + destruct OK as (N & _). destruct H as [H _]. destruct rs as [|r rs]; [congruence|]. destruct (proj1 (H r) (or_introl eq_refl)) as (c & [] & _).
  - assert (W : ws <> []) by (inversion F; discriminate). destruct ws as [|w ws]; [congruence|].
    cbn [cut_for] in C. destruct C as [(_ & _ & n & d & e & _ & E & _ & _ & _ & NE & _)|(_ & [[_ (E & FW & _)]|[_ (E & FW & _)]])].
    + symmetry in E. apply app_eq_nil in E. destruct E as [_ E]. apply app_eq_nil in E. destruct E as [_ E]. contradiction.
    + cbn [List.concat] in E. apply app_eq_nil in E. destruct E as [E _]. apply Forall_inv in FW. destruct FW as [N _]. contradiction.
    + cbn [List.concat] in E. apply app_eq_nil in E. destruct E as [E _]. apply Forall_inv in FW. destruct FW as [N _]. contradiction.
Qed.
Definition digits_key (us : list cunit) : str := map (fun d => (48 + N.of_nat d)%N) (rev (map dig us)).
Lemma cmp_digits : forall P us v, cmp_key (MP P (map cu us) v) = digits_key us.
Proof. intros P us v. unfold cmp_key, digits_key. cbn [mp_units]. rewrite <- !map_rev, !map_map. reflexivity. Qed.
Lemma map_inj : forall A B (f : A -> B) l l', (forall x y, f x = f y -> x = y) -> map f l = map f l' -> l = l'.
Proof.
  intros A B f l. induction l as [|x l IH]; intros [|y l'] I E; try discriminate; [reflexivity|]. cbn [map] in E. assert (f x = f y) by congruence. assert (map f l = map f l') by congruence.
  f_equal; [apply I; assumption|apply IH; assumption].
Qed.
Lemma digits_inj : forall us vs, digits_key us = digits_key vs -> map dig us = map dig vs.
Proof.
  intros us vs E. unfold digits_key in E. apply map_inj in E; [|intros x y H; apply N.add_cancel_l in H; apply Nat2N.inj; exact H]. rewrite <- (rev_involutive (map dig us)), E. apply rev_involutive.
Qed.
(** [takes] with the reading and the view *)
Lemma takes_view : forall b P us w, reads P us -> us <> [] -> all_legal w -> ~ In 92%N w -> takes b P w ->
  Forall2 unit_fits us (match us with [_] => [w] | _ => map cat (vgroups (view_cls_from_units (map cu us) b) w) end).
Proof.
  intros b P us w R N L B (us' & ws & R' & C & F). rewrite (reads_unique _ _ _ R' R) in *. destruct us as [|x [|y us]]; [congruence| |].
  - cbn [cut_for] in C. subst ws. exact F.
  - apply (view_cut b (x :: y :: us) w ws) in C; [rewrite <- C; exact F|cbn; lia|apply R|exact L|exact B|exact F].
Qed.
Lemma pos_same : forall b P Q us vs w, reads P us -> reads Q vs -> us <> [] -> vs <> [] -> all_legal w -> ~ In 92%N w -> takes b P w -> takes b Q w ->
  view_cls_from_units (map cu us) b = view_cls_from_units (map cu vs) b -> digits_key us = digits_key vs -> us = vs.
Proof.
  intros b P Q us vs w RP RQ NU NV L B TP TQ EV EK. apply digits_inj in EK. pose proof (takes_view b P us w RP NU L B TP) as FP. pose proof (takes_view b Q vs w RQ NV L B TQ) as FQ.
  assert (LN : length us = length vs) by (rewrite <- (map_length dig us), EK; apply map_length).
  assert (G : exists ws, Forall all_legal ws /\ Forall2 unit_fits us ws /\ Forall2 unit_fits vs ws).
  { destruct us as [|x [|y us]]; [congruence| |]; (destruct vs as [|x' [|y' vs]]; [congruence|..]; try (cbn in LN; lia)).
    - exists [w]. split; [constructor; [exact L|constructor]|]. auto.
    - exists (map cat (vgroups (view_cls_from_units (map cu (x :: y :: us)) b) w)). split; [|split; [exact FP|rewrite EV; exact FQ]].
      pose proof (groups_concat _ _ L (vgroups_groups (view_cls_from_units (map cu (x :: y :: us)) b) w)) as GC. eapply parts_legal; [exact L|exact GC]. }
  destruct G as (ws & LW & F1 & F2). destruct RP as (_ & OP & _), RQ as (_ & OQ & _). clear - LW F1 F2 OP OQ EK. revert vs OQ EK F2. induction F1 as [|x g us ws H F1 IH]; intros vs OQ EK F2; [inversion F2; reflexivity|].
  inversion F2 as [|y ? vs' ? H' F2']; subst. cbn [map] in EK. inversion OP; inversion OQ; inversion LW; subst. f_equal; [eapply same_unit; try eassumption; congruence|]. apply IH; try assumption. congruence.
Qed.
Lemma pos_total : forall b w p q, made b p -> made b q -> all_legal w -> ~ In 92%N w -> takes b (mp_str p) w -> takes b (mp_str q) w -> mp_str p <> mp_str q ->
  mp_lt p q = true \/ mp_lt q p = true.
Proof.
  intros b w p q MP MQ L B TP TQ NE. pose proof TP as (us & ws & RP & _). pose proof TQ as (vs & ws' & RQ & _).
  assert (D1 : us = [] \/ us <> []) by (destruct us; [left; reflexivity|right; discriminate]). assert (D2 : vs = [] \/ vs <> []) by (destruct vs; [left; reflexivity|right; discriminate]).
  destruct D1 as [->|N1]; [|destruct D2 as [->|N2]].
  - exfalso. apply NE. assert (W : w = []). { destruct TP as (us' & ws1 & R1 & C & F). rewrite (reads_unique _ _ _ R1 RP) in *. inversion F; subst. cbn [cut_for] in C. destruct C as [(_ & (a & n & e & E & _) & _)|(_ & [[_ (E & _)]|[N _]])]; [discriminate|symmetry; exact E|exfalso; apply N; constructor]. }
    subst w. rewrite (takes_nil b _ vs RQ TQ) in RQ. destruct RP as [<- _], RQ as [<- _]. reflexivity.
  - exfalso. assert (W : w = []). { destruct TQ as (us' & ws1 & R1 & C & F). rewrite (reads_unique _ _ _ R1 RQ) in *. inversion F; subst. cbn [cut_for] in C. destruct C as [(_ & (a & n & e & E & _) & _)|(_ & [[_ (E & _)]|[N _]])]; [discriminate|symmetry; exact E|exfalso; apply N; constructor]. }
    subst w. apply N1. exact (takes_nil b _ us RP TP).
  - unfold made in MP, MQ. pose proof (reads_ok _ us b RP N1) as E1. pose proof (reads_ok _ vs b RQ N2) as E2. rewrite MP in E1. rewrite MQ in E2. injection E1 as E1. injection E2 as E2.
    unfold mp_lt. destruct (vcls_eqb (mp_view p) (mp_view q)) eqn:V.
    + replace (vcls_eqb (mp_view q) (mp_view p)) with true by (unfold vcls_eqb in *; rewrite Nat.eqb_sym; symmetry; exact V). destruct (str_ltb_total (cmp_key q) (cmp_key p)) as [E|[E|E]]; [|left; exact E|right; exact E]. exfalso. apply NE.
      assert (us = vs). { apply (pos_same b (mp_str p) (mp_str q) us vs w RP RQ N1 N2 L B TP TQ).
        - rewrite E1, E2 in V. cbn [mp_view] in V. unfold vcls_eqb in V. apply Nat.eqb_eq in V. revert V. generalize (view_cls_from_units (map cu us) b) (view_cls_from_units (map cu vs) b). intros [] [] V; try reflexivity; discriminate.
        - rewrite E1, E2 in E. rewrite !cmp_digits in E. symmetry. exact E. }
      destruct RP as [X1 _], RQ as [X2 _]. rewrite <- X1, <- X2. congruence.
    + replace (vcls_eqb (mp_view q) (mp_view p)) with false by (unfold vcls_eqb in *; rewrite Nat.eqb_sym; symmetry; exact V).
      unfold vcls_eqb in V. apply Nat.eqb_neq in V. rewrite !Nat.ltb_lt. lia.
Qed.

(** ** the results of a call *)
Definition fitted (fw : bool * str) (p : match_pattern) : Prop :=
  made (fst fw) p /\ all_legal (snd fw) /\ ~ In 92%N (snd fw) /\ takes (fst fw) (mp_str p) (snd fw) /\ canonical (mp_str p).
Lemma up_total : forall fws a b, Forall2 fitted fws a -> Forall2 fitted fws b -> map mp_str a <> map mp_str b -> up_lt a b = true \/ up_lt b a = true.
Proof.
  intros fws a b Fa. revert b. induction Fa as [|[f w] x fws a Hx Fa IH]; intros b Fb N; inversion Fb as [|? y ? b' Hy Fb']; subst; [congruence|].
  cbn [up_lt]. destruct (str_eqb (mp_str x) (mp_str y)) eqn:E1.
  - apply str_eqb_eq in E1. rewrite (proj2 (str_eqb_eq _ _) (eq_sym E1)). apply IH; [exact Fb'|]. cbn [map] in N. congruence.
  - assert (NE : mp_str x <> mp_str y) by (intros E; rewrite (proj2 (str_eqb_eq _ _) E) in E1; discriminate).
    destruct (str_eqb (mp_str y) (mp_str x)) eqn:E2; [apply str_eqb_eq in E2; congruence|].
    destruct Hx as (X1 & X2 & X3 & X4 & _), Hy as (Y1 & _ & _ & Y4 & _). exact (pos_total f w x y X1 Y1 X2 X3 X4 Y4 NE).
Qed.
Definition fws (m : url_meta) (raw : list str) : list (bool * str) := combine (flags (depth m) (path_depth m)) raw.
Lemma fitted_made : forall fl raw l, length fl = length raw -> Forall2 fitted (combine fl raw) l -> Forall2 made fl l.
Proof.
  induction fl as [|f fl IH]; intros [|w raw] l L F; try discriminate; cbn [combine] in F; inversion F as [|? p ? l' H F']; subst; constructor; [apply H|]. apply (IH raw); [cbn in L; lia|exact F'].
Qed.
Lemma fitted_intro : forall fl raw l, length fl = length raw -> Forall2 made fl l -> Forall all_legal raw -> Forall (fun w => ~ In 92%N w) raw -> Forall canonical (map mp_str l) ->
  (forall i P w f, nth_error (map mp_str l) i = Some P -> nth_error raw i = Some w -> nth_error fl i = Some f -> takes f P w) -> Forall2 fitted (combine fl raw) l.
Proof.
  induction fl as [|f fl IH]; intros [|w raw] l L M LG B CN T; try discriminate; inversion M as [|? p ? l' H M']; subst; cbn [combine]; constructor.
  - inversion LG; inversion B; inversion CN; subst. split; [exact H|]. cbn [fst snd]. split; [assumption|]. split; [assumption|]. split; [exact (T 0 (mp_str p) w f eq_refl eq_refl eq_refl)|assumption].
  - inversion LG; inversion B; inversion CN; subst. apply IH; try assumption; [cbn in L; lia|]. intros i P v g N1 N2 N3. exact (T (S i) P v g N1 N2 N3).
Qed.
Lemma flags_nth : forall n d i f, nth_error (flags n d) i = Some f -> f = (S i =? d).
Proof.
  intros n d i f H. unfold flags in H. rewrite nth_error_map in H. destruct (nth_error (seq 1 n) i) as [k|] eqn:E; [|discriminate]. cbn in H. inversion H; subst.
  assert (LT : i < n). { rewrite <- (seq_length n 1). apply nth_error_Some. congruence. } pose proof (seq_nth (len := n) 1 0 LT) as S. rewrite (nth_error_nth _ _ 0 E) in S. subst k. reflexivity.
Qed.
Lemma found_fitted : forall nv h url m raw fs f, url_path nv url = Some (m, raw) -> Forall (fun w => ~ In 92%N w) raw -> accepted_canonical nv h ->
  match_url nv (mloads nv h) url = Ok fs -> In f fs -> Forall2 fitted (fws m raw) (fst f).
Proof.
  intros nv h url m raw fs f U B AC M I. destruct f as [path node]. cbn [fst].
  destruct (c28 nv h url m raw U B AC) as (gs & G & _ & X). rewrite M in G. injection G as <-.
  assert (C := proj1 (X (map mp_str path)) (in_map (fun f => map mp_str (fst f)) _ _ I)). cbn [fst] in C. destruct C as (_ & _ & _ & _ & _ & LN & T).
  assert (MD : Forall2 made (flags (depth m) (path_depth m)) path /\ Forall canonical (map mp_str path)).
  { destruct (match_exact nv h url m raw U B) as (gs & G & _ & Y).
    { intros s mt m' ps J P. destruct (pat_parse_load nv s mt m' ps P) as (b & L). assert (CAN : Forall canonical (map mp_str ps)) by (apply (AC s mt b m' _ J L); apply (pat_parse_analyze nv); exact P).
      apply pat_parse_analyze in P. destruct P as (_ & _ & K). rewrite Forall_map in CAN. rewrite Forall_forall in CAN |- *. intros p JP. destruct (In_nth_error _ _ JP) as (n & N). pose proof (mk_patterns_nth _ _ _ _ _ _ K N) as E. destruct (CAN p JP) as (us & R & SL). exact (reads_pcanon _ us _ p R SL E). }
    rewrite M in G. injection G as <-. destruct (proj1 (Y path) (ex_intro _ node I)) as ((s & mt & IS & PP) & _). split; [|destruct (pat_parse_load nv s mt m path PP) as (b & L); apply (AC s mt b m _ IS L); apply (pat_parse_analyze nv); exact PP]. apply pat_parse_ok in PP. destruct PP as (_ & _ & PP). exact (parse_made _ _ _ _ PP). }
  destruct MD as [MD CN].
  destruct (url_path_parse _ _ _ _ U) as (_ & LG & _). destruct (url_path_depth _ _ _ _ U) as [LD _]. unfold fws. apply fitted_intro; try assumption.
  - unfold flags. rewrite map_length, seq_length. congruence.
  - intros i P w g N1 N2 N3. apply flags_nth in N3. subst g. exact (T i P w N1 N2).
Qed.
Lemma fws_length : forall nv url m raw, url_path nv url = Some (m, raw) -> length (flags (depth m) (path_depth m)) = length raw.
Proof. intros nv url m raw U. destruct (url_path_depth _ _ _ _ U) as [LD _]. unfold flags. rewrite map_length, seq_length. congruence. Qed.
Lemma same_found : forall fl a b, Forall2 made fl a -> Forall2 made fl b -> map mp_str a = map mp_str b -> a = b.
Proof.
  intros fl a b Fa. revert b. induction Fa as [|f x fl a H Fa IH]; intros b Fb E; inversion Fb as [|? y ? b' H' Fb']; subst; [reflexivity|]. cbn [map] in E. assert (E1 : mp_str x = mp_str y) by congruence. assert (E2 : map mp_str a = map mp_str b') by congruence. f_equal; [exact (made_det _ _ _ H H' E1)|exact (IH b' Fb' E2)].
Qed.

Lemma found_total : forall m raw f g, Forall2 fitted (fws m raw) (fst f) -> Forall2 fitted (fws m raw) (fst g) -> map mp_str (fst f) <> map mp_str (fst g) -> found_lt f g = true \/ found_lt g f = true.
Proof.
  intros m raw f g F G N. unfold found_lt. apply (up_total (rev (fws m raw))); [apply forall2_rev; exact F|apply forall2_rev; exact G|]. intros E. rewrite !map_rev in E. apply N. rewrite <- (rev_involutive (map mp_str (fst f))), E. apply rev_involutive.
Qed.
Lemma nodup_nth : forall A B (k : A -> B) l i j x y, NoDup (map k l) -> i <> j -> nth_error l i = Some x -> nth_error l j = Some y -> k x <> k y.
Proof.
  intros A B k l i j x y ND N H1 H2 E. apply N. assert (LI : i < length (map k l)) by (rewrite map_length; apply nth_error_Some; congruence). apply (proj1 (NoDup_nth_error (map k l)) ND i j LI). rewrite !nth_error_map, H1, H2. cbn. congruence.
Qed.
Theorem c30_total : forall nv h url m raw fs i j f g, url_path nv url = Some (m, raw) -> Forall (fun w => ~ In 92%N w) raw -> accepted_canonical nv h ->
  match_url nv (mloads nv h) url = Ok fs -> i <> j -> nth_error fs i = Some f -> nth_error fs j = Some g -> found_lt f g = true \/ found_lt g f = true.
Proof.
  intros nv h url m raw fs i j f g U B AC M N NI NJ. apply (found_total m raw); [eapply found_fitted; try eassumption; eapply nth_error_In; eassumption..|].
  destruct (c28 nv h url m raw U B AC) as (gs & G & ND & _). rewrite M in G. injection G as <-. exact (nodup_nth _ _ _ _ _ _ _ _ ND N NI NJ).
Qed.
Lemma found_trans : forall nv url m raw, url_path nv url = Some (m, raw) -> forall a b c, Forall2 fitted (fws m raw) (fst a) -> Forall2 fitted (fws m raw) (fst b) -> Forall2 fitted (fws m raw) (fst c) ->
  found_lt a b = true -> found_lt b c = true -> found_lt a c = true.
Proof.
  intros nv url m raw U a b c A B C. unfold found_lt. apply (up_lt_trans (rev (flags (depth m) (path_depth m)))); apply forall2_rev; apply (fitted_made _ raw); try assumption; exact (fws_length _ _ _ _ U).
Qed.

(** ** the best match *)
Theorem c31_best : forall srt nv h url m raw fs, sorts srt -> url_path nv url = Some (m, raw) -> Forall (fun w => ~ In 92%N w) raw -> accepted_canonical nv h ->
  match_url nv (mloads nv h) url = Ok fs -> forall f, firstn 1 (srt found_lt fs) = [f] <-> greatest fs f.
Proof.
  intros srt nv h url m raw fs SO U B AC M. destruct (SO found_lt fs) as [P SS].
  assert (S : StronglySorted (fun a b => found_lt b a = true) (srt found_lt fs)).
  { apply SS; [intros x _; apply up_lt_irrefl| |].
    - intros x y z X Y Z. apply (found_trans nv url m raw U); eapply found_fitted; eassumption.
    - intros i j x y. apply (c30_total nv h url m raw fs i j x y U B AC M). }
  assert (F1 : forall f, firstn 1 (srt found_lt fs) = [f] -> greatest fs f).
  { intros f E. destruct (srt found_lt fs) as [|x l] eqn:EL; [discriminate|]. cbn in E. injection E as ->. split; [apply (Permutation_in _ (Permutation_sym P)); left; reflexivity|].
    intros g G. apply (Permutation_in _ P) in G. destruct G as [->|G]; [left; reflexivity|right]. inversion S as [|? ? _ FA]; subst. rewrite Forall_forall in FA. exact (FA g G). }
  intros f. split; [apply F1|]. intros [I G]. destruct (srt found_lt fs) as [|x l] eqn:EL; [apply (Permutation_in _ P) in I; destruct I|]. cbn [firstn]. f_equal.
  destruct (F1 x eq_refl) as [I' G']. destruct (G x I') as [E|H]; [exact E|]. destruct (G' f I) as [E|H']; [symmetry; exact E|]. exfalso.
  assert (T := found_trans nv url m raw U x f x (found_fitted _ _ _ _ _ _ _ U B AC M I') (found_fitted _ _ _ _ _ _ _ U B AC M I) (found_fitted _ _ _ _ _ _ _ U B AC M I') H H'). unfold found_lt in T. rewrite up_lt_irrefl in T. discriminate.
Qed.
Theorem c31_order : forall nv h h' url m raw fs fs' f f', url_path nv url = Some (m, raw) -> Forall (fun w => ~ In 92%N w) raw ->
  accepted_canonical nv h -> accepted_canonical nv h' -> (forall s, (exists me, In (s, me) h) <-> (exists me, In (s, me) h')) ->
  match_url nv (mloads nv h) url = Ok fs -> match_url nv (mloads nv h') url = Ok fs' -> greatest fs f -> greatest fs' f' -> fst f = fst f'.
Proof.
  intros nv h h' url m raw fs fs' f f' U B A A' S M M' [I G] [I' G'].
  assert (FF : forall x, In x fs -> Forall2 fitted (fws m raw) (fst x)) by (intros x; exact (found_fitted _ _ _ _ _ _ _ U B A M)).
  assert (FF' : forall x, In x fs' -> Forall2 fitted (fws m raw) (fst x)) by (intros x; exact (found_fitted _ _ _ _ _ _ _ U B A' M')).
  assert (L := fws_length _ _ _ _ U).
  assert (EQ : forall x y : found, Forall2 fitted (fws m raw) (fst x) -> Forall2 fitted (fws m raw) (fst y) -> map mp_str (fst x) = map mp_str (fst y) -> fst x = fst y).
  { intros x y X Y. apply (same_found (flags (depth m) (path_depth m))); apply (fitted_made _ raw); assumption. }
  pose proof (c28_order nv h h' url m raw fs fs' U B A A' S M M') as O.
  pose proof (proj1 (O (map mp_str (fst f))) (in_map (fun f => map mp_str (fst f)) _ _ I)) as Y. apply in_map_iff in Y. destruct Y as (y & EY & IY).
  pose proof (proj2 (O (map mp_str (fst f'))) (in_map (fun f => map mp_str (fst f)) _ _ I')) as X. apply in_map_iff in X. destruct X as (x & EX & IX).
  apply EQ in EX; [|auto|auto]. apply EQ in EY; [|auto|auto]. destruct (G x IX) as [->|H]; [exact EX|]. destruct (G' y IY) as [->|H']; [symmetry; exact EY|]. exfalso.
  assert (T := found_trans nv url m raw U f' f f' (FF' _ I') (FF _ I) (FF' _ I')). unfold found_lt in *. rewrite EX in H. rewrite EY in H'. specialize (T H H'). rewrite up_lt_irrefl in T. discriminate.
Qed.

(** ** the literal pattern *)
Lemma lit_upat : forall w, upat w (piece (pp_of w)) (map UL (runs w)).
Proof.
  intros w. split; [|split].
  - rewrite map_map. cbn [uruns]. induction (runs w) as [|r l IH]; [reflexivity|]. cbn [map List.concat app]. f_equal. exact IH.
  - rewrite Forall_map. apply Forall_forall. intros; exact Logic.I.
  - rewrite map_map. reflexivity.
Qed.
Lemma lit_litb : forall rw, run_ok rw -> litb (uc (UL rw)) = true.
Proof.
  intros rw H. pose proof H as [N _]. unfold litb. cbn [uc]. destruct (in_sign_rules (fst rw)) eqn:S.
  - rewrite cls_no_lit. assert (Z : (0 <? znum (Some (N.of_nat (length (snd rw)))))%Z = true). { destruct (snd rw); [congruence|]. cbn. reflexivity. } rewrite Z. cbn [andb].
    assert (X : forallb (fun r => negb (in_sign_rules r && in_digit_ascii r)) RULES = true) by (vm_compute; reflexivity). rewrite forallb_forall in X.
    pose proof (run_ok_in_rules _ H) as R. apply str_in_In in R. specialize (X _ R). rewrite S in X. exact X.
  - assert (OK : cunit_ok (CLit (snd rw))). { apply (lit_unit_literal (fst rw)). split; [apply sign_or_alnum; [apply run_ok_in_rules; exact H|exact S]|]. exact H. }
    destruct (literal_run _ OK) as [(D & N' & F) _]. eapply MatchUnits.unit_lit_inv; [apply (cu_mk (CLit (snd rw)) OK)|split; [exact D|split; [exact N'|exact F]]].
Qed.
Lemma lit_view : forall b w p, all_legal w -> ~ In 92%N w -> made b p -> mp_str p = piece (pp_of w) -> mp_view p = VPiece.
Proof.
  intros b w p L B M E. unfold made in M. rewrite E in M. assert (D : w = [] \/ w <> []) by (destruct w; [left; reflexivity|right; discriminate]). destruct D as [->|N].
  - change (piece (pp_of [])) with (@nil char) in M. unfold mk_match_pattern in M. vm_compute in M. injection M as <-. reflexivity.
  - destruct (own_reads w _ _ L B (lit_upat w)) as [R _]. assert (RN : runs w <> []). { intros RN. apply N. rewrite <- (cat_runs w L). rewrite RN. reflexivity. }
    assert (LB : forallb litb (map uc (map UL (runs w))) = true). { rewrite map_map. apply forallb_forall. intros x I. apply in_map_iff in I. destruct I as (rw & <- & I). apply lit_litb. destruct (runs_spec w L) as (F & _). rewrite Forall_forall in F. exact (F rw I). }
    assert (UN : map uc (map UL (runs w)) <> []) by (destruct (runs w); [congruence|discriminate]).
    pose proof (reads_ok _ _ b R UN) as Q. rewrite M in Q. injection Q as ->. cbn [mp_view]. revert LB UN. generalize (map uc (map UL (runs w))). clear. intros us LB UN.
    destruct us as [|x [|y us]]; [congruence| |].
    + cbn [forallb] in LB. unfold litb in LB. rewrite andb_true_r in LB. cbn [map view_cls_from_units]. rewrite LB. reflexivity.
    + unfold view_cls_from_units. cbn [map]. change (cu x :: cu y :: map cu us) with (map cu (x :: y :: us)). rewrite multi_cls, LB.
      replace (forallb oneb (x :: y :: us)) with true; [cbn; rewrite andb_false_r; reflexivity|]. symmetry. apply forallb_forall. intros z I. apply lit_one. rewrite forallb_forall in LB. apply LB. exact I.
Qed.
Lemma lit_canonical : forall w, all_legal w -> ~ In 92%N w -> canonical (piece (pp_of w)).
Proof.
  intros w L B. destruct (own_reads w _ _ L B (lit_upat w)) as [R _]. exists (map uc (map UL (runs w))). split; [exact R|]. intros _. rewrite map_map, Forall_map. apply Forall_forall. intros rw _. cbn [uc]. destruct (in_sign_rules (fst rw)); [|exact Logic.I].
  intros [E|[]]. rewrite E. reflexivity.
Qed.
Lemma lit_takes : forall b w, all_legal w -> ~ In 92%N w -> takes b (piece (pp_of w)) w.
Proof.
  intros b w L B. pose proof (lit_canonical w L B) as C. pose proof C as (us & R & _). destruct (reads_mk _ us b R) as (p & M).
  assert (E : mp_str p = piece (pp_of w)). { unfold mk_match_pattern in M. destruct (pattern_units (piece (pp_of w))); [|discriminate]. cbn [bind] in M. injection M as <-. reflexivity. }
  apply (takes_pos _ b p w C M L B). assert (MD : made b p) by (unfold made; rewrite E; exact M). pose proof (lit_view b w p L B MD E) as V. split.
  - assert (D : w = [] \/ w <> []) by (destruct w; [left; reflexivity|right; discriminate]). destruct D as [->|N].
    + change (piece (pp_of [])) with (@nil char) in M. unfold mk_match_pattern in M. vm_compute in M. injection M as <-. reflexivity.
    + unfold mk_match_pattern in M. rewrite (upat_units w _ _ L B N (lit_upat w)) in M. cbn [bind] in M. injection M as <-. unfold mp_fuzzy. cbn [mp_units]. rewrite (upat_fuzzy w _ _ L (lit_upat w)). symmetry. apply fuzzy_cset.
  - unfold acc2. rewrite V. cbn. unfold MatchLevel.sacc. rewrite V. symmetry. exact E.
Qed.
Lemma lit_least : forall b w p q, fitted (b, w) p -> fitted (b, w) q -> mp_str p = piece (pp_of w) -> mp_str p <> mp_str q -> mp_lt p q = false.
Proof.
  intros b w p q (MP & L & B & _) (MQ & _ & _ & TQ & CQ) E N. cbn [fst snd] in *. pose proof (lit_view b w p L B MP E) as V. unfold mp_lt. rewrite V.
  destruct (vcls_eqb VPiece (mp_view q)) eqn:VE; [|destruct (view_order (mp_view q)); reflexivity]. exfalso. assert (VQ : mp_view q = VPiece) by (destruct (mp_view q); [reflexivity|discriminate VE..]).
  apply (takes_pos _ b q w CQ MQ L B) in TQ. destruct TQ as [_ A]. unfold acc2 in A. rewrite VQ in A. cbn in A. unfold MatchLevel.sacc in A. rewrite VQ in A. congruence.
Qed.
Lemma lit_up : forall fws a b, Forall2 fitted fws a -> Forall2 fitted fws b -> map mp_str a = map (fun fw => piece (pp_of (snd fw))) fws -> up_lt a b = false.
Proof.
  intros fws a b Fa. revert b. induction Fa as [|[f w] x fws a Hx Fa IH]; intros b Fb E; inversion Fb as [|? y ? b' Hy Fb']; subst; [reflexivity|].
  cbn [map snd] in E. assert (E1 : mp_str x = piece (pp_of w)) by congruence. assert (E2 : map mp_str a = map (fun fw => piece (pp_of (snd fw))) fws) by congruence.
  cbn [up_lt]. destruct (str_eqb (mp_str x) (mp_str y)) eqn:EB; [exact (IH b' Fb' E2)|]. apply (lit_least f w); try assumption. intros EE. rewrite (proj2 (str_eqb_eq _ _) EE) in EB. discriminate.
Qed.
Lemma snd_combine : forall A B (C : Type) (k : B -> C) (l : list A) (l' : list B), length l = length l' -> map (fun x => k (snd x)) (combine l l') = map k l'.
Proof. intros A B C k l. induction l as [|x l IH]; intros [|y l'] L; try discriminate; [reflexivity|]. cbn [combine map snd]. f_equal. apply IH. cbn in L. lia. Qed.
Theorem c31_literal : forall nv h url m raw fs f s me, url_path nv url = Some (m, raw) -> Forall (fun w => ~ In 92%N w) raw -> accepted_canonical nv h ->
  match_url nv (mloads nv h) url = Ok fs -> In (s, me) h -> startswith s (u "/") = true -> analyze_url_pattern_string s = Ok (m, map piece_of raw) ->
  greatest fs f -> map mp_str (fst f) = map piece_of raw.
Proof.
  intros nv h url m raw fs f s me U B AC M I SS A [IF G]. destruct (url_path_parse _ _ _ _ U) as (_ & LG & _).
  assert (EP : map piece_of raw = map (fun w => piece (pp_of w)) raw). { rewrite piece_of_legal by exact LG. apply map_map. }
  destruct (c28 nv h url m raw U B AC) as (gs & EG & _ & X). rewrite M in EG. injection EG as <-.
  assert (J : In (map piece_of raw) (map (fun f => map mp_str (fst f)) fs)).
  { apply X. exists s, me. split; [exact I|]. split; [exact SS|]. split; [exact A|]. split; [apply map_length|]. intros i P w N1 N2. rewrite EP, nth_error_map, N2 in N1. cbn in N1. injection N1 as <-.
    rewrite Forall_forall in LG, B. apply lit_takes; [apply LG; eapply nth_error_In; exact N2|apply B; eapply nth_error_In; exact N2]. }
  apply in_map_iff in J. destruct J as (g & E & IG). destruct (G g IG) as [->|H]; [exact E|]. exfalso. unfold found_lt in H.
  pose proof (found_fitted _ _ _ _ _ _ _ U B AC M IG) as FG. pose proof (found_fitted _ _ _ _ _ _ _ U B AC M IF) as FF.
  rewrite (lit_up (rev (fws m raw))) in H; [discriminate|apply forall2_rev; exact FG|apply forall2_rev; exact FF|]. rewrite !map_rev, E, EP. f_equal. unfold fws. symmetry.
  apply (snd_combine _ _ _ (fun w => piece (pp_of w))). exact (fws_length _ _ _ _ U).
Qed.

(** a sort *)
Fixpoint ins (lt : found -> found -> bool) (x : found) (l : list found) : list found :=
  match l with
  | [] => [x]
  | y :: r => if lt x y then y :: ins lt x r else x :: l
  end.
Definition isort (lt : found -> found -> bool) (l : list found) : list found := fold_right (ins lt) [] l.
Lemma ins_perm : forall lt x l, Permutation (x :: l) (ins lt x l).
Proof. intros lt x l. induction l as [|y l IH]; [apply Permutation_refl|]. cbn [ins]. destruct (lt x y); [|apply Permutation_refl]. etransitivity; [apply perm_swap|]. constructor. exact IH. Qed.
Lemma isort_perm : forall lt l, Permutation l (isort lt l).
Proof. intros lt l. induction l as [|x l IH]; [constructor|]. cbn [isort fold_right]. etransitivity; [constructor; exact IH|]. apply ins_perm. Qed.
Lemma isort_sorts : sorts isort.
Proof.
  intros lt l. split; [apply isort_perm|]. intros IR TR TO.
  assert (X : forall l0, (forall x, In x l0 -> In x l) -> (forall i j x y, i <> j -> nth_error l0 i = Some x -> nth_error l0 j = Some y -> lt x y = true \/ lt y x = true) -> StronglySorted (fun a b => lt b a = true) (isort lt l0)).
  { induction l0 as [|x l0 IH]; intros SUB T0; [constructor|]. cbn [isort fold_right]. fold (isort lt l0).
    assert (SR : StronglySorted (fun a b => lt b a = true) (isort lt l0)). { apply IH; [intros z Z; apply SUB; right; exact Z|]. intros i j a b N H1 H2. apply (T0 (S i) (S j) a b); [lia|exact H1|exact H2]. }
    assert (XT : forall y, In y (isort lt l0) -> In y l /\ (lt x y = true \/ lt y x = true)).
    { intros y IY. apply (Permutation_in _ (Permutation_sym (isort_perm lt l0))) in IY. split; [apply SUB; right; exact IY|]. destruct (In_nth_error _ _ IY) as (n & NN). apply (T0 0 (S n) x y); [lia|reflexivity|exact NN]. }
    assert (XI : In x l) by (apply SUB; left; reflexivity). clear IH T0 SUB. induction SR as [|y r SR IHS FA]; [constructor; constructor|].
    cbn [ins]. destruct (lt x y) eqn:E.
    - constructor; [apply IHS; intros z Z; apply XT; right; exact Z|]. apply Forall_forall. intros z Z. apply (Permutation_in _ (Permutation_sym (ins_perm lt x r))) in Z. destruct Z as [<-|Z]; [exact E|]. rewrite Forall_forall in FA. exact (FA z Z).
    - constructor; [constructor; assumption|]. destruct (XT y (or_introl eq_refl)) as [YI [E'|YX]]; [congruence|]. constructor; [exact YX|]. apply Forall_forall. intros z Z. rewrite Forall_forall in FA. apply (TR z y x); [apply XT; right; exact Z|exact YI|exact XI|exact (FA z Z)|exact YX]. }
  apply X; [auto|]. exact TO.
Qed.
Theorem c31_exists : forall nv h url m raw fs, url_path nv url = Some (m, raw) -> Forall (fun w => ~ In 92%N w) raw -> accepted_canonical nv h ->
  match_url nv (mloads nv h) url = Ok fs -> fs <> [] -> exists f, greatest fs f.
Proof.
  intros nv h url m raw fs U B AC M N. destruct (isort found_lt fs) as [|f l] eqn:E.
  - pose proof (isort_perm found_lt fs) as P. rewrite E in P. apply Permutation_sym, Permutation_nil in P. contradiction.
  - exists f. apply (c31_best isort nv h url m raw fs isort_sorts U B AC M). rewrite E. reflexivity.
Qed.
Theorem c31_unique : forall nv h url m raw fs f g, url_path nv url = Some (m, raw) -> Forall (fun w => ~ In 92%N w) raw -> accepted_canonical nv h ->
  match_url nv (mloads nv h) url = Ok fs -> greatest fs f -> greatest fs g -> f = g.
Proof.
  intros nv h url m raw fs f g U B AC M F G. apply (c31_best isort nv h url m raw fs isort_sorts U B AC M) in F, G. congruence.
Qed.
