(** The tokens of a joined pattern determine the parts it was joined from, for
    groupings of the runs by a predicate on rules. *)
From Coq Require Import String.
From Verif Require Import PyStr Defs ParseUtils Views Trees Cluster Spec Observe PyStrProofs DefsProofs DictProofs RegexProofs PieceProofs LengthProofs GroupProofs TreeProofs TokProofs LengthStage PieceStage EntProofs GenCluster FlatCluster ViewProofs KeyProofs.
From Coq Require Import Lia Permutation.

(** *** the text of a token *)
Definition untok (t : rtok) : str :=
  match rset t with
  | [IChar c] => match char_rule c with
                 | Some r => if in_sign_rules r then unit_str r (rnum t) else [c]
                 | None => [c]
                 end
  | l => unit_str (List.concat (map item_rule l)) (rnum t)
  end.
Lemma sign_item : forall r, in_rules r = true -> in_sign_rules r = true -> exists c, rule_item r = IChar c /\ char_rule c = Some r.
Proof.
  intros r R S.
  assert (X : forallb (fun r => implb (in_sign_rules r) (match rule_item r with IChar c => match char_rule c with Some r' => str_eqb r' r | None => false end | _ => false end)) RULES = true) by (vm_compute; reflexivity).
  rewrite forallb_forall in X. apply str_in_In in R. apply X in R. rewrite S in R. cbn [implb] in R.
  destruct (rule_item r) as [a b|c]; [discriminate|]. exists c. split; [reflexivity|]. destruct (char_rule c); [|discriminate]. apply str_eqb_eq in R. congruence.
Qed.
Lemma nonsign_item : forall r, in_rules r = true -> in_sign_rules r = false -> exists a b, rule_item r = IRange a b.
Proof.
  intros r R S.
  assert (X : forallb (fun r => implb (negb (in_sign_rules r)) (match rule_item r with IRange _ _ => true | _ => false end)) RULES = true) by (vm_compute; reflexivity).
  rewrite forallb_forall in X. apply str_in_In in R. apply X in R. rewrite S in R. cbn [implb negb] in R.
  destruct (rule_item r) as [a b|c]; [eauto|discriminate].
Qed.
Lemma untok_class : forall C q, Forall (fun r => in_rules r = true) C -> untok (RT (map rule_item C) q) = unit_str (List.concat C) q.
Proof.
  intros C q F. assert (E : unit_str (List.concat C) q = unit_str (List.concat (map item_rule (map rule_item C))) q) by (rewrite item_rules by exact F; reflexivity).
  unfold untok. cbn [rset rnum]. destruct C as [|r [|r' C]].
  - exact (eq_sym E).
  - inversion F as [|? ? H _]; subst. cbn [map]. destruct (in_sign_rules r) eqn:S.
    + destruct (sign_item r H S) as (c & E1 & E2). rewrite E1, E2, S. cbn [List.concat]. rewrite app_nil_r. reflexivity.
    + destruct (nonsign_item r H S) as (a & b & E1). cbn [map] in E. rewrite E1 in *. exact (eq_sym E).
  - cbn [map] in *. destruct (rule_item r); exact (eq_sym E).
Qed.
Lemma untok_run : forall rw, run_ok rw -> List.concat (map untok (run_toks rw)) = render rw.
Proof.
  intros rw H. unfold run_toks, render. destruct (in_sign_rules (fst rw)) eqn:S.
  - cbn [map List.concat]. rewrite app_nil_r. pose proof (untok_class [fst rw] (Some (N.of_nat (length (snd rw))))) as X. cbn [map List.concat] in X. rewrite app_nil_r in X.
    apply X. constructor; [apply run_ok_in_rules; exact H|constructor].
  - destruct H as [_ H]. induction H as [|c w Hc F IH]; [reflexivity|]. cbn [map List.concat]. rewrite IH. unfold untok. cbn [rset rnum]. rewrite Hc, S. reflexivity.
Qed.
Lemma untok_ptoks : forall s k, all_legal s -> List.concat (map untok (ptoks s k)) = pstr s k.
Proof.
  intros s k L. destruct k; cbn [ptoks pstr].
  - unfold ltoks, piece, pp_of. cbn [pieces]. destruct (runs_spec s L) as (F & _ & _). induction F as [|rw l H F IH]; [reflexivity|].
    cbn [map List.concat]. rewrite map_app, concat_app, IH, untok_run by exact H. reflexivity.
  - cbn [map List.concat]. rewrite app_nil_r. apply untok_class. apply cset_rules. exact L.
  - cbn [map List.concat]. rewrite app_nil_r. apply untok_class. apply cset_rules. exact L.
Qed.

(** *** the rules of the tokens *)
Lemma ptoks_rules : forall s k, all_legal s -> Forall (fun t => trules t = cset s \/ exists r, trules t = [r] /\ In r (cset s)) (ptoks s k).
Proof.
  intros s k L.
  assert (X : forall q, trules (RT (map rule_item (cset s)) q) = cset s).
  { intros q. unfold trules. cbn [rset]. apply item_rules. apply cset_rules. exact L. }
  destruct k; cbn [ptoks]; [|constructor; [left; apply X|constructor]..].
  destruct (runs_spec s L) as (F & _ & _). unfold ltoks. apply Forall_forall. intros t I. apply in_concat in I. destruct I as (l & I1 & I2).
  apply in_map_iff in I1. destruct I1 as (rw & <- & I1). rewrite Forall_forall in F. destruct (run_trules rw (F rw I1)) as [T _]. rewrite Forall_forall in T.
  right. exists (fst rw). split; [apply T; exact I2|]. unfold cset. apply sorted_set_In. unfold pp_of. cbn [rules]. apply in_map. exact I1.
Qed.
Lemma ptoks_nonnil : forall s k, all_legal s -> s <> [] -> ptoks s k <> [].
Proof.
  intros s k L N. destruct k; [|discriminate..]. cbn [ptoks]. unfold ltoks. destruct (runs_spec s L) as (F & _ & E).
  destruct (runs s) as [|rw l]; [exfalso; apply N; exact (eq_sym E)|]. inversion F as [|? ? H _]; subst. destruct (run_trules rw H) as [_ T].
  cbn [map List.concat]. intros E'. apply app_eq_nil in E'. destruct E'. congruence.
Qed.
Lemma ptoks_cset : forall s k, all_legal s -> sorted_set (List.concat (map trules (ptoks s k))) = cset s.
Proof.
  intros s k L.
  assert (X : forall q, trules (RT (map rule_item (cset s)) q) = cset s).
  { intros q. unfold trules. cbn [rset]. apply item_rules. apply cset_rules. exact L. }
  destruct k; cbn [ptoks map List.concat]; [|rewrite app_nil_r, X; unfold cset; apply sorted_set_id; apply sorted_set_sorted..].
  unfold cset. apply sorted_set_ext. intros r. unfold ltoks, pp_of. cbn [rules]. destruct (runs_spec s L) as (F & _ & _).
  rewrite in_map_iff. split.
  - intros I. apply in_concat in I. destruct I as (l & I1 & I2). apply in_map_iff in I1. destruct I1 as (t & <- & I1).
    apply in_concat in I1. destruct I1 as (l & I3 & I4). apply in_map_iff in I3. destruct I3 as (rw & <- & I3). rewrite Forall_forall in F.
    destruct (run_trules rw (F rw I3)) as [T _]. rewrite Forall_forall in T. rewrite (T t I4) in I2. destruct I2 as [<-|[]]. eauto.
  - intros (rw & <- & I). rewrite Forall_forall in F. destruct (run_trules rw (F rw I)) as [T N]. destruct (run_toks rw) as [|t l] eqn:E; [congruence|].
    inversion T as [|? ? T1 _]; subst. apply in_concat. exists [fst rw]. split; [|left; reflexivity]. apply in_map_iff. exists t. split; [exact T1|].
    apply in_concat. exists (run_toks rw). split; [apply in_map; exact I|rewrite E; left; reflexivity].
Qed.

(** *** fitting as a list of choices *)
Notation wk := (str * kind1)%type.
Definition wstr (x : wk) : str := pstr (fst x) (snd x).
Definition wtoks (x : wk) : list rtok := ptoks (fst x) (snd x).
Definition wok (x : wk) : Prop := all_legal (fst x) /\ kok (fst x) (snd x).
Lemma fits_wk : forall ss Ps, Forall all_legal ss -> fits ss Ps -> exists l, map fst l = ss /\ map wstr l = Ps /\ Forall wok l.
Proof.
  intros ss Ps FL F. induction F as [|s P ss Ps (k & K & ->) F IH]; [exists []; split; [reflexivity|split; [reflexivity|constructor]]|].
  inversion FL; subst. destruct (IH ltac:(assumption)) as (l & A & B & C). exists ((s, k) :: l). cbn [map]. rewrite A, B.
  split; [reflexivity|]. split; [reflexivity|]. constructor; [split; assumption|exact C].
Qed.
Lemma wk_fits : forall l, Forall wok l -> fits (map fst l) (map wstr l).
Proof. intros l F. induction F as [|[s k] l [L K] F IH]; [constructor|]. cbn [map]. constructor; [exists k; split; [exact K|reflexivity]|exact IH]. Qed.
Lemma wk_rparse : forall l, Forall wok l -> rparse (List.concat (map wstr l)) = Some (List.concat (map wtoks l)).
Proof.
  intros l F. apply rparse_concat. induction F as [|[s k] l [L K] F IH]; [constructor|]. cbn [map]. constructor; [|exact IH]. apply pstr_rparse; assumption.
Qed.

(** *** blocks of equal keys *)
Section KB.
  Context {A K : Type} (kf : A -> K).
  Fixpoint kb (prev : option K) (bs : list (list A)) : Prop :=
    match bs with
    | [] => True
    | b :: r => exists k, b <> [] /\ Forall (fun x => kf x = k) b /\ prev <> Some k /\ kb (Some k) r
    end.
  Lemma kb_head : forall p bs x r, kb p bs -> List.concat bs = x :: r -> p <> Some (kf x).
  Proof.
    intros p [|b bs] x r H E; [discriminate|]. destruct H as (k & N & F & P & _). destruct b as [|y b]; [congruence|]. cbn [List.concat app] in E. inversion E; subst.
    inversion F; subst. exact P.
  Qed.
  Lemma kspan : forall k b b' R R', Forall (fun x => kf x = k) b -> Forall (fun x => kf x = k) b' ->
    (forall x r, R = x :: r -> kf x <> k) -> (forall x r, R' = x :: r -> kf x <> k) -> b ++ R = b' ++ R' -> b = b' /\ R = R'.
  Proof.
    intros k b. induction b as [|x b IH]; intros b' R R' F F' H H' E.
    - destruct b' as [|y b']; [auto|]. exfalso. cbn [app] in E. inversion F'; subst. eapply (H y); [reflexivity|first [assumption|reflexivity]].
    - destruct b' as [|y b']; cbn [app] in E.
      + exfalso. inversion F; subst. eapply (H' x); [reflexivity|first [assumption|reflexivity]].
      + inversion E as [[E1 E2]]. subst y. inversion F; inversion F'; subst. destruct (IH b' R R') as [-> ->]; auto.
  Qed.
  Lemma kb_uniq : forall bs bs' p p', kb p bs -> kb p' bs' -> List.concat bs = List.concat bs' -> bs = bs'.
  Proof.
    induction bs as [|b bs IH]; intros [|b' bs'] p p' H H' E.
    - reflexivity.
    - destruct H' as (k & N & _). destruct b'; [congruence|discriminate].
    - destruct H as (k & N & _). destruct b; [congruence|discriminate].
    - destruct H as (k & N & F & _ & H). destruct H' as (k' & N' & F' & _ & H'). cbn [List.concat] in E.
      assert (k' = k) as ->.
      { destruct b as [|x b]; [congruence|]. destruct b' as [|y b']; [congruence|]. cbn [app] in E. inversion E; subst. inversion F; inversion F'; subst. congruence. }
      destruct (kspan k b b' (List.concat bs) (List.concat bs')) as [-> E']; [exact F|exact F'| | |exact E|].
      + intros x r Ex Kx. apply (kb_head _ _ _ _ H Ex). congruence.
      + intros x r Ex Kx. apply (kb_head _ _ _ _ H' Ex). congruence.
      + f_equal. eapply IH; eauto.
  Qed.
End KB.

Section F.
  Context (F : str -> bool).
  Definition fr (rw : run) : bool := F (fst rw).
  Definition gF (s : str) : list (list run) := grp fr (runs s).
  Definition kF (t : rtok) : option (list str) := if forallb F (trules t) then None else Some (trules t).
  Definition pure (t : rtok) : Prop := forallb F (trules t) = true \/ exists r, trules t = [r].

  Lemma cat_nonnil : forall g, Forall run_ok g -> g <> [] -> cat g <> [].
  Proof.
    intros [|rw g] H N; [congruence|]. inversion H as [|? ? [H1 _] _]; subst. unfold cat. cbn [map List.concat]. destruct (snd rw); [congruence|discriminate].
  Qed.
  Lemma group_ok : forall g, Forall run_ok g -> adj' g -> all_legal (cat g) /\ runs (cat g) = g.
  Proof. intros g H A. split; [apply run_ok_legal; exact H|apply runs_cat; assumption]. Qed.
  Lemma group_in : forall g t k r, Forall run_ok g -> adj' g -> In t (ptoks (cat g) k) -> In r (trules t) -> In r (map fst g).
  Proof.
    intros g t k r H A I J. destruct (group_ok g H A) as [L E]. pose proof (ptoks_rules (cat g) k L) as X. rewrite Forall_forall in X.
    assert (In r (cset (cat g))) as Y by (destruct (X t I) as [Q|(r' & Q & Q')]; rewrite Q in J; [exact J|destruct J as [<-|[]]; exact Q']).
    rewrite cset_group in Y by exact E. apply (proj1 (sorted_set_In _ _)) in Y. exact Y.
  Qed.
  Lemma group_key : forall g k, g <> [] -> Forall run_ok g -> adj' g -> forallb fr g = true ->
    Forall (fun t => kF t = None) (ptoks (cat g) k) /\ ptoks (cat g) k <> [].
  Proof.
    intros g k N H A FG. destruct (group_ok g H A) as [L E]. split; [|apply ptoks_nonnil; [exact L|apply cat_nonnil; assumption]].
    apply Forall_forall. intros t I. unfold kF. replace (forallb F (trules t)) with true; [reflexivity|]. symmetry. apply forallb_forall. intros r J.
    apply (group_in g t k r H A I) in J. apply in_map_iff in J. destruct J as (rw & <- & J). rewrite forallb_forall in FG. apply FG. exact J.
  Qed.
  Lemma single_trules : forall rw t k, run_ok rw -> In t (ptoks (cat [rw]) k) -> trules t = [fst rw].
  Proof.
    intros rw t k H I. destruct (group_ok [rw]) as [L E]; [constructor; [exact H|constructor]|cbn; auto|].
    pose proof (ptoks_rules (cat [rw]) k L) as X. rewrite Forall_forall in X. rewrite cset_group in X by exact E. cbn [map sorted_set fold_right set_insert] in X.
    destruct (X t I) as [Q|(r' & Q & [<-|[]])]; exact Q.
  Qed.
  Lemma single_key : forall rw k, run_ok rw -> fr rw = false ->
    Forall (fun t => kF t = Some [fst rw]) (ptoks (cat [rw]) k) /\ ptoks (cat [rw]) k <> [].
  Proof.
    intros rw k H FG. assert (H' : Forall run_ok [rw]) by (constructor; [exact H|constructor]). destruct (group_ok [rw] H') as [L E]; [cbn; auto|].
    split; [|apply ptoks_nonnil; [exact L|apply cat_nonnil; [exact H'|discriminate]]].
    apply Forall_forall. intros t I. unfold kF. rewrite (single_trules rw t k H I). cbn [forallb]. unfold fr in FG. rewrite FG. reflexivity.
  Qed.

  (** the token blocks of a grouping by [F] *)
  Definition pr (prev : bool) (last : option run) : option (option (list str)) :=
    if prev then Some None else match last with Some rw => Some (Some [fst rw]) | None => None end.
  Lemma kb_blocks : forall bs prev last l, blocks fr prev bs -> Forall run_ok (List.concat bs) ->
    adj' (match last with Some rw => rw :: List.concat bs | None => List.concat bs end) ->
    (prev = false -> match last with Some rw => fr rw = false | None => True end) ->
    map fst l = map cat bs -> Forall wok l -> kb kF (pr prev last) (map wtoks l).
  Proof.
    induction bs as [|b bs IH]; intros prev last l B H A PV E W.
    - destruct l; [exact Logic.I|discriminate].
    - destruct l as [|[w k] l]; [discriminate|]. cbn [map] in E. inversion E as [[E1 E2]]. subst w. inversion W as [|? ? _ W']; subst.
      cbn [blocks] in B. destruct B as (N & B). cbn [List.concat] in H, A. apply Forall_app in H. destruct H as [H1 H2].
      assert (AB : adj' (b ++ List.concat bs)) by (destruct last; [destruct (b ++ List.concat bs); [exact Logic.I|apply A]|exact A]).
      pose proof (adj'_app_l _ _ AB) as A1. cbn [map kb]. unfold wtoks at 1. cbn [fst snd].
      destruct B as [(B1 & -> & B2)|(x & -> & B1 & B2)].
      + destruct (group_key b k N H1 A1 B1) as [K1 K2]. exists None. split; [exact K2|]. split; [exact K1|]. split.
        * unfold pr. destruct last; discriminate.
        * assert (X : exists rw b0, b = b0 ++ [rw]) by (destruct b using rev_ind; [congruence|eauto]). destruct X as (rw & b0 & ->).
          apply (IH true (Some rw) l B2 H2); [|discriminate|exact E2|exact W'].
          rewrite <- app_assoc in AB. apply adj'_app_r in AB. exact AB.
      + inversion H1 as [|? ? H3 _]; subst. destruct (single_key x k H3 B1) as [K1 K2]. exists (Some [fst x]). split; [exact K2|]. split; [exact K1|]. split.
        * unfold pr. destruct prev; [discriminate|]. destruct last as [rw|]; [|discriminate]. cbn [app adj'] in A. destruct A as [A _]. congruence.
        * apply (IH false (Some x) l B2 H2); [exact AB|intros _; exact B1|exact E2|exact W'].
  Qed.
  Lemma gF_groups : forall s, groups s (gF s).
  Proof. intros s. unfold groups, gF. apply grp_concat. Qed.
  Lemma kb_gF : forall s l, all_legal s -> map fst l = map cat (gF s) -> Forall wok l -> kb kF None (map wtoks l).
  Proof.
    intros s l L E W. destruct (runs_spec s L) as (H & A & _). pose proof (gF_groups s) as G. unfold groups in G.
    apply (kb_blocks (gF s) false None l); [apply blocks_grp|rewrite G; exact H|rewrite G; exact A|auto|exact E|exact W].
  Qed.
  Lemma wk_untok : forall l, Forall wok l -> map (fun b => List.concat (map untok b)) (map wtoks l) = map wstr l.
  Proof. intros l W. rewrite map_map. apply map_ext_in. intros x I. rewrite Forall_forall in W. apply untok_ptoks. apply W. exact I. Qed.
  Lemma wk_cset : forall l, Forall wok l -> map (fun b => sorted_set (List.concat (map trules b))) (map wtoks l) = map cset (map fst l).
  Proof. intros l W. rewrite !map_map. apply map_ext_in. intros x I. rewrite Forall_forall in W. apply ptoks_cset. apply W. exact I. Qed.

  Lemma gF_legal : forall s, all_legal s -> Forall all_legal (map cat (gF s)).
  Proof. intros s L. apply (legal_groups s); [exact L|apply gF_groups]. Qed.
  Lemma same_blocks : forall s1 s2 P1 P2, all_legal s1 -> all_legal s2 -> fits (map cat (gF s1)) P1 -> fits (map cat (gF s2)) P2 ->
    List.concat P1 = List.concat P2 -> P1 = P2 /\ map cset (map cat (gF s1)) = map cset (map cat (gF s2)).
  Proof.
    intros s1 s2 P1 P2 L1 L2 F1 F2 E.
    destruct (fits_wk _ _ (gF_legal s1 L1) F1) as (l1 & A1 & B1 & W1). destruct (fits_wk _ _ (gF_legal s2 L2) F2) as (l2 & A2 & B2 & W2).
    assert (T : List.concat (map wtoks l1) = List.concat (map wtoks l2)).
    { pose proof (wk_rparse l1 W1) as R1. pose proof (wk_rparse l2 W2) as R2. rewrite B1 in R1. rewrite B2 in R2. rewrite E in R1. congruence. }
    assert (Q : map wtoks l1 = map wtoks l2).
    { eapply (kb_uniq kF); [apply (kb_gF s1); assumption|apply (kb_gF s2); assumption|exact T]. }
    split; [rewrite <- B1, <- B2, <- (wk_untok l1 W1), <- (wk_untok l2 W2), Q; reflexivity|].
    rewrite <- A1, <- A2, <- (wk_cset l1 W1), <- (wk_cset l2 W2), Q. reflexivity.
  Qed.

  (** the tokens of a grouping by [F] *)
  Lemma gF_pure : forall s P T, all_legal s -> fits (map cat (gF s)) P -> rparse (List.concat P) = Some T -> Forall pure T.
  Proof.
    intros s P T L FI R. destruct (fits_wk _ _ (gF_legal s L) FI) as (l & A & B & W). rewrite <- B, wk_rparse in R by exact W. inversion R; subst T. clear R.
    destruct (runs_spec s L) as (H & AD & _). pose proof (gF_groups s) as G. unfold groups in G.
    pose proof (blocks_in _ _ _ _ (blocks_grp run fr (runs s))) as BI. fold (gF s) in BI.
    pose proof (groups_ok s (gF s) L (gF_groups s)) as GO.
    rewrite <- G in H. clear G B W FI AD.
    revert l A. induction (gF s) as [|g gs IH]; intros l A; (destruct l as [|[w k] l]; [|try discriminate]); try discriminate; [constructor|].
    cbn [map List.concat] in *. inversion A as [[A1 A2]]. subst w. apply Forall_app in H. destruct H as [H1 H2]. inversion BI as [|? ? [N BI1] BI2]; subst. inversion GO as [|? ? [GO1 GO2] GO3]; subst.
    apply Forall_app. split; [|apply IH; assumption]. apply Forall_forall. intros t I. unfold wtoks in I. cbn [fst snd] in I.
    assert (AG : adj' g) by (rewrite <- GO1; apply runs_spec; exact GO2).
    destruct BI1 as [BI1|(x & -> & BI1)].
    - left. destruct (group_key g k N H1 AG BI1) as [K _]. rewrite Forall_forall in K. specialize (K t I). unfold kF in K. destruct (forallb F (trules t)); [reflexivity|discriminate].
    - right. exists (fst x). inversion H1; subst. eapply single_trules; eauto.
  Qed.

  Lemma refine_one : forall g k, Forall run_ok g -> adj' g -> kok (cat g) k -> Forall pure (ptoks (cat g) k) ->
    exists Ps, fits (map cat (grp fr g)) Ps /\ List.concat Ps = pstr (cat g) k.
  Proof.
    intros g k H A K P. destruct (group_ok g H A) as [L E].
    assert (NL : k <> KLit -> g <> [] -> grp fr g = [g] -> exists Ps, fits (map cat (grp fr g)) Ps /\ List.concat Ps = pstr (cat g) k).
    { intros _ N ->. exists [pstr (cat g) k]. split; [|cbn; apply app_nil_r]. constructor; [exists k; auto|constructor]. }
    assert (NE : k <> KLit -> g <> []). { intros NK ->. destruct k; [congruence| |]; [destruct K as [K _]|]; apply K; reflexivity. }
    assert (CS : k <> KLit -> forallb F (cset (cat g)) = true \/ exists r, cset (cat g) = [r]).
    { intros NK. assert (X : forall q, trules (RT (map rule_item (cset (cat g))) q) = cset (cat g)).
      { intros q. unfold trules. cbn [rset]. apply item_rules. apply cset_rules. exact L. }
      destruct k; [congruence| |]; cbn [ptoks] in P; inversion P as [|? ? P1 _]; subst; unfold pure in P1; rewrite X in P1; exact P1. }
    assert (GO : k <> KLit -> grp fr g = [g]).
    { intros NK. destruct (CS NK) as [X|[r X]].
      - apply grp_all; [auto|]. apply forallb_forall. intros rw I. rewrite forallb_forall in X. apply X. rewrite cset_group by exact E. apply sorted_set_In. apply in_map. exact I.
      - rewrite cset_group in X by exact E. destruct (one_rule_one_run g r A X) as (x & -> & _). cbn [grp]. destruct (fr x); reflexivity. }
    destruct k; [|apply NL; [discriminate|apply NE; discriminate|apply GO; discriminate]..].
    clear - L E. assert (G : groups (cat g) (grp fr g)) by (unfold groups; rewrite grp_concat; symmetry; exact E).
    exists (map (fun t => piece (pp_of t)) (map cat (grp fr g))). split; [|apply groups_piece; assumption].
    induction (map cat (grp fr g)) as [|x l IH]; [constructor|]. cbn [map]. constructor; [exists KLit; split; [exact Logic.I|reflexivity]|exact IH].
  Qed.
  Lemma refine_all : forall gs Ps T, Forall run_ok (List.concat gs) -> adj' (List.concat gs) -> fits (map cat gs) Ps ->
    rparse (List.concat Ps) = Some T -> Forall pure T ->
    exists Ps', fits (map cat (flat_map (grp fr) gs)) Ps' /\ List.concat Ps' = List.concat Ps.
  Proof.
    intros gs Ps T H A FI R P.
    assert (FL : Forall all_legal (map cat gs)).
    { rewrite Forall_map. clear - H A. induction gs as [|g gs IH]; [constructor|]. cbn [List.concat] in *. apply Forall_app in H. destruct H as [H1 H2].
      constructor; [apply run_ok_legal; exact H1|apply IH; [exact H2|eapply adj'_app_r; exact A]]. }
    destruct (fits_wk _ _ FL FI) as (l & E1 & <- & W). rewrite wk_rparse in R by exact W. inversion R; subst T. clear R FI FL.
    revert l E1 W P. induction gs as [|g gs IH]; intros [|[w k] l] E W P; try discriminate.
    - exists []. split; [constructor|reflexivity].
    - cbn [map] in E. inversion E as [[E1 E2]]. subst w. cbn [List.concat map] in *. apply Forall_app in H, P. destruct H as [H1 H2], P as [P1 P2].
      inversion W as [|? ? [W1 W2] W3]; subst. destruct (refine_one g k H1 (adj'_app_l _ _ A) W2 P1) as (Q & Q1 & Q2).
      destruct (IH H2 (adj'_app_r _ _ A) l E2 W3 P2) as (Q' & Q3 & Q4). exists (Q ++ Q'). cbn [flat_map]. rewrite map_app, concat_app, Q2, Q4.
      split; [apply Forall2_app; assumption|reflexivity].
  Qed.
End F.

(** *** literal patterns *)
Definition lit_tok (t : rtok) : Prop := exists c n, t = RT [IChar c] (Some n).
Lemma ltoks_lit : forall s, all_legal s -> Forall lit_tok (ptoks s KLit).
Proof.
  intros s L. cbn [ptoks]. unfold ltoks. destruct (runs_spec s L) as (F & _ & _). induction F as [|rw l H F IH]; [constructor|]. cbn [map List.concat].
  apply Forall_app. split; [|exact IH]. unfold run_toks. destruct (in_sign_rules (fst rw)) eqn:S.
  - destruct (sign_item (fst rw)) as (c & E & _); [apply run_ok_in_rules; exact H|exact S|]. rewrite E. constructor; [eexists; eexists; reflexivity|constructor].
  - rewrite Forall_map. apply Forall_forall. intros c _. eexists; eexists; reflexivity.
Qed.
Lemma lit_tokens : forall s k, all_legal s -> kok s k -> Forall lit_tok (ptoks s k) -> k = KLit.
Proof.
  intros s k L K F. destruct k; [reflexivity|exfalso..]; cbn [ptoks] in F; inversion F as [|? ? (c & n & E) _]; subst; inversion E as [[E1 E2]].
  pose proof (cset_rules s L) as R. destruct (cset s) as [|r [|]] eqn:EC; try discriminate. cbn [map] in E1. inversion R as [|? ? R1 _]; subst.
  destruct (in_sign_rules r) eqn:S; [exact (sign_no_spec s r L EC S K)|]. destruct (nonsign_item r R1 S) as (a & b & X). congruence.
Qed.
(** if a joined pattern is the literal of a text, it is the literal of its own text *)
Lemma lit_joined : forall s1 s2 gs Ps, all_legal s1 -> all_legal s2 -> groups s1 gs -> fits (map cat gs) Ps ->
  List.concat Ps = pstr s2 KLit -> s1 = s2.
Proof.
  intros s1 s2 gs Ps L1 L2 G FI E. destruct (fits_wk _ _ (legal_groups s1 gs L1 G) FI) as (l & A & B & W).
  pose proof (wk_rparse l W) as R. rewrite B, E, pstr_rparse in R; [|exact L2|exact Logic.I]. inversion R as [R1]. clear R.
  pose proof (ltoks_lit s2 L2) as LT. cbn [ptoks] in LT. cbn [ptoks] in R1. rewrite R1 in LT.
  assert (K : Forall (fun x => snd x = KLit) l).
  { clear - W LT. induction W as [|[w k] l [W1 W2] W IH]; [constructor|]. cbn [map List.concat] in LT. apply Forall_app in LT. destruct LT as [LT1 LT2].
    constructor; [|auto]. cbn [snd]. eapply lit_tokens; eauto. }
  apply piece_inj; [exact L1|exact L2|]. cbn [pstr] in E. rewrite <- E, <- (groups_piece s1 gs L1 G), <- A, <- B. rewrite map_map.
  f_equal. apply map_ext_in. intros x I. rewrite Forall_forall in K. unfold wstr. rewrite (K x I). reflexivity.
Qed.
(** one class cannot be joined from two texts *)
Lemma one_joined : forall s1 s2 gs Ps k, all_legal s1 -> all_legal s2 -> groups s1 gs -> fits (map cat gs) Ps -> kok s2 k -> k <> KLit ->
  List.concat Ps = pstr s2 k -> (length (filter (fun g => negb (is_nil g)) gs) <= 1)%nat.
Proof.
  intros s1 s2 gs Ps k L1 L2 G FI K NK E. destruct (fits_wk _ _ (legal_groups s1 gs L1 G) FI) as (l & A & B & W).
  pose proof (wk_rparse l W) as R. rewrite B, E, pstr_rparse in R by assumption. inversion R as [R1]. clear R.
  assert (LEN : length (List.concat (map wtoks l)) = 1). { rewrite <- R1. destruct k; [congruence|reflexivity..]. }
  assert (GO : (length (filter (fun g => negb (is_nil g)) gs) <= length (List.concat (map wtoks l)))%nat); [|lia].
  destruct (runs_spec s1 L1) as (H & _ & _). unfold groups in G. rewrite <- G in H. clear - A W H. revert l A W.
  induction gs as [|g gs IH]; intros [|[w k] l] A W; try discriminate; [cbn; lia|]. cbn [map List.concat filter] in *. inversion A as [[A1 A2]]. subst w.
  apply Forall_app in H. destruct H as [H1 H2]. inversion W as [|? ? [W1 _] W2]; subst. specialize (IH H2 l A2 W2). rewrite app_length.
  destruct g as [|rw g]; cbn [is_nil negb]; [lia|]. cbn [length].
  pose proof (ptoks_nonnil (cat (rw :: g)) k W1 ltac:(apply cat_nonnil; [exact H1|discriminate])) as N. unfold wtoks at 1. cbn [fst snd].
  destruct (ptoks (cat (rw :: g)) k); [congruence|]. cbn [length]. lia.
Qed.
