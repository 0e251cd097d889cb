(** Fuzzy digests of patterns and URLs: equal only for equal structures and equal
    fuzzy rules, position by position. *)
From Coq Require Import String.
From Verif Require Import PyStr Defs UrlLib ParseUtils Spec Views Trees Patterns Matcher Observe MatchSpec PyStrProofs DefsProofs DictProofs PieceProofs UnitProofs BridgeProofs UrlProofs PackProofs DigestProofs MatchTree MatchLevel MatchNest.
From Coq Require Import Lia Permutation Sorted.

(** ** the separator of the query *)
Definition noq (s : str) : Prop := forall a b, s <> a ++ SINGLE_QUESTION ++ b.
Lemma noq_nil : noq [].
Proof. intros a b H. symmetry in H. apply app_eq_nil in H. destruct H as [_ H]. discriminate. Qed.
Lemma noq_sep : forall c a b, ~ In c SINGLE_QUESTION -> noq a -> noq b -> noq (a ++ c :: b).
Proof.
  intros c a b NC HA HB x y E. apply app_eq_app in E. destruct E as (l & [[E1 E2]|[E1 E2]]).
  - (* x inside a *)
    apply app_eq_app in E2. destruct E2 as (l2 & [[E2 E3]|[E2 E3]]).
    + (* SQ = l ++ l2 *)
      destruct l2 as [|z l2].
      * rewrite app_nil_r in E2. apply (HA x []). rewrite app_nil_r. rewrite E1, E2. reflexivity.
      * cbn [app] in E3. inversion E3; subst z. apply NC. rewrite E2. apply in_app_iff. right. left. reflexivity.
    + subst l. apply (HA x l2). rewrite E1. reflexivity.
  - destruct l as [|z l].
    + cbn [app] in E2. rewrite app_nil_r in E1. inversion E2. subst c. apply NC. left. reflexivity.
    + cbn [app] in E2. inversion E2. apply (HB l y). assumption.
Qed.
Lemma noq_join : forall l, Forall noq l -> noq (join [SLASH] l).
Proof.
  induction 1 as [|w l H F IH]; [apply noq_nil|]. destruct l as [|v l]; [exact H|]. rewrite join_cons. cbn [app]. apply noq_sep; auto. vm_compute. intuition discriminate.
Qed.
Lemma noq_question : forall s, ~ In QUESTION s -> noq s.
Proof. intros s H a b ->. apply H. apply in_app_iff. right. apply in_app_iff. left. vm_compute. auto. Qed.
Lemma noq_split : forall p p' t t', noq p -> noq p' -> p ++ SINGLE_QUESTION ++ t = p' ++ SINGLE_QUESTION ++ t' -> p = p' /\ t = t'.
Proof.
  assert (X : forall l t t', l ++ SINGLE_QUESTION ++ t' = SINGLE_QUESTION ++ t -> l = [] \/ exists r, l = SINGLE_QUESTION ++ r).
  { intros l t t' H. change SINGLE_QUESTION with [91; 92; 63; 93]%N in *. destruct l as [|a [|b [|c [|d l]]]]; cbn [app] in H; auto; inversion H; subst; right; exists l; reflexivity. }
  intros p p' t t' N N' E. pose proof E as E0. apply app_eq_app in E. destruct E as (l & [[E1 E2]|[E1 E2]]).
  - symmetry in E2. destruct (X _ _ _ E2) as [-> |(r & ->)].
    + rewrite app_nil_r in E1. subst p. split; [reflexivity|]. cbn [app] in E2. apply app_inv_head in E2. congruence.
    + exfalso. apply (N p' r). exact E1.
  - destruct (X _ _ _ (eq_sym E2)) as [-> |(r & ->)].
    + rewrite app_nil_r in E1. subst p'. split; [reflexivity|]. cbn [app] in E2. apply app_inv_head in E2. congruence.
    + exfalso. apply (N' p r). exact E1.
Qed.

(** ** injectivity of pack *)
Definition packed (m : url_meta) (fz : list str) : Prop :=
  exists pp vs fr, fz = pp ++ vs ++ match fr with Some f => [f] | None => [] end /\
    path_depth m = length pp /\ 1 <= length pp /\ has_fragment m = match fr with Some _ => true | None => false end /\
    length (query_keys m) = length vs /\ Forall (fun w => ~ In SLASH w /\ ~ In NUMBER w /\ noq w) pp /\
    Forall (fun kv => kv_ok (length (query_keys m) =? 1) (fst kv) (snd kv) /\ ~ In AMPERSAND (fst kv ++ snd kv) /\ ~ In NUMBER (fst kv ++ snd kv)) (combine (query_keys m) vs).
Lemma cut_opt_f : forall a b f g, ~ In NUMBER a -> ~ In NUMBER b -> a ++ opt_f f = b ++ opt_f g -> a = b /\ f = g.
Proof.
  intros a b f g NA NB E. destruct f as [f|], g as [g|]; cbn [opt_f] in E.
  - pose proof (cut_app NUMBER a f NA) as X. rewrite E in X. rewrite (cut_app NUMBER b g NB) in X. inversion X. auto.
  - exfalso. rewrite app_nil_r in E. apply NB. rewrite <- E. apply in_app_iff. right. left. reflexivity.
  - exfalso. rewrite app_nil_r in E. apply NA. rewrite E. apply in_app_iff. right. left. reflexivity.
  - rewrite !app_nil_r in E. auto.
Qed.
Lemma kvs_inj : forall b ks vs ks' vs', length ks = length vs -> length ks' = length vs' -> (b = true -> length ks = 1) ->
  Forall (fun kv => kv_ok b (fst kv) (snd kv)) (combine ks vs) -> Forall (fun kv => kv_ok b (fst kv) (snd kv)) (combine ks' vs') ->
  kvs ks vs = kvs ks' vs' -> ks = ks' /\ vs = vs'.
Proof.
  intros b ks vs ks' vs' L L' B F F' E. assert (LL : length ks = length ks'). { apply (f_equal (@length _)) in E. unfold kvs in E. rewrite !map_length, !combine_length in E. lia. }
  destruct b.
  - specialize (B eq_refl). destruct ks as [|k [|]]; try discriminate. destruct vs as [|v [|]]; try discriminate. destruct ks' as [|k' [|]]; try discriminate. destruct vs' as [|v' [|]]; try discriminate.
    inversion F as [|? ? K _]; subst. inversion F' as [|? ? K' _]; subst. unfold kvs in E. cbn in *. inversion E as [E'].
    pose proof (proj2 (kv_split _ _ _ K) eq_refl) as X. rewrite E' in X. rewrite (proj2 (kv_split _ _ _ K') eq_refl) in X. inversion X. auto.
  - clear B. revert vs ks' vs' L L' F F' E LL. induction ks as [|k ks IH]; intros [|v vs] [|k' ks'] [|v' vs'] L L' F F' E LL; try discriminate; auto.
    inversion F as [|? ? K FF]; subst. inversion F' as [|? ? K' FF']; subst. unfold kvs in E. cbn in K, K', E, FF, FF', L, L', LL. inversion E as [[E' E2]].
    pose proof (proj1 (kv_split _ _ _ K) eq_refl) as X. rewrite E' in X. rewrite (proj1 (kv_split _ _ _ K') eq_refl) in X. inversion X; subst.
    destruct (IH vs ks' vs') as [-> ->]; auto.
Qed.
Lemma no_hash_kvs : forall m vs, Forall (fun kv => ~ In NUMBER (fst kv ++ snd kv)) (combine (query_keys m) vs) -> ~ In NUMBER (join [AMPERSAND] (kvs (query_keys m) vs)).
Proof.
  intros m vs F I. apply in_join in I. destruct I as [[I|[]]|(w & Hw & I)]; [discriminate|]. unfold kvs in Hw. apply in_map_iff in Hw. destruct Hw as (kv & <- & Hi). rewrite Forall_forall in F. exact (F _ Hi I).
Qed.
Lemma packed_inj : forall m fz m' fz', packed m fz -> packed m' fz' -> pack m fz = pack m' fz' -> m = m' /\ fz = fz'.
Proof.
  intros [d ks hf] fz [d' ks' hf'] fz' (pp & vs & fr & -> & D & L1 & HF & LV & FP & FK) (pp' & vs' & fr' & -> & D' & L1' & HF' & LV' & FP' & FK') E.
  cbn [path_depth query_keys has_fragment] in *. rewrite !pack_parts in E by auto.
  set (P := SLASH :: join [SLASH] pp) in *. set (P' := SLASH :: join [SLASH] pp') in *. rewrite !app_assoc in E.
  assert (NP : forall l, Forall (fun w => ~ In SLASH w /\ ~ In NUMBER w /\ noq w) l -> ~ In NUMBER (SLASH :: join [SLASH] l)).
  { intros l F [I|I]; [discriminate|]. apply in_join in I. destruct I as [[I|[]]|(w & Hw & I)]; [discriminate|]. rewrite Forall_forall in F. destruct (F _ Hw) as (_ & X & _). exact (X I). }
  assert (NQ : forall k v, Forall (fun kv => ~ In NUMBER (fst kv ++ snd kv)) (combine k v) -> ~ In NUMBER (opt_q match k with [] => None | _ => Some (join [AMPERSAND] (kvs k v)) end)).
  { intros k v F I. destruct k as [|k0 k]; [exact I|]. unfold opt_q in I. apply in_app_or in I. destruct I as [I|I]; [vm_compute in I; intuition discriminate|]. exact (no_hash_kvs (UM 0 (k0 :: k) false) v F I). }
  apply cut_opt_f in E.
  2:{ intros I. apply in_app_or in I. destruct I as [I|I]; [exact (NP _ FP I)|]. revert I. apply NQ. eapply Forall_impl; [|exact FK]. intros kv X. apply X. }
  2:{ intros I. apply in_app_or in I. destruct I as [I|I]; [exact (NP _ FP' I)|]. revert I. apply NQ. eapply Forall_impl; [|exact FK']. intros kv X. apply X. }
  destruct E as [E ->].
  assert (QP : forall l, Forall (fun w => ~ In SLASH w /\ ~ In NUMBER w /\ noq w) l -> noq (SLASH :: join [SLASH] l)).
  { intros l F. change (noq ([] ++ SLASH :: join [SLASH] l)). apply noq_sep; [vm_compute; intuition discriminate|apply noq_nil|]. apply noq_join. eapply Forall_impl; [|exact F]. intros w X. apply X. }
  assert (Z : P = P' /\ ks = ks' /\ vs = vs').
  { destruct ks as [|k ks], ks' as [|k' ks'].
    - cbn [opt_q] in E. rewrite !app_nil_r in E. destruct vs; [|discriminate]. destruct vs'; [|discriminate]. auto.
    - exfalso. cbn [opt_q] in E. rewrite app_nil_r in E. exact (QP _ FP _ _ E).
    - exfalso. cbn [opt_q] in E. rewrite app_nil_r in E. symmetry in E. exact (QP _ FP' _ _ E).
    - cbn [opt_q] in E. apply noq_split in E; [|apply QP; assumption|apply QP; assumption]. destruct E as [EP E]. split; [exact EP|].
      apply join_inj in E; [|destruct vs; discriminate|destruct vs'; discriminate| |].
      + assert (LL : length (k :: ks) = length (k' :: ks')). { apply (f_equal (@length _)) in E. unfold kvs in E. rewrite !map_length, !combine_length in E. lia. }
        apply (kvs_inj (length (k :: ks) =? 1)); auto; [apply Nat.eqb_eq| |].
        * eapply Forall_impl; [|exact FK]. intros kv X. apply X.
        * rewrite LL. eapply Forall_impl; [|exact FK']. intros kv X. apply X.
      + unfold kvs. apply Forall_map. eapply Forall_impl; [|exact FK]. intros kv X. apply X.
      + unfold kvs. apply Forall_map. eapply Forall_impl; [|exact FK']. intros kv X. apply X. }
  destruct Z as (EP & -> & ->). inversion EP as [EJ]. apply join_inj in EJ; [|destruct pp; [cbn in L1; lia|discriminate]|destruct pp'; [cbn in L1'; lia|discriminate]| |].
  - subst pp'. rewrite D, D', HF, HF'. auto.
  - eapply Forall_impl; [|exact FP]. intros w X. apply X.
  - eapply Forall_impl; [|exact FP']. intros w X. apply X.
Qed.

(** ** URLs *)
Lemma url_packed : forall nv url m raw l, analyze_url nv url = Ok (m, raw) -> mapM piece_parse raw = Ok l -> packed m (map fuzzy_rule l).
Proof.
  intros nv url m raw l H M. apply analyze_url_spec in H. destruct H as (pp & ks & vs & fr & A). apply mapM_ok in M.
  assert (F : Forall2 fits raw (map fuzzy_rule l)). { clear A. induction M; constructor; auto. apply fits_fuzzy; auto. }
  destruct (analyzed_pats _ _ _ _ _ _ _ A F) as (pp' & vs' & fr' & E & (D & L1 & FP & _ & LV & FK) & Hf).
  exists pp', vs', fr'. rewrite E. split; [reflexivity|]. split; [exact D|]. split; [exact L1|]. split; [exact Hf|]. split; [exact LV|]. split.
  - eapply Forall_impl; [|exact FP]. intros w (X & Y & Z). split; [exact X|]. split; [exact Z|]. apply noq_question. exact Y.
  - eapply Forall_impl; [|exact FK]. intros kv (X & Y & Z & _). auto.
Qed.

(** ** patterns *)
Lemma in_firstn : forall A (x : A) n l, In x (firstn n l) -> In x l.
Proof. intros A x n l H. rewrite <- (firstn_skipn n l). apply in_app_iff. auto. Qed.
Lemma in_skipn : forall A (x : A) n l, In x (skipn n l) -> In x l.
Proof. intros A x n l H. rewrite <- (firstn_skipn n l). apply in_app_iff. auto. Qed.
Lemma unit_rules : forall w x, mk_unit w = Ok x ->
  (w = [] /\ pu_rules x = [[]]) \/
  (w <> [] /\ Forall (fun r => in_rules r = true) (pu_rules x) /\ forall c r, In c (u "/?#&=") -> In r (pu_rules x) -> In c r -> In c w).
Proof.
  intros w x H. unfold mk_unit in H. apply bind_ok in H. destruct H as ([rs n] & H & E). inversion E; subst x. cbn [pu_rules]. clear E.
  unfold parse_pattern_unit_string in H. apply bind_ok in H. destruct H as ([rs' n'] & H & E).
  assert (rs' = rs). { destruct ((0 <? n')%Z && _ || _)%bool; inversion E; reflexivity. } subst rs'. clear E.
  destruct w as [|c w]; [left; inversion H; auto|]. right. split; [discriminate|].
  destruct (N.eqb c BRACKETS_L).
  - cbn [negb] in H. apply bind_ok in H. destruct H as (k & _ & H). apply bind_ok in H. destruct H as (l & H & E). inversion E; subst.
    apply class_rules_inv in H. destruct H as (l & F & C & ->). rewrite fold_insert_set. split.
    + apply Forall_forall. intros r I. apply (proj1 (sorted_set_In l r)) in I. rewrite Forall_forall in F. exact (F r I).
    + intros y r _ I J. apply (proj1 (sorted_set_In l r)) in I.
      assert (K : In y (slice 1 match rfind_char BRACKETS_R (c :: w) with Some t => t | None => length (c :: w) - 1 end (c :: w))). { rewrite C. apply in_concat. eauto. }
      unfold slice in K. apply in_firstn in K. apply in_skipn in K. exact K.
  - cbn [negb] in H. destruct (char_rule c) as [r|] eqn:R; [|discriminate]. inversion H; subst. split.
    + constructor; [|constructor]. eapply rule_in_rules; eauto.
    + intros y r' Y [<-|[]] J. left. symmetry. eapply rule_special; eauto.
Qed.

(** '[' is only in the rule "\["; "\?" comes before it *)
Lemma rule_bracket : forall r a b, in_rules r = true -> r = a ++ 91%N :: b -> b = [] /\ r = u "\[".
Proof.
  intros r a b H E. apply str_in_In in H.
  assert (X : forallb (fun r => negb (char_in 91%N r) || str_eqb r (u "\[")) RULES = true) by (vm_compute; reflexivity).
  rewrite forallb_forall in X. specialize (X r H). apply orb_prop in X. destruct X as [X|X].
  - exfalso. rewrite (proj2 (char_in_In 91%N r)) in X; [discriminate|]. rewrite E. apply in_app_iff. right. left. reflexivity.
  - apply str_eqb_iff in X. rewrite X in E |- *. split; [|reflexivity]. change (u "\[") with [92; 91]%N in E. destruct a as [|x [|y a]]; cbn in E; inversion E; auto. destruct a; discriminate.
Qed.
Lemma rule_backslash : forall r c b, in_rules r = true -> r = 92%N :: c :: b -> b = [].
Proof.
  intros r c b H E. apply str_in_In in H.
  assert (X : forallb (fun r => match r with a :: _ :: _ :: _ => negb (N.eqb a 92) | _ => true end) RULES = true) by (vm_compute; reflexivity).
  rewrite forallb_forall in X. specialize (X r H). rewrite E in X. destruct b; [reflexivity|discriminate].
Qed.
Lemma rule_two : forall r b, in_rules r = true -> r = 92%N :: b -> b <> [].
Proof.
  intros r b H E ->. apply str_in_In in H.
  assert (X : forallb (fun r => negb (str_eqb r [92%N])) RULES = true) by (vm_compute; reflexivity).
  rewrite forallb_forall in X. specialize (X r H). rewrite E in X. discriminate.
Qed.
Lemma noq_rules : forall l, StronglySorted str_lt l -> Forall (fun r => r = [] \/ in_rules r = true) l -> noq (List.concat l).
Proof.
  induction l as [|r l IH]; intros S F; [apply noq_nil|]. apply StronglySorted_inv in S. destruct S as [S SF]. inversion F as [|? ? R FL]; subst. specialize (IH S FL).
  intros a b E. cbn [List.concat] in E. change SINGLE_QUESTION with [91; 92; 63; 93]%N in E. cbn [app] in E. apply app_eq_app in E. destruct E as (k & [[E1 E2]|[E1 E2]]).
  - destruct k as [|z k].
    + cbn [app] in E2. apply (IH [] b). symmetry. exact E2.
    + cbn [app] in E2. inversion E2 as [[E3 E4]]. subst z. destruct R as [R|R]; [rewrite R in E1; destruct a; discriminate|].
      destruct (rule_bracket r a k R E1) as [-> Er]. cbn [app] in E4. destruct l as [|r2 l]; [discriminate|]. cbn [List.concat] in E4.
      inversion SF as [|? ? LT _]. rewrite Er in LT. inversion FL as [|? ? R2 _]; subst.
      destruct R2 as [-> |R2]; [vm_compute in LT; discriminate|]. destruct r2 as [|y r2]; [vm_compute in R2; discriminate|]. cbn [app] in E4. inversion E4 as [[Ey E5]]. subst y.
      destruct r2 as [|y r2]; [exact (rule_two _ _ R2 eq_refl eq_refl)|]. rewrite (rule_backslash _ _ _ R2 eq_refl) in *. cbn [app] in E5. inversion E5; subst y. vm_compute in LT. discriminate.
  - apply (IH k b). exact E2.
Qed.
Definition dsub (raw pat : str) : Prop := (forall c, In c (u "/?#&=") -> In c pat -> In c raw) /\ (raw = [] -> pat = []).
Lemma mp_fuzzy_facts : forall p, mp_ok p -> noq (mp_fuzzy p) /\ dsub (mp_str p) (mp_fuzzy p).
Proof.
  intros p OK. destruct (mp_ok_facts p OK) as (NE & C & _ & F). unfold mp_fuzzy, units_fuzzy. split; [|split].
  - apply noq_rules; [apply sorted_set_sorted|]. apply Forall_forall. intros r I. apply (proj1 (sorted_set_In _ r)) in I. apply in_flat_map in I. destruct I as (x & I & J). rewrite Forall_forall in F. destruct (unit_rules _ _ (F x I)) as [[_ E]|(_ & G & _)].
    + rewrite E in J. destruct J as [<-|[]]. auto.
    + rewrite Forall_forall in G. auto.
  - intros c Y I. apply in_concat in I. destruct I as (r & I & J). apply (proj1 (sorted_set_In _ r)) in I. apply in_flat_map in I. destruct I as (x & I & K). rewrite Forall_forall in F. destruct (unit_rules _ _ (F x I)) as [[_ E]|(_ & _ & G)].
    + rewrite E in K. destruct K as [<-|[]]. destruct J.
    + rewrite <- C. apply in_concat. exists (pu_str x). split; [apply in_map; exact I|]. exact (G c r Y K J).
  - intros E. destruct (mp_units p) as [|x us]; [congruence|]. cbn [map List.concat] in C. rewrite E in C. apply app_eq_nil in C. destruct C as [C1 C2].
    assert (A : Forall (fun x => pu_rules x = [[]]) (x :: us)). { inversion F as [|? ? Fx Fu]; subst. constructor.
      - destruct (unit_rules _ _ Fx) as [[_ X]|(X & _)]; congruence.
      - clear -C2 Fu. induction Fu as [|y us Fy Fu IH]; [constructor|]. cbn [map List.concat] in C2. apply app_eq_nil in C2. destruct C2 as [C2 C3]. constructor; [|exact (IH C3)]. destruct (unit_rules _ _ Fy) as [[_ X]|(X & _)]; congruence. }
    assert (Y : forall r, In r (sorted_set (flat_map pu_rules (x :: us))) -> r = []). { intros r I. apply (proj1 (sorted_set_In _ r)) in I. apply in_flat_map in I. destruct I as (y & I & K). rewrite Forall_forall in A. rewrite (A y I) in K. destruct K as [<-|[]]. reflexivity. }
    revert Y. generalize (sorted_set (flat_map pu_rules (x :: us))). intros l. clear. induction l as [|r l IH]; intros Y; [reflexivity|]. cbn [List.concat]. rewrite (Y r (or_introl eq_refl)). apply IH. intros r' I. apply Y. right. exact I.
Qed.
(** *** analyze_url_pattern_string *)
Lemma find_char_some : forall c s i, find_char c s = Some i -> ~ In c (firstn i s) /\ exists b, s = firstn i s ++ c :: b.
Proof.
  intros c s. induction s as [|x s IH]; intros i H; [discriminate|]. cbn [find_char] in H. destruct (N.eqb_spec x c) as [-> |NE].
  - inversion H; subst. split; [auto|]. exists s. reflexivity.
  - destruct (find_char c s) as [j|]; [|discriminate]. inversion H; subst i. destruct (IH j eq_refl) as [N (b & E)]. cbn [firstn app]. split; [intros [X|X]; [congruence|exact (N X)]|]. exists b. f_equal. exact E.
Qed.
Lemma find_char_none_inv : forall c s, find_char c s = None -> ~ In c s.
Proof.
  intros c s. induction s as [|x s IH]; intros H; [auto|]. cbn [find_char] in H. destruct (N.eqb_spec x c) as [-> |NE]; [discriminate|]. destruct (find_char c s) as [j|]; [discriminate|]. intros [X|X]; [congruence|exact (IH eq_refl X)].
Qed.
Lemma parse_pattern_no_hash : forall s p, rs_path (parse_url_pattern_string s) = Some p ->
  ~ In NUMBER p /\ (forall q, rs_query (parse_url_pattern_string s) = Some q -> ~ In NUMBER q).
Proof.
  intros s p H. unfold parse_url_pattern_string in *. destruct (find_char NUMBER s) as [f|] eqn:EF.
  - apply find_char_some in EF. destruct EF as [N _]. destruct f as [|f].
    { destruct (find SINGLE_QUESTION s) as [[|q]|]; discriminate. }
    destruct (find SINGLE_QUESTION s) as [[|q]|]; [discriminate| |].
    + destruct (Nat.ltb_spec (S q) (S f)) as [L|L]; cbn [rs_path rs_query] in *; inversion H; subst p; (split; [|intros t E; inversion E; subst t]).
      * intros I. apply N. replace (S f) with (S q + (S f - S q)) by lia. rewrite <- (firstn_skipn (S q) (firstn (S q + (S f - S q)) s)). rewrite firstn_firstn. replace (Nat.min (S q) (S q + (S f - S q))) with (S q) by lia. apply in_app_iff. left. exact I.
      * unfold slice. intros I. destruct (Nat.le_gt_cases (S q + 4) (S f)) as [G|G].
        { apply N. rewrite firstn_skipn_comm in I. apply in_skipn in I. replace (S (q + 4) + (S f - S (q + 4))) with (S f) in I by lia. exact I. }
        { replace (S f - S (q + 4)) with 0 in I by lia. exact I. }
      * exact N.
    + cbn [rs_path rs_query] in *. inversion H; subst p. split; [exact N|discriminate].
  - apply find_char_none_inv in EF. destruct (find SINGLE_QUESTION s) as [[|q]|]; [discriminate| |]; cbn [rs_path rs_query] in *; injection H as <-.
    + split; [intros I; exact (EF (in_firstn _ _ (S q) s I))|]. intros t E. injection E as <-. intros I. exact (EF (in_skipn _ _ (S q + 4) s I)).
    + split; [exact EF|discriminate].
Qed.

Lemma in_split_char : forall c s w x, In w (split_char c s) -> In x w -> In x s.
Proof.
  intros c s w x Hw Hx. rewrite <- (split_join c s). induction (split_char c s) as [|a l IH]; [destruct Hw|].
  destruct l as [|b l]. { destruct Hw as [->|[]]. auto. }
  rewrite join_cons. destruct Hw as [->|Hw]; [apply in_or_app; auto|]. apply in_or_app. right. apply in_or_app. right. exact (IH Hw).
Qed.
(** the parts of a pattern: like [analyzed], keys not normalized *)
Lemma analyze_pattern_spec : forall s m raw, analyze_url_pattern_string s = Ok (m, raw) ->
  exists pp vs fr, raw = pp ++ vs ++ match fr with Some f => [f] | None => [] end /\
    path_depth m = length pp /\ 1 <= length pp /\ has_fragment m = match fr with Some _ => true | None => false end /\
    length (query_keys m) = length vs /\ Forall (fun w => ~ In SLASH w /\ ~ In NUMBER w) pp /\
    Forall (fun kv => kv_ok (length (query_keys m) =? 1) (fst kv) (snd kv) /\ ~ In AMPERSAND (fst kv ++ snd kv) /\ ~ In NUMBER (fst kv ++ snd kv)) (combine (query_keys m) vs) /\
    Forall (fun w => w <> []) (removelast pp).
Proof.
  intros s m raw H. unfold analyze_url_pattern_string, unpack in H. destruct (rs_path (parse_url_pattern_string s)) as [p|] eqn:EP; [|discriminate].
  apply parse_pattern_no_hash in EP. destruct EP as [NP NQ]. set (pp := filter_useless nonempty (tl (split_char SLASH p))) in *.
  destruct (Nat.leb_spec (length pp) 0); [discriminate|].
  destruct (parse_query_string (rs_query (parse_url_pattern_string s))) as [[ks vs]|] eqn:Q; [|discriminate]. cbn [bind] in H. inversion H; subst m raw.
  apply parse_query_ok in Q. destruct Q as (L & KN & F & J). exists pp, vs, (rs_fragment (parse_url_pattern_string s)). cbn [path_depth query_keys has_fragment].
  split; [destruct (rs_fragment (parse_url_pattern_string s)); reflexivity|]. split; [reflexivity|]. split; [lia|]. split; [destruct (rs_fragment (parse_url_pattern_string s)); reflexivity|]. split; [exact L|]. split; [|split].
  - apply Forall_forall. intros w I. apply filter_useless_incl in I. assert (W : In w (split_char SLASH p)) by (destruct (split_char SLASH p); [destruct I|right; exact I]). split.
    + eapply split_char_nosep. exact W.
    + intros X. apply NP. eapply in_split_char; eauto.
  - rewrite Forall_forall in F |- *. intros kv Hi. destruct (F kv Hi) as (F1 & F2 & F3). split; [exact F1|]. split; [exact F2|]. intros X.
    destruct (rs_query (parse_url_pattern_string s)) as [q|]; [|rewrite (proj2 KN eq_refl) in Hi; destruct Hi]. apply (NQ q eq_refl). rewrite <- (J q eq_refl).
    clear -Hi X. induction (combine ks vs) as [|a l IH]; [destruct Hi|]. cbn [map]. destruct l as [|b l].
    + destruct Hi as [->|[]]. exact X.
    + cbn [map] in *. rewrite join_cons. apply in_or_app. destruct Hi as [->|Hi]; auto. right. apply in_or_app; right. apply IH; auto.
  - apply filter_useless_init.
Qed.
Lemma kv_ok_sub : forall b k v v', kv_ok b k v -> dsub v v' -> kv_ok b k v'.
Proof.
  intros b k v v' K [V1 V2]. destruct K as [K|[(-> & H & ->)|(-> & -> & H)]]; [left; exact K| |].
  - right; left. auto.
  - right; right. split; auto. split; auto. intros I. apply H. apply V1; auto. vm_compute; auto 10.
Qed.
Lemma pat_packed : forall nv s m ps, pat_parse nv s = Some (m, ps) -> packed m (map mp_fuzzy ps).
Proof.
  intros nv s m ps H. apply pat_parse_ok in H. destruct H as (OK & NE & H). unfold parse in H. destruct (startswith s [SLASH]).
  2:{ apply bind_ok in H. destruct H as ([m' r] & _ & H). apply bind_ok in H. destruct H as (l & _ & H). discriminate. }
  apply bind_ok in H. destruct H as ([m' r] & A & H). apply bind_ok in H. destruct H as (ms & M & H). inversion H; subst m' ms. clear H. apply mk_patterns_ok in M. destruct M as [_ M].
  apply analyze_pattern_spec in A. destruct A as (pp & vs & fr & E & D & L1 & HF & LV & FP & FK & _). subst r.
  assert (F2 : Forall2 (fun p r => r = mp_str p /\ mp_ok p) ps (pp ++ vs ++ match fr with Some f => [f] | None => [] end)).
  { rewrite <- M. clear -OK. induction OK; cbn [map]; constructor; auto. }
  apply Forall2_app_inv_r in F2. destruct F2 as (a & b & FA & FB & ->). apply Forall2_app_inv_r in FB. destruct FB as (bv & bf & FV & FF & ->).
  assert (LA : length a = length pp) by (eapply Forall2_length; exact FA). assert (LB : length bv = length vs) by (eapply Forall2_length; exact FV).
  exists (map mp_fuzzy a), (map mp_fuzzy bv), (match bf with x :: _ => Some (mp_fuzzy x) | [] => None end). rewrite !map_app, !map_length.
  split; [do 2 f_equal; destruct fr as [f|]; inversion FF as [|x ? bf' ? _ FG]; subst; [inversion FG; subst; reflexivity|reflexivity]|].
  split; [congruence|]. split; [lia|]. split; [rewrite HF; destruct fr as [f|]; inversion FF; subst; reflexivity|]. split; [congruence|]. split.
  - clear -FA FP. induction FA as [|x y l l' [-> K] F IH]; [constructor|]. inversion FP as [|? ? [NS NN] FP']; subst. cbn [map]. constructor; [|exact (IH FP')]. destruct (mp_fuzzy_facts x K) as [Q [D _]].
    split; [|split; [|exact Q]]; intros I; apply D in I; auto; vm_compute; auto 10.
  - clear -FV FK. revert FK. generalize (length (query_keys m) =? 1) as b. intros b. generalize (query_keys m) as ks. intros ks FK. revert ks FK.
    induction FV as [|x y l l' [-> K] F IH]; intros ks FK; [destruct ks; constructor|]. destruct ks as [|k ks]; [constructor|]. cbn [map combine] in *. inversion FK as [|? ? (F1 & F2 & F3) FK']; subst. constructor; [|exact (IH ks FK')]. cbn [fst snd] in *.
    destruct (mp_fuzzy_facts x K) as [_ D]. split; [eapply kv_ok_sub; eauto|]. destruct D as [D _].
    split; intros I; apply in_app_or in I; destruct I as [I|I].
    + apply F2. apply in_app_iff. auto.
    + apply F2. apply in_app_iff. right. apply D; auto. vm_compute. auto 10.
    + apply F3. apply in_app_iff. auto.
    + apply F3. apply in_app_iff. right. apply D; auto. vm_compute. auto 10.
Qed.
Lemma pat_digest_inj : forall nv s s' m m' ps ps', pat_parse nv s = Some (m, ps) -> pat_parse nv s' = Some (m', ps') ->
  parsed_digest m (PPat ps) = parsed_digest m' (PPat ps') -> m = m' /\ map mp_fuzzy ps = map mp_fuzzy ps'.
Proof. intros nv s s' m m' ps ps' H H' E. exact (packed_inj _ _ _ _ (pat_packed _ _ _ _ H) (pat_packed _ _ _ _ H') E). Qed.
Lemma url_digest_inj : forall nv url m raw l s m' ps, analyze_url nv url = Ok (m, raw) -> mapM piece_parse raw = Ok l -> pat_parse nv s = Some (m', ps) ->
  parsed_digest m (PUrl l) = parsed_digest m' (PPat ps) -> m = m' /\ map fuzzy_rule l = map mp_fuzzy ps.
Proof. intros nv url m raw l s m' ps A M H E. exact (packed_inj _ _ _ _ (url_packed _ _ _ _ _ A M) (pat_packed _ _ _ _ H) E). Qed.
