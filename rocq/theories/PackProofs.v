(** pack and parse_url_pattern_string: round trip (C11) and fuzzy digests (C14). *)
From Coq Require Import String.
From Verif Require Import PyStr Defs UrlLib ParseUtils PyStrProofs DefsProofs Spec RegexProofs
  PieceProofs QueryProofs UnitProofs BridgeProofs UrlProofs.
From Coq Require Import Lia Sorted.

(** ** Normalised keys *)
Lemma dec_str_no : forall x n, is_digit x = false -> ~ In x (dec_str n).
Proof.
  intros x n H I. pose proof (dec_str_digits n) as F. rewrite Forall_forall in F. apply F in I. congruence.
Qed.
Definition key_char (x : char) : bool := char_in x [AMPERSAND; NUMBER; EQUALS].
Lemma key_char_spec : forall x, key_char x = true -> x = AMPERSAND \/ x = NUMBER \/ x = EQUALS.
Proof. intros x H. apply char_in_In in H. destruct H as [<-|[<-|[<-|[]]]]; auto. Qed.
Lemma rule_fmt_no : forall x c, key_char x = true -> c <> x -> ~ In x (get_rule_fmt c).
Proof.
  intros x c Hx Hc. unfold get_rule_fmt. destruct (char_rule c) as [r|] eqn:E.
  - pose proof (rule_forall (fun c r => forallb (fun x => implb (char_in x r) (N.eqb c x)) [AMPERSAND; NUMBER; EQUALS])
      ltac:(vm_compute; reflexivity) c r E) as X. cbv beta in X. rewrite forallb_forall in X.
    intros I. specialize (X x). apply char_in_In in Hx. specialize (X Hx).
    apply char_in_In in I. rewrite I in X. simpl in X. apply N.eqb_eq in X. auto.
  - intros I. apply key_char_spec in Hx as [->|[->| ->]]; vm_compute in I; intuition discriminate.
Qed.
Lemma specify_no : forall x r n w, key_char x = true -> ~ In x r -> specify_rule r n = Ok w -> ~ In x w.
Proof.
  intros x r n w Hx Hr H. rewrite specify_rule_unit in H. destruct (n =? 0)%Z; [discriminate|].
  inversion H; subst. unfold unit_str. intros [I|I].
  - subst x. vm_compute in Hx. discriminate.
  - apply in_app_or in I as [I|[I|I]]; auto.
    + subst x. vm_compute in Hx. discriminate.
    + destruct (if (n <? 0)%Z then None else Some (Z.to_N n)) as [k|]; simpl in I.
      * destruct (N.eqb k 1); [auto|]. destruct I as [I|I]; [subst x; vm_compute in Hx; discriminate|].
        apply in_app_or in I as [I|[I|[]]]; [|subst x; vm_compute in Hx; discriminate].
        revert I. apply dec_str_no. apply key_char_spec in Hx as [->|[->| ->]]; reflexivity.
      * destruct I as [I|[]]. subst x. vm_compute in Hx. discriminate.
Qed.
Lemma norm_frag_no : forall res x w w', key_char x = true -> ~ In x w -> norm_frag res w = Ok w' -> ~ In x w'.
Proof.
  intros res x [|c w] w' Hx Hw H; simpl in H.
  - inversion H; subst; auto.
  - destruct (char_in c res); [inversion H; subst; auto|].
    eapply specify_no; [auto| |exact H]. apply rule_fmt_no; auto. intros ->. apply Hw. simpl; auto.
Qed.
Lemma normalize_loop_no : forall res x s out frag last out' frag' last', key_char x = true ->
  ~ In x s -> ~ In x out -> ~ In x frag ->
  normalize_loop res s out frag last = Ok (out', frag', last') ->
  ~ In x out' /\ ~ In x frag' /\ (last' = last /\ s = [] \/ last' <> None /\ frag' <> [] /\ last' <> Some x).
Proof.
  induction s as [|c s IH]; intros out frag last out' frag' last' Hx Hs Ho Hf H.
  - inversion H; subst. auto.
  - cbn [normalize_loop] in H.
    match type of H with bind ?m _ = _ => destruct m as [[o f]|] eqn:E; [|discriminate] end. cbn [bind] in H.
    assert (P : ~ In x o /\ ~ In x f).
    { assert (A : forall w w', ~ In x w -> norm_frag res w = Ok w' -> ~ In x (out ++ w')).
      { intros w w' X Y I. apply in_app_or in I as [I|I]; auto. eapply norm_frag_no; eauto. }
      destruct (is_alnum c).
      - destruct last as [lc|]; [|inversion E; subst; auto].
        destruct (is_alnum lc); [inversion E; subst; auto|].
        destruct frag as [|f0 fr]; [inversion E; subst; auto|].
        destruct (norm_frag res (f0 :: fr)) eqn:N; [|discriminate]. cbn [bind] in E. inversion E; subst.
        split; auto. eapply A; eauto.
      - destruct (match last with Some lc => N.eqb lc c | None => false end); [inversion E; subst; auto|].
        destruct frag as [|f0 fr]; [inversion E; subst; auto|].
        destruct (is_alnum f0).
        + cbn [bind] in E. inversion E; subst. split; auto. intros I. apply in_app_or in I as [I|I]; auto.
        + destruct (norm_frag res (f0 :: fr)) eqn:N; [|discriminate]. cbn [bind] in E. inversion E; subst.
          split; auto. eapply A; eauto. }
    destruct P as [P1 P2].
    assert (Hs' : ~ In x s) by (simpl in Hs; auto). assert (Hc : c <> x) by (simpl in Hs; auto).
    assert (Pf : ~ In x (f ++ [c])).
    { intros I. apply in_app_or in I as [I|[I|[]]]; auto. }
    destruct (IH _ _ _ _ _ _ Hx Hs' P1 Pf H) as (Q1 & Q2 & Q3). split; auto. split; auto. right.
    destruct Q3 as [[-> ->]|Q3]; auto. simpl in H. inversion H; subst.
    repeat split; try discriminate; auto. { destruct f; discriminate. } congruence.
Qed.
Lemma normalize_no : forall res x s k, key_char x = true -> ~ In x s -> normalize s res = Ok k -> ~ In x k.
Proof.
  intros res x s k Hx Hs H. unfold normalize in H.
  destruct (normalize_loop res s [] [] None) as [[[o f] l]|] eqn:E; [|discriminate]. cbn [bind] in H.
  apply normalize_loop_no with (x := x) in E as (P1 & P2 & _); auto.
  match type of H with bind ?m _ = _ => destruct m as [w|] eqn:W; [|discriminate] end. cbn [bind] in H.
  inversion H; subst. intros I. apply in_app_or in I as [I|I]; auto. revert I.
  destruct l as [lc|]; [|inversion W; subst; auto].
  destruct (is_alnum lc); [inversion W; subst; auto|]. eapply norm_frag_no; eauto.
Qed.
Lemma normalize_loop_app : forall res a b out frag last,
  normalize_loop res (a ++ b) out frag last =
  '(o, f, l) <- normalize_loop res a out frag last ;; normalize_loop res b o f l.
Proof.
  induction a as [|c a IH]; intros b out frag last; auto. cbn [app normalize_loop].
  match goal with |- bind ?m _ = _ => destruct m as [[o f]|] end; cbn [bind]; auto.
Qed.
Lemma normalize_eq_end : forall s k, ~ In EQUALS s -> normalize (s ++ [EQUALS]) [EQUALS] = Ok k ->
  exists k0, k = k0 ++ [EQUALS] /\ ~ In EQUALS k0.
Proof.
  intros s k Hs H. unfold normalize in H. rewrite normalize_loop_app in H.
  destruct (normalize_loop [EQUALS] s [] [] None) as [[[o f] l]|] eqn:E; [|discriminate]. cbn [bind] in H.
  apply normalize_loop_no with (x := EQUALS) in E as (P1 & P2 & P3); auto.
  assert (L : match l with Some lc => N.eqb lc EQUALS | None => false end = false).
  { destruct P3 as [[-> _]|(_ & _ & P3)]; auto. destruct l as [lc|]; auto.
    apply N.eqb_neq. congruence. }
  cbn [normalize_loop] in H. change (is_alnum EQUALS) with false in H. cbv iota in H. rewrite L in H.
  destruct f as [|w0 f].
  - vm_compute in H. fold (@app N) in H. inversion H. exists o. auto.
  - match type of H with context [bind (if is_alnum w0 then ?x else ?y) _] =>
      destruct (if is_alnum w0 then x else y) as [w|] eqn:W end; [|cbn [bind] in H; discriminate].
    assert (Hw : ~ In EQUALS w).
    { destruct (is_alnum w0); [inversion W; subst; auto|]. eapply norm_frag_no; eauto. }
    cbn [bind] in H. change (is_alnum EQUALS) with false in H. cbv iota in H.
    change (norm_frag [EQUALS] ([] ++ [EQUALS])) with (Ok [EQUALS]) in H. cbn [bind] in H.
    inversion H. exists (o ++ w). split; auto. intros I. apply in_app_or in I as [I|I]; auto.
Qed.

(** ** Searching *)
Lemma find_none : forall s, ~ In QUESTION s -> find SINGLE_QUESTION s = None.
Proof.
  induction s as [|x s IH]; intros H; auto.
  cbn [find]. rewrite IH by (simpl in H; auto).
  destruct (startswith (x :: s) SINGLE_QUESTION) eqn:E; auto.
  apply startswith_app in E. exfalso. apply H. rewrite E. apply in_or_app. left. vm_compute. auto.
Qed.
Lemma startswith_self : forall p b, startswith (p ++ b) p = true.
Proof. induction p as [|x p IH]; intros b; simpl; [destruct b; auto|]. rewrite N.eqb_refl. apply IH. Qed.
Lemma find_first : forall a b, ~ In QUESTION a -> find SINGLE_QUESTION (a ++ SINGLE_QUESTION ++ b) = Some (length a).
Proof.
  induction a as [|x a IH]; intros b H.
  - cbn [app]. pose proof (startswith_self SINGLE_QUESTION b) as S.
    destruct (SINGLE_QUESTION ++ b) eqn:E; [discriminate|]. cbn [find]. rewrite S. auto.
  - cbn [app find]. rewrite IH by (simpl in H; auto).
    replace (startswith (x :: a ++ SINGLE_QUESTION ++ b) SINGLE_QUESTION) with false; auto. symmetry.
    destruct a as [|y [|z a]].
    + cbn. destruct (N.eqb x 91); reflexivity.
    + cbn. destruct (N.eqb x 91), (N.eqb y 92); reflexivity.
    + change (N.eqb x 91 && (N.eqb y 92 && (N.eqb z 63 && startswith (a ++ SINGLE_QUESTION ++ b) [93%N])) = false).
      destruct (N.eqb_spec z 63); [|destruct (N.eqb x 91), (N.eqb y 92); reflexivity].
      exfalso. apply H. simpl. auto.
Qed.
Lemma find_char_none : forall c s, ~ In c s -> find_char c s = None.
Proof.
  induction s as [|x s IH]; intros H; simpl; auto. destruct (N.eqb_spec x c); [exfalso; apply H; simpl; auto|].
  rewrite IH; simpl in *; auto.
Qed.
Lemma find_char_first : forall c a b, ~ In c a -> find_char c (a ++ c :: b) = Some (length a).
Proof.
  induction a as [|x a IH]; intros b H; simpl.
  - rewrite N.eqb_refl; auto.
  - destruct (N.eqb_spec x c); [exfalso; apply H; simpl; auto|]. rewrite IH; simpl in *; auto.
Qed.
Lemma find_hash : forall a b q, ~ In QUESTION a ->
  find SINGLE_QUESTION (a ++ NUMBER :: b) = Some q -> length a < q.
Proof.
  induction a as [|x a IH]; intros b q H E.
  - cbn [app find] in E. change (startswith (NUMBER :: b) SINGLE_QUESTION) with false in E. cbv iota in E.
    destruct (find SINGLE_QUESTION b); inversion E. simpl. lia.
  - cbn [app find] in E. destruct (startswith (x :: a ++ NUMBER :: b) SINGLE_QUESTION) eqn:S.
    + exfalso. apply startswith_app in S.
      destruct a as [|y [|z a]]; cbn in S; inversion S. apply H. simpl. auto.
    + destruct (find SINGLE_QUESTION (a ++ NUMBER :: b)) as [q'|] eqn:F; [|discriminate]. inversion E; subst.
      apply IH in F; simpl in *; auto. lia.
Qed.
Lemma skipn_app_len : forall A (a b : list A) n, n = length a -> skipn n (a ++ b) = b.
Proof. intros; subst. rewrite skipn_app, skipn_all, Nat.sub_diag. reflexivity. Qed.
Lemma firstn_app_len : forall A (a b : list A) n, n = length a -> firstn n (a ++ b) = a.
Proof. intros; subst. rewrite firstn_app, firstn_all, Nat.sub_diag. simpl. apply app_nil_r. Qed.

(** the text of a pattern from its three parts *)
Definition opt_q (q : option str) : str := match q with Some t => SINGLE_QUESTION ++ t | None => [] end.
Definition opt_f (f : option str) : str := match f with Some t => NUMBER :: t | None => [] end.
Lemma parse_url_pattern_parts : forall p q f, p <> [] -> no_sep p ->
  (forall t, q = Some t -> ~ In NUMBER t) ->
  parse_url_pattern_string (p ++ opt_q q ++ opt_f f) = PRes (Some p) q f.
Proof.
  intros p q f Hp [P1 P2] Hq. unfold parse_url_pattern_string.
  assert (Lp : 0 < length p) by (destruct p; simpl; [congruence|lia]).
  destruct q as [q|].
  - specialize (Hq q eq_refl). cbn [opt_q]. rewrite <- (app_assoc SINGLE_QUESTION).
    rewrite find_first by auto. destruct f as [f|]; cbn [opt_f].
    + replace (p ++ SINGLE_QUESTION ++ q ++ NUMBER :: f) with ((p ++ SINGLE_QUESTION ++ q) ++ NUMBER :: f)
        by (rewrite <- !app_assoc; auto).
      rewrite find_char_first.
      2:{ intros I. apply in_app_or in I as [I|I]; auto. apply in_app_or in I as [I|I]; auto.
          vm_compute in I. intuition discriminate. }
      rewrite !app_length. change (length SINGLE_QUESTION) with 4.
      destruct (length p) as [|lp] eqn:EL; [lia|]. cbn [Nat.add]. 
      destruct (Nat.ltb_spec (S lp) (S (lp + S (S (S (S (length q))))))); [|lia].
      f_equal; f_equal.
      * rewrite <- app_assoc. apply firstn_app_len; auto.
      * unfold slice. rewrite <- !app_assoc. rewrite app_assoc. rewrite skipn_app_len.
        2:{ rewrite app_length, EL. change (length SINGLE_QUESTION) with 4. lia. }
        apply firstn_app_len. lia.
      * replace ((p ++ SINGLE_QUESTION ++ q) ++ NUMBER :: f) with ((p ++ SINGLE_QUESTION ++ q ++ [NUMBER]) ++ f)
          by (rewrite <- !app_assoc; auto).
        apply skipn_app_len. rewrite !app_length, EL. change (length SINGLE_QUESTION) with 4. simpl. lia.
    + rewrite find_char_none.
      2:{ rewrite app_nil_r. intros I. apply in_app_or in I as [I|I]; auto. apply in_app_or in I as [I|I]; auto.
          vm_compute in I. intuition discriminate. }
      destruct (length p) as [|lp] eqn:EL; [lia|]. f_equal; f_equal.
      * apply firstn_app_len; auto.
      * rewrite app_nil_r. rewrite app_assoc. apply skipn_app_len.
        rewrite app_length, EL. change (length SINGLE_QUESTION) with 4. lia.
  - cbn [opt_q]. cbn [app]. destruct f as [f|]; cbn [opt_f].
    + rewrite find_char_first by auto.
      assert (E1 : firstn (length p) (p ++ NUMBER :: f) = p) by (apply firstn_app_len; auto).
      assert (E2 : skipn (length p + 1) (p ++ NUMBER :: f) = f).
      { replace (p ++ NUMBER :: f) with ((p ++ [NUMBER]) ++ f) by (rewrite <- app_assoc; auto).
        apply skipn_app_len. rewrite app_length. auto. }
      destruct (find SINGLE_QUESTION (p ++ NUMBER :: f)) as [q|] eqn:F.
      * apply find_hash in F; auto. destruct q as [|q]; [lia|].
        destruct (length p) as [|lp] eqn:EL; [lia|]. destruct (Nat.ltb_spec (S q) (S lp)); [lia|].
        rewrite E1, E2. auto.
      * destruct (length p) as [|lp] eqn:EL; [lia|]. rewrite E1, E2. auto.
    + rewrite app_nil_r. rewrite find_char_none by auto. rewrite find_none by auto. auto.
Qed.

(** ** Round trip *)
Lemma kv_split : forall b k v, kv_ok b k v ->
  (b = false -> split_param (k ++ v) = (k, v)) /\
  (b = true -> (if negb (ends_with_char EQUALS (fst (split_param (k ++ v)))) then ([[]], [k ++ v])
                else ([fst (split_param (k ++ v))], [snd (split_param (k ++ v))])) = ([k], [v])).
Proof.
  intros b k v [(k0 & Ek & H)|[(-> & H & ->)|(-> & -> & H)]].
  - assert (E : split_param (k ++ v) = (k, v)).
    { unfold split_param. rewrite Ek, <- app_assoc. cbn [app]. unfold EQUALS. rewrite cut_app by auto. auto. }
    split; intros _; rewrite E; auto. cbn [fst snd].
    assert (X : ends_with_char EQUALS k = true) by (apply ends_with_char_iff; exists k0; exact Ek).
    rewrite X. reflexivity.
  - rewrite app_nil_r. split; [|discriminate]. intros _. unfold split_param.
    destruct (cut EQUALS k) as [[a c]|] eqn:E; auto. apply cut_some in E as [-> _].
    exfalso. apply H. apply in_or_app. simpl; auto.
  - split; [discriminate|]. intros _. simpl app.
    assert (E : split_param v = (v, [])).
    { unfold split_param. destruct (cut EQUALS v) as [[a c]|] eqn:E; auto. apply cut_some in E as [-> _].
      exfalso. apply H. apply in_or_app. simpl; auto. }
    rewrite E. simpl fst. destruct (ends_with_char EQUALS v) eqn:X; auto.
    apply ends_with_char_iff in X as [a ->]. exfalso. apply H. apply in_or_app. simpl; auto.
Qed.
Definition kvs (ks vs : list str) : list str := map (fun kv => fst kv ++ snd kv) (combine ks vs).
Lemma parse_query_forward : forall ks vs, length ks = length vs -> ks <> [] ->
  Forall (fun kv => kv_ok (length ks =? 1) (fst kv) (snd kv) /\ ~ In AMPERSAND (fst kv ++ snd kv) /\
     (length ks =? 1 = false -> fst kv <> [])) (combine ks vs) ->
  parse_query_string (Some (join [AMPERSAND] (kvs ks vs))) = Ok (ks, vs).
Proof.
  intros ks vs L Hn F.
  destruct ks as [|k1 ks]; [congruence|]. destruct vs as [|v1 vs]; [discriminate|].
  assert (S : split_char AMPERSAND (join [AMPERSAND] (kvs (k1 :: ks) (v1 :: vs))) = kvs (k1 :: ks) (v1 :: vs)).
  { apply split_join_inv; [discriminate|]. unfold kvs. apply Forall_map. eapply Forall_impl; [|exact F].
    intros kv (_ & X & _). exact X. }
  destruct ks as [|k2 ks].
  - destruct vs; [|discriminate]. unfold kvs in *. cbn [combine map fst snd join length] in *.
    inversion F as [|? ? (K & _) _]; subst. cbn [fst snd Nat.eqb] in K.
    pose proof (proj2 (kv_split _ _ _ K) eq_refl) as KS.
    destruct (list_eq_dec N.eq_dec (k1 ++ v1) []) as [E|E].
    + apply app_eq_nil in E as [-> ->]. reflexivity.
    + destruct (parse_query_string_spec (k1 ++ v1) E) as [P _].
      eapply eq_trans; [apply P|].
      * match type of S with ?x = _ => match goal with |- Forall _ ?y => change y with x end end.
        rewrite S. constructor; [exact E|constructor].
      * f_equal. rewrite <- KS. unfold query_spec.
        match type of S with ?x = _ => match goal with |- context [split_char AMPERSAND ?y] => change (split_char AMPERSAND y) with x end end.
        rewrite S. reflexivity.
  - destruct vs as [|v2 vs]; [discriminate|].
    change (length (k1 :: k2 :: ks) =? 1) with false in F.
    set (KS := k1 :: k2 :: ks) in *. set (VS := v1 :: v2 :: vs) in *.
    assert (Hs : join [AMPERSAND] (kvs KS VS) <> []).
    { intros E. rewrite E in S. discriminate. }
    destruct (parse_query_string_spec _ Hs) as [P _]. eapply eq_trans; [apply P|].
    2:{ f_equal. unfold query_spec.
      match type of S with ?x = _ => match goal with |- context [split_char AMPERSAND ?y] => change (split_char AMPERSAND y) with x end end.
      rewrite S.
      assert (G : (map (fun w => fst (split_param w)) (kvs KS VS), map (fun w => snd (split_param w)) (kvs KS VS)) = (KS, VS)).
      { unfold kvs. rewrite !map_map. clear -F L. clearbody KS VS. revert VS L F.
        induction KS as [|k KS IH]; intros [|v VS] L F; try discriminate; auto.
        inversion F as [|? ? (K & _) F']; subst. cbn [combine map fst snd] in *.
        rewrite (proj1 (kv_split _ _ _ K)) by auto. simpl fst; simpl snd.
        specialize (IH VS ltac:(simpl in L; lia) F'). injection IH as I1 I2. f_equal; f_equal; [exact I1|exact I2]. }
      rewrite <- G. reflexivity. }
    + match type of S with ?x = _ => match goal with |- Forall _ ?y => change y with x end end.
      rewrite S. unfold kvs. apply Forall_map. eapply Forall_impl; [|exact F].
      intros [k v] (_ & _ & X). simpl in *. specialize (X eq_refl). destruct k; [congruence|discriminate].
Qed.
Lemma pack_parts : forall d ks hf pp vs fr, d = length pp -> length ks = length vs ->
  hf = (match fr with Some _ => true | None => false end) ->
  pack (UM d ks hf) (pp ++ vs ++ match fr with Some f => [f] | None => [] end) =
  (SLASH :: join [SLASH] pp) ++ opt_q (match ks with [] => None | _ => Some (join [AMPERSAND] (kvs ks vs)) end) ++ opt_f fr.
Proof.
  intros d ks hf pp vs fr -> L ->. unfold pack. cbn [path_depth query_keys has_fragment].
  rewrite firstn_app_len by auto. cbn [app]. f_equal. f_equal.
  assert (E : slice (length pp) (length pp + length ks) (pp ++ vs ++ match fr with Some f => [f] | None => [] end) = vs).
  { rewrite L. apply slice_app. }
  rewrite E. f_equal.
  - destruct ks; reflexivity.
  - destruct fr as [f|]; auto. cbn [opt_f]. f_equal. rewrite app_assoc, skipn_app_len by (rewrite app_length; lia).
    simpl. apply app_nil_r.
Qed.
Definition pats_ok (d : nat) (ks : list str) (pp vs : list str) : Prop :=
  d = length pp /\ 1 <= length pp /\
  Forall (fun w => ~ In SLASH w /\ ~ In QUESTION w /\ ~ In NUMBER w) pp /\
  Forall (fun w => w <> []) (removelast pp) /\
  length ks = length vs /\
  Forall (fun kv => kv_ok (length ks =? 1) (fst kv) (snd kv) /\ ~ In AMPERSAND (fst kv ++ snd kv) /\
     ~ In NUMBER (fst kv ++ snd kv) /\ (length ks =? 1 = false -> fst kv <> [])) (combine ks vs).
Lemma filter_useless_keep : forall l : list str, Forall (fun w => w <> []) (removelast l) ->
  filter_useless nonempty l = l.
Proof.
  intros l. destruct l as [|x l] using rev_ind; auto. rewrite removelast_last. intros F.
  apply filter_useless_id. eapply Forall_impl; [|exact F]. intros w Hw. destruct w; [congruence|auto].
Qed.
Lemma in_join : forall x sep l, In x (join sep l) -> In x sep \/ exists w, In w l /\ In x w.
Proof.
  intros x sep l. induction l as [|a l IH]; simpl; [tauto|]. destruct l as [|b l].
  - intros H. right. exists a. auto.
  - intros H. apply in_app_or in H as [H|H]; [right; exists a; auto|].
    apply in_app_or in H as [H|H]; auto. destruct (IH H) as [?|(w & Hw & Hx)]; auto. right. exists w. split; auto.
Qed.
Lemma pack_roundtrip : forall d ks hf pp vs fr, pats_ok d ks pp vs ->
  hf = (match fr with Some _ => true | None => false end) ->
  analyze_url_pattern_string (pack (UM d ks hf) (pp ++ vs ++ match fr with Some f => [f] | None => [] end)) =
  Ok (UM d ks hf, pp ++ vs ++ match fr with Some f => [f] | None => [] end).
Proof.
  intros d ks hf pp vs fr (-> & Lp & Fp & Fi & L & F) ->.
  rewrite pack_parts by auto. unfold analyze_url_pattern_string.
  rewrite parse_url_pattern_parts.
  - cbn [rs_path rs_query rs_fragment]. unfold unpack.
    rewrite split_char_sep. cbn [tl].
    assert (E : split_char SLASH (join [SLASH] pp) = pp).
    { apply split_join_inv; [intros ->; simpl in Lp; lia|]. eapply Forall_impl; [|exact Fp]. intros w (H1 & H2 & H3). exact H1. }
    rewrite E, filter_useless_keep by auto.
    destruct (Nat.leb_spec (length pp) 0); [lia|].
    assert (Q : parse_query_string (match ks with [] => None | _ => Some (join [AMPERSAND] (kvs ks vs)) end) = Ok (ks, vs)).
    { destruct ks as [|k ks]; [destruct vs; [auto|discriminate]|]. apply parse_query_forward; auto; [discriminate|].
      eapply Forall_impl; [|exact F]. intros kv (H1 & H2 & H3 & H4). exact (conj H1 (conj H2 H4)). }
    rewrite Q. cbn [bind]. destruct fr; auto.
  - discriminate.
  - split; intros [X|X]; try discriminate; apply in_join in X as [[X|[]]|(w & Hw & Hx)]; try discriminate;
      rewrite Forall_forall in Fp; apply Fp in Hw; tauto.
  - intros t E I. destruct ks as [|k ks]; [discriminate|]. inversion E; subst.
    apply in_join in I as [[I|[]]|(w & Hw & Hx)]; [discriminate|]. unfold kvs in Hw. apply in_map_iff in Hw as (kv & <- & Hi).
    rewrite Forall_forall in F. apply F in Hi. tauto.
Qed.

Lemma Forall2_app_inv : forall A B (R : A -> B -> Prop) l1 l2 l, Forall2 R (l1 ++ l2) l ->
  exists a b, l = a ++ b /\ Forall2 R l1 a /\ Forall2 R l2 b.
Proof. intros. apply Forall2_app_inv_l in H as (a & b & H1 & H2 & H3). eauto. Qed.
Lemma Forall2_removelast : forall A B (R : A -> B -> Prop) l l', Forall2 R l l' -> Forall2 R (removelast l) (removelast l').
Proof.
  induction 1 as [|x y l l' H F IH]; [constructor|]. destruct F; [constructor|].
  change (Forall2 R (x :: removelast (x0 :: l)) (y :: removelast (y0 :: l'))). constructor; auto.
Qed.
Lemma normalize_nonempty : forall s k, s <> [] -> normalize s [EQUALS] = Ok k -> k <> [].
Proof.
  intros s k Hs H ->. unfold normalize in H.
  destruct (normalize_loop_total [EQUALS] s [] [] None) as (o & f & l & E & T); [congruence|].
  assert (NL : l <> None).
  { destruct s as [|c s] using rev_ind; [congruence|]. rewrite normalize_loop_app in E.
    destruct (normalize_loop [EQUALS] s [] [] None) as [[[o1 f1] l1]|]; [|discriminate]. cbn [bind normalize_loop] in E.
    match type of E with bind ?m _ = _ => destruct m as [[o2 f2]|]; [|discriminate] end. cbn [bind] in E.
    inversion E; subst. discriminate. }
  rewrite E in H. cbn [bind] in H. specialize (T NL).
  match type of H with bind ?m _ = _ => destruct m as [w|] eqn:W; [|discriminate] end. cbn [bind] in H.
  inversion H as [H0]. apply app_eq_nil in H0 as [_ ->].
  destruct l as [lc|]; [|congruence]. destruct (is_alnum lc); [congruence|].
  unfold norm_frag in W. destruct f as [|c f]; [congruence|].
  destruct (char_in c [EQUALS]); [discriminate|]. rewrite specify_rule_unit in W.
  destruct (_ =? 0)%Z; [discriminate|]. inversion W.
Qed.
(** keys keep what parse_query_string looks at *)
Lemma kv_ok_norm : forall b k v nk v', kv_ok b k v -> normalize k [EQUALS] = Ok nk -> fits v v' ->
  kv_ok b nk v'.
Proof.
  intros b k v nk v' K N [V1 V2]. destruct K as [(k0 & -> & H)|[(-> & H & ->)|(-> & -> & H)]].
  - left. apply normalize_eq_end in N; auto.
  - right; left. split; auto. split; [|apply V2; auto].
    eapply normalize_no; eauto; reflexivity.
  - right; right. split; auto. split.
    + vm_compute in N. inversion N. reflexivity.
    + intros I. apply H. apply V1; auto. vm_compute; auto 10.
Qed.
Lemma analyzed_pats : forall m raw pp ks vs fr pats, analyzed m raw pp ks vs fr -> Forall2 fits raw pats ->
  exists pp' vs' fr', pats = pp' ++ vs' ++ match fr' with Some f => [f] | None => [] end /\
    pats_ok (path_depth m) (query_keys m) pp' vs' /\
    has_fragment m = match fr' with Some _ => true | None => false end.
Proof.
  intros m raw pp ks vs fr pats [A1 A2 A3 A4 A5 A6 A7 A8 A9] F. rewrite A1 in F.
  apply Forall2_app_inv in F as (pp' & b & -> & F1 & F). apply Forall2_app_inv in F as (vs' & fl & -> & F2 & F3).
  assert (X : exists fr', fl = match fr' with Some f => [f] | None => [] end /\
     has_fragment m = match fr' with Some _ => true | None => false end).
  { rewrite A4. destruct fr as [f|]; inversion F3; subst.
    - inversion H3; subst. exists (Some y). auto.
    - exists None. auto. }
  destruct X as (fr' & -> & Hf). exists pp', vs', fr'. split; auto. split; auto.
  unfold pats_ok. rewrite A2. pose proof (Forall2_length _ _ _ _ _ F1) as L1.
  pose proof (Forall2_length _ _ _ _ _ F2) as L2. pose proof (mapM_length _ _ _ _ _ A5) as L3.
  split; [congruence|]. split; [lia|]. split; [|split; [|split; [lia|]]].
  - clear -A7 F1. induction F1 as [|x y l l' [H1 H2] F IH]; constructor; inversion A7; subst; auto.
    repeat split; intros I; apply H1 in I; try tauto; vm_compute; auto 10.
  - apply Forall2_removelast in F1. clear -A8 F1. induction F1 as [|x y l l' [H1 H2] F IH]; constructor; inversion A8; subst; auto.
    tauto.
  - rewrite L3. apply mapM_ok in A5. clear -A5 A6 A9 F2. revert A9. generalize (length ks =? 1) as b. intros b A9.
    revert vs vs' A6 F2 A9. induction A5 as [|k nk ks nks H F IH]; intros [|v vs] [|v' vs'] L F2 A9;
      try discriminate; try (inversion F2; fail); [constructor|].
    inversion F2 as [|? ? ? ? Fv F2']; subst. cbn [combine] in *. inversion A9 as [|? ? (K & Ha & Hh & Hk) A9']; subst.
    constructor; [|apply (IH vs); auto]. cbn [fst snd] in *. split; [eapply kv_ok_norm; eauto|].
    destruct Fv as [V1 V2].
    assert (NI : forall x, key_char x = true -> In x (u "/?#&=") -> ~ In x (k ++ v) -> ~ In x (nk ++ v')).
    { intros x Hx Hx2 Hn I. apply in_app_or in I as [I|I].
      - revert I. assert (Hk2 : ~ In x k) by (intros I; apply Hn; apply in_or_app; auto).
        eapply normalize_no; eauto.
      - apply Hn. apply in_or_app. right. auto. }
    split; [apply NI; auto; vm_compute; auto 10|]. split; [apply NI; auto; vm_compute; auto 10|].
    intros Hb. apply (normalize_nonempty k); auto.
Qed.
Lemma c11 : forall nv url m raw pats, analyze_url nv url = Ok (m, raw) -> Forall2 fits raw pats ->
  analyze_url_pattern_string (pack m pats) = Ok (m, pats).
Proof.
  intros nv url m raw pats H F. apply analyze_url_spec in H as (pp & ks & vs & fr & A).
  destruct (analyzed_pats _ _ _ _ _ _ _ A F) as (pp' & vs' & fr' & -> & P & Hf).
  destruct m as [d k hf]. simpl in *. apply pack_roundtrip; auto.
Qed.
Lemma pack_inj : forall nv1 nv2 url1 url2 m1 m2 raw1 raw2 p1 p2,
  analyze_url nv1 url1 = Ok (m1, raw1) -> analyze_url nv2 url2 = Ok (m2, raw2) ->
  Forall2 fits raw1 p1 -> Forall2 fits raw2 p2 -> pack m1 p1 = pack m2 p2 -> m1 = m2 /\ p1 = p2.
Proof.
  intros nv1 nv2 url1 url2 m1 m2 raw1 raw2 p1 p2 H1 H2 F1 F2 E.
  pose proof (c11 _ _ _ _ _ H1 F1) as X1. pose proof (c11 _ _ _ _ _ H2 F2) as X2.
  rewrite E, X2 in X1. inversion X1; auto.
Qed.
