(** filter_useless, parse_query_string and normalize: proofs. *)
From Coq Require Import String.
From Verif Require Import PyStr Defs UrlLib ParseUtils PyStrProofs DefsProofs Spec RegexProofs PieceProofs.
From Coq Require Import Lia.

(** ** filter_useless *)
Lemma filter_useless_snoc : forall A (t : A -> bool) l x,
  filter_useless t (l ++ [x]) = filter t l ++ [x].
Proof.
  induction l as [|y l IH]; intros x; simpl; auto.
  destruct (l ++ [x]) eqn:E; [destruct l; discriminate|]. rewrite <- E, IH.
  destruct (t y); auto.
Qed.
Lemma filter_idem : forall A (t : A -> bool) l, filter t (filter t l) = filter t l.
Proof.
  induction l as [|x l IH]; simpl; auto. destruct (t x) eqn:E; simpl; rewrite ?E, IH; auto.
Qed.
Lemma filter_id : forall A (t : A -> bool) l, Forall (fun x => t x = true) l -> filter t l = l.
Proof. induction 1 as [|x l H F IH]; simpl; auto. rewrite H, IH; auto. Qed.
Lemma filter_useless_idem : forall A (t : A -> bool) l,
  filter_useless t (filter_useless t l) = filter_useless t l.
Proof.
  intros A t l. destruct l as [|x l] using rev_ind; auto.
  rewrite !filter_useless_snoc, filter_idem. auto.
Qed.
Lemma filter_useless_nil : forall A (t : A -> bool) l, filter_useless t l = [] <-> l = [].
Proof.
  intros A t l. destruct l as [|x l] using rev_ind; [tauto|].
  rewrite filter_useless_snoc. split; intros H.
  - destruct (filter t l); discriminate.
  - destruct l; discriminate.
Qed.
Lemma filter_useless_id : forall A (t : A -> bool) l x, Forall (fun x => t x = true) l ->
  filter_useless t (l ++ [x]) = l ++ [x].
Proof. intros. rewrite filter_useless_snoc, filter_id; auto. Qed.

(** ** Query strings *)
(** one parameter: the key up to and including the first '=', and the value *)
Definition split_param (p : str) : str * str :=
  match cut EQUALS p with
  | Some (k, v) => (k ++ [EQUALS], v)
  | None => (p, [])
  end.
Lemma split_param_app : forall p, fst (split_param p) ++ snd (split_param p) = p.
Proof.
  intros p. unfold split_param. destruct (cut EQUALS p) as [[k v]|] eqn:E; simpl.
  - apply cut_some in E as [-> _]. rewrite <- app_assoc. auto.
  - apply app_nil_r.
Qed.
(** the loop is in key mode with buffer [kb] (no '=') or in value mode *)
Definition amp_ok (last : option char) : bool :=
  match last with None => false | Some c => negb (N.eqb c AMPERSAND) end.

Lemma query_loop_key : forall p last kb vb ks vs rest,
  ~ In EQUALS p -> ~ In AMPERSAND p ->
  query_loop (p ++ rest) true last kb vb ks vs =
  query_loop rest true (match rev p with c :: _ => Some c | [] => last end) (kb ++ p) vb ks vs.
Proof.
  induction p as [|c p IH]; intros last kb vb ks vs rest He Ha.
  - rewrite app_nil_r. auto.
  - simpl in He, Ha. cbn [app query_loop].
    destruct (N.eqb_spec c EQUALS); [exfalso; auto|].
    destruct (N.eqb_spec c AMPERSAND); [exfalso; auto|]. cbn [andb].
    rewrite IH by auto. rewrite <- app_assoc. simpl rev. f_equal.
    destruct (rev p); auto.
Qed.
Lemma query_loop_val : forall p last kb vb ks vs rest,
  ~ In AMPERSAND p ->
  query_loop (p ++ rest) false last kb vb ks vs =
  query_loop rest false (match rev p with c :: _ => Some c | [] => last end) kb (vb ++ p) ks vs.
Proof.
  induction p as [|c p IH]; intros last kb vb ks vs rest Ha.
  - rewrite app_nil_r. auto.
  - simpl in Ha. cbn [app query_loop]. rewrite andb_false_r.
    destruct (N.eqb_spec c AMPERSAND); [exfalso; auto|].
    rewrite IH by auto. rewrite <- app_assoc. simpl rev. f_equal.
    destruct (rev p); auto.
Qed.
Lemma amp_last : forall p last, ~ In AMPERSAND p -> p <> [] ->
  amp_ok (match rev p with c :: _ => Some c | [] => last end) = true.
Proof.
  intros p last Ha Hn. destruct (rev p) as [|c w] eqn:E.
  - apply (f_equal (@rev _)) in E. rewrite rev_involutive in E. simpl in E. congruence.
  - simpl. apply negb_true_iff, N.eqb_neq. intros ->. apply Ha. apply in_rev. rewrite E. left; auto.
Qed.

(** a whole parameter followed by '&' *)
Lemma query_loop_param : forall p last ks vs rest,
  ~ In AMPERSAND p -> (p = [] -> amp_ok last = false) ->
  query_loop (p ++ AMPERSAND :: rest) true last [] [] ks vs =
  if is_nil p then Err EIrregularURL
  else query_loop rest true (Some AMPERSAND) [] []
         (ks ++ [fst (split_param p)]) (vs ++ [snd (split_param p)]).
Proof.
  intros p last ks vs rest Ha Hl.
  destruct p as [|c0 p0] eqn:Ep.
  - specialize (Hl eq_refl). simpl. destruct last as [c|]; auto.
    simpl in Hl. apply negb_false_iff in Hl. rewrite Hl. auto.
  - rewrite <- Ep in *. assert (Hn : p <> []) by (subst; discriminate).
    replace (is_nil p) with false by (subst; auto). clear Ep c0 p0 Hl.
    unfold split_param. destruct (cut EQUALS p) as [[k v]|] eqn:E.
    + apply cut_some in E as [-> Hk].
      rewrite <- app_assoc. cbn [app].
      rewrite query_loop_key by (auto; intros X; apply Ha, in_or_app; auto).
      cbn [query_loop]. rewrite N.eqb_refl. cbn [andb app].
      rewrite query_loop_val by (intros X; apply Ha, in_or_app; right; right; auto).
      cbn [query_loop]. rewrite andb_false_r, N.eqb_refl.
      replace (match match rev v with c :: _ => Some c | [] => Some EQUALS end with
               | None => true | Some c => N.eqb c AMPERSAND end) with false.
      * cbn [app fst snd]. auto.
      * destruct (rev v) as [|c w] eqn:R; auto. symmetry. apply N.eqb_neq. intros ->.
        apply Ha, in_or_app. right; right. apply in_rev. rewrite R. left; auto.
    + apply cut_none in E. rewrite query_loop_key by auto. cbn [query_loop].
      change (N.eqb AMPERSAND EQUALS && true) with false. rewrite N.eqb_refl.
      pose proof (amp_last p last Ha Hn) as X.
      destruct (match rev p with c :: _ => Some c | [] => last end) as [c|]; [|discriminate].
      simpl in X. apply negb_true_iff in X. rewrite X. reflexivity.
Qed.
(** the last parameter *)
Definition query_finish (x : bool * str * str * list str * list str) : list str * list str :=
  let '(kt, kb, vb, ks, vs) := x in
  if kt : bool then (ks ++ [kb], vs ++ [[]]) else (ks, vs ++ [vb]).
Lemma query_loop_last : forall p last ks vs,
  ~ In AMPERSAND p ->
  exists x, query_loop p true last [] [] ks vs = Ok x /\
  query_finish x = (ks ++ [fst (split_param p)], vs ++ [snd (split_param p)]).
Proof.
  intros p last ks vs Ha. unfold split_param.
  destruct (cut EQUALS p) as [[k v]|] eqn:E.
  - apply cut_some in E as [-> Hk].
    rewrite query_loop_key by (auto; intros X; apply Ha, in_or_app; auto).
    cbn [query_loop]. rewrite N.eqb_refl. cbn [andb app].
    pose proof (query_loop_val v (Some EQUALS) [] [] (ks ++ [k ++ [EQUALS]]) vs []) as X.
    rewrite app_nil_r in X. rewrite X by (intros Y; apply Ha, in_or_app; right; right; auto).
    cbn [query_loop]. eexists. split; [reflexivity|]. reflexivity.
  - apply cut_none in E. pose proof (query_loop_key p last [] [] ks vs [] E Ha) as X.
    rewrite app_nil_r in X. rewrite X. cbn [query_loop]. eexists. split; [reflexivity|]. reflexivity.
Qed.
Lemma query_loop_params : forall (l : list str) (p : str) last ks vs,
  Forall (fun w => ~ In AMPERSAND w) (p :: l) -> amp_ok last = false ->
  (Forall (fun w => w <> []) (removelast (p :: l)) ->
   exists x, query_loop (join [AMPERSAND] (p :: l)) true last [] [] ks vs = Ok x /\
   query_finish x = (ks ++ map (fun w => fst (split_param w)) (p :: l),
                     vs ++ map (fun w => snd (split_param w)) (p :: l))) /\
  (~ Forall (fun w => w <> []) (removelast (p :: l)) ->
   query_loop (join [AMPERSAND] (p :: l)) true last [] [] ks vs = Err EIrregularURL).
Proof.
  induction l as [|q l IH]; intros p last ks vs F Hl.
  - inversion F; subst. split.
    + intros _. simpl. apply query_loop_last; auto.
    + intros H. exfalso. apply H. constructor.
  - inversion F as [|? ? Hp F']; subst.
    change (join [AMPERSAND] (p :: q :: l)) with (p ++ AMPERSAND :: join [AMPERSAND] (q :: l)).
    change (removelast (p :: q :: l)) with (p :: removelast (q :: l)).
    rewrite query_loop_param by auto.
    destruct p as [|c p].
    + simpl is_nil. cbv iota. split; auto. intros H. inversion H; congruence.
    + simpl is_nil. cbv iota.
      specialize (IH q (Some AMPERSAND) (ks ++ [fst (split_param (c :: p))]) (vs ++ [snd (split_param (c :: p))]) F' eq_refl).
      destruct IH as [I1 I2]. split.
      * intros H. inversion H; subst. destruct I1 as (x & E & E2); auto. exists x. split; auto.
        rewrite E2. rewrite <- !app_assoc. reflexivity.
      * intros H. apply I2. intros X. apply H. constructor; auto. discriminate.
Qed.
Lemma ends_with_char_app : forall c s x, ends_with_char c (s ++ [x]) = N.eqb x c.
Proof. intros. unfold ends_with_char. rewrite rev_app_distr. auto. Qed.
Lemma ends_with_char_iff : forall c s, ends_with_char c s = true <-> exists a, s = a ++ [c].
Proof.
  intros c s. destruct s as [|x s] using rev_ind.
  - simpl. split; [discriminate|]. intros ([|y a] & E); discriminate.
  - rewrite ends_with_char_app, N.eqb_eq. split.
    + intros ->. eauto.
    + intros (a & E). apply app_inj_tail in E. intuition.
Qed.
Lemma ends_amp_split : forall s, ends_with_char AMPERSAND s = true <->
  last (split_char AMPERSAND s) [] = [] /\ 1 < length (split_char AMPERSAND s).
Proof.
  induction s as [|c s IH].
  - simpl. split; [discriminate|lia].
  - destruct s as [|d s].
    + unfold ends_with_char. simpl. destruct (N.eqb c AMPERSAND); simpl; split; auto; try lia; try discriminate.
    + assert (X : ends_with_char AMPERSAND (c :: d :: s) = ends_with_char AMPERSAND (d :: s)).
      { unfold ends_with_char. simpl. destruct (rev s ++ [d]) eqn:E; auto. destruct (rev s); discriminate. }
      rewrite X, IH. clear X IH. remember (d :: s) as t.
      simpl. pose proof (split_char_nonnil AMPERSAND t) as Hn.
      destruct (N.eqb c AMPERSAND).
      * destruct (split_char AMPERSAND t) as [|w ws] eqn:E; [congruence|]. simpl.
        destruct ws as [|w2 ws]; simpl.
        -- split; [lia|]. intros [-> _]. exfalso.
           pose proof (split_join AMPERSAND t) as J. rewrite E in J. simpl in J. subst. discriminate.
        -- intuition lia.
      * destruct (split_char AMPERSAND t) as [|w ws] eqn:E; [congruence|]. simpl.
        destruct ws as [|w2 ws]; simpl; intuition (try lia; try discriminate).
Qed.

(** the specification of parse_query_string by splitting *)
Definition query_spec (s : str) : list str * list str :=
  let ps := split_char AMPERSAND s in
  match ps with
  | [p] => if negb (ends_with_char EQUALS (fst (split_param p))) then ([[]], [p])
           else ([fst (split_param p)], [snd (split_param p)])
  | _ => (map (fun w => fst (split_param w)) ps, map (fun w => snd (split_param w)) ps)
  end.
Lemma split_param_noeq : forall p, ends_with_char EQUALS (fst (split_param p)) = false -> split_param p = (p, []).
Proof.
  intros p H. unfold split_param in *. destruct (cut EQUALS p) as [[k v]|]; auto.
  simpl in H. rewrite ends_with_char_app in H. discriminate.
Qed.
Lemma Forall_nonempty_last : forall l : list str, l <> [] ->
  (Forall (fun w => w <> []) l <-> Forall (fun w => w <> []) (removelast l) /\ last l [] <> []).
Proof.
  intros l Hn. rewrite (app_removelast_last [] Hn) at 1. rewrite Forall_app. split.
  - intros [H1 H2]. inversion H2; auto.
  - intros [H1 H2]. split; auto.
Qed.
Lemma parse_query_string_spec : forall s, s <> [] ->
  (Forall (fun w => w <> []) (split_char AMPERSAND s) ->
     parse_query_string (Some s) = Ok (query_spec s)) /\
  (~ Forall (fun w => w <> []) (split_char AMPERSAND s) ->
     parse_query_string (Some s) = Err EIrregularURL).
Proof.
  intros s Hs. destruct s as [|c s']; [congruence|]. remember (c :: s') as s.
  unfold parse_query_string. rewrite Heqs. rewrite <- Heqs.
  pose proof (split_char_nonnil AMPERSAND s) as Hn.
  pose proof (ends_amp_split s) as EA.
  destruct (ends_with_char AMPERSAND s) eqn:Ee.
  - destruct (proj1 EA eq_refl) as [E1 E2]. split; auto.
    intros F. apply Forall_nonempty_last in F; auto. destruct F; congruence.
  - destruct (split_char AMPERSAND s) as [|p l] eqn:Es; [congruence|].
    assert (Fa : Forall (fun w => ~ In AMPERSAND w) (p :: l)).
    { apply Forall_forall. intros w Hw. apply (split_char_nosep AMPERSAND s). rewrite Es; auto. }
    pose proof (split_join AMPERSAND s) as J. rewrite Es in J.
    assert (Hlast : last (p :: l) [] <> []).
    { intros E1. destruct l as [|q l].
      - simpl in E1, J. congruence.
      - destruct EA as [_ EA]. discriminate EA. split; auto. simpl; lia. }
    rewrite (Forall_nonempty_last (p :: l)) by discriminate.
    destruct (query_loop_params l p None [] [] Fa eq_refl) as [Q1 Q2].
    rewrite J in Q1, Q2. split.
    + intros [F _]. destruct (Q1 F) as (x & -> & Ex). simpl bind. cbn [app] in Ex.
      destruct x as [[[[kt kb] vb] ks] vs]. unfold query_finish in Ex. rewrite Ex.
      unfold query_spec. rewrite Es. destruct l as [|q l]; auto.
      cbn [map]. destruct (ends_with_char EQUALS (fst (split_param p))) eqn:E; cbn [negb]; auto.
      rewrite (split_param_noeq _ E). auto.
    + intros H. rewrite Q2; auto.
Qed.
(** misplaced '&' *)
Lemma split_empty_iff : forall s, s <> [] ->
  (In [] (split_char AMPERSAND s) <-> amp_misplaced s).
Proof.
  intros s Hs. unfold amp_misplaced. split.
  - intros H. apply in_split in H as (l1 & l2 & E).
    pose proof (split_join AMPERSAND s) as J. rewrite E in J. clear E.
    destruct l1 as [|w l1] using rev_ind.
    + destruct l2 as [|w l2]; simpl in J; [congruence|]. left. eauto.
    + clear IHl1. right.
      assert (X : forall l x r, join [AMPERSAND] (l ++ x :: r) = 
         match l with [] => [] | _ => join [AMPERSAND] l ++ [AMPERSAND] end ++ join [AMPERSAND] (x :: r)).
      { clear. induction l as [|y l IH]; intros x r; auto.
        rewrite <- app_comm_cons. destruct l as [|z l].
        - simpl. destruct r; rewrite <- app_assoc; auto.
        - change ((z :: l) ++ x :: r) with (z :: (l ++ x :: r)).
          rewrite join_cons. change (z :: l ++ x :: r) with ((z :: l) ++ x :: r).
          rewrite IH, join_cons, <- !app_assoc. auto. }
      rewrite X in J. destruct (l1 ++ [w]) eqn:E; [destruct l1; discriminate|]. rewrite <- E in *.
      destruct l2 as [|w2 l2].
      * left. exists (join [AMPERSAND] (l1 ++ [w])). simpl in J. rewrite app_nil_r in J. auto.
      * right. rewrite join_cons in J. simpl in J. rewrite <- app_assoc in J. simpl in J.
        eexists; eexists; symmetry; exact J.
  - assert (X : forall a b, split_char AMPERSAND (a ++ AMPERSAND :: b) = split_char AMPERSAND a ++ split_char AMPERSAND b).
    { clear. induction a as [|c a IH]; intros b; [apply split_char_sep|].
      simpl. rewrite IH. destruct (N.eqb c AMPERSAND); auto.
      pose proof (split_char_nonnil AMPERSAND a). destruct (split_char AMPERSAND a); [congruence|auto]. }
    intros [(r & ->)|[(r & ->)|(a & b & ->)]].
    + rewrite split_char_sep. left; auto.
    + rewrite X. apply in_or_app. right. left; auto.
    + rewrite X, split_char_sep. apply in_or_app. right; left; auto.
Qed.

(** ** normalize *)
Lemma norm_frag_ok : forall res w, w <> [] -> exists x, norm_frag res w = Ok x.
Proof.
  intros r [|c w] H; [congruence|]. unfold norm_frag. destruct (char_in c r); eauto.
  rewrite specify_rule_unit. simpl length.
  destruct (Z.eqb_spec (Z.of_nat (S (length w))) 0); [lia|]. eauto.
Qed.
Lemma normalize_loop_total : forall r s out frag last,
  (last <> None -> frag <> []) ->
  exists out' frag' last', normalize_loop r s out frag last = Ok (out', frag', last')
    /\ (last' <> None -> frag' <> []).
Proof.
  induction s as [|c s IH]; intros out frag last H; cbn [normalize_loop].
  - eauto 6.
  - match goal with |- context [bind ?m _] => assert (X : exists y, m = Ok y) end.
    { destruct (is_alnum c).
      - destruct last as [lc|]; eauto. destruct (is_alnum lc); eauto.
        destruct frag as [|f0 frag]; eauto.
        destruct (norm_frag_ok r (f0 :: frag)) as [x ->]; [discriminate|]. simpl. eauto.
      - destruct (match last with Some lc => N.eqb lc c | None => false end); eauto.
        destruct frag as [|f0 frag]; eauto. destruct (is_alnum f0). { simpl; eauto. }
        destruct (norm_frag_ok r (f0 :: frag)) as [x ->]; [discriminate|]. simpl. eauto. }
    destruct X as [[o f] ->]. simpl. apply IH. intros _. destruct f; discriminate.
Qed.
Lemma normalize_total : forall s r, exists x, normalize s r = Ok x.
Proof.
  intros s r. unfold normalize.
  destruct (normalize_loop_total r s [] [] None) as (o & f & l & -> & H); [congruence|].
  simpl. destruct l as [lc|]; simpl; eauto.
  destruct (is_alnum lc); simpl; eauto.
  destruct (norm_frag_ok r f) as [x ->]; simpl; eauto. apply H; discriminate.
Qed.

(** on legal text the result is the concatenation of the rendered runs, with
    reserved characters kept *)
Definition nrender (res : str) (rw : run) : str :=
  match snd rw with
  | c :: _ => if char_in c res then snd rw else render rw
  | [] => []
  end.
Definition ntext (res s : str) : str := List.concat (map (nrender res) (runs s)).
Definition alnum_only (w : str) : Prop := Forall (fun c => is_alnum c = true) w.

Lemma runs_cons : forall c s r, char_rule c = Some r ->
  runs (c :: s) = match runs s with
          | (rl, w) :: t => if str_eqb rl r then (rl, c :: w) :: t
                            else (r, [c]) :: (rl, w) :: t
          | [] => [(r, [c])]
          end.
Proof. intros. simpl. rewrite H. auto. Qed.
Lemma ntext_alnum_cons : forall res c s, all_legal s -> is_alnum c = true ->
  ntext res (c :: s) = c :: ntext res s.
Proof.
  intros res c s L H. destruct (alnum_rule c H) as (r & Hr & _ & Hs).
  unfold ntext. rewrite (runs_cons _ _ _ Hr).
  pose proof (runs_spec s L) as (F & A & _).
  destruct (runs s) as [|[rl w] t].
  - simpl. unfold nrender, render. simpl. rewrite Hs. destruct (char_in c res); auto.
  - inversion F as [|? ? [Hn Hw] F']; subst. simpl in Hn, Hw.
    destruct (str_eqb_spec rl r) as [->|n].
    + simpl. unfold nrender, render; simpl. rewrite Hs.
      destruct w as [|d w]; [congruence|].
      destruct (char_in c res), (char_in d res); auto.
    + simpl. unfold nrender at 1, render at 1; simpl. rewrite Hs.
      destruct (char_in c res); auto.
Qed.
Lemma ntext_alnum : forall res w s, all_legal s -> alnum_only w ->
  ntext res (w ++ s) = w ++ ntext res s.
Proof.
  induction w as [|c w IH]; intros s L F; auto. inversion F as [|? ? Hc Fw]; subst. simpl app.
  rewrite ntext_alnum_cons; auto. { rewrite IH; auto. }
  apply Forall_app. split; auto. eapply Forall_impl; [|exact Fw].
  intros d Hd. destruct (alnum_rule d Hd) as (r & Hr & _). eauto.
Qed.
Lemma runs_repeat : forall n c s r, char_rule c = Some r ->
  (match runs s with (rl, _) :: _ => rl <> r | [] => True end) ->
  runs (repeat c (S n) ++ s) = (r, repeat c (S n)) :: runs s.
Proof.
  induction n as [|n IH]; intros c s r H N.
  - change (repeat c 1 ++ s) with (c :: s). rewrite (runs_cons _ _ _ H).
    destruct (runs s) as [|[rl w] t]; auto. destruct (str_eqb_spec rl r); [congruence|auto].
  - change (repeat c (S (S n)) ++ s) with (c :: (repeat c (S n) ++ s)).
    rewrite (runs_cons _ _ _ H), (IH c s r H N), str_eqb_refl. auto.
Qed.
Lemma norm_frag_sign : forall res c r n, char_rule c = Some r -> is_alnum c = false ->
  norm_frag res (repeat c (S n)) = Ok (nrender res (r, repeat c (S n))).
Proof.
  intros res c r n H A. unfold norm_frag, nrender. simpl repeat. cbn [snd].
  destruct (char_in c res); auto.
  unfold get_rule_fmt. rewrite H. rewrite specify_rule_unit. simpl length.
  destruct (Z.eqb_spec (Z.of_nat (S (length (repeat c n)))) 0); [lia|].
  destruct (Z.ltb_spec (Z.of_nat (S (length (repeat c n)))) 0); [lia|].
  unfold render. simpl. rewrite (sign_alnum _ _ H), A. reflexivity.
Qed.
Lemma runs_head_rule : forall c s r, all_legal s -> char_rule c = Some r ->
  exists w t, runs (c :: s) = (r, w) :: t.
Proof.
  intros c s r L H. rewrite (runs_cons _ _ _ H). destruct (runs s) as [|[rl w] t]; eauto.
  destruct (str_eqb_spec rl r) as [->|]; eauto.
Qed.
Lemma ntext_sign_break : forall res c r n s, char_rule c = Some r -> is_alnum c = false ->
  all_legal s -> (match s with d :: _ => d <> c | [] => True end) ->
  ntext res (repeat c (S n) ++ s) = nrender res (r, repeat c (S n)) ++ ntext res s.
Proof.
  intros res c r n s H A L N. unfold ntext. rewrite (runs_repeat n c s r H); auto.
  destruct s as [|d s]; [simpl; auto|].
  inversion L as [|? ? [rd Hd] Ls]; subst.
  destruct (runs_head_rule d s rd Ls Hd) as (w & t & ->). intros ->. apply N.
  eapply sign_rule_inj; eauto. rewrite (sign_alnum _ _ H), A; auto.
Qed.

(** the state of the loop: the current fragment is an alnum text ending in the
    last character or a repetition of the last character *)
Definition frag_state (frag : str) (last : option char) : Prop :=
  match last with
  | None => frag = []
  | Some c => frag <> [] /\
      ((is_alnum c = true /\ alnum_only frag) \/
       (is_alnum c = false /\ exists n, frag = repeat c (S n)))
  end.
Lemma repeat_snoc : forall A (c : A) n, repeat c n ++ [c] = repeat c (S n).
Proof. induction n; simpl; auto. rewrite IHn. auto. Qed.

Lemma normalize_loop_spec : forall res s out frag last,
  all_legal s -> all_legal frag -> frag_state frag last ->
  exists out' frag' last', normalize_loop res s out frag last = Ok (out', frag', last') /\
    frag_state frag' last' /\ all_legal frag' /\
    out' ++ ntext res frag' = out ++ ntext res (frag ++ s).
Proof.
  induction s as [|c s IH]; intros out frag last L Lf FS.
  - simpl. exists out, frag, last. rewrite app_nil_r. auto.
  - inversion L as [|? ? [r Hr] Ls]; subst.
    assert (K : forall o f, all_legal f -> frag_state (f ++ [c]) (Some c) ->
       o ++ ntext res (f ++ c :: s) = out ++ ntext res (frag ++ c :: s) ->
       exists out' frag' last', normalize_loop res s o (f ++ [c]) (Some c) = Ok (out', frag', last') /\
         frag_state frag' last' /\ all_legal frag' /\
         out' ++ ntext res frag' = out ++ ntext res (frag ++ c :: s)).
    { intros o f Lf' FS' E. destruct (IH o (f ++ [c]) (Some c) Ls) as (o' & f' & l' & E1 & E2 & E3 & E4); auto.
      - apply Forall_app; split; auto. constructor; eauto.
      - exists o', f', l'. repeat split; auto. rewrite E4, <- app_assoc. auto. }
    cbn [normalize_loop].
    destruct (is_alnum c) eqn:Ac.
    + destruct last as [lc|].
      * destruct FS as [Hn [[Al AF]|[Al [n ->]]]]; rewrite Al.
        -- simpl bind. apply K; auto. simpl. split; [destruct frag; discriminate|]. left; split; auto.
           apply Forall_app; split; auto.
        -- simpl repeat at 1. change (lc :: repeat lc n) with (repeat lc (S n)).
           assert (Hlc : exists rl, char_rule lc = Some rl) by (inversion Lf; auto).
           destruct Hlc as [rl Hlc].
           cbv beta iota. rewrite (norm_frag_sign res lc rl n Hlc Al). simpl bind.
           apply (K (out ++ nrender res (rl, repeat lc (S n))) []).
           ++ constructor.
           ++ simpl. split; [discriminate|]. left; split; auto. constructor; auto.
           ++ rewrite (ntext_sign_break res lc rl n (c :: s)), <- app_assoc; auto. congruence.
      * simpl in FS. subst frag. simpl bind. apply (K out []); auto. simpl. split; [discriminate|].
        left. split; auto. repeat constructor; auto.
    + destruct last as [lc|].
      * destruct FS as [Hn [[Al AF]|[Al [n ->]]]].
        -- destruct (N.eqb_spec lc c); [congruence|].
           destruct frag as [|w0 fr]; [congruence|].
           assert (A0 : is_alnum w0 = true) by (inversion AF; auto). rewrite A0. simpl bind.
           apply (K (out ++ w0 :: fr) []).
           ++ constructor.
           ++ simpl. split; [discriminate|]. right; split; auto. exists 0; auto.
           ++ rewrite (ntext_alnum res (w0 :: fr)), <- app_assoc; auto.
        -- destruct (N.eqb_spec lc c) as [->|Hne].
           ++ simpl bind. apply (K out (repeat c (S n))); auto. rewrite repeat_snoc.
              split; [discriminate|]. right; split; auto. exists (S n); auto.
           ++ cbn [repeat]. cbv iota beta. rewrite Al. change (lc :: repeat lc n) with (repeat lc (S n)).
              assert (Hlc : exists rl, char_rule lc = Some rl) by (inversion Lf; auto).
              destruct Hlc as [rl Hlc].
              rewrite (norm_frag_sign res lc rl n Hlc Al). simpl bind.
              apply (K (out ++ nrender res (rl, repeat lc (S n))) []).
              ** constructor.
              ** simpl. split; [discriminate|]. right; split; auto. exists 0; auto.
              ** rewrite (ntext_sign_break res lc rl n (c :: s)), <- app_assoc; auto.
      * simpl in FS. subst frag. simpl bind. apply (K out []); auto. simpl. split; [discriminate|].
        right. split; auto. exists 0; auto.
Qed.
Lemma normalize_spec : forall res s, all_legal s -> normalize s res = Ok (ntext res s).
Proof.
  intros res s L. unfold normalize.
  destruct (normalize_loop_spec res s [] [] None L) as (o & f & l & E & FS & Lf & T); [constructor|reflexivity|].
  rewrite E. simpl in T. rewrite <- T. simpl.
  destruct l as [lc|].
  - destruct FS as [Hn [[Al AF]|[Al [n ->]]]]; rewrite Al.
    + simpl. rewrite <- (app_nil_r f) at 2. rewrite ntext_alnum; auto; [|constructor].
      rewrite app_nil_r. auto.
    + assert (Hlc : exists rl, char_rule lc = Some rl) by (inversion Lf; auto).
      destruct Hlc as [rl Hlc]. rewrite (norm_frag_sign res lc rl n Hlc Al). simpl bind.
      pose proof (ntext_sign_break res lc rl n [] Hlc Al ltac:(constructor) I) as X.
      rewrite app_nil_r in X. rewrite X. unfold ntext at 1. simpl. rewrite app_nil_r. auto.
  - simpl in FS. subst. auto.
Qed.

(** reserved characters of the key normalisation are plain in a regex *)
Definition nrun_toks (res : str) (rw : run) : list rtok :=
  match snd rw with
  | c :: _ => if char_in c res then map (fun c => RT [IChar c] (Some 1%N)) (snd rw) else run_toks rw
  | [] => []
  end.
Lemma ntext_regex : forall s t, all_legal s ->
  (regex_matches (ntext [EQUALS] s) t <-> t = s).
Proof.
  intros s t L. destruct (runs_spec s L) as (F & _ & E).
  assert (R : rparse (ntext [EQUALS] s) = Some (List.concat (map (nrun_toks [EQUALS]) (runs s)))).
  { unfold ntext. apply rparse_concat. clear E. induction F as [|rw l Hok F IH]; simpl; constructor; auto.
    unfold nrender, nrun_toks. destruct (snd rw) as [|c w] eqn:Es; [reflexivity|].
    destruct (char_in c [EQUALS]) eqn:Ec.
    - apply rparse_plain. apply char_in_In in Ec. destruct Ec as [<-|[]].
      destruct Hok as [_ Fw]. rewrite Es in Fw. inversion Fw as [|? ? H1 H2]; subst. constructor; [reflexivity|].
      eapply Forall_impl; [|exact H2]. intros d Hd. cbv beta in Hd.
      replace d with EQUALS; [reflexivity|]. apply (sign_rule_inj _ _ _ H1 Hd).
      rewrite (sign_alnum _ _ H1). reflexivity.
    - apply rparse_run; auto. }
  assert (M : forall l t, Forall run_ok l -> (toks_match (List.concat (map (nrun_toks [EQUALS]) l)) t <-> t = List.concat (map snd l))).
  { clear. induction l as [|rw l IH]; intros t F; simpl; [tauto|].
    inversion F as [|? ? Hok F']; subst. rewrite toks_match_app.
    assert (X : forall t, toks_match (nrun_toks [EQUALS] rw) t <-> t = snd rw).
    { intros t0. unfold nrun_toks. destruct (snd rw) as [|c w] eqn:Es; [simpl; tauto|].
      destruct (char_in c [EQUALS]); [apply toks_match_lits|]. rewrite run_toks_match, Es; tauto. }
    split.
    - intros (t1 & t2 & -> & H2 & H3). apply X in H2. apply IH in H3; auto. congruence.
    - intros ->. exists (snd rw), (List.concat (map snd l)). rewrite X, IH; auto. }
  unfold regex_matches. rewrite R. split.
  - intros (toks & X & Y). inversion X; subst toks. apply M in Y; auto. congruence.
  - intros ->. eexists; split; [reflexivity|]. apply M; auto.
Qed.
Lemma normalize_inj : forall s t, all_legal s -> all_legal t ->
  normalize s [EQUALS] = normalize t [EQUALS] -> s = t.
Proof.
  intros s t Hs Ht E. rewrite !normalize_spec in E by auto. inversion E as [E'].
  apply ntext_regex; auto. rewrite <- E'. apply ntext_regex; auto.
Qed.
