(** parse_url / unpack / analyze_url: proofs (C08, C09). *)
From Coq Require Import String.
From Verif Require Import PyStr Defs UrlLib ParseUtils PyStrProofs DefsProofs Spec RegexProofs
  PieceProofs QueryProofs BridgeProofs.
From Coq Require Import Lia.

(** ** Indexing *)
Lemma py_index_mid : forall (l : str) c r, py_index (l ++ c :: r) (Z.of_nat (length l)) = Ok c.
Proof.
  intros. unfold py_index. destruct (Z.ltb_spec (Z.of_nat (length l)) 0); [lia|].
  destruct (Z.ltb_spec (Z.of_nat (length l)) 0); [lia|]. rewrite Nat2Z.id.
  rewrite nth_error_app2, Nat.sub_diag by lia. reflexivity.
Qed.
Lemma py_index_last : forall (l : str) c, py_index (l ++ [c]) (-1) = Ok c.
Proof.
  intros. unfold py_index. change (-1 <? 0)%Z with true. cbv iota.
  rewrite app_length. simpl length.
  replace (-1 + Z.of_nat (length l + 1))%Z with (Z.of_nat (length l)) by lia.
  destruct (Z.ltb_spec (Z.of_nat (length l)) 0); [lia|]. rewrite Nat2Z.id.
  rewrite nth_error_app2, Nat.sub_diag by lia. reflexivity.
Qed.
Lemma py_index_last2 : forall (l : str) c d, py_index ((l ++ [c]) ++ [d]) (-2) = Ok c.
Proof.
  intros. unfold py_index. change (-2 <? 0)%Z with true. cbv iota.
  rewrite !app_length. simpl length.
  replace (-2 + Z.of_nat (length l + 1 + 1))%Z with (Z.of_nat (length l)) by lia.
  destruct (Z.ltb_spec (Z.of_nat (length l)) 0); [lia|]. rewrite Nat2Z.id.
  rewrite <- app_assoc. rewrite nth_error_app2, Nat.sub_diag by lia. reflexivity.
Qed.

(** ** urlparse *)
Definition cutd (c : char) (s : str) : str * str :=
  match cut c s with Some (a, b) => (a, b) | None => (s, []) end.
Definition no_sep (s : str) : Prop := ~ In NUMBER s /\ ~ In QUESTION s.
Lemma no_sep_app : forall a b, no_sep a -> no_sep b -> no_sep (a ++ b).
Proof. intros a b [A1 A2] [B1 B2]. split; intros H; apply in_app_or in H; tauto. Qed.

Lemma lstrip_spec : forall s, exists pre, s = pre ++ lstrip_c0 s /\ no_sep pre.
Proof.
  induction s as [|c s IH]; simpl.
  - exists []. repeat split; auto.
  - destruct (N.leb_spec c 32).
    + destruct IH as (pre & E & [H1 H2]). exists (c :: pre). rewrite E at 1. split; auto.
      split; intros [X|X]; auto; unfold NUMBER, QUESTION in *; lia.
    + exists []. repeat split; auto.
Qed.
Lemma strip_unsafe_id : forall s, Forall (fun c => unsafe_char c = false) s -> strip_unsafe s = s.
Proof.
  unfold strip_unsafe. induction 1 as [|c s H F IH]; auto. cbn [filter]. rewrite H. simpl negb. cbv iota. rewrite IH. auto.
Qed.
Lemma scheme_no_sep : forall s, forallb scheme_char s = true -> no_sep s.
Proof.
  intros s H. rewrite forallb_forall in H. split; intros X; apply H in X; vm_compute in X; discriminate.
Qed.
Lemma split_scheme_spec : forall s, exists pre, s = pre ++ snd (split_scheme s) /\ no_sep pre.
Proof.
  intros s. unfold split_scheme. destruct (cut 58%N s) as [[[|c0 a] b]|] eqn:E.
  - exists []. repeat split; auto.
  - destruct ((is_lower c0 || is_upper c0) && forallb scheme_char (c0 :: a)) eqn:E2.
    + apply cut_some in E as [-> _]. exists ((c0 :: a) ++ [58%N]). split.
      * rewrite <- app_assoc. reflexivity.
      * apply no_sep_app; [|split; intros [X|[]]; discriminate].
        apply andb_true_iff in E2 as [_ E2]. apply scheme_no_sep; auto.
    + exists []. repeat split; auto.
  - exists []. repeat split; auto.
Qed.
Lemma break_netloc_spec : forall s, s = fst (break_netloc s) ++ snd (break_netloc s) /\ no_sep (fst (break_netloc s)).
Proof.
  induction s as [|c s IH]; simpl.
  - repeat split; auto.
  - destruct (netloc_end c) eqn:E.
    + repeat split; auto.
    + destruct (break_netloc s) as [a b]. simpl in *. destruct IH as [-> [H1 H2]]. split; auto.
      split; intros [X|X]; auto; subst c; vm_compute in E; discriminate.
Qed.
Lemma startswith_app : forall p s, startswith s p = true -> s = p ++ skipn (length p) s.
Proof.
  induction p as [|y p IH]; intros s H; auto. destruct s as [|x s]; [discriminate|].
  simpl in H. apply andb_true_iff in H as [H1 H2]. apply N.eqb_eq in H1. subst. simpl. f_equal. auto.
Qed.
Lemma split_params_spec : forall p, exists t, p = fst (split_params p) ++ t /\
  ((t = [] /\ snd (split_params p) = []) \/ t = 59%N :: snd (split_params p)).
Proof.
  intros p. unfold split_params.
  destruct (rfind_char SLASH p) as [i|].
  - destruct (cut 59%N (skipn i p)) as [[a b]|] eqn:E.
    + apply cut_some in E as [E _]. exists (59%N :: b). simpl. split; auto.
      rewrite <- app_assoc. transitivity (firstn i p ++ skipn i p); [symmetry; apply firstn_skipn|].
      f_equal. exact E.
    + exists []. simpl. rewrite app_nil_r. auto.
  - destruct (cut 59%N p) as [[a b]|] eqn:E.
    + apply cut_some in E as [-> _]. exists (59%N :: b). auto.
    + exists []. simpl. rewrite app_nil_r. auto.
Qed.

(** the cleaned URL is a prefix without '?' and '#' followed by a body that is
    cut at the first '#', then at the first '?' *)
Lemma urlparse_spec : forall nv url r, urlparse nv url = Ok r ->
  exists pre body t, strip_unsafe (lstrip_c0 url) = pre ++ body /\ no_sep pre /\
    pr_fragment r = snd (cutd NUMBER body) /\
    pr_query r = snd (cutd QUESTION (fst (cutd NUMBER body))) /\
    fst (cutd QUESTION (fst (cutd NUMBER body))) = pr_path r ++ t /\
    ((t = [] /\ pr_params r = []) \/ t = 59%N :: pr_params r).
Proof.
  intros nv url r H. unfold urlparse in H. set (w := strip_unsafe (lstrip_c0 url)) in *. clearbody w.
  destruct (split_scheme_spec w) as (p1 & E1 & N1). destruct (split_scheme w) as [sch w1]. simpl in E1.
  set (nl := if startswith w1 (u "//") then break_netloc (skipn 2 w1) else ([], w1)) in *.
  assert (X : exists p2, w1 = p2 ++ snd nl /\ no_sep p2).
  { unfold nl. destruct (startswith w1 (u "//")) eqn:E.
    - apply startswith_app in E. destruct (break_netloc_spec (skipn 2 w1)) as [E2 N2].
      exists (u "//" ++ fst (break_netloc (skipn 2 w1))). split.
      + rewrite <- app_assoc. rewrite <- E2. exact E.
      + apply no_sep_app; auto. split; intros X; vm_compute in X; intuition discriminate.
    - exists []. repeat split; auto. }
  destruct X as (p2 & E2 & N2). clearbody nl. destruct nl as [netloc body]. simpl in E2.
  destruct (negb (brackets_ok netloc && nv netloc)); [discriminate|].
  exists (p1 ++ p2), body.
  fold (cutd NUMBER body) in H. destruct (cutd NUMBER body) as [b1 fr] eqn:C1.
  fold (cutd QUESTION b1) in H. destruct (cutd QUESTION b1) as [b2 qr] eqn:C2.
  destruct (str_in sch uses_params && char_in 59%N b2).
  - destruct (split_params_spec b2) as (t & Et & T). destruct (split_params b2) as [pa pm].
    inversion H; subst. simpl in *. rewrite C2. simpl. exists t. rewrite <- app_assoc. auto 10 using no_sep_app.
  - inversion H; subst. simpl in *. rewrite C2. simpl. exists []. rewrite app_nil_r, <- app_assoc.
    auto 10 using no_sep_app.
Qed.
Lemma urlparse_err : forall nv url e, urlparse nv url = Err e -> e = EValue.
Proof.
  intros nv url e H. unfold urlparse in H. destruct (split_scheme _) as [s w].
  destruct (if startswith w (u "//") then break_netloc (skipn 2 w) else ([], w)) as [n b].
  destruct (negb (brackets_ok n && nv n)); [congruence|].
  destruct (match cut NUMBER b with Some (a, b) => (a, b) | None => (b, []) end) as [b1 fr].
  destruct (match cut QUESTION b1 with Some (a, b) => (a, b) | None => (b1, []) end) as [b2 qr].
  destruct (if str_in s uses_params && char_in 59%N b2 then split_params b2 else (b2, [])). discriminate.
Qed.

Lemma cut_prefix : forall c pre s, ~ In c pre ->
  cut c (pre ++ s) = match cut c s with Some (a, b) => Some (pre ++ a, b) | None => None end.
Proof.
  induction pre as [|x pre IH]; intros s H; simpl.
  - destruct (cut c s) as [[a b]|]; auto.
  - destruct (N.eqb_spec x c); [exfalso; simpl in H; auto|]. rewrite IH by (simpl in H; auto).
    destruct (cut c s) as [[a b]|]; auto.
Qed.
Definition clean (url : str) : Prop := ~ In 9%N url /\ ~ In 13%N url /\ ~ In 10%N url.
Lemma clean_strip : forall url, clean url -> exists pre, url = pre ++ strip_unsafe (lstrip_c0 url) /\ no_sep pre.
Proof.
  intros url (H1 & H2 & H3). destruct (lstrip_spec url) as (pre & E & N). exists pre. split; auto.
  rewrite strip_unsafe_id; auto. apply Forall_forall. intros c Hc. unfold unsafe_char.
  apply char_in_false. intros X. assert (In c url) by (rewrite E; apply in_or_app; auto).
  simpl in X. destruct X as [<-|[<-|[<-|[]]]]; auto.
Qed.
Lemma parse_url_path_of : forall nv url p, parse_url nv url = Ok p ->
  exists r, urlparse nv url = Ok r /\ up_path p = pr_path r /\
    (up_query p = None \/ up_query p = Some (pr_query r)) /\
    (up_fragment p = None \/ up_fragment p = Some (pr_fragment r)).
Proof.
  intros nv url p H. unfold parse_url in H. destruct (urlparse nv url) as [r|e]; [|discriminate].
  exists r. split; auto. simpl in H.
  repeat match type of H with
  | context [if ?b then _ else _] => destruct b
  | bind ?m _ = _ => destruct m; simpl in H; [|discriminate]
  end; inversion H; subst; simpl; auto.
Qed.
Lemma snoc_cases : forall A (l : list A), l = [] \/ exists a x, l = a ++ [x].
Proof. intros A l. destruct l as [|x l] using rev_ind; eauto. Qed.

Definition qf_result (url : str) : option str * option str :=
  match cut NUMBER url with
  | None => (match cut QUESTION url with Some (_, q) => Some q | None => None end, None)
  | Some (a, f) => (match cut QUESTION a with Some (_, q) => Some q | None => None end, Some f)
  end.
Lemma parse_url_spec : forall nv url, clean url -> url <> [] -> hd 0%N url <> NUMBER ->
  match parse_url nv url with
  | Ok p => (up_query p, up_fragment p) = qf_result url
  | Err e => e = EValue
  end.
Proof.
  intros nv url Cl Hne Hhd. unfold parse_url.
  destruct (urlparse nv url) as [r|e] eqn:Eu; [|simpl; eapply urlparse_err; eauto].
  apply urlparse_spec in Eu as (pre & body & t & Eb & Np & Ef & Eq & _).
  destruct (clean_strip url Cl) as (p0 & E0 & N0). rewrite Eb, app_assoc in E0.
  set (P := p0 ++ pre) in *. assert (NP : no_sep P) by (apply no_sep_app; auto). clearbody P. clear pre p0 Np N0 Eb.
  cbn [bind]. cbv zeta. rewrite Ef, Eq. clear Ef Eq. unfold qf_result, cutd.
  destruct NP as [NP1 NP2].
  assert (C1 : cut NUMBER url = match cut NUMBER body with Some (a, b) => Some (P ++ a, b) | None => None end)
    by (rewrite E0; apply cut_prefix; auto).
  assert (Q : forall w, cut QUESTION (P ++ w) = match cut QUESTION w with Some (a, b) => Some (P ++ a, b) | None => None end)
    by (intros; apply cut_prefix; auto).
  rewrite C1. destruct (cut NUMBER body) as [[b1 fr]|] eqn:Cb; simpl fst; simpl snd.
  - rewrite Q. apply cut_some in Cb as [Eb1 Hb1]. subst body.
    assert (Eurl : url = (P ++ b1) ++ NUMBER :: fr) by (rewrite E0, <- app_assoc; auto).
    destruct (snoc_cases _ (P ++ b1)) as [Z|(w & x & Z)].
    { exfalso. rewrite Z in Eurl. apply Hhd. rewrite Eurl. reflexivity. }
    assert (L : is_nil fr = false -> py_index url (Z.of_nat (length url) - Z.of_nat (length fr) - 2) = Ok x).
    { intros _. rewrite Eurl, Z. rewrite !app_length. simpl length.
      replace (Z.of_nat (length w + 1 + S (length fr)) - Z.of_nat (length fr) - 2)%Z with (Z.of_nat (length w)) by lia.
      rewrite <- app_assoc. apply py_index_mid. }
    assert (Lx : forall q, cut QUESTION b1 = Some (q, []) -> x = QUESTION).
    { intros q Cq. apply cut_some in Cq as [Cq _]. rewrite Cq in Z. rewrite app_assoc in Z.
      apply app_inj_tail in Z as [_ <-]. auto. }
    assert (Ln : cut QUESTION b1 = None -> x <> QUESTION).
    { intros Cq ->. apply cut_none in Cq. assert (X : In QUESTION (P ++ b1)) by (rewrite Z; apply in_or_app; simpl; auto).
      apply in_app_or in X. tauto. }
    destruct fr as [|f0 fr].
    + simpl is_nil. cbv iota. assert (E1 : py_index url (-1) = Ok NUMBER) by (rewrite Eurl; apply py_index_last).
      assert (E2 : py_index url (-2) = Ok x) by (rewrite Eurl, Z; apply py_index_last2).
      rewrite E1. cbn [bind]. rewrite N.eqb_refl. simpl negb. cbv iota.
      destruct (cut QUESTION b1) as [[qa [|q0 qb]]|] eqn:Cq; simpl is_nil; cbv iota; auto; rewrite E2; cbn [bind].
      * rewrite (Lx qa) by auto. reflexivity.
      * destruct (N.eqb_spec x QUESTION); [exfalso; apply Ln; auto|]. reflexivity.
    + simpl is_nil. cbv iota. rewrite L by auto.
      destruct (cut QUESTION b1) as [[qa [|q0 qb]]|] eqn:Cq; simpl is_nil; cbv iota; auto; cbn [bind].
      * rewrite (Lx qa) by auto. reflexivity.
      * destruct (N.eqb_spec x QUESTION); [exfalso; apply Ln; auto|]. reflexivity.
  - apply cut_none in Cb. 
    assert (C2 : cut QUESTION url = match cut QUESTION body with Some (a, b) => Some (P ++ a, b) | None => None end)
      by (rewrite E0; apply Q).
    rewrite C2. simpl is_nil. cbv iota.
    destruct (snoc_cases _ url) as [Z|(w & x & Z)]; [congruence|].
    assert (E1 : py_index url (-1) = Ok x) by (rewrite Z; apply py_index_last).
    rewrite E1. cbn [bind].
    assert (Hx : x <> NUMBER).
    { intros ->. assert (X : In NUMBER (P ++ body)) by (rewrite <- E0, Z; apply in_or_app; simpl; auto).
      apply in_app_or in X. tauto. }
    destruct (N.eqb_spec x NUMBER); [contradiction|]. simpl negb. cbv iota.
    destruct (cut QUESTION body) as [[qa [|q0 qb]]|] eqn:Cq; simpl is_nil; cbv iota; auto.
    + apply cut_some in Cq as [Cq _]. rewrite E0, Cq, app_assoc in Z. apply app_inj_tail in Z as [_ <-]. reflexivity.
    + destruct (N.eqb_spec x QUESTION) as [->|]; [|reflexivity]. exfalso. apply cut_none in Cq.
      assert (X : In QUESTION (P ++ body)) by (rewrite <- E0, Z; apply in_or_app; simpl; auto).
      apply in_app_or in X. tauto.
Qed.

Lemma qf_fragment : forall url, fragment_of url (snd (qf_result url)).
Proof.
  intros url. unfold qf_result, fragment_of. destruct (cut NUMBER url) as [[a f]|] eqn:E; simpl.
  - apply cut_some in E as [-> H]. eauto.
  - apply cut_none in E. auto.
Qed.
Lemma qf_query : forall url, query_of url (fst (qf_result url)).
Proof.
  intros url. unfold qf_result, query_of, before_fragment.
  destruct (cut NUMBER url) as [[a f]|] eqn:E; simpl.
  - apply cut_some in E as [-> H]. exists a. split; [split; [auto|right; eauto]|].
    destruct (cut QUESTION a) as [[x q]|] eqn:C.
    + apply cut_some in C as [-> Hx]. eauto.
    + apply cut_none in C; auto.
  - apply cut_none in E. exists url. split; [auto|].
    destruct (cut QUESTION url) as [[x q]|] eqn:C.
    + apply cut_some in C as [-> Hx]. eauto.
    + apply cut_none in C; auto.
Qed.
Lemma c08 : forall nv url, ~ In 9%N url -> ~ In 10%N url -> ~ In 13%N url ->
  url <> [] -> (forall r, url <> 35%N :: r) ->
  (forall p, parse_url nv url = Ok p -> query_of url (up_query p) /\ fragment_of url (up_fragment p)) /\
  (forall e, parse_url nv url = Err e -> e = EValue).
Proof.
  intros nv url H1 H2 H3 Hn Hh.
  assert (Hd : hd 0%N url <> NUMBER). { destruct url; [congruence|]. simpl. intros ->. eapply Hh; eauto. }
  pose proof (parse_url_spec nv url (conj H1 (conj H3 H2)) Hn Hd) as X. split; intros y E; rewrite E in X; auto.
  destruct (qf_result url) as [q f] eqn:Eqf. inversion X as [[X1 X2]]. rewrite X1, X2. split.
  - pose proof (qf_query url) as G. rewrite Eqf in G. exact G.
  - pose proof (qf_fragment url) as G. rewrite Eqf in G. exact G.
Qed.

(** ** analyze_url *)
Lemma filter_useless_incl : forall A (t : A -> bool) l x, In x (filter_useless t l) -> In x l.
Proof.
  intros A t l x. destruct l as [|y l] using rev_ind; auto. rewrite filter_useless_snoc.
  intros H. apply in_app_or in H as [H|H]; apply in_or_app; auto. left. apply filter_In in H. tauto.
Qed.
Lemma filter_useless_init : forall (l : list str), Forall (fun w => w <> []) (removelast (filter_useless nonempty l)).
Proof.
  intros l. destruct l as [|y l] using rev_ind; [constructor|]. rewrite filter_useless_snoc, removelast_last.
  apply Forall_forall. intros w H. apply filter_In in H as [_ H]. intros ->. discriminate.
Qed.
Lemma cutd_fst_incl : forall c s x, In x (fst (cutd c s)) -> In x s.
Proof.
  intros c s x H. unfold cutd in H. destruct (cut c s) as [[a b]|] eqn:E; auto.
  apply cut_some in E as [-> _]. apply in_or_app; auto.
Qed.
Lemma cutd_snd_incl : forall c s x, In x (snd (cutd c s)) -> In x s.
Proof.
  intros c s x H. unfold cutd in H. destruct (cut c s) as [[a b]|] eqn:E; [|destruct H].
  apply cut_some in E as [-> _]. apply in_or_app; right; right; auto.
Qed.
Lemma cutd_fst_no : forall c s, ~ In c (fst (cutd c s)).
Proof.
  intros c s. unfold cutd. destruct (cut c s) as [[a b]|] eqn:E.
  - apply cut_some in E. tauto.
  - apply cut_none in E. auto.
Qed.
Lemma urlparse_chars : forall nv url r, urlparse nv url = Ok r ->
  ~ In NUMBER (pr_path r) /\ ~ In QUESTION (pr_path r) /\ ~ In NUMBER (pr_query r).
Proof.
  intros nv url r H. apply urlparse_spec in H as (pre & body & t & _ & _ & _ & Eq & Ep & _).
  assert (I : forall x, In x (pr_path r) -> In x (fst (cutd QUESTION (fst (cutd NUMBER body)))))
    by (intros; rewrite Ep; apply in_or_app; auto).
  repeat split; intros X.
  - apply I in X. apply cutd_fst_incl in X. eapply cutd_fst_no; eauto.
  - apply I in X. eapply cutd_fst_no; eauto.
  - rewrite Eq in X. apply cutd_snd_incl in X. eapply cutd_fst_no; eauto.
Qed.

(** what a query string splits into *)
Definition query_ok (q : option str) (ks vs : list str) : Prop :=
  length ks = length vs /\ (ks = [] <-> q = None) /\
  Forall (fun kv => kv_ok (length ks =? 1) (fst kv) (snd kv) /\ ~ In 38%N (fst kv ++ snd kv) /\
                    (length ks =? 1 = false -> fst kv <> [])) (combine ks vs) /\
  (forall s, q = Some s -> join [38%N] (map (fun kv => fst kv ++ snd kv) (combine ks vs)) = s).
Lemma parse_query_ok : forall q ks vs, parse_query_string q = Ok (ks, vs) -> query_ok q ks vs.
Proof.
  intros [s|] ks vs H.
  - destruct s as [|c s].
    + inversion H; subst. repeat split; try discriminate.
      * constructor; [|constructor]. simpl. split; [right; right; auto|]. split; auto; discriminate.
      * intros s E. inversion E; subst. reflexivity.
    + assert (Hn : c :: s <> []) by discriminate.
      destruct (c07_ok (c :: s) (Ok (ks, vs)) Hn H) as (ks' & vs' & E & L & L1 & J & F); [discriminate|].
      inversion E; subst ks' vs'. split; auto. split.
      { split; [intros ->; simpl in L1; lia|discriminate]. }
      split.
      2:{ intros s0 E0; inversion E0; subst; auto. }
      assert (NM : ~ amp_misplaced (c :: s)).
      { intros M. apply c07_err in M; auto. pose proof (eq_trans (eq_sym M) H). discriminate. }
      assert (NE : ~ In [] (split_char AMPERSAND (c :: s))) by (rewrite split_empty_iff; auto).
      assert (SJ : split_char AMPERSAND (c :: s) = map (fun kv => fst kv ++ snd kv) (combine ks vs)).
      { rewrite <- J. apply split_join_inv.
        - destruct ks, vs; simpl in *; try lia. discriminate.
        - apply Forall_map. eapply Forall_impl; [|exact F]. intros kv [_ X]. exact X. }
      rewrite Forall_forall in F |- *. intros [k v] Hi. specialize (F _ Hi) as [K A]. simpl in *.
      split; auto. split; auto. intros Hs ->. apply NE. rewrite SJ. apply in_map_iff. exists ([], v).
      split; auto. simpl. destruct K as [(k0 & E0 & _)|[(_ & _ & ->)|(E0 & _)]]; auto.
      * destruct k0; discriminate.
      * congruence.
  - inversion H; subst. repeat split; auto; try discriminate. constructor.
Qed.

Record analyzed (m : url_meta) (raw : list str) (pp ks vs : list str) (fr : option str) : Prop := {
  an_raw : raw = pp ++ vs ++ match fr with Some f => [f] | None => [] end;
  an_depth : path_depth m = length pp;
  an_pos : 1 <= length pp;
  an_frag : has_fragment m = match fr with Some _ => true | None => false end;
  an_keys : mapM (fun k => normalize k [EQUALS]) ks = Ok (query_keys m);
  an_len : length ks = length vs;
  an_path : Forall (fun w => ~ In SLASH w /\ ~ In QUESTION w /\ ~ In NUMBER w) pp;
  an_init : Forall (fun w => w <> []) (removelast pp);
  an_kv : Forall (fun kv => kv_ok (length ks =? 1) (fst kv) (snd kv) /\
            ~ In AMPERSAND (fst kv ++ snd kv) /\ ~ In NUMBER (fst kv ++ snd kv) /\
            (length ks =? 1 = false -> fst kv <> [])) (combine ks vs) }.

Lemma analyze_url_spec : forall nv url m raw, analyze_url nv url = Ok (m, raw) ->
  exists pp ks vs fr, analyzed m raw pp ks vs fr.
Proof.
  intros nv url m raw H. unfold analyze_url in H.
  destruct (parse_url nv url) as [p|] eqn:E; [|discriminate]. cbn [bind] in H.
  destruct (parse_url_path_of nv url p E) as (r & Eu & Hp & Hq & Hf).
  destruct (urlparse_chars _ _ _ Eu) as (N1 & N2 & N3).
  unfold unpack in H.
  set (pp := filter_useless nonempty (tl (split_char SLASH (up_path p)))) in *.
  destruct (Nat.leb_spec (length pp) 0); [discriminate|].
  destruct (parse_query_string (up_query p)) as [[ks vs]|] eqn:Q; [|discriminate]. cbn [bind] in H.
  destruct (mapM (fun k => normalize k [EQUALS]) ks) as [nks|] eqn:K; [|discriminate]. cbn [bind] in H.
  inversion H; subst m raw. exists pp, ks, vs, (up_fragment p).
  apply parse_query_ok in Q as (L & KN & F & J).
  constructor; auto; simpl.
  - unfold pp. apply Forall_forall. intros w Hw. apply filter_useless_incl in Hw.
    assert (Hw' : In w (split_char SLASH (up_path p))) by (destruct (split_char SLASH (up_path p)); simpl in *; auto).
    assert (I : forall c, In c w -> In c (up_path p) \/ c = SLASH).
    { intros c Hc. rewrite <- (split_join SLASH (up_path p)). clear -Hw' Hc.
      induction (split_char SLASH (up_path p)) as [|a l IH]; [destruct Hw'|].
      destruct l as [|b l]. { destruct Hw' as [->|[]]. auto. }
      rewrite join_cons. destruct Hw' as [->|Hw']; [left; apply in_or_app; auto|].
      destruct (IH Hw'); auto. left. apply in_or_app; right. apply in_or_app; auto. }
    assert (NS : ~ In SLASH w) by (eapply split_char_nosep; eauto).
    rewrite Hp in I. split; auto.
    split; intros X; destruct (I _ X) as [Y|Y]; auto; discriminate.
  - apply filter_useless_init.
  - rewrite Forall_forall in F |- *. intros kv Hi. specialize (F kv Hi) as (F1 & F2 & F3).
    split; auto. split; auto. split; auto. intros X.
    assert (Q : exists s, up_query p = Some s).
    { destruct (up_query p); eauto. exfalso. rewrite (proj2 KN eq_refl) in Hi. destruct Hi. }
    destruct Q as [s Es]. specialize (J s Es).
    assert (I : In NUMBER s).
    { rewrite <- J. clear -Hi X. induction (combine ks vs) as [|a l IH]; [destruct Hi|].
      simpl map. destruct l as [|b l].
      - destruct Hi as [->|[]]. auto.
      - simpl map. rewrite join_cons. apply in_or_app. destruct Hi as [->|Hi]; auto.
        right. apply in_or_app; right. apply IH; auto. }
    destruct Hq as [Hq|Hq]; rewrite Hq in Es; [discriminate|].
    assert (Es' : pr_query r = s) by congruence. apply N3. rewrite Es'. exact I.
Qed.
Lemma c09 : forall nv url m raw, analyze_url nv url = Ok (m, raw) ->
  exists pp vs fr, raw = pp ++ vs ++ fr /\
    path_depth m = length pp /\ length (query_keys m) = length vs /\
    (if has_fragment m then 1 else 0) = length fr /\ length raw = depth m /\
    1 <= length pp /\
    Forall (fun w => ~ In 47%N w /\ ~ In 63%N w /\ ~ In 35%N w) pp /\
    Forall (fun w => w <> []) (removelast pp) /\
    Forall (fun v => ~ In 38%N v /\ ~ In 35%N v) vs.
Proof.
  intros nv url m raw H. apply analyze_url_spec in H as (pp & ks & vs & fr & [A1 A2 A3 A4 A5 A6 A7 A8 A9]).
  exists pp, vs, (match fr with Some f => [f] | None => [] end).
  assert (LK : length (query_keys m) = length vs) by (rewrite <- A6; exact (mapM_length _ _ _ _ _ A5)).
  assert (LF : (if has_fragment m then 1 else 0) = length (match fr with Some f => [f] | None => [] end))
    by (rewrite A4; destruct fr; auto).
  repeat split; auto.
  - unfold depth. rewrite LK, LF, A2, A1. rewrite !app_length. lia.
  - clear -A6 A9. revert vs A6 A9. generalize (length ks =? 1). induction ks as [|k ks IH]; intros b [|v vs] L F; simpl in *; try lia; constructor.
    + inversion F as [|? ? (_ & F1 & F2 & _) _]; subst. simpl in *. split; intros X.
      * apply F1. apply in_or_app; auto.
      * apply F2. apply in_or_app; auto.
    + inversion F; subst. eapply (IH b); eauto.
Qed.
