(** Proofs for C59: the end of the text as it was given. *)
From Coq Require Import String.
From Verif Require Import PyStr Defs UrlLib ParseUtils Spec Views Trees Cluster Patterns Matcher Maker Observe GrammarSpec UrlSpec RefSpec PyStrProofs UrlProofs UrlExact UrlRef.
From Coq Require Import Lia.

Lemma sign_nth : forall (l : str) c (t : str), length t < length l -> (sign_before l c t <-> nth_error l (length l - length t - 1) = Some c).
Proof.
  intros l c t LT. split.
  - intros (a & b & -> & L). rewrite <- L. rewrite app_length. cbn [length]. replace (length a + S (length b) - length b - 1) with (length a) by lia. rewrite nth_error_app2 by lia. rewrite Nat.sub_diag. reflexivity.
  - intros H. apply nth_error_split in H. destruct H as (a & b & E & L). exists a, b. split; [exact E|]. assert (X : length l = length a + S (length b)) by (rewrite E, app_length; reflexivity). unfold str, char in *. lia.
Qed.
Lemma py_nth : forall (l : str) i j, (j < length l) -> (i = Z.of_nat j \/ i = Z.of_nat j - Z.of_nat (length l))%Z -> py_index l i = match nth_error l j with Some c => Ok c | None => Err EIndex end.
Proof.
  intros l i j J I. unfold py_index. cbv zeta. assert (E : (if (i <? 0)%Z then (i + Z.of_nat (length l))%Z else i) = Z.of_nat j) by (destruct (Z.ltb_spec i 0); lia).
  rewrite E. destruct (Z.ltb_spec (Z.of_nat j) 0); [lia|]. rewrite Nat2Z.id. reflexivity.
Qed.
(** the character that is looked at *)
Lemma look : forall (l t : str) i, length t < length l -> (i = Z.of_nat (length l) - Z.of_nat (length t) - 1 \/ i = - Z.of_nat (length t) - 1)%Z ->
  exists c, py_index l i = Ok c /\ forall x, c = x <-> sign_before l x t.
Proof.
  intros l t i LT I. rewrite (py_nth l i (length l - length t - 1)) by lia. destruct (nth_error l (length l - length t - 1)) as [c|] eqn:E; [|apply nth_error_None in E; unfold str, char in *; lia].
  exists c. split; [reflexivity|]. intros x. rewrite sign_nth by exact LT. rewrite E. split; [intros ->; reflexivity|intros H; inversion H; reflexivity].
Qed.
Lemma sign_in : forall l c t, sign_before l c t -> In c l.
Proof. intros l c t (a & b & -> & _). apply in_or_app. right. left. reflexivity. Qed.

Lemma seen_exists : forall url q f, exists q' f', seen url q f q' f'.
Proof.
  intros url q f. assert (D : forall c t, sign_before url c t \/ ~ sign_before url c t).
  { intros c t. destruct (Nat.lt_ge_cases (length t) (length url)) as [L|L].
    - destruct (nth_error url (length url - length t - 1)) as [x|] eqn:E; [destruct (N.eq_dec x c) as [->|NE]|].
      + left. apply sign_nth; assumption.
      + right. rewrite sign_nth by exact L. rewrite E. congruence.
      + right. rewrite sign_nth by exact L. rewrite E. discriminate.
    - right. intros (a & b & E & X). rewrite E, app_length in L. cbn [length] in L. lia. }
  assert (F : exists f', match f with Some [] => (f' = Some [] /\ sign_before url 35%N []) \/ (f' = None /\ ~ sign_before url 35%N []) | _ => f' = f end).
  { destruct f as [[|c t]|]; [destruct (D 35%N []); [exists (Some [])|exists None]; auto|eauto|eauto]. }
  destruct F as (f' & F). destruct (D 63%N (opt_text (u "#") f')) as [X|X]; [exists (match q with Some (_ :: _) => q | _ => Some [] end)|exists (match q with Some (_ :: _) => q | _ => None end)]; exists f'; (split; [exact F|]); destruct q as [[|c t]|]; auto.
Qed.
Lemma seen_unique : forall url q f q1 f1 q2 f2, seen url q f q1 f1 -> seen url q f q2 f2 -> q1 = q2 /\ f1 = f2.
Proof.
  intros url q f q1 f1 q2 f2 [F1 Q1] [F2 Q2]. assert (E : f1 = f2) by (destruct f as [[|c t]|]; [|congruence|congruence]; destruct F1 as [[-> ?]|[-> ?]], F2 as [[-> ?]|[-> ?]]; tauto).
  subst f2. split; [|reflexivity]. destruct q as [[|c t]|]; [|congruence|]; destruct Q1 as [[-> ?]|[-> ?]], Q2 as [[-> ?]|[-> ?]]; tauto.
Qed.

Section Parse.
  Context (nv : str -> bool) (url body : str) (s h : option str) (p p' : str) (q f q' f' : option str).
  Context (BO : body_of url body) (RF : reference body s h p q f) (CP : cut_params (scheme_or_http s) p p') (SN : seen url q f q' f').
  Lemma no_number : f = None -> ~ In NUMBER url.
  Proof.
    intros EF IC. pose proof (body_in url body NUMBER BO IC ltac:(reflexivity)) as I. destruct RF as (E & SC & HO' & FP & NQ). rewrite E in I. apply in_app_or in I. destruct I as [I|I].
    - destruct s as [s0|]; [|exact I]. cbn [opt_scheme] in I. apply in_app_or in I. destruct I as [I|I]; [|cbn in I; destruct I as [I|[]]; discriminate]. destruct SC as [_ FS]. rewrite Forall_forall in FS. specialize (FS _ I). vm_compute in FS. intuition discriminate.
    - apply in_app_or in I. destruct I as [I|I].
      + destruct h as [w|]; [|exact I]. cbn [opt_text] in I. apply in_app_or in I. destruct I as [I|I]; [cbn in I; destruct I as [I|[I|[]]]; discriminate|]. destruct HO' as [FH _]. rewrite Forall_forall in FH. apply (FH _ I). cbn. tauto.
      + apply in_app_or in I. destruct I as [I|I]; [rewrite Forall_forall in FP; apply (FP _ I); cbn; tauto|]. rewrite EF in I. cbn [opt_text] in I. rewrite app_nil_r in I. destruct q as [t|]; [|exact I]. destruct I as [I|I]; [discriminate|exact (NQ t eq_refl I)].
  Qed.
  Lemma body_short : length body <= length url.
  Proof. pose proof (proj1 (body_iff _ _) BO) as ST. rewrite <- ST. etransitivity; [apply strip_length|]. destruct (lstrip_cut url) as (a & EA & _). pose proof (f_equal (@length _) EA) as L. rewrite app_length in L. unfold str, char in *. lia. Qed.
  Lemma room : length p + length (opt_text (u "#") f) <= length url.
  Proof. pose proof body_short as B. destruct RF as (E & _). rewrite E in B. repeat rewrite app_length in B. unfold str, char in *. lia. Qed.
  Lemma path_short : length p' <= length p.
  Proof. destruct CP as [[-> _]|(_ & _ & c & -> & _)]; [lia|rewrite app_length; lia]. Qed.
  Lemma seen_parse : host_ok nv (or_empty h) -> url <> [] -> url <> u "#" ->
    exists r, parse_url nv url = Ok r /\ up_path r = p' /\ (In 47%N p' -> up_query r = q' /\ up_fragment r = f').
  Proof.
    intros HO NE NH. pose proof (proj1 (body_iff _ _) BO) as ST. destruct (ref_urlparse nv body p p' s h q f RF CP url ST) as (params & UP).
    apply host_okb in HO. rewrite HO in UP. cbn [negb] in UP. unfold parse_url. rewrite UP. cbn [bind pr_query pr_fragment pr_scheme pr_netloc pr_path pr_params]. clear UP ST HO.
    assert (L0 : 0 < length url) by (destruct url; [contradiction|cbn; lia]).
    pose proof room as RM. pose proof no_number as NN. pose proof path_short as PS. destruct SN as [SF SQ]. destruct f as [[|c0 t]|]; cbn [or_empty is_nil].
    - destruct (look url [] (-1)%Z L0 ltac:(cbn; lia)) as (c1 & -> & C1). cbn [bind]. destruct (N.eqb_spec c1 NUMBER) as [X|X]; cbn [negb].
      + assert (SB : sign_before url 35%N []) by (apply C1; exact X). assert (F : f' = Some []) by (destruct SF as [[-> _]|[_ K]]; [reflexivity|contradiction]). clear SF. rewrite F in SQ |- *.
        assert (L1 : length (opt_text (u "#") (Some [])) < length url).
        { cbn. destruct url as [|x [|y r]]; [contradiction| |cbn; lia]. exfalso. apply NH. destruct SB as (a & b & E & LB). destruct b; [|discriminate]. destruct a as [|a1 [|]]; inversion E. reflexivity. }
        destruct q as [[|cq tq]|]; cbn [or_empty is_nil].
        * destruct (look url (opt_text (u "#") (Some [])) (-2)%Z L1 ltac:(cbn; lia)) as (c2 & -> & C2). cbn [bind]. destruct (N.eqb_spec c2 QUESTION) as [Y|Y]; cbn [negb]; eexists; (split; [reflexivity|]); (split; [reflexivity|]); intros _; cbn [up_query up_fragment]; (split; [|reflexivity]).
          -- destruct SQ as [[-> _]|[_ K]]; [reflexivity|exfalso; apply K, C2; exact Y].
          -- destruct SQ as [[_ K]|[-> _]]; [exfalso; apply Y, C2; exact K|reflexivity].
        * eexists. split; [reflexivity|]. split; [reflexivity|]. intros _. rewrite SQ. auto.
        * destruct (look url (opt_text (u "#") (Some [])) (-2)%Z L1 ltac:(cbn; lia)) as (c2 & -> & C2). cbn [bind]. destruct (N.eqb_spec c2 QUESTION) as [Y|Y]; cbn [negb]; eexists; (split; [reflexivity|]); (split; [reflexivity|]); intros _; cbn [up_query up_fragment]; (split; [|reflexivity]).
          -- destruct SQ as [[-> _]|[_ K]]; [reflexivity|exfalso; apply K, C2; exact Y].
          -- destruct SQ as [[_ K]|[-> _]]; [exfalso; apply Y, C2; exact K|reflexivity].
      + assert (F : f' = None) by (destruct SF as [[_ K]|[-> _]]; [exfalso; apply X, C1; exact K|reflexivity]). clear SF. rewrite F in SQ |- *. cbn [opt_text] in SQ.
        destruct q as [[|cq tq]|]; cbn [or_empty is_nil].
        * destruct (N.eqb_spec c1 QUESTION) as [Y|Y]; cbn [negb]; eexists; (split; [reflexivity|]); (split; [reflexivity|]); intros _; cbn [up_query up_fragment]; (split; [|reflexivity]).
          -- destruct SQ as [[-> _]|[_ K]]; [reflexivity|exfalso; apply K, C1; exact Y].
          -- destruct SQ as [[_ K]|[-> _]]; [exfalso; apply Y, C1; exact K|reflexivity].
        * eexists. split; [reflexivity|]. split; [reflexivity|]. intros _. rewrite SQ. auto.
        * destruct (N.eqb_spec c1 QUESTION) as [Y|Y]; cbn [negb]; eexists; (split; [reflexivity|]); (split; [reflexivity|]); intros _; cbn [up_query up_fragment]; (split; [|reflexivity]).
          -- destruct SQ as [[-> _]|[_ K]]; [reflexivity|exfalso; apply K, C1; exact Y].
          -- destruct SQ as [[_ K]|[-> _]]; [exfalso; apply Y, C1; exact K|reflexivity].
    - rewrite SF in SQ |- *. clear SF. set (ft := c0 :: t) in *. assert (LE : length (opt_text (u "#") (Some ft)) = S (length ft)) by reflexivity. assert (RM' : length p + S (length ft) <= length url) by exact RM. clear RM. rename RM' into RM.
      destruct q as [[|cq tq]|]; cbn [or_empty is_nil].
      + destruct (py_index_ok url (Z.of_nat (length url) - Z.of_nat (length ft) - 2)%Z) as (c2 & P2); [unfold str, char in *; lia|]. rewrite P2. cbn [bind].
        assert (C2 : In 47%N p' -> forall x, c2 = x <-> sign_before url x (opt_text (u "#") (Some ft))).
        { intros I. assert (0 < length p') by (destruct p'; [contradiction|cbn; lia]). destruct (look url (opt_text (u "#") (Some ft)) (Z.of_nat (length url) - Z.of_nat (length ft) - 2)%Z) as (c3 & P3 & C3); [unfold str, char in *; lia|unfold str, char in *; lia|]. rewrite P3 in P2. inversion P2; subst c3. exact C3. }
        destruct (N.eqb_spec c2 QUESTION) as [Y|Y]; cbn [negb]; eexists; (split; [reflexivity|]); (split; [reflexivity|]); intros I; specialize (C2 I); cbn [up_query up_fragment]; (split; [|reflexivity]).
        * destruct SQ as [[-> _]|[_ K]]; [reflexivity|exfalso; apply K, C2; exact Y].
        * destruct SQ as [[_ K]|[-> _]]; [exfalso; apply Y, C2; exact K|reflexivity].
      + eexists. split; [reflexivity|]. split; [reflexivity|]. intros _. rewrite SQ. auto.
      + destruct (py_index_ok url (Z.of_nat (length url) - Z.of_nat (length ft) - 2)%Z) as (c2 & P2); [unfold str, char in *; lia|]. rewrite P2. cbn [bind].
        assert (C2 : In 47%N p' -> forall x, c2 = x <-> sign_before url x (opt_text (u "#") (Some ft))).
        { intros I. assert (0 < length p') by (destruct p'; [contradiction|cbn; lia]). destruct (look url (opt_text (u "#") (Some ft)) (Z.of_nat (length url) - Z.of_nat (length ft) - 2)%Z) as (c3 & P3 & C3); [unfold str, char in *; lia|unfold str, char in *; lia|]. rewrite P3 in P2. inversion P2; subst c3. exact C3. }
        destruct (N.eqb_spec c2 QUESTION) as [Y|Y]; cbn [negb]; eexists; (split; [reflexivity|]); (split; [reflexivity|]); intros I; specialize (C2 I); cbn [up_query up_fragment]; (split; [|reflexivity]).
        * destruct SQ as [[-> _]|[_ K]]; [reflexivity|exfalso; apply K, C2; exact Y].
        * destruct SQ as [[_ K]|[-> _]]; [exfalso; apply Y, C2; exact K|reflexivity].
    - rewrite SF in SQ |- *. clear SF. cbn [opt_text] in SQ. destruct (look url [] (-1)%Z L0 ltac:(cbn; lia)) as (c1 & P1 & C1). rewrite P1. cbn [bind].
      destruct (N.eqb_spec c1 NUMBER) as [X|X]; [exfalso; apply (NN eq_refl); apply (sign_in url NUMBER []); apply C1; exact X|]. cbn [negb].
      destruct q as [[|cq tq]|]; cbn [or_empty is_nil].
      + destruct (N.eqb_spec c1 QUESTION) as [Y|Y]; cbn [negb]; eexists; (split; [reflexivity|]); (split; [reflexivity|]); intros _; cbn [up_query up_fragment]; (split; [|reflexivity]).
        * destruct SQ as [[-> _]|[_ K]]; [reflexivity|exfalso; apply K, C1; exact Y].
        * destruct SQ as [[_ K]|[-> _]]; [exfalso; apply Y, C1; exact K|reflexivity].
      + eexists. split; [reflexivity|]. split; [reflexivity|]. intros _. rewrite SQ. auto.
      + destruct (N.eqb_spec c1 QUESTION) as [Y|Y]; cbn [negb]; eexists; (split; [reflexivity|]); (split; [reflexivity|]); intros _; cbn [up_query up_fragment]; (split; [|reflexivity]).
        * destruct SQ as [[-> _]|[_ K]]; [reflexivity|exfalso; apply K, C1; exact Y].
        * destruct SQ as [[_ K]|[-> _]]; [exfalso; apply Y, C1; exact K|reflexivity].
  Qed.
End Parse.

Section Load.
  Context (nv : str -> bool) (url body : str) (s h : option str) (p p' : str) (q f q' f' : option str).
  Context (BO : body_of url body) (RF : reference body s h p q f) (CP : cut_params (scheme_or_http s) p p') (SN : seen url q f q' f').
  Context (NE : url <> []) (NH : url <> u "#") (NS : forall r, url <> 47%N :: r).
  Lemma no_path' : host_ok nv (or_empty h) -> ~ In 47%N p' -> parse nv url = Err EIrregularURL.
  Proof.
    intros HO NI. unfold parse. rewrite (not_slash url NS). unfold analyze_url. destruct (seen_parse nv url body s h p p' q f q' f' BO RF CP SN HO NE NH) as (r & R & P & _). rewrite R. cbn [bind]. rewrite P. unfold unpack. rewrite (split_no SLASH p' NI). reflexivity.
  Qed.
  Lemma same_path' : forall a b, host_ok nv (or_empty h) -> p' = a ++ 47%N :: b -> ~ In 47%N a ->
    absolute (u "x://" ++ or_empty h ++ (47%N :: b) ++ opt_text (u "?") q' ++ opt_text (u "#") f') (u "x") (or_empty h) (47%N :: b) q' f' /\
    parse nv url = parse nv (u "x://" ++ or_empty h ++ (47%N :: b) ++ opt_text (u "?") q' ++ opt_text (u "#") f').
  Proof.
    intros a b HO EP NA. set (url0 := u "x://" ++ or_empty h ++ (47%N :: b) ++ opt_text (u "?") q' ++ opt_text (u "#") f').
    pose proof RF as (E & SC & HH & FP & NQ). destruct (cut_rest _ _ _ CP) as (t & ET). pose proof SN as [SF SQ].
    assert (QC : q' = q \/ q' = Some [] \/ q' = None) by (destruct q as [[|]|]; [destruct SQ as [[-> _]|[-> _]]; auto|auto|destruct SQ as [[-> _]|[-> _]]; auto]).
    assert (FC : f' = f \/ f' = None) by (destruct f as [[|]|]; [destruct SF as [[-> _]|[-> _]]; auto|auto|auto]).
    assert (AB : absolute url0 (u "x") (or_empty h) (47%N :: b) q' f').
    { split; [reflexivity|]. split; [split; [exists 120%N, []; split; [reflexivity|vm_compute; tauto]|constructor; [vm_compute; tauto|constructor]]|]. split; [destruct h as [w|]; [exact (proj1 HH)|constructor]|]. split; [right; exists b; reflexivity|].
      assert (IB : forall c, In c (47%N :: b) -> In c p) by (intros c I; rewrite ET, EP; apply in_or_app; left; apply in_or_app; right; exact I).
      split; [rewrite Forall_forall in FP |- *; intros c I; apply FP, IB, I|]. split; [intros t0 EQ; destruct QC as [X|[X|X]]; rewrite X in EQ; [exact (NQ _ EQ)|inversion EQ; intros []|discriminate]|].
      assert (BC : Forall (fun c => ~ In c [9; 10; 13]%N) body) by (eapply body_clean; eassumption). rewrite Forall_forall in BC |- *. intros c I. unfold url0 in I. apply in_app_or in I. destruct I as [I|I]; [cbn in I |- *; lia|]. apply in_app_or in I.
      destruct I as [I|I]; [apply BC; rewrite E; apply in_or_app; right; apply in_or_app; left; destruct h as [w|]; [right; right; exact I|contradiction I]|]. apply in_app_or in I.
      destruct I as [I|I]; [apply BC; rewrite E; apply in_or_app; right; apply in_or_app; right; apply in_or_app; left; apply IB; exact I|]. apply in_app_or in I. destruct I as [I|I].
      - destruct QC as [X|[X|X]]; rewrite X in I; [|cbn in I |- *; lia|contradiction I]. apply BC. rewrite E. apply in_or_app; right; apply in_or_app; right; apply in_or_app; right; apply in_or_app; left. exact I.
      - destruct FC as [X|X]; rewrite X in I; [|contradiction I]. apply BC. rewrite E. apply in_or_app; right; apply in_or_app; right; apply in_or_app; right; apply in_or_app; right. exact I. }
    split; [exact AB|].
    assert (CX : cut_params (u "x") (47%N :: b) (47%N :: b)) by (left; split; [reflexivity|left; vm_compute; intuition discriminate]).
    destruct (proj1 (abs_parse nv url0 (u "x") (or_empty h) (47%N :: b) (47%N :: b) q' f' AB CX) HO) as (r0 & R0 & _ & _ & P0 & Q0 & F0).
    destruct (seen_parse nv url body s h p p' q f q' f' BO RF CP SN HO NE NH) as (r & R & P1 & QF). destruct QF as [Q1 F1]; [rewrite EP; apply in_or_app; right; left; reflexivity|].
    unfold parse. assert (NS0 : startswith url0 [SLASH] = false) by reflexivity. rewrite (not_slash url NS), NS0. unfold analyze_url. rewrite R, R0. cbn [bind]. rewrite P0, Q0, F0, P1, Q1, F1, EP. unfold unpack. rewrite (split_tl SLASH a b NA : tl (split_char SLASH (a ++ 47%N :: b)) = _). reflexivity.
  Qed.
End Load.
Theorem c59_all : forall nv url body s h p p' q f q' f', body_of url body -> reference body s h p q f -> cut_params (scheme_or_http s) p p' -> seen url q f q' f' ->
  url <> [] -> url <> u "#" -> (forall r, url <> 47%N :: r) ->
  (~ host_ok nv (or_empty h) -> (forall st me, load nv st url me = (st, Err EValue)) /\ forall st, match_url nv st url = Err EValue) /\
  (host_ok nv (or_empty h) -> ~ In 47%N p' -> (forall st me, load nv st url me = (st, Err EIrregularURL)) /\ forall st, match_url nv st url = Err EIrregularURL) /\
  (host_ok nv (or_empty h) -> forall a b, p' = a ++ u "/" ++ b -> ~ In 47%N a ->
     let url0 := u "x://" ++ or_empty h ++ (u "/" ++ b) ++ opt_text (u "?") q' ++ opt_text (u "#") f' in
     absolute url0 (u "x") (or_empty h) (u "/" ++ b) q' f' /\
     (forall st me, load nv st url me = load nv st url0 me) /\ forall st, match_url nv st url = match_url nv st url0).
Proof.
  intros nv url body s h p p' q f q' f' BO RF CP SN NE NH NS. split; [|split].
  - intros HO. pose proof (bad_host nv url body s h p p' q f BO RF CP NS HO) as E. split; [intros st me; unfold load; rewrite E; reflexivity|intros st; unfold match_url; rewrite E; reflexivity].
  - intros HO NI. pose proof (no_path' nv url body s h p p' q f q' f' BO RF CP SN NE NH NS HO NI) as E. split; [intros st me; unfold load; rewrite E; reflexivity|intros st; unfold match_url; rewrite E; reflexivity].
  - intros HO a b EP NA url0. destruct (same_path' nv url body s h p p' q f q' f' BO RF CP SN NE NH NS a b HO EP NA) as [AB E]. split; [exact AB|]. split; [intros st me; exact (load_of_parse _ _ _ _ _ E)|intros st; exact (match_of_parse _ _ _ _ E)].
Qed.
(** without TAB, LF and CR nothing is lost *)
Theorem c59_clean : forall url body s h p q f, body_of url body -> reference body s h p q f -> Forall (fun c => ~ In c dirt) url -> seen url q f q f.
Proof.
  intros url body s h p q f BO (E & SC & HO & FP & NQ) CL. destruct BO as (blank & rest & EU & FB & _ & EB).
  assert (RB : rest = body). { rewrite EB. symmetry. apply filter_true. intros c I. apply negb_true_iff. apply char_in_false. rewrite Forall_forall in CL. apply CL. rewrite EU. apply in_or_app. auto. }
  assert (EP : url = (blank ++ opt_scheme s ++ opt_text (u "//") h ++ p) ++ opt_text (u "?") q ++ opt_text (u "#") f). { rewrite EU, RB, E, <- !app_assoc. reflexivity. }
  set (pre := blank ++ opt_scheme s ++ opt_text (u "//") h ++ p) in *.
  assert (NP : ~ In 63%N pre).
  { intros I. apply in_app_or in I. destruct I as [I|I]; [rewrite Forall_forall in FB; specialize (FB _ I); cbn in FB; lia|]. apply in_app_or in I. destruct I as [I|I].
    - destruct s as [s|]; [|exact I]. cbn [opt_scheme] in I. apply in_app_or in I. destruct I as [I|I]; [|cbn in I; lia]. destruct SC as [_ FS]. rewrite Forall_forall in FS. specialize (FS _ I). vm_compute in FS. intuition discriminate.
    - apply in_app_or in I. destruct I as [I|I]; [|rewrite Forall_forall in FP; apply (FP _ I); cbn; auto]. destruct h as [h|]; [|exact I]. cbn [opt_text] in I. apply in_app_or in I. destruct I as [I|I]; [cbn in I; lia|]. destruct HO as [FH _]. rewrite Forall_forall in FH. apply (FH _ I). cbn. auto. }
  clearbody pre. split.
  - destruct f as [[|c t]|]; [left; split; [reflexivity|]|reflexivity|reflexivity]. exists (pre ++ opt_text (u "?") q), []. split; [rewrite EP, <- app_assoc; reflexivity|reflexivity].
  - destruct q as [[|c t]|]; [left; split; [reflexivity|]|reflexivity|right; split; [reflexivity|]].
    + exists pre, (opt_text (u "#") f). split; [exact EP|reflexivity].
    + intros (a & b & X & L). cbn [opt_text] in EP. rewrite EP in X. cbn [app] in X. assert (Y : pre ++ opt_text (u "#") f = (a ++ [63%N]) ++ b) by (rewrite <- app_assoc; exact X).
      assert (Z : pre = a ++ [63%N]). { assert (LL : length pre = length (a ++ [63%N])) by (pose proof (f_equal (@length _) Y) as K; rewrite !app_length in K; rewrite app_length; unfold str, char in *; lia). apply (f_equal (firstn (length pre))) in Y. rewrite firstn_app, firstn_all, Nat.sub_diag, firstn_O, app_nil_r in Y. rewrite LL, firstn_app, firstn_all, Nat.sub_diag, firstn_O, app_nil_r in Y. exact Y. }
      apply NP. rewrite Z. apply in_or_app. right. left. reflexivity.
Qed.
