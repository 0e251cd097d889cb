(** C46: absolute URLs are cut where they should be. *)
From Coq Require Import String.
From Verif Require Import PyStr Defs UrlLib ParseUtils Spec Views Trees Cluster Patterns Matcher Maker Format Cmd Observe GrammarSpec UrlSpec PyStrProofs DefsProofs DictProofs RegexProofs PieceProofs QueryProofs UnitProofs BridgeProofs UrlProofs PackProofs DigestProofs LoadProofs PartProofs Grammar.
From Coq Require Import Lia.

Lemma upper_in : forall c, char_in c uppercase = is_upper c.
Proof.
  intros c. destruct (is_upper c) eqn:E.
  - apply char_in_In. unfold is_upper in E. apply andb_prop in E. destruct E as [E1 E2]. apply N.leb_le in E1, E2.
    assert (X : exists n, (n < 26)%nat /\ c = (65 + N.of_nat n)%N) by (exists (N.to_nat (c - 65)); lia). destruct X as (n & L & ->).
    do 26 (destruct n as [|n]; [vm_compute; auto 30|]). lia.
  - destruct (char_in c uppercase) eqn:C; [|reflexivity]. apply char_in_In in C. exfalso.
    assert (H : forallb is_upper uppercase = true) by (vm_compute; reflexivity). rewrite forallb_forall in H. rewrite (H c C) in E. discriminate.
Qed.
Lemma lower_eq : forall s, map to_lower s = map lower_char s.
Proof. intros. apply map_ext. intros c. unfold to_lower, lower_char. rewrite upper_in. reflexivity. Qed.
Lemma cut_at : forall c a b, ~ In c a -> cut c (a ++ c :: b) = Some (a, b).
Proof. intros c a b N. rewrite cut_prefix by exact N. cbn [cut]. rewrite N.eqb_refl. rewrite app_nil_r. reflexivity. Qed.
Lemma cut_no : forall c s, ~ In c s -> cut c s = None.
Proof. intros c s N. destruct (cut c s) as [[a b]|] eqn:E; [|reflexivity]. apply cut_some in E. destruct E as [-> _]. exfalso. apply N. apply in_or_app. right. left. reflexivity. Qed.
Lemma scheme_facts : forall s, scheme_text s -> ~ In 58%N s /\ forallb scheme_char s = true /\ (exists c r, s = c :: r /\ (is_lower c || is_upper c) = true) /\ no_sep s /\ lstrip_c0 s <> [] .
Proof.
  intros s ((c & r & -> & I) & F).
  assert (H : forallb scheme_char (letters_digits ++ u "+-.") = true) by (vm_compute; reflexivity). rewrite forallb_forall in H.
  assert (FB : forallb scheme_char (c :: r) = true) by (apply forallb_forall; intros x X; apply H; rewrite Forall_forall in F; exact (F x X)).
  split; [|split; [exact FB|split; [|split]]].
  - intros X. rewrite forallb_forall in FB. specialize (FB _ X). vm_compute in FB. discriminate.
  - exists c, r. split; [reflexivity|]. assert (H2 : forallb (fun c => is_lower c || is_upper c) (lowercase ++ uppercase) = true) by (vm_compute; reflexivity). rewrite forallb_forall in H2. exact (H2 c I).
  - apply scheme_no_sep. exact FB.
  - cbn [lstrip_c0]. destruct (N.leb_spec c 32) as [L|L]; [|discriminate]. exfalso. assert (H3 : forallb (fun c => negb (c <=? 32)%N) (lowercase ++ uppercase) = true) by (vm_compute; reflexivity). rewrite forallb_forall in H3. specialize (H3 c I). apply negb_true_iff in H3. apply N.leb_gt in H3. lia.
Qed.
Lemma break_at : forall a b, Forall (fun c => ~ In c (u "/?#")) a -> (b = [] \/ exists c r, b = c :: r /\ In c (u "/?#")) -> break_netloc (a ++ b) = (a, b).
Proof.
  induction a as [|x a IH]; intros b F H.
  - destruct H as [->|(c & r & -> & I)]; [reflexivity|]. cbn [app break_netloc]. unfold netloc_end. apply char_in_In in I. rewrite I. reflexivity.
  - inversion F as [|? ? F1 F2]; subst. cbn [app break_netloc]. unfold netloc_end. destruct (char_in x (u "/?#")) eqn:E; [apply char_in_In in E; contradiction|]. rewrite (IH b F2 H). reflexivity.
Qed.
Lemma rfind_slash : forall p, match rfind_char SLASH p with
  | Some i => exists a b, p = a ++ SLASH :: b /\ length a = i /\ ~ In SLASH b
  | None => ~ In SLASH p end.
Proof.
  induction p as [|c p IH]; cbn [rfind_char]; [intros []|]. destruct (rfind_char SLASH p) as [i|].
  - destruct IH as (a & b & -> & <- & N). exists (c :: a), b. auto.
  - destruct (N.eqb_spec c SLASH) as [->|NE]; [exists [], p; auto|]. intros [E|E]; [congruence|contradiction].
Qed.
Lemma split_params_cut : forall p, In SLASH p -> (exists c, p = fst (split_params p) ++ 59%N :: c /\ ~ In 47%N c /\ (forall a b, fst (split_params p) = a ++ 59%N :: b -> In 47%N b)) \/
  (fst (split_params p) = p /\ forall a b, p = a ++ 59%N :: b -> In 47%N b).
Proof.
  intros p IS. unfold split_params. pose proof (rfind_slash p) as R. destruct (rfind_char SLASH p) as [i|]; [|contradiction]. destruct R as (a & b & -> & <- & N).
  rewrite skipn_app_len by reflexivity. rewrite firstn_app_len by reflexivity. cbn [cut]. change (N.eqb SLASH 59) with false. cbv iota.
  destruct (cut 59%N b) as [[x y]|] eqn:C; cbn [fst].
  - left. apply cut_some in C. destruct C as [-> NX]. exists y. split; [rewrite <- app_assoc; reflexivity|]. split; [intros I; apply N; apply in_or_app; right; right; exact I|].
    intros a' b' E. apply app_eq_app in E. destruct E as (l & [[E1 E2]|[E1 E2]]).
    + destruct l as [|z l]; [cbn in E2; inversion E2|]. cbn in E2. inversion E2; subst. apply in_or_app. right. left. reflexivity.
    + exfalso. destruct l as [|z l]; cbn in E2; inversion E2; subst. apply NX. apply in_or_app. right. left. reflexivity.
  - right. split; [reflexivity|]. intros a' b' E. apply app_eq_app in E. destruct E as (l & [[E1 E2]|[E1 E2]]).
    + destruct l as [|z l]; [cbn in E2; inversion E2|]. cbn in E2. inversion E2; subst. apply in_or_app. right. left. reflexivity.
    + exfalso. destruct l as [|z l]; cbn in E2; inversion E2; subst. apply cut_none in C. apply C. apply in_or_app. right. left. reflexivity.
Qed.
Lemma semi_unique : forall p1 c1 p2 c2 : str, p1 ++ 59%N :: c1 = p2 ++ 59%N :: c2 -> ~ In 47%N c1 -> ~ In 47%N c2 ->
  (forall a b, p1 = a ++ 59%N :: b -> In 47%N b) -> (forall a b, p2 = a ++ 59%N :: b -> In 47%N b) -> p1 = p2.
Proof.
  intros p1 c1 p2 c2 E N1 N2 F1 F2. apply app_eq_app in E. destruct E as (l & [[E1 E2]|[E1 E2]]); (destruct l as [|z l]; [rewrite app_nil_r in E1; congruence|]); cbn in E2; inversion E2; subst; exfalso.
  - apply N2. apply in_or_app. left. apply (F1 p2 l). reflexivity.
  - apply N1. apply in_or_app. left. apply (F2 p1 l). reflexivity.
Qed.
Lemma uses_params_in : forall s, s <> [] -> (str_in s uses_params = true <-> In s param_schemes).
Proof.
  intros s N. unfold str_in. rewrite existsb_exists. change uses_params with (([] : str) :: param_schemes). split.
  - intros (x & [I|I] & X); apply str_eqb_eq in X; subst; [congruence|exact I].
  - intros I. exists s. split; [right; exact I|]. apply str_eqb_eq. reflexivity.
Qed.
Lemma cut_params_exact : forall scheme path path', path = [] \/ In SLASH path -> scheme <> [] -> cut_params scheme path path' ->
  fst (if str_in (map lower_char scheme) uses_params && char_in 59%N path then split_params path else (path, [])) = path'.
Proof.
  intros scheme path path' PS NS C. rewrite <- lower_eq. assert (NL : map to_lower scheme <> []) by (destruct scheme; [congruence|discriminate]). pose proof (uses_params_in _ NL) as U.
  destruct (str_in (map to_lower scheme) uses_params) eqn:SI; cbn [andb].
  - pose proof (proj1 U eq_refl) as I. destruct (char_in 59%N path) eqn:CI.
    + destruct PS as [->|PS]; [discriminate|]. pose proof (split_params_cut path PS) as SP. destruct C as [[-> [X|X]]|(_ & X & c & E & NC)].
      * contradiction.
      * destruct SP as [(c & E & NC & _)|[E _]]; [|exact E]. exfalso. apply NC. exact (X _ _ E).
      * destruct SP as [(c' & E' & NC' & X')|[E' X']].
        -- rewrite E' in E at 1. exact (semi_unique _ _ _ _ E NC' NC X' X).
        -- exfalso. apply NC. exact (X' _ _ E).
    + cbn [fst]. destruct C as [[-> _]|(_ & _ & c & -> & _)]; [reflexivity|]. exfalso. assert (K : char_in 59%N (path' ++ u ";" ++ c) = true) by (apply char_in_In; apply in_or_app; right; left; reflexivity). congruence.
  - cbn [fst]. destruct C as [[-> _]|(X & _)]; [reflexivity|]. apply U in X. discriminate.
Qed.
Lemma brackets_iff : forall h, brackets_ok h = true <-> (In 91%N h <-> In 93%N h).
Proof.
  intros h. unfold brackets_ok. rewrite <- !char_in_In. change BRACKETS_L with 91%N. change BRACKETS_R with 93%N. destruct (char_in 91%N h), (char_in 93%N h); cbn; intuition discriminate.
Qed.
Lemma host_okb : forall nv h, brackets_ok h && nv h = true <-> host_ok nv h.
Proof. intros nv h. unfold host_ok. rewrite andb_true_iff, brackets_iff. reflexivity. Qed.

Lemma opt_nil : forall c o, opt_text [c] o = match o with Some t => c :: t | None => [] end.
Proof. intros c [t|]; reflexivity. Qed.
Lemma abs_strip : forall url scheme host path q f, absolute url scheme host path q f -> clean url /\ strip_unsafe (lstrip_c0 url) = url /\ url <> [] /\ hd 0%N url <> NUMBER.
Proof.
  intros url scheme host path q f (E & S & _ & _ & _ & _ & CL). destruct S as ((c & r & -> & I) & _).
  assert (H3 : forallb (fun c => negb (c <=? 32)%N && negb (N.eqb c NUMBER)) (lowercase ++ uppercase) = true) by (vm_compute; reflexivity). rewrite forallb_forall in H3. specialize (H3 c I). apply andb_prop in H3. destruct H3 as [H3 H4]. apply negb_true_iff in H3, H4.
  assert (X : lstrip_c0 url = url) by (rewrite E; cbn [app lstrip_c0]; rewrite H3; reflexivity).
  split; [|split; [|split]].
  - rewrite Forall_forall in CL. split; [|split]; intros J; apply (CL _ J); cbn; auto.
  - rewrite X. apply strip_unsafe_id. eapply Forall_impl; [|exact CL]. intros x NI. unfold unsafe_char. destruct (char_in x [9; 13; 10]%N) eqn:K; [|reflexivity]. apply char_in_In in K. exfalso. apply NI. cbn in *. intuition.
  - rewrite E. discriminate.
  - rewrite E. cbn [app hd]. apply N.eqb_neq. exact H4.
Qed.
Lemma py_index_err : forall (l : str) i e, py_index l i = Err e -> e = EIndex.
Proof. intros l i e. unfold py_index. repeat match goal with |- context [if ?b then _ else _] => destruct b | |- context [match ?x with _ => _ end] => destruct x end; intros H; inversion H; reflexivity. Qed.
Lemma abs_parse : forall nv url scheme host path path' q f, absolute url scheme host path q f -> cut_params scheme path path' ->
  (host_ok nv host -> exists p, parse_url nv url = Ok p /\ up_scheme p = map to_lower scheme /\ up_netloc p = host /\ up_path p = path' /\ up_query p = q /\ up_fragment p = f) /\
  (~ host_ok nv host -> parse_url nv url = Err EValue).
Proof.
  intros nv url scheme host path path' q f A C. destruct (abs_strip _ _ _ _ _ _ A) as (CL & ST & NE & HD). pose proof A as (E & SC & FH & PS & FP & NQ & _).
  destruct (scheme_facts _ SC) as (N58 & FB & (c0 & r0 & ES & CS) & [NS1 NS2] & _).
  assert (PNH : ~ In 35%N path /\ ~ In 63%N path). { rewrite Forall_forall in FP. split; intros I; apply (FP _ I); cbn; auto. }
  assert (HNH : ~ In 35%N host /\ ~ In 63%N host /\ ~ In 47%N host). { rewrite Forall_forall in FH. split; [|split]; intros I; apply (FH _ I); cbn; auto. }
  set (tail := path ++ opt_text (u "?") q ++ opt_text (u "#") f) in *.
  assert (UP : urlparse nv url = if negb (brackets_ok host && nv host) then Err EValue else
     Ok (PR (map lower_char scheme) host path' (snd (if str_in (map lower_char scheme) uses_params && char_in 59%N path then split_params path else (path, [])))
          (match q with Some t => t | None => [] end) (match f with Some t => t | None => [] end))).
  { unfold urlparse. rewrite ST.
    assert (SS : split_scheme url = (map lower_char scheme, u "//" ++ host ++ tail)).
    { unfold split_scheme. assert (CC : cut 58%N url = Some (scheme, u "//" ++ host ++ tail)) by (rewrite E; exact (cut_at 58%N scheme (u "//" ++ host ++ tail) N58)). rewrite CC. rewrite ES. rewrite CS. rewrite <- ES. rewrite FB. reflexivity. }
    rewrite SS. cbv iota beta. assert (BB : break_netloc (host ++ tail) = (host, tail)).
    { apply break_at; [exact FH|]. unfold tail. destruct PS as [->|(r & ->)]; [|right; exists 47%N; eexists; split; [reflexivity|cbn; auto]]. cbn [app]. destruct q as [t|]; [right; exists 63%N; eexists; split; [reflexivity|cbn; auto]|]. destruct f as [t|]; [right; exists 35%N; eexists; split; [reflexivity|cbn; auto]|left; reflexivity]. }
    rewrite startswith_self. change (skipn 2 (u "//" ++ host ++ tail)) with (host ++ tail). rewrite BB. cbv iota beta.
    destruct (negb (brackets_ok host && nv host)); [reflexivity|].
    assert (C1 : cut NUMBER tail = match f with Some t => Some (path ++ opt_text (u "?") q, t) | None => None end).
    { unfold tail. rewrite app_assoc. assert (N : ~ In NUMBER (path ++ opt_text (u "?") q)).
      { intros I. apply in_app_or in I. destruct I as [I|I]; [exact (proj1 PNH I)|]. destruct q as [t|]; [|exact I]. destruct I as [I|I]; [discriminate|exact (NQ t eq_refl I)]. }
      destruct f as [t|]; [exact (cut_at NUMBER _ t N)|]. cbn [opt_text]. rewrite app_nil_r. apply cut_no. exact N. }
    assert (C2 : cut QUESTION (path ++ opt_text (u "?") q) = match q with Some t => Some (path, t) | None => None end).
    { destruct q as [t|]; [exact (cut_at QUESTION path t (proj2 PNH))|]. cbn [opt_text]. rewrite app_nil_r. apply cut_no. exact (proj2 PNH). }
    assert (F1 : (match cut NUMBER tail with Some (a, b) => (a, b) | None => (tail, []) end) = (path ++ opt_text (u "?") q, match f with Some t => t | None => [] end)).
    { rewrite C1. destruct f as [t|]; [reflexivity|]. unfold tail. cbn [opt_text]. rewrite app_nil_r. reflexivity. }
    match goal with |- (let (_, _) := ?x in _) = _ => let y := match type of F1 with _ = ?z => z end in replace x with y by (symmetry; exact F1) end. cbv iota beta.
    assert (F2 : (match cut QUESTION (path ++ opt_text (u "?") q) with Some (a, b) => (a, b) | None => (path ++ opt_text (u "?") q, []) end) = (path, match q with Some t => t | None => [] end)).
    { rewrite C2. destruct q as [t|]; [reflexivity|]. cbn [opt_text]. rewrite app_nil_r. reflexivity. }
    match goal with |- (let (_, _) := ?x in _) = _ => let y := match type of F2 with _ = ?z => z end in replace x with y by (symmetry; exact F2) end. cbv iota beta.
    assert (CP : fst (if str_in (map lower_char scheme) uses_params && char_in 59%N path then split_params path else (path, [])) = path').
    { apply cut_params_exact; [|rewrite ES; discriminate|exact C]. destruct PS as [PS|(r & ->)]; [left; exact PS|right; left; reflexivity]. }
    destruct (if str_in (map lower_char scheme) uses_params && char_in 59%N path then split_params path else (path, [])) as [pa pr]. cbn [fst snd] in *. subst pa. reflexivity. }
  split.
  - intros HO. apply host_okb in HO. rewrite HO in UP. cbn [negb] in UP. pose proof (parse_url_spec nv url CL NE HD) as PU. destruct (parse_url nv url) as [p|e] eqn:PE.
    + exists p. split; [reflexivity|]. assert (QF : qf_result url = (q, f)).
      { unfold qf_result. assert (NP : ~ In NUMBER (scheme ++ u "://" ++ host) /\ ~ In QUESTION (scheme ++ u "://" ++ host)).
        { split; intros I; apply in_app_or in I; (destruct I as [I|I]; [contradiction|]); apply in_app_or in I; (destruct I as [I|I]; [vm_compute in I; intuition discriminate|]); destruct HNH as (? & ? & ?); contradiction. }
        assert (EU : url = (scheme ++ u "://" ++ host) ++ tail) by (rewrite E; rewrite <- !app_assoc; reflexivity). destruct NP as [NP1 NP2].
        set (pre := scheme ++ u "://" ++ host) in *. rewrite EU. unfold tail. rewrite app_assoc. rewrite app_assoc.
        assert (N1 : ~ In NUMBER ((pre ++ path) ++ opt_text (u "?") q)).
        { intros I. apply in_app_or in I. destruct I as [I|I]; [apply in_app_or in I; destruct I as [I|I]; [contradiction|exact (proj1 PNH I)]|]. destruct q as [t|]; [|exact I]. destruct I as [I|I]; [discriminate|exact (NQ t eq_refl I)]. }
        assert (N2 : ~ In QUESTION (pre ++ path)) by (intros I; apply in_app_or in I; destruct I as [I|I]; [contradiction|exact (proj2 PNH I)]).
        assert (CQ : forall x, match cut QUESTION ((pre ++ path) ++ opt_text (u "?") q) with Some (_, t) => Some t | None => x end = match q with Some t => Some t | None => x end).
        { intros x. destruct q as [t|]; [|cbn [opt_text]; rewrite app_nil_r, cut_no by exact N2; reflexivity]. pose proof (cut_at QUESTION (pre ++ path) t N2) as K. change (opt_text (u "?") (Some t)) with (QUESTION :: t). rewrite K. reflexivity. }
        destruct f as [t|].
        - pose proof (cut_at NUMBER _ t N1) as K. change (opt_text (u "#") (Some t)) with (NUMBER :: t). rewrite K. rewrite CQ. destruct q; reflexivity.
        - cbn [opt_text]. rewrite app_nil_r. rewrite cut_no by exact N1. rewrite CQ. destruct q; reflexivity. }
      assert (PP : up_scheme p = map to_lower scheme /\ up_netloc p = host /\ up_path p = path').
      { rewrite lower_eq. unfold parse_url in PE. rewrite UP in PE. cbn [bind pr_query pr_fragment pr_scheme pr_netloc pr_path pr_params] in PE. clear PU.
        repeat match type of PE with
        | (if ?b then _ else _) = _ => destruct b
        | bind ?x _ = _ => destruct x; cbn [bind] in PE
        end; try discriminate; inversion PE; subst p; cbn; auto. }
      destruct PP as (P1 & P2 & P3). rewrite QF in PU. inversion PU. auto.
    + exfalso. unfold parse_url in PE. rewrite UP in PE. cbn [bind pr_query pr_fragment pr_scheme pr_netloc pr_path pr_params] in PE. subst e. clear - PE.
      repeat match type of PE with
      | (if ?b then _ else _) = _ => destruct b
      | bind ?x _ = _ => destruct x eqn:?IX; cbn [bind] in PE
      end; try discriminate;
      match goal with IX : py_index _ _ = Err _ |- _ => apply py_index_err in IX; congruence end.
  - intros HO. unfold parse_url. rewrite UP. assert (HB : brackets_ok host && nv host = false) by (destruct (brackets_ok host && nv host) eqn:B; [exfalso; apply HO; apply host_okb; exact B|reflexivity]). rewrite HB. reflexivity.
Qed.

(** ** Keys *)
Lemma nrender_text : forall r w, run_ok (r, w) -> nrender [EQUALS] (r, w) = match w with 61%N :: _ => w | _ => run_text w end.
Proof.
  intros r w O. unfold nrender. cbn [snd]. destruct (run_text_render r w O) as [<- _]. destruct O as [Hn _]. cbn [snd] in Hn. destruct w as [|c w]; [congruence|].
  unfold char_in. cbn [existsb]. change EQUALS with 61%N. destruct (N.eqb_spec 61 c) as [<-|N]; [rewrite N.eqb_refl; reflexivity|]. 
  assert (X : N.eqb c 61 = false) by (apply N.eqb_neq; congruence). rewrite X. cbn [orb].
  destruct c as [|p]; [reflexivity|]. do 6 (destruct p; try reflexivity). exfalso; apply N; reflexivity.
Qed.
Lemma key_exact : forall k k', all_legal k -> (normalize k [EQUALS] = Ok k' <-> key_text k k').
Proof.
  intros k k' L. rewrite normalize_spec by exact L. destruct (runs_spec k L) as (F & _ & _).
  assert (X : ntext [EQUALS] k = List.concat (map (fun w => match w with 61%N :: _ => w | _ => run_text w end) (map snd (runs k)))).
  { unfold ntext. rewrite map_map. f_equal. apply map_ext_in. intros [r w] I. rewrite Forall_forall in F. apply (nrender_text r w (F _ I)). }
  rewrite X. split.
  - intros E. inversion E; subst. exists (map snd (runs k)). split; [apply runs_maximal; exact L|reflexivity].
  - intros (ws & M & ->). rewrite (maximal_runs_unique k ws _ M (runs_maximal k L)). reflexivity.
Qed.
Lemma mapM_normalize : forall ks, exists ks', mapM (fun k => normalize k [EQUALS]) ks = Ok ks'.
Proof.
  induction ks as [|k ks (ks' & IH)]; [exists []; reflexivity|]. destruct (normalize_total k [EQUALS]) as (x & E). exists (x :: ks'). cbn [mapM]. rewrite E. cbn [bind]. rewrite IH. reflexivity.
Qed.
Lemma mapM_forall2 : forall A B (f : A -> res B) l l', mapM f l = Ok l' <-> Forall2 (fun x y => f x = Ok y) l l'.
Proof.
  intros A B f. induction l as [|x l IH]; intros l'; cbn [mapM].
  - split; [intros E; inversion E; constructor|intros F; inversion F; reflexivity].
  - split.
    + intros E. apply bind_ok in E. destruct E as (y & Y & E). apply bind_ok in E. destruct E as (r & R & E). inversion E; subst. constructor; [exact Y|apply IH; exact R].
    + intros F. inversion F; subst. rewrite H1. cbn [bind]. apply IH in H3. rewrite H3. reflexivity.
Qed.

(** ** analyze_url *)
Lemma cut_params_total : forall scheme path, scheme_text scheme -> path = [] \/ (exists r, path = u "/" ++ r) -> exists path', cut_params scheme path path'.
Proof.
  intros scheme path ST [->|(r & ->)].
  - exists []. left. split; [reflexivity|]. right. intros [|? ?] b X; discriminate X.
  - destruct (in_dec str_dec (map to_lower scheme) param_schemes) as [I|N].
    + exists (fst (split_params (u "/" ++ r))). destruct (split_params_cut (u "/" ++ r)) as [(c & E & NC & C)|(E & C)]; [left; reflexivity| |].
      * right. split; [exact I|]. split; [exact C|]. exists c. split; [exact E|exact NC].
      * left. split; [exact E|]. right. exact C.
    + exists (u "/" ++ r). left. split; [reflexivity|left; exact N].
Qed.
Lemma cut_params_shape : forall scheme path path', path = [] \/ (exists r, path = u "/" ++ r) -> cut_params scheme path path' ->
  (path = [] /\ path' = []) \/ exists r, path' = SLASH :: r.
Proof.
  intros scheme path path' P [(-> & _)|(_ & _ & c & E & NC)].
  - destruct P as [->|(r & ->)]; [left; auto|right; exists r; reflexivity].
  - destruct P as [->|(r & ->)]; [destruct path'; discriminate E|]. right. destruct path' as [|x path']; inversion E; subst; eauto.
Qed.
Section Abs.
Context (nv : str -> bool) (url scheme host path path' : str) (q f : option str).
Hypothesis AB : absolute url scheme host path q f.
Hypothesis CP : cut_params scheme path path'.
Let abs_path : path = [] \/ exists r, path = u "/" ++ r.
Proof. destruct AB as (_ & _ & _ & P & _). exact P. Qed.
Lemma abs_analyze : host_ok nv host -> forall d ks hf raw, analyze_url nv url = Ok (UM d ks hf, raw) <->
  exists ks0, url_pieces path' q f d ks0 hf raw /\ mapM (fun k => normalize k [EQUALS]) ks0 = Ok ks.
Proof.
  intros HO d ks hf raw. destruct (proj1 (abs_parse nv _ _ _ _ _ _ _ AB CP) HO) as (p & E & _ & _ & EP & EQ & EF). unfold analyze_url. rewrite E. cbn [bind]. rewrite EP, EQ, EF.
  destruct (cut_params_shape _ _ _ abs_path CP) as [(_ & ->)|(r & ->)].
  { cbn. split; [discriminate|]. intros (ks0 & (ps & vs & (l & x & X & _) & _) & _). discriminate X. }
  unfold unpack. pose proof (proj1 (path_exact r _) eq_refl) as PP. set (ps := filter_useless nonempty (tl (split_char SLASH (SLASH :: r)))) in *.
  assert (PL : 0 < length ps) by (destruct PP as (l & x & _ & _ & ->); rewrite app_length; cbn [length]; lia).
  destruct (Nat.leb_spec (length ps) 0) as [X|_]; [lia|]. split.
  - intros H. apply bind_ok in H. destruct H as ([ks0 vs] & Q & H). apply bind_ok in H. destruct H as (ks' & N & H). inversion H; subst. exists ks0. split; [|exact N]. exists ps, vs. split; [exact PP|]. split; [apply query_exact; exact Q|]. split; [reflexivity|]. split; reflexivity.
  - intros (ks0 & (ps' & vs & PP' & Q & -> & -> & ->) & N). apply path_exact in PP'. fold ps in PP'. subst ps'. apply query_exact in Q. rewrite Q. cbn [bind]. rewrite N. reflexivity.
Qed.
Lemma abs_analyze_err : forall e, analyze_url nv url = Err e <->
  (e = EValue /\ ~ host_ok nv host) \/ (e = EIrregularURL /\ host_ok nv host /\ (path' = [] \/ exists t, q = Some t /\ amp_misplaced t)).
Proof.
  intros e. destruct (abs_parse nv _ _ _ _ _ _ _ AB CP) as [HY HN].
  assert (DEC : host_ok nv host \/ ~ host_ok nv host). { destruct (brackets_ok host && nv host) eqn:B; [left; apply host_okb; exact B|right; intros X; apply host_okb in X; congruence]. }
  destruct DEC as [HO|NO].
  2: { unfold analyze_url. rewrite (HN NO). cbn [bind]. split; [intros X; inversion X; auto|]. intros [(-> & _)|(_ & X & _)]; [reflexivity|contradiction]. }
  destruct (HY HO) as (p & E & _ & _ & EP & EQ & EF). unfold analyze_url. rewrite E. cbn [bind]. rewrite EP, EQ, EF.
  destruct (cut_params_shape _ _ _ abs_path CP) as [(_ & ->)|(r & ->)].
  { cbn. split; [intros X; inversion X; auto|]. intros [(-> & X)|(-> & _)]; [contradiction|reflexivity]. }
  unfold unpack. pose proof (proj1 (path_exact r _) eq_refl) as PP. set (ps := filter_useless nonempty (tl (split_char SLASH (SLASH :: r)))) in *.
  assert (PL : 0 < length ps) by (destruct PP as (l & x & _ & _ & ->); rewrite app_length; cbn [length]; lia).
  destruct (Nat.leb_spec (length ps) 0) as [X|_]; [lia|].
  assert (DEC : forall r : res (list str * list str), r = Err EIrregularURL \/ r <> Err EIrregularURL) by (intros [x|[]]; (left; reflexivity) || (right; discriminate)).
  destruct (DEC (parse_query_string q)) as [X|X].
  - rewrite X. cbn [bind]. split.
    + intros Y. inversion Y. right. split; [reflexivity|]. split; [exact HO|]. right. destruct q as [[|c t]|]; try discriminate. eexists. split; [reflexivity|]. apply c07_err in X; [exact X|discriminate].
    + intros [(_ & Y)|(-> & _)]; [contradiction|reflexivity].
  - assert (K : exists ks vs, parse_query_string q = Ok (ks, vs)). { destruct q as [[|c t]|]; [eexists; eexists; reflexivity| |eexists; eexists; reflexivity]. destruct (c07_ok (c :: t) _ ltac:(discriminate) eq_refl X) as (ks & vs & K & _). eauto. }
    destruct K as (ks & vs & K). rewrite K. cbn [bind]. destruct (mapM_normalize ks) as (ks' & N). rewrite N. cbn [bind]. split; [discriminate|].
    intros [(_ & Y)|(_ & _ & [Y|(t & -> & Y)])]; [contradiction|discriminate Y|]. exfalso. apply X. apply c07_err; [|exact Y].
    intros ->. destruct Y as [(w & Y)|[(w & Y)|(a & b & Y)]]; [discriminate|destruct w; discriminate|destruct a; discriminate].
Qed.
Lemma abs_not_slash : startswith url [SLASH] = false.
Proof. destruct AB as (-> & ST & _). destruct (scheme_facts _ ST) as (_ & _ & (c & r & -> & L) & _). unfold is_lower, is_upper in L. cbn. match goal with |- (?x && _) = false => destruct x eqn:E; [apply N.eqb_eq in E; exfalso; rewrite E in L || rewrite <- E in L; discriminate L|reflexivity] end. Qed.
(** ** load *)
Lemma c46_accepts : forall h me, (exists b, snd (load nv (loads nv h) url me) = Ok b) <->
  host_ok nv host /\ exists d ks hf raw, url_pieces path' q f d ks hf raw /\ Forall (Forall legal) raw.
Proof.
  intros h me. pose proof (load_step nv h (loads nv h) url me (loads_ok nv h)) as [_ X]. unfold url_path in X. change (u "/") with [SLASH] in X. rewrite abs_not_slash in X. split.
  - intros (b & B). destruct (analyze_url nv url) as [[m raw]|e] eqn:A.
    2: { destruct X as (_ & e' & X). congruence. }
    assert (HO : host_ok nv host). { destruct (brackets_ok host && nv host) eqn:C; [apply host_okb; exact C|]. assert (Y : analyze_url nv url = Err EValue) by (apply abs_analyze_err; left; split; [reflexivity|intros Z; apply host_okb in Z; congruence]). congruence. }
    split; [exact HO|]. destruct m as [d ks hf]. pose proof (proj1 (abs_analyze HO d ks hf raw) A) as (ks0 & U & _). exists d, ks0, hf, raw. split; [exact U|].
    destruct (forallb (forallb (fun c => char_in c legal_chars)) raw) eqn:LG; [|destruct X as (_ & e' & X); congruence].
    rewrite forallb_forall in LG. apply Forall_forall. intros w W. apply Forall_forall. intros c C. specialize (LG _ W). rewrite forallb_forall in LG. apply char_in_In. exact (LG _ C).
  - intros (HO & d & ks0 & hf & raw & U & LG). destruct (mapM_normalize ks0) as (ks & N). assert (A : analyze_url nv url = Ok (UM d ks hf, raw)) by (apply (abs_analyze HO); eauto). rewrite A in X.
    assert (Y : forallb (forallb (fun c => char_in c legal_chars)) raw = true). { apply forallb_forall. intros w W. apply forallb_forall. intros c C. apply char_in_In. rewrite Forall_forall in LG. specialize (LG _ W). rewrite Forall_forall in LG. exact (LG _ C). }
    rewrite Y in X. eauto.
Qed.
Lemma c46_rejects : forall h me e, snd (load nv (loads nv h) url me) = Err e <->
  (e = EValue /\ ~ host_ok nv host) \/ (e = EIrregularURL /\ host_ok nv host /\ (path' = [] \/ exists t, q = Some t /\ amp_misplaced t)) \/
  (e = EInvalidChar /\ host_ok nv host /\ exists d ks hf raw, url_pieces path' q f d ks hf raw /\ ~ Forall (Forall legal) raw).
Proof.
  intros h me e. pose proof (load_step nv h (loads nv h) url me (loads_ok nv h)) as [_ X]. unfold url_path in X. change (u "/") with [SLASH] in X. rewrite abs_not_slash in X.
  destruct (analyze_url nv url) as [[[d ks hf] raw]|e'] eqn:A.
  2: { assert (Y : snd (load nv (loads nv h) url me) = Err e') by (unfold load, parse; rewrite abs_not_slash, A; reflexivity). rewrite Y. split.
    - intros Z. inversion Z; subst e'. apply abs_analyze_err in A. tauto.
    - intros [Z|[Z|(-> & HO & d & ks0 & hf & raw & U & _)]].
      + assert (W : analyze_url nv url = Err e) by (apply abs_analyze_err; tauto). congruence.
      + assert (W : analyze_url nv url = Err e) by (apply abs_analyze_err; tauto). congruence.
      + destruct (mapM_normalize ks0) as (ks & N). assert (W : analyze_url nv url = Ok (UM d ks hf, raw)) by (apply (abs_analyze HO); eauto). congruence. }
  assert (HO : host_ok nv host). { destruct (brackets_ok host && nv host) eqn:C; [apply host_okb; exact C|]. assert (Y : analyze_url nv url = Err EValue) by (apply abs_analyze_err; left; split; [reflexivity|intros Z; apply host_okb in Z; congruence]). congruence. }
  pose proof (proj1 (abs_analyze HO d ks hf raw) A) as (ks0 & U & N).
  assert (LQ : forallb (forallb (fun c => char_in c legal_chars)) raw = true <-> Forall (Forall legal) raw).
  { rewrite forallb_forall, Forall_forall. split; intros H w W; specialize (H _ W); [apply Forall_forall|apply forallb_forall]; intros c C; [rewrite forallb_forall in H|rewrite Forall_forall in H]; apply char_in_In; exact (H _ C). }
  destruct (forallb (forallb (fun c => char_in c legal_chars)) raw) eqn:LG.
  - split; [rewrite X; discriminate|]. intros [(-> & Z)|[Z|(_ & _ & d' & ks' & hf' & raw' & U' & NL)]]; [contradiction| |].
    + assert (W : analyze_url nv url = Err e) by (apply abs_analyze_err; right; exact Z). congruence.
    + exfalso. apply NL. destruct (mapM_normalize ks') as (ks2 & N2). assert (W : analyze_url nv url = Ok (UM d' ks2 hf', raw')) by (apply (abs_analyze HO); eauto). pose proof (eq_trans (eq_sym W) A) as V. inversion V; subst. apply LQ. reflexivity.
  - assert (NL : ~ Forall (Forall legal) raw) by (intros Z; apply LQ in Z; congruence).
    assert (Y : mapM piece_parse raw = Err EInvalidChar).
    { clear - NL. induction raw as [|w raw IH]; [exfalso; apply NL; constructor|]. cbn [mapM]. destruct (forallb (fun c => char_in c legal_chars) w) eqn:L.
      - assert (LW : Forall legal w) by (rewrite forallb_forall in L; apply Forall_forall; intros c C; apply char_in_In; exact (L _ C)).
        rewrite (piece_parse_legal w (proj2 (all_legal_iff w) LW)). cbn [bind]. rewrite IH; [reflexivity|]. intros Z. apply NL. constructor; assumption.
      - rewrite (piece_parse_illegal w); [reflexivity|]. intros Z. apply all_legal_iff in Z. assert (forallb (fun c => char_in c legal_chars) w = true); [|congruence].
        apply forallb_forall. intros c C. apply char_in_In. rewrite Forall_forall in Z. exact (Z _ C). }
    assert (W : snd (load nv (loads nv h) url me) = Err EInvalidChar) by (unfold load, parse; rewrite abs_not_slash, A; cbn [bind]; rewrite Y; reflexivity).
    rewrite W. split.
    + intros Z. inversion Z; subst. right. right. split; [reflexivity|]. split; [exact HO|]. exists d, ks0, hf, raw. auto.
    + intros [(_ & Z)|[Z|(-> & _)]]; [contradiction| |reflexivity]. assert (V : analyze_url nv url = Err e) by (apply abs_analyze_err; right; exact Z). congruence.
Qed.
End Abs.
Lemma squeeze_id : forall s, (forall a b, s <> a ++ u "//" ++ b) -> squeeze s = s.
Proof.
  induction s as [|c r IH]; intros H; [reflexivity|]. cbn [squeeze]. rewrite IH.
  2: { intros a b E. apply (H (c :: a) b). rewrite E. reflexivity. }
  destruct (N.eqb_spec c 47) as [->|]; [|reflexivity]. cbn [andb]. destruct r as [|d r]; [reflexivity|]. destruct (N.eqb_spec d 47) as [->|]; [|reflexivity].
  exfalso. apply (H [] r). reflexivity.
Qed.
Lemma c46_text : forall nv h mcn cs url me scheme host path path' q f m raw, (2 <= mcn)%Z -> make mcn (loads nv h) = Ok cs ->
  In (url, me) h -> absolute url scheme host path q f -> cut_params scheme path path' -> url_path nv url = Some (m, raw) ->
  Forall (fun w => ~ In 92%N w) raw -> (forall t, q = Some t -> Forall legal t) -> (forall a b, path' <> a ++ u "//" ++ b) ->
  exists t nodes, In (m, t) cs /\ In nodes (paths t) /\ path_pieces nodes = map piece_of raw /\
    regex_matches (pack m (path_patterns nodes)) (path' ++ opt_text (u "?") q ++ opt_text (u "#") f).
Proof.
  intros nv h mcn cs url me scheme host path path' q f m raw M E IH AB CP UP NB LQ NS. pose proof (url_path_parse _ _ _ _ UP) as (A & _).
  assert (HO : host_ok nv host). { destruct (brackets_ok host && nv host) eqn:C; [apply host_okb; exact C|]. assert (Y : analyze_url nv url = Err EValue) by (apply (abs_analyze_err nv _ _ _ _ _ _ _ AB CP); left; split; [reflexivity|intros Z; apply host_okb in Z; congruence]). congruence. }
  destruct (proj1 (abs_parse nv _ _ _ _ _ _ _ AB CP) HO) as (p & EP & _ & _ & E1 & E2 & E3).
  destruct (c22_url nv h mcn cs url me m raw p M E IH UP EP NB) as ((t & nodes & I1 & I2 & I3) & X).
  { rewrite E2. destruct q as [t|]; [apply LQ; reflexivity|exact Logic.I]. }
  exists t, nodes. split; [exact I1|]. split; [exact I2|]. split; [exact I3|]. specialize (X t nodes I1 I2 I3). unfold url_text in X. rewrite E1, E2, E3 in X.
  destruct (cut_params_shape _ _ _ ltac:(destruct AB as (_ & _ & _ & P & _); exact P) CP) as [(_ & ->)|(r & ->)].
  { exfalso. assert (Y : analyze_url nv url = Err EIrregularURL) by (apply (abs_analyze_err nv _ _ _ _ _ _ _ AB CP); right; auto). congruence. }
  change (from_slash (SLASH :: r)) with (SLASH :: r) in X. rewrite squeeze_id in X by exact NS.
  replace (opt_text (u "?") q) with (match q with Some q => 63%N :: q | None => [] end) by (destruct q; reflexivity).
  replace (opt_text (u "#") f) with (match f with Some f => 35%N :: f | None => [] end) by (destruct f; reflexivity). exact X.
Qed.
Lemma c46_same : forall nv h url1 me1 url2 me2 s1 h1 p1 s2 h2 p2 path' q f b,
  In (url1, me1) h -> absolute url1 s1 h1 p1 q f -> cut_params s1 p1 path' -> absolute url2 s2 h2 p2 q f -> cut_params s2 p2 path' ->
  snd (load nv (loads nv []) url1 me1) = Ok b -> host_ok nv h2 -> snd (load nv (loads nv h) url2 me2) = Ok false.
Proof.
  intros nv h url1 me1 url2 me2 s1 h1 p1 s2 h2 p2 path' q f b I A1 C1 A2 C2 L1 HO2.
  pose proof (load_step nv [] _ url1 me1 (loads_ok nv [])) as [_ X]. destruct (url_path nv url1) as [[m raw]|] eqn:U1; [|destruct X as (_ & e & X); congruence].
  assert (U2 : url_path nv url2 = Some (m, raw)).
  { unfold url_path in *. change (u "/") with [SLASH] in *. assert (N1 : startswith url1 [SLASH] = false) by (eapply abs_not_slash; eassumption). assert (N2 : startswith url2 [SLASH] = false) by (eapply abs_not_slash; eassumption). rewrite N1 in U1. rewrite N2.
    destruct (analyze_url nv url1) as [[[d ks hf] raw']|] eqn:Z1; [|discriminate].
    assert (HO1 : host_ok nv h1). { destruct (brackets_ok h1 && nv h1) eqn:C; [apply host_okb; exact C|]. assert (Y : analyze_url nv url1 = Err EValue) by (apply (abs_analyze_err nv _ _ _ _ _ _ _ A1 C1); left; split; [reflexivity|intros Z; apply host_okb in Z; congruence]). congruence. }
    apply (abs_analyze nv _ _ _ _ _ _ _ A1 C1 HO1) in Z1. apply (abs_analyze nv _ _ _ _ _ _ _ A2 C2 HO2) in Z1. rewrite Z1. exact U1. }
  pose proof (c15_new nv h url2 me2) as Y. rewrite U2 in Y. destruct Y as [(_ & N)|(Y & _)]; [|exact Y]. exfalso. apply N. exists me1. apply in_accepted. exists url1. auto.
Qed.
Lemma c46_keys : forall k k', Forall legal k -> (normalize k [EQUALS] = Ok k' <-> key_text k k').
Proof. intros k k' L. apply key_exact. apply all_legal_iff. exact L. Qed.
