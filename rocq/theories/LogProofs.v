(** C66: what the programs log. *)
From Coq Require Import String.
From Verif Require Import PyStr Defs UrlLib ParseUtils Spec Views Trees Cluster Patterns Matcher Maker Format Cmd Files Log Observe MatchSpec OrderSpec CmdSpec LogSpec GrammarSpec UrlSpec RefSpec PyStrProofs DefsProofs DictProofs RegexProofs PieceProofs QueryProofs UnitProofs BridgeProofs UrlProofs PackProofs LoadProofs EntProofs MakeProofs PartProofs CmdProofs MatchNest Grammar UrlExact UrlRef Utf8 CmdMatch.
From Coq Require Import Lia Permutation.

(** ** firsts and Counter *)
Section Firsts.
  Context {A : Type} (dec : forall a b : A, {a = b} + {a <> b}).
  Lemma firsts_In : forall l x, In x (firsts dec l) <-> In x l.
  Proof.
    induction l as [|a l IH]; intros x; [reflexivity|]. cbn [firsts In]. rewrite filter_In, IH. destruct (dec a x) as [->|N0]; [tauto|]. split; [tauto|]. intros [H|H]; [auto|]. right. auto.
  Qed.
  Lemma firsts_snoc : forall l x, firsts dec (l ++ [x]) = firsts dec l ++ if in_dec dec x l then [] else [x].
  Proof.
    induction l as [|a l IH]; intros x; [reflexivity|]. cbn [app firsts]. rewrite IH. rewrite filter_app. f_equal. f_equal.
    destruct (in_dec dec x l) as [I|I].
    - destruct (in_dec dec x (a :: l)) as [_|J]; [reflexivity|]. exfalso. apply J. right. exact I.
    - cbn [filter]. destruct (dec a x) as [->|N0].
      + destruct (in_dec dec x (x :: l)) as [_|J]; [reflexivity|]. exfalso. apply J. left. reflexivity.
      + destruct (in_dec dec x (a :: l)) as [J|_]; [|reflexivity]. exfalso. destruct J as [J|J]; contradiction.
  Qed.
  Lemma firsts_NoDup : forall l, NoDup (firsts dec l).
  Proof.
    induction l as [|a l IH]; [constructor|]. cbn [firsts]. constructor.
    - rewrite filter_In. intros [_ H]. destruct (dec a a); [discriminate|contradiction].
    - apply NoDup_filter. exact IH.
  Qed.
End Firsts.
Definition counter (labels : list str) : list (str * N) := map (fun k => (k, N.of_nat (count_occ str_dec labels k))) (firsts str_dec labels).
Lemma count_snoc : forall (l : list str) x k, count_occ str_dec (l ++ [x]) k = count_occ str_dec l k + if str_dec x k then 1 else 0.
Proof. intros. rewrite count_occ_app. cbn [count_occ]. destruct (str_dec x k); reflexivity. Qed.
Lemma bump_in : forall k (g : str -> N) l, NoDup l -> In k l -> bump k (map (fun x => (x, g x)) l) = map (fun x => (x, (g x + if str_dec k x then 1 else 0)%N)) l.
Proof.
  intros k g l ND. induction ND as [|a l NI ND IH]; intros I; [destruct I|]. cbn [map bump]. destruct (str_eqb k a) eqn:E.
  - apply str_eqb_iff in E. subst a. destruct (str_dec k k) as [_|X]; [|contradiction]. f_equal. apply map_ext_in. intros x Ix. destruct (str_dec k x) as [<-|_]; [contradiction|]. rewrite N.add_0_r. reflexivity.
  - destruct (str_dec k a) as [->|X]; [rewrite str_eqb_refl in E; discriminate|]. rewrite N.add_0_r. f_equal. apply IH. destruct I as [->|I]; [contradiction|exact I].
Qed.
Lemma bump_new : forall k (g : str -> N) l, ~ In k l -> bump k (map (fun x => (x, g x)) l) = map (fun x => (x, g x)) l ++ [(k, 1%N)].
Proof.
  intros k g l. induction l as [|a l IH]; intros I; [reflexivity|]. cbn [map bump app]. destruct (str_eqb k a) eqn:E; [apply str_eqb_iff in E; subst; exfalso; apply I; left; reflexivity|]. rewrite IH; [reflexivity|]. intros J. apply I. right. exact J.
Qed.
Lemma counter_snoc : forall labels k, bump k (counter labels) = counter (labels ++ [k]).
Proof.
  intros labels k. unfold counter. rewrite firsts_snoc. destruct (in_dec str_dec k labels) as [I|I].
  - rewrite app_nil_r. rewrite bump_in; [|apply firsts_NoDup|apply firsts_In; exact I]. apply map_ext. intros x. rewrite count_snoc. destruct (str_dec k x); f_equal; lia.
  - rewrite bump_new; [|rewrite firsts_In; exact I]. rewrite map_app. cbn [map]. f_equal.
    + apply map_ext_in. intros x Ix. rewrite count_snoc. destruct (str_dec k x) as [<-|_]; [exfalso; apply I; apply firsts_In in Ix; exact Ix|]. rewrite Nat.add_0_r. reflexivity.
    + rewrite count_snoc. destruct (str_dec k k) as [_|X]; [|contradiction]. rewrite (proj1 (count_occ_not_In str_dec labels k) I). reflexivity.
Qed.
Lemma join_app2 : forall sep a b, a <> [] -> b <> [] -> join sep (a ++ b) = join sep a ++ sep ++ join sep b.
Proof.
  intros sep a b NA NB. induction a as [|x a IH]; [contradiction|]. destruct a as [|y a].
  - destruct b as [|z b]; [contradiction|]. cbn [app]. rewrite join_cons. reflexivity.
  - change ((x :: y :: a) ++ b) with (x :: y :: (a ++ b)). rewrite !join_cons. change (y :: a ++ b) with ((y :: a) ++ b). rewrite IH by discriminate. rewrite <- !app_assoc. reflexivity.
Qed.
Lemma join_blocks : forall sep ls, Forall (fun l => l <> []) ls -> join sep (List.concat ls) = join sep (map (join sep) ls).
Proof.
  intros sep ls F. induction F as [|l ls NL F IH]; [reflexivity|]. cbn [List.concat map]. destruct ls as [|l2 ls]; [cbn [List.concat map join]; rewrite app_nil_r; reflexivity|].
  rewrite join_app2; [|exact NL|inversion F; subst; destruct l2; [contradiction|discriminate]]. rewrite IH. cbn [map]. rewrite join_cons. reflexivity.
Qed.

(** ** the exceptions of parse *)
Lemma parse_url_err : forall nv url e, parse_url nv url = Err e -> e = EValue \/ (e = EIndex /\ (url = [] \/ url = u "#")).
Proof.
  intros nv url e H. destruct (c59_reads url) as (body & s & h & p & q & f & p' & BO & RF & CP). pose proof (proj1 (body_iff _ _) BO) as ST.
  destruct (ref_urlparse nv body p p' s h q f RF CP url ST) as (params & UP). unfold parse_url in H. rewrite UP in H. destruct (negb (brackets_ok (or_empty h) && nv (or_empty h))); [cbn [bind] in H; inversion H; auto|].
  cbn [bind pr_query pr_fragment pr_scheme pr_netloc pr_path pr_params] in H. destruct url as [|c url]; [right; split; [|auto]|].
  { assert (B : body = []) by (rewrite <- ST; reflexivity). destruct RF as (E & _). rewrite B in E. symmetry in E. apply app_eq_nil in E. destruct E as [_ E]. apply app_eq_nil in E. destruct E as [_ E]. apply app_eq_nil in E. destruct E as [_ E]. apply app_eq_nil in E. destruct E as [Eq Ef].
    destruct q; [discriminate|]. destruct f; [discriminate|]. cbn in H. inversion H. reflexivity. }
  assert (LB : length body <= S (length url)).
  { rewrite <- ST. etransitivity; [apply strip_length|]. destruct (lstrip_cut (c :: url)) as (a & EA & _). pose proof (f_equal (@length _) EA) as L. rewrite app_length in L. unfold str, char in *. cbn [length] in L. lia. }
  assert (LF : forall t, f = Some t -> length t <= length url).
  { intros t EF. destruct RF as (E & _). rewrite E, EF in LB. repeat rewrite app_length in LB. cbn [opt_text] in LB. rewrite app_length in LB. change (length (u "#")) with 1 in LB. unfold str, char in *. lia. }
  destruct (py_index_ok (c :: url) (-1)%Z) as (c1 & P1); [cbn [length]; lia|].
  destruct f as [[|c0 t]|]; cbn [or_empty is_nil] in H.
  - rewrite P1 in H. cbn [bind] in H. destruct url as [|c' url].
    + destruct (N.eqb_spec c1 NUMBER) as [X|NN].
      * rewrite X in P1. assert (EC : c = 35%N) by (unfold py_index in P1; cbn in P1; inversion P1; reflexivity). subst c. right. split; [|auto]. cbn [negb] in H. destruct (is_nil (or_empty q)); [|discriminate]. cbn in H. inversion H. reflexivity.
      * cbn [negb] in H. destruct (is_nil (or_empty q)); [|discriminate]. destruct (negb (N.eqb c1 QUESTION)); discriminate.
    + destruct (py_index_ok (c :: c' :: url) (-2)%Z) as (c2 & P2); [cbn [length]; lia|]. rewrite P2 in H. cbn [bind] in H. destruct (negb (N.eqb c1 NUMBER)), (is_nil (or_empty q)), (negb (N.eqb c1 QUESTION)), (negb (N.eqb c2 QUESTION)); discriminate.
  - specialize (LF _ eq_refl). match type of H with context [py_index ?l ?i] => destruct (py_index_ok l i) as (c3 & P3); [unfold str, char in *; cbn [length] in *; lia|] end. rewrite P3 in H. cbn [bind] in H. destruct (is_nil (or_empty q)), (negb (N.eqb c3 QUESTION)); discriminate.
  - rewrite P1 in H. cbn [bind] in H. assert (NB : c1 <> NUMBER).
    { intros ->. pose proof (py_index_in _ _ _ P1) as IC. pose proof (body_in (c :: url) body NUMBER BO IC ltac:(reflexivity)) as I. destruct RF as (E & SC & HO' & FP & NQ). rewrite E in I. apply in_app_or in I. destruct I as [I|I].
      - destruct s as [s|]; [|exact I]. cbn [opt_scheme] in I. apply in_app_or in I. destruct I as [I|I]; [|cbn in I; destruct I as [I|[]]; discriminate]. destruct SC as [_ FS]. rewrite Forall_forall in FS. specialize (FS _ I). vm_compute in FS. intuition discriminate.
      - apply in_app_or in I. destruct I as [I|I].
        + destruct h as [h|]; [|exact I]. cbn [opt_text] in I. apply in_app_or in I. destruct I as [I|I]; [cbn in I; destruct I as [I|[I|[]]]; discriminate|]. destruct HO' as [FH _]. rewrite Forall_forall in FH. apply (FH _ I). cbn. tauto.
        + apply in_app_or in I. destruct I as [I|I]; [rewrite Forall_forall in FP; apply (FP _ I); cbn; tauto|]. cbn [opt_text] in I. rewrite app_nil_r in I. destruct q as [t|]; [|exact I]. destruct I as [I|I]; [discriminate|exact (NQ t eq_refl I)]. }
    destruct (N.eqb_spec c1 NUMBER) as [X|_]; [contradiction|]. cbn [negb] in H. destruct (is_nil (or_empty q)), (negb (N.eqb c1 QUESTION)); discriminate.
Qed.
Lemma query_err : forall q e, parse_query_string q = Err e -> e = EIrregularURL.
Proof.
  intros q e H. destruct q as [[|c t]|]; try discriminate. assert (DEC : Err e = @Err (list str * list str) EIrregularURL \/ Err e <> @Err (list str * list str) EIrregularURL) by (destruct e; (left; reflexivity) || (right; discriminate)).
  destruct DEC as [D|D]; [inversion D; reflexivity|]. destruct (c07_ok (c :: t) _ ltac:(discriminate) H D) as (ks & vs & K & _). discriminate.
Qed.
Lemma analyze_url_err : forall nv url e, analyze_url nv url = Err e -> In e [EIrregularURL; EValue] \/ (e = EIndex /\ (url = [] \/ url = u "#")).
Proof.
  intros nv url e H. unfold analyze_url in H. destruct (parse_url nv url) as [r|e'] eqn:P; cbn [bind] in H.
  - left. unfold unpack in H. match type of H with (if ?b then _ else _) = _ => destruct b end; [inversion H; cbn; auto|]. destruct (parse_query_string (up_query r)) as [[ks vs]|e'] eqn:Q; cbn [bind] in H.
    + destruct (mapM_normalize ks) as (ks' & N0). rewrite N0 in H. discriminate.
    + inversion H; subst e'. apply query_err in Q. subst. cbn. auto.
  - inversion H; subst e'. apply parse_url_err in P. destruct P as [->|P]; [cbn; auto|auto].
Qed.
Lemma pieces_err : forall ps e, mapM piece_parse ps = Err e -> e = EInvalidChar.
Proof.
  induction ps as [|w ps IH]; intros e H; [discriminate|]. cbn [mapM] in H. destruct (forallb (fun c => char_in c legal_chars) w) eqn:L.
  - assert (LW : Forall legal w) by (rewrite forallb_forall in L; apply Forall_forall; intros c C; apply char_in_In; exact (L _ C)).
    rewrite (piece_parse_legal w (proj2 (all_legal_iff w) LW)) in H. cbn [bind] in H. destruct (mapM piece_parse ps); [discriminate|]. inversion H; subst. apply IH. reflexivity.
  - rewrite (piece_parse_illegal w) in H; [inversion H; reflexivity|]. intros Z. apply all_legal_iff in Z. assert (forallb (fun c => char_in c legal_chars) w = true); [|congruence].
    apply forallb_forall. intros c C. apply char_in_In. rewrite Forall_forall in Z. exact (Z _ C).
Qed.
Lemma pattern_err : forall nv s e, startswith s [SLASH] = true -> parse nv s = Err e -> In e [EInvalidPattern; EIrregularURL; EValue].
Proof.
  intros nv s e SS H. assert (X : snd (match_load nv (mloads nv []) s None) = Err e) by (unfold match_load; rewrite H; reflexivity).
  apply c45_rejects in X; [|exact SS]. destruct X as [(-> & _)|(d & ks & hf & Ps & P & _ & _ & _ & [->|(-> & _)])]; cbn; auto.
Qed.
Lemma pattern_nonempty : forall nv s m, startswith s [SLASH] = true -> parse nv s <> Ok (m, PPat []).
Proof.
  intros nv s m SS H. assert (X : snd (match_load nv (mloads nv []) s None) = Err EIndex) by (unfold match_load; rewrite H; reflexivity).
  apply c45_rejects in X; [|exact SS]. destruct X as [(X & _)|(d & ks & hf & Ps & P & _ & _ & _ & [X|(X & _)])]; discriminate.
Qed.
Lemma parse_err : forall nv url e, parse nv url = Err e -> In e [EInvalidPattern; EIrregularURL; EInvalidChar; EValue] \/ (e = EIndex /\ (url = [] \/ url = u "#")).
Proof.
  intros nv url e H. destruct (startswith url [SLASH]) eqn:SS; [left; pose proof (pattern_err nv url e SS H) as X; cbn in *; tauto|].
  unfold parse in H. rewrite SS in H. destruct (analyze_url nv url) as [[m ps]|e'] eqn:A; cbn [bind] in H.
  - destruct (mapM piece_parse ps) eqn:P; [discriminate|]. cbn [bind] in H. inversion H; subst. apply pieces_err in P. subst. left. cbn. auto.
  - inversion H; subst e'. apply analyze_url_err in A. cbn in *. tauto.
Qed.
(** a text without path: the exception is the same in every state *)
Lemma load_raise : forall nv url, url_path nv url = None -> exists e, (forall st me, load nv st url me = (st, Err e)) /\
  (In e [EInvalidPattern; EIrregularURL; EInvalidChar; EValue] \/ (e = EIndex /\ (url = [] \/ url = u "#"))).
Proof.
  intros nv url H. destruct (parse nv url) as [[m p]|e] eqn:P.
  - destruct (startswith url [SLASH]) eqn:SS.
    + pose proof (pattern_nonempty nv url m SS) as NE. exists EValue. split; [|left; cbn; auto]. intros st me. unfold load. rewrite P. destruct p as [l|l]; [|destruct l; [contradiction|reflexivity]].
      exfalso. unfold parse in P. rewrite SS in P. destruct (analyze_url_pattern_string url) as [[m' ps]|]; [|discriminate]. cbn [bind] in P. destruct (mk_patterns 1 (path_depth m') ps); discriminate.
    + exfalso. unfold url_path in H. change (u "/") with [SLASH] in H. rewrite SS in H. unfold parse in P. rewrite SS in P. destruct (analyze_url nv url) as [[m' raw]|]; [|discriminate]. cbn [bind] in P.
      destruct (forallb (forallb (fun c => char_in c legal_chars)) raw) eqn:L; [discriminate|]. destruct (mapM piece_parse raw) as [l0|] eqn:MP; [|discriminate].
      assert (X : forallb (forallb (fun c => char_in c legal_chars)) raw = true); [|congruence]. clear - MP. revert l0 MP. induction raw as [|w raw IH]; intros l MP; [reflexivity|]. cbn [mapM forallb] in *.
      destruct (piece_parse w) as [x|] eqn:PW; [|discriminate]. cbn [bind] in MP. destruct (mapM piece_parse raw) eqn:MR; [|discriminate]. apply andb_true_iff. split; [|eapply IH; reflexivity].
      destruct (forallb (fun c => char_in c legal_chars) w) eqn:LW; [reflexivity|]. rewrite (piece_parse_illegal w) in PW; [discriminate|]. intros Z. apply all_legal_iff in Z. assert (forallb (fun c => char_in c legal_chars) w = true); [|congruence].
      apply forallb_forall. intros c C. apply char_in_In. rewrite Forall_forall in Z. exact (Z _ C).
  - exists e. split; [|exact (parse_err nv url e P)]. intros st me. unfold load. rewrite P. reflexivity.
Qed.

(** ** the loop *)
Lemma speed_ok : forall k what n, (0 < k)%N -> exists sp, speed_log k what (N.of_nat n) = (N.of_nat (S n), sp) /\
  ((exists j, N.of_nat (S n) = (j * k)%N /\ sp = [Progress what (N.of_nat (S n))]) \/ (~ (exists j, N.of_nat (S n) = (j * k)%N) /\ sp = [])).
Proof.
  intros k what n K. unfold speed_log, log_call. replace (N.of_nat n + 1)%N with (N.of_nat (S n)) by lia. eexists. split; [reflexivity|]. destruct (N.eqb_spec (N.of_nat (S n) mod k) 0) as [E|E].
  - left. exists (N.of_nat (S n) / k)%N. split; [|reflexivity]. pose proof (N.div_mod (N.of_nat (S n)) k ltac:(lia)). lia.
  - right. split; [|reflexivity]. intros (j & J). apply E. rewrite J. apply N.mod_mul. lia.
Qed.
Lemma kind_strip : forall nv line, kind_of_line nv line = match strip line with [] => LBlank | _ => match utf8_decode (strip line) with Ok url => match url_path nv url with Some _ => LUrl url | None => LBad end | Err _ => LBad end end.
Proof.
  intros nv line. unfold kind_of_line. destruct (forallb blank_byte line) eqn:B.
  - apply strip_nil in B. rewrite B. reflexivity.
  - destruct (strip line) eqn:E; [|reflexivity]. apply strip_nil in E. congruence.
Qed.
Lemma decode_err : forall n l e, length l <= n -> utf8_decode l = Err e -> e = EValue.
Proof.
  induction n as [|n IH]; intros l e L H; [destruct l; [discriminate|cbn [length] in L; lia]|]. destruct l as [|a l]; [discriminate|]. cbn [length] in L. cbn [utf8_decode] in H.
  repeat match type of H with
  | (if ?b then _ else _) = _ => destruct b
  | (match ?l with [] => _ | _ :: _ => _ end) = _ => destruct l; cbn [length] in L
  | (let _ := _ in _) = _ => cbv zeta in H
  | bind ?x _ = _ => destruct x eqn:?D; cbn [bind] in H
  end; try discriminate; inversion H; subst; try reflexivity;
  match goal with D : utf8_decode ?x = Err e |- _ => apply (IH x e); [cbn [length] in *; lia|exact D] end.
Qed.
Lemma complain_cases : forall e line, (In e [EInvalidPattern; EIrregularURL; EInvalidChar; EValue] /\ complain e line = Warned e line) \/ (~ In e [EInvalidPattern; EIrregularURL; EInvalidChar; EValue] /\ complain e line = Failed e line).
Proof. intros e line. destruct e; cbn; (left; split; [tauto|reflexivity]) || (right; split; [intuition discriminate|reflexivity]). Qed.
Definition mblock (k : mkind) : list str := match k with KEmpty => [u "EMPTY"] | KBad => [u "INVALID"] | KUrl => [u "UNIQ"; u "VALID"] end.
Definition msum (nv : str -> bool) (lines : list str) (k : mkind) : nat := length (filter (fun l => if mkind_dec (mkind_of nv l) k then true else false) lines).
Lemma msum_snoc : forall nv lines line k, msum nv (lines ++ [line]) k = msum nv lines k + if mkind_dec (mkind_of nv line) k then 1 else 0.
Proof. intros. unfold msum. rewrite filter_app, app_length. cbn [filter]. destruct (mkind_dec (mkind_of nv line) k); reflexivity. Qed.
Lemma add_old : forall (xs labels : list str), (forall x, In x xs -> In x labels) -> firsts str_dec (labels ++ xs) = firsts str_dec labels.
Proof.
  intros xs. induction xs as [|x xs IH]; intros labels H; [rewrite app_nil_r; reflexivity|]. change (x :: xs) with ([x] ++ xs). rewrite app_assoc, IH.
  - rewrite firsts_snoc. destruct (in_dec str_dec x labels) as [_|X]; [rewrite app_nil_r; reflexivity|]. exfalso. apply X. apply H. left. reflexivity.
  - intros y I. apply in_or_app. left. apply H. right. exact I.
Qed.
Lemma add_new : forall (xs labels : list str), NoDup xs -> (forall x, In x xs -> ~ In x labels) -> firsts str_dec (labels ++ xs) = firsts str_dec labels ++ xs.
Proof.
  intros xs. induction xs as [|x xs IH]; intros labels ND H; [rewrite !app_nil_r; reflexivity|]. inversion ND as [|? ? NI ND']; subst. change (x :: xs) with ([x] ++ xs). rewrite !app_assoc, IH.
  - rewrite firsts_snoc. destruct (in_dec str_dec x labels) as [X|_]; [exfalso; exact (H x (or_introl eq_refl) X)|]. reflexivity.
  - exact ND'.
  - intros y I J. apply in_app_or in J. destruct J as [J|[J|[]]]; [exact (H y (or_intror I) J)|subst; contradiction].
Qed.
Section Order.
  Context {K : Type} (dec : forall a b : K, {a = b} + {a <> b}) (kf : str -> K) (blk : K -> list str).
  Context (DJ : forall k k' x, In x (blk k) -> In x (blk k') -> k = k') (NA : forall k, ~ In (u "ALL") (blk k)) (ND : forall k, NoDup (blk k)).
  Lemma kinds_in : forall lines k x, In x (blk k) -> (In x (flat_map blk (firsts dec (map kf lines))) <-> In k (map kf lines)).
  Proof.
    intros lines k x X. rewrite in_flat_map. split.
    - intros (k' & I & J). apply firsts_In in I. rewrite (DJ k k' x X J). exact I.
    - intros I. exists k. split; [apply firsts_In; exact I|exact X].
  Qed.
  Definition order_of (lines : list str) : list str := match lines with [] => [] | _ => u "ALL" :: flat_map blk (firsts dec (map kf lines)) end.
  Lemma order_snoc : forall lines line labels xs, firsts str_dec labels = order_of lines -> (forall x, In x xs -> In x (blk (kf line))) -> 
    (~ In (kf line) (map kf lines) -> xs = blk (kf line)) ->
    firsts str_dec (labels ++ u "ALL" :: xs) = order_of (lines ++ [line]).
  Proof.
    intros lines line labels xs E X Y.
    assert (A : firsts str_dec (labels ++ [u "ALL"]) = u "ALL" :: flat_map blk (firsts dec (map kf lines))).
    { destruct lines as [|l lines].
      - cbn [order_of] in E. destruct labels as [|y labels]; [reflexivity|discriminate].
      - rewrite add_old; [exact E|]. intros x [<-|[]]. rewrite <- (firsts_In str_dec), E. left. reflexivity. }
    assert (IO : forall x, In x (blk (kf line)) -> (In x (labels ++ [u "ALL"]) <-> In (kf line) (map kf lines))).
    { intros x I. rewrite <- (firsts_In str_dec), A. cbn [In]. rewrite (kinds_in lines _ x I). split; [|auto]. intros [Z|J]; [subst x; destruct (NA _ I)|exact J]. }
    change (u "ALL" :: xs) with ([u "ALL"] ++ xs). rewrite app_assoc. assert (O : order_of (lines ++ [line]) = u "ALL" :: flat_map blk (firsts dec (map kf (lines ++ [line])))) by (destruct lines; reflexivity).
    rewrite O, map_app. cbn [map]. rewrite firsts_snoc, flat_map_app. destruct (in_dec dec (kf line) (map kf lines)) as [I|I].
    - rewrite add_old; [rewrite A, app_nil_r; reflexivity|]. intros x J. apply IO; [exact (X x J)|exact I].
    - rewrite (Y I), add_new.
      + rewrite A. cbn [flat_map]. rewrite app_nil_r. reflexivity.
      + apply ND.
      + intros x J J'. apply IO in J'; [contradiction|exact J].
  Qed.
  (** the text of the report *)
  Lemma order_text : forall labels lines (rep : K -> str), (forall k, blk k <> []) -> firsts str_dec labels = order_of lines -> count_occ str_dec labels (u "ALL") = length lines ->
    (forall k, join (u ", ") (map (fun x => x ++ u ":" ++ dec_str (N.of_nat (count_occ str_dec labels x))) (blk k)) = rep k) ->
    pretty_counter (counter labels) = match lines with [] => [] | _ => join (u ", ") ((u "ALL:" ++ dec_str (N.of_nat (length lines))) :: map rep (firsts dec (map kf lines))) end.
  Proof.
    intros labels lines rep NB O C1 R. unfold pretty_counter, counter. rewrite map_map, O. cbn [fst snd]. unfold order_of. destruct lines as [|l lines]; [reflexivity|]. set (ls := l :: lines) in *. cbn [map]. rewrite C1.
    set (f := fun x : str => x ++ u ":" ++ dec_str (N.of_nat (count_occ str_dec labels x))) in *. set (ks := firsts dec (map kf ls)). clearbody ks.
    assert (E : map f (flat_map blk ks) = List.concat (map (fun k => map f (blk k)) ks)) by (rewrite flat_map_concat_map, concat_map, map_map; reflexivity).
    match goal with |- join _ (?a :: _) = _ => change a with (u "ALL" ++ u ":" ++ dec_str (N.of_nat (length ls))) end. change (u "ALL:") with (u "ALL" ++ u ":"). rewrite <- app_assoc. set (A := u "ALL" ++ u ":" ++ dec_str (N.of_nat (length ls))).
    fold f. rewrite E. transitivity (join (u ", ") (List.concat ([A] :: map (fun k => map f (blk k)) ks))); [reflexivity|]. rewrite join_blocks.
    2: { constructor; [discriminate|]. apply Forall_forall. intros x I. apply in_map_iff in I. destruct I as (k & <- & _). specialize (NB k). destruct (blk k); [contradiction|discriminate]. }
    cbn [map]. f_equal. f_equal. rewrite map_map. apply map_ext. intros k. apply R.
  Qed.
End Order.
Lemma mdj : forall k k' x, In x (mblock k) -> In x (mblock k') -> k = k'.
Proof. intros k k' x X J. destruct k, k'; try reflexivity; cbn in X, J; decompose [or] X; decompose [or] J; try contradiction; subst; discriminate. Qed.
Lemma mna : forall k, ~ In (u "ALL") (mblock k).
Proof. intros []; cbn; intuition discriminate. Qed.
Lemma mnd : forall k, NoDup (mblock k).
Proof. intros []; repeat constructor; cbn; intuition discriminate. Qed.
Lemma no_urls : forall nv wm lines, ~ In KUrl (map (mkind_of nv) lines) -> line_loads nv wm lines = [].
Proof.
  intros nv wm lines H. unfold line_loads. induction lines as [|l lines IH]; [reflexivity|]. cbn [flat_map map In] in *. rewrite IH by tauto. unfold mkind_of in H at 1. destruct (kind_of_line nv l); [reflexivity|reflexivity|]. exfalso. apply H. left. reflexivity.
Qed.
Lemma make_inv : forall nv wm lines, exists labels log,
  fold_left (make_line_log nv wm) lines (LS [] [] 0%N []) = LS (loads nv (line_loads nv wm lines)) (counter labels) (N.of_nat (length lines)) log /\
  firsts str_dec labels = order_of mkind_dec (mkind_of nv) mblock lines /\
  count_occ str_dec labels (u "ALL") = length lines /\ count_occ str_dec labels (u "EMPTY") = msum nv lines KEmpty /\ count_occ str_dec labels (u "INVALID") = msum nv lines KBad /\
  count_occ str_dec labels (u "VALID") = msum nv lines KUrl /\ count_occ str_dec labels (u "UNIQ") = length (loaded nv (line_loads nv wm lines)) /\
  loop_log 5000 (u "[LOADING]") (make_about nv) lines log.
Proof.
  intros nv wm lines. induction lines as [|line lines IH] using rev_ind.
  { exists [], []. split; [reflexivity|]. repeat (split; [reflexivity|]). constructor. }
  destruct IH as (labels & log & F & O & C1 & C2 & C3 & C4 & C5 & LL). rewrite fold_left_app, F. cbn [fold_left]. unfold make_line_log.
  destruct (speed_ok 5000 (u "[LOADING]") (length lines) ltac:(reflexivity)) as (sp & SP & SC). rewrite SP.
  rewrite line_loads_app. set (h := line_loads nv wm lines) in *. assert (LN : length (lines ++ [line]) = S (length lines)) by (rewrite app_length; cbn [length]; lia). rewrite LN, !msum_snoc.
  pose proof (kind_strip nv line) as K. assert (MK : mkind_of nv line = match kind_of_line nv line with LBlank => KEmpty | LBad => KBad | LUrl _ => KUrl end) by reflexivity.
  assert (GEN : forall xs ev st, st = loads nv (h ++ line_loads nv wm [line]) -> (forall x, In x xs -> In x (mblock (mkind_of nv line))) -> (~ In (mkind_of nv line) (map (mkind_of nv) lines) -> xs = mblock (mkind_of nv line)) -> make_about nv line ev ->
    count_occ str_dec xs (u "EMPTY") = (if mkind_dec (mkind_of nv line) KEmpty then 1 else 0) -> count_occ str_dec xs (u "INVALID") = (if mkind_dec (mkind_of nv line) KBad then 1 else 0) ->
    count_occ str_dec xs (u "VALID") = (if mkind_dec (mkind_of nv line) KUrl then 1 else 0) -> count_occ str_dec xs (u "UNIQ") + length (loaded nv h) = length (loaded nv (h ++ line_loads nv wm [line])) ->
    exists labels' log', LS st (fold_left (fun c k => bump k c) xs (bump (u "ALL") (counter labels))) (N.of_nat (S (length lines))) (log ++ sp ++ ev) = LS (loads nv (h ++ line_loads nv wm [line])) (counter labels') (N.of_nat (S (length lines))) log' /\
      firsts str_dec labels' = order_of mkind_dec (mkind_of nv) mblock (lines ++ [line]) /\
      count_occ str_dec labels' (u "ALL") = S (length lines) /\ count_occ str_dec labels' (u "EMPTY") = msum nv lines KEmpty + (if mkind_dec (mkind_of nv line) KEmpty then 1 else 0) /\ count_occ str_dec labels' (u "INVALID") = msum nv lines KBad + (if mkind_dec (mkind_of nv line) KBad then 1 else 0) /\
      count_occ str_dec labels' (u "VALID") = msum nv lines KUrl + (if mkind_dec (mkind_of nv line) KUrl then 1 else 0) /\ count_occ str_dec labels' (u "UNIQ") = length (loaded nv (h ++ line_loads nv wm [line])) /\
      loop_log 5000 (u "[LOADING]") (make_about nv) (lines ++ [line]) log').
  { intros xs ev st -> X1 X2 MA N1 N2 N3 N4. exists (labels ++ u "ALL" :: xs), (log ++ sp ++ ev). 
    assert (CF : forall ys ls, fold_left (fun c k => bump k c) ys (counter ls) = counter (ls ++ ys)).
    { induction ys as [|y ys IHy]; intros ls; [rewrite app_nil_r; reflexivity|]. cbn [fold_left]. rewrite counter_snoc, IHy, <- app_assoc. reflexivity. }
    rewrite counter_snoc, CF, <- app_assoc. split; [reflexivity|]. split; [apply (order_snoc _ _ _ mdj mna mnd); assumption|].
    assert (NA : count_occ str_dec xs (u "ALL") = 0). { apply count_occ_not_In. intros I. apply X1 in I. revert I. destruct (mkind_of nv line); cbn; intuition discriminate. }
    assert (CO : forall k, count_occ str_dec (labels ++ u "ALL" :: xs) k = count_occ str_dec labels k + (if str_dec (u "ALL") k then 1 else 0) + count_occ str_dec xs k) by (intros k; rewrite count_occ_app; cbn [count_occ]; destruct (str_dec (u "ALL") k); lia).
    rewrite !CO, C1, C2, C3, C4, C5. destruct (str_dec (u "ALL") (u "ALL")) as [_|Z]; [|contradiction].
    destruct (str_dec (u "ALL") (u "EMPTY")) as [Z|_]; [discriminate|]. destruct (str_dec (u "ALL") (u "INVALID")) as [Z|_]; [discriminate|]. destruct (str_dec (u "ALL") (u "VALID")) as [Z|_]; [discriminate|]. destruct (str_dec (u "ALL") (u "UNIQ")) as [Z|_]; [discriminate|].
    split; [lia|]. split; [lia|]. split; [lia|]. split; [lia|]. split; [lia|]. constructor; assumption. }
  assert (LO : line_loads nv wm [line] = match kind_of_line nv line with LUrl url => [(url, if wm then Some url else None)] | _ => [] end) by (unfold line_loads; cbn [flat_map]; apply app_nil_r).
  rewrite LO in *. destruct (strip line) as [|b r] eqn:SL.
  { rewrite K in *. rewrite MK in *. rewrite app_nil_r in GEN. replace (log ++ sp) with (log ++ sp ++ []) by (rewrite app_nil_r; reflexivity).
    rewrite (app_nil_r h). apply (GEN [u "EMPTY"] [] (loads nv h)); try reflexivity; auto. unfold make_about. rewrite K. reflexivity. }
  assert (NS : strip line <> []) by (rewrite SL; discriminate). rewrite <- SL in *. clear SL b r. assert (BAD : forall e, kind_of_line nv line = LBad -> load_raises nv (strip line) e -> (In e [EInvalidPattern; EIrregularURL; EInvalidChar; EValue] \/ (e = EIndex /\ strip line = u "#")) -> make_about nv line [complain e (strip line)]).
  { intros e KB LR EC. unfold make_about. rewrite KB. exists e. split; [exact LR|]. destruct (complain_cases e (strip line)) as [[I ->]|[I ->]]; [left; auto|]. destruct EC as [EC|[-> EC]]; [contradiction|right; auto]. }
  destruct (utf8_decode (strip line)) as [url|e] eqn:D.
  2: { rewrite K in *. rewrite MK in *. rewrite app_nil_r in *. rewrite <- app_assoc. apply (GEN [u "INVALID"] [complain e (strip line)] (loads nv h)); try reflexivity; auto.
    apply BAD; [reflexivity| |left; apply decode_err with (n := length (strip line)) in D; [subst; cbn; auto|reflexivity]]. unfold load_raises. rewrite D. exact (decode_err _ _ _ (le_n _) D). }
  pose proof (c15_new nv h url (if wm then Some url else None)) as NW. pose proof (loads_snoc nv h url (if wm then Some url else None)) as LS0.
  destruct (url_path nv url) as [[m raw]|] eqn:U.
  - rewrite K in *. rewrite MK in *. rewrite LS0 in *. destruct (load nv (loads nv h) url (if wm then Some url else None)) as [st' o]. cbn [fst snd] in *. pose proof (loaded_snoc nv h url (if wm then Some url else None) m raw U) as LD.
    assert (DD : In (m, map piece_of raw) (loaded nv h) <-> exists me, In (m, raw, me) (accepted nv h)).
    { rewrite in_loaded. split.
      - intros (raw' & me & A & E). exists me. assert (raw = raw'); [|congruence]. pose proof (url_path_parse _ _ _ _ U) as (_ & L & _). apply in_accepted in A. destruct A as (url' & _ & A). pose proof (url_path_parse _ _ _ _ A) as (_ & L' & _). apply pieces_inj; assumption.
      - intros (me & A). exists raw, me. auto. }
    destruct NW as [[-> NW]|[-> NW]]; destruct (in_dec mp_dec (m, map piece_of raw) (loaded nv h)) as [I|I]; try (exfalso; tauto); replace (log ++ sp) with (log ++ sp ++ []) by (rewrite app_nil_r; reflexivity).
    + apply (GEN [u "UNIQ"; u "VALID"] [] st'); try reflexivity; auto; [|cbn; lia]. unfold make_about. rewrite K. reflexivity.
    + apply (GEN [u "VALID"] [] st'); try reflexivity; auto; [intros x [<-|[]]; cbn; auto| | |cbn; lia].
      * intros NI. exfalso. apply (no_urls nv wm) in NI. fold h in NI. rewrite NI in NW. destruct NW as (me & []).
      * unfold make_about. rewrite K. reflexivity.
  - rewrite K in *. rewrite MK in *. rewrite app_nil_r in *. destruct (load_raise nv url U) as (e & LE & EC). rewrite LE. rewrite <- app_assoc.
    apply (GEN [u "INVALID"] [complain e (strip line)] (loads nv h)); try reflexivity; auto. apply BAD; [reflexivity|unfold load_raises; rewrite D; exact LE|].
    destruct EC as [EC|(-> & EC)]; [auto|right; split; [reflexivity|]]. destruct EC as [->| ->].
    + exfalso. apply utf8_iff in D. cbn in D. inversion D as [Z]. congruence.
    + apply utf8_iff in D. change (utf8_encode (u "#")) with (@Ok str (u "#")) in D. apply ok_inj in D. symmetry. exact D.
Qed.
Lemma loaded_wm : forall nv wm lines, loaded nv (line_loads nv wm lines) = loaded nv (line_loads nv false lines).
Proof.
  intros nv wm lines. unfold loaded. f_equal. induction lines as [|l lines IH]; [reflexivity|]. unfold line_loads in *. cbn [flat_map]. rewrite !accepted_app, !map_app, IH. f_equal.
  destruct (kind_of_line nv l) as [| |url]; try reflexivity. unfold accepted. cbn [flat_map fst snd]. destruct (url_path nv url) as [[m raw]|]; reflexivity.
Qed.
Theorem c66_make_load : forall nv wm lines, exists log, make_load_log nv wm lines = (fst (make_load nv wm lines), log ++ [Debugged (u "[LOADED] " ++ make_report nv lines)]) /\
  loop_log 5000 (u "[LOADING]") (make_about nv) lines log.
Proof.
  intros nv wm lines. destruct (make_inv nv wm lines) as (labels & log & F & O & C1 & C2 & C3 & C4 & C5 & LL). exists log. split; [|exact LL].
  unfold make_load_log. rewrite F, make_load_ok. cbn [ls_state ls_log ls_stats fst]. f_equal. f_equal. f_equal. f_equal. f_equal. rewrite (loaded_wm nv wm) in C5. apply (order_text mkind_dec (mkind_of nv) mblock labels lines (mreport nv (length (loaded nv (line_loads nv false lines))) lines) ltac:(intros []; discriminate) O C1).
  intros k. unfold mreport, howmany. fold (msum nv lines k). destruct k; cbn [mblock map]; cbn [join]; rewrite ?C2, ?C3, ?C4, ?C5; reflexivity.
Qed.

(** ** the pattern files *)
Definition pblock (k : pkind) : list str := match k with PUnknown => [u "UNKNOW"] | PValid => [u "VALID"] | PBad => [u "INVALID"] end.
Definition psum (nv : str -> bool) (lines : list str) (k : pkind) : nat := length (filter (fun l => if pkind_dec (pkind_of nv l) k then true else false) lines).
Lemma psum_snoc : forall nv lines line k, psum nv (lines ++ [line]) k = psum nv lines k + if pkind_dec (pkind_of nv line) k then 1 else 0.
Proof. intros. unfold psum. rewrite filter_app, app_length. cbn [filter]. destruct (pkind_dec (pkind_of nv line) k); reflexivity. Qed.
Lemma pdj : forall k k' x, In x (pblock k) -> In x (pblock k') -> k = k'.
Proof. intros k k' x X J. destruct k, k'; try reflexivity; cbn in X, J; decompose [or] X; decompose [or] J; try contradiction; subst; discriminate. Qed.
Lemma pna : forall k, ~ In (u "ALL") (pblock k).
Proof. intros []; cbn; intuition discriminate. Qed.
Lemma pnd : forall k, NoDup (pblock k).
Proof. intros []; repeat constructor; cbn; intuition discriminate. Qed.
Lemma load_out : forall nv h1 h2 s me1 me2, match snd (match_load nv (mloads nv h1) s me1), snd (match_load nv (mloads nv h2) s me2) with
  | Ok _, Ok _ => True | Err e, Err e' => e = e' | _, _ => False end.
Proof. intros. rewrite !mload_snd. destruct (pat_parse nv s) as [[m ps]|]; [exact Logic.I|]. destruct (parse nv s) as [[m [l|l]]|]; try reflexivity; destruct l; reflexivity. Qed.
Lemma decode_slash : forall l s, startswith l [47%N] = true -> utf8_decode l = Ok s -> startswith s [SLASH] = true.
Proof.
  intros l s SS D. apply startswith_app in SS. destruct l as [|b r]; [discriminate|]. inversion SS; subst b. cbn [utf8_decode] in D. change (47 <? 128)%N with true in D. cbv iota in D.
  destruct (utf8_decode r) as [s'|]; cbn [bind] in D; [|discriminate]. apply ok_inj in D. subst s. destruct s'; reflexivity.
Qed.
Lemma pload_snoc : forall a b, pattern_loads (a ++ b) = pattern_loads a ++ pattern_loads b.
Proof. intros. unfold pattern_loads. apply flat_map_app. Qed.
Lemma pmake_inv : forall nv lines, exists labels log,
  fold_left (match_load_line_log nv) lines (LS [] [] 0%N []) = LS (mloads nv (pattern_loads lines)) (counter labels) (N.of_nat (length lines)) log /\
  firsts str_dec labels = order_of pkind_dec (pkind_of nv) pblock lines /\
  count_occ str_dec labels (u "ALL") = length lines /\ (forall k, count_occ str_dec labels (hd [] (pblock k)) = psum nv lines k) /\
  loop_log 1000 (u "[LOADING]") (pattern_about nv) lines log.
Proof.
  intros nv lines. induction lines as [|line lines IH] using rev_ind.
  { exists [], []. split; [reflexivity|]. split; [reflexivity|]. split; [reflexivity|]. split; [intros []; reflexivity|]. constructor. }
  destruct IH as (labels & log & F & O & C1 & C2 & LL). rewrite fold_left_app, F. cbn [fold_left]. unfold match_load_line_log.
  destruct (speed_ok 1000 (u "[LOADING]") (length lines) ltac:(reflexivity)) as (sp & SP & SC). rewrite SP.
  rewrite pload_snoc. set (h := pattern_loads lines) in *. assert (LN : length (lines ++ [line]) = S (length lines)) by (rewrite app_length; cbn [length]; lia). rewrite LN.
  assert (GEN : forall x ev st, st = mloads nv (h ++ pattern_loads [line]) -> pblock (pkind_of nv line) = [x] -> pattern_about nv line ev ->
    exists labels' log', LS st (bump x (bump (u "ALL") (counter labels))) (N.of_nat (S (length lines))) (log ++ sp ++ ev) = LS (mloads nv (h ++ pattern_loads [line])) (counter labels') (N.of_nat (S (length lines))) log' /\
      firsts str_dec labels' = order_of pkind_dec (pkind_of nv) pblock (lines ++ [line]) /\
      count_occ str_dec labels' (u "ALL") = S (length lines) /\ (forall k, count_occ str_dec labels' (hd [] (pblock k)) = psum nv (lines ++ [line]) k) /\
      loop_log 1000 (u "[LOADING]") (pattern_about nv) (lines ++ [line]) log').
  { intros x ev st -> XB MA. exists (labels ++ [u "ALL"; x]), (log ++ sp ++ ev). rewrite !counter_snoc, <- app_assoc. split; [reflexivity|].
    split; [apply (order_snoc _ _ _ pdj pna pnd); [exact O| |]; rewrite XB; auto|].
    assert (CO : forall k, count_occ str_dec (labels ++ [u "ALL"; x]) k = count_occ str_dec labels k + (if str_dec (u "ALL") k then 1 else 0) + (if str_dec x k then 1 else 0)) by (intros k; rewrite count_occ_app; cbn [count_occ]; destruct (str_dec (u "ALL") k), (str_dec x k); lia).
    split; [|split].
    - rewrite CO, C1. destruct (str_dec (u "ALL") (u "ALL")) as [_|Z]; [|contradiction]. destruct (str_dec x (u "ALL")) as [Z|_]; [|lia]. exfalso. apply (pna (pkind_of nv line)). rewrite XB, Z. left. reflexivity.
    - intros k. rewrite CO, C2, psum_snoc. destruct (pkind_of nv line), k; cbn [pblock] in XB; inversion XB; subst x; cbn [pblock hd];
      repeat match goal with |- context [str_dec ?a ?b] => destruct (str_dec a b) as [?Z|?Z]; try discriminate; try (exfalso; match goal with W : ?a <> ?a |- _ => apply W; reflexivity | W : ?a <> ?b |- _ => apply W; vm_compute; reflexivity end) end;
      match goal with |- context [pkind_dec ?a ?b] => destruct (pkind_dec a b) as [?Z|?Z]; try discriminate; try (exfalso; match goal with W : ?a <> ?a |- _ => apply W; reflexivity | W : ?a <> ?b |- _ => apply W; vm_compute; reflexivity end) end; lia.
    - constructor; assumption. }
  assert (PL : pattern_loads [line] = match pattern_line line with Some s => [(s, Some s)] | None => [] end) by (unfold pattern_loads; cbn [flat_map]; apply app_nil_r).
  rewrite PL in *. unfold pattern_about, pkind_of, pattern_line in *. change (u "/") with [47%N] in *. destruct (startswith (rstrip line) [47%N]) eqn:SS; cbn [negb].
  2: { rewrite (app_nil_r h) in *. replace (log ++ sp) with (log ++ sp ++ []) by (rewrite app_nil_r; reflexivity). apply GEN; reflexivity. }
  destruct (utf8_decode (rstrip line)) as [s|e] eqn:D.
  2: { rewrite (app_nil_r h) in *. rewrite <- app_assoc. apply GEN; try reflexivity. exists e. pose proof (decode_err _ _ _ (le_n _) D) as ->. split; [unfold pattern_raises; rewrite D; reflexivity|]. split; [cbn; auto|reflexivity]. }
  assert (MS : mloads nv (h ++ [(s, Some s)]) = fst (match_load nv (mloads nv h) s (Some s))) by (unfold mloads; rewrite fold_left_app; reflexivity). rewrite MS in *.
  pose proof (load_out nv h [] s (Some s) (Some s)) as X. change (mloads nv []) with ([] : mstate) in X.
  pose proof (c17_matcher nv h s (Some s)) as C17.
  pose proof (decode_slash _ _ SS D) as SL.
  destruct (match_load nv (mloads nv h) s (Some s)) as [st' o] eqn:ML. cbn [fst snd] in *. destruct o as [b|e].
  - replace (log ++ sp) with (log ++ sp ++ []) by (rewrite app_nil_r; reflexivity). destruct (snd (match_load nv [] s (Some s))) eqn:EE; [|contradiction]. apply GEN; reflexivity.
  - rewrite <- app_assoc. destruct (snd (match_load nv [] s (Some s))) as [|e2] eqn:EE; [contradiction|]. subst e2. apply GEN; try reflexivity. exists e. split; [|split; [|reflexivity]].
    + unfold pattern_raises. rewrite D. intros h' me'. pose proof (load_out nv h' h s me' (Some s)) as Y. rewrite ML in Y. cbn [snd] in Y. pose proof (c17_matcher nv h' s me') as C'. destruct (match_load nv (mloads nv h') s me') as [st2 o2]. cbn [fst snd] in *. destruct o2 as [|e2]; [contradiction|]. subst e2. rewrite (C' e eq_refl). reflexivity.
    + pose proof (c45_rejects nv h s (Some s) e SL) as R. rewrite ML in R. cbn [snd] in R. destruct (R eq_refl) as [(-> & _)|(d & ks & hf & Ps & P & _ & _ & _ & [->|(-> & _)])]; cbn; auto.
Qed.
Theorem c66_match_load : forall nv files, exists log, match_load_log nv files =
  (match_load_lines nv (input_lines (map snd files)),
   Debugged (u "[LOAD] " ++ dec_str (N.of_nat (length files)) ++ (match files with [_] => u " pattern file: " | [] => u " pattern file: " | _ => u " pattern files: " end) ++ join (u ", ") (map fst files)) ::
   log ++ [Debugged (u "[LOAD] Finished " ++ match_report nv (input_lines (map snd files)))]) /\
  loop_log 1000 (u "[LOADING]") (pattern_about nv) (input_lines (map snd files)) log.
Proof.
  intros nv files. destruct (pmake_inv nv (input_lines (map snd files))) as (labels & log & F & O & C1 & C2 & LL). exists log. split; [|exact LL].
  unfold match_load_log. rewrite F, load_lines. cbn [ls_state ls_log ls_stats fst]. set (ls := input_lines (map snd files)) in *.
  rewrite (order_text pkind_dec (pkind_of nv) pblock labels ls (preport nv ls) ltac:(intros []; discriminate) O C1).
  - destruct files as [|a [|b files]]; reflexivity.
  - intros k. unfold preport, howmany. fold (psum nv ls k). specialize (C2 k). destruct k; cbn [pblock map join hd] in *; rewrite C2; reflexivity.
Qed.

(** ** matching *)
Lemma answer_E : forall srt nv all patterns line r, answer srt nv all patterns line r -> r = u "E" ->
  match utf8_decode line with Ok url => match match_url nv (mloads nv (pattern_loads patterns)) url with Ok _ => False | Err _ => True end | Err _ => True end.
Proof.
  intros srt nv all patterns line r A ->. unfold answer in A. destruct (utf8_decode line) as [url|]; [|exact Logic.I]. destruct (match_url nv (mloads nv (pattern_loads patterns)) url) as [[|f fs]|]; [discriminate A| |exact Logic.I].
  destruct A as (m & p & ls & _ & FP & E & NE). destruct ls as [|l ls]; [congruence|]. remember (if all then f :: fs else firstn 1 (srt found_lt (f :: fs))) as gs. destruct FP as [|g l' gs' ls' P _]; [discriminate|].
  destruct P as (before & ln & after & s & _ & -> & PL & _). unfold pattern_line in PL. destruct (startswith (rstrip ln) (u "/")) eqn:SS; [|discriminate]. apply startswith_app in SS. rewrite SS in E.
  destruct ls'; cbn in E; discriminate.
Qed.
Lemma try_out : forall srt nv all patterns line, sorts srt -> match match_try srt nv (mloads nv (pattern_loads patterns)) all line with
  | Ok _ => exists url fs, utf8_decode line = Ok url /\ match_url nv (mloads nv (pattern_loads patterns)) url = Ok fs
  | Err e => (exists e', utf8_decode line = Err e' /\ e = EValue) \/ exists url, utf8_decode line = Ok url /\ match_url nv (mloads nv (pattern_loads patterns)) url = Err e
  end.
Proof.
  intros srt nv all patterns line SO. destruct (one_answer srt nv all patterns line SO) as (r & A & R). pose proof (answer_E _ _ _ _ _ _ A) as AE. unfold match_result in R. rewrite load_lines in R.
  destruct (match_try srt nv (mloads nv (pattern_loads patterns)) all line) as [x|e] eqn:MT; unfold match_try in MT.
  - destruct (utf8_decode line) as [url|]; [|discriminate]. cbn [bind] in MT. destruct (match_url nv (mloads nv (pattern_loads patterns)) url) as [fs|] eqn:MU; [|discriminate]. eauto.
  - cbv iota in R. destruct (utf8_decode line) as [url|e'] eqn:D; cbn [bind] in MT.
    + right. exists url. split; [reflexivity|]. destruct (match_url nv (mloads nv (pattern_loads patterns)) url) as [fs|e'] eqn:MU; cbn [bind] in MT; [destruct (AE (eq_sym R))|]. inversion MT. reflexivity.
    + left. exists e'. split; [reflexivity|]. inversion MT; subst. exact (decode_err _ _ _ (le_n _) D).
Qed.
Lemma match_loop : forall srt nv all patterns, sorts srt -> forall lines, exists log,
  fold_left (match_line_log srt nv (mloads nv (pattern_loads patterns)) all) lines (0%N, []) = (N.of_nat (length lines), log) /\
  loop_log 5000 (u "[MATCHING]") (match_about nv patterns) lines log.
Proof.
  intros srt nv all patterns SO lines. induction lines as [|line lines (log & F & LL)] using rev_ind; [exists []; split; [reflexivity|constructor]|].
  rewrite fold_left_app, F. cbn [fold_left]. unfold match_line_log. destruct (speed_ok 5000 (u "[MATCHING]") (length lines) ltac:(reflexivity)) as (sp & SP & SC). rewrite SP.
  eexists. rewrite app_length, Nat.add_1_r. split; [reflexivity|]. constructor; [exact LL|exact SC|]. unfold match_about. pose proof (try_out srt nv all patterns (strip line) SO) as T.
  destruct (match_try srt nv (mloads nv (pattern_loads patterns)) all (strip line)) as [x|e].
  - destruct T as (url & fs & -> & ->). reflexivity.
  - destruct T as [(e' & -> & ->)|(url & -> & ->)]; [reflexivity|]. destruct (complain_cases e (strip line)) as [[I ->]|[I ->]]; auto.
Qed.
Theorem c66_match : forall srt nv all files inputs, sorts srt -> exists log, match_log srt nv all files inputs = snd (match_load_log nv files) ++ log /\
  loop_log 5000 (u "[MATCHING]") (match_about nv (input_lines (map snd files))) (input_lines inputs) log.
Proof.
  intros srt nv all files inputs SO. unfold match_log. destruct (c66_match_load nv files) as (l0 & E & _). rewrite E. cbn [snd]. rewrite load_lines. destruct (match_loop srt nv all (input_lines (map snd files)) SO (input_lines inputs)) as (log & F & LL). exists log. rewrite F. split; [reflexivity|exact LL].
Qed.
(** ** what is mentioned *)
Lemma mentioned_app : forall a b, mentioned (a ++ b) = mentioned a ++ mentioned b.
Proof. intros. unfold mentioned. apply flat_map_app. Qed.
Lemma loop_mentioned : forall k what (about : str -> list event -> Prop) (f : str -> str) (t : str -> bool) lines log, (forall line ev, about line ev -> mentioned ev = if t line then [f line] else []) ->
  loop_log k what about lines log -> mentioned log = map f (filter t lines).
Proof.
  intros k what about f t lines log H LL. induction LL as [|lines log line sp ev LL IH SP AB]; [reflexivity|]. rewrite !mentioned_app, filter_app, map_app, IH, (H _ _ AB).
  assert (Z : mentioned sp = []) by (destruct SP as [(j & _ & ->)|(_ & ->)]; reflexivity). rewrite Z. cbn [app filter]. f_equal. destruct (t line); reflexivity.
Qed.
Theorem c66_make_mentions : forall nv wm lines, mentioned (snd (make_load_log nv wm lines)) = map strip (filter (fun l => is_bad (kind_of_line nv l)) lines).
Proof.
  intros nv wm lines. destruct (c66_make_load nv wm lines) as (log & E & LL). rewrite E. cbn [snd]. rewrite mentioned_app. cbn [mentioned flat_map]. rewrite app_nil_r. revert LL. apply loop_mentioned.
  intros line ev A. unfold make_about in A. destruct (kind_of_line nv line); cbn [is_bad]; [subst; reflexivity| |subst; reflexivity]. destruct A as (e & _ & [(-> & _)|(-> & _)]); reflexivity.
Qed.
Theorem c66_load_mentions : forall nv files, mentioned (snd (match_load_log nv files)) = map rstrip (filter (fun l => match pkind_of nv l with PBad => true | _ => false end) (input_lines (map snd files))).
Proof.
  intros nv files. destruct (c66_match_load nv files) as (log & E & LL). rewrite E. cbn [snd]. match goal with |- mentioned (?x :: ?y) = _ => change (mentioned (x :: y)) with (mentioned y) end. rewrite mentioned_app. cbn [mentioned flat_map]. rewrite app_nil_r. revert LL. apply loop_mentioned.
  intros line ev A. unfold pattern_about in A. destruct (pkind_of nv line); [subst; reflexivity|subst; reflexivity|]. destruct A as (e & _ & _ & ->). reflexivity.
Qed.
Theorem c66_match_mentions : forall srt nv all files inputs, sorts srt -> let patterns := input_lines (map snd files) in
  mentioned (match_log srt nv all files inputs) = mentioned (snd (match_load_log nv files)) ++
    map strip (filter (fun line => startswith (match_line srt nv (match_load_lines nv patterns) all line) (u "E" ++ [9%N])) (input_lines inputs)).
Proof.
  intros srt nv all files inputs SO patterns. destruct (c66_match srt nv all files inputs SO) as (log & E & LL). rewrite E, mentioned_app. f_equal. revert LL. apply loop_mentioned. fold patterns.
  intros line ev A. unfold match_about in A. destruct (one_answer srt nv all patterns (strip line) SO) as (r & AN & R).
  assert (ML : match_line srt nv (match_load_lines nv patterns) all line = r ++ [9%N] ++ strip line ++ [10%N]) by (unfold match_line; cbv zeta; rewrite <- R; destruct (match_result srt nv (match_load_lines nv patterns) all (strip line)); reflexivity). rewrite ML.
  assert (SE : forall x : str, startswith (u "E" ++ [9%N] ++ x) (u "E" ++ [9%N]) = true) by (intros x; rewrite app_assoc; apply PackProofs.startswith_self).
  unfold answer in AN. destruct (utf8_decode (strip line)) as [url|e].
  2: { subst r ev. rewrite SE. reflexivity. }
  destruct (match_url nv (mloads nv (pattern_loads patterns)) url) as [fs|e].
  - subst ev. assert (NE : startswith (r ++ [9%N] ++ strip line ++ [10%N]) (u "E" ++ [9%N]) = false); [|rewrite NE; reflexivity]. destruct fs as [|f fs]; [subst r; reflexivity|].
    destruct AN as (m & p & ls & _ & FP & ER & NE). destruct ls as [|l ls]; [congruence|]. remember (if all then f :: fs else firstn 1 (srt found_lt (f :: fs))) as gs. destruct FP as [|g l' gs' ls' P _]; [congruence|].
    destruct P as (before & ln & after & s & _ & -> & PL & _). unfold pattern_line in PL. destruct (startswith (rstrip ln) (u "/")) eqn:SS; [|discriminate]. apply startswith_app in SS. rewrite ER, SS. destruct ls'; reflexivity.
  - subst r. rewrite SE. destruct A as [(-> & _)|(-> & _)]; reflexivity.
Qed.
(** ** the clusters *)
Theorem c66_clusters : forall nv mcn wm lines, (2 <= mcn)%Z -> exists cs,
  make mcn (loads nv (line_loads nv wm lines)) = Ok cs /\
  make_log nv mcn false wm lines = Ok (snd (make_load_log nv wm lines) ++ map (fun c => Clustered (Z.of_nat (length (paths (snd c))))) cs) /\
  list_sum (map (fun c => length (paths (snd c))) cs) = length (loaded nv (line_loads nv false lines)).
Proof.
  intros nv mcn wm lines M. destruct (c19 nv (line_loads nv wm lines) mcn M) as (cs & E). exists cs. split; [exact E|]. destruct (c66_make_load nv wm lines) as (log & ML & _). split.
  - unfold make_log. rewrite ML. cbn [snd]. unfold make_process_log. rewrite make_load_ok. cbn [fst]. rewrite E. cbn [bind]. f_equal. f_equal. apply map_ext_in. intros [m t] I. cbn [snd]. destruct (c20_count nv _ mcn cs m t M E I) as [C _]. rewrite C. reflexivity.
  - pose proof (Permutation_length (c20 nv _ mcn cs M E)) as P. rewrite <- (loaded_wm nv wm), <- P. clear. induction cs as [|c cs IH]; [reflexivity|]. cbn [map list_sum flat_map fold_right]. rewrite app_length, map_length, <- IH. reflexivity.
Qed.
Theorem c66_combined : forall nv mcn wm lines, (2 <= mcn)%Z ->
  make_log nv mcn true wm lines = Ok (snd (make_load_log nv wm lines) ++ map (fun sm => Clustered (Z.of_nat (length (distinct_paths nv (fst sm) (line_loads nv wm lines))))) (loads nv (line_loads nv wm lines))).
Proof.
  intros nv mcn wm lines M. destruct (c66_make_load nv wm lines) as (log & ML & _). unfold make_log. rewrite ML. cbn [snd]. unfold make_process_log. rewrite make_load_ok. cbn [fst]. set (h := line_loads nv wm lines).
  assert (X : forall l, incl l (loads nv h) -> mapM (fun sm : str * maker => c <- maker_combine mcn (snd sm) ;; Ok (Clustered (c_cnt c))) l = Ok (map (fun sm => Clustered (Z.of_nat (length (distinct_paths nv (fst sm) h)))) l)).
  { induction l as [|[sid mk] l IH]; intros I; [reflexivity|]. cbn [mapM map fst snd]. destruct (c32 nv h mcn sid mk M (I _ (or_introl eq_refl))) as (ts & ct & _ & E & C & _). rewrite E. cbn [bind]. cbn [ccnt_at] in C. rewrite C, IH; [reflexivity|]. intros y Y. apply I. right. exact Y. }
  rewrite X by (intros x I; exact I). reflexivity.
Qed.
Theorem c66_hash : forall nv line ev, host_ok nv [] -> strip line = u "#" -> make_about nv line ev -> ev = [Failed EIndex (u "#")].
Proof.
  intros nv line ev HO SL A. pose proof (c59_hash nv [] HO) as [H _]. cbv zeta in H. unfold make_about in A. rewrite kind_strip, SL in A. change (utf8_decode (u "#")) with (@Ok str (u "#")) in A. cbv iota in A.
  change (u "#") with ([35%N] : str) in *. pose proof (c15_new nv [] [35%N] None) as X. destruct (url_path nv [35%N]) as [[m raw]|]; [rewrite H in X; cbn [snd] in X; destruct X as [[X _]|[X _]]; discriminate|].
  destruct A as (e & LR & [(-> & I)|(-> & -> & _)]); [|reflexivity]. unfold load_raises in LR. change (utf8_decode [35%N]) with (@Ok str [35%N]) in LR. cbv iota in LR. specialize (LR [] None). rewrite H in LR. inversion LR; subst e. cbn in I. intuition discriminate.
Qed.
