(** C59: how texts that are not absolute URLs are read. *)
From Coq Require Import String.
From Verif Require Import PyStr Defs UrlLib ParseUtils Spec Views Trees Cluster Patterns Matcher Maker Format Cmd Observe GrammarSpec UrlSpec RefSpec PyStrProofs DefsProofs DictProofs RegexProofs PieceProofs QueryProofs UnitProofs BridgeProofs UrlProofs PackProofs DigestProofs LoadProofs PartProofs Grammar UrlExact.
From Coq Require Import Lia.

(** ** what urllib sees *)
Lemma dirt_unsafe : forall c, char_in c dirt = unsafe_char c.
Proof. intros c. unfold unsafe_char, dirt. cbn [char_in existsb]. destruct (N.eqb c 9), (N.eqb c 10), (N.eqb c 13); reflexivity. Qed.
Lemma lstrip_app : forall a b, Forall (fun c => (c <= 32)%N) a -> (forall c r, b = c :: r -> (32 < c)%N) -> lstrip_c0 (a ++ b) = b.
Proof.
  intros a b F H. induction F as [|c a C F IH]; cbn [app].
  - destruct b as [|c r]; [reflexivity|]. cbn [lstrip_c0]. specialize (H c r eq_refl). destruct (N.leb_spec c 32); [lia|reflexivity].
  - cbn [lstrip_c0]. destruct (N.leb_spec c 32); [exact IH|lia].
Qed.
Lemma lstrip_cut : forall s, exists a, s = a ++ lstrip_c0 s /\ Forall (fun c => (c <= 32)%N) a /\ forall c r, lstrip_c0 s = c :: r -> (32 < c)%N.
Proof.
  induction s as [|c s (a & E & F & H)]; [exists []; split; [reflexivity|]; split; [constructor|discriminate]|]. cbn [lstrip_c0]. destruct (N.leb_spec c 32) as [L|L].
  - exists (c :: a). split; [cbn [app]; rewrite <- E; reflexivity|]. split; [constructor; assumption|exact H].
  - exists []. split; [reflexivity|]. split; [constructor|]. intros c' r X. inversion X; subst. exact L.
Qed.
Lemma body_iff : forall url body, body_of url body <-> strip_unsafe (lstrip_c0 url) = body.
Proof.
  intros url body. assert (FE : forall s, filter (fun c => negb (char_in c dirt)) s = strip_unsafe s) by (intros s; unfold strip_unsafe; apply filter_ext; intros c; rewrite dirt_unsafe; reflexivity). split.
  - intros (a & b & -> & F & H & ->). pose proof (lstrip_app a b F H) as LA. unfold str, char in *. rewrite LA. symmetry. apply FE.
  - intros <-. destruct (lstrip_cut url) as (a & E & F & H). exists a, (lstrip_c0 url). split; [exact E|]. split; [exact F|]. split; [exact H|]. symmetry. apply FE.
Qed.
(** ** parameters *)
Lemma params_cut : forall p, (exists c, p = fst (split_params p) ++ 59%N :: c /\ ~ In 47%N c /\ (forall a b, fst (split_params p) = a ++ 59%N :: b -> In 47%N b)) \/
  (fst (split_params p) = p /\ forall a b, p = a ++ 59%N :: b -> In 47%N b).
Proof.
  intros p. destruct (in_dec N.eq_dec SLASH p) as [I|NI]; [exact (split_params_cut p I)|]. unfold split_params. pose proof (rfind_slash p) as R. destruct (rfind_char SLASH p) as [i|]; [destruct R as (a & b & -> & _); exfalso; apply NI, in_or_app; right; left; reflexivity|].
  destruct (cut 59%N p) as [[x y]|] eqn:C; cbn [fst].
  - left. apply cut_some in C. destruct C as [-> NX]. exists y. split; [reflexivity|]. split; [intros I; apply NI, in_or_app; right; right; exact I|]. intros a b ->. exfalso. apply NX, in_or_app. right. left. reflexivity.
  - right. split; [reflexivity|]. intros a b ->. apply cut_none in C. exfalso. apply C, in_or_app. right. left. reflexivity.
Qed.
Lemma cut_exact : forall scheme path path', cut_params (scheme_or_http scheme) path path' -> (forall s, scheme = Some s -> s <> []) ->
  fst (if str_in (map lower_char (or_empty scheme)) uses_params && char_in 59%N path then split_params path else (path, [])) = path'.
Proof.
  intros scheme path path' C NS.
  assert (U : str_in (map lower_char (or_empty scheme)) uses_params = true <-> In (map to_lower (scheme_or_http scheme)) param_schemes).
  { destruct scheme as [s|]; cbn [or_empty scheme_or_http]; [rewrite <- lower_eq; apply uses_params_in; specialize (NS s eq_refl); destruct s; [congruence|discriminate]|]. split; [intros _; vm_compute; tauto|reflexivity]. }
  destruct (str_in _ uses_params) eqn:SI; cbn [andb].
  - pose proof (proj1 U eq_refl) as I. destruct (char_in 59%N path) eqn:CI.
    + pose proof (params_cut path) as SP. destruct C as [[-> [X|X]]|(_ & X & c & E & NC)].
      * contradiction.
      * destruct SP as [(c & E & NC & _)|[E _]]; [|exact E]. exfalso. apply NC. exact (X _ _ E).
      * destruct SP as [(c' & E' & NC' & X')|[E' X']].
        -- rewrite E' in E at 1. exact (semi_unique _ _ _ _ E NC' NC X' X).
        -- exfalso. apply NC. exact (X' _ _ E).
    + cbn [fst]. destruct C as [[-> _]|(_ & _ & c & -> & _)]; [reflexivity|]. exfalso. assert (K : char_in 59%N (path' ++ u ";" ++ c) = true) by (apply char_in_In; apply in_or_app; right; left; reflexivity). congruence.
  - cbn [fst]. destruct C as [[-> _]|(X & _)]; [reflexivity|]. apply U in X. discriminate.
Qed.
Lemma cut_total : forall scheme path, exists path', cut_params scheme path path'.
Proof.
  intros scheme path. destruct (in_dec str_dec (map to_lower scheme) param_schemes) as [I|N0].
  - exists (fst (split_params path)). destruct (params_cut path) as [(c & E & NC & C)|(E & C)].
    + right. split; [exact I|]. split; [exact C|]. exists c. split; [exact E|exact NC].
    + left. split; [exact E|]. right. exact C.
  - exists path. left. split; [reflexivity|left; exact N0].
Qed.
(** ** urlparse *)
Lemma scheme_none : forall s, (forall a b, s = a ++ u ":" ++ b -> ~ scheme_text a) -> split_scheme s = ([], s).
Proof.
  intros s H. unfold split_scheme. destruct (cut 58%N s) as [[[|c a] b]|] eqn:C; [reflexivity| |reflexivity]. apply cut_some in C. destruct C as [E _].
  destruct ((is_lower c || is_upper c) && forallb scheme_char (c :: a)) eqn:X; [|reflexivity]. exfalso. apply (H (c :: a) b E). apply andb_true_iff in X. destruct X as [X1 X2]. split.
  - exists c, a. split; [reflexivity|]. apply in_or_app. apply orb_true_iff in X1. destruct X1 as [X1|X1]; [left|right; apply char_in_In; rewrite upper_in; exact X1].
    apply char_in_In. destruct (char_in c lowercase) eqn:K; [reflexivity|]. exfalso. assert (LT : (c < 128)%N) by (unfold is_lower in X1; apply andb_true_iff in X1; destruct X1 as [_ X1]; apply N.leb_le in X1; lia).
    pose proof (ascii_forall (fun c => implb (is_lower c) (char_in c lowercase)) ltac:(vm_compute; reflexivity) c LT) as Y. cbv beta in Y. rewrite X1, K in Y. discriminate.
  - apply Forall_forall. intros x I. rewrite forallb_forall in X2. specialize (X2 x I). apply char_in_In. destruct (lt_or_ge_128 x) as [LT|GE].
    + pose proof (ascii_forall (fun c => implb (scheme_char c) (char_in c (letters_digits ++ u "+-."))) ltac:(vm_compute; reflexivity) x LT) as Y. cbv beta in Y. rewrite X2 in Y. exact Y.
    + exfalso. unfold scheme_char in X2. apply orb_true_iff in X2. destruct X2 as [X2|X2].
      * unfold is_alnum, is_lower, is_upper, is_digit in X2. rewrite !orb_true_iff, !andb_true_iff, !N.leb_le in X2. lia.
      * apply char_in_In in X2. cbn in X2. lia.
Qed.
Section Ref.
  Context (nv : str -> bool) (body path path' : str) (scheme host q f : option str).
  Context (RF : reference body scheme host path q f) (CP : cut_params (scheme_or_http scheme) path path').
  Let tail := path ++ opt_text (u "?") q ++ opt_text (u "#") f.
  Lemma path_chars : ~ In 35%N path /\ ~ In 63%N path.
  Proof. destruct RF as (_ & _ & _ & FP & _). rewrite Forall_forall in FP. split; intros I; apply (FP _ I); cbn; auto. Qed.
  Lemma ref_scheme : split_scheme body = (map lower_char (or_empty scheme), opt_text (u "//") host ++ tail).
  Proof.
    destruct RF as (E & SC & _). destruct scheme as [s|]; cbn [or_empty map opt_scheme] in *.
    - destruct (scheme_facts _ SC) as (N58 & FB & (c0 & r0 & ES & CS) & _). assert (CC : cut 58%N body = Some (s, opt_text (u "//") host ++ tail)). { rewrite E, <- app_assoc. exact (cut_at 58%N s (opt_text (u "//") host ++ tail) N58). }
      unfold split_scheme. rewrite CC, ES, CS, <- ES, FB. reflexivity.
    - rewrite (scheme_none body SC), E. reflexivity.
  Qed.
  Lemma ref_netloc : (if startswith (opt_text (u "//") host ++ tail) (u "//") then break_netloc (skipn 2 (opt_text (u "//") host ++ tail)) else ([], opt_text (u "//") host ++ tail)) = (or_empty host, tail).
  Proof.
    destruct RF as (E & _ & HO & FP & _). destruct host as [h|]; cbn [opt_text or_empty].
    - destruct HO as [FH PS]. rewrite <- app_assoc, startswith_self. change (skipn 2 (u "//" ++ h ++ tail)) with (h ++ tail). apply break_at; [exact FH|]. unfold tail. destruct PS as [->|(r & ->)]; [|right; exists 47%N; eexists; split; [reflexivity|cbn; auto]]. cbn [app]. destruct q as [t|]; [right; exists 63%N; eexists; split; [reflexivity|cbn; auto]|]. destruct f as [t|]; [right; exists 35%N; eexists; split; [reflexivity|cbn; auto]|left; reflexivity].
    - cbn [app]. destruct (startswith tail (u "//")) eqn:SW; [|reflexivity]. exfalso. change (u "//") with [47; 47]%N in *. apply startswith_app in SW. unfold tail in SW. cbn [length] in SW. destruct path as [|c [|d p]]; cbn [app] in SW.
      + destruct q, f; discriminate SW.
      + inversion SW as [[X Y]]. destruct q, f; discriminate Y.
      + inversion SW; subst. apply (HO p). reflexivity.
  Qed.
  Lemma ref_urlparse : forall url, strip_unsafe (lstrip_c0 url) = body -> exists params, urlparse nv url = if negb (brackets_ok (or_empty host) && nv (or_empty host)) then Err EValue else
     Ok (PR (map lower_char (or_empty scheme)) (or_empty host) path' params (or_empty q) (or_empty f)).
  Proof.
    intros url ST. pose proof RF as (E & SC & HO & FP & NQ). destruct path_chars as [PN PQ]. exists (snd (if str_in (map lower_char (or_empty scheme)) uses_params && char_in 59%N path then split_params path else (path, []))). unfold urlparse. rewrite ST, ref_scheme. cbv iota beta. pose proof ref_netloc as F0.
    match goal with |- (let (_, _) := ?x in _) = _ => let y := match type of F0 with _ = ?z => z end in replace x with y by (symmetry; exact F0) end. cbv iota beta.
    destruct (negb (brackets_ok (or_empty host) && nv (or_empty host))); [reflexivity|].
    assert (C1 : cut NUMBER tail = match f with Some t => Some (path ++ opt_text (u "?") q, t) | None => None end).
    { unfold tail. rewrite app_assoc. assert (N0 : ~ In NUMBER (path ++ opt_text (u "?") q)).
      { intros I. apply in_app_or in I. destruct I as [I|I]; [exact (PN I)|]. destruct q as [t|]; [|exact I]. destruct I as [I|I]; [discriminate|exact (NQ t eq_refl I)]. }
      destruct f as [t|]; [exact (cut_at NUMBER _ t N0)|]. cbn [opt_text]. rewrite app_nil_r. apply cut_no. exact N0. }
    assert (C2 : cut QUESTION (path ++ opt_text (u "?") q) = match q with Some t => Some (path, t) | None => None end).
    { destruct q as [t|]; [exact (cut_at QUESTION path t PQ)|]. cbn [opt_text]. rewrite app_nil_r. apply cut_no. exact PQ. }
    assert (F1 : (match cut NUMBER tail with Some (a, b) => (a, b) | None => (tail, []) end) = (path ++ opt_text (u "?") q, or_empty f)).
    { rewrite C1. unfold tail. destruct f as [t|]; [reflexivity|]. cbn [opt_text]. rewrite app_nil_r. reflexivity. }
    match goal with |- (let (_, _) := ?x in _) = _ => let y := match type of F1 with _ = ?z => z end in replace x with y by (symmetry; exact F1) end. cbv iota beta.
    assert (F2 : (match cut QUESTION (path ++ opt_text (u "?") q) with Some (a, b) => (a, b) | None => (path ++ opt_text (u "?") q, []) end) = (path, or_empty q)).
    { rewrite C2. destruct q as [t|]; [reflexivity|]. cbn [opt_text]. rewrite app_nil_r. reflexivity. }
    match goal with |- (let (_, _) := ?x in _) = _ => let y := match type of F2 with _ = ?z => z end in replace x with y by (symmetry; exact F2) end. cbv iota beta.
    assert (NS : forall s, scheme = Some s -> s <> []). { intros s ->. destruct SC as ((c & r & -> & _) & _). discriminate. }
    pose proof (cut_exact scheme path path' CP NS) as CE.
    match goal with |- (let (_, _) := ?x in _) = _ => destruct x as [pa pr] eqn:EP end. cbv iota beta.
    cbn [fst snd] in *. subst pa. reflexivity.
  Qed.
End Ref.
(** ** every text has exactly one reading *)
Lemma app_inv_tail_no : forall c (a b a' b' : str), a ++ c :: b = a' ++ c :: b' -> ~ In c a -> ~ In c a' -> a = a' /\ b = b'.
Proof. intros c a b a' b' E N1 N2. pose proof (cut_at c a b N1) as K. pose proof (cut_at c a' b' N2) as K'. rewrite E in K. rewrite K in K'. inversion K'. auto. Qed.
Lemma not_double : forall path q f r, Forall (fun c => ~ In c (u "?#")) path -> path ++ opt_text (u "?") q ++ opt_text (u "#") f = u "//" ++ r -> exists p, path = u "//" ++ p.
Proof.
  intros path q f r FP E. change (u "//") with [47; 47]%N in *. destruct path as [|c [|d p]]; cbn [app] in E.
  - destruct q, f; discriminate E.
  - inversion E as [[X Y]]. destruct q, f; discriminate Y.
  - inversion E; subst. exists p. reflexivity.
Qed.
Lemma in_by : forall c (a b : str), a = b -> In c a -> In c b.
Proof. intros c a b ->. auto. Qed.
Lemma tail_unique : forall p q f p' q' f', p ++ opt_text (u "?") q ++ opt_text (u "#") f = p' ++ opt_text (u "?") q' ++ opt_text (u "#") f' ->
  Forall (fun c => ~ In c (u "?#")) p -> Forall (fun c => ~ In c (u "?#")) p' -> (forall t, q = Some t -> ~ In 35%N t) -> (forall t, q' = Some t -> ~ In 35%N t) -> p = p' /\ q = q' /\ f = f'.
Proof.
  intros p q f p' q' f' E F F' NQ NQ'.
  assert (PC : forall w, Forall (fun c => ~ In c (u "?#")) w -> ~ In 35%N w /\ ~ In 63%N w) by (intros w FW; rewrite Forall_forall in FW; split; intros I; apply (FW _ I); cbn; auto).
  destruct (PC _ F) as [P1 P2], (PC _ F') as [P1' P2'].
  assert (N1 : forall w o, ~ In 35%N w -> (forall t, o = Some t -> ~ In 35%N t) -> ~ In 35%N (w ++ opt_text (u "?") o)).
  { intros w o NW NO I. apply in_app_or in I. destruct I as [I|I]; [exact (NW I)|]. destruct o as [t|]; [|exact I]. destruct I as [I|I]; [discriminate|exact (NO t eq_refl I)]. }
  pose proof (N1 p q P1 NQ) as M. pose proof (N1 p' q' P1' NQ') as M'. rewrite !app_assoc in E.
  assert (E1 : p ++ opt_text (u "?") q = p' ++ opt_text (u "?") q' /\ f = f').
  { destruct f as [t|], f' as [t'|]; cbn [opt_text] in E; rewrite ?app_nil_r in E.
    - apply app_inv_tail_no in E; [|exact M|exact M']. destruct E as [-> ->]. auto.
    - exfalso. apply M'. apply (in_by _ _ _ E). apply in_or_app. right. left. reflexivity.
    - exfalso. apply M. apply (in_by _ _ _ (eq_sym E)). apply in_or_app. right. left. reflexivity.
    - auto. }
  destruct E1 as [E1 ->]. destruct q as [t|], q' as [t'|]; cbn [opt_text] in E1; rewrite ?app_nil_r in E1.
  - apply app_inv_tail_no in E1; [|exact P2|exact P2']. destruct E1 as [-> ->]. auto.
  - exfalso. apply P2'. apply (in_by _ _ _ E1). apply in_or_app. right. left. reflexivity.
  - exfalso. apply P2. apply (in_by _ _ _ (eq_sym E1)). apply in_or_app. right. left. reflexivity.
  - auto.
Qed.
Lemma ref_unique : forall body s h p q f s' h' p' q' f', reference body s h p q f -> reference body s' h' p' q' f' -> s = s' /\ h = h' /\ p = p' /\ q = q' /\ f = f'.
Proof.
  intros body s h p q f s' h' p' q' f' (E & SC & HO & FP & NQ) (E' & SC' & HO' & FP' & NQ').
  assert (X : s = s' /\ opt_text (u "//") h ++ p ++ opt_text (u "?") q ++ opt_text (u "#") f = opt_text (u "//") h' ++ p' ++ opt_text (u "?") q' ++ opt_text (u "#") f').
  { rewrite E' in E. destruct s as [s|], s' as [s'|]; cbn [opt_scheme] in *.
    - destruct (scheme_facts _ SC) as (N58 & _), (scheme_facts _ SC') as (N58' & _). rewrite <- !app_assoc in E. apply app_inv_tail_no in E; [|exact N58'|exact N58]. destruct E as [-> ->]. auto.
    - exfalso. rewrite E' in SC'. rewrite E in SC'. rewrite <- app_assoc in SC'. exact (SC' _ _ eq_refl SC).
    - exfalso. rewrite E' in SC. rewrite <- app_assoc in SC. exact (SC _ _ eq_refl SC').
    - cbn [app] in E. auto. }
  destruct X as [-> X]. clear E E'.
  assert (BT : forall w q f, (w = [] \/ exists r, w = u "/" ++ r) -> w ++ opt_text (u "?") q ++ opt_text (u "#") f = [] \/ exists c r, w ++ opt_text (u "?") q ++ opt_text (u "#") f = c :: r /\ In c (u "/?#")).
  { intros w q0 f0 [->|(r & ->)]; [|right; exists 47%N; eexists; split; [reflexivity|cbn; auto]]. cbn [app]. destruct q0 as [t|]; [right; exists 63%N; eexists; split; [reflexivity|cbn; auto]|]. destruct f0 as [t|]; [right; exists 35%N; eexists; split; [reflexivity|cbn; auto]|left; reflexivity]. }
  assert (Y : h = h' /\ p ++ opt_text (u "?") q ++ opt_text (u "#") f = p' ++ opt_text (u "?") q' ++ opt_text (u "#") f').
  { destruct h as [h|], h' as [h'|]; cbn [opt_text] in X.
    - destruct HO as [FH PS], HO' as [FH' PS']. rewrite <- !app_assoc in X. apply app_inv_head in X. pose proof (break_at _ _ FH (BT p q f PS)) as B. pose proof (break_at _ _ FH' (BT p' q' f' PS')) as B'.
      assert (BE : forall a b, a = b -> break_netloc a = break_netloc b) by (intros a b ->; reflexivity). apply BE in X. pose proof (eq_trans (eq_sym B) (eq_trans X B')) as Z. inversion Z. auto.
    - exfalso. cbn [app] in X. rewrite <- app_assoc in X. symmetry in X. destruct (not_double p' q' f' _ FP' X) as (r & R). exact (HO' r R).
    - exfalso. cbn [app] in X. rewrite <- app_assoc in X. destruct (not_double p q f _ FP X) as (r & R). exact (HO r R).
    - cbn [app] in X. auto. }
  destruct Y as [-> Y]. destruct (tail_unique _ _ _ _ _ _ Y FP FP' NQ NQ') as (-> & -> & ->). auto.
Qed.
Lemma tail_exists : forall t, exists p q f, t = p ++ opt_text (u "?") q ++ opt_text (u "#") f /\ Forall (fun c => ~ In c (u "?#")) p /\ (forall t, q = Some t -> ~ In 35%N t).
Proof.
  intros t. assert (X : exists a f, t = a ++ opt_text (u "#") f /\ ~ In 35%N a).
  { destruct (cut 35%N t) as [[a b]|] eqn:C; [apply cut_some in C; destruct C as [-> N0]; exists a, (Some b); auto|]. apply cut_none in C. exists t, None. cbn [opt_text]. rewrite app_nil_r. auto. }
  destruct X as (a & f & -> & NA). destruct (cut 63%N a) as [[x y]|] eqn:C.
  - apply cut_some in C. destruct C as [-> N0]. exists x, (Some y), f. split; [cbn [opt_text]; rewrite <- !app_assoc; reflexivity|]. split.
    + apply Forall_forall. intros c I [<-|[<-|[]]]; [exact (N0 I)|]. apply NA. apply in_or_app. left. exact I.
    + intros z Z I. inversion Z; subst. apply NA. apply in_or_app. right. right. exact I.
  - apply cut_none in C. exists a, None, f. split; [reflexivity|]. split; [|discriminate]. apply Forall_forall. intros c I [<-|[<-|[]]]; contradiction.
Qed.
Lemma scheme_dec : forall s, {scheme_text s} + {~ scheme_text s}.
Proof.
  intros s. destruct s as [|c r]; [right; intros ((? & ? & X & _) & _); discriminate|].
  destruct (in_dec N.eq_dec c (lowercase ++ uppercase)) as [I|N0]; [|right; intros ((? & ? & X & I) & _); inversion X; subst; contradiction].
  destruct (Forall_dec (fun c => In c (letters_digits ++ u "+-.")) (fun x => in_dec N.eq_dec x _) (c :: r)) as [F|F]; [left; split; [eauto|exact F]|right; intros [_ F']; contradiction].
Qed.
Lemma ref_exists : forall body, exists s h p q f, reference body s h p q f.
Proof.
  intros body.
  assert (X : exists s t, body = opt_scheme s ++ t /\ match s with Some s => scheme_text s | None => forall a b, body = a ++ u ":" ++ b -> ~ scheme_text a end).
  { destruct (cut 58%N body) as [[a b]|] eqn:C.
    - apply cut_some in C. destruct C as [-> N0]. destruct (scheme_dec a) as [Y|Y]; [exists (Some a), b; split; [cbn [opt_scheme]; rewrite <- app_assoc; reflexivity|exact Y]|].
      exists None, (a ++ 58%N :: b). split; [reflexivity|]. intros a' b' E SA. destruct (scheme_facts _ SA) as (N58 & _). apply app_inv_tail_no in E; [|exact N0|exact N58]. destruct E as [-> _]. contradiction.
    - apply cut_none in C. exists None, body. split; [reflexivity|]. intros a b E. exfalso. apply C. rewrite E. apply in_or_app. right. left. reflexivity. }
  destruct X as (s & t & E & SC).
  destruct (startswith t (u "//")) eqn:SW.
  - apply startswith_app in SW. cbn [length] in SW. destruct (break_netloc_spec (skipn 2 t)) as [E2 _]. set (h := fst (break_netloc (skipn 2 t))) in *. set (w := snd (break_netloc (skipn 2 t))) in *.
    assert (HB : Forall (fun c => ~ In c (u "/?#")) h /\ (w = [] \/ exists c r, w = c :: r /\ In c (u "/?#"))).
    { unfold h, w. generalize (skipn 2 t). induction l as [|c l IH]; [split; [constructor|left; reflexivity]|]. cbn [break_netloc]. destruct (netloc_end c) eqn:NE; cbn [fst snd].
      - split; [constructor|]. right. exists c, l. split; [reflexivity|]. apply char_in_In. exact NE.
      - destruct (break_netloc l) as [x y]. cbn [fst snd] in *. destruct IH as [I1 I2]. split; [|exact I2]. constructor; [|exact I1]. intros I. apply char_in_In in I. unfold netloc_end in NE. congruence. }
    destruct HB as [FH WS]. clearbody h w. destruct (tail_exists w) as (p & q & f & E3 & FP & NQ). exists s, (Some h), p, q, f. split; [|split; [exact SC|split; [split; [exact FH|]|split; [exact FP|exact NQ]]]].
    + rewrite E, SW. cbn [opt_text]. rewrite <- app_assoc. f_equal. f_equal. rewrite <- E3. exact E2.
    + destruct p as [|c p]; [left; reflexivity|]. right. exists p. destruct WS as [WS|(c' & r & WS & I)]; [rewrite WS in E3; discriminate E3|]. rewrite WS in E3. cbn [app] in E3. inversion E3; subst c'. inversion FP as [|? ? K _]; subst. cbn in K. destruct I as [<-|[<-|[<-|[]]]]; [reflexivity| |]; exfalso; apply K; auto.
  - destruct (tail_exists t) as (p & q & f & E3 & FP & NQ). exists s, None, p, q, f. split; [rewrite E, E3; reflexivity|]. split; [exact SC|]. split; [|split; [exact FP|exact NQ]].
    intros r ->. rewrite E3, <- app_assoc, startswith_self in SW. discriminate.
Qed.
(** ** parse_url *)
Lemma body_in : forall url body c, body_of url body -> In c url -> (32 < c)%N -> In c body.
Proof.
  intros url body c (a & b & -> & F & _ & ->) I L. apply in_app_or in I. destruct I as [I|I]; [exfalso; rewrite Forall_forall in F; specialize (F _ I); cbn in F; lia|].
  apply filter_In. split; [exact I|]. apply negb_true_iff. apply char_in_false. cbn. lia.
Qed.
Lemma py_index_in : forall (l : str) i c, py_index l i = Ok c -> In c l.
Proof.
  intros l i c. unfold py_index. repeat match goal with |- context [if ?b then _ else _] => destruct b | |- context [match ?x with _ => _ end] => destruct x eqn:?X end; intros H; inversion H; subst; eapply nth_error_In; eassumption.
Qed.
Lemma py_index_end : forall (l : str), l <> [] -> exists c, py_index l (-1) = Ok c.
Proof. intros l N0. destruct (snoc_cases _ l) as [Z|(w & x & ->)]; [contradiction|]. exists x. apply py_index_last. Qed.
Lemma filter_true : forall A (t : A -> bool) l, (forall x, In x l -> t x = true) -> filter t l = l.
Proof. intros A t l. induction l as [|x l IH]; intros H; [reflexivity|]. cbn [filter]. rewrite (H x (or_introl eq_refl)). f_equal. apply IH. intros y I. apply H. right. exact I. Qed.
Lemma ref_bad : forall nv url body s h p p' q f, body_of url body -> reference body s h p q f -> cut_params (scheme_or_http s) p p' -> ~ host_ok nv (or_empty h) -> parse_url nv url = Err EValue.
Proof.
  intros nv url body s h p p' q f BO RF CP HO. pose proof (proj1 (body_iff _ _) BO) as ST. destruct (ref_urlparse nv body p p' s h q f RF CP url ST) as (params & UP).
  unfold parse_url. rewrite UP. assert (HB : brackets_ok (or_empty h) && nv (or_empty h) = false) by (destruct (brackets_ok (or_empty h) && nv (or_empty h)) eqn:B; [exfalso; apply HO; apply host_okb; exact B|reflexivity]). rewrite HB. reflexivity.
Qed.
(** ** analyze_url *)
Lemma split_no : forall c s, ~ In c s -> split_char c s = [s].
Proof. intros c s. induction s as [|x s IH]; intros N0; [reflexivity|]. cbn [split_char]. destruct (N.eqb_spec x c) as [->|_]; [exfalso; apply N0; left; reflexivity|]. rewrite IH by (intros I; apply N0; right; exact I). reflexivity. Qed.
Lemma split_tl : forall c a b, ~ In c a -> tl (split_char c (a ++ c :: b)) = split_char c b.
Proof.
  intros c a b N0. assert (K : split_char c (a ++ c :: b) = a :: split_char c b); [|rewrite K; reflexivity]. induction a as [|x a IH]; cbn [app split_char].
  - rewrite N.eqb_refl. reflexivity.
  - destruct (N.eqb_spec x c) as [->|_]; [exfalso; apply N0; left; reflexivity|]. rewrite IH by (intros I; apply N0; right; exact I). reflexivity.
Qed.
Lemma path_split : forall p : str, ~ In 47%N p \/ exists a b, p = a ++ 47%N :: b /\ ~ In 47%N a.
Proof. intros p. destruct (cut 47%N p) as [[a b]|] eqn:C; [right; apply cut_some in C; destruct C as [-> N0]; eauto|left; apply cut_none; exact C]. Qed.
Section Load.
  Context (nv : str -> bool) (url body : str) (s h : option str) (p p' : str) (q f : option str).
  Context (BO : body_of url body) (RF : reference body s h p q f) (CP : cut_params (scheme_or_http s) p p') (NS : forall r, url <> 47%N :: r).
  Lemma not_slash : startswith url [SLASH] = false.
  Proof. destruct (startswith url [SLASH]) eqn:X; [|reflexivity]. exfalso. apply startswith_app in X. exact (NS _ X). Qed.
  Lemma bad_host : ~ host_ok nv (or_empty h) -> parse nv url = Err EValue.
  Proof. intros HO. unfold parse. rewrite not_slash. unfold analyze_url. rewrite (ref_bad nv url body s h p p' q f BO RF CP HO). reflexivity. Qed.
  Lemma cut_rest : forall scheme x y, cut_params scheme x y -> exists t, x = y ++ t.
  Proof. intros scheme x y [[-> _]|(_ & _ & c & -> & _)]; [exists []; rewrite app_nil_r; reflexivity|eauto]. Qed.
  Lemma body_clean : Forall (fun c => ~ In c [9; 10; 13]%N) body.
  Proof. destruct BO as (a & b & _ & _ & _ & ->). apply Forall_forall. intros c I. apply filter_In in I. destruct I as [_ I]. apply negb_true_iff in I. apply char_in_false in I. exact I. Qed.
End Load.
Lemma load_of_parse : forall nv st url url0 me, parse nv url = parse nv url0 -> load nv st url me = load nv st url0 me.
Proof. intros nv st url url0 me E. unfold load. rewrite E. reflexivity. Qed.
Lemma match_of_parse : forall nv st url url0, parse nv url = parse nv url0 -> match_url nv st url = match_url nv st url0.
Proof. intros nv st url url0 E. unfold match_url. rewrite E. reflexivity. Qed.
Lemma c59_reads : forall url, exists body s h p q f p', body_of url body /\ reference body s h p q f /\ cut_params (scheme_or_http s) p p'.
Proof.
  intros url. destruct (ref_exists (strip_unsafe (lstrip_c0 url))) as (s & h & p & q & f & RF). destruct (cut_total (scheme_or_http s) p) as (p' & CP).
  exists (strip_unsafe (lstrip_c0 url)), s, h, p, q, f, p'. split; [apply body_iff; reflexivity|]. split; assumption.
Qed.
Lemma c59_unique : forall url body s h p q f p' body2 s2 h2 p2 q2 f2 p2',
  body_of url body -> reference body s h p q f -> cut_params (scheme_or_http s) p p' ->
  body_of url body2 -> reference body2 s2 h2 p2 q2 f2 -> cut_params (scheme_or_http s2) p2 p2' ->
  body = body2 /\ s = s2 /\ h = h2 /\ p = p2 /\ q = q2 /\ f = f2 /\ p' = p2'.
Proof.
  intros url body s h p q f p' body2 s2 h2 p2 q2 f2 p2' BO RF CP BO2 RF2 CP2. apply body_iff in BO, BO2. rewrite BO in BO2. subst body2.
  destruct (ref_unique _ _ _ _ _ _ _ _ _ _ _ RF RF2) as (-> & -> & -> & -> & ->). repeat (split; [reflexivity|]).
  assert (NS : forall x, s2 = Some x -> x <> []). { intros x ->. destruct RF2 as (_ & ((c & r & -> & _) & _) & _). discriminate. }
  rewrite <- (cut_exact _ _ _ CP NS). exact (cut_exact _ _ _ CP2 NS).
Qed.
Lemma c59_slash : forall nv st r me, exists e, load nv st (47%N :: r) me = (st, Err e).
Proof.
  intros nv st r me. unfold load. destruct (parse nv (47%N :: r)) as [[m [l|l]]|e] eqn:E; [exfalso| |eauto].
  - unfold parse in E. assert (SW : startswith (47%N :: r) [SLASH] = true) by (destruct r; reflexivity). rewrite SW in E. destruct (analyze_url_pattern_string (47%N :: r)) as [[m0 ps]|e]; cbn [bind] in E; [|discriminate]. destruct (mk_patterns 1 (path_depth m0) ps); cbn [bind] in E; discriminate.
  - destruct l; eauto.
Qed.
(** the two kinds of text whose end parse_url cannot read *)
Lemma c59_empty : forall nv, host_ok nv [] -> (forall st me, load nv st [] me = (st, Err EIndex)) /\ forall st, match_url nv st [] = Err EIndex.
Proof.
  intros nv HO. assert (E : parse nv [] = Err EIndex). { apply host_okb in HO. unfold parse, analyze_url, parse_url, urlparse. cbn [startswith]. change (strip_unsafe (lstrip_c0 [])) with (@nil char). cbn. cbn in HO. rewrite HO. reflexivity. }
  split; [intros st me; unfold load; rewrite E; reflexivity|intros st; unfold match_url; rewrite E; reflexivity].
Qed.
Lemma strip_length : forall s, length (strip_unsafe s) <= length s.
Proof. induction s as [|c s IH]; [reflexivity|]. unfold strip_unsafe in *. cbn [filter]. destruct (negb (unsafe_char c)); cbn [length]; lia. Qed.
Lemma py_index_ok : forall (l : str) i, (- Z.of_nat (length l) <= i < Z.of_nat (length l))%Z -> exists c, py_index l i = Ok c.
Proof.
  intros l i H. unfold py_index. cbv zeta. set (j := if (i <? 0)%Z then (i + Z.of_nat (length l))%Z else i). assert (J : (0 <= j < Z.of_nat (length l))%Z) by (unfold j; destruct (Z.ltb_spec i 0); lia).
  destruct (Z.ltb_spec j 0) as [X|_]; [lia|]. destruct (nth_error l (Z.to_nat j)) as [c|] eqn:E; [eauto|]. apply nth_error_None in E. lia.
Qed.
Lemma c59_hash : forall nv r, host_ok nv [] -> let e := match r with [] => EIndex | _ => EIrregularURL end in
  (forall st me, load nv st (35%N :: r) me = (st, Err e)) /\ forall st, match_url nv st (35%N :: r) = Err e.
Proof.
  intros nv r HO e. assert (E : parse nv (35%N :: r) = Err e).
  { set (r' := strip_unsafe r). assert (ST : strip_unsafe (lstrip_c0 (35%N :: r)) = 35%N :: r') by reflexivity.
    assert (RF : reference (35%N :: r') None None [] None (Some r')).
    { split; [reflexivity|]. split; [|split; [discriminate|split; [constructor|discriminate]]]. intros a b EA ((c & w & -> & IC) & _). inversion EA; subst. apply char_in_In in IC. discriminate. }
    assert (CP : cut_params (scheme_or_http None) [] []) by (left; split; [reflexivity|]; right; intros a b X; destruct a; discriminate).
    destruct (ref_urlparse nv _ _ _ _ _ _ _ RF CP (35%N :: r) ST) as (params & UP). cbn [or_empty] in UP. apply host_okb in HO. rewrite HO in UP. cbn [negb] in UP.
    assert (SW : startswith (35%N :: r) [SLASH] = false) by reflexivity. unfold parse. rewrite SW. unfold analyze_url, parse_url. rewrite UP. cbn [bind pr_query pr_fragment pr_scheme pr_netloc pr_path pr_params].
    assert (LR : length r' <= length r) by apply strip_length. destruct r as [|c r]; [reflexivity|]. clearbody r'.
    assert (P : forall i, (- 2 <= i <= -1)%Z -> exists c', py_index (35%N :: c :: r) i = Ok c') by (intros i H; apply py_index_ok; cbn [length]; lia).
    destruct (P (-1)%Z ltac:(lia)) as (c1 & P1), (P (-2)%Z ltac:(lia)) as (c2 & P2).
    destruct r' as [|d r']; cbn [is_nil].
    - rewrite P1, P2. cbn [bind]. destruct (negb (N.eqb c1 NUMBER)), (negb (N.eqb c2 QUESTION)), (negb (N.eqb c1 QUESTION)); cbn [bind up_path]; reflexivity.
    - match goal with |- context [py_index ?l ?i] => destruct (py_index_ok l i) as (c3 & P3); [unfold str, char in *; cbn [length] in *; lia|] end. rewrite P3. cbn [bind]. destruct (negb (N.eqb c3 QUESTION)); reflexivity. }
  split; [intros st me; unfold load; rewrite E; reflexivity|intros st; unfold match_url; rewrite E; reflexivity].
Qed.
