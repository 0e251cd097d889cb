(** C35: what pattern-match writes. *)
From Coq Require Import String.
From Verif Require Import PyStr Defs UrlLib ParseUtils Spec Views Trees Cluster Patterns Matcher Maker Format Cmd Observe MatchSpec OrderSpec CmdSpec PyStrProofs DefsProofs DictProofs RegexProofs PieceProofs LengthProofs UnitProofs BridgeProofs UrlProofs LoadProofs CmdProofs MatchVms MatchTree MatchSem MatchLevel MatchNest MatchDigest MatchSound MatchTop MatchReload MatchPos MatchBest Utf8.
From Coq Require Import Lia Permutation Sorted.

(** ** a string that starts with '/' in match() *)
Lemma match_history_pat : forall nv h s0 m ps0 fs path node, pat_parse nv s0 = Some (m, ps0) -> match_url nv (mloads nv h) s0 = Ok fs -> In (path, node) fs ->
  exists s mt sid, sid = parsed_digest m (PPat path) /\ In (s, mt) h /\ pat_parse nv s = Some (m, path) /\ node = found_node inner1 path empty_match_pattern (mhist nv sid h).
Proof.
  intros nv h s0 m ps0 fs path node U M I. destruct (pat_parse_ok _ _ _ _ U) as (_ & _ & P). unfold match_url in M. rewrite P in M. cbn [bind] in M. rewrite mloads_get in M. set (sid := parsed_digest m (PPat ps0)) in *.
  destruct (the_matcher nv sid h) as [x|] eqn:T; [|inversion M; subst; destruct I]. assert (R : mm_root x = mroot nv sid h). { unfold the_matcher in T. destruct (mentries nv sid h) as [|[m' e] r]; [discriminate|]. inversion T. reflexivity. }
  rewrite R, nmatch2 in M. cbn [match_objs] in M. unfold mroot in M.
  assert (UNI : uniform (length ps0) (mhist nv sid h)).
  { apply Forall_forall. intros [qs me] Q. cbn [fst]. apply mhist_In in Q. destruct Q as (s & m' & mt & _ & Q & D & _). destruct (pat_digest_inj _ _ _ _ _ _ _ U Q (eq_sym D)) as [_ E]. apply (f_equal (@length _)) in E. rewrite !map_length in E. auto. }
  destruct (nmatch_sound inner1 mp_ok regok1 im1 _ _ _ _ (mhist_ok nv sid h) M _ _ I) as (NE & H & N).
  assert (LEN : length path = length ps0). { rewrite (nmatch_full inner1 mp_ok regok1 im1 (map (fun _ => None) ps0) empty_match_pattern (mhist nv sid h) fs (mhist_ok nv sid h)) with (path := path) (k := node); [rewrite !map_length; reflexivity|rewrite !map_length; exact UNI|exact M|exact I]. }
  pose proof (hits_descend inner1 im1 _ _ _ H NE) as DN. assert (D0 : uniform 0 (descend path (mhist nv sid h))) by (apply descend_uniform; rewrite Nat.add_0_r, LEN; exact UNI).
  destruct (descend path (mhist nv sid h)) as [|[r me] l] eqn:DE; [congruence|]. assert (r = []) by (inversion D0 as [|? ? X _]; subst; cbn [fst] in X; destruct r; [reflexivity|discriminate]). subst r.
  destruct (descend_In path (mhist nv sid h) [] me) as (qs & E & J); [rewrite DE; left; reflexivity|]. pose proof (hits_path inner1 im1 _ _ _ _ _ _ H (mhist_coherent nv sid h) J E) as ->. rewrite app_nil_r in J.
  pose proof J as K. apply mhist_In in K. destruct K as (s & m' & mt & K1 & K2 & K3 & K4). destruct (pat_digest_inj _ _ _ _ _ _ _ U K2 (eq_sym K3)) as [<- EF]. exists s, mt, sid. repeat (split; [first [assumption|symmetry; assumption]|]). unfold found_node. rewrite DE. exact N.
Qed.
Lemma found_meta : forall nv m path s h node, pat_parse nv s = Some (m, path) -> node = found_node inner1 path empty_match_pattern (mhist nv (parsed_digest m (PPat path)) h) ->
  exists o, m_meta node = option_map MUser o /\ last_meta h (m, map mp_str path) o.
Proof.
  intros nv m path s h node PP ->. destruct (lm_last nv m path s h PP) as (o & E & L). exists o. split; [|exact L].
  unfold found_node. rewrite (grow_eq inner1 mp_ok regok1). { cbn [m_meta]. rewrite lm_descend. exact E. }
  assert (G : forall p hist, hist_ok mp_ok hist -> hist_ok mp_ok (descend p hist)). { induction p as [|q p IH]; intros hist OK; [exact OK|]. unfold descend. cbn [fold_left]. apply IH. apply tails_ok. exact OK. }
  apply G. apply mhist_ok.
Qed.
(** a result of match(), whatever the string *)
Lemma any_found : forall nv h url fs f, match_url nv (mloads nv h) url = Ok fs -> In f fs ->
  exists m p s mt o, parse nv url = Ok (m, p) /\ In (s, mt) h /\ same_pattern (m, map mp_str (fst f)) s /\ m_meta (snd f) = option_map MUser o /\ last_meta h (m, map mp_str (fst f)) o.
Proof.
  intros nv h url fs [path node] M I. cbn [fst snd]. destruct (url_path nv url) as [[m raw]|] eqn:U.
  - destruct (match_history _ _ _ _ _ _ _ _ U M I) as (s & mt & sid & -> & IS & PP & _ & _ & _ & N). destruct (found_meta nv m path s h node PP N) as (o & O1 & O2). destruct (url_path_parse _ _ _ _ U) as (_ & _ & P).
    exists m, (PUrl (map pp_of raw)), s, mt, o. destruct (pat_parse_analyze _ _ _ _ PP) as (A & B & _). repeat (split; [first [assumption|split; assumption]|]). exact O2.
  - destruct (url_path_none nv url U) as [(e & P)|(m & ms & P)]; [unfold match_url in M; rewrite P in M; discriminate|].
    destruct ms as [|q ms].
    + unfold match_url in M. rewrite P in M. cbn [bind match_objs map] in M. destruct (dget str_eqb (parsed_digest m (PPat [])) (mloads nv h)); [discriminate|]. injection M as <-. destruct I.
    + assert (PP0 : pat_parse nv url = Some (m, q :: ms)) by (unfold pat_parse; rewrite P; reflexivity).
      destruct (match_history_pat nv h url m _ fs path node PP0 M I) as (s & mt & sid & -> & IS & PP & N). destruct (found_meta nv m path s h node PP N) as (o & O1 & O2).
      exists m, (PPat (q :: ms)), s, mt, o. destruct (pat_parse_analyze _ _ _ _ PP) as (A & B & _). repeat (split; [first [assumption|split; assumption]|]). exact O2.
Qed.

(** ** the pattern files *)
Lemma load_lines_gen : forall nv lines st, fold_left (match_load_line nv) lines st = fold_left (fun st l => fst (match_load nv st (fst l) (snd l))) (pattern_loads lines) st.
Proof.
  intros nv lines. induction lines as [|l lines IH]; intros st; [reflexivity|]. cbn [fold_left pattern_loads flat_map]. rewrite fold_left_app. fold (pattern_loads lines). rewrite IH. f_equal.
  unfold match_load_line, pattern_line. change (u "/") with [47%N]. destruct (startswith (rstrip l) [47%N]); cbn [negb]; [|reflexivity]. destruct (utf8_decode (rstrip l)); reflexivity.
Qed.
Lemma load_lines : forall nv lines, match_load_lines nv lines = mloads nv (pattern_loads lines).
Proof. intros. apply load_lines_gen. Qed.
Lemma loads_split : forall lines h1 s x h2, pattern_loads lines = h1 ++ (s, Some x) :: h2 ->
  x = s /\ exists before line after, lines = before ++ line :: after /\ pattern_line line = Some s /\ h2 = pattern_loads after.
Proof.
  induction lines as [|l lines IH]; intros h1 s x h2 E; [destruct h1; discriminate|]. cbn [pattern_loads flat_map] in E. fold (pattern_loads lines) in E. destruct (pattern_line l) as [t|] eqn:PL; cbn [app] in E.
  - destruct h1 as [|e h1]; cbn [app] in E.
    + injection E as E1 E2 E3. subst. split; [reflexivity|]. exists [], l, lines. auto.
    + injection E as E1 E2. destruct (IH h1 s x h2 E2) as (X & b & ln & a & -> & P & Q). split; [exact X|]. exists (l :: b), ln, a. auto.
  - destruct (IH h1 s x h2 E) as (X & b & ln & a & -> & P & Q). split; [exact X|]. exists (l :: b), ln, a. auto.
Qed.
Lemma loads_In : forall lines s mt, In (s, mt) (pattern_loads lines) <-> mt = Some s /\ exists line, In line lines /\ pattern_line line = Some s.
Proof.
  intros lines s mt. unfold pattern_loads. rewrite in_flat_map. split.
  - intros (line & I & J). destruct (pattern_line line) as [t|] eqn:P; [|destruct J]. destruct J as [J|[]]. injection J as -> <-. split; [reflexivity|]. exists line. auto.
  - intros (-> & line & I & P). exists line. split; [exact I|]. rewrite P. left. reflexivity.
Qed.
Lemma pattern_line_bytes : forall line s, pattern_line line = Some s -> utf8_encode s = Ok (rstrip line) /\ rstrip line <> [].
Proof.
  intros line s H. unfold pattern_line in H. destruct (startswith (rstrip line) (u "/")) eqn:S; [|discriminate]. destruct (utf8_decode (rstrip line)) as [t|] eqn:D; [|discriminate]. injection H as ->. split; [apply utf8_iff; exact D|]. intros E. rewrite E in S. discriminate.
Qed.
Lemma meta_printed : forall patterns m f o s mt, In (s, mt) (pattern_loads patterns) -> same_pattern (m, map mp_str (fst f)) s -> last_meta (pattern_loads patterns) (m, map mp_str (fst f)) o ->
  exists x l, o = Some x /\ utf8_encode x = Ok l /\ l <> [] /\ printed patterns m f l.
Proof.
  intros patterns m f o s mt I SP LM. apply loads_In in I. destruct I as (-> & line0 & I & P0). destruct o as [x|]; cbn [last_meta] in LM.
  - destruct LM as (h1 & t & h2 & E & ST & LATER). destruct (loads_split _ _ _ _ _ E) as (-> & b & ln & a & EP & PL & ->). destruct (pattern_line_bytes _ _ PL) as [EN NN]. exists t, (rstrip ln). split; [reflexivity|]. split; [exact EN|]. split; [exact NN|].
    exists b, ln, a, t. split; [exact EP|]. split; [reflexivity|]. split; [exact PL|]. split; [exact ST|]. intros line' s' IL PL'. apply (LATER s' s'). apply loads_In. split; [reflexivity|]. exists line'. auto.
  - exfalso. apply (LM s s); [|exact SP]. apply loads_In. split; [reflexivity|]. exists line0. auto.
Qed.

(** ** one line *)
Lemma join_cons2 : forall x y l, join [9%N] (x :: y :: l) = x ++ [9%N] ++ join [9%N] (y :: l).
Proof. reflexivity. Qed.
Lemma encode_join : forall xs ls, Forall2 (fun x l => utf8_encode x = Ok l) xs ls -> utf8_encode (join [9%N] xs) = Ok (join [9%N] ls).
Proof.
  intros xs ls F. induction F as [|x l xs ls H F IH]; [reflexivity|]. destruct F as [|y k xs ls H' F]; [exact H|]. rewrite !join_cons2. apply encode_app; [exact H|]. apply encode_app; [reflexivity|exact IH].
Qed.
Lemma one_answer : forall srt nv all patterns line, sorts srt -> exists r, answer srt nv all patterns line r /\
  (match match_result srt nv (match_load_lines nv patterns) all line with [] => [78%N] | x :: t => x :: t end) = r.
Proof.
  intros srt nv all patterns line SO. eexists. split; [|reflexivity]. unfold answer, match_result, match_try. rewrite load_lines. destruct (utf8_decode line) as [url|e]; cbn [bind]; [|reflexivity].
  destruct (match_url nv (mloads nv (pattern_loads patterns)) url) as [fs|e] eqn:M; cbn [bind]; [|reflexivity].
  set (gs := if all then fs else firstn 1 (srt found_lt fs)).
  assert (SUB : forall f, In f gs -> In f fs). { intros f I. unfold gs in I. destruct all; [exact I|]. destruct (SO found_lt fs) as [P _]. apply (Permutation_in _ (Permutation_sym P)). destruct (srt found_lt fs) as [|y t]; [destruct I|]. destruct I as [<-|[]]. left. reflexivity. }
  destruct fs as [|f0 fs].
  { assert (gs = []) as -> by (destruct gs as [|g gs']; [reflexivity|destruct (SUB g (or_introl eq_refl))]). reflexivity. }
  assert (GN : gs <> []). { unfold gs. destruct all; [discriminate|]. destruct (SO found_lt (f0 :: fs)) as [P _]. destruct (srt found_lt (f0 :: fs)) as [|y t]; [apply Permutation_sym, Permutation_nil in P; discriminate|discriminate]. }
  destruct (any_found _ _ _ _ f0 M (or_introl eq_refl)) as (m & p & _ & _ & _ & PR & _).
  assert (X : forall l, (forall f, In f l -> In f (f0 :: fs)) -> exists xs ls, mapM (fun f : found => match m_meta (snd f) with Some (MUser x) => Ok x | _ => Err EType end) l = Ok xs /\ Forall2 (fun x b => utf8_encode x = Ok b) xs ls /\ Forall2 (printed patterns m) l ls /\ Forall (fun b => b <> []) ls).
  { induction l as [|f l IH]; intros S; [exists [], []; repeat split; constructor|]. destruct IH as (xs & ls & A & B & C & D); [intros g G; apply S; right; exact G|].
    destruct (any_found _ _ _ _ f M (S f (or_introl eq_refl))) as (m' & p' & s & mt & o & PR' & IS & SP & MO & LM). assert (m' = m) by congruence. subst m'.
    destruct (meta_printed _ _ _ _ _ _ IS SP LM) as (x & b & -> & EN & BN & PT). exists (x :: xs), (b :: ls). split; [cbn [mapM]; rewrite MO; cbn [option_map bind]; rewrite A; reflexivity|]. repeat split; constructor; assumption. }
  destruct (X gs SUB) as (xs & ls & A & B & C & D). rewrite A. cbn [bind]. rewrite (encode_join _ _ B). exists m, p, ls. split; [exact PR|]. split; [exact C|].
  assert (LN : ls <> []) by (inversion C; subst; [congruence|discriminate]). split; [|exact LN]. destruct ls as [|b ls]; [congruence|]. inversion D as [|? ? BN _]; subst. destruct b as [|c b]; [congruence|]. destruct ls; reflexivity.
Qed.
Theorem c35 : forall srt nv all patterns lines, sorts srt ->
  Forall2 (fun line out => exists r, answer srt nv all patterns (strip line) r /\ out = r ++ [9%N] ++ strip line ++ [10%N]) lines (match_run srt nv all patterns lines).
Proof.
  intros srt nv all patterns lines SO. unfold match_run. induction lines as [|line lines IH]; [constructor|]. cbn [map]. constructor; [|exact IH]. destruct (one_answer srt nv all patterns (strip line) SO) as (r & A & E). exists r. split; [exact A|]. unfold match_line. cbv zeta. rewrite <- E.
  destruct (match_result srt nv (match_load_lines nv patterns) all (strip line)); reflexivity.
Qed.

(** ** rejected and accepted lines *)
Theorem c35_rejected : forall srt nv all patterns line r, answer srt nv all patterns line r ->
  startswith line (u "/") = false -> (forall url, utf8_decode line = Ok url -> url_path nv url = None) -> r = u "E".
Proof.
  intros srt nv all patterns line r A S U. unfold answer in A. destruct (utf8_decode line) as [url|e] eqn:D; [|exact A]. specialize (U url eq_refl).
  assert (SU : startswith url [SLASH] = false).
  { destruct line as [|a line]; [injection D as <-; reflexivity|]. apply utf8_iff in D. destruct url as [|c url]; [reflexivity|]. unfold utf8_encode in D. cbn [mapM] in D. destruct (utf8_char c) as [w|] eqn:C; [|discriminate]. cbn [bind] in D. destruct (mapM utf8_char url) as [ls|]; [|discriminate]. cbn [bind List.concat] in D. apply ok_inj in D.
    destruct (N.eqb c SLASH) eqn:E; [|unfold startswith; cbn; rewrite E; reflexivity]. apply N.eqb_eq in E. subst c. vm_compute in C. apply ok_inj in C. subst w. cbn [app] in D. injection D as <- _. destruct line; discriminate S. }
  destruct (url_path_none nv url U) as [(e & P)|(m & ms & P)].
  - unfold match_url in A. rewrite P in A. exact A.
  - unfold parse in P. rewrite SU in P. destruct (analyze_url nv url) as [[m' l]|]; [|discriminate]. cbn [bind] in P. destruct (mapM piece_parse l); discriminate.
Qed.
Theorem c35_accepted : forall srt nv all patterns line r url m raw, answer srt nv all patterns line r ->
  utf8_decode line = Ok url -> url_path nv url = Some (m, raw) -> Forall (fun w => ~ In 92%N w) raw -> accepted_canonical nv (pattern_loads patterns) ->
  exists fs, match_url nv (mloads nv (pattern_loads patterns)) url = Ok fs /\
    (fs = [] /\ r = u "N" \/ exists ls, Forall2 (printed patterns m) (if all then fs else firstn 1 (srt found_lt fs)) ls /\ r = join [9%N] ls /\ ls <> []).
Proof.
  intros srt nv all patterns line r url m raw A D U B AC. unfold answer in A. rewrite D in A. destruct (c28 nv (pattern_loads patterns) url m raw U B AC) as (fs & M & _). rewrite M in A. exists fs. split; [exact M|]. destruct fs as [|f fs]; [left; auto|right].
  destruct A as (m' & p & ls & P & F & E & N). destruct (url_path_parse _ _ _ _ U) as (_ & _ & P'). assert (m' = m) by congruence. subst m'. exists ls. auto.
Qed.
Theorem c35_best : forall srt nv patterns line r url m raw fs, sorts srt -> answer srt nv false patterns line r ->
  utf8_decode line = Ok url -> url_path nv url = Some (m, raw) -> Forall (fun w => ~ In 92%N w) raw -> accepted_canonical nv (pattern_loads patterns) ->
  match_url nv (mloads nv (pattern_loads patterns)) url = Ok fs -> fs <> [] -> exists f, greatest fs f /\ printed patterns m f r.
Proof.
  intros srt nv patterns line r url m raw fs SO A D U B AC M N. destruct (c35_accepted _ _ _ _ _ _ _ _ _ A D U B AC) as (gs & M' & C). rewrite M in M'. injection M' as <-. destruct C as [[E _]|(ls & F & E & LN)]; [contradiction|].
  destruct (c31_exists nv _ url m raw fs U B AC M N) as (f & G). pose proof (proj2 (c31_best srt nv _ url m raw fs SO U B AC M f) G) as E1. rewrite E1 in F. inversion F as [|? l ? ls' P1 P2]; subst. inversion P2; subst. exists f. split; [exact G|]. exact P1.
Qed.

(** ** one line each *)
Lemma lstrip_sub : forall l x, In x (lstrip l) -> In x l.
Proof. intros l x I. destruct (lstrip_split l) as (a & E & _). rewrite E. apply in_app_iff. right. exact I. Qed.
Lemma rstrip_sub : forall l x, In x (rstrip l) -> In x l.
Proof. intros l x I. unfold rstrip in I. apply in_rev in I. apply lstrip_sub in I. apply in_rev in I. exact I. Qed.
Lemma lstrip_file : forall l, file_line l -> file_line (lstrip l).
Proof.
  intros l H. induction l as [|b l IH]; [exact H|]. cbn [lstrip]. destruct (is_space b); [|exact H]. apply IH. destruct H as (w & N & [E|E]).
  - subst w. exists l. split; [intros I; apply N; right; exact I|left; reflexivity].
  - destruct w as [|x w]; cbn [app] in E; injection E as E1 E2; subst.
    + exists []. split; [intros []|left; reflexivity].
    + exists w. split; [intros I; apply N; right; exact I|right; reflexivity].
Qed.
Lemma rstrip_file : forall l, file_line l -> ~ In 10%N (rstrip l).
Proof.
  intros l (w & N & [->| ->]) I; [apply N; apply rstrip_sub; exact I|]. unfold rstrip in I. rewrite rev_app_distr in I. cbn [rev app lstrip] in I. change (is_space 10%N) with true in I. cbn [lstrip] in I. apply in_rev in I. apply lstrip_sub in I. apply in_rev in I. contradiction.
Qed.
Theorem c35_newline : forall srt nv all patterns lines, sorts srt -> Forall file_line patterns -> Forall file_line lines ->
  Forall (fun out => exists body, out = body ++ [10%N] /\ ~ In 10%N body) (match_run srt nv all patterns lines).
Proof.
  intros srt nv all patterns lines SO FP FL. pose proof (c35 srt nv all patterns lines SO) as F. induction F as [|line out lines outs (r & A & ->) F IH]; [constructor|]. inversion FL as [|? ? L1 L2]; subst. constructor; [|exact (IH L2)].
  exists (r ++ [9%N] ++ strip line). split; [rewrite <- !app_assoc; reflexivity|]. intros I. apply in_app_iff in I. destruct I as [I|I].
  - unfold answer in A. destruct (utf8_decode (strip line)) as [url|]; [|subst r; destruct I as [I|[]]; discriminate]. destruct (match_url nv (mloads nv (pattern_loads patterns)) url) as [[|f fs]|]; [subst r; destruct I as [I|[]]; discriminate| |subst r; destruct I as [I|[]]; discriminate].
    destruct A as (m & p & ls & _ & P & -> & _). assert (X : Forall (fun l => ~ In 10%N l) ls).
    { clear - P FP. induction P as [|g l fs' ls (b & ln & a & s & E & -> & _) P IH]; constructor; [|exact IH]. apply rstrip_file. rewrite Forall_forall in FP. apply FP. rewrite E. apply in_app_iff. right. left. reflexivity. }
    clear - I X. induction X as [|l ls H X IH]; [destruct I|]. destruct ls as [|k ls]; [exact (H I)|]. rewrite join_cons2 in I. apply in_app_iff in I. destruct I as [I|I]; [exact (H I)|]. apply in_app_iff in I. destruct I as [[I|[]]|I]; [discriminate|exact (IH I)].
  - apply in_app_iff in I. destruct I as [[I|[]]|I]; [discriminate|]. revert I. unfold strip. apply rstrip_file. apply lstrip_file. exact L1.
Qed.
