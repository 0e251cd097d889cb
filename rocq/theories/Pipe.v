(** pattern-match on the output of pattern-make (C43). *)
From Coq Require Import String.
From Verif Require Import PyStr Defs UrlLib ParseUtils Spec Views Trees Cluster Patterns Matcher Maker Format Cmd Observe MatchSpec OwnSpec OrderSpec CmdSpec PyStrProofs DefsProofs DictProofs RegexProofs PieceProofs LengthProofs UnitProofs QueryProofs BridgeProofs UrlProofs PackProofs LoadProofs MakeProofs PatUnits PartProofs CmdProofs MatchTop MatchTakes MatchPos MatchOwn MatchExact MatchBest Utf8 CmdMatch.
From Coq Require Import Lia Permutation Sorted.

(** ** a pattern that takes a piece matches it *)
Lemma fits_matches : forall x g, cunit_ok x -> all_legal g -> unit_fits x g -> regex_matches (cunit_text x) g.
Proof.
  intros [w|rs n] g O L F.
  - cbn in F. subst g. cbn [cunit_text]. cbn in O. destruct O as (_ & LD & _). eexists. split; [apply rparse_plain|apply toks_match_lits; reflexivity].
    eapply Forall_impl; [|exact LD]. intros c I. assert (X : forallb is_plain letters_digits = true) by (vm_compute; reflexivity). rewrite forallb_forall in X. apply X. exact I.
  - rewrite <- cu_text. cbn [cu pu_str]. destruct (cls_facts rs n O) as (NE & _ & RR & _ & K). eexists. split; [apply rparse_unit; assumption|].
    cbn [toks_match rset rnum]. exists g, []. destruct F as [F FN]. split; [symmetry; apply app_nil_r|]. split; [|split; [|reflexivity]].
    + apply Forall_forall. intros c I. apply set_mem_rules; [exact RR|]. exists (space_text c). split; [apply F; eauto|]. apply legal_space. apply all_legal_iff in L. rewrite Forall_forall in L. apply L. exact I.
    + destruct n as [k|]; [exact FN|]. destruct rs as [|r rs]; [congruence|]. destruct (proj1 (F r) (or_introl eq_refl)) as (c & I & _). intros ->. destruct I.
Qed.
Lemma cut_concat : forall last us s ws, cut_for last us s ws -> List.concat ws = s.
Proof.
  assert (G : forall last us s ws, (last = true /\ dotted us /\ dot_cut s ws) \/ (~ (last = true /\ dotted us) /\ ((Forall one_space us /\ maximal_runs s ws) \/ (~ Forall one_space us /\ mixed_cut s ws))) -> List.concat ws = s).
  { intros last us s ws [(_ & _ & n & d & e & -> & -> & _)|(_ & [(_ & H)|(_ & H)])].
    - cbn [List.concat]. rewrite app_nil_r. reflexivity.
    - apply H.
    - apply H. }
  intros last [|x [|y us]] s ws H; cbn [cut_for] in H; try (eapply G; exact H). subst ws. cbn. apply app_nil_r.
Qed.
Theorem takes_matches : forall last P s, Forall legal s -> takes last P s -> regex_matches P s.
Proof.
  intros last P s L (us & ws & (EP & O & _) & C & F). apply cut_concat in C. subst P s. clear - L O F.
  induction F as [|x w us ws F1 F IH]; [apply regex_matches_nil|]. cbn [map List.concat] in *. apply Forall_app in L. destruct L as [L1 L2]. inversion O; subst. apply regex_matches_app; [|auto].
  apply fits_matches; [assumption|apply all_legal_iff; exact L1|exact F1].
Qed.

(** ** the records of pattern-make are visible ASCII *)
Definition vis (c : char) : bool := ((33 <=? c) && (c <=? 126))%N.
Definition visible (s : str) : Prop := Forall (fun c => vis c = true) s.
Lemma vis_app : forall a b, visible a -> visible b -> visible (a ++ b).
Proof. intros a b A B. apply Forall_app. auto. Qed.
Lemma vis_concat : forall l, Forall visible l -> visible (List.concat l).
Proof. induction 1; [constructor|]. cbn [List.concat]. apply vis_app; assumption. Qed.
Lemma vis_join : forall sep l, visible sep -> Forall visible l -> visible (join sep l).
Proof.
  intros sep l S F. induction F as [|x l X F IH]; [constructor|]. destruct l as [|y l]; [cbn; exact X|].
  change (join sep (x :: y :: l)) with (x ++ sep ++ join sep (y :: l)). apply vis_app; [exact X|]. apply vis_app; [exact S|exact IH].
Qed.
Lemma dec_vis : forall n, visible (dec_str n).
Proof.
  intros n. eapply Forall_impl; [|apply dec_str_digits]. intros c D. apply is_digit_in in D. apply char_in_In in D.
  assert (X : forallb vis digits = true) by (vm_compute; reflexivity). rewrite forallb_forall in X. apply X. exact D.
Qed.
Lemma ld_vis : forall c, In c letters_digits -> vis c = true.
Proof. intros c I. assert (X : forallb vis letters_digits = true) by (vm_compute; reflexivity). rewrite forallb_forall in X. apply X. exact I. Qed.
Lemma text_vis : forall r, In r space_texts -> visible r.
Proof. intros r I. assert (X : forallb (forallb vis) space_texts = true) by (vm_compute; reflexivity). rewrite forallb_forall in X. apply X in I. apply Forall_forall. rewrite forallb_forall in I. exact I. Qed.
Lemma unit_vis : forall body q, visible body -> visible (unit_str body q).
Proof.
  intros body q B. unfold unit_str. constructor; [reflexivity|]. apply vis_app; [exact B|]. constructor; [reflexivity|]. unfold qstr. destruct q as [k|]; [|constructor; [reflexivity|constructor]].
  destruct (N.eqb k 1); [constructor|]. constructor; [reflexivity|]. apply vis_app; [apply dec_vis|]. constructor; [reflexivity|constructor].
Qed.
Lemma cunit_vis : forall x, cunit_ok x -> visible (cunit_text x).
Proof.
  intros [w|rs n] O.
  - destruct O as (_ & LD & _). eapply Forall_impl; [|exact LD]. exact ld_vis.
  - rewrite <- cu_text. cbn [cu pu_str]. apply unit_vis. apply vis_concat. destruct O as (_ & _ & F & _). eapply Forall_impl; [|exact F]. intros r [I _]. apply text_vis. exact I.
Qed.
Lemma canonical_vis : forall P, canonical P -> visible P.
Proof.
  intros P (us & (<- & O & _) & _). apply vis_concat. apply Forall_forall. intros w I. apply in_map_iff in I. destruct I as (x & <- & I). rewrite Forall_forall in O. apply cunit_vis. apply O. exact I.
Qed.
(** keys *)
Lemma alnum_vis : forall c, is_alnum c = true -> vis c = true.
Proof. intros c H. unfold is_alnum, is_lower, is_upper, is_digit in H. unfold vis. rewrite !orb_true_iff, !andb_true_iff, !N.leb_le in H. apply andb_true_iff. rewrite !N.leb_le. lia. Qed.
Lemma rule_fmt_vis : forall c, visible (get_rule_fmt c).
Proof.
  intros c. unfold get_rule_fmt. destruct (char_rule c) as [r|] eqn:E; [|repeat constructor].
  pose proof (rule_forall (fun c r => forallb vis r) ltac:(vm_compute; reflexivity) c r E) as X. cbv beta in X. apply Forall_forall. rewrite forallb_forall in X. exact X.
Qed.
Lemma frag_vis : forall c f w, Forall (eq c) f -> norm_frag [EQUALS] f = Ok w -> visible w.
Proof.
  intros c f w F H. destruct f as [|d f]; [cbn in H; inversion H; constructor|]. inversion F as [|? ? E F']; subst d. cbn [norm_frag] in H. destruct (char_in c [EQUALS]) eqn:I.
  - inversion H; subst. apply char_in_In in I. destruct I as [<-|[]]. eapply Forall_impl; [|exact F]. intros x <-. reflexivity.
  - rewrite specify_rule_unit in H. destruct (Z.of_nat (length (c :: f)) =? 0)%Z; [discriminate|]. inversion H; subst. apply unit_vis. apply rule_fmt_vis.
Qed.
Definition frag_ok (last : option char) (f : str) : Prop :=
  match last with
  | None => f = []
  | Some lc => if is_alnum lc then Forall (fun c => is_alnum c = true) f else Forall (eq lc) f
  end.
Lemma loop_vis : forall s out frag last o f l, visible out -> frag_ok last frag -> normalize_loop [EQUALS] s out frag last = Ok (o, f, l) -> visible o /\ frag_ok l f.
Proof.
  induction s as [|c s IH]; intros out frag last o f l VO FO H; [inversion H; subst; auto|]. cbn [normalize_loop] in H.
  match type of H with bind ?m _ = _ => destruct m as [[o1 f1]|] eqn:E; [|discriminate] end. cbn [bind] in H.
  apply IH in H; [exact H| |]; clear IH H.
  - destruct (is_alnum c).
    + destruct last as [lc|]; [|inversion E; subst; exact VO]. cbn in FO. destruct (is_alnum lc); [inversion E; subst; exact VO|]. destruct frag as [|w0 fr]; [inversion E; subst; exact VO|].
      destruct (norm_frag [EQUALS] (w0 :: fr)) as [w|] eqn:N; [|discriminate]. cbn [bind] in E. inversion E; subst. apply vis_app; [exact VO|]. exact (frag_vis _ _ _ FO ltac:(eassumption)).
    + destruct last as [lc|].
      * destruct (N.eqb lc c); [inversion E; subst; exact VO|]. destruct frag as [|w0 fr]; [inversion E; subst; exact VO|]. cbn in FO. destruct (is_alnum lc) eqn:AL.
        -- inversion FO as [|? ? W0 FR]; subst. rewrite W0 in E. cbn [bind] in E. inversion E; subst. apply vis_app; [exact VO|]. eapply Forall_impl; [|exact FO]. exact alnum_vis.
        -- inversion FO as [|? ? W0 FR]; subst. rewrite AL in E. destruct (norm_frag [EQUALS] (w0 :: fr)) as [w|] eqn:N; [|discriminate]. cbn [bind] in E. inversion E; subst. apply vis_app; [exact VO|]. exact (frag_vis _ _ _ FO ltac:(eassumption)).
      * cbn in FO. subst frag. inversion E; subst. exact VO.
  - cbn [frag_ok]. destruct (is_alnum c) eqn:AC.
    + assert (F1 : Forall (fun c => is_alnum c = true) f1); [|apply Forall_app; split; [exact F1|repeat constructor; exact AC]].
      destruct last as [lc|]; [|cbn in FO; subst; inversion E; subst; try constructor]. cbn in FO. destruct (is_alnum lc); [inversion E; subst; exact FO|]. destruct frag as [|w0 fr]; [inversion E; subst; try constructor|].
      destruct (norm_frag [EQUALS] (w0 :: fr)) as [w|] eqn:N; [|discriminate]. cbn [bind] in E. inversion E; subst; try constructor.
    + assert (F1 : Forall (eq c) f1); [|apply Forall_app; split; [exact F1|repeat constructor]].
      destruct last as [lc|].
      * destruct (N.eqb_spec lc c) as [->|NE]; [inversion E; subst; cbn in FO; rewrite AC in FO; exact FO|]. destruct frag as [|w0 fr]; [inversion E; subst; try constructor|].
        match type of E with bind ?q _ = _ => destruct q as [w|]; [|discriminate E] end. cbn [bind] in E. inversion E; subst; try constructor.
      * cbn in FO. subst frag. inversion E; subst; try constructor.
Qed.
Lemma normalize_vis : forall k k', normalize k [EQUALS] = Ok k' -> visible k'.
Proof.
  intros k k' H. unfold normalize in H. destruct (normalize_loop [EQUALS] k [] [] None) as [[[o f] l]|] eqn:E; [|discriminate]. cbn [bind] in H.
  destruct (loop_vis k [] [] None o f l (Forall_nil _) eq_refl E) as [VO FO]. match type of H with bind ?m _ = _ => destruct m as [w|] eqn:W; [|discriminate] end. cbn [bind] in H. inversion H; subst. apply vis_app; [exact VO|].
  destruct l as [lc|]; cbn in FO; [|subst; inversion W; subst; constructor]. destruct (is_alnum lc); [inversion W; subst; eapply Forall_impl; [|exact FO]; exact alnum_vis|]. exact (frag_vis _ _ _ FO ltac:(eassumption)).
Qed.
Lemma keys_vis : forall nv url m raw, analyze_url nv url = Ok (m, raw) -> Forall visible (query_keys m).
Proof.
  intros nv url m raw H. unfold analyze_url in H. destruct (parse_url nv url) as [p|]; [|discriminate]. cbn [bind] in H. unfold unpack in H.
  set (pp := filter_useless nonempty (tl (split_char SLASH (up_path p)))) in *. destruct (length pp <=? 0); [discriminate|].
  destruct (parse_query_string (up_query p)) as [[ks vs]|]; [|discriminate]. cbn [bind] in H. destruct (mapM (fun k => normalize k [EQUALS]) ks) as [nks|] eqn:K; [|discriminate]. cbn [bind] in H. inversion H; subst. cbn [query_keys].
  clear - K. revert nks K. induction ks as [|k ks IH]; intros nks K; cbn [mapM] in K; [inversion K; constructor|]. destruct (normalize k [EQUALS]) as [nk|] eqn:EK; [|discriminate]. cbn [bind] in K.
  destruct (mapM (fun k => normalize k [EQUALS]) ks) as [n|]; [|discriminate]. cbn [bind] in K. inversion K; subst. constructor; [eapply normalize_vis; exact EK|apply IH; reflexivity].
Qed.
Lemma Forall_sub : forall A (P : A -> Prop) l l', Forall P l -> (forall x, In x l' -> In x l) -> Forall P l'.
Proof. intros A P l l' F S. rewrite Forall_forall in *. auto. Qed.
Lemma In_firstn : forall A n (l : list A) x, In x (firstn n l) -> In x l.
Proof. intros A n l x I. rewrite <- (firstn_skipn n l). apply in_or_app. left. exact I. Qed.
Lemma In_skipn : forall A n (l : list A) x, In x (skipn n l) -> In x l.
Proof. intros A n l x I. rewrite <- (firstn_skipn n l). apply in_or_app. right. exact I. Qed.
Lemma pack_vis : forall m Ps, Forall visible (query_keys m) -> Forall visible Ps -> visible (pack m Ps).
Proof.
  intros m Ps K P. unfold pack. constructor; [reflexivity|]. apply vis_app; [|apply vis_app].
  - apply vis_join; [repeat constructor|]. eapply Forall_sub; [exact P|]. intros x. apply In_firstn.
  - destruct (0 <? length (query_keys m)); [|constructor]. apply vis_app; [repeat constructor|]. apply vis_join; [repeat constructor|]. apply Forall_forall. intros w I. apply in_map_iff in I. destruct I as ([k v] & <- & I). cbn [fst snd].
    rewrite Forall_forall in K, P. apply vis_app; [apply K; eapply in_combine_l; exact I|]. apply P. apply in_combine_r in I. unfold slice in I. apply In_skipn in I || apply In_firstn in I. first [apply In_firstn in I; exact I|apply In_skipn in I; exact I|exact I].
  - destruct (has_fragment m); [|constructor]. constructor; [reflexivity|]. apply vis_concat. eapply Forall_sub; [exact P|]. intros x. apply In_skipn.
Qed.
(** the facts about every cluster *)
Lemma cluster_facts : forall nv h mcn cs m t, (2 <= mcn)%Z -> make mcn (loads nv h) = Ok cs -> no_bs nv h -> In (m, t) cs ->
  exists Ps, cluster_pattern (m, t) = pack m Ps /\ analyze_url_pattern_string (cluster_pattern (m, t)) = Ok (m, Ps) /\ Forall canonical Ps /\ visible (cluster_pattern (m, t)) /\
    (forall nodes, In nodes (paths t) -> path_patterns nodes = Ps).
Proof.
  intros nv h mcn cs m t M E NB I. destruct (c20_count nv h mcn cs m t M E I) as [_ NP].
  assert (HD : In (hd [] (paths t)) (paths t)) by (destruct (paths t); [congruence|left; reflexivity]). exists (path_patterns (hd [] (paths t))). split; [reflexivity|].
  assert (Q : forall nodes, In nodes (paths t) -> analyze_url_pattern_string (cluster_pattern (m, t)) = Ok (m, path_patterns nodes) /\ Forall canonical (path_patterns nodes)).
  { intros nodes IN. destruct (own_cluster nv h mcn cs m t nodes M E NB I IN) as (raw & _ & _ & _ & LL & A & H). split; [exact A|]. apply Forall_forall. intros P IP. apply In_nth_error in IP. destruct IP as [i N].
    destruct (nth_error raw i) as [w|] eqn:W; [destruct (H i w P W N) as (_ & _ & C); exact C|]. apply nth_error_None in W. assert (i < length (path_patterns nodes)) by (apply nth_error_Some; congruence). lia. }
  destruct (Q _ HD) as [A C]. split; [exact A|]. split; [exact C|]. split.
  - apply pack_vis; [|eapply Forall_impl; [exact canonical_vis|exact C]]. cbn [fst].
    destruct (cluster_path nv h mcn cs m t M E I) as (Ps & sid & mk & L & IM & EM & PP & PR & _). destruct (PR _ HD) as (raw & _ & _ & IR & _).
    destruct (c18_paths nv h sid mk IM) as (_ & _ & _ & PF). destruct (PF raw raw IR IR) as (_ & _ & _ & me & X). rewrite EM in X. apply in_accepted in X. destruct X as (url & IU & X).
    apply url_path_parse in X. destruct X as (X & _ & _). eapply keys_vis. exact X.
  - intros nodes IN. destruct (Q _ IN) as [A' _]. rewrite A in A'. inversion A'. congruence.
Qed.

(** ** the output of pattern-make as a pattern file *)
Lemma make_out : forall nv mcn lines out, (2 <= mcn)%Z -> make_run nv mcn FPattern lines = Ok out ->
  exists cs, make mcn (loads nv (line_loads nv false lines)) = Ok cs /\ out = map cluster_pattern cs.
Proof.
  intros nv mcn lines out M H. unfold make_run in H. rewrite make_load_ok in H. cbn [fst wants_url] in H. unfold make_process in H. destruct (make mcn (loads nv (line_loads nv false lines))) as [cs|] eqn:E; [|discriminate]. cbn [bind] in H.
  exists cs. split; [reflexivity|]. destruct (mapM (fun mt => pformat FPattern (fst mt) (snd mt)) cs) as [rs|] eqn:R; [|discriminate]. cbn [bind] in H. inversion H; subst. clear H.
  assert (NP : forall m t, In (m, t) cs -> paths t <> []) by (intros m t I; apply (c20_count nv _ mcn cs m t M E I)). clear E. revert rs R. induction cs as [|[m t] cs IH]; intros rs R; cbn [mapM] in R; [inversion R; reflexivity|].
  cbn [fst snd pformat bind] in R. destruct (mapM (fun mt => Ok (fmt_pattern (fst mt) (snd mt))) cs) as [rs'|] eqn:R'; [|discriminate R]. cbn [bind] in R. inversion R; subst. cbn [List.concat map]. rewrite (IH (fun m t I => NP m t (or_intror I)) rs' R').
  unfold fmt_pattern, cluster_pattern at 2. cbn [fst snd]. specialize (NP m t (or_introl eq_refl)). destruct (paths t) as [|nodes ps]; [congruence|]. reflexivity.
Qed.
Lemma vis_space : forall c, vis c = true -> is_space c = false.
Proof. intros c H. unfold vis in H. apply andb_true_iff in H. rewrite !N.leb_le in H. unfold is_space. apply orb_false_iff. rewrite andb_false_iff, !N.leb_gt, N.eqb_neq. lia. Qed.
Lemma vis_rstrip : forall r, visible r -> r <> [] -> rstrip (r ++ [10%N]) = r.
Proof.
  intros r V N. unfold rstrip. rewrite rev_app_distr. cbn [rev app lstrip]. change (is_space 10%N) with true. cbv iota. destruct (rev r) as [|c q] eqn:E.
  - destruct r as [|x r]; [congruence|]. cbn in E. destruct (rev r); discriminate.
  - cbn [lstrip]. assert (I : In c r) by (apply in_rev; rewrite E; left; reflexivity). unfold visible in V. rewrite Forall_forall in V. rewrite (vis_space c (V c I)). rewrite <- E. apply rev_involutive.
Qed.
Lemma vis_decode : forall r, visible r -> utf8_decode r = Ok r.
Proof.
  induction 1 as [|c r V F IH]; [reflexivity|]. cbn [utf8_decode]. unfold vis in V. apply andb_true_iff in V. rewrite !N.leb_le in V. rewrite (proj2 (N.ltb_lt c 128)) by lia. rewrite IH. reflexivity.
Qed.
Lemma file_pattern : forall r, visible r -> startswith r (u "/") = true -> pattern_line (r ++ [10%N]) = Some r /\ rstrip (r ++ [10%N]) = r.
Proof.
  intros r V S. assert (R : rstrip (r ++ [10%N]) = r) by (apply vis_rstrip; [exact V|destruct r; [discriminate|discriminate]]). split; [|exact R]. unfold pattern_line. rewrite R, S, vis_decode by exact V. reflexivity.
Qed.
Lemma file_loads : forall out, Forall (fun r => visible r /\ startswith r (u "/") = true) out -> pattern_loads (as_file out) = map (fun s => (s, Some s)) out.
Proof.
  induction 1 as [|r out [V S] F IH]; [reflexivity|]. destruct (file_pattern r V S) as [E _].
  change (pattern_loads (as_file (r :: out))) with ((match pattern_line (r ++ [10%N]) with Some s => [(s, Some s)] | None => [] end) ++ pattern_loads (as_file out)). rewrite IH, E. reflexivity.
Qed.
Definition patterns_ok (nv : str -> bool) (out : list str) : Prop :=
  Forall (fun r => visible r /\ startswith r (u "/") = true /\ exists m Ps, r = pack m Ps /\ analyze_url_pattern_string r = Ok (m, Ps) /\ Forall canonical Ps) out.
Lemma out_ok : forall nv h mcn cs, (2 <= mcn)%Z -> make mcn (loads nv h) = Ok cs -> no_bs nv h -> patterns_ok nv (map cluster_pattern cs).
Proof.
  intros nv h mcn cs M E NB. apply Forall_forall. intros r I. apply in_map_iff in I. destruct I as ([m t] & <- & I). destruct (cluster_facts nv h mcn cs m t M E NB I) as (Ps & EP & A & C & V & _).
  split; [exact V|]. split; [apply pack_slash|]. exists m, Ps. auto.
Qed.
Lemma file_printed : forall nv out m f l, patterns_ok nv out -> printed (as_file out) m f l -> l = pack m (map mp_str (fst f)) /\ In l out /\ analyze_url_pattern_string l = Ok (m, map mp_str (fst f)).
Proof.
  intros nv out m f l O (before & line & after & s & EL & -> & PL & (_ & A) & _). assert (I : In line (as_file out)) by (rewrite EL; apply in_or_app; right; left; reflexivity). unfold as_file in I. apply in_map_iff in I. destruct I as (r & <- & I).
  unfold patterns_ok in O. rewrite Forall_forall in O. destruct (O r I) as (V & S & m' & Ps & EP & A' & _). destruct (file_pattern r V S) as [Q1 Q2]. assert (PL' : Some r = Some s) by (rewrite <- PL; symmetry; exact Q1). inversion PL'; subst s. clear PL PL'. match goal with |- ?x = _ /\ _ => assert (RS : x = r) by exact Q2; rewrite RS end. rewrite A in A'. inversion A'; subst. auto.
Qed.
Lemma file_canonical : forall nv out, patterns_ok nv out -> accepted_canonical nv (pattern_loads (as_file out)).
Proof.
  intros nv out O s me b m Ps I _ A. rewrite file_loads in I by (eapply Forall_impl; [|exact O]; intros r (V & S & _); auto). apply in_map_iff in I. destruct I as (r & E & I). inversion E; subst.
  unfold patterns_ok in O. rewrite Forall_forall in O. destruct (O s I) as (_ & _ & m' & Ps' & _ & A' & C). rewrite A in A'. inversion A'; subst. exact C.
Qed.
Lemma printed_all : forall nv out m fs ls, patterns_ok nv out -> Forall2 (printed (as_file out) m) fs ls -> ls = map (fun f => pack m (map mp_str (fst f))) fs.
Proof. intros nv out m fs ls O F. induction F as [|f l fs ls H F IH]; [reflexivity|]. cbn [map]. destruct (file_printed _ _ _ _ _ O H) as [<- _]. rewrite <- IH. reflexivity. Qed.
Lemma run_one : forall srt nv all patterns line, match_run srt nv all patterns [line] = [match_line srt nv (match_load_lines nv patterns) all line].
Proof. reflexivity. Qed.
(** what both options print for one line *)
Lemma pipe_lines : forall srt nv out line url m raw all, sorts srt -> patterns_ok nv out -> utf8_decode (strip line) = Ok url -> url_path nv url = Some (m, raw) -> Forall (fun w => ~ In 92%N w) raw ->
  exists fs, match_url nv (mloads nv (map (fun s => (s, Some s)) out)) url = Ok fs /\
    match_run srt nv all (as_file out) [line] = [tagged (map (fun f => pack m (map mp_str (fst f))) (if all then fs else firstn 1 (srt found_lt fs))) ++ [9%N] ++ strip line ++ [10%N]].
Proof.
  intros srt nv out line url m raw all S O D U NB. pose proof (c35 srt nv all (as_file out) [line] S) as F. rewrite run_one in F |- *. inversion F as [|? ? ? ? (r & AN & EO) _]; subst. clear F. rewrite EO.
  destruct (c35_accepted _ _ _ _ _ _ _ _ _ AN D U NB (file_canonical nv out O)) as (fs & EF & R). rewrite file_loads in EF by (eapply Forall_impl; [|exact O]; intros x (V & Q & _); auto).
  exists fs. split; [exact EF|]. do 2 f_equal. destruct R as [(-> & ->)|(ls & F2 & -> & NE)].
  - destruct all; [reflexivity|]. destruct (S found_lt []) as [P _]. apply Permutation_nil in P. rewrite P. reflexivity.
  - rewrite (printed_all _ _ _ _ _ O F2) in *. unfold tagged. match goal with |- join _ ?x = _ => destruct x end; [congruence|reflexivity].
Qed.
Lemma NoDup_map_on : forall A B (f : A -> B) l, (forall x y, In x l -> In y l -> f x = f y -> x = y) -> NoDup l -> NoDup (map f l).
Proof.
  intros A B f l H N. induction N as [|x l I N IH]; [constructor|]. cbn [map]. constructor.
  - intros J. apply in_map_iff in J. destruct J as (y & E & J). apply I. rewrite <- (H y x); [exact J|right; exact J|left; reflexivity|exact E].
  - apply IH. intros a b Ia Ib. apply H; right; assumption.
Qed.
Theorem c43 : forall srt nv mcn lines out, sorts srt -> (2 <= mcn)%Z -> make_run nv mcn FPattern lines = Ok out -> no_bs nv (line_loads nv false lines) ->
  forall line url m raw, utf8_decode (strip line) = Ok url -> url_path nv url = Some (m, raw) -> Forall (fun w => ~ In 92%N w) raw ->
  exists ls best,
    match_run srt nv true (as_file out) [line] = [tagged ls ++ [9%N] ++ strip line ++ [10%N]] /\
    match_run srt nv false (as_file out) [line] = [tagged best ++ [9%N] ++ strip line ++ [10%N]] /\
    NoDup ls /\
    (forall r, In r ls <-> In r out /\ exists Ps, analyze_url_pattern_string r = Ok (m, Ps) /\ length Ps = length raw /\
       forall i P w, nth_error Ps i = Some P -> nth_error raw i = Some w -> takes (S i =? path_depth m) P w) /\
    (ls = [] /\ best = [] \/ exists r, In r ls /\ best = [r]).
Proof.
  intros srt nv mcn lines out S M H NB line url m raw D U NR. destruct (make_out nv mcn lines out M H) as (cs & E & EO). pose proof (out_ok nv _ mcn cs M E NB) as O. rewrite <- EO in O.
  destruct (pipe_lines srt nv out line url m raw true S O D U NR) as (fs & EF & R1). destruct (pipe_lines srt nv out line url m raw false S O D U NR) as (fs' & EF' & R2). rewrite EF in EF'. inversion EF'; subst fs'. clear EF'.
  exists (map (fun f => pack m (map mp_str (fst f))) fs), (map (fun f => pack m (map mp_str (fst f))) (firstn 1 (srt found_lt fs))). split; [exact R1|]. split; [exact R2|].
  assert (EL : pattern_loads (as_file out) = map (fun s => (s, Some s)) out) by (apply file_loads; eapply Forall_impl; [|exact O]; intros x (V & Q & _); auto).
  assert (AC : accepted_canonical nv (map (fun s => (s, Some s)) out)) by (rewrite <- EL; apply file_canonical; exact O).
  destruct (c28 nv _ url m raw U NR AC) as (fs' & EF' & ND & ME). rewrite EF in EF'. inversion EF'; subst fs'. clear EF'.
  assert (EM : map (fun f : found => pack m (map mp_str (fst f))) fs = map (pack m) (parts_of fs)) by (unfold parts_of; rewrite map_map; reflexivity).
  assert (AN : forall Ps, In Ps (parts_of fs) -> In (pack m Ps) out /\ analyze_url_pattern_string (pack m Ps) = Ok (m, Ps) /\ length Ps = length raw /\ forall i P w, nth_error Ps i = Some P -> nth_error raw i = Some w -> takes (Datatypes.S i =? path_depth m) P w).
  { intros Ps I. apply ME in I. destruct I as (s & me & IS & _ & A & LL & T). apply in_map_iff in IS. destruct IS as (r & ER & IR). inversion ER; subst r me. unfold patterns_ok in O. rewrite Forall_forall in O. destruct (O s IR) as (_ & _ & m' & Ps' & EP & A' & _). rewrite A in A'. inversion A'; subst m' Ps'. subst s. auto. }
  split; [|split].
  - rewrite EM. apply NoDup_map_on; [|exact ND]. intros x y IX IY EQ. destruct (AN x IX) as (_ & A & _). destruct (AN y IY) as (_ & B & _). rewrite EQ, B in A. inversion A. reflexivity.
  - intros r. rewrite EM. split.
    + intros I. apply in_map_iff in I. destruct I as (Ps & <- & I). destruct (AN Ps I) as (IO & A & LL & T). split; [exact IO|]. exists Ps. auto.
    + intros (IO & Ps & A & LL & T). unfold patterns_ok in O. rewrite Forall_forall in O. destruct (O r IO) as (_ & SW & m' & Ps' & EP & A' & _). rewrite A in A'. inversion A'; subst m' Ps'. apply in_map_iff. exists Ps. split; [auto|]. apply ME. exists r, (Some r). split; [apply in_map_iff; eauto|]. auto.
  - destruct (S found_lt fs) as [P _]. destruct (srt found_lt fs) as [|f l]; [left; apply Permutation_sym, Permutation_nil in P; subst fs; auto|]. right. exists (pack m (map mp_str (fst f))). split; [|reflexivity].
    apply in_map_iff. exists f. split; [reflexivity|]. eapply Permutation_in; [apply Permutation_sym; exact P|]. left. reflexivity.
Qed.
(** the printed patterns match the URL *)
Theorem c43_sound : forall nv url m raw p r Ps, url_path nv url = Some (m, raw) -> parse_url nv url = Ok p -> match up_query p with Some q => Forall legal q | None => True end ->
  r = pack m Ps -> length Ps = length raw -> (forall i P w, nth_error Ps i = Some P -> nth_error raw i = Some w -> takes (S i =? path_depth m) P w) -> regex_matches r (url_text p).
Proof.
  intros nv url m raw p r Ps U E LQ -> LL T. pose proof (url_path_parse _ _ _ _ U) as (A & LR & _). eapply c22_text; [exact A|exact E|exact LQ|].
  apply forall2_nth. split; [exact LL|]. intros i P w N1 N2. eapply takes_matches; [|exact (T i P w N1 N2)]. rewrite Forall_forall in LR. apply all_legal_iff. apply LR. eapply nth_error_In. exact N2.
Qed.
(** the own pattern *)
Theorem c43_own : forall nv mcn lines out cs url m raw t nodes, (2 <= mcn)%Z -> make_run nv mcn FPattern lines = Ok out -> no_bs nv (line_loads nv false lines) ->
  make mcn (loads nv (line_loads nv false lines)) = Ok cs -> url_path nv url = Some (m, raw) -> Forall (fun w => ~ In 92%N w) raw ->
  In (m, t) cs -> In nodes (paths t) -> path_pieces nodes = map piece_of raw ->
  In (cluster_pattern (m, t)) out /\ exists uss, Forall2 reads (path_patterns nodes) uss /\
    ((exists Ps, analyze_url_pattern_string (cluster_pattern (m, t)) = Ok (m, Ps) /\ length Ps = length raw /\
       forall i P w, nth_error Ps i = Some P -> nth_error raw i = Some w -> takes (S i =? path_depth m) P w) <->
     forall i us w, nth_error uss i = Some us -> nth_error raw i = Some w -> findable (S i =? path_depth m) us w).
Proof.
  intros nv mcn lines out cs url m raw t nodes M H NB E U NR I IN EP. destruct (make_out nv mcn lines out M H) as (cs' & E' & EO). rewrite E in E'. inversion E'; subst cs'. clear E'.
  assert (IO : In (cluster_pattern (m, t)) out) by (rewrite EO; apply in_map; exact I). split; [exact IO|].
  pose proof (out_ok nv _ mcn cs M E NB) as O. rewrite <- EO in O.
  assert (EL : pattern_loads (as_file out) = map (fun s => (s, Some s)) out) by (apply file_loads; eapply Forall_impl; [|exact O]; intros x (V & Q & _); auto).
  assert (AC : accepted_canonical nv (map (fun s => (s, Some s)) out)) by (rewrite <- EL; apply file_canonical; exact O).
  assert (HP : forall s me, In (s, me) (map (fun s => (s, Some s)) out) -> In s (map cluster_pattern cs)) by (intros s me J; apply in_map_iff in J; destruct J as (r & EQ & J); inversion EQ; subst; exact J).
  destruct (c27_gen nv _ mcn cs (map (fun s => (s, Some s)) out) url m raw t nodes (Some (cluster_pattern (m, t))) M E NB HP U NR I IN EP) as (fs & uss & EF & RD & IFF); [apply in_map_iff; eauto|].
  exists uss. split; [exact RD|]. rewrite <- IFF. destruct (c28 nv _ url m raw U NR AC) as (fs' & EF' & _ & ME). rewrite EF in EF'. inversion EF'; subst fs'. rewrite (ME (path_patterns nodes)).
  destruct (cluster_facts nv _ mcn cs m t M E NB I) as (Ps & _ & A & _ & _ & PN). rewrite (PN nodes IN). split.
  - intros (Ps' & A' & LL & T). rewrite A in A'. inversion A'; subst Ps'. exists (cluster_pattern (m, t)), (Some (cluster_pattern (m, t))). split; [apply in_map_iff; eauto|]. split; [apply pack_slash|]. auto.
  - intros (s & me & _ & _ & _ & LL & T). exists Ps. auto.
Qed.
Theorem c43_full : forall srt nv mcn lines out, sorts srt -> (2 <= mcn)%Z -> make_run nv mcn FPattern lines = Ok out -> no_bs nv (line_loads nv false lines) ->
  forall line url m raw, utf8_decode (strip line) = Ok url -> url_path nv url = Some (m, raw) -> Forall (fun w => ~ In 92%N w) raw ->
  exists ls best,
    match_run srt nv true (as_file out) [line] = [tagged ls ++ [9%N] ++ strip line ++ [10%N]] /\
    match_run srt nv false (as_file out) [line] = [tagged best ++ [9%N] ++ strip line ++ [10%N]] /\
    (ls = [] /\ best = [] \/ exists r, In r ls /\ best = [r]) /\
    NoDup ls /\
    (forall r, In r ls <-> In r out /\ exists Ps, analyze_url_pattern_string r = Ok (m, Ps) /\ length Ps = length raw /\
       forall i P w, nth_error Ps i = Some P -> nth_error raw i = Some w -> takes (S i =? path_depth m) P w) /\
    (forall p, parse_url nv url = Ok p -> match up_query p with Some q => Forall legal q | None => True end ->
       forall r, In r ls -> regex_matches r (url_text p)) /\
    (forall cs t nodes, make mcn (loads nv (line_loads nv false lines)) = Ok cs -> In (m, t) cs -> In nodes (paths t) -> path_pieces nodes = map piece_of raw ->
       exists uss, Forall2 reads (path_patterns nodes) uss /\
         (In (cluster_pattern (m, t)) ls <->
          forall i us w, nth_error uss i = Some us -> nth_error raw i = Some w -> findable (S i =? path_depth m) us w)).
Proof.
  intros srt nv mcn lines out S M H NB line url m raw D U NR. destruct (c43 srt nv mcn lines out S M H NB line url m raw D U NR) as (ls & best & R1 & R2 & ND & IFF & B). exists ls, best.
  split; [exact R1|]. split; [exact R2|]. split; [exact B|]. split; [exact ND|]. split; [exact IFF|]. split.
  - intros p E LQ r I. apply IFF in I. destruct I as (IO & Ps & A & LL & T). eapply (c43_sound nv url m raw p r Ps U E LQ); [|exact LL|exact T].
    destruct (make_out nv mcn lines out M H) as (cs & EC & EO). pose proof (out_ok nv _ mcn cs M EC NB) as O. rewrite <- EO in O. unfold patterns_ok in O. rewrite Forall_forall in O. destruct (O r IO) as (_ & _ & m' & Ps' & EP & A' & _). rewrite A in A'. inversion A'; subst m' Ps'. exact EP.
  - intros cs t nodes E I IN EP. destruct (c43_own nv mcn lines out cs url m raw t nodes M H NB E U NR I IN EP) as (IO & uss & RD & Q). exists uss. split; [exact RD|]. rewrite <- Q, IFF. tauto.
Qed.
