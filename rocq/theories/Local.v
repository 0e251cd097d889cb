(** Strings of different fuzzy digests have nothing to do with each other (C49). *)
From Coq Require Import String.
From Verif Require Import PyStr Defs UrlLib ParseUtils Spec Views Trees Cluster Patterns Matcher Maker Format Cmd Observe MatchSpec LocalSpec PyStrProofs PieceProofs DictProofs DigestProofs LoadProofs MakeProofs MatchTree MatchNest CmdProofs.
From Coq Require Import Lia.

(** ** one load *)
Lemma load_url : forall nv url meta m raw, url_path nv url = Some (m, raw) ->
  string_digest nv url = Some (digest_of m raw) /\
  exists F : option maker -> maker, (forall st, fst (load nv st url meta) = dset str_eqb (digest_of m raw) (F (dget str_eqb (digest_of m raw) st)) st).
Proof.
  intros nv url meta m raw U. destruct (url_path_parse _ _ _ _ U) as (_ & L & P). destruct (url_path_depth _ _ _ _ U) as [_ NR]. destruct (digest_of_legal m raw L) as [DG _].
  unfold string_digest. rewrite P. unfold parsed_digest. rewrite <- DG. split; [reflexivity|].
  exists (fun o => fst (maker_load (match o with Some mk => mk | None => MK m new_root end) (map pp_of raw) meta)). intros st. unfold load. rewrite P.
  destruct (map pp_of raw) as [|p0 pps0] eqn:EPP; [destruct raw; [congruence|discriminate]|]. unfold parsed_digest. rewrite <- DG. rewrite <- EPP.
  destruct (maker_load _ _ _) as [mk' o]. reflexivity.
Qed.
Lemma load_other : forall nv h url meta, url_path nv url = None -> fst (load nv (loads nv h) url meta) = loads nv h.
Proof. intros nv h url meta U. destruct (load_step nv h (loads nv h) url meta (loads_ok nv h)) as [_ X]. rewrite U in X. apply X. Qed.

Lemma own_snoc : forall nv sid h l, own_loads nv sid (h ++ [l]) = own_loads nv sid h ++ if of_digest nv sid (fst l) then [l] else [].
Proof. intros. unfold own_loads. rewrite filter_app. cbn [filter]. destruct (of_digest nv sid (fst l)); reflexivity. Qed.

(** ** the maker of a digest *)
Lemma own_maker : forall nv sid h, dget str_eqb sid (loads nv h) = dget str_eqb sid (loads nv (own_loads nv sid h)).
Proof.
  intros nv sid h. induction h as [|[url meta] h IH] using rev_ind; [reflexivity|]. rewrite loads_snoc, own_snoc. cbn [fst].
  destruct (url_path nv url) as [[m raw]|] eqn:U.
  - destruct (load_url nv url meta m raw U) as (D & F & E). unfold of_digest. rewrite D, E. destruct (str_eqb sid (digest_of m raw)) eqn:Q.
    + apply str_eqb_iff in Q. subst sid. rewrite loads_snoc, E. rewrite !(dget_dset_same str_eqb str_eqb_iff), IH. reflexivity.
    + rewrite app_nil_r. rewrite (dget_dset_other str_eqb str_eqb_iff); [exact IH|]. intros ->. rewrite str_eqb_refl in Q. discriminate.
  - rewrite load_other by exact U. destruct (of_digest nv sid url); [|rewrite app_nil_r; exact IH]. rewrite loads_snoc, load_other by exact U. exact IH.
Qed.
Lemma own_accepted : forall nv sid h m raw me, In (m, raw, me) (accepted nv (own_loads nv sid h)) -> digest_of m raw = sid.
Proof.
  intros nv sid h m raw me I. unfold accepted in I. apply in_flat_map in I. destruct I as ([url meta] & I & J). apply filter_In in I. destruct I as [_ I]. cbn [fst snd] in *.
  destruct (url_path nv url) as [[m' raw']|] eqn:U; [|destruct J]. destruct J as [J|[]]. inversion J; subst. destruct (load_url nv url me m raw U) as (D & _). unfold of_digest in I. rewrite D in I. symmetry. apply str_eqb_iff. exact I.
Qed.
Lemma own_state : forall nv sid h, loads nv (own_loads nv sid h) = match dget str_eqb sid (loads nv h) with Some mk => [(sid, mk)] | None => [] end.
Proof.
  intros nv sid h. rewrite (own_maker nv sid h). destruct (c18_keys nv (own_loads nv sid h)) as [ND K].
  assert (ALL : forall s mk, In (s, mk) (loads nv (own_loads nv sid h)) -> s = sid).
  { intros s mk I. assert (J : In s (map fst (loads nv (own_loads nv sid h)))) by (apply (in_map fst) in I; exact I). apply K in J. destruct J as (m & raw & me & J & <-). clear I. rename J into I. eapply own_accepted. exact I. }
  destruct (loads nv (own_loads nv sid h)) as [|[s mk] [|[s2 mk2] r]]; [reflexivity| |].
  - assert (s = sid) by (eapply ALL; left; reflexivity). subst s. cbn [dget]. rewrite str_eqb_refl. reflexivity.
  - exfalso. assert (s = sid) by (eapply ALL; left; reflexivity). assert (s2 = sid) by (eapply ALL; right; left; reflexivity). subst. inversion ND as [|? ? N _]; subst. apply N. left. reflexivity.
Qed.
Lemma digests_keys : forall nv h, map fst (loads nv h) = digests nv h.
Proof.
  intros nv h. induction h as [|[url meta] h IH] using rev_ind; [reflexivity|]. rewrite loads_snoc. unfold digests in *. rewrite accepted_app, map_app, fold_left_app, <- IH. unfold accepted at 1. cbn [flat_map fst snd].
  destruct (url_path nv url) as [[m raw]|] eqn:U; [|rewrite load_other by exact U; reflexivity].
  destruct (load_url nv url meta m raw U) as (_ & F & E). rewrite E, dset_keys. cbn [map app fold_left fst snd]. unfold add_new.
  destruct (dget str_eqb (digest_of m raw) (loads nv h)) as [mk|] eqn:G.
  - assert (X : existsb (str_eqb (digest_of m raw)) (map fst (loads nv h)) = true).
    { apply existsb_exists. exists (digest_of m raw). split; [|apply str_eqb_refl]. apply (dget_some_in str_eqb str_eqb_iff) in G. apply (in_map fst) in G. exact G. }
    rewrite X. apply app_nil_r.
  - assert (X : existsb (str_eqb (digest_of m raw)) (map fst (loads nv h)) = false).
    { apply not_true_is_false. intros X. apply existsb_exists in X. destruct X as (s & I & X). apply str_eqb_iff in X. subst s. apply (dget_none str_eqb str_eqb_iff) in G. contradiction. }
    rewrite X. reflexivity.
Qed.

(** ** make() *)
Theorem c49_make : forall nv h mcn, make mcn (loads nv h) =
  (rs <- mapM (fun sid => make mcn (loads nv (own_loads nv sid h))) (digests nv h) ;; Ok (List.concat rs)).
Proof.
  intros nv h mcn. rewrite <- digests_keys. unfold make at 1.
  assert (G : forall st, incl st (loads nv h) ->
    mapM (fun sm : str * maker => ts <- maker_make mcn (snd sm) ;; Ok (map (fun t => (mk_meta (snd sm), t)) ts)) st =
    mapM (fun sid => make mcn (loads nv (own_loads nv sid h))) (map fst st)).
  { induction st as [|[sid mk] st IH]; intros I; [reflexivity|]. cbn [mapM map fst snd]. rewrite IH by (intros x J; apply I; right; exact J).
    assert (E : dget str_eqb sid (loads nv h) = Some mk). { apply (dget_in str_eqb str_eqb_iff); [apply c18_keys|]. apply I. left. reflexivity. }
    rewrite own_state, E. unfold make. cbn [mapM fst snd]. destruct (maker_make mcn mk) as [ts|e]; cbn [bind]; [|reflexivity]. cbn [List.concat]. rewrite app_nil_r. reflexivity. }
  rewrite (G _ (incl_refl _)). reflexivity.
Qed.
(** the clusters of one digest *)
Theorem c49_same : forall nv h h' sid mcn, own_loads nv sid h = own_loads nv sid h' ->
  make mcn (loads nv (own_loads nv sid h)) = make mcn (loads nv (own_loads nv sid h')) /\ dget str_eqb sid (loads nv h) = dget str_eqb sid (loads nv h').
Proof. intros nv h h' sid mcn E. rewrite (own_maker nv sid h), (own_maker nv sid h'), E. auto. Qed.

(** ** pattern-make *)
Lemma own_line_loads : forall nv wm sid lines, line_loads nv wm (own_lines nv sid lines) = own_loads nv sid (line_loads nv wm lines).
Proof.
  intros nv wm sid lines. unfold own_lines, own_loads, line_loads. induction lines as [|line lines IH]; [reflexivity|]. cbn [filter flat_map]. rewrite filter_app, <- IH.
  destruct (kind_of_line nv line) as [| |url] eqn:K; [reflexivity..|]. cbn [filter fst]. destruct (of_digest nv sid url); [|reflexivity]. cbn [flat_map]. rewrite K. reflexivity.
Qed.
Lemma mapM_app' : forall A B (f : A -> res B) a b, mapM f (a ++ b) = (x <- mapM f a ;; y <- mapM f b ;; Ok (x ++ y)).
Proof.
  induction a as [|z a IH]; intros b; cbn [app mapM bind]; [destruct (mapM f b); reflexivity|]. destruct (f z); cbn [bind]; [|reflexivity]. rewrite IH. destruct (mapM f a); cbn [bind]; [|reflexivity]. destruct (mapM f b); reflexivity.
Qed.
Theorem c49_run : forall nv mcn f lines, (2 <= mcn)%Z -> exists outs,
  Forall2 (fun sid out => make_run nv mcn f (own_lines nv sid lines) = Ok out) (digests nv (line_loads nv (wants_url f) lines)) outs /\ make_run nv mcn f lines = Ok (List.concat outs).
Proof.
  intros nv mcn f lines M. destruct (c34_run nv mcn f lines M) as (out & E). unfold make_run in *. rewrite make_load_ok in E |- *. cbn [fst] in *. unfold make_process in *. rewrite c49_make in E |- *.
  set (h := line_loads nv (wants_url f) lines) in *. revert out E.
  generalize (digests nv h) as ds. induction ds as [|sid ds IH]; intros out E; [exists []; split; [constructor|reflexivity]|].
  cbn [mapM] in E |- *. destruct (make mcn (loads nv (own_loads nv sid h))) as [cs|] eqn:MK; cbn [bind] in E |- *; [|discriminate].
  destruct (mapM (fun sid => make mcn (loads nv (own_loads nv sid h))) ds) as [css|] eqn:MM; cbn [bind] in E |- *; [|discriminate]. cbn [List.concat] in E |- *. rewrite mapM_app' in E |- *.
  destruct (mapM (fun mt => pformat f (fst mt) (snd mt)) cs) as [o1|] eqn:M1; cbn [bind] in E |- *; [|discriminate].
  cbn [bind] in IH. destruct (mapM (fun mt => pformat f (fst mt) (snd mt)) (List.concat css)) as [o2|] eqn:M2; cbn [bind] in E |- *; [|discriminate].
  destruct (IH (List.concat o2) eq_refl) as (outs & F & X). exists (List.concat o1 :: outs). split.
  - constructor; [|exact F]. rewrite make_load_ok. cbn [fst]. rewrite own_line_loads. fold h. rewrite MK. cbn [bind]. rewrite M1. reflexivity.
  - cbn [List.concat]. rewrite concat_app. injection X as X. rewrite X. reflexivity.
Qed.

(** ** match() *)
Lemma own_mentries : forall nv sid h, mentries nv sid (own_loads nv sid h) = mentries nv sid h.
Proof.
  intros nv sid h. unfold mentries, own_loads. induction h as [|[s me] h IH]; [reflexivity|]. cbn [filter flat_map fst snd]. destruct (of_digest nv sid s) eqn:O; cbn [flat_map fst snd]; [f_equal; exact IH|]. rewrite IH.
  destruct (pat_parse nv s) as [[m ps]|] eqn:P; [|reflexivity]. destruct (pat_parse_ok _ _ _ _ P) as (_ & _ & Q). unfold of_digest, string_digest in O. rewrite Q in O. rewrite O. reflexivity.
Qed.
Theorem c49_match : forall nv h s sid, string_digest nv s = Some sid ->
  match_url nv (mloads nv h) s = match_url nv (mloads nv (own_loads nv sid h)) s.
Proof.
  intros nv h s sid D. unfold string_digest in D. unfold match_url. destruct (parse nv s) as [[m p]|]; [|discriminate]. injection D as D. cbn [bind]. rewrite D. rewrite !mloads_get. unfold the_matcher, mroot, mhist. rewrite own_mentries. reflexivity.
Qed.
Theorem c49_match_same : forall nv h h' s, (forall sid, string_digest nv s = Some sid -> own_loads nv sid h = own_loads nv sid h') ->
  match_url nv (mloads nv h) s = match_url nv (mloads nv h') s.
Proof.
  intros nv h h' s H. destruct (string_digest nv s) as [sid|] eqn:D.
  - rewrite (c49_match nv h s sid D), (c49_match nv h' s sid D), (H sid eq_refl). reflexivity.
  - unfold string_digest in D. unfold match_url. destruct (parse nv s) as [[m p]|]; [discriminate|reflexivity].
Qed.
