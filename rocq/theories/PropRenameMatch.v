(** C58: no letter and no digit is special to PatternMatcher. *)
From Coq Require Import String.
From Verif Require Import PyStr Defs UrlLib ParseUtils Spec Views Trees Cluster Patterns Matcher Maker Observe MatchSpec GrammarSpec UrlSpec RenameSpec RenameState RenamePat PropRename PropMake.

(** C58.  Load the renamed patterns and match the renamed URL: the results are the renamed
    patterns, in the same order and with the same metadata, and they compare with each
    other in the same way; or match() raises the same exception *)
Theorem C58_match : forall nv f g h h' url url' m raw, renaming f g -> Forall2 (renamed_pload f) h h' ->
  url_path nv url = Some (m, raw) -> url_path nv url' = Some (rename_path f (m, raw)) ->
  match match_url nv (mloads nv h) url, match_url nv (mloads nv h') url' with
  | Ok fs, Ok fs' => map view_found fs' = map (rename_found f) (map view_found fs) /\
      forall i j x y x' y', nth_error fs i = Some x -> nth_error fs j = Some y -> nth_error fs' i = Some x' -> nth_error fs' j = Some y' -> found_lt x' y' = found_lt x y
  | Err e, Err e' => e = e'
  | _, _ => False
  end.
Proof. intros nv f g h h' url url' m raw RN. exact (c58_match f g RN nv h h' url url' m raw). Qed.
Print Assumptions C58_match.
(** load answers the same, or rejects both *)
Theorem C58_load : forall nv f g h h' s s' me b, renaming f g -> Forall2 (renamed_pload f) h h' -> renamed_pattern f s s' ->
  (snd (match_load nv (mloads nv h') s' me) = Ok b <-> snd (match_load nv (mloads nv h) s me) = Ok b).
Proof. intros nv f g h h' s s' me b RN F P. exact (c58_load f g RN nv h h' s s' me F P b). Qed.
Print Assumptions C58_load.
(** Renaming the text of a pattern that is accepted renames its structure and its parts *)
Theorem C58_patterns : forall f g s d ks hf Ps, renaming f g -> startswith s (u "/") = true -> pattern_parts s d ks hf Ps ->
  Forall (fun P => exists l, part_means P l) Ps -> Forall balanced ks -> renamed_pattern f s (rename_text f s).
Proof. exact c58_patterns. Qed.
Print Assumptions C58_patterns.

Definition case_pats := map (fun s : string => (u s, Some (u s)))
  ["/ab/[a-z]{2}x1"; "/ab/[0-9a-z]+"; "/ab/[a-z]+1"; "/ab"; "/ab/[0-9a-z]{4}"; "/ab/c.d"; "/ab[\?]id[\-]=[a-z]{2}&k=#[A-Z]"; "http://h/"]%string.
Definition case_pats' := map (fun l => (rename_text case_f (fst l), snd l)) case_pats.
Lemma case_reads : forall s x, startswith s (u "/") = true -> ParseUtils.analyze_url_pattern_string s = Ok x -> reads s x.
Proof. intros s [m Ps] A B. apply reads_iff. auto. Qed.
Lemma case_no : forall s x, startswith s (u "/") = false -> ~ reads s x.
Proof. intros s [m Ps] A [B _]. congruence. Qed.
Lemma case_pat : forall s s' x, reads s x -> reads s' (rename_parts case_f x) -> renamed_pattern case_f s s'.
Proof.
  intros s s' x A B x'. split; [intros C; exists x; split; [exact A|exact (reads_fun _ _ _ C B)]|intros (y & C & ->)]. rewrite (reads_fun _ _ _ C A). exact B.
Qed.
Example C58_case : renaming case_f case_g /\ Forall2 (renamed_pload case_f) case_pats case_pats' /\
  map fst case_pats' = map (fun s : string => u s) ["/bc/[a-z]{2}y8"; "/bc/[0-9a-z]+"; "/bc/[a-z]+8"; "/bc"; "/bc/[0-9a-z]{4}"; "/bc/d.e"; "/bc[\?]je[\-]=[a-z]{2}&l=#[A-Z]"; "iuuq://i/"]%string /\
  url_path nv0 (u "http://h/bc/zay8") = option_map (rename_path case_f) (url_path nv0 (u "http://h/ab/yzx1")) /\
  option_map (map view_found) (match match_url nv0 (mloads nv0 case_pats) (u "http://h/ab/yzx1") with Ok l => Some l | _ => None end) =
    Some [([u "ab"; u "[a-z]+1"], Some (u "/ab/[a-z]+1"));
          ([u "ab"; u "[0-9a-z]{4}"], Some (u "/ab/[0-9a-z]{4}")); ([u "ab"; u "[0-9a-z]+"], Some (u "/ab/[0-9a-z]+"))] /\
  option_map (map view_found) (match match_url nv0 (mloads nv0 case_pats') (u "http://h/bc/zay8") with Ok l => Some l | _ => None end) =
    Some [([u "bc"; u "[a-z]+8"], Some (u "/ab/[a-z]+1"));
          ([u "bc"; u "[0-9a-z]{4}"], Some (u "/ab/[0-9a-z]{4}")); ([u "bc"; u "[0-9a-z]+"], Some (u "/ab/[0-9a-z]+"))].
Proof.
  split; [exact case_renaming|]. split.
  { repeat (apply Forall2_cons; [split; [reflexivity|]; cbn [fst]; first [eapply case_pat; (eapply case_reads; [vm_compute; reflexivity|vm_compute; reflexivity])
      |intros x; split; [intros X; exfalso; revert X; apply case_no; vm_compute; reflexivity|intros (y & X & _); exfalso; revert X; apply case_no; vm_compute; reflexivity]]|]). apply Forall2_nil. }
  repeat split; vm_compute; reflexivity.
Qed.
