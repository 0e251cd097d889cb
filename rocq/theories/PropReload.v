(** C29: loading a pattern again. *)
From Coq Require Import String.
From Verif Require Import PyStr Defs UrlLib ParseUtils Spec Views Trees Patterns Matcher Observe MatchSpec MatchReload PropMatch PropSound.

(** C29.  is_new of an accepted load: False exactly if a pattern with the same
    structure and the same parts is loaded already. *)
Theorem C29_is_new : forall nv h s me b, snd (match_load nv (mloads nv h) s me) = Ok b ->
  (b = false <-> exists s' me', In (s', me') h /\ startswith s' (u "/") = true /\
                   analyze_url_pattern_string s' = analyze_url_pattern_string s).
Proof. exact c29_new. Qed.
Print Assumptions C29_is_new.
(** Such a load changes no result of match(): the same patterns in the same order,
    or the same exception. *)
Theorem C29_same_results : forall nv h s me, snd (match_load nv (mloads nv h) s me) = Ok false -> forall url,
  match match_url nv (mloads nv h) url, match_url nv (mloads nv (h ++ [(s, me)])) url with
  | Ok fs, Ok gs => map fst fs = map fst gs
  | Err e, Err e' => e = e'
  | _, _ => False
  end.
Proof. exact c29_same. Qed.
Print Assumptions C29_same_results.
(** The meta of a result is the last meta other than None loaded with its pattern. *)
Theorem C29_last_meta : forall nv h url m raw fs path node, url_path nv url = Some (m, raw) ->
  match_url nv (mloads nv h) url = Ok fs -> In (path, node) fs ->
  exists o, m_meta node = option_map MUser o /\ last_meta h (m, map mp_str path) o.
Proof. exact c29_meta. Qed.
Print Assumptions C29_last_meta.
Example C29_case :
  snd (match_load nv0 (mloads nv0 case_m) (u "/a/[0-9]{2}") (Some (u "z"))) = Ok false /\
  snd (match_load nv0 (mloads nv0 case_m) (u "/a/[0-9]{3}") None) = Ok true /\
  results (match_url nv0 (mloads nv0 (case_m ++ [(u "/a/[0-9]{2}", Some (u "z"))])) (u "http://h/a/12")) =
    [([u "a"; u "[0-9]{2}"], Some (MUser (u "z"))); ([u "[a-z]+"; u "[0-9]{2}"], Some (MUser (u "y")))] /\
  results (match_url nv0 (mloads nv0 (case_m ++ [(u "/a/[0-9]{2}", None)])) (u "http://h/a/12")) =
    [([u "a"; u "[0-9]{2}"], Some (MUser (u "x"))); ([u "[a-z]+"; u "[0-9]{2}"], Some (MUser (u "y")))].
Proof. vm_compute. auto. Qed.
