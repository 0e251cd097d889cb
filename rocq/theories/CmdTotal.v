(** The answer of pattern-match for a URL when match() raises nothing (C48). *)
From Coq Require Import String.
From Verif Require Import PyStr Defs UrlLib ParseUtils Spec Views Trees Cluster Patterns Matcher Maker Format Cmd Observe MatchSpec OrderSpec CmdSpec LoadProofs MatchTop MatchTotal CmdMatch.

Theorem c48_answer : forall srt nv all patterns line r url m raw, answer srt nv all patterns line r ->
  utf8_decode line = Ok url -> url_path nv url = Some (m, raw) ->
  (forall s me b Ps, In (s, me) (pattern_loads patterns) -> snd (match_load nv [] s me) = Ok b -> analyze_url_pattern_string s = Ok (m, Ps) -> Forall (fun P => rparse P <> None /\ slash_alone P) Ps) ->
  exists fs, match_url nv (mloads nv (pattern_loads patterns)) url = Ok fs /\
    (fs = [] /\ r = u "N" \/ exists ls, Forall2 (printed patterns m) (if all then fs else firstn 1 (srt found_lt fs)) ls /\ r = join [9%N] ls /\ ls <> []).
Proof.
  intros srt nv all patterns line r url m raw A D U AC. unfold answer in A. rewrite D in A. destruct (c48 nv (pattern_loads patterns) url m raw U AC) as (fs & M). rewrite M in A. exists fs. split; [exact M|]. destruct fs as [|f fs]; [left; auto|right].
  destruct A as (m' & p & ls & P & F & E & N). destruct (url_path_parse _ _ _ _ U) as (_ & _ & P'). assert (m' = m) by congruence. subst m'. exists ls. auto.
Qed.
