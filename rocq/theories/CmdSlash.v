(** The answer of pattern-match for a line that begins with '/' (C60). *)
From Coq Require Import String.
From Verif Require Import PyStr Defs UrlLib ParseUtils Spec Views Trees Cluster Patterns Matcher Maker Format Cmd Observe MatchSpec OrderSpec CmdSpec GrammarSpec SlashSpec MatchNest MatchTop SlashTop.

Theorem c60_answer : forall srt nv all patterns line r s, answer srt nv all patterns line r -> utf8_decode line = Ok s -> startswith s (u "/") = true ->
  let h := pattern_loads patterns in
  ((exists e, snd (match_load nv [] s None) = Err e) -> r = u "E") /\
  forall m Ps b, snd (match_load nv [] s None) = Ok b -> analyze_url_pattern_string s = Ok (m, Ps) ->
    ((exists Qs, alike_load nv h m Ps Qs /\ ~ Forall open_class Qs) -> r = u "E") /\
    ((forall Qs, ~ alike_load nv h m Ps Qs) -> r = u "N") /\
    ((forall Qs, alike_load nv h m Ps Qs -> Forall open_class Qs) -> (exists Qs, alike_load nv h m Ps Qs) ->
       exists fs ls, match_url nv (mloads nv h) s = Ok fs /\ fs <> [] /\ Forall2 (printed patterns m) (if all then fs else firstn 1 (srt found_lt fs)) ls /\ r = join [9%N] ls /\ ls <> []).
Proof.
  intros srt nv all patterns line r s A D SS h. unfold answer in A. rewrite D in A. fold h in A. split.
  - intros (e & E). rewrite (c60_rejected nv [] s None e _ SS E) in A. exact A.
  - intros m Ps b L AN. split; [|split].
    + intros (Qs & K & O). rewrite (c60_raises nv h s m Ps b None Qs L AN K O) in A. exact A.
    + intros N. destruct (c60_found nv h s m Ps b None L AN) as (fs & E & _ & I & _); [intros Qs K; destruct (N Qs K)|]. rewrite E in A. destruct fs as [|f fs]; [exact A|]. exfalso. apply (N (map mp_str (fst f))). apply I. left. reflexivity.
    + intros O (Qs & K). destruct (c60_found nv h s m Ps b None L AN O) as (fs & E & _ & I & _). rewrite E in A. destruct fs as [|f fs]; [exfalso; apply I in K; destruct K|]. destruct A as (m' & p & ls & P & F & J & NE).
      destruct (accepted_parse _ _ _ _ L) as (m2 & ps & PP). destruct (pat_parse_ok _ _ _ _ PP) as (_ & _ & PA). destruct (pat_parse_analyze _ _ _ _ PP) as (_ & A' & _). assert (m' = m) by congruence. subst m'. exists (f :: fs), ls. split; [exact E|]. split; [discriminate|]. auto.
Qed.
