(** C45: which strings PatternMatcher.load accepts, and how they are read. *)
From Coq Require Import String.
From Verif Require Import PyStr Defs UrlLib ParseUtils Spec Views Trees Patterns Matcher MatchSpec GrammarSpec Grammar PropMatch.
From Coq Require Import Lia Sorted.

(** C45. *)
Theorem C45_load_accepts_exactly : forall nv h s me, (exists b, snd (match_load nv (mloads nv h) s me) = Ok b) <->
  startswith s (u "/") = true /\ exists d ks hf Ps, pattern_parts s d ks hf Ps /\ Forall (fun P => exists l, part_means P l) Ps.
Proof. exact c45_accepts. Qed.
Print Assumptions C45_load_accepts_exactly.
(** why a text that starts with '/' is rejected, and with which exception *)
Theorem C45_load_rejects : forall nv h s me e, startswith s (u "/") = true -> snd (match_load nv (mloads nv h) s me) = Err e ->
  (e = EIrregularURL /\ exists path t f, three_parts s path (Some t) f /\ amp_misplaced t) \/
  exists d ks hf Ps P, pattern_parts s d ks hf Ps /\ In P Ps /\ (forall l, ~ part_means P l) /\
    (e = EInvalidPattern \/ (e = EValue /\ exists a ds b, P = a ++ u "{" ++ ds ++ u "}" ++ b /\ isdigit ds = true /\ ~ exists n, decimal ds n)).
Proof. exact c45_rejects. Qed.
Print Assumptions C45_load_rejects.
(** the parts of a pattern *)
Theorem C45_parts : forall s d ks hf Ps, startswith s (u "/") = true ->
  (analyze_url_pattern_string s = Ok (UM d ks hf, Ps) <-> pattern_parts s d ks hf Ps).
Proof. exact parts_exact. Qed.
Print Assumptions C45_parts.
(** the units of a part *)
Theorem C45_units : forall P us, pattern_units P = Ok us <-> part_means P (map (fun x => (pu_str x, pu_rules x, pu_num x)) us).
Proof. exact c45_units. Qed.
Print Assumptions C45_units.

Example C45_case :
  analyze_url_pattern_string (u "/a//b/[a-z0-9a-z]{12}x[\?]k=[0-9]+&q#") =
    Ok (UM 3 [u "k="; u "q"] true, [u "a"; u "b"; u "[a-z0-9a-z]{12}x"; u "[0-9]+"; []; []]) /\
  pattern_units (u "[a-z0-9a-z]{012}xy1[\\\-]{2}") =
    Ok [PU (u "[a-z0-9a-z]{012}") [u "0-9"; u "a-z"] 12; PU (u "xy") [u "a-z"] 2; PU (u "1") [u "0-9"] 1;
        PU (u "[\\\-]{2}") [u "\-"; u "\\"] 2] /\
  map (fun s => snd (match_load (fun _ => true) [] s None))
    [u "/a//b/[a-z0-9a-z]{12}x[\?]k=[0-9]+&q#"; u "/[]+"; u "/[a-z]{0}"; u "/[a-z0-9]"; u "/[\\]"; u "/a[\?]k&&l"; u "/a[\?]#&&";
     u "/a.b"; u "/[a-z"; u "/[a-z]{}"; u "/[a-z]{" ++ [178%N] ++ u "}"] =
    [Ok true; Ok true; Err EInvalidPattern; Err EInvalidPattern; Err EInvalidPattern; Err EIrregularURL; Err EInvalidPattern;
     Err EInvalidPattern; Err EInvalidPattern; Err EInvalidPattern; Err EValue].
Proof. split; [vm_compute; reflexivity|]. split; vm_compute; reflexivity. Qed.
