(** C60: PatternMatcher.match of a text that begins with '/'. *)
From Coq Require Import String.
From Verif Require Import PyStr Defs UrlLib ParseUtils Spec Views Trees Patterns Matcher Maker Format Cmd Observe MatchSpec OrderSpec CmdSpec GrammarSpec SlashSpec SlashTop CmdSlash.
From Coq Require Import Lia Sorted.

(** C60.  Such a text is read as a pattern: match() raises what load() would raise. *)
Theorem C60_rejected : forall nv h s me e st, startswith s (u "/") = true -> snd (match_load nv (mloads nv h) s me) = Err e -> match_url nv st s = Err e.
Proof. exact c60_rejected. Qed.
Print Assumptions C60_rejected.
(** A text that load() takes is compared with the accepted patterns of the same
    structure whose parts name the same character spaces, part by part.  If each part of
    each of them is one class with '+', all of them are returned, whatever the text says
    beyond its character spaces; each has its last meta *)
Theorem C60_found : forall nv h s m Ps b me, snd (match_load nv [] s me) = Ok b -> analyze_url_pattern_string s = Ok (m, Ps) ->
  (forall Qs, alike_load nv h m Ps Qs -> Forall open_class Qs) ->
  exists fs, match_url nv (mloads nv h) s = Ok fs /\ NoDup (parts_of fs) /\ (forall Qs, In Qs (parts_of fs) <-> alike_load nv h m Ps Qs) /\
    forall f, In f fs -> exists o, m_meta (snd f) = option_map MUser o /\ last_meta h (m, map mp_str (fst f)) o.
Proof. exact c60_found. Qed.
Print Assumptions C60_found.
(** otherwise match() raises AttributeError *)
Theorem C60_raises : forall nv h s m Ps b me Qs, snd (match_load nv [] s me) = Ok b -> analyze_url_pattern_string s = Ok (m, Ps) ->
  alike_load nv h m Ps Qs -> ~ Forall open_class Qs -> match_url nv (mloads nv h) s = Err EAttr.
Proof. exact c60_raises. Qed.
Print Assumptions C60_raises.
Theorem C60_decides : forall nv h s m Ps b me, snd (match_load nv [] s me) = Ok b -> analyze_url_pattern_string s = Ok (m, Ps) ->
  (forall Qs, alike_load nv h m Ps Qs -> Forall open_class Qs) \/ (exists Qs, alike_load nv h m Ps Qs /\ ~ Forall open_class Qs).
Proof. exact c60_decides. Qed.
Print Assumptions C60_decides.
(** the answers of pattern-match for such lines *)
Theorem C60_answer : forall srt nv all patterns line r s, answer srt nv all patterns line r -> utf8_decode line = Ok s -> startswith s (u "/") = true ->
  let h := pattern_loads patterns in
  ((exists e, snd (match_load nv [] s None) = Err e) -> r = u "E") /\
  forall m Ps b, snd (match_load nv [] s None) = Ok b -> analyze_url_pattern_string s = Ok (m, Ps) ->
    ((exists Qs, alike_load nv h m Ps Qs /\ ~ Forall open_class Qs) -> r = u "E") /\
    ((forall Qs, ~ alike_load nv h m Ps Qs) -> r = u "N") /\
    ((forall Qs, alike_load nv h m Ps Qs -> Forall open_class Qs) -> (exists Qs, alike_load nv h m Ps Qs) ->
       exists fs ls, match_url nv (mloads nv h) s = Ok fs /\ fs <> [] /\ Forall2 (printed patterns m) (if all then fs else firstn 1 (srt found_lt fs)) ls /\ r = join [9%N] ls /\ ls <> []).
Proof. exact c60_answer. Qed.
Print Assumptions C60_answer.

(** it does not hold that match() finds a loaded pattern when given its own text, nor
    that what it finds matches the text given *)
Theorem C60_itself_refuted : exists s, snd (match_load (fun _ => true) [] s None) = Ok true /\
  match_url (fun _ => true) (mloads (fun _ => true) [(s, None)]) s = Err EAttr.
Proof. exists (u "/[a-z]{3}"). split; vm_compute; reflexivity. Qed.
Print Assumptions C60_itself_refuted.

Definition slash_loads : list (str * option str) :=
  [(u "/[a-z]+/[0-9\-]+", Some (u "m")); (u "/[a-z]+", None); (u "/[a-za-z]+/[0-9\-]+", None); (u "/[a-z]+/[0-9]{2}", None); (u "/[a-z][\?]k=[]+", None); (u "/[", None)].
Definition shown (r : res (list found)) : res (list (list str * option str)) :=
  match r with Ok fs => Ok (map (fun f => (map mp_str (fst f), match m_meta (snd f) with Some (MUser x) => Some x | _ => None end)) fs) | Err e => Err e end.
Example C60_case :
  map (fun s => shown (match_url (fun _ => true) (mloads (fun _ => true) slash_loads) s))
    [u "/abc"; u "/[a-z]{7}/2024[\-]"; u "/abc/1"; u "/a"; u "/[a-z]+"; u "/abc/[0-9]+"; u "/abc/x"; u "/abc/"; u "/["; u "/a[\?]k="] =
  [Ok [([u "[a-z]+"], None)];
   Ok [([u "[a-z]+"; u "[0-9\-]+"], Some (u "m")); ([u "[a-za-z]+"; u "[0-9\-]+"], None)];
   Err EAttr;
   Ok [([u "[a-z]+"], None)]; Ok [([u "[a-z]+"], None)];
   Err EAttr; Ok []; Ok []; Err EInvalidPattern; Err EAttr].
Proof. vm_compute. reflexivity. Qed.
(** the conditions of C60_found *)
Example C60_case_open : open_class (u "[a-z]+") /\ ~ open_class (u "[0-9]{2}") /\ names (u "abc") (u "a-z") /\
  alike_load (fun _ => true) slash_loads (UM 1 [] false) [u "abc"] [u "[a-z]+"].
Proof.
  assert (NA : names (u "abc") (u "a-z")).
  { exists [(u "abc", [u "a-z"], 3%Z)], (u "abc", [u "a-z"], 3%Z). split; [|split; [left; reflexivity|split; [left; reflexivity|discriminate]]].
    pose proof (proj1 (Grammar.part_exact (u "abc") [PU (u "abc") [u "a-z"] 3%Z])) as H. apply H. vm_compute. reflexivity. }
  assert (OC : unit_means (u "[a-z]+") [u "a-z"] (-1)) by (apply (proj1 (Grammar.unit_exact (PU (u "[a-z]+") [u "a-z"] (-1)%Z))); split; [right|vm_compute; reflexivity]; apply (Grammar.concat_bracket [u "a-z"] (u "+")); [constructor; [vm_compute; auto 80|constructor]|intros [|x [|y l0]]; discriminate|right; left; reflexivity]).
  split; [exists [u "a-z"]; exact OC|]. split.
  - intros (rs & [(c & r & _ & _ & _ & Z)|(l & q & E & _ & _ & _ & _ & Q & _)]); [lia|]. destruct Q as [[_ Q]|[[-> _]|(ds & k & _ & _ & Q)]]; [discriminate| |lia].
    assert (X : rev (u "[0-9]{2}") = rev (u "[" ++ List.concat l ++ u "]" ++ u "+")) by (rewrite E; reflexivity). rewrite !rev_app_distr in X. discriminate.
  - split; [exact NA|]. exists (u "/[a-z]+"), None, true. split; [right; left; reflexivity|]. split; [vm_compute; reflexivity|]. split; [vm_compute; reflexivity|]. constructor; [|constructor].
    assert (MP1 : exists p, MatchLevel.mp_ok p /\ mp_str p = u "abc" /\ mp_fuzzy p = u "a-z") by (eexists (MP (u "abc") _ _); split; [exists false; vm_compute; reflexivity|split; vm_compute; reflexivity]).
    assert (MP2 : exists p, MatchLevel.mp_ok p /\ mp_str p = u "[a-z]+" /\ mp_fuzzy p = u "a-z") by (eexists (MP (u "[a-z]+") _ _); split; [exists false; vm_compute; reflexivity|split; vm_compute; reflexivity]).
    destruct MP1 as (p & P1 & <- & P3). destruct MP2 as (q & Q1 & <- & Q3). apply fuzzy_alike; [assumption..|]. congruence.
Qed.
