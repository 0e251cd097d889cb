(** C17, C37: loading into a PatternMatcher (and a PatternMaker). *)
From Coq Require Import String.
From Verif Require Import PyStr Defs UrlLib ParseUtils Views Trees Patterns Matcher Maker MatchSpec MatchVms LoadProofs MatchNest.
From Coq Require Import Sorted.

(** C17. *)
Theorem C17_rejected_load_maker : forall nv st url meta e,
  snd (load nv st url meta) = Err e -> fst (load nv st url meta) = st.
Proof. exact c17_maker. Qed.
Print Assumptions C17_rejected_load_maker.
Theorem C17_rejected_load_matcher : forall nv h s me e,
  snd (match_load nv (mloads nv h) s me) = Err e ->
  fst (match_load nv (mloads nv h) s me) = mloads nv h.
Proof. exact c17_matcher. Qed.
Print Assumptions C17_rejected_load_matcher.

(** two structures, four patterns, and a rejected load *)
Definition case_m : list (str * option str) :=
  [(u "/a/[0-9]{2}", Some (u "x")); (u "/a/[a-z][0-9]{2}[\.]html", None); (u "/[a-z]+/[0-9]{2}", Some (u "y"));
   (u "/a[", None); (u "/a/[a-z]+[\-][0-9]{2}", None); (u "/a[\?]k=[0-9]+", None)].
Example C17_case :
  snd (match_load (fun _ => true) (mloads (fun _ => true) case_m) (u "/a/[0-9") None) = Err EInvalidPattern /\
  snd (match_load (fun _ => true) (mloads (fun _ => true) case_m) (u "http://h/a") None) = Err EValue /\
  snd (match_load (fun _ => true) (mloads (fun _ => true) case_m) (u "/a/[a-z]{x}") None) <> Ok true /\
  snd (load (fun _ => true) [] (u "http://h/a b") None) <> Ok true /\
  length (mloads (fun _ => true) case_m) = 4.
Proof. vm_compute. repeat split; discriminate. Qed.

(** C37. *)
Theorem C37_matchers_sorted : forall nv h sid x n, In (sid, x) (mloads nv h) -> node_in n (mm_root x) ->
  StronglySorted lt (map (fun vb => view_order (fst vb)) (m_vms n)).
Proof. exact c37. Qed.
Print Assumptions C37_matchers_sorted.
(** the search finds the matcher of a view class, and leaves the list alone *)
Theorem C37_search_finds : forall nv h sid x n v b, In (sid, x) (mloads nv h) -> node_in n (mm_root x) ->
  In (v, b) (m_vms n) -> exists i, get_matcher (m_vms n) v = Ok (i, m_vms n) /\ nth_error (m_vms n) i = Some (v, b).
Proof. exact mloads_search. Qed.
Print Assumptions C37_search_finds.
(** otherwise it puts a new one where it belongs *)
Theorem C37_search_inserts : forall nv h sid x n v, In (sid, x) (mloads nv h) -> node_in n (mm_root x) ->
  (forall b, ~ In (v, b) (m_vms n)) -> exists i l, get_matcher (m_vms n) v = Ok (i, l) /\
    nth_error l i = Some (v, new_body v) /\ firstn i l ++ skipn (S i) l = m_vms n /\
    StronglySorted lt (map (fun vb => view_order (fst vb)) l).
Proof. exact mloads_insert. Qed.
Print Assumptions C37_search_inserts.
Example C37_case : exists sid x n, In (sid, x) (mloads (fun _ => true) case_m) /\ node_in n (mm_root x) /\
  map fst (m_vms n) = [VPiece; VFuzzy] /\ ~ (exists b, In (VLength, b) (m_vms n)) /\
  exists i, get_matcher (m_vms n) VFuzzy = Ok (i, m_vms n).
Proof.
  eexists. eexists. eexists. split; [apply (nth_error_In _ 0); vm_compute; reflexivity|]. split; [apply ni_self|].
  vm_compute. split; [reflexivity|]. split; [|eauto]. intros (b & [H|[H|[]]]); discriminate.
Qed.
