(** C31: the best match. *)
From Coq Require Import String.
From Verif Require Import PyStr Defs UrlLib ParseUtils Spec Views Trees Patterns Matcher Observe MatchSpec OrderSpec PropMatch PropSound PropExact MatchBest.
From Coq Require Import Lia.

(** C31.  The first element of sorted(results, reverse=True) is the result that is
    greater than all others. *)
Theorem C31_first_is_greatest : forall srt nv h url m raw fs, sorts srt ->
  url_path nv url = Some (m, raw) -> Forall (fun w => ~ In 92%N w) raw -> accepted_canonical nv h ->
  match_url nv (mloads nv h) url = Ok fs ->
  forall f, firstn 1 (srt found_lt fs) = [f] <-> greatest fs f.
Proof. exact c31_best. Qed.
Print Assumptions C31_first_is_greatest.

(** there is one if anything matches, and only one *)
Theorem C31_greatest_exists : forall nv h url m raw fs,
  url_path nv url = Some (m, raw) -> Forall (fun w => ~ In 92%N w) raw -> accepted_canonical nv h ->
  match_url nv (mloads nv h) url = Ok fs -> fs <> [] -> exists f, greatest fs f.
Proof. exact c31_exists. Qed.
Print Assumptions C31_greatest_exists.
Theorem C31_greatest_unique : forall nv h url m raw fs f g,
  url_path nv url = Some (m, raw) -> Forall (fun w => ~ In 92%N w) raw -> accepted_canonical nv h ->
  match_url nv (mloads nv h) url = Ok fs -> greatest fs f -> greatest fs g -> f = g.
Proof. exact c31_unique. Qed.
Print Assumptions C31_greatest_unique.

(** it is the same pattern in whatever order the patterns were loaded *)
Theorem C31_load_order_irrelevant : forall nv h h' url m raw fs fs' f f',
  url_path nv url = Some (m, raw) -> Forall (fun w => ~ In 92%N w) raw ->
  accepted_canonical nv h -> accepted_canonical nv h' ->
  (forall s, (exists me, In (s, me) h) <-> (exists me, In (s, me) h')) ->
  match_url nv (mloads nv h) url = Ok fs -> match_url nv (mloads nv h') url = Ok fs' ->
  greatest fs f -> greatest fs' f' -> fst f = fst f'.
Proof. exact c31_order. Qed.
Print Assumptions C31_load_order_irrelevant.

(** it is the literal pattern of the URL if that is loaded *)
Theorem C31_literal_is_best : forall nv h url m raw fs f s me,
  url_path nv url = Some (m, raw) -> Forall (fun w => ~ In 92%N w) raw -> accepted_canonical nv h ->
  match_url nv (mloads nv h) url = Ok fs ->
  In (s, me) h -> startswith s (u "/") = true -> analyze_url_pattern_string s = Ok (m, map piece_of raw) ->
  greatest fs f -> map mp_str (fst f) = map piece_of raw.
Proof. exact c31_literal. Qed.
Print Assumptions C31_literal_is_best.

(** a function that sorts *)
Theorem C31_sorts_case : sorts isort.
Proof. exact isort_sorts. Qed.
Print Assumptions C31_sorts_case.

Definition case_l : list (str * option str) := case_m ++ [(u "/a/12", None)].
Lemma case_l_canonical : accepted_canonical nv0 case_l.
Proof.
  intros s me b m Ps I L A. unfold case_l in I. apply in_app_iff in I. destruct I as [I|[I|[]]]; [exact (case_canonical s me b m Ps I L A)|].
  inversion I; subst. vm_compute in A. inversion A; subst. constructor; [canon [CLit (u "a")]|]. constructor; [canon [CLit (u "12")]|constructor].
Qed.
(** three patterns match; the literal one is the greatest *)
Example C31_case : exists fs f, match_url nv0 (mloads nv0 case_l) (u "http://h/a/12") = Ok fs /\ length fs = 3 /\
  greatest fs f /\ map mp_str (fst f) = [u "a"; u "12"] /\
  analyze_url_pattern_string (u "/a/12") = Ok (UM 2 [] false, map piece_of [u "a"; u "12"]) /\
  url_path nv0 (u "http://h/a/12") = Some (UM 2 [] false, [u "a"; u "12"]).
Proof.
  assert (U : url_path nv0 (u "http://h/a/12") = Some (UM 2 [] false, [u "a"; u "12"])) by (vm_compute; reflexivity).
  assert (B : Forall (fun w => ~ In 92%N w) [u "a"; u "12"]) by (repeat constructor; cbn; intuition discriminate).
  assert (A : analyze_url_pattern_string (u "/a/12") = Ok (UM 2 [] false, map piece_of [u "a"; u "12"])) by (vm_compute; reflexivity).
  remember (match_url nv0 (mloads nv0 case_l) (u "http://h/a/12")) as r eqn:M. assert (R : match r with Ok fs => length fs | Err _ => 0 end = 3) by (subst r; vm_compute; reflexivity).
  destruct r as [fs|]; [|discriminate]. symmetry in M. destruct (C31_greatest_exists nv0 case_l _ _ _ fs U B case_l_canonical M) as (f & G); [intros ->; discriminate|].
  exists fs, f. split; [reflexivity|]. split; [exact R|]. split; [exact G|]. split; [|split; [exact A|exact U]].
  rewrite (C31_literal_is_best nv0 case_l _ _ _ fs f (u "/a/12") None U B case_l_canonical M) by (try exact G; try exact A; try reflexivity; unfold case_l; apply in_app_iff; right; left; reflexivity). vm_compute. reflexivity.
Qed.
