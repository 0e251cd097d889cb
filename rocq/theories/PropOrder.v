(** C30: the order of match results. *)
From Coq Require Import String.
From Verif Require Import PyStr Defs UrlLib ParseUtils Spec Views Trees Patterns Matcher Observe MatchSpec OrderSpec PropMatch PropSound PropExact MatchBest.
From Coq Require Import Lia.

(** C30.  No result is less than itself. *)
Theorem C30_irreflexive : forall a, found_lt a a = false.
Proof. exact c30_irrefl. Qed.
Print Assumptions C30_irreflexive.

(** the order is transitive on patterns of one structure, canonical or not *)
Theorem C30_transitive : forall nv s1 s2 s3 m a b c,
  parse nv s1 = Ok (m, PPat (fst a)) -> parse nv s2 = Ok (m, PPat (fst b)) -> parse nv s3 = Ok (m, PPat (fst c)) ->
  found_lt a b = true -> found_lt b c = true -> found_lt a c = true.
Proof. exact c30_trans. Qed.
Print Assumptions C30_transitive.

(** any two results of one call are comparable *)
Theorem C30_total : forall nv h url m raw fs i j f g,
  url_path nv url = Some (m, raw) -> Forall (fun w => ~ In 92%N w) raw -> accepted_canonical nv h ->
  match_url nv (mloads nv h) url = Ok fs -> i <> j -> nth_error fs i = Some f -> nth_error fs j = Some g ->
  found_lt f g = true \/ found_lt g f = true.
Proof. exact c30_total. Qed.
Print Assumptions C30_total.

(** the two results of C26_case: the first is the greater one *)
Example C30_case : exists fs f g, match_url nv0 (mloads nv0 case_m) (u "http://h/a/12") = Ok fs /\ fs = [f; g] /\
  found_lt g f = true /\ found_lt f g = false /\ accepted_canonical nv0 case_m /\
  map mp_str (fst f) = [u "a"; u "[0-9]{2}"] /\ map mp_str (fst g) = [u "[a-z]+"; u "[0-9]{2}"].
Proof.
  eexists. eexists. eexists. split; [vm_compute; reflexivity|]. split; [reflexivity|]. split; [vm_compute; reflexivity|].
  split; [vm_compute; reflexivity|]. split; [exact case_canonical|]. split; vm_compute; reflexivity.
Qed.

(** that the patterns are canonical is needed: the same class written in two orders *)
Theorem C30_total_refuted : exists h url m raw fs f g,
  url_path nv0 url = Some (m, raw) /\ Forall (fun w => ~ In 92%N w) raw /\
  match_url nv0 (mloads nv0 h) url = Ok fs /\ fs = [f; g] /\ map mp_str (fst f) <> map mp_str (fst g) /\
  found_lt f g = false /\ found_lt g f = false.
Proof.
  exists [(u "/[0-9a-z]+", None); (u "/[a-z0-9]+", None)], (u "http://h/ab12"). eexists. eexists. eexists. eexists. eexists.
  split; [vm_compute; reflexivity|]. split; [apply Forall_forall; intros w [<-|[]]; cbn; intuition discriminate|].
  split; [vm_compute; reflexivity|]. split; [reflexivity|]. split; [vm_compute; discriminate|]. split; vm_compute; reflexivity.
Qed.
Print Assumptions C30_total_refuted.
