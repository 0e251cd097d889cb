(** C33, C39, C42: dump_tree, the confusion test, progress logging. *)
From Coq Require Import String.
From Verif Require Import PyStr Defs UrlLib ParseUtils Spec Trees Cluster Patterns Matcher Maker Format Cmd Observe
  TreeProofs MiscProofs.

(** C33.  [dump_gen t []] models the generator with its one mutable list: the
    contents of the list at every yield, and at the end. *)
Theorem C33_dump_tree_visits_every_leaf : forall t,
  snd (dump_gen t []) = [t] /\
  (forall nodes, In nodes (fst (dump_gen t [])) <-> is_path t nodes) /\
  map (fun nodes => last nodes t) (fst (dump_gen t [])) = leaf_list t.
Proof. exact c33. Qed.
Print Assumptions C33_dump_tree_visits_every_leaf.
Definition case_t : tree :=
  T empty_parsed_piece None 3 None
    [T (PP [u "a"] [u "a-z"]) None 2 None
       [T (PP [u "b"] [u "a-z"]) None 1 None []; T (PP [u "c"] [u "a-z"]) None 1 None []];
     T (PP [u "d"] [u "a-z"]) None 1 None [T (PP [u "b"] [u "a-z"]) None 1 None []]].
Example C33_case : length (fst (dump_gen case_t [])) = 3 /\
  map path_pieces (fst (dump_gen case_t [])) = [[u "a"; u "b"]; [u "a"; u "c"]; [u "d"; u "b"]].
Proof. vm_compute. auto. Qed.

(** C39. *)
Theorem C39_confused_boundaries :
  (forall total mx th, (total < th)%Z -> confused total mx th = false) /\
  (forall total th, (2 <= th)%Z -> confused total total th = false) /\
  (forall total mx th, (1 <= th)%Z -> (th <= mx)%Z -> (th <= total - mx)%Z -> confused total mx th = true) /\
  (forall a b th, confused (a + b) a th = confused (a + b) b th).
Proof. exact (conj c39_low (conj c39_single (conj c39_both c39_sym))). Qed.
Print Assumptions C39_confused_boundaries.
(** exactly when a data set is confused *)
Theorem C39_confused_iff : forall total mx th, confused total mx th = true <->
  (th <= total)%Z /\ ((th <= mx)%Z /\ (th <= total - mx)%Z \/ (Z.abs (2 * mx - total) <= th - 2)%Z).
Proof. exact c39_iff. Qed.
Print Assumptions C39_confused_iff.
(** the bound on the threshold is needed: a single part can be confused for 0 *)
Example C39_case : confused 6 2 5 = true /\ confused 8 2 5 = false /\ confused 3 3 3 = false /\
  confused 0 0 0 = true.
Proof. vm_compute. auto. Qed.

(** C42. *)
Theorem C42_logging_fires_once_per_interval : forall n k, (0 < k)%N ->
  log_calls n k 0 = map (fun j => (N.of_nat j * k)%N) (seq 1 (N.to_nat (N.of_nat n / k))).
Proof. exact c42. Qed.
Print Assumptions C42_logging_fires_once_per_interval.
Example C42_case : log_calls 10 3 0 = [3; 6; 9]%N.
Proof. vm_compute. reflexivity. Qed.
