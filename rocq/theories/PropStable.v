(** C51: a cluster given to a fresh maker is clustered as before. *)
From Coq Require Import String.
From Verif Require Import PyStr Defs UrlLib ParseUtils Spec Trees Cluster Patterns Matcher Maker Observe MatchSpec AnySpec StableSpec PropMake AnyMake Stable.

(** C51.  Given exactly the loads of one cluster, in any order and number, make()
    yields this cluster and nothing else. *)
Theorem C51_cluster_alone : forall nv h h' mcn cs m t,
  (2 <= mcn)%Z -> make mcn (loads nv h) = Ok cs -> In (m, t) cs ->
  (forall l, In l h' <-> In l h /\ of_cluster nv m t (fst l)) ->
  exists t', make mcn (loads nv h') = Ok [(m, t')] /\ same_cluster (m, t) (m, t').
Proof. exact c51. Qed.
Print Assumptions C51_cluster_alone.

(** the history of C19: its second cluster alone, in another order *)
Definition alone_h : list (str * option str) :=
  [(u "http://h/d.html", Some (u "y")); (u "http://h/a.html", None); (u "http://h/c.html", None); (u "http://h/a.html", None)].
Example C51_case : seen (make 2 (loads nv0 alone_h)) =
  [(u "/[a-z][\.]html", [[u "d[\.]html"]; [u "a[\.]html"]; [u "c[\.]html"]])].
Proof. vm_compute. reflexivity. Qed.
Example C51_case_loads : exists m t,
  nth_error (match make 2 (loads nv0 case_h) with Ok cs => cs | Err _ => [] end) 1 = Some (m, t) /\
  Forall (fun l => In l case_h /\ of_cluster nv0 m t (fst l)) alone_h /\ ~ of_cluster nv0 m t (u "http://g/b.html?").
Proof.
  eexists. eexists. split; [vm_compute; reflexivity|].
  split.
  - repeat apply Forall_cons; [..|apply Forall_nil]; (split; [cbn [case_h In]; tauto|]); eexists; eexists; (split; [vm_compute; reflexivity|]).
    + split; [right; right; left; reflexivity|reflexivity].
    + split; [left; reflexivity|reflexivity].
    + split; [right; left; reflexivity|reflexivity].
    + split; [left; reflexivity|reflexivity].
  - intros (raw & nodes & X & _). vm_compute in X. discriminate.
Qed.
(** a part of a cluster is another matter *)
Example C51_part : seen (make 2 (loads nv0 [(u "http://h/a.html", None)])) = [(u "/a[\.]html", [[u "a[\.]html"]])].
Proof. vm_compute. reflexivity. Qed.
