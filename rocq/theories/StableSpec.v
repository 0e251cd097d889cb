(** The loads of one cluster: used in statements only. *)
From Coq Require Import String.
From Verif Require Import PyStr Defs UrlLib ParseUtils Spec Trees Cluster Patterns Matcher Maker Observe.

(** load accepts [url], and its path is one of the cluster [t] with the structure [m] *)
Definition of_cluster (nv : str -> bool) (m : url_meta) (t : tree) (url : str) : Prop :=
  exists raw nodes, url_path nv url = Some (m, raw) /\ In nodes (paths t) /\ path_pieces nodes = map piece_of raw.
