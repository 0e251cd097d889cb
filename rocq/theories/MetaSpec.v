(** Results without the metadata that was loaded: used in statements only. *)
From Coq Require Import String.
From Verif Require Import PyStr Defs UrlLib ParseUtils Trees Cluster Patterns Matcher Maker Observe.

(** a tree without metadata *)
Fixpoint no_meta (t : tree) : tree := match t with T v p c _ ks => T v p c None (map no_meta ks) end.
(** the clusters of a make() without metadata *)
Definition no_metas (r : res (list (url_meta * tree))) : res (list (url_meta * tree)) :=
  match r with Ok cs => Ok (map (fun mt => (fst mt, no_meta (snd mt))) cs) | Err e => Err e end.
(** the patterns of the results of a match() *)
Definition found_patterns (r : res (list found)) : res (list (list match_pattern)) :=
  match r with Ok fs => Ok (map fst fs) | Err e => Err e end.
