(** Statements about make() in any order of loads and sets: used in statements only. *)
From Coq Require Import String Permutation.
From Verif Require Import PyStr Defs UrlLib ParseUtils Spec Trees Cluster Patterns Matcher Maker Observe.

(** histories with the same loads; order and repetitions do not matter *)
Definition same_loads (h h' : list (str * option str)) : Prop := forall l, In l h <-> In l h'.
(** two clusters are the same: the structure, the loaded pieces and metadata, the
    count, and one list of patterns that all their paths have *)
Definition same_cluster (a b : url_meta * tree) : Prop :=
  fst a = fst b /\ Permutation (members (snd a)) (members (snd b)) /\ t_cnt (snd a) = t_cnt (snd b) /\
  exists Ps, (forall nodes, In nodes (paths (snd a)) -> path_patterns nodes = Ps) /\
             (forall nodes, In nodes (paths (snd b)) -> path_patterns nodes = Ps).
(** the same clusters, in any order *)
Definition same_clusters (cs cs' : list (url_meta * tree)) : Prop :=
  exists cs1, Permutation cs cs1 /\ Forall2 same_cluster cs1 cs'.
(** a tree, a maker and a state without the patterns that make() leaves behind *)
Fixpoint bare (t : tree) : tree := match t with T v _ c m ks => T v None c m (map bare ks) end.
Definition bare_maker (mk : maker) : maker := MK (mk_meta mk) (bare (mk_root mk)).
Definition bare_state (st : state) : state := map (fun sm => (fst sm, bare_maker (snd sm))) st.
