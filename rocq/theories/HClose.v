(** close() of a generator of make(): used where generators are given up before their end. *)
From Coq Require Import String.
From Verif Require Import PyStr Trees Heap Lazy HLazy.

(** GeneratorExit is raised where the generator is suspended (pattern_maker.py:62, 101 and
    110, pattern_cluster.py:728 and 732).  There is no try, no with and no finally around
    these lines nor in what calls them (pattern_maker.py:49-124, pattern_cluster.py:712-732),
    so nothing is run and the generator is finished; one that has not begun or is
    finished raises nothing either. *)
Definition hclose (g : hagen) : hagen :=
  match g with
  | HPlain _ => HPlain HGEnd
  | HCombined _ => HCombined CEnd
  end.
