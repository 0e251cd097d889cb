(** What sorted(result, reverse=True) does: used in statements only. *)
From Coq Require Import String Sorted Permutation.
From Verif Require Import PyStr Defs UrlLib ParseUtils Spec Views Trees Patterns Matcher.

(** [sorts srt]: [srt lt l] has the elements of [l]; if [lt] is a strict order that
    compares any two of them, from the greatest to the least *)
Definition sorts (srt : (found -> found -> bool) -> list found -> list found) : Prop :=
  forall lt l, Permutation l (srt lt l) /\
    ((forall x, In x l -> lt x x = false) ->
     (forall x y z, In x l -> In y l -> In z l -> lt x y = true -> lt y z = true -> lt x z = true) ->
     (forall i j x y, i <> j -> nth_error l i = Some x -> nth_error l j = Some y -> lt x y = true \/ lt y x = true) ->
     StronglySorted (fun a b => lt b a = true) (srt lt l)).
(** [f] is one of the results and greater than all others *)
Definition greatest (fs : list found) (f : found) : Prop :=
  In f fs /\ forall g, In g fs -> g = f \/ found_lt g f = true.
