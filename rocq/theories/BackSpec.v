(** What backslashes do to the patterns of make(): used in statements only. *)
From Coq Require Import String.
From Verif Require Import PyStr Defs Spec MatchSpec TightSpec.

(** [part_of x p]: the unit [p] of a pattern stands for the text [x] of a piece:
    one run of a character space as it is, or the character spaces of [x] with the
    length that is reported for [x] or with any length *)
Definition part_of (x p : str) : Prop :=
  x <> [] /\
  ((maximal_runs x [x] /\ p = run_text x) \/
   exists rs, spaces_of rs x /\
     (p = cunit_text (CCls rs (Some (reported x))) \/ p = cunit_text (CCls rs None))).
(** [parts_of w P l]: the piece [w] and the part [P] of a pattern, cut side by side *)
Definition parts_of (w P : str) (l : list (str * str)) : Prop :=
  List.concat (map fst l) = w /\ List.concat (map snd l) = P /\
  Forall (fun xp => part_of (fst xp) (snd xp)) l /\ units_apart (map snd l).
(** the number of the unit counts each run of backslashes of [x] once too often *)
Definition miscounted (x p : str) : Prop :=
  In 92%N x /\ exists rs, spaces_of rs x /\ p = cunit_text (CCls rs (Some (reported x))).
(** the bracket that closes the unit stands behind a backslash *)
Definition left_open (p : str) : Prop :=
  exists a q, p = u "[" ++ a ++ u "\]" ++ q /\ ~ In 93%N q.
(** [cuts_of raw Ps ls]: the pieces of a URL and the parts of a pattern, each cut *)
Definition cuts_of (raw Ps : list str) (ls : list (list (str * str))) : Prop :=
  map (fun l => List.concat (map fst l)) ls = raw /\ map (fun l => List.concat (map snd l)) ls = Ps /\
  Forall (fun l => parts_of (List.concat (map fst l)) (List.concat (map snd l)) l) ls.
