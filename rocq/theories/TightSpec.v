(** What in a pattern of make() the URLs of its cluster call for: used in statements only. *)
From Coq Require Import String Sorted.
From Verif Require Import PyStr Defs UrlLib ParseUtils Spec Trees Cluster Patterns Matcher Maker Observe MatchSpec.

(** the piece [s] stands at position [i] of a URL of the cluster [t] *)
Definition at_position (t : tree) (i : nat) (s : str) : Prop :=
  exists nodes raw, In nodes (paths t) /\ Forall (Forall legal) raw /\ path_pieces nodes = map piece_of raw /\
    nth_error raw i = Some s.
(** [P] is the pattern of the cluster at position [i] *)
Definition pattern_at (t : tree) (i : nat) (P : str) : Prop :=
  exists nodes, In nodes (paths t) /\ nth_error (path_patterns nodes) i = Some P.

(** ** Four ways of cutting a piece *)
(** name, dots and, unless it is empty, extension *)
Definition name_dots_ext (s : str) (ws : list str) : Prop :=
  exists n d e, ws = n :: d :: (match e with [] => [] | _ => [e] end) /\ s = n ++ d ++ e /\
    (forall n', n <> n' ++ u ".") /\ d <> [] /\ Forall (eq 46%N) d /\
    Forall (fun c => In c letters_digits) e /\ exists rs, maximal_runs e rs /\ length rs <= 2.
Inductive way := Whole | Runs | Mixed | LastDot.
Definition cut_by (w : way) (s : str) (ws : list str) : Prop :=
  match w with
  | Whole => ws = [s]
  | Runs => maximal_runs s ws
  | Mixed => mixed_cut s ws
  | LastDot => name_dots_ext s ws
  end.

(** ** What a set of texts calls for *)
(** the length that is reported for a text *)
Definition reported (x : str) : N := N.of_nat (length x + backslash_runs false x).
(** the text as it stands in a pattern *)
Definition literal_text (x P : str) : Prop := exists ws, maximal_runs x ws /\ P = List.concat (map run_text ws).
(** [rs] are the character spaces of [x], in order *)
Definition spaces_of (rs : list str) (x : str) : Prop :=
  StronglySorted (fun a b => str_ltb a b = true) rs /\ forall r, In r rs <-> exists c, In c x /\ space_text c = r.
(** one text: itself; different texts of one length: their common character spaces
    and this length; texts of different lengths: their common character spaces *)
Definition called_for (X : str -> Prop) (P : str) : Prop :=
  (exists x, (forall y, X y <-> y = x) /\ literal_text x P) \/
  (exists rs n, (forall x, X x -> spaces_of rs x /\ reported x = n) /\ (exists x y, X x /\ X y /\ x <> y) /\
     P = cunit_text (CCls rs (Some n))) \/
  (exists rs, (forall x, X x -> spaces_of rs x) /\ (exists x y, X x /\ X y /\ reported x <> reported y) /\
     P = cunit_text (CCls rs None)).
