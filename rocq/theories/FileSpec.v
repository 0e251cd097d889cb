(** The lines of a file: used in statements only. *)
From Coq Require Import String.
From Verif Require Import PyStr.

(** [ls] are the lines of the bytes: they make up the bytes, none is empty, a line feed
    is at the end of a line only, and at the end of each but the last *)
Definition lines_of (bytes : str) (ls : list str) : Prop :=
  List.concat ls = bytes /\
  (forall before l after, ls = before ++ l :: after -> l <> [] /\
     exists b, ~ In 10%N b /\ (l = b ++ [10%N] \/ l = b /\ after = [])).
(** the bytes of a file that does not end within a line *)
Definition whole_lines (bytes : str) : Prop := bytes = [] \/ exists b, bytes = b ++ [10%N].
