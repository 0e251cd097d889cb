(** The vocabulary of C57: questions put to one Pattern object. *)
From Coq Require Import String.
From Verif Require Import PyStr Spec Re.

(** the answers of the object [o] to match(w) for the [w] of [ws], one after the
    other; the object remembers the compiled expression *)
Fixpoint ask_all (o : pattern_obj) (ws : list str) : option (list bool) :=
  match ws with
  | [] => Some []
  | w :: r => match pattern_match o w with
              | Some (b, o') => match ask_all o' r with Some bs => Some (b :: bs) | None => None end
              | None => None
              end
  end.
(** [P] is in the syntax of Spec.v and asks for fewer than 4294967295 repetitions,
    the number from which re.compile raises OverflowError *)
Definition readable (P : str) : Prop :=
  exists toks, rparse P = Some toks /\
    Forall (fun k => match rnum k with Some n => (n < 4294967295)%N | None => True end) toks.
