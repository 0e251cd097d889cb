(** When match() finds the pattern of a URL's own cluster: used in the statement
    of C27 only. *)
From Coq Require Import String.
From Verif Require Import PyStr Defs UrlLib ParseUtils Spec Views Trees Patterns Matcher Observe MatchSpec.

(** units of letters, digits and '%' only, and units of one other character *)
Definition mixed_texts : list str := [u "0-9"; u "A-Z"; u "a-z"; u "%"].
Definition all_mixed (x : cunit) : Prop :=
  match x with CLit _ => True | CCls rs _ => forall r, In r rs -> In r mixed_texts end.
Definition one_sign (x : cunit) : Prop :=
  match x with CLit _ => False | CCls rs _ => exists r, rs = [r] /\ ~ In r mixed_texts end.
(** only such units, and no two neighbours of the first sort *)
Fixpoint mixed_form (us : list cunit) : Prop :=
  match us with
  | x :: t => (all_mixed x \/ one_sign x) /\
              match t with y :: _ => ~ (all_mixed x /\ all_mixed y) | [] => True end /\ mixed_form t
  | [] => True
  end.
(** [findable last us s]: the matcher cuts the piece [s] where the maker did *)
Definition findable (last : bool) (us : list cunit) (s : str) : Prop :=
  length us <= 1 \/
  (last = true /\ dotted us /\ exists ws, dot_cut s ws) \/
  (~ (last = true /\ dotted us) /\ (Forall one_space us \/ mixed_form us)).
(** the pattern that is printed for a cluster *)
Definition cluster_pattern (mt : url_meta * tree) : str :=
  pack (fst mt) (path_patterns (hd [] (paths (snd mt)))).
(** no piece of an accepted URL of [h] has a backslash *)
Definition no_bs (nv : str -> bool) (h : list (str * option str)) : Prop :=
  forall url me m raw, In (url, me) h -> url_path nv url = Some (m, raw) -> Forall (fun w => ~ In 92%N w) raw.
