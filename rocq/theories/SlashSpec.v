(** What a pattern is to match() when it is given in place of a URL: the vocabulary
    of C60, in terms of the grammar of GrammarSpec.v. *)
From Coq Require Import String.
From Verif Require Import PyStr Defs UrlLib ParseUtils Spec Views Trees Patterns Matcher Observe MatchSpec GrammarSpec.

(** a class with '+', such as [a-z]+ *)
Definition open_class (P : str) : Prop := exists rs, unit_means P rs (-1).
(** [names P r]: the character space [r] occurs in the part [P] *)
Definition names (P r : str) : Prop := exists l x, part_means P l /\ In x l /\ In r (snd (fst x)) /\ r <> [].
Definition alike (P Q : str) : Prop := forall r, names P r <-> names Q r.
(** [alike_load nv h m Ps Qs]: [Qs] are the parts of an accepted pattern of [h] with
    the structure [m] and, part by part, the character spaces of [Ps] *)
Definition alike_load (nv : str -> bool) (h : list (str * option str)) (m : url_meta) (Ps Qs : list str) : Prop :=
  exists s me b, In (s, me) h /\ snd (match_load nv [] s me) = Ok b /\ analyze_url_pattern_string s = Ok (m, Qs) /\ Forall2 alike Ps Qs.
