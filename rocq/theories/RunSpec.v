(** URLs that differ in one run of characters inside one piece: used in statements
    only. *)
From Coq Require Import String.
From Verif Require Import PyStr Defs UrlLib ParseUtils Spec Trees Cluster Patterns Matcher Maker Observe MatchSpec OneSpec TightSpec.

(** every accepted URL has the structure [m] and the pieces [pre], [A] with a text of
    the space [r] and [B], [post]; [ss] are the texts between [A] and [B] *)
Definition run_varies (nv : str -> bool) (h : list (str * option str)) (m : url_meta) (pre post : list str) (A B r : str) (ss : list str) : Prop :=
  NoDup ss /\
  (forall url meta m' raw, In (url, meta) h -> url_path nv url = Some (m', raw) ->
     m' = m /\ exists s, raw = pre ++ (A ++ s ++ B) :: post /\ in_space r s) /\
  (forall s, In s ss <-> exists url meta, In (url, meta) h /\ url_path nv url = Some (m, pre ++ (A ++ s ++ B) :: post)).
(** what is around the text is of another space where it meets the text: the text is
    one whole run of its piece *)
Definition whole_run (A B r : str) : Prop :=
  (forall A' x, A = A' ++ [x] -> space_text x <> r) /\ (forall x B', B = x :: B' -> space_text x <> r).
(** the parts of a piece: its runs, if there are at most three of them or if taking
    letters, digits and '%' together leaves two parts and does not save [mcn] *)
Definition parts_of (mcn : Z) (t : str) (ws : list str) : Prop :=
  exists rs bs, maximal_runs t rs /\ mixed_cut t bs /\
    let by_runs := length rs <= 3 \/ (2 <= length bs /\ (Z.of_nat (length rs) - Z.of_nat (length bs) < mcn)%Z) in
    (by_runs -> ws = rs) /\ (~ by_runs -> ws = bs).
(** the block with the text that changes, [a ++ s ++ b], and what is around it: the
    block is a part of the piece, but all of it if the text is in the extension of a
    name.extension in the last piece of the path *)
Definition block (mcn : Z) (last : Prop) (A s B A0 a b B0 : str) : Prop :=
  exists ws As Bs a1 b1, parts_of mcn (A ++ s ++ B) ws /\
    ws = As ++ (a1 ++ s ++ b1) :: Bs /\ A = List.concat As ++ a1 /\ B = b1 ++ List.concat Bs /\
    let extension := last /\ dot_cut (A ++ s ++ B) ws /\ Bs = [] in
    (extension -> A0 = [] /\ a = A /\ b = B /\ B0 = []) /\
    (~ extension -> A0 = List.concat As /\ a = a1 /\ b = b1 /\ B0 = List.concat Bs).
(** the pattern of the block [x] with the text [s]: decided by the number and the
    lengths of the texts *)
Definition block_pattern (mcn : Z) (ss : list str) (s x P : str) : Prop :=
  let few := (Z.of_nat (length ss) < mcn)%Z in
  let shared := (mcn <= Z.of_nat (length (of_length (length s) ss)))%Z in
  (few -> literal_text x P) /\
  (~ few -> mixed_lengths mcn ss -> exists rs, spaces_of rs x /\ P = cunit_text (CCls rs None)) /\
  (~ few -> ~ mixed_lengths mcn ss -> shared -> exists rs, spaces_of rs x /\ P = cunit_text (CCls rs (Some (reported x)))) /\
  (~ few -> ~ mixed_lengths mcn ss -> ~ shared -> literal_text x P).
