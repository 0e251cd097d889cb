(** Model of /repo/src/os_urlpattern/parsed_piece_view.py lines 10-138.

    A view object is a parsed piece together with its parts
    ([parsed_pieces]); the cached fields are functions of the piece. *)
From Coq Require Import String.
From Verif Require Import PyStr Defs ParseUtils.

(** parse_utils.py:392-402 fuzzy_join with the default separator '/' *)
Definition fuzzy_join (rs : list str) : str := join [SLASH] rs.

(** ParsedPiece((piece,), (rule,)) for pairs (lines 44-45, 80-81, 121-122) *)
Definition mk_parts (ps rs : list str) : list parsed_piece :=
  map (fun pr => PP [fst pr] [snd pr]) (combine ps rs).

(** parsed_piece_view.py:39-46 ParsedPieceView.parsed_pieces, used by MultiView
    (63-64), PieceView and LengthView *)
Definition multi_parts (p : parsed_piece) : list parsed_piece :=
  mk_parts (pieces p) (rules p).

(** parsed_piece_view.py:69-82 MixedView.parsed_pieces *)
Definition mixed_parts (p : parsed_piece) : list parsed_piece :=
  if length (rules p) <=? 1 then [p]
  else let '(mp, mr) := mix (pieces p) (rules p) in mk_parts mp mr.

(** parsed_piece_view.py:92-99: the position of the last dot rule among the last
    three rules *)
Fixpoint first_dot (l : list str) (idx : nat) : option nat :=
  match l with
  | [] => None
  | r :: l' => if 2 <? idx then None
               else if str_eqb r R_DOT then Some idx else first_dot l' (S idx)
  end.
Definition dot_index (rs : list str) : option nat :=
  match first_dot (rev rs) 0 with
  | Some idx => Some (length rs - idx - 1)
  | None => None
  end.

(** parsed_piece_view.py:87-123 LastDotSplitFuzzyView.parsed_pieces *)
Definition ldsf_parts (p : parsed_piece) : list parsed_piece :=
  let whole := [PP [piece p] [fuzzy_rule p]] in
  match dot_index (rules p) with
  | None => whole
  | Some i =>
      let ext := skipn (i + 1) (rules p) in
      if negb (forallb in_digit_ascii ext) then whole
      else
        let '(mp, mr) := mix (skipn (i + 1) (pieces p)) ext in
        mk_parts (List.concat (firstn i (pieces p)) :: nth i (pieces p) [] :: mp)
                 (List.concat (sorted_set (firstn i (rules p))) :: nth i (rules p) [] :: mr)
  end.

(** parsed_piece_view.py:132-138 FuzzyView.parsed_pieces *)
Definition fuzzy_parts (p : parsed_piece) : list parsed_piece :=
  [PP [piece p] [fuzzy_rule p]].

(** parsed_piece_view.py:33-37 ParsedPieceView.view (not overridden by MultiView,
    MixedView and LastDotSplitFuzzyView); == and hash (25-31) compare it *)
Definition view_key (parts : list parsed_piece) : str := fuzzy_join (map fuzzy_rule parts).
