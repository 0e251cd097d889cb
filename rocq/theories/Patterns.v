(** Model of /repo/src/os_urlpattern/pattern.py, of view_cls_from_pattern
    (parsed_piece_view.py:141-179) and of MatchPattern (pattern_matcher.py:17-50).

    Pattern.match (pattern.py:88-92, the re module) is in Re.v; Spec.v defines what
    the strings mean as regular expressions. *)
From Coq Require Import String.
From Verif Require Import PyStr Defs ParseUtils.

(** pattern.py:10-19 PatternUnit *)
Record punit := PU { pu_str : str; pu_rules : list str; pu_num : Z }.
Definition mk_unit (w : str) : res punit :=
  '(rs, n) <- parse_pattern_unit_string w ;; Ok (PU w rs n).
(** pattern.py:21-41 is_literal *)
Definition is_literal (x : punit) : bool :=
  if negb (startswith (pu_str x) [BRACKETS_L]) then true
  else match pu_rules x with
       | [r] => (0 <? pu_num x)%Z && negb (in_digit_ascii r)
       | _ => false
       end.
(** pattern.py:43-47 fuzzy_rule; the rules are kept sorted *)
Definition pu_fuzzy (x : punit) : str := List.concat (sorted_set (pu_rules x)).

(** pattern.py:67-75 Pattern.pattern_units *)
Definition pattern_units (p : str) : res (list punit) :=
  ws <- parse_pattern_string p ;; mapM mk_unit ws.
(** pattern.py:94-100 Pattern.fuzzy_rule *)
Definition units_fuzzy (us : list punit) : str := List.concat (sorted_set (flat_map pu_rules us)).

(** The view classes in the order of VIEW_MATCHERS (pattern_matcher.py:156-165) *)
Inductive vcls := VPiece | VMulti | VMixed | VLdsf | VLength | VFuzzy.
Definition view_order (v : vcls) : nat :=
  match v with VPiece => 0 | VMulti => 1 | VMixed => 2 | VLdsf => 3 | VLength => 4 | VFuzzy => 5 end.
Definition vcls_eqb (a b : vcls) : bool := view_order a =? view_order b.

(** parsed_piece_view.py:164-170: the loop over several units *)
Fixpoint multi_view_cls (us : list punit) (acc : vcls) : vcls :=
  match us with
  | [] => acc
  | x :: r => if is_literal x then multi_view_cls r acc
              else if 1 <? length (pu_rules x) then VMixed
              else multi_view_cls r VMulti
  end.
(** parsed_piece_view.py:171-177 *)
Definition ldsf_units (us : list punit) : bool :=
  match us with
  | [_; d; e] =>
      match pu_rules d with [r] => str_eqb r R_DOT | _ => false end
      && forallb in_digit_ascii (pu_rules e)
  | _ => false
  end.
(** parsed_piece_view.py:141-179 view_cls_from_pattern *)
Definition view_cls_from_units (us : list punit) (is_last_path : bool) : vcls :=
  match us with
  | [x] => if is_literal x then VPiece
           else if (pu_num x <? 0)%Z then VFuzzy else VLength
  | _ =>
      let v := multi_view_cls us VPiece in
      if is_last_path && negb (vcls_eqb v VPiece) && ldsf_units us then VLdsf else v
  end.

(** pattern_matcher.py:26-29 MatchPattern *)
Record match_pattern := MP { mp_str : str; mp_units : list punit; mp_view : vcls }.
Definition mk_match_pattern (p : str) (is_last_path : bool) : res match_pattern :=
  us <- pattern_units p ;; Ok (MP p us (view_cls_from_units us is_last_path)).
(** pattern_matcher.py:50 EMPTY_MATCH_PATTERN *)
Definition empty_match_pattern : match_pattern := MP [] [PU [] [[]] 1%Z] VPiece.
Definition mp_fuzzy (m : match_pattern) : str := units_fuzzy (mp_units m).

(** pattern_matcher.py:31-39 cmp_key.  The code builds a new MatchPattern from the
    text of every unit; parsing a unit again gives the same unit
    (MatchLevel.units_facts), so the view class is computed from the unit. *)
Definition cmp_key (m : match_pattern) : str :=
  map (fun x => (48 + N.of_nat (view_order (view_cls_from_units [x] false)))%N) (rev (mp_units m)).
(** pattern_matcher.py:44-47 __lt__ *)
Definition mp_lt (a b : match_pattern) : bool :=
  if vcls_eqb (mp_view a) (mp_view b) then str_ltb (cmp_key b) (cmp_key a)
  else view_order (mp_view b) <? view_order (mp_view a).
