(** What views of a piece are: used in the statement of C38. *)
From Coq Require Import String Sorted.
From Verif Require Import PyStr Defs ParseUtils.

(** [regroups l gs parts]: [gs] cuts the list [l] of (sub-piece, rule) pairs into
    consecutive groups; every part is the text of its group and its rule is the
    set of rules of the group, in order *)
Definition regroups (l : list (str * str)) (gs : list (list (str * str))) (parts : list parsed_piece) : Prop :=
  List.concat gs = l /\
  Forall2 (fun g part => piece part = List.concat (map fst g) /\
             exists rs, StronglySorted (fun a b => str_ltb a b = true) rs /\
               (forall r, In r rs <-> In r (map snd g)) /\ fuzzy_rule part = List.concat rs) gs parts.
(** digits, letters and '%' *)
Definition is_mixed (x : str * str) : Prop := In (snd x) [u "0-9"; u "a-z"; u "A-Z"; u "A-Za-z"; u "%"].
Definition is_word (x : str * str) : Prop := In (snd x) [u "0-9"; u "a-z"; u "A-Z"; u "A-Za-z"].
Definition is_dot (x : str * str) : Prop := snd x = u "\.".
(** groups of a mixed view: single others, and mixed neighbours together *)
Definition mixed_groups (gs : list (list (str * str))) : Prop :=
  Forall (fun g => g <> [] /\ (Forall is_mixed g \/ exists x, g = [x] /\ ~ is_mixed x)) gs /\
  forall a g1 g2 b, gs = a ++ g1 :: g2 :: b -> ~ (Forall is_mixed g1 /\ Forall is_mixed g2).
(** groups of a last-dot split: name, dot, extension (at most two sub-pieces),
    or everything in one *)
Definition dot_split (l : list (str * str)) (gs : list (list (str * str))) : Prop :=
  (exists pre d ext, l = pre ++ d :: ext /\ is_dot d /\ Forall is_word ext /\ length ext <= 2 /\
     gs = pre :: [d] :: match ext with [] => [] | _ => [ext] end) \/
  (~ (exists pre d ext, l = pre ++ d :: ext /\ is_dot d /\ Forall is_word ext /\ length ext <= 2) /\ gs = [l]).
