(** What a user can see of a PatternMatcher: used in statements only. *)
From Coq Require Import String Sorted.
From Verif Require Import PyStr Defs UrlLib ParseUtils Spec Views Trees Patterns Matcher.

(** the state after the loads [h] of (pattern, meta), rejected ones included *)
Definition mloads (nv : str -> bool) (h : list (str * option str)) : mstate :=
  fold_left (fun st l => fst (match_load nv st (fst l) (snd l))) h [].

(** [node_in x n]: [x] is a node of the match tree of [n], or of a tree inside
    one of its view matchers *)
Inductive node_in (x : mnode) : mnode -> Prop :=
| ni_self : node_in x x
| ni_kid : forall n k, In k (m_kids n) -> node_in x k -> node_in x n
| ni_view : forall n v d r t, In (v, BMulti d) (m_vms n) -> In (r, t) d -> node_in x t -> node_in x n.

(** [slash_alone P]: a class of [P] that '/' belongs to has no other character *)
Definition slash_alone (P : str) : Prop := forall toks k, rparse P = Some toks -> In k toks ->
  set_mem 47%N (rset k) = true -> forall c, set_mem c (rset k) = true -> c = 47%N.

(** [last_meta h a o]: [o] is the last meta other than None among the loads in [h]
    of patterns with the structure and the parts [a], None if there is none *)
Definition same_pattern (a : url_meta * list str) (s : str) : Prop :=
  startswith s (u "/") = true /\ analyze_url_pattern_string s = Ok a.
Definition last_meta (h : list (str * option str)) (a : url_meta * list str) (o : option str) : Prop :=
  match o with
  | None => forall s x, In (s, Some x) h -> ~ same_pattern a s
  | Some x => exists h1 s h2, h = h1 ++ (s, Some x) :: h2 /\ same_pattern a s /\
                forall s' x', In (s', Some x') h2 -> ~ same_pattern a s'
  end.

(** ** Patterns as the maker writes them *)
(** a unit: a literal run, or a class (its character spaces in order) with a
    fixed or an open number of characters *)
Inductive cunit := CLit (w : str) | CCls (rs : list str) (n : option N).
Definition cunit_text (x : cunit) : str :=
  match x with
  | CLit w => w
  | CCls rs n => u "[" ++ List.concat rs ++ u "]" ++
      match n with
      | None => u "+"
      | Some k => if N.eqb k 1 then [] else u "{" ++ dec_str k ++ u "}"
      end
  end.
Definition cunit_ok (x : cunit) : Prop :=
  match x with
  | CLit w => literal_unit w
  | CCls rs n => rs <> [] /\ StronglySorted (fun a b => str_ltb a b = true) rs /\
      Forall (fun r => In r space_texts /\ r <> [92%N; 92%N]) rs /\
      match n with None => True | Some k => (N.of_nat (length rs) <= k)%N end
  end.
Definition reads (P : str) (us : list cunit) : Prop :=
  List.concat (map cunit_text us) = P /\ Forall cunit_ok us /\ units_apart (map cunit_text us).
(** in a pattern of several units a class with '/' has nothing else *)
Definition canonical (P : str) : Prop := exists us, reads P us /\
  (2 <= length us -> Forall (fun x => match x with CLit _ => True | CCls rs _ => In (u "/") rs -> rs = [u "/"] end) us).

(** a unit fits a piece of text: the same character spaces, and the length *)
Definition unit_fits (x : cunit) (g : str) : Prop :=
  match x with
  | CLit w => g = w
  | CCls rs n => (forall r, In r rs <-> exists c, In c g /\ space_text c = r) /\
                 match n with None => True | Some k => N.of_nat (length g) = k end
  end.

(** ** How a piece of a URL is cut for a pattern *)
(** letters, digits and '%' together, any other character with itself only *)
Definition mixed_with (a b : char) : Prop :=
  (In a (letters_digits ++ u "%") /\ In b (letters_digits ++ u "%")) \/ a = b.
Fixpoint blocks_apart (ws : list str) : Prop :=
  match ws with
  | a :: t => match t with
              | b :: _ => forall x y, In x a -> In y b -> ~ mixed_with x y
              | [] => True
              end /\ blocks_apart t
  | [] => True
  end.
Definition mixed_cut (s : str) (ws : list str) : Prop :=
  List.concat ws = s
  /\ Forall (fun w => w <> [] /\ forall x y, In x w -> In y w -> mixed_with x y) ws
  /\ blocks_apart ws.
(** name, dots, extension: the extension has one or two runs of letters or digits *)
Definition dot_cut (s : str) (ws : list str) : Prop :=
  exists n d e, ws = [n; d; e] /\ s = n ++ d ++ e /\ (forall n', n <> n' ++ u ".") /\
    d <> [] /\ Forall (eq 46%N) d /\ e <> [] /\ Forall (fun c => In c letters_digits) e /\
    exists rs, maximal_runs e rs /\ length rs <= 2.
Definition one_space (x : cunit) : Prop := match x with CLit _ => True | CCls rs _ => length rs <= 1 end.
Definition dotted (us : list cunit) : Prop :=
  exists a n e, us = [a; CCls [u "\."] n; e] /\
    match e with CLit _ => True | CCls rs _ => forall r, In r rs -> In r [u "0-9"; u "A-Z"; u "a-z"] end.
(** [last]: the last part of the path.  One unit takes the whole piece; patterns
    like name.ext are cut at the last dot; if every unit has one character space
    the piece is cut into runs; otherwise letters, digits and '%' stay together *)
Definition cut_for (last : bool) (us : list cunit) (s : str) (ws : list str) : Prop :=
  match us with
  | [_] => ws = [s]
  | _ => (last = true /\ dotted us /\ dot_cut s ws) \/
         (~ (last = true /\ dotted us) /\
           ((Forall one_space us /\ maximal_runs s ws) \/ (~ Forall one_space us /\ mixed_cut s ws)))
  end.
(** [P] takes the piece [s] *)
Definition takes (last : bool) (P s : str) : Prop :=
  exists us ws, reads P us /\ cut_for last us s ws /\ Forall2 unit_fits us ws.
(** every accepted load of [h] is of a pattern with canonical parts *)
Definition accepted_canonical (nv : str -> bool) (h : list (str * option str)) : Prop :=
  forall s me b m Ps, In (s, me) h -> snd (match_load nv [] s me) = Ok b ->
    analyze_url_pattern_string s = Ok (m, Ps) -> Forall canonical Ps.
(** the parts of the patterns that a call of match() returned *)
Definition parts_of (fs : list found) : list (list str) := map (fun f => map mp_str (fst f)) fs.
