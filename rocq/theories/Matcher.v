(** Model of /repo/src/os_urlpattern/parser.py and pattern_matcher.py.

    Nodes are values: a reference to a child is the key of the child, a reference
    to a node from outside is the list of patterns from the root.  Functions that
    may raise after they have changed something return the new state together
    with the outcome. *)
From Coq Require Import String.
From Verif Require Import PyStr Defs UrlLib ParseUtils Views Trees Patterns.

(** parser.py:10-31 parse: ParsedPiece objects for a URL, MatchPattern objects for
    a URL pattern *)
Inductive parsed := PUrl (l : list parsed_piece) | PPat (l : list match_pattern).
Fixpoint mk_patterns (i path_depth : nat) (l : list str) : res (list match_pattern) :=
  match l with
  | [] => Ok []
  | p :: r => m <- mk_match_pattern p (i =? path_depth) ;;
              ms <- mk_patterns (S i) path_depth r ;; Ok (m :: ms)
  end.
Definition parse (nv : str -> bool) (s : str) : res (url_meta * parsed) :=
  if startswith s [SLASH] then
    '(m, ps) <- analyze_url_pattern_string s ;;
    ms <- mk_patterns 1 (path_depth m) ps ;; Ok (m, PPat ms)
  else
    '(m, ps) <- analyze_url nv s ;;
    l <- mapM piece_parse ps ;; Ok (m, PUrl l).
(** parser.py:34-53 fuzzy_digest(url_meta, objs) *)
Definition parsed_digest (m : url_meta) (p : parsed) : str :=
  fuzzy_digest m (match p with
                  | PUrl l => map fuzzy_rule l
                  | PPat l => map mp_fuzzy l
                  end).

(** what is bound to a node of a match tree: the user's object, or (in the tree of
    a MultiPatternViewMatcher) the match node it stands for *)
Inductive mmeta := MUser (x : str) | MRef (key : str).
(** pattern_matcher.py:181-189 PatternMatchNode and the _matchers of the view
    matchers: pattern string -> child (80-84), length -> child (91-95), view ->
    match tree (102-112), list of children (143-150) *)
Inductive mnode :=
  MN (pat : match_pattern) (cnt : Z) (meta : option mmeta) (kids : list mnode)
     (vms : list (vcls * vbody))
with vbody :=
| BPiece (d : list (str * str))
| BLength (d : list (Z * str))
| BMulti (d : list (str * mnode))
| BFuzzy (l : list str).
Definition m_pat (n : mnode) := let '(MN p _ _ _ _) := n in p.
Definition m_cnt (n : mnode) := let '(MN _ c _ _ _) := n in c.
Definition m_meta (n : mnode) := let '(MN _ _ m _ _) := n in m.
Definition m_kids (n : mnode) := let '(MN _ _ _ k _) := n in k.
Definition m_vms (n : mnode) := let '(MN _ _ _ _ v) := n in v.
Definition m_key (n : mnode) : str := mp_str (m_pat n).
Definition m_leaf (n : mnode) : bool := is_nil (m_kids n).
Definition new_mnode (p : match_pattern) : mnode := MN p 0 None [] [].
Definition new_mroot : mnode := new_mnode empty_match_pattern.

Fixpoint mkid_split (key : str) (ks : list mnode) : option (list mnode * mnode * list mnode) :=
  match ks with
  | [] => None
  | k :: r =>
      if str_eqb key (m_key k) then Some ([], k, r)
      else match mkid_split key r with
           | Some (a, x, b) => Some (k :: a, x, b)
           | None => None
           end
  end.

(** pattern_matcher.py:156-163, 168-178: a new view matcher of a class *)
Definition new_body (v : vcls) : vbody :=
  match v with
  | VPiece => BPiece []
  | VMulti | VMixed | VLdsf => BMulti []
  | VLength => BLength []
  | VFuzzy => BFuzzy []
  end.
(** pattern_matcher.py:225-242 _get_matcher: binary search; the index of the
    matcher and the list, in which it may have been inserted *)
Fixpoint get_matcher_loop (fuel : nat) (vms : list (vcls * vbody)) (v : vcls) (s e : nat)
  : res (nat * list (vcls * vbody)) :=
  match fuel with
  | O => Err EFuel
  | S fuel =>
      if s <? e then
        let t := Nat.div2 (e - s) + s in
        match nth_error vms t with
        | None => Err EIndex
        | Some (v', _) =>
            if vcls_eqb v' v then Ok (t, vms)
            else if view_order v' <? view_order v then get_matcher_loop fuel vms v (t + 1) e
            else get_matcher_loop fuel vms v s t
        end
      else Ok (e, firstn e vms ++ (v, new_body v) :: skipn e vms)
  end.
Definition get_matcher (vms : list (vcls * vbody)) (v : vcls) : res (nat * list (vcls * vbody)) :=
  get_matcher_loop (S (length vms)) vms v 0 (length vms).

Definition set_nth {A} (i : nat) (x : A) (l : list A) : list A :=
  firstn i l ++ x :: skipn (S i) l.

Section Build.
  (** build_tree on the tree of a MultiPatternViewMatcher (line 112) *)
  Context (inner : mnode -> list match_pattern -> mmeta -> mnode * res bool).

  (** add_match_node of the view matchers; the child is given by its pattern *)
  Definition add_match_node (b : vbody) (p : match_pattern) : vbody * option exn :=
    match b with
    | BPiece d =>                                                   (* 82-84 *)
        (BPiece (match dget str_eqb (mp_str p) d with
                 | Some _ => d
                 | None => d ++ [(mp_str p, mp_str p)]
                 end), None)
    | BLength d =>                                                  (* 93-95 *)
        match mp_units p with
        | [] => (b, Some EIndex)
        | x :: _ => (BLength (dset Z.eqb (pu_num x) (mp_str p) d), None)
        end
    | BMulti d =>                                                   (* 104-112 *)
        let r := fuzzy_join (map pu_fuzzy (mp_units p)) in
        let t := match dget str_eqb r d with Some t => t | None => new_mroot end in
        match mapM (fun x => mk_match_pattern (pu_str x) false) (mp_units p) with
        | Err e => (BMulti (dset str_eqb r t d), Some e)
        | Ok ps =>
            let '(t', out) := inner t ps (MRef (mp_str p)) in
            (BMulti (dset str_eqb r t' d), match out with Ok _ => None | Err e => Some e end)
        end
    | BFuzzy l => (BFuzzy (l ++ [mp_str p]), None)                  (* 149-150 *)
    end.
  (** lines 251-253 *)
  Definition register (vms : list (vcls * vbody)) (p : match_pattern)
    : list (vcls * vbody) * option exn :=
    match get_matcher vms (mp_view p) with
    | Err e => (vms, Some e)
    | Ok (i, vms') =>
        match nth_error vms' i with
        | None => (vms', Some EIndex)
        | Some (v, b) => let '(b', o) := add_match_node b p in (set_nth i (v, b') vms', o)
        end
    end.

  (** utils.py:126-148 build_tree with add_child (pattern_matcher.py:248-254): the
      tree afterwards, and is_new or the exception *)
  Definition with_kids (n : mnode) (ks : list mnode) (vms : list (vcls * vbody)) (c : Z) : mnode :=
    let '(MN p _ m _ _) := n in MN p c m ks vms.
  Fixpoint mbuild (n : mnode) (ps : list match_pattern) (meta : option mmeta) (new : option bool)
    : mnode * res bool :=
    match n, ps with
    | MN p c m ks vms, [] =>
        (MN p (c + 1) (match meta with Some _ => meta | None => m end) ks vms,
         match new with Some b => Ok b | None => Err EUnbound end)
    | MN p c m ks vms, q :: r =>
        match mkid_split (mp_str q) ks with
        | Some (a, k, b) =>
            let '(k', o) := mbuild k r meta (Some false) in
            (MN p (c + 1) m (a ++ k' :: b) vms, o)
        | None =>
            let '(vms', e) := register vms q in
            match e with
            | Some e => (MN p (c + 1) m (ks ++ [new_mnode q]) vms', Err e)
            | None =>
                let '(k', o) := mbuild (new_mnode q) r meta (Some true) in
                (MN p (c + 1) m (ks ++ [k']) vms', o)
            end
        end
    end.
End Build.

(** [nest]: trees of MultiPatternViewMatchers inside match trees; their patterns
    have one unit, so they hold no such matcher themselves. *)
Fixpoint mbuild_n (nest : nat) (n : mnode) (ps : list match_pattern) (meta : option mmeta)
  : mnode * res bool :=
  match nest with
  | O => (n, Err EFuel)
  | S nest => mbuild (fun t qs r => mbuild_n nest t qs (Some r)) n ps meta None
  end.

(** ** Matching *)
(** An object that is matched: a ParsedPiece, or [None] for a MatchPattern, which
    has none of the attributes piece, pieces, rules and piece_length. *)
Definition mobj := option parsed_piece.
Definition the_piece (o : mobj) : res parsed_piece :=
  match o with Some p => Ok p | None => Err EAttr end.
(** view.parsed_pieces of the classes that MultiPatternViewMatcher is used with *)
Definition view_parts (v : vcls) (p : parsed_piece) : list parsed_piece :=
  match v with
  | VMixed => mixed_parts p
  | VLdsf => ldsf_parts p
  | VFuzzy => fuzzy_parts p
  | _ => multi_parts p
  end.

(** a found node: the patterns from below the root down to it, and the node *)
Notation found := (list match_pattern * mnode)%type.

Section Match.
  (** the metas found by match() on the tree of a MultiPatternViewMatcher *)
  Context (inner : mnode -> list mobj -> res (list (option mmeta))).

  (** match of the view matchers (69-77, 86-88, 97-99, 152-153): keys of children.
      Simplified: the meta of an inner node that is no leaf can be None, which gets
      into the list of nodes and raises AttributeError wherever it is used; here
      it raises at once.  C48 says when this cannot happen. *)
  Definition view_match (v : vcls) (b : vbody) (o : mobj) : res (list str) :=
    match b with
    | BPiece d => p <- the_piece o ;;
                  Ok (match dget str_eqb (piece p) d with Some k => [k] | None => [] end)
    | BLength d => p <- the_piece o ;; n <- piece_length p ;;
                   Ok (match dget Z.eqb n d with Some k => [k] | None => [] end)
    | BMulti d =>
        p <- the_piece o ;;
        let parts := view_parts v p in
        match dget str_eqb (view_key parts) d with
        | None => Ok []
        | Some t =>
            ms <- inner t (map Some parts) ;;
            mapM (fun m => match m with Some (MRef k) => Ok k | _ => Err EAttr end) ms
        end
    | BFuzzy l => Ok l
    end.

  Definition kid_by_key (n : mnode) (k : str) : res mnode :=
    match mkid_split k (m_kids n) with Some (_, x, _) => Ok x | None => Err EKey end.

  (** pattern_matcher.py:195-223 match and _deep_match *)
  Fixpoint nmatch (os : list mobj) (n : mnode) {struct os} : res (list found) :=
    match os with
    | [] => Err EIndex
    | o :: os' =>
        rs <- mapM (fun vb =>
                ks <- view_match (fst vb) (snd vb) o ;;
                nodes <- mapM (kid_by_key n) ks ;;
                match nodes with
                | [] => Ok []
                | k0 :: _ =>
                    if m_leaf k0 then Ok (map (fun k => ([m_pat k], k)) nodes)
                    else fs <- mapM (fun k => f <- nmatch os' k ;;
                                     Ok (map (fun pn => (m_pat k :: fst pn, snd pn)) f)) nodes ;;
                         Ok (List.concat fs)
                end) (m_vms n) ;;
        Ok (List.concat rs)
    end.
End Match.
Fixpoint nmatch_n (nest : nat) (n : mnode) (os : list mobj) : res (list found) :=
  match nest with
  | O => Err EFuel
  | S nest => nmatch (fun t l => fs <- nmatch_n nest t l ;; Ok (map (fun f => m_meta (snd f)) fs)) os n
  end.

(** pattern_matcher.py:256-261 __lt__ of two found nodes of one matcher, given the
    patterns from the node up to (but not including) the root.  The nodes are at
    the same depth, so both roots are reached together. *)
Fixpoint up_lt (a b : list match_pattern) : bool :=
  match a, b with
  | x :: a', y :: b' => if str_eqb (mp_str x) (mp_str y) then up_lt a' b' else mp_lt x y
  | _, _ => false
  end.
Definition found_lt (a b : found) : bool := up_lt (rev (fst a)) (rev (fst b)).

(** ** PatternMatcher (264-311) and Matcher (314-355) *)
Record matcher := MM { mm_meta : url_meta; mm_root : mnode }.
Definition mstate := list (str * matcher).

(** 277-295 load *)
Definition match_load (nv : str -> bool) (st : mstate) (s : str) (meta : option str)
  : mstate * res bool :=
  match parse nv s with
  | Err e => (st, Err e)
  | Ok (m, PUrl []) | Ok (m, PPat []) => (st, Err EIndex)
  | Ok (m, PUrl _) => (st, Err EValue)
  | Ok (m, PPat ps) =>
      let sid := parsed_digest m (PPat ps) in
      let x := match dget str_eqb sid st with Some x => x | None => MM m new_mroot end in
      let '(root, o) := mbuild_n 2 (mm_root x) ps (option_map MUser meta) in
      (dset str_eqb sid (MM (mm_meta x) root) st, o)
  end.
(** 297-311 match *)
Definition match_objs (p : parsed) : list mobj :=
  match p with PUrl l => map Some l | PPat l => map (fun _ => None) l end.
Definition match_url (nv : str -> bool) (st : mstate) (url : str) : res (list found) :=
  '(m, p) <- parse nv url ;;
  match dget str_eqb (parsed_digest m p) st with
  | Some x => nmatch_n 2 (mm_root x) (match_objs p)
  | None => Ok []
  end.
