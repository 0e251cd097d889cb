(** Model of the tree code: /repo/src/os_urlpattern/utils.py lines 70-173 (TreeNode,
    build_tree, dump_tree) and piece_pattern_node.py.

    Nodes are values instead of objects: the identity of a node is the list of
    pieces from the root, the parent pointer is implicit. *)
From Coq Require Import String.
From Verif Require Import PyStr Defs ParseUtils.

(** utils.py:73-82 TreeNode with piece_pattern_node.py:13-20: value (parsed
    piece), _pattern, count, meta (a set, represented by the strictly increasing
    list of its members) and _children (a dict in insertion order whose keys are
    the pieces of the children). *)
Inductive tree :=
  T (tval : parsed_piece) (tpat : option str) (tcnt : Z) (tmeta : option (list str))
    (tkids : list tree).
Definition t_val (t : tree) := let '(T v _ _ _ _) := t in v.
Definition t_pat (t : tree) := let '(T _ p _ _ _) := t in p.
Definition t_cnt (t : tree) := let '(T _ _ c _ _) := t in c.
Definition t_meta (t : tree) := let '(T _ _ _ m _) := t in m.
Definition t_kids (t : tree) := let '(T _ _ _ _ k) := t in k.
(** piece_pattern_node.py:31-33 *)
Definition t_piece (t : tree) : str := piece (t_val t).
(** piece_pattern_node.py:25-29: the default pattern is the piece *)
Definition t_pattern (t : tree) : str :=
  match t_pat t with Some p => p | None => t_piece t end.
(** utils.py:84-85 *)
Definition leaf (t : tree) : bool := is_nil (t_kids t).

(** a new root: PiecePatternNode((EMPTY_PARSED_PIECE, None)) *)
Definition new_root : tree := T empty_parsed_piece None 0 None [].

(** the child with a given key, with the children before and after it *)
Fixpoint kid_split (key : str) (ks : list tree) : option (list tree * tree * list tree) :=
  match ks with
  | [] => None
  | k :: r =>
      if str_eqb key (t_piece k) then Some ([], k, r)
      else match kid_split key r with
           | Some (a, x, b) => Some (k :: a, x, b)
           | None => None
           end
  end.

(** utils.py:126-148 build_tree with add_child (103-123), for piece trees: the
    count of every node of the path grows by [count], missing children are
    appended, [f] is applied to the meta of the last node.  [new] is the
    variable is_new: unbound ([None]) until the first add_child. *)
Fixpoint build (t : tree) (kvs : list (parsed_piece * option str)) (count : Z)
    (f : option (list str) -> option (list str)) (new : option bool)
    : tree * option bool :=
  match t, kvs with
  | T v p c m ks, [] => (T v p (c + count) (f m) ks, new)
  | T v p c m ks, (pp, pat) :: r =>
      match kid_split (piece pp) ks with
      | Some (a, k, b) =>
          let '(k', n) := build k r count f (Some false) in
          (T v p (c + count) m (a ++ k' :: b), n)
      | None =>
          let '(k', n) := build (T pp pat 0 None []) r count f (Some true) in
          (T v p (c + count) m (ks ++ [k']), n)
      end
  end.

(** piece_pattern_node.py:43-48 incr_count(count, recur=True) called on the node
    at path [keys]: every node from the root to it *)
Fixpoint incr_path (t : tree) (keys : list str) (d : Z) : tree :=
  match t, keys with
  | T v p c m ks, [] => T v p (c + d) m ks
  | T v p c m ks, k :: r =>
      T v p (c + d) m (match kid_split k ks with
                       | Some (a, x, b) => a ++ incr_path x r d :: b
                       | None => ks
                       end)
  end.

(** piece_pattern_node.py:53-58 add_meta *)
Definition add_meta (data : option str) (m : option (list str)) : option (list str) :=
  match data with
  | None => m
  | Some x => Some (set_insert x (match m with Some l => l | None => [] end))
  end.
(** piece_pattern_node.py:60-65 update_meta *)
Definition update_meta (data : option (list str)) (m : option (list str)) : option (list str) :=
  match data with
  | None | Some [] => m
  | Some l => Some (fold_left (fun s x => set_insert x s) l (match m with Some s => s | None => [] end))
  end.

(** piece_pattern_node.py:68-86 build_from_parsed_pieces.  The two steps after
    build_tree (lines 83-85) act on different fields, so add_meta is passed to
    [build]. *)
Definition build_from_parsed_pieces (root : tree) (pps : list parsed_piece)
    (count : Z) (meta : option str) (uniq : bool) : res (tree * bool) :=
  match build root (map (fun p => (p, None)) pps) count (add_meta meta) None with
  | (_, None) => Err EUnbound
  | (t, Some new) =>
      Ok (if uniq && negb new then incr_path t (map piece pps) (- count) else t, new)
  end.

(** piece_pattern_node.py:89-103 build_from_piece_pattern_nodes *)
Definition build_from_nodes (root : tree) (nodes : list tree) : res (tree * bool) :=
  match rev nodes with
  | [] => Err EIndex
  | lastn :: _ =>
      match build root (map (fun n => (t_val n, Some (t_pattern n))) nodes)
                  (t_cnt lastn) (update_meta (t_meta lastn)) None with
      | (_, None) => Err EUnbound
      | (t, Some new) => Ok (t, new)
      end
  end.

(** utils.py:151-173 dump_tree: the paths from the root to the leaves, depth
    first.  The generator reuses one list; [dump_gen] models that list: it
    returns the contents of the list at every yield and at the end.  [paths] is
    what a consumer sees that looks at every yielded list at once. *)
Fixpoint dump_gen (t : tree) (nodes : list tree) : list (list tree) * list tree :=
  let nodes1 := nodes ++ [t] in
  if leaf t then ([nodes1], nodes1)
  else (fix go (ks : list tree) (cur : list tree) : list (list tree) * list tree :=
          match ks with
          | [] => ([], cur)
          | k :: r =>
              let '(ys, cur1) := dump_gen k cur in
              let '(zs, cur2) := go r (removelast cur1) in
              (ys ++ zs, cur2)
          end) (t_kids t) nodes1.

Fixpoint paths (t : tree) : list (list tree) :=
  match t with
  | T _ _ _ _ [] => [[t]]
  | T _ _ _ _ ks => map (cons t) (flat_map paths ks)
  end.
