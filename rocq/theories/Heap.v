(** Model of the nodes as objects: /repo/src/os_urlpattern/utils.py lines 70-148
    (TreeNode, build_tree), piece_pattern_node.py and the load() of
    pattern_maker.py, as programs that allocate nodes, follow references and
    assign to attributes.  Trees.v models the same code with nodes as values. *)
From Coq Require Import String.
From Verif Require Import PyStr Defs UrlLib ParseUtils Trees Patterns Matcher Maker.

(** a reference to a node *)
Definition addr := nat.
(** utils.py:73-82 TreeNode (parrent, _children, count, value, meta, _level) with
    piece_pattern_node.py:13-20 (_pattern).  _children is [None] or a dict from
    pieces to references; meta as in Trees.v. *)
Record node := Node {
  n_parent : option addr; n_children : option (list (str * addr)); n_count : Z;
  n_value : parsed_piece; n_meta : option (list str); n_level : option nat;
  n_pattern : option str
}.
(** all nodes that were ever created; the reference of a new one is the number of
    those before it *)
Definition heap := list node.

(** reading an attribute goes through [get]; references without a node do not
    exist in Python: [EFuel] *)
Definition get (H : heap) (a : addr) : res node :=
  match nth_error H a with Some n => Ok n | None => Err EFuel end.
(** assigning to attributes of one node *)
Fixpoint put (H : heap) (a : addr) (f : node -> node) : heap :=
  match H, a with
  | [], _ => []
  | n :: r, O => f n :: r
  | n :: r, S b => n :: put r b f
  end.
Definition set_children d n := Node (n_parent n) d (n_count n) (n_value n) (n_meta n) (n_level n) (n_pattern n).
Definition set_level l n := Node (n_parent n) (n_children n) (n_count n) (n_value n) (n_meta n) l (n_pattern n).
(** node.count += d *)
Definition add_count d n :=
  Node (n_parent n) (n_children n) (n_count n + d) (n_value n) (n_meta n) (n_level n) (n_pattern n).
(** piece_pattern_node.py:53-58 add_meta: the branches are those of Trees.add_meta *)
Definition node_add_meta data n :=
  Node (n_parent n) (n_children n) (n_count n) (n_value n) (add_meta data (n_meta n)) (n_level n) (n_pattern n).
(** utils.py:76-82, piece_pattern_node.py:18-20: __init__, and the parent that
    add_child assigns (utils.py:119) *)
Definition new_node (par : option addr) (v : parsed_piece) (p : option str) : node :=
  Node par None 0 v None None p.

(** utils.py:103-123 add_child of the node [a]; [kv] has the key, the piece and the
    pattern (piece_pattern_node.py:81-82).  A program returns the heap it leaves
    and its result. *)
Definition add_child (H : heap) (a : addr) (pp : parsed_piece) (pat : option str)
  : heap * res (addr * bool) :=
  match get H a with
  | Err e => (H, Err e)
  | Ok n =>
      let d := match n_children n with None => [] | Some d => d end in
      let k := piece pp in
      match dget str_eqb k d with
      | Some c => (put H a (set_children (Some d)), Ok (c, false))
      | None =>
          let c := length H in
          (put H a (set_children (Some (d ++ [(k, c)]))) ++ [new_node (Some a) pp pat], Ok (c, true))
      end
  end.
(** utils.py:141-145: the loop of build_tree; [new] is the variable is_new, unbound
    before the first round *)
Fixpoint build_loop (H : heap) (a : addr) (kvs : list (parsed_piece * option str)) (count : Z)
    (new : option bool) : heap * res (addr * option bool) :=
  match kvs with
  | [] => (H, Ok (a, new))
  | (pp, pat) :: r =>
      match add_child H a pp pat with
      | (H1, Err e) => (H1, Err e)
      | (H1, Ok (c, n)) => build_loop (put H1 c (add_count count)) c r count (Some n)
      end
  end.
(** utils.py:126-148 build_tree without meta *)
Definition build_tree (H : heap) (root : addr) (kvs : list (parsed_piece * option str)) (count : Z)
  : heap * res (addr * bool) :=
  match build_loop (put H root (add_count count)) root kvs count None with
  | (H1, Err e) => (H1, Err e)
  | (H1, Ok (a, None)) => (H1, Err EUnbound)
  | (H1, Ok (a, Some n)) => (H1, Ok (a, n))
  end.
(** piece_pattern_node.py:43-48 incr_count(count, True): the node and, following
    parrent, all above it.  A node is always true.  [fuel] bounds the loop. *)
Fixpoint incr_up (fuel : nat) (H : heap) (a : addr) (d : Z) : heap * res unit :=
  match fuel with
  | O => (H, Err EFuel)
  | S fuel' =>
      match get H a with
      | Err e => (H, Err e)
      | Ok n => let H1 := put H a (add_count d) in
                match n_parent n with
                | None => (H1, Ok tt)
                | Some b => incr_up fuel' H1 b d
                end
      end
  end.
(** utils.py:87-97 the property level: the length of the chain of parrent, stored in
    _level the first time *)
Fixpoint climb (fuel : nat) (H : heap) (p : option addr) : res nat :=
  match p with
  | None => Ok 0
  | Some a => match fuel with
              | O => Err EFuel
              | S fuel' => n <- get H a ;; l <- climb fuel' H (n_parent n) ;; Ok (S l)
              end
  end.
Definition level (H : heap) (a : addr) : heap * res nat :=
  match get H a with
  | Err e => (H, Err e)
  | Ok n => match n_level n with
            | Some l => (H, Ok l)
            | None => match climb (length H) H (n_parent n) with
                      | Err e => (H, Err e)
                      | Ok l => (put H a (set_level (Some l)), Ok l)
                      end
            end
  end.
(** piece_pattern_node.py:68-86 build_from_parsed_pieces *)
Definition hbuild_from_parsed_pieces (H : heap) (root : addr) (pps : list parsed_piece)
    (count : Z) (meta : option str) (uniq : bool) : heap * res (addr * bool) :=
  match build_tree H root (map (fun p => (p, None)) pps) count with
  | (H1, Err e) => (H1, Err e)
  | (H1, Ok (a, new)) =>
      let '(H2, o) := if uniq && negb new then incr_up (length H1) H1 a (0 - count) else (H1, Ok tt) in
      match o with
      | Err e => (H2, Err e)
      | Ok _ => (put H2 a (node_add_meta meta), Ok (a, new))
      end
  end.

(** pattern_maker.py:71-74 Maker and 20-22 PatternMaker, over one heap *)
Record hmaker := HMK { hk_meta : url_meta; hk_root : addr }.
Record hstate := HS { hs_heap : heap; hs_makers : list (str * hmaker) }.
Definition hnew : hstate := HS [] [].
(** pattern_maker.py:29-47 PatternMaker.load with 81-95 Maker.load: the state
    afterwards and the node and is_new it returns *)
Definition hload (nv : str -> bool) (st : hstate) (url : str) (meta : option str)
  : hstate * res (addr * bool) :=
  match parse nv url with
  | Err e => (st, Err e)
  | Ok (m, PUrl []) | Ok (m, PPat []) => (st, Err EIndex)
  | Ok (m, PPat _) => (st, Err EValue)
  | Ok (m, PUrl pps) =>
      let sid := parsed_digest m (PUrl pps) in
      let '(H, ms, mk) :=
        match dget str_eqb sid (hs_makers st) with
        | Some mk => (hs_heap st, hs_makers st, mk)
        | None => let mk := HMK m (length (hs_heap st)) in
                  (hs_heap st ++ [new_node None empty_parsed_piece None],
                   hs_makers st ++ [(sid, mk)], mk)
        end in
      let '(H', o) := hbuild_from_parsed_pieces H (hk_root mk) pps 1 meta true in
      (HS H' ms, o)
  end.
