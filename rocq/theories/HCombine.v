(** make(combine=True) on the nodes as objects: pattern_maker.py:49-62, 103-110.
    Maker.v has it on trees (maker_combine), Lazy.v as a generator on trees. *)
From Coq Require Import String.
From Verif Require Import PyStr Defs UrlLib ParseUtils Views Trees Cluster Patterns Matcher Maker Heap HCluster.

(** A TreeNode whose value is the Pattern of the string [p], among the nodes of Heap.v:
    [n_value] is [pat_value p], whose piece is the string by which Pattern objects are
    equal and hashed (pattern.py:82-88); [n_pattern], a slot of PiecePatternNode
    only, stays [None].  Nothing reads the attributes of both kinds of nodes. *)
Definition pat_value (p : str) : parsed_piece := PP [p] [].
(** 104 root = TreeNode(BasePattern.EMPTY) *)
Definition new_tree_node : prog heap addr :=
  fun H => (H ++ [new_node None (pat_value []) None], Ok (length H)).
(** 106-108: the body of the loop, for the cluster at [a].  pick (utils.py:26-30) takes
    the first list of nodes of dump_tree, and the generator is dropped; without one it
    returns None and nodes[1:] raises TypeError. *)
Definition hcombine_one (root a : addr) : prog heap unit :=
  ps <~ dump_tree a ;;
  match ps with
  | [] => lift (Err EType)
  | nodes :: _ =>
      kvs <~ collect (tl nodes) (fun b => p <~ node_pattern_of b ;; ret (pat_value p, None)) ;;
      c <~ match nodes with
           | [] => lift (Err EIndex)
           | r :: _ => reading (fun H => n <- get H r ;; Ok (n_count n))
           end ;;
      (fun H => build_tree H root kvs c) ;;; ret tt
  end.
(** 103-110 with 60-62: list(pm.make(combine=True)).  For each result its url_meta, its
    root and all nodes at the moment it is handed over. *)
Definition hmake_combine (mcn : Z) (makers : list (str * hmaker)) : prog (heap * list yielded) unit :=
  each makers (fun sm =>
    root <~ on_heap new_tree_node ;;
    hcluster_n 2 (list yielded) mcn (depth (hk_meta (snd sm))) (path_depth (hk_meta (snd sm))) false (hk_root (snd sm))
      (fun a => on_heap (hcombine_one root a)) ;;;
    (fun s => ((fst s, snd s ++ [(hk_meta (snd sm), root, fst s)]), Ok tt))).
