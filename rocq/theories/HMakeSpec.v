(** What a user sees of make() on the nodes as objects: used in statements only. *)
From Coq Require Import String.
From Verif Require Import PyStr Defs UrlLib ParseUtils Trees Cluster Patterns Matcher Maker Observe Heap HeapSpec HCluster HCombine.

(** what a user does with a PatternMaker: load a URL, read the level of any node, list(pm.make()),
    or list(pm.make(combine=True)) *)
Inductive deed := DLoad (url : str) (meta : option str) | DLevel (a : addr) | DMake | DCombine.
Inductive reply := RLoad (r : res (addr * bool)) | RLevel (r : res nat) | RMake (r : res (list yielded)) | RCombine (r : res (list yielded)).
Definition hdo (nv : str -> bool) (mcn : Z) (st : hstate) (d : deed) : hstate * reply :=
  match d with
  | DLoad url me => let '(st', r) := hload nv st url me in (st', RLoad r)
  | DLevel a => let '(H', r) := level (hs_heap st) a in (HS H' (hs_makers st), RLevel r)
  | DMake => let '((H', ys), r) := hmake mcn (hs_makers st) (hs_heap st, []) in
             (HS H' (hs_makers st), RMake (match r with Ok _ => Ok ys | Err e => Err e end))
  | DCombine => let '((H', ys), r) := hmake_combine mcn (hs_makers st) (hs_heap st, []) in
                (HS H' (hs_makers st), RCombine (match r with Ok _ => Ok ys | Err e => Err e end))
  end.
Fixpoint hdo_all (nv : str -> bool) (mcn : Z) (st : hstate) (ds : list deed) : hstate * list reply :=
  match ds with
  | [] => (st, [])
  | d :: r => let '(st1, o) := hdo nv mcn st d in
              let '(st2, os) := hdo_all nv mcn st1 r in (st2, o :: os)
  end.
(** the objects after [ds], and the replies *)
Definition objects nv mcn ds : hstate := fst (hdo_all nv mcn hnew ds).
Definition replies nv mcn ds : list reply := snd (hdo_all nv mcn hnew ds).

(** the same with the trees of Trees.v *)
Definition tdo (nv : str -> bool) (mcn : Z) (st : state) (d : deed) : state :=
  match d with
  | DLoad url me => fst (load nv st url me)
  | DLevel _ => st
  | DMake | DCombine => make_after mcn st
  end.
Definition trees nv mcn ds : state := fold_left (tdo nv mcn) ds [].
Definition loads_of (ds : list deed) : list (str * option str) :=
  flat_map (fun d => match d with DLoad url me => [(url, me)] | _ => [] end) ds.

(** [down H r ks a]: from the node [r] the keys [ks] of _children lead to the node [a] *)
Inductive down (H : heap) : addr -> list str -> addr -> Prop :=
| down_here : forall r n, nth_error H r = Some n -> down H r [] r
| down_kid : forall r n k b ks a, nth_error H r = Some n -> In (k, b) (entries n) -> down H b ks a -> down H r (k :: ks) a.

(** a result of make(): its url_meta, its root, the nodes when it was handed over *)
Definition y_meta (y : yielded) : url_meta := fst (fst y).
Definition y_root (y : yielded) : addr := snd (fst y).
Definition y_heap (y : yielded) : heap := snd y.
(** the objects before the [i]-th deed and right after it *)
Definition before nv mcn ds i : hstate := objects nv mcn (firstn i ds).
Definition after nv mcn ds i : hstate := objects nv mcn (firstn (S i) ds).
(** a result of the [i]-th deed whose root is a node that did not exist before *)
Definition new_result nv mcn ds i (y : yielded) : Prop :=
  exists ys, nth_error (replies nv mcn ds) i = Some (RMake (Ok ys)) /\ In y ys /\ length (hs_heap (before nv mcn ds i)) <= y_root y.
(** a combined tree as a tree of nodes with the patterns as values and without metadata *)
Fixpoint ptree (t : ctree) : tree := let '(CT v c ks) := t in T (pat_value v) None c None (map ptree ks).
(** a result of the [i]-th deed, which is a make(combine=True) *)
Definition combined_result nv mcn ds i (y : yielded) : Prop :=
  exists ys, nth_error (replies nv mcn ds) i = Some (RCombine (Ok ys)) /\ In y ys.
(** the roots a user has: of the makers, of the results that are new, and of combined trees *)
Definition is_root nv mcn ds (r : addr) : Prop :=
  (exists sm, In sm (hs_makers (objects nv mcn ds)) /\ hk_root (snd sm) = r) \/
  exists i y, (new_result nv mcn ds i y \/ combined_result nv mcn ds i y) /\ y_root y = r.

(** the same deed without combine=True *)
Definition plain (d : deed) : deed := match d with DCombine => DMake | d => d end.
