(** C68: make() works on the nodes as objects. *)
From Coq Require Import String.
From Verif Require Import PyStr Defs UrlLib ParseUtils Spec Trees Cluster Patterns Matcher Maker Observe Heap HeapSpec HCluster HMakeSpec
  HeapState HcTop.

(** [ds] is any sequence of loads, accepted or not, of reads of the level of any node,
    of list(pm.make()) and of list(pm.make(combine=True)); [objects] and [replies] run it on the nodes as objects,
    [trees] on the trees of Trees.v. *)

(** The trees of the makers: same digests, same order, same structure, same pieces,
    counts, metadata and patterns. *)
Theorem C68_trees : forall nv mcn, (2 <= mcn)%Z -> forall ds, let st := objects nv mcn ds in
  Forall2 (fun x y => fst x = fst y /\ hk_meta (snd x) = mk_meta (snd y) /\ reads (hs_heap st) (hk_root (snd x)) (mk_root (snd y)))
    (hs_makers st) (trees nv mcn ds).
Proof. exact c68_trees. Qed.
Print Assumptions C68_trees.
(** Every load, also after make(), has the outcome of the model with trees. *)
Theorem C68_load : forall nv mcn, (2 <= mcn)%Z -> forall ds i url me, nth_error ds i = Some (DLoad url me) ->
  exists r, nth_error (replies nv mcn ds) i = Some (RLoad r) /\
    match r with
    | Ok (_, new) => snd (load nv (trees nv mcn (firstn i ds)) url me) = Ok new
    | Err e => snd (load nv (trees nv mcn (firstn i ds)) url me) = Err e
    end.
Proof. exact c68_load. Qed.
Print Assumptions C68_load.
(** make() gives the results of the model with trees, in the same order: each reads as
    the tree of the model at the moment it is handed over, and still when make() is done. *)
Theorem C68_make : forall nv mcn, (2 <= mcn)%Z -> forall ds i, nth_error ds i = Some DMake -> exists ys cs,
  nth_error (replies nv mcn ds) i = Some (RMake (Ok ys)) /\ make mcn (trees nv mcn (firstn i ds)) = Ok cs
  /\ Forall2 (fun y c => y_meta y = fst c /\ reads (y_heap y) (y_root y) (snd c) /\ reads (hs_heap (after nv mcn ds i)) (y_root y) (snd c)) ys cs.
Proof. exact c68_make. Qed.
Print Assumptions C68_make.
(** Each maker hands over either its own root, as the only result, or at least two
    objects that did not exist before; no object twice. *)
Theorem C68_own_or_new : forall nv mcn, (2 <= mcn)%Z -> forall ds i ys, nth_error (replies nv mcn ds) i = Some (RMake (Ok ys)) -> exists yss, ys = List.concat yss
  /\ Forall2 (fun sm l => Forall (fun y => y_meta y = hk_meta (snd sm)) l /\
       ((exists y, l = [y] /\ y_root y = hk_root (snd sm)) \/
        (2 <= length l /\ Forall (fun y => length (hs_heap (before nv mcn ds i)) <= y_root y) l)))
     (hs_makers (before nv mcn ds i)) yss
  /\ NoDup (map y_root ys).
Proof. exact c68_roots. Qed.
Print Assumptions C68_own_or_new.
(** A result that is a new object stays what it was, whatever is loaded or made later. *)
Theorem C68_kept : forall nv mcn, (2 <= mcn)%Z -> forall ds i y t, new_result nv mcn ds i y ->
  reads (y_heap y) (y_root y) t -> reads (hs_heap (objects nv mcn ds)) (y_root y) t.
Proof. exact c68_kept. Qed.
Print Assumptions C68_kept.
(** Whatever node is reached from the root of a maker or of such a result: its parents
    lead back to this root by the same pieces, and level counts them. *)
Theorem C68_down : forall nv mcn, (2 <= mcn)%Z -> forall ds r ks a, let H := hs_heap (objects nv mcn ds) in is_root nv mcn ds r -> down H r ks a ->
  chain H a ks r /\ snd (level H a) = Ok (length ks).
Proof. exact c68_down. Qed.
Print Assumptions C68_down.
(** These trees share no node. *)
Theorem C68_apart : forall nv mcn, (2 <= mcn)%Z -> forall ds r ks r' ks' a, let H := hs_heap (objects nv mcn ds) in
  is_root nv mcn ds r -> down H r ks a -> is_root nv mcn ds r' -> down H r' ks' a -> r = r' /\ ks = ks'.
Proof. exact c68_apart. Qed.
Print Assumptions C68_apart.
(** The node that a load returned, whatever is loaded or made later: its parents lead to
    the root of the maker and name the pieces of the URL, it is a leaf with count 1, its
    meta is the set of all metas ever loaded with this URL. *)
Theorem C68_node : forall nv mcn, (2 <= mcn)%Z -> forall ds i url me a new,
  nth_error ds i = Some (DLoad url me) -> nth_error (replies nv mcn ds) i = Some (RLoad (Ok (a, new))) ->
  let st := objects nv mcn ds in
  exists m raw mk n, url_path nv url = Some (m, raw) /\ In (digest_of m raw, mk) (hs_makers st)
    /\ chain (hs_heap st) a (map piece_of raw) (hk_root mk)
    /\ nth_error (hs_heap st) a = Some n /\ n_count n = 1%Z /\ entries n = []
    /\ match n_meta n with
       | None => forall x, ~ In (m, raw, Some x) (accepted nv (loads_of ds))
       | Some l => l <> [] /\ NoDup l /\ forall x, In x l <-> In (m, raw, Some x) (accepted nv (loads_of ds))
       end.
Proof. exact c68_node. Qed.
Print Assumptions C68_node.
(** Two loads return the same object exactly if their URLs have the same structure and
    pieces, also with make() in between. *)
Theorem C68_same_node : forall nv mcn, (2 <= mcn)%Z -> forall ds i j url me a new url' me' a' new',
  nth_error ds i = Some (DLoad url me) -> nth_error (replies nv mcn ds) i = Some (RLoad (Ok (a, new))) ->
  nth_error ds j = Some (DLoad url' me') -> nth_error (replies nv mcn ds) j = Some (RLoad (Ok (a', new'))) ->
  (a = a' <-> url_path nv url = url_path nv url').
Proof. exact c68_same. Qed.
Print Assumptions C68_same_node.
(** is_new: no earlier load returned this object *)
Theorem C68_is_new : forall nv mcn, (2 <= mcn)%Z -> forall ds i url me a new,
  nth_error ds i = Some (DLoad url me) -> nth_error (replies nv mcn ds) i = Some (RLoad (Ok (a, new))) ->
  (new = true <-> forall j b, j < i -> nth_error (replies nv mcn ds) j <> Some (RLoad (Ok (a, b)))).
Proof. exact c68_new. Qed.
Print Assumptions C68_is_new.

(** Three makers; the third has one URL, then two, then three.  make() is called each time. *)
Definition hmake_case : list deed :=
  [DLoad (u "http://h/a1") None; DLoad (u "http://h/a2") None; DLoad (u "http://h/a3") (Some (u "x")); DLoad (u "http://h/b") None;
   DLoad (u "http://g/a/b") None; DMake;
   DLoad (u "http://h/a4") None; DLoad (u "http://g/a/c") None; DLevel 2; DMake; DLoad (u "http://g/a/d") None; DMake].
(** per make(): the roots of the results, and how many nodes there were when each was
    handed over *)
Definition shown (o : reply) : list (addr * nat) :=
  match o with RMake (Ok ys) => map (fun y => (y_root y, length (y_heap y))) ys | _ => [] end.
Example C68_case : map shown (replies (fun _ => true) 3 hmake_case) =
  [[]; []; []; []; []; [(0, 15); (4, 15); (6, 15)]; []; []; []; [(0, 24); (4, 24); (24, 30); (27, 30)]; []; [(0, 38); (4, 38); (6, 38)]].
Proof. vm_compute. reflexivity. Qed.
Definition below (H : heap) (r : addr) : list (str * Z * option str) :=
  match nth_error H r with
  | Some n => flat_map (fun e => match nth_error H (snd e) with Some k => [(fst e, n_count k, n_pattern k)] | None => [] end) (entries n)
  | None => []
  end.
(** the result 24 of the second make() is a new object *)
Example C68_case_new : exists y, new_result (fun _ => true) 3 hmake_case 9 y /\ y_root y = 24 /\ below (y_heap y) 24 = [(u "a", 1%Z, Some (u "a"))].
Proof.
  destruct (nth_error (replies (fun _ => true) 3 hmake_case) 9) as [[r|r|[ys|e]|r]|] eqn:E; vm_compute in E; try discriminate E.
  destruct ys as [|y0 [|y1 [|y2 ys]]]; try discriminate E. exists y2. unfold new_result. assert (y_root y2 = 24 /\ below (y_heap y2) 24 = [(u "a", 1%Z, Some (u "a"))]) as [A B].
  { injection E as _ _ <- _. vm_compute. auto. }
  split; [|split; [exact A|exact B]]. exists (y0 :: y1 :: y2 :: ys). split; [vm_compute; exact E|]. split; [right; right; left; reflexivity|]. rewrite A. vm_compute. repeat constructor.
Qed.
(** the result 6 of the first make() is the maker's own root: the next load changes it *)
Example C68_case_own : map (fun i => below (hs_heap (after (fun _ => true) 3 hmake_case i)) 6) [5; 7; 10] =
  [[(u "a", 1%Z, Some (u "a"))]; [(u "a", 2%Z, Some (u "a"))]; [(u "a", 3%Z, Some (u "a"))]].
Proof. vm_compute. reflexivity. Qed.
