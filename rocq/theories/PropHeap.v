(** C65: the nodes that load() returns are objects. *)
From Coq Require Import String.
From Verif Require Import PyStr Defs UrlLib ParseUtils Spec Trees Patterns Matcher Maker Observe Heap HeapSpec
  HeapProofs HeapLoad HeapState HeapTop.

(** [es] is any sequence of loads, accepted or not, and of reads of the level of any
    node; [hrun] runs it on the nodes as objects, [loads] on the trees of Trees.v. *)

(** The makers found in the objects are those of the model with trees: same digests,
    same order, same structure, same tree. *)
Theorem C65_tree : forall nv es, let st := fst (hrun nv hnew es) in
  Forall2 (fun x y => fst x = fst y /\ hk_meta (snd x) = mk_meta (snd y)
                      /\ reads (hs_heap st) (hk_root (snd x)) (mk_root (snd y)))
    (hs_makers st) (loads nv (loads_in es)).
Proof. exact c65_tree. Qed.
Print Assumptions C65_tree.
(** only one tree can be read *)
Theorem C65_tree_unique : forall H t a t', reads H a t -> reads H a t' -> t = t'.
Proof. exact reads_det. Qed.
Print Assumptions C65_tree_unique.
(** Every load has the same outcome as in the model with trees. *)
Theorem C65_results : forall nv es i url me, nth_error es i = Some (ELoad url me) ->
  exists r, nth_error (snd (hrun nv hnew es)) i = Some (OLoad r) /\
    match r with
    | Ok (_, new) => snd (load nv (loads nv (loads_in (firstn i es))) url me) = Ok new
    | Err e => snd (load nv (loads nv (loads_in (firstn i es))) url me) = Err e
    end.
Proof. exact c65_results. Qed.
Print Assumptions C65_results.

(** The node that a load returned, looked at any time later: its parents lead to the
    root of the maker and name the pieces of the URL, it is a leaf with count 1 and
    without pattern, its meta is the set of all metas ever loaded with this URL. *)
Theorem C65_node : forall nv es i url me a new,
  nth_error es i = Some (ELoad url me) -> nth_error (snd (hrun nv hnew es)) i = Some (OLoad (Ok (a, new))) ->
  let st := fst (hrun nv hnew es) in
  exists m raw mk n, url_path nv url = Some (m, raw) /\ In (digest_of m raw, mk) (hs_makers st)
    /\ chain (hs_heap st) a (map piece_of raw) (hk_root mk)
    /\ nth_error (hs_heap st) a = Some n /\ n_count n = 1%Z /\ entries n = [] /\ n_pattern n = None
    /\ match n_meta n with
       | None => forall x, ~ In (m, raw, Some x) (accepted nv (loads_in es))
       | Some l => l <> [] /\ NoDup l /\ forall x, In x l <-> In (m, raw, Some x) (accepted nv (loads_in es))
       end.
Proof. exact c65_node. Qed.
Print Assumptions C65_node.
(** Two loads return the same object exactly if their URLs have the same structure and
    pieces. *)
Theorem C65_same_node : forall nv es i j url me a new url' me' a' new',
  nth_error es i = Some (ELoad url me) -> nth_error (snd (hrun nv hnew es)) i = Some (OLoad (Ok (a, new))) ->
  nth_error es j = Some (ELoad url' me') -> nth_error (snd (hrun nv hnew es)) j = Some (OLoad (Ok (a', new'))) ->
  (a = a' <-> url_path nv url = url_path nv url').
Proof. exact c65_same. Qed.
Print Assumptions C65_same_node.
(** is_new: no earlier load returned this object *)
Theorem C65_is_new : forall nv es i url me a new,
  nth_error es i = Some (ELoad url me) -> nth_error (snd (hrun nv hnew es)) i = Some (OLoad (Ok (a, new))) ->
  (new = true <-> forall j b, j < i -> nth_error (snd (hrun nv hnew es)) j <> Some (OLoad (Ok (a, b)))).
Proof. exact c65_new. Qed.
Print Assumptions C65_is_new.
(** level, whenever it is read and was read before: the number of nodes above *)
Theorem C65_level : forall nv es a ps r, let st := fst (hrun nv hnew es) in
  chain (hs_heap st) a ps r -> snd (level (hs_heap st) a) = Ok (length ps).
Proof. exact c65_level. Qed.
Print Assumptions C65_level.
(** Every node that was ever created is below the root of one maker and counts the
    distinct URLs below it, at least one. *)
Theorem C65_every_node : forall nv es a, let st := fst (hrun nv hnew es) in a < length (hs_heap st) ->
  exists sid mk pre n, In (sid, mk) (hs_makers st) /\ Forall (Forall legal) pre
    /\ chain (hs_heap st) a (map piece_of pre) (hk_root mk) /\ nth_error (hs_heap st) a = Some n
    /\ n_count n = Z.of_nat (length (filter (prefixb pre) (distinct_paths nv sid (loads_in es))))
    /\ (0 < n_count n)%Z.
Proof. exact c65_every. Qed.
Print Assumptions C65_every_node.

(** a URL twice with different metas, its level in between, another one of the same
    digest, one of another digest, one that is rejected *)
Definition heap_case : list event :=
  [ELoad (u "http://h/a/b1") (Some (u "x")); ELevel 2; ELoad (u "http://h/a/c2") None;
   ELoad (u "http://g/a/b1") (Some (u "w")); ELoad (u "/a") (Some (u "z")); ELoad (u "http://h/a") None; ELevel 1].
Example C65_case : snd (hrun (fun _ => true) hnew heap_case) =
  [OLoad (Ok (2, true)); OLevel (Ok 2); OLoad (Ok (3, true)); OLoad (Ok (2, false)); OLoad (Err EValue);
   OLoad (Ok (5, true)); OLevel (Ok 1)].
Proof. vm_compute. reflexivity. Qed.
Example C65_case_node : map (fun n => (n_parent n, n_count n, n_meta n, n_level n)) (hs_heap (fst (hrun (fun _ => true) hnew heap_case))) =
  [(None, 2%Z, None, None); (Some 0, 2%Z, None, Some 1); (Some 1, 1%Z, Some [u "w"; u "x"], Some 2);
   (Some 1, 1%Z, None, None); (None, 1%Z, None, None); (Some 4, 1%Z, None, None)].
Proof. vm_compute. reflexivity. Qed.
