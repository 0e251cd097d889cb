(** C71: make(combine=True) works on the nodes as objects. *)
From Coq Require Import String.
From Verif Require Import PyStr Defs UrlLib ParseUtils Spec Trees Cluster Patterns Matcher Maker Observe LocalSpec LazySpec Heap HeapSpec HCluster HCombine HMakeSpec
  HeapState HcTop HcCombTop.

(** [ds] is any sequence of loads, accepted or not, of reads of the level of any node,
    of list(pm.make()) and of list(pm.make(combine=True)). *)

(** One tree per fuzzy digest, in the order of the first load: the one that combines the
    clusters of the URLs with this digest loaded so far, whatever was made in between.
    The nodes read as this tree when it is handed over, and ever after. *)
Theorem C71_trees : forall nv mcn, (2 <= mcn)%Z -> forall ds i, nth_error ds i = Some DCombine -> exists ys,
  nth_error (replies nv mcn ds) i = Some (RCombine (Ok ys))
  /\ let h := loads_of (firstn i ds) in
     Forall2 (fun sid y => exists due ct, make mcn (loads nv (own_loads nv sid h)) = Ok due /\ combined (y_meta y) due ct /\ c_val ct = []
                /\ reads (y_heap y) (y_root y) (ptree ct) /\ reads (hs_heap (objects nv mcn ds)) (y_root y) (ptree ct)) (digests nv h) ys.
Proof. exact c71_trees. Qed.
Print Assumptions C71_trees.
(** They are, down to the order of the children, the trees of the model with trees. *)
Theorem C71_model : forall nv mcn, (2 <= mcn)%Z -> forall ds i, nth_error ds i = Some DCombine -> exists ys cs,
  nth_error (replies nv mcn ds) i = Some (RCombine (Ok ys))
  /\ Forall2 (fun sm ct => maker_combine mcn (snd sm) = Ok ct) (trees nv mcn (firstn i ds)) cs
  /\ Forall2 (fun y sm => y_meta y = hk_meta (snd sm)) ys (hs_makers (before nv mcn ds i))
  /\ Forall2 (fun y ct => reads (y_heap y) (y_root y) (ptree ct) /\ reads (hs_heap (after nv mcn ds i)) (y_root y) (ptree ct)) ys cs.
Proof. exact c71_combine. Qed.
Print Assumptions C71_model.
(** The roots are objects that did not exist before, no object twice. *)
Theorem C71_new : forall nv mcn, (2 <= mcn)%Z -> forall ds i ys, nth_error (replies nv mcn ds) i = Some (RCombine (Ok ys)) ->
  Forall (fun y => length (hs_heap (before nv mcn ds i)) <= y_root y) ys /\ NoDup (map y_root ys).
Proof. exact c71_new. Qed.
Print Assumptions C71_new.
(** Whatever is loaded or made later, the tree stays what it was. *)
Theorem C71_kept : forall nv mcn, (2 <= mcn)%Z -> forall ds i y t, combined_result nv mcn ds i y ->
  reads (y_heap y) (y_root y) t -> reads (hs_heap (objects nv mcn ds)) (y_root y) t.
Proof. exact c71_kept. Qed.
Print Assumptions C71_kept.
(** Whatever node of it is reached: the parents lead back to the root by the same
    patterns, level counts them, and the node is in the tree of no maker. *)
Theorem C71_down : forall nv mcn, (2 <= mcn)%Z -> forall ds i y ks a, let H := hs_heap (objects nv mcn ds) in
  combined_result nv mcn ds i y -> down H (y_root y) ks a ->
  chain H a ks (y_root y) /\ snd (level H a) = Ok (length ks) /\
  forall sm ks', In sm (hs_makers (objects nv mcn ds)) -> ~ down H (hk_root (snd sm)) ks' a.
Proof. exact c71_down. Qed.
Print Assumptions C71_down.
(** To the makers make(combine=True) does what make() does. *)
Theorem C71_as_make : forall nv mcn, (2 <= mcn)%Z -> forall ds, let st := objects nv mcn ds in let st' := objects nv mcn (map plain ds) in
  Forall2 (fun x y => fst x = fst y /\ hk_meta (snd x) = hk_meta (snd y)
             /\ exists t, reads (hs_heap st) (hk_root (snd x)) t /\ reads (hs_heap st') (hk_root (snd y)) t)
    (hs_makers st) (hs_makers st').
Proof. exact c71_as_make. Qed.
Print Assumptions C71_as_make.

(** Three makers; make(combine=True) twice, with make() and loads in between. *)
Definition hcombine_case : list deed :=
  [DLoad (u "http://h/a1") None; DLoad (u "http://h/a2") None; DLoad (u "http://h/a3") (Some (u "x")); DLoad (u "http://h/b") None;
   DLoad (u "http://g/a/b") None; DCombine;
   DLoad (u "http://h/a4") None; DLoad (u "http://g/a/c") None; DMake; DCombine].
Definition shown (o : reply) : list (addr * nat) :=
  match o with RCombine (Ok ys) => map (fun y => (y_root y, length (y_heap y))) ys | _ => [] end.
(** the subtree at [r]: per node its depth, the string of its value, its count *)
Fixpoint listing (fuel : nat) (H : heap) (d : nat) (r : addr) : list (nat * str * Z) :=
  match fuel, nth_error H r with
  | S fuel, Some n => (d, piece (n_value n), n_count n) :: flat_map (fun e => listing fuel H (S d) (snd e)) (entries n)
  | _, _ => []
  end.
(** per make(combine=True): the roots, and how many nodes there were when each was handed over *)
Example C71_case : map shown (replies (fun _ => true) 3 hcombine_case) =
  [[]; []; []; []; []; [(9, 17); (17, 19); (19, 22)]; []; []; []; [(37, 46); (46, 48); (48, 58)]].
Proof. vm_compute. reflexivity. Qed.
(** the nodes at these roots at the end: the first three are as they were *)
Example C71_case_trees : map (listing 4 (hs_heap (objects (fun _ => true) 3 hcombine_case)) 0) [9; 17; 19; 37; 46; 48] =
  [[(0, u "", 3%Z); (1, u "a[0-9]", 3%Z)]; [(0, u "", 1%Z); (1, u "b", 1%Z)]; [(0, u "", 1%Z); (1, u "a", 1%Z); (2, u "b", 1%Z)];
   [(0, u "", 4%Z); (1, u "a[0-9]", 4%Z)]; [(0, u "", 1%Z); (1, u "b", 1%Z)];
   [(0, u "", 2%Z); (1, u "a", 2%Z); (2, u "b", 1%Z); (2, u "c", 1%Z)]].
Proof. vm_compute. reflexivity. Qed.
(** a combined result, and a node below it *)
Example C71_case_result : exists y, combined_result (fun _ => true) 3 hcombine_case 5 y /\ y_root y = 19
  /\ down (hs_heap (objects (fun _ => true) 3 hcombine_case)) 19 [u "a"; u "b"] 21.
Proof.
  destruct (nth_error (replies (fun _ => true) 3 hcombine_case) 5) as [[r|r|r|[ys|e]]|] eqn:E; vm_compute in E; try discriminate E.
  destruct ys as [|y0 [|y1 [|y2 ys]]]; try discriminate E. exists y2. assert (y_root y2 = 19) as A by (injection E as _ _ <- _; reflexivity).
  split; [exists (y0 :: y1 :: y2 :: ys); split; [vm_compute; exact E|right; right; left; reflexivity]|]. split; [exact A|].
  econstructor; [vm_compute; reflexivity|vm_compute; left; reflexivity|]. econstructor; [vm_compute; reflexivity|vm_compute; left; reflexivity|]. eapply down_here. vm_compute; reflexivity.
Qed.
