(** C72: generators of make() that are closed before their end. *)
From Coq Require Import String.
From Verif Require Import PyStr Defs UrlLib ParseUtils Spec Trees Cluster Patterns Matcher Maker Observe AnySpec LocalSpec LazySpec Heap HeapSpec HCluster HMakeSpec
  Lazy HLazy HLazySpec PropHLazy HClose HCloseSpec HCloseCase HCloseProofs.

(** [es] is any sequence of the uses of C70 and of close() on any of the generators. *)

(** Leave out the calls of close(), and those of next() on generators that had been closed:
    the rest is a use of a PatternMaker as in C70, with the same outcomes and the same
    objects in the end, so C70 holds of it. *)
Theorem C72_without : forall nv mcn es st gs log, cuses nv mcn es st gs log -> length es = length log /\
  exists gs', huses nv mcn (map fst (going [] (combine es log))) st gs' (map snd (going [] (combine es log))).
Proof. exact c72_going. Qed.
Print Assumptions C72_without.
(** What was left out had no result: a closed generator raises StopIteration, always. *)
Theorem C72_stop : forall nv mcn es st gs log, cuses nv mcn es st gs log -> forall p q i x, p < q ->
  nth_error es p = Some (CClose i) -> nth_error es q = Some (CUse (UNext i)) -> nth_error log q = Some x -> exists H, x = CGot (GNext HStop H).
Proof. exact c72_stop. Qed.
Print Assumptions C72_stop.
(** next() and close() return, whatever was done before; next() raises nothing but
    StopIteration and RuntimeError. *)
Theorem C72_returns : forall nv mcn, (2 <= mcn)%Z -> forall es st gs log, cuses nv mcn es st gs log -> forall i, i < cmakes es ->
  (exists st' gs' o, cuses nv mcn (es ++ [CUse (UNext i)]) st' gs' (log ++ [CGot (GNext o (hs_heap st'))]) /\ forall e, o <> HRaise e) /\
  exists gs', cuses nv mcn (es ++ [CClose i]) st gs' (log ++ [CClosed]).
Proof. exact c72_returns. Qed.
Print Assumptions C72_returns.
(** There is one outcome only. *)
Theorem C72_one : forall nv mcn es st gs log, cuses nv mcn es st gs log -> forall st2 gs2 log2, cuses nv mcn es st2 gs2 log2 ->
  st2 = st /\ gs2 = gs /\ log2 = log.
Proof. exact c72_one. Qed.
Print Assumptions C72_one.
(** A generator that is not closed and during whose life nothing is loaded, whatever other
    generators are closed: no RuntimeError, and once it has stopped, its results read as
    the clusters of the URLs loaded before. *)
Theorem C72_undisturbed : forall nv mcn, (2 <= mcn)%Z -> forall es es' st gs log, cuses nv mcn (es ++ CUse (UMake false) :: es') st gs log ->
  cloads es' = [] -> ~ In (CClose (cmakes es)) es' ->
  let l := cnexts (es ++ CUse (UMake false) :: es') log in
  (forall H, ~ In (cmakes es, HRuntime, H) l) /\
  ((exists H, In (cmakes es, HStop, H) l) -> exists cs ts, make mcn (loads nv (cloads es)) = Ok cs /\ same_clusters cs ts
    /\ Forall2 (fun y c => y_meta y = fst c /\ reads (y_heap y) (y_root y) (snd c)) (results_of (cmakes es) l) ts).
Proof. exact c72_undisturbed. Qed.
Print Assumptions C72_undisturbed.
(** The same of a generator of make(combine=True): one tree per digest. *)
Theorem C72_combined : forall nv mcn, (2 <= mcn)%Z -> forall es es' st gs log, cuses nv mcn (es ++ CUse (UMake true) :: es') st gs log ->
  cloads es' = [] -> ~ In (CClose (cmakes es)) es' ->
  let l := cnexts (es ++ CUse (UMake true) :: es') log in
  (forall H, ~ In (cmakes es, HRuntime, H) l) /\
  ((exists H, In (cmakes es, HStop, H) l) ->
   Forall2 (fun sid y => exists due ct, make mcn (loads nv (own_loads nv sid (cloads es))) = Ok due /\ combined (y_meta y) due ct /\ reads (y_heap y) (y_root y) (ptree ct))
     (digests nv (cloads es)) (trees_of (cmakes es) l)).
Proof. exact c72_combined. Qed.
Print Assumptions C72_combined.

(** Two URLs that make() keeps apart.  The first generator is closed when it has handed
    over the first of its two parts; the second, made before, then gives both; a third,
    of make(combine=True), is closed before it has begun, a fourth is not. *)
Definition close_before : list cuse := [CUse (ULoad (u "http://g/a/b") None); CUse (ULoad (u "http://g/a/c") None); CUse (UMake false); CUse (UNext 0)].
Definition close_after : list cuse :=
  [CClose 0; CUse (UNext 1); CUse (UNext 0); CUse (UMake true); CClose 2; CUse (UNext 2); CUse (UNext 1); CUse (UMake true); CUse (UNext 3); CClose 0; CUse (UNext 1); CUse (UNext 3)].
Definition close_case : list cuse := close_before ++ CUse (UMake false) :: close_after.
Definition close_end : hstate * list hagen * list cgot := Eval vm_compute in
  match cgo (fun _ => true) 3 (hnew, [], []) close_case with Some x => x | None => (hnew, [], []) end.
Example C72_case : let '(st, gs, log) := close_end in
  cuses (fun _ => true) 3 close_case st gs log /\ cloads close_after = [] /\ cmakes close_before = 1 /\ ~ In (CClose 1) close_after
  /\ map briefly (cnexts close_case log) =
     [(0, BRoot 4 [(u "a", 1%Z, Some (u "a"))]); (1, BRoot 10 [(u "a", 1%Z, Some (u "a"))]); (0, BStop); (2, BStop);
      (1, BRoot 13 [(u "a", 1%Z, Some (u "a"))]); (3, BRoot 16 [(u "a", 2%Z, None)]); (1, BStop); (3, BStop)]
  /\ map fst (going [] (combine close_case log)) =
     [ULoad (u "http://g/a/b") None; ULoad (u "http://g/a/c") None; UMake false; UNext 0; UMake false; UNext 1; UMake true; UNext 1; UMake true; UNext 3; UNext 1; UNext 3].
Proof.
  assert (G : cgo (fun _ => true) 3 (hnew, [], []) close_case = Some close_end) by (vm_compute; reflexivity).
  pose proof (fun st gs log => cgo_uses (fun _ => true) 3 close_case hnew [] [] st gs log [] (cu_start _ _)) as U. rewrite G in U.
  split; [apply U; reflexivity|]. split; [reflexivity|]. split; [reflexivity|]. split; [cbn; intuition discriminate|]. split; vm_compute; reflexivity.
Qed.
