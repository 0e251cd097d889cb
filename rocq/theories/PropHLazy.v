(** C70: the generators of make(), suspended and resumed in any order, on the nodes as
    objects. *)
From Coq Require Import String.
From Verif Require Import PyStr Defs UrlLib ParseUtils Spec Trees Cluster Patterns Matcher Maker Observe AnySpec LocalSpec LazySpec Heap HeapSpec HCluster HMakeSpec
  Lazy HLazy HLazySpec HLazyTop HLazyCase.

(** [es] is any sequence of loads, accepted or not, of reads of the level of any node, of
    calls of make() and make(combine=True), and of next() on any of the generators; [st] are the objects
    afterwards, [log] what the user got. *)

(** The model with trees (Lazy.v, C55) can do the same: same makers, each reads as the
    tree of the model; same outcomes of next(), each result reads as the tree of the
    model when it is handed over, and is a maker's root exactly if it is one there. *)
Theorem C70_refines : forall nv mcn, (2 <= mcn)%Z -> forall es st gs log, huses nv mcn es st gs log ->
  exists stT gsT logT, uses nv mcn (acts es) stT gsT logT
    /\ Forall2 (fun x y => fst x = fst y /\ hk_meta (snd x) = mk_meta (snd y) /\ reads (hs_heap st) (hk_root (snd x)) (mk_root (snd y))) (hs_makers st) stT
    /\ Forall2 (same_outcome st) (nexts es log) logT.
Proof. exact c70_refines. Qed.
Print Assumptions C70_refines.
(** next() returns, whatever was done before, and raises nothing but StopIteration and
    RuntimeError. *)
Theorem C70_returns : forall nv mcn, (2 <= mcn)%Z -> forall es st gs log, huses nv mcn es st gs log -> length gs = umakes es /\
  forall i, i < umakes es -> exists st' gs' o, huses nv mcn (es ++ [UNext i]) st' gs' (log ++ [GNext o (hs_heap st')]) /\ (forall e, o <> HRaise e).
Proof. exact c70_returns. Qed.
Print Assumptions C70_returns.
(** There is one outcome only. *)
Theorem C70_one : forall nv mcn es st gs log, huses nv mcn es st gs log -> forall st2 gs2 log2, huses nv mcn es st2 gs2 log2 ->
  st2 = st /\ gs2 = gs /\ log2 = log.
Proof. exact c70_one. Qed.
Print Assumptions C70_one.
(** A generator during whose life nothing is loaded, whatever the other generators do:
    no RuntimeError, and once it has stopped, its results read as the clusters of the
    URLs loaded before. *)
Theorem C70_undisturbed : forall nv mcn, (2 <= mcn)%Z -> forall es es' st gs log, huses nv mcn (es ++ UMake false :: es') st gs log -> uloads es' = [] ->
  let l := nexts (es ++ UMake false :: es') log in
  (forall H, ~ In (umakes es, HRuntime, H) l) /\
  ((exists H, In (umakes es, HStop, H) l) -> exists cs ts, make mcn (loads nv (uloads es)) = Ok cs /\ same_clusters cs ts
    /\ Forall2 (fun y c => y_meta y = fst c /\ reads (y_heap y) (y_root y) (snd c)) (results_of (umakes es) l) ts).
Proof. exact c70_undisturbed. Qed.
Print Assumptions C70_undisturbed.
(** A result of make(combine=True): it combines the clusters of the URLs of one digest
    that had been loaded when next() was called, whatever had been done before. *)
Theorem C70_tree : forall nv mcn, (2 <= mcn)%Z -> forall es st gs log, huses nv mcn es st gs log -> forall p m r Hy, nth_error log p = Some (GNext (HTree m r) Hy) ->
  exists sid due ct, let h := uloads (firstn p es) in
    In sid (digests nv h) /\ make mcn (loads nv (own_loads nv sid h)) = Ok due /\ combined m due ct /\ c_val ct = [] /\ reads Hy r (ptree ct).
Proof. exact c70_tree. Qed.
Print Assumptions C70_tree.
(** A generator of make(combine=True) during whose life nothing is loaded: no
    RuntimeError, and once it has stopped, it has given one tree per digest. *)
Theorem C70_combined : forall nv mcn, (2 <= mcn)%Z -> forall es es' st gs log, huses nv mcn (es ++ UMake true :: es') st gs log -> uloads es' = [] ->
  let l := nexts (es ++ UMake true :: es') log in
  (forall H, ~ In (umakes es, HRuntime, H) l) /\
  ((exists H, In (umakes es, HStop, H) l) ->
   Forall2 (fun sid y => exists due ct, make mcn (loads nv (own_loads nv sid (uloads es))) = Ok due /\ combined (y_meta y) due ct /\ reads (y_heap y) (y_root y) (ptree ct))
     (digests nv (uloads es)) (trees_of (umakes es) l)).
Proof. exact c70_combined. Qed.
Print Assumptions C70_combined.
(** The makers are those of the loads alone: generators leave nothing but patterns. *)
Theorem C70_makers : forall nv mcn, (2 <= mcn)%Z -> forall es st gs log, huses nv mcn es st gs log ->
  Forall2 (fun x y => fst x = fst y /\ hk_meta (snd x) = mk_meta (snd y) /\ exists t, reads (hs_heap st) (hk_root (snd x)) t /\ bare t = mk_root (snd y))
    (hs_makers st) (loads nv (uloads es)).
Proof. exact c70_makers. Qed.
Print Assumptions C70_makers.
(** A result that is not the root of a maker stays what it was when it was handed over. *)
Theorem C70_kept : forall nv mcn, (2 <= mcn)%Z -> forall es st gs log p m r Hy t, huses nv mcn es st gs log -> result log p m r Hy -> ~ maker_root st r ->
  reads Hy r t -> reads (hs_heap st) r t.
Proof. exact c70_kept. Qed.
Print Assumptions C70_kept.
(** Only roots of makers are handed over twice, by whatever generators. *)
Theorem C70_once : forall nv mcn, (2 <= mcn)%Z -> forall es st gs log p p' m m' r Hy Hy', huses nv mcn es st gs log -> p < p' ->
  result log p m r Hy -> result log p' m' r Hy' -> maker_root st r.
Proof. exact c70_once. Qed.
Print Assumptions C70_once.
(** Whatever node is reached from the root of a maker or of a result: its parents lead
    back to this root by the same pieces, and level counts them. *)
Theorem C70_down : forall nv mcn, (2 <= mcn)%Z -> forall es st gs log r ks a, huses nv mcn es st gs log -> user_root st log r -> down (hs_heap st) r ks a ->
  chain (hs_heap st) a ks r /\ snd (level (hs_heap st) a) = Ok (length ks).
Proof. exact c70_down. Qed.
Print Assumptions C70_down.
(** These trees share no node. *)
Theorem C70_apart : forall nv mcn, (2 <= mcn)%Z -> forall es st gs log r ks r' ks' a, huses nv mcn es st gs log -> user_root st log r -> down (hs_heap st) r ks a ->
  user_root st log r' -> down (hs_heap st) r' ks' a -> r = r' /\ ks = ks'.
Proof. exact c70_apart. Qed.
Print Assumptions C70_apart.
(** The node that a load returned, whatever is done later: its parents lead to the root
    of the maker and name the pieces of the URL, it is a leaf with count 1, its meta is
    the set of all metas ever loaded with this URL. *)
Theorem C70_node : forall nv mcn, (2 <= mcn)%Z -> forall es st gs log p url me a new, huses nv mcn es st gs log ->
  nth_error es p = Some (ULoad url me) -> nth_error log p = Some (GLoad (Ok (a, new))) ->
  exists m raw mk n, url_path nv url = Some (m, raw) /\ In (digest_of m raw, mk) (hs_makers st)
    /\ chain (hs_heap st) a (map piece_of raw) (hk_root mk)
    /\ nth_error (hs_heap st) a = Some n /\ n_count n = 1%Z /\ entries n = []
    /\ match n_meta n with
       | None => forall x, ~ In (m, raw, Some x) (accepted nv (uloads es))
       | Some l => l <> [] /\ NoDup l /\ forall x, In x l <-> In (m, raw, Some x) (accepted nv (uloads es))
       end.
Proof. exact c70_node. Qed.
Print Assumptions C70_node.
(** Every load has the outcome that it has without the generators. *)
Theorem C70_load : forall nv mcn, (2 <= mcn)%Z -> forall es st gs log p url me, huses nv mcn es st gs log -> nth_error es p = Some (ULoad url me) ->
  exists r, nth_error log p = Some (GLoad r) /\
    match r with
    | Ok (_, new) => snd (load nv (loads nv (uloads (firstn p es))) url me) = Ok new
    | Err e => snd (load nv (loads nv (uloads (firstn p es))) url me) = Err e
    end.
Proof. exact c70_load. Qed.
Print Assumptions C70_load.
(** Two loads return the same object exactly if their URLs have the same structure and
    pieces. *)
Theorem C70_same_node : forall nv mcn, (2 <= mcn)%Z -> forall es st gs log i j url me a new url' me' a' new', huses nv mcn es st gs log ->
  nth_error es i = Some (ULoad url me) -> nth_error log i = Some (GLoad (Ok (a, new))) ->
  nth_error es j = Some (ULoad url' me') -> nth_error log j = Some (GLoad (Ok (a', new'))) ->
  (a = a' <-> url_path nv url = url_path nv url').
Proof. exact c70_same. Qed.
Print Assumptions C70_same_node.
(** is_new: no earlier load returned this object. *)
Theorem C70_is_new : forall nv mcn, (2 <= mcn)%Z -> forall es st gs log i url me a new, huses nv mcn es st gs log ->
  nth_error es i = Some (ULoad url me) -> nth_error log i = Some (GLoad (Ok (a, new))) ->
  (new = true <-> forall j b, j < i -> nth_error log j <> Some (GLoad (Ok (a, b)))).
Proof. exact c70_new. Qed.
Print Assumptions C70_is_new.

(** Two URLs of one maker that make() keeps apart.  The first generator is left suspended
    after its first part; a third URL is loaded; the second generator now finds one
    cluster, the maker's own tree, with the three; then the first generator goes on with
    the part it had, and stops.  A URL of another structure disturbs the second. *)
Definition hlazy_case : list use :=
  [ULoad (u "http://g/a/b") None; ULoad (u "http://g/a/c") (Some (u "x")); UMake false; UNext 0; ULoad (u "http://g/a/d") None; UMake false; UNext 1; UNext 0; ULevel 2;
   UNext 0; ULoad (u "http://h/x") None; UNext 1; UNext 1].
Definition hlazy_end : hstate * list hagen * list got := Eval vm_compute in
  match hgo (fun _ => true) 3 (hnew, [], []) hlazy_case with Some x => x | None => (hnew, [], []) end.
(** the children of a node: key, count, pattern *)
Definition kids_at (H : heap) (r : addr) : list (str * Z * option str) :=
  match nth_error H r with
  | Some n => flat_map (fun e => match nth_error H (snd e) with Some k => [(fst e, n_count k, n_pattern k)] | None => [] end) (entries n)
  | None => []
  end.
Inductive brief := BRoot (r : addr) (kids : list (str * Z * option str)) | BStop | BRuntime | BOther.
Definition briefly (x : nat * hout * heap) : nat * brief :=
  let '(i, o, H) := x in (i, match o with HYield _ r | HTree _ r => BRoot r (kids_at H r) | HStop => BStop | HRuntime => BRuntime | HRaise _ => BOther end).
Example C70_case : let '(st, gs, log) := hlazy_end in
  huses (fun _ => true) 3 hlazy_case st gs log
  /\ map briefly (nexts hlazy_case log) =
     [(0, BRoot 4 [(u "a", 1%Z, Some (u "a"))]); (1, BRoot 0 [(u "a", 3%Z, Some (u "a"))]); (0, BRoot 7 [(u "a", 1%Z, Some (u "a"))]); (0, BStop); (1, BRuntime); (1, BStop)]
  /\ ~ maker_root st 7 /\ maker_root st 0.
Proof.
  assert (G : hgo (fun _ => true) 3 (hnew, [], []) hlazy_case = Some hlazy_end) by (vm_compute; reflexivity).
  pose proof (fun st gs log => hgo_uses (fun _ => true) 3 hlazy_case hnew [] [] st gs log [] (hu_start _ _)) as U. rewrite G in U.
  split; [apply U; reflexivity|]. split; [vm_compute; reflexivity|]. split.
  - intros (sm & [<-|[<-|[]]] & R); discriminate R.
  - eexists. split; [left; reflexivity|reflexivity].
Qed.

(** Two makers; a generator of make(combine=True) is suspended between its two trees
    while another of make() splits the first maker and is left in the middle, and URLs are
    loaded: the second tree has the URL loaded meanwhile, the first stays as it was. *)
Definition hcomb_case : list use :=
  [ULoad (u "http://g/a/b") None; ULoad (u "http://g/a/c") None; ULoad (u "http://h/x") None; UMake true; UNext 0; UMake false; UNext 1; ULoad (u "http://h/y") None; ULoad (u "http://g/a/d") None;
   UNext 0; UNext 1; UNext 0].
Definition hcomb_end : hstate * list hagen * list got := Eval vm_compute in
  match hgo (fun _ => true) 3 (hnew, [], []) hcomb_case with Some x => x | None => (hnew, [], []) end.
Example C70_case_combined : let '(st, gs, log) := hcomb_end in
  huses (fun _ => true) 3 hcomb_case st gs log
  /\ map briefly (nexts hcomb_case log) =
     [(0, BRoot 6 [(u "a", 2%Z, None)]); (1, BRoot 16 [(u "a", 1%Z, Some (u "a"))]); (0, BRoot 24 [(u "x", 1%Z, None); (u "y", 1%Z, None)]);
      (1, BRoot 19 [(u "a", 1%Z, Some (u "a"))]); (0, BStop)]
  /\ kids_at (hs_heap st) 6 = [(u "a", 2%Z, None)].
Proof.
  assert (G : hgo (fun _ => true) 3 (hnew, [], []) hcomb_case = Some hcomb_end) by (vm_compute; reflexivity).
  pose proof (fun st gs log => hgo_uses (fun _ => true) 3 hcomb_case hnew [] [] st gs log [] (hu_start _ _)) as U. rewrite G in U.
  split; [apply U; reflexivity|]. split; vm_compute; reflexivity.
Qed.
