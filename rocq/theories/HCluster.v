(** Model of /repo/src/os_urlpattern/pattern_cluster.py and of make() as programs
    on the nodes of Heap.v: nodes are objects, every set_pattern assigns to one of
    them, every cluster class of a processor has its own attributes and works when
    its cluster() is called, and the generators hand over each of their results
    before they go on.  Cluster.v models the same code with trees as values.

    Bags and buckets are records: nothing is added to one after it was handed to
    another class.  A set is the list of its members in insertion order (AnyOrder.v
    has all orders). *)
From Coq Require Import String.
From Verif Require Import PyStr Defs UrlLib ParseUtils Views Trees Cluster Patterns Matcher Maker Heap.

(** ** Programs: the state they leave and a result or an exception *)
Definition prog (X A : Type) := X -> X * res A.
Definition ret {X A} (a : A) : prog X A := fun s => (s, Ok a).
Definition lift {X A} (r : res A) : prog X A := fun s => (s, r).
Definition andthen {X A B} (m : prog X A) (f : A -> prog X B) : prog X B :=
  fun s => match m s with (s', Ok a) => f a s' | (s', Err e) => (s', Err e) end.
Notation "x <~ m ;; f" := (andthen m (fun x => f)) (at level 61, m at next level, right associativity).
Notation "m ;;; f" := (andthen m (fun _ => f)) (at level 61, right associativity).
(** for x in l: body *)
Fixpoint each {X A} (l : list A) (body : A -> prog X unit) : prog X unit :=
  match l with [] => ret tt | x :: r => body x ;;; each r body end.
(** [body x for x in l] *)
Fixpoint collect {X A B} (l : list A) (body : A -> prog X B) : prog X (list B) :=
  match l with [] => ret [] | x :: r => y <~ body x ;; ys <~ collect r body ;; ret (y :: ys) end.
(** a program that only uses the nodes *)
Definition on_heap {X A} (m : prog heap A) : prog (heap * X) A :=
  fun s => let '(H', r) := m (fst s) in ((H', snd s), r).
Definition reading {A} (f : heap -> res A) : prog heap A := fun H => (H, f H).

(** ** Nodes *)
Definition set_npat p n := Node (n_parent n) (n_children n) (n_count n) (n_value n) (n_meta n) (n_level n) p.
Definition node_update_meta data n :=
  Node (n_parent n) (n_children n) (n_count n) (n_value n) (update_meta data (n_meta n)) (n_level n) (n_pattern n).
(** piece_pattern_node.py:22-23 set_pattern *)
Definition node_set (a : addr) (p : str) : prog heap unit := fun H => (put H a (set_npat (Some p)), Ok tt).
(** piece_pattern_node.py:25-29 the property pattern: reading it may assign *)
Definition node_pattern_of (a : addr) : prog heap str := fun H =>
  match get H a with
  | Err e => (H, Err e)
  | Ok n => match n_pattern n with
            | Some p => (H, Ok p)
            | None => (put H a (set_npat (Some (piece (n_value n)))), Ok (piece (n_value n)))
            end
  end.
(** a new PiecePatternNode((EMPTY_PARSED_PIECE, None)) *)
Definition new_root_node : prog heap addr :=
  fun H => (H ++ [new_node None empty_parsed_piece None], Ok (length H)).
Definition kids_of (n : node) : list (str * addr) := match n_children n with None => [] | Some d => d end.
(** utils.py:151-173 dump_tree: the lists of nodes it yields.  No consumer touches the
    children of the nodes it goes through, so they are collected at once (C33 is about
    the generator).  [fuel] bounds the depth. *)
Fixpoint dump (fuel : nat) (H : heap) (a : addr) : res (list (list addr)) :=
  match fuel with
  | O => Err EFuel
  | S fuel' =>
      n <- get H a ;;
      match kids_of n with
      | [] => Ok [[a]]
      | es => ps <- mapM (fun e => dump fuel' H (snd e)) es ;; Ok (map (cons a) (List.concat ps))
      end
  end.
Definition dump_tree (a : addr) : prog heap (list (list addr)) := reading (fun H => dump (length H) H a).
(** piece_pattern_node.py:89-103 build_from_piece_pattern_nodes *)
Definition hbuild_from_nodes (root : addr) (nodes : list addr) : prog heap (addr * bool) :=
  match rev nodes with
  | [] => lift (Err EIndex)
  | lastn :: _ =>
      kvs <~ collect nodes (fun a => v <~ reading (fun H => n <- get H a ;; Ok (n_value n)) ;;
                                     p <~ node_pattern_of a ;; ret (v, Some p)) ;;
      c <~ reading (fun H => n <- get H lastn ;; Ok (n_count n)) ;;
      r <~ (fun H => build_tree H root kvs c) ;;
      m <~ reading (fun H => n <- get H lastn ;; Ok (n_meta n)) ;;
      (fun H => (put H (fst r) (node_update_meta m), Ok r))
  end.

(** ** Bags and buckets *)
Definition sadd {A} (eqb : A -> A -> bool) (x : A) (l : list A) : list A := if existsb (eqb x) l then l else l ++ [x].
Definition oaddr_eqb (a b : option addr) : bool :=
  match a, b with Some x, Some y => Nat.eqb x y | None, None => true | _, _ => false end.
(** pattern_cluster.py:17-36, 56-77 PieceBag: _objs, _p_nodes, stats['count'] and
    stats['p_nodes_count'] *)
Record hbag := HBag { hb_nodes : list addr; hb_pnodes : list (option addr); hb_count : Z; hb_pcount : Z }.
Definition new_bag : hbag := HBag [] [] 0 0.
Definition bag_add (H : heap) (a : addr) (b : hbag) : res hbag :=
  n <- get H a ;;
  pc <- match n_parent n with Some p => np <- get H p ;; Ok (n_count np) | None => Ok (n_count n) end ;;
  Ok (HBag (sadd Nat.eqb a (hb_nodes b)) (sadd oaddr_eqb (n_parent n) (hb_pnodes b))
           (hb_count b + n_count n) (hb_pcount b + pc)).
(** 80-108 PieceBagBucket: _objs and stats['count'] *)
Record hbucket := HBucket { bk_objs : list (str * hbag); bk_count : Z }.
Definition new_bucket : hbucket := HBucket [] 0.
(** 87-92, 101: add of a node *)
Definition bucket_add_node (H : heap) (a : addr) (b : hbucket) : res hbucket :=
  n <- get H a ;;
  let k := piece (n_value n) in
  let old := match dget str_eqb k (bk_objs b) with Some o => o | None => new_bag end in
  bag <- bag_add H a old ;;
  Ok (HBucket (dset str_eqb k bag (bk_objs b)) (bk_count b + n_count n)).
(** utils.py:54-58 pick; using an attribute of None raises AttributeError *)
Definition bag_pick (b : hbag) : res addr := match hb_nodes b with [] => Err EAttr | a :: _ => Ok a end.
Definition bucket_pick (b : hbucket) : res addr :=
  match bk_objs b with [] => Err EAttr | (_, bag) :: _ => bag_pick bag end.
Definition cached_pick (l : list hbucket) : res addr := match l with [] => Err EAttr | b :: _ => bucket_pick b end.
(** pick().parsed_piece *)
Definition parsed_of (pk : res addr) (H : heap) : res parsed_piece := a <- pk ;; n <- get H a ;; Ok (n_value n).
(** 93-97, 101: add of a bag; ValueError for a duplicated piece *)
Definition bucket_add_bag (H : heap) (bag : hbag) (b : hbucket) : res hbucket :=
  v <- parsed_of (bag_pick bag) H ;;
  match dget str_eqb (piece v) (bk_objs b) with
  | Some _ => Err EValue
  | None => Ok (HBucket (dset str_eqb (piece v) bag (bk_objs b)) (bk_count b + hb_count bag))
  end.
(** 103-108 p_nodes of a bucket.  It is stored when it is first asked for; the bucket is
    complete then. *)
Definition bucket_pnodes (b : hbucket) : list (option addr) :=
  fold_left (fun d kb => fold_left (fun d p => sadd oaddr_eqb p d) (hb_pnodes (snd kb)) d) (bk_objs b) [].
(** 34-36 set_pattern *)
Definition bag_set (b : hbag) (p : str) : prog heap unit := each (hb_nodes b) (fun a => node_set a p).
Definition bucket_set (b : hbucket) (p : str) : prog heap unit := each (bk_objs b) (fun kb => bag_set (snd kb) p).
Definition cached_set (l : list hbucket) (p : str) : prog heap unit := each l (fun b => bucket_set b p).
(** 111-115 ViewPieceBag *)
Definition hvbag := (list parsed_piece * hbag)%type.
(** 118-152 ViewPieceBagBucket: the depth of _url_meta, _objs, stats['count'], _root *)
Record hvbucket := HVBucket { hv_depth : nat; hv_objs : list (str * hvbag); hv_count : Z; hv_root : addr }.

(** ** A processor: the attributes of its cluster objects
    _bucket (215); _buckets (369) of the three view clusters; _length_buckets (309);
    _cached with its stats['count'], _force_pattern, _fuzzy_pattern (492-494); _patterns
    (192) of all *)
Record hproc := HProc {
  hp_bucket : hbucket; hp_views : cls -> list (str * hvbucket); hp_lengths : list (Z * hbucket);
  hp_cached : list hbucket; hp_ccount : Z; hp_force : bool; hp_fuzzy : option str;
  hp_pats : cls -> list str
}.
Definition new_proc (b : hbucket) : hproc := HProc b (fun _ => []) [] [] 0 false None (fun _ => []).
Definition set_views c d s := HProc (hp_bucket s) (fun c' => if cls_eqb c c' then d else hp_views s c') (hp_lengths s)
  (hp_cached s) (hp_ccount s) (hp_force s) (hp_fuzzy s) (hp_pats s).
Definition set_lengths d s := HProc (hp_bucket s) (hp_views s) d (hp_cached s) (hp_ccount s) (hp_force s) (hp_fuzzy s) (hp_pats s).
Definition set_cached l n f s := HProc (hp_bucket s) (hp_views s) (hp_lengths s) l n f (hp_fuzzy s) (hp_pats s).
Definition set_fuzzy p s := HProc (hp_bucket s) (hp_views s) (hp_lengths s) (hp_cached s) (hp_ccount s) (hp_force s) p (hp_pats s).
Definition put_pattern c p s := HProc (hp_bucket s) (hp_views s) (hp_lengths s) (hp_cached s) (hp_ccount s) (hp_force s) (hp_fuzzy s)
  (fun c' => if cls_eqb c c' then sadd str_eqb p (hp_pats s c') else hp_pats s c').
Notation lprog := (prog (heap * hproc)).
Definition self : lprog hproc := fun s => (s, Ok (snd s)).
Definition update (f : hproc -> hproc) : lprog unit := fun s => ((fst s, f (snd s)), Ok tt).
(** self._patterns.add(pattern) *)
Definition add_pattern (c : cls) (p : str) : lprog unit := update (put_pattern c p).

Section HLevel.
  Context (mcn : Z).
  (** for root in cluster(...): body *)
  Context (inner : nat -> bool -> addr -> (addr -> lprog unit) -> lprog unit).
  Context (level : nat) (last_level last_path kw : bool).

  (** 218-223, 579-598: self.pre_level_processor.seek_cluster(package), for the p_nodes and
      the count of the package; see Cluster.pre_seek *)
  Definition hseek (pn : list (option addr)) (count : Z) : prog heap bool := reading (fun H =>
    match level with
    | O => Err EAttr
    | S O => Ok false
    | _ => cs <- mapM (fun p => match p with Some a => n <- get H a ;; Ok (n_count n) | None => Err EAttr end) pn ;;
           Ok (seek_loop [if (mcn <=? zsum cs - count)%Z then IMPOSSIBLE else UNKNOW; UNKNOW; UNKNOW; UNKNOW; UNKNOW; UNKNOW])
    end).

  (** ** adding to the other clusters *)
  (** 311-315 LengthPatternCluster.add *)
  Definition add_to_length (b : hbag) : lprog unit :=
    v <~ on_heap (reading (parsed_of (bag_pick b))) ;;
    n <~ lift (piece_length v) ;;
    s <~ self ;;
    let bk := match dget Z.eqb n (hp_lengths s) with Some bk => bk | None => new_bucket end in
    bk' <~ on_heap (reading (fun H => bucket_add_bag H b bk)) ;;
    update (set_lengths (dset Z.eqb n bk' (hp_lengths s))).
  (** 402-407 MultiPatternCluster.add with 126-136 ViewPieceBagBucket.add *)
  Definition add_to_view (c : cls) (v : list parsed_piece) (b : hbag) : lprog unit :=
    s <~ self ;;
    let key := view_key v in
    bk <~ match dget str_eqb key (hp_views s c) with
          | Some bk => ret bk
          | None => r <~ on_heap new_root_node ;; ret (HVBucket (length v) [] 0 r)
          end ;;
    pp <~ on_heap (reading (parsed_of (bag_pick b))) ;;
    on_heap (fun H => hbuild_from_parsed_pieces H (hv_root bk) v (hb_count b) None false) ;;;
    update (set_views c (dset str_eqb key
      (HVBucket (hv_depth bk) (dset str_eqb (piece pp) (v, b) (hv_objs bk)) (hv_count bk + hb_count b) (hv_root bk))
      (hp_views s c))).
  Definition add_to (d : dest) (b : hbag) : lprog unit :=
    match d with DView c v => add_to_view c v b | DLength => add_to_length b end.

  (** ** PiecePatternCluster *)
  (** 231-235 _set_pattern *)
  Definition piece_set (b : hbag) (upd : bool) : lprog unit :=
    v <~ on_heap (reading (parsed_of (bag_pick b))) ;;
    on_heap (bag_set b (piece v)) ;;;
    if upd then add_pattern CPiece (piece v) else ret tt.
  (** 267-303 _add_to_forward_cluster: where to is a function of the parsed piece
      (Cluster.dest_piece) *)
  Definition piece_forward (b : hbag) : lprog unit :=
    v <~ on_heap (reading (parsed_of (bag_pick b))) ;; add_to (dest_piece mcn last_path v) b.
  (** 237-265 cluster *)
  Definition piece_cluster : lprog unit :=
    s <~ self ;;
    let bags := map snd (bk_objs (hp_bucket s)) in
    let literal := each bags (fun b => piece_set b true) in
    let loop := each bags (fun b =>
      keep <~ (if (hb_count b <? mcn)%Z then ret false
               else if (mcn <=? hb_pcount b - hb_count b)%Z then ret false
               else on_heap (hseek (hb_pnodes b) (hb_count b))) ;;
      if keep : bool then piece_set b true
      else piece_set b false ;;; piece_forward b) in
    if is_nil bags then ret tt
    else if last_level && kw then literal
    else if (Z.of_nat (length bags) <? mcn)%Z then
      m <~ lift (max_count (map hb_count bags)) ;;
      if negb (confused (bk_count (hp_bucket s)) m mcn) then literal else loop
    else loop.

  (** ** MultiPatternCluster and its three classes *)
  (** 412-449, 454-474, 484-486 _add_to_forward_cluster *)
  Definition view_forward (c : cls) (vb : hvbag) : lprog unit :=
    v <~ on_heap (reading (parsed_of (bag_pick (snd vb)))) ;;
    add_to (match c with
            | CBase => dest_base last_path (fst vb) v
            | CMixed => dest_mixed last_path v
            | _ => DLength
            end) (snd vb).
  (** 142-152 _transfer: _objs and stats['count'] of the new bucket, and the pattern.  The
      new bucket has a root of its own (124), which is not used. *)
  Fixpoint transfer_loop (bk : hvbucket) (l : list (list addr)) (objs : list (str * hvbag)) (count : Z) (pat : option str)
    : prog heap (list (str * hvbag) * Z * option str) :=
    match l with
    | [] => ret (objs, count, pat)
    | nodes :: r =>
        ks <~ reading (fun H => mapM (fun a => n <- get H a ;; Ok (piece (n_value n))) (tl nodes)) ;;
        match dget str_eqb (List.concat ks) (hv_objs bk) with
        | None => lift (Err EKey)
        | Some vb =>
            v <~ reading (parsed_of (bag_pick (snd vb))) ;;
            pat' <~ match pat with
                    | Some p => ret (Some p)
                    | None => ps <~ collect (tl nodes) node_pattern_of ;; ret (Some (List.concat ps))
                    end ;;
            transfer_loop bk r (dset str_eqb (piece v) vb objs) (count + hb_count (snd vb)) pat'
        end
    end.
  Definition htransfer (bk : hvbucket) (root : addr) : prog heap (list (str * hvbag) * Z * option str) :=
    new_root_node ;;; ps <~ dump_tree root ;; transfer_loop bk ps [] 0 None.
  (** 371-400 cluster; the body of the loop over the clustered trees (376-380) *)
  Definition multi_body (c : cls) (bk : hvbucket) (root : addr) : lprog unit :=
    r <~ on_heap (htransfer bk root) ;;
    let '(objs, count, pat) := r in
    if (count <? mcn)%Z then each objs (fun kv => view_forward c (snd kv))
    else match pat with
         | None => lift (Err EAttr)
         | Some p => each objs (fun kv => on_heap (bag_set (snd (snd kv)) p)) ;;; add_pattern c p
         end.
  Definition multi_cluster (c : cls) : lprog unit :=
    s <~ self ;;
    each (map snd (hp_views s c)) (fun bk =>
      if (hv_count bk <? mcn)%Z then each (hv_objs bk) (fun kv => view_forward c (snd kv))
      else inner (hv_depth bk) (cls_eqb c CLdsf) (hv_root bk) (multi_body c bk)).

  (** ** FuzzyPatternCluster *)
  (** 522-527 _set_pattern *)
  Definition fuzzy_set_on (l : list hbucket) : lprog unit :=
    s <~ self ;;
    p <~ match hp_fuzzy s with
         | Some p => ret p
         | None => v <~ on_heap (reading (parsed_of (cached_pick l))) ;;
                   p <~ lift (wildcard_rule (fuzzy_rule v)) ;;
                   update (set_fuzzy (Some p)) ;;; add_pattern CFuzzy p ;;; ret p
         end ;;
    on_heap (cached_set l p).
  (** 496-502 add *)
  Definition add_to_fuzzy (b : hbucket) : lprog unit :=
    s <~ self ;;
    if hp_force s then fuzzy_set_on [b]
    else let l := hp_cached s ++ [b] in
         update (set_cached l (hp_ccount s + bk_count b) (mcn <=? Z.of_nat (length l))%Z).
  (** pick().pattern of every bag, added to _patterns (504-507, 327-329) *)
  Definition add_patterns (c : cls) (b : hbucket) : lprog unit :=
    each (bk_objs b) (fun kb =>
      a <~ lift (bag_pick (snd kb)) ;; p <~ on_heap (node_pattern_of a) ;; add_pattern c p).
  (** 509-520 cluster *)
  Definition fuzzy_cluster : lprog unit :=
    s <~ self ;;
    let keep := each (hp_cached s) (add_patterns CFuzzy) in
    if hp_force s then fuzzy_set_on (hp_cached s)
    else if (hp_ccount s <? mcn)%Z then keep
    else m <~ lift (max_count (map bk_count (hp_cached s))) ;;
         if confused (hp_ccount s) m mcn then fuzzy_set_on (hp_cached s) else keep.

  (** ** LengthPatternCluster *)
  (** 317-325 _length_as_cluster *)
  Definition hlength_as_cluster (b : hbucket) : res bool :=
    if (Z.of_nat (length (bk_objs b)) <? mcn)%Z then
      if (bk_count b <? mcn)%Z then Ok false
      else m <- max_count (map (fun kb => hb_count (snd kb)) (bk_objs b)) ;; Ok (confused (bk_count b) m mcn)
    else Ok true.
  (** 357-363 _set_pattern *)
  Definition length_set (b : hbucket) (upd : bool) : lprog unit :=
    v <~ on_heap (reading (parsed_of (bucket_pick b))) ;;
    n <~ lift (piece_length v) ;;
    p <~ lift (specify_rule (fuzzy_rule v) n) ;;
    on_heap (bucket_set b p) ;;;
    if upd then add_pattern CLength p else ret tt.
  (** 331-355 cluster *)
  Definition length_cluster : lprog unit :=
    s <~ self ;;
    let bs := map snd (hp_lengths s) in
    let loop := each bs (fun b =>
      y <~ lift (hlength_as_cluster b) ;;
      if y : bool then
        k <~ on_heap (hseek (bucket_pnodes b) (bk_count b)) ;;
        if k : bool then length_set b true
        else length_set b false ;;; add_to_fuzzy b
      else add_to_fuzzy b) in
    if is_nil bs then ret tt
    else if (Z.of_nat (length bs) <? mcn)%Z then
      m <~ lift (max_count (map bk_count bs)) ;;
      if negb (confused (zsum (map bk_count bs)) m mcn)
      then each bs (fun b => y <~ lift (hlength_as_cluster b) ;;
                             if y : bool then length_set b true else add_patterns CLength b)
      else loop
    else loop.

  (** 609-611 _process: the clusters in the order of CLUSTER_CLASSES *)
  Definition run_clusters : lprog unit :=
    piece_cluster ;;; multi_cluster CBase ;;; multi_cluster CMixed ;;; multi_cluster CLdsf ;;;
    length_cluster ;;; fuzzy_cluster.
End HLevel.

(** 621-623 pattern_num *)
Definition hpattern_num (s : hproc) : nat :=
  fold_right (fun c n => length (hp_pats s c) + n) 0 [CPiece; CBase; CMixed; CLdsf; CLength; CFuzzy].
(** 613-619 add(node, add_children=True) *)
Definition add_children (H : heap) (a : addr) (b : hbucket) : res hbucket :=
  n <- get H a ;; foldM (fun b e => bucket_add_node H (snd e) b) (kids_of n) b.
(** 635-648 _create_next_level_processors: the buckets of the new processors *)
Fixpoint create_next (l : list addr) (d : list (str * hbucket)) : prog heap (list (str * hbucket)) :=
  match l with
  | [] => ret d
  | a :: r =>
      p <~ node_pattern_of a ;;
      b <~ reading (fun H => add_children H a (match dget str_eqb p d with Some b => b | None => new_bucket end)) ;;
      create_next r (dset str_eqb p b d)
  end.
(** A finished processor: pattern_num and the next ones *)
Inductive hptree := HPT (npat : nat) (next : list (str * hptree)).
(** 671-691 _can_be_splited *)
Fixpoint hcan_be_split (p : hptree) : bool :=
  match p with
  | HPT n nx =>
      if 1 <? n then true
      else match nx with
           | [] => false
           | [(_, q)] => hcan_be_split q
           | _ => true
           end
  end.

Section HClusterLoop.
  Context (mcn : Z).
  Context (inner : nat -> bool -> addr -> (addr -> lprog unit) -> lprog unit).
  (** 625-633 process of the processor with _bucket [b]; [d] is depth - level *)
  Fixpoint hproc_run (d level path_depth : nat) (kw : bool) (b : hbucket) : prog heap hptree := fun H =>
    match run_clusters mcn inner level (d =? 0) (path_depth =? level) kw (H, new_proc b) with
    | ((H1, _), Err e) => (H1, Err e)
    | ((H1, s), Ok _) =>
        match d with
        | O => (H1, Ok (HPT (hpattern_num s) []))
        | S d' =>
            (nx <~ create_next (flat_map (fun kb => hb_nodes (snd kb)) (bk_objs (hp_bucket s))) [] ;;
             ps <~ collect nx (fun g => p <~ hproc_run d' (S level) path_depth kw (snd g) ;; ret (fst g, p)) ;;
             ret (HPT (hpattern_num s) ps)) H1
        end
    end.
  (** 694-709 process *)
  Definition hprocess (depth path_depth : nat) (kw : bool) (root : addr) : prog heap bool :=
    b <~ reading (fun H => bucket_add_node H root new_bucket) ;;
    p <~ hproc_run depth 0 path_depth kw b ;;
    ret (hcan_be_split p).
  (** 651-668 split_by_pattern: the roots.  hash() is taken as injective. *)
  Fixpoint hsplit_loop (l : list (list addr)) (d : list (str * addr)) : prog heap (list (str * addr)) :=
    match l with
    | [] => ret d
    | nodes :: r =>
        ps <~ collect nodes node_pattern_of ;;
        let pid := join [SLASH] ps in
        sub <~ match dget str_eqb pid d with Some a => ret a | None => new_root_node end ;;
        hbuild_from_nodes sub (tl nodes) ;;;
        hsplit_loop r (dset str_eqb pid sub d)
    end.
  Definition hsplit (root : addr) : prog heap (list addr) :=
    ps <~ dump_tree root ;; d <~ hsplit_loop ps [] ;; ret (map snd d).
  (** 712-732 for clustered in cluster(config, url_meta, root): body, where body also has
      the attributes [X] of whoever runs the loop *)
  Fixpoint hloop {X} (fuel : nat) (depth path_depth : nat) (kw : bool) (root : addr)
      (body : addr -> prog (heap * X) unit) : prog (heap * X) unit :=
    match fuel with
    | O => lift (Err EFuel)
    | S fuel =>
        c <~ on_heap (reading (fun H => n <- get H root ;; Ok (n_count n))) ;;
        if (c <=? 0)%Z then ret tt
        else
          split <~ on_heap (hprocess depth path_depth kw root) ;;
          if negb split then body root
          else subs <~ on_heap (hsplit root) ;;
               each subs (fun r => hloop fuel depth path_depth kw r body)
    end.
End HClusterLoop.
(** the nesting is bounded as in Cluster.cluster_n, the recursion by the number of paths *)
Fixpoint hcluster_n (nest : nat) (X : Type) (mcn : Z) (depth path_depth : nat) (kw : bool) (root : addr)
    (body : addr -> prog (heap * X) unit) : prog (heap * X) unit :=
  match nest with
  | O => lift (Err EFuel)
  | S nest =>
      ps <~ on_heap (dump_tree root) ;;
      hloop mcn (fun d kw r b => hcluster_n nest hproc mcn d d kw r b) (S (length ps)) depth path_depth kw root body
  end.

(** ** pattern_maker.py *)
(** 49-62, 97-101: list(pm.make()).  For each result its url_meta, its root and all nodes
    at the moment it is handed over. *)
Definition yielded := (url_meta * addr * heap)%type.
Definition hmake (mcn : Z) (makers : list (str * hmaker)) : prog (heap * list yielded) unit :=
  each makers (fun sm =>
    hcluster_n 2 (list yielded) mcn (depth (hk_meta (snd sm))) (path_depth (hk_meta (snd sm))) false (hk_root (snd sm))
      (fun a s => ((fst s, snd s ++ [(hk_meta (snd sm), a, fst s)]), Ok tt))).
