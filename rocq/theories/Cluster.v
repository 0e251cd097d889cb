(** Model of /repo/src/os_urlpattern/pattern_cluster.py.

    The bags and buckets of the code are filled by one cluster class and emptied
    by a later one, in the order of CLUSTER_CLASSES.  Here every class is a
    function from the items it received to the items that got their final
    pattern ([done]) and the items it passes on, in the order of the calls.  A
    Python set or dict of objects is the list of its members in insertion order;
    [pick] is the first one. *)
From Coq Require Import String.
From Verif Require Import PyStr Defs ParseUtils Views Trees.

(** pattern_cluster.py:155-175 confused *)
Definition confused (total max_part threshold : Z) : bool :=
  if (total <? threshold)%Z then false
  else let o_part := (total - max_part)%Z in
       if ((threshold <=? max_part) && (threshold <=? o_part))%Z then true
       else (Z.abs (max_part - o_part) <? threshold - 1)%Z.

(** the cluster classes in the order of CLUSTER_CLASSES (530-535) *)
Inductive cls := CPiece | CBase | CMixed | CLdsf | CLength | CFuzzy.
Definition cls_eqb (a b : cls) : bool :=
  match a, b with
  | CPiece, CPiece | CBase, CBase | CMixed, CMixed
  | CLdsf, CLdsf | CLength, CLength | CFuzzy, CFuzzy => true
  | _, _ => false
  end.

(** A node of the piece tree as a processor sees it: its parent (identity and
    count; [None] for the root), its identity and the sub-tree. *)
Record pnode := PN { pn_parent : option (list str * Z); pn_id : list str; pn_tree : tree }.
Definition pn_piece (n : pnode) : str := t_piece (pn_tree n).
Definition pn_cnt (n : pnode) : Z := t_cnt (pn_tree n).
(** pattern_cluster.py:56-77 PieceBag: the nodes with one piece *)
Definition bag := list pnode.
Definition zsum (l : list Z) : Z := fold_right Z.add 0%Z l.
Definition bag_count (b : bag) : Z := zsum (map pn_cnt b).
(** lines 71-73: stats['p_nodes_count'] *)
Definition bag_pcount (b : bag) : Z :=
  zsum (map (fun n => match pn_parent n with Some (_, c) => c | None => pn_cnt n end) b).
Fixpoint ids_eqb (a b : list str) : bool :=
  match a, b with
  | [], [] => true
  | x :: a', y :: b' => str_eqb x y && ids_eqb a' b'
  | _, _ => false
  end.
(** lines 75-77, 103-108: the distinct parents (None is never looked at) *)
Definition p_nodes (l : list pnode) : list (list str * Z) :=
  fold_left (fun d n => match pn_parent n with
                        | Some (i, c) => dset ids_eqb i c d
                        | None => d
                        end) l [].

(** max(xs, key=count).count; max() of nothing raises ValueError *)
Definition max_count (l : list Z) : res Z :=
  match l with [] => Err EValue | x :: r => Ok (fold_left Z.max r x) end.

(** d.setdefault(key, []).append(x) *)
Definition dapp {V} (key : str) (x : V) (d : list (str * list V)) : list (str * list V) :=
  match dget str_eqb key d with
  | None => d ++ [(key, [x])]
  | Some l => dset str_eqb key (l ++ [x]) d
  end.
(** lines 87-92 PieceBagBucket.add(node), called for every node of a level *)
Definition group_nodes (nodes : list pnode) : list (str * bag) :=
  fold_left (fun d n => dapp (pn_piece n) n d) nodes [].

(** A piece bag on its way through the clusters: pick().parsed_piece, the pattern
    its nodes carry at the moment, the nodes. *)
Record item := IT { it_pp : parsed_piece; it_pat : str; it_bag : bag }.
Definition it_piece (i : item) : str := piece (it_pp i).
Definition it_count (i : item) : Z := bag_count (it_bag i).
(** where a bag is forwarded to *)
Inductive dest := DView (c : cls) (parts : list parsed_piece) | DLength.
(** (class whose _patterns gets the pattern, piece, pattern) *)
Notation done := (list (cls * str * str)).

Section Level.
  Context (mcn : Z).
  (** cluster() on the tree of a ViewPieceBagBucket: depth of its url_meta,
      last_path_as_pattern, root *)
  Context (inner : nat -> bool -> tree -> res (list tree)).
  (** level; is_last_level(); is_last_path(); kwargs['last_path_as_pattern'] *)
  Context (level : nat) (last_level last_path kw : bool).

  (** ** seek_cluster *)
  (** pattern_cluster.py:178-182 SeekResult *)
  Inductive seek_result := FOUND | IMPOSSIBLE | UNKNOW | BACKWARD.
  (** 218-223 PiecePatternCluster.seek_cluster *)
  Definition piece_seek (package : list pnode) : seek_result :=
    if (mcn <=? zsum (map snd (p_nodes package)) - bag_count package)%Z
    then IMPOSSIBLE else UNKNOW.
  (** 582-596: the loop of ClusterProcessor.seek_cluster.  No class returns
      BACKWARD (208-209, 218-223), so lines 588-590 are not modelled. *)
  Fixpoint seek_loop (l : list seek_result) : bool :=
    match l with
    | [] => false
    | FOUND :: _ => true
    | IMPOSSIBLE :: _ => false
    | BACKWARD :: _ => false
    | UNKNOW :: r => seek_loop r
    end.
  (** self.pre_level_processor.seek_cluster(package): None at level 0, lines
      580-581 at level 1 *)
  Definition pre_seek (package : list pnode) : res bool :=
    match level with
    | O => Err EAttr
    | S O => Ok false
    | _ => Ok (seek_loop [piece_seek package; UNKNOW; UNKNOW; UNKNOW; UNKNOW; UNKNOW])
    end.

  (** ** PiecePatternCluster *)
  (** pattern_cluster.py:267-303 _add_to_forward_cluster *)
  Definition dest_piece (p : parsed_piece) : dest :=
    if length (pieces p) =? 1 then DLength else
    let view := multi_parts p in
    let vl := length view in
    if (vl =? 3) && last_path then
      let ldsf := ldsf_parts p in
      if str_eqb (view_key view) (view_key ldsf) then DView CLdsf ldsf else DView CBase view
    else if vl =? 3 then DView CBase view
    else if 3 <? vl then
      let mixed := mixed_parts p in
      let mvl := length mixed in
      if mvl =? 1 then DLength
      else if (mcn <=? Z.of_nat vl - Z.of_nat mvl)%Z then
        if (mvl =? 3) && last_path then
          let ldsf := ldsf_parts p in
          if str_eqb (view_key mixed) (view_key ldsf) then DView CLdsf ldsf
          else DView CMixed mixed
        else DView CMixed mixed
      else DView CBase view
    else DView CBase view.

  (** 237-265 cluster, with _set_pattern (231-235): a finished bag is [inl], a
      forwarded one [inr] *)
  Definition piece_item (kb : str * bag) : res item :=
    match snd kb with
    | [] => Err EAttr
    | n :: _ => Ok (IT (t_val (pn_tree n)) (fst kb) (snd kb))
    end.
  Definition piece_one (kb : str * bag) : res ((cls * str * str) + (dest * item)) :=
    let count := bag_count (snd kb) in
    keep <- (if (count <? mcn)%Z then Ok false
             else if (mcn <=? bag_pcount (snd kb) - count)%Z then Ok false
             else pre_seek (snd kb)) ;;
    if keep : bool then Ok (inl (CPiece, fst kb, fst kb))
    else i <- piece_item kb ;; Ok (inr (dest_piece (it_pp i), i)).

  Fixpoint lefts {A B} (l : list (A + B)) : list A :=
    match l with [] => [] | inl a :: r => a :: lefts r | inr _ :: r => lefts r end.
  Fixpoint rights {A B} (l : list (A + B)) : list B :=
    match l with [] => [] | inr b :: r => b :: rights r | inl _ :: r => rights r end.

  (** the bags in the order of the dict, the nodes of a bag in the order of the set *)
  Definition piece_bags (bags : list (str * bag)) : res (done * list (dest * item)) :=
    let literal := map (fun kb => (CPiece, fst kb, fst kb)) bags in
    let loop := r <- mapM piece_one bags ;; Ok (lefts r, rights r) in
    if is_nil bags then Ok ([], [])
    else if last_level && kw then Ok (literal, [])
    else if (Z.of_nat (length bags) <? mcn)%Z then
      m <- max_count (map (fun kb => bag_count (snd kb)) bags) ;;
      if negb (confused (zsum (map (fun kb => bag_count (snd kb)) bags)) m mcn)
      then Ok (literal, []) else loop
    else loop.
  Definition piece_stage (nodes : list pnode) : res (done * list (dest * item)) :=
    piece_bags (group_nodes nodes).

  (** ** MultiPatternCluster *)
  (** pattern_cluster.py:412-449 BasePatternCluster._add_to_forward_cluster *)
  Definition dest_base (view : list parsed_piece) (p : parsed_piece) : dest :=
    let mixed := mixed_parts p in
    if str_eqb (view_key view) (view_key mixed) then
      if last_path then
        let ldsf := ldsf_parts p in
        if length ldsf =? 1 then DLength else DView CLdsf ldsf
      else DLength
    else
      if length mixed =? 1 then DLength
      else if (length mixed =? 3) && last_path then
        let ldsf := ldsf_parts p in
        if str_eqb (view_key mixed) (view_key ldsf) then DView CLdsf ldsf
        else DView CMixed mixed
      else DView CMixed mixed.
  (** 454-474 MixedPatternCluster._add_to_forward_cluster *)
  Definition dest_mixed (p : parsed_piece) : dest :=
    if last_path then
      let ldsf := ldsf_parts p in
      if length ldsf =? 1 then DLength else DView CLdsf ldsf
    else DLength.
  (** 484-486: the LastDotSplitFuzzyPatternCluster forwards to Length *)
  Definition forward (c : cls) (vi : list parsed_piece * item) : dest * item :=
    (match c with
     | CBase => dest_base (fst vi) (it_pp (snd vi))
     | CMixed => dest_mixed (it_pp (snd vi))
     | _ => DLength
     end, snd vi).

  (** 118-136 ViewPieceBagBucket; vb_depth is the depth of its url_meta
      (line 405), vb_objs maps pieces to (view, bag) *)
  Record vbucket := VB { vb_depth : nat; vb_objs : list (str * (list parsed_piece * item));
                         vb_count : Z; vb_root : tree }.
  Definition vb_add (vi : list parsed_piece * item) (b : vbucket) : res vbucket :=
    r <- build_from_parsed_pieces (vb_root b) (fst vi) (it_count (snd vi)) None false ;;
    Ok (VB (vb_depth b) (dset str_eqb (it_piece (snd vi)) vi (vb_objs b))
           (vb_count b + it_count (snd vi)) (fst r)).
  (** 402-407 MultiPatternCluster.add *)
  Definition multi_add (d : list (str * vbucket)) (vi : list parsed_piece * item)
    : res (list (str * vbucket)) :=
    let key := view_key (fst vi) in
    let b := match dget str_eqb key d with
             | Some b => b
             | None => VB (length (fst vi)) [] 0 new_root
             end in
    b' <- vb_add vi b ;;
    Ok (dset str_eqb key b' d).

  (** 142-152 _transfer: the (view, bag) pairs of a clustered tree and its pattern *)
  Definition transfer (b : vbucket) (t : tree)
    : res (list (str * (list parsed_piece * item)) * Z * str) :=
    '(objs, count) <-
      foldM (fun s nodes =>
               let key := List.concat (map t_piece (tl nodes)) in
               match dget str_eqb key (vb_objs b) with
               | None => Err EKey
               | Some vi => Ok (dset str_eqb (it_piece (snd vi)) vi (fst s), snd s + it_count (snd vi))%Z
               end) (paths t) ([], 0%Z) ;;
    match paths t with
    | [] => Err EAttr
    | nodes :: _ => Ok (objs, count, List.concat (map t_pattern (tl nodes)))
    end.

  (** 371-400 cluster, for one bucket and for one clustered tree of it *)
  Definition multi_tree (c : cls) (b : vbucket) (t : tree) : res (done * list (dest * item)) :=
    '(objs, count, pattern) <- transfer b t ;;
    if (count <? mcn)%Z then Ok ([], map (fun kv => forward c (snd kv)) objs)
    else Ok (map (fun kv => (c, fst kv, pattern)) objs, []).
  Definition multi_bucket (c : cls) (b : vbucket) : res (done * list (dest * item)) :=
    if (vb_count b <? mcn)%Z
    then Ok ([], map (fun kv => forward c (snd kv)) (vb_objs b))
    else ts <- inner (vb_depth b) (cls_eqb c CLdsf) (vb_root b) ;;
         rs <- mapM (multi_tree c b) ts ;;
         Ok (flat_map fst rs, flat_map snd rs).
  Definition multi_stage (c : cls) (l : list (list parsed_piece * item))
    : res (done * list (dest * item)) :=
    d <- foldM multi_add l [] ;;
    rs <- mapM (fun kb => multi_bucket c (snd kb)) d ;;
    Ok (flat_map fst rs, flat_map snd rs).
  (** the items forwarded to class [c] *)
  Definition to_view (c : cls) (l : list (dest * item)) : list (list parsed_piece * item) :=
    flat_map (fun di => match fst di with
                        | DView c' v => if cls_eqb c c' then [(v, snd di)] else []
                        | DLength => []
                        end) l.
  Definition to_length (l : list (dest * item)) : list item :=
    flat_map (fun di => match fst di with DLength => [snd di] | DView _ _ => [] end) l.

  (** ** LengthPatternCluster *)
  (** a PieceBagBucket of whole bags *)
  Notation lbucket := (list item).
  Definition lb_count (b : lbucket) : Z := zsum (map it_count b).
  (** pattern_cluster.py:311-315 add; 93-97: ValueError for a duplicated piece *)
  Definition len_add (d : list (Z * lbucket)) (i : item) : res (list (Z * lbucket)) :=
    n <- piece_length (it_pp i) ;;
    match dget Z.eqb n d with
    | None => Ok (d ++ [(n, [i])])
    | Some b => if str_in (it_piece i) (map it_piece b) then Err EValue
                else Ok (dset Z.eqb n (b ++ [i]) d)
    end.
  (** 317-325 _length_as_cluster *)
  Definition length_as_cluster (b : lbucket) : res bool :=
    if (Z.of_nat (length b) <? mcn)%Z then
      if (lb_count b <? mcn)%Z then Ok false
      else m <- max_count (map it_count b) ;; Ok (confused (lb_count b) m mcn)
    else Ok true.
  (** 357-363 _set_pattern: the pattern of a bucket *)
  Definition length_pattern (b : lbucket) : res str :=
    match b with
    | [] => Err EAttr
    | i :: _ => n <- piece_length (it_pp i) ;; specify_rule (fuzzy_rule (it_pp i)) n
    end.
  Definition set_pat (p : str) (i : item) : item := IT (it_pp i) p (it_bag i).
  Definition finish (c : cls) (b : lbucket) : done := map (fun i => (c, it_piece i, it_pat i)) b.
  (** 340-345 *)
  Definition length_final (b : lbucket) : res done :=
    y <- length_as_cluster b ;;
    if y : bool then p <- length_pattern b ;; Ok (finish CLength (map (set_pat p) b))
    else Ok (finish CLength b).
  (** 348-355: finished, or handed to the fuzzy cluster *)
  Definition length_one (b : lbucket) : res (done + lbucket) :=
    y <- length_as_cluster b ;;
    if y : bool then
      s <- pre_seek (flat_map it_bag b) ;;
      p <- length_pattern b ;;
      let b' := map (set_pat p) b in
      if s : bool then Ok (inl (finish CLength b')) else Ok (inr b')
    else Ok (inr b).
  (** 331-355 cluster *)
  Definition length_stage (l : list item) : res (done * list lbucket) :=
    d <- foldM len_add l [] ;;
    let bs := map snd d in
    let loop := r <- mapM length_one bs ;; Ok (List.concat (lefts r), rights r) in
    if is_nil bs then Ok ([], [])
    else if (Z.of_nat (length bs) <? mcn)%Z then
      m <- max_count (map lb_count bs) ;;
      if negb (confused (zsum (map lb_count bs)) m mcn)
      then r <- mapM length_final bs ;; Ok (List.concat r, [])
      else loop
    else loop.

  (** ** FuzzyPatternCluster *)
  (** pattern_cluster.py:522-527 _set_pattern of a package of buckets *)
  Definition fuzzy_set (fp : option str) (bs : list lbucket) : res (str * done) :=
    p <- match fp with
         | Some p => Ok p
         | None => match List.concat bs with
                   | [] => Err EAttr
                   | i :: _ => wildcard_rule (fuzzy_rule (it_pp i))
                   end
         end ;;
    Ok (p, finish CFuzzy (map (set_pat p) (List.concat bs))).
  (** 496-502 add, for the buckets in the order they arrive.  State: _cached,
      _force_pattern, _fuzzy_pattern, what is finished. *)
  Definition fuzzy_add (s : list lbucket * bool * option str * done) (b : lbucket)
    : res (list lbucket * bool * option str * done) :=
    let '(cached, force, fp, dn) := s in
    if force : bool then
      '(p, r) <- fuzzy_set fp [b] ;; Ok (cached, true, Some p, dn ++ r)
    else
      let cached := cached ++ [b] in
      Ok (cached, (mcn <=? Z.of_nat (length cached))%Z, fp, dn).
  (** 509-520 cluster *)
  Definition fuzzy_end (s : list lbucket * bool * option str * done) : res done :=
    let '(cached, force, fp, dn) := s in
    let keep := finish CFuzzy (List.concat cached) in
    let total := zsum (map lb_count cached) in
    if force : bool then '(_, r) <- fuzzy_set fp cached ;; Ok (dn ++ r)
    else if (total <? mcn)%Z then Ok (dn ++ keep)
    else m <- max_count (map lb_count cached) ;;
         if confused total m mcn then '(_, r) <- fuzzy_set fp cached ;; Ok (dn ++ r)
         else Ok (dn ++ keep).
  Definition fuzzy_stage (bs : list lbucket) : res done :=
    s <- foldM fuzzy_add bs ([], false, None, []) ;; fuzzy_end s.

  (** ** ClusterProcessor._process (609-611) *)
  Definition run_level (nodes : list pnode) : res done :=
    '(d0, f0) <- piece_stage nodes ;;
    '(d1, f1) <- multi_stage CBase (to_view CBase f0) ;;
    '(d2, f2) <- multi_stage CMixed (to_view CMixed (f0 ++ f1)) ;;
    '(d3, f3) <- multi_stage CLdsf (to_view CLdsf (f0 ++ f1 ++ f2)) ;;
    '(d4, bs) <- length_stage (to_length (f0 ++ f1 ++ f2 ++ f3)) ;;
    d5 <- fuzzy_stage bs ;;
    Ok (d0 ++ d1 ++ d2 ++ d3 ++ d4 ++ d5).
End Level.

(** ** ClusterProcessor (538-648) *)
(** A finished processor: the pattern of every piece, pattern_num, the
    processors of the next level by pattern. *)
Inductive ptree := PT (pm : list (str * str)) (npat : nat) (next : list (str * ptree)).

(** 621-623 pattern_num: the sum of the sizes of the _patterns sets *)
Definition pat_eqb (a b : cls * str) : bool := cls_eqb (fst a) (fst b) && str_eqb (snd a) (snd b).
Fixpoint dedup {A} (eqb : A -> A -> bool) (l : list A) : list A :=
  match l with
  | [] => []
  | x :: r => if existsb (eqb x) r then dedup eqb r else x :: dedup eqb r
  end.
Definition pattern_num (d : done) : nat := length (dedup pat_eqb (map (fun e => (fst (fst e), snd e)) d)).
Definition pattern_map (d : done) : list (str * str) := map (fun e => (snd (fst e), snd e)) d.
(** node.pattern after _process *)
Definition node_pattern (pm : list (str * str)) (t : tree) : str :=
  match dget str_eqb (t_piece t) pm with Some p => p | None => t_pattern t end.
Definition pn_kids (n : pnode) : list pnode :=
  map (fun k => PN (Some (pn_id n, pn_cnt n)) (pn_id n ++ [t_piece k]) k) (t_kids (pn_tree n)).
(** 635-648 _create_next_level_processors: iter_nodes goes bag by bag *)
Definition next_bags (pm : list (str * str)) (bags : list (str * bag)) : list (str * list pnode) :=
  map (fun g => (fst g, List.concat (snd g)))
    (fold_left (fun d n => dapp (node_pattern pm (pn_tree n)) (pn_kids n) d)
       (flat_map snd bags) []).
Definition next_groups (pm : list (str * str)) (nodes : list pnode) : list (str * list pnode) :=
  next_bags pm (group_nodes nodes).

Section Cluster.
  Context (mcn : Z).
  Context (inner : nat -> bool -> tree -> res (list tree)).

  (** 557-561 is_last_level: [d] is depth - level; 625-633 process *)
  Fixpoint proc (d level path_depth : nat) (kw : bool) (nodes : list pnode) : res ptree :=
    dn <- run_level mcn inner level (d =? 0) (path_depth =? level) kw nodes ;;
    let pm := pattern_map dn in
    match d with
    | O => Ok (PT pm (pattern_num dn) [])
    | S d' =>
        nx <- mapM (fun g => p <- proc d' (S level) path_depth kw (snd g) ;; Ok (fst g, p))
                   (next_groups pm nodes) ;;
        Ok (PT pm (pattern_num dn) nx)
    end.

  (** the patterns written into the nodes of the tree *)
  Fixpoint annotate (p : ptree) (t : tree) : tree :=
    match p, t with
    | PT pm _ nx, T v pat c m ks =>
        match dget str_eqb (piece v) pm with
        | None => t
        | Some q => T v (Some q) c m
                      (match dget str_eqb q nx with
                       | Some p' => map (annotate p') ks
                       | None => ks
                       end)
        end
    end.

  (** 671-691 _can_be_splited *)
  Fixpoint can_be_split (p : ptree) : bool :=
    match p with
    | PT _ n nx =>
        if 1 <? n then true
        else match nx with
             | [] => false
             | [(_, q)] => can_be_split q
             | _ => true
             end
    end.

  (** 694-709 process: the tree with its new patterns, and whether to split *)
  Definition process (depth path_depth : nat) (kw : bool) (root : tree) : res (tree * bool) :=
    p <- proc depth 0 path_depth kw [PN None [] root] ;;
    Ok (annotate p root, can_be_split p).

  (** 651-668 split_by_pattern.  Simplification: hash() of the joined patterns is
      taken as injective. *)
  Definition path_id (nodes : list tree) : str := join [SLASH] (map t_pattern nodes).
  Definition split_add (d : list (str * tree)) (nodes : list tree) : res (list (str * tree)) :=
    let pid := path_id nodes in
    let sub := match dget str_eqb pid d with Some t => t | None => new_root end in
    '(sub', _) <- build_from_nodes sub (tl nodes) ;;
    Ok (dset str_eqb pid sub' d).
  Definition split_by_pattern (root : tree) : res (list tree) :=
    d <- foldM split_add (paths root) [] ;; Ok (map snd d).

  (** 712-732 cluster: the list of everything that is yielded.  [fuel] bounds the
      recursion depth. *)
  Fixpoint cluster_loop (fuel : nat) (depth path_depth : nat) (kw : bool) (root : tree)
    : res (list tree) :=
    match fuel with
    | O => Err EFuel
    | S fuel =>
        if (t_cnt root <=? 0)%Z then Ok []
        else
          '(t, split) <- process depth path_depth kw root ;;
          if negb split then Ok [t]
          else subs <- split_by_pattern t ;;
               rs <- mapM (cluster_loop fuel depth path_depth kw) subs ;;
               Ok (List.concat rs)
    end.
End Cluster.

(** [nest] bounds the nesting of clusterings inside clusterings: a piece tree
    contains view trees, and those contain none. *)
Fixpoint cluster_n (nest : nat) (mcn : Z) (depth path_depth : nat) (kw : bool) (root : tree)
  : res (list tree) :=
  match nest with
  | O => Err EFuel
  | S nest =>
      cluster_loop mcn (fun d kw t => cluster_n nest mcn d d kw t)
        (S (length (paths root))) depth path_depth kw root
  end.
Definition cluster (mcn : Z) (m : url_meta) (kw : bool) (root : tree) : res (list tree) :=
  cluster_n 2 mcn (depth m) (path_depth m) kw root.
