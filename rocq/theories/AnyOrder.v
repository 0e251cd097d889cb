(** The clustering of Cluster.v when Python iterates its sets in any order.

    A dict is iterated in insertion order, a set in an order that differs from run
    to run.  Two kinds of sets of pattern_cluster.py are iterated: the nodes of a
    PieceBag (utils.py:58-67) and the buckets cached by FuzzyPatternCluster
    (pattern_cluster.py:492, TBag).  (The third, the parents of
    PieceBag._p_nodes, is only summed up; _patterns is only counted.)  Here a run is
    a relation: [rel A] holds of the outcomes that are possible. *)
From Coq Require Import String Permutation.
From Verif Require Import PyStr Defs ParseUtils Views Trees Cluster Patterns Matcher Maker.

Definition rel (A : Type) : Type := res A -> Prop.
Definition just {A} (m : res A) : rel A := fun r => r = m.
Definition rbind {A B} (m : rel A) (f : A -> rel B) : rel B :=
  fun r => exists a, m a /\ match a with Ok x => f x r | Err e => r = Err e end.
Notation "x <~ m ;; f" := (rbind m (fun x => f)) (at level 61, m at next level, right associativity).
Notation "' pat <~ m ;; f" := (rbind m (fun x => match x with pat => f end))
  (at level 61, pat pattern, m at next level, right associativity).
Fixpoint mapR {A B} (f : A -> rel B) (l : list A) : rel (list B) :=
  match l with
  | [] => just (Ok [])
  | x :: r => y <~ f x ;; ys <~ mapR f r ;; just (Ok (y :: ys))
  end.

(** the bags of a level, the nodes of each in any order *)
Definition bags_any (bs bs' : list (str * bag)) : Prop :=
  Forall2 (fun b b' => fst b = fst b' /\ Permutation (snd b) (snd b')) bs bs'.

Section Level.
  Context (mcn : Z).
  Context (inner : nat -> bool -> tree -> rel (list tree)).
  Context (level : nat) (last_level last_path kw : bool).
  (** pattern_cluster.py:237-265 *)
  Definition piece_any (nodes : list pnode) : rel (done * list (dest * item)) :=
    fun r => exists bs, bags_any (group_nodes nodes) bs /\ r = piece_bags mcn level last_level last_path kw bs.
  (** 371-400 *)
  Definition multi_bucket_any (c : cls) (b : vbucket) : rel (done * list (dest * item)) :=
    if (vb_count b <? mcn)%Z
    then just (Ok ([], map (fun kv => forward last_path c (snd kv)) (vb_objs b)))
    else ts <~ inner (vb_depth b) (cls_eqb c CLdsf) (vb_root b) ;;
         just (rs <- mapM (multi_tree mcn last_path c b) ts ;;
               Ok (flat_map fst rs, flat_map snd rs)).
  Definition multi_any (c : cls) (l : list (list parsed_piece * item))
    : rel (done * list (dest * item)) :=
    d <~ just (foldM multi_add l []) ;;
    rs <~ mapR (fun kb => multi_bucket_any c (snd kb)) d ;;
    just (Ok (flat_map fst rs, flat_map snd rs)).
  (** 509-520: the cached buckets in any order *)
  Definition fuzzy_any (bs : list (list item)) : rel done :=
    s <~ just (foldM (fuzzy_add mcn) bs ([], false, None, [])) ;;
    fun r => exists cached, Permutation (fst (fst (fst s))) cached /\
      r = fuzzy_end mcn (cached, snd (fst (fst s)), snd (fst s), snd s).
  (** 609-611 *)
  Definition run_any (nodes : list pnode) : rel done :=
    '(d0, f0) <~ piece_any nodes ;;
    '(d1, f1) <~ multi_any CBase (to_view CBase f0) ;;
    '(d2, f2) <~ multi_any CMixed (to_view CMixed (f0 ++ f1)) ;;
    '(d3, f3) <~ multi_any CLdsf (to_view CLdsf (f0 ++ f1 ++ f2)) ;;
    '(d4, bs) <~ just (length_stage mcn level (to_length (f0 ++ f1 ++ f2 ++ f3))) ;;
    d5 <~ fuzzy_any bs ;;
    just (Ok (d0 ++ d1 ++ d2 ++ d3 ++ d4 ++ d5)).
End Level.

Section Cluster.
  Context (mcn : Z).
  Context (inner : nat -> bool -> tree -> rel (list tree)).
  (** 625-648; iter_nodes goes through the sets once more *)
  Fixpoint proc_any (d level path_depth : nat) (kw : bool) (nodes : list pnode) : rel ptree :=
    dn <~ run_any mcn inner level (d =? 0) (path_depth =? level) kw nodes ;;
    let pm := pattern_map dn in
    match d with
    | O => just (Ok (PT pm (pattern_num dn) []))
    | S d' =>
        nx <~ (fun r => exists bs, bags_any (group_nodes nodes) bs /\
                 mapR (fun g => p <~ proc_any d' (S level) path_depth kw (snd g) ;; just (Ok (fst g, p)))
                      (next_bags pm bs) r) ;;
        just (Ok (PT pm (pattern_num dn) nx))
    end.
  (** 694-709 *)
  Definition process_any (depth path_depth : nat) (kw : bool) (root : tree) : rel (tree * bool) :=
    p <~ proc_any depth 0 path_depth kw [PN None [] root] ;;
    just (Ok (annotate p root, can_be_split p)).
  (** 712-732 *)
  Fixpoint cluster_loop_any (fuel : nat) (depth path_depth : nat) (kw : bool) (root : tree)
    : rel (list tree) :=
    match fuel with
    | O => just (Err EFuel)
    | S fuel =>
        if (t_cnt root <=? 0)%Z then just (Ok [])
        else
          '(t, split) <~ process_any depth path_depth kw root ;;
          if negb split then just (Ok [t])
          else subs <~ just (split_by_pattern t) ;;
               rs <~ mapR (cluster_loop_any fuel depth path_depth kw) subs ;;
               just (Ok (List.concat rs))
    end.
End Cluster.
Fixpoint cluster_n_any (nest : nat) (mcn : Z) (depth path_depth : nat) (kw : bool) (root : tree)
  : rel (list tree) :=
  match nest with
  | O => just (Err EFuel)
  | S nest =>
      cluster_loop_any mcn (fun d kw t => cluster_n_any nest mcn d d kw t)
        (S (length (paths root))) depth path_depth kw root
  end.
Definition cluster_any (mcn : Z) (m : url_meta) (kw : bool) (root : tree) : rel (list tree) :=
  cluster_n_any 2 mcn (depth m) (path_depth m) kw root.

(** pattern_maker.py:49-62, 97-101 *)
Definition make_any (mcn : Z) (st : state) : rel (list (url_meta * tree)) :=
  rs <~ mapR (fun sm => ts <~ cluster_any mcn (mk_meta (snd sm)) false (mk_root (snd sm)) ;;
                        just (Ok (map (fun t => (mk_meta (snd sm), t)) ts))) st ;;
  just (Ok (List.concat rs)).
(** the maker's own tree after make(): the patterns of the first processor are in it *)
Definition maker_after_any (mcn : Z) (mk mk' : maker) : Prop :=
  if (t_cnt (mk_root mk) <=? 0)%Z then mk' = mk
  else exists r, process_any mcn (fun d kw t => cluster_n_any 1 mcn d d kw t)
                   (depth (mk_meta mk)) (path_depth (mk_meta mk)) false (mk_root mk) r /\
       mk' = match r with Ok (t, _) => MK (mk_meta mk) t | Err _ => mk end.

(** ** A PatternMaker in use: loads and calls of make(), in any order.
    make() is a generator: the makers that its caller does not get to are left as
    they are. *)
Inductive event := Load (url : str) (meta : option str) | Make.
Definition step_any (nv : str -> bool) (mcn : Z) (st : state) (e : event) (st' : state) : Prop :=
  match e with
  | Load url meta => st' = fst (load nv st url meta)
  | Make => Forall2 (fun sm sm' => fst sm = fst sm' /\
              (snd sm' = snd sm \/ maker_after_any mcn (snd sm) (snd sm'))) st st'
  end.
Inductive run_events (nv : str -> bool) (mcn : Z) : list event -> state -> Prop :=
| run_start : run_events nv mcn [] []
| run_step : forall es e st st', run_events nv mcn es st -> step_any nv mcn st e st' ->
    run_events nv mcn (es ++ [e]) st'.
Definition event_loads (es : list event) : list (str * option str) :=
  flat_map (fun e => match e with Load url meta => [(url, meta)] | Make => [] end) es.
