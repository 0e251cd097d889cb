(** make() as the generator that it is (pattern_maker.py:49-62, 97-101,
    pattern_cluster.py:712-732): it can be left suspended between two results while
    URLs are loaded and other generators run, with combine=False and combine=True.  Sets
    are gone through in any order, as in AnyOrder.v. *)
From Coq Require Import String.
From Verif Require Import PyStr Defs UrlLib ParseUtils Trees Cluster Patterns Matcher Maker AnyOrder.

(** A root of a piece tree: the tree that a Maker keeps, the object itself
    (pattern_maker.py:74, 98-100), or one that split_by_pattern has built
    (pattern_cluster.py:660-668).  The nodes of the latter are new and nobody else
    refers to them: build_from_piece_pattern_nodes makes new nodes and copies the sets
    of metadata (piece_pattern_node.py:86-103). *)
Inductive ref := RMaker (sid : str) | ROwn (t : tree).
Definition tree_of (st : state) (r : ref) : tree :=
  match r with
  | RMaker sid => match dget str_eqb sid st with Some mk => mk_root mk | None => new_root end
  | ROwn t => t
  end.
(** the tree with new patterns in it *)
Definition write (st : state) (r : ref) (t : tree) : state :=
  match r with
  | RMaker sid => match dget str_eqb sid st with Some mk => dset str_eqb sid (MK (mk_meta mk) t) st | None => st end
  | ROwn _ => st
  end.
Definition maker_of (r : ref) : option str := match r with RMaker sid => Some sid | ROwn _ => None end.

(** A generator: not started; in the loop over the makers (60), the iterator of the dict
    made when it had [size] entries and [taken] of them taken, and [todo] the roots that
    cluster() has yet to be called on (729-731), with the url_meta of their maker;
    finished. *)
Inductive gen := GNew | GOn (size taken : nat) (todo : list (url_meta * ref)) | GEnd.
(** What next() does: a result (the url_meta, whose tree it is, and how the tree looks),
    a result of make(combine=True) (the url_meta and the tree, whose nodes are new:
    pattern_maker.py:104), StopIteration, RuntimeError (dictionary changed size during
    iteration), another exception. *)
Inductive out := OYield (m : url_meta) (whose : option str) (t : tree) | OTree (m : url_meta) (t : ctree) | OStop | ORuntime | ORaise (e : exn).

Section Gen.
  Context (mcn : Z).
  Definition process_lazy (m : url_meta) (t : tree) : rel (tree * bool) :=
    process_any mcn (fun d kw t => cluster_n_any 1 mcn d d kw t) (depth m) (path_depth m) false t.
  (** one step of a generator *)
  Inductive gstep (st : state) : gen -> state -> gen -> option out -> Prop :=
  | g_start : gstep st GNew st (GOn (length st) 0 []) None
  | g_size : forall size k, length st <> size -> gstep st (GOn size k []) st GEnd (Some ORuntime)
  | g_stop : forall size k, length st = size -> nth_error st k = None -> gstep st (GOn size k []) st GEnd (Some OStop)
  | g_take : forall size k sid mk, length st = size -> nth_error st k = Some (sid, mk) ->
      gstep st (GOn size k []) st (GOn size (S k) [(mk_meta mk, RMaker sid)]) None
  (** pattern_cluster.py:724-725 *)
  | g_skip : forall size k m r todo, (t_cnt (tree_of st r) <= 0)%Z ->
      gstep st (GOn size k ((m, r) :: todo)) st (GOn size k todo) None
  (** 726-728 *)
  | g_yield : forall size k m r todo t, (0 < t_cnt (tree_of st r))%Z -> process_lazy m (tree_of st r) (Ok (t, false)) ->
      gstep st (GOn size k ((m, r) :: todo)) (write st r t) (GOn size k todo) (Some (OYield m (maker_of r) t))
  (** 729-731 *)
  | g_split : forall size k m r todo t subs, (0 < t_cnt (tree_of st r))%Z -> process_lazy m (tree_of st r) (Ok (t, true)) ->
      split_by_pattern t = Ok subs ->
      gstep st (GOn size k ((m, r) :: todo)) (write st r t) (GOn size k (map (fun s => (m, ROwn s)) subs ++ todo)) None
  | g_raise : forall size k m r todo e, (0 < t_cnt (tree_of st r))%Z -> process_lazy m (tree_of st r) (Err e) ->
      gstep st (GOn size k ((m, r) :: todo)) st GEnd (Some (ORaise e))
  | g_raise_split : forall size k m r todo t e, (0 < t_cnt (tree_of st r))%Z -> process_lazy m (tree_of st r) (Ok (t, true)) ->
      split_by_pattern t = Err e ->
      gstep st (GOn size k ((m, r) :: todo)) (write st r t) GEnd (Some (ORaise e))
  | g_end : gstep st GEnd st GEnd (Some OStop).
  (** next(): steps up to the first that has a result *)
  Inductive next : state -> gen -> state -> gen -> out -> Prop :=
  | next_now : forall st g st' g' o, gstep st g st' g' (Some o) -> next st g st' g' o
  | next_later : forall st g st1 g1 st' g' o, gstep st g st1 g1 None -> next st1 g1 st' g' o -> next st g st' g' o.

  (** pattern_maker.py:103-110 _combine_clusters from the roots [todo] and the tree [c] on.
      Nothing else runs between the clusters. *)
  Inductive combines : state -> list (url_meta * ref) -> ctree -> state -> res ctree -> Prop :=
  | cb_end : forall st c, combines st [] c st (Ok c)
  | cb_step : forall st todo c st1 todo1 st' r, todo <> [] -> gstep st (GOn 0 0 todo) st1 (GOn 0 0 todo1) None ->
      combines st1 todo1 c st' r -> combines st todo c st' r
  | cb_cluster : forall st todo c st1 todo1 m w t c1 st' r, todo <> [] -> gstep st (GOn 0 0 todo) st1 (GOn 0 0 todo1) (Some (OYield m w t)) ->
      combine_one c t = Ok c1 -> combines st1 todo1 c1 st' r -> combines st todo c st' r
  | cb_bad : forall st todo c st1 g m w t e, todo <> [] -> gstep st (GOn 0 0 todo) st1 g (Some (OYield m w t)) ->
      combine_one c t = Err e -> combines st todo c st1 (Err e)
  | cb_raise : forall st todo c st1 g e, todo <> [] -> gstep st (GOn 0 0 todo) st1 g (Some (ORaise e)) -> combines st todo c st1 (Err e).
  (** next() of make(combine=True).  After its result, the generator of a maker is at its
      end. *)
  Inductive cgen := CNew | COn (size taken : nat) | CEnd.
  Inductive cnext (st : state) : cgen -> state -> cgen -> out -> Prop :=
  | c_start : forall st' g o, cnext st (COn (length st) 0) st' g o -> cnext st CNew st' g o
  | c_size : forall size k, length st <> size -> cnext st (COn size k) st CEnd ORuntime
  | c_stop : forall size k, length st = size -> nth_error st k = None -> cnext st (COn size k) st CEnd OStop
  | c_tree : forall size k sid mk st' t, length st = size -> nth_error st k = Some (sid, mk) ->
      combines st [(mk_meta mk, RMaker sid)] (CT [] 0 []) st' (Ok t) -> cnext st (COn size k) st' (COn size (S k)) (OTree (mk_meta mk) t)
  | c_raise : forall size k sid mk st' e, length st = size -> nth_error st k = Some (sid, mk) ->
      combines st [(mk_meta mk, RMaker sid)] (CT [] 0 []) st' (Err e) -> cnext st (COn size k) st' CEnd (ORaise e)
  | c_end : cnext st CEnd st CEnd OStop.
  (** a generator of either kind *)
  Inductive agen := Plain (g : gen) | Combined (g : cgen).
  Inductive anext (st : state) : agen -> state -> agen -> out -> Prop :=
  | an_plain : forall g st' g' o, next st g st' g' o -> anext st (Plain g) st' (Plain g') o
  | an_combined : forall g st' g' o, cnext st g st' g' o -> anext st (Combined g) st' (Combined g') o.
End Gen.

(** A PatternMaker in use: loads, calls of make() and calls of next() on the generators
    that make() has returned (numbered from 0), in any order; the results of the latter. *)
Inductive act := ALoad (url : str) (meta : option str) | AMake (combine : bool) | ANext (i : nat).
Fixpoint set_nth {A} (i : nat) (x : A) (l : list A) : list A :=
  match l, i with
  | [], _ => []
  | _ :: r, O => x :: r
  | y :: r, S i => y :: set_nth i x r
  end.
Inductive uses (nv : str -> bool) (mcn : Z) : list act -> state -> list agen -> list (nat * out) -> Prop :=
| use_start : uses nv mcn [] [] [] []
| use_load : forall es st gs log url meta, uses nv mcn es st gs log ->
    uses nv mcn (es ++ [ALoad url meta]) (fst (load nv st url meta)) gs log
| use_make : forall es st gs log combine, uses nv mcn es st gs log ->
    uses nv mcn (es ++ [AMake combine]) st (gs ++ [if combine then Combined CNew else Plain GNew]) log
| use_next : forall es st gs log i g st' g' o, uses nv mcn es st gs log -> nth_error gs i = Some g ->
    anext mcn st g st' g' o -> uses nv mcn (es ++ [ANext i]) st' (set_nth i g' gs) (log ++ [(i, o)]).
