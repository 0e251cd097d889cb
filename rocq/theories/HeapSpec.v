(** What a user sees of the nodes that load() returns: used in statements only. *)
From Coq Require Import String.
From Verif Require Import PyStr Defs UrlLib ParseUtils Trees Patterns Matcher Maker Observe Heap.

(** what a user does with a PatternMaker before make(): load a URL, or read the
    level of any node they hold *)
Inductive event := ELoad (url : str) (meta : option str) | ELevel (a : addr).
Inductive outcome := OLoad (r : res (addr * bool)) | OLevel (r : res nat).
Definition hstep (nv : str -> bool) (st : hstate) (e : event) : hstate * outcome :=
  match e with
  | ELoad url me => let '(st', r) := hload nv st url me in (st', OLoad r)
  | ELevel a => let '(H', r) := level (hs_heap st) a in (HS H' (hs_makers st), OLevel r)
  end.
Fixpoint hrun (nv : str -> bool) (st : hstate) (es : list event) : hstate * list outcome :=
  match es with
  | [] => (st, [])
  | e :: r => let '(st1, o) := hstep nv st e in
              let '(st2, os) := hrun nv st1 r in (st2, o :: os)
  end.
(** the loads among the events *)
Definition loads_in (es : list event) : list (str * option str) :=
  flat_map (fun e => match e with ELoad url me => [(url, me)] | ELevel _ => [] end) es.

(** [chain H a ps r]: following parrent from the node [a] leads to the node [r],
    which has none; [ps] are the pieces of the nodes below [r], from there down
    to [a] *)
Inductive chain (H : heap) : addr -> list str -> addr -> Prop :=
| chain_root : forall r n, nth_error H r = Some n -> n_parent n = None -> chain H r [] r
| chain_up : forall a n b ps r, nth_error H a = Some n -> n_parent n = Some b -> chain H b ps r ->
    chain H a (ps ++ [piece (n_value n)]) r.

(** [reads H a t]: what is found at [a] and, through _children, below it is the
    tree [t] *)
Definition entries (n : node) : list (str * addr) := match n_children n with Some d => d | None => [] end.
Inductive reads (H : heap) : addr -> tree -> Prop :=
| reads_node : forall a n ts, nth_error H a = Some n ->
    Forall2 (fun e t => fst e = t_piece t /\ reads H (snd e) t) (entries n) ts ->
    reads H a (T (n_value n) (n_pattern n) (n_count n) (n_meta n) ts).
