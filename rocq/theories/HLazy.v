(** make() as the generator that it is, on the nodes as objects (pattern_maker.py:49-62,
    97-110, pattern_cluster.py:712-732): Lazy.v has it on trees. *)
From Coq Require Import String.
From Verif Require Import PyStr Defs UrlLib ParseUtils Views Trees Cluster Patterns Matcher Maker Heap HCluster HCombine Lazy.

(** What becomes of a root that cluster() is called on: nothing (724-725), it is handed
    over (727-728), it is split (729). *)
Inductive fate := FNone | FYield | FSplit (subs : list addr).
(** A generator: not started; in the loop over the makers (60), the iterator of the dict
    made when it had [size] entries and [taken] of them taken, and [todo] the roots that
    cluster() has yet to be called on (729-731), with the url_meta of their maker;
    finished. *)
Inductive hgen := HGNew | HGOn (size taken : nat) (todo : list (url_meta * addr)) | HGEnd.
(** What next() does: a result (the url_meta and the root), StopIteration, RuntimeError
    (dictionary changed size during iteration), another exception, a result of
    make(combine=True). *)
Inductive hout := HYield (m : url_meta) (root : addr) | HStop | HRuntime | HRaise (e : exn) | HTree (m : url_meta) (root : addr).

Section HGen.
  Context (mcn : Z).
  (** 712-729 up to the loop over the parts *)
  Definition hroot (m : url_meta) (a : addr) : prog heap fate :=
    c <~ reading (fun H => n <- get H a ;; Ok (n_count n)) ;;
    if (c <=? 0)%Z then ret FNone
    else
      split <~ hprocess mcn (fun d kw r b => hcluster_n 1 hproc mcn d d kw r b) (depth m) (path_depth m) false a ;;
      if negb split then ret FYield
      else subs <~ hsplit a ;; ret (FSplit subs).
  Definition hwork (size taken : nat) (m : url_meta) (a : addr) (todo : list (url_meta * addr)) (st : hstate) : hstate * hgen * option hout :=
    let '(H, r) := hroot m a (hs_heap st) in
    let st' := HS H (hs_makers st) in
    match r with
    | Ok FNone => (st', HGOn size taken todo, None)
    | Ok FYield => (st', HGOn size taken todo, Some (HYield m a))
    | Ok (FSplit subs) => (st', HGOn size taken (map (fun s => (m, s)) subs ++ todo), None)
    | Err e => (st', HGEnd, Some (HRaise e))
    end.
  (** one step of a generator *)
  Definition hstep (st : hstate) (g : hgen) : hstate * hgen * option hout :=
    match g with
    | HGNew => (st, HGOn (length (hs_makers st)) 0 [], None)
    | HGOn size k [] =>
        if negb (length (hs_makers st) =? size) then (st, HGEnd, Some HRuntime)
        else match nth_error (hs_makers st) k with
             | None => (st, HGEnd, Some HStop)
             | Some sm => hwork size (S k) (hk_meta (snd sm)) (hk_root (snd sm)) [] st
             end
    | HGOn size k ((m, a) :: todo) => hwork size k m a todo st
    | HGEnd => (st, HGEnd, Some HStop)
    end.
  (** next(): steps up to the first that has a result *)
  Inductive hnext : hstate -> hgen -> hstate -> hgen -> hout -> Prop :=
  | hnext_now : forall st g st' g' o, hstep st g = (st', g', Some o) -> hnext st g st' g' o
  | hnext_later : forall st g st1 g1 st' g' o, hstep st g = (st1, g1, None) -> hnext st1 g1 st' g' o -> hnext st g st' g' o.
  (** next() of make(combine=True), whose states are those of Lazy.v: the body of the loop
      over the makers (60-62) for the maker that the iterator gives next, which is the loop
      for this one alone.  After its result, the generator of a maker is at its end. *)
  Definition hctake (size k : nat) (st : hstate) : hstate * cgen * hout :=
    if negb (length (hs_makers st) =? size) then (st, CEnd, HRuntime)
    else match nth_error (hs_makers st) k with
         | None => (st, CEnd, HStop)
         | Some sm =>
             let '((H, ys), r) := hmake_combine mcn [sm] (hs_heap st, []) in
             let st' := HS H (hs_makers st) in
             match r, ys with
             | Err e, _ => (st', CEnd, HRaise e)
             | Ok _, (m, root, _) :: _ => (st', COn size (S k), HTree m root)
             | Ok _, [] => (st', CEnd, HStop)
             end
         end.
  Definition hcnext (st : hstate) (g : cgen) : hstate * cgen * hout :=
    match g with
    | CNew => hctake (length (hs_makers st)) 0 st
    | COn size k => hctake size k st
    | CEnd => (st, CEnd, HStop)
    end.
  (** a generator of either kind *)
  Inductive hagen := HPlain (g : hgen) | HCombined (g : cgen).
  Inductive hanext (st : hstate) : hagen -> hstate -> hagen -> hout -> Prop :=
  | han_plain : forall g st' g' o, hnext st g st' g' o -> hanext st (HPlain g) st' (HPlain g') o
  | han_combined : forall g st' g' o, hcnext st g = (st', g', o) -> hanext st (HCombined g) st' (HCombined g') o.
End HGen.
