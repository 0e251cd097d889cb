(** A PatternMaker in use, on the nodes as objects: used in statements only. *)
From Coq Require Import String.
From Verif Require Import PyStr Defs UrlLib ParseUtils Trees Cluster Patterns Matcher Maker Observe Heap HeapSpec HCluster HMakeSpec Lazy HLazy.

(** what a user does: load a URL, read the level of any node, call make() with
    combine=False or True, call next() on the [i]-th generator that make() has returned *)
Inductive use := ULoad (url : str) (meta : option str) | ULevel (a : addr) | UMake (combine : bool) | UNext (i : nat).
(** what they get; with the outcome of next() the nodes at this moment *)
Inductive got := GLoad (r : res (addr * bool)) | GLevel (r : res nat) | GMake | GNext (o : hout) (H : heap).
(** [huses nv mcn es st gs log]: after [es] from a new PatternMaker on, the objects, the
    generators, and what was got, one entry per use *)
Inductive huses (nv : str -> bool) (mcn : Z) : list use -> hstate -> list hagen -> list got -> Prop :=
| hu_start : huses nv mcn [] hnew [] []
| hu_load : forall es st gs log url meta st' r, huses nv mcn es st gs log -> hload nv st url meta = (st', r) ->
    huses nv mcn (es ++ [ULoad url meta]) st' gs (log ++ [GLoad r])
| hu_level : forall es st gs log a H' r, huses nv mcn es st gs log -> level (hs_heap st) a = (H', r) ->
    huses nv mcn (es ++ [ULevel a]) (HS H' (hs_makers st)) gs (log ++ [GLevel r])
| hu_make : forall es st gs log combine, huses nv mcn es st gs log ->
    huses nv mcn (es ++ [UMake combine]) st (gs ++ [if combine then HCombined CNew else HPlain HGNew]) (log ++ [GMake])
| hu_next : forall es st gs log i g st' g' o, huses nv mcn es st gs log -> nth_error gs i = Some g -> hanext mcn st g st' g' o ->
    huses nv mcn (es ++ [UNext i]) st' (set_nth i g' gs) (log ++ [GNext o (hs_heap st')]).

(** the same uses of the model with trees, which has no levels *)
Definition acts (es : list use) : list act :=
  flat_map (fun e => match e with ULoad url me => [ALoad url me] | ULevel _ => [] | UMake c => [AMake c] | UNext i => [ANext i] end) es.
Definition uloads (es : list use) : list (str * option str) :=
  flat_map (fun e => match e with ULoad url me => [(url, me)] | _ => [] end) es.
Definition umakes (es : list use) : nat := length (filter (fun e => match e with UMake _ => true | _ => false end) es).
(** the outcomes of next(), in order: the generator, the outcome, the nodes *)
Definition nexts (es : list use) (log : list got) : list (nat * hout * heap) :=
  flat_map (fun x => match x with (UNext i, GNext o H) => [(i, o, H)] | _ => [] end) (combine es log).

(** the root of a maker *)
Definition maker_root (st : hstate) (r : addr) : Prop := exists sm, In sm (hs_makers st) /\ hk_root (snd sm) = r.
(** the [p]-th use gave the result [r] with the url_meta [m] *)
Definition result (log : list got) (p : nat) (m : url_meta) (r : addr) (H : heap) : Prop :=
  nth_error log p = Some (GNext (HYield m r) H) \/ nth_error log p = Some (GNext (HTree m r) H).
Definition user_root (st : hstate) (log : list got) (r : addr) : Prop := maker_root st r \/ exists p m H, result log p m r H.

(** an outcome of next() and one of the model with trees *)
Definition same_outcome (st : hstate) (x : nat * hout * heap) (y : nat * out) : Prop :=
  let '(i, o, H) := x in fst y = i /\
  match o, snd y with
  | HYield m r, OYield m' w t => m = m' /\ reads H r t /\
      match w with Some sid => In (sid, HMK m r) (hs_makers st) | None => ~ maker_root st r end
  | HTree m r, OTree m' ct => m = m' /\ reads H r (ptree ct) /\ ~ maker_root st r
  | HStop, OStop => True
  | HRuntime, ORuntime => True
  | _, _ => False
  end.
(** the results of the [i]-th generator, in order, if it is one of make() *)
Definition results_of (i : nat) (l : list (nat * hout * heap)) : list (url_meta * addr * heap) :=
  flat_map (fun x => match x with (j, HYield m r, H) => if j =? i then [(m, r, H)] else [] | _ => [] end) l.
(** ... and if it is one of make(combine=True) *)
Definition trees_of (i : nat) (l : list (nat * hout * heap)) : list (url_meta * addr * heap) :=
  flat_map (fun x => match x with (j, HTree m r, H) => if j =? i then [(m, r, H)] else [] | _ => [] end) l.
