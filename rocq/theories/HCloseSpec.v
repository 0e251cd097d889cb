(** A PatternMaker in use by someone who also closes generators: used in statements only. *)
From Coq Require Import String.
From Verif Require Import PyStr Defs UrlLib ParseUtils Trees Cluster Patterns Matcher Maker Observe Heap HeapSpec HCluster HMakeSpec Lazy HLazy HLazySpec HClose.

(** a use as in HLazySpec.v, or close() of the [i]-th generator *)
Inductive cuse := CUse (e : use) | CClose (i : nat).
Inductive cgot := CGot (x : got) | CClosed.
Inductive cuses (nv : str -> bool) (mcn : Z) : list cuse -> hstate -> list hagen -> list cgot -> Prop :=
| cu_start : cuses nv mcn [] hnew [] []
| cu_load : forall es st gs log url meta st' r, cuses nv mcn es st gs log -> hload nv st url meta = (st', r) ->
    cuses nv mcn (es ++ [CUse (ULoad url meta)]) st' gs (log ++ [CGot (GLoad r)])
| cu_level : forall es st gs log a H' r, cuses nv mcn es st gs log -> level (hs_heap st) a = (H', r) ->
    cuses nv mcn (es ++ [CUse (ULevel a)]) (HS H' (hs_makers st)) gs (log ++ [CGot (GLevel r)])
| cu_make : forall es st gs log combine, cuses nv mcn es st gs log ->
    cuses nv mcn (es ++ [CUse (UMake combine)]) st (gs ++ [if combine then HCombined CNew else HPlain HGNew]) (log ++ [CGot GMake])
| cu_next : forall es st gs log i g st' g' o, cuses nv mcn es st gs log -> nth_error gs i = Some g -> hanext mcn st g st' g' o ->
    cuses nv mcn (es ++ [CUse (UNext i)]) st' (set_nth i g' gs) (log ++ [CGot (GNext o (hs_heap st'))])
| cu_close : forall es st gs log i g, cuses nv mcn es st gs log -> nth_error gs i = Some g ->
    cuses nv mcn (es ++ [CClose i]) st (set_nth i (hclose g) gs) (log ++ [CClosed]).

(** What is left of the uses and of what they gave, if the calls of close() are left out,
    and so are the calls of next() on generators that had been closed; [closed] are those
    that were closed before. *)
Fixpoint going (closed : list nat) (l : list (cuse * cgot)) : list (use * got) :=
  match l with
  | [] => []
  | (CClose i, _) :: r => going (i :: closed) r
  | (CUse (UNext i as e), CGot x) :: r => if existsb (Nat.eqb i) closed then going closed r else (e, x) :: going closed r
  | (CUse e, CGot x) :: r => (e, x) :: going closed r
  | (CUse _, CClosed) :: r => going closed r
  end.
(** the calls of make() *)
Definition cmakes (es : list cuse) : nat := length (filter (fun e => match e with CUse (UMake _) => true | _ => false end) es).
Definition cloads (es : list cuse) : list (str * option str) :=
  flat_map (fun e => match e with CUse (ULoad url me) => [(url, me)] | _ => [] end) es.
(** the outcomes of next(), in order: the generator, the outcome, the nodes *)
Definition cnexts (es : list cuse) (log : list cgot) : list (nat * hout * heap) :=
  flat_map (fun x => match x with (CUse (UNext i), CGot (GNext o H)) => [(i, o, H)] | _ => [] end) (combine es log).
