(** Results of a suspended make(): used in statements only. *)
From Coq Require Import String.
From Verif Require Import PyStr Defs UrlLib ParseUtils Spec Trees Cluster Patterns Matcher Maker AnyOrder Lazy Observe AnySpec LocalSpec.

(** the loads among the actions *)
Definition act_loads (es : list act) : list (str * option str) :=
  flat_map (fun e => match e with ALoad url meta => [(url, meta)] | _ => [] end) es.

(** What a generator is up to: it has not started; it goes through the digests, of which
    there were [size] when it started and of which it has taken [k]; the last one is
    [sid], its clusters were [due] when it was taken, and the generator has given [ys]
    of them; it has finished. *)
Inductive sgen := SNew | SOn (size k : nat) (sid : str) (due ys : list (url_meta * tree)) | SEnd.
(** what next() gives, when the URLs [h] have been loaded *)
Inductive spec_next (nv : str -> bool) (mcn : Z) (h : list (str * option str)) : sgen -> sgen -> out -> Prop :=
(** the first call *)
| sn_start : forall sg o, spec_next nv mcn h (SOn (length (digests nv h)) 0 [] [] []) sg o -> spec_next nv mcn h SNew sg o
(** another cluster of the digest.  It is the tree of the maker exactly if it is the only one. *)
| sn_more : forall size k sid due ys m w t rest, same_clusters due (ys ++ (m, t) :: rest) ->
    w = (if length due =? 1 then Some sid else None) ->
    spec_next nv mcn h (SOn size k sid due ys) (SOn size k sid due (ys ++ [(m, t)])) (OYield m w t)
(** all have been given: the next digest, with the clusters it has now *)
| sn_take : forall size k sid due ys sid' due' sg o, same_clusters due ys -> length (digests nv h) = size ->
    nth_error (digests nv h) k = Some sid' -> make mcn (loads nv (own_loads nv sid' h)) = Ok due' ->
    spec_next nv mcn h (SOn size (S k) sid' due' []) sg o -> spec_next nv mcn h (SOn size k sid due ys) sg o
| sn_stop : forall size k sid due ys, same_clusters due ys -> length (digests nv h) = size -> k = size ->
    spec_next nv mcn h (SOn size k sid due ys) SEnd OStop
(** a URL with a new digest has been loaded since the first call *)
| sn_size : forall size k sid due ys, same_clusters due ys -> length (digests nv h) <> size ->
    spec_next nv mcn h (SOn size k sid due ys) SEnd ORuntime
| sn_end : spec_next nv mcn h SEnd SEnd OStop.
(** What the combined tree [ct] has to be for the clusters [due] with the url_meta [m]:
    for any patterns [Q], the count at [Q] is the number of the URLs whose cluster has a
    pattern that begins with [Q]; all paths are as long as the patterns, siblings are
    different and no count is zero. *)
Fixpoint neat (d : nat) (t : ctree) : Prop :=
  match d with
  | O => c_kids t = []
  | S d => c_kids t <> [] /\ NoDup (map c_val (c_kids t)) /\ Forall (fun k => (0 < c_cnt k)%Z /\ neat d k) (c_kids t)
  end.
Definition combined (m : url_meta) (due : list (url_meta * tree)) (ct : ctree) : Prop :=
  due <> [] /\ Forall (fun c => fst c = m) due /\ neat (depth m) ct /\
  forall Q, ccnt_at ct Q = Z.of_nat (length (filter (fun nodes => prefixb Q (path_patterns nodes)) (flat_map (fun c => paths (snd c)) due))).
(** what next() gives with combine=True *)
Inductive spec_cnext (nv : str -> bool) (mcn : Z) (h : list (str * option str)) : cgen -> cgen -> out -> Prop :=
| sc_start : forall g o, spec_cnext nv mcn h (COn (length (digests nv h)) 0) g o -> spec_cnext nv mcn h CNew g o
(** the next digest *)
| sc_tree : forall size k sid due m ct, length (digests nv h) = size -> nth_error (digests nv h) k = Some sid ->
    make mcn (loads nv (own_loads nv sid h)) = Ok due -> combined m due ct ->
    spec_cnext nv mcn h (COn size k) (COn size (S k)) (OTree m ct)
| sc_stop : forall size, length (digests nv h) = size -> spec_cnext nv mcn h (COn size size) CEnd OStop
| sc_size : forall size k, length (digests nv h) <> size -> spec_cnext nv mcn h (COn size k) CEnd ORuntime
| sc_end : spec_cnext nv mcn h CEnd CEnd OStop.
Inductive asgen := SPlain (g : sgen) | SCombined (g : cgen).
Inductive spec_anext (nv : str -> bool) (mcn : Z) (h : list (str * option str)) : asgen -> asgen -> out -> Prop :=
| sa_plain : forall g g' o, spec_next nv mcn h g g' o -> spec_anext nv mcn h (SPlain g) (SPlain g') o
| sa_combined : forall g g' o, spec_cnext nv mcn h g g' o -> spec_anext nv mcn h (SCombined g) (SCombined g') o.
(** the results of all calls of next() *)
Inductive spec_uses (nv : str -> bool) (mcn : Z) : list act -> list asgen -> list (nat * out) -> Prop :=
| su_start : spec_uses nv mcn [] [] []
| su_load : forall es gs log url meta, spec_uses nv mcn es gs log -> spec_uses nv mcn (es ++ [ALoad url meta]) gs log
| su_make : forall es gs log combine, spec_uses nv mcn es gs log ->
    spec_uses nv mcn (es ++ [AMake combine]) (gs ++ [if combine then SCombined CNew else SPlain SNew]) log
| su_next : forall es gs log i g g' o, spec_uses nv mcn es gs log -> nth_error gs i = Some g ->
    spec_anext nv mcn (act_loads es) g g' o -> spec_uses nv mcn (es ++ [ANext i]) (set_nth i g' gs) (log ++ [(i, o)]).

(** how a tree that a generator has given looks later *)
Definition later (st : state) (w : option str) (t : tree) : tree :=
  match w with Some sid => tree_of st (RMaker sid) | None => t end.
(** the calls of make() among the actions *)
Definition makes (es : list act) : nat := length (filter (fun e => match e with AMake _ => true | _ => false end) es).
(** what a generator has given *)
Definition given (i : nat) (log : list (nat * out)) : list (url_meta * tree) :=
  flat_map (fun x => if fst x =? i then match snd x with OYield m _ t => [(m, t)] | _ => [] end else []) log.
Definition trees_given (i : nat) (log : list (nat * out)) : list (url_meta * ctree) :=
  flat_map (fun x => if fst x =? i then match snd x with OTree m t => [(m, t)] | _ => [] end else []) log.
