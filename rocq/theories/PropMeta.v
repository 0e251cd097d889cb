(** C53: metadata is carried, never looked at. *)
From Coq Require Import String.
From Verif Require Import PyStr Defs UrlLib ParseUtils Trees Cluster Patterns Matcher Maker Observe MatchSpec MetaSpec Erase EraseMatch PropMake.

(** C53.  Two histories that load the same URLs, with whatever metadata: make() yields
    the same clusters in the same order, trees, counts and patterns included, or raises
    the same exception *)
Theorem C53_make : forall nv mcn h h', map fst h = map fst h' ->
  no_metas (make mcn (loads nv h)) = no_metas (make mcn (loads nv h')).
Proof. intros nv mcn h h' E. exact (erased nv mcn h h' E). Qed.
Print Assumptions C53_make.
(** and load answers the same *)
Theorem C53_load : forall nv h h' url me me', map fst h = map fst h' ->
  snd (load nv (loads nv h) url me) = snd (load nv (loads nv h') url me').
Proof. exact erased_load. Qed.
Print Assumptions C53_load.
(** The same for the matcher: the same patterns are found, in the same order *)
Theorem C53_match : forall nv h h' url, map fst h = map fst h' ->
  found_patterns (match_url nv (mloads nv h) url) = found_patterns (match_url nv (mloads nv h') url).
Proof. exact erased_match. Qed.
Print Assumptions C53_match.
Theorem C53_match_load : forall nv h h' s me me', map fst h = map fst h' ->
  snd (match_load nv (mloads nv h) s me) = snd (match_load nv (mloads nv h') s me').
Proof. exact erased_mload. Qed.
Print Assumptions C53_match_load.

Definition meta_h (ms : list (option str)) : list (str * option str) :=
  combine [u "http://h/a1"; u "http://h/b2"; u "http://h/c3"; u "http://h/a1"; u "no url"; u "http://h/z"] ms.
Example C53_case : let h := meta_h [Some (u "x"); None; Some (u "y"); Some (u "z"); None; None] in
  let h' := meta_h [None; Some (u "x"); None; None; Some (u "w"); Some (u "q")] in
  map fst h = map fst h' /\ make 2 (loads nv0 h) <> make 2 (loads nv0 h') /\
  map fst (seen (make 2 (loads nv0 h))) = [u "/[a-z][0-9]"; u "/z"].
Proof. split; [reflexivity|]. split; [vm_compute; discriminate|vm_compute; reflexivity]. Qed.
Example C53_match_case : let h := [(u "/[a-z]+", Some (u "x")); (u "/[a-z]{3}", None); (u "/abc", Some (u "y"))] in
  let h' := [(u "/[a-z]+", None); (u "/[a-z]{3}", Some (u "w")); (u "/abc", None)] in
  map fst h = map fst h' /\ match_url nv0 (mloads nv0 h) (u "http://h/abc") <> match_url nv0 (mloads nv0 h') (u "http://h/abc") /\
  match match_url nv0 (mloads nv0 h) (u "http://h/abc") with Ok fs => length fs | Err _ => 0 end = 3.
Proof. split; [reflexivity|]. split; [vm_compute; discriminate|vm_compute; reflexivity]. Qed.
