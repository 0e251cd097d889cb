(** C25, C40: make() again, and in any order. *)
From Coq Require Import String Permutation.
From Verif Require Import PyStr Defs UrlLib ParseUtils Spec Trees Cluster Patterns Matcher Maker AnyOrder Observe MatchSpec OwnSpec AnySpec AnyMake PropMake.

(** [es] is any list of loads and makes, [st] a state that it can lead to, [r] an
    outcome that a further make() can have in it, with the sets of
    pattern_cluster.py gone through in any order (AnyOrder.v). *)

(** C25.  make() gives the clusters of the loads alone. *)
Theorem C25_make_after_makes : forall nv mcn es st r, (2 <= mcn)%Z -> run_events nv mcn es st -> make_any mcn st r ->
  exists cs cs', make mcn (loads nv (event_loads es)) = Ok cs /\ r = Ok cs' /\ same_clusters cs cs'.
Proof. exact c25. Qed.
Print Assumptions C25_make_after_makes.
(** A load after makes does what it does without them. *)
Theorem C25_load_after_makes : forall nv mcn es st, run_events nv mcn es st ->
  bare_state st = loads nv (event_loads es) /\
  forall url meta, snd (load nv st url meta) = snd (load nv (loads nv (event_loads es)) url meta).
Proof. exact c25_loads. Qed.
Print Assumptions C25_load_after_makes.
(** There is such a state for every [es], and the function [make] is one such outcome. *)
Theorem C25_runs_exist : forall nv mcn es, exists st, run_events nv mcn es st.
Proof. exact run_exists. Qed.
Print Assumptions C25_runs_exist.
Theorem C25_make_is_a_run : forall mcn st, make_any mcn st (make mcn st).
Proof. exact make_is_any. Qed.
Print Assumptions C25_make_is_a_run.

(** C40. *)
Theorem C40_same_clusters : forall nv mcn es es' st st' r r',
  (2 <= mcn)%Z -> same_loads (event_loads es) (event_loads es') ->
  run_events nv mcn es st -> run_events nv mcn es' st' -> make_any mcn st r -> make_any mcn st' r' ->
  exists cs cs', r = Ok cs /\ r' = Ok cs' /\ same_clusters cs cs'.
Proof. exact c40. Qed.
Print Assumptions C40_same_clusters.
Theorem C40_same_patterns : forall nv mcn es es' st st' r r',
  (2 <= mcn)%Z -> same_loads (event_loads es) (event_loads es') ->
  run_events nv mcn es st -> run_events nv mcn es' st' -> make_any mcn st r -> make_any mcn st' r' ->
  exists cs cs', r = Ok cs /\ r' = Ok cs' /\ Permutation (map cluster_pattern cs) (map cluster_pattern cs').
Proof. exact c40_patterns. Qed.
Print Assumptions C40_same_patterns.
(** With the function [make], which goes through the sets in one order. *)
Theorem C40_load_order : forall nv mcn h h', (2 <= mcn)%Z -> same_loads h h' ->
  exists cs cs', make mcn (loads nv h) = Ok cs /\ make mcn (loads nv h') = Ok cs' /\ same_clusters cs cs'.
Proof. exact c40_det. Qed.
Print Assumptions C40_load_order.

(** the loads of [case_h] backwards, one of them twice *)
Definition case_h' : list (str * option str) := rev case_h ++ [(u "http://h/a.html", None)].
Example C40_case : same_loads case_h case_h' /\ seen (make 2 (loads nv0 case_h')) =
  [(u "/[a-z][\.]html", [[u "d[\.]html"]; [u "c[\.]html"]; [u "a[\.]html"]]);
   (u "/q[\?]k[\.]=23&l=4#", [[u "q"; u "23"; u "4"; []]]);
   (u "/b[\?]k[\.]=1&l=22", [[u "b"; u "1"; u "22"]]);
   (u "/b[\.]html[\?]", [[u "b[\.]html"; []]]);
   (u "/[0-9a-z]{6}", [[u "a2b2d3"]; [u "a1b2c3"]])].
Proof.
  split; [|vm_compute; reflexivity]. intros l. unfold case_h'. rewrite in_app_iff, <- in_rev. split; [auto|]. intros [I|[<-|[]]]; [exact I|].
  unfold case_h. cbn [In]. auto.
Qed.
(** a make() between the loads leaves patterns in the trees *)
Definition case_es : list event :=
  map (fun l => Load (fst l) (snd l)) (firstn 4 case_h) ++ [Make; Make] ++ map (fun l => Load (fst l) (snd l)) (skipn 4 case_h).
Example C25_case : event_loads case_es = case_h /\
  exists mk mk', In mk (map snd (loads nv0 (firstn 2 case_h))) /\ maker_after_any 2 mk mk' /\
    map path_patterns (paths (mk_root mk)) <> map path_patterns (paths (mk_root mk')).
Proof.
  split; [reflexivity|]. eexists. eexists. split; [apply (nth_error_In _ 0); vm_compute; reflexivity|]. split.
  - unfold maker_after_any. cbn [mk_root]. match goal with |- context [if ?b then _ else _] => replace b with false by (vm_compute; reflexivity) end.
    eexists. split; [|reflexivity]. apply AnyGen.process_is_any. intros. apply AnyGen.cluster_n_is_any.
  - vm_compute. discriminate.
Qed.
