(** C55, C61: make() as a suspended generator. *)
From Coq Require Import String.
From Verif Require Import PyStr Defs UrlLib ParseUtils Spec Trees Cluster Patterns Matcher Maker AnyOrder Lazy Observe AnySpec LocalSpec LazySpec PropMake AnyGen LazyProofs.

(** C55.  Loads, calls of make() and calls of next() on the generators that make() has
    returned, in any order, the sets gone through in any order: every result is one that
    LazySpec.v describes.  A generator goes through the digests in the order of their
    first URLs; for each it gives, in some order, the clusters of the URLs of this
    digest that had been loaded when it got to the digest, whatever is loaded and
    whichever generators run between its results; it ends with RuntimeError if a URL of
    a new digest has been loaded since its first result, and otherwise with
    StopIteration; no other exception.  For combine=True see C61. *)
Theorem C55_generator : forall nv mcn es st gs log, (2 <= mcn)%Z -> uses nv mcn es st gs log ->
  exists sgs, spec_uses nv mcn es sgs log.
Proof. exact c55. Qed.
Print Assumptions C55_generator.
(** next() returns, and raises nothing but StopIteration and RuntimeError *)
Theorem C55_next_returns : forall nv mcn es st gs log i g, (2 <= mcn)%Z -> uses nv mcn es st gs log -> nth_error gs i = Some g ->
  (exists st' g' o, anext mcn st g st' g' o) /\ forall st' g' e, ~ anext mcn st g st' g' (ORaise e).
Proof. exact c55_returns. Qed.
Print Assumptions C55_next_returns.
(** Without loads after make(), whichever generators run in between, the generator
    gives what [make] gives. *)
Theorem C55_undisturbed : forall nv mcn es es' st gs log, (2 <= mcn)%Z -> uses nv mcn (es ++ AMake false :: es') st gs log -> act_loads es' = [] ->
  ~ In (makes es, ORuntime) log /\
  (In (makes es, OStop) log -> exists cs, make mcn (loads nv (act_loads es)) = Ok cs /\ same_clusters cs (given (makes es) log)).
Proof. exact c55_drain. Qed.
Print Assumptions C55_undisturbed.
(** A cluster that is the only one of its digest is the tree of the maker.  At any later
    time, it has all URLs of the digest that have been loaded until then. *)
Theorem C55_only_cluster_grows : forall nv mcn es st gs log i m sid t, (2 <= mcn)%Z -> uses nv mcn es st gs log -> In (i, OYield m (Some sid) t) log ->
  exists mk, loads nv (own_loads nv sid (act_loads es)) = [(sid, mk)] /\ bare (later st (Some sid) t) = mk_root mk.
Proof. exact c55_later. Qed.
Print Assumptions C55_only_cluster_grows.

(** A URL, make(), next(); then another URL of the digest, a URL of a new digest, next().
    The cluster that the first next() has returned has one URL at first and two later; the
    second next() raises RuntimeError. *)
Definition case_lazy : list act :=
  [ALoad (u "http://h/a.html") None; AMake false; ANext 0; ALoad (u "http://h/b.html") None; ALoad (u "http://h/x/y") None; ANext 0].
Example C55_case : exists st gs m sid t, uses nv0 2 case_lazy st gs [(0, OYield m (Some sid) t); (0, ORuntime)] /\
  map path_pieces (paths t) = [[u "a[\.]html"]] /\ map path_pieces (paths (later st (Some sid) t)) = [[u "a[\.]html"]; [u "b[\.]html"]].
Proof.
  set (st1 := fst (load nv0 [] (u "http://h/a.html") None)).
  assert (U1 : uses nv0 2 [ALoad (u "http://h/a.html") None; AMake false] st1 [Plain GNew] []) by exact (use_make nv0 2 _ _ _ _ false (use_load nv0 2 _ _ _ _ (u "http://h/a.html") None (use_start nv0 2))).
  destruct st1 as [|[sid mk] [|]] eqn:E1; try (vm_compute in E1; discriminate). 
  assert (P : exists t, process 2 (fun d kw t => cluster_n 1 2 d d kw t) (depth (mk_meta mk)) (path_depth (mk_meta mk)) false (mk_root mk) = Ok (t, false) /\ map path_pieces (paths t) = [[u "a[\.]html"]] /\ (0 < t_cnt (mk_root mk))%Z).
  { vm_compute in E1. inversion E1. subst. eexists. split; [vm_compute; reflexivity|]. split; vm_compute; reflexivity. }
  destruct P as (t & P & PT & PC). assert (TR : tree_of [(sid, mk)] (RMaker sid) = mk_root mk) by (cbn [tree_of dget]; rewrite (proj2 (DictProofs.str_eqb_iff sid sid) eq_refl); reflexivity).
  assert (N1 : next 2 [(sid, mk)] GNew (write [(sid, mk)] (RMaker sid) t) (GOn 1 1 []) (OYield (mk_meta mk) (Some sid) t)).
  { eapply next_later; [apply g_start|]. eapply next_later; [eapply g_take; reflexivity|]. apply next_now. apply (g_yield 2 [(sid, mk)] 1 1 (mk_meta mk) (RMaker sid) []); rewrite TR; [exact PC|]. apply is_process. exact P. }
  pose proof (use_next nv0 2 _ _ _ _ 0 _ _ _ _ U1 eq_refl (an_plain _ _ _ _ _ _ N1)) as U2. pose proof (use_load nv0 2 _ _ _ _ (u "http://h/b.html") None U2) as U3. pose proof (use_load nv0 2 _ _ _ _ (u "http://h/x/y") None U3) as U4.
  eexists _, _, (mk_meta mk), sid, t. split; [|split; [exact PT|]].
  - assert (LE : length (fst (load nv0 (fst (load nv0 (write [(sid, mk)] (RMaker sid) t) (u "http://h/b.html") None)) (u "http://h/x/y") None)) <> 1) by (vm_compute in E1; inversion E1; subst; vm_compute in P; inversion P; subst; vm_compute; discriminate).
    exact (use_next nv0 2 _ _ _ _ 0 (Plain (GOn 1 1 [])) _ _ _ U4 eq_refl (an_plain _ _ _ _ _ _ (next_now 2 _ _ _ _ _ (g_size 2 _ 1 1 LE)))).
  - vm_compute in E1. inversion E1; subst. vm_compute in P. inversion P; subst. vm_compute. reflexivity.
Qed.
(** A digest with two clusters, a URL of it loaded between them: with three URLs there
    would be one cluster, but the generator goes on with what it had. *)
Definition case_split : list act :=
  [ALoad (u "http://h/a1b2c3") None; ALoad (u "http://h/a2b2d3") None; AMake false; ANext 0; ALoad (u "http://h/a3b3d3") None; ANext 0; ANext 0].
Example C55_case_split : (exists st gs m t1 t2, uses nv0 3 case_split st gs [(0, OYield m None t1); (0, OYield m None t2); (0, OStop)] /\
    map path_pieces (paths t1) = [[u "a1b2c3"]] /\ map path_pieces (paths t2) = [[u "a2b2d3"]]) /\
  seen (make 3 (loads nv0 (act_loads case_split))) = [(u "/[0-9a-z]{6}", [[u "a1b2c3"]; [u "a2b2d3"]; [u "a3b3d3"]])].
Proof.
  split; [|vm_compute; reflexivity].
  set (st1 := fst (load nv0 (fst (load nv0 [] (u "http://h/a1b2c3") None)) (u "http://h/a2b2d3") None)).
  assert (U1 : uses nv0 3 [ALoad (u "http://h/a1b2c3") None; ALoad (u "http://h/a2b2d3") None; AMake false] st1 [Plain GNew] []) by exact (use_make nv0 3 _ _ _ _ false (use_load nv0 3 _ _ _ _ (u "http://h/a2b2d3") None (use_load nv0 3 _ _ _ _ (u "http://h/a1b2c3") None (use_start nv0 3)))).
  destruct st1 as [|[sid mk] [|]] eqn:E1; try (vm_compute in E1; discriminate). 
  assert (P : exists t s1 s2 t1 t2 st4 st5, process 3 (fun d kw t => cluster_n 1 3 d d kw t) (depth (mk_meta mk)) (path_depth (mk_meta mk)) false (mk_root mk) = Ok (t, true) /\ split_by_pattern t = Ok [s1; s2] /\
    process 3 (fun d kw t => cluster_n 1 3 d d kw t) (depth (mk_meta mk)) (path_depth (mk_meta mk)) false s1 = Ok (t1, false) /\ process 3 (fun d kw t => cluster_n 1 3 d d kw t) (depth (mk_meta mk)) (path_depth (mk_meta mk)) false s2 = Ok (t2, false) /\
    map path_pieces (paths t1) = [[u "a1b2c3"]] /\ map path_pieces (paths t2) = [[u "a2b2d3"]] /\ (0 < t_cnt (mk_root mk))%Z /\ (0 < t_cnt s1)%Z /\ (0 < t_cnt s2)%Z /\
    write [(sid, mk)] (RMaker sid) t = st4 /\ fst (load nv0 st4 (u "http://h/a3b3d3") None) = st5 /\ length st5 = 1).
  { vm_compute in E1. inversion E1. subst. do 7 eexists. split; [vm_compute; reflexivity|]. repeat (split; [vm_compute; reflexivity|]). vm_compute. reflexivity. }
  destruct P as (t & s1 & s2 & t1 & t2 & st4 & st5 & P & SP & P1 & P2 & PT1 & PT2 & PC & PC1 & PC2 & E4 & E5 & L5).
  assert (TR : tree_of [(sid, mk)] (RMaker sid) = mk_root mk) by (cbn [tree_of dget]; rewrite (proj2 (DictProofs.str_eqb_iff sid sid) eq_refl); reflexivity).
  assert (N1 : next 3 [(sid, mk)] GNew st4 (GOn 1 1 [(mk_meta mk, ROwn s2)]) (OYield (mk_meta mk) None t1)).
  { eapply next_later; [apply g_start|]. eapply next_later; [eapply g_take; reflexivity|].
    eapply next_later; [apply (g_split 3 [(sid, mk)] 1 1 (mk_meta mk) (RMaker sid) [] t [s1; s2]); [rewrite TR; exact PC|rewrite TR; apply is_process; exact P|exact SP]|].
    rewrite E4. apply next_now. apply (g_yield 3 st4 1 1 (mk_meta mk) (ROwn s1) [(mk_meta mk, ROwn s2)]); [exact PC1|apply is_process; exact P1]. }
  pose proof (use_next nv0 3 _ _ _ _ 0 _ _ _ _ U1 eq_refl (an_plain _ _ _ _ _ _ N1)) as U2. pose proof (use_load nv0 3 _ _ _ _ (u "http://h/a3b3d3") None U2) as U3. rewrite E5 in U3.
  assert (N2 : next 3 st5 (GOn 1 1 [(mk_meta mk, ROwn s2)]) st5 (GOn 1 1 []) (OYield (mk_meta mk) None t2)).
  { apply next_now. apply (g_yield 3 st5 1 1 (mk_meta mk) (ROwn s2) []); [exact PC2|apply is_process; exact P2]. }
  pose proof (use_next nv0 3 _ _ _ _ 0 _ _ _ _ U3 eq_refl (an_plain _ _ _ _ _ _ N2)) as U4.
  assert (N3 : next 3 st5 (GOn 1 1 []) st5 GEnd OStop) by (apply next_now, g_stop; [exact L5|apply nth_error_None; rewrite L5; apply le_n]).
  pose proof (use_next nv0 3 _ _ _ _ 0 _ _ _ _ U4 eq_refl (an_plain _ _ _ _ _ _ N3)) as U5. exists st5, [Plain GEnd], (mk_meta mk), t1, t2. split; [exact U5|]. split; assumption.
Qed.

(** C61.  make(combine=True), in the same uses: a result is the combined tree of the
    clusters that a digest has when next() is called, whatever other generators have done
    before.  C32 says what the clusters are for one run of make(). *)
Theorem C61_tree : forall nv mcn es st gs log i m ct, (2 <= mcn)%Z -> uses nv mcn es st gs log -> In (i, OTree m ct) log ->
  exists es1 es2 sid due, es = es1 ++ ANext i :: es2 /\ In sid (digests nv (act_loads es1)) /\
    make mcn (loads nv (own_loads nv sid (act_loads es1))) = Ok due /\ combined m due ct.
Proof. exact c61_tree. Qed.
Print Assumptions C61_tree.
(** Without loads after make(), the generator gives one tree for each digest, in the order
    of their first URLs. *)
Theorem C61_undisturbed : forall nv mcn es es' st gs log, (2 <= mcn)%Z -> uses nv mcn (es ++ AMake true :: es') st gs log -> act_loads es' = [] ->
  ~ In (makes es, ORuntime) log /\
  (In (makes es, OStop) log ->
   Forall2 (fun sid x => exists due, make mcn (loads nv (own_loads nv sid (act_loads es))) = Ok due /\ combined (fst x) due (snd x))
     (digests nv (act_loads es)) (trees_given (makes es) log)).
Proof. exact c61_drain. Qed.
Print Assumptions C61_undisturbed.
(** Two digests; a URL of the second is loaded before the generator gets there, one of the
    first when it is past it. *)
Definition case_combined : list act :=
  [ALoad (u "http://h/a.html") None; ALoad (u "http://h/b.html") None; ALoad (u "http://h/x/y") None; AMake true; ANext 0;
   ALoad (u "http://h/x/z") None; ALoad (u "http://h/c.html") None; ANext 0; ANext 0].
Example C61_case : exists st gs m1 m2 c1 c2, uses nv0 2 case_combined st gs [(0, OTree m1 c1); (0, OTree m2 c2); (0, OStop)] /\
  ccnt_at c1 [] = 2%Z /\ ccnt_at c1 [u "[a-z][\.]html"] = 2%Z /\ ccnt_at c2 [] = 2%Z /\ ccnt_at c2 [u "x"; u "[a-z]"] = 2%Z.
Proof.
  set (st1 := fst (load nv0 (fst (load nv0 (fst (load nv0 [] (u "http://h/a.html") None)) (u "http://h/b.html") None)) (u "http://h/x/y") None)).
  assert (U1 : uses nv0 2 (firstn 4 case_combined) st1 [Combined CNew] []) by exact (use_make nv0 2 _ _ _ _ true (use_load nv0 2 _ _ _ _ (u "http://h/x/y") None (use_load nv0 2 _ _ _ _ (u "http://h/b.html") None (use_load nv0 2 _ _ _ _ (u "http://h/a.html") None (use_start nv0 2))))).
  assert (X : exists sid mk t st2 c1, nth_error st1 0 = Some (sid, mk) /\ length st1 = 2 /\ tree_of st1 (RMaker sid) = mk_root mk /\ (0 < t_cnt (mk_root mk))%Z /\
    process 2 (fun d kw t => cluster_n 1 2 d d kw t) (depth (mk_meta mk)) (path_depth (mk_meta mk)) false (mk_root mk) = Ok (t, false) /\ write st1 (RMaker sid) t = st2 /\ combine_one (CT [] 0 []) t = Ok c1 /\
    ccnt_at c1 [] = 2%Z /\ ccnt_at c1 [u "[a-z][\.]html"] = 2%Z /\
    exists st3, fst (load nv0 (fst (load nv0 st2 (u "http://h/x/z") None)) (u "http://h/c.html") None) = st3 /\
    exists sid' mk' t' st4 c2, nth_error st3 1 = Some (sid', mk') /\ length st3 = 2 /\ tree_of st3 (RMaker sid') = mk_root mk' /\ (0 < t_cnt (mk_root mk'))%Z /\
    process 2 (fun d kw t => cluster_n 1 2 d d kw t) (depth (mk_meta mk')) (path_depth (mk_meta mk')) false (mk_root mk') = Ok (t', false) /\ write st3 (RMaker sid') t' = st4 /\ length st4 = 2 /\ combine_one (CT [] 0 []) t' = Ok c2 /\
    ccnt_at c2 [] = 2%Z /\ ccnt_at c2 [u "x"; u "[a-z]"] = 2%Z).
  { do 5 eexists. repeat (split; [vm_compute; reflexivity|]). eexists. split; [vm_compute; reflexivity|]. do 5 eexists. repeat (split; [vm_compute; reflexivity|]). vm_compute. reflexivity. }
  destruct X as (sid & mk & t & st2 & c1 & A1 & A2 & A3 & A4 & A5 & A6 & A7 & A8 & A9 & st3 & B0 & sid' & mk' & t' & st4 & c2 & B1 & B2 & B3 & B4 & B5 & B6 & B6' & B7 & B8 & B9).
  assert (N1 : anext 2 st1 (Combined CNew) st2 (Combined (COn 2 1)) (OTree (mk_meta mk) c1)).
  { apply an_combined. apply c_start. rewrite A2. apply (c_tree 2 st1 2 0 sid mk); [exact A2|exact A1|]. eapply cb_cluster; [discriminate|apply (g_yield 2 st1 0 0 (mk_meta mk) (RMaker sid) [] t); rewrite A3; [exact A4|apply is_process; exact A5]|exact A7|]. rewrite A6. apply cb_end. }
  pose proof (use_next nv0 2 _ _ _ _ 0 _ _ _ _ U1 eq_refl N1) as U2. pose proof (use_load nv0 2 _ _ _ _ (u "http://h/x/z") None U2) as U3. pose proof (use_load nv0 2 _ _ _ _ (u "http://h/c.html") None U3) as U4. rewrite B0 in U4.
  assert (N2 : anext 2 st3 (Combined (COn 2 1)) st4 (Combined (COn 2 2)) (OTree (mk_meta mk') c2)).
  { apply an_combined. apply (c_tree 2 st3 2 1 sid' mk'); [exact B2|exact B1|]. eapply cb_cluster; [discriminate|apply (g_yield 2 st3 0 0 (mk_meta mk') (RMaker sid') [] t'); rewrite B3; [exact B4|apply is_process; exact B5]|exact B7|]. rewrite B6. apply cb_end. }
  pose proof (use_next nv0 2 _ _ _ _ 0 _ _ _ _ U4 eq_refl N2) as U5.
  assert (N3 : anext 2 st4 (Combined (COn 2 2)) st4 (Combined CEnd) OStop) by (apply an_combined, c_stop; [exact B6'|apply nth_error_None; rewrite B6'; apply le_n]).
  pose proof (use_next nv0 2 _ _ _ _ 0 _ _ _ _ U5 eq_refl N3) as U6. exists st4, [Combined CEnd], (mk_meta mk), (mk_meta mk'), c1, c2. split; [exact U6|]. repeat split; assumption.
Qed.
