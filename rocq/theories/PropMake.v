(** C19-C24, C32: the clusters of make(). *)
From Coq Require Import String Permutation.
From Verif Require Import PyStr Defs UrlLib ParseUtils Spec Trees Cluster Patterns Matcher Maker Observe PyStrProofs MakeProofs PartProofs.

(** [h] is any history of loads (url, meta), [cs] the (url_meta, tree) pairs that
    make() yields after it, [mcn] is min_cluster_num. *)

(** C19. *)
Theorem C19_make_terminates : forall nv h mcn, (2 <= mcn)%Z -> exists cs, make mcn (loads nv h) = Ok cs.
Proof. exact c19. Qed.
Print Assumptions C19_make_terminates.
(** below 2 it raises: AttributeError for 1, UnboundLocalError for less *)
Theorem C19_make_small_raises : forall nv h mcn, (mcn <= 1)%Z -> loads nv h <> [] ->
  make mcn (loads nv h) = Err (if (mcn =? 1)%Z then EAttr else EUnbound).
Proof. exact c19_small. Qed.
Print Assumptions C19_make_small_raises.

(** the history of the examples *)
Definition nv0 : str -> bool := fun _ => true.
Definition case_h : list (str * option str) :=
  [(u "http://h/a1b2c3", None); (u "http://h/a2b2d3", None); (u "http://h/a2b2d3", Some (u "x"));
   (u "http://h/a.html", None); (u "http://g/b.html?", None); (u "http://h/c.html", None);
   (u "http://h/b?k.=1&l=22", None); (u "http://h//q?k.=23&l=4#", None); (u "/z", None);
   (u "http://h/d.html", Some (u "y"))].
Definition seen (cs : res (list (url_meta * tree))) : list (str * list (list str)) :=
  match cs with
  | Ok cs => map (fun mt => (pack (fst mt) (path_patterns (hd [] (paths (snd mt)))),
                             map path_pieces (paths (snd mt)))) cs
  | Err _ => []
  end.
Example C19_case : seen (make 2 (loads nv0 case_h)) =
  [(u "/[0-9a-z]{6}", [[u "a1b2c3"]; [u "a2b2d3"]]);
   (u "/[a-z][\.]html", [[u "a[\.]html"]; [u "c[\.]html"]; [u "d[\.]html"]]);
   (u "/b[\.]html[\?]", [[u "b[\.]html"; []]]);
   (u "/b[\?]k[\.]=1&l=22", [[u "b"; u "1"; u "22"]]);
   (u "/q[\?]k[\.]=23&l=4#", [[u "q"; u "23"; u "4"; []]])].
Proof. vm_compute. reflexivity. Qed.
Example C19_case_small : make 1 (loads nv0 case_h) = Err EAttr /\ make 0 (loads nv0 case_h) = Err EUnbound.
Proof. vm_compute. auto. Qed.

(** C20.  The paths of the clusters are the distinct loaded paths, each once. *)
Theorem C20_clusters_partition_loads : forall nv h mcn cs, (2 <= mcn)%Z -> make mcn (loads nv h) = Ok cs ->
  Permutation (flat_map (fun mt => map (fun nodes => (fst mt, path_pieces nodes)) (paths (snd mt))) cs)
              (loaded nv h).
Proof. exact c20. Qed.
Print Assumptions C20_clusters_partition_loads.
(** the metadata at the end of a path are those loaded with it *)
Theorem C20_clusters_keep_metadata : forall nv h mcn cs m t nodes raw,
  (2 <= mcn)%Z -> make mcn (loads nv h) = Ok cs -> In (m, t) cs -> In nodes (paths t) ->
  Forall (Forall legal) raw -> path_pieces nodes = map piece_of raw ->
  t_cnt (path_leaf nodes) = 1%Z /\
  match t_meta (path_leaf nodes) with
  | None => forall x, ~ In (m, raw, Some x) (accepted nv h)
  | Some l => l <> [] /\ NoDup l /\ forall x, In x l <-> In (m, raw, Some x) (accepted nv h)
  end.
Proof. exact c20_meta. Qed.
Print Assumptions C20_clusters_keep_metadata.
(** the count of a cluster is the number of its paths *)
Theorem C20_cluster_counts : forall nv h mcn cs m t, (2 <= mcn)%Z -> make mcn (loads nv h) = Ok cs ->
  In (m, t) cs -> t_cnt t = Z.of_nat (length (paths t)) /\ paths t <> [].
Proof. exact c20_count. Qed.
Print Assumptions C20_cluster_counts.
Example C20_case : length (loaded nv0 case_h) = 8 /\ length case_h = 10 /\
  exists m t, nth_error (match make 2 (loads nv0 case_h) with Ok cs => cs | Err _ => [] end) 0 = Some (m, t) /\
    t_cnt t = 2%Z /\ map (fun nodes => t_meta (path_leaf nodes)) (paths t) = [None; Some [u "x"]].
Proof. split; [vm_compute; reflexivity|]. split; [reflexivity|]. eexists. eexists. split; [vm_compute; reflexivity|]. vm_compute. auto. Qed.

(** C21. *)
Theorem C21_one_pattern_per_cluster : forall nv h mcn cs m t, (2 <= mcn)%Z -> make mcn (loads nv h) = Ok cs ->
  In (m, t) cs -> exists Ps, length Ps = depth m /\ forall nodes, In nodes (paths t) -> path_patterns nodes = Ps.
Proof. exact c21. Qed.
Print Assumptions C21_one_pattern_per_cluster.
Example C21_case : exists m t, nth_error (match make 2 (loads nv0 case_h) with Ok cs => cs | Err _ => [] end) 1 = Some (m, t) /\
  map path_patterns (paths t) = [[u "[a-z][\.]html"]; [u "[a-z][\.]html"]; [u "[a-z][\.]html"]].
Proof. eexists. eexists. split; [vm_compute; reflexivity|]. vm_compute. auto. Qed.

(** C22.  Position by position. *)
Theorem C22_patterns_match_pieces : forall nv h mcn cs m t nodes raw,
  (2 <= mcn)%Z -> make mcn (loads nv h) = Ok cs -> In (m, t) cs -> In nodes (paths t) ->
  Forall (Forall legal) raw -> path_pieces nodes = map piece_of raw -> Forall (fun w => ~ In 92%N w) raw ->
  Forall2 regex_matches (path_patterns nodes) raw.
Proof. exact c22_pieces. Qed.
Print Assumptions C22_patterns_match_pieces.
(** The packed pattern of the cluster a URL is in matches the text of the URL. *)
Theorem C22_packed_pattern_matches_url : forall nv h mcn cs url me m raw p,
  (2 <= mcn)%Z -> make mcn (loads nv h) = Ok cs ->
  In (url, me) h -> url_path nv url = Some (m, raw) -> parse_url nv url = Ok p ->
  Forall (fun w => ~ In 92%N w) raw -> match up_query p with Some q => Forall legal q | None => True end ->
  (exists t nodes, In (m, t) cs /\ In nodes (paths t) /\ path_pieces nodes = map piece_of raw) /\
  (forall t nodes, In (m, t) cs -> In nodes (paths t) -> path_pieces nodes = map piece_of raw ->
     regex_matches (pack m (path_patterns nodes)) (url_text p)).
Proof. exact c22_url. Qed.
Print Assumptions C22_packed_pattern_matches_url.
Example C22_case : exists m raw p, In (u "http://h//q?k.=23&l=4#", None) case_h /\
  url_path nv0 (u "http://h//q?k.=23&l=4#") = Some (m, raw) /\ raw = [u "q"; u "23"; u "4"; []] /\
  parse_url nv0 (u "http://h//q?k.=23&l=4#") = Ok p /\ up_query p = Some (u "k.=23&l=4") /\
  url_text p = u "/q?k.=23&l=4#".
Proof.
  eexists. eexists. eexists. split; [vm_compute; auto 10|]. split; [vm_compute; reflexivity|]. split; [reflexivity|].
  split; [vm_compute; reflexivity|]. vm_compute. auto.
Qed.
(** with a backslash it is false: four characters are asked of [a\b] *)
Definition bs_h : list (str * option str) := [(u "http://h/a\b", None); (u "http://h/\cd", None)].
Theorem C22_backslash_refuted : exists m t nodes raw, In (m, t) (match make 2 (loads nv0 bs_h) with Ok cs => cs | Err _ => [] end) /\
  In nodes (paths t) /\ Forall (Forall legal) raw /\ path_pieces nodes = map piece_of raw /\
  ~ Forall2 regex_matches (path_patterns nodes) raw.
Proof.
  eexists. eexists. eexists. exists [u "a\b"]. split; [apply (nth_error_In _ 0); vm_compute; reflexivity|]. split; [apply (nth_error_In _ 0); vm_compute; reflexivity|].
  split; [constructor; [apply Forall_forall; intros c [<-|[<-|[<-|[]]]]; apply char_in_In; reflexivity|constructor]|]. split; [vm_compute; reflexivity|].
  intros F. inversion F as [|? ? ? ? (toks & R & H) _]; subst. vm_compute in R. inversion R; subst. destruct H as (a & b & E & _ & L & B). cbn in B. subst b.
  rewrite app_nil_r in E. subst a. vm_compute in L. discriminate.
Qed.
Print Assumptions C22_backslash_refuted.

(** C23. *)
Theorem C23_cluster_pattern_parses : forall nv h mcn cs m t nodes raw,
  (2 <= mcn)%Z -> make mcn (loads nv h) = Ok cs -> In (m, t) cs -> In nodes (paths t) ->
  Forall (Forall legal) raw -> path_pieces nodes = map piece_of raw -> Forall (fun w => ~ In 92%N w) raw ->
  exists mps, parse nv (pack m (path_patterns nodes)) = Ok (m, PPat mps) /\
    map mp_str mps = path_patterns nodes /\ parsed_digest m (PPat mps) = digest_of m raw.
Proof. exact c23. Qed.
Print Assumptions C23_cluster_pattern_parses.
Example C23_case : exists mps, parse nv0 (u "/[0-9a-z]{6}") = Ok (UM 1 [] false, PPat mps) /\
  parsed_digest (UM 1 [] false) (PPat mps) = digest_of (UM 1 [] false) [u "a2b2d3"].
Proof. eexists. split; [vm_compute; reflexivity|]. vm_compute. reflexivity. Qed.
(** with a backslash it is false: the printed pattern is rejected *)
Definition bs_h' : list (str * option str) := [(u "http://h/a\b", None); (u "http://h/c\d", None)].
Theorem C23_backslash_refuted : exists m t nodes, In (m, t) (match make 2 (loads nv0 bs_h') with Ok cs => cs | Err _ => [] end) /\
  In nodes (paths t) /\ pack m (path_patterns nodes) = u "/[a-z][\\][a-z]" /\
  parse nv0 (pack m (path_patterns nodes)) = Err EInvalidPattern.
Proof.
  eexists. eexists. eexists. split; [apply (nth_error_In _ 0); vm_compute; reflexivity|]. split; [apply (nth_error_In _ 0); vm_compute; reflexivity|]. vm_compute. auto.
Qed.
Print Assumptions C23_backslash_refuted.

(** C24. *)
Theorem C24_cluster_sizes : forall nv h mcn cs m t, (2 <= mcn)%Z -> make mcn (loads nv h) = Ok cs -> In (m, t) cs ->
  (exists nodes, paths t = [nodes] /\ path_patterns nodes = path_pieces nodes) \/
  (mcn <= Z.of_nat (length (paths t)))%Z.
Proof. exact c24. Qed.
Print Assumptions C24_cluster_sizes.
Example C24_case : map (fun x => length (snd x)) (seen (make 3 (loads nv0 case_h))) = [1; 1; 3; 1; 1; 1].
Proof. vm_compute. reflexivity. Qed.

(** C32.  [ccnt_at ct Q] is the count of the node at the patterns [Q]. *)
Theorem C32_combined_counts : forall nv h mcn sid mk, (2 <= mcn)%Z -> In (sid, mk) (loads nv h) ->
  exists ts ct, maker_make mcn mk = Ok ts /\ maker_combine mcn mk = Ok ct /\
    ccnt_at ct [] = Z.of_nat (length (distinct_paths nv sid h)) /\
    forall Q, ccnt_at ct Q =
      Z.of_nat (length (filter (fun nodes => prefixb Q (path_patterns nodes)) (flat_map paths ts))).
Proof. exact c32. Qed.
Print Assumptions C32_combined_counts.
Example C32_case : exists sid mk ct, nth_error (loads nv0 case_h) 1 = Some (sid, mk) /\
  maker_combine 2 mk = Ok ct /\ ccnt_at ct [] = 3%Z /\ ccnt_at ct [u "[a-z][\.]html"] = 3%Z /\ ccnt_at ct [u "x"] = 0%Z.
Proof. eexists. eexists. eexists. split; [vm_compute; reflexivity|]. split; [vm_compute; reflexivity|]. vm_compute. auto. Qed.

(** C41 is false: fifteen URLs, and two clusters of the same maker with one
    pattern. *)
Definition dup_h : list (str * option str) :=
  map (fun s => (u "http://h/" ++ u s, None))
    ["aa1/x"; "aa2/x"; "bb1/x"; "bb2/x"; "cc1/x"; "cc2/x"; "dd1/x"; "dd2/x"; "ee1/y"; "ff1/y";
     "1aa/x"; "a1a/x"; "1a1/x"; "11a/x"; "a11/x"]%string.
Theorem C41_distinct_patterns_refuted : exists sid mk, loads nv0 dup_h = [(sid, mk)] /\
  map (fun x => (fst x, length (snd x))) (seen (make 5 (loads nv0 dup_h))) =
  [(u "/[0-9a-z]{3}/x", 8); (u "/ee1/y", 1); (u "/ff1/y", 1); (u "/[0-9a-z]{3}/x", 5)].
Proof. eexists. eexists. split; [vm_compute; reflexivity|]. vm_compute. reflexivity. Qed.
Print Assumptions C41_distinct_patterns_refuted.
(** What holds: different clusters that print the same pattern are of one maker
    and both have min_cluster_num paths or more, so no literal pattern is printed
    twice.  (Paths without backslash.) *)
Theorem C41_repeated_pattern_only_large : forall nv h mcn cs i j m1 t1 m2 t2 n1 n2 raw1 raw2,
  (2 <= mcn)%Z -> make mcn (loads nv h) = Ok cs -> i <> j ->
  nth_error cs i = Some (m1, t1) -> nth_error cs j = Some (m2, t2) -> In n1 (paths t1) -> In n2 (paths t2) ->
  Forall (Forall legal) raw1 -> path_pieces n1 = map piece_of raw1 -> Forall (fun w => ~ In 92%N w) raw1 ->
  Forall (Forall legal) raw2 -> path_pieces n2 = map piece_of raw2 -> Forall (fun w => ~ In 92%N w) raw2 ->
  pack m1 (path_patterns n1) = pack m2 (path_patterns n2) ->
  m1 = m2 /\ digest_of m1 raw1 = digest_of m2 raw2 /\
  (mcn <= Z.of_nat (length (paths t1)))%Z /\ (mcn <= Z.of_nat (length (paths t2)))%Z.
Proof. exact c41. Qed.
Print Assumptions C41_repeated_pattern_only_large.
