(** C27: the matcher and the patterns of make(). *)
From Coq Require Import String.
From Verif Require Import PyStr Defs UrlLib ParseUtils Spec Views Trees Cluster Patterns Matcher Maker Observe MatchSpec OwnSpec MatchOwn.
From Coq Require Import Lia.

(** C27.  [hp] are loads of patterns of the clusters of [h], among them that of
    the cluster of [url].  match(url) returns the pattern of its cluster exactly
    if at every position the matcher cuts the piece where the maker did. *)
Theorem C27_own_pattern_found_iff : forall nv h mcn cs hp url me m raw t nodes me',
  (2 <= mcn)%Z -> make mcn (loads nv h) = Ok cs -> no_bs nv h ->
  (forall s me, In (s, me) hp -> In s (map cluster_pattern cs)) ->
  In (url, me) h -> url_path nv url = Some (m, raw) ->
  In (m, t) cs -> In nodes (paths t) -> path_pieces nodes = map piece_of raw ->
  In (cluster_pattern (m, t), me') hp ->
  exists fs uss, match_url nv (mloads nv hp) url = Ok fs /\ Forall2 reads (path_patterns nodes) uss /\
    (In (path_patterns nodes) (parts_of fs) <->
     forall i us w, nth_error uss i = Some us -> nth_error raw i = Some w -> findable (S i =? path_depth m) us w).
Proof. exact c27. Qed.
Print Assumptions C27_own_pattern_found_iff.

(** every piece of [url]s given by a list of paths *)
Definition nv0 : str -> bool := fun _ => true.
Definition site (l : list string) : list (str * option str) := map (fun s => (u "http://h/" ++ u s, None)) l.
(** the patterns of the clusters, and for every URL those that match() returns
    after they were loaded *)
Definition round (mcn : Z) (h : list (str * option str)) : list str * list (list (list str)) :=
  match make mcn (loads nv0 h) with
  | Ok cs => (map cluster_pattern cs,
              map (fun l => match match_url nv0 (mloads nv0 (map (fun c => (cluster_pattern c, None)) cs)) (fst l) with
                            | Ok fs => parts_of fs
                            | Err _ => []
                            end) h)
  | Err _ => ([], [])
  end.
Lemma site_no_bs : forall l, forallb (fun s => match url_path nv0 (u "http://h/" ++ u s) with Some (_, raw) => forallb (fun w => negb (char_in 92%N w)) raw | None => true end) l = true -> no_bs nv0 (site l).
Proof.
  intros l H url me m raw I U. unfold site in I. apply in_map_iff in I. destruct I as (s & E & I). assert (E' : u "http://h/" ++ u s = url) by congruence. rewrite forallb_forall in H. specialize (H s I). rewrite E', U in H.
  rewrite forallb_forall in H. apply Forall_forall. intros w J. specialize (H w J). intros K. apply PyStrProofs.char_in_In in K. rewrite K in H. discriminate.
Qed.
(** found: a class and a literal extension, runs of one space, one class *)
Example C27_case : no_bs nv0 (site ["x1y.html"; "xyz1.html"; "12b.html"; "q/5"; "r/5"; "a-77"; "a-78"; "a-79"]%string) /\
  round 2 (site ["x1y.html"; "xyz1.html"; "12b.html"; "q/5"; "r/5"; "a-77"; "a-78"; "a-79"]%string) =
  ([u "/[0-9a-z]+[\.]html"; u "/[a-z]/5"; u "/a[\-][0-9]{2}"],
   [[[u "[0-9a-z]+[\.]html"]]; [[u "[0-9a-z]+[\.]html"]]; [[u "[0-9a-z]+[\.]html"]];
    [[u "[a-z]"; u "5"]]; [[u "[a-z]"; u "5"]];
    [[u "a[\-][0-9]{2}"]]; [[u "a[\-][0-9]{2}"]]; [[u "a[\-][0-9]{2}"]]]) /\
  findable true [CCls [u "0-9"; u "a-z"] None; CCls [u "\."] (Some 1%N); CLit (u "html")] (u "x1y.html") /\
  findable true [CLit (u "a"); CCls [u "\-"] (Some 1%N); CCls [u "0-9"] (Some 2%N)] (u "a-77").
Proof.
  split; [apply site_no_bs; vm_compute; reflexivity|]. split; [vm_compute; reflexivity|]. split.
  - right. left. split; [reflexivity|]. split; [eexists; eexists; eexists; split; [reflexivity|exact Logic.I]|].
    exists [u "x1y"; u "."; u "html"], (u "x1y"), (u "."), (u "html"). split; [reflexivity|]. split; [reflexivity|]. split.
    + intros n' E. assert (X : last (u "x1y") 0%N = last (n' ++ u ".") 0%N) by (rewrite <- E; reflexivity). change (u ".") with [46%N] in X. rewrite last_last in X. discriminate.
    + split; [discriminate|]. split; [repeat constructor|]. split; [discriminate|]. split.
      * apply Forall_forall. intros c I. apply PyStrProofs.char_in_In. revert c I. apply Forall_forall. repeat (apply Forall_cons; [vm_compute; reflexivity|]). apply Forall_nil.
      * exists [u "html"]. split; [apply MatchPos.runs_of_text; vm_compute; reflexivity|cbn; lia].
  - right. right. split; [intros (_ & a & n & e & E & _); discriminate|]. left. repeat (apply Forall_cons; [cbn; lia|]). apply Forall_nil.
Qed.
(** The unqualified claim is false: no URL of these three clusters is matched by
    its own pattern.  The pattern has two neighbours of letters and digits that
    the matcher does not cut, or an extension of three runs. *)
Theorem C27_own_pattern_refuted :
  round 3 (site ["ab12-x1y2"; "ab12-y2z3"; "ab12-33bc"]%string) = ([u "/ab12[\-][0-9a-z]{4}"], [[]; []; []]) /\
  round 3 (site ["x1y.mp4"; "xyz1.mp4"; "12b.mp4"]%string) = ([u "/[0-9a-z]+[\.]mp4"], [[]; []; []]) /\
  round 3 (site ["x1y.a1b2"; "xyz1.b2c"; "12b.c1c4d3"]%string) = ([u "/[0-9a-z]+[\.][0-9a-z]+"], [[]; []; []]).
Proof. vm_compute. auto. Qed.
Print Assumptions C27_own_pattern_refuted.
