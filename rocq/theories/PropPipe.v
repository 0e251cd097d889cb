(** C43: pattern-match on the patterns that pattern-make printed. *)
From Coq Require Import String.
From Verif Require Import PyStr Defs UrlLib ParseUtils Spec Views Trees Cluster Patterns Matcher Maker Format Cmd Observe MatchSpec OwnSpec OrderSpec CmdSpec MatchBest PropAnswer PropOwn Pipe.
From Coq Require Import Lia Permutation.

(** the cut pieces of a URL that a pattern takes are matched by it as a regular
    expression *)
Theorem C28_taken_pieces_match : forall last P s, Forall legal s -> takes last P s -> regex_matches P s.
Proof. exact takes_matches. Qed.
Print Assumptions C28_taken_pieces_match.

(** C43.  [out] is what pattern-make -f PATTERN prints for [lines]; written to a
    file it is the pattern file of pattern-match.  For any URL [line] the answer is
    never E.  With -a it consists of exactly the printed patterns whose parts take
    the pieces of the URL, each once; without, of one of them, if there are any.
    All of them match the URL as regular expressions.  The pattern of the URL's own
    cluster is among them exactly if it is findable. *)
Theorem C43_make_then_match : forall srt nv mcn lines out,
  sorts srt -> (2 <= mcn)%Z -> make_run nv mcn FPattern lines = Ok out -> no_bs nv (line_loads nv false lines) ->
  forall line url m raw,
  utf8_decode (strip line) = Ok url -> url_path nv url = Some (m, raw) -> Forall (fun w => ~ In 92%N w) raw ->
  exists ls best,
    match_run srt nv true (as_file out) [line] = [tagged ls ++ [9%N] ++ strip line ++ [10%N]] /\
    match_run srt nv false (as_file out) [line] = [tagged best ++ [9%N] ++ strip line ++ [10%N]] /\
    (ls = [] /\ best = [] \/ exists r, In r ls /\ best = [r]) /\
    NoDup ls /\
    (forall r, In r ls <-> In r out /\ exists Ps, analyze_url_pattern_string r = Ok (m, Ps) /\ length Ps = length raw /\
       forall i P w, nth_error Ps i = Some P -> nth_error raw i = Some w -> takes (S i =? path_depth m) P w) /\
    (forall p, parse_url nv url = Ok p -> match up_query p with Some q => Forall legal q | None => True end ->
       forall r, In r ls -> regex_matches r (url_text p)) /\
    (forall cs t nodes, make mcn (loads nv (line_loads nv false lines)) = Ok cs -> In (m, t) cs -> In nodes (paths t) -> path_pieces nodes = map piece_of raw ->
       exists uss, Forall2 reads (path_patterns nodes) uss /\
         (In (cluster_pattern (m, t)) ls <->
          forall i us w, nth_error uss i = Some us -> nth_error raw i = Some w -> findable (S i =? path_depth m) us w)).
Proof. exact c43_full. Qed.
Print Assumptions C43_make_then_match.

Definition pipe_lines : list str := map (fun s => u "http://h/" ++ u s ++ nl) ["x1y.html"; "xyz1.html"; "12b.html"; "q/5"; "r/5"; "a-77"; "a-78"; "a-79"; "ab12-x1y2"; "ab12-y2z3"; "ab12-33bc"]%string.
Definition pipe_out : list str := [u "/[0-9a-z]+[\.]html"; u "/[a-z]/5"; u "/a[\-][0-9]{2}"; u "/ab12[\-][0-9a-z]{4}"].
(** found and not found, with the pattern file that pattern-make wrote *)
Example C43_case : make_run nv0 2 FPattern pipe_lines = Ok pipe_out /\ no_bs nv0 (line_loads nv0 false pipe_lines) /\ sorts isort /\
  match_run isort nv0 true (as_file pipe_out) [u "http://h/x1y.html" ++ nl; u "http://h/z/5" ++ nl; u "http://h/a-00"; u "http://h/ab12-x1y2"] =
  [u "/[0-9a-z]+[\.]html" ++ tab ++ u "http://h/x1y.html" ++ nl; u "/[a-z]/5" ++ tab ++ u "http://h/z/5" ++ nl;
   u "/a[\-][0-9]{2}" ++ tab ++ u "http://h/a-00" ++ nl; u "N" ++ tab ++ u "http://h/ab12-x1y2" ++ nl].
Proof.
  split; [vm_compute; reflexivity|]. split; [|split; [exact isort_sorts|vm_compute; reflexivity]].
  assert (X : line_loads nv0 false pipe_lines = site ["x1y.html"; "xyz1.html"; "12b.html"; "q/5"; "r/5"; "a-77"; "a-78"; "a-79"; "ab12-x1y2"; "ab12-y2z3"; "ab12-33bc"]%string) by (vm_compute; reflexivity).
  rewrite X. apply site_no_bs. vm_compute. reflexivity.
Qed.
