(** C66: what the programs log. *)
From Coq Require Import String.
From Verif Require Import PyStr Defs UrlLib ParseUtils Spec Views Trees Cluster Patterns Matcher Maker Format Cmd Files Log Observe MatchSpec OrderSpec CmdSpec LogSpec GrammarSpec UrlSpec LogProofs.

(** C66.  pattern-make reading [lines]: the records of the loop, then the report.  The
    makers are those of C36. *)
Theorem C66_make_load : forall nv wm lines, exists log,
  make_load_log nv wm lines = (fst (make_load nv wm lines), log ++ [Debugged (u "[LOADED] " ++ make_report nv lines)]) /\
  loop_log 5000 (u "[LOADING]") (make_about nv) lines log.
Proof. exact c66_make_load. Qed.
Print Assumptions C66_make_load.
(** a lone '#' is an error (the host of '#' is empty) *)
Theorem C66_lone_hash : forall nv line ev, host_ok nv [] -> strip line = u "#" -> make_about nv line ev -> ev = [Failed EIndex (u "#")].
Proof. exact c66_hash. Qed.
Print Assumptions C66_lone_hash.
(** the lines that are mentioned: the invalid ones, in their order *)
Theorem C66_make_mentions : forall nv wm lines,
  mentioned (snd (make_load_log nv wm lines)) = map strip (filter (fun l => is_bad (kind_of_line nv l)) lines).
Proof. exact c66_make_mentions. Qed.
Print Assumptions C66_make_mentions.
(** one record for each cluster with its number of URLs; they sum up to UNIQ *)
Theorem C66_clusters : forall nv mcn wm lines, (2 <= mcn)%Z -> exists cs,
  make mcn (loads nv (line_loads nv wm lines)) = Ok cs /\
  make_log nv mcn false wm lines = Ok (snd (make_load_log nv wm lines) ++ map (fun c => Clustered (Z.of_nat (length (paths (snd c))))) cs) /\
  list_sum (map (fun c => length (paths (snd c))) cs) = length (loaded nv (line_loads nv false lines)).
Proof. exact c66_clusters. Qed.
Print Assumptions C66_clusters.
(** with the format ETE: one for each maker *)
Theorem C66_combined : forall nv mcn wm lines, (2 <= mcn)%Z ->
  make_log nv mcn true wm lines =
  Ok (snd (make_load_log nv wm lines) ++
      map (fun sm => Clustered (Z.of_nat (length (distinct_paths nv (fst sm) (line_loads nv wm lines))))) (loads nv (line_loads nv wm lines))).
Proof. exact c66_combined. Qed.
Print Assumptions C66_combined.
(** pattern-match reading pattern files *)
Theorem C66_match_load : forall nv files, exists log, match_load_log nv files =
  (match_load_lines nv (input_lines (map snd files)),
   Debugged (u "[LOAD] " ++ dec_str (N.of_nat (length files)) ++ (match files with [_] => u " pattern file: " | [] => u " pattern file: " | _ => u " pattern files: " end) ++ join (u ", ") (map fst files)) ::
   log ++ [Debugged (u "[LOAD] Finished " ++ match_report nv (input_lines (map snd files)))]) /\
  loop_log 1000 (u "[LOADING]") (pattern_about nv) (input_lines (map snd files)) log.
Proof. exact c66_match_load. Qed.
Print Assumptions C66_match_load.
Theorem C66_load_mentions : forall nv files, mentioned (snd (match_load_log nv files)) =
  map rstrip (filter (fun l => match pkind_of nv l with PBad => true | _ => false end) (input_lines (map snd files))).
Proof. exact c66_load_mentions. Qed.
Print Assumptions C66_load_mentions.
(** pattern-match matching *)
Theorem C66_match : forall srt nv all files inputs, sorts srt -> exists log,
  match_log srt nv all files inputs = snd (match_load_log nv files) ++ log /\
  loop_log 5000 (u "[MATCHING]") (match_about nv (input_lines (map snd files))) (input_lines inputs) log.
Proof. exact c66_match. Qed.
Print Assumptions C66_match.
(** the lines that are mentioned: those that are answered with E, in their order *)
Theorem C66_match_mentions : forall srt nv all files inputs, sorts srt -> let patterns := input_lines (map snd files) in
  mentioned (match_log srt nv all files inputs) = mentioned (snd (match_load_log nv files)) ++
    map strip (filter (fun line => startswith (match_line srt nv (match_load_lines nv patterns) all line) (u "E" ++ [9%N])) (input_lines inputs)).
Proof. exact c66_match_mentions. Qed.
Print Assumptions C66_match_mentions.

Definition nl (s : string) : str := u s ++ [10%N].
Definition log_lines : list str :=
  [nl "#"; nl " "; nl "http://h/a1"; nl "http://h/a1 "; nl "http://h/b2"; nl "http://h/a b"; [255%N; 10%N]; nl "h.org"; nl "/a"; nl "http://h/c3"].
Example C66_make_case : make_log (fun _ => true) 3 false false log_lines =
  Ok [Failed EIndex (u "#"); Warned EInvalidChar (u "http://h/a b"); Warned EValue [255%N]; Warned EIrregularURL (u "h.org"); Warned EValue (u "/a");
      Debugged (u "[LOADED] ALL:10, INVALID:5, EMPTY:1, UNIQ:3, VALID:4"); Clustered 3].
Proof. vm_compute. reflexivity. Qed.
(** a record of the progress *)
Example C66_progress_case : ls_log (make_line_log (fun _ => true) false (LS [] [] 4999%N []) (nl "#")) = [Progress (u "[LOADING]") 5000; Failed EIndex (u "#")].
Proof. vm_compute. reflexivity. Qed.
(** '/' beside other characters (C48): an AttributeError *)
Example C66_match_case :
  match_log (fun lt l => l) (fun _ => true) true
    [(u "p1", nl "/[\?]k=[/][%a-z]{2}[,/0-9]+" ++ nl "x" ++ nl "/[a"); (u "p2", nl "/[\?]k=[/][%a-z]{2}[,]+[0-9]")]
    [nl "http://h/?k=/%a,5" ++ nl "http://h/x"; nl "a b"] =
  [Debugged (u "[LOAD] 2 pattern files: p1, p2"); Warned EInvalidPattern (u "/[a"); Debugged (u "[LOAD] Finished ALL:4, VALID:2, UNKNOW:1, INVALID:1");
   Failed EAttr (u "http://h/?k=/%a,5"); Warned EIrregularURL (u "a b")].
Proof. vm_compute. reflexivity. Qed.
