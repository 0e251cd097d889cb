(** C63: the programs as filters of files of bytes. *)
From Coq Require Import String.
From Verif Require Import PyStr Defs UrlLib ParseUtils Spec Views Trees Cluster Patterns Matcher Maker Format Cmd Files FileSpec Observe MatchSpec OwnSpec OrderSpec CmdSpec PropCmd MatchBest FileProofs.

(** the lines that iterating over a file gives *)
Theorem C63_lines : forall bytes ls, lines_of bytes ls <-> ls = file_lines bytes.
Proof. exact c63_lines. Qed.
Print Assumptions C63_lines.
(** files that end with a line feed can be written one behind the other *)
Theorem C63_files : forall files rest, Forall whole_lines files -> input_lines (files ++ [rest]) = file_lines (List.concat files ++ rest).
Proof. exact c63_files. Qed.
Print Assumptions C63_files.

(** C63.  Whatever the bytes of the input files, pattern-make prints all records without
    raising.  No record has a line feed, so the lines of the output are the records. *)
Theorem C63_make : forall nv mcn f files, (2 <= mcn)%Z ->
  exists rs out, make_run nv mcn f (input_lines files) = Ok rs /\ make_bytes nv mcn f files = Ok out /\
    Forall2 (fun line r => exists b, line = b ++ [10%N] /\ utf8_decode b = Ok r /\ ~ In 10%N b /\ ~ In 10%N r) (file_lines out) rs.
Proof. exact c63_make. Qed.
Print Assumptions C63_make.
(** pattern-match writes one line for each line of its input files *)
Theorem C63_match : forall srt nv all pfiles files, sorts srt ->
  Forall2 (fun line out => exists r, answer srt nv all (input_lines pfiles) (strip line) r /\ out = r ++ [9%N] ++ strip line ++ [10%N])
    (input_lines files) (file_lines (match_bytes srt nv all pfiles files)).
Proof. exact c63_match. Qed.
Print Assumptions C63_match.

(** The file that pattern-make -f PATTERN wrote, as a pattern file: [as_file rs] of C43
    are its lines, and C43 says what is written for each line of the input. *)
Theorem C63_pattern_file : forall nv mcn files out rs, (2 <= mcn)%Z ->
  make_bytes nv mcn FPattern files = Ok out -> make_run nv mcn FPattern (input_lines files) = Ok rs ->
  input_lines [out] = as_file rs /\ out = List.concat (as_file rs).
Proof. exact c63_pipe. Qed.
Print Assumptions C63_pattern_file.
Theorem C63_make_then_match : forall srt nv mcn files out rs, (2 <= mcn)%Z ->
  make_bytes nv mcn FPattern files = Ok out -> make_run nv mcn FPattern (input_lines files) = Ok rs ->
  forall all files', match_bytes srt nv all [out] files' =
    List.concat (map (fun line => List.concat (match_run srt nv all (as_file rs) [line])) (input_lines files')).
Proof. exact c63_then_match. Qed.
Print Assumptions C63_make_then_match.
(** The output of -f CLUSTER does as well as that of -f PATTERN: the lines of the URLs
    are passed over.  The output of -f JSON has no pattern for pattern-match. *)
Theorem C63_cluster_file : forall nv mcn files outc outp, (2 <= mcn)%Z ->
  make_bytes nv mcn FCluster files = Ok outc -> make_bytes nv mcn FPattern files = Ok outp ->
  forall srt nv' all before after files', match_bytes srt nv' all (before ++ outc :: after) files' = match_bytes srt nv' all (before ++ outp :: after) files'.
Proof. exact c63_cluster. Qed.
Print Assumptions C63_cluster_file.
Theorem C63_json_file : forall nv mcn files out, (2 <= mcn)%Z -> make_bytes nv mcn FJson files = Ok out ->
  forall srt nv' all before after files', match_bytes srt nv' all (before ++ out :: after) files' = match_bytes srt nv' all (before ++ after) files'.
Proof. exact c63_json. Qed.
Print Assumptions C63_json_file.

(** an empty line, a URL with a host that is not ASCII, CR LF, bytes that are not UTF-8,
    no line feed at the end of a file *)
Definition nl : str := [10%N].
Definition in_files : list str :=
  [u "http://h/a1" ++ [13%N; 10%N] ++ nl ++ u "http://" ++ [195; 169]%N ++ u "/b2" ++ nl ++ [255%N] ++ nl ++ u "http://h/c3"; u "http://h/x/y" ++ nl].
Definition tab1 : str := [9%N].
Example C63_case_make : map (fun f => make_bytes nv0 2 f in_files) [FPattern; FCluster; FInline; FJson; FNull] =
  [Ok (u "/[a-z][0-9]" ++ nl ++ u "/x/y" ++ nl);
   Ok (u "/[a-z][0-9]" ++ nl ++ tab1 ++ u "http://h/a1" ++ nl ++ tab1 ++ u "http://" ++ [195; 169]%N ++ u "/b2" ++ nl ++ tab1 ++ u "http://h/c3" ++ nl ++ u "/x/y" ++ nl ++ tab1 ++ u "http://h/x/y" ++ nl);
   Ok (u "/[a-z][0-9]" ++ tab1 ++ u "http://h/a1" ++ nl ++ u "/[a-z][0-9]" ++ tab1 ++ u "http://" ++ [195; 169]%N ++ u "/b2" ++ nl ++ u "/[a-z][0-9]" ++ tab1 ++ u "http://h/c3" ++ nl ++ u "/x/y" ++ tab1 ++ u "http://h/x/y" ++ nl);
   Ok (u "{""ptn"": ""/[a-z][0-9]"", ""cnt"": 3}" ++ nl ++ u "{""ptn"": ""/x/y"", ""cnt"": 1}" ++ nl); Ok []].
Proof. vm_compute. reflexivity. Qed.
Example C63_case_match : sorts isort /\
  match_bytes isort nv0 true [u "/[a-z][0-9]" ++ nl ++ u "/x/y"; u "/[a-z]+[0-9]+" ++ nl] in_files =
  u "/[a-z][0-9]" ++ tab1 ++ u "/[a-z]+[0-9]+" ++ tab1 ++ u "http://h/a1" ++ nl ++ u "E" ++ tab1 ++ nl ++
  u "/[a-z][0-9]" ++ tab1 ++ u "/[a-z]+[0-9]+" ++ tab1 ++ u "http://" ++ [195; 169]%N ++ u "/b2" ++ nl ++
  u "E" ++ tab1 ++ [255%N] ++ nl ++ u "/[a-z][0-9]" ++ tab1 ++ u "/[a-z]+[0-9]+" ++ tab1 ++ u "http://h/c3" ++ nl ++ u "/x/y" ++ tab1 ++ u "http://h/x/y" ++ nl.
Proof. split; [exact isort_sorts|]. vm_compute. reflexivity. Qed.
(** a file that ends within a line: the next file begins a new line *)
Example C63_case_files : input_lines [u "a"; u "b" ++ nl] = [u "a"; u "b" ++ nl] /\ file_lines (u "a" ++ u "b" ++ nl) = [u "ab" ++ nl] /\
  lines_of (u "a" ++ nl ++ nl ++ u "b") [u "a" ++ nl; nl; u "b"].
Proof. split; [reflexivity|]. split; [reflexivity|]. apply c63_lines. reflexivity. Qed.
(** The output of -f INLINE does not do as a pattern file. *)
Theorem C63_inline_file_refuted : exists files outi outp files', make_bytes nv0 2 FInline files = Ok outi /\ make_bytes nv0 2 FPattern files = Ok outp /\
  match_bytes isort nv0 false [outp] files' = u "/[a-z][0-9]" ++ tab1 ++ u "http://h/z9" ++ nl /\
  match_bytes isort nv0 false [outi] files' = u "N" ++ tab1 ++ u "http://h/z9" ++ nl.
Proof. exists in_files. eexists. eexists. exists [u "http://h/z9" ++ nl]. split; [vm_compute; reflexivity|]. split; [vm_compute; reflexivity|]. split; vm_compute; reflexivity. Qed.
Print Assumptions C63_inline_file_refuted.
