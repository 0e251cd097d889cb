(** C54: the whole output of pattern-make. *)
From Coq Require Import String.
From Verif Require Import PyStr Defs UrlLib ParseUtils Spec Trees Cluster Patterns Matcher Maker Format Cmd Observe JsonSpec OutSpec PropCmd OutProofs.

(** C54.  The output is a sequence of blocks, the same blocks whatever the format.
    Their URLs are the distinct URLs of the input, each in exactly one block, those of
    the same path together, and the pattern of a block matches its URLs. *)
Theorem C54_output : forall nv mcn lines, (2 <= mcn)%Z -> exists blocks,
  (forall f, exists rss, make_run nv mcn f lines = Ok (List.concat rss) /\ Forall2 (shows nv f) blocks rss) /\
  NoDup (List.concat (map b_urls blocks)) /\
  (forall url, In url (List.concat (map b_urls blocks)) <-> In url (line_urls nv lines)) /\
  (forall b, In b blocks -> b_urls b <> [] /\ forall url, In url (b_urls b) -> exists raw, url_path nv url = Some (b_meta b, raw) /\
     (Forall (fun w => ~ In 92%N w) raw -> Forall2 regex_matches (b_patterns b) raw) /\
     forall url', In url' (line_urls nv lines) -> url_path nv url' = url_path nv url -> In url' (b_urls b)).
Proof. exact c54. Qed.
Print Assumptions C54_output.

(** two blocks; the first has four URLs of three paths *)
Definition out_lines : list str := cmd_lines ++ [u "https://g/a1?p=x"].
Example C54_case : line_urls nv0 out_lines = [u "http://h/a1?p=x"; u "http://h/b2?p=x"; u "http://h/c3?p=y"; u "http://h/a1?p=x"; u "http://h/"; u "https://g/a1?p=x"] /\
  let p := u "/[a-z][0-9][\?]p=[a-z]" in
  make_run nv0 2 FPattern out_lines = Ok [p; u "/"] /\
  make_run nv0 2 FCluster out_lines = Ok [p; 9%N :: u "http://h/a1?p=x"; 9%N :: u "https://g/a1?p=x"; 9%N :: u "http://h/b2?p=x"; 9%N :: u "http://h/c3?p=y"; u "/"; 9%N :: u "http://h/"] /\
  make_run nv0 2 FInline out_lines = Ok [p ++ 9%N :: u "http://h/a1?p=x"; p ++ 9%N :: u "https://g/a1?p=x"; p ++ 9%N :: u "http://h/b2?p=x"; p ++ 9%N :: u "http://h/c3?p=y"; 47%N :: 9%N :: u "http://h/"] /\
  make_run nv0 2 FJson out_lines = Ok [u "{""ptn"": ""/[a-z][0-9][\\?]p=[a-z]"", ""cnt"": 3}"; u "{""ptn"": ""/"", ""cnt"": 1}"] /\
  make_run nv0 2 FNull out_lines = Ok [].
Proof. vm_compute. repeat split. Qed.
