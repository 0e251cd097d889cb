(** Model of the programs as filters of files: how the input files are read as lines
    and what print() and write() put out.

    argparse.FileType('rb') (cmdline.py:66-71, 167-172) and binary_stdin (compat.py:17)
    are binary files; chain.from_iterable (cmdline.py:117, 189, 230) iterates over
    each in turn.  Iterating over a binary file of CPython ends a line behind each
    byte 10 and at the end of the file.  print() is taken to write to a text stream
    with encoding UTF-8 and error handler 'strict' that does not translate newlines. *)
From Coq Require Import String.
From Verif Require Import PyStr Defs UrlLib ParseUtils Views Trees Cluster Patterns Matcher Maker Format Cmd.

(** a file is the list of its bytes; iterating over it *)
Fixpoint file_lines (bytes : str) : list str :=
  match bytes with
  | [] => []
  | b :: r =>
      if N.eqb b 10 then [b] :: file_lines r
      else match file_lines r with
           | [] => [[b]]
           | l :: ls => (b :: l) :: ls
           end
  end.
(** cmdline.py:117, 189, 230: chain.from_iterable(files) *)
Definition input_lines (files : list str) : list str := List.concat (map file_lines files).

(** cmdline.py:152: print(record); UnicodeEncodeError is a ValueError *)
Definition print_bytes (record : str) : res str := b <- utf8_encode record ;; Ok (b ++ [10%N]).
(** cmdline.py:155-158: everything that pattern-make writes *)
Definition make_bytes (nv : str -> bool) (mcn : Z) (f : fmt) (files : list str) : res str :=
  rs <- make_run nv mcn f (input_lines files) ;;
  bs <- mapM print_bytes rs ;;
  Ok (List.concat bs).
(** cmdline.py:241-244: everything that pattern-match writes *)
Definition match_bytes (srt : (found -> found -> bool) -> list found -> list found)
    (nv : str -> bool) (all : bool) (pattern_files files : list str) : str :=
  List.concat (match_run srt nv all (input_lines pattern_files) (input_lines files)).
