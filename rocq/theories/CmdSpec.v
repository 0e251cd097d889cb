(** The input and the output of pattern-match: used in statements only. *)
From Coq Require Import String.
From Verif Require Import PyStr Defs UrlLib ParseUtils Spec Views Trees Cluster Patterns Matcher Maker Format Cmd Observe MatchSpec.

(** the pattern on a line of a pattern file, if there is one *)
Definition pattern_line (line : str) : option str :=
  if startswith (rstrip line) (u "/") then
    match utf8_decode (rstrip line) with Ok s => Some s | Err _ => None end
  else None.
(** the loads that the lines stand for; the meta of a pattern is the pattern *)
Definition pattern_loads (lines : list str) : list (str * option str) :=
  flat_map (fun line => match pattern_line line with Some s => [(s, Some s)] | None => [] end) lines.
(** [l] is what is printed for the result [f] of a string of structure [m]: the last
    of the lines that have its pattern, without the white space at its end *)
Definition printed (patterns : list str) (m : url_meta) (f : found) (l : str) : Prop :=
  exists before line after s, patterns = before ++ line :: after /\ l = rstrip line /\
    pattern_line line = Some s /\ same_pattern (m, map mp_str (fst f)) s /\
    forall line' s', In line' after -> pattern_line line' = Some s' -> ~ same_pattern (m, map mp_str (fst f)) s'.
(** the answer for the bytes [line]: E if they are not UTF-8 or match() raises, N if
    it returns nothing, else the patterns of all results, or of the first one of the
    sorted results *)
Definition answer (srt : (found -> found -> bool) -> list found -> list found)
    (nv : str -> bool) (all : bool) (patterns : list str) (line r : str) : Prop :=
  match utf8_decode line with
  | Err _ => r = u "E"
  | Ok url =>
      match match_url nv (mloads nv (pattern_loads patterns)) url with
      | Err _ => r = u "E"
      | Ok [] => r = u "N"
      | Ok fs => exists m p ls, parse nv url = Ok (m, p) /\
          Forall2 (printed patterns m) (if all then fs else firstn 1 (srt found_lt fs)) ls /\
          r = join [9%N] ls /\ ls <> []
      end
  end.
(** a line as it is read from a file: a newline is at its end if anywhere *)
Definition file_line (l : str) : Prop := exists b, ~ In 10%N b /\ (l = b \/ l = b ++ [10%N]).
(** the printed records as the lines of a file *)
Definition as_file (out : list str) : list str := map (fun r => r ++ [10%N]) out.
(** what pattern-match writes before the line: N, or the patterns *)
Definition tagged (ls : list str) : str := match ls with [] => u "N" | _ => join [9%N] ls end.
