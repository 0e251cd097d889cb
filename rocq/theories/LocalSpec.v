(** The loads of one fuzzy digest: used in statements only. *)
From Coq Require Import String.
From Verif Require Import PyStr Defs UrlLib ParseUtils Spec Views Trees Cluster Patterns Matcher Maker Format Cmd Observe.

(** fuzzy_digest( *parse(s)), for a URL or a URL pattern *)
Definition string_digest (nv : str -> bool) (s : str) : option str :=
  match parse nv s with Ok (m, p) => Some (parsed_digest m p) | Err _ => None end.
Definition of_digest (nv : str -> bool) (sid s : str) : bool :=
  match string_digest nv s with Some d => str_eqb sid d | None => false end.
(** the loads of strings with one fuzzy digest, in order *)
Definition own_loads (nv : str -> bool) (sid : str) (h : list (str * option str)) : list (str * option str) :=
  filter (fun l => of_digest nv sid (fst l)) h.
(** the digests of the accepted URLs, each once, in the order of the first load *)
Definition add_new (l : list str) (x : str) : list str := if existsb (str_eqb x) l then l else l ++ [x].
Definition digests (nv : str -> bool) (h : list (str * option str)) : list str :=
  fold_left add_new (map (fun e => digest_of (fst (fst e)) (snd (fst e))) (accepted nv h)) [].
(** the lines of URLs with one fuzzy digest *)
Definition own_lines (nv : str -> bool) (sid : str) (lines : list str) : list str :=
  filter (fun line => match kind_of_line nv line with LUrl url => of_digest nv sid url | _ => false end) lines.
