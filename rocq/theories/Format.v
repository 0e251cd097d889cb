(** Model of /repo/src/os_urlpattern/formatter.py lines 35-137 and of the label of
    ETEFormatter (154-171).  Drawing the tree is done by ete3 and not modelled. *)
From Coq Require Import String.
From Verif Require Import PyStr Defs UrlLib ParseUtils Views Trees Cluster Patterns Matcher Maker.

(** formatter.py:38-52 PatternFormatter.format *)
Definition fmt_pattern (m : url_meta) (root : tree) : list str :=
  match paths root with
  | [] => []
  | nodes :: _ => [pack m (map t_pattern (tl nodes))]
  end.
(** the metas in the order of lines 77-81, 106-110; [set] iteration order is taken as
    the sorted order *)
Definition metas (root : tree) : list str :=
  flat_map (fun nodes => match rev nodes with
                         | n :: _ => match t_meta n with Some l => l | None => [] end
                         | [] => []
                         end) (paths root).
Definition TAB : char := 9%N.
(** 61-81 ClusterFormatter.format *)
Definition fmt_cluster (m : url_meta) (root : tree) : list str :=
  fmt_pattern m root ++ map (fun x => TAB :: x) (metas root).
(** 90-110 InlineFormatter.format: the pattern is the last one yielded by
    PatternFormatter; '\t'.join of None raises TypeError *)
Definition fmt_inline (m : url_meta) (root : tree) : res (list str) :=
  match rev (fmt_pattern m root) with
  | p :: _ => Ok (map (fun x => p ++ TAB :: x) (metas root))
  | [] => match metas root with [] => Ok [] | _ => Err EType end
  end.

(** json.dumps of a str (ensure_ascii) and of an int *)
Definition hex_digit (n : N) : char := if (n <? 10)%N then (48 + n)%N else (87 + n)%N.
Definition hex4 (n : N) : str :=
  [92; 117; hex_digit (n / 4096 mod 16); hex_digit (n / 256 mod 16);
   hex_digit (n / 16 mod 16); hex_digit (n mod 16)]%N.
Definition json_char (c : char) : str :=
  (if c =? 34 then [92; 34]
   else if c =? 92 then [92; 92]
   else if c =? 10 then u "\n" else if c =? 13 then u "\r" else if c =? 9 then u "\t"
   else if c =? 12 then u "\f" else if c =? 8 then u "\b"
   else if (32 <=? c) && (c <=? 126) then [c]
   else if c <? 65536 then hex4 c
   else hex4 (55296 + (c - 65536) / 1024 mod 1024) ++ hex4 (56320 + (c - 65536) mod 1024))%N.
Definition json_str (s : str) : str := 34%N :: flat_map json_char s ++ [34%N].
Definition json_int (z : Z) : str :=
  if (z <? 0)%Z then 45%N :: dec_str (Z.to_N (- z)) else dec_str (Z.to_N z).
(** 121-137 JsonFormatter.format *)
Definition fmt_json (m : url_meta) (root : tree) : list str :=
  match paths root with
  | [] => []
  | nodes :: _ =>
      [u "{" ++ json_str (u "ptn") ++ u ": " ++ json_str (pack m (map t_pattern (tl nodes))) ++ u ", "
       ++ json_str (u "cnt") ++ u ": " ++ json_int (t_cnt root) ++ u "}"]
  end.

(** 154-171 the label of a node of a combined tree at a level *)
Definition ete_label (m : url_meta) (level : nat) (n : ctree) : res str :=
  let pd := path_depth m in
  let qd := length (query_keys m) in
  '(sep, key) <-
    (if (pd <? level) && (level <=? pd + qd) then
       match nth_error (query_keys m) (level - pd - 1) with
       | None => Err EIndex
       | Some k => Ok ((if level =? pd + 1 then SINGLE_QUESTION else [AMPERSAND]), k)
       end
     else if level =? pd + qd + 1 then Ok ([NUMBER], [])
     else Ok ([], [])) ;;
  Ok (u " " ++ sep ++ key ++ c_val n ++ u "(" ++ json_int (c_cnt n) ++ u ") ").
