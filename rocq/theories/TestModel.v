(** The expectations of /repo/tests computed by the model: evidence that the model
    follows the code, not proofs of anything. *)
From Coq Require Import String Ascii.
From Verif Require Import PyStr Defs UrlLib ParseUtils Views Trees Cluster Patterns Matcher Maker Format Cmd.

Definition any : str -> bool := fun _ => true.
Definition ex (s : string) : str := u "http://example.com" ++ of_string s.
Definition to_string (s : str) : string :=
  fold_right (fun c r => String (ascii_of_N c) r) EmptyString s.
Definition mk_lines (mcn : Z) (f : fmt) (l : list string) : res (list string) :=
  r <- make_run any mcn f (map ex l) ;; Ok (map to_string r).
(** insertion sort, greatest first *)
Fixpoint ins (lt : found -> found -> bool) (x : found) (l : list found) :=
  match l with [] => [x] | y :: r => if lt x y then y :: ins lt x r else x :: l end.
Definition isort (lt : found -> found -> bool) (l : list found) := fold_right (ins lt) [] l.
Definition do_match (all : bool) (ps us : list string) : list string :=
  map to_string (match_run isort any all (map of_string ps) (map ex us)).

Local Open Scope string_scope.
(** tests/test_pattern_maker.py test_make *)
Example t_make1 : mk_lines 3 FPattern ["/a01"; "/b02"; "/c03"] = Ok ["/[a-z][0-9]{2}"].
Proof. vm_compute. reflexivity. Qed.
Example t_make2 : mk_lines 3 FPattern ["/3h4hd9s9w9d9"; "/9s2m1m3j2d10"; "/i2i2g4g23j0m"]
  = Ok ["/[0-9a-z]{12}"].
Proof. vm_compute. reflexivity. Qed.
Example t_make3 :
  mk_lines 3 FPattern ["/3h4hd9s9w9d9.html"; "/9s2m1m3j2d10.html"; "/i2i2g4g23j0m.html"]
  = Ok ["/[0-9a-z]{12}[\.]html"].
Proof. vm_compute. reflexivity. Qed.
Example t_make4 :
  mk_lines 3 FPattern ["/3h4hd9s9w9d9.html?id=01"; "/9s2m1m3j2d10.html?id=02"; "/i2i2g4g23j0m.html?id=03"]
  = Ok ["/[0-9a-z]{12}[\.]html[\?]id=[0-9]{2}"].
Proof. vm_compute. reflexivity. Qed.
Example t_make5 : mk_lines 3 FPattern ["/3h4hd9s9w9ddsadf9"; "/9s2m1m3j2d10"; "/i2i2g4g23j0dsdm"]
  = Ok ["/[0-9a-z]+"].
Proof. vm_compute. reflexivity. Qed.
(** tests/test_cmdline.py test_make, test_make_noise, test_make_fuzzy *)
Example t_cmd1 :
  mk_lines 3 FPattern ["/abc00?id=00#abc"; "/abc01?id=01#abc"; "/abc02?id=02#abc"; "/abc03?id=03#abc";
                       "/abc04?id=04#abc"; "/abc05?id=05#abc"; "/abc06?id=06#abc"; "/abc07?id=07#abc";
                       "/abc08?id=08#abc"]
  = Ok ["/abc[0-9]{2}[\?]id=[0-9]{2}#abc"].
Proof. vm_compute. reflexivity. Qed.
Example t_cmd2 :
  mk_lines 3 FPattern ["/abc00?id=00#abc"; "/abc01?id=01#abc"; "/abc02?id=02#abc"; "/abc03?id=03#abc";
                       "/abc04?id=04#abc"; "/abc05?id=05#abc"; "/abc06?id=06#abc"; "/abc07?id=07#abc";
                       "/abc009?id=09#abc"]
  = Ok ["/abc[0-9]{2}[\?]id=[0-9]{2}#abc"; "/abc009[\?]id=09#abc"].
Proof. vm_compute. reflexivity. Qed.
Example t_cmd3 :
  mk_lines 3 FPattern ["/abc/sdjfpewiefh"; "/abc/dfsdksd"; "/abc/dffalldsfisslkfdksd"; "/abc/didif"; "/abc/dif"]
  = Ok ["/abc/[a-z]+"].
Proof. vm_compute. reflexivity. Qed.
Example t_cmd4 :
  mk_lines 3 FPattern ["/abc/sdjfpewiefh.html"; "/abc/dfsdksd.html"; "/abc/dffalldsfisslkfdksd.html";
                       "/abc/didif.html"; "/abc/dif.html"]
  = Ok ["/abc/[a-z]+[\.]html"].
Proof. vm_compute. reflexivity. Qed.
(** tests/test_formatter.py *)
Example t_json :
  mk_lines 3 FJson ["/abc/00.html"; "/abc/01.html"; "/abc/02.html"; "/abc/03.html"]
  = Ok ["{""ptn"": ""/abc/[0-9]{2}[\\.]html"", ""cnt"": 4}"].
Proof. vm_compute. reflexivity. Qed.
(** tests/test_pattern_matcher.py *)
Example t_match :
  do_match true ["/abc[0-9]{2}"; "/abc[0-9]+"; "/[a-z]+[0-9]{2}"; "/[a-z]{3}[0-9]{2}"; "/[0-9a-z]+"; "/[0-9a-z]{5}"]
           ["/abc01"]
  = ["/abc[0-9]{2}	/abc[0-9]+	/[a-z]{3}[0-9]{2}	/[a-z]+[0-9]{2}	/[0-9a-z]{5}	/[0-9a-z]+	http://example.com/abc01
"].
Proof. vm_compute. reflexivity. Qed.
(** tests/test_parsed_piece_view.py *)
Definition vc (s : string) (l : bool) : res vcls := m <- mk_match_pattern (of_string s) l ;; Ok (mp_view m).
Example t_view :
  map (fun x => vc (fst x) (snd x))
    [("abc", false); ("[a-z]{2}", false); ("[a-z]+", false); ("abc[A-Z]{2}", false);
     ("[A-Za-z]{3}123", false); ("[A-Za-z]+[\.]html", true); ("id[_][0-9A-Za-z]+[\.][a-z]+", true)]
  = map Ok [VPiece; VLength; VFuzzy; VMulti; VMixed; VLdsf; VMixed].
Proof. vm_compute. reflexivity. Qed.
