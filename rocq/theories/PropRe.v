(** C57: Pattern.match. *)
From Coq Require Import String.
From Verif Require Import PyStr Defs UrlLib ParseUtils Spec Trees Cluster Patterns Matcher Maker Observe Re ReSpec PyStrProofs MakeProofs PropMake ReProofs.

(** C57.  A Pattern object answers whether the text is in the language of its
    string, whatever it was asked before.  Because of '$' a text with one line feed
    behind it is accepted too. *)
Theorem C57_answers : forall P ws, readable P -> exists bs, ask_all (new_pattern P) ws = Some bs /\
  Forall2 (fun w b => b = true <-> regex_matches P w \/ exists w', w = w' ++ [10%N] /\ regex_matches P w') ws bs.
Proof. exact c57_answers. Qed.
Print Assumptions C57_answers.

(** The pattern of a single piece accepts that piece only. *)
Theorem C57_literal : forall s p ws, piece_parse s = Ok p -> (N.of_nat (length s) < 4294967295)%N -> exists bs,
  ask_all (new_pattern (piece p)) ws = Some bs /\ Forall2 (fun w b => b = true <-> w = s \/ w = s ++ [10%N]) ws bs.
Proof. exact c57_literal. Qed.
Print Assumptions C57_literal.

(** The patterns make() puts into a cluster accept the pieces of its URLs ... *)
Theorem C57_made : forall nv h mcn cs m t nodes raw,
  (2 <= mcn)%Z -> make mcn (loads nv h) = Ok cs -> In (m, t) cs -> In nodes (paths t) ->
  Forall (Forall legal) raw -> path_pieces nodes = map piece_of raw -> Forall (fun w => ~ In 92%N w) raw ->
  Forall (fun w => (N.of_nat (length w) < 4294967295)%N) raw ->
  Forall2 (fun P w => exists o, pattern_match (new_pattern P) w = Some (true, o)) (path_patterns nodes) raw.
Proof. exact c57_made. Qed.
Print Assumptions C57_made.

(** ... and the packed pattern of a cluster, made into one Pattern, accepts the text
    of each of its URLs behind the host. *)
Theorem C57_url : forall nv h mcn cs url me m raw p,
  (2 <= mcn)%Z -> make mcn (loads nv h) = Ok cs ->
  In (url, me) h -> url_path nv url = Some (m, raw) -> parse_url nv url = Ok p ->
  Forall (fun w => ~ In 92%N w) raw -> match up_query p with Some q => Forall legal q | None => True end ->
  (N.of_nat (length (url_text p)) < 4294967295)%N ->
  exists t nodes, In (m, t) cs /\ In nodes (paths t) /\ path_pieces nodes = map piece_of raw /\
    exists o, pattern_match (new_pattern (pack m (path_patterns nodes))) (url_text p) = Some (true, o).
Proof. exact c57_url. Qed.
Print Assumptions C57_url.

(** backtracking, the line feed, wrong lengths; the object is asked several times *)
Example C57_case : readable (u "[0-9a-z]+[0-9]{2}[\.]html") /\
  ask_all (new_pattern (u "[0-9a-z]+[0-9]{2}[\.]html"))
    [u "a123.html"; u "a1.html"; u "12.html"; u "712.html"; u "712.html" ++ [10%N]; u "712.html" ++ [10; 10]%N] =
  Some [true; false; false; true; true; false].
Proof. split; [eexists; split; [vm_compute; reflexivity|repeat constructor]|vm_compute; reflexivity]. Qed.
(** what the regular expression syntax allows besides *)
Example C57_case_syntax : map (fun p => match pattern_match (new_pattern (fst p)) (snd p) with Some (b, _) => Some b | None => None end)
    [(u "a.c", u "axc"); (u "[^a-c-]*b", u "xyb"); (u "[]a]{3}", u "a]a"); (u "a{2}b?", u "aa"); (u "a++", u "aa"); (u "(a)", u "a"); (u "[b-a]", u "a"); (u "+", u "+")] =
  [Some true; Some true; Some true; Some true; None; None; None; None].
Proof. vm_compute. reflexivity. Qed.
(** the URLs of the examples of C19-C24: the patterns of every cluster asked for the
    same four texts *)
Example C57_case_made : (match make 3 (loads nv0 case_h) with
  | Ok cs => map (fun mt => map (fun P => ask_all (new_pattern P) [u "q"; u "b.html"; u "a2b2d3"; u "4"]) (path_patterns (hd [] (paths (snd mt))))) cs
  | Err _ => [] end) =
  [[Some [false; false; false; false]]; [Some [false; false; true; false]]; [Some [false; true; false; false]];
   [Some [false; true; false; false]; Some [false; false; false; false]];
   [Some [false; false; false; false]; Some [false; false; false; false]; Some [false; false; false; false]];
   [Some [true; false; false; false]; Some [false; false; false; false]; Some [false; false; false; true]; Some [false; false; false; false]]].
Proof. vm_compute. reflexivity. Qed.
