(** C34 and C36: what pattern-make counts and prints. *)
From Coq Require Import String.
From Verif Require Import PyStr Defs UrlLib ParseUtils Spec Views Trees Cluster Patterns Matcher Maker Format Cmd Observe CmdProofs.

(** C34.  [pairs] are the (path, meta) pairs of the cluster, each once: a path of the
    cluster with a metadata of one of the loads of that path. *)
Theorem C34_formatters : forall nv h mcn cs m t, (2 <= mcn)%Z -> make mcn (loads nv h) = Ok cs -> In (m, t) cs ->
  exists Ps pairs, (forall nodes, In nodes (paths t) -> path_patterns nodes = Ps) /\
    NoDup pairs /\
    (forall ks x, In (ks, x) pairs <-> exists nodes raw, In nodes (paths t) /\ path_pieces nodes = ks /\
        Forall (Forall legal) raw /\ ks = map piece_of raw /\ In (m, raw, Some x) (accepted nv h)) /\
    fmt_pattern m t = [pack m Ps] /\
    fmt_cluster m t = pack m Ps :: map (fun kx => 9%N :: snd kx) pairs /\
    fmt_inline m t = Ok (map (fun kx => pack m Ps ++ 9%N :: snd kx) pairs) /\
    fmt_json m t = [u "{" ++ json_str (u "ptn") ++ u ": " ++ json_str (pack m Ps) ++ u ", "
       ++ json_str (u "cnt") ++ u ": " ++ dec_str (N.of_nat (length (paths t))) ++ u "}"].
Proof. exact c34. Qed.
Print Assumptions C34_formatters.
(** and the command prints them for every cluster without raising *)
Theorem C34_make_never_raises : forall nv mcn f lines, (2 <= mcn)%Z -> exists out, make_run nv mcn f lines = Ok out.
Proof. exact c34_run. Qed.
Print Assumptions C34_make_never_raises.
Definition nv0 : str -> bool := fun _ => true.
Definition cmd_lines : list str :=
  [u " http://h/a1?p=x" ++ [13; 10]%N; [10]%N; u "http://h/b2?p=x"; u "http://h/c3?p=y"; u "no url"; [255; 47]%N;
   u "http://h/a1?p=x"; u "http://h/"]%N.
Example C34_case : make_run nv0 2 FInline cmd_lines =
    Ok [u "/[a-z][0-9][\?]p=[a-z]" ++ 9%N :: u "http://h/a1?p=x"; u "/[a-z][0-9][\?]p=[a-z]" ++ 9%N :: u "http://h/b2?p=x";
        u "/[a-z][0-9][\?]p=[a-z]" ++ 9%N :: u "http://h/c3?p=y"; 47%N :: 9%N :: u "http://h/"]
  /\ make_run nv0 2 FJson cmd_lines =
    Ok [u "{""ptn"": ""/[a-z][0-9][\\?]p=[a-z]"", ""cnt"": 3}"; u "{""ptn"": ""/"", ""cnt"": 1}"].
Proof. split; vm_compute; reflexivity. Qed.

(** C36. *)
Theorem C36_make_counts : forall nv wm lines st a e uq v i, make_load nv wm lines = (st, ST a e uq v i) ->
  st = loads nv (line_loads nv wm lines) /\
  a = Z.of_nat (length lines) /\ e = Z.of_nat (length (filter (fun l => is_blank (kind_of_line nv l)) lines)) /\
  i = Z.of_nat (length (filter (fun l => is_bad (kind_of_line nv l)) lines)) /\
  v = Z.of_nat (length (line_loads nv wm lines)) /\ (a = e + v + i)%Z /\ (uq <= v)%Z /\
  uq = Z.of_nat (length (loaded nv (line_loads nv wm lines))) /\
  uq = zsum (map (fun sm => t_cnt (mk_root (snd sm))) st).
Proof. exact c36. Qed.
Print Assumptions C36_make_counts.
(** [strip] takes the blank bytes off both ends and nothing else *)
Theorem C36_strip : forall l, exists a b, l = a ++ strip l ++ b /\ forallb blank_byte (a ++ b) = true /\
  match strip l with [] => True | x :: _ => blank_byte x = false end /\
  match rev (strip l) with [] => True | x :: _ => blank_byte x = false end.
Proof. exact strip_split. Qed.
Print Assumptions C36_strip.
Example C36_case : snd (make_load nv0 true cmd_lines) = ST 8 1 4 5 2.
Proof. vm_compute. reflexivity. Qed.
