(** C44: the JSON records of pattern-make, read by the JSON reader of JsonSpec.v. *)
From Coq Require Import String.
From Verif Require Import PyStr Defs UrlLib ParseUtils Spec Views Trees Cluster Patterns Matcher Maker Format Cmd Observe OwnSpec JsonSpec PropCmd JsonProofs.
From Coq Require Import Lia.

(** C44.  One record for each cluster, in printable ASCII.  It is a JSON object whose
    members are the pattern of the cluster and the number of its URL paths. *)
Theorem C44_json_records : forall nv mcn lines out, (2 <= mcn)%Z -> make_run nv mcn FJson lines = Ok out ->
  exists cs, make mcn (loads nv (line_loads nv false lines)) = Ok cs /\
    Forall2 (fun r c =>
      json_read r = Some [(u "ptn", JStr (cluster_pattern c)); (u "cnt", JInt (Z.of_nat (length (paths (snd c)))))] /\
      Forall (fun b => (32 <= b <= 126)%N) r) out cs.
Proof. exact c44. Qed.
Print Assumptions C44_json_records.

(** the counts add up to the number of distinct URL paths that were loaded *)
Theorem C44_json_counts : forall nv mcn lines out st a e uq v i, (2 <= mcn)%Z ->
  make_run nv mcn FJson lines = Ok out -> make_load nv false lines = (st, ST a e uq v i) ->
  zsum (map (fun r => match json_read r with Some [_; (_, JInt z)] => z | _ => 0%Z end) out) = uq.
Proof. exact c44_sum. Qed.
Print Assumptions C44_json_counts.

(** json.dumps of any text of Unicode characters reads back as that text *)
Theorem C44_json_strings : forall s rest, Forall scalar s -> read_string (json_str s ++ rest) = Some (s, rest).
Proof. exact (fun s rest => read_json_str s rest). Qed.
Print Assumptions C44_json_strings.

(** the patterns consist of visible ASCII characters: a record of pattern-make
    -f PATTERN has no blank, no line feed and no tab *)
Theorem C44_patterns_visible : forall nv h mcn cs m t, (2 <= mcn)%Z -> make mcn (loads nv h) = Ok cs -> In (m, t) cs ->
  Forall (fun c => (33 <= c <= 126)%N) (cluster_pattern (m, t)).
Proof. exact cluster_ascii. Qed.
Print Assumptions C44_patterns_visible.

Example C44_case : make_run nv0 2 FJson cmd_lines =
    Ok [u "{""ptn"": ""/[a-z][0-9][\\?]p=[a-z]"", ""cnt"": 3}"; u "{""ptn"": ""/"", ""cnt"": 1}"] /\
  map json_read [u "{""ptn"": ""/[a-z][0-9][\\?]p=[a-z]"", ""cnt"": 3}"; u "{""ptn"": ""/"", ""cnt"": 1}"] =
    [Some [(u "ptn", JStr (u "/[a-z][0-9][\?]p=[a-z]")); (u "cnt", JInt 3)]; Some [(u "ptn", JStr (u "/")); (u "cnt", JInt 1)]] /\
  read_string (json_str [34; 92; 47; 9; 127; 233; 128512]%N) = Some ([34; 92; 47; 9; 127; 233; 128512]%N, []) /\
  map json_read [u "{}"; u " { ""a"" : -12 , ""b"":""A\/"" } "; u "{""a"":01}"; u "{""a"":1"; u "{""a"":1}x"; u "{""a"":""\q""}"] =
    [Some []; Some [(u "a", JInt (-12)); (u "b", JStr (u "A/"))]; None; None; None; None].
Proof. split; [vm_compute; reflexivity|]. split; [vm_compute; reflexivity|]. split; vm_compute; reflexivity. Qed.
