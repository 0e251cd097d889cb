(** The tree that pattern-make -f ETE draws: the vocabulary of C47. *)
From Coq Require Import String.
From Verif Require Import PyStr Defs UrlLib ParseUtils Spec Trees Cluster Patterns Matcher Maker Format Cmd Ete Observe.

(** the names from the root to each leaf *)
Fixpoint epaths (e : etree) : list (list str) :=
  match e with
  | ET n [] => [[n]]
  | ET n ks => map (cons n) (flat_map epaths ks)
  end.
(** a name: a text and a number *)
Definition label (t : str) (n : nat) : str := u " " ++ t ++ u "(" ++ dec_str (N.of_nat n) ++ u ") ".
(** the text of each level of the pattern [Q]: a part of the path, a parameter with
    its separator and key, the fragment with '#' *)
Definition query_texts (ks vs : list str) : list str :=
  match combine ks vs with
  | [] => []
  | kv :: r => (u "[\?]" ++ fst kv ++ snd kv) :: map (fun kv => u "&" ++ fst kv ++ snd kv) r
  end.
Definition level_texts (m : url_meta) (Q : list str) : list str :=
  firstn (path_depth m) Q ++ query_texts (query_keys m) (skipn (path_depth m) Q) ++
  map (fun f => u "#" ++ f) (skipn (path_depth m + length (query_keys m)) Q).
(** the number of paths in the clusters [ts] whose pattern starts with [Q] *)
Definition starting (ts : list tree) (Q : list str) : nat :=
  length (filter (fun nodes => prefixb Q (path_patterns nodes)) (flat_map paths ts)).
(** the names on the way of the pattern [Q] *)
Definition labels_of (m : url_meta) (ts : list tree) (Q : list str) : list str :=
  map (fun it => label (snd it) (starting ts (firstn (fst it) Q)))
      (combine (seq 0 (S (length Q))) ([] :: level_texts m Q)).
