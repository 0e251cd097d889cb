(** C47: what pattern-make -f ETE draws. *)
From Coq Require Import String.
From Verif Require Import PyStr Defs UrlLib ParseUtils Spec Trees Cluster Patterns Matcher Maker Format Cmd Ete Observe EteSpec EteProofs.

(** C47.  One maker: its tree has, each once, the way of names of the pattern of each
    of its clusters, and no other.  [labels_of] gives every name the number of distinct
    URL paths whose pattern starts with the parts up to there. *)
Theorem C47_tree : forall nv h mcn sid mk, (2 <= mcn)%Z -> In (sid, mk) (loads nv h) ->
  exists ts ct e, maker_make mcn mk = Ok ts /\ maker_combine mcn mk = Ok ct /\ fmt_ete (mk_meta mk) ct = Ok [e] /\ NoDup (epaths e) /\
    forall ls, In ls (epaths e) <-> exists t nodes, In t ts /\ In nodes (paths t) /\ ls = labels_of (mk_meta mk) ts (path_patterns nodes).
Proof. exact c47_tree. Qed.
Print Assumptions C47_tree.
(** the texts of the names along a way spell the pattern *)
Theorem C47_texts_spell_pattern : forall m Q, length Q = depth m -> let ts := level_texts m Q in
  pack m Q = u "/" ++ join (u "/") (firstn (path_depth m) ts) ++ List.concat (skipn (path_depth m) ts).
Proof. exact c47_spell. Qed.
Print Assumptions C47_texts_spell_pattern.
(** the text of a name can be told from its number *)
Theorem C47_label_text : forall t n t' n', label t n = label t' n' -> t = t'.
Proof. exact label_text. Qed.
Print Assumptions C47_label_text.
(** the command never raises and draws one tree for every fuzzy digest *)
Theorem C47_run : forall ascii nv mcn lines, (2 <= mcn)%Z -> exists es, ete_run ascii nv mcn lines = Ok (map ascii es) /\
  Forall2 (fun sm e => exists ct, maker_combine mcn (snd sm) = Ok ct /\ fmt_ete (mk_meta (snd sm)) ct = Ok [e])
    (loads nv (line_loads nv false lines)) es.
Proof. exact c47_run. Qed.
Print Assumptions C47_run.

Definition ete_lines : list str :=
  map (fun x => u x) ["http://h/news/1?k=a&l=#f"; "http://h/news/2?k=a&l=#f"; "http://h/news/3?k=a&l=#f"; "http://h/news/4?k=a&l=#f"; "http://h/news/5?k=a&l=#f";
   "http://h/news/6?k=a&l=#f"; "http://h/zip/7?k=a&l=#f"; "http://h/zip/7?k=b&l=#f"; "http://h"; "http://h/"]%string.
Definition show (e : etree) : str := List.concat (List.concat (epaths e)).
Example C47_case : ete_run show (fun _ => true) 3 ete_lines = Ok [
    u " (8)  news(6)  [0-9](6)  [\?]k=a(6)  &l=(6)  #f(6) " ++ u " (8)  zip(2)  7(2)  [\?]k=a(1)  &l=(1)  #f(1) " ++
    u " (8)  zip(2)  7(2)  [\?]k=b(1)  &l=(1)  #f(1) ";
    u " (1)  (1) "].
Proof. vm_compute. reflexivity. Qed.
