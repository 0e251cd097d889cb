(** Renaming letters and digits: used in statements only. *)
From Coq Require Import String.
From Verif Require Import PyStr Defs UrlLib ParseUtils Spec Views Trees Cluster Patterns Matcher Maker Observe GrammarSpec UrlSpec.

(** [f], with the inverse [g], permutes the lower case letters, the upper case letters
    and the digits, and leaves every other character alone *)
Definition renaming (f g : char -> char) : Prop :=
  (forall c, g (f c) = c /\ f (g c) = c) /\
  (forall c, (In c lowercase -> In (f c) lowercase) /\ (In c uppercase -> In (f c) uppercase) /\ (In c digits -> In (f c) digits)) /\
  (forall c, ~ In c letters_digits -> f c = c).

(** renaming in the text of a pattern: what stands between brackets (a backslash hides
    the next character) or between braces is not touched *)
Inductive place := Outside | Class | Escaped | Braces.
Definition next_place (p : place) (c : char) : place :=
  match p with
  | Outside => if N.eqb c 91 then Class else if N.eqb c 123 then Braces else Outside
  | Class => if N.eqb c 92 then Escaped else if N.eqb c 93 then Outside else Class
  | Escaped => Class
  | Braces => if N.eqb c 125 then Outside else Braces
  end.
Fixpoint rename_from (f : char -> char) (p : place) (s : str) : str :=
  match s with
  | [] => []
  | c :: r => match p with Outside => f c | _ => c end :: rename_from f (next_place p c) r
  end.
Definition rename_text (f : char -> char) (s : str) : str := rename_from f Outside s.

(** the structure and the pieces of a URL, renamed; the keys are already written with
    their symbols as classes *)
Definition rename_meta (f : char -> char) (m : url_meta) : url_meta :=
  UM (path_depth m) (map (rename_text f) (query_keys m)) (has_fragment m).
Definition rename_path (f : char -> char) (p : url_meta * list str) : url_meta * list str :=
  (rename_meta f (fst p), map (map f) (snd p)).
(** [renamed_load nv f l l']: [l'] loads the renamed URL with the same metadata, or both
    URLs are rejected *)
Definition renamed_load (nv : str -> bool) (f : char -> char) (l l' : str * option str) : Prop :=
  snd l' = snd l /\ url_path nv (fst l') = option_map (rename_path f) (url_path nv (fst l)).

(** everything that can be read off the nodes on the paths of a tree *)
Definition node_row (n : tree) : str * str * Z * option (list str) := (t_piece n, t_pattern n, t_cnt n, t_meta n).
Definition rows (t : tree) : list (list (str * str * Z * option (list str))) := map (map node_row) (paths t).
Definition rename_row (f : char -> char) (r : str * str * Z * option (list str)) : str * str * Z * option (list str) :=
  match r with (piece, pattern, count, meta) => (rename_text f piece, rename_text f pattern, count, meta) end.

(** what a user sees of the clusters of a make(), and the same renamed *)
Definition view_clusters (r : res (list (url_meta * tree))) : res (list (url_meta * list (list (str * str * Z * option (list str))))) :=
  match r with Ok cs => Ok (map (fun c => (fst c, rows (snd c))) cs) | Err e => Err e end.
Definition rename_clusters (f : char -> char) (r : res (list (url_meta * list (list (str * str * Z * option (list str)))))) :=
  match r with Ok cs => Ok (map (fun c => (rename_meta f (fst c), map (map (rename_row f)) (snd c))) cs) | Err e => Err e end.

(** two absolute URLs, on whatever hosts, whose paths (up to the parameters that urllib
    takes off), queries and fragments differ by the renaming *)
Definition renamed_url (nv : str -> bool) (f : char -> char) (url url' : str) : Prop :=
  exists s h p q fr s' h' p' c, absolute url s h p q fr /\ cut_params s p c /\ host_ok nv h /\
    absolute url' s' h' p' (option_map (map f) q) (option_map (map f) fr) /\ cut_params s' p' (map f c) /\ host_ok nv h'.

(** ** patterns *)
(** how a pattern is read: its structure and its parts *)
Definition reads (s : str) (x : url_meta * list str) : Prop :=
  startswith s (u "/") = true /\ pattern_parts s (path_depth (fst x)) (query_keys (fst x)) (has_fragment (fst x)) (snd x).
Definition rename_parts (f : char -> char) (x : url_meta * list str) : url_meta * list str :=
  (rename_meta f (fst x), map (rename_text f) (snd x)).
(** [s'] is read as the renamed structure and the renamed parts of [s], or neither can be read *)
Definition renamed_pattern (f : char -> char) (s s' : str) : Prop :=
  forall x', reads s' x' <-> exists x, reads s x /\ x' = rename_parts f x.
Definition renamed_pload (f : char -> char) (l l' : str * option str) : Prop :=
  snd l' = snd l /\ renamed_pattern f (fst l) (fst l').
(** every bracket and every brace of the text is closed *)
Definition balanced (s : str) : Prop := fold_left next_place s Outside = Outside.
(** what a user sees of the results of a match(): for each result the patterns on the
    path to the node and the node's metadata *)
Definition user_meta (o : option mmeta) : option str := match o with Some (MUser x) => Some x | _ => None end.
Definition view_found (x : found) : list str * option str := (map mp_str (fst x), user_meta (m_meta (snd x))).
Definition rename_found (f : char -> char) (x : list str * option str) : list str * option str := (map (rename_text f) (fst x), snd x).
