(** What a user can see of a tree: used in statements only. *)
From Coq Require Import String.
From Verif Require Import PyStr Defs UrlLib ParseUtils Spec Trees Cluster Patterns Matcher Maker Format Cmd.

(** the node reached from [t] through the children with the given pieces *)
Fixpoint node_at (t : tree) (ks : list str) : option tree :=
  match ks with
  | [] => Some t
  | k :: r => match List.find (fun c => str_eqb k (t_piece c)) (t_kids t) with
              | Some c => node_at c r
              | None => None
              end
  end.
Definition cnt_at (t : tree) (ks : list str) : Z :=
  match node_at t ks with Some n => t_cnt n | None => 0%Z end.
Definition meta_at (t : tree) (ks : list str) : option (list str) :=
  match node_at t ks with Some n => t_meta n | None => None end.

(** [prefixb a b]: [b] starts with [a] *)
Fixpoint prefixb (a b : list str) : bool :=
  match a, b with
  | [], _ => true
  | x :: a', y :: b' => str_eqb x y && prefixb a' b'
  | _ :: _, [] => false
  end.

(** the pieces, the meta and the count of the leaf of every path *)
Definition path_pieces (nodes : list tree) : list str := map t_piece (tl nodes).
Definition path_patterns (nodes : list tree) : list str := map t_pattern (tl nodes).
Definition path_leaf (nodes : list tree) : tree := last nodes new_root.
Definition members (t : tree) : list (list str * option (list str)) :=
  map (fun nodes => (path_pieces nodes, t_meta (path_leaf nodes))) (paths t).

(** [is_path t nodes]: [nodes] leads from [t] to a leaf *)
Fixpoint is_path (t : tree) (nodes : list tree) : Prop :=
  match nodes with
  | [] => False
  | n :: r => n = t /\ match r with
                       | [] => t_kids t = []
                       | k :: _ => In k (t_kids t) /\ is_path k r
                       end
  end.
(** the leaves in depth-first order *)
Fixpoint leaf_list (t : tree) : list tree :=
  match t with
  | T _ _ _ _ [] => [t]
  | T _ _ _ _ ks => flat_map leaf_list ks
  end.

(** ** Loads *)
(** the structure and the raw pieces of a string that [load] accepts as a URL: it
    does not start with '/', analyze_url accepts it, all its pieces consist of
    legal characters *)
Definition url_path (nv : str -> bool) (url : str) : option (url_meta * list str) :=
  if startswith url (u "/") then None
  else match analyze_url nv url with
       | Ok (m, raw) =>
           if forallb (forallb (fun c => char_in c legal_chars)) raw then Some (m, raw) else None
       | Err _ => None
       end.
(** the PatternMaker after a history of loads (url, meta); loads that raise are
    part of the history *)
Definition loads (nv : str -> bool) (h : list (str * option str)) : state :=
  fold_left (fun st l => fst (load nv st (fst l) (snd l))) h [].
(** the accepted loads of a history *)
Definition accepted (nv : str -> bool) (h : list (str * option str))
  : list (url_meta * list str * option str) :=
  flat_map (fun l => match url_path nv (fst l) with
                     | Some (m, raw) => [(m, raw, snd l)]
                     | None => []
                     end) h.
(** fuzzy_digest of a URL (parser.py:34-53) from its structure and raw pieces *)
Definition digest_of (m : url_meta) (raw : list str) : str :=
  match mapM piece_parse raw with
  | Ok l => fuzzy_digest m (map fuzzy_rule l)
  | Err _ => []
  end.
(** the paths and metas of the accepted loads with a given fuzzy digest *)
Definition group (nv : str -> bool) (sid : str) (h : list (str * option str))
  : list (list str * option str) :=
  map (fun e => (snd (fst e), snd e))
      (filter (fun e => str_eqb sid (digest_of (fst (fst e)) (snd (fst e)))) (accepted nv h)).
(** the piece of the node a raw piece is stored in *)
Definition piece_of (raw : str) : str :=
  match piece_parse raw with Ok p => piece p | Err _ => [] end.
(** the distinct paths among them *)
Definition distinct_paths (nv : str -> bool) (sid : str) (h : list (str * option str)) : list (list str) :=
  nodup (list_eq_dec (list_eq_dec N.eq_dec)) (map fst (group nv sid h)).
Definition mp_dec : forall a b : url_meta * list str, {a = b} + {a <> b}.
Proof. repeat decide equality. Defined.
(** the distinct (structure, pieces of the nodes) of the accepted loads *)
Definition loaded (nv : str -> bool) (h : list (str * option str)) : list (url_meta * list str) :=
  nodup mp_dec (map (fun e => (fst (fst e), map piece_of (snd (fst e)))) (accepted nv h)).

(** ** The text a packed pattern stands for
    the path from its first '/' with every run of '/' written once, the query with
    its '?' and the fragment with its '#' *)
Fixpoint from_slash (s : str) : str :=
  match s with
  | [] => []
  | c :: r => if N.eqb c 47 then s else from_slash r
  end.
Fixpoint squeeze (s : str) : str :=
  match s with
  | [] => []
  | c :: r => if N.eqb c 47 && match r with d :: _ => N.eqb d 47 | [] => false end
              then squeeze r else c :: squeeze r
  end.
Definition url_text (p : url_parts) : str :=
  squeeze (from_slash (up_path p))
  ++ match up_query p with Some q => 63%N :: q | None => [] end
  ++ match up_fragment p with Some f => 35%N :: f | None => [] end.

(** ** Combined trees: the count at a path of patterns (0 if there is no node) *)
Fixpoint ccnt_at (t : ctree) (ps : list str) : Z :=
  match ps with
  | [] => c_cnt t
  | p :: r => match List.find (fun c => str_eqb p (c_val c)) (c_kids t) with
              | Some c => ccnt_at c r
              | None => 0%Z
              end
  end.

(** ** The lines that pattern-make reads: blank, rejected, or a URL *)
Inductive line_kind := LBlank | LBad | LUrl (url : str).
Definition blank_byte (b : N) : bool := char_in b [9; 10; 11; 12; 13; 32]%N.
Definition kind_of_line (nv : str -> bool) (line : str) : line_kind :=
  if forallb blank_byte line then LBlank
  else match utf8_decode (strip line) with
       | Ok url => match url_path nv url with Some _ => LUrl url | None => LBad end
       | Err _ => LBad
       end.
Definition is_blank (k : line_kind) : bool := match k with LBlank => true | _ => false end.
Definition is_bad (k : line_kind) : bool := match k with LBad => true | _ => false end.
(** the loads that the lines stand for *)
Definition line_loads (nv : str -> bool) (with_meta : bool) (lines : list str) : list (str * option str) :=
  flat_map (fun line => match kind_of_line nv line with
                        | LUrl url => [(url, if with_meta then Some url else None)]
                        | _ => []
                        end) lines.
