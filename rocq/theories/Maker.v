(** Model of /repo/src/os_urlpattern/pattern_maker.py. *)
From Coq Require Import String.
From Verif Require Import PyStr Defs UrlLib ParseUtils Views Trees Cluster Patterns Matcher.

(** pattern_maker.py:65-74 Maker; min_cluster_num is the only entry of the config
    that is read *)
Record maker := MK { mk_meta : url_meta; mk_root : tree }.
(** pattern_maker.py:20-22 PatternMaker._makers *)
Definition state := list (str * maker).

(** 81-95 Maker.load: the tree afterwards and the outcome.  build_from_parsed_pieces
    raises only for no pieces at all, after it has counted the root. *)
Definition maker_load (mk : maker) (pps : list parsed_piece) (meta : option str)
  : maker * res bool :=
  match build_from_parsed_pieces (mk_root mk) pps 1 meta true with
  | Ok (t, new) => (MK (mk_meta mk) t, Ok new)
  | Err e => (MK (mk_meta mk)
                 (fst (build (mk_root mk) (map (fun p => (p, None)) pps) 1 (fun m => m) None)), Err e)
  end.
(** 29-47 PatternMaker.load *)
Definition load (nv : str -> bool) (st : state) (url : str) (meta : option str)
  : state * res bool :=
  match parse nv url with
  | Err e => (st, Err e)
  | Ok (m, PUrl []) | Ok (m, PPat []) => (st, Err EIndex)
  | Ok (m, PPat _) => (st, Err EValue)
  | Ok (m, PUrl pps) =>
      let sid := parsed_digest m (PUrl pps) in
      let mk := match dget str_eqb sid st with Some mk => mk | None => MK m new_root end in
      let '(mk', o) := maker_load mk pps meta in
      (dset str_eqb sid mk' st, o)
  end.

(** 97-101 Maker._cluster *)
Definition maker_make (mcn : Z) (mk : maker) : res (list tree) :=
  cluster mcn (mk_meta mk) false (mk_root mk).
(** 49-62 make(): (url_meta, clustered) pairs *)
Definition make (mcn : Z) (st : state) : res (list (url_meta * tree)) :=
  rs <- mapM (fun sm => ts <- maker_make mcn (snd sm) ;;
                        Ok (map (fun t => (mk_meta (snd sm), t)) ts)) st ;;
  Ok (List.concat rs).
(** The maker's own tree after make(): the first processor (pattern_cluster.py:722)
    has written its patterns into it. *)
Definition maker_after (mcn : Z) (mk : maker) : maker :=
  if (t_cnt (mk_root mk) <=? 0)%Z then mk
  else match process mcn (fun d kw t => cluster_n 1 mcn d d kw t)
               (depth (mk_meta mk)) (path_depth (mk_meta mk)) false (mk_root mk) with
       | Ok (t, _) => MK (mk_meta mk) t
       | Err _ => mk
       end.
Definition make_after (mcn : Z) (st : state) : state :=
  map (fun sm => (fst sm, maker_after mcn (snd sm))) st.

(** ** Combined pattern tree (103-110): TreeNode, with patterns as keys and values *)
Inductive ctree := CT (cval : str) (ccnt : Z) (ckids : list ctree).
Definition c_val (t : ctree) := let '(CT v _ _) := t in v.
Definition c_cnt (t : ctree) := let '(CT _ c _) := t in c.
Definition c_kids (t : ctree) := let '(CT _ _ k) := t in k.
Fixpoint ckid_split (key : str) (ks : list ctree) : option (list ctree * ctree * list ctree) :=
  match ks with
  | [] => None
  | k :: r =>
      if str_eqb key (c_val k) then Some ([], k, r)
      else match ckid_split key r with
           | Some (a, x, b) => Some (k :: a, x, b)
           | None => None
           end
  end.
(** utils.py:126-148 build_tree on TreeNode (103-123) *)
Fixpoint cbuild (t : ctree) (ps : list str) (count : Z) : ctree :=
  match t, ps with
  | CT v c ks, [] => CT v (c + count) ks
  | CT v c ks, p :: r =>
      match ckid_split p ks with
      | Some (a, k, b) => CT v (c + count) (a ++ cbuild k r count :: b)
      | None => CT v (c + count) (ks ++ [cbuild (CT p 0 []) r count])
      end
  end.
(** 103-110 _combine_clusters; build_tree raises UnboundLocalError for a path
    without nodes below the root *)
Definition combine_one (t : ctree) (c : tree) : res ctree :=
  match paths c with
  | [] => Err EType
  | nodes :: _ =>
      match tl nodes with
      | [] => Err EUnbound
      | ns => Ok (cbuild t (map t_pattern ns) (t_cnt c))
      end
  end.
Definition maker_combine (mcn : Z) (mk : maker) : res ctree :=
  cs <- maker_make mcn mk ;; foldM combine_one cs (CT [] 0 []).
