(** Model of ETEFormatter and get_ete_tree (/repo/src/os_urlpattern/formatter.py
    lines 140-199) and of pattern-make -f ETE (cmdline.py:144-158).
    ete3.Tree is a tree of names; its drawing, get_ascii, is a parameter. *)
From Coq Require Import String.
From Verif Require Import PyStr Defs UrlLib ParseUtils Views Trees Cluster Patterns Matcher Maker Format Cmd.

(** ete3.Tree(name=...), add_child(name=...) *)
Inductive etree := ET (name : str) (ekids : list etree).
(** formatter.py:181-199 get_ete_tree; TreeNode.level (utils.py:84-94) is the number
    of ancestors, the names are those of lines 154-171 *)
Fixpoint ete_tree (m : url_meta) (level : nat) (n : ctree) : res etree :=
  match n with
  | CT v c ks =>
      name <- ete_label m level n ;;
      kids <- (fix add_children (ks : list ctree) : res (list etree) :=
                 match ks with
                 | [] => Ok []
                 | k :: r => x <- ete_tree m (S level) k ;; xs <- add_children r ;; Ok (x :: xs)
                 end) ks ;;
      Ok (ET name kids)
  end.
(** 173-177: the trees that are drawn *)
Definition fmt_ete (m : url_meta) (root : ctree) : res (list etree) :=
  if (c_cnt root <=? 0)%Z then Ok []
  else e <- ete_tree m 0 root ;; Ok [e].
(** cmdline.py:144-153 _process with combine=True *)
Definition ete_process (get_ascii : etree -> str) (mcn : Z) (st : state) : res (list str) :=
  rs <- mapM (fun sm => root <- maker_combine mcn (snd sm) ;;
                        es <- fmt_ete (mk_meta (snd sm)) root ;;
                        Ok (map get_ascii es)) st ;;
  Ok (List.concat rs).
(** cmdline.py:155-158 run with -f ETE *)
Definition ete_run (get_ascii : etree -> str) (nv : str -> bool) (mcn : Z) (lines : list str) : res (list str) :=
  ete_process get_ascii mcn (fst (make_load nv false lines)).
