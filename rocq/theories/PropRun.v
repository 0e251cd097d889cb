(** C67: what make() does with URLs that differ in one run of characters. *)
From Coq Require Import String.
From Verif Require Import PyStr Defs UrlLib ParseUtils Spec Trees Cluster Patterns Matcher Maker Observe MatchSpec OneSpec TightSpec RunSpec PropMake RunMake.
From Coq Require Import Lia.

(** C67.  If the accepted URLs differ in one whole run of characters inside one piece
    only, the result of make() is known.  Everything outside of one block of this piece
    is literal.  The block is the run, or the run with the letters, digits and '%' next
    to it, or the whole piece; which of them is decided by the characters of the piece.
    The number and the lengths of the runs decide whether the block is itself, a class
    with its length or a class with '+'. *)
Theorem C67_one_run : forall nv h mcn m pre post A B r ss,
  (2 <= mcn)%Z -> run_varies nv h m pre post A B r ss -> whole_run A B r ->
  exists A0 a b B0 cs, (forall s, In s ss -> block mcn (path_depth m = S (length pre)) A s B A0 a b B0) /\
    make mcn (loads nv h) = Ok cs /\
    (forall m' t nodes, In (m', t) cs -> In nodes (paths t) -> m' = m /\
       exists s P, In s ss /\ path_pieces nodes = map piece_of (pre ++ (A ++ s ++ B) :: post) /\
         block_pattern mcn ss s (a ++ s ++ b) P /\
         path_patterns nodes = map piece_of pre ++ (piece_of A0 ++ P ++ piece_of B0) :: map piece_of post) /\
    NoDup (map (fun mt => path_patterns (hd [] (paths (snd mt)))) cs) /\
    (forall s, In s ss -> exists t nodes, In (m, t) cs /\ In nodes (paths t) /\ path_pieces nodes = map piece_of (pre ++ (A ++ s ++ B) :: post)).
Proof. exact c67. Qed.
Print Assumptions C67_one_run.
(** there is one block *)
Theorem C67_block : forall mcn last A s B A0 a b B0 A0' a' b' B0', s <> [] ->
  block mcn last A s B A0 a b B0 -> block mcn last A s B A0' a' b' B0' -> A0 = A0' /\ a = a' /\ b = b' /\ B0 = B0'.
Proof. exact block_unique. Qed.
Print Assumptions C67_block.

(** http://h/p/itemN.html for some numbers N *)
Definition run_h (ss : list str) : list (str * option str) := map (fun s => (u "http://h/p/item" ++ s ++ u ".html", None)) ss.
Definition run_m : url_meta := UM 2 [] false.
Definition run_ss : list str := [u "10"; u "22"; u "35"].
Lemma run_paths : map (fun x => url_path nv0 (fst x)) (run_h run_ss) = map (fun s => Some (run_m, [u "p"; u "item" ++ s ++ u ".html"])) run_ss.
Proof. vm_compute. reflexivity. Qed.
Example C67_case : run_varies nv0 (run_h run_ss) run_m [u "p"] [] (u "item") (u ".html") (u "0-9") run_ss /\
  whole_run (u "item") (u ".html") (u "0-9") /\
  block 3 (path_depth run_m = 2) (u "item") (u "10") (u ".html") (u "item") [] [] (u ".html") /\
  seen (make 3 (loads nv0 (run_h run_ss))) =
    [(u "/p/item[0-9]{2}[\.]html", [[u "p"; u "item10[\.]html"]; [u "p"; u "item22[\.]html"]; [u "p"; u "item35[\.]html"]])].
Proof.
  assert (PU : forall url meta, In (url, meta) (run_h run_ss) -> exists s, In s run_ss /\ url_path nv0 url = Some (run_m, [u "p"] ++ (u "item" ++ s ++ u ".html") :: [])).
  { intros url meta I. assert (X : In (url_path nv0 url) (map (fun x => url_path nv0 (fst x)) (run_h run_ss))) by (apply (in_map (fun x => url_path nv0 (fst x))) in I; exact I).
    rewrite run_paths in X. apply in_map_iff in X. destruct X as (s & <- & X). exists s. split; [exact X|reflexivity]. }
  split; [split; [|split]|split; [|split]].
  - repeat (apply NoDup_cons; [cbn [In]; intros H; decompose [or] H; try discriminate; try contradiction|]). apply NoDup_nil.
  - intros url meta m' raw I E. destruct (PU url meta I) as (s & X & Y). rewrite Y in E. injection E as <- <-. split; [reflexivity|]. exists s. split; [reflexivity|].
    cbn [run_ss In] in X. decompose [or] X; try contradiction; subst s; (split; [discriminate|]); intros c C; cbn in C; decompose [or] C; subst; try contradiction; reflexivity.
  - intros s. split.
    + intros I. exists (u "http://h/p/item" ++ s ++ u ".html"), None. split; [apply (in_map (fun s => (u "http://h/p/item" ++ s ++ u ".html", None))); exact I|].
      cbn [run_ss In] in I. decompose [or] I; try contradiction; subst s; vm_compute; reflexivity.
    + intros (url & meta & I & E). destruct (PU url meta I) as (s' & X & Y). rewrite Y in E. injection E as E. apply app_inv_tail in E. subst s'. exact X.
  - split.
    + intros A' x E. change (u "item") with (u "ite" ++ u "m") in E. apply app_inj_tail in E. destruct E as [_ <-]. discriminate.
    + intros x B' E. injection E as <- _. discriminate.
  - exists [u "item"; u "10"; u "."; u "html"], [u "item"], [u "."; u "html"], [], []. split; [apply parts_computed; [repeat constructor; eexists; vm_compute; reflexivity|vm_compute; reflexivity]|].
    split; [reflexivity|]. split; [reflexivity|]. split; [reflexivity|]. split; [intros (_ & _ & X); discriminate X|]. intros _. repeat split.
  - vm_compute. reflexivity.
Qed.
(** two, four with one length apart, and three lengths *)
Example C67_few : seen (make 3 (loads nv0 (run_h [u "1"; u "22"]))) =
  [(u "/p/item1[\.]html", [[u "p"; u "item1[\.]html"]]); (u "/p/item22[\.]html", [[u "p"; u "item22[\.]html"]])].
Proof. vm_compute. reflexivity. Qed.
Example C67_rest : map fst (seen (make 3 (loads nv0 (run_h [u "10"; u "22"; u "7"; u "35"])))) = [u "/p/item[0-9]{2}[\.]html"; u "/p/item7[\.]html"].
Proof. vm_compute. reflexivity. Qed.
Example C67_plus : map fst (seen (make 3 (loads nv0 (run_h [u "1"; u "22"; u "353"])))) = [u "/p/item[0-9]+[\.]html"].
Proof. vm_compute. reflexivity. Qed.
(** the block: an extension makes it the whole piece, letters and digits that change
    often make it all of them *)
Definition run_h' (A B : str) (ss : list str) : list (str * option str) := map (fun s => (u "http://h/p/" ++ A ++ s ++ B, None)) ss.
Example C67_extension : map fst (seen (make 3 (loads nv0 (run_h' (u "a.") [] run_ss)))) = [u "/p/[0-9\.a-z]{4}"] /\
  map fst (seen (make 3 (loads nv0 (run_h' (u "a-") [] run_ss)))) = [u "/p/a[\-][0-9]{2}"].
Proof. vm_compute. split; reflexivity. Qed.
Example C67_letters : map fst (seen (make 3 (loads nv0 (run_h' (u "aBcDe") [] run_ss)))) = [u "/p/[0-9A-Za-z]{7}"] /\
  map fst (seen (make 3 (loads nv0 (run_h' (u "aBcDe-") [] run_ss)))) = [u "/p/aBcDe[\-][0-9]{2}"].
Proof. vm_compute. split; reflexivity. Qed.
Example C67_letters_part : map fst (seen (make 3 (loads nv0 (run_h' (u "x-aBcDe") (u "f-y") run_ss)))) = [u "/p/x[\-][0-9A-Za-z]{8}[\-]y"].
Proof. vm_compute. reflexivity. Qed.
Example C67_letters_block : block 3 True (u "x-aBcDe") (u "10") (u "f-y") (u "x-") (u "aBcDe") (u "f") (u "-y").
Proof.
  exists [u "x"; u "-"; u "aBcDe10f"; u "-"; u "y"], [u "x"; u "-"], [u "-"; u "y"], (u "aBcDe"), (u "f"). split; [apply parts_computed; [repeat constructor; eexists; vm_compute; reflexivity|vm_compute; reflexivity]|].
  split; [reflexivity|]. split; [reflexivity|]. split; [reflexivity|]. split; [intros (_ & _ & X); discriminate X|]. intros _. repeat split.
Qed.
(** nothing is found: nine texts, three of each length, threshold four *)
Definition run_nine : list str := [u "1"; u "2"; u "3"; u "10"; u "20"; u "30"; u "100"; u "200"; u "300"].
Example C67_none : map fst (seen (make 4 (loads nv0 (run_h run_nine)))) = map (fun s => u "/p/item" ++ s ++ u "[\.]html") run_nine /\
  map fst (seen (make 3 (loads nv0 (run_h run_nine)))) = [u "/p/item[0-9]+[\.]html"].
Proof. vm_compute. split; reflexivity. Qed.
