(** C52: what make() does with URLs that differ at one position. *)
From Coq Require Import String.
From Verif Require Import PyStr Defs UrlLib ParseUtils Spec Trees Cluster Patterns Matcher Maker Observe MatchSpec OneSpec PropMake OneMake.
From Coq Require Import Lia.

(** C52.  If the accepted URLs differ at one position only, where each has a text of
    one and the same character space, the result of make() is known: every other
    position is literal, and the number and the lengths of the texts decide between
    the text itself, the class with its length and the class with '+'. *)
Theorem C52_one_position : forall nv h mcn m pre post r ss,
  (2 <= mcn)%Z -> one_varies nv h m pre post r ss ->
  exists cs, make mcn (loads nv h) = Ok cs /\
    (forall m' t nodes, In (m', t) cs -> In nodes (paths t) -> m' = m /\
       exists s P, In s ss /\ path_pieces nodes = map piece_of (pre ++ s :: post) /\
         one_pattern mcn r ss s P /\ path_patterns nodes = map piece_of pre ++ P :: map piece_of post) /\
    NoDup (map (fun mt => path_patterns (hd [] (paths (snd mt)))) cs) /\
    (forall s, In s ss -> exists t nodes, In (m, t) cs /\ In nodes (paths t) /\ path_pieces nodes = map piece_of (pre ++ s :: post)).
Proof. exact c52. Qed.
Print Assumptions C52_one_position.

(** http://h/p/N/q for some numbers N *)
Definition one_h (ss : list str) : list (str * option str) := map (fun s => (u "http://h/p/" ++ s ++ u "/q", None)) ss.
Definition one_m : url_meta := UM 3 [] false.
Ltac one_case :=
  split; [repeat (apply NoDup_cons; [cbn [In]; intros H; decompose [or] H; try discriminate; try contradiction|]); apply NoDup_nil|]; split;
  [ intros url meta m' raw I E; cbn [one_h map In] in I; decompose [or] I; clear I; try contradiction;
    match goal with H : _ = (url, meta) |- _ => injection H as <- <- end; vm_compute in E; injection E as <- <-; (split; [reflexivity|]);
    eexists; (split; [reflexivity|]); (split; [discriminate|]); intros c C; cbn [In] in C; decompose [or] C; subst; try contradiction; vm_compute; reflexivity
  | intros s; split;
    [ intros I; exists (u "http://h/p/" ++ s ++ u "/q"), None; cbn [In] in I; decompose [or] I; clear I; try contradiction; subst s; (split; [vm_compute; auto 10|vm_compute; reflexivity])
    | intros (url & meta & I & E); cbn [one_h map In] in I; decompose [or] I; clear I; try contradiction;
      match goal with H : _ = (url, meta) |- _ => injection H as <- <- end; vm_compute in E; injection E as <-; cbn [In]; eauto 10 ] ].
(** fewer than mcn; three of one length; three lengths; three of one length and one
    of another *)
Example C52_few : one_varies nv0 (one_h [u "1"; u "22"]) one_m [u "p"] [u "q"] (u "0-9") [u "1"; u "22"] /\
  seen (make 3 (loads nv0 (one_h [u "1"; u "22"]))) = [(u "/p/1/q", [[u "p"; u "1"; u "q"]]); (u "/p/22/q", [[u "p"; u "22"; u "q"]])].
Proof. split; [one_case|vm_compute; reflexivity]. Qed.
Example C52_spec : one_varies nv0 (one_h [u "10"; u "22"; u "35"]) one_m [u "p"] [u "q"] (u "0-9") [u "10"; u "22"; u "35"] /\
  map fst (seen (make 3 (loads nv0 (one_h [u "10"; u "22"; u "35"])))) = [u "/p/[0-9]{2}/q"].
Proof. split; [one_case|vm_compute; reflexivity]. Qed.
Example C52_mixed : one_varies nv0 (one_h [u "1"; u "22"; u "353"]) one_m [u "p"] [u "q"] (u "0-9") [u "1"; u "22"; u "353"] /\
  map fst (seen (make 3 (loads nv0 (one_h [u "1"; u "22"; u "353"])))) = [u "/p/[0-9]+/q"].
Proof. split; [one_case|vm_compute; reflexivity]. Qed.
Example C52_rest : one_varies nv0 (one_h [u "10"; u "22"; u "7"; u "35"]) one_m [u "p"] [u "q"] (u "0-9") [u "10"; u "22"; u "7"; u "35"] /\
  map fst (seen (make 3 (loads nv0 (one_h [u "10"; u "22"; u "7"; u "35"])))) = [u "/p/[0-9]{2}/q"; u "/p/7/q"].
Proof. split; [one_case|vm_compute; reflexivity]. Qed.
