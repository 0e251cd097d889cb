(** C62: few URLs stay as they are; what more URLs do to the others. *)
From Coq Require Import String.
From Verif Require Import PyStr Defs UrlLib ParseUtils Spec Trees Cluster Patterns Matcher Maker Observe PropMake FewProofs.

(** C62.  If a digest has fewer than min_cluster_num distinct URLs, each is a cluster of
    its own, with its own text as pattern. *)
Theorem C62_few : forall nv h mcn sid mk, (2 <= mcn)%Z -> In (sid, mk) (loads nv h) ->
  (Z.of_nat (length (distinct_paths nv sid h)) < mcn)%Z ->
  exists ts, maker_make mcn mk = Ok ts /\ length ts = length (distinct_paths nv sid h) /\
    forall t, In t ts -> exists nodes, paths t = [nodes] /\ path_patterns nodes = path_pieces nodes.
Proof. exact c62_few. Qed.
Print Assumptions C62_few.
Definition at_h (l : list string) : list (str * option str) := map (fun s : string => (u "http://h" ++ u s, None)) l.
Example C62_case : exists sid mk, In (sid, mk) (loads nv0 (at_h ["/abc"; "/abd"]%string)) /\
  (Z.of_nat (length (distinct_paths nv0 sid (at_h ["/abc"; "/abd"]%string))) < 3)%Z /\ option_map (@length tree) (match maker_make 3 mk with Ok ts => Some ts | Err _ => None end) = Some 2.
Proof. eexists. eexists. split; [left; vm_compute; reflexivity|]. vm_compute. split; reflexivity. Qed.

(** It is not so that URLs of one cluster stay together when more URLs are loaded: two
    more URLs of the same digest take four URLs apart. *)
Theorem C62_together_refuted : exists l l', 
  seen (make 3 (loads nv0 (at_h l))) = [(u "/[a-z]+", [[u "abc"]; [u "abd"]; [u "abcd"]; [u "abce"]])] /\
  seen (make 3 (loads nv0 (at_h (l ++ l')))) =
    [(u "/[a-z]{3}", [[u "abc"]; [u "abd"]; [u "abe"]; [u "abf"]]); (u "/abcd", [[u "abcd"]]); (u "/abce", [[u "abce"]])].
Proof. exists ["/abc"; "/abd"; "/abcd"; "/abce"]%string, ["/abe"; "/abf"]%string. split; vm_compute; reflexivity. Qed.
Print Assumptions C62_together_refuted.
(** It is not so that a position that is not literal has min_cluster_num texts in the
    cluster: the first position of the second cluster has two. *)
Theorem C62_texts_refuted : seen (make 3 (loads nv0 (at_h ["/aa%0b/a"; "/a%0a/1b"; "/aab%%0ba/0b"; "/aab%%0ba/aa100ba"]%string))) =
  [(u "/aa[%]0b/a", [[u "aa[%]0b"; u "a"]]);
   (u "/[%0-9a-z]+/[0-9a-z]+", [[u "a[%]0a"; u "1b"]; [u "aab[%]{2}0ba"; u "0b"]; [u "aab[%]{2}0ba"; u "aa100ba"]])].
Proof. vm_compute. reflexivity. Qed.
Print Assumptions C62_texts_refuted.
(** It is not so that the clusters are the same without the URLs of one of them: without
    those of the first, the other three come together. *)
Theorem C62_without_refuted : exists l l',
  seen (make 3 (loads nv0 (at_h (l ++ l')))) =
    [(u "/[%0-9a-z]+/[a-z][\-]/ba[\.]aab", [[u "b[%]0bb"; u "a[\-]"; u "ba[\.]aab"]; [u "b[%]0bb"; u "b[\-]"; u "ba[\.]aab"]; [u "bb[%]000aa"; u "b[\-]"; u "ba[\.]aab"]]);
     (u "/a[%]00baa/ab[\-]/ba[\.]aab", [[u "a[%]00baa"; u "ab[\-]"; u "ba[\.]aab"]]);
     (u "/b[%]0bb/aa[\-]{2}/ba[\.]aab", [[u "b[%]0bb"; u "aa[\-]{2}"; u "ba[\.]aab"]]);
     (u "/a[%]{2}01abb/ab[\-]/a[\.]b", [[u "a[%]{2}01abb"; u "ab[\-]"; u "a[\.]b"]])] /\
  seen (make 3 (loads nv0 (at_h l'))) =
    [(u "/[%0-9a-z]+/[a-z]{2}[\-]+/[\.a-z]+", [[u "a[%]00baa"; u "ab[\-]"; u "ba[\.]aab"]; [u "a[%]{2}01abb"; u "ab[\-]"; u "a[\.]b"]; [u "b[%]0bb"; u "aa[\-]{2}"; u "ba[\.]aab"]])].
Proof.
  exists ["/b%0bb/a-/ba.aab"; "/b%0bb/b-/ba.aab"; "/bb%000aa/b-/ba.aab"]%string, ["/a%00baa/ab-/ba.aab"; "/a%%01abb/ab-/a.b"; "/b%0bb/aa--/ba.aab"]%string.
  split; vm_compute; reflexivity.
Qed.
Print Assumptions C62_without_refuted.
