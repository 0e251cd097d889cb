(** C38: the views of a piece. *)
From Coq Require Import String.
From Verif Require Import PyStr Defs ParseUtils Views ViewSpec ViewExact.

(** C38.  Every view consists of consecutive groups of the sub-pieces: MultiView
    (also PieceView and LengthView) has one sub-piece per group, MixedView joins
    neighbouring digits, letters and '%', LastDotSplitFuzzyView has name, dot and
    extension, FuzzyView one group. *)
Theorem C38_views_regroup : forall s p, piece_parse s = Ok p ->
  regroups (combine (pieces p) (rules p)) (map (fun x => [x]) (combine (pieces p) (rules p))) (multi_parts p) /\
  (length (rules p) <= 1 /\ mixed_parts p = [p] \/
   2 <= length (rules p) /\ exists gs, regroups (combine (pieces p) (rules p)) gs (mixed_parts p) /\ mixed_groups gs) /\
  (exists gs, regroups (combine (pieces p) (rules p)) gs (ldsf_parts p) /\ dot_split (combine (pieces p) (rules p)) gs) /\
  regroups (combine (pieces p) (rules p)) [combine (pieces p) (rules p)] (fuzzy_parts p) /\
  List.concat (map fst (combine (pieces p) (rules p))) = piece p.
Proof. exact c38. Qed.
Print Assumptions C38_views_regroup.
(** so the joined pieces of every view are the piece itself *)
Theorem C38_views_join_to_piece : forall s p, piece_parse s = Ok p ->
  Forall (fun parts => List.concat (map piece parts) = piece p)
    [multi_parts p; mixed_parts p; ldsf_parts p; fuzzy_parts p].
Proof. exact c38_join. Qed.
Print Assumptions C38_views_join_to_piece.
Example C38_case : exists p, piece_parse (u "ab12-x%y.tar.gz7") = Ok p /\
  map piece (mixed_parts p) = [u "ab12"; u "[\-]"; u "x[%]y"; u "[\.]"; u "tar"; u "[\.]"; u "gz7"] /\
  map piece (ldsf_parts p) = [u "ab12[\-]x[%]y[\.]tar"; u "[\.]"; u "gz7"] /\
  map fuzzy_rule (ldsf_parts p) = [u "%0-9\-\.a-z"; u "\."; u "0-9a-z"].
Proof. eexists. split; [vm_compute; reflexivity|]. vm_compute. auto. Qed.
