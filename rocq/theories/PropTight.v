(** C50: the patterns of make() generalise only what differs in their clusters. *)
From Coq Require Import String Sorted.
From Verif Require Import PyStr Defs UrlLib ParseUtils Spec Trees Cluster Patterns Matcher Maker Observe MatchSpec TightSpec PyStrProofs PropMake TightProofs.
From Coq Require Import Lia.

(** C50.  At every position the pieces of the URLs of a cluster are cut in one way,
    and every part of the pattern is what the texts of its column call for. *)
Theorem C50_only_what_differs : forall nv h mcn cs m t i P,
  (2 <= mcn)%Z -> make mcn (loads nv h) = Ok cs -> In (m, t) cs -> pattern_at t i P ->
  exists w cut Ps, (w = LastDot -> path_depth m = S i) /\ P = List.concat Ps /\
    (forall s, at_position t i s -> cut_by w s (cut s) /\ length (cut s) = length Ps) /\
    (forall j p, nth_error Ps j = Some p ->
       called_for (fun x => exists s, at_position t i s /\ nth_error (cut s) j = Some x) p).
Proof. exact c50. Qed.
Print Assumptions C50_only_what_differs.

(** a position is literal exactly if the URLs of the cluster do not differ there *)
Theorem C50_literal_iff_shared : forall nv h mcn cs m t i P s,
  (2 <= mcn)%Z -> make mcn (loads nv h) = Ok cs -> In (m, t) cs -> pattern_at t i P -> at_position t i s ->
  (literal_text s P <-> forall s', at_position t i s' -> s' = s).
Proof. exact c50_literal. Qed.
Print Assumptions C50_literal_iff_shared.

Lemma at_case : forall t i nodes raw s, In nodes (paths t) -> forallb (forallb (fun c => char_in c legal_chars)) raw = true ->
  path_pieces nodes = map piece_of raw -> nth_error raw i = Some s -> at_position t i s.
Proof.
  intros t i nodes raw s I L E N. exists nodes, raw. split; [exact I|]. split; [|auto]. apply Forall_forall. intros w W. rewrite forallb_forall in L. specialize (L w W).
  rewrite forallb_forall in L. apply Forall_forall. intros c C. specialize (L c C). apply char_in_In in L. exact L.
Qed.
(** two clusters of the history of C19: in the first everything differs, in the
    second only the name before the dot *)
Example C50_case : exists m0 t0 m1 t1,
  nth_error (match make 2 (loads nv0 case_h) with Ok cs => cs | Err _ => [] end) 0 = Some (m0, t0) /\
  nth_error (match make 2 (loads nv0 case_h) with Ok cs => cs | Err _ => [] end) 1 = Some (m1, t1) /\
  pattern_at t0 0 (u "[0-9a-z]{6}") /\ at_position t0 0 (u "a1b2c3") /\ at_position t0 0 (u "a2b2d3") /\
  pattern_at t1 0 (u "[a-z][\.]html") /\ at_position t1 0 (u "a.html") /\ at_position t1 0 (u "d.html") /\
  path_depth m1 = 1.
Proof.
  eexists. eexists. eexists. eexists. split; [vm_compute; reflexivity|]. split; [vm_compute; reflexivity|].
  split; [eexists; split; [left; reflexivity|reflexivity]|].
  split; [eapply (at_case _ _ _ [u "a1b2c3"]); [left; reflexivity|reflexivity..]|].
  split; [eapply (at_case _ _ _ [u "a2b2d3"]); [right; left; reflexivity|reflexivity..]|].
  split; [eexists; split; [left; reflexivity|reflexivity]|].
  split; [eapply (at_case _ _ _ [u "a.html"]); [left; reflexivity|reflexivity..]|].
  split; [eapply (at_case _ _ _ [u "d.html"]); [right; right; left; reflexivity|reflexivity..]|reflexivity].
Qed.
(** what is called for: html by html alone, [a-z] and not [a-z]+ by a and c *)
Example C50_called_for : called_for (fun x => x = u "html") (u "html") /\
  called_for (fun x => x = u "a" \/ x = u "c") (u "[a-z]") /\
  ~ called_for (fun x => x = u "a" \/ x = u "c") (u "[a-z]+") /\ ~ called_for (fun x => x = u "html") (u "[a-z]{4}").
Proof.
  assert (SP : forall c, In c (u "ac") -> spaces_of [u "a-z"] [c]).
  { intros c I. split; [repeat constructor|]. intros r. split.
    - intros [<-|[]]. exists c. split; [left; reflexivity|]. destruct I as [<-|[<-|[]]]; reflexivity.
    - intros (d & [<-|[]] & <-). left. destruct I as [<-|[<-|[]]]; reflexivity. }
  split; [|split; [|split]].
  - left. exists (u "html"). split; [reflexivity|]. exists [u "html"]. split; [|reflexivity]. split; [reflexivity|]. split; [|exact (conj Logic.I Logic.I)].
    constructor; [|constructor]. split; [discriminate|]. intros x y X Y. left. revert X Y. vm_compute. intuition.
  - right. left. exists [u "a-z"], 1%N. split; [|split; [exists (u "a"), (u "c"); repeat split; auto; discriminate|reflexivity]].
    intros x [->| ->]; (split; [apply SP; cbn; auto|reflexivity]).
  - intros [(x & A & _)|[(rs & n & A & _ & E)|(rs & _ & (x & y & X & Y & D) & _)]].
    + pose proof (proj1 (A (u "a")) (or_introl eq_refl)) as B. pose proof (proj1 (A (u "c")) (or_intror eq_refl)) as C. rewrite <- C in B. discriminate.
    + destruct (A (u "a") (or_introl eq_refl)) as [_ N]. change (1%N = n) in N. subst n. cbn [cunit_text N.eqb] in E. rewrite app_nil_r in E.
      apply (f_equal (@rev N)) in E. rewrite !rev_app_distr in E. discriminate.
    + destruct X as [->| ->], Y as [->| ->]; apply D; reflexivity.
  - intros [(x & A & (ws & M & E))|[(rs & n & _ & (x & y & X & Y & D) & _)|(rs & _ & (x & y & X & Y & D) & _)]]; [|congruence..].
    pose proof (proj1 (A (u "html")) eq_refl) as B. subst x. assert (M' : maximal_runs (u "html") [u "html"]).
    { split; [reflexivity|]. split; [|exact (conj Logic.I Logic.I)]. constructor; [|constructor]. split; [discriminate|]. intros x y X Y. left. revert X Y. vm_compute. intuition. }
    rewrite (BridgeProofs.maximal_runs_unique _ _ _ M M') in E. discriminate.
Qed.
