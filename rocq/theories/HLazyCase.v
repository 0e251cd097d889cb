(** make() as a generator on the nodes as objects: running it, for the examples. *)
From Coq Require Import String.
From Verif Require Import PyStr Defs UrlLib ParseUtils Views Trees Cluster Patterns Matcher Maker Heap HeapSpec HCluster HMakeSpec Lazy HLazy HLazySpec.

Fixpoint hrun (mcn : Z) (fuel : nat) (st : hstate) (g : hgen) : option (hstate * hgen * hout) :=
  match fuel with
  | O => None
  | S fuel =>
      match hstep mcn st g with
      | (st', g', Some o) => Some (st', g', o)
      | (st', g', None) => hrun mcn fuel st' g'
      end
  end.
Definition hgo1 (nv : str -> bool) (mcn : Z) (x : hstate * list hagen * list got) (e : use) : option (hstate * list hagen * list got) :=
  let '(st, gs, log) := x in
  match e with
  | ULoad url me => let '(st', r) := hload nv st url me in Some (st', gs, log ++ [GLoad r])
  | ULevel a => let '(H', r) := level (hs_heap st) a in Some (HS H' (hs_makers st), gs, log ++ [GLevel r])
  | UMake c => Some (st, gs ++ [if c then HCombined CNew else HPlain HGNew], log ++ [GMake])
  | UNext i =>
      match nth_error gs i with
      | None => None
      | Some (HPlain g) =>
          match hrun mcn 20 st g with
          | None => None
          | Some (st', g', o) => Some (st', set_nth i (HPlain g') gs, log ++ [GNext o (hs_heap st')])
          end
      | Some (HCombined g) => let '(st', g', o) := hcnext mcn st g in Some (st', set_nth i (HCombined g') gs, log ++ [GNext o (hs_heap st')])
      end
  end.
Fixpoint hgo (nv : str -> bool) (mcn : Z) (x : hstate * list hagen * list got) (es : list use) : option (hstate * list hagen * list got) :=
  match es with
  | [] => Some x
  | e :: r => match hgo1 nv mcn x e with None => None | Some y => hgo nv mcn y r end
  end.
Lemma hrun_next : forall mcn fuel st g st' g' o, hrun mcn fuel st g = Some (st', g', o) -> hnext mcn st g st' g' o.
Proof.
  intros mcn fuel. induction fuel as [|fuel IH]; intros st g st' g' o E; [discriminate|]. cbn [hrun] in E. destruct (hstep mcn st g) as [[s1 g1] [o1|]] eqn:ES.
  - injection E as -> -> ->. apply hnext_now. exact ES.
  - eapply hnext_later; [exact ES|apply IH; exact E].
Qed.
Lemma hgo_uses : forall nv mcn es st gs log st' gs' log' es0, huses nv mcn es0 st gs log -> hgo nv mcn (st, gs, log) es = Some (st', gs', log') -> huses nv mcn (es0 ++ es) st' gs' log'.
Proof.
  intros nv mcn es. induction es as [|e es IH]; intros st gs log st' gs' log' es0 U E; cbn [hgo] in E; [injection E as -> -> ->; rewrite app_nil_r; exact U|].
  replace (es0 ++ e :: es) with ((es0 ++ [e]) ++ es) by (rewrite <- app_assoc; reflexivity).
  destruct e as [url me|a|c|i]; cbn [hgo1] in E.
  - destruct (hload nv st url me) as [s1 r] eqn:EL. eapply IH; [|exact E]. eapply hu_load; eassumption.
  - destruct (level (hs_heap st) a) as [H1 r] eqn:EL. eapply IH; [|exact E]. eapply hu_level; eassumption.
  - eapply IH; [|exact E]. apply hu_make. exact U.
  - destruct (nth_error gs i) as [[g|g]|] eqn:EG; [| |discriminate].
    2:{ destruct (hcnext mcn st g) as [[s1 g1] o] eqn:EC. eapply IH; [|exact E]. eapply hu_next; [exact U|exact EG|]. constructor. exact EC. }
    destruct (hrun mcn 20 st g) as [[[s1 g1] o]|] eqn:ER; [|discriminate].
    eapply IH; [|exact E]. eapply hu_next; [exact U|exact EG|]. constructor. eapply hrun_next. exact ER.
Qed.
