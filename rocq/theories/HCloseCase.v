(** Generators that are closed: running them, for the examples. *)
From Coq Require Import String.
From Verif Require Import PyStr Defs UrlLib ParseUtils Views Trees Cluster Patterns Matcher Maker Heap HeapSpec HCluster HMakeSpec Lazy HLazy HLazySpec HLazyCase HClose HCloseSpec.

Definition cgo1 (nv : str -> bool) (mcn : Z) (x : hstate * list hagen * list cgot) (e : cuse) : option (hstate * list hagen * list cgot) :=
  let '(st, gs, log) := x in
  match e with
  | CUse e => match hgo1 nv mcn (st, gs, []) e with Some (st', gs', l) => Some (st', gs', log ++ map CGot l) | None => None end
  | CClose i => match nth_error gs i with Some g => Some (st, set_nth i (hclose g) gs, log ++ [CClosed]) | None => None end
  end.
Fixpoint cgo (nv : str -> bool) (mcn : Z) (x : hstate * list hagen * list cgot) (es : list cuse) : option (hstate * list hagen * list cgot) :=
  match es with
  | [] => Some x
  | e :: r => match cgo1 nv mcn x e with None => None | Some y => cgo nv mcn y r end
  end.
Lemma cgo_uses : forall nv mcn es st gs log st' gs' log' es0, cuses nv mcn es0 st gs log -> cgo nv mcn (st, gs, log) es = Some (st', gs', log') -> cuses nv mcn (es0 ++ es) st' gs' log'.
Proof.
  intros nv mcn es. induction es as [|e es IH]; intros st gs log st' gs' log' es0 U E; cbn [cgo] in E; [injection E as -> -> ->; rewrite app_nil_r; exact U|].
  replace (es0 ++ e :: es) with ((es0 ++ [e]) ++ es) by (rewrite <- app_assoc; reflexivity).
  destruct e as [[url me|a|c|i]|i]; cbn [cgo1 hgo1] in E.
  - destruct (hload nv st url me) as [s1 r] eqn:EL. eapply IH; [|exact E]. eapply cu_load; eassumption.
  - destruct (level (hs_heap st) a) as [H1 r] eqn:EL. eapply IH; [|exact E]. eapply cu_level; eassumption.
  - eapply IH; [|exact E]. apply cu_make. exact U.
  - destruct (nth_error gs i) as [[g|g]|] eqn:EG; [| |discriminate].
    2:{ destruct (hcnext mcn st g) as [[s1 g1] o] eqn:EC. eapply IH; [|exact E]. eapply cu_next; [exact U|exact EG|]. constructor. exact EC. }
    destruct (hrun mcn 20 st g) as [[[s1 g1] o]|] eqn:ER; [|discriminate].
    eapply IH; [|exact E]. eapply cu_next; [exact U|exact EG|]. constructor. eapply hrun_next. exact ER.
  - destruct (nth_error gs i) as [g|] eqn:EG; [|discriminate]. eapply IH; [|exact E]. eapply cu_close; eassumption.
Qed.
