(** Grouping by key with dicts; folds. *)
From Coq Require Import String.
From Verif Require Import PyStr Trees Cluster PyStrProofs DictProofs.
From Coq Require Import Lia Permutation.

Section Fold.
  Context {K X V : Type} (eqb : K -> K -> bool) (eqb_eq : forall a b, eqb a b = true <-> a = b).
  Context (key : X -> K) (step : option V -> X -> V).
  Definition gfold (l : list X) (d : list (K * V)) : list (K * V) :=
    fold_left (fun d x => dset eqb (key x) (step (dget eqb (key x) d) x) d) l d.
  Lemma gfold_get : forall l d k,
    dget eqb k (gfold l d) = fold_left (fun o y => Some (step o y)) (filter (fun x => eqb k (key x)) l) (dget eqb k d).
  Proof.
    induction l as [|x l IH]; intros d k; [reflexivity|]. cbn [gfold fold_left filter].
    change (fold_left _ l ?d0) with (gfold l d0). rewrite IH.
    destruct (eqb k (key x)) eqn:E.
    - apply eqb_eq in E. subst k. cbn [fold_left]. rewrite dget_dset_same by exact eqb_eq. reflexivity.
    - rewrite dget_dset_other; [reflexivity|exact eqb_eq|]. intros ->. rewrite (eqb_refl' eqb eqb_eq) in E. discriminate.
  Qed.
  Lemma gfold_NoDup : forall l d, NoDup (map fst d) -> NoDup (map fst (gfold l d)).
  Proof.
    induction l as [|x l IH]; intros d H; [exact H|]. cbn [gfold fold_left].
    change (fold_left _ l ?d0) with (gfold l d0). apply IH. apply dset_NoDup; assumption.
  Qed.
  Lemma gfold_keys : forall l d k, In k (map fst (gfold l d)) <-> In k (map fst d) \/ In k (map key l).
  Proof.
    induction l as [|x l IH]; intros d k.
    - cbn. tauto.
    - cbn [gfold fold_left]. change (fold_left _ l ?d0) with (gfold l d0). rewrite IH.
      rewrite dset_keys, in_app_iff. cbn [map In].
      destruct (dget eqb (key x) d) eqn:E; cbn [In].
      + assert (In (key x) (map fst d)).
        { apply (dget_some_in eqb eqb_eq) in E. apply in_map_iff. exists (key x, v). auto. }
        split; [tauto|]. intros [H'|[<-|H']]; auto.
      + tauto.
  Qed.
End Fold.

(** covering a list by the keys *)
Section Cover.
  Context {K X : Type} (eqb : K -> K -> bool) (eqb_eq : forall a b, eqb a b = true <-> a = b) (key : X -> K).
  Lemma cover_perm : forall l ks, NoDup ks -> (forall x, In x l -> In (key x) ks) ->
    Permutation (flat_map (fun k => filter (fun x => eqb k (key x)) l) ks) l.
  Proof.
    induction l as [|x l IH]; intros ks ND H.
    - cbn [filter]. clear. induction ks; [constructor|exact IHks].
    - assert (I : In (key x) ks) by (apply H; left; reflexivity).
      apply perm_trans with (x :: flat_map (fun k => filter (fun x => eqb k (key x)) l) ks).
      + clear IH H. induction ks as [|k ks IHk]; [destruct I|]. cbn [flat_map filter].
        inversion ND; subst. destruct (eqb k (key x)) eqn:E.
        * apply eqb_eq in E. subst k. cbn [app]. constructor. apply Permutation_app_head.
          assert (Z : forall ks', ~ In (key x) ks' ->
             flat_map (fun k => if eqb k (key x) then x :: filter (fun x => eqb k (key x)) l else filter (fun x => eqb k (key x)) l) ks'
             = flat_map (fun k => filter (fun x => eqb k (key x)) l) ks').
          { clear - eqb_eq. intros ks' N. induction ks' as [|k ks' IH]; [reflexivity|]. cbn [flat_map].
            destruct (eqb k (key x)) eqn:E; [apply eqb_eq in E; subst; exfalso; apply N; left; reflexivity|].
            f_equal. apply IH. intros Z. apply N. right. exact Z. }
          rewrite Z by assumption. apply Permutation_refl.
        * destruct I as [I|I]; [subst; rewrite (eqb_refl' eqb eqb_eq) in E; discriminate|].
          apply perm_trans with (filter (fun x => eqb k (key x)) l ++ x :: flat_map (fun k => filter (fun x => eqb k (key x)) l) ks).
          -- apply Permutation_app_head. apply IHk; assumption.
          -- symmetry. apply Permutation_middle.
      + constructor. apply IH; [exact ND|]. intros y Hy. apply H. right. exact Hy.
  Qed.
End Cover.

Lemma filter_nil_iff : forall A (f : A -> bool) l, filter f l = [] <-> forall x, In x l -> f x = false.
Proof.
  intros A f l. induction l as [|x l IH]; cbn [filter]; [split; [intros _ y []|reflexivity]|].
  destruct (f x) eqn:E.
  - split; [discriminate|]. intros H. rewrite (H x) in E by (left; reflexivity). discriminate.
  - rewrite IH. split.
    + intros H y [<-|Hy]; auto.
    + intros H y Hy. apply H. right. exact Hy.
Qed.

(** lists of values by key *)
Section Dapp.
  Context {K : Type} (eqb : K -> K -> bool) (eqb_eq : forall a b, eqb a b = true <-> a = b).
  Context {X V : Type} (key : X -> K) (val : X -> V).
  Definition dstep (o : option (list V)) (x : X) : list V := match o with Some l => l ++ [val x] | None => [val x] end.
  Definition dgroup (l : list X) : list (K * list V) := gfold eqb key dstep l [].
  Lemma dset_append : forall (B : Type) k (v : B) d, dget eqb k d = None -> dset eqb k v d = d ++ [(k, v)].
  Proof.
    intros B k v d. induction d as [|[k' v'] d IH]; cbn [dget dset app]; [reflexivity|].
    destruct (eqb k k'); [discriminate|]. intros H. rewrite IH by exact H. reflexivity.
  Qed.
  Lemma dstep_fold : forall l acc, fold_left (fun o y => Some (dstep o y)) l (Some acc) = Some (acc ++ map val l).
  Proof.
    induction l as [|x l IH]; intros acc; cbn [fold_left map]; [rewrite app_nil_r; reflexivity|].
    cbn [dstep]. rewrite IH, <- app_assoc. reflexivity.
  Qed.
  Lemma dgroup_get : forall l k, dget eqb k (dgroup l) =
    match filter (fun x => eqb k (key x)) l with [] => None | f => Some (map val f) end.
  Proof.
    intros l k. unfold dgroup. rewrite gfold_get by exact eqb_eq. cbn [dget].
    destruct (filter (fun x => eqb k (key x)) l) as [|x r]; [reflexivity|].
    cbn [fold_left dstep]. rewrite dstep_fold. reflexivity.
  Qed.
  Lemma dgroup_NoDup : forall l, NoDup (map fst (dgroup l)).
  Proof. intros l. apply gfold_NoDup; [exact eqb_eq|constructor]. Qed.
  Lemma dgroup_keys : forall l k, In k (map fst (dgroup l)) <-> In k (map key l).
  Proof. intros l k. unfold dgroup. rewrite gfold_keys by exact eqb_eq. cbn. tauto. Qed.
  Lemma dgroup_in : forall l k b, In (k, b) (dgroup l) ->
    b = map val (filter (fun x => eqb k (key x)) l) /\ b <> [].
  Proof.
    intros l k b H. apply (dget_in eqb eqb_eq) in H; [|apply dgroup_NoDup]. rewrite dgroup_get in H.
    destruct (filter (fun x => eqb k (key x)) l) as [|x r]; [discriminate|]. inversion H. split; [reflexivity|].
    discriminate.
  Qed.
  Lemma dgroup_eq : forall l, dgroup l = map (fun k => (k, map val (filter (fun x => eqb k (key x)) l))) (map fst (dgroup l)).
  Proof.
    intros l. rewrite map_map. rewrite <- (map_id (dgroup l)) at 1. apply map_ext_in. intros [k b] H. cbn [fst].
    f_equal. apply dgroup_in in H. apply H.
  Qed.
  Lemma dgroup_snoc : forall l x, dgroup (l ++ [x]) = dset eqb (key x) (dstep (dget eqb (key x) (dgroup l)) x) (dgroup l).
  Proof. intros l x. unfold dgroup, gfold. rewrite fold_left_app. reflexivity. Qed.
  Lemma dgroup_nil : forall l, dgroup l = [] -> l = [].
  Proof.
    intros [|x l] H; [reflexivity|]. exfalso. assert (I : In (key x) (map fst (dgroup (x :: l)))).
    { apply dgroup_keys. left. reflexivity. }
    rewrite H in I. destruct I.
  Qed.
End Dapp.
Lemma dgroup_perm : forall K (eqb : K -> K -> bool) (eqb_eq : forall a b, eqb a b = true <-> a = b) X (key : X -> K) l,
  Permutation (flat_map snd (dgroup eqb key (fun x => x) l)) l.
Proof.
  intros K eqb eqb_eq X key l. rewrite dgroup_eq by exact eqb_eq. rewrite flat_map_concat_map, map_map. cbn [snd].
  rewrite <- flat_map_concat_map. rewrite (flat_map_ext _ (fun k => filter (fun x => eqb k (key x)) l)).
  - apply cover_perm; [exact eqb_eq|apply dgroup_NoDup; exact eqb_eq|]. intros x H. apply dgroup_keys; [exact eqb_eq|].
    apply in_map. exact H.
  - intros k. apply map_id.
Qed.
Lemma dapp_dset : forall V k x (d : list (str * list V)),
  dapp k x d = dset str_eqb k (match dget str_eqb k d with Some l => l ++ [x] | None => [x] end) d.
Proof.
  intros V k x d. unfold dapp. destruct (dget str_eqb k d) eqn:E; [reflexivity|].
  symmetry. apply dset_append. exact E.
Qed.
Lemma dapp_dgroup : forall X V (key : X -> str) (val : X -> V) l,
  fold_left (fun d x => dapp (key x) (val x) d) l [] = dgroup str_eqb key val l.
Proof.
  intros X V key val l. unfold dgroup, gfold. generalize (@nil (str * list V)) as d.
  induction l as [|x l IH]; intros d; [reflexivity|]. cbn [fold_left]. rewrite dapp_dset. apply IH.
Qed.

(** foldM *)
Lemma foldM_pure : forall A S (f : S -> A -> res S) (g : S -> A -> S) l s,
  (forall s x, In x l -> f s x = Ok (g s x)) -> foldM f l s = Ok (fold_left g l s).
Proof.
  intros A S f g l. induction l as [|x l IH]; intros s H; [reflexivity|]. cbn [foldM fold_left].
  rewrite H by (left; reflexivity). cbn [bind]. apply IH. intros. apply H. right. assumption.
Qed.
Lemma zsum_app : forall a b, zsum (a ++ b) = (zsum a + zsum b)%Z.
Proof. induction a as [|x a IH]; intros b; cbn [app zsum fold_right]; [reflexivity|]. unfold zsum in *. rewrite IH. lia. Qed.
Lemma zsum_perm : forall a b, Permutation a b -> zsum a = zsum b.
Proof. intros a b H. induction H; cbn [zsum fold_right] in *; unfold zsum in *; lia. Qed.
Lemma zsum_pos : forall l, Forall (fun z => 0 < z)%Z l -> (Z.of_nat (length l) <= zsum l)%Z.
Proof. intros l H. induction H; cbn [zsum fold_right length]; unfold zsum in *; lia. Qed.
Lemma zsum_flat : forall A (f : A -> list Z) l, zsum (flat_map f l) = zsum (map (fun x => zsum (f x)) l).
Proof.
  intros A f l. induction l as [|x l IH]; [reflexivity|]. cbn [flat_map map]. rewrite zsum_app.
  cbn [zsum fold_right]. unfold zsum in *. lia.
Qed.
