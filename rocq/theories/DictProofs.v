(** Dicts: association lists in insertion order. *)
From Coq Require Import String.
From Verif Require Import PyStr PyStrProofs.
From Coq Require Import Lia.

Section Dict.
  Context {K V : Type} (eqb : K -> K -> bool) (eqb_eq : forall a b, eqb a b = true <-> a = b).
  Lemma eqb_refl' : forall a, eqb a a = true.
  Proof. intros a. apply eqb_eq. reflexivity. Qed.
  Lemma eqb_neq' : forall a b, a <> b -> eqb a b = false.
  Proof. intros a b H. destruct (eqb a b) eqn:E; [|reflexivity]. apply eqb_eq in E. contradiction. Qed.
  Lemma dget_dset_same : forall k (v : V) d, dget eqb k (dset eqb k v d) = Some v.
  Proof.
    intros k v d. induction d as [|[k' v'] d IH]; cbn [dset dget].
    - rewrite eqb_refl'. reflexivity.
    - destruct (eqb k k') eqn:E; cbn [dget]; rewrite E; [reflexivity|exact IH].
  Qed.
  Lemma dget_dset_other : forall k k2 (v : V) d, k2 <> k -> dget eqb k2 (dset eqb k v d) = dget eqb k2 d.
  Proof.
    intros k k2 v d H. induction d as [|[k' v'] d IH]; cbn [dset dget].
    - rewrite eqb_neq' by exact H. reflexivity.
    - destruct (eqb k k') eqn:E; cbn [dget].
      + apply eqb_eq in E. subst k'. rewrite eqb_neq' by exact H. reflexivity.
      + rewrite IH. reflexivity.
  Qed.
  Lemma dget_none : forall k (d : list (K * V)), dget eqb k d = None <-> ~ In k (map fst d).
  Proof.
    intros k d. induction d as [|[k' v'] d IH]; cbn [dget map fst In]; [tauto|].
    destruct (eqb k k') eqn:E.
    - apply eqb_eq in E. subst. split; [discriminate|]. intros H. exfalso. auto.
    - rewrite IH. split.
      + intros H [H'|H']; [|auto]. subst. rewrite eqb_refl' in E. discriminate.
      + auto.
  Qed.
  Lemma dget_some_in : forall k v (d : list (K * V)), dget eqb k d = Some v -> In (k, v) d.
  Proof.
    intros k v d. induction d as [|[k' v'] d IH]; cbn [dget]; [discriminate|]. intros H.
    destruct (eqb k k') eqn:E.
    - apply eqb_eq in E. inversion H; subst. left. reflexivity.
    - right. auto.
  Qed.
  Lemma dget_in : forall k v (d : list (K * V)), NoDup (map fst d) -> In (k, v) d -> dget eqb k d = Some v.
  Proof.
    intros k v d. induction d as [|[k' v'] d IH]; cbn [dget map fst]; intros ND H; [destruct H|]. destruct H as [H|H].
    - inversion H; subst. rewrite eqb_refl'. reflexivity.
    - inversion ND; subst. destruct (eqb k k') eqn:E; [|auto].
      apply eqb_eq in E. subst. exfalso. match goal with X : ~ In _ _ |- _ => apply X end.
      apply in_map_iff. exists (k', v). auto.
  Qed.
  Lemma dset_keys : forall k (v : V) d,
    map fst (dset eqb k v d) = map fst d ++ (match dget eqb k d with Some _ => [] | None => [k] end).
  Proof.
    intros k v d. induction d as [|[k' v'] d IH]; cbn [dset dget map fst app]; [reflexivity|].
    destruct (eqb k k') eqn:E; cbn [map fst].
    - rewrite app_nil_r. reflexivity.
    - rewrite IH. reflexivity.
  Qed.
  Lemma dset_NoDup : forall k (v : V) d, NoDup (map fst d) -> NoDup (map fst (dset eqb k v d)).
  Proof.
    intros k v d H. rewrite dset_keys. destruct (dget eqb k d) eqn:E.
    - rewrite app_nil_r. exact H.
    - apply dget_none in E. clear v. induction H as [|x l Hx Hl IH]; cbn [app].
      + constructor; [intros []|constructor].
      + constructor.
        * rewrite in_app_iff. intros [D|[D|[]]]; [auto|]. subst. apply E. left. reflexivity.
        * apply IH. intros D. apply E. right. exact D.
  Qed.
End Dict.
Lemma str_eqb_iff : forall a b : str, str_eqb a b = true <-> a = b.
Proof. intros. apply str_eqb_eq. Qed.
