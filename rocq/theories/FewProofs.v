(** Digests with fewer than min_cluster_num URLs. *)
From Coq Require Import String.
From Verif Require Import PyStr Defs UrlLib ParseUtils Spec Trees Cluster Patterns Matcher Maker Observe PyStrProofs MakeProofs PartProofs.
From Coq Require Import Lia Permutation.

Lemma c62_few : forall nv h mcn sid mk, (2 <= mcn)%Z -> In (sid, mk) (loads nv h) -> (Z.of_nat (length (distinct_paths nv sid h)) < mcn)%Z ->
  exists ts, maker_make mcn mk = Ok ts /\ length ts = length (distinct_paths nv sid h) /\
    forall t, In t ts -> exists nodes, paths t = [nodes] /\ path_patterns nodes = path_pieces nodes.
Proof.
  intros nv h mcn sid mk M I F. destruct (c32 nv h mcn sid mk M I) as (ts & ct & E & _ & C0 & C). exists ts. split; [exact E|].
  assert (L : length (flat_map paths ts) = length (distinct_paths nv sid h)).
  { pose proof (C []) as X. rewrite C0 in X. apply Nat2Z.inj in X. rewrite X. rewrite filter_all by (apply Forall_forall; reflexivity). reflexivity. }
  destruct (c19 nv h mcn M) as (cs & MK).
  assert (IN : forall t, In t ts -> In (mk_meta mk, t) cs).
  { unfold make in MK. apply bind_ok in MK. destruct MK as (rs & MM & EQ). inversion EQ; subst cs. clear EQ. intros t IT. revert rs MM. clear - I E IT. induction (loads nv h) as [|[s k] l IH]; [destruct I|]. intros rs MM. cbn [mapM] in MM. apply bind_ok in MM. destruct MM as (r & E1 & MM). apply bind_ok in MM. destruct MM as (rs' & E2 & EQ). inversion EQ; subst rs. cbn [List.concat]. apply in_app_iff.
    destruct I as [EI|I]; [|right; exact (IH I rs' E2)]. inversion EI; subst s k. left. cbn [snd] in E1. rewrite E in E1. cbn [bind] in E1. inversion E1. apply in_map_iff. exists t. auto. }
  assert (ONE : forall t, In t ts -> exists nodes, paths t = [nodes] /\ path_patterns nodes = path_pieces nodes).
  { intros t IT. destruct (c24 nv h mcn cs _ t M MK (IN t IT)) as [X|X]; [exact X|]. exfalso.
    assert (LE : (length (paths t) <= length (flat_map paths ts))%nat). { clear - IT. induction ts as [|x l IH]; [destruct IT|]. cbn [flat_map]. rewrite app_length. destruct IT as [->|IT]; [lia|specialize (IH IT); lia]. }
    lia. }
  split; [|exact ONE]. rewrite <- L. clear - ONE. induction ts as [|t ts IH]; [reflexivity|]. cbn [flat_map length]. rewrite app_length. destruct (ONE t (or_introl eq_refl)) as (nodes & -> & _). cbn [length]. rewrite IH; [reflexivity|]. intros x J. apply ONE. right. exact J.
Qed.
