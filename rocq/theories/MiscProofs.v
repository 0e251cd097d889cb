(** The confusion test (C39) and progress logging (C42). *)
From Coq Require Import String.
From Verif Require Import PyStr Defs UrlLib ParseUtils Trees Cluster Patterns Matcher Maker Format Cmd Observe TreeProofs.
From Coq Require Import Lia.

Lemma c39_low : forall total mx th, (total < th)%Z -> confused total mx th = false.
Proof. intros. unfold confused. destruct (Z.ltb_spec total th); [reflexivity|lia]. Qed.
Lemma c39_single : forall total th, (2 <= th)%Z -> confused total total th = false.
Proof.
  intros. unfold confused. destruct (Z.ltb_spec total th); [reflexivity|].
  destruct (Z.leb_spec th total); destruct (Z.leb_spec th (total - total)); cbn [andb];
    try destruct (Z.ltb_spec (Z.abs (total - (total - total))) (th - 1)); try reflexivity; try lia.
Qed.
Lemma c39_both : forall total mx th, (1 <= th)%Z -> (th <= mx)%Z -> (th <= total - mx)%Z -> confused total mx th = true.
Proof.
  intros. unfold confused. destruct (Z.ltb_spec total th); [lia|].
  destruct (Z.leb_spec th mx); destruct (Z.leb_spec th (total - mx)); cbn [andb]; try reflexivity; lia.
Qed.
Lemma c39_sym : forall a b th, confused (a + b) a th = confused (a + b) b th.
Proof.
  intros. unfold confused. destruct (Z.ltb_spec (a + b) th); [reflexivity|].
  replace (a + b - a)%Z with b by lia. replace (a + b - b)%Z with a by lia.
  rewrite (andb_comm (th <=? b)%Z). replace (Z.abs (b - a)) with (Z.abs (a - b)) by lia. reflexivity.
Qed.
Lemma c39_iff : forall total mx th, confused total mx th = true <->
  (th <= total)%Z /\ ((th <= mx)%Z /\ (th <= total - mx)%Z \/ (Z.abs (2 * mx - total) <= th - 2)%Z).
Proof.
  intros. unfold confused. destruct (Z.ltb_spec total th); [split; [discriminate|lia]|].
  destruct (Z.leb_spec th mx); destruct (Z.leb_spec th (total - mx)); cbn [andb];
    try destruct (Z.ltb_spec (Z.abs (mx - (total - mx))) (th - 1)); split; intros; try reflexivity; try discriminate; lia.
Qed.

(** the numbers j * k for j = a+1 .. a+n *)
Definition multiples (k a : N) (n : nat) : list N := map (fun j => (N.of_nat j * k)%N) (seq (S (N.to_nat a)) n).
Lemma c42_gen : forall n k c, (0 < k)%N ->
  log_calls n k c = multiples k (c / k) (N.to_nat ((c + N.of_nat n) / k - c / k)).
Proof.
  induction n as [|n IH]; intros k c K.
  - cbn [log_calls]. rewrite N.add_0_r, N.sub_diag. reflexivity.
  - cbn [log_calls log_call]. rewrite (IH k (c + 1)%N K).
    replace (c + 1 + N.of_nat n)%N with (c + N.of_nat (S n))%N by lia.
    assert (DM := N.div_mod (c + 1) k ltac:(lia)). assert (DM0 := N.div_mod c k ltac:(lia)).
    assert (ML := N.mod_lt (c + 1) k ltac:(lia)). assert (ML0 := N.mod_lt c k ltac:(lia)).
    assert (MO : (c / k <= (c + 1) / k)%N) by (apply N.div_le_mono; lia).
    assert (MO2 : ((c + 1) / k <= (c + N.of_nat (S n)) / k)%N) by (apply N.div_le_mono; lia).
    set (q := ((c + 1) / k)%N) in *. set (r := ((c + 1) mod k)%N) in *. set (q0 := (c / k)%N) in *.
    set (r0 := (c mod k)%N) in *. set (e := ((c + N.of_nat (S n)) / k)%N) in *. clearbody q r q0 r0 e.
    destruct (N.eqb_spec r 0) as [Z|Z].
    + assert (q = q0 + 1)%N by nia. subst q r. cbn [app].
      replace (N.to_nat (e - q0)) with (S (N.to_nat (e - (q0 + 1)))) by lia.
      unfold multiples. cbn [seq map]. f_equal.
      * lia.
      * replace (N.to_nat (q0 + 1)) with (S (N.to_nat q0)) by lia. reflexivity.
    + assert (q = q0) by nia. subst q. reflexivity.
Qed.
Lemma c42 : forall n k, (0 < k)%N ->
  log_calls n k 0 = map (fun j => (N.of_nat j * k)%N) (seq 1 (N.to_nat (N.of_nat n / k))).
Proof.
  intros n k K. rewrite c42_gen by exact K. rewrite N.div_0_l by lia. rewrite N.sub_0_r, N.add_0_l. reflexivity.
Qed.

(** dump_tree (C33) *)
Lemma is_path_iff : forall t nodes, In nodes (paths t) <-> is_path t nodes.
Proof.
  induction t as [v p c m ks IH] using tree_ind'. intros nodes. rewrite paths_eq. cbn [t_kids].
  destruct ks as [|k0 ks0].
  - split.
    + intros [<-|[]]. cbn [is_path]. auto.
    + intros H. destruct nodes as [|n [|k r]]; cbn [is_path t_kids] in H; [destruct H| |].
      * destruct H as [-> _]. left. reflexivity.
      * destruct H as [_ [[] _]].
  - set (ks := k0 :: ks0) in *. split.
    + intros H. apply in_map_iff in H. destruct H as (r & <- & H). apply in_flat_map in H.
      destruct H as (k & Hk & Hr). rewrite Forall_forall in IH. pose proof (proj1 (IH k Hk r) Hr) as P.
      apply paths_head in Hr. destruct Hr as (r' & ->). cbn [is_path t_kids]. auto.
    + intros H. destruct nodes as [|n [|k r]]; cbn [is_path t_kids] in H; [destruct H| |].
      * destruct H as [_ H]. discriminate.
      * destruct H as [-> [Hk Hr]]. apply in_map. apply in_flat_map. exists k. split; [exact Hk|].
        rewrite Forall_forall in IH. apply IH; [exact Hk|]. exact Hr.
Qed.
Lemma last_default : forall A (l : list A) d d', l <> [] -> last l d = last l d'.
Proof.
  intros A l d d'. induction l as [|x l IH]; [congruence|]. intros _. destruct l as [|y l]; [reflexivity|].
  cbn [last] in *. apply IH. discriminate.
Qed.
Lemma paths_leaves : forall t d, map (fun nodes => last nodes d) (paths t) = leaf_list t.
Proof.
  induction t as [v p c m ks IH] using tree_ind'. intros d. rewrite paths_eq. cbn [t_kids leaf_list].
  destruct ks as [|k0 ks0]; [reflexivity|]. set (ks := k0 :: ks0) in *. clearbody ks. clear k0 ks0.
  rewrite map_map. generalize (T v p c m ks) as t0. intros t0. induction IH as [|k ks Hk Hks IHl]; [reflexivity|]. cbn [flat_map].
  rewrite map_app. f_equal; [|exact IHl]. rewrite <- (Hk d). apply map_ext_in. intros r Hr.
  apply paths_head in Hr. destruct Hr as (r' & ->). reflexivity.
Qed.
Lemma c33 : forall t, snd (dump_gen t []) = [t] /\
  (forall nodes, In nodes (fst (dump_gen t [])) <-> is_path t nodes) /\
  map (fun nodes => last nodes t) (fst (dump_gen t [])) = leaf_list t.
Proof.
  intros t. rewrite dump_gen_all. cbn [fst snd]. split; [reflexivity|]. split; [apply is_path_iff|apply paths_leaves].
Qed.
