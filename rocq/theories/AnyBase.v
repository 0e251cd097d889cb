(** Lists that agree up to their order and a relation of their members. *)
From Coq Require Import String.
From Verif Require Import PyStr Trees Cluster AnyOrder PyStrProofs DictProofs GroupProofs LengthStage.
From Coq Require Import Lia Permutation.

Definition PL {A B} (R : A -> B -> Prop) (l : list A) (l' : list B) : Prop :=
  exists m, Permutation l m /\ Forall2 R m l'.

Section PL.
  Context {A B : Type} (R : A -> B -> Prop).
  Lemma Forall2_perm_r : forall b b', Permutation b b' -> forall a, Forall2 R a b -> exists a', Permutation a a' /\ Forall2 R a' b'.
  Proof.
    induction 1 as [|x b b' P IH|x y b|b b1 b2 P1 IH1 P2 IH2]; intros a F.
    - inversion F; subst. exists []. split; constructor.
    - inversion F as [|z ? a0 ? H F0]; subst. destruct (IH a0 F0) as (a' & Q & F'). exists (z :: a'). split; constructor; assumption.
    - inversion F as [|z ? a0 ? H F0]; subst. inversion F0 as [|z' ? a1 ? H' F1]; subst. exists (z' :: z :: a1). split; [apply perm_swap|]. repeat constructor; assumption.
    - destruct (IH1 a F) as (a1 & Q1 & F1). destruct (IH2 a1 F1) as (a2 & Q2 & F2). exists a2. split; [eapply perm_trans; eassumption|exact F2].
  Qed.
  Lemma Forall2_perm_l : forall a a', Permutation a a' -> forall b, Forall2 R a b -> exists b', Permutation b b' /\ Forall2 R a' b'.
  Proof.
    induction 1 as [|x b b' P IH|x y b|b b1 b2 P1 IH1 P2 IH2]; intros a F.
    - inversion F; subst. exists []. split; constructor.
    - inversion F as [|? z ? a0 H F0]; subst. destruct (IH a0 F0) as (a' & Q & F'). exists (z :: a'). split; constructor; assumption.
    - inversion F as [|? z ? a0 H F0]; subst. inversion F0 as [|? z' ? a1 H' F1]; subst. exists (z' :: z :: a1). split; [apply perm_swap|]. repeat constructor; assumption.
    - destruct (IH1 a F) as (a1 & Q1 & F1). destruct (IH2 a1 F1) as (a2 & Q2 & F2). exists a2. split; [eapply perm_trans; eassumption|exact F2].
  Qed.
  Lemma PL_perm_l : forall l l1 l', Permutation l1 l -> PL R l l' -> PL R l1 l'.
  Proof. intros l l1 l' P (m & Q & F). exists m. split; [eapply perm_trans; eassumption|exact F]. Qed.
  Lemma PL_perm_r : forall l l' l1, PL R l l' -> Permutation l' l1 -> PL R l l1.
  Proof. intros l l' l1 (m & Q & F) P. destruct (Forall2_perm_r _ _ P m F) as (m' & P' & F'). exists m'. split; [eapply perm_trans; eassumption|exact F']. Qed.
  Lemma PL_F2 : forall l l', Forall2 R l l' -> PL R l l'.
  Proof. intros l l' F. exists l. split; [apply Permutation_refl|exact F]. Qed.
  Lemma PL_nil : PL R [] [].
  Proof. apply PL_F2. constructor. Qed.
  Lemma PL_length : forall l l', PL R l l' -> length l = length l'.
  Proof. intros l l' (m & P & F). rewrite (Permutation_length P). apply Forall2_length in F. exact F. Qed.
  Lemma PL_app : forall a a' b b', PL R a a' -> PL R b b' -> PL R (a ++ b) (a' ++ b').
  Proof. intros a a' b b' (m & P & F) (n & Q & G). exists (m ++ n). split; [apply Permutation_app; assumption|apply Forall2_app; assumption]. Qed.
  Lemma PL_cons : forall x y l l', R x y -> PL R l l' -> PL R (x :: l) (y :: l').
  Proof. intros x y l l' H (m & P & F). exists (x :: m). split; constructor; assumption. Qed.
  Lemma PL_in : forall l l' x, PL R l l' -> In x l -> exists y, In y l' /\ R x y.
  Proof.
    intros l l' x (m & P & F) I. apply (Permutation_in _ P) in I. clear P. induction F as [|a b m l' H F IH]; [destruct I|].
    destruct I as [->|I]; [exists b; split; [left; reflexivity|exact H]|]. destruct (IH I) as (y & Y & H'). exists y. split; [right; exact Y|exact H'].
  Qed.
  Lemma PL_in_r : forall l l' y, PL R l l' -> In y l' -> exists x, In x l /\ R x y.
  Proof.
    intros l l' y (m & P & F) I.
    assert (X : exists x, In x m /\ R x y).
    { clear P. induction F as [|a b m l' H F IH]; [destruct I|].
      destruct I as [->|I]; [exists a; split; [left; reflexivity|exact H]|]. destruct (IH I) as (x & X & H'). exists x. split; [right; exact X|exact H']. }
    destruct X as (x & X & H). exists x. split; [eapply Permutation_in; [symmetry; exact P|exact X]|exact H].
  Qed.
  Lemma PL_Forall : forall (P : A -> Prop) (Q : B -> Prop) l l', PL R l l' -> (forall x y, R x y -> P x -> Q y) -> Forall P l -> Forall Q l'.
  Proof.
    intros P Q l l' H HR F. rewrite Forall_forall in *. intros y I. destruct (PL_in_r l l' y H I) as (x & X & XR). eauto.
  Qed.
  Lemma PL_filter : forall (f : A -> bool) (g : B -> bool) l l', PL R l l' -> (forall x y, R x y -> f x = g y) -> PL R (filter f l) (filter g l').
  Proof.
    intros f g l l' (m & P & F) H. apply (PL_perm_l (filter f m)).
    - clear F. induction P as [|x a b P IH|x y a|a b c P1 IH1 P2 IH2]; cbn [filter].
      + constructor.
      + destruct (f x); [constructor|]; exact IH.
      + destruct (f x), (f y); try apply Permutation_refl. apply perm_swap.
      + eapply perm_trans; eassumption.
    - clear P. apply PL_F2. induction F as [|x y m l' HR F IH]; [constructor|]. cbn [filter]. rewrite (H x y HR). destruct (g y); [constructor; assumption|exact IH].
  Qed.
  Lemma PL_map_eq : forall C (f : A -> C) (g : B -> C) l l', PL R l l' -> (forall x y, R x y -> f x = g y) -> Permutation (map f l) (map g l').
  Proof.
    intros C f g l l' (m & P & F) H. rewrite (Permutation_map f P). clear P. induction F as [|x y m l' HR F IH]; [constructor|]. cbn [map]. rewrite (H x y HR). constructor. exact IH.
  Qed.
  Lemma PL_flat_map_perm : forall C (f : A -> list C) (g : B -> list C) l l', PL R l l' -> (forall x y, R x y -> Permutation (f x) (g y)) -> Permutation (flat_map f l) (flat_map g l').
  Proof.
    intros C f g l l' (m & P & F) H. rewrite (Permutation_flat_map f P). clear P. induction F as [|x y m l' HR F IH]; [constructor|]. cbn [flat_map]. apply Permutation_app; [apply H; exact HR|exact IH].
  Qed.
End PL.
Lemma PL_impl : forall A B (R Q : A -> B -> Prop) l l', (forall x y, In x l -> In y l' -> R x y -> Q x y) -> PL R l l' -> PL Q l l'.
Proof.
  intros A B R Q l l' H (m & P & F). exists m. split; [exact P|].
  assert (HM : forall x y, In x m -> In y l' -> R x y -> Q x y). { intros x y X. apply H. eapply Permutation_in; [symmetry; exact P|exact X]. }
  clear H P. induction F as [|x y m l' HR F IH]; [constructor|]. constructor; [apply HM; cbn; auto|]. apply IH. intros. apply HM; cbn; auto.
Qed.
Lemma PL_map : forall A B C D (R : A -> B -> Prop) (Q : C -> D -> Prop) (f : A -> C) (g : B -> D) l l',
  PL R l l' -> (forall x y, R x y -> Q (f x) (g y)) -> PL Q (map f l) (map g l').
Proof.
  intros A B C D R Q f g l l' (m & P & F) H. exists (map f m). split; [apply Permutation_map; exact P|].
  clear P. induction F as [|x y m l' HR F IH]; constructor; auto.
Qed.
Lemma PL_flat_map : forall A B C D (R : A -> B -> Prop) (Q : C -> D -> Prop) (f : A -> list C) (g : B -> list D) l l',
  PL R l l' -> (forall x y, R x y -> PL Q (f x) (g y)) -> PL Q (flat_map f l) (flat_map g l').
Proof.
  intros A B C D R Q f g l l' (m & P & F) H. apply (PL_perm_l Q (flat_map f m)); [apply Permutation_flat_map; exact P|].
  clear P. induction F as [|x y m l' HR F IH]; [apply PL_nil|]. cbn [flat_map]. apply PL_app; auto.
Qed.
Lemma PL_concat : forall A B (R : A -> B -> Prop) l l', PL (PL R) l l' -> PL R (List.concat l) (List.concat l').
Proof.
  intros A B R l l' H. rewrite <- (map_id l), <- (map_id l'), <- !flat_map_concat_map. eapply PL_flat_map; [exact H|]. auto.
Qed.
Lemma PL_refl : forall A (R : A -> A -> Prop) l, (forall x, In x l -> R x x) -> PL R l l.
Proof. intros A R l H. apply PL_F2. induction l as [|x l IH]; constructor; [apply H; left; reflexivity|]. apply IH. intros. apply H. right. assumption. Qed.
Lemma PL_sym : forall A B (R : A -> B -> Prop) l l', PL R l l' -> PL (fun y x => R x y) l' l.
Proof.
  intros A B R l l' (m & P & F). assert (F' : Forall2 (fun y x => R x y) l' m). { clear P. induction F; constructor; auto. }
  apply (PL_perm_r _ l' m l); [apply PL_F2; exact F'|symmetry; exact P].
Qed.
Lemma PL_trans : forall A B C (R : A -> B -> Prop) (Q : B -> C -> Prop) l m n, PL R l m -> PL Q m n -> PL (fun x z => exists y, R x y /\ Q y z) l n.
Proof.
  intros A B C R Q l m n (l1 & P1 & F1) (m1 & P2 & F2). destruct (Forall2_perm_r R _ _ P2 l1 F1) as (l2 & P3 & F3).
  exists l2. split; [eapply perm_trans; eassumption|]. clear - F2 F3. revert n F2. induction F3 as [|x y l m H F IH]; intros n F2; inversion F2; subst; constructor; eauto.
Qed.
Lemma PL_perm : forall A (l l' : list A), Permutation l l' -> PL eq l l'.
Proof. intros A l l' P. exists l'. split; [exact P|]. clear. induction l'; constructor; auto. Qed.

(** dicts with the same keys *)
Lemma PL_dict : forall K (V W : Type) (R : V -> W -> Prop) (d : list (K * V)) (d' : list (K * W)),
  NoDup (map fst d) -> NoDup (map fst d') -> (forall k, In k (map fst d) <-> In k (map fst d')) ->
  (forall k v w, In (k, v) d -> In (k, w) d' -> R v w) -> PL (fun a b => fst a = fst b /\ R (snd a) (snd b)) d d'.
Proof.
  intros K V W R d d'. revert d. induction d' as [|[k w] d' IH]; intros d ND ND' KS H.
  - destruct d as [|[k v] d]; [apply PL_nil|]. exfalso. destruct (proj1 (KS k)). left. reflexivity.
  - assert (I : In k (map fst d)) by (apply KS; left; reflexivity). apply in_map_iff in I. destruct I as ([k0 v] & E & I). cbn [fst] in E. subst k0.
    apply in_split in I. destruct I as (a & b & ->).
    apply (PL_perm_l _ ((k, v) :: a ++ b)); [symmetry; apply Permutation_middle|].
    rewrite map_app in ND. cbn [map fst] in ND. pose proof (NoDup_remove_2 _ _ _ ND) as NK. apply NoDup_remove_1 in ND. rewrite <- map_app in ND, NK.
    cbn [map fst] in ND'. inversion ND' as [|? ? NK' ND'']; subst.
    apply PL_cons; [split; [reflexivity|]; cbn [snd]; apply (H k); [apply in_app_iff; right; left; reflexivity|left; reflexivity]|].
    apply IH; [exact ND|exact ND''| |].
    + intros q. specialize (KS q). rewrite map_app in KS. cbn [map fst] in KS. rewrite map_app, in_app_iff. rewrite in_app_iff in KS. cbn [In] in KS.
      split; intros Q.
      * destruct (proj1 KS) as [E|E]; [tauto| |exact E]. subst q. exfalso. apply NK. rewrite map_app, in_app_iff. exact Q.
      * destruct (proj2 KS (or_intror Q)) as [E|[E|E]]; auto. subst q. contradiction.
    + intros q x y X Y. apply (H q); [apply in_app_iff; apply in_app_iff in X; cbn; tauto|right; exact Y].
Qed.
(** grouping *)
Lemma PL_dgroup : forall X Y V W (R : X -> Y -> Prop) (Q : V -> W -> Prop) (key : X -> str) (key' : Y -> str) (val : X -> V) (val' : Y -> W) l l',
  PL R l l' -> (forall x y, In x l -> In y l' -> R x y -> key x = key' y /\ Q (val x) (val' y)) ->
  PL (fun a b => fst a = fst b /\ PL Q (snd a) (snd b)) (dgroup str_eqb key val l) (dgroup str_eqb key' val' l').
Proof.
  intros X Y V W R Q key key' val val' l l' H HR. apply (PL_impl _ _ _ (fun x y => key x = key' y /\ Q (val x) (val' y))) in H; [|exact HR]. clear HR.
  apply PL_dict; [apply dgroup_NoDup; exact str_eqb_iff|apply dgroup_NoDup; exact str_eqb_iff| |].
  - intros k. rewrite !dgroup_keys by exact str_eqb_iff.
    assert (P : Permutation (map key l) (map key' l')) by (eapply PL_map_eq; [exact H|intros x y E; apply E]).
    split; apply Permutation_in; [|symmetry]; exact P.
  - intros k v w I J. apply dgroup_in in I; [|exact str_eqb_iff]. apply dgroup_in in J; [|exact str_eqb_iff]. destruct I as [-> _], J as [-> _].
    apply (PL_map _ _ _ _ (fun x y => key x = key' y /\ Q (val x) (val' y))); [|intros x y E; exact (proj2 E)]. apply PL_filter; [exact H|]. intros x y [E _]. rewrite E. reflexivity.
Qed.
Lemma PL_dgroupZ : forall X Y V W (R : X -> Y -> Prop) (Q : V -> W -> Prop) (key : X -> Z) (key' : Y -> Z) (val : X -> V) (val' : Y -> W) l l',
  PL R l l' -> (forall x y, In x l -> In y l' -> R x y -> key x = key' y /\ Q (val x) (val' y)) ->
  PL (fun a b => fst a = fst b /\ PL Q (snd a) (snd b)) (dgroup Z.eqb key val l) (dgroup Z.eqb key' val' l').
Proof.
  intros X Y V W R Q key key' val val' l l' H HR. apply (PL_impl _ _ _ (fun x y => key x = key' y /\ Q (val x) (val' y))) in H; [|exact HR]. clear HR.
  apply PL_dict; [apply dgroup_NoDup; exact Z.eqb_eq|apply dgroup_NoDup; exact Z.eqb_eq| |].
  - intros k. rewrite !dgroup_keys by exact Z.eqb_eq.
    assert (P : Permutation (map key l) (map key' l')) by (eapply PL_map_eq; [exact H|intros x y E; apply E]).
    split; apply Permutation_in; [|symmetry]; exact P.
  - intros k v w I J. apply dgroup_in in I; [|exact Z.eqb_eq]. apply dgroup_in in J; [|exact Z.eqb_eq]. destruct I as [-> _], J as [-> _].
    apply (PL_map _ _ _ _ (fun x y => key x = key' y /\ Q (val x) (val' y))); [|intros x y E; exact (proj2 E)]. apply PL_filter; [exact H|]. intros x y [E _]. rewrite E. reflexivity.
Qed.

(** mapM and mapR over such lists *)
Lemma mapM_perm : forall A B (f : A -> res B) l l', Permutation l l' -> forall ys, mapM f l = Ok ys -> exists ys', mapM f l' = Ok ys' /\ Permutation ys ys'.
Proof.
  intros A B f l l' P. induction P as [|x a b P IH|x y a|a b c P1 IH1 P2 IH2]; intros ys E.
  - exists ys. split; [exact E|apply Permutation_refl].
  - cbn [mapM] in *. destruct (f x) as [v|]; [|discriminate]. cbn [bind] in *. destruct (mapM f a) as [vs|] eqn:EA; [|discriminate]. cbn [bind] in E. inversion E; subst ys.
    destruct (IH vs eq_refl) as (vs' & E' & P'). rewrite E'. cbn [bind]. eexists. split; [reflexivity|]. constructor. exact P'.
  - cbn [mapM] in *. destruct (f y) as [v|]; [|discriminate]. cbn [bind] in *. destruct (f x) as [w|]; [|discriminate]. cbn [bind] in *.
    destruct (mapM f a) as [vs|] eqn:EA; [|discriminate]. cbn [bind] in *. inversion E; subst ys. eexists. split; [reflexivity|]. apply perm_swap.
  - destruct (IH1 ys E) as (y1 & E1 & Q1). destruct (IH2 y1 E1) as (y2 & E2 & Q2). exists y2. split; [exact E2|]. eapply perm_trans; eassumption.
Qed.
Lemma mapR_any : forall A B C D (R : A -> B -> Prop) (Q : C -> D -> Prop) (f : A -> res C) (g : B -> rel D) l l' ys r,
  PL R l l' -> (forall x y a o, In x l -> In y l' -> R x y -> f x = Ok a -> g y o -> exists b, o = Ok b /\ Q a b) ->
  mapM f l = Ok ys -> mapR g l' r -> exists zs, r = Ok zs /\ PL Q ys zs.
Proof.
  intros A B C D R Q f g l l' ys r (m & P & F) H E M.
  destruct (mapM_perm _ _ f l m P ys E) as (ys' & E' & PY).
  assert (HM : forall x y a o, In x m -> In y l' -> R x y -> f x = Ok a -> g y o -> exists b, o = Ok b /\ Q a b).
  { intros x y a o X. apply H. eapply Permutation_in; [symmetry; exact P|exact X]. }
  assert (X : exists zs, r = Ok zs /\ Forall2 Q ys' zs).
  { clear - F HM E' M. revert ys' r E' M. induction F as [|x y m l' HR F IH]; intros ys' r E M.
    - cbn [mapM] in E. inversion E; subst. unfold mapR, just in M. subst r. exists []. split; [reflexivity|constructor].
    - cbn [mapM] in E. destruct (f x) as [a|] eqn:FX; [|discriminate]. cbn [bind] in E. destruct (mapM f m) as [as_|] eqn:FM; [|discriminate]. cbn [bind] in E. inversion E; subst ys'.
      cbn [mapR] in M. destruct M as (o & O1 & O2). destruct (HM x y a o) as (b & -> & QB); [left; reflexivity|left; reflexivity|assumption..|].
      destruct O2 as (o2 & O3 & O4). destruct (IH (fun x y a o X Y => HM x y a o (or_intror X) (or_intror Y)) as_ o2 eq_refl O3) as (zs & -> & QZ).
      unfold just in O4. subst r. eexists. split; [reflexivity|]. constructor; assumption. }
  destruct X as (zs & -> & FZ). exists zs. split; [reflexivity|]. exists ys'. split; assumption.
Qed.
Lemma mapR_just : forall A B (f : A -> res B) l, mapR (fun x => just (f x)) l (mapM f l).
Proof.
  intros A B f l. induction l as [|x l IH]; [reflexivity|]. cbn [mapR mapM]. exists (f x). split; [reflexivity|].
  destruct (f x) as [y|e]; [|reflexivity]. cbn [bind]. exists (mapM f l). split; [exact IH|]. destruct (mapM f l); reflexivity.
Qed.
Lemma mapM_any : forall A B C D (R : A -> B -> Prop) (Q : C -> D -> Prop) (f : A -> res C) (g : B -> res D) l l' ys,
  PL R l l' -> (forall x y a, In x l -> In y l' -> R x y -> f x = Ok a -> exists b, g y = Ok b /\ Q a b) ->
  mapM f l = Ok ys -> exists zs, mapM g l' = Ok zs /\ PL Q ys zs.
Proof.
  intros A B C D R Q f g l l' ys H HR E. apply (mapR_any _ _ _ _ R Q f (fun y => just (g y)) l l' ys (mapM g l') H); [|exact E|apply mapR_just].
  intros x y a o X Y XR FX O. unfold just in O. subst o. eauto.
Qed.

(** sums and maxima *)
Lemma zsum_perm : forall a b, Permutation a b -> zsum a = zsum b.
Proof. intros a b P. induction P; cbn in *; unfold zsum in *; cbn in *; lia. Qed.
Lemma max_count_perm : forall a b, Permutation a b -> forall m, max_count a = Ok m -> max_count b = Ok m.
Proof.
  intros a b P m E. destruct (max_count_ok b) as [m' E'].
  - intros ->. apply Permutation_sym, Permutation_nil in P. subst a. discriminate.
  - rewrite E'. f_equal. apply max_count_spec in E. apply max_count_spec in E'. destruct E as [I F], E' as [I' F'].
    rewrite Forall_forall in F, F'. apply (Permutation_in _ P) in I. apply (Permutation_in _ (Permutation_sym P)) in I'.
    specialize (F' _ I). specialize (F _ I'). lia.
Qed.
