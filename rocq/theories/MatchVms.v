(** The view matchers of a match node: binary search and registration. *)
From Coq Require Import String.
From Verif Require Import PyStr Defs UrlLib ParseUtils Views Trees Patterns Matcher PyStrProofs DefsProofs DictProofs.
From Coq Require Import Lia Permutation Sorted.

Definition vms_t := list (vcls * vbody).
Definition vord (vb : vcls * vbody) : nat := view_order (fst vb).
Definition vms_sorted (vms : vms_t) : Prop := StronglySorted lt (map vord vms).
Fixpoint vget (v : vcls) (vms : vms_t) : option vbody :=
  match vms with
  | [] => None
  | (w, b) :: r => if vcls_eqb w v then Some b else vget v r
  end.

Lemma vcls_eqb_iff : forall v w, vcls_eqb v w = true <-> v = w.
Proof. intros v w. split; [|intros ->; destruct w; reflexivity]. destruct v, w; intros H; try reflexivity; discriminate. Qed.
Lemma view_order_inj : forall v w, view_order v = view_order w -> v = w.
Proof. intros v w H. apply vcls_eqb_iff. unfold vcls_eqb. rewrite H. apply Nat.eqb_refl. Qed.

Lemma ss_app : forall a b, StronglySorted lt (a ++ b) <-> StronglySorted lt a /\ StronglySorted lt b /\ forall x y, In x a -> In y b -> x < y.
Proof.
  induction a as [|x a IH]; intros b; cbn [app].
  - split; [intros H; split; [constructor|split; [exact H|intros ? ? []]]|intros (_ & H & _); exact H].
  - split.
    + intros H. apply StronglySorted_inv in H. destruct H as [H F]. apply IH in H. destruct H as (H1 & H2 & H3). rewrite Forall_app in F. destruct F as [F1 F2].
      split; [constructor; assumption|]. split; [exact H2|]. intros y z [<-|I] J; [rewrite Forall_forall in F2; apply F2; exact J|apply H3; assumption].
    + intros (H1 & H2 & H3). apply StronglySorted_inv in H1. destruct H1 as [H1 F]. constructor.
      * apply IH. split; [exact H1|]. split; [exact H2|]. intros y z I J. apply H3; [right; exact I|exact J].
      * apply Forall_app. split; [exact F|]. apply Forall_forall. intros z J. apply H3; [left; reflexivity|exact J].
Qed.
Lemma vget_app : forall v a b, vget v (a ++ b) = match vget v a with Some x => Some x | None => vget v b end.
Proof. induction a as [|[w x] a IH]; intros b; [reflexivity|]. cbn [app vget]. destruct (vcls_eqb w v); [reflexivity|apply IH]. Qed.
Lemma vget_none : forall v vms, (forall x, In x (map vord vms) -> x <> view_order v) -> vget v vms = None.
Proof.
  induction vms as [|[w b] r IH]; intros H; [reflexivity|]. cbn [vget]. destruct (vcls_eqb w v) eqn:E.
  - apply vcls_eqb_iff in E. subst. exfalso. apply (H (view_order v)); [left; reflexivity|reflexivity].
  - apply IH. intros x I. apply H. right. exact I.
Qed.
Lemma vget_In : forall v b vms, vms_sorted vms -> (vget v vms = Some b <-> In (v, b) vms).
Proof.
  intros v b vms S. unfold vms_sorted in S. induction vms as [|[w c] r IH]; [split; [discriminate|intros []]|]. cbn [map] in S. apply StronglySorted_inv in S. destruct S as [S F]. cbn [vget].
  destruct (vcls_eqb w v) eqn:E.
  - apply vcls_eqb_iff in E. subst w. split.
    + intros H. inversion H; subst. left. reflexivity.
    + intros [H|H]; [inversion H; reflexivity|]. exfalso. rewrite Forall_forall in F. assert (X : vord (v, c) < vord (v, b)) by (apply F; apply in_map; exact H). unfold vord in X. cbn [fst] in X. lia.
  - rewrite (IH S). split; [right; assumption|]. intros [H|H]; [|exact H]. inversion H; subst. rewrite (proj2 (vcls_eqb_iff v v) eq_refl) in E. discriminate.
Qed.

(** *** _get_matcher *)
Lemma loop_ok : forall v vms, vms_sorted vms -> forall fuel s e, e - s < fuel -> s <= e -> e <= length vms ->
  (forall j x, j < s -> nth_error vms j = Some x -> vord x < view_order v) ->
  (forall j x, e <= j -> nth_error vms j = Some x -> view_order v < vord x) ->
  (exists i b, nth_error vms i = Some (v, b) /\ get_matcher_loop fuel vms v s e = Ok (i, vms)) \/
  (exists i, i <= length vms /\ get_matcher_loop fuel vms v s e = Ok (i, firstn i vms ++ (v, new_body v) :: skipn i vms) /\
     (forall j x, j < i -> nth_error vms j = Some x -> vord x < view_order v) /\
     (forall j x, i <= j -> nth_error vms j = Some x -> view_order v < vord x)).
Proof.
  intros v vms S. assert (LTN : forall j k x y, j < k -> nth_error vms j = Some x -> nth_error vms k = Some y -> vord x < vord y).
  { intros j k x y JK X Y. apply nth_error_split in Y. destruct Y as (a & b & -> & LA). unfold vms_sorted in S. rewrite map_app in S. apply ss_app in S. destruct S as (_ & _ & S).
    rewrite nth_error_app1 in X by lia. apply S; [apply in_map; apply (nth_error_In _ j); exact X|left; reflexivity]. }
  induction fuel as [|fuel IH]; intros s e FU SE EL LO HI; [lia|]. cbn [get_matcher_loop]. destruct (Nat.ltb_spec s e) as [L|L].
  - set (t := Nat.div2 (e - s) + s). assert (T : s <= t < e). { unfold t. pose proof (Nat.lt_div2 (e - s) ltac:(lia)). lia. }
    destruct (nth_error vms t) as [[w b]|] eqn:NT; [|apply nth_error_None in NT; lia].
    destruct (vcls_eqb w v) eqn:E; [apply vcls_eqb_iff in E; subst w; left; exists t, b; auto|].
    assert (NE : view_order w <> view_order v). { intros X. unfold vcls_eqb in E. rewrite X, Nat.eqb_refl in E. discriminate. }
    destruct (Nat.ltb_spec (view_order w) (view_order v)) as [C|C].
    + apply IH; try lia; [|exact HI]. intros j x J X. destruct (Nat.eq_dec j t) as [->|N]; [rewrite NT in X; inversion X; subst; exact C|].
      assert (JT : j < t) by lia. specialize (LTN j t x (w, b) JT X NT). unfold vord at 2 in LTN. cbn [fst] in LTN. lia.
    + apply IH; try lia; [exact LO|]. intros j x J X. destruct (Nat.eq_dec j t) as [->|N]; [rewrite NT in X; inversion X; subst; unfold vord; cbn [fst]; lia|].
      assert (JT : t < j) by lia. specialize (LTN t j (w, b) x JT NT X). unfold vord at 1 in LTN. cbn [fst] in LTN. lia.
  - right. assert (s = e) by lia. subst s. exists e. auto.
Qed.
Lemma get_matcher_ok : forall v vms, vms_sorted vms ->
  exists a c b, (exists i, get_matcher vms v = Ok (i, a ++ (v, b) :: c) /\ i = length a) /\
    (forall x, vms_sorted (a ++ (v, x) :: c)) /\
    (vms = a ++ (v, b) :: c \/ (vms = a ++ c /\ b = new_body v /\ vget v vms = None)).
Proof.
  intros v vms S. destruct (loop_ok v vms S (Datatypes.S (length vms)) 0 (length vms)) as [(i & b & N & E)|(i & IL & E & LO & HI)]; try lia.
  - intros j x J X. assert (Y : nth_error vms j <> None) by congruence. apply nth_error_Some in Y. lia.
  - apply nth_error_split in N. destruct N as (a & c & V & LA). exists a, c, b. split; [exists i; split; [unfold get_matcher; rewrite E, <- V; reflexivity|congruence]|]. split; [|left; exact V].
    intros x. unfold vms_sorted in *. rewrite V in S. rewrite map_app in *. exact S.
  - exists (firstn i vms), (skipn i vms), (new_body v). split; [exists i; split; [exact E|rewrite firstn_length; lia]|].
    assert (A1 : forall x, In x (map vord (firstn i vms)) -> x < view_order v).
    { intros x I. apply in_map_iff in I. destruct I as (y & <- & I). apply In_nth_error in I. destruct I as (j & J). assert (JL : j < length (firstn i vms)) by (apply nth_error_Some; congruence). rewrite firstn_length in JL.
      apply (LO j); [lia|]. rewrite <- J. rewrite <- (firstn_skipn i vms) at 1. rewrite nth_error_app1; [reflexivity|rewrite firstn_length; lia]. }
    assert (A2 : forall x, In x (map vord (skipn i vms)) -> view_order v < x).
    { intros x I. apply in_map_iff in I. destruct I as (y & <- & I). apply In_nth_error in I. destruct I as (j & J). apply (HI (i + j)); [lia|]. rewrite <- J. rewrite <- (firstn_skipn i vms) at 1.
      rewrite nth_error_app2; rewrite firstn_length; [f_equal; lia|lia]. }
    split; [|right; split; [symmetry; apply firstn_skipn|split; [reflexivity|]]].
    + intros x. unfold vms_sorted in *. rewrite <- (firstn_skipn i vms) in S. rewrite map_app in *. cbn [map]. apply ss_app in S. destruct S as (S1 & S2 & S3). apply ss_app. split; [exact S1|]. split.
      * constructor; [exact S2|]. apply Forall_forall. exact A2.
      * intros y z I [<-|J]; [apply A1; exact I|apply S3; assumption].
    + apply vget_none. intros x I. rewrite <- (firstn_skipn i vms), map_app, in_app_iff in I. destruct I as [I|I]; [apply A1 in I|apply A2 in I]; lia.
Qed.

Section Reg.
  Context (inner : mnode -> list match_pattern -> mmeta -> mnode * res bool).
  Notation add := (add_match_node inner).

  Lemma register_ok : forall vms p, vms_sorted vms ->
    let v := mp_view p in
    let b := match vget v vms with Some b => b | None => new_body v end in
    snd (register inner vms p) = snd (add b p) /\ vms_sorted (fst (register inner vms p)) /\
    (forall w, vget w (fst (register inner vms p)) = if vcls_eqb v w then Some (fst (add b p)) else vget w vms).
  Proof.
    intros vms p S v. destruct (get_matcher_ok v vms S) as (a & c & b & (i & E & LI) & SX & V). unfold register. fold v. rewrite E.
    rewrite LI, nth_error_app2, Nat.sub_diag by lia. cbn [nth_error].
    assert (VA : vget v a = None). { apply vget_none. intros x I X. specialize (SX b). unfold vms_sorted in SX. rewrite map_app in SX. apply ss_app in SX. destruct SX as (_ & _ & SX). specialize (SX x (view_order v) I (or_introl eq_refl)). lia. }
    assert (VB : match vget v vms with Some b => b | None => new_body v end = b).
    { destruct V as [->|(-> & -> & V)]; [rewrite vget_app, VA; cbn [vget]; rewrite (proj2 (vcls_eqb_iff v v) eq_refl); reflexivity|]. rewrite V. reflexivity. }
    rewrite VB. destruct (add b p) as [b' o]. cbn [fst snd]. split; [reflexivity|].
    assert (SN : set_nth (length a) (v, b') (a ++ (v, b) :: c) = a ++ (v, b') :: c).
    { unfold set_nth. rewrite firstn_app, Nat.sub_diag, firstn_O, app_nil_r, firstn_all. f_equal. f_equal. rewrite skipn_app. rewrite (skipn_all2 a) by lia. replace (Datatypes.S (length a) - length a) with 1 by lia. reflexivity. }
    rewrite SN. split; [apply SX|]. intros w. rewrite vget_app. cbn [vget]. destruct (vcls_eqb v w) eqn:EW.
    - apply vcls_eqb_iff in EW. subst w. rewrite VA. reflexivity.
    - destruct V as [->|(-> & _ & _)]; rewrite vget_app; [cbn [vget]; rewrite EW|]; reflexivity.
  Qed.
  (** the matchers after registering the patterns in order *)
  Definition regs (l : list match_pattern) : vms_t := fold_left (fun vms p => fst (register inner vms p)) l [].
  Definition is_view (v : vcls) (p : match_pattern) : bool := vcls_eqb (mp_view p) v.
  Definition body (v : vcls) (l : list match_pattern) : vbody := fold_left (fun b p => fst (add b p)) (filter (is_view v) l) (new_body v).
  Lemma regs_snoc : forall l p, regs (l ++ [p]) = fst (register inner (regs l) p).
  Proof. intros. unfold regs. rewrite fold_left_app. reflexivity. Qed.
  Lemma regs_ok : forall l, vms_sorted (regs l) /\ forall v, vget v (regs l) = match filter (is_view v) l with [] => None | _ => Some (body v l) end.
  Proof.
    induction l as [|p l [S V]] using rev_ind; [split; [constructor|reflexivity]|]. rewrite regs_snoc. destruct (register_ok (regs l) p S) as (_ & S' & V'). split; [exact S'|].
    intros w. rewrite V'. unfold body. rewrite filter_app. cbn [filter]. change (is_view w p) with (vcls_eqb (mp_view p) w). destruct (vcls_eqb (mp_view p) w) eqn:E.
    - apply vcls_eqb_iff in E. subst w. rewrite V. rewrite fold_left_app. unfold body. destruct (filter (is_view (mp_view p)) l); reflexivity.
    - rewrite app_nil_r. apply V.
  Qed.
  Lemma regs_err : forall l p, snd (register inner (regs l) p) = snd (add (body (mp_view p) l) p).
  Proof.
    intros l p. destruct (regs_ok l) as [S V]. destruct (register_ok (regs l) p S) as (-> & _). rewrite V. unfold body. destruct (filter _ l) as [|q r] eqn:E; reflexivity.
  Qed.
End Reg.
