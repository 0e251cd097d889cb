(** One level of a match tree: which children the view matchers return. *)
From Coq Require Import String.
From Verif Require Import PyStr Defs UrlLib ParseUtils Spec Views Trees Patterns Matcher Observe PyStrProofs DefsProofs DictProofs BridgeProofs MatchVms MatchTree MatchSem.
From Coq Require Import Lia Permutation Sorted.

(** ** Patterns and their units *)
Lemma mk_unit_str : forall w x, mk_unit w = Ok x -> pu_str x = w.
Proof. intros w x H. unfold mk_unit in H. apply bind_ok in H. destruct H as ([rs n] & _ & H). inversion H. reflexivity. Qed.
Lemma units_facts : forall P us, pattern_units P = Ok us ->
  us <> [] /\ List.concat (map pu_str us) = P /\ Forall (fun x => mk_unit (pu_str x) = Ok x /\ pattern_units (pu_str x) = Ok [x]) us.
Proof.
  intros P us H. unfold pattern_units in H. apply bind_ok in H. destruct H as (ws & W & H). apply mapM_ok in H.
  assert (E : map pu_str us = ws). { clear W. induction H as [|w x ws us X H IH]; [reflexivity|]. cbn [map]. rewrite (mk_unit_str _ _ X), IH. reflexivity. }
  destruct (c13_ok P ws W) as (C & EM & NE). split; [|split; [congruence|]].
  - intros ->. cbn [map] in E. subst ws. cbn in C. subst P. specialize (EM eq_refl). discriminate.
  - assert (PW : Forall (fun w => parse_pattern_string w = Ok [w]) ws).
    { destruct P as [|c P]; [rewrite (EM eq_refl) in *; constructor; [exact W|constructor]|]. destruct (NE ltac:(discriminate)) as [F _]. eapply Forall_impl; [|exact F]. intros w X. apply X. }
    clear W C EM NE E. induction H as [|w x ws us X H IH]; [constructor|]. inversion PW as [|? ? P1 P2]; subst. constructor; [|apply IH; exact P2].
    rewrite (mk_unit_str _ _ X). split; [exact X|]. unfold pattern_units. rewrite P1. cbn [bind mapM]. rewrite X. reflexivity.
Qed.
Definition unit_mp (x : punit) : match_pattern := MP (pu_str x) [x] (view_cls_from_units [x] false).
Definition mp_ok (p : match_pattern) : Prop := exists b, mk_match_pattern (mp_str p) b = Ok p.
Lemma mp_ok_units : forall p, mp_ok p -> pattern_units (mp_str p) = Ok (mp_units p).
Proof. intros p (b & H). unfold mk_match_pattern in H. apply bind_ok in H. destruct H as (us & U & H). inversion H as [H']. cbn [mp_str mp_units]. rewrite U. reflexivity. Qed.
Lemma mp_ok_facts : forall p, mp_ok p -> mp_units p <> [] /\ List.concat (map pu_str (mp_units p)) = mp_str p /\
  mapM (fun x => mk_match_pattern (pu_str x) false) (mp_units p) = Ok (map unit_mp (mp_units p)) /\ Forall (fun x => mk_unit (pu_str x) = Ok x) (mp_units p).
Proof.
  intros p H. destruct (units_facts _ _ (mp_ok_units p H)) as (A & B & C). split; [exact A|]. split; [exact B|]. split; [|eapply Forall_impl; [|exact C]; intros x X; apply X].
  apply mapM_pure. intros x I. rewrite Forall_forall in C. destruct (C x I) as [_ X]. unfold mk_match_pattern. rewrite X. reflexivity.
Qed.
Lemma unit_view : forall x, let v := view_cls_from_units [x] false in v = VPiece \/ v = VLength \/ v = VFuzzy.
Proof. intros x. cbn. destruct (is_literal x); [auto|]. destruct (pu_num x <? 0)%Z; auto. Qed.

Definition num1 (p : match_pattern) : Z := match mp_units p with x :: _ => pu_num x | [] => 0%Z end.
Definition ukey (p : match_pattern) : str := fuzzy_join (map pu_fuzzy (mp_units p)).
Definition simple (v : vcls) : bool := match v with VPiece | VLength | VFuzzy => true | _ => false end.
(** acceptance of a piece by a pattern of one of the simple views *)
Definition sacc (p : match_pattern) (pp : parsed_piece) : Prop :=
  match mp_view p with
  | VPiece => piece pp = mp_str p
  | VLength => piece_length pp = Ok (num1 p)
  | VFuzzy => True
  | _ => False
  end.
Definition oacc (A : match_pattern -> parsed_piece -> Prop) (p : match_pattern) (o : mobj) : Prop :=
  match o with Some pp => A p pp | None => False end.
(** no two patterns of fixed length with the same length *)
Definition nohide (l : list match_pattern) : Prop :=
  forall p q, In p l -> In q l -> mp_view p = VLength -> mp_view q = VLength -> num1 p = num1 q -> mp_str p = mp_str q.

Section Bodies.
  Context (inner : mnode -> list match_pattern -> mmeta -> mnode * res bool).
  Notation body := (body inner).
  Notation add := (add_match_node inner).
  Definition bfold (b : vbody) (l : list match_pattern) : vbody := fold_left (fun b p => fst (add b p)) l b.
  Lemma bfold_snoc : forall b l p, bfold b (l ++ [p]) = fst (add (bfold b l) p).
  Proof. intros. unfold bfold. rewrite fold_left_app. reflexivity. Qed.

  Definition ss (p : match_pattern) : str * str := (mp_str p, mp_str p).
  Lemma dget_ss : forall k l, dget str_eqb k (map ss l) = if has_key k l then Some k else None.
  Proof.
    intros k l. induction l as [|p l IH]; [reflexivity|]. cbn [map dget ss has_key existsb]. fold (has_key k l). destruct (str_eqb k (mp_str p)) eqn:E; [|exact IH]. cbn [orb]. apply str_eqb_iff in E. congruence.
  Qed.
  Lemma piece_body : forall l, NoDup (skey l) -> bfold (BPiece []) l = BPiece (map ss l).
  Proof.
    induction l as [|p l IH] using rev_ind; intros ND; [reflexivity|]. rewrite bfold_snoc. rewrite map_app in ND. cbn [map] in ND. pose proof (NoDup_remove_2 _ _ _ ND) as N2. pose proof (NoDup_remove_1 _ _ _ ND) as N1. rewrite app_nil_r in *.
    rewrite (IH N1). cbn [add_match_node fst]. rewrite dget_ss. destruct (has_key (mp_str p) l) eqn:E; [apply has_key_iff in E; contradiction|]. rewrite map_app. reflexivity.
  Qed.
  Lemma fuzzy_body : forall l, bfold (BFuzzy []) l = BFuzzy (skey l).
  Proof. induction l as [|p l IH] using rev_ind; [reflexivity|]. rewrite bfold_snoc, IH. cbn [add_match_node fst]. rewrite map_app. reflexivity. Qed.
  Lemma length_body : forall l, Forall (fun p => mp_units p <> []) l -> exists d, bfold (BLength []) l = BLength d /\
    (forall n k, dget Z.eqb n d = Some k -> exists p, In p l /\ num1 p = n /\ mp_str p = k) /\
    (forall p, In p l -> dget Z.eqb (num1 p) d <> None).
  Proof.
    induction l as [|p l IH] using rev_ind; intros F; [exists []; split; [reflexivity|]; split; [discriminate|intros p []]|]. apply Forall_app in F. destruct F as [F F1]. inversion F1 as [|? ? NE _]; subst. destruct (IH F) as (d & E & A & B).
    rewrite bfold_snoc, E. cbn [add_match_node]. destruct (mp_units p) as [|x us] eqn:EU; [congruence|]. cbn [fst]. assert (N : num1 p = pu_num x) by (unfold num1; rewrite EU; reflexivity). rewrite <- N.
    exists (dset Z.eqb (num1 p) (mp_str p) d). split; [reflexivity|]. split.
    - intros n k H. destruct (Z.eq_dec n (num1 p)) as [->|X].
      + rewrite (dget_dset_same Z.eqb Z.eqb_eq) in H. inversion H; subst. exists p. rewrite in_app_iff. split; [right; left; reflexivity|auto].
      + rewrite (dget_dset_other Z.eqb Z.eqb_eq) in H by exact X. destruct (A n k H) as (q & Q & Q'). exists q. rewrite in_app_iff. auto.
    - intros q I. rewrite in_app_iff in I. destruct (Z.eq_dec (num1 q) (num1 p)) as [X|X].
      + rewrite X, (dget_dset_same Z.eqb Z.eqb_eq). discriminate.
      + rewrite (dget_dset_other Z.eqb Z.eqb_eq) by exact X. destruct I as [I|[<-|[]]]; [apply B; exact I|congruence].
  Qed.
  Lemma NoDup_filter_key : forall (f : match_pattern -> bool) l, NoDup (skey l) -> NoDup (skey (filter f l)).
  Proof.
    intros f l ND. induction l as [|p l IH]; [constructor|]. cbn [map] in ND. inversion ND as [|? ? N1 N2]; subst. cbn [filter]. destruct (f p); [|apply IH; exact N2]. cbn [map]. constructor; [|apply IH; exact N2].
    intros I. apply N1. apply in_map_iff in I. destruct I as (q & <- & I). apply filter_In in I. apply in_map. apply I.
  Qed.
  Lemma in_view : forall v l p, In p (filter (is_view v) l) <-> In p l /\ mp_view p = v.
  Proof. intros. rewrite filter_In. unfold is_view. rewrite vcls_eqb_iff. reflexivity. Qed.

  Context (im : mnode -> list mobj -> res (list (option mmeta))).
  Lemma simple_hit : forall l v pp ks k, NoDup (skey l) -> Forall (fun p => mp_units p <> []) l -> simple v = true ->
    view_match im v (body v l) (Some pp) = Ok ks -> In k ks -> exists p, In p l /\ mp_view p = v /\ mp_str p = k /\ sacc p pp.
  Proof.
    intros l v pp ks k ND NE S H I. pose proof (NoDup_filter_key (is_view v) l ND) as NDF. unfold MatchVms.body in H. fold (bfold (new_body v) (filter (is_view v) l)) in H.
    destruct v; try discriminate; cbn [new_body] in H.
    - rewrite piece_body in H by exact NDF. cbn [view_match the_piece bind] in H. rewrite dget_ss in H. destruct (has_key (piece pp) (filter (is_view VPiece) l)) eqn:E; inversion H; subst; [|destruct I]. destruct I as [<-|[]].
      apply has_key_iff in E. apply in_map_iff in E. destruct E as (p & EP & E). apply in_view in E. exists p. destruct E as [E1 E2]. split; [exact E1|]. split; [exact E2|]. split; [exact EP|]. unfold sacc. rewrite E2. symmetry. exact EP.
    - destruct (length_body (filter (is_view VLength) l)) as (d & E & A & B); [apply Forall_forall; intros p J; apply filter_In in J; rewrite Forall_forall in NE; apply NE; apply J|]. rewrite E in H. cbn [view_match the_piece bind] in H.
      destruct (piece_length pp) as [n|e] eqn:EL; cbn [bind] in H; [|discriminate]. destruct (dget Z.eqb n d) as [k'|] eqn:ED; inversion H; subst; [|destruct I]. destruct I as [<-|[]].
      destruct (A n k' ED) as (p & P & <- & P3). apply in_view in P. destruct P as [P1 P2]. exists p. split; [exact P1|]. split; [exact P2|]. split; [exact P3|]. unfold sacc. rewrite P2. exact EL.
    - rewrite fuzzy_body in H. cbn [view_match] in H. inversion H; subst. apply in_map_iff in I. destruct I as (p & EP & I). apply in_view in I. destruct I as [P1 P2]. exists p. split; [exact P1|]. split; [exact P2|]. split; [exact EP|]. unfold sacc. rewrite P2. exact Logic.I.
  Qed.
  Lemma simple_exact : forall l v pp, NoDup (skey l) -> Forall (fun p => mp_units p <> []) l -> simple v = true -> nohide l -> (exists n, piece_length pp = Ok n) ->
    exists ks, view_match im v (body v l) (Some pp) = Ok ks /\ NoDup ks /\ forall k, In k ks <-> exists p, In p l /\ mp_view p = v /\ mp_str p = k /\ sacc p pp.
  Proof.
    intros l v pp ND NE S NH (n & EL).
    assert (X : exists ks, view_match im v (body v l) (Some pp) = Ok ks /\ NoDup ks /\ forall p, In p l -> mp_view p = v -> sacc p pp -> In (mp_str p) ks).
    { pose proof (NoDup_filter_key (is_view v) l ND) as NDF. unfold MatchVms.body. fold (bfold (new_body v) (filter (is_view v) l)). destruct v; try discriminate; cbn [new_body].
      - rewrite piece_body by exact NDF. cbn [view_match the_piece bind]. rewrite dget_ss. eexists. split; [reflexivity|]. split; [destruct (has_key _ _); repeat constructor; intros []|].
        intros p P1 P2 A. unfold sacc in A. rewrite P2 in A. assert (E : has_key (piece pp) (filter (is_view VPiece) l) = true). { apply has_key_iff. rewrite A. apply in_map. apply in_view. auto. } rewrite E. left. exact A.
      - destruct (length_body (filter (is_view VLength) l)) as (d & E & A & B); [apply Forall_forall; intros p J; apply filter_In in J; rewrite Forall_forall in NE; apply NE; apply J|]. rewrite E. cbn [view_match the_piece bind]. rewrite EL. cbn [bind].
        eexists. split; [reflexivity|]. split; [destruct (dget Z.eqb n d); repeat constructor; intros []|]. intros p P1 P2 AC. unfold sacc in AC. rewrite P2, EL in AC. inversion AC as [N]. specialize (B p (proj2 (in_view _ _ _) (conj P1 P2))).
        destruct (dget Z.eqb (num1 p) d) as [k|] eqn:ED; [|congruence]. destruct (A _ _ ED) as (q & Q & Q2 & Q3). apply in_view in Q. left. rewrite <- Q3. apply NH; try tauto.
      - rewrite fuzzy_body. cbn [view_match]. eexists. split; [reflexivity|]. split; [exact NDF|]. intros p P1 P2 _. apply in_map. apply in_view. auto. }
    destruct X as (ks & E & N1 & C). exists ks. split; [exact E|]. split; [exact N1|]. intros k. split; [|intros (p & P1 & P2 & <- & A); apply C; assumption].
    intros I. apply (simple_hit l v pp ks k ND NE S E I).
  Qed.
  (** a level is exact when each of its views is *)
  Lemma level_views : forall (A : match_pattern -> mobj -> Prop) l o, NoDup (skey l) ->
    (forall v, filter (is_view v) l <> [] -> exists ks, view_match im v (body v l) o = Ok ks /\ NoDup ks /\ forall k, In k ks <-> exists p, In p l /\ mp_view p = v /\ mp_str p = k /\ A p o) ->
    level_exact inner im A l o.
  Proof.
    intros A l o ND H. destruct (regs_ok inner l) as [S V].
    assert (Hb : forall v b, In (v, b) (regs inner l) -> b = body v l /\ filter (is_view v) l <> []).
    { intros v b I. apply (vget_In v b _ S) in I. rewrite V in I. destruct (filter (is_view v) l) eqn:E; [discriminate|]. inversion I; subst. split; [reflexivity|discriminate]. }
    assert (Hv : forall p, In p l -> In (mp_view p) (map fst (regs inner l))).
    { intros p I. assert (F : filter (is_view (mp_view p)) l <> []). { intros X. assert (J : In p (filter (is_view (mp_view p)) l)) by (apply in_view; auto). rewrite X in J. destruct J. }
      specialize (V (mp_view p)). destruct (filter (is_view (mp_view p)) l); [congruence|]. apply (vget_In _ _ _ S) in V. change (mp_view p) with (fst (mp_view p, body (mp_view p) l)). apply in_map. exact V. }
    assert (NDV : NoDup (map fst (regs inner l))).
    { clear - S. unfold vms_sorted in S. induction (regs inner l) as [|x r IH]; [constructor|]. cbn [map] in *. apply StronglySorted_inv in S. destruct S as [S F]. constructor; [|apply IH; exact S].
      intros I. apply in_map_iff in I. destruct I as (y & E & I). rewrite Forall_forall in F. specialize (F (vord y) (in_map _ _ _ I)). unfold vord in F. rewrite E in F. lia. }
    unfold level_exact. clear V S.
    assert (X : exists kss, mapM (fun vb : vcls * vbody => view_match im (fst vb) (snd vb) o) (regs inner l) = Ok kss /\ NoDup (List.concat kss) /\
      forall k, In k (List.concat kss) <-> exists p, In p l /\ In (mp_view p) (map fst (regs inner l)) /\ mp_str p = k /\ A p o).
    { clear Hv. induction (regs inner l) as [|[v b] r IH]; [exists []; split; [reflexivity|]; split; [constructor|]; intros k; split; [intros []|intros (p & _ & [] & _)]|].
      cbn [map fst] in NDV. inversion NDV as [|? ? N1 N2]; subst. destruct IH as (kss & E & D & M); [intros w c I; apply Hb; right; exact I|exact N2|].
      destruct (Hb v b (or_introl eq_refl)) as [-> F]. destruct (H v F) as (ks & EK & DK & MK). exists (ks :: kss). cbn [mapM fst snd]. rewrite EK. cbn [bind]. rewrite E. cbn [bind]. split; [reflexivity|]. cbn [List.concat]. split.
      - assert (G : forall a b : list str, NoDup a -> NoDup b -> (forall z, In z a -> ~ In z b) -> NoDup (a ++ b)).
        { clear. induction a as [|x a IH]; intros b HA HB D; [exact HB|]. inversion HA; subst. cbn [app]. constructor; [rewrite in_app_iff; intros [X|X]; [auto|]; apply (D x); [left; reflexivity|exact X]|]. apply IH; auto. intros z I. apply D. right. exact I. }
        apply G; [exact DK|exact D|]. intros k I J. apply MK in I. apply M in J. destruct I as (p & P1 & P2 & P3 & _). destruct J as (q & Q1 & Q2 & Q3 & _). assert (p = q) by (apply (key_unique l); [exact ND|exact P1|exact Q1|congruence]). subst q. rewrite P2 in Q2. contradiction.
      - intros k. rewrite in_app_iff, MK, M. cbn [map fst In]. split.
        + intros [(p & P1 & P2 & P3)|(p & P1 & P2 & P3)]; exists p; auto.
        + intros (p & P1 & [P2|P2] & P3); [left|right]; exists p; auto. }
    destruct X as (kss & E & D & M). exists kss. split; [exact E|]. split; [exact D|]. intros k. rewrite M. split; intros (p & P); exists p; intuition.
  Qed.
End Bodies.
