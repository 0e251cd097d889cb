(** The entries of a tree (one per path), and what building, annotating and
    splitting do to them. *)
From Coq Require Import String.
From Verif Require Import PyStr Defs ParseUtils Trees Cluster Observe PyStrProofs DictProofs GroupProofs TreeProofs LengthStage.
From Coq Require Import Lia Permutation.

Notation entry := (list parsed_piece * Z * option (list str))%type.
Definition e_path (e : entry) : list parsed_piece := fst (fst e).
Definition e_pieces (e : entry) : list str := map piece (e_path e).
Definition e_cnt (e : entry) : Z := snd (fst e).
Definition e_meta (e : entry) : option (list str) := snd e.
Definition ent (nodes : list tree) : entry := (map t_val (tl nodes), t_cnt (path_leaf nodes), t_meta (path_leaf nodes)).
Definition ents (t : tree) : list entry := map ent (paths t).
Definition push (v : parsed_piece) (e : entry) : entry := (v :: e_path e, e_cnt e, e_meta e).

Lemma NoDup_app_l : forall A (a b : list A), NoDup (a ++ b) -> NoDup a.
Proof.
  intros A a b H. induction a as [|x a IH]; [constructor|]. cbn [app] in H. inversion H; subst. constructor; [|auto].
  intros I. apply H2. apply in_app_iff. left. exact I.
Qed.
Lemma ents_leaf : forall t, t_kids t = [] -> ents t = [([], t_cnt t, t_meta t)].
Proof. intros t H. unfold ents. rewrite paths_eq, H. reflexivity. Qed.
Lemma ents_kids : forall t, t_kids t <> [] -> ents t = flat_map (fun k => map (push (t_val k)) (ents k)) (t_kids t).
Proof.
  intros t H. unfold ents. rewrite paths_eq. destruct (t_kids t) as [|k0 ks] eqn:E; [congruence|]. generalize (k0 :: ks). clear.
  intros l. rewrite map_map. induction l as [|k l IH]; [reflexivity|]. cbn [flat_map]. rewrite map_app, IH. f_equal.
  rewrite map_map. apply map_ext_in. intros nodes I. apply paths_head in I. destruct I as [r ->].
  unfold ent, push, e_path, e_cnt, e_meta, path_leaf. cbn [tl fst snd map]. reflexivity.
Qed.
Lemma ents_nonnil : forall t, ents t <> [].
Proof. intros t H. unfold ents in H. apply map_eq_nil in H. exact (paths_nonnil t H). Qed.
Lemma ents_len : forall t, length (ents t) = length (paths t).
Proof. intros. apply map_length. Qed.
Lemma ents_pieces : forall t, map e_pieces (ents t) = map path_pieces (paths t).
Proof.
  intros t. unfold ents. rewrite map_map. apply map_ext. intros nodes. unfold e_pieces, e_path, ent, path_pieces. cbn [fst].
  rewrite map_map. reflexivity.
Qed.
Lemma ents_NoDup : forall d t, wft d t -> NoDup (map e_pieces (ents t)).
Proof. intros. rewrite ents_pieces. eapply paths_NoDup; eauto. Qed.
Lemma ents_cnt : forall d t, wft d t -> t_cnt t = zsum (map e_cnt (ents t)).
Proof. intros d t W. rewrite (cnt_paths d t W). unfold ents, zsum. rewrite map_map. reflexivity. Qed.
Lemma ents_pos : forall d t, wft d t -> Forall (fun e => 0 < e_cnt e)%Z (ents t).
Proof.
  induction d as [|d IH]; intros t W.
  - destruct W as [W1 W2]. rewrite ents_leaf by exact W2. constructor; [exact W1|constructor].
  - destruct W as (_ & W1 & _ & _ & W2). rewrite ents_kids by exact W1. apply Forall_flat_map.
    eapply Forall_impl; [|exact W2]. intros k Wk. rewrite Forall_map. apply IH in Wk. exact Wk.
Qed.
Lemma ents_depth : forall d t, wft d t -> Forall (fun e => length (e_path e) = d) (ents t).
Proof.
  induction d as [|d IH]; intros t W.
  - destruct W as [_ W]. rewrite ents_leaf by exact W. constructor; [reflexivity|constructor].
  - destruct W as (_ & W1 & _ & _ & W2). rewrite ents_kids by exact W1. apply Forall_flat_map.
    eapply Forall_impl; [|exact W2]. intros k Wk. rewrite Forall_map. apply IH in Wk.
    eapply Forall_impl; [|exact Wk]. intros e He. unfold push, e_path at 1. cbn [fst length]. rewrite He. reflexivity.
Qed.

Section V.
  Context (V : nat -> parsed_piece -> Prop).
  Context (Vfun : forall l a b, V l a -> V l b -> piece a = piece b -> a = b).

  Definition levels (level d : nat) : list (parsed_piece -> Prop) := map V (seq level d).
  Definition tok (d level : nat) (t : tree) : Prop := V level (t_val t) /\ wft d t /\ vals_ok (levels (S level) d) t.

  Lemma tok_kids : forall d level t, tok (S d) level t -> t_kids t <> [] /\ Forall (tok d (S level)) (t_kids t).
  Proof.
    intros d level t (H1 & (H2 & H3 & _ & _ & H4) & H5). split; [exact H3|].
    cbn [levels seq map vals_ok] in H5. rewrite Forall_forall in *. intros k I.
    destruct (H5 k I) as [H6 H7]. split; [exact H6|]. split; [apply H4; exact I|exact H7].
  Qed.
  Lemma tok_leaf : forall level t, tok 0 level t -> t_kids t = [].
  Proof. intros level t (_ & (_ & H) & _). exact H. Qed.

  Lemma ents_vals : forall d level t, tok d level t ->
    Forall (fun e => Forall2 (fun P v => P v) (levels (S level) d) (e_path e)) (ents t).
  Proof.
    induction d as [|d IH]; intros level t W.
    - pose proof (tok_leaf level t W) as K. rewrite ents_leaf by exact K. constructor; [|constructor].
      unfold levels. cbn [seq map]. constructor.
    - apply tok_kids in W. destruct W as [W1 W2]. rewrite ents_kids by exact W1. apply Forall_flat_map.
      eapply Forall_impl; [|exact W2]. intros k Wk. rewrite Forall_map. pose proof (IH (S level) k Wk) as E.
      eapply Forall_impl; [|exact E]. intros e He. unfold push, e_path at 1. cbn [fst]. unfold levels. cbn [seq map].
      constructor; [apply Wk|]. exact He.
  Qed.

  (** *** building *)
  Lemma ents_build_fresh : forall f count kvs t new, t_kids t = [] -> t_cnt t = 0%Z -> t_meta t = None ->
    ents (fst (build t kvs count f new)) = [(map fst kvs, count, f None)].
  Proof.
    intros f count. induction kvs as [|[pp pat] r IH]; intros t new K C M.
    - rewrite ents_leaf.
      + rewrite build_cnt, C. destruct t as [v p c m ks]. cbn [t_meta] in M. subst m. cbn [build fst t_meta map]. reflexivity.
      + destruct t as [v p c m ks]. exact K.
    - assert (KK : t_kids (fst (build t ((pp, pat) :: r) count f new)) = [fst (build (T pp pat 0 None []) r count f (Some true))]).
      { rewrite build_kids, K. reflexivity. }
      rewrite ents_kids by (rewrite KK; discriminate). rewrite KK. cbn [flat_map]. rewrite app_nil_r, build_val.
      rewrite IH by reflexivity. reflexivity.
  Qed.
  Lemma ents_build : forall f count kvs level t new, tok (length kvs) level t ->
    Forall2 (fun (P : parsed_piece -> Prop) (kv : parsed_piece * option str) => P (fst kv)) (levels (S level) (length kvs)) kvs ->
    ~ In (map (fun kv => piece (fst kv)) kvs) (map e_pieces (ents t)) ->
    Permutation (ents (fst (build t kvs count f new))) ((map fst kvs, count, f None) :: ents t).
  Proof.
    intros f count. induction kvs as [|[pp pat] r IH]; intros level t new W F N.
    - exfalso. apply N. rewrite ents_leaf by (eapply tok_leaf; exact W). left. reflexivity.
    - cbn [length] in W, F. pose proof (tok_kids _ _ _ W) as [K1 K2]. unfold levels in F. cbn [seq map] in F.
      inversion F as [|P kv Ps' kvs' HP HF]; subst. cbn [fst] in HP.
      assert (KN : t_kids (fst (build t ((pp, pat) :: r) count f new)) <> []).
      { rewrite build_kids. destruct (kid_split (piece pp) (t_kids t)) as [[[a x] b]|]; [destruct a; discriminate|].
        destruct (t_kids t); discriminate. }
      rewrite ents_kids by exact KN. rewrite (ents_kids t K1). rewrite build_kids. clear KN.
      destruct (kid_split (piece pp) (t_kids t)) as [[[a x] b]|] eqn:E.
      + apply kid_split_some in E. destruct E as (E1 & E2 & _). rewrite E1. rewrite !flat_map_app. cbn [flat_map].
        rewrite build_val.
        assert (Wx : tok (length r) (S level) x).
        { rewrite Forall_forall in K2. apply K2. rewrite E1. apply in_app_iff. right. left. reflexivity. }
        assert (VX : t_val x = pp). { apply (Vfun (S level)); [apply Wx|exact HP|exact E2]. }
        assert (NX : ~ In (map (fun kv => piece (fst kv)) r) (map e_pieces (ents x))).
        { intros I. apply N. rewrite (ents_kids t K1), E1. apply in_map_iff in I. destruct I as (e & I1 & I2).
          apply in_map_iff. exists (push (t_val x) e). split.
          - unfold e_pieces, push, e_path. cbn [fst map]. f_equal; [rewrite VX; reflexivity|exact I1].
          - apply in_flat_map. exists x. split; [apply in_app_iff; right; left; reflexivity|]. apply in_map. exact I2. }
        pose proof (IH (S level) x (Some false) Wx HF NX) as P.
        apply Permutation_map with (f := push (t_val x)) in P. cbn [map] in P.
        apply Permutation_trans with (flat_map (fun k => map (push (t_val k)) (ents k)) a ++
           (push (t_val x) (map fst r, count, f None) :: map (push (t_val x)) (ents x)) ++ flat_map (fun k => map (push (t_val k)) (ents k)) b).
        * apply Permutation_app_head. apply Permutation_app_tail. exact P.
        * cbn [app]. apply Permutation_sym. eapply Permutation_trans; [|apply Permutation_middle]. cbn [map fst].
          unfold push at 3. unfold e_path, e_cnt, e_meta. cbn [fst snd]. rewrite VX. apply Permutation_refl.
      + rewrite flat_map_app. cbn [flat_map]. rewrite app_nil_r, build_val. rewrite ents_build_fresh by reflexivity.
        apply Permutation_sym. apply Permutation_cons_append.
  Qed.
  Lemma tok_build : forall f count kvs level t new, (0 < count)%Z ->
    (tok (length kvs) level t \/ (V level (t_val t) /\ t_kids t = [] /\ t_cnt t = 0%Z)) ->
    Forall2 (fun (P : parsed_piece -> Prop) (kv : parsed_piece * option str) => P (fst kv)) (levels (S level) (length kvs)) kvs ->
    tok (length kvs) level (fst (build t kvs count f new)).
  Proof.
    intros f count kvs level t new C H F. split; [|split].
    - rewrite build_val. destruct H as [H|H]; apply H.
    - apply build_wft; [exact C|]. destruct H as [H|(_ & H1 & H2)]; [left; apply H|right; split; assumption].
    - apply build_vals; [|exact F]. destruct H as [H|(_ & H1 & _)]; [apply H|]. apply vals_ok_leaf. exact H1.
  Qed.
  (** adding a list of new paths to a new root *)
  Definition addp (o : option tree) (kv : list (parsed_piece * option str) * Z * (option (list str) -> option (list str))) : tree :=
    fst (build (match o with Some t => t | None => new_root end) (fst (fst kv)) (snd (fst kv)) (snd kv) None).
  Definition kv_ent (kv : list (parsed_piece * option str) * Z * (option (list str) -> option (list str))) : entry :=
    (map fst (fst (fst kv)), snd (fst kv), snd kv None).
  Context (V0 : V 0 empty_parsed_piece).
  Lemma adds_ok : forall d l, (forall kv, In kv l -> length (fst (fst kv)) = d /\ (0 < snd (fst kv))%Z /\
      Forall2 (fun (P : parsed_piece -> Prop) (kv : parsed_piece * option str) => P (fst kv)) (levels 1 d) (fst (fst kv))) ->
    NoDup (map (fun kv => e_pieces (kv_ent kv)) l) -> l <> [] ->
    exists t, fold_left (fun o kv => Some (addp o kv)) l None = Some t /\ tok d 0 t /\ t_val t = empty_parsed_piece
       /\ Permutation (ents t) (map kv_ent l).
  Proof.
    intros d l. induction l as [|kv l IH] using rev_ind; intros H ND NE; [congruence|]. clear NE.
    rewrite fold_left_app. cbn [fold_left].
    destruct (H kv) as (H1 & H2 & H3). { apply in_app_iff. right. left. reflexivity. }
    destruct l as [|kv0 l0].
    - cbn [fold_left]. eexists. split; [reflexivity|]. unfold addp. split; [|split].
      + rewrite <- H1. apply tok_build; [exact H2| |rewrite H1; exact H3]. right. split; [exact V0|split; reflexivity].
      + rewrite build_val. reflexivity.
      + rewrite ents_build_fresh by reflexivity. apply Permutation_refl.
    - destruct IH as (t & A1 & A2 & A3 & A4).
      + intros kv1 I. apply H. apply in_app_iff. left. exact I.
      + rewrite map_app in ND. apply NoDup_app_l in ND. exact ND.
      + discriminate.
      + rewrite A1. eexists. split; [reflexivity|]. unfold addp. split; [|split].
        * rewrite <- H1. apply tok_build; [exact H2| |rewrite H1; exact H3]. left. rewrite H1. exact A2.
        * rewrite build_val. exact A3.
        * eapply Permutation_trans; [apply (ents_build (snd kv) (snd (fst kv)) (fst (fst kv)) 0)|].
          -- rewrite H1. exact A2.
          -- rewrite H1. exact H3.
          -- intros I. rewrite map_app in ND. cbn [map] in ND. apply NoDup_remove_2 in ND. rewrite app_nil_r in ND. apply ND.
             apply (Permutation_in _ (Permutation_map e_pieces A4)) in I. rewrite map_map in I.
             unfold e_pieces at 1, kv_ent at 1, e_path. cbn [fst]. rewrite map_map. exact I.
          -- rewrite map_app. cbn [map]. apply Permutation_trans with (kv_ent kv :: map kv_ent (kv0 :: l0)).
             ++ apply perm_skip. exact A4.
             ++ apply Permutation_cons_append.
  Qed.
  Lemma build_some : forall f count kvs t new, kvs <> [] -> exists b, snd (build t kvs count f new) = Some b.
  Proof.
    intros f count kvs t new H.
    rewrite build_new by exact H. eauto.
  Qed.
End V.
