(** make(combine=True) on the nodes as objects: what the trees tell. *)
From Coq Require Import String.
From Verif Require Import PyStr Defs UrlLib ParseUtils Views Trees Cluster Patterns Matcher Maker AnyOrder Lazy Spec Observe AnySpec LocalSpec LazySpec Heap HeapSpec HCluster HCombine HMakeSpec
  PyStrProofs DefsProofs DictProofs TreeProofs AnyGen AnyMake LazyProofs HeapProofs HeapState HcState HcTop.
From Coq Require Import Lia Permutation.

Lemma NoDup_app_disj : forall A (l m : list A), NoDup (l ++ m) -> forall x, In x l -> In x m -> False.
Proof.
  intros A l. induction l as [|z l IH]; intros m ND x I J; [exact I|]. inversion ND as [|? ? N1 N2]; subst. destruct I as [->|I]; [|exact (IH m N2 x I J)].
  apply N1. apply in_or_app. right. exact J.
Qed.
Lemma combine_val : forall ts t ct, foldM combine_one ts t = Ok ct -> c_val ct = c_val t.
Proof.
  intros ts. induction ts as [|x ts IH]; intros t ct E; cbn [foldM] in E; [injection E as <-; reflexivity|].
  destruct (combine_one t x) as [t'|] eqn:C; cbn [bind] in E; [|discriminate E]. rewrite (IH _ _ E). unfold combine_one in C.
  destruct (paths x) as [|ns l]; [discriminate C|]. destruct (tl ns) as [|n r]; [discriminate C|]. injection C as <-.
  destruct t as [v c ks]. cbn [map cbuild]. destruct (ckid_split (t_pattern n) ks) as [[[? ?] ?]|]; reflexivity.
Qed.
Section Run.
  Context (nv : str -> bool) (mcn : Z) (M2 : (2 <= mcn)%Z).
  Lemma maker_combined : forall h st sid mk, bare_state st = loads nv h -> In (sid, mk) st -> exists due ct,
    make mcn (loads nv (own_loads nv sid h)) = Ok due /\ maker_combine mcn mk = Ok ct /\ combined (mk_meta mk) due ct /\ c_val ct = [].
  Proof.
    intros h st sid mk B I. destruct (keys_ok nv h st B) as [_ ND].
    assert (DG : dget str_eqb sid st = Some mk) by (apply In_nth_error in I; destruct I as [k NE]; exact (dget_nth st k sid mk ND NE)).
    destruct (take_ok nv mcn M2 h st sid mk B DG) as (due & EM & MA & _). pose proof (bare_own nv h st sid mk B DG) as BO.
    destruct (MA _ (cluster_n_is_any 2 mcn (depth (mk_meta mk)) (path_depth (mk_meta mk)) false (mk_root mk))) as (ts & E & P).
    destruct (combined_ok nv mcn M2 h sid (bare_maker mk) due ts (eq_sym BO) EM P) as (ct & EC & CC). exists due, ct. split; [exact EM|]. split; [|split; [exact CC|exact (combine_val _ _ _ EC)]].
    unfold maker_combine, maker_make, cluster. rewrite E. exact EC.
  Qed.
  Lemma c71_trees : forall ds i, nth_error ds i = Some DCombine -> exists ys, nth_error (replies nv mcn ds) i = Some (RCombine (Ok ys))
    /\ let h := loads_of (firstn i ds) in
       Forall2 (fun sid y => exists due ct, make mcn (loads nv (own_loads nv sid h)) = Ok due /\ combined (y_meta y) due ct /\ c_val ct = []
                  /\ reads (y_heap y) (y_root y) (ptree ct) /\ reads (hs_heap (objects nv mcn ds)) (y_root y) (ptree ct)) (digests nv h) ys.
  Proof.
    intros ds i E. destruct (c71_combine nv mcn M2 ds i E) as (ys & cs & R & F1 & F2 & F3). exists ys. split; [exact R|]. cbn zeta.
    pose proof (tree_bare nv mcn M2 (firstn i ds)) as B. destruct (keys_ok nv _ _ B) as [KD _]. rewrite <- KD.
    pose proof (c68_trees nv mcn M2 (firstn i ds)) as F0. cbn zeta in F0. fold (before nv mcn ds i) in F0.
    assert (K : Forall (fun y => forall t, reads (y_heap y) (y_root y) t -> reads (hs_heap (objects nv mcn ds)) (y_root y) t) ys).
    { apply Forall_forall. intros y Iy t Rt. apply (c71_kept nv mcn M2 ds i y t); [exists ys; auto|exact Rt]. }
    assert (G : forall sm, In sm (trees nv mcn (firstn i ds)) -> exists due ct, make mcn (loads nv (own_loads nv (fst sm) (loads_of (firstn i ds)))) = Ok due /\ maker_combine mcn (snd sm) = Ok ct /\ combined (mk_meta (snd sm)) due ct /\ c_val ct = []).
    { intros [sid mk] I. exact (maker_combined _ _ sid mk B I). }
    revert F0 F1 F2 F3 K G. generalize (hs_makers (before nv mcn ds i)). generalize (trees nv mcn (firstn i ds)). clear. intros l l1 F0 F1. revert l1 ys F0.
    induction F1 as [|sm ct l cs Q1 F1 IH]; intros l1 ys F0 F2 F3 K G; inversion F3 as [|y ct' ys' cs' [Q2 Q3] F3']; subst; [constructor|].
    inversion F0 as [|z sm' l1' l' (P1 & P2 & P3) F0']; subst. inversion F2 as [|y' z' ys2 l2 Q4 F2']; subst. inversion K as [|? ? K1 K2]; subst. cbn [map]. constructor.
    - destruct (G sm (or_introl eq_refl)) as (due & ct2 & A1 & A2 & A3 & A4). assert (ct2 = ct) as -> by congruence. exists due, ct. split; [exact A1|]. split; [rewrite Q4, P2; exact A3|]. split; [exact A4|]. split; [exact Q2|exact (K1 _ Q2)].
    - apply (IH l1' ys'); auto. intros sm2 I2. apply G. right. exact I2.
  Qed.
  Lemma addrs_hd : forall s, In (a_addr s) (addrs s). Proof. intros [a v q c m k]. left. reflexivity. Qed.
  Lemma c71_own : forall ds i y, combined_result nv mcn ds i y -> Forall (fun sm => hk_root (snd sm) <> y_root y) (hs_makers (objects nv mcn ds)).
  Proof.
    intros ds i y C. destruct (new_combined nv mcn M2 ds i y C) as (H & g & fs & x & E & IV & I & A & _). rewrite E. cbn [hs_makers]. apply Forall_forall. intros sm J B.
    apply in_map_iff in J. destruct J as ([sid [m s]] & <- & J). cbn [hm fst snd hk_root] in B. destruct (in_whole _ _ _ _ _ IV) as [_ ND].
    rewrite flat_map_app in ND. apply (NoDup_app_disj _ _ _ ND (a_addr s)); apply in_flat_map; [exists s|exists x].
    - split; [exact (in_gt _ _ _ _ J)|apply addrs_hd].
    - split; [exact I|]. rewrite B, A. apply addrs_hd.
  Qed.
  Lemma c71_down : forall ds i y ks a, let H := hs_heap (objects nv mcn ds) in combined_result nv mcn ds i y -> down H (y_root y) ks a ->
    chain H a ks (y_root y) /\ snd (level H a) = Ok (length ks) /\
    forall sm ks', In sm (hs_makers (objects nv mcn ds)) -> ~ down H (hk_root (snd sm)) ks' a.
  Proof.
    intros ds i y ks a H C D. assert (R : is_root nv mcn ds (y_root y)) by (right; exists i, y; auto). destruct (c68_down nv mcn M2 ds _ ks a R D) as [A B].
    split; [exact A|]. split; [exact B|]. intros sm ks' I D'. assert (R' : is_root nv mcn ds (hk_root (snd sm))) by (left; exists sm; auto).
    destruct (c68_apart nv mcn M2 ds _ ks' _ ks a R' D' R D) as [E _]. pose proof (c71_own ds i y C) as F. rewrite Forall_forall in F. exact (F sm I E).
  Qed.
End Run.
