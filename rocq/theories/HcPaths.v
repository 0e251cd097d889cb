(** make() on the nodes as objects: the paths of a tree. *)
From Coq Require Import String.
From Verif Require Import PyStr Defs UrlLib ParseUtils Views Trees Cluster Patterns Matcher Maker Heap HeapSpec HCluster
  PyStrProofs DefsProofs TreeProofs DictProofs LoadProofs HeapProofs HeapLoad HeapState GroupProofs HcBase HcBag.
From Coq Require Import Lia Permutation.

Fixpoint apaths (s : atree) : list (list atree) :=
  match s with
  | AT _ _ _ _ _ [] => [[s]]
  | AT _ _ _ _ _ ks => map (cons s) (flat_map apaths ks)
  end.
Lemma apaths_eq : forall s, apaths s = match a_kids s with [] => [[s]] | ks => map (cons s) (flat_map apaths ks) end.
Proof. intros [a v p c m [|k ks]]; reflexivity. Qed.
Lemma apaths_erase : forall s, map (map erase) (apaths s) = paths (erase s).
Proof.
  induction s as [a v p c m ks IH] using atree_ind'. rewrite apaths_eq, paths_eq, erase_kids. cbn [a_kids].
  assert (F : map (map erase) (flat_map apaths ks) = flat_map paths (map erase ks)).
  { induction IH as [|k ks Hk _ IHk]; [reflexivity|]. cbn [flat_map map]. rewrite map_app, Hk, IHk. reflexivity. }
  destruct ks as [|k ks]; [reflexivity|]. cbn [map] in *. rewrite <- F, !map_map. apply map_ext. intros l. reflexivity.
Qed.
(** a node of the tree *)
Fixpoint subs (s : atree) : list atree := let '(AT _ _ _ _ _ ks) := s in s :: flat_map subs ks.
Lemma subs_self : forall s, In s (subs s).
Proof. intros [a v p c m ks]. left. reflexivity. Qed.
Lemma subs_addr : forall s y, In y (subs s) -> In (a_addr y) (addrs s).
Proof.
  induction s as [a v p c m ks IH] using atree_ind'. intros y [<-|I]; [left; reflexivity|]. right.
  apply in_flat_map in I. destruct I as (k & Ik & Iy). apply in_flat_map. exists k. split; [exact Ik|].
  rewrite Forall_forall in IH. exact (IH k Ik y Iy).
Qed.
Lemma subs_holds : forall s H par dep y, holds H par dep s -> In y (subs s) -> exists par' dep', holds H par' dep' y.
Proof.
  induction s as [a v p c m ks IH] using atree_ind'. intros H par dep y Ho [<-|I]; [eauto|].
  apply in_flat_map in I. destruct I as (k & Ik & Iy). apply holds_iff in Ho. destruct Ho as [_ Hk]. rewrite Forall_forall in *.
  exact (IH k Ik H _ _ y (Hk k Ik) Iy).
Qed.
Lemma subs_full : forall s y, full s -> In y (subs s) -> full y.
Proof.
  induction s as [a v p c m ks IH] using atree_ind'. intros y F [<-|I]; [exact F|].
  apply in_flat_map in I. destruct I as (k & Ik & Iy). apply full_iff in F. destruct F as [_ Fk]. rewrite Forall_forall in *.
  exact (IH k Ik y (Fk k Ik) Iy).
Qed.
Lemma apaths_subs : forall s l y, In l (apaths s) -> In y l -> In y (subs s).
Proof.
  induction s as [a v p c m ks IH] using atree_ind'. intros l y Il Iy. rewrite apaths_eq in Il. cbn [a_kids] in Il.
  assert (X : l = [AT a v p c m ks] \/ exists r k, l = AT a v p c m ks :: r /\ In k ks /\ In r (apaths k)).
  { destruct ks as [|k0 ks]; [destruct Il as [<-|[]]; left; reflexivity|]. right. apply in_map_iff in Il. destruct Il as (r & <- & Ir).
    apply in_flat_map in Ir. destruct Ir as (k & Ik & Ir). eauto. }
  destruct X as [->|(r & k & -> & Ik & Ir)].
  - destruct Iy as [<-|[]]. left. reflexivity.
  - destruct Iy as [<-|Iy]; [left; reflexivity|]. right. apply in_flat_map. exists k. split; [exact Ik|].
    rewrite Forall_forall in IH. exact (IH k Ik r y Ir Iy).
Qed.
Lemma len_kid : forall ks k, In k ks -> length (addrs k) <= length (flat_map addrs ks).
Proof.
  induction ks as [|x ks IH]; intros k I; [destruct I|]. cbn [flat_map]. rewrite app_length. destruct I as [->|I]; [lia|].
  specialize (IH k I). lia.
Qed.
Lemma dump_ok : forall s fuel H par dep, holds H par dep s -> length (addrs s) <= fuel ->
  dump fuel H (a_addr s) = Ok (map (map a_addr) (apaths s)).
Proof.
  induction s as [a v p c m ks IH] using atree_ind'. intros fuel H par dep Ho L. destruct fuel as [|fuel]; [cbn in L; lia|].
  cbn [dump]. destruct (holds_node _ _ _ _ Ho) as (n & En & _ & _ & _ & _ & _ & Kn). rewrite (get_ok _ _ _ En). cbn [bind].
  rewrite Kn. cbn [a_kids]. rewrite apaths_eq. cbn [a_kids a_addr]. cbn [addrs length] in L.
  assert (M : mapM (fun e : str * addr => dump fuel H (snd e)) (dict_of ks) = Ok (map (fun k => map (map a_addr) (apaths k)) ks)).
  { apply mapM_ok. apply holds_iff in Ho. destruct Ho as [_ Hk].
    assert (LK : forall k, In k ks -> length (addrs k) <= fuel) by (intros k Ik; pose proof (len_kid ks k Ik); lia).
    clear - IH Hk LK. induction ks as [|k ks IHk]; [constructor|]. inversion IH; subst. inversion Hk; subst. constructor.
    - cbn [snd]. eapply H2; [eassumption|]. apply LK. left. reflexivity.
    - apply IHk; auto. intros k0 I0. apply LK. right. exact I0. }
  destruct ks as [|k ks]; [reflexivity|]. cbn [dict_of map] in M |- *. cbn [dict_of map] in *.
  match type of M with ?x = _ => change (mapM (fun e : str * addr => dump fuel H (snd e)) ((a_piece k, a_addr k) :: map (fun k0 => (a_piece k0, a_addr k0)) ks)) with x end.
  rewrite M. cbn [bind]. f_equal. rewrite map_map. cbn [flat_map].
  change (map (fun x => map a_addr (AT a v p c m (k :: ks) :: x)) (apaths k ++ flat_map apaths ks))
    with (map (fun x => a :: map a_addr x) (apaths k ++ flat_map apaths ks)).
  rewrite <- (map_map (map a_addr) (cons a)). f_equal. rewrite map_app. cbn [List.concat]. f_equal.
  clear. induction ks as [|x ks IH]; [reflexivity|]. cbn. rewrite map_app, IH. reflexivity.
Qed.
Lemma dump_tree_ok : forall s H, holds H None 0 s -> NoDup (addrs s) -> dump_tree (a_addr s) H = (H, Ok (map (map a_addr) (apaths s))).
Proof.
  intros s H Ho ND. unfold dump_tree, reading. f_equal. apply (dump_ok s _ H None 0 Ho).
  apply nodup_bound; [exact ND|]. apply (holds_lt s H None 0 Ho).
Qed.
(** reading the pattern of a node that has one *)
Lemma pattern_ok : forall y H par dep, holds H par dep y -> full y -> node_pattern_of (a_addr y) H = (H, Ok (t_pattern (erase y))).
Proof.
  intros [a v p c m ks] H par dep Ho F. apply full_iff in F. destruct F as [F _].
  destruct (holds_node _ _ _ _ Ho) as (n & En & _ & _ & Pn & _). unfold node_pattern_of. rewrite (get_ok _ _ _ En). rewrite Pn. cbn [a_pat].
  destruct p as [p|]; [reflexivity|congruence].
Qed.
Definition known (H : heap) (y : atree) : Prop := full y /\ exists par dep, holds H par dep y.
Lemma paths_known : forall s H, holds H None 0 s -> full s -> Forall (Forall (known H)) (apaths s).
Proof.
  intros s H Ho F. apply Forall_forall. intros l Il. apply Forall_forall. intros y Iy. pose proof (apaths_subs _ _ _ Il Iy) as Is.
  split; [exact (subs_full s y F Is)|exact (subs_holds s H None 0 y Ho Is)].
Qed.
Lemma patterns_ok : forall l H, Forall (known H) l -> collect (map a_addr l) node_pattern_of H = (H, Ok (map (fun y => t_pattern (erase y)) l)).
Proof.
  induction l as [|y l IH]; intros H F; [reflexivity|]. inversion F as [|a b [Fy (par & dep & Ho)] F']; subst. cbn [map collect].
  rewrite (then_ok _ _ _ _ _ _ _ _ (pattern_ok y H par dep Ho Fy)). rewrite (then_ok _ _ _ _ _ _ _ _ (IH H F')). reflexivity.
Qed.
Lemma pieces_read : forall l H, Forall (known H) l -> mapM (fun a => n <- get H a ;; Ok (piece (n_value n))) (map a_addr l) = Ok (map (fun y => t_piece (erase y)) l).
Proof.
  intros l H F. apply mapM_ok. induction F as [|y l [_ (par & dep & Ho)] F IH]; [constructor|]. cbn [map]. constructor; [|exact IH].
  destruct (holds_node _ _ _ _ Ho) as (n & En & _ & Vn & _). rewrite (get_ok _ _ _ En). cbn. rewrite Vn, erase_piece. reflexivity.
Qed.
Lemma known_agree : forall H H' P y, known H y -> agree P H H' -> (forall a, In a (addrs y) -> P a) -> known H' y.
Proof. intros H H' P y [F (par & dep & Ho)] A I. split; [exact F|]. exists par, dep. exact (holds_agree _ _ _ _ _ _ Ho A I). Qed.
