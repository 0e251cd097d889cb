(** A match tree as a function of the patterns loaded into it. *)
From Coq Require Import String.
From Verif Require Import PyStr Defs UrlLib ParseUtils Views Trees Patterns Matcher Observe PyStrProofs DefsProofs DictProofs MatchVms.
From Coq Require Import Lia Permutation.

Notation hent := (list match_pattern * option mmeta)%type.
Notation skey := (map mp_str).

Definition has_key (k : str) (l : list match_pattern) : bool := existsb (fun p => str_eqb k (mp_str p)) l.
Definition head_add (l : list match_pattern) (h : hent) : list match_pattern :=
  match fst h with
  | [] => l
  | q :: _ => if has_key (mp_str q) l then l else l ++ [q]
  end.
(** the first patterns of the entries, those below one of them, and the metadata
    bound to the node itself *)
Definition heads (hist : list hent) : list match_pattern := fold_left head_add hist [].
Definition tails (k : str) (hist : list hent) : list hent :=
  flat_map (fun h : hent => match fst h with
                     | q :: r => if str_eqb k (mp_str q) then [(r, snd h)] else []
                     | [] => []
                     end) hist.
Definition meta_step (m : option mmeta) (h : hent) : option mmeta :=
  match fst h with
  | [] => match snd h with Some _ => snd h | None => m end
  | _ => m
  end.
Definition lmeta (hist : list hent) : option mmeta := fold_left meta_step hist None.

Lemma has_key_iff : forall k l, has_key k l = true <-> In k (skey l).
Proof.
  intros k l. unfold has_key. rewrite existsb_exists, in_map_iff. split; intros (p & A & B).
  - apply str_eqb_iff in B. eauto.
  - exists p. split; [exact B|]. apply str_eqb_iff. congruence.
Qed.
Lemma heads_snoc : forall hist h, heads (hist ++ [h]) = head_add (heads hist) h.
Proof. intros. unfold heads. rewrite fold_left_app. reflexivity. Qed.
Lemma tails_snoc : forall k hist h, tails k (hist ++ [h]) = tails k hist ++ match fst h with q :: r => if str_eqb k (mp_str q) then [(r, snd h)] else [] | [] => [] end.
Proof. intros. unfold tails. rewrite flat_map_app. cbn [flat_map]. rewrite app_nil_r. reflexivity. Qed.
Lemma lmeta_snoc : forall hist h, lmeta (hist ++ [h]) = meta_step (lmeta hist) h.
Proof. intros. unfold lmeta. rewrite fold_left_app. reflexivity. Qed.
Lemma heads_NoDup : forall hist, NoDup (skey (heads hist)).
Proof.
  induction hist as [|h hist IH] using rev_ind; [constructor|]. rewrite heads_snoc. unfold head_add. destruct (fst h) as [|q r]; [exact IH|]. destruct (has_key (mp_str q) (heads hist)) eqn:E; [exact IH|].
  rewrite map_app. cbn [map]. apply NoDup_rev in IH. rewrite <- (rev_involutive (skey (heads hist) ++ [mp_str q])). apply NoDup_rev. rewrite rev_app_distr. cbn [rev app]. constructor; [|exact IH].
  intros I. apply in_rev in I. apply (has_key_iff (mp_str q) (heads hist)) in I. congruence.
Qed.
Lemma heads_key : forall hist k, In k (skey (heads hist)) <-> tails k hist <> [].
Proof.
  intros hist k. induction hist as [|h hist IH] using rev_ind; [cbn; tauto|]. rewrite heads_snoc, tails_snoc. unfold head_add. destruct (fst h) as [|q r]; [rewrite app_nil_r; exact IH|].
  destruct (str_eqb k (mp_str q)) eqn:E.
  - apply str_eqb_iff in E. subst k. split; [intros _ X; apply app_eq_nil in X; destruct X; discriminate|]. intros _. destruct (has_key (mp_str q) (heads hist)) eqn:H.
    + apply has_key_iff. exact H.
    + rewrite map_app, in_app_iff. right. left. reflexivity.
  - rewrite app_nil_r, <- IH. destruct (has_key (mp_str q) (heads hist)); [reflexivity|]. rewrite map_app, in_app_iff. cbn [map In]. split; [|auto].
    intros [X|[X|[]]]; [exact X|]. subst k. rewrite (proj2 (str_eqb_iff _ _) eq_refl) in E. discriminate.
Qed.
Lemma heads_In : forall hist p, In p (heads hist) -> exists r me, In (p :: r, me) hist.
Proof.
  intros hist p. induction hist as [|[ps me] hist IH] using rev_ind; [intros []|]. rewrite heads_snoc. unfold head_add. cbn [fst]. intros I.
  assert (X : In p (heads hist) \/ exists r, ps = p :: r).
  { destruct ps as [|q r]; [left; exact I|]. destruct (has_key (mp_str q) (heads hist)); [left; exact I|]. rewrite in_app_iff in I. destruct I as [I|[->|[]]]; [left; exact I|right; eauto]. }
  destruct X as [X|(r & ->)].
  - destruct (IH X) as (r & me' & J). exists r, me'. rewrite in_app_iff. auto.
  - exists r, me. rewrite in_app_iff. right. left. reflexivity.
Qed.
Lemma tails_In : forall k hist r me, In (r, me) (tails k hist) <-> exists q, mp_str q = k /\ In (q :: r, me) hist.
Proof.
  intros k hist r me. unfold tails. rewrite in_flat_map. split.
  - intros ([ps m] & I & J). cbn [fst snd] in J. destruct ps as [|q r']; [destruct J|]. destruct (str_eqb k (mp_str q)) eqn:E; [|destruct J]. destruct J as [J|[]]. inversion J; subst. apply str_eqb_iff in E. exists q. auto.
  - intros (q & <- & I). exists (q :: r, me). split; [exact I|]. cbn [fst snd]. rewrite (proj2 (str_eqb_iff _ _) eq_refl). left. reflexivity.
Qed.
Lemma key_unique : forall l p q, NoDup (skey l) -> In p l -> In q l -> mp_str p = mp_str q -> p = q.
Proof.
  induction l as [|x l IH]; intros p q ND P Q E; [destruct P|]. cbn [map] in ND. inversion ND as [|? ? N1 N2]; subst. destruct P as [->|P], Q as [->|Q]; auto.
  - exfalso. apply N1. rewrite E. apply in_map. exact Q.
  - exfalso. apply N1. rewrite <- E. apply in_map. exact P.
Qed.

Section Tree.
  Context (inner : mnode -> list match_pattern -> mmeta -> mnode * res bool).
  Definition step (n : mnode) (h : hent) : mnode := fst (mbuild inner n (fst h) (snd h) None).
  Definition grow (q : match_pattern) (hist : list hent) : mnode := fold_left step hist (new_mnode q).

  Lemma mbuild_new : forall n ps me a b, fst (mbuild inner n ps me a) = fst (mbuild inner n ps me b).
  Proof. intros [p c m ks vms] [|q r] me a b; reflexivity. Qed.
  Lemma mbuild_pat : forall n ps me a, m_pat (fst (mbuild inner n ps me a)) = m_pat n.
  Proof.
    intros [p c m ks vms] [|q r] me a; cbn [mbuild]; [reflexivity|]. destruct (mkid_split (mp_str q) ks) as [[[x k] y]|].
    - destruct (mbuild inner k r me (Some false)). reflexivity.
    - destruct (register inner vms q) as [vms' [e|]]; [reflexivity|]. destruct (mbuild inner (new_mnode q) r me (Some true)). reflexivity.
  Qed.
  Lemma grow_snoc : forall q hist h, grow q (hist ++ [h]) = step (grow q hist) h.
  Proof. intros. unfold grow. rewrite fold_left_app. reflexivity. Qed.
  Lemma grow_pat : forall q hist, m_pat (grow q hist) = q.
  Proof. intros q hist. induction hist as [|h hist IH] using rev_ind; [reflexivity|]. rewrite grow_snoc. unfold step. rewrite mbuild_pat. exact IH. Qed.

  (** the children *)
  Definition kid (hist : list hent) (p : match_pattern) : mnode := grow p (tails (mp_str p) hist).
  Lemma split_map : forall (f : match_pattern -> mnode) l k, (forall p, m_pat (f p) = p) ->
    match mkid_split k (map f l) with
    | Some (a, x, b) => exists l1 p l2, l = l1 ++ p :: l2 /\ mp_str p = k /\ a = map f l1 /\ x = f p /\ b = map f l2 /\ ~ In k (skey l1)
    | None => ~ In k (skey l)
    end.
  Proof.
    intros f l k F. induction l as [|p l IH]; cbn [map mkid_split]; [intros []|]. unfold m_key. rewrite F. destruct (str_eqb k (mp_str p)) eqn:E.
    - apply str_eqb_iff in E. exists [], p, l. repeat split; auto.
    - assert (N : mp_str p <> k) by (intros X; rewrite X, (proj2 (str_eqb_iff k k) eq_refl) in E; discriminate).
      destruct (mkid_split k (map f l)) as [[[a x] b]|].
      + destruct IH as (l1 & p' & l2 & -> & K & -> & -> & -> & NI). exists (p :: l1), p', l2. cbn [map In]. repeat split; auto. intros [X|X]; auto.
      + cbn [In]. intros [X|X]; auto.
  Qed.

  Context (ok : match_pattern -> Prop).
  Context (regok : forall l p, Forall ok l -> ok p -> snd (register inner (regs inner l) p) = None).
  Definition hist_ok (hist : list hent) : Prop := Forall (fun h : hent => Forall ok (fst h)) hist.

  Lemma heads_ok : forall hist, hist_ok hist -> Forall ok (heads hist).
  Proof.
    intros hist H. apply Forall_forall. intros p I. apply heads_In in I. destruct I as (r & me & I). unfold hist_ok in H. rewrite Forall_forall in H. specialize (H _ I). cbn [fst] in H. inversion H; assumption.
  Qed.
  Lemma tails_ok : forall k hist, hist_ok hist -> hist_ok (tails k hist).
  Proof.
    intros k hist H. unfold hist_ok in *. rewrite Forall_forall in *. intros [r me] I. apply tails_In in I. destruct I as (q & _ & I). specialize (H _ I). cbn [fst] in *. inversion H; assumption.
  Qed.
  Lemma grow_eq : forall q hist, hist_ok hist ->
    grow q hist = MN q (Z.of_nat (length hist)) (lmeta hist) (map (kid hist) (heads hist)) (regs inner (heads hist)).
  Proof.
    intros q hist. induction hist as [|[ps me] hist IH] using rev_ind; intros OK; [reflexivity|]. rewrite grow_snoc. unfold hist_ok in OK. apply Forall_app in OK. destruct OK as [OK OK1]. inversion OK1 as [|? ? O _]; subst. cbn [fst] in O.
    rewrite (IH OK). clear IH. unfold step. cbn [fst snd]. rewrite app_length, lmeta_snoc, heads_snoc. unfold head_add, meta_step. cbn [fst snd length].
    replace (Z.of_nat (length hist + 1)) with (Z.of_nat (length hist) + 1)%Z by lia.
    destruct ps as [|p r]; cbn [mbuild fst].
    - f_equal. apply map_ext. intros x. unfold kid. rewrite tails_snoc. cbn [fst]. rewrite app_nil_r. reflexivity.
    - pose proof (split_map (kid hist) (heads hist) (mp_str p) (fun x => grow_pat x _)) as SP. inversion O as [|? ? OP OR]; subst.
      destruct (mkid_split (mp_str p) (map (kid hist) (heads hist))) as [[[a x] b]|].
      + destruct SP as (l1 & p' & l2 & HE & K & -> & -> & -> & NI). assert (HK : has_key (mp_str p) (heads hist) = true). { apply has_key_iff. rewrite HE, map_app, in_app_iff. right. left. exact K. }
        rewrite HK. destruct (mbuild inner (kid hist p') r me (Some false)) as [k' o] eqn:EM. cbn [fst]. f_equal. rewrite HE. rewrite map_app. cbn [map].
        pose proof (heads_NoDup hist) as ND. rewrite HE, map_app in ND. cbn [map] in ND. apply NoDup_remove_2 in ND. rewrite in_app_iff in ND.
        assert (OTH : forall y, mp_str y <> mp_str p -> kid (hist ++ [(p :: r, me)]) y = kid hist y).
        { intros y N. unfold kid. rewrite tails_snoc. cbn [fst snd]. destruct (str_eqb (mp_str y) (mp_str p)) eqn:E; [apply str_eqb_iff in E; contradiction|]. rewrite app_nil_r. reflexivity. }
        f_equal; [apply map_ext_in; intros y I; symmetry; apply OTH; intros X; apply ND; left; rewrite K, <- X; apply in_map; exact I|].
        f_equal; [|apply map_ext_in; intros y I; symmetry; apply OTH; intros X; apply ND; right; rewrite K, <- X; apply in_map; exact I].
        unfold kid at 1. rewrite tails_snoc. cbn [fst snd]. rewrite K, (proj2 (str_eqb_iff _ _) eq_refl), grow_snoc. unfold step. cbn [fst snd]. rewrite <- K. fold (kid hist p'). rewrite (mbuild_new _ _ _ None (Some false)), EM. reflexivity.
      + assert (HK : has_key (mp_str p) (heads hist) = false). { destruct (has_key (mp_str p) (heads hist)) eqn:E; [|reflexivity]. apply has_key_iff in E. contradiction. }
        rewrite HK. pose proof (regok (heads hist) p (heads_ok hist OK) OP) as RE. rewrite regs_snoc. destruct (register inner (regs inner (heads hist)) p) as [vms' e]. cbn [snd fst] in *. subst e.
        destruct (mbuild inner (new_mnode p) r me (Some true)) as [k' o] eqn:EM. cbn [fst]. f_equal. rewrite map_app. cbn [map]. f_equal.
        * apply map_ext_in. intros y I. unfold kid. rewrite tails_snoc. cbn [fst snd]. destruct (str_eqb (mp_str y) (mp_str p)) eqn:E; [|rewrite app_nil_r; reflexivity]. apply str_eqb_iff in E. exfalso. apply SP. rewrite <- E. apply in_map. exact I.
        * f_equal. unfold kid. rewrite tails_snoc. cbn [fst snd]. rewrite (proj2 (str_eqb_iff _ _) eq_refl).
          assert (TN : tails (mp_str p) hist = []). { destruct (tails (mp_str p) hist) eqn:E; [reflexivity|]. exfalso. apply SP. apply heads_key. rewrite E. discriminate. }
          rewrite TN. cbn [app]. unfold grow, step. cbn [fold_left fst snd]. rewrite (mbuild_new _ _ _ None (Some true)), EM. reflexivity.
  Qed.
  (** building never raises, and is_new *)
  Lemma mbuild_snd : forall ps q hist me new, hist_ok hist -> Forall ok ps ->
    snd (mbuild inner (grow q hist) ps me new) =
    match ps with
    | [] => match new with Some b => Ok b | None => Err EUnbound end
    | _ => Ok (negb (existsb (fun h : hent => prefixb (skey ps) (skey (fst h))) hist))
    end.
  Proof.
    induction ps as [|p r IH]; intros q hist me new OK O; rewrite grow_eq by exact OK; cbn [mbuild snd]; [reflexivity|].
    pose proof (split_map (kid hist) (heads hist) (mp_str p) (fun x => grow_pat x _)) as SP. inversion O as [|? ? OP OR]; subst.
    assert (EX : forall r', existsb (fun h : hent => prefixb (skey (p :: r')) (skey (fst h))) hist = existsb (fun h : hent => prefixb (skey r') (skey (fst h))) (tails (mp_str p) hist)).
    { intros r'. clear. induction hist as [|[ps m] hist IH]; [reflexivity|]. cbn [existsb fst]. rewrite IH. unfold tails at 2. cbn [flat_map fst snd]. fold (tails (mp_str p) hist). rewrite existsb_app. destruct ps as [|y ps]; [reflexivity|]. cbn [map prefixb].
      destruct (str_eqb (mp_str p) (mp_str y)); cbn [andb existsb fst]; [rewrite orb_false_r|]; reflexivity. }
    rewrite EX. destruct (mkid_split (mp_str p) (map (kid hist) (heads hist))) as [[[a x] b]|].
    - destruct SP as (l1 & p' & l2 & HE & K & -> & -> & -> & NI). pose proof (IH p' (tails (mp_str p') hist) me (Some false) (tails_ok _ _ OK) OR) as X. fold (kid hist p') in X. destruct (mbuild inner (kid hist p') r me (Some false)) as [k' o].
      cbn [snd] in *. subst o. rewrite K. destruct r; [|reflexivity]. assert (TN : tails (mp_str p) hist <> []). { apply heads_key. rewrite HE, map_app, in_app_iff. right. left. exact K. }
      destruct (tails (mp_str p) hist) as [|h t]; [congruence|]. reflexivity.
    - pose proof (regok (heads hist) p (heads_ok hist OK) OP) as RE. destruct (register inner (regs inner (heads hist)) p) as [vms' e]. cbn [snd] in RE. subst e.
      pose proof (IH p [] me (Some true) ltac:(constructor) OR) as X. unfold grow in X. cbn [fold_left] in X. destruct (mbuild inner (new_mnode p) r me (Some true)) as [k' o]. cbn [snd] in *. subst o.
      assert (TN : tails (mp_str p) hist = []). { destruct (tails (mp_str p) hist) eqn:E; [reflexivity|]. exfalso. apply SP. apply heads_key. rewrite E. discriminate. }
      rewrite TN. destruct r; reflexivity.
  Qed.
  Lemma grow_kid : forall q hist k, hist_ok hist ->
    match kid_by_key (grow q hist) k with
    | Ok x => exists p, In p (heads hist) /\ mp_str p = k /\ x = kid hist p
    | Err _ => ~ In k (skey (heads hist))
    end.
  Proof.
    intros q hist k OK. unfold kid_by_key. rewrite grow_eq by exact OK. cbn [m_kids]. pose proof (split_map (kid hist) (heads hist) k (fun x => grow_pat x _)) as SP.
    destruct (mkid_split k (map (kid hist) (heads hist))) as [[[a x] b]|]; [|exact SP]. destruct SP as (l1 & p & l2 & HE & K & _ & -> & _). exists p. rewrite HE, in_app_iff. split; [right; left; reflexivity|auto].
  Qed.
  Lemma grow_leaf : forall q hist, hist_ok hist -> m_leaf (grow q hist) = is_nil (heads hist).
  Proof. intros q hist OK. rewrite grow_eq by exact OK. unfold m_leaf. cbn [m_kids]. destruct (heads hist); reflexivity. Qed.
End Tree.
