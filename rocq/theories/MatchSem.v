(** What matching on a grown match tree finds. *)
From Coq Require Import String.
From Verif Require Import PyStr Defs UrlLib ParseUtils Views Trees Patterns Matcher Observe PyStrProofs DefsProofs DictProofs MatchVms MatchTree.
From Coq Require Import Lia Permutation.

Lemma mapM_In : forall A B (f : A -> res B) l l' y, mapM f l = Ok l' -> In y l' -> exists x, In x l /\ f x = Ok y.
Proof.
  induction l as [|a l IH]; intros l' y H I; cbn [mapM] in H; [inversion H; subst; destruct I|]. destruct (f a) as [b|e] eqn:E; cbn [bind] in H; [|discriminate].
  destruct (mapM f l) as [bs|e]; cbn [bind] in H; [|discriminate]. inversion H; subst. destruct I as [<-|I]; [exists a; split; [left; reflexivity|exact E]|].
  destruct (IH bs y eq_refl I) as (x & J & X). exists x. split; [right; exact J|exact X].
Qed.

Section Sem.
  Context (inner : mnode -> list match_pattern -> mmeta -> mnode * res bool).
  Context (ok : match_pattern -> Prop).
  Context (regok : forall l p, Forall ok l -> ok p -> snd (register inner (regs inner l) p) = None).
  Context (inner_m : mnode -> list mobj -> res (list (option mmeta))).
  Notation grow := (grow inner).
  Notation kid := (kid inner).

  (** *** soundness *)
  Definition hit1 (l : list match_pattern) (q : match_pattern) (o : mobj) : Prop :=
    exists v b ks, vget v (regs inner l) = Some b /\ view_match inner_m v b o = Ok ks /\ In (mp_str q) ks.
  Fixpoint hits (path : list match_pattern) (os : list mobj) (hist : list hent) : Prop :=
    match path with
    | [] => True
    | q :: path' =>
        match os with
        | [] => False
        | o :: os' => In q (heads hist) /\ hit1 (heads hist) q o /\ hits path' os' (tails (mp_str q) hist)
        end
    end.
  Definition descend (path : list match_pattern) (hist : list hent) : list hent := fold_left (fun h q => tails (mp_str q) h) path hist.
  Lemma last_cons : forall A (a b : A) l, last (a :: l) b = last l a.
  Proof. intros A a b l. revert a b. induction l as [|x l IH]; intros a b; [reflexivity|]. transitivity (last (x :: l) b); [reflexivity|]. rewrite IH. symmetry. apply IH. Qed.

  Lemma nmatch_sound : forall os q hist fs, hist_ok ok hist -> nmatch inner_m os (grow q hist) = Ok fs -> forall path k, In (path, k) fs ->
    path <> [] /\ hits path os hist /\ k = grow (last path q) (descend path hist).
  Proof.
    induction os as [|o os IH]; intros q hist fs OK H path k I; [discriminate|]. cbn [nmatch] in H.
    match type of H with bind ?x _ = _ => destruct x as [rs|e] eqn:EM end; cbn [bind] in H; [|discriminate]. inversion H; subst; clear H.
    apply in_concat in I. destruct I as (ys & I1 & I2). destruct (mapM_In _ _ _ _ _ _ EM I1) as ([v b] & IV & E). clear EM I1 rs. cbn [fst snd] in E.
    assert (VG : vget v (regs inner (heads hist)) = Some b).
    { apply vget_In; [apply regs_ok|]. rewrite (grow_eq inner ok regok) in IV by exact OK. exact IV. }
    destruct (view_match inner_m v b o) as [ks|e] eqn:EK; cbn [bind] in E; [|discriminate].
    destruct (mapM (kid_by_key (grow q hist)) ks) as [nodes|e] eqn:EN; cbn [bind] in E; [|discriminate].
    assert (NODE : forall n, In n nodes -> exists p, In p (heads hist) /\ In (mp_str p) ks /\ n = kid hist p).
    { intros n J. destruct (mapM_In _ _ _ _ _ _ EN J) as (key & K1 & K2). pose proof (grow_kid inner ok regok q hist key OK) as G. rewrite K2 in G. destruct G as (p & P1 & P2 & P3). subst key. eauto. }
    destruct nodes as [|k0 nodes]; [inversion E; subst; destruct I2|]. destruct (m_leaf k0).
    - inversion E; subst; clear E. change (([m_pat k0], k0) :: map (fun k => ([m_pat k], k)) nodes) with (map (fun k => ([m_pat k], k)) (k0 :: nodes)) in I2. apply in_map_iff in I2. destruct I2 as (n & X & J). inversion X; subst; clear X.
      destruct (NODE _ J) as (p & P1 & P2 & ->). assert (EP : m_pat (kid hist p) = p) by apply grow_pat. rewrite EP. split; [discriminate|]. split; [|reflexivity]. cbn [hits]. split; [exact P1|]. split; [|exact Logic.I]. exists v, b, ks. auto.
    - match type of E with bind ?x _ = _ => destruct x as [fs|e] eqn:EF end; cbn [bind] in E; [|discriminate]. inversion E; subst; clear E. apply in_concat in I2. destruct I2 as (zs & J1 & J2).
      destruct (mapM_In _ _ _ _ _ _ EF J1) as (n & N1 & N2). destruct (NODE _ N1) as (p & P1 & P2 & ->). destruct (nmatch inner_m os (kid hist p)) as [f|e] eqn:EQ; cbn [bind] in N2; [|discriminate]. inversion N2; subst; clear N2.
      apply in_map_iff in J2. destruct J2 as ([path' k'] & X & J2). cbn [fst snd] in X. inversion X; subst; clear X. assert (EP : m_pat (kid hist p) = p) by apply grow_pat. rewrite EP.
      destruct (IH p (tails (mp_str p) hist) f (tails_ok ok _ _ OK) EQ path' k J2) as (A & B & C). split; [discriminate|]. split.
      + cbn [hits]. split; [exact P1|]. split; [exists v, b, ks; auto|exact B].
      + rewrite last_cons. exact C.
  Qed.
  Lemma hits_descend : forall path os hist, hits path os hist -> path <> [] -> descend path hist <> [].
  Proof.
    induction path as [|p path IH]; intros [|o os] hist H N; try congruence; [destruct H|]. destruct H as (A & _ & H). unfold descend. cbn [fold_left]. destruct path as [|p2 path].
    - cbn [fold_left]. apply heads_key. apply in_map. exact A.
    - apply (IH os); [exact H|discriminate].
  Qed.

  (** *** exactness for trees of uniform depth *)
  Context (acc : match_pattern -> mobj -> Prop).
  Definition level_exact (l : list match_pattern) (o : mobj) : Prop :=
    exists kss, mapM (fun vb => view_match inner_m (fst vb) (snd vb) o) (regs inner l) = Ok kss /\ NoDup (List.concat kss) /\
      forall k, In k (List.concat kss) <-> exists p, In p l /\ mp_str p = k /\ acc p o.
  Fixpoint exact_at (os : list mobj) (hist : list hent) : Prop :=
    match os with
    | [] => True
    | o :: os' => level_exact (heads hist) o /\ forall p, In p (heads hist) -> exact_at os' (tails (mp_str p) hist)
    end.
  (** the patterns loaded, by the strings *)
  Definition uniform (d : nat) (hist : list hent) : Prop := Forall (fun h : hent => length (fst h) = d) hist.
  Definition coherent (hist : list hent) : Prop :=
    forall i ps me qs me' p q, In (ps, me) hist -> In (qs, me') hist -> nth_error ps i = Some p -> nth_error qs i = Some q -> mp_str p = mp_str q -> p = q.
  Lemma tails_uniform : forall k d hist, uniform (S d) hist -> uniform d (tails k hist).
  Proof.
    intros k d hist U. unfold uniform in *. rewrite Forall_forall in *. intros [r me] I. apply tails_In in I. destruct I as (q & _ & I). specialize (U _ I). cbn [fst length] in *. lia.
  Qed.
  Lemma tails_coherent : forall k hist, coherent hist -> coherent (tails k hist).
  Proof.
    intros k hist C i ps me qs me' p q I J P Q E. apply tails_In in I. apply tails_In in J. destruct I as (x & _ & I). destruct J as (y & _ & J). exact (C (S i) _ _ _ _ p q I J P Q E).
  Qed.
  Lemma uniform_heads : forall d hist, uniform d hist -> hist <> [] -> (heads hist = [] <-> d = 0).
  Proof.
    intros d hist U N. split.
    - intros H. destruct hist as [|[ps me] hist]; [congruence|]. inversion U as [|? ? L _]; subst. cbn [fst] in *. destruct ps as [|p ps]; [reflexivity|]. exfalso.
      assert (X : In (mp_str p) (skey (heads ((p :: ps, me) :: hist)))). { apply heads_key. unfold tails. cbn [flat_map fst snd]. rewrite (proj2 (str_eqb_iff _ _) eq_refl). discriminate. }
      rewrite H in X. destruct X.
    - intros ->. destruct (heads hist) as [|p l] eqn:E; [reflexivity|]. exfalso. destruct (heads_In hist p) as (r & me & I); [rewrite E; left; reflexivity|]. unfold uniform in U. rewrite Forall_forall in U. specialize (U _ I). discriminate.
  Qed.
  Lemma mapM_map_ok : forall A B (f : A -> res B) g l, (forall x, In x l -> f x = Ok (g x)) -> mapM f l = Ok (map g l).
  Proof. intros. apply mapM_pure. assumption. Qed.
  Lemma mapM_ext_in : forall A B (f g : A -> res B) l, (forall x, In x l -> f x = g x) -> mapM f l = mapM g l.
  Proof. intros A B f g l H. induction l as [|x l IH]; [reflexivity|]. cbn [mapM]. rewrite (H x (or_introl eq_refl)), IH; [reflexivity|]. intros y I. apply H. right. exact I. Qed.
  Lemma mapM_bind : forall A B C (f : A -> res B) (g : B -> res C) l bs, mapM f l = Ok bs -> mapM (fun x => y <- f x ;; g y) l = mapM g bs.
  Proof.
    induction l as [|x l IH]; intros bs H; cbn [mapM] in H; [inversion H; reflexivity|]. destruct (f x) as [b|] eqn:E; cbn [bind] in H; [|discriminate]. destruct (mapM f l) as [bs'|]; cbn [bind] in H; [|discriminate]. inversion H; subst.
    cbn [mapM]. rewrite E. cbn [bind]. rewrite (IH bs' eq_refl). reflexivity.
  Qed.
  Lemma concat_map_concat : forall A B (f : A -> list B) ll, List.concat (map (fun l => List.concat (map f l)) ll) = flat_map f (List.concat ll).
  Proof. intros A B f ll. induction ll as [|l ll IH]; [reflexivity|]. cbn [map List.concat]. rewrite flat_map_app, IH. f_equal. symmetry. apply flat_map_concat_map. Qed.
  Definition found_node (path : list match_pattern) (q : match_pattern) (hist : list hent) : mnode := grow (last path q) (descend path hist).
  Lemma NoDup_flat_map : forall A B (f : A -> list B) l, NoDup l -> (forall x, In x l -> NoDup (f x)) -> (forall x y z, In x l -> In y l -> In z (f x) -> In z (f y) -> x = y) -> NoDup (flat_map f l).
  Proof.
    intros A B f l ND. induction ND as [|x l N ND IH]; intros F D; [constructor|]. cbn [flat_map].
    assert (G : forall a b : list B, NoDup a -> NoDup b -> (forall z, In z a -> ~ In z b) -> NoDup (a ++ b)).
    { clear. induction a as [|x a IH]; intros b HA HB D; [exact HB|]. inversion HA; subst. cbn [app]. constructor; [rewrite in_app_iff; intros [X|X]; [auto|]; apply (D x); [left; reflexivity|exact X]|]. apply IH; auto. intros z I. apply D. right. exact I. }
    apply G; [apply F; left; reflexivity|apply IH; [intros y I; apply F; right; exact I|intros y z w I J; apply D; right; assumption]|].
    intros z I J. apply in_flat_map in J. destruct J as (y & J & K). assert (x = y) by (apply (D x y z); [left; reflexivity|right; exact J|exact I|exact K]). subst. contradiction.
  Qed.

  Lemma nmatch_exact : forall os q hist, hist_ok ok hist -> uniform (length os) hist -> coherent hist -> hist <> [] -> os <> [] -> exact_at os hist ->
    exists fs, nmatch inner_m os (grow q hist) = Ok fs /\ NoDup (map (fun f => skey (fst f)) fs) /\
      forall path k, In (path, k) fs <-> (exists me, In (path, me) hist) /\ Forall2 acc path os /\ k = found_node path q hist.
  Proof.
    induction os as [|o os IH]; intros q hist OK U C N NO EX; [congruence|]. clear NO. destruct EX as [(kss & EK & ND & KI) EX]. cbn [nmatch length] in *.
    set (keys := List.concat kss) in *.
    assert (KID : forall key, In key keys -> exists p, In p (heads hist) /\ mp_str p = key /\ acc p o /\ kid_by_key (grow q hist) key = Ok (kid hist p)).
    { intros key I. apply KI in I. destruct I as (p & I & E & A). exists p. pose proof (grow_kid inner ok regok q hist key OK) as G. destruct (kid_by_key (grow q hist) key) as [x|e].
      - destruct G as (p' & I' & E' & ->). assert (p = p') by (apply (key_unique (heads hist)); [apply heads_NoDup|assumption..|congruence]). subst p'. auto.
      - exfalso. apply G. rewrite <- E. apply in_map. exact I. }
    set (look := fun key => match kid_by_key (grow q hist) key with Ok x => x | Err _ => new_mroot end).
    assert (LOOK : forall key, In key keys -> kid_by_key (grow q hist) key = Ok (look key)).
    { intros key I. destruct (KID key I) as (p & _ & _ & _ & E). unfold look. rewrite E. reflexivity. }
    (* the results below one key *)
    assert (R : exists R : str -> list found,
       (forall key, In key keys -> forall ks, incl ks keys -> ks <> [] -> True) /\
       (forall ks, incl ks keys -> match map look ks with
                | [] => Ok []
                | k0 :: _ => if m_leaf k0 then Ok (map (fun k => ([m_pat k], k)) (map look ks))
                    else fs <- mapM (fun k => f <- nmatch inner_m os k ;; Ok (map (fun pn => (m_pat k :: fst pn, snd pn)) f)) (map look ks) ;; Ok (List.concat fs)
                end = Ok (List.concat (map R ks))) /\
       (forall key, In key keys -> NoDup (map (fun f => skey (fst f)) (R key)) /\ forall path k, In (path, k) (R key) <->
           exists p path', path = p :: path' /\ In p (heads hist) /\ mp_str p = key /\ (exists me, In (path', me) (tails key hist)) /\ Forall2 acc path' os /\ k = found_node path q hist)).
    { assert (LEAF : forall key, In key keys -> m_leaf (look key) = match os with [] => true | _ => false end).
      { intros key I. destruct (KID key I) as (p & P1 & P2 & _ & E). assert (EL : look key = kid hist p) by (unfold look; rewrite E; reflexivity). rewrite EL. unfold MatchTree.kid. rewrite (grow_leaf inner ok regok) by (apply tails_ok; exact OK).
        assert (TU : uniform (length os) (tails (mp_str p) hist)) by (apply tails_uniform; exact U). assert (TN : tails (mp_str p) hist <> []) by (apply heads_key; apply in_map; exact P1).
        pose proof (uniform_heads _ _ TU TN) as UH. destruct (heads (tails (mp_str p) hist)), os; cbn [length is_nil] in *; try reflexivity; [destruct UH as [UH _]; discriminate (UH eq_refl)|destruct UH as [_ UH]; discriminate (UH eq_refl)]. }
      destruct os as [|o2 os].
      - exists (fun key => [([m_pat (look key)], look key)]). split; [auto|]. split.
        + intros ks I. destruct ks as [|k0 ks]; [reflexivity|]. cbn [map]. rewrite LEAF by (apply I; left; reflexivity). f_equal. rewrite map_map. cbn [List.concat app]. f_equal. clear. induction ks as [|k ks IHk]; [reflexivity|]. cbn [map List.concat app]. f_equal. exact IHk.
        + intros key I. split; [repeat constructor; intros []|]. destruct (KID key I) as (p & P1 & P2 & P3 & E). assert (EL : look key = kid hist p) by (unfold look; rewrite E; reflexivity).
          assert (EP : m_pat (kid hist p) = p) by apply grow_pat. rewrite EL, EP. intros path k. split.
          * intros [X|[]]. inversion X; subst. exists p, []. split; [reflexivity|]. split; [exact P1|]. split; [reflexivity|]. split; [|split; [constructor|reflexivity]].
            assert (TN : tails (mp_str p) hist <> []) by (apply heads_key; apply in_map; exact P1). assert (TU : uniform 0 (tails (mp_str p) hist)) by (apply tails_uniform; exact U).
            destruct (tails (mp_str p) hist) as [|[r me] l]; [congruence|]. inversion TU as [|? ? L0 _]; subst. cbn [fst] in L0. destruct r; [|discriminate]. exists me. left. reflexivity.
          * intros (p' & path' & -> & P1' & P2' & (me & M) & F2 & ->). inversion F2; subst. assert (p' = p) by (apply (key_unique (heads hist)); [apply heads_NoDup|assumption..]). subst p'. left. reflexivity.
      - assert (SUB : forall key, exists f, In key keys -> nmatch inner_m (o2 :: os) (look key) = Ok f /\ NoDup (map (fun f => skey (fst f)) f) /\ forall path k, In (path, k) f <-> (exists me, In (path, me) (tails key hist)) /\ Forall2 acc path (o2 :: os) /\ k = found_node path (m_pat (look key)) (tails key hist)).
        { intros key. destruct (in_dec (list_eq_dec N.eq_dec) key keys) as [I|I]; [|exists []; intros J; contradiction]. destruct (KID key I) as (p & P1 & P2 & _ & E). assert (EL : look key = kid hist p) by (unfold look; rewrite E; reflexivity).
          assert (EP : m_pat (kid hist p) = p) by apply grow_pat. rewrite EL, EP.
          destruct (IH p (tails (mp_str p) hist)) as (f & F1 & F2 & F3).
          - apply tails_ok; exact OK.
          - apply tails_uniform; exact U.
          - apply tails_coherent; exact C.
          - apply heads_key. apply in_map. exact P1.
          - discriminate.
          - apply EX. exact P1.
          - exists f. intros _. rewrite <- P2. auto. }
        set (Rf := fun key => match nmatch inner_m (o2 :: os) (look key) with Ok f => map (fun pn : found => (m_pat (look key) :: fst pn, snd pn)) f | Err _ => [] end).
        exists Rf. split; [auto|]. split.
        + intros ks I. destruct ks as [|k0 ks]; [reflexivity|]. remember (k0 :: ks) as ks' eqn:EKS. assert (NE : map look ks' = look k0 :: map look ks) by (rewrite EKS; reflexivity). rewrite NE at 1. rewrite LEAF by (apply I; rewrite EKS; left; reflexivity).
          assert (MM : mapM (fun k => f <- nmatch inner_m (o2 :: os) k ;; Ok (map (fun pn : found => (m_pat k :: fst pn, snd pn)) f)) (map look ks') = Ok (map Rf ks')).
          { clear NE EKS. induction ks' as [|key ks' IHk]; [reflexivity|]. cbn [map mapM]. destruct (SUB key) as (f & Hf). destruct (Hf (I key (or_introl eq_refl))) as (F1 & _). unfold Rf at 1. rewrite F1. cbn [bind]. rewrite IHk; [reflexivity|]. intros x J. apply I. right. exact J. }
          rewrite MM. reflexivity.
        + intros key I. destruct (SUB key) as (f & Hf). destruct (Hf I) as (F1 & F2 & F3). unfold Rf. rewrite F1. destruct (KID key I) as (p & P1 & P2 & _ & E). assert (EL : look key = kid hist p) by (unfold look; rewrite E; reflexivity).
          assert (EP : m_pat (look key) = p) by (rewrite EL; apply grow_pat). rewrite EP. split.
          * rewrite map_map. cbn [fst map]. clear - F2. induction f as [|x f IHf]; [constructor|]. cbn [map] in *. inversion F2 as [|? ? A B]; subst. constructor; [|apply IHf; exact B]. intros J. apply A. apply in_map_iff in J. destruct J as (y & Y & J). inversion Y as [Y']. apply in_map_iff. exists y. auto.
          * intros path k. rewrite in_map_iff. split.
            -- intros ([path' k'] & X & J). cbn [fst snd] in X. inversion X; subst path k'; clear X. apply F3 in J. destruct J as (J1 & J2 & J3). exists p, path'. split; [reflexivity|]. split; [exact P1|]. split; [exact P2|]. split; [exact J1|]. split; [exact J2|].
               rewrite J3, EP. unfold found_node. rewrite last_cons. unfold descend. cbn [fold_left]. rewrite P2. reflexivity.
            -- intros (p' & path' & -> & P1' & P2' & J1 & J2 & J3). assert (p' = p) by (apply (key_unique (heads hist)); [apply heads_NoDup|assumption..|congruence]). subst p'. exists (path', k). split; [reflexivity|]. apply F3. split; [exact J1|]. split; [exact J2|].
               rewrite J3, EP. unfold found_node. rewrite last_cons. unfold descend. cbn [fold_left]. rewrite P2. reflexivity. }
    destruct R as (R & _ & R1 & R2).
    set (G := fun ks : list str => nodes <- mapM (kid_by_key (grow q hist)) ks ;; match nodes with
                | [] => Ok []
                | k0 :: _ => if m_leaf k0 then Ok (map (fun k => ([m_pat k], k)) nodes)
                    else fs <- mapM (fun k => f <- nmatch inner_m os k ;; Ok (map (fun pn => (m_pat k :: fst pn, snd pn)) f)) nodes ;; Ok (List.concat fs)
                end).
    assert (VMS : m_vms (grow q hist) = regs inner (heads hist)) by (rewrite (grow_eq inner ok regok) by exact OK; reflexivity).
    assert (MK : mapM (fun vb : vcls * vbody => ks <- view_match inner_m (fst vb) (snd vb) o ;; G ks) (m_vms (grow q hist)) = Ok (map (fun ks => List.concat (map R ks)) kss)).
    { rewrite VMS. rewrite (mapM_bind _ _ _ (fun vb : vcls * vbody => view_match inner_m (fst vb) (snd vb) o) G _ _ EK). apply mapM_map_ok. intros ks I.
      assert (IN : incl ks keys) by (intros x J; unfold keys; apply in_concat; eauto). unfold G. rewrite (mapM_map_ok _ _ (kid_by_key (grow q hist)) look) by (intros x J; apply LOOK; apply IN; exact J). cbn [bind]. apply R1. exact IN. }
    exists (flat_map R keys). split; [|split].
    - match goal with |- bind ?x ?f = ?y => transitivity (bind (Ok (map (fun ks => List.concat (map R ks)) kss)) f); [apply (f_equal (fun z => bind z f)); exact MK|] end. cbn [bind]. f_equal. apply concat_map_concat.
    - rewrite flat_map_concat_map, concat_map, map_map, <- flat_map_concat_map. apply NoDup_flat_map; [exact ND|intros key I; apply R2; exact I|].
      intros x y z IX IY ZX ZY. apply in_map_iff in ZX. destruct ZX as ([p1 k1] & Z1 & ZX). apply in_map_iff in ZY. destruct ZY as ([p2 k2] & Z2 & ZY). cbn [fst] in *. apply R2 in ZX; [|exact IX]. apply R2 in ZY; [|exact IY].
      destruct ZX as (a & pa & -> & _ & <- & _). destruct ZY as (b & pb & -> & _ & <- & _). cbn [map] in *. congruence.
    - intros path k. rewrite in_flat_map. split.
      + intros (key & I & J). apply R2 in J; [|exact I]. destruct J as (p & path' & -> & P1 & P2 & (me & M) & F2 & K). apply tails_In in M. destruct M as (p2 & E2 & M).
        apply KI in I. destruct I as (p3 & I3 & E3 & A3). assert (p3 = p) by (apply (key_unique (heads hist)); [apply heads_NoDup|assumption..|congruence]). subst p3.
        assert (p2 = p). { destruct (heads_In _ _ P1) as (r & me' & J). apply (C 0 (p2 :: path') me (p :: r) me' p2 p M J eq_refl eq_refl). congruence. }
        subst p2. split; [exists me; exact M|]. split; [constructor; assumption|exact K].
      + intros ((me & M) & F2 & K). inversion F2 as [|p ? path' ? A F2']; subst. assert (HP : In p (heads hist)).
        { assert (X : In (mp_str p) (skey (heads hist))). { apply heads_key. intros Z. assert (Y : In (path', me) (tails (mp_str p) hist)) by (apply tails_In; eauto). rewrite Z in Y. destruct Y. }
          apply in_map_iff in X. destruct X as (p' & E' & X). destruct (heads_In _ _ X) as (r & me' & J). assert (p' = p) by (apply (C 0 (p' :: r) me' (p :: path') me p' p J M eq_refl eq_refl); congruence). subst. exact X. }
        assert (IK : In (mp_str p) keys) by (apply KI; exists p; auto). exists (mp_str p). split; [exact IK|]. apply R2; [exact IK|]. exists p, path'. split; [reflexivity|]. split; [exact HP|]. split; [reflexivity|]. split; [exists me; apply tails_In; eauto|]. split; [exact F2'|reflexivity].
  Qed.
End Sem.
