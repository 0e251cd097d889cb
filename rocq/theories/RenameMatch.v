(** Renaming letters and digits commutes with the matcher (C58). *)
From Coq Require Import String.
From Verif Require Import PyStr Defs UrlLib ParseUtils Spec Views Trees Cluster Patterns Matcher Maker Observe MatchSpec GrammarSpec UrlSpec RenameSpec PyStrProofs DefsProofs DictProofs RegexProofs PieceProofs LengthProofs BridgeProofs DigestProofs LoadProofs MatchLevel MatchNest MatchDigest Grammar Para Rename RenameUnits.
From Coq Require Import Lia.

Lemma F2_nth_error : forall A B (P : A -> B -> Prop) l l' n, Forall2 P l l' -> optR P (nth_error l n) (nth_error l' n).
Proof. intros A B P l l' n F. revert n. induction F; intros [|n]; cbn; auto. Qed.
Lemma F2_app : forall A B (P : A -> B -> Prop) a a' b b', Forall2 P a a' -> Forall2 P b b' -> Forall2 P (a ++ b) (a' ++ b').
Proof. intros A B P a a' b b' F G. induction F; [exact G|constructor; assumption]. Qed.

Section M.
  Context (f g : char -> char) (RN : renaming f g).
  Notation R := (R f).
  Notation V := (V f).
  Notation pR := (pR f).
  Notation ru := (ru f).
  Definition mmR (a b : mmeta) : Prop := match a, b with MUser x, MUser y => x = y | MRef k, MRef k' => R k k' | _, _ => False end.
  Inductive mnR : mnode -> mnode -> Prop :=
  | MNR : forall p p' c m m' ks ks' vms vms', pR p p' -> optR mmR m m' -> Forall2 mnR ks ks' -> Forall2 vmR vms vms' -> mnR (MN p c m ks vms) (MN p' c m' ks' vms')
  with vmR : vcls * vbody -> vcls * vbody -> Prop :=
  | VPi : forall v d d', Forall2 (pairR R R) d d' -> vmR (v, BPiece d) (v, BPiece d')
  | VLe : forall v d d', Forall2 (pairR eq R) d d' -> vmR (v, BLength d) (v, BLength d')
  | VMu : forall v d d', Forall2 (fun a b => fst a = fst b /\ mnR (snd a) (snd b)) d d' -> vmR (v, BMulti d) (v, BMulti d')
  | VFu : forall v l l', Forall2 R l l' -> vmR (v, BFuzzy l) (v, BFuzzy l').
  Notation dR := (Forall2 (pairR eq mnR)).

  Lemma m_pat_R : forall n n', mnR n n' -> pR (m_pat n) (m_pat n').
  Proof. intros n n' []. assumption. Qed.
  Lemma m_key_R : forall n n', mnR n n' -> R (m_key n) (m_key n').
  Proof. intros n n' H. unfold m_key. apply pR_str. apply m_pat_R. exact H. Qed.
  Lemma m_meta_R : forall n n', mnR n n' -> optR mmR (m_meta n) (m_meta n').
  Proof. intros n n' []. assumption. Qed.
  Lemma m_kids_R : forall n n', mnR n n' -> Forall2 mnR (m_kids n) (m_kids n').
  Proof. intros n n' []. assumption. Qed.
  Lemma m_vms_R : forall n n', mnR n n' -> Forall2 vmR (m_vms n) (m_vms n').
  Proof. intros n n' []. assumption. Qed.
  Lemma m_leaf_R : forall n n', mnR n n' -> m_leaf n = m_leaf n'.
  Proof. intros n n' H. unfold m_leaf. apply m_kids_R in H. destruct H; reflexivity. Qed.
  Lemma new_R : forall p p', pR p p' -> mnR (new_mnode p) (new_mnode p').
  Proof. intros p p' H. constructor; [exact H|exact Logic.I|constructor|constructor]. Qed.
  Lemma mroot_R : mnR new_mroot new_mroot.
  Proof. apply new_R. apply pR_empty. Qed.
  Lemma body_R : forall v, vmR (v, new_body v) (v, new_body v).
  Proof. intros []; constructor; constructor. Qed.

  Definition spR (a b : list mnode * mnode * list mnode) : Prop := pairR (pairR (Forall2 mnR) mnR) (Forall2 mnR) a b.
  Lemma msplit_R : forall k k' ks ks', R k k' -> Forall2 mnR ks ks' -> optR spR (mkid_split k ks) (mkid_split k' ks').
  Proof.
    intros k k' ks ks' K F. induction F as [|a b ks ks' H F IH]; [exact Logic.I|]. cbn [mkid_split]. rewrite <- (R_eq f g RN k k' (m_key a) (m_key b) K (m_key_R _ _ H)).
    destruct (str_eqb k (m_key a)); [split; [split; [constructor|exact H]|exact F]|]. destruct (mkid_split k ks) as [[[a1 x1] b1]|], (mkid_split k' ks') as [[[a2 x2] b2]|]; try exact IH.
    destruct IH as [[A B] C]. split; [split; [constructor; assumption|exact B]|exact C].
  Qed.
  Lemma gloop_R : forall fuel vms vms' v s e, Forall2 vmR vms vms' -> resR (pairR eq (Forall2 vmR)) (get_matcher_loop fuel vms v s e) (get_matcher_loop fuel vms' v s e).
  Proof.
    induction fuel as [|fuel IH]; intros vms vms' v s e F; [reflexivity|]. cbn [get_matcher_loop]. destruct (s <? e).
    - cbv zeta. pose proof (F2_nth_error _ _ _ _ _ (Nat.div2 (e - s) + s) F) as N1. destruct (nth_error vms _) as [[v1 b1]|], (nth_error vms' _) as [[v2 b2]|]; try contradiction; [|reflexivity].
      assert (v1 = v2) by (inversion N1; reflexivity). subst v2. destruct (vcls_eqb v1 v); [split; [reflexivity|exact F]|]. destruct (view_order v1 <? view_order v); apply IH; exact F.
    - split; [reflexivity|]. cbn [snd]. apply F2_app; [apply F2_firstn; exact F|]. constructor; [apply body_R|apply F2_skipn; exact F].
  Qed.
  Lemma get_R : forall vms vms' v, Forall2 vmR vms vms' -> resR (pairR eq (Forall2 vmR)) (get_matcher vms v) (get_matcher vms' v).
  Proof. intros vms vms' v F. unfold get_matcher. rewrite <- (F2_len _ _ _ _ _ F). apply gloop_R. exact F. Qed.
  Lemma set_nth_R : forall A B (P : A -> B -> Prop) i x y l l', P x y -> Forall2 P l l' -> Forall2 P (set_nth i x l) (set_nth i y l').
  Proof. intros A B P i x y l l' H F. unfold set_nth. apply F2_app; [apply F2_firstn; exact F|]. constructor; [exact H|apply F2_skipn; exact F]. Qed.

  Lemma good_mk : forall x, good x -> exists p, mk_match_pattern (pu_str x) false = Ok p.
  Proof.
    intros x G. assert (E : pattern_units (pu_str x) = Ok [x]).
    { apply part_exact. destruct G as [->|M]; [left; split; reflexivity|]. right. cbn [map unit_obs fst]. split; [destruct M as [(c & r & -> & _)|(l & q & -> & _)]; discriminate|]. split; [apply app_nil_r|]. split; [constructor; [exact M|constructor]|]. split; exact Logic.I. }
    unfold mk_match_pattern. rewrite E. eexists. reflexivity.
  Qed.
  Lemma units_R : forall us, Forall good us -> resR (Forall2 pR) (mapM (fun x => mk_match_pattern (pu_str x) false) us) (mapM (fun x => mk_match_pattern (pu_str x) false) (map ru us)).
  Proof.
    intros us G. apply (mapM_R _ _ _ _ (fun x x' => good x /\ x' = ru x)).
    - induction G as [|x us H G IH]; [constructor|]. constructor; [auto|exact IH].
    - intros x x' [H ->]. destruct (good_mk x H) as [p E]. destruct (mk_R f g RN _ _ _ E) as (p' & E' & P). rewrite E. cbn [RenameUnits.ru pu_str]. rewrite E'. exact P.
  Qed.
  Lemma vmu_R : forall v d d', dR d d' -> vmR (v, BMulti d) (v, BMulti d').
  Proof. intros v d d' F. constructor. exact F. Qed.
  Lemma R_same : forall a a' b b', R a a' -> R b b' -> str_eqb a b = str_eqb a' b'.
  Proof. exact (R_eq f g RN). Qed.
  Lemma eq_same : forall a a' b b' : str, a = a' -> b = b' -> str_eqb a b = str_eqb a' b'.
  Proof. intros; subst; reflexivity. Qed.
  Lemma z_same : forall a a' b b' : Z, a = a' -> b = b' -> Z.eqb a b = Z.eqb a' b'.
  Proof. intros; subst; reflexivity. Qed.

  Section B.
    Context (inner inner' : mnode -> list match_pattern -> mmeta -> mnode * res bool).
    Context (inner_R : forall t t' ps ps' m m', mnR t t' -> Forall2 pR ps ps' -> mmR m m' -> pairR mnR eq (inner t ps m) (inner' t' ps' m')).
    Lemma add_R : forall v b b' p p', vmR (v, b) (v, b') -> pR p p' ->
      vmR (v, fst (add_match_node inner b p)) (v, fst (add_match_node inner' b' p')) /\ snd (add_match_node inner b p) = snd (add_match_node inner' b' p').
    Proof.
      intros v b b' p p' H P. pose proof (pR_str f _ _ P) as PS. destruct P as (G & C & ->). inversion H as [? d d' F|? d d' F|? d d' F|? l l' F]; subst; cbn [add_match_node].
      - pose proof (dget_R str_eqb str_eqb R R R_same _ _ _ _ PS F) as D. cbn [mp_str] in *. destruct (dget str_eqb (mp_str p) d), (dget str_eqb _ d'); try contradiction; cbn [fst snd]; (split; [|reflexivity]); constructor; [exact F|].
        apply F2_app; [exact F|]. constructor; [split; exact PS|constructor].
      - cbn [mp_units mp_str] in *. destruct (mp_units p) as [|x us]; cbn [map]; [split; [exact H|reflexivity]|]. cbn [fst snd RenameUnits.ru pu_num]. split; [|reflexivity]. constructor.
        apply (dset_R Z.eqb Z.eqb eq R z_same); [reflexivity|exact PS|exact F].
      - cbn [mp_units mp_str] in *. assert (FJ : fuzzy_join (map pu_fuzzy (map ru (mp_units p))) = fuzzy_join (map pu_fuzzy (mp_units p))) by (rewrite map_map; reflexivity). rewrite FJ. clear FJ.
        set (r := fuzzy_join (map pu_fuzzy (mp_units p))). cbv zeta. assert (F' : dR d d') by exact F. pose proof (dget_R str_eqb str_eqb eq mnR eq_same r r d d' eq_refl F') as D.
        set (t := match dget str_eqb r d with Some t => t | None => new_mroot end). set (t' := match dget str_eqb r d' with Some t => t | None => new_mroot end).
        assert (T : mnR t t'). { unfold t, t'. destruct (dget str_eqb r d), (dget str_eqb r d'); try contradiction; [exact D|apply mroot_R]. } clearbody t t'. clear D.
        pose proof (units_R (mp_units p) G) as U. destruct (mapM _ (mp_units p)) as [ps|e], (mapM _ (map ru (mp_units p))) as [ps'|e']; try contradiction.
        + pose proof (inner_R t t' ps ps' (MRef (mp_str p)) (MRef (rename_text f (mp_str p))) T U PS) as [I1 I2]. destruct (inner t ps _) as [t1 o1], (inner' t' ps' _) as [t2 o2]. cbn [fst snd] in *. subst o2.
          split; [|reflexivity]. apply vmu_R. apply (dset_R str_eqb str_eqb eq mnR eq_same); [reflexivity|exact I1|exact F'].
        + cbn [fst snd]. cbn in U. subst e'. split; [|reflexivity]. apply vmu_R. apply (dset_R str_eqb str_eqb eq mnR eq_same); [reflexivity|exact T|exact F'].
      - cbn [fst snd mp_str] in *. split; [|reflexivity]. constructor. apply F2_app; [exact F|]. constructor; [exact PS|constructor].
    Qed.
    Lemma register_R : forall vms vms' p p', Forall2 vmR vms vms' -> pR p p' -> pairR (Forall2 vmR) eq (register inner vms p) (register inner' vms' p').
    Proof.
      intros vms vms' p p' F P. unfold register. rewrite (pR_view f _ _ P). pose proof (get_R vms vms' (mp_view p) F) as G. destruct (get_matcher vms _) as [[i w]|e], (get_matcher vms' _) as [[i' w']|e']; try contradiction; [|split; [exact F|cbn in G; subst; reflexivity]].
      destruct G as [G1 G2]. cbn [fst snd] in *. subst i'. pose proof (F2_nth_error _ _ _ _ _ i G2) as N1. destruct (nth_error w i) as [[v b]|], (nth_error w' i) as [[v' b']|]; try contradiction; [|split; [exact G2|reflexivity]].
      assert (v = v') by (inversion N1; reflexivity). subst v'. destruct (add_R v b b' p p' N1 P) as [A B]. destruct (add_match_node inner b p) as [b1 o1], (add_match_node inner' b' p') as [b2 o2]. cbn [fst snd] in *. subst o2.
      split; [|reflexivity]. cbn [fst]. apply set_nth_R; assumption.
    Qed.
    Lemma mbuild_R : forall ps ps' n n' me new, Forall2 pR ps ps' -> mnR n n' -> forall me', optR mmR me me' -> pairR mnR eq (mbuild inner n ps me new) (mbuild inner' n' ps' me' new).
    Proof.
      intros ps ps' n n' me new F. revert n n' new. induction F as [|q q' ps ps' H F IH]; intros n n' new N1 me' ME; destruct N1 as [p p' c m m' ks ks' vms vms' P M K W]; cbn [mbuild].
      - split; [|reflexivity]. cbn [fst]. constructor; try assumption. destruct me, me'; try contradiction; assumption.
      - pose proof (msplit_R _ _ _ _ (pR_str f _ _ H) K) as S1. destruct (mkid_split (mp_str q) ks) as [[[a k] b]|], (mkid_split (mp_str q') ks') as [[[a' k'] b']|]; try contradiction.
        + destruct S1 as [[A B] C]. cbn [fst snd] in *. pose proof (IH k k' (Some false) B me' ME) as [X Y]. destruct (mbuild inner k ps me (Some false)) as [k1 o1], (mbuild inner' k' ps' me' (Some false)) as [k2 o2]. cbn [fst snd] in *. subst o2.
          split; [|reflexivity]. constructor; try assumption. apply F2_app; [exact A|]. constructor; assumption.
        + pose proof (register_R vms vms' q q' W H) as [X Y]. destruct (register inner vms q) as [w e], (register inner' vms' q') as [w' e']. cbn [fst snd] in *. subst e'. destruct e as [e|].
          * split; [|reflexivity]. constructor; try assumption. apply F2_app; [exact K|]. constructor; [apply new_R; exact H|constructor].
          * pose proof (IH _ _ (Some true) (new_R _ _ H) me' ME) as [X' Y']. destruct (mbuild inner (new_mnode q) ps me (Some true)) as [k1 o1], (mbuild inner' (new_mnode q') ps' me' (Some true)) as [k2 o2]. cbn [fst snd] in *. subst o2.
            split; [|reflexivity]. constructor; try assumption. apply F2_app; [exact K|]. constructor; [exact X'|constructor].
    Qed.
  End B.
  Lemma mbuild_n_R : forall nest n n' ps ps' me me', mnR n n' -> Forall2 pR ps ps' -> optR mmR me me' -> pairR mnR eq (mbuild_n nest n ps me) (mbuild_n nest n' ps' me').
  Proof.
    induction nest as [|nest IH]; intros n n' ps ps' me me' N1 F ME; [split; [exact N1|reflexivity]|]. cbn [mbuild_n]. apply mbuild_R; try assumption. intros t t' qs qs' m m' T Q MM. apply IH; assumption.
  Qed.

  (** ** matching *)
  Notation oR := (optR V).
  Definition foR (a b : found) : Prop := pairR (Forall2 pR) mnR a b.
  Lemma parts_R : forall v p p', V p p' -> Forall2 V (view_parts v p) (view_parts v p').
  Proof.
    intros v p p' H. destruct v; cbn [view_parts]; [apply V_multi; exact H|apply V_multi; exact H|apply V_mixed; exact H|apply V_ldsf; exact H|apply V_multi; exact H|].
    unfold fuzzy_parts. rewrite <- (V_rule f p p' H). destruct H as (E & I & F). apply (parts_V f [piece p] [piece p'] [fuzzy_rule p]).
    - constructor; [apply W_concat; exact F|constructor].
    - constructor; [apply inside_fuzzy; exact I|constructor].
  Qed.
  Section T.
    Context (inner inner' : mnode -> list mobj -> res (list (option mmeta))).
    Context (inner_R : forall t t' os os', mnR t t' -> Forall2 oR os os' -> resR (Forall2 (optR mmR)) (inner t os) (inner' t' os')).
    Lemma piece_R : forall o o', oR o o' -> resR V (the_piece o) (the_piece o').
    Proof. intros [p|] [p'|] H; try contradiction; [exact H|reflexivity]. Qed.
    Lemma view_match_R : forall a b o o', vmR a b -> oR o o' -> resR (Forall2 R) (view_match inner (fst a) (snd a) o) (view_match inner' (fst b) (snd b) o').
    Proof.
      intros a b o o' H O. destruct H as [v d d' F|v d d' F|v d d' F|v l l' F]; cbn [fst snd view_match].
      - apply (resR_bind _ _ _ _ V _ _ _ _ _ (piece_R o o' O)). intros p p' P. pose proof (dget_R str_eqb str_eqb R R R_same _ _ _ _ (V_piece f g RN p p' P) F) as D.
        destruct (dget str_eqb (piece p) d), (dget str_eqb (piece p') d'); try contradiction; cbn; [constructor; [exact D|constructor]|constructor].
      - apply (resR_bind _ _ _ _ V _ _ _ _ _ (piece_R o o' O)). intros p p' P. apply (resR_bind _ _ _ _ eq). { rewrite (V_len f g RN p p' P). apply resR_eq. }
        intros n n' <-. pose proof (dget_R Z.eqb Z.eqb eq R z_same n n _ _ eq_refl F) as D. destruct (dget Z.eqb n d), (dget Z.eqb n d'); try contradiction; cbn; [constructor; [exact D|constructor]|constructor].
      - apply (resR_bind _ _ _ _ V _ _ _ _ _ (piece_R o o' O)). intros p p' P. cbv zeta. pose proof (parts_R v p p' P) as PP. rewrite <- (key_R V (V_rule f) _ _ PP).
        assert (F' : dR d d') by exact F. pose proof (dget_R str_eqb str_eqb eq mnR eq_same (view_key (view_parts v p)) _ d d' eq_refl F') as D.
        destruct (dget str_eqb _ d) as [t|], (dget str_eqb _ d') as [t'|]; try contradiction; [|cbn; constructor].
        apply (resR_bind _ _ _ _ (Forall2 (optR mmR))). { apply inner_R; [exact D|]. apply (F2_map _ _ _ _ V); [exact PP|]. intros x y XY. exact XY. }
        intros ms ms' MS. apply (mapM_R _ _ _ _ (optR mmR) R _ _ _ _ MS). intros [[x|k]|] [[y|k']|] X; try contradiction; cbn; try reflexivity; exact X.
      - exact F.
    Qed.
    Lemma kid_R : forall n n' k k', mnR n n' -> R k k' -> resR mnR (kid_by_key n k) (kid_by_key n' k').
    Proof.
      intros n n' k k' N1 K. unfold kid_by_key. pose proof (msplit_R _ _ _ _ K (m_kids_R _ _ N1)) as S1. destruct (mkid_split k (m_kids n)) as [[[a x] b]|], (mkid_split k' (m_kids n')) as [[[a' x'] b']|]; try contradiction; [|reflexivity].
      destruct S1 as [[_ B] _]. exact B.
    Qed.
    Lemma nmatch_R : forall os os' n n', Forall2 oR os os' -> mnR n n' -> resR (Forall2 foR) (nmatch inner os n) (nmatch inner' os' n').
    Proof.
      intros os os' n n' F. revert n n'. induction F as [|o o' os os' O F IH]; intros n n' N1; [reflexivity|]. cbn [nmatch].
      apply (resR_bind _ _ _ _ (Forall2 (Forall2 foR))); [|intros rs rs' RS; apply F2_concat; exact RS].
      apply (mapM_R _ _ _ _ vmR); [apply m_vms_R; exact N1|]. intros vb vb' VB. apply (resR_bind _ _ _ _ (Forall2 R)); [apply view_match_R; assumption|]. intros ks ks' KS.
      apply (resR_bind _ _ _ _ (Forall2 mnR)); [apply (mapM_R _ _ _ _ R _ _ _ _ _ KS); intros k k' K; apply kid_R; assumption|]. intros nodes nodes' NS.
      assert (NS0 := NS). destruct NS as [|k0 k0' ns ns' K0 NS]; [constructor|]. rewrite <- (m_leaf_R _ _ K0). destruct (m_leaf k0).
      - cbn [resR]. apply (F2_map _ _ _ _ mnR); [exact NS0|]. intros k k' K. split; [constructor; [apply m_pat_R; exact K|constructor]|exact K].
      - apply (resR_bind _ _ _ _ (Forall2 (Forall2 foR))); [|intros fs fs' FS; apply F2_concat; exact FS].
        apply (mapM_R _ _ _ _ mnR _ _ _ _ _ NS0). intros k k' K. apply (resR_bind _ _ _ _ (Forall2 foR)); [apply IH; exact K|]. intros r r' RR. cbn [resR]. apply (F2_map _ _ _ _ foR); [exact RR|].
        intros x y [A B]. split; [constructor; [apply m_pat_R; exact K|exact A]|exact B].
    Qed.
  End T.
  Lemma nmatch_n_R : forall nest n n' os os', mnR n n' -> Forall2 oR os os' -> resR (Forall2 foR) (nmatch_n nest n os) (nmatch_n nest n' os').
  Proof.
    induction nest as [|nest IH]; intros n n' os os' N1 F; [reflexivity|]. cbn [nmatch_n]. apply nmatch_R; try assumption. intros t t' l l' T LL.
    apply (resR_bind _ _ _ _ (Forall2 foR)); [apply IH; assumption|]. intros fs fs' FS. apply (F2_map _ _ _ _ foR); [exact FS|]. intros x y [_ B]. apply m_meta_R. exact B.
  Qed.
End M.
