(** What the configuration says and what pattern-make does with it. *)
From Coq Require Import String.
From Verif Require Import PyStr PyStrProofs DictProofs Defs UrlLib ParseUtils Views Trees Cluster Patterns Matcher Maker Format Cmd Ete
  Observe CmdProofs MakeProofs TreeProofs Conf ConfSpec ConfText ConfRead.
From Coq Require Import Lia.

Section Sem.
  Context (lower : str -> str) (LW : lowers lower).
  Notation bfold := (cfoldM (bstep lower)).

  (** ** Which files have no fault *)
  Definition in_sec (cf : config) (n : str) : Prop := dget str_eqb n (cf_sections cf) <> None.
  Definition has (cf : config) (n : str) : Prop := n = DEFAULTSECT \/ in_sec cf n.
  Record inv (b : bst) : Prop := {
    inv_def : ~ in_sec (b_cf b) DEFAULTSECT;
    inv_heads : forall h, In h (b_heads b) -> in_sec (b_cf b) h;
    inv_sect : forall n, b_sect b = Some n -> has (b_cf b) n }.
  Definition cur (b : bst) : str := match b_sect b with Some n => n | None => [] end.
  Lemma in_set : forall cf n x m, in_sec (set_sect cf n x) m <-> in_sec cf m.
  Proof.
    intros cf n x m. unfold in_sec, set_sect. destruct (dget str_eqb n (cf_sections cf)) eqn:E; cbn; [|reflexivity].
    destruct (str_eqb m n) eqn:Q.
    - apply str_eqb_iff in Q. subst m. rewrite (dget_dset_same str_eqb str_eqb_iff), E. split; discriminate.
    - assert (m <> n) as N by (intros ->; rewrite (proj2 (str_eqb_iff n n) eq_refl) in Q; discriminate).
      rewrite (dget_dset_other str_eqb str_eqb_iff) by exact N. reflexivity.
  Qed.
  Lemma in_new : forall d ss h m, in_sec (CF d (ss ++ [(h, [])])) m <-> in_sec (CF d ss) m \/ m = h.
  Proof.
    intros d ss h m. unfold in_sec. cbn. destruct (str_eqb m h) eqn:Q.
    - apply str_eqb_iff in Q. subst m. split; [right; reflexivity|intros _]. destruct (dget str_eqb h ss) as [x|] eqn:E.
      + assert (dget str_eqb h (ss ++ [(h, [])]) = Some x) as X.
        { revert E. induction ss as [|[k v] ss IH]; cbn; [discriminate|]. destruct (str_eqb h k); [exact (fun H => H)|exact IH]. }
        intros Y. pose proof (eq_trans (eq_sym X) Y). discriminate.
      + intros Y. pose proof (eq_trans (eq_sym (dget_app_same h [] ss E)) Y). discriminate.
    - assert (m <> h) as N by (intros ->; rewrite (proj2 (str_eqb_iff h h) eq_refl) in Q; discriminate).
      rewrite (dget_app_new m h) by exact N. tauto.
  Qed.
  Lemma bhead_ok : forall b h, inv b -> bhead b h = CErr CDuplicateSection /\ In h (b_heads b) /\ h <> DEFAULTSECT
    \/ ~ In h (b_heads b) /\ exists b', bhead b h = COk b' /\ inv b' /\ b_sect b' = Some h /\ b_opts b' = b_opts b
       /\ b_heads b' = (if str_eqb h DEFAULTSECT then b_heads b else h :: b_heads b)
       /\ (forall n, has (b_cf b) n -> has (b_cf b') n /\ sect (b_cf b') n = sect (b_cf b) n).
  Proof.
    intros b h I. unfold bhead. destruct (dget str_eqb h (cf_sections (b_cf b))) as [x|] eqn:E.
    - assert (in_sec (b_cf b) h) as IS by (unfold in_sec; rewrite E; discriminate).
      assert (h <> DEFAULTSECT) as ND by (intros ->; exact (inv_def b I IS)).
      destruct (str_in h (b_heads b)) eqn:S.
      + left. split; [reflexivity|]. split; [apply str_in_iff; exact S|exact ND].
      + right. split; [intros X; apply str_in_iff in X; congruence|]. eexists. split; [reflexivity|]. split; [|split; [reflexivity|split; [reflexivity|split]]].
        * destruct I as [D H S']. split; cbn [b_cf b_heads b_sect]; [exact D| |].
          -- intros y [<-|Y]; [exact IS|exact (H y Y)].
          -- intros n N. inversion N; subst. right. exact IS.
        * cbn [b_heads]. destruct (str_eqb h DEFAULTSECT) eqn:Q; [apply str_eqb_iff in Q; congruence|reflexivity].
        * intros n H. split; [exact H|reflexivity].
    - right. split.
      { intros X. apply (inv_heads b I) in X. unfold in_sec in X. congruence. }
      destruct (str_eqb h DEFAULTSECT) eqn:Q.
      + apply str_eqb_iff in Q. subst h. eexists. split; [reflexivity|]. split; [|split; [reflexivity|split; [reflexivity|split; [reflexivity|]]]].
        * destruct I as [D H S']. split; cbn [b_cf b_heads b_sect]; [exact D|exact H|]. intros n N. inversion N; subst. left. reflexivity.
        * intros n H. split; [exact H|reflexivity].
      + assert (h <> DEFAULTSECT) as ND by (intros ->; rewrite (proj2 (str_eqb_iff DEFAULTSECT DEFAULTSECT) eq_refl) in Q; discriminate).
        eexists. split; [reflexivity|]. destruct (b_cf b) as [d ss] eqn:CF0. cbn [cf_defaults cf_sections] in *.
        split; [|split; [reflexivity|split; [reflexivity|split; [reflexivity|]]]].
        * destruct I as [D H S']. rewrite CF0 in *. split; cbn [b_cf b_heads b_sect].
          -- intros X. apply in_new in X as [X|X]; [exact (D X)|congruence].
          -- intros y [<-|Y]; apply in_new; [right; reflexivity|left; exact (H y Y)].
          -- intros n N. inversion N; subst. right. apply in_new. right. reflexivity.
        * intros n [->|H].
          -- split; [left; reflexivity|]. unfold sect. cbn. destruct I as [D _ _]. rewrite CF0 in D. unfold in_sec in D. cbn in D.
             rewrite (dget_app_new DEFAULTSECT h) by congruence. reflexivity.
          -- split; [right; apply in_new; left; exact H|]. unfold sect. cbn. assert (n <> h) as NH by (intros ->; unfold in_sec in H; cbn in H; congruence).
             rewrite (dget_app_new n h) by exact NH. reflexivity.
  Qed.
  Lemma opt_eqb_iff : forall a b, opt_eqb a b = true <-> a = b.
  Proof.
    intros [a1 a2] [b1 b2]. unfold opt_eqb. cbn. rewrite andb_true_iff, !str_eqb_iff. split; [intros [-> ->]; reflexivity|intros H; inversion H; split; reflexivity].
  Qed.
  Lemma opt_in : forall x l, existsb (opt_eqb x) l = true <-> In x l.
  Proof.
    intros x l. rewrite existsb_exists. split; [intros (y & I & E); apply opt_eqb_iff in E; subst; exact I|intros I; exists x; split; [exact I|apply opt_eqb_iff; reflexivity]].
  Qed.
  Lemma sect_other : forall cf n x m, ~ in_sec cf DEFAULTSECT -> has cf n -> has cf m -> m <> n -> sect (set_sect cf n x) m = sect cf m.
  Proof.
    intros cf n x m D HN HM NE. unfold sect, set_sect. destruct (dget str_eqb n (cf_sections cf)) eqn:E; cbn.
    - rewrite (dget_dset_other str_eqb str_eqb_iff) by exact NE. reflexivity.
    - destruct (dget str_eqb m (cf_sections cf)) eqn:E'; [reflexivity|]. exfalso. apply NE.
      destruct HN as [->|HN]; [|unfold in_sec in HN; congruence]. destruct HM as [->|HM]; [reflexivity|unfold in_sec in HM; congruence].
  Qed.
  Lemma bopt_ok : forall b n o vs, inv b -> b_sect b = Some n ->
    bopt lower b o vs = CErr CDuplicateOption /\ In (n, lower o) (b_opts b)
    \/ ~ In (n, lower o) (b_opts b) /\ exists b', bopt lower b o vs = COk b' /\ inv b' /\ b_sect b' = Some n
       /\ b_opts b' = (n, lower o) :: b_opts b /\ b_heads b' = b_heads b
       /\ (forall m, has (b_cf b) m -> has (b_cf b') m
             /\ forall x, dget str_eqb x (sect (b_cf b') m) =
                  if opt_eqb (n, lower o) (m, x) then Some (VLines vs) else dget str_eqb x (sect (b_cf b) m)).
  Proof.
    intros b n o vs I S. unfold bopt. rewrite S. destruct (existsb (opt_eqb (n, lower o)) (b_opts b)) eqn:E.
    - left. split; [reflexivity|apply opt_in; exact E].
    - right. split; [intros X; apply opt_in in X; congruence|]. eexists. split; [reflexivity|].
      split; [|split; [reflexivity|split; [reflexivity|split; [reflexivity|]]]].
      + destruct I as [D H S']. split; cbn [b_cf b_heads b_sect].
        * rewrite in_set. exact D.
        * intros h X. apply in_set. exact (H h X).
        * intros m M. inversion M; subst m. destruct (S' n S) as [->|X]; [left; reflexivity|right; apply in_set; exact X].
      + intros m HM. cbn. split; [destruct HM as [->|X]; [left; reflexivity|right; apply in_set; exact X]|]. intros x.
        destruct (str_eqb m n) eqn:Q.
        * apply str_eqb_iff in Q. subst m. rewrite sect_set. unfold opt_eqb. cbn. rewrite (proj2 (str_eqb_iff n n) eq_refl). cbn.
          destruct (str_eqb (lower o) x) eqn:Q2.
          -- apply str_eqb_iff in Q2. subst x. apply (dget_dset_same str_eqb str_eqb_iff).
          -- apply (dget_dset_other str_eqb str_eqb_iff). intros ->. rewrite (proj2 (str_eqb_iff _ _) eq_refl) in Q2. discriminate.
        * assert (m <> n) as NE by (intros ->; rewrite (proj2 (str_eqb_iff n n) eq_refl) in Q; discriminate).
          rewrite (sect_other (b_cf b) n _ m (inv_def b I) (inv_sect b I n S) HM NE). unfold opt_eqb. cbn.
          destruct (str_eqb n m) eqn:Q3; [apply str_eqb_iff in Q3; congruence|reflexivity].
  Qed.

  (** the last value of an option *)
  Fixpoint assigned (cu : str) (bs : list block) (s o : str) : option (list str) :=
    match bs with
    | [] => None
    | Head h :: bs => assigned h bs s o
    | Opt n vs :: bs =>
        match assigned cu bs s o with
        | Some x => Some x
        | None => if opt_eqb (cu, lower n) (s, o) then Some vs else None
        end
    end.
  Definition no_fault (b : bst) (bs : list block) : Prop :=
    (b_sect b = None -> match bs with Opt _ _ :: _ => False | _ => True end)
    /\ NoDup (heads bs) /\ (forall h, In h (heads bs) -> ~ In h (b_heads b))
    /\ NoDup (names lower (cur b) bs) /\ (forall x, In x (names lower (cur b) bs) -> ~ In x (b_opts b)).
  Lemma bfold_ok : forall bs b, inv b -> no_fault b bs -> exists b', bfold bs b = COk b' /\ inv b'
    /\ forall m, has (b_cf b) m -> has (b_cf b') m
         /\ forall x, dget str_eqb x (sect (b_cf b') m) =
              match assigned (cur b) bs m x with Some vs => Some (VLines vs) | None => dget str_eqb x (sect (b_cf b) m) end.
  Proof.
    induction bs as [|[h|o vs] bs IH]; intros b I (F1 & F2 & F3 & F4 & F5); cbn [cfoldM].
    - exists b. split; [reflexivity|]. split; [exact I|]. intros m H. split; [exact H|]. intros x. reflexivity.
    - cbn [bstep heads names] in *. destruct (bhead_ok b h I) as [(_ & X & ND)|(NI & b1 & E & I1 & S1 & O1 & H1 & K1)].
      { exfalso. apply (F3 h); [|exact X]. destruct (str_eqb h (u "DEFAULT")) eqn:Q; [apply str_eqb_iff in Q; unfold DEFAULTSECT in ND; congruence|left; reflexivity]. }
      rewrite E. cbn [cbind]. assert (cur b1 = h) as C1 by (unfold cur; rewrite S1; reflexivity).
      destruct (IH b1 I1) as (b' & E' & I' & K').
      { split; [intros X; congruence|]. unfold DEFAULTSECT in H1. destruct (str_eqb h (u "DEFAULT")) eqn:Q.
        - split; [exact F2|]. split; [rewrite H1; exact F3|]. rewrite C1, O1. split; [exact F4|exact F5].
        - inversion F2 as [|y0 ys0 F21 F22]; subst y0 ys0. split; [exact F22|]. split; [|rewrite C1, O1; split; [exact F4|exact F5]]. rewrite H1. intros y Y [<-|Z]; [contradiction|].
          exact (F3 y (or_intror Y) Z). }
      exists b'. split; [exact E'|]. split; [exact I'|]. intros m HM. destruct (K1 m HM) as [HM1 SE]. destruct (K' m HM1) as [HM' V]. split; [exact HM'|].
      intros x. rewrite V, C1, SE. reflexivity.
    - cbn [bstep heads names assigned] in *. destruct (b_sect b) as [n|] eqn:SB; [|exfalso; exact (F1 eq_refl)].
      assert (cur b = n) as C0 by (unfold cur; rewrite SB; reflexivity). rewrite C0 in *.
      destruct (bopt_ok b n o vs I SB) as [(_ & X)|(NI & b1 & E & I1 & S1 & O1 & H1 & K1)].
      { exfalso. exact (F5 _ (or_introl eq_refl) X). }
      rewrite E. cbn [cbind]. assert (cur b1 = n) as C1 by (unfold cur; rewrite S1; reflexivity). inversion F4 as [|y ys F41 F42]; subst y ys.
      destruct (IH b1 I1) as (b' & E' & I' & K').
      { split; [intros X; congruence|]. split; [exact F2|]. split; [rewrite H1; exact F3|]. rewrite C1, O1. split; [exact F42|].
        intros x X [<-|Z]; [contradiction|]. exact (F5 x (or_intror X) Z). }
      exists b'. split; [exact E'|]. split; [exact I'|]. intros m HM. destruct (K1 m HM) as [HM1 V1]. destruct (K' m HM1) as [HM' V]. split; [exact HM'|].
      intros x. rewrite V, C1, V1. destruct (assigned n bs m x); [reflexivity|]. destruct (opt_eqb (n, lower o) (m, x)); reflexivity.
  Qed.
  Lemma bfold_fault : forall bs b b', inv b -> bfold bs b = COk b' -> no_fault b bs.
  Proof.
    induction bs as [|[h|o vs] bs IH]; intros b b' I E; cbn [cfoldM] in E.
    - split; [intros _; exact Logic.I|]. split; [constructor|]. split; [intros h []|]. split; [constructor|intros x []].
    - cbn [bstep] in E. destruct (bhead_ok b h I) as [(X & _ & _)|(NI & b1 & E1 & I1 & S1 & O1 & H1 & K1)]; [rewrite X in E; discriminate|].
      rewrite E1 in E. cbn [cbind] in E. destruct (IH b1 b' I1 E) as (_ & F2 & F3 & F4 & F5). assert (cur b1 = h) as C1 by (unfold cur; rewrite S1; reflexivity).
      rewrite C1, O1 in *. rewrite H1 in F3. unfold DEFAULTSECT in F3. unfold no_fault. cbn [heads names].
      split; [intros _; exact Logic.I|]. destruct (str_eqb h (u "DEFAULT")).
      + repeat split; assumption.
      + split; [constructor; [|exact F2]; intros X; exact (F3 h X (or_introl eq_refl))|]. split; [|split; [exact F4|exact F5]].
        intros y [<-|Y]; [exact NI|]. intros Z. exact (F3 y Y (or_intror Z)).
    - cbn [bstep] in E. destruct (b_sect b) as [n|] eqn:SB; [|unfold bopt in E; rewrite SB in E; discriminate].
      assert (cur b = n) as C0 by (unfold cur; rewrite SB; reflexivity).
      destruct (bopt_ok b n o vs I SB) as [(X & _)|(NI & b1 & E1 & I1 & S1 & O1 & H1 & K1)]; [rewrite X in E; discriminate|].
      rewrite E1 in E. cbn [cbind] in E. destruct (IH b1 b' I1 E) as (_ & F2 & F3 & F4 & F5). assert (cur b1 = n) as C1 by (unfold cur; rewrite S1; reflexivity).
      rewrite C1, O1 in *. rewrite H1 in F3. unfold no_fault. rewrite C0. cbn [heads names]. split; [congruence|]. split; [exact F2|]. split; [exact F3|]. split.
      + constructor; [|exact F4]. intros X. exact (F5 _ X (or_introl eq_refl)).
      + intros x [<-|X]; [exact NI|]. intros Z. exact (F5 x X (or_intror Z)).
  Qed.

  (** ** Values *)
  Lemma value_iff : forall vs w, value vs w <-> rskip uspace (join [10%N] vs) = w.
  Proof.
    intros vs w. unfold value. split.
    - intros (b & E & W & N). rewrite E. apply rskip_white; assumption.
    - intros <-. destruct (rskip_split uspace (join [10%N] vs)) as (b & E & W). exists b. split; [exact E|]. split; [apply white_iff; exact W|apply rskip_no_end].
  Qed.
  Lemma assigned_names : forall bs cu s o vs, assigned cu bs s o = Some vs -> In (s, o) (names lower cu bs).
  Proof.
    induction bs as [|[h|n vs0] bs IH]; intros cu s o vs H; cbn in *; [discriminate|exact (IH _ _ _ _ H)|].
    destruct (assigned cu bs s o) as [x|] eqn:E; [right; exact (IH _ _ _ _ E)|]. destruct (opt_eqb (cu, lower n) (s, o)) eqn:Q; [|discriminate].
    left. apply opt_eqb_iff. exact Q.
  Qed.
  Lemma sets_names : forall cu bs s o w, sets lower cu bs s o w -> In (s, o) (names lower cu bs).
  Proof. induction 1; cbn; [assumption|left; reflexivity|right; assumption]. Qed.
  Lemma assigned_sets : forall bs cu s o w, NoDup (names lower cu bs) ->
    (sets lower cu bs s o w <-> exists vs, assigned cu bs s o = Some vs /\ value vs w).
  Proof.
    induction bs as [|[h|n vs0] bs IH]; intros cu s o w ND; cbn [assigned names] in *.
    - split; [intros H; inversion H|intros (vs & E & _); discriminate].
    - rewrite <- (IH h s o w ND). split; intros H; [inversion H; subst; assumption|constructor; exact H].
    - inversion ND as [|y ys N1 N2]; subst. split.
      + intros H. inversion H; subst.
        * destruct (assigned s bs s (lower n)) as [x|] eqn:E; [exfalso; apply N1; exact (assigned_names _ _ _ _ _ E)|].
          rewrite (proj2 (opt_eqb_iff (s, lower n) (s, lower n)) eq_refl). exists vs0. split; [reflexivity|assumption].
        * match goal with X : sets lower cu bs s o w |- _ => apply (IH cu s o w N2) in X as (vs & E & V) end. exists vs. rewrite E. split; [reflexivity|exact V].
      + intros (vs & E & V). destruct (assigned cu bs s o) as [x|] eqn:E'.
        * inversion E; subst x. apply sets_later. apply (IH cu s o w N2). exists vs. split; assumption.
        * destruct (opt_eqb (cu, lower n) (s, o)) eqn:Q; [|discriminate]. inversion E; subst vs0. apply opt_eqb_iff in Q. inversion Q; subst. apply sets_here. exact V.
  Qed.

  (** ** The configuration that the package comes with *)
  Definition cf0 : config := CF [] [(u "make", [(mcn_name, VStr (u "3"))])].
  Lemma lower_mcn : lower (u "min_cluster_num") = mcn_name.
  Proof. rewrite (proj1 LW). - vm_compute. reflexivity. - repeat constructor. Qed.
  Lemma default_ok : default_config lower = COk cf0.
  Proof.
    assert (default_config lower = COk (CF [] [(u "make", [(lower (u "min_cluster_num"), VStr (u "3"))])])) as E by (vm_compute; reflexivity).
    rewrite E, lower_mcn. reflexivity.
  Qed.
  Definition b0 : bst := B cf0 [] [] None.
  Lemma inv0 : inv b0.
  Proof. split; cbn; [intros H; exact (H eq_refl)|intros h []|intros n H; discriminate]. Qed.
  Lemma proper_fault : forall bs, proper lower bs <-> no_fault b0 bs.
  Proof.
    intros bs. unfold proper, no_fault, b0, cur. cbn [b_sect b_heads b_opts]. split.
    - intros (A & N1 & N2). repeat split; try assumption; [intros _; exact A|intros h _ []|intros x _ []].
    - intros (A & N1 & _ & N2 & _). split; [exact (A eq_refl)|]. split; assumption.
  Qed.

  Definition env (cf : config) : str -> option str := lookup cf (match dget str_eqb (u "make") (cf_sections cf) with Some s => s | None => [] end).
  Lemma read_known : forall bs, proper lower bs -> exists b', bfold bs b0 = COk b'
    /\ in_sec (join_config (b_cf b')) (u "make")
    /\ forall o w, env (join_config (b_cf b')) o = Some w <-> known lower bs o w.
  Proof.
    intros bs P. pose proof P as P0. apply proper_fault in P. destruct (bfold_ok bs b0 inv0 P) as (b' & E & I' & K). exists b'. split; [exact E|].
    destruct (K (u "make")) as [HM VM]; [right; cbn; discriminate|]. destruct (K (u "DEFAULT")) as [HD VD]; [left; reflexivity|].
    destruct HM as [HM|HM]; [vm_compute in HM; discriminate|].
    assert (forall n, dget str_eqb n (cf_sections (join_config (b_cf b'))) = option_map join_sect (dget str_eqb n (cf_sections (b_cf b')))) as J.
    { intros n. unfold join_config. cbn [cf_sections]. apply dget_map. }
    split.
    { unfold in_sec in *. rewrite J. destruct (dget str_eqb (u "make") (cf_sections (b_cf b'))); [discriminate|congruence]. }
    intros o w. unfold env. rewrite J. unfold in_sec in HM. unfold sect in VM. destruct (dget str_eqb (u "make") (cf_sections (b_cf b'))) as [sm|]; [|congruence].
    cbn [option_map]. pose proof (inv_def b' I') as ND. unfold sect in VD. unfold in_sec, DEFAULTSECT in ND.
    destruct (dget str_eqb (u "DEFAULT") (cf_sections (b_cf b'))) eqn:DS; [exfalso; apply ND; discriminate|].
    destruct P0 as (_ & _ & N). change (cur b0) with (@nil char) in VM, VD. specialize (VM o). specialize (VD o).
    unfold lookup, join_sect, join_config. cbn [cf_defaults]. rewrite dget_map, VM. unfold join_sect. rewrite dget_map, VD. unfold known.
    pose proof (assigned_sets bs [] (u "make") o) as AM. pose proof (assigned_sets bs [] (u "DEFAULT") o) as AD.
    destruct (assigned [] bs (u "make") o) as [vs|] eqn:EM.
    - cbn [option_map join_val val_str]. split.
      + intros H. inversion H; subst w. left. apply AM; [exact N|]. exists vs. split; [reflexivity|]. apply value_iff. reflexivity.
      + intros [H|(NO & _)].
        * apply AM in H as (vs' & E' & V); [|exact N]. inversion E'; subst vs'. apply value_iff in V. rewrite V. reflexivity.
        * exfalso. apply (NO (rskip uspace (join [10%N] vs))). apply AM; [exact N|]. exists vs. split; [reflexivity|]. apply value_iff. reflexivity.
    - assert (forall w', ~ sets lower [] bs (u "make") o w') as NO.
      { intros w' H. apply AM in H as (vs & E' & _); [discriminate|exact N]. }
      cbn [b0 b_cf]. unfold sect, cf0. cbn [cf_sections cf_defaults].
      cbn [dget]. change (str_eqb (u "make") (u "make")) with true. change (str_eqb (u "DEFAULT") (u "make")) with false. cbv iota.
      cbn [dget]. destruct (str_eqb o mcn_name) eqn:Q.
      + apply str_eqb_iff in Q. cbn [option_map join_val val_str]. split.
        * intros H. right. split; [exact NO|]. left. split; [exact Q|congruence].
        * intros [H|(_ & [(_ & ->)|(X & _)])]; [exfalso; exact (NO w H)|reflexivity|congruence].
      + assert (o <> mcn_name) as NQ by (intros ->; rewrite (proj2 (str_eqb_iff _ _) eq_refl) in Q; discriminate). cbn [option_map].
        destruct (assigned [] bs (u "DEFAULT") o) as [vs|] eqn:ED; cbn [option_map join_val val_str].
        * split.
          -- intros H. inversion H; subst w. right. split; [exact NO|]. right. split; [exact NQ|]. apply AD; [exact N|]. exists vs. split; [reflexivity|]. apply value_iff. reflexivity.
          -- intros [H|(_ & [(X & _)|(_ & H)])]; [exfalso; exact (NO w H)|congruence|]. apply AD in H as (vs' & E' & V); [|exact N]. inversion E'; subst vs'. apply value_iff in V. rewrite V. reflexivity.
        * split; [discriminate|]. intros [H|(_ & [(X & _)|(_ & H)])]; [exfalso; exact (NO w H)|congruence|]. apply AD in H as (vs' & E' & V); [discriminate|exact N].
  Qed.

  (** ** References *)
  Lemma until_iff : forall s a b, until_paren s = Some (a, b) <-> s = a ++ 41%N :: b /\ ~ In 41%N a.
  Proof.
    induction s as [|c s IH]; intros a b; cbn.
    - split; [discriminate|]. intros [E _]. destruct a; discriminate.
    - destruct (N.eqb_spec c 41) as [->|NE].
      + split; [intros H; inversion H; subst; split; [reflexivity|intros []]|]. intros [E N]. destruct a as [|x a]; cbn in E; inversion E; subst; [reflexivity|].
        exfalso. apply N. left. reflexivity.
      + split.
        * destruct (until_paren s) as [[a' b']|]; [|discriminate]. intros H. inversion H; subst. destruct (proj1 (IH a' b) eq_refl) as [-> N].
          split; [reflexivity|]. intros [X|X]; [congruence|exact (N X)].
        * intros [E N]. destruct a as [|x a]; cbn in E; inversion E; subst; [congruence|]. assert (until_paren (a ++ 41%N :: b) = Some (a, b)) as X.
          { apply IH. split; [reflexivity|]. intros Y. apply N. right. exact Y. }
          rewrite X. reflexivity.
  Qed.
  Lemma key_iff : forall s x r, key_ref s = Some (x, r) <-> s = 37%N :: 40%N :: x ++ 41%N :: 115%N :: r /\ x <> [] /\ ~ In 41%N x.
  Proof.
    intros s x r. unfold key_ref. split.
    - destruct s as [|a [|b q]]; try discriminate. destruct (N.eqb_spec a 37) as [->|]; [|discriminate]. destruct (N.eqb_spec b 40) as [->|]; [|discriminate].
      cbn [andb]. destruct (until_paren q) as [[n [|d rest]]|] eqn:U; [destruct n; intros X; discriminate X| |intros X; discriminate X].
      destruct n as [|c n]; [discriminate|]. destruct (N.eqb_spec d 115) as [->|]; [|discriminate]. intros H. inversion H; subst. apply until_iff in U as [-> N].
      split; [reflexivity|]. split; [discriminate|exact N].
    - intros (-> & NE & N). assert (until_paren (x ++ 41%N :: 115%N :: r) = Some (x, 115%N :: r)) as X by (apply until_iff; split; [reflexivity|exact N]).
      cbn [N.eqb Pos.eqb andb]. rewrite X. destruct x; [congruence|]. reflexivity.
  Qed.
  Lemma loop_fuel : forall en d n s, (length s <= n)%nat -> interp_loop lower en d n s = interp_loop lower en d (length s) s.
  Proof.
    intros en d. induction n as [n IH] using lt_wf_ind. intros s L. destruct s as [|c r]; [destruct n; reflexivity|].
    destruct n as [|n]; [cbn in L; lia|]. cbn [length] in *. cbn [interp_loop].
    assert (forall q, (length q <= length r)%nat -> interp_loop lower en d n q = interp_loop lower en d (length r) q) as A.
    { intros q Q. destruct (Nat.eq_dec n (length r)) as [->|NE]; [reflexivity|].
      rewrite (IH n ltac:(lia) q ltac:(lia)). destruct (Nat.eq_dec (length q) (length r)) as [E|NE2]; [rewrite E; reflexivity|].
      symmetry. apply IH; lia. }
    destruct (negb (c =? 37)%N); [rewrite (A r (Nat.le_refl _)); reflexivity|]. destruct r as [|x r']; [reflexivity|].
    destruct (x =? 37)%N; [rewrite (A r'); [reflexivity|cbn; lia]|]. destruct (x =? 40)%N; [|reflexivity].
    destruct (key_ref (c :: x :: r')) as [[nm rest]|] eqn:K; [|reflexivity]. destruct (en (lower nm)) as [v|]; [|reflexivity].
    apply key_iff in K as (E & _ & _). rewrite (A rest); [reflexivity|]. inversion E; subst. cbn. rewrite app_length. cbn. lia.
  Qed.
  Lemma char_in_iff : forall c s, char_in c s = true <-> In c s.
  Proof.
    intros c s. unfold char_in. rewrite existsb_exists. split; [intros (y & I & E); apply N.eqb_eq in E; subst; exact I|intros I; exists c; split; [exact I|apply N.eqb_refl]].
  Qed.
  Section Interp.
    Context (en : str -> option str) (R : str -> str -> Prop) (EN : forall o w, en o = Some w <-> R o w).
    Lemma expands_interp : forall n s t, expands lower R n s t -> interpolate lower en (Datatypes.S n) s = COk t.
    Proof.
      assert (forall n s, interpolate lower en (Datatypes.S n) s = interp_loop lower en (interpolate lower en n) (length s) s) as U by reflexivity.
      induction 1 as [n|n c s t NE H IH|n s t H IH|n x v s t NX NI RV NP H IH|n x v w s t NX NI RV IP H1 IH1 H2 IH2]; rewrite U in *.
      - reflexivity.
      - cbn [length interp_loop]. destruct (N.eqb_spec c 37) as [->|_]; [congruence|]. cbn [negb]. rewrite IH. reflexivity.
      - assert (forall d f, interp_loop lower en d (Datatypes.S f) ([37%N; 37%N] ++ s) = cbind (interp_loop lower en d f s) (fun t => COk (37%N :: t))) as ST by reflexivity.
        change (length ([37%N; 37%N] ++ s)) with (Datatypes.S (Datatypes.S (length s))). rewrite ST. rewrite (loop_fuel en _ (Datatypes.S (length s)) s) by lia. rewrite IH. reflexivity.
      - set (q := [37%N; 40%N] ++ x ++ [41%N; 115%N] ++ s). assert (key_ref q = Some (x, s)) as K by (apply key_iff; split; [reflexivity|split; assumption]).
        assert (exists f, length q = Datatypes.S f /\ (length s <= f)%nat) as (f & LF & LE).
        { exists (length (40%N :: x ++ 41%N :: 115%N :: s)). split; [reflexivity|]. cbn [length]. rewrite app_length. cbn [length]. unfold char in *. lia. }
        transitivity (interp_loop lower en (interpolate lower en n) (Datatypes.S f) q); [f_equal; exact LF|]. assert (interp_loop lower en (interpolate lower en n) (Datatypes.S f) q = match key_ref q with None => CErr CSyntax | Some (nm, rest') =>
            match en (lower nm) with None => CErr CMissingOption | Some v => cbind (if char_in 37%N v then interpolate lower en n v else COk v) (fun x => cbind (interp_loop lower en (interpolate lower en n) f rest') (fun t => COk (x ++ t))) end end) as ST by reflexivity.
        rewrite ST, K.
        apply EN in RV. rewrite RV. destruct (char_in 37%N v) eqn:CI; [exfalso; apply NP; apply char_in_iff; exact CI|]. cbn [cbind].
        rewrite (loop_fuel en _ f s LE). rewrite IH. reflexivity.
      - set (q := [37%N; 40%N] ++ x ++ [41%N; 115%N] ++ s). assert (key_ref q = Some (x, s)) as K by (apply key_iff; split; [reflexivity|split; assumption]).
        assert (exists f, length q = Datatypes.S f /\ (length s <= f)%nat) as (f & LF & LE).
        { exists (length (40%N :: x ++ 41%N :: 115%N :: s)). split; [reflexivity|]. cbn [length]. rewrite app_length. cbn [length]. unfold char in *. lia. }
        transitivity (interp_loop lower en (interpolate lower en (Datatypes.S n)) (Datatypes.S f) q); [f_equal; exact LF|]. assert (interp_loop lower en (interpolate lower en (Datatypes.S n)) (Datatypes.S f) q = match key_ref q with None => CErr CSyntax | Some (nm, rest') =>
            match en (lower nm) with None => CErr CMissingOption | Some v => cbind (if char_in 37%N v then interpolate lower en (Datatypes.S n) v else COk v) (fun x => cbind (interp_loop lower en (interpolate lower en (Datatypes.S n)) f rest') (fun t => COk (x ++ t))) end end) as ST by reflexivity.
        rewrite ST, K.
        apply EN in RV. rewrite RV. rewrite (proj2 (char_in_iff 37%N v) IP). rewrite U. rewrite IH1. cbn [cbind].
        rewrite (loop_fuel en _ f s LE). rewrite IH2. reflexivity.
    Qed.
    Lemma interp_expands : forall n s t, interpolate lower en (Datatypes.S n) s = COk t -> expands lower R n s t.
    Proof.
      induction n as [|n IHn]; intros s t H; cbn [interpolate] in H; revert H; generalize (length s) as fuel.
      all: intros fuel; revert s t; induction fuel as [|fuel IH]; intros s t H.
      - cbn in H. destruct s; [|discriminate]. inversion H; subst. constructor.
      - cbn [interp_loop] in H. destruct s as [|c r]; [inversion H; subst; constructor|]. destruct (N.eqb_spec c 37) as [->|NE]; cbn [negb] in H.
        2:{ destruct (interp_loop lower en _ fuel r) as [t0|] eqn:E; [|discriminate]. inversion H; subst. apply ex_char; [exact NE|exact (IH _ _ E)]. }
        destruct r as [|d r']; [discriminate|]. destruct (N.eqb_spec d 37) as [->|ND].
        { destruct (interp_loop lower en _ fuel r') as [t0|] eqn:E; [|discriminate]. inversion H; subst. apply (ex_percent lower R 0 r' t0). exact (IH _ _ E). }
        destruct (N.eqb_spec d 40) as [->|]; [|discriminate]. match type of H with context [key_ref ?q] => destruct (key_ref q) as [[x rest]|] eqn:K end; [|discriminate].
        destruct (en (lower x)) as [v|] eqn:EV; [|discriminate]. apply key_iff in K as (-> & NX & NI). apply EN in EV.
        destruct (char_in 37%N v) eqn:CI; [discriminate|]. cbn [cbind] in H.
        destruct (interp_loop lower en _ fuel rest) as [t0|] eqn:E; [|discriminate]. inversion H; subst.
        apply (ex_plain lower R 0 x v rest t0 NX NI EV); [intros X; apply char_in_iff in X; congruence|exact (IH _ _ E)].
      - cbn in H. destruct s; [|discriminate]. inversion H; subst. constructor.
      - cbn [interp_loop] in H. destruct s as [|c r]; [inversion H; subst; constructor|]. destruct (N.eqb_spec c 37) as [->|NE]; cbn [negb] in H.
        2:{ destruct (interp_loop lower en _ fuel r) as [t0|] eqn:E; [|discriminate]. inversion H; subst. apply ex_char; [exact NE|exact (IH _ _ E)]. }
        destruct r as [|d r']; [discriminate|]. destruct (N.eqb_spec d 37) as [->|ND].
        { destruct (interp_loop lower en _ fuel r') as [t0|] eqn:E; [|discriminate]. inversion H; subst. apply (ex_percent lower R (Datatypes.S n) r' t0). exact (IH _ _ E). }
        destruct (N.eqb_spec d 40) as [->|]; [|discriminate]. match type of H with context [key_ref ?q] => destruct (key_ref q) as [[x rest]|] eqn:K end; [|discriminate].
        destruct (en (lower x)) as [v|] eqn:EV; [|discriminate]. apply key_iff in K as (-> & NX & NI). apply EN in EV.
        destruct (char_in 37%N v) eqn:CI.
        + destruct (interp_loop lower en (interpolate lower en n) (length v) v) as [w|] eqn:EW; [|discriminate]. cbn [cbind] in H.
          match type of H with context [interp_loop lower en ?dd fuel rest] => destruct (interp_loop lower en dd fuel rest) as [t0|] eqn:E end; [|discriminate].
          inversion H; subst. apply (ex_ref lower R n x v w rest t0 NX NI EV); [apply char_in_iff; exact CI|exact (IHn v w EW)|exact (IH _ _ E)].
        + cbn [cbind] in H.
          match type of H with context [interp_loop lower en ?dd fuel rest] => destruct (interp_loop lower en dd fuel rest) as [t0|] eqn:E end; [|discriminate].
          inversion H; subst. apply (ex_plain lower R (Datatypes.S n) x v rest t0 NX NI EV); [intros X; apply char_in_iff in X; congruence|exact (IH _ _ E)].
    Qed.
  End Interp.

  (** ** getint after a file has been read *)
  Lemma read_says : forall lines bs, layout lines bs -> proper lower bs -> exists cf, read_config lower cf0 lines = COk cf
    /\ forall z, getint lower cf (u "make") (u "min_cluster_num") = COk z <-> says lower bs z.
  Proof.
    intros lines bs L P. destruct (read_known bs P) as (b' & E & IM & K). exists (join_config (b_cf b')).
    split; [rewrite (read_layout lower LW cf0 lines bs L); fold b0; rewrite E; reflexivity|]. intros z. unfold getint, get, says. rewrite lower_mcn.
    unfold in_sec in IM. unfold env in K. destruct (dget str_eqb (u "make") (cf_sections (join_config (b_cf b')))) as [sm|]; [|congruence].
    set (lk := lookup (join_config (b_cf b')) sm) in *. split.
    - destruct (lk mcn_name) as [w|] eqn:W; [|discriminate]. destruct (interpolate lower lk 10 w) as [t|] eqn:IT; [|discriminate]. cbn [cbind]. intros D.
      exists w, t. split; [apply K; exact W|]. split; [apply (interp_expands lk _ K); exact IT|apply py_int_iff; exact D].
    - intros (w & t & KW & EX & D). apply K in KW. rewrite KW. rewrite (expands_interp lk _ K 9 w t EX). cbn [cbind]. apply py_int_iff. exact D.
  Qed.
  Lemma read_proper : forall lines bs cf, layout lines bs -> read_config lower cf0 lines = COk cf -> proper lower bs.
  Proof.
    intros lines bs cf L E. apply proper_fault.
    rewrite (read_layout lower LW cf0 lines bs L) in E. fold b0 in E. destruct (bfold bs b0) as [b'|] eqn:F; [|discriminate]. exact (bfold_fault bs b0 b' inv0 F).
  Qed.
  Lemma read_refused : forall lines, (forall bs, layout lines bs -> ~ proper lower bs) -> exists e, read_config lower cf0 lines = CErr e.
  Proof.
    intros lines H. destruct (read_config lower cf0 lines) as [cf|e] eqn:E; [|exists e; reflexivity]. exfalso.
    destruct (layout_read lower LW cf0 lines cf E) as (bs & L). exact (H bs L (read_proper lines bs cf L E)).
  Qed.
  Lemma getint0 : getint lower cf0 (u "make") (u "min_cluster_num") = COk 3%Z.
  Proof. unfold getint, get. rewrite lower_mcn. vm_compute. reflexivity. Qed.

  (** ** pattern-make *)
  Lemma conf_maker_ok : forall cf mk z, getint lower cf (u "make") (u "min_cluster_num") = COk z -> conf_maker_make lower cf mk = run (maker_make z mk).
  Proof.
    intros cf mk z G. unfold conf_maker_make. destruct (t_cnt (mk_root mk) <=? 0)%Z eqn:C; [|rewrite G; reflexivity].
    unfold maker_make, cluster. cbn [cluster_n cluster_loop]. rewrite C. reflexivity.
  Qed.
  Lemma cmap_run : forall {A B} (f : A -> cres B) (g : A -> res B) l, (forall x, f x = run (g x)) -> cmapM f l = run (mapM g l).
  Proof.
    intros A B f g l H. induction l as [|x l IH]; [reflexivity|]. cbn. rewrite H. destruct (g x); [|reflexivity]. cbn. rewrite IH. destruct (mapM g l); reflexivity.
  Qed.
  Lemma conf_process_ok : forall cf f st z, getint lower cf (u "make") (u "min_cluster_num") = COk z -> conf_process lower cf f st = run (make_process z f st).
  Proof.
    intros cf f st z G. unfold conf_process, conf_make, make_process, make.
    rewrite (cmap_run _ (fun sm => ts <- maker_make z (snd sm) ;; Ok (map (fun t => (mk_meta (snd sm), t)) ts)))
      by (intros sm; rewrite (conf_maker_ok cf (snd sm) z G); destruct (maker_make z (snd sm)); reflexivity).
    destruct (mapM _ st) as [rs|]; [|reflexivity]. cbn [run cbind bind]. destruct (mapM _ (List.concat rs)); reflexivity.
  Qed.
  Lemma conf_ete_ok : forall ga cf st z, getint lower cf (u "make") (u "min_cluster_num") = COk z -> conf_ete_process lower ga cf st = run (ete_process ga z st).
  Proof.
    intros ga cf st z G. unfold conf_ete_process, ete_process, maker_combine.
    rewrite (cmap_run _ (fun sm => root <- (cs <- maker_make z (snd sm) ;; foldM combine_one cs (CT [] 0 [])) ;;
                        es <- fmt_ete (mk_meta (snd sm)) root ;; Ok (map ga es))).
    - destruct (mapM _ st); reflexivity.
    - intros sm. rewrite (conf_maker_ok cf (snd sm) z G). destruct (maker_make z (snd sm)) as [cs|]; [|reflexivity]. cbn [run cbind bind].
      destruct (foldM combine_one cs (CT [] 0 [])) as [root|]; [|reflexivity]. cbn [run cbind bind]. destruct (fmt_ete (mk_meta (snd sm)) root); reflexivity.
  Qed.
  Lemma first_bad : forall cf nv h e, getint lower cf (u "make") (u "min_cluster_num") = CErr e -> forall sid mk, In (sid, mk) (loads nv h) ->
    conf_maker_make lower cf mk = CErr e.
  Proof.
    intros cf nv h e G sid mk I. destruct (maker_facts nv h sid mk I) as (raw0 & F). pose proof (mf_tok _ _ _ _ _ F) as (_ & W & _). pose proof (wft_pos _ _ W) as P.
    unfold conf_maker_make. destruct (Z.leb_spec (t_cnt (mk_root mk)) 0) as [X|_]; [exfalso; lia|]. rewrite G. reflexivity.
  Qed.
  Lemma bad_process : forall cf f nv h e, getint lower cf (u "make") (u "min_cluster_num") = CErr e ->
    conf_process lower cf f (loads nv h) = match loads nv h with [] => COk [] | _ => CErr e end.
  Proof.
    intros cf f nv h e G. pose proof (first_bad cf nv h e G) as B. unfold conf_process, conf_make. destruct (loads nv h) as [|[sid mk] st]; [reflexivity|].
    cbn [cmapM snd]. rewrite (B sid mk (or_introl eq_refl)). reflexivity.
  Qed.
  Lemma bad_ete : forall ga cf nv h e, getint lower cf (u "make") (u "min_cluster_num") = CErr e ->
    conf_ete_process lower ga cf (loads nv h) = match loads nv h with [] => COk [] | _ => CErr e end.
  Proof.
    intros ga cf nv h e G. pose proof (first_bad cf nv h e G) as B. unfold conf_ete_process. destruct (loads nv h) as [|[sid mk] st]; [reflexivity|].
    cbn [cmapM snd]. rewrite (B sid mk (or_introl eq_refl)). reflexivity.
  Qed.
End Sem.
