(** Proofs about generators that are closed. *)
From Coq Require Import String.
From Verif Require Import PyStr Defs UrlLib ParseUtils Spec Trees Cluster Patterns Matcher Maker Observe AnySpec LocalSpec LazySpec Heap HeapSpec HCluster HMakeSpec Lazy LazyProofs HLazy HLazySpec HLazyTop HClose HCloseSpec.
From Coq Require Import Lia.

Fixpoint closed_in (closed : list nat) (es : list cuse) : list nat :=
  match es with
  | [] => closed
  | CClose i :: r => closed_in (i :: closed) r
  | _ :: r => closed_in closed r
  end.
Lemma closed_iff : forall es c i, In i (closed_in c es) <-> In i c \/ In (CClose i) es.
Proof.
  induction es as [|[e|j] es IH]; intros c i; cbn [closed_in In].
  - tauto.
  - rewrite IH. split; [tauto|]. intros [X|[X|X]]; [auto|discriminate X|auto].
  - rewrite IH. cbn [In]. split; [intros [[->|X]|X]; auto|intros [X|[X|X]]; [auto|injection X as ->; auto|auto]].
Qed.
Lemma going_app : forall es log c es' log', length es = length log ->
  going c (combine (es ++ es') (log ++ log')) = going c (combine es log) ++ going (closed_in c es) (combine es' log').
Proof.
  induction es as [|e es IH]; intros [|x log] c es' log' L; try discriminate L; [reflexivity|]. injection L as L.
  cbn [app combine going closed_in]. destruct e as [e|i]; [|apply IH; exact L].
  destruct x as [x|]; [|destruct e; apply IH; exact L].
  destruct e as [url me|a|b|i]; cbn [app]; try (f_equal; apply IH; exact L).
  destruct (existsb (Nat.eqb i) c); [apply IH; exact L|cbn [app]; f_equal; apply IH; exact L].
Qed.
Lemma exb_In : forall i l, existsb (Nat.eqb i) l = true <-> In i l.
Proof.
  intros i l. rewrite existsb_exists. split; [intros (x & X & E); apply Nat.eqb_eq in E; subst; exact X|intros X; exists i; split; [exact X|apply Nat.eqb_refl]].
Qed.
Lemma cmakes_app : forall a b, cmakes (a ++ b) = cmakes a + cmakes b.
Proof. intros. unfold cmakes. rewrite filter_app, app_length. reflexivity. Qed.

Definition ended (g : hagen) : Prop := g = HPlain HGEnd \/ g = HCombined CEnd.
Lemma hclose_ended : forall g, ended (hclose g).
Proof. intros [g|g]; [left|right]; reflexivity. Qed.
Lemma ended_next : forall mcn st g st' g' o, ended g -> hanext mcn st g st' g' o -> st' = st /\ g' = g /\ o = HStop.
Proof.
  intros mcn st g st' g' o [->| ->] X; inversion X as [? ? ? ? Y|? ? ? ? Y]; subst.
  - inversion Y as [? ? ? ? ? Z|? ? ? ? ? ? ? Z]; subst; cbn [hstep] in Z; [injection Z as <- <- <-; auto|discriminate Z].
  - cbn [hcnext] in Y. injection Y as <- <- <-. auto.
Qed.
Lemma ended_can : forall mcn st g, ended g -> hanext mcn st g st g HStop.
Proof. intros mcn st g [->| ->]; [apply han_plain, hnext_now; reflexivity|apply han_combined; reflexivity]. Qed.

(** the generators [gs], those of [c] closed, and [gs'], none closed *)
Definition alike (c : list nat) (gs gs' : list hagen) : Prop :=
  length gs = length gs' /\ (forall i, ~ In i c -> nth_error gs i = nth_error gs' i) /\ (forall i g, In i c -> nth_error gs i = Some g -> ended g)
  /\ forall i, In i c -> i < length gs.
Section C.
  Context (nv : str -> bool) (mcn : Z).
  Lemma nth_lt : forall A (l : list A) i x, nth_error l i = Some x -> i < length l.
  Proof. intros A l i x E. apply nth_error_Some. rewrite E. discriminate. Qed.
  Lemma cuses_going : forall es st gs log, cuses nv mcn es st gs log -> length es = length log /\ length gs = cmakes es /\
    exists gs', alike (closed_in [] es) gs gs' /\ huses nv mcn (map fst (going [] (combine es log))) st gs' (map snd (going [] (combine es log))).
  Proof.
    assert (CI : forall c es e, closed_in c (es ++ [CUse e]) = closed_in c es)
      by (intros c es; revert c; induction es as [|[y|y] es IH]; intros c e; cbn [app closed_in]; auto).
    assert (CC : forall c es i, closed_in c (es ++ [CClose i]) = i :: closed_in c es)
      by (intros c es; revert c; induction es as [|[y|y] es IH]; intros c i; cbn [app closed_in]; auto).
    intros es st gs log U. induction U as
      [|es st gs log url meta st' r U IH E|es st gs log a H' r U IH E|es st gs log b U IH|es st gs log i g st' g' o U IH G N|es st gs log i g U IH G].
    { split; [reflexivity|]. split; [reflexivity|]. exists []. split; [|constructor].
      split; [reflexivity|]. split; [reflexivity|]. split; [intros i g []|intros i []]. }
    all: destruct IH as (L & LG & gs' & AL & HU); split; [rewrite !app_length, L; reflexivity|]; rewrite cmakes_app; split;
      [rewrite ?set_nth_length, ?app_length, LG; unfold cmakes; cbn; lia|].
    all: rewrite ?CI, ?CC, (going_app _ _ _ _ _ L), !map_app; cbn [combine going].
    - exists gs'. split; [exact AL|]. apply (hu_load nv mcn _ _ _ _ _ _ _ _ HU E).
    - exists gs'. split; [exact AL|]. apply (hu_level nv mcn _ _ _ _ _ _ _ HU E).
    - exists (gs' ++ [if b then HCombined CNew else HPlain HGNew]). split; [|apply (hu_make nv mcn _ _ _ _ b HU)].
      destruct AL as (A & B & C & D). split; [rewrite !app_length, A; reflexivity|]. split; [|split].
      + intros j J. destruct (Nat.lt_ge_cases j (length gs)) as [X|X].
        * rewrite !nth_error_app1 by lia. apply B, J.
        * rewrite !nth_error_app2 by lia. rewrite A. reflexivity.
      + intros j x J E. pose proof (D j J). rewrite nth_error_app1 in E by lia. apply (C j x J E).
      + intros j J. rewrite app_length. pose proof (D j J). lia.
    - destruct AL as (A & B & C & D). destruct (existsb (Nat.eqb i) (closed_in [] es)) eqn:EX.
      + apply exb_In in EX. destruct (ended_next _ _ _ _ _ _ (C i g EX G) N) as (-> & -> & ->). cbn [map]. rewrite !app_nil_r.
        exists gs'. split; [|exact HU]. split; [rewrite set_nth_length; exact A|]. split; [|split].
        * intros j J. assert (i <> j) by (intros ->; auto). rewrite set_nth_other by assumption. apply B, J.
        * intros j x J E. destruct (Nat.eq_dec i j) as [->|NE].
          -- rewrite set_nth_same in E by (apply (nth_lt _ _ _ _ G)). injection E as <-. apply (C j g J G).
          -- rewrite set_nth_other in E by assumption. apply (C j x J E).
        * intros j J. rewrite set_nth_length. auto.
      + assert (NI : ~ In i (closed_in [] es)) by (intros X; apply exb_In in X; congruence). clear EX.
        exists (set_nth i g' gs'). split.
        * split; [rewrite !set_nth_length; exact A|]. split; [|split].
          -- intros j J. destruct (Nat.eq_dec i j) as [->|NE].
             ++ pose proof (nth_lt _ _ _ _ G). rewrite !set_nth_same by lia. reflexivity.
             ++ rewrite !set_nth_other by assumption. apply B, J.
          -- intros j x J E. assert (i <> j) by (intros ->; auto). rewrite set_nth_other in E by assumption. apply (C j x J E).
          -- intros j J. rewrite set_nth_length. auto.
        * cbn [map fst snd]. apply (hu_next nv mcn _ _ _ _ _ g _ _ _ HU); [rewrite <- B by exact NI; exact G|exact N].
    - cbn [map]. rewrite !app_nil_r. exists gs'. split; [|exact HU]. destruct AL as (A & B & C & D). split; [rewrite set_nth_length; exact A|]. split; [|split].
      + intros j J. cbn [In] in J. rewrite set_nth_other by tauto. apply B. tauto.
      + intros j x J E. destruct (Nat.eq_dec i j) as [->|NE].
        * rewrite set_nth_same in E by (apply (nth_lt _ _ _ _ G)). injection E as <-. apply hclose_ended.
        * rewrite set_nth_other in E by assumption. destruct J as [J|J]; [contradiction|]. apply (C j x J E).
      + intros j [<-|J]; rewrite set_nth_length; [apply (nth_lt _ _ _ _ G)|auto].
  Qed.
  Lemma c72_going : forall es st gs log, cuses nv mcn es st gs log -> length es = length log /\
    exists gs', huses nv mcn (map fst (going [] (combine es log))) st gs' (map snd (going [] (combine es log))).
  Proof. intros es st gs log U. destruct (cuses_going _ _ _ _ U) as (L & _ & gs' & _ & X). split; [exact L|]. exists gs'. exact X. Qed.
  Lemma c72_stop : forall es st gs log, cuses nv mcn es st gs log -> forall p q i x, p < q ->
    nth_error es p = Some (CClose i) -> nth_error es q = Some (CUse (UNext i)) -> nth_error log q = Some x -> exists H, x = CGot (GNext HStop H).
  Proof.
    intros es st gs log U. induction U as
      [|es st gs log url meta st' r U IH E|es st gs log a H' r U IH E|es st gs log b U IH|es st gs log j g st' g' o U IH G N|es st gs log j g U IH G];
      intros p q i x PQ P Q X; [destruct p; discriminate P|..].
    all: destruct (cuses_going _ _ _ _ U) as (L & _ & gs' & (A & B & C & D) & _).
    all: assert (LQ : q < length es \/ q = length es) by (pose proof (nth_lt _ _ _ _ Q) as K; rewrite app_length in K; cbn in K; lia).
    all: destruct LQ as [LQ| ->]; [rewrite nth_error_app1 in P, Q, X by lia; apply (IH p q i x PQ P Q X)|].
    all: rewrite nth_error_app2, Nat.sub_diag in Q by lia; cbn in Q; try discriminate Q.
    injection Q as ->. rewrite L, nth_error_app2, Nat.sub_diag in X by lia. injection X as <-.
    rewrite nth_error_app1 in P by lia. assert (I : In i (closed_in [] es)) by (apply closed_iff; right; apply (nth_error_In _ _ P)).
    destruct (ended_next _ _ _ _ _ _ (C i g I G) N) as (-> & -> & ->). eexists. reflexivity.
  Qed.
  Lemma c72_returns : (2 <= mcn)%Z -> forall es st gs log, cuses nv mcn es st gs log -> forall i, i < cmakes es ->
    (exists st' gs' o, cuses nv mcn (es ++ [CUse (UNext i)]) st' gs' (log ++ [CGot (GNext o (hs_heap st'))]) /\ forall e, o <> HRaise e) /\
    exists gs', cuses nv mcn (es ++ [CClose i]) st gs' (log ++ [CClosed]).
  Proof.
    intros Hm es st gs log U i I. destruct (cuses_going _ _ _ _ U) as (L & LG & gs' & (A & B & C & D) & HU).
    destruct (nth_error gs i) as [g|] eqn:G; [|apply nth_error_None in G; lia].
    split; [|eexists; apply (cu_close nv mcn _ _ _ _ _ g U G)].
    destruct (in_dec Nat.eq_dec i (closed_in [] es)) as [J|J].
    - exists st, (set_nth i g gs), HStop. split; [apply (cu_next nv mcn _ _ _ _ _ g _ _ _ U G), ended_can, (C i g J G)|discriminate].
    - destruct (c70_returns nv mcn Hm _ _ _ _ HU) as (LU & R). destruct (R i) as (st' & gs2 & o & X & NE); [lia|].
      inversion X as [X0|? ? ? ? ? ? ? ? ? ? X0|? ? ? ? ? ? ? ? ? X0|? ? ? ? ? ? X0|? ? ? ? i' g0 ? g1 o' U0 G0 N0 X0 X1 X2 X3].
      + destruct (map fst (going [] (combine es log))); discriminate X0.
      + apply app_inj_tail in X0. destruct X0 as [_ X0]. discriminate X0.
      + apply app_inj_tail in X0. destruct X0 as [_ X0]. discriminate X0.
      + apply app_inj_tail in X0. destruct X0 as [_ X0]. discriminate X0.
      + apply app_inj_tail in X0. destruct X0 as [-> X0]. injection X0 as ->. apply app_inj_tail in X3. destruct X3 as [-> X3]. injection X3 as ->.
        destruct (c70_one nv mcn _ _ _ _ HU _ _ _ U0) as (-> & -> & _). rewrite <- B, G in G0 by exact J. injection G0 as <-.
        exists st', (set_nth i g1 gs), o. split; [apply (cu_next nv mcn _ _ _ _ _ g _ _ _ U G N0)|exact NE].
  Qed.
  Definition shaped (e : cuse) (x : cgot) : Prop :=
    match e, x with CUse _, CGot _ => True | CClose _, CClosed => True | _, _ => False end.
  Lemma cuses_shaped : forall es st gs log, cuses nv mcn es st gs log -> Forall2 shaped es log.
  Proof. intros es st gs log U. induction U; [constructor|..]; (apply Forall2_app; [assumption|constructor; [exact I|constructor]]). Qed.
  Lemma cuses_prefix : forall es st gs log, cuses nv mcn es st gs log -> forall a b, es = a ++ b ->
    exists st1 gs1 log1 log2, cuses nv mcn a st1 gs1 log1 /\ log = log1 ++ log2.
  Proof.
    intros es st gs log U. induction U as
      [|es st gs log url meta st' r U IH E|es st gs log x H' r U IH E|es st gs log c U IH|es st gs log j g st' g' o U IH G N|es st gs log j g U IH G]; intros a b EQ.
    { destruct a; [|discriminate EQ]. exists hnew, [], [], []. split; [constructor|reflexivity]. }
    all: destruct b as [|b0 b]; [rewrite app_nil_r in EQ; subst a; do 3 eexists; exists []; split; [|symmetry; apply app_nil_r]|];
      [first [eapply cu_load; eassumption|eapply cu_level; eassumption|eapply cu_make; eassumption|eapply cu_next; eassumption|eapply cu_close; eassumption]|].
    all: destruct (exists_last (l := b0 :: b)) as (b' & y & E'); [discriminate|]; rewrite E', app_assoc in EQ; apply app_inj_tail in EQ; destruct EQ as [EQ _];
      destruct (IH _ _ EQ) as (st1 & gs1 & log1 & log2 & X & ->); exists st1, gs1, log1; eexists; split; [exact X|rewrite <- app_assoc; reflexivity].
  Qed.
  Lemma going_makes : forall es log c, Forall2 shaped es log -> umakes (map fst (going c (combine es log))) = cmakes es.
  Proof.
    intros es log c F. revert c. induction F as [|e x es log S F IH]; intros c; [reflexivity|]. unfold umakes, cmakes in *.
    destruct e as [e|i], x as [x|]; try contradiction; cbn [combine going].
    - destruct e as [url me|a|b|i]; cbn [map filter fst length]; rewrite ?IH; try reflexivity.
      destruct (existsb (Nat.eqb i) c); cbn [map filter fst length]; apply IH.
    - cbn [filter]. apply IH.
  Qed.
  Lemma going_loads : forall es log c, Forall2 shaped es log -> uloads (map fst (going c (combine es log))) = cloads es.
  Proof.
    intros es log c F. revert c. induction F as [|e x es log S F IH]; intros c; [reflexivity|]. unfold uloads, cloads in *.
    destruct e as [e|i], x as [x|]; try contradiction; cbn [combine going].
    - destruct e as [url me|a|b|i]; cbn [map flat_map fst app]; rewrite ?IH; try reflexivity.
      destruct (existsb (Nat.eqb i) c); cbn [map flat_map fst app]; apply IH.
    - cbn [flat_map app]. apply IH.
  Qed.
  Definition of_gen (i : nat) (l : list (nat * hout * heap)) := filter (fun x => fst (fst x) =? i) l.
  Lemma going_nexts : forall i es log c, Forall2 shaped es log -> ~ In i c -> ~ In (CClose i) es ->
    of_gen i (nexts (map fst (going c (combine es log))) (map snd (going c (combine es log)))) = of_gen i (cnexts es log).
  Proof.
    intros i es log c F. revert c. induction F as [|e x es log S F IH]; intros c NC NE; [reflexivity|].
    assert (NE' : ~ In (CClose i) es) by (intros X; apply NE; right; exact X).
    unfold nexts, cnexts, of_gen in *. destruct e as [e|j], x as [x|]; try contradiction; cbn [combine going].
    - destruct e as [url me|a|b|j]; cbn [map flat_map fst snd app combine]; try (apply IH; assumption).
      destruct (existsb (Nat.eqb j) c) eqn:EX; cbn [map flat_map fst snd app combine]; rewrite ?filter_app; rewrite ?(IH c NC NE'); [|reflexivity].
      apply exb_In in EX. assert (NJ : (j =? i) = false) by (apply Nat.eqb_neq; intros ->; contradiction).
      destruct x; cbn [filter fst app]; rewrite ?NJ; reflexivity.
    - cbn [flat_map app]. apply IH; [|exact NE']. intros [->|X]; [apply NE; left; reflexivity|contradiction].
  Qed.
  Lemma results_gen : forall i l, results_of i (of_gen i l) = results_of i l.
  Proof.
    intros i l. induction l as [|[[j o] H] l IH]; [reflexivity|]. unfold of_gen, results_of in *. cbn [filter fst]. destruct (j =? i) eqn:E; cbn [flat_map]; rewrite ?IH, ?E; [reflexivity|].
    destruct o; reflexivity.
  Qed.
  Lemma trees_gen : forall i l, trees_of i (of_gen i l) = trees_of i l.
  Proof.
    intros i l. induction l as [|[[j o] H] l IH]; [reflexivity|]. unfold of_gen, trees_of in *. cbn [filter fst]. destruct (j =? i) eqn:E; cbn [flat_map]; rewrite ?IH, ?E; [reflexivity|].
    destruct o; reflexivity.
  Qed.
  Lemma in_gen : forall i o H l, In (i, o, H) (of_gen i l) <-> In (i, o, H) l.
  Proof. intros. unfold of_gen. rewrite filter_In. cbn [fst]. rewrite Nat.eqb_refl. tauto. Qed.
  (** the uses without close(), cut where the generator is made *)
  Lemma cut_make : forall es es' b st gs log, cuses nv mcn (es ++ CUse (UMake b) :: es') st gs log -> ~ In (CClose (cmakes es)) es' ->
    exists fs fs' gs' log', huses nv mcn (fs ++ UMake b :: fs') st gs' log' /\ umakes fs = cmakes es /\ uloads fs = cloads es /\ uloads fs' = cloads es'
      /\ of_gen (cmakes es) (nexts (fs ++ UMake b :: fs') log') = of_gen (cmakes es) (cnexts (es ++ CUse (UMake b) :: es') log).
  Proof.
    intros es es' b st gs log U NE. pose proof (cuses_shaped _ _ _ _ U) as S. destruct (cuses_going _ _ _ _ U) as (L & _ & gs' & _ & HU).
    destruct (cuses_prefix _ _ _ _ U es _ eq_refl) as (st1 & gs1 & log1 & log2 & U1 & ->). pose proof (cuses_shaped _ _ _ _ U1) as S1.
    destruct (cuses_going _ _ _ _ U1) as (L1 & LG1 & gs1' & (A1 & B1 & C1 & D1) & _).
    assert (S2 : Forall2 shaped (CUse (UMake b) :: es') log2).
    { apply Forall2_app_inv_l in S. destruct S as (x & y & X & Y & E). assert (length es = length x) by (clear - X; induction X; cbn; congruence).
      assert (x = log1 /\ y = log2) as [-> ->]; [|exact Y].
      assert (LX : length x = length log1) by lia. clear - E LX. revert x LX E. induction log1 as [|a log1 IH]; intros [|a' x] LX E; try discriminate LX; [auto|].
      injection LX as LX. injection E as <- E. destruct (IH x LX E) as [-> ->]. auto. }
    assert (NC : ~ In (CClose (cmakes es)) es).
    { intros X. assert (I : In (cmakes es) (closed_in [] es)) by (apply closed_iff; right; exact X). apply D1 in I. lia. }
    assert (NA : ~ In (CClose (cmakes es)) (es ++ CUse (UMake b) :: es')) by (intros X; apply in_app_or in X; destruct X as [X|[X|X]]; [auto|discriminate X|auto]).
    assert (NN : ~ In (cmakes es) []) by (intros []).
    pose proof (going_nexts _ _ _ [] S NN NA) as GN.
    inversion S2 as [|? x ? log3 SX S3]; subst. destruct x as [x|]; [|contradiction]. rewrite (going_app _ _ _ _ _ L1) in HU, GN. cbn [combine going] in HU, GN.
    exists (map fst (going [] (combine es log1))), (map fst (going (closed_in [] es) (combine es' log3))), gs'.
    eexists. rewrite (map_app fst) in HU, GN. cbn [map fst] in HU, GN. split; [exact HU|].
    split; [apply going_makes, S1|]. split; [apply going_loads, S1|]. split; [apply going_loads, S3|exact GN].
  Qed.
  Lemma c72_undisturbed : (2 <= mcn)%Z -> forall es es' st gs log, cuses nv mcn (es ++ CUse (UMake false) :: es') st gs log -> cloads es' = [] -> ~ In (CClose (cmakes es)) es' ->
    let l := cnexts (es ++ CUse (UMake false) :: es') log in
    (forall H, ~ In (cmakes es, HRuntime, H) l) /\
    ((exists H, In (cmakes es, HStop, H) l) -> exists cs ts, make mcn (loads nv (cloads es)) = Ok cs /\ same_clusters cs ts
      /\ Forall2 (fun y c => y_meta y = fst c /\ reads (y_heap y) (y_root y) (snd c)) (results_of (cmakes es) l) ts).
  Proof.
    intros Hm es es' st gs log U NL NE l. destruct (cut_make _ _ _ _ _ _ U NE) as (fs & fs' & gs' & log' & HU & M & L1 & L2 & G). fold l in G.
    destruct (c70_undisturbed nv mcn Hm _ _ _ _ _ HU) as [A B]; [congruence|]. rewrite M, L1 in *. split.
    - intros H X. apply (A H). apply in_gen. rewrite G. apply in_gen. exact X.
    - intros (H & X). rewrite <- results_gen, <- G, results_gen. apply B. exists H. apply in_gen. rewrite G. apply in_gen. exact X.
  Qed.
  Lemma c72_combined : (2 <= mcn)%Z -> forall es es' st gs log, cuses nv mcn (es ++ CUse (UMake true) :: es') st gs log -> cloads es' = [] -> ~ In (CClose (cmakes es)) es' ->
    let l := cnexts (es ++ CUse (UMake true) :: es') log in
    (forall H, ~ In (cmakes es, HRuntime, H) l) /\
    ((exists H, In (cmakes es, HStop, H) l) ->
     Forall2 (fun sid y => exists due ct, make mcn (loads nv (own_loads nv sid (cloads es))) = Ok due /\ combined (y_meta y) due ct /\ reads (y_heap y) (y_root y) (ptree ct))
       (digests nv (cloads es)) (trees_of (cmakes es) l)).
  Proof.
    intros Hm es es' st gs log U NL NE l. destruct (cut_make _ _ _ _ _ _ U NE) as (fs & fs' & gs' & log' & HU & M & L1 & L2 & G). fold l in G.
    destruct (c70_combined nv mcn Hm _ _ _ _ _ HU) as [A B]; [congruence|]. rewrite M, L1 in *. split.
    - intros H X. apply (A H). apply in_gen. rewrite G. apply in_gen. exact X.
    - intros (H & X). rewrite <- trees_gen, <- G, trees_gen. apply B. exists H. apply in_gen. rewrite G. apply in_gen. exact X.
  Qed.
  Lemma c72_one : forall es st gs log, cuses nv mcn es st gs log -> forall st2 gs2 log2, cuses nv mcn es st2 gs2 log2 -> st2 = st /\ gs2 = gs /\ log2 = log.
  Proof.
    intros es st gs log U. induction U as [|es st gs log url me st' r U IH EL|es st gs log a H' r U IH EL|es st gs log cb U IH|es st gs log i gn st' gn' o U IH EG EN|es st gs log i gn U IH EG]; intros st2 gs2 log2 U2; inversion U2; subst;
      try (match goal with X : _ ++ [_] = [] |- _ => destruct (app_cons_not_nil _ _ _ (eq_sym X)) end); try (match goal with X : [] = _ ++ [_] |- _ => destruct (app_cons_not_nil _ _ _ X) end); auto;
      match goal with X : _ ++ [_] = _ ++ [_] |- _ => apply app_inj_tail in X; destruct X as [X1 X2]; try discriminate X2; inversion X2; subst end;
      match goal with X : cuses _ _ es _ _ _ |- _ => destruct (IH _ _ _ X) as (-> & -> & ->) end.
    - match goal with X : hload _ _ _ _ = _ |- _ => rewrite EL in X; inversion X; subst end. auto.
    - match goal with X : level _ _ = _ |- _ => rewrite EL in X; inversion X; subst end. auto.
    - auto.
    - match goal with X : nth_error gs i = Some _ |- _ => rewrite EG in X; inversion X; subst end.
      match goal with X : hanext _ _ _ ?s2 ?g2 ?o2 |- context[?s2] => destruct (hanext_det mcn _ _ _ _ _ EN _ _ _ X) as (-> & -> & ->) end. auto.
    - match goal with X : nth_error gs i = Some _ |- _ => rewrite EG in X; inversion X; subst end. auto.
  Qed.
End C.
