(** make() on the nodes as objects: what a user does with a PatternMaker. *)
From Coq Require Import String.
From Verif Require Import PyStr Defs UrlLib ParseUtils Views Trees Cluster Patterns Matcher Maker Spec Observe Heap HeapSpec HCluster HCombine HMakeSpec
  PyStrProofs DefsProofs PieceProofs DictProofs TreeProofs EntProofs GenCluster FlatCluster OuterCluster TokProofs MakeProofs
  LoadProofs HeapProofs HeapLoad HeapState HeapTop AnyOuter AnySpec AnyMake HcBase HcMake HcState.
From Coq Require Import Lia Permutation.

Lemma hdo_app : forall nv mcn a b st, hdo_all nv mcn st (a ++ b) =
  (fst (hdo_all nv mcn (fst (hdo_all nv mcn st a)) b), snd (hdo_all nv mcn st a) ++ snd (hdo_all nv mcn (fst (hdo_all nv mcn st a)) b)).
Proof.
  intros nv mcn a. induction a as [|d a IH]; intros b st; cbn [app hdo_all fst snd]; [destruct (hdo_all nv mcn st b); reflexivity|].
  destruct (hdo nv mcn st d) as [s1 o]. rewrite IH. destruct (hdo_all nv mcn s1 a) as [s2 os]. reflexivity.
Qed.
Lemma hdo_len : forall nv mcn ds st, length (snd (hdo_all nv mcn st ds)) = length ds.
Proof.
  intros nv mcn ds. induction ds as [|d ds IH]; intros st; [reflexivity|]. cbn [hdo_all]. destruct (hdo nv mcn st d) as [s1 o]. specialize (IH s1).
  destruct (hdo_all nv mcn s1 ds) as [s2 os]. cbn in *. lia.
Qed.
Lemma nth_split : forall A (l : list A) i x, nth_error l i = Some x -> l = firstn i l ++ x :: skipn (S i) l /\ i < length l /\ firstn (S i) l = firstn i l ++ [x].
Proof.
  intros A l. induction l as [|y l IH]; intros [|i] x E; try discriminate; cbn in E.
  - injection E as ->. cbn. repeat split. lia.
  - destruct (IH i x E) as (A1 & A2 & A3). cbn [firstn skipn app length]. split; [f_equal; exact A1|]. split; [lia|]. cbn [firstn] in A3. f_equal. destruct l; [destruct i; discriminate|exact A3].
Qed.
(** one deed in a history *)
Lemma reply_at : forall nv mcn ds i d, nth_error ds i = Some d -> nth_error (replies nv mcn ds) i = Some (snd (hdo nv mcn (before nv mcn ds i) d))
  /\ after nv mcn ds i = fst (hdo nv mcn (before nv mcn ds i) d)
  /\ objects nv mcn ds = fst (hdo_all nv mcn (after nv mcn ds i) (skipn (S i) ds)).
Proof.
  intros nv mcn ds i d E. destruct (nth_split _ _ _ _ E) as (E1 & L & E2). unfold replies, before, after, objects. rewrite E2, hdo_app.
  cbn [hdo_all fst]. destruct (hdo nv mcn (fst (hdo_all nv mcn hnew (firstn i ds))) d) as [s1 o] eqn:ED. cbn [fst snd].
  split; [|split; [reflexivity|]].
  - rewrite E1 at 1. rewrite hdo_app. cbn [snd hdo_all]. rewrite nth_error_app2; rewrite hdo_len, firstn_length_le by lia; [|lia]. rewrite Nat.sub_diag.
    rewrite ED. destruct (hdo_all nv mcn s1 (skipn (S i) ds)). reflexivity.
  - rewrite E1 at 1. rewrite hdo_app. cbn [fst hdo_all]. rewrite ED. destruct (hdo_all nv mcn s1 (skipn (S i) ds)). reflexivity.
Qed.
Lemma reply_deed : forall nv mcn ds i o, nth_error (replies nv mcn ds) i = Some o -> exists d, nth_error ds i = Some d.
Proof.
  intros nv mcn ds i o E. destruct (nth_error ds i) as [d|] eqn:Ed; [eauto|]. exfalso. apply nth_error_None in Ed.
  assert (X : i < length (replies nv mcn ds)) by (apply nth_error_Some; congruence). unfold replies in X. rewrite hdo_len in X. lia.
Qed.

Lemma Forall2_imp : forall A B (P Q : A -> B -> Prop) l l', (forall a b, P a b -> Q a b) -> Forall2 P l l' -> Forall2 Q l l'.
Proof. intros A B P Q l l' I F. induction F; constructor; auto. Qed.
Section Run.
  Context (nv : str -> bool) (mcn : Z) (M2 : (2 <= mcn)%Z).
  Lemma do_ok : forall h H g fs d, INV nv h H g fs -> exists H' g' fs',
    fst (hdo nv mcn (HS H (map hm g)) d) = HS H' (map hm g') /\ INV nv (h ++ loads_of [d]) H' g' (fs ++ fs') /\ ggrows g g'
    /\ map fm g' = tdo nv mcn (map fm g) d /\ length H <= length H'
    /\ match d with
       | DLoad url me => exists r, snd (hdo nv mcn (HS H (map hm g)) d) = RLoad r /\
           match r with
           | Err e => snd (load nv (map fm g) url me) = Err e
           | Ok (b, new) => snd (load nv (map fm g) url me) = Ok new /\
               exists m pps m0 s, parse nv url = Ok (m, PUrl pps) /\ In (parsed_digest m (PUrl pps), (m0, s)) g' /\ aat s (map piece pps) = Some b
           end
       | DLevel _ => exists r, snd (hdo nv mcn (HS H (map hm g)) d) = RLevel r
       | DMake => exists rows, snd (hdo nv mcn (HS H (map hm g)) d) = RMake (Ok (rys rows)) /\ rows_ok mcn (length H) g g' rows /\ fs' = rnew rows
       | DCombine => exists rows, snd (hdo nv mcn (HS H (map hm g)) d) = RCombine (Ok (map fst rows)) /\ crows_ok mcn (length H) g g' rows /\ fs' = map snd rows
       end.
  Proof.
    intros h H g fs d IV. destruct d as [url me|b| |]; cbn [hdo loads_of flat_map app tdo].
    - destruct (load_do nv h H g fs url me IV) as (H' & g' & r & E & EL & IV' & GG & L & R). rewrite E. cbn [fst snd]. exists H', g', [].
      rewrite app_nil_r. split; [reflexivity|]. split; [exact IV'|]. split; [exact GG|]. split; [symmetry; exact EL|]. split; [exact L|]. exists r. auto.
    - destruct (level_do nv h H g fs b IV) as (H' & r & E & IV' & L & _). cbn [hs_heap hs_makers]. rewrite E. cbn [fst snd]. exists H', g, [].
      rewrite !app_nil_r. split; [reflexivity|]. split; [exact IV'|]. split; [apply ggrows_refl|]. split; [reflexivity|]. split; [lia|]. eauto.
    - destruct (make_do nv mcn h H g fs M2 IV) as (H' & g' & rows & E & RO & IV' & L). cbn [hs_heap hs_makers]. rewrite E. cbn [fst snd]. exists H', g', (rnew rows).
      rewrite app_nil_r. split; [|split; [exact IV'|split; [|split; [|split; [exact L|exists rows; auto]]]]].
      + f_equal. clear -RO. induction RO as [|x x' [[ys xs] new] g g' rows R RO IH]; [reflexivity|]. cbn [map]. rewrite IH. f_equal.
        destruct R as (A & B & _ & C & _). unfold hm. rewrite A, B, C. reflexivity.
      + clear -RO. induction RO as [|x x' [[ys xs] new] g g' rows R RO IH]; [apply ggrows_refl|]. intros sid m s [->|I].
        * destruct x' as [sid' [m' s']]. destruct R as (A & B & _ & _ & C & _). cbn [fst snd] in *. subst. exists s'. split; [left; reflexivity|exact C].
        * destruct (IH _ _ _ I) as (s' & I' & G). exists s'. split; [right; exact I'|exact G].
      + clear -RO. induction RO as [|x x' [[ys xs] new] g g' rows R RO IH]; [reflexivity|]. unfold make_after in *. cbn [map]. rewrite <- IH. f_equal.
        destruct R as (A & B & C & _). rewrite <- C. unfold fm. cbn [fst snd]. rewrite A. reflexivity.
    - destruct (combine_do nv mcn h H g fs M2 IV) as (H' & g' & rows & E & RO & IV' & L). cbn [hs_heap hs_makers]. rewrite E. cbn [fst snd]. exists H', g', (map snd rows).
      rewrite app_nil_r. split; [|split; [exact IV'|split; [|split; [|split; [exact L|exists rows; auto]]]]].
      + f_equal. clear -RO. induction RO as [|x x' [y c] g g' rows R RO IH]; [reflexivity|]. cbn [map]. rewrite IH. f_equal.
        destruct R as (A & B & _ & C & _). unfold hm. rewrite A, B, C. reflexivity.
      + clear -RO. induction RO as [|x x' [y c] g g' rows R RO IH]; [apply ggrows_refl|]. intros sid m s [->|I].
        * destruct x' as [sid' [m' s']]. destruct R as (A & B & _ & _ & C & _). cbn [fst snd] in *. subst. exists s'. split; [left; reflexivity|exact C].
        * destruct (IH _ _ _ I) as (s' & I' & G). exists s'. split; [right; exact I'|exact G].
      + clear -RO. induction RO as [|x x' [y c] g g' rows R RO IH]; [reflexivity|]. unfold make_after in *. cbn [map]. rewrite <- IH. f_equal.
        destruct R as (A & B & C & _). rewrite <- C. unfold fm. cbn [fst snd]. rewrite A. reflexivity.
  Qed.
  Lemma do_all_ok : forall ds h H g fs, INV nv h H g fs -> exists H' g' fs',
    fst (hdo_all nv mcn (HS H (map hm g)) ds) = HS H' (map hm g') /\ INV nv (h ++ loads_of ds) H' g' (fs ++ fs') /\ ggrows g g'
    /\ map fm g' = fold_left (tdo nv mcn) ds (map fm g) /\ length H <= length H'.
  Proof.
    intros ds. induction ds as [|d ds IH]; intros h H g fs IV.
    - exists H, g, []. cbn. rewrite !app_nil_r. repeat (split; [auto using ggrows_refl|]). lia.
    - destruct (do_ok h H g fs d IV) as (H1 & g1 & f1 & E1 & IV1 & GG1 & T1 & L1 & _). cbn [hdo_all]. destruct (hdo nv mcn (HS H (map hm g)) d) as [s1 o]. cbn [fst] in E1. subst s1.
      destruct (IH _ _ _ _ IV1) as (H2 & g2 & f2 & E2 & IV2 & GG2 & T2 & L2). destruct (hdo_all nv mcn (HS H1 (map hm g1)) ds) as [s2 os]. cbn [fst] in *. subst s2.
      exists H2, g2, (f1 ++ f2). split; [reflexivity|]. split.
      + replace (h ++ loads_of (d :: ds)) with ((h ++ loads_of [d]) ++ loads_of ds) by (unfold loads_of; cbn [flat_map]; rewrite app_nil_r, <- app_assoc; reflexivity).
        rewrite app_assoc. exact IV2.
      + split; [eapply ggrows_trans; eassumption|]. split; [cbn [fold_left]; rewrite <- T1; exact T2|]. lia.
  Qed.
  Lemma run_ok : forall ds, exists H g fs, objects nv mcn ds = HS H (map hm g) /\ INV nv (loads_of ds) H g fs /\ map fm g = trees nv mcn ds.
  Proof.
    intros ds. destruct (do_all_ok ds [] [] [] [] (INV_nil nv)) as (H & g & fs & E & IV & _ & T & _). exists H, g, fs. auto.
  Qed.
  (** the state before a deed, after it, and at the end *)
  Lemma at_deed : forall ds i d, nth_error ds i = Some d -> exists H0 g0 f0 H1 g1 f1 H2 g2 f2,
    before nv mcn ds i = HS H0 (map hm g0) /\ map fm g0 = trees nv mcn (firstn i ds)
    /\ after nv mcn ds i = HS H1 (map hm g1) /\ INV nv (loads_of (firstn (S i) ds)) H1 g1 (f0 ++ f1) /\ ggrows g0 g1
    /\ objects nv mcn ds = HS H2 (map hm g2) /\ INV nv (loads_of ds) H2 g2 ((f0 ++ f1) ++ f2) /\ ggrows g1 g2 /\ length H0 <= length H1
    /\ INV nv (loads_of (firstn i ds)) H0 g0 f0
    /\ match d with
       | DLoad url me => exists r, nth_error (replies nv mcn ds) i = Some (RLoad r) /\
           match r with
           | Err e => snd (load nv (map fm g0) url me) = Err e
           | Ok (b, new) => snd (load nv (map fm g0) url me) = Ok new /\
               exists m pps m0 s, parse nv url = Ok (m, PUrl pps) /\ In (parsed_digest m (PUrl pps), (m0, s)) g1 /\ aat s (map piece pps) = Some b
           end
       | DLevel _ => exists r, nth_error (replies nv mcn ds) i = Some (RLevel r)
       | DMake => exists rows, nth_error (replies nv mcn ds) i = Some (RMake (Ok (rys rows))) /\ rows_ok mcn (length H0) g0 g1 rows /\ f1 = rnew rows
       | DCombine => exists rows, nth_error (replies nv mcn ds) i = Some (RCombine (Ok (map fst rows))) /\ crows_ok mcn (length H0) g0 g1 rows /\ f1 = map snd rows
       end.
  Proof.
    intros ds i d E. destruct (reply_at nv mcn ds i d E) as (R1 & R2 & R3). destruct (nth_split _ _ _ _ E) as (S1 & S2 & S3).
    destruct (run_ok (firstn i ds)) as (H0 & g0 & f0 & E0 & IV0 & T0).
    destruct (do_ok _ H0 g0 f0 d IV0) as (H1 & g1 & f1 & E1 & IV1 & GG1 & T1 & L1 & X1).
    destruct (do_all_ok (skipn (S i) ds) _ H1 g1 _ IV1) as (H2 & g2 & f2 & E2 & IV2 & GG2 & T2 & L2).
    assert (LA : forall a b, loads_of (a ++ b) = loads_of a ++ loads_of b) by (intros a b; unfold loads_of; apply flat_map_app).
    assert (B0 : before nv mcn ds i = HS H0 (map hm g0)) by exact E0. rewrite B0 in R1, R2. rewrite E1 in R2. rewrite R2, E2 in R3.
    exists H0, g0, f0, H1, g1, f1, H2, g2, f2. split; [exact B0|]. split; [exact T0|]. split; [exact R2|]. split; [rewrite S3, LA; exact IV1|]. split; [exact GG1|].
    split; [exact R3|]. split; [|split; [exact GG2|split; [exact L1|split; [exact IV0|]]]].
    - rewrite <- LA, <- S3, <- LA, firstn_skipn in IV2. exact IV2.
    - destruct d; rewrite R1; [destruct X1 as (r & X & Y)|destruct X1 as (r & X)|destruct X1 as (r & X & Y)|destruct X1 as (r & X & Y)]; exists r; rewrite X; auto.
  Qed.

  (** *** The trees *)
  Lemma c68_trees : forall ds, let st := objects nv mcn ds in
    Forall2 (fun x y => fst x = fst y /\ hk_meta (snd x) = mk_meta (snd y) /\ reads (hs_heap st) (hk_root (snd x)) (mk_root (snd y)))
      (hs_makers st) (trees nv mcn ds).
  Proof.
    intros ds st. unfold st. destruct (run_ok ds) as (H & g & fs & -> & IV & <-). cbn [hs_heap hs_makers].
    pose proof (wh_holds _ _ (in_whole _ _ _ _ _ IV)) as F. apply Forall_app in F. destruct F as [F _]. clear IV.
    induction g as [|[sid [m s]] g IH]; cbn [map]; [constructor|]. cbn [gt map snd] in F.
    apply Forall_cons_iff in F. destruct F as [F1 F2]. constructor; [|apply IH; exact F2]. cbn. split; [reflexivity|]. split; [reflexivity|].
    eapply holds_reads. exact F1.
  Qed.
  Lemma c68_load : forall ds i url me, nth_error ds i = Some (DLoad url me) ->
    exists r, nth_error (replies nv mcn ds) i = Some (RLoad r) /\
      match r with
      | Ok (_, new) => snd (load nv (trees nv mcn (firstn i ds)) url me) = Ok new
      | Err e => snd (load nv (trees nv mcn (firstn i ds)) url me) = Err e
      end.
  Proof.
    intros ds i url me E. destruct (at_deed ds i _ E) as (H0 & g0 & f0 & H1 & g1 & f1 & H2 & g2 & f2 & _ & T & _ & _ & _ & _ & _ & _ & _ & _ & r & R & X).
    exists r. split; [exact R|]. rewrite <- T. destruct r as [[b new]|e]; [apply X|exact X].
  Qed.

  (** *** make() *)
  Lemma rows_make : forall lo g g' rows, rows_ok mcn lo g g' rows -> exists ts, make mcn (map fm g) = Ok ts /\
    Forall2 (fun x c => exists z z', In z g /\ In z' g' /\ fst c = fst (snd z) /\ snd c = erase x /\ (x = snd (snd z') \/ In x (rnew rows))) (rxs rows) ts
    /\ Forall2 (fun y x => y_root y = a_addr x /\ holds (y_heap y) None 0 x) (rys rows) (rxs rows)
    /\ Forall2 (fun y c => y_meta y = fst c) (rys rows) ts.
  Proof.
    intros lo g g' rows R. unfold make. induction R as [|x x' [[ys xs] new] g g' rows R1 R (ts & E & F1 & F2 & F3)].
    - exists []. repeat split; constructor.
    - destruct (mapM _ (map fm g)) as [rs|] eqn:EM; [|discriminate]. cbn [bind] in E. injection E as <-.
      destruct R1 as (A & B & C & D & _ & _ & HD & MM & CASE).
      exists (map (fun t => (fst (snd x), t)) (map erase xs) ++ List.concat rs). cbn [map mapM]. rewrite MM. cbn [bind]. rewrite EM. cbn [bind List.concat].
      split; [reflexivity|]. unfold rxs, rys, rnew in *. cbn [flat_map fst snd]. split; [|split].
      + apply Forall2_app.
        * assert (Q : forall z, In z xs -> z = snd (snd x') \/ In z (new ++ flat_map (fun r => snd r) rows)).
          { intros z Iz. destruct CASE as [[-> ->]|(-> & _)]; [destruct Iz as [<-|[]]; auto|right; apply in_app_iff; auto]. }
          clear - Q. induction xs as [|z xs IH]; cbn [map]; [constructor|]. constructor; [|apply IH; intros z' Iz; apply Q; right; exact Iz].
          exists x, x'. split; [left; reflexivity|]. split; [left; reflexivity|]. split; [reflexivity|]. split; [reflexivity|]. apply Q. left. reflexivity.
        * eapply Forall2_imp; [|exact F1]. intros z c (w & w' & I & I' & P1 & P2 & P3). exists w, w'. split; [right; exact I|]. split; [right; exact I'|]. split; [exact P1|]. split; [exact P2|].
          destruct P3 as [P3|P3]; [auto|right; apply in_app_iff; auto].
      + apply Forall2_app; [|exact F2]. eapply Forall2_imp; [|exact HD]. intros y z (_ & P1 & P2). auto.
      + apply Forall2_app; [|exact F3]. clear - HD. induction HD as [|y z ys xs (P & _) HD IH]; cbn [map]; constructor; [exact P|exact IH].
  Qed.
  Lemma Forall2_three : forall A B C (P : A -> B -> Prop) (Q : B -> C -> Prop) (R : A -> C -> Prop) l l' l'',
    Forall2 P l l' -> Forall2 Q l' l'' -> (forall a b c, In a l -> P a b -> Q b c -> R a c) -> Forall2 R l l''.
  Proof.
    intros A B C P Q R l l' l'' F. revert l''. induction F as [|a b l l' H F IH]; intros l'' G K; inversion G; subst; constructor.
    - eapply K; [left; reflexivity|eassumption|assumption].
    - apply IH; [assumption|]. intros a0 b0 c0 Ix. apply K. right. exact Ix.
  Qed.
  Lemma Forall2_and : forall A B (P Q : A -> B -> Prop) l l', Forall2 P l l' -> Forall2 Q l l' -> Forall2 (fun a b => P a b /\ Q a b) l l'.
  Proof. intros A B P Q l l' F. induction F; intros G; inversion G; subst; constructor; auto. Qed.
  Lemma c68_make : forall ds i, nth_error ds i = Some DMake -> exists ys cs,
    nth_error (replies nv mcn ds) i = Some (RMake (Ok ys)) /\ make mcn (trees nv mcn (firstn i ds)) = Ok cs
    /\ Forall2 (fun y c => y_meta y = fst c /\ reads (y_heap y) (y_root y) (snd c) /\ reads (hs_heap (after nv mcn ds i)) (y_root y) (snd c)) ys cs.
  Proof.
    intros ds i E. destruct (at_deed ds i _ E) as (H0 & g0 & f0 & H1 & g1 & f1 & H2 & g2 & f2 & _ & T & A1 & IV1 & _ & _ & _ & _ & _ & _ & rows & R & RO & ->).
    destruct (rows_make _ _ _ _ RO) as (ts & EM & F1 & F2 & F3). exists (rys rows), ts. split; [exact R|]. split; [rewrite <- T; exact EM|].
    apply Forall2_and; [exact F3|]. eapply Forall2_three; [exact F2|exact F1|]. intros y x c _ (P1 & P2) (z & z' & _ & I' & _ & P4 & P5). rewrite P1, P4.
    split; [eapply holds_reads; exact P2|]. rewrite A1. cbn [hs_heap]. eapply holds_reads. apply (whole_in _ _ x (in_whole _ _ _ _ _ IV1)).
    rewrite !in_app_iff. destruct P5 as [->|P5]; [left; unfold gt; apply (in_map (fun w => snd (snd w))); exact I'|auto].
  Qed.
  Lemma c68_roots : forall ds i ys, nth_error (replies nv mcn ds) i = Some (RMake (Ok ys)) -> exists yss, ys = List.concat yss
    /\ Forall2 (fun sm l => Forall (fun y => y_meta y = hk_meta (snd sm)) l /\
         ((exists y, l = [y] /\ y_root y = hk_root (snd sm)) \/
          (2 <= length l /\ Forall (fun y => length (hs_heap (before nv mcn ds i)) <= y_root y) l)))
       (hs_makers (before nv mcn ds i)) yss
    /\ NoDup (map y_root ys).
  Proof.
    intros ds i ys R0. destruct (reply_deed _ _ _ _ _ R0) as [d E].
    destruct (at_deed ds i _ E) as (H0 & g0 & f0 & H1 & g1 & f1 & H2 & g2 & f2 & B0 & T & A1 & IV1 & _ & _ & _ & _ & _ & _ & X). rewrite B0. cbn [hs_heap hs_makers].
    destruct d; [destruct X as (r & X & _); congruence|destruct X as (r & X); congruence| |destruct X as (r & X & _); congruence]. destruct X as (rows & R & RO & ->). assert (ys = rys rows) as -> by congruence.
    exists (map (fun r => fst (fst r)) rows). split; [unfold rys; rewrite flat_map_concat_map; reflexivity|].
    pose proof (in_whole _ _ _ _ _ IV1) as W. split.
    - clear -RO. induction RO as [|x x' [[ys xs] new] g g' rows R1 RO IH]; cbn [map]; [constructor|]. constructor; [|exact IH].
      destruct R1 as (_ & _ & _ & D & _ & _ & HD & _ & CASE). cbn [fst snd hm hk_meta hk_root]. split.
      + clear -HD. induction HD as [|y z ys xs (P & _) HD IH]; constructor; auto.
      + destruct CASE as [[-> _]|(_ & L & Q)].
        * left. inversion HD as [|y z ys0 zs (_ & P & _) HD0]; subst. inversion HD0; subst. exists y. split; [reflexivity|]. rewrite P. exact D.
        * right. split; [rewrite (Forall2_length _ _ _ _ _ HD); exact L|]. clear -HD Q. induction HD as [|y z ys xs (_ & P & _) HD IH]; constructor.
          -- rewrite P. apply Q. cbn [flat_map]. apply in_app_iff. left. destruct z. left. reflexivity.
          -- apply IH. intros a Ia. apply Q. cbn [flat_map]. apply in_app_iff. auto.
    - assert (ER : map y_root (rys rows) = map a_addr (rxs rows)).
      { destruct (rows_make _ _ _ _ RO) as (ts & _ & _ & F2 & _). clear -F2. induction F2 as [|y x l l' (P & _) F IH]; cbn [map]; [reflexivity|]. rewrite P, IH. reflexivity. }
      rewrite ER.
      assert (SUB : exists rest, Permutation (rxs rows ++ rest) (gt g1 ++ rnew rows)).
      { clear -RO. induction RO as [|x x' [[ys xs] new] g g' rows R1 RO (rest & IH)]; [exists []; constructor|]. destruct R1 as (_ & _ & _ & _ & _ & _ & _ & _ & CASE).
        unfold rxs, rnew, gt in *. cbn [flat_map map fst snd]. destruct CASE as [[-> ->]|(-> & _)].
        - exists rest. cbn [app]. constructor. exact IH.
        - exists (snd (snd x') :: rest). rewrite <- app_assoc.
          apply Permutation_trans with (xs ++ snd (snd x') :: (map (fun w => snd (snd w)) g' ++ flat_map (fun r => snd r) rows)).
          + apply Permutation_app_head. apply Permutation_trans with (snd (snd x') :: (flat_map (fun r => snd (fst r)) rows ++ rest)); [apply Permutation_sym, Permutation_middle|]. constructor. exact IH.
          + cbn [app]. apply Permutation_trans with (snd (snd x') :: xs ++ map (fun w => snd (snd w)) g' ++ flat_map (fun r => snd r) rows); [apply Permutation_sym, Permutation_middle|]. constructor.
            rewrite !app_assoc. apply Permutation_app_tail. apply Permutation_app_comm. }
      destruct SUB as (rest & P).
      assert (W3 : whole H1 ((rxs rows ++ rest) ++ f0)).
      { eapply whole_perm; [|exact W]. apply Permutation_sym. eapply Permutation_trans; [apply Permutation_app_tail; exact P|]. rewrite <- app_assoc. apply Permutation_app_head. apply Permutation_app_comm. }
      pose proof (wh_nd _ _ W3) as N. rewrite <- app_assoc, flat_map_app in N. apply nd_app in N. destruct N as (N & _). clear -N.
      induction (rxs rows) as [|s l IH]; cbn [map]; [constructor|]. cbn [flat_map] in N. apply nd_app in N. destruct N as (_ & N & DJ). constructor; [|apply IH; exact N].
      intros I. apply in_map_iff in I. destruct I as (s' & Ea & Is). apply (DJ (a_addr s)); [destruct s; left; reflexivity|]. apply in_flat_map. exists s'. split; [exact Is|]. rewrite <- Ea. destruct s'. left. reflexivity.
  Qed.
  Lemma new_tree : forall ds i y, new_result nv mcn ds i y -> exists H g fs x, objects nv mcn ds = HS H (map hm g) /\ INV nv (loads_of ds) H g fs /\ In x fs
    /\ y_root y = a_addr x /\ holds (y_heap y) None 0 x.
  Proof.
    intros ds i y (ys & R0 & Iy & Lo). destruct (reply_deed _ _ _ _ _ R0) as [d E].
    destruct (at_deed ds i _ E) as (H0 & g0 & f0 & H1 & g1 & f1 & H2 & g2 & f2 & B0 & T & A1 & IV1 & _ & A2 & IV2 & _ & _ & IV0 & X). rewrite B0 in Lo. cbn [hs_heap] in Lo.
    destruct d; [destruct X as (r & X & _); congruence|destruct X as (r & X); congruence| |destruct X as (r & X & _); congruence]. destruct X as (rows & R & RO & ->). assert (ys = rys rows) as -> by congruence.
    exists H2, g2, ((f0 ++ rnew rows) ++ f2).
    assert (Q : exists x, In x (rnew rows) /\ y_root y = a_addr x /\ holds (y_heap y) None 0 x).
    { pose proof (wh_holds _ _ (in_whole _ _ _ _ _ IV0)) as F. apply Forall_app in F. destruct F as [F _].
      clear -RO Iy Lo F. induction RO as [|x x' [[ys xs] new] g g' rows R1 RO IH]; [destruct Iy|]. unfold rys, rnew in *. cbn [flat_map fst snd] in *.
      cbn [gt map] in F. apply Forall_cons_iff in F. destruct F as [Fx F]. apply in_app_iff in Iy. destruct Iy as [Iy|Iy].
      - destruct R1 as (_ & _ & _ & D & _ & _ & HD & _ & CASE). destruct CASE as [[-> _]|(-> & _)].
        + exfalso. inversion HD as [|y0 z ys0 zs (_ & P & _) HD0]; subst. inversion HD0; subst. destruct Iy as [<-|[]]. rewrite P, D in Lo.
          assert (a_addr (snd (snd x)) < length H0); [|lia]. apply (holds_lt _ _ _ _ Fx). destruct (snd (snd x)). left. reflexivity.
        + clear -HD Iy. induction HD as [|y0 z ys xs (_ & P1 & P2) HD IH]; [destruct Iy|]. destruct Iy as [<-|Iy].
          * exists z. split; [left; reflexivity|]. auto.
          * destruct (IH Iy) as (w & I & P). exists w. split; [right; exact I|exact P].
      - destruct (IH Iy F) as (z & I & P). exists z. split; [apply in_app_iff; auto|exact P]. }
    destruct Q as (x & Ix & P1 & P2). exists x. split; [exact A2|]. split; [exact IV2|]. split; [rewrite !in_app_iff; auto|]. auto.
  Qed.
  Lemma c68_kept : forall ds i y t, new_result nv mcn ds i y -> reads (y_heap y) (y_root y) t -> reads (hs_heap (objects nv mcn ds)) (y_root y) t.
  Proof.
    intros ds i y t N R. destruct (new_tree ds i y N) as (H & g & fs & x & -> & IV & Ix & E & Ho). cbn [hs_heap]. rewrite E in *.
    rewrite (reads_det _ _ _ _ R (holds_reads _ _ _ _ Ho)). eapply holds_reads. apply (whole_in _ _ x (in_whole _ _ _ _ _ IV)). apply in_app_iff. auto.
  Qed.

  (** *** make(combine=True) *)
  Lemma combined_tree : forall ds i ys, nth_error (replies nv mcn ds) i = Some (RCombine (Ok ys)) -> nth_error ds i = Some DCombine.
  Proof.
    intros ds i ys R0. destruct (reply_deed _ _ _ _ _ R0) as [d E].
    destruct (at_deed ds i _ E) as (H0 & g0 & f0 & H1 & g1 & f1 & H2 & g2 & f2 & _ & _ & _ & _ & _ & _ & _ & _ & _ & _ & X).
    destruct d; [destruct X as (r & X & _); congruence|destruct X as (r & X); congruence|destruct X as (r & X & _); congruence|exact E].
  Qed.
  Lemma c71_combine : forall ds i, nth_error ds i = Some DCombine -> exists ys cs,
    nth_error (replies nv mcn ds) i = Some (RCombine (Ok ys))
    /\ Forall2 (fun sm ct => maker_combine mcn (snd sm) = Ok ct) (trees nv mcn (firstn i ds)) cs
    /\ Forall2 (fun y sm => y_meta y = hk_meta (snd sm)) ys (hs_makers (before nv mcn ds i))
    /\ Forall2 (fun y ct => reads (y_heap y) (y_root y) (ptree ct) /\ reads (hs_heap (after nv mcn ds i)) (y_root y) (ptree ct)) ys cs.
  Proof.
    intros ds i E. destruct (at_deed ds i _ E) as (H0 & g0 & f0 & H1 & g1 & f1 & H2 & g2 & f2 & B0 & T & A1 & IV1 & _ & _ & _ & _ & _ & _ & rows & R & RO & ->).
    exists (map fst rows). rewrite B0, A1, <- T. cbn [hs_heap hs_makers]. pose proof (wh_holds _ _ (in_whole _ _ _ _ _ IV1)) as W. apply Forall_app in W. destruct W as [_ W]. apply Forall_app in W. destruct W as [_ W].
    assert (Q : exists cs, Forall2 (fun sm ct => maker_combine mcn (snd sm) = Ok ct) (map fm g0) cs /\ Forall2 (fun y sm => y_meta y = hk_meta (snd sm)) (map fst rows) (map hm g0)
      /\ Forall2 (fun y ct => reads (y_heap y) (y_root y) (ptree ct) /\ reads H1 (y_root y) (ptree ct)) (map fst rows) cs).
    { clear -RO W. induction RO as [|x x' [y c] g g' rows R RO IH]; [exists []; repeat constructor|]. cbn [map fst snd] in *. apply Forall_cons_iff in W. destruct W as [Wc W]. destruct (IH W) as (cs & P1 & P2 & P3).
      destruct R as (_ & _ & _ & _ & _ & _ & (Q1 & Q2 & Q3) & (ct & Q4 & Q5) & _). exists (ct :: cs). split; [constructor; assumption|]. split; [constructor; [exact Q1|exact P2]|].
      constructor; [|exact P3]. rewrite Q2, <- Q5. split; eapply holds_reads; eassumption. }
    destruct Q as (cs & P). exists cs. split; [exact R|exact P].
  Qed.
  Lemma c71_new : forall ds i ys, nth_error (replies nv mcn ds) i = Some (RCombine (Ok ys)) ->
    Forall (fun y => length (hs_heap (before nv mcn ds i)) <= y_root y) ys /\ NoDup (map y_root ys).
  Proof.
    intros ds i ys R0. pose proof (combined_tree _ _ _ R0) as E.
    destruct (at_deed ds i _ E) as (H0 & g0 & f0 & H1 & g1 & f1 & H2 & g2 & f2 & B0 & T & A1 & IV1 & _ & _ & _ & _ & _ & _ & rows & R & RO & ->).
    assert (ys = map fst rows) as -> by congruence. rewrite B0. cbn [hs_heap].
    assert (AD : Forall (fun r => y_root (fst r) = a_addr (snd r)) rows). { clear -RO. induction RO as [|x x' [y c] g g' rows R RO IH]; constructor; [|exact IH]. destruct R as (_ & _ & _ & _ & _ & _ & (_ & Q & _) & _). exact Q. }
    split.
    - clear -RO. induction RO as [|x x' [y c] g g' rows R RO IH]; cbn [map fst]; constructor; [|exact IH]. destruct R as (_ & _ & _ & _ & _ & _ & (_ & Q & _) & _ & L). rewrite Q. apply L. apply addr_in.
    - pose proof (wh_nd _ _ (in_whole _ _ _ _ _ IV1)) as N. rewrite !flat_map_app in N. apply nd_app in N. destruct N as (_ & N & _). apply nd_app in N. destruct N as (_ & N & _).
      clear -N AD. induction rows as [|[y c] rows IH]; cbn [map fst snd]; [constructor|]. cbn [map flat_map snd] in N. apply nd_app in N. destruct N as (_ & N & DJ). inversion AD as [|z l Q AD']; subst. cbn [fst snd] in Q. constructor; [|apply IH; assumption].
      intros I. apply in_map_iff in I. destruct I as (y' & Ey & I). apply in_map_iff in I. destruct I as ([y2 c2] & E2 & I). cbn [fst] in E2. subst y2. apply (DJ (a_addr c)); [apply addr_in|]. apply in_flat_map. exists c2.
      split; [apply in_map_iff; exists (y', c2); auto|]. rewrite Forall_forall in AD'. pose proof (AD' _ I) as Q2. cbn [fst snd] in Q2. rewrite <- Q, <- Ey, Q2. apply addr_in.
  Qed.
  Lemma new_combined : forall ds i y, combined_result nv mcn ds i y -> exists H g fs x, objects nv mcn ds = HS H (map hm g) /\ INV nv (loads_of ds) H g fs /\ In x fs
    /\ y_root y = a_addr x /\ holds (y_heap y) None 0 x.
  Proof.
    intros ds i y (ys & R0 & Iy). pose proof (combined_tree _ _ _ R0) as E.
    destruct (at_deed ds i _ E) as (H0 & g0 & f0 & H1 & g1 & f1 & H2 & g2 & f2 & B0 & T & A1 & IV1 & _ & A2 & IV2 & _ & _ & IV0 & rows & R & RO & ->).
    assert (ys = map fst rows) as -> by congruence.
    assert (Q : exists x, In x (map snd rows) /\ y_root y = a_addr x /\ holds (y_heap y) None 0 x).
    { clear -RO Iy. induction RO as [|x x' [y0 c] g g' rows R RO IH]; [destruct Iy|]. cbn [map fst snd] in *. destruct Iy as [<-|Iy].
      - destruct R as (_ & _ & _ & _ & _ & _ & (_ & Q1 & Q2) & _). exists c. split; [left; reflexivity|auto].
      - destruct (IH Iy) as (z & I & P). exists z. split; [right; exact I|exact P]. }
    destruct Q as (x & Ix & P1 & P2). exists H2, g2, ((f0 ++ map snd rows) ++ f2), x. split; [exact A2|]. split; [exact IV2|]. split; [rewrite !in_app_iff; auto|]. auto.
  Qed.
  Lemma c71_kept : forall ds i y t, combined_result nv mcn ds i y -> reads (y_heap y) (y_root y) t -> reads (hs_heap (objects nv mcn ds)) (y_root y) t.
  Proof.
    intros ds i y t N R. destruct (new_combined ds i y N) as (H & g & fs & x & -> & IV & Ix & E & Ho). cbn [hs_heap]. rewrite E in *.
    rewrite (reads_det _ _ _ _ R (holds_reads _ _ _ _ Ho)). eapply holds_reads. apply (whole_in _ _ x (in_whole _ _ _ _ _ IV)). apply in_app_iff. auto.
  Qed.
  Lemma c71_as_make : forall ds, let st := objects nv mcn ds in let st' := objects nv mcn (map plain ds) in
    Forall2 (fun x y => fst x = fst y /\ hk_meta (snd x) = hk_meta (snd y) /\ exists t, reads (hs_heap st) (hk_root (snd x)) t /\ reads (hs_heap st') (hk_root (snd y)) t)
      (hs_makers st) (hs_makers st').
  Proof.
    intros ds st st'. pose proof (c68_trees ds) as A. pose proof (c68_trees (map plain ds)) as B. cbn zeta in A, B. fold st in A. fold st' in B.
    assert (E : trees nv mcn (map plain ds) = trees nv mcn ds).
    { clear. unfold trees. generalize (@nil (str * maker)). induction ds as [|d ds IH]; intros l; [reflexivity|]. cbn [map fold_left]. rewrite IH. f_equal. destruct d; reflexivity. }
    rewrite E in B. clear E. revert B. generalize (hs_makers st'). induction A as [|x z l l' (P1 & P2 & P3) A IH]; intros l2 B; inversion B as [|y z' l3 l4 (Q1 & Q2 & Q3) B']; subst; constructor; [|apply IH; exact B'].
    split; [congruence|]. split; [congruence|]. eauto.
  Qed.

  (** *** Nodes *)
  Lemma root_tree : forall ds r, is_root nv mcn ds r -> exists H g fs x, objects nv mcn ds = HS H (map hm g) /\ INV nv (loads_of ds) H g fs /\ In x (gt g ++ fs) /\ a_addr x = r.
  Proof.
    intros ds r [(sm & I & <-)|(i & y & N & <-)].
    - destruct (run_ok ds) as (H & g & fs & E & IV & _). exists H, g, fs. rewrite E in I. cbn [hs_makers] in I. apply in_map_iff in I. destruct I as ([sid [m s]] & <- & I).
      exists s. split; [exact E|]. split; [exact IV|]. split; [apply in_app_iff; left; eapply in_gt; exact I|reflexivity].
    - destruct N as [N|N]; [destruct (new_tree ds i y N) as (H & g & fs & x & E & IV & Ix & Ea & _)|destruct (new_combined ds i y N) as (H & g & fs & x & E & IV & Ix & Ea & _)];
        exists H, g, fs, x; (split; [exact E|]; split; [exact IV|]; split; [apply in_app_iff; auto|auto]).
  Qed.
  Lemma down_at : forall H r ks a, down H r ks a -> forall s par dep d, holds H par dep s -> wft d (erase s) -> a_addr s = r -> aat s ks = Some a.
  Proof.
    intros H r ks a DN. induction DN as [r n En|r n k b ks a En I DN IH]; intros s par dep d Ho W <-; [destruct s; reflexivity|].
    destruct s as [a0 v p c m l]. apply holds_iff in Ho. destruct Ho as [(n' & E' & R) K]. cbn [a_addr] in *. assert (n' = n) as -> by congruence.
    destruct R as (_ & _ & _ & _ & _ & R6 & _). rewrite R6 in I. unfold dict_of in I. set (kk := l) in *. rewrite aat_cons. cbn [a_kids].
    apply in_map_iff in I. destruct I as (z & Ez & Iz). injection Ez as <- <-.
    destruct d as [|d]; [destruct W as [_ W]; unfold kk in Iz; destruct l; [destruct Iz|discriminate]|]. cbn [wft erase t_kids] in W. destruct W as (_ & _ & ND & _ & W). rewrite map_map, (map_ext _ _ HeapProofs.erase_piece) in ND.
    rewrite Forall_map, Forall_forall in W. rewrite Forall_forall in K. clearbody kk. pose proof Iz as Iz0. apply in_split in Iz. destruct Iz as (x & y & ->).
    rewrite map_app in ND. cbn [map] in ND. rewrite akid_mid; [|intros Q; apply NoDup_remove_2 in ND; apply ND; apply in_app_iff; auto|reflexivity].
    apply (IH z (Some a0) (S dep) d (K z Iz0) (W z Iz0) eq_refl).
  Qed.
  Lemma c68_down : forall ds r ks a, let H := hs_heap (objects nv mcn ds) in is_root nv mcn ds r -> down H r ks a ->
    chain H a ks r /\ snd (level H a) = Ok (length ks).
  Proof.
    intros ds r ks a H0 IR DN. subst H0. destruct (root_tree ds r IR) as (H & g & fs & x & E & IV & Ix & Ea). rewrite E in *. cbn [hs_heap] in *.
    destruct (whole_in _ _ x (in_whole _ _ _ _ _ IV) Ix) as [Ho _]. destruct (held_wft _ _ _ _ _ _ IV Ix) as [d W].
    pose proof (down_at _ _ _ _ DN x None 0 d Ho W Ea) as A. split; [rewrite <- Ea; apply root_chain; assumption|].
    destruct (level_do nv _ H g fs a IV) as (H' & r' & EL & _ & _ & Q). rewrite EL. cbn [snd]. apply (Q x ks Ix A).
  Qed.
  Lemma c68_apart : forall ds r ks r' ks' a, let H := hs_heap (objects nv mcn ds) in is_root nv mcn ds r -> down H r ks a ->
    is_root nv mcn ds r' -> down H r' ks' a -> r = r' /\ ks = ks'.
  Proof.
    intros ds r ks r' ks' a H I D I' D'. destruct (c68_down ds r ks a I D) as [C _]. destruct (c68_down ds r' ks' a I' D') as [C' _].
    destruct (chain_det _ _ _ _ C _ _ C') as [-> ->]. auto.
  Qed.
  Lemma bare_at : forall ks t, node_at (bare t) ks = option_map bare (node_at t ks).
  Proof.
    intros ks. induction ks as [|k r IH]; intros t; [reflexivity|]. rewrite !node_at_cons.
    assert (KB : kid k (t_kids (bare t)) = option_map bare (kid k (t_kids t))).
    { destruct t as [v p c m kk]. cbn [bare t_kids]. unfold kid. induction kk as [|z kk IHk]; cbn [map List.find]; [reflexivity|].
      assert (P : t_piece (bare z) = t_piece z) by (destruct z; reflexivity). rewrite P. destruct (str_eqb k (t_piece z)); [reflexivity|exact IHk]. }
    rewrite KB. destruct (kid k (t_kids t)) as [c0|]; cbn [option_map]; [apply IH|reflexivity].
  Qed.
  Lemma load_at : forall ds i url me a new, nth_error ds i = Some (DLoad url me) -> nth_error (replies nv mcn ds) i = Some (RLoad (Ok (a, new))) ->
    exists H g fs m raw s, objects nv mcn ds = HS H (map hm g) /\ INV nv (loads_of ds) H g fs /\ url_path nv url = Some (m, raw)
      /\ In (digest_of m raw, (m, s)) g /\ aat s (map piece_of raw) = Some a.
  Proof.
    intros ds i url me a new E O. destruct (at_deed ds i _ E) as (H0 & g0 & f0 & H1 & g1 & f1 & H2 & g2 & f2 & _ & T & A1 & IV1 & _ & A2 & IV2 & GG & _ & _ & r & R & X).
    assert (r = Ok (a, new)) as -> by congruence. destruct X as (_ & m & pps & m0 & s & EP & I & A).
    destruct (url_path nv url) as [[m1 raw]|] eqn:U.
    - destruct (url_path_parse _ _ _ _ U) as (_ & LG & P). rewrite EP in P. injection P as -> ->.
      destruct (digest_of_legal m1 raw LG) as [D _]. unfold parsed_digest in I. rewrite <- D in I. rewrite <- (piece_of_legal raw LG) in A.
      destruct (GG _ _ _ I) as (s' & I' & G).
      assert (M0 : m0 = m1).
      { assert (IM : In (digest_of m1 raw, MK m0 (erase s')) (map fm g2)) by (change (digest_of m1 raw, MK m0 (erase s')) with (fm (digest_of m1 raw, (m0, s'))); apply in_map; exact I').
        apply bare_in in IM. rewrite (in_bare _ _ _ _ _ IV2) in IM. apply (maker_meta nv _ url m1 raw _ U) in IM. exact IM. }
      subst m0. exists H2, g2, ((f0 ++ f1) ++ f2), m1, raw, s'. split; [exact A2|]. split; [exact IV2|]. split; [reflexivity|]. split; [exact I'|]. apply G. exact A.
    - exfalso. destruct (url_path_none _ _ U) as [[e E']|(m1 & ms & E')]; rewrite EP in E'; discriminate.
  Qed.
  Lemma c68_node : forall ds i url me a new, nth_error ds i = Some (DLoad url me) -> nth_error (replies nv mcn ds) i = Some (RLoad (Ok (a, new))) ->
    let st := objects nv mcn ds in
    exists m raw mk n, url_path nv url = Some (m, raw) /\ In (digest_of m raw, mk) (hs_makers st)
      /\ chain (hs_heap st) a (map piece_of raw) (hk_root mk)
      /\ nth_error (hs_heap st) a = Some n /\ n_count n = 1%Z /\ entries n = []
      /\ match n_meta n with
         | None => forall x, ~ In (m, raw, Some x) (accepted nv (loads_of ds))
         | Some l => l <> [] /\ NoDup l /\ forall x, In x l <-> In (m, raw, Some x) (accepted nv (loads_of ds))
         end.
  Proof.
    intros ds i url me a new E O st. unfold st. destruct (load_at ds i url me a new E O) as (H & g & fs & m & raw & s & -> & IV & U & I & A). cbn [hs_heap hs_makers].
    destruct (whole_in _ _ s (in_whole _ _ _ _ _ IV) ltac:(apply in_app_iff; left; eapply in_gt; exact I)) as [Hs ND].
    assert (IM : In (digest_of m raw, MK m (erase s)) (map fm g)) by (change (digest_of m raw, MK m (erase s)) with (fm (digest_of m raw, (m, s))); apply in_map; exact I).
    apply bare_in in IM. rewrite (in_bare _ _ _ _ _ IV) in IM. unfold bare_maker in IM. cbn [mk_root mk_meta] in IM.
    destruct (at_sub _ _ _ _ _ _ Hs A) as (sub & par & Hsub & Ea & EN0).
    assert (EN : node_at (bare (erase s)) (map piece_of raw) = Some (bare (erase sub))) by (rewrite bare_at, EN0; reflexivity).
    destruct sub as [a0 v p c me0 kk]. cbn [a_addr] in Ea. subst a0. apply holds_iff in Hsub.
    destruct Hsub as [(n & En & R1 & R2 & R3 & R4 & R5 & R6 & R7) _].
    exists m, raw, (HMK m (a_addr s)), n. split; [exact U|]. split; [change (digest_of m raw, HMK m (a_addr s)) with (hm (digest_of m raw, (m, s))); apply in_map; exact I|].
    split; [apply root_chain; assumption|]. split; [exact En|].
    assert (IA : In (url, me) (loads_of ds)).
    { unfold loads_of. apply in_flat_map. exists (DLoad url me). split; [eapply nth_error_In; exact E|left; reflexivity]. }
    assert (IG : In raw (distinct_paths nv (digest_of m raw) (loads_of ds))).
    { unfold distinct_paths. apply nodup_In. apply in_map_iff. exists (raw, me). split; [reflexivity|]. apply in_group. exists url, m. auto. }
    destruct (url_path_parse _ _ _ _ U) as (_ & LG & _).
    destruct (c18_paths _ _ _ _ IM) as (W & WP & _ & WD). cbn [mk_root mk_meta] in *.
    destruct (url_path_depth _ _ _ _ U) as [LD NE].
    assert (LG' : Forall (Forall legal) raw) by (eapply Forall_impl; [|exact LG]; intros z Hz; apply all_legal_iff; exact Hz).
    split; [|split].
    - rewrite R4. pose proof (c15_counts nv (loads_of ds) _ _ raw IM LG') as CC. cbn [mk_root] in CC. unfold cnt_at in CC.
      rewrite EN in CC. cbn [erase bare t_cnt] in CC. rewrite CC. rewrite (filter_one _ _ raw); [reflexivity|apply NoDup_nodup|exact IG|].
      intros y Hy. split.
      + intros Q. symmetry. apply prefixb_eq; [exact Q|]. destruct (WD y y Hy Hy) as [LY _]. lia.
      + intros ->. apply prefixb_refl.
    - rewrite R6. assert (KN : forall d t ks n0, wft d t -> length ks = d -> node_at t ks = Some n0 -> t_kids n0 = []).
      { intros d. induction d as [|d IHd]; intros t ks n0 Wt Lk Nk.
        - destruct ks; [|discriminate]. cbn in Nk. injection Nk as <-. apply Wt.
        - destruct ks as [|k ks]; [discriminate|]. rewrite node_at_cons in Nk. destruct (kid k (t_kids t)) as [c0|] eqn:EK; [|discriminate].
          destruct (kid_some_in _ _ _ EK) as [Ic _]. cbn [wft] in Wt. destruct Wt as (_ & _ & _ & _ & Wt). rewrite Forall_forall in Wt.
          apply (IHd c0 ks n0); [apply Wt; exact Ic|cbn in Lk; lia|exact Nk]. }
      assert (LL : length (map piece_of raw) = depth m) by (rewrite map_length; exact LD).
      specialize (KN _ _ _ _ W LL EN). cbn [erase bare t_kids] in KN. destruct kk; [reflexivity|discriminate].
    - rewrite R5. destruct (c16 nv (loads_of ds) _ _ raw IM IG) as [_ M]. cbn [mk_root mk_meta] in M. unfold meta_at in M. rewrite EN in M.
      cbn [erase bare t_meta] in M. exact M.
  Qed.
  Lemma c68_same : forall ds i j url me a new url' me' a' new',
    nth_error ds i = Some (DLoad url me) -> nth_error (replies nv mcn ds) i = Some (RLoad (Ok (a, new))) ->
    nth_error ds j = Some (DLoad url' me') -> nth_error (replies nv mcn ds) j = Some (RLoad (Ok (a', new'))) ->
    (a = a' <-> url_path nv url = url_path nv url').
  Proof.
    intros ds i j url me a new url' me' a' new' Ei Oi Ej Oj.
    destruct (c68_node ds i url me a new Ei Oi) as (m & raw & mk & n & U & I & C & _). destruct (c68_node ds j url' me' a' new' Ej Oj) as (m' & raw' & mk' & n' & U' & I' & C' & _).
    rewrite U, U'. split.
    - intros <-. destruct (chain_det _ _ _ _ C _ _ C') as [Q QR]. destruct (run_ok ds) as (H & g & fs & E & IV & _). rewrite E in *. cbn [hs_makers hs_heap] in *.
      apply in_map_iff in I. destruct I as ([sid [m0 s]] & Eq & I). apply in_map_iff in I'. destruct I' as ([sid' [m0' s']] & Eq' & I').
      unfold hm in Eq, Eq'. cbn [fst snd] in Eq, Eq'. injection Eq as D1 <-. injection Eq' as D2 <-. cbn [hk_root] in *.
      destruct (url_path_parse _ _ _ _ U) as (_ & L1 & _). destruct (url_path_parse _ _ _ _ U') as (_ & L2 & _).
      apply pieces_inj in Q; [|assumption|assumption]. subst raw'.
      assert (SS : (sid, (m0, s)) = (sid', (m0', s'))).
      { pose proof (wh_nd _ _ (in_whole _ _ _ _ _ IV)) as N. rewrite flat_map_app in N. apply nd_app in N. destruct N as (N & _).
        clear -N I I' QR. induction g as [|x g IH]; [destruct I|]. cbn [gt map flat_map] in N. apply nd_app in N. destruct N as (_ & N & DJ).
        assert (HA : forall s0 : atree, In (a_addr s0) (addrs s0)) by (intros [? ? ? ? ? ?]; left; reflexivity).
        assert (IN : forall sd md sx, In (sd, (md, sx)) g -> In (a_addr sx) (flat_map addrs (map (fun x => snd (snd x)) g))).
        { intros sd md sx Ix. apply in_flat_map. exists sx. split; [|apply HA]. apply in_map_iff. exists (sd, (md, sx)). auto. }
        destruct I as [->|I], I' as [->|I']; [reflexivity| | |apply IH; assumption]; exfalso; cbn [fst snd] in DJ.
        - apply (DJ (a_addr s)); [apply HA|]. rewrite QR. eapply IN. exact I'.
        - apply (DJ (a_addr s')); [apply HA|]. rewrite <- QR. eapply IN. exact I. }
      injection SS as -> -> ->. assert (digest_of m raw = digest_of m' raw) as DD by congruence. f_equal. f_equal.
      apply (digest_iff nv url url' m raw _ _ U U'). exact DD.
    - intros Q. injection Q as <- <-. destruct (load_at ds i url me a new Ei Oi) as (H & g & fs & m1 & raw1 & s & E & IV & U1 & J & A).
      destruct (load_at ds j url' me' a' new' Ej Oj) as (H2 & g2 & fs2 & m2 & raw2 & s2 & E2 & IV2 & U2 & J2 & A2).
      rewrite U in U1. rewrite U' in U2. injection U1 as <- <-. injection U2 as <- <-. rewrite E in E2. injection E2 as <- EG.
      assert (NK : NoDup (map fst g)).
      { destruct (c18_keys nv (loads_of ds)) as [X _]. rewrite <- (in_bare _ _ _ _ _ IV), keys_bare, map_map in X. exact X. }
      assert (RR : a_addr s = a_addr s2).
      { assert (X : In (digest_of m raw, HMK m (a_addr s2)) (map hm g)).
        { rewrite EG. change (digest_of m raw, HMK m (a_addr s2)) with (hm (digest_of m raw, (m, s2))). apply in_map. exact J2. }
        apply in_map_iff in X. destruct X as ([sx [mx s3]] & Eq & X). unfold hm in Eq. cbn [fst snd] in Eq. injection Eq as -> -> EA.
        apply (dget_in str_eqb str_eqb_iff _ _ _ NK) in X. apply (dget_in str_eqb str_eqb_iff _ _ _ NK) in J. rewrite J in X. injection X as ->. exact EA. }
      assert (DN : forall ks s0 par dep b, holds H par dep s0 -> aat s0 ks = Some b -> down H (a_addr s0) ks b).
      { intros ks. induction ks as [|k r IH]; intros [a0 v p c mm kk] par dep b Ho EA; apply holds_iff in Ho; destruct Ho as [(n0 & En & R) K].
        - cbn in EA. injection EA as <-. eapply down_here. exact En.
        - rewrite aat_cons in EA. cbn [a_kids] in EA. destruct (akid k kk) as [z|] eqn:EK; [|discriminate]. destruct (akid_some _ _ _ EK) as (x & y & -> & KP & KN).
          rewrite Forall_forall in K. cbn [a_addr]. eapply down_kid; [exact En| |eapply IH; [apply K; apply in_app_iff; right; left; reflexivity|exact EA]].
          destruct R as (_ & _ & _ & _ & _ & R6 & _). rewrite R6. unfold dict_of. apply in_map_iff. exists z. split; [rewrite KP; reflexivity|]. apply in_app_iff. right. left. reflexivity. }
      destruct (whole_in _ _ s (in_whole _ _ _ _ _ IV) ltac:(apply in_app_iff; left; eapply in_gt; exact J)) as [Hs _].
      destruct (whole_in _ _ s2 (in_whole _ _ _ _ _ IV2) ltac:(apply in_app_iff; left; eapply in_gt; exact J2)) as [Hs2 _].
      destruct (held_wft _ _ _ _ _ s IV ltac:(apply in_app_iff; left; eapply in_gt; exact J)) as [d W].
      pose proof (DN _ _ _ _ _ Hs2 A2) as D2. rewrite <- RR in D2. pose proof (down_at _ _ _ _ D2 s None 0 d Hs W eq_refl) as A3. rewrite A in A3. injection A3 as <-. reflexivity.
  Qed.
  Lemma tree_bare : forall ds, bare_state (trees nv mcn ds) = loads nv (loads_of ds).
  Proof. intros ds. destruct (run_ok ds) as (H & g & fs & _ & IV & <-). exact (in_bare _ _ _ _ _ IV). Qed.
  Lemma load_bare : forall ds url me, snd (load nv (trees nv mcn ds) url me) = snd (load nv (loads nv (loads_of ds)) url me).
  Proof. intros ds url me. rewrite <- tree_bare, load_erase. reflexivity. Qed.
  Lemma c68_new : forall ds i url me a new,
    nth_error ds i = Some (DLoad url me) -> nth_error (replies nv mcn ds) i = Some (RLoad (Ok (a, new))) ->
    (new = true <-> forall j b, j < i -> nth_error (replies nv mcn ds) j <> Some (RLoad (Ok (a, b)))).
  Proof.
    intros ds i url me a new E O. destruct (c68_load ds i url me E) as (r & O' & R). assert (r = Ok (a, new)) as -> by congruence. rewrite load_bare in R.
    assert (UP : exists m raw, url_path nv url = Some (m, raw)) by (destruct (c68_node _ _ _ _ _ _ E O) as (m & raw & _ & _ & U & _); eauto).
    destruct UP as (m & raw & U). pose proof (c15_new nv (loads_of (firstn i ds)) url me) as CN. rewrite U, R in CN.
    assert (KEY : (exists me0, In (m, raw, me0) (accepted nv (loads_of (firstn i ds)))) <->
                  exists j b, j < i /\ nth_error (replies nv mcn ds) j = Some (RLoad (Ok (a, b)))).
    { split.
      - intros (me0 & I). apply in_accepted in I. destruct I as (url0 & I & U0). unfold loads_of in I. apply in_flat_map in I.
        destruct I as (ev & Iv & Ie). destruct ev as [u0 m0| | |]; [|destruct Ie|destruct Ie|destruct Ie]. destruct Ie as [Ie|[]]. injection Ie as -> ->.
        apply In_nth_error in Iv. destruct Iv as [j Ej]. assert (Lj : j < i).
        { assert (X : j < length (firstn i ds)) by (apply nth_error_Some; congruence). rewrite firstn_length in X. lia. }
        assert (Ej' : nth_error ds j = Some (DLoad url0 me0)).
        { rewrite <- (firstn_skipn i ds). rewrite nth_error_app1; [exact Ej|]. apply nth_error_Some. congruence. }
        destruct (c68_load ds j url0 me0 Ej') as (r & Oj & Rj). pose proof (c15_new nv (loads_of (firstn j ds)) url0 me0) as C0. rewrite U0 in C0.
        destruct r as [[a0 n0]|e0]; [|rewrite load_bare in Rj; rewrite Rj in C0; destruct C0 as [[C0 _]|[C0 _]]; discriminate].
        exists j, n0. split; [exact Lj|]. rewrite Oj. do 4 f_equal.
        apply (c68_same ds j i url0 me0 a0 n0 url me a new Ej' Oj E O). congruence.
      - intros (j & b & Lj & Oj). destruct (reply_deed _ _ _ _ _ Oj) as [d Ed]. assert (EV : exists url0 me0, d = DLoad url0 me0).
        { destruct (at_deed ds j d Ed) as (H0 & g0 & f0 & H1 & g1 & f1 & H2 & g2 & f2 & _ & _ & _ & _ & _ & _ & _ & _ & _ & _ & X).
          destruct d as [url0 me0|b0| |]; [eauto|destruct X as (r & X); congruence|destruct X as (rows & X & _); congruence|destruct X as (rows & X & _); congruence]. }
        destruct EV as (url0 & me0 & ->). exists me0. apply in_accepted. exists url0. split.
        + unfold loads_of. apply in_flat_map. exists (DLoad url0 me0). split; [|left; reflexivity].
          rewrite <- (firstn_skipn i ds) in Ed. destruct (Nat.lt_ge_cases j (length (firstn i ds))) as [L|L].
          * rewrite nth_error_app1 in Ed by exact L. eapply nth_error_In. exact Ed.
          * exfalso. assert (X : i < length ds) by (apply nth_error_Some; congruence). rewrite firstn_length in L. lia.
        + rewrite <- U. rewrite <- (firstn_skipn i ds) in Ed. rewrite (firstn_skipn i ds) in Ed. apply (c68_same ds j i url0 me0 a b url me a new Ed Oj E O). reflexivity. }
    split.
    - intros -> j b Lj Oj. destruct CN as [[_ CN]|[CN _]]; [|discriminate]. apply CN. apply KEY. eauto.
    - intros NO. destruct CN as [[CN _]|[_ CN]]; [injection CN as ->; reflexivity|]. apply KEY in CN. destruct CN as (j & b & Lj & Oj). exfalso. exact (NO j b Lj Oj).
  Qed.
End Run.
