(** The whole output of pattern-make (C54). *)
From Coq Require Import String.
From Verif Require Import PyStr Defs UrlLib ParseUtils Spec Views Trees Cluster Patterns Matcher Maker Format Cmd Observe OwnSpec JsonSpec MetaSpec OutSpec PyStrProofs DefsProofs DictProofs PieceProofs BridgeProofs TreeProofs LoadProofs EntProofs MakeProofs PartProofs CmdProofs JsonProofs Erase.
From Coq Require Import Lia Permutation.

Lemma line_true : forall nv lines x me, In (x, me) (line_loads nv true lines) <-> me = Some x /\ In x (line_urls nv lines).
Proof.
  intros nv lines x me. unfold line_loads, line_urls. rewrite !in_flat_map. split.
  - intros (l & I & J). destruct (kind_of_line nv l) as [| |url] eqn:K; try contradiction. destruct J as [J|[]]. injection J as <- <-. split; [reflexivity|]. exists l. split; [exact I|]. rewrite K. left. reflexivity.
  - intros (-> & l & I & J). exists l. split; [exact I|]. destruct (kind_of_line nv l) as [| |url]; try contradiction. destruct J as [->|[]]. left. reflexivity.
Qed.
Lemma line_urls_ok : forall nv lines x, In x (line_urls nv lines) -> exists m raw, url_path nv x = Some (m, raw).
Proof.
  intros nv lines x I. unfold line_urls in I. apply in_flat_map in I. destruct I as (l & _ & J). unfold kind_of_line in J. destruct (forallb blank_byte l); [contradiction|]. destruct (utf8_decode (strip l)) as [url|]; [|contradiction]. destruct (url_path nv url) as [[m raw]|] eqn:U; [|contradiction]. destruct J as [<-|[]]. eauto.
Qed.
Lemma line_false : forall nv lines, line_loads nv false lines = map (fun l => (fst l, None)) (line_loads nv true lines).
Proof.
  intros. unfold line_loads. induction lines as [|l lines IH]; [reflexivity|]. cbn [flat_map]. rewrite map_app, <- IH. destruct (kind_of_line nv l); reflexivity.
Qed.
Lemma fmt_pattern_e : forall m t, fmt_pattern m (no_meta t) = fmt_pattern m t.
Proof. intros. unfold fmt_pattern. rewrite paths_em. destruct (paths t) as [|n l]; [reflexivity|]. cbn [map]. do 2 f_equal. destruct n; [reflexivity|]. cbn [map tl]. rewrite map_map. apply map_ext. apply em_pattern. Qed.
Lemma fmt_json_e : forall m t, fmt_json m (no_meta t) = fmt_json m t.
Proof.
  intros. unfold fmt_json. rewrite paths_em, em_cnt. destruct (paths t) as [|n l]; [reflexivity|]. cbn [map].
  replace (map t_pattern (tl (map no_meta n))) with (map t_pattern (tl n)); [reflexivity|]. destruct n; [reflexivity|]. cbn [map tl]. rewrite map_map. apply map_ext. intros. symmetry. apply em_pattern.
Qed.
Lemma mapM_Forall2 : forall A B (f : A -> res B) (l : list A) ys, Forall2 (fun x y => f x = Ok y) l ys -> mapM f l = Ok ys.
Proof. intros A B f l ys F. induction F as [|x y l ys E F IH]; [reflexivity|]. cbn [mapM]. rewrite E. cbn [bind]. rewrite IH. reflexivity. Qed.

Section Out.
  Context (nv : str -> bool) (mcn : Z) (lines : list str) (M : (2 <= mcn)%Z) (cs : list (url_meta * tree)).
  Notation h := (line_loads nv true lines).
  Hypothesis (E : make mcn (loads nv h) = Ok cs).
  Definition blk (mt : url_meta * tree) : block := BL (fst mt) (path_patterns (hd [] (paths (snd mt)))) (metas (snd mt)).
  Lemma leaf_in : forall m t nodes raw x, In (m, t) cs -> In nodes (paths t) -> Forall all_legal raw -> path_pieces nodes = map piece_of raw ->
    (In x (leaf_metas nodes) <-> In x (line_urls nv lines) /\ url_path nv x = Some (m, raw)).
  Proof.
    intros m t nodes raw x I IN LR EP. assert (LR' : Forall (Forall legal) raw) by (eapply Forall_impl; [|exact LR]; intros a Ha; apply all_legal_iff; exact Ha).
    destruct (c20_meta nv h mcn cs m t nodes raw M E I IN LR' EP) as [_ X].
    assert (Y : In (m, raw, Some x) (accepted nv h) <-> In x (line_urls nv lines) /\ url_path nv x = Some (m, raw)).
    { rewrite in_accepted. split; [intros (url & A & U); apply line_true in A; destruct A as [Q A]; injection Q as ->; auto|]. intros [A U]. exists x. split; [apply line_true; auto|exact U]. }
    rewrite <- Y. unfold leaf_metas. destruct (t_meta (path_leaf nodes)) as [l|]; [apply X|]. split; [intros []|apply X].
  Qed.
  Lemma leaf_nodup : forall m t nodes, In (m, t) cs -> In nodes (paths t) -> NoDup (leaf_metas nodes).
  Proof.
    intros m t nodes I IN. destruct (cluster_path nv h mcn cs m t M E I) as (Ps & sid & mk & _ & IM & EM & PP & PR & _). destruct (PR nodes IN) as (raw & EP & LR & _).
    assert (LR' : Forall (Forall legal) raw) by (eapply Forall_impl; [|exact LR]; intros a Ha; apply all_legal_iff; exact Ha).
    destruct (c20_meta nv h mcn cs m t nodes raw M E I IN LR' EP) as [_ X]. unfold leaf_metas. destruct (t_meta (path_leaf nodes)) as [l|]; [apply X|constructor].
  Qed.
  Lemma path_raw : forall m t nodes, In (m, t) cs -> In nodes (paths t) -> exists raw, path_pieces nodes = map piece_of raw /\ Forall all_legal raw /\ exists x, In x (line_urls nv lines) /\ url_path nv x = Some (m, raw).
  Proof.
    intros m t nodes I IN. assert (L : In (m, path_pieces nodes) (loaded nv h)).
    { eapply Permutation_in; [exact (c20 nv h mcn cs M E)|]. apply in_flat_map. exists (m, t). split; [exact I|]. cbn [fst snd]. apply in_map_iff. exists nodes. auto. }
    apply in_loaded in L. destruct L as (raw & me & A & EP). apply in_accepted in A. destruct A as (url & A & U). apply line_true in A. destruct A as [_ A]. exists raw. split; [exact EP|]. split; [apply (url_path_parse _ _ _ _ U)|]. exists url. auto.
  Qed.
  Lemma metas_in : forall m t x, In (m, t) cs -> (In x (metas t) <-> In x (line_urls nv lines) /\ exists nodes raw, In nodes (paths t) /\ Forall all_legal raw /\ path_pieces nodes = map piece_of raw /\ url_path nv x = Some (m, raw)).
  Proof.
    intros m t x I. rewrite metas_leaf, in_flat_map. split.
    - intros (nodes & IN & J). destruct (path_raw m t nodes I IN) as (raw & EP & LR & _). apply (leaf_in m t nodes raw x I IN LR EP) in J. destruct J as [J U]. split; [exact J|]. exists nodes, raw. auto.
    - intros (J & nodes & raw & IN & LR & EP & U). exists nodes. split; [exact IN|]. apply (leaf_in m t nodes raw x I IN LR EP). auto.
  Qed.
  Lemma blk_nodup : NoDup (List.concat (map b_urls (map blk cs))).
  Proof.
    set (l := flat_map (fun mt => map (pair (fst mt)) (paths (snd mt))) cs : list (url_meta * list tree)).
    set (P := flat_map (fun x => map (pair (fst x, path_pieces (snd x))) (leaf_metas (snd x))) l).
    assert (EQ : List.concat (map b_urls (map blk cs)) = map snd P).
    { unfold P, l. rewrite map_map, <- flat_map_concat_map. clear E. induction cs as [|[m t] c IH]; [reflexivity|]. cbn [flat_map]. rewrite flat_map_app, map_app, <- IH. f_equal. cbn [blk b_urls fst snd]. rewrite metas_leaf. induction (paths t) as [|n ps IHp]; [reflexivity|].
      cbn [map flat_map fst snd]. rewrite map_app, <- IHp, map_map. cbn [snd]. rewrite map_id. reflexivity. }
    assert (IL : forall x, In x l -> exists t, In (fst x, t) cs /\ In (snd x) (paths t)).
    { intros [m n] I. apply in_flat_map in I. destruct I as ([m' t] & I & J). cbn [fst snd] in J. apply in_map_iff in J. destruct J as (n' & Q & J). injection Q as <- <-. cbn [fst snd]. exists t. auto. }
    assert (NP : NoDup P).
    { unfold P. apply (NoDup_flat_map_pairs _ _ _ (fun x : url_meta * list tree => (fst x, path_pieces (snd x))) (fun x => leaf_metas (snd x))).
      - assert (Q : map (fun x : url_meta * list tree => (fst x, path_pieces (snd x))) l = flat_map (fun mt => map (fun nodes => (fst mt, path_pieces nodes)) (paths (snd mt))) cs).
        { unfold l. rewrite map_flat_map. apply flat_map_ext. intros [m t]. rewrite map_map. reflexivity. }
        rewrite Q. eapply Permutation_NoDup; [apply Permutation_sym; exact (c20 nv h mcn cs M E)|]. apply NoDup_nodup.
      - intros x I. destruct (IL x I) as (t & A & B). apply (leaf_nodup _ _ _ A B). }
    rewrite EQ. assert (INJ : forall a b, In a P -> In b P -> snd a = snd b -> a = b).
    { assert (X : forall k y, In (k, y) P -> exists m raw, url_path nv y = Some (m, raw) /\ k = (m, map piece_of raw)).
      { intros k y I. apply in_flat_map in I. destruct I as (x & I & J). apply in_map_iff in J. destruct J as (y' & Q & J). injection Q as <- <-. destruct (IL x I) as (t & A & B). destruct (path_raw _ _ _ A B) as (raw & EP & LR & _). apply (leaf_in _ _ _ _ _ A B LR EP) in J. exists (fst x), raw. split; [apply J|]. rewrite EP. reflexivity. }
      intros [k y] [k' y'] I J Q. cbn [snd] in Q. subst y'. destruct (X _ _ I) as (m & raw & U & ->). destruct (X _ _ J) as (m' & raw' & U' & ->). rewrite U in U'. injection U' as <- <-. reflexivity. }
    clear - NP INJ. induction P as [|a P IH]; [constructor|]. inversion NP as [|? ? N1 N2]; subst. cbn [map]. constructor.
    - intros I. apply in_map_iff in I. destruct I as (b & Q & I). apply N1. rewrite <- (INJ b a); [exact I|right; exact I|left; reflexivity|exact Q].
    - apply IH; [exact N2|]. intros x y X Y. apply INJ; right; assumption.
  Qed.
  Lemma blk_in : forall x, In x (List.concat (map b_urls (map blk cs))) <-> In x (line_urls nv lines).
  Proof.
    intros x. rewrite map_map, <- flat_map_concat_map, in_flat_map. split.
    - intros ([m t] & I & J). cbn [blk b_urls snd] in J. apply (metas_in m t x I) in J. apply J.
    - intros J. destruct (line_urls_ok _ _ _ J) as (m & raw & U). assert (L : In (m, map piece_of raw) (loaded nv h)). { apply in_loaded. exists raw, (Some x). split; [|reflexivity]. apply in_accepted. exists x. split; [apply line_true; auto|exact U]. }
      eapply Permutation_in in L; [|apply Permutation_sym; exact (c20 nv h mcn cs M E)]. apply in_flat_map in L. destruct L as ([m' t] & I & L). cbn [fst snd] in L. apply in_map_iff in L. destruct L as (nodes & Q & IN). injection Q as -> EP.
      exists (m, t). split; [exact I|]. cbn [blk b_urls snd]. apply (metas_in m t x I). split; [exact J|]. exists nodes, raw. split; [exact IN|]. split; [apply (url_path_parse _ _ _ _ U)|]. auto.
  Qed.
  Lemma blk_count : forall m t, In (m, t) cs -> b_count nv (blk (m, t)) = length (paths t).
  Proof.
    intros m t I. unfold b_count. cbn [blk b_urls snd]. set (B := nodup OutSpec.path_dec (map (url_path nv) (metas t))). destruct (cluster_path nv h mcn cs m t M E I) as (_ & _ & _ & _ & _ & _ & _ & _ & _ & _ & ND & _).
    set (f := fun o : option (url_meta * list str) => match o with Some (_, raw) => map piece_of raw | None => [] end).
    assert (IB : forall o, In o B <-> exists nodes raw, In nodes (paths t) /\ Forall all_legal raw /\ path_pieces nodes = map piece_of raw /\ o = Some (m, raw)).
    { intros o. unfold B. rewrite nodup_In, in_map_iff. split.
      - intros (x & <- & J). apply (metas_in m t x I) in J. destruct J as (_ & nodes & raw & IN & LR & EP & U). exists nodes, raw. auto.
      - intros (nodes & raw & IN & LR & EP & ->). destruct (path_raw m t nodes I IN) as (raw' & EP' & LR' & x & J & U). assert (raw' = raw) by (apply pieces_inj; [assumption|assumption|congruence]). subst raw'. exists x. split; [exact U|]. apply (metas_in m t x I). split; [exact J|]. exists nodes, raw. auto. }
    transitivity (length (map f B)); [symmetry; apply map_length|]. transitivity (length (map path_pieces (paths t))); [|apply map_length]. apply Permutation_length. apply NoDup_Permutation.
    - assert (NB : NoDup B) by apply NoDup_nodup. assert (INJ : forall a b, In a B -> In b B -> f a = f b -> a = b).
      { intros a b A1 B1 Q. apply IB in A1. apply IB in B1. destruct A1 as (? & ra & _ & La & _ & ->). destruct B1 as (? & rb & _ & Lb & _ & ->). cbn [f] in Q. do 2 f_equal. apply pieces_inj; assumption. }
      clear - NB INJ. induction B as [|a B IH]; [constructor|]. inversion NB as [|? ? N1 N2]; subst. cbn [map]. constructor.
      + intros J. apply in_map_iff in J. destruct J as (b & Q & J). apply N1. rewrite <- (INJ b a); [exact J|right; exact J|left; reflexivity|exact Q].
      + apply IH; [exact N2|]. intros x y X Y. apply INJ; right; assumption.
    - exact ND.
    - intros ks. rewrite !in_map_iff. split.
      + intros (o & <- & J). apply IB in J. destruct J as (nodes & raw & IN & _ & EP & ->). exists nodes. auto.
      + intros (nodes & <- & IN). destruct (path_raw m t nodes I IN) as (raw & EP & LR & _). exists (Some (m, raw)). split; [symmetry; exact EP|]. apply IB. exists nodes, raw. auto.
  Qed.
  Lemma hd_in : forall m t, In (m, t) cs -> In (hd [] (paths t)) (paths t).
  Proof. intros m t I. destruct (c20_count nv h mcn cs m t M E I) as [_ N]. destruct (paths t); [congruence|left; reflexivity]. Qed.
  Lemma fmt_pattern_blk : forall m t, In (m, t) cs -> fmt_pattern m t = [b_text (blk (m, t))].
  Proof. intros m t I. pose proof (hd_in m t I) as H. unfold fmt_pattern, b_text. cbn [blk b_meta b_patterns fst snd]. destruct (paths t); [destruct H|]. reflexivity. Qed.
  Lemma blk_shows : forall f mt, In mt cs -> exists rs, shows nv f (blk mt) rs /\ pformat f (fst mt) (if wants_url f then snd mt else no_meta (snd mt)) = Ok rs.
  Proof.
    intros f [m t] I. pose proof (fmt_pattern_blk m t I) as FP. destruct f; cbn [wants_url pformat fst snd shows].
    - rewrite fmt_pattern_e. exists (fmt_pattern m t). auto.
    - exists (fmt_cluster m t). split; [|reflexivity]. unfold fmt_cluster. rewrite FP. reflexivity.
    - unfold fmt_inline. rewrite FP. cbn [rev app]. eexists. split; [|reflexivity]. reflexivity.
    - rewrite fmt_json_e. exists (fmt_json m t). split; [|reflexivity]. rewrite (json_cluster nv h mcn cs m t M E I). eexists. split; [reflexivity|]. rewrite (blk_count m t I). apply json_text_read. apply vis_scalar. exact (cluster_vis nv h mcn cs m t M E I).
    - exists []. auto.
  Qed.
  Lemma run_blocks : forall f, exists rss, make_run nv mcn f lines = Ok (List.concat rss) /\ Forall2 (shows nv f) (map blk cs) rss.
  Proof.
    intros f. unfold make_run. rewrite make_load_ok. cbn [fst]. unfold make_process.
    assert (MK : make mcn (loads nv (line_loads nv (wants_url f) lines)) = Ok (map (fun mt => (fst mt, if wants_url f then snd mt else no_meta (snd mt))) cs)).
    { destruct (wants_url f); [rewrite E; f_equal; rewrite (map_ext _ (fun x => x)) by (intros []; reflexivity); symmetry; apply map_id|]. rewrite line_false, loads_e, make_e, E. reflexivity. }
    rewrite MK. cbn [bind]. assert (X : forall l, (forall mt, In mt l -> In mt cs) -> exists rss, Forall2 (fun mt rs => pformat f (fst mt) (snd mt) = Ok rs) (map (fun mt => (fst mt, if wants_url f then snd mt else no_meta (snd mt))) l) rss /\ Forall2 (shows nv f) (map blk l) rss).
    { induction l as [|mt l IH]; intros S; [exists []; split; constructor|]. destruct (blk_shows f mt (S mt (or_introl eq_refl))) as (rs & A & B). destruct IH as (rss & F1 & F2); [intros x J; apply S; right; exact J|]. exists (rs :: rss). cbn [map]. split; constructor; assumption. }
    destruct (X cs (fun _ J => J)) as (rss & F1 & F2). exists rss. split; [|exact F2]. apply mapM_Forall2 in F1. rewrite F1. reflexivity.
  Qed.
  Lemma blk_ok : forall b, In b (map blk cs) -> b_urls b <> [] /\ forall url, In url (b_urls b) -> exists raw, url_path nv url = Some (b_meta b, raw) /\
    (Forall (fun w => ~ In 92%N w) raw -> Forall2 regex_matches (b_patterns b) raw) /\
    forall url', In url' (line_urls nv lines) -> url_path nv url' = url_path nv url -> In url' (b_urls b).
  Proof.
    intros b I. apply in_map_iff in I. destruct I as ([m t] & <- & I). cbn [blk b_urls b_meta b_patterns fst snd]. pose proof (hd_in m t I) as HD. split.
    - destruct (path_raw m t _ I HD) as (raw & EP & LR & x & J & U). intros N. assert (X : In x (metas t)) by (apply (metas_in m t x I); split; [exact J|]; exists (hd [] (paths t)), raw; auto). rewrite N in X. exact X.
    - intros url J. apply (metas_in m t url I) in J. destruct J as (J & nodes & raw & IN & LR & EP & U). exists raw. split; [exact U|]. split.
      + intros NB. destruct (c21 nv h mcn cs m t M E I) as (Ps & _ & PP). rewrite (PP _ HD), <- (PP _ IN). apply (c22_pieces nv h mcn cs m t nodes raw M E I IN); [|exact EP|exact NB]. eapply Forall_impl; [|exact LR]; intros a Ha; apply all_legal_iff; exact Ha.
      + intros url' J' U'. apply (metas_in m t url' I). split; [exact J'|]. exists nodes, raw. split; [exact IN|]. split; [exact LR|]. split; [exact EP|]. rewrite U'. exact U.
  Qed.
End Out.
Lemma c54 : forall nv mcn lines, (2 <= mcn)%Z -> exists blocks,
  (forall f, exists rss, make_run nv mcn f lines = Ok (List.concat rss) /\ Forall2 (shows nv f) blocks rss) /\
  NoDup (List.concat (map b_urls blocks)) /\
  (forall url, In url (List.concat (map b_urls blocks)) <-> In url (line_urls nv lines)) /\
  (forall b, In b blocks -> b_urls b <> [] /\ forall url, In url (b_urls b) -> exists raw, url_path nv url = Some (b_meta b, raw) /\
     (Forall (fun w => ~ In 92%N w) raw -> Forall2 regex_matches (b_patterns b) raw) /\
     forall url', In url' (line_urls nv lines) -> url_path nv url' = url_path nv url -> In url' (b_urls b)).
Proof.
  intros nv mcn lines M. destruct (c19 nv (line_loads nv true lines) mcn M) as (cs & E). exists (map blk cs). split; [|split; [|split]].
  - exact (run_blocks nv mcn lines M cs E).
  - exact (blk_nodup nv mcn lines M cs E).
  - exact (blk_in nv mcn lines M cs E).
  - exact (blk_ok nv mcn lines M cs E).
Qed.
