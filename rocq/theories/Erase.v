(** The clusterer does not look at metadata. *)
From Coq Require Import String.
From Verif Require Import PyStr Defs UrlLib ParseUtils Views Trees Cluster Patterns Matcher Maker Observe MetaSpec PyStrProofs.
From Coq Require Import Lia.

Definition rmap {A B} (f : A -> B) (r : res A) : res B := match r with Ok a => Ok (f a) | Err e => Err e end.
Lemma rmap_bind : forall A B C (f : B -> C) (r : res A) (k : A -> res B), rmap f (x <- r ;; k x) = (x <- r ;; rmap f (k x)).
Proof. intros. destruct r; reflexivity. Qed.
Lemma mapM_rmap : forall A A' B B' (ea : A -> A') (eb : B -> B') (f : A -> res B) (g : A' -> res B') l,
  (forall x, g (ea x) = rmap eb (f x)) -> mapM g (map ea l) = rmap (map eb) (mapM f l).
Proof.
  intros A A' B B' ea eb f g l H. induction l as [|x l IH]; [reflexivity|]. cbn [map mapM]. rewrite H. destruct (f x); [|reflexivity]. cbn [rmap bind]. rewrite IH. destruct (mapM f l); reflexivity.
Qed.
Lemma foldM_rmap : forall S S' A A' (es : S -> S') (ea : A -> A') (f : S -> A -> res S) (g : S' -> A' -> res S') l s,
  (forall s x, g (es s) (ea x) = rmap es (f s x)) -> foldM g (map ea l) (es s) = rmap es (foldM f l s).
Proof.
  intros S S' A A' es ea f g l s H. revert s. induction l as [|x l IH]; intros s; [reflexivity|]. cbn [map foldM]. rewrite H. destruct (f s x); [|reflexivity]. cbn [rmap bind]. apply IH.
Qed.
Ltac dm r := match goal with |- context [mapM ?f ?l] => destruct (mapM f l) as [r|]; [|reflexivity] end.
(** ** dicts *)
Definition vmap {K V W} (f : V -> W) (d : list (K * V)) : list (K * W) := map (fun kv => (fst kv, f (snd kv))) d.
Lemma dget_vmap : forall K V W (eqb : K -> K -> bool) (f : V -> W) k d, dget eqb k (vmap f d) = option_map f (dget eqb k d).
Proof. intros. induction d as [|[k' v] d IH]; [reflexivity|]. cbn. destruct (eqb k k'); [reflexivity|]. exact IH. Qed.
Lemma dset_vmap : forall K V W (eqb : K -> K -> bool) (f : V -> W) k v d, dset eqb k (f v) (vmap f d) = vmap f (dset eqb k v d).
Proof. intros. induction d as [|[k' w] d IH]; [reflexivity|]. cbn. destruct (eqb k k'); [reflexivity|]. unfold vmap in *. cbn. f_equal. exact IH. Qed.
Lemma dapp_vmap : forall V W (f : V -> W) k x d, dapp k (f x) (vmap (map f) d) = vmap (map f) (dapp k x d).
Proof.
  intros. unfold dapp. rewrite dget_vmap. destruct (dget str_eqb k d) as [l|]; cbn [option_map].
  - rewrite <- (dset_vmap _ _ _ str_eqb (map f) k (l ++ [x]) d), map_app. reflexivity.
  - unfold vmap. rewrite map_app. reflexivity.
Qed.
(** ** trees *)
Notation em := no_meta.
Lemma em_val : forall t, t_val (em t) = t_val t. Proof. intros []. reflexivity. Qed.
Lemma em_pat : forall t, t_pat (em t) = t_pat t. Proof. intros []. reflexivity. Qed.
Lemma em_cnt : forall t, t_cnt (em t) = t_cnt t. Proof. intros []. reflexivity. Qed.
Lemma em_meta : forall t, t_meta (em t) = None. Proof. intros []. reflexivity. Qed.
Lemma em_kids : forall t, t_kids (em t) = map em (t_kids t). Proof. intros []. reflexivity. Qed.
Lemma em_piece : forall t, t_piece (em t) = t_piece t. Proof. intros []. reflexivity. Qed.
Lemma em_pattern : forall t, t_pattern (em t) = t_pattern t. Proof. intros []. reflexivity. Qed.
Lemma kid_split_em : forall key ks, kid_split key (map em ks) = option_map (fun s => match s with (a, k, b) => (map em a, em k, map em b) end) (kid_split key ks).
Proof.
  intros key. induction ks as [|k r IH]; [reflexivity|]. cbn [map kid_split]. rewrite em_piece. destruct (str_eqb key (t_piece k)); [reflexivity|]. rewrite IH. destruct (kid_split key r) as [[[a x] b]|]; reflexivity.
Qed.
Lemma build_em : forall f c kvs t n, build (em t) kvs c (fun m => m) n = (em (fst (build t kvs c f n)), snd (build t kvs c f n)).
Proof.
  intros f c. induction kvs as [|[pp pat] r IH]; intros [v p c0 m ks] n; [reflexivity|]. cbn [build no_meta]. rewrite kid_split_em. destruct (kid_split (piece pp) ks) as [[[a k] b]|]; cbn [option_map].
  - rewrite IH. destruct (build k r c f (Some false)) as [k' n']. cbn [fst snd no_meta]. rewrite map_app. reflexivity.
  - change (T pp pat 0 None []) with (em (T pp pat 0 None [])) at 1. rewrite IH. destruct (build _ r c f (Some true)) as [k' n']. cbn [fst snd no_meta]. rewrite map_app. reflexivity.
Qed.
Lemma incr_em : forall d ks t, incr_path (em t) ks d = em (incr_path t ks d).
Proof.
  intros d. induction ks as [|k r IH]; intros [v p c m kids]; [reflexivity|]. cbn [incr_path no_meta]. rewrite kid_split_em. destruct (kid_split k kids) as [[[a x] b]|]; cbn [option_map]; [|reflexivity]. rewrite IH, map_app. reflexivity.
Qed.
Lemma bfpp_em : forall t pps c me un, build_from_parsed_pieces (em t) pps c None un = rmap (fun r => (em (fst r), snd r)) (build_from_parsed_pieces t pps c me un).
Proof.
  intros. unfold build_from_parsed_pieces. change (add_meta None) with (fun m : option (list str) => m). rewrite (build_em (add_meta me)). destruct (build t _ c (add_meta me) None) as [t' [n|]]; [|reflexivity]. cbn [fst snd rmap]. destruct (un && negb n)%bool; [rewrite incr_em|]; reflexivity.
Qed.
Lemma bfn_em : forall t nodes, build_from_nodes (em t) (map em nodes) = rmap (fun r => (em (fst r), snd r)) (build_from_nodes t nodes).
Proof.
  intros. unfold build_from_nodes. rewrite <- map_rev. destruct (rev nodes) as [|n r]; [reflexivity|]. cbn [map]. rewrite em_cnt, em_meta, map_map. change (update_meta None) with (fun m : option (list str) => m).
  rewrite (build_em (update_meta (t_meta n))). rewrite (map_ext (fun x => (t_val (em x), Some (t_pattern (em x)))) (fun n => (t_val n, Some (t_pattern n)))) by (intros; rewrite em_val, em_pattern; reflexivity).
  destruct (build t _ (t_cnt n) (update_meta (t_meta n)) None) as [t' [b|]]; reflexivity.
Qed.
Lemma paths_em : forall t, paths (em t) = map (map em) (paths t).
Proof.
  fix IH 1. intros [v p c m ks]. destruct ks as [|k ks]; [reflexivity|]. change (map (cons (em (T v p c m (k :: ks)))) (flat_map paths (map em (k :: ks))) = map (map em) (map (cons (T v p c m (k :: ks))) (flat_map paths (k :: ks)))).
  rewrite !map_map. rewrite (map_ext (fun x => map em (T v p c m (k :: ks) :: x)) (fun x => em (T v p c m (k :: ks)) :: map em x)) by reflexivity. rewrite <- (map_map (map em) (cons (em (T v p c m (k :: ks))))). f_equal.
  generalize (k :: ks). induction l as [|x l IHl]; [reflexivity|]. cbn [map flat_map]. rewrite map_app, IH, IHl. reflexivity.
Qed.
(** ** nodes and items of a processor *)
Definition epn (n : pnode) : pnode := PN (pn_parent n) (pn_id n) (em (pn_tree n)).
Definition eit (i : item) : item := IT (it_pp i) (it_pat i) (map epn (it_bag i)).
Definition evi (vi : list parsed_piece * item) := (fst vi, eit (snd vi)).
Definition edi (di : dest * item) := (fst di, eit (snd di)).
Definition efw (r : list (cls * str * str) * list (dest * item)) := (fst r, map edi (snd r)).
Lemma epn_cnt : forall n, pn_cnt (epn n) = pn_cnt n. Proof. intros []. apply em_cnt. Qed.
Lemma epn_piece : forall n, pn_piece (epn n) = pn_piece n. Proof. intros []. apply em_piece. Qed.
Lemma bag_count_e : forall b, bag_count (map epn b) = bag_count b.
Proof. intros. unfold bag_count. rewrite map_map. f_equal. apply map_ext. apply epn_cnt. Qed.
Lemma bag_pcount_e : forall b, bag_pcount (map epn b) = bag_pcount b.
Proof. intros. unfold bag_pcount. rewrite map_map. f_equal. apply map_ext. intros n. rewrite epn_cnt. reflexivity. Qed.
Lemma p_nodes_e : forall b, p_nodes (map epn b) = p_nodes b.
Proof. intros. unfold p_nodes. generalize (@nil (list str * Z)). induction b as [|n b IH]; intros d; [reflexivity|]. cbn [map fold_left]. apply IH. Qed.
Lemma group_e : forall ns, group_nodes (map epn ns) = vmap (map epn) (group_nodes ns).
Proof.
  assert (E : forall ns d, fold_left (fun d n => dapp (pn_piece n) n d) (map epn ns) (vmap (map epn) d) = vmap (map epn) (fold_left (fun d n => dapp (pn_piece n) n d) ns d)).
  { induction ns as [|n ns IH]; intros d; [reflexivity|]. cbn [map fold_left]. rewrite epn_piece, dapp_vmap. apply IH. }
  intros ns. exact (E ns []).
Qed.
Lemma eit_count : forall i, it_count (eit i) = it_count i. Proof. intros. apply bag_count_e. Qed.
Lemma eit_piece : forall i, it_piece (eit i) = it_piece i. Proof. reflexivity. Qed.

Section L.
  Context (mcn : Z) (inner : nat -> bool -> tree -> res (list tree)) (level : nat) (last_level last_path kw : bool).
  Lemma pre_seek_e : forall b, pre_seek mcn level (map epn b) = pre_seek mcn level b.
  Proof. intros. unfold pre_seek, piece_seek. rewrite p_nodes_e, bag_count_e. reflexivity. Qed.
  Definition esum (s : (cls * str * str) + (dest * item)) := match s with inl a => inl a | inr b => inr (edi b) end.
  Lemma piece_one_e : forall kb, piece_one mcn level last_path (fst kb, map epn (snd kb)) = rmap esum (piece_one mcn level last_path kb).
  Proof.
    intros [k b]. unfold piece_one. cbn [fst snd]. rewrite bag_count_e, bag_pcount_e, pre_seek_e. destruct (if (bag_count b <? mcn)%Z then _ else _) as [[|]|]; [reflexivity| |reflexivity]. cbn [bind]. destruct b as [|n b]; [reflexivity|]. destruct n as [pa id tr]. cbn. rewrite em_val. reflexivity.
  Qed.
  Lemma lefts_e : forall l, lefts (map esum l) = lefts l.
  Proof. induction l as [|[a|b] l IH]; [reflexivity| |]; cbn [map esum lefts]; rewrite IH; reflexivity. Qed.
  Lemma rights_e : forall l, rights (map esum l) = map edi (rights l).
  Proof. induction l as [|[a|b] l IH]; [reflexivity| |]; cbn [map esum rights]; rewrite IH; reflexivity. Qed.
  Lemma counts_e : forall bags, map (fun kb : str * bag => bag_count (snd kb)) (vmap (map epn) bags) = map (fun kb => bag_count (snd kb)) bags.
  Proof. intros. unfold vmap. rewrite map_map. apply map_ext. intros []. apply bag_count_e. Qed.
  Lemma lit_e : forall bags, map (fun kb : str * bag => (CPiece, fst kb, fst kb)) (vmap (map epn) bags) = map (fun kb : str * bag => (CPiece, fst kb, fst kb)) bags.
  Proof. intros. unfold vmap. rewrite map_map. reflexivity. Qed.
  Lemma piece_bags_e : forall bags, piece_bags mcn level last_level last_path kw (vmap (map epn) bags) = rmap efw (piece_bags mcn level last_level last_path kw bags).
  Proof.
    intros bags. unfold piece_bags. cbv zeta. rewrite counts_e, lit_e. unfold vmap. rewrite map_length.
    rewrite (mapM_rmap _ _ _ _ (fun kb => (fst kb, map epn (snd kb))) esum (piece_one mcn level last_path)) by apply piece_one_e.
    assert (E : (r <- rmap (map esum) (mapM (piece_one mcn level last_path) bags) ;; Ok (lefts r, rights r)) = rmap efw (r <- mapM (piece_one mcn level last_path) bags ;; Ok (lefts r, rights r))).
    { dm r. cbn [bind rmap]. unfold efw. cbn [fst snd]. rewrite lefts_e, rights_e. reflexivity. }
    unfold bag in *. rewrite E. destruct bags as [|kb bags]; [reflexivity|]. cbn [is_nil map]. destruct (last_level && kw)%bool; [reflexivity|]. destruct (Z.ltb _ _); [|reflexivity]. destruct (max_count _); [|reflexivity]. cbn [bind]. destruct (negb _); reflexivity.
  Qed.
  Lemma piece_stage_e : forall ns, piece_stage mcn level last_level last_path kw (map epn ns) = rmap efw (piece_stage mcn level last_level last_path kw ns).
  Proof. intros. unfold piece_stage. rewrite group_e. apply piece_bags_e. Qed.

  Definition evb (b : vbucket) : vbucket := VB (vb_depth b) (vmap evi (vb_objs b)) (vb_count b) (vb_root b).
  Lemma forward_e : forall c vi, forward last_path c (evi vi) = edi (forward last_path c vi).
  Proof. reflexivity. Qed.
  Lemma vb_add_e : forall vi b, vb_add (evi vi) (evb b) = rmap evb (vb_add vi b).
  Proof.
    intros vi b. unfold vb_add. change (fst (evi vi)) with (fst vi). change (snd (evi vi)) with (eit (snd vi)). change (vb_root (evb b)) with (vb_root b). rewrite eit_count, eit_piece. destruct (build_from_parsed_pieces _ _ _ _ _) as [r|]; [|reflexivity]. cbn [bind rmap]. unfold evb at 4. cbn [vb_depth vb_objs vb_count vb_root]. rewrite <- dset_vmap. reflexivity.
  Qed.
  Lemma multi_add_e : forall d vi, multi_add (vmap evb d) (evi vi) = rmap (vmap evb) (multi_add d vi).
  Proof.
    intros d vi. unfold multi_add. change (fst (evi vi)) with (fst vi). rewrite dget_vmap.
    replace (match option_map evb (dget str_eqb (view_key (fst vi)) d) with Some b => b | None => VB (length (fst vi)) [] 0 new_root end) with (evb (match dget str_eqb (view_key (fst vi)) d with Some b => b | None => VB (length (fst vi)) [] 0 new_root end)) by (destruct (dget _ _ d); reflexivity).
    rewrite vb_add_e. destruct (vb_add vi _) as [b'|]; [|reflexivity]. cbn [rmap bind]. rewrite dset_vmap. reflexivity.
  Qed.
  Definition etr (r : list (str * (list parsed_piece * item)) * Z * str) := (vmap evi (fst (fst r)), snd (fst r), snd r).
  Lemma transfer_e : forall b t, transfer (evb b) t = rmap etr (transfer b t).
  Proof.
    intros b t. unfold transfer.
    set (g := fun s nodes => let key := List.concat (map t_piece (tl nodes)) in match dget str_eqb key (vb_objs (evb b)) with None => Err EKey | Some vi => Ok (dset str_eqb (it_piece (snd vi)) vi (fst s), snd s + it_count (snd vi))%Z end).
    set (f := fun s nodes => let key := List.concat (map t_piece (tl nodes)) in match dget str_eqb key (vb_objs b) with None => Err EKey | Some vi => Ok (dset str_eqb (it_piece (snd vi)) vi (fst s), snd s + it_count (snd vi))%Z end).
    pose proof (foldM_rmap _ _ _ _ (fun s : list (str * (list parsed_piece * item)) * Z => (vmap evi (fst s), snd s)) (fun x => x) f g (paths t) ([], 0%Z)) as E. rewrite map_id in E. cbv beta in E. cbn [fst snd] in E. change (vmap evi []) with (@nil (str * (list parsed_piece * item))) in E. rewrite E; clear E.
    - destruct (foldM f (paths t) _) as [[objs n]|]; [|reflexivity]. cbn [rmap bind fst snd]. destruct (paths t); reflexivity.
    - intros s x. unfold f, g. cbv zeta. cbn [evb vb_objs fst snd]. rewrite dget_vmap. destruct (dget _ _ (vb_objs b)) as [vi|]; [|reflexivity]. cbn [option_map rmap fst snd]. rewrite <- dset_vmap. cbn [evi snd]. rewrite eit_count. reflexivity.
  Qed.
  Lemma multi_tree_e : forall c b t, multi_tree mcn last_path c (evb b) t = rmap efw (multi_tree mcn last_path c b t).
  Proof.
    intros c b t. unfold multi_tree. rewrite transfer_e. destruct (transfer b t) as [[[objs n] p]|]; [|reflexivity]. cbn [rmap bind etr fst snd]. destruct (n <? mcn)%Z; cbn [rmap]; unfold efw, vmap; cbn [fst snd]; rewrite ?map_map; reflexivity.
  Qed.
  Lemma flat_efw : forall rs, (flat_map fst (map efw rs), flat_map snd (map efw rs)) = efw (flat_map fst rs, flat_map snd rs).
  Proof.
    intros rs. unfold efw at 3. cbn [fst snd]. f_equal; induction rs as [|r rs IH]; [reflexivity| |reflexivity|]; cbn [map flat_map efw fst snd]; rewrite IH, ?map_app; reflexivity.
  Qed.
  Lemma multi_bucket_e : forall c b, multi_bucket mcn inner last_path c (evb b) = rmap efw (multi_bucket mcn inner last_path c b).
  Proof.
    intros c b. unfold multi_bucket. cbn [evb vb_count vb_depth vb_root vb_objs]. destruct (vb_count b <? mcn)%Z; [unfold efw, vmap; cbn [rmap fst snd]; rewrite !map_map; reflexivity|].
    destruct (inner _ _ _) as [ts|]; [|reflexivity]. cbn [bind]. fold (evb b). rewrite <- (map_id ts) at 1. rewrite (mapM_rmap _ _ _ _ (fun x => x) efw (multi_tree mcn last_path c b)) by (intros; apply multi_tree_e).
    dm rs. cbn [rmap bind]. rewrite flat_efw. reflexivity.
  Qed.
  Lemma multi_stage_e : forall c l, multi_stage mcn inner last_path c (map evi l) = rmap efw (multi_stage mcn inner last_path c l).
  Proof.
    intros c l. unfold multi_stage. pose proof (foldM_rmap _ _ _ _ (vmap evb) evi multi_add multi_add l [] multi_add_e) as E. change (vmap evb []) with (@nil (str * vbucket)) in E. rewrite E. clear E. destruct (foldM multi_add l []) as [d|]; [|reflexivity]. cbn [rmap bind].
    unfold vmap. rewrite (mapM_rmap _ _ _ _ (fun kv => (fst kv, evb (snd kv))) efw (fun kb => multi_bucket mcn inner last_path c (snd kb))) by (intros; apply multi_bucket_e).
    dm rs. cbn [rmap bind]. rewrite flat_efw. reflexivity.
  Qed.
  Lemma to_view_e : forall c l, to_view c (map edi l) = map evi (to_view c l).
  Proof. intros c. induction l as [|[d i] l IH]; [reflexivity|]. unfold to_view in *. cbn [map flat_map edi fst snd]. rewrite IH, map_app. f_equal. destruct d; [destruct (cls_eqb c c0)|]; reflexivity. Qed.
  Lemma to_length_e : forall l, to_length (map edi l) = map eit (to_length l).
  Proof. induction l as [|[d i] l IH]; [reflexivity|]. unfold to_length in *. cbn [map flat_map edi fst snd]. rewrite IH, map_app. f_equal. destruct d; reflexivity. Qed.

  Lemma lb_count_e : forall b, lb_count (map eit b) = lb_count b.
  Proof. intros. unfold lb_count. rewrite map_map. f_equal. apply map_ext. apply eit_count. Qed.
  Lemma it_counts_e : forall b, map it_count (map eit b) = map it_count b.
  Proof. intros. rewrite map_map. apply map_ext. apply eit_count. Qed.
  Lemma lac_e : forall b, length_as_cluster mcn (map eit b) = length_as_cluster mcn b.
  Proof. intros. unfold length_as_cluster. rewrite map_length, lb_count_e, it_counts_e. reflexivity. Qed.
  Lemma len_add_e : forall d i, len_add (vmap (map eit) d) (eit i) = rmap (vmap (map eit)) (len_add d i).
  Proof.
    intros d i. unfold len_add. change (it_pp (eit i)) with (it_pp i). rewrite eit_piece. destruct (piece_length (it_pp i)) as [n|]; [|reflexivity]. cbn [bind]. rewrite dget_vmap. destruct (dget Z.eqb n d) as [b|]; cbn [option_map].
    - rewrite map_map, (map_ext (fun x => it_piece (eit x)) it_piece) by (intros; apply eit_piece). destruct (str_in _ _); [reflexivity|]. cbn [rmap]. rewrite <- (dset_vmap _ _ _ Z.eqb (map eit) n (b ++ [i]) d), map_app. reflexivity.
    - cbn [rmap]. unfold vmap. rewrite map_app. reflexivity.
  Qed.
  Lemma length_pattern_e : forall b, length_pattern (map eit b) = length_pattern b.
  Proof. intros [|i b]; reflexivity. Qed.
  Lemma finish_e : forall c b, finish c (map eit b) = finish c b.
  Proof. intros. unfold finish. rewrite map_map. reflexivity. Qed.
  Lemma set_pat_e : forall p b, map (set_pat p) (map eit b) = map eit (map (set_pat p) b).
  Proof. intros. rewrite !map_map. reflexivity. Qed.
  Lemma bags_e : forall b, flat_map it_bag (map eit b) = map epn (flat_map it_bag b).
  Proof. induction b as [|i b IH]; [reflexivity|]. cbn [map flat_map eit it_bag]. rewrite IH, map_app. reflexivity. Qed.
  Lemma length_final_e : forall b, length_final mcn (map eit b) = length_final mcn b.
  Proof. intros. unfold length_final. rewrite lac_e, length_pattern_e. destruct (length_as_cluster mcn b) as [[|]|]; [| |reflexivity]; cbn [bind]; [destruct (length_pattern b); [|reflexivity]; cbn [bind]; rewrite set_pat_e|]; rewrite finish_e; reflexivity. Qed.
  Definition els (s : list (cls * str * str) + list item) := match s with inl a => inl a | inr b => inr (map eit b) end.
  Lemma length_one_e : forall b, length_one mcn level (map eit b) = rmap els (length_one mcn level b).
  Proof.
    intros. unfold length_one. rewrite lac_e, length_pattern_e, bags_e, pre_seek_e. destruct (length_as_cluster mcn b) as [[|]|]; [|reflexivity|reflexivity]. cbn [bind]. destruct (pre_seek mcn level _) as [s|]; [|reflexivity]. cbn [bind]. destruct (length_pattern b); [|reflexivity]. cbn [bind]. rewrite set_pat_e. destruct s; cbn [rmap els]; rewrite ?finish_e; reflexivity.
  Qed.
  Definition elf (r : list (cls * str * str) * list (list item)) := (fst r, map (map eit) (snd r)).
  Lemma lefts_l : forall l, lefts (map els l) = lefts l.
  Proof. induction l as [|[a|b] l IH]; [reflexivity| |]; cbn [map els lefts]; rewrite IH; reflexivity. Qed.
  Lemma rights_l : forall l, rights (map els l) = map (map eit) (rights l).
  Proof. induction l as [|[a|b] l IH]; [reflexivity| |]; cbn [map els rights]; rewrite IH; reflexivity. Qed.
  Lemma lb_counts_e : forall bs, map lb_count (map (map eit) bs) = map lb_count bs.
  Proof. intros. rewrite map_map. apply map_ext. apply lb_count_e. Qed.
  Lemma length_stage_e : forall l, length_stage mcn level (map eit l) = rmap elf (length_stage mcn level l).
  Proof.
    intros l. unfold length_stage. cbv zeta. pose proof (foldM_rmap _ _ _ _ (vmap (map eit)) eit len_add len_add l [] len_add_e) as E. change (vmap (map eit) []) with (@nil (Z * list item)) in E. rewrite E. clear E. destruct (foldM len_add l []) as [d|]; [|reflexivity]. cbn [rmap bind].
    replace (map snd (vmap (map eit) d)) with (map (map eit) (map snd d)) by (unfold vmap; rewrite !map_map; reflexivity). generalize (map snd d). intros ls. rewrite map_length, lb_counts_e.
    rewrite (mapM_rmap _ _ _ _ (map eit) els (length_one mcn level)) by apply length_one_e. rewrite (mapM_rmap _ _ _ _ (map eit) (fun x => x) (length_final mcn)) by (intros; rewrite length_final_e; destruct (length_final mcn x); reflexivity).
    assert (E : (r <- rmap (map els) (mapM (length_one mcn level) ls) ;; Ok (List.concat (lefts r), rights r)) = rmap elf (r <- mapM (length_one mcn level) ls ;; Ok (List.concat (lefts r), rights r))).
    { dm r. cbn [bind rmap]. unfold elf. cbn [fst snd]. rewrite lefts_l, rights_l. reflexivity. }
    rewrite E. destruct ls as [|b0 ls]; [reflexivity|]. cbn [is_nil map]. destruct (Z.ltb _ _); [|reflexivity]. destruct (max_count _); [|reflexivity]. cbn [bind]. destruct (negb _); [|reflexivity]. dm r. cbn [rmap bind elf fst snd map]. rewrite map_id. reflexivity.
  Qed.
  Lemma concat_e : forall ls, List.concat (map (map eit) ls) = map eit (List.concat ls).
  Proof. induction ls as [|x l IH]; [reflexivity|]. cbn [map List.concat]. rewrite IH, map_app. reflexivity. Qed.
  Lemma fuzzy_set_e : forall fp ls, fuzzy_set fp (map (map eit) ls) = fuzzy_set fp ls.
  Proof.
    intros. unfold fuzzy_set. rewrite concat_e. assert (E : forall p, finish CFuzzy (map (set_pat p) (map eit (List.concat ls))) = finish CFuzzy (map (set_pat p) (List.concat ls))) by (intros p; rewrite set_pat_e; apply finish_e).
    destruct fp as [p|]; [cbn [bind]; rewrite E; reflexivity|]. destruct (List.concat ls) as [|i l]; [reflexivity|]. cbn [map]. change (it_pp (eit i)) with (it_pp i). destruct (wildcard_rule _) as [p|]; [|reflexivity]. cbn [bind]. specialize (E p). cbn [map] in E. rewrite E. reflexivity.
  Qed.
  Definition efs (s : list (list item) * bool * option str * list (cls * str * str)) := match s with (c, f, p, d) => (map (map eit) c, f, p, d) end.
  Lemma fuzzy_add_e : forall s b, fuzzy_add mcn (efs s) (map eit b) = rmap efs (fuzzy_add mcn s b).
  Proof.
    intros [[[c f] p] d] b. unfold fuzzy_add. cbn [efs]. destruct f.
    - change [map eit b] with (map (map eit) [b]). rewrite fuzzy_set_e. destruct (fuzzy_set p [b]) as [[q r]|]; reflexivity.
    - cbn [rmap efs]. rewrite map_app, app_length, map_length, app_length. reflexivity.
  Qed.
  Lemma fuzzy_end_e : forall s, fuzzy_end mcn (efs s) = fuzzy_end mcn s.
  Proof. intros [[[c f] p] d]. unfold fuzzy_end. cbn [efs]. rewrite lb_counts_e, fuzzy_set_e, concat_e, finish_e. reflexivity. Qed.
  Lemma fuzzy_stage_e : forall ls, fuzzy_stage mcn (map (map eit) ls) = fuzzy_stage mcn ls.
  Proof.
    intros ls. unfold fuzzy_stage. pose proof (foldM_rmap _ _ _ _ efs (map eit) (fuzzy_add mcn) (fuzzy_add mcn) ls ([], false, None, []) fuzzy_add_e) as E. cbn [efs map] in E. rewrite E. clear E.
    destruct (foldM (fuzzy_add mcn) ls _) as [s|]; [|reflexivity]. cbn [rmap bind]. apply fuzzy_end_e.
  Qed.
  Lemma run_level_e : forall ns, run_level mcn inner level last_level last_path kw (map epn ns) = run_level mcn inner level last_level last_path kw ns.
  Proof.
    intros ns. unfold run_level. rewrite piece_stage_e. destruct (piece_stage mcn level last_level last_path kw ns) as [[d0 f0]|]; [|reflexivity]. cbn [rmap bind efw fst snd].
    rewrite to_view_e, multi_stage_e. destruct (multi_stage mcn inner last_path CBase _) as [[d1 f1]|]; [|reflexivity]. cbn [rmap bind efw fst snd].
    rewrite <- map_app, to_view_e, multi_stage_e. destruct (multi_stage mcn inner last_path CMixed _) as [[d2 f2]|]; [|reflexivity]. cbn [rmap bind efw fst snd].
    rewrite <- !map_app, to_view_e, multi_stage_e. destruct (multi_stage mcn inner last_path CLdsf _) as [[d3 f3]|]; [|reflexivity]. cbn [rmap bind efw fst snd].
    rewrite <- !map_app, to_length_e, length_stage_e. destruct (length_stage mcn level _) as [[d4 ls]|]; [|reflexivity]. cbn [rmap bind elf fst snd]. rewrite fuzzy_stage_e. reflexivity.
  Qed.
End L.

Lemma node_pattern_e : forall pm t, node_pattern pm (em t) = node_pattern pm t.
Proof. intros. unfold node_pattern. rewrite em_piece, em_pattern. reflexivity. Qed.
Lemma pn_kids_e : forall n, pn_kids (epn n) = map epn (pn_kids n).
Proof. intros [p i t]. unfold pn_kids. cbn [pn_id pn_tree epn]. rewrite em_kids, !map_map. apply map_ext. intros k. unfold epn. cbn [pn_parent pn_id pn_tree]. change (pn_cnt (PN p i (em t))) with (t_cnt (em t)). rewrite em_cnt, em_piece. reflexivity. Qed.
Lemma flat_bags_e : forall d : list (str * list pnode), flat_map snd (vmap (map epn) d) = map epn (flat_map snd d).
Proof. induction d as [|[k b] d IH]; [reflexivity|]. unfold vmap in *. cbn [map flat_map fst snd]. rewrite map_app. f_equal. exact IH. Qed.
Lemma next_groups_e : forall pm ns, next_groups pm (map epn ns) = vmap (map epn) (next_groups pm ns).
Proof.
  intros pm ns. unfold next_groups, next_bags. rewrite group_e, flat_bags_e. generalize (flat_map snd (group_nodes ns)). intros l.
  assert (E : forall l d, fold_left (fun d n => dapp (node_pattern pm (pn_tree n)) (pn_kids n) d) (map epn l) (vmap (map (map epn)) d) = vmap (map (map epn)) (fold_left (fun d n => dapp (node_pattern pm (pn_tree n)) (pn_kids n) d) l d)).
  { clear. induction l as [|n l IH]; intros d; [reflexivity|]. cbn [map fold_left]. rewrite pn_kids_e. change (pn_tree (epn n)) with (em (pn_tree n)). rewrite node_pattern_e, dapp_vmap. apply IH. }
  specialize (E l []). change (vmap (map (map epn)) []) with (@nil (str * list (list pnode))) in E. rewrite E. unfold vmap. rewrite !map_map. apply map_ext. intros [k b]. cbn [fst snd]. f_equal. induction b as [|x b IH]; [reflexivity|]. cbn [map List.concat]. rewrite map_app, IH. reflexivity.
Qed.
Lemma proc_e : forall mcn inner d level pd kw ns, proc mcn inner d level pd kw (map epn ns) = proc mcn inner d level pd kw ns.
Proof.
  intros mcn inner. induction d as [|d IH]; intros level pd kw ns; cbn [proc]; rewrite run_level_e; destruct (run_level _ _ _ _ _ _ ns) as [dn|]; try reflexivity. cbn [bind]. rewrite next_groups_e. unfold vmap.
  rewrite (mapM_rmap _ _ _ _ (fun kv => (fst kv, map epn (snd kv))) (fun x => x) (fun g => p <- proc mcn inner d (S level) pd kw (snd g) ;; Ok (fst g, p))).
  - dm nx. cbn [rmap bind]. rewrite map_id. reflexivity.
  - intros [k g]. cbn [fst snd]. rewrite IH. destruct (proc _ _ d _ _ _ g); reflexivity.
Qed.
Lemma annotate_e : forall t p, annotate p (em t) = em (annotate p t).
Proof.
  fix IH 1. intros [v pa c m ks] [pm n nx]. cbn [annotate no_meta]. destruct (dget str_eqb (piece v) pm) as [q|]; [|reflexivity]. cbn [no_meta]. f_equal. destruct (dget str_eqb q nx) as [p'|]; [|reflexivity].
  revert ks. induction ks as [|k ks IHk]; [reflexivity|]. cbn [map]. rewrite IH. f_equal. exact IHk.
Qed.
Lemma process_e : forall mcn inner d pd kw t, process mcn inner d pd kw (em t) = rmap (fun r => (em (fst r), snd r)) (process mcn inner d pd kw t).
Proof.
  intros. unfold process. change [PN None [] (em t)] with (map epn [PN None [] t]). rewrite proc_e. destruct (proc _ _ _ _ _ _ _) as [p|]; [|reflexivity]. cbn [bind rmap fst snd]. rewrite annotate_e. reflexivity.
Qed.
Lemma split_e : forall t, split_by_pattern (em t) = rmap (map em) (split_by_pattern t).
Proof.
  intros t. unfold split_by_pattern. rewrite paths_em. enough (E : foldM split_add (map (map em) (paths t)) (vmap em []) = rmap (vmap em) (foldM split_add (paths t) [])). change (vmap em []) with (@nil (str * tree)) in E. rewrite E. clear E. 2: apply foldM_rmap.
  - destruct (foldM split_add (paths t) []) as [d|]; [|reflexivity]. cbn [rmap bind]. unfold vmap. rewrite !map_map. reflexivity.
  - intros d ns. unfold split_add. assert (E : path_id (map em ns) = path_id ns) by (unfold path_id; rewrite map_map; f_equal; apply map_ext; apply em_pattern). rewrite E, dget_vmap.
    replace (match option_map em (dget str_eqb (path_id ns) d) with Some t => t | None => new_root end) with (em (match dget str_eqb (path_id ns) d with Some t => t | None => new_root end)) by (destruct (dget _ _ d); reflexivity).
    replace (tl (map em ns)) with (map em (tl ns)) by (destruct ns; reflexivity). rewrite bfn_em. destruct (build_from_nodes _ (tl ns)) as [[sub b]|]; [|reflexivity]. cbn [rmap bind fst snd]. rewrite dset_vmap. reflexivity.
Qed.
Lemma concat_em : forall l, List.concat (map (map em) l) = map em (List.concat l).
Proof. induction l as [|x l IH]; [reflexivity|]. cbn [map List.concat]. rewrite IH, map_app. reflexivity. Qed.
Lemma loop_e : forall mcn inner fuel d pd kw t, cluster_loop mcn inner fuel d pd kw (em t) = rmap (map em) (cluster_loop mcn inner fuel d pd kw t).
Proof.
  intros mcn inner. induction fuel as [|fuel IH]; intros d pd kw t; [reflexivity|]. cbn [cluster_loop]. rewrite em_cnt. destruct (t_cnt t <=? 0)%Z; [reflexivity|]. rewrite process_e. destruct (process _ _ _ _ _ t) as [[t' s]|]; [|reflexivity]. cbn [rmap bind fst snd].
  destruct (negb s); [reflexivity|]. rewrite split_e. destruct (split_by_pattern t') as [subs|]; [|reflexivity]. cbn [rmap bind]. rewrite (mapM_rmap _ _ _ _ em (map em) (cluster_loop mcn inner fuel d pd kw)) by (intros; apply IH).
  dm rs. cbn [rmap bind]. rewrite concat_em. reflexivity.
Qed.
Lemma cluster_e : forall mcn m kw t, cluster mcn m kw (em t) = rmap (map em) (cluster mcn m kw t).
Proof.
  intros. unfold cluster. change (cluster_n 2 mcn (depth m) (path_depth m) kw) with (fun t => cluster_loop mcn (fun d kw t => cluster_n 1 mcn d d kw t) (S (length (paths t))) (depth m) (path_depth m) kw t). cbv beta. rewrite paths_em, map_length. apply loop_e.
Qed.
(** ** makers *)
Definition emk (mk : maker) : maker := MK (mk_meta mk) (em (mk_root mk)).
Definition est (st : state) : state := vmap emk st.
Lemma maker_load_e : forall mk pps me, maker_load (emk mk) pps None = (emk (fst (maker_load mk pps me)), snd (maker_load mk pps me)).
Proof.
  intros. unfold maker_load. cbn [emk mk_root mk_meta]. rewrite (bfpp_em _ _ _ me). destruct (build_from_parsed_pieces (mk_root mk) pps 1 me true) as [[t n]|e]; [reflexivity|]. cbn [rmap fst snd]. rewrite (build_em (fun m => m)). reflexivity.
Qed.
Lemma load_e : forall nv st url me, load nv (est st) url None = (est (fst (load nv st url me)), snd (load nv st url me)).
Proof.
  intros. unfold load. destruct (parse nv url) as [[m [[|p l]|[|p l]]]|e]; try reflexivity. unfold est. rewrite dget_vmap.
  replace (match option_map emk (dget str_eqb (parsed_digest m (PUrl (p :: l))) st) with Some mk => mk | None => MK m new_root end) with (emk (match dget str_eqb (parsed_digest m (PUrl (p :: l))) st with Some mk => mk | None => MK m new_root end)) by (destruct (dget _ _ st); reflexivity).
  rewrite (maker_load_e _ _ me). destruct (maker_load _ (p :: l) me) as [mk' o]. cbn [fst snd]. rewrite dset_vmap. reflexivity.
Qed.
Lemma loads_e : forall nv h, loads nv (map (fun l => (fst l, None)) h) = est (loads nv h).
Proof.
  intros nv h. induction h as [|[url me] h IH] using rev_ind; [reflexivity|]. unfold loads in *. rewrite map_app, !fold_left_app, IH. cbn [map fold_left fst snd]. rewrite (load_e _ _ _ me). reflexivity.
Qed.
Lemma make_e : forall mcn st, make mcn (est st) = no_metas (make mcn st).
Proof.
  intros mcn st. unfold make, est, vmap. rewrite (mapM_rmap _ _ _ _ (fun sm => (fst sm, emk (snd sm))) (map (fun mt => (fst mt, em (snd mt)))) (fun sm => ts <- maker_make mcn (snd sm) ;; Ok (map (fun t => (mk_meta (snd sm), t)) ts))).
  - dm rs. cbn [rmap bind no_metas]. f_equal. induction rs as [|x l IH]; [reflexivity|]. cbn [map List.concat]. rewrite IH, map_app. reflexivity.
  - intros [k mk]. cbn [snd fst]. unfold maker_make. cbn [emk mk_meta mk_root]. rewrite cluster_e. destruct (cluster _ _ _ _) as [ts|]; [|reflexivity]. cbn [rmap bind]. rewrite !map_map. reflexivity.
Qed.
Lemma erased : forall nv mcn h h', map fst h = map fst h' -> no_metas (make mcn (loads nv h)) = no_metas (make mcn (loads nv h')).
Proof.
  intros nv mcn h h' E. rewrite <- !make_e, <- !loads_e. do 2 f_equal. rewrite <- !(map_map fst (fun x => (x, @None str))), E. reflexivity.
Qed.
Lemma erased_load : forall nv h h' url me me', map fst h = map fst h' -> snd (load nv (loads nv h) url me) = snd (load nv (loads nv h') url me').
Proof.
  intros nv h h' url me me' E. pose proof (load_e nv (loads nv h) url me) as A. pose proof (load_e nv (loads nv h') url me') as B. rewrite <- !loads_e in A, B. assert (X : map (fun l : str * option str => (fst l, @None str)) h = map (fun l => (fst l, None)) h') by (rewrite <- !(map_map fst (fun x => (x, @None str))), E; reflexivity).
  rewrite X in A. rewrite A in B. injection B. auto.
Qed.
