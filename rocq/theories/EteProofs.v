(** C47: the tree of pattern-make -f ETE. *)
From Coq Require Import String.
From Verif Require Import PyStr Defs UrlLib ParseUtils Spec Views Trees Cluster Patterns Matcher Maker Format Cmd Ete Observe EteSpec
  PyStrProofs DefsProofs DictProofs PieceProofs LengthProofs TreeProofs LoadProofs UrlProofs PackProofs EntProofs TokProofs FlatCluster OuterCluster MakeProofs PartProofs CmdProofs.
From Coq Require Import Lia Permutation.

(** ** Combined trees *)
Fixpoint cpaths (t : ctree) : list (list ctree) :=
  match t with
  | CT _ _ [] => [[t]]
  | CT _ _ ks => map (cons t) (flat_map cpaths ks)
  end.
Fixpoint cwf (d : nat) (t : ctree) : Prop :=
  match d with
  | O => c_kids t = []
  | S d => c_kids t <> [] /\ NoDup (map c_val (c_kids t)) /\ Forall (fun k => (0 < c_cnt k)%Z /\ cwf d k) (c_kids t)
  end.
Definition qs (nodes : list ctree) : list str := map c_val (tl nodes).
Lemma cbuild_c : forall ps t c, c_cnt (cbuild t ps c) = (c_cnt t + c)%Z.
Proof. intros [|p ps] [v n ks] c; cbn [cbuild]; [reflexivity|]. destruct (ckid_split p ks) as [[[a k] b]|]; reflexivity. Qed.
Lemma cbuild_wf : forall ps t c, (0 < c)%Z -> c_kids t = [] \/ cwf (length ps) t -> cwf (length ps) (cbuild t ps c).
Proof.
  induction ps as [|p ps IH]; intros [v n ks] c C W.
  - cbn in *. tauto.
  - cbn [length cbuild]. pose proof (ckid_split_find p ks) as SP. destruct (ckid_split p ks) as [[[a k] b]|].
    + destruct SP as (-> & EK & FA). destruct W as [W|(_ & ND & F)]; [cbn [c_kids] in W; destruct a; discriminate W|]. cbn [c_kids] in ND, F. cbn [cwf c_kids].
      apply Forall_app in F. destruct F as (F1 & F2). inversion F2 as [|? ? (K1 & K2) F3]; subst. split; [destruct a; discriminate|]. split.
      * rewrite map_app in *. cbn [map] in *. rewrite cbuild_val. exact ND.
      * apply Forall_app. split; [exact F1|]. constructor; [|exact F3]. rewrite cbuild_c. split; [lia|]. apply IH; auto.
    + cbn [cwf c_kids]. split; [destruct ks; discriminate|].
      assert (B : Forall (fun k => (0 < c_cnt k)%Z /\ cwf (length ps) k) ks /\ NoDup (map c_val ks)).
      { destruct W as [W|(_ & ND & F)]; [cbn [c_kids] in W; subst ks; split; constructor|split; [exact F|exact ND]]. }
      destruct B as (F & ND). split.
      * rewrite map_app. cbn [map]. rewrite cbuild_val. cbn [c_val]. apply (Permutation_NoDup (Permutation_cons_append (map c_val ks) p)). constructor; [|exact ND].
        intros I. apply in_map_iff in I. destruct I as (k & <- & I). rewrite Forall_forall in SP. specialize (SP _ I). cbn beta in SP. rewrite str_eqb_refl in SP. discriminate.
      * apply Forall_app. split; [exact F|]. constructor; [|constructor]. rewrite cbuild_c. cbn [c_cnt]. split; [lia|]. apply IH; auto.
Qed.
Lemma combine_wf : forall d ts t0 ct, (forall t, In t ts -> (0 < t_cnt t)%Z /\ exists nodes, hd_error (paths t) = Some nodes /\ length (path_patterns nodes) = d) ->
  c_kids t0 = [] \/ cwf d t0 -> foldM combine_one ts t0 = Ok ct -> (ts = [] /\ ct = t0) \/ cwf d ct.
Proof.
  induction ts as [|t ts IH]; intros t0 ct H W E; cbn [foldM] in E; [inversion E; subst; left; auto|]. right.
  apply bind_ok in E. destruct E as (t1 & E1 & E). destruct (H t (or_introl eq_refl)) as (C & nodes & HD & LN). unfold combine_one in E1.
  destruct (paths t) as [|nd l]; [discriminate|]. inversion HD; subst nd. unfold path_patterns in LN. destruct (tl nodes) as [|x r] eqn:TN; [discriminate E1|]. rewrite <- TN in *. assert (E1' : t1 = cbuild t0 (map t_pattern (tl nodes)) (t_cnt t)) by (rewrite TN in *; inversion E1; reflexivity). subst t1. clear E1 TN.
  assert (W1 : cwf d (cbuild t0 (map t_pattern (tl nodes)) (t_cnt t))). { rewrite <- LN in *. apply cbuild_wf; assumption. }
  destruct (IH _ ct (fun y I => H y (or_intror I)) (or_intror W1) E) as [(_ & ->)|Y]; assumption.
Qed.
Lemma find_kid : forall ks k, NoDup (map c_val ks) -> In k ks -> List.find (fun c => str_eqb (c_val k) (c_val c)) ks = Some k.
Proof.
  induction ks as [|x ks IH]; intros k ND I; [destruct I|]. cbn [List.find map] in *. inversion ND; subst. destruct I as [->|I]; [rewrite str_eqb_refl; reflexivity|].
  destruct (str_eqb (c_val k) (c_val x)) eqn:E; [|apply IH; assumption]. exfalso. apply H1. apply str_eqb_eq in E. rewrite <- E. apply in_map. exact I.
Qed.
Lemma cpaths_S : forall v c ks, ks <> [] -> cpaths (CT v c ks) = map (cons (CT v c ks)) (flat_map cpaths ks).
Proof. intros v c [|k ks] N; [congruence|reflexivity]. Qed.
Lemma cpaths_hd : forall t nodes, In nodes (cpaths t) -> hd_error nodes = Some t.
Proof. intros [v c [|k ks]] nodes I; [destruct I as [<-|[]]; reflexivity|]. cbn [cpaths] in I. apply in_map_iff in I. destruct I as (r & <- & _). reflexivity. Qed.
Lemma cpaths_in : forall d t, cwf d t -> forall nodes, In nodes (cpaths t) -> length (qs nodes) = d /\
  map c_cnt nodes = map (fun i => ccnt_at t (firstn i (qs nodes))) (seq 0 (S d)).
Proof.
  induction d as [|d IH]; intros [v c ks] W nodes I.
  - cbn in W. subst ks. destruct I as [<-|[]]. split; reflexivity.
  - destruct W as (NK & ND & F). cbn [c_kids] in *. rewrite cpaths_S in I by exact NK. apply in_map_iff in I. destruct I as (r & <- & I). apply in_flat_map in I. destruct I as (k & IK & IR).
    rewrite Forall_forall in F. destruct (F _ IK) as (_ & WK). destruct (IH k WK r IR) as (L & C). pose proof (cpaths_hd _ _ IR) as HD. destruct r as [|k' r]; [discriminate|]. inversion HD; subst k'.
    unfold qs in *. cbn [tl] in *. split; [cbn [map length]; f_equal; exact L|]. replace (map c_cnt (CT v c ks :: k :: r)) with (c :: map c_cnt (k :: r)) by reflexivity.
    rewrite C. change (seq 0 (S (S d))) with (0 :: seq 1 (S d)). rewrite <- seq_shift, map_cons, map_map. f_equal. apply map_ext. intros i. cbn [firstn map ccnt_at c_kids]. rewrite find_kid by assumption. reflexivity.
Qed.
Lemma cpaths_ex : forall d t Q, cwf d t -> length Q = d -> (0 < ccnt_at t Q)%Z -> exists nodes, In nodes (cpaths t) /\ qs nodes = Q.
Proof.
  induction d as [|d IH]; intros [v c ks] Q W L C.
  - cbn in W. subst ks. destruct Q; [|discriminate]. exists [CT v c []]. split; [left; reflexivity|reflexivity].
  - destruct Q as [|q Q]; [discriminate|]. destruct W as (NK & ND & F). cbn [c_kids] in *. cbn [ccnt_at c_kids] in C. destruct (List.find _ ks) as [k|] eqn:FK; [|lia].
    apply find_some in FK. destruct FK as (IK & EK). apply str_eqb_eq in EK. subst q. rewrite Forall_forall in F. destruct (F _ IK) as (_ & WK). injection L as L.
    destruct (IH k Q WK L C) as (r & IR & <-). exists (CT v c ks :: r). split; [rewrite cpaths_S by exact NK; apply in_map; apply in_flat_map; eauto|].
    pose proof (cpaths_hd _ _ IR) as HD. destruct r as [|k' r]; [discriminate|]. inversion HD; subst k'. reflexivity.
Qed.
Lemma cpaths_pos : forall d t, cwf d t -> 0 < d -> forall nodes, In nodes (cpaths t) -> (0 < ccnt_at t (qs nodes))%Z.
Proof.
  induction d as [|d IH]; intros [v c ks] W P nodes I; [lia|]. destruct W as (NK & ND & F). cbn [c_kids] in *. rewrite cpaths_S in I by exact NK. apply in_map_iff in I. destruct I as (r & <- & I). apply in_flat_map in I. destruct I as (k & IK & IR).
  rewrite Forall_forall in F. destruct (F _ IK) as (CK & WK). pose proof (cpaths_hd _ _ IR) as HD. destruct r as [|k' r]; [discriminate|]. inversion HD; subst k'. unfold qs. cbn [tl map ccnt_at c_kids]. rewrite find_kid by assumption.
  destruct d as [|d]; [|apply (IH k WK ltac:(lia) (k :: r) IR)]. destruct k as [kv kc kk]. cbn in WK. subst kk. destruct IR as [IR|[]]. inversion IR; subst. exact CK.
Qed.
Lemma cpaths_nodup : forall d t, cwf d t -> NoDup (map qs (cpaths t)).
Proof.
  induction d as [|d IH]; intros [v c ks] W; [cbn in W; subst ks; repeat constructor; intros []|]. destruct W as (NK & ND & F). cbn [c_kids] in *. rewrite cpaths_S by exact NK. rewrite map_map. clear NK.
  induction ks as [|k ks IHk]; [constructor|]. cbn [flat_map map] in *. inversion ND as [|? ? N1 N2]; subst. inversion F as [|? ? (CK & WK) F2]; subst. rewrite map_app.
  assert (G : forall k' r, In r (cpaths k') -> qs (CT v c (k :: ks) :: r) = c_val k' :: qs r) by (intros k' r I; pose proof (cpaths_hd _ _ I) as HD; destruct r as [|x r]; inversion HD; subst; reflexivity).
  assert (G' : forall k' r, In r (cpaths k') -> qs (CT v c ks :: r) = c_val k' :: qs r) by (intros k' r I; pose proof (cpaths_hd _ _ I) as HD; destruct r as [|x r]; inversion HD; subst; reflexivity).
  assert (A1 : NoDup (map (fun r => qs (CT v c (k :: ks) :: r)) (cpaths k))).
  { rewrite (map_ext_in _ (fun r => c_val k :: qs r)) by (intros r I; apply G; exact I). rewrite <- (map_map qs (cons (c_val k))). apply FinFun.Injective_map_NoDup; [intros x y E; inversion E; reflexivity|]. apply IH. exact WK. }
  assert (A2 : NoDup (map (fun r => qs (CT v c (k :: ks) :: r)) (flat_map cpaths ks))).
  { rewrite (map_ext_in _ (fun r => qs (CT v c ks :: r))); [apply IHk; assumption|]. intros r I. reflexivity. }
  assert (A3 : forall x, In x (map (fun r => qs (CT v c (k :: ks) :: r)) (cpaths k)) -> ~ In x (map (fun r => qs (CT v c (k :: ks) :: r)) (flat_map cpaths ks))).
  { intros x X Y. apply in_map_iff in X. destruct X as (r & <- & X). apply in_map_iff in Y. destruct Y as (r' & E & Y). apply in_flat_map in Y. destruct Y as (k' & I' & Y). rewrite (G k r X), (G k' r' Y) in E. inversion E. apply N1. rewrite <- H0. apply in_map. exact I'. }
  clear - A1 A2 A3. revert A1 A3. generalize (map (fun r => qs (CT v c (k :: ks) :: r)) (cpaths k)) as l. induction l as [|x l IHl]; intros A1 A3; [exact A2|]. cbn [app]. inversion A1; subst. constructor.
  - intros I. apply in_app_or in I. destruct I as [I|I]; [contradiction|]. apply (A3 x); [left; reflexivity|exact I].
  - apply IHl; [assumption|]. intros y Y. apply A3. right. exact Y.
Qed.

(** ** Names *)
Definition text_at (m : url_meta) (level : nat) (v : str) : str :=
  if (path_depth m <? level) && (level <=? path_depth m + length (query_keys m)) then
    (if level =? path_depth m + 1 then SINGLE_QUESTION else [AMPERSAND]) ++ nth (level - path_depth m - 1) (query_keys m) [] ++ v
  else if level =? path_depth m + length (query_keys m) + 1 then [NUMBER] ++ v else v.
Definition lab (t : str) (n : Z) : str := u " " ++ t ++ u "(" ++ json_int n ++ u ") ".
Lemma ete_label_ok : forall m level n, ete_label m level n = Ok (lab (text_at m level (c_val n)) (c_cnt n)).
Proof.
  intros m level n. unfold ete_label, text_at, lab. destruct (Nat.ltb_spec (path_depth m) level) as [A|A], (Nat.leb_spec level (path_depth m + length (query_keys m))) as [B|B]; cbn [andb].
  - rewrite (nth_error_nth' (query_keys m) []) by lia. cbn [bind]. destruct (level =? path_depth m + 1); rewrite <- !app_assoc; reflexivity.
  - destruct (level =? _); reflexivity.
  - destruct (level =? _); reflexivity.
  - destruct (level =? _); reflexivity.
Qed.
Fixpoint labs (m : url_meta) (level : nat) (nodes : list ctree) : list str :=
  match nodes with [] => [] | n :: r => lab (text_at m level (c_val n)) (c_cnt n) :: labs m (S level) r end.
Lemma ete_ok : forall d t m level, cwf d t -> exists e, ete_tree m level t = Ok e /\ epaths e = map (labs m level) (cpaths t).
Proof.
  induction d as [|d IH]; intros [v c ks] m level W.
  - cbn in W. subst ks. eexists. cbn [ete_tree]. rewrite ete_label_ok. cbn [bind]. split; [reflexivity|]. reflexivity.
  - destruct W as (NK & _ & F). cbn [c_kids] in *. cbn [ete_tree]. rewrite ete_label_ok. cbn [bind c_val c_cnt].
    assert (G : exists es, (fix add_children (ks : list ctree) : res (list etree) :=
       match ks with [] => Ok [] | k :: r => x <- ete_tree m (S level) k ;; xs <- add_children r ;; Ok (x :: xs) end) ks = Ok es /\
       flat_map epaths es = map (labs m (S level)) (flat_map cpaths ks) /\ length es = length ks).
    { clear NK. induction ks as [|k ks IHk]; [exists []; split; [reflexivity|split; reflexivity]|]. inversion F as [|? ? (_ & WK) F']; subst. destruct (IH k m (S level) WK) as (e & E1 & E2). destruct (IHk F') as (es & E3 & E4 & E5).
      exists (e :: es). rewrite E1. cbn [bind]. rewrite E3. cbn [bind flat_map length]. split; [reflexivity|]. rewrite E2, E4, map_app. split; [reflexivity|f_equal; exact E5]. }
    destruct G as (es & E1 & E2 & E3). rewrite E1. cbn [bind]. eexists. split; [reflexivity|]. rewrite cpaths_S by exact NK.
    destruct es as [|e es]; [destruct ks; [congruence|discriminate]|]. cbn [epaths]. rewrite E2, !map_map. reflexivity.
Qed.
Lemma texts_at : forall m Q, length Q = depth m -> level_texts m Q = map (fun iq => text_at m (fst iq) (snd iq)) (combine (seq 1 (length Q)) Q).
Proof.
  intros [d ks hf] Q L. unfold depth in L. cbn [path_depth query_keys has_fragment] in L. unfold level_texts. cbn [path_depth query_keys].
  set (qd := length ks) in *.
  assert (S1 : exists pp vs fr, Q = pp ++ vs ++ fr /\ length pp = d /\ length vs = qd /\ length fr = if hf then 1 else 0).
  { exists (firstn d Q), (firstn qd (skipn d Q)), (skipn qd (skipn d Q)). split; [rewrite !firstn_skipn; reflexivity|]. rewrite firstn_length, firstn_length, !skipn_length. destruct hf; lia. }
  destruct S1 as (pp & vs & fr & -> & L1 & L2 & L3).
  rewrite firstn_app_len by lia. rewrite skipn_app_len by lia. replace (skipn (d + qd) (pp ++ vs ++ fr)) with fr by (rewrite app_assoc, skipn_app_len; [reflexivity|rewrite app_length; lia]).
  rewrite !app_length, !seq_app.
  assert (CA : forall (A B : Type) (a b : list A) (x y : list B), length a = length x -> combine (a ++ b) (x ++ y) = combine a x ++ combine b y) by (induction a as [|p a IH]; intros b [|q x] y E; cbn in *; try discriminate; [reflexivity|f_equal; apply IH; lia]).
  rewrite !CA by (rewrite seq_length; reflexivity). rewrite !map_app. f_equal; [|f_equal].
  - assert (G : forall k (l : list str), 1 <= k -> k + length l <= d + 1 -> l = map (fun iq => text_at (UM d ks hf) (fst iq) (snd iq)) (combine (seq k (length l)) l)).
    { intros k l. revert k. induction l as [|x l IH]; intros k K1 K2; [reflexivity|]. cbn [length seq combine map fst snd] in *. rewrite <- IH by lia. f_equal. unfold text_at. cbn [path_depth query_keys].
      destruct (Nat.ltb_spec d k); [lia|]. cbn [andb]. destruct (Nat.eqb_spec k (d + length ks + 1)); [lia|reflexivity]. }
    apply G; lia.
  - assert (G : forall k (ks' l : list str), 1 <= k -> d + k + length l = d + 1 + qd -> length ks' = length l -> (forall j, j < length l -> nth j ks' [] = nth (k + j - 1) ks []) ->
      (1 < k -> map (fun kv => u "&" ++ fst kv ++ snd kv) (combine ks' l) = map (fun iq => text_at (UM d ks hf) (fst iq) (snd iq)) (combine (seq (d + k) (length l)) l)) /\
      (k = 1 -> query_texts ks' l = map (fun iq => text_at (UM d ks hf) (fst iq) (snd iq)) (combine (seq (d + k) (length l)) l))).
    { intros k ks' l. revert k ks'. induction l as [|x l IH]; intros k [|y ks'] K1 K2 K3 N; try discriminate K3; [split; reflexivity|].
      cbn [length] in K2, K3. assert (N0 := N 0 ltac:(cbn [length]; lia)). cbn [nth] in N0.
      assert (HH : text_at (UM d ks hf) (d + k) x = (if d + k =? d + 1 then SINGLE_QUESTION else [AMPERSAND]) ++ y ++ x).
      { unfold text_at. cbn [path_depth query_keys]. fold qd. destruct (Nat.ltb_spec d (d + k)); [|lia]. destruct (Nat.leb_spec (d + k) (d + qd)); [|lia]. cbn [andb]. rewrite N0. replace (d + k - d - 1) with (k + 0 - 1) by lia. reflexivity. }
      destruct (IH (S k) ks') as (IH1 & _); [lia|lia|lia| |].
      { intros j J. specialize (N (S j) ltac:(cbn [length]; lia)). cbn [nth] in N. rewrite N. f_equal. lia. }
      specialize (IH1 ltac:(lia)). rewrite Nat.add_succ_r in IH1. split; intros K; unfold query_texts; cbn [combine map fst snd length seq]; rewrite HH, IH1; destruct (Nat.eqb_spec (d + k) (d + 1)); try lia; reflexivity. }
    destruct (G 1 ks vs) as (_ & G1); [lia|lia|lia|intros j J; f_equal; lia|]. specialize (G1 eq_refl). rewrite L1. replace (1 + d) with (d + 1) by lia. rewrite <- G1.
    unfold query_texts. f_equal.
    assert (CC : forall (a b c : list str), length a = length b -> combine a (b ++ c) = combine a b) by (induction a as [|p a IH]; intros [|q b] c E; cbn in *; try discriminate; [destruct c; reflexivity|f_equal; apply IH; lia]).
    rewrite CC by lia. reflexivity.
  - destruct fr as [|x [|y fr]]; [destruct hf; [discriminate L3|reflexivity]| |destruct hf; discriminate L3]. cbn [length seq combine map fst snd]. f_equal. unfold text_at. cbn [path_depth query_keys]. fold qd.
    destruct (Nat.leb_spec (1 + length pp + length vs) (d + qd)); [lia|]. rewrite andb_false_r. destruct (Nat.eqb_spec (1 + length pp + length vs) (d + qd + 1)); [reflexivity|lia].
Qed.
Lemma labs_map : forall m nodes level, labs m level nodes = map (fun x => lab (text_at m (fst x) (fst (snd x))) (snd (snd x))) (combine (seq level (length nodes)) (combine (map c_val nodes) (map c_cnt nodes))).
Proof. intros m. induction nodes as [|n r IH]; intros level; [reflexivity|]. cbn [labs length seq combine map fst snd]. rewrite IH. reflexivity. Qed.
Lemma json_nat : forall n, json_int (Z.of_nat n) = dec_str (N.of_nat n).
Proof. intros n. unfold json_int. destruct (Z.ltb_spec (Z.of_nat n) 0); [lia|]. f_equal. lia. Qed.
Lemma labs_labels : forall d m ts ct nodes, cwf d ct -> d = depth m -> c_val ct = [] -> In nodes (cpaths ct) ->
  (forall Q, ccnt_at ct Q = Z.of_nat (starting ts Q)) -> labs m 0 nodes = labels_of m ts (qs nodes).
Proof.
  intros d m ts ct nodes W D CV I C. destruct (cpaths_in d ct W nodes I) as (L & CN). pose proof (cpaths_hd _ _ I) as HD. destruct nodes as [|n r]; [discriminate|]. inversion HD; subst n. clear HD.
  unfold labels_of. rewrite L. rewrite texts_at by (rewrite L; exact D). rewrite L. unfold qs in *. cbn [tl] in *. rewrite map_length in L. rewrite labs_map. rewrite CN. cbn [length map]. rewrite L, CV.
  set (Q := map c_val r) in *. change (seq 0 (S d)) with (0 :: seq 1 d). cbn [combine map fst snd]. f_equal.
  - unfold lab, label. rewrite C, json_nat. unfold text_at. destruct (Nat.ltb_spec (path_depth m) 0); [lia|]. cbn [andb]. destruct (Nat.eqb_spec 0 (path_depth m + length (query_keys m) + 1)); [lia|]. reflexivity.
  - assert (LQ : length Q = d) by (unfold Q; rewrite map_length; exact L). clear - C LQ.
    assert (G : forall Q' k, map (fun x => lab (text_at m (fst x) (fst (snd x))) (snd (snd x))) (combine (seq k (length Q')) (combine Q' (map (fun i => ccnt_at ct (firstn i Q)) (seq k (length Q'))))) =
      map (fun it => label (snd it) (starting ts (firstn (fst it) Q))) (combine (seq k (length Q')) (map (fun iq => text_at m (fst iq) (snd iq)) (combine (seq k (length Q')) Q')))).
    { induction Q' as [|q Q' IH]; intros k; [reflexivity|]. cbn [length seq combine map fst snd]. rewrite IH. f_equal. unfold lab, label. rewrite C, json_nat. reflexivity. }
    rewrite <- LQ. apply G.
Qed.
Lemma maker_ts : forall nv h mcn sid mk ts, (2 <= mcn)%Z -> In (sid, mk) (loads nv h) -> maker_make mcn mk = Ok ts ->
  ts <> [] /\ forall t, In t ts -> (0 < t_cnt t)%Z /\ paths t <> [] /\ forall nodes, In nodes (paths t) -> length (path_patterns nodes) = depth (mk_meta mk).
Proof.
  intros nv h mcn sid mk ts M I E. destruct (maker_facts nv h sid mk I) as (raw0 & MF). destruct (maker_clusters nv h sid mk raw0 mcn M MF) as (tps & E' & P & F). rewrite E in E'. inversion E'; subst ts. split.
  - intros N. rewrite N in P. cbn in P. apply Permutation_nil in P. apply (ents_nonnil (mk_root mk)). exact P.
  - intros t IT. apply in_map_iff in IT. destruct IT as ([t' Ps] & EQ & IT). cbn [fst] in EQ. subst t'. rewrite Forall_forall in F. destruct (F _ IT) as (W & _ & (LP & PP & _)). cbn [fst snd] in *. assert (WT := proj1 (proj2 W)).
    assert (ONE : Forall (fun e => e_cnt e = 1%Z) (ents t)).
    { apply Forall_forall. intros e IE. pose proof (mf_cnt _ _ _ _ _ MF) as C1. rewrite Forall_forall in C1. apply C1. eapply Permutation_in; [exact P|]. apply in_flat_map. exists t. split; [apply in_map_iff; exists (t, Ps); auto|exact IE]. }
    split; [|split].
    + rewrite (ents_cnt _ _ WT). pose proof (ents_nonnil t) as NN. clear - ONE NN. destruct (ents t) as [|e l]; [congruence|]. inversion ONE as [|? ? H1 F]; subst. cbn [map]. assert (0 <= zsum (map e_cnt l))%Z; [|unfold zsum in *; cbn [fold_right]; lia].
      clear - F. induction F as [|x l H F IH]; [unfold zsum; cbn; lia|]. unfold zsum in *. cbn [map fold_right]. lia.
    + intros N. apply (ents_nonnil t). unfold ents. rewrite N. reflexivity.
    + intros nodes IN. assert (X : path_patterns nodes = Ps) by (apply PP; exact IN). rewrite X, LP, map_length. apply (mf_dep _ _ _ _ _ MF).
Qed.
Lemma starting_pos : forall ts Q, (forall t, In t ts -> forall nodes, In nodes (paths t) -> length (path_patterns nodes) = length Q) ->
  (0 < starting ts Q <-> exists t nodes, In t ts /\ In nodes (paths t) /\ path_patterns nodes = Q).
Proof.
  intros ts Q H. unfold starting. split.
  - intros P. destruct (filter _ _) as [|nodes l] eqn:E; [cbn in P; lia|]. assert (I : In nodes (nodes :: l)) by (left; reflexivity). rewrite <- E in I. apply filter_In in I. destruct I as (I & PB). apply in_flat_map in I. destruct I as (t & I1 & I2).
    exists t, nodes. split; [exact I1|]. split; [exact I2|]. symmetry. apply prefixb_eq; [exact PB|]. symmetry. apply (H t I1 nodes I2).
  - intros (t & nodes & I1 & I2 & <-). assert (I : In nodes (filter (fun n => prefixb (path_patterns nodes) (path_patterns n)) (flat_map paths ts))) by (apply filter_In; split; [apply in_flat_map; eauto|apply prefixb_refl]).
    destruct (filter _ _); [destruct I|cbn; lia].
Qed.

(** names tell the texts *)
Lemma dec_no_paren : forall n, ~ In 40%N (dec_str n).
Proof. intros n I. pose proof (dec_str_digits n) as D. rewrite Forall_forall in D. specialize (D _ I). discriminate D. Qed.
Lemma paren_unique : forall a a' b b' : str, ~ In 40%N b -> ~ In 40%N b' -> a ++ 40%N :: b = a' ++ 40%N :: b' -> a = a'.
Proof.
  intros a a' b b' N N' E. apply (f_equal (@rev char)) in E. rewrite !rev_app_distr in E. cbn [rev] in E. rewrite <- !app_assoc in E. cbn [app] in E.
  assert (X : forall r r' s s' : str, ~ In 40%N r -> ~ In 40%N r' -> r ++ 40%N :: s = r' ++ 40%N :: s' -> s = s').
  { clear. induction r as [|x r IH]; intros [|y r'] s s' N N' E; cbn in E; inversion E; subst; [reflexivity|exfalso; apply N'; left; reflexivity|exfalso; apply N; left; reflexivity|]. apply (IH r' s s'); [intros I; apply N; right; exact I|intros I; apply N'; right; exact I|assumption]. }
  apply X in E; [apply (f_equal (@rev char)) in E; rewrite !rev_involutive in E; exact E|intros I; apply N; apply in_rev; exact I|intros I; apply N'; apply in_rev; exact I].
Qed.
Lemma label_text : forall t n t' n', label t n = label t' n' -> t = t'.
Proof.
  intros t n t' n' E. unfold label in E. cbn [app] in E. injection E as E. 
  apply (paren_unique t t' (dec_str (N.of_nat n) ++ u ") ") (dec_str (N.of_nat n') ++ u ") ")); [| |exact E].
  all: intros I; apply in_app_or in I; destruct I as [I|I]; [apply dec_no_paren in I; exact I|destruct I as [I|[I|[]]]; discriminate I].
Qed.
Lemma text_at_inj : forall m i a b, text_at m i a = text_at m i b -> a = b.
Proof.
  intros m i a b. unfold text_at. destruct (_ && _); [|destruct (_ =? _); [|auto]; intros E; injection E; auto]. intros E. apply app_inv_head in E. apply app_inv_head in E. exact E.
Qed.
Lemma labels_inj : forall m ts Q Q', length Q = depth m -> length Q' = depth m -> labels_of m ts Q = labels_of m ts Q' -> Q = Q'.
Proof.
  intros m ts Q Q' L L' E. unfold labels_of in E. rewrite !texts_at in E by assumption. rewrite L, L' in E. change (seq 0 (S (depth m))) with (0 :: seq 1 (depth m)) in E. cbn [combine map] in E. injection E as E.
  revert E. set (f := fun R it => label (snd it) (starting ts (firstn (fst it) R))).
  assert (G : forall R R' d k A B, length A = d -> length B = d -> map (f R) (combine (seq k d) (map (fun iq => text_at m (fst iq) (snd iq)) (combine (seq k d) A))) =
     map (f R') (combine (seq k d) (map (fun iq => text_at m (fst iq) (snd iq)) (combine (seq k d) B))) -> A = B).
  { intros R R'. induction d as [|d IH]; intros k [|a A] [|b B] LA LB E; try discriminate LA; try discriminate LB; [reflexivity|]. cbn [seq combine map fst snd] in E. pose proof (f_equal (hd []) E) as E1. pose proof (f_equal (@tl _) E) as E2. cbn [hd tl] in E1, E2. unfold f in E1 at 1 2. cbn [fst snd] in E1. f_equal.
    - apply label_text in E1. apply text_at_inj in E1. exact E1.
    - injection LA as LA; injection LB as LB; exact (IH (S k) A B LA LB E2). }
  intros E. exact (G Q Q' (depth m) 1 Q Q' L L' E).
Qed.
Theorem c47_tree : forall nv h mcn sid mk, (2 <= mcn)%Z -> In (sid, mk) (loads nv h) ->
  exists ts ct e, maker_make mcn mk = Ok ts /\ maker_combine mcn mk = Ok ct /\ fmt_ete (mk_meta mk) ct = Ok [e] /\ NoDup (epaths e) /\
    forall ls, In ls (epaths e) <-> exists t nodes, In t ts /\ In nodes (paths t) /\ ls = labels_of (mk_meta mk) ts (path_patterns nodes).
Proof.
  intros nv h mcn sid mk M I. destruct (c32 nv h mcn sid mk M I) as (ts & ct & E1 & E2 & _ & C). destruct (maker_ts nv h mcn sid mk ts M I E1) as (TN & TS).
  assert (CE : foldM combine_one ts (CT [] 0 []) = Ok ct) by (unfold maker_combine in E2; rewrite E1 in E2; exact E2).
  assert (PD : forall t, In t ts -> (0 < t_cnt t)%Z /\ exists nodes, hd_error (paths t) = Some nodes /\ length (path_patterns nodes) = depth (mk_meta mk)).
  { intros t IT. destruct (TS t IT) as (P & NN & PL). split; [exact P|]. destruct (paths t) as [|n l]; [congruence|]. exists n. split; [reflexivity|]. apply PL. left. reflexivity. }
  destruct (combine_wf (depth (mk_meta mk)) ts (CT [] 0 []) ct PD (or_introl eq_refl) CE) as [(X & _)|W]; [congruence|].
  assert (CV : c_val ct = []). { clear - CE. assert (G : forall ts t0 ct1, foldM combine_one ts t0 = Ok ct1 -> c_val ct1 = c_val t0). { intros ts1; induction ts1 as [|t ts1 IH]; intros t0 ct1 E; cbn [foldM] in E; [inversion E; reflexivity|]. apply bind_ok in E. destruct E as (t1 & E1 & E). rewrite (IH _ _ E). unfold combine_one in E1. destruct (paths t) as [|n l]; [discriminate|]. destruct (tl n) as [|t2 l0]; [discriminate|]. assert (X : t1 = cbuild t0 (map t_pattern (t2 :: l0)) (t_cnt t)) by congruence. rewrite X. apply cbuild_val. }
    exact (G _ _ _ CE). }
  assert (DP : 0 < depth (mk_meta mk)). { destruct (maker_facts nv h sid mk I) as (raw0 & MF). rewrite <- (mf_dep _ _ _ _ _ MF). pose proof (mf_non _ _ _ _ _ MF). destruct raw0; [congruence|cbn; lia]. }
  destruct (ete_ok _ ct (mk_meta mk) 0 W) as (e & EE & EP). exists ts, ct, e. split; [exact E1|]. split; [exact E2|].
  assert (EQL : epaths e = map (fun Q => labels_of (mk_meta mk) ts Q) (map qs (cpaths ct))).
  { rewrite EP, map_map. apply map_ext_in. intros nodes IN. apply (labs_labels _ _ _ ct nodes W eq_refl CV IN). intros Q. apply C. }
  assert (LQ : forall Q, In Q (map qs (cpaths ct)) -> length Q = depth (mk_meta mk)) by (intros Q IQ; apply in_map_iff in IQ; destruct IQ as (nodes & <- & IN); apply (cpaths_in _ _ W nodes IN)).
  assert (IQ : forall Q, In Q (map qs (cpaths ct)) <-> exists t nodes, In t ts /\ In nodes (paths t) /\ path_patterns nodes = Q).
  { intros Q. split.
    - intros J. pose proof (LQ Q J) as L. apply starting_pos; [intros t IT nodes IN; rewrite L; apply (TS t IT); exact IN|]. apply in_map_iff in J. destruct J as (nodes & <- & IN). pose proof (cpaths_pos _ _ W DP nodes IN) as P. rewrite C in P. unfold starting. lia.
    - intros X. assert (L : length Q = depth (mk_meta mk)) by (destruct X as (t & nodes & IT & IN & <-); apply (TS t IT); exact IN).
      apply starting_pos in X; [|intros t IT nodes IN; rewrite L; apply (TS t IT); exact IN]. destruct (cpaths_ex _ ct Q W L) as (nodes & IN & <-); [rewrite C; unfold starting in X; lia|]. apply in_map. exact IN. }
  split; [|split].
  - unfold fmt_ete. assert (P : (0 < c_cnt ct)%Z). { pose proof (C []) as X. destruct ct as [v c ks]. cbn [ccnt_at c_cnt] in *. destruct ts as [|t ts]; [congruence|]. destruct (TS t (or_introl eq_refl)) as (_ & NN & _). cbn [flat_map] in X. destruct (paths t) as [|n l]; [congruence|]. cbn [app filter prefixb length] in X. lia. }
    destruct (Z.leb_spec (c_cnt ct) 0); [lia|]. rewrite EE. reflexivity.
  - rewrite EQL. pose proof (cpaths_nodup _ _ W) as ND. revert ND LQ. clear. generalize (map qs (cpaths ct)) as l. induction l as [|Q l IH]; intros ND LQ; [constructor|]. cbn [map]. inversion ND; subst. constructor.
    + intros I. apply in_map_iff in I. destruct I as (Q' & E & I). apply labels_inj in E; [subst; contradiction|apply LQ; right; exact I|apply LQ; left; reflexivity].
    + apply IH; [assumption|]. intros Q' I. apply LQ. right. exact I.
  - intros ls. rewrite EQL. split.
    + intros J. apply in_map_iff in J. destruct J as (Q & <- & J). apply IQ in J. destruct J as (t & nodes & IT & IN & <-). eauto.
    + intros (t & nodes & IT & IN & ->). apply in_map_iff. exists (path_patterns nodes). split; [reflexivity|]. apply IQ. eauto.
Qed.
(** the texts spell the pattern *)
Lemma query_texts_concat : forall ks vs, length ks = length vs -> List.concat (query_texts ks vs) = match ks with [] => [] | _ => SINGLE_QUESTION ++ join [AMPERSAND] (kvs ks vs) end.
Proof.
  intros [|k ks] [|v vs] L; try discriminate; [reflexivity|]. injection L as L. unfold query_texts, kvs. cbn [combine map fst snd List.concat]. rewrite <- !app_assoc. f_equal.
  rewrite app_assoc. revert L. generalize (k ++ v) as w. revert vs. induction ks as [|k' ks IH]; intros [|v' vs] w L; try discriminate; [cbn; apply app_nil_r|]. injection L as L. cbn [combine map List.concat fst snd]. rewrite join_cons by discriminate. f_equal. transitivity ([AMPERSAND] ++ ((k' ++ v') ++ List.concat (map (fun kv : list char * list char => u "&" ++ fst kv ++ snd kv) (combine ks vs)))); [rewrite <- !app_assoc; reflexivity|]. f_equal. exact (IH vs (k' ++ v') L).
Qed.
Theorem c47_spell : forall m Q, length Q = depth m -> let ts := level_texts m Q in
  pack m Q = u "/" ++ join (u "/") (firstn (path_depth m) ts) ++ List.concat (skipn (path_depth m) ts).
Proof.
  intros [d ks hf] Q L. cbv zeta. unfold depth in L. cbn [path_depth query_keys has_fragment] in L. unfold level_texts. cbn [path_depth query_keys].
  assert (S1 : exists pp vs fr, Q = pp ++ vs ++ match fr with Some f => [f] | None => [] end /\ length pp = d /\ length vs = length ks /\ hf = (match fr with Some _ => true | None => false end : bool)).
  { exists (firstn d Q), (firstn (length ks) (skipn d Q)). assert (LL : length (skipn (length ks) (skipn d Q)) = if hf then 1 else 0) by (rewrite !skipn_length; destruct hf; lia).
    exists (match skipn (length ks) (skipn d Q) with f :: _ => Some f | [] => None end). split; [|split; [|split]].
    - rewrite <- (firstn_skipn d Q) at 1. f_equal. rewrite <- (firstn_skipn (length ks) (skipn d Q)) at 1. f_equal. destruct (skipn (length ks) (skipn d Q)) as [|f [|? ?]]; [reflexivity|reflexivity|destruct hf; discriminate].
    - rewrite firstn_length. destruct hf; lia.
    - rewrite firstn_length, skipn_length. destruct hf; lia.
    - destruct (skipn (length ks) (skipn d Q)); destruct hf; try discriminate; reflexivity. }
  destruct S1 as (pp & vs & fr & -> & L1 & L2 & L3). rewrite pack_parts by (congruence || auto).
  rewrite !(firstn_app_len _ pp) by lia. rewrite !(skipn_app_len _ pp) by lia. match goal with |- _ = u "/" ++ ?j ++ ?c => change (u "/" ++ j ++ c) with ((SLASH :: join [SLASH] pp) ++ c) end. apply f_equal.
  rewrite concat_app. f_equal.
  - transitivity (List.concat (query_texts ks vs)); [rewrite query_texts_concat by lia; destruct ks; reflexivity|]. f_equal. unfold query_texts. f_equal.
    all: assert (CC : forall (a b c : list str), length a = length b -> combine a (b ++ c) = combine a b) by (induction a as [|p a IH]; intros [|q b] c E; cbn in *; try discriminate; [destruct c; reflexivity|f_equal; apply IH; lia]).
    all: rewrite CC by lia; reflexivity.
  - rewrite app_assoc, skipn_app_len by (rewrite app_length; lia). destruct fr as [f|]; [cbn; rewrite app_nil_r; reflexivity|reflexivity].
Qed.
Theorem c47_run : forall ascii nv mcn lines, (2 <= mcn)%Z -> exists es, ete_run ascii nv mcn lines = Ok (map ascii es) /\
  Forall2 (fun sm e => exists ct, maker_combine mcn (snd sm) = Ok ct /\ fmt_ete (mk_meta (snd sm)) ct = Ok [e]) (loads nv (line_loads nv false lines)) es.
Proof.
  intros ascii nv mcn lines M. unfold ete_run, ete_process. rewrite make_load_ok. cbn [fst]. set (h := line_loads nv false lines).
  assert (G : forall st, (forall sid mk, In (sid, mk) st -> In (sid, mk) (loads nv h)) -> exists es, mapM (fun sm : str * maker => root <- maker_combine mcn (snd sm) ;; es <- fmt_ete (mk_meta (snd sm)) root ;; Ok (map ascii es)) st = Ok (map (fun e => [ascii e]) es) /\
    Forall2 (fun sm e => exists ct, maker_combine mcn (snd sm) = Ok ct /\ fmt_ete (mk_meta (snd sm)) ct = Ok [e]) st es).
  { induction st as [|[sid mk] st IH]; intros H; [exists []; split; [reflexivity|constructor]|]. destruct (IH (fun a b J => H a b (or_intror J))) as (es & E & F).
    destruct (c47_tree nv h mcn sid mk M (H _ _ (or_introl eq_refl))) as (ts & ct & e & _ & E2 & E3 & _). exists (e :: es). cbn [mapM snd]. rewrite E2. cbn [bind]. rewrite E3. cbn [bind]. rewrite E. cbn [bind map]. split; [reflexivity|]. constructor; [cbn [snd]; eauto|exact F]. }
  destruct (G (loads nv h) (fun a b J => J)) as (es & E & F). exists es. rewrite E. cbn [bind]. split; [|exact F]. f_equal. clear. induction es as [|e es IH]; [reflexivity|]. cbn [map List.concat app]. rewrite IH. reflexivity.
Qed.
