(** make() on URLs that differ in one run (C67). *)
From Coq Require Import String.
From Verif Require Import PyStr Defs UrlLib ParseUtils Views Trees Cluster Spec Patterns Matcher Maker Observe MatchSpec OneSpec TightSpec RunSpec PyStrProofs DefsProofs DictProofs RegexProofs PieceProofs LengthProofs BridgeProofs GroupProofs TreeProofs LoadProofs TokProofs LengthStage PieceStage EntProofs GenCluster FlatCluster ViewProofs KeyProofs RouteProofs OuterCluster MakeProofs AnyOuter AnyMake TightProofs MatchTakes Stable OneLevel OneTree OneCluster OneMake FanCluster RunFam RunFlat RunView RunLevel RunInert RunOuter RunCluster RunCut.
From Coq Require Import Lia Permutation.

Lemma block_pattern_ok : forall mcn r ga gb G ss s, (2 <= mcn)%Z -> fam r ga gb G -> oneset r ss -> In s ss -> block_pattern mcn ss s (G s) (pstr (G s) (okind mcn ss s)).
Proof.
  intros mcn r ga gb G ss s M FM [ND ON] I. rewrite Forall_forall in ON. pose proof (ON s I) as O. pose proof (g_legal r ga gb G FM s O) as L.
  unfold block_pattern, mixed_lengths. cbv zeta.
  assert (MX : (mcn <= Z.of_nat (length ss))%Z -> mixb mcn ss = true <-> ((mcn <= Z.of_nat (length (lengths ss)))%Z \/ (mcn <= Z.of_nat (largest ss) /\ mcn <= Z.of_nat (length ss) - Z.of_nat (largest ss))%Z \/ (Z.abs (Z.of_nat (largest ss) - (Z.of_nat (length ss) - Z.of_nat (largest ss))) < mcn - 1)%Z)).
  { intros Q. unfold mixb, confused. rewrite (proj2 (Z.ltb_ge _ _) Q), orb_true_iff, Z.leb_le. destruct (_ && _)%bool eqn:B; [apply andb_true_iff in B; rewrite !Z.leb_le in B; tauto|]. apply andb_false_iff in B. rewrite !Z.leb_gt in B. rewrite Z.ltb_lt. split; [tauto|]. intros [?|[?|?]]; [tauto|lia|tauto]. }
  pose proof (piece_literal (G s) L) as PL. pose proof (cset_spaces (G s) L) as CS.
  unfold okind. destruct (Z.ltb_spec (Z.of_nat (length ss)) mcn) as [Q|Q].
  - split; [intros _; exact PL|]. split; [|split]; intros X; lia.
  - specialize (MX Q). split; [intros X; lia|]. destruct (mixb mcn ss).
    + split; [intros _ _; exists (cset (G s)); split; [exact CS|apply unit_cunit]|]. split; intros _ X; exfalso; apply X; apply MX; reflexivity.
    + split; [intros _ X; apply MX in X; discriminate|]. destruct (Z.leb_spec mcn (Z.of_nat (length (of_length (length s) ss)))) as [Q'|Q'].
      * split; [intros _ _ _; exists (cset (G s)); split; [exact CS|]; change (reported (G s)) with (TokProofs.pl (G s)); apply unit_cunit|intros _ _ X; lia].
      * split; [intros _ _ X; lia|]. intros _ _ _. exact PL.
Qed.
Lemma spaces_mid : forall r A B a b, one_sp r a -> one_sp r b -> same_spaces (A ++ a ++ B) (A ++ b ++ B).
Proof.
  intros r A B a b P Q. destruct (one_same r a b P Q) as [H1 H2]. split; intros x I; apply in_app_or in I; (destruct I as [I|I]; [exists x; split; [apply in_or_app; left; exact I|apply same_space_refl]|]); apply in_app_or in I; (destruct I as [I|I]; [|exists x; split; [apply in_or_app; right; apply in_or_app; right; exact I|apply same_space_refl]]).
  - destruct (H1 x I) as (y & Y & S). exists y. split; [|exact S]. apply in_or_app. right. apply in_or_app. left. exact Y.
  - destruct (H2 x I) as (y & Y & S). exists y. split; [|exact S]. apply in_or_app. right. apply in_or_app. left. exact Y.
Qed.
Lemma c67 : forall nv h mcn m pre post A B r ss, (2 <= mcn)%Z -> run_varies nv h m pre post A B r ss -> whole_run A B r ->
  exists A0 a b B0 cs, (forall s, In s ss -> block mcn (path_depth m = S (length pre)) A s B A0 a b B0) /\ make mcn (loads nv h) = Ok cs /\
    (forall m' t nodes, In (m', t) cs -> In nodes (paths t) -> m' = m /\ exists s P, In s ss /\ path_pieces nodes = map piece_of (pre ++ (A ++ s ++ B) :: post) /\
       block_pattern mcn ss s (a ++ s ++ b) P /\ path_patterns nodes = map piece_of pre ++ (piece_of A0 ++ P ++ piece_of B0) :: map piece_of post) /\
    NoDup (map (fun mt => path_patterns (hd [] (paths (snd mt)))) cs) /\
    (forall s, In s ss -> exists t nodes, In (m, t) cs /\ In nodes (paths t) /\ path_pieces nodes = map piece_of (pre ++ (A ++ s ++ B) :: post)).
Proof.
  intros nv h mcn m pre post A B r ss M (ND & H1 & H2) (WA & WB).
  assert (LG : forall s, In s ss -> Forall all_legal (pre ++ (A ++ s ++ B) :: post) /\ all_legal A /\ all_legal B /\ one_sp r s).
  { intros s I. apply H2 in I. destruct I as (url & me & I & U). pose proof (proj1 (proj2 (url_path_parse _ _ _ _ U))) as L. split; [exact L|]. destruct (H1 _ _ _ _ I U) as (_ & s' & E & S). apply app_inv_head in E. injection E as E. apply app_inv_head, app_inv_tail in E. subst s'.
    apply Forall_app in L. destruct L as [_ L]. inversion L as [|? ? L1 _]; subst. rewrite !legal_app in L1. destruct L1 as (L1 & L2 & L3). split; [exact L1|]. split; [exact L3|]. apply in_space_one; assumption. }
  destruct ss as [|s0 ss0].
  { assert (E : loads nv h = []). { destruct (loads nv h) as [|[k mk] st] eqn:E; [reflexivity|]. exfalso. destruct (proj1 (proj2 (c18_keys nv h) k)) as (m' & raw & me & X & _); [rewrite E; left; reflexivity|]. apply in_accepted in X. destruct X as (url & X & U).
      destruct (H1 _ _ _ _ X U) as (-> & s & -> & _). apply (H2 s). exists url, me. auto. }
    rewrite E. exists [], [], [], [], []. split; [intros ? []|]. split; [reflexivity|]. split; [intros ? ? ? []|]. split; [constructor|intros ? []]. }
  set (ss := s0 :: ss0) in *. assert (I0 : In s0 ss) by (left; reflexivity). destruct (proj1 (H2 s0) I0) as (url0 & me0 & AU & U0).
  destruct (LG s0 I0) as (_ & LA & LB & O0).
  assert (ALL : forall url me m' raw, In (url, me) h -> url_path nv url = Some (m', raw) -> m' = m /\ exists s, In s ss /\ raw = pre ++ (A ++ s ++ B) :: post).
  { intros url me m' raw X U. destruct (H1 _ _ _ _ X U) as (-> & s & -> & _). split; [reflexivity|]. exists s. split; [|reflexivity]. apply H2. exists url, me. auto. }
  assert (SD : forall s, In s ss -> digest_of m (pre ++ (A ++ s ++ B) :: post) = digest_of m (pre ++ (A ++ s0 ++ B) :: post)).
  { intros s I. destruct (proj1 (H2 s) I) as (url & me & X & U). apply (digest_iff _ _ _ _ _ _ _ U U0). split; [reflexivity|]. apply Forall2_app; [|constructor].
    - clear. induction pre; constructor; [apply same_spaces_refl|assumption].
    - apply (spaces_mid r); apply LG; assumption.
    - clear. induction post; constructor; [apply same_spaces_refl|assumption]. }
  set (sid := digest_of m (pre ++ (A ++ s0 ++ B) :: post)) in *.
  destruct (one_key (loads nv h) sid) as (mk & EL).
  { apply c18_keys. }
  { intros x. rewrite (proj2 (c18_keys nv h) x). split.
    - intros (m' & raw & me & X & Y). apply in_accepted in X. destruct X as (url & X & U). destruct (ALL _ _ _ _ X U) as (-> & s & I & ->). rewrite <- Y. apply SD. exact I.
    - intros ->. exists m, (pre ++ (A ++ s0 ++ B) :: post), me0. split; [|reflexivity]. apply in_accepted. exists url0. auto. }
  assert (IM : In (sid, mk) (loads nv h)) by (rewrite EL; left; reflexivity).
  destruct (maker_facts nv h sid mk IM) as (raw0 & F). destruct (mf_url _ _ _ _ _ F) as [url1 U1].
  destruct (proj1 (digest_iff _ _ _ _ _ _ _ U1 U0)) as [EQ _]; [rewrite (mf_dig _ _ _ _ _ F); reflexivity|].
  assert (CN : map cset raw0 <> []) by (destruct raw0; [destruct (mf_non _ _ _ _ _ F eq_refl)|discriminate]).
  assert (CL : length (map cset raw0) = depth (mk_meta mk)) by (rewrite map_length; exact (mf_dep _ _ _ _ _ F)).
  pose proof (mf_tok _ _ _ _ _ F) as W. rewrite <- (map_length cset raw0) in W.
  assert (PO : forall s, all_legal s -> piece_of s = piece (pp_of s)) by (intros s L; unfold piece_of; rewrite piece_parse_legal by exact L; reflexivity).
  assert (PC : forall s, In s ss -> map piece_of (pre ++ (A ++ s ++ B) :: post) = map piece_of pre ++ piece (pp_of (TX A B s)) :: map piece_of post).
  { intros s I. rewrite map_app. cbn [map]. do 2 f_equal. apply PO. destruct (LG s I) as (L & _). apply Forall_app in L. destruct L as [_ L]. inversion L. assumption. }
  assert (ON : Forall (one_sp r) ss) by (apply Forall_forall; intros s I; apply LG; exact I).
  assert (SH : rsh (map cset raw0) r (map piece_of pre) (map piece_of post) (TX A B) (mk_root mk) ss).
  { split; [split; [exact W|]; split; apply F|]. split; [apply F|]. split; [split; [exact ND|exact ON]|]. intros ks.
    assert (X : (exists e, In e (ents (mk_root mk)) /\ e_pieces e = ks) <-> In ks (map (map piece_of) (distinct_paths nv sid h))).
    { transitivity (In ks (map e_pieces (ents (mk_root mk)))).
      - rewrite in_map_iff. split; intros (e & X & Y); exists e; auto.
      - split; apply Permutation_in; [|symmetry]; exact (mf_pcs _ _ _ _ _ F). }
    rewrite X, in_map_iff. unfold distinct_paths. split.
    - intros (raw & <- & I). apply nodup_In in I. apply in_map_iff in I. destruct I as ([raw' me] & E & I). cbn [fst] in E. subst raw'. apply in_group in I. destruct I as (url & m' & Y & U & _). destruct (ALL _ _ _ _ Y U) as (-> & s & I & ->). exists s. split; [exact I|]. apply PC. exact I.
    - intros (s & I & ->). exists (pre ++ (A ++ s ++ B) :: post). split; [apply PC; exact I|]. apply nodup_In. destruct (proj1 (H2 s) I) as (url & me & Y & U). apply in_map_iff. exists (pre ++ (A ++ s ++ B) :: post, me). split; [reflexivity|]. apply in_group. exists url, m. auto. }
  assert (RB : forall x, (exists rx, char_rule x = Some rx) -> space_text x <> r -> char_rule x <> Some r).
  { intros x [rx X] N E. apply N. rewrite <- (rule_space _ _ E). reflexivity. }
  assert (BA : forall A' x, A = A' ++ [x] -> char_rule x <> Some r).
  { intros A' x E. apply RB; [|apply (WA A' x E)]. rewrite E in LA. apply legal_app in LA. destruct LA as [_ L]. inversion L. assumption. }
  assert (BB : forall x B', B = x :: B' -> char_rule x <> Some r).
  { intros x B' E. apply RB; [|apply (WB x B' E)]. rewrite E in LB. inversion LB. assumption. }
  destruct (run_mode mcn (path_depth (mk_meta mk) =? S (length (map piece_of pre))) r A B LA LB BA BB s0 O0) as (oc & As & ga & gb & Bs & A0 & B0 & FG & OC & SPL & MODE & (LA0 & LB0 & PA0 & PB0) & BLK).
  destruct (run_cluster mcn M (map cset raw0) CN (path_depth (mk_meta mk)) r _ (map piece_of post) _ _ (TX A B) (tx_fam r A B LA LB BA BB) As ga gb Bs FG oc OC SPL MODE (mk_root mk) ss SH) as (tqs & T1 & T2 & T3 & T4 & T5).
  assert (MID : forall s, cat (ga ++ (r, s) :: gb) = cat ga ++ s ++ cat gb) by (intros s; rewrite cat_app; reflexivity).
  assert (WE : forall s, In s ss -> RunOuter.WX mcn r As ga gb Bs ss s = piece_of A0 ++ pstr (cat ga ++ s ++ cat gb) (okind mcn ss s) ++ piece_of B0).
  { intros s I. rewrite (PO A0 LA0), (PO B0 LB0), <- PA0, <- PB0, <- MID. apply wx_eq. }
  assert (EN : forall nodes, e_pieces (ent nodes) = path_pieces nodes) by (intros nodes; unfold path_pieces, ent, e_pieces, e_path; cbn [fst]; rewrite map_map; reflexivity).
  assert (TP : forall t q nodes, In (t, q) tqs -> In nodes (paths t) -> path_patterns nodes = map piece_of pre ++ q :: map piece_of post).
  { intros t q nodes I J. destruct (T3 t q I) as (_ & _ & Q). pose proof (Q nodes J) as Z. apply paths_head in J. destruct J as (y & ->). cbn [map] in Z. injection Z as _ Z. exact Z. }
  exists A0, (cat ga), (cat gb), B0, (map (fun t => (mk_meta mk, t)) (map fst tqs)). split; [|split; [|split; [|split]]].
  - intros s I. destruct (BLK s (proj1 (Forall_forall _ _) ON s I)) as (ws & As' & Bs' & a1 & b1 & X1 & X2 & X3 & X4 & X5 & X6). exists ws, As', Bs', a1, b1. do 4 (split; [assumption|]). cbv zeta. rewrite <- EQ.
    assert (LP : (path_depth (mk_meta mk) =? S (length (map piece_of pre))) = true <-> path_depth (mk_meta mk) = S (length pre)) by (rewrite Nat.eqb_eq, map_length; reflexivity). rewrite <- LP. split; assumption.
  - unfold make. rewrite EL. cbn [mapM snd]. unfold maker_make, cluster. rewrite <- CL, T1. cbn [bind List.concat]. rewrite app_nil_r. reflexivity.
  - intros m' t nodes I J. apply in_map_iff in I. destruct I as (t' & E & I). injection E as <- ->. split; [exact EQ|]. apply in_map_iff in I. destruct I as ([t' q] & E & I). cbn [fst] in E. subst t'.
    destruct (T3 t q I) as ((_ & _ & _ & UX) & _ & _). destruct (proj1 (UX (path_pieces nodes))) as (s & IS & PS). { exists (ent nodes). split; [apply in_map; exact J|apply EN]. }
    apply filter_In in IS. destruct IS as [IS Q]. apply str_eqb_eq in Q. exists s, (pstr (cat ga ++ s ++ cat gb) (okind mcn ss s)). split; [exact IS|]. split; [rewrite (PC s IS); exact PS|]. split; [rewrite <- MID; apply (block_pattern_ok mcn r ga gb (fun s => cat (ga ++ (r, s) :: gb)) ss s M FG (conj ND ON) IS)|]. rewrite (TP t q nodes I J), <- Q, (WE s IS). reflexivity.
  - rewrite !map_map. cbn [snd]. assert (X : map (fun tq : tree * str => path_patterns (hd [] (paths (fst tq)))) tqs = map (fun q => map piece_of pre ++ q :: map piece_of post) (map snd tqs)).
    { rewrite map_map. apply map_ext_in. intros [t q] I. cbn [fst snd]. apply (TP t q _ I). assert (N : paths t <> []) by (intros X; apply (ents_nonnil t); unfold ents; rewrite X; reflexivity). destruct (paths t); [congruence|left; reflexivity]. }
    rewrite X. apply FinFun.Injective_map_NoDup; [|exact T2]. intros a b E. apply app_inv_head in E. injection E as E. exact E.
  - intros s I. destruct (T4 s I) as (t & IT). destruct (T3 t _ IT) as ((_ & _ & _ & UX) & _ & _). destruct (proj2 (UX (map piece_of (pre ++ (A ++ s ++ B) :: post)))) as (e & E1 & E2).
    { exists s. split; [apply filter_In; split; [exact I|apply str_eqb_refl]|apply PC; exact I]. }
    unfold ents in E1. apply in_map_iff in E1. destruct E1 as (nodes & <- & E1). exists t, nodes. split; [rewrite EQ; apply (in_map (fun t => (m, t))); apply (in_map fst) in IT; exact IT|]. split; [exact E1|]. rewrite <- E2. symmetry. apply EN.
Qed.
(** *** the block is determined *)
Lemma parts_of_unique : forall mcn t ws ws', parts_of mcn t ws -> parts_of mcn t ws' -> ws = ws'.
Proof.
  intros mcn t ws ws' (rs & bs & R & B & X1 & X2) (rs' & bs' & R' & B' & Y1 & Y2). rewrite <- (maximal_runs_unique t rs rs' R R') in Y1, Y2. rewrite <- (mixed_cut_unique t bs bs' B B') in Y1, Y2.
  destruct (le_dec (length rs) 3) as [D|D]; [rewrite X1, Y1 by (left; exact D); reflexivity|]. destruct (le_dec 2 (length bs)) as [E|E].
  - destruct (Z_lt_dec (Z.of_nat (length rs) - Z.of_nat (length bs)) mcn) as [F|F]; [rewrite X1, Y1 by (right; split; assumption); reflexivity|]. rewrite X2, Y2; [reflexivity|intros [?|[? ?]]; contradiction..].
  - rewrite X2, Y2; [reflexivity|intros [?|[? ?]]; contradiction..].
Qed.
Lemma place_le : forall (As As' Bs Bs' : list str) a1 b1 a1' b1' s, s <> [] -> As ++ (a1 ++ s ++ b1) :: Bs = As' ++ (a1' ++ s ++ b1') :: Bs' -> List.concat As ++ a1 = List.concat As' ++ a1' -> length As' <= length As.
Proof.
  intros As As' Bs Bs' a1 b1 a1' b1' s NE E C. destruct (le_lt_dec (length As') (length As)) as [L|L]; [exact L|exfalso].
  apply app_eq_app in E. destruct E as (l & [[E1 E2]|[E1 E2]]); [rewrite E1, app_length in L; lia|]. destruct l as [|x l]; [rewrite E1, app_length in L; cbn [length] in L; lia|]. cbn [app] in E2. injection E2 as E2 _. subst x. rewrite E1, concat_app in C. cbn [List.concat] in C.
  apply (f_equal (@length _)) in C. rewrite !app_length in C. destruct s; [congruence|]. cbn [length] in C. lia.
Qed.
Lemma block_unique : forall mcn last A s B A0 a b B0 A0' a' b' B0', s <> [] -> block mcn last A s B A0 a b B0 -> block mcn last A s B A0' a' b' B0' -> A0 = A0' /\ a = a' /\ b = b' /\ B0 = B0'.
Proof.
  intros mcn last A s B A0 a b B0 A0' a' b' B0' NE (ws & As & Bs & a1 & b1 & P & W & EA & EB & X1 & X2) (ws' & As' & Bs' & a1' & b1' & P' & W' & EA' & EB' & Y1 & Y2).
  rewrite <- (parts_of_unique mcn _ ws ws' P P') in W', Y1, Y2. rewrite W in W'. assert (C : List.concat As ++ a1 = List.concat As' ++ a1') by congruence.
  assert (LL : length As = length As'). { apply Nat.le_antisymm; [eapply (place_le As' As); eauto|eapply (place_le As As'); eauto]. }
  assert (E : As = As' /\ (a1 ++ s ++ b1) :: Bs = (a1' ++ s ++ b1') :: Bs').
  { clear - W' LL. revert As' LL W'. induction As as [|x As IH]; intros [|y As'] L W; try discriminate; [auto|]. cbn [app length] in *. injection W as -> W. injection L as L. destruct (IH As' L W) as [-> E]. auto. }
  destruct E as [<- E]. apply app_inv_head in C. subst a1'. injection E as E <-. apply app_inv_head, app_inv_head in E. subst b1'.
  destruct (list_eq_dec PyStrProofs.str_dec [A0; a; b; B0] [A0'; a'; b'; B0']) as [D|D]; [injection D; auto|exfalso].
  assert (NX : ~ (last /\ dot_cut (A ++ s ++ B) ws /\ Bs = [])). { intros X. apply D. destruct (X1 X) as (-> & -> & -> & ->). destruct (Y1 X) as (-> & -> & -> & ->). reflexivity. }
  apply D. destruct (X2 NX) as (-> & -> & -> & ->). destruct (Y2 NX) as (-> & -> & -> & ->). reflexivity.
Qed.
(** the parts, computed *)
Lemma parts_computed : forall mcn t ws, all_legal t -> vsv (cc mcn t) t = ws -> parts_of mcn t ws.
Proof. intros mcn t ws L <-. apply cc_parts. exact L. Qed.
