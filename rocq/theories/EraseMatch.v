(** The matcher does not look at metadata. *)
From Coq Require Import String.
From Verif Require Import PyStr Defs UrlLib ParseUtils Views Trees Patterns Matcher Observe MatchSpec MetaSpec PyStrProofs Erase.
From Coq Require Import Lia.

Fixpoint emn (n : mnode) : mnode := match n with MN p c _ ks vms => MN p c None (map emn ks) vms end.
Lemma emn_key : forall n, m_key (emn n) = m_key n. Proof. intros []. reflexivity. Qed.
Lemma emn_pat : forall n, m_pat (emn n) = m_pat n. Proof. intros []. reflexivity. Qed.
Lemma emn_vms : forall n, m_vms (emn n) = m_vms n. Proof. intros []. reflexivity. Qed.
Lemma emn_kids : forall n, m_kids (emn n) = map emn (m_kids n). Proof. intros []. reflexivity. Qed.
Lemma emn_leaf : forall n, m_leaf (emn n) = m_leaf n. Proof. intros n. unfold m_leaf. rewrite emn_kids. destruct (m_kids n); reflexivity. Qed.
Lemma mkid_split_e : forall key ks, mkid_split key (map emn ks) = option_map (fun s => match s with (a, k, b) => (map emn a, emn k, map emn b) end) (mkid_split key ks).
Proof.
  intros key. induction ks as [|k r IH]; [reflexivity|]. cbn [map mkid_split]. rewrite emn_key. destruct (str_eqb key (m_key k)); [reflexivity|]. rewrite IH. destruct (mkid_split key r) as [[[a x] b]|]; reflexivity.
Qed.
Lemma mbuild_e : forall inner meta ps n new, mbuild inner (emn n) ps None new = (emn (fst (mbuild inner n ps meta new)), snd (mbuild inner n ps meta new)).
Proof.
  intros inner meta. induction ps as [|q r IH]; intros [p c m ks vms] new; [reflexivity|]. cbn [mbuild emn]. rewrite mkid_split_e. destruct (mkid_split (mp_str q) ks) as [[[a k] b]|]; cbn [option_map].
  - rewrite IH. destruct (mbuild inner k r meta (Some false)) as [k' o]. cbn [fst snd emn]. rewrite map_app. reflexivity.
  - destruct (register inner vms q) as [vms' [e|]]; [cbn [fst snd emn]; rewrite map_app; reflexivity|]. change (new_mnode q) with (emn (new_mnode q)) at 1. rewrite IH. destruct (mbuild inner (new_mnode q) r meta (Some true)) as [k' o]. cbn [fst snd emn]. rewrite map_app. reflexivity.
Qed.
Lemma kid_by_key_e : forall n k, kid_by_key (emn n) k = rmap emn (kid_by_key n k).
Proof. intros. unfold kid_by_key. rewrite emn_kids, mkid_split_e. destruct (mkid_split k (m_kids n)) as [[[a x] b]|]; reflexivity. Qed.
Definition efd (f : found) : found := (fst f, emn (snd f)).
Lemma mapM_same : forall A B C (g : A -> res B) (f : A -> res C) (e : C -> B) l, (forall x, g x = rmap e (f x)) -> mapM g l = rmap (map e) (mapM f l).
Proof. intros A B C g f e l H. rewrite <- (map_id l) at 1. apply mapM_rmap. exact H. Qed.
Lemma concat_map_e : forall A B (f : A -> B) l, List.concat (map (map f) l) = map f (List.concat l).
Proof. induction l as [|x l IH]; [reflexivity|]. cbn [map List.concat]. rewrite IH, map_app. reflexivity. Qed.
Lemma nmatch_e : forall inner os n, nmatch inner os (emn n) = rmap (map efd) (nmatch inner os n).
Proof.
  intros inner. induction os as [|o os IH]; intros n; [reflexivity|]. cbn [nmatch]. rewrite emn_vms.
  rewrite (mapM_same _ _ _ _ (fun vb => ks <- view_match inner (fst vb) (snd vb) o ;; nodes <- mapM (kid_by_key n) ks ;;
     match nodes with [] => Ok [] | k0 :: _ => if m_leaf k0 then Ok (map (fun k => ([m_pat k], k)) nodes)
       else fs <- mapM (fun k => f <- nmatch inner os k ;; Ok (map (fun pn => (m_pat k :: fst pn, snd pn)) f)) nodes ;; Ok (List.concat fs) end) (map efd)).
  - match goal with |- context [mapM ?f (m_vms n)] => destruct (mapM f (m_vms n)) as [rs|]; [|reflexivity] end. cbn [rmap bind]. rewrite concat_map_e. reflexivity.
  - intros [v b]. cbn [fst snd]. destruct (view_match inner v b o) as [ks|]; [|reflexivity]. cbn [bind]. rewrite (mapM_same _ _ _ _ (kid_by_key n) emn) by (intros; apply kid_by_key_e). destruct (mapM (kid_by_key n) ks) as [nodes|]; [|reflexivity]. cbn [rmap bind].
    destruct nodes as [|k0 nodes]; [reflexivity|]. cbn [map]. rewrite emn_leaf. destruct (m_leaf k0).
    + cbn [rmap map efd fst snd]. rewrite emn_pat, !map_map. do 2 f_equal. apply map_ext. intros k. rewrite emn_pat. reflexivity.
    + change (emn k0 :: map emn nodes) with (map emn (k0 :: nodes)). rewrite (mapM_rmap _ _ _ _ emn (map efd) (fun k => f <- nmatch inner os k ;; Ok (map (fun pn => (m_pat k :: fst pn, snd pn)) f))).
      * match goal with |- context [mapM ?f (k0 :: nodes)] => destruct (mapM f (k0 :: nodes)) as [fs|]; [|reflexivity] end. cbn [rmap bind]. rewrite concat_map_e. reflexivity.
      * intros k. rewrite IH, emn_pat. destruct (nmatch inner os k) as [f|]; [|reflexivity]. cbn [rmap bind]. rewrite !map_map. reflexivity.
Qed.
Definition emm (x : matcher) : matcher := MM (mm_meta x) (emn (mm_root x)).
Lemma match_load_e : forall nv st s me, match_load nv (vmap emm st) s None = (vmap emm (fst (match_load nv st s me)), snd (match_load nv st s me)).
Proof.
  intros. unfold match_load. destruct (parse nv s) as [[m [[|p l]|[|p l]]]|e]; try reflexivity. rewrite dget_vmap. set (sid := parsed_digest m (PPat (p :: l))).
  replace (match option_map emm (dget str_eqb sid st) with Some x => x | None => MM m new_mroot end) with (emm (match dget str_eqb sid st with Some x => x | None => MM m new_mroot end)) by (destruct (dget _ _ st); reflexivity).
  set (x := match dget str_eqb sid st with Some x => x | None => MM m new_mroot end). change (mm_root (emm x)) with (emn (mm_root x)). change (mm_meta (emm x)) with (mm_meta x).
  change (mbuild_n 2) with (fun n ps meta => mbuild (fun t qs r => mbuild_n 1 t qs (Some r)) n ps meta None). cbv beta. cbn [option_map]. rewrite (mbuild_e _ (option_map MUser me)). destruct (mbuild _ (mm_root x) (p :: l) (option_map MUser me) None) as [root o]. cbn [fst snd].
  change (MM (mm_meta x) (emn root)) with (emm (MM (mm_meta x) root)). rewrite dset_vmap. reflexivity.
Qed.
Lemma mloads_e : forall nv h, mloads nv (map (fun l => (fst l, None)) h) = vmap emm (mloads nv h).
Proof.
  intros nv h. induction h as [|[s me] h IH] using rev_ind; [reflexivity|]. unfold mloads in *. rewrite map_app, !fold_left_app, IH. cbn [map fold_left fst snd]. rewrite (match_load_e _ _ _ me). reflexivity.
Qed.
Lemma match_url_e : forall nv st url, match_url nv (vmap emm st) url = rmap (map efd) (match_url nv st url).
Proof.
  intros. unfold match_url. destruct (parse nv url) as [[m p]|]; [|reflexivity]. cbn [bind]. rewrite dget_vmap. destruct (dget _ _ st) as [x|]; cbn [option_map]; [|reflexivity]. apply nmatch_e.
Qed.
Lemma no_meta_h : forall (h h' : list (str * option str)), map fst h = map fst h' -> map (fun l : str * option str => (fst l, @None str)) h = map (fun l => (fst l, None)) h'.
Proof. intros h h' E. rewrite <- !(map_map fst (fun x => (x, @None str))), E. reflexivity. Qed.
Lemma found_e : forall r, found_patterns (rmap (map efd) r) = found_patterns r.
Proof. intros [fs|]; [|reflexivity]. cbn [rmap found_patterns]. rewrite map_map. reflexivity. Qed.
Lemma erased_match : forall nv h h' url, map fst h = map fst h' -> found_patterns (match_url nv (mloads nv h) url) = found_patterns (match_url nv (mloads nv h') url).
Proof. intros nv h h' url E. rewrite <- (found_e (match_url nv (mloads nv h) url)), <- (found_e (match_url nv (mloads nv h') url)), <- !match_url_e, <- !mloads_e, (no_meta_h h h' E). reflexivity. Qed.
Lemma erased_mload : forall nv h h' s me me', map fst h = map fst h' -> snd (match_load nv (mloads nv h) s me) = snd (match_load nv (mloads nv h') s me').
Proof.
  intros nv h h' s me me' E. pose proof (match_load_e nv (mloads nv h) s me) as A. pose proof (match_load_e nv (mloads nv h') s me') as B. rewrite <- !mloads_e in A, B. rewrite (no_meta_h h h' E) in A. rewrite A in B. injection B. auto.
Qed.
