(** Reading a configuration file: read_config does, block by block, what the layout of
    the file says, and accepts nothing else. *)
From Coq Require Import String.
From Verif Require Import PyStr PyStrProofs DictProofs Conf ConfSpec ConfText.
From Coq Require Import Lia.

(** ** Dicts and sections *)
Lemma str_in_iff : forall x l, str_in x l = true <-> In x l.
Proof.
  intros x l. unfold str_in. rewrite existsb_exists. split.
  - intros (y & I & E). apply str_eqb_iff in E. subst. exact I.
  - intros I. exists x. split; [exact I|]. apply str_eqb_iff. reflexivity.
Qed.
Lemma dset_dset : forall {V} k (v w : V) d, dset str_eqb k v (dset str_eqb k w d) = dset str_eqb k v d.
Proof.
  intros V k v w. induction d as [|[k' x] d IH]; cbn.
  - rewrite (proj2 (str_eqb_iff k k) eq_refl). reflexivity.
  - destruct (str_eqb k k') eqn:E; cbn; rewrite E; [reflexivity|]. f_equal. exact IH.
Qed.
Lemma dset_id : forall {V} k (v : V) d, dget str_eqb k d = Some v -> dset str_eqb k v d = d.
Proof.
  intros V k v. induction d as [|[k' x] d IH]; cbn; [discriminate|]. destruct (str_eqb k k') eqn:E; intros H; [congruence|]. f_equal. exact (IH H).
Qed.
Lemma dget_app_new : forall {V} k h (v : V) d, k <> h -> dget str_eqb k (d ++ [(h, v)]) = dget str_eqb k d.
Proof.
  intros V k h v d N. induction d as [|[k' x] d IH]; cbn.
  - destruct (str_eqb k h) eqn:E; [apply str_eqb_iff in E; congruence|reflexivity].
  - destruct (str_eqb k k'); [reflexivity|exact IH].
Qed.
Lemma dget_app_same : forall {V} h (v : V) d, dget str_eqb h d = None -> dget str_eqb h (d ++ [(h, v)]) = Some v.
Proof.
  intros V h v. induction d as [|[k' x] d IH]; cbn.
  - rewrite (proj2 (str_eqb_iff h h) eq_refl). reflexivity.
  - destruct (str_eqb h k'); [discriminate|exact IH].
Qed.
Lemma dget_map : forall {V W} (f : V -> W) k d, dget str_eqb k (map (fun kv => (fst kv, f (snd kv))) d) = option_map f (dget str_eqb k d).
Proof. intros V W f k. induction d as [|[k' x] d IH]; cbn; [reflexivity|]. destruct (str_eqb k k'); [reflexivity|exact IH]. Qed.

Lemma sect_set : forall cf n x, sect (set_sect cf n x) n = x.
Proof.
  intros cf n x. unfold sect, set_sect. destruct (dget str_eqb n (cf_sections cf)) eqn:E; cbn.
  - rewrite (dget_dset_same str_eqb str_eqb_iff). reflexivity.
  - rewrite E. reflexivity.
Qed.
Lemma set_set : forall cf n x y, set_sect (set_sect cf n x) n y = set_sect cf n y.
Proof.
  intros cf n x y. unfold set_sect. destruct (dget str_eqb n (cf_sections cf)) eqn:E; cbn.
  - rewrite (dget_dset_same str_eqb str_eqb_iff). rewrite dset_dset. reflexivity.
  - rewrite E. reflexivity.
Qed.
Lemma set_id : forall cf n, set_sect cf n (sect cf n) = cf.
Proof.
  intros [d s] n. unfold set_sect, sect. cbn. destruct (dget str_eqb n s) eqn:E; [|reflexivity]. rewrite (dset_id _ _ _ E). reflexivity.
Qed.

Section Read.
  Context (lower : str -> str) (LW : lowers lower).

  (** ** The reader, block by block *)
  Record bst := B { b_cf : config; b_heads : list str; b_opts : list (str * str); b_sect : option str }.
  Definition proj (s : reader) : bst := B (r_cf s) (r_heads s) (r_opts s) (r_sect s).
  Definition bhead (b : bst) (h : str) : cres bst :=
    match dget str_eqb h (cf_sections (b_cf b)) with
    | Some _ => if str_in h (b_heads b) then CErr CDuplicateSection
                else COk (B (b_cf b) (h :: b_heads b) (b_opts b) (Some h))
    | None =>
        if str_eqb h DEFAULTSECT then COk (B (b_cf b) (b_heads b) (b_opts b) (Some h))
        else COk (B (CF (cf_defaults (b_cf b)) (cf_sections (b_cf b) ++ [(h, [])])) (h :: b_heads b) (b_opts b) (Some h))
    end.
  Definition bopt (b : bst) (o : str) (vs : list str) : cres bst :=
    match b_sect b with
    | None => CErr CMissingHeader
    | Some n =>
        if existsb (opt_eqb (n, lower o)) (b_opts b) then CErr CDuplicateOption
        else COk (B (set_sect (b_cf b) n (dset str_eqb (lower o) (VLines vs) (sect (b_cf b) n)))
                    (b_heads b) ((n, lower o) :: b_opts b) (Some n))
    end.
  Definition bstep (b : bst) (x : block) : cres bst :=
    match x with Head h => bhead b h | Opt o vs => bopt b o vs end.

  Definition with_value (s : reader) (n o : str) (l : list str) : reader :=
    RD (set_sect (r_cf s) n (dset str_eqb o (VLines l) (sect (r_cf s) n)))
       (r_heads s) (r_opts s) (r_sect s) (r_opt s) (r_indent s) (r_bad s).
  Lemma cfold_app : forall {A S} (f : S -> A -> cres S) l l' s, cfoldM f (l ++ l') s = cbind (cfoldM f l s) (fun s' => cfoldM f l' s').
  Proof. intros A S f. induction l as [|x l IH]; intros l' s; [reflexivity|]. cbn. destruct (f s x); cbn; [apply IH|reflexivity]. Qed.

  (** one line of each kind *)
  Lemma line_comment : forall s l j t, shows l j t -> comment t -> read_line lower s l = COk s.
  Proof. intros s l j t S C. apply shows_iff in S as (E & _ & _). unfold read_line. rewrite E. rewrite (proj2 (comment_iff t) C). reflexivity. Qed.
  Lemma line_blank : forall s l, white l -> read_line lower s l =
    match r_sect s, r_opt s with Some n, Some (c :: o) => append_line s n (c :: o) [] | _, _ => COk s end.
  Proof. intros s l W. apply ustrip_blank in W. unfold read_line. rewrite W. reflexivity. Qed.
  Lemma line_idle : forall s l, idle l -> r_opt s = None -> read_line lower s l = COk s.
  Proof.
    intros s l [W|(k & t & S & C)] O.
    - rewrite (line_blank s l W), O. destruct (r_sect s); reflexivity.
    - exact (line_comment s l k t S C).
  Qed.
  Lemma line_more : forall s l j t n o, shows l j t -> ~ comment t -> r_sect s = Some n -> r_opt s = Some o -> o <> [] ->
    (r_indent s < j)%nat -> read_line lower s l = append_line s n o t.
  Proof.
    intros s l j t n o S C N O OE L. apply shows_iff in S as (E & NE & ->). unfold read_line. rewrite E. rewrite (proj2 (comment_no t) C).
    destruct t as [|c t]; [congruence|]. rewrite N, O. destruct o as [|x o]; [congruence|]. apply Nat.ltb_lt in L. rewrite L. reflexivity.
  Qed.
  Definition fresh_line (s : reader) (k : nat) (t : str) : cres reader :=
    match header t with
    | Some h => read_header s k h
    | None =>
        match r_sect s with
        | None => CErr CMissingHeader
        | Some n =>
            match option_line t with
            | Some (o, val) => read_option lower s k n o val
            | None => COk (RD (r_cf s) (r_heads s) (r_opts s) (r_sect s) (r_opt s) k true)
            end
        end
    end.
  Definition limit (s : reader) : option nat := match r_opt s with Some _ => Some (r_indent s) | None => None end.
  Definition fine (s : reader) : Prop := match r_opt s with Some o => o <> [] /\ exists n, r_sect s = Some n | None => True end.
  Lemma line_fresh : forall s l k t, fine s -> shows l k t -> ~ comment t -> fits (limit s) k -> read_line lower s l = fresh_line s k t.
  Proof.
    intros s l k t F S C P. apply shows_iff in S as (E & NE & ->). unfold read_line. rewrite E. rewrite (proj2 (comment_no t) C).
    destruct t as [|c t]; [congruence|]. unfold limit, fine in *. unfold fresh_line. destruct (r_opt s) as [o|].
    - destruct F as (O & n & N). rewrite N. destruct o as [|x o]; [congruence|]. cbn in P. apply Nat.ltb_ge in P. rewrite P. reflexivity.
    - destruct (r_sect s); reflexivity.
  Qed.

  Lemma append_ok : forall s n o l x, dget str_eqb o (sect (r_cf s) n) = Some (VLines l) -> append_line s n o x = COk (with_value s n o (l ++ [x])).
  Proof. intros s n o l x H. unfold append_line. rewrite H. reflexivity. Qed.
  Lemma with_again : forall s n o l l', with_value (with_value s n o l) n o l' = with_value s n o l'.
  Proof. intros s n o l l'. unfold with_value. cbn. rewrite sect_set, set_set, dset_dset. reflexivity. Qed.
  Lemma with_get : forall s n o l, dget str_eqb o (sect (r_cf (with_value s n o l)) n) = Some (VLines l).
  Proof. intros s n o l. unfold with_value. cbn. rewrite sect_set. apply (dget_dset_same str_eqb str_eqb_iff). Qed.
  Lemma more_read : forall k ts vs, more k ts vs -> forall s n o l, r_sect s = Some n -> r_opt s = Some o -> o <> [] -> r_indent s = k ->
    dget str_eqb o (sect (r_cf s) n) = Some (VLines l) -> cfoldM (read_line lower) ts s = COk (with_value s n o (l ++ vs)).
  Proof.
    induction 1 as [|x j t ls vs S C H IH|x ls vs W H IH|x j t ls vs S C L H IH]; intros s n o l N O OE K G; cbn [cfoldM].
    - rewrite app_nil_r. unfold with_value. rewrite (dset_id _ _ _ G), set_id. destruct s; reflexivity.
    - rewrite (line_comment s x j t S C). cbn [cbind]. exact (IH s n o l N O OE K G).
    - rewrite (line_blank s x W), N, O. destruct o as [|c o]; [congruence|]. rewrite (append_ok _ _ _ _ _ G). cbn [cbind].
      etransitivity; [exact (IH (with_value s n (c :: o) (l ++ [[]])) n (c :: o) (l ++ [[]]) N O OE K (with_get _ _ _ _))|]. rewrite with_again, <- app_assoc. reflexivity.
    - rewrite (line_more s x j t n o S C N O OE ltac:(lia)). rewrite (append_ok _ _ _ _ _ G). cbn [cbind].
      rewrite (IH (with_value s n o (l ++ [t])) n o (l ++ [t]) N O OE K (with_get _ _ _ _)). rewrite with_again, <- app_assoc. reflexivity.
  Qed.
  Lemma idle_read : forall ns s, Forall idle ns -> r_opt s = None -> cfoldM (read_line lower) ns s = COk s.
  Proof. induction 1 as [|x ns I F IH]; intros O; [reflexivity|]. cbn. rewrite (line_idle s x I O). cbn. exact (IH O). Qed.

  Lemma lower_ne : forall o, o <> [] -> lower o <> [].
  Proof. intros o N E. apply N. exact (proj2 LW o E). Qed.

  Definition agrees (m : cres bst) (r : cres reader) (bad : bool) : Prop :=
    match m with
    | COk b => exists s', r = COk s' /\ proj s' = b /\ r_bad s' = bad
    | CErr e => r = CErr e
    end.
  Lemma laid_read : forall p rest bs, laid p rest bs -> forall s, fine s -> limit s = p ->
    agrees (cfoldM bstep bs (proj s)) (cfoldM (read_line lower) rest s) (r_bad s).
  Proof.
    induction 1 as [p|p l k t h ns rest bs S C P HD I L IH|p l k t o v ts vs rest bs S C P NH ST M L IH]; intros s F LM; cbn [cfoldM].
    - exists s. repeat split; reflexivity.
    - rewrite (line_fresh s l k t F S C) by (rewrite LM; exact P). unfold fresh_line. rewrite (proj2 (header_iff t h) HD).
      cbn [bstep]. unfold bhead, read_header. cbn [b_cf b_heads b_opts proj].
      destruct (dget str_eqb h (cf_sections (r_cf s))) as [x|].
      + destruct (str_in h (r_heads s)); [reflexivity|]. cbn [cbind]. rewrite cfold_app, idle_read by (assumption || reflexivity). cbn [cbind].
        exact (IH (RD (r_cf s) (h :: r_heads s) (r_opts s) (Some h) None k (r_bad s)) Logic.I eq_refl).
      + destruct (str_eqb h DEFAULTSECT).
        * cbn [cbind]. rewrite cfold_app, idle_read by (assumption || reflexivity). cbn [cbind].
          exact (IH (RD (r_cf s) (r_heads s) (r_opts s) (Some h) None k (r_bad s)) Logic.I eq_refl).
        * cbn [cbind]. rewrite cfold_app, idle_read by (assumption || reflexivity). cbn [cbind].
          exact (IH (RD (CF (cf_defaults (r_cf s)) (cf_sections (r_cf s) ++ [(h, [])])) (h :: r_heads s) (r_opts s) (Some h) None k (r_bad s)) Logic.I eq_refl).
    - rewrite (line_fresh s l k t F S C) by (rewrite LM; exact P). unfold fresh_line. rewrite (proj2 (header_none t) NH).
      apply setting_iff in ST as (o0 & v0 & E & R & N & V). rewrite E. cbn [bstep]. unfold bopt, read_option. cbn [b_cf b_heads b_opts b_sect proj].
      destruct (r_sect s) as [n|] eqn:SN; [|reflexivity]. rewrite R, V.
      assert (match o with [] => true | _ :: _ => r_bad s end = r_bad s) as BB by (destruct o; [congruence|reflexivity]). rewrite BB.
      destruct (existsb (opt_eqb (n, lower o)) (r_opts s)); [reflexivity|]. cbn [cbind].
      set (s1 := RD _ _ _ _ _ _ _). rewrite cfold_app.
      assert (dget str_eqb (lower o) (sect (r_cf s1) n) = Some (VLines [v])) as G.
      { unfold s1. cbn [r_cf]. rewrite sect_set. apply (dget_dset_same str_eqb str_eqb_iff). }
      rewrite (more_read k ts vs M s1 n (lower o) [v] eq_refl eq_refl (lower_ne o N) eq_refl G). cbn [cbind].
      specialize (IH (with_value s1 n (lower o) ([v] ++ vs))). assert (fine (with_value s1 n (lower o) ([v] ++ vs))) as F1.
      { split; [apply lower_ne; exact N|]. exists n. reflexivity. }
      specialize (IH F1 eq_refl). unfold s1, with_value, proj in IH. cbn [r_cf r_heads r_opts r_sect r_bad] in IH.
      rewrite sect_set, set_set, dset_dset in IH. unfold s1, with_value. cbn [r_cf r_heads r_opts r_sect r_opt r_indent r_bad].
      rewrite sect_set, set_set, dset_dset. exact IH.
  Qed.

  (** ** Nothing else is accepted *)
  Lemma bad_line : forall s l s', read_line lower s l = COk s' -> r_bad s = true -> r_bad s' = true.
  Proof.
    intros s l s' H BD. unfold read_line in H. destruct (is_comment (ustrip l)); [inversion H; subst; exact BD|].
    assert (forall n o x s', append_line s n o x = COk s' -> r_bad s' = true) as AP.
    { intros n o x q E. unfold append_line in E. destruct (dget str_eqb o (sect (r_cf s) n)) as [[|]|]; try discriminate. inversion E; subst. exact BD. }
    assert (forall k t s', fresh_line s k t = COk s' -> r_bad s' = true) as FL.
    { intros k t q E. unfold fresh_line in E. destruct (header t) as [h|].
      - unfold read_header in E. destruct (dget str_eqb h (cf_sections (r_cf s))); [destruct (str_in h (r_heads s)); inversion E; subst; exact BD|].
        destruct (str_eqb h DEFAULTSECT); inversion E; subst; exact BD.
      - destruct (r_sect s) as [n|]; [|discriminate]. destruct (option_line t) as [[o v]|]; [|inversion E; subst; reflexivity].
        unfold read_option in E. destruct (existsb _ _); inversion E; subst. cbn. destruct (rskip uspace o); [reflexivity|exact BD]. }
    destruct (ustrip l) as [|c t] eqn:U.
    - destruct (r_sect s) as [n|], (r_opt s) as [[|x o]|]; try (inversion H; subst; exact BD). exact (AP _ _ _ _ H).
    - fold (fresh_line s (length l - length (skip uspace l)) (c :: t)) in H.
      destruct (r_sect s) as [n|] eqn:SN, (r_opt s) as [[|x o]|]; try exact (FL _ _ _ H).
      destruct (Nat.ltb _ _); [exact (AP _ _ _ _ H)|exact (FL _ _ _ H)].
  Qed.
  Lemma bad_lines : forall ls s s', cfoldM (read_line lower) ls s = COk s' -> r_bad s' = false -> r_bad s = false.
  Proof.
    induction ls as [|l ls IH]; intros s s' H BD; cbn in H; [inversion H; subst; exact BD|]. destruct (read_line lower s l) as [s1|] eqn:E; [|discriminate].
    cbn in H. pose proof (IH _ _ H BD) as B1. destruct (r_bad s) eqn:R; [|reflexivity]. pose proof (bad_line _ _ _ E R). congruence.
  Qed.

  Definition cut (s : reader) (lines : list str) : Prop :=
    match r_opt s with
    | None => exists ns rest bs, lines = ns ++ rest /\ Forall idle ns /\ laid None rest bs
    | Some _ => exists ts vs rest bs, lines = ts ++ rest /\ more (r_indent s) ts vs /\ laid (Some (r_indent s)) rest bs
    end.
  Lemma fresh_cut : forall s l k t s1 ls, fine s -> shows l k t -> ~ comment t -> fits (limit s) k ->
    fresh_line s k t = COk s1 -> r_bad s1 = false -> (fine s1 -> cut s1 ls) -> fine s1 /\ exists bs, laid (limit s) (l :: ls) bs.
  Proof.
    intros s l k t s1 ls F S C P E BD IH. unfold fresh_line in E. destruct (header t) as [h|] eqn:H.
    - apply header_iff in H. assert (r_opt s1 = None) as O.
      { unfold read_header in E. destruct (dget str_eqb h (cf_sections (r_cf s))); [destruct (str_in h (r_heads s)); inversion E; reflexivity|].
        destruct (str_eqb h DEFAULTSECT); inversion E; reflexivity. }
      assert (fine s1) as F1 by (unfold fine; rewrite O; exact Logic.I). specialize (IH F1). split; [exact F1|]. unfold cut in IH. rewrite O in IH.
      destruct IH as (ns & rest & bs & -> & I & L). exists (Head h :: bs). exact (laid_head _ l k t h ns rest bs S C P H I L).
    - destruct (r_sect s) as [n|] eqn:SN; [|discriminate]. destruct (option_line t) as [[o0 v0]|] eqn:OL; [|inversion E; subst; discriminate].
      unfold read_option in E. destruct (existsb _ _); [discriminate|]. inversion E; subst s1; clear E. cbn in BD.
      destruct (rskip uspace o0) as [|c o] eqn:R; [discriminate|].
      assert (fine (RD (set_sect (r_cf s) n (dset str_eqb (lower (c :: o)) (VLines [ustrip v0]) (sect (r_cf s) n))) (r_heads s)
        ((n, lower (c :: o)) :: r_opts s) (r_sect s) (Some (lower (c :: o))) k (r_bad s))) as F1.
      { split; [apply lower_ne; discriminate|]. exists n. exact SN. }
      specialize (IH F1). split; [exact F1|]. cbn in IH. destruct IH as (ts & vs & rest & bs & -> & M & L). exists (Opt (c :: o) (ustrip v0 :: vs) :: bs).
      apply (laid_opt _ l k t (c :: o) (ustrip v0) ts vs rest bs S C P); [apply header_none; exact H| |exact M|exact L].
      apply setting_iff. exists o0, v0. split; [exact OL|]. split; [exact R|]. split; [discriminate|reflexivity].
  Qed.
  Lemma read_cut : forall ls s s', fine s -> cfoldM (read_line lower) ls s = COk s' -> r_bad s' = false -> cut s ls.
  Proof.
    induction ls as [|l ls IH]; intros s s' F H BD.
    - unfold cut. destruct (r_opt s); [exists [], [], [], []|exists [], [], []]; repeat split; constructor.
    - cbn [cfoldM] in H. destruct (read_line lower s l) as [s1|] eqn:E; [|discriminate]. cbn [cbind] in H. pose proof (bad_lines _ _ _ H BD) as B1.
      assert (fine s1 -> cut s1 ls) as IH1 by (intros F1; exact (IH s1 s' F1 H BD)).
      destruct (is_comment (ustrip l)) eqn:CM.
      { assert (exists k, shows l k (ustrip l)) as (k & S).
        { exists (length l - length (skip uspace l))%nat. apply shows_iff. split; [reflexivity|]. split; [|reflexivity]. intros U. rewrite U in CM. discriminate. }
        apply comment_iff in CM. rewrite (line_comment s l k _ S CM) in E. inversion E; subst s1. specialize (IH1 F). unfold cut in *. destruct (r_opt s).
        - destruct IH1 as (ts & vs & rest & bs & -> & M & L). exists (l :: ts), vs, rest, bs. split; [reflexivity|]. split; [exact (more_comment _ l k _ ts vs S CM M)|exact L].
        - destruct IH1 as (ns & rest & bs & -> & I & L). exists (l :: ns), rest, bs. split; [reflexivity|]. split; [constructor; [right; exists k, (ustrip l); split; assumption|exact I]|exact L]. }
      destruct (ustrip l) as [|c t] eqn:U.
      { apply ustrip_blank in U. rewrite (line_blank s l U) in E. destruct (r_opt s) as [o|] eqn:O.
        - pose proof F as F0. unfold fine in F0. rewrite O in F0. destruct F0 as (OE & n & N). rewrite N in E. destruct o as [|x o]; [congruence|].
          unfold append_line in E. destruct (dget str_eqb (x :: o) (sect (r_cf s) n)) as [[|v]|]; try discriminate. inversion E; subst s1; clear E.
          assert (fine (with_value s n (x :: o) (v ++ [[]]))) as F1 by (unfold fine; cbn; rewrite O; exact (conj OE (ex_intro _ n N))).
          specialize (IH1 F1). unfold cut in *. cbn in IH1. rewrite O in *. destruct IH1 as (ts & vs & rest & bs & -> & M & L).
          exists (l :: ts), ([] :: vs), rest, bs. split; [reflexivity|]. split; [apply more_blank; assumption|exact L].
        - assert (s1 = s) as -> by (destruct (r_sect s); congruence). specialize (IH1 F). unfold cut in *. rewrite O in *. destruct IH1 as (ns & rest & bs & -> & I & L).
          exists (l :: ns), rest, bs. split; [reflexivity|]. split; [constructor; [left; exact U|exact I]|exact L]. }
      assert (shows l (length l - length (skip uspace l)) (c :: t)) as S by (apply shows_iff; split; [exact U|split; [discriminate|reflexivity]]).
      apply comment_no in CM. destruct (r_opt s) as [o|] eqn:O.
      + pose proof F as F0. unfold fine in F0. rewrite O in F0. destruct F0 as (OE & n & N).
        destruct (Nat.ltb_spec (r_indent s) (length l - length (skip uspace l))) as [LT|GE].
        * rewrite (line_more s l _ _ n o S CM N O OE LT) in E. unfold append_line in E. destruct (dget str_eqb o (sect (r_cf s) n)) as [[|v]|]; try discriminate.
          inversion E; subst s1; clear E. assert (fine (with_value s n o (v ++ [c :: t]))) as F1 by (unfold fine; cbn; rewrite O; exact (conj OE (ex_intro _ n N))).
          specialize (IH1 F1). unfold cut in *. cbn in IH1. rewrite O in *. destruct IH1 as (ts & vs & rest & bs & -> & M & L).
          exists (l :: ts), ((c :: t) :: vs), rest, bs. split; [reflexivity|]. split; [exact (more_text _ l _ _ ts vs S CM LT M)|exact L].
        * assert (fits (limit s) (length l - length (skip uspace l))) as P by (unfold limit; rewrite O; exact GE).
          rewrite (line_fresh s l _ _ F S CM P) in E. destruct (fresh_cut s l _ _ s1 ls F S CM P E B1 IH1) as (_ & bs & L).
          unfold cut. rewrite O. exists [], [], (l :: ls), bs. split; [reflexivity|]. split; [constructor|]. unfold limit in L. rewrite O in L. exact L.
      + assert (fits (limit s) (length l - length (skip uspace l))) as P by (unfold limit; rewrite O; exact Logic.I).
        rewrite (line_fresh s l _ _ F S CM P) in E. destruct (fresh_cut s l _ _ s1 ls F S CM P E B1 IH1) as (_ & bs & L).
        unfold cut. rewrite O. exists [], (l :: ls), bs. split; [reflexivity|]. split; [constructor|]. unfold limit in L. rewrite O in L. exact L.
  Qed.

  (** ** A whole file *)
  Lemma read_layout : forall cf lines bs, layout lines bs ->
    read_config lower cf lines = cbind (cfoldM bstep bs (B cf [] [] None)) (fun b => COk (join_config (b_cf b))).
  Proof.
    intros cf lines bs (ns & rest & -> & I & L). unfold read_config. rewrite cfold_app, idle_read by (exact I || reflexivity). cbn [cbind].
    pose proof (laid_read None rest bs L (RD cf [] [] None None 0 false) Logic.I eq_refl) as H. unfold agrees, proj in H. cbn [r_cf r_heads r_opts r_sect r_bad] in H.
    destruct (cfoldM bstep bs (B cf [] [] None)) as [b|e].
    - destruct H as (s' & E & P & BD). rewrite E. cbn [cbind]. rewrite BD. rewrite <- P. reflexivity.
    - rewrite H. reflexivity.
  Qed.
  Lemma layout_read : forall cf lines cf', read_config lower cf lines = COk cf' -> exists bs, layout lines bs.
  Proof.
    intros cf lines cf' H. unfold read_config in H. destruct (cfoldM (read_line lower) lines _) as [s'|] eqn:E; [|discriminate]. cbn [cbind] in H.
    destruct (r_bad s') eqn:BD; [discriminate|]. assert (fine (RD cf [] [] None None 0 false)) as F by exact Logic.I. destruct (read_cut lines _ s' F E BD) as (ns & rest & bs & -> & I & L). exists bs, ns, rest. repeat split; assumption.
  Qed.
End Read.
