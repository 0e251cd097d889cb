(** Proofs about [pattern_match] (C57). *)
From Coq Require Import String.
From Verif Require Import PyStr Spec Re.
From Coq Require Import Lia.

Definition rng (i : item) : char * char := match i with IRange a b => (a, b) | IChar c => (c, c) end.
Definition set_of (l : list item) : chars := CS false (map rng l).
Lemma set_of_mem : forall l c, chars_mem c (set_of l) = set_mem c l.
Proof.
  intros l c. unfold chars_mem, set_of, set_mem. cbn [c_not c_ranges]. rewrite Bool.xorb_false_l. induction l as [|i l IH]; [reflexivity|]. cbn [map existsb]. rewrite IH. f_equal.
  destruct i as [a b|d]; cbn [rng fst snd item_mem]; [reflexivity|]. destruct (N.eqb_spec c d) as [->|NE]; [rewrite N.leb_refl; reflexivity|].
  destruct (N.leb_spec d c), (N.leb_spec c d); try reflexivity. exfalso. apply NE. lia.
Qed.
Definition rx_of (k : rtok) : rx :=
  Rep (set_of (rset k)) (match rnum k with Some n => n | None => 1%N end) (rnum k).
Definition small (k : rtok) : Prop := match rnum k with Some n => (n < MAXREPEAT)%N | None => True end.

(** [reads p ts]: the tokens of [p] are [ts], whatever follows *)
Definition reads (p : str) (ts : list tok) : Prop :=
  forall tl ttl, tokens tl = Some ttl -> tokens (p ++ tl) = Some (ts ++ ttl).
Lemma reads_nil : reads [] [].
Proof. intros tl ttl H. exact H. Qed.
Lemma reads_app : forall p q a b, reads p a -> reads q b -> reads (p ++ q) (a ++ b).
Proof. intros p q a b P Q tl ttl H. rewrite <- !app_assoc. apply P. apply Q. exact H. Qed.
Lemma reads_chr : forall c, c <> 92%N -> reads [c] [Chr c].
Proof. intros c NE tl ttl H. cbn [app tokens]. destruct (N.eqb_spec c 92); [contradiction|]. rewrite H. reflexivity. Qed.
Lemma reads_esc : forall c, reads [92%N; c] [Esc c].
Proof. intros c tl ttl H. cbn [app tokens]. rewrite H. reflexivity. Qed.

Lemma plain_not : forall c, is_plain c = true -> c <> 92%N /\ c <> 94%N /\ c <> 93%N /\ c <> 45%N /\ c <> 91%N /\ c <> 36%N /\ c <> 46%N /\ char_in c special = false.
Proof.
  intros c P. unfold is_plain in P.
  assert (F : forall d, char_in d plain_chars = false -> c <> d) by (intros d H ->; congruence).
  repeat split; try (apply F; vm_compute; reflexivity).
  destruct (char_in c special) eqn:E; [|reflexivity]. exfalso.
  assert (G : forallb (fun d => negb (char_in d plain_chars)) special = true) by (vm_compute; reflexivity).
  rewrite forallb_forall in G. unfold char_in in E. apply existsb_exists in E. destruct E as (d & I & E). apply N.eqb_eq in E. subst d. specialize (G c I). rewrite P in G. discriminate.
Qed.
Lemma eqb_neq : forall a b, a <> b -> N.eqb b a = false.
Proof. intros a b H. apply N.eqb_neq. congruence. Qed.

Lemma loop_one : forall first t m r1 a l e, is_chr 93%N t && negb first = false -> code t = Some a -> is_chr 45%N m = false ->
  class_loop false (m :: r1) = Some (l, e) -> class_loop first (t :: m :: r1) = Some ((a, a) :: l, e).
Proof. intros first t m r1 a l e A B C D. remember (m :: r1) as r eqn:E. cbn [class_loop]. rewrite A, B. subst r. rewrite C, D. reflexivity. Qed.
Lemma loop_two : forall first t t2 r a b l e, is_chr 93%N t && negb first = false -> code t = Some a -> is_chr 93%N t2 = false -> code t2 = Some b -> (a <= b)%N ->
  class_loop false r = Some (l, e) -> class_loop first (t :: Chr 45%N :: t2 :: r) = Some ((a, b) :: l, e).
Proof. intros first t t2 r a b l e A B C D G H. cbn [class_loop]. rewrite A, B. cbn [is_chr]. change (45 =? 45)%N with true. cbv iota. rewrite C, D. rewrite (proj2 (N.leb_le a b) G). rewrite H. reflexivity. Qed.
Lemma class_reads : forall n s l t, length s <= n -> parse_class s = Some (l, t) -> exists body t0 tr, s = body ++ t /\ reads body (t0 :: tr) /\
  (forall first rest, first = false \/ l <> [] -> class_loop first (t0 :: tr ++ rest) = Some (map rng l, rest)) /\
  is_chr 45%N t0 = false /\ is_chr 94%N t0 = false.
Proof.
  induction n as [|n IH]; intros s l t LE H.
  - destruct s; [discriminate|cbn in LE; lia].
  - destruct s as [|c r]; [discriminate|]. cbn [parse_class] in H. cbn [length] in LE. destruct (N.eqb_spec c 93) as [->|N1].
    + inversion H; subst. exists [93%N], (Chr 93%N), []. split; [reflexivity|]. split; [apply reads_chr; discriminate|]. split; [|auto].
      intros first rest [->|X]; [reflexivity|congruence].
    + destruct (N.eqb_spec c 92) as [->|N2].
      * destruct r as [|e r']; [discriminate|]. cbn [length] in LE. destruct (char_in e letters_digits) eqn:LD; [discriminate|].
        destruct (parse_class r') as [[l' t']|] eqn:Q; [|discriminate]. inversion H; subst. assert (LE' : length r' <= n) by lia. destruct (IH r' l' t LE' Q) as (body & t0 & tr & -> & R & C & M & _).
        exists (92%N :: e :: body), (Esc e), (t0 :: tr). split; [reflexivity|]. split; [apply (reads_app [92%N; e] body [Esc e] (t0 :: tr)); [apply reads_esc|exact R]|]. split; [|auto].
        intros first rest _. cbn [app map rng]. apply loop_one; [reflexivity|cbn [code]; rewrite LD; reflexivity|exact M|apply C; auto].
      * destruct (is_plain c) eqn:P; [|discriminate]. cbn [negb] in H. destruct (plain_not c P) as (_ & P94 & _ & P45 & _).
        destruct r as [|d r1]; [discriminate|]. cbn [length] in LE. destruct (N.eqb_spec d 45) as [->|N3].
        -- destruct r1 as [|e r2]; [discriminate|]. cbn [length] in LE. destruct (is_plain e) eqn:P2; [|discriminate]. destruct (N.leb_spec c e) as [CE|CE]; [|discriminate].
           destruct (parse_class r2) as [[l' t']|] eqn:Q; [|discriminate]. inversion H; subst. assert (LE' : length r2 <= n) by lia. destruct (IH r2 l' t LE' Q) as (body & t0 & tr & -> & R & C & M & _).
           destruct (plain_not e P2) as (E92 & _ & E93 & _).
           exists (c :: 45%N :: e :: body), (Chr c), (Chr 45%N :: Chr e :: t0 :: tr). split; [reflexivity|].
           split; [apply (reads_app [c] _ [Chr c]); [apply reads_chr; exact N2|]; apply (reads_app [45%N] _ [Chr 45%N]); [apply reads_chr; discriminate|]; apply (reads_app [e] _ [Chr e]); [apply reads_chr; exact E92|exact R]|].
           split; [|cbn [is_chr]; split; apply eqb_neq; assumption].
           intros first rest _. cbn [app map rng]. apply loop_two; [cbn [is_chr]; rewrite (eqb_neq c 93%N) by exact N1; reflexivity|reflexivity|cbn [is_chr]; apply eqb_neq; exact E93|reflexivity|exact CE|apply C; auto].
        -- destruct (parse_class (d :: r1)) as [[l' t']|] eqn:Q; [|discriminate]. inversion H; subst. assert (LE' : length (d :: r1) <= n) by (cbn [length]; lia). destruct (IH (d :: r1) l' t LE' Q) as (body & t0 & tr & E & R & C & M & _).
           exists (c :: body), (Chr c), (t0 :: tr). rewrite E. split; [reflexivity|]. split; [apply (reads_app [c] _ [Chr c]); [apply reads_chr; exact N2|exact R]|].
           split; [|cbn [is_chr]; split; apply eqb_neq; assumption].
           intros first rest _. cbn [app map rng]. apply loop_one; [cbn [is_chr]; rewrite (eqb_neq c 93%N) by exact N1; reflexivity|reflexivity|exact M|apply C; auto].
Qed.

Lemma until_brace_inv : forall s a b, until_brace s = Some (a, b) -> s = a ++ 125%N :: b /\ ~ In 125%N a.
Proof.
  induction s as [|c r IH]; intros a b H; [discriminate|]. cbn [until_brace] in H. destruct (N.eqb_spec c 125) as [->|NE]; [inversion H; subst; split; [reflexivity|intros []]|].
  destruct (until_brace r) as [[a' b']|] eqn:E; [|discriminate]. inversion H; subst. destruct (IH _ _ eq_refl) as [-> NI]. split; [reflexivity|]. intros [X|X]; [congruence|contradiction].
Qed.
Lemma digit_not : forall c, char_in c digits = true -> c <> 92%N /\ c <> 125%N.
Proof. intros c H. split; intros ->; vm_compute in H; discriminate. Qed.
Lemma digits_brace : forall ds acc n, digits_val ds acc = Some n ->
  reads ds (map Chr ds) /\ forall rest, digits_then_brace (map Chr ds ++ Chr 125%N :: rest) acc = Some (n, rest).
Proof.
  induction ds as [|c r IH]; intros acc n H; cbn [digits_val] in H.
  - inversion H; subst. split; [apply reads_nil|reflexivity].
  - destruct (char_in c digits) eqn:D; [|discriminate]. destruct (IH _ _ H) as [R B]. destruct (digit_not c D) as [D1 D2].
    split; [apply (reads_app [c] r [Chr c]); [apply reads_chr; exact D1|exact R]|]. intros rest. cbn [map app digits_then_brace]. rewrite (proj2 (N.eqb_neq c 125) D2), D. apply B.
Qed.
Definition lo_of (q : option N) : N := match q with Some n => n | None => 1%N end.
Lemma quantifier_plain : forall ts, no_repeat ts = true -> quantifier ts = Some (1%N, Some 1%N, ts).
Proof.
  intros [|[c|c] r] H; try reflexivity. cbn [no_repeat] in H. apply Bool.negb_true_iff in H. unfold quantifier. cbn in H.
  rewrite !Bool.orb_false_iff in H. destruct H as (H1 & H2 & H3 & H4 & _). rewrite H1, H2, H3, H4. reflexivity.
Qed.
Lemma quant_reads : forall s q r, parse_quant s = Some (q, r) -> match q with Some n => (n < MAXREPEAT)%N | None => True end ->
  exists w ts, s = w ++ r /\ reads w ts /\ forall rest, no_repeat rest = true -> quantifier (ts ++ rest) = Some (lo_of q, q, rest).
Proof.
  intros s q r H SM. destruct s as [|c s]; cbn [parse_quant] in H.
  - inversion H; subst. exists [], []. split; [reflexivity|]. split; [apply reads_nil|]. intros rest NR. cbn [app lo_of]. apply quantifier_plain. exact NR.
  - destruct (N.eqb_spec c 43) as [->|N1].
    + inversion H; subst. exists [43%N], [Chr 43%N]. split; [reflexivity|]. split; [apply reads_chr; discriminate|]. reflexivity.
    + destruct (N.eqb_spec c 123) as [->|N2].
      * destruct (until_brace s) as [[ds r']|] eqn:E; [|discriminate]. destruct (number ds) as [n|] eqn:NU; [|discriminate]. inversion H; subst. destruct (until_brace_inv _ _ _ E) as [-> _].
        destruct ds as [|d ds]; [discriminate|]. change (digits_val (d :: ds) 0 = Some n) in NU. destruct (digits_brace _ _ _ NU) as [R B].
        exists (123%N :: (d :: ds) ++ [125%N]), (Chr 123%N :: map Chr (d :: ds) ++ [Chr 125%N]). split; [cbn [app]; rewrite <- app_assoc; reflexivity|].
        split; [apply (reads_app [123%N] _ [Chr 123%N]); [apply reads_chr; discriminate|]; apply reads_app; [exact R|apply reads_chr; discriminate]|].
        intros rest _. specialize (B rest). cbn [map app] in B |- *. rewrite <- app_assoc. cbn [app]. unfold quantifier. change (123 =? 43)%N with false. change (123 =? 42)%N with false. change (123 =? 63)%N with false. change (123 =? 123)%N with true. cbv iota.
        assert (D : char_in d digits = true). { cbn [digits_val] in NU. destruct (char_in d digits); [reflexivity|discriminate]. } rewrite D, B. rewrite (proj2 (N.ltb_lt n MAXREPEAT) SM). reflexivity.
      * inversion H; subst. exists [], []. split; [reflexivity|]. split; [apply reads_nil|]. intros rest NR. cbn [app lo_of]. apply quantifier_plain. exact NR.
Qed.

Lemma parse_rx_more : forall g ts l k, parse_rx g ts = Some l -> parse_rx (g + k) ts = Some l.
Proof.
  induction g as [|g IH]; intros ts l k H; (destruct ts as [|t r]; [destruct k; exact H|]); [discriminate|]. cbn [parse_rx Nat.add] in *.
  destruct (is_chr 94%N t); [destruct (no_repeat r); [|discriminate]; destruct (parse_rx g r) eqn:E; [|discriminate]; rewrite (IH _ _ k E); exact H|].
  destruct (is_chr 36%N t); [destruct (no_repeat r); [|discriminate]; destruct (parse_rx g r) eqn:E; [|discriminate]; rewrite (IH _ _ k E); exact H|].
  destruct (one_set (t :: r)) as [[x e]|]; [|discriminate]. destruct (quantifier e) as [[[lo hi] e']|]; [|discriminate]. destruct (no_repeat e'); [|discriminate].
  destruct (parse_rx g e') eqn:E; [|discriminate]. rewrite (IH _ _ k E). exact H.
Qed.

Lemma rparse_reads : forall f p toks, rparse_n f p = Some toks -> Forall small toks -> exists ts, reads p ts /\
  (forall rest, no_repeat rest = true -> no_repeat (ts ++ rest) = true) /\
  forall g rest lr, no_repeat rest = true -> parse_rx g rest = Some lr -> parse_rx (length ts + g) (ts ++ rest) = Some (map rx_of toks ++ lr).
Proof.
  induction f as [|f IH]; intros p toks H SM.
  - destruct p; [|discriminate]. inversion H; subst. exists []. split; [apply reads_nil|]. split; [auto|]. intros g rest lr _ E. exact E.
  - destruct p as [|c r]; [inversion H; subst; exists []; split; [apply reads_nil|]; split; [auto|]; intros g rest lr _ E; exact E|].
    cbn [rparse_n] in H. destruct (N.eqb_spec c 91) as [->|N1].
    + destruct (parse_class r) as [[l r1]|] eqn:C; [|discriminate]. destruct l as [|i l]; [discriminate|]. destruct (parse_quant r1) as [[q r2]|] eqn:Q; [|discriminate]. destruct (rparse_n f r2) as [tk|] eqn:R; [|discriminate].
      inversion H; subst. inversion SM as [|? ? S1 S2]; subst. destruct (IH _ _ R S2) as (ts & T1 & T2 & T3).
      destruct (class_reads (length r) r _ _ (le_n _) C) as (body & t0 & tr & -> & B1 & B2 & _ & B4). destruct (quant_reads _ _ _ Q S1) as (w & qs & -> & W1 & W2).
      exists (Chr 91%N :: (t0 :: tr) ++ qs ++ ts). split; [apply (reads_app [91%N] _ [Chr 91%N]); [apply reads_chr; discriminate|]; apply reads_app; [exact B1|]; apply reads_app; [exact W1|exact T1]|].
      split; [intros; reflexivity|]. intros g rest lr NR E.
      assert (CS : class_set (((t0 :: tr) ++ qs ++ ts) ++ rest) = Some (set_of (i :: l), qs ++ ts ++ rest)).
      { rewrite <- !app_assoc. unfold class_set. cbn [app]. rewrite B4. rewrite (B2 true (qs ++ ts ++ rest)) by (right; discriminate). reflexivity. }
      assert (G : length (Chr 91%N :: (t0 :: tr) ++ qs ++ ts) + g = S ((length ts + g) + (length (t0 :: tr) + length qs))) by (cbn [length app]; rewrite !app_length; lia). rewrite G.
      change ((Chr 91%N :: (t0 :: tr) ++ qs ++ ts) ++ rest) with (Chr 91%N :: (((t0 :: tr) ++ qs ++ ts) ++ rest)).
      remember (((t0 :: tr) ++ qs ++ ts) ++ rest) as X eqn:EX. cbn [parse_rx is_chr one_set].
      change (94 =? 91)%N with false. change (36 =? 91)%N with false. change (91 =? 91)%N with true. cbv iota.
      rewrite CS. rewrite (W2 (ts ++ rest) (T2 rest NR)), (T2 rest NR). rewrite (parse_rx_more _ _ _ _ (T3 g rest lr NR E)). reflexivity.
    + destruct (is_plain c) eqn:P; [|discriminate]. destruct (rparse_n f r) as [tk|] eqn:R; [|discriminate]. inversion H; subst. inversion SM as [|? ? _ S2]; subst.
      destruct (IH _ _ R S2) as (ts & T1 & T2 & T3). destruct (plain_not c P) as (P92 & P94 & P93 & P45 & P91 & P36 & P46 & PS).
      exists (Chr c :: ts). split; [apply (reads_app [c] _ [Chr c]); [apply reads_chr; exact P92|exact T1]|].
      split. { intros rest _. cbn [app no_repeat]. apply Bool.negb_true_iff. apply Bool.not_true_iff_false. intros X. apply Bool.not_true_iff_false in PS. apply PS.
               unfold char_in in *. apply existsb_exists in X. destruct X as (d & I & E). apply existsb_exists. exists d. split; [|exact E]. cbn in I |- *. tauto. }
      intros g rest lr NR E. cbn [length Nat.add app]. cbn [parse_rx is_chr one_set]. rewrite (eqb_neq c 94%N P94), (eqb_neq c 36%N P36), (eqb_neq c 91%N P91), (eqb_neq c 46%N P46), PS.
      rewrite (quantifier_plain _ (T2 rest NR)), (T2 rest NR), (T3 g rest lr NR E). reflexivity.
Qed.

Theorem compile_ok : forall p toks, rparse p = Some toks -> Forall small toks ->
  compile (u "^" ++ p ++ u "$") = Some (AtBegin :: map rx_of toks ++ [AtEnd]).
Proof.
  intros p toks H SM. destruct (rparse_reads _ _ _ H SM) as (ts & T1 & T2 & T3). unfold compile. change (u "^") with [94%N]. change (u "$") with [36%N].
  assert (TK : tokens ([94%N] ++ p ++ [36%N]) = Some (Chr 94%N :: ts ++ [Chr 36%N])).
  { apply (reads_chr 94%N ltac:(discriminate) (p ++ [36%N]) (ts ++ [Chr 36%N])). apply T1. reflexivity. }
  unfold str, char in *. rewrite TK. cbn [length parse_rx is_chr]. change (94 =? 94)%N with true. cbv iota. rewrite (T2 [Chr 36%N] eq_refl).
  assert (P : parse_rx (length (ts ++ [Chr 36%N])) (ts ++ [Chr 36%N]) = Some (map rx_of toks ++ [AtEnd])). { rewrite app_length. cbn [length]. apply T3; reflexivity. }
  rewrite P. reflexivity.
Qed.

(** *** matching *)
Lemma tries_iff : forall k lo n, tries k lo n = true <-> exists j, lo <= j <= n /\ k j = true.
Proof.
  intros k lo n. induction n as [|n IH]; cbn [tries].
  - destruct (Nat.ltb_spec 0 lo); [split; [discriminate|intros (j & L & _); lia]|]. destruct (k 0) eqn:E; [split; [exists 0; split; [lia|exact E]|auto]|].
    split; [discriminate|]. intros (j & L & K). assert (j = 0) by lia. subst. congruence.
  - destruct (Nat.ltb_spec (S n) lo); [split; [discriminate|intros (j & L & _); lia]|]. destruct (k (S n)) eqn:E; [split; [exists (S n); split; [lia|exact E]|auto]|].
    rewrite IH. split; intros (j & L & K); exists j; (split; [|exact K]); [lia|]. destruct (Nat.eq_dec j (S n)); [subst; congruence|lia].
Qed.
Lemma longest_iff : forall x t j, j <= longest x t <-> j <= length t /\ Forall (fun c => chars_mem c x = true) (firstn j t).
Proof.
  intros x t. induction t as [|c r IH]; intros j; cbn [longest].
  - split; [intros H; assert (j = 0) by (cbn in H; lia); subst; split; [cbn; lia|constructor]|]. intros [H _]. exact H.
  - destruct j as [|j]; [split; [split; [lia|constructor]|lia]|]. cbn [firstn length]. destruct (chars_mem c x) eqn:E.
    + rewrite <- Nat.succ_le_mono, IH. split; [intros [A B]; split; [lia|constructor; assumption]|]. intros [A B]. inversion B; subst. split; [lia|assumption].
    + split; [lia|]. intros [_ B]. inversion B; subst. congruence.
Qed.
Definition at_end (b : str) : Prop := b = [] \/ b = [10%N].
Lemma run_iff : forall toks start t, run_rx (map rx_of toks ++ [AtEnd]) start t = true <-> exists a b, t = a ++ b /\ toks_match toks a /\ at_end b.
Proof.
  induction toks as [|k toks IH]; intros start t.
  - cbn [map app run_rx toks_match]. rewrite Bool.andb_true_r. split.
    + intros H. exists [], t. split; [reflexivity|]. split; [reflexivity|]. destruct t as [|c [|d r]]; [left; reflexivity| |discriminate]. apply N.eqb_eq in H. subst. right. reflexivity.
    + intros (a & b & -> & -> & [-> | ->]); reflexivity.
  - cbn [map app toks_match]. unfold rx_of at 1. cbn [run_rx]. rewrite tries_iff. split.
    + intros (j & L & K). apply IH in K. destruct K as (a & b & E & M & AE). exists (firstn j t ++ a), b. split; [rewrite <- app_assoc, <- E, firstn_skipn; reflexivity|]. split; [|exact AE].
      assert (J : j <= longest (set_of (rset k)) t) by (destruct (rnum k); lia). apply longest_iff in J. destruct J as [J1 J2].
      exists (firstn j t), a. split; [reflexivity|]. split; [revert J2; apply Forall_impl; intros c h; rewrite set_of_mem in h; exact h|]. split; [|exact M].
      assert (LJ : length (firstn j t) = j) by (apply firstn_length_le; exact J1).
      destruct (rnum k) as [n|]; [lia|]. intros X. rewrite X in LJ. cbn in LJ. lia.
    + intros (w & b & E & (a & a' & -> & F & NU & M) & AE). exists (length a). assert (J : length a <= longest (set_of (rset k)) t).
      { apply longest_iff. rewrite E, <- app_assoc. split; [rewrite app_length; lia|]. rewrite firstn_app, Nat.sub_diag, firstn_all, app_nil_r. revert F. apply Forall_impl. intros c h. rewrite set_of_mem. exact h. }
      split. { destruct (rnum k) as [n|]; [lia|]. destruct a; [congruence|cbn [length] in *; lia]. }
      apply IH. exists a', b. rewrite E, <- app_assoc. split; [|auto]. rewrite skipn_app, skipn_all, Nat.sub_diag. reflexivity.
Qed.

Lemma re_match_iff : forall p toks t, rparse p = Some toks ->
  (re_match (AtBegin :: map rx_of toks ++ [AtEnd]) t = true <-> regex_matches p t \/ exists t', t = t' ++ [10%N] /\ regex_matches p t').
Proof.
  intros p toks t H. unfold re_match. change (run_rx (AtBegin :: map rx_of toks ++ [AtEnd]) true t) with (run_rx (map rx_of toks ++ [AtEnd]) true t). rewrite run_iff. split.
  - intros (a & b & -> & M & [-> | ->]); [left; rewrite app_nil_r; exists toks; auto|right; exists a; split; [reflexivity|exists toks; auto]].
  - intros [(tk & E & M)|(t' & -> & tk & E & M)]; rewrite H in E; inversion E; subst; [exists t, []; rewrite app_nil_r; split; [reflexivity|split; [exact M|left; reflexivity]]|exists t', [10%N]; split; [reflexivity|split; [exact M|right; reflexivity]]].
Qed.
Lemma match_small : forall toks t, toks_match toks t -> (N.of_nat (length t) < MAXREPEAT)%N -> Forall small toks.
Proof.
  induction toks as [|k toks IH]; intros t M L; [constructor|]. destruct M as (a & b & -> & _ & NU & M). rewrite app_length in L. constructor; [|apply (IH b M); lia].
  unfold small. destruct (rnum k); [lia|exact Logic.I].
Qed.

(** *** Pattern.match *)
From Verif Require Import Defs UrlLib ParseUtils Trees Cluster Patterns Matcher Maker Observe ReSpec PyStrProofs BridgeProofs MakeProofs PartProofs.

Lemma asked_compiled : forall P l ws, ask_all (PObj P (Some l)) ws = Some (map (re_match l) ws).
Proof. intros P l ws. induction ws as [|w ws IH]; [reflexivity|]. cbn [ask_all pattern_match po_regex map]. rewrite IH. reflexivity. Qed.
Lemma asked : forall P toks ws, rparse P = Some toks -> Forall small toks ->
  ask_all (new_pattern P) ws = Some (map (re_match (AtBegin :: map rx_of toks ++ [AtEnd])) ws).
Proof.
  intros P toks ws R SM. destruct ws as [|w ws]; [reflexivity|]. cbn [ask_all map]. unfold pattern_match, new_pattern. cbn [po_regex po_string].
  rewrite (compile_ok _ _ R SM). rewrite asked_compiled. reflexivity.
Qed.
Theorem c57_answers : forall P ws, readable P -> exists bs, ask_all (new_pattern P) ws = Some bs /\
  Forall2 (fun w b => b = true <-> regex_matches P w \/ exists w', w = w' ++ [10%N] /\ regex_matches P w') ws bs.
Proof.
  intros P ws (toks & R & SM). eexists. split; [apply (asked P toks ws R SM)|]. induction ws as [|w ws IH]; [constructor|]. constructor; [|exact IH]. apply re_match_iff. exact R.
Qed.
Lemma matches_readable : forall P t, regex_matches P t -> (N.of_nat (length t) < MAXREPEAT)%N -> readable P.
Proof. intros P t (toks & R & M) L. exists toks. split; [exact R|]. apply (match_small toks t M L). Qed.
Theorem c57_literal : forall s p ws, piece_parse s = Ok p -> (N.of_nat (length s) < MAXREPEAT)%N -> exists bs,
  ask_all (new_pattern (piece p)) ws = Some bs /\ Forall2 (fun w b => b = true <-> w = s \/ w = s ++ [10%N]) ws bs.
Proof.
  intros s p ws H L. pose proof (c05 s p H) as C. destruct (c57_answers (piece p) ws (matches_readable _ s (proj2 (C s) eq_refl) L)) as (bs & A & F).
  exists bs. split; [exact A|]. clear A. induction F as [|w b ws bs E F IH]; [constructor|]. constructor; [|exact IH]. rewrite E, C. split; (intros [X|X]; [left; exact X|right]).
  - destruct X as (w' & -> & X). apply C in X. subst. reflexivity.
  - exists s. split; [exact X|apply C; reflexivity].
Qed.
Lemma match_yes : forall P w, regex_matches P w -> (N.of_nat (length w) < MAXREPEAT)%N -> exists o, pattern_match (new_pattern P) w = Some (true, o).
Proof.
  intros P w M L. destruct (matches_readable P w M L) as (toks & R & SM). unfold pattern_match, new_pattern. cbn [po_regex po_string].
  rewrite (compile_ok _ _ R SM). eexists. rewrite (proj2 (re_match_iff P toks w R) (or_introl M)). reflexivity.
Qed.
Theorem c57_made : forall nv h mcn cs m t nodes raw,
  (2 <= mcn)%Z -> make mcn (loads nv h) = Ok cs -> In (m, t) cs -> In nodes (paths t) ->
  Forall (Forall legal) raw -> path_pieces nodes = map piece_of raw -> Forall (fun w => ~ In 92%N w) raw ->
  Forall (fun w => (N.of_nat (length w) < MAXREPEAT)%N) raw ->
  Forall2 (fun P w => exists o, pattern_match (new_pattern P) w = Some (true, o)) (path_patterns nodes) raw.
Proof.
  intros nv h mcn cs m t nodes raw A B C D E F G L. pose proof (c22_pieces nv h mcn cs m t nodes raw A B C D E F G) as M. clear - M L.
  induction M as [|P w Ps ws M1 M IH]; [constructor|]. inversion L; subst. constructor; [apply match_yes; assumption|apply IH; assumption].
Qed.
Theorem c57_url : forall nv h mcn cs url me m raw p,
  (2 <= mcn)%Z -> make mcn (loads nv h) = Ok cs ->
  In (url, me) h -> url_path nv url = Some (m, raw) -> parse_url nv url = Ok p ->
  Forall (fun w => ~ In 92%N w) raw -> match up_query p with Some q => Forall legal q | None => True end ->
  (N.of_nat (length (url_text p)) < MAXREPEAT)%N ->
  exists t nodes, In (m, t) cs /\ In nodes (paths t) /\ path_pieces nodes = map piece_of raw /\
    exists o, pattern_match (new_pattern (pack m (path_patterns nodes))) (url_text p) = Some (true, o).
Proof.
  intros nv h mcn cs url me m raw p A B C D E F G L. destruct (c22_url nv h mcn cs url me m raw p A B C D E F G) as [(t & nodes & I1 & I2 & I3) M].
  exists t, nodes. split; [exact I1|]. split; [exact I2|]. split; [exact I3|]. apply match_yes; [|exact L]. apply (M t nodes I1 I2 I3).
Qed.
