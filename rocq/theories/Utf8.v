(** UTF-8: decoding and encoding are inverse. *)
From Coq Require Import String.
From Verif Require Import PyStr Defs UrlLib ParseUtils Views Trees Cluster Patterns Matcher Maker Format Cmd.
From Coq Require Import Lia ZArith ZifyN NArith.
Ltac Zify.zify_post_hook ::= Z.div_mod_to_equations.
Local Open Scope N_scope.

Lemma cont_iff : forall b, cont b = true <-> 128 <= b <= 191.
Proof. intros b. unfold cont. rewrite andb_true_iff, !N.leb_le. tauto. Qed.
Lemma mapM_cons_ok : forall A B (f : A -> res B) x l y ys, f x = Ok y -> mapM f l = Ok ys -> mapM f (x :: l) = Ok (y :: ys).
Proof. intros A B f x l y ys E F. cbn [mapM]. rewrite E. cbn [bind]. rewrite F. reflexivity. Qed.
Lemma encode_cons : forall c w s l, utf8_char c = Ok w -> utf8_encode s = Ok l -> utf8_encode (c :: s) = Ok (w ++ l).
Proof.
  intros c w s l E F. unfold utf8_encode in *. destruct (mapM utf8_char s) as [ls|] eqn:M; [|discriminate]. cbn [bind] in F. injection F as <-. rewrite (mapM_cons_ok _ _ _ _ _ _ _ E M). reflexivity.
Qed.
Lemma decode_encode : forall n l s, (length l <= n)%nat -> utf8_decode l = Ok s -> utf8_encode s = Ok l.
Proof.
  induction n as [|n IH]; intros l s L D; [destruct l; [inversion D; reflexivity|cbn in L; lia]|].
  destruct l as [|a l1]; [inversion D; reflexivity|]. cbn [length] in L. cbn [utf8_decode] in D. destruct (N.ltb_spec a 128) as [A|A].
  { destruct (utf8_decode l1) as [s1|] eqn:D1; [|discriminate]. cbn [bind] in D. injection D as <-. apply (encode_cons a [a]); [|apply IH; [lia|exact D1]]. unfold utf8_char. rewrite (proj2 (N.ltb_lt a 128) A). reflexivity. }
  destruct l1 as [|b l2]; [discriminate|]. cbn [length] in L. destruct (cont b) eqn:CB; cbn [negb] in D; [|discriminate]. apply cont_iff in CB.
  destruct ((194 <=? a) && (a <=? 223)) eqn:A2.
  { apply andb_true_iff in A2. rewrite !N.leb_le in A2. destruct (utf8_decode l2) as [s2|] eqn:D2; [|discriminate]. cbn [bind] in D. injection D as <-.
    apply (encode_cons _ [a; b]); [|apply IH; [lia|exact D2]]. unfold utf8_char. remember ((a - 192) * 64 + (b - 128)) as v eqn:VE. assert (V : 128 <= v < 2048) by lia.
    rewrite (proj2 (N.ltb_ge v 128)) by lia. rewrite (proj2 (N.ltb_lt v 2048)) by lia. f_equal. assert (v / 64 = a - 192) by lia. assert (v mod 64 = b - 128) by lia. f_equal; [lia|]. f_equal. lia. }
  destruct l2 as [|c l3]; [discriminate|]. cbn [length] in L. destruct (cont c) eqn:CC; cbn [negb] in D; [|discriminate]. apply cont_iff in CC.
  destruct ((224 <=? a) && (a <=? 239)) eqn:A3.
  { apply andb_true_iff in A3. rewrite !N.leb_le in A3. cbv zeta in D. remember ((a - 224) * 4096 + (b - 128) * 64 + (c - 128)) as v eqn:VE.
    destruct ((v <? 2048) || ((55296 <=? v) && (v <=? 57343))) eqn:SUR; [discriminate|]. apply orb_false_iff in SUR. destruct SUR as [S1 S2]. apply N.ltb_ge in S1. destruct (utf8_decode l3) as [s3|] eqn:D3; [|discriminate]. cbn [bind] in D. injection D as <-.
    apply (encode_cons _ [a; b; c]); [|apply IH; [lia|exact D3]]. unfold utf8_char. assert (V : v < 65536) by lia.
    rewrite (proj2 (N.ltb_ge v 128)) by lia. rewrite (proj2 (N.ltb_ge v 2048)) by lia. rewrite S2. rewrite (proj2 (N.ltb_lt v 65536)) by lia.
    assert (v / 4096 = a - 224) by lia. assert (v mod 64 = c - 128) by lia. assert (v / 64 = (a - 224) * 64 + (b - 128)) by lia. assert (v / 64 mod 64 = b - 128) by lia.
    f_equal. f_equal; [lia|]. f_equal; [lia|]. f_equal. lia. }
  destruct l3 as [|d l4]; [discriminate|]. cbn [length] in L. destruct (cont d) eqn:CD; cbn [negb] in D; [|discriminate]. apply cont_iff in CD.
  destruct ((240 <=? a) && (a <=? 244)) eqn:A4; [|discriminate].
  apply andb_true_iff in A4. rewrite !N.leb_le in A4. cbv zeta in D. remember ((a - 240) * 262144 + (b - 128) * 4096 + (c - 128) * 64 + (d - 128)) as v eqn:VE.
  destruct ((v <? 65536) || (1114111 <? v)) eqn:SUR; [discriminate|]. apply orb_false_iff in SUR. destruct SUR as [S1 S2]. apply N.ltb_ge in S1, S2. destruct (utf8_decode l4) as [s4|] eqn:D4; [|discriminate]. cbn [bind] in D. injection D as <-.
  apply (encode_cons _ [a; b; c; d]); [|apply IH; [lia|exact D4]]. unfold utf8_char.
  rewrite (proj2 (N.ltb_ge v 128)) by lia. rewrite (proj2 (N.ltb_ge v 2048)) by lia. replace ((55296 <=? v) && (v <=? 57343)) with false by (symmetry; apply andb_false_iff; right; apply N.leb_gt; lia).
  rewrite (proj2 (N.ltb_ge v 65536)) by lia. rewrite (proj2 (N.leb_le v 1114111)) by lia.
  assert (v / 262144 = a - 240) by lia. assert (v mod 64 = d - 128) by lia. assert (v / 64 = (a - 240) * 4096 + (b - 128) * 64 + (c - 128)) by lia. assert (v / 64 mod 64 = c - 128) by lia.
  assert (v / 4096 = (a - 240) * 64 + (b - 128)) by lia. assert (v / 4096 mod 64 = b - 128) by lia. f_equal. f_equal; [lia|]. f_equal; [lia|]. f_equal; [lia|]. f_equal. lia.
Qed.
Lemma ok_inj : forall A (x y : A), Ok x = Ok y -> x = y.
Proof. congruence. Qed.
Lemma char_decode : forall c w l, utf8_char c = Ok w -> utf8_decode (w ++ l) = (s <- utf8_decode l ;; Ok (c :: s)).
Proof.
  intros c w l H. unfold utf8_char in H. destruct (N.ltb_spec c 128) as [A|A].
  { apply ok_inj in H; subst w. cbn [app utf8_decode]. rewrite (proj2 (N.ltb_lt c 128) A). reflexivity. }
  destruct (N.ltb_spec c 2048) as [A2|A2].
  { apply ok_inj in H; subst w. remember (192 + c / 64) as a eqn:Ea. remember (128 + c mod 64) as b eqn:Eb. assert (V : (a - 192) * 64 + (b - 128) = c) by lia. cbn [app utf8_decode].
    rewrite (proj2 (N.ltb_ge a 128)) by lia. rewrite (proj2 (cont_iff b)) by lia. cbn [negb].
    replace ((194 <=? a) && (a <=? 223)) with true by (symmetry; apply andb_true_iff; rewrite !N.leb_le; lia). rewrite V. reflexivity. }
  destruct ((55296 <=? c) && (c <=? 57343)) eqn:SUR; [discriminate|]. destruct (N.ltb_spec c 65536) as [A3|A3].
  { apply ok_inj in H; subst w. remember (224 + c / 4096) as a eqn:Ea. remember (128 + c / 64 mod 64) as b eqn:Eb. remember (128 + c mod 64) as d eqn:Ed. assert (V : (a - 224) * 4096 + (b - 128) * 64 + (d - 128) = c) by lia.
    assert (RB : 128 <= b <= 191) by lia. assert (RD : 128 <= d <= 191) by lia. assert (RA : 224 <= a <= 239) by lia. clear Ea Eb Ed. cbn [app utf8_decode]. rewrite (proj2 (N.ltb_ge a 128)) by lia. rewrite (proj2 (cont_iff b)) by lia. cbn [negb].
    replace ((194 <=? a) && (a <=? 223)) with false by (symmetry; apply andb_false_iff; right; apply N.leb_gt; lia).
    rewrite (proj2 (cont_iff d)) by lia. cbn [negb]. replace ((224 <=? a) && (a <=? 239)) with true by (symmetry; apply andb_true_iff; rewrite !N.leb_le; lia).
    cbv zeta. rewrite V. rewrite (proj2 (N.ltb_ge c 2048)) by lia. rewrite SUR. reflexivity. }
  destruct (N.leb_spec c 1114111) as [A4|A4]; [|discriminate]. apply ok_inj in H; subst w.
  remember (240 + c / 262144) as a eqn:Ea. remember (128 + c / 4096 mod 64) as b eqn:Eb. remember (128 + c / 64 mod 64) as d eqn:Ed. remember (128 + c mod 64) as e eqn:Ee. assert (V : (a - 240) * 262144 + (b - 128) * 4096 + (d - 128) * 64 + (e - 128) = c) by lia.
  assert (RB : 128 <= b <= 191) by lia. assert (RD : 128 <= d <= 191) by lia. assert (RE : 128 <= e <= 191) by lia. assert (RA : 240 <= a <= 244) by lia. clear Ea Eb Ed Ee.
  cbn [app utf8_decode]. rewrite (proj2 (N.ltb_ge a 128)) by lia. rewrite (proj2 (cont_iff b)) by lia. cbn [negb].
  replace ((194 <=? a) && (a <=? 223)) with false by (symmetry; apply andb_false_iff; right; apply N.leb_gt; lia).
  rewrite (proj2 (cont_iff d)) by lia. cbn [negb]. replace ((224 <=? a) && (a <=? 239)) with false by (symmetry; apply andb_false_iff; right; apply N.leb_gt; lia).
  rewrite (proj2 (cont_iff e)) by lia. cbn [negb]. replace ((240 <=? a) && (a <=? 244)) with true by (symmetry; apply andb_true_iff; rewrite !N.leb_le; lia).
  cbv zeta. rewrite V. rewrite (proj2 (N.ltb_ge c 65536)) by lia. rewrite (proj2 (N.ltb_ge 1114111 c)) by lia. reflexivity.
Qed.
Theorem utf8_iff : forall l s, utf8_decode l = Ok s <-> utf8_encode s = Ok l.
Proof.
  intros l s. split; [apply (decode_encode (length l)); lia|]. revert l. induction s as [|c s IH]; intros l E; [inversion E; reflexivity|].
  unfold utf8_encode in *. cbn [mapM] in E. destruct (utf8_char c) as [w|] eqn:C; [|discriminate]. cbn [bind] in E. destruct (mapM utf8_char s) as [ls|] eqn:M; [|discriminate]. cbn [bind] in E. injection E as <-.
  cbn [List.concat]. rewrite (char_decode c w _ C). rewrite (IH _ eq_refl). reflexivity.
Qed.
Lemma encode_app : forall s t l r, utf8_encode s = Ok l -> utf8_encode t = Ok r -> utf8_encode (s ++ t) = Ok (l ++ r).
Proof.
  induction s as [|c s IH]; intros t l r S T; [inversion S; exact T|]. unfold utf8_encode in S. cbn [mapM] in S. destruct (utf8_char c) as [w|] eqn:C; [|discriminate]. cbn [bind] in S.
  destruct (mapM utf8_char s) as [ls|] eqn:M; [|discriminate]. cbn [bind List.concat] in S. injection S as <-. change ((c :: s) ++ t) with (c :: (s ++ t)). rewrite <- app_assoc. apply encode_cons; [exact C|]. apply IH; [|exact T]. unfold utf8_encode. rewrite M. reflexivity.
Qed.
