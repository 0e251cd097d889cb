(** The JSON records of pattern-make (C44). *)
From Coq Require Import String.
From Verif Require Import PyStr Defs UrlLib ParseUtils Spec Views Trees Cluster Patterns Matcher Maker Format Cmd Observe OwnSpec JsonSpec PyStrProofs DefsProofs DictProofs RegexProofs PieceProofs LengthProofs UnitProofs BridgeProofs LoadProofs TokProofs MakeProofs PatUnits PartProofs CmdProofs MatchTakes MatchOwn Pipe.
From Coq Require Import Lia ZifyN Permutation.
Ltac Zify.zify_post_hook ::= Z.div_mod_to_equations.
Local Open Scope N_scope.

Lemma hex_value_digit : forall n, n < 16 -> hex_value (hex_digit n) = Some n.
Proof.
  intros n H. unfold hex_value, hex_digit. destruct (N.ltb_spec n 10) as [A|A].
  - rewrite (proj2 (N.leb_le 48 (48 + n))), (proj2 (N.leb_le (48 + n) 57)) by lia. cbn [andb]. f_equal. lia.
  - rewrite (proj2 (N.leb_gt (87 + n) 57)) by lia. rewrite andb_false_r. rewrite (proj2 (N.leb_le 97 (87 + n))), (proj2 (N.leb_le (87 + n) 102)) by lia. cbn [andb]. f_equal. lia.
Qed.
Lemma read_hex4 : forall v r, v < 65536 -> exists t, hex4 v = 92 :: 117 :: t /\ read_hex (t ++ r) = Some (v, r).
Proof.
  intros v r H. unfold hex4. eexists. split; [reflexivity|]. cbn [app read_hex]. rewrite !hex_value_digit by (apply N.mod_lt; discriminate). f_equal. f_equal. lia.
Qed.
Lemma read_json_char : forall c f r, scalar c -> read_chars (S f) (json_char c ++ r) = put c (read_chars f r).
Proof.
  intros c f r [C1 C2]. unfold json_char.
  destruct (N.eqb_spec c 34) as [->|N1]; [reflexivity|]. destruct (N.eqb_spec c 92) as [->|N2]; [reflexivity|].
  destruct (N.eqb_spec c 10) as [->|N3]; [reflexivity|]. destruct (N.eqb_spec c 13) as [->|N4]; [reflexivity|]. destruct (N.eqb_spec c 9) as [->|N5]; [reflexivity|]. destruct (N.eqb_spec c 12) as [->|N6]; [reflexivity|]. destruct (N.eqb_spec c 8) as [->|N7]; [reflexivity|].
  destruct ((32 <=? c) && (c <=? 126)) eqn:V.
  - apply andb_true_iff in V. rewrite !N.leb_le in V. cbn [app read_chars]. rewrite (proj2 (N.eqb_neq c 34) N1), (proj2 (N.eqb_neq c 92) N2), (proj2 (N.ltb_ge c 32)) by lia. reflexivity.
  - destruct (N.ltb_spec c 65536) as [B|B].
    + destruct (read_hex4 c r B) as (t & -> & R). change ((92 :: 117 :: t) ++ r) with (92 :: 117 :: (t ++ r)). cbn [read_chars N.eqb Pos.eqb]. rewrite R. assert (H : high c = false) by (unfold high; rewrite andb_false_iff, !N.leb_gt; lia). assert (L : low c = false) by (unfold low; rewrite andb_false_iff, !N.leb_gt; lia). rewrite H, L. reflexivity.
    + set (v := 55296 + (c - 65536) / 1024 mod 1024). set (w := 56320 + (c - 65536) mod 1024). assert (V1 : 55296 <= v <= 56319) by lia. assert (W1 : 56320 <= w <= 57343) by lia.
      destruct (read_hex4 w r ltac:(lia)) as (t2 & E2 & R2). destruct (read_hex4 v (hex4 w ++ r) ltac:(lia)) as (t1 & E1 & R1). rewrite E1. rewrite <- app_assoc. change ((92 :: 117 :: t1) ++ hex4 w ++ r) with (92 :: 117 :: (t1 ++ (hex4 w ++ r))). cbn [read_chars N.eqb Pos.eqb]. rewrite R1.
      assert (H : high v = true) by (unfold high; rewrite andb_true_iff, !N.leb_le; lia). rewrite H. rewrite E2. change ((92 :: 117 :: t2) ++ r) with (92 :: 117 :: (t2 ++ r)). cbn [N.eqb Pos.eqb andb]. rewrite R2. assert (L : low w = true) by (unfold low; rewrite andb_true_iff, !N.leb_le; lia). rewrite L. f_equal. subst v w. lia.
Qed.
Lemma json_char_len : forall c, (1 <= length (json_char c))%nat.
Proof. intros c. unfold json_char. repeat match goal with |- context [if ?b then _ else _] => destruct b end; cbn; try lia; rewrite app_length; cbn; lia. Qed.
Lemma read_json_chars : forall s r f, Forall scalar s -> (length s < f)%nat -> read_chars f (flat_map json_char s ++ 34 :: r) = Some (s, r).
Proof.
  intros s r. induction s as [|c s IH]; intros f F L; (destruct f as [|f]; [cbn in L; lia|]).
  - reflexivity.
  - inversion F; subst. cbn [flat_map]. rewrite <- app_assoc. rewrite read_json_char by assumption. cbn in L. rewrite IH; [reflexivity|assumption|lia].
Qed.
Lemma flat_len : forall s, (length s <= length (flat_map json_char s))%nat.
Proof. induction s as [|c s IH]; [cbn; lia|]. cbn [flat_map length]. rewrite app_length. pose proof (json_char_len c). lia. Qed.
Lemma read_json_str : forall s r, Forall scalar s -> read_string (json_str s ++ r) = Some (s, r).
Proof.
  intros s r F. unfold json_str, read_string. cbn [app N.eqb Pos.eqb]. rewrite <- app_assoc. change ([34] ++ r) with (34 :: r). apply read_json_chars; [exact F|]. rewrite app_length. cbn [length]. pose proof (flat_len s). lia.
Qed.
(** integers *)
Lemma read_digits_app : forall s r acc, Forall (fun c => is_digit c = true) s -> match r with c :: _ => is_digit c = false | [] => True end -> read_digits (s ++ r) acc = (dval s acc, r).
Proof.
  induction s as [|c s IH]; intros r acc F E.
  - destruct r as [|c r]; [reflexivity|]. cbn [app read_digits]. unfold is_digit in E. rewrite E. reflexivity.
  - inversion F as [|? ? D F']; subst. cbn [app read_digits dval]. unfold is_digit in D. rewrite D. replace (acc * 10 + (c - 48)) with (10 * acc + (c - 48)) by lia. apply IH; assumption.
Qed.
Lemma dec_aux_head : forall fuel n acc, n < 2 ^ N.of_nat fuel -> n <> 0 -> exists d r, dec_aux fuel n acc = d :: r /\ d <> 48.
Proof.
  induction fuel as [|fuel IH]; intros n acc H Z; [change (2 ^ N.of_nat 0) with 1 in H; lia|]. cbn [dec_aux]. destruct (N.ltb_spec n 10) as [L|L].
  - eexists. eexists. split; [reflexivity|]. rewrite N.mod_small by exact L. lia.
  - apply IH; [|lia]. rewrite Nat2N.inj_succ, N.pow_succ_r' in H. apply N.div_lt_upper_bound; lia.
Qed.
Lemma dec_head : forall n, n <> 0 -> exists d r, dec_str n = d :: r /\ d <> 48.
Proof. intros n Z. apply dec_aux_head; [apply log2_fuel|exact Z]. Qed.
Lemma read_nat_dec : forall n r, match r with c :: _ => is_digit c = false | [] => True end -> read_nat (dec_str n ++ r) = Some (n, r).
Proof.
  intros n r E. destruct (N.eq_dec n 0) as [->|Z]; [reflexivity|]. destruct (dec_head n Z) as (d & t & ED & D). destruct (dec_str_spec n) as (F & _ & V). rewrite ED in *. inversion F as [|? ? DD F']; subst. cbn [app read_nat]. rewrite (proj2 (N.eqb_neq d 48) D).
  unfold is_digit in DD. apply andb_true_iff in DD. rewrite !N.leb_le in DD. rewrite (proj2 (N.leb_le 49 d)), (proj2 (N.leb_le d 57)) by lia. cbn [andb]. rewrite read_digits_app by assumption. cbn [dval] in *. reflexivity.
Qed.
Lemma dec_first : forall n r, exists d t, dec_str n ++ r = d :: t /\ 48 <= d <= 57.
Proof.
  intros n r. destruct (dec_str_spec n) as (F & NE & _). destruct (dec_str n) as [|d t]; [congruence|]. inversion F as [|? ? D _]; subst. unfold is_digit in D. apply andb_true_iff in D. rewrite !N.leb_le in D. exists d, (t ++ r). auto.
Qed.
Lemma read_json_int : forall z r, match r with c :: _ => is_digit c = false | [] => True end -> read_int (json_int z ++ r) = Some (z, r).
Proof.
  intros z r E. unfold json_int. destruct (Z.ltb_spec z 0) as [L|L].
  - cbn [app read_int N.eqb Pos.eqb]. rewrite read_nat_dec by exact E. f_equal. f_equal. lia.
  - pose proof (read_nat_dec (Z.to_N z) r E) as R. destruct (dec_first (Z.to_N z) r) as (d & t & ED & D). rewrite ED in *. unfold read_int. rewrite (proj2 (N.eqb_neq d 45)) by lia. rewrite R. f_equal. f_equal. lia.
Qed.
Lemma int_not_string : forall z r, read_string (json_int z ++ r) = None.
Proof.
  intros z r. unfold json_int. destruct (Z.ltb_spec z 0) as [L|L]; [reflexivity|]. destruct (dec_first (Z.to_N z) r) as (d & t & -> & D). unfold read_string. rewrite (proj2 (N.eqb_neq d 34)) by lia. reflexivity.
Qed.
Lemma int_no_blank : forall z r, skip_blank (json_int z ++ r) = json_int z ++ r.
Proof.
  intros z r. unfold json_int. destruct (Z.ltb_spec z 0) as [L|L]; [reflexivity|]. destruct (dec_first (Z.to_N z) r) as (d & t & -> & D). cbn [skip_blank]. unfold json_blank. rewrite !(proj2 (N.eqb_neq _ _)) by lia. reflexivity.
Qed.
Lemma str_no_blank : forall s r, skip_blank (json_str s ++ r) = json_str s ++ r.
Proof. reflexivity. Qed.
(** one record *)
Definition json_text (s : str) (z : Z) : str :=
  u "{" ++ json_str (u "ptn") ++ u ": " ++ json_str s ++ u ", " ++ json_str (u "cnt") ++ u ": " ++ json_int z ++ u "}".
Lemma scalar_ascii : forall s, forallb (fun c => c <? 128) s = true -> Forall scalar s.
Proof. intros s H. apply Forall_forall. intros c I. rewrite forallb_forall in H. apply H in I. apply N.ltb_lt in I. split; lia. Qed.
Lemma read_member : forall f k v s r, Forall scalar k -> read_value v = Some (s, r) -> skip_blank v = v -> read_members (S f) (json_str k ++ u ": " ++ v) =
  match skip_blank r with
  | d :: r => if d =? 44 then match read_members f r with Some (l, r) => Some ((k, s) :: l, r) | None => None end else if d =? 125 then Some ([(k, s)], r) else None
  | [] => None
  end.
Proof.
  intros f k v s r K V B. cbn [read_members]. rewrite str_no_blank, read_json_str by exact K. change (skip_blank (u ": " ++ v)) with (58 :: 32 :: v). cbn [N.eqb Pos.eqb]. change (skip_blank (32 :: v)) with (skip_blank v). rewrite B, V. reflexivity.
Qed.
Lemma read_blank : forall f s, read_members f (32 :: s) = read_members f s.
Proof. destruct f; reflexivity. Qed.
Theorem json_text_read : forall s z, Forall scalar s -> json_read (json_text s z) = Some [(u "ptn", JStr s); (u "cnt", JInt z)].
Proof.
  intros s z S. unfold json_text. set (tail := json_str (u "cnt") ++ u ": " ++ json_int z ++ u "}"). set (rest := json_str (u "ptn") ++ u ": " ++ json_str s ++ u ", " ++ tail).
  assert (SP : forall k, forallb (fun c => c <? 128) (u k) = true -> Forall scalar (u k)) by (intros k; apply scalar_ascii).
  unfold json_read. change (skip_blank (u "{" ++ rest)) with (123 :: rest). cbn [N.eqb Pos.eqb].
  assert (R : skip_blank rest = 34 :: tl rest) by reflexivity. rewrite R. cbn [N.eqb Pos.eqb].
  assert (LR : exists f, length rest = Datatypes.S (Datatypes.S f)) by (unfold rest; eexists; reflexivity). destruct LR as [f ->].
  unfold rest. assert (V1 : read_value (json_str s ++ u ", " ++ tail) = Some (JStr s, u ", " ++ tail)) by (unfold read_value; rewrite read_json_str by exact S; reflexivity).
  rewrite (read_member _ _ _ _ _ (SP "ptn"%string eq_refl) V1 (str_no_blank _ _)). change (skip_blank (u ", " ++ tail)) with (44 :: 32 :: tail). cbn [N.eqb Pos.eqb]. rewrite read_blank.
  unfold tail. assert (V2 : read_value (json_int z ++ u "}") = Some (JInt z, u "}")) by (unfold read_value; rewrite int_not_string, read_json_int by reflexivity; reflexivity).
  rewrite (read_member _ _ _ _ _ (SP "cnt"%string eq_refl) V2 (int_no_blank _ _)). reflexivity.
Qed.
(** only printable ASCII *)
Definition printable (c : char) : Prop := 32 <= c <= 126.
Lemma hex_printable : forall n, n < 16 -> printable (hex_digit n).
Proof. intros n H. unfold hex_digit, printable. destruct (N.ltb_spec n 10); lia. Qed.
Lemma hex4_printable : forall v, Forall printable (hex4 v).
Proof. intros v. unfold hex4. repeat apply Forall_cons; try apply Forall_nil; try (unfold printable; lia); apply hex_printable; apply N.mod_lt; discriminate. Qed.
Lemma char_printable : forall c, Forall printable (json_char c).
Proof.
  intros c. unfold json_char. repeat match goal with |- context [if ?b then _ else _] => destruct b eqn:? end; try (apply Forall_app; split; apply hex4_printable); try apply hex4_printable;
  try (apply Forall_forall; intros x I; vm_compute in I; unfold printable; intuition (subst; lia)).
  constructor; [|constructor]. rewrite andb_true_iff, !N.leb_le in *. unfold printable. lia.
Qed.
Lemma jstr_printable : forall s, Forall printable (json_str s).
Proof.
  intros s. unfold json_str. constructor; [unfold printable; lia|]. apply Forall_app. split; [|constructor; [unfold printable; lia|constructor]]. induction s as [|c s IH]; [constructor|]. cbn [flat_map]. apply Forall_app. split; [apply char_printable|exact IH].
Qed.
Lemma jint_printable : forall z, Forall printable (json_int z).
Proof.
  assert (D : forall n, Forall printable (dec_str n)). { intros n. eapply Forall_impl; [|apply dec_str_digits]. intros c H. unfold is_digit in H. rewrite andb_true_iff, !N.leb_le in H. unfold printable. lia. }
  intros z. unfold json_int. destruct (z <? 0)%Z; [constructor; [unfold printable; lia|apply D]|apply D].
Qed.
Lemma text_printable : forall s z, Forall printable (json_text s z).
Proof.
  intros s z. unfold json_text. repeat (apply Forall_app; split); try apply jstr_printable; try apply jint_printable; apply Forall_forall; intros x I; vm_compute in I; unfold printable; intuition (subst; lia).
Qed.
(** ** every printed pattern is visible ASCII *)
Local Close Scope N_scope.
Lemma legal_vis : forall c r, char_rule c = Some r -> vis c = true /\ visible r.
Proof.
  intros c r H. pose proof (rule_forall (fun c r => vis c && forallb vis r) ltac:(vm_compute; reflexivity) c r H) as X. cbv beta in X. apply andb_true_iff in X. destruct X as [A B]. split; [exact A|]. apply Forall_forall. rewrite forallb_forall in B. exact B.
Qed.
Lemma rule_vis : forall r, in_rules r = true -> visible r.
Proof. intros r H. apply text_vis. apply in_rules_space. exact H. Qed.
Lemma upat_vis : forall s P us, all_legal s -> upat s P us -> visible P.
Proof.
  intros s P us L U. destruct (upat_parts s P us L U) as (_ & LG & RO). destruct U as (_ & _ & ->). clear L. apply vis_concat. apply Forall_forall. intros w I. apply in_map_iff in I. destruct I as (x & <- & I).
  assert (RX : Forall run_ok (uruns x)). { apply Forall_forall. intros rw J. rewrite Forall_forall in RO. apply RO. apply in_concat. exists (uruns x). split; [apply in_map; exact I|exact J]. }
  assert (CH : forall rw c, In rw (uruns x) -> In c (snd rw) -> char_rule c = Some (fst rw)). { intros rw c J K. rewrite Forall_forall in RX. apply RX in J. destruct J as [_ J]. rewrite Forall_forall in J. apply J. exact K. }
  unfold ustr. destruct x as [rw|w g]; cbn [upu pu_str uruns] in *.
  - inversion RX as [|? ? [NE _] _]; subst. unfold render. destruct (in_sign_rules (fst rw)).
    + apply unit_vis. destruct (snd rw) as [|c t] eqn:E; [congruence|]. apply (legal_vis c). apply CH; [left; reflexivity|rewrite E; left; reflexivity].
    + apply Forall_forall. intros c K. apply (legal_vis c (fst rw)). apply CH; [left; reflexivity|exact K].
  - apply unit_vis. apply vis_concat. eapply Forall_impl; [exact rule_vis|]. apply cset_rules. rewrite Forall_forall in LG. apply (LG _ I).
Qed.
Lemma cluster_vis : forall nv h mcn cs m t, (2 <= mcn)%Z -> make mcn (loads nv h) = Ok cs -> In (m, t) cs -> visible (cluster_pattern (m, t)).
Proof.
  intros nv h mcn cs m t M E I. destruct (c20_count nv h mcn cs m t M E I) as [_ NP].
  assert (HD : In (hd [] (paths t)) (paths t)) by (destruct (paths t); [congruence|left; reflexivity]).
  destruct (cluster_path nv h mcn cs m t M E I) as (Ps & sid & mk & L & IM & EM & PP & PR & _). destruct (PR _ HD) as (raw & _ & LR & IR & F2 & _). unfold cluster_pattern. cbn [fst snd]. rewrite (PP _ HD). apply pack_vis.
  - destruct (c18_paths nv h sid mk IM) as (_ & _ & _ & PF). destruct (PF raw raw IR IR) as (_ & _ & _ & me & X). rewrite EM in X. apply in_accepted in X. destruct X as (url & IU & X).
    apply url_path_parse in X. destruct X as (X & _ & _). eapply keys_vis. exact X.
  - clear - LR F2. induction F2 as [|s P raw Ps O F2 IH]; [constructor|]. inversion LR; subst. constructor; [|apply IH; assumption]. destruct (opat_upat s P) as (us & U); [assumption|assumption|]. eapply upat_vis; eassumption.
Qed.
(** ** the records *)
Lemma mapM_out : forall A B (f : A -> res B) l ys, mapM f l = Ok ys -> Forall2 (fun x y => f x = Ok y) l ys.
Proof.
  intros A B f l. induction l as [|x l IH]; intros ys H; cbn [mapM] in H; [inversion H; constructor|]. destruct (f x) as [y|] eqn:E; [|discriminate]. cbn [bind] in H. destruct (mapM f l) as [t|]; [|discriminate]. cbn [bind] in H. inversion H; subst. constructor; [exact E|apply IH; reflexivity].
Qed.
Lemma vis_scalar : forall s, visible s -> Forall scalar s.
Proof. intros s V. eapply Forall_impl; [|exact V]. intros c H. unfold vis in H. apply andb_true_iff in H. rewrite !N.leb_le in H. split; lia. Qed.
Lemma json_cluster : forall nv h mcn cs m t, (2 <= mcn)%Z -> make mcn (loads nv h) = Ok cs -> In (m, t) cs -> fmt_json m t = [json_text (cluster_pattern (m, t)) (Z.of_nat (length (paths t)))].
Proof.
  intros nv h mcn cs m t M E I. destruct (c20_count nv h mcn cs m t M E I) as [C NP]. unfold fmt_json, cluster_pattern. cbn [fst snd]. rewrite C. destruct (paths t) as [|nodes ps]; [congruence|]. reflexivity.
Qed.
Theorem c44 : forall nv mcn lines out, (2 <= mcn)%Z -> make_run nv mcn FJson lines = Ok out ->
  exists cs, make mcn (loads nv (line_loads nv false lines)) = Ok cs /\
    Forall2 (fun r c => json_read r = Some [(u "ptn", JStr (cluster_pattern c)); (u "cnt", JInt (Z.of_nat (length (paths (snd c)))))] /\ Forall (fun b => (32 <= b <= 126)%N) r) out cs.
Proof.
  intros nv mcn lines out M H. unfold make_run in H. rewrite make_load_ok in H. cbn [fst wants_url] in H. unfold make_process in H. destruct (make mcn (loads nv (line_loads nv false lines))) as [cs|] eqn:E; [|discriminate]. cbn [bind] in H.
  exists cs. split; [reflexivity|]. destruct (mapM (fun mt => pformat FJson (fst mt) (snd mt)) cs) as [rs|] eqn:R; [|discriminate]. cbn [bind] in H. inversion H; subst. clear H. apply mapM_out in R.
  assert (G : forall c, In c cs -> fmt_json (fst c) (snd c) = [json_text (cluster_pattern c) (Z.of_nat (length (paths (snd c))))] /\ visible (cluster_pattern c)). { intros [m t] I. split; [eapply json_cluster; eassumption|eapply cluster_vis; eassumption]. }
  clear E. induction R as [|c r cs rs EQ R IH]; [constructor|]. cbn [pformat] in EQ. destruct (G c (or_introl eq_refl)) as [G1 G2]. rewrite G1 in EQ. inversion EQ; subst. cbn [List.concat app]. constructor.
  - split; [apply json_text_read; apply vis_scalar; exact G2|apply text_printable].
  - apply IH. intros c' I. apply G. right. exact I.
Qed.
Definition json_cnt (r : str) : Z := match json_read r with Some [_; (_, JInt z)] => z | _ => 0%Z end.
Theorem c44_sum : forall nv mcn lines out st a e uq v i, (2 <= mcn)%Z -> make_run nv mcn FJson lines = Ok out -> make_load nv false lines = (st, ST a e uq v i) -> zsum (map json_cnt out) = uq.
Proof.
  intros nv mcn lines out st a e uq v i M H L. destruct (c44 nv mcn lines out M H) as (cs & E & F). pose proof (c36 nv false lines st a e uq v i L) as (_ & _ & _ & _ & _ & _ & _ & U & _). rewrite U.
  rewrite <- (Permutation_length (c20 nv _ mcn cs M E)). clear - F. induction F as [|r c out cs [R _] F IH]; [reflexivity|]. cbn [map flat_map zsum fold_right]. rewrite app_length, map_length, Nat2Z.inj_add, <- IH. unfold json_cnt at 1. rewrite R. destruct c as [m t]. cbn [fst snd]. unfold zsum. cbn [map fold_right]. reflexivity.
Qed.
Theorem cluster_ascii : forall nv h mcn cs m t, (2 <= mcn)%Z -> make mcn (loads nv h) = Ok cs -> In (m, t) cs -> Forall (fun c => (33 <= c <= 126)%N) (cluster_pattern (m, t)).
Proof. intros nv h mcn cs m t M E I. eapply Forall_impl; [|eapply cluster_vis; eassumption]. intros c H. unfold vis in H. apply andb_true_iff in H. rewrite !N.leb_le in H. exact H. Qed.
