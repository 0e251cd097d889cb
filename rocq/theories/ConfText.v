(** Characters, lines and numbers of a configuration file: the functions of Conf.v
    compute what ConfSpec.v describes. *)
From Coq Require Import String.
From Verif Require Import PyStr PyStrProofs Conf ConfSpec Cmd.
From Coq Require Import Lia.
Local Open Scope N_scope.

Lemma uspace_iff : forall c, uspace c = true <-> In c whites.
Proof.
  intros c. unfold uspace. rewrite !orb_true_iff, !andb_true_iff, !N.leb_le, !N.eqb_eq. cbn [In whites]. split; [intros H|intros H]; lia.
Qed.
Lemma uspace_no : forall c, uspace c = false <-> ~ In c whites.
Proof. intros c. rewrite <- uspace_iff. destruct (uspace c); split; intros H; congruence. Qed.
Lemma white_iff : forall s, white s <-> Forall (fun c => uspace c = true) s.
Proof. intros s. unfold white. split; intros H; (eapply Forall_impl; [|exact H]); intros c; apply uspace_iff. Qed.

(** ** skip *)
Section Skip.
  Context (p : char -> bool).
  Lemma skip_app : forall a s, Forall (fun c => p c = true) a -> skip p (a ++ s) = skip p s.
  Proof. induction 1 as [|c a H HA IH]; [reflexivity|]. cbn. rewrite H. exact IH. Qed.
  Lemma skip_id : forall s, (forall c r, s = c :: r -> p c = false) -> skip p s = s.
  Proof. intros [|c r] H; [reflexivity|]. cbn. rewrite (H c r eq_refl). reflexivity. Qed.
  Lemma skip_split : forall s, exists a, s = a ++ skip p s /\ Forall (fun c => p c = true) a.
  Proof.
    induction s as [|c r (a & E & F)]; [exists []; split; [reflexivity|constructor]|]. cbn. destruct (p c) eqn:P.
    - exists (c :: a). split; [cbn; f_equal; exact E|constructor; assumption].
    - exists []. split; [reflexivity|constructor].
  Qed.
  Lemma skip_head : forall s c r, skip p s = c :: r -> p c = false.
  Proof. induction s as [|x s IH]; intros c r H; [discriminate|]. cbn in H. destruct (p x) eqn:P; [exact (IH _ _ H)|]. congruence. Qed.
  Lemma rskip_app : forall s b, Forall (fun c => p c = true) b -> rskip p (s ++ b) = rskip p s.
  Proof. intros s b H. unfold rskip. rewrite rev_app_distr, skip_app; [reflexivity|]. apply Forall_rev. exact H. Qed.
  Lemma rskip_id : forall s, (forall r c, s = r ++ [c] -> p c = false) -> rskip p s = s.
  Proof.
    intros s H. unfold rskip. rewrite skip_id; [apply rev_involutive|]. intros c r E. apply (H (rev r) c).
    rewrite <- (rev_involutive s), E. reflexivity.
  Qed.
  Lemma rskip_split : forall s, exists b, s = rskip p s ++ b /\ Forall (fun c => p c = true) b.
  Proof.
    intros s. destruct (skip_split (rev s)) as (a & E & F). exists (rev a). split; [|apply Forall_rev; exact F].
    unfold rskip. rewrite <- rev_app_distr, <- E. symmetry. apply rev_involutive.
  Qed.
  Lemma rskip_last : forall s r c, rskip p s = r ++ [c] -> p c = false.
  Proof.
    intros s r c E. unfold rskip in E. apply (skip_head (rev s) c (rev r)). rewrite <- (rev_involutive (skip p (rev s))), E, rev_app_distr. reflexivity.
  Qed.
  Lemma rskip_head : forall s c r, (forall c r, s = c :: r -> p c = false) -> rskip p s = c :: r -> p c = false.
  Proof. intros s c r H E. destruct (rskip_split s) as (b & S & _). rewrite E in S. exact (H _ _ S). Qed.
End Skip.

(** ** strip *)
Lemma ustrip_split : forall s, exists a b, s = a ++ ustrip s ++ b /\ white a /\ white b /\ trimmed (ustrip s)
  /\ skip uspace s = ustrip s ++ b.
Proof.
  intros s. destruct (skip_split uspace s) as (a & E & F). destruct (rskip_split uspace (skip uspace s)) as (b & E' & F').
  exists a, b. split; [unfold ustrip; rewrite <- E'; exact E|]. split; [apply white_iff; exact F|]. split; [apply white_iff; exact F'|].
  split; [|exact E']. split.
  - intros c r H. apply uspace_no. apply (rskip_head uspace _ _ _ (skip_head uspace s) H).
  - intros r c H. apply uspace_no. exact (rskip_last uspace _ _ _ H).
Qed.
Lemma ustrip_blank : forall s, white s <-> ustrip s = [].
Proof.
  intros s. split; intros H.
  - apply white_iff in H. unfold ustrip. rewrite <- (app_nil_r s), skip_app by exact H. reflexivity.
  - destruct (ustrip_split s) as (a & b & E & A & B & _). rewrite H in E. rewrite E. apply Forall_app. split; assumption.
Qed.
Lemma trimmed_skip : forall t b, trimmed t -> t <> [] -> skip uspace (t ++ b) = t ++ b.
Proof. intros [|c t] b [T _] N; [congruence|]. apply skip_id. intros x r E. inversion E; subst. apply uspace_no. exact (T x t eq_refl). Qed.
Lemma ustrip_mid : forall a t b, white a -> white b -> trimmed t -> ustrip (a ++ t ++ b) = t.
Proof.
  intros a t b A B T. destruct t as [|c t0] eqn:ET; [apply ustrip_blank; apply Forall_app; split; assumption|]. rewrite <- ET in *.
  unfold ustrip. rewrite skip_app by (apply white_iff; exact A). rewrite trimmed_skip; [|exact T|subst; discriminate].
  rewrite rskip_app by (apply white_iff; exact B). apply rskip_id. intros r x E. apply uspace_no. exact (proj2 T _ _ E).
Qed.
Lemma shows_iff : forall l k t, shows l k t <-> ustrip l = t /\ t <> [] /\ k = (length l - length (skip uspace l))%nat.
Proof.
  intros l k t. split.
  - intros (a & b & -> & A & B & T & N & K). split; [apply ustrip_mid; assumption|]. split; [exact N|].
    rewrite skip_app by (apply white_iff; exact A). rewrite trimmed_skip by assumption. rewrite (app_length a). lia.
  - intros (U & N & ->). destruct (ustrip_split l) as (a & b & E & A & B & T & S). rewrite U in *. exists a, b.
    do 5 (split; [assumption|]). rewrite S. assert (length l = length (a ++ t ++ b)) as L by (rewrite <- E; reflexivity). rewrite !app_length in *. lia.
Qed.
Lemma rskip_white : forall o a, no_end o -> white a -> rskip uspace (o ++ a) = o.
Proof. intros o a N A. rewrite rskip_app by (apply white_iff; exact A). apply rskip_id. intros r c E. apply uspace_no. exact (N _ _ E). Qed.
Lemma rskip_no_end : forall s, no_end (rskip uspace s).
Proof. intros s r c E. apply uspace_no. exact (rskip_last uspace _ _ _ E). Qed.

(** ** Comments, headers, options *)
Lemma comment_iff : forall t, is_comment t = true <-> comment t.
Proof.
  intros [|c t]; unfold comment; cbn.
  - split; [discriminate|]. intros (r & [H|H]); discriminate.
  - rewrite orb_true_iff, !N.eqb_eq. split.
    + intros [->| ->]; exists t; [left|right]; reflexivity.
    + intros (r & [H|H]); inversion H; [left|right]; reflexivity.
Qed.
Lemma comment_no : forall t, is_comment t = false <-> ~ comment t.
Proof. intros t. rewrite <- comment_iff. destruct (is_comment t); split; intros H; congruence. Qed.

Lemma rfind_none : forall c s, rfind_char c s = None <-> ~ In c s.
Proof.
  intros c. induction s as [|x s IH]; [split; [intros _ []|reflexivity]|]. cbn. destruct (rfind_char c s) as [i|] eqn:R.
  - split; [discriminate|]. intros H. assert (~ In c s) as N by (intros I; apply H; right; exact I). apply IH in N. discriminate.
  - destruct (N.eqb_spec x c) as [->|N].
    + split; [discriminate|]. intros H. exfalso. apply H. left. reflexivity.
    + split; [|reflexivity]. intros _ [E|I]; [congruence|]. exact (proj1 IH eq_refl I).
Qed.
Lemma rfind_app : forall c h r, ~ In c r -> rfind_char c (h ++ c :: r) = Some (length h).
Proof.
  intros c h r N. induction h as [|x h IH]; cbn.
  - apply rfind_none in N. rewrite N. rewrite N.eqb_refl. reflexivity.
  - rewrite IH. reflexivity.
Qed.
Lemma rfind_some : forall c s n, rfind_char c s = Some n -> exists r, s = firstn n s ++ c :: r /\ ~ In c r /\ length (firstn n s) = n.
Proof.
  intros c. induction s as [|x s IH]; intros n H; [discriminate|]. cbn in H. destruct (rfind_char c s) as [i|] eqn:R.
  - inversion H; subst. destruct (IH i eq_refl) as (r & E & N & L). exists r. cbn. split; [f_equal; exact E|]. split; [exact N|]. f_equal. exact L.
  - destruct (N.eqb_spec x c) as [->|N]; inversion H; subst. exists s. split; [reflexivity|]. split; [|reflexivity]. apply rfind_none. exact R.
Qed.
Lemma header_iff : forall t h, header t = Some h <-> heading t h.
Proof.
  intros t h. unfold header, heading. split.
  - destruct t as [|c r]; [discriminate|]. destruct (N.eqb_spec c 91) as [->|N]; [|discriminate].
    destruct (rfind_char 93 r) as [[|n]|] eqn:R; try discriminate. intros H. inversion H; subst h. apply rfind_some in R as (q & E & N & L).
    exists q. split; [cbn [app]; f_equal; exact E|]. split; [|exact N]. destruct r; discriminate.
  - intros (r & -> & N & R). cbn [app]. rewrite N.eqb_refl. replace (rfind_char 93 (h ++ 93 :: r)) with (Some (length h)) by (symmetry; exact (rfind_app 93 h r R)). destruct h as [|c h]; [congruence|]. cbn [length].
    f_equal. change (Datatypes.S (length h)) with (length (c :: h)). rewrite firstn_app, Nat.sub_diag, firstn_all. rewrite firstn_O. apply app_nil_r.
Qed.
Lemma header_none : forall t, header t = None <-> forall h, ~ heading t h.
Proof.
  intros t. split.
  - intros E h H. apply header_iff in H. congruence.
  - intros H. destruct (header t) as [h|] eqn:E; [|reflexivity]. exfalso. apply (H h). apply header_iff. exact E.
Qed.

Lemma delim_iff : forall c, delim c = true <-> c = 61 \/ c = 58.
Proof. intros c. unfold delim. rewrite orb_true_iff, !N.eqb_eq. reflexivity. Qed.
Lemma delim_no : forall c, delim c = false <-> c <> 61 /\ c <> 58.
Proof. intros c. unfold delim. rewrite orb_false_iff, !N.eqb_neq. reflexivity. Qed.
Lemma option_line_iff : forall t o v, option_line t = Some (o, v) <->
  exists d, t = o ++ [d] ++ v /\ (d = 61 \/ d = 58) /\ forall c, In c o -> c <> 61 /\ c <> 58.
Proof.
  induction t as [|c t IH]; intros o v; cbn.
  - split; [discriminate|]. intros (d & E & _). destruct o; discriminate.
  - destruct (delim c) eqn:D.
    + split.
      * intros H. inversion H; subst. exists c. split; [reflexivity|]. split; [apply delim_iff; exact D|intros x []].
      * intros (d & E & DD & F). destruct o as [|x o]; cbn in E; inversion E; subst; [reflexivity|].
        exfalso. assert (delim x = false) as X by (apply delim_no; apply F; left; reflexivity). congruence.
    + split.
      * destruct (option_line t) as [[o' v']|]; [|discriminate]. intros H. inversion H; subst. destruct (proj1 (IH o' v) eq_refl) as (d & E & DD & F).
        exists d. split; [cbn; f_equal; exact E|]. split; [exact DD|]. intros x [<-|I]; [apply delim_no; exact D|apply F; exact I].
      * intros (d & E & DD & F). destruct o as [|x o]; cbn in E; inversion E; subst.
        { apply delim_iff in DD. congruence. }
        assert (option_line (o ++ d :: v) = Some (o, v)) as X.
        { apply IH. exists d. split; [reflexivity|]. split; [exact DD|]. intros y I. apply F. right. exact I. }
        cbn [app] in X. rewrite X. reflexivity.
Qed.
Lemma setting_iff : forall t o v, setting t o v <->
  exists o0 v0, option_line t = Some (o0, v0) /\ rskip uspace o0 = o /\ o <> [] /\ ustrip v0 = v.
Proof.
  intros t o v. split.
  - intros (a & d & b & w & -> & D & F & N & NE & A & B & W & T). exists (o ++ a), (b ++ v ++ w). split; [|split; [|split]].
    + apply option_line_iff. exists d. split; [rewrite <- app_assoc; reflexivity|]. split; assumption.
    + apply rskip_white; assumption.
    + exact N.
    + apply ustrip_mid; assumption.
  - intros (o0 & v0 & E & R & N & U). apply option_line_iff in E as (d & -> & D & F).
    destruct (rskip_split uspace o0) as (a & E & A). destruct (ustrip_split v0) as (b & w & E' & B & W & T & _). rewrite R in E. rewrite U in E', T.
    exists a, d, b, w. split; [rewrite E' at 1; rewrite E at 1; rewrite <- app_assoc; reflexivity|]. split; [exact D|]. split; [rewrite <- E; exact F|].
    split; [exact N|]. split; [rewrite <- R; apply rskip_no_end|]. split; [apply white_iff; exact A|]. repeat split; try assumption; apply T.
Qed.

(** ** Lines *)
Lemma cut_lf : forall s r, ~ In 10 s -> cut_lines (s ++ 10 :: r) = (s ++ [10]) :: cut_lines r.
Proof.
  induction s as [|c s IH]; intros r N; [reflexivity|]. cbn [app cut_lines]. destruct (N.eqb_spec c 10) as [->|D]; [exfalso; apply N; left; reflexivity|].
  rewrite IH; [reflexivity|]. intros I. apply N. right. exact I.
Qed.
Lemma cut_last : forall s, ~ In 10 s -> s <> [] -> cut_lines s = [s].
Proof.
  induction s as [|c s IH]; intros N E; [congruence|]. cbn. destruct (N.eqb_spec c 10) as [->|D]; [exfalso; apply N; left; reflexivity|].
  destruct s as [|x s]; [reflexivity|]. rewrite IH; [reflexivity| |discriminate]. intros I. apply N. right. exact I.
Qed.
Lemma newlines_plain : forall s r, ~ In 13 s -> newlines (s ++ r) = s ++ newlines r.
Proof.
  induction s as [|c s IH]; intros r N; [reflexivity|]. cbn [app newlines]. destruct (N.eqb_spec c 13) as [->|D]; [exfalso; apply N; left; reflexivity|].
  rewrite IH; [reflexivity|]. intros I. apply N. right. exact I.
Qed.
Lemma lines_of_text : forall s ls, lines_of s ls -> text_lines s = ls.
Proof.
  unfold text_lines. induction 1 as [|s P N|s r ls P H IH|s r ls P H IH|s r ls P D H IH].
  - reflexivity.
  - pose proof (newlines_plain s [] (proj2 P)) as X. cbn [newlines] in X. rewrite !app_nil_r in X. rewrite X. apply cut_last; [apply P|exact N].
  - rewrite newlines_plain by apply P. cbn [app newlines N.eqb Pos.eqb]. rewrite cut_lf by apply P. rewrite IH. reflexivity.
  - rewrite newlines_plain by apply P. cbn [app newlines N.eqb Pos.eqb]. rewrite cut_lf by apply P. rewrite IH. reflexivity.
  - rewrite newlines_plain by apply P. cbn [app newlines N.eqb Pos.eqb]. destruct r as [|c r].
    + rewrite cut_lf by apply P. rewrite <- IH. reflexivity.
    + cbn [hd] in D. destruct (N.eqb_spec c 10) as [->|_]; [congruence|]. rewrite cut_lf by apply P. rewrite IH. reflexivity.
Qed.
Lemma text_run : forall s, exists p r, s = p ++ r /\ plain p /\ (r = [] \/ exists c r', r = c :: r' /\ (c = 10 \/ c = 13)).
Proof.
  induction s as [|c s (p & r & E & [P1 P2] & R)]; [exists [], []; repeat split; try (intros []); left; reflexivity|].
  destruct (N.eqb_spec c 10) as [->|D]; [exists [], (10 :: s); repeat split; try (intros []); right; exists 10, s; split; [reflexivity|left; reflexivity]|].
  destruct (N.eqb_spec c 13) as [->|D']; [exists [], (13 :: s); repeat split; try (intros []); right; exists 13, s; split; [reflexivity|right; reflexivity]|].
  exists (c :: p), r. split; [cbn; f_equal; exact E|]. split; [|exact R]. split; intros [I|I]; [congruence|tauto|congruence|tauto].
Qed.
Lemma text_lines_ok : forall s, lines_of s (text_lines s).
Proof.
  intros s. assert (exists ls, lines_of s ls) as (ls & H).
  { remember (length s) as n eqn:L. revert s L. induction n as [n IH] using lt_wf_ind. intros s L.
    destruct (text_run s) as (p & r & -> & P & [->|(c & r' & -> & C)]).
    - rewrite app_nil_r. destruct p as [|x p]; [exists []; constructor|]. exists [x :: p]. constructor; [exact P|discriminate].
    - rewrite app_length in L. cbn [length] in L. destruct C as [->| ->].
      + destruct (IH (length r') ltac:(lia) r' eq_refl) as (ls & H). exists ((p ++ [10]) :: ls). exact (lo_lf p r' ls P H).
      + destruct r' as [|d r2]; [exists [p ++ [10]]; exact (lo_cr p [] [] P ltac:(discriminate) lo_nil)|].
        destruct (N.eqb_spec d 10) as [->|D].
        * cbn [length] in L. destruct (IH (length r2) ltac:(lia) r2 eq_refl) as (ls & H). exists ((p ++ [10]) :: ls). exact (lo_crlf p r2 ls P H).
        * destruct (IH (length (d :: r2)) ltac:(lia) (d :: r2) eq_refl) as (ls & H). exists ((p ++ [10]) :: ls). exact (lo_cr p (d :: r2) ls P D H). }
  rewrite (lines_of_text s ls H). exact H.
Qed.

(** ** Numbers *)
Lemma zeros_apart : forall z z', In z zeros -> In z' zeros -> z <> z' -> z + 9 < z' \/ z' + 9 < z.
Proof.
  assert (forallb (fun z => forallb (fun z' => (z =? z') || (z + 9 <? z') || (z' + 9 <? z)) zeros) zeros = true) as A by (vm_compute; reflexivity).
  intros z z' I I' N. rewrite forallb_forall in A. specialize (A _ I). rewrite forallb_forall in A. specialize (A _ I').
  rewrite !orb_true_iff, N.eqb_eq, !N.ltb_lt in A. tauto.
Qed.
Lemma digit_iff : forall c d, digit_value c = Some d <-> digit c d.
Proof.
  intros c d. unfold digit_value, digit. match goal with |- context [List.find ?f zeros] => destruct (List.find f zeros) as [z|] eqn:F end.
  - apply find_some in F as [I B]. apply andb_true_iff in B as [B1 B2]. apply N.leb_le in B1, B2. split.
    + intros H. inversion H; subst d. exists z. split; [exact I|]. lia.
    + intros (z' & I' & E & L). f_equal. destruct (N.eq_dec z z') as [<-|N]; [lia|]. destruct (zeros_apart z z' I I' N); lia.
  - split; [discriminate|]. intros (z & I & E & L). exfalso. pose proof (find_none _ _ F z I) as B. apply andb_false_iff in B as [B|B]; apply N.leb_gt in B; lia.
Qed.
Lemma digit_not_under : forall d, ~ digit 95 d.
Proof.
  intros d H. apply digit_iff in H. vm_compute in H. discriminate.
Qed.
Lemma digit_blank : forall c d, digit c d -> ~ In c whites.
Proof.
  intros c d D. apply digit_iff in D. intros I.
  assert (forallb (fun c => match digit_value c with None => true | _ => false end) whites = true) as A by (vm_compute; reflexivity).
  rewrite forallb_forall in A. specialize (A _ I). rewrite D in A. discriminate.
Qed.
Lemma int_space_iff : forall c, int_space c = true <-> blank c.
Proof.
  intros c. unfold int_space, blank. destruct (N.ltb_spec c 127) as [L|L].
  - unfold is_space. rewrite orb_true_iff, andb_true_iff, !N.leb_le, N.eqb_eq. cbn [In whites]. lia.
  - rewrite uspace_iff. split; [intros H; split; [exact H|lia]|intros [H _]; exact H].
Qed.
Lemma int_space_no : forall c, int_space c = false <-> ~ blank c.
Proof. intros c. rewrite <- int_space_iff. destruct (int_space c); split; intros H; congruence. Qed.

(** a numeral from left to right *)
Lemma digits_app : forall s c d acc m n, int_digits acc m s = COk n -> digit c d -> int_digits acc m (s ++ [c]) = COk (n * 10 + d).
Proof.
  induction s as [|x s IH]; intros c d acc m n H D; cbn in *.
  - destruct m; [|discriminate]. inversion H; subst. destruct (N.eqb_spec c 95) as [->|_]; [exfalso; exact (digit_not_under d D)|].
    apply digit_iff in D. rewrite D. reflexivity.
  - destruct (x =? 95); [destruct m; [|discriminate]; exact (IH _ _ _ _ _ H D)|]. destruct (digit_value x) as [y|]; [|discriminate]. exact (IH _ _ _ _ _ H D).
Qed.
Lemma digits_under : forall s c d acc m n, int_digits acc m s = COk n -> digit c d -> int_digits acc m (s ++ [95; c]) = COk (n * 10 + d).
Proof.
  induction s as [|x s IH]; intros c d acc m n H D; cbn in *.
  - destruct m; [|discriminate]. inversion H; subst. destruct (N.eqb_spec c 95) as [->|_]; [exfalso; exact (digit_not_under d D)|].
    apply digit_iff in D. rewrite D. reflexivity.
  - destruct (x =? 95); [destruct m; [|discriminate]; exact (IH _ _ _ _ _ H D)|]. destruct (digit_value x) as [y|]; [|discriminate]. exact (IH _ _ _ _ _ H D).
Qed.
Lemma numeral_digits : forall s n, numeral s n -> int_digits 0 false s = COk n.
Proof.
  induction 1 as [c d D|s n c d H IH D|s n c d H IH D].
  - cbn. destruct (N.eqb_spec c 95) as [->|_]; [exfalso; exact (digit_not_under d D)|]. apply digit_iff in D. rewrite D. reflexivity.
  - rewrite (digits_app s c d 0 false n IH D). f_equal. lia.
  - rewrite (digits_under s c d 0 false n IH D). f_equal. lia.
Qed.
Lemma digits_numeral_app : forall (s p : str) (acc : N) (m : bool) (n : N),
  (if m then numeral p acc else (p = [] /\ acc = 0) \/ exists q, p = q ++ [95] /\ numeral q acc) ->
  int_digits acc m s = COk n -> numeral (p ++ s) n.
Proof.
  induction s as [|c s IH]; intros p acc m n P H; cbn in H.
  - destruct m; [|discriminate]. inversion H; subst. rewrite app_nil_r. exact P.
  - destruct (N.eqb_spec c 95) as [->|N].
    + destruct m; [|discriminate]. change (95 :: s) with ([95] ++ s). rewrite app_assoc. apply (IH _ acc false); [|exact H]. right. exists p. split; [reflexivity|exact P].
    + destruct (digit_value c) as [d|] eqn:D; [|discriminate]. apply digit_iff in D. change (c :: s) with ([c] ++ s). rewrite app_assoc.
      apply (IH _ (acc * 10 + d) true); [|exact H]. replace (acc * 10 + d) with (10 * acc + d) by lia. destruct m.
      * apply num_more; assumption.
      * destruct P as [[-> ->]|(q & -> & Q)]; [cbn [app]; replace (10 * 0 + d) with d by lia; apply num_one; exact D|].
        rewrite <- app_assoc. cbn [app]. apply num_under; assumption.
Qed.
Lemma digits_numeral : forall s n, int_digits 0 false s = COk n -> numeral s n.
Proof. intros s n H. apply (digits_numeral_app s [] 0 false n); [left; split; reflexivity|exact H]. Qed.
Lemma numeral_first : forall s n, numeral s n -> exists c d r, s = c :: r /\ digit c d.
Proof.
  induction 1 as [c d D|s n c d H (x & y & r & -> & X) D|s n c d H (x & y & r & -> & X) D].
  - exists c, d, []. split; [reflexivity|exact D].
  - exists x, y, (r ++ [c]). split; [reflexivity|exact X].
  - exists x, y, (r ++ [95; c]). split; [reflexivity|exact X].
Qed.
Lemma numeral_last : forall s n, numeral s n -> exists c d r, s = r ++ [c] /\ digit c d.
Proof.
  intros s n H. destruct H as [c d D|s n c d H D|s n c d H D].
  - exists c, d, []. split; [reflexivity|exact D].
  - exists c, d, s. split; [reflexivity|exact D].
  - exists c, d, (s ++ [95]). split; [rewrite <- app_assoc; reflexivity|exact D].
Qed.
Lemma int_strip_split : forall s, exists a b, s = a ++ rskip int_space (skip int_space s) ++ b /\ Forall blank a /\ Forall blank b.
Proof.
  intros s. destruct (skip_split int_space s) as (a & E & F). destruct (rskip_split int_space (skip int_space s)) as (b & E' & F').
  exists a, b. split; [rewrite <- E'; exact E|]. split; (eapply Forall_impl; [|eassumption]); intros c; apply int_space_iff.
Qed.
Lemma int_strip_mid : forall a t b, Forall blank a -> Forall blank b -> t <> [] -> (forall c r, t = c :: r -> ~ blank c) ->
  (forall r c, t = r ++ [c] -> ~ blank c) -> rskip int_space (skip int_space (a ++ t ++ b)) = t.
Proof.
  intros a t b A B N H1 H2. assert (forall l, Forall blank l -> Forall (fun c => int_space c = true) l) as X by (intros l F; eapply Forall_impl; [|exact F]; intros c; apply int_space_iff).
  rewrite skip_app by (apply X; exact A). rewrite skip_id.
  - rewrite rskip_app by (apply X; exact B). apply rskip_id. intros r c E. apply int_space_no. exact (H2 _ _ E).
  - intros c r E. apply int_space_no. destruct t as [|x t]; [congruence|]. inversion E; subst. exact (H1 _ _ eq_refl).
Qed.
Lemma under_count : forall s, length s = (length (filter (fun c => negb (c =? 95)%N) s) + count_occ N.eq_dec s 95%N)%nat.
Proof.
  induction s as [|c s IH]; [reflexivity|]. cbn [length filter count_occ]. unfold char in *. destruct (N.eq_dec c 95) as [->|NE].
  - cbn [N.eqb Pos.eqb negb]. lia.
  - rewrite (proj2 (N.eqb_neq c 95) NE). cbn [negb length]. lia.
Qed.
Lemma body_iff : forall s n, int_body s = COk n <-> numeral s n /\ short s.
Proof.
  intros s n. unfold int_body, short. pose proof (under_count s) as U. unfold char in *. destruct (N.ltb_spec 4300 (N.of_nat (length (filter (fun c => negb (c =? 95)%N) s)))) as [L|L].
  - split; [discriminate|]. intros [_ H]. unfold char in *. lia.
  - split; [intros H; split; [apply digits_numeral; exact H|unfold char in *; lia]|]. intros [H _]. apply numeral_digits. exact H.
Qed.
Lemma py_int_iff : forall s z, py_int10 s = COk z <-> denotes s z.
Proof.
  intros s z. unfold py_int10, denotes. split.
  - destruct (int_strip_split s) as (a & b & E & A & B). destruct (rskip int_space (skip int_space s)) as [|c r]; [discriminate|].
    destruct (N.eqb_spec c 43) as [->|N1].
    { destruct (int_body r) as [n|] eqn:D; [|discriminate]. intros H. inversion H; subst z. apply body_iff in D. destruct D as [D SH].
      exists a, [43], r, b, n. split; [exact E|]. split; [exact A|]. split; [exact B|]. split; [exact D|]. split; [exact SH|]. left. split; [right; reflexivity|reflexivity]. }
    destruct (N.eqb_spec c 45) as [->|N2].
    { destruct (int_body r) as [n|] eqn:D; [|discriminate]. intros H. inversion H; subst z. apply body_iff in D. destruct D as [D SH].
      exists a, [45], r, b, n. split; [exact E|]. split; [exact A|]. split; [exact B|]. split; [exact D|]. split; [exact SH|]. right. split; reflexivity. }
    destruct (int_body (c :: r)) as [n|] eqn:D; [|discriminate]. intros H. inversion H; subst z. apply body_iff in D. destruct D as [D SH].
    exists a, [], (c :: r), b, n. split; [exact E|]. split; [exact A|]. split; [exact B|]. split; [exact D|]. split; [exact SH|]. left. split; [left; reflexivity|reflexivity].
  - intros (a & sg & ds & b & n & -> & A & B & D & SH & SG).
    destruct (numeral_first _ _ D) as (c & d & r & EC & DC). destruct (numeral_last _ _ D) as (c' & d' & r' & EC' & DC').
    pose proof (proj2 (body_iff _ _) (conj D SH)) as ND. assert (~ blank c) as NB by (intros [I _]; exact (digit_blank _ _ DC I)).
    assert (forall r x, sg ++ ds = r ++ [x] -> ~ blank x) as LAST.
    { intros q x E. rewrite EC', app_assoc in E. apply app_inj_tail in E as [_ <-]. intros [I _]. exact (digit_blank _ _ DC' I). }
    assert (sg ++ ds <> []) as NE by (rewrite EC; destruct sg; discriminate).
    rewrite (app_assoc sg). rewrite int_strip_mid; [|exact A|exact B|exact NE| |exact LAST].
    + destruct SG as [[[->| ->] ->]|[-> ->]]; cbn [app].
      * rewrite EC in *. destruct (N.eqb_spec c 43) as [->|_]; [exfalso; apply digit_iff in DC; vm_compute in DC; discriminate|].
        destruct (N.eqb_spec c 45) as [->|_]; [exfalso; apply digit_iff in DC; vm_compute in DC; discriminate|]. rewrite ND. reflexivity.
      * cbn [N.eqb Pos.eqb]. rewrite ND. reflexivity.
      * cbn [N.eqb Pos.eqb]. rewrite ND. reflexivity.
    + intros x q E. destruct SG as [[[->| ->] _]|[-> _]]; cbn [app] in E.
      * rewrite EC in E. inversion E; subst. exact NB.
      * inversion E; subst. intros [I _]. cbn in I. lia.
      * inversion E; subst. intros [I _]. cbn in I. lia.
Qed.
Lemma denotes_fun : forall s z z', denotes s z -> denotes s z' -> z = z'.
Proof. intros s z z' H H'. apply py_int_iff in H, H'. congruence. Qed.
