(** pattern-make and the configuration file: the statements of C69. *)
From Coq Require Import String.
From Verif Require Import PyStr PyStrProofs DictProofs Defs UrlLib ParseUtils Views Trees Cluster Patterns Matcher Maker Format Cmd Ete
  Observe LoadProofs CmdProofs MakeProofs TreeProofs Conf ConfSpec ConfText ConfRead ConfTop.
From Coq Require Import Lia.

Lemma loads_empty : forall nv wm input, accepts nv input <-> loads nv (line_loads nv wm input) <> [].
Proof.
  intros nv wm input. split.
  - intros (l & url & I & K) E. assert (exists m raw, url_path nv url = Some (m, raw)) as (m & raw & P).
    { unfold kind_of_line in K. destruct (forallb blank_byte l); [discriminate|]. destruct (utf8_decode (strip l)) as [x|]; [|discriminate].
      destruct (url_path nv x) as [[m raw]|] eqn:P; [|discriminate]. inversion K; subst x. eauto. }
    pose proof (proj2 (proj2 (c18_keys nv (line_loads nv wm input)) (digest_of m raw))) as H. rewrite E in H. apply H.
    exists m, raw, (if wm then Some url else None). split; [|reflexivity]. apply in_accepted. exists url. split; [|exact P].
    unfold line_loads. apply in_flat_map. exists l. split; [exact I|]. rewrite K. left. reflexivity.
  - intros NE. destruct (loads nv (line_loads nv wm input)) as [|[sid mk] st] eqn:E; [congruence|].
    destruct (proj1 (proj2 (c18_keys nv (line_loads nv wm input)) sid)) as (m & raw & me & A & _); [rewrite E; left; reflexivity|].
    apply in_accepted in A. destruct A as (url & A & _). unfold line_loads in A. apply in_flat_map in A. destruct A as (l & I & A).
    exists l. destruct (kind_of_line nv l) as [| |x] eqn:K; try (destruct A; fail). destruct A as [A|[]]. inversion A; subst x. eauto.
Qed.

Lemma c69_lines : forall t, exists ls, lines_of t ls /\ forall ls', lines_of t ls' -> ls' = ls.
Proof. intros t. exists (text_lines t). split; [apply text_lines_ok|]. intros ls' L. symmetry. exact (lines_of_text _ _ L). Qed.

Section Main.
  Context (lower : str -> str) (LW : lowers lower).

  Lemma file_says : forall bytes bs, reads bytes bs -> proper lower bs -> exists cf, with_file lower cf0 (Some bytes) = COk cf
    /\ forall z, getint lower cf (u "make") (u "min_cluster_num") = COk z <-> says lower bs z.
  Proof.
    intros bytes bs (t & ls & D & L & Y) P. unfold with_file. rewrite D, (lines_of_text _ _ L). exact (read_says lower LW ls bs Y P).
  Qed.
  Lemma main_ok : forall conf cf z, with_file lower cf0 conf = COk cf -> getint lower cf (u "make") (u "min_cluster_num") = COk z ->
    forall nv, (forall f input, make_main lower nv conf f input = run (make_run nv z f input))
      /\ (forall ga input, ete_main lower ga nv conf input = run (ete_run ga nv z input)).
  Proof.
    intros conf cf z W G nv. unfold make_main, ete_main. rewrite (default_ok lower LW). cbn [cbind]. rewrite W. cbn [cbind]. split; intros.
    - apply (conf_process_ok lower _ _ _ _ G).
    - apply (conf_ete_ok lower _ _ _ _ G).
  Qed.
  Lemma c69_default : forall nv, (forall f input, make_main lower nv None f input = run (make_run nv 3 f input))
      /\ (forall ga input, ete_main lower ga nv None input = run (ete_run ga nv 3 input)).
  Proof. exact (main_ok None cf0 3 eq_refl (getint0 lower LW)). Qed.
  Lemma c69_value : forall bytes bs z, reads bytes bs -> proper lower bs -> says lower bs z -> forall nv,
    (forall f input, make_main lower nv (Some bytes) f input = run (make_run nv z f input))
    /\ (forall ga input, ete_main lower ga nv (Some bytes) input = run (ete_run ga nv z input)).
  Proof.
    intros bytes bs z R P S. destruct (file_says _ _ R P) as (cf & W & G). exact (main_ok (Some bytes) cf z W (proj2 (G z) S)).
  Qed.
  Lemma c69_bad : forall bytes bs, reads bytes bs -> proper lower bs -> (forall z, ~ says lower bs z) -> exists e, forall nv input,
    (forall f, (accepts nv input -> make_main lower nv (Some bytes) f input = CErr e)
       /\ (~ accepts nv input -> make_main lower nv (Some bytes) f input = COk []))
    /\ (forall ga, (accepts nv input -> ete_main lower ga nv (Some bytes) input = CErr e)
       /\ (~ accepts nv input -> ete_main lower ga nv (Some bytes) input = COk [])).
  Proof.
    intros bytes bs R P N. destruct (file_says _ _ R P) as (cf & W & G). destruct (getint lower cf (u "make") (u "min_cluster_num")) as [z|e] eqn:E.
    { exfalso. apply (N z). apply G. reflexivity. }
    exists e. intros nv input. unfold make_main, ete_main. rewrite (default_ok lower LW). cbn [cbind]. rewrite W. cbn [cbind].
    split; intros; rewrite make_load_ok; cbn [fst].
    - rewrite (bad_process lower cf f nv _ e E), (loads_empty nv (wants_url f)). destruct (loads nv _); split; intros; try reflexivity; try congruence. destruct H. discriminate.
    - rewrite (bad_ete lower ga cf nv _ e E), (loads_empty nv false). destruct (loads nv _); split; intros; try reflexivity; try congruence. destruct H. discriminate.
  Qed.
  Lemma c69_refused : forall bytes, (forall bs, reads bytes bs -> ~ proper lower bs) -> exists e, forall nv,
    (forall f input, make_main lower nv (Some bytes) f input = CErr e)
    /\ (forall ga input, ete_main lower ga nv (Some bytes) input = CErr e).
  Proof.
    intros bytes N. assert (exists e, with_file lower cf0 (Some bytes) = CErr e) as (e & W).
    { unfold with_file. destruct (utf8_decode bytes) as [t|e'] eqn:D; [|eexists; reflexivity].
      apply (read_refused lower LW). intros bs Y. apply N. exists t, (text_lines t). split; [exact D|]. split; [apply text_lines_ok|exact Y]. }
    exists e. intros nv. unfold make_main, ete_main. rewrite (default_ok lower LW). cbn [cbind]. rewrite W. split; reflexivity.
  Qed.
  Lemma c69_clear : forall bytes bs bs', reads bytes bs -> reads bytes bs' -> proper lower bs ->
    proper lower bs' /\ forall z z', says lower bs z -> (says lower bs' z' <-> z' = z).
  Proof.
    intros bytes bs bs' R R' P. destruct (file_says _ _ R P) as (cf & W & G).
    assert (proper lower bs') as P'.
    { destruct R' as (t & ls & D & L & Y). unfold with_file in W. rewrite D, (lines_of_text _ _ L) in W. exact (read_proper lower LW _ _ _ Y W). }
    split; [exact P'|]. intros z z' S. destruct (file_says _ _ R' P') as (cf' & W' & G'). rewrite W in W'. inversion W'; subst cf'.
    apply G in S. rewrite <- G'. split; intros; congruence.
  Qed.

  (** ** Files that assign nothing to the option, and the plain assignment *)
  Lemma expands_plain : forall env n s, ~ In 37%N s -> expands lower env n s s.
  Proof.
    intros env n s. induction s as [|c s IH]; intros H; [constructor|]. cbn [In] in H. constructor; [intros ->; apply H; left; reflexivity|apply IH; tauto].
  Qed.
  Lemma c69_unset : forall bs, (forall w, ~ sets lower [] bs (u "make") mcn_name w) -> says lower bs 3.
  Proof.
    intros bs H. exists (u "3"), (u "3"). split; [right; split; [exact H|left; split; reflexivity]|]. split; [apply expands_plain; cbv; lia|].
    apply py_int_iff. reflexivity.
  Qed.

  Definition plain_file (z : Z) : str := u "[make]" ++ [10%N] ++ u "min_cluster_num = " ++ json_int z ++ [10%N].
  Definition num_char (c : N) : Prop := c = 45%N \/ is_digit c = true.
  Lemma num_char_range : forall c, num_char c -> (45 <= c <= 57)%N /\ ~ In c whites.
  Proof.
    intros c [->|H]; [split; [lia|cbv; lia]|]. unfold is_digit in H. apply andb_true_iff in H as [H1 H2]. apply N.leb_le in H1, H2. split; [lia|].
    cbv [whites In]. lia.
  Qed.
  Lemma json_int_chars : forall z, Forall num_char (json_int z) /\ json_int z <> [].
  Proof.
    intros z. unfold json_int. assert (forall n, Forall num_char (dec_str n)) as D by (intros n; eapply Forall_impl; [|apply dec_str_digits]; intros c H; right; exact H).
    destruct (z <? 0)%Z; split; auto using dec_str_nonempty; [constructor; [left; reflexivity|apply D]|discriminate].
  Qed.
  Lemma int_acc_digits10 : forall s acc n, Forall (fun c => is_digit c = true) s -> int_acc s acc = Ok n -> int_digits acc true s = COk n.
  Proof.
    induction s as [|c s IH]; intros acc n F H; [cbn in *; congruence|]. inversion F as [|? ? D F']; subst.
    unfold is_digit in D. apply andb_true_iff in D as [D1 D2]. apply N.leb_le in D1, D2.
    assert (c = 48 \/ c = 49 \/ c = 50 \/ c = 51 \/ c = 52 \/ c = 53 \/ c = 54 \/ c = 55 \/ c = 56 \/ c = 57)%N as C by (unfold char in *; lia).
    cbn [int_acc int_digits] in *.
    repeat (destruct C as [->|C]; [vm_compute (decimal_value _) in H; vm_compute (_ =? _)%N; vm_compute (digit_value _); rewrite N.mul_comm; apply IH; assumption|]).
    subst c. vm_compute (decimal_value _) in H; vm_compute (_ =? _)%N; vm_compute (digit_value _); rewrite N.mul_comm; apply IH; assumption.
  Qed.
  Lemma json_int_denotes : forall z, (N.of_nat (length (dec_str (Z.abs_N z))) <= 4300)%N -> denotes (json_int z) z.
  Proof.
    intros z SH. assert (numeral (dec_str (Z.abs_N z)) (Z.abs_N z) /\ short (dec_str (Z.abs_N z))) as [NU S].
    { split; [|unfold short; lia]. apply digits_numeral. pose proof (dec_str_int (Z.abs_N z)) as I. pose proof (dec_str_digits (Z.abs_N z)) as F. unfold py_int in I.
      destruct (dec_str (Z.abs_N z)) as [|c s]; [discriminate|]. rewrite <- (int_acc_digits10 _ _ _ F I). inversion F as [|? ? D _]; subst. cbn [int_digits].
      destruct (N.eqb_spec c 95) as [->|_]; [discriminate|reflexivity]. }
    unfold json_int, denotes. destruct (Z.ltb_spec z 0).
    - replace (Z.to_N (- z)) with (Z.abs_N z) by lia. exists [], [45%N], (dec_str (Z.abs_N z)), [], (Z.abs_N z). rewrite app_nil_r. repeat split; auto. right. split; [reflexivity|lia].
    - replace (Z.to_N z) with (Z.abs_N z) by lia. exists [], [], (dec_str (Z.abs_N z)), [], (Z.abs_N z). rewrite app_nil_r. repeat split; auto. left. split; [left; reflexivity|lia].
  Qed.
  Lemma trimmed_num : forall s, Forall num_char s -> trimmed s.
  Proof.
    intros s F. split.
    - intros c r ->. inversion F; subst. apply num_char_range. assumption.
    - intros r c ->. apply Forall_app in F as [_ F]. inversion F; subst. apply num_char_range. assumption.
  Qed.
  Definition plain_blocks (z : Z) : list block := [Head (u "make"); Opt mcn_name [json_int z]].
  Lemma ascii_decode : forall s, Forall (fun c => (c < 128)%N) s -> utf8_decode s = Ok s.
  Proof.
    induction s as [|c s IH]; intros F; [reflexivity|]. inversion F as [|? ? L F']; subst. cbn [utf8_decode]. rewrite (proj2 (N.ltb_lt c 128) L), (IH F'). reflexivity.
  Qed.
  Lemma plain_reads : forall z, reads (plain_file z) (plain_blocks z).
  Proof.
    intros z. destruct (json_int_chars z) as [F NE].
    assert (forall c, In c (json_int z) -> (45 <= c <= 57)%N) as R by (intros c I; apply num_char_range; exact (proj1 (Forall_forall _ _) F c I)).
    exists (plain_file z), [u "[make]" ++ [10%N]; (u "min_cluster_num = " ++ json_int z) ++ [10%N]]. split; [|split].
    - apply ascii_decode. unfold plain_file. rewrite !Forall_app. repeat split; try (repeat (constructor; [reflexivity|]); constructor). apply Forall_forall. intros c I. apply R in I. unfold char in *. lia.
    - apply lo_lf; [split; cbv; lia|]. rewrite app_assoc. apply (lo_lf _ []); [|constructor]. split; intros I; apply in_app_iff in I as [I|I]; try (cbv in I; lia); apply R in I; lia.
    - exists [], [u "[make]" ++ [10%N]; (u "min_cluster_num = " ++ json_int z) ++ [10%N]]. split; [reflexivity|]. split; [constructor|].
      apply (laid_head None (u "[make]" ++ [10%N]) 0 (u "[make]") (u "make") []).
      + apply shows_iff. split; [reflexivity|]. split; [discriminate|reflexivity].
      + apply comment_no. reflexivity.
      + exact I.
      + apply header_iff. reflexivity.
      + constructor.
      + apply (laid_opt None _ 0 (u "min_cluster_num = " ++ json_int z) mcn_name (json_int z) [] [] []).
        * exists [], [10%N]. split; [reflexivity|]. split; [constructor|]. split; [constructor; [cbv; lia|constructor]|]. split; [|split; [discriminate|reflexivity]].
          split.
          -- intros c r E. assert (c = 109%N) as -> by (vm_compute (u _) in E; cbn [app] in E; inversion E; reflexivity). cbv. lia.
          -- intros r c E. destruct (exists_last NE) as (q & x & Q). rewrite Q, app_assoc in E. apply app_inj_tail in E as [_ <-].
             apply num_char_range. rewrite Q in F. apply Forall_app in F as [_ F]. inversion F; assumption.
        * apply comment_no. reflexivity.
        * exact I.
        * apply header_none. reflexivity.
        * exists [32%N], 61%N, [32%N], []. rewrite app_nil_r. split; [reflexivity|]. split; [left; reflexivity|]. split; [intros c I; cbv in I; lia|].
          split; [discriminate|]. split; [|split; [|split; [|split; [constructor|apply trimmed_num; exact F]]]]; try (constructor; [cbv; lia|constructor]).
          exact (rskip_no_end mcn_name).
        * constructor.
        * constructor.
  Qed.
  Lemma plain_proper : forall z, proper lower (plain_blocks z).
  Proof.
    intros z. split; [exact I|]. split; cbn [plain_blocks heads names].
    - vm_compute (str_eqb _ _). constructor; [intros []|constructor].
    - constructor; [intros []|constructor].
  Qed.
  Lemma plain_says : forall z, (N.of_nat (length (dec_str (Z.abs_N z))) <= 4300)%N -> says lower (plain_blocks z) z.
  Proof.
    intros z SH. destruct (json_int_chars z) as [F NE]. exists (json_int z), (json_int z). split; [|split].
    - left. unfold plain_blocks. apply sets_head. rewrite <- (lower_mcn lower LW) at 2. apply sets_here. exists []. split; [rewrite app_nil_r; reflexivity|].
      split; [constructor|]. apply trimmed_num. exact F.
    - apply expands_plain. intros I. apply (proj1 (Forall_forall _ _) F) in I. apply num_char_range in I. lia.
    - apply json_int_denotes. exact SH.
  Qed.
  Lemma c69_plain : forall z, (N.of_nat (length (dec_str (Z.abs_N z))) <= 4300)%N -> forall nv,
    (forall f input, make_main lower nv (Some (plain_file z)) f input = run (make_run nv z f input))
    /\ (forall ga input, ete_main lower ga nv (Some (plain_file z)) input = run (ete_run ga nv z input)).
  Proof. intros z SH. exact (c69_value _ _ z (plain_reads z) (plain_proper z) (plain_says z SH)). Qed.
  (** ** Too small a number *)
  Lemma c69_small : forall bytes bs z, reads bytes bs -> proper lower bs -> says lower bs z -> (z <= 1)%Z -> forall nv f input,
    (accepts nv input -> make_main lower nv (Some bytes) f input = CErr (CRun (if (z =? 1)%Z then EAttr else EUnbound)))
    /\ (~ accepts nv input -> make_main lower nv (Some bytes) f input = COk []).
  Proof.
    intros bytes bs z R P S M nv f input. rewrite (proj1 (c69_value _ _ z R P S nv)). unfold make_run. rewrite make_load_ok. cbn [fst].
    pose proof (loads_empty nv (wants_url f) input) as L. split; intros A.
    - apply L in A. unfold make_process. rewrite (c19_small nv _ z M A). reflexivity.
    - destruct (loads nv (line_loads nv (wants_url f) input)) as [|x l]; [reflexivity|]. exfalso. apply A, L. discriminate.
  Qed.
  Lemma c69_enough : forall bytes bs z, reads bytes bs -> proper lower bs -> says lower bs z -> (2 <= z)%Z -> forall nv f input,
    exists out, make_main lower nv (Some bytes) f input = COk out /\ make_run nv z f input = Ok out.
  Proof.
    intros bytes bs z R P S M nv f input. destruct (c34_run nv z f input M) as (out & E). exists out. split; [|exact E].
    rewrite (proj1 (c69_value _ _ z R P S nv)), E. reflexivity.
  Qed.
End Main.

(** ** A file with most of what can be in one *)
Definition lw : str -> str := map lower_char.
Lemma lw_ok : lowers lw.
Proof. split; [reflexivity|]. intros [|c s] H; [reflexivity|discriminate]. Qed.
Definition case_file : str :=
  u "# x" ++ [10%N] ++ u "[DEFAULT]" ++ [13%N; 10%N] ++ u "min_cluster_num = 7" ++ [10%N] ++ u "ten: 1%(zero)s" ++ [10%N]
  ++ u "[make] tail" ++ [10%N; 10%N] ++ u "  Zero=0" ++ [13%N] ++ u " MIN_Cluster_num =" ++ [10%N] ++ u "  ; y" ++ [10%N] ++ u "  %(TEN)s ".
Definition case_blocks : list block :=
  [Head (u "DEFAULT"); Opt (u "min_cluster_num") [u "7"]; Opt (u "ten") [u "1%(zero)s"]; Head (u "make"); Opt (u "Zero") [u "0"];
   Opt (u "MIN_Cluster_num") [[]; u "%(TEN)s"]].
Ltac show := apply shows_iff; split; [vm_compute; reflexivity|]; split; [vm_compute; discriminate|vm_compute; reflexivity].
Ltac not_comment := apply comment_no; vm_compute; reflexivity.
Lemma case_reads : reads case_file case_blocks.
Proof.
  exists case_file, (text_lines case_file). split; [vm_compute; reflexivity|]. split; [apply text_lines_ok|].
  exists [u "# x" ++ [10%N]], (tl (text_lines case_file)). split; [vm_compute; reflexivity|]. split.
  { constructor; [|constructor]. right. exists 0%nat, (u "# x"). split; [show|]. eexists. left. vm_compute. reflexivity. }
  unfold case_blocks.
  assert (tl (text_lines case_file) = [u "[DEFAULT]" ++ [10%N]; u "min_cluster_num = 7" ++ [10%N]; u "ten: 1%(zero)s" ++ [10%N]; u "[make] tail" ++ [10%N]; [10%N];
    u "  Zero=0" ++ [10%N]; u " MIN_Cluster_num =" ++ [10%N]; u "  ; y" ++ [10%N]; u "  %(TEN)s "]) as -> by (vm_compute; reflexivity).
  eapply (laid_head _ _ 0 (u "[DEFAULT]") _ []); [show|not_comment|exact I|apply header_iff; vm_compute; reflexivity|constructor|].
  eapply (laid_opt _ _ 0 (u "min_cluster_num = 7") _ _ [] []); [show|not_comment|exact I|apply header_none; vm_compute; reflexivity| |constructor|].
  { apply setting_iff. eexists _, _. split; [vm_compute; reflexivity|]. split; [vm_compute; reflexivity|]. split; [discriminate|vm_compute; reflexivity]. }
  eapply (laid_opt _ _ 0 (u "ten: 1%(zero)s") _ _ [] []); [show|not_comment|cbn; lia|apply header_none; vm_compute; reflexivity| |constructor|].
  { apply setting_iff. eexists _, _. split; [vm_compute; reflexivity|]. split; [vm_compute; reflexivity|]. split; [discriminate|vm_compute; reflexivity]. }
  eapply (laid_head _ _ 0 (u "[make] tail") _ [[10%N]]); [show|not_comment|cbn; lia|apply header_iff; vm_compute; reflexivity| |].
  { constructor; [|constructor]. left. constructor; [cbv; tauto|constructor]. }
  eapply (laid_opt _ _ 2 (u "Zero=0") _ _ [] []); [show|not_comment|exact I|apply header_none; vm_compute; reflexivity| |constructor|].
  { apply setting_iff. eexists _, _. split; [vm_compute; reflexivity|]. split; [vm_compute; reflexivity|]. split; [discriminate|vm_compute; reflexivity]. }
  eapply (laid_opt _ _ 1 (u "MIN_Cluster_num =") _ _ [_; _] [_] []); [show|not_comment|cbn; lia|apply header_none; vm_compute; reflexivity| | |constructor].
  { apply setting_iff. eexists _, _. split; [vm_compute; reflexivity|]. split; [vm_compute; reflexivity|]. split; [discriminate|vm_compute; reflexivity]. }
  eapply (more_comment _ _ 2 (u "; y")); [show|eexists; right; vm_compute; reflexivity|].
  eapply (more_text _ _ 2 (u "%(TEN)s")); [show|not_comment|lia|constructor].
Qed.
Lemma case_proper : proper lw case_blocks.
Proof.
  split; [exact I|]. split.
  - vm_compute. repeat (constructor; [cbv; intuition discriminate|]). constructor.
  - vm_compute. repeat (constructor; [cbv; intuition discriminate|]). constructor.
Qed.
Lemma case_value : forall vs, value vs (rskip uspace (join [10%N] vs)).
Proof. intros vs. apply value_iff. reflexivity. Qed.
Lemma case_says : says lw case_blocks 10.
Proof.
  exists ([10%N] ++ u "%(TEN)s"), ([10%N] ++ u "10"). split; [|split; [|apply py_int_iff; vm_compute; reflexivity]].
  - left. do 3 constructor. do 2 constructor. apply (sets_here lw _ (u "MIN_Cluster_num") [[]; u "%(TEN)s"]). exact (case_value [[]; u "%(TEN)s"]).
  - constructor; [lia|]. change (u "%(TEN)s") with ([37%N; 40%N] ++ u "TEN" ++ [41%N; 115%N] ++ []). change (u "10") with (u "10" ++ []).
    apply (ex_ref lw _ 8 (u "TEN") (u "1%(zero)s")); [discriminate|cbv; intuition discriminate| |cbv; tauto| |constructor].
    + right. split.
      * intros w H. apply sets_names in H. cbv in H. intuition discriminate.
      * right. split; [discriminate|]. constructor. apply sets_later. apply (sets_here lw _ (u "ten") [u "1%(zero)s"]). exact (case_value [u "1%(zero)s"]).
    + change (expands lw (known lw case_blocks) 8 (49%N :: [37%N; 40%N] ++ u "zero" ++ [41%N; 115%N] ++ []) (49%N :: u "0" ++ [])).
      apply ex_char; [lia|]. apply (ex_plain lw _ 8 (u "zero") (u "0")); [discriminate|cbv; intuition discriminate| |cbv; intuition discriminate|constructor].
      left. do 4 constructor. apply (sets_here lw _ (u "Zero") [u "0"]). exact (case_value [u "0"]).
Qed.
