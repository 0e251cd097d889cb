(** The patterns of clusters: what they match, how they parse. *)
From Coq Require Import String.
From Verif Require Import PyStr Defs UrlLib ParseUtils Spec Views Trees Cluster Patterns Matcher Observe PyStrProofs DefsProofs DictProofs RegexProofs PieceProofs LengthProofs UnitProofs QueryProofs PackProofs TokProofs EntProofs FlatCluster ViewProofs OuterLevel.
From Coq Require Import Lia Permutation.

(** the units of a pattern: a run, or the class of a group of runs with a fixed
    or an open length *)
Inductive uitem := UL (rw : run) | UC (wild : bool) (g : list run).
Definition uruns (x : uitem) : list run := match x with UL rw => [rw] | UC _ g => g end.
Definition uquant (wild : bool) (g : list run) : option N := if wild then None else Some (TokProofs.pl (cat g)).
Definition upu (x : uitem) : punit :=
  match x with
  | UL rw => PU (render rw) [fst rw] (Z.of_nat (length (snd rw)))
  | UC w g => PU (unit_str (List.concat (cset (cat g))) (uquant w g)) (cset (cat g)) (znum (uquant w g))
  end.
Definition ustr (x : uitem) : str := pu_str (upu x).
Definition uok (x : uitem) : Prop := match x with UL _ => True | UC _ g => g <> [] end.
Definition upat (s P : str) (us : list uitem) : Prop :=
  List.concat (map uruns us) = runs s /\ Forall uok us /\ P = List.concat (map ustr us).

Lemma opat_upat : forall s P, all_legal s -> opat s P -> exists us, upat s P us.
Proof.
  intros s P L (gs & Ps & G & F & ->). pose proof (groups_ok s gs L G) as GO. unfold groups in G.
  assert (X : exists us, List.concat (map uruns us) = List.concat gs /\ Forall uok us /\ List.concat Ps = List.concat (map ustr us)).
  { clear G. revert Ps F. induction GO as [|g gs [R LG] GO IH]; intros Ps F.
    - inversion F; subst. exists []. split; [reflexivity|]. split; [constructor|reflexivity].
    - cbn [map] in F. inversion F as [|? q ? Ps' H F']; subst. destruct (IH Ps' F') as (us & A & B & C). destruct H as (k & K & ->).
      assert (NE : k <> KLit -> g <> []). { intros NK ->. destruct k; [congruence|destruct K as [K _]; apply K; reflexivity|apply K; reflexivity]. }
      destruct k.
      + exists (map UL g ++ us). rewrite !map_app, !concat_app, A. split.
        * cbn [List.concat]. f_equal. rewrite map_map. clear. induction g as [|x g IH]; [reflexivity|]. cbn [map List.concat uruns app] in *. f_equal. exact IH.
        * split; [apply Forall_app; split; [|exact B]; rewrite Forall_map; apply Forall_forall; intros; exact Logic.I|].
          cbn [List.concat]. rewrite C. f_equal. cbn [pstr]. unfold piece, pp_of. cbn [pieces]. rewrite R, map_map. reflexivity.
      + exists (UC false g :: us). cbn [map List.concat uruns]. rewrite A, C. split; [reflexivity|]. split; [constructor; [apply NE; discriminate|exact B]|reflexivity].
      + exists (UC true g :: us). cbn [map List.concat uruns]. rewrite A, C. split; [reflexivity|]. split; [constructor; [apply NE; discriminate|exact B]|reflexivity]. }
  destruct X as (us & A & B & C). exists us. unfold upat. rewrite A, <- C. auto.
Qed.

(** ** regular expressions *)
Lemma cset_mem : forall s, all_legal s -> Forall (fun c => set_mem c (map rule_item (cset s)) = true) s.
Proof.
  intros s L. apply Forall_forall. intros c I. apply set_mem_rules; [apply cset_rules; exact L|].
  unfold all_legal in L. rewrite Forall_forall in L. destruct (L c I) as [r Hr]. exists r. split; [|exact Hr].
  apply cset_chars; [apply Forall_forall; exact L|]. eauto.
Qed.
Lemma cset_non : forall s, all_legal s -> s <> [] -> cset s <> [].
Proof. intros s L N E. apply N. apply cset_nil; assumption. Qed.
Lemma cls_matches : forall s q, all_legal s -> s <> [] -> (q = None \/ q = Some (N.of_nat (length s))) ->
  regex_matches (unit_str (List.concat (cset s)) q) s.
Proof.
  intros s q L N Q. eexists. split; [apply rparse_unit; [apply cset_non; assumption|apply cset_rules; exact L]|].
  exists s, []. rewrite app_nil_r. split; [reflexivity|]. split; [apply cset_mem; exact L|]. split; [|reflexivity].
  cbn [rnum]. destruct Q as [->| ->]; [exact N|reflexivity].
Qed.
Lemma upat_parts : forall s P us, all_legal s -> upat s P us -> List.concat (map (fun x => cat (uruns x)) us) = s /\ Forall (fun x => all_legal (cat (uruns x)) /\ runs (cat (uruns x)) = uruns x) us /\ Forall (fun rw => run_ok rw) (List.concat (map uruns us)).
Proof.
  intros s P us L (A & _ & _). assert (G : groups s (map uruns us)) by exact A. pose proof (groups_ok _ _ L G) as GO. pose proof (groups_concat _ _ L G) as GC.
  rewrite map_map in GC. split; [exact GC|]. rewrite Forall_map in GO. split; [eapply Forall_impl; [|exact GO]; intros x [X Y]; split; assumption|].
  rewrite A. apply (runs_spec s L).
Qed.
Lemma cat_nil : forall g, Forall run_ok g -> cat g = [] -> g = [].
Proof.
  intros [|rw g] F E; [reflexivity|]. inversion F as [|? ? [N _] _]; subst. unfold cat in E. cbn [map List.concat] in E. apply app_eq_nil in E. destruct E. contradiction.
Qed.
Lemma upat_matches : forall s P us, all_legal s -> ~ In 92%N s -> upat s P us -> regex_matches P s.
Proof.
  intros s P us L B U. pose proof (upat_parts s P us L U) as (C & LG & RO). destruct U as (A & OK & ->). rewrite <- C in B |- *. clear C A L s.
  induction us as [|x us IH]; [apply regex_matches_nil|]. cbn [map List.concat] in *. inversion OK as [|? ? O1 O2]; subst. inversion LG as [|? ? [L1 R1] L2]; subst.
  apply Forall_app in RO. destruct RO as [RO1 RO2]. apply regex_matches_app; [|apply IH; auto; intros I; apply B; apply in_app_iff; right; exact I].
  assert (B1 : ~ In 92%N (cat (uruns x))) by (intros I; apply B; apply in_app_iff; left; exact I). clear - L1 R1 RO1 O1 B1.
  destruct x as [rw|w g]; cbn [uruns] in *.
  - inversion RO1 as [|? ? H _]; subst. unfold ustr. cbn [upu pu_str]. unfold cat. cbn [map List.concat]. rewrite app_nil_r. exists (run_toks rw). split; [apply rparse_run; exact H|]. apply run_toks_match; [exact H|reflexivity].
  - unfold ustr. cbn [upu pu_str]. apply cls_matches; [exact L1|intros E; apply O1; apply cat_nil; assumption|].
    unfold uquant, TokProofs.pl. destruct w; [left; reflexivity|right]. rewrite bs_starts_zero by exact B1. rewrite Nat.add_0_r. reflexivity.
Qed.

(** ** parsing *)
Fixpoint safe (p : char) (r : str) : bool :=
  match r with
  | [] => negb (N.eqb p BACKSLASH)
  | c :: t => negb (N.eqb c BRACKETS_R && negb (N.eqb p BACKSLASH)) && safe c t
  end.
Fixpoint lastc (p : char) (r : str) : char := match r with [] => p | c :: t => lastc c t end.
Lemma scan_close_safe : forall r p t, safe p r = true ->
  scan_close p (r ++ t) = match scan_close (lastc p r) t with Some (a, b) => Some (r ++ a, b) | None => None end.
Proof.
  induction r as [|c r IH]; intros p t S.
  - cbn [app lastc]. destruct (scan_close p t) as [[a b]|]; reflexivity.
  - cbn [safe] in S. apply andb_true_iff in S. destruct S as [S1 S2]. cbn [app scan_close lastc]. destruct (N.eqb c BRACKETS_R && negb (N.eqb p BACKSLASH)); [discriminate|].
    rewrite IH by exact S2. destruct (scan_close (lastc c r) t) as [[a b]|]; reflexivity.
Qed.
Lemma safe_last : forall r p, safe p r = true -> N.eqb (lastc p r) BACKSLASH = false.
Proof.
  induction r as [|c r IH]; intros p S; cbn [safe lastc] in *.
  - apply negb_true_iff. exact S.
  - apply andb_true_iff in S. apply IH. apply S.
Qed.
Definition BSRULE : str := [BACKSLASH; BACKSLASH].
Lemma rule_safe : forall r p, in_rules r = true -> r <> BSRULE -> N.eqb p BACKSLASH = false -> safe p r = true.
Proof.
  intros r p R B P.
  assert (X : Forall (fun r => r = BSRULE \/ forall p, N.eqb p BACKSLASH = false -> safe p r = true) RULES).
  { assert (Q : forall r0 : str, match r0 with
       | [] => true
       | c :: t => negb (N.eqb c BRACKETS_R) && safe c t
       end = true -> forall p, N.eqb p BACKSLASH = false -> safe p r0 = true).
    { intros [|c t] H p0 P0; cbn [safe]; [rewrite P0; reflexivity|]. apply andb_true_iff in H. destruct H as [H1 H2].
      rewrite H2, andb_true_r. apply negb_true_iff in H1. rewrite H1. reflexivity. }
    assert (Y : forallb (fun r => str_eqb r BSRULE || match r with [] => true | c :: t => negb (N.eqb c BRACKETS_R) && safe c t end) RULES = true) by (vm_compute; reflexivity).
    rewrite forallb_forall in Y. apply Forall_forall. intros r0 I. apply Y in I. apply orb_true_iff in I. destruct I as [I|I]; [left; apply str_eqb_eq; exact I|right; apply Q; exact I]. }
  rewrite Forall_forall in X. apply str_in_In in R. destruct (X r R) as [E|E]; [contradiction|]. apply E. exact P.
Qed.
Lemma safe_app : forall a b p, safe p a = true -> safe (lastc p a) b = true -> safe p (a ++ b) = true.
Proof.
  induction a as [|c a IH]; intros b p A B; [exact B|]. cbn [app safe lastc] in *. apply andb_true_iff in A. destruct A as [A1 A2]. rewrite A1. cbn [andb]. apply IH; assumption.
Qed.
Lemma rules_safe : forall rs p, Forall (fun r => in_rules r = true) rs -> ~ In BSRULE rs -> N.eqb p BACKSLASH = false -> safe p (List.concat rs) = true.
Proof.
  induction rs as [|r rs IH]; intros p F B P; cbn [List.concat].
  - cbn [safe]. rewrite P. reflexivity.
  - inversion F; subst. assert (S : safe p r = true) by (apply rule_safe; [assumption|intros E; apply B; left; exact E|exact P]).
    apply safe_app; [exact S|]. apply IH; [assumption|intros I; apply B; right; exact I|]. apply safe_last. exact S.
Qed.
Lemma dec_quant : forall q, is_quant (qstr q).
Proof.
  intros [n|]; unfold qstr.
  - destruct (N.eqb n 1); [left; reflexivity|]. right. right. exists (dec_str n). split; [reflexivity|]. split; [apply dec_str_isdigit|].
    apply dec_str_no. reflexivity.
  - right. left. reflexivity.
Qed.
Lemma class_kind : forall rs q, Forall (fun r => in_rules r = true) rs -> ~ In BSRULE rs -> kind (unit_str (List.concat rs) q) None.
Proof.
  intros rs q F B. constructor. exists (List.concat rs ++ [BRACKETS_R]), (qstr q). split; [unfold unit_str; rewrite <- app_assoc; reflexivity|]. split; [|apply dec_quant].
  intros t. rewrite <- app_assoc. assert (S : safe BRACKETS_L (List.concat rs) = true) by (apply rules_safe; [exact F|exact B|reflexivity]).
  rewrite scan_close_safe by exact S. cbn [app scan_close]. rewrite (safe_last _ _ S). reflexivity.
Qed.
Lemma bs_rule : forall c, char_rule c = Some BSRULE -> c = 92%N.
Proof.
  intros c H. assert (S : in_sign_rules BSRULE = true) by reflexivity. apply (sign_rule_inj c 92%N BSRULE); [exact H|reflexivity|exact S].
Qed.
Lemma cset_no_bs : forall s, all_legal s -> ~ In 92%N s -> ~ In BSRULE (cset s).
Proof. intros s L B I. apply cset_chars in I; [|exact L]. destruct I as (c & I & R). apply bs_rule in R. subst. contradiction. Qed.
Lemma sign_or_alnum : forall r, in_rules r = true -> in_sign_rules r = false -> in_digit_ascii r = true.
Proof.
  intros r R S. apply str_in_In in R. assert (X : forallb (fun r => in_sign_rules r || in_digit_ascii r) RULES = true) by (vm_compute; reflexivity).
  rewrite forallb_forall in X. apply X in R. rewrite S in R. exact R.
Qed.
Lemma run_kind : forall rw, run_ok rw -> ~ In 92%N (snd rw) -> kind (render rw) (if in_sign_rules (fst rw) then None else Some (fst rw)).
Proof.
  intros rw H B. unfold render. destruct (in_sign_rules (fst rw)) eqn:S.
  - pose proof (class_kind [fst rw] (Some (N.of_nat (length (snd rw))))) as X. cbn [List.concat] in X. rewrite app_nil_r in X. apply X.
    + constructor; [apply run_ok_in_rules; exact H|constructor].
    + intros [E|[]]. destruct H as [N F]. destruct (snd rw) as [|c w]; [congruence|]. inversion F as [|? ? Hc _]; subst. rewrite E in Hc. apply bs_rule in Hc. apply B. left. exact Hc.
  - constructor. split; [apply sign_or_alnum; [apply run_ok_in_rules; exact H|exact S]|]. destruct H as [N F]. split; assumption.
Qed.
Definition hd_ok (prev : option str) (l : list run) : Prop := match l with [] => True | rw :: _ => prev <> Some (fst rw) end.
Lemma upat_seps : forall us prev, Forall run_ok (List.concat (map uruns us)) -> adj' (List.concat (map uruns us)) -> Forall uok us ->
  Forall (fun x => all_legal (cat (uruns x)) /\ ~ In 92%N (cat (uruns x))) us -> hd_ok prev (List.concat (map uruns us)) -> seps prev (map ustr us).
Proof.
  induction us as [|x us IH]; intros prev RO AD OK LB HD; [exact Logic.I|]. cbn [map List.concat] in *. apply Forall_app in RO. destruct RO as [RO1 RO2].
  inversion OK as [|? ? O1 O2]; subst. inversion LB as [|? ? [L1 B1] LB2]; subst.
  assert (AD2 := adj'_app_r _ _ AD). cbn [seps]. destruct x as [rw|w g]; cbn [uruns] in *.
  - inversion RO1 as [|? ? Hr _]; subst. unfold cat in B1. cbn [map List.concat] in B1. rewrite app_nil_r in B1.
    exists (if in_sign_rules (fst rw) then None else Some (fst rw)). split; [apply run_kind; assumption|]. split.
    + cbn [hd_ok app] in HD. intros NP. destruct (in_sign_rules (fst rw)); congruence.
    + apply IH; try assumption. cbn [app adj'] in AD. destruct (List.concat (map uruns us)) as [|b l]; [exact Logic.I|]. cbn [hd_ok]. destruct AD as [AD _].
      destruct (in_sign_rules (fst rw)); congruence.
  - exists None. split; [apply class_kind; [apply cset_rules; exact L1|apply cset_no_bs; assumption]|]. split; [congruence|].
    apply IH; try assumption. destruct (List.concat (map uruns us)); [exact Logic.I|]. cbn [hd_ok]. discriminate.
Qed.
Lemma cset_length : forall s, all_legal s -> (length (cset s) <= length s)%nat.
Proof.
  intros s L. rewrite <- (map_length (fun c => match char_rule c with Some r => r | None => [] end) s). apply NoDup_incl_length.
  - apply sorted_NoDup. apply sorted_set_sorted.
  - intros r I. apply cset_chars in I; [|exact L]. destruct I as (c & I & R). apply in_map_iff. exists c. rewrite R. auto.
Qed.
Lemma cset_sorted : forall s, sorted_set (cset s) = cset s.
Proof. intros. apply sorted_set_id. apply sorted_set_sorted. Qed.
Lemma mk_upu : forall x, uok x -> Forall run_ok (uruns x) -> all_legal (cat (uruns x)) -> mk_unit (ustr x) = Ok (upu x).
Proof.
  intros [rw|w g] OK RO L; cbn [uruns] in *; unfold mk_unit, ustr; cbn [upu pu_str].
  - inversion RO as [|? ? H _]; subst. unfold render. destruct (in_sign_rules (fst rw)) eqn:S.
    + pose proof (parse_unit_class [fst rw] (Some (N.of_nat (length (snd rw))))) as X. cbn [List.concat] in X. rewrite app_nil_r in X. rewrite X.
      * cbn [bind znum]. change (sorted_set [fst rw]) with [fst rw]. rewrite nat_N_Z. reflexivity.
      * constructor; [apply run_ok_in_rules; exact H|constructor].
      * change (sorted_set [fst rw]) with [fst rw]. destruct H as [N _]. destruct (snd rw); [congruence|]. cbn [length]. lia.
    + rewrite (parse_unit_lit (snd rw) (fst rw)); [reflexivity| | |].
      * apply H.
      * apply H.
      * apply sign_or_alnum; [apply run_ok_in_rules; exact H|exact S].
  - cbn [uok] in OK. rewrite parse_unit_class.
    + rewrite cset_sorted. reflexivity.
    + apply cset_rules. exact L.
    + rewrite cset_sorted. unfold uquant. destruct w; [exact Logic.I|]. pose proof (cset_length _ L) as LE. unfold TokProofs.pl.
      assert (N : cat g <> []) by (intros E; apply OK; apply cat_nil; assumption). destruct (cat g) as [|c r]; [congruence|]. cbn [length] in *. lia.
Qed.
Lemma upat_units : forall s P us, all_legal s -> ~ In 92%N s -> s <> [] -> upat s P us -> pattern_units P = Ok (map upu us).
Proof.
  intros s P us L B N U. pose proof (upat_parts s P us L U) as (C & LG & RO). destruct U as (A & OK & ->).
  assert (UN : us <> []). { intros ->. cbn in C. congruence. }
  assert (LB : Forall (fun x => all_legal (cat (uruns x)) /\ ~ In 92%N (cat (uruns x))) us).
  { rewrite Forall_forall in LG |- *. intros x I. destruct (LG x I) as [L1 _]. split; [exact L1|]. intros J. apply B. rewrite <- C. apply in_concat. exists (cat (uruns x)).
    split; [apply in_map_iff; exists x; auto|exact J]. }
  assert (AD : adj' (List.concat (map uruns us))) by (rewrite A; apply (runs_spec s L)).
  unfold pattern_units. rewrite parse_pattern_string_forward.
  - cbn [bind]. assert (RX : Forall (fun x => Forall run_ok (uruns x)) us).
    { rewrite Forall_forall in RO |- *. intros x I. apply Forall_forall. intros rw J. apply RO. apply in_concat. exists (uruns x). split; [apply in_map; exact I|exact J]. }
    clear - OK RX LG. induction us as [|x us IH]; [reflexivity|]. inversion OK; inversion RX; inversion LG as [|? ? [L1 _] L2]; subst. cbn [map mapM].
    rewrite mk_upu by assumption. cbn [bind]. rewrite IH by assumption. reflexivity.
  - intros E. apply map_eq_nil in E. contradiction.
  - apply upat_seps; try assumption. destruct (List.concat (map uruns us)); [exact Logic.I|]. cbn [hd_ok]. discriminate.
Qed.
Lemma upat_empty : forall P us, upat [] P us -> P = [].
Proof.
  intros P us (A & OK & ->). change (runs []) with (@nil run) in A. destruct us as [|x us]; [reflexivity|]. exfalso. cbn [map List.concat] in A. apply app_eq_nil in A. destruct A as [A _].
  inversion OK; subst. destruct x; [discriminate|]. cbn in *. contradiction.
Qed.
Lemma upat_fuzzy : forall s P us, all_legal s -> upat s P us -> units_fuzzy (map upu us) = List.concat (cset s).
Proof.
  intros s P us L U. pose proof (upat_parts s P us L U) as (_ & LG & _). destruct U as (A & _ & _). unfold units_fuzzy, cset. f_equal. apply sorted_set_ext. unfold pp_of. cbn [rules]. rewrite <- A.
  intros r. rewrite in_flat_map, in_map_iff. split.
  - intros (u0 & I & J). apply in_map_iff in I. destruct I as (x & <- & I). rewrite Forall_forall in LG. destruct (LG x I) as [_ RX].
    destruct x as [rw|w g]; cbn [upu pu_rules uruns] in *.
    + destruct J as [<-|[]]. exists rw. split; [reflexivity|]. apply in_concat. exists [rw]. split; [apply in_map_iff; exists (UL rw); auto|left; reflexivity].
    + unfold cset in J. apply (proj1 (sorted_set_In _ _)) in J. unfold pp_of in J. cbn [rules] in J. rewrite RX in J. apply in_map_iff in J. destruct J as (rw & <- & J). exists rw. split; [reflexivity|].
      apply in_concat. exists g. split; [apply in_map_iff; exists (UC w g); auto|exact J].
  - intros (rw & <- & I). apply in_concat in I. destruct I as (g & I & J). apply in_map_iff in I. destruct I as (x & <- & I). exists (upu x). split; [apply in_map; exact I|].
    rewrite Forall_forall in LG. destruct (LG x I) as [_ RX]. destruct x as [rw'|w g]; cbn [upu pu_rules uruns] in *.
    + destruct J as [->|[]]. left. reflexivity.
    + unfold cset. apply sorted_set_In. unfold pp_of. cbn [rules]. rewrite RX. apply in_map. exact J.
Qed.

(** ** delimiters *)
Lemma delim_rule : forall c r, In c (u "/?#&=") -> in_rules r = true -> In c r -> char_rule c = Some r.
Proof.
  intros c r D R I. apply str_in_In in R.
  assert (X : forallb (fun c => forallb (fun r => negb (char_in c r) || match char_rule c with Some r' => str_eqb r' r | None => false end) RULES) (u "/?#&=") = true) by (vm_compute; reflexivity).
  rewrite forallb_forall in X. specialize (X c D). rewrite forallb_forall in X. specialize (X r R). apply char_in_In in I. rewrite I in X. cbn [negb orb] in X.
  destruct (char_rule c) as [r'|]; [|discriminate]. apply str_eqb_eq in X. congruence.
Qed.
Lemma delim_cls : forall c rs q, In c (u "/?#&=") -> Forall (fun r => in_rules r = true) rs -> In c (unit_str (List.concat rs) q) -> exists r, In r rs /\ char_rule c = Some r.
Proof.
  intros c rs q D F I. assert (DN : forall x, In x (u "/?#&=") -> x <> BRACKETS_L /\ x <> BRACKETS_R /\ x <> PLUS /\ x <> BRACES_L /\ x <> BRACES_R /\ is_digit x = false).
  { intros x. cbn. intros [<-|[<-|[<-|[<-|[<-|[]]]]]]; vm_compute; intuition discriminate. }
  destruct (DN c D) as (N1 & N2 & N3 & N4 & N5 & N6). unfold unit_str in I. destruct I as [I|I]; [congruence|]. apply in_app_or in I. destruct I as [I|[I|I]]; [|congruence|].
  - apply in_concat in I. destruct I as (r & I & J). exists r. split; [exact I|]. rewrite Forall_forall in F. apply delim_rule; auto.
  - exfalso. unfold qstr in I. destruct q as [n|]; [|destruct I as [I|[]]; congruence]. destruct (N.eqb n 1); [destruct I|]. destruct I as [I|I]; [congruence|].
    apply in_app_or in I. destruct I as [I|[I|[]]]; [|congruence]. exact (dec_str_no c n N6 I).
Qed.
Lemma rule_char_in : forall s c r, all_legal s -> In r (cset s) -> in_sign_rules r = true -> char_rule c = Some r -> In c s.
Proof. intros s c r L I S R. apply cset_chars in I; [|exact L]. destruct I as (d & I & R'). rewrite (sign_rule_inj c d r R R' S). exact I. Qed.
Lemma delim_sign : forall c r, In c (u "/?#&=") -> char_rule c = Some r -> in_sign_rules r = true.
Proof. intros c r. cbn. intros [<-|[<-|[<-|[<-|[<-|[]]]]]] H; vm_compute in H; inversion H; reflexivity. Qed.
Lemma upat_fits : forall s P us, all_legal s -> upat s P us -> Spec.fits s P.
Proof.
  intros s P us L U. pose proof U as U'. pose proof (upat_parts s P us L U) as (C & LG & RO). destruct U as (A & OK & E). split.
  - intros c D I. rewrite E in I. apply in_concat in I. destruct I as (w & I & J). apply in_map_iff in I. destruct I as (x & <- & I). rewrite <- C. apply in_concat. exists (cat (uruns x)).
    split; [apply in_map_iff; exists x; auto|]. rewrite Forall_forall in LG. destruct (LG x I) as [L1 RX].
    assert (RR : Forall run_ok (uruns x)). { rewrite Forall_forall in RO |- *. intros rw Z. apply RO. apply in_concat. exists (uruns x). split; [apply in_map; exact I|exact Z]. }
    destruct x as [rw|wd g]; cbn [uruns] in *; unfold ustr in J; cbn [upu pu_str] in J.
    + inversion RR as [|? ? H _]; subst. unfold cat. cbn [map List.concat]. rewrite app_nil_r. unfold render in J. destruct (in_sign_rules (fst rw)) eqn:S; [|exact J].
      pose proof (delim_cls c [fst rw] (Some (N.of_nat (length (snd rw)))) D) as X. cbn [List.concat] in X. rewrite app_nil_r in X. destruct X as (r & [<-|[]] & R); [constructor; [apply run_ok_in_rules; exact H|constructor]|exact J|].
      destruct H as [N F]. destruct (snd rw) as [|d w]; [congruence|]. inversion F as [|? ? Hd _]; subst. left. apply (sign_rule_inj d c (fst rw) Hd R S).
    + destruct (delim_cls c _ _ D (cset_rules _ L1) J) as (r & IR & R). apply (rule_char_in _ c r L1 IR (delim_sign c r D R) R).
  - split.
    + intros ->. symmetry in E. destruct us as [|x us]; [cbn in C; congruence|]. exfalso. cbn [map List.concat] in E. apply app_eq_nil in E. destruct E as [E _].
      cbn [map List.concat] in RO. apply Forall_app in RO. destruct RO as [RO _]. destruct x as [rw|wd g]; unfold ustr in E; cbn [upu pu_str uruns] in *; [|discriminate].
      inversion RO as [|? ? [N _] _]; subst. unfold render in E. destruct (in_sign_rules (fst rw)); [discriminate|contradiction].
    + intros ->. eapply upat_empty. exact U'.
Qed.
