(** The programs as filters of files (C63). *)
From Coq Require Import String.
From Verif Require Import PyStr Defs UrlLib ParseUtils Spec Views Trees Cluster Patterns Matcher Maker Format Cmd Files FileSpec Observe MatchSpec OwnSpec OrderSpec CmdSpec JsonSpec OutSpec PyStrProofs LoadProofs CmdProofs Utf8 CmdMatch Pipe JsonProofs OutProofs.
From Coq Require Import Lia.

(** ** lines *)
Lemma lines_concat : forall b, List.concat (file_lines b) = b.
Proof.
  induction b as [|c r IH]; [reflexivity|]. cbn [file_lines]. destruct (N.eqb c 10); [cbn [List.concat]; rewrite IH; reflexivity|].
  destruct (file_lines r) as [|l ls]; cbn [List.concat] in *; rewrite <- IH; reflexivity.
Qed.
Lemma lines_cut : forall x r, ~ In 10%N x -> file_lines (x ++ 10%N :: r) = (x ++ [10%N]) :: file_lines r.
Proof.
  induction x as [|c x IH]; intros r NI; [reflexivity|]. cbn [app file_lines]. destruct (N.eqb_spec c 10) as [->|NE]; [destruct NI; left; reflexivity|].
  rewrite IH; [reflexivity|]. intro I. apply NI. right. exact I.
Qed.
Lemma lines_rest : forall x, ~ In 10%N x -> x <> [] -> file_lines x = [x].
Proof.
  induction x as [|c x IH]; intros NI NE; [destruct (NE eq_refl)|]. cbn [file_lines]. destruct (N.eqb_spec c 10) as [->|NC]; [destruct NI; left; reflexivity|].
  destruct x as [|d x]; [reflexivity|]. rewrite IH; [reflexivity| |discriminate]. intro I. apply NI. right. exact I.
Qed.
Lemma first_line : forall b, ~ In 10%N b \/ exists x r, b = x ++ 10%N :: r /\ ~ In 10%N x.
Proof.
  induction b as [|c b [NI|(x & r & -> & NI)]]; [left; exact (fun H => H)| |]; destruct (N.eq_dec c 10) as [->|NC].
  - right. exists [], b. split; [reflexivity|exact (fun H => H)].
  - left. intros [X|X]; [exact (NC X)|exact (NI X)].
  - right. exists [], (x ++ 10%N :: r). split; [reflexivity|exact (fun H => H)].
  - right. exists (c :: x), r. split; [reflexivity|]. intros [X|X]; [exact (NC X)|exact (NI X)].
Qed.
Lemma lines_of_nil : lines_of [] [].
Proof. split; [reflexivity|]. intros [|x0 l0] y after E; discriminate E. Qed.
Lemma lines_of_cons : forall x r ls, ~ In 10%N x -> lines_of r ls -> lines_of (x ++ 10%N :: r) ((x ++ [10%N]) :: ls).
Proof.
  intros x r ls NI [C A]. split; [cbn [List.concat]; rewrite C, <- app_assoc; reflexivity|].
  intros [|y before] l after E; cbn [app] in E; inversion E; subst.
  - split; [destruct x; discriminate|]. exists x. auto.
  - exact (A _ _ _ eq_refl).
Qed.
Lemma file_lines_ok : forall n b, length b <= n -> lines_of b (file_lines b).
Proof.
  induction n as [|n IH]; intros b L; [destruct b; [exact lines_of_nil|cbn [length] in L; lia]|].
  destruct (first_line b) as [NI|(x & r & -> & NI)].
  - destruct b as [|c b]; [exact lines_of_nil|]. rewrite lines_rest by (assumption || discriminate).
    split; [cbn [List.concat]; apply app_nil_r|]. intros [|y before] l after E; cbn [app] in E; inversion E; subst; [|destruct before; discriminate].
    split; [discriminate|]. exists (c :: b). auto.
  - rewrite lines_cut by exact NI. apply lines_of_cons; [exact NI|]. apply IH. rewrite app_length in L. cbn [length] in L. unfold str, char in *. lia.
Qed.
Lemma lines_of_unique : forall ls b, lines_of b ls -> ls = file_lines b.
Proof.
  induction ls as [|l ls IH]; intros b [C A]; cbn [List.concat] in C; subst b; [reflexivity|].
  destruct (A [] l ls eq_refl) as (NE & x & NI & D). assert (T : lines_of (List.concat ls) ls).
  { split; [reflexivity|]. intros before y after E. apply (A (l :: before) y after). rewrite E. reflexivity. }
  destruct D as [->|[-> ->]].
  - rewrite <- app_assoc. cbn [app]. rewrite lines_cut by exact NI. rewrite <- (IH _ T). reflexivity.
  - cbn [List.concat]. rewrite app_nil_r. symmetry. apply lines_rest; assumption.
Qed.
Theorem c63_lines : forall b ls, lines_of b ls <-> ls = file_lines b.
Proof. intros b ls. split; [apply lines_of_unique|]. intros ->. apply file_lines_ok with (n := length b). lia. Qed.
Lemma file_lines_file : forall b, Forall file_line (file_lines b).
Proof.
  intro b. apply Forall_forall. intros l I. destruct (file_lines_ok (length b) b (Nat.le_refl _)) as [_ A]. apply in_split in I. destruct I as (x & y & E).
  destruct (A x l y E) as (_ & c & NI & [->|[-> _]]); exists c; auto.
Qed.
Lemma input_file : forall files, Forall file_line (input_lines files).
Proof.
  intro files. apply Forall_forall. intros l I. unfold input_lines in I. apply in_concat in I. destruct I as (ls & IL & I). apply in_map_iff in IL. destruct IL as (b & <- & _).
  exact (proj1 (Forall_forall _ _) (file_lines_file b) l I).
Qed.
(** what is put out line by line *)
Lemma lines_out : forall bs, Forall (fun b => ~ In 10%N b) bs -> file_lines (List.concat (map (fun b => b ++ [10%N]) bs)) = map (fun b => b ++ [10%N]) bs.
Proof.
  induction bs as [|b bs IH]; intro F; [reflexivity|]. inversion F as [|? ? NI F']; subst. cbn [map List.concat]. rewrite <- app_assoc. cbn [app]. rewrite lines_cut by exact NI. rewrite IH by exact F'. reflexivity.
Qed.
Lemma lines_app_n : forall n a r, length a <= n -> file_lines ((a ++ [10%N]) ++ r) = file_lines (a ++ [10%N]) ++ file_lines r.
Proof.
  induction n as [|n IH]; intros a r L.
  - destruct a; [reflexivity|cbn [length] in L; lia].
  - destruct (first_line a) as [NI|(x & y & -> & NI)].
    + rewrite <- app_assoc. cbn [app]. rewrite (lines_cut a r) by exact NI. rewrite (lines_cut a []) by exact NI. reflexivity.
    + rewrite <- !app_assoc. cbn [app]. rewrite (lines_cut x (y ++ 10%N :: r)) by exact NI. rewrite (lines_cut x (y ++ [10%N])) by exact NI. cbn [app]. f_equal. specialize (IH y r). rewrite <- app_assoc in IH. apply IH. rewrite app_length in L. cbn [length] in L. unfold str, char in *. lia.
Qed.
Lemma c63_files : forall files rest, Forall whole_lines files -> input_lines (files ++ [rest]) = file_lines (List.concat files ++ rest).
Proof.
  intros files rest. unfold input_lines. rewrite map_app, concat_app. cbn [map List.concat]. rewrite app_nil_r. induction files as [|f files IH]; intro F; [reflexivity|].
  inversion F as [|? ? W F']; subst. cbn [map List.concat]. rewrite <- app_assoc, IH by exact F'. destruct W as [->|[b ->]]; [reflexivity|].
  etransitivity; [|symmetry; etransitivity; [apply f_equal; symmetry; apply app_assoc|apply lines_app_n with (n := length b); lia]]. reflexivity.
Qed.

(** ** UTF-8 and line feeds *)
Lemma char_lf : forall c w, utf8_char c = Ok w -> (In 10%N w <-> c = 10%N).
Proof.
  intros c w H. unfold utf8_char in H. destruct (N.ltb_spec c 128) as [A|A].
  - inversion H; subst w. cbn [In]. split; [intros [X|[]]; exact X|intros ->; left; reflexivity].
  - split; [|intros ->; exfalso; lia]. intro I. exfalso. assert (W : Forall (fun b => (128 <= b)%N) w).
    { repeat match type of H with (if ?b then _ else _) = _ => destruct b end; try discriminate H; apply ok_inj in H; subst w; clear; repeat (apply Forall_cons; [lia|]); apply Forall_nil. }
    apply (proj1 (Forall_forall _ _) W) in I. lia.
Qed.
Lemma encode_lf : forall s b, utf8_encode s = Ok b -> (In 10%N b <-> In 10%N s).
Proof.
  induction s as [|c s IH]; intros b H; [inversion H; subst; reflexivity|].
  unfold utf8_encode in H. cbn [mapM] in H. apply bind_ok in H. destruct H as (l & H & EQ). apply bind_ok in H. destruct H as (w & W & H). apply bind_ok in H. destruct H as (ws & WS & EL). inversion EL; subst l. inversion EQ; subst b. cbn [List.concat].
  rewrite in_app_iff, (char_lf c w W). rewrite (IH (List.concat ws)) by (unfold utf8_encode; rewrite WS; reflexivity). cbn [In]. reflexivity.
Qed.
(** a record that can be printed as one line *)
Definition fine (r : str) : Prop := ~ In 10%N r /\ exists b, utf8_encode r = Ok b.
Lemma fine_app : forall a b, fine a -> fine b -> fine (a ++ b).
Proof. intros a b [N1 (x & E1)] [N2 (y & E2)]. split; [rewrite in_app_iff; intros [X|X]; auto|]. exists (x ++ y). apply encode_app; assumption. Qed.
Lemma ascii_encode : forall r, Forall (fun c => (c < 128)%N) r -> utf8_encode r = Ok r.
Proof. induction 1 as [|c r C F IH]; [reflexivity|]. change (c :: r) with ([c] ++ r) at 2. apply encode_cons; [|exact IH]. unfold utf8_char. rewrite (proj2 (N.ltb_lt _ _) C). reflexivity. Qed.
Lemma fine_ascii : forall r, Forall (fun c => (32 <= c <= 126)%N) r -> fine r.
Proof.
  intros r F. split; [intro I; apply (proj1 (Forall_forall _ _) F) in I; lia|]. exists r. apply ascii_encode. eapply Forall_impl; [|exact F]. cbn beta. intros a A. lia.
Qed.
Lemma fine_tab : fine [9%N].
Proof. split; [intros [X|[]]; discriminate X|]. exists [9%N]. reflexivity. Qed.
Lemma fine_url : forall nv lines x, Forall file_line lines -> In x (line_urls nv lines) -> fine x.
Proof.
  intros nv lines x F I. unfold line_urls in I. apply in_flat_map in I. destruct I as (line & IL & I). unfold kind_of_line in I. destruct (forallb blank_byte line); [destruct I|].
  destruct (utf8_decode (strip line)) as [url|e] eqn:D; [|destruct I]. destruct (url_path nv url); [|destruct I]. destruct I as [<-|[]]. apply utf8_iff in D. split; [|eauto].
  rewrite <- (encode_lf _ _ D). pose proof (proj1 (Forall_forall _ _) F line IL) as FL. apply rstrip_file. apply lstrip_file. exact FL.
Qed.
Section Records.
  Context (nv : str -> bool) (mcn : Z) (lines : list str) (M : (2 <= mcn)%Z) (FL : Forall file_line lines).
  Lemma records_fine : forall f rs, make_run nv mcn f lines = Ok rs -> Forall fine rs.
  Proof.
    intros f rs E. destruct (c54 nv mcn lines M) as (blocks & SH & _ & IN & _).
    assert (V : Forall (fun b => fine (b_text b)) blocks).
    { destruct (SH FPattern) as (rss & EP & F2). destruct (make_out nv mcn lines _ M EP) as (cs & MK & EO).
      apply Forall_forall. intros b IB. assert (I : In (b_text b) (List.concat rss)).
      { clear - F2 IB. induction F2 as [|x rs' bl rl S0 F2 IH]; [destruct IB|]. cbn [List.concat]. apply in_or_app. destruct IB as [->|IB]; [left; cbn in S0; rewrite S0; left; reflexivity|right; exact (IH IB)]. }
      rewrite EO in I. apply in_map_iff in I. destruct I as ([m t] & EB & I). rewrite <- EB. apply fine_ascii. eapply Forall_impl; [|exact (cluster_ascii _ _ _ _ _ _ M MK I)]. cbn beta. intros a A. lia. }
    assert (U : forall b url, In b blocks -> In url (b_urls b) -> fine url).
    { intros b url IB IU. apply (fine_url nv lines); [exact FL|]. apply IN. apply in_concat. exists (b_urls b). split; [apply in_map; exact IB|exact IU]. }
    destruct f; try (destruct (SH FJson) as (rss & EP & F2)).
    - destruct (SH FPattern) as (rs1 & E1 & F3). rewrite E1 in E. inversion E; subst rs. clear - F3 V U. induction F3 as [|b r bl rl S0 F3 IH]; [constructor|]. inversion V; subst. cbn [List.concat]. apply Forall_app. split; [|apply IH; [assumption|intros; eapply U; [right; eassumption|assumption]]]. cbn [shows] in S0. rewrite S0. auto.
    - destruct (SH FCluster) as (rs1 & E1 & F3). rewrite E1 in E. inversion E; subst rs. clear - F3 V U. induction F3 as [|b r bl rl S0 F3 IH]; [constructor|]. inversion V; subst. cbn [List.concat]. apply Forall_app. split; [|apply IH; [assumption|intros; eapply U; [right; eassumption|assumption]]]. cbn [shows] in S0. rewrite S0. constructor; [assumption|]. apply Forall_forall. intros x I. apply in_map_iff in I. destruct I as (url & <- & I). change (9%N :: url) with ([9%N] ++ url). apply fine_app; [exact fine_tab|]. exact (U b url (or_introl eq_refl) I).
    - destruct (SH FInline) as (rs1 & E1 & F3). rewrite E1 in E. inversion E; subst rs. clear - F3 V U. induction F3 as [|b r bl rl S0 F3 IH]; [constructor|]. inversion V; subst. cbn [List.concat]. apply Forall_app. split; [|apply IH; [assumption|intros; eapply U; [right; eassumption|assumption]]]. cbn [shows] in S0. rewrite S0. apply Forall_forall. intros x I. apply in_map_iff in I. destruct I as (url & <- & I). change (9%N :: url) with ([9%N] ++ url). apply fine_app; [assumption|]. apply fine_app; [exact fine_tab|]. exact (U b url (or_introl eq_refl) I).
    - destruct (c44 nv mcn lines rs M E) as (cs & _ & F3). clear - F3. induction F3 as [|r c rl cl [_ A] F3 IH]; [constructor|]. constructor; [apply fine_ascii; exact A|exact IH].
    - destruct (SH FNull) as (rs1 & E1 & F3). rewrite E1 in E. inversion E; subst rs. clear - F3. induction F3 as [|b r bl rl S0 F3 IH]; [constructor|]. cbn [List.concat]. cbn [shows] in S0. rewrite S0. exact IH.
  Qed.
End Records.
Lemma print_fine : forall rs, Forall fine rs -> exists bs, mapM print_bytes rs = Ok (map (fun b => b ++ [10%N]) bs) /\ Forall2 (fun r b => utf8_encode r = Ok b /\ ~ In 10%N b) rs bs.
Proof.
  induction 1 as [|r rs [NI (b & E)] F (bs & IH & F2)]; [exists []; split; [reflexivity|constructor]|]. exists (b :: bs). cbn [mapM]. unfold print_bytes at 1. rewrite E. cbn [bind]. rewrite IH. cbn [bind map]. split; [reflexivity|]. constructor; [|exact F2]. split; [exact E|]. rewrite (encode_lf _ _ E). exact NI.
Qed.
Theorem c63_make : forall nv mcn f files, (2 <= mcn)%Z -> exists rs out, make_run nv mcn f (input_lines files) = Ok rs /\ make_bytes nv mcn f files = Ok out /\
  Forall2 (fun line r => exists b, line = b ++ [10%N] /\ utf8_decode b = Ok r /\ ~ In 10%N b /\ ~ In 10%N r) (file_lines out) rs.
Proof.
  intros nv mcn f files M. destruct (c34_run nv mcn f (input_lines files) M) as (rs & E). pose proof (records_fine nv mcn _ M (input_file files) f rs E) as F.
  destruct (print_fine rs F) as (bs & P & F2). exists rs, (List.concat (map (fun b => b ++ [10%N]) bs)). split; [exact E|]. split; [unfold make_bytes; rewrite E; cbn [bind]; rewrite P; reflexivity|].
  rewrite lines_out. 2:{ clear - F2. induction F2 as [|? ? ? ? [_ N0] F2 IH]; constructor; assumption. }
  clear - F2 F. induction F2 as [|r b rs bs [E0 N0] F2 IH]; [constructor|]. inversion F as [|? ? [NR _] F']; subst. cbn [map]. constructor; [|exact (IH F')]. exists b. split; [reflexivity|]. split; [apply utf8_iff; exact E0|]. auto.
Qed.
(** ** pattern-match *)
Theorem c63_match : forall srt nv all pfiles files, sorts srt ->
  Forall2 (fun line out => exists r, answer srt nv all (input_lines pfiles) (strip line) r /\ out = r ++ [9%N] ++ strip line ++ [10%N]) (input_lines files) (file_lines (match_bytes srt nv all pfiles files)).
Proof.
  intros srt nv all pfiles files O. unfold match_bytes. pose proof (c35_newline srt nv all _ _ O (input_file pfiles) (input_file files)) as L.
  replace (file_lines (List.concat (match_run srt nv all (input_lines pfiles) (input_lines files)))) with (match_run srt nv all (input_lines pfiles) (input_lines files)); [apply c35; exact O|].
  revert L. generalize (match_run srt nv all (input_lines pfiles) (input_lines files)). intros ls L. induction L as [|l ls (b & -> & NI) L IH]; [reflexivity|]. cbn [List.concat]. rewrite <- app_assoc. cbn [app]. rewrite lines_cut by exact NI. rewrite <- IH. reflexivity.
Qed.
(** ** the output of pattern-make as a pattern file *)
Lemma match_bytes_loads : forall srt nv all p p' files, pattern_loads (input_lines p) = pattern_loads (input_lines p') -> match_bytes srt nv all p files = match_bytes srt nv all p' files.
Proof. intros srt nv all p p' files E. unfold match_bytes, match_run. rewrite !load_lines, E. reflexivity. Qed.
Lemma input_app : forall a b, input_lines (a ++ b) = input_lines a ++ input_lines b.
Proof. intros a b. unfold input_lines. rewrite map_app, concat_app. reflexivity. Qed.
Lemma loads_app : forall a b, pattern_loads (a ++ b) = pattern_loads a ++ pattern_loads b.
Proof. intros a b. unfold pattern_loads. apply flat_map_app. Qed.
Theorem c63_pipe : forall nv mcn files out rs, (2 <= mcn)%Z -> make_bytes nv mcn FPattern files = Ok out -> make_run nv mcn FPattern (input_lines files) = Ok rs ->
  input_lines [out] = as_file rs /\ out = List.concat (as_file rs).
Proof.
  intros nv mcn files out rs M E1 E2. unfold make_bytes in E1. rewrite E2 in E1. cbn [bind] in E1.
  assert (A : Forall (fun r => Forall (fun c => (33 <= c <= 126)%N) r) rs).
  { destruct (make_out nv mcn _ _ M E2) as (cs & MK & ->). apply Forall_forall. intros r I. apply in_map_iff in I. destruct I as ([m t] & <- & I). exact (cluster_ascii _ _ _ _ _ _ M MK I). }
  assert (P : mapM print_bytes rs = Ok (as_file rs)).
  { clear - A. induction A as [|r rs C A IH]; [reflexivity|]. cbn [mapM as_file map]. unfold print_bytes at 1. rewrite ascii_encode by (eapply Forall_impl; [|exact C]; cbn beta; intros; lia). cbn [bind]. rewrite IH. reflexivity. }
  rewrite P in E1. cbn [bind] in E1. inversion E1; subst out. split; [|reflexivity]. unfold input_lines. cbn [map List.concat]. rewrite app_nil_r. unfold as_file. apply lines_out.
  eapply Forall_impl; [|exact A]. cbn beta. intros r C I. apply (proj1 (Forall_forall _ _) C) in I. lia.
Qed.
(** the lines of the output and the records *)
Definition line_for (line r : str) : Prop := exists b, line = b ++ [10%N] /\ utf8_decode b = Ok r /\ ~ In 10%N b /\ ~ In 10%N r.
Lemma not_pattern : forall c x, c <> 47%N -> pattern_line (c :: x) = None.
Proof.
  intros c x NE. unfold pattern_line. destruct (rstrip_split (c :: x)) as (a & E & _). destruct (rstrip (c :: x)) as [|d r]; [reflexivity|]. cbn [app] in E. inversion E; subst d.
  change (u "/") with [47%N]. cbn [startswith]. destruct (N.eqb_spec c 47) as [X|X]; [destruct (NE X)|reflexivity].
Qed.
Lemma line_visible : forall line r, line_for line r -> visible r -> startswith r (u "/") = true -> pattern_line line = Some r.
Proof.
  intros line r (b & -> & D & _) V P. pose proof (vis_decode r V) as V'. apply utf8_iff in D. apply utf8_iff in V'. rewrite D in V'. apply ok_inj in V'. subst b. apply file_pattern; assumption.
Qed.
Lemma line_other : forall line c r, line_for line (c :: r) -> (c < 128)%N -> c <> 47%N -> pattern_line line = None.
Proof.
  intros line c r (b & -> & D & _) C NE. apply utf8_iff in D. unfold utf8_encode in D. cbn [mapM] in D. apply bind_ok in D. destruct D as (l & D & EQ). apply bind_ok in D. destruct D as (w & W & D). apply bind_ok in D. destruct D as (ws & _ & EL). inversion EL; subst l. inversion EQ; subst b.
  unfold utf8_char in W. rewrite (proj2 (N.ltb_lt _ _) C) in W. apply ok_inj in W. subst w. cbn [List.concat app]. apply not_pattern. exact NE.
Qed.
Lemma loads_cons : forall line ls, pattern_loads (line :: ls) = match pattern_line line with Some s => [(s, Some s)] | None => [] end ++ pattern_loads ls.
Proof. reflexivity. Qed.
Lemma loads_none : forall ls rs, Forall2 line_for ls rs -> Forall (fun r => exists c x, r = c :: x /\ (c < 128)%N /\ c <> 47%N) rs -> pattern_loads ls = [].
Proof.
  induction 1 as [|line r ls rs L F2 IH]; intro F; [reflexivity|]. inversion F as [|? ? (c & x & -> & C & NE) F']; subst. rewrite loads_cons, (line_other line c x L C NE), (IH F'). reflexivity.
Qed.
Lemma pack_slash : forall m Ps, startswith (pack m Ps) (u "/") = true.
Proof. intros m Ps. change (u "/") with [47%N]. unfold pack. cbn [startswith]. match goal with |- context [startswith ?x []] => destruct x end; reflexivity. Qed.
Section Loads.
  Context (nv : str -> bool) (mcn : Z) (files : list str) (M : (2 <= mcn)%Z).
  (** the blocks and the records of each format as lines *)
  Lemma out_lines : exists blocks, Forall (fun b => visible (b_text b)) blocks /\
    forall f out, make_bytes nv mcn f files = Ok out -> exists rss, Forall2 (shows nv f) blocks rss /\ Forall2 line_for (input_lines [out]) (List.concat rss).
  Proof.
    destruct (c54 nv mcn (input_lines files) M) as (blocks & SH & _). exists blocks. split.
    - destruct (SH FPattern) as (rss & EP & F2). destruct (make_out nv mcn _ _ M EP) as (cs & MK & EO).
      apply Forall_forall. intros b IB. assert (I : In (b_text b) (List.concat rss)).
      { clear - F2 IB. induction F2 as [|x rs' bl rl S0 F2 IH]; [destruct IB|]. cbn [List.concat]. apply in_or_app. destruct IB as [->|IB]; [left; cbn [shows] in S0; rewrite S0; left; reflexivity|right; exact (IH IB)]. }
      rewrite EO in I. apply in_map_iff in I. destruct I as ([m t] & EB & I). rewrite <- EB. exact (cluster_vis _ _ _ _ _ _ M MK I).
    - intros f out E. destruct (SH f) as (rss & EP & F2). exists rss. split; [exact F2|]. destruct (c63_make nv mcn f files M) as (rs & out' & E1 & E2 & F3). rewrite EP in E1. apply ok_inj in E1. subst rs. rewrite E in E2. apply ok_inj in E2. subst out'.
      unfold input_lines. cbn [map List.concat]. rewrite app_nil_r. exact F3.
  Qed.
  Lemma cluster_loads : forall outc outp, make_bytes nv mcn FCluster files = Ok outc -> make_bytes nv mcn FPattern files = Ok outp -> pattern_loads (input_lines [outc]) = pattern_loads (input_lines [outp]).
  Proof.
    intros outc outp EC EP. destruct out_lines as (blocks & V & H). destruct (H _ _ EC) as (rc & SC & LC). destruct (H _ _ EP) as (rp & SP & LP). clear H EC EP.
    revert LC LP. generalize (input_lines [outc]) as lc, (input_lines [outp]) as lp. revert rp SP. induction SC as [|b r bl rl S0 SC IH]; intros rp SP lc lp LC LP.
    - inversion SP; subst. cbn [List.concat] in *. inversion LC; inversion LP; subst. reflexivity.
    - inversion SP as [|? r' ? rl' S1 SP']; subst. inversion V as [|? ? VB V']; subst. cbn [shows] in S0, S1. subst r r'. cbn [List.concat app] in LC, LP.
      inversion LP as [|x1 y1 l1 m1 L1 LP']; subst. inversion LC as [|x2 y2 l2 m2 L2 LC']; subst. apply Forall2_app_inv_r in LC'. destruct LC' as (k1 & k2 & K1 & K2 & ->).
      rewrite !loads_cons. rewrite (line_visible _ _ L1 VB (pack_slash _ _)), (line_visible _ _ L2 VB (pack_slash _ _)). rewrite loads_app. rewrite (loads_none k1 _ K1).
      + cbn [app]. f_equal. exact (IH V' rl' SP' _ _ K2 LP').
      + apply Forall_forall. intros x I. apply in_map_iff in I. destruct I as (url & <- & _). exists 9%N, url. split; [reflexivity|]. split; [lia|discriminate].
  Qed.
  Lemma json_loads : forall out, make_bytes nv mcn FJson files = Ok out -> pattern_loads (input_lines [out]) = [].
  Proof.
    intros out E. destruct (c63_make nv mcn FJson files M) as (rs & out' & E1 & E2 & F3). rewrite E in E2. apply ok_inj in E2. subst out'. destruct (c44 nv mcn _ rs M E1) as (cs & _ & F4).
    unfold input_lines. cbn [map List.concat]. rewrite app_nil_r. apply (loads_none _ _ F3). clear - F4. induction F4 as [|r c rs cs [J A] F4 IH]; constructor; [|exact IH].
    destruct r as [|x r]; [discriminate J|]. exists x, r. split; [reflexivity|]. inversion A as [|? ? A0 A']; subst. split; [lia|]. intros ->. discriminate J.
  Qed.
End Loads.
Theorem c63_cluster : forall nv mcn files outc outp, (2 <= mcn)%Z -> make_bytes nv mcn FCluster files = Ok outc -> make_bytes nv mcn FPattern files = Ok outp ->
  forall srt nv' all before after files', match_bytes srt nv' all (before ++ outc :: after) files' = match_bytes srt nv' all (before ++ outp :: after) files'.
Proof.
  intros nv mcn files outc outp M EC EP srt nv' all before after files'. apply match_bytes_loads. change (outc :: after) with ([outc] ++ after). change (outp :: after) with ([outp] ++ after).
  rewrite !input_app, !loads_app. rewrite (cluster_loads nv mcn files M outc outp EC EP). reflexivity.
Qed.
Theorem c63_json : forall nv mcn files out, (2 <= mcn)%Z -> make_bytes nv mcn FJson files = Ok out ->
  forall srt nv' all before after files', match_bytes srt nv' all (before ++ out :: after) files' = match_bytes srt nv' all (before ++ after) files'.
Proof.
  intros nv mcn files out M E srt nv' all before after files'. apply match_bytes_loads. change (out :: after) with ([out] ++ after).
  rewrite !input_app, !loads_app. rewrite (json_loads nv mcn files M out E). reflexivity.
Qed.
(** ** C43 of the bytes *)
Lemma run_one_each : forall srt nv all ps lines, match_run srt nv all ps lines = map (match_line srt nv (match_load_lines nv ps) all) lines.
Proof. reflexivity. Qed.
Theorem c63_then_match : forall srt nv mcn files out rs, (2 <= mcn)%Z -> make_bytes nv mcn FPattern files = Ok out -> make_run nv mcn FPattern (input_lines files) = Ok rs ->
  forall all files', match_bytes srt nv all [out] files' = List.concat (map (fun line => List.concat (match_run srt nv all (as_file rs) [line])) (input_lines files')).
Proof.
  intros srt nv mcn files out rs M E1 E2 all files'. destruct (c63_pipe nv mcn files out rs M E1 E2) as [E _]. unfold match_bytes, match_run. rewrite E. f_equal. apply map_ext. intro line. cbn [map List.concat]. rewrite app_nil_r. reflexivity.
Qed.
