(** C59: texts that are not absolute URLs. *)
From Coq Require Import String.
From Verif Require Import PyStr Defs UrlLib ParseUtils Spec Views Trees Cluster Patterns Matcher Maker Observe GrammarSpec UrlSpec RefSpec PyStrProofs UrlRef UrlEnd.
From Coq Require Import Lia.

(** C59.  Every text has exactly one reading: what is left without blanks at its
    beginning and without TAB, LF and CR is [scheme:][//host]path[?q][#f], and [p'] is
    the path without parameters. *)
Theorem C59_reading_exists : forall url, exists body s h p q f p', body_of url body /\ reference body s h p q f /\ cut_params (scheme_or_http s) p p'.
Proof. exact c59_reads. Qed.
Print Assumptions C59_reading_exists.
Theorem C59_reading_unique : forall url body s h p q f p' body2 s2 h2 p2 q2 f2 p2',
  body_of url body -> reference body s h p q f -> cut_params (scheme_or_http s) p p' ->
  body_of url body2 -> reference body2 s2 h2 p2 q2 f2 -> cut_params (scheme_or_http s2) p2 p2' ->
  body = body2 /\ s = s2 /\ h = h2 /\ p = p2 /\ q = q2 /\ f = f2 /\ p' = p2'.
Proof. exact c59_unique. Qed.
Print Assumptions C59_reading_unique.
(** what parse_url makes of the query and the fragment: always one thing, and, without TAB,
    LF and CR, what they are *)
Theorem C59_seen_exists : forall url q f, exists q' f', seen url q f q' f'.
Proof. exact seen_exists. Qed.
Print Assumptions C59_seen_exists.
Theorem C59_seen_unique : forall url q f q1 f1 q2 f2, seen url q f q1 f1 -> seen url q f q2 f2 -> q1 = q2 /\ f1 = f2.
Proof. exact seen_unique. Qed.
Print Assumptions C59_seen_unique.
Theorem C59_clean : forall url body s h p q f, body_of url body -> reference body s h p q f -> Forall (fun c => ~ In c dirt) url -> seen url q f q f.
Proof. exact c59_clean. Qed.
Print Assumptions C59_clean.
(** PatternMaker.load and PatternMatcher.match, in any state: ValueError for a bad host;
    IrregularURLException if the path has no '/'; otherwise what comes before the first
    '/' of the path is ignored, and the text counts as the absolute URL [url0], whose
    outcome is described by C46.  The three texts left out have theorems of their own. *)
Theorem C59_load : forall nv url body s h p p' q f q' f', body_of url body -> reference body s h p q f -> cut_params (scheme_or_http s) p p' -> seen url q f q' f' ->
  url <> [] -> url <> u "#" -> (forall r, url <> 47%N :: r) ->
  (~ host_ok nv (or_empty h) -> (forall st me, load nv st url me = (st, Err EValue)) /\ forall st, match_url nv st url = Err EValue) /\
  (host_ok nv (or_empty h) -> ~ In 47%N p' -> (forall st me, load nv st url me = (st, Err EIrregularURL)) /\ forall st, match_url nv st url = Err EIrregularURL) /\
  (host_ok nv (or_empty h) -> forall a b, p' = a ++ u "/" ++ b -> ~ In 47%N a ->
     let url0 := u "x://" ++ or_empty h ++ (u "/" ++ b) ++ opt_text (u "?") q' ++ opt_text (u "#") f' in
     absolute url0 (u "x") (or_empty h) (u "/" ++ b) q' f' /\
     (forall st me, load nv st url me = load nv st url0 me) /\ forall st, match_url nv st url = match_url nv st url0).
Proof. exact c59_all. Qed.
Print Assumptions C59_load.
(** a text that begins with '/' is read as a pattern, which PatternMaker.load never takes *)
Theorem C59_slash : forall nv st r me, exists e, load nv st (47%N :: r) me = (st, Err e).
Proof. exact c59_slash. Qed.
Print Assumptions C59_slash.
Theorem C59_empty : forall nv, host_ok nv [] -> (forall st me, load nv st [] me = (st, Err EIndex)) /\ forall st, match_url nv st [] = Err EIndex.
Proof. exact c59_empty. Qed.
Print Assumptions C59_empty.
Theorem C59_hash : forall nv r, host_ok nv [] -> let e := match r with [] => EIndex | _ => EIrregularURL end in
  (forall st me, load nv st (35%N :: r) me = (st, Err e)) /\ forall st, match_url nv st (35%N :: r) = Err e.
Proof. exact c59_hash. Qed.
Print Assumptions C59_hash.
(** it does not hold of all texts that a LF at the end makes no difference, although
    urllib takes it off *)
Theorem C59_newline_refuted : exists url, body_of (url ++ [10%N]) url /\
  load (fun _ => true) [] (url ++ [10%N]) None <> load (fun _ => true) [] url None /\
  load (fun _ => true) [] (url ++ [10%N]) None = load (fun _ => true) [] (u "http://h/a") None.
Proof.
  exists (u "http://h/a?"). split; [|split; [vm_compute; discriminate|vm_compute; reflexivity]].
  exists [], (u "http://h/a?" ++ [10%N]). split; [reflexivity|]. split; [constructor|]. split; [intros c r E; inversion E; reflexivity|reflexivity].
Qed.
Print Assumptions C59_newline_refuted.
(** blank, host without "//", parameters, LF in the middle *)
Definition case_text : str := u " h/a/b;x?k" ++ 10%N :: u "=1#f".
Example C59_case :
  body_of case_text (u "h/a/b;x?k=1#f") /\
  reference (u "h/a/b;x?k=1#f") None None (u "h/a/b;x") (Some (u "k=1")) (Some (u "f")) /\
  cut_params (scheme_or_http None) (u "h/a/b;x") (u "h/a/b") /\ case_text <> [] /\ case_text <> u "#" /\ (forall r, case_text <> 47%N :: r) /\
  seen case_text (Some (u "k=1")) (Some (u "f")) (Some (u "k=1")) (Some (u "f")) /\ host_ok (fun _ => true) (or_empty None) /\ ~ In 47%N (u "h") /\
  snd (load (fun _ => true) (fst (load (fun _ => true) [] (u "x:///a/b?k=1#f") None)) case_text None) = Ok false.
Proof.
  assert (NI : forall (l : str) c, char_in c l = false -> ~ In c l) by (intros l c H X; apply char_in_In in X; congruence).
  split; [exists (u " "), (u "h/a/b;x?k" ++ 10%N :: u "=1#f"); split; [reflexivity|]; split; [repeat constructor; vm_compute; discriminate|]; split; [intros c r E; inversion E; reflexivity|reflexivity]|].
  split.
  - split; [reflexivity|]. split; [intros a b E; exfalso; assert (K : In 58%N (u "h/a/b;x?k=1#f")) by (rewrite E; apply in_or_app; right; left; reflexivity); revert K; apply NI; reflexivity|].
    split; [intros r E; discriminate|]. split; [apply Forall_forall; intros c C; apply NI; revert c C; apply Forall_forall; repeat constructor|]. intros t E; inversion E; subst; apply NI; reflexivity.
  - split; [|split; [discriminate|split; [discriminate|split; [discriminate|split; [split; reflexivity|split; [split; [split; intros []|reflexivity]|split; [apply NI; reflexivity|vm_compute; reflexivity]]]]]]].
    right. split; [vm_compute; auto 10|]. split; [intros a b E; exfalso; assert (K : In 59%N (u "h/a/b")) by (rewrite E; apply in_or_app; right; left; reflexivity); revert K; apply NI; reflexivity|]. exists (u "x"). split; [reflexivity|apply NI; reflexivity].
Qed.
(** a port after a host without "//": the host is the scheme, and the port is ignored *)
Example C59_case_port :
  reference (u "h.org:80/a") (Some (u "h.org")) None (u "80/a") None None /\
  load (fun _ => true) [] (u "h.org:80/a") None = load (fun _ => true) [] (u "x:///a") None /\
  load (fun _ => true) [] (u "h.org") None = ([], Err EIrregularURL) /\ load (fun _ => true) [] (u "#/a") None = ([], Err EIrregularURL).
Proof.
  assert (NI : forall (l : str) c, char_in c l = false -> ~ In c l) by (intros l c H X; apply char_in_In in X; congruence).
  split; [|split; [vm_compute; reflexivity|split; vm_compute; reflexivity]]. split; [reflexivity|]. split.
  - split; [exists 104%N, (u ".org"); split; [reflexivity|apply char_in_In; reflexivity]|]. apply Forall_forall. intros c C. apply char_in_In. revert c C. apply Forall_forall. repeat constructor.
  - split; [intros r E; discriminate|]. split; [apply Forall_forall; intros c C; apply NI; revert c C; apply Forall_forall; repeat constructor|discriminate].
Qed.
(** two LF at the end: the '?' of the fragment is taken for that of a query *)
Definition case_lf : str := u "http://h/a#?xy" ++ [10; 10]%N.
Example C59_case_lf :
  body_of case_lf (u "http://h/a#?xy") /\ reference (u "http://h/a#?xy") (Some (u "http")) (Some (u "h")) (u "/a") None (Some (u "?xy")) /\
  seen case_lf None (Some (u "?xy")) (Some []) (Some (u "?xy")) /\
  load (fun _ => true) [] case_lf None = load (fun _ => true) [] (u "x://h/a?#?xy") None /\
  load (fun _ => true) [] case_lf None <> load (fun _ => true) [] (u "x://h/a#?xy") None.
Proof.
  assert (NI : forall (l : str) c, char_in c l = false -> ~ In c l) by (intros l c H X; apply char_in_In in X; congruence).
  split; [exists [], case_lf; split; [reflexivity|]; split; [constructor|]; split; [intros c r E; inversion E; reflexivity|reflexivity]|]. split.
  - split; [reflexivity|]. split; [split; [exists 104%N, (u "ttp"); split; [reflexivity|apply char_in_In; reflexivity]|apply Forall_forall; intros c C; apply char_in_In; revert c C; apply Forall_forall; repeat constructor]|].
    split; [split; [apply Forall_forall; intros c C; apply NI; revert c C; apply Forall_forall; repeat constructor|right; exists (u "a"); reflexivity]|]. split; [apply Forall_forall; intros c C; apply NI; revert c C; apply Forall_forall; repeat constructor|discriminate].
  - split; [split; [reflexivity|left; split; [reflexivity|exists (u "http://h/a#"), (u "xy" ++ [10; 10]%N); split; reflexivity]]|]. split; [vm_compute; reflexivity|vm_compute; discriminate].
Qed.
