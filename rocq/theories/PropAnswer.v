(** C35: what pattern-match writes. *)
From Coq Require Import String.
From Verif Require Import PyStr Defs UrlLib ParseUtils Spec Views Trees Cluster Patterns Matcher Maker Format Cmd Observe MatchSpec OrderSpec CmdSpec PropSound PropExact MatchBest Utf8 CmdMatch.

(** C35.  One record per line of the input, in order: the answer, a tab, the line
    without white space at its ends, a newline. *)
Theorem C35_one_record_per_line : forall srt nv all patterns lines, sorts srt ->
  Forall2 (fun line out => exists r, answer srt nv all patterns (strip line) r /\ out = r ++ [9%N] ++ strip line ++ [10%N])
    lines (match_run srt nv all patterns lines).
Proof. exact c35. Qed.
Print Assumptions C35_one_record_per_line.

(** no newline but the last one *)
Theorem C35_one_line_each : forall srt nv all patterns lines, sorts srt -> Forall file_line patterns -> Forall file_line lines ->
  Forall (fun out => exists body, out = body ++ [10%N] /\ ~ In 10%N body) (match_run srt nv all patterns lines).
Proof. exact c35_newline. Qed.
Print Assumptions C35_one_line_each.

(** a line that is no URL, and does not start with '/', is answered with E *)
Theorem C35_rejected_line : forall srt nv all patterns line r, answer srt nv all patterns line r ->
  startswith line (u "/") = false -> (forall url, utf8_decode line = Ok url -> url_path nv url = None) -> r = u "E".
Proof. exact c35_rejected. Qed.
Print Assumptions C35_rejected_line.

(** a URL is not, if the patterns are canonical *)
Theorem C35_accepted_line : forall srt nv all patterns line r url m raw, answer srt nv all patterns line r ->
  utf8_decode line = Ok url -> url_path nv url = Some (m, raw) -> Forall (fun w => ~ In 92%N w) raw ->
  accepted_canonical nv (pattern_loads patterns) ->
  exists fs, match_url nv (mloads nv (pattern_loads patterns)) url = Ok fs /\
    (fs = [] /\ r = u "N" \/
     exists ls, Forall2 (printed patterns m) (if all then fs else firstn 1 (srt found_lt fs)) ls /\
       r = join [9%N] ls /\ ls <> []).
Proof. exact c35_accepted. Qed.
Print Assumptions C35_accepted_line.

(** without -a the answer is the pattern of the greatest result *)
Theorem C35_best_pattern : forall srt nv patterns line r url m raw fs, sorts srt -> answer srt nv false patterns line r ->
  utf8_decode line = Ok url -> url_path nv url = Some (m, raw) -> Forall (fun w => ~ In 92%N w) raw ->
  accepted_canonical nv (pattern_loads patterns) ->
  match_url nv (mloads nv (pattern_loads patterns)) url = Ok fs -> fs <> [] ->
  exists f, greatest fs f /\ printed patterns m f r.
Proof. exact c35_best. Qed.
Print Assumptions C35_best_pattern.

(** bytes.decode and str.encode are inverse *)
Theorem C35_utf8_inverse : forall l s, utf8_decode l = Ok s <-> utf8_encode s = Ok l.
Proof. exact utf8_iff. Qed.
Print Assumptions C35_utf8_inverse.

Definition tab : str := [9%N].
Definition nl : str := [10%N].
Definition case_patterns : list str :=
  [u "/[a-z]+" ++ nl; u "no pattern" ++ nl; u "/a[" ++ nl; u "/[a-z]{2} " ++ nl; u "/[0-9]{2}[a-z]" ++ nl; [47; 195; 40]%N ++ nl].
Definition case_lines : list str :=
  [u " http://h/ab" ++ [13%N] ++ nl; u "http://h/7" ++ nl; u "http://h/abc" ++ nl; nl; [255%N] ++ nl; u "/[0-9]{2}[a-z]" ++ nl; u "http://h/12c"].
Example C35_case :
  match_run isort nv0 true case_patterns case_lines =
    [u "/[a-z]{2}" ++ tab ++ u "/[a-z]+" ++ tab ++ u "http://h/ab" ++ nl;
     u "N" ++ tab ++ u "http://h/7" ++ nl; u "/[a-z]+" ++ tab ++ u "http://h/abc" ++ nl;
     u "E" ++ tab ++ nl; u "E" ++ tab ++ [255%N] ++ nl; u "E" ++ tab ++ u "/[0-9]{2}[a-z]" ++ nl;
     u "/[0-9]{2}[a-z]" ++ tab ++ u "http://h/12c" ++ nl] /\
  match_run isort nv0 false case_patterns case_lines =
    [u "/[a-z]{2}" ++ tab ++ u "http://h/ab" ++ nl;
     u "N" ++ tab ++ u "http://h/7" ++ nl; u "/[a-z]+" ++ tab ++ u "http://h/abc" ++ nl;
     u "E" ++ tab ++ nl; u "E" ++ tab ++ [255%N] ++ nl; u "E" ++ tab ++ u "/[0-9]{2}[a-z]" ++ nl;
     u "/[0-9]{2}[a-z]" ++ tab ++ u "http://h/12c" ++ nl] /\
  map snd (pattern_loads case_patterns) = [Some (u "/[a-z]+"); Some (u "/a["); Some (u "/[a-z]{2}"); Some (u "/[0-9]{2}[a-z]")].
Proof. vm_compute. auto. Qed.
(** the hypotheses of the theorems hold for it *)
Example C35_case_canonical : accepted_canonical nv0 (pattern_loads case_patterns) /\ Forall file_line case_patterns /\ Forall file_line case_lines /\ sorts isort.
Proof.
  split; [|split; [|split; [|exact isort_sorts]]].
  - intros s me b m Ps I L A. vm_compute in I. destruct I as [I|[I|[I|[I|[]]]]]; inversion I; subst; try (vm_compute in L; discriminate L); vm_compute in A; inversion A; subst; clear.
    + constructor; [canon [CCls [u "a-z"] None]|constructor].
    + constructor; [canon [CCls [u "a-z"] (Some 2%N)]|constructor].
    + constructor; [canon [CCls [u "0-9"] (Some 2%N); CCls [u "a-z"] (Some 1%N)]|constructor].
  - apply Forall_forall. intros l I. exists (removelast l). unfold case_patterns in I. cbn [In] in I.
    repeat (destruct I as [<-|I]; [split; [vm_compute; intuition discriminate|right; vm_compute; reflexivity]|]). destruct I.
  - apply Forall_forall. intros l I. unfold case_lines in I. cbn [In] in I.
    do 6 (destruct I as [<-|I]; [match goal with |- file_line ?l => exists (removelast l) end; split; [vm_compute; intuition discriminate|right; vm_compute; reflexivity]|]).
    destruct I as [<-|[]]. eexists. split; [|left; reflexivity]. vm_compute. intuition discriminate.
Qed.

(** with other patterns match() may raise for a URL: IndexError *)
Theorem C35_accepted_line_refuted : exists patterns line, url_path nv0 line <> None /\ Forall file_line patterns /\ file_line line /\
  answer isort nv0 false patterns line (u "E").
Proof.
  exists [u "/[\?]k=[]+[]+[a-z][/]"], (u "http://h/?k=/a/"). split; [vm_compute; discriminate|]. split.
  - constructor; [|constructor]. eexists. split; [|left; reflexivity]. vm_compute. intuition discriminate.
  - split; [eexists; split; [|left; reflexivity]; vm_compute; intuition discriminate|]. vm_compute. reflexivity.
Qed.
Print Assumptions C35_accepted_line_refuted.
