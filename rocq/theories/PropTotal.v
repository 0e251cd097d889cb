(** C48: when PatternMatcher.match raises. *)
From Coq Require Import String.
From Verif Require Import PyStr Defs UrlLib ParseUtils Spec Views Trees Patterns Matcher Cmd Observe MatchSpec OrderSpec CmdSpec PropMatch PropSound MatchTotal CmdTotal.

(** the accepted patterns of the structure [m] are regular expressions of the
    fragment described in Spec.v (no class is empty), and no class has '/' beside
    other characters; the order and number of the spaces in a class, leading zeros
    and backslashes do not matter, nor do the patterns of other structures *)
Definition readable_loads (nv : str -> bool) (h : list (str * option str)) (m : url_meta) : Prop :=
  forall s me b Ps, In (s, me) h -> snd (match_load nv [] s me) = Ok b -> analyze_url_pattern_string s = Ok (m, Ps) ->
    Forall (fun P => rparse P <> None /\ slash_alone P) Ps.

(** C48.  match() of a URL that is accepted raises nothing *)
Theorem C48_match_returns : forall nv h url m raw, url_path nv url = Some (m, raw) -> readable_loads nv h m ->
  exists fs, match_url nv (mloads nv h) url = Ok fs.
Proof. exact c48. Qed.
Print Assumptions C48_match_returns.

(** and pattern-match does not answer E *)
Theorem C48_answer : forall srt nv all patterns line r url m raw, answer srt nv all patterns line r ->
  utf8_decode line = Ok url -> url_path nv url = Some (m, raw) -> readable_loads nv (pattern_loads patterns) m ->
  exists fs, match_url nv (mloads nv (pattern_loads patterns)) url = Ok fs /\
    (fs = [] /\ r = u "N" \/
     exists ls, Forall2 (printed patterns m) (if all then fs else firstn 1 (srt found_lt fs)) ls /\
       r = join [9%N] ls /\ ls <> []).
Proof. exact c48_answer. Qed.
Print Assumptions C48_answer.

(** whatever was loaded: no other exception than these two *)
Theorem C48_two_exceptions : forall nv h url m raw e, url_path nv url = Some (m, raw) ->
  match_url nv (mloads nv h) url = Err e -> e = EIndex \/ e = EAttr.
Proof. exact c48_two. Qed.
Print Assumptions C48_two_exceptions.

(** Both conditions are needed.  An empty class: IndexError *)
Theorem C48_empty_class_refuted : exists h url, url_path nv0 url <> None /\
  (forall s me, In (s, me) h -> exists b m Ps, snd (match_load nv0 [] s me) = Ok b /\ analyze_url_pattern_string s = Ok (m, Ps) /\ Forall slash_alone Ps) /\
  match_url nv0 (mloads nv0 h) url = Err EIndex.
Proof.
  exists [(u "/[\?]k=[]+[]+[a-z][/]", None)], (u "http://h/?k=/a/"). split; [vm_compute; discriminate|]. split; [|vm_compute; reflexivity].
  intros s me [E|[]]. injection E as <- <-. eexists. eexists. eexists. split; [vm_compute; reflexivity|]. split; [vm_compute; reflexivity|].
  apply Forall_cons; [|apply Forall_cons; [|apply Forall_nil]]; intros toks k R I; vm_compute in R; inversion R; subst; destruct I.
Qed.
Print Assumptions C48_empty_class_refuted.
(** '/' beside other characters: two patterns of different numbers of units are
    filed under one key.  The node of the first is a leaf, that of the second has
    no meta; the list of nodes has None in it (pattern_matcher.py:77), for which the
    model raises AttributeError *)
Definition mixed_slash : list (str * option str) :=
  [(u "/[\?]k=[/][%a-z]{2}[,/0-9]+", None); (u "/[\?]k=[/][%a-z]{2}[,]+[0-9]", None)].
Theorem C48_slash_refuted : exists url, url_path nv0 url <> None /\
  (forall s me, In (s, me) mixed_slash -> exists b m Ps, snd (match_load nv0 [] s me) = Ok b /\ analyze_url_pattern_string s = Ok (m, Ps) /\ Forall (fun P => rparse P <> None) Ps) /\
  match_url nv0 (mloads nv0 mixed_slash) url = Err EAttr.
Proof.
  exists (u "http://h/?k=/%a,5"). split; [vm_compute; discriminate|]. split; [|vm_compute; reflexivity].
  intros s me [E|[E|[]]]; injection E as <- <-; (eexists; eexists; eexists; split; [vm_compute; reflexivity|]; split; [vm_compute; reflexivity|]; repeat (apply Forall_cons; [vm_compute; discriminate|]); apply Forall_nil).
Qed.
Print Assumptions C48_slash_refuted.

(** spellings that the maker does not write, a backslash in the URL, a class with
    '/' and an empty class in patterns of other structures *)
Definition odd_loads : list (str * option str) :=
  [(u "/[z-a]", None); (u "/[\\a-z]{04}", None); (u "/[\\a-z]{5}", None); (u "/[a-z\\a-z]+", None); (u "/x[\\]+y", Some (u "m"));
   (u "/b/[]+", None); (u "/a/[\?]k=[,/]+", None)].
Lemma no_slash_alone : forall P, match rparse P with Some toks => existsb (fun k => set_mem 47%N (rset k)) toks = false | None => True end -> slash_alone P.
Proof.
  intros P H toks k R I M. rewrite R in H. exfalso. assert (X : existsb (fun k => set_mem 47%N (rset k)) toks = true) by (apply existsb_exists; eauto). congruence.
Qed.
Lemma odd_readable : readable_loads nv0 odd_loads (UM 1 [] false).
Proof.
  intros s me b Ps I L A. unfold odd_loads in I. cbn [In] in I.
  destruct I as [I|[I|[I|[I|[I|[I|[I|[]]]]]]]]; injection I as <- <-; try (vm_compute in L; discriminate L);
    vm_compute in A; try discriminate A; injection A as <-;
    (apply Forall_cons; [split; [vm_compute; discriminate|apply no_slash_alone; vm_compute; reflexivity]|apply Forall_nil]).
Qed.
Example C48_case : readable_loads nv0 odd_loads (UM 1 [] false) /\
  url_path nv0 (u "http://h/a\b") = Some (UM 1 [] false, [u "a\b"]) /\
  match match_url nv0 (mloads nv0 odd_loads) (u "http://h/a\b") with Ok fs => parts_of fs | Err _ => [] end =
    [[u "[\\a-z]{04}"]; [u "[a-z\\a-z]+"]].
Proof. split; [exact odd_readable|]. vm_compute. auto. Qed.

(** what may still happen: a pattern that takes the URL is not found, because of
    another spelling of its first part below which there is nothing for the URL *)
Theorem C48_hidden_refuted : exists h url, readable_loads nv0 h (UM 2 [] false) /\
  url_path nv0 url = Some (UM 2 [] false, [u "abc"; u "12"]) /\
  regex_matches (u "[a-z]{3}") (u "abc") /\ regex_matches (u "[0-9]{2}") (u "12") /\ In (u "/[a-z]{3}/[0-9]{2}", None) h /\
  match_url nv0 (mloads nv0 h) url = Ok [] /\ match_url nv0 (mloads nv0 (rev h)) url <> Ok [].
Proof.
  exists [(u "/[a-z]{3}/[0-9]{2}", None); (u "/[a-z]{03}/[0-9]{3}", None)], (u "http://h/abc/12"). split.
  - intros s me b Ps I L A. destruct I as [I|[I|[]]]; injection I as <- <-; vm_compute in A; injection A as <-;
      repeat (apply Forall_cons; [split; [vm_compute; discriminate|apply no_slash_alone; vm_compute; reflexivity]|]); apply Forall_nil.
  - split; [vm_compute; reflexivity|]. split; [|split; [|split; [left; reflexivity|split; [vm_compute; reflexivity|vm_compute; discriminate]]]].
    + eexists. split; [vm_compute; reflexivity|]. exists (u "abc"), []. split; [reflexivity|]. split; [|split; [reflexivity|reflexivity]].
      apply Forall_forall. intros c I. vm_compute in I. repeat (destruct I as [<-|I]; [vm_compute; reflexivity|]). destruct I.
    + eexists. split; [vm_compute; reflexivity|]. exists (u "12"), []. split; [reflexivity|]. split; [|split; [reflexivity|reflexivity]].
      apply Forall_forall. intros c I. vm_compute in I. repeat (destruct I as [<-|I]; [vm_compute; reflexivity|]). destruct I.
Qed.
Print Assumptions C48_hidden_refuted.
