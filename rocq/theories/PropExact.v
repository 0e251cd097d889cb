(** C28: exactly which loaded patterns PatternMatcher.match returns. *)
From Coq Require Import String.
From Verif Require Import PyStr Defs UrlLib ParseUtils Spec Views Trees Patterns Matcher Observe MatchSpec PropMatch PropSound MatchPos.
From Coq Require Import Lia Sorted.

(** C28.  If the accepted patterns are canonical, match() returns, each once,
    the loaded patterns of the structure of the URL all of whose parts take the
    corresponding pieces of the URL. *)
Theorem C28_matches_are_exact : forall nv h url m raw,
  url_path nv url = Some (m, raw) -> Forall (fun w => ~ In 92%N w) raw -> accepted_canonical nv h ->
  exists fs, match_url nv (mloads nv h) url = Ok fs /\ NoDup (parts_of fs) /\
    forall Ps, In Ps (parts_of fs) <->
      exists s me, In (s, me) h /\ startswith s (u "/") = true /\ analyze_url_pattern_string s = Ok (m, Ps) /\
        length Ps = length raw /\
        forall i P w, nth_error Ps i = Some P -> nth_error raw i = Some w -> takes (S i =? path_depth m) P w.
Proof. exact c28. Qed.
Print Assumptions C28_matches_are_exact.

(** the order of loading does not matter, nor loading a pattern twice, nor metas *)
Theorem C28_order_irrelevant : forall nv h h' url m raw fs fs',
  url_path nv url = Some (m, raw) -> Forall (fun w => ~ In 92%N w) raw ->
  accepted_canonical nv h -> accepted_canonical nv h' ->
  (forall s, (exists me, In (s, me) h) <-> (exists me, In (s, me) h')) ->
  match_url nv (mloads nv h) url = Ok fs -> match_url nv (mloads nv h') url = Ok fs' ->
  forall Ps, In Ps (parts_of fs) <-> In Ps (parts_of fs').
Proof. exact c28_order. Qed.
Print Assumptions C28_order_irrelevant.

(** loading more patterns removes no result *)
Theorem C28_more_loads_keep_results : forall nv h h' url m raw fs fs',
  url_path nv url = Some (m, raw) -> Forall (fun w => ~ In 92%N w) raw ->
  accepted_canonical nv (h ++ h') ->
  match_url nv (mloads nv h) url = Ok fs -> match_url nv (mloads nv (h ++ h')) url = Ok fs' ->
  forall Ps, In Ps (parts_of fs) -> In Ps (parts_of fs').
Proof. exact c28_more. Qed.
Print Assumptions C28_more_loads_keep_results.

Ltac canon us := apply (canonb_ok us); vm_compute; reflexivity.
Lemma case_canonical : accepted_canonical nv0 case_m.
Proof.
  intros s me b m Ps I L A. unfold case_m in I. cbn [In] in I.
  destruct I as [I|[I|[I|[I|[I|[I|[]]]]]]]; inversion I; subst; try (vm_compute in L; discriminate L);
    vm_compute in A; inversion A; subst; clear.
  - constructor; [canon [CLit (u "a")]|]. constructor; [canon [CCls [u "0-9"] (Some 2%N)]|constructor].
  - constructor; [canon [CLit (u "a")]|]. constructor; [canon [CCls [u "a-z"] (Some 1%N); CCls [u "0-9"] (Some 2%N); CCls [u "\."] (Some 1%N); CLit (u "html")]|constructor].
  - constructor; [canon [CCls [u "a-z"] None]|]. constructor; [canon [CCls [u "0-9"] (Some 2%N)]|constructor].
  - constructor; [canon [CLit (u "a")]|]. constructor; [canon [CCls [u "a-z"] None; CCls [u "\-"] (Some 1%N); CCls [u "0-9"] (Some 2%N)]|constructor].
  - constructor; [canon [CLit (u "a")]|]. constructor; [canon [CCls [u "0-9"] None]|constructor].
Qed.
(** the history of PropMatch.v meets the hypotheses; two patterns are returned *)
Example C28_case : accepted_canonical nv0 case_m /\ url_path nv0 (u "http://h/a/12") = Some (UM 2 [] false, [u "a"; u "12"]) /\
  match match_url nv0 (mloads nv0 case_m) (u "http://h/a/12") with
  | Ok fs => parts_of fs = [[u "a"; u "[0-9]{2}"]; [u "[a-z]+"; u "[0-9]{2}"]]
  | Err _ => False
  end /\
  takes false (u "[a-z]+") (u "a") /\ takes true (u "[0-9]{2}") (u "12") /\
  takes true (u "[a-z]+[\-][0-9]{2}") (u "ab-12") /\ ~ takes true (u "[0-9]{2}") (u "123").
Proof.
  split; [exact case_canonical|]. split; [vm_compute; reflexivity|]. split; [vm_compute; reflexivity|].
  assert (FIT : forall r n g, forallb (fun c => str_eqb (space_text c) r) g = true -> g <> [] -> match n with Some k => N.of_nat (length g) = k | None => True end -> unit_fits (CCls [r] n) g).
  { intros r n g F N K. rewrite forallb_forall in F. split; [|exact K]. intros r'. split.
    - intros [<-|[]]. destruct g as [|c g]; [congruence|]. exists c. split; [left; reflexivity|]. apply PyStrProofs.str_eqb_eq. apply F. left. reflexivity.
    - intros (c & I & <-). left. symmetry. apply PyStrProofs.str_eqb_eq. apply F. exact I. }
  split; [|split; [|split]].
  - exists [CCls [u "a-z"] None], [u "a"]. split; [canon [CCls [u "a-z"] None]|]. split; [reflexivity|]. constructor; [|constructor]. apply FIT; [reflexivity|discriminate|exact Logic.I].
  - exists [CCls [u "0-9"] (Some 2%N)], [u "12"]. split; [canon [CCls [u "0-9"] (Some 2%N)]|]. split; [reflexivity|]. constructor; [|constructor]. apply FIT; [reflexivity|discriminate|reflexivity].
  - exists [CCls [u "a-z"] None; CCls [u "\-"] (Some 1%N); CCls [u "0-9"] (Some 2%N)], [u "ab"; u "-"; u "12"].
    split; [canon [CCls [u "a-z"] None; CCls [u "\-"] (Some 1%N); CCls [u "0-9"] (Some 2%N)]|]. split.
    + right. split; [intros (_ & a & n & e & E & _); discriminate|]. left. split; [repeat (apply Forall_cons; [cbn; lia|]); apply Forall_nil|]. apply runs_of_text; vm_compute; reflexivity.
    + constructor; [|constructor; [|constructor; [|constructor]]]; (apply FIT; [reflexivity|discriminate|try exact Logic.I; reflexivity]).
  - intros (us & ws & R & C & F). destruct (canonb_ok [CCls [u "0-9"] (Some 2%N)] (u "[0-9]{2}")) as [R' _]; [vm_compute; reflexivity..|].
    rewrite (reads_unique _ _ _ R R') in C, F. cbn [cut_for] in C. subst ws. inversion F as [|? ? ? ? L _]; subst. destruct L as [_ L]. vm_compute in L. discriminate.
Qed.
(** for other spellings it fails: the second load hides the first *)
Theorem C28_spelling_refuted : exists h url m raw fs, url_path nv0 url = Some (m, raw) /\ Forall (fun w => ~ In 92%N w) raw /\
  match_url nv0 (mloads nv0 (firstn 1 h)) url = Ok fs /\ parts_of fs = [[u "[a-z]{3}"]] /\
  exists fs', match_url nv0 (mloads nv0 h) url = Ok fs' /\ parts_of fs' = [[u "[a-z]{03}"]].
Proof.
  exists [(u "/[a-z]{3}", None); (u "/[a-z]{03}", None)], (u "http://h/abc"). eexists. eexists. eexists.
  split; [vm_compute; reflexivity|]. split; [apply Forall_forall; intros w [<-|[]]; vm_compute; intuition discriminate|].
  split; [vm_compute; reflexivity|]. split; [vm_compute; reflexivity|]. eexists. split; vm_compute; reflexivity.
Qed.
Print Assumptions C28_spelling_refuted.
