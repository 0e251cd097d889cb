(** C26: what PatternMatcher.match returns. *)
From Coq Require Import String.
From Verif Require Import PyStr Defs UrlLib ParseUtils Spec Views Trees Patterns Matcher Observe MatchSpec PropMatch MatchTop.
From Coq Require Import Lia.

(** C26.  A returned path is, string by string, a loaded pattern; it has the
    structure of the URL, and each of its positions that is a regular expression
    of the fragment described in Spec.v matches the piece of the URL, unless a
    class has '/' beside other characters. *)
Theorem C26_matches_are_sound : forall nv h url m raw fs path node,
  url_path nv url = Some (m, raw) -> Forall (fun w => ~ In 92%N w) raw ->
  match_url nv (mloads nv h) url = Ok fs -> In (path, node) fs ->
  exists s me, In (s, me) h /\ analyze_url_pattern_string s = Ok (m, map mp_str path) /\
    Forall2 (fun P w => rparse P <> None -> slash_alone P -> regex_matches P w) (map mp_str path) raw.
Proof. exact c26. Qed.
Print Assumptions C26_matches_are_sound.

Definition nv0 : str -> bool := fun _ => true.
(** the strings and the meta of the results *)
Definition results (r : res (list found)) : list (list str * option mmeta) :=
  match r with Ok fs => map (fun f => (map mp_str (fst f), m_meta (snd f))) fs | Err _ => [] end.
Example C26_case :
  results (match_url nv0 (mloads nv0 case_m) (u "http://h/a/b12.html")) =
    [([u "a"; u "[a-z][0-9]{2}[\.]html"], None)] /\
  results (match_url nv0 (mloads nv0 case_m) (u "http://h/a/12")) =
    [([u "a"; u "[0-9]{2}"], Some (MUser (u "x"))); ([u "[a-z]+"; u "[0-9]{2}"], Some (MUser (u "y")))] /\
  url_path nv0 (u "http://h/a/12") = Some (UM 2 [] false, [u "a"; u "12"]) /\
  slash_alone (u "[0-9]{2}") /\ rparse (u "[a-z]+") <> None.
Proof.
  split; [vm_compute; reflexivity|]. split; [vm_compute; reflexivity|]. split; [vm_compute; reflexivity|]. split; [|vm_compute; discriminate].
  intros toks k R I. vm_compute in R. inversion R; subst. destruct I as [<-|[]]. vm_compute. discriminate.
Qed.

(** the two conditions are needed: a class that has '/' and other characters *)
Theorem C26_slash_refuted : exists h url m raw fs path node, url_path nv0 url = Some (m, raw) /\ Forall (fun w => ~ In 92%N w) raw /\
  match_url nv0 (mloads nv0 h) url = Ok fs /\ In (path, node) fs /\ Forall (fun P => rparse P <> None) (map mp_str path) /\
  ~ Forall2 regex_matches (map mp_str path) raw.
Proof.
  exists [(u "/[\?]k=[%/]{2}[/0-9]{2}", None)], (u "http://h/?k=%%//5"). eexists. eexists. eexists. eexists. eexists.
  split; [vm_compute; reflexivity|]. split; [apply Forall_forall; intros w [<-|[<-|[]]]; cbn; intuition discriminate|].
  split; [vm_compute; reflexivity|]. split; [apply (nth_error_In _ 0); vm_compute; reflexivity|]. split; [apply Forall_forall; intros w [<-|[<-|[]]]; vm_compute; discriminate|].
  intros F. inversion F as [|? ? ? ? _ F2]; subst. inversion F2 as [|? ? ? ? (toks & R & H) _]; subst. vm_compute in R. inversion R; subst.
  destruct H as (a & b & E & _ & L & (c & d & E2 & _ & L2 & ->)). cbn [rnum] in L, L2.
  assert (LA : length a = 2) by lia. assert (LC : length c = 2) by lia. apply (f_equal (@length char)) in E. apply (f_equal (@length char)) in E2. rewrite app_length in E, E2. cbn in E, E2. lia.
Qed.
Print Assumptions C26_slash_refuted.
(** a backslash, which counts twice *)
Theorem C26_backslash_refuted : exists h url m raw fs path node, url_path nv0 url = Some (m, raw) /\
  match_url nv0 (mloads nv0 h) url = Ok fs /\ In (path, node) fs /\ Forall (fun P => rparse P <> None /\ slash_alone P) (map mp_str path) /\
  ~ Forall2 regex_matches (map mp_str path) raw.
Proof.
  exists [(u "/[\\a-z]{4}", None)], (u "http://h/a\b"). eexists. eexists. eexists. eexists. eexists.
  split; [vm_compute; reflexivity|]. split; [vm_compute; reflexivity|]. split; [apply (nth_error_In _ 0); vm_compute; reflexivity|].
  split. { constructor; [|constructor]. split; [vm_compute; discriminate|]. intros toks k R I. vm_compute in R. inversion R; subst. destruct I as [<-|[]]. vm_compute. discriminate. }
  intros F. inversion F as [|? ? ? ? (toks & R & H) _]; subst. vm_compute in R. inversion R; subst. destruct H as (a & b & E & _ & L & B). cbn in B. subst b.
  rewrite app_nil_r in E. subst a. vm_compute in L. discriminate.
Qed.
Print Assumptions C26_backslash_refuted.
