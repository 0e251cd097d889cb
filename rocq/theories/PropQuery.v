(** C06, C07, C10: path filtering, query strings, query keys. *)
From Coq Require Import String.
From Verif Require Import PyStr Defs ParseUtils Spec QueryProofs BridgeProofs.

(** C06.  Every list is empty or [l ++ [x]]; filter_useless keeps the last
    entry and the non-empty ones among the others. *)
Theorem C06_filter_useless : forall A (truthy : A -> bool) (l : list A) (x : A),
  filter_useless truthy (l ++ [x]) = filter truthy l ++ [x].
Proof. exact c06. Qed.
Print Assumptions C06_filter_useless.
Theorem C06_filter_useless_empty : forall A (truthy : A -> bool) (l : list A),
  filter_useless truthy l = [] <-> l = [].
Proof. exact filter_useless_nil. Qed.
Print Assumptions C06_filter_useless_empty.
Theorem C06_filter_useless_idempotent : forall A (truthy : A -> bool) (l : list A),
  filter_useless truthy (filter_useless truthy l) = filter_useless truthy l.
Proof. exact filter_useless_idem. Qed.
Print Assumptions C06_filter_useless_idempotent.
Example C06_case : filter_useless nonempty [u ""; u "a"; u ""; u "b"; u ""] = [u "a"; u "b"; u ""].
Proof. reflexivity. Qed.

(** C07.  IrregularURLException iff '&' is misplaced; otherwise keys and values
    rebuild the query and are divided at the first '='. *)
Theorem C07_query_rejected_iff : forall s, s <> [] ->
  (parse_query_string (Some s) = Err EIrregularURL <-> amp_misplaced s).
Proof. exact c07_err. Qed.
Print Assumptions C07_query_rejected_iff.
Theorem C07_query_lossless : forall s r, s <> [] ->
  parse_query_string (Some s) = r -> r <> Err EIrregularURL ->
  exists ks vs, r = Ok (ks, vs) /\ length ks = length vs /\ 1 <= length ks /\
    join [38%N] (map (fun kv => fst kv ++ snd kv) (combine ks vs)) = s /\
    Forall (fun kv => kv_ok (length ks =? 1) (fst kv) (snd kv) /\ ~ In 38%N (fst kv ++ snd kv))
           (combine ks vs).
Proof. exact c07_ok. Qed.
Print Assumptions C07_query_lossless.
Theorem C07_no_query : parse_query_string None = Ok ([], []) /\ parse_query_string (Some []) = Ok ([[]], [[]]).
Proof. exact (conj eq_refl eq_refl). Qed.
Print Assumptions C07_no_query.
Example C07_case : parse_query_string (Some (u "a=1=2&b&c=")) =
  Ok ([u "a="; u "b"; u "c="], [u "1=2"; u ""; u ""]) /\
  parse_query_string (Some (u "abc")) = Ok ([u ""], [u "abc"]) /\
  parse_query_string (Some (u "a&&b")) = Err EIrregularURL.
Proof. vm_compute. auto. Qed.

(** C10.  Normalized legal keys are unambiguous: read as a regular expression
    they match exactly the raw key. *)
Theorem C10_key_injective : forall s t, Forall legal s -> Forall legal t ->
  normalize s (u "=") = normalize t (u "=") -> s = t.
Proof. exact c10_inj. Qed.
Print Assumptions C10_key_injective.
Theorem C10_key_regex : forall s, Forall legal s ->
  exists k, normalize s (u "=") = Ok k /\ forall t, regex_matches k t <-> t = s.
Proof. exact c10_regex. Qed.
Print Assumptions C10_key_regex.
(** the second half is false: illegal characters are not rejected, and two
    different keys collide *)
Theorem C10_illegal_key_rejected_refuted : exists s t k, s <> t /\ ~ Forall legal s /\
  normalize s (u "=") = Ok k /\ normalize t (u "=") = Ok k.
Proof.
  exists [233%N; 61%N], [234%N; 61%N], (u "[None]="). split; [discriminate|]. split.
  - intros H. inversion H as [|? ? L _]; subst. vm_compute in L. repeat destruct L as [L|L]; try discriminate. exact L.
  - vm_compute. auto.
Qed.
Print Assumptions C10_illegal_key_rejected_refuted.
Example C10_case : normalize (u "a.b..c=") (u "=") = Ok (u "a[\.]b[\.]{2}c=").
Proof. vm_compute. reflexivity. Qed.
