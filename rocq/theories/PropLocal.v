(** C49: strings of different fuzzy digests do not influence each other. *)
From Coq Require Import String.
From Verif Require Import PyStr Defs UrlLib ParseUtils Spec Views Trees Cluster Patterns Matcher Maker Format Cmd Observe MatchSpec LocalSpec PropMake Local.

(** C49.  make() after any loads yields, digest by digest in the order of their
    first URLs, the clusters that a fresh PatternMaker yields that was given the
    URLs of this digest alone; it raises exactly if one of these does *)
Theorem C49_make_by_digest : forall nv h mcn, make mcn (loads nv h) =
  (rs <- mapM (fun sid => make mcn (loads nv (own_loads nv sid h))) (digests nv h) ;; Ok (List.concat rs)).
Proof. exact c49_make. Qed.
Print Assumptions C49_make_by_digest.

(** the trees kept for a digest depend on the loads of this digest only *)
Theorem C49_maker_of_digest : forall nv sid h, dget str_eqb sid (loads nv h) = dget str_eqb sid (loads nv (own_loads nv sid h)).
Proof. exact own_maker. Qed.
Print Assumptions C49_maker_of_digest.

(** what pattern-make prints is, digest by digest, what it prints for the lines of
    the URLs of this digest *)
Theorem C49_make_run : forall nv mcn f lines, (2 <= mcn)%Z -> exists outs,
  Forall2 (fun sid out => make_run nv mcn f (own_lines nv sid lines) = Ok out) (digests nv (line_loads nv (wants_url f) lines)) outs /\
  make_run nv mcn f lines = Ok (List.concat outs).
Proof. exact c49_run. Qed.
Print Assumptions C49_make_run.

(** the answer of match() depends on the loaded patterns with the digest of the
    string only; loads of other digests can be added, left out or moved *)
Theorem C49_match_by_digest : forall nv h s sid, string_digest nv s = Some sid ->
  match_url nv (mloads nv h) s = match_url nv (mloads nv (own_loads nv sid h)) s.
Proof. exact c49_match. Qed.
Print Assumptions C49_match_by_digest.
Theorem C49_match_same : forall nv h h' s, (forall sid, string_digest nv s = Some sid -> own_loads nv sid h = own_loads nv sid h') ->
  match_url nv (mloads nv h) s = match_url nv (mloads nv h') s.
Proof. exact c49_match_same. Qed.
Print Assumptions C49_match_same.

(** five digests; the second has three URLs loaded between the others *)
Example C49_case : length (digests nv0 case_h) = 5 /\
  map (fun sid => map fst (own_loads nv0 sid case_h)) (firstn 2 (digests nv0 case_h)) =
    [[u "http://h/a1b2c3"; u "http://h/a2b2d3"; u "http://h/a2b2d3"];
     [u "http://h/a.html"; u "http://h/c.html"; u "http://h/d.html"]] /\
  map (fun sid => seen (make 2 (loads nv0 (own_loads nv0 sid case_h)))) (firstn 2 (digests nv0 case_h)) =
    [[(u "/[0-9a-z]{6}", [[u "a1b2c3"]; [u "a2b2d3"]])];
     [(u "/[a-z][\.]html", [[u "a[\.]html"]; [u "c[\.]html"]; [u "d[\.]html"]])]].
Proof. vm_compute. auto. Qed.
Definition local_h : list (str * option str) := [(u "/[a-z]+", Some (u "x")); (u "/[0-9]+", None); (u "/a[a-z]", None); (u "/[0-9]{2}", None)].
Example C49_case_match : exists fs sid, string_digest nv0 (u "http://h/12") = Some sid /\
  own_loads nv0 sid local_h = [(u "/[0-9]+", None); (u "/[0-9]{2}", None)] /\
  match_url nv0 (mloads nv0 local_h) (u "http://h/12") = Ok fs /\ length fs = 2.
Proof. eexists. eexists. split; [vm_compute; reflexivity|]. split; [vm_compute; reflexivity|]. split; [vm_compute; reflexivity|]. vm_compute. reflexivity. Qed.
