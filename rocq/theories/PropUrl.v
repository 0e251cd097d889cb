(** C08, C09, C11, C14: URL structure, packed patterns, digests. *)
From Coq Require Import String.
From Verif Require Import PyStr Defs UrlLib ParseUtils Spec UrlProofs PackProofs DigestProofs.

(** C08.  [nv] decides which bracketed hosts urllib accepts; ValueError is the
    only exception. *)
Theorem C08_query_fragment_exact : forall nv url,
  ~ In 9%N url -> ~ In 10%N url -> ~ In 13%N url -> url <> [] -> (forall r, url <> 35%N :: r) ->
  (forall p, parse_url nv url = Ok p -> query_of url (up_query p) /\ fragment_of url (up_fragment p)) /\
  (forall e, parse_url nv url = Err e -> e = EValue).
Proof. exact c08. Qed.
Print Assumptions C08_query_fragment_exact.
(** without the side conditions it is false: '#?' has no query, a TAB after the
    '#' hides the fragment, '' raises IndexError *)
Theorem C08_query_fragment_refuted :
  (exists p, parse_url (fun _ => true) (u "#?") = Ok p /\ up_query p = Some [] /\ ~ query_of (u "#?") (Some [])) /\
  (exists p, parse_url (fun _ => true) (u "/a#" ++ [9%N]) = Ok p /\ up_fragment p = None /\
     ~ fragment_of (u "/a#" ++ [9%N]) None) /\
  parse_url (fun _ => true) [] = Err EIndex.
Proof.
  split; [|split; [|reflexivity]].
  - eexists. split; [vm_compute; reflexivity|]. split; [reflexivity|].
    intros (base & (Hn & H) & (a & E & _)). destruct H as [<-|(t & H)]; [apply Hn; vm_compute; auto|].
    subst base. destruct a; vm_compute in H; inversion H; subst. apply Hn. simpl. auto.
  - eexists. split; [vm_compute; reflexivity|]. split; [reflexivity|].
    intros H. apply H. vm_compute. auto.
Qed.
Print Assumptions C08_query_fragment_refuted.
Example C08_case : exists p, parse_url (fun _ => true) (u "http://h/a/b?#x?y#z") = Ok p /\
  up_path p = u "/a/b" /\ up_query p = Some [] /\ up_fragment p = Some (u "x?y#z").
Proof. eexists. split; [vm_compute; reflexivity|]. vm_compute. auto. Qed.

(** C09. *)
Theorem C09_structure_describes_pieces : forall nv url m raw, analyze_url nv url = Ok (m, raw) ->
  exists pp vs fr, raw = pp ++ vs ++ fr /\
    path_depth m = length pp /\ length (query_keys m) = length vs /\
    (if has_fragment m then 1 else 0) = length fr /\ length raw = depth m /\
    1 <= length pp /\
    Forall (fun w => ~ In 47%N w /\ ~ In 63%N w /\ ~ In 35%N w) pp /\
    Forall (fun w => w <> []) (removelast pp) /\
    Forall (fun v => ~ In 38%N v /\ ~ In 35%N v) vs.
Proof. exact c09. Qed.
Print Assumptions C09_structure_describes_pieces.
Example C09_case : analyze_url (fun _ => true) (u "http://h/a//b.c/?k=v&q#f") =
  Ok (UM 3 [u "k="; u "q"] true, [u "a"; u "b.c"; u ""; u "v"; u ""; u "f"]).
Proof. vm_compute. reflexivity. Qed.

(** C11. *)
Theorem C11_packed_pattern_parses_back : forall nv url m raw pats,
  analyze_url nv url = Ok (m, raw) -> Forall2 fits raw pats ->
  analyze_url_pattern_string (pack m pats) = Ok (m, pats).
Proof. exact c11. Qed.
Print Assumptions C11_packed_pattern_parses_back.
Theorem C11_packed_pattern_unambiguous : forall nv1 nv2 url1 url2 m1 m2 raw1 raw2 p1 p2,
  analyze_url nv1 url1 = Ok (m1, raw1) -> analyze_url nv2 url2 = Ok (m2, raw2) ->
  Forall2 fits raw1 p1 -> Forall2 fits raw2 p2 -> pack m1 p1 = pack m2 p2 -> m1 = m2 /\ p1 = p2.
Proof. exact pack_inj. Qed.
Print Assumptions C11_packed_pattern_unambiguous.
Example C11_case : exists m raw,
  analyze_url (fun _ => true) (u "http://h/a.1/b?k.=v/w#f=g") = Ok (m, raw) /\
  Forall2 fits raw [u "[0-9\.a-z]+"; u "b"; u "[/a-z]{3}"; u "[=a-z]+"] /\
  pack m [u "[0-9\.a-z]+"; u "b"; u "[/a-z]{3}"; u "[=a-z]+"] = u "/[0-9\.a-z]+/b[\?]k[\.]=[/a-z]{3}#[=a-z]+".
Proof.
  eexists. eexists. split; [vm_compute; reflexivity|]. split; [|vm_compute; reflexivity].
  repeat (apply Forall2_cons || apply Forall2_nil); (split; [|split; discriminate]);
  intros c H H2; vm_compute in H, H2; intuition (subst; try discriminate); vm_compute; auto.
Qed.

(** C14.  md5 is modelled as injective. *)
Theorem C14_same_digest_iff : forall nv1 nv2 url1 url2 m1 m2 raw1 raw2 p1 p2,
  analyze_url nv1 url1 = Ok (m1, raw1) -> mapM piece_parse raw1 = Ok p1 ->
  analyze_url nv2 url2 = Ok (m2, raw2) -> mapM piece_parse raw2 = Ok p2 ->
  (fuzzy_digest m1 (map fuzzy_rule p1) = fuzzy_digest m2 (map fuzzy_rule p2) <->
   m1 = m2 /\ Forall2 same_spaces raw1 raw2).
Proof. exact c14. Qed.
Print Assumptions C14_same_digest_iff.
Example C14_case : exists m1 r1 p1 m2 r2 p2,
  analyze_url (fun _ => true) (u "http://h/a1/b?k=v") = Ok (m1, r1) /\ mapM piece_parse r1 = Ok p1 /\
  analyze_url (fun _ => true) (u "http://g/2x3/zz?k=w") = Ok (m2, r2) /\ mapM piece_parse r2 = Ok p2 /\
  fuzzy_digest m1 (map fuzzy_rule p1) = fuzzy_digest m2 (map fuzzy_rule p2) /\ p1 <> p2.
Proof.
  do 6 eexists. do 4 (split; [vm_compute; reflexivity|]). split; [vm_compute; reflexivity|discriminate].
Qed.
