(** C15, C16, C18: loading into a PatternMaker. *)
From Coq Require Import String.
From Verif Require Import PyStr Defs UrlLib ParseUtils Spec Trees Cluster Patterns Matcher Maker Observe TreeProofs LoadProofs.

(** [h] is any history of loads (url, meta), including rejected ones. *)

(** C15. *)
Theorem C15_counts_distinct_urls : forall nv h sid mk pre,
  In (sid, mk) (loads nv h) -> Forall (Forall legal) pre ->
  cnt_at (mk_root mk) (map piece_of pre) =
  Z.of_nat (length (filter (prefixb pre) (distinct_paths nv sid h))).
Proof. exact c15_counts. Qed.
Print Assumptions C15_counts_distinct_urls.
(** at the root (no piece): all distinct paths *)
Theorem C15_root_count : forall nv h sid mk,
  In (sid, mk) (loads nv h) -> t_cnt (mk_root mk) = Z.of_nat (length (distinct_paths nv sid h)).
Proof. exact c15_root. Qed.
Print Assumptions C15_root_count.
Theorem C15_is_new_first_time : forall nv h url meta,
  match url_path nv url with
  | Some (m, raw) =>
      (snd (load nv (loads nv h) url meta) = Ok true /\ ~ (exists me, In (m, raw, me) (accepted nv h))) \/
      (snd (load nv (loads nv h) url meta) = Ok false /\ exists me, In (m, raw, me) (accepted nv h))
  | None => exists e, snd (load nv (loads nv h) url meta) = Err e
  end.
Proof. exact c15_new. Qed.
Print Assumptions C15_is_new_first_time.

(** the history of the examples: a URL twice, another one of the same digest, one
    of another digest and two that are rejected *)
Definition case_h : list (str * option str) :=
  [(u "http://h/a/b1", Some (u "x")); (u "http://g/a/b1", Some (u "w")); (u "http://h/a/c2", None);
   (u "http://h/a/b1", Some (u "x")); (u "http://h/a", Some (u "y")); (u "/a", Some (u "z"));
   (u "http://h/a/b 1", None)].
Example C15_case : exists sid mk, In (sid, mk) (loads (fun _ => true) case_h) /\
  length (distinct_paths (fun _ => true) sid case_h) = 2 /\ t_cnt (mk_root mk) = 2%Z /\
  cnt_at (mk_root mk) [piece_of (u "a")] = 2%Z /\ cnt_at (mk_root mk) [piece_of (u "a"); piece_of (u "b1")] = 1%Z.
Proof.
  eexists. eexists. split; [left; reflexivity|]. vm_compute. auto.
Qed.
Example C15_case_new : url_path (fun _ => true) (u "http://x/a/c2") = Some (UM 2 [] false, [u "a"; u "c2"]) /\
  snd (load (fun _ => true) (loads (fun _ => true) case_h) (u "http://x/a/c2") None) = Ok false /\
  snd (load (fun _ => true) (loads (fun _ => true) case_h) (u "http://x/a/c3") None) = Ok true.
Proof. vm_compute. auto. Qed.

(** C16. *)
Theorem C16_meta_is_the_set_loaded : forall nv h sid mk raw,
  In (sid, mk) (loads nv h) -> In raw (distinct_paths nv sid h) ->
  node_at (mk_root mk) (map piece_of raw) <> None /\
  match meta_at (mk_root mk) (map piece_of raw) with
  | None => forall x, ~ In (mk_meta mk, raw, Some x) (accepted nv h)
  | Some l => l <> [] /\ NoDup l /\ forall x, In x l <-> In (mk_meta mk, raw, Some x) (accepted nv h)
  end.
Proof. exact c16. Qed.
Print Assumptions C16_meta_is_the_set_loaded.
Example C16_case : exists sid mk, In (sid, mk) (loads (fun _ => true) case_h) /\
  In [u "a"; u "b1"] (distinct_paths (fun _ => true) sid case_h) /\
  meta_at (mk_root mk) (map piece_of [u "a"; u "b1"]) = Some [u "w"; u "x"] /\
  meta_at (mk_root mk) (map piece_of [u "a"; u "c2"]) = None.
Proof.
  eexists. eexists. split; [left; reflexivity|]. vm_compute. auto.
Qed.

(** C18. *)
Theorem C18_one_maker_per_digest : forall nv h, NoDup (map fst (loads nv h)) /\
  forall sid, In sid (map fst (loads nv h)) <->
    exists m raw meta, In (m, raw, meta) (accepted nv h) /\ digest_of m raw = sid.
Proof. exact c18_keys. Qed.
Print Assumptions C18_one_maker_per_digest.
Theorem C18_maker_paths : forall nv h sid mk, In (sid, mk) (loads nv h) ->
  wft (depth (mk_meta mk)) (mk_root mk) /\
  (forall ks, In ks (map path_pieces (paths (mk_root mk))) <->
     exists raw, In raw (distinct_paths nv sid h) /\ ks = map piece_of raw) /\
  NoDup (map path_pieces (paths (mk_root mk))) /\
  (forall raw1 raw2, In raw1 (distinct_paths nv sid h) -> In raw2 (distinct_paths nv sid h) ->
     length raw1 = depth (mk_meta mk) /\ Forall2 same_spaces raw1 raw2 /\ digest_of (mk_meta mk) raw1 = sid /\
     exists meta, In (mk_meta mk, raw1, meta) (accepted nv h)).
Proof. exact c18_paths. Qed.
Print Assumptions C18_maker_paths.
Example C18_case : length (loads (fun _ => true) case_h) = 2 /\
  exists sid mk, In (sid, mk) (loads (fun _ => true) case_h) /\ depth (mk_meta mk) = 2 /\
  map path_pieces (paths (mk_root mk)) = [[u "a"; u "b1"]; [u "a"; u "c2"]].
Proof.
  split; [vm_compute; reflexivity|]. eexists. eexists. split; [left; reflexivity|]. vm_compute. auto.
Qed.
