(** C46: how absolute URLs are read. *)
From Coq Require Import String.
From Verif Require Import PyStr Defs UrlLib ParseUtils Spec Views Trees Cluster Patterns Matcher Maker Observe GrammarSpec UrlSpec PyStrProofs UrlExact.
From Coq Require Import Lia.

(** C46.  Of scheme://host path ?q #f, the cut of [UrlSpec.absolute]; [path'] is the
    path without the parameters that urllib takes off, which always exists. *)
Theorem C46_cut_exists : forall scheme path, scheme_text scheme -> path = [] \/ (exists r, path = u "/" ++ r) ->
  exists path', cut_params scheme path path'.
Proof. exact cut_params_total. Qed.
Print Assumptions C46_cut_exists.
Theorem C46_parse_url : forall nv url scheme host path path' q f, absolute url scheme host path q f -> cut_params scheme path path' ->
  (host_ok nv host -> exists p, parse_url nv url = Ok p /\ up_scheme p = map to_lower scheme /\ up_netloc p = host /\
     up_path p = path' /\ up_query p = q /\ up_fragment p = f) /\
  (~ host_ok nv host -> parse_url nv url = Err EValue).
Proof. exact abs_parse. Qed.
Print Assumptions C46_parse_url.
(** depth, keys, fragment and raw pieces, exactly *)
Theorem C46_structure : forall nv url scheme host path path' q f, absolute url scheme host path q f -> cut_params scheme path path' ->
  host_ok nv host -> forall d ks hf raw, analyze_url nv url = Ok (UM d ks hf, raw) <->
    exists ks0, url_pieces path' q f d ks0 hf raw /\ mapM (fun k => normalize k [EQUALS]) ks0 = Ok ks.
Proof. exact abs_analyze. Qed.
Print Assumptions C46_structure.
Theorem C46_keys : forall k k', Forall legal k -> (normalize k [EQUALS] = Ok k' <-> key_text k k').
Proof. exact c46_keys. Qed.
Print Assumptions C46_keys.
(** which absolute URLs PatternMaker.load accepts, after any loads, and which
    exception the others raise *)
Theorem C46_load_accepts_exactly : forall nv url scheme host path path' q f, absolute url scheme host path q f -> cut_params scheme path path' ->
  forall h me, (exists b, snd (load nv (loads nv h) url me) = Ok b) <->
    host_ok nv host /\ exists d ks hf raw, url_pieces path' q f d ks hf raw /\ Forall (Forall legal) raw.
Proof. exact c46_accepts. Qed.
Print Assumptions C46_load_accepts_exactly.
Theorem C46_load_rejects_exactly : forall nv url scheme host path path' q f, absolute url scheme host path q f -> cut_params scheme path path' ->
  forall h me e, snd (load nv (loads nv h) url me) = Err e <->
    (e = EValue /\ ~ host_ok nv host) \/
    (e = EIrregularURL /\ host_ok nv host /\ (path' = [] \/ exists t, q = Some t /\ amp_misplaced t)) \/
    (e = EInvalidChar /\ host_ok nv host /\ exists d ks hf raw, url_pieces path' q f d ks hf raw /\ ~ Forall (Forall legal) raw).
Proof. exact c46_rejects. Qed.
Print Assumptions C46_load_rejects_exactly.
(** scheme, host and parameters of the last segment do not count *)
Theorem C46_host_and_params_ignored : forall nv h url1 me1 url2 me2 s1 h1 p1 s2 h2 p2 path' q f b,
  In (url1, me1) h -> absolute url1 s1 h1 p1 q f -> cut_params s1 p1 path' -> absolute url2 s2 h2 p2 q f -> cut_params s2 p2 path' ->
  snd (load nv (loads nv []) url1 me1) = Ok b -> host_ok nv h2 -> snd (load nv (loads nv h) url2 me2) = Ok false.
Proof. exact c46_same. Qed.
Print Assumptions C46_host_and_params_ignored.
(** the pattern a URL gets matches its very text from the path on, if no "//" is in
    the path and no parameters were cut off *)
Theorem C46_pattern_matches_text : forall nv h mcn cs url me scheme host path path' q f m raw, (2 <= mcn)%Z -> make mcn (loads nv h) = Ok cs ->
  In (url, me) h -> absolute url scheme host path q f -> cut_params scheme path path' -> url_path nv url = Some (m, raw) ->
  Forall (fun w => ~ In 92%N w) raw -> (forall t, q = Some t -> Forall legal t) -> (forall a b, path' <> a ++ u "//" ++ b) ->
  exists t nodes, In (m, t) cs /\ In nodes (paths t) /\ path_pieces nodes = map piece_of raw /\
    regex_matches (pack m (path_patterns nodes)) (path' ++ opt_text (u "?") q ++ opt_text (u "#") f).
Proof. exact c46_text. Qed.
Print Assumptions C46_pattern_matches_text.
(** so the text of the whole path is not always matched: ";x" is gone *)
Theorem C46_whole_path_refuted : exists h url path m raw cs, h = [(url, None)] /\ url = u "http://h" ++ path /\ path = u "/a;x" /\
  url_path (fun _ => true) url = Some (m, raw) /\ make 3 (loads (fun _ => true) h) = Ok cs /\
  forall t nodes, In (m, t) cs -> In nodes (paths t) -> ~ regex_matches (pack m (path_patterns nodes)) path.
Proof.
  exists [(u "http://h/a;x", None)], (u "http://h/a;x"), (u "/a;x"). do 3 eexists. split; [reflexivity|]. split; [reflexivity|]. split; [reflexivity|].
  split; [vm_compute; reflexivity|]. split; [vm_compute; reflexivity|].
  intros t nodes [E|[]] I. inversion E; subst. vm_compute in I. destruct I as [<-|[]].
  intros (toks & P & M). vm_compute in P. inversion P; subst toks. clear - M. destruct M as (a & b & E1 & _ & L1 & a2 & b2 & E2 & _ & L2 & E3). cbn [rnum] in *. cbn [toks_match] in E3. subst b2 b. rewrite app_nil_r in E1.
  apply (f_equal (@length N)) in E1. rewrite app_length in E1. destruct a as [|? [|? ?]]; cbn in L1; try discriminate; try lia.
  destruct a2 as [|? [|? ?]]; cbn in L2; try discriminate; try lia.
Qed.
Print Assumptions C46_whole_path_refuted.
Definition case_url : str := u "HTTP://h/a;b/c;x?k.=1&l#f".
Example C46_case :
  absolute case_url (u "HTTP") (u "h") (u "/a;b/c;x") (Some (u "k.=1&l")) (Some (u "f")) /\
  cut_params (u "HTTP") (u "/a;b/c;x") (u "/a;b/c") /\ host_ok (fun _ => true) (u "h") /\
  url_pieces (u "/a;b/c") (Some (u "k.=1&l")) (Some (u "f")) 2 [u "k.="; u "l"] true [u "a;b"; u "c"; u "1"; u ""; u "f"] /\
  key_text (u "k.=") (u "k[\.]=") /\
  snd (load (fun _ => true) (loads (fun _ => true) [(u "ftp://g/a;b/c?k.=1&l#f", None)]) case_url None) = Ok false.
Proof.
  assert (NI : forall (l : str) c, char_in c l = false -> ~ In c l) by (intros l c H X; apply char_in_In in X; congruence).
  assert (AI : forall p l, forallb p l = true -> Forall (fun c : N => p c = true) l) by (intros p l H; apply Forall_forall; rewrite forallb_forall in H; exact H).
  split; [|split; [|split; [|split; [|split; [|vm_compute; reflexivity]]]]].
  - split; [reflexivity|]. split; [split|].
    + exists 72%N, (u "TTP"). split; [reflexivity|]. apply char_in_In. reflexivity.
    + apply Forall_forall. intros c C. apply char_in_In. revert c C. apply Forall_forall. apply AI. reflexivity.
    + split; [apply Forall_forall; intros c C; apply NI; revert c C; apply Forall_forall; repeat constructor|].
      split; [right; eexists; reflexivity|]. split; [apply Forall_forall; intros c C; apply NI; revert c C; apply Forall_forall; repeat constructor|].
      split; [intros t E; inversion E; subst; apply NI; reflexivity|]. apply Forall_forall; intros c C; apply NI; revert c C; apply Forall_forall; repeat constructor.
  - right. split; [vm_compute; auto 10|]. split.
    + intros a b E. change (u "/a;b/c") with (u "/a" ++ 59%N :: u "b/c") in E. destruct a as [|? [|? [|? [|? [|? [|? [|? ?]]]]]]]; cbn in E; inversion E; subst. apply char_in_In. reflexivity.
    + exists (u "x"). split; [reflexivity|apply NI; reflexivity].
  - split; [|reflexivity]. split; intros X; exfalso; revert X; apply NI; reflexivity.
  - exists [u "a;b"; u "c"], [u "1"; u ""]. split; [exists [u "a;b"], (u "c"); split; [reflexivity|]; split; [repeat constructor; apply NI; reflexivity|reflexivity]|].
    split; [|split; [reflexivity|split; reflexivity]]. split; [discriminate|]. split; [reflexivity|]. split; [reflexivity|]. constructor; [|constructor; [|constructor]].
    + split; [left; exists (u "k."); split; [reflexivity|apply NI; reflexivity]|]. split; [apply NI; reflexivity|discriminate].
    + split; [right; left; split; [reflexivity|]; split; [apply NI; reflexivity|reflexivity]|]. split; [apply NI; reflexivity|discriminate].
  - apply C46_keys; [apply Forall_forall; intros c C; apply char_in_In; revert c C; apply Forall_forall; apply AI; reflexivity|vm_compute; reflexivity].
Qed.
