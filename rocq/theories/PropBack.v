(** C64: what backslashes do to the patterns of make(). *)
From Coq Require Import String.
From Verif Require Import PyStr Defs UrlLib ParseUtils Spec Trees Cluster Patterns Matcher Maker Observe MatchSpec TightSpec BackSpec PyStrProofs BackProofs PropMake.

(** Of a cluster of make() the pieces of each URL and the parts of the pattern can
    be cut side by side. *)
Theorem C64_parts : forall nv h mcn cs m t nodes raw,
  (2 <= mcn)%Z -> make mcn (loads nv h) = Ok cs -> In (m, t) cs -> In nodes (paths t) ->
  Forall (Forall legal) raw -> path_pieces nodes = map piece_of raw ->
  exists ls, cuts_of raw (path_patterns nodes) ls.
Proof. exact c64_parts. Qed.
Print Assumptions C64_parts.
(** A unit matches its text unless its number counts the backslashes twice. *)
Theorem C64_part_matches : forall x p, Forall legal x -> part_of x p -> (regex_matches p x <-> ~ miscounted x p).
Proof. exact part_matches. Qed.
Print Assumptions C64_part_matches.
(** The pattern matches the URL if no unit of it counts backslashes. *)
Theorem C64_url_matches : forall nv h mcn cs url me m raw p, (2 <= mcn)%Z -> make mcn (loads nv h) = Ok cs ->
  In (url, me) h -> url_path nv url = Some (m, raw) -> parse_url nv url = Ok p ->
  match up_query p with Some q => Forall legal q | None => True end ->
  forall t nodes ls, In (m, t) cs -> In nodes (paths t) -> path_pieces nodes = map piece_of raw ->
    cuts_of raw (path_patterns nodes) ls -> (forall l x p, In l ls -> In (x, p) l -> ~ miscounted x p) ->
    regex_matches (pack m (path_patterns nodes)) (url_text p).
Proof. exact c64_url. Qed.
Print Assumptions C64_url_matches.
(** A part of a pattern is read back exactly if none of its units is left open. *)
Theorem C64_part_accepted : forall w P l, Forall legal w -> parts_of w P l ->
  ((exists us, pattern_units P = Ok us) <-> Forall (fun xp => ~ left_open (snd xp)) l).
Proof. exact parts_accepted. Qed.
Print Assumptions C64_part_accepted.
(** The matcher accepts the pattern if no unit is left open; it then reads the
    patterns of the cluster, under the digest of its URLs. *)
Theorem C64_load_accepts : forall nv h mcn cs m t nodes raw,
  (2 <= mcn)%Z -> make mcn (loads nv h) = Ok cs -> In (m, t) cs -> In nodes (paths t) ->
  Forall (Forall legal) raw -> path_pieces nodes = map piece_of raw ->
  forall ls, cuts_of raw (path_patterns nodes) ls -> (forall l x p, In l ls -> In (x, p) l -> ~ left_open p) ->
  (exists mps, parse nv (pack m (path_patterns nodes)) = Ok (m, PPat mps) /\ map mp_str mps = path_patterns nodes /\
     parsed_digest m (PPat mps) = digest_of m raw) /\
  forall h' me, exists b, snd (match_load nv (mloads nv h') (pack m (path_patterns nodes)) me) = Ok b.
Proof. exact c64_accepted. Qed.
Print Assumptions C64_load_accepts.
(** Otherwise it raises InvalidPatternException and stays as it is. *)
Theorem C64_load_rejects : forall nv h mcn cs m t nodes raw,
  (2 <= mcn)%Z -> make mcn (loads nv h) = Ok cs -> In (m, t) cs -> In nodes (paths t) ->
  Forall (Forall legal) raw -> path_pieces nodes = map piece_of raw ->
  forall ls l x p, cuts_of raw (path_patterns nodes) ls -> In l ls -> In (x, p) l -> left_open p ->
  forall st me, match_load nv st (pack m (path_patterns nodes)) me = (st, Err EInvalidPattern).
Proof. exact c64_rejects. Qed.
Print Assumptions C64_load_rejects.
(** So the pattern of a single URL with a backslash is always rejected. *)
Theorem C64_single_url : forall nv h mcn cs m t nodes raw w,
  (2 <= mcn)%Z -> make mcn (loads nv h) = Ok cs -> In (m, t) cs -> paths t = [nodes] ->
  Forall (Forall legal) raw -> path_pieces nodes = map piece_of raw -> In w raw -> In 92%N w ->
  forall st me, match_load nv st (pack m (path_patterns nodes)) me = (st, Err EInvalidPattern).
Proof. exact c64_single. Qed.
Print Assumptions C64_single_url.

(** one cluster per history; the first pattern is accepted and matches its URLs,
    the second is accepted and matches none, the third and the fourth are rejected *)
Definition bs_a : list (str * option str) := map (fun s : string => (u s, None)) ["http://h/a\b\c"; "http://h/\ab\d"; "http://h/a\b"]%string.
Definition bs_b : list (str * option str) := map (fun s : string => (u s, None)) ["http://h/a\b\c"; "http://h/\ab\d"]%string.
Definition bs_c : list (str * option str) := map (fun s : string => (u s, None)) ["http://h/A\B\C"; "http://h/\AB\D"]%string.
Definition bs_d : list (str * option str) := map (fun s : string => (u s, None)) ["http://h/a\b"; "http://h/a\c"]%string.
Definition patterns_of (h : list (str * option str)) : list str := map fst (seen (make 2 (loads nv0 h))).
Example C64_case :
  patterns_of bs_a = [u "/[\\a-z]+"] /\ patterns_of bs_b = [u "/[\\a-z]{7}"] /\ patterns_of bs_c = [u "/[A-Z\\]{7}"] /\ patterns_of bs_d = [u "/a[\\][a-z]"] /\
  (exists b, snd (match_load nv0 [] (u "/[\\a-z]+") None) = Ok b) /\ (exists b, snd (match_load nv0 [] (u "/[\\a-z]{7}") None) = Ok b) /\
  snd (match_load nv0 [] (u "/[A-Z\\]{7}") None) = Err EInvalidPattern /\ snd (match_load nv0 [] (u "/a[\\][a-z]") None) = Err EInvalidPattern.
Proof. repeat split; try (eexists; vm_compute; reflexivity); vm_compute; reflexivity. Qed.
Example C64_case_cut :
  cuts_of [u "\ab\d"] [u "[\\a-z]{7}"] [[(u "\ab\d", u "[\\a-z]{7}")]] /\ miscounted (u "\ab\d") (u "[\\a-z]{7}") /\ ~ left_open (u "[\\a-z]{7}") /\
  left_open (u "[A-Z\\]{7}") /\ left_open (u "[\\]").
Proof. exact c64_case. Qed.
