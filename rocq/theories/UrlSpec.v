(** Absolute URLs: the vocabulary of C46. *)
From Coq Require Import String.
From Verif Require Import PyStr Spec GrammarSpec.

Definition scheme_text (s : str) : Prop :=
  (exists c r, s = c :: r /\ In c (lowercase ++ uppercase)) /\ Forall (fun c => In c (letters_digits ++ u "+-.")) s.
(** [absolute url scheme host path q f]: the parts of scheme://host path ?q #f *)
Definition absolute (url scheme host path : str) (q f : option str) : Prop :=
  url = scheme ++ u "://" ++ host ++ path ++ opt_text (u "?") q ++ opt_text (u "#") f /\
  scheme_text scheme /\ Forall (fun c => ~ In c (u "/?#")) host /\
  (path = [] \/ exists r, path = u "/" ++ r) /\ Forall (fun c => ~ In c (u "?#")) path /\
  (forall t, q = Some t -> ~ In 35%N t) /\ Forall (fun c => ~ In c [9; 10; 13]%N) url.

(** the schemes, in lower case, for which urllib cuts parameters off the path *)
Definition param_schemes : list str :=
  map (fun x => u x)
   ["ftp"; "hdl"; "prospero"; "http"; "imap"; "https"; "shttp"; "rtsp"; "rtsps"; "rtspu"; "sip"; "sips"; "mms"; "sftp"; "tel"]%string.
Definition to_lower (c : char) : char := if char_in c uppercase then (c + 32)%N else c.
(** [cut_params scheme path path']: [path'] is [path] up to the first ';' of its last
    segment, if there is one and the scheme has parameters *)
Definition cut_params (scheme path path' : str) : Prop :=
  (path' = path /\ (~ In (map to_lower scheme) param_schemes \/ forall a b, path = a ++ u ";" ++ b -> In 47%N b)) \/
  (In (map to_lower scheme) param_schemes /\ (forall a b, path' = a ++ u ";" ++ b -> In 47%N b) /\
   exists c, path = path' ++ u ";" ++ c /\ ~ In 47%N c).
(** brackets come in pairs, and the check of the network location succeeds *)
Definition host_ok (nv : str -> bool) (host : str) : Prop := (In 91%N host <-> In 93%N host) /\ nv host = true.
(** the pieces of a URL with the given parts *)
Definition url_pieces (path : str) (q f : option str) (d : nat) (ks : list str) (hf : bool) (raw : list str) : Prop :=
  exists ps vs, path_parts path ps /\ query_parts q ks vs /\ d = length ps /\
    hf = match f with Some _ => true | None => false end /\
    raw = ps ++ vs ++ match f with Some t => [t] | None => [] end.
(** [key_text k k']: the key [k] is written [k'], with its symbols as classes and its
    '=' as they are *)
Definition key_text (k k' : str) : Prop :=
  exists ws, maximal_runs k ws /\
    k' = List.concat (map (fun w => match w with 61%N :: _ => w | _ => run_text w end) ws).
