(** URLs without scheme or host, and with blanks: the vocabulary of C59. *)
From Coq Require Import String.
From Verif Require Import PyStr Spec GrammarSpec UrlSpec.

(** TAB, LF, CR *)
Definition dirt : str := [9; 10; 13]%N.
(** [body] is [url] without the blanks and control characters it begins with, and
    without TAB, LF and CR *)
Definition body_of (url body : str) : Prop :=
  exists blank rest, url = blank ++ rest /\ Forall (fun c => (c <= 32)%N) blank /\ (forall c r, rest = c :: r -> (32 < c)%N) /\
    body = filter (fun c => negb (char_in c dirt)) rest.

Definition opt_scheme (o : option str) : str := match o with Some s => s ++ u ":" | None => [] end.
(** [reference body scheme host path q f]: the parts of [scheme:][//host]path[?q][#f] *)
Definition reference (body : str) (scheme host : option str) (path : str) (q f : option str) : Prop :=
  body = opt_scheme scheme ++ opt_text (u "//") host ++ path ++ opt_text (u "?") q ++ opt_text (u "#") f /\
  match scheme with Some s => scheme_text s | None => forall a b, body = a ++ u ":" ++ b -> ~ scheme_text a end /\
  match host with
  | Some h => Forall (fun c => ~ In c (u "/?#")) h /\ (path = [] \/ exists r, path = u "/" ++ r)
  | None => forall r, path <> u "//" ++ r
  end /\
  Forall (fun c => ~ In c (u "?#")) path /\ (forall t, q = Some t -> ~ In 35%N t).
(** parameters are cut off as in http, if there is no scheme *)
Definition scheme_or_http (o : option str) : str := match o with Some s => s | None => u "http" end.
Definition or_empty (o : option str) : str := match o with Some s => s | None => [] end.
(** [url] has the sign [c] before its last [length t] characters *)
Definition sign_before (url : str) (c : char) (t : str) : Prop := exists a b, url = a ++ c :: b /\ length b = length t.
(** parse_url looks at the end of the text as it was given, TAB, LF and CR included, to
    tell an empty query or fragment from none.  What it makes of [q] and [f]: an empty fragment counts if
    [url] ends with '#'; an empty query counts, whether there is one or not, if there is a
    '?' where it would have to be, counted from the end of [url] *)
Definition seen (url : str) (q f q' f' : option str) : Prop :=
  match f with
  | Some [] => (f' = Some [] /\ sign_before url 35%N []) \/ (f' = None /\ ~ sign_before url 35%N [])
  | _ => f' = f
  end /\
  match q with
  | Some (_ :: _) => q' = q
  | _ => (q' = Some [] /\ sign_before url 63%N (opt_text (u "#") f')) \/ (q' = None /\ ~ sign_before url 63%N (opt_text (u "#") f'))
  end.
