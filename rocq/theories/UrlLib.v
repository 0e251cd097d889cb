(** Model of CPython 3.11 urllib.parse.urlparse for str arguments, the only
    standard library function parse_utils.py:167 relies on (compat.py imports
    it).  Line references are to Lib/urllib/parse.py of CPython 3.11. *)
From Coq Require Import String.
From Verif Require Import PyStr Defs.

Record parse_result := PR {
  pr_scheme : str; pr_netloc : str; pr_path : str; pr_params : str;
  pr_query : str; pr_fragment : str }.

(** [url.lstrip(_WHATWG_C0_CONTROL_OR_SPACE)] *)
Fixpoint lstrip_c0 (s : str) : str :=
  match s with
  | c :: r => if (c <=? 32)%N then lstrip_c0 r else s
  | [] => []
  end.
(** removal of TAB, CR and LF (_UNSAFE_URL_BYTES_TO_REMOVE) *)
Definition unsafe_char (c : char) : bool := char_in c [9; 13; 10]%N.
Definition strip_unsafe (s : str) : str := filter (fun c => negb (unsafe_char c)) s.

(** text before / after the first occurrence of [c] *)
Fixpoint cut (c : char) (s : str) : option (str * str) :=
  match s with
  | [] => None
  | x :: r => if N.eqb x c then Some ([], r)
              else match cut c r with
                   | Some (a, b) => Some (x :: a, b)
                   | None => None
                   end
  end.

(** scheme_chars *)
Definition scheme_char (c : char) : bool := is_alnum c || char_in c (u "+-.").
(** str.lower on characters for which [scheme_char] holds *)
Definition lower_char (c : char) : char := if is_upper c then (c + 32)%N else c.

(** urlsplit: the scheme, if there is one, and the rest *)
Definition split_scheme (s : str) : str * str :=
  match cut 58%N s, s with
  | Some (c0 :: a, b), _ =>
      if (is_lower c0 || is_upper c0) && forallb scheme_char (c0 :: a)
      then (map lower_char (c0 :: a), b) else ([], s)
  | _, _ => ([], s)
  end.

(** _splitnetloc *)
Definition netloc_end (c : char) : bool := char_in c (u "/?#").
Fixpoint break_netloc (s : str) : str * str :=
  match s with
  | [] => ([], [])
  | c :: r => if netloc_end c then ([], s)
              else let (a, b) := break_netloc r in (c :: a, b)
  end.

(** uses_params *)
Definition uses_params : list str :=
  map (fun x => u x)
   [""; "ftp"; "hdl"; "prospero"; "http"; "imap"; "https"; "shttp"; "rtsp";
    "rtsps"; "rtspu"; "sip"; "sips"; "mms"; "sftp"; "tel"]%string.

(** _splitparams: [;] is searched from the last [/] on *)
Definition split_params (path : str) : str * str :=
  match rfind_char SLASH path with
  | Some i =>
      match cut 59%N (skipn i path) with
      | Some (a, b) => (firstn i path ++ a, b)
      | None => (path, [])
      end
  | None => match cut 59%N path with Some (a, b) => (a, b) | None => (path, []) end
  end.

Section UrlParse.
  (** Validity of a network location beyond balanced brackets
      (_check_bracketed_host and the NFKC check of _checknetloc): an arbitrary
      predicate, every theorem is for all of them. *)
  Context (nv : str -> bool).

  Definition brackets_ok (netloc : str) : bool :=
    Bool.eqb (char_in BRACKETS_L netloc) (char_in BRACKETS_R netloc).

  Definition urlparse (url0 : str) : res parse_result :=
    let url := strip_unsafe (lstrip_c0 url0) in
    let (scheme, url) := split_scheme url in
    let (netloc, url) :=
      if startswith url (u "//") then break_netloc (skipn 2 url) else ([], url) in
    if negb (brackets_ok netloc && nv netloc) then Err EValue else
    let (url, fragment) :=
      match cut NUMBER url with Some (a, b) => (a, b) | None => (url, []) end in
    let (url, query) :=
      match cut QUESTION url with Some (a, b) => (a, b) | None => (url, []) end in
    let (path, params) :=
      if str_in scheme uses_params && char_in 59%N url
      then split_params url else (url, []) in
    Ok (PR scheme netloc path params query fragment).
End UrlParse.
