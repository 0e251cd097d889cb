(** Independent specification vocabulary.

    Nothing in this file refers to the model of /repo: it only uses lists and
    numbers.  It describes legal URL characters, character spaces and the
    fragment of Python's regular expression syntax the generated patterns live
    in. *)
From Coq Require Import String.
From Verif Require Import PyStr.

(** The legal characters as listed in README.rst line 84 (the double quote is
    written as its code 34). *)
Definition legal_chars : str :=
  u "ABCDEFGHIJKLMNOPQRSTUVWXYZabcdefghijklmnopqrstuvwxyz0123456789-._~:/?#[]@!$&'()*+,;=%<>\{}^|"
  ++ [34]%N.
Definition legal (c : char) : Prop := In c legal_chars.

Definition letters_digits : str :=
  u "ABCDEFGHIJKLMNOPQRSTUVWXYZabcdefghijklmnopqrstuvwxyz0123456789".

(** Two characters are in the same character space: both lower case, both upper
    case, both digits, or the same character (README "Character space"). *)
Definition lowercase : str := u "abcdefghijklmnopqrstuvwxyz".
Definition uppercase : str := u "ABCDEFGHIJKLMNOPQRSTUVWXYZ".
Definition digits : str := u "0123456789".
Definition same_space (a b : char) : Prop :=
  (In a lowercase /\ In b lowercase) \/ (In a uppercase /\ In b uppercase) \/
  (In a digits /\ In b digits) \/ a = b.

(** How a character space is written inside a class: the ranges, a plain symbol
    as itself, any other symbol behind a backslash. *)
Definition plain_symbols : str := u "%&_@#;:,=<>~/".
Definition space_text (c : char) : str :=
  if char_in c lowercase then u "a-z"
  else if char_in c uppercase then u "A-Z"
  else if char_in c digits then u "0-9"
  else if char_in c plain_symbols then [c]
  else [92%N; c].
(** the texts of all character spaces *)
Definition space_texts : list str := map space_text legal_chars.

(** [maximal_runs s ws]: [ws] is [s] cut into maximal runs of one character
    space. *)
Fixpoint runs_apart (ws : list str) : Prop :=
  match ws with
  | a :: t => match t with
              | b :: _ => forall x y, In x a -> In y b -> ~ same_space x y
              | [] => True
              end /\ runs_apart t
  | [] => True
  end.
Definition maximal_runs (s : str) (ws : list str) : Prop :=
  List.concat ws = s
  /\ Forall (fun w => w <> [] /\ forall x y, In x w -> In y w -> same_space x y) ws
  /\ runs_apart ws.

(** how a run is written: letters and digits verbatim, symbols as a class with
    the number of repetitions *)
Definition run_text (w : str) : str :=
  match w with
  | [] => []
  | c :: r =>
      if char_in c letters_digits then w
      else u "[" ++ space_text c ++ u "]" ++
           match r with [] => [] | _ => u "{" ++ dec_str (N.of_nat (length w)) ++ u "}" end
  end.
Definition run_space (w : str) : str := match w with c :: _ => space_text c | [] => [] end.

(** number of maximal runs of backslashes *)
Fixpoint backslash_runs (after_backslash : bool) (s : str) : nat :=
  match s with
  | [] => 0
  | c :: r => if N.eqb c 92 then (if after_backslash then 0 else 1) + backslash_runs true r
              else backslash_runs false r
  end.

(** '&' at the start, at the end or doubled *)
Definition amp_misplaced (s : str) : Prop :=
  (exists r, s = 38%N :: r) \/ (exists r, s = r ++ [38%N]) \/
  (exists a b, s = a ++ 38%N :: 38%N :: b).

(** how one parameter [key ++ value] may be divided; [single] when it is the
    only one *)
Definition kv_ok (single : bool) (k v : str) : Prop :=
  (exists k0, k = k0 ++ [61%N] /\ ~ In 61%N k0)
  \/ (single = false /\ ~ In 61%N k /\ v = [])
  \/ (single = true /\ k = [] /\ ~ In 61%N v).

(** ** Units of a pattern: a run of letters or digits of one space, or a class
    with an optional quantifier *)
Definition literal_unit (w : str) : Prop :=
  w <> [] /\ Forall (fun c => In c letters_digits) w /\ forall x y, In x w -> In y w -> same_space x y.
Definition quantifier_text (q : str) : Prop :=
  q = [] \/ q = u "+" \/ exists n, q = u "{" ++ n ++ u "}" /\ isdigit n = true /\ ~ In 125%N n.
(** the body of a bracket unit contains a closing bracket only behind a backslash *)
Definition bracket_unit (w : str) : Prop :=
  exists body q, w = u "[" ++ body ++ u "]" ++ q /\ quantifier_text q /\
    (forall a b, body = a ++ 93%N :: b -> exists a', a = a' ++ [92%N]) /\
    (forall a, body <> a ++ [92%N]).
Fixpoint units_apart (us : list str) : Prop :=
  match us with
  | a :: t => match t with
              | b :: _ => literal_unit a -> literal_unit b -> forall x y, In x a -> In y b -> ~ same_space x y
              | [] => True
              end /\ units_apart t
  | [] => True
  end.

(** ** Regular expressions
    The supported syntax: letters, digits and the characters that have no
    special meaning stand for themselves; [\[...\]] is a class of ranges,
    escaped and plain characters; a class may be followed by [+] or [{n}].
    Anything else makes [rparse] return [None]; so do the spellings on which
    Python's re would not read a plain class. *)
Inductive item := IRange (a b : char) | IChar (c : char).
Definition item_mem (c : char) (i : item) : bool :=
  match i with
  | IRange a b => (a <=? c)%N && (c <=? b)%N
  | IChar d => N.eqb c d
  end.
Definition set_mem (c : char) (l : list item) : bool := existsb (item_mem c) l.

(** plain characters outside and inside a class *)
Definition plain_chars : str := letters_digits ++ u "%&_@#;:,=<>~/".
Definition is_plain (c : char) : bool := char_in c plain_chars.

(** the body of a class up to and including the closing bracket *)
Fixpoint parse_class (s : str) : option (list item * str) :=
  match s with
  | [] => None
  | c :: r =>
      if N.eqb c 93 (* ] *) then Some ([], r)
      else if N.eqb c 92 (* \ *) then
        match r with
        | e :: r' =>
            if char_in e letters_digits then None
            else match parse_class r' with
                 | Some (l, t) => Some (IChar e :: l, t)
                 | None => None
                 end
        | [] => None
        end
      else if negb (is_plain c) then None
      else match r with
           | d :: r1 =>
               if N.eqb d 45 (* - *) then
                 match r1 with
                 | e :: r2 =>
                     if is_plain e && (c <=? e)%N then
                       match parse_class r2 with
                       | Some (l, t) => Some (IRange c e :: l, t)
                       | None => None
                       end
                     else None
                 | [] => None
                 end
               else match parse_class r with
                    | Some (l, t) => Some (IChar c :: l, t)
                    | None => None
                    end
           | [] => None
           end
  end.

(** a token: a set of characters and how many of them (None: one or more) *)
Record rtok := RT { rset : list item; rnum : option N }.

Fixpoint digits_val (s : str) (acc : N) : option N :=
  match s with
  | [] => Some acc
  | c :: r => if char_in c digits then digits_val r (10 * acc + (c - 48))%N else None
  end.
Definition number (s : str) : option N :=
  match s with [] => None | _ => digits_val s 0%N end.
Fixpoint until_brace (s : str) : option (str * str) :=
  match s with
  | [] => None
  | c :: r => if N.eqb c 125 then Some ([], r)
              else match until_brace r with
                   | Some (a, b) => Some (c :: a, b)
                   | None => None
                   end
  end.
Definition parse_quant (s : str) : option (option N * str) :=
  match s with
  | c :: r =>
      if N.eqb c 43 (* + *) then Some (None, r)
      else if N.eqb c 123 (* { *) then
        match until_brace r with
        | Some (ds, r') => match number ds with
                           | Some n => Some (Some n, r')
                           | None => None
                           end
        | None => None
        end
      else Some (Some 1%N, s)
  | [] => Some (Some 1%N, [])
  end.

Fixpoint rparse_n (fuel : nat) (s : str) : option (list rtok) :=
  match s with
  | [] => Some []
  | c :: r =>
    match fuel with
    | O => None
    | S fuel =>
      if N.eqb c 91 (* [ *) then
        match parse_class r with
        | Some ([], _) => None
        | Some (l, r1) =>
            match parse_quant r1 with
            | Some (q, r2) => match rparse_n fuel r2 with
                              | Some ts => Some (RT l q :: ts)
                              | None => None
                              end
            | None => None
            end
        | None => None
        end
      else if is_plain c then
        match rparse_n fuel r with
        | Some ts => Some (RT [IChar c] (Some 1%N) :: ts)
        | None => None
        end
      else None
    end
  end.
Definition rparse (s : str) : option (list rtok) := rparse_n (length s) s.

Fixpoint toks_match (l : list rtok) (t : str) : Prop :=
  match l with
  | [] => t = []
  | k :: l' =>
      exists a b, t = a ++ b
        /\ Forall (fun c => set_mem c (rset k) = true) a
        /\ match rnum k with
           | Some n => N.of_nat (length a) = n
           | None => a <> []
           end
        /\ toks_match l' b
  end.

(** [regex_matches p t]: the whole text [t] is matched by the regular
    expression [p] (re.fullmatch; re.match with '$' also accepts one final line
    feed, which no URL piece can contain). *)
Definition regex_matches (p t : str) : Prop :=
  exists toks, rparse p = Some toks /\ toks_match toks t.

(** ** Parts of a URL text
    [fragment_of url f]: [f] is the text after the first '#', if there is one.
    [query_of url q]: [q] is the text after the first '?' of the text before the
    first '#'. *)
Definition fragment_of (url : str) (f : option str) : Prop :=
  match f with
  | None => ~ In 35%N url
  | Some t => exists a, url = a ++ 35%N :: t /\ ~ In 35%N a
  end.
Definition before_fragment (url base : str) : Prop :=
  ~ In 35%N base /\ (url = base \/ exists t, url = base ++ 35%N :: t).
Definition query_of (url : str) (q : option str) : Prop :=
  exists base, before_fragment url base /\
  match q with
  | None => ~ In 63%N base
  | Some t => exists a, base = a ++ 63%N :: t /\ ~ In 63%N a
  end.

(** two texts use the same set of character spaces *)
Definition same_spaces (a b : str) : Prop :=
  (forall x, In x a -> exists y, In y b /\ same_space x y) /\
  (forall y, In y b -> exists x, In x a /\ same_space x y).

(** [fits raw pat]: [pat] may stand at the position of [raw] in a URL pattern: it
    uses a delimiter only if [raw] has it, and is empty exactly when [raw] is *)
Definition fits (raw pat : str) : Prop :=
  (forall c, In c (u "/?#&=") -> In c pat -> In c raw) /\ (pat = [] <-> raw = []).
