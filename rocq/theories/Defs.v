(** Model of /repo/src/os_urlpattern/definition.py. *)
From Coq Require Import String.
From Verif Require Import PyStr.

Local Open Scope N_scope.

(** definition.py:14-27, class Symbols *)
Definition PLUS : char := 43.
Definition SLASH : char := 47.
Definition EQUALS : char := 61.
Definition NUMBER : char := 35.
Definition PERCENT : char := 37.
Definition QUESTION : char := 63.
Definition BRACES_L : char := 123.
Definition BRACES_R : char := 125.
Definition AMPERSAND : char := 38.
Definition BACKSLASH : char := 92.
Definition BRACKETS_L : char := 91.
Definition BRACKETS_R : char := 93.

(** definition.py:30-50, class BasePatternRule (the members that are used) *)
Definition R_DIGIT : str := u "0-9".
Definition R_LOWER : str := u "a-z".
Definition R_UPPER : str := u "A-Z".
Definition R_ASCII : str := u "A-Za-z".
Definition R_DOT : str := u "\.".
Definition R_EMPTY : str := [].
Definition SINGLE_QUESTION : str := u "[\?]".

(** definition.py:72-76: DIGIT_SET, ASCII_LOWER_SET, ASCII_UPPER_SET,
    ASCII_DIGIT_SET as membership tests *)
Definition is_digit (c : char) : bool := (48 <=? c) && (c <=? 57).
Definition is_lower (c : char) : bool := (97 <=? c) && (c <=? 122).
Definition is_upper (c : char) : bool := (65 <=? c) && (c <=? 90).
Definition is_alnum (c : char) : bool := is_lower c || is_upper c || is_digit c.

(** definition.py:79 SYMBOL, definition.py:85 ESCAPE (34 and 39 are the double
    and single quote) *)
Definition SYMBOL : str := u "%&_@#;:,=<>~/".
Definition ESCAPE : str :=
  [46; 43; 92; 34; 39; 40; 41; 91; 93; 123; 125; 42; 36; 94; 63; 124; 33; 45].

(** definition.py:91 CHAR_RULE_DICT, built by lines 59-91: a function instead of
    a dict.  [None] means the character is not a key. *)
Definition char_rule (c : char) : option str :=
  if is_lower c then Some R_LOWER
  else if is_upper c then Some R_UPPER
  else if is_digit c then Some R_DIGIT
  else if char_in c SYMBOL then Some [c]
  else if char_in c ESCAPE then Some [BACKSLASH; c]
  else None.

(** definition.py:94-97 SIGN_RULE_SET: the rules of the symbols *)
Definition SIGN_RULES : list str :=
  map (fun c => [c]) SYMBOL ++ map (fun c => [BACKSLASH; c]) ESCAPE.
Definition in_sign_rules (r : str) : bool := str_in r SIGN_RULES.

(** definition.py:92 RULE_SET *)
Definition RULES : list str := [R_LOWER; R_UPPER; R_DIGIT] ++ SIGN_RULES.
Definition in_rules (r : str) : bool := str_in r RULES.

(** definition.py:104-111 DIGIT_AND_ASCII_RULE_SET *)
Definition in_digit_ascii (r : str) : bool :=
  str_in r [R_DIGIT; R_LOWER; R_UPPER; R_ASCII].

(** definition.py:122 MIXED_RULE_SET *)
Definition in_mixed (r : str) : bool :=
  str_in r [R_DIGIT; R_LOWER; R_UPPER; R_ASCII; [PERCENT]].
