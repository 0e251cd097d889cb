(** Model of Pattern.match (/repo/src/os_urlpattern/pattern.py:52-61, 88-92) and of
    the part of Python's re it runs on (Lib/re/_parser.py and Modules/_sre of
    CPython 3.11): literals, escaped punctuation, '.', classes with ranges and
    negation, '^', '$', and the greedy quantifiers '+', '*', '?', '{n}'.

    [None] stands for: re.compile raises, or the expression uses syntax that is not
    modelled (groups, alternatives, escaped letters and digits, '{m,n}', lazy and
    possessive quantifiers, a '{' that is not a quantifier). *)
From Coq Require Import String.
From Verif Require Import PyStr Spec.

(** _parser.py Tokenizer: a backslash and the next character are one token; a
    backslash at the end is an error *)
Inductive tok := Chr (c : char) | Esc (c : char).
Fixpoint tokens (s : str) : option (list tok) :=
  match s with
  | [] => Some []
  | c :: r =>
      if N.eqb c 92 (* \ *) then
        match r with
        | e :: r' => match tokens r' with Some ts => Some (Esc e :: ts) | None => None end
        | [] => None
        end
      else match tokens r with Some ts => Some (Chr c :: ts) | None => None end
  end.
Definition is_chr (c : char) (t : tok) : bool := match t with Chr d => N.eqb c d | Esc _ => false end.
(** _class_escape and _escape: escaped punctuation stands for itself *)
Definition code (t : tok) : option char :=
  match t with
  | Chr c => Some c
  | Esc c => if char_in c letters_digits then None else Some c
  end.

(** a set of characters: excluded or not, ranges *)
Record chars := CS { c_not : bool; c_ranges : list (char * char) }.
Definition chars_mem (c : char) (x : chars) : bool :=
  xorb (c_not x) (existsb (fun r => (fst r <=? c)%N && (c <=? snd r)%N) (c_ranges x)).

(** _parse, "character set": the loop; a closing bracket that comes first is a
    member of the set *)
Fixpoint class_loop (first : bool) (ts : list tok) : option (list (char * char) * list tok) :=
  match ts with
  | [] => None
  | t :: r =>
      if is_chr 93%N (* ] *) t && negb first then Some ([], r)
      else
        match code t with
        | None => None
        | Some a =>
            match r with
            | [] => None
            | m :: r1 =>
                if is_chr 45%N (* - *) m then
                  match r1 with
                  | [] => None
                  | t2 :: r2 =>
                      if is_chr 93%N t2 then Some ([(a, a); (45, 45)], r2)%N
                      else match code t2 with
                           | None => None
                           | Some b =>
                               if (a <=? b)%N then
                                 match class_loop false r2 with
                                 | Some (l, e) => Some ((a, b) :: l, e)
                                 | None => None
                                 end
                               else None
                           end
                  end
                else match class_loop false r with
                     | Some (l, e) => Some ((a, a) :: l, e)
                     | None => None
                     end
            end
        end
  end.
Definition class_set (ts : list tok) : option (chars * list tok) :=
  match ts with
  | t :: r => if is_chr 94%N (* ^ *) t
              then match class_loop true r with Some (l, e) => Some (CS true l, e) | None => None end
              else match class_loop true ts with Some (l, e) => Some (CS false l, e) | None => None end
  | [] => None
  end.

(** _parse, "repeat": smallest and greatest number *)
Definition MAXREPEAT : N := 4294967295.
Fixpoint digits_then_brace (ts : list tok) (acc : N) : option (N * list tok) :=
  match ts with
  | Chr c :: r =>
      if N.eqb c 125 (* } *) then Some (acc, r)
      else if char_in c digits then digits_then_brace r (10 * acc + (c - 48))%N
      else None
  | _ => None
  end.
Definition quantifier (ts : list tok) : option (N * option N * list tok) :=
  match ts with
  | Chr c :: r =>
      if N.eqb c 43 (* + *) then Some (1%N, None, r)
      else if N.eqb c 42 (* * *) then Some (0%N, None, r)
      else if N.eqb c 63 (* ? *) then Some (0%N, Some 1%N, r)
      else if N.eqb c 123 (* { *) then
        match r with
        | Chr d :: _ =>
            if char_in d digits then
              match digits_then_brace r 0%N with
              | Some (n, e) => if (n <? MAXREPEAT)%N then Some (n, Some n, e) else None
              | None => None
              end
            else None
        | _ => None
        end
      else Some (1%N, Some 1%N, ts)
  | _ => Some (1%N, Some 1%N, ts)
  end.
(** a quantifier behind a quantifier: an error, or lazy or possessive *)
Definition no_repeat (ts : list tok) : bool :=
  match ts with Chr c :: _ => negb (char_in c (u "+*?{")) | _ => true end.

Inductive rx := AtBegin | AtEnd | Rep (x : chars) (lo : N) (hi : option N).
(** the characters [_parse] does not take for themselves: SPECIAL_CHARS *)
Definition special : str := u ".\[{()*+?^$|".
Definition one_set (ts : list tok) : option (chars * list tok) :=
  match ts with
  | [] => None
  | t :: r =>
      if is_chr 91%N (* [ *) t then class_set r
      else if is_chr 46%N (* . *) t then Some (CS true [(10, 10)%N], r)
      else match t with
           | Chr c => if char_in c special then None else Some (CS false [(c, c)], r)
           | Esc _ => match code t with Some c => Some (CS false [(c, c)], r) | None => None end
           end
  end.
(** _parse; [fuel] is the number of tokens *)
Fixpoint parse_rx (fuel : nat) (ts : list tok) : option (list rx) :=
  match ts with
  | [] => Some []
  | t :: r =>
    match fuel with
    | O => None
    | S fuel =>
      if is_chr 94%N (* ^ *) t then
        if no_repeat r then match parse_rx fuel r with Some l => Some (AtBegin :: l) | None => None end else None
      else if is_chr 36%N (* $ *) t then
        if no_repeat r then match parse_rx fuel r with Some l => Some (AtEnd :: l) | None => None end else None
      else
        match one_set ts with
        | None => None
        | Some (x, e) =>
            match quantifier e with
            | None => None
            | Some (lo, hi, e') =>
                if no_repeat e' then
                  match parse_rx fuel e' with Some l => Some (Rep x lo hi :: l) | None => None end
                else None
            end
        end
    end
  end.
(** re.compile *)
Definition compile (s : str) : option (list rx) :=
  match tokens s with Some ts => parse_rx (length ts) ts | None => None end.

(** _sre: greedy matching with backtracking.  [longest] counts how many characters
    from the front are in the set; [tries] goes from [n] down to [lo] *)
Fixpoint longest (x : chars) (t : str) : nat :=
  match t with
  | c :: r => if chars_mem c x then S (longest x r) else 0
  | [] => 0
  end.
Fixpoint tries (k : nat -> bool) (lo n : nat) : bool :=
  if n <? lo then false
  else if k n then true
  else match n with O => false | S m => tries k lo m end.
(** [start]: nothing has been read yet; '$' also matches before a final line feed *)
Fixpoint run_rx (l : list rx) (start : bool) (t : str) : bool :=
  match l with
  | [] => true
  | AtBegin :: l' => start && run_rx l' start t
  | AtEnd :: l' => match t with [] => true | [c] => N.eqb c 10 | _ => false end && run_rx l' start t
  | Rep x lo hi :: l' =>
      let most := match hi with Some h => N.min h (N.of_nat (longest x t)) | None => N.of_nat (longest x t) end in
      tries (fun j => run_rx l' (start && (j =? 0)) (skipn j t)) (N.to_nat lo) (N.to_nat most)
  end.
(** re.match *)
Definition re_match (l : list rx) (t : str) : bool := run_rx l true t.

(** pattern.py:52-61 Pattern: the string and the compiled expression, if any *)
Record pattern_obj := PObj { po_string : str; po_regex : option (list rx) }.
Definition new_pattern (p : str) : pattern_obj := PObj p None.
(** pattern.py:88-92 Pattern.match *)
Definition pattern_match (o : pattern_obj) (w : str) : option (bool * pattern_obj) :=
  match po_regex o with
  | Some l => Some (re_match l w, o)
  | None =>
      match compile (u "^" ++ po_string o ++ u "$") with
      | Some l => Some (re_match l w, PObj (po_string o) (Some l))
      | None => None
      end
  end.
