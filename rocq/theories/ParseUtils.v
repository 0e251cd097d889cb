(** Model of /repo/src/os_urlpattern/parse_utils.py.
    Every definition cites the lines it models. *)
From Coq Require Import String.
From Verif Require Import PyStr Defs UrlLib.

(** parse_utils.py:22-35 URLMeta *)
Record url_meta := UM { path_depth : nat; query_keys : list str; has_fragment : bool }.
Definition depth (m : url_meta) : nat :=
  path_depth m + length (query_keys m) + (if has_fragment m then 1 else 0).

(** parse_utils.py:38-75 specify_rule *)
Definition specify_rule (rule : str) (num : Z) : res str :=
  if (num =? 1)%Z then Ok (BRACKETS_L :: rule ++ [BRACKETS_R])
  else if (num <? 0)%Z then Ok (BRACKETS_L :: rule ++ [BRACKETS_R; PLUS])
  else if (1 <? num)%Z then
    Ok (BRACKETS_L :: rule ++ BRACKETS_R :: BRACES_L :: dec_str (Z.to_N num) ++ [BRACES_R])
  else Err EValue.

(** parse_utils.py:78-89 wildcard_rule *)
Definition wildcard_rule (rule : str) : res str := specify_rule rule (-1).

(** [CHAR_RULE_DICT.get(w\[0\])] formatted with '%s': a missing key prints None
    (parse_utils.py:124, 135, 147) *)
Definition get_rule_fmt (c : char) : str :=
  match char_rule c with Some r => r | None => u "None" end.

(** the fragment [w] rewritten unless it starts with a reserved character
    (parse_utils.py:123-125, 133-136, 145-148) *)
Definition norm_frag (reserved w : str) : res str :=
  match w with
  | [] => Ok w
  | c :: _ => if char_in c reserved then Ok w
              else specify_rule (get_rule_fmt c) (Z.of_nat (length w))
  end.

(** parse_utils.py:92-151 normalize.  [reserved_chars=None] is [\[\]].
    State: text written so far, current fragment, last character. *)
Fixpoint normalize_loop (reserved : str) (s : str)
    (out frag : str) (last : option char) : res (str * str * option char) :=
  match s with
  | [] => Ok (out, frag, last)
  | c :: r =>
      '(out', frag') <-
        (if is_alnum c then
           match last with
           | Some lc =>
               if is_alnum lc then Ok (out, frag)
               else match frag with
                    | [] => Ok (out, frag)
                    | _ => w <- norm_frag reserved frag ;; Ok (out ++ w, [])
                    end
           | None => Ok (out, frag)
           end
         else
           if match last with Some lc => N.eqb lc c | None => false end
           then Ok (out, frag)
           else match frag with
                | [] => Ok (out, [])
                | w0 :: _ =>
                    w <- (if is_alnum w0 then Ok frag else norm_frag reserved frag) ;;
                    Ok (out ++ w, [])
                end) ;;
      normalize_loop reserved r out' (frag' ++ [c]) (Some c)
  end.

Definition normalize (raw reserved : str) : res str :=
  '(out, frag, last) <- normalize_loop reserved raw [] [] None ;;
  w <- match last with
       | Some lc => if is_alnum lc then Ok frag else norm_frag reserved frag
       | None => Ok frag
       end ;;
  Ok (out ++ w).

(** The ParseResult of parse_utils.py:178 restricted to what unpack uses, and
    URLPatternParseResult (line 18): query and fragment may be None. *)
Record presult := PRes { rs_path : option str; rs_query : option str; rs_fragment : option str }.

Section Nv.
  Context (nv : str -> bool).

  (** parse_utils.py:154-178 parse_url.  All six components. *)
  Record url_parts := UP {
    up_scheme : str; up_netloc : str; up_path : str; up_params : str;
    up_query : option str; up_fragment : option str }.

  Definition is_nil {A} (l : list A) : bool := match l with [] => true | _ => false end.

  Definition parse_url (url : str) : res url_parts :=
    r <- urlparse nv url ;;
    let query := pr_query r in
    let fragment := pr_fragment r in
    let mk q f := UP (pr_scheme r) (pr_netloc r) (pr_path r) (pr_params r) q f in
    if is_nil fragment then
      c1 <- py_index url (-1) ;;
      if negb (N.eqb c1 NUMBER) then
        (if is_nil query then
           c2 <- py_index url (-1) ;;
           if negb (N.eqb c2 QUESTION) then Ok (mk None None)
           else Ok (mk (Some query) None)
         else Ok (mk (Some query) None))
      else if is_nil query then
        c2 <- py_index url (-2) ;;
        if negb (N.eqb c2 QUESTION) then Ok (mk None (Some fragment))
        else Ok (mk (Some query) (Some fragment))
      else Ok (mk (Some query) (Some fragment))
    else if is_nil query then
      c <- py_index url (Z.of_nat (length url) - Z.of_nat (length fragment) - 2) ;;
      if negb (N.eqb c QUESTION) then Ok (mk None (Some fragment))
      else Ok (mk (Some query) (Some fragment))
    else Ok (mk (Some query) (Some fragment)).

  (** parse_utils.py:181-210 filter_useless, [truthy] being bool(x) *)
  Fixpoint filter_useless {A} (truthy : A -> bool) (objs : list A) : list A :=
    match objs with
    | [] => []
    | [x] => [x]
    | x :: r => if truthy x then x :: filter_useless truthy r
                else filter_useless truthy r
    end.

  Definition nonempty (s : str) : bool := negb (is_nil s).

  (** parse_utils.py:235-257, the loop of parse_query_string.  [kt] is kv_type,
      [kb]/[vb] the key and value buffers, [ks]/[vs] the lists. *)
  Fixpoint query_loop (s : str) (kt : bool) (last : option char)
      (kb vb : str) (ks vs : list str)
    : res (bool * str * str * list str * list str) :=
    match s with
    | [] => Ok (kt, kb, vb, ks, vs)
    | i :: r =>
        if N.eqb i EQUALS && kt then
          query_loop r false (Some i) [] vb (ks ++ [kb ++ [i]]) vs
        else if N.eqb i AMPERSAND then
          if match last with None => true | Some c => N.eqb c AMPERSAND end
          then Err EIrregularURL
          else if kt then query_loop r true (Some i) [] vb (ks ++ [kb]) (vs ++ [[]])
          else query_loop r true (Some i) kb [] ks (vs ++ [vb])
        else if kt then query_loop r kt (Some i) (kb ++ [i]) vb ks vs
        else query_loop r kt (Some i) kb (vb ++ [i]) ks vs
    end.

  Definition ends_with_char (c : char) (s : str) : bool :=
    match rev s with x :: _ => N.eqb x c | [] => false end.

  (** parse_utils.py:213-268 parse_query_string *)
  Definition parse_query_string (q : option str) : res (list str * list str) :=
    match q with
    | None => Ok ([], [])
    | Some [] => Ok ([[]], [[]])
    | Some s =>
        if ends_with_char AMPERSAND s then Err EIrregularURL else
        '(kt, kb, vb, ks, vs) <- query_loop s true None [] [] [] [] ;;
        let '(ks, vs) := if kt : bool then (ks ++ [kb], vs ++ [[]])
                         else (ks, vs ++ [vb]) in
        match ks, vs with
        | [k], v0 :: vr =>
            if negb (ends_with_char EQUALS k) then Ok ([v0], k :: vr)
            else Ok (ks, vs)
        | _, _ => Ok (ks, vs)
        end
    end.

  (** parse_utils.py:271-313 mix *)
  Fixpoint mix_loop (l : list (str * str)) (mp mr tp tr : list str) (tm : bool)
    : list str * list str * list str * list str * bool :=
    match l with
    | [] => (mp, mr, tp, tr, tm)
    | (piece, rule) :: l' =>
        let nonempty_t := negb (is_nil tr) in
        if in_mixed rule then
          if nonempty_t && negb tm
          then mix_loop l' (mp ++ tp) (mr ++ tr) [piece] [rule] true
          else mix_loop l' mp mr (tp ++ [piece]) (tr ++ [rule]) true
        else
          if nonempty_t && tm
          then mix_loop l' (mp ++ [List.concat tp]) (mr ++ [List.concat (sorted_set tr)])
                        [piece] [rule] false
          else mix_loop l' mp mr (tp ++ [piece]) (tr ++ [rule]) false
    end.
  Definition mix (pieces rules : list str) : list str * list str :=
    let '(mp, mr, tp, tr, tm) := mix_loop (combine pieces rules) [] [] [] [] false in
    if tm : bool then (mp ++ [List.concat tp], mr ++ [List.concat (sorted_set tr)])
    else (mp ++ tp, mr ++ tr).

  (** parse_utils.py:316-345 unpack.  result.path is None only for URL patterns
      starting with '#' or '[\?]' (AttributeError at line 330). *)
  Definition unpack (path query fragment : option str) (normalize_key : bool)
    : res (url_meta * list str) :=
    match path with
    | None => Err EAttr
    | Some path =>
        let pieces := filter_useless nonempty (tl (split_char SLASH path)) in
        let path_depth := length pieces in
        if (path_depth <=? 0) then Err EIrregularURL else
        '(keys, values) <- parse_query_string query ;;
        keys <- (if normalize_key then mapM (fun k => normalize k [EQUALS]) keys
                 else Ok keys) ;;
        let has_fragment := match fragment with None => false | Some _ => true end in
        Ok (UM path_depth keys has_fragment,
            pieces ++ values ++ match fragment with None => [] | Some f => [f] end)
    end.

  (** parse_utils.py:348-375 pack for objects already turned into strings *)
  Definition pack (m : url_meta) (objs : list str) : str :=
    let qd := length (query_keys m) in
    let idx := path_depth m + qd in
    let p := join [SLASH] (firstn (path_depth m) objs) in
    SLASH :: p
    ++ (if (0 <? qd)
        then SINGLE_QUESTION ++
             join [AMPERSAND]
               (map (fun kv => fst kv ++ snd kv)
                    (combine (query_keys m) (slice (path_depth m) idx objs)))
        else [])
    ++ (if has_fragment m then NUMBER :: List.concat (skipn idx objs) else []).

  (** parse_utils.py:378-389 analyze_url *)
  Definition analyze_url (url : str) : res (url_meta * list str) :=
    r <- parse_url url ;;
    unpack (Some (up_path r)) (up_query r) (up_fragment r) true.

  (** parse_utils.py:405-486 ParsedPiece: pieces and rules; the cached values are
      functions of these two. *)
  Record parsed_piece := PP { pieces : list str; rules : list str }.

  (** parse_utils.py:425, 477-481 piece *)
  Definition piece (p : parsed_piece) : str := List.concat (pieces p).

  (** parse_utils.py:426, 428-432 fuzzy_rule *)
  Definition fuzzy_rule (p : parsed_piece) : str :=
    match rules p with
    | [r] => match r with [] => List.concat (sorted_set [r]) | _ => r end
    | rs => List.concat (sorted_set rs)
    end.

  (** parse_utils.py:450-464: the loop of piece_length.  [whole] is the piece,
      [prev] the character before the current one ([None] at index 0, where
      piece\[idx-1\] is the last character), [rest] what is left. *)
  Fixpoint plen_loop (fuel : nat) (whole : str) (prev : option char) (rest : str)
      (len : Z) : res Z :=
    match fuel with
    | O => Err EFuel
    | S fuel =>
      match rest with
      | [] => Ok len
      | c :: r =>
          if N.eqb c BRACKETS_L || N.eqb c BRACKETS_R then
            plen_loop fuel whole (Some c) r
              (match prev with
               | None => len - 1
               | Some q => if negb (N.eqb q BACKSLASH) then len - 1 else len
               end)%Z
          else if N.eqb c BACKSLASH then
            match r with
            | [] => Err EIndex
            | n :: _ => plen_loop fuel whole (Some c) r
                          (if negb (N.eqb n BACKSLASH) then len - 1 else len)%Z
            end
          else if N.eqb c BRACES_L then
            q <- match prev with Some q => Ok q | None => py_index whole (-1) end ;;
            if N.eqb q BRACKETS_R then
              match cut BRACES_R r with
              | None => Err EValue
              | Some (ds, r') =>
                  n <- py_int ds ;;
                  plen_loop fuel whole (Some BRACES_R) r'
                    (len + (Z.of_N n - 1 - (Z.of_nat (length ds) + 2)))%Z
              end
            else plen_loop fuel whole (Some c) r len
          else plen_loop fuel whole (Some c) r len
      end
    end.

  (** parse_utils.py:434-467 piece_length *)
  Definition piece_length (p : parsed_piece) : res Z :=
    let w := piece p in
    plen_loop (S (length w)) w None w (Z.of_nat (length w)).

  (** parse_utils.py:489 EMPTY_PARSED_PIECE *)
  Definition empty_parsed_piece : parsed_piece := PP [] [].

  (** parse_utils.py:534-543 PieceParser._define applied to every character
      (525-527): runs in reverse order, each (rule, letters in order). *)
  Fixpoint define_loop (s : str) (acc : list (str * str)) : res (list (str * str)) :=
    match s with
    | [] => Ok acc
    | c :: r =>
        match char_rule c with
        | None => Err EInvalidChar
        | Some rule =>
            match acc with
            | (rl, l) :: acc' =>
                if str_eqb rl rule then define_loop r ((rl, l ++ [c]) :: acc')
                else define_loop r ((rule, [c]) :: acc)
            | [] => define_loop r [(rule, [c])]
            end
        end
    end.

  (** parse_utils.py:545-548 PieceParser._normalize *)
  Definition normalize_letter (letter rule : str) : res str :=
    if in_sign_rules rule then specify_rule rule (Z.of_nat (length letter))
    else Ok letter.

  (** parse_utils.py:507-551 PieceParser.parse *)
  Definition piece_parse (s : str) : res parsed_piece :=
    acc <- define_loop s [] ;;
    let runs := rev acc in
    ps <- mapM (fun rl => normalize_letter (snd rl) (fst rl)) runs ;;
    Ok (PP ps (map fst runs)).

  (** parse_utils.py:554-577 fuzzy_digest / digest.  Simplification: md5 is
      modelled as the identity, i.e. two digests are equal when the digested
      strings are. *)
  Definition digest (m : url_meta) (objs : list str) : str := pack m objs.
  Definition fuzzy_digest (m : url_meta) (fuzzy_rules : list str) : str :=
    digest m fuzzy_rules.

  (** parse_utils.py:580-611 parse_url_pattern_string.  -1 is [None]; the
      if/elif chain has no else branch: all three are None when an index is 0. *)
  Definition parse_url_pattern_string (s : str) : presult :=
    match find SINGLE_QUESTION s, find_char NUMBER s with
    | None, None => PRes (Some s) None None
    | Some (S q' as q), Some (S f' as f) =>
        if (q <? f) then
          PRes (Some (firstn q s)) (Some (slice (q + 4) f s)) (Some (skipn (f + 1) s))
        else PRes (Some (firstn f s)) None (Some (skipn (f + 1) s))
    | None, Some (S f' as f) => PRes (Some (firstn f s)) None (Some (skipn (f + 1) s))
    | Some (S q' as q), None => PRes (Some (firstn q s)) (Some (skipn (q + 4) s)) None
    | _, _ => PRes None None None
    end.

  (** parse_utils.py:614-624 analyze_url_pattern_string *)
  Definition analyze_url_pattern_string (s : str) : res (url_meta * list str) :=
    let r := parse_url_pattern_string s in
    unpack (rs_path r) (rs_query r) (rs_fragment r) false.

  (** parse_utils.py:652-660: the text up to the next ']' that does not follow a
      backslash, and what comes after. *)
  Fixpoint scan_close (prev : char) (rest : str) : option (str * str) :=
    match rest with
    | [] => None
    | c :: r =>
        if N.eqb c BRACKETS_R && negb (N.eqb prev BACKSLASH) then Some ([c], r)
        else match scan_close c r with
             | Some (a, b) => Some (c :: a, b)
             | None => None
             end
    end.

  (** parse_utils.py:661-675: the quantifier after a class *)
  Definition scan_quant (rest : str) : res (str * str) :=
    match rest with
    | c :: r =>
        if N.eqb c BRACES_L then
          match cut BRACES_R r with
          | None => Err EInvalidPattern
          | Some (num, r') =>
              if isdigit num then Ok (BRACES_L :: num ++ [BRACES_R], r')
              else Err EInvalidPattern
          end
        else if N.eqb c PLUS then Ok ([PLUS], r)
        else Ok ([], rest)
    | [] => Ok ([], [])
    end.

  (** parse_utils.py:643-698: [s] is the literal buffer, [last] is last_rule *)
  Fixpoint pps_loop (fuel : nat) (rest : str) (units : list str) (s : str)
      (last : option str) : res (list str) :=
    match fuel with
    | O => Err EFuel
    | S fuel =>
      match rest with
      | [] => Ok (match last with Some _ => units ++ [s] | None => units end)
      | c :: r =>
          if N.eqb c BRACKETS_L then
            let '(units, s) := match last with
                               | Some _ => (units ++ [s], [])
                               | None => (units, s)
                               end in
            match scan_close BRACKETS_L r with
            | None => Err EInvalidPattern
            | Some (cls, r1) =>
                '(q, r2) <- scan_quant r1 ;;
                pps_loop fuel r2 (units ++ [BRACKETS_L :: cls ++ q]) s None
            end
          else
            match char_rule c with
            | None => Err EInvalidPattern
            | Some rule =>
                if negb (in_digit_ascii rule) then Err EInvalidPattern else
                match last with
                | None => pps_loop fuel r units (s ++ [c]) (Some rule)
                | Some lr =>
                    if str_eqb rule lr then pps_loop fuel r units (s ++ [c]) (Some rule)
                    else pps_loop fuel r (units ++ [s]) [c] (Some rule)
                end
            end
      end
    end.

  (** parse_utils.py:627-700 parse_pattern_string *)
  Definition parse_pattern_string (p : str) : res (list str) :=
    match p with
    | [] => Ok [[]]
    | _ => pps_loop (S (length p)) p [] [] None
    end.

  (** parse_utils.py:734-747: the rules inside a class *)
  Fixpoint class_rules (fuel : nat) (p : str) (acc : list str) : res (list str) :=
    match fuel with
    | O => Err EFuel
    | S fuel =>
      match p with
      | [] => Ok acc
      | c :: _ =>
          let n := if is_alnum c then 3 else if N.eqb c BACKSLASH then 2 else 1 in
          let rule := firstn n p in
          if in_rules rule then class_rules fuel (skipn n p) (set_insert rule acc)
          else Err EInvalidPattern
      end
    end.

  (** parse_utils.py:703-750 parse_pattern_unit_string *)
  Definition parse_pattern_unit_string (w : str) : res (list str * Z) :=
    '(rules, num) <-
      match w with
      | [] => Ok ([[]], 1%Z)
      | c :: _ =>
          if negb (N.eqb c BRACKETS_L) then
            match char_rule c with
            | None => Err EKey
            | Some r => Ok ([r], Z.of_nat (length w))
            end
          else
            let lastc := List.last w 0%N in
            num <- (if N.eqb lastc BRACKETS_R then Ok 1%Z
                    else if N.eqb lastc BRACES_R then
                      let t1 := match rfind_char BRACES_L w with Some t => S t | None => 0 end in
                      let num_str := slice t1 (length w - 1) w in
                      if isdigit num_str then n <- py_int num_str ;; Ok (Z.of_N n)
                      else Err EInvalidPattern
                    else if N.eqb lastc PLUS then Ok (-1)%Z
                    else Ok 1%Z) ;;
            let p_str := slice 1 (match rfind_char BRACKETS_R w with
                                  | Some t => t | None => length w - 1 end) w in
            rules <- class_rules (S (length p_str)) p_str [] ;;
            Ok (rules, num)
      end ;;
    if ((0 <? num)%Z && (num <? Z.of_nat (length rules))%Z) || (num =? 0)%Z
    then Err EInvalidPattern else Ok (rules, num).
End Nv.
