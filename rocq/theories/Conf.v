(** Model of the configuration: /repo/src/os_urlpattern/config/__init__.py,
    config/default_config.cfg, the option -c of pattern-make (cmdline.py:91-104) and the
    place where the configuration is used (pattern_cluster.py:188-192), together with the
    part of CPython 3.11's configparser that they call: ConfigParser() with its default
    arguments, _read, get with BasicInterpolation, getint.

    Simplifications: str.lower, which makes option names comparable, is a parameter
    [lower].  The file given with -c is taken to be UTF-8 (argparse.FileType('r') uses
    the encoding of the locale).  That a configuration file is not there is not
    modelled.  sys.set_int_max_str_digits is at its default, 4300. *)
From Coq Require Import String.
From Verif Require Import PyStr Defs UrlLib ParseUtils Views Trees Cluster Patterns Matcher Maker Format Cmd Ete.

(** The exceptions of configparser, UnicodeDecodeError, the ValueError of int(), and the
    exceptions of the rest of the program.  CList stands for what Python would raise on
    an append to a value that is no list. *)
Inductive cexn :=
  CMissingHeader | CDuplicateSection | CDuplicateOption | CParsing
| CNoSection | CNoOption | CSyntax | CMissingOption | CDepth | CDecode | CInt | CList
| CRun (e : exn).
Inductive cres (A : Type) := COk (a : A) | CErr (e : cexn).
Arguments COk {A} a.
Arguments CErr {A} e.
Definition cbind {A B} (m : cres A) (f : A -> cres B) : cres B :=
  match m with COk a => f a | CErr e => CErr e end.
Notation "x <-- m ;; f" := (cbind m (fun x => f))
  (at level 61, m at next level, right associativity).
Definition run {A} (m : res A) : cres A := match m with Ok a => COk a | Err e => CErr (CRun e) end.
Fixpoint cmapM {A B} (f : A -> cres B) (l : list A) : cres (list B) :=
  match l with
  | [] => COk []
  | x :: r => y <-- f x ;; ys <-- cmapM f r ;; COk (y :: ys)
  end.
Fixpoint cfoldM {A S} (f : S -> A -> cres S) (l : list A) (s : S) : cres S :=
  match l with
  | [] => COk s
  | x :: r => s' <-- f s x ;; cfoldM f r s'
  end.

Local Open Scope N_scope.

(** ** str.isspace, str.strip, rstrip (also \s of re): the white space of Unicode 14 *)
Definition uspace (c : char) : bool :=
  ((9 <=? c) && (c <=? 13)) || ((28 <=? c) && (c <=? 32)) || (c =? 133) || (c =? 160)
  || (c =? 5760) || ((8192 <=? c) && (c <=? 8202)) || (c =? 8232) || (c =? 8233)
  || (c =? 8239) || (c =? 8287) || (c =? 12288).
Fixpoint skip (p : char -> bool) (s : str) : str :=
  match s with
  | c :: r => if p c then skip p r else s
  | [] => []
  end.
Definition rskip (p : char -> bool) (s : str) : str := rev (skip p (rev s)).
Definition ustrip (s : str) : str := rskip uspace (skip uspace s).

(** ** Iterating over a text file: universal newlines, then the lines with their ends *)
Fixpoint newlines (s : str) : str :=
  match s with
  | [] => []
  | c :: r =>
      if c =? 13 then 10 :: match r with
                            | d :: r' => if d =? 10 then newlines r' else newlines r
                            | [] => []
                            end
      else c :: newlines r
  end.
Fixpoint cut_lines (s : str) : list str :=
  match s with
  | [] => []
  | c :: r =>
      if c =? 10 then [c] :: cut_lines r
      else match cut_lines r with
           | [] => [[c]]
           | l :: ls => (c :: l) :: ls
           end
  end.
Definition text_lines (s : str) : list str := cut_lines (newlines s).

(** ** int(str) *)
(** the code points of the digits 0 of Unicode 14; each is followed by its 1 to 9 *)
Definition zeros : list char :=
  [
    48; 1632; 1776; 1984; 2406; 2534; 2662; 2790; 2918; 3046; 3174; 3302; 3430; 3558;
    3664; 3792; 3872; 4160; 4240; 6112; 6160; 6470; 6608; 6784; 6800; 6992; 7088; 7232;
    7248; 42528; 43216; 43264; 43472; 43504; 43600; 44016; 65296; 66720; 68912; 69734;
    69872; 69942; 70096; 70384; 70736; 70864; 71248; 71360; 71472; 71904; 72016; 72784;
    73040; 73120; 92768; 92864; 93008; 120782; 120792; 120802; 120812; 120822; 123200;
    123632; 125264; 130032 ].
(** Py_UNICODE_TODECIMAL *)
Definition digit_value (c : char) : option N :=
  match List.find (fun z => (z <=? c) && (c <=? z + 9)) zeros with
  | Some z => Some (c - z)
  | None => None
  end.
(** PyLong_FromUnicodeObject: white space is that of C below 127, of Unicode above *)
Definition int_space (c : char) : bool := if c <? 127 then is_space c else uspace c.
(** PyLong_FromString: digits with single underscores between them; [acc] is the value
    so far, [more] whether the last character was a digit *)
Fixpoint int_digits (acc : N) (more : bool) (s : str) : cres N :=
  match s with
  | [] => if more then COk acc else CErr CInt
  | c :: r =>
      if c =? 95 then if more then int_digits acc false r else CErr CInt
      else match digit_value c with
           | Some d => int_digits (acc * 10 + d) true r
           | None => CErr CInt
           end
  end.
(** ... of which there may be 4300, the underscores not counted *)
Definition int_body (s : str) : cres N :=
  if 4300 <? N.of_nat (length (filter (fun c => negb (c =? 95)) s)) then CErr CInt
  else int_digits 0 false s.
Definition py_int10 (s : str) : cres Z :=
  match rskip int_space (skip int_space s) with
  | [] => CErr CInt
  | c :: r =>
      if c =? 43 then n <-- int_body r ;; COk (Z.of_N n)
      else if c =? 45 then n <-- int_body r ;; COk (- Z.of_N n)%Z
      else n <-- int_body (c :: r) ;; COk (Z.of_N n)
  end.

Section Conf.
  (** str.lower *)
  Context (lower : str -> str).

  (** A value is a list of lines while its file is read, a string afterwards. *)
  Inductive cval := VStr (s : str) | VLines (l : list str).
  Definition section := list (str * cval).
  (** ConfigParser: _defaults and _sections *)
  Record config := CF { cf_defaults : section; cf_sections : list (str * section) }.
  Definition empty_config : config := CF [] [].

  Definition DEFAULTSECT : str := u "DEFAULT".
  (** cursect: the dict that the name of the last header stands for *)
  Definition sect (cf : config) (name : str) : section :=
    match dget str_eqb name (cf_sections cf) with
    | Some s => s
    | None => cf_defaults cf
    end.
  Definition set_sect (cf : config) (name : str) (s : section) : config :=
    match dget str_eqb name (cf_sections cf) with
    | Some _ => CF (cf_defaults cf) (dset str_eqb name s (cf_sections cf))
    | None => CF s (cf_sections cf)
    end.

  (** SECTCRE, matched at the start: an opening bracket, then greedily one or more
      characters before a closing bracket *)
  Definition header (v : str) : option str :=
    match v with
    | c :: r =>
        if c =? 91 then
          match rfind_char 93 r with
          | Some (Datatypes.S n) => Some (firstn (Datatypes.S n) r)
          | _ => None
          end
        else None
    | [] => None
    end.
  (** OPTCRE: a lazy name, white space, one of = and :, white space, the rest.  The lazy
      name ends at the first = or : and without white space at its end. *)
  Definition delim (c : char) : bool := (c =? 61) || (c =? 58).
  Fixpoint option_line (v : str) : option (str * str) :=
    match v with
    | [] => None
    | c :: r =>
        if delim c then Some ([], r)
        else match option_line r with
             | Some (o, val) => Some (c :: o, val)
             | None => None
             end
    end.

  (** The variables of _read.  [r_sect] is cursect, [r_opt] is optname, [r_bad] is
      whether e is an exception. *)
  Record reader := RD {
    r_cf : config; r_heads : list str; r_opts : list (str * str);
    r_sect : option str; r_opt : option str; r_indent : nat; r_bad : bool }.
  Definition opt_eqb (a b : str * str) : bool := str_eqb (fst a) (fst b) && str_eqb (snd a) (snd b).

  Definition is_comment (v : str) : bool :=
    match v with c :: _ => (c =? 35) || (c =? 59) | [] => false end.
  (** cursect[optname].append(x) *)
  Definition append_line (s : reader) (n o x : str) : cres reader :=
    match dget str_eqb o (sect (r_cf s) n) with
    | Some (VLines l) =>
        COk (RD (set_sect (r_cf s) n (dset str_eqb o (VLines (l ++ [x])) (sect (r_cf s) n)))
                (r_heads s) (r_opts s) (r_sect s) (r_opt s) (r_indent s) (r_bad s))
    | _ => CErr CList
    end.
  (** a section header *)
  Definition read_header (s : reader) (k : nat) (h : str) : cres reader :=
    let next cf heads := COk (RD cf heads (r_opts s) (Some h) None k (r_bad s)) in
    match dget str_eqb h (cf_sections (r_cf s)) with
    | Some _ => if str_in h (r_heads s) then CErr CDuplicateSection
                else next (r_cf s) (h :: r_heads s)
    | None =>
        if str_eqb h DEFAULTSECT then next (r_cf s) (r_heads s)
        else next (CF (cf_defaults (r_cf s)) (cf_sections (r_cf s) ++ [(h, [])])) (h :: r_heads s)
    end.
  (** an option *)
  Definition read_option (s : reader) (k : nat) (n o val : str) : cres reader :=
    let o := rskip uspace o in
    let bad := match o with [] => true | _ => r_bad s end in
    let name := lower o in
    if existsb (opt_eqb (n, name)) (r_opts s) then CErr CDuplicateOption
    else COk (RD (set_sect (r_cf s) n (dset str_eqb name (VLines [ustrip val]) (sect (r_cf s) n)))
                 (r_heads s) ((n, name) :: r_opts s) (r_sect s) (Some name) k bad).
  (** _read: one line *)
  Definition read_line (s : reader) (line : str) : cres reader :=
    let v := ustrip line in
    if is_comment v then COk s
    else match v with
    | [] =>
        match r_sect s, r_opt s with
        | Some n, Some (c :: o) => append_line s n (c :: o) []
        | _, _ => COk s
        end
    | _ =>
        let k := (length line - length (skip uspace line))%nat in
        let new :=
          match header v with
          | Some h => read_header s k h
          | None =>
              match r_sect s with
              | None => CErr CMissingHeader
              | Some n =>
                  match option_line v with
                  | Some (o, val) => read_option s k n o val
                  | None => COk (RD (r_cf s) (r_heads s) (r_opts s) (r_sect s) (r_opt s) k true)
                  end
              end
          end in
        match r_sect s, r_opt s with
        | Some n, Some (c :: o) => if Nat.ltb (r_indent s) k then append_line s n (c :: o) v else new
        | _, _ => new
        end
    end.
  (** _join_multiline_values; before_read changes nothing *)
  Definition join_val (v : cval) : cval :=
    match v with
    | VStr s => VStr s
    | VLines l => VStr (rskip uspace (join [10] l))
    end.
  Definition join_sect (s : section) : section := map (fun ov => (fst ov, join_val (snd ov))) s.
  Definition join_config (cf : config) : config :=
    CF (join_sect (cf_defaults cf)) (map (fun ns => (fst ns, join_sect (snd ns))) (cf_sections cf)).
  (** _read *)
  Definition read_config (cf : config) (lines : list str) : cres config :=
    s <-- cfoldM read_line lines (RD cf [] [] None None 0 false) ;;
    if r_bad s then CErr CParsing else COk (join_config (r_cf s)).

  (** _KEYCRE, matched at the start: a percent sign, an opening parenthesis, one or more
      characters, a closing parenthesis, an s; the name and what follows *)
  Fixpoint until_paren (s : str) : option (str * str) :=
    match s with
    | [] => None
    | c :: r =>
        if c =? 41 then Some ([], r)
        else match until_paren r with
             | Some (a, b) => Some (c :: a, b)
             | None => None
             end
    end.
  Definition key_ref (s : str) : option (str * str) :=
    match s with
    | a :: b :: r =>
        if (a =? 37) && (b =? 40) then
          match until_paren r with
          | Some (c :: n, d :: rest) => if d =? 115 then Some (c :: n, rest) else None
          | _ => None
          end
        else None
    | _ => None
    end.
  (** BasicInterpolation._interpolate_some, the loop: [env] looks a name up, [deeper]
      is the call for the value found; [fuel] bounds the number of turns *)
  Fixpoint interp_loop (env : str -> option str) (deeper : str -> cres str) (fuel : nat) (rest : str)
    : cres str :=
    match fuel with
    | O => match rest with [] => COk [] | _ => CErr CSyntax end
    | Datatypes.S fuel =>
        match rest with
        | [] => COk []
        | c :: r =>
            if negb (c =? 37) then t <-- interp_loop env deeper fuel r ;; COk (c :: t)
            else match r with
            | d :: r' =>
                if d =? 37 then t <-- interp_loop env deeper fuel r' ;; COk (37 :: t)
                else if d =? 40 then
                  match key_ref rest with
                  | None => CErr CSyntax
                  | Some (n, rest') =>
                      match env (lower n) with
                      | None => CErr CMissingOption
                      | Some v =>
                          x <-- (if char_in 37 v then deeper v else COk v) ;;
                          t <-- interp_loop env deeper fuel rest' ;;
                          COk (x ++ t)
                      end
                  end
                else CErr CSyntax
            | [] => CErr CSyntax
            end
        end
    end.
  (** [depth] is how much deeper it may go; MAX_INTERPOLATION_DEPTH is 10 *)
  Fixpoint interpolate (env : str -> option str) (depth : nat) (rest : str) : cres str :=
    match depth with
    | O => CErr CDepth
    | Datatypes.S depth => interp_loop env (interpolate env depth) (length rest) rest
    end.

  (** a value after the file has been read *)
  Definition val_str (v : cval) : str := match v with VStr s => s | VLines l => join [10] l end.
  (** _unify_values: the section, then the defaults *)
  Definition lookup (cf : config) (s : section) (o : str) : option str :=
    match dget str_eqb o s with
    | Some v => Some (val_str v)
    | None => match dget str_eqb o (cf_defaults cf) with
              | Some v => Some (val_str v)
              | None => None
              end
    end.
  (** RawConfigParser.get *)
  Definition get (cf : config) (sec o : str) : cres str :=
    match dget str_eqb sec (cf_sections cf) with
    | None => CErr CNoSection
    | Some s =>
        match lookup cf s (lower o) with
        | None => CErr CNoOption
        | Some v => interpolate (lookup cf s) 10 v
        end
    end.
  Definition getint (cf : config) (sec o : str) : cres Z := s <-- get cf sec o ;; py_int10 s.

  (** default_config.cfg, all of it *)
  Definition default_text : str := u "[make]" ++ [10] ++ u "min_cluster_num = 3".
  (** config/__init__.py:5-15 get_default_config *)
  Definition default_config : cres config := read_config empty_config (text_lines default_text).
  (** cmdline.py:91-94 process_args: what -c FILE does to the configuration; [conf] is
      the bytes of the file *)
  Definition with_file (cf : config) (conf : option str) : cres config :=
    match conf with
    | None => COk cf
    | Some bytes =>
        match utf8_decode bytes with
        | Err _ => CErr CDecode
        | Ok t => read_config cf (text_lines t)
        end
    end.

  (** pattern_cluster.py:188-192: every cluster object reads min_cluster_num when it is
      made, the first ones before anything is clustered (543-544, 706); that the later
      ones read the same is left out.  720-721: nothing is made for an empty tree. *)
  Definition conf_maker_make (cf : config) (mk : maker) : cres (list tree) :=
    if (t_cnt (mk_root mk) <=? 0)%Z then COk []
    else z <-- getint cf (u "make") (u "min_cluster_num") ;; run (maker_make z mk).
  (** pattern_maker.py:49-62 PatternMaker.make *)
  Definition conf_make (cf : config) (st : state) : cres (list (url_meta * tree)) :=
    rs <-- cmapM (fun sm => ts <-- conf_maker_make cf (snd sm) ;;
                            COk (map (fun t => (mk_meta (snd sm), t)) ts)) st ;;
    COk (List.concat rs).
  (** cmdline.py:144-153 _process *)
  Definition conf_process (cf : config) (f : fmt) (st : state) : cres (list str) :=
    cs <-- conf_make cf st ;;
    rs <-- run (mapM (fun mt => pformat f (fst mt) (snd mt)) cs) ;;
    COk (List.concat rs).
  (** the same with -f ETE (pattern_maker.py:103-110) *)
  Definition conf_ete_process (get_ascii : etree -> str) (cf : config) (st : state) : cres (list str) :=
    rs <-- cmapM (fun sm => cs <-- conf_maker_make cf (snd sm) ;;
                            root <-- run (foldM combine_one cs (CT [] 0 [])) ;;
                            es <-- run (fmt_ete (mk_meta (snd sm)) root) ;;
                            COk (map get_ascii es)) st ;;
    COk (List.concat rs).

  (** cmdline.py:247-257 _execute and make(): the configuration is read before the input *)
  Definition make_main (nv : str -> bool) (conf : option str) (f : fmt) (lines : list str)
    : cres (list str) :=
    cf <-- default_config ;;
    cf <-- with_file cf conf ;;
    conf_process cf f (fst (make_load nv (wants_url f) lines)).
  Definition ete_main (get_ascii : etree -> str) (nv : str -> bool) (conf : option str)
      (lines : list str) : cres (list str) :=
    cf <-- default_config ;;
    cf <-- with_file cf conf ;;
    conf_ete_process get_ascii cf (fst (make_load nv false lines)).
End Conf.
