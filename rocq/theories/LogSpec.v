(** What the programs log: used in statements only. *)
From Coq Require Import String.
From Verif Require Import PyStr Defs UrlLib ParseUtils Spec Views Trees Cluster Patterns Matcher Maker Format Cmd Observe MatchSpec CmdSpec Log.

(** the elements of a list in the order of their first occurrences *)
Fixpoint firsts {A} (dec : forall a b : A, {a = b} + {a <> b}) (l : list A) : list A :=
  match l with
  | [] => []
  | a :: r => a :: filter (fun b => if dec a b then false else true) (firsts dec r)
  end.
Definition howmany {A} (f : A -> bool) (l : list A) : str := dec_str (N.of_nat (length (filter f l))).

(** ** The report of pattern-make *)
Inductive mkind := KEmpty | KUrl | KBad.
Definition mkind_dec : forall a b : mkind, {a = b} + {a <> b}. Proof. decide equality. Defined.
Definition mkind_of (nv : str -> bool) (line : str) : mkind :=
  match kind_of_line nv line with LBlank => KEmpty | LBad => KBad | LUrl _ => KUrl end.
(** what is reported about the lines of one kind; [urls] is the number of different URLs *)
Definition mreport (nv : str -> bool) (urls : nat) (lines : list str) (k : mkind) : str :=
  let n := howmany (fun l => if mkind_dec (mkind_of nv l) k then true else false) lines in
  match k with
  | KEmpty => u "EMPTY:" ++ n
  | KBad => u "INVALID:" ++ n
  | KUrl => u "UNIQ:" ++ dec_str (N.of_nat urls) ++ u ", VALID:" ++ n
  end.
(** the number of all lines, then the kinds in the order in which they first occur *)
Definition make_report (nv : str -> bool) (lines : list str) : str :=
  match lines with
  | [] => []
  | _ => join (u ", ") ((u "ALL:" ++ dec_str (N.of_nat (length lines)))
           :: map (mreport nv (length (loaded nv (line_loads nv false lines))) lines) (firsts mkind_dec (map (mkind_of nv) lines)))
  end.

(** ** The report of pattern-match *)
Inductive pkind := PUnknown | PValid | PBad.
Definition pkind_dec : forall a b : pkind, {a = b} + {a <> b}. Proof. decide equality. Defined.
(** a line of a pattern file: does not begin with '/', can be loaded, or cannot *)
Definition pkind_of (nv : str -> bool) (line : str) : pkind :=
  if startswith (rstrip line) (u "/") then
    match pattern_line line with
    | Some s => match snd (match_load nv [] s (Some s)) with Ok _ => PValid | Err _ => PBad end
    | None => PBad
    end
  else PUnknown.
Definition preport (nv : str -> bool) (lines : list str) (k : pkind) : str :=
  (match k with PUnknown => u "UNKNOW:" | PValid => u "VALID:" | PBad => u "INVALID:" end)
  ++ howmany (fun l => if pkind_dec (pkind_of nv l) k then true else false) lines.
Definition match_report (nv : str -> bool) (lines : list str) : str :=
  match lines with
  | [] => []
  | _ => join (u ", ") ((u "ALL:" ++ dec_str (N.of_nat (length lines)))
           :: map (preport nv lines) (firsts pkind_dec (map (pkind_of nv) lines)))
  end.

(** ** The records of a loop over lines *)
(** [log] has, for the lines in turn, a record of the progress for each [interval]-th
    line, then what [about] allows for the line *)
Inductive loop_log (interval : N) (what : str) (about : str -> list event -> Prop) : list str -> list event -> Prop :=
| ll_nil : loop_log interval what about [] []
| ll_snoc : forall lines log line sp ev, loop_log interval what about lines log ->
    (exists k, N.of_nat (S (length lines)) = (k * interval)%N /\ sp = [Progress what (N.of_nat (S (length lines)))]) \/
    (~ (exists k, N.of_nat (S (length lines)) = (k * interval)%N) /\ sp = []) ->
    about line ev -> loop_log interval what about (lines ++ [line]) (log ++ sp ++ ev).
(** the exception for the bytes [line]: of decode() or of load() *)
Definition load_raises (nv : str -> bool) (line : str) (e : exn) : Prop :=
  match utf8_decode line with
  | Err _ => e = EValue
  | Ok url => forall st me, load nv st url me = (st, Err e)
  end.
(** a line that is not counted as invalid is not mentioned; an invalid one is, without
    the white space around it: as an error if it is a lone '#', else as a warning *)
Definition make_about (nv : str -> bool) (line : str) (ev : list event) : Prop :=
  match kind_of_line nv line with
  | LBad => exists e, load_raises nv (strip line) e /\
      ((ev = [Warned e (strip line)] /\ In e [EInvalidPattern; EIrregularURL; EInvalidChar; EValue]) \/
       (ev = [Failed e (strip line)] /\ e = EIndex /\ strip line = u "#"))
  | _ => ev = []
  end.
Definition pattern_raises (nv : str -> bool) (line : str) (e : exn) : Prop :=
  match utf8_decode line with
  | Err _ => e = EValue
  | Ok s => forall h me, match_load nv (mloads nv h) s me = (mloads nv h, Err e)
  end.
Definition pattern_about (nv : str -> bool) (line : str) (ev : list event) : Prop :=
  match pkind_of nv line with
  | PBad => exists e, pattern_raises nv (rstrip line) e /\ In e [EInvalidPattern; EIrregularURL; EValue] /\ ev = [Warned e (rstrip line)]
  | _ => ev = []
  end.
(** a line that is matched: mentioned iff match() raises, or the bytes are not UTF-8 *)
Definition match_about (nv : str -> bool) (patterns : list str) (line : str) (ev : list event) : Prop :=
  match utf8_decode (strip line) with
  | Err _ => ev = [Warned EValue (strip line)]
  | Ok url =>
      match match_url nv (mloads nv (pattern_loads patterns)) url with
      | Ok _ => ev = []
      | Err e => (ev = [Warned e (strip line)] /\ In e [EInvalidPattern; EIrregularURL; EInvalidChar; EValue]) \/
                 (ev = [Failed e (strip line)] /\ ~ In e [EInvalidPattern; EIrregularURL; EInvalidChar; EValue])
      end
  end.
(** the bytes that the records of a loop mention *)
Definition mentioned (log : list event) : list str :=
  flat_map (fun ev => match ev with Warned _ l | Failed _ l => [l] | _ => [] end) log.
