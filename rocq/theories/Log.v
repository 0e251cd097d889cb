(** Model of what the programs log (cmdline.py:112-158, 180-244, utils.py:13-24): the
    calls of the logger of the command, with what the record is about.

    Not modelled: the level that is configured and the text of a record beyond what an
    event below has in it (str(e), the speed, the seconds). *)
From Coq Require Import String.
From Verif Require Import PyStr Defs UrlLib ParseUtils Views Trees Cluster Patterns Matcher Maker Format Cmd Files.

Inductive event :=
(** utils.py:202-208: debug, [what] and the number of calls so far *)
| Progress (what : str) (n : N)
(** cmdline.py:135, 201, 221: warn('%s, %r', str(e), line) *)
| Warned (e : exn) (line : str)
(** cmdline.py:139, 224: error('%s, %r', str(e), line) *)
| Failed (e : exn) (line : str)
(** cmdline.py:142, 183-186, 203: debug of this text *)
| Debugged (text : str)
(** cmdline.py:150: debug('[CLUSTER] %d %.2fs', root.count, ...) *)
| Clustered (count : Z).

(** collections.Counter as it is used here: [c\[k\] += 1], in the order of insertion *)
Fixpoint bump (k : str) (c : list (str * N)) : list (str * N) :=
  match c with
  | [] => [(k, 1%N)]
  | (k', n) :: r => if str_eqb k k' then (k', (n + 1)%N) :: r else (k', n) :: bump k r
  end.
(** utils.py:13-24 pretty_counter *)
Definition pretty_counter (c : list (str * N)) : str :=
  join (u ", ") (map (fun kn => fst kn ++ u ":" ++ dec_str (snd kn)) c).
(** utils.py:198-208 _log of the speed logger: the new count and what is logged *)
Definition speed_log (interval : N) (what : str) (count : N) : N * list event :=
  let '(c, m) := log_call interval count in
  (c, match m with Some n => [Progress what n] | None => [] end).
(** cmdline.py:130-134, 215-219: the exceptions of the first except clause;
    UnicodeDecodeError is EValue here *)
Definition expected (e : exn) : bool :=
  match e with EInvalidPattern | EIrregularURL | EInvalidChar | EValue => true | _ => false end.
Definition complain (e : exn) (line : str) : event := if expected e then Warned e line else Failed e line.

(** ** pattern-make *)
(** the loop of _load: the makers, stats, the count of the speed logger, the log *)
Record lstate (A : Type) := LS { ls_state : A; ls_stats : list (str * N); ls_count : N; ls_log : list event }.
Arguments LS {A}. Arguments ls_state {A}. Arguments ls_stats {A}. Arguments ls_count {A}. Arguments ls_log {A}.
(** cmdline.py:117-141 *)
Definition make_line_log (nv : str -> bool) (load_url : bool) (s : lstate state) (line : str) : lstate state :=
  let '(LS st stats count log) := s in
  let '(count, sp) := speed_log 5000 (u "[LOADING]") count in
  let log := log ++ sp in
  let stats := bump (u "ALL") stats in
  let line := strip line in
  match line with
  | [] => LS st (bump (u "EMPTY") stats) count log
  | _ =>
      match utf8_decode line with
      | Err e => LS st (bump (u "INVALID") stats) count (log ++ [complain e line])
      | Ok url =>
          let '(st', o) := load nv st url (if load_url then Some url else None) in
          match o with
          | Ok new =>
              let stats := if new : bool then bump (u "UNIQ") stats else stats in
              LS st' (bump (u "VALID") stats) count log
          | Err e => LS st' (bump (u "INVALID") stats) count (log ++ [complain e line])
          end
      end
  end.
(** cmdline.py:112-142 _load *)
Definition make_load_log (nv : str -> bool) (load_url : bool) (lines : list str) : state * list event :=
  let s := fold_left (make_line_log nv load_url) lines (LS [] [] 0%N []) in
  (ls_state s, ls_log s ++ [Debugged (u "[LOADED] " ++ pretty_counter (ls_stats s))]).
(** cmdline.py:144-153 _process: the counts of the roots; [combine] for the format ETE *)
Definition make_process_log (mcn : Z) (combine : bool) (st : state) : res (list event) :=
  if combine then mapM (fun sm => c <- maker_combine mcn (snd sm) ;; Ok (Clustered (c_cnt c))) st
  else cs <- make mcn st ;; Ok (map (fun mt => Clustered (t_cnt (snd mt))) cs).
(** cmdline.py:155-158 run *)
Definition make_log (nv : str -> bool) (mcn : Z) (combine load_url : bool) (lines : list str) : res (list event) :=
  let '(st, log) := make_load_log nv load_url lines in
  r <- make_process_log mcn combine st ;; Ok (log ++ r).

(** ** pattern-match *)
(** cmdline.py:189-202 *)
Definition match_load_line_log (nv : str -> bool) (s : lstate mstate) (line : str) : lstate mstate :=
  let '(LS st stats count log) := s in
  let '(count, sp) := speed_log 1000 (u "[LOADING]") count in
  let log := log ++ sp in
  let stats := bump (u "ALL") stats in
  let line := rstrip line in
  if negb (startswith line [47%N]) then LS st (bump (u "UNKNOW") stats) count log
  else match utf8_decode line with
       | Err e => LS st (bump (u "INVALID") stats) count (log ++ [Warned e line])
       | Ok p =>
           let '(st', o) := match_load nv st p (Some p) in
           match o with
           | Ok _ => LS st' (bump (u "VALID") stats) count log
           | Err e => LS st' (bump (u "INVALID") stats) count (log ++ [Warned e line])
           end
       end.
(** cmdline.py:180-203 _load; a pattern file is its name and its bytes *)
Definition match_load_log (nv : str -> bool) (files : list (str * str)) : mstate * list event :=
  let s := fold_left (match_load_line_log nv) (input_lines (map snd files)) (LS [] [] 0%N []) in
  (ls_state s,
   Debugged (u "[LOAD] " ++ dec_str (N.of_nat (length files)) ++ u " pattern file"
             ++ (if 1 <? length files then u "s" else []) ++ u ": " ++ join (u ", ") (map fst files))
   :: ls_log s ++ [Debugged (u "[LOAD] Finished " ++ pretty_counter (ls_stats s))]).
Section Sort.
  Context (srt : (found -> found -> bool) -> list found -> list found).
  (** cmdline.py:205-239 _match: the count of the speed logger and the log *)
  Definition match_line_log (nv : str -> bool) (st : mstate) (all : bool) (s : N * list event) (line : str) : N * list event :=
    let '(count, log) := s in
    let '(count, sp) := speed_log 5000 (u "[MATCHING]") count in
    let line := strip line in
    (count, log ++ sp ++ match match_try srt nv st all line with Ok _ => [] | Err e => [complain e line] end).
  (** cmdline.py:241-244 run *)
  Definition match_log (nv : str -> bool) (all : bool) (files : list (str * str)) (inputs : list str) : list event :=
    let '(st, log) := match_load_log nv files in
    log ++ snd (fold_left (match_line_log nv st all) (input_lines inputs) (0%N, [])).
End Sort.
