(** Model of /repo/src/os_urlpattern/cmdline.py lines 112-153 (pattern-make) and
    180-239 (pattern-match), and of LogSpeedAdapter (utils.py:176-208).

    Not modelled: argument parsing, logging, the configuration (see Conf.v), the bytes
    that print() writes for a record (see Files.v).  A line of input is a list of bytes. *)
From Coq Require Import String.
From Verif Require Import PyStr Defs UrlLib ParseUtils Views Trees Cluster Patterns Matcher Maker Format.

Local Open Scope N_scope.

(** ** bytes.strip / rstrip / decode and str.encode of CPython *)
Definition is_space (b : N) : bool := ((9 <=? b) && (b <=? 13)) || (b =? 32).
Fixpoint lstrip (l : str) : str :=
  match l with
  | b :: r => if is_space b then lstrip r else l
  | [] => []
  end.
Definition rstrip (l : str) : str := rev (lstrip (rev l)).
Definition strip (l : str) : str := rstrip (lstrip l).

Definition cont (b : N) : bool := (128 <=? b) && (b <=? 191).
(** strict UTF-8; UnicodeDecodeError is a ValueError *)
Fixpoint utf8_decode (l : str) : res str :=
  match l with
  | [] => Ok []
  | a :: l1 =>
      if a <? 128 then s <- utf8_decode l1 ;; Ok (a :: s)
      else match l1 with
      | [] => Err EValue
      | b :: l2 =>
          if negb (cont b) then Err EValue
          else if (194 <=? a) && (a <=? 223) then
            s <- utf8_decode l2 ;; Ok ((a - 192) * 64 + (b - 128) :: s)
          else match l2 with
          | [] => Err EValue
          | c :: l3 =>
              if negb (cont c) then Err EValue
              else if (224 <=? a) && (a <=? 239) then
                let v := (a - 224) * 4096 + (b - 128) * 64 + (c - 128) in
                if (v <? 2048) || ((55296 <=? v) && (v <=? 57343)) then Err EValue
                else s <- utf8_decode l3 ;; Ok (v :: s)
              else match l3 with
              | [] => Err EValue
              | d :: l4 =>
                  if negb (cont d) then Err EValue
                  else if (240 <=? a) && (a <=? 244) then
                    let v := (a - 240) * 262144 + (b - 128) * 4096 + (c - 128) * 64 + (d - 128) in
                    if (v <? 65536) || (1114111 <? v) then Err EValue
                    else s <- utf8_decode l4 ;; Ok (v :: s)
                  else Err EValue
              end
          end
      end
  end.
Definition utf8_char (c : char) : res str :=
  if c <? 128 then Ok [c]
  else if c <? 2048 then Ok [192 + c / 64; 128 + c mod 64]
  else if (55296 <=? c) && (c <=? 57343) then Err EValue
  else if c <? 65536 then Ok [224 + c / 4096; 128 + c / 64 mod 64; 128 + c mod 64]
  else if c <=? 1114111
  then Ok [240 + c / 262144; 128 + c / 4096 mod 64; 128 + c / 64 mod 64; 128 + c mod 64]
  else Err EValue.
Definition utf8_encode (s : str) : res str := l <- mapM utf8_char s ;; Ok (List.concat l).

Local Open Scope Z_scope.

(** ** pattern-make *)
Record mstats := ST { st_all : Z; st_empty : Z; st_uniq : Z; st_valid : Z; st_invalid : Z }.
(** cmdline.py:117-141: one line *)
Definition make_line (nv : str -> bool) (load_url : bool) (s : state * mstats) (line : str)
  : state * mstats :=
  let '(st, ST a e uq v i) := s in
  let line := strip line in
  match line with
  | [] => (st, ST (a + 1) (e + 1) uq v i)
  | _ =>
      match utf8_decode line with
      | Err _ => (st, ST (a + 1) e uq v (i + 1))
      | Ok url =>
          let '(st', o) := load nv st url (if load_url then Some url else None) in
          match o with
          | Ok new => (st', ST (a + 1) e (if new : bool then uq + 1 else uq) (v + 1) i)
          | Err _ => (st', ST (a + 1) e uq v (i + 1))
          end
      end
  end.
(** cmdline.py:112-142 _load *)
Definition make_load (nv : str -> bool) (load_url : bool) (lines : list str) : state * mstats :=
  fold_left (make_line nv load_url) lines ([], ST 0 0 0 0 0).

(** formatter.py: the formatters by name (without ETE).  NULL is the base class, whose
    format() yields nothing (formatter.py:19-32). *)
Inductive fmt := FPattern | FCluster | FInline | FJson | FNull.
Definition pformat (f : fmt) (m : url_meta) (root : tree) : res (list str) :=
  match f with
  | FPattern => Ok (fmt_pattern m root)
  | FCluster => Ok (fmt_cluster m root)
  | FInline => fmt_inline m root
  | FJson => Ok (fmt_json m root)
  | FNull => Ok []
  end.
(** cmdline.py:113 *)
Definition wants_url (f : fmt) : bool := match f with FCluster | FInline => true | _ => false end.
(** cmdline.py:144-153 _process: the printed records *)
Definition make_process (mcn : Z) (f : fmt) (st : state) : res (list str) :=
  cs <- make mcn st ;;
  rs <- mapM (fun mt => pformat f (fst mt) (snd mt)) cs ;;
  Ok (List.concat rs).
(** cmdline.py:155-158 run *)
Definition make_run (nv : str -> bool) (mcn : Z) (f : fmt) (lines : list str) : res (list str) :=
  make_process mcn f (fst (make_load nv (wants_url f) lines)).

(** ** pattern-match *)
(** cmdline.py:189-202: one line of a pattern file *)
Definition match_load_line (nv : str -> bool) (st : mstate) (line : str) : mstate :=
  let line := rstrip line in
  if negb (startswith line [47%N]) then st
  else match utf8_decode line with
       | Err _ => st
       | Ok p => fst (match_load nv st p (Some p))
       end.
Definition match_load_lines (nv : str -> bool) (lines : list str) : mstate :=
  fold_left (match_load_line nv) lines [].

Section Sort.
  (** sorted(result, reverse=True), applied to the order of the elements.  CPython's
      sort is a parameter; what is assumed about it is stated with the theorems. *)
  Context (srt : (found -> found -> bool) -> list found -> list found).

  (** cmdline.py:205-225 _match_result *)
  Definition match_try (nv : str -> bool) (st : mstate) (all : bool) (line : str) : res str :=
    url <- utf8_decode line ;;
    fs <- match_url nv st url ;;
    let fs := if all then fs else firstn 1 (srt found_lt fs) in
    ms <- mapM (fun f => match m_meta (snd f) with
                         | Some (MUser x) => Ok x
                         | _ => Err EType
                         end) fs ;;
    utf8_encode (join [9%N] ms).
  Definition match_result (nv : str -> bool) (st : mstate) (all : bool) (line : str) : str :=
    match match_try nv st all line with Ok r => r | Err _ => [69%N] end.
  (** cmdline.py:230-239: what is written for one line *)
  Definition match_line (nv : str -> bool) (st : mstate) (all : bool) (line : str) : str :=
    let line := strip line in
    let r := match_result nv st all line in
    (match r with [] => [78%N] | _ => r end) ++ [9%N] ++ line ++ [10%N].
  Definition match_run (nv : str -> bool) (all : bool) (patterns lines : list str) : list str :=
    map (match_line nv (match_load_lines nv patterns) all) lines.
End Sort.

(** ** LogSpeedAdapter *)
(** utils.py:198-208 _log: the new count and the count in the forwarded message *)
Definition log_call (interval count : N) : N * option N :=
  let count := (count + 1)%N in
  (count, if N.eqb (count mod interval) 0 then Some count else None).
Fixpoint log_calls (n : nat) (interval count : N) : list N :=
  match n with
  | O => []
  | S n => let '(c, m) := log_call interval count in
           match m with Some x => [x] | None => [] end ++ log_calls n interval c
  end.
