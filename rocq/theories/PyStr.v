(** Python strings, sets and exceptions as used by os-urlpattern.

    Nothing here models a function of /repo; it models the CPython built-ins
    that /repo/src/os_urlpattern/*.py call. *)
From Coq Require Import Ascii String.
From Coq Require Export List NArith ZArith Bool.
Export ListNotations.

(** A character is a Unicode code point; a [str] is a list of them. *)
Definition char := N.
Definition str := list char.

Fixpoint of_string (s : string) : str :=
  match s with
  | EmptyString => []
  | String a r => N_of_ascii a :: of_string r
  end.
Notation "'u' s" := (of_string s%string) (at level 9, s at level 0).

(** Exceptions, one constructor per Python exception class that the modelled
    code can raise (exceptions.py:5-14 and built-ins).  [EFuel] is not a Python
    exception: it marks an exhausted recursion bound of the model. *)
Inductive exn :=
  EIrregularURL | EInvalidPattern | EInvalidChar
| EValue | EIndex | EKey | EAttr | EType | EUnbound | EFuel.

Inductive res (A : Type) := Ok (a : A) | Err (e : exn).
Arguments Ok {A} a.
Arguments Err {A} e.

Definition bind {A B} (m : res A) (f : A -> res B) : res B :=
  match m with Ok a => f a | Err e => Err e end.
Notation "x <- m ;; f" := (bind m (fun x => f))
  (at level 61, m at next level, right associativity).
Notation "' pat <- m ;; f" := (bind m (fun x => match x with pat => f end))
  (at level 61, pat pattern, m at next level, right associativity).

(** [\[f(x) for x in l\]] where f may raise; evaluated left to right. *)
Fixpoint mapM {A B} (f : A -> res B) (l : list A) : res (list B) :=
  match l with
  | [] => Ok []
  | x :: r => y <- f x ;; ys <- mapM f r ;; Ok (y :: ys)
  end.

(** A loop [for x in l: s = f(s, x)] where the body may raise. *)
Fixpoint foldM {A S} (f : S -> A -> res S) (l : list A) (s : S) : res S :=
  match l with
  | [] => Ok s
  | x :: r => s' <- f s x ;; foldM f r s'
  end.

(** Equality and order of strings (code point order). *)
Fixpoint str_eqb (a b : str) : bool :=
  match a, b with
  | [], [] => true
  | x :: a', y :: b' => N.eqb x y && str_eqb a' b'
  | _, _ => false
  end.

Fixpoint str_ltb (a b : str) : bool :=
  match a, b with
  | [], [] => false
  | [], _ :: _ => true
  | _ :: _, [] => false
  | x :: a', y :: b' => if N.eqb x y then str_ltb a' b' else N.ltb x y
  end.

Definition char_in (c : char) (s : str) : bool := existsb (N.eqb c) s.
Definition str_in (x : str) (l : list str) : bool := existsb (str_eqb x) l.

(** [sorted(set(l))]: a Python set of strings is represented by the strictly
    increasing list of its elements. *)
Fixpoint set_insert (x : str) (l : list str) : list str :=
  match l with
  | [] => [x]
  | y :: r => if str_eqb x y then l
              else if str_ltb x y then x :: l
              else y :: set_insert x r
  end.
Definition sorted_set (l : list str) : list str := fold_right set_insert [] l.

(** [sep.join(l)] *)
Fixpoint join (sep : str) (l : list str) : str :=
  match l with
  | [] => []
  | [x] => x
  | x :: r => x ++ sep ++ join sep r
  end.

(** [s.split(c)] for a one-character separator: never empty. *)
Fixpoint split_char (c : char) (s : str) : list str :=
  match s with
  | [] => [[]]
  | x :: r =>
      if N.eqb x c then [] :: split_char c r
      else match split_char c r with
           | [] => [[x]]
           | w :: ws => (x :: w) :: ws
           end
  end.

Fixpoint startswith (s p : str) : bool :=
  match p, s with
  | [], _ => true
  | y :: p', x :: s' => N.eqb x y && startswith s' p'
  | _ :: _, [] => false
  end.

(** [s.find(sub)]: [None] stands for -1. *)
Fixpoint find (sub s : str) : option nat :=
  if startswith s sub then Some 0
  else match s with
       | [] => None
       | _ :: r => option_map S (find sub r)
       end.

(** [s.find(c)] / [s.rfind(c)] for one character. *)
Fixpoint find_char (c : char) (s : str) : option nat :=
  match s with
  | [] => None
  | x :: r => if N.eqb x c then Some 0 else option_map S (find_char c r)
  end.

Fixpoint rfind_char (c : char) (s : str) : option nat :=
  match s with
  | [] => None
  | x :: r => match rfind_char c r with
              | Some i => Some (S i)
              | None => if N.eqb x c then Some 0 else None
              end
  end.

(** [s\[i\]] with Python's negative indices and IndexError. *)
Definition py_index (s : str) (i : Z) : res char :=
  let n := Z.of_nat (length s) in
  let j := if (i <? 0)%Z then (i + n)%Z else i in
  if (j <? 0)%Z then Err EIndex
  else match nth_error s (Z.to_nat j) with
       | Some c => Ok c
       | None => Err EIndex
       end.

(** [s\[a:b\]] for 0 <= a, 0 <= b. *)
Definition slice {A} (a b : nat) (s : list A) : list A := firstn (b - a) (skipn a s).

(** '%d' % n for n >= 0. *)
Fixpoint dec_aux (fuel : nat) (n : N) (acc : str) : str :=
  match fuel with
  | O => acc
  | S f => let d := (48 + n mod 10)%N in
           if (n <? 10)%N then d :: acc else dec_aux f (n / 10)%N (d :: acc)
  end.
Definition dec_str (n : N) : str := dec_aux (S (N.to_nat (N.log2 n))) n [].

(** str.isdigit / int() per character, from CPython 3.11 unicodedata 14.0:
    the 66 decimal zeros (each starts a run of ten decimal digits) and the
    ranges of characters that are digits but not decimals. *)
Definition decimal_zeros : list N :=
 [0x30; 0x660; 0x6f0; 0x7c0; 0x966; 0x9e6; 0xa66; 0xae6; 0xb66; 0xbe6; 0xc66;
  0xce6; 0xd66; 0xde6; 0xe50; 0xed0; 0xf20; 0x1040; 0x1090; 0x17e0; 0x1810;
  0x1946; 0x19d0; 0x1a80; 0x1a90; 0x1b50; 0x1bb0; 0x1c40; 0x1c50; 0xa620;
  0xa8d0; 0xa900; 0xa9d0; 0xa9f0; 0xaa50; 0xabf0; 0xff10; 0x104a0; 0x10d30;
  0x11066; 0x110f0; 0x11136; 0x111d0; 0x112f0; 0x11450; 0x114d0; 0x11650;
  0x116c0; 0x11730; 0x118e0; 0x11950; 0x11c50; 0x11d50; 0x11da0; 0x16a60;
  0x16ac0; 0x16b50; 0x1d7ce; 0x1d7d8; 0x1d7e2; 0x1d7ec; 0x1d7f6; 0x1e140;
  0x1e2f0; 0x1e950; 0x1fbf0]%N.
Definition other_digits : list (N * N) :=
 [(0xb2,0xb3); (0xb9,0xb9); (0x1369,0x1371); (0x19da,0x19da); (0x2070,0x2070);
  (0x2074,0x2079); (0x2080,0x2089); (0x2460,0x2468); (0x2474,0x247c);
  (0x2488,0x2490); (0x24ea,0x24ea); (0x24f5,0x24fd); (0x24ff,0x24ff);
  (0x2776,0x277e); (0x2780,0x2788); (0x278a,0x2792); (0x10a40,0x10a43);
  (0x10e60,0x10e68); (0x11052,0x1105a); (0x1f100,0x1f10a)]%N.

Fixpoint decimal_in (zs : list N) (c : char) : option N :=
  match zs with
  | [] => None
  | z :: r => if ((z <=? c) && (c <? z + 10))%N then Some (c - z)%N
              else decimal_in r c
  end.
Definition decimal_value (c : char) : option N := decimal_in decimal_zeros c.
Definition isdigit_char (c : char) : bool :=
  match decimal_value c with
  | Some _ => true
  | None => existsb (fun r => (fst r <=? c) && (c <=? snd r))%N other_digits
  end.
(** [s.isdigit()] *)
Definition isdigit (s : str) : bool :=
  match s with [] => false | _ => forallb isdigit_char s end.

(** [int(s)].  Simplification: only plain digit strings are accepted (Python
    also accepts surrounding white space, a sign and single underscores, and
    rejects more than 4300 digits); every caller but one guards the call with
    [isdigit], the other one ([piece_length]) is used on generated pieces. *)
Fixpoint int_acc (s : str) (acc : N) : res N :=
  match s with
  | [] => Ok acc
  | c :: r => match decimal_value c with
              | Some d => int_acc r (10 * acc + d)%N
              | None => Err EValue
              end
  end.
Definition py_int (s : str) : res N :=
  match s with [] => Err EValue | _ => int_acc s 0%N end.

(** Association lists as insertion-ordered dicts. *)
Section Dict.
  Context {K V : Type} (eqb : K -> K -> bool).
  Fixpoint dget (k : K) (d : list (K * V)) : option V :=
    match d with
    | [] => None
    | (k', v) :: r => if eqb k k' then Some v else dget k r
    end.
  (** d[k] = v: replaces in place or appends. *)
  Fixpoint dset (k : K) (v : V) (d : list (K * V)) : list (K * V) :=
    match d with
    | [] => [(k, v)]
    | (k', v') :: r => if eqb k k' then (k', v) :: r else (k', v') :: dset k v r
    end.
End Dict.
