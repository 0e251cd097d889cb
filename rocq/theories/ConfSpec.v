(** What a configuration file of pattern-make says: how its text is laid out, what it
    sets, what a value stands for.  Independent of the reader in Conf.v; only [join] of
    strings and the table [zeros] of the digits of Unicode are shared. *)
From Coq Require Import String.
From Verif Require Import PyStr Cmd Observe Conf.
Local Open Scope N_scope.

(** ** The lines of a text: they end at LF, CR LF or CR, and then show LF *)
Definition plain (s : str) : Prop := ~ In 10 s /\ ~ In 13 s.
Inductive lines_of : str -> list str -> Prop :=
| lo_nil : lines_of [] []
| lo_last s : plain s -> s <> [] -> lines_of s [s]
| lo_lf s r ls : plain s -> lines_of r ls -> lines_of (s ++ [10] ++ r) ((s ++ [10]) :: ls)
| lo_crlf s r ls : plain s -> lines_of r ls -> lines_of (s ++ [13; 10] ++ r) ((s ++ [10]) :: ls)
| lo_cr s r ls : plain s -> hd 0 r <> 10 -> lines_of r ls ->
    lines_of (s ++ [13] ++ r) ((s ++ [10]) :: ls).

(** ** White space, and the text of a line without it *)
Definition whites : list char :=
  [9; 10; 11; 12; 13; 28; 29; 30; 31; 32; 133; 160; 5760; 8192; 8193; 8194; 8195; 8196; 8197; 8198;
   8199; 8200; 8201; 8202; 8232; 8233; 8239; 8287; 12288].
Definition white (s : str) : Prop := Forall (fun c => In c whites) s.
Definition no_end (s : str) : Prop := forall r c, s = r ++ [c] -> ~ In c whites.
Definition trimmed (s : str) : Prop := (forall c r, s = c :: r -> ~ In c whites) /\ no_end s.
(** the line shows the text [t], indented by [k] characters *)
Definition shows (line : str) (k : nat) (t : str) : Prop :=
  exists a b, line = a ++ t ++ b /\ white a /\ white b /\ trimmed t /\ t <> [] /\ length a = k.

(** ** What a line can be *)
Definition comment (t : str) : Prop := exists r, t = 35 :: r \/ t = 59 :: r.
(** a line to be passed over *)
Definition idle (line : str) : Prop := white line \/ exists k t, shows line k t /\ comment t.
(** [\[name\]] and anything without a bracket behind it *)
Definition heading (t h : str) : Prop :=
  exists r, t = [91] ++ h ++ [93] ++ r /\ h <> [] /\ ~ In 93 r.
(** name = value, or name: value *)
Definition setting (t o v : str) : Prop :=
  exists a d b w, t = o ++ a ++ [d] ++ b ++ v ++ w /\ (d = 61 \/ d = 58)
    /\ (forall c, In c (o ++ a) -> c <> 61 /\ c <> 58)
    /\ o <> [] /\ no_end o /\ white a /\ white b /\ white w /\ trimmed v.

(** ** The layout of a file *)
Inductive block := Head (name : str) | Opt (name : str) (vals : list str).
(** the lines that continue an option indented by [k], and what they add to its value *)
Inductive more (k : nat) : list str -> list str -> Prop :=
| more_nil : more k [] []
| more_comment l j t ls vs : shows l j t -> comment t -> more k ls vs -> more k (l :: ls) vs
| more_blank l ls vs : white l -> more k ls vs -> more k (l :: ls) ([] :: vs)
| more_text l j t ls vs : shows l j t -> ~ comment t -> (k < j)%nat -> more k ls vs ->
    more k (l :: ls) (t :: vs).
(** no further in than the option before *)
Definition fits (p : option nat) (k : nat) : Prop := match p with Some i => (k <= i)%nat | None => True end.
Inductive laid : option nat -> list str -> list block -> Prop :=
| laid_end p : laid p [] []
| laid_head p l k t h ns rest bs :
    shows l k t -> ~ comment t -> fits p k -> heading t h -> Forall idle ns ->
    laid None rest bs -> laid p (l :: ns ++ rest) (Head h :: bs)
| laid_opt p l k t o v ts vs rest bs :
    shows l k t -> ~ comment t -> fits p k -> (forall h, ~ heading t h) -> setting t o v ->
    more k ts vs -> laid (Some k) rest bs -> laid p (l :: ts ++ rest) (Opt o (v :: vs) :: bs).
Definition layout (lines : list str) (bs : list block) : Prop :=
  exists ns rest, lines = ns ++ rest /\ Forall idle ns /\ laid None rest bs.

(** the bytes of a file laid out as [bs] *)
Definition reads (bytes : str) (bs : list block) : Prop :=
  exists t ls, utf8_decode bytes = Ok t /\ lines_of t ls /\ layout ls bs.

(** ** What it sets: section, option, value *)
Section Meaning.
  Context (lower : str -> str).
  Definition value (vs : list str) (w : str) : Prop :=
    exists b, join [10] vs = w ++ b /\ white b /\ no_end w.
  (** [sets cur bs s o w]: behind a header [cur], the blocks give the option [o] of
      section [s] the value [w] *)
  Inductive sets : str -> list block -> str -> str -> str -> Prop :=
  | sets_head cur h bs s o w : sets h bs s o w -> sets cur (Head h :: bs) s o w
  | sets_here cur n vs bs w : value vs w -> sets cur (Opt n vs :: bs) cur (lower n) w
  | sets_later cur n vs bs s o w : sets cur bs s o w -> sets cur (Opt n vs :: bs) s o w.
  (** the names of the options, in order *)
  Fixpoint names (cur : str) (bs : list block) : list (str * str) :=
    match bs with
    | [] => []
    | Head h :: bs => names h bs
    | Opt n _ :: bs => (cur, lower n) :: names cur bs
    end.
  Fixpoint heads (bs : list block) : list str :=
    match bs with
    | [] => []
    | Head h :: bs => if str_eqb h (u "DEFAULT") then heads bs else h :: heads bs
    | Opt _ _ :: bs => heads bs
    end.
  (** the first block is a header, no section and no option comes twice *)
  Definition proper (bs : list block) : Prop :=
    match bs with Opt _ _ :: _ => False | _ => True end
    /\ NoDup (heads bs) /\ NoDup (names [] bs).

  (** an option as section make sees it: its own, else what the package comes with, else
      what section DEFAULT says *)
  Definition mcn_name : str := u "min_cluster_num".
  Definition known (bs : list block) (o w : str) : Prop :=
    sets [] bs (u "make") o w
    \/ (forall w', ~ sets [] bs (u "make") o w')
       /\ ((o = mcn_name /\ w = u "3") \/ (o <> mcn_name /\ sets [] bs (u "DEFAULT") o w)).

  (** ** References in values: %(name)s and %%, at most [n] deep *)
  Inductive expands (env : str -> str -> Prop) : nat -> str -> str -> Prop :=
  | ex_nil n : expands env n [] []
  | ex_char n c s t : c <> 37 -> expands env n s t -> expands env n (c :: s) (c :: t)
  | ex_percent n s t : expands env n s t -> expands env n ([37; 37] ++ s) (37 :: t)
  | ex_plain n x v s t : x <> [] -> ~ In 41 x -> env (lower x) v -> ~ In 37 v ->
      expands env n s t -> expands env n ([37; 40] ++ x ++ [41; 115] ++ s) (v ++ t)
  | ex_ref n x v w s t : x <> [] -> ~ In 41 x -> env (lower x) v -> In 37 v -> expands env n v w ->
      expands env (Datatypes.S n) s t ->
      expands env (Datatypes.S n) ([37; 40] ++ x ++ [41; 115] ++ s) (w ++ t).
End Meaning.

(** ** Numbers *)
Definition digit (c d : N) : Prop := exists z, In z zeros /\ c = z + d /\ d <= 9.
Inductive numeral : str -> N -> Prop :=
| num_one c d : digit c d -> numeral [c] d
| num_more s n c d : numeral s n -> digit c d -> numeral (s ++ [c]) (10 * n + d)
| num_under s n c d : numeral s n -> digit c d -> numeral (s ++ [95; c]) (10 * n + d).
(** at most 4300 digits *)
Definition short (s : str) : Prop :=
  N.of_nat (length s) <= 4300 + N.of_nat (count_occ N.eq_dec s 95).
Definition blank (c : char) : Prop := In c whites /\ ~ (28 <= c <= 31).
Definition denotes (s : str) (z : Z) : Prop :=
  exists a sg ds b n, s = a ++ sg ++ ds ++ b /\ Forall blank a /\ Forall blank b /\ numeral ds n /\ short ds
    /\ ((sg = [] \/ sg = [43]) /\ z = Z.of_N n \/ sg = [45] /\ z = (- Z.of_N n)%Z).

(** ** The value of min_cluster_num *)
Definition says (lower : str -> str) (bs : list block) (z : Z) : Prop :=
  exists w t, known lower bs mcn_name w /\ expands lower (known lower bs) 9 w t /\ denotes t z.
(** str.lower on ASCII; it makes nothing empty *)
Definition lower_char (c : char) : char := if (65 <=? c) && (c <=? 90) then c + 32 else c.
Definition lowers (lower : str -> str) : Prop :=
  (forall s, Forall (fun c => c < 128) s -> lower s = map lower_char s)
  /\ (forall s, lower s = [] -> s = []).
(** among the lines of the input there is one with a URL that is not rejected *)
Definition accepts (nv : str -> bool) (input : list str) : Prop :=
  exists line url, In line input /\ kind_of_line nv line = LUrl url.
