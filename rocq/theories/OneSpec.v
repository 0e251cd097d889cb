(** URLs that differ at one position only, in texts of one character space: used in
    statements only. *)
From Coq Require Import String.
From Verif Require Import PyStr Defs UrlLib ParseUtils Spec Trees Cluster Patterns Matcher Maker Observe MatchSpec.

(** a text of one character space, written [r] *)
Definition in_space (r s : str) : Prop := s <> [] /\ forall c, In c s -> space_text c = r.
(** every accepted URL has the structure [m] and the pieces [pre], one of the space
    [r], [post]; [ss] are the texts at that position *)
Definition one_varies (nv : str -> bool) (h : list (str * option str)) (m : url_meta) (pre post : list str) (r : str) (ss : list str) : Prop :=
  NoDup ss /\
  (forall url meta m' raw, In (url, meta) h -> url_path nv url = Some (m', raw) ->
     m' = m /\ exists s, raw = pre ++ s :: post /\ in_space r s) /\
  (forall s, In s ss <-> exists url meta, In (url, meta) h /\ url_path nv url = Some (m, pre ++ s :: post)).

(** the texts of one length; the number of lengths; the size of the largest class of
    texts of one length *)
Definition of_length (n : nat) (ss : list str) : list str := filter (fun s => length s =? n) ss.
Definition lengths (ss : list str) : list nat := nodup Nat.eq_dec (map (@length char) ss).
Definition largest (ss : list str) : nat := fold_right Nat.max 0 (map (fun n => length (of_length n ss)) (lengths ss)).
(** no length stands out: there are [mcn] lengths, or [mcn] texts inside and outside
    of the largest class, or the two sides are about equal *)
Definition mixed_lengths (mcn : Z) (ss : list str) : Prop :=
  let c := Z.of_nat (largest ss) in
  let rest := (Z.of_nat (length ss) - c)%Z in
  (mcn <= Z.of_nat (length (lengths ss)))%Z \/ (mcn <= c /\ mcn <= rest)%Z \/ (Z.abs (c - rest) < mcn - 1)%Z.
(** the pattern of the text [s] *)
Definition one_pattern (mcn : Z) (r : str) (ss : list str) (s P : str) : Prop :=
  let few := (Z.of_nat (length ss) < mcn)%Z in
  let shared := (mcn <= Z.of_nat (length (of_length (length s) ss)))%Z in
  (few -> P = run_text s) /\
  (~ few -> mixed_lengths mcn ss -> P = cunit_text (CCls [r] None)) /\
  (~ few -> ~ mixed_lengths mcn ss -> shared -> P = cunit_text (CCls [r] (Some (N.of_nat (length s))))) /\
  (~ few -> ~ mixed_lengths mcn ss -> ~ shared -> P = run_text s).
