(** The language of URL patterns, as a grammar: the vocabulary of C45. *)
From Coq Require Import String Sorted.
From Verif Require Import PyStr Defs Spec.

(** [decimal ds n]: the decimal digits [ds], of any script, write the number [n] *)
Definition decimal (ds : str) (n : N) : Prop :=
  ds <> [] /\ exists vs, map decimal_value ds = map Some vs /\ n = fold_left (fun a d => 10 * a + d)%N vs 0%N.
(** [count_text q n]: the quantifier [q] asks for [n] characters, -1 for any number *)
Definition count_text (q : str) (n : Z) : Prop :=
  (q = [] /\ n = 1%Z) \/ (q = u "+" /\ n = (-1)%Z) \/
  exists ds k, q = u "{" ++ ds ++ u "}" /\ decimal ds k /\ n = Z.of_N k.
(** [unit_means w rs n]: the text [w] is a unit, [rs] are the character spaces it
    names, in order, and [n] is the number of characters it asks for *)
Definition unit_means (w : str) (rs : list str) (n : Z) : Prop :=
  (exists c r, w = c :: r /\ literal_unit w /\ rs = [space_text c] /\ n = Z.of_nat (length w)) \/
  (exists l q, w = u "[" ++ List.concat l ++ u "]" ++ q /\
     Forall (fun r => In r space_texts) l /\ (forall l0, l <> l0 ++ [u "\\"]) /\
     StronglySorted (fun a b => str_ltb a b = true) rs /\ (forall r, In r rs <-> In r l) /\
     count_text q n /\ n <> 0%Z /\ (0 < n -> Z.of_nat (length rs) <= n)%Z).
(** [part_means P l]: the part [P] of a pattern consists of the units [l] (text,
    spaces, number); the empty part has one empty unit *)
Definition part_means (P : str) (l : list (str * list str * Z)) : Prop :=
  (P = [] /\ l = [([], [[]], 1%Z)]) \/
  (P <> [] /\ List.concat (map (fun x => fst (fst x)) l) = P /\
   Forall (fun x => unit_means (fst (fst x)) (snd (fst x)) (snd x)) l /\
   units_apart (map (fun x => fst (fst x)) l)).

(** ** The parts of a pattern *)
Definition opt_text (sep : str) (o : option str) : str := match o with Some t => sep ++ t | None => [] end.
(** the first '#' starts the fragment, the first [[\?]] before it the query *)
Definition three_parts (s path : str) (q f : option str) : Prop :=
  s = path ++ opt_text (u "[\?]") q ++ opt_text (u "#") f /\
  ~ In 35%N path /\ (forall a b, path <> a ++ u "[\?]" ++ b) /\
  (forall t, q = Some t -> ~ In 35%N t).
(** '/' starts each part of the path; empty ones do not count, except the last *)
Definition path_parts (path : str) (ps : list str) : Prop :=
  exists l x, path = u "/" ++ join (u "/") (l ++ [x]) /\ Forall (fun w => ~ In 47%N w) (l ++ [x]) /\
    ps = filter (fun w => negb (str_eqb w [])) l ++ [x].
(** '&' separates the parameters, which have a key and a value *)
Definition query_parts (q : option str) (ks vs : list str) : Prop :=
  match q with
  | None => ks = [] /\ vs = []
  | Some t => ks <> [] /\ length ks = length vs /\
      t = join (u "&") (map (fun kv => fst kv ++ snd kv) (combine ks vs)) /\
      Forall (fun kv => kv_ok (length ks =? 1) (fst kv) (snd kv) /\ ~ In 38%N (fst kv ++ snd kv) /\
                        (length ks =? 1 = false -> fst kv <> [])) (combine ks vs)
  end.
(** [pattern_parts s d ks hf Ps]: depth of the path, keys, fragment or not, parts *)
Definition pattern_parts (s : str) (d : nat) (ks : list str) (hf : bool) (Ps : list str) : Prop :=
  exists path q f ps vs, three_parts s path q f /\ path_parts path ps /\ query_parts q ks vs /\
    d = length ps /\ hf = match f with Some _ => true | None => false end /\
    Ps = ps ++ vs ++ match f with Some t => [t] | None => [] end.
