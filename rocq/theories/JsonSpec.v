(** A reader of JSON texts (RFC 8259) as far as objects of strings and integers
    go: used in statements only.  It does not mention the model. *)
From Coq Require Import String.
From Verif Require Import PyStr.

Local Open Scope N_scope.

Inductive jvalue := JStr (s : str) | JInt (z : Z).

Definition json_blank (c : char) : bool := (c =? 32) || (c =? 9) || (c =? 10) || (c =? 13).
Fixpoint skip_blank (s : str) : str :=
  match s with
  | c :: r => if json_blank c then skip_blank r else s
  | [] => []
  end.
(** four hexadecimal digits *)
Definition hex_value (c : char) : option N :=
  if (48 <=? c) && (c <=? 57) then Some (c - 48)
  else if (97 <=? c) && (c <=? 102) then Some (c - 87)
  else if (65 <=? c) && (c <=? 70) then Some (c - 55)
  else None.
Definition read_hex (s : str) : option (N * str) :=
  match s with
  | a :: b :: c :: d :: r =>
      match hex_value a, hex_value b, hex_value c, hex_value d with
      | Some x, Some y, Some z, Some w => Some (((x * 16 + y) * 16 + z) * 16 + w, r)
      | _, _, _, _ => None
      end
  | _ => None
  end.
(** the characters of a string up to the closing quotation mark; a character
    outside the basic plane is escaped as a surrogate pair *)
Definition escapes : list (char * char) :=
  [(34, 34); (92, 92); (47, 47); (98, 8); (102, 12); (110, 10); (114, 13); (116, 9)].
Definition high (v : N) : bool := (55296 <=? v) && (v <=? 56319).
Definition low (v : N) : bool := (56320 <=? v) && (v <=? 57343).
Definition put (c : char) (o : option (str * str)) : option (str * str) :=
  match o with Some (s, r) => Some (c :: s, r) | None => None end.
Fixpoint read_chars (fuel : nat) (s : str) : option (str * str) :=
  match fuel with
  | O => None
  | S fuel =>
      match s with
      | [] => None
      | c :: r =>
          if c =? 34 then Some ([], r)
          else if c =? 92 then
            match r with
            | [] => None
            | e :: r =>
                if e =? 117 then
                  match read_hex r with
                  | None => None
                  | Some (v, r1) =>
                      if high v then
                        match r1 with
                        | b :: l :: r2 =>
                            if (b =? 92) && (l =? 117) then
                              match read_hex r2 with
                              | Some (w, r3) =>
                                  if low w then put (65536 + (v - 55296) * 1024 + (w - 56320)) (read_chars fuel r3)
                                  else None
                              | None => None
                              end
                            else None
                        | _ => None
                        end
                      else if low v then None
                      else put v (read_chars fuel r1)
                  end
                else match List.find (fun p => fst p =? e) escapes with
                     | Some (_, v) => put v (read_chars fuel r)
                     | None => None
                     end
            end
          else if c <? 32 then None
          else put c (read_chars fuel r)
      end
  end.
Definition read_string (s : str) : option (str * str) :=
  match s with
  | c :: r => if c =? 34 then read_chars (length r) r else None
  | [] => None
  end.
(** decimal digits, without a leading zero unless it is the only one *)
Fixpoint read_digits (s : str) (acc : N) : N * str :=
  match s with
  | c :: r => if (48 <=? c) && (c <=? 57) then read_digits r (acc * 10 + (c - 48)) else (acc, s)
  | [] => (acc, [])
  end.
Definition read_nat (s : str) : option (N * str) :=
  match s with
  | c :: r => if c =? 48 then Some (0, r)
              else if (49 <=? c) && (c <=? 57) then Some (read_digits r (c - 48)) else None
  | [] => None
  end.
Definition read_int (s : str) : option (Z * str) :=
  match s with
  | c :: r => if c =? 45 then match read_nat r with Some (n, r) => Some (- Z.of_N n, r)%Z | None => None end
              else match read_nat s with Some (n, r) => Some (Z.of_N n, r) | None => None end
  | [] => None
  end.
Definition read_value (s : str) : option (jvalue * str) :=
  match read_string s with
  | Some (v, r) => Some (JStr v, r)
  | None => match read_int s with Some (z, r) => Some (JInt z, r) | None => None end
  end.
(** "name": value, then a comma and another member, or the closing brace *)
Fixpoint read_members (fuel : nat) (s : str) : option (list (str * jvalue) * str) :=
  match fuel with
  | O => None
  | S fuel =>
      match read_string (skip_blank s) with
      | None => None
      | Some (k, r) =>
          match skip_blank r with
          | c :: r =>
              if c =? 58 then
                match read_value (skip_blank r) with
                | None => None
                | Some (v, r) =>
                    match skip_blank r with
                    | d :: r =>
                        if d =? 44 then
                          match read_members fuel r with Some (l, r) => Some ((k, v) :: l, r) | None => None end
                        else if d =? 125 then Some ([(k, v)], r) else None
                    | [] => None
                    end
                end
              else None
          | [] => None
          end
      end
  end.
(** the members of the object that a whole text is *)
Definition json_read (s : str) : option (list (str * jvalue)) :=
  match skip_blank s with
  | c :: r =>
      if c =? 123 then
        match match skip_blank r with
              | d :: r' => if d =? 125 then Some ([], r') else read_members (length r) r
              | [] => None
              end with
        | Some (l, r) => match skip_blank r with [] => Some l | _ => None end
        | None => None
        end
      else None
  | [] => None
  end.
(** a Unicode scalar value *)
Definition scalar (c : char) : Prop := c < 1114112 /\ ~ (55296 <= c <= 57343).
