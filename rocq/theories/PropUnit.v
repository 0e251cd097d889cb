(** C12, C13: pattern units. *)
From Coq Require Import String.
From Verif Require Import PyStr Defs ParseUtils PyStrProofs Spec BridgeProofs.
From Coq Require Import Sorted.

(** C12.  [rs] is a set of character space texts given as the sorted list of its
    elements. *)
Theorem C12_specify_rule_parses_back : forall rs num, rs <> [] ->
  Forall (fun r => In r space_texts) rs -> StronglySorted (fun a b => str_ltb a b = true) rs ->
  (num < 0 \/ Z.of_nat (length rs) <= num)%Z ->
  exists w, specify_rule (List.concat rs) num = Ok w /\
    parse_pattern_unit_string w = Ok (rs, if (num <? 0)%Z then (-1)%Z else num).
Proof. exact c12_ok. Qed.
Print Assumptions C12_specify_rule_parses_back.
Theorem C12_specify_rule_zero : forall r, specify_rule r 0 = Err EValue.
Proof. exact c12_zero. Qed.
Print Assumptions C12_specify_rule_zero.
Example C12_case : Forall (fun r => In r space_texts) [u "0-9"; u "\]"; u "a-z"] /\
  StronglySorted (fun a b => str_ltb a b = true) [u "0-9"; u "\]"; u "a-z"] /\
  parse_pattern_unit_string (u "[0-9\]a-z]{12}") = Ok ([u "0-9"; u "\]"; u "a-z"], 12%Z).
Proof.
  split; [|split]; [| |vm_compute; reflexivity].
  - repeat (apply Forall_cons || apply Forall_nil); apply str_in_In; vm_compute; reflexivity.
  - repeat (apply SSorted_cons || apply SSorted_nil || apply Forall_cons || apply Forall_nil); reflexivity.
Qed.

(** C13.  Splitting a pattern into units. *)
Theorem C13_units_lossless : forall p us, parse_pattern_string p = Ok us ->
  List.concat us = p /\ (p = [] -> us = [[]]) /\
  (p <> [] -> Forall (fun w => (literal_unit w \/ bracket_unit w) /\ parse_pattern_string w = Ok [w]) us
              /\ units_apart us).
Proof. exact c13_ok. Qed.
Print Assumptions C13_units_lossless.
Theorem C13_only_invalid_pattern : forall p e, parse_pattern_string p = Err e -> e = EInvalidPattern.
Proof. exact c13_err. Qed.
Print Assumptions C13_only_invalid_pattern.
Example C13_case : parse_pattern_string (u "ab12[\-]{2}Q[0-9a-z]+x") =
  Ok [u "ab"; u "12"; u "[\-]{2}"; u "Q"; u "[0-9a-z]+"; u "x"].
Proof. vm_compute. reflexivity. Qed.
