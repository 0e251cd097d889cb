(** C01-C05: pieces. *)
From Coq Require Import String.
From Verif Require Import PyStr Defs ParseUtils Spec BridgeProofs.

(** C01.  A piece is accepted iff all its characters are legal; otherwise
    InvalidCharException, nothing else. *)
Theorem C01_piece_accepted_iff_legal : forall s,
  (Forall legal s -> exists p, piece_parse s = Ok p) /\
  (~ Forall legal s -> piece_parse s = Err EInvalidChar).
Proof. exact c01. Qed.
Print Assumptions C01_piece_accepted_iff_legal.
Example C01_ok : piece_parse (u "ab-12") = Ok (PP [u "ab"; u "[\-]"; u "12"] [u "a-z"; u "\-"; u "0-9"]).
Proof. vm_compute. reflexivity. Qed.
Example C01_bad : piece_parse (u "a b") = Err EInvalidChar /\ piece_parse [233%N] = Err EInvalidChar.
Proof. vm_compute. auto. Qed.

(** C02.  The sub-pieces are the texts of the maximal runs, the rules their
    character spaces; maximal runs are unique. *)
Theorem C02_piece_is_maximal_runs : forall s p, piece_parse s = Ok p ->
  exists ws, maximal_runs s ws /\ pieces p = map run_text ws /\ rules p = map run_space ws.
Proof. exact c02. Qed.
Print Assumptions C02_piece_is_maximal_runs.
Theorem C02_maximal_runs_unique : forall s ws ws',
  maximal_runs s ws -> maximal_runs s ws' -> ws = ws'.
Proof. exact maximal_runs_unique. Qed.
Print Assumptions C02_maximal_runs_unique.
Example C02_case : map run_text [u "ab"; u "--"; u "12"] = [u "ab"; u "[\-]{2}"; u "12"]
  /\ piece_parse (u "ab--12") = Ok (PP [u "ab"; u "[\-]{2}"; u "12"] [u "a-z"; u "\-"; u "0-9"]).
Proof. vm_compute. auto. Qed.

(** C03.  Equal normalized forms come from equal pieces. *)
Theorem C03_piece_injective : forall s t ps pt,
  piece_parse s = Ok ps -> piece_parse t = Ok pt -> piece ps = piece pt -> s = t.
Proof. exact c03. Qed.
Print Assumptions C03_piece_injective.
Example C03_case : exists ps pt, piece_parse (u "[\.]{2}") = Ok ps /\ piece_parse (u "..") = Ok pt
  /\ piece pt = u "[\.]{2}" /\ piece ps <> piece pt.
Proof. do 2 eexists. split; [vm_compute; reflexivity|]. split; [vm_compute; reflexivity|]. vm_compute. split; [auto|discriminate]. Qed.

(** C04.  piece_length is the length of the raw piece plus one for every
    maximal run of backslashes; exact without backslashes, wrong with one. *)
Theorem C04_piece_length_exact : forall s p, piece_parse s = Ok p ->
  piece_length p = Ok (Z.of_nat (length s + backslash_runs false s)).
Proof. exact c04. Qed.
Print Assumptions C04_piece_length_exact.
Theorem C04_piece_length_no_backslash : forall s p, piece_parse s = Ok p -> ~ In 92%N s ->
  piece_length p = Ok (Z.of_nat (length s)).
Proof. exact c04_clean. Qed.
Print Assumptions C04_piece_length_no_backslash.
Theorem C04_piece_length_refuted : exists s p, piece_parse s = Ok p /\
  piece_length p <> Ok (Z.of_nat (length s)).
Proof. exists (u "a\b"). eexists. split; [vm_compute; reflexivity|]. vm_compute. discriminate. Qed.
Print Assumptions C04_piece_length_refuted.
Example C04_case : exists p, piece_parse (u "x[[[12]]].{{{}") = Ok p /\ piece_length p = Ok 14%Z.
Proof. eexists. split; [vm_compute; reflexivity|vm_compute; reflexivity]. Qed.

(** C05.  The normalized piece read as a regular expression matches exactly the
    raw piece. *)
Theorem C05_literal_piece_matches_itself_only : forall s p, piece_parse s = Ok p ->
  forall t, regex_matches (piece p) t <-> t = s.
Proof. exact c05. Qed.
Print Assumptions C05_literal_piece_matches_itself_only.
Example C05_case : exists p, piece_parse (u "a..[9]\") = Ok p /\ piece p = u "a[\.]{2}[\[]9[\]][\\]".
Proof. eexists. split; vm_compute; reflexivity. Qed.
