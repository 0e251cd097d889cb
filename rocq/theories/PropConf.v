(** C69: pattern-make and its configuration file. *)
From Coq Require Import String.
From Verif Require Import PyStr Defs UrlLib ParseUtils Views Trees Cluster Patterns Matcher Maker Format Cmd Ete Observe Conf ConfSpec ConfText ConfMain.

(** every text has one way to be cut into lines *)
Theorem C69_lines : forall t, exists ls, lines_of t ls /\ forall ls', lines_of t ls' -> ls' = ls.
Proof. exact c69_lines. Qed.
Print Assumptions C69_lines.

(** C69.  Without -c the number is 3. *)
Theorem C69_default : forall lower, lowers lower -> forall nv,
  (forall f input, make_main lower nv None f input = run (make_run nv 3 f input))
  /\ (forall ga input, ete_main lower ga nv None input = run (ete_run ga nv 3 input)).
Proof. exact c69_default. Qed.
Print Assumptions C69_default.

(** With a file that is laid out properly and says a number, it is that number. *)
Theorem C69_value : forall lower, lowers lower -> forall bytes bs z,
  reads bytes bs -> proper lower bs -> says lower bs z -> forall nv,
  (forall f input, make_main lower nv (Some bytes) f input = run (make_run nv z f input))
  /\ (forall ga input, ete_main lower ga nv (Some bytes) input = run (ete_run ga nv z input)).
Proof. exact c69_value. Qed.
Print Assumptions C69_value.

(** The file says at most one number, however it is taken to be laid out. *)
Theorem C69_clear : forall lower, lowers lower -> forall bytes bs bs', reads bytes bs -> reads bytes bs' -> proper lower bs ->
  proper lower bs' /\ forall z z', says lower bs z -> (says lower bs' z' <-> z' = z).
Proof. exact c69_clear. Qed.
Print Assumptions C69_clear.

(** A file that is not laid out properly, or not UTF-8, is an error, whatever the input. *)
Theorem C69_refused : forall lower, lowers lower -> forall bytes, (forall bs, reads bytes bs -> ~ proper lower bs) ->
  exists e, forall nv,
    (forall f input, make_main lower nv (Some bytes) f input = CErr e)
    /\ (forall ga input, ete_main lower ga nv (Some bytes) input = CErr e).
Proof. exact c69_refused. Qed.
Print Assumptions C69_refused.

(** A value that is no number is an error only if some URL of the input is accepted;
    nothing is printed otherwise, and no error. *)
Theorem C69_bad : forall lower, lowers lower -> forall bytes bs, reads bytes bs -> proper lower bs -> (forall z, ~ says lower bs z) ->
  exists e, forall nv input,
    (forall f, (accepts nv input -> make_main lower nv (Some bytes) f input = CErr e)
       /\ (~ accepts nv input -> make_main lower nv (Some bytes) f input = COk []))
    /\ (forall ga, (accepts nv input -> ete_main lower ga nv (Some bytes) input = CErr e)
       /\ (~ accepts nv input -> ete_main lower ga nv (Some bytes) input = COk [])).
Proof. exact c69_bad. Qed.
Print Assumptions C69_bad.

(** From 2 on every run ends without an error. *)
Theorem C69_enough : forall lower, lowers lower -> forall bytes bs z, reads bytes bs -> proper lower bs -> says lower bs z -> (2 <= z)%Z ->
  forall nv f input, exists out, make_main lower nv (Some bytes) f input = COk out /\ make_run nv z f input = Ok out.
Proof. exact c69_enough. Qed.
Print Assumptions C69_enough.
(** The numbers up to 1 pass the reading, but the first accepted URL makes the run fail. *)
Theorem C69_small : forall lower, lowers lower -> forall bytes bs z, reads bytes bs -> proper lower bs -> says lower bs z -> (z <= 1)%Z ->
  forall nv f input,
    (accepts nv input -> make_main lower nv (Some bytes) f input = CErr (CRun (if (z =? 1)%Z then EAttr else EUnbound)))
    /\ (~ accepts nv input -> make_main lower nv (Some bytes) f input = COk []).
Proof. exact c69_small. Qed.
Print Assumptions C69_small.

(** Without an assignment in section make the number is 3, whatever section DEFAULT and
    the other sections say. *)
Theorem C69_unset : forall lower bs, (forall w, ~ sets lower [] bs (u "make") (u "min_cluster_num") w) -> says lower bs 3.
Proof. exact c69_unset. Qed.
Print Assumptions C69_unset.

(** Every number of at most 4300 digits can be given, by a file of two lines. *)
Theorem C69_plain : forall lower, lowers lower -> forall z, (N.of_nat (length (dec_str (Z.abs_N z))) <= 4300)%N -> forall nv,
  let bytes := u "[make]" ++ [10%N] ++ u "min_cluster_num = " ++ json_int z ++ [10%N] in
  (forall f input, make_main lower nv (Some bytes) f input = run (make_run nv z f input))
  /\ (forall ga input, ete_main lower ga nv (Some bytes) input = run (ete_run ga nv z input)).
Proof. exact c69_plain. Qed.
Print Assumptions C69_plain.

(** ** Cases *)
Example C69_lower : lowers lw.
Proof. exact lw_ok. Qed.
(** comments, blank lines, section DEFAULT, upper case, a value on the next line, and
    references that reach from one section into the other *)
Example C69_case : reads case_file case_blocks /\ proper lw case_blocks /\ says lw case_blocks 10.
Proof. exact (conj case_reads (conj case_proper case_says)). Qed.
Definition nv1 : str -> bool := fun _ => true.
Definition conf_lines : list str :=
  map (fun s => s ++ [10%N]) [u "http://a/x1"; u "http://a/x2"; u "http://a/y"].
Definition no_lines : list str := [u "nonsense"; []].
Definition with_conf (s : str) (input : list str) := make_main lw nv1 (Some s) FPattern input.
Definition num (s : str) : str := u "[make]" ++ [10%N] ++ u "min_cluster_num = " ++ s.
(** the number matters: the three pages come out differently for 2 *)
Example C69_case_default : make_main lw nv1 None FPattern conf_lines = with_conf (num (u "3")) conf_lines
  /\ with_conf (num (u "2")) conf_lines <> with_conf (num (u "3")) conf_lines.
Proof. split; [vm_compute; reflexivity|vm_compute; discriminate]. Qed.
Example C69_case_run : with_conf case_file conf_lines = run (make_run nv1 10 FPattern conf_lines).
Proof. vm_compute. reflexivity. Qed.
(** the same number in other ways *)
Example C69_case_same : forall s, In s [u "2"; u "+2"; u "0_2"; u " 2 "; [65298%N]; [10%N; 9%N] ++ u "02"] ->
  exists b, utf8_encode s = Ok b /\ with_conf (num b) conf_lines = run (make_run nv1 2 FPattern conf_lines).
Proof.
  intros s H. cbn [In] in H. destruct H as [<-|[<-|[<-|[<-|[<-|[<-|[]]]]]]]; (eexists; split; [vm_compute; reflexivity|vm_compute; reflexivity]).
Qed.
(** no number: noticed only if there is a URL *)
Example C69_case_bad : with_conf (num (u "many")) conf_lines = CErr CInt /\ with_conf (num (u "many")) no_lines = COk []
  /\ with_conf (num (u "2__0")) conf_lines = CErr CInt /\ with_conf (num (u "50%")) conf_lines = CErr CSyntax
  /\ with_conf (num (u "%(n)s")) conf_lines = CErr CMissingOption
  /\ with_conf (num (u "%(min_cluster_num)s")) conf_lines = CErr CDepth.
Proof. repeat split; vm_compute; reflexivity. Qed.
(** not a proper file: noticed in any case *)
Example C69_case_refused : with_conf (u "min_cluster_num = 2") no_lines = CErr CMissingHeader
  /\ with_conf ([239; 187; 191]%N ++ num (u "2")) no_lines = CErr CMissingHeader
  /\ with_conf (num (u "2") ++ [10%N] ++ num (u "2")) no_lines = CErr CDuplicateSection
  /\ with_conf (num (u "2") ++ [10%N] ++ u "Min_cluster_num: 2") no_lines = CErr CDuplicateOption
  /\ with_conf (num (u "2") ++ [10%N] ++ u "min_cluster_num") no_lines = CErr CParsing
  /\ with_conf (num [255%N]) no_lines = CErr CDecode.
Proof. repeat split; vm_compute; reflexivity. Qed.
(** section DEFAULT does not reach it *)
Example C69_case_default_section :
  with_conf (u "[DEFAULT]" ++ [10%N] ++ u "min_cluster_num = 2") conf_lines = run (make_run nv1 3 FPattern conf_lines).
Proof. vm_compute. reflexivity. Qed.
