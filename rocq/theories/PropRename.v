(** C56: no letter and no digit is special. *)
From Coq Require Import String.
From Verif Require Import PyStr Defs UrlLib ParseUtils Spec Trees Cluster Patterns Matcher Maker Observe GrammarSpec UrlSpec RenameSpec DefsProofs Rename PropMake.
From Coq Require Import Lia.

(** C56.  Load the renamed URLs: make() yields the renamed clusters, in the same order,
    with the same counts and metadata at every node, or raises the same exception *)
Theorem C56_make : forall nv mcn f g h h', renaming f g -> Forall2 (renamed_load nv f) h h' ->
  view_clusters (make mcn (loads nv h')) = rename_clusters f (view_clusters (make mcn (loads nv h))).
Proof. intros nv mcn f g h h' RN F. exact (renamed_make f g RN nv mcn h h' F). Qed.
Print Assumptions C56_make.
(** and load answers the same *)
Theorem C56_load : forall nv f g h h' url url' me m raw, renaming f g -> Forall2 (renamed_load nv f) h h' ->
  url_path nv url = Some (m, raw) -> url_path nv url' = Some (rename_path f (m, raw)) ->
  snd (load nv (loads nv h') url' me) = snd (load nv (loads nv h) url me).
Proof. intros nv f g h h' url url' me m raw RN F P P'. exact (renamed_answer f g RN nv h h' url url' me m raw F P P'). Qed.
Print Assumptions C56_load.
(** Absolute URLs whose paths, queries and fragments are renamed letter by letter are
    renamed URLs, whatever their schemes and hosts *)
Theorem C56_urls : forall nv f g url url', renaming f g -> renamed_url nv f url url' ->
  url_path nv url' = option_map (rename_path f) (url_path nv url).
Proof. exact renamed_analysis. Qed.
Print Assumptions C56_urls.
(** different texts stay different *)
Theorem C56_one_to_one : forall f g a b, renaming f g -> rename_text f a = rename_text f b -> a = b.
Proof. intros f g a b RN. exact (rename_inj f g RN a b). Qed.
Print Assumptions C56_one_to_one.

(** every small letter by the next one, every digit d by 9 - d *)
Definition case_f (c : char) : char := if is_lower c then (if N.eqb c 122 then 97 else c + 1)%N else if is_digit c then (105 - c)%N else c.
Definition case_g (c : char) : char := if is_lower c then (if N.eqb c 97 then 122 else c - 1)%N else if is_digit c then (105 - c)%N else c.
Lemma case_big : forall c, (128 <= c)%N -> case_f c = c /\ case_g c = c.
Proof. intros c H. unfold case_f, case_g. rewrite is_lower_ge, is_digit_ge by exact H. auto. Qed.
Lemma case_renaming : renaming case_f case_g.
Proof.
  split; [|split].
  - intros c. destruct (lt_or_ge_128 c) as [L|L].
    + pose proof (ascii_forall (fun c => N.eqb (case_g (case_f c)) c && N.eqb (case_f (case_g c)) c) ltac:(vm_compute; reflexivity) c L) as X. cbv beta in X. apply andb_true_iff in X. rewrite !N.eqb_eq in X. exact X.
    + destruct (case_big c L) as [A B]. rewrite A, B, A. auto.
  - intros c. rewrite <- !PyStrProofs.char_in_In. destruct (lt_or_ge_128 c) as [L|L].
    + pose proof (ascii_forall (fun c => implb (char_in c lowercase) (char_in (case_f c) lowercase) && implb (char_in c uppercase) (char_in (case_f c) uppercase) && implb (char_in c Spec.digits) (char_in (case_f c) Spec.digits)) ltac:(vm_compute; reflexivity) c L) as X. cbv beta in X.
      apply andb_true_iff in X. destruct X as [X D]. apply andb_true_iff in X. destruct X as [A B]. repeat split; intros E; rewrite E in *; assumption.
    + destruct (case_big c L) as [-> _]. auto.
  - intros c NI. rewrite <- PyStrProofs.char_in_In in NI. destruct (lt_or_ge_128 c) as [L|L]; [|apply case_big; exact L].
    pose proof (ascii_forall (fun c => char_in c letters_digits || N.eqb (case_f c) c) ltac:(vm_compute; reflexivity) c L) as X. cbv beta in X. apply orb_true_iff in X. destruct X as [X|X]; [contradiction|apply N.eqb_eq; exact X].
Qed.
Definition case_lines (l : list string) : list (str * option str) := map (fun s => (u s, Some (u "m"))) l.
Definition case_old := case_lines ["http://h/ab/x-1?id=a7"; "http://h/cd/x-1?id=b8"; "http://h/ef/x-1?id=c9"; "http://h/ab/x-1"; "http://h/%"; "http://h/a&b/é"; "nothing"]%string.
Definition case_new := case_lines ["https://example/bc/y-8?je=b2"; "ftp://h/de/y-8?je=c1"; "https://u@h:80/fg/y-8;7?je=d0"; "http://h/bc/y-8"; "http://other/%"; "http://h/a?&"; "http:///?&"]%string.
Example C56_case : renaming case_f case_g /\ Forall2 (renamed_load nv0 case_f) case_old case_new /\
  map fst (seen (make 2 (loads nv0 case_old))) = [u "/[a-z]{2}/x[\-]1[\?]id=[a-z][0-9]"; u "/ab/x[\-]1"; u "/[%]"] /\
  map fst (seen (make 2 (loads nv0 case_new))) = [u "/[a-z]{2}/y[\-]8[\?]je=[a-z][0-9]"; u "/bc/y[\-]8"; u "/[%]"].
Proof.
  split; [exact case_renaming|]. split; [repeat (apply Forall2_cons; [split; vm_compute; reflexivity|]); apply Forall2_nil|]. split; vm_compute; reflexivity.
Qed.
Example C56_case_url : renamed_url nv0 case_f (u "http://h/ab;x?k=1#z") (u "https://e/bc?l=8#a").
Proof.
  exists (u "http"), (u "h"), (u "/ab;x"), (Some (u "k=1")), (Some (u "z")), (u "https"), (u "e"), (u "/bc"), (u "/ab").
  assert (NI : forall (x : char) s, char_in x s = false -> ~ In x s) by (intros x s H I; apply PyStrProofs.char_in_In in I; congruence).
  assert (FA : forall (b s : str), forallb (fun c => negb (char_in c b)) s = true -> Forall (fun c => ~ In c b) s) by (intros b s H; apply Forall_forall; intros c I; apply NI; rewrite forallb_forall in H; apply negb_true_iff, H, I).
  assert (FI : forall (b s : str), forallb (fun c => char_in c b) s = true -> Forall (fun c => In c b) s) by (intros b s H; apply Forall_forall; intros c I; apply PyStrProofs.char_in_In; rewrite forallb_forall in H; apply H, I).
  assert (AB : forall s h p q fr url, url = s ++ u "://" ++ h ++ u "/" ++ p ++ u "?" ++ q ++ u "#" ++ fr ->
    match s with c :: _ => char_in c (lowercase ++ uppercase) | [] => false end = true -> forallb (fun c => char_in c (letters_digits ++ u "+-.")) s = true ->
    forallb (fun c => negb (char_in c (u "/?#"))) h = true -> forallb (fun c => negb (char_in c (u "?#"))) p = true -> char_in 35%N q = false -> forallb (fun c => negb (char_in c [9; 10; 13]%N)) url = true ->
    absolute url s h (u "/" ++ p) (Some q) (Some fr)).
  { intros s h p q fr url E A B C D F G. split; [rewrite E; cbn [opt_text]; rewrite <- ?app_assoc; reflexivity|]. split; [split; [destruct s as [|c s]; [discriminate|]; exists c, s; split; [reflexivity|apply PyStrProofs.char_in_In; exact A]|apply FI; exact B]|]. split; [apply FA; exact C|]. split; [right; exists p; reflexivity|]. split; [apply Forall_app; split; [apply FA; reflexivity|apply FA; exact D]|]. split; [intros t T0; inversion T0; subst; apply NI; exact F|apply FA; exact G]. }
  split; [apply (AB (u "http") (u "h") (u "ab;x") (u "k=1") (u "z")); vm_compute; reflexivity|].
  split; [right; split; [vm_compute; auto|]; split; [intros a b E; exfalso; apply (NI 59%N (u "/ab") eq_refl); rewrite E; apply in_or_app; right; left; reflexivity|exists (u "x"); split; [reflexivity|apply NI; reflexivity]]|].
  split; [split; [split; intros I; exfalso; revert I; apply NI; reflexivity|reflexivity]|].
  split; [apply (AB (u "https") (u "e") (u "bc") (u "l=8") (u "a")); vm_compute; reflexivity|].
  split; [left; split; [reflexivity|]; right; intros a b E; exfalso; apply (NI 59%N (u "/bc") eq_refl); rewrite E; apply in_or_app; right; left; reflexivity|].
  split; [split; intros I; exfalso; revert I; apply NI; reflexivity|reflexivity].
Qed.
