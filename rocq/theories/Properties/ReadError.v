(** Read errors: C79. A file whose reading fails in the middle - an I/O error, or a
    directory where a file was expected - is compared with the file that ends there. The
    vocabulary is in Spec/ReadSpec.v; [broken_after b] (Model/Stream.v) delivers [b] and
    then fails. *)
From Verif.Model Require Import Base Log PluralForms Dictionary IConv Language Stream PoParser Manager.
From Verif.Spec Require Import DictSpec ParserSpec PoSpec ManagerSpec ReadSpec.
From Verif.Proofs Require Import BaseFacts ParserFuel ParserUnary ParserRel ParserTerm ParserBreak ManagerSafe.
From Verif.Properties Require Import Parser Manager.
Local Open Scope list_scope.

(** C79. The error is never reported: the parse has exactly the effects - outcome,
    dictionary, messages - of parsing the file that ends where reading failed, with or
    without the line the error cut ... *)
Theorem C79_read_error_is_end_of_file :
  forall (cf : config) (fn pre l : bytes) (d : dictionary) (r : parse_result),
  complete pre -> one_line l ->
  parses_to cf fn (broken_after (pre ++ l)) d r ->
  exists r', (parses_to cf fn (stream_of pre) d r' \/ parses_to cf fn (stream_of (pre ++ l)) d r') /\ parses_alike r r'.
Proof.
  intros cf fn pre l d r Hp Hl H. apply parses_to_elim in H as (n & <- & H).
  destruct (C22_terminates_complete cf fn pre d Hp) as [r3 H3]. apply parses_to_elim in H3 as (n3 & <- & H3).
  pose proof (po_parse_fuel cf fn (broken_after (pre ++ l)) d n (Nat.max n n3) ltac:(lia) H) as E.
  rewrite <- E in H |- *.
  destruct (break_po (with_fuel cf (Nat.max n n3)) fn pre l d Hp Hl) as [A|A].
  - eexists. split; [|exact A]. right. apply parses_to_intro. rewrite <- (proj1 A). exact H.
  - eexists. split; [|exact A]. left. apply parses_to_intro. rewrite <- (proj1 A). exact H.
Qed.
(** ... and if the parser gets stuck on it, it gets stuck on that file with the cut line. *)
Theorem C79_read_error_hang :
  forall (cf : config) (fn pre l : bytes) (d : dictionary),
  complete pre -> one_line l ->
  diverges cf fn (broken_after (pre ++ l)) d -> diverges cf fn (stream_of (pre ++ l)) d.
Proof.
  intros cf fn pre l d Hp Hl H. apply diverges_not. intros [r D]. apply parses_to_elim in D as (n & <- & D).
  destruct (C22_terminates_complete cf fn pre d Hp) as [r3 H3]. apply parses_to_elim in H3 as (n3 & <- & H3).
  specialize (H (Nat.max n n3)). destruct (break_po (with_fuel cf (Nat.max n n3)) fn pre l d Hp Hl) as [A|A]; destruct A as [A _]; rewrite H in A.
  - apply D. rewrite <- (po_parse_fuel cf fn (stream_of (pre ++ l)) d n (Nat.max n n3) ltac:(lia) D). symmetry. exact A.
  - apply H3. rewrite <- (po_parse_fuel cf fn (stream_of pre) d n3 (Nat.max n n3) ltac:(lia) H3). symmetry. exact A.
Qed.
(** If reading fails between two blocks, the cut line is not looked at: the parse has the
    effects of the file without it, and ends. *)
Theorem C79_read_error_between_blocks :
  forall (cf : config) (fn pre l : bytes) (d : dictionary),
  between_blocks pre -> one_line l ->
  exists r r', parses_to cf fn (broken_after (pre ++ l)) d r /\ parses_to cf fn (stream_of pre) d r' /\ parses_alike r r'.
Proof.
  intros cf fn pre l d Hp Hl.
  assert (C : complete pre) by (destruct Hp as [->|(p & w & -> & _)]; [left; reflexivity|right; exists (p ++ w); now rewrite app_assoc]).
  destruct (C22_terminates_complete cf fn pre d C) as [r' H']. destruct (parses_to_elim _ _ _ _ _ H') as (n & E & H).
  pose proof (break_between (with_fuel cf n) fn pre l d Hp Hl) as A. rewrite E in A.
  eexists. exists r'. split; [|split; [exact H'|exact A]]. apply parses_to_intro. rewrite (proj1 A). exact H.
Qed.
(** An error after a complete line is no different from the end of the file there. *)
Theorem C79_read_error_after_line :
  forall (cf : config) (fn pre : bytes) (d : dictionary),
  complete pre ->
  exists r r', parses_to cf fn (broken_after pre) d r /\ parses_to cf fn (stream_of pre) d r' /\ parses_alike r r'.
Proof.
  intros cf fn pre d Hp. destruct (C22_terminates_complete cf fn pre d Hp) as [r' H']. destruct (parses_to_elim _ _ _ _ _ H') as (n & E & H).
  assert (A : parses_alike (po_parse (with_fuel cf n) fn (broken_after pre) d) (po_parse (with_fuel cf n) fn (stream_of pre) d)).
  { destruct (break_po (with_fuel cf n) fn pre [] d Hp ltac:(intros [])) as [A|A]; rewrite app_nil_r in A; exact A. }
  rewrite E in A. eexists. exists r'. split; [|split; [exact H'|exact A]]. apply parses_to_intro. rewrite (proj1 A). exact H.
Qed.

(** Each of the two alternatives occurs, and so does the hang. *)
Definition cut_in_entry : bytes := file [bs "msgid `a`"; bs "msgstr `A`"; bs ""; bs "msgid `b`"].
Definition cut_between : bytes := file [bs "msgid `a`"; bs "msgstr `A`"; bs ""].
Example C79_nonvacuous :
  (** in an entry: the cut line is used *)
  complete cut_in_entry /\ one_line (q (bs "msgstr `B`")) /\
  (exists r, parses_to ex_cf (bs "f.po") (broken_after (cut_in_entry ++ q (bs "msgstr `B`"))) ex_d r /\
     pr_outcome r = Ret tt /\ pr_calls r = [CallAdd (AddSingular None (bs "a") (bs "A")); CallAdd (AddSingular None (bs "b") (bs "B"))]) /\
  (** cut in the middle of the string: one error message, about the string *)
  (exists r, parses_to ex_cf (bs "f.po") (broken_after (cut_in_entry ++ q (bs "msgstr `B"))) ex_d r /\
     pr_outcome r = Ret tt /\ pr_calls r = [CallAdd (AddSingular None (bs "a") (bs "A"))] /\
     pr_trace r = [EvLog (log_error (q (bs "f.po:5: error: unexpected end of string: msgstr `B")))]) /\
  (** between two blocks: not used *)
  between_blocks cut_between /\
  (exists r, parses_to ex_cf (bs "f.po") (broken_after (cut_between ++ bs "msgi")) ex_d r /\
     pr_outcome r = Ret tt /\ pr_calls r = [CallAdd (AddSingular None (bs "a") (bs "A"))] /\ pr_trace r = []) /\
  (** the file that ends there instead gets a message *)
  (exists r, parses_to ex_cf (bs "f.po") (stream_of (cut_between ++ bs "msgi")) ex_d r /\ length (pr_trace r) = 1) /\
  (** in a comment that begins a block: stuck *)
  diverges ex_cf (bs "f.po") (broken_after (file [bs "# a"] ++ bs "# b")) ex_d.
Proof.
  split; [right; eexists (removelast cut_in_entry); vm_compute; reflexivity|].
  split; [intro H; vm_compute in H; intuition discriminate|].
  split; [eexists; split; [apply (parses_to_intro _ _ _ _ 20); vm_compute; discriminate|vm_compute; repeat split]|].
  split; [eexists; split; [apply (parses_to_intro _ _ _ _ 20); vm_compute; discriminate|vm_compute; repeat split]|].
  split; [right; exists (file [bs "msgid `a`"; bs "msgstr `A`"]), []; split; [reflexivity|]; split; [right; exists (removelast (file [bs "msgid `a`"; bs "msgstr `A`"])); vm_compute; reflexivity|split; [constructor|intros []]]|].
  split; [eexists; split; [apply (parses_to_intro _ _ _ _ 20); vm_compute; discriminate|vm_compute; repeat split]|].
  split; [eexists; split; [apply (parses_to_intro _ _ _ _ 20); vm_compute; discriminate|vm_compute; repeat split]|].
  intro n. unfold po_parse, parse_member. destruct n as [|n]; [reflexivity|].
  change (cf_fuel (with_fuel ex_cf (S n))) with (S n). unfold mbind at 1. rewrite next_line_eq, mmod_bind. cbn [parse_loop]. rewrite mget_bind.
  set (s0 := nextst (init_state _ _ _)).
  assert (E : p_eof s0 = false /\ p_cur s0 = bs "# a" /\ p_in s0 = broken_after (bs "# b")) by (vm_compute; repeat split).
  clearbody s0. destruct E as (E1 & E2 & E3). rewrite E2. change (starts_with bom (bs "# a")) with false. cbv iota. rewrite E1. unfold mbind, try_block, block, mbind.
  assert (C : forall cf f (s : pst (cf_iconv cf)) z, is_good (p_in s) = false -> p_cur s = bs "# b" -> fst (comments cf f z s) = OutOfFuel).
  { intros cf f. induction f as [|f IH]; intros s z G Ec; [reflexivity|]. cbn [comments]. unfold prefix. rewrite mget_bind, Ec.
    change (starts_with [c_hash] (bs "# b")) with true. cbv iota. rewrite mget_bind. cbv zeta. unfold mbind. rewrite next_line_eq. apply IH; unfold nextst; rewrite (getline_bad _ _ G).
    - cbn [st_line p_in]. unfold is_good. cbn [is_fail negb]. apply andb_false_r.
    - exact Ec. }
  assert (X : fst (comments (with_fuel ex_cf (S n)) (S n) false s0) = OutOfFuel).
  { cbn [comments]. unfold prefix. rewrite mget_bind, E2. change (starts_with [c_hash] (bs "# a")) with true. cbv iota. rewrite mget_bind. cbv zeta. unfold mbind. rewrite next_line_eq.
    apply C; unfold nextst; rewrite E3; reflexivity. }
  change (cf_fuel (with_fuel ex_cf (S n))) with (S n).
  destruct (comments (with_fuel ex_cf (S n)) (S n) false s0) as [o1 t1]. cbn [fst] in X. subst o1. reflexivity.
Qed.

(** At the manager: in every history, a shelf some of whose files cannot be read to their
    end - or are directories - behaves like one where these files end with the last block
    delivered completely. Nothing is logged about the errors. *)
Theorem C79_manager_read_errors :
  forall (cf : config) (o o' : os_state) (bad : bytes -> bool) (op : mop) (m : manager),
  salvaged o bad o' ->
  mstep cf (faulty_file_system o bad) op m = mstep cf (unix_file_system o') op m.
Proof.
  intros cf o o' bad op m [Hd Hf]. apply reads_step.
  - intro p. cbn [faulty_file_system unix_file_system fs_dir]. now rewrite Hd.
  - intro f. specialize (Hf f). cbn [faulty_file_system unix_file_system fs_file]. destruct (os_file o f) as [b|]; [|left; now rewrite Hf].
    destruct (bad f); [|left; now rewrite Hf]. destruct Hf as (pre & l & -> & Hp & Hl & ->). right. eexists. eexists. split; [reflexivity|]. split; [reflexivity|].
    intro d. destruct (break_between cf f pre l d Hp Hl) as (A & B & C & _). auto.
Qed.

(** "lo/de.po" is a directory, "hi/de.po" fails in its last line. *)
Definition bad_disk : os_state := {|
  os_dir := os_dir ex_os;
  os_file := fun f => if bytes_eqb f (bs "lo/de.po") then Some []
                      else if bytes_eqb f (bs "hi/de.po") then Some (cut_between ++ bs "msgid") else os_file ex_os f |}.
Definition good_disk : os_state := {|
  os_dir := os_dir ex_os;
  os_file := fun f => if bytes_eqb f (bs "lo/de.po") then Some []
                      else if bytes_eqb f (bs "hi/de.po") then Some cut_between else os_file ex_os f |}.
Definition bad_files (f : bytes) : bool := bytes_eqb f (bs "lo/de.po") || bytes_eqb f (bs "hi/de.po").
Example C79_manager_nonvacuous :
  salvaged bad_disk bad_files good_disk /\
  exists m d, returns ex_run (faulty_file_system bad_disk bad_files) (fresh ex_run (faulty_file_system bad_disk bad_files) utf8 [bs "hi"; bs "lo"]) de m d /\
    lookup d (None, bs "a") = Some [bs "A"] /\ m_tr m = [].
Proof.
  split.
  - split; [reflexivity|]. intro f. unfold bad_files. cbn [bad_disk good_disk os_file].
    destruct (bytes_eqb f (bs "lo/de.po")); cbn [orb].
    + exists [], []. split; [reflexivity|]. split; [left; reflexivity|]. split; [intros []|reflexivity].
    + destruct (bytes_eqb f (bs "hi/de.po")).
      * exists cut_between, (bs "msgid"). split; [reflexivity|]. split; [exact (proj1 (proj2 (proj2 (proj2 (proj2 C79_nonvacuous)))))|].
        split; [intro H; vm_compute in H; intuition discriminate|reflexivity].
      * destruct (os_file ex_os f); reflexivity.
  - eexists. eexists. split; [eexists; split; vm_compute; reflexivity|]. vm_compute. split; reflexivity.
Qed.

Print Assumptions C79_read_error_is_end_of_file.
Print Assumptions C79_read_error_hang.
Print Assumptions C79_read_error_between_blocks.
Print Assumptions C79_read_error_after_line.
Print Assumptions C79_manager_read_errors.
