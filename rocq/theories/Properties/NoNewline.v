(** Properties of POParser::parse on files whose last line is not ended by a newline: C69.
    Such a file is compared with the same file with the newline, about which C66 to C68
    (Properties/Damage.v) say everything. The vocabulary is in Spec/DamageSpec.v. *)
From Verif.Model Require Import Base Log PluralForms Dictionary IConv Stream PoParser.
From Verif.Spec Require Import DictSpec IConvSpec ParserSpec.
From Verif.Proofs Require Import BaseFacts DictProofs ParserUnary ParserRel ParserSafe ParserFuel ParserStrict DocSound DocExact DocUnique DocLoop DocComplaint DocOpen.
From Verif.Spec Require Import PoSpec SoundSpec DamageSpec.
From Verif.Properties Require Import Parser Document Damage.
Local Open Scope list_scope.

Local Notation len l := (Z.of_nat (length l)).

(** The last segment of a file, as the lines and the empty line the end counts for fall
    into segments (C66). *)
Definition last_segment (b : bytes) (sg : segment) : Prop :=
  exists sgs, segs_lines (sgs ++ [sg]) = file_lines b ++ [[]] /\ segs_ok false (sgs ++ [sg]).
Lemma last_unique b sg sg' : last_segment b sg -> last_segment b sg' -> sg' = sg.
Proof.
  intros (g & H1 & H2) (g' & H1' & H2'). assert (X : g' ++ [sg'] = g ++ [sg]) by (apply (segments_unique _ false); [exact H2'|exact H2|congruence]).
  now apply app_inj_tail in X as [_ X].
Qed.
Lemma same_lines (cf : config) b (d : dictionary) : ~ complete b -> file_lines (b ++ [c_lf]) = file_lines b.
Proof. intro H. destruct (open_start cf b d H) as (l0 & x & E1 & E2 & _). congruence. Qed.

Theorem C69_last_segment :
  forall b : bytes, ~ complete b -> exists! sg : segment, last_segment b sg.
Proof.
  intros b H. assert (C : complete (b ++ [c_lf])) by (right; eauto). destruct (C66_every_file_has_segments _ C) as (sgs & (H1 & H2) & _).
  rewrite (same_lines ex_cf b ex_d H) in H1.
  assert (N : sgs <> []) by (intros ->; cbn in H1; destruct (file_lines b); discriminate H1).
  destruct (exists_last N) as (g & sg & ->). exists sg. split; [exists g; auto|]. intros sg' X. eapply last_unique; [exact X|]. exists g. auto.
Qed.

(** C69. The last segment decides. If it is stuck (its last line is a comment, continues a
    string, or is a msgstr[N] line), then parsing the file without its final newline does
    not end normally, whatever the configuration, the converter and the dictionary are;
    and if the file with the newline is parsed normally, it does not end at all (or, with
    asserts compiled in and a converter that eventually fails on the text it is given over
    and over again, on an assertion). *)
Theorem C69_stuck_files_never_return :
  forall (cf : config) (fn b : bytes) (d : dictionary) (sg : segment),
  ~ complete b -> last_segment b sg -> stuck sg ->
  (forall r, parses_to cf fn (stream_of b) d r -> pr_outcome r <> Ret tt) /\
  (forall r, parses_to cf fn (stream_of (b ++ [c_lf])) d r -> pr_outcome r = Ret tt ->
     (cf_ndebug cf = true -> diverges cf fn (stream_of b) d) /\
     (forall r', parses_to cf fn (stream_of b) d r' -> pr_outcome r' = AssertFail /\ cf_ndebug cf = false)).
Proof.
  intros cf fn b d sg Hb Hl Hs.
  assert (K : forall n, pr_outcome (po_parse (with_fuel cf n) fn (stream_of (b ++ [c_lf])) d) = Ret tt ->
    lost_outcome (cf_ndebug cf) (pr_outcome (po_parse (with_fuel cf n) fn (stream_of b) d))).
  { intros n HT. destruct (open_parse cf fn b d n Hb HT) as (g & sg' & H1 & H2 & H3).
    assert (sg' = sg) by (eapply last_unique; [exact Hl|exists g; auto]). subst sg'. destruct H3 as [(_ & _ & _ & X & _)|[X _]]; [contradiction|exact X]. }
  split.
  - intros r P Ho. apply parses_to_elim in P as (n & <- & _). pose proof (proj2 (open_returns cf fn b d n Hb) Ho) as HT. apply K in HT. rewrite Ho in HT.
    destruct HT as [X|[X _]]; discriminate X.
  - intros r P Ho. apply parses_to_elim in P as (n0 & <- & _).
    assert (L : forall n, lost_outcome (cf_ndebug cf) (pr_outcome (po_parse (with_fuel cf n) fn (stream_of b) d))).
    { intro n. assert (D : pr_outcome (po_parse (with_fuel cf n) fn (stream_of b) d) = OutOfFuel \/ pr_outcome (po_parse (with_fuel cf n) fn (stream_of b) d) <> OutOfFuel)
        by (destruct (pr_outcome (po_parse (with_fuel cf n) fn (stream_of b) d)) as [?|?|?| |]; [right; discriminate|right; discriminate|right; discriminate|right; discriminate|left; reflexivity]).
      destruct D as [D|D]; [left; exact D|]. rewrite <- (po_parse_fuel cf fn (stream_of b) d n (n + n0)) by (lia || exact D). apply K.
      rewrite (po_parse_fuel cf fn (stream_of (b ++ [c_lf])) d n0 (n + n0)) by (lia || (rewrite Ho; discriminate)). exact Ho. }
    split.
    + intros Hd n. destruct (L n) as [X|[_ X]]; [exact X|congruence].
    + intros r' P'. apply parses_to_elim in P' as (n & <- & Hn). destruct (L n) as [X|X]; [contradiction|exact X].
Qed.

(** If the last segment is not stuck, the missing newline does no harm: if the file with the
    newline is parsed normally then the one without it is, too, with the same calls and the
    same dictionary. The logs are the same except at the very end ([log_differs]): nothing
    is different if the last line separates blocks or was being skipped; after a whole entry
    there is one more report, and warnings about the end of the file quote the last line
    instead of an empty one; after an unfinished entry the report does so. *)
Theorem C69_other_files_are_read_alike :
  forall (cf : config) (fn b : bytes) (d : dictionary) (sg : segment) (r : parse_result),
  ~ complete b -> last_segment b sg -> ~ stuck sg ->
  parses_to cf fn (stream_of (b ++ [c_lf])) d r -> pr_outcome r = Ret tt ->
  exists r', parses_to cf fn (stream_of b) d r' /\ pr_outcome r' = Ret tt /\
    pr_calls r' = pr_calls r /\ pr_dict r' = pr_dict r /\
    log_differs fn (len (file_lines b) + 1) (last (file_lines b) []) sg (pr_trace r) (pr_trace r').
Proof.
  intros cf fn b d sg r Hb Hl Hs P Ho. apply parses_to_elim in P as (n & <- & _).
  destruct (open_parse cf fn b d n Hb Ho) as (g & sg' & H1 & H2 & H3).
  assert (sg' = sg) by (eapply last_unique; [exact Hl|exists g; auto]). subst sg'. destruct H3 as [(U1 & U2 & U3 & _ & U4)|[_ X]]; [|contradiction].
  exists (po_parse (with_fuel cf n) fn (stream_of b) d). split; [apply parses_to_intro; rewrite U1; discriminate|]. auto.
Qed.

(** Conversely, adding the newline never makes a parse fail. *)
Theorem C69_newline_never_hurts :
  forall (cf : config) (fn b : bytes) (d : dictionary) (r' : parse_result),
  ~ complete b -> parses_to cf fn (stream_of b) d r' -> pr_outcome r' = Ret tt ->
  exists r, parses_to cf fn (stream_of (b ++ [c_lf])) d r /\ pr_outcome r = Ret tt /\
    pr_calls r = pr_calls r' /\ pr_dict r = pr_dict r'.
Proof.
  intros cf fn b d r' Hb P Ho. apply parses_to_elim in P as (n & <- & _). pose proof (proj2 (open_returns cf fn b d n Hb) Ho) as HT.
  exists (po_parse (with_fuel cf n) fn (stream_of (b ++ [c_lf])) d). split; [apply parses_to_intro; rewrite HT; discriminate|]. split; [exact HT|].
  destruct (open_parse cf fn b d n Hb HT) as (g & sg' & H1 & H2 & [(U1 & U2 & U3 & _)|[X _]]); [auto|]. rewrite Ho in X. destruct X as [X|[X _]]; discriminate X.
Qed.

(** A file that ends in the middle of nothing, one that ends after a msgstr, one that ends
    after a msgid, and one that ends in a comment. *)
Definition ex_open (ls : list bytes) : bytes := removelast (file ls).
Definition ex_after_str : bytes := ex_open [bs "msgid `a`"; bs "msgstr `A`"].
Definition ex_after_id : bytes := ex_open [bs "msgid `a`"; bs "msgstr `A`"; bs ""; bs "msgid `b`"].
Definition ex_comment : bytes := ex_open [bs "msgid `a`"; bs "msgstr `A`"; bs ""; bs "# the end"].
Example C69_nonvacuous :
  let seg b sgs sg := segs_lines (sgs ++ [sg]) = file_lines b ++ [[]] /\ segs_ok false (sgs ++ [sg]) in
  let a := Whole (ex_block (bs "a") (bs "A")) [] in
  let c := Whole {| bl_comments := [bs "# the end"]; bl_entry := None |} [] in
  seg ex_after_str [] a /\ ~ stuck a /\ seg ex_comment [a] c /\ stuck c /\
  pr_outcome (po_parse (with_fuel ex_cf 60) (bs "f.po") (stream_of ex_after_str) ex_d) = Ret tt /\
  pr_trace (po_parse (with_fuel ex_cf 60) (bs "f.po") (stream_of ex_after_str) ex_d) =
    [mistake (bs "f.po") 3 (bs "expected empty line") (q (bs "msgstr `A`"))] /\
  pr_trace (po_parse (with_fuel ex_cf 60) (bs "f.po") (stream_of ex_after_id) ex_d) =
    [mistake (bs "f.po") 5 (bs "expected 'msgstr' or 'msgid_plural'") (q (bs "msgid `b`"))] /\
  pr_trace (po_parse (with_fuel ex_cf 60) (bs "f.po") (stream_of (ex_after_id ++ [c_lf])) ex_d) =
    [mistake (bs "f.po") 5 (bs "expected 'msgstr' or 'msgid_plural'") []] /\
  pr_outcome (po_parse (with_fuel ex_cf 60) (bs "f.po") (stream_of ex_comment) ex_d) = OutOfFuel /\
  pr_outcome (po_parse (with_fuel ex_cf 60) (bs "f.po") (stream_of (ex_comment ++ [c_lf])) ex_d) = Ret tt.
Proof.
  cbv zeta. assert (F : block_fine false (ex_block (bs "a") (bs "A"))) by now apply ex_block_fine.
  split; [split; [vm_compute; reflexivity|split; [split; [exact F|apply nil_separator]|exact Logic.I]]|]. split.
  { intros (ini & x & E & Hx). change (seg_lines (Whole (ex_block (bs "a") (bs "A")) [])) with ([q (bs "msgid `a`")] ++ [q (bs "msgstr `A`"); []]) in E. apply app_last2 in E. subst x.
    revert Hx. apply m_sticky; [eexists; reflexivity|]. intros rest (n & _ & X). discriminate X. }
  split; [split; [vm_compute; reflexivity|split; [split; [exact F|apply nil_separator]|split; [|exact Logic.I]]]|].
  { assert (Cm : is_comment (bs "# the end")) by (eexists; split; [reflexivity|intro X; cbn in X; intuition discriminate]).
    split; [split; [constructor; [exact Cm|constructor]|exact Logic.I]|apply nil_separator]. }
  split; [exists [], (bs "# the end"); split; [reflexivity|left; eexists; split; [reflexivity|intro X; cbn in X; intuition discriminate]]|].
  repeat split; vm_compute; reflexivity.
Qed.

Print Assumptions C69_last_segment.
Print Assumptions C69_stuck_files_never_return.
Print Assumptions C69_other_files_are_read_alike.
Print Assumptions C69_newline_never_hurts.
