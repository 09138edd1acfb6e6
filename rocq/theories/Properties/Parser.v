(** Properties of POParser::parse over arbitrary bytes: C21, C22, C26, C27, C29-C33,
    C36 and the parser part of C53. *)
From Verif.Model Require Import Base Log PluralForms Dictionary IConv Stream PoParser.
From Verif.Spec Require Import DictSpec IConvSpec ParserSpec.
From Verif.Proofs Require Import BaseFacts DictProofs LexProofs ParserUnary ParserRel ParserSafe ParserFuel ParserLocal
  ParserCut ParserBlank ParserTerm ParserLines ParserLinewise ParserMisc ParserProper.
Local Open Scope list_scope.

(** An environment for the examples: no ctype trap, asserts on, Latin-1 style
    identity conversion available for every pair of charsets. *)
Definition ex_iconv : iconv_impl := iconv_of [] (fun t => match t with [] => None | c :: _ => Some (1, [c]) end).
Definition ex_cf : config :=
  {| cf_pedantic := true; cf_strict := false; cf_ndebug := false; cf_fuel := 0; cf_iconv := ex_iconv |}.
(** lines joined with newlines; backquote stands for the double quote *)
Definition q (l : bytes) : bytes := List.map (fun c => if byte_eqb c (chr 96) then c_dq else c) l.
Fixpoint file (ls : list bytes) : bytes :=
  match ls with [] => [] | l :: ls' => q l ++ c_lf :: file ls' end.
Definition ex_d : dictionary := new_dictionary (bs "UTF-8").

Lemma finishes_intro cf fn i d n :
  match pr_outcome (po_parse (with_fuel cf n) fn i d) with OutOfFuel => False | _ => True end ->
  parses_to cf fn i d (po_parse (with_fuel cf n) fn i d).
Proof. intro H. apply parses_to_intro. intro E. now rewrite E in H. Qed.

(** C21. Every way a parse can end: it returns, or a runtime_error from the charset
    set-up escapes (and then iconv_open really failed), or the assertion in
    IConv::convert fires (asserts enabled, and iconv reported something other than
    invalid or incomplete input), or a strict ctype function got a negative char.
    There is no out-of-range access and POParserError never escapes. *)
Theorem C21_parse_outcomes :
  forall (cf : config) (fn : bytes) (i : istream) (d : dictionary) (r : parse_result),
  parses_to cf fn i d r ->
  match pr_outcome r with
  | Ret _ => True
  | Exn (ExRuntime _) => exists to from e, ic_open (cf_iconv cf) to from = inr e
  | AssertFail => cf_ndebug cf = false /\
      exists st t cap st' out e, ic_conv (cf_iconv cf) st t cap = (st', out, Some e) /\ e <> EILSEQ /\ e <> EINVAL
  | Ub UbCtype => cf_strict cf = true
  | _ => False
  end.
Proof.
  intros cf fn i d r H. apply parses_to_elim in H as (n & <- & Hn).
  pose proof (parse_outcomes (with_fuel cf n) fn i d) as K. unfold parse_outcome_ok in K.
  destruct (pr_outcome (po_parse (with_fuel cf n) fn i d)) as [a|e|u| |]; auto.
Qed.

(** Nor does a parse that never ends do anything undefined on the way: at every
    bound on the number of iterations the state reached is a proper one. *)
Theorem C21_no_ub_while_running :
  forall (cf : config) (fn : bytes) (i : istream) (d : dictionary) (n : nat) (u : ub),
  pr_outcome (po_parse (with_fuel cf n) fn i d) = Ub u -> u = UbCtype /\ cf_strict cf = true.
Proof.
  intros cf fn i d n u H. pose proof (parse_outcomes (with_fuel cf n) fn i d) as K. rewrite H in K.
  destruct u; try contradiction. split; [reflexivity|exact K].
Qed.

(** What a parse does to the dictionary is exactly its sequence of
    add_translation / set_plural_forms calls, and every iconv descriptor it opens it
    uses properly and closes once. *)
Theorem C21_effects_are_dictionary_calls :
  forall (cf : config) (fn : bytes) (i : istream) (d : dictionary) (r : parse_result),
  parses_to cf fn i d r ->
  pr_dict r = fold_left apply_call (pr_calls r) d /\ Forall proper_call (pr_calls r).
Proof.
  intros cf fn i d r H. split; [now apply (parses_to_effects cf fn i d)|].
  apply parses_to_elim in H as (n & <- & _). apply parse_proper.
Qed.

Theorem C21_descriptors_closed :
  forall (cf : config) (fn : bytes) (i : istream) (d : dictionary) (r : parse_result),
  cf_strict cf = false -> parses_to cf fn i d r -> pr_outcome r = Ret tt ->
  exists n, disciplined None 0 (pr_trace r) = Some (None, n).
Proof.
  intros cf fn i d r Hs H Ho. apply parses_to_elim in H as (n & <- & _).
  pose proof (parse_disciplined (with_fuel cf n) fn i d Hs) as K. rewrite Ho in K. exact K.
Qed.

Example C21_nonvacuous :
  exists r, parses_to ex_cf (bs "f.po") (stream_of (file
      [bs "msgid ``"; bs "msgstr `Content-Type: text/plain; charset=LATIN1\n`"; bs "";
       bs "msgid x`"; bs ""; bs "skipped"; bs ""; bs "msgid `a`"; bs "msgstr `A`"])) ex_d r /\
    pr_outcome r = Ret tt /\ pr_calls r = [CallAdd (AddSingular None (bs "a") (bs "A"))] /\
    disciplined None 0 (pr_trace r) = Some (None, 1).
Proof.
  eexists. split; [apply (finishes_intro ex_cf (bs "f.po") _ _ 20); vm_compute; exact Logic.I|].
  vm_compute. repeat split.
Qed.

(** C22 *)
Theorem C22_terminates :
  forall (cf : config) (fn b : bytes) (d : dictionary),
  hangs_on (last_line (drop_bom b)) = false ->
  exists r, parses_to cf fn (stream_of b) d r.
Proof. intros cf fn b d H. eexists. apply parses_to_intro, (parse_terminates cf fn b d H). Qed.

Theorem C22_terminates_complete :
  forall (cf : config) (fn b : bytes) (d : dictionary),
  complete b -> exists r, parses_to cf fn (stream_of b) d r.
Proof.
  intros cf fn b d H. apply C22_terminates. unfold drop_bom. destruct H as [->|[b' ->]]; [reflexivity|].
  unfold last_line. destruct (starts_with bom (b' ++ [c_lf])) eqn:E.
  - assert (X : exists b2, skipn 3 (b' ++ [c_lf]) = b2 ++ [c_lf]).
    { apply starts_with_spec in E as [t E]. unfold bom in E. cbn in E.
      destruct b' as [|x [|y [|z b']]]; cbn in *; try discriminate. eexists. reflexivity. }
    destruct X as [b2 X]. rewrite X. exact (f_equal hangs_on (last_line_lf b2 [] [])).
  - rewrite last_line_lf. reflexivity.
Qed.

Example C22_nonvacuous :
  complete (file [bs "msgstr[0] `x`"; bs "`continued"]) /\
  hangs_on (last_line (drop_bom (bs "msgid x"))) = false /\
  hangs_on (last_line (drop_bom (file [bs "msgid `x`"] ++ q (bs "  `x`")))) = true.
Proof. split; [|vm_compute; auto]. right. exists (q (bs "msgstr[0] `x`") ++ c_lf :: q (bs "`continued")). reflexivity. Qed.

(** C26. On platforms where the ctype functions accept every char. *)
Theorem C26_crlf :
  forall (cf : config) (fn b : bytes) (d : dictionary),
  cf_strict cf = false ->
  (forall r, parses_to cf fn (stream_of b) d r ->
     exists r', parses_to cf fn (stream_of (crlf b)) d r' /\ pr_outcome r' = pr_outcome r /\
       pr_dict r' = pr_dict r /\ pr_calls r' = pr_calls r) /\
  (diverges cf fn (stream_of b) d <-> diverges cf fn (stream_of (crlf b)) d).
Proof.
  intros cf fn b d Hs. destruct (crlf_linewise (length b) b (le_n _)) as [L1 L2].
  assert (K : forall b1 b2, linewise Ccr eq b1 b2 -> forall r, parses_to cf fn (stream_of b1) d r ->
     exists r', parses_to cf fn (stream_of b2) d r' /\ pr_outcome r' = pr_outcome r /\
       pr_dict r' = pr_dict r /\ pr_calls r' = pr_calls r).
  { intros b1 b2 L r H. destruct (parses_cr cf fn b1 b2 d r Hs L H) as (r' & H1 & H2 & H3 & H4 & _). eauto. }
  split; [apply K, L1|]. rewrite !diverges_not.
  split; intros H [r E]; apply H; eapply K in E; [destruct E as (? & E & _); eauto | exact L2 | destruct E as (? & E & _); eauto | exact L1].
Qed.

Example C26_nonvacuous :
  let b := file [bs "#: x"; bs "msgid `a`"; bs "`b`"; bs "msgstr `A`"; bs ""; bs "msgid x"; bs ""; bs "msgid `c`"; bs "msgstr `C`"] in
  length (crlf b) = length b + 9 /\
  exists r, parses_to ex_cf (bs "f.po") (stream_of (crlf b)) ex_d r /\
    adds (pr_calls r) = [AddSingular None (bs "ab") (bs "A"); AddSingular None (bs "c") (bs "C")].
Proof.
  split; [vm_compute; reflexivity|].
  eexists. split; [apply (finishes_intro ex_cf (bs "f.po") _ _ 20); vm_compute; exact Logic.I|]. reflexivity.
Qed.

(** The restriction is needed: with a strict isspace a file can parse with LF and
    be undefined with CRLF. *)
Definition strict_cf : config :=
  {| cf_pedantic := true; cf_strict := true; cf_ndebug := false; cf_fuel := 0; cf_iconv := ex_iconv |}.
Example C26_strict_needed :
  let b := file [bs "msgid" ++ [chr 255]] in
  (exists r, parses_to strict_cf (bs "f.po") (stream_of b) ex_d r /\ pr_outcome r = Ret tt) /\
  (exists r, parses_to strict_cf (bs "f.po") (stream_of (crlf b)) ex_d r /\ pr_outcome r = Ub UbCtype).
Proof.
  split; (eexists; split; [apply (finishes_intro strict_cf (bs "f.po") _ _ 20); vm_compute; exact Logic.I|]; reflexivity).
Qed.

(** C27. After A and two blank lines, whatever A contains: either A stops the parse
    for good (and then B is never looked at), or the additions are those of A
    followed by those of B read from a block start with the charset state A left. *)
Theorem C27_isolation :
  forall (cf : config) (fn A : bytes) (d : dictionary) (rA : parse_result),
  complete A -> parses_to cf fn (stream_of (A ++ nn)) d rA ->
  (pr_outcome rA <> Ret tt /\
   forall B, exists rW, parses_to cf fn (stream_of (A ++ nn ++ B)) d rW /\
     pr_outcome rW = pr_outcome rA /\ pr_calls rW = pr_calls rA) \/
  (pr_outcome rA = Ret tt /\
   exists (conv : iconv (cf_iconv cf)) (b5 : bool),
   forall B rW, parses_to cf fn (stream_of (A ++ nn ++ B)) d rW ->
     exists callsB, resumes_to cf fn conv b5 B d (pr_outcome rW) callsB /\ pr_calls rW = pr_calls rA ++ callsB).
Proof.
  intros cf fn A d rA HA PA. destruct (parses_blank cf fn A d rA HA PA) as [H|(H1 & conv & b5 & _ & H2)]; [left; exact H|].
  right. split; [exact H1|]. exists conv, b5. exact H2.
Qed.

(** If A opened no converter (and the dictionary is not BIG5), B is read exactly as
    if it stood alone. *)
Theorem C27_isolation_plain :
  forall (cf : config) (fn A B : bytes) (d : dictionary) (rA rW : parse_result),
  complete A -> parses_to cf fn (stream_of (A ++ nn)) d rA -> pr_outcome rA = Ret tt ->
  opens (pr_trace rA) = false -> List.map toupper (d_charset d) <> bs "BIG5" ->
  parses_to cf fn (stream_of (A ++ nn ++ B)) d rW ->
  exists rB, parses_to cf fn (stream_of (c_lf :: B)) (pr_dict rA) rB /\
    pr_outcome rW = pr_outcome rB /\ pr_calls rW = pr_calls rA ++ pr_calls rB /\ pr_dict rW = pr_dict rB.
Proof. intros cf fn A B d rA rW. apply parses_blank_plain. Qed.

(** The hypotheses that parses end are met whenever B does not end in a dangerous
    unterminated line; A cannot cause a hang. *)
Theorem C27_no_hang :
  forall (cf : config) (fn A B : bytes) (d : dictionary),
  hangs_on (last_line B) = false ->
  (exists rA, parses_to cf fn (stream_of (A ++ nn)) d rA) /\
  (exists rW, parses_to cf fn (stream_of (A ++ nn ++ B)) d rW).
Proof.
  intros cf fn A B d H.
  assert (G : forall B, hangs_on (last_line B) = false -> exists rW, parses_to cf fn (stream_of (A ++ nn ++ B)) d rW).
  { clear. intros B H. apply C22_terminates. unfold drop_bom. unfold nn.
    change (A ++ [c_lf; c_lf] ++ B) with (A ++ c_lf :: c_lf :: B).
    destruct (starts_with bom (A ++ c_lf :: c_lf :: B)) eqn:E.
    - assert (X : exists a, skipn 3 (A ++ c_lf :: c_lf :: B) = a ++ c_lf :: B).
      { apply starts_with_spec in E as [t E]. unfold bom in E. cbn in E.
        destruct A as [|x [|y [|z b']]]; cbn in *; try discriminate. exists (b' ++ [c_lf]).
        rewrite <- app_assoc. reflexivity. }
      destruct X as [a X]. rewrite X. exact (eq_trans (f_equal hangs_on (last_line_lf a [] B)) H).
    - change (c_lf :: c_lf :: B) with ([c_lf] ++ c_lf :: B). rewrite app_assoc. unfold last_line.
      rewrite last_line_lf. exact H. }
  split; [|apply G, H]. destruct (G [] eq_refl) as [r E]. rewrite app_nil_r in E. eauto.
Qed.

Example C27_nonvacuous :
  let A := file [bs "msgid `unterminated"; bs "msgstr"; bs ""; bs "garbage `"; bs "msgid `a`"] in
  let B := file [bs "msgid `b`"; bs "msgstr `B`"] in
  complete A /\ exists rA rW, parses_to ex_cf (bs "f.po") (stream_of (A ++ nn)) ex_d rA /\
    pr_outcome rA = Ret tt /\ opens (pr_trace rA) = false /\ pr_calls rA = [] /\
    parses_to ex_cf (bs "f.po") (stream_of (A ++ nn ++ B)) ex_d rW /\
    pr_calls rW = [CallAdd (AddSingular None (bs "b") (bs "B"))].
Proof.
  cbv zeta. split.
  { right. exists (q (bs "msgid `unterminated") ++ c_lf :: bs "msgstr" ++ c_lf :: c_lf :: q (bs "garbage `") ++ c_lf :: q (bs "msgid `a`")). reflexivity. }
  do 2 eexists. split; [apply (finishes_intro ex_cf (bs "f.po") _ _ 20); vm_compute; exact Logic.I|].
  do 3 (split; [vm_compute; reflexivity|]).
  split; [apply (finishes_intro ex_cf (bs "f.po") _ _ 20); vm_compute; exact Logic.I|]. vm_compute. reflexivity.
Qed.

(** C29 *)
Theorem C29_independent :
  forall (cf : config) (pedantic : bool) (fn1 fn2 : bytes) (i : istream) (d1 d2 : dictionary) (r1 : parse_result),
  d_charset d1 = d_charset d2 ->
  parses_to cf fn1 i d1 r1 ->
  exists r2, parses_to (set_pedantic cf pedantic) fn2 i d2 r2 /\
    pr_outcome r2 = pr_outcome r1 /\ pr_calls r2 = pr_calls r1 /\
    pr_dict r1 = fold_left apply_call (pr_calls r1) d1 /\
    pr_dict r2 = fold_left apply_call (pr_calls r1) d2.
Proof.
  intros cf p fn1 fn2 i d1 d2 r1 Hd H. destruct (parses_independent cf p fn1 fn2 i d1 d2 r1 Hd H) as (r2 & H2 & Ho & Hc & _).
  exists r2. split; [exact H2|]. split; [exact Ho|]. split; [exact Hc|].
  split; [apply (parses_to_effects _ _ _ _ _ H)|]. rewrite <- Hc. apply (parses_to_effects _ _ _ _ _ H2).
Qed.

Theorem C29_nothing_removed :
  forall (cf : config) (fn : bytes) (i : istream) (d : dictionary) (r : parse_result) (k : key),
  parses_to cf fn i d r -> lookup d k <> None -> lookup (pr_dict r) k <> None.
Proof.
  intros cf fn i d r k H Hk. rewrite (proj1 (parses_to_effects _ _ _ _ _ H)). apply calls_keep, Hk.
Qed.

(** The charset and the fallback of the dictionary are not touched. *)
Theorem C29_settings_untouched :
  forall (cf : config) (fn : bytes) (i : istream) (d : dictionary) (r : parse_result),
  parses_to cf fn i d r ->
  d_charset (pr_dict r) = d_charset d /\ d_has_fallback (pr_dict r) = d_has_fallback d /\
  d_fallback (pr_dict r) = d_fallback d.
Proof.
  intros cf fn i d r H. rewrite (proj1 (parses_to_effects _ _ _ _ _ H)). generalize (pr_calls r). clear. intro l. revert d.
  induction l as [|c l IH]; intro d; [auto|]. cbn [fold_left]. destruct (IH (apply_call d c)) as (-> & -> & ->).
  destruct c as [op|p]; cbn [apply_call].
  - destruct op as [[?|] ? ?|[?|] ? ? ?]; simpl; unfold add_ctxt_singular, add_singular, add_ctxt_plural, add_plural;
      try destruct (put_singular _ _); try destruct (put_plural _ _); auto.
  - destruct (pf_valid _); auto.
Qed.

Example C29_nonvacuous :
  let d1 := ex_d in let d2 := fst (add_translation (set_plural_forms ex_d (mkpf 2 plural2_1)) (AddSingular None (bs "a") (bs "old"))) in
  d_charset d1 = d_charset d2 /\ d1 <> d2 /\
  exists r, parses_to ex_cf (bs "f.po") (stream_of (file [bs "msgid `a`"; bs "msgstr `A`"])) d2 r /\
    lookup d2 (None, bs "a") <> None /\ lookup (pr_dict r) (None, bs "a") = Some [bs "A"].
Proof.
  cbv zeta. split; [reflexivity|]. split; [discriminate|].
  eexists. split; [apply (finishes_intro ex_cf (bs "f.po") _ _ 20); vm_compute; exact Logic.I|].
  split; [vm_compute; discriminate|vm_compute; reflexivity].
Qed.

(** C30 *)
Theorem C30_first_plural_forms_win :
  forall (cf : config) (fn : bytes) (i : istream) (d : dictionary) (r : parse_result),
  parses_to cf fn i d r ->
  get_plural_forms (pr_dict r) =
    if pf_valid (get_plural_forms d) then get_plural_forms d
    else match plurals (pr_calls r) with
         | p :: _ => p
         | [] => get_plural_forms d
         end.
Proof.
  intros cf fn i d r H. destruct (parses_to_effects _ _ _ _ _ H) as [E S]. rewrite E.
  destruct (pf_valid (get_plural_forms d)) eqn:V; [apply calls_plural_kept, V|apply calls_plural_first; auto].
Qed.

Example C30_nonvacuous :
  exists r, parses_to ex_cf (bs "f.po") (stream_of (file
     [bs "msgid ``"; bs "msgstr `Plural-Forms: nonsense\nPlural-Forms: nplurals=2; plural=n!=1;\nPlural-Forms: nplurals=2; plural=(n>1);\n`"])) ex_d r /\
    length (plurals (pr_calls r)) = 2 /\ get_plural_forms (pr_dict r) = (mkpf 2 plural2_1).
Proof.
  eexists. split; [apply (finishes_intro ex_cf (bs "f.po") _ _ 20); vm_compute; exact Logic.I|]. vm_compute. auto.
Qed.

(** C31 (parser). Files that differ only in what their flag comments say - for
    instance whether "fuzzy" is among the flags - have the same effect. *)
Theorem C31_fuzzy_flags_ignored :
  forall (cf : config) (fn b1 b2 : bytes) (d : dictionary) (r1 : parse_result),
  flags_differ b1 b2 ->
  parses_to cf fn (stream_of b1) d r1 ->
  exists r2, parses_to cf fn (stream_of b2) d r2 /\
    pr_outcome r2 = pr_outcome r1 /\ pr_dict r2 = pr_dict r1 /\ pr_calls r2 = pr_calls r1.
Proof.
  intros cf fn b1 b2 d r1 H P. destruct (parses_flags cf fn b1 b2 d r1 H P) as (r2 & H1 & H2 & H3 & H4 & _). eauto.
Qed.

Example C31_nonvacuous :
  let f flag := file [bs "#, " ++ flag; bs "msgid `a`"; bs "msgstr `A`"] in
  flags_differ (f (bs "fuzzy")) (f (bs "c-format")) /\
  exists r, parses_to ex_cf (bs "f.po") (stream_of (f (bs "fuzzy"))) ex_d r /\
     pr_calls r = [CallAdd (AddSingular None (bs "a") (bs "A"))].
Proof.
  cbv zeta. split.
  - unfold file. apply lw_line; [vm_compute; intuition discriminate..| |].
    { right. split; reflexivity. }
    apply lw_line; [vm_compute; intuition discriminate..|left; reflexivity|].
    apply lw_line; [vm_compute; intuition discriminate..|left; reflexivity|].
    apply lw_end; simpl; auto. left. reflexivity.
  - eexists. split; [apply (finishes_intro ex_cf (bs "f.po") _ _ 20); vm_compute; exact Logic.I|]. vm_compute. auto.
Qed.

(** C32 *)
Theorem C32_truncation :
  forall (cf : config) (fn A Z : bytes) (d : dictionary) (rA rW : parse_result),
  complete A -> parses_to cf fn (stream_of A) d rA -> parses_to cf fn (stream_of (A ++ Z)) d rW ->
  exists k x y, pr_calls rA = k ++ x /\ pr_calls rW = k ++ y /\ length (adds x) <= 1.
Proof. intros cf fn A Z d rA rW. apply parses_cut. Qed.

(** Without the "at most one" the claim would be empty; here the cut file really
    does add something the whole file does not. *)
Example C32_nonvacuous :
  let A := file [bs "msgid `a`"; bs "msgstr `A`"; bs ""; bs "msgid `b`"; bs "msgstr `B`"] in
  let Z := file [bs "`BB`"] in
  complete A /\ exists rA rW, parses_to ex_cf (bs "f.po") (stream_of A) ex_d rA /\
    parses_to ex_cf (bs "f.po") (stream_of (A ++ Z)) ex_d rW /\
    adds (pr_calls rA) = [AddSingular None (bs "a") (bs "A"); AddSingular None (bs "b") (bs "B")] /\
    adds (pr_calls rW) = [AddSingular None (bs "a") (bs "A"); AddSingular None (bs "b") (bs "BBB")].
Proof.
  cbv zeta. split.
  { right. exists (q (bs "msgid `a`") ++ c_lf :: q (bs "msgstr `A`") ++ c_lf :: c_lf :: q (bs "msgid `b`") ++ c_lf :: q (bs "msgstr `B`")). reflexivity. }
  do 2 eexists. split; [apply (finishes_intro ex_cf (bs "f.po") _ _ 20); vm_compute; exact Logic.I|].
  split; [apply (finishes_intro ex_cf (bs "f.po") _ _ 20); vm_compute; exact Logic.I|]. vm_compute. auto.
Qed.

(** C33 *)
Theorem C33_bom :
  forall (cf : config) (fn b : bytes) (d : dictionary) (r : parse_result),
  starts_with bom b = false -> parses_to cf fn (stream_of b) d r ->
  exists r', parses_to cf fn (stream_of (bom ++ b)) d r' /\
    pr_outcome r' = pr_outcome r /\ pr_dict r' = pr_dict r /\ pr_calls r' = pr_calls r /\ pr_trace r' = pr_trace r.
Proof. intros cf fn b d r. apply parses_bom. Qed.

Theorem C33_bom_divergence :
  forall (cf : config) (fn b : bytes) (d : dictionary),
  starts_with bom b = false ->
  (diverges cf fn (stream_of b) d <-> diverges cf fn (stream_of (bom ++ b)) d).
Proof.
  intros cf fn b d H. rewrite !diverges_not. split; intros D [r E]; apply D.
  - eapply parses_bom_conv; eauto.
  - destruct (parses_bom cf fn b d r H E) as (r' & E' & _). eauto.
Qed.

Example C33_nonvacuous :
  let b := file [bs "msgid `a`"; bs "msgstr `A`"] in
  starts_with bom b = false /\ exists r, parses_to ex_cf (bs "f.po") (stream_of (bom ++ b)) ex_d r /\
    pr_calls r = [CallAdd (AddSingular None (bs "a") (bs "A"))].
Proof.
  cbv zeta. split; [reflexivity|].
  eexists. split; [apply (finishes_intro ex_cf (bs "f.po") _ _ 20); vm_compute; exact Logic.I|]. vm_compute. auto.
Qed.

(** C36 *)
Theorem C36_line_numbers :
  forall (cf : config) (fn b : bytes) (d : dictionary) (r : parse_result),
  parses_to cf fn (stream_of b) d r -> finished (pr_outcome r) = true ->
  (pr_lines r <= Z.of_nat (line_count b) + 17)%Z.
Proof. intros cf fn b d r. apply lines_bound. Qed.

(** in particular no overflow of a 32-bit int below 2^31 - 18 bytes *)
Theorem C36_no_overflow :
  forall (cf : config) (fn b : bytes) (d : dictionary) (r : parse_result),
  parses_to cf fn (stream_of b) d r -> finished (pr_outcome r) = true ->
  (Z.of_nat (length b) <= 2147483629)%Z -> (pr_lines r <= 2147483647)%Z.
Proof.
  intros cf fn b d r H F L. pose proof (lines_bound cf fn b d r H F) as K.
  assert (B : line_count b <= length b + 1).
  { unfold line_count. assert (newlines b <= length b) by (clear; induction b as [|c b IH]; simpl; [lia|destruct (byte_eqb c c_lf); lia]).
    destruct (is_nil (last_line b)); lia. }
  lia.
Qed.

Example C36_nonvacuous :
  let b := file [bs "msgid `a`"; bs "msgstr `A`"] ++ bs "x" in
  exists r, parses_to ex_cf (bs "f.po") (stream_of b) ex_d r /\ finished (pr_outcome r) = true /\
    line_count b = 3 /\ pr_lines r = 4%Z.
Proof.
  cbv zeta. eexists. split; [apply (finishes_intro ex_cf (bs "f.po") _ _ 20); vm_compute; exact Logic.I|]. vm_compute. auto.
Qed.

(** C53 (parser): a stream that is not readable changes nothing and logs nothing. *)
Theorem C53_unreadable_stream :
  forall (cf : config) (fn : bytes) (i : istream) (d : dictionary),
  is_good i = false ->
  exists r, parses_to cf fn i d r /\ pr_outcome r = Ret tt /\ pr_dict r = d /\ pr_trace r = [] /\ pr_calls r = [].
Proof.
  intros cf fn i d H. eexists. split.
  - split; [|exists 1; intros n Hn; apply (parse_failed_stream cf fn i d n H); lia]. discriminate.
  - auto.
Qed.

Example C53_parser_nonvacuous : is_good failed_stream = false. Proof. reflexivity. Qed.

Print Assumptions C21_parse_outcomes.
Print Assumptions C21_no_ub_while_running.
Print Assumptions C21_effects_are_dictionary_calls.
Print Assumptions C21_descriptors_closed.
Print Assumptions C22_terminates.
Print Assumptions C22_terminates_complete.
Print Assumptions C26_crlf.
Print Assumptions C27_isolation.
Print Assumptions C27_isolation_plain.
Print Assumptions C27_no_hang.
Print Assumptions C29_independent.
Print Assumptions C29_nothing_removed.
Print Assumptions C29_settings_untouched.
Print Assumptions C30_first_plural_forms_win.
Print Assumptions C31_fuzzy_flags_ignored.
Print Assumptions C32_truncation.
Print Assumptions C33_bom.
Print Assumptions C33_bom_divergence.
Print Assumptions C36_line_numbers.
Print Assumptions C36_no_overflow.
Print Assumptions C53_unreadable_stream.
