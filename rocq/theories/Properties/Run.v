(** C73: everything about a parse of an arbitrary complete file, whatever its character sets
    are and whatever the converter does. The description of the run, [segs_do], is in
    Spec/RunSpec.v; it is written in terms of the lines of the file and uses no part of the
    parser. *)
From Verif.Model Require Import Base Log PluralForms Dictionary IConv Stream PoParser.
From Verif.Spec Require Import DictSpec IConvSpec ParserSpec.
From Verif.Proofs Require Import BaseFacts DictProofs ParserUnary ParserRel ParserSafe ParserFuel ParserStrict DocSound DocExact DocUnique DocLoop DocComplaint.
From Verif.Proofs Require Import DocFull DocRun.
From Verif.Spec Require Import PoSpec SoundSpec DamageSpec FullSpec RunSpec.
From Verif.Spec Require DiagSpec.
From Verif.Properties Require Import Parser Document Damage Full.
Local Open Scope list_scope.

(** Every complete file falls into segments, in exactly one way, and what is reported about
    every one of them is determined. *)
Lemma said_diagnosed fn sgs : forall n b5 evs, segs_said fn n b5 sgs evs -> exists ms, segs_diagnosed b5 sgs ms.
Proof.
  induction sgs as [|sg sgs IH]; intros n b5 evs H; [exists []; exact Logic.I|]. destruct H as (e1 & e2 & _ & H1 & H2). destruct (IH _ _ _ H2) as [ms Hm].
  assert (X : exists m, diagnosed b5 sg m).
  { destruct sg as [b sep|b x sk|pre x sk]; cbn [seg_said diagnosed] in *; [eauto|eauto|]. destruct H1 as (rs & msg & _ & H1 & _). exists (Some msg), msg. auto. }
  destruct X as [m X]. exists (m :: ms). split; assumption.
Qed.
Lemma diagnosed_det sgs : forall b5 ms ms', segs_diagnosed b5 sgs ms -> segs_diagnosed b5 sgs ms' -> ms = ms'.
Proof.
  induction sgs as [|sg sgs IH]; intros b5 [|m ms] [|m' ms'] H H'; cbn [segs_diagnosed] in *; try contradiction; [reflexivity|].
  destruct H as [H1 H2], H' as [H1' H2']. f_equal; [|eapply IH; eassumption]. destruct sg as [b sep|b x sk|pre x sk]; cbn [diagnosed] in *; [congruence|congruence|].
  destruct H1 as (a & -> & A), H1' as (b & -> & B). now rewrite (complaint_det _ _ _ _ _ A B).
Qed.
Theorem C73_every_file_is_described :
  forall b : bytes, complete b ->
  exists! p : list segment * list (option bytes),
    segs_lines (fst p) = file_lines b ++ [[]] /\ segs_ok false (fst p) /\ segs_diagnosed false (fst p) (snd p).
Proof.
  intros b Hc.
  set (nul := {| ic_state := unit; ic_open := fun _ _ => inl tt; ic_conv := fun _ t _ => (tt, t, None); ic_reset := fun u => u |}).
  set (cf := {| cf_pedantic := false; cf_strict := false; cf_ndebug := true; cf_fuel := 0; cf_iconv := nul |}).
  destruct (C22_terminates_complete cf [] b ex_d Hc) as (r & P). pose proof (C21_parse_outcomes cf [] _ _ _ P) as O.
  apply parses_to_elim in P as (n & <- & Hn).
  assert (Ho : pr_outcome (po_parse (with_fuel cf n) [] (stream_of b) ex_d) = Ret tt).
  { destruct (pr_outcome (po_parse (with_fuel cf n) [] (stream_of b) ex_d)) as [[]|[]|[]| |]; try contradiction; try discriminate O; [reflexivity| |].
    - destruct O as (to & from & e & X). discriminate X.
    - destruct O as [X _]. discriminate X. }
  destruct (C66_exactly_what_is_lost cf [] b ex_d n Hc Ho) as (sgs & H1 & H2 & U & S & _). destruct (said_diagnosed _ _ _ _ _ S) as [ms Hm].
  exists (sgs, ms). split; [auto|]. intros [sgs' ms'] (X1 & X2 & X3). cbn [fst snd] in *. pose proof (U sgs' X1 X2). subst sgs'. f_equal. eapply diagnosed_det; eassumption.
Qed.

(** C73. Let [sgs] and [ms] be that description of a complete file. Then the parse ends as
    the run [segs_do] does - normally, or with the failure of a conversion - and leaves
    exactly its dictionary, its calls on the dictionary, and its log: warnings, reports and
    conversions, all in order. *)
Theorem C73_what_a_parse_does :
  forall (cf : config) (fn b : bytes) (d : dictionary) (sgs : list segment) (ms : list (option bytes)),
  cf_strict cf = false -> complete b ->
  segs_lines sgs = file_lines b ++ [[]] -> segs_ok false sgs -> segs_diagnosed false sgs ms ->
  exists r : parse_result,
    parses_to cf fn (stream_of b) d r /\
    parse_does r (segs_do fn (cf_pedantic cf) (cf_ndebug cf) false 1 sgs ms (start (cf_iconv cf) d)).
Proof.
  intros cf fn b d sgs ms Hst Hc El Hok Hd. destruct (C22_terminates_complete cf fn b d Hc) as (r & P). exists r. split; [exact P|].
  exact (parse_run cf fn b d sgs ms r Hst Hc El Hok Hd P).
Qed.

(** On a platform whose ctype functions must not get negative chars the same holds of every
    parse that does not pass one. *)
Theorem C73_strict_platforms :
  forall (cf : config) (fn b : bytes) (d : dictionary) (sgs : list segment) (ms : list (option bytes)) (r : parse_result),
  complete b ->
  segs_lines sgs = file_lines b ++ [[]] -> segs_ok false sgs -> segs_diagnosed false sgs ms ->
  parses_to cf fn (stream_of b) d r ->
  pr_outcome r = Ub UbCtype \/
  parse_does r (segs_do fn (cf_pedantic cf) (cf_ndebug cf) false 1 sgs ms (start (cf_iconv cf) d)).
Proof.
  intros cf fn b d sgs ms r Hc El Hok Hd P. apply parses_to_elim in P as (n & <- & Hn).
  destruct (strict_or_ub (with_fuel cf n) fn (stream_of b) d) as [E|E]; [left; exact E|right].
  set (cf' := set_strict cf false). change (set_strict (with_fuel cf n) false) with (with_fuel cf' n) in E. rewrite E in *.
  assert (P : parses_to cf' fn (stream_of b) d (po_parse (with_fuel cf' n) fn (stream_of b) d)) by (apply parses_to_intro; exact Hn).
  exact (parse_run cf' fn b d sgs ms _ eq_refl Hc El Hok Hd P).
Qed.

(** A file in another character set. The second entry is damaged: its first form has been
    converted before that is noticed. *)
Definition ex_header : literal :=
  {| lt_head := {| ck_lead := [c_sp]; ck_body := List.map Raw (bs "Content-Type: text/plain; charset=ISO-8859-1") ++ [Esc (chr 110)]; ck_trail := [] |}; lt_more := [] |}.
Definition ex_header_block : po_block :=
  {| bl_comments := []; bl_entry := Some {| en_ctxt := None; en_id := rl []; en_body := PoStr ex_header |} |}.
Definition ex_foreign : bytes :=
  file [bs "msgid ``"; bs "msgstr `Content-Type: text/plain; charset=ISO-8859-1\n`"; bs "";
        bs "msgid `a`"; bs "msgid_plural `as`"; bs "msgstr[0] `X`"; bs "oops"; bs ""; bs "msgid `b`"; bs "msgstr `Y`"].
Definition ex_foreign_segs : list segment :=
  [Whole ex_header_block []; Broken [q (bs "msgid `a`"); q (bs "msgid_plural `as`"); q (bs "msgstr[0] `X`")] (bs "oops") [];
   Whole block0 []; Whole (ex_block (bs "b") (bs "Y")) []].
Definition ex_foreign_ms : list (option bytes) := [None; Some (bs "expected 'msgstr[N]'"); None; None].
(** a converter that writes letters in lower case, after a byte-order mark *)
Definition lowering (mark : bytes) : config :=
  {| cf_pedantic := true; cf_strict := false; cf_ndebug := false; cf_fuel := 0;
     cf_iconv := iconv_of mark (fun t => match t with [] => None | c :: _ => Some (1, [tolower c]) end) |}.

Lemma ex_foreign_ok : segs_ok false ex_foreign_segs.
Proof.
  assert (B : is_blank []) by (split; [intros []|left; constructor]).
  assert (Hh : lit_ok false false ex_header).
  { constructor; [|constructor]. split; [repeat constructor|]. split; [intros [E|[]]; discriminate|]. split; [|split; [intros []|intro H; discriminate H]].
    apply Forall_app. split; [|constructor; [discriminate|constructor]]. apply Forall_map. apply Forall_forall. intros c Hc. apply plain_char_raw.
    revert c Hc. apply forallb_forall. reflexivity. }
  split; [|split; [|split; [apply whole0|split; [|exact Logic.I]]]].
  - split; [split; [constructor|]|apply nil_separator]. cbn [ex_header_block bl_entry]. split; [exact Logic.I|]. split; [now apply rl_ok|]. split; [exact Hh|]. vm_compute. discriminate.
  - change (big5_end false (seg_entries (Whole ex_header_block []))) with false. split; [|split; [|split]].
    + exists {| bl_comments := []; bl_entry := Some {| en_ctxt := None; en_id := rl (bs "a"); en_body := PoPlural (rl (bs "as")) [(0, rl (bs "X"))] |} |}, [], [], [].
      split; [|split; [split; [exact B|discriminate]|reflexivity]]. split; [constructor|]. split; [exact Logic.I|]. split; [now apply rl_ok|].
      split; [|exact Logic.I]. split; [now apply rl_ok|]. split; [discriminate|]. constructor; [|constructor]. split; [cbn; lia|now apply rl_ok].
    + assert (NC : forall ck, white (ck_lead ck) -> forall c l, chunk_text ck = c :: l -> isspace c = false -> c <> c_dq -> False).
      { intros ck Hw c l E H1 H2. apply (not_continues_letter c l H1 H2). exists (ck_lead ck). eexists. split; [symmetry; exact E|exact Hw]. }
      intros (b & sep & more & [Hc He] & [Hs _] & E). destruct b as [[|c cm] oe]; unfold block_lines in E; cbn [bl_comments bl_entry app] in *.
      2: { injection E as E _. inversion Hc as [|? ? (l & X & _) _]. rewrite X in E. discriminate E. }
      destruct oe as [e|]; [|injection E as E _; rewrite E in Hs; revert Hs; now apply not_blank_letter].
      unfold entry_lines in E. destruct e as [[l|] i y]; cbn [en_ctxt en_id en_body ctxt_lines app] in *; [discriminate E|].
      destruct He as (_ & Hi & Hy & _). cbn [en_id en_body] in Hi, Hy. destruct i as [h mo]. inversion Hi as [|? ? _ Hm]. cbn [lt_head lt_more] in *.
      unfold lit_lines in E. cbn [lt_head lt_more app] in E. destruct mo as [|m mo]; cbn [List.map app] in E.
      2: { injection E as _ E _. inversion Hm as [|? ? Hm1 _]. eapply (NC m (proj1 Hm1)); [exact E|reflexivity|discriminate]. }
      destruct y as [m|p rows]; [discriminate E|]. cbn [body_lines body_ok] in *. destruct Hy as (Hp & _ & Hr). destruct p as [h2 mo]. inversion Hp as [|? ? _ Hm2]. cbn [lt_head lt_more] in *.
      unfold lit_lines in E. cbn [lt_head lt_more app] in E. destruct mo as [|m mo]; cbn [List.map app] in E.
      2: { injection E as _ _ E _. inversion Hm2 as [|? ? Hm1 _]. eapply (NC m (proj1 Hm1)); [exact E|reflexivity|discriminate]. }
      destruct rows as [|[k r] rows]; cbn [List.map List.concat app] in E; [injection E as _ _ E _; rewrite E in Hs; revert Hs; now apply not_blank_letter|].
      inversion Hr as [|? ? [_ Hr1] Hr2]. cbn [snd] in Hr1. destruct r as [h3 mo]. inversion Hr1 as [|? ? _ Hm3]. cbn [lt_head lt_more] in *.
      unfold row_lines, lit_lines in E. cbn [fst snd lt_head lt_more app] in E. destruct mo as [|m mo]; cbn [List.map app] in E.
      2: { injection E as _ _ _ _ E _. inversion Hm3 as [|? ? Hm1 _]. eapply (NC m (proj1 Hm1)); [exact E|reflexivity|discriminate]. }
      destruct rows as [|[k2 r2] rows]; cbn [List.map List.concat app] in E; [injection E as _ _ _ _ E _; rewrite E in Hs; revert Hs; now apply not_blank_letter|].
      discriminate E.
    + intros b [_ Hf] (e & m & He & Hm) E. exfalso. rewrite He in Hf. destruct Hf as (_ & _ & Hf & _). rewrite Hm in Hf. cbn [body_ok] in Hf.
      apply (f_equal stage_after) in E. unfold block_lines, entry_lines in E. rewrite He, Hm in E. cbn [body_lines] in E. rewrite !app_assoc in E.
      rewrite (stage_str false _ m Hf) in E. discriminate E.
    + split; [constructor|exact B].
  - split; [now apply ex_block_fine|apply nil_separator].
Qed.
Lemma ex_foreign_ms_ok : segs_diagnosed false ex_foreign_segs ex_foreign_ms.
Proof.
  split; [reflexivity|]. split; [|split; [reflexivity|split; [reflexivity|exact Logic.I]]]. eexists. split; [reflexivity|]. right. split.
  - right. now apply not_continues_letter.
  - right. split; [|reflexivity]. intros rest (k & _ & X). discriminate X.
Qed.
Example C73_nonvacuous :
  let r := po_parse (with_fuel (lowering []) 60) (bs "f.po") (stream_of ex_foreign) ex_d in
  complete ex_foreign /\ segs_lines ex_foreign_segs = file_lines ex_foreign ++ [[]] /\ segs_ok false ex_foreign_segs /\
  segs_diagnosed false ex_foreign_segs ex_foreign_ms /\
  parses_to (lowering []) (bs "f.po") (stream_of ex_foreign) ex_d r /\
  parse_does r (segs_do (bs "f.po") true false false 1 ex_foreign_segs ex_foreign_ms (start (cf_iconv (lowering [])) ex_d)) /\
  pr_outcome r = Ret tt /\
  pr_calls r = [CallAdd (AddSingular None (bs "b") (bs "y"))] /\
  pr_trace r = [EvOpen 0; EvUse 0; mistake (bs "f.po") 7 (bs "expected 'msgstr[N]'") (bs "oops"); EvUse 0; EvClose (Some 0)].
Proof.
  assert (C : complete ex_foreign) by (right; exists (removelast ex_foreign); vm_compute; reflexivity).
  assert (L : segs_lines ex_foreign_segs = file_lines ex_foreign ++ [[]]) by (vm_compute; reflexivity).
  intro r. assert (P : parses_to (lowering []) (bs "f.po") (stream_of ex_foreign) ex_d r) by (apply finishes_intro; vm_compute; exact Logic.I).
  split; [exact C|]. split; [exact L|]. split; [exact ex_foreign_ok|]. split; [exact ex_foreign_ms_ok|]. split; [exact P|].
  split; [exact (parse_run (lowering []) (bs "f.po") ex_foreign ex_d _ _ r eq_refl C L ex_foreign_ok ex_foreign_ms_ok P)|].
  split; [vm_compute; reflexivity|]. split; vm_compute; reflexivity.
Qed.
(** With a converter that has no room for its byte-order mark the assertion fails at the form
    of the damaged entry: the mistake is not reported, nor anything after it. *)
Example C73_nonvacuous_failure :
  let cf := lowering (bs "12345") in
  let r := po_parse (with_fuel cf 60) (bs "f.po") (stream_of ex_foreign) ex_d in
  parses_to cf (bs "f.po") (stream_of ex_foreign) ex_d r /\
  parse_does r (segs_do (bs "f.po") true false false 1 ex_foreign_segs ex_foreign_ms (start (cf_iconv cf) ex_d)) /\
  pr_outcome r = AssertFail /\ pr_calls r = [] /\ pr_trace r = [EvOpen 0; EvUse 0].
Proof.
  assert (C : complete ex_foreign) by (right; exists (removelast ex_foreign); vm_compute; reflexivity).
  assert (L : segs_lines ex_foreign_segs = file_lines ex_foreign ++ [[]]) by (vm_compute; reflexivity).
  intros cf r. assert (P : parses_to cf (bs "f.po") (stream_of ex_foreign) ex_d r) by (apply finishes_intro; vm_compute; exact Logic.I).
  split; [exact P|]. split; [exact (parse_run cf (bs "f.po") ex_foreign ex_d _ _ r eq_refl C L ex_foreign_ok ex_foreign_ms_ok P)|].
  split; [vm_compute; reflexivity|]. split; vm_compute; reflexivity.
Qed.

Print Assumptions C73_every_file_is_described.
Print Assumptions C73_what_a_parse_does.
Print Assumptions C73_strict_platforms.
