(** C72: everything about a parse of an arbitrary complete file that is in the dictionary's
    own character set: it ends normally, and the calls, the dictionary and every line of the
    log are given by the file. The vocabulary is in Spec/FullSpec.v, Spec/DamageSpec.v,
    Spec/DiagSpec.v and Spec/PoSpec.v. *)
From Verif.Model Require Import Base Log PluralForms Dictionary IConv Stream PoParser.
From Verif.Spec Require Import DictSpec IConvSpec ParserSpec.
From Verif.Proofs Require Import BaseFacts DictProofs ParserUnary ParserRel ParserSafe ParserFuel ParserStrict DocSound DocExact DocUnique DocLoop DocComplaint.
From Verif.Proofs Require Import DocFull.
From Verif.Spec Require Import PoSpec SoundSpec DamageSpec FullSpec.
From Verif.Spec Require DiagSpec.
From Verif.Properties Require Import Parser Document Damage.
Local Open Scope list_scope.

(** C72. Let [sgs] be the segments of a complete file (by C66 there is exactly one such list),
    and suppose that the headers among the entries read name the charset of the dictionary.
    Then the parse ends normally; the dictionary calls are those of the entries read, in
    order; the dictionary afterwards is the result of exactly these calls; and the log is,
    segment by segment, what [segs_log] says: every note about every line up to the mistake,
    then the one report of the mistake, nothing about the lines skipped. *)
Theorem C72_everything_about_a_file :
  forall (cf : config) (fn b : bytes) (d : dictionary) (sgs : list segment),
  cf_strict cf = false -> complete b ->
  segs_lines sgs = file_lines b ++ [[]] -> segs_ok false sgs -> own_charset (d_charset d) (segs_entries sgs) ->
  exists r : parse_result,
    parses_to cf fn (stream_of b) d r /\
    pr_outcome r = Ret tt /\
    pr_calls r = List.concat (List.map entry_calls (segs_entries sgs)) /\
    pr_dict r = fold_left apply_call (List.concat (List.map entry_calls (segs_entries sgs))) d /\
    segs_log fn (cf_pedantic cf) 1 false d sgs (pr_trace r).
Proof.
  intros cf fn b d sgs Hst Hc El Hok Ho. destruct (C22_terminates_complete cf fn b d Hc) as (r & P). exists r. split; [exact P|].
  destruct (parse_full cf fn b d sgs r Hst Hc El Hok Ho P) as (H1 & H2 & H3). split; [exact H1|].
  split; [|split; [exact H2|exact H3]]. apply parses_to_elim in P as (n & <- & Hn).
  destruct (C66_exactly_what_is_lost cf fn b d n Hc H1) as (sgs' & G1 & G2 & G3 & _ & _ & G4). pose proof (G3 sgs El Hok). subst sgs'. exact (G4 Ho).
Qed.

(** On a platform whose ctype functions must not get negative chars the same holds of every
    parse that ends normally. *)
Theorem C72_strict_platforms :
  forall (cf : config) (fn b : bytes) (d : dictionary) (sgs : list segment) (r : parse_result),
  complete b ->
  segs_lines sgs = file_lines b ++ [[]] -> segs_ok false sgs -> own_charset (d_charset d) (segs_entries sgs) ->
  parses_to cf fn (stream_of b) d r -> pr_outcome r = Ret tt ->
  pr_calls r = List.concat (List.map entry_calls (segs_entries sgs)) /\
  pr_dict r = fold_left apply_call (List.concat (List.map entry_calls (segs_entries sgs))) d /\
  segs_log fn (cf_pedantic cf) 1 false d sgs (pr_trace r).
Proof.
  intros cf fn b d sgs r Hc El Hok Ho P Hr. apply parses_to_elim in P as (n & <- & Hn).
  destruct (C66_exactly_what_is_lost cf fn b d n Hc Hr) as (sgs' & G1 & G2 & G3 & _ & _ & G4). pose proof (G3 sgs El Hok). subst sgs'. split; [exact (G4 Ho)|].
  destruct (strict_or_ub (with_fuel cf n) fn (stream_of b) d) as [E|E]; [rewrite E in Hr; discriminate|].
  set (cf' := set_strict cf false). change (set_strict (with_fuel cf n) false) with (with_fuel cf' n) in E. rewrite E in *.
  assert (P : parses_to cf' fn (stream_of b) d (po_parse (with_fuel cf' n) fn (stream_of b) d)) by (apply parses_to_intro; exact Hn).
  destruct (parse_full cf' fn b d sgs _ eq_refl Hc El Hok Ho P) as (_ & H2 & H3). split; [exact H2|exact H3].
Qed.

(** The log is determined: by the file, its name, the pedantic flag and the dictionary. *)
Theorem C72_log_is_determined :
  forall (fn : bytes) (pedantic : bool) (n : Z) (big5 : bool) (d : dictionary) (sgs : list segment) (evs evs' : list event),
  segs_log fn pedantic n big5 d sgs evs -> segs_log fn pedantic n big5 d sgs evs' -> evs = evs'.
Proof. intros. eapply segs_log_det; eassumption. Qed.
Theorem C72_log_independent_of_converter :
  forall (cf cf' : config) (fn b : bytes) (d : dictionary) (sgs : list segment) (r r' : parse_result),
  cf_strict cf = false -> cf_strict cf' = false -> cf_pedantic cf = cf_pedantic cf' -> complete b ->
  segs_lines sgs = file_lines b ++ [[]] -> segs_ok false sgs -> own_charset (d_charset d) (segs_entries sgs) ->
  parses_to cf fn (stream_of b) d r -> parses_to cf' fn (stream_of b) d r' ->
  pr_trace r = pr_trace r' /\ pr_dict r = pr_dict r'.
Proof.
  intros cf cf' fn b d sgs r r' H1 H2 Hpd Hc El Hok Ho P P'.
  destruct (parse_full cf fn b d sgs r H1 Hc El Hok Ho P) as (A1 & A2 & A3).
  destruct (parse_full cf' fn b d sgs r' H2 Hc El Hok Ho P') as (B1 & B2 & B3). rewrite <- Hpd in B3.
  split; [eapply segs_log_det; eassumption|congruence].
Qed.

(** A file with notes and mistakes: the first entry's line is badly written in three ways, and
    the next line is none that can follow it. *)
Definition ex_noisy_line : bytes := q (bs "msgid  `a\q` junk").
Definition ex_noisy : bytes := file [bs "msgid  `a\q` junk"; bs "oops"; bs "lost"; bs ""; bs "msgid `b`"; bs "msgstr `B`"].
Definition ex_noisy_lit : literal :=
  {| lt_head := {| ck_lead := [c_sp; c_sp]; ck_body := [Raw (chr 97); Other (chr 113)]; ck_trail := bs " junk" |}; lt_more := [] |}.
Definition ex_noisy_block : po_block :=
  {| bl_comments := []; bl_entry := Some {| en_ctxt := None; en_id := ex_noisy_lit; en_body := PoStr (rl (bs "A")) |} |}.
Definition ex_noisy_segs : list segment :=
  [Broken [ex_noisy_line] (bs "oops") [bs "lost"]; Whole block0 []; Whole (ex_block (bs "b") (bs "B")) []].
Lemma ex_noisy_ok : segs_ok false ex_noisy_segs.
Proof.
  assert (B : is_blank []) by (split; [intros []|left; constructor]).
  split; [|split; [apply whole0|split; [|exact Logic.I]]].
  - split; [|split; [|split]].
    + exists ex_noisy_block, [], (hd [] (lit_lines (bs "msgstr") (rl (bs "A")))), [[]]. split; [|split; [split; [exact B|discriminate]|reflexivity]].
      split; [constructor|]. split; [exact Logic.I|]. split; [|split; [now apply rl_ok|exact Logic.I]].
      constructor; [|constructor]. split; [repeat constructor|]. split; [intros [E|[E|[]]]; discriminate|].
      split; [|split; [unfold one_line; intro H; vm_compute in H; intuition discriminate|intro H; discriminate H]].
      constructor; [|constructor; [|constructor]].
      * split; [discriminate|]. split; [discriminate|]. split; discriminate.
      * split; [reflexivity|discriminate].
    + intros (b & sep & more & [Hc He] & [Hs _] & E). destruct b as [[|c cm] oe]; unfold block_lines in E; cbn [bl_comments bl_entry app] in *.
      * destruct oe as [e|].
        -- unfold entry_lines in E. destruct e as [[l|] i y]; cbn [en_ctxt en_id en_body ctxt_lines app] in *; [discriminate E|].
           destruct He as (_ & Hi & _). cbn [en_id] in Hi. unfold lit_ok in Hi. destruct i as [h mo]. cbn [lt_head lt_more] in *. inversion Hi as [|? ? _ Hm].
           unfold lit_lines in E. cbn [lt_head lt_more app] in E. destruct mo as [|m mo]; cbn [List.map app] in E.
           ++ destruct y; discriminate E.
           ++ injection E as _ E _. inversion Hm as [|? ? Hm1 _]. assert (X : continues (bs "oops")).
              { exists (ck_lead m). eexists. split; [symmetry; exact E|exact (proj1 Hm1)]. }
              revert X. now apply not_continues_letter.
        -- injection E as E _. rewrite E in Hs. revert Hs. now apply not_blank_letter.
      * injection E as E _. inversion Hc as [|? ? (l & X & _) _]. rewrite X in E. discriminate E.
    + intros b _ (e & m & He & Hm) E. exfalso. destruct b as [cm oe]. cbn [bl_entry] in He. subst oe. apply (f_equal (@length _)) in E. unfold block_lines, entry_lines in E.
      cbn [bl_comments bl_entry] in E. rewrite Hm in E. cbn [body_lines] in E. unfold lit_lines in E. rewrite !app_length in E. cbn [length] in E. lia.
    + split; [constructor; [now apply not_blank_letter|constructor]|exact B].
  - split; [now apply ex_block_fine|apply nil_separator].
Qed.
Example C72_nonvacuous :
  let r := po_parse (with_fuel ex_cf 60) (bs "f.po") (stream_of ex_noisy) ex_d in
  complete ex_noisy /\ segs_lines ex_noisy_segs = file_lines ex_noisy ++ [[]] /\ segs_ok false ex_noisy_segs /\
  own_charset (d_charset ex_d) (segs_entries ex_noisy_segs) /\ cf_strict ex_cf = false /\
  parses_to ex_cf (bs "f.po") (stream_of ex_noisy) ex_d r /\
  pr_calls r = [CallAdd (AddSingular None (bs "b") (bs "B"))] /\
  pr_trace r = [DiagSpec.reported (bs "f.po") 1 ex_noisy_line (bs "keyword and string must be seperated by a single space");
                DiagSpec.reported (bs "f.po") 1 ex_noisy_line (bs "unhandled escape '\q'");
                DiagSpec.reported (bs "f.po") 1 ex_noisy_line (bs "unexpected garbage after string ignoren");
                mistake (bs "f.po") 2 (bs "expected 'msgstr' or 'msgid_plural'") (bs "oops")] /\
  segs_log (bs "f.po") true 1 false ex_d ex_noisy_segs (pr_trace r).
Proof.
  assert (C : complete ex_noisy) by (right; exists (removelast ex_noisy); vm_compute; reflexivity).
  assert (O : own_charset (d_charset ex_d) (segs_entries ex_noisy_segs)) by (repeat constructor).
  assert (L : segs_lines ex_noisy_segs = file_lines ex_noisy ++ [[]]) by (vm_compute; reflexivity).
  intro r. assert (P : parses_to ex_cf (bs "f.po") (stream_of ex_noisy) ex_d r) by (apply finishes_intro; vm_compute; exact Logic.I).
  split; [exact C|]. split; [exact L|]. split; [exact ex_noisy_ok|]. split; [exact O|]. split; [reflexivity|]. split; [exact P|].
  split; [vm_compute; reflexivity|]. split; [vm_compute; reflexivity|].
  exact (proj2 (proj2 (parse_full ex_cf (bs "f.po") ex_noisy ex_d ex_noisy_segs r eq_refl C L ex_noisy_ok O P))).
Qed.

Print Assumptions C72_everything_about_a_file.
Print Assumptions C72_strict_platforms.
Print Assumptions C72_log_is_determined.
Print Assumptions C72_log_independent_of_converter.
