(** Properties of POParser::parse on arbitrary complete files (every line ended by a
    newline): C66 (exactly which lines are lost), C67 (no mistake is reported exactly
    for well-formed documents) and C68 (what is reported about which line depends on the
    file only). The vocabulary is in Spec/DamageSpec.v, Spec/SoundSpec.v and
    Spec/PoSpec.v. *)
From Verif.Model Require Import Base Log PluralForms Dictionary IConv Stream PoParser.
From Verif.Spec Require Import DictSpec IConvSpec ParserSpec.
From Verif.Proofs Require Import BaseFacts DictProofs ParserUnary ParserRel ParserSafe ParserFuel ParserStrict DocSound DocExact DocUnique DocLoop DocComplaint.
From Verif.Spec Require Import PoSpec SoundSpec DamageSpec.
From Verif.Properties Require Import Parser Document.
Local Open Scope list_scope.

(** C66. Whatever the lines of a complete file are: if the parse ends normally then the
    lines, and the empty line the end of the file counts for, fall in exactly one way into
    segments. Well-formed blocks with their separating lines are read, and nothing but
    remarks is logged about them. A singular entry that is followed by something else than
    a separating line is read, too; that line and those after it, up to the next blank
    line, are lost, and the one report names the line. A block that goes wrong is lost
    as a whole, including the lines up to the next blank line, and the one report names
    the first line that no well-formed block can have there, and says what is wrong with
    it ([complaint]). The dictionary calls are
    exactly those of the entries that were read, in order. *)
Theorem C66_exactly_what_is_lost :
  forall (cf : config) (fn b : bytes) (d : dictionary) (n : nat),
  let r := po_parse (with_fuel cf n) fn (stream_of b) d in
  complete b -> pr_outcome r = Ret tt ->
  exists sgs : list segment,
    segs_lines sgs = file_lines b ++ [[]] /\
    segs_ok false sgs /\
    (forall sgs', segs_lines sgs' = file_lines b ++ [[]] -> segs_ok false sgs' -> sgs' = sgs) /\
    segs_said fn 1 false sgs (pr_trace r) /\
    (exists ps : list piece_of_file,
       pieces_entries ps = segs_entries sgs /\ pr_calls r = pieces_calls ps /\
       @explained (cf_iconv cf) (cf_ndebug cf) (d_charset d) [] ps) /\
    (own_charset (d_charset d) (segs_entries sgs) ->
     pr_calls r = List.concat (List.map entry_calls (segs_entries sgs))).
Proof.
  intros cf fn b d n r Hc Ho. unfold r in *.
  destruct (strict_or_ub (with_fuel cf n) fn (stream_of b) d) as [E|E]; [congruence|]. rewrite E in *.
  destruct (parse_exact (set_strict (with_fuel cf n) false) fn b d eq_refl Hc Ho) as (sgs & ps & H1 & H2 & H3 & H4 & H5 & H6).
  exists sgs. split; [exact H1|]. split; [exact H2|].
  split; [intros sgs' H1' H2'; apply (segments_unique _ false); [exact H2'|exact H2|congruence]|]. split; [exact H3|].
  split; [exists ps; auto|]. intro Hw. rewrite H5, <- H4. eapply (explained_own _ _ _ _ []); [rewrite H4; exact Hw|exact H6].
Qed.

(** The way the lines fall into segments depends on the lines only: not on the
    configuration, the converter or the dictionary. *)
Theorem C66_segments_are_unique :
  forall (big5 : bool) (sgs sgs' : list segment),
  segs_ok big5 sgs -> segs_ok big5 sgs' -> segs_lines sgs = segs_lines sgs' -> sgs = sgs'.
Proof. intros big5 sgs sgs'. apply segments_unique. Qed.

(** Every complete file falls into segments, in exactly one way (whether or not any parse of
    it succeeds). *)
Theorem C66_every_file_has_segments :
  forall b : bytes, complete b ->
  exists! sgs : list segment, segs_lines sgs = file_lines b ++ [[]] /\ segs_ok false sgs.
Proof.
  intros b Hc.
  set (nul := {| ic_state := unit; ic_open := fun _ _ => inl tt; ic_conv := fun _ t _ => (tt, t, None); ic_reset := fun u => u |}).
  set (cf := {| cf_pedantic := false; cf_strict := false; cf_ndebug := true; cf_fuel := 0; cf_iconv := nul |}).
  destruct (C22_terminates_complete cf [] b ex_d Hc) as (r & P). pose proof (C21_parse_outcomes cf [] _ _ _ P) as O.
  apply parses_to_elim in P as (n & <- & Hn).
  assert (Ho : pr_outcome (po_parse (with_fuel cf n) [] (stream_of b) ex_d) = Ret tt).
  { destruct (pr_outcome (po_parse (with_fuel cf n) [] (stream_of b) ex_d)) as [[]|[]|[]| |]; try contradiction; try discriminate O; [reflexivity| |].
    - destruct O as (to & from & e & X). discriminate X.
    - destruct O as [X _]. discriminate X. }
  destruct (C66_exactly_what_is_lost cf [] b ex_d n Hc Ho) as (sgs & H1 & H2 & U & _).
  exists sgs. split; [auto|]. intros sgs' [X1 X2]. symmetry. now apply U.
Qed.

Definition ex_damaged : bytes :=
  file [bs "junk"; bs "more"; bs ""; bs "msgid `a`"; bs "msgstr `A`"; bs "tail"; bs ""; bs "msgid `b`"; bs "msgstr `B`"].
Definition ex_block (i s : bytes) : po_block := {| bl_comments := []; bl_entry := Some (entry_of i s) |}.
Definition ex_segs : list segment :=
  [Broken [] (bs "junk") [bs "more"]; Whole block0 []; Excess (ex_block (bs "a") (bs "A")) (bs "tail") [];
   Whole block0 []; Whole (ex_block (bs "b") (bs "B")) []].
Lemma not_blank_letter c l : isspace c = false -> c <> c_hash -> ~ is_blank (c :: l).
Proof. intros H1 H2 [_ [H|[H|(c' & l' & H & _)]]]; [inversion H; congruence| |]; injection H as -> _; now apply H2. Qed.
Lemma not_continues_letter c l : isspace c = false -> c <> c_dq -> ~ continues (c :: l).
Proof. intros H1 H2 (w & r & E & Hw). destruct Hw as [|c' w Hc Hw]; injection E as -> _; congruence. Qed.
Lemma ex_block_fine i s : forallb plain_char i = true -> forallb plain_char s = true -> i <> [] -> block_fine false (ex_block i s).
Proof. intros. split; [constructor|]. cbn [bl_entry ex_block]. now apply entry_of_ok. Qed.
Lemma ex_segs_ok : segs_ok false ex_segs.
Proof.
  assert (B : is_blank []) by (split; [intros []|left; constructor]).
  split; [|split; [apply whole0|split; [|split; [apply whole0|split; [|exact Logic.I]]]]].
  - split; [exists block0, [], [], []; split; [split; [constructor|exact Logic.I]|]; split; [apply nil_separator|reflexivity]|].
    split; [|split].
    + intros (b & sep & more & [Hc _] & [Hs _] & E). destruct b as [[|c cm] oe]; unfold block_lines in E; cbn [bl_comments bl_entry app] in *.
      * destruct oe as [e|].
        -- unfold entry_lines in E. destruct (en_ctxt e); discriminate E.
        -- injection E as -> _. revert Hs. now apply not_blank_letter.
      * injection E as -> _. inversion Hc as [|? ? (l & X & _) _]. discriminate X.
    + intros b _ (e & m & He & Hm) E. exfalso. destruct b as [cm oe]. cbn [bl_entry] in He. subst oe. unfold block_lines, entry_lines in E. cbn [bl_comments bl_entry] in E.
      symmetry in E. apply app_eq_nil in E as [_ E]. apply app_eq_nil in E as [_ E]. discriminate E.
    + split; [repeat constructor; now apply not_blank_letter|exact B].
  - split; [now apply ex_block_fine|]. split; [eexists _, _; split; reflexivity|]. split; [now apply not_blank_letter|].
    split; [now apply not_continues_letter|]. split; [constructor|exact B].
  - split; [now apply ex_block_fine|apply nil_separator].
Qed.
Example C66_nonvacuous :
  let r := po_parse (with_fuel ex_cf 60) (bs "f.po") (stream_of ex_damaged) ex_d in
  complete ex_damaged /\ pr_outcome r = Ret tt /\
  segs_lines ex_segs = file_lines ex_damaged ++ [[]] /\ segs_ok false ex_segs /\
  pr_calls r = [CallAdd (AddSingular None (bs "a") (bs "A")); CallAdd (AddSingular None (bs "b") (bs "B"))] /\
  pr_trace r = [mistake (bs "f.po") 1 (bs "expected 'msgid'") (bs "junk"); mistake (bs "f.po") 6 (bs "expected empty line") (bs "tail")].
Proof.
  split; [right; exists (removelast ex_damaged); vm_compute; reflexivity|]. split; [vm_compute; reflexivity|]. split; [vm_compute; reflexivity|].
  split; [apply ex_segs_ok|]. split; vm_compute; reflexivity.
Qed.

(** C67. If no line is reported as wrong, the file is a well-formed document. *)
Definition doc_segs (D : document) : list segment :=
  List.map (fun b => Whole (fst b) (snd b)) (dc_blocks D) ++ [Whole (dc_last D) []].
Lemma doc_segs_lines D : segs_lines (doc_segs D) = doc_lines D ++ [[]].
Proof.
  unfold segs_lines, doc_segs, doc_lines. rewrite map_app, concat_app, map_map. cbn [List.map List.concat seg_lines]. rewrite app_nil_r, <- app_assoc. reflexivity.
Qed.
Lemma doc_segs_ok D : doc_ok false D -> segs_ok false (doc_segs D).
Proof.
  intros (H1 & H2 & H3). unfold doc_segs, doc_entries, blocks_entries in *.
  change (Forall (fun b => Forall is_comment (bl_comments (fst b)) /\ separator_ok (fst b) (snd b)) (dc_blocks D)) in H1.
  revert H3. generalize false at 2 3. intro b5. revert b5.
  induction (dc_blocks D) as [|[b sep] bl IH]; intros b5 H3; cbn [List.map List.concat app fst snd] in *.
  - split; [|exact Logic.I]. split; [|apply nil_separator]. split; [exact H2|]. destruct (bl_entry (dc_last D)); [apply H3|exact Logic.I].
  - inversion H1 as [|? ? [Hc Hs] H1']; subst. cbn [fst snd] in *. rewrite <- app_assoc in H3. split.
    + split; [|exact Hs]. split; [exact Hc|]. destruct (bl_entry b); [apply H3|exact Logic.I].
    + apply IH; [exact H1'|]. cbn [seg_entries]. destruct (bl_entry b); [apply H3|exact H3].
Qed.
Definition is_whole (sg : segment) : Prop := match sg with Whole _ _ => True | _ => False end.
Lemma whole_doc sgs : forall b5 L, Forall is_whole sgs -> segs_ok b5 sgs -> segs_lines sgs = L ++ [[]] ->
  exists bl last, sgs = List.map (fun b => Whole (fst b) (snd b)) bl ++ [Whole last []] /\
    Forall (fun b => Forall is_comment (bl_comments (fst b)) /\ separator_ok (fst b) (snd b)) bl /\
    Forall is_comment (bl_comments last) /\ entries_ok false b5 (blocks_entries bl ++ opt_list (bl_entry last)).
Proof.
  induction sgs as [|sg sgs IH]; intros b5 L Hw Ho E; [destruct L; discriminate E|].
  inversion Hw as [|? ? W Hw']; subst. destruct sg as [b sep|?|?]; [|destruct W|destruct W]. destruct Ho as [[[Hc He] Hs] Ho].
  unfold segs_lines in E. cbn [List.map List.concat seg_lines] in E. destruct sgs as [|sg' sgs].
  - cbn [List.map List.concat] in E. rewrite app_nil_r in E. apply app_inj_tail in E as [_ ->]. exists [], b. split; [reflexivity|].
    split; [constructor|]. split; [exact Hc|]. cbn [blocks_entries List.map List.concat app]. destruct (bl_entry b); [|exact Logic.I]. split; [exact He|exact Logic.I].
  - assert (X : exists L', segs_lines (sg' :: sgs) = L' ++ [[]]).
    { pose proof (f_equal (fun l => last l [c_lf]) E) as X. cbv beta in X. rewrite last_last in X. fold (segs_lines (sg' :: sgs)) in X.
      assert (Y : segs_lines (sg' :: sgs) <> []).
      { unfold segs_lines. cbn [List.map List.concat]. intro Z. apply app_eq_nil in Z as [Z _]. now apply seg_lines_ne in Z. }
      destruct (exists_last Y) as (L' & y & Z). rewrite Z in X. rewrite app_assoc, last_last in X. subst y. eauto. }
    destruct X as [L' X]. destruct (IH _ L' Hw' Ho X) as (bl & lst & -> & H1 & H2 & H3). exists ((b, sep) :: bl), lst.
    split; [reflexivity|]. split; [constructor; [split; assumption|exact H1]|]. split; [exact H2|]. unfold blocks_entries in *. cbn [List.map List.concat fst seg_entries] in *.
    rewrite <- app_assoc. destruct (bl_entry b); [|exact H3]. split; [exact He|exact H3].
Qed.
Lemma said_whole fn sgs : forall b5 n evs, segs_said fn n b5 sgs evs -> (forall m msg line, ~ In (mistake fn m msg line) evs) -> Forall is_whole sgs.
Proof.
  induction sgs as [|sg sgs IH]; intros b5 n evs H N; [constructor|]. destruct H as (e1 & e2 & -> & H1 & H2). constructor.
  - destruct sg as [b sep|b x sk|pre x sk]; [exact Logic.I| |]; exfalso.
    + destruct H1 as (rs & _ & ->). eapply N. apply in_or_app. left. apply in_or_app. right. left. reflexivity.
    + destruct H1 as (rs & msg & _ & _ & ->). eapply N. apply in_or_app. left. apply in_or_app. right. left. reflexivity.
  - eapply IH; [exact H2|]. intros m msg line X. eapply N. apply in_or_app. right. exact X.
Qed.
Lemma whole_said fn sgs : forall b5 n evs, segs_said fn n b5 sgs evs -> Forall is_whole sgs -> Forall remark evs.
Proof.
  induction sgs as [|sg sgs IH]; intros b5 n evs H W; [exact H|]. destruct H as (e1 & e2 & -> & H1 & H2). inversion W as [|? ? W1 W2]; subst. apply Forall_app. split.
  - destruct sg; [exact H1|destruct W1|destruct W1].
  - eapply IH; eassumption.
Qed.
Theorem C67_silence_means_well_formed :
  forall (cf : config) (fn b : bytes) (d : dictionary) (n : nat),
  let r := po_parse (with_fuel cf n) fn (stream_of b) d in
  complete b -> pr_outcome r = Ret tt ->
  (forall line_number msg line, ~ In (mistake fn line_number msg line) (pr_trace r)) ->
  exists D : document, doc_ok false D /\ file_lines b = doc_lines D.
Proof.
  intros cf fn b d n r Hc Ho N. destruct (C66_exactly_what_is_lost cf fn b d n Hc Ho) as (sgs & H1 & H2 & _ & H3 & _).
  destruct (whole_doc sgs false _ (said_whole _ _ _ _ _ H3 N) H2 H1) as (bl & lst & E & B1 & B2 & B3).
  exists {| dc_blocks := bl; dc_last := lst |}. split; [split; [exact B1|split; [exact B2|exact B3]]|].
  apply (app_inv_tail [[]]). rewrite <- doc_segs_lines. unfold doc_segs. cbn [dc_blocks dc_last]. rewrite <- E. symmetry. exact H1.
Qed.

(** And then nothing is reported: the only error lines are the converter's own. *)
Theorem C67_well_formed_means_silence :
  forall (cf : config) (fn b : bytes) (d : dictionary) (n : nat) (D : document),
  let r := po_parse (with_fuel cf n) fn (stream_of b) d in
  complete b -> pr_outcome r = Ret tt ->
  doc_ok false D -> file_lines b = doc_lines D ->
  forall l, In (EvLog l) (pr_trace r) -> lg_level l = LError -> exists text, l = log_error (iconv_text text).
Proof.
  intros cf fn b d n D r Hc Ho HD HL l Hin Hl. destruct (C66_exactly_what_is_lost cf fn b d n Hc Ho) as (sgs & H1 & H2 & U & H3 & _).
  assert (E : doc_segs D = sgs) by (apply U; [rewrite doc_segs_lines, HL; reflexivity|now apply doc_segs_ok]). subst sgs.
  assert (W : Forall is_whole (doc_segs D)).
  { unfold doc_segs. apply Forall_app. split; [|constructor; [exact Logic.I|constructor]]. apply Forall_map. apply Forall_forall. intros; exact Logic.I. }
  pose proof (whole_said _ _ _ _ _ H3 W) as R. rewrite Forall_forall in R. destruct (R _ Hin) as [R1|R1]; [congruence|exact R1].
Qed.
Example C67_nonvacuous :
  (let r := po_parse (with_fuel ex_cf 60) (bs "f.po") (stream_of (bom ++ doc_text ex_doc)) ex_d in
   complete (bom ++ doc_text ex_doc) /\ pr_outcome r = Ret tt /\ doc_ok false ex_doc /\ file_lines (bom ++ doc_text ex_doc) = doc_lines ex_doc /\
   pr_calls r <> []) /\
  (let r := po_parse (with_fuel ex_cf 60) (bs "f.po") (stream_of ex_damaged) ex_d in
   In (mistake (bs "f.po") 1 (bs "expected 'msgid'") (bs "junk")) (pr_trace r) /\ forall D, doc_ok false D -> file_lines ex_damaged <> doc_lines D).
Proof.
  split.
  - split; [right; exists (removelast (bom ++ doc_text ex_doc)); vm_compute; reflexivity|]. split; [vm_compute; reflexivity|].
    split; [apply ex_doc_ok|]. split; [vm_compute; reflexivity|vm_compute; discriminate].
  - split; [vm_compute; left; reflexivity|]. intros D HD E.
    assert (X : doc_segs D = ex_segs).
    { apply (segments_unique _ false); [now apply doc_segs_ok|apply ex_segs_ok|]. rewrite doc_segs_lines, <- E. vm_compute. reflexivity. }
    unfold doc_segs in X. destruct (dc_blocks D); discriminate X.
Qed.

(** C68. What is reported about a line is determined by it, by the lines of its block
    before it and by whether the catalogue is a BIG5 one. *)
Theorem C68_one_text_per_mistake :
  forall (big5 : bool) (before : list bytes) (line msg msg' : bytes),
  complaint big5 before line msg -> complaint big5 before line msg' -> msg = msg'.
Proof. exact complaint_det. Qed.

Fixpoint segs_ms (n : Z) (b5 : bool) (sgs : list segment) (ms : list report) : Prop :=
  match sgs with
  | [] => ms = []
  | sg :: sgs' => exists m1 m2, ms = m1 ++ m2 /\
      match sg with
      | Whole _ _ => m1 = []
      | Excess b x _ => m1 = [((n + Z.of_nat (length (block_lines b)))%Z, bs "expected empty line", x)]
      | Broken pre x _ => exists msg, complaint b5 pre x msg /\ m1 = [((n + Z.of_nat (length pre))%Z, msg, x)]
      end /\ segs_ms (n + Z.of_nat (length (seg_lines sg))) (big5_end b5 (seg_entries sg)) sgs' m2
  end.
Lemma segs_ms_det sgs : forall n b5 ms ms', segs_ms n b5 sgs ms -> segs_ms n b5 sgs ms' -> ms = ms'.
Proof.
  induction sgs as [|sg sgs IH]; intros n b5 ms ms' H H'; cbn [segs_ms] in *; [congruence|].
  destruct H as (m1 & m2 & -> & H1 & H2), H' as (m1' & m2' & -> & H1' & H2'). rewrite (IH _ _ _ _ H2 H2'). f_equal.
  destruct sg; [congruence|congruence|]. destruct H1 as (msg & C & ->), H1' as (msg' & C' & ->). now rewrite (complaint_det _ _ _ _ _ C C').
Qed.
Lemma reports_more fn rs ms evs : Forall remark rs -> reports fn ms evs -> reports fn ms (rs ++ evs).
Proof.
  intros H R. destruct ms as [|[[n msg] line] ms]; cbn [reports] in *; [apply Forall_app; auto|].
  destruct R as (rs' & rest & -> & R1 & R2). exists (rs ++ rs'), rest. rewrite <- app_assoc. split; [reflexivity|]. split; [apply Forall_app; auto|exact R2].
Qed.
Lemma said_ms fn sgs : forall n b5 evs, segs_said fn n b5 sgs evs -> exists ms, segs_ms n b5 sgs ms /\ reports fn ms evs.
Proof.
  induction sgs as [|sg sgs IH]; intros n b5 evs H; cbn [segs_said segs_ms] in *; [exists []; split; [reflexivity|exact H]|].
  destruct H as (e1 & e2 & -> & H1 & H2). destruct (IH _ _ _ H2) as (m2 & S2 & R2). destruct sg as [b sep|b x sk|pre x sk]; cbn [seg_said] in H1.
  - exists m2. split; [exists [], m2; auto|]. now apply reports_more.
  - destruct H1 as (rs & H1 & ->). exists ([((n + Z.of_nat (length (block_lines b)))%Z, bs "expected empty line", x)] ++ m2). split; [eexists _, m2; split; [reflexivity|auto]|].
    cbn [app reports]. exists rs, e2. rewrite <- app_assoc. auto.
  - destruct H1 as (rs & msg & H1 & C & ->). exists ([((n + Z.of_nat (length pre))%Z, msg, x)] ++ m2). split; [eexists _, m2; split; [reflexivity|split; [eauto|exact S2]]|].
    cbn [app reports]. exists rs, e2. rewrite <- app_assoc. auto.
Qed.
Lemma nth_more (ls : list bytes) k : nth k (ls ++ [[]]) [] = nth k ls [].
Proof.
  destruct (Nat.lt_ge_cases k (length ls)) as [H|H]; [now apply app_nth1|]. rewrite app_nth2, (nth_overflow ls) by exact H.
  destruct (k - length ls) as [|[|?]]; reflexivity.
Qed.
Lemma in_file_weaken ls ms a a' : (a <= a')%Z -> in_file ls a' ms -> in_file ls a ms.
Proof. intros H. destruct ms as [|[[n msg] line] ms]; [trivial|]. intros (H1 & H2 & H3). split; [lia|auto]. Qed.
Lemma ms_in_file ls sgs : forall pre b5 ms, pre ++ segs_lines sgs = ls ++ [[]] -> segs_ms (Z.of_nat (length pre) + 1) b5 sgs ms -> in_file ls (Z.of_nat (length pre)) ms.
Proof.
  induction sgs as [|sg sgs IH]; intros pre b5 ms E H; cbn [segs_ms] in H; [subst ms; exact Logic.I|]. destruct H as (m1 & m2 & -> & H1 & H2).
  unfold segs_lines in E. cbn [List.map List.concat] in E. fold (segs_lines sgs) in E.
  assert (R : in_file ls (Z.of_nat (length (pre ++ seg_lines sg))) m2).
  { eapply (IH (pre ++ seg_lines sg)); [rewrite <- app_assoc; exact E|]. replace (Z.of_nat (length (pre ++ seg_lines sg)) + 1)%Z with (Z.of_nat (length pre) + 1 + Z.of_nat (length (seg_lines sg)))%Z by (rewrite app_length; lia). exact H2. }
  assert (K : forall a x sk msg, seg_lines sg = a ++ x :: sk -> in_file ls (Z.of_nat (length pre)) ([((Z.of_nat (length pre) + 1 + Z.of_nat (length a))%Z, msg, x)] ++ m2)).
  { intros a x sk msg Ea. rewrite Ea in *. cbn [app in_file]. assert (L : length (pre ++ (a ++ x :: sk) ++ segs_lines sgs) = length (ls ++ [[]])) by now rewrite E.
    rewrite !app_length in L. cbn [length] in L. split; [lia|]. split.
    - replace (Z.to_nat (Z.of_nat (length pre) + 1 + Z.of_nat (length a)) - 1) with (length pre + length a) by lia.
      rewrite <- nth_more, <- E. rewrite <- !app_assoc. rewrite app_nth2 by lia. rewrite app_nth2 by lia.
      replace (length pre + length a - length pre - length a) with 0 by lia. reflexivity.
    - eapply in_file_weaken; [|exact R]. rewrite !app_length. cbn [length]. lia. }
  destruct sg as [b sep|b x sk|pre0 x sk].
  - subst m1. cbn [app]. eapply in_file_weaken; [|exact R]. rewrite app_length. lia.
  - subst m1. eapply K. reflexivity.
  - destruct H1 as (msg & _ & ->). eapply K. reflexivity.
Qed.
(** The mistakes reported for a file, with their numbers, texts and lines, depend on its
    bytes only: not on its name, the configuration (debugging or pedantic checks), the
    converter, the dictionary or the charset wanted. The numbers are increasing, and each
    report quotes the line of the file that has that number. *)
Theorem C68_reports_depend_on_the_file_only :
  forall (cf cf' : config) (fn fn' b : bytes) (d d' : dictionary) (n n' : nat),
  let r := po_parse (with_fuel cf n) fn (stream_of b) d in
  let r' := po_parse (with_fuel cf' n') fn' (stream_of b) d' in
  complete b -> pr_outcome r = Ret tt -> pr_outcome r' = Ret tt ->
  exists ms : list report,
    reports fn ms (pr_trace r) /\ reports fn' ms (pr_trace r') /\ in_file (file_lines b) 0 ms.
Proof.
  intros cf cf' fn fn' b d d' n n' r r' Hc Ho Ho'.
  destruct (C66_exactly_what_is_lost cf fn b d n Hc Ho) as (sgs & H1 & H2 & U & H3 & _).
  destruct (C66_exactly_what_is_lost cf' fn' b d' n' Hc Ho') as (sgs' & H1' & H2' & _ & H3' & _).
  assert (sgs' = sgs) by (apply U; assumption). subst sgs'.
  destruct (said_ms _ _ _ _ _ H3) as (ms & S1 & S2). destruct (said_ms _ _ _ _ _ H3') as (ms' & S1' & S2').
  pose proof (segs_ms_det _ _ _ _ _ S1 S1'). subst ms'. exists ms. split; [exact S2|]. split; [exact S2'|].
  apply (ms_in_file _ sgs [] false); [exact H1|exact S1].
Qed.
Definition ex_mistakes : bytes :=
  file [bs "msgid `x"; bs ""; bs "msgid `y\"; bs ""; bs "msgid z"; bs ""; bs "msgid"; bs ""; bs "msgid `m`"; bs "msgid_plural `n`"; bs ""; bs "msgid `a`"; bs "msgstr `A`"].
Example C68_nonvacuous :
  let r := po_parse (with_fuel ex_cf 60) (bs "f.po") (stream_of ex_mistakes) ex_d in
  complete ex_mistakes /\ pr_outcome r = Ret tt /\
  List.filter (fun e => match e with EvLog l => match lg_level l with LError => true | _ => false end | _ => false end) (pr_trace r) =
    [mistake (bs "f.po") 1 (bs "unexpected end of string") (q (bs "msgid `x"));
     mistake (bs "f.po") 3 (bs "unexpected end of string in handling '\'") (q (bs "msgid `y\"));
     mistake (bs "f.po") 5 (bs "string must start with '" ++ [c_dq] ++ bs "'") (bs "msgid z");
     mistake (bs "f.po") 7 (bs "unexpected end of line") (bs "msgid");
     mistake (bs "f.po") 11 (bs "expected 'msgstr[N] (0 <= N <= 9)'") []] /\
  complaint false [q (bs "msgid `m`"); q (bs "msgid_plural `n`")] [] (bs "expected 'msgstr[N] (0 <= N <= 9)'").
Proof.
  split; [right; exists (removelast ex_mistakes); vm_compute; reflexivity|]. split; [vm_compute; reflexivity|]. split; [vm_compute; reflexivity|].
  right. split.
  - right. intros (w & r & E & _). destruct w; discriminate E.
  - change (stage_after [q (bs "msgid `m`"); q (bs "msgid_plural `n`")]) with AfterPlural. left. split; [|reflexivity]. split; [intros []|left; constructor].
Qed.

Print Assumptions C66_exactly_what_is_lost.
Print Assumptions C66_segments_are_unique.
Print Assumptions C66_every_file_has_segments.
Print Assumptions C67_silence_means_well_formed.
Print Assumptions C67_well_formed_means_silence.
Print Assumptions C68_one_text_per_mistake.
Print Assumptions C68_reports_depend_on_the_file_only.
