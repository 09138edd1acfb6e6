(** Which message a scanner reports for which mistake. *)
From Verif.Model Require Import Base Log PluralForms Dictionary IConv Stream PoParser.
From Verif.Spec Require Import ParserSpec PoSpec SoundSpec.
From Verif.Proofs Require Import BaseFacts LexProofs DocLex DocProofs DocSound.
From Verif.Spec Require Import DamageSpec.
Local Open Scope list_scope.

(** ** Strings *)
Lemma unclosed_cons b5 p l msg : piece_ok b5 p -> unclosed b5 l msg -> unclosed b5 (piece_text p ++ l) msg.
Proof.
  intros Hp H. destruct H as [ps F|ps F|ps c E F L].
  - exact (uc_end b5 (p :: ps) (Forall_cons _ Hp F)).
  - rewrite app_assoc. exact (uc_backslash b5 (p :: ps) (Forall_cons _ Hp F)).
  - rewrite app_assoc. exact (uc_lead b5 (p :: ps) c E (Forall_cons _ Hp F) L).
Qed.
Lemma pscan_err b5 n : forall l i out ws msg, length l <= n -> one_line l -> pscan b5 i l out = LErr ws msg -> unclosed b5 l msg.
Proof.
  induction n as [|n IH]; intros [|c l] i out ws msg Hn Hl; cbn [length] in Hn; try lia;
    try (cbn [pscan]; intro H; injection H as <- <-; exact (uc_end b5 [] (Forall_nil _))).
  cbn [pscan]. assert (Hc : c <> c_lf) by (intro; subst; apply Hl; now left).
  assert (Hl' : one_line l) by (intro K; apply Hl; now right).
  destruct (byte_eqb c c_dq) eqn:Ed; [discriminate|].
  assert (Hd : c <> c_dq) by (intro; subst; rewrite byte_eqb_refl in Ed; discriminate).
  destruct (b5 && big5_lead c) eqn:E5.
  { apply andb_prop in E5 as [-> E5]. destruct l as [|c1 l].
    - intro H. injection H as <- <-. apply (uc_lead true [] c eq_refl (Forall_nil _)). now apply big5_lead_iff.
    - intro H. apply IH in H; [|cbn [length] in Hn; lia|intro K; apply Hl'; now right]. apply (unclosed_cons true (Pair c c1)); [|exact H].
      split; [reflexivity|]. split; [now apply big5_lead_iff|]. intro; subst; apply Hl'; now left. }
  destruct (byte_eqb c c_bsl) eqn:Eb.
  { apply byte_eqb_eq in Eb. subst c. destruct l as [|c1 l]; [intro H; injection H as <- <-; exact (uc_backslash b5 [] (Forall_nil _))|]. cbn [length] in Hn.
    assert (Hl2 : one_line l) by (intro K; apply Hl'; now right).
    destruct (unescape c1) as [e|] eqn:Eu.
    - intro H. apply IH in H; [|lia|exact Hl2]. rewrite unescape_meaning in Eu. apply (unclosed_cons b5 (Esc c1)); [|exact H]. cbn [piece_ok]. rewrite Eu. discriminate.
    - intro H. destruct (pscan b5 (i + 2) l _) as [ws' a|ws' m|ws'] eqn:E; cbn [lwarn] in H; try discriminate. injection H as <- <-.
      apply IH in E; [|lia|exact Hl2]. rewrite unescape_meaning in Eu. apply (unclosed_cons b5 (Other c1)); [|exact E].
      split; [exact Eu|]. intro; subst; apply Hl'; now left. }
  intro H. apply IH in H; [|lia|exact Hl']. apply (unclosed_cons b5 (Raw c)); [|exact H]. split; [exact Hd|].
  split; [intro; subst; rewrite byte_eqb_refl in Eb; discriminate|]. split; [exact Hc|]. intros -> K. cbn in E5. apply big5_lead_iff in K. congruence.
Qed.
Lemma pgarbage_ok l : exists ws, pgarbage false l = LOk ws tt.
Proof. induction l as [|c l [ws IH]]; cbn [pgarbage]; [eauto|]. unfold pctype. cbn [andb]. destruct (isspace c); eauto. Qed.
Lemma pline_err b5 out r cur pre ws msg : one_line cur -> cur = pre ++ c_dq :: r -> pline false b5 out (length pre) cur = LErr ws msg ->
  bad_string b5 (c_dq :: r) msg.
Proof.
  intros Hc E. unfold pline. rewrite E, app_length. cbn [length]. destruct (Nat.leb_spec (length pre + S (length r)) (length pre + 1)) as [L|L].
  - intro H. injection H as <- <-. left. destruct r; [auto|cbn [length] in L; lia].
  - rewrite app_nth2, Nat.sub_diag by lia. cbn [nth]. rewrite byte_eqb_refl. cbn [negb].
    replace (skipn (length pre + 1) (pre ++ c_dq :: r)) with r.
    2: { rewrite skipn_app. rewrite skipn_all2 by lia. replace (length pre + 1 - length pre) with 1 by lia. reflexivity. }
    destruct (pscan b5 (length pre + 1) r out) as [ws' a|ws' m|ws'] eqn:Es; cbn [lbind]; try discriminate.
    + destruct (pgarbage_ok (skipn (S (fst a)) (pre ++ c_dq :: r))) as [ws2 ->]. discriminate.
    + intro H. injection H as <- <-. right. exists r. split; [intros ->; cbn [length] in L; lia|]. split; [reflexivity|].
      eapply pscan_err; [reflexivity| |exact Es]. rewrite E in Hc. apply one_line_app in Hc as [_ Hc]. intro K. apply Hc. now right.
Qed.
Lemma pskip_err b5 cur pre : forall l out lead ws msg, one_line cur -> cur = pre ++ lead ++ l -> white lead ->
  pskip false b5 cur out (length pre + length lead) l = LErr ws msg ->
  white (lead ++ l) /\ msg = bs "unexpected end of line" \/
  (exists w c r, lead ++ l = w ++ c :: r /\ white w /\ isspace c = false /\ c <> c_dq /\ msg = bs "string must start with '" ++ [c_dq] ++ bs "'") \/
  bad_more b5 (lead ++ l) msg.
Proof.
  induction l as [|c l IH]; intros out lead ws msg Hc Hk Hw; cbn [pskip].
  { intro H. injection H as <- <-. left. rewrite app_nil_r. auto. }
  destruct (byte_eqb c c_dq) eqn:E.
  - apply byte_eqb_eq in E. subst c. intro H. right. right. rewrite <- app_length in H. apply (pline_err b5 out l) in H; [|exact Hc|now rewrite <- app_assoc].
    exists lead, (c_dq :: l). auto.
  - unfold pctype. cbn [andb]. destruct (isspace c) eqn:Es.
    + intro H. destruct (IH out (lead ++ [c]) ws msg Hc) as [R|R].
      * rewrite Hk, <- app_assoc. reflexivity.
      * apply Forall_app. split; [exact Hw|]. constructor; [exact Es|constructor].
      * rewrite app_length. cbn [length]. replace (length pre + (length lead + 1)) with (length pre + length lead + 1) by lia. exact H.
      * left. rewrite <- app_assoc in R. exact R.
      * right. rewrite <- app_assoc in R. exact R.
    + intro H. injection H as <- <-. right. left. exists lead, c, l. split; [reflexivity|]. split; [exact Hw|]. split; [exact Es|]. split; [|reflexivity].
      intros ->. rewrite byte_eqb_refl in E. discriminate.
Qed.
Lemma pfirst_err pd b5 k cur ws msg : one_line cur -> k <= length cur -> pfirst false pd b5 k cur = LErr ws msg -> bad_after b5 (skipn k cur) msg.
Proof.
  intros Hc Hk. unfold pfirst. destruct (Nat.leb_spec (length cur) (k + 1)) as [L|L].
  { intro H. injection H as <- <-. left. split; [left; rewrite skipn_length; lia|reflexivity]. }
  assert (Lk : length (firstn k cur) = k) by (rewrite firstn_length; lia).
  assert (L1 : 1 < length (skipn k cur)) by (rewrite skipn_length; lia).
  destruct (byte_eqb (nth k cur c_nul) c_sp && _) eqn:E.
  - apply andb_prop in E as [E E']. apply byte_eqb_eq in E. apply byte_eqb_eq in E'. intro H0. right. split; [exact L1|]. right.
    assert (X : skipn k cur = [c_sp] ++ c_dq :: skipn (k + 2) cur).
    { rewrite (skipn_cons_nth ascii c_nul k) by blia. rewrite E. cbn [app]. f_equal. replace (S k) with (k + 1) by lia.
      rewrite (skipn_cons_nth ascii c_nul (k + 1)) by blia. rewrite E'. replace (S (k + 1)) with (k + 2) by lia. reflexivity. }
    replace (k + 1) with (length (firstn k cur ++ [c_sp])) in H0 by (rewrite app_length, Lk; reflexivity).
    apply (pline_err b5 [] (skipn (k + 2) cur) cur (firstn k cur ++ [c_sp])) in H0; [|exact Hc|].
    + exists [c_sp], (c_dq :: skipn (k + 2) cur). split; [exact X|]. split; [repeat constructor|exact H0].
    + rewrite <- (firstn_skipn k cur) at 1. rewrite X, <- app_assoc. reflexivity.
  - cbv zeta. intro H0. assert (X : exists ws', pskip false b5 cur [] (length (firstn k cur) + length (@nil byte)) (skipn k cur) = LErr ws' msg).
    { rewrite Lk. cbn [length]. rewrite Nat.add_0_r. destruct pd; [|eauto]. destruct (pskip _ _ _ _ _ _); cbn [lwarn] in H0; try discriminate. injection H0 as _ ->. eauto. }
    destruct X as [ws' X]. apply (pskip_err b5 cur (firstn k cur)) in X; auto; [|cbn [app]; symmetry; apply firstn_skipn|constructor].
    cbn [app] in X. destruct X as [[X1 X2]|[X|X]]; [left; auto|right; auto|right; auto].
Qed.

(** ** Where in an entry we are *)
Lemma after_space_white w l : white w -> after_space (w ++ l) = after_space l.
Proof. induction 1 as [|c w Hc _ IH]; cbn [app after_space]; [reflexivity|]. now rewrite Hc. Qed.
Lemma has_keyword_more ck : white (ck_lead ck) -> has_keyword (chunk_text ck) = false.
Proof.
  intro H. unfold has_keyword, chunk_text. rewrite after_space_white by exact H. change (after_space (c_dq :: ?x)) with (c_dq :: x).
  unfold starts_with. cbn [length firstn]. reflexivity.
Qed.
Lemma stage_lit b5 pre kw lit : lit_ok false b5 lit -> has_keyword (kw ++ chunk_text (lt_head lit)) = true ->
  stage_after (pre ++ lit_lines kw lit) = stage_of (kw ++ chunk_text (lt_head lit)).
Proof.
  intros H Hk. unfold stage_after, lit_lines. rewrite filter_app. cbn [List.filter]. rewrite Hk.
  assert (E : List.filter has_keyword (List.map chunk_text (lt_more lit)) = []).
  { inversion H as [|? ? _ F]; subst. clear - F. induction F as [|ck cks (Hw & _) _ IH]; [reflexivity|]. cbn [List.map List.filter]. now rewrite (has_keyword_more _ Hw). }
  rewrite E, rev_app_distr. reflexivity.
Qed.
Lemma chunk_begins b5 ck : chunk_ok false b5 ck -> exists c r, chunk_text ck = c :: r /\ (isspace c = true \/ c = c_dq).
Proof.
  intros (H & _). unfold chunk_text. destruct (ck_lead ck) as [|c w]; cbn [app]; [eauto|]. inversion H; subst. eauto.
Qed.
Lemma space_not c d : isspace c = true \/ c = c_dq -> isspace d = false -> d <> c_dq -> byte_eqb d c = false.
Proof. intros [H|H] H1 H2; apply not_true_iff_false; intro E; apply byte_eqb_eq in E; congruence. Qed.
Section Stages.
  Variable b5 : bool.
  Variables (pre : list bytes) (lit : literal).
  Hypothesis H : lit_ok false b5 lit.
  Local Lemma head_begins : exists c r, chunk_text (lt_head lit) = c :: r /\ (isspace c = true \/ c = c_dq).
  Proof. inversion H; subst. eapply chunk_begins; eassumption. Qed.
  Lemma stage_ctxt : stage_after (pre ++ lit_lines (bs "msgctxt") lit) = AfterCtxt.
  Proof. rewrite (stage_lit b5) by (try exact H; reflexivity). destruct head_begins as (c & r & -> & _). reflexivity. Qed.
  Lemma stage_plural : stage_after (pre ++ lit_lines (bs "msgid_plural") lit) = AfterPlural.
  Proof. rewrite (stage_lit b5) by (try exact H; reflexivity). destruct head_begins as (c & r & -> & _). reflexivity. Qed.
  Lemma stage_id : stage_after (pre ++ lit_lines (bs "msgid") lit) = AfterId.
  Proof.
    rewrite (stage_lit b5) by (try exact H; reflexivity). destruct head_begins as (c & r & -> & Hc). unfold stage_of.
    assert (E : starts_with (bs "msgid_plural") (bs "msgid" ++ c :: r) = false).
    { apply not_true_iff_false. intro E. apply starts_with_spec in E as [t E]. apply (f_equal (fun l => nth 5 l c_nul)) in E. cbn in E. subst c. destruct Hc; discriminate. }
    rewrite E. reflexivity.
  Qed.
  Lemma stage_str : stage_after (pre ++ lit_lines (bs "msgstr") lit) = AfterStr.
  Proof.
    rewrite (stage_lit b5) by (try exact H; reflexivity). destruct head_begins as (c & r & -> & Hc). unfold stage_of.
    assert (E : starts_with (bs "msgstr[") (bs "msgstr" ++ c :: r) = false).
    { apply not_true_iff_false. intro E. apply starts_with_spec in E as [t E]. apply (f_equal (fun l => nth 6 l c_nul)) in E. cbn in E. subst c. destruct Hc; discriminate. }
    rewrite E. reflexivity.
  Qed.
  Lemma stage_row n : stage_after (pre ++ row_lines (n, lit)) = AfterForm.
  Proof. unfold row_lines. cbn [fst snd]. rewrite (stage_lit b5) by (try exact H; reflexivity). reflexivity. Qed.
End Stages.
Lemma stage_comments cm : Forall is_comment cm -> stage_after cm = AtStart.
Proof.
  intro H. unfold stage_after. destruct (rev (List.filter has_keyword cm)) as [|l ls] eqn:E; [reflexivity|].
  assert (In l cm) as Hin. { apply (proj1 (filter_In has_keyword l cm)). apply in_rev. rewrite E. now left. }
  rewrite Forall_forall in H. destruct (H _ Hin) as (l' & -> & _). reflexivity.
Qed.

(** ** Plural forms *)
Lemma form_true l : pmsgstr_n false l = Some true -> is_form l (skipn 9 l) /\ 9 <= length l.
Proof.
  intro H. destruct (digit_row _ H) as [E Hn]. split.
  - exists (N.to_nat (code (nth 7 l c_nul) - 48)). split; [exact Hn|]. rewrite <- (firstn_skipn 9 l) at 1. rewrite E, <- app_assoc. reflexivity.
  - apply (f_equal (@length ascii)) in E. rewrite firstn_length in E. cbn [length app bs list_ascii_of_string] in E. lia.
Qed.
Lemma form_false l : pmsgstr_n false l = Some false -> forall rest, ~ is_form l rest.
Proof.
  intros H rest (n & Hn & ->). rewrite app_assoc in H.
  assert (X : exists m, n = m) by eauto. destruct (digit_facts n Hn) as (H1 & H2 & _). unfold pmsgstr_n in H.
  assert (E : starts_with (bs "msgstr[") ((bs "msgstr[" ++ [digit_of n; c_rbr]) ++ rest) = true) by (apply starts_with_spec; rewrite <- app_assoc; eauto).
  rewrite E in H. cbn [andb] in H.
  destruct (Nat.ltb_spec 8 (length ((bs "msgstr[" ++ [digit_of n; c_rbr]) ++ rest))) as [L|L];
    [|rewrite app_length in L; cbn [length app bs list_ascii_of_string] in L; lia].
  change (nth 7 ((bs "msgstr[" ++ [digit_of n; c_rbr]) ++ rest) c_nul) with (digit_of n) in H.
  change (nth 8 ((bs "msgstr[" ++ [digit_of n; c_rbr]) ++ rest) c_nul) with c_rbr in H.
  unfold pctype in H. cbn [andb] in H. rewrite H1, byte_eqb_refl in H. discriminate.
Qed.

(** ** The line and its place determine the text *)
Lemma pscan_on b5 msg tail : (forall i out, exists ws, pscan b5 i tail out = LErr ws msg) ->
  forall ps i out, Forall (piece_ok b5) ps -> exists ws, pscan b5 i (List.concat (List.map piece_text ps) ++ tail) out = LErr ws msg.
Proof.
  intro T. induction ps as [|p ps IH]; intros i out H; [apply T|]. inversion H as [|? ? Hp Hps]; subst. cbn [List.map List.concat]. rewrite <- app_assoc.
  destruct p as [c|l|c|a b]; cbn [piece_text piece_ok] in *; cbn [app pscan].
  - destruct Hp as (H1 & H2 & H3 & H4). rewrite (neq_eqb _ _ H1). assert (E : b5 && big5_lead c = false).
    { destruct b5; [|reflexivity]. apply not_lead_big5. auto. }
    rewrite E, (neq_eqb _ _ H2). apply IH, Hps.
  - change (byte_eqb c_bsl c_dq) with false. change (big5_lead c_bsl) with false. rewrite andb_false_r.
    cbv iota. rewrite byte_eqb_refl, unescape_eq. destruct (meaning_of l escapes) as [v|]; [|congruence]. apply IH, Hps.
  - destruct Hp as [H1 H2]. change (byte_eqb c_bsl c_dq) with false. change (big5_lead c_bsl) with false. rewrite andb_false_r.
    cbv iota. rewrite byte_eqb_refl, unescape_eq, H1. destruct (IH (i + 2) (out ++ [c_bsl; c]) Hps) as [ws E]. rewrite E. cbn [lwarn]. eauto.
  - destruct Hp as (-> & H1 & H2). rewrite (lead_not_dq _ H1). apply is_lead_big5 in H1. rewrite H1. cbn [andb]. apply IH, Hps.
Qed.
Lemma pscan_unclosed b5 l msg : unclosed b5 l msg -> forall i out, exists ws, pscan b5 i l out = LErr ws msg.
Proof.
  intros H i out. destruct H as [ps F|ps F|ps c E F L].
  - rewrite <- (app_nil_r (List.concat _)). apply pscan_on; [|exact F]. intros. cbn [pscan]. eauto.
  - apply pscan_on; [|exact F]. intros. cbn [pscan]. change (byte_eqb c_bsl c_dq) with false. change (big5_lead c_bsl) with false. rewrite andb_false_r. cbv iota.
    rewrite byte_eqb_refl. eauto.
  - subst b5. apply pscan_on; [|exact F]. intros. cbn [pscan]. rewrite (lead_not_dq _ L). apply is_lead_big5 in L. rewrite L. cbn [andb]. eauto.
Qed.
Lemma unclosed_det b5 l m m' : unclosed b5 l m -> unclosed b5 l m' -> m = m'.
Proof. intros H H'. destruct (pscan_unclosed _ _ _ H 0 []) as [ws E]. destruct (pscan_unclosed _ _ _ H' 0 []) as [ws' E']. congruence. Qed.
Lemma bad_string_det b5 t m m' : bad_string b5 t m -> bad_string b5 t m' -> m = m'.
Proof.
  intros [[H1 H2]|(b & H1 & H2 & H3)] [[H1' H2']|(b' & H1' & H2' & H3')]; subst.
  - reflexivity.
  - injection H2' as <-. congruence.
  - injection H1' as ->. congruence.
  - injection H2' as <-. eapply unclosed_det; eassumption.
Qed.
Lemma bad_string_dq b5 t m : bad_string b5 t m -> exists r, t = c_dq :: r.
Proof. intros [[-> _]|(b & _ & -> & _)]; eauto. Qed.
Lemma first_solid w w' c c' r r' : white w -> white w' -> isspace c = false -> isspace c' = false -> w ++ c :: r = w' ++ c' :: r' -> w = w' /\ c = c' /\ r = r'.
Proof.
  intro H. revert w'. induction H as [|d w Hd _ IH]; intros w' H' Hc Hc' E; destruct H' as [|d' w' Hd' H']; cbn [app] in E; injection E; intros; subst.
  - auto.
  - congruence.
  - congruence.
  - destruct (IH w' H' Hc Hc' ltac:(assumption)) as (-> & -> & ->). auto.
Qed.
Lemma white_solid w c r : white (w ++ c :: r) -> isspace c = false -> False.
Proof. intros H Hc. apply Forall_app in H as [_ H]. inversion H. congruence. Qed.
Lemma bad_more_det b5 x m m' : bad_more b5 x m -> bad_more b5 x m' -> m = m'.
Proof.
  intros (w & t & -> & Hw & H) (w' & t' & E & Hw' & H'). destruct (bad_string_dq _ _ _ H) as [r ->]. destruct (bad_string_dq _ _ _ H') as [r' ->].
  apply first_solid in E as (_ & _ & ->); auto. eapply bad_string_det; eassumption.
Qed.
Lemma bad_after_det b5 t m m' : bad_after b5 t m -> bad_after b5 t m' -> m = m'.
Proof.
  assert (X : forall m, bad_after b5 t m ->
    ((length t <= 1 \/ white t) /\ m = bs "unexpected end of line") \/
    (1 < length t /\ exists w c r, t = w ++ c :: r /\ white w /\ isspace c = false /\
       ((c <> c_dq /\ m = bs "string must start with '" ++ [c_dq] ++ bs "'") \/ (c = c_dq /\ bad_more b5 t m)))).
  { intros m0 [H|(H1 & [(w & c & r & H2 & H3 & H4 & H5 & H6)|H2])]; [left; exact H| |]; right; (split; [exact H1|]).
    - exists w, c, r. repeat (split; [assumption|]). left. auto.
    - pose proof H2 as (w & t0 & E & Hw & Hb). destruct (bad_string_dq _ _ _ Hb) as [r ->]. exists w, c_dq, r. split; [exact E|]. split; [exact Hw|]. split; [reflexivity|]. right. auto. }
  intros H H'. apply X in H. apply X in H'. destruct H as [[H1 H2]|(H1 & w & c & r & H2 & H3 & H4 & H5)], H' as [[H1' H2']|(H1' & w' & c' & r' & H2' & H3' & H4' & H5')].
  - congruence.
  - exfalso. destruct H1 as [H1|H1]; [lia|]. rewrite H2' in H1. eapply white_solid; eassumption.
  - exfalso. destruct H1' as [H1'|H1']; [lia|]. rewrite H2 in H1'. eapply white_solid; eassumption.
  - rewrite H2 in H2'. apply first_solid in H2' as (_ & <- & _); auto. destruct H5 as [[H5 H6]|[H5 H6]], H5' as [[H5' H6']|[H5' H6']]; try congruence. eapply bad_more_det; eassumption.
Qed.
Lemma bad_form_det b5 x m m' : bad_form b5 x m -> bad_form b5 x m' -> m = m'.
Proof.
  intros [(r & H1 & H2)|(H1 & H2)] [(r' & H1' & H2')|(H1' & H2')].
  - destruct H1 as (n & _ & ->). destruct H1' as (n' & _ & E). apply app_inv_head in E. cbn [app] in E. injection E as _ <-. eapply bad_after_det; eassumption.
  - destruct (H1' _ H1).
  - destruct (H1 _ H1').
  - congruence.
Qed.
Lemma bad_id_det b5 x m m' : bad_id b5 x m -> bad_id b5 x m' -> m = m'.
Proof. unfold bad_id. destruct (starts_with _ _); [apply bad_after_det|congruence]. Qed.
Lemma complaint_det b5 pre x m m' : complaint b5 pre x m -> complaint b5 pre x m' -> m = m'.
Proof.
  assert (L : bad_line b5 (stage_after pre) x m -> bad_line b5 (stage_after pre) x m' -> m = m').
  { unfold bad_line. destruct (stage_after pre).
    - destruct (starts_with (bs "msgctxt") x); [apply bad_after_det|apply bad_id_det].
    - apply bad_id_det.
    - destruct (starts_with (bs "msgid_plural") x); [apply bad_after_det|]. destruct (starts_with (bs "msgstr") x); [apply bad_after_det|congruence].
    - intros [[H1 H2]|[H1 H2]] [[H1' H2']|[H1' H2']]; [congruence|contradiction|contradiction|]. eapply bad_form_det; eassumption.
    - apply bad_form_det.
    - intros []. }
  intros [(H1 & H2 & H3)|(H1 & H2)] [(H1' & H2' & H3')|(H1' & H2')]; [eapply bad_more_det; eassumption| | |auto].
  - destruct H1'; contradiction.
  - destruct H1; contradiction.
Qed.
