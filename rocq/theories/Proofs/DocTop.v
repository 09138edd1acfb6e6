(** POParser::parse on whole documents. *)
From Verif.Model Require Import Base Log PluralForms Dictionary IConv Stream PoParser.
From Verif.Spec Require Import ParserSpec PoSpec.
From Verif.Proofs Require Import BaseFacts DictProofs LexProofs ParserUnary DocLex ParserRel ParserSafe ParserFuel ParserLocal
  ParserCut ParserBlank ParserTerm ParserLinewise ParserMisc DocProofs DocLoop.
Local Open Scope list_scope.

(** from runs of the loop to parses *)
Definition started (cf : config) (b : bytes) (d : dictionary) : pst (cf_iconv cf) :=
  strip_bom cf (nextst (init_state cf (stream_of b) d)).
Lemma ends_parse cf fn b d r o k :
  (forall n, ends (with_fuel cf n) fn n (started cf b d) o k) ->
  parses_to cf fn (stream_of b) d r -> pr_outcome r = o /\ pr_calls r = k.
Proof.
  intros H P. apply parses_to_elim in P as (n & <- & Hn). specialize (H n). rewrite po_parse_eq in *.
  destruct H as [H|H]; [contradiction|exact H].
Qed.
Lemma stuck_parse cf fn b d :
  (forall n, fst (parse_loop (with_fuel cf n) fn true n (started cf b d)) = OutOfFuel) -> diverges cf fn (stream_of b) d.
Proof. intros H n. rewrite po_parse_eq. apply H. Qed.

(** the state in which the loop is entered *)
Lemma started_sees cf ls t d : Forall good_line ls -> good_line t ->
  sees cf t ls (iconv_new (cf_iconv cf)) false (d_charset d) [] (started cf (unlines ls ++ t) d).
Proof.
  intros Hl Ht. set (s0 := init_state cf (stream_of (unlines ls ++ t)) d).
  assert (H0 : sees cf t ([] :: ls) (iconv_new (cf_iconv cf)) false (d_charset d) [] s0).
  { split.
    - split; [|split; [apply Ht|split; [reflexivity|split; reflexivity]]]. constructor; [intros []|]. now apply good_one_lines.
    - repeat split. }
  apply sees_next in H0. fold s0. unfold started. fold s0. unfold strip_bom.
  rewrite (sees_cur _ _ _ _ _ _ _ _ H0).
  assert (G : starts_with bom (hd t ls) = false).
  { destruct ls as [|l ls]; [apply Ht|]. inversion Hl as [|? ? [_ H] _]; subst. exact H. }
  rewrite G. exact H0.
Qed.

Lemma nil_good : good_line [].
Proof. split; [intros []|reflexivity]. Qed.
Lemma doc_good strict D : doc_ok strict D -> Forall good_line (doc_lines D).
Proof.
  intros (Hb & Hc & He). unfold doc_entries in He. apply entries_ok_app in He as [He1 He2]. unfold doc_lines.
  fold (blocks_lines (dc_blocks D)). apply Forall_app. split; [eapply blocks_good; eauto|].
  eapply (block_good strict _ _ Hc). destruct (bl_entry (dc_last D)); [apply He2|exact Logic.I].
Qed.

Lemma unlines_complete ls : complete (unlines ls).
Proof.
  induction ls as [|l ls IH]; [left; reflexivity|right]. cbn [unlines]. destruct IH as [->|[b ->]].
  - eexists. reflexivity.
  - exists (l ++ c_lf :: b). rewrite <- app_assoc. reflexivity.
Qed.
Lemma complete_terminates cf fn b d : complete b -> exists r, parses_to cf fn (stream_of b) d r.
Proof.
  intro H. eexists. apply parses_to_intro, (parse_terminates cf fn b d). unfold drop_bom. destruct H as [->|[b' ->]]; [reflexivity|].
  unfold last_line. destruct (starts_with bom (b' ++ [c_lf])) eqn:E.
  - assert (X : exists b2, skipn 3 (b' ++ [c_lf]) = b2 ++ [c_lf]).
    { apply starts_with_spec in E as [t E]. unfold bom in E. cbn in E.
      destruct b' as [|x [|y [|z b']]]; cbn in *; try discriminate. eexists. reflexivity. }
    destruct X as [b2 X]. rewrite X. exact (f_equal hangs_on (last_line_lf b2 [] [])).
  - rewrite last_line_lf. reflexivity.
Qed.

(** ** A well-formed document is read as its meaning says *)
Theorem parse_doc cf fn D d r :
  doc_ok (cf_strict cf) D -> clean (cf_strict cf) (d_charset d) ->
  parses_to cf fn (stream_of (doc_text D)) d r ->
  let m := read_entries (cf_ndebug cf) (d_charset d) (iconv_new (cf_iconv cf)) (doc_entries D) in
  pr_outcome r = fst (fst m) /\ pr_calls r = snd m.
Proof.
  intros HD Hcs P. cbv zeta.
  refine (ends_parse cf fn (doc_text D) d r _ _ _ P). intro n.
  pose proof (started_sees cf (doc_lines D) [] d (doc_good _ _ HD) nil_good) as S. rewrite app_nil_r in S.
  exact (doc_loop (with_fuel cf n) fn D (iconv_new (cf_iconv cf)) false (d_charset d) [] n (started cf (doc_text D) d) S HD Hcs).
Qed.
Lemma doc_terminates cf fn D d : exists r, parses_to cf fn (stream_of (doc_text D)) d r.
Proof. apply complete_terminates, unlines_complete. Qed.

(** ** Documents that need no conversion *)
Lemma upper_upper l : List.map toupper (List.map toupper l) = List.map toupper l.
Proof.
  rewrite map_map. apply map_ext. intro c. apply byte_eqb_eq.
  exact (forall_bytes (fun c => byte_eqb (toupper (toupper c)) (toupper c)) eq_refl c).
Qed.

Lemma convert_null {I : iconv_impl} nd (c : iconv I) x : cv_cd c = CdNull -> convert nd c x = (Ret x, c, []).
Proof. intro H. unfold convert. rewrite H. reflexivity. Qed.
Lemma convert_rows_null {I : iconv_impl} nd (c : iconv I) rows : cv_cd c = CdNull ->
  convert_rows nd c rows = (Ret (List.map (fun r => (fst r, lit_value (snd r))) rows), c).
Proof.
  intro H. induction rows as [|[n l] rows IH]; [reflexivity|]. cbn [convert_rows List.map fst snd]. rewrite (convert_null _ _ _ H), IH. reflexivity.
Qed.
Lemma read_entry_plain {I : iconv_impl} nd cs (c : iconv I) e : cv_cd c = CdNull -> own_charset cs [e] ->
  exists c', read_entry nd cs c e = (Ret tt, c', entry_calls e) /\ cv_cd c' = CdNull.
Proof.
  intros H Ho. inversion Ho as [|? ? Hh _]; subst. unfold read_entry, entry_calls, is_header in *. destruct (en_body e) as [m|p rows].
  - destruct (is_nil (lit_value (en_id e))).
    + unfold set_charsets. cbn [andb]. unfold same_charset in Hh. rewrite Hh, bytes_eqb_refl. eexists. split; [reflexivity|reflexivity].
    + destruct (is_nil (lit_value m)); [eauto|]. rewrite (convert_null _ _ _ H). eauto.
  - rewrite (convert_rows_null _ _ _ H). eauto.
Qed.
Lemma read_entries_plain {I : iconv_impl} nd cs es : forall (c : iconv I), cv_cd c = CdNull -> own_charset cs es ->
  exists c', read_entries nd cs c es = (Ret tt, c', List.concat (List.map entry_calls es)) /\ cv_cd c' = CdNull.
Proof.
  induction es as [|e es IH]; intros c H Ho; [exists c; split; [reflexivity|exact H]|]. inversion Ho as [|? ? Hh Ho']; subst.
  cbn [read_entries List.map List.concat]. destruct (read_entry_plain nd cs c e H) as (c1 & -> & H1); [constructor; [exact Hh|constructor]|].
  destruct (IH c1 H1 Ho') as (c2 & -> & H2). eauto.
Qed.

(** ** Converters that never make convert fail *)
Definition quiet {I : iconv_impl} (nd : bool) (c : iconv I) : Prop :=
  cv_cd c <> CdInvalid /\ (nd = true \/ cv_cd c = CdNull).
Lemma convert_quiet {I : iconv_impl} nd (c : iconv I) x : quiet nd c -> exists v c' ev, convert nd c x = (Ret v, c', ev) /\ quiet nd c'.
Proof.
  intros [H1 H2]. unfold convert. destruct (cv_cd c) as [| |id s0] eqn:E.
  - do 3 eexists. split; [reflexivity|]. split; [congruence|]. right. exact E.
  - congruence.
  - destruct H2 as [->|H2]; [|discriminate].
    destruct (ic_conv _ _ _ _) as [[st' out] [e|]]; [destruct e|]; do 3 eexists; (split; [reflexivity|]); split; try discriminate; auto.
Qed.
Lemma convert_rows_valid {I : iconv_impl} nd rows : forall (c : iconv I), cv_cd c <> CdInvalid ->
  cv_cd (snd (convert_rows nd c rows)) <> CdInvalid.
Proof.
  induction rows as [|[n l] rows IH]; intros c H; [exact H|]. cbn [convert_rows].
  assert (K : cv_cd (snd (fst (convert nd c (lit_value l)))) <> CdInvalid).
  { unfold convert. destruct (cv_cd c) as [| |id s0] eqn:E; [cbn; congruence|congruence|].
    destruct (ic_conv _ _ _ _) as [[st' out] [e|]]; [destruct e; try destruct nd|]; cbn; discriminate. }
  destruct (convert nd c (lit_value l)) as [[o c'] ev]. cbn [fst snd] in K. specialize (IH c' K). destruct o; try exact K.
  destruct (convert_rows nd c' rows) as [[?|?|?| |] ?]; exact IH.
Qed.
Lemma read_entry_valid {I : iconv_impl} nd cs (c : iconv I) e c' k : cv_cd c <> CdInvalid ->
  read_entry nd cs c e = (Ret tt, c', k) -> cv_cd c' <> CdInvalid.
Proof.
  intros H. unfold read_entry. destruct (en_body e) as [m|p rows].
  - destruct (is_nil (lit_value (en_id e))).
    + unfold set_charsets. cbn [andb]. destruct (bytes_eqb _ _); [|destruct (ic_open _ _ _) as [?|[? ?]]]; intro E; inversion E; subst; discriminate.
    + destruct (is_nil (lit_value m)); [intro E; inversion E; subst; exact H|].
      assert (K : cv_cd (snd (fst (convert nd c (lit_value m)))) <> CdInvalid).
      { unfold convert. destruct (cv_cd c) as [| |id s0] eqn:E; [cbn; congruence|congruence|].
        destruct (ic_conv _ _ _ _) as [[st' out] [e'|]]; [destruct e'; try destruct nd|]; cbn; discriminate. }
      destruct (convert nd c (lit_value m)) as [[[?|?|?| |] ?] ?]; cbn [fst snd omap] in *; intro E; inversion E; subst; exact K.
  - pose proof (convert_rows_valid nd rows c H) as K. destruct (convert_rows nd c rows) as [[?|?|?| |] ?]; cbn [fst snd omap] in *; intro E; inversion E; subst; exact K.
Qed.
Lemma read_entries_valid {I : iconv_impl} nd cs es : forall (c : iconv I) c' k, cv_cd c <> CdInvalid ->
  read_entries nd cs c es = (Ret tt, c', k) -> cv_cd c' <> CdInvalid.
Proof.
  induction es as [|e es IH]; intros c c' k H; cbn [read_entries]; [intro E; inversion E; subst; exact H|].
  destruct (read_entry nd cs c e) as [[o c1] k1] eqn:Er. destruct o as [[]|?|?| |]; try discriminate.
  destruct (read_entries nd cs c1 es) as [[o2 c2] k2] eqn:Es. intro E. injection E as -> -> _.
  eapply IH; [|exact Es]. eapply read_entry_valid; eauto.
Qed.
