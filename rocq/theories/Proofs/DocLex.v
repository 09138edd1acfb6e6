(** The scanners on the literals of Spec/PoSpec.v. *)
From Verif.Model Require Import Base Log PluralForms Dictionary IConv Stream PoParser.
From Verif.Spec Require Import ParserSpec PoSpec DiagSpec.
From Verif.Proofs Require Import BaseFacts LexProofs ParserUnary.
Local Open Scope list_scope.

Definition texts (ps : list piece) : bytes := List.concat (List.map piece_text ps).
Definition values (ps : list piece) : bytes := List.concat (List.map piece_value ps).

Lemma unescape_eq c : unescape c = meaning_of c escapes.
Proof. reflexivity. Qed.

Lemma is_lead_big5 c : big5_lead c = true <-> is_lead c.
Proof. unfold big5_lead, is_lead. rewrite andb_true_iff, !N.leb_le. reflexivity. Qed.
Lemma not_lead_big5 c : ~ is_lead c -> big5_lead c = false.
Proof. intro H. apply not_true_iff_false. now rewrite is_lead_big5. Qed.
Lemma lead_not_dq c : is_lead c -> byte_eqb c c_dq = false.
Proof.
  intro H. unfold byte_eqb. apply Ascii.eqb_neq. intros ->. unfold is_lead in H. cbn in H. lia.
Qed.

Lemma neq_eqb (a b : byte) : a <> b -> byte_eqb a b = false.
Proof. intro H. unfold byte_eqb. now apply Ascii.eqb_neq. Qed.

Definition notes (ps : list piece) : list bytes := List.concat (List.map piece_notes ps).
Lemma pscan_text_x b5 ps : forall i trail out, Forall (piece_ok b5) ps ->
  pscan b5 i (texts ps ++ c_dq :: trail) out = LOk (notes ps) (i + length (texts ps), out ++ values ps).
Proof.
  induction ps as [|p ps IH]; intros i trail out H.
  - unfold texts, values. cbn. rewrite Nat.add_0_r, app_nil_r. reflexivity.
  - inversion H as [|? ? Hp Hps]; subst. unfold texts, values, notes in *. cbn [List.map List.concat].
    rewrite <- !app_assoc. destruct p as [c|l|c|a b]; cbn [piece_text piece_value piece_ok piece_notes] in *.
    + destruct Hp as (H1 & H2 & H3 & H4). cbn [app]. cbn [pscan].
      rewrite (neq_eqb _ _ H1). assert (E : b5 && big5_lead c = false).
      { destruct b5; [|reflexivity]. apply not_lead_big5. auto. }
      rewrite E, (neq_eqb _ _ H2). refine (eq_trans (IH (i + 1) trail (out ++ [c]) Hps) _).
      cbn [app length]. rewrite <- app_assoc. f_equal. f_equal. blia.
    + cbn [app pscan]. change (byte_eqb c_bsl c_dq) with false. change (big5_lead c_bsl) with false. rewrite andb_false_r.
      cbv iota. rewrite byte_eqb_refl, unescape_eq. destruct (meaning_of l escapes) as [v|]; [|congruence].
      refine (eq_trans (IH (i + 2) trail (out ++ [v]) Hps) _).
      cbn [app length]. rewrite <- app_assoc. f_equal. f_equal. blia.
    + destruct Hp as [H1 H2]. cbn [app pscan]. change (byte_eqb c_bsl c_dq) with false. change (big5_lead c_bsl) with false. rewrite andb_false_r.
      cbv iota. rewrite byte_eqb_refl, unescape_eq, H1.
      refine (eq_trans (f_equal (lwarn _) (IH (i + 2) trail (out ++ [c_bsl; c]) Hps)) _).
      cbn [app length lwarn]. rewrite <- app_assoc. f_equal. f_equal. blia.
    + destruct Hp as (-> & H1 & H2). cbn [app pscan]. rewrite (lead_not_dq _ H1). apply is_lead_big5 in H1. rewrite H1.
      cbn [andb]. refine (eq_trans (IH (i + 2) trail (out ++ [a; b]) Hps) _).
      cbn [app length]. rewrite <- app_assoc. f_equal. f_equal. blia.
Qed.
Lemma pscan_text b5 ps : forall i trail out, Forall (piece_ok b5) ps ->
  exists ws, pscan b5 i (texts ps ++ c_dq :: trail) out = LOk ws (i + length (texts ps), out ++ values ps).
Proof. intros. eexists. now apply pscan_text_x. Qed.

Lemma pgarbage_x strict l : clean strict l -> pgarbage strict l = LOk (trail_notes l) tt.
Proof.
  intro H. induction l as [|c l IH]; [reflexivity|]. cbn [pgarbage]. unfold pctype, trail_notes in *. cbn [forallb].
  assert (E : strict && hi c = false).
  { destruct strict; [|reflexivity]. specialize (H eq_refl). cbn in H. apply orb_false_iff in H. apply H. }
  rewrite E. destruct (isspace c); [|reflexivity]. apply IH. intro Hs. specialize (H Hs). cbn in H. apply orb_false_iff in H. apply H.
Qed.

Lemma space_facts c : isspace c = true -> hi c = false /\ byte_eqb c c_dq = false /\ byte_eqb c c_hash = false.
Proof.
  pose proof (forall_bytes (fun c => implb (isspace c) (negb (hi c) && negb (byte_eqb c c_dq) && negb (byte_eqb c c_hash))) eq_refl c) as H.
  intro E. cbv beta in H. rewrite E in H. cbn [implb] in H.
  destruct (hi c), (byte_eqb c c_dq), (byte_eqb c c_hash); try discriminate H. auto.
Qed.
Lemma pctype_space strict c : isspace c = true -> pctype strict isspace c = Some true.
Proof. intro H. unfold pctype. destruct (space_facts c H) as (-> & _). rewrite andb_false_r, H. reflexivity. Qed.

Lemma pline_x strict b5 out pre ps trail : Forall (piece_ok b5) ps -> clean strict trail ->
  pline strict b5 out (length pre) (pre ++ c_dq :: texts ps ++ c_dq :: trail) = LOk (notes ps ++ trail_notes trail) (out ++ values ps).
Proof.
  intros Hp Ht. unfold pline.
  assert (L : length (pre ++ c_dq :: texts ps ++ c_dq :: trail) = length pre + S (length (texts ps) + S (length trail))).
  { rewrite app_length. cbn [length]. rewrite app_length. reflexivity. }
  destruct (Nat.leb_spec (length (pre ++ c_dq :: texts ps ++ c_dq :: trail)) (length pre + 1)); [blia|].
  rewrite nth_app_mid, byte_eqb_refl. cbn [negb].
  assert (S1 : skipn (length pre + 1) (pre ++ c_dq :: texts ps ++ c_dq :: trail) = texts ps ++ c_dq :: trail).
  { replace (length pre + 1) with (length (pre ++ [c_dq])) by (rewrite app_length; reflexivity).
    replace (pre ++ c_dq :: texts ps ++ c_dq :: trail) with ((pre ++ [c_dq]) ++ texts ps ++ c_dq :: trail)
      by (rewrite <- app_assoc; reflexivity). apply skipn_app_exact. }
  rewrite S1. rewrite (pscan_text_x b5 ps (length pre + 1) trail out Hp). cbn [lbind fst snd].
  assert (S2 : skipn (S (length pre + 1 + length (texts ps))) (pre ++ c_dq :: texts ps ++ c_dq :: trail) = trail).
  { replace (S (length pre + 1 + length (texts ps))) with (length (pre ++ c_dq :: texts ps ++ [c_dq])).
    - replace (pre ++ c_dq :: texts ps ++ c_dq :: trail) with ((pre ++ c_dq :: texts ps ++ [c_dq]) ++ trail).
      + apply skipn_app_exact.
      + rewrite <- app_assoc. cbn [app]. rewrite <- app_assoc. reflexivity.
    - rewrite app_length. cbn [length]. rewrite app_length. cbn [length]. lia. }
  rewrite S2. rewrite (pgarbage_x strict trail Ht). cbn [lbind]. rewrite app_nil_r. reflexivity.
Qed.

Lemma pline_chunk strict b5 out pre ps trail : Forall (piece_ok b5) ps -> clean strict trail ->
  exists ws, pline strict b5 out (length pre) (pre ++ c_dq :: texts ps ++ c_dq :: trail) = LOk ws (out ++ values ps).
Proof. intros. eexists. now apply pline_x. Qed.

Lemma pskip_white strict b5 cur out w : forall skip l, white w ->
  pskip strict b5 cur out skip (w ++ l) = pskip strict b5 cur out (skip + length w) l.
Proof.
  induction w as [|c w IH]; intros skip l H; cbn [app length].
  - now rewrite Nat.add_0_r.
  - inversion H; subst. cbn [pskip]. destruct (space_facts c H2) as (_ & -> & _). rewrite (pctype_space strict c H2).
    rewrite IH by assumption. f_equal. lia.
Qed.
Lemma pquote_white strict w : forall i l, white w -> pquote strict i (w ++ l) = pquote strict (i + length w) l.
Proof.
  induction w as [|c w IH]; intros i l H; cbn [app length].
  - now rewrite Nat.add_0_r.
  - inversion H; subst. cbn [pquote]. destruct (space_facts c H2) as (_ & -> & _). rewrite (pctype_space strict c H2).
    rewrite IH by assumption. f_equal. lia.
Qed.

Lemma pfirst_x strict pd b5 kw ck : chunk_ok strict b5 ck ->
  pfirst strict pd b5 (length kw) (kw ++ chunk_text ck) = LOk (head_notes pd ck) (chunk_value ck).
Proof.
  intros (Hw & _ & Hp & _ & Ht). unfold pfirst, chunk_text, chunk_value, head_notes, string_notes.
  fold (texts (ck_body ck)) (values (ck_body ck)) (notes (ck_body ck)).
  set (w := ck_lead ck) in *. set (T := c_dq :: texts (ck_body ck) ++ c_dq :: ck_trail ck).
  assert (L : length (kw ++ w ++ T) = length kw + (length w + S (length (texts (ck_body ck)) + S (length (ck_trail ck))))).
  { unfold T. rewrite !app_length. cbn [length]. rewrite app_length. reflexivity. }
  destruct (Nat.leb_spec (length (kw ++ w ++ T)) (length kw + 1)); [blia|].
  pose proof (pline_x strict b5 [] (kw ++ w) (ck_body ck) (ck_trail ck) Hp Ht) as E. fold T in E.
  rewrite app_length, <- app_assoc in E. cbn [app] in E.
  assert (Ec : byte_eqb (nth (length kw) (kw ++ w ++ T) c_nul) c_sp && byte_eqb (nth (length kw + 1) (kw ++ w ++ T) c_nul) c_dq
               = bytes_eqb w [c_sp]).
  { destruct w as [|c [|c' w']].
    - cbn [app]. unfold T. rewrite nth_app_mid. reflexivity.
    - cbn [app]. rewrite nth_app_mid. replace (kw ++ c :: T) with ((kw ++ [c]) ++ T) by (rewrite <- app_assoc; reflexivity).
      replace (length kw + 1) with (length (kw ++ [c])) by (rewrite app_length; reflexivity). unfold T. rewrite nth_app_mid.
      rewrite byte_eqb_refl, andb_true_r. cbn [bytes_eqb]. now rewrite andb_true_r.
    - inversion Hw as [|? ? _ Hw']; subst. inversion Hw' as [|? ? Hc' _]; subst.
      rewrite (app_nth2 kw _ c_nul (n := length kw + 1)) by lia. replace (length kw + 1 - length kw) with 1 by lia. cbn [nth app].
      destruct (space_facts c' Hc') as (_ & X & _). rewrite X, andb_false_r. cbn [bytes_eqb]. now rewrite andb_false_r. }
  rewrite Ec. destruct (bytes_eqb w [c_sp]) eqn:Ew.
  - apply bytes_eqb_eq in Ew. rewrite Ew in *. cbn [length] in E. rewrite E. rewrite andb_false_r. reflexivity.
  - rewrite skipn_app_exact, pskip_white by exact Hw.
    replace (pskip strict b5 (kw ++ w ++ T) [] (length kw + length w) T) with (pline strict b5 [] (length kw + length w) (kw ++ w ++ T)).
    + rewrite E. cbn [negb]. rewrite andb_true_r. destruct pd; reflexivity.
    + unfold T. cbn [pskip]. rewrite byte_eqb_refl. reflexivity.
Qed.
Lemma pfirst_chunk strict pd b5 kw ck : chunk_ok strict b5 ck ->
  exists ws, pfirst strict pd b5 (length kw) (kw ++ chunk_text ck) = LOk ws (chunk_value ck).
Proof. intros. eexists. now apply pfirst_x. Qed.

Lemma pquote_chunk strict b5 ck : chunk_ok strict b5 ck -> pquote strict 0 (chunk_text ck) = Some (Some (length (ck_lead ck))).
Proof.
  intros (Hw & _). unfold chunk_text. rewrite pquote_white by exact Hw. cbn [pquote]. rewrite byte_eqb_refl. reflexivity.
Qed.
Lemma pline_text_x strict b5 out ck : chunk_ok strict b5 ck ->
  pline strict b5 out (length (ck_lead ck)) (chunk_text ck) = LOk (string_notes ck) (out ++ chunk_value ck).
Proof. intros (_ & _ & Hp & _ & Ht). now apply pline_x. Qed.
Lemma pline_chunk_text strict b5 out ck : chunk_ok strict b5 ck ->
  exists ws, pline strict b5 out (length (ck_lead ck)) (chunk_text ck) = LOk ws (out ++ chunk_value ck).
Proof. intros. eexists. now apply pline_text_x. Qed.

(** lines *)
Lemma texts_one_line b5 ps : Forall (piece_ok b5) ps -> one_line (texts ps).
Proof.
  unfold one_line, texts. induction 1 as [|p ps Hp _ IH]; [intros []|]. cbn [List.map List.concat]. rewrite in_app_iff.
  intros [H|H]; [|exact (IH H)]. destruct p as [c|l|c|a b]; cbn [piece_text In] in H; cbn [piece_ok] in Hp.
  - destruct Hp as (_ & _ & Hc & _). destruct H as [->|[]]. now apply Hc.
  - destruct H as [H|[->|[]]]; [discriminate|]. apply Hp. reflexivity.
  - destruct H as [H|[->|[]]]; [discriminate|]. now apply Hp.
  - destruct Hp as (_ & Hl & Hb). destruct H as [->|[->|[]]]; [unfold is_lead in Hl; cbn in Hl; lia|now apply Hb].
Qed.
Lemma chunk_one_line strict b5 ck : chunk_ok strict b5 ck -> one_line (chunk_text ck).
Proof.
  intros (_ & Hl & Hp & Ht & _). unfold one_line, chunk_text. fold (texts (ck_body ck)). rewrite in_app_iff.
  cbn. rewrite in_app_iff. cbn. intros [H|[H|[H|[H|H]]]]; try discriminate; auto. now apply (texts_one_line _ _ Hp).
Qed.
Lemma lit_one_line strict b5 kw l : one_line kw -> lit_ok strict b5 l -> Forall one_line (lit_lines kw l).
Proof.
  intros Hk H. inversion H as [|? ? H1 H2]; subst. constructor.
  - unfold one_line in *. rewrite in_app_iff. intros [X|X]; [auto|]. exact (chunk_one_line _ _ _ H1 X).
  - rewrite Forall_map. eapply Forall_impl; [|exact H2]. intros a. apply chunk_one_line.
Qed.

(** blank lines *)
Lemma pall_white strict l : white l -> pall_space strict l = Some true.
Proof. induction 1 as [|c l Hc _ IH]; [reflexivity|]. cbn. rewrite (pctype_space strict c Hc). exact IH. Qed.
Lemma pempty_blank strict l : is_blank l -> pempty strict l = Some true.
Proof.
  intros [_ [H|[->|(c & l' & -> & Hc)]]].
  - destruct l as [|c l]; [reflexivity|]. unfold pempty. inversion H; subst. destruct (space_facts c H2) as (_ & _ & ->).
    now apply pall_white.
  - reflexivity.
  - cbn. now apply pctype_space.
Qed.
Lemma pquote_blank strict l : is_blank l -> pquote strict 0 l = Some None.
Proof.
  intros [_ [H|[->|(c & l' & -> & Hc)]]].
  - rewrite <- (app_nil_r l), pquote_white by exact H. reflexivity.
  - cbn. unfold pctype. change (hi c_hash) with false. rewrite andb_false_r. reflexivity.
  - cbn. unfold pctype. change (hi c_hash) with false. rewrite andb_false_r. reflexivity.
Qed.
Lemma pquote_letter strict l : starts_with (bs "msg") l = true -> pquote strict 0 l = Some None /\ pempty strict l = Some false.
Proof.
  intro H. apply starts_with_spec in H as [t ->]. cbn. unfold pctype. change (hi "m"%char) with false. rewrite andb_false_r. auto.
Qed.
