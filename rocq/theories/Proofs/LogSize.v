(** How many messages a parse logs. *)
From Verif.Model Require Import Base Log PluralForms Dictionary IConv Stream PoParser.
From Verif.Spec Require Import DictSpec ParserSpec PoSpec SoundSpec DamageSpec FullSpec RunSpec SizeSpec.
From Verif.Spec Require Import DiagSpec.
From Verif.Proofs Require Import BaseFacts DictProofs SizeProofs.
Local Open Scope list_scope.
Local Open Scope mon_scope.

Definition weight (ls : list bytes) : nat := texts_size ls + length ls.
Lemma weight_app a b : weight (a ++ b) = weight a + weight b.
Proof. unfold weight, texts_size. rewrite total_app, app_length. lia. Qed.
Lemma weight_cons l ls : weight (l :: ls) = S (length l) + weight ls.
Proof. unfold weight, texts_size. rewrite total_cons. cbn [length]. lia. Qed.
Lemma weight_nil : weight [] = 0. Proof. reflexivity. Qed.
Lemma lines_from_weight b : forall acc, weight (lines_from acc (b ++ [c_lf])) <= length acc + length b + 1.
Proof.
  induction b as [|c b IH]; intro acc; cbn [lines_from app].
  - rewrite byte_eqb_refl. cbn [lines_from is_nil]. rewrite weight_cons, weight_nil. cbn [length]. lia.
  - destruct (byte_eqb c c_lf); [rewrite weight_cons; specialize (IH []); cbn [length] in *; lia|].
    specialize (IH (acc ++ [c])). rewrite app_length in IH. cbn [length] in *. lia.
Qed.
Lemma file_weight b : complete b -> weight (SoundSpec.file_lines b) <= length b.
Proof.
  intros [->|(b' & ->)]; [cbn; lia|]. unfold SoundSpec.file_lines, lines_of. pose proof (lines_from_weight b' []) as H. rewrite app_length. cbn [length plus] in *.
  destruct (lines_from [] (b' ++ [c_lf])) as [|l ls]; [rewrite weight_nil; lia|]. rewrite weight_cons in *. pose proof (drop_bom_size l). lia.
Qed.

(** ** counting *)
Lemma count_app a b : log_count (a ++ b) = log_count a + log_count b.
Proof. apply total_app. Qed.
Lemma count_le evs : log_count evs <= length evs.
Proof. unfold log_count. induction evs as [|[] evs IH]; rewrite ?total_cons; cbn [length]; rewrite ?total_nil; lia. Qed.

Lemma piece_text_pos p : 1 <= length (piece_text p).
Proof. destruct p; cbn [piece_text length]; lia. Qed.
Lemma string_notes_len ck : length (string_notes ck) + 1 <= length (c_dq :: List.concat (List.map piece_text (ck_body ck)) ++ c_dq :: ck_trail ck).
Proof.
  unfold string_notes, trail_notes. rewrite app_length, len_concat, total_map. cbn [length]. rewrite app_length, len_concat, total_map. cbn [length].
  pose proof (total_le (fun x => length (piece_notes x)) (fun x => length (piece_text x)) (ck_body ck)) as H. cbv beta in H.
  assert (X : forall x, In x (ck_body ck) -> length (piece_notes x) <= length (piece_text x)).
  { intros p _. pose proof (piece_text_pos p). destruct p; cbn [piece_notes length]; lia. }
  specialize (H X). destruct (forallb _ _); cbn [length]; lia.
Qed.
Lemma chunk_text_eq ck : length (chunk_text ck) = length (ck_lead ck) + length (c_dq :: List.concat (List.map piece_text (ck_body ck)) ++ c_dq :: ck_trail ck).
Proof. unfold chunk_text. now rewrite app_length. Qed.
Lemma head_notes_len pd ck : length (head_notes pd ck) <= length (chunk_text ck).
Proof. unfold head_notes. rewrite app_length, chunk_text_eq. pose proof (string_notes_len ck). destruct (_ && _); cbn [length] in *; lia. Qed.
Lemma more_notes_len pd ck : length (more_notes pd ck) <= length (chunk_text ck).
Proof. unfold more_notes. rewrite app_length, chunk_text_eq. pose proof (string_notes_len ck). destruct (_ && _); cbn [length] in *; lia. Qed.
Lemma reported_count fn n l ns : log_count (List.map (reported fn n l) ns) = length ns.
Proof. induction ns as [|x ns IH]; [reflexivity|]. cbn [List.map length]. unfold log_count in *. rewrite total_cons, IH. reflexivity. Qed.
Lemma lit_log_len fn pd n kw l : log_count (lit_log fn pd n kw l) + length kw <= texts_size (lit_lines kw l).
Proof.
  unfold lit_log, lit_lines, texts_size. rewrite count_app, reported_count, total_cons, app_length, total_map.
  pose proof (head_notes_len pd (lt_head l)).
  assert (X : forall cks n, log_count (more_log fn pd n cks) <= total (fun x => length (chunk_text x)) cks).
  { induction cks as [|ck cks IH]; intro n'; cbn [more_log]; [cbn; lia|]. rewrite count_app, reported_count, total_cons.
    specialize (IH (n' + 1)%Z). pose proof (more_notes_len pd ck). lia. }
  specialize (X (lt_more l) (n + 1)%Z). lia.
Qed.

(** ** scanning lines *)
Lemma after_space_len t : length (after_space t) <= length t.
Proof. induction t as [|c t IH]; cbn [after_space]; [lia|]. destruct (isspace c); cbn [length]; lia. Qed.
Lemma scan_notes_len b5 t : length (scan_notes b5 t) <= length t.
Proof.
  assert (X : forall k t, length t <= k -> length (scan_notes b5 t) <= length t); [|exact (X _ t (le_n _))].
  induction k as [|k IH]; intros s L; destruct s as [|c s]; cbn [length] in L; try lia; cbn [scan_notes length]; try lia.
  destruct (byte_eqb c c_dq). { unfold trail_notes. destruct (forallb _ _); cbn [length]; lia. }
  destruct (b5 && _). { destruct s as [|c1 s]; cbn [length] in *; [lia|]. specialize (IH s). lia. }
  destruct (byte_eqb c c_bsl); [|specialize (IH s); lia]. destruct s as [|c1 s]; cbn [length] in *; [lia|]. rewrite app_length. specialize (IH s).
  destruct (meaning_of c1 escapes); cbn [length]; lia.
Qed.
Lemma quoted_notes_len b5 t : length (quoted_notes b5 t) <= length t - 1.
Proof.
  unfold quoted_notes. pose proof (after_space_len t). destruct (after_space t) as [|c r]; cbn [length] in *; [lia|]. destruct (byte_eqb c c_dq); cbn [length]; [|lia].
  pose proof (scan_notes_len b5 r). lia.
Qed.
Lemma line_notes_len pd b5 before l : length (line_notes pd b5 before l) <= length l.
Proof.
  assert (C : length (continued_notes pd b5 l) <= length l).
  { unfold continued_notes. rewrite app_length. pose proof (quoted_notes_len b5 l). destruct pd; cbn [andb length]; [|lia].
    destruct (Nat.eqb_spec (length l - length (after_space l)) 1); cbn [length]; lia. }
  unfold line_notes. destruct (has_keyword l).
  - destruct (keyword_in _ _) as [k|]; cbn [length]; [|lia]. unfold keyword_notes. pose proof (skipn_length k l) as S1.
    destruct (Nat.leb_spec (length (skipn k l)) 1); cbn [length]; [lia|]. rewrite app_length. pose proof (quoted_notes_len b5 (skipn k l)).
    destruct (_ && _); cbn [length]; lia.
  - destruct (stage_after before); cbn [length]; lia.
Qed.

(** ** runs *)
Section Run.
  Context {I : iconv_impl}.
  Variable fn : bytes.
  Variables pedantic ndebug : bool.
  (** [f] logs at most [k] messages *)
  Definition within {A} (k : nat) (f : M (world I) A) : Prop :=
    forall w, log_count (w_log (snd (f w))) <= log_count (w_log w) + k.
  Lemma within_le {A} j k (f : M (world I) A) : within j f -> j <= k -> within k f.
  Proof. intros H L w. specialize (H w). lia. Qed.
  Lemma within_ret {A} (a : A) : within 0 (mret a). Proof. intro w. cbn. lia. Qed.
  Lemma within_get {A} (g : world I -> A) : within 0 (mget g). Proof. intro w. cbn. lia. Qed.
  Lemma within_bind {A B} j k (f : M (world I) A) (g : A -> M (world I) B) : within j f -> (forall a, within k (g a)) -> within (j + k) (mbind f g).
  Proof.
    intros F G w. unfold mbind. specialize (F w). destruct (f w) as [[a|e|u| |] w1]; cbn [snd] in *; try lia.
    specialize (G a w1). lia.
  Qed.
  Lemma within_note evs : within (log_count evs) (@note I evs).
  Proof. intro w. unfold note, mmod. cbn [snd w_log]. rewrite count_app. lia. Qed.
  Lemma within_call c : within 0 (@call I c). Proof. intro w. unfold call, mmod. cbn [snd w_log]. lia. Qed.
  Lemma within_calling cs : within 0 (@calling I cs).
  Proof. induction cs as [|c cs IH]; cbn [calling]; [apply within_ret|]. apply (within_bind 0 0); [apply within_call|intros _; exact IH]. Qed.
  Lemma within_converting t : within 1 (@converting I ndebug t).
  Proof.
    intro w. unfold converting, convert. destruct (cv_cd (w_conv w)) as [| |id st]; cbn [snd w_log]; rewrite ?count_app; cbn; try lia.
    destruct (ic_conv I st t _) as [[st' out] err]. destruct err as [[]|]; try destruct ndebug; cbn [snd w_log]; rewrite ?count_app; cbn; lia.
  Qed.
  Lemma within_opening f : within 0 (@opening I f).
  Proof.
    intro w. unfold opening, set_charsets. cbn [andb]. assert (Z : log_count (close_events (cv_cd (w_conv w))) = 0) by (destruct (cv_cd (w_conv w)); reflexivity).
    destruct (bytes_eqb _ _); cbn [snd w_log]; [rewrite count_app; lia|].
    destruct (ic_open I _ _) as [st|[e tx]]; cbn [snd w_log]; rewrite ?count_app; cbn; lia.
  Qed.
  Lemma within_adding op : within 1 (@adding I op).
  Proof.
    unfold adding. apply (within_bind 0 1); [apply within_get|]. intro d. apply (within_bind 1 0); [|intros _; apply within_call].
    eapply within_le; [apply within_note|]. unfold add_log_of. destruct (lookup d (op_key op)) as [old|]; [|cbn; lia].
    destruct (is_nil old); [cbn; lia|]. destruct (forms_dec _ _); cbn; lia.
  Qed.
  Lemma within_lit n kw l : within (texts_size (lit_lines kw l) - length kw) (@note I (lit_log fn pedantic n kw l)).
  Proof. eapply within_le; [apply within_note|]. pose proof (lit_log_len fn pedantic n kw l). lia. Qed.
  Lemma within_rows rows : forall n, within (texts_size (List.concat (List.map row_lines rows))) (@rows_do I fn pedantic ndebug n rows).
  Proof.
    induction rows as [|[i l] rows IH]; intro n; cbn [rows_do List.map List.concat]; [apply within_ret|].
    set (K := bs "msgstr[" ++ [digit_of i; c_rbr]). assert (L : length K = 9) by reflexivity.
    change (row_lines (i, l)) with (lit_lines K l).
    eapply within_le; [apply within_bind; [apply within_lit|intros _; apply within_bind; [apply within_converting|intro v; apply within_bind; [apply IH|intro vs; apply within_ret]]]|].
    unfold texts_size. rewrite total_app. fold (texts_size (lit_lines K l)). pose proof (lit_log_len fn pedantic n K l). unfold texts_size in *. lia.
  Qed.
  Lemma hdr_line_note d l : length (hdr_line_notes d l) <= 1.
  Proof.
    unfold hdr_line_notes. destruct (starts_with (bs "Content-Type:") l); [destruct (after _ _); cbn; lia|].
    destruct (starts_with (bs "Plural-Forms:") l); [|cbn; lia]. destruct (hdr_plural l); [cbn; lia|]. destruct (pf_valid _); [|cbn; lia]. destruct (plural_forms_dec _ _); cbn; lia.
  Qed.
  Lemma hdr_notes_len ls : forall d, length (hdr_lines_notes d ls) <= length ls.
  Proof. induction ls as [|l ls IH]; intro d; cbn [hdr_lines_notes length]; [lia|]. rewrite app_length. pose proof (hdr_line_note d l). specialize (IH (fold_left apply_call (List.map CallPlural (hdr_plural l)) d)). lia. Qed.
  Lemma charset_note h : length (charset_notes h) <= 1.
  Proof. unfold charset_notes. destruct (last_some _ _) as [cs|]; [destruct (_ || _); cbn; lia|cbn; lia]. Qed.
  Lemma within_header n next h : within (S (length h)) (@header_do I fn n next h).
  Proof.
    unfold header_do. apply (within_bind 0 (S (length h))); [apply within_get|]. intro d.
    eapply within_le; [apply within_bind; [apply within_note|intros _; apply within_bind; [apply within_calling|intros _; apply within_opening]]|].
    rewrite reported_count, app_length. pose proof (hdr_notes_len (hdr_lines h) d). pose proof (charset_note h). pose proof (hdr_lines_len h []). unfold hdr_lines in *. lia.
  Qed.
  Lemma within_body n next c id b : within (2 * texts_size (body_lines b)) (@body_do I fn pedantic ndebug n next c id b).
  Proof.
    destruct b as [m|p rows]; cbn [body_do body_lines].
    - pose proof (lit_size (bs "msgstr") m) as S1. assert (L : length (bs "msgstr") = 6) by reflexivity. rewrite L in S1.
      eapply within_le; [apply within_bind; [apply within_lit|intros _]|].
      + instantiate (1 := S (length (lit_value m)) + 1). destruct (is_nil id); [eapply within_le; [apply within_header|lia]|].
        destruct (is_nil (lit_value m)); [eapply within_le; [apply within_ret|lia]|].
        eapply within_le; [apply (within_bind 1 1); [apply within_converting|intro v; apply within_adding]|lia].
      + rewrite L. lia.
    - pose proof (lit_size (bs "msgid_plural") p) as S1. assert (L : length (bs "msgid_plural") = 12) by reflexivity. rewrite L in S1.
      eapply within_le; [apply within_bind; [apply within_lit|intros _; apply within_bind; [apply within_rows|intro vs]]|].
      + instantiate (1 := 2). destruct (forallb _ rows); [eapply within_le; [apply within_ret|lia]|].
        apply (within_bind 0 2); [apply within_get|]. intro d. apply (within_bind 1 1); [|intros _; apply within_adding].
        eapply within_le; [apply within_note|]. rewrite reported_count. unfold count_notes. destruct (negb (pf_valid _)); [cbn; lia|]. destruct (negb _); cbn; lia.
      + rewrite L. unfold texts_size in *. rewrite total_app. lia.
  Qed.
  Lemma within_block n next b : within (2 * texts_size (block_lines b)) (@block_do I fn pedantic ndebug n next b).
  Proof.
    unfold block_do, block_lines. unfold texts_size. rewrite total_app. destruct (bl_entry b) as [e|]; [|eapply within_le; [apply within_ret|lia]].
    unfold entry_do, entry_lines. rewrite !total_app.
    assert (C : within (texts_size (ctxt_lines (en_ctxt e))) (@note I (ctxt_log fn pedantic (n + len (bl_comments b)) (en_ctxt e)))).
    { destruct (en_ctxt e) as [l|]; cbn [ctxt_lines ctxt_log]; [eapply within_le; [apply within_lit|lia]|apply within_note]. }
    eapply within_le; [apply within_bind; [exact C|intros _; apply within_bind; [apply within_lit|intros _; apply within_body]]|].
    unfold texts_size. lia.
  Qed.
  Lemma within_lines b5 next ls : forall n before, within (weight ls) (@lines_do I fn pedantic ndebug b5 n before next ls).
  Proof.
    induction ls as [|l ls IH]; intros n before; cbn [lines_do]; [apply within_ret|]. rewrite weight_cons.
    eapply within_le; [apply within_bind; [apply within_note|intros _; apply within_bind; [|intros _; apply IH]]|].
    - instantiate (1 := 1). destruct (stage_after (before ++ [l])); try (eapply within_le; [apply within_ret|lia]).
      destruct (has_keyword _); [|eapply within_le; [apply within_ret|lia]]. apply (within_bind 1 0); [apply within_converting|intros _; apply within_ret].
    - rewrite reported_count. pose proof (line_notes_len pedantic b5 before l). lia.
  Qed.
  Lemma within_seg b5 n sg m : within (2 * weight (seg_lines sg)) (@seg_do I fn pedantic ndebug b5 n sg m).
  Proof.
    unfold seg_do. destruct sg as [b sep|b x sk|pre x sk]; cbn [seg_lines]; rewrite weight_app, weight_cons.
    - eapply within_le; [apply within_bind; [apply within_block|intros _; apply within_ret]|]. unfold weight. lia.
    - eapply within_le; [apply within_bind; [apply within_block|intros _]|].
      + instantiate (1 := 1). destruct m; [exact (within_note [_])|eapply within_le; [apply within_ret|lia]].
      + unfold weight. lia.
    - eapply within_le; [apply within_bind; [apply within_bind; [apply within_lines|intros _; apply within_note]|intros _]|].
      + instantiate (1 := 1). destruct m; [exact (within_note [_])|eapply within_le; [apply within_ret|lia]].
      + rewrite reported_count. pose proof (line_notes_len pedantic b5 pre x). lia.
  Qed.
  Lemma within_segs sgs : forall b5 n ms, within (2 * weight (segs_lines sgs)) (@segs_do I fn pedantic ndebug b5 n sgs ms).
  Proof.
    induction sgs as [|sg sgs IH]; intros b5 n ms; cbn [segs_do]; [apply within_ret|]. destruct ms as [|m ms]; [eapply within_le; [apply within_ret|lia]|].
    unfold segs_lines in *. cbn [List.map List.concat]. rewrite weight_app. eapply within_le; [apply within_bind; [apply within_seg|intros _; apply IH]|]. lia.
  Qed.
End Run.
