(** Damaged entries. *)
From Verif.Model Require Import Base Log PluralForms Dictionary IConv Stream PoParser.
From Verif.Spec Require Import ParserSpec PoSpec.
From Verif.Proofs Require Import BaseFacts DictProofs LexProofs ParserUnary DocLex ParserRel ParserSafe ParserFuel ParserLocal
  ParserCut ParserBlank ParserTerm ParserLinewise ParserMisc DocProofs DocLoop DocTop DocEnd.
Local Open Scope list_scope.

Section Damage.
  Variable cf : config.
  Variable fn : bytes.
  Local Notation I := (cf_iconv cf).
  Local Notation P := (M (pst I)).
  Local Notation st := (cf_strict cf).
  Local Notation nd := (cf_ndebug cf).
  Local Notation sees := (sees cf).
  Local Open Scope mon_scope.

  Lemma blank_no_msg l : is_blank l -> starts_with (bs "msg") l = false.
  Proof.
    intro H. apply not_true_iff_false. intro K. apply (pquote_letter st) in K as [_ K]. rewrite (pempty_blank st l H) in K. discriminate.
  Qed.
  Lemma blank_no_kw kw l : is_blank l -> starts_with (bs "msg" ++ kw) l = false.
  Proof.
    intro H. apply not_true_iff_false. intro K. apply starts_with_spec in K as [u ->]. pose proof (blank_no_msg _ H) as X.
    rewrite <- app_assoc, starts_with_app in X. discriminate.
  Qed.

  Lemma recover_run l0 vl rest c b5 cs k : forall f s,
    sees [] (l0 :: vl ++ rest) c b5 cs k s -> Forall (fun l => pempty st l = Some false) vl -> is_blank (hd [] rest) ->
    gets cf (recover cf f s) tt (sees [] rest c b5 cs k).
  Proof.
    revert l0. induction vl as [|v vl IH]; intros l0 f s H Hv Hb; (destruct f as [|f]; [left; reflexivity|]); cbn [app] in H;
      apply sees_next in H; rewrite recover_S, mget_bind.
    - destruct rest as [|r rest].
      + assert (E : p_eof (nextst s) = true) by (destruct H as [(_ & _ & _ & _ & ->) _]; reflexivity). rewrite E. apply gets_ret. exact H.
      + rewrite (sees_eof _ _ _ _ _ _ _ _ _ H). unfold mbind. rewrite is_empty_line_eq, (sees_cur _ _ _ _ _ _ _ _ H).
        rewrite (pempty_blank st _ Hb). cbn [run_opt]. unfold mret; cbv beta iota. apply gets_ret. exact H.
    - inversion Hv; subst. rewrite (sees_eof _ _ _ _ _ _ _ _ _ H). unfold mbind. rewrite is_empty_line_eq, (sees_cur _ _ _ _ _ _ _ _ H).
      cbn [hd]. rewrite H2. cbn [run_opt]. unfold mret; cbv beta iota. eapply IH; eauto.
  Qed.
  Definition errs {A} (r : outcome A * pst I) rest c b5 cs k : Prop :=
    ok cf r (fun o s' => o = Exn ExPo /\ sees [] rest c b5 cs k s').
  Lemma error_run {A} m l0 vl rest c b5 cs k s :
    sees [] (l0 :: vl ++ rest) c b5 cs k s -> Forall (fun l => pempty st l = Some false) vl -> is_blank (hd [] rest) ->
    errs (@error cf fn A m s) rest c b5 cs k.
  Proof.
    intros H Hv Hb. unfold error. rewrite mget_bind. unfold emit. rewrite mmod_bind.
    match goal with |- errs (mbind (recover cf ?f) _ ?s0) _ _ _ _ _ => pose proof (recover_run l0 vl rest c b5 cs k f s0 H Hv Hb) as R;
      unfold mbind; destruct (recover cf f s0) as [o s'] end.
    destruct R as [R|[R1 R2]]; cbn [fst snd] in *; subst o; [left; reflexivity|right]. split; [reflexivity|exact R2].
  Qed.
  Lemma bind_errs {A B} (m : P A) (f : A -> P B) s rest c b5 cs k : errs (m s) rest c b5 cs k -> errs (mbind m f s) rest c b5 cs k.
  Proof.
    intros [H|[H1 H2]]; unfold mbind; destruct (m s) as [o s']; cbn [fst snd] in *; subst o; [left; reflexivity|right]. auto.
  Qed.
  Lemma bind_gets_errs {A B} (m : P A) (f : A -> P B) s a (S : pst I -> Prop) rest c b5 cs k :
    gets cf (m s) a S -> (forall s', S s' -> errs (f a s') rest c b5 cs k) -> errs (mbind m f s) rest c b5 cs k.
  Proof. intros G H. unfold errs. eapply bind_gets; [exact G|exact H]. Qed.

  Lemma blank_stops l : is_blank l -> stops cf l.
  Proof. apply pquote_blank. Qed.

  Lemma damaged_run x sep vl rest c b5 cs k fz s :
    sees [] (damaged_lines x ++ sep :: vl ++ rest) c b5 cs k s -> damaged_ok st b5 x -> is_blank sep ->
    Forall (fun l => pempty st l = Some false) vl -> is_blank (hd [] rest) ->
    errs (entry cf fn true fz s) rest c b5 cs k.
  Proof.
    intros H Hx Hsep Hv Hb.
    assert (A : forall A B (m : P bool) (f : bool -> P A) (g : A -> P B) x, (b <- m;; a <- f b;; g a) x = (a <- (b <- m;; f b);; g a) x).
    { intros. unfold mbind. destruct (m x0) as [[]]; reflexivity. }
    destruct x as [cx|cx i|cx i p]; cbn [damaged_lines damaged_ok] in *.
    - unfold entry. unfold prefix at 1. rewrite mget_bind, (sees_cur _ _ _ _ _ _ _ _ H), lit_hd.
      eapply (bind_gets_errs _ _ _ (Some (lit_value cx))).
      + eapply bind_gets_gets.
        * apply (get_literal cf fn (bs "msgctxt") 7 [] _ c b5 cs k cx s eq_refl H Hx). cbn [hd]. now apply blank_stops.
        * intros s' H'. apply gets_ret. exact H'.
      + intros s1 H1. unfold prefix at 1. rewrite mget_bind, (sees_cur _ _ _ _ _ _ _ _ H1). cbn [hd].
        change (bs "msgid") with (bs "msg" ++ bs "id"). rewrite (blank_no_kw _ _ Hsep). apply bind_errs. eapply error_run; eauto.
    - assert (G1 : gets cf ((hc <- prefix cf (bs "msgctxt");; (if hc then c0 <- get_string cf fn 7;; mret (Some c0) else mret None)) s)
                   (opt_value cx) (sees [] (lit_lines (bs "msgid") i ++ sep :: vl ++ rest) c b5 cs k)).
      { rewrite <- app_assoc in H. unfold prefix. rewrite mget_bind, (sees_cur _ _ _ _ _ _ _ _ H). destruct cx as [l|]; cbn [ctxt_lines opt_value] in *.
        - rewrite lit_hd. eapply bind_gets_gets.
          + apply (get_literal cf fn (bs "msgctxt") 7 [] _ c b5 cs k l s eq_refl H (proj1 Hx)). eapply id_stops, Hx.
          + intros s' H'. apply gets_ret. exact H'.
        - cbn [app]. cbn [lit_lines app hd]. apply gets_ret. exact H. }
      unfold entry. rewrite A. eapply bind_gets_errs; [exact G1|]. intros s1 H1.
      unfold prefix at 1. rewrite mget_bind, (sees_cur _ _ _ _ _ _ _ _ H1), lit_hd.
      eapply bind_gets_errs; [apply (get_literal cf fn (bs "msgid") 5 [] _ c b5 cs k _ s1 eq_refl H1 (proj2 Hx)); now apply blank_stops|].
      intros s2 H2. unfold prefix at 1. rewrite mget_bind, (sees_cur _ _ _ _ _ _ _ _ H2). cbn [hd].
      change (bs "msgid_plural") with (bs "msg" ++ bs "id_plural"). rewrite (blank_no_kw _ _ Hsep).
      unfold prefix at 1. rewrite mget_bind, (sees_cur _ _ _ _ _ _ _ _ H2). cbn [hd].
      change (starts_with (bs "msgstr") sep) with (starts_with (bs "msg" ++ bs "str") sep). rewrite (blank_no_kw _ _ Hsep).
      eapply error_run; eauto.
    - destruct Hx as (Hx1 & Hx2 & Hx3).
      assert (G1 : gets cf ((hc <- prefix cf (bs "msgctxt");; (if hc then c0 <- get_string cf fn 7;; mret (Some c0) else mret None)) s)
                   (opt_value cx) (sees [] (lit_lines (bs "msgid") i ++ lit_lines (bs "msgid_plural") p ++ sep :: vl ++ rest) c b5 cs k)).
      { rewrite <- !app_assoc in H. unfold prefix. rewrite mget_bind, (sees_cur _ _ _ _ _ _ _ _ H). destruct cx as [l|]; cbn [ctxt_lines opt_value] in *.
        - rewrite lit_hd. eapply bind_gets_gets.
          + apply (get_literal cf fn (bs "msgctxt") 7 [] _ c b5 cs k l s eq_refl H Hx1). eapply id_stops, Hx2.
          + intros s' H'. apply gets_ret. exact H'.
        - cbn [app]. cbn [lit_lines app hd]. apply gets_ret. exact H. }
      unfold entry. rewrite A. eapply bind_gets_errs; [exact G1|]. intros s1 H1.
      unfold prefix at 1. rewrite mget_bind, (sees_cur _ _ _ _ _ _ _ _ H1), lit_hd.
      eapply bind_gets_errs; [apply (get_literal cf fn (bs "msgid") 5 [] _ c b5 cs k _ s1 eq_refl H1 Hx2); apply msg_stops, kw_msg; reflexivity|].
      intros s2 H2. unfold prefix at 1. rewrite mget_bind, (sees_cur _ _ _ _ _ _ _ _ H2), lit_hd. unfold plural_entry.
      eapply bind_gets_errs; [apply (get_literal cf fn (bs "msgid_plural") 12 [] _ c b5 cs k _ s2 eq_refl H2 Hx3); now apply blank_stops|].
      intros s3 H3. apply bind_errs. destruct (cf_fuel cf) as [|f]; [left; reflexivity|]. cbn [msgstr_loop].
      unfold mbind at 1. rewrite is_empty_line_eq, (sees_cur _ _ _ _ _ _ _ _ H3). cbn [hd]. rewrite (pempty_blank st _ Hsep). cbn [run_opt].
      unfold mret at 1; cbv beta iota. cbn [is_nil]. eapply error_run; eauto.
  Qed.

  Lemma damaged_loop cm x sep vl D c b5 cs k f s :
    sees [] (cm ++ damaged_lines x ++ sep :: vl ++ doc_lines D) c b5 cs k s ->
    Forall is_comment cm -> damaged_ok st b5 x -> is_blank sep ->
    Forall (fun l => pempty st l = Some false) vl -> is_blank (hd [] (doc_lines D)) ->
    leads cf fn f s (sees [] (doc_lines D) c b5 cs k).
  Proof.
    intros H Hc Hx Hsep Hv Hb.
    assert (Hm : starts_with (bs "msg") (hd [] (damaged_lines x ++ sep :: vl ++ doc_lines D)) = true).
    { destruct x as [?|[?|] ?|[?|] ? ?]; reflexivity. }
    assert (E : errs (block cf fn true s) (doc_lines D) c b5 cs k).
    { destruct (block_to_entry cf fn _ _ _ _ _ _ _ _ H Hc Hm) as [K|(fz & s' & -> & H')]; [left; exact K|].
      apply bind_errs. eapply damaged_run; eauto. }
    assert (Ee : p_eof s = false).
    { destruct cm as [|l cm]; cbn [app] in H; [|eapply sees_eof, H].
      destruct (damaged_lines x) as [|l ls] eqn:El; cbn [app] in H; eapply sees_eof, H. }
    destruct f as [|f]; [left; reflexivity|]. unfold leads. rewrite (loop_step cf fn f s Ee). unfold mbind, try_block.
    destruct (block cf fn true s) as [o s']. destruct E as [E|[E1 E2]]; cbn [fst snd] in *; subst o; [left; reflexivity|].
    right. exists f, s'. split; [reflexivity|exact E2].
  Qed.

End Damage.

(** ** The lines of the entry after the damaged one *)
Lemma chunk_not_empty strict b5 ck : chunk_ok strict b5 ck -> pempty strict (chunk_text ck) = Some false.
Proof.
  intros (Hw & _). unfold chunk_text. destruct (ck_lead ck) as [|x w] eqn:El.
  - cbn [app]. unfold pempty. change (byte_eqb c_dq c_hash) with false. cbv iota. cbn [pall_space]. unfold pctype.
    change (hi c_dq) with false. rewrite andb_false_r. reflexivity.
  - cbn [app]. unfold pempty. inversion Hw as [|? ? Hx Hw']; subst. destruct (space_facts x Hx) as (_ & _ & ->).
    assert (K : forall w r, white w -> pall_space strict (w ++ c_dq :: r) = Some false).
    { clear. induction w as [|y w IH]; intros r H; cbn [app pall_space].
      - unfold pctype. change (hi c_dq) with false. rewrite andb_false_r. reflexivity.
      - inversion H; subst. unfold pctype. destruct (space_facts y H2) as (Hh & _). rewrite Hh, andb_false_r, H2. apply IH, H3. }
    apply (K (x :: w)). exact Hw.
Qed.
Lemma lit_not_empty strict b5 kw l : starts_with (bs "msg") kw = true -> lit_ok strict b5 l ->
  Forall (fun l => pempty strict l = Some false) (lit_lines kw l).
Proof.
  intros Hk H. inversion H as [|? ? Hh Hm]; subst. unfold lit_lines. constructor.
  - apply (pquote_letter strict). apply starts_with_spec in Hk as [u ->]. rewrite <- app_assoc. apply starts_with_app.
  - rewrite Forall_map. eapply Forall_impl; [|exact Hm]. intros a. apply chunk_not_empty.
Qed.
Lemma entry_not_empty_lines strict b5 e : entry_ok strict b5 e -> Forall (fun l => pempty strict l = Some false) (entry_lines e).
Proof.
  intros (Hc & Hi & Hb & _). unfold entry_lines. apply Forall_app. split.
  - destruct (en_ctxt e); cbn [ctxt_lines]; [eapply lit_not_empty; [reflexivity|exact Hc]|constructor].
  - apply Forall_app. split; [eapply lit_not_empty; [reflexivity|exact Hi]|]. destruct (en_body e) as [m|p rows]; cbn [body_lines body_ok] in *.
    + eapply lit_not_empty; [reflexivity|exact Hb].
    + destruct Hb as (Hp & _ & Hr). apply Forall_app. split; [eapply lit_not_empty; [reflexivity|exact Hp]|].
      apply Forall_concat. rewrite Forall_map. eapply Forall_impl; [|exact Hr]. intros [n l] [_ Hl]. eapply lit_not_empty; [reflexivity|exact Hl].
Qed.
Lemma solid_not_empty strict l : solid_comment strict l -> pempty strict l = Some false.
Proof.
  intros (x & l' & -> & _ & Hx & Hc). unfold pempty. change (byte_eqb c_hash c_hash) with true. cbv iota. unfold pctype.
  destruct strict; cbn [andb].
  - specialize (Hc eq_refl). cbn in Hc. rewrite orb_false_r in Hc. rewrite Hc, Hx. reflexivity.
  - rewrite Hx. reflexivity.
Qed.
Lemma solid_good strict l : solid_comment strict l -> good_line l.
Proof.
  intros (x & l' & -> & H & _). apply good_head; [discriminate|]. intros [E|E]; [discriminate|]. exact (H E).
Qed.

Theorem parse_damaged cf fn B cm x sep vcm e D d r :
  let b5 := big5_end false (blocks_entries B) in
  Forall (fun b => Forall is_comment (bl_comments (fst b)) /\ separator_ok (fst b) (snd b)) B ->
  Forall is_comment cm -> damaged_ok (cf_strict cf) b5 x -> is_blank sep ->
  Forall (solid_comment (cf_strict cf)) vcm -> entry_ok (cf_strict cf) b5 e ->
  Forall (fun b => Forall is_comment (bl_comments (fst b)) /\ separator_ok (fst b) (snd b)) (dc_blocks D) ->
  Forall is_comment (bl_comments (dc_last D)) ->
  entries_ok (cf_strict cf) false (blocks_entries B ++ doc_entries D) ->
  is_blank (hd [] (doc_lines D)) ->
  clean (cf_strict cf) (d_charset d) ->
  parses_to cf fn (stream_of (unlines (blocks_lines B ++ cm ++ damaged_lines x ++ sep :: vcm ++ entry_lines e ++ doc_lines D))) d r ->
  let m := read_entries (cf_ndebug cf) (d_charset d) (iconv_new (cf_iconv cf)) (blocks_entries B ++ doc_entries D) in
  pr_outcome r = fst (fst m) /\ pr_calls r = snd m.
Proof.
  intros b5 HB Hcm Hx Hsep Hvc He HD1 HD2 Hes Hbl Hcs P. cbv zeta.
  apply entries_ok_app in Hes as [He1 He2]. fold b5 in He2.
  set (ls := blocks_lines B ++ _) in P.
  assert (G : Forall good_line ls).
  { unfold ls. apply Forall_app. split; [eapply blocks_good; eauto|]. apply Forall_app. split; [eapply Forall_impl; [|exact Hcm]; apply comment_good|].
    apply Forall_app. split.
    { destruct x as [c|c i|c i p]; cbn [damaged_lines damaged_ok] in *.
      - eapply lit_good; [reflexivity|apply concrete_one_line; reflexivity|exact Hx].
      - apply Forall_app. split; [eapply ctxt_good, Hx|]. eapply lit_good; [reflexivity|apply concrete_one_line; reflexivity|apply Hx].
      - apply Forall_app. split; [eapply ctxt_good, Hx|]. apply Forall_app.
        split; (eapply lit_good; [reflexivity|apply concrete_one_line; reflexivity|apply Hx]). }
    constructor; [now apply blank_good|]. apply Forall_app. split; [eapply Forall_impl; [|exact Hvc]; apply solid_good|].
    apply Forall_app. split; [eapply entry_good, He|].
    unfold doc_lines. fold (blocks_lines (dc_blocks D)). unfold doc_entries in He2. apply entries_ok_app in He2 as [He2 He3].
    apply Forall_app. split; [eapply blocks_good; eauto|].
    eapply (block_good (cf_strict cf)); [exact HD2|]. destruct (bl_entry (dc_last D)); [apply He3|exact Logic.I]. }
  refine (ends_parse cf fn (unlines ls) d r _ _ _ P). intro n.
  pose proof (started_sees cf ls [] d G nil_good) as S. rewrite app_nil_r in S.
  set (s := started cf (unlines ls) d) in *. change (d_charset d) with (d_charset d) in *.
  set (rest := cm ++ damaged_lines x ++ sep :: vcm ++ entry_lines e ++ doc_lines D) in *.
  pose proof (blocks_loop (with_fuel cf n) fn [] rest (d_charset d) B (iconv_new (cf_iconv cf)) false [] n s S HB He1 Hcs) as L.
  change (cf_ndebug (with_fuel cf n)) with (cf_ndebug cf) in L.
  rewrite (read_entries_app cf).
  change (cf_iconv (with_fuel cf n)) with (cf_iconv cf) in L.
  destruct (read_entries (cf_ndebug cf) (d_charset d) (iconv_new (cf_iconv cf)) (blocks_entries B)) as [[o c'] calls].
  destruct o as [y|e0|u| |]; cbn [fst snd]; try (apply (fails_ends (with_fuel cf n)); exact L).
  eapply (leads_ends (with_fuel cf n)); [exact L|]. intros f' s' H'.
  eapply (leads_ends (with_fuel cf n)).
  - refine (damaged_loop (with_fuel cf n) fn cm x sep (vcm ++ entry_lines e) D c' b5 (d_charset d) calls f' s' _ Hcm Hx Hsep _ Hbl).
    + rewrite <- app_assoc. exact H'.
    + apply Forall_app. split; [eapply Forall_impl; [|exact Hvc]; apply solid_not_empty|]. eapply entry_not_empty_lines, He.
  - intros f2 s2 H2.
    pose proof (doc_loop (with_fuel cf n) fn D c' b5 (d_charset d) calls f2 s2 H2 (conj HD1 (conj HD2 He2)) Hcs) as R.
    change (cf_ndebug (with_fuel cf n)) with (cf_ndebug cf) in R. change (cf_iconv (with_fuel cf n)) with (cf_iconv cf) in R.
    destruct (read_entries (cf_ndebug cf) (d_charset d) c' (doc_entries D)) as [[o2 c2] calls2]. exact R.
Qed.
