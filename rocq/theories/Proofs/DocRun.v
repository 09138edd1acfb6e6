(** What a parse of an arbitrary complete file does, whatever the converter does. *)
From Verif.Model Require Import Base Log PluralForms Dictionary IConv Stream PoParser.
From Verif.Spec Require Import DictSpec ParserSpec PoSpec SoundSpec.
From Verif.Proofs Require Import BaseFacts DictProofs LexProofs ParserUnary DocLex ParserRel ParserSafe ParserFuel ParserLocal
  ParserCut ParserBlank ParserTerm ParserLinewise ParserMisc ParserSaid DocProofs DocLoop DocSound.
From Verif.Proofs Require DocTop DocLog Numbers.
From Verif.Spec Require DiagSpec.
From Verif.Spec Require Import DamageSpec FullSpec RunSpec.
From Verif.Proofs Require Import DocComplaint DocExact DocUnique DocFull.
Local Open Scope list_scope.
Local Notation len := DiagSpec.len.

Section Run.
  Variable cf : config.
  Variable fn : bytes.
  Local Notation I := (cf_iconv cf).
  Local Notation P := (M (pst I)).
  Local Notation A := (M (world I)).
  Local Notation pd := (cf_pedantic cf).
  Local Notation nd := (cf_ndebug cf).
  Local Open Scope mon_scope.
  Ltac sv := cbn [st_tr st_dict st_conv st_big5 st_cur st_line p_in p_dict p_eof p_big5 p_line p_cur p_conv p_tr p_calls] in *.
  Hypothesis Hst : cf_strict cf = false.

  Definition wof (s : pst I) : world I := {| w_conv := p_conv s; w_dict := p_dict s; w_calls := p_calls s; w_log := p_tr s |}.
  Definition noted (w : world I) (evs : list event) : world I :=
    {| w_conv := w_conv w; w_dict := w_dict w; w_calls := w_calls w; w_log := w_log w ++ evs |}.
  Definition at_w (n : Z) (ls : list bytes) (b5 : bool) (w : world I) (s : pst I) : Prop :=
    DocLog.at_v cf (fun c k => c = w_conv w /\ k = w_calls w) n ls b5 (w_dict w) (w_log w) s.
  Lemma at_wof n ls b5 w s : at_w n ls b5 w s -> wof s = w.
  Proof. intros (_ & [H1 H2] & _ & H3 & _ & H4). unfold wof. rewrite H1, H2, H3, H4. destruct w; reflexivity. Qed.
  Lemma wof_at n ls b5 w s : pos cf [] ls s -> p_big5 s = b5 -> p_line s = n -> wof s = w -> at_w n ls b5 w s.
  Proof. intros H1 H2 H3 <-. unfold at_w, DocLog.at_v, wof. cbn [w_conv w_dict w_calls w_log]. auto 10. Qed.
  Lemma at_hd n ls b5 w s : at_w n ls b5 w s -> p_cur s = hd [] ls.
  Proof. exact (DocLog.at_cur cf _ _ _ _ _ _). Qed.

  (** ** The parser does what the description does *)
  Definition ran {T} (r : outcome T * pst I) (x : outcome T * world I) (Q : world I -> pst I -> Prop) : Prop :=
    fst r = OutOfFuel \/ (fst r = fst x /\ wof (snd r) = snd x /\ forall a, fst x = Ret a -> Q (snd x) (snd r)).
  Lemma ran_ret T (a : T) s w n ls b5 : at_w n ls b5 w s -> ran (mret a s) (mret a w) (at_w n ls b5).
  Proof. intro H. right. unfold mret. cbn [fst snd]. split; [reflexivity|]. split; [exact (at_wof _ _ _ _ _ H)|]. intros _ _. exact H. Qed.
  Lemma ran_bind S T (m : P S) (f : S -> P T) (x : A S) (g : S -> A T) s w (Q1 Q2 : world I -> pst I -> Prop) :
    ran (m s) (x w) Q1 -> (forall a s1 w1, x w = (Ret a, w1) -> Q1 w1 s1 -> ran (f a s1) (g a w1) Q2) -> ran (mbind m f s) (mbind x g w) Q2.
  Proof.
    intros [H|(H1 & H2 & H3)] Hf; unfold mbind.
    - left. destruct (m s) as [o s1]. cbn [fst] in H. subst o. reflexivity.
    - destruct (m s) as [o s1], (x w) as [o' w1]. cbn [fst snd] in *. subst o' w1. destruct o as [a|e|u| |].
      + exact (Hf a s1 _ eq_refl (H3 a eq_refl)).
      + right. cbn [fst snd]. split; [reflexivity|]. split; [reflexivity|discriminate].
      + right. cbn [fst snd]. split; [reflexivity|]. split; [reflexivity|discriminate].
      + right. cbn [fst snd]. split; [reflexivity|]. split; [reflexivity|discriminate].
      + left. reflexivity.
  Qed.
  Lemma ran_eq T r r' (x x' : outcome T * world I) Q : r = r' -> x = x' -> ran r' x' Q -> ran r x Q.
  Proof. intros -> ->. auto. Qed.
  Lemma ran_mono T r (x : outcome T * world I) (Q Q' : world I -> pst I -> Prop) : ran r x Q -> (forall w s, Q w s -> Q' w s) -> ran r x Q'.
  Proof. intros [H|(H1 & H2 & H3)] HQ; [left; exact H|right]. split; [exact H1|]. split; [exact H2|]. intros a E. apply HQ, (H3 a E). Qed.
  (** steps that only write to the log *)
  Lemma gets_ran T (m : P T) a evs s w n' ls' b5' :
    gets cf (m s) a (DocLog.at_v cf (fun c k => c = w_conv w /\ k = w_calls w) n' ls' b5' (w_dict w) (w_log w ++ evs)) ->
    ran (m s) ((note evs;; mret a) w) (at_w n' ls' b5').
  Proof.
    intros [H|[H1 H2]]; [left; exact H|right]. change ((note evs;; mret a) w) with (Ret a, noted w evs). cbn [fst snd].
    assert (X : at_w n' ls' b5' (noted w evs) (snd (m s))) by exact H2. split; [exact H1|]. split; [exact (at_wof _ _ _ _ _ X)|]. intros _ _. exact X.
  Qed.
  Lemma note_bind T evs (g : unit -> A T) w : mbind (note evs) g w = g tt (noted w evs).
  Proof. reflexivity. Qed.
  Lemma noted_app w a b : noted (noted w a) b = noted w (a ++ b).
  Proof. unfold noted. cbn [w_conv w_dict w_calls w_log]. rewrite app_assoc. reflexivity. Qed.
  Lemma noted_nil w : noted w [] = w.
  Proof. unfold noted. rewrite app_nil_r. destruct w; reflexivity. Qed.
  Lemma at_big n ls b5 w s : at_w n ls b5 w s -> p_big5 s = b5. Proof. intro H. apply H. Qed.
  Lemma at_dict n ls b5 w s : at_w n ls b5 w s -> p_dict s = w_dict w. Proof. intro H. apply H. Qed.

  (** a string and what comes after it *)
  Lemma lit_ran T kw skip rest b5 l n s w (f : bytes -> P T) (x : A T) Q :
    skip = length kw -> at_w n (lit_lines kw l ++ rest) b5 w s -> lit_ok (cf_strict cf) b5 l -> stops cf (hd [] rest) ->
    (forall s1 w1, w1 = noted w (DiagSpec.lit_log fn pd n kw l) -> at_w (n + len (lit_lines kw l)) rest b5 w1 s1 -> ran (f (lit_value l) s1) (x w1) Q) ->
    ran (mbind (get_string cf fn skip) f s) ((note (DiagSpec.lit_log fn pd n kw l);; x) w) Q.
  Proof.
    intros Hs H Hl Hstop Hx. rewrite note_bind. pose proof (DocLog.lit_log_ok cf fn kw skip rest b5 _ l n _ s Hs H Hl Hstop) as [G|[G1 G2]]; unfold mbind.
    - left. destruct (get_string cf fn skip s) as [o s1]. cbn [fst] in G. subst o. reflexivity.
    - destruct (get_string cf fn skip s) as [o s1]. cbn [fst snd] in G1, G2. subst o. apply Hx; [reflexivity|]. exact G2.
  Qed.
  Lemma convert_ran text n ls b5 s w : at_w n ls b5 w s -> ran (do_convert cf text s) (converting nd text w) (at_w n ls b5).
  Proof.
    intro H. pose proof (at_wof _ _ _ _ _ H) as Hw. right. unfold do_convert, converting. destruct H as (H1 & [H2 H3] & H4 & H5 & H6 & H7). rewrite H2.
    destruct (convert nd (w_conv w) text) as [[o c] ev]. cbn [fst snd]. split; [reflexivity|].
    assert (X : wof (st_tr (st_conv s c) (p_tr s ++ ev)) = {| w_conv := c; w_dict := w_dict w; w_calls := w_calls w; w_log := w_log w ++ ev |}).
    { unfold wof. sv. rewrite H3, H5, H7. reflexivity. }
    split; [exact X|]. intros a _. apply wof_at; [exact H1|exact H4|exact H6|exact X].
  Qed.
  Lemma add_ran op n ls b5 s w : at_w n ls b5 w s -> ran (dict_add cf op s) (adding op w) (at_w n ls b5).
  Proof.
    intros (H1 & [H2 H3] & H4 & H5 & H6 & H7). right. unfold dict_add, adding. rewrite !mget_bind. unfold emit, note. rewrite !mmod_bind. unfold dict_call_, call, mmod.
    cbn [fst snd]. set (s' := st_dict _ _ _). split; [reflexivity|].
    assert (X : wof s' = {| w_conv := w_conv w; w_dict := apply_call (w_dict w) (CallAdd op); w_calls := w_calls w ++ [CallAdd op]; w_log := w_log w ++ DiagSpec.add_log_of (w_dict w) op |}).
    { unfold wof, s'. sv. rewrite H2, H3, H5, H7, DocLog.add_log_exact. reflexivity. }
    split; [exact X|]. intros _ _. apply wof_at; [exact H1|exact H4|exact H6|exact X].
  Qed.
  Lemma warn_ran w0 n ls b5 s w : at_w n ls b5 w s -> at_w n ls b5 (noted w [DiagSpec.reported fn n (hd [] ls) w0]) (warned cf fn w0 s).
  Proof. exact (DocLog.at_warned cf fn _ _ _ _ _ _ _ w0). Qed.
  (** ** The header *)
  Lemma calling_eq cs : forall w : world I, calling cs w = (Ret tt, {| w_conv := w_conv w; w_dict := fold_left apply_call cs (w_dict w); w_calls := w_calls w ++ cs; w_log := w_log w |}).
  Proof.
    induction cs as [|c cs IH]; intro w; cbn [calling fold_left].
    - unfold mret. rewrite app_nil_r. destruct w; reflexivity.
    - unfold call. rewrite mmod_bind, IH. cbn [w_conv w_dict w_calls w_log]. rewrite <- app_assoc. reflexivity.
  Qed.
  Lemma header_ran h n ls b5 s w : at_w n ls b5 w s ->
    ran (parse_header cf fn h s) (header_do fn n (hd [] ls) h w) (at_w n ls (b5 || bytes_eqb (hdr_charset h) (bs "BIG5"))).
  Proof.
    intro H. pose proof (at_wof _ _ _ _ _ H) as Hw.
    assert (H0 : DocLog.at_v cf (fun c _ => c = w_conv w) n ls b5 (w_dict w) (w_log w) s).
    { destruct H as (H1 & [H2 H3] & H4). exact (conj H1 (conj H2 H4)). }
    assert (Cl : clean (cf_strict cf) h) by (unfold clean; rewrite Hst; discriminate).
    destruct (parse_header_run cf fn Hst h s) as (o & c' & ev & s' & X1 & X2 & X3 & X4 & X5 & X6 & X7 & X8 & X9).
    pose proof (proj1 (mild_parse_header cf fn h s)) as X10. rewrite X2 in X10. cbn [snd] in X10.
    pose proof (DocLog.header_first_log cf fn (fun c => c = w_conv w) n ls b5 _ _ h s H0 Cl) as G.
    unfold header_do. rewrite mget_bind, note_bind. unfold mbind at 1. rewrite calling_eq. unfold opening. cbn [noted w_conv w_dict w_calls w_log].
    rewrite DocLog.call_plural_charset. pose proof H as (P1 & [P2 P3] & P4 & P5 & P6 & P7). rewrite P2, P5 in X1. rewrite X1.
    rewrite DocLog.parse_header_first in X2 |- *. unfold mbind in X2 |- *.
    destruct (DocLog.header_first cf fn h s) as [o1 s1]. destruct G as [G|[G1 G2]]; [left; cbn [fst] in G; subst o1; reflexivity|]. cbn [fst snd] in G1, G2. subst o1.
    rewrite X2. right. cbn [fst snd]. split; [reflexivity|]. unfold mget, do_set_charsets in X2. rewrite Hst in X2.
    destruct G2 as (G1 & G2 & G3 & G4 & G5 & G6). rewrite G2, G4 in X2. unfold get_charset in X2. rewrite DocLog.call_plural_charset, X1 in X2.
    injection X2 as X2. assert (W : wof s' = {| w_conv := c'; w_dict := fold_left apply_call (List.map CallPlural (hdr_plurals h)) (w_dict w); w_calls := w_calls w ++ List.map CallPlural (hdr_plurals h);
        w_log := (w_log w ++ List.map (DiagSpec.reported fn n (hd [] ls)) (DiagSpec.hdr_lines_notes (w_dict w) (hdr_lines h) ++ DiagSpec.charset_notes h)) ++ ev |}).
    { unfold wof. rewrite X6, X9, P3. rewrite <- X2. sv. rewrite G4, G6. reflexivity. }
    split; [exact W|]. intros _ _. apply wof_at; [eapply pos_eq; [| | |exact P1]; assumption|rewrite X7, P4; reflexivity|rewrite X10; exact P6|exact W].
  Qed.

  (** ** Plural rows *)
  Lemma rows_ran rest b5 rows : is_blank (hd [] rest) -> forall f num ne n s w,
    at_w n (List.concat (List.map row_lines rows) ++ rest) b5 w s ->
    Forall (fun r => fst r < 10 /\ lit_ok (cf_strict cf) b5 (snd r)) rows -> (num <> [] \/ rows <> []) ->
    ran (msgstr_loop cf fn f num ne s)
      ((vs <- rows_do fn pd nd n rows;; mret (put_all num vs, ne || negb (forallb (fun r => is_nil (lit_value (snd r))) rows))) w)
      (at_w (n + len (List.concat (List.map row_lines rows))) rest b5).
  Proof.
    intro Hb. induction rows as [|[i l] rows IH]; intros f num ne n s w H Hr Hn; (destruct f as [|f]; [left; reflexivity|]).
    - cbn [msgstr_loop List.map List.concat app rows_do forallb negb] in *. rewrite orb_false_r. eapply ran_eq; [|reflexivity|].
      { unfold mbind at 1. rewrite is_empty_line_eq, (at_hd _ _ _ _ _ H), (pempty_blank _ _ Hb). cbn [run_opt]. unfold mret at 1; cbv beta iota.
        destruct num as [|x num]; [destruct Hn as [Hn|Hn]; congruence|]. cbn [is_nil]. reflexivity. }
      rewrite DocLog.len_nil, Z.add_0_r. exact (ran_ret _ (num, ne) _ _ _ _ _ H).
    - inversion Hr as [|? ? [Hd Hl] Hr']; subst. cbn [fst snd] in *. cbn [List.map List.concat] in *. rewrite <- app_assoc in H.
      pose proof (row_first cf i (lt_head l) Hd) as Hp.
      assert (Hc : p_cur s = (bs "msgstr[" ++ [digit_of i; c_rbr]) ++ chunk_text (lt_head l)) by apply (at_hd _ _ _ _ _ H).
      assert (Hnum : N.to_nat (code (nth 7 ((bs "msgstr[" ++ [digit_of i; c_rbr]) ++ chunk_text (lt_head l)) c_nul) - 48) = i).
      { rewrite <- app_assoc. cbn [app bs list_ascii_of_string nth]. apply digit_facts, Hd. }
      assert (EQ : msgstr_loop cf fn (S f) num ne s =
         mbind (get_string cf fn 9) (fun msgstr => v <- do_convert cf msgstr;;
              msgstr_loop cf fn f (vec_put num i v) (ne || negb (is_nil msgstr))) s).
      { cbn [msgstr_loop]. unfold mbind at 1. rewrite is_empty_line_eq.
        rewrite Hc, (pmsgstr_not_empty _ _ Hp). cbn [run_opt]. unfold mret at 1; cbv beta iota.
        unfold mbind at 1. rewrite is_msgstr_n_eq, Hc, Hp. cbn [run_opt]. unfold mret at 1; cbv beta iota.
        rewrite mget_bind, Hc. cbv zeta. rewrite Hnum. reflexivity. }
      rewrite EQ. clear EQ. cbn [rows_do].
      set (fin := fun vs : list (nat * bytes) => (put_all num vs, (ne || negb (forallb (fun r => is_nil (lit_value (snd r))) ((i, l) :: rows)))%bool)).
      eapply ran_eq with (x' := (note (DiagSpec.lit_log fn pd n (bs "msgstr[" ++ [digit_of i; c_rbr]) l);; (v <- converting nd (lit_value l);;
          vs <- rows_do fn pd nd (n + len (row_lines (i, l))) rows;; mret (fin ((i, v) :: vs)))) w); [reflexivity| |].
      { unfold mbind, note, mmod. destruct (converting _ _ _) as [[?|?|?| |] ?]; try reflexivity.
        destruct (rows_do _ _ _ _ _ _) as [[?|?|?| |] ?]; reflexivity. }
      apply (lit_ran _ (bs "msgstr[" ++ [digit_of i; c_rbr]) 9 (List.concat (List.map row_lines rows) ++ rest) b5 l n s w _ _ _
                   eq_refl H Hl (rows_stop cf rows [] rest (pquote_blank _ _ Hb))).
      intros s1 w1 _ H1. eapply ran_bind; [apply convert_ran; exact H1|]. intros v s2 w2 _ H2.
      assert (Hnn : vec_put num i v <> [] \/ rows <> []).
      { left. intro E. apply (f_equal (@length _)) in E. rewrite vec_put_length in E. cbn [length] in E. lia. }
      pose proof (IH f (vec_put num i v) (ne || negb (is_nil (lit_value l))) _ s2 w2 H2 Hr' Hnn) as G.
      rewrite DocLog.len_app, Z.add_assoc. unfold fin. cbn [put_all fold_left fst snd forallb].
      rewrite negb_andb, orb_assoc. exact G.
  Qed.

  (** ** Entries *)
  Lemma rows_numbers rows : forall k vs (w1 w2 : world I), rows_do fn pd nd k rows w1 = (Ret vs, w2) -> List.map fst vs = List.map fst rows.
  Proof.
    induction rows as [|[i l] rows IH]; intros k vs w1 w2 E; cbn [rows_do] in E.
    - injection E as <- _. reflexivity.
    - rewrite note_bind in E. unfold mbind in E. destruct (converting _ _ _) as [[v|?|?| |] w3]; try discriminate.
      destruct (rows_do _ _ _ _ _ _) as [[vs'|?|?| |] w4] eqn:E4; try discriminate. injection E as <- _. cbn [List.map fst]. f_equal. exact (IH _ _ _ _ E4).
  Qed.
  Lemma body_ran e rest b5 fz n s w :
    at_w n (body_lines (en_body e) ++ rest) b5 w s -> entry_ok (cf_strict cf) b5 e -> follows cf e (hd [] rest) ->
    ran (body_of cf fn e fz (opt_value (en_ctxt e)) (lit_value (en_id e)) s)
      (body_do fn pd nd n (hd [] rest) (opt_value (en_ctxt e)) (lit_value (en_id e)) (en_body e) w)
      (at_w (n + len (body_lines (en_body e))) rest (big5_after b5 e)).
  Proof.
    intros H (_ & _ & Hbd & _) Hb. unfold body_of, big5_after, is_header, body_do, follows in *.
    unfold prefix at 1. rewrite mget_bind. cbv zeta.
    rewrite (at_hd _ _ _ _ _ H). destruct (en_body e) as [m|p rows]; cbn [body_lines body_ok] in *.
    - assert (E1 : starts_with (bs "msgid_plural") (hd [] (lit_lines (bs "msgstr") m ++ rest)) = false).
      { cbn [lit_lines app hd]. reflexivity. }
      rewrite E1. unfold prefix. rewrite mget_bind, (at_hd _ _ _ _ _ H), lit_hd. unfold singular_entry.
      apply (lit_ran _ (bs "msgstr") 6 rest b5 m n s w _ _ _ eq_refl H Hbd Hb). intros s1 w1 _ H1.
      destruct (is_nil (lit_value (en_id e))).
      + now apply header_ran.
      + destruct (is_nil (lit_value m)) eqn:Em; cbn [negb andb orb].
        * apply ran_ret. exact H1.
        * eapply ran_bind; [apply convert_ran; exact H1|]. intros v s2 w2 _ H2. now apply add_ran.
    - destruct Hbd as (Hp & Hne & Hrows). rewrite <- app_assoc in H. rewrite <- app_assoc, lit_hd. unfold plural_entry.
      apply (lit_ran _ (bs "msgid_plural") 12 _ b5 p n s w _ _ _ eq_refl H Hp (rows_stop cf rows [] rest (pquote_blank _ _ Hb))).
      intros s1 w1 _ H1.
      set (n2 := (n + len (lit_lines (bs "msgid_plural") p ++ List.concat (List.map row_lines rows)))%Z).
      pose proof (rows_ran rest b5 rows Hb (cf_fuel cf) [] false _ s1 w1 H1 Hrows (or_intror Hne)) as G.
      rewrite <- Z.add_assoc, <- DocLog.len_app in G. fold n2 in G. cbn [orb] in G.
      match goal with |- ran _ (mbind ?x ?g w1) _ =>
        eapply ran_eq with (x' := mbind (vs <- x;; mret (put_all [] vs, negb (forallb (fun r => is_nil (lit_value (snd r))) rows)))
          (fun r => fun w2 => g (match rows_do fn pd nd (n + len (lit_lines (bs "msgid_plural") p)) rows w1 with (Ret vs, _) => vs | _ => [] end) w2) w1); [reflexivity| |] end.
      { unfold mbind. destruct (rows_do _ _ _ _ rows w1) as [[?|?|?| |] ?]; reflexivity. }
      eapply ran_bind; [exact G|]. intros r s2 w2 Er H2. unfold mbind in Er. destruct (rows_do _ _ _ _ rows w1) as [[vs|?|?| |] w3] eqn:Erw; try discriminate.
      injection Er as <- ->. apply rows_numbers in Erw. clear G H1 H w1 s1 s w. rename s2 into s, w2 into w, H2 into H.
      unfold mbind at 1. rewrite is_empty_line_eq, (at_hd _ _ _ _ _ H), (pempty_blank _ _ Hb). cbn [run_opt]. unfold mret at 1; cbv beta iota. cbn [negb fst snd].
      destruct (forallb (fun r => is_nil (lit_value (snd r))) rows); cbn [negb andb orb].
      + apply ran_ret. exact H.
      + rewrite !mget_bind. rewrite put_all_forms.
        2: { intros ->. destruct rows; [congruence|discriminate Erw]. }
        assert (Lf : length (forms vs) = S (List.list_max (List.map fst rows))).
        { unfold forms. rewrite map_length, seq_length, Erw. reflexivity. }
        rewrite (at_dict _ _ _ _ _ H). unfold DiagSpec.count_notes. rewrite <- Lf, note_bind. unfold mbind at 1.
        destruct (negb (pf_valid (get_plural_forms (w_dict w)))); [rewrite warning_eq; apply add_ran; now apply warn_ran|].
        destruct (negb (Z.eqb _ _)); [rewrite warning_eq; apply add_ran; now apply warn_ran|].
        cbn [List.map]. unfold mret at 1. rewrite noted_nil. apply add_ran. exact H.
  Qed.
  Lemma entry_ran e rest b5 fz n s w :
    at_w n (entry_lines e ++ rest) b5 w s -> entry_ok (cf_strict cf) b5 e -> follows cf e (hd [] rest) ->
    ran (entry cf fn true fz s) (entry_do fn pd nd n (hd [] rest) e w) (at_w (n + len (entry_lines e)) rest (big5_after b5 e)).
  Proof.
    intros H He Hb. pose proof He as (Hctxt & Hid & _ & _). unfold entry, entry_do. unfold entry_lines. rewrite !DocLog.len_app, !Z.add_assoc.
    unfold entry_lines in H. rewrite <- !app_assoc in H.
    set (n1 := (n + len (ctxt_lines (en_ctxt e)))%Z). set (n2 := (n1 + len (lit_lines (bs "msgid") (en_id e)))%Z).
    assert (Q : forall T S (m : P bool) (f : bool -> P T) (g : T -> P S) x, (b <- m;; a <- f b;; g a) x = (a <- (b <- m;; f b);; g a) x).
    { intros. unfold mbind. destruct (m x) as [[]]; reflexivity. }
    set (body := body_do fn pd nd n2 (hd [] rest) (opt_value (en_ctxt e)) (lit_value (en_id e)) (en_body e)).
    set (idn := note (DiagSpec.lit_log fn pd n1 (bs "msgid") (en_id e)) : A unit).
    eapply ran_eq with (x' := (mbind (note (DiagSpec.ctxt_log fn pd n (en_ctxt e));; mret (opt_value (en_ctxt e))) (fun _ => idn;; body)) w); [rewrite Q; reflexivity|reflexivity|].
    eapply ran_bind with (Q1 := at_w n1 (lit_lines (bs "msgid") (en_id e) ++ body_lines (en_body e) ++ rest) b5).
    { unfold prefix, n1. rewrite mget_bind, (at_hd _ _ _ _ _ H). destruct (en_ctxt e) as [l|]; cbn [ctxt_lines DiagSpec.ctxt_log opt_value] in *.
      - rewrite lit_hd. apply (lit_ran _ (bs "msgctxt") 7 _ b5 l n s w _ (mret (Some (lit_value l))) _ eq_refl H Hctxt); [eapply id_stops, Hid|].
        intros s' w' _ H'. apply ran_ret. exact H'.
      - cbn [app]. cbn [lit_lines app hd]. rewrite note_bind, noted_nil, DocLog.len_nil, Z.add_0_r. exact (ran_ret _ None _ _ _ _ _ H). }
    intros c s1 w1 Ec H1. injection Ec as <- _. clear H s w. rename s1 into s, w1 into w, H1 into H.
    eapply ran_eq with (x' := (mbind (idn;; mret (lit_value (en_id e))) (fun _ => body)) w); [rewrite Q; reflexivity|reflexivity|].
    eapply ran_bind with (Q1 := at_w n2 (body_lines (en_body e) ++ rest) b5).
    { unfold prefix. rewrite mget_bind, (at_hd _ _ _ _ _ H), lit_hd.
      eapply ran_eq with (r' := mbind (get_string cf fn 5) mret s); [unfold mbind; destruct (get_string cf fn 5 s) as [[?|?|?| |] ?]; reflexivity|reflexivity|].
      apply (lit_ran _ (bs "msgid") 5 _ b5 _ n1 s w _ (mret (lit_value (en_id e))) _ eq_refl H Hid); [apply body_stops|].
      intros s' w' _ H'. apply ran_ret. exact H'. }
    intros i s1 w1 Ei H1. injection Ei as <- _. exact (body_ran e rest b5 fz n2 s1 w1 H1 He Hb).
  Qed.
  (** ** Blocks up to the separating line *)
  Lemma front_ran b rest b5 n s w :
    at_w n (block_lines b ++ rest) b5 w s -> block_fine b5 b ->
    match bl_entry b with Some e => follows cf e (hd [] rest) | None => separator_ok b (hd [] rest) end ->
    ran (front cf fn s) (block_do fn pd nd n (hd [] rest) b w) (at_w (n + len (block_lines b)) rest (big5_end b5 (opt_list (bl_entry b)))).
  Proof.
    intros H [Hc He] Hf. unfold block_lines in *. rewrite <- app_assoc in H. unfold front, block_do.
    set (ls := match bl_entry b with Some e => entry_lines e | None => [] end ++ rest) in *.
    assert (Hn : starts_with [c_hash] (hd [] ls) = false).
    { unfold ls. destruct (bl_entry b) eqn:E; [apply entry_not_hash|]. cbn [app]. exact (blank_not_hash b (hd [] rest) Hf E). }
    pose proof (DocLog.comments_at cf ls b5 _ _ (bl_comments b) (cf_fuel cf) false n s H Hc Hn) as C.
    unfold mbind at 1. destruct (comments cf (cf_fuel cf) false s) as [o s1]. destruct C as [C|(fz & C & H1)]; cbn [fst snd] in C; subst o; [left; reflexivity|]. cbn [snd] in H1.
    unfold mbind. rewrite is_empty_line_eq, (at_hd _ _ _ _ _ H1), Hst. rewrite DocLog.len_app, Z.add_assoc. unfold ls in *. destruct (bl_entry b) as [e|].
    - pose proof (entry_not_empty cf e [] rest) as Y. rewrite Hst in Y. rewrite Y. cbn [run_opt]. unfold mret at 1; cbv beta iota.
      rewrite <- Hst in He. exact (entry_ran e rest b5 fz _ s1 w H1 He Hf).
    - cbn [app] in *. rewrite (pempty_blank false _ (proj1 Hf)). cbn [run_opt]. unfold mret at 1; cbv beta iota. rewrite DocLog.len_nil, Z.add_0_r. apply ran_ret. exact H1.
  Qed.

  (** ** The lines before a mistake *)
  Local Notation LL := (lines_log fn pd).
  Local Notation LD := (@lines_do I fn pd nd).
  Lemma lines_do_app b5 a : forall n bef next b w,
    LD b5 n bef next (a ++ b) w = (LD b5 n bef (hd next b) a;; LD b5 (n + len a) (bef ++ a) next b) w.
  Proof.
    induction a as [|l a IH]; intros n bef next b w; cbn [app lines_do].
    - rewrite app_nil_r, DocLog.len_nil, Z.add_0_r. reflexivity.
    - assert (H : hd next (a ++ b) = hd (hd next b) a) by (destruct a; reflexivity). rewrite H.
      set (m := match stage_after (bef ++ [l]) with AfterForm => _ | _ => _ end). clearbody m. unfold mbind at 1 2 3 4 5.
      destruct (note _ w) as [[u|e|u| |] w0]; try reflexivity. destruct (m w0) as [[u1|e|u1| |] w1]; try reflexivity. rewrite IH, <- app_assoc. cbn [app].
      replace (n + 1 + len a)%Z with (n + len (l :: a))%Z by (unfold len; cbn [length]; lia). reflexivity.
  Qed.
  Definition plain (l : bytes) : Prop := has_keyword l = false.
  Lemma stage_plain bef ms : Forall plain ms -> stage_after (bef ++ ms) = stage_after bef.
  Proof.
    intro H. unfold stage_after. rewrite filter_app. assert (E : List.filter has_keyword ms = []).
    { induction H as [|m ms Hm _ IH]; [reflexivity|]. cbn [List.filter]. rewrite Hm. exact IH. }
    rewrite E, app_nil_r. reflexivity.
  Qed.
  (** lines that complete no msgstr[N] *)
  Lemma quiet_do b5 ms : Forall plain ms -> forall n bef l next w, stage_after (bef ++ [l]) <> AfterForm \/ plain next ->
    LD b5 n bef next (l :: ms) w = (Ret tt, noted w (LL b5 n bef (l :: ms))).
  Proof.
    induction 1 as [|m ms Hm _ IH]; intros n bef l next w Hq; cbn [lines_do lines_log hd].
    - rewrite note_bind, app_nil_r. destruct (stage_after (bef ++ [l])); try reflexivity. destruct Hq as [Hq|Hq]; [congruence|]. rewrite Hq. reflexivity.
    - rewrite note_bind. specialize (IH (n + 1)%Z (bef ++ [l]) m next (noted w (List.map (DiagSpec.reported fn n l) (line_notes pd b5 bef l)))).
      rewrite stage_snoc, Hm in IH. specialize (IH Hq). cbn [lines_do lines_log] in IH. rewrite noted_app in IH.
      destruct (stage_after (bef ++ [l])); try exact IH. rewrite Hm. exact IH.
  Qed.
  (** a msgstr[N] *)
  Lemma form_do b5 ms : Forall plain ms -> forall n bef l next w, stage_after (bef ++ [l]) = AfterForm -> has_keyword next = true ->
    LD b5 n bef next (l :: ms) w = (converting nd (string_value b5 [] (bef ++ l :: ms));; mret tt) (noted w (LL b5 n bef (l :: ms))).
  Proof.
    induction 1 as [|m ms Hm _ IH]; intros n bef l next w Hs Hk; cbn [lines_do lines_log hd].
    - rewrite note_bind, app_nil_r, Hs, Hk. unfold mbind. destruct (converting _ _ _) as [[?|?|?| |] ?]; reflexivity.
    - rewrite note_bind, Hs, Hm. specialize (IH (n + 1)%Z (bef ++ [l]) m next (noted w (List.map (DiagSpec.reported fn n l) (line_notes pd b5 bef l)))).
      rewrite stage_snoc, Hm in IH. specialize (IH Hs Hk). cbn [lines_do lines_log] in IH. rewrite noted_app in IH.
      replace ((bef ++ [l]) ++ m :: ms) with (bef ++ l :: m :: ms) in IH by (rewrite <- app_assoc; reflexivity). exact IH.
  Qed.
  Lemma scan_pieces b5 ps : forall t, Forall (piece_ok b5) ps -> scan_value b5 (List.concat (List.map piece_text ps) ++ c_dq :: t) = List.concat (List.map piece_value ps).
  Proof.
    induction ps as [|p ps IH]; intros t H; cbn [List.map List.concat app]; [reflexivity|]. inversion H as [|? ? Hp H']; subst.
    assert (LE : forall c, is_lead c -> ((129 <=? code c) && (code c <=? 254))%N = true) by (intros c [X Y]; apply andb_true_intro; split; apply N.leb_le; assumption).
    assert (NL : forall c, (b5 = true -> ~ is_lead c) -> b5 && ((129 <=? code c) && (code c <=? 254))%N = false).
    { intros c X. apply not_true_iff_false. rewrite !andb_true_iff, !N.leb_le. intros (Y & Z). apply (X Y). exact Z. }
    assert (NB : b5 && ((129 <=? code c_bsl) && (code c_bsl <=? 254))%N = false) by (destruct b5; reflexivity).
    rewrite <- app_assoc. destruct p as [c|c|c|a b]; cbn [piece_text piece_value piece_ok app] in *; cbn [scan_value].
    - destruct Hp as (P1 & P2 & _ & P3). rewrite (proj2 (byte_eqb_neq c c_dq) P1), (NL _ P3), (proj2 (byte_eqb_neq c c_bsl) P2). cbn [app]. f_equal. apply IH, H'.
    - change (byte_eqb c_bsl c_dq) with false. rewrite NB, byte_eqb_refl. rewrite IH by exact H'. destruct (meaning_of c escapes); [reflexivity|congruence].
    - change (byte_eqb c_bsl c_dq) with false. rewrite NB, byte_eqb_refl. rewrite IH by exact H'. destruct Hp as [-> _]. reflexivity.
    - destruct Hp as (-> & P & _). destruct (byte_eqb a c_dq) eqn:E; [exfalso; apply byte_eqb_eq in E; subst a; destruct P as [P _]; vm_compute in P; congruence|].
      rewrite (LE _ P). cbn [andb]. rewrite IH by exact H'. reflexivity.
  Qed.
  Lemma quoted_chunk b5 ck : chunk_ok false b5 ck -> quoted_value b5 (chunk_text ck) = chunk_value ck.
  Proof.
    intros (H1 & _ & H2 & _). unfold quoted_value, chunk_text. rewrite after_space_white by exact H1. change (after_space (c_dq :: ?x)) with (c_dq :: x). cbv beta iota.
    rewrite byte_eqb_refl. now apply scan_pieces.
  Qed.
  Lemma string_more b5 cks : Forall (chunk_ok false b5) cks -> forall v, string_value b5 v (List.map chunk_text cks) = v ++ List.concat (List.map chunk_value cks).
  Proof.
    induction 1 as [|ck cks H _ IH]; intro v; cbn [List.map List.concat string_value]; [now rewrite app_nil_r|].
    rewrite (has_keyword_more _ (proj1 H)), quoted_chunk, IH, app_assoc by exact H. reflexivity.
  Qed.
  Lemma string_app b5 a : forall v b, string_value b5 v (a ++ b) = string_value b5 (string_value b5 v a) b.
  Proof. induction a as [|l a IH]; intros v b; cbn [app string_value]; auto. Qed.
  Lemma string_row b5 bef i l : lit_ok false b5 l -> string_value b5 [] (bef ++ row_lines (i, l)) = lit_value l.
  Proof.
    intro H. inversion H as [|? ? H1 H2]; subst. rewrite string_app. unfold row_lines, lit_lines. cbn [fst snd string_value].
    assert (K : has_keyword ((bs "msgstr[" ++ [digit_of i; c_rbr]) ++ chunk_text (lt_head l)) = true) by reflexivity. rewrite K.
    rewrite skipn_app. replace (skipn (length (bs "msgstr[N]")) (bs "msgstr[" ++ [digit_of i; c_rbr])) with (@nil ascii) by reflexivity.
    replace (length (bs "msgstr[N]") - length (bs "msgstr[" ++ [digit_of i; c_rbr])) with 0 by reflexivity. cbn [app skipn].
    rewrite quoted_chunk, string_more by assumption. reflexivity.
  Qed.
  Lemma more_plain b5 lit : lit_ok false b5 lit -> Forall plain (List.map chunk_text (lt_more lit)).
  Proof. intro H. inversion H as [|? ? _ F]; subst. clear - F. induction F as [|ck cks (Hw & _) _ IH]; constructor; [now apply has_keyword_more|exact IH]. Qed.

  Lemma cut_same (ls : list bytes) : forall a b c d, ls = a ++ b -> ls = c ++ d -> length a = length c -> a = c /\ b = d.
  Proof.
    intros a b c d E1 E2 L. subst ls. revert c E2 L. induction a as [|y p IH]; intros [|z q] E L; cbn [length app] in *; try lia; auto.
    injection E as -> E. destruct (IH q E) as [-> ->]; auto; lia.
  Qed.
  Lemma convert_never b (c : iconv I) text : match fst (fst (convert b c text)) with Exn _ => False | OutOfFuel => False | _ => True end.
  Proof.
    unfold convert. destruct (cv_cd c); try exact Logic.I. destruct (ic_conv _ _ _ _) as [[? ?] [[]|]]; try exact Logic.I; destruct b; exact Logic.I.
  Qed.
  Lemma do_convert_pos ls x s o s1 : do_convert cf x s = (o, s1) -> pos cf [] ls s1 -> pos cf [] ls s.
  Proof. unfold do_convert. destruct (convert _ _ _) as [[? ?] ?]. intro E. injection E as _ <-. intro H. exact H. Qed.
  Definition oerr {T} (o : outcome T) : outcome unit :=
    match o with Ret _ => Ret tt | Exn e => Exn e | Ub u => Ub u | AssertFail => AssertFail | OutOfFuel => OutOfFuel end.
  Section Lines.
  Variable W : list bytes -> list bytes -> Prop.
  Definition pdo (keep : bool) (bef : list bytes) {T} (m : P T) (ls : list bytes) (s : pst I) : Prop :=
    match m s with
    | (Ret a, s') => keep = true -> exists rd ls', ls = rd ++ ls' /\ pos cf [] ls' s' /\ p_line s' = (p_line s + len rd)%Z /\ p_big5 s' = p_big5 s /\
        LD (p_big5 s) (p_line s) bef (hd [] ls') rd (wof s) = (Ret tt, wof s')
    | (Exn ExPo, s') => exists pre lse msg w1, ls = pre ++ lse /\ LD (p_big5 s) (p_line s) bef (hd [] lse) pre (wof s) = (Ret tt, w1) /\
        wof s' = noted w1 (List.map (DiagSpec.reported fn (p_line s + len pre) (hd [] lse)) (line_notes pd (p_big5 s) (bef ++ pre) (hd [] lse)) ++
                           [mistake fn (p_line s + len pre) msg (hd [] lse)])
    | (OutOfFuel, _) => True
    | (o, s') => exists rd ls', ls = rd ++ ls' /\
        (keep = false /\ W (bef ++ rd) ls' \/ begins (p_big5 s) (bef ++ rd) /\ LD (p_big5 s) (p_line s) bef (hd [] ls') rd (wof s) = (oerr o, wof s'))
    end.
  Lemma pdo_eq keep bef T (m m' : P T) ls s : m s = m' s -> pdo keep bef m' ls s -> pdo keep bef m ls s.
  Proof. intros E H. unfold pdo. rewrite E. exact H. Qed.
  Lemma pdo_bind keep bef S T (m : P S) (f : S -> P T) ls s : pdo true bef m ls s ->
    (forall a s1 rd ls1, m s = (Ret a, s1) -> ls = rd ++ ls1 -> pos cf [] ls1 s1 -> p_big5 s1 = p_big5 s -> pdo keep (bef ++ rd) (f a) ls1 s1) ->
    pdo keep bef (mbind m f) ls s.
  Proof.
    intros Hm Hf. unfold pdo, mbind in *.
    assert (Fail : forall o s', (exists rd ls', ls = rd ++ ls' /\ (true = false /\ W (bef ++ rd) ls' \/ begins (p_big5 s) (bef ++ rd) /\ LD (p_big5 s) (p_line s) bef (hd [] ls') rd (wof s) = (o, s'))) ->
      exists rd ls', ls = rd ++ ls' /\ (keep = false /\ W (bef ++ rd) ls' \/ begins (p_big5 s) (bef ++ rd) /\ LD (p_big5 s) (p_line s) bef (hd [] ls') rd (wof s) = (o, s'))).
    { intros o s' (rd & ls' & E & [[X _]|X]); [discriminate|]. exists rd, ls'. auto. }
    destruct (m s) as [[a|[]|u| |] s1] eqn:E1; auto; try (apply Fail, Hm).
    destruct (Hm eq_refl) as (rd1 & ls1 & H1 & H2 & H3 & H4 & H5). specialize (Hf a s1 rd1 ls1 eq_refl H1 H2 H4). rewrite H4, H3 in Hf.
    assert (Comp : forall rd2 ls2, ls1 = rd2 ++ ls2 -> LD (p_big5 s) (p_line s) bef (hd [] ls2) (rd1 ++ rd2) (wof s) = LD (p_big5 s) (p_line s + len rd1) (bef ++ rd1) (hd [] ls2) rd2 (wof s1)).
    { intros rd2 ls2 E. rewrite lines_do_app. assert (X : hd (hd [] ls2) rd2 = hd [] ls1) by (rewrite E; destruct rd2; reflexivity). rewrite X. unfold mbind. rewrite H5. reflexivity. }
    assert (X : forall o s', (exists rd ls', ls1 = rd ++ ls' /\ (keep = false /\ W ((bef ++ rd1) ++ rd) ls' \/ begins (p_big5 s) ((bef ++ rd1) ++ rd) /\
        LD (p_big5 s) (p_line s + len rd1) (bef ++ rd1) (hd [] ls') rd (wof s1) = (o, s'))) ->
      exists rd ls', ls = rd ++ ls' /\ (keep = false /\ W (bef ++ rd) ls' \/ begins (p_big5 s) (bef ++ rd) /\ LD (p_big5 s) (p_line s) bef (hd [] ls') rd (wof s) = (o, s'))).
    { intros o s' (rd2 & ls2 & E & X). exists (rd1 ++ rd2), ls2. rewrite (Comp _ _ E), app_assoc. split; [rewrite H1, E, app_assoc; reflexivity|exact X]. }
    destruct (f a s1) as [[b|[]|u| |] s2] eqn:E2; try (exact (X _ _ Hf)); auto; clear X.
    - intro K. destruct (Hf K) as (rd2 & ls2 & G1 & G2 & G3 & G4 & G5). exists (rd1 ++ rd2), ls2. split; [rewrite H1, G1, app_assoc; reflexivity|].
      split; [exact G2|]. split; [rewrite G3, DocLog.len_app; lia|]. split; [congruence|]. rewrite (Comp _ _ G1). exact G5.
    - destruct Hf as (pre & lse & msg & w1 & G1 & G2 & G3). exists (rd1 ++ pre), lse, msg, w1. split; [rewrite H1, G1, app_assoc; reflexivity|].
      split; [rewrite (Comp _ _ G1); exact G2|]. rewrite DocLog.len_app, Z.add_assoc, app_assoc. exact G3.
  Qed.
  Lemma pdo_ret keep bef T (a : T) ls s : pos cf [] ls s -> pdo keep bef (mret a) ls s.
  Proof. intros H _. exists [], ls. rewrite DocLog.len_nil, Z.add_0_r. cbn [app lines_do]. unfold mret. auto. Qed.
  Lemma pdo_error keep bef T m ls s : pos cf [] ls s -> line_notes pd (p_big5 s) bef (hd [] ls) = [] -> pdo keep bef (@error cf fn T m) ls s.
  Proof.
    intros Hp N. pose proof (post_error cf fn Hst true (fun _ _ _ => True) T m ls s Hp Logic.I) as PE. destruct (error_run cf fn Hst T m ls s Hp) as (s' & E & T1 & TV).
    unfold post in PE. unfold pdo. rewrite E in PE |- *. destruct PE as (pre & lse & sk & ls' & msg & (_ & _ & _ & _ & _ & _ & (F1 & F2 & F3 & _) & _) & _).
    exists [], ls, m, (wof s). split; [reflexivity|]. split; [reflexivity|]. rewrite app_nil_r, N, DocLog.len_nil, Z.add_0_r. unfold wof, noted. cbn [List.map app w_conv w_dict w_calls w_log].
    rewrite F2, F3, TV, T1. reflexivity.
  Qed.
  Lemma pdo_next bef l ls s : pos cf [] (l :: ls) s -> has_keyword l = true -> stage_of l <> AfterForm -> line_notes pd (p_big5 s) bef l = [] -> pdo true bef (next_line cf) (l :: ls) s.
  Proof.
    intros Hp K Hs N. unfold pdo. rewrite next_line_eq. intros _. pose proof (pos_next_tl cf _ _ Hp) as Hp1. cbn [tl] in Hp1. nx s. exists [l], ls. split; [reflexivity|].
    split; [exact Hp1|]. split; [exact Nl|]. split; [exact Nb|]. rewrite quiet_do; [|constructor|left; rewrite stage_snoc, K; exact Hs]. cbn [lines_log]. rewrite N. cbn [List.map app]. rewrite noted_nil.
    unfold wof. rewrite Nd, Nc, Nv, Nt. reflexivity.
  Qed.
  (** strings *)
  Lemma string_read bef k l ls s : pos cf [] (l :: ls) s -> k <= length l -> has_keyword l = true -> stage_of l <> AtStart ->
    keyword_in (stage_after bef) l = Some k ->
    match get_string cf fn k s with
    | (Ret a, s') => exists lit ls', l :: ls = lit_lines (firstn k l) lit ++ ls' /\ lit_value lit = a /\ lit_ok false (p_big5 s) lit /\ ~ continues (hd [] ls') /\ pos cf [] ls' s' /\
        p_line s' = (p_line s + len (lit_lines (firstn k l) lit))%Z /\ p_big5 s' = p_big5 s /\ wof s' = noted (wof s) (LL (p_big5 s) (p_line s) bef (lit_lines (firstn k l) lit))
    | (Exn ExPo, s') => exists pre lse msg w1, l :: ls = pre ++ lse /\ LD (p_big5 s) (p_line s) bef (hd [] lse) pre (wof s) = (Ret tt, w1) /\
        wof s' = noted w1 (List.map (DiagSpec.reported fn (p_line s + len pre) (hd [] lse)) (line_notes pd (p_big5 s) (bef ++ pre) (hd [] lse)) ++
                           [mistake fn (p_line s + len pre) msg (hd [] lse)])
    | (OutOfFuel, _) => True
    | _ => False
    end.
  Proof.
    intros Hp Hk Hh Hs Hkw. pose proof (plog_get_string cf fn Hst (fun _ _ => False) bef k l ls s Hp Hk Hh Hs Hkw) as PL.
    pose proof (post_get_string cf fn Hst (fun pre x _ => pre = [] \/ exists lit, lit_ok false (p_big5 s) lit /\ pre = lit_lines (firstn k l) lit /\ continues x) k l ls s Hp Hk
      ltac:(intros msg _; left; reflexivity) ltac:(intros lit x msg H1 H2 H3; right; exists lit; auto)) as PO.
    unfold plog in PL. unfold post in PO. destruct (get_string cf fn k s) as [[a|[]|u| |] s'] eqn:E; try (destruct PL; discriminate); auto.
    - destruct (PL eq_refl) as (rd & ls' & L1 & L2 & L3 & L4 & L5 & L6). destruct PO as [_ PO]. destruct (PO eq_refl) as (F1 & F2 & F3 & _).
      destruct (get_string_reads cf fn Hst _ _ _ _ _ _ _ _ Hp E L1 L2) as (lit & -> & V & Hl). pose proof (get_string_rest cf fn Hst _ _ _ _ _ _ _ Hp E L2) as Hnc.
      exists lit, ls'. split; [exact L1|]. split; [exact V|]. split; [exact Hl|]. split; [exact Hnc|]. split; [exact L2|]. split; [exact L3|]. split; [exact F1|].
      unfold wof, noted. cbn [w_conv w_dict w_calls w_log]. rewrite L4, L6, F2, F3. reflexivity.
    - destruct PL as (pre2 & lse2 & msg2 & P1 & P2 & P3). destruct PO as (pre & lse & sk & ls' & msg & (G1 & G2 & G3 & G4 & G5 & (rs & R1 & R2) & (F1 & F2 & F3 & _) & _) & HV).
      assert (R3 := R2). rewrite P2 in R3. apply app_inv_head in R3. apply app_inj_tail in R3 as [_ R3]. apply Numbers.mistake_inj in R3 as [R3 _].
      destruct (cut_same (l :: ls) pre2 lse2 pre lse P1 G1 ltac:(lia)) as [-> ->]. clear R2 R3 P1.
      exists pre, lse, msg2, (noted (wof s) (LL (p_big5 s) (p_line s) bef pre)). split; [exact G1|]. split.
      + destruct HV as [->|(lit & Hl & -> & Hx)]; [cbn [lines_do lines_log]; rewrite noted_nil; reflexivity|]. unfold lit_lines. apply quiet_do; [exact (more_plain _ _ Hl)|].
        right. now apply continues_keyword.
      + rewrite noted_app. unfold wof, noted. cbn [w_conv w_dict w_calls w_log]. rewrite P2, P3, F2, F3, lines_log_app. cbn [lines_log]. rewrite app_nil_r, <- !app_assoc. reflexivity.
  Qed.

  Lemma pdo_get_string bef k l ls s : pos cf [] (l :: ls) s -> k <= length l -> has_keyword l = true -> stage_of l <> AtStart -> stage_of l <> AfterForm ->
    keyword_in (stage_after bef) l = Some k -> pdo true bef (get_string cf fn k) (l :: ls) s.
  Proof.
    intros Hp Hk Hh Hs Hf Hkw. pose proof (string_read bef k l ls s Hp Hk Hh Hs Hkw) as R. unfold pdo. destruct (get_string cf fn k s) as [[a|[]|u| |] s']; try contradiction; auto.
    intros _. destruct R as (lit & ls' & R1 & _ & R2 & _ & R3 & R4 & R5 & R6). exists (lit_lines (firstn k l) lit), ls'. split; [exact R1|]. split; [exact R3|]. split; [exact R4|]. split; [exact R5|].
    rewrite R6. apply quiet_do; [exact (more_plain _ _ R2)|]. left. injection R1 as <- _. rewrite stage_snoc, Hh. exact Hf.
  Qed.
  Lemma pdo_form bef l ls s : pos cf [] (l :: ls) s -> numbered l = true -> (stage_after bef = AfterPlural \/ stage_after bef = AfterForm) ->
    (forall r, row_fine (p_big5 s) r -> begins (p_big5 s) (bef ++ row_lines r)) ->
    pdo true bef (ms <- get_string cf fn 9;; v <- do_convert cf ms;; mret (ms, v)) (l :: ls) s.
  Proof.
    intros Hp Hn Hs HB. assert (Hn' := pmsgstr_numbered l). rewrite Hn in Hn'. destruct (form_true _ Hn') as [_ H9]. destruct (digit_row _ Hn') as [Hrow Hdig].
    set (i := N.to_nat (code (nth 7 l c_nul) - 48)) in *.
    assert (Hst0 : has_keyword l = true /\ stage_of l <> AtStart). { apply msg_stage. right. right. apply (starts_shorter (bs "msgstr") (bs "[")). now apply numbered_starts. }
    assert (Hkw : keyword_in (stage_after bef) l = Some 9) by (rewrite (keyword_form _ Hs), Hn; reflexivity).
    pose proof (string_read bef 9 l ls s Hp H9 (proj1 Hst0) (proj2 Hst0) Hkw) as R. unfold pdo. unfold mbind at 1.
    destruct (get_string cf fn 9 s) as [[a|[]|u| |] s']; try contradiction; auto.
    destruct R as (lit & ls' & R1 & <- & R2 & Rn & R3 & R4 & R5 & R6). rewrite Hrow in *. change (lit_lines (bs "msgstr[" ++ [digit_of i; c_rbr]) lit) with (row_lines (i, lit)) in *.
    assert (EQ : LD (p_big5 s) (p_line s) bef (hd [] ls') (row_lines (i, lit)) (wof s) = (converting nd (lit_value lit);; mret tt) (wof s')).
    { rewrite R6. unfold row_lines at 1. cbn [fst snd]. unfold lit_lines. rewrite form_do; [|exact (more_plain _ _ R2)| |now apply keyword_or].
      - fold (lit_lines (bs "msgstr[" ++ [digit_of i; c_rbr]) lit). change (lit_lines (bs "msgstr[" ++ [digit_of i; c_rbr]) lit) with (row_lines (i, lit)). rewrite string_row by exact R2. reflexivity.
      - rewrite stage_snoc. reflexivity. }
    assert (At : at_w (p_line s') ls' (p_big5 s') (wof s') s') by (apply wof_at; auto).
    pose proof (convert_ran (lit_value lit) _ _ _ _ _ At) as C. unfold ran in C. unfold mbind in EQ |- *.
    pose proof (convert_never nd (p_conv s') (lit_value lit)) as NE.
    assert (NE2 : match fst (do_convert cf (lit_value lit) s') with Exn _ => False | OutOfFuel => False | _ => True end).
    { unfold do_convert. destruct (convert nd (p_conv s') (lit_value lit)) as [[o c] ev]. exact NE. }
    destruct (do_convert cf (lit_value lit) s') as [o s2]. destruct C as [C|(C1 & C2 & C3)]; cbn [fst snd] in *; [subst o; contradiction|].
    destruct (converting nd (lit_value lit) (wof s')) as [o' w2]. cbn [fst snd] in *. subst o' w2.
    destruct o as [v|e|u| |]; try contradiction.
    - unfold mret in *. intros _. exists (row_lines (i, lit)), ls'. specialize (C3 v eq_refl). destruct C3 as (Q1 & _ & Q2 & _ & Q3 & _).
      split; [exact R1|]. split; [exact Q1|]. split; [rewrite Q3; exact R4|]. split; [rewrite Q2; exact R5|]. exact EQ.
    - exists (row_lines (i, lit)), ls'. split; [exact R1|]. right. split; [apply HB; split; assumption|exact EQ].
    - exists (row_lines (i, lit)), ls'. split; [exact R1|]. right. split; [apply HB; split; assumption|exact EQ].
  Qed.
  Lemma pdo_loop f : forall bef num ne ls s, pos cf [] ls s -> (stage_after bef = AfterPlural \/ stage_after bef = AfterForm) -> ~ continues (hd [] ls) ->
    (forall rows, rows <> [] -> Forall (row_fine (p_big5 s)) rows -> begins (p_big5 s) (bef ++ List.concat (List.map row_lines rows))) ->
    pdo true bef (msgstr_loop cf fn f num ne) ls s.
  Proof.
    induction f as [|f IH]; intros bef num ne ls s Hp Hs Hnc HB; [exact Logic.I|]. cbn [msgstr_loop].
    pose proof (pmsgstr_numbered (hd [] ls)) as Hn. pose proof (keyword_or _ Hnc) as Hk.
    destruct (pempty_lenient (hd [] ls)) as [e Ee]. eapply pdo_eq.
    { unfold mbind at 1. rewrite is_empty_line_eq, Hst, (pos_hd _ _ _ Hp), Ee. cbn [run_opt]. unfold mret at 1. reflexivity. }
    destruct e.
    { destruct (is_nil num); [|now apply pdo_ret]. apply pdo_error; [exact Hp|]. apply no_keyword; [now right|]. rewrite (keyword_form _ Hs).
      destruct (numbered (hd [] ls)) eqn:En; [|reflexivity]. apply pmsgstr_not_empty in Hn. rewrite Ee in Hn. discriminate. }
    eapply pdo_eq.
    { unfold mbind at 1. rewrite is_msgstr_n_eq, Hst, (pos_hd _ _ _ Hp), Hn. cbn [run_opt]. unfold mret at 1. reflexivity. }
    destruct (numbered (hd [] ls)) eqn:En.
    2: { apply pdo_error; [exact Hp|]. apply no_keyword; [now right|]. rewrite (keyword_form _ Hs), En. reflexivity. }
    eapply pdo_eq; [rewrite mget_bind; reflexivity|]. cbv zeta. destruct ls as [|l ls]; [discriminate|]. cbn [hd] in *.
    eapply pdo_eq with (m' := mbind (ms <- get_string cf fn 9;; v <- do_convert cf ms;; mret (ms, v)) (fun p => msgstr_loop cf fn f (vec_put num _ (snd p)) (ne || negb (is_nil (fst p))))).
    { unfold mbind. destruct (get_string cf fn 9 s) as [[ms|?|?| |] s1]; try reflexivity. destruct (do_convert cf ms s1) as [[v|?|?| |] s2]; reflexivity. }
    apply pdo_bind.
    - apply pdo_form; auto. intros r Hr. specialize (HB [r]). cbn [List.map List.concat] in HB. rewrite app_nil_r in HB. apply HB; [discriminate|auto].
    - intros [ms v] s2 rd ls2 E El Hp2 B2. cbn [fst snd]. unfold mbind in E. destruct (get_string cf fn 9 s) as [[ms'|?|?| |] s1] eqn:E1; try discriminate.
      destruct (do_convert cf ms' s1) as [[v'|?|?| |] s2'] eqn:Ec; try discriminate. injection E as <- <- <-.
      pose proof (do_convert_pos ls2 _ _ _ _ Ec Hp2) as Hp1.
      destruct (get_string_reads cf fn Hst _ _ _ _ _ _ _ _ Hp E1 El Hp1) as (lit & -> & _ & Hl).
      pose proof (get_string_rest cf fn Hst _ _ _ _ _ _ _ Hp E1 Hp1) as Hnc1. destruct (digit_row _ Hn) as [Hrow Hdig]. rewrite Hrow.
      set (i := N.to_nat (code (nth 7 l c_nul) - 48)) in *. change (lit_lines (bs "msgstr[" ++ [digit_of i; c_rbr]) lit) with (row_lines (i, lit)).
      apply IH; [exact Hp2|right; exact (stage_row (p_big5 s) bef lit Hl i)|exact Hnc1|]. rewrite B2. intros rows _ Hrows. rewrite <- app_assoc.
      apply (HB ((i, lit) :: rows)); [discriminate|]. constructor; [split; assumption|exact Hrows].
  Qed.

  Lemma pdo_done bef T (m : P T) ls s : (exists a s', m s = (Ret a, s')) -> pdo false bef m ls s.
  Proof. intros (a & s' & E). unfold pdo. rewrite E. discriminate. Qed.
  Lemma pdo_tail bef T (m : P T) ls s : W bef ls -> (forall s', m s <> (Exn ExPo, s')) -> pdo false bef m ls s.
  Proof.
    intros H N. assert (X : forall o w, exists rd ls', ls = rd ++ ls' /\ (false = false /\ W (bef ++ rd) ls' \/ begins (p_big5 s) (bef ++ rd) /\ LD (p_big5 s) (p_line s) bef (hd [] ls') rd (wof s) = (o, w))).
    { intros o w. exists [], ls. rewrite app_nil_r. auto. }
    unfold pdo. destruct (m s) as [[a|[]|u| |] s']; try (exact (X _ _)); auto; [discriminate|]. destruct (N _ eq_refl).
  Qed.
  Lemma header_no_po h s s' : parse_header cf fn h s <> (Exn ExPo, s').
  Proof.
    destruct (parse_header_run cf fn Hst h s) as (o & c' & ev & s2 & X1 & X2 & _). rewrite X2. intro E. injection E as -> _.
    unfold set_charsets in X1. cbn [andb] in X1. destruct (bytes_eqb _ _); [discriminate|]. destruct (ic_open _ _ _) as [?|[? ?]]; discriminate.
  Qed.
  Lemma pdo_comments f : forall bef b ls s, pos cf [] ls s -> pdo true bef (comments cf f b) ls s.
  Proof.
    induction f as [|f IH]; intros bef b ls s Hp; [exact Logic.I|]. cbn [comments]. unfold prefix.
    eapply pdo_eq; [rewrite mget_bind, (pos_hd _ _ _ Hp); reflexivity|].
    destruct (starts_with [c_hash] (hd [] ls)) eqn:Eh; [|now apply pdo_ret].
    eapply pdo_eq; [rewrite mget_bind; reflexivity|]. cbv zeta. destruct ls as [|l ls]; [discriminate|]. cbn [hd] in Eh.
    destruct (hash_notes cf (p_big5 s) bef l Eh) as (N1 & N2 & N3).
    apply pdo_bind; [apply pdo_next; [exact Hp|exact N2|rewrite N3; discriminate|exact N1]|]. intros a s1 rd ls1 _ _ H1 _. now apply IH.
  Qed.
  Lemma pdo_plural bef fz ctxt id l ls s : pos cf [] (l :: ls) s -> stage_after bef = AfterId ->
    starts_with (bs "msgid_plural") l = true ->
    (forall p rows, lit_ok false (p_big5 s) p -> rows <> [] -> Forall (row_fine (p_big5 s)) rows -> begins (p_big5 s) (bef ++ lit_lines (bs "msgid_plural") p ++ List.concat (List.map row_lines rows))) ->
    pdo false bef (plural_entry cf fn true fz ctxt id) (l :: ls) s.
  Proof.
    intros Hp Hs H HB. unfold plural_entry. pose proof (starts_firstn 12 (bs "msgid_plural") _ eq_refl H) as K.
    destruct (msg_stage l) as [Hk Hst0]. { right. left. exact (starts_shorter (bs "msgid") (bs "_plural") _ H). }
    apply pdo_bind.
    - apply pdo_get_string; [exact Hp|exact (starts_length 12 (bs "msgid_plural") _ eq_refl H)|exact Hk|exact Hst0| |].
      + unfold stage_of. rewrite H. destruct (starts_with (bs "msgctxt") l); discriminate.
      + rewrite Hs. unfold keyword_in. rewrite H. reflexivity.
    - intros ms s1 rd ls1 E El Hp1 B1. destruct (get_string_reads cf fn Hst _ _ _ _ _ _ _ _ Hp E El Hp1) as (lit & -> & _ & Hl). rewrite K.
      pose proof (get_string_rest cf fn Hst _ _ _ _ _ _ _ Hp E Hp1) as Hnc. apply pdo_bind.
      + apply pdo_loop; [exact Hp1|left; exact (stage_plural (p_big5 s) bef lit Hl)|exact Hnc|]. rewrite B1. intros rows H1 H2. rewrite <- app_assoc. now apply HB.
      + intros r s2 rd2 ls2 E2 _ Hp2 _. apply loop_ends_empty in E2. rewrite Hst, (pos_hd _ _ _ Hp2) in E2. apply pdo_done.
        unfold mbind at 1. rewrite is_empty_line_eq, Hst, (pos_hd _ _ _ Hp2), E2. cbn [run_opt]. unfold mret at 1. cbv beta iota. cbn [negb].
        destruct (_ && _); [|eexists; eexists; reflexivity]. rewrite mget_bind. unfold mbind.
        assert (X : forall op t, exists a t', dict_add cf op t = (Ret a, t')) by (intros op t; destruct (dict_add_calm cf op t) as (t' & -> & _); eauto).
        destruct (negb (pf_valid _)); [rewrite warning_eq; apply X|]. destruct (negb _); [rewrite warning_eq; apply X|apply X].
  Qed.
  Lemma pdo_singular bef fz ctxt id l ls s : pos cf [] (l :: ls) s -> stage_after bef = AfterId ->
    starts_with (bs "msgid_plural") l = false -> starts_with (bs "msgstr") l = true ->
    (forall m ls', lit_ok false (p_big5 s) m -> l :: ls = lit_lines (bs "msgstr") m ++ ls' -> ~ continues (hd [] ls') -> W (bef ++ lit_lines (bs "msgstr") m) ls') ->
    pdo false bef (singular_entry cf fn true fz ctxt id) (l :: ls) s.
  Proof.
    intros Hp Hs H0 H HW. unfold singular_entry. pose proof (starts_firstn 6 (bs "msgstr") _ eq_refl H) as K.
    destruct (msg_stage l) as [Hk Hst0]. { right. right. exact H. }
    assert (Hkw : keyword_in (stage_after bef) l = Some 6) by (rewrite Hs; unfold keyword_in; rewrite H0, H; reflexivity).
    pose proof (string_read bef 6 l ls s Hp (starts_length 6 (bs "msgstr") _ eq_refl H) Hk Hst0 Hkw) as R.
    unfold pdo, mbind at 1. destruct (get_string cf fn 6 s) as [[ms|[]|u| |] s1]; try contradiction; auto.
    destruct R as (lit & ls1 & El & <- & Hl & Hnc & Hp1 & R4 & R5 & R6). rewrite K in *. specialize (HW lit ls1 Hl El Hnc).
    assert (X : forall o w, exists rd ls', l :: ls = rd ++ ls' /\ (false = false /\ W (bef ++ rd) ls' \/ begins (p_big5 s) (bef ++ rd) /\ LD (p_big5 s) (p_line s) bef (hd [] ls') rd (wof s) = (o, w))).
    { intros o w. exists (lit_lines (bs "msgstr") lit), ls1. auto. }
    destruct (is_nil id).
    - pose proof (header_no_po (lit_value lit) s1) as N. destruct (parse_header cf fn (lit_value lit) s1) as [[a|[]|u| |] s2]; try (exact (X _ _)); auto; [discriminate|]. destruct (N _ eq_refl).
    - destruct (_ && _); [|unfold mret; discriminate]. unfold mbind. pose proof (convert_never nd (p_conv s1) (lit_value lit)) as NE. unfold do_convert at 1.
      destruct (convert nd (p_conv s1) (lit_value lit)) as [[o c] ev]. cbn [fst] in NE. destruct o as [v|e|u| |]; try contradiction; try (exact (X _ _)).
      match goal with |- context [dict_add cf ?op ?t] => destruct (dict_add_calm cf op t) as (t' & Et & _) end. rewrite Et. discriminate.
  Qed.
  Lemma pdo_entry cm fz l ls s : pos cf [] (l :: ls) s -> Forall is_comment cm ->
    (forall e m ls', en_body e = PoStr m -> entry_ok false (p_big5 s) e -> l :: ls = entry_lines e ++ ls' -> ~ continues (hd [] ls') -> W (cm ++ entry_lines e) ls') ->
    pdo false cm (entry cf fn true fz) (l :: ls) s.
  Proof.
    intros Hp Hcm HW. unfold entry, prefix. pose proof (stage_comments _ Hcm) as Hs0.
    assert (G : forall oc ls1 s1 fin, opt_lit_ok false (p_big5 s) oc -> l :: ls = ctxt_lines oc ++ ls1 -> pos cf [] ls1 s1 -> p_big5 s1 = p_big5 s ->
      keyword_in (stage_after (cm ++ ctxt_lines oc)) (hd [] ls1) = (if starts_with (bs "msgid") (hd [] ls1) then Some 5 else None) ->
      (stage_after (cm ++ ctxt_lines oc) = AtStart \/ has_keyword (hd [] ls1) = true) ->
      pdo false (cm ++ ctxt_lines oc)
        (hi_ <- mget (fun s => starts_with (bs "msgid") (p_cur s));; msgid <- (if hi_ then get_string cf fn 5 else error cf fn (bs "expected 'msgid'"));;
         hp <- mget (fun s => starts_with (bs "msgid_plural") (p_cur s));;
         if hp then plural_entry cf fn true fz fin msgid
         else hs <- mget (fun s => starts_with (bs "msgstr") (p_cur s));; if hs then singular_entry cf fn true fz fin msgid else error cf fn (bs "expected 'msgstr' or 'msgid_plural'")) ls1 s1).
    { intros oc ls1 s1 fin Hoc El0 Hp1 B1 Hkw Hor. eapply pdo_eq; [rewrite mget_bind, (pos_hd _ _ _ Hp1); reflexivity|].
      destruct (starts_with (bs "msgid") (hd [] ls1)) eqn:Em.
      2: { apply pdo_bind; [apply pdo_error; [exact Hp1|]; now apply no_keyword|]. intros a s' rd ls' E. destruct (error_not_ret _ _ _ _ _ _ _ E). }
      destruct ls1 as [|l1 ls1]; [discriminate|]. cbn [hd] in *. pose proof (starts_firstn 5 (bs "msgid") _ eq_refl Em) as K.
      destruct (msg_stage l1) as [Hk Hst0]; [auto|]. apply pdo_bind.
      - apply pdo_get_string; [exact Hp1|exact (starts_length 5 (bs "msgid") _ eq_refl Em)|exact Hk|exact Hst0| |exact Hkw].
        unfold stage_of. rewrite Em. destruct (starts_with (bs "msgctxt") l1); [discriminate|]. destruct (starts_with (bs "msgid_plural") l1); discriminate.
      - intros id s2 rd ls2 E El Hp2 B2. pose proof (get_string_rest cf fn Hst _ _ _ _ _ _ _ Hp1 E Hp2) as Hnc.
        destruct (get_string_reads cf fn Hst _ _ _ _ _ _ _ _ Hp1 E El Hp2) as (lit & -> & _ & Hl). rewrite K in *. rewrite B1 in Hl, B2.
        pose proof (stage_id (p_big5 s) (cm ++ ctxt_lines oc) lit Hl) as S2.
        eapply pdo_eq; [rewrite mget_bind, (pos_hd _ _ _ Hp2); reflexivity|]. destruct (starts_with (bs "msgid_plural") (hd [] ls2)) eqn:Ep.
        + destruct ls2 as [|l2 ls2]; [discriminate|]. apply pdo_plural; [exact Hp2|exact S2|exact Ep|]. rewrite B2. intros p rows Hpl Hne Hrows.
          exists {| bl_comments := cm; bl_entry := Some {| en_ctxt := oc; en_id := lit; en_body := PoPlural p rows |} |}, [], [[]]. split; [split; [exact Hcm|]|].
          * cbn [bl_entry]. apply entry_fine; [exact Hoc|exact Hl|]. cbn [body_ok]. auto.
          * split; [split; [split; [intros []|left; constructor]|discriminate]|]. unfold block_lines, entry_lines. cbn [bl_comments bl_entry en_ctxt en_id en_body body_lines].
            rewrite <- !app_assoc. reflexivity.
        + eapply pdo_eq; [rewrite mget_bind, (pos_hd _ _ _ Hp2); reflexivity|]. destruct (starts_with (bs "msgstr") (hd [] ls2)) eqn:Es.
          2: { apply pdo_error; [exact Hp2|]. apply no_keyword; [right; now apply keyword_or|]. rewrite S2. unfold keyword_in. rewrite Ep, Es. reflexivity. }
          destruct ls2 as [|l2 ls2]; [discriminate|]. cbn [hd] in *. apply pdo_singular; [exact Hp2|exact S2|exact Ep|exact Es|].
          rewrite B2. intros m ls' Hm Elm Hncm.
          specialize (HW {| en_ctxt := oc; en_id := lit; en_body := PoStr m |} m ls' eq_refl (entry_fine _ oc lit (PoStr m) Hoc Hl Hm)).
          unfold entry_lines in HW. cbn [en_ctxt en_id en_body body_lines] in HW. rewrite <- !app_assoc in *. apply HW; [|exact Hncm].
          rewrite El0, El, Elm. reflexivity. }
    eapply pdo_eq; [rewrite mget_bind, (pos_hd _ _ _ Hp); reflexivity|]. cbn [hd].
    destruct (starts_with (bs "msgctxt") l) eqn:Ec.
    - pose proof (starts_firstn 7 (bs "msgctxt") _ eq_refl Ec) as K. destruct (msg_stage l) as [Hk Hst0]; [auto|].
      eapply pdo_eq.
      { match goal with |- mbind (mbind ?m ?g) ?f s = _ => instantiate (1 := mbind m (fun c => f (Some c))) end.
        unfold mbind. destruct (get_string cf fn 7 s) as [[?|?|?| |] ?]; reflexivity. }
      apply pdo_bind.
      + apply pdo_get_string; [exact Hp|exact (starts_length 7 (bs "msgctxt") _ eq_refl Ec)|exact Hk|exact Hst0| |].
        * unfold stage_of. rewrite Ec. discriminate.
        * rewrite Hs0. unfold keyword_in. rewrite Ec. reflexivity.
      + intros c s1 rd ls1 E El Hp1 B1. pose proof (get_string_rest cf fn Hst _ _ _ _ _ _ _ Hp E Hp1) as Hnc.
        destruct (get_string_reads cf fn Hst _ _ _ _ _ _ _ _ Hp E El Hp1) as (lit & -> & _ & Hl). rewrite K in *.
        pose proof (stage_ctxt (p_big5 s) cm lit Hl) as S1. apply (G (Some lit)); auto.
        * change (ctxt_lines (Some lit)) with (lit_lines (bs "msgctxt") lit). rewrite S1. reflexivity.
        * right. now apply keyword_or.
    - eapply pdo_eq; [unfold mbind at 1; unfold mret at 1; reflexivity|]. specialize (G None (l :: ls) s None). cbn [ctxt_lines] in G. rewrite app_nil_r in G. apply G; auto; [exact Logic.I|].
      rewrite Hs0. cbn [hd]. unfold keyword_in. rewrite Ec. reflexivity.
  Qed.
  Lemma pdo_front ls s : pos cf [] ls s ->
    (forall b rest, ls = block_lines b ++ rest -> block_fine (p_big5 s) b -> singular b -> ~ continues (hd [] rest) -> W (block_lines b) rest) ->
    pdo false [] (front cf fn) ls s.
  Proof.
    intros Hp HW. unfold front. apply pdo_bind; [now apply pdo_comments|]. intros fz s1 rd ls1 E El Hp1 B1.
    destruct (comments_lines cf _ _ _ _ _ _ Hp E) as (cm & ls1' & El' & Hcm & Hp1' & _ & Hh).
    pose proof (pos_inj _ _ _ _ Hp1' Hp1). subst ls1'. rewrite El in El'. apply app_inv_tail in El'. subst cm. cbn [app].
    destruct (pempty_lenient (hd [] ls1)) as [e Ee]. eapply pdo_eq.
    { unfold mbind at 1. rewrite is_empty_line_eq, Hst, (pos_hd _ _ _ Hp1), Ee. cbn [run_opt]. unfold mret at 1. reflexivity. }
    destruct e; [now apply pdo_ret|]. destruct ls1 as [|l1 ls1]; [discriminate|].
    apply pdo_entry; [exact Hp1|exact Hcm|]. rewrite B1. intros e m ls' Hb He El1 Hnc.
    specialize (HW {| bl_comments := rd; bl_entry := Some e |} ls'). unfold block_lines in HW. cbn [bl_comments bl_entry] in HW. apply HW; auto.
    - rewrite El, El1, app_assoc. reflexivity.
    - split; assumption.
    - exists e, m. auto.
  Qed.
  End Lines.

  (** ** One turn of the loop *)
  Definition no_po {T} (x : A T) : Prop := forall w w', x w <> (Exn ExPo, w').
  Lemma no_po_ret T (a : T) : no_po (mret a). Proof. intros w w'. discriminate. Qed.
  Lemma no_po_bind S T (x : A S) (f : S -> A T) : no_po x -> (forall a, no_po (f a)) -> no_po (mbind x f).
  Proof.
    intros H Hf w w' E. unfold mbind in E. destruct (x w) as [[a|e|u| |] w1] eqn:Ex; try discriminate.
    - exact (Hf _ _ _ E).
    - injection E as -> <-. exact (H _ _ Ex).
  Qed.
  Lemma no_po_note evs : no_po (note evs). Proof. intros w w'. discriminate. Qed.
  Lemma no_po_conv t : no_po (converting nd t).
  Proof.
    intros w w' E. unfold converting in E. pose proof (convert_never nd (w_conv w) t) as N. destruct (convert _ _ _) as [[o c] ev]. injection E as -> _. exact N.
  Qed.
  Lemma no_po_add op : no_po (adding op). Proof. intros w w'. discriminate. Qed.
  Lemma no_po_calling cs : no_po (calling cs). Proof. intros w w'. rewrite calling_eq. discriminate. Qed.
  Lemma no_po_open f : no_po (opening f).
  Proof.
    intros w w' E. unfold opening in E. destruct (set_charsets _ _ _ _) as [[o c] ev] eqn:X1. injection E as -> _.
    unfold set_charsets in X1. cbn [andb] in X1. destruct (bytes_eqb _ _); [discriminate|]. destruct (ic_open _ _ _) as [?|[? ?]]; discriminate.
  Qed.
  Lemma no_po_rows n rows : no_po (rows_do fn pd nd n rows).
  Proof.
    revert n. induction rows as [|[i l] rows IH]; intro n; cbn [rows_do]; [apply no_po_ret|]. apply no_po_bind; [apply no_po_note|]. intros _.
    apply no_po_bind; [apply no_po_conv|]. intro v. apply no_po_bind; [apply IH|]. intro vs. apply no_po_ret.
  Qed.
  Lemma no_po_block n next b : no_po (block_do fn pd nd n next b).
  Proof.
    assert (G : forall T (f : world I -> T), no_po (mget f)) by (intros T f w w'; discriminate).
    unfold block_do. destruct (bl_entry b) as [e|]; [|apply no_po_ret]. unfold entry_do. apply no_po_bind; [apply no_po_note|]. intros _. apply no_po_bind; [apply no_po_note|]. intros _.
    unfold body_do. destruct (en_body e) as [m|p rows]; (apply no_po_bind; [apply no_po_note|]; intros _).
    - destruct (is_nil _).
      + unfold header_do. apply no_po_bind; [apply G|]. intro d. apply no_po_bind; [apply no_po_note|]. intros _. apply no_po_bind; [apply no_po_calling|]. intros _. apply no_po_open.
      + destruct (is_nil _); [apply no_po_ret|]. apply no_po_bind; [apply no_po_conv|]. intro v. apply no_po_add.
    - apply no_po_bind; [apply no_po_rows|]. intro vs. destruct (forallb _ _); [apply no_po_ret|]. apply no_po_bind; [apply G|]. intro d. apply no_po_bind; [apply no_po_note|]. intros _. apply no_po_add.
  Qed.
  Lemma turn_eq s : try_block cf fn true s = match front cf fn s with
       | (Ret _, s1) => match back cf fn s1 with (Exn ExPo, s2) => (Ret tt, s2) | r => r end
       | (Exn ExPo, s1) => (Ret tt, s1)
       | r => r end.
  Proof. unfold try_block. rewrite block_front. unfold mbind. destruct (front cf fn s) as [[a|[]|u| |] s1]; reflexivity. Qed.

  Definition turned_w (n : Z) (b5 : bool) (sg : segment) (rest : list bytes) (w : world I) (s' : pst I) : Prop :=
    exists ls', (rest = [] /\ ls' = [] \/ rest = ls' ++ [[]]) /\ at_w (n + len (seg_lines sg)) ls' (big5_end b5 (seg_entries sg)) w s'.
  Lemma turn_front s (x : A unit) (y : A unit) w n r0 b5 (Q : world I -> pst I -> Prop) : ran (front cf fn s) (x w) (at_w n r0 b5) -> no_po x ->
    (forall s1 w1, at_w n r0 b5 w1 s1 -> ran (match back cf fn s1 with (Exn ExPo, s2) => (Ret tt, s2) | r => r end) (y w1) Q) ->
    ran (try_block cf fn true s) ((x;; y) w) Q.
  Proof.
    intros F N H. rewrite turn_eq. destruct F as [F|(F1 & F2 & F3)]; unfold mbind.
    - left. destruct (front cf fn s) as [o s1]. cbn [fst] in F. subst o. reflexivity.
    - destruct (front cf fn s) as [o s1], (x w) as [o' w1] eqn:Ex. cbn [fst snd] in *. subst o' w1. destruct o as [[]|e|u| |].
      + apply H, (F3 tt eq_refl).
      + destruct e; [destruct (N _ _ Ex)|..]; (right; split; [reflexivity|]; split; [reflexivity|discriminate]).
      + right. split; [reflexivity|]. split; [reflexivity|discriminate].
      + right. split; [reflexivity|]. split; [reflexivity|discriminate].
      + left. reflexivity.
  Qed.
  Lemma do_whole n ls b5 w s b sep rest : at_w n ls b5 w s -> ls ++ [[]] = seg_lines (Whole b sep) ++ rest -> seg_ok b5 (Whole b sep) rest ->
    ran (try_block cf fn true s) (seg_do fn pd nd b5 n (Whole b sep) None w) (turned_w n b5 (Whole b sep) rest).
  Proof.
    intros H El [Hf Hs]. cbn [seg_lines] in El. rewrite <- app_assoc in El. cbn [app] in El. destruct (cut_end _ _ _ _ El) as (r0 & -> & Eh & Er). subst sep.
    unfold seg_do. eapply turn_front; [apply (front_ran b r0 b5 n s w H Hf)|apply no_po_block|].
    - destruct (bl_entry b); [exact (blank_follows cf _ _ (proj1 Hs))|exact Hs].
    - intros s1 w1 H1. unfold back. unfold mbind at 1. rewrite is_empty_line_eq, (at_hd _ _ _ _ _ H1), (pempty_blank _ _ (proj1 Hs)). cbn [run_opt]. unfold mret at 1. cbv beta iota.
      unfold mbind, mret at 1. rewrite next_line_eq. right. unfold mret. cbn [fst snd].
      assert (X : at_w (n + len (seg_lines (Whole b (hd [] r0)))) (tl r0) (big5_end b5 (opt_list (bl_entry b))) w1 (nextst s1)).
      { cbn [seg_lines]. rewrite DocLog.len_app, Z.add_assoc. exact (DocLog.at_tl cf _ _ _ _ _ _ H1). }
      split; [reflexivity|]. split; [exact (at_wof _ _ _ _ _ X)|]. intros _ _. exists (tl r0). split; [exact Er|exact X].
  Qed.
  Lemma do_excess n ls b5 w s b x sk rest : at_w n ls b5 w s -> ls ++ [[]] = seg_lines (Excess b x sk) ++ rest -> seg_ok b5 (Excess b x sk) rest ->
    ran (try_block cf fn true s) (seg_do fn pd nd b5 n (Excess b x sk) (Some (bs "expected empty line")) w) (turned_w n b5 (Excess b x sk) rest).
  Proof.
    intros H El (Hf & (e & m & Eb & Em) & Nb & Nc & Hsk). cbn [seg_lines] in El. rewrite <- app_assoc in El. cbn [app] in El. destruct (cut_end _ _ _ _ El) as (r0 & -> & Eh & Er). subst x.
    assert (Fw : follows cf e (hd [] r0)) by (unfold follows; rewrite Em; unfold stops; rewrite Hst; now apply pquote_continues).
    unfold seg_do. eapply turn_front; [apply (front_ran b r0 b5 n s w H Hf)|apply no_po_block|].
    - rewrite Eb. exact Fw.
    - intros s1 w1 A. pose proof (at_hd _ _ _ _ _ A) as Hcur. pose proof (at_wof _ _ _ _ _ A) as Hw. destruct A as (A1 & [A2 A2'] & A3 & A4 & A5 & A6).
      destruct (error_run cf fn Hst unit (bs "expected empty line") r0 s1 A1) as (s2 & E2 & T2 & V2).
      pose proof (post_error cf fn Hst true (fun _ _ m => m = bs "expected empty line") unit (bs "expected empty line") r0 s1 A1 eq_refl) as PE. unfold post in PE. rewrite E2 in PE.
      destruct PE as (pre & lse & sk1 & ls' & msg & (G1 & G2 & G3 & G4 & G5 & (rs & R1 & R2) & (F1 & F2 & F3 & _) & _) & ->).
      assert (R3 := R2). rewrite T2 in R3. apply app_inv_head in R3. change [mistake fn (p_line s1) (bs "expected empty line") (hd [] r0)] with ([] ++ [mistake fn (p_line s1) (bs "expected empty line") (hd [] r0)]) in R3.
      apply app_inj_tail in R3 as [_ R3]. apply Numbers.mistake_inj in R3 as [R3 _]. assert (pre = []) as -> by (destruct pre; [reflexivity|cbn [length] in R3; lia]). cbn [app] in G1. subst lse.
      assert (TB : back cf fn s1 = (Exn ExPo, s2)).
      { unfold back. unfold mbind at 1. rewrite is_empty_line_eq, Hst, Hcur.
        destruct (pempty_lenient (hd [] r0)) as [[] B]; [exfalso; apply Nb; apply pempty_true; [apply hd_one; eapply pos_one, A1|exact B]|].
        rewrite B. cbn [run_opt]. unfold mret at 1. cbv beta iota. unfold mbind. rewrite E2. reflexivity. }
      rewrite TB. destruct (turn_mistake (block_lines b ++ r0) (block_lines b) r0 sk1 ls' eq_refl G2) as (rest1 & T1 & T3 & T4). specialize (T4 G5).
      rewrite El in T1. apply app_inv_head in T1. injection T1 as T1. apply skips_inj in T1 as [<- <-]; auto.
      right. cbn [fst snd]. split; [reflexivity|].
      assert (X : wof s2 = noted w1 [mistake fn (n + len (block_lines b)) (bs "expected empty line") (hd [] r0)]).
      { unfold wof, noted. rewrite V2, F2, F3, T2, A2, A2', A4, A5, A6. reflexivity. }
      split; [exact X|]. intros _ _. exists ls'. split; [exact T3|]. apply wof_at; [exact G3|rewrite F1; exact A3| |exact X].
      rewrite G4, A5. cbn [seg_lines length]. rewrite DocLog.len_app. unfold len. cbn [length]. lia.
  Qed.

  Lemma do_broken n ls b5 w s pre x sk rest msg : at_w n ls b5 w s -> ls ++ [[]] = seg_lines (Broken pre x sk) ++ rest -> seg_ok b5 (Broken pre x sk) rest ->
    complaint b5 pre x msg ->
    ran (try_block cf fn true s) (seg_do fn pd nd b5 n (Broken pre x sk) (Some msg) w) (turned_w n b5 (Broken pre x sk) rest).
  Proof.
    intros H El Hok Hmsg. pose proof (at_wof _ _ _ _ _ H) as Hw. destruct H as (Hp & _ & Hb5 & _ & Hn & _). subst b5 n w.
    assert (HW : forall b r, ls = block_lines b ++ r -> block_fine (p_big5 s) b -> singular b -> ~ continues (hd [] r) -> False).
    { intros b r E Hf Hs Hnc. pose proof (pos_one cf _ _ Hp) as Ho. rewrite E in Ho. apply Forall_app in Ho as [_ Ho].
      assert (Hx : one_line (hd [] r)) by (destruct r; [intros []|now inversion Ho]).
      assert (X : exists more, r ++ [[]] = hd [] r :: more) by (destruct r; cbn [app hd]; eauto). destruct X as [more X].
      rewrite E, <- app_assoc, X in El. destruct (pempty_lenient (hd [] r)) as [[] B].
      - assert (Y : Whole b (hd [] r) = Broken pre x sk /\ more = rest); [|destruct Y; discriminate].
        apply (segment_inj (p_big5 s)); [split; [exact Hf|split; [now apply pempty_true|]]|exact Hok|cbn [seg_lines] in *; rewrite <- app_assoc; exact El].
        destruct Hs as (e & m & Z & _). rewrite Z. discriminate.
      - destruct (skips_exist more) as (sk2 & fol & -> & F).
        assert (Y : Excess b (hd [] r) sk2 = Broken pre x sk /\ fol = rest); [|destruct Y; discriminate].
        apply (segment_inj (p_big5 s)); [|exact Hok|cbn [seg_lines] in *; rewrite <- app_assoc; exact El].
        split; [exact Hf|]. split; [exact Hs|]. split; [now apply pempty_false|]. split; [exact Hnc|exact F]. }
    pose proof (post_front cf fn Hst ls s Hp) as PF. pose proof (pdo_front (fun _ _ => False) ls s Hp HW) as PL.
    unfold post in PF. unfold pdo in PL.
    pose proof (turn_eq s) as TB. rewrite TB.
    assert (Fail : forall o s', (exists rd ls', ls = rd ++ ls' /\ (false = false /\ False \/ begins (p_big5 s) ([] ++ rd) /\ LD (p_big5 s) (p_line s) [] (hd [] ls') rd (wof s) = (o, s'))) ->
      (forall a, o <> Ret a) -> seg_do fn pd nd (p_big5 s) (p_line s) (Broken pre x sk) (Some msg) (wof s) = (o, s')).
    { intros o s' (rd & ls' & E & [[_ []]|[Hbg L]]) No. cbn [app] in Hbg. destruct Hok as (_ & Nbg & _).
      assert (C : exists q, pre = rd ++ q /\ hd x q = hd [] ls').
      { cbn [seg_lines] in El. rewrite E, <- !app_assoc in El. cbn [app] in El. clear - El Hbg Nbg. revert Hbg Nbg El. generalize (p_big5 s) as b5. intros b5 Hbg Nbg El.
        assert (Le : length rd <= length pre).
        { destruct (Nat.le_gt_cases (length rd) (length pre)) as [L|L]; [exact L|exfalso]. apply Nbg.
          assert (X : firstn (length (pre ++ [x])) rd = pre ++ [x]).
          { transitivity (firstn (length (pre ++ [x])) (rd ++ ls' ++ [[]])).
            - rewrite firstn_app. rewrite app_length. cbn [length]. replace (length pre + 1 - length rd) with 0 by lia. cbn [firstn]. now rewrite app_nil_r.
            - rewrite El. replace (pre ++ x :: sk ++ rest) with ((pre ++ [x]) ++ sk ++ rest) by (rewrite <- app_assoc; reflexivity). rewrite firstn_app, Nat.sub_diag, firstn_all. cbn [firstn]. apply app_nil_r. }
          destruct Hbg as (b & sep & more & B1 & B2 & B3). exists b, sep, (skipn (length (pre ++ [x])) rd ++ more). split; [exact B1|]. split; [exact B2|].
          rewrite B3. rewrite <- X at 1. rewrite app_assoc, firstn_skipn. reflexivity. }
        exists (skipn (length rd) pre).
        assert (X : rd = firstn (length rd) pre).
        { transitivity (firstn (length rd) (rd ++ ls' ++ [[]])); [rewrite firstn_app, Nat.sub_diag, firstn_all; cbn [firstn]; now rewrite app_nil_r|].
          rewrite El, firstn_app. replace (length rd - length pre) with 0 by lia. cbn [firstn]. apply app_nil_r. }
        assert (Y : pre = rd ++ skipn (length rd) pre) by (rewrite X at 1; symmetry; apply firstn_skipn). split; [exact Y|].
        rewrite Y, <- app_assoc in El. apply app_inv_head in El. destruct (skipn (length rd) pre), ls'; cbn [app hd] in *; congruence. }
      destruct C as (q & -> & Eh). unfold seg_do. cbv beta iota. unfold mbind. rewrite lines_do_app, Eh. unfold mbind. rewrite L. destruct o; try reflexivity. destruct (No _ eq_refl). }
    destruct (front cf fn s) as [[[]|[]|u| |] s1] eqn:E1;
      try (right; rewrite (Fail _ _ PL) by discriminate; cbn [fst snd]; split; [reflexivity|]; split; [reflexivity|discriminate]); [| |left; reflexivity]; clear Fail.
    - (* the block was read *)
      exfalso. destruct PF as [(rd & ls1 & W1 & W2 & _) _].
      assert (BK : exists s2, try_block cf fn true s = (Ret tt, s2)).
      { rewrite TB. unfold back. unfold mbind at 1. rewrite is_empty_line_eq, Hst, (pos_hd _ _ _ W2).
        destruct (pempty_lenient (hd [] ls1)) as [[] B]; rewrite B; cbn [run_opt]; unfold mret at 1; cbv beta iota.
        - unfold mbind, mret. rewrite next_line_eq. eauto.
        - unfold mbind. destruct (error_run cf fn Hst unit (bs "expected empty line") _ _ W2) as (t' & Et & _). rewrite Et. eauto. }
      destruct BK as [s2 BK]. destruct (block_step cf fn Hst _ ls s s2 Hp eq_refl BK) as (sg & ls' & rst & (_ & T2 & _ & _ & _ & T7 & _) & TF).
      rewrite T2 in El. apply (segment_inj (p_big5 s)) in El as [-> _]; auto. rewrite E1 in TF. discriminate.
    - (* a mistake *)
      destruct PF as (pre1 & lse & sk1 & ls' & msg1 & Er & Hb & Hco). destruct (erred_broken cf fn Hst _ _ _ _ _ _ _ _ Er Hp Hb) as [B1 B2].
      destruct Er as (G1 & G2 & G3 & G4 & G5 & (rs & R1 & R2) & G7 & _).
      destruct (turn_mistake ls pre1 lse sk1 ls' G1 G2) as (rst & T1 & T2 & T3).
      destruct PL as (pre2 & lse2 & msg2 & w1 & P1 & P2 & P3). cbn [app] in P3.
      assert (R3 : w_log (wof s1) = p_tr s1) by reflexivity. rewrite P3, R2 in R3. unfold noted in R3. cbn [w_log] in R3. rewrite !app_assoc in R3.
      apply app_inj_tail in R3 as [_ R3]. apply Numbers.mistake_inj in R3 as [R3 R4].
      destruct (cut_same ls pre2 lse2 pre1 lse P1 G1 ltac:(unfold len in R3; lia)) as [-> ->]. rewrite !app_assoc in R4. apply app_inv_tail in R4. apply app_inv_tail in R4. subst msg2.
      assert (Esg : Broken pre1 (hd [] lse) sk1 = Broken pre x sk /\ rst = rest).
      { apply (segment_inj (p_big5 s)); [split; [exact Hb|]; split; [exact B1|]; split; [exact B2|apply T3, G5]|exact Hok|].
        rewrite <- El. cbn [seg_lines]. rewrite <- app_assoc. symmetry. exact T1. }
      destruct Esg as [Esg ->]. injection Esg as -> Ex ->. rewrite Ex in *. pose proof (complaint_det _ _ _ _ _ Hmsg Hco). subst msg1.
      right. unfold seg_do. cbv beta iota.
      match goal with |- context [fst (mbind ?a ?b ?w0)] => assert (X : mbind a b w0 = (Ret tt, wof s1)) end.
      { unfold mbind at 1. unfold mbind at 1. rewrite P2. rewrite P3. change (note ?e ?v) with (@Ret unit tt, noted v e). cbv beta iota. rewrite <- noted_app. reflexivity. }
      rewrite X. cbn [fst snd]. split; [reflexivity|]. split; [reflexivity|]. intros _ _. exists ls'. split; [exact T2|]. destruct G7 as (F1 & _).
      apply wof_at; [exact G3|exact F1| |reflexivity]. rewrite G4. cbn [seg_lines]. rewrite DocLog.len_app. unfold len. cbn [length]. lia.
  Qed.
  Lemma do_any n ls b5 w s sg m rest : at_w n ls b5 w s -> ls ++ [[]] = seg_lines sg ++ rest -> seg_ok b5 sg rest -> diagnosed b5 sg m ->
    ran (try_block cf fn true s) (seg_do fn pd nd b5 n sg m w) (turned_w n b5 sg rest).
  Proof.
    intros H El Hok Hd. destruct sg as [b sep|b x sk|pre x sk]; cbn [diagnosed] in Hd.
    - subst m. eapply do_whole; eassumption.
    - subst m. eapply do_excess; eassumption.
    - destruct Hd as (msg & -> & Hc). eapply do_broken; eassumption.
  Qed.

  (** ** The loop *)
  Lemma loop_do sgs : forall f n ls b5 w s ms, at_w n ls b5 w s -> segs_lines sgs = ls ++ [[]] -> segs_ok b5 sgs -> segs_diagnosed b5 sgs ms ->
    ran (parse_loop cf fn true f s) (segs_do fn pd nd b5 n sgs ms w) (fun _ _ => True).
  Proof.
    induction sgs as [|sg sgs IH]; intros f n ls b5 w s ms H El Hok Hd.
    { unfold segs_lines in El. cbn [List.map List.concat] in El. destruct ls; discriminate El. }
    destruct ms as [|m ms]; [destruct Hd|]. destruct Hd as [Hd1 Hd2].
    destruct f as [|f]; [left; reflexivity|]. cbn [parse_loop]. destruct (pos_wf cf _ _ (proj1 H)) as (_ & _ & He).
    eapply ran_eq; [rewrite mget_bind, He; reflexivity|reflexivity|].
    unfold segs_lines in El. cbn [List.map List.concat] in El. fold (segs_lines sgs) in *. destruct Hok as [Hok1 Hok2]. cbn [segs_do]. destruct ls as [|l ls]; cbn [is_nil].
    - (* nothing but the empty line at the end *)
      cbn [app] in El. assert (E0 : sg = Whole block0 [] /\ segs_lines sgs = []).
      { apply (segment_inj b5); [exact Hok1|apply whole0|]. rewrite El. reflexivity. }
      destruct E0 as [-> E0]. assert (sgs = []) as ->.
      { destruct sgs as [|sg sgs]; [reflexivity|]. unfold segs_lines in E0. cbn [List.map List.concat] in E0. apply app_eq_nil in E0 as [E0 _]. destruct (seg_lines_ne _ E0). }
      destruct ms; [|destruct Hd2]. cbn [diagnosed] in Hd1. subst m. right. split; [reflexivity|]. split; [exact (at_wof _ _ _ _ _ H)|auto].
    - pose proof (do_any n (l :: ls) b5 w s sg m (segs_lines sgs) H (eq_sym El) Hok1 Hd1) as T. eapply ran_bind; [exact T|]. intros [] s1 w1 _ (ls' & T1 & T2). destruct T1 as [[T1 ->]|T1].
      + assert (sgs = []) as ->.
        { destruct sgs as [|sg' sgs]; [reflexivity|]. unfold segs_lines in T1. cbn [List.map List.concat] in T1. apply app_eq_nil in T1 as [E0 _]. destruct (seg_lines_ne _ E0). }
        destruct f as [|f]; [left; reflexivity|]. cbn [parse_loop]. unfold ran. rewrite mget_bind. destruct (pos_wf cf _ _ (proj1 T2)) as (_ & _ & He2). rewrite He2. cbn [is_nil segs_do].
        right. split; [reflexivity|]. split; [exact (at_wof _ _ _ _ _ T2)|auto].
      + exact (IH f _ ls' _ w1 s1 ms T2 T1 Hok2 Hd2).
  Qed.
End Run.

(** ** The whole file *)
Lemma start_w cf b d : complete b -> at_w cf 1 (file_lines b) false (start (cf_iconv cf) d) (DocTop.started cf b d).
Proof.
  intro Hc. destruct (start_at cf b d Hc) as (H1 & _ & H3 & _ & H5 & _). apply wof_at; [exact H1|exact H3|exact H5|].
  unfold wof, start. unfold DocTop.started, strip_bom. set (s0 := init_state cf (stream_of b) d). nx s0. set (s1 := nextst s0) in *.
  change (iconv_new (cf_iconv cf)) with (p_conv s0). change d with (p_dict s0). change (@nil dict_call) with (p_calls s0). change (@nil event) with (p_tr s0).
  rewrite <- Nd, <- Nc, <- Nv, <- Nt. clearbody s1. destruct (starts_with bom (p_cur s1)); reflexivity.
Qed.
Lemma result_does {I : iconv_impl} (y : outcome unit * pst I) (x : outcome unit * world I) : fst y = fst x ->
  {| w_conv := p_conv (snd y); w_dict := p_dict (snd y); w_calls := p_calls (snd y); w_log := p_tr (snd y) |} = snd x -> parse_does (result_of y) x.
Proof. intros X1 X2. unfold parse_does, result_of. rewrite <- X1, <- X2. cbn [pr_outcome pr_dict pr_calls pr_trace w_conv w_dict w_calls w_log]. auto. Qed.
Lemma parse_run cf fn b d sgs ms r : cf_strict cf = false -> complete b -> segs_lines sgs = file_lines b ++ [[]] -> segs_ok false sgs ->
  segs_diagnosed false sgs ms -> parses_to cf fn (stream_of b) d r ->
  parse_does r (segs_do fn (cf_pedantic cf) (cf_ndebug cf) false 1 sgs ms (start (cf_iconv cf) d)).
Proof.
  intros Hst Hc El Hok Hd P. apply parses_to_elim in P as (n & <- & Hn). rewrite po_parse_eq in *. fold (DocTop.started cf b d) in *.
  assert (Hst' : cf_strict (with_fuel cf n) = false) by exact Hst.
  destruct (loop_do (with_fuel cf n) fn Hst' sgs n 1 (file_lines b) false _ _ ms (start_w cf b d Hc) El Hok Hd) as [X|(X1 & X2 & _)]; [contradiction|].
  exact (result_does _ _ X1 X2).
Qed.
