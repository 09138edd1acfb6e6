(** The exact log of a parse of a document that needs no conversion. *)
From Verif.Model Require Import Base Log PluralForms Dictionary IConv Stream PoParser.
From Verif.Spec Require Import DictSpec ParserSpec PoSpec DiagSpec.
From Verif.Proofs Require Import BaseFacts DictProofs LexProofs ParserUnary DocLex ParserRel ParserSafe ParserFuel ParserLocal
  ParserCut ParserBlank ParserTerm ParserLinewise ParserMisc DocProofs DocLoop DocTop.
Local Open Scope list_scope.

Lemma len_nil {A} : @len A [] = 0%Z. Proof. reflexivity. Qed.
Lemma len_cons {A} (x : A) l : len (x :: l) = (1 + len l)%Z.
Proof. unfold len. cbn [length]. lia. Qed.
Lemma len_app {A} (a b : list A) : len (a ++ b) = (len a + len b)%Z.
Proof. unfold len. rewrite app_length. lia. Qed.

Lemma pf_eqb_dec p q : pf_eqb p q = if plural_forms_dec p q then true else false.
Proof.
  unfold pf_eqb. destruct (plural_forms_dec p q) as [->|N].
  - rewrite Z.eqb_refl. cbn [andb]. destruct (pf_plural q) as [f|]; [|reflexivity].
    destruct (plural_fn_eq_dec f f); [reflexivity|congruence].
  - destruct p as [n f], q as [m g]. cbn [pf_nplural pf_plural] in *. destruct (Z.eqb_spec n m) as [->|E]; [|reflexivity]. cbn [andb].
    destruct f as [f|], g as [g|]; try reflexivity; try congruence.
    destruct (plural_fn_eq_dec f g) as [->|E]; [congruence|reflexivity].
Qed.

Lemma add_log_exact d op : List.map EvLog (snd (add_translation d op)) = add_log_of d op.
Proof.
  unfold add_log_of. destruct (add_log d op) as [(old & H1 & H2 & H3 & ->)|[H ->]].
  - rewrite H1. destruct old as [|x old]; [congruence|]. cbn [is_nil]. destruct (forms_dec _ _) as [E|_]; [congruence|reflexivity].
  - destruct (lookup d (op_key op)) as [old|] eqn:E; [|reflexivity]. destruct old as [|x old]; [reflexivity|]. cbn [is_nil].
    destruct (forms_dec (new_forms (Some (x :: old)) op) (x :: old)) as [E1|N]; [reflexivity|].
    exfalso. apply H. exists (x :: old). split; [reflexivity|]. split; [discriminate|exact N].
Qed.

Section DocLog.
  Variable cf : config.
  Variable fn : bytes.
  Local Notation I := (cf_iconv cf).
  Local Notation P := (M (pst I)).
  Local Notation st := (cf_strict cf).
  Local Notation pd := (cf_pedantic cf).
  Local Open Scope mon_scope.
  Ltac sv := cbn [st_tr st_dict st_conv st_big5 st_cur st_line p_in p_dict p_eof p_big5 p_line p_cur p_conv p_tr p_calls] in *.

  (** the parser is at line [n], the first of [ls]; it has logged [tr]; [V] holds of its
      converter and of the dictionary calls made *)
  Definition at_v (V : iconv I -> list dict_call -> Prop) (n : Z) (ls : list bytes) (b5 : bool) (d : dictionary) (tr : list event) (s : pst I) : Prop :=
    pos cf [] ls s /\ V (p_conv s) (p_calls s) /\ p_big5 s = b5 /\ p_dict s = d /\ p_line s = n /\ p_tr s = tr.
  Ltac bg := match goal with
    | |- gets _ _ _ _ => eapply bind_gets_gets
    | |- _ => eapply bind_gets
    end.

  Section Generic.
  Variable V : iconv I -> list dict_call -> Prop.
  Local Notation at_ := (at_v V).

  Lemma at_cur n ls b5 d tr s : at_ n ls b5 d tr s -> p_cur s = hd [] ls.
  Proof. intros [H _]. exact (pos_cur _ _ _ _ H). Qed.
  Lemma at_next n l ls b5 d tr s : at_ n (l :: ls) b5 d tr s -> at_ (n + 1) ls b5 d tr (nextst s).
  Proof.
    intros (H1 & H2 & H3 & H4 & H5 & H6). apply pos_next in H1. nx s. unfold at_v. rewrite Nd, Nb, Nt, Nv, Nc, Nl. subst n. auto 10.
  Qed.
  Lemma at_tl n ls b5 d tr s : at_ n ls b5 d tr s -> at_ (n + 1) (tl ls) b5 d tr (nextst s).
  Proof.
    destruct ls as [|l ls]; [|apply at_next]. cbn [tl].
    intros (H1 & H2 & H3 & H4 & H5 & H6). apply pos_next_end in H1. nx s. unfold at_v. rewrite Nd, Nb, Nt, Nv, Nc, Nl. subst n. auto 10.
  Qed.
  Lemma at_warned n ls b5 d tr s w : at_ n ls b5 d tr s -> at_ n ls b5 d (tr ++ [reported fn n (hd [] ls) w]) (warned cf fn w s).
  Proof.
    intros H. pose proof (at_cur _ _ _ _ _ _ H) as Hc. destruct H as (H1 & H2 & H3 & H4 & H5 & H6).
    split; [exact H1|]. split; [exact H2|]. split; [exact H3|]. split; [exact H4|]. split; [exact H5|].
    unfold warned, reported. sv. rewrite Hc, H5, H6. reflexivity.
  Qed.
  Lemma at_warns n ls b5 d ws : forall tr s, at_ n ls b5 d tr s ->
    at_ n ls b5 d (tr ++ List.map (reported fn n (hd [] ls)) ws) (warned_all cf fn ws s).
  Proof.
    induction ws as [|w ws IH]; intros tr s H; cbn [warned_all List.map]; [now rewrite app_nil_r|].
    apply (at_warned _ _ _ _ _ _ w) in H. apply IH in H. rewrite <- app_assoc in H. exact H.
  Qed.

  (** ** Literals *)
  Lemma more_log_ok rest b5 d more : forall f out n l0 tr s,
    at_ n (l0 :: List.map chunk_text more ++ rest) b5 d tr s -> Forall (chunk_ok st b5) more -> stops cf (hd [] rest) ->
    gets cf (continuation cf fn f out s) (out ++ List.concat (List.map chunk_value more))
      (at_ (n + 1 + len more) rest b5 d (tr ++ more_log fn pd (n + 1) more)).
  Proof.
    induction more as [|ck more IH]; intros f out n l0 tr s H Hm Hs; (destruct f as [|f]; [left; reflexivity|]).
    - cbn [List.map app] in H. apply at_next in H. rewrite continuation_stop.
      + cbn [List.map List.concat more_log]. rewrite !app_nil_r, len_nil, Z.add_0_r. apply gets_ret. exact H.
      + rewrite (at_cur _ _ _ _ _ _ H). exact Hs.
    - inversion Hm as [|? ? Hck Hm']; subst. cbn [List.map app] in H. apply at_next in H.
      pose proof (at_cur _ _ _ _ _ _ H) as Hc. cbn [hd] in Hc.
      cbn [continuation]. unfold mbind at 1. rewrite next_line_eq, mget_bind. unfold mbind at 1. rewrite find_quote_eq, Hc.
      rewrite (pquote_chunk st b5) by assumption. cbn [run_opt]. unfold mret at 1; cbv beta iota.
      set (w0 := if pd && (length (ck_lead ck) =? 1) then [bs "leading whitespace before string"] else []).
      assert (W : forall s2 tr2, at_ (n + 1) (chunk_text ck :: List.map chunk_text more ++ rest) b5 d tr2 s2 ->
         gets cf (mbind (get_string_line cf fn out (length (ck_lead ck))) (continuation cf fn f) s2)
           (out ++ List.concat (List.map chunk_value (ck :: more)))
           (at_ (n + 1 + len (ck :: more)) rest b5 d
              (tr2 ++ List.map (reported fn (n + 1) (chunk_text ck)) (string_notes ck) ++ more_log fn pd (n + 1 + 1) more))).
      { intros s2 tr2 H'. unfold mbind. rewrite get_string_line_eq, run_lex_eq, (at_cur _ _ _ _ _ _ H'). cbn [hd].
        replace (p_big5 s2) with b5 by (symmetry; apply H').
        rewrite (pline_text_x st b5 out ck Hck). cbn [List.map List.concat]. rewrite !app_assoc.
        apply (at_warns _ _ _ _ (string_notes ck)) in H'. cbn [hd] in H'.
        pose proof (IH f (out ++ chunk_value ck) _ _ _ _ H' Hm' Hs) as G. rewrite len_cons.
        replace (n + 1 + (1 + len more))%Z with (n + 1 + 1 + len more)%Z by ring. exact G. }
      cbn [more_log]. unfold more_notes. fold w0. rewrite map_app, <- !app_assoc, (app_assoc tr).
      unfold mbind at 1. rewrite (andb_comm _ pd). unfold w0.
      destruct (pd && (length (ck_lead ck) =? 1)).
      + rewrite warning_eq. apply W. cbn [List.map]. apply (at_warned _ _ _ _ _ _ _ H).
      + unfold mret at 1. apply W. cbn [List.map]. rewrite app_nil_r. exact H.
  Qed.

  Lemma lit_log_ok kw skip rest b5 d l n tr s :
    skip = length kw -> at_ n (lit_lines kw l ++ rest) b5 d tr s -> lit_ok st b5 l -> stops cf (hd [] rest) ->
    gets cf (get_string cf fn skip s) (lit_value l)
      (at_ (n + len (lit_lines kw l)) rest b5 d (tr ++ lit_log fn pd n kw l)).
  Proof.
    intros -> H Hl Hs. inversion Hl as [|? ? H1 H2]; subst. rewrite get_string_eq. unfold mbind. rewrite run_lex_eq.
    rewrite (at_cur _ _ _ _ _ _ H). cbn [lit_lines app hd]. replace (p_big5 s) with b5 by (symmetry; apply H).
    rewrite (pfirst_x st pd b5 kw (lt_head l) H1). unfold lit_log, lit_value. cbn [List.map List.concat]. rewrite app_assoc.
    apply (at_warns _ _ _ _ (head_notes pd (lt_head l))) in H. cbn [lit_lines app hd] in H.
    pose proof (more_log_ok rest b5 d (lt_more l) (cf_fuel cf) (chunk_value (lt_head l)) _ _ _ _ H H2 Hs) as G.
    unfold lit_lines. rewrite len_cons. assert (Em : len (List.map chunk_text (lt_more l)) = len (lt_more l)) by (unfold len; now rewrite map_length). rewrite Em.
    replace (n + (1 + len (lt_more l)))%Z with (n + 1 + len (lt_more l))%Z by ring. exact G.
  Qed.

  (** ** Comments *)
  Lemma comments_at rest b5 d tr cm : forall f b n s,
    at_ n (cm ++ rest) b5 d tr s -> Forall is_comment cm -> starts_with [c_hash] (hd [] rest) = false ->
    ok cf (comments cf f b s) (fun o s' => exists fz, o = Ret fz /\ at_ (n + len cm) rest b5 d tr s').
  Proof.
    induction cm as [|l cm IH]; intros f b n s H Hc Hn; (destruct f as [|f]; [left; reflexivity|]); cbn [comments]; unfold prefix;
      rewrite mget_bind, (at_cur _ _ _ _ _ _ H); cbn [app hd].
    - cbn [app] in H. rewrite Hn. right. exists b. split; [reflexivity|]. rewrite len_nil, Z.add_0_r. exact H.
    - inversion Hc as [|? ? (l' & -> & Hl') Hc']; subst. change (starts_with [c_hash] (c_hash :: l')) with (bytes_eqb [c_hash] [c_hash]).
      rewrite bytes_eqb_refl. rewrite mget_bind. unfold mbind. rewrite next_line_eq. rewrite len_cons, Z.add_assoc. apply IH; auto.
      cbn [app] in H. eapply at_next, H.
  Qed.

  End Generic.
  Arguments at_cur {V}. Arguments at_next {V}. Arguments at_tl {V}. Arguments at_warned {V}. Arguments at_warns {V}.
  Arguments more_log_ok {V}. Arguments lit_log_ok {V}. Arguments comments_at {V}.

  (** ** The header *)
  Section Header.
  Variable Vc : iconv I -> Prop.
  Local Notation at_ := (at_v (fun c _ => Vc c)).
  Lemma header_line_log n ls b5 d tr line charset s :
    at_ n ls b5 d tr s -> clean st line ->
    gets cf (header_line cf fn line charset s)
      (match after ct_full line with Some x => List.map toupper x | None => charset end)
      (at_ n ls b5 (fold_left apply_call (List.map CallPlural (hdr_plural line)) d)
         (tr ++ List.map (reported fn n (hd [] ls)) (hdr_line_notes d line))).
  Proof.
    intros H Hc. unfold header_line, hdr_line_notes. fold ct_full. change (bs "Content-Type:") with content_type.
    change (bs "Plural-Forms:") with plural_forms_key. unfold after, hdr_plural. change (bs "Plural-Forms:") with plural_forms_key.
    destruct (starts_with content_type line) eqn:E1.
    - rewrite (ct_not_plural _ E1). change content_type_full with ct_full. cbn [List.map fold_left].
      destruct (starts_with ct_full line) eqn:E2.
      + rewrite (clean_hi _ _ (clean_skipn _ (length ct_full) _ Hc)). apply gets_ret. cbn [List.map]. rewrite app_nil_r. exact H.
      + unfold mbind. rewrite warning_eq. apply gets_ret. cbn [List.map]. now apply at_warned.
    - destruct (starts_with ct_full line) eqn:E2; [apply full_prefix in E2; congruence|].
      destruct (starts_with plural_forms_key line).
      2: { apply gets_ret. cbn [List.map fold_left]. rewrite app_nil_r. exact H. }
      unfold mbind at 1, mlift. rewrite (from_string_clean _ _ Hc).
      assert (F : exists p, from_string false line = Ret p) by (unfold from_string; cbn [andb]; destruct (assoc _ _); eauto).
      destruct F as [p ->]. cbv beta iota. unfold mbind at 1. destruct (pf_valid p) eqn:Ep; cbn [negb].
      2: { rewrite warning_eq. apply gets_ret. cbn [List.map fold_left]. now apply at_warned. }
      rewrite mget_bind. unfold mbind at 1. cbn [List.map fold_left].
      assert (W : forall s2 tr2, at_ n ls b5 d tr2 s2 ->
        gets cf (let (o, s') := dict_call_ cf (CallPlural p) s2 in
              match o with
              | Ret _ => mret charset s' | Exn e => (Exn e, s') | Ub u => (Ub u, s') | AssertFail => (AssertFail, s') | OutOfFuel => (OutOfFuel, s') end)
             charset (at_ n ls b5 (apply_call d (CallPlural p)) tr2)).
      { intros s2 tr2 (H1 & H2 & H3 & H4 & H5 & H6). unfold dict_call_, mmod. apply gets_ret. unfold at_v, pos in *. sv. rewrite H4. auto 10. }
      assert (Hd : p_dict s = d) by apply H. rewrite Hd. destruct (pf_valid (get_plural_forms d)) eqn:Ev.
      + rewrite pf_eqb_dec. destruct (plural_forms_dec _ _); cbn [negb].
        * apply W. cbn [List.map]. rewrite app_nil_r. exact H.
        * rewrite warning_eq. apply W. cbn [List.map]. now apply at_warned.
      + apply W. cbn [List.map]. rewrite app_nil_r. exact H.
  Qed.

  Lemma header_loop_log n ls b5 h : forall acc charset d tr s,
    at_ n ls b5 d tr s -> clean st (acc ++ h) ->
    gets cf (header_loop cf fn h acc charset s)
      (match last_some (after ct_full) (hdr_lines_from acc h) with Some x => List.map toupper x | None => charset end)
      (at_ n ls b5 (fold_left apply_call (List.map CallPlural (List.concat (List.map hdr_plural (hdr_lines_from acc h)))) d)
         (tr ++ List.map (reported fn n (hd [] ls)) (hdr_lines_notes d (hdr_lines_from acc h)))).
  Proof.
    induction h as [|x h IH]; intros acc charset d tr s H Hc; cbn [header_loop hdr_lines_from].
    - apply gets_ret. cbn. rewrite app_nil_r. exact H.
    - destruct (byte_eqb x c_lf).
      + cbn [last_some List.map List.concat hdr_lines_notes]. apply clean_app in Hc as [Hc1 Hc2].
        eapply bind_gets; [apply (header_line_log n ls b5 d tr acc charset s H Hc1)|].
        intros s' H'. eapply ok_mono; [apply (IH [] _ _ _ s' H')|].
        * apply (clean_app st [x] h) in Hc2. apply Hc2.
        * intros o s2 [-> H2]. split.
          -- destruct (last_some (after ct_full) (hdr_lines_from [] h)); reflexivity.
          -- rewrite !map_app, app_assoc, fold_left_app. exact H2.
      + apply IH; [exact H|]. rewrite <- app_assoc. exact Hc.
  Qed.

  Definition header_first (h : bytes) : P bytes :=
    charset <- header_loop cf fn h [] [];;
    (if is_nil charset || bytes_eqb charset (bs "CHARSET") then
       warning cf fn (bs "charset not specified for .po, fallback to utf-8");; mret (bs "UTF-8")
     else if bytes_eqb charset (bs "BIG5") then mmod (fun s => st_big5 s true);; mret charset else mret charset).
  Lemma parse_header_first h s :
    parse_header cf fn h s = mbind (header_first h) (fun cs => d <- mget p_dict;; do_set_charsets cf cs (get_charset d)) s.
  Proof. unfold parse_header, header_first, mbind. destruct (header_loop cf fn h [] [] s) as [[?|?|?| |] ?]; reflexivity. Qed.
  Lemma header_first_log n ls b5 d tr h s :
    at_ n ls b5 d tr s -> clean st h ->
    gets cf (header_first h s) (hdr_charset h)
      (at_ n ls (b5 || bytes_eqb (hdr_charset h) (bs "BIG5")) (fold_left apply_call (List.map CallPlural (hdr_plurals h)) d)
         (tr ++ List.map (reported fn n (hd [] ls)) (hdr_lines_notes d (hdr_lines h) ++ charset_notes h))).
  Proof.
    intros H Hc. unfold header_first. eapply bind_gets; [apply (header_loop_log n ls b5 h [] [] d tr s H Hc)|].
    intros s1 H1. fold (hdr_lines h) in *. fold (hdr_plurals h) in H1. set (d' := fold_left apply_call (List.map CallPlural (hdr_plurals h)) d) in *.
    set (tr1 := tr ++ List.map _ (hdr_lines_notes d (hdr_lines h))) in *.
    set (x := match last_some (after ct_full) (hdr_lines h) with Some x => List.map toupper x | None => [] end).
    assert (X : hdr_charset h = if is_nil x || bytes_eqb x (bs "CHARSET") then bs "UTF-8" else x).
    { unfold hdr_charset. fold ct_full. unfold x. destruct (last_some _ _); reflexivity. }
    assert (N : charset_notes h = if is_nil x || bytes_eqb x (bs "CHARSET") then [bs "charset not specified for .po, fallback to utf-8"] else []).
    { unfold charset_notes. fold ct_full. unfold x. destruct (last_some _ _) as [y|]; [|reflexivity].
      assert (is_nil (List.map toupper y) = is_nil y) as -> by (destruct y; reflexivity). reflexivity. }
    rewrite map_app, app_assoc. fold tr1. rewrite N.
    rewrite X. destruct (is_nil x || bytes_eqb x (bs "CHARSET")) eqn:E1.
    - unfold mbind. rewrite warning_eq. apply gets_ret. change (bytes_eqb (bs "UTF-8") (bs "BIG5")) with false. rewrite orb_false_r. now apply at_warned.
    - cbn [List.map]. rewrite app_nil_r. destruct (bytes_eqb x (bs "BIG5")).
      + unfold mbind, mmod. apply gets_ret. rewrite orb_true_r. destruct H1 as (G1 & G2 & G3 & G4 & G5 & G6). unfold at_v, pos in *. sv. auto 10.
      + apply gets_ret. rewrite orb_false_r. exact H1.
  Qed.
  End Header.
  Arguments header_first_log {Vc}.
  (** nothing is converted *)
  Definition at_ := at_v (fun c _ => cv_cd c = CdNull).

  Lemma call_plural_charset ps : forall d, d_charset (fold_left apply_call (List.map CallPlural ps) d) = d_charset d.
  Proof. induction ps as [|p ps IH]; intro d; [reflexivity|]. cbn [List.map fold_left]. rewrite IH. cbn [apply_call]. destruct (pf_valid _); reflexivity. Qed.

  Lemma parse_header_log n ls b5 d tr h s :
    at_ n ls b5 d tr s -> clean st h -> clean st (d_charset d) -> same_charset (hdr_charset h) (d_charset d) ->
    gets cf (parse_header cf fn h s) tt
      (at_ n ls (b5 || bytes_eqb (hdr_charset h) (bs "BIG5")) (fold_left apply_call (List.map CallPlural (hdr_plurals h)) d)
         (tr ++ List.map (reported fn n (hd [] ls)) (hdr_lines_notes d (hdr_lines h) ++ charset_notes h))).
  Proof.
    intros H Hc Hcs Hsame. rewrite parse_header_first. set (d' := fold_left apply_call (List.map CallPlural (hdr_plurals h)) d) in *.
    eapply bind_gets; [exact (header_first_log (Vc := fun c => cv_cd c = CdNull) n ls b5 d tr h s H Hc)|]. intros s2 H2. fold d' in H2. rewrite mget_bind.
    unfold do_set_charsets. destruct H2 as (G1 & G2 & G3 & G4 & G5 & G6). unfold get_charset. rewrite G4.
    assert (Ecs : d_charset d' = d_charset d) by apply call_plural_charset. rewrite Ecs.
    unfold set_charsets. assert (E : st && (existsb hi (d_charset d) || existsb hi (hdr_charset h)) = false).
    { destruct st eqn:Est; [|reflexivity]. cbn [andb]. rewrite (Hcs eq_refl). cbn [orb]. exact (hdr_charset_clean true h Hc eq_refl). }
    rewrite E. unfold same_charset in Hsame. rewrite Hsame, bytes_eqb_refl. right. cbn [fst snd]. split; [reflexivity|].
    unfold close_events. rewrite G2, app_nil_r. unfold at_, at_v, pos in *. sv. auto 10.
  Qed.

  (** ** Plural rows *)
  Lemma rows_at rest b5 d rows : is_blank (hd [] rest) -> forall f num ne n tr s,
    at_ n (List.concat (List.map row_lines rows) ++ rest) b5 d tr s ->
    Forall (fun r => fst r < 10 /\ lit_ok st b5 (snd r)) rows -> (num <> [] \/ rows <> []) ->
    gets cf (msgstr_loop cf fn f num ne s)
         (put_all num (List.map (fun r => (fst r, lit_value (snd r))) rows),
          ne || negb (forallb (fun r => is_nil (lit_value (snd r))) rows))
         (at_ (n + len (List.concat (List.map row_lines rows))) rest b5 d (tr ++ rows_log fn pd n rows)).
  Proof.
    intro Hb. induction rows as [|[i l] rows IH]; intros f num ne n tr s H Hr Hn; (destruct f as [|f]; [left; reflexivity|]).
    - cbn [msgstr_loop List.map List.concat app rows_log] in *. unfold mbind at 1. rewrite is_empty_line_eq.
      rewrite (at_cur _ _ _ _ _ _ H), (pempty_blank st _ Hb). cbn [run_opt]. unfold mret at 1; cbv beta iota.
      destruct num as [|x num]; [destruct Hn as [Hn|Hn]; congruence|]. cbn [is_nil forallb negb].
      rewrite orb_false_r, len_nil, Z.add_0_r, app_nil_r. apply gets_ret. exact H.
    - inversion Hr as [|? ? [Hd Hl] Hr']; subst. cbn [fst snd] in *. cbn [List.map List.concat rows_log fst snd] in *. rewrite <- app_assoc in H.
      pose proof (row_first cf i (lt_head l) Hd) as Hp.
      assert (Hc : p_cur s = (bs "msgstr[" ++ [digit_of i; c_rbr]) ++ chunk_text (lt_head l)) by apply (at_cur _ _ _ _ _ _ H).
      assert (Hnum : N.to_nat (code (nth 7 ((bs "msgstr[" ++ [digit_of i; c_rbr]) ++ chunk_text (lt_head l)) c_nul) - 48) = i).
      { rewrite <- app_assoc. cbn [app bs list_ascii_of_string nth]. apply digit_facts, Hd. }
      assert (EQ : msgstr_loop cf fn (S f) num ne s =
         mbind (get_string cf fn 9) (fun msgstr => v <- do_convert cf msgstr;;
              msgstr_loop cf fn f (vec_put num i v) (ne || negb (is_nil msgstr))) s).
      { cbn [msgstr_loop]. unfold mbind at 1. rewrite is_empty_line_eq.
        rewrite Hc, (pmsgstr_not_empty _ _ Hp). cbn [run_opt]. unfold mret at 1; cbv beta iota.
        unfold mbind at 1. rewrite is_msgstr_n_eq, Hc, Hp. cbn [run_opt]. unfold mret at 1; cbv beta iota.
        rewrite mget_bind, Hc. cbv zeta. rewrite Hnum. reflexivity. }
      rewrite EQ. clear EQ.
      bg; [apply (lit_log_ok (bs "msgstr[" ++ [digit_of i; c_rbr]) 9 (List.concat (List.map row_lines rows) ++ rest) b5 d l n tr s
                   eq_refl H Hl (rows_stop cf rows [] rest (pquote_blank st _ Hb)))|].
      intros s' H'. unfold mbind, do_convert. rewrite (convert_null _ _ _ (proj1 (proj2 H'))).
      assert (Hnn : vec_put num i (lit_value l) <> [] \/ rows <> []).
      { left. intro E. apply (f_equal (@length _)) in E. rewrite vec_put_length in E. cbn [length] in E. lia. }
      cbn [put_all fold_left fst snd forallb]. fold (put_all (vec_put num i (lit_value l)) (List.map (fun r => (fst r, lit_value (snd r))) rows)).
      rewrite negb_andb, orb_assoc, len_app, Z.add_assoc, app_assoc. apply IH; [|assumption|assumption].
      destruct H' as (G1 & G2 & G3 & G4 & G5 & G6). unfold at_, at_v, pos in *. sv. rewrite app_nil_r. auto 10.
  Qed.

  (** ** Additions *)
  Lemma add_at n ls b5 d tr op s : at_ n ls b5 d tr s ->
    gets cf (dict_add cf op s) tt (at_ n ls b5 (apply_call d (CallAdd op)) (tr ++ add_log_of d op)).
  Proof.
    intros (H1 & H2 & H3 & H4 & H5 & H6). unfold dict_add. rewrite mget_bind. unfold emit. rewrite mmod_bind. unfold dict_call_, mmod.
    right. cbn [fst snd]. split; [reflexivity|]. unfold at_, at_v, pos in *. sv. rewrite H4, H6, add_log_exact. auto 10.
  Qed.

  (** ** Entries *)
  Definition own_entry (cs : bytes) (e : po_entry) : Prop :=
    match is_header e with Some h => same_charset (hdr_charset h) cs | None => True end.

  Lemma body_at e rest b5 d fz n tr s :
    at_ n (body_lines (en_body e) ++ rest) b5 d tr s -> entry_ok st b5 e -> clean st (d_charset d) -> own_entry (d_charset d) e ->
    follows cf e (hd [] rest) ->
    gets cf (body_of cf fn e fz (opt_value (en_ctxt e)) (lit_value (en_id e)) s) tt
      (at_ (n + len (body_lines (en_body e))) rest (big5_after b5 e) (fold_left apply_call (entry_calls e) d)
         (tr ++ body_log fn pd n (en_body e) ++ closing_log fn (n + len (body_lines (en_body e))) (hd [] rest) d e)).
  Proof.
    intros H (_ & _ & Hbd & Hh) Hcs Hown Hb. unfold body_of, closing_log, entry_calls, own_entry, big5_after, is_header, body_log, follows in *.
    unfold prefix at 1. rewrite mget_bind. cbv zeta.
    rewrite (at_cur _ _ _ _ _ _ H). destruct (en_body e) as [m|p rows]; cbn [body_lines body_ok] in *.
    - assert (E1 : starts_with (bs "msgid_plural") (hd [] (lit_lines (bs "msgstr") m ++ rest)) = false).
      { cbn [lit_lines app hd]. reflexivity. }
      rewrite E1. unfold prefix. rewrite mget_bind, (at_cur _ _ _ _ _ _ H), lit_hd. unfold singular_entry.
      bg; [apply (lit_log_ok (bs "msgstr") 6 rest b5 d m n tr s eq_refl H Hbd Hb)|]. intros s1 H1.
      destruct (is_nil (lit_value (en_id e))).
      + rewrite app_assoc. apply parse_header_log; assumption.
      + destruct (is_nil (lit_value m)) eqn:Em; cbn [negb andb orb adds List.map List.concat fold_left].
        * apply gets_ret. rewrite app_nil_r. exact H1.
        * unfold mbind at 1, do_convert. rewrite (convert_null _ _ _ (proj1 (proj2 H1))).
          rewrite !app_nil_r, app_assoc. apply add_at. destruct H1 as (G1 & G2 & G3 & G4 & G5 & G6). unfold at_, at_v, pos in *. sv. auto 10.
    - destruct Hbd as (Hp & Hne & Hrows). rewrite <- app_assoc in H. rewrite <- app_assoc, lit_hd. unfold plural_entry.
      bg; [apply (lit_log_ok (bs "msgid_plural") 12 _ b5 d p n tr s eq_refl H Hp (rows_stop cf rows [] rest (pquote_blank st _ Hb)))|].
      intros s1 H1.
      bg; [apply (rows_at rest b5 d rows Hb (cf_fuel cf) [] false _ _ s1 H1 Hrows (or_intror Hne))|]. intros s2 H2. cbn [fst snd orb].
      rewrite <- Z.add_assoc, <- len_app, <- app_assoc in H2.
      set (n2 := (n + len (lit_lines (bs "msgid_plural") p ++ List.concat (List.map row_lines rows)))%Z) in *.
      set (tr2 := lit_log fn pd n (bs "msgid_plural") p ++ rows_log fn pd (n + len (lit_lines (bs "msgid_plural") p)) rows) in *.
      unfold mbind at 1. rewrite is_empty_line_eq, (at_cur _ _ _ _ _ _ H2), (pempty_blank st _ Hb). cbn [run_opt]. unfold mret at 1; cbv beta iota.
      cbn [negb]. destruct (forallb (fun r => is_nil (lit_value (snd r))) rows); cbn [negb andb orb adds List.map List.concat fold_left is_nil app].
      + apply gets_ret. rewrite app_nil_r. exact H2.
      + rewrite mget_bind. rewrite put_all_forms.
        2: { intro E. apply map_eq_nil in E. congruence. }
        set (fs := forms (List.map (fun r => (fst r, lit_value (snd r))) rows)).
        assert (Hd : p_dict s2 = d) by apply H2. rewrite Hd.
        assert (Lf : length fs = S (List.list_max (List.map fst rows))).
        { unfold fs, forms. rewrite map_length, seq_length, map_map. reflexivity. }
        unfold count_notes. rewrite <- Lf, app_nil_r.
        unfold mbind at 1. rewrite !app_assoc.
        destruct (negb (pf_valid (get_plural_forms d))); [rewrite warning_eq; apply add_at; now apply at_warned|].
        destruct (negb (Z.eqb _ _)); [rewrite warning_eq; apply add_at; now apply at_warned|].
        cbn [List.map]. rewrite app_nil_r. apply add_at. exact H2.
  Qed.

  Lemma entry_at e rest b5 d fz n tr s :
    at_ n (entry_lines e ++ rest) b5 d tr s -> entry_ok st b5 e -> clean st (d_charset d) -> own_entry (d_charset d) e ->
    follows cf e (hd [] rest) ->
    gets cf (entry cf fn true fz s) tt
      (at_ (n + len (entry_lines e)) rest (big5_after b5 e) (fold_left apply_call (entry_calls e) d)
         (tr ++ entry_log fn pd n (hd [] rest) d e)).
  Proof.
    intros H He Hcs Ho Hb. pose proof He as (Hctxt & Hid & _ & _). unfold entry.
    unfold entry_lines in H. rewrite <- !app_assoc in H.
    set (n1 := (n + len (ctxt_lines (en_ctxt e)))%Z). set (n2 := (n1 + len (lit_lines (bs "msgid") (en_id e)))%Z).
    assert (G1 : gets cf ((hc <- prefix cf (bs "msgctxt");; (if hc then c0 <- get_string cf fn 7;; mret (Some c0) else mret None)) s)
                   (opt_value (en_ctxt e)) (at_ n1 (lit_lines (bs "msgid") (en_id e) ++ body_lines (en_body e) ++ rest) b5 d
                      (tr ++ ctxt_log fn pd n (en_ctxt e)))).
    { unfold prefix, n1. rewrite mget_bind, (at_cur _ _ _ _ _ _ H). destruct (en_ctxt e) as [l|]; cbn [ctxt_lines ctxt_log opt_value] in *.
      - rewrite lit_hd. bg.
        + apply (lit_log_ok (bs "msgctxt") 7 _ b5 d l n tr s eq_refl H Hctxt). eapply id_stops, Hid.
        + intros s' H'. apply gets_ret. exact H'.
      - cbn [app]. cbn [lit_lines app hd]. rewrite app_nil_r, len_nil, Z.add_0_r. apply gets_ret. exact H. }
    assert (G2 : forall s1 tr1, at_ n1 (lit_lines (bs "msgid") (en_id e) ++ body_lines (en_body e) ++ rest) b5 d tr1 s1 ->
      gets cf ((hi_ <- prefix cf (bs "msgid");; (if hi_ then get_string cf fn 5 else error cf fn (bs "expected 'msgid'"))) s1)
        (lit_value (en_id e)) (at_ n2 (body_lines (en_body e) ++ rest) b5 d (tr1 ++ lit_log fn pd n1 (bs "msgid") (en_id e)))).
    { intros s1 tr1 H1. unfold prefix. rewrite mget_bind, (at_cur _ _ _ _ _ _ H1), lit_hd.
      apply (lit_log_ok (bs "msgid") 5 _ b5 d _ n1 tr1 s1 eq_refl H1 Hid). apply body_stops. }
    assert (A : forall A B (m : P bool) (f : bool -> P A) (g : A -> P B) x, (b <- m;; a <- f b;; g a) x = (a <- (b <- m;; f b);; g a) x).
    { intros. unfold mbind. destruct (m x) as [[]]; reflexivity. }
    rewrite A. bg; [exact G1|]. intros s1 H1. rewrite A. bg; [exact (G2 s1 _ H1)|]. intros s2 H2.
    pose proof (body_at e rest b5 d fz n2 _ s2 H2 He Hcs Ho Hb) as G3.
    unfold entry_log. cbv zeta. fold n1. fold n2. unfold entry_lines. rewrite !len_app, !Z.add_assoc. fold n1. fold n2.
    rewrite <- !app_assoc in G3. exact G3.
  Qed.

  (** ** Blocks *)
  Definition own_block (cs : bytes) (b : po_block) : Prop := match bl_entry b with Some e => own_entry cs e | None => True end.
  Lemma block_at b rest b5 d n tr s :
    at_ n (block_lines b ++ rest) b5 d tr s -> Forall is_comment (bl_comments b) -> separator_ok b (hd [] rest) ->
    match bl_entry b with Some e => entry_ok st b5 e | None => True end -> clean st (d_charset d) -> own_block (d_charset d) b ->
    gets cf (try_block cf fn true s) tt
      (at_ (n + len (block_lines b) + 1) (tl rest) (block_big5 b5 b) (entries_dict d (opt_list (bl_entry b)))
         (tr ++ block_log fn pd n (hd [] rest) d b)).
  Proof.
    intros H Hc Hsep He Hcs Ho. unfold block_lines in H. rewrite <- app_assoc in H. destruct Hsep as [Hb Hsep].
    set (ls := match bl_entry b with Some e => entry_lines e | None => [] end ++ rest) in *.
    assert (Hn : starts_with [c_hash] (hd [] ls) = false).
    { unfold ls. destruct (bl_entry b) eqn:E; [apply entry_not_hash|]. cbn [app].
      exact (blank_not_hash b (hd [] rest) (conj Hb (fun _ => Hsep eq_refl)) E). }
    assert (T : forall n' b5' d' tr' s2, at_ n' rest b5' d' tr' s2 ->
       gets cf ((e' <- is_empty_line cf;; ((if e' then mret tt else error cf fn (bs "expected empty line"));; next_line cf)) s2)
            tt (at_ (n' + 1) (tl rest) b5' d' tr')).
    { intros n' b5' d' tr' s2 H2. unfold mbind at 1. rewrite is_empty_line_eq, (at_cur _ _ _ _ _ _ H2), (pempty_blank st _ Hb).
      cbn [run_opt]. unfold mret at 1; cbv beta iota. unfold mbind, mret. rewrite next_line_eq. apply gets_ret. now apply at_tl. }
    assert (B : gets cf (block cf fn true s) tt
      (at_ (n + len (block_lines b) + 1) (tl rest) (block_big5 b5 b) (entries_dict d (opt_list (bl_entry b)))
         (tr ++ block_log fn pd n (hd [] rest) d b))).
    { unfold block, block_big5, block_log, block_lines.
      pose proof (comments_at ls b5 d tr (bl_comments b) (cf_fuel cf) false n s H Hc Hn) as C.
      destruct (comments cf (cf_fuel cf) false s) as [o s1] eqn:Ec. destruct C as [C|(fz & C & H1)]; cbn [fst snd] in C.
      { subst o. left. unfold mbind. rewrite Ec. reflexivity. }
      cbn [fst snd] in *. subst o. unfold mbind at 1. rewrite Ec. clear Ec s H.
      unfold mbind at 1. rewrite is_empty_line_eq, (at_cur _ _ _ _ _ _ H1). unfold ls, own_block in *. rewrite len_app.
      destruct (bl_entry b) as [e|].
      - rewrite (entry_not_empty cf). cbn [run_opt]. unfold mret at 1; cbv beta iota.
        bg; [apply (entry_at e rest b5 d fz _ _ s1 H1 He Hcs Ho (blank_follows cf e _ Hb))|]. intros s2 H2.
        cbn [opt_list]. unfold entries_dict. cbn [List.map List.concat]. rewrite app_nil_r, Z.add_assoc. apply T, H2.
      - cbn [app] in *. rewrite (pempty_blank st _ Hb). cbn [run_opt]. unfold mret at 1; cbv beta iota.
        unfold mbind at 1. unfold mret at 1; cbv beta iota. cbn [opt_list]. unfold entries_dict. cbn [List.map List.concat fold_left].
        rewrite app_nil_r, len_nil, Z.add_0_r. apply T, H1. }
    unfold try_block. destruct (block cf fn true s) as [o s']. destruct B as [B|[B1 B2]]; cbn [fst snd] in *.
    - subst o. left. reflexivity.
    - subst o. right. split; [reflexivity|exact B2].
  Qed.

  (** ** The loop *)
  Local Notation leads := (leads cf fn).
  Lemma gets_leads f s (Q : pst I -> Prop) : p_eof s = false -> gets cf (try_block cf fn true s) tt Q -> leads f s Q.
  Proof.
    intros He R. destruct f as [|f]; [left; reflexivity|]. destruct R as [R|[R1 R2]].
    - left. rewrite (loop_step cf fn f s He). unfold mbind. destruct (try_block cf fn true s) as [o' s']. cbn [fst] in R. subst. reflexivity.
    - right. exists f, (snd (try_block cf fn true s)). split; [|exact R2]. rewrite (loop_step cf fn f s He). unfold mbind.
      destruct (try_block cf fn true s) as [o' s']. cbn [fst snd] in *. subst. reflexivity.
  Qed.
  Lemma at_eof n l ls b5 d tr s : at_ n (l :: ls) b5 d tr s -> p_eof s = false.
  Proof. intros [(_ & _ & H) _]. apply H. Qed.

  Lemma entries_dict_charset es : forall d, d_charset (entries_dict d es) = d_charset d.
  Proof.
    intro d. unfold entries_dict. generalize (List.concat (List.map entry_calls es)) as cl. intro cl. revert d.
    induction cl as [|c cl IH]; intro d; [reflexivity|]. cbn [fold_left]. rewrite IH. destruct c as [op|p]; cbn [apply_call].
    - apply add_charset.
    - destruct (pf_valid _); reflexivity.
  Qed.
  Lemma entries_dict_app d a b : entries_dict d (a ++ b) = entries_dict (entries_dict d a) b.
  Proof. unfold entries_dict. rewrite map_app, concat_app, fold_left_app. reflexivity. Qed.

  Lemma blocks_at rest bl : forall n b5 d tr f s,
    at_ n (blocks_lines bl ++ rest) b5 d tr s -> Forall block_ok bl -> entries_ok st b5 (blocks_entries bl) -> clean st (d_charset d) ->
    own_charset (d_charset d) (blocks_entries bl) ->
    leads f s (at_ (n + blocks_len bl) rest (big5_end b5 (blocks_entries bl)) (entries_dict d (blocks_entries bl))
                 (tr ++ blocks_log fn pd n d bl)).
  Proof.
    induction bl as [|[b sep] bl IH]; intros n b5 d tr f s H Hb He Hcs Ho.
    - apply leads_here. cbn [blocks_log blocks_entries List.map List.concat]. unfold blocks_len. cbn [List.map List.concat].
      rewrite len_nil, Z.add_0_r, app_nil_r. exact H.
    - inversion Hb as [|? ? [Hc Hsep] Hb']; subst. cbn [fst snd] in *. unfold blocks_lines, blocks_entries in *. cbn [List.map List.concat fst snd] in *.
      fold (blocks_entries bl) in *. fold (blocks_lines bl) in *.
      apply entries_ok_app in He as [He1 He2]. apply Forall_app in Ho as [Ho1 Ho2].
      rewrite <- !app_assoc in H. cbn [app] in H.
      assert (Hent : match bl_entry b with Some e => entry_ok st b5 e | None => True end) by (destruct (bl_entry b); [apply He1|exact Logic.I]).
      assert (Hown : own_block (d_charset d) b).
      { unfold own_block. destruct (bl_entry b); [|exact Logic.I]. inversion Ho1; subst. assumption. }
      assert (Heof : p_eof s = false).
      { destruct (block_lines b ++ sep :: blocks_lines bl ++ rest) eqn:E; [destruct (block_lines b); discriminate E|]. eapply at_eof, H. }
      pose proof (block_at b (sep :: blocks_lines bl ++ rest) b5 d n tr s H Hc Hsep Hent Hcs Hown) as B. cbn [hd tl] in B.
      eapply leads_then; [apply (gets_leads f s _ Heof B)|]. clear B. intros f' s' H'.
      assert (E5 : block_big5 b5 b = big5_end b5 (opt_list (bl_entry b))).
      { unfold block_big5. destruct (bl_entry b); reflexivity. }
      rewrite E5 in H'.
      assert (Ecs : d_charset (entries_dict d (opt_list (bl_entry b))) = d_charset d) by apply entries_dict_charset.
      pose proof (fun Hx Hy => IH _ _ _ _ f' s' H' Hb' He2 Hx Hy) as G. rewrite Ecs in G. specialize (G Hcs Ho2).
      cbn [blocks_log]. unfold blocks_len in *. cbn [List.map List.concat fst snd].
      rewrite entries_dict_app. unfold big5_end in *. rewrite fold_left_app, !len_app. change (len [sep]) with 1%Z.
      rewrite !Z.add_assoc, app_assoc. exact G.
  Qed.

  Lemma doc_at D d n f s :
    at_ n (doc_lines D) false d [] s -> doc_ok st D -> clean st (d_charset d) -> own_charset (d_charset d) (doc_entries D) ->
    n = 1%Z ->
    ok cf (parse_loop cf fn true f s) (fun o s' => o = Ret tt /\ p_tr s' = doc_log fn pd d D /\ cv_cd (p_conv s') = CdNull).
  Proof.
    intros H (Hb & Hc & He) Hcs Ho ->. unfold doc_lines in H. fold (blocks_lines (dc_blocks D)) in H. unfold doc_entries in *.
    apply entries_ok_app in He as [He1 He2]. apply Forall_app in Ho as [Ho1 Ho2].
    assert (E : forall n b5 d tr f s, at_ n [] b5 d tr s ->
      ok cf (parse_loop cf fn true f s) (fun o s' => o = Ret tt /\ p_tr s' = tr /\ cv_cd (p_conv s') = CdNull)).
    { clear. intros n b5 d tr f s H. destruct f as [|f]; [left; reflexivity|]. right.
      assert (He : p_eof s = true) by apply (proj1 H). cbn [parse_loop]. rewrite mget_bind, He. unfold mret. cbn [fst snd].
      split; [reflexivity|]. split; apply H. }
    pose proof (blocks_at (block_lines (dc_last D)) (dc_blocks D) 1 false d [] f s H Hb He1 Hcs Ho1) as B.
    destruct B as [B|(f' & s' & EQ & B)]; [left; exact B|]. rewrite EQ. clear EQ H s f.
    unfold doc_log. cbn [app] in B. set (n1 := (1 + blocks_len (dc_blocks D))%Z) in *.
    set (d1 := entries_dict d (blocks_entries (dc_blocks D))) in *. set (b := dc_last D) in *.
    assert (Ecs : d_charset d1 = d_charset d) by apply entries_dict_charset.
    destruct (p_eof s') eqn:Ee.
    - assert (L : block_lines b = []).
      { destruct (block_lines b) as [|l ls]; [reflexivity|]. apply at_eof in B. congruence. }
      rewrite L in B. unfold block_lines in L. apply app_eq_nil in L as [_ L].
      assert (N : bl_entry b = None).
      { destruct (bl_entry b) as [e|]; [|reflexivity]. unfold entry_lines in L. destruct (en_ctxt e); discriminate L. }
      unfold block_log. rewrite N, app_nil_r. eapply E; exact B.
    - rewrite <- (app_nil_r (block_lines b)) in B.
      assert (He' : match bl_entry b with Some e => entry_ok st (big5_end false (blocks_entries (dc_blocks D))) e | None => True end).
      { destruct (bl_entry b); [apply He2|exact Logic.I]. }
      assert (Hsep : separator_ok b (hd [] [])).
      { split; [|intros _; constructor]. split; [intros []|]. left. constructor. }
      assert (Hown : own_block (d_charset d1) b).
      { rewrite Ecs. unfold own_block. destruct (bl_entry b); [|exact Logic.I]. inversion Ho2; subst. assumption. }
      rewrite <- Ecs in Hcs.
      pose proof (gets_leads f' s' _ Ee (block_at b [] _ d1 n1 _ s' B Hc Hsep He' Hcs Hown)) as [R|(f2 & s2 & EQ & R)]; [left; exact R|].
      rewrite EQ. cbn [tl] in R. eapply E; exact R.
  Qed.
End DocLog.
Arguments at_cur cf {V}. Arguments comments_at cf {V}. Arguments lit_log_ok cf fn {V}. Arguments more_log_ok cf fn {V}. Arguments at_next cf {V}. Arguments at_tl cf {V}. Arguments at_warns cf fn {V}.

Lemma result_trace {I} (x : outcome unit * pst I) tr :
  fst x = Ret tt -> p_tr (snd x) = tr -> cv_cd (p_conv (snd x)) = CdNull -> pr_trace (result_of x) = tr.
Proof.
  intros X1 X2 X3. unfold result_of. cbn [pr_trace]. rewrite X1, X2. cbn [finished]. unfold iconv_destroy. rewrite X3. cbn [close_events].
  apply app_nil_r.
Qed.
Lemma parse_doc_log cf fn D d r :
  doc_ok (cf_strict cf) D -> clean (cf_strict cf) (d_charset d) -> own_charset (d_charset d) (doc_entries D) ->
  parses_to cf fn (stream_of (doc_text D)) d r -> pr_trace r = doc_log fn (cf_pedantic cf) d D.
Proof.
  intros HD Hcs Ho P. apply parses_to_elim in P as (n & <- & Hn). rewrite po_parse_eq in *. fold (started cf (doc_text D) d) in *.
  pose proof (started_sees cf (doc_lines D) [] d (doc_good _ _ HD) nil_good) as S. rewrite app_nil_r in S.
  change (unlines (doc_lines D)) with (doc_text D) in S.
  assert (A : at_ cf 1 (doc_lines D) false d [] (started cf (doc_text D) d)).
  { destruct S as (S1 & S2 & S3 & S4 & S5). split; [exact S1|]. rewrite S2, S3. split; [reflexivity|]. split; [reflexivity|].
    unfold started, strip_bom. set (s1 := nextst (init_state cf (stream_of (doc_text D)) d)).
    assert (F : p_dict s1 = d /\ p_line s1 = 1%Z /\ p_tr s1 = []).
    { unfold s1. set (s0 := init_state cf (stream_of (doc_text D)) d). nx s0. rewrite Nd, Nl, Nt. split; [reflexivity|]. split; reflexivity. }
    destruct (starts_with bom (p_cur s1)); exact F. }
  destruct (doc_at (with_fuel cf n) fn D d 1 n _ A HD Hcs Ho eq_refl) as [X|(X1 & X2 & X3)]; [contradiction|].
  exact (result_trace _ _ X1 X2 X3).
Qed.
