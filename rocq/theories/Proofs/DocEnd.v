(** Documents without their last newline. *)
From Verif.Model Require Import Base Log PluralForms Dictionary IConv Stream PoParser.
From Verif.Spec Require Import ParserSpec PoSpec.
From Verif.Proofs Require Import BaseFacts DictProofs LexProofs ParserUnary DocLex ParserRel ParserSafe ParserFuel ParserLocal
  ParserCut ParserBlank ParserTerm ParserLinewise ParserMisc DocProofs DocLoop DocTop.
Local Open Scope list_scope.

Section End.
  Variable cf : config.
  Variable fn : bytes.
  Local Notation I := (cf_iconv cf).
  Local Notation P := (M (pst I)).
  Local Notation st := (cf_strict cf).
  Local Notation nd := (cf_ndebug cf).
  Local Notation sees := (sees cf).
  Local Open Scope mon_scope.

  Definition hung {A} (r : outcome A * pst I) : Prop := fst r = OutOfFuel.
  Lemma bind_hung {A B} (m : P A) (f : A -> P B) s : hung (m s) -> hung (mbind m f s).
  Proof. unfold hung, mbind. destruct (m s) as [o s']. cbn. intros ->. reflexivity. Qed.
  Lemma bind_gets_hung {A B} (m : P A) (f : A -> P B) s a (S : pst I -> Prop) :
    gets cf (m s) a S -> (forall s', S s' -> hung (f a s')) -> hung (mbind m f s).
  Proof.
    intros [H|[H HS]] Hf; [apply bind_hung; exact H|]. unfold hung, mbind in *. destruct (m s) as [o s']. cbn in H. subst o. apply Hf, HS.
  Qed.

  Lemma sees_end t c b5 cs k s : sees t [] c b5 cs k s -> is_good (p_in s) = false /\ p_cur s = t.
  Proof. intros [(_ & _ & H1 & H2 & _) _]. auto. Qed.

  (** ** A continuation line *)
  Lemma continuation_hangs ck t c b5 cs k more : forall f out l0 s,
    sees t (l0 :: List.map chunk_text more) c b5 cs k s -> Forall (chunk_ok st b5) more -> chunk_ok st b5 ck -> t = chunk_text ck ->
    hung (continuation cf fn f out s).
  Proof.
    induction more as [|c1 more IH]; intros f out l0 s H Hm Hc Ht; (destruct f as [|f]; [reflexivity|]).
    - cbn [List.map] in H. apply sees_next in H. pose proof (sees_end _ _ _ _ _ _ H) as [He Hcur].
      cbn [continuation]. unfold hung. unfold mbind at 1. rewrite next_line_eq, mget_bind. unfold mbind at 1. rewrite find_quote_eq, Hcur, Ht.
      rewrite (pquote_chunk st b5) by assumption. cbn [run_opt]. unfold mret at 1; cbv beta iota.
      assert (W : forall s2, sees t [] c b5 cs k s2 -> hung (mbind (get_string_line cf fn out (length (ck_lead ck))) (continuation cf fn f) s2)).
      { intros s2 H'. pose proof (sees_end _ _ _ _ _ _ H') as [He' Hcur']. unfold mbind. rewrite get_string_line_eq, run_lex_eq, Hcur', Ht.
        assert (B5 : p_big5 s2 = b5) by apply H'. rewrite B5.
        destruct (pline_chunk_text st b5 out ck Hc) as [ws ->].
        assert (H'' : sees t [] c b5 cs k (warned_all cf fn ws s2)) by now apply sees_warn.
        pose proof (sees_end _ _ _ _ _ _ H'') as [He2 Hcur2].
        apply (stuck_continuation cf fn f _ (length (ck_lead ck))); [exact He2| |].
        - rewrite Hcur2, Ht. now apply (pquote_chunk st b5).
        - rewrite Hcur2, Ht. replace (p_big5 _) with b5 by (symmetry; apply H''). destruct (pline_chunk_text st b5 [] ck Hc) as [ws' ->]. reflexivity. }
      unfold mbind at 1. destruct (_ && _); apply W; exact H.
    - inversion Hm; subst. cbn [List.map] in H. apply sees_next in H. pose proof (sees_cur _ _ _ _ _ _ _ _ H) as Hcur. cbn [hd] in Hcur.
      cbn [continuation]. unfold hung. unfold mbind at 1. rewrite next_line_eq, mget_bind. unfold mbind at 1. rewrite find_quote_eq, Hcur.
      rewrite (pquote_chunk st b5) by assumption. cbn [run_opt]. unfold mret at 1; cbv beta iota.
      assert (W : forall s2, sees (chunk_text ck) (chunk_text c1 :: List.map chunk_text more) c b5 cs k s2 ->
         hung (mbind (get_string_line cf fn out (length (ck_lead c1))) (continuation cf fn f) s2)).
      { intros s2 H'. unfold mbind. rewrite get_string_line_eq, run_lex_eq, (sees_cur _ _ _ _ _ _ _ _ H'). cbn [hd].
        assert (B5 : p_big5 s2 = b5) by apply H'. rewrite B5.
        destruct (pline_chunk_text st b5 out c1 H2) as [ws ->].
        eapply IH; [|assumption|assumption|reflexivity]. apply sees_warn, H'. }
      unfold mbind at 1. destruct (_ && _); apply W; exact H.
  Qed.
  Lemma literal_hangs kw skip ck t c b5 cs k hd_ more s :
    skip = length kw -> sees t ((kw ++ chunk_text hd_) :: List.map chunk_text more) c b5 cs k s ->
    chunk_ok st b5 hd_ -> Forall (chunk_ok st b5) more -> chunk_ok st b5 ck -> t = chunk_text ck ->
    hung (get_string cf fn skip s).
  Proof.
    intros -> H H1 H2 H3 Ht. rewrite get_string_eq. unfold hung, mbind. rewrite run_lex_eq.
    rewrite (sees_cur _ _ _ _ _ _ _ _ H). cbn [hd]. replace (p_big5 s) with b5 by (symmetry; apply H).
    destruct (pfirst_chunk st (cf_pedantic cf) b5 kw hd_ H1) as [ws ->].
    eapply continuation_hangs; [|eassumption..]. apply sees_warn. exact H.
  Qed.

  (** ** Rows of a plural entry before the last one *)
  Lemma rows_before t rest b5 cs k rows : stops cf (hd t rest) -> forall f num ne c s,
    sees t (List.concat (List.map row_lines rows) ++ rest) c b5 cs k s ->
    Forall (fun r => fst r < 10 /\ lit_ok st b5 (snd r)) rows -> quiet nd c ->
    hung (msgstr_loop cf fn f num ne s) \/
    exists f' num' ne' c' s', msgstr_loop cf fn f num ne s = msgstr_loop cf fn f' num' ne' s' /\
      sees t rest c' b5 cs k s' /\ quiet nd c'.
  Proof.
    intro Hb. induction rows as [|[n l] rows IH]; intros f num ne c s H Hr Hq.
    - right. do 5 eexists. split; [reflexivity|]. split; [exact H|exact Hq].
    - destruct f as [|f]; [left; reflexivity|].
      inversion Hr as [|? ? [Hd Hl] Hr']; subst. cbn [fst snd] in *. cbn [List.map List.concat] in H. rewrite <- app_assoc in H.
      inversion Hl as [|? ? Hck Hmore]; subst.
      pose proof (row_first cf n (lt_head l) Hd) as Hp.
      assert (Hc : p_cur s = (bs "msgstr[" ++ [digit_of n; c_rbr]) ++ chunk_text (lt_head l)) by apply (sees_cur _ _ _ _ _ _ _ _ H).
      assert (EQ : msgstr_loop cf fn (S f) num ne s =
         mbind (get_string cf fn 9) (fun msgstr => v <- do_convert cf msgstr;;
              msgstr_loop cf fn f (vec_put num (N.to_nat (code (nth 7 (p_cur s) c_nul) - 48)) v) (ne || negb (is_nil msgstr))) s).
      { cbn [msgstr_loop]. unfold mbind at 1. rewrite is_empty_line_eq.
        rewrite Hc, (pmsgstr_not_empty _ _ Hp). cbn [run_opt]. unfold mret at 1; cbv beta iota.
        unfold mbind at 1. rewrite is_msgstr_n_eq, Hc, Hp. cbn [run_opt]. unfold mret at 1; cbv beta iota.
        rewrite mget_bind, Hc. reflexivity. }
      rewrite EQ. clear EQ.
      pose proof (get_literal cf fn (bs "msgstr[" ++ [digit_of n; c_rbr]) 9 t (List.concat (List.map row_lines rows) ++ rest) c b5 cs k l s
                   eq_refl H Hl (rows_stop cf rows t rest Hb)) as G.
      destruct G as [G|[G1 G2]].
      + left. apply bind_hung. exact G.
      + destruct (convert_quiet nd c (lit_value l) Hq) as (v & c' & ev & Ec & Hq').
        set (m := fun msgstr => _).
        assert (EQ : mbind (get_string cf fn 9) m s = m (lit_value l) (snd (get_string cf fn 9 s))).
        { unfold mbind. destruct (get_string cf fn 9 s) as [o s1]. cbn [fst snd] in *. subst o. reflexivity. }
        rewrite EQ. set (s1 := snd _) in *. unfold m.
        assert (EQ2 : forall f, mbind (do_convert cf (lit_value l)) f s1 = f v (st_tr (st_conv s1 c') (p_tr s1 ++ ev)) :> (outcome (list bytes * bool) * pst I)).
        { intro g. unfold mbind, do_convert. replace (p_conv s1) with c by (symmetry; apply G2). rewrite Ec. reflexivity. }
        rewrite EQ2. eapply IH; [|exact Hr'|exact Hq']. destruct G2 as (K1 & K2 & K3 & K4 & K5). unfold DocProofs.sees, pos in *.
        cbn [st_tr st_conv p_in p_dict p_eof p_big5 p_line p_cur p_conv p_tr p_calls] in *. auto.
  Qed.

  Lemma last_cases {A} (l : list A) : l = [] \/ exists a x, l = a ++ [x].
  Proof. destruct l as [|y l]; [left; reflexivity|right]. destruct (@exists_last _ (y :: l)) as (a & x & E); [discriminate|eauto]. Qed.

  (** the last row, cut after its last line *)
  Lemma last_row_hangs n l t ls c b5 cs k f num ne s :
    n < 10 -> lit_ok st b5 l -> row_lines (n, l) = ls ++ [t] -> sees t ls c b5 cs k s -> quiet nd c ->
    hung (msgstr_loop cf fn f num ne s).
  Proof.
    intros Hn Hl Hls H Hq. inversion Hl as [|? ? Hh Hm]; subst. unfold row_lines, lit_lines in Hls. cbn [fst snd] in Hls.
    pose proof (row_first cf n (lt_head l) Hn) as Hp.
    destruct (last_cases (lt_more l)) as [E|(more & ck & E)].
    - rewrite E in Hls. cbn [List.map] in Hls. apply (app_inj_tail [] ls) in Hls as [<- <-].
      pose proof (sees_end _ _ _ _ _ _ H) as [He Hcur].
      destruct (stuck_msgstr cf fn f num ne s He) as [K|(_ & K1 & K2)].
      + rewrite Hcur. exact Hp.
      + rewrite Hcur. replace (p_big5 s) with b5 by (symmetry; apply H).
        destruct (pfirst_chunk st (cf_pedantic cf) b5 (bs "msgstr[" ++ [digit_of n; c_rbr]) (lt_head l) Hh) as [ws Hw].
        change (length (bs "msgstr[" ++ [digit_of n; c_rbr])) with 9 in Hw. rewrite Hw. reflexivity.
      + replace (p_conv s) with c by (symmetry; apply H). apply Hq.
      + exact K.
      + replace (p_conv s) with c in K2 by (symmetry; apply H). destruct Hq as [_ [Hq|Hq]]; congruence.
    - rewrite E, map_app in Hls. cbn [List.map] in Hls. rewrite app_comm_cons in Hls.
      apply app_inj_tail in Hls as [<- <-]. rewrite E in Hm. apply Forall_app in Hm as [Hm1 Hm2]. inversion Hm2; subst.
      destruct f as [|f]; [reflexivity|].
      pose proof (sees_cur _ _ _ _ _ _ _ _ H) as Hc. cbn [hd] in Hc.
      unfold hung. cbn [msgstr_loop]. unfold mbind at 1. rewrite is_empty_line_eq.
      rewrite Hc, (pmsgstr_not_empty _ _ Hp). cbn [run_opt]. unfold mret at 1; cbv beta iota.
      unfold mbind at 1. rewrite is_msgstr_n_eq, Hc, Hp. cbn [run_opt]. unfold mret at 1; cbv beta iota.
      rewrite mget_bind. cbv zeta. apply bind_hung.
      eapply (literal_hangs (bs "msgstr[" ++ [digit_of n; c_rbr]) 9); [reflexivity|exact H|exact Hh|exact Hm1|exact H2|reflexivity].
  Qed.

  (** ** From a block to the body of its entry *)
  Lemma entry_to_body e t rest c b5 cs k fz s :
    sees t (ctxt_lines (en_ctxt e) ++ lit_lines (bs "msgid") (en_id e) ++ rest) c b5 cs k s ->
    entry_ok st b5 e -> stops cf (hd t rest) ->
    hung (entry cf fn true fz s) \/
    exists s', entry cf fn true fz s = body_of cf fn e fz (opt_value (en_ctxt e)) (lit_value (en_id e)) s' /\ sees t rest c b5 cs k s'.
  Proof.
    intros H (Hctxt & Hid & _) Hst.
    assert (G1 : gets cf ((hc <- prefix cf (bs "msgctxt");; (if hc then c0 <- get_string cf fn 7;; mret (Some c0) else mret None)) s)
                   (opt_value (en_ctxt e)) (sees t (lit_lines (bs "msgid") (en_id e) ++ rest) c b5 cs k)).
    { unfold prefix. rewrite mget_bind, (sees_cur _ _ _ _ _ _ _ _ H). destruct (en_ctxt e) as [l|]; cbn [ctxt_lines opt_value] in *.
      - rewrite lit_hd. eapply bind_gets_gets.
        + apply (get_literal cf fn (bs "msgctxt") 7 t _ c b5 cs k l s eq_refl H Hctxt). eapply id_stops, Hid.
        + intros s' H'. apply gets_ret. exact H'.
      - cbn [app]. cbn [lit_lines app hd]. apply gets_ret. exact H. }
    assert (G2 : forall s1, sees t (lit_lines (bs "msgid") (en_id e) ++ rest) c b5 cs k s1 ->
      gets cf ((hi_ <- prefix cf (bs "msgid");; (if hi_ then get_string cf fn 5 else error cf fn (bs "expected 'msgid'"))) s1)
        (lit_value (en_id e)) (sees t rest c b5 cs k)).
    { intros s1 H1. unfold prefix. rewrite mget_bind, (sees_cur _ _ _ _ _ _ _ _ H1), lit_hd.
      apply (get_literal cf fn (bs "msgid") 5 t _ c b5 cs k _ s1 eq_refl H1 Hid Hst). }
    assert (A : forall A B (m : P bool) (f : bool -> P A) (g : A -> P B) x, (b <- m;; a <- f b;; g a) x = (a <- (b <- m;; f b);; g a) x).
    { intros. unfold mbind. destruct (m x) as [[]]; reflexivity. }
    unfold entry. rewrite A.
    destruct G1 as [G1|[G1 H1]]; [left; apply bind_hung; exact G1|].
    set (m1 := mbind (prefix cf (bs "msgctxt")) _) in *. set (g1 := fun ctxt : option bytes => _).
    assert (E1 : mbind m1 g1 s = g1 (opt_value (en_ctxt e)) (snd (m1 s))).
    { unfold mbind at 1. destruct (m1 s) as [o s1]. cbn [fst snd] in *. subst o. reflexivity. }
    rewrite E1. set (s1 := snd (m1 s)) in *. unfold g1. rewrite A. clear E1 G1.
    specialize (G2 s1 H1). destruct G2 as [G2|[G2 H2]]; [left; apply bind_hung; exact G2|].
    set (m2 := mbind (prefix cf (bs "msgid")) _) in *. set (g2 := fun msgid : bytes => _).
    assert (E2 : mbind m2 g2 s1 = g2 (lit_value (en_id e)) (snd (m2 s1))).
    { unfold mbind at 1. destruct (m2 s1) as [o s2]. cbn [fst snd] in *. subst o. reflexivity. }
    rewrite E2. right. exists (snd (m2 s1)). split; [reflexivity|exact H2].
  Qed.

  Definition block_end : P unit :=
    (e' <- is_empty_line cf;; ((if e' then mret tt else error cf fn (bs "expected empty line"));; next_line cf)).
  Lemma block_to_entry cm t ls c b5 cs k s :
    sees t (cm ++ ls) c b5 cs k s -> Forall is_comment cm -> starts_with (bs "msg") (hd t ls) = true ->
    hung (block cf fn true s) \/
    exists fz s', block cf fn true s = mbind (entry cf fn true fz) (fun _ => block_end) s' /\ sees t ls c b5 cs k s'.
  Proof.
    intros H Hc Hm.
    assert (Hn : starts_with [c_hash] (hd t ls) = false).
    { apply starts_with_spec in Hm as [u ->]. reflexivity. }
    pose proof (comments_block cf t ls c b5 cs k cm (cf_fuel cf) false s H Hc Hn) as C. unfold block.
    destruct C as [C|(fz & C1 & C2)]; [left; apply bind_hung; exact C|]. right. exists fz, (snd (comments cf (cf_fuel cf) false s)).
    split; [|exact C2]. unfold mbind at 1. destruct (comments cf (cf_fuel cf) false s) as [o s1]. cbn [fst snd] in *. subst o.
    unfold mbind at 1. rewrite is_empty_line_eq, (sees_cur _ _ _ _ _ _ _ _ C2).
    rewrite (proj2 (pquote_letter st _ Hm)). cbn [run_opt]. unfold mret at 1; cbv beta iota. reflexivity.
  Qed.

  (** ** The shapes on which the parser hangs *)
  Lemma body_hangs e t ls c b5 cs k fz cx mi s :
    match en_body e with PoStr m => lt_more m <> [] | PoPlural _ _ => True end -> body_ok st b5 (en_body e) ->
    body_lines (en_body e) = ls ++ [t] -> sees t ls c b5 cs k s -> quiet nd c ->
    hung (body_of cf fn e fz cx mi s).
  Proof.
    intros Hs Hb Hls H Hq. unfold body_of. destruct (en_body e) as [m|p rows]; cbn [body_lines body_ok] in *.
    - destruct (last_cases (lt_more m)) as [E|(more & ck & E)]; [congruence|]. unfold lit_lines in Hls.
      rewrite E, map_app in Hls. cbn [List.map] in Hls. rewrite app_comm_cons in Hls. apply app_inj_tail in Hls as [<- <-].
      inversion Hb as [|? ? Hh Hm]; subst. rewrite E in Hm. apply Forall_app in Hm as [Hm1 Hm2]. inversion Hm2; subst.
      pose proof (sees_cur _ _ _ _ _ _ _ _ H) as Hc. cbn [hd] in Hc. unfold prefix at 1. rewrite mget_bind, Hc.
      change (starts_with (bs "msgid_plural") _) with false. unfold prefix. rewrite mget_bind, Hc, starts_with_app.
      unfold singular_entry. apply bind_hung.
      eapply (literal_hangs (bs "msgstr") 6); [reflexivity|exact H|exact Hh|exact Hm1|exact H2|reflexivity].
    - destruct Hb as (Hp & Hne & Hr). destruct (last_cases rows) as [E|(rs & [n l] & E)]; [congruence|]. subst rows.
      rewrite map_app, concat_app in Hls. cbn [List.map List.concat] in Hls. rewrite app_nil_r in Hls.
      apply Forall_app in Hr as [Hr1 Hr2]. inversion Hr2 as [|? ? [Hn Hl] _]; subst. cbn [fst snd] in *.
      destruct (last_cases (row_lines (n, l))) as [E|(rl & t' & E)]; [discriminate E|].
      rewrite E in Hls. rewrite !app_assoc in Hls. apply app_inj_tail in Hls as [<- ->]. rewrite <- app_assoc in H.
      pose proof (sees_cur _ _ _ _ _ _ _ _ H) as Hc. unfold prefix at 1. rewrite mget_bind, Hc, lit_hd. unfold plural_entry.
      assert (Hst : stops cf (hd t rl)).
      { apply msg_stops. destruct rl as [|x rl].
        - apply (app_inj_tail _ [] _ t) in E as [_ E] || (injection E as E1 E2). idtac.
          cbn [hd]. subst t. unfold row_lines, lit_lines. reflexivity.
        - unfold row_lines, lit_lines in E. injection E as E1 _. subst x. reflexivity. }
      eapply bind_gets_hung.
      + apply (get_literal cf fn (bs "msgid_plural") 12 t _ c b5 cs k p s eq_refl H Hp). apply rows_stop, Hst.
      + intros s1 H1. apply bind_hung.
        destruct (rows_before t rl b5 cs k rs Hst (cf_fuel cf) [] false c s1 H1 Hr1 Hq) as [K|(f' & num' & ne' & c' & s' & -> & H' & Hq')]; [exact K|].
        eapply last_row_hangs; eauto.
  Qed.

  Lemma block_hangs b t ls c b5 cs k s :
    unterminated_hangs b -> Forall is_comment (bl_comments b) -> match bl_entry b with Some e => entry_ok st b5 e | None => True end ->
    block_lines b = ls ++ [t] -> sees t ls c b5 cs k s -> quiet nd c -> hung (block cf fn true s).
  Proof.
    intros Hs Hc He Hls H Hq. unfold unterminated_hangs, block_lines in *. destruct (bl_entry b) as [e|].
    - pose proof He as (_ & _ & Hb & _). destruct (last_cases (body_lines (en_body e))) as [E|(bl & t' & E)].
      { destruct (en_body e); discriminate E. }
      unfold entry_lines in Hls. rewrite E in Hls. rewrite !app_assoc in Hls. apply app_inj_tail in Hls as [<- ->]. rewrite <- !app_assoc in H.
      assert (Hm : starts_with (bs "msg") (hd t (ctxt_lines (en_ctxt e) ++ lit_lines (bs "msgid") (en_id e) ++ bl)) = true).
      { destruct (en_ctxt e); reflexivity. }
      destruct (block_to_entry _ _ _ _ _ _ _ _ H Hc Hm) as [K|(fz & s1 & -> & H1)]; [exact K|]. apply bind_hung.
      assert (Hst : stops cf (hd t bl)).
      { apply msg_stops. destruct (en_body e) as [m|p rows]; cbn [body_lines] in E.
        - destruct bl as [|x bl]; unfold lit_lines in E; injection E as E1 E2; [|subst x; reflexivity].
          rewrite <- E1. reflexivity.
        - destruct bl as [|x bl]; unfold lit_lines in E; cbn [app] in E; injection E as E1 E2; [|subst x; reflexivity].
          rewrite <- E1. reflexivity. }
      destruct (entry_to_body e t bl c b5 cs k fz s1 H1 He Hst) as [K|(s2 & -> & H2)]; [exact K|].
      eapply body_hangs; eauto.
    - rewrite app_nil_r in Hls. rewrite Hls in Hc. apply Forall_app in Hc as [Hc1 Hc2]. inversion Hc2 as [|? ? (l' & El & _) _]; subst t.
      unfold block. apply bind_hung. clear Hs Hls.
      assert (K : forall ls f bz s, sees (c_hash :: l') ls c b5 cs k s -> Forall is_comment ls -> hung (comments cf f bz s)).
      { clear. induction ls as [|l ls IH]; intros f bz s H Hc.
        - apply sees_end in H as [H1 H2]. apply stuck_comments; [exact H1|]. rewrite H2. reflexivity.
        - destruct f as [|f]; [reflexivity|]. inversion Hc as [|? ? (l2 & -> & _) Hc']; subst. unfold hung. cbn [comments]. unfold prefix.
          rewrite mget_bind, (sees_cur _ _ _ _ _ _ _ _ H). cbn [hd]. change (starts_with [c_hash] (c_hash :: l2)) with true. cbv iota.
          rewrite mget_bind. unfold mbind. rewrite next_line_eq. apply IH; [|exact Hc']. eapply sees_next, H. }
      eapply K; eauto.
  Qed.

  Lemma hung_loop f s : p_eof s = false -> hung (block cf fn true s) -> hung (parse_loop cf fn true f s).
  Proof.
    intros He H. destruct f as [|f]; [reflexivity|]. rewrite loop_step by exact He. apply bind_hung. unfold hung, try_block in *.
    destruct (block cf fn true s) as [o s']. cbn in H. subst. reflexivity.
  Qed.
  Lemma leads_hung f s (Q : pst I -> Prop) : leads cf fn f s Q -> (forall f' s', Q s' -> hung (parse_loop cf fn true f' s')) ->
    hung (parse_loop cf fn true f s).
  Proof. intros [H|(f' & s' & E & HQ)] K; [exact H|]. rewrite E. apply K, HQ. Qed.
  Lemma sees_eof_t t ls c b5 cs k s : sees t ls c b5 cs k s -> t <> [] -> p_eof s = false.
  Proof.
    intros [(_ & _ & H) _] Ht. destruct ls; destruct H as (_ & _ & ->); [|reflexivity]. destruct t; [congruence|reflexivity].
  Qed.

  Lemma doc_hangs D ls t f c b5 cs k s c' calls :
    doc_lines D = ls ++ [t] -> t <> [] -> sees t ls c b5 cs k s -> doc_ok_from cf b5 D -> clean st cs ->
    unterminated_hangs (dc_last D) ->
    read_entries nd cs c (blocks_entries (dc_blocks D)) = (Ret tt, c', calls) -> quiet nd c' ->
    hung (parse_loop cf fn true f s).
  Proof.
    intros Hls Ht H (Hb & Hc & He) Hcs Hu Hr Hq. unfold doc_lines in Hls. fold (blocks_lines (dc_blocks D)) in Hls.
    unfold doc_entries in He. apply entries_ok_app in He as [He1 He2].
    destruct (last_cases (block_lines (dc_last D))) as [E|(bl & t' & E)].
    { exfalso. unfold block_lines, unterminated_hangs in *. destruct (bl_entry (dc_last D)) as [e|].
      - apply app_eq_nil in E as [_ E]. unfold entry_lines in E. destruct (en_ctxt e); discriminate E.
      - rewrite app_nil_r in E. contradiction. }
    rewrite E, app_assoc in Hls. apply app_inj_tail in Hls as [<- ->].
    pose proof (blocks_loop cf fn t bl cs (dc_blocks D) c b5 k f s H Hb He1 Hcs) as B. rewrite Hr in B.
    eapply leads_hung; [exact B|]. intros f' s' H'. apply hung_loop; [eapply sees_eof_t; eauto|].
    eapply block_hangs; eauto. destruct (bl_entry (dc_last D)); [apply He2|exact Logic.I].
  Qed.

  (** ** A one-line msgstr without newline: steps that do not look at the eof flag *)
  Definition st_eof (s : pst I) (e : bool) : pst I := st_line s (p_in s) (p_cur s) e (p_line s).
  Definition framed {A} (m : P A) : Prop := forall s e, m (st_eof s e) = (fst (m s), st_eof (snd (m s)) e).
  Lemma framed_bind {A B} (m : P A) (f : A -> P B) : framed m -> (forall a, framed (f a)) -> framed (mbind m f).
  Proof.
    intros Hm Hf s e. unfold mbind. rewrite Hm. destruct (m s) as [o s']. cbn [fst snd]. destruct o; try reflexivity. apply Hf.
  Qed.
  Lemma framed_ret {A} (a : A) : framed (mret a). Proof. intros s e. reflexivity. Qed.
  Lemma framed_lift {A} (o : outcome A) : framed (mlift o). Proof. intros s e. reflexivity. Qed.
  Lemma framed_get {A} (g : pst I -> A) : (forall s e, g (st_eof s e) = g s) -> framed (mget g).
  Proof. intros H s e. unfold mget. rewrite H. reflexivity. Qed.
  Lemma framed_mod (g : pst I -> pst I) : (forall s e, g (st_eof s e) = st_eof (g s) e) -> framed (mmod g).
  Proof. intros H s e. unfold mmod. rewrite H. reflexivity. Qed.
  Lemma framed_warning w : framed (warning cf fn w). Proof. intros s e. rewrite !warning_eq. reflexivity. Qed.
  Lemma framed_fail {A} (o : outcome False) : framed (@mfail (pst I) A o). Proof. intros s e. reflexivity. Qed.
  Lemma framed_convert x : framed (do_convert cf x).
  Proof. intros s e. unfold do_convert. cbn [st_eof st_line p_conv]. destruct (convert nd (p_conv s) x) as [[? ?] ?]. reflexivity. Qed.
  Lemma framed_charsets a b : framed (do_set_charsets cf a b).
  Proof. intros s e. unfold do_set_charsets. cbn [st_eof st_line p_conv]. destruct (set_charsets st (p_conv s) a b) as [[? ?] ?]. reflexivity. Qed.
  Ltac fr := repeat first [apply framed_warning | apply framed_bind; intros | apply framed_ret | apply framed_lift | apply framed_fail
     | apply framed_convert | apply framed_charsets | apply framed_get; reflexivity | apply framed_mod; reflexivity
     | match goal with |- framed (if ?b then _ else _) => destruct b end ].
  Lemma framed_add op : framed (dict_add cf op).
  Proof. unfold dict_add, dict_call_, emit. fr. Qed.
  Lemma framed_header_line l a : framed (header_line cf fn l a).
  Proof. unfold header_line, dict_call_. fr. Qed.
  Lemma framed_header_loop h : forall acc a, framed (header_loop cf fn h acc a).
  Proof.
    induction h as [|x h IH]; intros acc a; cbn [header_loop]; [apply framed_ret|].
    destruct (byte_eqb x c_lf); [|apply IH]. apply framed_bind; [apply framed_header_line|]. intros. apply IH.
  Qed.
  Lemma framed_header h : framed (parse_header cf fn h).
  Proof. unfold parse_header. apply framed_bind; [apply framed_header_loop|]. intros. fr. Qed.

  (** what follows get_string in the singular branch *)
  Definition singular_tail (fz : bool) (cx : option bytes) (mi msgstr : bytes) : P unit :=
    if is_nil mi then parse_header cf fn msgstr
    else if negb (is_nil msgstr) && (true || negb fz) then v <- do_convert cf msgstr;; dict_add cf (AddSingular cx mi v) else mret tt.
  Lemma framed_tail fz cx mi m : framed (singular_tail fz cx mi m).
  Proof.
    unfold singular_tail. destruct (is_nil mi); [apply framed_header|]. destruct (_ && _); [|apply framed_ret].
    apply framed_bind; [apply framed_convert|]. intros. apply framed_add.
  Qed.
  Lemma tail_ok e m t ls c b5 cs k fz s :
    en_body e = PoStr m -> sees t ls c b5 cs k s -> entry_ok st b5 e -> clean st cs ->
    entry_result cf (singular_tail fz (opt_value (en_ctxt e)) (lit_value (en_id e)) (lit_value m) s) tt t ls (big5_after b5 e) cs k
      (read_entry nd cs c e).
  Proof.
    intros Em H (_ & _ & _ & Hh) Hcs. unfold singular_tail, read_entry, big5_after, is_header in *. rewrite Em in *.
    destruct (is_nil (lit_value (en_id e))).
    - pose proof (parse_header_ok cf fn t ls c b5 cs k (lit_value m) s H Hh Hcs) as K.
      destruct (set_charsets false c (hdr_charset (lit_value m)) cs) as [[o c'] ev].
      unfold entry_result. destruct o as [[]|e0|u| |]; eapply ok_mono; try exact K; intros o' s' [-> H']; (split; [reflexivity|]); auto; apply H'.
    - destruct (is_nil (lit_value m)) eqn:Emm.
      + apply gets_ret. rewrite app_nil_r. exact H.
      + cbn [negb andb orb]. destruct H as (H1 & H2 & H3 & H4 & H5).
        destruct (convert_cases cf nd c (lit_value m)) as [(v & c' & ev & Ec)|[(c' & ev & Ec)|(c' & ev & Ec)]]; rewrite Ec; unfold mbind at 1, do_convert; rewrite H2, Ec.
        * apply dict_add_ok. unfold DocProofs.sees, pos in *. cbn [st_tr st_conv p_in p_dict p_eof p_big5 p_line p_cur p_conv p_tr p_calls] in *. auto.
        * right. split; [reflexivity|]. cbn. now rewrite app_nil_r.
        * right. split; [reflexivity|]. cbn. now rewrite app_nil_r.
  Qed.

  Lemma one_line_end e m t c b5 cs k fz cx mi s :
    en_body e = PoStr m -> lt_more m = [] -> lit_ok st b5 m -> t = bs "msgstr" ++ chunk_text (lt_head m) ->
    sees t [] c b5 cs k s ->
    hung (body_of cf fn e fz cx mi s) \/
    exists s', sees t [] c b5 cs k s' /\
      body_of cf fn e fz cx mi s = singular_tail fz cx mi (lit_value m) (st_eof s' true).
  Proof.
    intros Em Hmore Hl Ht H. inversion Hl as [|? ? Hh _]; subst. 
    pose proof (sees_end _ _ _ _ _ _ H) as [He Hc].
    assert (EQ : body_of cf fn e fz cx mi s = mbind (get_string cf fn 6) (singular_tail fz cx mi) s).
    { unfold body_of. unfold prefix at 1. rewrite mget_bind, Hc.
      change (starts_with (bs "msgid_plural") _) with false. unfold prefix. rewrite mget_bind, Hc, starts_with_app. reflexivity. }
    rewrite EQ.
    assert (G : hung (get_string cf fn 6 s) \/ exists s', sees (bs "msgstr" ++ chunk_text (lt_head m)) [] c b5 cs k s' /\ get_string cf fn 6 s = (Ret (lit_value m), st_eof s' true)).
    { rewrite get_string_eq. unfold hung, mbind. rewrite run_lex_eq, Hc. replace (p_big5 s) with b5 by (symmetry; apply H).
      destruct (pfirst_chunk st (cf_pedantic cf) b5 (bs "msgstr") (lt_head m) Hh) as [ws Hw].
      change (length (bs "msgstr")) with 6 in Hw. rewrite Hw. set (s1 := warned_all cf fn ws s).
      assert (H1 : sees (bs "msgstr" ++ chunk_text (lt_head m)) [] c b5 cs k s1) by now apply sees_warn.
      pose proof (sees_end _ _ _ _ _ _ H1) as [He1 Hc1]. destruct (cf_fuel cf) as [|f]; [left; reflexivity|].
      destruct (next_bad cf s1 He1) as (N1 & N2 & N3).
      assert (Q : pquote st 0 (p_cur (nextst s1)) = Some None).
      { rewrite N2, Hc1. apply (pquote_letter st). reflexivity. }
      rewrite (continuation_stop cf fn f _ s1 Q). right. exists (st_eof (nextst s1) false). split.
      - destruct H1 as [_ H1]. nx s1. split.
        + split; [constructor|]. split; [apply (H)|]. cbn [st_eof st_line p_cur p_in p_eof]. split; [congruence|]. split; [exact N1|reflexivity].
        + cbn [st_eof st_line p_conv p_big5 p_dict p_calls]. rewrite Nv, Nb, Nd, Nc. exact H1.
      - unfold lit_value. rewrite Hmore. cbn [List.map List.concat]. rewrite app_nil_r. f_equal.
        unfold st_eof, st_line. cbn. rewrite <- N3. destruct (nextst s1). reflexivity. }
    destruct G as [G|(s' & H' & G)]; [left; apply bind_hung; exact G|]. right. exists s'. split; [exact H'|].
    unfold mbind. rewrite G. reflexivity.
  Qed.

  (** the spurious error at the end of such a file, and the end *)
  Lemma last_error t c b5 cs k s : sees t [] c b5 cs k s -> starts_with (bs "msg") t = true ->
    exists s', block_end (st_eof s true) = (Exn ExPo, s') /\ p_eof s' = true /\ p_calls s' = k.
  Proof.
    intros H Hm. pose proof (sees_end _ _ _ _ _ _ H) as [He Hc]. unfold block_end. unfold mbind at 1. rewrite is_empty_line_eq.
    change (p_cur (st_eof s true)) with (p_cur s). rewrite Hc, (proj2 (pquote_letter st _ Hm)). cbn [run_opt]. unfold mret at 1; cbv beta iota.
    rewrite error_never_returns. unfold error. rewrite mget_bind. unfold emit. rewrite mmod_bind. unfold mbind.
    set (s1 := st_tr (st_eof s true) _). rewrite recover_S, mget_bind.
    destruct (next_bad cf s1 He) as (N1 & N2 & N3). rewrite N3. cbn [mret mfail]. eexists. split; [reflexivity|].
    nx s1. split; [exact N3|]. rewrite Nc. apply H.
  Qed.

  Lemma one_line_block b e m t ls c b5 cs k s :
    bl_entry b = Some e -> en_body e = PoStr m -> lt_more m = [] -> Forall is_comment (bl_comments b) -> entry_ok st b5 e ->
    clean st cs -> block_lines b = ls ++ [t] -> sees t ls c b5 cs k s ->
    hung (block cf fn true s) \/
    match read_entry nd cs c e with
    | (Ret _, _, calls) => exists s', block cf fn true s = (Exn ExPo, s') /\ p_eof s' = true /\ p_calls s' = k ++ calls
    | (o, _, calls) => exists s', block cf fn true s = (o, s') /\ p_calls s' = k ++ calls
    end.
  Proof.
    intros Eb Em Hmore Hc He Hcs Hls H. unfold block_lines in Hls. rewrite Eb in Hls. unfold entry_lines in Hls. rewrite Em in Hls.
    cbn [body_lines] in Hls. unfold lit_lines at 2 in Hls. rewrite Hmore in Hls. cbn [List.map] in Hls. rewrite !app_assoc in Hls.
    apply app_inj_tail in Hls as [<- <-]. rewrite <- !app_assoc in H.
    set (t := bs "msgstr" ++ chunk_text (lt_head m)) in *.
    assert (Hm : starts_with (bs "msg") (hd t (ctxt_lines (en_ctxt e) ++ lit_lines (bs "msgid") (en_id e))) = true).
    { destruct (en_ctxt e); reflexivity. }
    destruct (block_to_entry _ _ _ _ _ _ _ _ H Hc Hm) as [K|(fz & s1 & -> & H1)]; [left; exact K|].
    rewrite <- (app_nil_r (lit_lines (bs "msgid") (en_id e))) in H1.
    destruct (entry_to_body e t [] c b5 cs k fz s1 H1 He) as [K|(s2 & E2 & H2)]; [apply msg_stops; reflexivity|left; apply bind_hung; exact K|].
    assert (Hl : lit_ok st b5 m) by (destruct He as (_ & _ & Hb & _); rewrite Em in Hb; exact Hb).
    destruct (one_line_end e m t c b5 cs k fz (opt_value (en_ctxt e)) (lit_value (en_id e)) s2 Em Hmore Hl eq_refl H2) as [K|(s3 & H3 & E3)].
    { left. apply bind_hung. rewrite E2. exact K. }
    pose proof (tail_ok e m t [] c b5 cs k fz s3 Em H3 He Hcs) as R. rewrite E3, framed_tail in E2.
    set (r := singular_tail fz (opt_value (en_ctxt e)) (lit_value (en_id e)) (lit_value m) s3) in *.
    unfold entry_result in R. destruct (read_entry nd cs c e) as [[o c'] calls].
    destruct o as [x|e0|u| |]; destruct R as [R|[R1 R2]].
    all: try (left; apply bind_hung; rewrite E2; unfold hung; cbn [fst]; exact R).
    all: right; unfold mbind at 1; rewrite E2.
    - rewrite R1. apply last_error with (1 := R2). reflexivity.
    - destruct (fst r); cbn [omap] in R1; try discriminate R1. injection R1 as ->. eexists. split; [reflexivity|exact R2].
    - destruct (fst r); cbn [omap] in R1; try discriminate R1. injection R1 as ->. eexists. split; [reflexivity|exact R2].
    - destruct (fst r); cbn [omap] in R1; try discriminate R1. eexists. split; [reflexivity|exact R2].
    - destruct (fst r); cbn [omap] in R1; try discriminate R1. eexists. split; [reflexivity|exact R2].
  Qed.

  Lemma doc_one_line D e m ls t f c b5 cs k s :
    doc_lines D = ls ++ [t] -> sees t ls c b5 cs k s -> doc_ok_from cf b5 D -> clean st cs ->
    bl_entry (dc_last D) = Some e -> en_body e = PoStr m -> lt_more m = [] ->
    ends cf fn f s (fst (fst (read_entries nd cs c (doc_entries D)))) (k ++ snd (read_entries nd cs c (doc_entries D))).
  Proof.
    intros Hls H (Hb & Hc & He) Hcs Eb Em Hmore. unfold doc_lines in Hls. fold (blocks_lines (dc_blocks D)) in Hls.
    unfold doc_entries in *. rewrite Eb in *. cbn [opt_list] in *. apply entries_ok_app in He as [He1 He2].
    destruct (last_cases (block_lines (dc_last D))) as [E|(bl & t' & E)].
    { unfold block_lines in E. rewrite Eb in E. apply app_eq_nil in E as [_ E]. unfold entry_lines in E. destruct (en_ctxt e); discriminate E. }
    rewrite E, app_assoc in Hls. apply app_inj_tail in Hls as [<- ->].
    assert (Ht : t <> []).
    { unfold block_lines in E. rewrite Eb in E. unfold entry_lines in E. rewrite Em in E. cbn [body_lines] in E. unfold lit_lines at 2 in E.
      rewrite Hmore in E. cbn [List.map] in E. rewrite !app_assoc in E. apply app_inj_tail in E as [_ E]. subst t. discriminate. }
    pose proof (blocks_loop cf fn t bl cs (dc_blocks D) c b5 k f s H Hb He1 Hcs) as B.
    rewrite read_entries_app. destruct (read_entries nd cs c (blocks_entries (dc_blocks D))) as [[o c'] calls].
    destruct o as [x|e0|u| |]; cbn [fst snd]; try (apply fails_ends; exact B).
    eapply leads_ends; [exact B|]. clear B H s f. intros f s H. cbn [read_entries].
    pose proof (one_line_block _ e m t bl c' _ cs (k ++ calls) s Eb Em Hmore Hc (proj1 He2) Hcs E H) as R.
    destruct f as [|f]; [left; reflexivity|]. unfold ends. rewrite loop_step by (eapply sees_eof_t; eauto).
    destruct R as [R|R].
    { left. apply bind_hung. unfold hung, try_block in *. destruct (block cf fn true s) as [o s']. cbn in R. subst. reflexivity. }
    pose proof (read_entry_outcome cf cs c' e) as No.
    destruct (read_entry nd cs c' e) as [[o c2] calls2]. cbn [fst] in No.
    unfold mbind, try_block. destruct o as [[]|e0|u| |]; cbn [fst snd].
    1: { destruct R as (s' & -> & R1 & R2). rewrite app_nil_r, app_assoc. destruct f as [|f]; [left; reflexivity|].
      right. cbn [parse_loop]. rewrite mget_bind, R1. cbn [mret fst snd]. split; [reflexivity|exact R2]. }
    all: destruct R as (s' & -> & R2). 
    - destruct e0; try congruence; right; cbn [fst snd]; rewrite app_assoc; auto.
    - right. cbn [fst snd]. rewrite app_assoc; auto.
    - right. cbn [fst snd]. rewrite app_assoc; auto.
    - right. cbn [fst snd]. rewrite app_assoc; auto.
  Qed.
End End.

(** ** Parses *)
Lemma unlines_app a b : unlines (a ++ b) = unlines a ++ unlines b.
Proof. induction a as [|l a IH]; [reflexivity|]. cbn [unlines app]. rewrite IH, <- app_assoc. reflexivity. Qed.
Lemma cut_last_newline ls b : unlines ls = b ++ [c_lf] -> exists ls' t, ls = ls' ++ [t] /\ b = unlines ls' ++ t.
Proof.
  intro H. destruct (last_cases ls) as [->|(a & x & ->)]; [destruct b; discriminate H|].
  exists a, x. split; [reflexivity|]. rewrite unlines_app in H. cbn [unlines] in H.
  change (x ++ [c_lf]) with (x ++ [c_lf]) in H. rewrite app_assoc in H. now apply app_inj_tail in H as [-> _].
Qed.

Lemma doc_cut strict D b : doc_ok strict D -> doc_text D = b ++ [c_lf] ->
  exists ls t, doc_lines D = ls ++ [t] /\ b = unlines ls ++ t /\ Forall good_line ls /\ good_line t.
Proof.
  intros HD H. apply cut_last_newline in H as (ls & t & E & ->). exists ls, t. pose proof (doc_good _ _ HD) as G.
  rewrite E in G. apply Forall_app in G as [G1 G2]. inversion G2; subst. auto.
Qed.

Lemma last_line_nonempty D ls t : unterminated_hangs (dc_last D) -> Forall is_comment (bl_comments (dc_last D)) ->
  doc_lines D = ls ++ [t] -> t <> [].
Proof.
  intros Hu Hc E -> . unfold doc_lines in E. unfold unterminated_hangs in Hu. 
  destruct (last_cases (block_lines (dc_last D))) as [El|(bl & t' & El)].
  { unfold block_lines in El. destruct (bl_entry (dc_last D)) as [e|].
    - apply app_eq_nil in El as [_ El]. unfold entry_lines in El. destruct (en_ctxt e); discriminate El.
    - rewrite app_nil_r in El. contradiction. }
  rewrite El, app_assoc in E. apply app_inj_tail in E as [_ ->]. unfold block_lines in El. destruct (bl_entry (dc_last D)) as [e|].
  - unfold entry_lines in El.
    assert (NE : forall l, l <> [] -> Forall (fun x : bytes => x <> []) l -> forall a b, a ++ l = b ++ [[]] -> False).
    { clear. intros l Hn Hf a b E. destruct (last_cases l) as [->|(l' & x & ->)]; [congruence|]. rewrite app_assoc in E.
      apply app_inj_tail in E as [_ ->]. apply Forall_app in Hf as [_ Hf]. inversion Hf. congruence. }
    assert (NL : forall kw l, kw <> [] -> Forall (fun x : bytes => x <> []) (lit_lines kw l)).
    { clear. intros kw l Hk. unfold lit_lines. constructor; [destruct kw; [congruence|discriminate]|].
      rewrite Forall_map. apply Forall_forall. intros c _. unfold chunk_text. destruct (ck_lead c); discriminate. }
    rewrite !app_assoc in El. revert El. apply NE.
    + destruct (en_body e) as [m|p r]; discriminate.
    + destruct (en_body e) as [m|p r]; cbn [body_lines].
      * apply NL. discriminate.
      * apply Forall_app. split; [apply NL; discriminate|]. apply Forall_concat. rewrite Forall_map. apply Forall_forall.
        intros x _. apply NL. discriminate.
  - rewrite app_nil_r in El. rewrite El in Hc. apply Forall_app in Hc as [_ Hc]. inversion Hc as [|? ? (l' & El' & _) _]. discriminate El'.
Qed.

Theorem doc_diverges cf fn D b d c' calls :
  doc_ok (cf_strict cf) D -> clean (cf_strict cf) (d_charset d) -> unterminated_hangs (dc_last D) ->
  read_entries (cf_ndebug cf) (d_charset d) (iconv_new (cf_iconv cf)) (blocks_entries (dc_blocks D)) = (Ret tt, c', calls) ->
  quiet (cf_ndebug cf) c' ->
  doc_text D = b ++ [c_lf] -> diverges cf fn (stream_of b) d.
Proof.
  intros HD Hcs Hu Hr Hq Hb. destruct (doc_cut _ _ _ HD Hb) as (ls & t & El & -> & G1 & G2).
  apply stuck_parse. intro n.
  pose proof (started_sees cf ls t d G1 G2) as S.
  exact (doc_hangs (with_fuel cf n) fn D ls t n _ false (d_charset d) [] _ c' calls El
          (last_line_nonempty D ls t Hu (proj1 (proj2 HD)) El) S HD Hcs Hu Hr Hq).
Qed.

Lemma end_parse_one_line cf fn D e m b d r :
  doc_ok (cf_strict cf) D -> clean (cf_strict cf) (d_charset d) ->
  bl_entry (dc_last D) = Some e -> en_body e = PoStr m -> lt_more m = [] ->
  doc_text D = b ++ [c_lf] ->
  parses_to cf fn (stream_of b) d r ->
  let x := read_entries (cf_ndebug cf) (d_charset d) (iconv_new (cf_iconv cf)) (doc_entries D) in
  pr_outcome r = fst (fst x) /\ pr_calls r = snd x.
Proof.
  intros HD Hcs Eb Em Hmore Hb P. cbv zeta. destruct (doc_cut _ _ _ HD Hb) as (ls & t & El & -> & G1 & G2).
  refine (ends_parse cf fn _ d r _ _ _ P). intro n. pose proof (started_sees cf ls t d G1 G2) as S.
  exact (doc_one_line (with_fuel cf n) fn D e m ls t n _ false (d_charset d) [] _ El S HD Hcs Eb Em Hmore).
Qed.
Lemma end_one_line_terminates cf fn D e m b d :
  doc_ok (cf_strict cf) D -> bl_entry (dc_last D) = Some e -> en_body e = PoStr m -> lt_more m = [] ->
  doc_text D = b ++ [c_lf] -> exists r, parses_to cf fn (stream_of b) d r.
Proof.
  intros HD Eb Em Hmore Hb. destruct (doc_cut _ _ _ HD Hb) as (ls & t & El & -> & G1 & G2).
  eexists. apply parses_to_intro, (parse_terminates cf fn _ d).
  assert (Ht : exists b5 u, t = bs "msgstr" ++ chunk_text u /\ chunk_ok (cf_strict cf) b5 u).
  { unfold doc_lines in El. set (X := List.concat _) in El. unfold block_lines in El. rewrite Eb in El. unfold entry_lines in El. rewrite Em in El. cbn [body_lines] in El. unfold lit_lines at 2 in El.
    rewrite Hmore in El. cbn [List.map] in El. rewrite !app_assoc in El. apply app_inj_tail in El as [_ El].
    destruct HD as (_ & _ & HD). unfold doc_entries in HD. rewrite Eb in HD. apply entries_ok_app in HD as [_ HD]. cbn [opt_list entries_ok] in HD.
    destruct HD as [(_ & _ & Hm & _) _]. rewrite Em in Hm. inversion Hm; subst. do 2 eexists. split; [reflexivity|eassumption]. }
  destruct Ht as (b5 & u & Ht & Hu). unfold drop_bom.
  assert (Hnb : starts_with bom (unlines ls ++ t) = false).
  { destruct ls as [|l ls]; [apply G2|]. inversion G1 as [|? ? [Hl1 Hl2] _]; subst. cbn [unlines]. rewrite <- app_assoc. cbn [app].
    apply not_true_iff_false. intro K. apply starts_with_spec in K as [v K]. apply not_true_iff_false in Hl2. apply Hl2.
    destruct l as [|x0 [|x1 [|x2 l]]]; cbn [app] in K; try discriminate K.
    all: assert (X : forall a b c (u w : bytes), a :: b :: c :: u = bom ++ w -> a = chr 239 /\ b = chr 187 /\ c = chr 191)
      by (clear; intros a b c u w E; unfold bom in E; cbn [app] in E; injection E as -> -> -> _; auto).
    - apply (X _ _ _ _ v) in K as (-> & -> & ->). reflexivity. }
  rewrite Hnb. unfold last_line.
  assert (L : last_line_from [] (unlines ls ++ t) = t).
  { destruct (unlines_complete ls) as [->|[b' ->]].
    - apply last_line_no_lf. apply G2.
    - rewrite <- app_assoc. cbn [app]. rewrite last_line_lf. apply last_line_no_lf. apply G2. }
  rewrite L, Ht. destruct (chunk_head _ _ _ Hu) as (x & r0 & -> & Hx). unfold hangs_on.
  assert (E : byte_eqb x "["%char = false).
  { destruct (byte_eqb x "["%char) eqn:E; [|reflexivity]. apply byte_eqb_eq in E. subst x. destruct Hx as [Hx|Hx]; discriminate Hx. }
  cbn. unfold starts_with. cbn [length firstn app bs list_ascii_of_string bytes_eqb]. rewrite orb_false_r. cbn. rewrite E. reflexivity.
Qed.
