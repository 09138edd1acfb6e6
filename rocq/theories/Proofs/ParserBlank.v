(** Two blank lines always end a block: whatever precedes them, the parser is at a
    block start when it has read the second one. *)
From Verif.Model Require Import Base Log PluralForms Dictionary IConv Stream PoParser.
From Verif.Spec Require Import ParserSpec.
From Verif.Proofs Require Import BaseFacts LexProofs ParserUnary ParserRel ParserSafe ParserFuel ParserLocal ParserCut.
Local Open Scope list_scope.

Lemma parses_to_effects cf fn i d r : parses_to cf fn i d r ->
  pr_dict r = fold_left apply_call (pr_calls r) d /\ Forall sound_call (pr_calls r).
Proof. intro H. apply parses_to_elim in H as (n & <- & _). apply parse_effects. Qed.


Section Blank.
  Variable cf : config.
  Variable fn : bytes.
  Local Notation I := (cf_iconv cf).
  Local Notation P := (M (pst I)).

  Definition J0 (s : pst I) := exists L, complete L /\ p_in s = stream_of (L ++ nn).
  Definition J1 (s : pst I) := p_in s = stream_of [c_lf] /\ p_cur s = [].
  Definition J2 (s : pst I) := p_in s = stream_of [] /\ p_cur s = [].
  Definition G (s : pst I) := p_eof s = false /\ (J0 s \/ J1 s).
  Definition G' (s : pst I) := p_eof s = false /\ (J0 s \/ J1 s \/ J2 s).
  Definition bpost {A} (r : outcome A * pst I) : Prop :=
    match r with (Ret _, s) => G s | (_, s) => G' s end.
  Definition bl {A} (m : P A) : Prop := forall s, G s -> bpost (m s).

  Lemma G_G' s : G s -> G' s.
  Proof. unfold G, G'. tauto. Qed.

  Lemma G'_good s : G' s -> is_good (p_in s) = true.
  Proof. intros [_ [(L & _ & Hi)|[[Hi _]|[Hi _]]]]; rewrite Hi; reflexivity. Qed.

  Definition same_in (s s' : pst I) := p_in s' = p_in s /\ p_cur s' = p_cur s /\ p_eof s' = p_eof s.
  Lemma G_same s s' : same_in s s' -> G s -> G s'.
  Proof. intros (H1 & H2 & H3). unfold G, J0, J1. rewrite H1, H2, H3. auto. Qed.
  Lemma J0_same s s' : same_in s s' -> J0 s -> J0 s'.
  Proof. intros (H1 & H2 & H3). unfold J0. rewrite H1. auto. Qed.
  Lemma same_refl s : same_in s s. Proof. repeat split. Qed.
  Lemma same_trans a b c : same_in a b -> same_in b c -> same_in a c.
  Proof. unfold same_in. intuition congruence. Qed.

  Lemma next_J0 s : J0 s -> p_eof s = false -> G (nextst s).
  Proof.
    intros (L & HL & Hi) He. unfold nextst.
    assert (Gd : is_good (p_in s) = true) by (rewrite Hi; reflexivity).
    destruct (getline_good _ (p_cur s) (f_equal is_break Hi) Gd) as [[R _]|[(l & r & R & Hl & ->)|[R [Hl _]]]];
      rewrite Hi in *; cbn [stream_of is_rest] in *.
    - destruct L; discriminate.
    - split; [exact He|]. destruct L as [|c L].
      + right. destruct l as [|x l]; [|exfalso; inversion R; subst; apply Hl; left; reflexivity].
        inversion R; subst. split; reflexivity.
      + left. destruct (in_dec ascii_dec c_lf (c :: L)) as [Hin|Hout].
        * assert (E : exists r', c :: L = l ++ c_lf :: r' /\ r = r' ++ nn).
          { clear -R Hl Hin. revert R Hl Hin. generalize (c :: L) as K. intro K. revert l.
            induction K as [|x K IH]; intros l R Hl Hin; [destruct Hin|].
            destruct l as [|y l]; simpl in R; inversion R; subst; clear R.
            - exists K. split; auto.
            - destruct Hin as [Hin|Hin]; [exfalso; apply Hl; left; exact Hin|].
              destruct (IH l H1 ltac:(intro; apply Hl; right; assumption) Hin) as (r' & E1 & E2).
              exists r'. split; [simpl; rewrite E1; reflexivity|exact E2]. }
          destruct E as (r' & E1 & E2). exists r'. split; [|simpl; rewrite E2; reflexivity].
          rewrite E1 in HL. eapply complete_tail; eauto.
        * exfalso. apply Hout. destruct HL as [HL|[b HL]]; [discriminate|]. rewrite HL. apply in_or_app. right; left; reflexivity.
    - exfalso. apply Hl. apply in_or_app. right; left; reflexivity.
  Qed.
  Lemma next_J1 s : J1 s -> p_eof s = false -> G' (nextst s) /\ J2 (nextst s).
  Proof.
    intros (Hi & Hc) He.
    assert (J2 (nextst s) /\ p_eof (nextst s) = false) as [H1 H2].
    { unfold nextst. rewrite Hi. simpl. split; [split; reflexivity|exact He]. }
    split; [split; [exact H2|right; right; exact H1]|exact H1].
  Qed.
  Lemma next_G s : G s -> G' (nextst s).
  Proof. intros [He [H|H]]; [apply G_G', next_J0|apply next_J1]; auto. Qed.
  (** a non-empty current line: not yet at the blank lines *)
  Lemma G_J0 s : G s -> p_cur s <> [] -> J0 s.
  Proof. intros [_ [H|[_ H]]] N; [exact H|contradiction]. Qed.

  (** steps that read nothing *)
  Definition still {A} (m : P A) : Prop := forall s, same_in s (snd (m s)).
  Lemma bl_still A (m : P A) : still m -> bl m.
  Proof.
    intros H s Hs. specialize (H s). unfold bpost. pose proof (G_same _ _ H Hs) as HG.
    destruct (m s) as [[?|?|?| |] s']; simpl in *; auto using G_G'.
  Qed.
  Lemma bl_bind A B (m : P A) (k : A -> P B) : bl m -> (forall a, bl (k a)) -> bl (mbind m k).
  Proof.
    intros Hm Hk s Hs. specialize (Hm s Hs). unfold mbind, bpost in *.
    destruct (m s) as [[a|?|?| |] s']; auto. apply Hk, Hm.
  Qed.
  Lemma still_of_tri A (m : P A) :
    (forall s0, tri cf (same_in s0) (fun _ s => same_in s0 s) m) -> still m.
  Proof.
    intros H s. specialize (H s s (same_refl s)). unfold post in H. destruct (m s) as [[?|[]|?| |] s']; exact H.
  Qed.
  Lemma x_conv' s0 (s : pst I) t : same_in s0 s -> post cf (same_in s0) (fun _ s => same_in s0 s) (do_convert cf t s).
  Proof. intro H. unfold do_convert. destruct (convert _ _ _) as [[o c] ev]. destruct o as [?|[]|?| |]; exact H. Qed.
  Lemma x_set' s0 (s : pst I) c d : same_in s0 s -> post cf (same_in s0) (fun _ s => same_in s0 s) (do_set_charsets cf c d s).
  Proof. intro H. unfold do_set_charsets. destruct (set_charsets _ _ _ _) as [[o c'] ev]. destruct o as [?|[]|?| |]; exact H. Qed.
  Ltac st L := apply still_of_tri; intro s0; eapply L; try exact true;
    first [ now (intros; apply x_conv'; auto) | now (intros; apply x_set'; auto)
          | now (intros; assumption) | now auto | idtac ].
  Lemma s_warning w : still (warning cf fn w). Proof. st tri_warning. Qed.
  Lemma s_empty : still (is_empty_line cf). Proof. st tri_empty. Qed.
  Lemma s_msgstr_n : still (is_msgstr_n cf). Proof. st tri_msgstr_n. Qed.
  Lemma s_add op : still (dict_add cf op). Proof. st tri_add. Qed.
  Lemma s_header h : still (parse_header cf fn h). Proof. st tri_parse_header. Qed.
  Lemma s_convert t : still (do_convert cf t). Proof. st tri_convert. Qed.
  Lemma s_get A (g : pst I -> A) : still (mget g). Proof. intro s. apply same_refl. Qed.
  Lemma s_ret A (a : A) : still (mret a). Proof. intro s. apply same_refl. Qed.
  Lemma s_warned ws : forall s, same_in s (warned_all cf fn ws s).
  Proof. induction ws as [|w ws IH]; intro s; [apply same_refl|]. simpl. eapply same_trans; [|apply IH]. repeat split. Qed.

  Lemma recover_G f : forall s, G s -> G' (snd (recover cf f s)).
  Proof.
    induction f as [|f IH]; intros s Hs; [apply G_G', Hs|].
    rewrite recover_S, mget_bind.
    assert (Stop : p_cur (nextst s) = [] -> G' (nextst s) -> G' (snd ((if p_eof (nextst s) then mret tt
       else mbind (is_empty_line cf) (fun e => if e then mret tt else recover cf f)) (nextst s)))).
    { intros Hc HG. destruct (p_eof (nextst s)); [exact HG|]. unfold mbind. rewrite is_empty_line_eq, Hc. exact HG. }
    destruct Hs as [He [H0|H1]].
    - pose proof (next_J0 s H0 He) as HG. destruct (p_cur (nextst s)) eqn:Ec; [apply Stop; auto using G_G'|].
      destruct (p_eof (nextst s)); [apply G_G', HG|]. unfold mbind.
      rewrite is_empty_line_eq. destruct (pempty _ _) as [[]|]; cbn [run_opt]; unfold mret, mfail; simpl; auto using G_G'.
    - destruct (next_J1 s H1 He) as [HG [_ Hc]]. apply Stop; auto.
  Qed.
  Lemma bl_error A m : bl (@error cf fn A m).
  Proof.
    intros s Hs. unfold error. rewrite mget_bind. unfold mbind at 1, emit, mmod. unfold mbind.
    pose proof (recover_G (S (S (length (is_rest (p_in s)))))
      (st_tr s (p_tr s ++ [EvLog (log_error (fn ++ bs ":" ++ dec_Z (p_line s) ++ bs ": error: " ++ m
                            ++ bs ": " ++ p_cur s))]))) as H.
    specialize (H (G_same _ _ ltac:(repeat split) Hs)).
    destruct (recover _ _ _) as [[?|?|?| |] s']; exact H.
  Qed.
  (** scanners: on success the current line is unchanged *)
  Lemma bl_run_lex A (r : lexres A) s : G s ->
    match run_lex cf fn r s with (Ret _, s') => same_in s s' | (_, s') => G' s' end.
  Proof.
    intro Hs. rewrite run_lex_eq. pose proof (s_warned) as W. destruct r as [ws a|ws m|ws]; simpl.
    - apply W.
    - pose proof (G_same _ _ (W ws s) Hs) as Hw. pose proof (bl_error A m _ Hw) as E.
      unfold bpost in E.
      unfold error in *. rewrite mget_bind in *. unfold mbind in *. unfold emit, mmod in *.
      destruct (recover _ _ _) as [[?|?|?| |] s']; exact E.
    - apply G_G'. eapply G_same; [apply W|exact Hs].
  Qed.
  Lemma pquote_nil strict : pquote strict 0 [] = Some None. Proof. reflexivity. Qed.

  Lemma bl_continuation f : forall out s, J0 s -> p_eof s = false -> bpost (continuation cf fn f out s).
  Proof.
    induction f as [|f IH]; intros out s H0 He; cbn [continuation].
    { apply G_G'. split; auto. }
    unfold mbind at 1. rewrite next_line_eq. rewrite mget_bind.
    pose proof (next_J0 s H0 He) as HG. set (s1 := nextst s) in *.
    unfold mbind at 1. rewrite find_quote_eq.
    destruct (pquote (cf_strict cf) 0 (p_cur s1)) as [[i|]|] eqn:Eq; cbn [run_opt]; unfold mret, mfail; cbn [bpost];
      auto using G_G'.
    assert (Hne : p_cur s1 <> []) by (intro E; rewrite E in Eq; discriminate).
    pose proof (G_J0 _ HG Hne) as HJ.
    assert (W : forall s2, same_in s1 s2 -> bpost (mbind (get_string_line cf fn out i) (continuation cf fn f) s2)).
    { intros s2 Hs2. unfold mbind. rewrite get_string_line_eq.
      pose proof (bl_run_lex _ (pline (cf_strict cf) (p_big5 s2) out i (p_cur s2)) s2 (G_same _ _ Hs2 HG)) as R.
      destruct (run_lex _ _ _ _) as [[?|?|?| |] s3]; try exact R.
      apply IH; [eapply J0_same; [eapply same_trans; [exact Hs2|exact R]|exact HJ]|].
      destruct R as (_ & _ & ->). destruct Hs2 as (_ & _ & ->). apply HG. }
    unfold mbind at 1. destruct (_ && _).
    - rewrite warning_eq. apply W. repeat split.
    - apply W, same_refl.
  Qed.
  Lemma pfirst_nonempty strict pd b5 skip cur ws a : pfirst strict pd b5 skip cur = LOk ws a -> cur <> [].
  Proof. intros H ->. unfold pfirst in H. simpl in H. discriminate. Qed.
  Lemma bl_get_string k : bl (get_string cf fn k).
  Proof.
    intros s Hs. rewrite get_string_eq. unfold mbind.
    pose proof (bl_run_lex _ (pfirst (cf_strict cf) (cf_pedantic cf) (p_big5 s) k (p_cur s)) s Hs) as R.
    destruct (run_lex _ _ _ _) as [[a|?|?| |] s'] eqn:E; try exact R.
    rewrite run_lex_eq in E. destruct (pfirst _ _ _ _ _) as [ws a'|ws m|ws] eqn:Ep.
    - apply pfirst_nonempty in Ep. apply bl_continuation.
      + eapply J0_same; [exact R|apply G_J0; auto].
      + destruct R as (_ & _ & ->). apply Hs.
    - exfalso. revert E. unfold error. rewrite mget_bind. unfold mbind, emit, mmod.
      destruct (recover cf _ _) as [[?|?|?| |] ?]; discriminate.
    - discriminate E.
  Qed.
  Lemma bl_comments_ f : forall b, bl (comments cf f b).
  Proof.
    induction f as [|f IH]; intros b s Hs; cbn [comments]; [apply G_G', Hs|].
    unfold prefix. rewrite mget_bind. destruct (starts_with [c_hash] (p_cur s)) eqn:E; [|exact Hs].
    rewrite mget_bind. unfold mbind. rewrite next_line_eq. apply IH. apply next_J0; [|apply Hs].
    apply G_J0; auto. intro N. rewrite N in E. discriminate.
  Qed.
  Lemma bl_msgstr_loop f : forall v b, bl (msgstr_loop cf fn f v b).
  Proof.
    induction f as [|f IH]; intros v b; cbn [msgstr_loop]; [intros s Hs; apply G_G', Hs|].
    apply bl_bind; [apply bl_still, s_empty|intros []].
    { destruct (is_nil v); [apply bl_error|apply bl_still, s_ret]. }
    apply bl_bind; [apply bl_still, s_msgstr_n|intros []]; [|apply bl_error].
    apply bl_bind; [apply bl_still, s_get|intros cur]. cbv zeta. apply bl_bind; [apply bl_get_string|intros m].
    apply bl_bind; [apply bl_still, s_convert|intros x]. apply IH.
  Qed.
  Lemma bl_entry_ fz : bl (entry cf fn true fz).
  Proof.
    unfold entry. apply bl_bind; [apply bl_still, s_get|intros hc].
    apply bl_bind; [destruct hc; [apply bl_bind; [apply bl_get_string|intros; apply bl_still, s_ret]|apply bl_still, s_ret]|intros ctxt].
    apply bl_bind; [apply bl_still, s_get|intros hm].
    apply bl_bind; [destruct hm; [apply bl_get_string|apply bl_error]|intros id].
    apply bl_bind; [apply bl_still, s_get|intros []].
    - unfold plural_entry. apply bl_bind; [apply bl_get_string|intros mp].
      apply bl_bind; [apply bl_msgstr_loop|intros r]. apply bl_bind; [apply bl_still, s_empty|intros []]; cbn [negb]; [|apply bl_error].
      destruct (_ && _); [|apply bl_still, s_ret]. apply bl_bind; [apply bl_still, s_get|intros d].
      apply bl_bind; [|intros _; apply bl_still, s_add]. apply bl_still.
      destruct (negb _); [apply s_warning|]. destruct (negb _); [apply s_warning|apply s_ret].
    - apply bl_bind; [apply bl_still, s_get|intros []]; [|apply bl_error].
      unfold singular_entry. apply bl_bind; [apply bl_get_string|intros ms].
      destruct (is_nil id); [apply bl_still, s_header|]. destruct (_ && _); [|apply bl_still, s_ret].
      apply bl_bind; [apply bl_still, s_convert|intros; apply bl_still, s_add].
  Qed.
  Lemma bl_block_body : bl (block_body cf fn).
  Proof.
    unfold block_body. apply bl_bind; [apply bl_comments_|intros fz]. apply bl_bind; [apply bl_still, s_empty|intros e].
    apply bl_bind; [destruct e; [apply bl_still, s_ret|apply bl_entry_]|intros _].
    apply bl_bind; [apply bl_still, s_empty|intros e']. destruct e'; [apply bl_still, s_ret|apply bl_error].
  Qed.
  Lemma try_G s : G s -> G' (snd (try_block cf fn true s)).
  Proof.
    intro Hs. unfold try_block. rewrite block_eq. pose proof (bl_block_body s Hs) as B. unfold mbind, bpost in *.
    destruct (block_body cf fn s) as [[a|[]|?| |] s']; try exact B.
    rewrite next_line_eq. apply next_G, B.
  Qed.
  (** at the second blank line, one more block reads end of file and nothing else *)
  Lemma try_J2 s : J2 s -> 0 < cf_fuel cf ->
    try_block cf fn true s = (Ret tt, nextst s) /\ p_eof (nextst s) = true.
  Proof.
    intros [Hi Hc] Hf. split; [|unfold nextst; rewrite Hi; reflexivity].
    unfold try_block. rewrite block_eq. unfold block_body.
    assert (C : comments cf (cf_fuel cf) false s = (Ret false, s)).
    { destruct (cf_fuel cf); [lia|]. cbn [comments]. unfold prefix. rewrite mget_bind, Hc. reflexivity. }
    unfold mbind. rewrite C. rewrite is_empty_line_eq, Hc. cbn [pempty run_opt]. unfold mret at 1.
    unfold mret at 1. rewrite is_empty_line_eq, Hc. reflexivity.
  Qed.
End Blank.

Section BlankLoop.
  Variable cf : config.
  Variable fn : bytes.
  Variable n : nat.
  Hypothesis Hn : 0 < n.
  Variable B : bytes.
  Local Notation I := (cf_iconv cf).
  Local Notation cfn := (with_fuel cf n).

  (** The two runs stay in step until the second blank line has been read. *)
  Lemma blank_loop g : forall g2 s1 s2,
    g <= g2 -> Rloc I B [] [] 0 s1 s2 -> G' cfn s1 ->
    fst (parse_loop cfn fn true g s1) <> OutOfFuel ->
    (exists o, o <> Ret tt /\ fst (parse_loop cfn fn true g s1) = o /\ fst (parse_loop cfn fn true g2 s2) = o /\
               p_calls (snd (parse_loop cfn fn true g s1)) = p_calls (snd (parse_loop cfn fn true g2 s2))) \/
    (exists t1 t2 g', g' <= g2 /\ Rloc I B [] [] 0 t1 t2 /\ J2 cfn t1 /\ p_eof t1 = false /\
       parse_loop cfn fn true g s1 = (Ret tt, nextst t1) /\
       parse_loop cfn fn true g2 s2 = parse_loop cfn fn true g' t2).
  Proof.
    induction g as [|g IH]; intros g2 s1 s2 Hg HR HG Hf; [exfalso; apply Hf; reflexivity|].
    destruct g2 as [|g2]; [lia|].
    destruct HG as [He HG].
    assert (HJ2 : J2 cfn s1 \/ G cfn s1) by (unfold G; tauto). clear HG.
    destruct HJ2 as [HJ|HG].
    - (* at the second blank line *)
      right. exists s1, s2, (S g2). split; [lia|]. split; [exact HR|]. split; [exact HJ|]. split; [exact He|].
      split; [|reflexivity].
      cbn [parse_loop]. rewrite mget_bind. cbn [cf_iconv with_fuel] in *. rewrite He. unfold mbind.
      destruct (try_J2 cfn fn s1 HJ Hn) as [-> E]. destruct g as [|g].
      { exfalso. apply Hf. cbn [parse_loop]. rewrite mget_bind. cbn [cf_iconv with_fuel] in *. rewrite He. unfold mbind.
        destruct (try_J2 cfn fn s1 HJ Hn) as [-> _]. reflexivity. }
      cbn [parse_loop]. rewrite mget_bind. cbn [cf_iconv with_fuel] in *. rewrite E. reflexivity.
    - cbn [parse_loop] in *. rewrite !mget_bind in *. cbn [cf_iconv with_fuel] in *.
      pose proof HR as (_ & He2 & _). rewrite <- He2. rewrite He in *.
      pose proof (loc_try I (cf_strict cf) (cf_ndebug cf) (cf_pedantic cf) (cf_pedantic cf) n n fn fn (le_n n)
                    B [] [] 0%Z s1 s2 HR) as L.
      change (mkcf (cf_iconv cf) (cf_strict cf) (cf_ndebug cf) (cf_pedantic cf) n) with cfn in L.
      pose proof (try_G cfn fn s1 HG) as HG'. unfold mbind in *.
      destruct (try_block cfn fn true s1) as [o1 s1'] eqn:E1.
      destruct (try_block cfn fn true s2) as [o2 s2'] eqn:E2.
      destruct L as [[Ho HR']|[[Ho _]|(_ & Hbad & _)]]; simpl in *.
      + destruct o1 as [[]|e|u| |], o2 as [[]|e'|u'| |]; simpl in Ho; try contradiction;
          try (left; eexists; split; [|split; [reflexivity|split; [simpl; congruence|
               destruct HR' as (_ & _ & _ & _ & _ & _ & (k & K1 & K2) & _); simpl; congruence]]]; simpl; discriminate).
        destruct (IH g2 s1' s2' ltac:(lia) HR' HG' Hf) as [L|(t1 & t2 & g' & H1 & H2)]; [left; exact L|].
        right. exists t1, t2, g'. split; [lia|exact H2].
      + exfalso. subst o1. apply Hf. reflexivity.
      + exact (False_ind _ (eq_true_false_abs _ (G'_good cfn s1' HG') Hbad)).
  Qed.
End BlankLoop.

(** ** A parse that never opens a converter leaves the initial charset state *)
Lemma opens_app a b : opens (a ++ b) = opens a || opens b.
Proof. apply existsb_app. Qed.

Section Plain.
  Variable cf : config.
  Variable fn : bytes.
  Variable cs : bytes.
  Hypothesis Hcs : List.map toupper cs <> bs "BIG5".
  Local Notation I := (cf_iconv cf).

  Definition J_plain (s : pst I) : Prop :=
    d_charset (p_dict s) = cs /\
    (opens (p_tr s) = true \/ (cv_cd (p_conv s) = CdNull /\ p_big5 s = false)).

  Lemma plain_log s l : J_plain s -> J_plain (st_tr s (p_tr s ++ [EvLog l])).
  Proof.
    intros [H1 H2]. split; [exact H1|]. simpl. rewrite opens_app. simpl. rewrite orb_false_r. exact H2.
  Qed.
  Lemma plain_call s c : J_plain s -> J_plain (st_dict s (apply_call (p_dict s) c) (p_calls s ++ [c])).
  Proof. intros [H1 H2]. split; [simpl; rewrite apply_call_charset; exact H1|exact H2]. Qed.
  Lemma plain_conv s t : J_plain s -> post cf J_plain (fun _ _ => True) (do_convert cf t s).
  Proof.
    intros [H1 H2]. unfold do_convert. destruct (convert _ _ _) as [[o c] ev] eqn:E.
    assert (G : J_plain (st_tr (st_conv s c) (p_tr s ++ ev))).
    { split; [exact H1|]. simpl. rewrite opens_app. destruct H2 as [->|[H2 H3]]; [left; reflexivity|].
      unfold convert in E. rewrite H2 in E. inversion E; subst. right. simpl. auto. }
    destruct o as [?|[]|?| |]; simpl; auto.
  Qed.
  Lemma plain_set s c : J_plain s -> post cf J_plain (fun _ _ => True) (do_set_charsets cf c (get_charset (p_dict s)) s).
  Proof.
    intros [H1 H2]. unfold do_set_charsets. destruct (set_charsets _ _ _ _) as [[o c'] ev] eqn:E.
    destruct (set_outcome _ _ _ _ _ _ _ _ E) as [[-> Hn]|[[w ->]|[-> _]]]; simpl; auto.
    split; [exact H1|]. simpl. rewrite opens_app. destruct H2 as [->|[H2 H3]]; [left; reflexivity|].
    unfold set_charsets in E. rewrite H2 in E. simpl in E. destruct (cf_strict cf && _); [discriminate|].
    destruct (bytes_eqb _ _); [inversion E; subst; right; auto|].
    destruct (ic_open I _ _) as [st|[e txt]]; inversion E; subst. left. simpl. apply orb_true_r.
  Qed.
  Lemma plain_header h : tri cf J_plain (fun _ _ => True) (parse_header cf fn h).
  Proof.
    unfold parse_header. apply tri_bind.
    - apply tri_header_loop; auto using plain_log, plain_call.
    - intro charset. destruct (is_nil charset || _).
      + apply tri_bind; [apply tri_bind; [apply tri_warning, plain_log|intros; apply tri_ret]|].
        intros c. apply tri_get_bind. intros s Hs. apply plain_set, Hs.
      + destruct (bytes_eqb charset (bs "BIG5")) eqn:Eb.
        * apply bytes_eqb_eq in Eb. subst charset. intros s [H1 H2]. unfold mbind, mmod, mret, mget.
          unfold do_set_charsets. cbn [st_big5 p_conv p_dict p_tr]. unfold get_charset. rewrite H1.
          destruct (set_charsets _ _ _ _) as [[o c'] ev] eqn:E.
          destruct (set_outcome _ _ _ _ _ _ _ _ E) as [[-> Hn]|[[w ->]|[-> _]]]; simpl; auto.
          split; [exact H1|left]. simpl. rewrite opens_app. unfold set_charsets in E.
          destruct (cf_strict cf && _); [discriminate|].
          destruct (bytes_eqb (List.map toupper cs) _) eqn:Ec; [apply bytes_eqb_eq in Ec; exfalso; apply Hcs; rewrite Ec; reflexivity|].
          destruct (ic_open I _ _) as [st|[e txt]]; inversion E; subst. rewrite opens_app. simpl. now rewrite !orb_true_r.
        * apply tri_bind; [apply tri_ret|]. intros c. apply tri_get_bind. intros s Hs. apply plain_set, Hs.
  Qed.
  Lemma plain_parse i d uf : d_charset d = cs ->
    match parse_member cf fn uf (init_state cf i d) with
    | (Ret _, s) => J_plain s | _ => True end.
  Proof.
    intro Hd. assert (T : tri cf J_plain (fun _ _ => True) (parse_member cf fn uf)).
    { apply trh_parse; auto using plain_log, plain_conv, plain_set, plain_header.
      - intros s H. nx s. unfold J_plain. rewrite Nd, Nt, Nv, Nb. exact H.
      - intros s op H. apply (plain_call s (CallAdd op) H). }
    specialize (T (init_state cf i d)). unfold post in T.
    assert (J_plain (init_state cf i d)) as H0 by (split; [exact Hd|right; auto]).
    specialize (T H0). destruct (parse_member _ _ _ _) as [[?|[]|?| |] s]; auto.
  Qed.
End Plain.

Section Assemble.
  Variable cf : config.
  Variable fn : bytes.
  Local Notation I := (cf_iconv cf).

  Lemma loop_transfer n g (t u : pst I) dl m :
    g <= n -> n <= m -> Rloc I [] (p_calls t) (p_calls u) dl t u ->
    fst (parse_loop (with_fuel cf n) fn true g t) <> OutOfFuel ->
    exists k, fst (parse_loop (with_fuel cf m) fn true m u) = fst (parse_loop (with_fuel cf n) fn true g t) /\
      p_calls (snd (parse_loop (with_fuel cf n) fn true g t)) = p_calls t ++ k /\
      p_calls (snd (parse_loop (with_fuel cf m) fn true m u)) = p_calls u ++ k.
  Proof.
    intros Hg Hm HR Hn.
    pose proof (loc_loop I (cf_strict cf) (cf_ndebug cf) (cf_pedantic cf) (cf_pedantic cf) n m fn fn Hm
                  [] (p_calls t) (p_calls u) dl g m ltac:(lia) t u HR) as L.
    change (mkcf (cf_iconv cf) (cf_strict cf) (cf_ndebug cf) (cf_pedantic cf) n) with (with_fuel cf n) in L.
    change (mkcf (cf_iconv cf) (cf_strict cf) (cf_ndebug cf) (cf_pedantic cf) m) with (with_fuel cf m) in L.
    destruct (parse_loop (with_fuel cf n) fn true g t) as [o1 s1].
    destruct (parse_loop (with_fuel cf m) fn true m u) as [o2 s2].
    destruct L as [[Ho (_ & _ & _ & _ & _ & _ & (k & K1 & K2) & _)]|[[Ho _]|[Ht _]]]; simpl in *; try congruence.
    exists k. repeat split; auto.
    destruct o1 as [[]|e|x| |], o2 as [[]|e'|x'| |]; simpl in Ho; try contradiction; congruence.
  Qed.

  Definition strip_bom (s : pst I) : pst I := if starts_with bom (p_cur s) then st_cur s (skipn 3 (p_cur s)) else s.
  Lemma parse_member_eq n uf s : parse_member (with_fuel cf n) fn uf s =
    parse_loop (with_fuel cf n) fn uf n (strip_bom (nextst s)).
  Proof. reflexivity. Qed.

  Lemma strip_R tl c1 c2 dl s1 s2 : Rloc I tl c1 c2 dl s1 s2 -> Rloc I tl c1 c2 dl (strip_bom s1) (strip_bom s2).
  Proof.
    intros (Hcur & H). unfold strip_bom. rewrite <- Hcur. destruct (starts_with bom (p_cur s1)).
    - unfold Rloc. cbn [st_cur st_line p_cur p_eof p_big5 p_conv p_dict p_line p_calls p_in]. split; [reflexivity|exact H].
    - split; auto.
  Qed.
  Lemma strip_G cf' (s : pst (cf_iconv cf')) : G cf' s ->
    G cf' (if starts_with bom (p_cur s) then st_cur s (skipn 3 (p_cur s)) else s).
  Proof.
    destruct (starts_with bom (p_cur s)) eqn:E; [|auto].
    intros [He [H|[_ H]]]; [|rewrite H in E; discriminate]. split; [exact He|left; exact H].
  Qed.

  Lemma J0_init n A d : complete A -> J0 (with_fuel cf n) (init_state (with_fuel cf n) (stream_of (A ++ nn)) d).
  Proof. intro H. exists A. split; auto. Qed.

  (** The part of a run on A + two blank lines + B that lies before B. *)
  Lemma blank_split n A B d :
    0 < n -> complete A ->
    let r1 := parse_member (with_fuel cf n) fn true (init_state cf (stream_of (A ++ nn)) d) in
    let r2 := parse_member (with_fuel cf n) fn true (init_state cf (stream_of (A ++ nn ++ B)) d) in
    fst r1 <> OutOfFuel ->
    (exists o, o <> Ret tt /\ fst r1 = o /\ fst r2 = o /\ p_calls (snd r1) = p_calls (snd r2)) \/
    (fst r1 = Ret tt /\
     exists t2 g', g' <= n /\ r2 = parse_loop (with_fuel cf n) fn true g' t2 /\
       p_calls t2 = p_calls (snd r1) /\ cv_eqv (p_conv (snd r1)) (p_conv t2) /\ p_big5 t2 = p_big5 (snd r1) /\
       d_charset (p_dict t2) = d_charset d /\ p_in t2 = stream_of B /\ p_cur t2 = [] /\ p_eof t2 = false).
  Proof.
    intros Hn HA r1 r2 Hr1.
    assert (Hms : d_charset (p_dict (snd r1)) = d_charset d).
    { unfold r1. rewrite parse_member_eq.
      pose proof (mono_loop (with_fuel cf n) fn true n (strip_bom (nextst (init_state cf (stream_of (A ++ nn)) d)))) as (_ & _ & _ & H).
      etransitivity; [exact H|]. unfold strip_bom. destruct (starts_with _ _);
        exact (f_equal d_charset (proj1 (nextst_fields I (init_state cf (stream_of (A ++ nn)) d)))). }
    unfold r1, r2 in *. rewrite parse_member_eq in *. rewrite (parse_member_eq n true (init_state cf (stream_of (A ++ nn ++ B)) d)).
    set (i1 := init_state cf (stream_of (A ++ nn)) d) in *.
    set (i2 := init_state cf (stream_of (A ++ nn ++ B)) d) in *.
    assert (HC : complete (A ++ nn)).
    { right. exists (A ++ [c_lf]). rewrite <- app_assoc. reflexivity. }
    assert (R0 : Rloc I B [] [] 0 i1 i2).
    { unfold Rloc; simpl. repeat split; auto using cv_eqv_refl; [exists []; auto|].
      left. exists (A ++ nn). rewrite <- app_assoc. auto. }
    pose proof (next_J0 (with_fuel cf n) i1 (J0_init n A d HA) eq_refl) as HG.
    destruct (Rloc_next I B [] [] 0%Z _ _ R0) as [R1|(_ & E1 & _)].
    2: { exfalso. exact (eq_true_false_abs _ (G'_good (with_fuel cf n) (nextst i1) (G_G' (with_fuel cf n) _ HG)) E1). }
    apply strip_R in R1. apply (strip_G (with_fuel cf n)) in HG. change (G (with_fuel cf n) (strip_bom (nextst i1))) in HG.
    destruct (blank_loop cf fn n Hn B n n _ _ (le_n n) R1 (G_G' _ _ HG) Hr1)
      as [(o & H1 & H2 & H3 & H4)|(t1 & t2 & g' & Hg' & HR' & HJ & He & E1 & E2)].
    - left. exists o. auto.
    - right. cbn [cf_iconv with_fuel] in *. rewrite E1 in *. split; [reflexivity|]. exists t2, g'. cbn [snd] in *.
      nx t1. rewrite Nc, Nv, Nb, Nd in *.
      destruct HR' as (Rc & Re & Rb & Rv & Rd & _ & (k & K1 & K2) & Hi). destruct HJ as [Ji Jc].
      change (p_cur t1 = []) in Jc. change (p_in t1 = stream_of []) in Ji.
      repeat split; auto; try congruence.
      rewrite Ji in Hi. destruct Hi as [(r & X & Y & _)|[-> Hi]]; [|congruence].
      inversion X; subst r. exact Y.
  Qed.

  Lemma parses_blank A d rA :
    complete A -> parses_to cf fn (stream_of (A ++ nn)) d rA ->
    (pr_outcome rA <> Ret tt /\
     forall B, exists rW, parses_to cf fn (stream_of (A ++ nn ++ B)) d rW /\
       pr_outcome rW = pr_outcome rA /\ pr_calls rW = pr_calls rA) \/
    (pr_outcome rA = Ret tt /\ exists conv b5,
       (opens (pr_trace rA) = false -> List.map toupper (d_charset d) <> bs "BIG5" -> cv_cd conv = CdNull /\ b5 = false) /\
       forall B rW,
       parses_to cf fn (stream_of (A ++ nn ++ B)) d rW ->
       exists callsB, resumes_to cf fn conv b5 B d (pr_outcome rW) callsB /\ pr_calls rW = pr_calls rA ++ callsB).
  Proof.
    intros HA (HnA & NA & PA).
    pose (nA := S NA).
    pose proof (PA nA ltac:(unfold nA; lia)) as EA. unfold po_parse in EA.
    assert (FA : forall n, nA <= n -> parse_member (with_fuel cf n) fn true (init_state cf (stream_of (A ++ nn)) d) =
                   parse_member (with_fuel cf nA) fn true (init_state cf (stream_of (A ++ nn)) d)).
    { intros n Hle. apply (fle_parse cf fn true nA n Hle).
      change (init_state (with_fuel cf nA) (stream_of (A ++ nn)) d) with (init_state cf (stream_of (A ++ nn)) d) in EA.
      destruct (parse_member (with_fuel cf nA) fn true _) as [o s]. rewrite <- EA in HnA. exact HnA. }
    change (init_state (with_fuel cf nA) (stream_of (A ++ nn)) d) with (init_state cf (stream_of (A ++ nn)) d) in EA.
    destruct (parse_member (with_fuel cf nA) fn true (init_state cf (stream_of (A ++ nn)) d)) as [oA sA] eqn:EpA.
    rewrite <- EA in *. cbn [pr_outcome pr_calls] in *.
    destruct oA as [[]|e|x| |] eqn:Eo.
    1: right. 2-5: left.
    - split; [reflexivity|]. exists (p_conv sA), (p_big5 sA). split.
      { intros Hop Hbig. pose proof (plain_parse (with_fuel cf nA) fn _ Hbig (stream_of (A ++ nn)) d true eq_refl) as PP.
        change (init_state (with_fuel cf nA) (stream_of (A ++ nn)) d) with (init_state cf (stream_of (A ++ nn)) d) in PP.
        rewrite EpA in PP. destruct PP as [_ PP]. cbn [pr_trace] in Hop. rewrite opens_app in Hop.
        apply orb_false_elim in Hop as [Hop _].
        destruct PP as [PP|PP]; [|exact PP]. exact (False_ind _ (eq_true_false_abs _ PP Hop)). }
      intros B rW (HnW & NW & PW).
      pose (n := max nA NW). pose proof (PW n ltac:(lia)) as EW.
      pose proof (blank_split n A B d ltac:(lia) HA) as BS. cbv zeta in BS. rewrite (FA n ltac:(lia)) in BS.
      specialize (BS ltac:(discriminate)).
      destruct BS as [(o & H1 & H2 & _)|(_ & t2 & g' & Hg & E2 & Hc & Hv & Hb & Hd & Hi & Hcur & Heof)].
      { simpl in H2. congruence. }
      unfold po_parse in EW. change (init_state (with_fuel cf n) (stream_of (A ++ nn ++ B)) d)
        with (init_state cf (stream_of (A ++ nn ++ B)) d) in EW.
      rewrite E2 in EW.
      assert (HR : Rloc I [] (p_calls t2) [] (- p_line t2) t2 (block_start cf (p_conv sA) (p_big5 sA) B d)).
      { unfold Rloc. simpl. repeat split; auto; try lia.
        - apply cv_eqv_sym. exact Hv.
        - exists []. rewrite app_nil_r. auto. }
      assert (Hnf : fst (parse_loop (with_fuel cf n) fn true g' t2) <> OutOfFuel).
      { destruct (parse_loop (with_fuel cf n) fn true g' t2) as [o s]. rewrite <- EW in HnW. exact HnW. }
      destruct (loop_transfer n g' t2 _ _ n Hg (le_n n) HR Hnf) as (k & K1 & K2 & K3).
      exists k. split.
      + split; [exact HnW|]. exists n. intros m Hm. cbv zeta.
        destruct (loop_transfer n g' t2 _ _ m Hg Hm HR Hnf) as (k' & K1' & K2' & K3').
        assert (k' = k) by (eapply app_inv_head; rewrite <- K2, <- K2'; reflexivity). subst k'.
        rewrite K1', K3'. split; [|reflexivity].
        destruct (parse_loop (with_fuel cf n) fn true g' t2) as [o s]. rewrite <- EW. reflexivity.
      + transitivity (p_calls (snd (parse_loop (with_fuel cf n) fn true g' t2))).
        * destruct (parse_loop (with_fuel cf n) fn true g' t2) as [o s]. rewrite <- EW. reflexivity.
        * etransitivity; [exact K2|]. apply (f_equal (fun l => l ++ k)). exact Hc.
    - split; [discriminate|]. intro B.
      pose proof (blank_split nA A B d ltac:(lia) HA) as BS. cbv zeta in BS. rewrite EpA in BS.
      specialize (BS ltac:(discriminate)). destruct BS as [(o & H1 & H2 & H3 & H4)|[H _]]; [|discriminate].
      eexists. split; [apply (parses_to_intro cf fn _ _ nA)|]; unfold po_parse;
        change (init_state (with_fuel cf nA) (stream_of (A ++ nn ++ B)) d)
        with (init_state cf (stream_of (A ++ nn ++ B)) d);
        destruct (parse_member (with_fuel cf nA) fn true (init_state cf (stream_of (A ++ nn ++ B)) d)) as [o2 s2];
        simpl in *; subst; [discriminate|split; congruence].
    - split; [discriminate|]. intro B.
      pose proof (blank_split nA A B d ltac:(lia) HA) as BS. cbv zeta in BS. rewrite EpA in BS.
      specialize (BS ltac:(discriminate)). destruct BS as [(o & H1 & H2 & H3 & H4)|[H _]]; [|discriminate].
      eexists. split; [apply (parses_to_intro cf fn _ _ nA)|]; unfold po_parse;
        change (init_state (with_fuel cf nA) (stream_of (A ++ nn ++ B)) d)
        with (init_state cf (stream_of (A ++ nn ++ B)) d);
        destruct (parse_member (with_fuel cf nA) fn true (init_state cf (stream_of (A ++ nn ++ B)) d)) as [o2 s2];
        simpl in *; subst; [discriminate|split; congruence].
    - split; [discriminate|]. intro B.
      pose proof (blank_split nA A B d ltac:(lia) HA) as BS. cbv zeta in BS. rewrite EpA in BS.
      specialize (BS ltac:(discriminate)). destruct BS as [(o & H1 & H2 & H3 & H4)|[H _]]; [|discriminate].
      eexists. split; [apply (parses_to_intro cf fn _ _ nA)|]; unfold po_parse;
        change (init_state (with_fuel cf nA) (stream_of (A ++ nn ++ B)) d)
        with (init_state cf (stream_of (A ++ nn ++ B)) d);
        destruct (parse_member (with_fuel cf nA) fn true (init_state cf (stream_of (A ++ nn ++ B)) d)) as [o2 s2];
        simpl in *; subst; [discriminate|split; congruence].
    - exfalso. apply HnA. reflexivity.
  Qed.

  (** with the initial charset state, resuming at a block start is parsing a blank
      line followed by the rest *)
  Lemma resume_plain conv B d d' o calls :
    cv_cd conv = CdNull -> d_charset d = d_charset d' -> resumes_to cf fn conv false B d o calls ->
    exists r, parses_to cf fn (stream_of (c_lf :: B)) d' r /\ pr_outcome r = o /\ pr_calls r = calls.
  Proof.
    intros Hc Hd (Hn & N & HN). destruct (HN N (le_n N)) as [H1 H2].
    set (u := strip_bom (nextst (init_state cf (stream_of (c_lf :: B)) d'))).
    assert (HR : Rloc I [] (p_calls (block_start cf conv false B d)) (p_calls u) 1 (block_start cf conv false B d) u).
    { unfold u. unfold Rloc, strip_bom, nextst. cbn. repeat split; auto; cbn.
      - unfold cv_eqv. rewrite Hc. exact Logic.I.
      - exists []. auto. }
    assert (Hf : fst (parse_loop (with_fuel cf N) fn true N (block_start cf conv false B d)) <> OutOfFuel) by (rewrite H1; exact Hn).
    destruct (loop_transfer N N _ u _ N (le_n N) (le_n N) HR Hf) as (k & K1 & K2 & K3).
    assert (E : po_parse (with_fuel cf N) fn (stream_of (c_lf :: B)) d' =
                let (o, s) := parse_loop (with_fuel cf N) fn true N u in
                {| pr_outcome := o; pr_dict := p_dict s;
                   pr_trace := p_tr s ++ (if finished o then iconv_destroy (p_conv s) else []);
                   pr_calls := p_calls s; pr_lines := p_line s |}) by reflexivity.
    exists (po_parse (with_fuel cf N) fn (stream_of (c_lf :: B)) d').
    assert (Ho : pr_outcome (po_parse (with_fuel cf N) fn (stream_of (c_lf :: B)) d') = o).
    { rewrite E. destruct (parse_loop (with_fuel cf N) fn true N u) as [o' s']. simpl in *. congruence. }
    split; [apply parses_to_intro; rewrite Ho; exact Hn|]. split; [exact Ho|].
    rewrite E. destruct (parse_loop (with_fuel cf N) fn true N u) as [o' s']. simpl in *. congruence.
  Qed.

  Lemma parses_blank_plain A d rA B rW :
    complete A -> parses_to cf fn (stream_of (A ++ nn)) d rA -> pr_outcome rA = Ret tt ->
    opens (pr_trace rA) = false -> List.map toupper (d_charset d) <> bs "BIG5" ->
    parses_to cf fn (stream_of (A ++ nn ++ B)) d rW ->
    exists rB, parses_to cf fn (stream_of (c_lf :: B)) (pr_dict rA) rB /\
      pr_outcome rW = pr_outcome rB /\ pr_calls rW = pr_calls rA ++ pr_calls rB /\ pr_dict rW = pr_dict rB.
  Proof.
    intros HA PA Ho Hop Hbig PW.
    destruct (parses_blank A d rA HA PA) as [[H _]|(_ & conv & b5 & Hplain & HB)]; [contradiction|].
    destruct (Hplain Hop Hbig) as [Hc ->]. destruct (HB B rW PW) as (calls & HR & HC).
    assert (Hd : d_charset d = d_charset (pr_dict rA)).
    { apply parses_to_elim in PA as (n & <- & _). rewrite (proj1 (parse_effects _ _ _ _)).
      clear. generalize (pr_calls (po_parse (with_fuel cf n) fn (stream_of (A ++ nn)) d)) as l. intro l. revert d.
      induction l as [|c l IH]; intro d; [reflexivity|]. simpl. rewrite <- IH, apply_call_charset. reflexivity. }
    destruct (resume_plain conv B d (pr_dict rA) _ _ Hc Hd HR) as (rB & PB & Ho' & Hc').
    exists rB. rewrite Hc'. split; [exact PB|]. split; [auto|]. split; [exact HC|].
    rewrite (proj1 (parses_to_effects _ _ _ _ _ PW)), (proj1 (parses_to_effects _ _ _ _ _ PB)).
    rewrite HC, Hc', fold_left_app. now rewrite <- (proj1 (parses_to_effects _ _ _ _ _ PA)).
  Qed.
End Assemble.
