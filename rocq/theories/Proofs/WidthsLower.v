(** How far the line counter has got: at least the number of newlines when the parse ends,
    and at least the number of iterations when it does not. *)
From Verif.Model Require Import Base Log PluralForms Dictionary IConv Stream PoParser.
From Verif.Spec Require Import ParserSpec.
From Verif.Proofs Require Import BaseFacts LexProofs ParserUnary ParserRel ParserTerm.
Local Open Scope list_scope.

Section Lower.
  Variable cf : config.
  Variable fn : bytes.
  Local Notation I := (cf_iconv cf).
  Local Notation P := (M (pst I)).
  Local Open Scope Z_scope.

  (** *** a parse that ends has read every line *)
  Section Whole.
    Variable N : Z.
    Definition read (s : pst I) : Prop :=
      (p_eof s = false -> N <= p_line s + Z.of_nat (newlines (is_rest (p_in s)))) /\
      (p_eof s = true -> N + 1 <= p_line s) /\
      (is_good (p_in s) = false -> is_rest (p_in s) = []).
    Definition nothing (o : outcome unit) (s : pst I) : Prop := True.

    Lemma read_same (s s' : pst I) : p_in s' = p_in s -> p_eof s' = p_eof s -> p_line s' = p_line s -> read s -> read s'.
    Proof. unfold read. intros -> -> ->. auto. Qed.
    Lemma read_next s : read s -> read (nextst s).
    Proof.
      intros (H1 & H2 & H3). unfold nextst. destruct (is_good (p_in s)) eqn:G.
      - destruct (getline_cases _ (p_cur s) G) as [(R & _ & ->)|[(l & r & R & Hl & ->)|[(R & Hl & _ & ->)|(_ & Hl & ->)]]];
          unfold read; cbn [st_line p_in p_line p_eof is_rest is_good is_eof is_fail negb andb orb].
        + rewrite R in H1. cbn [newlines] in *. repeat split; intro; try discriminate; auto. destruct (p_eof s); [specialize (H2 eq_refl); lia|specialize (H1 eq_refl); lia].
        + rewrite R, newlines_app in H1. cbn [newlines] in H1. rewrite byte_eqb_refl in H1. rewrite (newlines_none _ Hl) in H1.
          repeat split; intro E; try discriminate; [specialize (H1 E); lia|specialize (H2 E); lia].
        + rewrite (newlines_none _ Hl) in H1. cbn [newlines]. repeat split; intro E; auto; [specialize (H1 E); lia|specialize (H2 E); lia].
        + rewrite (newlines_none _ Hl) in H1. cbn [newlines]. repeat split; intro E; try discriminate; auto.
          destruct (p_eof s); [specialize (H2 eq_refl); lia|specialize (H1 eq_refl); lia].
      - rewrite (getline_bad _ _ G). unfold read. cbn [st_line p_in p_line p_eof is_rest].
        rewrite (H3 eq_refl) in *. cbn [newlines] in H1. repeat split; intro E; try discriminate; auto.
        destruct (p_eof s); [specialize (H2 eq_refl); lia|specialize (H1 eq_refl); lia].
    Qed.
    Lemma read_parse s : read s -> post cf read nothing (parse_member cf fn true s).
    Proof.
      apply (tri_parse cf fn true read nothing); unfold nothing; auto.
      - apply read_next.
      - intros s0 t H. unfold do_convert. destruct (convert _ _ _) as [[o c] ev]. unfold post. cbn [fst].
        assert (R : read (st_conv (st_tr s0 (p_tr s0 ++ ev)) c)) by (apply (read_same s0); auto).
        destruct o as [|[]|?| |]; auto.
      - intros s0 c H. unfold do_set_charsets. destruct (set_charsets _ _ _ _) as [[o c'] ev]. unfold post. cbn [fst].
        assert (R : read (st_conv (st_tr s0 (p_tr s0 ++ ev)) c')) by (apply (read_same s0); auto).
        destruct o as [|[]|?| |]; auto.
    Qed.
  End Whole.

  Lemma loop_eof g : forall s a, fst (parse_loop cf fn true g s) = Ret a -> p_eof (snd (parse_loop cf fn true g s)) = true.
  Proof.
    induction g as [|g IH]; intros s a; cbn [parse_loop]; [discriminate|].
    unfold mbind at 1 3, mget. destruct (p_eof s) eqn:E; [intros _; exact E|].
    unfold mbind. destruct (try_block cf fn true s) as [[x|?|?| |] s']; try discriminate. apply IH.
  Qed.

  (** the line counter of a parse that ended: one more than the newlines of the file *)
  Lemma lines_lower i d a : is_good i = true -> fst (parse_member cf fn true (init_state cf i d)) = Ret a ->
    Z.of_nat (newlines (is_rest i)) + 1 <= p_line (snd (parse_member cf fn true (init_state cf i d))).
  Proof.
    intros Gi E. pose proof (read_parse (Z.of_nat (newlines (is_rest i))) (init_state cf i d)) as H.
    assert (R : read (Z.of_nat (newlines (is_rest i))) (init_state cf i d)).
    { unfold read, init_state. cbn [p_in p_line p_eof]. rewrite Gi. repeat split; intro; try discriminate. lia. }
    specialize (H R). assert (Ee : p_eof (snd (parse_member cf fn true (init_state cf i d))) = true).
    { revert E. unfold parse_member. unfold mbind at 1 3. rewrite next_line_eq. unfold mbind, mmod. apply loop_eof. }
    destruct (parse_member cf fn true (init_state cf i d)) as [o s]. cbn [fst snd] in *. subst o. destruct H as (_ & H & _). auto.
  Qed.

  (** *** a loop that does not end advances the line counter *)
  Definition climbs {A} (k g : Z) (m : P A) : Prop := forall s,
    p_line s <= p_line (snd (m s)) /\
    match fst (m s) with
    | Ret _ => p_line s + k <= p_line (snd (m s))
    | Exn ExPo => p_line s + 1 <= p_line (snd (m s))
    | OutOfFuel => p_line s + g <= p_line (snd (m s))
    | _ => True
    end.
  Lemma climbs_weak A k g k' g' (m : P A) : k' <= k -> g' <= g -> climbs k g m -> climbs k' g' m.
  Proof. intros H1 H2 H s. destruct (H s) as [L X]. split; [exact L|]. destruct (fst (m s)) as [|[]|?| |]; auto; lia. Qed.
  Lemma climbs_bind A B k1 k2 g (m : P A) (f : A -> P B) : 0 <= k2 ->
    climbs k1 g m -> (forall a, climbs k2 (g - k1) (f a)) -> climbs (k1 + k2) g (mbind m f).
  Proof.
    intros K2 Hm Hf s. specialize (Hm s). unfold mbind. destruct (m s) as [[a|e|u| |] s']; cbn [fst snd] in *; auto.
    destruct Hm as [L X]. destruct (Hf a s') as [L' X']. split; [lia|]. destruct (fst (f a s')) as [|[]|?| |]; auto; lia.
  Qed.
  (** leaves the counter alone and neither raises a parser error nor runs out of fuel *)
  Definition flat {A} (m : P A) : Prop := forall s, p_line (snd (m s)) = p_line s /\
    match fst (m s) with Exn ExPo | OutOfFuel => False | _ => True end.
  Lemma climbs_flat A g (m : P A) : flat m -> climbs 0 g m.
  Proof. intros H s. destruct (H s) as [E X]. split; [lia|]. destruct (fst (m s)) as [|[]|?| |]; auto; try lia; contradiction. Qed.
  Lemma climbs_seq A B k g (m : P A) (f : A -> P B) : 0 <= k -> flat m -> (forall a, climbs k g (f a)) -> climbs k g (mbind m f).
  Proof.
    intros K H1 H2. change k with (0 + k). apply climbs_bind; [exact K|apply climbs_flat, H1|]. intro a. now rewrite Z.sub_0_r.
  Qed.
  Lemma flat_bind A B (m : P A) (f : A -> P B) : flat m -> (forall a, flat (f a)) -> flat (mbind m f).
  Proof.
    intros Hm Hf s. specialize (Hm s). unfold mbind. destruct (m s) as [[a|e|u| |] s']; cbn [fst snd] in *; auto.
    destruct Hm as [L _]. destruct (Hf a s') as [L' X]. split; [congruence|exact X].
  Qed.
  Ltac fl := intro s; split; reflexivity || exact Logic.I.
  Lemma flat_ret A (a : A) : flat (mret a). Proof. fl. Qed.
  Lemma flat_get A (g : pst I -> A) : flat (mget g). Proof. fl. Qed.
  Lemma flat_ub A u : flat (@mfail (pst I) A (Ub u)). Proof. fl. Qed.
  Lemma flat_emit e : flat (emit cf e). Proof. fl. Qed.
  Lemma flat_call c : flat (dict_call_ cf c). Proof. fl. Qed.
  Lemma flat_opt A (r : option A) : flat (run_opt cf r). Proof. destruct r; fl. Qed.
  Lemma flat_empty : flat (is_empty_line cf). Proof. intro s. rewrite is_empty_line_eq. apply flat_opt. Qed.
  Lemma flat_msgstr_n : flat (is_msgstr_n cf). Proof. intro s. rewrite is_msgstr_n_eq. apply flat_opt. Qed.
  Lemma flat_quote i l : flat (find_quote cf i l). Proof. intro s. rewrite find_quote_eq. apply flat_opt. Qed.
  Lemma flat_warning m : flat (warning cf fn m). Proof. intro s. rewrite warning_eq. split; [reflexivity|exact Logic.I]. Qed.
  Lemma flat_convert t : flat (do_convert cf t).
  Proof.
    intro s. unfold do_convert. unfold convert. destruct (cv_cd (p_conv s)); [split; [reflexivity|exact Logic.I]..|].
    destruct (ic_conv _ _ _ _) as [[st' out] [[]|]]; try destruct (cf_ndebug cf); split; reflexivity || exact Logic.I.
  Qed.
  Lemma flat_set a b : flat (do_set_charsets cf a b).
  Proof.
    intro s. unfold do_set_charsets. destruct (set_charsets _ _ _ _) as [[o c] ev] eqn:E. cbn [fst snd]. split; [reflexivity|].
    unfold set_charsets in E. repeat (match type of E with context [if ?b then _ else _] => destruct b | context [match ?x with _ => _ end] => destruct x end);
      injection E as <- _ _; exact Logic.I.
  Qed.
  Lemma flat_add op : flat (dict_add cf op).
  Proof. unfold dict_add. repeat (apply flat_bind; intros; cbv zeta); first [apply flat_get|apply flat_emit|apply flat_call|idtac]. Qed.
  Lemma flat_line l cs : flat (header_line cf fn l cs).
  Proof.
    unfold header_line. destruct (starts_with content_type l).
    - destruct (starts_with content_type_full l).
      + destruct (_ && _); [apply flat_ub|apply flat_ret].
      + apply flat_bind; [apply flat_warning|intros; apply flat_ret].
    - destruct (starts_with plural_forms_key l); [|apply flat_ret]. apply flat_bind.
      + intro s. unfold mlift, from_string. destruct (_ && _); [split; [reflexivity|exact Logic.I]|]. destruct (assoc _ _); split; reflexivity || exact Logic.I.
      + intro pf. apply flat_bind; [|intros; apply flat_ret]. destruct (negb _); [apply flat_warning|].
        apply flat_bind; [apply flat_get|intros d]. apply flat_bind; [|intros; apply flat_call].
        destruct (pf_valid _); [|apply flat_ret]. destruct (negb _); [apply flat_warning|apply flat_ret].
  Qed.
  Lemma flat_lines h : forall acc cs, flat (header_loop cf fn h acc cs).
  Proof.
    induction h as [|c h IH]; intros; cbn [header_loop]; [apply flat_ret|].
    destruct (byte_eqb c c_lf); [|apply IH]. apply flat_bind; [apply flat_line|intros; apply IH].
  Qed.
  Lemma flat_header h : flat (parse_header cf fn h).
  Proof.
    unfold parse_header. apply flat_bind; [apply flat_lines|intro cs]. apply flat_bind.
    - destruct (_ || _); [apply flat_bind; [apply flat_warning|intros; apply flat_ret]|].
      destruct (bytes_eqb _ _); [|apply flat_ret]. apply flat_bind; [intro s; split; [reflexivity|exact Logic.I]|intros; apply flat_ret].
    - intro cs'. apply flat_bind; [apply flat_get|]. intro d. apply flat_set.
  Qed.

  Lemma climbs_next g : climbs 1 g (next_line cf).
  Proof. intro s. rewrite next_line_eq. cbn [fst snd]. unfold nextst. destruct (getline _ _) as [[? ?] ?]. cbn [st_line p_line]. lia. Qed.
  Lemma recover_up f : forall s, p_line s <= p_line (snd (recover cf f s)).
  Proof.
    induction f as [|f IH]; intro s; cbn [recover]; [reflexivity|].
    unfold mbind at 1. rewrite next_line_eq. unfold mbind at 1, mget.
    assert (L : p_line (nextst s) = p_line s + 1) by (unfold nextst; destruct (getline _ _) as [[? ?] ?]; reflexivity).
    destruct (p_eof (nextst s)); [cbn [mret snd]; lia|]. unfold mbind. rewrite is_empty_line_eq.
    destruct (pempty _ _) as [[]|]; cbn [run_opt mret mfail snd]; try lia. specialize (IH (nextst s)). lia.
  Qed.
  Lemma recover_one f s : p_line s + 1 <= p_line (snd (recover cf (S f) s)).
  Proof.
    cbn [recover]. unfold mbind at 1. rewrite next_line_eq. unfold mbind at 1, mget.
    assert (L : p_line (nextst s) = p_line s + 1) by (unfold nextst; destruct (getline _ _) as [[? ?] ?]; reflexivity).
    destruct (p_eof (nextst s)); [cbn [mret snd]; lia|]. unfold mbind. rewrite is_empty_line_eq.
    destruct (pempty _ _) as [[]|]; cbn [run_opt mret mfail snd]; try lia. pose proof (recover_up f (nextst s)). lia.
  Qed.
  Lemma error_tail A (k g : Z) n (y : pst I) : fst (recover cf (S n) y) <> OutOfFuel ->
    let r := mbind (recover cf (S n)) (fun _ => @mfail (pst I) A (Exn ExPo)) y in
    p_line y <= p_line (snd r) /\
    match fst r with
    | Ret _ => p_line y + k <= p_line (snd r)
    | Exn ExPo => p_line y + 1 <= p_line (snd r)
    | OutOfFuel => p_line y + g <= p_line (snd r)
    | _ => True
    end.
  Proof.
    intro F. pose proof (recover_one n y) as U1. pose proof (recover_no_exn cf (S n) y) as N. cbv zeta.
    unfold mbind. destruct (recover cf (S n) y) as [[a|e|u| |] s']; cbn [fst snd] in *; unfold mfail; cbn [fst snd].
    - lia.
    - exfalso. apply (N e eq_refl).
    - split; [lia|exact Logic.I].
    - split; [lia|exact Logic.I].
    - contradiction.
  Qed.
  Lemma climbs_error A k g m : climbs k g (@error cf fn A m).
  Proof.
    intro s0. unfold error. rewrite mget_bind. unfold emit.
    exact (error_tail A k g (S (length (is_rest (p_in s0)))) (st_tr s0 _) (recover_fuel cf _ _ (error_enough cf s0 _))).
  Qed.
  Lemma flat_warned ws s : p_line (warned_all cf fn ws s) = p_line s.
  Proof. revert s. induction ws as [|w ws IH]; intro s; cbn [warned_all]; [reflexivity|]. rewrite IH. reflexivity. Qed.
  Lemma climbs_lex A g (r : lexres A) : climbs 0 g (run_lex cf fn r).
  Proof.
    intro s. rewrite run_lex_eq. destruct r as [ws a|ws m|ws].
    - cbn [fst snd]. rewrite flat_warned. lia.
    - rewrite <- (flat_warned ws s). apply climbs_error.
    - cbn [fst snd]. rewrite flat_warned. split; [lia|exact Logic.I].
  Qed.
  Lemma climbs_line g o k : climbs 0 g (get_string_line cf fn o k).
  Proof. intro s. rewrite get_string_line_eq. apply climbs_lex. Qed.
  Lemma climbs_continuation g : forall out, climbs 1 (Z.of_nat g) (continuation cf fn g out).
  Proof.
    induction g as [|g IH]; intro out; cbn [continuation].
    { intro s. cbn. lia. }
    change 1 with (1 + 0). apply climbs_bind; [lia|apply climbs_next|intros _].
    replace (Z.of_nat (S g) - 1) with (Z.of_nat g) by lia.
    apply climbs_seq; [lia|apply flat_get|intro cur]. apply climbs_seq; [lia|apply flat_quote|intros [i|]].
    - apply climbs_seq; [lia| |intros _]. { destruct (_ && _); [apply flat_warning|apply flat_ret]. }
      change 0 with (0 + 0). apply climbs_bind; [lia|apply climbs_line|intro o]. eapply climbs_weak; [| |apply IH]; lia.
    - apply climbs_flat, flat_ret.
  Qed.
  Local Notation F := (Z.of_nat (cf_fuel cf)).
  Lemma climbs_get_string k : climbs 1 F (get_string cf fn k).
  Proof.
    intro s. rewrite get_string_eq. change 1 with (0 + 1). apply climbs_bind; [lia|apply climbs_lex|].
    intro o. eapply climbs_weak; [| |apply climbs_continuation]; lia.
  Qed.
  Lemma climbs_comments g : forall b, climbs 0 (Z.of_nat g) (comments cf g b).
  Proof.
    induction g as [|g IH]; intro b; cbn [comments].
    { intro s. cbn. lia. }
    apply climbs_seq; [lia|apply flat_get|intros []]; [|apply climbs_flat, flat_ret].
    apply climbs_seq; [lia|apply flat_get|intro cur]. cbv zeta.
    eapply climbs_weak; [| |apply (climbs_bind _ _ 1 0 (Z.of_nat (S g)))]; try lia; [apply climbs_next|intros _].
    eapply climbs_weak; [| |apply IH]; lia.
  Qed.
  Lemma climbs_loop g : (g <= cf_fuel cf)%nat -> forall v b, climbs 0 (Z.of_nat g) (msgstr_loop cf fn g v b).
  Proof.
    induction g as [|g IH]; intros G v b; cbn [msgstr_loop].
    { intro s. cbn. lia. }
    apply climbs_seq; [lia|apply flat_empty|intros []].
    - destruct (is_nil v); [apply climbs_error|apply climbs_flat, flat_ret].
    - apply climbs_seq; [lia|apply flat_msgstr_n|intros []]; [|apply climbs_error].
      apply climbs_seq; [lia|apply flat_get|intro cur]. cbv zeta.
      eapply climbs_weak; [| |apply (climbs_bind _ _ 1 0 (Z.of_nat (S g)))]; try lia.
      + eapply climbs_weak; [| |apply climbs_get_string]; lia.
      + intro a. apply climbs_seq; [lia|apply flat_convert|intro x]. eapply climbs_weak; [| |apply IH]; lia.
  Qed.
  Lemma climbs_plural z c i : climbs 0 F (plural_entry cf fn true z c i).
  Proof.
    unfold plural_entry. eapply climbs_weak; [| |apply (climbs_bind _ _ 1 0 F)]; try lia; [apply climbs_get_string|intro p].
    eapply climbs_weak with (k := 0) (g := F); try lia. change 0 with (0 + 0).
    apply climbs_bind; [lia|apply climbs_loop; lia|intro r]. rewrite Z.sub_0_r.
    apply climbs_seq; [lia|apply flat_empty|intro e]. destruct (negb e); [apply climbs_error|].
    destruct (_ && _); [|apply climbs_flat, flat_ret].
    apply climbs_seq; [lia|apply flat_get|intro d]. apply climbs_flat, flat_bind; [|intros; apply flat_add].
    destruct (negb _); [apply flat_warning|]. destruct (negb _); [apply flat_warning|apply flat_ret].
  Qed.
  Lemma climbs_singular z c i : climbs 0 F (singular_entry cf fn true z c i).
  Proof.
    unfold singular_entry. eapply climbs_weak; [| |apply (climbs_bind _ _ 1 0 F)]; try lia; [apply climbs_get_string|intro p].
    destruct (is_nil i); [apply climbs_flat, flat_header|]. destruct (_ && _); [|apply climbs_flat, flat_ret].
    apply climbs_seq; [lia|apply flat_convert|intro v]. apply climbs_flat, flat_add.
  Qed.
  Lemma climbs_entry z : climbs 0 F (entry cf fn true z).
  Proof.
    unfold entry. apply climbs_seq; [lia|apply flat_get|intro hc]. change 0 with (0 + 0).
    apply climbs_bind; [lia| |intro ctxt].
    { destruct hc; [|apply climbs_flat, flat_ret]. eapply climbs_weak; [| |apply (climbs_bind _ _ 1 0 F)]; try lia; [apply climbs_get_string|intros; apply climbs_flat, flat_ret]. }
    rewrite Z.sub_0_r. apply climbs_seq; [lia|apply flat_get|intro hi_]. change 0 with (0 + 0).
    apply climbs_bind; [lia| |intro msgid].
    { destruct hi_; [|apply climbs_error]. eapply climbs_weak; [| |apply climbs_get_string]; lia. }
    rewrite Z.sub_0_r. apply climbs_seq; [lia|apply flat_get|intros []]; [apply climbs_plural|].
    apply climbs_seq; [lia|apply flat_get|intros []]; [apply climbs_singular|apply climbs_error].
  Qed.
  Lemma climbs_block : climbs 1 F (block cf fn true).
  Proof.
    unfold block. change 1 with (0 + 1). apply climbs_bind; [lia|apply climbs_comments|intro z]. rewrite Z.sub_0_r.
    apply climbs_seq; [lia|apply flat_empty|intro e]. change 1 with (0 + 1). apply climbs_bind; [lia| |intros _].
    { destruct e; [apply climbs_flat, flat_ret|apply climbs_entry]. }
    rewrite Z.sub_0_r. apply climbs_seq; [lia|apply flat_empty|intro e']. change 1 with (0 + 1). apply climbs_bind; [lia| |intros _; apply climbs_next].
    destruct e'; [apply climbs_flat, flat_ret|apply climbs_error].
  Qed.
  Lemma climbs_try : climbs 1 F (try_block cf fn true).
  Proof.
    intro s. destruct (climbs_block s) as [L X]. unfold try_block. destruct (block cf fn true s) as [[a|[]|?| |] s']; cbn [fst snd] in *; auto.
  Qed.
  Lemma climbs_parse_loop g : (g <= cf_fuel cf)%nat -> climbs 0 (Z.of_nat g) (parse_loop cf fn true g).
  Proof.
    induction g as [|g IH]; intros G; cbn [parse_loop].
    { intro s. cbn. lia. }
    apply climbs_seq; [lia|apply flat_get|intros []]; [apply climbs_flat, flat_ret|].
    eapply climbs_weak; [| |apply (climbs_bind _ _ 1 0 (Z.of_nat (S g)))]; try lia.
    - eapply climbs_weak; [| |apply climbs_try]; lia.
    - intros _. eapply climbs_weak; [| |apply IH]; lia.
  Qed.
  Lemma lines_climb i d : fst (parse_member cf fn true (init_state cf i d)) = OutOfFuel ->
    F < p_line (snd (parse_member cf fn true (init_state cf i d))).
  Proof.
    unfold parse_member. unfold mbind at 1 3. rewrite next_line_eq. unfold mbind, mmod. intro E.
    match type of E with fst (parse_loop _ _ _ _ ?x) = _ => pose proof (climbs_parse_loop (cf_fuel cf) (le_n _) x) as [L X]; rewrite E in X;
      assert (Lx : p_line x = 1) end.
    { set (s := nextst _). assert (p_line s = 1) by (unfold s, nextst; destruct (getline _ _) as [[? ?] ?]; reflexivity).
      destruct (starts_with bom (p_cur s)); assumption. }
    lia.
  Qed.
End Lower.
