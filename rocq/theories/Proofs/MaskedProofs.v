From Verif.Model Require Import Base Log PluralForms Dictionary IConv Stream PoParser Masked.
From Verif.Spec Require Import IConvSpec ParserSpec MaskedSpec.
From Verif.Proofs Require Import BaseFacts IConvProofs ParserSafe ParserFuel MaskedLock MaskedFuel WidthsLower.
Local Open Scope list_scope.

Lemma masked_fun mk cf fn i d r1 r2 : masked_parses_to mk cf fn i d r1 -> masked_parses_to mk cf fn i d r2 -> r1 = r2.
Proof. intros (_ & N1 & H1) (_ & N2 & H2). rewrite <- (H1 (max N1 N2)), <- (H2 (max N1 N2)) by lia. reflexivity. Qed.
Lemma masked_intro mk cf fn i d n :
  pr_outcome (x_po_parse mk (with_fuel cf n) fn i d) <> OutOfFuel -> masked_parses_to mk cf fn i d (x_po_parse mk (with_fuel cf n) fn i d).
Proof. intro F. split; [exact F|]. exists n. intros m L. now apply x_po_parse_fuel. Qed.

Section Instances.
  Variable mk : mask.
  Variable cf : config.
  Variable fn : bytes.
  Local Notation I := (cf_iconv cf).
  Local Notation P := (M (pst I)).
  Local Notation keep := (keep cf).

  (** ** the same, or an exception after the first part *)
  Definition part A (w m : P A) : Prop := forall s,
    more cf s (snd (m s)) /\
    (w s = m s \/ (fst (w s) = Exn (ExRuntime io_failure) /\ more cf (snd (w s)) (snd (m s)))).
  Lemma part_keep A (m : P A) : keep m -> part A m m.
  Proof. intros K s. split; [apply K|auto]. Qed.
  Lemma part_bind A B (w m : P A) (v g : A -> P B) : part A w m -> (forall a, part B (v a) (g a)) -> part B (mbind w v) (mbind m g).
  Proof.
    intros H1 H2 s. destruct (H1 s) as (E & H). unfold mbind.
    assert (E' : more cf (snd (m s)) (snd (match m s with (Ret a, s') => g a s' | (Exn e, s') => (Exn e, s') | (Ub u, s') => (Ub u, s') | (AssertFail, s') => (AssertFail, s') | (OutOfFuel, s') => (OutOfFuel, s') end))).
    { destruct (m s) as [[a|?|?| |] s']; cbn [snd]; try apply more_refl. apply H2. }
    split; [eapply more_trans; [exact E|exact E']|]. destruct H as [H|(H & L)].
    - rewrite H. destruct (m s) as [[a|?|?| |] s']; auto. apply H2.
    - right. destruct (w s) as [o s']. cbn [fst snd] in *. subst o. split; [reflexivity|]. eapply more_trans; [exact L|exact E'].
  Qed.
  Lemma part_next : part unit (x_next_line mk cf) (next_line cf).
  Proof.
    intro s. unfold next_line, mmod, x_next_line. destruct (getline (p_in s) (p_cur s)) as [[i cur] ok]. cbn [snd].
    split; [exact (more_refl cf s)|]. destruct (thrown _ _ _ _); [right|left; reflexivity]. split; [reflexivity|]. exact (more_refl cf s).
  Qed.
  Lemma part_try w m : part unit w m -> part unit (catching cf w) (catching cf m).
  Proof.
    intros H s. destruct (H s) as (E & D). unfold catching.
    assert (X : snd (match m s with (Exn ExPo, s') => (Ret tt, s') | r => r end) = snd (m s)) by now destruct (m s) as [[?|[]|?| |] s'].
    rewrite X. split; [exact E|]. destruct D as [D|(D & L)]; [left; now rewrite D|right]. destruct (w s) as [o s']. cbn [fst snd] in *. now subst o.
  Qed.
  Lemma part_bom : part unit (strip_bom cf) (strip_bom cf).
  Proof. intro s. unfold strip_bom, mmod. destruct (starts_with _ _); cbn [snd]; (split; [exact (more_refl cf s)|left; reflexivity]). Qed.
  Lemma part_parse : part unit (x_parse_member mk cf fn true) (parse_member cf fn true).
  Proof. apply (lk_parse mk cf fn part part_keep part_bind part_next part_bom part_try). Qed.

  (** ** no difference *)
  Definition equal A (w m : P A) : Prop := forall s, is_break (p_in s) = false -> is_break (p_in (snd (m s))) = false /\ w s = m s.
  Lemma equal_keep A (m : P A) : keep m -> equal A m m.
  Proof. intros K s B. destruct (K s) as (E & _). rewrite E. auto. Qed.
  Lemma equal_bind A B (w m : P A) (v g : A -> P B) : equal A w m -> (forall a, equal B (v a) (g a)) -> equal B (mbind w v) (mbind m g).
  Proof.
    intros H1 H2 s Br. destruct (H1 s Br) as (E & H). unfold mbind. rewrite H.
    destruct (m s) as [[a|?|?| |] s']; cbn [snd] in *; auto. apply (H2 a s' E).
  Qed.
  Lemma break_next (s : pst I) : is_break (fst (fst (getline (p_in s) (p_cur s)))) = is_break (p_in s).
  Proof.
    unfold getline. destruct (is_good (p_in s)); [|reflexivity]. destruct (is_rest (p_in s)) as [|c b].
    - destruct (is_break (p_in s)) eqn:E; cbn; congruence.
    - destruct (take_line (c :: b)) as [l [r|]]; [reflexivity|]. destruct (is_break (p_in s)) eqn:E; cbn; congruence.
  Qed.
  Lemma equal_next : mk_eof mk = false -> mk_fail mk = false -> equal unit (x_next_line mk cf) (next_line cf).
  Proof.
    intros M1 M2 s B. pose proof (break_next s) as E. unfold next_line, mmod, x_next_line.
    destruct (getline (p_in s) (p_cur s)) as [[i cur] ok]. cbn [fst snd] in *. split; [exact (eq_trans E B)|].
    unfold thrown. rewrite M1, M2, B. cbn [andb orb]. rewrite ?andb_false_r. cbn [andb orb]. now rewrite ?andb_false_r.
  Qed.
  Lemma equal_try w m : equal unit w m -> equal unit (catching cf w) (catching cf m).
  Proof.
    intros H s B. destruct (H s B) as (E & D). unfold catching. rewrite D. split; [|reflexivity].
    destruct (m s) as [[?|[]|?| |] s']; exact E.
  Qed.
  Lemma equal_bom : equal unit (strip_bom cf) (strip_bom cf).
  Proof. intros s B. unfold strip_bom, mmod. destruct (starts_with _ _); cbn [snd]; auto. Qed.
  Lemma equal_parse : mk_eof mk = false -> mk_fail mk = false -> equal unit (x_parse_member mk cf fn true) (parse_member cf fn true).
  Proof. intros M1 M2. apply (lk_parse mk cf fn equal equal_keep equal_bind (equal_next M1 M2) equal_bom equal_try). Qed.

  (** ** the end of the input is always met with an exception *)
  Definition armed (s : pst I) : Prop :=
    p_eof s = false /\
    ((mk_bad mk = true /\ is_break (p_in s) = true /\ is_good (p_in s) = true)
     \/ (mk_eof mk = true /\ is_break (p_in s) = false /\ is_good (p_in s) = true)
     \/ (mk_fail mk = true /\ is_break (p_in s) = false)).
  Definition left (s : pst I) : Z := (p_line s + Z.of_nat (length (is_rest (p_in s))))%Z.
  Definition stops A (w m : P A) : Prop := forall s, armed s ->
    (left (snd (w s)) <= left s + 1)%Z /\
    (fst (w s) <> Exn (ExRuntime io_failure) -> armed (snd (w s)) /\ (left (snd (w s)) <= left s)%Z).
  Lemma stops_keep A (m : P A) : keep m -> stops A m m.
  Proof.
    intros K s Ar. destruct (K s) as (E1 & E2 & E3 & _). unfold armed, left in *. rewrite E1, E2, E3. split; [lia|]. intros _. split; [exact Ar|lia].
  Qed.
  Lemma stops_bind A B (w m : P A) (v g : A -> P B) : stops A w m -> (forall a, stops B (v a) (g a)) -> stops B (mbind w v) (mbind m g).
  Proof.
    intros H1 H2 s Ar. destruct (H1 s Ar) as (L & H). unfold mbind. destruct (w s) as [[a|e|?| |] s']; cbn [fst snd] in *;
      try (split; [exact L|]; intro N; apply H; congruence).
    destruct H as (Ar' & L'); [discriminate|]. destruct (H2 a s' Ar') as (L2 & H3). split; [lia|]. intro N. destruct (H3 N). split; [assumption|lia].
  Qed.
  Lemma take_line_length b l r : take_line b = (l, Some r) -> length r < length b.
  Proof.
    revert l r. induction b as [|c b IH]; intros l r E; cbn [take_line] in E; [discriminate|].
    destruct (byte_eqb c c_lf); [injection E as <- <-; cbn; lia|]. destruct (take_line b) as [l' r']. injection E as <- ->.
    specialize (IH l' r eq_refl). cbn [length]. lia.
  Qed.
  Lemma stops_next : stops unit (x_next_line mk cf) (next_line cf).
  Proof.
    intros s (E & D). unfold x_next_line, getline, thrown, armed, left.
    destruct (is_good (p_in s)) eqn:G.
    - destruct (is_rest (p_in s)) as [|c b] eqn:R.
      + destruct (is_break (p_in s)) eqn:B; cbn [is_eof is_fail is_rest is_nil is_good negb orb andb st_line p_in p_line fst snd];
          destruct D as [(M & D & _)|[(M & D & _)|(M & D)]]; try discriminate D; rewrite M;
          repeat first [rewrite orb_true_r|rewrite andb_true_r|progress cbn [orb andb negb fst snd]];
          (split; [cbn; lia|]); intro N; now destruct N.
      + destruct (take_line (c :: b)) as [l [r|]] eqn:T.
        * apply take_line_length in T. cbn [is_eof is_nil negb andb orb]. rewrite ?andb_false_r. cbn [negb orb andb]. rewrite ?andb_false_r. cbn [orb].
          cbn [st_line p_in p_line p_eof is_rest is_break is_good is_eof is_fail negb andb fst snd]. split; [lia|]. intros _.
          split; [|lia]. split; [exact E|]. destruct D as [(M & D & _)|[(M & D & _)|(M & D)]]; auto.
        * clear T. destruct (is_break (p_in s)) eqn:B; cbn [is_eof is_nil negb andb orb]; rewrite ?andb_false_r, ?andb_true_r; cbn [orb];
            destruct D as [(M & D & _)|[(M & D & _)|(M & D)]]; try discriminate D; rewrite M; cbn [orb fst snd].
          -- rewrite orb_true_r || idtac. cbn [fst snd st_line p_in p_line is_rest]. split; [cbn [length]; lia|]. intro N. now destruct N.
          -- cbn [fst snd st_line p_in p_line is_rest]. split; [cbn [length]; lia|]. intro N. now destruct N.
          -- destruct (mk_eof mk); cbn [orb fst snd st_line p_in p_line p_eof is_rest is_break]; (split; [cbn [length]; lia|]); intro N;
               [now destruct N|]. split; [|cbn [length]; lia]. split; [exact E|]. right. right. auto.
    - destruct D as [(_ & _ & D)|[(_ & _ & D)|(M & D)]]; try discriminate D. rewrite M. cbn [negb orb andb]. rewrite !orb_true_r. cbn [orb fst snd st_line p_in p_line is_rest].
      split; [lia|]. intro N. now destruct N.
  Qed.
  Lemma stops_try w m : stops unit w m -> stops unit (catching cf w) (catching cf m).
  Proof.
    intros H s Ar. destruct (H s Ar) as (L & D). unfold catching. destruct (w s) as [[?|[]|?| |] s']; cbn [fst snd] in *; split; auto; intro N; apply D; congruence.
  Qed.
  Lemma stops_bom : stops unit (strip_bom cf) (strip_bom cf).
  Proof. intros s Ar. unfold strip_bom, mmod. destruct (starts_with _ _); cbn [snd]; (split; [unfold left in *; cbn; lia|]); intros _; (split; [exact Ar|unfold left in *; cbn; lia]). Qed.
  Lemma stops_parse : stops unit (x_parse_member mk cf fn true) (parse_member cf fn true).
  Proof. apply (lk_parse mk cf fn stops stops_keep stops_bind stops_next stops_bom stops_try). Qed.

  (** ** the descriptor can still be closed when the exception passes *)
  Definition quiet {A} (o : outcome A) (s : pst I) : Prop :=
    match o with Ret _ | Exn ExPo => opened cf s | Exn (ExRuntime x) => x = io_failure -> opened cf s | _ => True end.
  Definition shut A (w m : P A) : Prop := forall s, opened cf s -> quiet (fst (w s)) (snd (w s)).
  Lemma calm_quiet A (o : outcome A) s : calm cf o s -> quiet o s.
  Proof. destruct o as [?|[]|?| |]; cbn; auto. intros N ->. now destruct N. Qed.
  Lemma shut_keep A (m : P A) : keep m -> shut A m m.
  Proof. intros K s O. destruct (K s) as (_ & _ & _ & _ & _ & C). exact (calm_quiet _ _ _ (C O)). Qed.
  Lemma shut_bind A B (w m : P A) (v g : A -> P B) : shut A w m -> (forall a, shut B (v a) (g a)) -> shut B (mbind w v) (mbind m g).
  Proof.
    intros H1 H2 s O. specialize (H1 s O). unfold mbind. destruct (w s) as [[a|e|?| |] s']; cbn [fst snd] in *; try exact Logic.I; [|exact H1].
    exact (H2 a s' H1).
  Qed.
  Lemma shut_next : shut unit (x_next_line mk cf) (next_line cf).
  Proof.
    intros s O. unfold x_next_line. destruct (getline _ _) as [[i cur] ok]. destruct (thrown _ _ _ _); cbn [fst snd quiet]; [intros _|]; exact O.
  Qed.
  Lemma shut_try w m : shut unit w m -> shut unit (catching cf w) (catching cf m).
  Proof. intros H s O. specialize (H s O). unfold catching. destruct (w s) as [[?|[]|?| |] s']; exact H. Qed.
  Lemma shut_bom : shut unit (strip_bom cf) (strip_bom cf).
  Proof. intros s O. unfold strip_bom, mmod. destruct (starts_with _ _); exact O. Qed.
  Lemma shut_parse : shut unit (x_parse_member mk cf fn true) (parse_member cf fn true).
  Proof. apply (lk_parse mk cf fn shut shut_keep shut_bind shut_next shut_bom shut_try). Qed.

  Lemma x_loop_eof g : forall s a, fst (x_parse_loop mk cf fn true g s) = Ret a -> p_eof (snd (x_parse_loop mk cf fn true g s)) = true.
  Proof.
    induction g as [|g IH]; intros s a; cbn [x_parse_loop]; [discriminate|]. unfold mbind at 1 3, mget. cbv beta.
    destruct (p_eof s) eqn:E; [intros _; exact E|]. unfold mbind. destruct (x_try_block mk cf fn true s) as [[?|?|?| |] s']; try discriminate. apply IH.
  Qed.
End Instances.

Section Parse.
  Variable mk : mask.
  Variable cf : config.
  Variable fn : bytes.
  Lemma logged_app a b : logged (a ++ b) = logged a ++ logged b.
  Proof. induction a as [|e a IH]; [reflexivity|]. cbn [app logged]. destruct e; cbn [app]; congruence. Qed.
  Lemma logged_close (c : iconv (cf_iconv cf)) : logged (iconv_destroy c) = [].
  Proof. unfold iconv_destroy. unfold close_events. now destruct (cv_cd c). Qed.

  Lemma po_cut i d : let r := po_parse cf fn i d in let r' := x_po_parse mk cf fn i d in
    r' = r \/ (io_thrown r' /\ cut_short r' r).
  Proof.
    cbv zeta. unfold po_parse, x_po_parse. destruct (part_parse mk cf fn (init_state cf i d)) as (_ & [H|(H & M)]).
    - left. now rewrite H.
    - right. destruct (x_parse_member mk cf fn true (init_state cf i d)) as [o' s'], (parse_member cf fn true (init_state cf i d)) as [o s].
      cbn [fst snd] in *. subst o'. split; [reflexivity|]. destruct M as (x & y & E1 & E2 & E3).
      exists x, (logged y). cbn [pr_calls pr_dict pr_trace]. split; [exact E1|]. split; [exact E3|].
      rewrite E2, !logged_app. change (finished (Exn (ExRuntime io_failure))) with true. cbv iota. destruct (finished o); rewrite ?logged_close; cbn [logged]; now rewrite ?app_nil_r.
  Qed.
  Lemma po_shut i d : io_thrown (x_po_parse mk cf fn i d) -> exists n, disciplined None 0 (pr_trace (x_po_parse mk cf fn i d)) = Some (None, n).
  Proof.
    unfold io_thrown, x_po_parse. assert (O : opened cf (init_state cf i d)) by (split; [discriminate|reflexivity]).
    pose proof (shut_parse mk cf fn _ O) as H. destruct (x_parse_member mk cf fn true (init_state cf i d)) as [o s]. cbn [fst snd pr_outcome pr_trace] in *.
    intros ->. cbn [quiet] in H. destruct (H eq_refl) as (H1 & H2). change (finished (Exn (ExRuntime io_failure))) with true. cbv iota.
    exists (cv_next (p_conv s)). rewrite disciplined_app, H2. unfold iconv_destroy. now rewrite close_disciplined.
  Qed.
  Lemma po_equal i d : mk_eof mk = false -> mk_fail mk = false -> is_break i = false -> x_po_parse mk cf fn i d = po_parse cf fn i d.
  Proof.
    intros M1 M2 B. unfold po_parse, x_po_parse. destruct (equal_parse mk cf fn M1 M2 (init_state cf i d) B) as (_ & E). now rewrite E.
  Qed.
  Lemma po_stops i d : armed mk cf (init_state cf i d) ->
    (forall a, pr_outcome (x_po_parse mk cf fn i d) <> Ret a) /\
    (length (is_rest i) <= cf_fuel cf -> pr_outcome (x_po_parse mk cf fn i d) <> OutOfFuel).
  Proof.
    intro Ar. destruct (stops_parse mk cf fn (init_state cf i d) Ar) as (_ & S).
    destruct (part_parse mk cf fn (init_state cf i d)) as (_ & Pt).
    pose proof (lines_climb cf fn i d) as C. unfold x_po_parse.
    assert (E : forall a, fst (x_parse_member mk cf fn true (init_state cf i d)) = Ret a -> p_eof (snd (x_parse_member mk cf fn true (init_state cf i d))) = true).
    { intro a. unfold x_parse_member. unfold mbind at 1 3. destruct (x_next_line mk cf _) as [[?|?|?| |] s1]; try discriminate.
      unfold mbind, mmod. apply x_loop_eof. }
    destruct (x_parse_member mk cf fn true (init_state cf i d)) as [o s]. cbn [pr_outcome fst snd] in *. split.
    - intros a ->. destruct S as ((S & _) & _); [discriminate|]. rewrite (E a eq_refl) in S. discriminate S.
    - intros L ->. destruct S as (_ & S); [discriminate|]. destruct Pt as [Pt|(Pt & _)]; [|discriminate Pt]. rewrite <- Pt in C. cbn [fst snd] in C.
      specialize (C eq_refl). unfold left, init_state in S. cbn [p_in p_line] in S. lia.
  Qed.
End Parse.
