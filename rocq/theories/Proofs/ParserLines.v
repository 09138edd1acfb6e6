(** The line counter is bounded by the number of lines of the file. *)
From Verif.Model Require Import Base Log PluralForms Dictionary IConv Stream PoParser.
From Verif.Spec Require Import ParserSpec.
From Verif.Proofs Require Import BaseFacts LexProofs ParserUnary ParserRel ParserSafe ParserFuel ParserLocal ParserCut ParserBlank ParserTerm.
Local Open Scope list_scope.

Section Lines.
  Variable cf : config.
  Variable fn : bytes.
  Local Notation I := (cf_iconv cf).
  Local Notation P := (M (pst I)).

  Lemma stuck_msgstr_unfinished g : forall v b (s : pst I), is_good (p_in s) = false ->
    pmsgstr_n (cf_strict cf) (p_cur s) = Some true ->
    shape (pfirst (cf_strict cf) (cf_pedantic cf) (p_big5 s) 9 (p_cur s)) = 0 ->
    finished (fst (msgstr_loop cf fn g v b s)) = false.
  Proof.
    induction g as [|g IH]; intros v b s G0 Hm Hp; [reflexivity|]. cbn [msgstr_loop].
    unfold mbind at 1. rewrite is_empty_line_eq, (pmsgstr_not_empty _ _ Hm). cbn [run_opt]. unfold mret at 1; cbv beta iota.
    unfold mbind at 1. rewrite is_msgstr_n_eq, Hm. cbn [run_opt]. unfold mret at 1; cbv beta iota.
    rewrite mget_bind. cbv zeta.
    unfold mbind at 1. rewrite get_string_eq. unfold mbind at 1. rewrite run_lex_eq.
    destruct (pfirst _ _ _ _ _) as [ws a|ws m|ws] eqn:Ep; try discriminate Hp.
    pose proof (s_warned cf fn ws s) as (W1 & W2 & W3). pose proof (warned_fields cf fn ws s) as (W4 & W5 & _).
    set (s1 := warned_all cf fn ws s) in *.
    destruct (cf_fuel cf) as [|f]; [reflexivity|].
    assert (G1 : is_good (p_in s1) = false) by (rewrite W1; exact G0).
    destruct (next_bad cf s1 G1) as (G2 & E2 & _).
    rewrite continuation_stop by (rewrite E2, W2; apply pmsgstr_no_quote, Hm).
    cbv beta iota. nx s1.
    unfold mbind. unfold do_convert. rewrite Nv, W5.
    destruct (convert (cf_ndebug cf) (p_conv s) a) as [[o c] ev] eqn:Ec.
    assert (Ho : (exists x, o = Ret x) \/ finished o = false).
    { unfold convert in Ec. destruct (cv_cd (p_conv s)); [inversion Ec; eauto..|].
      destruct (ic_conv _ _ _ _) as [[st' out] [e|]]; [destruct e; try destruct (cf_ndebug cf)|]; inversion Ec; eauto. }
    destruct Ho as [[x ->]|Ho]; [|destruct o; simpl in *; auto; discriminate].
    apply IH; cbn [p_in p_cur p_big5 st_tr st_conv].
    - exact G2.
    - rewrite E2, W2. exact Hm.
    - rewrite E2, W2, Nb, W4, Ep. reflexivity.
  Qed.

  Definition pot (s : pst I) : Z :=
    (p_line s + if is_good (p_in s) then Z.of_nat (S (line_count (is_rest (p_in s)))) else 0)%Z.

  Lemma next_line_no (s : pst I) : p_line (nextst s) = (p_line s + 1)%Z.
  Proof. unfold nextst. destruct (getline _ _) as [[? ?] ?]. reflexivity. Qed.
  Lemma pot_next_good (s : pst I) : is_good (p_in s) = true -> (pot (nextst s) <= pot s)%Z.
  Proof.
    intro G0. unfold pot. rewrite next_line_no, G0. unfold nextst.
    destruct (getline_cases _ (p_cur s) G0) as [(R & _ & ->)|[(l & r & R & Hl & ->)|[(R & Hl & _ & ->)|(_ & Hl & ->)]]]; cbn -[line_count Z.add Z.of_nat].
    - lia.
    - rewrite R, line_count_lf by exact Hl. lia.
    - lia.
    - lia.
  Qed.
  Lemma pot_next_bad (s : pst I) : is_good (p_in s) = false -> (pot (nextst s) = pot s + 1)%Z /\ p_eof (nextst s) = true.
  Proof.
    intro G0. destruct (next_bad cf s G0) as (G1 & _ & E). split; auto. unfold pot. rewrite next_line_no, G0, G1. lia.
  Qed.

  Definition gpost {A} (k : Z) (s : pst I) (r : outcome A * pst I) : Prop :=
    finished (fst r) = true ->
    (pot (snd r) <= pot s + k)%Z /\ (p_eof (snd r) = true \/ pot (snd r) <= pot s)%Z /\
    (p_eof s = true -> p_eof (snd r) = true).
  Definition grow {A} (k : Z) (m : P A) : Prop := forall s, gpost k s (m s).

  Lemma gpost_from A k j (s s1 : pst I) (r : outcome A * pst I) :
    (pot s1 <= pot s + j)%Z -> (p_eof s1 = true \/ pot s1 <= pot s)%Z -> (p_eof s = true -> p_eof s1 = true) ->
    gpost k s1 r -> gpost (j + k) s r.
  Proof.
    intros H1 H2 H3 H Hf. destruct (H Hf) as (H4 & H5 & H6). split; [lia|]. split; [|auto].
    destruct H2 as [H2|H2]; [left; auto|]. destruct H5 as [H5|H5]; [left; auto|right; lia].
  Qed.
  Lemma gpost_le A k j (s : pst I) (r : outcome A * pst I) : (k <= j)%Z -> gpost k s r -> gpost j s r.
  Proof. intros Hk H Hf. destruct (H Hf) as (H1 & H2 & H3). split; [lia|auto]. Qed.
  Lemma grow_le A k j (m : P A) : (k <= j)%Z -> grow k m -> grow j m.
  Proof. intros Hk H s. eapply gpost_le; eauto. Qed.
  Lemma grow_bind A B k j (m : P A) (f : A -> P B) : (0 <= j)%Z -> grow k m -> (forall a, grow j (f a)) -> grow (k + j) (mbind m f).
  Proof.
    intros Hj Hm Hf s. specialize (Hm s). unfold mbind. destruct (m s) as [[a|e|u| |] s'] eqn:E; try discriminate.
    - destruct (Hm eq_refl) as (H1 & H2 & H3). eapply gpost_from; eauto. apply Hf.
    - intros _. destruct (Hm eq_refl) as (H1 & H2 & H3). cbn [fst snd] in *. split; [lia|auto].
  Qed.

  (** nothing read *)
  Definition same4 (s s' : pst I) := same_in cf s s' /\ p_line s' = p_line s.
  Lemma pot_same s s' : same4 s s' -> pot s' = pot s.
  Proof. intros ((H1 & H2 & H3) & H4). unfold pot. now rewrite H1, H4. Qed.
  Definition quiet {A} (m : P A) : Prop := forall s, same4 s (snd (m s)).
  Lemma grow_quiet A (m : P A) : quiet m -> grow 0 m.
  Proof.
    intros H s _. pose proof (H s) as Hs. rewrite (pot_same _ _ Hs). destruct Hs as ((_ & _ & E) & _).
    split; [lia|]. split; [right; lia|]. rewrite E. auto.
  Qed.
  Lemma quiet_of_tri A (m : P A) :
    (forall s0, tri cf (same4 s0) (fun _ s => same4 s0 s) m) -> quiet m.
  Proof.
    intros H s. specialize (H s s ltac:(repeat split)). unfold post in H. destruct (m s) as [[a|[]|u| |] s']; exact H.
  Qed.
  Lemma y_conv s0 (s : pst I) t : same4 s0 s -> post cf (same4 s0) (fun _ s => same4 s0 s) (do_convert cf t s).
  Proof. intro H. unfold do_convert. destruct (convert _ _ _) as [[o c] ev]. destruct o as [?|[]|?| |]; exact H. Qed.
  Lemma y_set s0 (s : pst I) c d : same4 s0 s -> post cf (same4 s0) (fun _ s => same4 s0 s) (do_set_charsets cf c d s).
  Proof. intro H. unfold do_set_charsets. destruct (set_charsets _ _ _ _) as [[o c'] ev]. destruct o as [?|[]|?| |]; exact H. Qed.
  Ltac qt L := apply quiet_of_tri; intro s0; eapply L; try exact true;
    try (intros; assumption); try (intros; first [apply y_conv|apply y_set]; assumption).
  Lemma q_warning w : quiet (warning cf fn w). Proof. qt tri_warning. Qed.
  Lemma q_empty : quiet (is_empty_line cf). Proof. qt tri_empty. Qed.
  Lemma q_msgstr_n : quiet (is_msgstr_n cf). Proof. qt tri_msgstr_n. Qed.
  Lemma q_add op : quiet (dict_add cf op). Proof. qt tri_add. Qed.
  Lemma q_header h : quiet (parse_header cf fn h). Proof. qt tri_parse_header. Qed.
  Lemma q_convert t : quiet (do_convert cf t). Proof. qt tri_convert. Qed.
  Lemma q_get A (g : pst I -> A) : quiet (mget g). Proof. intro s. repeat split. Qed.
  Lemma q_ret A (a : A) : quiet (mret a). Proof. intro s. repeat split. Qed.
  Lemma q_warned ws s : same4 s (warned_all cf fn ws s).
  Proof. split; [apply s_warned|apply (proj2 (proj2 (warned_fields cf fn ws s)))]. Qed.

  Lemma next_grow (s : pst I) : (pot (nextst s) <= pot s + 1)%Z /\ (p_eof (nextst s) = true \/ pot (nextst s) <= pot s)%Z /\
    (p_eof s = true -> p_eof (nextst s) = true).
  Proof.
    destruct (is_good (p_in s)) eqn:G0.
    - pose proof (pot_next_good s G0). split; [lia|]. split; [right; lia|apply next_eof].
    - destruct (pot_next_bad s G0) as [H E]. split; [lia|]. split; [left; exact E|auto].
  Qed.
  Lemma recover_grow f : grow 1 (recover cf f).
  Proof.
    induction f as [|f IH]; [discriminate|]. intro s. rewrite recover_S, mget_bind.
    pose proof (next_grow s) as (N1 & N2 & N3).
    destruct (p_eof (nextst s)) eqn:Ee; [intros _; cbn [mret fst snd]; rewrite Ee; auto|].
    destruct N2 as [N2|N2]; [congruence|].
    unfold mbind. rewrite is_empty_line_eq. destruct (pempty _ _) as [[]|]; cbn [run_opt]; [| |discriminate].
    - intros _. cbn [mret fst snd]. split; [lia|]. split; [right; lia|]. rewrite Ee. auto.
    - unfold mret at 1; cbv beta iota. apply (gpost_from _ 1 0 s (nextst s)); [lia|right; exact N2|rewrite Ee; auto|apply IH].
  Qed.
  Lemma error_grow A m : grow 1 (@error cf fn A m).
  Proof.
    intro s. unfold error. rewrite mget_bind. unfold mbind at 1, emit, mmod. unfold mbind. set (s1 := st_tr s _).
    pose proof (recover_grow (S (S (length (is_rest (p_in s))))) s1) as H. unfold gpost in *.
    change (pot s1) with (pot s) in H. change (p_eof s1) with (p_eof s) in H.
    destruct (recover cf _ s1) as [[a|e|u| |] s']; exact H.
  Qed.
  Lemma run_lex_grow A (r : lexres A) : grow 1 (run_lex cf fn r).
  Proof.
    intro s. rewrite run_lex_eq. destruct r as [ws a|ws m|ws]; [| |discriminate];
      pose proof (q_warned ws s) as W; pose proof (pot_same _ _ W) as Wp; destruct W as ((_ & _ & We) & _).
    - intros _. cbn [fst snd]. rewrite Wp, We. split; [lia|]. split; [right; lia|auto].
    - apply (gpost_from _ 1 0 s (warned_all cf fn ws s)); [lia|right; lia|rewrite We; auto|apply error_grow].
  Qed.
  Lemma error_exn A m s a : fst (@error cf fn A m s) <> Ret a.
  Proof. unfold error. rewrite mget_bind. unfold mbind, emit, mmod. destruct (recover cf _ _) as [[?|?|?| |] ?]; discriminate. Qed.

  (** continuation: from a good stream a normal return does not grow *)
  Lemma continuation_grow g : forall out, grow 2 (continuation cf fn g out).
  Proof.
    induction g as [|g IH]; intros out s; [discriminate|].
    destruct (is_good (p_in (nextst s))) eqn:G1.
    - (* the next line came from a good stream *)
      cbn [continuation]. unfold mbind at 1. rewrite next_line_eq, mget_bind. unfold mbind at 1. rewrite find_quote_eq.
      assert (G0 : is_good (p_in s) = true).
      { destruct (is_good (p_in s)) eqn:G0; auto. destruct (next_bad cf s G0) as (X & _). congruence. }
      pose proof (pot_next_good s G0) as Np. pose proof (next_eof cf s) as Ne.
      destruct (pquote (cf_strict cf) 0 (p_cur (nextst s))) as [[i|]|] eqn:Eq; cbn [run_opt]; [| |discriminate].
      2: { intros _. cbn [mret fst snd]. split; [lia|]. split; [right; lia|auto]. }
      unfold mret at 1; cbv beta iota.
      apply (gpost_from _ 2 0 s (nextst s)); [lia|right; lia|auto|].
      assert (X : exists s2, (if (i =? 1) && cf_pedantic cf then warning cf fn (bs "leading whitespace before string") else mret tt) (nextst s)
                 = (Ret tt, s2) /\ same4 (nextst s) s2).
      { destruct (_ && _); eexists; (split; [reflexivity|]); repeat split. }
      destruct X as (s2 & X & W). unfold mbind at 1. rewrite X. clear X.
      pose proof (pot_same _ _ W) as Wp. destruct W as ((Wi & _ & We) & _).
      apply (gpost_from _ 2 0 _ s2); [lia|right; lia|rewrite We; auto|].
      unfold mbind. rewrite get_string_line_eq, run_lex_eq.
      destruct (pline _ _ _ _ _) as [ws a|ws m|ws].
      + pose proof (q_warned ws s2) as W. pose proof (pot_same _ _ W) as Wp2. destruct W as ((_ & _ & We2) & _).
        apply (gpost_from _ 2 0 _ (warned_all cf fn ws s2)); [lia|right; lia|rewrite We2; auto|apply IH].
      + pose proof (error_grow bytes m (warned_all cf fn ws s2)) as Hg. pose proof (error_exn bytes m (warned_all cf fn ws s2)) as Hx.
        pose proof (q_warned ws s2) as W. pose proof (pot_same _ _ W) as Wp2. destruct W as ((_ & _ & We2) & _).
        apply (gpost_from _ 2 0 _ (warned_all cf fn ws s2)); [lia|right; lia|rewrite We2; auto|].
        apply (gpost_le _ 1); [lia|]. destruct (error cf fn m _) as [[a|e|u| |] s3]; try discriminate; [exfalso; eapply Hx; reflexivity|exact Hg].
      + discriminate.
    - (* the stream is exhausted: a quoted line would be read again and again *)
      pose proof (next_grow s) as (N1 & N2 & N3).
      cbn [continuation]. unfold mbind at 1. rewrite next_line_eq, mget_bind. unfold mbind at 1. rewrite find_quote_eq.
      destruct (pquote (cf_strict cf) 0 (p_cur (nextst s))) as [[i|]|] eqn:Eq; cbn [run_opt]; [| |discriminate].
      2: { intros _. cbn [mret fst snd]. split; [lia|]. auto. }
      unfold mret at 1; cbv beta iota.
      apply (gpost_from _ 1 1 s (nextst s)); auto.
      assert (X : exists s2, (if (i =? 1) && cf_pedantic cf then warning cf fn (bs "leading whitespace before string") else mret tt) (nextst s)
                 = (Ret tt, s2) /\ same4 (nextst s) s2 /\ p_big5 s2 = p_big5 (nextst s)).
      { destruct (_ && _); eexists; (split; [reflexivity|]); repeat split. }
      destruct X as (s2 & X & W & Wb). unfold mbind at 1. rewrite X. clear X.
      pose proof (pot_same _ _ W) as Wp. destruct W as ((Wi & Wc & We) & _).
      apply (gpost_from _ 1 0 _ s2); [lia|right; lia|rewrite We; auto|].
      unfold mbind. rewrite get_string_line_eq, run_lex_eq.
      destruct (pline _ _ _ _ _) as [ws a|ws m|ws] eqn:Ep.
      + pose proof (q_warned ws s2) as ((W1 & W2 & W3) & _). pose proof (warned_fields cf fn ws s2) as (W4 & _).
        intro Hf. rewrite (stuck_continuation cf fn g a i) in Hf; [discriminate| | |].
        * rewrite W1, Wi. exact G1.
        * rewrite W2, Wc. exact Eq.
        * rewrite W2, W4. rewrite (pline_shape _ _ _ _ [] out), Ep. reflexivity.
      + pose proof (error_grow bytes m (warned_all cf fn ws s2)) as Hg. pose proof (error_exn bytes m (warned_all cf fn ws s2)) as Hx.
        pose proof (q_warned ws s2) as W. pose proof (pot_same _ _ W) as Wp2. destruct W as ((_ & _ & We2) & _).
        apply (gpost_from _ 1 0 _ (warned_all cf fn ws s2)); [lia|right; lia|rewrite We2; auto|].
        destruct (error cf fn m _) as [[a|e|u| |] s3]; try discriminate; [exfalso; eapply Hx; reflexivity|exact Hg].
      + discriminate.
  Qed.
  Lemma continuation_ret g : forall out (s s' : pst I) a, is_good (p_in s) = true ->
    continuation cf fn g out s = (Ret a, s') -> (pot s' <= pot s)%Z.
  Proof.
    induction g as [|g IH]; intros out s s' a0 G0; [discriminate|].
    cbn [continuation]. unfold mbind at 1. rewrite next_line_eq, mget_bind. unfold mbind at 1. rewrite find_quote_eq.
    pose proof (pot_next_good s G0) as Np.
    destruct (pquote (cf_strict cf) 0 (p_cur (nextst s))) as [[i|]|] eqn:Eq; cbn [run_opt]; [| |discriminate].
    2: { unfold mret. intro X; inversion X; subst. exact Np. }
    unfold mret at 1; cbv beta iota.
    assert (X : exists s2, (if (i =? 1) && cf_pedantic cf then warning cf fn (bs "leading whitespace before string") else mret tt) (nextst s)
               = (Ret tt, s2) /\ same4 (nextst s) s2 /\ p_big5 s2 = p_big5 (nextst s)).
    { destruct (_ && _); eexists; (split; [reflexivity|]); repeat split. }
    destruct X as (s2 & X & W & Wb). unfold mbind at 1. rewrite X. clear X.
    pose proof (pot_same _ _ W) as Wp. destruct W as ((Wi & Wc & We) & _).
    unfold mbind. rewrite get_string_line_eq, run_lex_eq.
    destruct (pline _ _ _ _ _) as [ws a|ws m|ws] eqn:Ep; [| |discriminate].
    - pose proof (q_warned ws s2) as W. pose proof (pot_same _ _ W) as Wp2. destruct W as ((W1 & W2 & _) & _).
      pose proof (warned_fields cf fn ws s2) as (W4 & _).
      destruct (is_good (p_in (nextst s))) eqn:G1.
      + intro E. apply IH in E; [lia|]. rewrite W1, Wi. exact G1.
      + intro E. exfalso. pose proof (stuck_continuation cf fn g a i (warned_all cf fn ws s2)) as St. rewrite E in St.
        discriminate St.
        * rewrite W1, Wi. exact G1.
        * rewrite W2, Wc. exact Eq.
        * rewrite W2, W4. rewrite (pline_shape _ _ _ _ [] out), Ep. reflexivity.
    - pose proof (error_exn bytes m (warned_all cf fn ws s2)) as Hx.
      destruct (error cf fn m _) as [[a|e|u| |] s3]; try discriminate. exfalso; eapply Hx; reflexivity.
  Qed.
  Lemma get_string_grow k : grow 3 (get_string cf fn k).
  Proof.
    intro s. rewrite get_string_eq. apply (grow_bind _ _ 1 2); [lia|apply run_lex_grow|intros; apply continuation_grow].
  Qed.
  Lemma get_string_ret k (s s' : pst I) a : is_good (p_in s) = true -> get_string cf fn k s = (Ret a, s') -> (pot s' <= pot s)%Z.
  Proof.
    intros G0. rewrite get_string_eq. unfold mbind. rewrite run_lex_eq.
    destruct (pfirst _ _ _ _ _) as [ws b|ws m|ws]; [| |discriminate].
    - intro E. pose proof (q_warned ws s) as W. pose proof (pot_same _ _ W) as Wp. destruct W as ((W1 & _) & _).
      apply continuation_ret in E; [lia|]. now rewrite W1.
    - pose proof (error_exn bytes m (warned_all cf fn ws s)) as Hx.
      destruct (error cf fn m _) as [[x|e|u| |] s3]; try discriminate. exfalso; eapply Hx; reflexivity.
  Qed.
  Lemma comments_grow g : forall b, grow 0 (comments cf g b).
  Proof.
    induction g as [|g IH]; intros b s; [discriminate|].
    destruct (is_good (p_in s)) eqn:G0.
    - cbn [comments]. unfold prefix. rewrite mget_bind.
      destruct (starts_with [c_hash] (p_cur s)) eqn:E; [|intros _; cbn [mret fst snd]; split; [lia|]; split; [right; lia|auto]].
      rewrite mget_bind. unfold mbind. rewrite next_line_eq.
      pose proof (pot_next_good s G0).
      apply (gpost_from _ 0 0 s (nextst s)); [lia|right; lia|apply next_eof|apply IH].
    - destruct (starts_with [c_hash] (p_cur s)) eqn:E.
      + intro Hf. rewrite stuck_comments in Hf by assumption. discriminate.
      + cbn [comments]. unfold prefix. rewrite mget_bind, E. intros _. cbn [mret fst snd]. split; [lia|]. split; [right; lia|auto].
  Qed.
  Lemma msgstr_grow g : forall v b, grow 3 (msgstr_loop cf fn g v b).
  Proof.
    induction g as [|g IH]; intros v b s; [discriminate|].
    destruct (is_good (p_in s)) eqn:G0.
    - cbn [msgstr_loop]. unfold mbind at 1. rewrite is_empty_line_eq.
      destruct (pempty _ _) as [[]|]; cbn [run_opt]; try (unfold mret at 1; cbv beta iota); [| |discriminate].
      { destruct (is_nil v); [apply (gpost_le _ 1); [lia|apply error_grow]|].
        intros _. cbn [mret fst snd]. split; [lia|]. split; [right; lia|auto]. }
      unfold mbind at 1. rewrite is_msgstr_n_eq.
      destruct (pmsgstr_n _ _) as [[]|] eqn:Em; cbn [run_opt]; try (unfold mret at 1; cbv beta iota); [| |discriminate].
      2: { apply (gpost_le _ 1); [lia|apply error_grow]. }
      rewrite mget_bind. cbv zeta. unfold mbind at 1.
      pose proof (get_string_grow 9 s) as Hg. pose proof (get_string_ret 9 s) as Hr.
      destruct (get_string cf fn 9 s) as [[m|e|u| |] s1]; try discriminate; [|exact Hg].
      specialize (Hr s1 m G0 eq_refl). destruct (Hg eq_refl) as (_ & _ & He). cbn [snd] in He.
      apply (gpost_from _ 3 0 s s1); [lia|right; lia|exact He|].
      apply (grow_bind _ _ 0 3); [lia|apply grow_quiet, q_convert|intros; apply IH].
    - destruct (pmsgstr_n (cf_strict cf) (p_cur s)) as [[]|] eqn:Em.
      + destruct (shape (pfirst (cf_strict cf) (cf_pedantic cf) (p_big5 s) 9 (p_cur s))) eqn:Esh.
        * intro Hf. rewrite (stuck_msgstr_unfinished (S g) v b s G0 Em Esh) in Hf. discriminate.
        * cbn [msgstr_loop]. unfold mbind at 1. rewrite is_empty_line_eq, (pmsgstr_not_empty _ _ Em). cbn [run_opt]. unfold mret at 1; cbv beta iota.
          unfold mbind at 1. rewrite is_msgstr_n_eq, Em. cbn [run_opt]. unfold mret at 1; cbv beta iota.
          rewrite mget_bind. cbv zeta. unfold mbind at 1.
          pose proof (get_string_grow 9 s) as Hg.
          assert (Hx' : forall a, fst (get_string cf fn 9 s) <> Ret a).
          { intro a. rewrite get_string_eq. unfold mbind. rewrite run_lex_eq.
            destruct (pfirst _ _ _ _ _) as [ws b0|ws m|ws]; [discriminate| |discriminate].
            pose proof (error_exn bytes m (warned_all cf fn ws s)) as Hx.
            destruct (error cf fn m _) as [[x|e|u| |] s3]; try discriminate. exfalso; eapply Hx; reflexivity. }
          destruct (get_string cf fn 9 s) as [[a|e|u| |] s3]; try discriminate; [exfalso; eapply Hx'; reflexivity|exact Hg].
      + cbn [msgstr_loop]. unfold mbind at 1. rewrite is_empty_line_eq.
        destruct (pempty _ _) as [[]|]; cbn [run_opt]; try (unfold mret at 1; cbv beta iota); [| |discriminate].
        { destruct (is_nil v); [apply (gpost_le _ 1); [lia|apply error_grow]|].
          intros _. cbn [mret fst snd]. split; [lia|]. split; [right; lia|auto]. }
        unfold mbind at 1. rewrite is_msgstr_n_eq, Em. cbn [run_opt]. unfold mret at 1; cbv beta iota.
        apply (gpost_le _ 1); [lia|apply error_grow].
      + cbn [msgstr_loop]. unfold mbind at 1. rewrite is_empty_line_eq.
        destruct (pempty _ _) as [[]|]; cbn [run_opt]; try (unfold mret at 1; cbv beta iota); [| |discriminate].
        { destruct (is_nil v); [apply (gpost_le _ 1); [lia|apply error_grow]|].
          intros _. cbn [mret fst snd]. split; [lia|]. split; [right; lia|auto]. }
        unfold mbind at 1. rewrite is_msgstr_n_eq, Em. discriminate.
  Qed.
  Ltac gq := apply grow_quiet; first [apply q_get|apply q_ret|apply q_empty|apply q_warning|apply q_add|apply q_header|apply q_convert].
  Lemma entry_grow fz : grow 14 (entry cf fn true fz).
  Proof.
    unfold entry. apply (grow_bind _ _ 0 14); [lia|gq|intros hc].
    apply (grow_bind _ _ 3 11); [lia|destruct hc; [apply (grow_bind _ _ 3 0); [lia|apply get_string_grow|intros; gq]|apply (grow_le _ 0); [lia|gq]]|intros ctxt].
    apply (grow_bind _ _ 0 11); [lia|gq|intros hm].
    apply (grow_bind _ _ 3 8); [lia|destruct hm; [apply get_string_grow|apply (grow_le _ 1); [lia|apply error_grow]]|intros id].
    apply (grow_bind _ _ 0 8); [lia|gq|intros []].
    - unfold plural_entry. apply (grow_bind _ _ 3 5); [lia|apply get_string_grow|intros mp].
      apply (grow_bind _ _ 3 2); [lia|apply msgstr_grow|intros r].
      apply (grow_bind _ _ 0 2); [lia|gq|intros []]; cbn [negb]; [|apply (grow_le _ 1); [lia|apply error_grow]].
      destruct (_ && _); [|apply (grow_le _ 0); [lia|gq]]. apply (grow_bind _ _ 0 2); [lia|gq|intros d].
      apply (grow_bind _ _ 0 2); [lia| |intros _; apply (grow_le _ 0); [lia|gq]].
      destruct (negb _); [gq|]. destruct (negb _); gq.
    - apply (grow_bind _ _ 0 8); [lia|gq|intros []]; [|apply (grow_le _ 1); [lia|apply error_grow]].
      unfold singular_entry. apply (grow_bind _ _ 3 5); [lia|apply get_string_grow|intros ms].
      destruct (is_nil id); [apply (grow_le _ 0); [lia|gq]|]. destruct (_ && _); [|apply (grow_le _ 0); [lia|gq]].
      apply (grow_bind _ _ 0 5); [lia|gq|intros; apply (grow_le _ 0); [lia|gq]].
  Qed.
  Lemma try_grow : grow 16 (try_block cf fn true).
  Proof.
    assert (B : grow 15 (block_body cf fn)).
    { unfold block_body. apply (grow_bind _ _ 0 15); [lia|apply comments_grow|intros fz].
      apply (grow_bind _ _ 0 15); [lia|gq|intros e].
      apply (grow_bind _ _ 14 1); [lia|destruct e; [apply (grow_le _ 0); [lia|gq]|apply entry_grow]|intros _].
      apply (grow_bind _ _ 0 1); [lia|gq|intros e']. destruct e'; [apply (grow_le _ 0); [lia|gq]|apply error_grow]. }
    intro s. unfold try_block. rewrite block_eq.
    assert (K : gpost 16 s (mbind (block_body cf fn) (fun _ => next_line cf) s)).
    { apply (grow_bind _ _ 15 1); [lia|exact B|]. intros _ s1 _. rewrite next_line_eq. apply next_grow. }
    destruct (mbind _ _ s) as [[a|[]|u| |] s']; exact K.
  Qed.
  Lemma loop_grow g : forall s, finished (fst (parse_loop cf fn true g s)) = true ->
    (p_eof s = false -> pot (snd (parse_loop cf fn true g s)) <= pot s + 16)%Z /\
    (p_eof s = true -> pot (snd (parse_loop cf fn true g s)) <= pot s)%Z.
  Proof.
    induction g as [|g IH]; intro s; [discriminate|]. cbn [parse_loop]. rewrite mget_bind.
    destruct (p_eof s) eqn:Ee; [simpl; split; [discriminate|lia]|].
    unfold mbind. pose proof (try_grow s) as Ht. destruct (try_block cf fn true s) as [[a|e|u| |] s'] eqn:E; try discriminate.
    - intro Hf. split; [intros _|discriminate]. specialize (IH s' Hf). destruct (Ht eq_refl) as (H1 & H2 & _). cbn [snd] in *.
      destruct (p_eof s') eqn:Ee'.
      + destruct IH as [_ IH]. specialize (IH eq_refl). lia.
      + destruct IH as [IH _]. specialize (IH eq_refl). destruct H2 as [H2|H2]; [congruence|lia].
    - intros _. split; [intros _|discriminate]. destruct (Ht eq_refl) as (H1 & _). exact H1.
  Qed.
End Lines.

Lemma pot_line cf (s : pst (cf_iconv cf)) : (p_line s <= pot cf s)%Z.
Proof. unfold pot. destruct (is_good _); lia. Qed.
Lemma lines_bound cf fn b d r : parses_to cf fn (stream_of b) d r -> finished (pr_outcome r) = true ->
  (pr_lines r <= Z.of_nat (line_count b) + 17)%Z.
Proof.
  intros H Hf. apply parses_to_elim in H as (n & <- & _). rewrite po_parse_eq in *.
  set (s0 := init_state cf (stream_of b) d) in *.
  set (s1 := strip_bom cf (nextst s0)) in *.
  assert (P1 : (pot (with_fuel cf n) s1 <= Z.of_nat (line_count b) + 1)%Z).
  { transitivity (pot (with_fuel cf n) (nextst s0)).
    - unfold s1, strip_bom. destruct (starts_with bom (p_cur (nextst s0))); apply Z.le_refl.
    - etransitivity; [apply (pot_next_good (with_fuel cf n) s0); reflexivity|].
      unfold pot. change (p_line s0) with 0%Z. change (is_good (p_in s0)) with true. cbv iota.
      change (is_rest (p_in s0)) with b. lia. }
  pose proof (loop_grow (with_fuel cf n) fn n s1 Hf) as [L1 L2].
  pose proof (pot_line (with_fuel cf n) (snd (parse_loop (with_fuel cf n) fn true n s1))) as Hp.
  cbn [pr_lines result_of]. cbn [cf_iconv with_fuel] in *.
  destruct (p_eof s1); [specialize (L2 eq_refl)|specialize (L1 eq_refl)]; lia.
Qed.
