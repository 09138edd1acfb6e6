(** Termination, and the line counter. *)
From Verif.Model Require Import Base Log PluralForms Dictionary IConv Stream PoParser.
From Verif.Spec Require Import ParserSpec.
From Verif.Proofs Require Import BaseFacts LexProofs ParserUnary ParserRel ParserSafe ParserFuel ParserLocal ParserCut ParserBlank.
Local Open Scope list_scope.

Lemma last_line_lf l : forall acc r, last_line_from acc (l ++ c_lf :: r) = last_line r.
Proof.
  induction l as [|c l IH]; intros acc r; simpl.
  - reflexivity.
  - destruct (byte_eqb c c_lf); apply IH.
Qed.
Lemma last_line_no_lf l : forall acc, ~ In c_lf l -> last_line_from acc l = acc ++ l.
Proof.
  induction l as [|c l IH]; intros acc H; simpl; [now rewrite app_nil_r|].
  destruct (byte_eqb c c_lf) eqn:E; [apply byte_eqb_eq in E; exfalso; apply H; left; congruence|].
  rewrite IH by (intro; apply H; right; auto). now rewrite <- app_assoc.
Qed.

Lemma pquote_quote_first strict l : forall i j, pquote strict i l = Some (Some j) -> quote_first l = true.
Proof.
  induction l as [|c l IH]; intros i j; simpl; [discriminate|].
  destruct (byte_eqb c c_dq); [reflexivity|]. unfold pctype. destruct (strict && hi c); [discriminate|].
  destruct (isspace c); [|discriminate]. simpl. apply IH.
Qed.
Lemma pmsgstr_n_prefix strict l : pmsgstr_n strict l = Some true -> starts_with (bs "msgstr[") l = true.
Proof. unfold pmsgstr_n. destruct (starts_with _ l); auto. discriminate. Qed.

(** a line that stops every loop of the parser *)
Record safe (strict : bool) (l : bytes) : Prop := {
  safe_hash : starts_with [c_hash] l = false;
  safe_quote : forall i, pquote strict 0 l <> Some (Some i);
  safe_msgstr : pmsgstr_n strict l <> Some true }.

Lemma hangs_on_safe strict l : hangs_on l = false -> safe strict l.
Proof.
  unfold hangs_on. intro H. apply orb_false_elim in H as [H H3]. apply orb_false_elim in H as [H1 H2].
  split; auto.
  - intros i Hq. apply pquote_quote_first in Hq. congruence.
  - intro Hm. apply pmsgstr_n_prefix in Hm. congruence.
Qed.

Section NoExPo.
  Variable cf : config.
  Variable fn : bytes.
  Local Notation I := (cf_iconv cf).
  Local Notation P := (M (pst I)).
  (** neither POParserError nor fuel exhaustion, and nothing read *)
  Definition calm {A} (m : P A) : Prop := forall s,
    same_in cf s (snd (m s)) /\ fst (m s) <> OutOfFuel /\ fst (m s) <> Exn ExPo.
  Lemma calm_bind A B (m : P A) (k : A -> P B) : calm m -> (forall a, calm (k a)) -> calm (mbind m k).
  Proof.
    intros Hm Hk s. specialize (Hm s). unfold mbind. destruct (m s) as [[a|e|u| |] s']; simpl in *; auto.
    - destruct (Hk a s') as (H1 & H2 & H3). repeat split; auto; eapply same_trans; try apply Hm; eauto.
    - destruct Hm as (H1 & H2 & H3). repeat split; try apply H1; try discriminate. intro E. apply H3. now inversion E.
    - destruct Hm as (H1 & H2 & H3). repeat split; try apply H1; discriminate.
    - destruct Hm as (H1 & H2 & H3). repeat split; try apply H1; discriminate.
    - destruct Hm as (H1 & H2 & H3). congruence.
  Qed.
  Ltac triv := let s := fresh in intro s; repeat split; discriminate.
  Lemma calm_ret A (a : A) : calm (mret a). Proof. triv. Qed.
  Lemma calm_get A (g : pst I -> A) : calm (mget g). Proof. triv. Qed.
  Lemma calm_warning w : calm (warning cf fn w). Proof. triv. Qed.
  Lemma calm_ub A u : calm (@mfail _ A (Ub u)). Proof. triv. Qed.
  Lemma calm_run_opt A (r : option A) : calm (run_opt cf r).
  Proof. destruct r; triv. Qed.
  Lemma calm_empty : calm (is_empty_line cf).
  Proof. intro s. rewrite is_empty_line_eq. apply calm_run_opt. Qed.
  Lemma calm_msgstr_n : calm (is_msgstr_n cf).
  Proof. intro s. rewrite is_msgstr_n_eq. apply calm_run_opt. Qed.
  Lemma calm_find_quote i l : calm (find_quote cf i l).
  Proof. intro s. rewrite find_quote_eq. apply calm_run_opt. Qed.
  Lemma calm_call c : calm (dict_call_ cf c). Proof. triv. Qed.
  Lemma calm_add op : calm (dict_add cf op). Proof. triv. Qed.
  Lemma calm_convert t : calm (do_convert cf t).
  Proof.
    intro s. unfold do_convert, convert. destruct (cv_cd (p_conv s)) as [| |id st]; [repeat split; discriminate..|].
    destruct (ic_conv _ _ _ _) as [[st' out] [e|]]; [|repeat split; discriminate].
    destruct e; try destruct (cf_ndebug cf); repeat split; discriminate.
  Qed.
  Lemma calm_set c d : calm (do_set_charsets cf c d).
  Proof.
    intro s. unfold do_set_charsets. destruct (set_charsets _ _ _ _) as [[o c'] ev] eqn:E.
    destruct (set_outcome _ _ _ _ _ _ _ _ E) as [[-> _]|[[w ->]|[-> _]]]; repeat split; discriminate.
  Qed.
  Lemma calm_header_line l c : calm (header_line cf fn l c).
  Proof.
    unfold header_line. destruct (starts_with content_type l).
    - destruct (starts_with content_type_full l).
      + destruct (_ && _); [apply calm_ub|apply calm_ret].
      + apply calm_bind; [apply calm_warning|intros; apply calm_ret].
    - destruct (starts_with plural_forms_key l); [|apply calm_ret]. apply calm_bind.
      + intro s. unfold mlift, from_string. destruct (_ && _); [|destruct (assoc _ _)]; repeat split; discriminate.
      + intro pf. apply calm_bind; [|intros; apply calm_ret]. destruct (negb _); [apply calm_warning|].
        apply calm_bind; [apply calm_get|intros d]. apply calm_bind; [|intros; apply calm_call].
        destruct (pf_valid _); [|apply calm_ret]. destruct (negb _); [apply calm_warning|apply calm_ret].
  Qed.
  Lemma calm_header_loop h : forall a c, calm (header_loop cf fn h a c).
  Proof.
    induction h as [|x h IH]; intros a c; cbn [header_loop]; [apply calm_ret|].
    destruct (byte_eqb x c_lf); [|apply IH]. apply calm_bind; [apply calm_header_line|intros; apply IH].
  Qed.
  Lemma calm_header h : calm (parse_header cf fn h).
  Proof.
    unfold parse_header. apply calm_bind; [apply calm_header_loop|intros c]. apply calm_bind.
    - destruct (_ || _); [apply calm_bind; [apply calm_warning|intros; apply calm_ret]|].
      destruct (bytes_eqb _ _); [|apply calm_ret]. apply calm_bind; [|intros; apply calm_ret].
      intro s. repeat split; discriminate.
    - intro c'. apply calm_bind; [apply calm_get|intros; apply calm_set].
  Qed.
End NoExPo.

Lemma recover_no_exn cf f : forall s e, fst (recover cf f s) <> Exn e.
Proof.
  induction f as [|f IH]; intros s e; [discriminate|]. rewrite recover_S, mget_bind.
  destruct (p_eof (nextst s)); [discriminate|]. unfold mbind. rewrite is_empty_line_eq.
  destruct (pempty _ _) as [[]|]; cbn [run_opt]; unfold mret, mfail; simpl; try discriminate. apply IH.
Qed.

Section Term.
  Variable cf : config.
  Variable fn : bytes.
  Local Notation I := (cf_iconv cf).
  Local Notation P := (M (pst I)).
  Local Notation F := (cf_fuel cf).

  Definition T (s : pst I) : Prop :=
    if is_good (p_in s) then safe (cf_strict cf) (last_line (is_rest (p_in s))) else safe (cf_strict cf) (p_cur s).
  Definition mu (s : pst I) : nat := if is_good (p_in s) then S (length (is_rest (p_in s))) else 0.

  Lemma safe_nil : safe (cf_strict cf) [].
  Proof. split; [reflexivity|discriminate|]. unfold pmsgstr_n. discriminate. Qed.

  Lemma next_bad (s : pst I) : is_good (p_in s) = false ->
    is_good (p_in (nextst s)) = false /\ p_cur (nextst s) = p_cur s /\ p_eof (nextst s) = true.
  Proof.
    intro H. split; [apply nextst_notgood, H|]. unfold nextst. rewrite (getline_bad _ _ H). split; reflexivity.
  Qed.
  Lemma T_next s : T s -> T (nextst s).
  Proof.
    unfold T. destruct (is_good (p_in s)) eqn:G0.
    - intro H. unfold nextst.
      destruct (getline_cases _ (p_cur s) G0) as [(R & _ & ->)|[(l & r & R & Hl & ->)|[(R & Hl & _ & ->)|(_ & Hl & ->)]]]; simpl.
      + apply safe_nil.
      + unfold last_line in *. rewrite R, last_line_lf in H. exact H.
      + unfold last_line in H. rewrite last_line_no_lf in H by exact Hl. exact H.
      + unfold last_line in H. rewrite last_line_no_lf in H by exact Hl. exact H.
    - destruct (next_bad s G0) as (-> & -> & _). auto.
  Qed.
  Lemma mu_next s : mu (nextst s) <= mu s.
  Proof.
    unfold mu. destruct (is_good (p_in s)) eqn:G0.
    - unfold nextst.
      destruct (getline_cases _ (p_cur s) G0) as [(R & _ & ->)|[(l & r & R & Hl & ->)|[(R & Hl & _ & ->)|(_ & Hl & ->)]]]; simpl; try lia.
      rewrite R, app_length. simpl. blia.
    - destruct (next_bad s G0) as (-> & _). lia.
  Qed.
  Lemma mu_next_good (s : pst I) : is_good (p_in s) = true -> mu (nextst s) < mu s.
  Proof.
    intro G0. unfold mu. rewrite G0. unfold nextst.
    destruct (getline_cases _ (p_cur s) G0) as [(R & _ & ->)|[(l & r & R & Hl & ->)|[(R & Hl & _ & ->)|(_ & Hl & ->)]]]; simpl; try lia.
    rewrite R, app_length. simpl. blia.
  Qed.
  Lemma next_progress s : p_eof (nextst s) = true \/ mu (nextst s) < mu s.
  Proof.
    destruct (is_good (p_in s)) eqn:G0; [right; apply mu_next_good, G0|left; apply (next_bad s G0)].
  Qed.
  Lemma next_eof (s : pst I) : p_eof s = true -> p_eof (nextst s) = true.
  Proof. unfold nextst. destruct (getline _ _) as [[? ?] []]; simpl; auto. Qed.
  Lemma T_same s s' : same_in cf s s' -> T s -> T s'.
  Proof. intros (H1 & H2 & H3). unfold T. rewrite H1, H2. auto. Qed.
  Lemma mu_same s s' : same_in cf s s' -> mu s' = mu s.
  Proof. intros (H1 & H2 & H3). unfold mu. rewrite H1. auto. Qed.

  Definition tpost {A} (s : pst I) (r : outcome A * pst I) : Prop :=
    match r with
    | (OutOfFuel, _) => False
    | (Exn ExPo, s') => T s' /\ mu s' <= mu s /\ (p_eof s = true -> p_eof s' = true) /\
                        (p_eof s' = true \/ mu s' < mu s)
    | (_, s') => T s' /\ mu s' <= mu s /\ (p_eof s = true -> p_eof s' = true)
    end.
  Definition tm {A} (m : P A) : Prop := forall s, T s -> mu s < F -> tpost s (m s).

  Lemma tpost_weak A s s1 (r : outcome A * pst I) :
    mu s1 <= mu s -> (p_eof s = true -> p_eof s1 = true) -> tpost s1 r -> tpost s r.
  Proof.
    intros H1 H2. unfold tpost. destruct r as [[a|[]|u| |] s']; intuition; try lia.
  Qed.
  Lemma tm_bind A B (m : P A) (k : A -> P B) : tm m -> (forall a, tm (k a)) -> tm (mbind m k).
  Proof.
    intros Hm Hk s HT HF. specialize (Hm s HT HF). unfold mbind. unfold tpost in Hm at 1.
    destruct (m s) as [[a|[]|u| |] s'] eqn:E; try exact Hm.
    destruct Hm as (H1 & H2 & H3). eapply tpost_weak; eauto. apply Hk; auto. lia.
  Qed.
  Lemma tm_calm A (m : P A) : calm cf m -> tm m.
  Proof.
    intros Hm s HT HF. destruct (Hm s) as (H1 & H2 & H3). unfold tpost.
    assert (W : T (snd (m s)) /\ mu (snd (m s)) <= mu s /\ (p_eof s = true -> p_eof (snd (m s)) = true)).
    { split; [eapply T_same; eauto|]. split; [rewrite (mu_same _ _ H1); lia|]. destruct H1 as (_ & _ & ->). auto. }
    destruct (m s) as [[a|[]|u| |] s']; simpl in *; auto; congruence.
  Qed.
  Lemma recover_state f : forall s, T s -> let s' := snd (recover cf f s) in
    T s' /\ mu s' <= mu s /\ (p_eof s = true -> p_eof s' = true).
  Proof.
    intros s HT.
    assert (X : tri cf (fun s' => T s' /\ mu s' <= mu s /\ (p_eof s = true -> p_eof s' = true))
                  (fun _ s' => T s' /\ mu s' <= mu s /\ (p_eof s = true -> p_eof s' = true)) (recover cf f)).
    { apply tri_recover; auto. intros s' (H1 & H2 & H3). split; [apply T_next, H1|]. split; [|auto using next_eof].
      pose proof (mu_next s'). lia. }
    specialize (X s (conj HT (conj (le_n _) (fun h => h)))). unfold post in X. cbv zeta. destruct (recover cf f s) as [[a|[]|u| |] s']; exact X.
  Qed.
  Lemma tm_error A m : tm (@error cf fn A m).
  Proof.
    intros s HT HF. unfold error. rewrite mget_bind. unfold mbind at 1, emit, mmod. unfold mbind.
    set (s1 := st_tr s _).
    assert (Sm : same_in cf s s1) by (repeat split).
    pose proof (recover_fuel cf (S (S (length (is_rest (p_in s))))) s1 (error_enough _ _ _)) as Hf.
    remember (S (length (is_rest (p_in s)))) as g eqn:Hg. clear Hg.
    rewrite recover_S in *.
    assert (HT1 : T (nextst s1)) by (apply T_next; eapply T_same; eauto).
    assert (Hmu : mu (nextst s1) <= mu s) by (rewrite <- (mu_same _ _ Sm); apply mu_next).
    assert (Hpr : p_eof (nextst s1) = true \/ mu (nextst s1) < mu s) by (rewrite <- (mu_same _ _ Sm); apply next_progress).
    assert (He1 : p_eof s = true -> p_eof (nextst s1) = true) by (intro; apply next_eof; assumption).
    rewrite mget_bind in *. destruct (p_eof (nextst s1)) eqn:Ee; [simpl; auto|].
    unfold mbind in *. rewrite is_empty_line_eq in *.
    destruct (pempty _ _) as [[]|]; cbn [run_opt] in *; unfold mret, mfail in *; simpl; auto.
    - split; [auto|]. split; [lia|]. rewrite Ee. auto.
    - pose proof (recover_state g (nextst s1) HT1) as (X1 & X2 & X3).
      assert (He2 : p_eof s = true -> p_eof (snd (recover cf g (nextst s1))) = true)
        by (intro Hs0; apply X3; rewrite Ee; auto).
      destruct Hpr as [Hpr|Hpr]; [congruence|].
      pose proof (recover_no_exn cf g (nextst s1)) as Hx.
      destruct (recover cf _ (nextst s1)) as [[a|e|u| |] s']; simpl in *; try contradiction; try congruence.
      + split; [exact X1|]. split; [lia|]. split; [exact He2|right; lia].
      + split; [exact X1|]. split; [lia|exact He2].
      + split; [exact X1|]. split; [lia|exact He2].
    - rewrite Ee. auto.
  Qed.
  Lemma tm_run_lex A (r : lexres A) : tm (run_lex cf fn r).
  Proof.
    intros s HT HF. rewrite run_lex_eq.
    pose proof (s_warned cf fn) as W. destruct r as [ws a|ws m|ws]; specialize (W ws s).
    - simpl. destruct W as (W1 & W2 & W3). unfold T, mu. rewrite W1, W2, W3. split; [exact HT|]. split; auto.
    - eapply tpost_weak; [| |apply tm_error].
      + rewrite (mu_same _ _ W). lia.
      + destruct W as (_ & _ & ->). auto.
      + eapply T_same; eauto.
      + rewrite (mu_same _ _ W). exact HF.
    - simpl. destruct W as (W1 & W2 & W3). unfold T, mu. rewrite W1, W2, W3. split; [exact HT|]. split; auto.
  Qed.
  Lemma tm_get_string_line o k : tm (get_string_line cf fn o k).
  Proof. intros s HT HF. rewrite get_string_line_eq. apply tm_run_lex; auto. Qed.

  (** continuation: on return at least one line has been consumed *)
  Lemma t_continuation g : forall out s, T s -> mu s < g -> mu s < F ->
    match continuation cf fn g out s with
    | (Ret _, s') => T s' /\ mu s' <= mu (nextst s) /\ (p_eof s = true -> p_eof s' = true)
    | r => tpost s r
    end.
  Proof.
    induction g as [|g IH]; intros out s HT Hg HF; [lia|]. cbn [continuation].
    unfold mbind at 1. rewrite next_line_eq, mget_bind. unfold mbind at 1. rewrite find_quote_eq.
    pose proof (T_next s HT) as HT1. pose proof (mu_next s) as Hm1. pose proof (next_eof s) as He1.
    destruct (pquote (cf_strict cf) 0 (p_cur (nextst s))) as [[i|]|] eqn:Eq; cbn [run_opt].
    2: { simpl; auto. }
    2: { simpl; auto. }
    unfold mret at 1; cbv beta iota.
    destruct (is_good (p_in (nextst s))) eqn:G1.
    2: { exfalso. unfold T in HT1. rewrite G1 in HT1. eapply safe_quote; eauto. }
    assert (G0 : is_good (p_in s) = true).
    { destruct (is_good (p_in s)) eqn:G0; auto. destruct (next_bad s G0) as (X & _). congruence. }
    pose proof (mu_next_good s G0) as Hlt.
    unfold mbind at 1.
    assert (HW : exists s2, (if (i =? 1) && cf_pedantic cf then warning cf fn (bs "leading whitespace before string") else mret tt) (nextst s)
                 = (Ret tt, s2) /\ same_in cf (nextst s) s2).
    { destruct (_ && _); eexists; (split; [reflexivity|]); repeat split. }
    destruct HW as (s2 & -> & Sm). unfold mbind.
    assert (HT2 : T s2) by (eapply T_same; eauto). pose proof (mu_same _ _ Sm) as Hm2.
    assert (He2 : p_eof s = true -> p_eof s2 = true) by (destruct Sm as (_ & _ & ->); auto).
    pose proof (tm_get_string_line out i s2 HT2 ltac:(lia)) as Hgl. unfold tpost in Hgl.
    destruct (get_string_line cf fn out i s2) as [[o|[]|u| |] s3]; simpl; try (intuition; try lia; fail).
    destruct Hgl as (HT3 & Hm3 & He3).
    specialize (IH o s3 HT3 ltac:(lia) ltac:(lia)). pose proof (mu_next s3).
    destruct (continuation cf fn g o s3) as [[o'|[]|u| |] s4]; simpl in *; intuition; lia.
  Qed.
  Lemma tm_continuation out : tm (continuation cf fn F out).
  Proof.
    intros s HT HF. pose proof (t_continuation F out s HT HF HF) as H. pose proof (mu_next s).
    destruct (continuation cf fn F out s) as [[o|[]|u| |] s']; simpl in *; intuition; lia.
  Qed.
  Lemma tm_get_string k : tm (get_string cf fn k).
  Proof. intros s HT HF. rewrite get_string_eq. apply tm_bind; auto using tm_run_lex, tm_continuation. Qed.
  Lemma get_string_dec k s a s' : T s -> mu s < F -> is_good (p_in s) = true ->
    get_string cf fn k s = (Ret a, s') -> mu s' < mu s.
  Proof.
    intros HT HF G0. rewrite get_string_eq. unfold mbind.
    pose proof (tm_run_lex _ (pfirst (cf_strict cf) (cf_pedantic cf) (p_big5 s) k (p_cur s)) s HT HF) as R.
    rewrite run_lex_eq in *.
    destruct (pfirst _ _ _ _ _) as [ws b|ws m|ws]; simpl in *.
    - intro E. destruct R as (R1 & R2 & _).
      pose proof (t_continuation F b (warned_all cf fn ws s) R1 ltac:(lia) ltac:(lia)) as H. rewrite E in H.
      destruct H as (_ & H & _).
      pose proof (s_warned cf fn ws s) as W.
      assert (mu (nextst (warned_all cf fn ws s)) < mu (warned_all cf fn ws s)).
      { apply mu_next_good. destruct W as (-> & _). exact G0. }
      lia.
    - unfold error. rewrite mget_bind. unfold mbind, emit, mmod. destruct (recover cf _ _) as [[?|?|?| |] ?]; discriminate.
    - discriminate.
  Qed.
  Lemma t_comments g : forall b s, T s -> mu s < g -> mu s < F -> tpost s (comments cf g b s).
  Proof.
    induction g as [|g IH]; intros b s HT Hg HF; [lia|]. cbn [comments]. unfold prefix. rewrite mget_bind.
    destruct (starts_with [c_hash] (p_cur s)) eqn:E; [|simpl; auto].
    rewrite mget_bind. unfold mbind. rewrite next_line_eq.
    destruct (is_good (p_in s)) eqn:G0.
    2: { exfalso. unfold T in HT. rewrite G0 in HT. pose proof (safe_hash _ _ HT). congruence. }
    pose proof (mu_next_good s G0). eapply tpost_weak; [| |apply IH].
    - lia.
    - apply next_eof.
    - apply T_next, HT.
    - lia.
    - lia.
  Qed.
  Lemma t_msgstr_loop g : forall v b s, T s -> mu s < g -> mu s < F -> tpost s (msgstr_loop cf fn g v b s).
  Proof.
    induction g as [|g IH]; intros v b s HT Hg HF; [lia|]. cbn [msgstr_loop].
    unfold mbind at 1. rewrite is_empty_line_eq. destruct (pempty _ _) as [[]|]; cbn [run_opt]; unfold mret, mfail; simpl; auto.
    { destruct (is_nil v); [apply tm_error; auto|simpl; auto]. }
    unfold mbind at 1. rewrite is_msgstr_n_eq.
    destruct (pmsgstr_n _ _) as [[]|] eqn:Em; cbn [run_opt]; unfold mret, mfail; simpl; auto; [|apply tm_error; auto].
    destruct (is_good (p_in s)) eqn:G0.
    2: { exfalso. unfold T in HT. rewrite G0 in HT. pose proof (safe_msgstr _ _ HT). congruence. }
    rewrite mget_bind. cbv zeta. unfold mbind at 1.
    pose proof (tm_get_string 9 s HT HF) as R. pose proof (get_string_dec 9 s) as D.
    destruct (get_string cf fn 9 s) as [[m|[]|u| |] s1]; try exact R.
    specialize (D m s1 HT HF G0 eq_refl). destruct R as (R1 & R2 & R3).
    unfold mbind. pose proof (tm_calm _ _ (calm_convert cf m) s1 R1 ltac:(lia)) as Cv. unfold tpost in Cv.
    destruct (do_convert cf m s1) as [[x|[]|u| |] s2]; simpl; try (intuition; lia).
    destruct Cv as (C1 & C2 & C3). eapply tpost_weak; [| |apply IH]; auto; lia.
  Qed.
  Lemma tm_entry fz : tm (entry cf fn true fz).
  Proof.
    unfold entry. apply tm_bind; [apply tm_calm, calm_get|intros hc].
    apply tm_bind; [destruct hc; [apply tm_bind; [apply tm_get_string|intros; apply tm_calm, calm_ret]|apply tm_calm, calm_ret]|intros ctxt].
    apply tm_bind; [apply tm_calm, calm_get|intros hm].
    apply tm_bind; [destruct hm; [apply tm_get_string|apply tm_error]|intros id].
    apply tm_bind; [apply tm_calm, calm_get|intros []].
    - unfold plural_entry. apply tm_bind; [apply tm_get_string|intros mp].
      apply tm_bind; [intros s HT HF; apply t_msgstr_loop; auto|intros r].
      apply tm_bind; [apply tm_calm, calm_empty|intros []]; cbn [negb]; [|apply tm_error].
      destruct (_ && _); [|apply tm_calm, calm_ret]. apply tm_bind; [apply tm_calm, calm_get|intros d].
      apply tm_bind; [|intros _; apply tm_calm, calm_add]. apply tm_calm.
      destruct (negb _); [apply calm_warning|]. destruct (negb _); [apply calm_warning|apply calm_ret].
    - apply tm_bind; [apply tm_calm, calm_get|intros []]; [|apply tm_error].
      unfold singular_entry. apply tm_bind; [apply tm_get_string|intros ms].
      destruct (is_nil id); [apply tm_calm, calm_header|]. destruct (_ && _); [|apply tm_calm, calm_ret].
      apply tm_bind; [apply tm_calm, calm_convert|intros; apply tm_calm, calm_add].
  Qed.
  Lemma tm_block_body : tm (block_body cf fn).
  Proof.
    unfold block_body. apply tm_bind; [intros s HT HF; apply t_comments; auto|intros fz].
    apply tm_bind; [apply tm_calm, calm_empty|intros e].
    apply tm_bind; [destruct e; [apply tm_calm, calm_ret|apply tm_entry]|intros _].
    apply tm_bind; [apply tm_calm, calm_empty|intros e']. destruct e'; [apply tm_calm, calm_ret|apply tm_error].
  Qed.
  Lemma t_try s : T s -> mu s < F ->
    match try_block cf fn true s with
    | (OutOfFuel, _) => False
    | (Ret _, s') => T s' /\ (p_eof s' = true \/ mu s' < mu s)
    | _ => True
    end.
  Proof.
    intros HT HF. unfold try_block. rewrite block_eq. unfold mbind. pose proof (tm_block_body s HT HF) as B.
    unfold tpost in B. destruct (block_body cf fn s) as [[a|[]|u| |] s']; simpl; try tauto.
    destruct B as (B1 & B2 & _). split; [apply T_next, B1|].
    destruct (next_progress s') as [H|H]; [left; exact H|right; exact (Nat.lt_le_trans _ _ _ H B2)].
  Qed.
  Lemma t_loop g : forall s, T s -> mu s < F -> mu s < g -> g > 0 -> (mu s + 1 < g \/ p_eof s = true) ->
    fst (parse_loop cf fn true g s) <> OutOfFuel.
  Proof.
    induction g as [|g IH]; intros s HT HF Hg _ Hx; [lia|]. cbn [parse_loop]. rewrite mget_bind.
    destruct (p_eof s) eqn:Ee; [discriminate|]. destruct Hx as [Hx|Hx]; [|discriminate].
    unfold mbind. pose proof (t_try s HT HF) as Ht.
    assert (Hm : mu (snd (try_block cf fn true s)) <= mu s).
    { assert (X : tri cf (fun s' => mu s' <= mu s) (fun _ s' => mu s' <= mu s) (try_block cf fn true)).
      { apply tri_try; auto.
        - intros s' H. pose proof (mu_next s'). lia.
        - intros s' t H. unfold do_convert. destruct (convert _ _ _) as [[o c] ev]. destruct o as [?|[]|?| |]; exact H.
        - intros s' c H. unfold do_set_charsets. destruct (set_charsets _ _ _ _) as [[o c'] ev]. destruct o as [?|[]|?| |]; exact H. }
      specialize (X s (le_n _)). unfold post in X. destruct (try_block cf fn true s) as [[a|[]|u| |] s']; exact X. }
    destruct (try_block cf fn true s) as [[a|e|u| |] s']; simpl in *; try discriminate; try contradiction.
    destruct Ht as [Ht1 Ht2]. apply IH; try assumption; try lia.
    destruct Ht2 as [Ht2|Ht2]; [right; exact Ht2|left; lia].
  Qed.
End Term.

(** ** Termination *)
Lemma no_lf_in l : newlines l = 0 -> ~ In c_lf l.
Proof.
  induction l as [|c l IH]; simpl; [tauto|]. destruct (byte_eqb c c_lf) eqn:E; [lia|].
  intros H [->|Hin]; [rewrite byte_eqb_refl in E; discriminate|]. apply IH; auto.
Qed.
Lemma bom_line_safe strict l : starts_with bom l = true -> safe strict l.
Proof.
  intro H. apply hangs_on_safe. unfold starts_with in H. apply bytes_eqb_eq in H.
  destruct l as [|a l]; [discriminate|]. cbn [length bom firstn] in H.
  assert (a = chr 239) by (destruct l as [|b [|c l]]; cbn in H; inversion H; reflexivity). subst a. reflexivity.
Qed.
Lemma starts_bom_cons l : starts_with bom l = true -> exists r, l = bom ++ r.
Proof.
  unfold starts_with. intro H. apply bytes_eqb_eq in H. exists (skipn 3 l).
  rewrite <- H at 1. symmetry. apply firstn_skipn.
Qed.

Lemma fin_outcome cf (x : outcome unit * pst (cf_iconv cf)) :
  pr_outcome (let (o, s) := x in
     {| pr_outcome := o; pr_dict := p_dict s;
        pr_trace := p_tr s ++ (if finished o then iconv_destroy (p_conv s) else []);
        pr_calls := p_calls s; pr_lines := p_line s |}) = fst x.
Proof. destruct x as [o s]. reflexivity. Qed.

Definition result_of {I} (x : outcome unit * pst I) : parse_result :=
  {| pr_outcome := fst x; pr_dict := p_dict (snd x);
     pr_trace := p_tr (snd x) ++ (if finished (fst x) then iconv_destroy (p_conv (snd x)) else []);
     pr_calls := p_calls (snd x); pr_lines := p_line (snd x) |}.
Lemma po_parse_eq cf n fn i d : po_parse (with_fuel cf n) fn i d =
  result_of (parse_loop (with_fuel cf n) fn true n (strip_bom cf (nextst (init_state cf i d)))).
Proof.
  unfold po_parse. change (init_state (with_fuel cf n) i d) with (init_state cf i d).
  rewrite parse_member_eq.
  exact ((fun x : outcome unit * pst (cf_iconv cf) =>
            match x as x return (let (o, s) := x in
              {| pr_outcome := o; pr_dict := p_dict s;
                 pr_trace := p_tr s ++ (if finished o then iconv_destroy (p_conv s) else []);
                 pr_calls := p_calls s; pr_lines := p_line s |}) = result_of x
            with (o, s) => eq_refl end) (parse_loop (with_fuel cf n) fn true n (strip_bom cf (nextst (init_state cf i d))))).
Qed.

Lemma parse_terminates_any cf fn i d : is_good i = true -> forall b, is_rest i = b ->
  hangs_on (last_line (drop_bom b)) = false ->
  pr_outcome (po_parse (with_fuel cf (length b + 4)) fn i d) <> OutOfFuel.
Proof.
  intros Gi b Eb H. set (n := length b + 4). unfold po_parse.
  change (init_state (with_fuel cf n) i d) with (init_state cf i d).
  rewrite parse_member_eq. set (s0 := init_state cf i d).
  assert (Hs : last_line (drop_bom b) = last_line b \/ (starts_with bom b = true /\ ~ In c_lf b)).
  { unfold drop_bom. destruct (starts_with bom b) eqn:E; [|left; reflexivity].
    destruct (in_dec ascii_dec c_lf b) as [Hin|Hout]; [left|right; auto].
    apply starts_bom_cons in E as [r ->]. change (skipn 3 (bom ++ r)) with r.
    apply in_app_or in Hin as [Hin|Hin]; [cbn in Hin; intuition discriminate|].
    apply in_split in Hin as (l1 & l2 & ->). unfold last_line. rewrite app_assoc, !last_line_lf. reflexivity. }
  assert (T0 : T (with_fuel cf n) s0).
  { unfold T, s0. change (p_in (init_state cf i d)) with i. rewrite Gi, Eb. simpl. destruct Hs as [Hs|[Hs Hout]].
    - apply hangs_on_safe. rewrite <- Hs. exact H.
    - unfold last_line. rewrite last_line_no_lf by exact Hout. apply bom_line_safe, Hs. }
  pose proof (T_next (with_fuel cf n) s0 T0) as T1.
  assert (M1 : mu (with_fuel cf n) (strip_bom cf (nextst s0)) <= S (length b)).
  { transitivity (mu (with_fuel cf n) (nextst s0)).
    - unfold strip_bom. destruct (starts_with bom (p_cur (nextst s0))); apply le_n.
    - pose proof (mu_next (with_fuel cf n) s0) as X. assert (Y : mu (with_fuel cf n) s0 = S (length b)) by (unfold mu; change (p_in s0) with i; rewrite Gi, Eb; reflexivity). rewrite <- Y. exact X. }
  assert (T2 : T (with_fuel cf n) (strip_bom cf (nextst s0))).
  { unfold strip_bom. destruct (starts_with bom (p_cur (nextst s0))) eqn:E; [|exact T1].
    unfold T. change (p_in (st_cur (nextst s0) (skipn 3 (p_cur (nextst s0))))) with (p_in (nextst s0)).
    change (cf_iconv (with_fuel cf n)) with (cf_iconv cf) in *.
    change (if is_good (p_in (nextst s0)) then safe (cf_strict cf) (last_line (is_rest (p_in (nextst s0))))
            else safe (cf_strict cf) (p_cur (nextst s0))) in T1.
    destruct (is_good (p_in (nextst s0))) eqn:G1; [exact T1|].
    cbn [st_cur st_line p_cur].
    assert (G0 : is_good (p_in s0) = true) by exact Gi.
    unfold nextst in E, G1 |- *.
    destruct (getline_cases _ (p_cur s0) G0) as [(R & _ & X)|[(l & r & R & Hl & X)|[(R & Hl & _ & X)|(_ & Hl & X)]]]; rewrite X in *; simpl in E, G1 |- *.
    - discriminate.
    - discriminate.
    - change (is_rest (p_in s0)) with (is_rest i) in *. rewrite Eb in *. apply hangs_on_safe.
      unfold drop_bom in H. rewrite E in H. unfold last_line in H.
      rewrite last_line_no_lf in H; [exact H|].
      apply starts_bom_cons in E as [r Er]. rewrite Er in Hl |- *. change (skipn 3 (bom ++ r)) with r. intro Hin. apply Hl, in_or_app. right; exact Hin.
    - change (is_rest (p_in s0)) with (is_rest i) in *. rewrite Eb in *. apply hangs_on_safe.
      unfold drop_bom in H. rewrite E in H. unfold last_line in H.
      rewrite last_line_no_lf in H; [exact H|].
      apply starts_bom_cons in E as [r Er]. rewrite Er in Hl |- *. change (skipn 3 (bom ++ r)) with r. intro Hin. apply Hl, in_or_app. right; exact Hin. }
  pose proof (t_loop (with_fuel cf n) fn n _ T2) as L. cbn [cf_fuel with_fuel] in L.
  intro X. apply L; try (unfold n in *; lia). rewrite <- X. symmetry.
  exact (fin_outcome (with_fuel cf n) (parse_loop (with_fuel cf n) fn true n (strip_bom cf (nextst s0)))).
Qed.

Lemma parse_terminates cf fn b d :
  hangs_on (last_line (drop_bom b)) = false ->
  pr_outcome (po_parse (with_fuel cf (length b + 4)) fn (stream_of b) d) <> OutOfFuel.
Proof. intro H. exact (parse_terminates_any cf fn (stream_of b) d eq_refl b eq_refl H). Qed.

Lemma parse_failed_stream cf fn i d n : is_good i = false -> 0 < n ->
  po_parse (with_fuel cf n) fn i d =
  {| pr_outcome := Ret tt; pr_dict := d; pr_trace := []; pr_calls := []; pr_lines := 1%Z |}.
Proof.
  intros Hi Hn. unfold po_parse, parse_member. unfold mbind at 1. rewrite next_line_eq. rewrite mmod_bind.
  unfold nextst. cbn [init_state p_in p_cur]. rewrite (getline_bad _ _ Hi). simpl.
  destruct n; [lia|]. reflexivity.
Qed.

(** ** The line counter *)
Lemma newlines_app a b : newlines (a ++ b) = newlines a + newlines b.
Proof. induction a as [|c a IH]; simpl; rewrite ?IH; auto. destruct (byte_eqb c c_lf); lia. Qed.
Lemma newlines_none l : ~ In c_lf l -> newlines l = 0.
Proof.
  induction l as [|c l IH]; simpl; [auto|]. intro H.
  destruct (byte_eqb c c_lf) eqn:E; [apply byte_eqb_eq in E; exfalso; apply H; left; congruence|]. apply IH. tauto.
Qed.
Lemma line_count_lf l r : ~ In c_lf l -> line_count (l ++ c_lf :: r) = S (line_count r).
Proof.
  intro H. unfold line_count, last_line. rewrite last_line_lf, newlines_app, newlines_none by exact H.
  cbn [newlines]. rewrite byte_eqb_refl. reflexivity.
Qed.
Lemma line_count_tail l : l <> [] -> ~ In c_lf l -> line_count l = 1.
Proof.
  intros Hn H. unfold line_count, last_line. rewrite newlines_none by exact H.
  rewrite last_line_no_lf by exact H. destruct l; [contradiction|reflexivity].
Qed.

(** whether a scan of a quoted line succeeds does not depend on what was read before *)
Definition shape {A} (r : lexres A) : nat := match r with LOk _ _ => 0 | LErr _ _ => 1 | LUb _ => 2 end.
Lemma pscan_pos b5 n : forall l i o1 o2, length l <= n ->
  match pscan b5 i l o1, pscan b5 i l o2 with
  | LOk _ p, LOk _ q => fst p = fst q | LErr _ _, LErr _ _ => True | LUb _, LUb _ => True | _, _ => False end.
Proof.
  induction n as [|n IH]; intros [|c l] i o1 o2 H; simpl in *; auto; try lia.
  destruct (byte_eqb c c_dq); [reflexivity|]. destruct (b5 && big5_lead c).
  { destruct l as [|c1 l]; [exact Logic.I|]. apply IH. simpl in H; lia. }
  destruct (byte_eqb c c_bsl).
  { destruct l as [|c1 l]; [exact Logic.I|]. simpl in H. destruct (unescape c1).
    - apply IH; lia.
    - specialize (IH l (i + 2) (o1 ++ [c; c1]) (o2 ++ [c; c1]) ltac:(lia)).
      destruct (pscan b5 (i + 2) l (o1 ++ [c; c1])), (pscan b5 (i + 2) l (o2 ++ [c; c1])); simpl in *; auto. }
  apply IH; lia.
Qed.
Lemma pline_shape strict b5 i cur o1 o2 : shape (pline strict b5 o1 i cur) = shape (pline strict b5 o2 i cur).
Proof.
  unfold pline. destruct (_ <=? _); [reflexivity|]. destruct (negb _); [reflexivity|].
  pose proof (pscan_pos b5 _ (skipn (i + 1) cur) (i + 1) o1 o2 (le_n _)) as H.
  destruct (pscan b5 (i + 1) (skipn (i + 1) cur) o1) as [w1 p|w1 m1|w1],
           (pscan b5 (i + 1) (skipn (i + 1) cur) o2) as [w2 q|w2 m2|w2]; simpl in *; try contradiction; auto.
  rewrite H. destruct (pgarbage _ _); reflexivity.
Qed.

Section Stuck.
  Variable cf : config.
  Variable fn : bytes.
  Local Notation I := (cf_iconv cf).

  (** ** The three loops that never end once the stream is exhausted *)
  Lemma stuck_comments f : forall b (s : pst I), is_good (p_in s) = false -> starts_with [c_hash] (p_cur s) = true ->
    fst (comments cf f b s) = OutOfFuel.
  Proof.
    induction f as [|f IH]; intros b s G0 H; [reflexivity|]. cbn [comments]. unfold prefix. rewrite mget_bind, H, mget_bind.
    unfold mbind. rewrite next_line_eq. destruct (next_bad cf s G0) as (G1 & E1 & _). apply IH; auto. now rewrite E1.
  Qed.
  Lemma stuck_continuation f : forall out i (s : pst I), is_good (p_in s) = false ->
    pquote (cf_strict cf) 0 (p_cur s) = Some (Some i) -> shape (pline (cf_strict cf) (p_big5 s) [] i (p_cur s)) = 0 ->
    fst (continuation cf fn f out s) = OutOfFuel.
  Proof.
    induction f as [|f IH]; intros out i s G0 Hq Hp; [reflexivity|]. cbn [continuation].
    unfold mbind at 1. rewrite next_line_eq, mget_bind. destruct (next_bad cf s G0) as (G1 & E1 & _).
    unfold mbind at 1. rewrite find_quote_eq, E1, Hq. cbn [run_opt]. unfold mret at 1; cbv beta iota.
    nx s.
    assert (W : forall s2, same_in cf (nextst s) s2 -> p_big5 s2 = p_big5 s ->
              fst (mbind (get_string_line cf fn out i) (continuation cf fn f) s2) = OutOfFuel).
    { intros s2 (S1 & S2 & S3) S4. unfold mbind. rewrite get_string_line_eq, run_lex_eq, S2, S4, E1.
      pose proof (pline_shape (cf_strict cf) (p_big5 s) i (p_cur s) [] out) as Hs. rewrite Hp in Hs.
      destruct (pline (cf_strict cf) (p_big5 s) out i (p_cur s)) as [ws a|ws m|ws]; try discriminate Hs.
      pose proof (s_warned cf fn ws s2) as (W1 & W2 & W3).
      apply (IH a i).
      - rewrite W1, S1. exact G1.
      - rewrite W2, S2, E1. exact Hq.
      - rewrite W2, S2, E1. replace (p_big5 (warned_all cf fn ws s2)) with (p_big5 s); [exact Hp|].
        rewrite <- S4. clear. revert s2. induction ws as [|w ws IH]; intro s2; [reflexivity|]. simpl. rewrite <- IH. reflexivity. }
    unfold mbind at 1. destruct (_ && _); apply W; try (repeat split; fail); auto.
  Qed.
  Lemma pmsgstr_no_quote strict l : pmsgstr_n strict l = Some true -> pquote strict 0 l = Some None.
  Proof.
    intro H. apply pmsgstr_n_prefix in H. unfold starts_with in H. apply bytes_eqb_eq in H.
    destruct l as [|c l]; [discriminate|]. cbn in H. inversion H; subst c. cbn.
    unfold pctype. change (hi "m"%char) with false. rewrite andb_false_r. reflexivity.
  Qed.
  Lemma pmsgstr_not_empty strict l : pmsgstr_n strict l = Some true -> pempty strict l = Some false.
  Proof.
    intro H. apply pmsgstr_n_prefix in H. unfold starts_with in H. apply bytes_eqb_eq in H.
    destruct l as [|c l]; [discriminate|]. cbn in H. inversion H; subst c. cbn.
    unfold pctype. change (hi "m"%char) with false. rewrite andb_false_r. reflexivity.
  Qed.
  Lemma warned_fields ws : forall (s : pst I), p_big5 (warned_all cf fn ws s) = p_big5 s /\
    p_conv (warned_all cf fn ws s) = p_conv s /\ p_line (warned_all cf fn ws s) = p_line s.
  Proof. induction ws as [|w ws IH]; intro s; [auto|]. simpl. destruct (IH (warned cf fn w s)) as (-> & -> & ->). auto. Qed.

  Lemma continuation_stop f out (s : pst I) : pquote (cf_strict cf) 0 (p_cur (nextst s)) = Some None ->
    continuation cf fn (S f) out s = (Ret out, nextst s).
  Proof.
    intro H. cbn [continuation]. unfold mbind at 1. rewrite next_line_eq, mget_bind.
    unfold mbind at 1. rewrite find_quote_eq, H. reflexivity.
  Qed.
  Lemma stuck_msgstr g : forall v b (s : pst I), is_good (p_in s) = false ->
    pmsgstr_n (cf_strict cf) (p_cur s) = Some true ->
    shape (pfirst (cf_strict cf) (cf_pedantic cf) (p_big5 s) 9 (p_cur s)) = 0 ->
    cv_cd (p_conv s) <> CdInvalid ->
    fst (msgstr_loop cf fn g v b s) = OutOfFuel \/
    (fst (msgstr_loop cf fn g v b s) = AssertFail /\ cf_ndebug cf = false /\ cv_cd (p_conv s) <> CdNull).
  Proof.
    induction g as [|g IH]; intros v b s G0 Hm Hp Hc; [left; reflexivity|].
    set (Q := fun o : outcome (list bytes * bool) =>
                o = OutOfFuel \/ (o = AssertFail /\ cf_ndebug cf = false /\ cv_cd (p_conv s) <> CdNull)).
    change (Q (fst (msgstr_loop cf fn (S g) v b s))). cbn [msgstr_loop].
    unfold mbind at 1. rewrite is_empty_line_eq, (pmsgstr_not_empty _ _ Hm). cbn [run_opt]. unfold mret at 1; cbv beta iota.
    unfold mbind at 1. rewrite is_msgstr_n_eq, Hm. cbn [run_opt]. unfold mret at 1; cbv beta iota.
    rewrite mget_bind. cbv zeta.
    unfold mbind at 1. rewrite get_string_eq. unfold mbind at 1. rewrite run_lex_eq.
    destruct (pfirst _ _ _ _ _) as [ws a|ws m|ws] eqn:Ep; try discriminate Hp.
    pose proof (s_warned cf fn ws s) as (W1 & W2 & W3). pose proof (warned_fields ws s) as (W4 & W5 & _).
    set (s1 := warned_all cf fn ws s) in *.
    destruct (cf_fuel cf) as [|f]; [left; reflexivity|].
    assert (G1 : is_good (p_in s1) = false) by (rewrite W1; exact G0).
    destruct (next_bad cf s1 G1) as (G2 & E2 & _).
    rewrite continuation_stop by (rewrite E2, W2; apply pmsgstr_no_quote, Hm).
    cbv beta iota. nx s1.
    unfold mbind. unfold do_convert. rewrite Nv, W5.
    destruct (convert (cf_ndebug cf) (p_conv s) a) as [[o c] ev] eqn:Ec.
    destruct (convert_outcome _ _ _ _ _ _ _ Ec Hc) as [[x ->]|[-> Hnd]].
    2: { right. simpl. split; [reflexivity|]. split; [exact Hnd|]. intro Hn. unfold convert in Ec. rewrite Hn in Ec. discriminate. }
    set (s3 := st_tr _ _).
    assert (C3 : cv_cd c <> CdInvalid /\ (cv_cd (p_conv s) = CdNull -> cv_cd c = CdNull)).
    { unfold convert in Ec. destruct (cv_cd (p_conv s)) as [| |id st] eqn:Ecd; [inversion Ec; subst; split; congruence|congruence|].
      destruct (ic_conv _ _ _ _) as [[st' out] [e|]]; [destruct e; try destruct (cf_ndebug cf)|]; inversion Ec; subst; simpl; split; discriminate. }
    destruct (IH (vec_put v (N.to_nat (code (nth 7 (p_cur s) c_nul) - 48)) x) (b || negb (is_nil a)) s3) as [E|(E1 & E3 & E4)].
    - exact G2.
    - unfold s3. simpl. rewrite E2, W2. exact Hm.
    - unfold s3. simpl. rewrite E2, W2, Nb, W4, Ep. reflexivity.
    - exact (proj1 C3).
    - left. exact E.
    - right. split; [exact E1|]. split; [exact E3|]. intro X. apply E4. apply C3, X.
  Qed.
End Stuck.
