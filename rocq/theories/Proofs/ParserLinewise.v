(** Files that agree line by line up to a relation the scanners cannot see: CR at
    line ends, and flag comments. *)
From Verif.Model Require Import Base Log PluralForms Dictionary IConv Stream PoParser.
From Verif.Spec Require Import ParserSpec.
From Verif.Proofs Require Import BaseFacts LexProofs ParserUnary ParserRel ParserSafe ParserFuel ParserLocal ParserCut.
Local Open Scope list_scope.

Lemma line_unique (l1 l2 r1 r2 : bytes) : ~ In c_lf l1 -> ~ In c_lf l2 ->
  l1 ++ c_lf :: r1 = l2 ++ c_lf :: r2 -> l1 = l2 /\ r1 = r2.
Proof.
  revert l2. induction l1 as [|x l1 IH]; intros [|y l2] H1 H2 E; simpl in *.
  - inversion E; auto.
  - inversion E; subst. exfalso; apply H2; left; reflexivity.
  - inversion E; subst. exfalso; apply H1; left; reflexivity.
  - inversion E; subst. destruct (IH l2 ltac:(tauto) ltac:(tauto) H3) as [-> ->]. auto.
Qed.
Lemma lf_in (l r : bytes) : In c_lf (l ++ c_lf :: r).
Proof. apply in_or_app. right; left; reflexivity. Qed.

Lemma getline_line (l r buf : bytes) : ~ In c_lf l -> getline (stream_of (l ++ c_lf :: r)) buf = (stream_of r, l, true).
Proof.
  intro H. destruct (getline_good (stream_of (l ++ c_lf :: r)) buf eq_refl eq_refl) as [[R _]|[(l' & r' & R & Hl & E)|[R [Hl E]]]];
    cbn [stream_of is_rest] in *.
  - destruct l; discriminate.
  - apply line_unique in R as [-> ->]; auto.
  - exfalso. apply Hl, lf_in.
Qed.
Lemma getline_last (l buf : bytes) : ~ In c_lf l -> l <> [] ->
  getline (stream_of l) buf = ({| is_rest := []; is_eof := true; is_fail := false; is_break := false |}, l, true).
Proof.
  intros H Hn. destruct (getline_good (stream_of l) buf eq_refl eq_refl) as [[R _]|[(l' & r' & R & Hl & E)|[R [Hl E]]]];
    cbn [stream_of is_rest] in *; try congruence. subst l. exfalso. apply H, lf_in.
Qed.

Section Linewise.
  Variable I : iconv_impl.
  Variables strict nd pd : bool.
  Variable f : nat.
  Variable fn : bytes.
  Variables C T : bytes -> bytes -> Prop.
  Hypothesis C_empty : forall a b, C a b -> pempty strict a = pempty strict b.
  Hypothesis C_prefix : forall k a b, C a b -> In k [[c_hash]; kw_ctxt; kw_id; kw_plural; kw_str] ->
    starts_with k a = starts_with k b.
  Hypothesis C_first : forall k skip b5 a b, C a b ->
    In (k, skip) [(kw_ctxt, 7); (kw_id, 5); (kw_plural, 12); (kw_str, 6)] -> starts_with k a = true ->
    lsim (pfirst strict pd b5 skip a) (pfirst strict pd b5 skip b).
  Hypothesis C_first9 : forall b5 a b, C a b -> pmsgstr_n strict a = Some true ->
    lsim (pfirst strict pd b5 9 a) (pfirst strict pd b5 9 b).
  Hypothesis C_quote : forall a b, C a b -> pquote strict 0 a = pquote strict 0 b.
  Hypothesis C_line : forall b5 out i a b, C a b -> pquote strict 0 a = Some (Some i) ->
    lsim (pline strict b5 out i a) (pline strict b5 out i b).
  Hypothesis C_msgstr : forall a b, C a b -> pmsgstr_n strict a = pmsgstr_n strict b /\
    (pmsgstr_n strict a = Some true -> nth 7 a c_nul = nth 7 b c_nul).
  Hypothesis C_bom : forall a b, C a b -> starts_with bom a = starts_with bom b.
  Hypothesis C_skip : forall a b, C a b -> starts_with bom a = true -> C (skipn 3 a) (skipn 3 b).
  Hypothesis C_nil : C [] [].
  Hypothesis T_C : forall a b, T a b -> C a b.
  Hypothesis T_nil : forall a b, T a b -> (a = [] <-> b = []).

  Definition Rlw (s1 s2 : pst I) : Prop :=
    C (p_cur s1) (p_cur s2) /\ p_eof s1 = p_eof s2 /\ p_big5 s1 = p_big5 s2 /\ cv_eqv (p_conv s1) (p_conv s2) /\
    p_dict s1 = p_dict s2 /\ p_line s2 = p_line s1 /\ p_calls s1 = p_calls s2 /\
    ((exists b1 b2, p_in s1 = stream_of b1 /\ p_in s2 = stream_of b2 /\ linewise C T b1 b2) \/
     (is_good (p_in s1) = false /\ is_good (p_in s2) = false)).
  Definition E0lw (s1 s2 : pst I) : Prop := True.
  Definition Elw (s1 s2 : pst I) : Prop := False.

  Lemma Rlw_next s1 s2 : Rlw s1 s2 -> Rlw (nextst s1) (nextst s2) \/ Elw (nextst s1) (nextst s2).
  Proof.
    intros (Hc & He & Hb & Hv & Hd & Hl & Hk & Hi). left. nx s1. nx s2. unfold Rlw.
    rewrite Nb, Nb0, Nv, Nv0, Nd, Nd0, Nc, Nc0, Nl, Nl0.
    assert (W : (C (p_cur (nextst s1)) (p_cur (nextst s2)) /\ p_eof (nextst s1) = p_eof (nextst s2) /\
      ((exists b1 b2, p_in (nextst s1) = stream_of b1 /\ p_in (nextst s2) = stream_of b2 /\ linewise C T b1 b2) \/
       (is_good (p_in (nextst s1)) = false /\ is_good (p_in (nextst s2)) = false)))).
    2: { destruct W as (W1 & W2 & W3). repeat split; auto. now rewrite Hl. }
    unfold nextst. destruct Hi as [(b1 & b2 & E1 & E2 & L)|[G1 G2]].
    - rewrite E1, E2. inversion L as [l1 l2 H1 H2 Ht|l1 l2 b1' b2' H1 H2 Hcc L']; subst.
      + destruct b1 as [|x b1].
        * rewrite (proj1 (T_nil _ _ Ht) eq_refl). simpl. split; [exact C_nil|]. split; [reflexivity|]. right; auto.
        * assert (N2 : b2 <> []) by (intro X; apply (T_nil _ _ Ht) in X; discriminate).
          rewrite (getline_last _ _ H1), (getline_last _ _ H2) by (auto; discriminate). cbn.
          split; [auto|]. split; [exact He|]. right; auto.
      + rewrite !getline_line by assumption. cbn. split; [exact Hcc|]. split; [exact He|]. left. exists b1', b2'. auto.
    - rewrite (getline_bad _ _ G1), (getline_bad _ _ G2). simpl. split; [exact Hc|]. split; [reflexivity|].
      right. unfold is_good. simpl. rewrite !andb_false_r. auto.
  Qed.

  Ltac rl := unfold Rlw in *; cbn [st_tr st_dict st_conv st_big5 st_cur st_line p_in p_dict p_eof p_big5 p_line p_cur p_conv p_tr p_calls] in *.
  Lemma lw_parse : rel I Rlw E0lw Elw eq (parse_member (mkcf I strict nd pd f) fn true) (parse_member (mkcf I strict nd pd f) fn true).
  Proof.
    eapply rel_parse with (C := C); eauto using Rlw_next.
    - intros s1 s2 (Hc & He & Hb & Hv & Hd & Hl & Hk & Hi). rewrite Hd. auto.
    - intros s1 s2 c (Hc & He & Hb & Hv & Hd & Hl & Hk & Hi) _. rl. rewrite Hd, Hk. auto 10.
    - intros s1 s2 c1 c2 Hcv (Hc & He & Hb & Hv & Hd & Hl & Hk & Hi). rl. auto 10.
    - intros s1 s2 (Hc & He & Hb & Hv & Hd & Hl & Hk & Hi). rl. auto 10.
    - intros s1 s2 (Hc & He & Hb & Hv & Hd & Hl & Hk & Hi) Hbom. rl. auto 10.
    - intros; exact Logic.I.
  Qed.
End Linewise.

Lemma parses_linewise cf fn (C T : bytes -> bytes -> Prop) b1 b2 d r1 :
  let strict := cf_strict cf in let pd := cf_pedantic cf in
  (forall a b, C a b -> pempty strict a = pempty strict b) ->
  (forall k a b, C a b -> In k [[c_hash]; kw_ctxt; kw_id; kw_plural; kw_str] -> starts_with k a = starts_with k b) ->
  (forall k skip b5 a b, C a b ->
    In (k, skip) [(kw_ctxt, 7); (kw_id, 5); (kw_plural, 12); (kw_str, 6)] -> starts_with k a = true ->
    lsim (pfirst strict pd b5 skip a) (pfirst strict pd b5 skip b)) ->
  (forall b5 a b, C a b -> pmsgstr_n strict a = Some true ->
    lsim (pfirst strict pd b5 9 a) (pfirst strict pd b5 9 b)) ->
  (forall a b, C a b -> pquote strict 0 a = pquote strict 0 b) ->
  (forall b5 out i a b, C a b -> pquote strict 0 a = Some (Some i) ->
    lsim (pline strict b5 out i a) (pline strict b5 out i b)) ->
  (forall a b, C a b -> pmsgstr_n strict a = pmsgstr_n strict b /\
    (pmsgstr_n strict a = Some true -> nth 7 a c_nul = nth 7 b c_nul)) ->
  (forall a b, C a b -> starts_with bom a = starts_with bom b) ->
  (forall a b, C a b -> starts_with bom a = true -> C (skipn 3 a) (skipn 3 b)) ->
  C [] [] -> (forall a b, T a b -> C a b) -> (forall a b, T a b -> (a = [] <-> b = [])) ->
  linewise C T b1 b2 -> parses_to cf fn (stream_of b1) d r1 ->
  exists r2, parses_to cf fn (stream_of b2) d r2 /\
    pr_outcome r2 = pr_outcome r1 /\ pr_dict r2 = pr_dict r1 /\ pr_calls r2 = pr_calls r1 /\ pr_lines r2 = pr_lines r1.
Proof.
  cbv zeta. intros H1 H2 H3 H4 H5 H6 H7 H8 H9 H10 H11 H12 HL H.
  apply parses_to_elim in H as (n & <- & Hn).
  pose proof (lw_parse (cf_iconv cf) (cf_strict cf) (cf_ndebug cf) (cf_pedantic cf) n fn C T
    H1 H2 H3 H4 H5 H6 H7 H8 H9 H10 H11 H12
    (init_state (with_fuel cf n) (stream_of b1) d) (init_state (with_fuel cf n) (stream_of b2) d)) as L.
  change (mkcf (cf_iconv cf) (cf_strict cf) (cf_ndebug cf) (cf_pedantic cf) n) with (with_fuel cf n) in L.
  assert (R0 : Rlw (cf_iconv cf) C T (init_state (with_fuel cf n) (stream_of b1) d) (init_state (with_fuel cf n) (stream_of b2) d)).
  { unfold Rlw; simpl. repeat split; auto using cv_eqv_refl. left. exists b1, b2. auto. }
  specialize (L R0). clear R0.
  assert (K : pr_outcome (po_parse (with_fuel cf n) fn (stream_of b2) d) = pr_outcome (po_parse (with_fuel cf n) fn (stream_of b1) d) /\
    pr_dict (po_parse (with_fuel cf n) fn (stream_of b2) d) = pr_dict (po_parse (with_fuel cf n) fn (stream_of b1) d) /\
    pr_calls (po_parse (with_fuel cf n) fn (stream_of b2) d) = pr_calls (po_parse (with_fuel cf n) fn (stream_of b1) d) /\
    pr_lines (po_parse (with_fuel cf n) fn (stream_of b2) d) = pr_lines (po_parse (with_fuel cf n) fn (stream_of b1) d)).
  { unfold po_parse in *.
    destruct (parse_member (with_fuel cf n) fn true (init_state (with_fuel cf n) (stream_of b1) d)) as [o1 s1].
    destruct (parse_member (with_fuel cf n) fn true (init_state (with_fuel cf n) (stream_of b2) d)) as [o2 s2].
    simpl in *. destruct L as [[Ho (_ & _ & _ & _ & Hd & Hl & Hk & _)]|[[Ho _]|[]]]; simpl in *; [|congruence].
    repeat split; auto. destruct o1 as [[]|e|u| |], o2 as [[]|e'|u'| |]; simpl in Ho; try contradiction; congruence. }
  destruct K as (K1 & K2 & K3 & K4).
  eexists. split; [apply (parses_to_intro cf fn (stream_of b2) d n); rewrite K1; exact Hn|]. auto.
Qed.

(** ** CR before LF *)
Lemma lsim_sym A (r1 r2 : lexres A) : lsim r1 r2 -> lsim r2 r1.
Proof. destruct r1, r2; simpl; auto. Qed.
Lemma lsim_trans A (r1 r2 r3 : lexres A) : lsim r1 r2 -> lsim r2 r3 -> lsim r1 r3.
Proof. destruct r1, r2, r3; simpl; auto; try tauto. congruence. Qed.

Lemma pall_space_cr l : pall_space false (l ++ [c_cr]) = pall_space false l.
Proof.
  induction l as [|c l IH]; [reflexivity|]. cbn [app pall_space]. unfold pctype. cbn [andb].
  destruct (isspace c); auto.
Qed.
Lemma pempty_cr l : pempty false (l ++ [c_cr]) = pempty false l.
Proof.
  destruct l as [|c l]; [reflexivity|]. cbn [app pempty]. destruct (byte_eqb c c_hash).
  - destruct l; reflexivity.
  - exact (pall_space_cr (c :: l)).
Qed.
Lemma starts_cr k l : ~ In c_cr k -> starts_with k (l ++ [c_cr]) = starts_with k l.
Proof.
  intro H. destruct (starts_with k l) eqn:E.
  - apply starts_with_spec in E as [t ->]. apply starts_with_spec. exists (t ++ [c_cr]). now rewrite app_assoc.
  - destruct (starts_with k (l ++ [c_cr])) eqn:E'; auto. apply starts_with_spec in E' as [t Ht].
    destruct t as [|x t] using rev_ind.
    + exfalso. apply H. rewrite app_nil_r in Ht. rewrite <- Ht. apply in_or_app. right; left; reflexivity.
    + rewrite app_assoc in Ht. apply app_inj_tail in Ht as [-> _]. rewrite starts_with_app in E. discriminate.
Qed.
Lemma pquote_cr l : forall i, pquote false i (l ++ [c_cr]) = pquote false i l.
Proof.
  induction l as [|c l IH]; intro i; [reflexivity|]. cbn [app pquote]. destruct (byte_eqb c c_dq); auto.
  unfold pctype. cbn [andb]. destruct (isspace c); auto.
Qed.
Lemma pgarbage_ok l : exists ws, pgarbage false l = LOk ws tt.
Proof.
  induction l as [|c l [ws IH]]; [exists []; reflexivity|]. cbn [pgarbage]. unfold pctype. cbn [andb].
  destruct (isspace c); eauto.
Qed.
Lemma pscan_cr b5 n : forall l i out, length l <= n -> lsim (pscan b5 i l out) (pscan b5 i (l ++ [c_cr]) out).
Proof.
  induction n as [|n IH]; intros [|c l] i out H; simpl in H; try lia.
  - cbn [app pscan]. change (byte_eqb c_cr c_dq) with false. change (big5_lead c_cr) with false. rewrite andb_false_r.
    exact Logic.I.
  - cbn [app pscan]. change (byte_eqb c_cr c_dq) with false. change (big5_lead c_cr) with false. rewrite andb_false_r.
    exact Logic.I.
  - cbn [app pscan]. destruct (byte_eqb c c_dq); [reflexivity|].
    destruct (b5 && big5_lead c).
    { destruct l as [|c1 l]; [exact Logic.I|]. cbn [app]. apply IH. simpl in H; lia. }
    destruct (byte_eqb c c_bsl).
    { destruct l as [|c1 l]; cbn [app].
      - change (unescape c_cr) with (@None byte). exact Logic.I.
      - simpl in H. destruct (unescape c1); [apply IH; lia|].
        apply lsim_lwarn_l, lsim_lwarn_r. apply IH; lia. }
    apply IH; lia.
Qed.
Lemma pscan_index b5 n : forall l i out ws p, length l <= n -> pscan b5 i l out = LOk ws p -> fst p < i + length l.
Proof.
  induction n as [|n IH]; intros [|c l] i out ws p H; simpl in H; try lia; cbn [pscan]; try discriminate.
  destruct (byte_eqb c c_dq). { intro E; inversion E; subst. simpl. lia. }
  destruct (b5 && big5_lead c).
  { destruct l as [|c1 l]; [discriminate|]. intro E. apply IH in E; simpl in *; lia. }
  destruct (byte_eqb c c_bsl).
  { destruct l as [|c1 l]; [discriminate|]. simpl in H. destruct (unescape c1).
    - intro E. apply IH in E; simpl in *; lia.
    - destruct (pscan b5 (i + 2) l (out ++ [c; c1])) eqn:E; simpl; try discriminate.
      intro X; inversion X; subst. apply IH in E; simpl in *; lia. }
  intro E. apply IH in E; simpl in *; lia.
Qed.
Lemma nth_app_l (a b : bytes) i : i < length a -> nth i (a ++ b) c_nul = nth i a c_nul.
Proof. apply app_nth1. Qed.
Lemma pline_cr b5 out i a : lsim (pline false b5 out i a) (pline false b5 out i (a ++ [c_cr])).
Proof.
  unfold pline. rewrite app_length. cbn [length]. destruct (Nat.leb_spec (length a) (i + 1)) as [H|H].
  - destruct (Nat.leb_spec (length a + 1) (i + 1)) as [H'|H']; [exact Logic.I|].
    assert (E : length a = i + 1) by blia.
    destruct (negb _); [exact Logic.I|].
    replace (skipn (i + 1) (a ++ [c_cr])) with [c_cr].
    2: { rewrite <- E, skipn_app, skipn_all, Nat.sub_diag. reflexivity. }
    cbn [pscan]. change (byte_eqb c_cr c_dq) with false. change (big5_lead c_cr) with false. rewrite andb_false_r. exact Logic.I.
  - destruct (Nat.leb_spec (length a + 1) (i + 1)) as [H'|H']; [blia|].
    rewrite nth_app_l by blia. destruct (negb _); [exact Logic.I|].
    replace (skipn (i + 1) (a ++ [c_cr])) with (skipn (i + 1) a ++ [c_cr]).
    2: { rewrite skipn_app. f_equal. replace (i + 1 - length a) with 0 by blia. reflexivity. }
    pose proof (pscan_cr b5 _ (skipn (i + 1) a) (i + 1) out (le_n _)) as HS.
    destruct (pscan b5 (i + 1) (skipn (i + 1) a) out) as [w p|w m|w],
      (pscan b5 (i + 1) (skipn (i + 1) a ++ [c_cr]) out) as [w' p'|w' m'|w']; simpl in HS; try contradiction; try exact Logic.I.
    subst p'. cbn [lbind].
    destruct (pgarbage_ok (skipn (S (fst p)) a)) as [g1 ->], (pgarbage_ok (skipn (S (fst p)) (a ++ [c_cr]))) as [g2 ->].
    reflexivity.
Qed.
Lemma pskip_cr b5 cur out l : forall skip,
  lsim (pskip false b5 cur out skip l) (pskip false b5 (cur ++ [c_cr]) out skip (l ++ [c_cr])).
Proof.
  induction l as [|c l IH]; intro skip.
  - exact Logic.I.
  - cbn [app pskip]. destruct (byte_eqb c c_dq); [apply pline_cr|]. unfold pctype. cbn [andb].
    destruct (isspace c); [apply IH|exact Logic.I].
Qed.
Lemma lsim_ped A (pd : bool) w (r1 r2 : lexres A) : lsim r1 r2 -> lsim (if pd then lwarn w r1 else r1) (if pd then lwarn w r2 else r2).
Proof. destruct pd; auto. intro. apply lsim_lwarn_l, lsim_lwarn_r. assumption. Qed.
Lemma nth_at_end (a : bytes) : nth (length a) (a ++ [c_cr]) c_nul = c_cr.
Proof. rewrite app_nth2 by blia. now rewrite Nat.sub_diag. Qed.
Lemma pfirst_cr pd b5 skip a : 0 < skip -> lsim (pfirst false pd b5 skip a) (pfirst false pd b5 skip (a ++ [c_cr])).
Proof.
  intro Hs. unfold pfirst. rewrite app_length. cbn [length].
  destruct (Nat.leb_spec (length a) (skip + 1)) as [H|H].
  - destruct (Nat.leb_spec (length a + 1) (skip + 1)) as [H'|H']; [exact Logic.I|].
    assert (E : length a = skip + 1) by blia.
    rewrite <- E, nth_at_end. change (byte_eqb c_cr c_dq) with false. rewrite andb_false_r. cbv zeta.
    replace (skipn skip (a ++ [c_cr])) with (skipn skip a ++ [c_cr]).
    2: { rewrite skipn_app. f_equal. replace (skip - length a) with 0 by blia. reflexivity. }
    apply lsim_trans with (r2 := pskip false b5 a [] skip (skipn skip a)).
    { assert (L : exists c, skipn skip a = [c]).
      { assert (length (skipn skip a) = 1) by (rewrite skipn_length; lia). destruct (skipn skip a) as [|c [|]]; simpl in *; try blia; eauto. }
      destruct L as [c ->]. cbn [pskip]. destruct (byte_eqb c c_dq).
      - unfold pline. replace (length a <=? skip + 1) with true; [exact Logic.I|]. symmetry. apply Nat.leb_le. blia.
      - unfold pctype. cbn [andb]. destruct (isspace c); exact Logic.I. }
    eapply lsim_trans; [apply pskip_cr|]. destruct pd; [apply lsim_lwarn_r|]; apply lsim_refl.
  - destruct (Nat.leb_spec (length a + 1) (skip + 1)) as [H'|H']; [blia|].
    rewrite !nth_app_l by blia. destruct (_ && _); [apply pline_cr|]. cbv zeta.
    replace (skipn skip (a ++ [c_cr])) with (skipn skip a ++ [c_cr]).
    2: { rewrite skipn_app. f_equal. replace (skip - length a) with 0 by blia. reflexivity. }
    apply lsim_ped, pskip_cr.
Qed.
Lemma pmsgstr_cr a : pmsgstr_n false (a ++ [c_cr]) = pmsgstr_n false a /\
  (pmsgstr_n false a = Some true -> nth 7 (a ++ [c_cr]) c_nul = nth 7 a c_nul).
Proof.
  unfold pmsgstr_n. rewrite starts_cr by (cbn; intuition discriminate).
  destruct (starts_with (bs "msgstr[") a) eqn:E; [|split; [reflexivity|discriminate]]. cbn [andb].
  rewrite app_length. cbn [length].
  destruct (Nat.ltb_spec 8 (length a)) as [H|H].
  - destruct (Nat.ltb_spec 8 (length a + 1)) as [H'|H']; [|blia].
    split; [rewrite !nth_app_l by blia; reflexivity|intros _; apply nth_app_l; blia].
  - split; [|discriminate]. destruct (Nat.ltb_spec 8 (length a + 1)) as [H'|H']; [|reflexivity].
    assert (E8 : length a = 8) by blia. rewrite <- E8, nth_at_end. unfold pctype. cbn [andb].
    change (byte_eqb c_cr c_rbr) with false. now rewrite andb_false_r.
Qed.

Definition Ccr (a b : bytes) : Prop := b = a \/ b = a ++ [c_cr] \/ a = b ++ [c_cr].

Lemma parses_cr cf fn b1 b2 d r1 : cf_strict cf = false -> linewise Ccr eq b1 b2 ->
  parses_to cf fn (stream_of b1) d r1 ->
  exists r2, parses_to cf fn (stream_of b2) d r2 /\
    pr_outcome r2 = pr_outcome r1 /\ pr_dict r2 = pr_dict r1 /\ pr_calls r2 = pr_calls r1 /\ pr_lines r2 = pr_lines r1.
Proof.
  intros Hst. apply parses_linewise; rewrite ?Hst.
  - intros a b [->|[->| ->]]; rewrite ?pempty_cr; reflexivity.
  - intros k a b H Hk. assert (~ In c_cr k).
    { simpl in Hk. destruct Hk as [<-|[<-|[<-|[<-|[<-|[]]]]]]; cbn; intuition discriminate. }
    destruct H as [->|[->| ->]]; rewrite ?starts_cr by assumption; reflexivity.
  - intros k skip b5 a b H Hk _. assert (0 < skip).
    { simpl in Hk. destruct Hk as [E|[E|[E|[E|[]]]]]; inversion E; blia. }
    destruct H as [->|[->| ->]]; auto using lsim_refl, pfirst_cr, lsim_sym.
  - intros b5 a b H _. destruct H as [->|[->| ->]]; [apply lsim_refl|apply pfirst_cr; lia|apply lsim_sym, pfirst_cr; lia].
  - intros a b [->|[->| ->]]; rewrite ?pquote_cr; reflexivity.
  - intros b5 out i a b [->|[->| ->]] _; auto using lsim_refl, pline_cr, lsim_sym.
  - intros a b [->|[->| ->]]; [auto| |].
    + destruct (pmsgstr_cr a) as [E H]. split; [symmetry; exact E|]. intro X. symmetry. auto.
    + destruct (pmsgstr_cr b) as [E H]. split; [exact E|]. intro X. apply H. rewrite <- E. exact X.
  - intros a b H. assert (~ In c_cr bom) by (cbn; intuition discriminate).
    destruct H as [->|[->| ->]]; rewrite ?starts_cr by assumption; reflexivity.
  - intros a b H Hb. assert (~ In c_cr bom) by (cbn; intuition discriminate).
    destruct H as [->|[->| ->]]; [left; reflexivity| |].
    + right; left. apply starts_with_spec in Hb as [t ->]. reflexivity.
    + rewrite starts_cr in Hb by assumption. right; right. apply starts_with_spec in Hb as [t ->]. reflexivity.
  - left; reflexivity.
  - intros a b ->. left; reflexivity.
  - intros a b ->. tauto.
Qed.

(** ** Flag comments *)
Lemma flag_shape l : flag_line l = true -> exists t, l = c_hash :: c_comma :: t.
Proof. intro H. apply starts_with_spec in H as [t ->]. exists t. reflexivity. Qed.
Lemma parses_flags cf fn b1 b2 d r1 : linewise same_or_flags same_or_flags b1 b2 ->
  parses_to cf fn (stream_of b1) d r1 ->
  exists r2, parses_to cf fn (stream_of b2) d r2 /\
    pr_outcome r2 = pr_outcome r1 /\ pr_dict r2 = pr_dict r1 /\ pr_calls r2 = pr_calls r1 /\ pr_lines r2 = pr_lines r1.
Proof.
  assert (K : forall a b, same_or_flags a b -> a = b \/ exists t u, a = c_hash :: c_comma :: t /\ b = c_hash :: c_comma :: u).
  { intros a b [->|[H1 H2]]; [left; reflexivity|right]. apply flag_shape in H1 as [t ->]. apply flag_shape in H2 as [u ->]. eauto. }
  apply parses_linewise.
  - intros a b H. apply K in H as [->|(t & u & -> & ->)]; [reflexivity|]. cbn -[isspace hi]. unfold pctype. destruct (cf_strict cf); reflexivity.
  - intros k a b H Hk. apply K in H as [->|(t & u & -> & ->)]; [reflexivity|].
    simpl in Hk. destruct Hk as [<-|[<-|[<-|[<-|[<-|[]]]]]]; reflexivity.
  - intros k skip b5 a b H Hk Hp. apply K in H as [->|(t & u & -> & ->)]; [apply lsim_refl|].
    exfalso. simpl in Hk. destruct Hk as [E|[E|[E|[E|[]]]]]; inversion E; subst; discriminate.
  - intros b5 a b H Hp. apply K in H as [->|(t & u & -> & ->)]; [apply lsim_refl|discriminate].
  - intros a b H. apply K in H as [->|(t & u & -> & ->)]; [reflexivity|]. cbn -[isspace hi]. unfold pctype. destruct (cf_strict cf); reflexivity.
  - intros b5 out i a b H Hq. apply K in H as [->|(t & u & -> & ->)]; [apply lsim_refl|].
    exfalso. cbn in Hq. unfold pctype in Hq. change (hi c_hash) with false in Hq. rewrite andb_false_r in Hq. discriminate.
  - intros a b H. apply K in H as [->|(t & u & -> & ->)]; [auto|]. split; [reflexivity|discriminate].
  - intros a b H. apply K in H as [->|(t & u & -> & ->)]; [reflexivity|]. cbn -[isspace hi]. unfold pctype. destruct (cf_strict cf); reflexivity.
  - intros a b H Hb. apply K in H as [->|(t & u & -> & ->)]; [left; reflexivity|discriminate].
  - left; reflexivity.
  - auto.
  - intros a b H. apply K in H as [->|(t & u & -> & ->)]; [tauto|]. split; discriminate.
Qed.

Lemma crlf_app a b : crlf (a ++ b) = crlf a ++ crlf b.
Proof. induction a as [|c a IH]; [reflexivity|]. simpl. destruct (byte_eqb c c_lf); simpl; now rewrite IH. Qed.
Lemma crlf_no_lf l : ~ In c_lf l -> crlf l = l.
Proof.
  induction l as [|c l IH]; [reflexivity|]. intro H. simpl.
  destruct (byte_eqb c c_lf) eqn:E; [apply byte_eqb_eq in E; exfalso; apply H; left; congruence|].
  rewrite IH; [reflexivity|]. intro; apply H; right; assumption.
Qed.
Lemma crlf_linewise n : forall b, length b <= n -> linewise Ccr eq b (crlf b) /\ linewise Ccr eq (crlf b) b.
Proof.
  induction n as [|n IH]; intros b H.
  - destruct b; [|simpl in H; lia]. split; apply lw_end; simpl; auto.
  - destruct (getline_good (stream_of b) [] eq_refl eq_refl) as [[R _]|[(l & r & R & Hl & E)|[R [Hl E]]]]; cbn [stream_of is_rest] in *.
    + subst b. split; apply lw_end; simpl; auto.
    + subst b. rewrite crlf_app, (crlf_no_lf l) by exact Hl. cbn [crlf]. rewrite byte_eqb_refl.
      rewrite app_length in H. simpl in H. destruct (IH r ltac:(blia)) as [L1 L2].
      assert (Hc : ~ In c_lf (l ++ [c_cr])).
      { intro X. apply in_app_or in X as [X|[X|[]]]; [auto|discriminate]. }
      assert (Eq : l ++ c_cr :: c_lf :: crlf r = (l ++ [c_cr]) ++ c_lf :: crlf r) by now rewrite <- app_assoc.
      rewrite Eq.
      split; apply lw_line; auto; unfold Ccr; auto.
    + rewrite crlf_no_lf by exact Hl. split; apply lw_end; auto.
Qed.
