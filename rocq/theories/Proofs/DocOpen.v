(** Files whose last line is not ended by a newline: compared with the same file with
    the newline. *)
From Verif.Model Require Import Base Log PluralForms Dictionary IConv Stream PoParser.
From Verif.Spec Require Import ParserSpec PoSpec SoundSpec.
From Verif.Proofs Require Import BaseFacts DictProofs LexProofs ParserUnary DocLex ParserRel ParserSafe ParserFuel ParserLocal
  ParserCut ParserBlank ParserTerm ParserLinewise ParserMisc DocProofs ParserStrict DocSound DocComplaint DocExact.
From Verif.Spec Require Import DamageSpec.
Local Open Scope list_scope.

Local Notation len l := (Z.of_nat (length l)).

(** ** Steps that read nothing, in two related states *)
Section Step2.
  Variable cf : config.
  Variable fn : bytes.
  Local Notation I := (cf_iconv cf).
  Local Notation P := (M (pst I)).
  Variable RR : pst I -> pst I -> Prop.
  Record closed : Prop := {
    RR_dict : forall s t, RR s t -> p_dict s = p_dict t;
    RR_conv : forall s t, RR s t -> p_conv s = p_conv t;
    RR_warn : forall s t w, RR s t -> RR (warned cf fn w s) (warned cf fn w t);
    RR_emit : forall s t e, RR s t -> RR (st_tr s (p_tr s ++ e)) (st_tr t (p_tr t ++ e));
    RR_call : forall s t c, RR s t ->
      RR (st_dict s (apply_call (p_dict s) c) (p_calls s ++ [c])) (st_dict t (apply_call (p_dict t) c) (p_calls t ++ [c]));
    RR_cv : forall s t c, RR s t -> RR (st_conv s c) (st_conv t c);
    RR_b5 : forall s t, RR s t -> RR (st_big5 s true) (st_big5 t true) }.
  Hypothesis HC : closed.

  Definition step2 {A} (m : P A) : Prop := forall s t, RR s t -> fst (m s) = fst (m t) /\ RR (snd (m s)) (snd (m t)).
  Lemma step2_ret A (a : A) : step2 (mret a).
  Proof. intros s t H. split; [reflexivity|exact H]. Qed.
  Lemma step2_fail A (o : outcome False) : step2 (mfail o : P A).
  Proof. intros s t H. split; [reflexivity|exact H]. Qed.
  Lemma step2_lift A (o : outcome A) : step2 (mlift o : P A).
  Proof. intros s t H. split; [reflexivity|exact H]. Qed.
  Lemma step2_bind A B (m : P A) (f : A -> P B) : step2 m -> (forall a, step2 (f a)) -> step2 (mbind m f).
  Proof.
    intros Hm Hf s t H. destruct (Hm s t H) as [H1 H2]. unfold mbind. destruct (m s) as [o s'], (m t) as [o' t']. cbn [fst snd] in *. subst o'.
    destruct o as [a|e|u| |]; auto. apply Hf, H2.
  Qed.
  Lemma step2_warning w : step2 (warning cf fn w).
  Proof. intros s t H. rewrite !warning_eq. split; [reflexivity|]. cbn [snd]. now apply (RR_warn HC). Qed.
  Lemma step2_dict A B (g : dictionary -> A) (f : A -> P B) : (forall a, step2 (f a)) -> step2 (mbind (mget (fun s => g (p_dict s))) f).
  Proof. intros Hf s t H. rewrite !mget_bind. rewrite (RR_dict HC _ _ H). apply Hf, H. Qed.
  Lemma step2_call c : step2 (dict_call_ cf c).
  Proof. intros s t H. split; [reflexivity|]. now apply (RR_call HC). Qed.
  Lemma step2_add op : step2 (dict_add cf op).
  Proof.
    unfold dict_add. apply (step2_dict _ _ (fun d => d)). intro d. apply step2_bind; [|intros; apply step2_call].
    intros s t H. split; [reflexivity|]. now apply (RR_emit HC).
  Qed.
  Lemma step2_convert t0 : step2 (do_convert cf t0).
  Proof.
    intros s t H. unfold do_convert. rewrite (RR_conv HC _ _ H). destruct (convert _ _ _) as [[o c] ev]. split; [reflexivity|]. cbn [snd].
    exact (RR_emit HC _ _ ev (RR_cv HC _ _ c H)).
  Qed.
  Lemma step2_set a b : step2 (do_set_charsets cf a b).
  Proof.
    intros s t H. unfold do_set_charsets. rewrite (RR_conv HC _ _ H). destruct (set_charsets _ _ _ _) as [[o c] ev]. split; [reflexivity|]. cbn [snd].
    exact (RR_emit HC _ _ ev (RR_cv HC _ _ c H)).
  Qed.
  Lemma step2_header_line l c : step2 (header_line cf fn l c).
  Proof.
    unfold header_line. destruct (starts_with content_type l).
    - destruct (starts_with content_type_full l).
      + destruct (_ && _); [apply step2_fail|apply step2_ret].
      + apply step2_bind; [apply step2_warning|intros; apply step2_ret].
    - destruct (starts_with plural_forms_key l); [|apply step2_ret]. apply step2_bind; [apply step2_lift|].
      intro pf. apply step2_bind; [|intros; apply step2_ret]. destruct (negb _); [apply step2_warning|].
      apply (step2_dict _ _ (fun d => d)). intro d. apply step2_bind; [|intros; apply step2_call].
      destruct (pf_valid _); [|apply step2_ret]. destruct (negb _); [apply step2_warning|apply step2_ret].
  Qed.
  Lemma step2_header_loop h : forall a c, step2 (header_loop cf fn h a c).
  Proof.
    induction h as [|x h IH]; intros a c; cbn [header_loop]; [apply step2_ret|].
    destruct (byte_eqb x c_lf); [|apply IH]. apply step2_bind; [apply step2_header_line|intros; apply IH].
  Qed.
  Lemma step2_header h : step2 (parse_header cf fn h).
  Proof.
    unfold parse_header. apply step2_bind; [apply step2_header_loop|intros c]. apply step2_bind.
    - destruct (_ || _); [apply step2_bind; [apply step2_warning|intros; apply step2_ret]|].
      destruct (bytes_eqb _ _); [|apply step2_ret]. apply step2_bind; [|intros; apply step2_ret].
      intros s t H. split; [reflexivity|]. now apply (RR_b5 HC).
    - intro c'. apply (step2_dict _ _ (fun d => d)). intro d. apply step2_set.
  Qed.
  (** what a singular entry does once its strings are read *)
  Lemma step2_singular fz ctxt msgid msgstr : step2
    (if is_nil msgid then parse_header cf fn msgstr
     else if negb (is_nil msgstr) && (true || negb fz) then mbind (do_convert cf msgstr) (fun v => dict_add cf (AddSingular ctxt msgid v)) else mret tt).
  Proof.
    destruct (is_nil msgid); [apply step2_header|]. destruct (_ && _); [|apply step2_ret]. apply step2_bind; [apply step2_convert|intros; apply step2_add].
  Qed.
End Step2.

(** ** Lines that begin with a keyword *)
Lemma pctype_lax {A} st (f : byte -> A) c v : pctype st f c = Some v -> f c = v.
Proof. unfold pctype. destruct (st && hi c); [discriminate|]. now intros [= <-]. Qed.
Lemma pquote_lax st l : forall i q, pquote st i l = Some q -> pquote false i l = Some q.
Proof.
  induction l as [|c l IH]; intros i q; cbn [pquote]; [auto|]. destruct (byte_eqb c c_dq); [auto|].
  destruct (pctype st isspace c) as [v|] eqn:E; [|discriminate]. apply pctype_lax in E. unfold pctype. cbn [andb]. rewrite E. destruct v; [apply IH|auto].
Qed.
Lemma pmsgstr_lax st l q : pmsgstr_n st l = Some q -> pmsgstr_n false l = Some q.
Proof.
  unfold pmsgstr_n. destruct (_ && _); [|auto]. destruct (pctype st isdigit _) as [v|] eqn:E; [|discriminate]. apply pctype_lax in E. unfold pctype. cbn [andb]. now rewrite E.
Qed.
Lemma pfirst_next st pd b5 k l : shape (pfirst st pd b5 k l) = 0 -> isspace (nth k l c_nul) = true \/ nth k l c_nul = c_dq.
Proof.
  unfold pfirst. destruct (Nat.leb_spec (length l) (k + 1)) as [|L]; [discriminate|]. destruct (byte_eqb (nth k l c_nul) c_sp && _) eqn:E.
  - apply andb_prop in E as [E _]. apply byte_eqb_eq in E. rewrite E. left. reflexivity.
  - assert (X : shape (pskip st b5 l [] k (skipn k l)) = 0 -> isspace (nth k l c_nul) = true \/ nth k l c_nul = c_dq).
    { rewrite (skipn_cons_nth _ c_nul) by lia. cbn [pskip]. destruct (byte_eqb (nth k l c_nul) c_dq) eqn:Eq; [apply byte_eqb_eq in Eq; auto|].
      destruct (pctype st isspace _) as [[]|] eqn:Ec; [apply pctype_lax in Ec; auto|discriminate|discriminate]. }
    destruct pd; [|exact X]. unfold lwarn. destruct (pskip _ _ _ _ _ _); auto.
Qed.
Definition m_line (l : bytes) : Prop := exists r, l = chr 109 :: r.
Lemma starts_m k l : starts_with (chr 109 :: k) l = true -> m_line l.
Proof. intro H. apply starts_with_spec in H as [u ->]. cbn. eexists. reflexivity. Qed.
Lemma m_quote st l : m_line l -> pquote st 0 l = Some None.
Proof. intros [r ->]. cbn [pquote]. change (byte_eqb (chr 109) c_dq) with false. cbv iota. unfold pctype. change (hi (chr 109)) with false. rewrite andb_false_r. reflexivity. Qed.
Lemma m_empty st l : m_line l -> pempty st l = Some false.
Proof.
  intros [r ->]. unfold pempty. change (byte_eqb (chr 109) c_hash) with false. cbv iota. cbn [pall_space].
  unfold pctype. change (hi (chr 109)) with false. rewrite andb_false_r. reflexivity.
Qed.
Lemma m_sticky l : m_line l -> (forall rest, ~ is_form l rest) -> ~ sticky l.
Proof.
  intros [r ->] H [(l' & E & _)|[(w & r' & E & Hw)|[rest E]]]; [discriminate| |now apply (H rest)].
  destruct Hw as [|c w Hc Hw]; injection E as E _; [discriminate|subst c; discriminate Hc].
Qed.
Lemma starts_not k1 k2 l : starts_with k1 l = true -> starts_with k2 (firstn (length k2) (k1 ++ repeat c_nul (length k2))) = false ->
  length k2 <= length k1 -> starts_with k2 l = false.
Proof.
  intros H1 H2 L. apply starts_with_spec in H1 as [u ->]. destruct (starts_with k2 (k1 ++ u)) eqn:E; [|reflexivity]. apply starts_with_spec in E as [v E].
  rewrite firstn_app in H2. replace (length k2 - length k1) with 0 in H2 by lia. cbn [firstn] in H2. rewrite app_nil_r in H2.
  assert (X : firstn (length k2) k1 = k2).
  { apply (f_equal (firstn (length k2))) in E. rewrite !firstn_app in E. replace (length k2 - length k1) with 0 in E by lia. rewrite Nat.sub_diag in E.
    cbn [firstn] in E. rewrite !app_nil_r, firstn_all in E. exact E. }
  rewrite X in H2. rewrite <- H2. symmetry. apply starts_with_spec. exists []. now rewrite app_nil_r.
Qed.
Lemma form_starts l rest : is_form l rest -> starts_with (bs "msgstr[") l = true.
Proof. intros (n & _ & ->). apply starts_with_spec. eauto. Qed.
Lemma starts_nth k c l : starts_with (k ++ [c]) l = true -> nth (length k) l c_nul = c.
Proof. intro H. apply starts_with_spec in H as [u ->]. rewrite <- app_assoc, app_nth2, Nat.sub_diag by lia. reflexivity. Qed.
Lemma ctxt_line l : starts_with (bs "msgctxt") l = true -> m_line l /\ ~ sticky l /\ starts_with (bs "msgid") l = false.
Proof.
  intro H. assert (M : m_line l) by (eapply starts_m; exact H). split; [exact M|]. split.
  - apply m_sticky; [exact M|]. intros rest F. apply form_starts in F. rewrite (starts_not _ _ _ H) in F; [discriminate|reflexivity|cbn; lia].
  - apply (starts_not _ _ _ H); [reflexivity|cbn; lia].
Qed.
Lemma id_line st pd b5 l : starts_with (bs "msgid") l = true -> shape (pfirst st pd b5 5 l) = 0 ->
  m_line l /\ ~ sticky l /\ starts_with (bs "msgid_plural") l = false /\ starts_with (bs "msgstr") l = false.
Proof.
  intros H F. assert (M : m_line l) by (eapply starts_m; exact H). split; [exact M|].
  assert (S1 : starts_with (bs "msgs") l = false) by (apply (starts_not _ _ _ H); [reflexivity|cbn; lia]).
  assert (S2 : forall k, starts_with (bs "msgs" ++ k) l = false).
  { intro k. destruct (starts_with (bs "msgs" ++ k) l) eqn:E; [|reflexivity]. apply starts_with_spec in E as [u ->]. rewrite <- S1. symmetry. apply starts_with_spec.
    exists (k ++ u). now rewrite app_assoc. }
  split; [|split; [|apply (S2 (bs "tr"))]].
  - apply m_sticky; [exact M|]. intros rest X. apply form_starts in X. pose proof (S2 (bs "tr[")) as Y. change (starts_with (bs "msgstr[") l = false) in Y. congruence.
  - destruct (starts_with (bs "msgid_plural") l) eqn:E; [|reflexivity]. exfalso. apply starts_with_spec in E as [u ->].
    apply pfirst_next in F. cbn [bs list_ascii_of_string app nth] in F. destruct F as [F|F]; discriminate F.
Qed.
Lemma plural_line st l : starts_with (bs "msgid_plural") l = true ->
  m_line l /\ ~ sticky l /\ pmsgstr_n st l = Some false.
Proof.
  intros H. assert (M : m_line l) by (eapply starts_m; exact H). split; [exact M|].
  assert (S1 : starts_with (bs "msgstr[") l = false) by (apply (starts_not _ _ _ H); [reflexivity|cbn; lia]). split.
  - apply m_sticky; [exact M|]. intros rest X. apply form_starts in X. congruence.
  - unfold pmsgstr_n. rewrite S1. reflexivity.
Qed.
Lemma str_line st pd b5 l : starts_with (bs "msgstr") l = true -> shape (pfirst st pd b5 6 l) = 0 -> m_line l /\ ~ sticky l.
Proof.
  intros H F. assert (M : m_line l) by (eapply starts_m; exact H). split; [exact M|].
  apply m_sticky; [exact M|]. intros rest X. apply form_starts in X. apply starts_with_spec in X as [u ->].
  apply pfirst_next in F. cbn [bs list_ascii_of_string app nth] in F. destruct F as [F|F]; discriminate F.
Qed.

(** the BIG5 flag is changed by the header only *)
Lemma get_string_big5 cf fn k (t : pst (cf_iconv cf)) a t' : get_string cf fn k t = (Ret a, t') -> p_big5 t' = p_big5 t.
Proof.
  intro E. assert (T : tri cf (fun s => p_big5 s = p_big5 t) (fun _ s => p_big5 s = p_big5 t) (get_string cf fn k)).
  { eapply tri_get_string; try exact true;
    first [ now (intros s H; nx s; now rewrite Nb) | now (intros; assumption) | now auto | idtac ].
  }
  specialize (T t eq_refl). rewrite E in T. exact T.
Qed.

(** ** The two runs *)
Section Open.
  Variable cf : config.
  Variable fn : bytes.
  Variable x : bytes.      (* the last line *)
  Variable N : Z.          (* its number *)
  Local Notation I := (cf_iconv cf).
  Local Notation P := (M (pst I)).
  Local Notation st := (cf_strict cf).
  Local Open Scope mon_scope.

  Local Notation sticky := (sticky x).
  Local Notation requoted := (requoted fn (N + 1) x).
  Local Notation warn_at := (warning_at fn).
  Definition twin (i : istream) (t : pst I) : pst I := st_line t i (p_cur t) (p_eof t) (p_line t).
  (** before the last line *)
  Definition phA (i : istream) (t : pst I) : Prop :=
    x <> [] /\ one_line x /\ exists ls, Forall one_line ls /\ i = stream_of (unlines ls ++ x) /\
      p_in t = stream_of (unlines ls ++ x ++ [c_lf]) /\ (p_line t + len ls + 1 = N)%Z.
  (** the last line is the current one *)
  Definition phB (i : istream) (t : pst I) : Prop :=
    one_line x /\ i = {| is_rest := []; is_eof := true; is_fail := false; is_break := false |} /\ p_in t = stream_of [] /\ p_cur t = x /\ p_line t = N.
  Definition Rel (s t : pst I) : Prop := exists i, s = twin i t /\ p_eof t = false /\ (phA i t \/ phB i t).
  (** behind it: the first run still has it *)
  Definition TC (t : pst I) : Prop := p_cur t = [] /\ p_eof t = true /\ is_good (p_in t) = false /\ p_line t = (N + 1)%Z.
  Definition odd0 (s t : pst I) : Prop := exists i, is_good i = false /\ s = st_line t i x true (p_line t) /\ TC t.
  Definition odd1 (s t : pst I) : Prop :=
    exists i tr, is_good i = false /\ s = st_tr (st_line t i x true (p_line t)) tr /\ TC t /\ Forall2 requoted (p_tr t) tr.

  Lemma requoted_refl l : Forall2 requoted l l.
  Proof. induction l; constructor; [left; reflexivity|assumption]. Qed.
  Lemma odd0_odd1 s t : odd0 s t -> odd1 s t.
  Proof. intros (i & H1 & -> & H2). exists i, (p_tr t). split; [exact H1|]. split; [reflexivity|]. split; [exact H2|apply requoted_refl]. Qed.

  Lemma rel_fields s t : Rel s t -> p_cur s = p_cur t /\ p_big5 s = p_big5 t /\ p_eof s = false /\ p_eof t = false /\ p_dict s = p_dict t /\
    p_conv s = p_conv t /\ p_calls s = p_calls t /\ p_tr s = p_tr t /\ p_line s = p_line t.
  Proof. intros (i & -> & H & _). cbn. auto 10. Qed.
  Lemma rel_next s t : Rel s t ->
    Rel (nextst s) (nextst t) \/ (p_cur t = x /\ is_good (p_in s) = false /\ odd0 (nextst s) (nextst t)).
  Proof.
    intros (i & -> & He & [(Hx & Ho & ls & Hl & -> & Hi & Hn)|(Ho & -> & Hi & Hc & Hn)]).
    - left. destruct ls as [|l ls].
      + cbn [unlines app] in *. exists {| is_rest := []; is_eof := true; is_fail := false; is_break := false |}. unfold nextst, twin. cbn [p_in st_line p_cur]. rewrite Hi.
        rewrite getline_last by assumption. rewrite getline_line by assumption. cbn [st_line p_cur p_eof p_line p_in p_dict p_big5 p_conv p_tr p_calls]. rewrite He.
        split; [reflexivity|]. split; [reflexivity|]. right. split; [exact Ho|]. split; [reflexivity|]. split; [reflexivity|]. split; [reflexivity|].
        cbn [length] in Hn. cbn [p_line st_line]. lia.
      + cbn [unlines app] in *. inversion Hl as [|? ? Hl1 Hl2]; subst. exists (stream_of (unlines ls ++ x)). unfold nextst, twin. cbn [p_in st_line p_cur]. rewrite Hi.
        rewrite <- !app_assoc. cbn [app]. rewrite !getline_line by assumption. cbn [st_line p_cur p_eof p_line p_in p_dict p_big5 p_conv p_tr p_calls]. rewrite He.
        split; [reflexivity|]. split; [reflexivity|]. left. split; [exact Hx|]. split; [exact Ho|]. exists ls. split; [exact Hl2|]. split; [reflexivity|]. split; [reflexivity|].
        cbn [length p_line st_line] in *. lia.
    - right. split; [exact Hc|]. split; [reflexivity|]. exists {| is_rest := []; is_eof := true; is_fail := true; is_break := false |}. split; [reflexivity|].
      unfold nextst, twin, TC. cbn [p_in st_line p_cur]. rewrite Hi. rewrite (getline_bad {| is_rest := []; is_eof := true; is_fail := false; is_break := false |}) by reflexivity.
      cbn. rewrite Hc, Hn. auto.
  Qed.
  Lemma rel_warned w s t : Rel s t -> Rel (warned cf fn w s) (warned cf fn w t).
  Proof. intros (i & -> & He & H). exists i. auto. Qed.
  Lemma rel_warned_all ws : forall s t, Rel s t -> Rel (warned_all cf fn ws s) (warned_all cf fn ws t).
  Proof. induction ws as [|w ws IH]; intros s t H; [exact H|]. cbn [warned_all]. apply IH. now apply rel_warned. Qed.
  Lemma closed_rel : closed cf fn Rel.
  Proof.
    split; [intros s t (i & -> & _); reflexivity|intros s t (i & -> & _); reflexivity|intros s t w (i & -> & He & H)|intros s t w (i & -> & He & H)|
      intros s t w (i & -> & He & H)|intros s t w (i & -> & He & H)|intros s t (i & -> & He & H)]; exists i; auto.
  Qed.
  Lemma closed_odd1 : closed cf fn odd1.
  Proof.
    split; intros s t.
    - intros (i & tr & _ & -> & _). reflexivity.
    - intros (i & tr & _ & -> & _). reflexivity.
    - intros w (i & tr & H1 & -> & H2 & H3). destruct H2 as (C1 & C2 & C3 & C4). eexists i, _. split; [exact H1|]. split; [reflexivity|]. split; [repeat split; assumption|].
      cbn [warned st_tr p_tr st_line p_line p_cur]. apply Forall2_app; [exact H3|]. constructor; [|constructor]. right. exists w. rewrite C1, C4. split; reflexivity.
    - intros e (i & tr & H1 & -> & H2 & H3). exists i, (tr ++ e). split; [exact H1|]. split; [reflexivity|]. split; [exact H2|]. apply Forall2_app; [exact H3|apply requoted_refl].
    - intros c (i & tr & H1 & -> & H2 & H3). exists i, tr. auto.
    - intros c (i & tr & H1 & -> & H2 & H3). exists i, tr. auto.
    - intros (i & tr & H1 & -> & H2 & H3). exists i, tr. auto.
  Qed.
  Definition TT (s t : pst I) : Prop := s = t /\ TC t.
  Lemma closed_TT : closed cf fn TT.
  Proof.
    split; [intros s t [-> H]; reflexivity|intros s t [-> H]; reflexivity|intros s t w [-> H]|intros s t w [-> H]|intros s t w [-> H]|intros s t w [-> H]|intros s t [-> H]];
      (split; [reflexivity|exact H]).
  Qed.

  (** ... and read on once more *)
  Definition TD (t : pst I) : Prop := p_eof t = true /\ p_line t = (N + 2)%Z.
  (** ** Lock step *)
  Definition lost {A} (r : outcome A * pst I) : Prop := fst r = OutOfFuel \/ fst r = AssertFail /\ cf_ndebug cf = false.
  Definition nofin {A} (r : outcome A * pst I) : Prop := match fst r with Ret _ | Exn ExPo => False | _ => True end.
  Definition over (s t : pst I) : Prop :=
    p_eof s = true /\ p_eof t = true /\ p_dict s = p_dict t /\ p_calls s = p_calls t /\ p_conv s = p_conv t.
  Definition silent (s t : pst I) : Prop := over s t /\ p_tr s = p_tr t /\ p_line t = (N + 1)%Z.
  Definition noisy (s t : pst I) : Prop := over s t /\ p_line t = (N + 2)%Z /\ ~ sticky /\
    exists a m, p_tr t = a ++ [mistake fn (N + 1) m []] /\ p_tr s = a ++ [mistake fn (N + 1) (reworded m) x].
  Definition lk {A} (Q : A -> pst I -> pst I -> Prop) (m : P A) (s t : pst I) : Prop :=
    match m t with
    | (Ret a, t') => (exists s', m s = (Ret a, s') /\ Q a s' t') \/ (lost (m s) /\ sticky /\ TC t')
    | (Exn ExPo, t') => (exists s', m s = (Exn ExPo, s') /\ (Rel s' t' \/ silent s' t' \/ noisy s' t')) \/
                        (lost (m s) /\ sticky /\ TD t')
    | _ => nofin (m s)
    end.
  (** the second run alone, behind the last line *)
  Definition tside {A} (m : P A) (t : pst I) : Prop :=
    match m t with
    | (Ret _, t') => TC t'
    | (Exn ExPo, t') => TD t'
    | _ => True
    end.
  Lemma lost_bind A B (m : P A) (f : A -> P B) s : lost (m s) -> lost (mbind m f s).
  Proof. unfold lost, mbind. destruct (m s) as [o s']. cbn [fst]. intros [->|[-> H]]; cbn; auto. Qed.
  Lemma nofin_bind A B (m : P A) (f : A -> P B) s : nofin (m s) -> nofin (mbind m f s).
  Proof. unfold nofin, mbind. destruct (m s) as [[a|[]|u| |] s']; cbn [fst]; auto; contradiction. Qed.
  Lemma lost_nofin A (r : outcome A * pst I) : lost r -> nofin r.
  Proof. unfold lost, nofin. intros [->|[-> _]]; exact Logic.I. Qed.
  Lemma lk_bind A B (Q : A -> pst I -> pst I -> Prop) (Q2 : B -> pst I -> pst I -> Prop) (m : P A) (f : A -> P B) s t :
    lk Q m s t -> (forall a s' t', m t = (Ret a, t') -> Q a s' t' -> lk Q2 (f a) s' t') -> (forall a t', m t = (Ret a, t') -> TC t' -> tside (f a) t') ->
    lk Q2 (mbind m f) s t.
  Proof.
    intros Hm Hf Ht. unfold lk, tside in *. unfold mbind at 1. destruct (m t) as [[a|[]|u| |] t'] eqn:E1; try (now apply nofin_bind).
    - destruct Hm as [(s' & E & HQ)|(Hl & Hs & HT)].
      + specialize (Hf a s' t' eq_refl HQ). assert (X : mbind m f s = f a s') by (unfold mbind; rewrite E; reflexivity). rewrite X. exact Hf.
      + specialize (Ht a t' eq_refl HT). apply (lost_bind _ _ _ f) in Hl. destruct (f a t') as [[b|[]|u| |] t2]; auto; now apply lost_nofin.
    - destruct Hm as [(s' & E & HQ)|(Hl & Hs & HT)].
      + left. exists s'. unfold mbind. rewrite E. auto.
      + right. split; [now apply lost_bind|]. auto.
  Qed.
  Lemma lk_ret A (Q : A -> pst I -> pst I -> Prop) a s t : Q a s t -> lk Q (mret a) s t.
  Proof. intro H. left. exists s. auto. Qed.
  Lemma lk_weak A (Q Q' : A -> pst I -> pst I -> Prop) m s t : (forall a s t, Q a s t -> Q' a s t) -> lk Q m s t -> lk Q' m s t.
  Proof. intros H. unfold lk. destruct (m t) as [[a|[]|u| |] t']; auto. intros [(s' & E & HQ)|X]; [left; exists s'; auto|auto]. Qed.
  Lemma lk_step2 A (RR : pst I -> pst I -> Prop) (m : P A) s t : step2 cf RR m -> (forall s, fst (m s) <> Exn ExPo) -> RR s t -> lk (fun _ => RR) m s t.
  Proof.
    intros H He HR. destruct (H s t HR) as [H1 H2]. unfold lk, nofin. specialize (He t). destruct (m s) as [o s'], (m t) as [o' t']. cbn [fst snd] in *. subst o'.
    destruct o as [a|[]|u| |]; try exact Logic.I; [left; exists s'; auto|contradiction].
  Qed.
  (** a step that looks at the current line only *)
  Lemma lk_opt A B (Q : B -> pst I -> pst I -> Prop) (m : P A) (g : bytes -> option A) (f : A -> P B) s t :
    (forall s, m s = run_opt cf (g (p_cur s)) s) -> p_cur s = p_cur t -> (forall a, g (p_cur t) = Some a -> lk Q (f a) s t) -> lk Q (mbind m f) s t.
  Proof.
    intros Hm Hc Hf. unfold lk, mbind. rewrite !Hm, Hc. destruct (g (p_cur t)) as [a|]; cbn [run_opt]; [apply Hf; reflexivity|exact Logic.I].
  Qed.
  Lemma lk_empty B (Q : B -> pst I -> pst I -> Prop) (f : bool -> P B) s t : p_cur s = p_cur t ->
    (forall a, pempty st (p_cur t) = Some a -> lk Q (f a) s t) -> lk Q (mbind (is_empty_line cf) f) s t.
  Proof. apply (lk_opt _ _ _ _ (fun c => pempty st c)). apply is_empty_line_eq. Qed.
  Lemma lk_get A B (Q : B -> pst I -> pst I -> Prop) (g : pst I -> A) (f : A -> P B) s t :
    g s = g t -> lk Q (f (g t)) s t -> lk Q (mbind (mget g) f) s t.
  Proof. intros Hg Hf. unfold lk. rewrite !mget_bind, Hg. exact Hf. Qed.

  (** *** mistakes *)
  Lemma recover_rel f : forall s t, Rel s t -> enough cf f s -> enough cf f t -> match recover cf f t with
    | (Ret _, t') => exists s', recover cf f s = (Ret tt, s') /\ (Rel s' t' \/ silent s' t')
    | (Exn ExPo, _) => False
    | _ => nofin (recover cf f s)
    end.
  Proof.
    induction f as [|f IH]; intros s t H E1 E2; [apply enough_pos in E1; lia|]. rewrite !recover_S, !mget_bind.
    destruct (rel_next _ _ H) as [Hn|(Hc & Hg & Ho)].
    - destruct (rel_fields _ _ Hn) as (F1 & F2 & F3 & F4 & F5 & F6 & F7 & F8 & F9). rewrite F3, F4. unfold mbind. rewrite !is_empty_line_eq, F1.
      destruct (pempty st (p_cur (nextst t))) as [[]|]; cbn [run_opt]; unfold mret, mfail; cbv beta iota; [exists (nextst s); auto| |exact Logic.I].
      apply IH; [exact Hn|now apply enough_step|now apply enough_step].
    - destruct Ho as (i & Hi & Es & C1 & C2 & C3 & C4). rewrite Es, C2. cbn [p_eof st_line]. unfold mret. eexists. split; [reflexivity|]. right.
      split; [|split; [reflexivity|exact C4]]. repeat split; assumption.
  Qed.
  Lemma enough_more f f' (s : pst I) : enough cf f s -> f <= f' -> enough cf f' s.
  Proof. unfold enough. destruct (is_good _); lia. Qed.
  Lemma recover_more f : forall f' (s : pst I), enough cf f s -> f <= f' -> recover cf f' s = recover cf f s.
  Proof.
    induction f as [|f IH]; intros f' s He Hf; [apply enough_pos in He; lia|]. destruct f' as [|f']; [lia|]. rewrite !recover_S, !mget_bind.
    destruct (p_eof (nextst s)) eqn:E; [reflexivity|]. unfold mbind. rewrite !is_empty_line_eq. destruct (pempty _ _) as [[]|]; cbn [run_opt]; unfold mret, mfail; cbv beta iota; try reflexivity.
    apply IH; [now apply enough_step|lia].
  Qed.
  Lemma error_rel A msg s t : Rel s t -> match @error cf fn A msg t with
    | (Ret _, _) => False
    | (Exn ExPo, t') => exists s', @error cf fn A msg s = (Exn ExPo, s') /\ (Rel s' t' \/ silent s' t')
    | _ => nofin (@error cf fn A msg s)
    end.
  Proof.
    intro H. unfold error. rewrite !mget_bind. unfold emit. rewrite !mmod_bind.
    destruct (rel_fields _ _ H) as (F1 & _ & _ & _ & _ & _ & _ & F8 & F9).
    set (ev := [EvLog _]). set (ev' := [EvLog _]). assert (Hev : ev = ev') by (unfold ev, ev'; rewrite F1, F9; reflexivity). clearbody ev ev'. subst ev'. rewrite F8.
    set (f := S (S (length (is_rest (p_in s))))). set (f' := S (S (length (is_rest (p_in t))))).
    assert (H1 : Rel (st_tr s (p_tr t ++ ev)) (st_tr t (p_tr t ++ ev))).
    { rewrite <- F8 at 1. now apply (RR_emit _ _ _ closed_rel). }
    assert (E1 : enough cf f (st_tr s (p_tr t ++ ev))) by apply error_enough.
    assert (E2 : enough cf f' (st_tr t (p_tr t ++ ev))) by apply error_enough.
    unfold mbind. rewrite <- (recover_more f (f + f') _ E1) by lia. rewrite <- (recover_more f' (f + f') _ E2) by lia.
    pose proof (recover_rel (f + f') _ _ H1 (enough_more _ _ _ E1 (Nat.le_add_r _ _)) (enough_more _ _ _ E2 (Nat.le_add_l _ _))) as R.
    destruct (recover cf (f + f') (st_tr t (p_tr t ++ ev))) as [[[]|[]|u| |] t'];
      try (revert R; unfold nofin; destruct (recover cf (f + f') _) as [[a|[]|u'| |] s']; cbn; now auto).
    - destruct R as (s' & -> & R). unfold mfail. exists s'. auto.
  Qed.
  Lemma lk_error A (Q : A -> pst I -> pst I -> Prop) msg s t : Rel s t -> lk Q (error cf fn msg) s t.
  Proof.
    intro H. pose proof (error_rel A msg s t H) as E. unfold lk. destruct (@error cf fn A msg t) as [[a|[]|u| |] t']; auto; [contradiction|].
    destruct E as (s' & -> & E). left. exists s'. split; [reflexivity|]. destruct E; auto.
  Qed.
  (** behind the last line *)
  Lemma error_end A msg (s : pst I) : is_good (p_in s) = false ->
    @error cf fn A msg s = (Exn ExPo, nextst (st_tr s (p_tr s ++ [mistake fn (p_line s) msg (p_cur s)]))).
  Proof.
    intro G. unfold error. rewrite mget_bind. unfold emit. rewrite mmod_bind. unfold mbind. rewrite recover_S, mget_bind.
    set (s1 := st_tr s _). destruct (next_bad cf s1 G) as (_ & _ & E). rewrite E. reflexivity.
  Qed.
  Lemma error_noisy A msg msg' s t : odd0 s t -> msg = reworded msg' -> ~ sticky ->
    exists s' t', @error cf fn A msg s = (Exn ExPo, s') /\ @error cf fn A msg' t = (Exn ExPo, t') /\ noisy s' t'.
  Proof.
    intros (i & Hi & -> & C1 & C2 & C3 & C4) -> Hs. eexists _, _. split; [apply error_end; exact Hi|]. split; [apply error_end; exact C3|].
    unfold nextst at 1 2. cbn [p_in st_tr st_line p_cur]. rewrite (getline_bad i) by exact Hi. rewrite (getline_bad (p_in t)) by exact C3.
    split; [repeat split; reflexivity|]. cbn. rewrite C4. split; [lia|]. split; [exact Hs|]. exists (p_tr t), msg'. rewrite C1. auto.
  Qed.
  Lemma tside_error A msg t : TC t -> tside (@error cf fn A msg) t.
  Proof. intros (C1 & C2 & C3 & C4). unfold tside. rewrite error_end by exact C3. unfold nextst. rewrite (getline_bad _ _ C3). unfold TD. cbn. rewrite C4. split; [reflexivity|lia]. Qed.
  Lemma tside_bind A B (m : P A) (f : A -> P B) t : tside m t -> (forall a t', TC t' -> tside (f a) t') -> tside (mbind m f) t.
  Proof. intros Hm Hf. unfold tside, mbind in *. destruct (m t) as [[a|[]|u| |] t']; auto. now apply Hf. Qed.
  Lemma tside_step2 A (m : P A) t : step2 cf TT m -> (forall s, fst (m s) <> Exn ExPo) -> TC t -> tside m t.
  Proof.
    intros H He HT. destruct (H t t (conj eq_refl HT)) as [_ [_ H2]]. unfold tside. specialize (He t). destruct (m t) as [[a|[]|u| |] t']; try exact Logic.I; [exact H2|].
    contradiction.
  Qed.
  Lemma calm_exn A (m : P A) : ParserTerm.calm cf m -> forall s, fst (m s) <> Exn ExPo.
  Proof. intros H s. apply H. Qed.

  (** *** comments *)
  Lemma rel_one s t : Rel s t -> one_line x.
  Proof. intros (i & _ & _ & [(_ & H & _)|(H & _)]); exact H. Qed.
  Lemma lk_next B (Q : B -> pst I -> pst I -> Prop) (f : unit -> P B) s t :
    lk Q (f tt) (nextst s) (nextst t) -> lk Q (mbind (next_line cf) f) s t.
  Proof. intro H. exact H. Qed.
  Lemma lk_fuel A (Q : A -> pst I -> pst I -> Prop) s t : lk Q (mfail OutOfFuel) s t.
  Proof. exact Logic.I. Qed.
  Lemma lk_comments f : forall fz s t, Rel s t -> lk (fun _ => Rel) (comments cf f fz) s t.
  Proof.
    induction f as [|f IH]; intros fz s t H; [apply lk_fuel|]. cbn [comments]. destruct (rel_fields _ _ H) as (F1 & _).
    unfold prefix. apply lk_get; [now rewrite F1|]. destruct (starts_with [c_hash] (p_cur t)) eqn:Eh; [|apply lk_ret; exact H].
    apply lk_get; [exact F1|]. cbv zeta. apply lk_next. match goal with |- lk _ (comments _ _ ?b) _ _ => set (fz' := b) end. destruct (rel_next _ _ H) as [Hn|(Hc & _ & Ho)]; [now apply IH|].
    destruct Ho as (i & Hi & Es & HT). pose proof HT as (C1 & C2 & C3 & C4). rewrite Es. set (t' := nextst t) in *.
    assert (L : lost (comments cf f fz' (st_line t' i x true (p_line t')))).
    { left. apply stuck_comments; [exact Hi|]. cbn [p_cur st_line]. rewrite <- Hc. exact Eh. }
    assert (Sx : sticky). { left. rewrite Hc in Eh. apply starts_with_spec in Eh as [u E]. exists u. split; [exact E|]. pose proof (rel_one _ _ H) as O. rewrite E in O. intro X. apply O. right. exact X. }
    destruct f as [|f]; [exact Logic.I|]. unfold lk. remember (comments cf (S f) fz' (st_line t' i x true (p_line t'))) as r. cbn [comments]. unfold prefix. rewrite mget_bind, C1.
    cbn [starts_with]. unfold mret. right. auto.
  Qed.

  (** *** strings *)
  Definition cont_ok (b5 : bool) (l : bytes) : Prop :=
    pquote st 0 l = Some None \/ exists i, pquote st 0 l = Some (Some i) /\ shape (pline st b5 [] i l) = 0.
  Lemma lk_lex A B (Q : B -> pst I -> pst I -> Prop) (m : P A) (g : bool -> bytes -> lexres A) (f : A -> P B) s t :
    (forall s, m s = run_lex cf fn (g (p_big5 s) (p_cur s)) s) -> Rel s t ->
    (forall ws a, g (p_big5 t) (p_cur t) = LOk ws a -> lk Q (f a) (warned_all cf fn ws s) (warned_all cf fn ws t)) -> lk Q (mbind m f) s t.
  Proof.
    intros Hm H Hf. destruct (rel_fields _ _ H) as (F1 & F2 & _).
    assert (X : forall s' t', s' = s -> t' = t -> lk Q (mbind (run_lex cf fn (g (p_big5 t) (p_cur t))) f) s' t' -> lk Q (mbind m f) s t).
    { intros s' t' -> ->. unfold lk, mbind. rewrite !Hm, F1, F2. auto. }
    apply (X s t eq_refl eq_refl). clear X. destruct (g (p_big5 t) (p_cur t)) as [ws a|ws msg|ws].
    - specialize (Hf ws a eq_refl). unfold lk in *. unfold mbind in *. rewrite !run_lex_eq. exact Hf.
    - pose proof (lk_error B Q msg _ _ (rel_warned_all ws _ _ H)) as E. rewrite <- !(error_never_returns cf fn msg _ f) in E || idtac.
      unfold lk in *. unfold mbind. rewrite !run_lex_eq. unfold lk in E.
      assert (Y : forall u : pst I, (let (o, s') := @error cf fn A msg u in match o with Ret a => f a s' | Exn e => (Exn e, s') | Ub u => (Ub u, s') | AssertFail => (AssertFail, s') | OutOfFuel => (OutOfFuel, s') end) = @error cf fn B msg u).
      { intro u. unfold error, mbind, mget, emit, mmod. destruct (recover cf _ _) as [[[]|[]|?| |] ?]; reflexivity. }
      rewrite !Y. exact E.
    - unfold lk, mbind. rewrite !run_lex_eq. exact Logic.I.
  Qed.
  Lemma quote_continues i : pquote st 0 x = Some (Some i) -> continues x.
  Proof. intro H. apply pquote_lax in H. apply pquote_inv in H as (w & r & E & Hw & _). exists w, r. auto. Qed.
  Lemma lk_continuation f : forall out s t, Rel s t -> cont_ok (p_big5 t) (p_cur t) ->
    lk (fun _ s' t' => Rel s' t' \/ (odd0 s' t' /\ p_cur t = x /\ pquote st 0 x = Some None)) (continuation cf fn f out) s t.
  Proof.
    induction f as [|f IH]; intros out s t H Hk; [apply lk_fuel|]. destruct (rel_next _ _ H) as [Hn|(Hc & Hg & Ho)].
    - cbn [continuation]. apply lk_next. destruct (rel_fields _ _ Hn) as (F1 & F2 & _). apply lk_get; [exact F1|].
      apply (lk_opt _ _ _ _ (fun _ => pquote st 0 (p_cur (nextst t)))); [intro u; apply find_quote_eq|exact F1|]. intros q Eq.
      destruct q as [i|]; [|apply lk_ret; left; exact Hn].
      assert (W : forall s2 t2, Rel s2 t2 -> p_cur t2 = p_cur (nextst t) -> lk (fun _ s' t' => Rel s' t' \/ (odd0 s' t' /\ p_cur t = x /\ pquote st 0 x = Some None))
         (mbind (get_string_line cf fn out i) (continuation cf fn f)) s2 t2).
      { intros s2 t2 H2 Hc2. apply (lk_lex _ _ _ _ (fun b5 c => pline st b5 out i c)); [intro u; apply get_string_line_eq|exact H2|]. intros ws a Ea.
        eapply lk_weak; [|apply IH; [apply rel_warned_all; exact H2|]].
        - cbv beta. intros _ s' t' [R|(_ & Ex & En)]; [left; exact R|]. exfalso. rewrite warned_cur, Hc2 in Ex. rewrite Ex in Eq. congruence.
        - right. exists i. rewrite warned_cur, warned_big5, Hc2. split; [exact Eq|]. rewrite (pline_shape st (p_big5 t2) i _ [] out), <- Hc2, Ea. reflexivity. }
      apply lk_bind with (Q := fun _ s2 t2 => Rel s2 t2 /\ p_cur t2 = p_cur (nextst t)).
      + destruct (_ && _); [|apply lk_ret; auto]. unfold lk. rewrite !warning_eq. left. eexists. split; [reflexivity|]. split; [now apply rel_warned|reflexivity].
      + intros [] s2 t2 _ [H2 H3]. now apply W.
      + intros [] t2 E2 (C1 & _). exfalso. assert (X : p_cur t2 = p_cur (nextst t)) by (destruct (_ && _); [rewrite warning_eq in E2|]; injection E2 as <-; reflexivity).
        rewrite C1 in X. rewrite <- X in Eq. discriminate.
    - destruct Ho as (i & Hi & Es & HT). pose proof HT as (C1 & C2 & C3 & C4).
      assert (ET : continuation cf fn (S f) out t = (Ret out, nextst t)) by (apply continuation_stop; rewrite C1; reflexivity).
      unfold lk. rewrite ET. destruct (rel_fields _ _ H) as (F1 & F2 & _). destruct Hk as [Hk|(j & Hj & Hp)]; rewrite Hc in *.
      + left. exists (nextst s). split; [apply continuation_stop; rewrite Es; exact Hk|]. right. split; [exists i; auto|]. auto.
      + right. split; [left; apply (stuck_continuation _ _ _ _ j); [exact Hg|rewrite F1; exact Hj|rewrite F1, F2; exact Hp]|]. split; [right; left; now apply quote_continues with j|exact HT].
  Qed.
  Lemma lk_get_string k s t : Rel s t -> pquote st 0 (p_cur t) = Some None ->
    lk (fun _ s' t' => Rel s' t' \/ (odd0 s' t' /\ p_cur t = x /\ shape (pfirst st (cf_pedantic cf) (p_big5 t) k x) = 0)) (get_string cf fn k) s t.
  Proof.
    intros H Hq. unfold lk. rewrite !get_string_eq. destruct (rel_fields _ _ H) as (F1 & F2 & _). rewrite F1, F2.
    assert (L : lk (fun _ s' t' => Rel s' t' \/ (odd0 s' t' /\ p_cur t = x /\ shape (pfirst st (cf_pedantic cf) (p_big5 t) k x) = 0))
       (mbind (run_lex cf fn (pfirst st (cf_pedantic cf) (p_big5 t) k (p_cur t))) (continuation cf fn (cf_fuel cf))) s t); [|exact L].
    apply (lk_lex _ _ _ _ (fun _ _ => pfirst st (cf_pedantic cf) (p_big5 t) k (p_cur t))); [intro; reflexivity|exact H|]. intros ws a Ea.
    eapply lk_weak; [|apply lk_continuation; [apply rel_warned_all; exact H|left; rewrite warned_cur; exact Hq]].
    cbv beta. intros _ s' t' [R|(Ho & Ex & _)]; [left; exact R|]. right. rewrite warned_cur in Ex. rewrite <- Ex, Ea. auto.
  Qed.
  Lemma tside_ret A (a : A) t : TC t -> tside (mret a) t.
  Proof. intro H. exact H. Qed.
  Lemma tside_get A B (g : pst I -> A) (f : A -> P B) t : tside (f (g t)) t -> tside (mbind (mget g) f) t.
  Proof. intro H. exact H. Qed.
  Lemma tside_empty B (f : bool -> P B) t : TC t -> tside (f true) t -> tside (mbind (is_empty_line cf) f) t.
  Proof. intros (C1 & _) H. unfold tside, mbind. rewrite is_empty_line_eq, C1. exact H. Qed.
  Lemma tside_get_string k t : TC t -> tside (get_string cf fn k) t.
  Proof.
    intros HT. pose proof HT as (C1 & _). unfold get_string. apply tside_get. rewrite C1. cbn [length]. now apply tside_error.
  Qed.

  (** *** entries *)
  Lemma tside_msgstr_loop f v b t : TC t -> tside (msgstr_loop cf fn f v b) t.
  Proof.
    intro HT. destruct f as [|f]; [exact Logic.I|]. cbn [msgstr_loop]. apply tside_empty; [exact HT|]. destruct (is_nil v); [now apply tside_error|now apply tside_ret].
  Qed.
  Lemma tside_convert m t : TC t -> tside (do_convert cf m) t.
  Proof. apply tside_step2; [apply (step2_convert cf fn TT closed_TT)|apply calm_exn, calm_convert]. Qed.
  Lemma lk_convert RR m s t : closed cf fn RR -> RR s t -> lk (fun _ => RR) (do_convert cf m) s t.
  Proof. intros HC. apply lk_step2; [apply (step2_convert cf fn RR HC)|apply calm_exn, calm_convert]. Qed.
  Lemma vec_put_ne v n y : is_nil (vec_put v n y) = false.
  Proof. destruct n, v; reflexivity. Qed.
  Lemma lk_msgstr_loop f : forall v b s t, Rel s t -> lk (fun _ => Rel) (msgstr_loop cf fn f v b) s t.
  Proof.
    induction f as [|f IH]; intros v b s t H; [apply lk_fuel|]. cbn [msgstr_loop]. destruct (rel_fields _ _ H) as (F1 & F2 & _).
    apply lk_empty; [exact F1|]. intros [] Ee.
    { destruct (is_nil v); [now apply lk_error|now apply lk_ret]. }
    apply (lk_opt _ _ _ _ (fun c => pmsgstr_n st c)); [apply is_msgstr_n_eq|exact F1|]. intros [] Em; [|now apply lk_error].
    apply lk_get; [exact F1|]. cbv zeta. set (n := N.to_nat _).
    eapply lk_bind; [apply lk_get_string; [exact H|]| |].
    - apply pmsgstr_no_quote, Em.
    - cbv beta. intros msg s1 t1 E1 [R|(Ho & Hx & Hp)].
      + eapply lk_bind; [apply (lk_convert Rel); [apply closed_rel|exact R]| |].
        * cbv beta. intros w s2 t2 _ R2. now apply IH.
        * intros w t2 _ HT. now apply tside_msgstr_loop.
      + destruct Ho as (i & Hi & -> & HT). set (s1 := st_line t1 i x true (p_line t1)).
        unfold lk. unfold mbind at 1. unfold do_convert at 1.
        assert (Hcv : mbind (do_convert cf msg) (fun v0 => msgstr_loop cf fn f (vec_put v n v0) (b || negb (is_nil msg))) s1 =
          (let '(o, c, ev) := convert (cf_ndebug cf) (p_conv t1) msg in
           match o with
           | Ret a => msgstr_loop cf fn f (vec_put v n a) (b || negb (is_nil msg)) (st_tr (st_conv s1 c) (p_tr s1 ++ ev))
           | Exn e => (Exn e, st_tr (st_conv s1 c) (p_tr s1 ++ ev)) | Ub u => (Ub u, st_tr (st_conv s1 c) (p_tr s1 ++ ev))
           | AssertFail => (AssertFail, st_tr (st_conv s1 c) (p_tr s1 ++ ev)) | OutOfFuel => (OutOfFuel, st_tr (st_conv s1 c) (p_tr s1 ++ ev)) end)).
        { unfold mbind, do_convert. change (p_conv s1) with (p_conv t1). destruct (convert _ _ _) as [[o c] ev]. destruct o; reflexivity. }
        rewrite Hcv. clear Hcv. destruct (convert (cf_ndebug cf) (p_conv t1) msg) as [[o c] ev] eqn:Ec. destruct o as [w|e|u| |]; try exact Logic.I.
        2: { exfalso. assert (X : fst (do_convert cf msg t1) <> Exn ExPo) by apply calm_exn, calm_convert. destruct e; try exact Logic.I. all: revert Ec; unfold convert; repeat (match goal with |- context [match ?y with _ => _ end] => destruct y end); intro Ec; try discriminate Ec. }
        destruct f as [|f]; [exact Logic.I|].
        set (s2 := st_tr (st_conv s1 c) (p_tr s1 ++ ev)).
        assert (L : lost (msgstr_loop cf fn (S f) (vec_put v n w) (b || negb (is_nil msg)) s2)).
        { assert (Cd : cv_cd (p_conv t1) <> CdInvalid) by (intro X; unfold convert in Ec; rewrite X in Ec; discriminate).
          assert (Cd2 : cv_cd (p_conv s2) <> CdInvalid).
          { change (p_conv s2) with c. unfold convert in Ec. destruct (cv_cd (p_conv t1)) as [| |id cs] eqn:Ecd; [inversion Ec; subst; congruence|congruence|].
            destruct (ic_conv _ _ _ _) as [[st' out] [e|]]; [destruct e; try destruct (cf_ndebug cf)|]; inversion Ec; subst; simpl; discriminate. }
          destruct (stuck_msgstr cf fn (S f) (vec_put v n w) (b || negb (is_nil msg)) s2) as [X|(X & Y & _)]; [exact Hi|rewrite Hx in Em; exact Em| |exact Cd2|left; exact X|right; auto].
          change (p_big5 s2) with (p_big5 t1). change (p_cur s2) with x. replace (p_big5 t1) with (p_big5 t); [exact Hp|].
          (* the BIG5 flag *) revert E1. clear. intro E1. pose proof (calm_exn) as _. symmetry. eapply get_string_big5. exact E1. }
        assert (Sx : sticky). { right. right. rewrite Hx in Em. apply pmsgstr_lax, form_true in Em as [Em _]. eauto. }
        remember (msgstr_loop cf fn (S f) (vec_put v n w) (b || negb (is_nil msg)) s2) as r eqn:Er in L |- *. clear Er.
        cbn [msgstr_loop]. unfold mbind at 1. rewrite is_empty_line_eq. replace (p_cur (st_tr (st_conv t1 c) (p_tr t1 ++ ev))) with (@nil byte) by (symmetry; apply HT).
        cbn [pempty run_opt]. unfold mret at 1. cbv beta iota. rewrite vec_put_ne. unfold mret. right. split; [exact L|]. split; [exact Sx|exact HT].
    - intros msg t1 _ HT. apply tside_bind; [now apply tside_convert|]. intros w t2 HT2. now apply tside_msgstr_loop.
  Qed.
  Lemma lk_fail A (Q : A -> pst I -> pst I -> Prop) (o : outcome False) s t : o <> Exn ExPo -> lk Q (mfail o) s t.
  Proof. intro H. unfold lk, mfail, nofin. destruct o as [[]|[]|u| |]; try exact Logic.I. contradiction. Qed.
  Lemma tside_add op t : TC t -> tside (dict_add cf op) t.
  Proof. apply tside_step2; [apply (step2_add cf fn TT closed_TT)|]. intro s. unfold dict_add. rewrite mget_bind. cbn. discriminate. Qed.
  Lemma tside_warning w t : TC t -> tside (warning cf fn w) t.
  Proof. intro H. unfold tside. rewrite warning_eq. exact H. Qed.
  Lemma tside_plural fz ctxt msgid t : TC t -> tside (plural_entry cf fn true fz ctxt msgid) t.
  Proof.
    intro HT. unfold plural_entry. apply tside_bind; [now apply tside_get_string|]. intros mp t1 HT1. apply tside_bind; [now apply tside_msgstr_loop|].
    intros r t2 HT2. apply tside_empty; [exact HT2|]. cbn [negb]. destruct (snd r && _); [|now apply tside_ret]. apply tside_get. apply tside_bind; [|intros; now apply tside_add].
    destruct (negb _); [now apply tside_warning|]. destruct (negb _); [now apply tside_warning|now apply tside_ret].
  Qed.
  Definition done (s t : pst I) : Prop := Rel s t \/ (odd1 s t /\ ~ sticky /\ m_line x).
  Lemma odd_cur s t : odd0 s t -> p_cur s = x /\ p_cur t = [].
  Proof. intros (i & _ & -> & C1 & _). auto. Qed.
  Lemma lk_noisy A (Q : A -> pst I -> pst I -> Prop) (m : P A) msg msg' s t : m s = error cf fn msg s -> m t = error cf fn msg' t ->
    odd0 s t -> msg = reworded msg' -> ~ sticky -> lk Q m s t.
  Proof.
    intros E1 E2 Ho Hm Hs. unfold lk. rewrite E1, E2. destruct (error_noisy A msg msg' s t Ho Hm Hs) as (s' & t' & -> & -> & Hn). left. exists s'. auto.
  Qed.
  Lemma lk_plural fz ctxt msgid s t : Rel s t -> starts_with (bs "msgid_plural") (p_cur t) = true ->
    lk (fun _ => done) (plural_entry cf fn true fz ctxt msgid) s t.
  Proof.
    intros H Hs. unfold plural_entry. destruct (plural_line st _ Hs) as (Hm & _ & _).
    eapply lk_bind; [apply lk_get_string; [exact H|now apply m_quote]| |].
    - cbv beta. intros mp s1 t1 _ [R|(Ho & Hx & Hp)].
      + eapply lk_bind; [now apply lk_msgstr_loop| |].
        * cbv beta. intros r s2 t2 _ R2. destruct (rel_fields _ _ R2) as (F1 & F2 & F3 & F4 & F5 & _). apply lk_empty; [exact F1|]. intros [] Ee; cbn [negb]; [|now apply lk_error].
          destruct (snd r && _); [|apply lk_ret; left; exact R2]. apply lk_get; [exact F5|].
          eapply (lk_weak _ (fun _ => Rel)); [intros; left; assumption|]. eapply lk_bind with (Q := fun _ => Rel).
          -- destruct (negb _); [|destruct (negb _)]; [| |now apply lk_ret].
             all: apply lk_step2; [apply (step2_warning cf fn Rel closed_rel)|apply calm_exn, calm_warning|exact R2].
          -- intros _ s3 t3 _ R3. apply lk_step2; [apply (step2_add cf fn Rel closed_rel)|apply calm_exn, calm_add|exact R3].
          -- intros _ t3 _ HT. now apply tside_add.
        * intros r t2 _ HT. apply tside_empty; [exact HT|]. cbn [negb]. destruct (snd r && _); [|now apply tside_ret]. apply tside_get. apply tside_bind; [|intros; now apply tside_add].
          destruct (negb _); [now apply tside_warning|]. destruct (negb _); [now apply tside_warning|now apply tside_ret].
      + rewrite Hx in Hs. destruct (plural_line st _ Hs) as (Hm' & Hns & Hn). destruct (odd_cur _ _ Ho) as [Cs Ct].
        eapply lk_bind with (Q := fun _ _ _ => False); [|intros; contradiction|].
        * destruct (cf_fuel cf) as [|f]; [apply lk_fuel|].
          eapply (lk_noisy _ _ _ (bs "expected 'msgstr[N]'") (bs "expected 'msgstr[N] (0 <= N <= 9)'")); [| |exact Ho|reflexivity|exact Hns].
          -- cbn [msgstr_loop]. unfold mbind. rewrite is_empty_line_eq, Cs, (m_empty _ _ Hm'). cbn [run_opt]. unfold mret at 1. cbv beta iota. rewrite is_msgstr_n_eq, Cs, Hn. reflexivity.
          -- cbn [msgstr_loop]. unfold mbind at 1. rewrite is_empty_line_eq, Ct. reflexivity.
        * intros r t2 _ HT. apply tside_empty; [exact HT|]. cbn [negb]. destruct (snd r && _); [|now apply tside_ret]. apply tside_get. apply tside_bind; [|intros; now apply tside_add].
          destruct (negb _); [now apply tside_warning|]. destruct (negb _); [now apply tside_warning|now apply tside_ret].
    - intros mp t1 _ HT1. apply tside_bind; [now apply tside_msgstr_loop|].
      intros r t2 HT. apply tside_empty; [exact HT|]. cbn [negb]. destruct (snd r && _); [|now apply tside_ret]. apply tside_get. apply tside_bind; [|intros; now apply tside_add].
      destruct (negb _); [now apply tside_warning|]. destruct (negb _); [now apply tside_warning|now apply tside_ret].
  Qed.
  Lemma calm_singular fz ctxt msgid msgstr : ParserTerm.calm cf
    (if is_nil msgid then parse_header cf fn msgstr
     else if negb (is_nil msgstr) && (true || negb fz) then mbind (do_convert cf msgstr) (fun v => dict_add cf (AddSingular ctxt msgid v)) else mret tt).
  Proof.
    destruct (is_nil msgid); [apply calm_header|]. destruct (_ && _); [|apply calm_ret]. apply calm_bind; [apply calm_convert|intros; apply calm_add].
  Qed.
  Lemma lk_singular fz ctxt msgid s t : Rel s t -> starts_with (bs "msgstr") (p_cur t) = true ->
    lk (fun _ => done) (singular_entry cf fn true fz ctxt msgid) s t.
  Proof.
    intros H Hs. unfold singular_entry. assert (Hm : m_line (p_cur t)) by (eapply starts_m; exact Hs).
    eapply lk_bind; [apply lk_get_string; [exact H|now apply m_quote]| |].
    - cbv beta. intros msgstr s1 t1 _ [R|(Ho & Hx & Hp)].
      + eapply (lk_weak _ (fun _ => Rel)); [intros; left; assumption|].
        apply lk_step2; [apply (step2_singular cf fn Rel closed_rel)|apply calm_exn, calm_singular|exact R].
      + rewrite Hx in Hs. destruct (str_line _ _ _ _ Hs Hp) as (Hm' & Hns).
        eapply (lk_weak _ (fun _ => odd1)); [intros; right; auto|].
        apply lk_step2; [apply (step2_singular cf fn odd1 closed_odd1)|apply calm_exn, calm_singular|now apply odd0_odd1].
    - intros msgstr t1 _ HT. apply tside_step2; [apply (step2_singular cf fn TT closed_TT)|apply calm_exn, calm_singular|exact HT].
  Qed.
  Lemma tside_singular fz ctxt msgid t : TC t -> tside (singular_entry cf fn true fz ctxt msgid) t.
  Proof.
    intro HT. unfold singular_entry. apply tside_bind; [now apply tside_get_string|]. intros msgstr t1 HT1.
    apply tside_step2; [apply (step2_singular cf fn TT closed_TT)|apply calm_exn, calm_singular|exact HT1].
  Qed.
  Lemma lk_prefix B (Q : B -> pst I -> pst I -> Prop) kw (f : bool -> P B) s t : p_cur s = p_cur t ->
    lk Q (f (starts_with kw (p_cur t))) s t -> lk Q (mbind (prefix cf kw) f) s t.
  Proof. intros Hc H. unfold prefix. apply lk_get; [now rewrite Hc|exact H]. Qed.
  Lemma tside_prefix B kw (f : bool -> P B) t : TC t -> tside (f (starts_with kw [])) t -> tside (mbind (prefix cf kw) f) t.
  Proof. intros (C1 & _) H. unfold prefix. apply tside_get. rewrite C1. exact H. Qed.
  (** the part of an entry from its msgid on *)
  Definition entry1 (fz : bool) (ctxt : option bytes) : P unit :=
    hi_ <- prefix cf (bs "msgid");;
    msgid <- (if hi_ then get_string cf fn 5 else error cf fn (bs "expected 'msgid'"));;
    hp <- prefix cf (bs "msgid_plural");;
    if hp then plural_entry cf fn true fz ctxt msgid
    else
      hs <- prefix cf (bs "msgstr");;
      if hs then singular_entry cf fn true fz ctxt msgid
      else error cf fn (bs "expected 'msgstr' or 'msgid_plural'").
  Lemma tside_entry2 fz ctxt msgid t : TC t -> tside (hp <- prefix cf (bs "msgid_plural");;
    if hp then plural_entry cf fn true fz ctxt msgid
    else
      hs <- prefix cf (bs "msgstr");;
      if hs then singular_entry cf fn true fz ctxt msgid
      else error cf fn (bs "expected 'msgstr' or 'msgid_plural'")) t.
  Proof. intro HT. apply tside_prefix; [exact HT|]. change (starts_with (bs "msgid_plural") []) with false. cbv iota. apply tside_prefix; [exact HT|]. apply tside_error, HT. Qed.
  Lemma tside_entry1 fz ctxt t : TC t -> tside (entry1 fz ctxt) t.
  Proof.
    intro HT. unfold entry1. apply tside_prefix; [exact HT|]. apply tside_bind; [now apply tside_error|]. intros msgid t1 HT1. now apply tside_entry2.
  Qed.
  Lemma error_bind A B msg (f : A -> P B) s : mbind (@error cf fn A msg) f s = @error cf fn B msg s.
  Proof. unfold error, mbind, mget, emit, mmod. destruct (recover cf _ _) as [[[]|[]|?| |] ?]; reflexivity. Qed.
  Lemma lk_entry1 fz ctxt s t : Rel s t -> lk (fun _ => done) (entry1 fz ctxt) s t.
  Proof.
    intro H. unfold entry1. destruct (rel_fields _ _ H) as (F1 & _). apply lk_prefix; [exact F1|]. destruct (starts_with (bs "msgid") (p_cur t)) eqn:Ei.
    2: { eapply lk_bind with (Q := fun _ _ _ => False); [now apply lk_error|intros; contradiction|]. intros a t' _ HT. now apply tside_entry2. }
    assert (Hm : m_line (p_cur t)) by (eapply starts_m; exact Ei).
    eapply lk_bind; [apply lk_get_string; [exact H|now apply m_quote]| |].
    - cbv beta. intros msgid s1 t1 _ [R|(Ho & Hx & Hp)].
      + destruct (rel_fields _ _ R) as (G1 & _). apply lk_prefix; [exact G1|]. destruct (starts_with (bs "msgid_plural") (p_cur t1)) eqn:Ep; [now apply lk_plural|].
        apply lk_prefix; [exact G1|]. destruct (starts_with (bs "msgstr") (p_cur t1)) eqn:Es; [now apply lk_singular|now apply lk_error].
      + rewrite Hx in Ei. destruct (id_line _ _ _ _ Ei Hp) as (Hm' & Hns & Hn1 & Hn2). destruct (odd_cur _ _ Ho) as [Cs Ct].
        eapply (lk_noisy _ _ _ (bs "expected 'msgstr' or 'msgid_plural'") (bs "expected 'msgstr' or 'msgid_plural'")); [| |exact Ho|reflexivity|exact Hns];
          unfold prefix; rewrite mget_bind.
        { rewrite Cs, Hn1. cbv iota. rewrite mget_bind, Cs, Hn2. reflexivity. }
        { rewrite Ct. change (starts_with (bs "msgid_plural") []) with false. cbv iota. rewrite mget_bind, Ct. reflexivity. }
    - intros msgid t1 _ HT. now apply tside_entry2.
  Qed.
  Lemma entry_split fz s : entry cf fn true fz s =
    (hc <- prefix cf (bs "msgctxt");; ctxt <- (if hc then c <- get_string cf fn 7;; mret (Some c) else mret None);; entry1 fz ctxt) s.
  Proof. reflexivity. Qed.
  Lemma lk_entry fz s t : Rel s t -> lk (fun _ => done) (entry cf fn true fz) s t.
  Proof.
    intro H. change (lk (fun _ => done) (hc <- prefix cf (bs "msgctxt");; ctxt <- (if hc then c <- get_string cf fn 7;; mret (Some c) else mret None);; entry1 fz ctxt) s t).
    destruct (rel_fields _ _ H) as (F1 & _). apply lk_prefix; [exact F1|]. destruct (starts_with (bs "msgctxt") (p_cur t)) eqn:Ei.
    2: { eapply lk_bind with (Q := fun _ => Rel); [now apply lk_ret| |]; [intros a s' t' _ R; now apply lk_entry1|]. intros a t' _ HT. now apply tside_entry1. }
    assert (Hm : m_line (p_cur t)) by (eapply starts_m; exact Ei).
    eapply lk_bind; [eapply lk_bind; [apply lk_get_string; [exact H|now apply m_quote]| |]| |].
    - cbv beta. intros c s1 t1 _ R. apply (lk_ret _ (fun _ s' t' => Rel s' t' \/ odd0 s' t' /\ p_cur t = x)). destruct R as [R|(Ho & Hx & _)]; auto.
    - intros c t1 _ HT. now apply tside_ret.
    - cbv beta. intros c s1 t1 _ [R|[Ho Hx]]; [now apply lk_entry1|]. rewrite Hx in Ei. destruct (ctxt_line _ Ei) as (Hm' & Hns & Hn). destruct (odd_cur _ _ Ho) as [Cs Ct].
      eapply (lk_noisy _ _ _ (bs "expected 'msgid'") (bs "expected 'msgid'")); [| |exact Ho|reflexivity|exact Hns];
        unfold entry1, prefix; rewrite mget_bind.
      { rewrite Cs, Hn. apply error_bind. }
      { rewrite Ct. change (starts_with (bs "msgid") []) with false. apply error_bind. }
    - intros c t1 _ HT. now apply tside_entry1.
  Qed.
  Lemma lk_front s t : Rel s t -> lk (fun _ => done) (front cf fn) s t.
  Proof.
    intro H. unfold front. eapply lk_bind; [now apply lk_comments| |].
    - cbv beta. intros fz s1 t1 _ R. destruct (rel_fields _ _ R) as (F1 & _). apply lk_empty; [exact F1|]. intros [] _; [apply lk_ret; left; exact R|now apply lk_entry].
    - intros fz t1 _ HT. apply tside_empty; [exact HT|]. now apply tside_ret.
  Qed.

  (** *** blocks *)
  Definition ended (o : outcome unit) (s t : pst I) : Prop := over s t /\
    (p_line t = (N + 1)%Z /\ p_tr s = p_tr t \/
     p_line t = (N + 2)%Z /\ ~ sticky /\ o = Exn ExPo /\
       (exists a m, p_tr t = a ++ [mistake fn (N + 1) m []] /\ p_tr s = a ++ [mistake fn (N + 1) (reworded m) x]) \/
     p_line t = (N + 2)%Z /\ ~ sticky /\ o = Ret tt /\
       (exists a, Forall2 requoted (p_tr t) a /\ p_tr s = a ++ [mistake fn (N + 1) (bs "expected empty line") x])).
  Definition tb (s t : pst I) : Prop :=
    match try_block cf fn true t with
    | (Ret _, t') => (exists s', try_block cf fn true s = (Ret tt, s') /\ (Rel s' t' \/ ended (fst (front cf fn t)) s' t')) \/
                     (lost (try_block cf fn true s) /\ sticky /\ TD t')
    | _ => nofin (try_block cf fn true s)
    end.
  Lemma tside_back t : TC t -> forall o t', back cf fn t = (o, t') -> o = Ret tt /\ TD t'.
  Proof.
    intros (C1 & C2 & C3 & C4) o t' E. unfold back in E. unfold mbind at 1 in E. rewrite is_empty_line_eq, C1 in E. cbn [pempty run_opt] in E. unfold mret at 1 in E. cbv beta iota in E.
    unfold mbind at 1 in E. unfold mret at 1 in E. cbv beta iota in E. rewrite next_line_eq in E. injection E as <- <-. split; [reflexivity|].
    unfold nextst. rewrite (getline_bad _ _ C3). unfold TD. cbn. rewrite C4. split; [reflexivity|lia].
  Qed.
  Lemma back_eq s : back cf fn s = match pempty st (p_cur s) with
    | Some true => (Ret tt, nextst s) | Some false => error cf fn (bs "expected empty line") s | None => run_opt cf None s end.
  Proof.
    unfold back. unfold mbind at 1. rewrite is_empty_line_eq. destruct (pempty st (p_cur s)) as [[]|]; cbn [run_opt]; unfold mret at 1; cbv beta iota;
      [reflexivity|apply error_bind|reflexivity].
  Qed.
  Lemma back_rel s t : Rel s t -> match back cf fn t with
    | (Ret _, t') => exists s', back cf fn s = (Ret tt, s') /\ (Rel s' t' \/ silent s' t')
    | (Exn ExPo, t') => exists s', back cf fn s = (Exn ExPo, s') /\ (Rel s' t' \/ silent s' t')
    | _ => nofin (back cf fn s)
    end.
  Proof.
    intro H. destruct (rel_fields _ _ H) as (F1 & _). rewrite !back_eq, F1. destruct (pempty st (p_cur t)) as [[]|].
    - eexists. split; [reflexivity|]. destruct (rel_next _ _ H) as [R|(_ & _ & Ho)]; [left; exact R|right].
      destruct Ho as (i & Hi & -> & C1 & C2 & C3 & C4). split; [|split; [reflexivity|exact C4]]. repeat split; assumption.
    - pose proof (error_rel unit (bs "expected empty line") s t H) as E. destruct (error cf fn _ t) as [[a|[]|u| |] t']; auto. contradiction.
    - exact Logic.I.
  Qed.
  Lemma back_extra s t : odd1 s t -> m_line x -> exists s' t', back cf fn t = (Ret tt, t') /\ back cf fn s = (Exn ExPo, s') /\ TD t' /\ over s' t' /\
    exists a, Forall2 requoted (p_tr t') a /\ p_tr s' = a ++ [mistake fn (N + 1) (bs "expected empty line") x].
  Proof.
    intros (i & tr & Hi & -> & HT & Hq) Hm. pose proof HT as (C1 & C2 & C3 & C4). set (s := st_tr _ tr).
    assert (Es : back cf fn s = (Exn ExPo, nextst (st_tr s (tr ++ [mistake fn (p_line t) (bs "expected empty line") x])))).
    { rewrite back_eq. change (p_cur s) with x. rewrite (m_empty _ _ Hm). apply error_end. exact Hi. }
    assert (Et : back cf fn t = (Ret tt, nextst t)) by (rewrite back_eq, C1; reflexivity).
    eexists _, _. split; [exact Et|]. split; [exact Es|]. apply (tside_back _ HT) in Et as [_ HD]. split; [exact HD|].
    destruct (next_bad cf t C3) as (_ & _ & E1). match goal with |- over (nextst ?u) _ /\ _ => destruct (next_bad cf u Hi) as (_ & _ & E2); set (s2 := u) in * end.
    nx t. nx s2. split.
    - unfold over. rewrite E1, E2, Nd, Nd0, Nc, Nc0, Nv, Nv0. repeat split; reflexivity.
    - exists tr. rewrite Nt, Nt0. split; [exact Hq|]. rewrite <- C4. reflexivity.
  Qed.
  Lemma block_open s t : Rel s t -> tb s t.
  Proof.
    intro H. unfold tb, try_block. rewrite !block_front. pose proof (lk_front s t H) as L. unfold lk in L.
    unfold mbind at 1. destruct (front cf fn t) as [[[]|[]|u| |] t1] eqn:Et; cbn [fst].
    - (* the second run takes the front part *)
      destruct L as [(s1 & Es & [R|(Ho & Hns & Hm)])|(Hl & Hs & HT)].
      + pose proof (back_rel s1 t1 R) as B. unfold mbind. rewrite Es. destruct (back cf fn t1) as [[[]|[]|u| |] t2]; try (revert B; unfold nofin; destruct (back cf fn s1) as [[[]|[]|?| |] ?]; cbn; now auto).
        all: destruct B as (s2 & -> & [R2|(O & T & L2)]); left; exists s2; split; [reflexivity|auto|reflexivity|]; right; split; [exact O|auto].
      + destruct (back_extra s1 t1 Ho Hm) as (s2 & t2 & E1 & E2 & [_ HD] & O & X). rewrite E1. unfold mbind. rewrite Es, E2. left. exists s2. split; [reflexivity|]. right. split; [exact O|]. auto 10.
      + destruct (back cf fn t1) as [o t2] eqn:Eb. apply (tside_back _ HT) in Eb as [-> HD]. right. split; [|auto].
        unfold mbind. destruct Hl as [Hl|[Hl Hd]]; destruct (front cf fn s) as [[[]|[]|?| |] ?]; cbn [fst] in Hl; try discriminate; [left; reflexivity|right; auto].
    - (* a mistake *)
      destruct L as [(s1 & Es & X)|(Hl & Hs & HT)].
      + left. exists s1. unfold mbind. rewrite Es. split; [reflexivity|]. destruct X as [R|[(O & T & L2)|(O & L2 & Hns & X)]]; [left; exact R| |]; right; (split; [exact O|auto 10]).
      + right. split; [|auto]. unfold mbind. destruct Hl as [Hl|[Hl Hd]]; destruct (front cf fn s) as [[[]|[]|?| |] ?]; cbn [fst] in Hl; try discriminate; [left; reflexivity|right; auto].
    - revert L. unfold nofin, mbind. destruct (front cf fn s) as [[[]|[]|?| |] ?]; cbn; auto; contradiction.
    - revert L. unfold nofin, mbind. destruct (front cf fn s) as [[[]|[]|?| |] ?]; cbn; auto; contradiction.
    - revert L. unfold nofin, mbind. destruct (front cf fn s) as [[[]|[]|?| |] ?]; cbn; auto; contradiction.
    - revert L. unfold nofin, mbind. destruct (front cf fn s) as [[[]|[]|?| |] ?]; cbn; auto; contradiction.
    - revert L. unfold nofin, mbind. destruct (front cf fn s) as [[[]|[]|?| |] ?]; cbn; auto; contradiction.
    - revert L. unfold nofin, mbind. destruct (front cf fn s) as [[[]|[]|?| |] ?]; cbn; auto; contradiction.
  Qed.

  (** *** the loop *)
  Lemma try_not_exn o (t t' : pst I) : try_block cf fn true t = (o, t') -> o <> Exn ExPo.
  Proof. unfold try_block. intros E ->. destruct (block cf fn true t) as [[?|[]|?| |] ?]; discriminate E. Qed.
  Lemma loop_eof f (t : pst I) : p_eof t = true -> parse_loop cf fn true (S f) t = (Ret tt, t).
  Proof. intro H. cbn [parse_loop]. rewrite mget_bind, H. reflexivity. Qed.
  Lemma loop_on f (t : pst I) : p_eof t = false -> parse_loop cf fn true (S f) t = mbind (try_block cf fn true) (fun _ => parse_loop cf fn true f) t.
  Proof. intro H. cbn [parse_loop]. rewrite mget_bind, H. reflexivity. Qed.
  Lemma loop_ret f : forall s t, Rel s t -> match parse_loop cf fn true f t with
    | (Ret _, t') => (exists s' o, parse_loop cf fn true f s = (Ret tt, s') /\ ended o s' t') \/ (lost (parse_loop cf fn true f s) /\ sticky /\ p_line t' = (N + 2)%Z)
    | _ => fst (parse_loop cf fn true f s) <> Ret tt
    end.
  Proof.
    induction f as [|f IH]; intros s t H; [discriminate|]. destruct (rel_fields _ _ H) as (_ & _ & F3 & F4 & _). rewrite !loop_on by assumption.
    pose proof (block_open s t H) as B. unfold tb in B. unfold mbind. destruct (try_block cf fn true t) as [[[]|[]|u| |] t1];
      try (revert B; unfold nofin; destruct (try_block cf fn true s) as [[[]|[]|?| |] ?]; cbn; (contradiction || discriminate)).
    destruct B as [(s1 & -> & [R|E])|(Hl & Hs & [He Hd])].
    - apply IH, R.
    - pose proof E as ((E1 & E2 & _) & _). destruct f as [|f]; [discriminate|]. rewrite !loop_eof by assumption. left. exists s1. eexists. split; [reflexivity|exact E].
    - destruct f as [|f]; [revert Hl; unfold lost; destruct (try_block cf fn true s) as [[[]|?|?| |] ?]; cbn; discriminate|]. rewrite (loop_eof f t1) by exact He.
      right. split; [|auto]. revert Hl. unfold lost. destruct (try_block cf fn true s) as [[[]|?|?| |] ?]; cbn; auto. intros [X|[X _]]; discriminate X.
  Qed.
  Lemma loop_seg f : cf_strict cf = false -> forall l0 s t t', Rel s t -> pos cf [] (l0 ++ [x]) t -> (p_line t + len l0 = N)%Z -> parse_loop cf fn true f t = (Ret tt, t') ->
    exists sgs sg, segs_lines (sgs ++ [sg]) = l0 ++ [x; []] /\ segs_ok (p_big5 t) (sgs ++ [sg]) /\
      ((exists s' o, parse_loop cf fn true f s = (Ret tt, s') /\ ended o s' t' /\ (p_line t' = (N + 1)%Z -> seg_lines sg = [[]]) /\
          (p_line t' = (N + 2)%Z -> (exists ini, seg_lines sg = ini ++ [x; []]) /\ match sg with Broken _ _ _ => o = Exn ExPo | _ => o = Ret tt end)) \/
       (lost (parse_loop cf fn true f s) /\ sticky /\ exists ini, seg_lines sg = ini ++ [x; []])).
  Proof.
    intro Hst. induction f as [|f IH]; intros l0 s t t' H Hp Hn E; [discriminate|]. destruct (rel_fields _ _ H) as (_ & _ & F3 & F4 & _). rewrite loop_on in E by assumption.
    rewrite (loop_on f s) by assumption. apply bind_ret in E as ([] & t1 & E1 & E).
    destruct (block_step cf fn Hst (d_charset (p_dict t)) _ _ _ Hp eq_refl E1) as (sg & ls' & rest & (T1 & T2 & T3 & T4 & _ & T7 & T8) & Hk).
    destruct (meant_facts cf _ _ _ _ T8 eq_refl) as (_ & M2 & _). destruct (pos_wf cf _ _ T1) as (_ & _ & Hee).
    rewrite <- app_assoc in T2. cbn [app] in T2.
    pose proof (block_open s t H) as B. unfold tb in B. rewrite E1 in B. unfold mbind. destruct T3 as [[-> ->]|T3].
    - (* the end was reached inside the block *)
      cbn [is_nil] in Hee. rewrite app_nil_r in T2. exists [], sg. unfold segs_lines. cbn [app List.map List.concat]. rewrite app_nil_r. split; [symmetry; exact T2|].
      split; [split; [exact T7|exact Logic.I]|]. destruct f as [|f]; [discriminate|]. rewrite loop_eof in E by exact Hee. injection E as <-.
      assert (L : p_line t1 = (N + 2)%Z) by (rewrite T4, <- T2, app_len; cbn [length]; lia).
      destruct B as [(s1 & -> & [R|Q])|(Hl & Hs & _)].
      + destruct (rel_fields _ _ R) as (_ & _ & _ & G4 & _). congruence.
      + left. pose proof Q as ((Q1 & _) & _). exists s1, (fst (front cf fn t)). rewrite loop_eof by exact Q1. split; [reflexivity|]. split; [exact Q|].
        split; [intro X; rewrite L in X; lia|]. intros _. split; [exists l0; symmetry; exact T2|exact Hk].
      + right. split; [|split; [exact Hs|exists l0; symmetry; exact T2]]. revert Hl. unfold lost. destruct (try_block cf fn true s) as [[[]|?|?| |] ?]; cbn; auto. intros [X|[X _]]; discriminate X.
    - (* at a separating line *)
      subst rest. assert (T2' : l0 ++ [x] = seg_lines sg ++ ls').
      { apply (app_inv_tail [[]]). rewrite <- !app_assoc. cbn [app]. exact T2. }
      destruct ls' as [|l1 ls1] eqn:El.
      + (* which is the last line *)
        cbn [is_nil] in Hee. rewrite app_nil_r in T2'. exists [sg], (Whole block0 []). unfold segs_lines. cbn [app List.map List.concat seg_lines]. rewrite <- T2'.
        split; [rewrite <- app_assoc; reflexivity|]. split; [split; [exact T7|split; [apply whole0|exact Logic.I]]|].
        destruct f as [|f]; [discriminate|]. rewrite loop_eof in E by exact Hee. injection E as <-.
        assert (L : p_line t1 = (N + 1)%Z) by (rewrite T4, <- T2', app_len; cbn [length]; lia).
        destruct B as [(s1 & -> & [R|Q])|(Hl & Hs & [_ X])]; [destruct (rel_fields _ _ R) as (_ & _ & _ & G4 & _); congruence| |lia].
        left. pose proof Q as ((Q1 & _) & _). exists s1, (fst (front cf fn t)). rewrite loop_eof by exact Q1. split; [reflexivity|]. split; [exact Q|].
        split; [intros _; reflexivity|]. intro X. lia.
      + cbn [is_nil] in Hee. destruct (exists_last (l := l1 :: ls1) ltac:(discriminate)) as (l0' & y & El'). rewrite El' in *. rewrite app_assoc in T2'.
        apply app_inj_tail in T2' as [T2' <-].
        destruct B as [(s1 & -> & [R|Q])|(Hl & Hs & [X _])]; [|destruct Q as ((_ & Q1 & _) & _); congruence|congruence].
        assert (L : (p_line t1 + len l0' = N)%Z) by (rewrite T4; rewrite T2', app_len in Hn; lia).
        destruct (IH l0' s1 t1 t' R T1 L E) as (sgs & sg' & R1 & R2 & R3). exists (sg :: sgs), sg'.
        split; [unfold segs_lines in *; cbn [app List.map List.concat]; rewrite R1, T2', <- app_assoc; reflexivity|].
        split; [|exact R3]. cbn [app segs_ok]. rewrite R1, <- M2. split; [|exact R2]. rewrite <- app_assoc in T7. exact T7.
  Qed.
End Open.

(** ** Whole files *)
Lemma open_split b : ~ complete b -> exists ls x, b = unlines ls ++ x /\ Forall one_line ls /\ one_line x /\ x <> [].
Proof.
  intro H. induction b as [|c b IH] using rev_ind; [exfalso; apply H; left; reflexivity|].
  destruct (byte_eqb c c_lf) eqn:E; [exfalso; apply H; right; apply byte_eqb_eq in E; subst c; eauto|].
  assert (D : complete b \/ ~ complete b).
  { clear. destruct b as [|c b _] using rev_ind; [left; left; reflexivity|]. destruct (byte_eqb c c_lf) eqn:E.
    - left. right. apply byte_eqb_eq in E. subst c. eauto.
    - right. intros [X|(b' & X)]; [destruct b; discriminate X|]. apply app_inj_tail in X as [_ ->]. rewrite byte_eqb_refl in E. discriminate. }
  destruct D as [C|C].
  - destruct (complete_unlines b C) as [Hb Ho]. exists (lines_of b), [c]. rewrite <- Hb. split; [reflexivity|]. split; [exact Ho|]. split; [|discriminate].
    intros [X|[]]. subst c. rewrite byte_eqb_refl in E. discriminate.
  - destruct (IH C) as (ls & x & -> & H1 & H2 & H3). exists ls, (x ++ [c]). rewrite app_assoc. split; [reflexivity|]. split; [exact H1|]. split; [|destruct x; discriminate].
    intro K. apply in_app_or in K as [K|[K|[]]]; [now apply H2|]. subst c. rewrite byte_eqb_refl in E. discriminate.
Qed.
Lemma open_start cf b d : ~ complete b -> exists l0 x,
  let s := strip_bom cf (nextst (init_state cf (stream_of b) d)) in
  let t := strip_bom cf (nextst (init_state cf (stream_of (b ++ [c_lf])) d)) in
  file_lines (b ++ [c_lf]) = l0 ++ [x] /\ file_lines b = l0 ++ [x] /\ Rel cf x (len l0 + 1) s t /\ pos cf [] (l0 ++ [x]) t /\ p_line t = 1%Z /\ p_big5 t = false.
Proof.
  intro H. destruct (open_split b H) as (ls & x & -> & Hl & Hx & Hn). rewrite <- !app_assoc.
  assert (E0 : unlines ls ++ x ++ [c_lf] = unlines (ls ++ [x])) by (clear; induction ls as [|l ls IH]; cbn [app unlines]; rewrite ?app_nil_r, <- ?IH, <- ?app_assoc; reflexivity).
  assert (O : Forall one_line (ls ++ [x])) by (apply Forall_app; auto).
  assert (E1 : lines_of (unlines ls ++ x) = ls ++ [x]).
  { clear - Hl Hx Hn. induction Hl as [|l ls H _ IH]; cbn [unlines app].
    - unfold lines_of. rewrite lines_from_last by exact Hx. cbn [app]. destruct x; [contradiction|reflexivity].
    - rewrite <- app_assoc. cbn [app]. unfold lines_of at 1. rewrite lines_from_app by exact H. cbn [app]. now rewrite IH. }
  assert (E2 : lines_of (unlines ls ++ x ++ [c_lf]) = ls ++ [x]) by (rewrite E0; now apply unlines_lines).
  set (s0 := init_state cf (stream_of (unlines ls ++ x)) d). set (t0 := init_state cf (stream_of (unlines ls ++ x ++ [c_lf])) d).
  assert (P0 : pos cf [] ([] :: ls ++ [x]) t0).
  { split; [constructor; [intros []|exact O]|]. split; [intros []|]. cbn. rewrite app_nil_r, <- E0. auto. }
  pose proof (pos_next_tl cf _ _ P0) as P1. cbn [tl] in P1.
  assert (R0 : Rel cf x (len ls + 1) s0 t0).
  { exists (stream_of (unlines ls ++ x)). split; [reflexivity|]. split; [reflexivity|]. left. split; [exact Hn|]. split; [exact Hx|]. exists ls.
    split; [exact Hl|]. split; [reflexivity|]. split; [reflexivity|]. cbn [p_line t0 init_state]. lia. }
  pose proof (rel_next cf x _ _ _ R0) as R1. destruct R1 as [R1|(X & _)]; [|exfalso; apply Hn; symmetry; exact X].
  nx t0. set (s1 := nextst s0) in *. set (t1 := nextst t0) in *.
  assert (L1 : p_line t1 = 1%Z) by (unfold t1; rewrite nextst_line; reflexivity).
  destruct (rel_fields _ _ _ _ _ R1) as (F1 & _). unfold file_lines. rewrite E1, E2. unfold strip_bom. rewrite F1, (pos_hd cf _ _ P1).
  destruct ls as [|l ls]; cbn [app hd]; unfold drop_bom.
  - exists [], (if starts_with bom x then skipn 3 x else x). cbv zeta. cbn [app]. split; [reflexivity|]. split; [reflexivity|]. destruct (starts_with bom x) eqn:Eb; [|auto 10].
    cbn [app] in P1. split; [|split; [|split; [exact L1|exact Nb]]].
    + destruct R1 as (i & Es & He & [(_ & _ & l2 & _ & _ & _ & B)|(B1 & B2 & B3 & B4 & B5)]); [cbn [length] in B; rewrite L1 in B; lia|].
      exists i. rewrite Es. split; [reflexivity|]. split; [exact He|]. right. split; [now apply one_line_skipn|]. auto.
    + destruct P1 as (A1 & A2 & A3 & A4 & A5). split; [constructor; [now apply one_line_skipn|constructor]|]. split; [exact A2|]. cbn. auto.
  - exists ((if starts_with bom l then skipn 3 l else l) :: ls), x. cbv zeta. split; [reflexivity|]. split; [reflexivity|]. change (len ((if starts_with bom l then skipn 3 l else l) :: ls)) with (len (l :: ls)).
    destruct (starts_with bom l) eqn:Eb; [|auto 10].
    split; [|split; [|split; [exact L1|exact Nb]]].
    + destruct R1 as (i & Es & He & [(B0 & B1 & l2 & B2 & B3 & B4 & B)|(B1 & B2 & B3 & B4 & B5)]); [|cbn [length] in B5; rewrite L1 in B5; lia].
      exists i. rewrite Es. split; [reflexivity|]. split; [exact He|]. left. split; [exact B0|]. split; [exact B1|]. exists l2. auto.
    + destruct P1 as (A1 & A2 & A3 & A4 & A5). inversion A1 as [|? ? X1 X2]. split; [constructor; [now apply one_line_skipn|exact X2]|]. split; [exact A2|]. cbn. auto.
Qed.

(** at a given number of iterations; [cf_strict] off *)
Lemma app_last2 {A} (l l' : list A) x x' y : l ++ [x; y] = l' ++ [x'; y] -> x = x'.
Proof. intro H. change (l ++ [x; y]) with (l ++ [x] ++ [y]) in H. change (l' ++ [x'; y]) with (l' ++ [x'] ++ [y]) in H. rewrite !app_assoc in H. apply app_inj_tail in H as [H _]. apply app_inj_tail in H as [_ H]. exact H. Qed.
Lemma log_differs_intro cf fn n x sg o (s t : pst (cf_iconv cf)) l0 fol b5 : ended cf fn x n o s t -> seg_ok b5 sg fol ->
  (p_line t = (n + 1)%Z -> seg_lines sg = [[]]) ->
  (p_line t = (n + 2)%Z -> (exists ini, seg_lines sg = ini ++ [x; []]) /\ match sg with Broken _ _ _ => o = Exn ExPo | _ => o = Ret tt end) ->
  l0 = iconv_destroy (p_conv t) -> log_differs fn (n + 1) x sg (p_tr t ++ l0) (p_tr s ++ l0) /\ ~ stuck sg.
Proof.
  intros [_ He] Hok H1 H2 _. destruct He as [(L & T)|He].
  - specialize (H1 L). split; [split; [intros _; rewrite T; reflexivity|intro X; contradiction]|].
    intros (ini & y & E & _). rewrite H1 in E. destruct ini as [|? [|? ini]]; discriminate E.
  - assert (L : p_line t = (n + 2)%Z) by (destruct He as [He|He]; apply He). destruct (H2 L) as [(ini & Ei) Hk].
    assert (Hns : ~ sticky x) by (destruct He as [He|He]; apply He). split.
    + split; [intro X; rewrite X in Ei; destruct ini as [|? [|? ini]]; discriminate Ei|]. intros _. destruct sg as [b sep|b y sk|pre y sk].
      * destruct He as [(_ & _ & Ho & _)|(_ & _ & _ & a & Ha & Es)]; [congruence|]. exists (p_tr t), a, l0. split; [reflexivity|]. split; [exact Ha|]. rewrite Es, <- app_assoc. reflexivity.
      * cbn [seg_ok seg_lines] in *. destruct Hok as (_ & _ & Hb & _ & Hs & _).
        assert (X : is_blank (last (y :: sk) [])).
        { replace (last (y :: sk) []) with (@nil byte); [split; [intros []|left; constructor]|].
          apply (f_equal (fun l => last l [c_lf])) in Ei. change (ini ++ [x; []]) with (ini ++ [x] ++ [[]]) in Ei. rewrite app_assoc, last_last in Ei.
          destruct (exists_last (l := y :: sk) ltac:(discriminate)) as (l' & z & El). rewrite El in *. rewrite app_assoc, last_last in Ei. rewrite last_last. symmetry. exact Ei. }
        assert (F : Forall (fun l => ~ is_blank l) (y :: sk)) by (constructor; assumption). destruct (exists_last (l := y :: sk) ltac:(discriminate)) as (l' & z & El). rewrite El in *.
        rewrite last_last in X. rewrite Forall_app in F. destruct F as [_ F]. inversion F. contradiction.
      * destruct He as [(_ & _ & _ & a & m & Et & Es)|(_ & _ & Ho & _)]; [|congruence]. exists a, m, l0. rewrite Et, Es, <- !app_assoc. auto.
    + intros (ini' & y & E & Hy). rewrite Ei in E. apply app_last2 in E. subst y. contradiction.
Qed.
Definition lost_outcome (nd : bool) (o : outcome unit) : Prop := o = OutOfFuel \/ o = AssertFail /\ nd = false.
Lemma open_lenient cf fn b d n : cf_strict cf = false -> ~ complete b ->
  let U := po_parse (with_fuel cf n) fn (stream_of b) d in
  let T := po_parse (with_fuel cf n) fn (stream_of (b ++ [c_lf])) d in
  pr_outcome T = Ret tt -> exists sgs sg, segs_lines (sgs ++ [sg]) = file_lines b ++ [[]] /\ segs_ok false (sgs ++ [sg]) /\
    ((pr_outcome U = Ret tt /\ pr_dict U = pr_dict T /\ pr_calls U = pr_calls T /\ ~ stuck sg /\
      log_differs fn (len (file_lines b) + 1) (last (file_lines b) []) sg (pr_trace T) (pr_trace U)) \/
     (lost_outcome (cf_ndebug cf) (pr_outcome U) /\ stuck sg)).
Proof.
  intros Hst Hb U T HT. destruct (open_start cf b d Hb) as (l0 & x & E1 & E2 & R & P & L & B5). unfold U, T in *. rewrite po_parse_eq in HT |- *. rewrite po_parse_eq.
  set (s := strip_bom cf (nextst (init_state cf (stream_of b) d))) in *. set (t := strip_bom cf (nextst (init_state cf (stream_of (b ++ [c_lf])) d))) in *.
  destruct (parse_loop (with_fuel cf n) fn true n t) as [o t'] eqn:Et. cbn [result_of pr_outcome fst] in HT. subst o.
  destruct (loop_seg (with_fuel cf n) fn x (len l0 + 1) n Hst l0 s t t' R P) as (sgs & sg & S1 & S2 & S3); [change (p_line t + len l0 = len l0 + 1)%Z; lia|exact Et|].
  exists sgs, sg. rewrite E2. split; [rewrite <- app_assoc; exact S1|]. assert (S2' : segs_ok false (sgs ++ [sg])) by (rewrite <- B5; exact S2). split; [exact S2'|].
  rewrite last_last, app_len. cbn [length]. change (Z.of_nat 1) with 1%Z. destruct S3 as [(s' & o & Es & He & Q1 & Q2)|(Hl & Hs & ini & Hi)].
  - left. change (parse_loop (with_fuel cf n) fn true n s = (Ret tt, s')) in Es. rewrite Es. cbn [result_of pr_outcome pr_dict pr_calls pr_trace fst snd finished].
    pose proof He as ((_ & _ & D1 & D2 & D3) & _). split; [reflexivity|]. split; [exact D1|]. split; [exact D2|].
    assert (Sk : exists b5, seg_ok b5 sg []).
    { clear - S2'. revert S2'. generalize false. induction sgs as [|g sgs IH]; intros b5 H; cbn [app segs_ok] in H; [destruct H as [H _]; eauto|destruct H as [_ H]; eauto]. }
    destruct Sk as [b5 Sk]. destruct (log_differs_intro (with_fuel cf n) fn (len l0 + 1) x sg o s' t' _ [] b5 He Sk Q1 Q2 eq_refl) as [X1 X2]. split; [exact X2|].
    replace (iconv_destroy (p_conv s')) with (iconv_destroy (p_conv t')) by (f_equal; symmetry; exact D3). exact X1.
  - right. split; [|exists ini, x; auto]. exact Hl.
Qed.
Lemma open_returns cf fn b d n : ~ complete b ->
  let U := po_parse (with_fuel cf n) fn (stream_of b) d in
  let T := po_parse (with_fuel cf n) fn (stream_of (b ++ [c_lf])) d in
  (pr_outcome T = Ret tt -> pr_outcome U = Ret tt \/ lost_outcome (cf_ndebug cf) (pr_outcome U)) /\ (pr_outcome U = Ret tt -> pr_outcome T = Ret tt).
Proof.
  intros Hb U T. destruct (open_start cf b d Hb) as (l0 & x & E1 & E2 & R & P & L & B5). unfold U, T in *. rewrite !po_parse_eq.
  set (s := strip_bom cf (nextst (init_state cf (stream_of b) d))) in *. set (t := strip_bom cf (nextst (init_state cf (stream_of (b ++ [c_lf])) d))) in *.
  pose proof (loop_ret (with_fuel cf n) fn x (len l0 + 1) n s t R) as Q.
  change (match parse_loop (with_fuel cf n) fn true n t with
    | (Ret _, t') => (exists s' o, parse_loop (with_fuel cf n) fn true n s = (Ret tt, s') /\ ended (with_fuel cf n) fn x (len l0 + 1) o s' t') \/
        (lost (with_fuel cf n) (parse_loop (with_fuel cf n) fn true n s) /\ sticky x /\ p_line t' = (len l0 + 1 + 2)%Z)
    | _ => fst (parse_loop (with_fuel cf n) fn true n s) <> Ret tt end) in Q.
  unfold result_of. cbn [pr_outcome].
  destruct (parse_loop (with_fuel cf n) fn true n t) as [[[]|e|u| |] t']; cbn [fst]; (split; [intro X; try discriminate X|]); try (intro X; contradiction); [|reflexivity].
  destruct Q as [(s' & o & -> & _)|(Hl & _)]; [left; reflexivity|right; exact Hl].
Qed.
Lemma open_parse cf fn b d n : ~ complete b ->
  let U := po_parse (with_fuel cf n) fn (stream_of b) d in
  let T := po_parse (with_fuel cf n) fn (stream_of (b ++ [c_lf])) d in
  pr_outcome T = Ret tt -> exists sgs sg, segs_lines (sgs ++ [sg]) = file_lines b ++ [[]] /\ segs_ok false (sgs ++ [sg]) /\
    ((pr_outcome U = Ret tt /\ pr_dict U = pr_dict T /\ pr_calls U = pr_calls T /\ ~ stuck sg /\
      log_differs fn (len (file_lines b) + 1) (last (file_lines b) []) sg (pr_trace T) (pr_trace U)) \/
     (lost_outcome (cf_ndebug cf) (pr_outcome U) /\ stuck sg)).
Proof.
  intros Hb U T HT. destruct (open_returns cf fn b d n Hb) as [H1 _]. fold U T in H1. specialize (H1 HT).
  assert (EU : U = po_parse (set_strict (with_fuel cf n) false) fn (stream_of b) d).
  { destruct (strict_or_ub (with_fuel cf n) fn (stream_of b) d) as [X|X]; [|exact X]. fold U in X. rewrite X in H1. destruct H1 as [H1|[H1|[H1 _]]]; discriminate H1. }
  assert (ET : T = po_parse (set_strict (with_fuel cf n) false) fn (stream_of (b ++ [c_lf])) d).
  { destruct (strict_or_ub (with_fuel cf n) fn (stream_of (b ++ [c_lf])) d) as [X|X]; [|exact X]. fold T in X. rewrite X in HT. discriminate HT. }
  rewrite EU. rewrite ET in HT |- *. exact (open_lenient (set_strict cf false) fn b d n eq_refl Hb HT).
Qed.
