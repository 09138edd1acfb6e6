(** A generic invariant rule for the parser: what every primitive step preserves,
    POParser::parse preserves. *)
From Verif.Model Require Import Base Log PluralForms Dictionary IConv Stream PoParser.
From Verif.Proofs Require Import BaseFacts LexProofs.
Local Open Scope list_scope.

(** the state after next_line *)
Definition nextst {I} (s : pst I) : pst I :=
  match getline (p_in s) (p_cur s) with
  | (i, cur, ok) => st_line s i cur (if ok then p_eof s else true) (p_line s + 1)
  end.

Lemma next_line_eq cf s : next_line cf s = (Ret tt, nextst s).
Proof. reflexivity. Qed.

Lemma take_line_len l : forall x r, take_line l = (x, Some r) -> length r < length l.
Proof.
  induction l as [|c l IH]; intros x r; simpl; [discriminate|].
  destruct (byte_eqb c c_lf).
  - intro H; inversion H; subst. lia.
  - destruct (take_line l) as [l' [r'|]]; intro H; inversion H; subst. specialize (IH _ _ eq_refl). lia.
Qed.

(** cases of getline from a good stream *)
Lemma take_line_cases b : match take_line b with
                        | (l, Some r) => b = l ++ c_lf :: r /\ ~ In c_lf l
                        | (l, None) => b = l /\ ~ In c_lf l end.
Proof.
  induction b as [|c b IH]; simpl; [auto|].
  destruct (byte_eqb c c_lf) eqn:E.
  - apply byte_eqb_eq in E. subst. split; auto.
  - destruct (take_line b) as [l [r|]]; destruct IH as [-> IH]; (split; [reflexivity|]);
      intros [H|H]; subst; auto; rewrite byte_eqb_refl in E; discriminate.
Qed.
Lemma getline_cases i buf :
  is_good i = true ->
  (is_rest i = [] /\ is_break i = false /\ getline i buf = ({| is_rest := []; is_eof := true; is_fail := true; is_break := false |}, [], false)) \/
  (exists l r, is_rest i = l ++ c_lf :: r /\ ~ In c_lf l /\
     getline i buf = ({| is_rest := r; is_eof := false; is_fail := false; is_break := is_break i |}, l, true)) \/
  (is_rest i <> [] /\ ~ In c_lf (is_rest i) /\ is_break i = false /\
     getline i buf = ({| is_rest := []; is_eof := true; is_fail := false; is_break := false |}, is_rest i, true)) \/
  (is_break i = true /\ ~ In c_lf (is_rest i) /\
     getline i buf = ({| is_rest := []; is_eof := false; is_fail := true; is_break := true |}, is_rest i, false)).
Proof.
  intro G. unfold getline. rewrite G. cbv zeta.
  pose proof (take_line_cases (is_rest i)) as T. destruct (is_rest i) as [|c b] eqn:E.
  - destruct (is_break i) eqn:B; [right; right; right|left]; auto.
  - right. destruct (take_line (c :: b)) as [l [r|]]; destruct T as [T1 T2].
    + left. exists l, r. auto.
    + right. subst l. destruct (is_break i) eqn:B; [right|left]; repeat split; auto; discriminate.
Qed.
Lemma getline_good i buf :
  is_break i = false -> is_good i = true ->
  (is_rest i = [] /\ getline i buf = ({| is_rest := []; is_eof := true; is_fail := true; is_break := false |}, [], false)) \/
  (exists l r, is_rest i = l ++ c_lf :: r /\ ~ In c_lf l /\
     getline i buf = (stream_of r, l, true)) \/
  (is_rest i <> [] /\ ~ In c_lf (is_rest i) /\
     getline i buf = ({| is_rest := []; is_eof := true; is_fail := false; is_break := false |}, is_rest i, true)).
Proof.
  intros B G. destruct (getline_cases i buf G) as [(H1 & _ & H2)|[(l & r & H1 & H2 & H3)|[(H1 & H2 & _ & H3)|(H1 & _)]]]; auto.
  - right. left. exists l, r. rewrite B in H3. auto.
  - congruence.
Qed.

Lemma getline_bad i buf :
  is_good i = false -> getline i buf = ({| is_rest := is_rest i; is_eof := is_eof i; is_fail := true; is_break := is_break i |}, buf, false).
Proof. intro G. unfold getline. rewrite G. reflexivity. Qed.
Lemma getline_break i buf i' l ok : getline i buf = (i', l, ok) -> is_break i' = is_break i.
Proof.
  unfold getline. cbv zeta. destruct (is_good i); [|intro H; now injection H as <- _ _].
  destruct (is_rest i) as [|c b]; [destruct (is_break i) eqn:B; intro H; injection H as <- _ _; reflexivity|].
  destruct (take_line (c :: b)) as [x [r|]]; [intro H; injection H as <- _ _; reflexivity|].
  destruct (is_break i) eqn:B; intro H; injection H as <- _ _; reflexivity.
Qed.

Section Recover.
  Variable cf : config.
  Local Notation I := (cf_iconv cf).

  Definition enough (f : nat) (s : pst I) : Prop :=
    if is_good (p_in s) then length (is_rest (p_in s)) < f else 0 < f.

  Lemma enough_pos f s : enough f s -> 0 < f.
  Proof. unfold enough. destruct (is_good (p_in s)); lia. Qed.

  Lemma enough_step f s : enough (S f) s -> p_eof (nextst s) = false -> enough f (nextst s).
  Proof.
    unfold enough, nextst. destruct (is_good (p_in s)) eqn:G.
    - destruct (getline_cases _ (p_cur s) G) as [(R & _ & ->)|[(l & r & R & _ & ->)|[(R & _ & _ & ->)|(_ & _ & ->)]]]; simpl; [discriminate| | |discriminate].
      + intros H _. rewrite R, app_length in H. simpl in H. blia.
      + intros H _. destruct (is_rest (p_in s)); simpl in *; [congruence|blia].
    - rewrite (getline_bad _ _ G). simpl. discriminate.
  Qed.

  Lemma recover_fuel f : forall s, enough f s -> fst (recover cf f s) <> OutOfFuel.
  Proof.
    induction f as [|f IH]; intros s E.
    { exfalso. unfold enough in E. destruct (is_good (p_in s)); lia. }
    cbn [recover]. unfold mbind at 1. rewrite next_line_eq. unfold mbind at 1, mget.
    destruct (p_eof (nextst s)) eqn:Ee; [discriminate|].
    unfold mbind. rewrite is_empty_line_eq. destruct (pempty _ _) as [[]|]; cbn [run_opt]; unfold mret, mfail; simpl; try discriminate.
    apply IH, enough_step; auto.
  Qed.

  Lemma error_enough s w : enough (S (S (length (is_rest (p_in s))))) (st_tr s w).
  Proof. unfold enough. simpl. destruct (is_good (p_in s)); lia. Qed.
End Recover.

Section Unary.
  Variable cf : config.
  Variable fn : bytes.
  Variable uf : bool.
  Local Notation I := (cf_iconv cf).
  Local Notation P := (M (pst I)).
  Variable J : pst I -> Prop.
  Variable K : outcome unit -> pst I -> Prop.

  Definition post {A} (r : outcome A * pst I) : Prop :=
    match r with
    | (Ret _, s) => J s
    | (Exn ExPo, s) => J s
    | (o, s) => K (omap (fun _ => tt) o) s
    end.
  Definition tri {A} (m : P A) : Prop := forall s, J s -> post (m s).

  Definition sound_call (c : dict_call) : Prop :=
    match c with CallAdd _ => True | CallPlural p => pf_valid p = true end.

  Hypothesis H_next : forall s, J s -> J (nextst s).
  Hypothesis H_log : forall s l, J s -> J (st_tr s (p_tr s ++ [EvLog l])).
  Hypothesis H_plural : forall s p, pf_valid p = true -> J s ->
    J (st_dict s (apply_call (p_dict s) (CallPlural p)) (p_calls s ++ [CallPlural p])).
  Hypothesis H_add : forall s op, J s ->
    J (st_dict s (apply_call (p_dict s) (CallAdd op)) (p_calls s ++ [CallAdd op])).
  Hypothesis H_big5 : forall s, J s -> J (st_big5 s true).
  Hypothesis H_bom : forall s, J s -> J (st_cur s (skipn 3 (p_cur s))).
  Hypothesis H_conv : forall s t, J s -> post (do_convert cf t s).
  Hypothesis H_set : forall s c, J s -> post (do_set_charsets cf c (get_charset (p_dict s)) s).
  Hypothesis H_ub : forall s, cf_strict cf = true -> J s -> K (Ub UbCtype) s.
  Hypothesis H_fuel : forall s, J s -> K OutOfFuel s.

  Lemma tri_ret A (a : A) : tri (mret a).
  Proof. intros s H. exact H. Qed.
  Lemma tri_get A (f : pst I -> A) : tri (mget f).
  Proof. intros s H. exact H. Qed.
  Lemma tri_fuel A : tri (@mfail (pst I) A OutOfFuel).
  Proof. intros s H. apply H_fuel, H. Qed.
  Lemma tri_bind A B (m : P A) (f : A -> P B) : tri m -> (forall a, tri (f a)) -> tri (mbind m f).
  Proof.
    intros Hm Hf s Hs. specialize (Hm s Hs). unfold mbind, post in *.
    destruct (m s) as [[a|[]|u| |] s']; simpl in *; auto. apply Hf, Hm.
  Qed.
  (** bind where the continuation may use how the value was produced *)
  Lemma tri_get_bind A B (g : pst I -> A) (f : A -> P B) :
    (forall s, J s -> post (f (g s) s)) -> tri (mbind (mget g) f).
  Proof. intros H s Hs. unfold mbind, mget. apply H, Hs. Qed.
  Lemma tri_next : tri (next_line cf).
  Proof. intros s H. rewrite next_line_eq. apply H_next, H. Qed.
  Lemma tri_warning w : tri (warning cf fn w).
  Proof. intros s H. rewrite warning_eq. apply H_log, H. Qed.

  Lemma J_warned ws : forall s, J s -> J (warned_all cf fn ws s).
  Proof. induction ws; intros s H; simpl; auto. apply IHws, H_log, H. Qed.

  Lemma pctype_none A (f : byte -> A) c : pctype (cf_strict cf) f c = None -> cf_strict cf = true.
  Proof. unfold pctype. destruct (cf_strict cf); auto; discriminate. Qed.
  Lemma pall_space_none l : pall_space (cf_strict cf) l = None -> cf_strict cf = true.
  Proof.
    induction l as [|c l IH]; simpl; [discriminate|].
    destruct (pctype (cf_strict cf) isspace c) as [[]|] eqn:E; auto; try discriminate.
    intros _. eapply pctype_none; eauto.
  Qed.
  Lemma pempty_none l : pempty (cf_strict cf) l = None -> cf_strict cf = true.
  Proof.
    unfold pempty. destruct l as [|c l]; [discriminate|].
    destruct (byte_eqb c c_hash); [|apply pall_space_none].
    destruct l; [discriminate|]. apply pctype_none.
  Qed.
  Lemma pquote_none l : forall i, pquote (cf_strict cf) i l = None -> cf_strict cf = true.
  Proof.
    induction l as [|c l IH]; intro i; simpl; [discriminate|].
    destruct (byte_eqb c c_dq); [discriminate|].
    destruct (pctype (cf_strict cf) isspace c) as [[]|] eqn:E; eauto; try discriminate.
    intros _. eapply pctype_none; eauto.
  Qed.
  Lemma pmsgstr_n_none l : pmsgstr_n (cf_strict cf) l = None -> cf_strict cf = true.
  Proof.
    unfold pmsgstr_n. destruct (_ && _); [|discriminate].
    destruct (pctype _ _ _) eqn:E; [discriminate|]. intros _. eapply pctype_none; eauto.
  Qed.
  Definition ub_strict {A} (r : lexres A) : Prop :=
    match r with LUb _ => cf_strict cf = true | _ => True end.
  Lemma ub_lwarn A w (r : lexres A) : ub_strict r -> ub_strict (lwarn w r).
  Proof. destruct r; auto. Qed.
  Lemma ub_lbind A B (r : lexres A) (f : A -> lexres B) :
    ub_strict r -> (forall a, ub_strict (f a)) -> ub_strict (lbind r f).
  Proof. destruct r as [ws a|ws m|ws]; simpl; auto. intros _ H. specialize (H a). destruct (f a); auto. Qed.
  Lemma ub_pscan b5 n : forall l i out, length l <= n -> ub_strict (pscan b5 i l out).
  Proof.
    induction n as [|n IH]; intros [|c l] i out H; simpl in *; try exact Logic.I; try lia.
    destruct (byte_eqb c c_dq); [exact Logic.I|].
    destruct (b5 && big5_lead c).
    { destruct l as [|c1 l]; [exact Logic.I|]. apply IH. simpl in H. lia. }
    destruct (byte_eqb c c_bsl).
    { destruct l as [|c1 l]; [exact Logic.I|]. simpl in H. destruct (unescape c1).
      - apply IH; lia.
      - apply ub_lwarn, IH; lia. }
    apply IH; lia.
  Qed.
  Lemma ub_pgarbage l : ub_strict (pgarbage (cf_strict cf) l).
  Proof.
    induction l as [|c l IH]; simpl; [exact Logic.I|].
    destruct (pctype (cf_strict cf) isspace c) as [[]|] eqn:E; simpl; auto.
    eapply pctype_none; eauto.
  Qed.
  Lemma ub_pline b5 out skip cur : ub_strict (pline (cf_strict cf) b5 out skip cur).
  Proof.
    unfold pline. destruct (_ <=? _); [exact Logic.I|]. destruct (negb _); [exact Logic.I|].
    apply ub_lbind; [eapply ub_pscan; eauto|]. intro r. apply ub_lbind; [apply ub_pgarbage|]. intro; exact Logic.I.
  Qed.
  Lemma ub_pskip b5 cur l : forall out skip, ub_strict (pskip (cf_strict cf) b5 cur out skip l).
  Proof.
    induction l as [|c l IH]; intros out skip; simpl; [exact Logic.I|].
    destruct (byte_eqb c c_dq); [apply ub_pline|].
    destruct (pctype (cf_strict cf) isspace c) as [[]|] eqn:E; simpl; auto.
    eapply pctype_none; eauto.
  Qed.
  Lemma ub_pfirst pd b5 skip cur : ub_strict (pfirst (cf_strict cf) pd b5 skip cur).
  Proof.
    unfold pfirst. destruct (_ <=? _); [exact Logic.I|]. destruct (_ && _); [apply ub_pline|].
    destruct pd; [apply ub_lwarn|]; apply ub_pskip.
  Qed.

  Lemma tri_run_opt A (r : option A) : (r = None -> cf_strict cf = true) -> tri (run_opt cf r).
  Proof. intros H s Hs. destruct r; simpl; auto. Qed.
  Lemma tri_empty : tri (is_empty_line cf).
  Proof. intros s Hs. rewrite is_empty_line_eq. apply tri_run_opt; auto. apply pempty_none. Qed.
  Lemma tri_msgstr_n : tri (is_msgstr_n cf).
  Proof. intros s Hs. rewrite is_msgstr_n_eq. apply tri_run_opt; auto. apply pmsgstr_n_none. Qed.
  Lemma tri_find_quote i l : tri (find_quote cf i l).
  Proof. intros s Hs. rewrite find_quote_eq. apply tri_run_opt; auto. apply pquote_none. Qed.

  Lemma tri_recover f : tri (recover cf f).
  Proof.
    induction f as [|f IH]; cbn [recover]; [apply tri_fuel|].
    apply tri_bind; [apply tri_next|intros _]. apply tri_bind; [apply tri_get|intros []]; [apply tri_ret|].
    apply tri_bind; [apply tri_empty|intros []]; [apply tri_ret|exact IH].
  Qed.
  Lemma tri_error A m : tri (@error cf fn A m).
  Proof.
    unfold error. apply tri_get_bind. intros s Hs. unfold mbind at 1, emit, mmod.
    assert (H1 : J (st_tr s (p_tr s ++ [EvLog (log_error (fn ++ bs ":" ++ dec_Z (p_line s) ++ bs ": error: " ++ m
                            ++ bs ": " ++ p_cur s))]))) by (apply H_log, Hs).
    pose proof (tri_recover (S (S (length (is_rest (p_in s))))) _ H1) as H2. unfold mbind.
    destruct (recover _ _ _) as [[a|[]|u| |] s']; simpl in *; auto.
  Qed.
  Lemma tri_run_lex A (r : lexres A) : ub_strict r -> tri (run_lex cf fn r).
  Proof.
    intros H s Hs. rewrite run_lex_eq. destruct r as [ws a|ws m|ws].
    - simpl. apply J_warned, Hs.
    - apply tri_error, J_warned, Hs.
    - simpl. apply H_ub; auto. apply J_warned, Hs.
  Qed.
  Lemma tri_get_string_line out skip : tri (get_string_line cf fn out skip).
  Proof. intros s Hs. rewrite get_string_line_eq. apply tri_run_lex; auto. apply ub_pline. Qed.
  Lemma tri_continuation f : forall out, tri (continuation cf fn f out).
  Proof.
    induction f as [|f IH]; intro out; cbn [continuation]; [apply tri_fuel|].
    apply tri_bind; [apply tri_next|intros _]. apply tri_bind; [apply tri_get|intros cur].
    apply tri_bind; [apply tri_find_quote|intros [i|]]; [|apply tri_ret].
    apply tri_bind; [destruct (_ && _); [apply tri_warning|apply tri_ret]|intros _].
    apply tri_bind; [apply tri_get_string_line|exact IH].
  Qed.
  Lemma tri_get_string skip : tri (get_string cf fn skip).
  Proof.
    intros s Hs. rewrite get_string_eq. apply tri_bind; auto; [apply tri_run_lex, ub_pfirst|apply tri_continuation].
  Qed.
  Lemma tri_plural_call p : pf_valid p = true -> tri (dict_call_ cf (CallPlural p)).
  Proof. intros Hc s Hs. apply H_plural; auto. Qed.
  Lemma J_logs ls : forall s, J s -> J (st_tr s (p_tr s ++ List.map EvLog ls)).
  Proof.
    induction ls as [|l ls IH]; intros s Hs; simpl.
    - rewrite app_nil_r. destruct s; exact Hs.
    - specialize (IH _ (H_log s l Hs)). simpl in IH. rewrite <- app_assoc in IH. exact IH.
  Qed.
  Lemma tri_add op : tri (dict_add cf op).
  Proof.
    unfold dict_add. apply tri_get_bind. intros s Hs. unfold mbind, emit, mmod.
    apply (H_add _ op), J_logs, Hs.
  Qed.
  Lemma tri_convert t : tri (do_convert cf t).
  Proof. intros s Hs. apply H_conv, Hs. Qed.
  Lemma tri_header_line l cs : tri (header_line cf fn l cs).
  Proof.
    unfold header_line. destruct (starts_with content_type l).
    - destruct (starts_with content_type_full l).
      + destruct (cf_strict cf && _) eqn:E; [|apply tri_ret].
        intros s Hs. simpl. apply andb_prop in E. apply H_ub; tauto.
      + apply tri_bind; [apply tri_warning|intros _; apply tri_ret].
    - destruct (starts_with plural_forms_key l); [|apply tri_ret].
      apply tri_bind.
      + intros s Hs. unfold mlift. unfold from_string.
        destruct (cf_strict cf && _) eqn:E; cbn [post omap].
        * apply andb_prop in E. apply H_ub; tauto.
        * destruct (assoc _ _); exact Hs.
      + intro pf. apply tri_bind; [|intros _; apply tri_ret].
        destruct (pf_valid pf) eqn:Ev; cbn [negb]; [|apply tri_warning].
        apply tri_bind; [apply tri_get|intros d].
        apply tri_bind; [|intros _; apply tri_plural_call; exact Ev].
        destruct (pf_valid (get_plural_forms d)); [|apply tri_ret]. destruct (negb _); [apply tri_warning|apply tri_ret].
  Qed.
  Lemma tri_header_loop h : forall acc cs, tri (header_loop cf fn h acc cs).
  Proof.
    induction h as [|c h IH]; intros acc cs; cbn [header_loop]; [apply tri_ret|].
    destruct (byte_eqb c c_lf); [|apply IH]. apply tri_bind; [apply tri_header_line|intros; apply IH].
  Qed.
  Lemma tri_parse_header h : tri (parse_header cf fn h).
  Proof.
    unfold parse_header. apply tri_bind; [apply tri_header_loop|intros cs].
    apply tri_bind.
    - destruct (_ || _); [apply tri_bind; [apply tri_warning|intros; apply tri_ret]|].
      destruct (bytes_eqb _ _); [|apply tri_ret]. apply tri_bind; [|intros; apply tri_ret].
      intros s Hs. simpl. apply H_big5, Hs.
    - intros cs'. apply tri_get_bind. intros s Hs. apply H_set, Hs.
  Qed.
  Lemma tri_comments f : forall b, tri (comments cf f b).
  Proof.
    induction f as [|f IH]; intro b; cbn [comments]; [apply tri_fuel|].
    apply tri_bind; [apply tri_get|intros []]; [|apply tri_ret].
    apply tri_bind; [apply tri_get|intros cur]. apply tri_bind; [apply tri_next|intros; apply IH].
  Qed.
  Lemma tri_msgstr_loop f : forall v b, tri (msgstr_loop cf fn f v b).
  Proof.
    induction f as [|f IH]; intros v b; cbn [msgstr_loop]; [apply tri_fuel|].
    apply tri_bind; [apply tri_empty|intros []].
    - destruct (is_nil v); [apply tri_error|apply tri_ret].
    - apply tri_bind; [apply tri_msgstr_n|intros []]; [|apply tri_error].
      apply tri_bind; [apply tri_get|intros cur]. apply tri_bind; [apply tri_get_string|intros m].
      apply tri_bind; [apply tri_convert|intros; apply IH].
  Qed.
  Lemma tri_plural_entry fz ctxt id : tri (plural_entry cf fn uf fz ctxt id).
  Proof.
    unfold plural_entry. apply tri_bind; [apply tri_get_string|intros mp].
    apply tri_bind; [apply tri_msgstr_loop|intros r]. apply tri_bind; [apply tri_empty|intros []]; cbn [negb]; [|apply tri_error].
    destruct (_ && _); [|apply tri_ret]. apply tri_bind; [apply tri_get|intros d].
    apply tri_bind; [|intros _; apply tri_add].
    destruct (negb _); [apply tri_warning|]. destruct (negb _); [apply tri_warning|apply tri_ret].
  Qed.
  Section Header.
  Hypothesis H_hdr : forall h, tri (parse_header cf fn h).
  Lemma trh_singular_entry fz ctxt id : tri (singular_entry cf fn uf fz ctxt id).
  Proof.
    unfold singular_entry. apply tri_bind; [apply tri_get_string|intros ms].
    destruct (is_nil id); [apply H_hdr|]. destruct (_ && _); [|apply tri_ret].
    apply tri_bind; [apply tri_convert|intros; apply tri_add].
  Qed.
  Lemma trh_entry fz : tri (entry cf fn uf fz).
  Proof.
    unfold entry. apply tri_bind; [apply tri_get|intros hc].
    apply tri_bind; [destruct hc; [apply tri_bind; [apply tri_get_string|intros; apply tri_ret]|apply tri_ret]|intros ctxt].
    apply tri_bind; [apply tri_get|intros hm].
    apply tri_bind; [destruct hm; [apply tri_get_string|apply tri_error]|intros id].
    apply tri_bind; [apply tri_get|intros []]; [apply tri_plural_entry|].
    apply tri_bind; [apply tri_get|intros []]; [apply trh_singular_entry|apply tri_error].
  Qed.
  Lemma trh_block : tri (block cf fn uf).
  Proof.
    unfold block. apply tri_bind; [apply tri_comments|intros fz]. apply tri_bind; [apply tri_empty|intros e].
    apply tri_bind; [destruct e; [apply tri_ret|apply trh_entry]|intros _].
    apply tri_bind; [apply tri_empty|intros e'].
    apply tri_bind; [destruct e'; [apply tri_ret|apply tri_error]|intros _]. apply tri_next.
  Qed.
  Lemma trh_try : tri (try_block cf fn uf).
  Proof.
    intros s Hs. pose proof (trh_block s Hs) as H. unfold try_block.
    destruct (block cf fn uf s) as [[a|[]|u| |] s']; simpl in *; auto.
  Qed.
  Lemma trh_loop f : tri (parse_loop cf fn uf f).
  Proof.
    induction f as [|f IH]; cbn [parse_loop]; [apply tri_fuel|].
    apply tri_bind; [apply tri_get|intros []]; [apply tri_ret|].
    apply tri_bind; [apply trh_try|intros; exact IH].
  Qed.
  Lemma trh_parse : tri (parse_member cf fn uf).
  Proof.
    unfold parse_member. apply tri_bind; [apply tri_next|intros _]. apply tri_bind; [|intros; apply trh_loop].
    intros s Hs. unfold mmod, post. destruct (starts_with bom (p_cur s)); [apply H_bom|]; exact Hs.
  Qed.
  End Header.

  (** the same rules, with the header code treated by the primitive rules *)
  Lemma tri_singular_entry fz ctxt id : tri (singular_entry cf fn uf fz ctxt id).
  Proof. apply trh_singular_entry, tri_parse_header. Qed.
  Lemma tri_entry fz : tri (entry cf fn uf fz).
  Proof. apply trh_entry, tri_parse_header. Qed.
  Lemma tri_block : tri (block cf fn uf).
  Proof. apply trh_block, tri_parse_header. Qed.
  Lemma tri_try : tri (try_block cf fn uf).
  Proof. apply trh_try, tri_parse_header. Qed.
  Lemma tri_loop f : tri (parse_loop cf fn uf f).
  Proof. apply trh_loop, tri_parse_header. Qed.
  Lemma tri_parse : tri (parse_member cf fn uf).
  Proof. apply trh_parse, tri_parse_header. Qed.
End Unary.

(** POParserError never escapes the main loop. *)
Lemma parse_loop_no_po cf fn uf f : forall s, fst (parse_loop cf fn uf f s) <> Exn ExPo.
Proof.
  induction f as [|f IH]; intro s; cbn [parse_loop]; [discriminate|].
  unfold mbind, mget. destruct (p_eof s); [discriminate|].
  unfold try_block. destruct (block cf fn uf s) as [[a|[]|u| |] s']; simpl; try discriminate; apply IH.
Qed.
Lemma parse_no_po cf fn uf s : fst (parse_member cf fn uf s) <> Exn ExPo.
Proof. unfold parse_member, mbind, mmod. rewrite next_line_eq. apply parse_loop_no_po. Qed.
