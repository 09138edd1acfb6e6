(** What the parser may say: a version of the invariant rule of ParserUnary in which
    the preservation of logging may use the text that is logged. *)
From Verif.Model Require Import Base Log PluralForms Dictionary IConv Stream PoParser.
From Verif.Spec Require Import DictSpec ParserSpec PoSpec DiagSpec.
From Verif.Proofs Require Import BaseFacts DictProofs LexProofs ParserUnary ParserRel ParserSafe ParserBlank.
Local Open Scope list_scope.

(** ** The texts of the pure scanners *)
Definition said {A} (r : lexres A) : Prop :=
  match r with
  | LOk ws _ | LUb ws => Forall a_warning ws
  | LErr ws m => Forall a_warning ws /\ In m error_texts
  end.
Ltac known := first [ solve [left; unfold warning_texts; cbn [In]; repeat (first [left; reflexivity|right])]
                    | solve [right; eexists; reflexivity]
                    | solve [unfold error_texts; cbn [In]; repeat (first [left; reflexivity|right])] ].
Lemma said_lwarn A w (r : lexres A) : a_warning w -> said r -> said (lwarn w r).
Proof. destruct r; cbn [said lwarn]; intros; try (constructor; assumption). destruct H0. split; auto. Qed.
Lemma said_lbind A B (r : lexres A) (f : A -> lexres B) :
  said r -> (forall a, said (f a)) -> said (lbind r f).
Proof.
  destruct r as [ws a|ws m|ws]; cbn [said lbind]; auto. intros Hw H. specialize (H a).
  destruct (f a); cbn [said] in *; [| |]; try (apply Forall_app; auto). destruct H. split; auto. apply Forall_app; auto.
Qed.
Lemma said_pscan b5 n : forall l i out, length l <= n -> said (pscan b5 i l out).
Proof.
  induction n as [|n IH]; intros [|c l] i out H; cbn [pscan length] in *; try (split; [constructor|known]); try lia.
  destruct (byte_eqb c c_dq); [constructor|].
  destruct (b5 && big5_lead c).
  { destruct l as [|c1 l]; [split; [constructor|known]|]. apply IH. cbn [length] in H. lia. }
  destruct (byte_eqb c c_bsl).
  { destruct l as [|c1 l]; [split; [constructor|known]|]. cbn [length] in H. destruct (unescape c1).
    - apply IH; lia.
    - apply said_lwarn; [known|]. apply IH; lia. }
  apply IH; lia.
Qed.
Lemma said_pgarbage st l : said (pgarbage st l).
Proof.
  induction l as [|c l IH]; cbn [pgarbage]; [constructor|].
  destruct (pctype st isspace c) as [[]|]; cbn [said]; auto. constructor; [known|constructor].
Qed.
Lemma said_pline st b5 out skip cur : nth skip cur c_nul = c_dq -> said (pline st b5 out skip cur).
Proof.
  intro Hq. unfold pline. destruct (_ <=? _); [split; [constructor|known]|]. rewrite Hq, byte_eqb_refl. cbn [negb].
  apply said_lbind; [eapply said_pscan; eauto|]. intro r. apply said_lbind; [apply said_pgarbage|]. intro; constructor.
Qed.
Lemma skipn_nth_cons (cur : bytes) skip c l : skipn skip cur = c :: l -> nth skip cur c_nul = c /\ skipn (skip + 1) cur = l.
Proof.
  revert cur. induction skip as [|k IH]; intros [|x cur] H; cbn [skipn] in H; try discriminate.
  - inversion H; subst. split; reflexivity.
  - apply IH in H. exact H.
Qed.
Lemma said_pskip st b5 cur l : forall out skip, skipn skip cur = l -> said (pskip st b5 cur out skip l).
Proof.
  induction l as [|c l IH]; intros out skip E; cbn [pskip]; [split; [constructor|known]|].
  destruct (skipn_nth_cons _ _ _ _ E) as [E1 E2].
  destruct (byte_eqb c c_dq) eqn:Eq; [apply said_pline; apply byte_eqb_eq in Eq; congruence|].
  destruct (pctype st isspace c) as [[]|]; [now apply IH|split; [constructor|known]|constructor].
Qed.
Lemma said_pfirst st pd b5 skip cur : said (pfirst st pd b5 skip cur).
Proof.
  unfold pfirst. destruct (_ <=? _); [split; [constructor|known]|].
  destruct (_ && _) eqn:E; [apply said_pline; apply andb_prop in E as [_ E]; now apply byte_eqb_eq in E|].
  destruct pd; [apply said_lwarn; [known|]|]; now apply said_pskip.
Qed.
Lemma pquote_nth st l : forall i j, pquote st i l = Some (Some j) -> exists k, j = i + k /\ nth k l c_nul = c_dq.
Proof.
  induction l as [|c l IH]; intros i j; cbn [pquote]; [discriminate|].
  destruct (byte_eqb c c_dq) eqn:Eq.
  - intro H. inversion H; subst. exists 0. split; [lia|]. now apply byte_eqb_eq in Eq.
  - destruct (pctype st isspace c) as [[]|]; try discriminate. intro H. apply IH in H as (k & -> & Hk). exists (S k). split; [lia|exact Hk].
Qed.

Section Said.
  Variable cf : config.
  Variable fn : bytes.
  Variable uf : bool.
  Local Notation I := (cf_iconv cf).
  Local Notation P := (M (pst I)).
  Variable J : pst I -> Prop.
  Variable K : outcome unit -> pst I -> Prop.
  Local Notation post := (post cf J K).
  Local Notation tri := (tri cf J K).

  Hypothesis H_next : forall s, J s -> J (nextst s).
  Hypothesis H_warn : forall s msg, a_warning msg -> J s ->
    J (st_tr s (p_tr s ++ [EvLog (log_warning (fn ++ bs ":" ++ dec_Z (p_line s) ++ bs ": warning: " ++ msg ++ bs ": " ++ p_cur s))])).
  Hypothesis H_err : forall s msg, In msg error_texts -> J s ->
    J (st_tr s (p_tr s ++ [EvLog (log_error (fn ++ bs ":" ++ dec_Z (p_line s) ++ bs ": error: " ++ msg ++ bs ": " ++ p_cur s))])).
  Hypothesis H_plural : forall s p, pf_valid p = true -> J s ->
    J (st_dict s (apply_call (p_dict s) (CallPlural p)) (p_calls s ++ [CallPlural p])).
  Hypothesis H_add : forall op, tri (dict_add cf op).
  Hypothesis H_big5 : forall s, J s -> J (st_big5 s true).
  Hypothesis H_conv : forall s t, J s -> post (do_convert cf t s).
  Hypothesis H_set : forall s c, J s -> post (do_set_charsets cf c (get_charset (p_dict s)) s).
  Hypothesis H_ub : forall s, cf_strict cf = true -> J s -> K (Ub UbCtype) s.
  Hypothesis H_fuel : forall s, J s -> K OutOfFuel s.

  Lemma sd_ret A (a : A) : tri (mret a). Proof. intros s H. exact H. Qed.
  Lemma sd_get A (f : pst I -> A) : tri (mget f). Proof. intros s H. exact H. Qed.
  Lemma sd_fuel A : tri (@mfail (pst I) A OutOfFuel). Proof. intros s H. apply H_fuel, H. Qed.
  Lemma sd_bind A B (m : P A) (f : A -> P B) : tri m -> (forall a, tri (f a)) -> tri (mbind m f).
  Proof. apply tri_bind. Qed.
  Lemma sd_next : tri (next_line cf). Proof. intros s H. rewrite next_line_eq. apply H_next, H. Qed.
  Lemma sd_warning w : a_warning w -> tri (warning cf fn w).
  Proof. intros Hw s H. rewrite warning_eq. now apply H_warn. Qed.
  Lemma J_warned ws : Forall a_warning ws -> forall s, J s -> J (warned_all cf fn ws s).
  Proof. induction 1 as [|w ws Hw _ IH]; intros s Hs; simpl; auto. apply IH, H_warn; auto. Qed.
  Lemma sd_empty : tri (is_empty_line cf). Proof. apply tri_empty; assumption. Qed.
  Lemma sd_msgstr_n : tri (is_msgstr_n cf). Proof. apply tri_msgstr_n; assumption. Qed.
  Lemma sd_recover f : tri (recover cf f). Proof. apply tri_recover; assumption. Qed.
  Lemma sd_error A m : In m error_texts -> tri (@error cf fn A m).
  Proof.
    intro Hm. unfold error. apply tri_get_bind. intros s Hs. unfold mbind at 1, emit, mmod.
    pose proof (sd_recover (S (S (length (is_rest (p_in s))))) _ (H_err s m Hm Hs)) as H2. unfold mbind.
    destruct (recover _ _ _) as [[a|[]|u| |] s']; simpl in *; auto.
  Qed.
  Lemma sd_run_lex A (r : lexres A) : ub_strict cf r -> said r -> tri (run_lex cf fn r).
  Proof.
    intros H Hr s Hs. rewrite run_lex_eq. destruct r as [ws a|ws m|ws].
    - simpl. now apply J_warned.
    - destruct Hr. apply sd_error; auto. now apply J_warned.
    - simpl. apply H_ub; auto. now apply J_warned.
  Qed.
  Lemma sd_continuation f : forall out, tri (continuation cf fn f out).
  Proof.
    induction f as [|f IH]; intro out; cbn [continuation]; [apply sd_fuel|].
    apply sd_bind; [apply sd_next|intros _]. apply tri_get_bind. intros s Hs.
    unfold mbind at 1. rewrite find_quote_eq. destruct (pquote _ _ _) as [[i|]|] eqn:Eq; cbn [run_opt].
    - unfold mret at 1; cbv beta iota. apply pquote_nth in Eq as (k & -> & Hk). cbn [plus].
      set (w := (k =? 1) && cf_pedantic cf).
      assert (G : forall s1, p_cur s1 = p_cur s -> J s1 ->
                post (mbind (get_string_line cf fn out k) (fun out' => continuation cf fn f out') s1)).
      { intros s1 E1 H1. unfold mbind. rewrite get_string_line_eq.
        assert (L : post (run_lex cf fn (pline (cf_strict cf) (p_big5 s1) out k (p_cur s1)) s1)).
        { apply sd_run_lex; [apply (ub_pline cf J K H_ub)|apply said_pline; now rewrite E1|exact H1]. }
        destruct (run_lex _ _ _ _) as [[a|[]|u| |] s']; cbn in L |- *; auto. now apply IH. }
      destruct w; unfold mbind at 1.
      + rewrite warning_eq. apply G; [reflexivity|]. apply H_warn; [known|exact Hs].
      + apply G; [reflexivity|exact Hs].
    - apply sd_ret, Hs.
    - apply H_ub; [|exact Hs]. eapply (pquote_none cf J K H_ub); eauto.
  Qed.
  Lemma sd_get_string skip : tri (get_string cf fn skip).
  Proof.
    intros s Hs. rewrite get_string_eq. apply tri_bind; auto; [apply sd_run_lex; [apply (ub_pfirst cf J K H_ub)|apply said_pfirst]|apply sd_continuation].
  Qed.
  Lemma sd_convert t : tri (do_convert cf t).
  Proof. intros s Hs. apply H_conv, Hs. Qed.
  Lemma sd_header_line l cs : tri (header_line cf fn l cs).
  Proof.
    unfold header_line. destruct (starts_with content_type l).
    - destruct (starts_with content_type_full l).
      + destruct (cf_strict cf && _) eqn:E; [|apply sd_ret].
        intros s Hs. simpl. apply andb_prop in E. apply H_ub; tauto.
      + apply sd_bind; [apply sd_warning; known|intros _; apply sd_ret].
    - destruct (starts_with plural_forms_key l); [|apply sd_ret].
      apply sd_bind.
      + intros s Hs. unfold mlift. unfold from_string.
        destruct (cf_strict cf && _) eqn:E; cbn [ParserUnary.post omap].
        * apply andb_prop in E. apply H_ub; tauto.
        * destruct (assoc _ _); exact Hs.
      + intro pf. apply sd_bind; [|intros _; apply sd_ret].
        destruct (pf_valid pf) eqn:Ev; cbn [negb]; [|apply sd_warning; known].
        apply sd_bind; [apply sd_get|intros d].
        apply sd_bind; [|intros _ s Hs; apply H_plural; auto].
        destruct (pf_valid (get_plural_forms d)); [|apply sd_ret]. destruct (negb _); [apply sd_warning; known|apply sd_ret].
  Qed.
  Lemma sd_header_loop h : forall acc cs, tri (header_loop cf fn h acc cs).
  Proof.
    induction h as [|c h IH]; intros acc cs; cbn [header_loop]; [apply sd_ret|].
    destruct (byte_eqb c c_lf); [|apply IH]. apply sd_bind; [apply sd_header_line|intros; apply IH].
  Qed.
  Lemma sd_parse_header h : tri (parse_header cf fn h).
  Proof.
    unfold parse_header. apply sd_bind; [apply sd_header_loop|intros cs].
    apply sd_bind.
    - destruct (_ || _); [apply sd_bind; [apply sd_warning; known|intros; apply sd_ret]|].
      destruct (bytes_eqb _ _); [|apply sd_ret]. apply sd_bind; [|intros; apply sd_ret].
      intros s Hs. simpl. apply H_big5, Hs.
    - intros cs'. apply tri_get_bind. intros s Hs. apply H_set, Hs.
  Qed.
  Lemma sd_comments f b : tri (comments cf f b). Proof. apply tri_comments; assumption. Qed.
  Lemma sd_msgstr_loop f : forall v b, tri (msgstr_loop cf fn f v b).
  Proof.
    induction f as [|f IH]; intros v b; cbn [msgstr_loop]; [apply sd_fuel|].
    apply sd_bind; [apply sd_empty|intros []].
    - destruct (is_nil v); [apply sd_error; known|apply sd_ret].
    - apply sd_bind; [apply sd_msgstr_n|intros []]; [|apply sd_error; known].
      apply sd_bind; [apply sd_get|intros cur]. apply sd_bind; [apply sd_get_string|intros m].
      apply sd_bind; [apply sd_convert|intros; apply IH].
  Qed.
  Lemma loop_ends_empty f : forall v b s r s', msgstr_loop cf fn f v b s = (Ret r, s') -> pempty (cf_strict cf) (p_cur s') = Some true.
  Proof.
    induction f as [|f IH]; intros v b s r s'; cbn [msgstr_loop]; [discriminate|].
    unfold mbind at 1. rewrite is_empty_line_eq. destruct (pempty _ _) as [[]|] eqn:Ee; cbn [run_opt]; [| |discriminate];
      unfold mret at 1; cbv beta iota.
    - destruct (is_nil v).
      + unfold error. rewrite mget_bind. unfold mbind, emit, mmod. destruct (recover _ _ _) as [[?|?|?| |] ?]; discriminate.
      + intro H. inversion H; subst. exact Ee.
    - unfold mbind at 1. rewrite is_msgstr_n_eq. destruct (pmsgstr_n _ _) as [[]|]; cbn [run_opt]; [| |discriminate];
        unfold mret at 1; cbv beta iota.
      + rewrite mget_bind. cbv zeta. unfold mbind at 1. destruct (get_string _ _ _ _) as [[m|?|?| |] s1]; try discriminate.
        unfold mbind. destruct (do_convert _ _ _) as [[x|?|?| |] s2]; try discriminate. apply IH.
      + unfold error. rewrite mget_bind. unfold mbind, emit, mmod. destruct (recover _ _ _) as [[?|?|?| |] ?]; discriminate.
  Qed.
  (** the message "expected 'msgstr[N]' or empty line" is unreachable *)
  Lemma sd_plural_entry fz ctxt id : tri (plural_entry cf fn uf fz ctxt id).
  Proof.
    unfold plural_entry. apply sd_bind; [apply sd_get_string|intros mp]. intros s Hs.
    pose proof (sd_msgstr_loop (cf_fuel cf) [] false s Hs) as H1. unfold mbind at 1.
    destruct (msgstr_loop _ _ _ _ _ s) as [[r|e|u| |] s1] eqn:E; try exact H1. cbn in H1. apply loop_ends_empty in E.
    unfold mbind at 1. rewrite is_empty_line_eq, E. cbn [run_opt]. unfold mret at 1; cbv beta iota. cbn [negb].
    revert s1 H1 E. intros s1 H1 _. revert s1 H1. change (tri (if snd r && (uf || negb fz) then
      mbind (mget p_dict) (fun d => mbind (if negb (pf_valid (get_plural_forms d)) then warning cf fn (bs "msgstr[N] seen, but no Plural-Forms given")
       else if negb (Z.of_nat (length (fst r)) =? get_nplural (get_plural_forms d))%Z
            then warning cf fn (bs "msgstr[N] count doesn't match Plural-Forms.nplural")
            else mret tt) (fun _ => dict_add cf (AddPlural ctxt id mp (fst r)))) else mret tt)).
    destruct (_ && _); [|apply sd_ret]. apply sd_bind; [apply sd_get|intros d].
    apply sd_bind; [|intros _; apply H_add].
    destruct (negb _); [apply sd_warning; known|]. destruct (negb _); [apply sd_warning; known|apply sd_ret].
  Qed.
  Lemma sd_singular_entry fz ctxt id : tri (singular_entry cf fn uf fz ctxt id).
  Proof.
    unfold singular_entry. apply sd_bind; [apply sd_get_string|intros ms].
    destruct (is_nil id); [apply sd_parse_header|]. destruct (_ && _); [|apply sd_ret].
    apply sd_bind; [apply sd_convert|intros; apply H_add].
  Qed.
  Lemma sd_entry fz : tri (entry cf fn uf fz).
  Proof.
    unfold entry. apply sd_bind; [apply sd_get|intros hc].
    apply sd_bind; [destruct hc; [apply sd_bind; [apply sd_get_string|intros; apply sd_ret]|apply sd_ret]|intros ctxt].
    apply sd_bind; [apply sd_get|intros hm].
    apply sd_bind; [destruct hm; [apply sd_get_string|apply sd_error; known]|intros id].
    apply sd_bind; [apply sd_get|intros []]; [apply sd_plural_entry|].
    apply sd_bind; [apply sd_get|intros []]; [apply sd_singular_entry|apply sd_error; known].
  Qed.
  Lemma sd_block : tri (block cf fn uf).
  Proof.
    unfold block. apply sd_bind; [apply sd_comments|intros fz]. apply sd_bind; [apply sd_empty|intros e].
    apply sd_bind; [destruct e; [apply sd_ret|apply sd_entry]|intros _].
    apply sd_bind; [apply sd_empty|intros e'].
    apply sd_bind; [destruct e'; [apply sd_ret|apply sd_error; known]|intros _]. apply sd_next.
  Qed.
  Lemma sd_try : tri (try_block cf fn uf).
  Proof.
    intros s Hs. pose proof (sd_block s Hs) as H. unfold try_block.
    destruct (block cf fn uf s) as [[a|[]|u| |] s']; simpl in *; auto.
  Qed.
  Lemma sd_loop f : tri (parse_loop cf fn uf f).
  Proof.
    induction f as [|f IH]; cbn [parse_loop]; [apply sd_fuel|].
    apply sd_bind; [apply sd_get|intros []]; [apply sd_ret|].
    apply sd_bind; [apply sd_try|intros; exact IH].
  Qed.
End Said.

(** ** Where the parser stands in the file *)
Lemma split_lines_nonnil b : split_lines b <> [].
Proof. destruct b as [|c b]; cbn [split_lines]; [discriminate|]. destruct (byte_eqb c c_lf); [discriminate|]. destruct (split_lines b); discriminate. Qed.
Lemma split_lines_line l : forall r, ~ In c_lf l -> split_lines (l ++ c_lf :: r) = l :: split_lines r.
Proof.
  induction l as [|c l IH]; intros r H; cbn [app split_lines].
  - rewrite byte_eqb_refl. reflexivity.
  - destruct (byte_eqb c c_lf) eqn:E; [apply byte_eqb_eq in E; subst; exfalso; apply H; left; reflexivity|].
    rewrite IH by (intro; apply H; right; assumption). reflexivity.
Qed.
Lemma split_lines_last l : ~ In c_lf l -> split_lines l = [l].
Proof.
  induction l as [|c l IH]; intro H; cbn [split_lines]; [reflexivity|].
  destruct (byte_eqb c c_lf) eqn:E; [apply byte_eqb_eq in E; subst; exfalso; apply H; left; reflexivity|].
  rewrite IH by (intro; apply H; right; assumption). reflexivity.
Qed.

Section Where.
  Variable cf : config.
  Variable fn : bytes.
  Local Notation I := (cf_iconv cf).
  Variable L : list bytes.      (* the lines of the file *)

  Definition stands (s : pst I) : Prop :=
    (1 <= p_line s)%Z /\
    if is_good (p_in s)
    then exists pre l, L = pre ++ l :: split_lines (is_rest (p_in s)) /\ p_line s = Z.of_nat (S (length pre)) /\ p_cur s = l
    else (Z.of_nat (length L) <= p_line s)%Z /\ p_cur s = last L [].

  Lemma stands_next s : stands s -> stands (nextst s).
  Proof.
    intros [H1 H]. unfold nextst. destruct (is_good (p_in s)) eqn:G.
    - destruct H as (pre & l0 & E & Hn & Hc).
      destruct (getline_cases _ (p_cur s) G) as [(R & _ & ->)|[(l & r & R & Hl & ->)|[(R & Hl & _ & ->)|(_ & Hl & ->)]]]; unfold stands; cbn.
      + split; [lia|]. rewrite E, R. cbn [split_lines]. split; [rewrite app_length; cbn [length]; lia|].
        change (pre ++ [l0; []]) with (pre ++ [l0] ++ [[]]). rewrite app_assoc, last_last. reflexivity.
      + split; [lia|]. exists (pre ++ [l0]), l. split; [|split; [rewrite app_length; cbn [length]; lia|reflexivity]].
        rewrite E, R, split_lines_line by exact Hl. now rewrite <- app_assoc.
      + split; [lia|]. rewrite E, split_lines_last by exact Hl. split; [rewrite app_length; cbn [length]; lia|].
        change (pre ++ [l0; is_rest (p_in s)]) with (pre ++ [l0] ++ [is_rest (p_in s)]). rewrite app_assoc, last_last. reflexivity.
      + split; [lia|]. rewrite E, split_lines_last by exact Hl. split; [rewrite app_length; cbn [length]; lia|].
        change (pre ++ [l0; is_rest (p_in s)]) with (pre ++ [l0] ++ [is_rest (p_in s)]). rewrite app_assoc, last_last. reflexivity.
    - rewrite (getline_bad _ _ G). unfold stands. cbn. destruct H as [H2 H3].
      split; [lia|]. destruct (is_eof (p_in s)); (split; [lia|exact H3]).
  Qed.
  Lemma last_nth (A : Type) (l : list A) d : last l d = nth (length l - 1) l d.
  Proof.
    induction l as [|x l IH]; [reflexivity|]. destruct l as [|y l]; [reflexivity|].
    change (last (x :: y :: l) d) with (last (y :: l) d). rewrite IH. cbn [length]. now replace (S (S (length l)) - 1) with (S (S (length l) - 1)) by lia.
  Qed.
  Lemma stands_line s : stands s -> (1 <= p_line s)%Z /\ p_cur s = nth (Nat.min (Z.to_nat (p_line s) - 1) (length L - 1)) L [].
  Proof.
    intros [H1 H]. split; [exact H1|]. destruct (is_good (p_in s)).
    - destruct H as (pre & l & E & Hn & Hc). rewrite Hc, E, Hn, Nat2Z.id, app_length. cbn [length].
      rewrite Nat.min_l by lia. replace (S (length pre) - 1) with (length pre) by lia. now rewrite nth_middle.
    - destruct H as [H2 H3]. rewrite H3, last_nth. f_equal. lia.
  Qed.
End Where.

Section Diagnostics.
  Variable cf : config.
  Variable fn b : bytes.
  Local Notation I := (cf_iconv cf).

  Definition told (s : pst I) : Prop :=
    forall l, In (EvLog l) (p_tr s) -> diagnostic fn b (p_line s) (adds (p_calls s)) l.
  Definition Jd (s : pst I) : Prop := stands cf (file_lines b) s /\ told s.

  Lemma diagnostic_more h h' ops ops' l : (h <= h')%Z -> (forall o, In o ops -> In o ops') ->
    diagnostic fn b h ops l -> diagnostic fn b h' ops' l.
  Proof.
    intros Hh H [(n & m & D1 & D2)|[(n & m & D1 & D2)|[(old & op & Hin & E)|D]]].
    - left. exists n, m. split; [lia|exact D2].
    - right. left. exists n, m. split; [lia|exact D2].
    - right; right; left; eauto.
    - right; right; right; exact D.
  Qed.
  Lemma adds_app a c : adds (a ++ c) = adds a ++ adds c.
  Proof. induction a as [|[] a IH]; cbn [app adds]; congruence. Qed.

  Lemma told_step (s : pst I) ev : told s -> (forall l, In (EvLog l) ev -> diagnostic fn b (p_line s) (adds (p_calls s)) l) ->
    forall l, In (EvLog l) (p_tr s ++ ev) -> diagnostic fn b (p_line s) (adds (p_calls s)) l.
  Proof. intros H Hev l Hin. apply in_app_or in Hin as [Hin|Hin]; auto. Qed.

  Lemma convert_said nd c t o c' ev h ops : @convert I nd c t = (o, c', ev) -> forall l, In (EvLog l) ev -> diagnostic fn b h ops l.
  Proof.
    unfold convert. intro H. destruct (cv_cd c); [inversion H; subst; intros l [] ..|].
    destruct (ic_conv _ _ _ _) as [[st' out] [e|]].
    - destruct e; try destruct nd; inversion H; subst; intros l Hin; cbn [In] in Hin;
        repeat (destruct Hin as [Hin|Hin]; [try discriminate Hin|]); try contradiction;
        inversion Hin; subst; right; right; right; eexists; reflexivity.
    - inversion H; subst. intros l [Hin|[]]. discriminate.
  Qed.
  Lemma close_said (c : cdesc I) l : ~ In (EvLog l) (close_events c).
  Proof. destruct c; cbn; intros [H|[]] || intros []; discriminate. Qed.
  Lemma set_said st c x y o c' ev : @set_charsets I st c x y = (o, c', ev) -> forall l, ~ In (EvLog l) ev.
  Proof.
    unfold set_charsets. intros H l. destruct (_ && _); [inversion H; subst; apply close_said|].
    destruct (bytes_eqb _ _); [inversion H; subst; apply close_said|].
    destruct (ic_open _ _ _) as [q|[q txt]]; inversion H; subst; [|apply close_said].
    intro Hin. apply in_app_or in Hin as [Hin|[Hin|[]]]; [now apply close_said in Hin|discriminate].
  Qed.

  Lemma Jd_loop f : tri cf Jd (fun _ => Jd) (parse_loop cf fn true f).
  Proof.
    apply sd_loop.
    - intros s [H1 H2]. split; [now apply stands_next|]. nx s. unfold told. rewrite Nt, Nc. intros l Hl.
      eapply diagnostic_more; [| |apply H2; exact Hl]; [|auto]. unfold nextst. destruct (getline _ _) as [[? ?] ?]. cbn. lia.
    - intros s msg Hm [H1 H2]. split; [exact H1|]. refine (told_step s _ H2 _). intros l [E|[]]. inversion E; subst. left.
      destruct (stands_line _ _ _ H1) as [L1 L2]. exists (p_line s), msg. split; [lia|]. split; [exact Hm|].
      rewrite L2 at 1. reflexivity.
    - intros s msg Hm [H1 H2]. split; [exact H1|]. refine (told_step s _ H2 _). intros l [E|[]]. inversion E; subst. right. left.
      destruct (stands_line _ _ _ H1) as [L1 L2]. exists (p_line s), msg. split; [lia|]. split; [exact Hm|].
      rewrite L2 at 1. reflexivity.
    - intros s p Hp [H1 H2]. split; [exact H1|]. intros l Hin. eapply diagnostic_more; [apply Z.le_refl| |apply H2; exact Hin].
      cbn [st_dict p_calls]. rewrite adds_app. intros o Ho. apply in_or_app. auto.
    - intros op s [H1 H2]. unfold dict_add. rewrite mget_bind. unfold mbind, emit, mmod, dict_call_, mmod, post. cbv beta iota.
      split; [exact H1|]. intros l. cbn [st_dict st_tr p_calls p_tr p_dict]. rewrite adds_app. cbn [adds]. intro Hin.
      apply in_app_or in Hin as [Hin|Hin].
      + eapply diagnostic_more; [apply Z.le_refl| |apply H2; exact Hin]. intros o Ho. apply in_or_app. auto.
      + destruct (add_log (p_dict s) op) as [(old & _ & _ & _ & E)|[_ E]]; rewrite E in Hin; cbn in Hin; [|contradiction].
        destruct Hin as [Hin|[]]. inversion Hin; subst. right. right. left. exists old, op. split; [|reflexivity].
        apply in_or_app. right. left. reflexivity.
    - intros s H. exact H.
    - intros s t [H1 H2]. unfold do_convert. destruct (convert _ _ _) as [[o c] ev] eqn:E.
      assert (G : Jd (st_tr (st_conv s c) (p_tr s ++ ev))).
      { split; [exact H1|]. refine (told_step s ev H2 _). eapply convert_said; eauto. }
      destruct o as [?|[]|?| |]; exact G.
    - intros s c [H1 H2]. unfold do_set_charsets. destruct (set_charsets _ _ _ _) as [[o c'] ev] eqn:E.
      assert (G : Jd (st_tr (st_conv s c') (p_tr s ++ ev))).
      { split; [exact H1|]. refine (told_step s ev H2 _). intros l Hl. exfalso. eapply set_said; eauto. }
      destruct o as [?|[]|?| |]; exact G.
    - intros s _ H. exact H.
    - intros s H. exact H.
  Qed.

  (** the first line, without the byte order mark *)
  Lemma drop_bom_line l r : ~ In c_lf l -> drop_bom (l ++ c_lf :: r) = drop_bom l ++ c_lf :: r.
  Proof.
    intros _. unfold drop_bom.
    assert (E : starts_with bom (l ++ c_lf :: r) = starts_with bom l).
    { apply eq_true_iff_eq. rewrite !starts_with_spec. split; intros [t H].
      - destruct l as [|x [|y [|z l]]]; try (exfalso; discriminate H). exists l. cbn in H |- *. now inversion H.
      - exists (t ++ c_lf :: r). now rewrite H, <- app_assoc. }
    rewrite E. destruct (starts_with bom l) eqn:S; [|reflexivity]. apply starts_with_spec in S as [t ->]. reflexivity.
  Qed.
  Lemma drop_bom_one l : ~ In c_lf l -> ~ In c_lf (drop_bom l).
  Proof. intros H Hin. unfold drop_bom in Hin. destruct (starts_with _ _); [|auto]. apply H. rewrite <- (firstn_skipn 3 l). apply in_or_app. auto. Qed.
  Lemma stands_first d : exists s, mbind (next_line cf) (fun _ => mmod (fun s => if starts_with bom (p_cur s) then st_cur s (skipn 3 (p_cur s)) else s))
      (init_state cf (stream_of b) d) = (Ret tt, s) /\ Jd s.
  Proof.
    unfold mbind. rewrite next_line_eq. unfold mmod. eexists. split; [reflexivity|].
    set (s1 := nextst _).
    assert (C : (if starts_with bom (p_cur s1) then st_cur s1 (skipn 3 (p_cur s1)) else s1) = st_cur s1 (drop_bom (p_cur s1))).
    { unfold drop_bom. destruct (starts_with bom (p_cur s1)); [reflexivity|]. destruct s1; reflexivity. }
    rewrite C. clear C. subst s1. unfold nextst.
    destruct (getline_good (stream_of b) [] eq_refl eq_refl) as [[R E]|[(l & r & R & Hl & E)|[R [Hl E]]]]; cbn [is_rest stream_of] in R.
    - change (p_in (init_state cf (stream_of b) d)) with (stream_of b). change (p_cur (init_state cf (stream_of b) d)) with (@nil ascii).
      rewrite E. split; [|intros l []]. split; [cbn; lia|]. cbn. unfold file_lines. rewrite R. split; [cbn; lia|reflexivity].
    - change (p_in (init_state cf (stream_of b) d)) with (stream_of b). change (p_cur (init_state cf (stream_of b) d)) with (@nil ascii).
      rewrite E. split; [|intros ? []]. split; [cbn; lia|]. cbn. unfold file_lines.
      exists [], (drop_bom l). rewrite R, drop_bom_line, split_lines_line by (try apply drop_bom_one; exact Hl). auto.
    - change (p_in (init_state cf (stream_of b) d)) with (stream_of b). change (p_cur (init_state cf (stream_of b) d)) with (@nil ascii).
      rewrite E. split; [|intros ? []]. split; [cbn; lia|]. cbn. cbn [stream_of is_rest] in Hl. unfold file_lines.
      rewrite split_lines_last by (apply drop_bom_one; exact Hl). split; [cbn; lia|reflexivity].
  Qed.

  Lemma parse_told d l : In (EvLog l) (pr_trace (po_parse cf fn (stream_of b) d)) ->
    diagnostic fn b (pr_lines (po_parse cf fn (stream_of b) d)) (adds (pr_calls (po_parse cf fn (stream_of b) d))) l.
  Proof.
    destruct (stands_first d) as (s & E & H). pose proof (Jd_loop (cf_fuel cf) s H) as G.
    unfold po_parse.
    assert (M : parse_member cf fn true (init_state cf (stream_of b) d) = parse_loop cf fn true (cf_fuel cf) s).
    { unfold parse_member. unfold mbind in E |- *. rewrite next_line_eq in *. unfold mmod in *. inversion E as [E1]. reflexivity. }
    rewrite M. clear M E H.
    destruct (parse_loop _ _ _ _ s) as [o s'] eqn:El. unfold pr_trace, pr_calls, pr_lines. intro Hin.
    assert (T : told s') by (destruct o as [?|[]|?| |]; apply G).
    apply in_app_or in Hin as [Hin|Hin]; [now apply T|].
    exfalso. destruct (finished o); [|contradiction]. now apply close_said in Hin.
  Qed.
End Diagnostics.
