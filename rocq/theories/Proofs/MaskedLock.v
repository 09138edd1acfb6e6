(** Parsing with an exception mask and without: any relation between computations that holds for
    everything that reads no line, and is respected by sequencing, by try and by next_line, relates
    the two parsers. *)
From Verif.Model Require Import Base Log PluralForms Dictionary IConv Stream PoParser Masked.
From Verif.Spec Require Import IConvSpec.
From Verif.Proofs Require Import BaseFacts IConvProofs ParserUnary ParserSafe.
Local Open Scope list_scope.

Section Lock.
  Variable mk : mask.
  Variable cf : config.
  Variable fn : bytes.
  Local Notation I := (cf_iconv cf).
  Local Notation P := (M (pst I)).

  (** dictionary calls and effects only get more *)
  Definition more (s s' : pst I) : Prop :=
    exists x y, p_calls s' = p_calls s ++ x /\ p_tr s' = p_tr s ++ y /\ p_dict s' = fold_left apply_call x (p_dict s).
  (** the iconv descriptor has been used properly so far, and can be closed *)
  Definition opened (s : pst I) : Prop := J_disc s.
  Definition calm {A} (o : outcome A) (s : pst I) : Prop :=
    match o with Ret _ | Exn ExPo => opened s | o => o <> Exn (ExRuntime io_failure) end.
  (** reads no line *)
  Definition keep {A} (m : P A) : Prop :=
    forall s, p_in (snd (m s)) = p_in s /\ p_line (snd (m s)) = p_line s /\ p_eof (snd (m s)) = p_eof s /\ p_cur (snd (m s)) = p_cur s /\ more s (snd (m s)) /\
      (opened s -> calm (fst (m s)) (snd (m s))).
  (** try { m } catch(POParserError&) {} *)
  Definition catching (m : P unit) : P unit :=
    fun s => match m s with (Exn ExPo, s') => (Ret tt, s') | r => r end.

  Lemma more_refl s : more s s.
  Proof. exists [], []. rewrite !app_nil_r. auto. Qed.
  Lemma more_trans a b c : more a b -> more b c -> more a c.
  Proof.
    intros (x & y & E1 & E2 & E3) (x' & y' & F1 & F2 & F3). exists (x ++ x'), (y ++ y').
    rewrite F1, F2, F3, E1, E2, E3, fold_left_app, !app_assoc. auto.
  Qed.
  Lemma keep_ret A (a : A) : keep (mret a). Proof. intro s. do 4 (split; [reflexivity|]). split; [apply more_refl|]. intro O. exact O. Qed.
  Lemma keep_fail A o : o <> Exn (ExRuntime io_failure) -> keep (@mfail (pst I) A o).
  Proof. intros N s. split; [reflexivity|]. split; [reflexivity|]. split; [reflexivity|]. split; [reflexivity|]. split; [apply more_refl|]. intro O.
    unfold mfail. destruct o as [[]|[]|?| |]; cbn [fst snd calm]; try exact O; try discriminate; intro E; apply N; congruence. Qed.
  Lemma keep_pf b x : keep (mlift (from_string b x)).
  Proof. unfold from_string, mlift. destruct (b && _); [|destruct (assoc _ _)]; intro s; (split; [reflexivity|]); (split; [reflexivity|]); (split; [reflexivity|]); (split; [reflexivity|]); (split; [apply more_refl|]); intro O; cbn [fst snd calm]; try exact O; discriminate. Qed.
  Lemma keep_get A (g : pst I -> A) : keep (mget g). Proof. intro s. do 4 (split; [reflexivity|]). split; [apply more_refl|]. intro O. exact O. Qed.
  Lemma keep_bind A B (m : P A) (g : A -> P B) : keep m -> (forall a, keep (g a)) -> keep (mbind m g).
  Proof.
    intros Hm Hg s. destruct (Hm s) as (E1 & E2 & E3 & Ec & E4 & E5). unfold mbind. destruct (m s) as [[a|e|?| |] s']; cbn [fst snd] in *;
      try (split; [exact E1|]; split; [exact E2|]; split; [exact E3|]; split; [exact Ec|]; split; [exact E4|]; intro O; specialize (E5 O)).
    - destruct (Hg a s') as (H1 & H2 & H3 & Hc & H4 & H5). rewrite H1, H2, H3, Hc. split; [exact E1|]. split; [exact E2|]. split; [exact E3|]. split; [exact Ec|].
      split; [eauto using more_trans|]. intro O. apply H5, E5, O.
    - destruct e; cbn [calm] in *; try exact E5; intro X; apply E5; congruence.
    - discriminate.
    - discriminate.
    - discriminate.
  Qed.
  Lemma more_tr s t : more s (st_tr s (p_tr s ++ t)).
  Proof. exists [], t. cbn. rewrite app_nil_r. auto. Qed.
  Lemma disciplined_logs ls : forall o n, disciplined o n (List.map EvLog ls) = Some (o, n).
  Proof. induction ls as [|l ls IH]; intros o n; [reflexivity|]. cbn [List.map disciplined]. apply IH. Qed.
  Lemma keep_emit ls : keep (emit cf (List.map EvLog ls)).
  Proof.
    intro s. split; [reflexivity|]. split; [reflexivity|]. split; [reflexivity|]. split; [reflexivity|]. split; [apply more_tr|]. intros (O1 & O2). split; [exact O1|].
    cbn [emit mmod snd st_tr p_tr p_conv]. rewrite disciplined_app, O2. apply disciplined_logs.
  Qed.
  Lemma keep_emit1 l : keep (emit cf [EvLog l]). Proof. exact (keep_emit [l]). Qed.
  Lemma keep_call c : keep (dict_call_ cf c).
  Proof. intro s. split; [reflexivity|]. split; [reflexivity|]. split; [reflexivity|]. split; [reflexivity|]. split; [exists [c], []; cbn; rewrite app_nil_r; auto|]. intro O. exact O. Qed.
  Lemma keep_ctype A (g : byte -> A) c : keep (ctype cf g c).
  Proof. unfold ctype. destruct (_ && _); [apply keep_fail; discriminate|apply keep_ret]. Qed.
  Lemma keep_convert t : keep (do_convert cf t).
  Proof.
    intro s. unfold do_convert. destruct (convert _ _ _) as [[o c] ev] eqn:E. split; [reflexivity|]. split; [reflexivity|]. split; [reflexivity|]. split; [reflexivity|].
    split; [exact (more_tr (st_conv s c) ev)|]. intros (O1 & O2).
    destruct (convert_disciplined _ _ _ _ _ _ _ E O1) as (X1 & X2 & X3 & X4).
    destruct (convert_outcome _ _ _ _ _ _ _ E O1) as [[b ->]|[-> Hn]]; [|discriminate].
    split; [exact X1|]. cbn [snd st_tr st_conv p_tr p_conv]. rewrite disciplined_app, O2. exact X4.
  Qed.
  Lemma set_message (c : iconv I) f t w c' ev : set_charsets (cf_strict cf) c f t = (Exn w, c', ev) -> Exn (A := unit) w <> Exn (ExRuntime io_failure) /\ w <> ExPo.
  Proof.
    unfold set_charsets. destruct (_ && _); [discriminate|]. destruct (bytes_eqb _ _); [discriminate|].
    destruct (ic_open _ _ _) as [?|[e x]]; [discriminate|]. destruct e; intro E; injection E as <- _ _; (split; [|discriminate]); intro E; injection E as E; discriminate E.
  Qed.
  Lemma keep_set a b : keep (do_set_charsets cf a b).
  Proof.
    intro s. unfold do_set_charsets. destruct (set_charsets _ _ _ _) as [[o c] ev] eqn:E. split; [reflexivity|]. split; [reflexivity|]. split; [reflexivity|]. split; [reflexivity|].
    split; [exact (more_tr (st_conv s c) ev)|]. intros (O1 & O2).
    destruct (set_outcome _ _ _ _ _ _ _ _ E) as [[-> Hn]|[[w ->]|[-> Hs]]]; [| |discriminate].
    - destruct (set_charsets_disciplined _ _ _ _ _ _ _ _ E O1 ltac:(discriminate)) as (X1 & _).
      split; [exact Hn|]. cbn [snd st_tr st_conv p_tr p_conv]. rewrite disciplined_app, O2. auto.
    - exact (proj1 (set_message _ _ _ _ _ _ E)).
  Qed.
  Ltac kp := repeat (intros; cbv zeta;
    lazymatch goal with
    | |- keep (mbind _ _) => apply keep_bind
    | |- keep (mret _) => apply keep_ret
    | |- keep (mfail _) => apply keep_fail; discriminate
    | |- keep (mlift _) => apply keep_pf
    | |- keep (mget _) => apply keep_get
    | |- keep (emit _ _) => first [apply keep_emit1|apply keep_emit]
    | |- keep (dict_call_ _ _) => apply keep_call
    | |- keep (ctype _ _ _) => apply keep_ctype
    | |- keep (do_convert _ _) => apply keep_convert
    | |- keep (do_set_charsets _ _ _) => apply keep_set
    | |- keep (if ?b then _ else _) => destruct b
    | |- keep (match ?x with _ => _ end) => destruct x
    end).
  Lemma keep_warning m : keep (warning cf fn m). Proof. unfold warning. kp. Qed.
  Lemma keep_cur_at i : keep (cur_at cf i). Proof. unfold cur_at. kp. Qed.
  Lemma keep_all_space l : keep (all_space cf l). Proof. induction l; cbn [all_space]; kp. apply IHl. Qed.
  Lemma keep_empty : keep (is_empty_line cf). Proof. unfold is_empty_line. kp. apply keep_all_space. Qed.
  Lemma keep_garbage l : keep (check_garbage cf fn l).
  Proof. induction l; cbn [check_garbage]; kp; [apply IHl|apply keep_warning]. Qed.
  Lemma keep_find_quote l : forall i, keep (find_quote cf i l).
  Proof. induction l; intro i; cbn [find_quote]; kp. apply IHl. Qed.
  Lemma keep_prefix p : keep (prefix cf p). Proof. unfold prefix. kp. Qed.
  Lemma keep_add op : keep (dict_add cf op). Proof. unfold dict_add. kp. Qed.
  Lemma keep_msgstr_n : keep (is_msgstr_n cf). Proof. unfold is_msgstr_n. kp. Qed.
  Lemma keep_header_line l cs : keep (header_line cf fn l cs).
  Proof. unfold header_line. kp; apply keep_warning. Qed.
  Lemma keep_header_loop h : forall acc cs, keep (header_loop cf fn h acc cs).
  Proof. induction h as [|c h IH]; intros acc cs; cbn [header_loop]; kp; try apply IH. apply keep_header_line. Qed.
  Lemma keep_big5 : keep (mmod (fun s : pst I => st_big5 s true)).
  Proof. intro s. split; [reflexivity|]. split; [reflexivity|]. split; [reflexivity|]. split; [reflexivity|]. split; [exists [], []; cbn; rewrite !app_nil_r; auto|]. intro O. exact O. Qed.
  Lemma keep_parse_header h : keep (parse_header cf fn h).
  Proof. unfold parse_header. kp; first [apply keep_header_loop|apply keep_warning|apply keep_big5]. Qed.


  Variable R : forall A, P A -> P A -> Prop.
  Hypothesis R_keep : forall A (m : P A), keep m -> R A m m.
  Hypothesis R_bind : forall A B (w m : P A) (v g : A -> P B), R A w m -> (forall a, R B (v a) (g a)) -> R B (mbind w v) (mbind m g).
  Hypothesis R_next : R unit (x_next_line mk cf) (next_line cf).
  Definition strip_bom : P unit := mmod (fun s : pst I => if starts_with bom (p_cur s) then st_cur s (skipn 3 (p_cur s)) else s).
  Hypothesis R_bom : R unit strip_bom strip_bom.
  Hypothesis R_try : forall w m, R unit w m -> R unit (catching w) (catching m).

  Ltac rl1 := intros; cbv zeta;
    lazymatch goal with
    | |- R _ (mbind _ _) (mbind _ _) => apply R_bind
    | |- R _ (x_next_line _ _) _ => apply R_next
    | |- R _ (mret _) _ => apply R_keep, keep_ret
    | |- R _ (mfail _) _ => apply R_keep, keep_fail; discriminate
    | |- R _ (mlift _) _ => apply R_keep, keep_pf
    | |- R _ (mget _) _ => apply R_keep, keep_get
    | |- R _ (emit _ _) _ => apply R_keep; first [apply keep_emit1|apply keep_emit]
    | |- R _ (warning _ _ _) _ => apply R_keep, keep_warning
    | |- R _ (cur_at _ _) _ => apply R_keep, keep_cur_at
    | |- R _ (ctype _ _ _) _ => apply R_keep, keep_ctype
    | |- R _ (is_empty_line _) _ => apply R_keep, keep_empty
    | |- R _ (check_garbage _ _ _) _ => apply R_keep, keep_garbage
    | |- R _ (find_quote _ _ _) _ => apply R_keep, keep_find_quote
    | |- R _ (prefix _ _) _ => apply R_keep, keep_prefix
    | |- R _ (dict_add _ _) _ => apply R_keep, keep_add
    | |- R _ (is_msgstr_n _) _ => apply R_keep, keep_msgstr_n
    | |- R _ (do_convert _ _) _ => apply R_keep, keep_convert
    | |- R _ (parse_header _ _ _) _ => apply R_keep, keep_parse_header
    | |- R _ (if ?b then _ else _) (if ?b then _ else _) => destruct b
    | |- R _ (match ?x with _ => _ end) (match ?x with _ => _ end) => destruct x
    end.
  Ltac rls := repeat rl1; intros.

  Lemma lk_recover g : R _ (x_recover mk cf g) (recover cf g).
  Proof. induction g as [|g IH]; cbn [recover x_recover]; rls. apply IH. Qed.
  Lemma lk_error A m : R _ (@x_error mk cf fn A m) (error cf fn m).
  Proof. unfold error, x_error. rls. apply lk_recover. Qed.
  Lemma lk_scan g : forall i out, R _ (x_scan_string mk cf fn g i out) (scan_string cf fn g i out).
  Proof. induction g as [|g IH]; intros i out; cbn [scan_string x_scan_string]; rls; first [apply lk_error|apply IH]. Qed.
  Lemma lk_string_line out k : R _ (x_get_string_line mk cf fn out k) (get_string_line cf fn out k).
  Proof.
    unfold get_string_line, x_get_string_line.
    rls; first [apply lk_error|apply lk_scan].
  Qed.
  Lemma lk_skip g : forall out k, R _ (x_skip_to_string mk cf fn g out k) (skip_to_string cf fn g out k).
  Proof.
    induction g as [|g IH]; intros out k; cbn [skip_to_string x_skip_to_string]; [rls|].
    rls; first [apply lk_error|apply lk_string_line|apply IH].
  Qed.
  Lemma lk_continuation g : forall out, R _ (x_continuation mk cf fn g out) (continuation cf fn g out).
  Proof. induction g as [|g IH]; intro out; cbn [continuation x_continuation]; rls; first [apply lk_string_line|apply IH]. Qed.
  Lemma lk_get_string k : R _ (x_get_string mk cf fn k) (get_string cf fn k).
  Proof.
    unfold get_string, x_get_string.
    rls; first [apply lk_error|apply lk_string_line|apply lk_skip|apply lk_continuation].
  Qed.
  Lemma lk_comments g : forall b, R _ (x_comments mk cf g b) (comments cf g b).
  Proof. induction g as [|g IH]; intro b; cbn [comments x_comments]; rls; apply IH. Qed.
  Lemma lk_loop g : forall v b, R _ (x_msgstr_loop mk cf fn g v b) (msgstr_loop cf fn g v b).
  Proof. induction g as [|g IH]; intros v b; cbn [msgstr_loop x_msgstr_loop]; rls; first [apply lk_error|apply lk_get_string|apply IH]. Qed.
  Lemma lk_plural z c i : R _ (x_plural_entry mk cf fn true z c i) (plural_entry cf fn true z c i).
  Proof. unfold plural_entry, x_plural_entry. rls; first [apply lk_error|apply lk_get_string|apply lk_loop]. Qed.
  Lemma lk_singular z c i : R _ (x_singular_entry mk cf fn true z c i) (singular_entry cf fn true z c i).
  Proof. unfold singular_entry, x_singular_entry. rls; apply lk_get_string. Qed.
  Lemma lk_entry z : R _ (x_entry mk cf fn true z) (entry cf fn true z).
  Proof. unfold entry, x_entry. rls; first [apply lk_error|apply lk_get_string|apply lk_plural|apply lk_singular]. Qed.
  Lemma lk_block : R _ (x_block mk cf fn true) (block cf fn true).
  Proof. unfold block, x_block. rls; first [apply lk_error|apply lk_comments|apply lk_entry]. Qed.
  Lemma lk_try : R _ (x_try_block mk cf fn true) (try_block cf fn true).
  Proof. exact (R_try _ _ lk_block). Qed.
  Lemma lk_parse_loop g : R _ (x_parse_loop mk cf fn true g) (parse_loop cf fn true g).
  Proof. induction g; cbn [parse_loop x_parse_loop]; rls; [apply lk_try|assumption]. Qed.
  Lemma lk_parse : R _ (x_parse_member mk cf fn true) (parse_member cf fn true).
  Proof. unfold parse_member, x_parse_member. apply R_bind; [apply R_next|intros _]. apply R_bind; [exact R_bom|intros _; apply lk_parse_loop]. Qed.
End Lock.
