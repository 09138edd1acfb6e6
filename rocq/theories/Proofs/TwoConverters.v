(** Two parsers with different iconv implementations, in lock-step. *)
From Verif.Model Require Import Base Log PluralForms Dictionary IConv Stream PoParser.
From Verif.Proofs Require Import BaseFacts LexProofs ParserUnary.
Local Open Scope list_scope.

Section Two.
  Variables I1 I0 : iconv_impl.
  Variables pedantic strict nd : bool.
  Variable f : nat.
  Variable fn : bytes.
  Definition with_lib (I : iconv_impl) : config :=
    {| cf_pedantic := pedantic; cf_strict := strict; cf_ndebug := nd; cf_fuel := f; cf_iconv := I |}.
  Local Notation cf1 := (with_lib I1).
  Local Notation cf0 := (with_lib I0).
  Variable X : iconv I1 -> iconv I0 -> Prop.
  Variable T : list event -> list event -> Prop.
  Hypothesis T_app : forall a b a' b', T a b -> T a' b' -> T (a ++ a') (b ++ b').
  Hypothesis T_log : forall ls, T (List.map EvLog ls) (List.map EvLog ls).
  Hypothesis X_convert : forall c1 c0 text, X c1 c0 ->
    let '(o1, c1', ev1) := convert nd c1 text in let '(o0, c0', ev0) := convert nd c0 text in
    o1 = o0 /\ X c1' c0' /\ T ev1 ev0.
  Hypothesis X_set : forall c1 c0 from to, X c1 c0 ->
    let '(o1, c1', ev1) := set_charsets strict c1 from to in let '(o0, c0', ev0) := set_charsets strict c0 from to in
    o1 = o0 /\ X c1' c0' /\ T ev1 ev0.
  Hypothesis X_new : X (iconv_new I1) (iconv_new I0).
  Hypothesis X_destroy : forall c1 c0, X c1 c0 -> T (iconv_destroy c1) (iconv_destroy c0).

  Record sim (s1 : pst I1) (s0 : pst I0) : Prop := {
    s_in : p_in s1 = p_in s0; s_dict : p_dict s1 = p_dict s0; s_eof : p_eof s1 = p_eof s0; s_big5 : p_big5 s1 = p_big5 s0;
    s_line : p_line s1 = p_line s0; s_cur : p_cur s1 = p_cur s0; s_calls : p_calls s1 = p_calls s0;
    s_conv : X (p_conv s1) (p_conv s0); s_tr : T (p_tr s1) (p_tr s0) }.
  Definition lock {A} (m1 : M (pst I1) A) (m0 : M (pst I0) A) : Prop :=
    forall s1 s0, sim s1 s0 -> fst (m1 s1) = fst (m0 s0) /\ sim (snd (m1 s1)) (snd (m0 s0)).

  Lemma lk_bind A B (m1 : M _ A) (m0 : M _ A) (g1 : A -> M _ B) (g0 : A -> M _ B) : lock m1 m0 -> (forall a, lock (g1 a) (g0 a)) -> lock (mbind m1 g1) (mbind m0 g0).
  Proof.
    intros Hm Hg s1 s0 H. destruct (Hm s1 s0 H) as [Ho Hs]. unfold mbind. destruct (m1 s1) as [o1 s1'], (m0 s0) as [o0 s0']. cbn [fst snd] in *. subst o0.
    destruct o1 as [a|?|?| |]; [apply Hg, Hs| | | |]; (split; [reflexivity|exact Hs]).
  Qed.
  Lemma lk_ret A (a : A) : lock (mret a) (mret a).
  Proof. intros s1 s0 H. split; [reflexivity|exact H]. Qed.
  Lemma lk_fail A o : lock (@mfail _ A o) (mfail o).
  Proof. intros s1 s0 H. split; [reflexivity|exact H]. Qed.
  Lemma lk_lift A (o : outcome A) : lock (mlift o) (mlift o).
  Proof. intros s1 s0 H. split; [reflexivity|exact H]. Qed.
  Lemma lk_get A (g1 : pst I1 -> A) (g0 : pst I0 -> A) : (forall s1 s0, sim s1 s0 -> g1 s1 = g0 s0) -> lock (mget g1) (mget g0).
  Proof. intros Hg s1 s0 H. split; [cbn [mget fst]; f_equal; now apply Hg|exact H]. Qed.
  Lemma lk_state A (g1 : pst I1 -> M _ A) (g0 : pst I0 -> M _ A) : (forall s1 s0, sim s1 s0 -> lock (g1 s1) (g0 s0)) ->
    lock (mbind (mget (fun s => s)) g1) (mbind (mget (fun s => s)) g0).
  Proof. intros Hg s1 s0 H. unfold mbind, mget; cbn [fst snd]; apply (Hg s1 s0 H); exact H. Qed.
  Lemma lk_mod (g1 : pst I1 -> pst I1) (g0 : pst I0 -> pst I0) : (forall s1 s0, sim s1 s0 -> sim (g1 s1) (g0 s0)) -> lock (mmod g1) (mmod g0).
  Proof. intros Hg s1 s0 H. split; [reflexivity|cbn [mmod snd]; now apply Hg]. Qed.
  Lemma lk_emit ls : lock (emit cf1 (List.map EvLog ls)) (emit cf0 (List.map EvLog ls)).
  Proof. apply lk_mod. intros s1 s0 []. split; cbn; auto. Qed.
  Lemma lk_if A (b : bool) (m1 n1 : M _ A) (m0 n0 : M _ A) : lock m1 m0 -> lock n1 n0 -> lock (if b then m1 else n1) (if b then m0 else n0).
  Proof. destruct b; auto. Qed.
  Lemma lk_warning w : lock (warning cf1 fn w) (warning cf0 fn w).
  Proof.
    apply lk_state. intros s1 s0 []. cbn. rewrite s_line0, s_cur0.
    exact (lk_emit [log_warning (fn ++ bs ":" ++ dec_Z (p_line s0) ++ bs ": warning: " ++ w ++ bs ": " ++ p_cur s0)]).
  Qed.
  Lemma lk_next : lock (next_line cf1) (next_line cf0).
  Proof.
    apply lk_mod. intros s1 s0 []. cbn [cf_iconv with_lib]. rewrite s_in0, s_cur0. destruct (getline _ _) as [[? ?] ?]. split; cbn; auto; now rewrite ?s_eof0, ?s_line0.
  Qed.
  Lemma lk_ctype A (g : byte -> A) c : lock (ctype cf1 g c) (ctype cf0 g c).
  Proof. unfold ctype. apply lk_if; [apply lk_fail|apply lk_ret]. Qed.

  Ltac lk1 := intros; cbv zeta;
    lazymatch goal with
    | |- lock (mbind (mget (fun s => s)) _) _ => apply lk_state; intros
    | |- lock (mbind _ _) _ => apply lk_bind
    | |- lock (mret _) _ => apply lk_ret
    | |- lock (mfail _) _ => apply lk_fail
    | |- lock (mlift _) _ => apply lk_lift
    | |- lock (mget _) _ => apply lk_get; let H := fresh in intros ? ? H; destruct H; cbn [cf_iconv with_lib] in *; congruence
    | |- lock (warning _ _ _) (warning _ _ _) => apply lk_warning
    | |- lock (next_line _) _ => apply lk_next
    | |- lock (ctype _ _ _) _ => apply lk_ctype
    | |- lock (if ?b then _ else _) (if ?b then _ else _) => destruct b
    | |- lock (match ?x with _ => _ end) (match ?x with _ => _ end) => destruct x
    end.
  Ltac lk := repeat lk1; intros.

  Lemma lk_cur_at i : lock (cur_at cf1 i) (cur_at cf0 i).
  Proof. unfold cur_at. lk. Qed.
  Lemma lk_all_space l : lock (all_space cf1 l) (all_space cf0 l).
  Proof. induction l; cbn [all_space]; lk. apply IHl. Qed.
  Lemma lk_empty : lock (is_empty_line cf1) (is_empty_line cf0).
  Proof. unfold is_empty_line. lk. apply lk_all_space. Qed.
  Lemma lk_recover g : lock (recover cf1 g) (recover cf0 g).
  Proof. induction g as [|g IH]; cbn [recover]; lk; first [apply lk_empty|apply IH|idtac]. Qed.
  Lemma lk_error A m : lock (@error cf1 fn A m) (error cf0 fn m).
  Proof.
    unfold error. apply lk_state. intros s1 s0 [A1 A2 A3 A4 A5 A6 A7 A8 A9]. cbn [cf_iconv with_lib]. rewrite A1, A5, A6. apply lk_bind; [|intros _; apply lk_bind; [apply lk_recover|intros _; apply lk_fail]].
    exact (lk_emit [log_error (fn ++ bs ":" ++ dec_Z (p_line s0) ++ bs ": error: " ++ m ++ bs ": " ++ p_cur s0)]).
  Qed.
  Lemma lk_run_lex A (r : lexres A) : lock (run_lex cf1 fn r) (run_lex cf0 fn r).
  Proof.
    assert (W : forall ws, lock (warns cf1 fn ws) (warns cf0 fn ws)) by (induction ws as [|w ws IH]; [exact (lk_ret _ tt)|exact (lk_bind _ _ _ _ _ _ (lk_warning w) (fun _ => IH))]).
    destruct r as [ws a|ws m|ws]; refine (lk_bind _ _ _ _ _ _ (W ws) (fun _ => _)); [apply lk_ret|apply lk_error|apply lk_fail].
  Qed.
  Lemma lk_scan A (m1 : M _ A) (m0 : M _ A) (g : bool -> bytes -> lexres A) :
    (forall s, m1 s = run_lex cf1 fn (g (p_big5 s) (p_cur s)) s) -> (forall s, m0 s = run_lex cf0 fn (g (p_big5 s) (p_cur s)) s) -> lock m1 m0.
  Proof.
    intros E1 E0 s1 s0 H. rewrite E1, E0. assert (Y : p_big5 s1 = p_big5 s0 /\ p_cur s1 = p_cur s0) by (destruct H; split; assumption).
    destruct Y as [Y1 Y2]. cbn [cf_iconv with_lib]. rewrite Y1, Y2. apply lk_run_lex, H.
  Qed.
  Lemma lk_string_line out k : lock (get_string_line cf1 fn out k) (get_string_line cf0 fn out k).
  Proof. apply (lk_scan _ _ _ (fun b5 c => pline strict b5 out k c)); intro s; [exact (get_string_line_eq cf1 fn out k s)|exact (get_string_line_eq cf0 fn out k s)]. Qed.
  Lemma lk_find_quote i l : lock (find_quote cf1 i l) (find_quote cf0 i l).
  Proof. revert i. induction l; intro i; cbn [find_quote]; lk; auto. Qed.
  Lemma lk_continuation g : forall out, lock (continuation cf1 fn g out) (continuation cf0 fn g out).
  Proof.
    induction g as [|g IH]; intro out; cbn [continuation]; lk; first [apply lk_find_quote|apply lk_string_line|apply IH|apply lk_if; [apply lk_warning|apply lk_ret]|idtac].
  Qed.
  Lemma lk_skip g : forall out k, lock (skip_to_string cf1 fn g out k) (skip_to_string cf0 fn g out k).
  Proof. induction g as [|g IH]; intros out k; cbn [skip_to_string]; lk; first [apply lk_error|apply lk_cur_at|apply lk_string_line|apply IH]. Qed.
  Lemma lk_get_string k : lock (get_string cf1 fn k) (get_string cf0 fn k).
  Proof.
    unfold get_string. lk; try first [apply lk_error|apply lk_cur_at|apply lk_string_line|apply lk_skip|apply lk_continuation|apply lk_if; [apply lk_warning|apply lk_ret]].
  Qed.
  Lemma lk_call c : lock (dict_call_ cf1 c) (dict_call_ cf0 c).
  Proof. apply lk_mod. intros s1 s0 []. split; cbn; auto; congruence. Qed.
  Lemma lk_add op : lock (dict_add cf1 op) (dict_add cf0 op).
  Proof.
    unfold dict_add. lk; [|apply lk_call].
    match goal with |- lock (emit _ (List.map EvLog ?l)) _ => exact (lk_emit l) end.
  Qed.
  Lemma lk_convert x : lock (do_convert cf1 x) (do_convert cf0 x).
  Proof.
    intros s1 s0 H. pose proof (X_convert _ _ x (s_conv _ _ H)) as C. unfold do_convert. cbn [cf_ndebug with_lib cf_iconv].
    destruct (convert nd (p_conv s1) x) as [[o c] ev], (convert nd (p_conv s0) x) as [[o' c'] ev']. destruct C as (-> & C & Ev). split; [reflexivity|]. destruct H. split; cbn; auto.
  Qed.
  Lemma lk_set a b : lock (do_set_charsets cf1 a b) (do_set_charsets cf0 a b).
  Proof.
    intros s1 s0 H. pose proof (X_set _ _ a b (s_conv _ _ H)) as C. unfold do_set_charsets. cbn [cf_strict with_lib cf_iconv].
    destruct (set_charsets strict (p_conv s1) a b) as [[o c] ev], (set_charsets strict (p_conv s0) a b) as [[o' c'] ev']. destruct C as (-> & C & Ev). split; [reflexivity|]. destruct H. split; cbn; auto.
  Qed.
  Lemma lk_header_line l cs : lock (header_line cf1 fn l cs) (header_line cf0 fn l cs).
  Proof. unfold header_line. cbn [cf_strict with_lib]. lk; apply lk_call. Qed.
  Lemma lk_header_loop h : forall acc cs, lock (header_loop cf1 fn h acc cs) (header_loop cf0 fn h acc cs).
  Proof. induction h as [|c h IH]; intros acc cs; cbn [header_loop]; lk; try apply IH. apply lk_header_line. Qed.
  Lemma lk_parse_header h : lock (parse_header cf1 fn h) (parse_header cf0 fn h).
  Proof.
    unfold parse_header. lk; first [apply lk_header_loop|apply lk_set|apply lk_mod; intros s1 s0 []; split; cbn; auto|idtac].
  Qed.
  Lemma lk_prefix p : lock (prefix cf1 p) (prefix cf0 p).
  Proof. unfold prefix. lk. Qed.
  Lemma lk_comments g : forall b, lock (comments cf1 g b) (comments cf0 g b).
  Proof. induction g as [|g IH]; intro b; cbn [comments]; lk; first [apply lk_prefix|apply IH]. Qed.
  Lemma lk_msgstr_n : lock (is_msgstr_n cf1) (is_msgstr_n cf0).
  Proof. unfold is_msgstr_n. lk. Qed.
  Lemma lk_loop g : forall v b, lock (msgstr_loop cf1 fn g v b) (msgstr_loop cf0 fn g v b).
  Proof.
    induction g as [|g IH]; intros v b; cbn [msgstr_loop]; lk; first [apply lk_empty|apply lk_error|apply lk_msgstr_n|apply lk_get_string|apply lk_convert|apply IH].
  Qed.
  Lemma lk_plural z c i : lock (plural_entry cf1 fn true z c i) (plural_entry cf0 fn true z c i).
  Proof. unfold plural_entry. lk; first [apply lk_get_string|apply lk_loop|apply lk_empty|apply lk_error|apply lk_add]. Qed.
  Lemma lk_singular z c i : lock (singular_entry cf1 fn true z c i) (singular_entry cf0 fn true z c i).
  Proof. unfold singular_entry. lk; first [apply lk_get_string|apply lk_parse_header|apply lk_convert|apply lk_add]. Qed.
  Lemma lk_entry z : lock (entry cf1 fn true z) (entry cf0 fn true z).
  Proof. unfold entry. lk; first [apply lk_prefix|apply lk_get_string|apply lk_error|apply lk_plural|apply lk_singular]. Qed.
  Lemma lk_block : lock (block cf1 fn true) (block cf0 fn true).
  Proof. unfold block. lk; first [apply lk_comments|apply lk_empty|apply lk_entry|apply lk_error]. Qed.
  Lemma lk_try : lock (try_block cf1 fn true) (try_block cf0 fn true).
  Proof.
    intros s1 s0 H. destruct (lk_block s1 s0 H) as [Ho Hs]. unfold try_block. destruct (block cf1 fn true s1) as [o1 s1'], (block cf0 fn true s0) as [o0 s0'].
    cbn [fst snd] in *. subst o0. destruct o1 as [?|[]|?| |]; (split; [reflexivity|exact Hs]).
  Qed.
  Lemma lk_parse_loop g : lock (parse_loop cf1 fn true g) (parse_loop cf0 fn true g).
  Proof. induction g; cbn [parse_loop]; lk; [apply lk_try|assumption]. Qed.
  Lemma lk_parse : lock (parse_member cf1 fn true) (parse_member cf0 fn true).
  Proof.
    unfold parse_member. lk; [|apply lk_parse_loop]. apply lk_mod. intros s1 s0 H. cbn [cf_iconv with_lib]. rewrite (s_cur _ _ H). destruct (starts_with _ _); [|exact H]. destruct H. split; cbn; auto.
  Qed.

  Lemma parse_two i d :
    let r1 := po_parse cf1 fn i d in let r0 := po_parse cf0 fn i d in
    pr_outcome r1 = pr_outcome r0 /\ pr_dict r1 = pr_dict r0 /\ pr_calls r1 = pr_calls r0 /\ pr_lines r1 = pr_lines r0 /\ T (pr_trace r1) (pr_trace r0).
  Proof.
    cbv zeta. unfold po_parse.
    assert (H : sim (init_state cf1 i d) (init_state cf0 i d)) by (split; cbn; auto; exact (T_log [])).
    destruct (lk_parse _ _ H) as [Ho Hs].
    destruct (parse_member cf1 fn true (init_state cf1 i d)) as [o1 s1], (parse_member cf0 fn true (init_state cf0 i d)) as [o0 s0]. cbn [fst snd] in *. subst o0.
    destruct Hs as [A1 A2 A3 A4 A5 A6 A7 A8 A9]. cbn [pr_outcome pr_dict pr_calls pr_lines pr_trace].
    repeat (split; [assumption || reflexivity|]). apply T_app; [exact A9|]. destruct (finished o1); [now apply X_destroy|exact (T_log [])].
  Qed.
End Two.
