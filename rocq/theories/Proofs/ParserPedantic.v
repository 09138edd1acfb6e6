(** Pedantic mode only adds warnings. *)
From Verif.Model Require Import Base Log PluralForms Dictionary IConv Stream PoParser.
From Verif.Spec Require Import ParserSpec DiagSpec.
From Verif.Proofs Require Import BaseFacts LexProofs ParserUnary ParserRel.
Local Open Scope list_scope.

Lemma thins_refl P a : thins P a a.
Proof. induction a; constructor; auto. Qed.
Lemma thins_app P a b a' b' : thins P a b -> thins P a' b' -> thins P (a ++ a') (b ++ b').
Proof. intros H H'. induction H; cbn [app]; [exact H'|constructor; assumption|constructor; assumption]. Qed.

Section Pedantic.
  Variable I : iconv_impl.
  Variables strict nd : bool.
  Variable f : nat.
  Variable fn : bytes.
  Local Notation cf1 := (mkcf I strict nd true f).
  Local Notation cf0 := (mkcf I strict nd false f).
  Local Notation S_ := (pst I).
  Local Notation T := (thins (pedantic_warning fn)).

  Definition sim (s1 s0 : S_) : Prop := s0 = st_tr s1 (p_tr s0) /\ T (p_tr s1) (p_tr s0).
  Definition lock {A} (m1 m0 : M S_ A) : Prop :=
    forall s1 s0, sim s1 s0 -> fst (m1 s1) = fst (m0 s0) /\ sim (snd (m1 s1)) (snd (m0 s0)).

  Lemma sim_intro s t1 t0 : T t1 t0 -> sim (st_tr s t1) (st_tr s t0).
  Proof. intro H. split; [reflexivity|exact H]. Qed.
  Lemma sim_elim s1 s0 : sim s1 s0 -> exists s t1 t0, s1 = st_tr s t1 /\ s0 = st_tr s t0 /\ T t1 t0.
  Proof. intros [E H]. exists s1, (p_tr s1), (p_tr s0). split; [destruct s1; reflexivity|]. auto. Qed.

  Lemma lk_bind A B (m1 m0 : M S_ A) (g1 g0 : A -> M S_ B) : lock m1 m0 -> (forall a, lock (g1 a) (g0 a)) -> lock (mbind m1 g1) (mbind m0 g0).
  Proof.
    intros Hm Hg s1 s0 H. destruct (Hm s1 s0 H) as [Ho Hs]. unfold mbind. destruct (m1 s1) as [o1 s1'], (m0 s0) as [o0 s0']. cbn [fst snd] in *. subst o0.
    destruct o1 as [a|?|?| |]; [apply Hg, Hs| | | |]; (split; [reflexivity|exact Hs]).
  Qed.
  Lemma lk_ret A (a : A) : lock (mret a) (mret a).
  Proof. intros s1 s0 H. split; [reflexivity|exact H]. Qed.
  Lemma lk_fail A o : lock (@mfail S_ A o) (mfail o).
  Proof. intros s1 s0 H. split; [reflexivity|exact H]. Qed.
  Lemma lk_lift A (o : outcome A) : lock (mlift o) (mlift o).
  Proof. intros s1 s0 H. split; [reflexivity|exact H]. Qed.
  Lemma lk_get A (g : S_ -> A) : (forall s t, g (st_tr s t) = g s) -> lock (mget g) (mget g).
  Proof. intros Hg s1 s0 H. destruct (sim_elim _ _ H) as (s & t1 & t0 & -> & -> & _). cbn [mget fst snd]. split; [now rewrite !Hg|exact H]. Qed.
  (** the state as a whole is only used for the line and its number *)
  Lemma lk_state A (g1 g0 : S_ -> M S_ A) : (forall s t1 t0, lock (g1 (st_tr s t1)) (g0 (st_tr s t0))) ->
    lock (mbind (mget (fun s => s)) g1) (mbind (mget (fun s => s)) g0).
  Proof. intros Hg s1 s0 H. rewrite !mget_bind. destruct (sim_elim _ _ H) as (s & t1 & t0 & -> & -> & _). apply Hg, H. Qed.
  Lemma lk_mod (g : S_ -> S_) : (forall s t, g (st_tr s t) = st_tr (g s) t) -> lock (mmod g) (mmod g).
  Proof.
    intros Hg s1 s0 H. destruct (sim_elim _ _ H) as (s & t1 & t0 & -> & -> & Ht). cbn [mmod fst snd]. split; [reflexivity|]. rewrite !Hg. now apply sim_intro.
  Qed.
  Lemma lk_emit e : lock (emit cf1 e) (emit cf0 e).
  Proof.
    intros s1 s0 H. destruct (sim_elim _ _ H) as (s & t1 & t0 & -> & -> & Ht). split; [reflexivity|].
    apply (sim_intro s (t1 ++ e) (t0 ++ e)). apply thins_app; [exact Ht|apply thins_refl].
  Qed.
  Lemma lk_warning w : lock (warning cf1 fn w) (warning cf0 fn w).
  Proof. apply lk_state. intros s t1 t0. apply lk_emit. Qed.
  (** a warning of pedantic mode *)
  Lemma lk_extra w : In w [bs "keyword and string must be seperated by a single space"; bs "leading whitespace before string"] ->
    lock (warning cf1 fn w) (mret tt).
  Proof.
    intros Hw s1 s0 H. rewrite warning_eq. split; [reflexivity|]. destruct (sim_elim _ _ H) as (s & t1 & t0 & -> & -> & Ht).
    apply (sim_intro s (t1 ++ [EvLog (log_warning (fn ++ bs ":" ++ dec_Z (p_line s) ++ bs ": warning: " ++ w ++ bs ": " ++ p_cur s))]) t0).
    rewrite <- (app_nil_r t0). apply thins_app; [exact Ht|]. constructor; [|constructor]. exists (p_line s), w, (p_cur s). auto.
  Qed.
  Lemma lk_if A (b : bool) (m1 m0 n1 n0 : M S_ A) : lock m1 m0 -> lock n1 n0 -> lock (if b then m1 else n1) (if b then m0 else n0).
  Proof. destruct b; auto. Qed.

  Lemma lk_next : lock (next_line cf1) (next_line cf0).
  Proof. apply lk_mod. intros s t. cbn [st_tr p_in p_cur]. destruct (getline _ _) as [[? ?] ?]. reflexivity. Qed.
  Lemma lk_ctype A (g : byte -> A) c : lock (ctype cf1 g c) (ctype cf0 g c).
  Proof. unfold ctype. apply lk_if; [apply lk_fail|apply lk_ret]. Qed.

  Ltac lk1 := intros; cbv zeta;
    lazymatch goal with
    | |- lock (mbind (mget (fun s => s)) _) _ => apply lk_state; intros
    | |- lock (mbind _ _) _ => apply lk_bind
    | |- lock (mret _) _ => apply lk_ret
    | |- lock (mfail _) _ => apply lk_fail
    | |- lock (mlift _) _ => apply lk_lift
    | |- lock (mget _) _ => apply lk_get; reflexivity
    | |- lock (emit _ _) _ => apply lk_emit
    | |- lock (warning _ _ _) (warning _ _ _) => apply lk_warning
    | |- lock (next_line _) _ => apply lk_next
    | |- lock (ctype _ _ _) _ => apply lk_ctype
    | |- lock (if ?b then _ else _) (if ?b then _ else _) => destruct b
    | |- lock (match ?x with _ => _ end) (match ?x with _ => _ end) => destruct x
    end.
  Ltac lk := repeat lk1; intros.

  Lemma lk_cur_at i : lock (cur_at cf1 i) (cur_at cf0 i).
  Proof. unfold cur_at. lk. Qed.
  Lemma lk_all_space l : lock (all_space cf1 l) (all_space cf0 l).
  Proof. induction l; cbn [all_space]; lk. apply IHl. Qed.
  Lemma lk_empty : lock (is_empty_line cf1) (is_empty_line cf0).
  Proof. unfold is_empty_line. lk. apply lk_all_space. Qed.
  Lemma lk_recover g : lock (recover cf1 g) (recover cf0 g).
  Proof. induction g as [|g IH]; cbn [recover]; lk; first [apply lk_empty|apply IH|idtac]. Qed.
  Lemma lk_error A m : lock (@error cf1 fn A m) (error cf0 fn m).
  Proof. unfold error. lk. apply lk_recover. Qed.
  Lemma lk_run_lex A (r : lexres A) : lock (run_lex cf1 fn r) (run_lex cf0 fn r).
  Proof.
    assert (W : forall ws, lock (warns cf1 fn ws) (warns cf0 fn ws)) by (induction ws as [|w ws IH]; [exact (lk_ret _ tt)|exact (lk_bind _ _ _ _ _ _ (lk_warning w) (fun _ => IH))]).
    destruct r as [ws a|ws m|ws]; refine (lk_bind _ _ _ _ _ _ (W ws) (fun _ => _)); [apply lk_ret|apply lk_error|apply lk_fail].
  Qed.
  Lemma lk_ext A (m1 m1' m0 m0' : M S_ A) : (forall s, m1 s = m1' s) -> (forall s, m0 s = m0' s) -> lock m1' m0' -> lock m1 m0.
  Proof. intros E1 E0 H s1 s0 Hs. rewrite E1, E0. apply H, Hs. Qed.
  (** a scanner that looks at the current line and the BIG5 flag *)
  Lemma lk_scan A (m1 m0 : M S_ A) (g : bool -> bytes -> lexres A) :
    (forall s, m1 s = run_lex cf1 fn (g (p_big5 s) (p_cur s)) s) -> (forall s, m0 s = run_lex cf0 fn (g (p_big5 s) (p_cur s)) s) -> lock m1 m0.
  Proof.
    intros E1 E0 s1 s0 H. rewrite E1, E0. assert (X : p_big5 s0 = p_big5 s1 /\ p_cur s0 = p_cur s1) by (destruct H as [-> _]; split; reflexivity).
    destruct X as [-> ->]. apply lk_run_lex, H.
  Qed.
  Lemma lk_string_line out k : lock (get_string_line cf1 fn out k) (get_string_line cf0 fn out k).
  Proof. apply (lk_scan _ _ _ (fun b5 c => pline strict b5 out k c)); intro s; [exact (get_string_line_eq cf1 fn out k s)|exact (get_string_line_eq cf0 fn out k s)]. Qed.
  Lemma lk_find_quote i l : lock (find_quote cf1 i l) (find_quote cf0 i l).
  Proof. revert i. induction l; intro i; cbn [find_quote]; lk; auto. Qed.
  Lemma lk_continuation g : forall out, lock (continuation cf1 fn g out) (continuation cf0 fn g out).
  Proof.
    induction g as [|g IH]; intro out; cbn [continuation]; lk.
    - apply lk_find_quote.
    - cbn [cf_pedantic mkcf]. rewrite andb_true_r, andb_false_r. destruct (_ =? 1); [apply lk_extra; right; left; reflexivity|apply lk_ret].
    - apply lk_string_line.
    - apply IH.
  Qed.
  Lemma lk_skip g : forall out k, lock (skip_to_string cf1 fn g out k) (skip_to_string cf0 fn g out k).
  Proof. induction g as [|g IH]; intros out k; cbn [skip_to_string]; lk; first [apply lk_error|apply lk_cur_at|apply lk_string_line|apply IH]. Qed.
  Lemma lk_get_string k : lock (get_string cf1 fn k) (get_string cf0 fn k).
  Proof.
    unfold get_string. lk; try first [apply lk_error|apply lk_cur_at|apply lk_string_line|apply lk_skip|apply lk_continuation].
    cbn [cf_pedantic mkcf]. apply lk_extra. left. reflexivity.
  Qed.
  Lemma lk_call c : lock (dict_call_ cf1 c) (dict_call_ cf0 c).
  Proof. apply lk_mod. reflexivity. Qed.
  Lemma lk_add op : lock (dict_add cf1 op) (dict_add cf0 op).
  Proof. unfold dict_add. lk. apply lk_call. Qed.
  Lemma lk_convert x : lock (do_convert cf1 x) (do_convert cf0 x).
  Proof.
    intros s1 s0 H. destruct (sim_elim _ _ H) as (s & t1 & t0 & -> & -> & Ht). unfold do_convert. cbn [cf_ndebug mkcf st_tr p_conv cf_iconv].
    destruct (convert nd (p_conv s) x) as [[o c] ev]. split; [reflexivity|]. cbn [snd].
    apply (sim_intro (st_conv s c) (t1 ++ ev) (t0 ++ ev)). apply thins_app; [exact Ht|apply thins_refl].
  Qed.
  Lemma lk_set a b : lock (do_set_charsets cf1 a b) (do_set_charsets cf0 a b).
  Proof.
    intros s1 s0 H. destruct (sim_elim _ _ H) as (s & t1 & t0 & -> & -> & Ht). unfold do_set_charsets. cbn [cf_strict mkcf st_tr p_conv cf_iconv].
    destruct (set_charsets strict (p_conv s) a b) as [[o c] ev]. split; [reflexivity|]. cbn [snd].
    apply (sim_intro (st_conv s c) (t1 ++ ev) (t0 ++ ev)). apply thins_app; [exact Ht|apply thins_refl].
  Qed.
  Lemma lk_header_line l cs : lock (header_line cf1 fn l cs) (header_line cf0 fn l cs).
  Proof. unfold header_line. cbn [cf_strict mkcf]. lk; apply lk_call. Qed.
  Lemma lk_header_loop h : forall acc cs, lock (header_loop cf1 fn h acc cs) (header_loop cf0 fn h acc cs).
  Proof. induction h as [|c h IH]; intros acc cs; cbn [header_loop]; lk; try apply IH. apply lk_header_line. Qed.
  Lemma lk_parse_header h : lock (parse_header cf1 fn h) (parse_header cf0 fn h).
  Proof. unfold parse_header. lk; first [apply lk_header_loop|apply lk_set|apply lk_mod; reflexivity]. Qed.
  Lemma lk_prefix p : lock (prefix cf1 p) (prefix cf0 p).
  Proof. unfold prefix. lk. Qed.
  Lemma lk_comments g : forall b, lock (comments cf1 g b) (comments cf0 g b).
  Proof. induction g as [|g IH]; intro b; cbn [comments]; lk; first [apply lk_prefix|apply IH]. Qed.
  Lemma lk_msgstr_n : lock (is_msgstr_n cf1) (is_msgstr_n cf0).
  Proof. unfold is_msgstr_n. lk. Qed.
  Lemma lk_loop g : forall v b, lock (msgstr_loop cf1 fn g v b) (msgstr_loop cf0 fn g v b).
  Proof.
    induction g as [|g IH]; intros v b; cbn [msgstr_loop]; lk; first [apply lk_empty|apply lk_error|apply lk_msgstr_n|apply lk_get_string|apply lk_convert|apply IH].
  Qed.
  Lemma lk_plural z c i : lock (plural_entry cf1 fn true z c i) (plural_entry cf0 fn true z c i).
  Proof. unfold plural_entry. lk; first [apply lk_get_string|apply lk_loop|apply lk_empty|apply lk_error|apply lk_add]. Qed.
  Lemma lk_singular z c i : lock (singular_entry cf1 fn true z c i) (singular_entry cf0 fn true z c i).
  Proof. unfold singular_entry. lk; first [apply lk_get_string|apply lk_parse_header|apply lk_convert|apply lk_add]. Qed.
  Lemma lk_entry z : lock (entry cf1 fn true z) (entry cf0 fn true z).
  Proof. unfold entry. lk; first [apply lk_prefix|apply lk_get_string|apply lk_error|apply lk_plural|apply lk_singular]. Qed.
  Lemma lk_block : lock (block cf1 fn true) (block cf0 fn true).
  Proof. unfold block. lk; first [apply lk_comments|apply lk_empty|apply lk_entry|apply lk_error]. Qed.
  Lemma lk_try : lock (try_block cf1 fn true) (try_block cf0 fn true).
  Proof.
    intros s1 s0 H. destruct (lk_block s1 s0 H) as [Ho Hs]. unfold try_block. destruct (block cf1 fn true s1) as [o1 s1'], (block cf0 fn true s0) as [o0 s0'].
    cbn [fst snd] in *. subst o0. destruct o1 as [?|[]|?| |]; (split; [reflexivity|exact Hs]).
  Qed.
  Lemma lk_parse_loop g : lock (parse_loop cf1 fn true g) (parse_loop cf0 fn true g).
  Proof. induction g; cbn [parse_loop]; lk; [apply lk_try|assumption]. Qed.
  Lemma lk_parse : lock (parse_member cf1 fn true) (parse_member cf0 fn true).
  Proof.
    unfold parse_member. lk; [|apply lk_parse_loop]. apply lk_mod. intros s t. cbn [st_tr p_cur]. destruct (starts_with _ _); reflexivity.
  Qed.

  Lemma parse_lock i d :
    let r1 := po_parse cf1 fn i d in let r0 := po_parse cf0 fn i d in
    pr_outcome r0 = pr_outcome r1 /\ pr_dict r0 = pr_dict r1 /\ pr_calls r0 = pr_calls r1 /\ pr_lines r0 = pr_lines r1 /\ T (pr_trace r1) (pr_trace r0).
  Proof.
    cbv zeta. unfold po_parse.
    assert (H : sim (init_state cf1 i d) (init_state cf0 i d)) by (split; [reflexivity|constructor]).
    destruct (lk_parse _ _ H) as [Ho Hs].
    destruct (parse_member cf1 fn true (init_state cf1 i d)) as [o1 s1], (parse_member cf0 fn true (init_state cf0 i d)) as [o0 s0]. cbn [fst snd] in *. subst o0.
    destruct (sim_elim _ _ Hs) as (s & t1 & t0 & -> & -> & Ht). cbn [pr_outcome pr_dict pr_calls pr_lines pr_trace st_tr p_dict p_calls p_line p_tr p_conv].
    repeat (split; [reflexivity|]). apply thins_app; [exact Ht|apply thins_refl].
  Qed.
End Pedantic.
