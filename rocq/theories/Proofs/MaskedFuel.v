(** More fuel does not change the result of a masked parse. *)
From Verif.Model Require Import Base Log PluralForms Dictionary IConv Stream PoParser Masked.
From Verif.Spec Require Import ParserSpec.
Local Open Scope list_scope.

Section Fuel.
  Variable mk : mask.
  Variable cf : config.
  Variable fn : bytes.
  Variables n n' : nat.
  Hypothesis N : n <= n'.
  Local Notation c1 := (with_fuel cf n).
  Local Notation c2 := (with_fuel cf n').
  Local Notation I := (cf_iconv cf).
  Local Notation P := (M (pst I)).
  (** what ends in the first way, ends so in the second *)
  Definition fu {A} (w m : P A) : Prop := forall s, fst (w s) <> OutOfFuel -> m s = w s.
  Lemma fu_same A (m : P A) : fu m m. Proof. intros s _. reflexivity. Qed.
  Lemma fu_out A (m : P A) : fu (mfail OutOfFuel) m. Proof. intros s H. now destruct H. Qed.
  Lemma fu_bind A B (w m : P A) (v g : A -> P B) : fu w m -> (forall a, fu (v a) (g a)) -> fu (mbind w v) (mbind m g).
  Proof.
    intros H1 H2 s. unfold mbind. specialize (H1 s). destruct (w s) as [[a|?|?| |] s']; cbn [fst] in *; intro F;
      try (rewrite H1 by congruence; reflexivity).
    rewrite H1 by congruence. now apply H2.
  Qed.
  Ltac fu1 := intros; cbv zeta;
    lazymatch goal with
    | |- fu (mfail OutOfFuel) _ => apply fu_out
    | |- fu (mbind _ _) (mbind _ _) => apply fu_bind
    | |- fu (x_next_line _ _) _ => apply fu_same
    | |- fu (mret _) _ => apply fu_same
    | |- fu (mfail _) _ => apply fu_same
    | |- fu (mlift _) _ => apply fu_same
    | |- fu (mget _) _ => apply fu_same
    | |- fu (emit _ _) _ => apply fu_same
    | |- fu (warning _ _ _) _ => apply fu_same
    | |- fu (cur_at _ _) _ => apply fu_same
    | |- fu (ctype _ _ _) _ => apply fu_same
    | |- fu (is_empty_line _) _ => apply fu_same
    | |- fu (check_garbage _ _ _) _ => apply fu_same
    | |- fu (find_quote _ _ _) _ => apply fu_same
    | |- fu (prefix _ _) _ => apply fu_same
    | |- fu (dict_add _ _) _ => apply fu_same
    | |- fu (is_msgstr_n _) _ => apply fu_same
    | |- fu (do_convert _ _) _ => apply fu_same
    | |- fu (parse_header _ _ _) _ => apply fu_same
    | |- fu (if ?b then _ else _) (if ?b then _ else _) => destruct b
    | |- fu (match ?x with _ => _ end) (match ?x with _ => _ end) => destruct x
    end.
  Ltac fus := repeat fu1; intros.
  Lemma fu_recover g : forall g', g <= g' -> fu (x_recover mk c1 g) (x_recover mk c2 g').
  Proof. induction g as [|g IH]; intros g' G; [intros; apply fu_out|destruct g' as [|g']; [lia|]]; cbn [x_recover]; fus. (apply IH; lia). Qed.
  Lemma fu_error A m : fu (@x_error mk c1 fn A m) (@x_error mk c2 fn A m).
  Proof. unfold x_error. fus. (apply fu_recover; apply le_n). Qed.
  Lemma fu_scan g : forall g', g <= g' -> forall i out, fu (x_scan_string mk c1 fn g i out) (x_scan_string mk c2 fn g' i out).
  Proof. induction g as [|g IH]; intros g' G; [intros; apply fu_out|destruct g' as [|g']; [lia|]]; intros i out; cbn [x_scan_string]; fus; first [apply fu_error|(apply IH; lia)]. Qed.
  Lemma fu_string_line out k : fu (x_get_string_line mk c1 fn out k) (x_get_string_line mk c2 fn out k).
  Proof.
    unfold x_get_string_line.
    fus; first [apply fu_error|(apply fu_scan; apply le_n)].
  Qed.
  Lemma fu_skip g : forall g', g <= g' -> forall out k, fu (x_skip_to_string mk c1 fn g out k) (x_skip_to_string mk c2 fn g' out k).
  Proof.
    induction g as [|g IH]; intros g' G; [intros; apply fu_out|destruct g' as [|g']; [lia|]]; intros out k; cbn [x_skip_to_string].
    fus; first [apply fu_error|apply fu_string_line|(apply IH; lia)].
  Qed.
  Lemma fu_continuation g : forall g', g <= g' -> forall out, fu (x_continuation mk c1 fn g out) (x_continuation mk c2 fn g' out).
  Proof. induction g as [|g IH]; intros g' G; [intros; apply fu_out|destruct g' as [|g']; [lia|]]; intro out; cbn [x_continuation]; change (cf_pedantic c1) with (cf_pedantic cf); change (cf_pedantic c2) with (cf_pedantic cf); fus; first [apply fu_string_line|(apply IH; lia)]. Qed.
  Lemma fu_get_string k : fu (x_get_string mk c1 fn k) (x_get_string mk c2 fn k).
  Proof.
    unfold x_get_string.
    change (cf_pedantic c1) with (cf_pedantic cf); change (cf_pedantic c2) with (cf_pedantic cf).
    fus; first [apply fu_error|apply fu_string_line|(apply fu_skip; apply le_n)|(apply fu_continuation; cbn [cf_fuel with_fuel]; lia)].
  Qed.
  Lemma fu_comments g : forall g', g <= g' -> forall b, fu (x_comments mk c1 g b) (x_comments mk c2 g' b).
  Proof. induction g as [|g IH]; intros g' G; [intros; apply fu_out|destruct g' as [|g']; [lia|]]; intro b; cbn [x_comments]; fus; (apply IH; lia). Qed.
  Lemma fu_loop g : forall g', g <= g' -> forall v b, fu (x_msgstr_loop mk c1 fn g v b) (x_msgstr_loop mk c2 fn g' v b).
  Proof. induction g as [|g IH]; intros g' G; [intros; apply fu_out|destruct g' as [|g']; [lia|]]; intros v b; cbn [x_msgstr_loop]; fus; first [apply fu_error|apply fu_get_string|(apply IH; lia)]. Qed.
  Lemma fu_plural z c i : fu (x_plural_entry mk c1 fn true z c i) (x_plural_entry mk c2 fn true z c i).
  Proof. unfold x_plural_entry. fus; first [apply fu_error|apply fu_get_string|(apply fu_loop; cbn [cf_fuel with_fuel]; lia)]. Qed.
  Lemma fu_singular z c i : fu (x_singular_entry mk c1 fn true z c i) (x_singular_entry mk c2 fn true z c i).
  Proof. unfold x_singular_entry. fus; apply fu_get_string. Qed.
  Lemma fu_entry z : fu (x_entry mk c1 fn true z) (x_entry mk c2 fn true z).
  Proof. unfold x_entry. fus; first [apply fu_error|apply fu_get_string|apply fu_plural|apply fu_singular]. Qed.
  Lemma fu_block : fu (x_block mk c1 fn true) (x_block mk c2 fn true).
  Proof. unfold x_block. fus; first [apply fu_error|(apply fu_comments; cbn [cf_fuel with_fuel]; lia)|apply fu_entry]. Qed.
  Lemma fu_try : fu (x_try_block mk c1 fn true) (x_try_block mk c2 fn true).
  Proof.
    intros s. pose proof (fu_block s) as H. unfold x_try_block. intro F. rewrite H; [reflexivity|].
    destruct (x_block mk c1 fn true s) as [[a|[]|u| |] s']; cbn [fst] in *; congruence.
  Qed.
  Lemma fu_parse_loop g : forall g', g <= g' -> fu (x_parse_loop mk c1 fn true g) (x_parse_loop mk c2 fn true g').
  Proof. induction g as [|g IH]; intros g' G; [intros; apply fu_out|destruct g' as [|g']; [lia|]]; cbn [x_parse_loop]; fus; [apply fu_try|(apply IH; lia)]. Qed.
  Lemma fu_parse : fu (x_parse_member mk c1 fn true) (x_parse_member mk c2 fn true).
  Proof. unfold x_parse_member. apply fu_bind; [apply fu_same|intros _]. apply fu_bind; [apply fu_same|intros _]. apply fu_parse_loop. cbn [cf_fuel with_fuel]. lia. Qed.
  Lemma x_po_parse_fuel i d : pr_outcome (x_po_parse mk c1 fn i d) <> OutOfFuel -> x_po_parse mk c2 fn i d = x_po_parse mk c1 fn i d.
  Proof.
    unfold x_po_parse. change (init_state c2 i d) with (init_state c1 i d). intro F. rewrite (fu_parse (init_state c1 i d)); [reflexivity|].
    destruct (x_parse_member _ _ _ _ _) as [o s]. exact F.
  Qed.
End Fuel.
