(** Strict ctype functions change nothing but where the run stops: a strict run is the
    permissive run, or it ends in a ctype call on a negative char. *)
From Verif.Model Require Import Base Log PluralForms Dictionary IConv Stream PoParser.
From Verif.Spec Require Import ParserSpec.
From Verif.Proofs Require Import BaseFacts LexProofs ParserUnary ParserAscii.
Local Open Scope list_scope.

(** pure scanners *)
Section Pure.
  Lemma pc_str A (f : byte -> A) c : pctype true f c = None \/ pctype true f c = pctype false f c.
  Proof. unfold pctype. destruct (hi c); auto. Qed.
  Lemma pall_str l : pall_space true l = None \/ pall_space true l = pall_space false l.
  Proof.
    induction l as [|c l IH]; [auto|]. cbn [pall_space]. destruct (pc_str _ isspace c) as [->| ->]; [auto|].
    destruct (pctype false isspace c) as [[]|]; auto.
  Qed.
  Lemma pempty_str l : pempty true l = None \/ pempty true l = pempty false l.
  Proof.
    destruct l as [|c l]; [auto|]. unfold pempty. destruct (byte_eqb c c_hash); [|apply pall_str].
    destruct l as [|c1 l]; [auto|]. apply pc_str.
  Qed.
  Lemma pquote_str l : forall i, pquote true i l = None \/ pquote true i l = pquote false i l.
  Proof.
    induction l as [|c l IH]; intro i; [auto|]. cbn [pquote]. destruct (byte_eqb c c_dq); [auto|].
    destruct (pc_str _ isspace c) as [->| ->]; [auto|]. destruct (pctype false isspace c) as [[]|]; auto.
  Qed.
  Lemma pmsgstr_n_str l : pmsgstr_n true l = None \/ pmsgstr_n true l = pmsgstr_n false l.
  Proof. unfold pmsgstr_n. destruct (_ && _); [|auto]. destruct (pc_str _ isdigit (nth 7 l c_nul)) as [->| ->]; auto. Qed.
  Definition ubr {A} (r r' : lexres A) : Prop := (exists ws, r = LUb ws) \/ r = r'.
  Lemma pgarbage_str l : ubr (pgarbage true l) (pgarbage false l).
  Proof.
    induction l as [|c l IH]; [right; reflexivity|]. cbn [pgarbage]. destruct (pc_str _ isspace c) as [->| ->]; [left; eauto|].
    destruct (pctype false isspace c) as [[]|]; [exact IH|right; reflexivity..].
  Qed.
  Lemma pline_str b5 out skip cur : ubr (pline true b5 out skip cur) (pline false b5 out skip cur).
  Proof.
    unfold pline. destruct (_ <=? _); [right; reflexivity|]. destruct (negb _); [right; reflexivity|].
    destruct (pscan _ _ _ _) as [ws a|ws m|ws]; cbn [lbind]; [|right; reflexivity..].
    destruct (pgarbage_str (skipn (S (fst a)) cur)) as [[ws' ->]| ->]; [left; cbn [lbind]; eauto|right; reflexivity].
  Qed.
  Lemma pskip_str b5 cur l : forall out skip, ubr (pskip true b5 cur out skip l) (pskip false b5 cur out skip l).
  Proof.
    induction l as [|c l IH]; intros out skip; cbn [pskip]; [right; reflexivity|].
    destruct (byte_eqb c c_dq); [apply pline_str|]. destruct (pc_str _ isspace c) as [->| ->]; [left; eauto|].
    destruct (pctype false isspace c) as [[]|]; [apply IH|right; reflexivity..].
  Qed.
  Lemma pfirst_str pd b5 skip cur : ubr (pfirst true pd b5 skip cur) (pfirst false pd b5 skip cur).
  Proof.
    unfold pfirst. destruct (_ <=? _); [right; reflexivity|]. destruct (_ && _); [apply pline_str|]. cbv zeta.
    destruct (pskip_str b5 cur (skipn skip cur) [] skip) as [[ws ->]| ->]; [|right; reflexivity].
    left. destruct pd; cbn [lwarn]; eauto.
  Qed.
End Pure.

Section Strict.
  Variables pd nd : bool.
  Variable fuel : nat.
  Variable I : iconv_impl.
  Variable fn : bytes.
  Local Notation cft := (cfs pd nd fuel I true).
  Local Notation cff := (cfs pd nd fuel I false).
  Local Notation P := (M (pst I)).
  Definition sle {A} (m m' : P A) : Prop := forall s, (exists s', m s = (Ub UbCtype, s')) \/ m s = m' s.

  Lemma sle_refl A (m : P A) : sle m m.
  Proof. intro s; right; reflexivity. Qed.
  Lemma sle_bind A B (m m' : P A) (f f' : A -> P B) : sle m m' -> (forall a, sle (f a) (f' a)) -> sle (mbind m f) (mbind m' f').
  Proof.
    intros Hm Hf s. unfold mbind. destruct (Hm s) as [[s' ->]| ->]; [left; eauto|].
    destruct (m' s) as [[a|?|?| |] s']; try (right; reflexivity). apply Hf.
  Qed.
  Lemma sle_opt A (r r' : option A) s : (r = None \/ r = r') ->
    (exists s', run_opt cft r s = (Ub UbCtype, s')) \/ run_opt cft r s = run_opt cff r' s.
  Proof. intros [->| ->]; [left; exists s; reflexivity|right; reflexivity]. Qed.
  Lemma sle_empty : sle (is_empty_line cft) (is_empty_line cff).
  Proof. intro s. rewrite !is_empty_line_eq. apply sle_opt, pempty_str. Qed.
  Lemma sle_msgstr_n : sle (is_msgstr_n cft) (is_msgstr_n cff).
  Proof. intro s. rewrite !is_msgstr_n_eq. apply sle_opt, pmsgstr_n_str. Qed.
  Lemma sle_recover f : sle (recover cft f) (recover cff f).
  Proof.
    induction f as [|f IH]; cbn [recover]; [apply sle_refl|].
    apply sle_bind; [apply sle_refl|intros _]. apply sle_bind; [apply sle_refl|intros []]; [apply sle_refl|].
    apply sle_bind; [apply sle_empty|intros []]; [apply sle_refl|exact IH].
  Qed.
  Lemma sle_error A m : sle (@error cft fn A m) (@error cff fn A m).
  Proof.
    unfold error. apply sle_bind; [apply sle_refl|intro s0].
    apply sle_bind; [apply sle_refl|intros _]. apply sle_bind; [apply sle_recover|intros _; apply sle_refl].
  Qed.
  Lemma sle_lex A (r r' : lexres A) s : ubr r r' ->
    (exists s', run_lex cft fn r s = (Ub UbCtype, s')) \/ run_lex cft fn r s = run_lex cff fn r' s.
  Proof.
    rewrite !run_lex_eq. intros [[ws ->]| ->]; [left; eauto|].
    destruct r'; rewrite (warned_same pd nd fuel I fn true false); [right; reflexivity|apply sle_error|right; reflexivity].
  Qed.
  Lemma sle_get_string_line out skip : sle (get_string_line cft fn out skip) (get_string_line cff fn out skip).
  Proof. intro s. rewrite !get_string_line_eq. apply sle_lex, pline_str. Qed.
  Lemma sle_continuation f : forall out, sle (continuation cft fn f out) (continuation cff fn f out).
  Proof.
    induction f as [|f IH]; intro out; cbn [continuation]; [apply sle_refl|].
    apply sle_bind; [apply sle_refl|intros _]. apply sle_bind; [apply sle_refl|intro cur].
    apply sle_bind; [|intros [i|]; [|apply sle_refl]].
    { intro s. rewrite !find_quote_eq. apply sle_opt, pquote_str. }
    apply sle_bind; [apply sle_refl|intros _]. apply sle_bind; [apply sle_get_string_line|exact IH].
  Qed.
  Lemma sle_get_string skip : sle (get_string cft fn skip) (get_string cff fn skip).
  Proof.
    intro s. rewrite !get_string_eq. 
    refine (sle_bind _ _ _ _ _ _ (fun s1 => sle_lex _ _ _ s1 (pfirst_str pd (p_big5 s) skip (p_cur s))) (fun a => sle_continuation fuel a) s).
  Qed.
  Lemma sle_header_line l cs : sle (header_line cft fn l cs) (header_line cff fn l cs).
  Proof.
    unfold header_line. destruct (starts_with content_type l).
    - destruct (starts_with content_type_full l); [|apply sle_refl]. cbv zeta. cbn [cf_strict cfs andb].
      destruct (existsb hi _); [intro s; left; exists s; reflexivity|apply sle_refl].
    - destruct (starts_with plural_forms_key l); [|apply sle_refl].
      apply sle_bind; [|intro pf; apply sle_refl].
      intro s. unfold mlift, from_string. cbn [cf_strict cfs andb]. destruct (existsb hi l); [left; exists s; reflexivity|right; reflexivity].
  Qed.
  Lemma sle_header_loop h : forall acc cs, sle (header_loop cft fn h acc cs) (header_loop cff fn h acc cs).
  Proof.
    induction h as [|c h IH]; intros acc cs; cbn [header_loop]; [apply sle_refl|].
    destruct (byte_eqb c c_lf); [|apply IH]. apply sle_bind; [apply sle_header_line|intro; apply IH].
  Qed.
  Lemma sle_set from to : sle (do_set_charsets cft from to) (do_set_charsets cff from to).
  Proof.
    intro s. unfold do_set_charsets, set_charsets. cbn [cf_strict cfs andb].
    destruct (_ || _); [left; eauto|right; reflexivity].
  Qed.
  Lemma sle_parse_header h : sle (parse_header cft fn h) (parse_header cff fn h).
  Proof.
    unfold parse_header. apply sle_bind; [apply sle_header_loop|intros cs].
    apply sle_bind; [apply sle_refl|intro cs']. apply sle_bind; [apply sle_refl|intro d]. apply sle_set.
  Qed.
  Lemma sle_comments f : forall b, sle (comments cft f b) (comments cff f b).
  Proof.
    induction f as [|f IH]; intro b; cbn [comments]; [apply sle_refl|].
    apply sle_bind; [apply sle_refl|intros []]; [|apply sle_refl].
    apply sle_bind; [apply sle_refl|intro cur]. apply sle_bind; [apply sle_refl|intros _; apply IH].
  Qed.
  Lemma sle_msgstr_loop f : forall v b, sle (msgstr_loop cft fn f v b) (msgstr_loop cff fn f v b).
  Proof.
    induction f as [|f IH]; intros v b; cbn [msgstr_loop]; [apply sle_refl|].
    apply sle_bind; [apply sle_empty|intros []].
    - destruct (is_nil v); [apply sle_error|apply sle_refl].
    - apply sle_bind; [apply sle_msgstr_n|intros []]; [|apply sle_error].
      apply sle_bind; [apply sle_refl|intro cur]. apply sle_bind; [apply sle_get_string|intro m].
      apply sle_bind; [apply sle_refl|intro; apply IH].
  Qed.
  Lemma sle_plural_entry uf fz c id : sle (plural_entry cft fn uf fz c id) (plural_entry cff fn uf fz c id).
  Proof.
    unfold plural_entry. apply sle_bind; [apply sle_get_string|intro mp].
    apply sle_bind; [apply sle_msgstr_loop|intro r]. apply sle_bind; [apply sle_empty|intros []]; cbn [negb]; [apply sle_refl|apply sle_error].
  Qed.
  Lemma sle_singular_entry uf fz c id : sle (singular_entry cft fn uf fz c id) (singular_entry cff fn uf fz c id).
  Proof.
    unfold singular_entry. apply sle_bind; [apply sle_get_string|intro ms].
    destruct (is_nil id); [apply sle_parse_header|apply sle_refl].
  Qed.
  Lemma sle_entry uf fz : sle (entry cft fn uf fz) (entry cff fn uf fz).
  Proof.
    unfold entry. apply sle_bind; [apply sle_refl|intros hc].
    apply sle_bind; [destruct hc; [apply sle_bind; [apply sle_get_string|intro; apply sle_refl]|apply sle_refl]|intros c].
    apply sle_bind; [apply sle_refl|intros hm]. apply sle_bind; [destruct hm; [apply sle_get_string|apply sle_error]|intros id].
    apply sle_bind; [apply sle_refl|intros []]; [apply sle_plural_entry|].
    apply sle_bind; [apply sle_refl|intros []]; [apply sle_singular_entry|apply sle_error].
  Qed.
  Lemma sle_block uf : sle (block cft fn uf) (block cff fn uf).
  Proof.
    unfold block. apply sle_bind; [apply sle_comments|intro fz]. apply sle_bind; [apply sle_empty|intros e].
    apply sle_bind; [destruct e; [apply sle_refl|apply sle_entry]|intros _].
    apply sle_bind; [apply sle_empty|intros e']. apply sle_bind; [destruct e'; [apply sle_refl|apply sle_error]|intros _]. apply sle_refl.
  Qed.
  Lemma sle_loop uf f : sle (parse_loop cft fn uf f) (parse_loop cff fn uf f).
  Proof.
    induction f as [|f IH]; cbn [parse_loop]; [apply sle_refl|].
    apply sle_bind; [apply sle_refl|intros []]; [apply sle_refl|]. apply sle_bind; [|intros _; exact IH].
    intro s. unfold try_block. destruct (sle_block uf s) as [[s' ->]| ->]; [left; eauto|right; reflexivity].
  Qed.
  Lemma sle_parse uf : sle (parse_member cft fn uf) (parse_member cff fn uf).
  Proof. unfold parse_member. apply sle_bind; [apply sle_refl|intros _]. apply sle_bind; [apply sle_refl|intros _]. apply sle_loop. Qed.
End Strict.

Lemma strict_or_ub cf fn i d :
  pr_outcome (po_parse cf fn i d) = Ub UbCtype \/ po_parse cf fn i d = po_parse (set_strict cf false) fn i d.
Proof.
  destruct cf as [pd [] nd fuel I]; [|right; reflexivity]. unfold po_parse, set_strict. cbn [cf_pedantic cf_ndebug cf_fuel cf_iconv].
  change {| cf_pedantic := pd; cf_strict := true; cf_ndebug := nd; cf_fuel := fuel; cf_iconv := I |} with (cfs pd nd fuel I true).
  change {| cf_pedantic := pd; cf_strict := false; cf_ndebug := nd; cf_fuel := fuel; cf_iconv := I |} with (cfs pd nd fuel I false).
  destruct (sle_parse pd nd fuel I fn true (init_state (cfs pd nd fuel I true) i d)) as [[s' E]|E].
  - left. unfold init_state in *. cbn [cf_iconv cfs] in *. rewrite E. reflexivity.
  - right. unfold init_state in *. cbn [cf_iconv cfs] in *. rewrite E. reflexivity.
Qed.
