(** What a parse adds: no singular entry with empty msgid, plural entries with one
    to ten forms. *)
From Verif.Model Require Import Base Log PluralForms Dictionary IConv Stream PoParser.
From Verif.Spec Require Import ParserSpec.
From Verif.Proofs Require Import BaseFacts LexProofs ParserUnary.
Local Open Scope list_scope.

Lemma vec_put_length v n x : length (vec_put v n x) = max (length v) (S n).
Proof.
  revert v. induction n as [|n IH]; intros [|y v]; cbn [vec_put length]; try lia; rewrite IH; cbn [length]; lia.
Qed.

Section Proper.
  Variable cf : config.
  Variable fn : bytes.
  Variable uf : bool.
  Local Notation I := (cf_iconv cf).
  Local Notation P := (M (pst I)).
  Definition Jp (s : pst I) : Prop := Forall proper_call (p_calls s).
  Local Notation tri := (tri cf Jp (fun _ s => Jp s)).

  Lemma tri_bind_ret A B (m : P A) (f : A -> P B) : tri m ->
    (forall s a s', m s = (Ret a, s') -> tri (f a)) -> tri (mbind m f).
  Proof.
    intros Hm Hf s Hs. specialize (Hm s Hs). unfold mbind, post in *.
    destruct (m s) as [[a|[]|u| |] s'] eqn:E; simpl in *; auto. eapply Hf; eauto.
  Qed.

  Lemma loop_forms f : forall v b s r s', length v <= 10 -> msgstr_loop cf fn f v b s = (Ret r, s') ->
    1 <= length (fst r) <= 10.
  Proof.
    induction f as [|f IH]; intros v b s r s' Hv; cbn [msgstr_loop]; [discriminate|].
    unfold mbind at 1. rewrite is_empty_line_eq. destruct (pempty _ _) as [[]|]; cbn [run_opt]; try unfold mret at 1; cbv beta iota.
    - destruct v; cbn [is_nil].
      + intro H. exfalso. unfold error, emit, mmod in H.
        unfold mbind, mget, mfail in H.
        repeat match type of H with context[match ?x with _ => _ end] => destruct x end; discriminate.
      + intro H. injection H as <- <-. cbn [fst length] in *. lia.
    - unfold mbind at 1. rewrite is_msgstr_n_eq. destruct (pmsgstr_n _ _) as [[]|] eqn:E; cbn [run_opt]; try unfold mret at 1; cbv beta iota.
      + unfold mbind at 1, mget at 1. unfold mbind at 1.
        destruct (get_string _ _ _ _) as [[ms|?|?| |] s1]; try discriminate.
        unfold mbind at 1. destruct (do_convert _ _ _) as [[cv|?|?| |] s2]; try discriminate.
        apply IH. rewrite vec_put_length.
        enough (code (nth 7 (p_cur s) c_nul) <= 57)%N by lia.
        unfold pmsgstr_n in E. destruct (_ && _); [|discriminate]. unfold pctype in E.
        destruct (_ && hi _); [discriminate|]. injection E as E. apply andb_prop in E as [E _].
        unfold isdigit in E. apply andb_prop in E as [_ E]. apply N.leb_le in E. exact E.
      + intro H. exfalso. unfold error, emit, mmod in H.
        unfold mbind, mget, mfail in H.
        repeat match type of H with context[match ?x with _ => _ end] => destruct x end; discriminate.
      + discriminate.
    - discriminate.
  Qed.

  Ltac easy_hyps := first [ now (intros s H; unfold Jp, nextst in *; destruct (getline _ _) as [[? ?] ?]; exact H)
     | now (intros; assumption)
     | now (intros s ? H; unfold do_convert; destruct (convert _ _ _) as [[o c] ev]; destruct o as [?|[]|?| |]; exact H)
     | now (intros s ? H; unfold do_set_charsets; destruct (set_charsets _ _ _ _) as [[o c'] ev]; destruct o as [?|[]|?| |]; exact H)
     | now (intros s ? Hp H; apply Forall_app; split; [exact H|]; constructor; [exact Hp|constructor])
     | idtac ].
  Lemma pr_get_string k : tri (get_string cf fn k). Proof. apply tri_get_string; easy_hyps. Qed.
  Lemma pr_loop f v b : tri (msgstr_loop cf fn f v b). Proof. apply tri_msgstr_loop; easy_hyps. Qed.
  Lemma pr_empty : tri (is_empty_line cf). Proof. apply tri_empty; easy_hyps. Qed.
  Lemma pr_error A w : tri (@error cf fn A w). Proof. apply tri_error; easy_hyps. Qed.
  Lemma pr_warning w : tri (warning cf fn w). Proof. apply tri_warning; easy_hyps. Qed.
  Lemma pr_convert t : tri (do_convert cf t). Proof. apply tri_convert; easy_hyps. Qed.
  Lemma pr_header h : tri (parse_header cf fn h). Proof. apply tri_parse_header; easy_hyps. Qed.
  Lemma pr_comments f b : tri (comments cf f b). Proof. apply tri_comments; easy_hyps. Qed.
  Lemma pr_next : tri (next_line cf). Proof. apply tri_next; easy_hyps. Qed.
  Lemma pr_ret A (a : A) : tri (mret a). Proof. intros s H; exact H. Qed.
  Lemma pr_get A (f : pst I -> A) : tri (mget f). Proof. intros s H; exact H. Qed.
  Lemma pr_bind A B (m : P A) (f : A -> P B) : tri m -> (forall a, tri (f a)) -> tri (mbind m f).
  Proof. apply tri_bind. Qed.
  Lemma pr_add op : proper_call (CallAdd op) -> tri (dict_add cf op).
  Proof.
    intros Hp s Hs. unfold dict_add. unfold mbind, mget, emit, mmod, post, dict_call_, mmod. cbv beta iota.
    unfold Jp in *. cbn [st_dict st_tr p_calls]. apply Forall_app. split; [exact Hs|]. constructor; [exact Hp|constructor].
  Qed.
  Lemma pr_plural fz ctxt id : tri (plural_entry cf fn uf fz ctxt id).
  Proof.
    unfold plural_entry. apply pr_bind; [apply pr_get_string|intros mp].
    apply tri_bind_ret; [apply pr_loop|intros s r s' H]. apply loop_forms in H; [|cbn [length]; lia].
    apply pr_bind; [apply pr_empty|intros []]; cbn [negb]; [|apply pr_error].
    destruct (_ && _); [|apply pr_ret]. apply pr_bind; [apply pr_get|intros d].
    apply pr_bind; [|intros _; apply pr_add; exact H].
    destruct (negb _); [apply pr_warning|]. destruct (negb _); [apply pr_warning|apply pr_ret].
  Qed.
  Lemma pr_singular fz ctxt id : tri (singular_entry cf fn uf fz ctxt id).
  Proof.
    unfold singular_entry. apply pr_bind; [apply pr_get_string|intros ms].
    destruct id as [|c id]; cbn [is_nil]; [apply pr_header|]. destruct (_ && _); [|apply pr_ret].
    apply pr_bind; [apply pr_convert|intros v; apply pr_add; discriminate].
  Qed.
  Lemma pr_entry fz : tri (entry cf fn uf fz).
  Proof.
    unfold entry. apply pr_bind; [apply pr_get|intros hc].
    apply pr_bind; [destruct hc; [apply pr_bind; [apply pr_get_string|intros; apply pr_ret]|apply pr_ret]|intros ctxt].
    apply pr_bind; [apply pr_get|intros hm].
    apply pr_bind; [destruct hm; [apply pr_get_string|apply pr_error]|intros id].
    apply pr_bind; [apply pr_get|intros []]; [apply pr_plural|].
    apply pr_bind; [apply pr_get|intros []]; [apply pr_singular|apply pr_error].
  Qed.
  Lemma pr_block : tri (block cf fn uf).
  Proof.
    unfold block. apply pr_bind; [apply pr_comments|intros fz]. apply pr_bind; [apply pr_empty|intros e].
    apply pr_bind; [destruct e; [apply pr_ret|apply pr_entry]|intros _].
    apply pr_bind; [apply pr_empty|intros e'].
    apply pr_bind; [destruct e'; [apply pr_ret|apply pr_error]|intros _]. apply pr_next.
  Qed.
  Lemma pr_parse_loop f : tri (parse_loop cf fn uf f).
  Proof.
    induction f as [|f IH]; cbn [parse_loop]; [intros s H; exact H|].
    apply pr_bind; [apply pr_get|intros []]; [apply pr_ret|].
    apply pr_bind; [|intros; exact IH].
    intros s Hs. pose proof (pr_block s Hs) as H. unfold try_block.
    destruct (block cf fn uf s) as [[a|[]|u| |] s']; simpl in *; auto.
  Qed.
  Lemma pr_parse : tri (parse_member cf fn uf).
  Proof.
    unfold parse_member. apply pr_bind; [apply pr_next|intros _]. apply pr_bind; [|intros; apply pr_parse_loop].
    intros s Hs. unfold mmod, post. destruct (starts_with bom (p_cur s)); exact Hs.
  Qed.
End Proper.

Lemma parse_proper cf fn i d : Forall proper_call (pr_calls (po_parse cf fn i d)).
Proof.
  pose proof (pr_parse cf fn true (init_state cf i d)) as H. unfold po_parse.
  assert (H0 : Jp cf (init_state cf i d)) by constructor. specialize (H H0). unfold post in H.
  destruct (parse_member _ _ _ _) as [[?|[]|?| |] s]; exact H.
Qed.
