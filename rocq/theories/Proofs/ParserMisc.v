(** Byte-order mark, plural forms, keys. *)
From Verif.Model Require Import Base Log PluralForms Dictionary IConv Stream PoParser.
From Verif.Spec Require Import DictSpec ParserSpec.
From Verif.Proofs Require Import BaseFacts DictProofs LexProofs ParserUnary ParserRel ParserSafe ParserFuel ParserLocal ParserCut ParserBlank ParserTerm ParserLinewise.
Local Open Scope list_scope.

(** ** byte-order mark *)
Lemma starts_bom_line l r : starts_with bom (l ++ c_lf :: r) = starts_with bom l.
Proof.
  destruct (starts_with bom l) eqn:E.
  - apply starts_with_spec in E as [t ->]. rewrite <- app_assoc. apply starts_with_app.
  - destruct (starts_with bom (l ++ c_lf :: r)) eqn:E'; auto. apply starts_with_spec in E' as [t Ht].
    assert (X : exists u, l = bom ++ u).
    { destruct l as [|a [|b [|c l]]]; cbn in Ht; inversion Ht; subst. exists l. reflexivity. }
    destruct X as [u ->]. rewrite starts_with_app in E. discriminate.
Qed.
Lemma bom_state cf b d : b <> [] -> starts_with bom b = false ->
  strip_bom cf (nextst (init_state cf (stream_of (bom ++ b)) d)) = strip_bom cf (nextst (init_state cf (stream_of b) d)).
Proof.
  intros Hn Hb. unfold nextst. cbn [init_state p_in p_cur].
  assert (Nb : ~ In c_lf bom) by (cbn; intuition discriminate).
  destruct (getline_good (stream_of b) [] eq_refl eq_refl) as [[R _]|[(l & r & R & Hl & E)|[R [Hl E]]]]; cbn [stream_of is_rest] in *.
  - contradiction.
  - subst b. rewrite E. rewrite app_assoc. rewrite getline_line.
    2: { intro X. apply in_app_or in X. tauto. }
    rewrite starts_bom_line in Hb. unfold strip_bom. cbn [st_line p_cur]. rewrite Hb, starts_with_app. reflexivity.
  - rewrite E. rewrite getline_last.
    2: { intro X. apply in_app_or in X. tauto. } 2: { discriminate. }
    unfold strip_bom. cbn [st_line p_cur]. rewrite Hb, starts_with_app. reflexivity.
Qed.
Lemma parses_only_bom cf fn d : parses_to cf fn (stream_of bom) d
  {| pr_outcome := Ret tt; pr_dict := d; pr_trace := []; pr_calls := []; pr_lines := 2%Z |}.
Proof. split; [discriminate|]. exists 2. intros [|[|n]] H; try lia. reflexivity. Qed.
Lemma parses_empty cf fn d : parses_to cf fn (stream_of []) d
  {| pr_outcome := Ret tt; pr_dict := d; pr_trace := []; pr_calls := []; pr_lines := 1%Z |}.
Proof. split; [discriminate|]. exists 1. intros [|n] H; try lia. reflexivity. Qed.
Lemma parses_bom cf fn b d r : starts_with bom b = false -> parses_to cf fn (stream_of b) d r ->
  exists r', parses_to cf fn (stream_of (bom ++ b)) d r' /\
    pr_outcome r' = pr_outcome r /\ pr_dict r' = pr_dict r /\ pr_calls r' = pr_calls r /\ pr_trace r' = pr_trace r.
Proof.
  intros Hb H. destruct b as [|c b].
  - rewrite (parses_to_fun _ _ _ _ _ _ H (parses_empty cf fn d)). rewrite app_nil_r.
    eexists. split; [apply parses_only_bom|]. auto.
  - exists r. split; [|auto]. destruct H as (H1 & N & H2). split; [exact H1|]. exists N. intros n Hn.
    rewrite <- (H2 n Hn). rewrite !po_parse_eq. rewrite bom_state; [reflexivity|discriminate|exact Hb].
Qed.
Lemma parses_bom_conv cf fn b d r' : starts_with bom b = false -> parses_to cf fn (stream_of (bom ++ b)) d r' ->
  exists r, parses_to cf fn (stream_of b) d r.
Proof.
  intros Hb H. destruct b as [|c b]; [eexists; apply parses_empty|].
  exists r'. destruct H as (H1 & N & H2). split; [exact H1|]. exists N. intros n Hn.
  rewrite <- (H2 n Hn). rewrite !po_parse_eq. rewrite bom_state; [reflexivity|discriminate|exact Hb].
Qed.

(** ** plural forms *)
Lemma add_plural_forms d op : get_plural_forms (fst (add_translation d op)) = get_plural_forms d.
Proof.
  destruct op as [[?|] ? ?|[?|] ? ? ?]; simpl.
  - unfold add_ctxt_singular. destruct (put_singular _ _); reflexivity.
  - unfold add_singular. destruct (put_singular _ _); reflexivity.
  - unfold add_ctxt_plural. destruct (put_plural _ _); reflexivity.
  - unfold add_plural. destruct (put_plural _ _); reflexivity.
Qed.
Lemma calls_plural_kept l : forall d, pf_valid (get_plural_forms d) = true ->
  get_plural_forms (fold_left apply_call l d) = get_plural_forms d.
Proof.
  induction l as [|[op|p] l IH]; intros d H; [reflexivity| |]; cbn [fold_left apply_call].
  - rewrite IH; rewrite add_plural_forms; auto.
  - rewrite H. apply IH, H.
Qed.
Lemma calls_plural_first l : forall d, pf_valid (get_plural_forms d) = false -> Forall sound_call l ->
  get_plural_forms (fold_left apply_call l d) = match plurals l with p :: _ => p | [] => get_plural_forms d end.
Proof.
  induction l as [|[op|p] l IH]; intros d H HS; [reflexivity| |]; inversion HS; subst; cbn [fold_left apply_call plurals].
  - rewrite IH; rewrite ?add_plural_forms; auto.
  - rewrite H. rewrite calls_plural_kept; [reflexivity|]. exact H2.
Qed.

(** ** keys are never removed *)
Lemma lookup_plural d p k : lookup (set_plural_forms d p) k = lookup d k.
Proof. reflexivity. Qed.
Lemma add_keeps d op k : lookup d k <> None -> lookup (fst (add_translation d op)) k <> None.
Proof.
  intro H. destruct (key_eq_dec k (op_key op)) as [->|N].
  - rewrite lookup_add_same. discriminate.
  - rewrite lookup_add_other; auto.
Qed.
Lemma calls_keep l : forall d k, lookup d k <> None -> lookup (fold_left apply_call l d) k <> None.
Proof.
  induction l as [|[op|p] l IH]; intros d k H; [exact H| |]; cbn [fold_left apply_call]; apply IH.
  - apply add_keeps, H.
  - destruct (pf_valid _); exact H.
Qed.
