From Verif.Model Require Import Base Log IConv.
From Verif.Spec Require Import LogSpec IConvSpec.
From Verif.Proofs Require Import BaseFacts.
Local Open Scope list_scope.

(** ** Log *)
Lemma in_force_app : forall l p op i,
  in_force l (p ++ [op]) i =
  match op, l with
  | SetInfo c, LInfo => c | SetWarning c, LWarning => c | SetError c, LError => c
  | _, _ => in_force l p i
  end.
Proof.
  induction p as [|o p IH]; intros op i; simpl; [destruct op, l; reflexivity|]. rewrite IH. reflexivity.
Qed.

Lemma log_put_fold : forall pieces o,
  fold_left log_put pieces o = {| lo_callback := lo_callback o; lo_out := lo_out o ++ concat pieces |}.
Proof.
  induction pieces as [|p ps IH]; intros [cb out]; simpl.
  - now rewrite app_nil_r.
  - rewrite IH. simpl. now rewrite app_assoc.
Qed.

Lemma log_run_owed : forall ops past c,
  (forall l, callback_of c l = in_force l past (Some 0)) ->
  snd (log_run c ops) = owed past ops.
Proof.
  induction ops as [|op ops IH]; intros past c H; simpl; auto.
  destruct (log_step c op) as [c1 i1] eqn:E. destruct (log_run c1 ops) as [c2 i2] eqn:E2. simpl.
  assert (N : forall l, callback_of c1 l = in_force l (past ++ [op]) (Some 0)).
  { intros l. rewrite in_force_app. specialize (H l).
    destruct op as [cb|cb|cb|lv ps]; simpl in E.
    - inversion E; subst. destruct l; simpl in *; auto.
    - inversion E; subst. destruct l; simpl in *; auto.
    - inversion E; subst. destruct l; simpl in *; auto.
    - destruct (callback_of c lv); inversion E; subst; auto. }
  specialize (IH _ _ N). rewrite E2 in IH. simpl in IH. rewrite IH. f_equal.
  destruct op as [cb|cb|cb|lv ps]; simpl in E; try (inversion E; subst; reflexivity).
  rewrite <- H. destruct (callback_of c lv); inversion E; subst; auto.
  rewrite log_put_fold. reflexivity.
Qed.

(** ** IConv *)
Lemma set_charsets_equal : forall I (c : iconv I) from to,
  List.map toupper from = List.map toupper to ->
  exists c', set_charsets false c from to = (Ret tt, c', close_events (cv_cd c)) /\
             cv_cd c' = CdNull.
Proof.
  intros. unfold set_charsets. simpl. rewrite H, bytes_eqb_refl. eexists. split; reflexivity.
Qed.

Lemma convert_null : forall I nd (c : iconv I) t, cv_cd c = CdNull -> convert nd c t = (Ret t, c, []).
Proof. intros. unfold convert. now rewrite H. Qed.

Lemma conv_loop_ok : forall step, stepper_ok step ->
  forall fuel text out cap, 4 * length text <= cap -> length text <= fuel ->
  conv_loop step fuel text out cap =
  (out ++ fst (converted step fuel text), if snd (converted step fuel text) then None else Some EILSEQ).
Proof.
  intros step OK. induction fuel as [|f IH]; intros text out cap HC HF; simpl.
  - now rewrite app_nil_r.
  - destruct text as [|x text]; simpl; [now rewrite app_nil_r|].
    destruct (step (x :: text)) as [[n o]|] eqn:E; simpl; [|now rewrite app_nil_r].
    destruct (OK (x :: text) n o ltac:(discriminate) E) as [B1 B2].
    destruct (Nat.leb_spec (length o) cap); [|simpl in *; lia].
    rewrite IH.
    + destruct (converted step f (skipn n (x :: text))) as [r b]. simpl. now rewrite app_assoc.
    + rewrite skipn_length. cbn [length] in *. lia.
    + rewrite skipn_length. cbn [length] in *. lia.
Qed.

Lemma conv_loop_length : forall step fuel text out cap,
  length (fst (conv_loop step fuel text out cap)) <= length out + cap.
Proof.
  intros step. induction fuel as [|f IH]; intros text out cap; simpl; [lia|].
  destruct text; simpl; [lia|]. destruct (step (a :: text)) as [[n o]|]; simpl; [|lia].
  destruct (Nat.leb_spec (length o) cap); simpl; [|lia].
  specialize (IH (skipn n (a :: text)) (out ++ o) (cap - length o)). rewrite app_length in IH. lia.
Qed.

Lemma iconv_of_ok : forall mark step, iconv_ok (iconv_of mark step).
Proof.
  intros mark step st text cap. simpl. destruct (is_nil text); simpl; [lia|].
  destruct st; simpl.
  - pose proof (conv_loop_length step (length text) text [] cap). simpl in *. lia.
  - destruct (Nat.leb_spec (length mark) cap); simpl; [|lia].
    pose proof (conv_loop_length step (length text) text mark (cap - length mark)). lia.
Qed.

(** descriptor discipline *)
Definition cd_open {I} (c : iconv I) : option nat :=
  match cv_cd c with CdOpen id _ => Some id | _ => None end.

Lemma disciplined_app : forall a b o n,
  disciplined o n (a ++ b) =
  match disciplined o n a with Some (o', n') => disciplined o' n' b | None => None end.
Proof.
  induction a as [|e a IH]; intros b o n; simpl; auto.
  destruct e as [s|id|id|id|[id|]]; auto.
  - destruct o; auto. destruct (Nat.eqb id n); auto.
  - destruct o; auto. destruct (Nat.eqb n0 id); auto.
  - destruct o; auto. destruct (Nat.eqb n0 id); auto.
  - destruct o; auto. destruct (Nat.eqb n0 id); auto.
Qed.

Lemma close_disciplined : forall I (c : iconv I) n,
  cv_cd c <> CdInvalid -> disciplined (cd_open c) n (close_events (cv_cd c)) = Some (None, n).
Proof.
  intros I [t f cd nx] n H. unfold cd_open; simpl in *. destruct cd; simpl; auto; [easy|].
  now rewrite Nat.eqb_refl.
Qed.

Lemma set_charsets_disciplined : forall I strict (c : iconv I) from to o c' ev,
  set_charsets strict c from to = (o, c', ev) -> cv_cd c <> CdInvalid ->
  o <> Ub UbCtype ->
  (cv_cd c' <> CdInvalid -> disciplined (cd_open c) (cv_next c) ev = Some (cd_open c', cv_next c')) /\
  (cv_cd c' = CdInvalid <-> exists w, o = Exn (ExRuntime w)) /\
  (cv_cd c' = CdInvalid -> disciplined (cd_open c) (cv_next c) ev = Some (None, cv_next c')).
Proof.
  intros I strict c from to o c' ev H NI NU. unfold set_charsets in H.
  pose proof (close_disciplined I c (cv_next c) NI) as D.
  destruct (strict && _); [inversion H; subst; easy|].
  destruct (bytes_eqb _ _).
  - inversion H; subst. simpl. repeat split; auto; try discriminate. intros [w W]. discriminate.
  - destruct (ic_open I _ _) as [st|[e txt]].
    + inversion H; subst. simpl. repeat split; try discriminate.
      * intros _. rewrite disciplined_app, D. simpl. rewrite Nat.eqb_refl. reflexivity.
      * intros [w W]. discriminate.
    + inversion H; subst. simpl. repeat split; auto; try congruence. intros _.  eauto.
Qed.

Lemma convert_disciplined : forall I nd (c : iconv I) t o c' ev,
  convert nd c t = (o, c', ev) -> cv_cd c <> CdInvalid ->
  cv_cd c' <> CdInvalid /\ cd_open c' = cd_open c /\ cv_next c' = cv_next c /\
  disciplined (cd_open c) (cv_next c) ev = Some (cd_open c', cv_next c').
Proof.
  intros I nd c t o c' ev H NI. unfold convert in H. destruct (cv_cd c) as [| |id st] eqn:E; [|easy|].
  - inversion H; subst. unfold cd_open. rewrite E. simpl. auto.
  - assert (O : cd_open c = Some id) by (unfold cd_open; now rewrite E).
    destruct (ic_conv I st t (4 * length t)) as [[st' out] err].
    destruct err as [e|]; [destruct e; try destruct nd|]; inversion H; subst; rewrite O; simpl;
      rewrite ?Nat.eqb_refl; repeat split; auto; discriminate.
Qed.
