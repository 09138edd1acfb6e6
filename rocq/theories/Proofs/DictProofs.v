From Verif.Model Require Import Base Log PluralForms Dictionary.
From Verif.Spec Require Import DictSpec.
From Verif.Proofs Require Import BaseFacts PluralProofs.
Local Open Scope list_scope.


Lemma put_plural_fst : forall vec strs, fst (put_plural vec strs) = strs.
Proof.
  intros. unfold put_plural. destruct (is_nil_spec _ vec); auto.
  destruct (strs_eqb_spec vec strs); simpl; auto.
Qed.

Lemma put_singular_fst : forall vec s,
  fst (put_singular vec s) = s :: match vec with [] => [] | _ :: r => r end.
Proof.
  intros. unfold put_singular. destruct vec as [|v0 vs]; auto.
  destruct (bytes_eqb_spec v0 s); simpl; auto. congruence.
Qed.

Lemma put_plural_snd : forall vec strs,
  snd (put_plural vec strs) = true <-> vec <> [] /\ fst (put_plural vec strs) <> vec.
Proof.
  intros. rewrite put_plural_fst. unfold put_plural. destruct (is_nil_spec _ vec); simpl.
  - subst; intuition congruence.
  - destruct (strs_eqb_spec vec strs); simpl; intuition congruence.
Qed.

Lemma put_singular_snd : forall vec s,
  snd (put_singular vec s) = true <-> vec <> [] /\ fst (put_singular vec s) <> vec.
Proof.
  intros. rewrite put_singular_fst. unfold put_singular. destruct vec as [|v0 vs]; simpl.
  - intuition congruence.
  - destruct (bytes_eqb_spec v0 s); simpl; intuition congruence.
Qed.

Lemma entry_or_new_forms : forall (o : option (list bytes)) c i s,
  s :: match match o with Some v => v | None => [] end with [] => [] | _ :: r => r end
  = new_forms o (AddSingular c i s).
Proof. intros. simpl. destruct o as [[|]|]; reflexivity. Qed.

Lemma lookup_ctxt_or_new : forall d c i,
  assoc i (ctxt_or_new (d_ctxt d) c) = lookup d (Some c, i).
Proof. intros. unfold lookup, ctxt_or_new. simpl. destruct (assoc c (d_ctxt d)); reflexivity. Qed.

Lemma lookup_add_same : forall d op,
  lookup (fst (add_translation d op)) (op_key op) = Some (new_forms (lookup d (op_key op)) op).
Proof.
  intros d [[c|] i s | [c|] i pl strs]; simpl; unfold add_ctxt_singular, add_singular, add_ctxt_plural, add_plural.
  - pose proof (put_singular_fst (entry_or_new (ctxt_or_new (d_ctxt d) c) i) s) as P.
    destruct (put_singular _ _) as [vec' col]. simpl in *. unfold lookup; simpl.
    rewrite !assoc_set_same. subst vec'. unfold entry_or_new.
    rewrite lookup_ctxt_or_new. rewrite (entry_or_new_forms _ (Some c) i). reflexivity.
  - pose proof (put_singular_fst (entry_or_new (d_entries d) i) s) as P.
    destruct (put_singular _ _) as [vec' col]. simpl in *. unfold lookup; simpl.
    rewrite !assoc_set_same. subst vec'. unfold entry_or_new.
    rewrite (entry_or_new_forms _ None i). reflexivity.
  - pose proof (put_plural_fst (entry_or_new (ctxt_or_new (d_ctxt d) c) i) strs) as P.
    destruct (put_plural _ _) as [vec' col]. simpl in *. unfold lookup; simpl.
    rewrite !assoc_set_same. now subst vec'.
  - pose proof (put_plural_fst (entry_or_new (d_entries d) i) strs) as P.
    destruct (put_plural _ _) as [vec' col]. simpl in *. unfold lookup; simpl.
    rewrite !assoc_set_same. now subst vec'.
Qed.

Lemma lookup_add_other : forall d op k,
  k <> op_key op -> lookup (fst (add_translation d op)) k = lookup d k.
Proof.
  assert (C : forall d c i v kc ki, (kc, ki) <> (Some c, i) ->
     lookup (set_ctxt d (assoc_set c (assoc_set i v (ctxt_or_new (d_ctxt d) c)) (d_ctxt d))) (kc, ki)
     = lookup d (kc, ki)).
  { intros. unfold lookup. simpl. destruct kc as [kc|]; auto.
    destruct (bytes_eqb_spec kc c).
    - subst. rewrite assoc_set_same. rewrite assoc_set_other by congruence.
      unfold ctxt_or_new. destruct (assoc c (d_ctxt d)); auto.
    - rewrite assoc_set_other by auto. reflexivity. }
  assert (N : forall d i v kc ki, (kc, ki) <> (None, i) ->
     lookup (set_entries d (assoc_set i v (d_entries d))) (kc, ki) = lookup d (kc, ki)).
  { intros. unfold lookup. simpl. destruct kc as [kc|]; auto.
    rewrite assoc_set_other by congruence. reflexivity. }
  intros d [[c|] i s | [c|] i pl strs] [kc ki] H; simpl in *;
    unfold add_ctxt_singular, add_singular, add_ctxt_plural, add_plural;
    match goal with |- context [let (_, _) := ?x in _] => destruct x end; simpl; auto.
Qed.

Lemma lookup_add : forall d op k, lookup (fst (add_translation d op)) k = spec_add (lookup d) op k.
Proof.
  intros. unfold spec_add, update. destruct (key_eq_dec k (op_key op)).
  - subst. apply lookup_add_same.
  - now apply lookup_add_other.
Qed.

(** other fields are untouched *)
Lemma add_fields : forall d op,
  let d' := fst (add_translation d op) in
  d_plural d' = d_plural d /\ d_charset d' = d_charset d /\
  d_has_fallback d' = d_has_fallback d /\ d_fallback d' = d_fallback d.
Proof.
  intros d [[c|] i s | [c|] i pl strs]; simpl;
    unfold add_ctxt_singular, add_singular, add_ctxt_plural, add_plural;
    match goal with |- context [let (_, _) := ?x in _] => destruct x end; simpl; auto.
Qed.

Lemma run_history_lookup : forall h d st,
  (forall k, lookup d k = fst st k) -> d_plural d = snd st ->
  let d' := run_history d h in let st' := fold_left spec_call h st in
  (forall k, lookup d' k = fst st' k) /\ d_plural d' = snd st' /\
  d_has_fallback d' = d_has_fallback d /\ d_fallback d' = d_fallback d.
Proof.
  induction h as [|c h IH]; intros d st Hl Hp; simpl.
  - auto.
  - destruct c as [op|p]; simpl.
    + pose proof (add_fields d op) as (A & _ & B & C).
      specialize (IH (fst (add_translation d op)) (spec_add (fst st) op, snd st)).
      destruct IH as (I1 & I2 & I3 & I4).
      * intros k. rewrite lookup_add. unfold spec_add, update. simpl.
        destruct (key_eq_dec k (op_key op)); rewrite ?Hl; auto.
      * simpl. congruence.
      * simpl in *. repeat split; auto; congruence.
    + specialize (IH (set_plural_forms d p) (fst st, p)).
      destruct IH as (I1 & I2 & I3 & I4); auto.
Qed.

(** queries in terms of lookup *)
Lemma translate_plural_in_spec : forall d es i pl n,
  fst (translate_plural_in d es i pl n) =
  match assoc i es with
  | None => by_count i pl n
  | Some forms =>
      match nth_error forms (Z.to_nat (get_plural (d_plural d) n)) with
      | None => i
      | Some [] => by_count i pl n
      | Some f => f
      end
  end.
Proof.
  intros. unfold translate_plural_in. destruct (assoc i es) as [forms|]; simpl; auto.
  pose proof (get_plural_nonneg (d_plural d) n) as P. set (x := get_plural (d_plural d) n) in *.
  destruct (Z.leb_spec (Z.of_nat (length forms)) x).
  - simpl. assert (E : nth_error forms (Z.to_nat x) = None) by (apply nth_error_None; lia).
    now rewrite E.
  - destruct (nth_error forms (Z.to_nat x)) as [f|] eqn:E.
    + erewrite nth_error_nth by eauto. destruct f; reflexivity.
    + apply nth_error_None in E. lia.
Qed.

Lemma translate_plural_spec : forall d i pl n,
  fst (translate_plural d i pl n) = spec_translate_plural (lookup d) (d_plural d) (None, i) pl n.
Proof. intros. unfold translate_plural. rewrite translate_plural_in_spec. reflexivity. Qed.

Lemma translate_ctxt_plural_spec : forall d c i pl n,
  fst (translate_ctxt_plural d c i pl n) = spec_translate_plural (lookup d) (d_plural d) (Some c, i) pl n.
Proof.
  intros. unfold translate_ctxt_plural, spec_translate_plural, lookup. simpl.
  destruct (assoc c (d_ctxt d)).
  - apply translate_plural_in_spec.
  - simpl. unfold by_count. destruct (n =? 1)%Z; reflexivity.
Qed.

Lemma translate_nofb_spec : forall f h d i,
  d_has_fallback d = false -> fst (translate (S f) h d i) = Ret (spec_translate (lookup d) (None, i)).
Proof.
  intros. unfold translate, spec_translate, lookup. simpl. rewrite H.
  destruct (assoc i (d_entries d)) as [[|]|]; reflexivity.
Qed.

Lemma translate_ctxt_nofb_spec : forall f h d c i,
  d_has_fallback d = false -> fst (translate_ctxt (S f) h d c i) = Ret (spec_translate (lookup d) (Some c, i)).
Proof.
  intros. unfold translate_ctxt, spec_translate, lookup. simpl.
  destruct (assoc c (d_ctxt d)) as [es|]; auto. simpl. rewrite H.
  destruct (assoc i es) as [[|]|]; reflexivity.
Qed.

Lemma spec_translate_ext : forall m m' k, (forall k, m k = m' k) -> spec_translate m k = spec_translate m' k.
Proof. intros. unfold spec_translate. now rewrite H. Qed.
Lemma spec_translate_plural_ext : forall m m' p k pl n,
  (forall k, m k = m' k) -> spec_translate_plural m p k pl n = spec_translate_plural m' p k pl n.
Proof. intros. unfold spec_translate_plural. now rewrite H. Qed.

Lemma dictionary_is_map : forall cs (hist : list client_call),
  let d := run_history (new_dictionary cs) hist in
  let m := fst (spec_history hist) in let p := snd (spec_history hist) in
  (forall fuel h i, fst (translate (S fuel) h d i) = Ret (spec_translate m (None, i))) /\
  (forall fuel h c i, fst (translate_ctxt (S fuel) h d c i) = Ret (spec_translate m (Some c, i))) /\
  (forall i pl n, fst (translate_plural d i pl n) = spec_translate_plural m p (None, i) pl n) /\
  (forall c i pl n, fst (translate_ctxt_plural d c i pl n) = spec_translate_plural m p (Some c, i) pl n).
Proof.
  intros. destruct (run_history_lookup hist (new_dictionary cs) (fun _ => None, pf_none)) as (L & P & F & _).
  - intros [[c|] k]; reflexivity.
  - reflexivity.
  - simpl in F. repeat split; intros.
    + rewrite translate_nofb_spec by exact F. f_equal. now apply spec_translate_ext.
    + rewrite translate_ctxt_nofb_spec by exact F. f_equal. now apply spec_translate_ext.
    + rewrite translate_plural_spec. unfold d, p. rewrite P. now apply spec_translate_plural_ext.
    + rewrite translate_ctxt_plural_spec. unfold d, p. rewrite P. now apply spec_translate_plural_ext.
Qed.

(** C05 *)
Lemma spec_history_absent : forall hist st k,
  (forall op, In (Add op) hist -> op_key op <> k) ->
  fst (fold_left spec_call hist st) k = fst st k.
Proof.
  induction hist as [|c hist IH]; intros; simpl; auto.
  rewrite IH by (intros; apply H; now right).
  destruct c as [op|p]; simpl; auto. unfold spec_add, update.
  destruct (key_eq_dec k (op_key op)); auto. subst. exfalso. apply (H op); auto. now left.
Qed.

Lemma untranslated : forall cs hist c i,
  (forall op, In (Add op) hist -> op_key op <> (c, i)) ->
  let d := run_history (new_dictionary cs) hist in
  (match c with
   | None => (forall fuel h, fst (translate (S fuel) h d i) = Ret i) /\
             (forall pl n, fst (translate_plural d i pl n) = if (n =? 1)%Z then i else pl)
   | Some x => (forall fuel h, fst (translate_ctxt (S fuel) h d x i) = Ret i) /\
               (forall pl n, fst (translate_ctxt_plural d x i pl n) = if (n =? 1)%Z then i else pl)
   end).
Proof.
  intros. destruct (dictionary_is_map cs hist) as (A & B & C & D).
  assert (E : fst (spec_history hist) (c, i) = None)
    by (unfold spec_history; rewrite spec_history_absent; auto).
  destruct c as [x|]; split; intros; unfold d; [rewrite B|rewrite D|rewrite A|rewrite C];
    unfold spec_translate, spec_translate_plural; rewrite E; reflexivity.
Qed.

(** C06 *)
Lemma translate_in_ext : forall f h d d' es es' i,
  assoc i es = assoc i es' -> d_has_fallback d = d_has_fallback d' -> d_fallback d = d_fallback d' ->
  translate_in f h d es i = translate_in f h d' es' i.
Proof. intros [|f] h d d' es es' i H1 H2 H3; auto. simpl. now rewrite H1, H2, H3. Qed.

Lemma add_ctxt_other : forall d op c i,
  op_key op <> (Some c, i) ->
  (assoc c (d_ctxt (fst (add_translation d op))) = None /\ assoc c (d_ctxt d) = None) \/
  (exists es, assoc c (d_ctxt (fst (add_translation d op))) = Some es /\ assoc c (d_ctxt d) = None
              /\ assoc i es = None) \/
  (exists es es', assoc c (d_ctxt (fst (add_translation d op))) = Some es /\ assoc c (d_ctxt d) = Some es'
              /\ assoc i es = assoc i es').
Proof.
  intros d op c i H.
  pose proof (lookup_add_other d op (Some c, i) ltac:(congruence)) as L.
  unfold lookup in L; simpl in L.
  destruct (assoc c (d_ctxt (fst (add_translation d op)))) as [es|] eqn:E;
  destruct (assoc c (d_ctxt d)) as [es'|] eqn:E'.
  - right; right; eauto.
  - right; left; eauto.
  - exfalso. clear L. revert E.
    destruct op as [[c'|] i' s | [c'|] i' pl strs]; simpl;
      unfold add_ctxt_singular, add_singular, add_ctxt_plural, add_plural;
      match goal with |- context [let (_, _) := ?x in _] => destruct x end; simpl; try congruence;
      (destruct (bytes_eqb_spec c c'); [subst; rewrite assoc_set_same | rewrite assoc_set_other by auto]; congruence).
  - left; auto.
Qed.

(** C11 *)
Definition dict_wf (d : dictionary) : Prop :=
  NoDup (List.map fst (d_entries d)) /\ NoDup (List.map fst (d_ctxt d)) /\
  (forall c es, In (c, es) (d_ctxt d) -> NoDup (List.map fst es)).

Lemma assoc_set_in_val : forall V (m : list (bytes * V)) k v x w,
  In (x, w) (assoc_set k v m) -> (x = k /\ w = v) \/ In (x, w) m.
Proof.
  induction m as [|[k' v'] m IH]; simpl; intros.
  - destruct H; [left; split; congruence|easy].
  - destruct (bytes_eqb_spec k k'); simpl in H.
    + destruct H; [left; split; congruence | auto].
    + destruct H; [auto|]. destruct (IH _ _ _ _ H); auto.
Qed.

Lemma ctxt_or_new_nodup : forall d c, dict_wf d -> NoDup (List.map fst (ctxt_or_new (d_ctxt d) c)).
Proof.
  intros d c (W1 & W2 & W3). unfold ctxt_or_new. destruct (assoc c (d_ctxt d)) eqn:E.
  - apply assoc_In in E. eauto.
  - constructor.
Qed.

Lemma add_wf : forall d op, dict_wf d -> dict_wf (fst (add_translation d op)).
Proof.
  intros d op W. pose proof W as (W1 & W2 & W3).
  destruct op as [[c'|] i' s | [c'|] i' pl strs]; simpl;
      unfold add_ctxt_singular, add_singular, add_ctxt_plural, add_plural;
      match goal with |- context [let (_, _) := ?x in _] => destruct x end; simpl;
      unfold dict_wf; simpl; repeat split; auto using assoc_set_nodup;
      intros c es Hin; apply assoc_set_in_val in Hin; destruct Hin as [[-> ->]|]; eauto;
      apply assoc_set_nodup; now apply ctxt_or_new_nodup.
Qed.

Lemma run_history_wf : forall h d, dict_wf d -> dict_wf (run_history d h).
Proof.
  induction h as [|[op|p] h IH]; simpl; intros; auto.
  - apply IH. now apply add_wf.
Qed.

Lemma new_wf : forall cs, dict_wf (new_dictionary cs).
Proof. intros; repeat split; simpl; try constructor; easy. Qed.

Lemma run_history_charset : forall h d, d_charset (run_history d h) = d_charset d.
Proof.
  induction h as [|[op|p] h IH]; simpl; intros; auto; rewrite IH; [|reflexivity]. apply add_fields.
Qed.

(** contexts are created together with their first message *)
Lemma assoc_set_not_nil : forall V k (v : V) m, assoc_set k v m <> [].
Proof. intros V k v [|[k' v'] m]; simpl; [|destruct (bytes_eqb k k')]; discriminate. Qed.
Definition ctxt_used (d : dictionary) : Prop := forall c es, In (c, es) (d_ctxt d) -> es <> [].
Lemma run_history_used : forall h d, ctxt_used d -> ctxt_used (run_history d h).
Proof.
  induction h as [|[op|p] h IH]; simpl; intros d H; auto. apply IH. unfold ctxt_used in *.
  destruct op as [[c'|] i' s | [c'|] i' pl strs]; simpl;
      unfold add_ctxt_singular, add_singular, add_ctxt_plural, add_plural;
      match goal with |- context [let (_, _) := ?x in _] => destruct x end; simpl; auto;
      intros c es Hin; apply assoc_set_in_val in Hin; destruct Hin as [[-> ->]|]; eauto using assoc_set_not_nil.
Qed.

Lemma foreach_lookup : forall d k v, dict_wf d -> (In (k, v) (foreach d) <-> lookup d (None, k) = Some v).
Proof.
  intros d k v (W1 & _). unfold foreach, lookup; simpl. split.
  - now apply In_assoc.
  - apply assoc_In.
Qed.

Lemma foreach_ctxt_lookup : forall d c k v,
  dict_wf d -> (In (c, k, v) (foreach_ctxt d) <-> lookup d (Some c, k) = Some v).
Proof.
  intros d c k v (W1 & W2 & W3). unfold foreach_ctxt, lookup; simpl. rewrite in_flat_map. split.
  - intros ([c' es] & H1 & H2). apply in_map_iff in H2 as ([k' v'] & H3 & H4). simpl in H3.
    inversion H3; subst. rewrite (In_assoc _ _ _ W2 H1). apply In_assoc; eauto.
  - intros H. destruct (assoc c (d_ctxt d)) as [es|] eqn:E; [|discriminate].
    exists (c, es). split; [now apply assoc_In|]. simpl. apply in_map_iff. exists (k, v).
    split; auto. now apply assoc_In.
Qed.

Lemma NoDup_app' : forall A (a b : list A),
  NoDup a -> NoDup b -> (forall x, In x a -> In x b -> False) -> NoDup (a ++ b).
Proof.
  induction a; simpl; intros; auto. inversion H; subst. constructor.
  - rewrite in_app_iff. intros [|]; eauto.
  - apply IHa; eauto.
Qed.

Lemma foreach_ctxt_nodup : forall d, dict_wf d -> NoDup (List.map fst (foreach_ctxt d)).
Proof.
  intros d (W1 & W2 & W3). unfold foreach_ctxt. revert W2 W3.
  induction (d_ctxt d) as [|[c es] l IH]; simpl; intros W2 W3; [constructor|].
  inversion W2; subst. rewrite map_app. apply NoDup_app'.
  - rewrite map_map. simpl.
    assert (E : NoDup (List.map fst es)) by (eapply W3; eauto).
    clear - E. induction es as [|[k v] es IH]; simpl in *; constructor; inversion E; subst; auto.
    rewrite in_map_iff. intros ([k' v'] & H & Hin). inversion H; subst. simpl in *.
    apply H1. change k with (fst (k, v')). now apply in_map.
  - apply IH; auto. intros; eapply W3; eauto.
  - intros x H3 H4. rewrite map_map in H3. apply in_map_iff in H3 as ([k v] & <- & _). simpl in H4.
    rewrite in_map_iff in H4. destruct H4 as ([[c2 k2] v2] & E & Hin). simpl in E. inversion E; subst.
    apply in_flat_map in Hin as ([c3 es3] & Hin & Hin2). apply in_map_iff in Hin2 as ([? ?] & E2 & ?).
    simpl in E2. inversion E2; subst. apply H1. change c with (fst (c, es3)). now apply in_map.
Qed.

(** C12 *)
Lemma print_strs_listed : forall v, print_strs v = listed v.
Proof.
  assert (T : forall v, print_strs_tail v = match v with [] => [] | _ => bs ", " ++ listed v end).
  { induction v as [|s v IH]; [reflexivity|]. cbn [print_strs_tail]. rewrite IH. f_equal.
    destruct v as [|s' v]; cbn [listed]; unfold quoted; rewrite <- ?app_assoc, ?app_nil_r; reflexivity. }
  intros [|s v]; [reflexivity|]. cbn [print_strs]. rewrite T.
  destruct v as [|s' v]; cbn [listed]; unfold quoted; rewrite <- ?app_assoc, ?app_nil_r; reflexivity.
Qed.

Lemma add_log : forall d op,
  (exists old, lookup d (op_key op) = Some old /\ old <> [] /\ new_forms (Some old) op <> old /\
     snd (add_translation d op) = [log_warning (collision_text old op)]) \/
  (~ (exists old, lookup d (op_key op) = Some old /\ old <> [] /\ new_forms (Some old) op <> old) /\
   snd (add_translation d op) = []).
Proof.
  intros d op.
  assert (S : forall vec s, put_singular vec s = (s :: match vec with [] => [] | _ :: r => r end,
              snd (put_singular vec s))).
  { intros. rewrite <- put_singular_fst. now destruct (put_singular vec s). }
  assert (P : forall vec s, put_plural vec s = (s, snd (put_plural vec s))).
  { intros. rewrite <- (put_plural_fst vec s) at 2. now destruct (put_plural vec s). }
  assert (KS : forall o c i s (w : list log_stmt),
     let vec := match o with Some v => v | None => [] end in
     w = [log_warning (collision_text vec (AddSingular c i s))] ->
     (exists old, o = Some old /\ old <> [] /\ new_forms (Some old) (AddSingular c i s) <> old /\
        (if snd (put_singular vec s) then w else []) = [log_warning (collision_text old (AddSingular c i s))]) \/
     (~ (exists old, o = Some old /\ old <> [] /\ new_forms (Some old) (AddSingular c i s) <> old) /\
      (if snd (put_singular vec s) then w else []) = [])).
  { intros o c i s w vec Hw. destruct (snd (put_singular vec s)) eqn:E.
    - left. apply put_singular_snd in E. rewrite put_singular_fst in E. destruct E as [E1 E2].
      unfold vec in *. destruct o as [o|]; [|easy]. exists o. auto.
    - right. split; auto. intros (old & E1 & E2 & E3). subst o. unfold vec in *.
      assert (snd (put_singular old s) = true); [|congruence].
      apply put_singular_snd. split; auto. rewrite put_singular_fst. simpl in E3. destruct old; easy. }
  assert (KP : forall o c i pl s (w : list log_stmt),
     let vec := match o with Some v => v | None => [] end in
     w = [log_warning (collision_text vec (AddPlural c i pl s))] ->
     (exists old, o = Some old /\ old <> [] /\ new_forms (Some old) (AddPlural c i pl s) <> old /\
        (if snd (put_plural vec s) then w else []) = [log_warning (collision_text old (AddPlural c i pl s))]) \/
     (~ (exists old, o = Some old /\ old <> [] /\ new_forms (Some old) (AddPlural c i pl s) <> old) /\
      (if snd (put_plural vec s) then w else []) = [])).
  { intros o c i pl s w vec Hw. destruct (snd (put_plural vec s)) eqn:E.
    - left. apply put_plural_snd in E. rewrite put_plural_fst in E. destruct E as [E1 E2].
      unfold vec in *. destruct o as [o|]; [|easy]. exists o. auto.
    - right. split; auto. intros (old & E1 & E2 & E3). subst o. unfold vec in *.
      assert (snd (put_plural old s) = true); [|congruence].
      apply put_plural_snd. split; auto. rewrite put_plural_fst. auto. }
  destruct op as [[c|] i s | [c|] i pl strs]; simpl op_key; simpl add_translation;
    unfold add_ctxt_singular, add_singular, add_ctxt_plural, add_plural.
  - rewrite S. cbn [snd]. rewrite <- lookup_ctxt_or_new. apply (KS _ (Some c) i s).
    unfold collision_text; cbn [listed]; unfold quoted. rewrite <- !app_assoc. reflexivity.
  - rewrite S. cbn [snd]. apply (KS (assoc i (d_entries d)) None i s).
    unfold collision_text; cbn [listed]; unfold quoted. rewrite <- !app_assoc. reflexivity.
  - rewrite P. cbn [snd]. rewrite <- lookup_ctxt_or_new. apply (KP _ (Some c) i pl strs).
    rewrite !print_strs_listed. unfold collision_text. cbn [listed]. unfold quoted. rewrite <- !app_assoc. reflexivity.
  - rewrite P. cbn [snd]. apply (KP (assoc i (d_entries d)) None i pl strs).
    rewrite !print_strs_listed. unfold collision_text. cbn [listed]. unfold quoted. rewrite <- !app_assoc. reflexivity.
Qed.

Lemma add_same_is_identity : forall d op old,
  lookup d (op_key op) = Some old -> new_forms (Some old) op = old ->
  fst (add_translation d op) = d.
Proof.
  intros d op old L E.
  assert (Hd : forall d es, d_entries d = es -> set_entries d es = d) by (intros [] ? <-; reflexivity).
  assert (Hc : forall d es, d_ctxt d = es -> set_ctxt d es = d) by (intros [] ? <-; reflexivity).
  destruct op as [[c|] i s | [c|] i pl strs]; simpl op_key in *; simpl add_translation;
    unfold add_ctxt_singular, add_singular, add_ctxt_plural, add_plural.
  - pose proof (put_singular_fst (entry_or_new (ctxt_or_new (d_ctxt d) c) i) s) as P.
    destruct (put_singular _ _) as [v' col]. simpl in *.
    unfold entry_or_new in P. rewrite lookup_ctxt_or_new, L in P.
    assert (P' : v' = old) by (destruct old; congruence). clear P.
    pose proof L as L'. rewrite <- lookup_ctxt_or_new in L. rewrite P', (assoc_set_id _ _ _ L).
    apply Hc. symmetry. apply assoc_set_id. unfold ctxt_or_new in *. unfold lookup in L'. simpl in L'.
    destruct (assoc c (d_ctxt d)); [reflexivity | discriminate].
  - pose proof (put_singular_fst (entry_or_new (d_entries d) i) s) as P.
    destruct (put_singular _ _) as [v' col]. simpl in *. unfold lookup in L; simpl in L.
    unfold entry_or_new in P. rewrite L in P. apply Hd. symmetry. apply assoc_set_id. rewrite L.
    f_equal. destruct old; congruence.
  - pose proof (put_plural_fst (entry_or_new (ctxt_or_new (d_ctxt d) c) i) strs) as P.
    destruct (put_plural _ _) as [v' col]. simpl in *.
    pose proof L as L'. rewrite <- lookup_ctxt_or_new in L. subst. rewrite (assoc_set_id _ _ _ L).
    apply Hc. symmetry. apply assoc_set_id. unfold ctxt_or_new in *. unfold lookup in L'. simpl in L'.
    destruct (assoc c (d_ctxt d)); [reflexivity | discriminate].
  - pose proof (put_plural_fst (entry_or_new (d_entries d) i) strs) as P.
    destruct (put_plural _ _) as [v' col]. simpl in *. unfold lookup in L; simpl in L.
    apply Hd. symmetry. apply assoc_set_id. rewrite L. congruence.
Qed.

(** C08, C09 *)
Lemma translate_step_miss : forall f h d d' i,
  own_translation d i = None -> links h d d' ->
  fst (translate (S f) h d i) = fst (translate f h d' i).
Proof.
  intros f h d d' i O (H1 & p & H2 & H3). unfold translate. simpl. unfold own_translation in O.
  rewrite H1, H2, H3.
  destruct (assoc i (d_entries d)) as [[|]|]; try discriminate;
    destruct (translate_in f h d' (d_entries d') i); reflexivity.
Qed.

Lemma translate_hit : forall f h d i t,
  own_translation d i = Some t -> fst (translate (S f) h d i) = Ret t.
Proof.
  intros. unfold translate, own_translation in *. simpl.
  destruct (assoc i (d_entries d)) as [[|]|]; try discriminate. simpl. congruence.
Qed.

Lemma translate_chain : forall h d ds last i fuel,
  path h d ds last -> d_has_fallback last = false -> length ds < fuel ->
  fst (translate fuel h d i) = Ret (first_translation (ds ++ [last]) i).
Proof.
  intros h d ds last i fuel P. revert fuel. induction P as [d|d d1 ds d' L P IH]; intros fuel NF F.
  - destruct fuel; [simpl in F; lia|]. rewrite translate_nofb_spec by auto.
    unfold spec_translate, lookup, first_translation, own_translation. simpl.
    destruct (assoc i (d_entries d)) as [[|]|]; reflexivity.
  - simpl in F. destruct fuel; [lia|]. simpl.
    destruct (own_translation d i) as [t|] eqn:O.
    + now apply translate_hit.
    + rewrite (translate_step_miss _ _ _ _ _ O L). apply IH; auto. lia.
Qed.

(** what such a lookup logs *)
Lemma translate_chain_log : forall h d ds last i fuel,
  path h d ds last -> d_has_fallback last = false -> length ds < fuel ->
  snd (translate fuel h d i) =
  List.repeat (log_info (bs "Couldn't translate: " ++ i)) (asked_in_vain (ds ++ [last]) i).
Proof.
  intros h d ds last i fuel P. revert fuel. induction P as [d|d d1 ds d' L P IH]; intros fuel NF F.
  - destruct fuel; [simpl in F; lia|]. unfold translate. cbn [translate_in app asked_in_vain]. unfold own_translation.
    rewrite NF. destruct (assoc i (d_entries d)) as [[|]|]; reflexivity.
  - simpl in F. destruct fuel; [lia|]. cbn [app asked_in_vain]. unfold translate. cbn [translate_in]. unfold own_translation.
    destruct L as (L1 & p & L2 & L3). rewrite L1, L2, L3.
    specialize (IH fuel NF ltac:(lia)). unfold translate in IH.
    destruct (translate_in fuel h d1 (d_entries d1) i) as [r l']. cbn [snd] in IH. subst l'.
    destruct (assoc i (d_entries d)) as [[|f v]|]; reflexivity.
Qed.

Lemma translate_cycle_aux : forall h i fuel n d,
  (forall m d', m <= fuel -> forall ds, path h d ds d' -> length ds = m ->
                own_translation d' i = None /\ exists d'', links h d' d'') ->
  n <= fuel -> fst (translate n h d i) = OutOfFuel.
Proof.
  intros h i. induction fuel as [|fuel IH]; intros n d H Hn.
  - assert (n = 0) by lia. subst. reflexivity.
  - destruct n as [|n]; [reflexivity|].
    destruct (H 0 d ltac:(lia) [] ltac:(constructor) eq_refl) as (O & d'' & L).
    rewrite (translate_step_miss _ _ _ _ _ O L). apply IH; [|lia].
    intros m d' Hm ds P Hl. apply (H (S m) d' ltac:(lia) (d :: ds)).
    + econstructor; eauto.
    + simpl. congruence.
Qed.

Lemma path_app : forall h a l b m c, path h a l b -> path h b m c -> path h a (l ++ m) c.
Proof. intros h a l b m c P. induction P; simpl; intros; auto. econstructor; eauto. Qed.

Lemma links_det : forall h d a b, links h d a -> links h d b -> a = b.
Proof. intros h d a b (_ & p & H1 & H2) (_ & q & H3 & H4). congruence. Qed.

Lemma path_det : forall h d ds d' es e',
  path h d ds d' -> path h d es e' -> length es = length ds -> e' = d'.
Proof.
  intros h d ds d' es e' P. revert es e'. induction P; intros es e' Q L.
  - inversion Q; subst; auto. discriminate.
  - inversion Q; subst; [discriminate|]. simpl in L.
    assert (d1 = d2) by eauto using links_det. subst. apply (IHP ds0); auto.
Qed.

(** splitting a path at a position *)
Lemma path_split : forall h d ds d' n,
  path h d ds d' -> n < length ds ->
  exists x, path h d (firstn n ds) x /\ In x ds /\ exists y, links h x y.
Proof.
  intros h d ds d' n P. revert n. induction P; intros n L; simpl in L; [lia|].
  destruct n as [|n].
  - exists d. simpl. split; [constructor|]. eauto.
  - destruct (IHP n ltac:(lia)) as (x & Q & I & y & Y). exists x. simpl. split; [econstructor; eauto|]. eauto.
Qed.

Lemma translate_cycle : forall h d0 l d ds i,
  path h d0 l d -> path h d ds d -> ds <> [] ->
  (forall x, In x (l ++ ds) -> own_translation x i = None) ->
  forall fuel, fst (translate fuel h d0 i) = OutOfFuel.
Proof.
  intros h d0 l d ds i P0 P NE H fuel.
  (* the cycle can be unrolled as often as needed *)
  assert (U : forall k, exists es, path h d es d /\ k <= length es /\ forall x, In x es -> In x ds).
  { induction k as [|k (es & Q & Lk & I)].
    - exists []. split; [constructor|]. split; [simpl; lia|easy].
    - exists (ds ++ es). split; [eapply path_app; eauto|]. rewrite app_length. destruct ds; [easy|]. simpl.
      split; [lia|]. intros x X. destruct X as [X|X]; [now left|].
      apply in_app_iff in X as [X|X]; [now right|]. apply I in X. exact X. }
  apply (translate_cycle_aux h i fuel fuel d0); auto.
  intros m d' Hm es Q Hl. destruct (U (S m)) as (us & QU & LU & IU).
  pose proof (path_app _ _ _ _ _ _ P0 QU) as Full.
  assert (m < length (l ++ us)) by (rewrite app_length; lia).
  destruct (path_split _ _ _ _ m Full H0) as (x & Qx & Ix & y & Ly).
  assert (d' = x).
  { eapply path_det; [exact Qx|exact Q|]. rewrite firstn_length. lia. }
  subst. split; [|eauto]. apply H. apply in_app_iff in Ix as [|]; apply in_app_iff; auto.
Qed.
