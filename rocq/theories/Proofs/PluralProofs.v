From Verif.Model Require Import Base PluralForms.
From Verif.Spec Require Import PluralSpec.
From Verif.Proofs Require Import BaseFacts.
Local Open Scope list_scope.

Lemma from_string_cases : forall strict s p,
  from_string strict s = Ret p -> pf_valid p = true ->
  In (no_space s, p) plural_table.
Proof.
  intros strict s p H V. unfold from_string in H.
  destruct (strict && existsb hi s); [discriminate|].
  change (strip_spaces s) with (no_space s) in H.
  destruct (assoc (no_space s) plural_table) eqn:E.
  - inversion H; subst. now apply assoc_In.
  - inversion H; subst. discriminate.
Qed.

Lemma plural_table_texts : List.map fst plural_table = registered_texts.
Proof. vm_compute. reflexivity. Qed.

Lemma plural_table_nodup : NoDup (List.map fst plural_table).
Proof.
  assert (D : forall l : list bytes,
    (fix go l := match l with [] => true | x :: r => negb (existsb (bytes_eqb x) r) && go r end) l = true
    -> NoDup l).
  { induction l as [|x l IH]; intros H; constructor; apply andb_prop in H as [H1 H2]; auto.
    intros Hin. apply negb_true_iff in H1. rewrite existsb_false_forall in H1.
    specialize (H1 _ Hin). rewrite bytes_eqb_refl in H1. discriminate. }
  apply D. vm_compute. reflexivity.
Qed.

(** index range of each function *)
Definition fn_max (f : plural_fn) : Z :=
  match f with
  | plural1 => 0
  | plural2_1 | plural2_2 | plural2_mk | plural2_mk_2 => 1
  | plural3_lv | plural3_ga | plural3_lt | plural3_1 | plural3_sk | plural3_pl | plural3_ro => 2
  | plural3_sl | plural4_be | plural4_cs | plural4_cy | plural4_gd | plural4_he | plural4_lt
  | plural4_pl | plural4_sk | plural4_uk => 3
  | plural5_ga => 4
  | plural6_ar => 5
  end%Z.

Lemma plural_eval_range : forall f n, (0 <= plural_eval f n <= fn_max f)%Z.
Proof.
  intros f n; destruct f; unfold plural_eval, fn_max;
  repeat match goal with |- context [if ?b then _ else _] => destruct b end; lia.
Qed.

Lemma get_plural_nonneg : forall p n, (0 <= get_plural p n)%Z.
Proof. intros [k [f|]] n; unfold get_plural; simpl; [apply plural_eval_range|lia]. Qed.

Definition row_ok (r : bytes * plural_forms) : bool :=
  bytes_eqb (fst r) latvian_text || bytes_eqb (fst r) slovenian_text ||
  match pf_plural (snd r) with Some f => (fn_max f <? pf_nplural (snd r))%Z | None => false end.

Lemma rows_ok : forall r, In r plural_table -> row_ok r = true.
Proof. apply forallb_forall. vm_compute. reflexivity. Qed.

Lemma range_good : forall strict s p,
  from_string strict s = Ret p -> pf_valid p = true ->
  no_space s <> latvian_text -> no_space s <> slovenian_text ->
  forall n, (0 <= get_plural p n < get_nplural p)%Z.
Proof.
  intros strict s p H V N1 N2 n. apply from_string_cases in H; auto.
  apply rows_ok in H. unfold row_ok in H. simpl in H.
  apply bytes_eqb_neq in N1. apply bytes_eqb_neq in N2. rewrite N1, N2 in H. simpl in H.
  unfold get_plural, get_nplural. destruct (pf_plural p) as [f|]; [|discriminate].
  apply Z.ltb_lt in H. pose proof (plural_eval_range f n). lia.
Qed.

Lemma assoc_latvian : assoc latvian_text plural_table = Some (mkpf 2 plural3_lv).
Proof. vm_compute. reflexivity. Qed.
Lemma assoc_slovenian : assoc slovenian_text plural_table = Some (mkpf 3 plural3_sl).
Proof. vm_compute. reflexivity. Qed.

Lemma from_string_ret : forall strict s p,
  from_string strict s = Ret p ->
  p = match assoc (no_space s) plural_table with Some q => q | None => pf_none end.
Proof.
  intros strict s p H. unfold from_string in H.
  destruct (strict && existsb hi s); [discriminate|].
  change (strip_spaces s) with (no_space s) in H.
  destruct (assoc (no_space s) plural_table); congruence.
Qed.

Lemma range_iff : forall strict s p,
  from_string strict s = Ret p -> pf_valid p = true ->
  ((forall n, (0 <= get_plural p n < get_nplural p)%Z) <->
   no_space s <> latvian_text /\ no_space s <> slovenian_text).
Proof.
  intros strict s p H V. split.
  - intros R. apply from_string_ret in H. split; intros E; rewrite E in H.
    + rewrite assoc_latvian in H. subst p. specialize (R 0%Z). vm_compute in R. destruct R. discriminate.
    + rewrite assoc_slovenian in H. subst p. specialize (R 5%Z). vm_compute in R. destruct R. discriminate.
  - intros [A B] n. eapply range_good; eauto.
Qed.

(** C02 *)
Lemma truth_eqb0 : forall b, (truth b =? 0)%Z = negb b.
Proof. destruct b; reflexivity. Qed.

Definition rule_agrees (text : bytes) (p : plural_forms) : Prop :=
  exists k e, parse_header_text text = Some (k, e) /\ k = get_nplural p /\
              forall n, eval e n = get_plural p n.

Lemma all_rules_agree : Forall (fun r => fst r = latvian_text \/ rule_agrees (fst r) (snd r)) plural_table.
Proof.
  unfold plural_table. simpl List.map.
  repeat (apply Forall_cons; [
    first [ left; vm_compute; reflexivity
          | right; unfold rule_agrees; simpl fst; simpl snd;
            match goal with |- exists k e, ?x = _ /\ _ =>
              let r := eval vm_compute in x in
              match r with Some (?a, ?b) => exists a, b end end;
            split; [vm_compute; reflexivity | split; [reflexivity|]];
            intros n; unfold get_plural, mkpf, pf_plural; cbn [eval plural_eval];
            repeat rewrite truth_eqb0; repeat rewrite negb_involutive;
            unfold truth; repeat match goal with
              |- context [Z.eqb ?a ?b] => destruct (Z.eqb a b)
            | |- context [Z.leb ?a ?b] => destruct (Z.leb a b)
            | |- context [Z.ltb ?a ?b] => destruct (Z.ltb a b) end; reflexivity ]|]).
  apply Forall_nil.
Qed.

Lemma rule_of_recognised : forall strict s p,
  from_string strict s = Ret p -> pf_valid p = true -> no_space s <> latvian_text ->
  rule_agrees (no_space s) p.
Proof.
  intros strict s p H V N. apply from_string_cases in H; auto.
  pose proof all_rules_agree as A. rewrite Forall_forall in A. destruct (A _ H); auto. easy.
Qed.

Lemma latvian_text_malformed : parse_header_text latvian_text = None.
Proof. vm_compute. reflexivity. Qed.

(** C03 *)
Lemma from_string_spaces : forall s t,
  no_space s = no_space t -> from_string false s = from_string false t.
Proof.
  intros s t H. unfold from_string. simpl.
  change (strip_spaces s) with (no_space s). change (strip_spaces t) with (no_space t).
  now rewrite H.
Qed.

Lemma table_rows_valid : forall r, In r plural_table -> pf_valid (snd r) = true.
Proof. apply forallb_forall. vm_compute. reflexivity. Qed.

Lemma from_string_recognises : forall s,
  exists p, from_string false s = Ret p /\ (pf_valid p = true <-> In (no_space s) registered_texts).
Proof.
  intros s. unfold from_string. cbn [andb]. change (strip_spaces s) with (no_space s).
  destruct (assoc (no_space s) plural_table) as [p|] eqn:E.
  - exists p. rewrite <- plural_table_texts. split; auto. apply assoc_In in E. split; intros _.
    + change (no_space s) with (fst (no_space s, p)). now apply in_map.
    + now apply (table_rows_valid _ E).
  - exists pf_none. rewrite <- plural_table_texts. split; auto. split; [discriminate|]. intros H. apply assoc_None in E. contradiction.
Qed.
