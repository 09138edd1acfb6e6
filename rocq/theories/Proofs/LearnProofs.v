From Verif.Model Require Import Base Log PluralForms Dictionary Enumerate Learn.
From Verif.Spec Require Import DictSpec LearnSpec.
From Verif.Proofs Require Import BaseFacts DictProofs EnumerateProofs.
Local Open Scope list_scope.

Lemma target_key : forall op, target op = op_key op.
Proof. now intros []. Qed.
Lemma map_of_lookup : forall d c i, assoc i (map_of d c) = lookup d (c, i).
Proof. intros d [c|] i; [apply lookup_ctxt_or_new|reflexivity]. Qed.
Lemma missing_lookup : forall d c i, missing i (map_of d c) = match lookup d (c, i) with None => true | Some _ => false end.
Proof. intros. unfold missing. now rewrite map_of_lookup. Qed.
Lemma found_lookup : forall d op, found_forms d op = match lookup d (op_key op) with Some v => v | None => [] end.
Proof. intros. unfold found_forms, entry_or_new. rewrite target_key, map_of_lookup. now destruct (op_key op). Qed.
Lemma same_map_spec : forall a b, same_map a b = true <-> a = b.
Proof.
  intros [a|] [b|]; cbn [same_map]; try (split; congruence).
  destruct (bytes_eqb_spec a b); split; congruence.
Qed.
Lemma log_iff : forall d op, snd (add_translation d op) <> [] <-> collides d op.
Proof.
  intros d op. destruct (add_log d op) as [(old & E1 & E2 & E3 & E4)|(NO & E4)]; rewrite E4.
  - split; [intros _; exists old; auto|discriminate].
  - split; [congruence|]. intros (old & H1 & H2 & H3). exfalso. apply NO. eauto.
Qed.
Lemma log_one : forall d op, collides d op -> exists t, snd (add_translation d op) = [log_warning t].
Proof.
  intros d op C. destruct (add_log d op) as [(old & E1 & E2 & E3 & E4)|(NO & E4)]; rewrite E4; [eauto|].
  apply log_iff in C. congruence.
Qed.
Lemma log_cases : forall d op, snd (add_translation d op) = [] \/ exists t, snd (add_translation d op) = [log_warning t].
Proof.
  intros d op. destruct (add_log d op) as [(old & E1 & E2 & E3 & E4)|(NO & E4)]; rewrite E4; eauto.
Qed.
Lemma last_word : forall d op, has_last_word (fst (add_translation d op)) op.
Proof.
  intros d op. pose proof (lookup_add_same d op) as H. destruct op as [c i s|c i pl v]; cbn [has_last_word op_key new_forms] in *; eauto.
Qed.
Lemma add_all_app : forall d a b, add_all d (a ++ b) = add_all (add_all d a) b.
Proof. intros. apply fold_left_app. Qed.
Lemma plural_all : forall ops d, d_plural (add_all d ops) = d_plural d.
Proof. unfold add_all. induction ops as [|op ops IH]; cbn [fold_left]; intro d; auto. rewrite IH. apply add_fields. Qed.

Section Learn.
  Context {X : Type}.
  Variable place : nat -> placing.
  Variable arrange : nat -> list bytes -> list bytes.
  Variable f : callbacks X.
  Local Notation busy := (busy X).
  Local Notation store := (store X place).
  Local Notation say := (say X place f).
  Local Notation add_live := (add_live X place).
  Local Notation each := (each X).
  Local Notation candidates := (candidates X place f).
  Local Notation ask := (ask X place arrange f).

  Lemma store_dict : forall s op, b_dict (store s op) = fst (add_translation (b_dict s) op).
  Proof.
    intros s op. unfold Learn.store. destruct (b_at s) as [c|]; [|reflexivity].
    destruct (same_map _ _ && _); [|reflexivity]. now destruct (inserted _ _ _ _).
  Qed.
  Definition later (s s' : busy) : Prop := exists ops, b_dict s' = add_all (b_dict s) ops.
  Lemma later_refl : forall s, later s s.
  Proof. intro s. now exists []. Qed.
  Lemma later_trans : forall a b c, later a b -> later b c -> later a c.
  Proof. intros a b c (o1 & H1) (o2 & H2). exists (o1 ++ o2). now rewrite add_all_app, <- H1. Qed.
  Lemma each_later : forall A (g : A -> busy -> outcome busy), (forall a s s', g a s = Ret s' -> later s s') ->
    forall l s s', each g l s = Ret s' -> later s s'.
  Proof.
    intros A g G. induction l as [|a l IH]; cbn [Learn.each]; intros s s' R.
    - injection R as <-. apply later_refl.
    - destruct (g a s) as [s1| | | |] eqn:E; try discriminate R. cbn [obind] in R. eauto using later_trans.
  Qed.
  Lemma add_live_later : forall call, (forall l s s', call l s = Ret s' -> later s s') ->
    forall op s s', add_live call op s = Ret s' ->
    exists ops, b_dict s' = fst (add_translation (add_all (b_dict s) ops) op).
  Proof.
    intros call C op s s' R. unfold Learn.add_live in R. destruct (snd (add_translation (b_dict s) op)) as [|l ls].
    - injection R as <-. exists []. apply store_dict.
    - destruct (each call (l :: ls) s) as [s1| | | |] eqn:E; try discriminate R. cbn [obind] in R.
      apply each_later in E as (ops & E); [|exact C]. exists ops. rewrite <- E.
      destruct op; [destruct (is_nil _); [discriminate R|]|]; injection R as <-; apply store_dict.
  Qed.
  Lemma add_later : forall s s' op ops, b_dict s' = fst (add_translation (add_all (b_dict s) ops) op) -> later s s'.
  Proof. intros s s' op ops H. exists (ops ++ [op]). rewrite add_all_app. exact H. Qed.
  Lemma say_later : forall n l s s', say n l s = Ret s' -> later s s'.
  Proof.
    induction n as [|n IH]; cbn [Learn.say]; intros l s s' R; destruct (f (lg_level l)) as [g|]; try discriminate R;
      try (injection R as <-; apply later_refl).
    destruct (g (lg_text l) (b_x s) (b_dict s)) as [x ops]. apply (each_later _ _) in R.
    - exact R.
    - intros op a b H. apply add_live_later in H as (o & H); [|exact IH]. eauto using add_later.
  Qed.
  Lemma candidates_later : forall n m s s', candidates n m s = Ret s' -> later s s'.
  Proof.
    intros n. induction m as [|m IH]; cbn [Learn.candidates]; intros s s' R; [discriminate R|].
    destruct (b_left s) as [|k rest].
    - injection R as <-. now exists [].
    - match type of R with obind (say n ?l ?s0) _ = _ => destruct (say n l s0) as [s1| | | |] eqn:E; try discriminate R end.
      cbn [obind] in R. destruct (b_valid s1); [|discriminate R]. apply say_later in E. apply IH in R.
      eapply later_trans; [exact E|exact R].
  Qed.

  Lemma ask_right : forall n m q s a s', ask n m q s = Ret (a, s') ->
    a = right_answer (b_dict s) q /\ later s s'.
  Proof.
    intros n m [c i|c i pl num] s a s' R; cbn [Learn.ask] in R.
    - destruct (has_map (b_dict s) c) eqn:H.
      + unfold singular_in in R. rewrite map_of_lookup in R. cbn [right_answer]. unfold spec_translate.
        destruct (lookup (b_dict s) (c, i)) as [[|v vs]|].
        * destruct (say n _ s) as [s1| | | |] eqn:E; try discriminate R. injection R as <- <-. split; eauto using say_later.
        * injection R as <- <-. split; auto using later_refl.
        * destruct (say n _ s) as [s1| | | |] eqn:E; try discriminate R. injection R as <- <-. split; eauto using say_later.
      + destruct (say n _ s) as [s1| | | |] eqn:E; try discriminate R. injection R as <- <-. split; eauto using say_later.
        cbn [right_answer]. unfold spec_translate. destruct c as [c|]; [|discriminate H].
        unfold lookup; cbn [fst snd]. unfold has_map, missing in H. now destruct (assoc c (d_ctxt (b_dict s))).
    - destruct (has_map (b_dict s) c) eqn:H.
      + unfold plural_in in R. cbn [right_answer]. unfold spec_translate_plural.
        pose proof (translate_plural_in_spec (b_dict s) (map_of (b_dict s) c) i pl num) as T.
        rewrite map_of_lookup in R, T.
        destruct (lookup (b_dict s) (c, i)) as [v|].
        * destruct (translate_plural_in _ _ _ _ _) as [b ls]. cbn [fst] in T.
          destruct (each (say n) ls s) as [s1| | | |] eqn:E; try discriminate R. injection R as <- <-.
          split; [exact T|]. eapply each_later; [|exact E]. apply say_later.
        * destruct (say n _ s) as [s1| | | |] eqn:E1; try discriminate R. cbn [obind] in R.
          destruct (say n _ s1) as [s2| | | |] eqn:E2; try discriminate R. cbn [obind] in R.
          destruct (candidates n m _) as [s3| | | |] eqn:E3; try discriminate R. injection R as <- <-.
          split; [reflexivity|]. apply say_later in E1, E2. apply candidates_later in E3.
          eapply later_trans; [exact E1|]. eapply later_trans; [exact E2|]. exact E3.
      + destruct (say n _ s) as [s1| | | |] eqn:E; try discriminate R. injection R as <- <-. split; eauto using say_later.
        cbn [right_answer]. unfold spec_translate_plural. destruct c as [c|]; [|discriminate H].
        unfold lookup; cbn [fst snd]. unfold has_map, missing in H. destruct (assoc c (d_ctxt (b_dict s))); [discriminate H|].
        unfold by_count. now destruct (num =? 1)%Z.
  Qed.

  (** more depth changes nothing *)
  Definition fin {A} (o : outcome A) : Prop := o <> OutOfFuel.
  Lemma each_more : forall A (g h : A -> busy -> outcome busy), (forall a s, fin (g a s) -> h a s = g a s) ->
    forall l s, fin (each g l s) -> each h l s = each g l s.
  Proof.
    intros A g h G. unfold fin in *. induction l as [|a l IH]; cbn [Learn.each]; intros s F; [reflexivity|].
    destruct (g a s) as [s1| | | |] eqn:E; cbn [obind] in *; try congruence; rewrite (G a s) by congruence; rewrite E; cbn [obind]; auto.
  Qed.
  Lemma add_live_more : forall g h, (forall a s, fin (g a s) -> h a s = g a s) ->
    forall op s, fin (add_live g op s) -> add_live h op s = add_live g op s.
  Proof.
    intros g h G op s F. unfold Learn.add_live in *. destruct (snd (add_translation (b_dict s) op)) as [|l ls]; [reflexivity|].
    rewrite (each_more _ g h G); [reflexivity|]. unfold fin in *. intro N. apply F. now rewrite N.
  Qed.
  Lemma say_more : forall n n' l s, n <= n' -> fin (say n l s) -> say n' l s = say n l s.
  Proof.
    unfold fin. induction n as [|n IH]; intros n' l s L F.
    - cbn [Learn.say] in F. destruct n'; cbn [Learn.say]; destruct (f (lg_level l)); congruence.
    - destruct n' as [|n']; [lia|]. cbn [Learn.say] in *. destruct (f (lg_level l)) as [g|]; [|reflexivity].
      destruct (g _ _ _) as [x ops]. apply each_more; [|exact F]. intros op s1. apply add_live_more.
      intros a s2. apply IH. lia.
  Qed.
  Lemma candidates_more : forall n n' m m' s, n <= n' -> m <= m' -> fin (candidates n m s) -> candidates n' m' s = candidates n m s.
  Proof.
    unfold fin. intros n n' m m' s L. revert m' s. induction m as [|m IH]; cbn [Learn.candidates]; intros m' s M F; [congruence|].
    destruct m' as [|m']; [lia|]. cbn [Learn.candidates]. destruct (b_left s) as [|k rest]; [reflexivity|].
    rewrite (say_more n n') by (auto; unfold fin; intro N; apply F; rewrite N; reflexivity).
    match goal with |- obind ?o _ = _ => destruct o as [s1| | | |] end; cbn [obind] in *; auto.
    destruct (b_valid s1); auto. apply IH; auto. lia.
  Qed.
  Lemma ask_more : forall n n' m m' q s, n <= n' -> m <= m' -> fin (ask n m q s) -> ask n' m' q s = ask n m q s.
  Proof.
    intros n n' m m' q s L M F.
    assert (O : forall A (a : A) l (t : busy), fin (omap (pair a) (say n l t)) -> omap (pair a) (say n' l t) = omap (pair a) (say n l t)).
    { intros A a l t G. rewrite (say_more n n'); auto. unfold fin in *. intro N. apply G. now rewrite N. }
    destruct q as [c i|c i pl num]; cbn [Learn.ask] in *; destruct (has_map _ _); auto.
    - unfold singular_in in *. destruct (assoc _ _) as [[|v vs]|]; auto.
    - unfold plural_in in *. destruct (assoc _ _) as [v|].
      + destruct (translate_plural_in _ _ _ _ _) as [b ls]. rewrite (each_more _ (say n) (say n')); auto.
        * intros a t. now apply say_more.
        * unfold fin in *. intro N. apply F. now rewrite N.
      + rewrite (say_more n n' _ s) by (auto; unfold fin; intro N; apply F; rewrite N; reflexivity).
        match goal with |- obind ?o _ = _ => destruct o as [s1| | | |] end; cbn [obind] in *; auto.
        rewrite (say_more n n' _ s1) by (auto; unfold fin; intro N; apply F; rewrite N; reflexivity).
        match goal with |- obind ?o _ = _ => destruct o as [s2| | | |] end; cbn [obind] in *; auto.
        rewrite (candidates_more n n' m m'); auto. unfold fin in *. intro N. apply F. now rewrite N.
  Qed.
End Learn.
