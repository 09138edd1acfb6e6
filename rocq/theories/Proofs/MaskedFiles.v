(** Files for which a manager on streams with masks runs in step: those that end in a blank line (same
    dictionaries), and all those whose parse ends (thinner dictionaries). *)
From Verif.Model Require Import Base Log PluralForms Dictionary IConv Language Stream PoParser Manager Masked MaskedManager.
From Verif.Spec Require Import DictSpec ParserSpec PoSpec ReadSpec MaskedSpec MaskedManagerSpec.
From Verif.Proofs Require Import BaseFacts DictProofs ParserSafe ParserFuel ParserUnary ParserRel ParserCut ParserBreak MaskedLock MaskedProofs MaskedBlank MaskedManager.
Local Open Scope list_scope.

Lemma noisier_refl t : noisier t t. Proof. induction t; constructor; assumption. Qed.
Lemma noisier_app t t' e e' : noisier t t' -> noisier e e' -> noisier (t ++ e) (t' ++ e').
Proof. induction 1; intro E; cbn [app]; [exact E|constructor; auto|constructor; auto]. Qed.
Lemma noisier_more t t' e : noisier t t' -> noisier (t ++ e) (t' ++ e).
Proof. intro H. apply noisier_app; [exact H|apply noisier_refl]. Qed.

Lemma po_failed mk cf fn d : let r := po_parse cf fn failed_stream d in let r' := x_po_parse mk cf fn failed_stream d in
  pr_outcome r <> OutOfFuel ->
  r' = r \/ (io_thrown r' /\ pr_outcome r = Ret tt /\ pr_dict r' = pr_dict r /\ pr_trace r' = pr_trace r /\ pr_calls r' = pr_calls r).
Proof.
  cbv zeta. unfold po_parse, x_po_parse, io_thrown, parse_member, x_parse_member.
  destruct (cf_fuel cf) as [|n]; destruct mk as [[|] [|] [|]]; intro H; try (left; reflexivity); try (right; repeat split; reflexivity); exfalso; apply H; reflexivity.
Qed.
Lemma po_ends_blank mk cf fn i d : ends_blank i -> let r := po_parse cf fn i d in let r' := x_po_parse mk cf fn i d in
  pr_outcome r <> OutOfFuel ->
  r' = r \/ (io_thrown r' /\ pr_outcome r = Ret tt /\ pr_dict r' = pr_dict r /\ pr_trace r' = pr_trace r /\ pr_calls r' = pr_calls r).
Proof.
  intros [-> |(b & l & Hb & Hl & Hi)]; [apply po_failed|]. apply po_blank.
  assert (T : tail_ok b []) by (destruct Hb as [-> |(p & w & -> & Hp & Hw & Hw')]; [left; split; [reflexivity|constructor]|right; exists p, w; auto]).
  destruct Hi as [-> | ->]; [exists b, []|exists b, l]; cbn [init_state p_in p_cur p_eof stream_of broken_after is_rest is_eof is_fail is_break].
  - rewrite app_nil_r. split; [reflexivity|]. split; [intros []|]. split; [exact T|]. auto.
  - split; [reflexivity|]. split; [exact Hl|]. split; [exact T|]. auto.
Qed.
Lemma blank_file cf fs mk : files_end_blank fs -> forall f i d d', fs_file fs f = Ret (Some i) -> d = d' ->
  let r := po_parse cf f i d in let r' := x_po_parse (mk f) cf f i d' in
  tame true (pr_outcome r) ->
  pr_dict r = pr_dict r' /\ fst (seen f (pr_outcome r')) = fst (seen f (pr_outcome r)) /\
  forall t t', noisier t t' -> noisier ((t ++ pr_trace r) ++ snd (seen f (pr_outcome r))) ((t' ++ pr_trace r') ++ snd (seen f (pr_outcome r'))).
Proof.
  intros W f i d d' Ef <-. cbv zeta. intro T.
  assert (N : pr_outcome (po_parse cf f i d) <> OutOfFuel) by (intro E; rewrite E in T; exact T).
  destruct (po_ends_blank (mk f) cf f i d (W f i Ef) N) as [-> |(E1 & E2 & E3 & E4 & _)].
  - split; [reflexivity|]. split; [reflexivity|]. intros t t' H. now do 2 apply noisier_more.
  - unfold io_thrown in E1. rewrite E1, E2, E3, E4. split; [reflexivity|]. split; [reflexivity|]. intros t t' H. cbn [seen is_std snd what].
    apply noisier_app; [now apply noisier_more|]. apply noisier_report. constructor.
Qed.

Lemma thinner_refl d : thinner d d. Proof. repeat split; auto. Qed.
Lemma thinner_trans a b c : thinner a b -> thinner b c -> thinner a c.
Proof. intros (A1 & A2 & A3 & A4) (B1 & B2 & B3 & B4). split; [congruence|]. split; [congruence|]. split; [congruence|]. auto. Qed.
Lemma call_settings d c : d_charset (apply_call d c) = d_charset d /\ d_has_fallback (apply_call d c) = d_has_fallback d /\ d_fallback (apply_call d c) = d_fallback d.
Proof.
  destruct c as [op|p]; cbn [apply_call].
  - destruct op as [[?|] ? ?|[?|] ? ? ?]; simpl; unfold add_ctxt_singular, add_singular, add_ctxt_plural, add_plural;
      try destruct (put_singular _ _); try destruct (put_plural _ _); auto.
  - destruct (pf_valid _); auto.
Qed.
Lemma lookup_call d c k : lookup (apply_call d c) k <> None <-> (lookup d k <> None \/ exists op, c = CallAdd op /\ k = op_key op).
Proof.
  destruct c as [op|p]; cbn [apply_call].
  - rewrite lookup_add. unfold spec_add, update. destruct (key_eq_dec k (op_key op)) as [E|E].
    + split; [intros _; right; eauto|discriminate].
    + split; [auto|]. intros [H|(op' & X & Y)]; [exact H|]. injection X as <-. contradiction.
  - assert (X : lookup (if pf_valid (get_plural_forms d) then d else set_plural_forms d p) k = lookup d k) by (destruct (pf_valid _); reflexivity).
    rewrite X. split; [auto|]. intros [H|(op & X' & _)]; [exact H|discriminate].
Qed.
Lemma thinner_call a b c : thinner a b -> thinner (apply_call a c) (apply_call b c).
Proof.
  intros (A1 & A2 & A3 & A4). destruct (call_settings a c) as (C1 & C2 & C3). destruct (call_settings b c) as (B1 & B2 & B3).
  split; [congruence|]. split; [congruence|]. split; [congruence|]. intro k. rewrite !lookup_call. intros [H|H]; auto.
Qed.
Lemma thinner_grow a c : thinner a (apply_call a c).
Proof.
  destruct (call_settings a c) as (B1 & B2 & B3).
  split; [congruence|]. split; [congruence|]. split; [congruence|]. intros k H. rewrite lookup_call. auto.
Qed.
Lemma thinner_calls cs : forall a b, thinner a b -> thinner (fold_left apply_call cs a) (fold_left apply_call cs b).
Proof. induction cs as [|c cs IH]; intros a b H; [exact H|]. cbn [fold_left]. apply IH, thinner_call, H. Qed.
Lemma thinner_grows cs : forall a, thinner a (fold_left apply_call cs a).
Proof. induction cs as [|c cs IH]; intro a; [apply thinner_refl|]. cbn [fold_left]. eapply thinner_trans; [apply (thinner_grow a c)|apply IH]. Qed.

Lemma thin_file cf fs mk : forall f i d d', fs_file fs f = Ret (Some i) -> thinner d' d ->
  let r := po_parse cf f i d in let r' := x_po_parse (mk f) cf f i d' in
  tame false (pr_outcome r) ->
  thinner (pr_dict r') (pr_dict r) /\ fst (seen f (pr_outcome r')) = fst (seen f (pr_outcome r)) /\
  forall t t' : list event, True -> True.
Proof.
  intros f i d d' _ H. cbv zeta. intro T.
  assert (N : pr_outcome (po_parse cf f i d) <> OutOfFuel) by (intro E; rewrite E in T; exact T).
  assert (I : pr_outcome (po_parse cf f i d') = pr_outcome (po_parse cf f i d) /\ pr_calls (po_parse cf f i d') = pr_calls (po_parse cf f i d)).
  { pose proof (parse_independent cf (cf_pedantic cf) f f i d d' (cf_fuel cf) (eq_sym (proj1 H))) as X. cbv zeta in X.
    destruct cf. apply X in N. split; apply N. }
  destruct I as (I1 & I2).
  assert (D : thinner (pr_dict (po_parse cf f i d')) (pr_dict (po_parse cf f i d))).
  { rewrite (proj1 (parse_effects cf f i d)), (proj1 (parse_effects cf f i d')), I2. now apply thinner_calls. }
  assert (S : fst (seen f (pr_outcome (po_parse cf f i d))) = Ret tt).
  { pose proof (parse_outcomes cf f i d) as P. revert P T. destruct (pr_outcome (po_parse cf f i d)) as [[]|e|u| |]; cbn [tame]; intros P T;
      [reflexivity| |discriminate T|discriminate T|contradiction]. destruct e; try contradiction P; reflexivity. }
  destruct (po_cut (mk f) cf f i d') as [-> |(E & cs & ls & _ & E2 & _)].
  - split; [exact D|]. rewrite I1. auto.
  - split; [|split; [|auto]].
    + eapply thinner_trans; [|exact D]. rewrite E2. apply thinner_grows.
    + unfold io_thrown in E. rewrite E, S. reflexivity.
Qed.
