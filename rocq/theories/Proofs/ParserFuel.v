(** A run that finishes within some bound gives the same result under every
    larger bound. *)
From Verif.Model Require Import Base Log PluralForms Dictionary IConv Stream PoParser.
From Verif.Spec Require Import ParserSpec.
From Verif.Proofs Require Import BaseFacts LexProofs ParserUnary.
Local Open Scope list_scope.

Section Fuel.
  Variable cf : config.
  Variable fn : bytes.
  Variable uf : bool.
  Variables n1 n2 : nat.
  Hypothesis Hn : n1 <= n2.
  Local Notation I := (cf_iconv cf).
  Local Notation P := (M (pst I)).
  Local Notation cf1 := (with_fuel cf n1).
  Local Notation cf2 := (with_fuel cf n2).

  Definition fle {A} (m1 m2 : P A) : Prop := forall s, fst (m1 s) <> OutOfFuel -> m2 s = m1 s.

  Lemma fle_refl A (m : P A) : fle m m.
  Proof. intros s _. reflexivity. Qed.
  Lemma fle_bind A B (m1 m2 : P A) (k1 k2 : A -> P B) :
    fle m1 m2 -> (forall a, fle (k1 a) (k2 a)) -> fle (mbind m1 k1) (mbind m2 k2).
  Proof.
    intros Hm Hk s H. unfold mbind in *. specialize (Hm s).
    destruct (m1 s) as [[a|e|u| |] s'] eqn:E; try (rewrite Hm by discriminate; reflexivity).
    - rewrite Hm by discriminate. apply Hk, H.
    - exfalso. apply H. reflexivity.
  Qed.
  Lemma fle_fuel A (m : P A) : fle (mfail OutOfFuel) m.
  Proof. intros s H. exfalso. apply H. reflexivity. Qed.

  Ltac fl := repeat first
    [ apply fle_fuel
    | apply fle_bind; [|intros ?]
    | match goal with |- fle (if ?b then _ else _) _ => destruct b end
    | match goal with |- fle (match ?x with _ => _ end) _ => destruct x end
    | solve [apply fle_refl] ].

  Lemma fle_continuation : forall g1 g2 out, g1 <= g2 -> fle (continuation cf1 fn g1 out) (continuation cf2 fn g2 out).
  Proof.
    induction g1 as [|g1 IH]; intros g2 out Hg; [apply fle_fuel|].
    destruct g2 as [|g2]; [lia|]. cbn [continuation].
    apply fle_bind; [apply fle_refl|intros _]. apply fle_bind; [apply fle_refl|intros cur].
    apply fle_bind; [apply fle_refl|intros [i|]]; [|apply fle_refl].
    apply fle_bind; [apply fle_refl|intros _]. apply fle_bind; [apply fle_refl|intros o]. apply IH; lia.
  Qed.
  Lemma fle_get_string k : fle (get_string cf1 fn k) (get_string cf2 fn k).
  Proof.
    unfold get_string. apply fle_bind; [apply fle_refl|intros size]. destruct (_ <=? _); [apply fle_refl|].
    apply fle_bind; [apply fle_refl|intros c0]. apply fle_bind; [apply fle_refl|intros c1].
    apply fle_bind; [apply fle_refl|intros out]. apply fle_continuation. exact Hn.
  Qed.
  Lemma fle_comments : forall g1 g2 b, g1 <= g2 -> fle (comments cf1 g1 b) (comments cf2 g2 b).
  Proof.
    induction g1 as [|g1 IH]; intros g2 b Hg; [apply fle_fuel|].
    destruct g2 as [|g2]; [lia|]. cbn [comments].
    apply fle_bind; [apply fle_refl|intros []]; [|apply fle_refl].
    apply fle_bind; [apply fle_refl|intros cur]. apply fle_bind; [apply fle_refl|intros _]. apply IH; lia.
  Qed.
  Lemma fle_msgstr_loop : forall g1 g2 v b, g1 <= g2 -> fle (msgstr_loop cf1 fn g1 v b) (msgstr_loop cf2 fn g2 v b).
  Proof.
    induction g1 as [|g1 IH]; intros g2 v b Hg; [apply fle_fuel|].
    destruct g2 as [|g2]; [lia|]. cbn [msgstr_loop].
    apply fle_bind; [apply fle_refl|intros []]; [apply fle_refl|].
    apply fle_bind; [apply fle_refl|intros []]; [|apply fle_refl].
    apply fle_bind; [apply fle_refl|intros cur]. apply fle_bind; [apply fle_get_string|intros m].
    apply fle_bind; [apply fle_refl|intros v']. apply IH; lia.
  Qed.
  Lemma fle_plural a b c : fle (plural_entry cf1 fn uf a b c) (plural_entry cf2 fn uf a b c).
  Proof.
    unfold plural_entry. apply fle_bind; [apply fle_get_string|intros mp].
    apply fle_bind; [apply fle_msgstr_loop; exact Hn|intros r]. apply fle_refl.
  Qed.
  Lemma fle_singular a b c : fle (singular_entry cf1 fn uf a b c) (singular_entry cf2 fn uf a b c).
  Proof. unfold singular_entry. apply fle_bind; [apply fle_get_string|intros ms]. apply fle_refl. Qed.
  Lemma fle_entry a : fle (entry cf1 fn uf a) (entry cf2 fn uf a).
  Proof.
    unfold entry. apply fle_bind; [apply fle_refl|intros hc].
    apply fle_bind; [destruct hc; [apply fle_bind; [apply fle_get_string|intros; apply fle_refl]|apply fle_refl]|intros ctxt].
    apply fle_bind; [apply fle_refl|intros hm].
    apply fle_bind; [destruct hm; [apply fle_get_string|apply fle_refl]|intros id].
    apply fle_bind; [apply fle_refl|intros []]; [apply fle_plural|].
    apply fle_bind; [apply fle_refl|intros []]; [apply fle_singular|apply fle_refl].
  Qed.
  Lemma fle_block : fle (block cf1 fn uf) (block cf2 fn uf).
  Proof.
    unfold block. apply fle_bind; [apply fle_comments; exact Hn|intros fz].
    apply fle_bind; [apply fle_refl|intros e].
    apply fle_bind; [destruct e; [apply fle_refl|apply fle_entry]|intros _]. apply fle_refl.
  Qed.
  Lemma fle_try : fle (try_block cf1 fn uf) (try_block cf2 fn uf).
  Proof.
    intros s H. unfold try_block in *. pose proof (fle_block s) as B.
    destruct (block cf1 fn uf s) as [[a|[]|u| |] s'] eqn:E; simpl in *;
      try (rewrite B by discriminate; reflexivity). exfalso; apply H; reflexivity.
  Qed.
  Lemma fle_loop : forall g1 g2, g1 <= g2 -> fle (parse_loop cf1 fn uf g1) (parse_loop cf2 fn uf g2).
  Proof.
    induction g1 as [|g1 IH]; intros g2 Hg; [apply fle_fuel|].
    destruct g2 as [|g2]; [lia|]. cbn [parse_loop].
    apply fle_bind; [apply fle_refl|intros []]; [apply fle_refl|].
    apply fle_bind; [apply fle_try|intros _]. apply IH; lia.
  Qed.
  Lemma fle_parse : fle (parse_member cf1 fn uf) (parse_member cf2 fn uf).
  Proof.
    unfold parse_member. apply fle_bind; [apply fle_refl|intros _]. apply fle_bind; [apply fle_refl|intros _].
    apply fle_loop. exact Hn.
  Qed.
End Fuel.

Lemma po_parse_fuel cf fn i d n1 n2 : n1 <= n2 ->
  pr_outcome (po_parse (with_fuel cf n1) fn i d) <> OutOfFuel ->
  po_parse (with_fuel cf n2) fn i d = po_parse (with_fuel cf n1) fn i d.
Proof.
  intros Hn H. unfold po_parse in *.
  pose proof (fle_parse cf fn true n1 n2 Hn (init_state cf i d)) as F.
  change (init_state (with_fuel cf n1) i d) with (init_state cf i d) in *.
  change (init_state (with_fuel cf n2) i d) with (init_state cf i d) in *.
  destruct (parse_member (with_fuel cf n1) fn true (init_state cf i d)) as [o s]. simpl in *.
  rewrite F by exact H. reflexivity.
Qed.

Lemma parses_to_intro cf fn i d n :
  pr_outcome (po_parse (with_fuel cf n) fn i d) <> OutOfFuel ->
  parses_to cf fn i d (po_parse (with_fuel cf n) fn i d).
Proof. intro H. split; [exact H|]. exists n. intros m Hm. apply po_parse_fuel; auto. Qed.

Lemma parses_to_elim cf fn i d r : parses_to cf fn i d r ->
  exists n, po_parse (with_fuel cf n) fn i d = r /\ pr_outcome r <> OutOfFuel.
Proof. intros (H & N & HN). exists N. split; auto. Qed.

Lemma parses_to_fun cf fn i d r1 r2 : parses_to cf fn i d r1 -> parses_to cf fn i d r2 -> r1 = r2.
Proof.
  intros (_ & N1 & H1) (_ & N2 & H2). rewrite <- (H1 (max N1 N2)), <- (H2 (max N1 N2)) by lia. reflexivity.
Qed.

Lemma parses_to_large cf fn i d r n : parses_to cf fn i d r ->
  pr_outcome (po_parse (with_fuel cf n) fn i d) <> OutOfFuel -> po_parse (with_fuel cf n) fn i d = r.
Proof. intros H1 H2. eapply parses_to_fun; [apply parses_to_intro; exact H2|exact H1]. Qed.

Lemma diverges_not cf fn i d : diverges cf fn i d <-> ~ exists r, parses_to cf fn i d r.
Proof.
  split.
  - intros D [r H]. apply parses_to_elim in H as (n & <- & H). apply H, D.
  - intros H n. destruct (pr_outcome (po_parse (with_fuel cf n) fn i d)) eqn:E; auto;
      exfalso; apply H; eexists; apply (parses_to_intro cf fn i d n); rewrite E; discriminate.
Qed.
