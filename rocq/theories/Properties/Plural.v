(** Properties C01-C03: PluralForms::from_string and the plural rules. *)
From Verif.Model Require Import Base PluralForms.
From Verif.Spec Require Import PluralSpec.
From Verif.Proofs Require Import BaseFacts PluralProofs.

(** C01. For every string that from_string recognises: the index is within the
    number of forms for all counts iff the text is neither of the two bad rows. *)
Theorem C01_plural_index_in_range :
  forall (strict : bool) (s : bytes) (p : plural_forms),
    from_string strict s = Ret p -> pf_valid p = true ->
    ((forall n : Z, (0 <= get_plural p n < get_nplural p)%Z) <->
     no_space s <> latvian_text /\ no_space s <> slovenian_text).
Proof. exact range_iff. Qed.

(** Both bad rows are recognised, and go wrong for a positive count. *)
Theorem C01_two_rows_out_of_range :
  exists p q,
    from_string true latvian_text = Ret p /\ pf_valid p = true /\
    (get_nplural p <= get_plural p 0)%Z /\
    from_string true slovenian_text = Ret q /\ pf_valid q = true /\
    (get_nplural q <= get_plural q 5)%Z.
Proof.
  exists (mkpf 2 plural3_lv), (mkpf 3 plural3_sl).
  repeat split; vm_compute; discriminate || reflexivity.
Qed.

(** The index is never negative, recognised or not. *)
Theorem C01_plural_index_nonnegative : forall p n, (0 <= get_plural p n)%Z.
Proof. exact get_plural_nonneg. Qed.

Example C01_nonvacuous :
  let s := bs "Plural-Forms: nplurals=3; plural=(n==1) ? 0 : (n>=2 && n<=4) ? 1 : 2;" in
  exists p, from_string true s = Ret p /\ pf_valid p = true /\
            no_space s <> latvian_text /\ no_space s <> slovenian_text /\
            (get_plural p 1, get_plural p 3, get_plural p 5, get_nplural p) = (0, 1, 2, 3)%Z.
Proof. eexists. repeat split; vm_compute; try reflexivity; discriminate. Qed.

(** C02. The header text, read as C, is the rule that is applied. *)
Theorem C02_rule_is_the_text :
  forall (strict : bool) (s : bytes) (p : plural_forms),
    from_string strict s = Ret p -> pf_valid p = true -> no_space s <> latvian_text ->
    exists k e, parse_header_text (no_space s) = Some (k, e) /\ k = get_nplural p /\
                forall n : Z, eval e n = get_plural p n.
Proof. exact rule_of_recognised. Qed.

Theorem C02_latvian_text_is_malformed : parse_header_text latvian_text = None.
Proof. exact latvian_text_malformed. Qed.

(** the reader of header texts is not trivial *)
Example C02_reader_reads :
  parse_header_text (bs "Plural-Forms:nplurals=2;plural=n%10==1&&n%100!=11?0:1;")
  = Some (2%Z, ECond (EBin BAnd (EBin BEq (EBin BMod EVar (ENum 10)) (ENum 1))
                                (EBin BNe (EBin BMod EVar (ENum 100)) (ENum 11)))
                     (ENum 0) (ENum 1)).
Proof. vm_compute. reflexivity. Qed.

(** C03 *)
Theorem C03_whitespace_never_matters :
  forall s t : bytes, no_space s = no_space t -> from_string false s = from_string false t.
Proof. exact from_string_spaces. Qed.

Theorem C03_recognised_iff_registered :
  forall s : bytes, exists p,
    from_string false s = Ret p /\ (pf_valid p = true <-> In (no_space s) registered_texts).
Proof. exact from_string_recognises. Qed.

(** an unrecognised header yields the invalid object with no forms and index 0 *)
Theorem C03_unrecognised_is_invalid :
  forall s p, from_string false s = Ret p -> pf_valid p = false ->
              p = pf_none /\ forall n, get_plural p n = 0%Z.
Proof.
  intros s p H V. apply from_string_ret in H.
  destruct (assoc (no_space s) plural_table) eqn:E.
  - apply assoc_In in E. apply table_rows_valid in E. simpl in E. congruence.
  - subst p. split; reflexivity.
Qed.

Example C03_nonvacuous :
  from_string false (bs "Plural-Forms:  nplurals = 2 ; plural = ( n != 1 ) ; ")
  = from_string false (bs "Plural-Forms:nplurals=2;plural=(n!=1);") /\
  (exists p, from_string false (bs "Plural-Forms: nplurals=2; plural=(n!=1);") = Ret p /\ pf_valid p = true) /\
  (exists p, from_string false (bs "Plural-Forms: nplurals=2; plural=(n != 2);") = Ret p /\ pf_valid p = false).
Proof. repeat split; try eexists; try split; vm_compute; reflexivity. Qed.

Print Assumptions C01_plural_index_in_range.
Print Assumptions C01_two_rows_out_of_range.
Print Assumptions C02_rule_is_the_text.
Print Assumptions C03_recognised_iff_registered.

Print Assumptions C01_plural_index_nonnegative.
Print Assumptions C02_latvian_text_is_malformed.
Print Assumptions C03_whitespace_never_matters.
Print Assumptions C03_unrecognised_is_invalid.
