(** The parser with its integer types, and the parser without. *)
From Verif.Model Require Import Base Log PluralForms Dictionary IConv Stream PoParser Widths.
From Verif.Spec Require Import ParserSpec WidthsSpec.
From Verif.Proofs Require Import BaseFacts LexProofs ParserUnary.
Local Open Scope list_scope.

Lemma as_unsigned_small n : (Z.of_nat n < 4294967296)%Z -> as_unsigned n = n.
Proof. intro H. unfold as_unsigned. rewrite Z.mod_small by lia. lia. Qed.

Section Widths.
  Variable cf : config.
  Variable fn : bytes.
  Local Notation I := (cf_iconv cf).
  Local Notation P := (M (pst I)).
  Local Open Scope Z_scope.

  Definition fits (s : pst I) : Prop := Z.of_nat (length (p_cur s)) < 4294967296 /\ short_lines (is_rest (p_in s)).
  Definition grow {A} (m : P A) : Prop := forall s, fits s -> fits (snd (m s)) /\ p_line s <= p_line (snd (m s)).
  Definition ap {A} (w m : P A) : Prop :=
    grow m /\ forall s, fits s -> p_line s <= INT_MAX ->
      (p_line (snd (m s)) <= INT_MAX -> w s = m s) /\ (INT_MAX < p_line (snd (m s)) -> fst (w s) = Ub UbRange).
  (** leaves the stream and the line alone *)
  Definition keep {A} (m : P A) : Prop :=
    forall s, p_in (snd (m s)) = p_in s /\ p_cur (snd (m s)) = p_cur s /\ p_line (snd (m s)) = p_line s.

  Lemma ap_keep A (m : P A) : keep m -> ap m m.
  Proof.
    intro K. split.
    - intros s [F1 F2]. destruct (K s) as (E1 & E2 & E3). unfold fits. rewrite E1, E2, E3. repeat split; auto. lia.
    - intros s F L. destruct (K s) as (_ & _ & E). split; [reflexivity|]. rewrite E. lia.
  Qed.
  Lemma grow_bind A B (m : P A) (g : A -> P B) : grow m -> (forall a, grow (g a)) -> grow (mbind m g).
  Proof.
    intros Hm Hg s F. specialize (Hm s F). unfold mbind. destruct (m s) as [[a|?|?| |] s']; cbn [fst snd] in *; auto.
    destruct Hm as [F' L]. specialize (Hg a s' F'). destruct Hg. split; [assumption|lia].
  Qed.
  Lemma ap_bind A B (w m : P A) (v g : A -> P B) : ap w m -> (forall a, ap (v a) (g a)) -> ap (mbind w v) (mbind m g).
  Proof.
    intros [Gm Hm] Hg. split.
    - apply grow_bind; [exact Gm|]. intro a. apply Hg.
    - intros s F L. specialize (Hm s F L). specialize (Gm s F). destruct Hm as [H1 H2]. unfold mbind.
      destruct (m s) as [o s'] eqn:E. cbn [fst snd] in *. destruct Gm as [F' L'].
      destruct (Z_le_gt_dec (p_line s') INT_MAX) as [B'|B'].
      + rewrite (H1 B'). destruct o as [a|?|?| |]; cbn [fst snd]; try (split; [reflexivity|lia]).
        exact (proj2 (Hg a) s' F' B').
      + assert (U : fst (w s) = Ub UbRange) by (apply H2; lia).
        assert (Big : INT_MAX < p_line (snd (match o with Ret a => g a s' | Exn e => (Exn e, s') | Ub u => (Ub u, s') | AssertFail => (AssertFail, s') | OutOfFuel => (OutOfFuel, s') end))).
        { destruct o as [a|?|?| |]; cbn [snd]; try lia. destruct (proj1 (Hg a) s' F'). lia. }
        split; [intro X; destruct o; cbn [snd] in *; lia|]. intros _. destruct (w s) as [ow sw]. cbn [fst] in U. subst ow. reflexivity.
  Qed.
  Lemma keep_ret A (a : A) : keep (mret a). Proof. intro s. auto. Qed.
  Lemma keep_fail A o : keep (@mfail (pst I) A o). Proof. intro s. auto. Qed.
  Lemma keep_lift A (o : outcome A) : keep (mlift o). Proof. intro s. auto. Qed.
  Lemma keep_get A (g : pst I -> A) : keep (mget g). Proof. intro s. auto. Qed.
  Lemma keep_bind A B (m : P A) (g : A -> P B) : keep m -> (forall a, keep (g a)) -> keep (mbind m g).
  Proof.
    intros Hm Hg s. destruct (Hm s) as (E1 & E2 & E3). unfold mbind. destruct (m s) as [[a|?|?| |] s']; cbn [fst snd] in *; auto.
    destruct (Hg a s') as (H1 & H2 & H3). rewrite H1, H2, H3. auto.
  Qed.
  Lemma keep_emit e : keep (emit cf e). Proof. intro s. auto. Qed.
  Lemma keep_call c : keep (dict_call_ cf c). Proof. intro s. auto. Qed.
  Lemma keep_ctype A (g : byte -> A) c : keep (ctype cf g c).
  Proof. unfold ctype. destruct (_ && _); [apply keep_fail|apply keep_ret]. Qed.
  Lemma keep_convert t : keep (do_convert cf t).
  Proof. intro s. unfold do_convert. destruct (convert _ _ _) as [[? ?] ?]. auto. Qed.
  Lemma keep_set a b : keep (do_set_charsets cf a b).
  Proof. intro s. unfold do_set_charsets. destruct (set_charsets _ _ _ _) as [[? ?] ?]. auto. Qed.
  Ltac kp := repeat (intros; cbv zeta;
    lazymatch goal with
    | |- keep (mbind _ _) => apply keep_bind
    | |- keep (mret _) => apply keep_ret
    | |- keep (mfail _) => apply keep_fail
    | |- keep (mlift _) => apply keep_lift
    | |- keep (mget _) => apply keep_get
    | |- keep (emit _ _) => apply keep_emit
    | |- keep (dict_call_ _ _) => apply keep_call
    | |- keep (ctype _ _ _) => apply keep_ctype
    | |- keep (do_convert _ _) => apply keep_convert
    | |- keep (do_set_charsets _ _ _) => apply keep_set
    | |- keep (if ?b then _ else _) => destruct b
    | |- keep (match ?x with _ => _ end) => destruct x
    end).
  Lemma keep_warning m : keep (warning cf fn m). Proof. unfold warning. kp. Qed.
  Lemma keep_cur_at i : keep (cur_at cf i). Proof. unfold cur_at. kp. Qed.
  Lemma keep_all_space l : keep (all_space cf l). Proof. induction l; cbn [all_space]; kp. apply IHl. Qed.
  Lemma keep_empty : keep (is_empty_line cf). Proof. unfold is_empty_line. kp. apply keep_all_space. Qed.
  Lemma keep_garbage l : keep (check_garbage cf fn l).
  Proof. induction l; cbn [check_garbage]; kp; [apply IHl|apply keep_warning]. Qed.
  Lemma keep_find_quote l : forall i, keep (find_quote cf i l).
  Proof. induction l; intro i; cbn [find_quote]; kp. apply IHl. Qed.
  Lemma keep_prefix p : keep (prefix cf p). Proof. unfold prefix. kp. Qed.
  Lemma keep_add op : keep (dict_add cf op). Proof. unfold dict_add. kp. Qed.
  Lemma keep_msgstr_n : keep (is_msgstr_n cf). Proof. unfold is_msgstr_n. kp. Qed.
  Lemma keep_header_line l cs : keep (header_line cf fn l cs).
  Proof. unfold header_line. kp; apply keep_warning. Qed.
  Lemma keep_header_loop h : forall acc cs, keep (header_loop cf fn h acc cs).
  Proof. induction h as [|c h IH]; intros acc cs; cbn [header_loop]; kp; try apply IH. apply keep_header_line. Qed.
  Lemma keep_parse_header h : keep (parse_header cf fn h).
  Proof. unfold parse_header. kp; first [apply keep_header_loop|apply keep_warning|intro s; auto]. Qed.

  Lemma short_tail a b : short_lines (a ++ b) -> short_lines b.
  Proof. intros H pre line post E N. apply (H (a ++ pre) line post); [now rewrite E, <- app_assoc|exact N]. Qed.
  Lemma take_line_split b l r : take_line b = (l, r) -> ~ In c_lf l /\ b = l ++ match r with Some t => c_lf :: t | None => [] end.
  Proof.
    revert l r. induction b as [|c b IH]; intros l r E; cbn [take_line] in E.
    - injection E as <- <-. auto.
    - destruct (byte_eqb c c_lf) eqn:C.
      + injection E as <- <-. apply byte_eqb_eq in C as ->. auto.
      + destruct (take_line b) as [l' r'] eqn:T. injection E as <- <-. destruct (IH _ _ eq_refl) as [N ->]. split; [|reflexivity].
        intros [X|X]; [subst c; rewrite byte_eqb_refl in C; discriminate|exact (N X)].
  Qed.
  Lemma fits_next s : fits s -> fits (snd (next_line cf s)) /\ p_line (snd (next_line cf s)) = p_line s + 1.
  Proof.
    intros [F1 F2]. unfold next_line, mmod. cbn [snd]. unfold fits, getline.
    destruct (is_good (p_in s)); [|split; [split; assumption|reflexivity]].
    destruct (is_rest (p_in s)) as [|c b] eqn:E.
    { destruct (is_break (p_in s)); (split; [split; [cbn; lia|exact F2]|reflexivity]). }
    rewrite <- E in *. clear E.
    destruct (take_line (is_rest (p_in s))) as [l [r|]] eqn:T; apply take_line_split in T as [N E].
    - split; [|reflexivity]. split; cbn [st_line p_cur p_in is_rest].
      + apply (F2 [] l (c_lf :: r)); [exact E|exact N].
      + apply (short_tail (l ++ [c_lf])). rewrite <- app_assoc. cbn [app]. now rewrite <- E.
    - assert (Z.of_nat (length l) < 4294967296) by (apply (F2 [] l []); [now rewrite E|exact N]).
      assert (S0 : short_lines []) by (apply (short_tail (is_rest (p_in s))); now rewrite app_nil_r).
      destruct (is_break (p_in s)); (split; [split; [exact H|exact S0]|reflexivity]).
  Qed.
  Lemma ap_next : ap (w_next_line cf) (next_line cf).
  Proof.
    split.
    - intros s F. destruct (fits_next s F) as [F' E]. split; [exact F'|lia].
    - intros s F L. destruct (fits_next s F) as [_ E]. rewrite E. unfold w_next_line, mbind, mget. cbn [fst snd].
      destruct (Z.leb_spec INT_MAX (p_line s)); split; intro; try lia; reflexivity.
  Qed.

  Ltac ap1 := intros; cbv zeta;
    lazymatch goal with
    | |- ap (mbind _ _) (mbind _ _) => apply ap_bind
    | |- ap (w_next_line _) _ => apply ap_next
    | |- ap (mret _) _ => apply ap_keep, keep_ret
    | |- ap (mfail _) _ => apply ap_keep, keep_fail
    | |- ap (mlift _) _ => apply ap_keep, keep_lift
    | |- ap (mget _) _ => apply ap_keep, keep_get
    | |- ap (emit _ _) _ => apply ap_keep, keep_emit
    | |- ap (warning _ _ _) _ => apply ap_keep, keep_warning
    | |- ap (cur_at _ _) _ => apply ap_keep, keep_cur_at
    | |- ap (ctype _ _ _) _ => apply ap_keep, keep_ctype
    | |- ap (is_empty_line _) _ => apply ap_keep, keep_empty
    | |- ap (check_garbage _ _ _) _ => apply ap_keep, keep_garbage
    | |- ap (find_quote _ _ _) _ => apply ap_keep, keep_find_quote
    | |- ap (prefix _ _) _ => apply ap_keep, keep_prefix
    | |- ap (dict_add _ _) _ => apply ap_keep, keep_add
    | |- ap (is_msgstr_n _) _ => apply ap_keep, keep_msgstr_n
    | |- ap (do_convert _ _) _ => apply ap_keep, keep_convert
    | |- ap (parse_header _ _ _) _ => apply ap_keep, keep_parse_header
    | |- ap (if ?b then _ else _) (if ?b then _ else _) => destruct b
    | |- ap (match ?x with _ => _ end) (match ?x with _ => _ end) => destruct x
    end.
  Ltac aps := repeat ap1; intros.

  Lemma ap_recover g : ap (w_recover cf g) (recover cf g).
  Proof. induction g as [|g IH]; cbn [recover w_recover]; aps. apply IH. Qed.
  Lemma ap_error A m : ap (@w_error cf fn A m) (error cf fn m).
  Proof. unfold error, w_error. aps. apply ap_recover. Qed.
  Lemma ap_scan g : forall i out, ap (w_scan_string cf fn g i out) (scan_string cf fn g i out).
  Proof. induction g as [|g IH]; intros i out; cbn [scan_string w_scan_string]; aps; first [apply ap_error|apply IH]. Qed.
  (** a comparison with the cast length of the line *)
  Lemma ap_size A (w m : nat -> P A) (b : nat -> bool) (v g : nat -> P A) :
    (forall n, ap (v n) (g n)) -> (forall n, ap (w n) (m n)) ->
    ap (mbind (mget (fun s => length (p_cur s))) (fun n => if b (as_unsigned n) then v n else w n))
       (mbind (mget (fun s => length (p_cur s))) (fun n => if b n then g n else m n)).
  Proof.
    intros Hv Hw. split.
    - apply grow_bind; [apply (ap_keep _ _ (keep_get _ _))|]. intro n. destruct (b n); [apply Hv|apply Hw].
    - intros s F L. unfold mbind, mget. cbn [fst snd]. rewrite (as_unsigned_small _ (proj1 F)).
      destruct (b (length (p_cur s))); [apply Hv|apply Hw]; assumption.
  Qed.
  Lemma ap_string_line out k : ap (w_get_string_line cf fn out k) (get_string_line cf fn out k).
  Proof.
    unfold get_string_line, w_get_string_line.
    apply (ap_size _ _ _ (fun n => (n <=? k + 1)%nat)); intro n; [apply ap_error|].
    aps; first [apply ap_error|apply ap_scan].
  Qed.
  Lemma ap_skip g : forall out k, ap (w_skip_to_string cf fn g out k) (skip_to_string cf fn g out k).
  Proof.
    induction g as [|g IH]; intros out k; cbn [skip_to_string w_skip_to_string]; [aps|].
    apply (ap_size _ _ _ (fun n => (n <=? k)%nat)); intro n; [apply ap_error|].
    aps; first [apply ap_error|apply ap_string_line|apply IH].
  Qed.
  Lemma ap_continuation g : forall out, ap (w_continuation cf fn g out) (continuation cf fn g out).
  Proof. induction g as [|g IH]; intro out; cbn [continuation w_continuation]; aps; first [apply ap_string_line|apply IH]. Qed.
  Lemma ap_get_string k : ap (w_get_string cf fn k) (get_string cf fn k).
  Proof.
    unfold get_string, w_get_string.
    apply (ap_size _ _ _ (fun n => (n <=? k + 1)%nat)); intro n; [apply ap_error|].
    aps; first [apply ap_string_line|apply ap_skip|apply ap_continuation].
  Qed.
  Lemma ap_comments g : forall b, ap (w_comments cf g b) (comments cf g b).
  Proof. induction g as [|g IH]; intro b; cbn [comments w_comments]; aps; apply IH. Qed.
  Lemma ap_loop g : forall v b, ap (w_msgstr_loop cf fn g v b) (msgstr_loop cf fn g v b).
  Proof. induction g as [|g IH]; intros v b; cbn [msgstr_loop w_msgstr_loop]; aps; first [apply ap_error|apply ap_get_string|apply IH]. Qed.
  Lemma ap_plural z c i : ap (w_plural_entry cf fn true z c i) (plural_entry cf fn true z c i).
  Proof. unfold plural_entry, w_plural_entry. aps; first [apply ap_error|apply ap_get_string|apply ap_loop]. Qed.
  Lemma ap_singular z c i : ap (w_singular_entry cf fn true z c i) (singular_entry cf fn true z c i).
  Proof. unfold singular_entry, w_singular_entry. aps; apply ap_get_string. Qed.
  Lemma ap_entry z : ap (w_entry cf fn true z) (entry cf fn true z).
  Proof. unfold entry, w_entry. aps; first [apply ap_error|apply ap_get_string|apply ap_plural|apply ap_singular]. Qed.
  Lemma ap_block : ap (w_block cf fn true) (block cf fn true).
  Proof. unfold block, w_block. aps; first [apply ap_error|apply ap_comments|apply ap_entry]. Qed.
  Lemma ap_try : ap (w_try_block cf fn true) (try_block cf fn true).
  Proof.
    destruct ap_block as [G H]. split.
    - intros s F. specialize (G s F). unfold try_block. destruct (block cf fn true s) as [[?|[]|?| |] s']; exact G.
    - intros s F L. specialize (H s F L). unfold try_block, w_try_block. destruct H as [H1 H2].
      assert (E : snd (match block cf fn true s with (Exn ExPo, s') => (Ret tt, s') | r => r end) = snd (block cf fn true s))
        by (destruct (block cf fn true s) as [[?|[]|?| |] s']; reflexivity).
      rewrite E. split.
      + intro B. now rewrite (H1 B).
      + intro B. specialize (H2 B). destruct (w_block cf fn true s) as [o s']. cbn [fst] in H2. subst o. reflexivity.
  Qed.
  Lemma ap_parse_loop g : ap (w_parse_loop cf fn true g) (parse_loop cf fn true g).
  Proof. induction g; cbn [parse_loop w_parse_loop]; aps; [apply ap_try|assumption]. Qed.
  Lemma ap_bom : ap (mmod (fun s : pst I => if starts_with bom (p_cur s) then st_cur s (skipn 3 (p_cur s)) else s)) (mmod (fun s => if starts_with bom (p_cur s) then st_cur s (skipn 3 (p_cur s)) else s)).
  Proof.
    assert (E : forall s : pst I, fits s -> fits (if starts_with bom (p_cur s) then st_cur s (skipn 3 (p_cur s)) else s) /\
                p_line (if starts_with bom (p_cur s) then st_cur s (skipn 3 (p_cur s)) else s) = p_line s).
    { intros s [F1 F2]. destruct (starts_with bom (p_cur s)); [|repeat split; assumption]. split; [|reflexivity]. split; [|exact F2].
      cbn [st_cur st_line p_cur]. rewrite skipn_length. lia. }
    split.
    - intros s F. destruct (E s F) as [F' L]. cbn [mmod snd]. split; [exact F'|lia].
    - intros s F L. destruct (E s F) as [F' L']. cbn [mmod snd]. rewrite L'. split; [reflexivity|lia].
  Qed.
  Lemma ap_parse : ap (w_parse_member cf fn true) (parse_member cf fn true).
  Proof. unfold parse_member, w_parse_member. apply ap_bind; [apply ap_next|intros _]. apply ap_bind; [apply ap_bom|intros _; apply ap_parse_loop]. Qed.

  Lemma widths_exact b d :
    short_lines b ->
    let r := po_parse cf fn (stream_of b) d in
    (pr_lines r <= INT_MAX -> w_po_parse cf fn (stream_of b) d = r) /\
    (INT_MAX < pr_lines r -> pr_outcome (w_po_parse cf fn (stream_of b) d) = Ub UbRange).
  Proof.
    intros S r. subst r. unfold po_parse, w_po_parse. destruct ap_parse as [_ H].
    destruct (H (init_state cf (stream_of b) d)) as [H1 H2].
    - split; [cbn; lia|exact S].
    - cbn. unfold INT_MAX. lia.
    - destruct (parse_member cf fn true (init_state cf (stream_of b) d)) as [o s]. cbn [fst snd pr_lines] in *. split; intro B.
      + now rewrite (H1 B).
      + specialize (H2 B). destruct (w_parse_member cf fn true _) as [o' s']. cbn [fst] in H2. subst o'. reflexivity.
  Qed.
End Widths.
