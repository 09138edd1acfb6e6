(** The command-line programs: reading, printing, atoi. *)
From Verif.Model Require Import Base Log PluralForms Dictionary IConv Language Stream PoParser Manager Programs.
From Verif.Spec Require Import DictSpec LangSpec ParserSpec PoSpec ManagerSpec ShelfSpec SoundSpec DamageSpec RunSpec CharsetSpec ProgramSpec.
From Verif.Proofs Require Import BaseFacts DictProofs ParserFuel ParserMisc ParserProper DocText Numbers ManagerContent ManagerProps Charsets CharsetShelf.
From Verif.Properties Require Run Damage Parser.
Local Open Scope list_scope.
Local Open Scope mon_scope.

Lemma logged_default l : List.concat (List.map (logged log_default) (stmts l)) = log_text (bs "tinygettext: ") l.
Proof.
  unfold log_text, stmts. induction l as [|e l IH]; [reflexivity|]. cbn [List.map List.concat]. rewrite map_app, concat_app, IH. f_equal.
  destruct e as [s| | | |]; try reflexivity. destruct s as [[] t]; cbn [List.map List.concat]; rewrite app_nil_r; unfold logged, deliver; cbn; now rewrite app_nil_r.
Qed.
Lemma logged_mine l : List.concat (List.map (logged my_log) (stmts l)) = log_text [] l.
Proof.
  unfold log_text, stmts. induction l as [|e l IH]; [reflexivity|]. cbn [List.map List.concat]. rewrite map_app, concat_app, IH. f_equal.
  destruct e as [s| | | |]; try reflexivity. destruct s as [[] t]; cbn [List.map List.concat]; rewrite app_nil_r; unfold logged, deliver; cbn; now rewrite app_nil_r.
Qed.
Lemma log_text_app p a b : log_text p (a ++ b) = log_text p a ++ log_text p b.
Proof. unfold log_text. now rewrite map_app, concat_app. Qed.
Lemma log_text_close p {I} (c : iconv I) (b : bool) : log_text p (if b then iconv_destroy c else []) = [].
Proof. destruct b; [|reflexivity]. unfold iconv_destroy. now destruct (cv_cd c). Qed.

Definition more (s : streams) (o e : bytes) : streams := {| s_out := s_out s ++ o; s_err := s_err s ++ e |}.
Lemma more_more s a b c d : more (more s a b) c d = more s (a ++ c) (b ++ d).
Proof. unfold more. cbn [s_out s_err]. now rewrite !app_assoc. Qed.
Lemma more_start o e : more Programs.start o e = {| s_out := o; s_err := e |}.
Proof. reflexivity. Qed.

(** ** parsing a described file *)
Lemma parse_described cf fn b sgs ms : cf_strict cf = false -> described b sgs ms ->
  exists r, parses_to cf fn (stream_of b) (new_dictionary utf8) r /\
    let x := segs_do fn (cf_pedantic cf) (cf_ndebug cf) false 1 sgs ms (RunSpec.start (cf_iconv cf) (new_dictionary utf8)) in
    pr_outcome r = fst x /\ pr_calls r = w_calls (snd x) /\
    pr_dict r = fold_left apply_call (w_calls (snd x)) (new_dictionary utf8) /\
    Forall proper_call (w_calls (snd x)) /\
    forall p, log_text p (pr_trace r) = log_text p (reading_log cf fn sgs ms).
Proof.
  intros St (Co & Sl & So & D). destruct (Run.C73_what_a_parse_does cf fn b (new_dictionary utf8) sgs ms St Co Sl So D) as (r & Pa & X1 & X2 & X3 & X4).
  exists r. split; [exact Pa|]. cbv zeta. split; [exact X1|]. split; [exact X3|].
  destruct (Parser.C21_effects_are_dictionary_calls _ _ _ _ _ Pa) as [Y1 Y2]. rewrite X3 in Y1, Y2. split; [exact Y1|]. split; [exact Y2|].
  intro p. rewrite X4, log_text_app, log_text_close, app_nil_r. reflexivity.
Qed.

Section Reading.
  Variable cf : config.
  Variable T : translator.
  Variable sy : system.
  Variables file b : bytes.
  Variable sgs : list segment.
  Variable ms : list (option bytes).
  Hypothesis St : cf_strict cf = false.
  Hypothesis Sv : serves (cf_iconv cf) T.
  Hypothesis Fi : os_file (sy_os sy) file = Some b.
  Hypothesis De : described b sgs ms.
  Definition said : list dict_call := file_says T utf8 (fun t => t) (segs_entries sgs).
  Definition dict : dictionary := fold_left apply_call said (new_dictionary utf8).

  Lemma read_described : Forall proper_call said /\ exists N, forall n, N <= n -> forall s,
    read_dictionary (with_fuel cf n) sy file s =
    (match unavailable T utf8 (segs_entries sgs) with
     | None => Ret dict
     | Some c => Exn (ExRuntime (refusal (cf_iconv cf) c utf8))
     end, more s [] (log_text (bs "tinygettext: ") (reading_log cf file sgs ms))).
  Proof.
    destruct (parse_described cf file b sgs ms St De) as (r & (_ & N & HN) & X1 & X2 & X3 & X4 & X5).
    destruct (segs_end (cf_iconv cf) T file (cf_pedantic cf) (cf_ndebug cf) sgs ms (new_dictionary utf8) Sv (proj2 (proj2 (proj2 De)))) as [Y1 Y2].
    rewrite Y1 in X1. rewrite Y2 in X3, X4. change (d_charset (new_dictionary utf8)) with utf8 in *. fold said in X3, X4. split; [exact X4|].
    exists N. intros n Hn s. unfold read_dictionary. rewrite Fi, (HN n Hn). unfold logs, log_all, err, mbind, mmod, mlift, mret.
    rewrite logged_default, X5, X1, X3. fold dict. unfold more. rewrite app_nil_r. now destruct (unavailable _ _ _).
  Qed.

  Hypothesis Pr : Forall proper_call said.
  Lemma dict_flat : d_has_fallback dict = false.
  Proof. unfold dict. now rewrite (proj1 (calls_fields _ _)). Qed.
  Lemma dict_form0 k : form0 dict k = said_text said k.
  Proof. apply said_form0, Pr. Qed.
  Lemma dict_lookup k : lookup dict k = fold_left spec_add (adds said) (fun _ => None) k.
  Proof.
    unfold dict. rewrite calls_lookup.
    assert (Ext : forall ops m m', (forall k, m k = m' k) -> forall k, fold_left spec_add ops m k = fold_left spec_add ops m' k).
    { clear. induction ops as [|op ops IH]; intros m m' H k; cbn [fold_left]; [apply H|]. apply IH. intro k'. unfold spec_add, update.
      rewrite H. destruct (key_eq_dec _ _); auto. }
    apply Ext. intros [[c|] i]; reflexivity.
  Qed.
  Lemma dict_rule : d_plural dict = hd pf_none (plurals said).
  Proof.
    unfold dict. rewrite calls_plural.
    - cbn [new_dictionary d_plural]. change (pf_valid pf_none) with false. cbv iota. now destruct (plurals _).
    - eapply Forall_impl; [|exact Pr]. intros [[]|p] H; try exact Logic.I; exact H.
  Qed.
  Lemma dict_translate msg : translate 2 [] dict msg =
    (Ret (or_else (said_text said (None, msg)) msg),
     match said_text said (None, msg) with Some _ => [] | None => [log_info (bs "Couldn't translate: " ++ msg)] end).
  Proof.
    rewrite <- dict_form0. unfold form0, lookup, translate. cbn [fst snd translate_in]. rewrite dict_flat.
    destruct (assoc msg (d_entries dict)) as [[|v r]|]; reflexivity.
  Qed.
  Lemma dict_translate_ctxt c msg : translate_ctxt 2 [] dict c msg =
    (Ret (or_else (said_text said (Some c, msg)) msg),
     match said_text said (Some c, msg) with Some _ => [] | None => [log_info (bs "Couldn't translate: " ++ msg)] end).
  Proof.
    rewrite <- dict_form0. unfold form0, lookup, translate_ctxt. cbn [fst snd]. destruct (assoc c (d_ctxt dict)) as [es|]; [|reflexivity].
    cbn [translate_in]. rewrite dict_flat. destruct (assoc msg es) as [[|v r]|]; reflexivity.
  Qed.
  Lemma dict_plural s p n : fst (translate_plural dict s p n) =
    spec_translate_plural (fold_left spec_add (adds said) (fun _ => None)) (hd pf_none (plurals said)) (None, s) p n.
  Proof. rewrite translate_plural_spec, dict_rule. apply spec_translate_plural_ext, dict_lookup. Qed.
  Lemma dict_ctxt_plural c s p n : fst (translate_ctxt_plural dict c s p n) =
    spec_translate_plural (fold_left spec_add (adds said) (fun _ => None)) (hd pf_none (plurals said)) (Some c, s) p n.
  Proof. rewrite translate_ctxt_plural_spec, dict_rule. apply spec_translate_plural_ext, dict_lookup. Qed.
  Lemma dict_ok : dict_wf dict.
  Proof.
    unfold dict. assert (X : forall l d, dict_wf d -> dict_wf (fold_left apply_call l d)).
    { induction l as [|c l IH]; intros d W; cbn [fold_left]; [exact W|]. apply IH. destruct c as [op|p]; cbn [apply_call]; [now apply add_wf|].
      destruct (pf_valid _); exact W. }
    apply X, new_wf.
  Qed.
End Reading.

(** ** atoi *)
Lemma digits_value_app ds : forall acc rest, Forall (fun c => (48 <= code c <= 57)%N) ds ->
  match rest with c :: _ => isdigit c = false | [] => True end ->
  digits acc (ds ++ rest) = fold_left (fun a c => (10 * a + Z.of_N (code c - 48))%Z) ds acc.
Proof.
  induction ds as [|c ds IH]; intros acc rest H R; cbn [app digits fold_left].
  - destruct rest as [|c rest]; [reflexivity|]. cbn [digits]. now rewrite R.
  - inversion H as [|? ? Hc Hr]; subst. assert (D : isdigit c = true) by (unfold isdigit; apply andb_true_intro; split; apply N.leb_le; lia). rewrite D. now apply IH.
Qed.
Lemma digits_Z ds : forall n, fold_left (fun a c => (10 * a + Z.of_N (code c - 48))%Z) ds (Z.of_N n) =
  Z.of_N (fold_left (fun v c => (10 * v + digit_value c)%N) ds n).
Proof.
  induction ds as [|c ds IH]; intro n; cbn [fold_left]; [reflexivity|]. rewrite <- IH. f_equal. unfold digit_value. lia.
Qed.
Lemma digits_dec n rest : match rest with c :: _ => isdigit c = false | [] => True end -> digits 0 (dec_N n ++ rest) = Z.of_N n.
Proof.
  intro R. destruct (dec_N_value n) as [V F]. rewrite (digits_value_app _ _ _ F R). change 0%Z with (Z.of_N 0). rewrite digits_Z. f_equal. exact V.
Qed.
Lemma digit_range c : isdigit c = true -> (48 <= code c <= 57)%N.
Proof. unfold isdigit. intro H. apply andb_prop in H as [H1 H2]. apply N.leb_le in H1, H2. lia. Qed.
Lemma digits_value ds rest : forallb isdigit ds = true -> match rest with c :: _ => isdigit c = false | [] => True end -> digits 0 (ds ++ rest) = value ds.
Proof.
  intros D R. apply digits_value_app; [|exact R]. apply Forall_forall. intros c Hc. apply digit_range. rewrite forallb_forall in D. now apply D.
Qed.
Lemma skip_all sp rest : forallb isspace sp = true -> skip_space (sp ++ rest) = skip_space rest.
Proof. induction sp as [|c sp IH]; cbn [app skip_space forallb]; [reflexivity|]. intro H. apply andb_prop in H as [-> H]. now apply IH. Qed.
Lemma digit_plain c : isdigit c = true -> isspace c = false /\ byte_eqb c (chr 45) = false /\ byte_eqb c (chr 43) = false.
Proof.
  intro H. apply digit_range in H. split; [|split].
  - unfold isspace. apply orb_false_intro; [apply N.eqb_neq; lia|]. apply andb_false_intro2, N.leb_gt. lia.
  - destruct (byte_eqb_spec c (chr 45)) as [->|]; [exfalso; revert H; vm_compute; intros [H _]; now apply H|reflexivity].
  - destruct (byte_eqb_spec c (chr 43)) as [->|]; [exfalso; revert H; vm_compute; intros [H _]; now apply H|reflexivity].
Qed.
Lemma atoi_denotes arg n : denotes arg n -> atoi arg = Ret n.
Proof.
  intros (sp & sign & ds & rest & -> & S & D & R & V & B). unfold atoi. rewrite (skip_all _ _ S).
  pose proof (digits_value ds rest D R) as E. destruct B as [B1 B2]. apply Z.leb_le in B1, B2.
  destruct V as [[-> ->]|[[-> ->]|(-> & -> & V)]].
  - cbn. rewrite E, B1, B2. reflexivity.
  - cbn. rewrite E, B1, B2. reflexivity.
  - cbn [app]. destruct ds as [|c ds].
    + cbn [app] in *. destruct rest as [|c rest]; cbn [skip_space]; [reflexivity|]. destruct (V eq_refl) as (V1 & V2 & V3). rewrite V1.
      destruct (byte_eqb_spec c (chr 45)) as [->|_]; [now destruct V2|]. destruct (byte_eqb_spec c (chr 43)) as [->|_]; [now destruct V3|].
      rewrite E, B1, B2. reflexivity.
    + cbn [app skip_space forallb] in *. apply andb_prop in D as [D1 D2]. destruct (digit_plain c D1) as (P1 & P2 & P3). rewrite P1, P2, P3, E, B1, B2. reflexivity.
Qed.
Lemma split_digits s : exists ds rest, s = ds ++ rest /\ forallb isdigit ds = true /\ match rest with c :: _ => isdigit c = false | [] => True end.
Proof.
  induction s as [|c s (ds & rest & E & D & R)]; [exists [], []; auto|]. destruct (isdigit c) eqn:C.
  - exists (c :: ds), rest. subst s. cbn [forallb app]. rewrite C. auto.
  - exists [], (c :: s). auto.
Qed.
Lemma split_space s : exists sp rest, s = sp ++ rest /\ forallb isspace sp = true /\ match rest with c :: _ => isspace c = false | [] => True end.
Proof.
  induction s as [|c s (ds & rest & E & D & R)]; [exists [], []; auto|]. destruct (isspace c) eqn:C.
  - exists (c :: ds), rest. subst s. cbn [forallb app]. rewrite C. auto.
  - exists [], (c :: s). auto.
Qed.
(** every argument that atoi accepts denotes a number *)
Lemma denotes_atoi arg n : atoi arg = Ret n -> denotes arg n.
Proof.
  unfold atoi. destruct (split_space arg) as (sp & rest & -> & S & R). rewrite (skip_all _ _ S).
  assert (K : skip_space rest = rest) by (destruct rest as [|c rest]; [reflexivity|]; cbn [skip_space]; now rewrite R). rewrite K.
  set (z := match rest with [] => 0%Z | _ :: _ => _ end).
  destruct (Z.leb_spec (-2147483648) z) as [B1|]; [|discriminate]. destruct (Z.leb_spec z 2147483647) as [B2|]; [|discriminate].
  cbn [andb]. intro H. injection H as <-.
  assert (X : exists sign ds r, rest = sign ++ ds ++ r /\ forallb isdigit ds = true /\ match r with c :: _ => isdigit c = false | [] => True end /\
     (sign = bs "-" /\ z = (- value ds)%Z \/ sign = bs "+" /\ z = value ds \/
     sign = [] /\ z = value ds /\ (ds = [] -> match r with c :: _ => isspace c = false /\ [c] <> bs "-" /\ [c] <> bs "+" | [] => True end))).
  { unfold z. clear z B1 B2. destruct rest as [|c rest].
    - exists [], [], []. split; [reflexivity|]. split; [reflexivity|]. split; [exact Logic.I|]. right; right. split; [reflexivity|]. split; [reflexivity|]. intros _. exact Logic.I.
    - destruct (byte_eqb_spec c (chr 45)) as [->|N1].
      + destruct (split_digits rest) as (ds & r & -> & D & Q). exists (bs "-"), ds, r. split; [reflexivity|]. split; [exact D|]. split; [exact Q|].
        left. split; [reflexivity|]. now rewrite digits_value.
      + destruct (byte_eqb_spec c (chr 43)) as [->|N2].
        * destruct (split_digits rest) as (ds & r & -> & D & Q). exists (bs "+"), ds, r. split; [reflexivity|]. split; [exact D|]. split; [exact Q|].
          right; left. split; [reflexivity|]. now rewrite digits_value.
        * destruct (split_digits (c :: rest)) as (ds & r & E & D & Q). exists [], ds, r. split; [exact E|]. split; [exact D|]. split; [exact Q|].
          right; right. split; [reflexivity|]. split; [rewrite E; now rewrite digits_value|]. intros ->. cbn [app] in E. subst r. split; [exact R|].
          split; intro X; [apply N1|apply N2]; now injection X. }
  destruct X as (sign & ds & r & -> & D & Q & V). exists sp, sign, ds, r. split; [reflexivity|]. split; [exact S|]. split; [exact D|]. split; [exact Q|]. split; [exact V|]. split; [exact B1|exact B2].
Qed.
Lemma numeral_denotes n : (-2147483648 <= n <= 2147483647)%Z -> denotes (dec_Z n) n.
Proof.
  intro B. exists [], (if (n <? 0)%Z then bs "-" else []), (dec_N (Z.to_N (Z.abs n))), [].
  assert (V : value (dec_N (Z.to_N (Z.abs n))) = Z.abs n).
  { destruct (dec_N_value (Z.to_N (Z.abs n))) as [_ F]. pose proof (digits_value_app _ 0%Z [] F Logic.I) as E.
    rewrite (digits_dec (Z.to_N (Z.abs n)) [] Logic.I) in E. unfold value. rewrite <- E. now rewrite Z2N.id by lia. }
  rewrite app_nil_r. unfold dec_Z. split; [destruct (Z.ltb_spec n 0) as [L|L]; [rewrite (Z.abs_neq n) by lia|rewrite (Z.abs_eq n) by lia]; reflexivity|]. split; [reflexivity|]. split.
  { apply forallb_forall. intros c Hc. destruct (dec_N_value (Z.to_N (Z.abs n))) as [_ F]. rewrite Forall_forall in F. specialize (F c Hc).
    unfold isdigit. apply andb_true_intro; split; apply N.leb_le; lia. }
  split; [exact Logic.I|]. split; [|exact B]. rewrite V. destruct (Z.ltb_spec n 0); [left|right; right]; split; try reflexivity; [lia|]. split; [lia|]. auto.
Qed.
