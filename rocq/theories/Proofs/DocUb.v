(** A line that begins with a non-ASCII character, on platforms with strict ctype. *)
From Verif.Model Require Import Base Log PluralForms Dictionary IConv Stream PoParser.
From Verif.Spec Require Import ParserSpec PoSpec.
From Verif.Proofs Require Import BaseFacts DictProofs LexProofs ParserUnary DocLex ParserRel ParserSafe ParserFuel ParserLocal
  ParserCut ParserBlank ParserTerm ParserLinewise ParserMisc DocProofs DocLoop DocTop.
From Verif.Spec Require Import PoSpec.
Local Open Scope list_scope.

Lemma started_sees' cf ls d : Forall one_line ls -> starts_with bom (hd [] ls) = false ->
  sees cf [] ls (iconv_new (cf_iconv cf)) false (d_charset d) [] (started cf (unlines ls) d).
Proof.
  intros Hl Hb. set (s0 := init_state cf (stream_of (unlines ls)) d).
  assert (H0 : sees cf [] ([] :: ls) (iconv_new (cf_iconv cf)) false (d_charset d) [] s0).
  { split.
    - split; [|split; [intros []|split; [reflexivity|split; [|reflexivity]]]]. { constructor; [intros []|exact Hl]. } now rewrite app_nil_r.
    - repeat split. }
  apply sees_next in H0. fold s0. unfold started. fold s0. unfold strip_bom.
  rewrite (sees_cur _ _ _ _ _ _ _ _ H0), Hb. exact H0.
Qed.

Lemma pempty_ub w c l : white w -> hi c = true -> pempty true (w ++ c :: l) = None.
Proof.
  intros Hw Hc. assert (N : byte_eqb c c_hash = false).
  { destruct (byte_eqb c c_hash) eqn:E; [|reflexivity]. apply byte_eqb_eq in E. subst. discriminate Hc. }
  assert (K : pall_space true (w ++ c :: l) = None).
  { induction Hw as [|x w Hx Hw IH]; cbn [app pall_space].
    - unfold pctype. rewrite Hc. reflexivity.
    - unfold pctype. assert (hi x = false) as ->.
      { pose proof (forall_bytes (fun c => negb (isspace c && hi c)) eq_refl x) as K. cbv beta in K. rewrite Hx in K. now apply negb_true_iff in K. }
      cbn [andb]. rewrite Hx. exact IH. }
  destruct w as [|x w]; cbn [app] in *; unfold pempty; [rewrite N; exact K|].
  inversion Hw; subst. destruct (byte_eqb x c_hash) eqn:E; [|exact K]. apply byte_eqb_eq in E. subst. discriminate.
Qed.

Lemma ub_loop cf fn w c l ls cv b5 cs k f s : cf_strict cf = true -> white w -> hi c = true ->
  sees cf [] ((w ++ c :: l) :: ls) cv b5 cs k s -> ends cf fn f s (Ub UbCtype) k.
Proof.
  intros Hs Hw Hc H. pose proof (sees_eof _ _ _ _ _ _ _ _ _ H) as He.
  assert (Hk : p_calls s = k) by apply H.
  destruct f as [|f]; [left; reflexivity|]. unfold ends. rewrite (loop_step cf fn f s He).
  unfold mbind, try_block. unfold block.
  assert (N : starts_with [c_hash] (p_cur s) = false).
  { rewrite (sees_cur _ _ _ _ _ _ _ _ H). cbn [hd]. apply not_true_iff_false. intro K. apply starts_with_spec in K as [u K].
    destruct w as [|x w]; cbn in K; injection K as K _; [subst c; discriminate Hc|]. inversion Hw; subst. discriminate. }
  destruct (cf_fuel cf) as [|g]; [left; reflexivity|].
  assert (C : comments cf (S g) false s = (Ret false, s)).
  { cbn [comments]. unfold mbind, prefix, mget. rewrite N. reflexivity. }
  unfold mbind at 1. rewrite C. unfold mbind at 1. rewrite is_empty_line_eq, (sees_cur _ _ _ _ _ _ _ _ H). cbn [hd].
  rewrite Hs, (pempty_ub w c l Hw Hc). cbn [run_opt]. right. split; [reflexivity|exact Hk].
Qed.

Theorem parse_ub cf fn B w c l ls d cv calls : cf_strict cf = true ->
  Forall block_ok B -> entries_ok true false (blocks_entries B) -> clean true (d_charset d) ->
  read_entries (cf_ndebug cf) (d_charset d) (iconv_new (cf_iconv cf)) (blocks_entries B) = (Ret tt, cv, calls) ->
  white w -> hi c = true -> Forall one_line ((w ++ c :: l) :: ls) -> starts_with bom (c :: l) = false ->
  exists r, parses_to cf fn (stream_of (unlines (blocks_lines B ++ (w ++ c :: l) :: ls))) d r /\
    pr_outcome r = Ub UbCtype /\ pr_calls r = calls.
Proof.
  intros Hs HB He Hcs HR Hw Hc Hls Hbom.
  assert (Te : exists r, parses_to cf fn (stream_of (unlines (blocks_lines B ++ (w ++ c :: l) :: ls))) d r) by apply complete_terminates, unlines_complete.
  destruct Te as (r & P). exists r. split; [exact P|].
  refine (ends_parse cf fn _ d r _ _ _ P). intro n.
  assert (G : Forall good_line (blocks_lines B)) by (eapply blocks_good; eauto).
  pose proof (started_sees' cf (blocks_lines B ++ (w ++ c :: l) :: ls) d) as S.
  assert (S' := S ltac:(apply Forall_app; split; [now apply good_one_lines|exact Hls])). clear S.
  assert (Hb : starts_with bom (hd [] (blocks_lines B ++ (w ++ c :: l) :: ls)) = false).
  { destruct (blocks_lines B) as [|l0 bl]; [|inversion G as [|? ? [_ K] _]; exact K]. cbn [app hd].
    destruct w as [|x w]; [exact Hbom|]. cbn [app]. inversion Hw; subst. apply not_true_iff_false. intro K. apply starts_with_spec in K as [u K].
    apply (space_not_bom x); [assumption|]. cbn in K. now inversion K. }
  specialize (S' Hb).
  rewrite <- Hs in He, Hcs.
  pose proof (blocks_loop (with_fuel cf n) fn [] ((w ++ c :: l) :: ls) (d_charset d) B (iconv_new (cf_iconv cf)) false [] n _ S' HB He Hcs) as L.
  cbn [cf_ndebug with_fuel] in L. 
  change (@read_entries (cf_iconv (with_fuel cf n))) with (@read_entries (cf_iconv cf)) in L.
  rewrite HR in L. cbn [app] in L.
  eapply leads_ends; [exact L|]. intros f' s' H'.
  exact (ub_loop (with_fuel cf n) fn w c l ls _ _ _ _ f' s' Hs Hw Hc H').
Qed.
