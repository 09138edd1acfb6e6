(** The exact log of a parse of an arbitrary complete file in the dictionary's own character set. *)
From Verif.Model Require Import Base Log PluralForms Dictionary IConv Stream PoParser.
From Verif.Spec Require Import DictSpec ParserSpec PoSpec SoundSpec.
From Verif.Proofs Require Import BaseFacts DictProofs LexProofs ParserUnary DocLex ParserRel ParserSafe ParserFuel ParserLocal
  ParserCut ParserBlank ParserTerm ParserLinewise ParserMisc ParserSaid DocProofs DocLoop DocSound.
From Verif.Proofs Require DocTop DocLog Numbers.
From Verif.Spec Require DiagSpec.
From Verif.Spec Require Import DamageSpec FullSpec.
From Verif.Proofs Require Import DocComplaint DocExact DocUnique.
Local Open Scope list_scope.
Local Notation len l := (Z.of_nat (length l)).

(** ** What the scanners note *)
Definition lnotes {A} (r : lexres A) : list bytes := match r with LOk ws _ => ws | LErr ws _ => ws | LUb ws => ws end.
Lemma lnotes_lwarn A w (r : lexres A) : lnotes (lwarn w r) = w :: lnotes r.
Proof. destruct r; reflexivity. Qed.
Lemma lbind_lwarn A B w (r : lexres A) (f : A -> lexres B) : lbind (lwarn w r) f = lwarn w (lbind r f).
Proof. destruct r as [ws a| |]; cbn [lwarn lbind]; try reflexivity. destruct (f a); reflexivity. Qed.
Lemma pgarbage_notes l : lnotes (pgarbage false l) = DiagSpec.trail_notes l.
Proof.
  unfold DiagSpec.trail_notes. induction l as [|c l IH]; cbn [pgarbage forallb]; [reflexivity|]. unfold pctype. cbn [andb].
  destruct (isspace c); [exact IH|reflexivity].
Qed.
Lemma pscan_notes b5 cur n : forall l i out, length l <= n -> skipn i cur = l ->
  lnotes (lbind (pscan b5 i l out) (fun r => lbind (pgarbage false (skipn (S (fst r)) cur)) (fun _ => LOk [] (snd r)))) = scan_notes b5 l.
Proof.
  assert (K : forall i (c : byte) l, skipn i cur = c :: l -> skipn (i + 1) cur = l).
  { intros i c l E. replace (i + 1) with (S i) by lia. revert i E. induction cur as [|x cur IH]; intros [|i] E; cbn [skipn] in *; try discriminate.
    - now injection E as _ ->.
    - destruct cur as [|y cur']; [destruct i; discriminate|]. now apply IH. }
  induction n as [|n IH]; intros [|c l] i out Hn E; cbn [length] in Hn; try lia; try reflexivity.
  cbn [pscan scan_notes]. destruct (byte_eqb c c_dq).
  - cbn [lbind fst snd]. apply K in E. replace (S i) with (i + 1) by lia. rewrite E. pose proof (pgarbage_notes l) as G.
    destruct (pgarbage false l); cbn [lbind lnotes] in *; rewrite ?app_nil_r; exact G.
  - fold (big5_lead c). destruct (b5 && big5_lead c).
    + destruct l as [|c1 l]; [reflexivity|]. cbn [length] in Hn. apply IH; [lia|]. apply K in E. apply K in E. replace (i + 2) with (i + 1 + 1) by lia. exact E.
    + destruct (byte_eqb c c_bsl).
      * destruct l as [|c1 l]; [reflexivity|]. cbn [length] in Hn. pose proof (K _ _ _ E) as E1. pose proof (K _ _ _ E1) as E2. replace (i + 1 + 1) with (i + 2) in E2 by lia.
        rewrite unescape_meaning. destruct (meaning_of c1 escapes); cbn [app]; [apply IH; [lia|exact E2]|]. rewrite lbind_lwarn, lnotes_lwarn. f_equal. apply IH; [lia|exact E2].
      * apply IH; [lia|]. eapply K, E.
Qed.
Lemma pline_notes b5 out pre r : lnotes (pline false b5 out (length pre) (pre ++ c_dq :: r)) = scan_notes b5 r.
Proof.
  unfold pline. rewrite app_length. cbn [length]. destruct (Nat.leb_spec (length pre + S (length r)) (length pre + 1)) as [L|L].
  - destruct r; [reflexivity|cbn [length] in L; lia].
  - rewrite app_nth2, Nat.sub_diag by lia. cbn [nth]. rewrite byte_eqb_refl. cbn [negb].
    assert (E : skipn (length pre + 1) (pre ++ c_dq :: r) = r).
    { rewrite skipn_app. rewrite skipn_all2 by lia. replace (length pre + 1 - length pre) with 1 by lia. reflexivity. }
    rewrite E. eapply pscan_notes; [reflexivity|exact E].
Qed.
Lemma pskip_notes b5 out : forall l pre, lnotes (pskip false b5 (pre ++ l) out (length pre) l) = quoted_notes b5 l.
Proof.
  unfold quoted_notes. induction l as [|c l IH]; intro pre; cbn [pskip after_space]; [reflexivity|].
  destruct (byte_eqb c c_dq) eqn:E.
  - apply byte_eqb_eq in E. subst c. change (isspace c_dq) with false. cbv iota. rewrite byte_eqb_refl. apply pline_notes.
  - unfold pctype. cbn [andb]. destruct (isspace c); [|rewrite E; reflexivity].
    specialize (IH (pre ++ [c])). rewrite <- app_assoc, app_length in IH. exact IH.
Qed.
Lemma pfirst_notes pd b5 k cur : k <= length cur -> lnotes (pfirst false pd b5 k cur) = keyword_notes pd b5 (skipn k cur).
Proof.
  intro Hk. unfold pfirst, keyword_notes. rewrite skipn_length.
  destruct (Nat.leb_spec (length cur) (k + 1)) as [L|L], (Nat.leb_spec (length cur - k) 1) as [L'|L']; try lia; [reflexivity|].
  assert (Lk : length (firstn k cur) = k) by (rewrite firstn_length; lia).
  assert (X : exists a b r, skipn k cur = a :: b :: r).
  { assert (L2 : 1 < length (skipn k cur)) by (rewrite skipn_length; lia). destruct (skipn k cur) as [|a [|b r]]; cbn [length] in L2; try lia. eauto. }
  destruct X as (a & b & r & X).
  assert (Na : nth k cur c_nul = a).
  { rewrite <- (firstn_skipn k cur), X, app_nth2, Lk, Nat.sub_diag by lia. reflexivity. }
  assert (Nb : nth (k + 1) cur c_nul = b).
  { rewrite <- (firstn_skipn k cur), X, app_nth2, Lk by lia. replace (k + 1 - k) with 1 by lia. reflexivity. }
  rewrite Na, Nb, X. assert (S : starts_with [c_sp; c_dq] (a :: b :: r) = byte_eqb a c_sp && byte_eqb b c_dq).
  { apply eq_true_iff_eq. rewrite starts_with_spec, andb_true_iff, !byte_eqb_eq. split; [intros [u U]; now injection U as -> ->|intros [-> ->]; exists r; reflexivity]. }
  rewrite S. destruct (byte_eqb a c_sp && byte_eqb b c_dq) eqn:Eab.
  - cbn [negb]. rewrite andb_false_r. cbn [app]. apply andb_prop in Eab as [Ea Eb]. apply byte_eqb_eq in Ea. apply byte_eqb_eq in Eb. subst a b.
    rewrite Ea, Eb in *. clear Ea Eb.
    assert (Q : quoted_notes b5 (c_sp :: c_dq :: r) = scan_notes b5 r) by (unfold quoted_notes; reflexivity). rewrite Q.
    replace cur with ((firstn k cur ++ [c_sp]) ++ c_dq :: r) by (rewrite <- app_assoc; cbn [app]; rewrite <- X; apply firstn_skipn).
    replace (k + 1) with (length (firstn k ((firstn k cur ++ [c_sp]) ++ c_dq :: r) ++ [c_sp])).
    2: { rewrite app_length, firstn_length, !app_length, Lk. cbn [length]. lia. }
    replace (firstn k ((firstn k cur ++ [c_sp]) ++ c_dq :: r)) with (firstn k cur).
    2: { rewrite <- app_assoc, firstn_app, Lk, Nat.sub_diag. cbn [firstn]. rewrite app_nil_r, firstn_firstn, Nat.min_id. reflexivity. }
    apply pline_notes.
  - cbn [negb]. rewrite andb_true_r. cbv zeta. pose proof (pskip_notes b5 [] (a :: b :: r) (firstn k cur)) as G. rewrite <- X, firstn_skipn, Lk, X in G.
    destruct pd; [rewrite lnotes_lwarn|cbn [app]]; rewrite G; reflexivity.
Qed.
Lemma continued_quote pd b5 out w r : white w ->
  (if (length w =? 1) && pd then [bs "leading whitespace before string"] else []) ++ lnotes (pline false b5 out (length w) (w ++ c_dq :: r)) =
  continued_notes pd b5 (w ++ c_dq :: r).
Proof.
  intro H. unfold continued_notes, quoted_notes. rewrite after_space_white by exact H. change (after_space (c_dq :: r)) with (c_dq :: r). cbv beta iota. rewrite byte_eqb_refl.
  rewrite app_length. replace (length w + length (c_dq :: r) - length (c_dq :: r)) with (length w) by lia. rewrite pline_notes, andb_comm. reflexivity.
Qed.

(** ** Stages *)
Lemma continues_keyword l : continues l -> has_keyword l = false.
Proof.
  intros (w & r & -> & Hw). unfold has_keyword. rewrite after_space_white by exact Hw. change (after_space (c_dq :: r)) with (c_dq :: r). reflexivity.
Qed.
Lemma stage_snoc bef l : stage_after (bef ++ [l]) = if has_keyword l then stage_of l else stage_after bef.
Proof. unfold stage_after. rewrite filter_app. cbn [List.filter]. destruct (has_keyword l); [rewrite rev_app_distr; reflexivity|now rewrite app_nil_r]. Qed.

Lemma lines_log_app fn pd b5 a : forall n bef b, lines_log fn pd b5 n bef (a ++ b) = lines_log fn pd b5 n bef a ++ lines_log fn pd b5 (n + len a) (bef ++ a) b.
Proof.
  induction a as [|l a IH]; intros n bef b; cbn [app lines_log length].
  - rewrite app_nil_r, Z.add_0_r. reflexivity.
  - rewrite IH, <- !app_assoc. cbn [app]. replace (n + 1 + len a)%Z with (n + Z.of_nat (S (length a)))%Z by lia. reflexivity.
Qed.

Section Full.
  Variable cf : config.
  Variable fn : bytes.
  Local Notation I := (cf_iconv cf).
  Local Notation P := (M (pst I)).
  Local Notation pos := (pos cf []).
  Local Notation pd := (cf_pedantic cf).
  Local Notation LL := (lines_log fn pd).
  Hypothesis Hst : cf_strict cf = false.
  Local Open Scope mon_scope.

  (** [m] returns, having read some lines and noted what is to be noted about them, or it
      complains about a line, or something else happens, and then [W] holds of the lines read
      and of those left *)
  Variable W : list bytes -> list bytes -> Prop.
  Definition plog (keep : bool) (bef : list bytes) {A} (m : P A) (ls : list bytes) (s : pst I) : Prop :=
    match m s with
    | (Ret a, s') => keep = true -> exists rd ls', ls = rd ++ ls' /\ pos ls' s' /\ p_line s' = (p_line s + len rd)%Z /\
        p_tr s' = p_tr s ++ LL (p_big5 s) (p_line s) bef rd /\ p_big5 s' = p_big5 s /\ p_conv s' = p_conv s
    | (Exn ExPo, s') => exists pre lse msg, ls = pre ++ lse /\
        p_tr s' = p_tr s ++ LL (p_big5 s) (p_line s) bef (pre ++ [hd [] lse]) ++ [mistake fn (p_line s + len pre) msg (hd [] lse)] /\ p_conv s' = p_conv s
    | (OutOfFuel, _) => True
    | _ => keep = false /\ exists rd ls', ls = rd ++ ls' /\ W (bef ++ rd) ls'
    end.
  Lemma plog_eq keep bef A (m m' : P A) ls s : m s = m' s -> plog keep bef m' ls s -> plog keep bef m ls s.
  Proof. intros E H. unfold plog. rewrite E. exact H. Qed.
  Lemma plog_bind keep bef A B (m : P A) (f : A -> P B) ls s : plog true bef m ls s ->
    (forall a s1 rd ls1, m s = (Ret a, s1) -> ls = rd ++ ls1 -> pos ls1 s1 -> p_big5 s1 = p_big5 s -> p_conv s1 = p_conv s ->
       plog keep (bef ++ rd) (f a) ls1 s1) -> plog keep bef (mbind m f) ls s.
  Proof.
    intros Hm Hf. unfold plog, mbind in *. destruct (m s) as [[a|[]|u| |] s1] eqn:E1; try (exfalso; exact (diff_true_false (proj1 Hm))); auto.
    destruct (Hm eq_refl) as (rd1 & ls1 & H1 & H2 & H3 & H4 & H5 & H6). specialize (Hf a s1 rd1 ls1 eq_refl H1 H2 H5 H6). rewrite H5, H3, H4 in Hf.
    assert (X : (keep = false /\ exists rd ls', ls1 = rd ++ ls' /\ W ((bef ++ rd1) ++ rd) ls') -> keep = false /\ exists rd ls', ls = rd ++ ls' /\ W (bef ++ rd) ls').
    { intros (K & rd2 & ls2 & X1 & X2). split; [exact K|]. exists (rd1 ++ rd2), ls2. split; [rewrite H1, X1, app_assoc; reflexivity|]. rewrite app_assoc. exact X2. }
    destruct (f a s1) as [[b|[]|u| |] s2] eqn:E2; try (exact (X Hf)); auto; clear X; rename rd1 into rd.
    - intro K. destruct (Hf K) as (rd2 & ls2 & G1 & G2 & G3 & G4 & G5 & G6). exists (rd ++ rd2), ls2. split; [rewrite H1, G1, app_assoc; reflexivity|].
      split; [exact G2|]. split; [rewrite G3, app_length; lia|]. split; [rewrite G4, lines_log_app, app_assoc; reflexivity|]. split; congruence.
    - destruct Hf as (pre & lse & msg & G1 & G2 & G3). exists (rd ++ pre), lse, msg. split; [rewrite H1, G1, app_assoc; reflexivity|]. split; [|congruence].
      rewrite G2, <- !app_assoc, (lines_log_app fn pd _ rd), <- !app_assoc, app_length. replace (p_line s + len rd + len pre)%Z with (p_line s + Z.of_nat (length rd + length pre))%Z by lia. reflexivity.
  Qed.
  Lemma plog_ret keep bef A (a : A) ls s : pos ls s -> plog keep bef (mret a) ls s.
  Proof. intros H _. exists [], ls. cbn [app length lines_log]. rewrite app_nil_r, Z.add_0_r. auto 10. Qed.
  Lemma recover_conv f : forall s s' o, recover cf f s = (o, s') -> p_conv s' = p_conv s.
  Proof.
    induction f as [|f IH]; intros s s' o E; [injection E as _ <-; reflexivity|]. cbn [recover] in E. unfold mbind at 1 in E. rewrite next_line_eq, mget_bind in E.
    nx s. destruct (p_eof (nextst s)); [injection E as _ <-; exact Nv|]. unfold mbind in E. rewrite is_empty_line_eq in E.
    destruct (pempty _ _) as [[]|]; cbn [run_opt] in E; unfold mret, mfail in E; [injection E as _ <-; exact Nv| |injection E as _ <-; exact Nv].
    apply IH in E. congruence.
  Qed.
  Lemma error_run A m ls t : pos ls t -> exists t', @error cf fn A m t = (Exn ExPo, t') /\ p_tr t' = p_tr t ++ [mistake fn (p_line t) m (hd [] ls)] /\ p_conv t' = p_conv t.
  Proof.
    intros Ht. unfold error. rewrite mget_bind. unfold emit. rewrite mmod_bind. set (t1 := st_tr t _).
    destruct (recover_run cf Hst (S (S (length (is_rest (p_in t))))) ls t1 Ht (error_enough cf t _)) as (sk & ls' & t' & R1 & R2 & R3 & R4 & R5 & R6 & R7).
    exists t'. unfold mbind. rewrite R1. split; [reflexivity|]. split; [rewrite R6; unfold t1; cbn [st_tr p_tr]; rewrite (pos_hd _ _ _ Ht); reflexivity|]. exact (recover_conv _ _ _ _ R1).
  Qed.
  Lemma plog_error keep bef A m ls s : pos ls s -> line_notes pd (p_big5 s) bef (hd [] ls) = [] -> plog keep bef (@error cf fn A m) ls s.
  Proof.
    intros Hp N. destruct (error_run A m ls s Hp) as (s' & E & T & TV). unfold plog. rewrite E. exists [], ls, m. split; [reflexivity|]. split; [|exact TV].
    cbn [app length lines_log]. rewrite N, T, Z.add_0_r. reflexivity.
  Qed.
  Lemma warned_tr ws : forall s ls, pos ls s -> p_tr (warned_all cf fn ws s) = p_tr s ++ List.map (DiagSpec.reported fn (p_line s) (hd [] ls)) ws.
  Proof.
    induction ws as [|w ws IH]; intros s ls Hp; cbn [warned_all List.map]; [now rewrite app_nil_r|].
    rewrite (IH (warned cf fn w s) ls Hp). unfold warned at 1. cbn [st_tr p_tr]. rewrite <- app_assoc, (pos_hd _ _ _ Hp). reflexivity.
  Qed.
  Lemma warned_line ws : forall s, p_line (warned_all cf fn ws s) = p_line s.
  Proof. induction ws as [|w ws IH]; intro s; cbn [warned_all]; [reflexivity|]. rewrite IH. reflexivity. Qed.
  Lemma warned_conv ws : forall s, p_conv (warned_all cf fn ws s) = p_conv s.
  Proof. induction ws as [|w ws IH]; intro s; cbn [warned_all]; [reflexivity|]. rewrite IH. reflexivity. Qed.
  Lemma warned_pos ws ls : forall s, pos ls s -> pos ls (warned_all cf fn ws s).
  Proof. induction ws as [|w ws IH]; intros s H; cbn [warned_all]; [exact H|]. apply IH. exact H. Qed.

  (** the first line of [l :: ls] has been read already *)
  Lemma plog_continuation f : forall bef out l ls s, pos (l :: ls) s -> stage_after (bef ++ [l]) <> AtStart ->
    match continuation cf fn f out s with
    | (Ret a, s') => exists rd ls', ls = rd ++ ls' /\ pos ls' s' /\ p_line s' = (p_line s + 1 + len rd)%Z /\
        p_tr s' = p_tr s ++ LL (p_big5 s) (p_line s + 1) (bef ++ [l]) rd /\ p_big5 s' = p_big5 s /\ p_conv s' = p_conv s
    | (Exn ExPo, s') => exists pre lse msg, ls = pre ++ lse /\
        p_tr s' = p_tr s ++ LL (p_big5 s) (p_line s + 1) (bef ++ [l]) (pre ++ [hd [] lse]) ++ [mistake fn (p_line s + 1 + len pre) msg (hd [] lse)] /\ p_conv s' = p_conv s
    | (OutOfFuel, _) => True
    | _ => False
    end.
  Proof.
    induction f as [|f IH]; intros bef out l ls s Hp Hsa; [exact Logic.I|]. cbn [continuation]. unfold mbind at 1. rewrite next_line_eq, mget_bind.
    pose proof (pos_next_tl cf _ _ Hp) as Hp1. cbn [tl] in Hp1. nx s. set (s1 := nextst s) in *. rewrite <- Nl, <- Nb, <- Nv, <- Nt. clear Nd Nc Nv Nt Nb Nl Hp. clearbody s1. clear s.
    unfold mbind at 1. rewrite find_quote_eq, Hst, (pos_hd _ _ _ Hp1).
    destruct (pquote false 0 (hd [] ls)) as [[i|]|] eqn:Eq; cbn [run_opt]; unfold mret at 1, mfail; cbv beta iota.
    3: { destruct (pquote_lenient (hd [] ls) 0) as [q X]. congruence. }
    2: { unfold mret. exists [], ls. cbn [app length lines_log]. rewrite app_nil_r, Z.add_0_r. auto 10. }
    destruct ls as [|l1 ls1]; [discriminate Eq|]. cbn [hd] in Eq. destruct (pquote_inv _ _ _ Eq) as (lead & r0 & Ec & Hlead & Hi). cbn [plus] in Hi. subst i.
    assert (Hk : has_keyword l1 = false) by (apply continues_keyword; exists lead, r0; auto).
    set (w0 := if (length lead =? 1) && pd then [bs "leading whitespace before string"] else []).
    assert (EW : forall k, mbind (if (length lead =? 1) && pd then warning cf fn (bs "leading whitespace before string") else mret tt) k s1 = k tt (warned_all cf fn w0 s1) :> (outcome bytes * pst I)).
    { intro k. unfold w0. destruct (_ && _); reflexivity. }
    rewrite EW. set (s2 := warned_all cf fn w0 s1). assert (Hp2 : pos (l1 :: ls1) s2) by now apply warned_pos.
    unfold mbind. rewrite get_string_line_eq, run_lex_eq, Hst, (pos_hd _ _ _ Hp2). cbn [hd].
    assert (B2 : p_big5 s2 = p_big5 s1) by apply warned_big5. assert (L2 : p_line s2 = p_line s1) by apply warned_line.
    assert (T2 : p_tr s2 = p_tr s1 ++ List.map (DiagSpec.reported fn (p_line s1) l1) w0) by (apply (warned_tr w0 s1 (l1 :: ls1)), Hp1).
    assert (V2 : p_conv s2 = p_conv s1) by apply warned_conv. rewrite B2.
    assert (LN : w0 ++ lnotes (pline false (p_big5 s1) out (length lead) l1) = line_notes pd (p_big5 s1) (bef ++ [l]) l1).
    { unfold line_notes. rewrite Hk. unfold w0. rewrite Ec, continued_quote by exact Hlead. destruct (stage_after (bef ++ [l])); [congruence|reflexivity..]. }
    pose proof (ub_pline cf (fun _ => True) (fun _ _ => True) (fun _ _ _ => Logic.I) (p_big5 s1) out (length lead) l1) as Ubl. unfold ub_strict in Ubl. rewrite Hst in Ubl.
    destruct (pline false (p_big5 s1) out (length lead) l1) as [ws v|ws msg|ws]; cbn [lnotes] in LN; [| |discriminate].
    - pose proof (IH (bef ++ [l]) v l1 ls1 (warned_all cf fn ws s2) (warned_pos _ _ _ Hp2)) as G. rewrite stage_snoc, Hk in G. specialize (G Hsa).
      rewrite warned_big5, warned_line, warned_conv, (warned_tr ws s2 (l1 :: ls1) Hp2), B2, L2, V2, T2 in G. cbn [hd] in G. rewrite <- app_assoc, <- map_app, LN in G.
      destruct (continuation cf fn f v (warned_all cf fn ws s2)) as [[a|[]|u| |] s']; auto.
      + destruct G as (rd & ls' & G1 & G2 & G3 & G4 & G5 & G6). exists (l1 :: rd), ls'. split; [rewrite G1; reflexivity|]. split; [exact G2|].
        split; [rewrite G3; cbn [length]; lia|]. split; [|auto]. rewrite G4, <- app_assoc. reflexivity.
      + destruct G as (pre & lse & msg & G1 & G2 & G3). exists (l1 :: pre), lse, msg. split; [rewrite G1; reflexivity|]. split; [|exact G3]. rewrite G2. cbn [app lines_log length].
        rewrite <- !app_assoc. replace (p_line s1 + 1 + len pre)%Z with (p_line s1 + Z.of_nat (S (length pre)))%Z by lia. reflexivity.
    - destruct (error_run bytes msg (l1 :: ls1) (warned_all cf fn ws s2) (warned_pos _ _ _ Hp2)) as (s' & E & T & TV). rewrite warned_conv, V2 in TV.
      rewrite E. exists [], (l1 :: ls1), msg. split; [reflexivity|]. split; [|exact TV]. cbn [app hd lines_log length]. rewrite Z.add_0_r, app_nil_r.
      rewrite T, warned_line, (warned_tr ws s2 (l1 :: ls1) Hp2), L2, T2. cbn [hd]. rewrite <- LN, map_app, <- !app_assoc. reflexivity.
  Qed.
  Lemma plog_get_string bef k l ls s : pos (l :: ls) s -> k <= length l -> has_keyword l = true -> stage_of l <> AtStart ->
    keyword_in (stage_after bef) l = Some k -> plog true bef (get_string cf fn k) (l :: ls) s.
  Proof.
    intros Hp Hk Hh Hs Hkw. unfold plog. rewrite get_string_eq. unfold mbind. rewrite run_lex_eq, Hst, (pos_hd _ _ _ Hp). cbn [hd].
    assert (LN : lnotes (pfirst false pd (p_big5 s) k l) = line_notes pd (p_big5 s) bef l).
    { unfold line_notes. rewrite Hh, Hkw. now apply pfirst_notes. }
    pose proof (ub_pfirst cf (fun _ => True) (fun _ _ => True) (fun _ _ _ => Logic.I) pd (p_big5 s) k l) as Ubl. unfold ub_strict in Ubl. rewrite Hst in Ubl.
    destruct (pfirst false pd (p_big5 s) k l) as [ws v|ws msg|ws]; cbn [lnotes] in LN; [| |discriminate].
    - subst ws. set (ws := line_notes pd (p_big5 s) bef l) in *. pose proof (plog_continuation (cf_fuel cf) bef v l ls (warned_all cf fn ws s) (warned_pos _ _ _ Hp)) as G. rewrite stage_snoc, Hh in G. specialize (G Hs).
      rewrite warned_big5, warned_line, warned_conv, (warned_tr ws s (l :: ls) Hp) in G. cbn [hd] in G.
      destruct (continuation cf fn (cf_fuel cf) v (warned_all cf fn ws s)) as [[a|[]|u| |] s']; try contradiction; auto.
      + intros _. destruct G as (rd & ls' & G1 & G2 & G3 & G4 & G5 & G6). exists (l :: rd), ls'. split; [rewrite G1; reflexivity|]. split; [exact G2|].
        split; [rewrite G3; cbn [length]; lia|]. split; [|auto]. rewrite G4, <- app_assoc. reflexivity.
      + destruct G as (pre & lse & msg & G1 & G2 & G3). exists (l :: pre), lse, msg. split; [rewrite G1; reflexivity|]. split; [|exact G3]. rewrite G2. cbn [app lines_log length].
        rewrite <- !app_assoc. replace (p_line s + 1 + len pre)%Z with (p_line s + Z.of_nat (S (length pre)))%Z by lia. reflexivity.
    - destruct (error_run bytes msg (l :: ls) (warned_all cf fn ws s) (warned_pos _ _ _ Hp)) as (s' & E & T & TV). rewrite warned_conv in TV.
      rewrite E. exists [], (l :: ls), msg. split; [reflexivity|]. split; [|exact TV]. cbn [app hd lines_log length]. rewrite Z.add_0_r, app_nil_r.
      rewrite T, warned_line, (warned_tr ws s (l :: ls) Hp). cbn [hd]. rewrite <- LN, <- !app_assoc. reflexivity.
  Qed.
  Lemma plog_next bef l ls s : pos (l :: ls) s -> line_notes pd (p_big5 s) bef l = [] -> plog true bef (next_line cf) (l :: ls) s.
  Proof.
    intros Hp N. unfold plog. rewrite next_line_eq. intros _. pose proof (pos_next_tl cf _ _ Hp) as Hp1. cbn [tl] in Hp1. nx s. exists [l], ls. split; [reflexivity|].
    split; [exact Hp1|]. cbn [lines_log length]. rewrite N. cbn [List.map app]. rewrite app_nil_r, Nt, Nb, Nv, Nl. auto.
  Qed.
  (** the last steps of an entry *)
  Lemma plog_done bef A (m : P A) ls s : (exists a s', m s = (Ret a, s')) -> plog false bef m ls s.
  Proof. intros (a & s' & E). unfold plog. rewrite E. discriminate. Qed.
  Lemma plog_header bef h ls s : W bef ls -> plog false bef (parse_header cf fn h) ls s.
  Proof.
    intro H. assert (X : false = false /\ exists rd ls', ls = rd ++ ls' /\ W (bef ++ rd) ls') by (split; [reflexivity|]; exists [], ls; rewrite app_nil_r; auto).
    unfold plog. destruct (parse_header_run cf fn Hst h s) as (o & c' & ev & s2 & X1 & X2 & _). rewrite X2.
    unfold set_charsets in X1. cbn [andb] in X1. destruct o as [[]|[]|u| |]; try exact X; auto; [discriminate|].
    exfalso. destruct (bytes_eqb _ _); [discriminate|]. destruct (ic_open _ _ _) as [?|[? ?]]; discriminate.
  Qed.

  (** *** comments *)
  Lemma hash_notes b5 bef l : starts_with [c_hash] l = true -> line_notes pd b5 bef l = [] /\ has_keyword l = true /\ stage_of l = AtStart.
  Proof.
    intro H. apply starts_with_spec in H as [u ->]. cbn [app].
    assert (K : has_keyword (c_hash :: u) = true) by reflexivity. split; [|split; reflexivity]. unfold line_notes. rewrite K.
    destruct (stage_after bef); reflexivity.
  Qed.
  Lemma plog_comments f : forall bef b ls s, pos ls s -> plog true bef (comments cf f b) ls s.
  Proof.
    induction f as [|f IH]; intros bef b ls s Hp; [exact Logic.I|]. cbn [comments]. unfold prefix.
    eapply plog_eq; [rewrite mget_bind, (pos_hd _ _ _ Hp); reflexivity|].
    destruct (starts_with [c_hash] (hd [] ls)) eqn:Eh; [|now apply plog_ret].
    eapply plog_eq; [rewrite mget_bind; reflexivity|]. cbv zeta. destruct ls as [|l ls]; [discriminate|].
    apply plog_bind; [apply plog_next; [exact Hp|apply hash_notes, Eh]|]. intros a s1 rd ls1 _ _ H1 _ _. now apply IH.
  Qed.

  (** *** entries *)
  Lemma keyword_or l : ~ continues l -> has_keyword l = true.
  Proof.
    intro H. unfold has_keyword. destruct (starts_with [c_dq] (after_space l)) eqn:E; [|reflexivity]. exfalso. apply H.
    apply starts_with_spec in E as [r E]. cbn [app] in E. clear H. revert E. induction l as [|c l IH]; cbn [after_space]; [discriminate|].
    destruct (isspace c) eqn:Es; intro E.
    - destruct (IH E) as (w & r' & -> & Hw). exists (c :: w), r'. split; [reflexivity|constructor; assumption].
    - injection E as -> ->. exists [], r. split; [reflexivity|constructor].
  Qed.
  Lemma keyword_letter kw c l : kw = c :: l -> isspace c = false -> c <> c_dq -> forall x, starts_with kw x = true -> has_keyword x = true.
  Proof.
    intros -> H1 H2 x H. apply starts_with_spec in H as [u ->]. unfold has_keyword. cbn [app after_space]. rewrite H1.
    apply negb_true_iff. apply not_true_iff_false. intro E. apply starts_with_spec in E as [v E]. injection E as E _. now apply H2.
  Qed.
  Lemma msg_stage x : starts_with (bs "msgctxt") x = true \/ starts_with (bs "msgid") x = true \/ starts_with (bs "msgstr") x = true ->
    has_keyword x = true /\ stage_of x <> AtStart.
  Proof.
    intros H. assert (L : forall kw l, kw = "m"%char :: l -> starts_with kw x = true -> has_keyword x = true).
    { intros kw l E. apply (keyword_letter kw "m"%char l E); [reflexivity|discriminate]. }
    split; [destruct H as [H|[H|H]]; (eapply L; [|exact H]; reflexivity)|]. unfold stage_of.
    destruct (starts_with (bs "msgctxt") x); [discriminate|]. destruct (starts_with (bs "msgid_plural") x); [discriminate|].
    destruct (starts_with (bs "msgid") x); [discriminate|]. destruct (starts_with (bs "msgstr[") x); [discriminate|].
    destruct H as [H|[H|H]]; [discriminate|discriminate|]. rewrite H. discriminate.
  Qed.
  Lemma pmsgstr_numbered x : pmsgstr_n false x = Some (numbered x).
  Proof.
    unfold pmsgstr_n, numbered. destruct (starts_with (bs "msgstr[") x); cbn [andb]; [|reflexivity].
    destruct (Nat.ltb_spec 8 (length x)) as [L|L]; [reflexivity|]. rewrite (nth_overflow x c_nul (n := 8)) by lia.
    change (byte_eqb c_nul c_rbr) with false. rewrite andb_false_r. reflexivity.
  Qed.
  Lemma numbered_starts x : numbered x = true -> starts_with (bs "msgstr[") x = true.
  Proof. unfold numbered. rewrite !andb_true_iff. tauto. Qed.
  Lemma starts_shorter a b x : starts_with (a ++ b) x = true -> starts_with a x = true.
  Proof. intro H. apply starts_with_spec in H as [u ->]. rewrite <- app_assoc. apply starts_with_spec. eauto. Qed.
  Lemma no_keyword b5 bef x : (stage_after bef = AtStart \/ has_keyword x = true) -> keyword_in (stage_after bef) x = None -> line_notes pd b5 bef x = [].
  Proof. intros H N. unfold line_notes. rewrite N. destruct H as [->| ->]; [destruct (has_keyword x)|]; reflexivity. Qed.
  Lemma keyword_form bef : stage_after bef = AfterPlural \/ stage_after bef = AfterForm ->
    forall x, keyword_in (stage_after bef) x = if numbered x then Some 9 else None.
  Proof. intros [->| ->] x; reflexivity. Qed.

  Lemma plog_loop f : forall bef num ne ls s, pos ls s -> cv_cd (p_conv s) = CdNull -> (stage_after bef = AfterPlural \/ stage_after bef = AfterForm) ->
    ~ continues (hd [] ls) -> plog true bef (msgstr_loop cf fn f num ne) ls s.
  Proof.
    induction f as [|f IH]; intros bef num ne ls s Hp Hc Hs Hnc; [exact Logic.I|]. cbn [msgstr_loop].
    pose proof (pmsgstr_numbered (hd [] ls)) as Hn. pose proof (keyword_or _ Hnc) as Hk.
    destruct (pempty_lenient (hd [] ls)) as [e Ee]. eapply plog_eq.
    { unfold mbind at 1. rewrite is_empty_line_eq, Hst, (pos_hd _ _ _ Hp), Ee. cbn [run_opt]. unfold mret at 1. reflexivity. }
    destruct e.
    { destruct (is_nil num); [|now apply plog_ret]. apply plog_error; [exact Hp|]. apply no_keyword; [now right|]. rewrite (keyword_form _ Hs).
      destruct (numbered (hd [] ls)) eqn:En; [|reflexivity]. apply pmsgstr_not_empty in Hn. rewrite Ee in Hn. discriminate. }
    eapply plog_eq.
    { unfold mbind at 1. rewrite is_msgstr_n_eq, Hst, (pos_hd _ _ _ Hp), Hn. cbn [run_opt]. unfold mret at 1. reflexivity. }
    destruct (numbered (hd [] ls)) eqn:En.
    2: { apply plog_error; [exact Hp|]. apply no_keyword; [now right|]. rewrite (keyword_form _ Hs), En. reflexivity. }
    eapply plog_eq; [rewrite mget_bind; reflexivity|]. cbv zeta. destruct ls as [|l ls]; [discriminate|]. cbn [hd] in *.
    destruct (form_true _ Hn) as [_ H9]. destruct (digit_row _ Hn) as [Hrow Hdig].
    destruct (msg_stage l) as [_ Hst0]. { right. right. apply (starts_shorter (bs "msgstr") (bs "[")). now apply numbered_starts. }
    apply plog_bind.
    - apply plog_get_string; [exact Hp|exact H9|exact Hk|exact Hst0|]. rewrite (keyword_form _ Hs), En. reflexivity.
    - intros ms s1 rd ls1 E El Hp1 B1 V1. destruct (get_string_reads cf fn Hst _ _ _ _ _ _ _ _ Hp E El Hp1) as (lit & -> & _ & Hl).
      pose proof (get_string_rest cf fn Hst _ _ _ _ _ _ _ Hp E Hp1) as Hnc1.
      assert (S : stage_after (bef ++ lit_lines (firstn 9 l) lit) = AfterForm).
      { rewrite Hrow. exact (stage_row (p_big5 s) bef lit Hl _). }
      unfold plog. unfold mbind at 1, do_convert. rewrite (DocTop.convert_null _ _ _ (eq_trans (f_equal cv_cd V1) Hc)). cbv beta iota.
      set (s2 := st_tr _ _). assert (T2 : p_tr s2 = p_tr s1) by (unfold s2; cbn [st_tr p_tr]; apply app_nil_r).
      match goal with |- context [msgstr_loop cf fn f ?a ?b s2] => pose proof (IH (bef ++ lit_lines (firstn 9 l) lit) a b ls1 s2 Hp1 (eq_trans (f_equal cv_cd V1) Hc) (or_intror S) Hnc1) as G end.
      unfold plog in G. rewrite T2 in G. exact G.
  Qed.

  Lemma plog_plural bef fz ctxt id l ls s : pos (l :: ls) s -> cv_cd (p_conv s) = CdNull -> stage_after bef = AfterId ->
    starts_with (bs "msgid_plural") l = true -> plog false bef (plural_entry cf fn true fz ctxt id) (l :: ls) s.
  Proof.
    intros Hp Hc Hs H. unfold plural_entry. pose proof (starts_firstn 12 (bs "msgid_plural") _ eq_refl H) as K.
    destruct (msg_stage l) as [Hk Hst0]. { right. left. exact (starts_shorter (bs "msgid") (bs "_plural") _ H). }
    apply plog_bind.
    - apply plog_get_string; [exact Hp|exact (starts_length 12 (bs "msgid_plural") _ eq_refl H)|exact Hk|exact Hst0|]. rewrite Hs. unfold keyword_in. rewrite H. reflexivity.
    - intros ms s1 rd ls1 E El Hp1 B1 V1. destruct (get_string_reads cf fn Hst _ _ _ _ _ _ _ _ Hp E El Hp1) as (lit & -> & _ & Hl). rewrite K.
      pose proof (get_string_rest cf fn Hst _ _ _ _ _ _ _ Hp E Hp1) as Hnc. apply plog_bind.
      + apply plog_loop; [exact Hp1|rewrite V1; exact Hc|left; exact (stage_plural (p_big5 s) bef lit Hl)|exact Hnc].
      + intros r s2 rd2 ls2 E2 _ Hp2 _ _. apply loop_ends_empty in E2. rewrite Hst, (pos_hd _ _ _ Hp2) in E2. apply plog_done.
        unfold mbind at 1. rewrite is_empty_line_eq, Hst, (pos_hd _ _ _ Hp2), E2. cbn [run_opt]. unfold mret at 1. cbv beta iota. cbn [negb].
        destruct (_ && _); [|eexists; eexists; reflexivity]. rewrite mget_bind. unfold mbind.
        assert (X : forall op t, exists a t', dict_add cf op t = (Ret a, t')) by (intros op t; destruct (dict_add_calm cf op t) as (t' & -> & _); eauto).
        destruct (negb (pf_valid _)); [rewrite warning_eq; apply X|]. destruct (negb _); [rewrite warning_eq; apply X|apply X].
  Qed.
  Lemma plog_singular bef fz ctxt id l ls s : pos (l :: ls) s -> cv_cd (p_conv s) = CdNull -> stage_after bef = AfterId ->
    starts_with (bs "msgid_plural") l = false -> starts_with (bs "msgstr") l = true ->
    (forall m ls', lit_ok false (p_big5 s) m -> l :: ls = lit_lines (bs "msgstr") m ++ ls' -> ~ continues (hd [] ls') -> W (bef ++ lit_lines (bs "msgstr") m) ls') ->
    plog false bef (singular_entry cf fn true fz ctxt id) (l :: ls) s.
  Proof.
    intros Hp Hc Hs H0 H HW. unfold singular_entry. pose proof (starts_firstn 6 (bs "msgstr") _ eq_refl H) as K.
    destruct (msg_stage l) as [Hk Hst0]. { right. right. exact H. }
    apply plog_bind.
    - apply plog_get_string; [exact Hp|exact (starts_length 6 (bs "msgstr") _ eq_refl H)|exact Hk|exact Hst0|]. rewrite Hs. unfold keyword_in. rewrite H0, H. reflexivity.
    - intros ms s1 rd ls1 E El Hp1 B1 V1. destruct (get_string_reads cf fn Hst _ _ _ _ _ _ _ _ Hp E El Hp1) as (lit & -> & _ & Hl). rewrite K in *.
      pose proof (get_string_rest cf fn Hst _ _ _ _ _ _ _ Hp E Hp1) as Hnc.
      destruct (is_nil id); [apply plog_header; now apply HW|]. apply plog_done. destruct (_ && _); [|eexists; eexists; reflexivity].
      unfold mbind, do_convert. rewrite (DocTop.convert_null _ _ _ (eq_trans (f_equal cv_cd V1) Hc)). cbv beta iota.
      destruct (dict_add_calm cf (AddSingular ctxt id ms) (st_tr (st_conv s1 (p_conv s1)) (p_tr s1 ++ []))) as (t' & Et & _). rewrite Et. eauto.
  Qed.
  Lemma plog_entry cm fz l ls s : pos (l :: ls) s -> cv_cd (p_conv s) = CdNull -> Forall is_comment cm ->
    (forall e m ls', en_body e = PoStr m -> entry_ok false (p_big5 s) e -> l :: ls = entry_lines e ++ ls' -> ~ continues (hd [] ls') -> W (cm ++ entry_lines e) ls') ->
    plog false cm (entry cf fn true fz) (l :: ls) s.
  Proof.
    intros Hp Hc Hcm HW. unfold entry, prefix. pose proof (stage_comments _ Hcm) as Hs0.
    assert (G : forall oc ls1 s1 fin, opt_lit_ok false (p_big5 s) oc -> l :: ls = ctxt_lines oc ++ ls1 -> pos ls1 s1 -> p_big5 s1 = p_big5 s -> p_conv s1 = p_conv s ->
      keyword_in (stage_after (cm ++ ctxt_lines oc)) (hd [] ls1) = (if starts_with (bs "msgid") (hd [] ls1) then Some 5 else None) ->
      (stage_after (cm ++ ctxt_lines oc) = AtStart \/ has_keyword (hd [] ls1) = true) ->
      plog false (cm ++ ctxt_lines oc)
        (hi_ <- mget (fun s => starts_with (bs "msgid") (p_cur s));; msgid <- (if hi_ then get_string cf fn 5 else error cf fn (bs "expected 'msgid'"));;
         hp <- mget (fun s => starts_with (bs "msgid_plural") (p_cur s));;
         if hp then plural_entry cf fn true fz fin msgid
         else hs <- mget (fun s => starts_with (bs "msgstr") (p_cur s));; if hs then singular_entry cf fn true fz fin msgid else error cf fn (bs "expected 'msgstr' or 'msgid_plural'")) ls1 s1).
    { intros oc ls1 s1 fin Hoc El0 Hp1 B1 V1 Hkw Hor. eapply plog_eq; [rewrite mget_bind, (pos_hd _ _ _ Hp1); reflexivity|].
      destruct (starts_with (bs "msgid") (hd [] ls1)) eqn:Em.
      2: { apply plog_bind; [apply plog_error; [exact Hp1|]; now apply no_keyword|]. intros a s' rd ls' E. destruct (error_not_ret _ _ _ _ _ _ _ E). }
      destruct ls1 as [|l1 ls1]; [discriminate|]. cbn [hd] in *. pose proof (starts_firstn 5 (bs "msgid") _ eq_refl Em) as K.
      destruct (msg_stage l1) as [Hk Hst0]; [auto|]. apply plog_bind.
      - apply plog_get_string; [exact Hp1|exact (starts_length 5 (bs "msgid") _ eq_refl Em)|exact Hk|exact Hst0|exact Hkw].
      - intros id s2 rd ls2 E El Hp2 B2 V2. pose proof (get_string_rest cf fn Hst _ _ _ _ _ _ _ Hp1 E Hp2) as Hnc.
        destruct (get_string_reads cf fn Hst _ _ _ _ _ _ _ _ Hp1 E El Hp2) as (lit & -> & _ & Hl). rewrite K in *. rewrite B1 in Hl, B2. rewrite V1 in V2.
        pose proof (stage_id (p_big5 s) (cm ++ ctxt_lines oc) lit Hl) as S2.
        assert (HN : starts_with (bs "msgid_plural") (hd [] ls2) = false -> starts_with (bs "msgstr") (hd [] ls2) = false -> plog false ((cm ++ ctxt_lines oc) ++ lit_lines (bs "msgid") lit) (@error cf fn unit (bs "expected 'msgstr' or 'msgid_plural'")) ls2 s2).
        { intros N1 N2. apply plog_error; [exact Hp2|]. apply no_keyword; [right; now apply keyword_or|]. rewrite S2. unfold keyword_in. rewrite N1, N2. reflexivity. }
        eapply plog_eq; [rewrite mget_bind, (pos_hd _ _ _ Hp2); reflexivity|]. destruct (starts_with (bs "msgid_plural") (hd [] ls2)) eqn:Ep.
        + destruct ls2 as [|l2 ls2]; [discriminate|]. apply plog_plural; [exact Hp2|rewrite V2; exact Hc|exact S2|exact Ep].
        + eapply plog_eq; [rewrite mget_bind, (pos_hd _ _ _ Hp2); reflexivity|]. destruct (starts_with (bs "msgstr") (hd [] ls2)) eqn:Es; [|now apply HN].
          destruct ls2 as [|l2 ls2]; [discriminate|]. cbn [hd] in *. apply plog_singular; [exact Hp2|rewrite V2; exact Hc|exact S2|exact Ep|exact Es|].
          rewrite B2. intros m ls' Hm Elm Hncm.
          specialize (HW {| en_ctxt := oc; en_id := lit; en_body := PoStr m |} m ls' eq_refl (entry_fine _ oc lit (PoStr m) Hoc Hl Hm)).
          unfold entry_lines in HW. cbn [en_ctxt en_id en_body body_lines] in HW. rewrite <- !app_assoc in *. apply HW; [|exact Hncm].
          rewrite El0, El, Elm. reflexivity. }
    eapply plog_eq; [rewrite mget_bind, (pos_hd _ _ _ Hp); reflexivity|]. cbn [hd].
    destruct (starts_with (bs "msgctxt") l) eqn:Ec.
    - pose proof (starts_firstn 7 (bs "msgctxt") _ eq_refl Ec) as K. destruct (msg_stage l) as [Hk Hst0]; [auto|].
      eapply plog_eq.
      { match goal with |- mbind (mbind ?m ?g) ?f s = _ => instantiate (1 := mbind m (fun c => f (Some c))) end.
        unfold mbind. destruct (get_string cf fn 7 s) as [[?|?|?| |] ?]; reflexivity. }
      apply plog_bind.
      + apply plog_get_string; [exact Hp|exact (starts_length 7 (bs "msgctxt") _ eq_refl Ec)|exact Hk|exact Hst0|]. rewrite Hs0. unfold keyword_in. rewrite Ec. reflexivity.
      + intros c s1 rd ls1 E El Hp1 B1 V1. pose proof (get_string_rest cf fn Hst _ _ _ _ _ _ _ Hp E Hp1) as Hnc.
        destruct (get_string_reads cf fn Hst _ _ _ _ _ _ _ _ Hp E El Hp1) as (lit & -> & _ & Hl). rewrite K in *.
        pose proof (stage_ctxt (p_big5 s) cm lit Hl) as S1. apply (G (Some lit)); auto.
        * change (ctxt_lines (Some lit)) with (lit_lines (bs "msgctxt") lit). rewrite S1. reflexivity.
        * right. now apply keyword_or.
    - eapply plog_eq; [unfold mbind at 1; unfold mret at 1; reflexivity|]. specialize (G None (l :: ls) s None). cbn [ctxt_lines] in G. rewrite app_nil_r in G. apply G; auto; [exact Logic.I|].
      rewrite Hs0. cbn [hd]. unfold keyword_in. rewrite Ec. reflexivity.
  Qed.
  Lemma plog_front ls s : pos ls s -> cv_cd (p_conv s) = CdNull ->
    (forall b rest, ls = block_lines b ++ rest -> block_fine (p_big5 s) b -> singular b -> ~ continues (hd [] rest) -> W (block_lines b) rest) ->
    plog false [] (front cf fn) ls s.
  Proof.
    intros Hp Hc HW. unfold front. apply plog_bind; [now apply plog_comments|]. intros fz s1 rd ls1 E El Hp1 B1 V1.
    destruct (comments_lines cf _ _ _ _ _ _ Hp E) as (cm & ls1' & El' & Hcm & Hp1' & _ & Hh).
    pose proof (pos_inj _ _ _ _ Hp1' Hp1). subst ls1'. rewrite El in El'. apply app_inv_tail in El'. subst cm. cbn [app].
    destruct (pempty_lenient (hd [] ls1)) as [e Ee]. eapply plog_eq.
    { unfold mbind at 1. rewrite is_empty_line_eq, Hst, (pos_hd _ _ _ Hp1), Ee. cbn [run_opt]. unfold mret at 1. reflexivity. }
    destruct e; [now apply plog_ret|]. destruct ls1 as [|l1 ls1]; [discriminate|].
    apply plog_entry; [exact Hp1|rewrite V1; exact Hc|exact Hcm|]. rewrite B1. intros e m ls' Hb He El1 Hnc.
    specialize (HW {| bl_comments := rd; bl_entry := Some e |} ls'). unfold block_lines in HW. cbn [bl_comments bl_entry] in HW. apply HW; auto.
    - rewrite El, El1, app_assoc. reflexivity.
    - split; assumption.
    - exists e, m. auto.
  Qed.
End Full.

(** ** One turn of the loop *)
Lemma skips_exist (ls : list bytes) : exists sk fol, ls = sk ++ fol /\ skips sk fol.
Proof.
  induction ls as [|l ls (sk & fol & E & F1 & F2)].
  - exists [], []. split; [reflexivity|]. split; [constructor|exact Logic.I].
  - destruct (in_dec Ascii.ascii_dec c_lf l) as [H|H].
    + exists (l :: sk), fol. split; [cbn [app]; now rewrite <- E|]. split; [constructor; [|exact F1]; intros [X _]; now apply X|exact F2].
    + destruct (pempty_lenient l) as [[] B].
      * exists [], (l :: ls). split; [reflexivity|]. split; [constructor|]. now apply pempty_true.
      * exists (l :: sk), fol. split; [cbn [app]; now rewrite <- E|]. split; [constructor; [|exact F1]; now apply pempty_false|exact F2].
Qed.
Lemma cut_end (ls a : list bytes) x rest : ls ++ [[]] = a ++ x :: rest ->
  exists r0, ls = a ++ r0 /\ hd [] r0 = x /\ (rest = [] /\ tl r0 = [] \/ rest = tl r0 ++ [[]]).
Proof.
  revert ls. induction a as [|y a IH]; intros ls E; cbn [app] in E.
  - destruct ls as [|l ls]; cbn [app] in E; injection E as E1 E2; subst; [exists []|exists (x :: ls)]; auto.
  - destruct ls as [|l ls]; cbn [app] in E.
    + injection E as _ E. destruct a; discriminate.
    + injection E as -> E. destruct (IH _ E) as (r0 & -> & H1 & H2). exists r0. auto.
Qed.

Section Turn.
  Variable cf : config.
  Variable fn : bytes.
  Local Notation I := (cf_iconv cf).
  Local Notation pd := (cf_pedantic cf).
  Hypothesis Hst : cf_strict cf = false.

  Definition turned (n : Z) (b5 : bool) (d : dictionary) (tr : list event) (sg : segment) (rest : list bytes) (s' : pst I) : Prop :=
    exists ls' evs, (rest = [] /\ ls' = [] \/ rest = ls' ++ [[]]) /\
      DocLog.at_ cf (n + len (seg_lines sg)) ls' (big5_end b5 (seg_entries sg)) (DiagSpec.entries_dict d (seg_entries sg)) (tr ++ evs) s' /\
      seg_log fn pd n b5 d sg evs.

  Lemma turn_broken n ls b5 d tr s pre x sk rest : DocLog.at_ cf n ls b5 d tr s -> ls ++ [[]] = seg_lines (Broken pre x sk) ++ rest ->
    seg_ok b5 (Broken pre x sk) rest ->
    gets cf (try_block cf fn true s) tt (turned n b5 d tr (Broken pre x sk) rest).
  Proof.
    intros (Hp & Hc & Hb5 & Hd & Hn & Ht) El Hok. subst b5 d n tr.
    assert (HW : forall b r, ls = block_lines b ++ r -> block_fine (p_big5 s) b -> singular b -> ~ continues (hd [] r) -> False).
    { intros b r E Hf Hs Hnc. pose proof (pos_one cf _ _ Hp) as Ho. rewrite E in Ho. apply Forall_app in Ho as [_ Ho].
      assert (Hx : one_line (hd [] r)) by (destruct r; [intros []|now inversion Ho]).
      assert (X : exists more, r ++ [[]] = hd [] r :: more) by (destruct r; cbn [app hd]; eauto). destruct X as [more X].
      rewrite E, <- app_assoc, X in El. destruct (pempty_lenient (hd [] r)) as [[] B].
      - assert (Y : Whole b (hd [] r) = Broken pre x sk /\ more = rest); [|destruct Y; discriminate].
        apply (segment_inj (p_big5 s)); [split; [exact Hf|split; [now apply pempty_true|]]|exact Hok|cbn [seg_lines] in *; rewrite <- app_assoc; exact El].
        destruct Hs as (e & m & Z & _). rewrite Z. discriminate.
      - destruct (skips_exist more) as (sk2 & fol & -> & F).
        assert (Y : Excess b (hd [] r) sk2 = Broken pre x sk /\ fol = rest); [|destruct Y; discriminate].
        apply (segment_inj (p_big5 s)); [|exact Hok|cbn [seg_lines] in *; rewrite <- app_assoc; exact El].
        split; [exact Hf|]. split; [exact Hs|]. split; [now apply pempty_false|]. split; [exact Hnc|exact F]. }
    pose proof (post_front cf fn Hst ls s Hp) as PF. pose proof (plog_front cf fn Hst (fun _ _ => False) ls s Hp Hc HW) as PL.
    unfold post in PF. unfold plog in PL.
    assert (TB : try_block cf fn true s = match front cf fn s with
       | (Ret _, s1) => match back cf fn s1 with (Exn ExPo, s2) => (Ret tt, s2) | r => r end
       | (Exn ExPo, s1) => (Ret tt, s1)
       | r => r end).
    { unfold try_block. rewrite block_front. unfold mbind. destruct (front cf fn s) as [[a|[]|u| |] s1]; try reflexivity. }
    rewrite TB. destruct (front cf fn s) as [[[]|[]|u| |] s1] eqn:E1; try (destruct PL as (_ & ? & ? & _ & []); fail); [|clear TB|left; reflexivity].
    - (* the block was read *)
      exfalso. destruct PF as [(rd & ls1 & W1 & W2 & _) _].
      assert (BK : exists s2, try_block cf fn true s = (Ret tt, s2)).
      { rewrite TB. unfold back. unfold mbind at 1. rewrite is_empty_line_eq, Hst, (pos_hd _ _ _ W2).
        destruct (pempty_lenient (hd [] ls1)) as [[] B]; rewrite B; cbn [run_opt]; unfold mret at 1; cbv beta iota.
        - unfold mbind, mret. rewrite next_line_eq. eauto.
        - unfold mbind. destruct (error_run cf fn Hst unit (bs "expected empty line") _ _ W2) as (t' & Et & _). rewrite Et. eauto. }
      destruct BK as [s2 BK]. destruct (block_step cf fn Hst _ ls s s2 Hp eq_refl BK) as (sg & ls' & rst & (_ & T2 & _ & _ & _ & T7 & _) & TF).
      rewrite T2 in El. apply (segment_inj (p_big5 s)) in El as [-> _]; auto. rewrite E1 in TF. discriminate.
    - (* a mistake *)
      right. cbn [fst snd]. split; [reflexivity|].
      destruct PF as (pre1 & lse & sk1 & ls' & msg & Er & Hb & Hco). destruct (erred_broken cf fn Hst _ _ _ _ _ _ _ _ Er Hp Hb) as [B1 B2].
      destruct Er as (G1 & G2 & G3 & G4 & G5 & (rs & R1 & R2) & G7 & _).
      destruct (turn_mistake ls pre1 lse sk1 ls' G1 G2) as (rst & T1 & T2 & T3).
      destruct PL as (pre2 & lse2 & msg2 & P1 & P2 & P3). rewrite P2 in R2. apply app_inv_head in R2. apply app_inj_tail in R2 as [R2 R3].
      apply Numbers.mistake_inj in R3 as [R3 R4].
      assert (Epre : pre2 = pre1 /\ lse2 = lse).
      { assert (Le : length pre2 = length pre1) by lia. rewrite G1 in P1. clear - P1 Le. revert pre1 P1 Le.
        induction pre2 as [|y p IH]; intros [|z q] E L; cbn [length app] in *; try lia; auto. injection E as -> E. destruct (IH q E) as [-> ->]; auto; lia. }
      destruct Epre as [-> ->]. rewrite !app_assoc in R4. apply app_inv_tail in R4. apply app_inv_tail in R4. subst msg2.
      assert (Esg : Broken pre1 (hd [] lse) sk1 = Broken pre x sk /\ rst = rest).
      { apply (segment_inj (p_big5 s)); [split; [exact Hb|]; split; [exact B1|]; split; [exact B2|apply T3, G5]|exact Hok|].
        rewrite <- El. cbn [seg_lines]. rewrite <- app_assoc. symmetry. exact T1. }
      destruct Esg as [Esg ->]. injection Esg as -> Ex ->. rewrite Ex in *.
      exists ls', (lines_log fn pd (p_big5 s) (p_line s) [] (pre ++ [x]) ++ [mistake fn (p_line s + len pre) msg x]).
      split; [exact T2|]. destruct G7 as (F1 & F2 & F3 & _). split.
      + split; [exact G3|]. split; [rewrite P3; exact Hc|]. split; [exact F1|]. split; [exact F3|].
        split; [cbn [seg_lines]; rewrite G4, app_len; cbn [length]; lia|exact P2].
      + exists msg. split; [exact Hco|reflexivity].
  Qed.

  Definition own_seg (cs : bytes) (sg : segment) : Prop := own_charset cs (seg_entries sg).
  Lemma lenient_clean b : clean (cf_strict cf) b.
  Proof. unfold clean. rewrite Hst. discriminate. Qed.
  Lemma fine_entry b5 b : block_fine b5 b -> match bl_entry b with Some e => entry_ok (cf_strict cf) b5 e | None => True end.
  Proof. intros [_ H]. rewrite Hst. exact H. Qed.
  Lemma own_blk cs b : own_charset cs (opt_list (bl_entry b)) -> DocLog.own_block cs b.
  Proof. intro H. unfold DocLog.own_block. destruct (bl_entry b); [|exact Logic.I]. inversion H; subst. assumption. Qed.
  Lemma blk_big5 b5 b : DocLoop.block_big5 b5 b = big5_end b5 (opt_list (bl_entry b)).
  Proof. unfold DocLoop.block_big5. destruct (bl_entry b); reflexivity. Qed.
  Lemma turn_whole n ls b5 d tr s b sep rest : DocLog.at_ cf n ls b5 d tr s -> ls ++ [[]] = seg_lines (Whole b sep) ++ rest ->
    seg_ok b5 (Whole b sep) rest -> own_seg (d_charset d) (Whole b sep) ->
    gets cf (try_block cf fn true s) tt (turned n b5 d tr (Whole b sep) rest).
  Proof.
    intros H El [Hf Hs] Ho. cbn [seg_lines] in El. rewrite <- app_assoc in El. cbn [app] in El. destruct (cut_end _ _ _ _ El) as (r0 & -> & Eh & Er). subst sep.
    eapply ok_mono; [apply (DocLog.block_at cf fn b r0 b5 d n tr s H (proj1 Hf) Hs (fine_entry _ _ Hf) (lenient_clean _) (own_blk _ _ Ho))|].
    intros o s' [-> A]. split; [reflexivity|]. exists (tl r0), (DiagSpec.block_log fn pd n (hd [] r0) d b). split; [exact Er|]. split; [|reflexivity].
    cbn [seg_lines seg_entries]. rewrite <- blk_big5, app_length. cbn [length].
    replace (n + Z.of_nat (length (block_lines b) + 1))%Z with (n + DiagSpec.len (block_lines b) + 1)%Z by (unfold DiagSpec.len; lia). exact A.
  Qed.
  Lemma turn_excess n ls b5 d tr s b x sk rest : DocLog.at_ cf n ls b5 d tr s -> ls ++ [[]] = seg_lines (Excess b x sk) ++ rest ->
    seg_ok b5 (Excess b x sk) rest -> own_seg (d_charset d) (Excess b x sk) ->
    gets cf (try_block cf fn true s) tt (turned n b5 d tr (Excess b x sk) rest).
  Proof.
    intros H El (Hf & (e & m & Eb & Em) & Nb & Nc & Hsk) Ho. pose proof (fine_entry _ _ Hf) as He. apply own_blk in Ho. unfold DocLog.own_block in Ho.
    assert (Lb : block_lines b = bl_comments b ++ entry_lines e) by (unfold block_lines; rewrite Eb; reflexivity). rewrite Eb in He, Ho.
    cbn [seg_lines] in El. rewrite <- app_assoc in El. cbn [app] in El. destruct (cut_end _ _ _ _ El) as (r0 & -> & Eh & Er). subst x.
    assert (Fw : follows cf e (hd [] r0)) by (unfold follows; rewrite Em; unfold stops; rewrite Hst; now apply pquote_continues).
    set (n1 := (n + DiagSpec.len (bl_comments b))%Z). set (n2 := (n1 + DiagSpec.len (entry_lines e))%Z).
    assert (Fr : gets cf (front cf fn s) tt (DocLog.at_ cf n2 r0 (big5_after b5 e) (fold_left apply_call (entry_calls e) d)
      (tr ++ DiagSpec.entry_log fn pd n1 (hd [] r0) d e))).
    { unfold front. rewrite Lb, <- app_assoc in H.
      pose proof (DocLog.comments_at cf (entry_lines e ++ r0) b5 d tr (bl_comments b) (cf_fuel cf) false n s H (proj1 Hf) (entry_not_hash _ _ _)) as C.
      unfold mbind at 1. destruct (comments cf (cf_fuel cf) false s) as [o s1] eqn:Ec. destruct C as [C|(fz & C & H1)]; cbn [fst snd] in C; subst o; [left; reflexivity|]. cbn [snd] in H1.
      unfold mbind. rewrite is_empty_line_eq, (DocLog.at_cur _ _ _ _ _ _ _ H1), entry_not_empty. cbn [run_opt]. unfold mret at 1. cbv beta iota.
      exact (DocLog.entry_at cf fn e r0 b5 d fz n1 tr s1 H1 He (lenient_clean _) Ho Fw). }
    destruct Fr as [Fr|[Fr A]].
    { left. unfold try_block. rewrite block_front. unfold mbind. destruct (front cf fn s) as [o s1]. cbn [fst] in Fr. subst o. reflexivity. }
    destruct (front cf fn s) as [o s1] eqn:E1. cbn [fst snd] in Fr, A. subst o.
    pose proof (DocLog.at_cur _ _ _ _ _ _ _ A) as Hcur. destruct A as (A1 & A2 & A3 & A4 & A5 & A6).
    set (t1 := st_tr s1 (p_tr s1 ++ [EvLog (log_error (fn ++ bs ":" ++ dec_Z (p_line s1) ++ bs ": error: " ++ bs "expected empty line" ++ bs ": " ++ p_cur s1))])).
    destruct (recover_run cf Hst (S (S (length (is_rest (p_in s1))))) r0 t1 A1 (error_enough cf s1 _)) as (sk1 & ls' & s2 & Q1 & G2 & G3 & G5 & G4 & Q6 & (F1 & F2 & F3 & _)).
    assert (TB : try_block cf fn true s = (Ret tt, s2)).
    { unfold try_block. rewrite block_front. unfold mbind at 1. rewrite E1.
      unfold back. unfold mbind at 1. rewrite is_empty_line_eq, Hst, Hcur.
      destruct (pempty_lenient (hd [] r0)) as [[] B]; [exfalso; apply Nb; apply pempty_true; [apply hd_one; eapply pos_one, A1|exact B]|].
      rewrite B. cbn [run_opt]. unfold mret at 1. cbv beta iota.
      unfold error. unfold mbind at 1. rewrite mget_bind. unfold emit. rewrite mmod_bind. fold t1. unfold mbind. rewrite Q1. reflexivity. }
    right. rewrite TB. cbn [fst snd]. split; [reflexivity|].
    assert (TR : p_tr s2 = p_tr s1 ++ [mistake fn (p_line s1) (bs "expected empty line") (hd [] r0)]).
    { rewrite Q6. unfold t1. cbn [st_tr p_tr]. rewrite Hcur. reflexivity. }
    destruct (turn_mistake (block_lines b ++ r0) (block_lines b) r0 sk1 ls' eq_refl G2) as (rest1 & T1 & T2 & T3). specialize (T3 G5).
    rewrite El in T1. apply app_inv_head in T1. injection T1 as T1. apply skips_inj in T1 as [<- <-]; auto.
    assert (N2 : n2 = (n + len (block_lines b))%Z) by (unfold n2, n1, DiagSpec.len; rewrite Lb, app_length; lia).
    exists ls', (DiagSpec.entry_log fn pd n1 (hd [] r0) d e ++ [mistake fn n2 (bs "expected empty line") (hd [] r0)]). split; [exact T2|]. split.
    - cbn [seg_lines seg_entries]. rewrite Eb. cbn [opt_list]. unfold DiagSpec.entries_dict. cbn [List.map List.concat]. rewrite app_nil_r.
      split; [exact G3|]. split; [rewrite (recover_conv cf _ _ _ _ Q1); exact A2|]. split; [rewrite F1; exact A3|]. split; [rewrite F3; exact A4|].
      split; [rewrite G4; change (p_line t1) with (p_line s1); rewrite A5, N2, app_length; cbn [length]; lia|]. rewrite TR, A5, A6, app_assoc. reflexivity.
    - unfold seg_log, DiagSpec.block_log. rewrite Eb, N2. reflexivity.
  Qed.

  Lemma turn_any n ls b5 d tr s sg rest : DocLog.at_ cf n ls b5 d tr s -> ls ++ [[]] = seg_lines sg ++ rest -> seg_ok b5 sg rest -> own_seg (d_charset d) sg ->
    gets cf (try_block cf fn true s) tt (turned n b5 d tr sg rest).
  Proof.
    intros H El Hok Ho. destruct sg as [b sep|b x sk|pre x sk]; [eapply turn_whole; eassumption|eapply turn_excess; eassumption|eapply turn_broken; eassumption].
  Qed.

  (** ** The loop *)
  Lemma loop_full sgs : forall f n ls b5 d tr s, DocLog.at_ cf n ls b5 d tr s -> segs_lines sgs = ls ++ [[]] -> segs_ok b5 sgs ->
    own_charset (d_charset d) (segs_entries sgs) ->
    ok cf (parse_loop cf fn true f s) (fun o s' => o = Ret tt /\ p_dict s' = DiagSpec.entries_dict d (segs_entries sgs) /\
      cv_cd (p_conv s') = CdNull /\ exists evs, p_tr s' = tr ++ evs /\ segs_log fn pd n b5 d sgs evs).
  Proof.
    induction sgs as [|sg sgs IH]; intros f n ls b5 d tr s H El Hok Ho.
    { unfold segs_lines in El. cbn [List.map List.concat] in El. destruct ls; discriminate El. }
    destruct f as [|f]; [left; reflexivity|]. cbn [parse_loop]. rewrite mget_bind. destruct (pos_wf cf _ _ (proj1 H)) as (_ & _ & He). rewrite He.
    unfold segs_lines, segs_entries in El, Ho |- *. cbn [List.map List.concat] in El, Ho |- *. fold (segs_lines sgs) in *. fold (segs_entries sgs) in *.
    destruct Hok as [Hok1 Hok2]. apply Forall_app in Ho as [Ho1 Ho2]. destruct ls as [|l ls]; cbn [is_nil].
    - (* nothing but the empty line at the end *)
      right. unfold mret. cbn [fst snd]. cbn [app] in El.
      assert (E0 : sg = Whole block0 [] /\ segs_lines sgs = []).
      { apply (segment_inj b5); [exact Hok1|apply whole0|]. rewrite El. reflexivity. }
      destruct E0 as [-> E0]. assert (sgs = []) as ->.
      { destruct sgs as [|sg sgs]; [reflexivity|]. unfold segs_lines in E0. cbn [List.map List.concat] in E0. apply app_eq_nil in E0 as [E0 _]. destruct (seg_lines_ne _ E0). }
      destruct H as (H1 & H2 & H3 & H4 & H5 & H6). split; [reflexivity|]. split; [exact H4|]. split; [exact H2|]. exists []. rewrite app_nil_r. split; [exact H6|].
      exists [], []. split; [reflexivity|]. split; [reflexivity|]. reflexivity.
    - assert (T := turn_any n (l :: ls) b5 d tr s sg (segs_lines sgs) H (eq_sym El) Hok1 Ho1). unfold mbind.
      destruct (try_block cf fn true s) as [o s1]. destruct T as [T|[T (ls' & evs & T1 & T2 & T3)]]; cbn [fst snd] in *; subst o; [left; reflexivity|].
      rewrite DocLog.entries_dict_app. destruct T1 as [[T1 ->]|T1].
      + assert (sgs = []) as ->.
        { destruct sgs as [|sg' sgs]; [reflexivity|]. unfold segs_lines in T1. cbn [List.map List.concat] in T1. apply app_eq_nil in T1 as [E0 _]. destruct (seg_lines_ne _ E0). }
        destruct f as [|f]; [left; reflexivity|]. cbn [parse_loop]. rewrite mget_bind. destruct (pos_wf cf _ _ (proj1 T2)) as (_ & _ & He2). rewrite He2. cbn [is_nil].
        right. unfold mret. cbn [fst snd]. destruct T2 as (H1 & H2 & H3 & H4 & H5 & H6). split; [reflexivity|]. split; [exact H4|]. split; [exact H2|].
        exists evs. split; [exact H6|]. exists evs, []. rewrite app_nil_r. split; [reflexivity|]. split; [exact T3|reflexivity].
      + assert (Ec : d_charset (DiagSpec.entries_dict d (seg_entries sg)) = d_charset d) by apply DocLog.entries_dict_charset. rewrite <- Ec in Ho2.
        destruct (IH f _ ls' _ _ _ s1 T2 T1 Hok2 Ho2) as [R|(R1 & R2 & R3 & ev2 & R4 & R5)]; [left; exact R|]. right. split; [exact R1|]. split; [exact R2|]. split; [exact R3|].
        exists (evs ++ ev2). split; [rewrite R4, app_assoc; reflexivity|]. exists evs, ev2. auto.
  Qed.
End Turn.

(** ** The whole file *)
Lemma start_at cf b d : complete b -> DocLog.at_ cf 1 (file_lines b) false d [] (DocTop.started cf b d).
Proof.
  intro Hc. unfold DocTop.started, strip_bom. set (s0 := init_state cf (stream_of b) d). destruct (complete_unlines b Hc) as [Hb Ho].
  assert (P0 : pos cf [] ([] :: lines_of b) s0).
  { split; [constructor; [intros []|exact Ho]|]. split; [intros []|]. cbn. rewrite app_nil_r, <- Hb. auto. }
  pose proof (pos_next_tl cf _ _ P0) as P1. cbn [tl] in P1. set (s1 := nextst s0) in *. nx s0. fold s1 in Nd, Nc, Nv, Nt, Nb, Nl.
  assert (L1 : p_line s1 = 1%Z) by (unfold s1; rewrite nextst_line; reflexivity).
  assert (V1 : cv_cd (p_conv s1) = CdNull) by (rewrite Nv; reflexivity).
  assert (B1 : p_big5 s1 = false) by (rewrite Nb; reflexivity).
  assert (D1 : p_dict s1 = d) by (rewrite Nd; reflexivity).
  assert (T1 : p_tr s1 = []) by (rewrite Nt; reflexivity).
  clearbody s1.
  split; [|destruct (starts_with bom (p_cur s1)); exact (conj V1 (conj B1 (conj D1 (conj L1 T1))))].
  unfold file_lines, drop_bom. pose proof (pos_hd cf _ _ P1) as Hcur. destruct (lines_of b) as [|l ls]; cbn [hd] in Hcur; rewrite Hcur.
  - exact P1.
  - change (starts_with [chr 239; chr 187; chr 191] l) with (starts_with bom l). destruct (starts_with bom l); [|exact P1].
    destruct P1 as (A1 & A2 & A3 & A4 & A5). split; [inversion A1 as [|? ? X1 X2]; constructor; [now apply one_line_skipn|exact X2]|]. split; [exact A2|]. cbn. auto.
Qed.
Lemma parse_full cf fn b d sgs r : cf_strict cf = false -> complete b -> segs_lines sgs = file_lines b ++ [[]] -> segs_ok false sgs ->
  own_charset (d_charset d) (segs_entries sgs) -> parses_to cf fn (stream_of b) d r ->
  pr_outcome r = Ret tt /\ pr_dict r = DiagSpec.entries_dict d (segs_entries sgs) /\ segs_log fn (cf_pedantic cf) 1 false d sgs (pr_trace r).
Proof.
  intros Hst Hc El Hok Ho P. apply parses_to_elim in P as (n & <- & Hn). rewrite po_parse_eq in *. fold (DocTop.started cf b d) in *.
  assert (Hst' : cf_strict (with_fuel cf n) = false) by exact Hst.
  destruct (loop_full (with_fuel cf n) fn Hst' sgs n 1 (file_lines b) false d [] _ (start_at cf b d Hc) El Hok Ho) as [X|(X1 & X2 & X3 & evs & X4 & X5)]; [contradiction|].
  split; [exact X1|]. split; [exact X2|]. rewrite (DocLog.result_trace _ _ X1 X4 X3). exact X5.
Qed.
Lemma segs_log_det fn pd sgs : forall n b5 d e1 e2, segs_log fn pd n b5 d sgs e1 -> segs_log fn pd n b5 d sgs e2 -> e1 = e2.
Proof.
  assert (S : forall n b5 d sg e1 e2, seg_log fn pd n b5 d sg e1 -> seg_log fn pd n b5 d sg e2 -> e1 = e2).
  { intros n b5 d [b sep|b x sk|pre x sk] e1 e2 H1 H2; cbn [seg_log] in *; [congruence|congruence|].
    destruct H1 as (m1 & C1 & ->), H2 as (m2 & C2 & ->). rewrite (complaint_det _ _ _ _ _ C1 C2). reflexivity. }
  induction sgs as [|sg sgs IH]; intros n b5 d e1 e2 H1 H2; cbn [segs_log] in *; [congruence|].
  destruct H1 as (a1 & a2 & -> & A1 & A2), H2 as (b1 & b2 & -> & B1 & B2). f_equal; [eapply S; eassumption|eapply IH; eassumption].
Qed.
