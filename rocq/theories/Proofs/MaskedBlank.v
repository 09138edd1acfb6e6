(** Parsing with an exception mask a file that ends in a blank line: the exception comes when all the
    work is done. *)
From Verif.Model Require Import Base Log PluralForms Dictionary IConv Stream PoParser Masked.
From Verif.Spec Require Import ParserSpec PoSpec ReadSpec MaskedSpec.
From Verif.Proofs Require Import BaseFacts LexProofs ParserSafe ParserUnary ParserRel ParserTerm ParserBreak MaskedLock.
Local Open Scope list_scope.

Section Blank.
  Variable mk : mask.
  Variable cf : config.
  Variable fn : bytes.
  Local Notation I := (cf_iconv cf).
  Local Notation P := (M (pst I)).
  Local Notation keep := (keep cf).
  Local Notation io := (Exn (ExRuntime io_failure)).

  Definition alike (a b : pst I) : Prop := p_calls a = p_calls b /\ p_tr a = p_tr b /\ p_dict a = p_dict b /\ p_conv a = p_conv b.
  (** all lines left but the last are complete, and the last of those, or else the current one, is white *)
  Definition Q (s : pst I) : Prop := exists r l,
    is_rest (p_in s) = r ++ l /\ ~ In c_lf l /\ tail_ok r (p_cur s) /\ is_eof (p_in s) = false /\ is_fail (p_in s) = false /\
    (is_break (p_in s) = true \/ l = []) /\ p_eof s = false.
  Definition Qpost {A} (xw xm : outcome A * pst I) : Prop :=
    (xw = xm /\ match fst xm with Ret _ => Q (snd xm) | Exn ExPo => Q (snd xm) \/ p_eof (snd xm) = true | _ => True end) \/
    (fst xw = io /\ fst xm = Exn ExPo /\ p_eof (snd xm) = true /\ alike (snd xw) (snd xm)).
  Definition hq {A} (w m : P A) : Prop := forall s, Q s -> Qpost (w s) (m s).

  Lemma take_all l : ~ In c_lf l -> take_line l = (l, None).
  Proof.
    induction l as [|c l IH]; intro H; [reflexivity|]. cbn [take_line]. destruct (byte_eqb c c_lf) eqn:E; [apply byte_eqb_eq in E; exfalso; apply H; now left|].
    rewrite IH by (intro X; apply H; now right). reflexivity.
  Qed.
  Lemma take_one x q : ~ In c_lf x -> take_line (x ++ c_lf :: q) = (x, Some q).
  Proof.
    induction x as [|c x IH]; intro Hx; [reflexivity|]. cbn [app take_line].
    destruct (byte_eqb c c_lf) eqn:Ec; [apply byte_eqb_eq in Ec; exfalso; apply Hx; left; congruence|].
    rewrite IH by (intro H; apply Hx; right; exact H). reflexivity.
  Qed.
  Lemma complete_lines y : complete y -> y = [] \/ exists x q, y = x ++ c_lf :: q /\ ~ In c_lf x /\ complete q.
  Proof.
    intros [->|[y' ->]]; [left; reflexivity|right]. induction y' as [|c y' IH]; [exists [], []; split; [reflexivity|]; split; [auto|left; reflexivity]|].
    cbn [app]. destruct (byte_eqb c c_lf) eqn:Ec.
    - apply byte_eqb_eq in Ec. subst c. exists [], (y' ++ [c_lf]). split; [reflexivity|]. split; [auto|]. right. eauto.
    - destruct IH as (x & q & -> & Hx & Hq). exists (c :: x), q. split; [reflexivity|]. split; [|exact Hq].
      intros [->|H]; [rewrite byte_eqb_refl in Ec; discriminate|contradiction].
  Qed.
  (** a complete line, or, behind a white line only, the end *)
  Lemma Q_next s : Q s ->
    (x_next_line mk cf s = (Ret tt, nextst s) /\ Q (nextst s)) \/
    (white (p_cur s) /\ p_eof (nextst s) = true /\ alike s (nextst s) /\
     (x_next_line mk cf s = (Ret tt, nextst s) \/ exists s', x_next_line mk cf s = (io, s') /\ alike s' (nextst s))).
  Proof.
    intros (r & l & R & Hl & T & E & F & Br & Ee). unfold x_next_line, nextst.
    assert (Gd : is_good (p_in s) = true) by (unfold is_good; now rewrite E, F).
    unfold getline. rewrite Gd, R. destruct T as [[-> W]|(p & w & -> & Hp & Hw & Hw')].
    - right. split; [exact W|]. cbn [app]. destruct Br as [Br| ->].
      + destruct l as [|c l]; [|rewrite (take_all (c :: l) Hl)]; rewrite Br; (split; [reflexivity|]); (split; [repeat split|]);
          (destruct (thrown _ _ _ _); [right|left; reflexivity]; eexists; split; [reflexivity|repeat split]).
      + destruct (is_break (p_in s)); (split; [reflexivity|]); (split; [repeat split|]);
          (destruct (thrown _ _ _ _); [right|left; reflexivity]; eexists; split; [reflexivity|repeat split]).
    - left.
      assert (X : exists x q, (p ++ w ++ [c_lf]) ++ l = x ++ c_lf :: (q ++ l) /\ ~ In c_lf x /\ tail_ok q x).
      { destruct (complete_lines p Hp) as [->|(x & q & -> & Hx & Hq)].
        - exists w, []. split; [cbn [app]; now rewrite <- app_assoc|]. split; [exact Hw'|]. left. auto.
        - exists x, (q ++ w ++ [c_lf]). split; [now rewrite <- !app_assoc|]. split; [exact Hx|]. right. exists q, w. auto. }
      destruct X as (x & q & X & Hx & Hq). rewrite X in *. clear X. destruct (x ++ c_lf :: (q ++ l)) as [|c0 z] eqn:Z; [destruct x; discriminate Z|].
      rewrite <- Z, (take_one x _ Hx).
      assert (Th : thrown mk (p_in s) {| is_rest := q ++ l; is_eof := false; is_fail := false; is_break := is_break (p_in s) |} true = false).
      { unfold thrown. cbn [is_eof]. rewrite Gd, R. cbn [negb is_nil orb andb]. now rewrite !andb_false_r. }
      rewrite Th. split; [reflexivity|]. exists q, l. cbn [st_line p_in p_cur p_eof is_rest is_eof is_fail is_break]. auto 10.
  Qed.
  Lemma Q_step s : Q s -> ~ white (p_cur s) -> x_next_line mk cf s = (Ret tt, nextst s) /\ Q (nextst s).
  Proof. intros H N. destruct (Q_next s H) as [X|(W & _)]; [exact X|contradiction]. Qed.

  Lemma Qpost_bind A C (xw xm : outcome A * pst I) (v k : A -> P C) :
    Qpost xw xm -> (forall a, fst xm = Ret a -> Q (snd xm) -> Qpost (v a (snd xm)) (k a (snd xm))) ->
    Qpost (match xw with (Ret a, s) => v a s | (Exn e, s) => (Exn e, s) | (Ub u, s) => (Ub u, s) | (AssertFail, s) => (AssertFail, s) | (OutOfFuel, s) => (OutOfFuel, s) end)
          (match xm with (Ret a, s) => k a s | (Exn e, s) => (Exn e, s) | (Ub u, s) => (Ub u, s) | (AssertFail, s) => (AssertFail, s) | (OutOfFuel, s) => (OutOfFuel, s) end).
  Proof.
    intros [(-> & H)|(E1 & E2 & H)] K.
    - destruct xm as [o t]. cbn [fst snd] in *. destruct o as [a|[]|u| |]; [apply K; [reflexivity|exact H]| | | | | | |]; left; (split; [reflexivity|exact H]).
    - destruct xw as [ow tw], xm as [om tm]. cbn [fst snd] in *. subst ow om. right. auto.
  Qed.
  Lemma Qpost_mbind A C (w m : P A) (v k : A -> P C) s :
    Qpost (w s) (m s) -> (forall a, fst (m s) = Ret a -> Q (snd (m s)) -> Qpost (v a (snd (m s))) (k a (snd (m s)))) ->
    Qpost (mbind w v s) (mbind m k s).
  Proof. intros H K. unfold mbind. now apply Qpost_bind. Qed.
  Lemma nbm A (k : unit -> P A) s : mbind (next_line cf) k s = k tt (nextst s).
  Proof. reflexivity. Qed.
  Lemma hq_bind A C (w m : P A) (v k : A -> P C) : hq w m -> (forall a, hq (v a) (k a)) -> hq (mbind w v) (mbind m k).
  Proof. intros H K s Hs. unfold mbind. apply Qpost_bind; [apply H, Hs|]. intros a _ Hq. apply K, Hq. Qed.
  Lemma Q_keep A (m : P A) s : keep m -> Q s -> Q (snd (m s)).
  Proof. intros K (r & l & H). destruct (K s) as (E1 & _ & E3 & E4 & _). exists r, l. now rewrite E1, E3, E4. Qed.
  Lemma hq_keep A (m : P A) : keep m -> hq m m.
  Proof. intros K s H. left. split; [reflexivity|]. pose proof (Q_keep _ m s K H). destruct (fst (m s)) as [?|[]|?| |]; auto. Qed.

  Lemma nx_ok A (k : unit -> P A) s t : x_next_line mk cf s = (Ret tt, t) -> mbind (x_next_line mk cf) k s = k tt t.
  Proof. intro E. unfold mbind. now rewrite E. Qed.
  Lemma nx_throw A (k : unit -> P A) s t : x_next_line mk cf s = (io, t) -> mbind (x_next_line mk cf) k s = (io, t).
  Proof. intro E. unfold mbind. now rewrite E. Qed.
  Definition Rpost (xw xm : outcome unit * pst I) : Prop :=
    (xw = xm /\ match fst xm with Ret _ => Q (snd xm) \/ p_eof (snd xm) = true | Exn ExPo => False | _ => True end) \/
    (fst xw = io /\ fst xm = Ret tt /\ p_eof (snd xm) = true /\ alike (snd xw) (snd xm)).
  Lemma hq_recover f : forall s, Q s -> Rpost (x_recover mk cf f s) (recover cf f s).
  Proof.
    induction f as [|f IH]; intros s H; [left; split; [reflexivity|exact Logic.I]|].
    rewrite recover_S, mget_bind. cbn [x_recover].
    destruct (Q_next s H) as [(X & Hn)|(_ & He & Ha & [X|(s' & X & Ha')])].
    - rewrite (nx_ok _ _ _ _ X), mget_bind. assert (E : p_eof (nextst s) = false) by (destruct Hn as (r & l & Hn); apply Hn).
      rewrite E. unfold mbind. rewrite !is_empty_line_eq. destruct (pempty (cf_strict cf) (p_cur (nextst s))) as [[]|]; cbn [run_opt mret mfail fst snd].
      + left. split; [reflexivity|left; exact Hn].
      + apply (IH _ Hn).
      + left. split; [reflexivity|exact Logic.I].
    - rewrite (nx_ok _ _ _ _ X), mget_bind, He. left. cbn [mret fst snd]. auto.
    - rewrite (nx_throw _ _ _ _ X), He. right. cbn [mret fst snd]. auto.
  Qed.
  Lemma hq_error A m : hq (@x_error mk cf fn A m) (error cf fn m).
  Proof.
    intros s H. unfold error, x_error. rewrite !mget_bind. unfold emit. rewrite !mmod_bind.
    set (u := st_tr s _). assert (Hu : Q u) by exact H. set (n := S (S _)). clearbody u n.
    pose proof (hq_recover n u Hu) as X. unfold Rpost in X. unfold mbind.
    destruct X as [(-> & X)|(E1 & E2 & E3 & X)].
    - destruct (recover cf n u) as [[[]|[]|?| |] t]; cbn [fst snd mfail] in *; left; auto; contradiction.
    - destruct (x_recover mk cf n u) as [ow tw], (recover cf n u) as [om tm]. cbn [fst snd] in *. subst ow om. right. cbn [mfail fst snd]. auto.
  Qed.

  Ltac hk1 := intros; cbv zeta;
    lazymatch goal with
    | |- hq (mbind _ _) (mbind _ _) => apply hq_bind
    | |- hq (x_error _ _ _ _) _ => apply hq_error
    | |- hq (mret _) _ => apply hq_keep, keep_ret
    | |- hq (mfail _) _ => apply hq_keep, keep_fail; discriminate
    | |- hq (mlift _) _ => apply hq_keep, keep_pf
    | |- hq (mget _) _ => apply hq_keep, keep_get
    | |- hq (warning _ _ _) _ => apply hq_keep, keep_warning
    | |- hq (cur_at _ _) _ => apply hq_keep, keep_cur_at
    | |- hq (ctype _ _ _) _ => apply hq_keep, keep_ctype
    | |- hq (is_empty_line _) _ => apply hq_keep, keep_empty
    | |- hq (check_garbage _ _ _) _ => apply hq_keep, keep_garbage
    | |- hq (find_quote _ _ _) _ => apply hq_keep, keep_find_quote
    | |- hq (prefix _ _) _ => apply hq_keep, keep_prefix
    | |- hq (dict_add _ _) _ => apply hq_keep, keep_add
    | |- hq (is_msgstr_n _) _ => apply hq_keep, keep_msgstr_n
    | |- hq (do_convert _ _) _ => apply hq_keep, keep_convert
    | |- hq (parse_header _ _ _) _ => apply hq_keep, keep_parse_header
    | |- hq (if ?b then _ else _) (if ?b then _ else _) => destruct b
    | |- hq (match ?x with _ => _ end) (match ?x with _ => _ end) => destruct x
    end.
  Ltac hk := repeat hk1; intros.
  Lemma hq_scan g : forall i out, hq (x_scan_string mk cf fn g i out) (scan_string cf fn g i out).
  Proof. induction g as [|g IH]; intros i out; cbn [scan_string x_scan_string]; hk; apply IH. Qed.
  Lemma hq_string_line out k : hq (x_get_string_line mk cf fn out k) (get_string_line cf fn out k).
  Proof. unfold get_string_line, x_get_string_line. hk. apply hq_scan. Qed.
  Lemma hq_skip g : forall out k, hq (x_skip_to_string mk cf fn g out k) (skip_to_string cf fn g out k).
  Proof. induction g as [|g IH]; intros out k; cbn [skip_to_string x_skip_to_string]; hk; first [apply hq_string_line|apply IH]. Qed.
  Lemma string_line_dq out k s a : fst (get_string_line cf fn out k s) = Ret a -> In c_dq (p_cur (snd (get_string_line cf fn out k s))).
  Proof.
    rewrite get_string_line_eq. intro E. destruct (lex_cur _ _ _ _ _ _ E) as (-> & ws & X). exact (pline_dq _ _ _ _ _ _ _ X).
  Qed.
  Lemma skip_dq k s a : k <= length (p_cur s) ->
    fst (skip_to_string cf fn (S (length (p_cur s))) [] k s) = Ret a -> In c_dq (p_cur (snd (skip_to_string cf fn (S (length (p_cur s))) [] k s))).
  Proof.
    intro L. rewrite skip_to_string_eq by lia. intro E. destruct (lex_cur _ _ _ _ _ _ E) as (-> & ws & X). exact (pskip_dq _ _ _ _ _ _ _ _ X).
  Qed.
  Lemma hq_continuation g : forall out s, Q s -> In c_dq (p_cur s) -> Qpost (x_continuation mk cf fn g out s) (continuation cf fn g out s).
  Proof.
    induction g as [|g IH]; intros out s H D; cbn [continuation x_continuation]; [apply (hq_keep _ _ (keep_fail cf _ OutOfFuel ltac:(discriminate))), H|].
    destruct (Q_step s H) as (E & H'); [intro W; exact (white_dq _ W D)|]. rewrite (nx_ok _ _ _ _ E), nbm, !mget_bind.
    set (t := nextst s) in *. clearbody t. clear E H D s.
    apply Qpost_mbind; [apply (hq_keep _ _ (keep_find_quote cf _ _)), H'|]. intros q Eq Hq.
    destruct q as [i|]; [|apply (hq_keep _ _ (keep_ret cf _ _)), Hq].
    generalize (snd (find_quote cf 0 (p_cur t) t)), Hq. clear - IH. intros u H.
    apply Qpost_mbind.
    { destruct (_ && _); [apply (hq_keep _ _ (keep_warning cf fn _)), H|apply (hq_keep _ _ (keep_ret cf _ _)), H]. }
    intros [] _ H2. apply Qpost_mbind; [apply hq_string_line, H2|]. intros a E3 H3. apply IH; [exact H3|exact (string_line_dq _ _ _ _ E3)].
  Qed.
  Lemma hq_get_string k : hq (x_get_string mk cf fn k) (get_string cf fn k).
  Proof.
    intros s H. unfold get_string, x_get_string. rewrite !mget_bind. destruct (Nat.leb_spec (length (p_cur s)) (k + 1)); [apply hq_error, H|].
    apply Qpost_mbind; [apply (hq_keep _ _ (keep_cur_at cf _)), H|]. intros c0 _ H1.
    assert (C1 : p_cur (snd (cur_at cf k s)) = p_cur s) by apply (keep_cur_at cf k s). revert H1 C1. generalize (snd (cur_at cf k s)). intros s1 H1 C1.
    assert (K2 : keep (if byte_eqb c0 c_sp then cur_at cf (k + 1) else mret c_nul)) by (destruct (byte_eqb c0 c_sp); [apply keep_cur_at|apply keep_ret]).
    apply Qpost_mbind; [apply (hq_keep _ _ K2), H1|]. intros c1 _ H2.
    assert (C2 : p_cur (snd ((if byte_eqb c0 c_sp then cur_at cf (k + 1) else mret c_nul) s1)) = p_cur s1) by apply K2. revert H2 C2.
    generalize (snd ((if byte_eqb c0 c_sp then cur_at cf (k + 1) else mret c_nul) s1)). intros s2 H2 C2.
    destruct (byte_eqb c0 c_sp && byte_eqb c1 c_dq).
    - apply Qpost_mbind; [apply hq_string_line, H2|]. intros a E3 H3. apply hq_continuation; [exact H3|exact (string_line_dq _ _ _ _ E3)].
    - apply Qpost_mbind.
      + apply hq_bind; [hk|intros _; apply hq_skip|exact H2].
      + intros a E3 H3. apply hq_continuation; [exact H3|]. revert E3. unfold mbind.
        assert (W : forall b : bool, exists s3, (if b then warning cf fn (bs "keyword and string must be seperated by a single space") else mret tt) s2 = (Ret tt, s3) /\ p_cur s3 = p_cur s2)
          by (intros [|]; eexists; split; reflexivity).
        destruct (W (cf_pedantic cf)) as (s3 & -> & C3). rewrite <- C1, <- C2, <- C3 in *. apply skip_dq. lia.
  Qed.
  Lemma hq_comments f : forall z, hq (x_comments mk cf f z) (comments cf f z).
  Proof.
    induction f as [|f IH]; intros z s H; cbn [comments x_comments]; [apply (hq_keep _ _ (keep_fail cf _ OutOfFuel ltac:(discriminate))), H|].
    unfold prefix. rewrite !mget_bind. destruct (starts_with [c_hash] (p_cur s)) eqn:E; [|apply (hq_keep _ _ (keep_ret cf _ _)), H].
    rewrite !mget_bind. cbv zeta. rewrite nbm.
    destruct (Q_step s H) as (Z & H').
    - intro W. destruct (p_cur s) as [|c x]; [discriminate|]. apply starts_with_spec in E as [t E]. injection E as -> ->. inversion W; discriminate.
    - rewrite (nx_ok _ _ _ _ Z). apply IH, H'.
  Qed.
  Lemma hq_msgstr_loop g : forall v b, hq (x_msgstr_loop mk cf fn g v b) (msgstr_loop cf fn g v b).
  Proof. induction g as [|g IH]; intros v b; cbn [msgstr_loop x_msgstr_loop]; hk; first [apply hq_get_string|apply IH]. Qed.
  Lemma hq_plural z c i : hq (x_plural_entry mk cf fn true z c i) (plural_entry cf fn true z c i).
  Proof. unfold plural_entry, x_plural_entry. hk; first [apply hq_get_string|apply hq_msgstr_loop]. Qed.
  Lemma hq_singular z c i : hq (x_singular_entry mk cf fn true z c i) (singular_entry cf fn true z c i).
  Proof. unfold singular_entry, x_singular_entry. hk; apply hq_get_string. Qed.
  Lemma hq_entry z : hq (x_entry mk cf fn true z) (entry cf fn true z).
  Proof. unfold entry, x_entry. hk; first [apply hq_get_string|apply hq_plural|apply hq_singular]. Qed.

  (** a block: as before, or ended at the very end of its work *)
  Lemma hq_block s : Q s -> let xw := x_block mk cf fn true s in let xm := block cf fn true s in
    (xw = xm /\ match fst xm with Ret _ | Exn ExPo => Q (snd xm) \/ p_eof (snd xm) = true | _ => True end) \/
    (fst xw = io /\ (fst xm = Ret tt \/ fst xm = Exn ExPo) /\ p_eof (snd xm) = true /\ alike (snd xw) (snd xm)).
  Proof.
    intro H. cbv zeta. unfold block, x_block.
    set (Post := fun (xw xm : outcome unit * pst I) => (xw = xm /\ match fst xm with Ret _ | Exn ExPo => Q (snd xm) \/ p_eof (snd xm) = true | _ => True end) \/
      (fst xw = io /\ (fst xm = Ret tt \/ fst xm = Exn ExPo) /\ p_eof (snd xm) = true /\ alike (snd xw) (snd xm))).
    assert (PB : forall A (w m : P A) (v k : A -> P unit) s, hq w m -> Q s -> (forall a t, Q t -> Post (v a t) (k a t)) -> Post (mbind w v s) (mbind m k s)).
    { intros A w m v k t Hh Ht K. unfold mbind. destruct (Hh t Ht) as [(-> & X)|(E1 & E2 & X)].
      - destruct (m t) as [o u]. cbn [fst snd] in X. destruct o as [a|[]|u'| |]; [apply K, X| | | | | | |]; left; (split; [reflexivity|exact X]).
      - destruct (w t) as [ow tw], (m t) as [om tm]. cbn [fst snd] in *. subst ow om. right. cbn [fst snd]. auto. }
    change (Post (x_block mk cf fn true s) (block cf fn true s)). unfold block, x_block.
    apply PB; [apply hq_comments|exact H|]. intros b t1 H1. apply PB; [hk|exact H1|]. intros e t2 H2.
    apply PB; [hk; apply hq_entry|exact H2|]. intros [] t3 H3. apply PB; [hk|exact H3|]. intros e' t4 H4.
    apply PB; [hk|exact H4|]. intros [] t5 H5. rewrite next_line_eq.
    destruct (Q_next t5 H5) as [(-> & Hn)|(_ & He & _ & [-> |(s' & -> & Ha')])];
      [left; split; [reflexivity|left; exact Hn]|left; split; [reflexivity|right; exact He]|right].
    split; [reflexivity|]. split; [left; reflexivity|]. split; [exact He|exact Ha'].
  Qed.
  Definition final (xw xm : outcome unit * pst I) : Prop :=
    xw = xm \/ (fst xw = io /\ (fst xm = Ret tt \/ fst xm = OutOfFuel) /\ alike (snd xw) (snd xm)).
  Lemma hq_loop n : forall s, Q s \/ p_eof s = true -> final (x_parse_loop mk cf fn true n s) (parse_loop cf fn true n s).
  Proof.
    induction n as [|n IH]; intros s H; [left; reflexivity|]. cbn [parse_loop x_parse_loop]. rewrite !mget_bind.
    destruct (p_eof s) eqn:E; [left; reflexivity|]. destruct H as [H|H]; [|discriminate H].
    unfold mbind, try_block, x_try_block. destruct (hq_block s H) as [(-> & X)|(E1 & E2 & E3 & X)].
    - destruct (block cf fn true s) as [o t]. cbn [fst snd] in X. destruct o as [a|[]|u| |]; try (left; reflexivity); apply IH, X.
    - destruct (x_block mk cf fn true s) as [ow tw], (block cf fn true s) as [om tm]. cbn [fst snd] in *. subst ow.
      assert (Z : final (io, tw) (parse_loop cf fn true n tm)).
      { right. destruct n; cbn [parse_loop]; [|rewrite mget_bind, E3]; cbn [mfail mret fst snd]; auto. }
      destruct E2 as [-> | ->]; exact Z.
  Qed.
  Lemma hq_member s : Q s -> final (x_parse_member mk cf fn true s) (parse_member cf fn true s).
  Proof.
    intro H. unfold parse_member, x_parse_member. rewrite nbm.
    destruct (Q_next s H) as [(X & Hn)|(_ & He & Ha & [X|(s' & X & Ha')])].
    - rewrite (nx_ok _ _ _ _ X), !mmod_bind. apply hq_loop. left. destruct (starts_with bom (p_cur (nextst s))) eqn:Eb; [|exact Hn].
      destruct Hn as (r & l & R & Hl & T & Hn). exists r, l. split; [exact R|]. split; [exact Hl|]. split; [|exact Hn].
      destruct T as [(_ & W)|T]; [|right; exact T]. exfalso. apply starts_with_spec in Eb as [t Eb]. rewrite Eb in W. inversion W; discriminate.
    - rewrite (nx_ok _ _ _ _ X), !mmod_bind. apply hq_loop. right. now destruct (starts_with bom (p_cur (nextst s))).
    - rewrite (nx_throw _ _ _ _ X), mmod_bind. right. set (u := if starts_with bom (p_cur (nextst s)) then _ else _).
        assert (U : p_eof u = true /\ alike s' u) by (unfold u; now destruct (starts_with bom (p_cur (nextst s)))). clearbody u. destruct U as (U1 & U2).
        destruct (cf_fuel cf); cbn [parse_loop]; [|rewrite mget_bind, U1]; cbn [mfail mret fst snd]; auto.
  Qed.
  Lemma po_blank (i : istream) (d : dictionary) :
    Q (init_state cf i d) -> let r := po_parse cf fn i d in let r' := x_po_parse mk cf fn i d in
    pr_outcome r <> OutOfFuel ->
    r' = r \/ (io_thrown r' /\ pr_outcome r = Ret tt /\ pr_dict r' = pr_dict r /\ pr_trace r' = pr_trace r /\ pr_calls r' = pr_calls r).
  Proof.
    intro H. cbv zeta. unfold po_parse, x_po_parse, io_thrown. destruct (hq_member _ H) as [-> |(E1 & E2 & A1 & A2 & A3 & A4)]; [left; reflexivity|].
    destruct (x_parse_member mk cf fn true (init_state cf i d)) as [ow tw], (parse_member cf fn true (init_state cf i d)) as [om tm].
    cbn [fst snd pr_outcome pr_dict pr_trace pr_calls] in *. intro N. right. subst ow. destruct E2 as [-> | ->]; [|now destruct N].
    split; [reflexivity|]. split; [reflexivity|]. split; [exact A3|]. split; [|exact A1].
    change (finished (Exn (ExRuntime io_failure))) with true. change (finished (Ret tt)) with true. cbv iota. now rewrite A2, A4.
  Qed.
End Blank.
