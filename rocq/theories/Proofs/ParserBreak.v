(** Read errors: the parse of a stream that fails behind [b] against the parses of the
    files [b] and [b] without its unfinished last line. *)
From Verif.Model Require Import Base Log PluralForms Dictionary IConv Stream PoParser.
From Verif.Spec Require Import ParserSpec PoSpec ReadSpec.
From Verif.Proofs Require Import BaseFacts LexProofs ParserUnary ParserRel ParserTerm.
Local Open Scope list_scope.

(** the state with another stream and another eof flag *)
Definition st_io {I} (s : pst I) (i : istream) (e : bool) : pst I := st_line s i (p_cur s) e (p_line s).

Section Break.
  Variable cf : config.
  Variable fn : bytes.
  Local Notation I := (cf_iconv cf).
  Local Notation P := (M (pst I)).
  (** the unfinished last line *)
  Variable l : bytes.
  Hypothesis Hl : ~ In c_lf l.

  (** same effects so far *)
  Definition res (a b : pst I) : Prop :=
    p_dict a = p_dict b /\ p_conv a = p_conv b /\ p_tr a = p_tr b /\ p_calls a = p_calls b.
  Definition ended (a b : pst I) : Prop := res a b /\ p_eof a = true /\ p_eof b = true.
  (** three runs: the broken stream, the file, and the file without the unfinished line *)
  Definition G (s1 s2 s3 : pst I) : Prop := exists s r,
    (r = [] \/ exists r', r = r' ++ [c_lf]) /\
    s1 = st_io s (broken_after (r ++ l)) (p_eof s) /\ s2 = st_io s (stream_of (r ++ l)) (p_eof s) /\ s3 = st_io s (stream_of r) (p_eof s).
  (** the broken stream and the file when both are exhausted *)
  Definition B (s1 s2 : pst I) : Prop := exists s i1 i2 e,
    is_good i1 = false /\ is_good i2 = false /\ s1 = st_io s i1 true /\ s2 = st_io s i2 e.

  Definition Bpost {A} (x1 x2 : outcome A * pst I) : Prop :=
    fst x1 = fst x2 /\
    match fst x1 with
    | Ret _ => B (snd x1) (snd x2)
    | Exn ExPo => ended (snd x1) (snd x2)
    | _ => res (snd x1) (snd x2)
    end.
  Definition Gpost {A} (x1 x2 x3 : outcome A * pst I) : Prop :=
    (fst x1 = fst x2 /\ fst x1 = fst x3 /\ G (snd x1) (snd x2) (snd x3) /\ (fst x1 = Exn ExPo \/ exists a, fst x1 = Ret a)) \/
    Bpost x1 x2 \/
    (fst x1 = Exn ExPo /\ fst x3 = Exn ExPo /\ ended (snd x1) (snd x3)).
  Definition onB {A} (m : P A) : Prop := forall s1 s2, B s1 s2 -> Bpost (m s1) (m s2).
  Definition onG {A} (m : P A) : Prop := forall s1 s2 s3, G s1 s2 s3 -> Gpost (m s1) (m s2) (m s3).
  Definition bk {A} (m : P A) : Prop := onB m /\ onG m.

  Lemma bk_bind A C (m : P A) (k : A -> P C) : bk m -> (forall a, bk (k a)) -> bk (mbind m k).
  Proof.
    intros [mB mG] K.
    assert (KB : forall x1 x2, Bpost x1 x2 ->
      Bpost (match x1 with (Ret a, s) => k a s | (Exn e, s) => (Exn e, s) | (Ub u, s) => (Ub u, s) | (AssertFail, s) => (AssertFail, s) | (OutOfFuel, s) => (OutOfFuel, s) end)
            (match x2 with (Ret a, s) => k a s | (Exn e, s) => (Exn e, s) | (Ub u, s) => (Ub u, s) | (AssertFail, s) => (AssertFail, s) | (OutOfFuel, s) => (OutOfFuel, s) end)).
    { intros [o1 t1] [o2 t2] [E H]. cbn [fst snd] in *. subst o2. destruct o1 as [a|[]|u| |]; [apply (K a), H| | | | | | |]; (split; [reflexivity|exact H]). }
    split.
    - intros s1 s2 H. unfold mbind. apply KB, mB, H.
    - intros s1 s2 s3 H. specialize (mG _ _ _ H). unfold mbind.
      destruct mG as [(E2 & E3 & H' & Eo)|[H'|(E1 & E3 & H')]].
      + destruct (m s1) as [o1 t1], (m s2) as [o2 t2], (m s3) as [o3 t3]. cbn [fst snd] in *. subst o2 o3.
        destruct Eo as [->|[a ->]]; [left; cbn [fst snd]; auto|]. apply (K a), H'.
      + right; left. apply KB, H'.
      + right; right. destruct (m s1) as [o1 t1], (m s3) as [o3 t3]. cbn [fst snd] in *. subst o1 o3. auto.
  Qed.

  (** steps that do not look at the stream *)
  Definition blind {A} (m : P A) : Prop := forall s i e,
    m (st_io s i e) = (fst (m s), st_io (snd (m s)) i e) /\ fst (m s) <> Exn ExPo /\ p_eof (snd (m s)) = p_eof s.
  Lemma bk_blind A (m : P A) : blind m -> bk m.
  Proof.
    intro Hm. split.
    - intros s1 s2 (s & i1 & i2 & e & H1 & H2 & -> & ->). destruct (Hm s i1 true) as (-> & N & _). destruct (Hm s i2 e) as (-> & _).
      split; [reflexivity|]. cbn [fst snd]. destruct (m s) as [[a|[]|u| |] s']; cbn [fst snd] in *; try (repeat split; fail); [|congruence].
      exists s', i1, i2, e. auto.
    - intros s1 s2 s3 (s & r & Hr & -> & -> & ->).
      destruct (Hm s (broken_after (r ++ l)) (p_eof s)) as (-> & N & E). destruct (Hm s (stream_of (r ++ l)) (p_eof s)) as (-> & _).
      destruct (Hm s (stream_of r) (p_eof s)) as (-> & _).
      destruct (m s) as [[a|[]|u| |] s']; cbn [fst snd] in *; try (right; left; repeat split; fail); [|congruence].
      left. cbn [fst snd]. split; [reflexivity|]. split; [reflexivity|]. split; [|right; eauto]. rewrite <- E. exists s', r. auto.
  Qed.
  Ltac bl := let s := fresh in intro s; intros; repeat split; discriminate.
  Lemma bk_ret A (a : A) : bk (mret a). Proof. apply bk_blind. bl. Qed.
  Lemma bk_get A (g : pst I -> A) : (forall s i e, g (st_io s i e) = g s) -> bk (mget g).
  Proof. intro H. apply bk_blind. intros s i e. unfold mget. rewrite H. repeat split; discriminate. Qed.
  Lemma bk_fuel A : bk (@mfail _ A OutOfFuel). Proof. apply bk_blind. bl. Qed.
  Lemma bk_ub A u : bk (@mfail _ A (Ub u)). Proof. apply bk_blind. bl. Qed.
  Lemma bk_emit ev : bk (emit cf ev). Proof. apply bk_blind. bl. Qed.
  Lemma bk_warning w : bk (warning cf fn w). Proof. apply bk_blind. bl. Qed.
  Lemma bk_call c : bk (dict_call_ cf c). Proof. apply bk_blind. bl. Qed.
  Lemma bk_big5 : bk (mmod (fun s : pst I => st_big5 s true)). Proof. apply bk_blind. bl. Qed.
  Lemma bk_lift_pf b x : bk (mlift (from_string b x)).
  Proof. apply bk_blind. intros s i e. unfold mlift, from_string. destruct (_ && _); [|destruct (assoc _ _)]; repeat split; discriminate. Qed.
  Lemma bk_convert t : bk (do_convert cf t).
  Proof.
    apply bk_blind. intros s i e. split; [|split].
    - unfold do_convert. cbn [st_io st_line p_conv p_tr]. destruct (convert _ _ _) as [[o c] ev]. reflexivity.
    - apply (calm_convert cf t s).
    - unfold do_convert. destruct (convert _ _ _) as [[o c] ev]. reflexivity.
  Qed.
  Lemma bk_set a b : bk (do_set_charsets cf a b).
  Proof.
    apply bk_blind. intros s i e. split; [|split].
    - unfold do_set_charsets. cbn [st_io st_line p_conv p_tr]. destruct (set_charsets _ _ _ _) as [[o c] ev]. reflexivity.
    - apply (calm_set cf a b s).
    - unfold do_set_charsets. destruct (set_charsets _ _ _ _) as [[o c] ev]. reflexivity.
  Qed.

  (** next_line *)
  Lemma B_next s1 s2 : B s1 s2 -> B (nextst s1) (nextst s2) /\ p_eof (nextst s1) = true /\ p_eof (nextst s2) = true.
  Proof.
    intros (s & i1 & i2 & e & H1 & H2 & -> & ->). unfold nextst. cbn [st_io st_line p_in].
    rewrite (getline_bad _ _ H1), (getline_bad _ _ H2). split; [|split; reflexivity].
    eexists (st_line s (p_in s) (p_cur s) (p_eof s) (p_line s + 1)), _, _, true. split; [|split; [|split; reflexivity]]; unfold is_good; cbn [is_fail negb]; apply andb_false_r.
  Qed.
  (** a complete line, or the end in all three *)
  Lemma G_next s1 s2 s3 : G s1 s2 s3 ->
    (G (nextst s1) (nextst s2) (nextst s3) /\ p_eof (nextst s1) = p_eof s1 /\
       length (is_rest (p_in (nextst s1))) < length (is_rest (p_in s1)) /\ length (is_rest (p_in (nextst s3))) < length (is_rest (p_in s3))) \/
    (B (nextst s1) (nextst s2) /\ ended (nextst s1) (nextst s3)).
  Proof.
    intros (s & r & Hr & -> & -> & ->). destruct Hr as [->|[r' ->]].
    - right. cbn [app]. unfold nextst. cbn [st_io st_line p_in].
      assert (E1 : forall c, getline (broken_after l) c = ({| is_rest := []; is_eof := false; is_fail := true; is_break := true |}, l, false)).
      { intro c. destruct (getline_cases (broken_after l) c eq_refl) as [(_ & H & _)|[(x & r & H & _)|[(_ & _ & H & _)|(_ & _ & H)]]]; try discriminate H; [|exact H].
        exfalso. apply Hl. cbn [is_rest broken_after] in H. rewrite H. apply in_elt. }
      assert (E2 : forall c, exists f, getline (stream_of l) c = ({| is_rest := []; is_eof := true; is_fail := f; is_break := false |}, l, negb f)).
      { intro c. destruct (getline_good (stream_of l) c eq_refl eq_refl) as [(H & ->)|[(x & r & H & _)|(_ & _ & ->)]].
        - exists true. cbn [is_rest stream_of] in H. subst l. reflexivity.
        - exfalso. apply Hl. cbn [is_rest stream_of] in H. rewrite H. apply in_elt.
        - exists false. reflexivity. }
      rewrite E1. destruct (E2 (p_cur (st_io s (stream_of l) (p_eof s)))) as [f E2']. cbn [st_io st_line p_cur] in E2'. cbn [st_io st_line p_cur]. rewrite E2'.
      split; [|repeat split].
      exists (st_line s (p_in s) l (p_eof s) (p_line s + 1)). do 3 eexists. split; [|split; [|split; reflexivity]]; reflexivity.
    - left.
      assert (E : exists x q, r' ++ [c_lf] = x ++ c_lf :: q /\ ~ In c_lf x /\ (q = [] \/ exists q', q = q' ++ [c_lf])).
      { induction r' as [|c r' IH]; [exists [], []; auto|]. cbn [app]. destruct (byte_eqb c c_lf) eqn:Ec.
        - apply byte_eqb_eq in Ec. subst c. exists [], (r' ++ [c_lf]). split; [reflexivity|]. split; [auto|]. right. eauto.
        - destruct IH as (x & q & -> & Hx & Hq). exists (c :: x), q. split; [reflexivity|]. split; [|exact Hq].
          intros [->|H]; [rewrite byte_eqb_refl in Ec; discriminate|contradiction]. }
      destruct E as (x & q & -> & Hx & Hq).
      assert (T : forall y, take_line (x ++ c_lf :: y) = (x, Some y)).
      { intro y. clear - Hx. induction x as [|c x IH]; [reflexivity|]. cbn [app take_line].
        destruct (byte_eqb c c_lf) eqn:Ec; [apply byte_eqb_eq in Ec; exfalso; apply Hx; left; congruence|].
        rewrite IH by (intro H; apply Hx; right; exact H). reflexivity. }
      assert (E : forall i y c, is_good i = true -> is_rest i = x ++ c_lf :: y ->
        getline i c = ({| is_rest := y; is_eof := false; is_fail := false; is_break := is_break i |}, x, true)).
      { intros i y c Gi Ei. unfold getline. rewrite Gi, Ei. specialize (T y). destruct (x ++ c_lf :: y) eqn:Z; [destruct x; discriminate|]. rewrite T. reflexivity. }
      unfold nextst. cbn [st_io st_line p_in].
      rewrite (E (broken_after ((x ++ c_lf :: q) ++ l)) (q ++ l)), (E (stream_of ((x ++ c_lf :: q) ++ l)) (q ++ l)), (E (stream_of (x ++ c_lf :: q)) q)
        by (try reflexivity; cbn [is_rest stream_of broken_after]; now rewrite <- app_assoc).
      cbn [st_io st_line p_eof p_in is_rest stream_of broken_after]. split; [|split; [reflexivity|rewrite !app_length; cbn [length]; split; lia]].
      exists (st_line s (p_in s) x (p_eof s) (p_line s + 1)), q. auto.
  Qed.
  Lemma bk_next : bk (next_line cf).
  Proof.
    split.
    - intros s1 s2 H. rewrite !next_line_eq. split; [reflexivity|]. apply B_next, H.
    - intros s1 s2 s3 H. rewrite !next_line_eq. destruct (G_next _ _ _ H) as [[H' _]|[H' _]].
      + left. cbn [fst snd]. repeat split; eauto.
      + right. left. split; [reflexivity|exact H'].
  Qed.

  (** the recovery loop *)
  Lemma B_recover s1 s2 f1 f2 : B s1 s2 -> exists t1 t2, recover cf (S f1) s1 = (Ret tt, t1) /\ recover cf (S f2) s2 = (Ret tt, t2) /\ ended t1 t2.
  Proof.
    intro H. destruct (B_next _ _ H) as (H' & E1 & E2). exists (nextst s1), (nextst s2). rewrite !recover_S, !mget_bind, E1, E2.
    split; [reflexivity|]. split; [reflexivity|]. split; [|auto]. destruct H' as (s & i1 & i2 & e & _ & _ & -> & ->). repeat split.
  Qed.
  Lemma G_recover n : forall s1 s2 s3 f1 f2 f3, length (is_rest (p_in s1)) < n -> G s1 s2 s3 ->
    length (is_rest (p_in s1)) < f1 -> length (is_rest (p_in s1)) < f2 -> length (is_rest (p_in s3)) < f3 ->
    let x1 := recover cf f1 s1 in let x2 := recover cf f2 s2 in let x3 := recover cf f3 s3 in
    (fst x1 = fst x2 /\ fst x1 = fst x3 /\ G (snd x1) (snd x2) (snd x3) /\ fst x1 = Ret tt) \/
    (fst x1 = fst x2 /\ res (snd x1) (snd x2) /\ exists u, fst x1 = Ub u) \/
    (fst x1 = Ret tt /\ fst x3 = Ret tt /\ ended (snd x1) (snd x3)).
  Proof.
    induction n as [|n IH]; intros s1 s2 s3 f1 f2 f3 Hn H F1 F2 F3; [lia|]. cbv zeta.
    destruct f1 as [|f1]; [lia|]. destruct f2 as [|f2]; [lia|]. destruct f3 as [|f3]; [lia|].
    rewrite !recover_S, !mget_bind. destruct (G_next _ _ _ H) as [(H' & E & L1 & L3)|[_ H']].
    - assert (Q : forall a b c, G a b c -> p_eof b = p_eof a /\ p_eof c = p_eof a /\ p_cur b = p_cur a /\ p_cur c = p_cur a /\ res a b).
      { intros a b c (s & r & _ & -> & -> & ->). repeat split. }
      destruct (Q _ _ _ H') as (Q2 & Q3 & C2 & C3 & Q4). rewrite Q2, Q3. destruct (p_eof (nextst s1)).
      { left. cbn [mret fst snd]. auto. }
      unfold mbind. rewrite !is_empty_line_eq, C2, C3. destruct (pempty (cf_strict cf) (p_cur (nextst s1))) as [[]|]; cbn [run_opt mret mfail].
      + left. cbn [fst snd]. auto.
      + apply (IH _ _ _ f1 f2 f3); auto; lia.
      + right. left. cbn [fst snd]. split; [reflexivity|]. split; [exact Q4|]. eexists. reflexivity.
    - destruct H' as (R & E1 & E3). rewrite E1, E3. right. right. cbn [mret fst snd]. repeat split; auto; apply R.
  Qed.
  Lemma bk_error A m : bk (@error cf fn A m).
  Proof.
    split.
    - intros s1 s2 H. unfold error. rewrite !mget_bind. unfold emit. rewrite !mmod_bind.
      assert (H' : B (st_tr s1 (p_tr s1 ++ [EvLog (log_error (fn ++ bs ":" ++ dec_Z (p_line s1) ++ bs ": error: " ++ m ++ bs ": " ++ p_cur s1))]))
                     (st_tr s2 (p_tr s2 ++ [EvLog (log_error (fn ++ bs ":" ++ dec_Z (p_line s2) ++ bs ": error: " ++ m ++ bs ": " ++ p_cur s2))]))).
      { destruct H as (s & i1 & i2 & e & H1 & H2 & -> & ->). cbn [st_io st_line p_tr p_line p_cur].
        exists (st_tr s (p_tr s ++ [EvLog (log_error (fn ++ bs ":" ++ dec_Z (p_line s) ++ bs ": error: " ++ m ++ bs ": " ++ p_cur s))])), i1, i2, e. auto. }
      destruct (B_recover _ _ (S (length (is_rest (p_in s1)))) (S (length (is_rest (p_in s2)))) H') as (t1 & t2 & E1 & E2 & He).
      unfold mbind. rewrite E1, E2. split; [reflexivity|exact He].
    - intros s1 s2 s3 H. unfold error. rewrite !mget_bind. unfold emit. rewrite !mmod_bind.
      assert (H' : G (st_tr s1 (p_tr s1 ++ [EvLog (log_error (fn ++ bs ":" ++ dec_Z (p_line s1) ++ bs ": error: " ++ m ++ bs ": " ++ p_cur s1))]))
                     (st_tr s2 (p_tr s2 ++ [EvLog (log_error (fn ++ bs ":" ++ dec_Z (p_line s2) ++ bs ": error: " ++ m ++ bs ": " ++ p_cur s2))]))
                     (st_tr s3 (p_tr s3 ++ [EvLog (log_error (fn ++ bs ":" ++ dec_Z (p_line s3) ++ bs ": error: " ++ m ++ bs ": " ++ p_cur s3))]))
              /\ length (is_rest (p_in s2)) = length (is_rest (p_in s1))).
      { destruct H as (s & r & Hr & -> & -> & ->). cbn [st_io st_line p_tr p_line p_cur]. split; [|reflexivity].
        exists (st_tr s (p_tr s ++ [EvLog (log_error (fn ++ bs ":" ++ dec_Z (p_line s) ++ bs ": error: " ++ m ++ bs ": " ++ p_cur s))])), r. auto. }
      destruct H' as [H' L2].
      set (u1 := st_tr s1 _) in *. set (u2 := st_tr s2 _) in *. set (u3 := st_tr s3 _) in *.
      assert (X := G_recover (S (length (is_rest (p_in s1)))) u1 u2 u3 (S (S (length (is_rest (p_in s1))))) (S (S (length (is_rest (p_in s2))))) (S (S (length (is_rest (p_in s3)))))
        ltac:(subst u1; cbn [st_tr p_in]; lia) H' ltac:(subst u1; cbn [st_tr p_in]; lia) ltac:(subst u1; cbn [st_tr p_in]; lia) ltac:(subst u3; cbn [st_tr p_in]; lia)). cbv zeta in X.
      clearbody u1 u2 u3.
      unfold mbind.
      destruct (recover cf (S (S (length (is_rest (p_in s1))))) u1) as [o1 t1], (recover cf (S (S (length (is_rest (p_in s2))))) u2) as [o2 t2],
        (recover cf (S (S (length (is_rest (p_in s3))))) u3) as [o3 t3]. cbn [fst snd] in X.
      destruct X as [(E2 & E3 & H3 & Eo)|[(E2 & H3 & [u Eo])|(E1 & E3 & H3)]].
      + subst. left. cbn [mfail fst snd]. auto.
      + subst. right. left. split; [reflexivity|exact H3].
      + subst. right. right. cbn [mfail fst snd]. auto.
  Qed.

  Ltac bk1 := intros; cbv zeta;
    lazymatch goal with
    | |- bk (mbind _ _) => apply bk_bind
    | |- bk (mret _) => apply bk_ret
    | |- bk (mfail OutOfFuel) => apply bk_fuel
    | |- bk (mfail (Ub _)) => apply bk_ub
    | |- bk (mget _) => apply bk_get; reflexivity
    | |- bk (emit _ _) => apply bk_emit
    | |- bk (warning _ _ _) => apply bk_warning
    | |- bk (next_line _) => apply bk_next
    | |- bk (error _ _ _) => apply bk_error
    | |- bk (if ?b then _ else _) => destruct b
    | |- bk (match ?x with _ => _ end) => destruct x
    end.
  Ltac bk := repeat bk1; intros.

  Lemma bk_ctype A (g : byte -> A) c : bk (ctype cf g c).
  Proof. unfold ctype. bk. Qed.
  Lemma bk_cur_at i : bk (cur_at cf i).
  Proof. unfold cur_at. bk. Qed.
  Lemma bk_all_space x : bk (all_space cf x).
  Proof. induction x; cbn [all_space]; bk; [apply bk_ctype|assumption]. Qed.
  Lemma bk_empty : bk (is_empty_line cf).
  Proof. unfold is_empty_line. bk; first [apply bk_ctype|apply bk_all_space]. Qed.
  Lemma bk_scan f : forall i out, bk (scan_string cf fn f i out).
  Proof. induction f as [|f IH]; intros i out; cbn [scan_string]; bk; first [apply bk_cur_at|apply IH]. Qed.
  Lemma bk_garbage x : bk (check_garbage cf fn x).
  Proof. induction x; cbn [check_garbage]; bk; [apply bk_ctype|assumption]. Qed.
  Lemma bk_string_line out k : bk (get_string_line cf fn out k).
  Proof. unfold get_string_line. bk; first [apply bk_cur_at|apply bk_scan|apply bk_garbage]. Qed.
  Lemma bk_skip f : forall out k, bk (skip_to_string cf fn f out k).
  Proof. induction f as [|f IH]; intros out k; cbn [skip_to_string]; bk; first [apply bk_cur_at|apply bk_string_line|apply bk_ctype|apply IH]. Qed.
  Lemma bk_find_quote x : forall i, bk (find_quote cf i x).
  Proof. induction x as [|c x IH]; intro i; cbn [find_quote]; bk; first [apply bk_ctype|apply IH]. Qed.
  Lemma bk_continuation f : forall out, bk (continuation cf fn f out).
  Proof. induction f as [|f IH]; intro out; cbn [continuation]; bk; first [apply bk_find_quote|apply bk_string_line|apply IH]. Qed.
  Lemma bk_get_string k : bk (get_string cf fn k).
  Proof. unfold get_string. bk; first [apply bk_cur_at|apply bk_string_line|apply bk_skip|apply bk_continuation]. Qed.
  Lemma bk_add op : bk (dict_add cf op).
  Proof. unfold dict_add. bk. apply bk_call. Qed.
  Lemma bk_header_line x cs : bk (header_line cf fn x cs).
  Proof. unfold header_line. bk; first [apply bk_lift_pf|apply bk_call]. Qed.
  Lemma bk_header_loop h : forall acc cs, bk (header_loop cf fn h acc cs).
  Proof. induction h as [|c h IH]; intros acc cs; cbn [header_loop]; bk; first [apply bk_header_line|apply IH]. Qed.
  Lemma bk_header h : bk (parse_header cf fn h).
  Proof. unfold parse_header. bk; first [apply bk_header_loop|apply bk_big5|apply bk_set]. Qed.
  Lemma bk_prefix p : bk (prefix cf p).
  Proof. unfold prefix. bk. Qed.
  Lemma bk_comments f : forall z, bk (comments cf f z).
  Proof. induction f as [|f IH]; intro z; cbn [comments]; bk; first [apply bk_prefix|apply IH]. Qed.
  Lemma bk_msgstr_n : bk (is_msgstr_n cf).
  Proof. unfold is_msgstr_n. bk. apply bk_ctype. Qed.
  Lemma bk_msgstr_loop f : forall v z, bk (msgstr_loop cf fn f v z).
  Proof. induction f as [|f IH]; intros v z; cbn [msgstr_loop]; bk; first [apply bk_empty|apply bk_msgstr_n|apply bk_get_string|apply bk_convert|apply IH]. Qed.
  Lemma bk_plural z c i : bk (plural_entry cf fn true z c i).
  Proof. unfold plural_entry. bk; first [apply bk_get_string|apply bk_msgstr_loop|apply bk_empty|apply bk_add]. Qed.
  Lemma bk_singular z c i : bk (singular_entry cf fn true z c i).
  Proof. unfold singular_entry. bk; first [apply bk_get_string|apply bk_header|apply bk_convert|apply bk_add]. Qed.
  Lemma bk_entry z : bk (entry cf fn true z).
  Proof. unfold entry. bk; first [apply bk_prefix|apply bk_get_string|apply bk_plural|apply bk_singular]. Qed.
  Lemma bk_body : bk (block_body cf fn).
  Proof. unfold block_body. bk; first [apply bk_comments|apply bk_empty|apply bk_entry]. Qed.

  (** the main loop *)
  Definition agree {A} (x1 x2 : outcome A * pst I) : Prop := fst x1 = fst x2 /\ res (snd x1) (snd x2).
  Lemma loop_ended n a b : ended a b -> agree (parse_loop cf fn true n a) (parse_loop cf fn true n b).
  Proof. intros (R & E1 & E2). destruct n; [split; [reflexivity|exact R]|]. cbn [parse_loop]. rewrite !mget_bind, E1, E2. split; [reflexivity|exact R]. Qed.
  Lemma B_ended s1 s2 : B s1 s2 -> ended (nextst s1) (nextst s2).
  Proof. intro H. destruct (B_next _ _ H) as (H' & E1 & E2). split; [|auto]. destruct H' as (s & i1 & i2 & e & _ & _ & -> & ->). repeat split. Qed.
  Lemma G_loop n : forall s1 s2 s3, G s1 s2 s3 ->
    agree (parse_loop cf fn true n s1) (parse_loop cf fn true n s2) \/ agree (parse_loop cf fn true n s1) (parse_loop cf fn true n s3).
  Proof.
    induction n as [|n IH]; intros s1 s2 s3 H.
    { left. destruct H as (s & r & _ & -> & -> & ->). split; [reflexivity|]. repeat split. }
    cbn [parse_loop]. rewrite !mget_bind.
    assert (E : p_eof s2 = p_eof s1 /\ p_eof s3 = p_eof s1) by (destruct H as (s & r & _ & -> & -> & ->); split; reflexivity).
    destruct E as [-> ->]. destruct (p_eof s1).
    { left. destruct H as (s & r & _ & -> & -> & ->). split; [reflexivity|]. repeat split. }
    unfold mbind, try_block. rewrite !block_eq. unfold mbind at 1 2 3 4.
    destruct (proj2 bk_body s1 s2 s3 H) as [(E2 & E3 & H' & Eo)|[H'|(E1 & E3 & H')]].
    - destruct (block_body cf fn s1) as [o1 t1], (block_body cf fn s2) as [o2 t2], (block_body cf fn s3) as [o3 t3]. cbn [fst snd] in *. subst o2 o3.
      destruct Eo as [->|[a ->]]; [apply IH, H'|]. rewrite !next_line_eq. destruct (G_next _ _ _ H') as [(H2 & _)|(_ & H2)].
      + apply IH, H2.
      + right. apply loop_ended, H2.
    - left. destruct (block_body cf fn s1) as [o1 t1], (block_body cf fn s2) as [o2 t2]. destruct H' as [E H']. cbn [fst snd] in *. subst o2.
      destruct o1 as [a|[]|u| |]; try (split; [reflexivity|exact H']).
      + rewrite !next_line_eq. apply loop_ended, B_ended, H'.
      + apply loop_ended, H'.
    - right. destruct (block_body cf fn s1) as [o1 t1], (block_body cf fn s3) as [o3 t3]. cbn [fst snd] in *. subst o1 o3.
      apply loop_ended, H'.
  Qed.
  (** the optional byte order mark *)
  Definition debom (s : pst I) : pst I := if starts_with bom (p_cur s) then st_cur s (skipn 3 (p_cur s)) else s.
  Lemma G_member s1 s2 s3 : G s1 s2 s3 ->
    agree (parse_member cf fn true s1) (parse_member cf fn true s2) \/ agree (parse_member cf fn true s1) (parse_member cf fn true s3).
  Proof.
    intro H. unfold parse_member. unfold mbind at 1 3 5. rewrite !next_line_eq, !mmod_bind.
    change (agree (parse_loop cf fn true (cf_fuel cf) (debom (nextst s1))) (parse_loop cf fn true (cf_fuel cf) (debom (nextst s2))) \/
            agree (parse_loop cf fn true (cf_fuel cf) (debom (nextst s1))) (parse_loop cf fn true (cf_fuel cf) (debom (nextst s3)))).
    destruct (G_next _ _ _ H) as [(H' & _)|(_ & H')].
    - apply G_loop. destruct H' as (s & r & Hr & -> & -> & ->). unfold debom. cbn [st_io st_line p_cur]. destruct (starts_with bom (p_cur s)).
      + exists (st_cur s (skipn 3 (p_cur s))), r. auto.
      + exists s, r. auto.
    - right. apply loop_ended. destruct H' as (R & E1 & E2). unfold debom.
      destruct (starts_with bom (p_cur (nextst s1))), (starts_with bom (p_cur (nextst s3))); (split; [exact R|split; assumption]).
  Qed.
End Break.

Lemma break_po cf fn pre l d :
  complete pre -> ~ In c_lf l ->
  parses_alike (po_parse cf fn (broken_after (pre ++ l)) d) (po_parse cf fn (stream_of (pre ++ l)) d) \/
  parses_alike (po_parse cf fn (broken_after (pre ++ l)) d) (po_parse cf fn (stream_of pre) d).
Proof.
  intros Hp Hl.
  assert (A : forall i j, agree cf (parse_member cf fn true (init_state cf i d)) (parse_member cf fn true (init_state cf j d)) ->
    parses_alike (po_parse cf fn i d) (po_parse cf fn j d)).
  { intros i j. unfold po_parse. destruct (parse_member cf fn true (init_state cf i d)) as [o1 t1], (parse_member cf fn true (init_state cf j d)) as [o2 t2].
    intros [E (H1 & H2 & H3 & H4)]. cbn [fst snd] in *. subst o2. repeat split; cbn [pr_dict pr_trace pr_calls]; [exact H1|now rewrite H2, H3|exact H4]. }
  assert (H : G cf l (init_state cf (broken_after (pre ++ l)) d) (init_state cf (stream_of (pre ++ l)) d) (init_state cf (stream_of pre) d)).
  { exists (init_state cf (stream_of pre) d), pre. auto. }
  destruct (G_member cf fn l Hl _ _ _ H) as [H'|H']; [left|right]; apply A, H'.
Qed.

(** Between blocks: if the last complete line is white (or there is none), the parser
    never looks at the unfinished line. *)
Lemma white_dq c : white c -> ~ In c_dq c.
Proof. intros W H. apply (proj1 (Forall_forall _ _) W) in H. discriminate H. Qed.
Lemma pline_dq strict b5 out k cur ws a : pline strict b5 out k cur = LOk ws a -> In c_dq cur.
Proof.
  unfold pline. destruct (Nat.leb_spec (length cur) (k + 1)); [discriminate|]. destruct (byte_eqb (nth k cur c_nul) c_dq) eqn:E; [|discriminate].
  intros _. apply byte_eqb_eq in E. rewrite <- E. apply nth_In. lia.
Qed.
Lemma pskip_dq strict b5 cur out x : forall k ws a, pskip strict b5 cur out k x = LOk ws a -> In c_dq cur.
Proof.
  induction x as [|c x IH]; intros k ws a; cbn [pskip]; [discriminate|]. destruct (byte_eqb c c_dq); [apply pline_dq|].
  destruct (pctype strict isspace c) as [[]|]; [apply IH|discriminate|discriminate].
Qed.
Lemma pfirst_dq strict ped b5 k cur ws a : pfirst strict ped b5 k cur = LOk ws a -> In c_dq cur.
Proof.
  unfold pfirst. destruct (_ <=? _); [discriminate|]. destruct (_ && _); [apply pline_dq|]. cbv zeta.
  destruct (pskip _ _ _ _ _ _) eqn:E; destruct ped; cbn [lwarn]; try discriminate; intros _; exact (pskip_dq _ _ _ _ _ _ _ _ E).
Qed.
Lemma pquote_dq strict x : forall i j, pquote strict i x = Some (Some j) -> In c_dq x.
Proof.
  induction x as [|c x IH]; intros i j; cbn [pquote]; [discriminate|]. destruct (byte_eqb c c_dq) eqn:E; [apply byte_eqb_eq in E; left; exact E|].
  destruct (pctype strict isspace c) as [[]|]; [|discriminate|discriminate]. intro H. right. exact (IH _ _ H).
Qed.
Lemma warned_all_cur cf fn ws : forall s, p_cur (warned_all cf fn ws s) = p_cur s.
Proof. induction ws as [|w ws IH]; intro s; cbn [warned_all]; [reflexivity|]. rewrite IH. reflexivity. Qed.
Lemma white_pempty strict c : white c -> pempty strict c = Some true.
Proof.
  intro W. assert (A : forall x, white x -> pall_space strict x = Some true).
  { induction 1 as [|y x Hy _ IH]; [reflexivity|]. cbn [pall_space]. unfold pctype.
    assert (h : hi y = false) by (destruct (hi y) eqn:h; [|reflexivity]; exfalso; unfold hi, isspace in *;
      apply N.leb_le in h; apply orb_prop in Hy as [Hy|Hy]; [apply N.eqb_eq in Hy; lia|apply andb_prop in Hy as [_ Hy]; apply N.leb_le in Hy; lia]).
    rewrite h, andb_false_r, Hy. exact IH. }
  unfold pempty. destruct c as [|y c]; [reflexivity|]. destruct (byte_eqb y c_hash) eqn:E; [|apply A, W].
  apply byte_eqb_eq in E. subst y. inversion W; discriminate.
Qed.

Section Between.
  Variable cf : config.
  Variable fn : bytes.
  Local Notation I := (cf_iconv cf).
  Local Notation P := (M (pst I)).
  Variable l : bytes.
  Hypothesis Hl : ~ In c_lf l.

  (** what is left of the file, given the current line *)
  Definition tail_ok (r cur : bytes) : Prop :=
    (r = [] /\ white cur) \/ exists p w, r = p ++ w ++ [c_lf] /\ complete p /\ white w /\ ~ In c_lf w.
  Definition H2 (s1 s3 : pst I) : Prop := exists s r,
    tail_ok r (p_cur s) /\ s1 = st_io s (broken_after (r ++ l)) (p_eof s) /\ s3 = st_io s (stream_of r) (p_eof s).
  Definition Hpost {A} (x1 x3 : outcome A * pst I) : Prop :=
    fst x1 = fst x3 /\
    match fst x1 with
    | Ret _ => H2 (snd x1) (snd x3)
    | Exn ExPo => H2 (snd x1) (snd x3) \/ ended cf (snd x1) (snd x3)
    | _ => res cf (snd x1) (snd x3)
    end.
  Definition hk {A} (m : P A) : Prop := forall s1 s3, H2 s1 s3 -> Hpost (m s1) (m s3).

  Lemma Hpost_bind A C (x1 x3 : outcome A * pst I) (k : A -> P C) :
    Hpost x1 x3 -> (forall a, fst x1 = Ret a -> Hpost (k a (snd x1)) (k a (snd x3))) ->
    Hpost (match x1 with (Ret a, s) => k a s | (Exn e, s) => (Exn e, s) | (Ub u, s) => (Ub u, s) | (AssertFail, s) => (AssertFail, s) | (OutOfFuel, s) => (OutOfFuel, s) end)
          (match x3 with (Ret a, s) => k a s | (Exn e, s) => (Exn e, s) | (Ub u, s) => (Ub u, s) | (AssertFail, s) => (AssertFail, s) | (OutOfFuel, s) => (OutOfFuel, s) end).
  Proof.
    destruct x1 as [o1 t1], x3 as [o3 t3]. intros [E H] K. cbn [fst snd] in *. subst o3.
    destruct o1 as [a|[]|u| |]; [apply K; reflexivity| | | | | | |]; (split; [reflexivity|exact H]).
  Qed.
  Lemma hk_bind A C (m : P A) (k : A -> P C) : hk m -> (forall a, hk (k a)) -> hk (mbind m k).
  Proof.
    intros Hm K s1 s3 H. unfold mbind. apply Hpost_bind; [apply Hm, H|]. intros a E. specialize (Hm _ _ H). destruct Hm as [_ Hm]. rewrite E in Hm. apply K, Hm.
  Qed.
  Definition blind2 {A} (m : P A) : Prop := blind cf m /\ forall s, p_cur (snd (m s)) = p_cur s.
  Lemma hk_blind A (m : P A) : blind2 m -> hk m.
  Proof.
    intros [Hm Hc] s1 s3 (s & r & Hr & -> & ->).
    destruct (Hm s (broken_after (r ++ l)) (p_eof s)) as (-> & N & E). destruct (Hm s (stream_of r) (p_eof s)) as (-> & _).
    split; [reflexivity|]. specialize (Hc s). destruct (m s) as [[a|[]|u| |] s']; cbn [fst snd] in *; try (repeat split; fail); [|congruence].
    rewrite <- E. exists s', r. rewrite Hc. auto.
  Qed.
  Ltac bl := split; [let s := fresh in intro s; intros; repeat split; discriminate|intro; reflexivity].
  Lemma hk_ret A (a : A) : hk (mret a). Proof. apply hk_blind. bl. Qed.
  Lemma hk_get A (g : pst I -> A) : (forall s i e, g (st_io s i e) = g s) -> hk (mget g).
  Proof. intro H. apply hk_blind. split; [|intro; reflexivity]. intros s i e. unfold mget. rewrite H. repeat split; discriminate. Qed.
  Lemma hk_fuel A : hk (@mfail _ A OutOfFuel). Proof. apply hk_blind. bl. Qed.
  Lemma hk_ub A u : hk (@mfail _ A (Ub u)). Proof. apply hk_blind. bl. Qed.
  Lemma hk_emit ev : hk (emit cf ev). Proof. apply hk_blind. bl. Qed.
  Lemma hk_warning w : hk (warning cf fn w). Proof. apply hk_blind. bl. Qed.
  Lemma hk_call c : hk (dict_call_ cf c). Proof. apply hk_blind. bl. Qed.
  Lemma hk_big5 : hk (mmod (fun s : pst I => st_big5 s true)). Proof. apply hk_blind. bl. Qed.
  Lemma hk_lift_pf b x : hk (mlift (from_string b x)).
  Proof. apply hk_blind. split; [|intro; reflexivity]. intros s i e. unfold mlift, from_string. destruct (_ && _); [|destruct (assoc _ _)]; repeat split; discriminate. Qed.
  Lemma hk_convert t : hk (do_convert cf t).
  Proof.
    apply hk_blind. split; [|intro s; unfold do_convert; destruct (convert _ _ _) as [[o c] ev]; reflexivity]. intros s i e. split; [|split].
    - unfold do_convert. cbn [st_io st_line p_conv p_tr]. destruct (convert _ _ _) as [[o c] ev]. reflexivity.
    - apply (calm_convert cf t s).
    - unfold do_convert. destruct (convert _ _ _) as [[o c] ev]. reflexivity.
  Qed.
  Lemma hk_set a b : hk (do_set_charsets cf a b).
  Proof.
    apply hk_blind. split; [|intro s; unfold do_set_charsets; destruct (set_charsets _ _ _ _) as [[o c] ev]; reflexivity]. intros s i e. split; [|split].
    - unfold do_set_charsets. cbn [st_io st_line p_conv p_tr]. destruct (set_charsets _ _ _ _) as [[o c] ev]. reflexivity.
    - apply (calm_set cf a b s).
    - unfold do_set_charsets. destruct (set_charsets _ _ _ _) as [[o c] ev]. reflexivity.
  Qed.

  Lemma H2_same s1 s3 : H2 s1 s3 -> p_eof s3 = p_eof s1 /\ p_cur s3 = p_cur s1 /\ p_big5 s3 = p_big5 s1 /\ res cf s1 s3.
  Proof. intros (s & r & _ & -> & ->). repeat split. Qed.
  (** a complete line, or, behind a white line only, the end *)
  Lemma H2_next s1 s3 : H2 s1 s3 ->
    (H2 (nextst s1) (nextst s3) /\ length (is_rest (p_in (nextst s1))) < length (is_rest (p_in s1)) /\ length (is_rest (p_in (nextst s3))) < length (is_rest (p_in s3))) \/
    (white (p_cur s1) /\ ended cf (nextst s1) (nextst s3)).
  Proof.
    intros (s & r & Hr & -> & ->). destruct Hr as [[-> W]|(p & w & -> & Hp & Hw & Hw')].
    - right. split; [exact W|].
      destruct (G_next cf l Hl (st_io s (broken_after ([] ++ l)) (p_eof s)) (st_io s (stream_of ([] ++ l)) (p_eof s)) (st_io s (stream_of []) (p_eof s))) as [(_ & _ & _ & H)|[_ H]].
      + exists s, []. auto.
      + cbn [st_io st_line p_in is_rest stream_of length] in H. lia.
      + exact H.
    - left.
      assert (T : forall x q, ~ In c_lf x ->
        nextst (st_io s (broken_after (x ++ c_lf :: q)) (p_eof s)) = st_io (st_line s (p_in s) x (p_eof s) (p_line s + 1)) (broken_after q) (p_eof s) /\
        nextst (st_io s (stream_of (x ++ c_lf :: q)) (p_eof s)) = st_io (st_line s (p_in s) x (p_eof s) (p_line s + 1)) (stream_of q) (p_eof s)).
      { intros x q Hx.
        assert (T : take_line (x ++ c_lf :: q) = (x, Some q)).
        { clear - Hx. induction x as [|c x IH]; [reflexivity|]. cbn [app take_line].
          destruct (byte_eqb c c_lf) eqn:Ec; [apply byte_eqb_eq in Ec; exfalso; apply Hx; left; congruence|].
          rewrite IH by (intro H; apply Hx; right; exact H). reflexivity. }
        unfold nextst. cbn [st_io st_line p_in p_cur]. unfold getline. cbn [is_good is_eof is_fail is_break is_rest broken_after stream_of negb andb].
        destruct (x ++ c_lf :: q) eqn:Z; [destruct x; discriminate|]. rewrite T. split; reflexivity. }
      assert (F : forall y, complete y -> y = [] \/ exists x q, y = x ++ c_lf :: q /\ ~ In c_lf x /\ complete q).
      { intros y [->|[y' ->]]; [left; reflexivity|right]. induction y' as [|c y' IH]; [exists [], []; split; [reflexivity|]; split; [auto|left; reflexivity]|].
        cbn [app]. destruct (byte_eqb c c_lf) eqn:Ec.
        - apply byte_eqb_eq in Ec. subst c. exists [], (y' ++ [c_lf]). split; [reflexivity|]. split; [auto|]. right. eauto.
        - destruct IH as (x & q & -> & Hx & Hq). exists (c :: x), q. split; [reflexivity|]. split; [|exact Hq].
          intros [->|H]; [rewrite byte_eqb_refl in Ec; discriminate|contradiction]. }
      destruct (F p Hp) as [->|(x & q & -> & Hx & Hq)].
      + cbn [app]. replace ((w ++ [c_lf]) ++ l) with (w ++ c_lf :: l) by now rewrite <- app_assoc.
        destruct (T w l Hw') as [-> _]. change (w ++ [c_lf]) with (w ++ c_lf :: []). destruct (T w [] Hw') as [_ ->].
        split; [|cbn [st_io st_line p_in is_rest stream_of broken_after]; rewrite !app_length; cbn [length]; split; lia].
        exists (st_line s (p_in s) w (p_eof s) (p_line s + 1)), []. split; [left; split; [reflexivity|exact Hw]|]. split; reflexivity.
      + replace (((x ++ c_lf :: q) ++ w ++ [c_lf]) ++ l) with (x ++ c_lf :: ((q ++ w ++ [c_lf]) ++ l)) by (rewrite <- !app_assoc; reflexivity).
        replace ((x ++ c_lf :: q) ++ w ++ [c_lf]) with (x ++ c_lf :: (q ++ w ++ [c_lf])) by (rewrite <- !app_assoc; reflexivity).
        destruct (T x ((q ++ w ++ [c_lf]) ++ l) Hx) as [-> _]. destruct (T x (q ++ w ++ [c_lf]) Hx) as [_ ->].
        split; [|cbn [st_io st_line p_in is_rest stream_of broken_after]; repeat (rewrite app_length; cbn [length]); split; blia].
        exists (st_line s (p_in s) x (p_eof s) (p_line s + 1)), (q ++ w ++ [c_lf]). split; [right; exists q, w; auto|]. split; reflexivity.
  Qed.
  (** next_line while the current line is not white *)
  Lemma H2_step s1 s3 : H2 s1 s3 -> ~ white (p_cur s1) -> H2 (nextst s1) (nextst s3).
  Proof. intros H N. destruct (H2_next _ _ H) as [[H' _]|[W _]]; [exact H'|contradiction]. Qed.

  Lemma H2_recover n : forall s1 s3 f1 f3, length (is_rest (p_in s1)) < n -> H2 s1 s3 ->
    length (is_rest (p_in s1)) < f1 -> length (is_rest (p_in s3)) < f3 ->
    let x1 := recover cf f1 s1 in let x3 := recover cf f3 s3 in
    fst x1 = fst x3 /\
    match fst x1 with Ret _ => H2 (snd x1) (snd x3) \/ ended cf (snd x1) (snd x3) | Ub _ => res cf (snd x1) (snd x3) | _ => False end.
  Proof.
    induction n as [|n IH]; intros s1 s3 f1 f3 Hn H F1 F3; [lia|]. cbv zeta.
    destruct f1 as [|f1]; [lia|]. destruct f3 as [|f3]; [lia|].
    rewrite !recover_S, !mget_bind. destruct (H2_next _ _ H) as [(H' & L1 & L3)|[_ H']].
    - destruct (H2_same _ _ H') as (Q3 & C3 & _ & Q4). rewrite Q3. destruct (p_eof (nextst s1)).
      { cbn [mret fst snd]. split; [reflexivity|left; exact H']. }
      unfold mbind. rewrite !is_empty_line_eq, C3. destruct (pempty (cf_strict cf) (p_cur (nextst s1))) as [[]|]; cbn [run_opt mret mfail].
      + cbn [fst snd]. split; [reflexivity|]. first [left; exact H'|exact Q4].
      + apply (IH _ _ f1 f3); auto; lia.
      + cbn [fst snd]. split; [reflexivity|]. first [left; exact H'|exact Q4].
    - destruct H' as (R & E1 & E3). rewrite E1, E3. cbn [mret fst snd]. split; [reflexivity|]. right. split; auto.
  Qed.
  Lemma hk_error A m : hk (@error cf fn A m).
  Proof.
    intros s1 s3 H. unfold error. rewrite !mget_bind. unfold emit. rewrite !mmod_bind.
    assert (H' : H2 (st_tr s1 (p_tr s1 ++ [EvLog (log_error (fn ++ bs ":" ++ dec_Z (p_line s1) ++ bs ": error: " ++ m ++ bs ": " ++ p_cur s1))]))
                    (st_tr s3 (p_tr s3 ++ [EvLog (log_error (fn ++ bs ":" ++ dec_Z (p_line s3) ++ bs ": error: " ++ m ++ bs ": " ++ p_cur s3))]))).
    { destruct H as (s & r & Hr & -> & ->). cbn [st_io st_line p_tr p_line p_cur].
      exists (st_tr s (p_tr s ++ [EvLog (log_error (fn ++ bs ":" ++ dec_Z (p_line s) ++ bs ": error: " ++ m ++ bs ": " ++ p_cur s))])), r. auto. }
    set (u1 := st_tr s1 _) in *. set (u3 := st_tr s3 _) in *.
    assert (X := H2_recover (S (length (is_rest (p_in s1)))) u1 u3 (S (S (length (is_rest (p_in s1))))) (S (S (length (is_rest (p_in s3)))))
      ltac:(subst u1; cbn [st_tr p_in]; lia) H' ltac:(subst u1; cbn [st_tr p_in]; lia) ltac:(subst u3; cbn [st_tr p_in]; lia)). cbv zeta in X.
    clearbody u1 u3. unfold mbind.
    destruct (recover cf (S (S (length (is_rest (p_in s1))))) u1) as [o1 t1], (recover cf (S (S (length (is_rest (p_in s3))))) u3) as [o3 t3]. cbn [fst snd] in X.
    destruct X as [<- X]. destruct o1 as [a|[]|u| |]; try contradiction; (split; [reflexivity|exact X]).
  Qed.

  Ltac hk1 := intros; cbv zeta;
    lazymatch goal with
    | |- hk (mbind _ _) => apply hk_bind
    | |- hk (mret _) => apply hk_ret
    | |- hk (mfail OutOfFuel) => apply hk_fuel
    | |- hk (mfail (Ub _)) => apply hk_ub
    | |- hk (mget _) => apply hk_get; reflexivity
    | |- hk (emit _ _) => apply hk_emit
    | |- hk (warning _ _ _) => apply hk_warning
    | |- hk (error _ _ _) => apply hk_error
    | |- hk (if ?b then _ else _) => destruct b
    | |- hk (match ?x with _ => _ end) => destruct x
    end.
  Ltac hk := repeat hk1; intros.

  Lemma hk_ctype A (g : byte -> A) c : hk (ctype cf g c).
  Proof. unfold ctype. hk. Qed.
  Lemma hk_all_space x : hk (all_space cf x).
  Proof. induction x; cbn [all_space]; hk; [apply hk_ctype|assumption]. Qed.
  Lemma hk_empty : hk (is_empty_line cf).
  Proof. unfold is_empty_line. hk; first [apply hk_ctype|apply hk_all_space]. Qed.
  Lemma hk_find_quote x : forall i, hk (find_quote cf i x).
  Proof. induction x as [|c x IH]; intro i; cbn [find_quote]; hk; first [apply hk_ctype|apply IH]. Qed.
  Lemma hk_lex A (r : lexres A) : hk (run_lex cf fn r).
  Proof.
    assert (W : forall ws, hk (warns cf fn ws)) by (induction ws as [|w ws IH]; [exact (hk_ret _ tt)|exact (hk_bind _ _ _ _ (hk_warning w) (fun _ => IH))]).
    destruct r as [ws a|ws m|ws]; refine (hk_bind _ _ _ _ (W ws) (fun _ => _)); [apply hk_ret|apply hk_error|apply hk_ub].
  Qed.
  Lemma lex_cur A (r : lexres A) s a : fst (run_lex cf fn r s) = Ret a -> p_cur (snd (run_lex cf fn r s)) = p_cur s /\ exists ws, r = LOk ws a.
  Proof.
    rewrite run_lex_eq. destruct r as [ws x|ws m|ws]; cbn [fst snd].
    - intro H. injection H as ->. split; [apply warned_all_cur|eauto].
    - intro H. exfalso. unfold error in H. rewrite mget_bind in H. unfold emit in H. rewrite mmod_bind in H. unfold mbind in H.
      destruct (recover _ _ _) as [[?|?|?| |] ?]; discriminate H.
    - discriminate.
  Qed.
  Lemma nb A (k : unit -> P A) s : mbind (next_line cf) k s = k tt (nextst s).
  Proof. reflexivity. Qed.
  Lemma qb A i x (k : option nat -> P A) s :
    mbind (find_quote cf i x) k s = match pquote (cf_strict cf) i x with Some q => k q s | None => (Ub UbCtype, s) end.
  Proof. unfold mbind. rewrite find_quote_eq. destruct (pquote _ _ _); reflexivity. Qed.
  Lemma hk_continuation f : forall out s1 s3, H2 s1 s3 -> In c_dq (p_cur s1) -> Hpost (continuation cf fn f out s1) (continuation cf fn f out s3).
  Proof.
    induction f as [|f IH]; intros out s1 s3 H D; cbn [continuation]; [apply hk_fuel, H|].
    rewrite !nb, !mget_bind.
    assert (N : ~ white (p_cur s1)) by (intro W; exact (white_dq _ W D)).
    pose proof (H2_step _ _ H N) as H'. clear H D N.
    destruct (H2_same _ _ H') as (_ & -> & _ & _). set (t1 := nextst s1) in *. set (t3 := nextst s3) in *. clearbody t1 t3.
    rewrite !qb. destruct (pquote (cf_strict cf) 0 (p_cur t1)) as [[i|]|] eqn:Q.
    2: exact (hk_ret _ out _ _ H'). 2: exact (hk_ub _ UbCtype _ _ H').
    refine (Hpost_bind _ _ _ _ _ _ _).
    { destruct (_ && _); [apply hk_warning, H'|apply hk_ret, H']. }
    intros [] _.
    assert (H2' : H2 (snd ((if (i =? 1) && cf_pedantic cf then warning cf fn (bs "leading whitespace before string") else mret tt) t1))
                     (snd ((if (i =? 1) && cf_pedantic cf then warning cf fn (bs "leading whitespace before string") else mret tt) t3))).
    { destruct (_ && _); [exact (proj2 (hk_warning _ _ _ H'))|exact H']. }
    assert (D' : In c_dq (p_cur (snd ((if (i =? 1) && cf_pedantic cf then warning cf fn (bs "leading whitespace before string") else mret tt) t1)))).
    { apply pquote_dq in Q. destruct (_ && _); exact Q. }
    revert H2' D'. generalize (snd ((if (i =? 1) && cf_pedantic cf then warning cf fn (bs "leading whitespace before string") else mret tt) t1)).
    generalize (snd ((if (i =? 1) && cf_pedantic cf then warning cf fn (bs "leading whitespace before string") else mret tt) t3)).
    intros u3 u1 HU D. unfold mbind. rewrite !get_string_line_eq. destruct (H2_same _ _ HU) as (_ & -> & -> & _).
    pose proof (hk_lex _ (pline (cf_strict cf) (p_big5 u1) out i (p_cur u1)) _ _ HU) as L. apply Hpost_bind; [exact L|].
    intros a E. destruct L as [_ L]. rewrite E in L. apply IH; [exact L|]. rewrite (proj1 (lex_cur _ _ _ _ E)). exact D.
  Qed.
  Lemma hk_get_string k : hk (get_string cf fn k).
  Proof.
    intros s1 s3 H. rewrite !get_string_eq. destruct (H2_same _ _ H) as (_ & -> & -> & _). unfold mbind.
    pose proof (hk_lex _ (pfirst (cf_strict cf) (cf_pedantic cf) (p_big5 s1) k (p_cur s1)) _ _ H) as L. apply Hpost_bind; [exact L|].
    intros a E. destruct L as [_ L]. rewrite E in L. apply hk_continuation; [exact L|].
    destruct (lex_cur _ _ _ _ E) as [-> [ws X]]. exact (pfirst_dq _ _ _ _ _ _ _ X).
  Qed.
  Lemma hk_add op : hk (dict_add cf op).
  Proof. unfold dict_add. hk. apply hk_call. Qed.
  Lemma hk_header_line x cs : hk (header_line cf fn x cs).
  Proof. unfold header_line. hk; first [apply hk_lift_pf|apply hk_call]. Qed.
  Lemma hk_header_loop h : forall acc cs, hk (header_loop cf fn h acc cs).
  Proof. induction h as [|c h IH]; intros acc cs; cbn [header_loop]; hk; first [apply hk_header_line|apply IH]. Qed.
  Lemma hk_header h : hk (parse_header cf fn h).
  Proof. unfold parse_header. hk; first [apply hk_header_loop|apply hk_big5|apply hk_set]. Qed.
  Lemma hk_prefix p : hk (prefix cf p).
  Proof. unfold prefix. hk. Qed.
  Lemma hk_comments f : forall z, hk (comments cf f z).
  Proof.
    induction f as [|f IH]; intros z s1 s3 H; cbn [comments]; [apply hk_fuel, H|]. unfold prefix. rewrite !mget_bind.
    destruct (H2_same _ _ H) as (_ & -> & _). destruct (starts_with [c_hash] (p_cur s1)) eqn:E; [|apply hk_ret, H].
    rewrite !mget_bind. destruct (H2_same _ _ H) as (_ & -> & _). cbv zeta. unfold mbind. rewrite !next_line_eq. apply IH, H2_step; [exact H|].
    intro W. destruct (p_cur s1) as [|c x]; [discriminate|]. apply starts_with_spec in E as [t E]. injection E as -> ->. inversion W; discriminate.
  Qed.
  Lemma hk_msgstr_n : hk (is_msgstr_n cf).
  Proof. unfold is_msgstr_n. hk. apply hk_ctype. Qed.
  Lemma hk_msgstr_loop f : forall v z, hk (msgstr_loop cf fn f v z).
  Proof. induction f as [|f IH]; intros v z; cbn [msgstr_loop]; hk; first [apply hk_empty|apply hk_msgstr_n|apply hk_get_string|apply hk_convert|apply IH]. Qed.
  Lemma hk_plural z c i : hk (plural_entry cf fn true z c i).
  Proof. unfold plural_entry. hk; first [apply hk_get_string|apply hk_msgstr_loop|apply hk_empty|apply hk_add]. Qed.
  Lemma hk_singular z c i : hk (singular_entry cf fn true z c i).
  Proof. unfold singular_entry. hk; first [apply hk_get_string|apply hk_header|apply hk_convert|apply hk_add]. Qed.
  Lemma hk_entry z : hk (entry cf fn true z).
  Proof. unfold entry. hk; first [apply hk_prefix|apply hk_get_string|apply hk_plural|apply hk_singular]. Qed.
  Lemma hk_body : hk (block_body cf fn).
  Proof. unfold block_body. hk; first [apply hk_comments|apply hk_empty|apply hk_entry]. Qed.

  Lemma H2_loop n : forall s1 s3, H2 s1 s3 -> agree cf (parse_loop cf fn true n s1) (parse_loop cf fn true n s3).
  Proof.
    induction n as [|n IH]; intros s1 s3 H; destruct (H2_same _ _ H) as (E & _ & _ & R); [split; [reflexivity|exact R]|].
    cbn [parse_loop]. rewrite !mget_bind, E. destruct (p_eof s1); [split; [reflexivity|exact R]|].
    unfold mbind, try_block. rewrite !block_eq. unfold mbind at 1 2.
    destruct (hk_body s1 s3 H) as [E' H']. destruct (block_body cf fn s1) as [o1 t1], (block_body cf fn s3) as [o3 t3]. cbn [fst snd] in *. subst o3.
    destruct o1 as [a|[]|u| |]; try (split; [reflexivity|exact H']).
    - rewrite !next_line_eq. destruct (H2_next _ _ H') as [[H3 _]|[_ H3]]; [apply IH, H3|apply loop_ended, H3].
    - destruct H' as [H'|H']; [apply IH, H'|apply loop_ended, H'].
  Qed.
  Lemma H2_member s1 s3 : H2 s1 s3 -> agree cf (parse_member cf fn true s1) (parse_member cf fn true s3).
  Proof.
    intro H. unfold parse_member. unfold mbind at 1 3. rewrite !next_line_eq, !mmod_bind.
    change (agree cf (parse_loop cf fn true (cf_fuel cf) (debom cf (nextst s1))) (parse_loop cf fn true (cf_fuel cf) (debom cf (nextst s3)))).
    destruct (H2_next _ _ H) as [(H' & _)|(_ & H')].
    - apply H2_loop. destruct H' as (s & r & Hr & -> & ->). unfold debom. cbn [st_io st_line p_cur]. destruct (starts_with bom (p_cur s)) eqn:E.
      + exists (st_cur s (skipn 3 (p_cur s))), r. split; [|auto]. destruct Hr as [[-> W]|Hr]; [|right; exact Hr].
        exfalso. apply starts_with_spec in E as [t E]. rewrite E in W. inversion W; discriminate.
      + exists s, r. auto.
    - apply loop_ended. destruct H' as (R & E1 & E2). unfold debom.
      destruct (starts_with bom (p_cur (nextst s1))), (starts_with bom (p_cur (nextst s3))); (split; [exact R|split; assumption]).
  Qed.
End Between.

Lemma break_between cf fn pre l d :
  between_blocks pre -> ~ In c_lf l ->
  parses_alike (po_parse cf fn (broken_after (pre ++ l)) d) (po_parse cf fn (stream_of pre) d).
Proof.
  intros Hp Hl.
  assert (H : H2 cf l (init_state cf (broken_after (pre ++ l)) d) (init_state cf (stream_of pre) d)).
  { exists (init_state cf (stream_of pre) d), pre. split; [|auto]. destruct Hp as [->|Hp]; [left; split; [reflexivity|constructor]|right; exact Hp]. }
  pose proof (H2_member cf fn l Hl _ _ H) as A. unfold po_parse.
  destruct (parse_member cf fn true (init_state cf (broken_after (pre ++ l)) d)) as [o1 t1], (parse_member cf fn true (init_state cf (stream_of pre) d)) as [o2 t2].
  destruct A as [E (A1 & A2 & A3 & A4)]. cbn [fst snd] in *. subst o2. repeat split; cbn [pr_dict pr_trace pr_calls]; [exact A1|now rewrite A2, A3|exact A4].
Qed.
