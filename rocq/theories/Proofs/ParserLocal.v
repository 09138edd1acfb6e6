(** Two runs on the same input prefix: independence from dictionary contents,
    pedantic mode, file name and fuel; behaviour on cut input. *)
From Verif.Model Require Import Base Log PluralForms Dictionary IConv Stream PoParser.
From Verif.Spec Require Import ParserSpec.
From Verif.Proofs Require Import BaseFacts LexProofs ParserUnary ParserRel ParserSafe.
Local Open Scope list_scope.

Lemma lsim_refl A (r : lexres A) : lsim r r.
Proof. destruct r; simpl; auto. Qed.

Lemma lsim_lwarn_l A w (r1 r2 : lexres A) : lsim r1 r2 -> lsim (lwarn w r1) r2.
Proof. destruct r1, r2; simpl; auto. Qed.
Lemma lsim_lwarn_r A w (r1 r2 : lexres A) : lsim r1 r2 -> lsim r1 (lwarn w r2).
Proof. destruct r1, r2; simpl; auto. Qed.

Lemma pfirst_pedantic strict pd1 pd2 b5 skip a : lsim (pfirst strict pd1 b5 skip a) (pfirst strict pd2 b5 skip a).
Proof.
  unfold pfirst. destruct (_ <=? _); [apply lsim_refl|]. destruct (_ && _); [apply lsim_refl|].
  destruct pd1, pd2; try apply lsim_refl; [apply lsim_lwarn_l|apply lsim_lwarn_r]; apply lsim_refl.
Qed.


Lemma complete_tail l r : complete (l ++ c_lf :: r) -> complete r.
Proof.
  intros [H|[b' H]]; [destruct l; discriminate|].
  destruct r as [|x r] using rev_ind; [left; reflexivity|].
  right. rewrite app_comm_cons, app_assoc in H. apply app_inj_tail in H as [_ ->]. eauto.
Qed.
Lemma complete_no_lf b : complete b -> ~ In c_lf b -> b = [].
Proof. intros [H|[b' ->]] N; [exact H|]. exfalso. apply N, in_or_app. right; left; reflexivity. Qed.

Section Local.
  Variable I : iconv_impl.
  Variables strict nd pd1 pd2 : bool.
  Variables f1 f2 : nat.
  Variables fn1 fn2 : bytes.
  Hypothesis Hf : f1 <= f2.
  Variable tl : bytes.
  Variables c1 c2 : list dict_call.
  Variable dl : Z.

  Definition Rloc (s1 s2 : pst I) : Prop :=
    p_cur s1 = p_cur s2 /\ p_eof s1 = p_eof s2 /\ p_big5 s1 = p_big5 s2 /\ cv_eqv (p_conv s1) (p_conv s2) /\
    d_charset (p_dict s1) = d_charset (p_dict s2) /\ p_line s2 = (p_line s1 + dl)%Z /\
    (exists k, p_calls s1 = c1 ++ k /\ p_calls s2 = c2 ++ k) /\
    ((exists r, p_in s1 = stream_of r /\ p_in s2 = stream_of (r ++ tl) /\ (tl = [] \/ complete r)) \/
     (tl = [] /\ p_in s1 = p_in s2)).

  Definition E0loc (s1 s2 : pst I) : Prop :=
    exists k x y, p_calls s1 = c1 ++ k ++ x /\ p_calls s2 = c2 ++ k ++ y.
  Definition Eloc (s1 s2 : pst I) : Prop :=
    tl <> [] /\ is_good (p_in s1) = false /\ p_eof s1 = true /\ E0loc s1 s2.

  Lemma E0loc_ext s1 s2 s1' s2' : E0loc s1 s2 -> ext s1 s1' -> ext s2 s2' -> E0loc s1' s2'.
  Proof.
    intros (k & x & y & H1 & H2) ([x' X1] & _) ([y' Y1] & _).
    exists k, (x ++ x'), (y ++ y'). rewrite X1, Y1, H1, H2. rewrite <- !app_assoc. auto.
  Qed.
  Lemma Eloc_ext s1 s2 s1' s2' : Eloc s1 s2 -> ext s1 s1' -> ext s2 s2' -> Eloc s1' s2'.
  Proof.
    intros (H1 & H2 & H3 & H4) X Y. repeat split; auto.
    - destruct X as (_ & X & _). auto.
    - destruct X as (_ & _ & X & _). auto.
    - eapply E0loc_ext; eauto.
  Qed.

  Lemma Rloc_next s1 s2 : Rloc s1 s2 ->
    Rloc (nextst s1) (nextst s2) \/ Eloc (nextst s1) (nextst s2).
  Proof.
    intros (Hc & He & Hb & Hv & Hd & Hl & Hk & Hi).
    clear Hf. nx s1. nx s2.
    assert (Hrest : forall cur eof i1 i2 b1 b2,
      getline (p_in s1) (p_cur s1) = (i1, cur, b1) -> getline (p_in s2) (p_cur s2) = (i2, cur, b2) -> b1 = b2 ->
      (if b1 then p_eof s1 else true) = eof ->
      ((exists r, i1 = stream_of r /\ i2 = stream_of (r ++ tl) /\ (tl = [] \/ complete r)) \/ (tl = [] /\ i1 = i2)) ->
      Rloc (nextst s1) (nextst s2)).
    { intros cur eof i1 i2 b1 b2 G1 G2 <- Ee Hs. unfold Rloc.
      rewrite Nd, Nd0, Nc, Nc0, Nv, Nv0, Nb, Nb0, Nl, Nl0.
      unfold nextst. rewrite G1, G2. simpl. rewrite He. repeat split; auto; try lia. }
    destruct Hi as [(r & Hi1 & Hi2 & HZ)|[-> Hi]].
    - assert (G1 : is_good (p_in s1) = true) by (rewrite Hi1; reflexivity).
      assert (G2 : is_good (p_in s2) = true) by (rewrite Hi2; reflexivity).
      destruct (getline_good _ (p_cur s1) (f_equal is_break Hi1) G1) as [[R1 E1]|[(l & r' & R1 & L1 & E1)|[R1 [L1 E1]]]];
        rewrite Hi1 in R1; cbn [stream_of is_rest] in R1.
      + (* nothing left *)
        subst r. destruct tl as [|z tl'] eqn:Etl.
        * left. rewrite app_nil_r in Hi2. eapply Hrest; [exact E1|rewrite Hi2; reflexivity|reflexivity|reflexivity|right; auto].
        * right. split; [rewrite Etl; discriminate|]. unfold nextst at 1 2. rewrite E1. simpl. repeat split; auto.
          destruct Hk as (k & K1 & K2). exists k, [], []. rewrite Nc, Nc0. rewrite app_nil_r. auto.
      + left. destruct (getline_good _ (p_cur s2) (f_equal is_break Hi2) G2) as [[R2 E2]|[(l2 & r2 & R2 & L2 & E2)|[R2 [L2 E2]]]];
          rewrite Hi2 in R2; cbn [stream_of is_rest] in R2.
        * subst r. rewrite <- app_assoc in R2. destruct l; discriminate.
        * subst r. rewrite <- app_assoc in R2. cbn [app] in R2.
          assert (l2 = l /\ r2 = r' ++ tl) as [-> ->].
          { clear -R2 L1 L2. revert l2 R2 L2. induction l as [|x l IH]; intros [|y l2] R2 L2; simpl in *.
            - inversion R2; auto.
            - inversion R2; subst. exfalso; apply L2; left; reflexivity.
            - inversion R2; subst. exfalso; apply L1; left; reflexivity.
            - inversion R2; subst. destruct (IH ltac:(tauto) l2 H1 ltac:(tauto)) as [-> ->]. auto. }
          eapply Hrest; [exact E1|exact E2|reflexivity|reflexivity|].
          left. exists r'. repeat split; auto. destruct HZ as [HZ|HZ]; auto. right. eapply complete_tail; eauto.
        * exfalso. apply L2. rewrite Hi2. cbn [stream_of is_rest]. rewrite R1. apply in_or_app. left. apply in_or_app. right; left; reflexivity.
      + rewrite Hi1 in L1; cbn [stream_of is_rest] in L1.
        destruct HZ as [->|HZ].
        * left. rewrite app_nil_r in Hi2.
          eapply Hrest; [exact E1| |reflexivity|reflexivity|right; auto].
          rewrite Hi2, <- Hi1, <- Hc. exact E1.
        * exfalso. apply R1. apply complete_no_lf; auto.
    - left. destruct (getline (p_in s1) (p_cur s1)) as [[i cur] b] eqn:G.
      eapply (Hrest cur _ i i b b); auto. rewrite <- Hi, <- Hc. exact G.
  Qed.

  Ltac rl := unfold Rloc in *; cbn [st_tr st_dict st_conv st_big5 st_cur st_line p_in p_dict p_eof p_big5 p_line p_cur p_conv p_tr p_calls] in *.

  Lemma Rloc_call s1 s2 c : Rloc s1 s2 ->
    Rloc (st_dict s1 (apply_call (p_dict s1) c) (p_calls s1 ++ [c]))
         (st_dict s2 (apply_call (p_dict s2) c) (p_calls s2 ++ [c])).
  Proof.
    intros (Hc & He & Hb & Hv & Hd & Hl & (k & K1 & K2) & Hi). rl.
    rewrite !apply_call_charset. repeat split; auto.
    exists (k ++ [c]). rewrite K1, K2, !app_assoc. auto.
  Qed.

  Local Notation relL := (rel I Rloc E0loc Eloc).

  Ltac inst L := eapply L with (C := eq); eauto using E0loc_ext, Eloc_ext, Rloc_next, cv_eqv_refl;
    first [ exact Hf
          | now (intros; subst; auto)
          | now (intros; subst; apply lsim_refl)
          | now (intros; subst; apply pfirst_pedantic)
          | now (intros s1 s2 (Hc & He & Hb & Hv & Hd & Hl & Hk & Hi); auto)
          | now (intros; apply Rloc_call; assumption)
          | now (intros s1 s2 (Hc & He & Hb & Hv & Hd & Hl & (k & K1 & K2) & Hi);
                 exists k, [], []; rewrite ?app_nil_r; auto)
          | now (intros s1 s2 (Hc & He & Hb & Hv & Hd & Hl & Hk & Hi) _; rl; rewrite Hc; auto 10)
          | now (intros; match goal with H : Rloc _ _ |- _ => destruct H as (Hc & He & Hb & Hv & Hd & Hl & Hk & Hi) end;
                 rl; auto 10) | idtac ].

  Lemma loc_parse : relL eq (parse_member (mkcf I strict nd pd1 f1) fn1 true) (parse_member (mkcf I strict nd pd2 f2) fn2 true).
  Proof. inst rel_parse. Qed.
  Lemma loc_loop g1 g2 : g1 <= g2 ->
    relL eq (parse_loop (mkcf I strict nd pd1 f1) fn1 true g1) (parse_loop (mkcf I strict nd pd2 f2) fn2 true g2).
  Proof. intro Hg. inst rel_loop. Qed.
  Lemma loc_block_body :
    relL eq (block_body (mkcf I strict nd pd1 f1) fn1) (block_body (mkcf I strict nd pd2 f2) fn2).
  Proof. inst rel_block_body. Qed.
  Lemma loc_try :
    relL eq (try_block (mkcf I strict nd pd1 f1) fn1 true) (try_block (mkcf I strict nd pd2 f2) fn2 true).
  Proof. inst rel_try. Qed.
  Lemma loc_next :
    relL eq (next_line (mkcf I strict nd pd1 f1)) (next_line (mkcf I strict nd pd2 f2)).
  Proof.
    intros s1 s2 H. rewrite !next_line_eq. destruct (Rloc_next _ _ H); [left; split; simpl; auto|right; right; auto].
  Qed.
End Local.
