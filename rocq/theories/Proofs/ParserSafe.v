(** Outcomes, effects and traces of a parse. *)
From Verif.Model Require Import Base Log PluralForms Dictionary IConv Stream PoParser.
From Verif.Spec Require Import IConvSpec DictSpec.
From Verif.Proofs Require Import BaseFacts DictProofs IConvProofs LexProofs ParserUnary ParserRel.
Local Open Scope list_scope.

Definition J_effects {I} (d : dictionary) (s : pst I) : Prop :=
  p_dict s = fold_left apply_call (p_calls s) d /\ Forall sound_call (p_calls s).

Lemma nextst_fields I (s : pst I) :
  p_dict (nextst s) = p_dict s /\ p_calls (nextst s) = p_calls s /\ p_conv (nextst s) = p_conv s /\
  p_tr (nextst s) = p_tr s /\ p_big5 (nextst s) = p_big5 s /\ p_line (nextst s) = (p_line s + 1)%Z.
Proof. unfold nextst. destruct (getline _ _) as [[? ?] ?]. simpl. auto 10. Qed.

Ltac nx s := let H := fresh in pose proof (nextst_fields _ s) as H;
  destruct H as (?Nd & ?Nc & ?Nv & ?Nt & ?Nb & ?Nl).

Lemma call_effects I d (s : pst I) c : sound_call c -> J_effects d s ->
  J_effects d (st_dict s (apply_call (p_dict s) c) (p_calls s ++ [c])).
Proof.
  intros Hc [H1 H2]. split; simpl.
  - rewrite fold_left_app. simpl. now rewrite <- H1.
  - apply Forall_app. auto.
Qed.

Lemma member_effects cf fn uf i d :
  J_effects d (snd (parse_member cf fn uf (init_state cf i d))).
Proof.
  pose (J := @J_effects (cf_iconv cf) d).
  assert (H : tri cf J (fun _ s => J s) (parse_member cf fn uf)).
  { apply tri_parse.
    - intros s H. nx s. unfold J, J_effects in *. now rewrite Nd, Nc.
    - intros s l H. exact H.
    - intros s p Hp H. apply call_effects; auto.
    - intros s op H. apply call_effects; simpl; auto.
    - intros s H. exact H.
    - intros s H. exact H.
    - intros s t H. unfold do_convert. destruct (convert _ _ _) as [[o c] ev].
      destruct o as [?|[]|?| |]; exact H.
    - intros s c H. unfold do_set_charsets. destruct (set_charsets _ _ _ _) as [[o c'] ev].
      destruct o as [?|[]|?| |]; exact H.
    - intros s _ H. exact H.
    - intros s H. exact H. }
  specialize (H (init_state cf i d)). unfold post in H.
  assert (J (init_state cf i d)) as H0 by (split; simpl; auto). specialize (H H0).
  destruct (parse_member _ _ _ _) as [[?|[]|?| |] s]; exact H.
Qed.

Lemma parse_effects cf fn i d :
  pr_dict (po_parse cf fn i d) = fold_left apply_call (pr_calls (po_parse cf fn i d)) d /\
  Forall sound_call (pr_calls (po_parse cf fn i d)).
Proof.
  pose proof (member_effects cf fn true i d) as H. unfold po_parse.
  destruct (parse_member _ _ _ _) as [o s]. exact H.
Qed.

(** the outcomes a parse can have *)
Definition parse_outcome_ok (cf : config) (o : outcome unit) : Prop :=
  match o with
  | Ret _ | OutOfFuel => True
  | Exn (ExRuntime _) => exists to from e, ic_open (cf_iconv cf) to from = inr e
  | AssertFail => cf_ndebug cf = false /\
      exists st t cap st' out e, ic_conv (cf_iconv cf) st t cap = (st', out, Some e) /\ e <> EILSEQ /\ e <> EINVAL
  | Ub UbCtype => cf_strict cf = true
  | _ => False
  end.

Definition J_cd {I} (s : pst I) : Prop := cv_cd (p_conv s) <> CdInvalid.

Lemma set_outcome I strict (c : iconv I) f t o c' ev : set_charsets strict c f t = (o, c', ev) ->
  (o = Ret tt /\ cv_cd c' <> CdInvalid) \/ (exists w, o = Exn (ExRuntime w)) \/ (o = Ub UbCtype /\ strict = true).
Proof.
  unfold set_charsets. destruct (strict && _) eqn:E.
  { intro H; inversion H; subst. right; right. apply andb_prop in E. tauto. }
  destruct (bytes_eqb _ _); [intro H; inversion H; subst; left; simpl; split; [auto|discriminate]|].
  destruct (ic_open I _ _) as [st|[e txt]]; intro H; inversion H; subst.
  - left; simpl; split; [auto|discriminate].
  - right; left. eauto.
Qed.

Lemma convert_outcome I nd (c : iconv I) t o c' ev : convert nd c t = (o, c', ev) -> cv_cd c <> CdInvalid ->
  (exists b, o = Ret b) \/ (o = AssertFail /\ nd = false).
Proof.
  unfold convert. destruct (cv_cd c) as [| |id st]; [| congruence |].
  - intros H _; inversion H; subst. eauto.
  - destruct (ic_conv I st t (4 * length t)) as [[st' out] [e|]]; [destruct e; try destruct nd|];
      intros H _; inversion H; subst; eauto.
Qed.

Lemma set_exn I strict (c : iconv I) f t o c' ev : set_charsets strict c f t = (o, c', ev) ->
  forall e, o = Exn e -> exists to from x, ic_open I to from = inr x.
Proof.
  unfold set_charsets. destruct (strict && _); [intro H; inversion H; discriminate|].
  destruct (bytes_eqb _ _); [intro H; inversion H; discriminate|].
  destruct (ic_open I _ _) as [st|[x txt]] eqn:E; intro H; inversion H; subst; [discriminate|]. eauto.
Qed.
Lemma convert_assert I nd (c : iconv I) t c' ev : convert nd c t = (AssertFail, c', ev) ->
  exists st t cap st' out e, ic_conv I st t cap = (st', out, Some e) /\ e <> EILSEQ /\ e <> EINVAL.
Proof.
  unfold convert. destruct (cv_cd c) as [| |id st]; try discriminate.
  destruct (ic_conv I st t (4 * length t)) as [[st' out] [e|]] eqn:E; [|discriminate].
  intro H. exists st, t, (4 * length t), st', out, e. split; [exact E|].
  destruct e; try discriminate; split; discriminate.
Qed.

Lemma parse_outcomes cf fn i d : parse_outcome_ok cf (pr_outcome (po_parse cf fn i d)).
Proof.
  pose (J := @J_cd (cf_iconv cf)).
  assert (H : tri cf J (fun o _ => parse_outcome_ok cf o) (parse_member cf fn true)).
  { apply tri_parse.
    - intros s H. nx s. unfold J, J_cd in *. now rewrite Nv.
    - intros s l H. exact H.
    - intros s p Hp H. exact H.
    - intros s op H. exact H.
    - intros s H. exact H.
    - intros s H. exact H.
    - intros s t H. unfold do_convert. destruct (convert _ _ _) as [[o c] ev] eqn:E.
      destruct (convert_disciplined _ _ _ _ _ _ _ E H) as (X1 & _).
      destruct (convert_outcome _ _ _ _ _ _ _ E H) as [[b ->]|[-> Hn]]; simpl; auto.
      split; [exact Hn|]. apply (convert_assert _ _ _ _ _ _ E).
    - intros s c H. unfold do_set_charsets. destruct (set_charsets _ _ _ _) as [[o c'] ev] eqn:E.
      pose proof (set_exn _ _ _ _ _ _ _ _ E) as X.
      destruct (set_outcome _ _ _ _ _ _ _ _ E) as [[-> Hn]|[[w ->]|[-> Hs]]]; simpl; auto. apply (X _ eq_refl).
    - intros s Hs H. exact Hs.
    - intros s H. exact Logic.I. }
  specialize (H (init_state cf i d)). unfold post in H.
  assert (J (init_state cf i d)) as H0 by discriminate. specialize (H H0).
  pose proof (parse_no_po cf fn true (init_state cf i d)) as Hpo.
  unfold po_parse. destruct (parse_member _ _ _ _) as [[?|[]|?| |] s]; simpl in *; auto.
Qed.

(** descriptor discipline of a whole parse, including the destructor *)
Definition J_disc {I} (s : pst I) : Prop :=
  cv_cd (p_conv s) <> CdInvalid /\
  disciplined None 0 (p_tr s) = Some (cd_open (p_conv s), cv_next (p_conv s)).
Definition K_disc {I} (o : outcome unit) (s : pst I) : Prop :=
  match o with
  | Exn _ => cv_cd (p_conv s) = CdInvalid /\ exists n, disciplined None 0 (p_tr s) = Some (None, n)
  | Ub _ => True
  | _ => J_disc s
  end.

Lemma parse_disciplined cf fn i d :
  cf_strict cf = false ->
  match pr_outcome (po_parse cf fn i d) with
  | Ret _ => exists n, disciplined None 0 (pr_trace (po_parse cf fn i d)) = Some (None, n)
  | Exn _ => exists t n, pr_trace (po_parse cf fn i d) = t ++ [EvClose None] /\
                         disciplined None 0 t = Some (None, n)
  | _ => exists o n, disciplined None 0 (pr_trace (po_parse cf fn i d)) = Some (o, n)
  end.
Proof.
  intro Hst. pose (J := @J_disc (cf_iconv cf)).
  assert (H : tri cf J K_disc (parse_member cf fn true)).
  { apply tri_parse.
    - intros s H. nx s. unfold J, J_disc in *. now rewrite Nv, Nt.
    - intros s l [H1 H2]. split; [exact H1|]. simpl. rewrite disciplined_app, H2. reflexivity.
    - intros s p Hp H. exact H.
    - intros s op H. exact H.
    - intros s H. exact H.
    - intros s H. exact H.
    - intros s t [H1 H2]. unfold do_convert. destruct (convert _ _ _) as [[o c] ev] eqn:E.
      destruct (convert_disciplined _ _ _ _ _ _ _ E H1) as (X1 & X2 & X3 & X4).
      assert (G : J (st_tr (st_conv s c) (p_tr s ++ ev))).
      { split; simpl; auto. rewrite disciplined_app, H2. exact X4. }
      destruct (convert_outcome _ _ _ _ _ _ _ E H1) as [[b ->]|[-> Hn]]; exact G.
    - intros s c [H1 H2]. unfold do_set_charsets. destruct (set_charsets _ _ _ _) as [[o c'] ev] eqn:E.
      destruct (set_outcome _ _ _ _ _ _ _ _ E) as [[-> Hn]|[[w ->]|[-> Hs]]]; [| |congruence].
      + destruct (set_charsets_disciplined _ _ _ _ _ _ _ _ E H1 ltac:(discriminate)) as (X1 & _).
        split; simpl; auto. rewrite disciplined_app, H2. auto.
      + destruct (set_charsets_disciplined _ _ _ _ _ _ _ _ E H1 ltac:(discriminate)) as (_ & X2 & X3).
        assert (Hi : cv_cd c' = CdInvalid) by (apply X2; eauto).
        simpl. split; auto. exists (cv_next c'). rewrite disciplined_app, H2. auto.
    - intros s Hs _. congruence.
    - intros s H. exact H. }
  specialize (H (init_state cf i d)). unfold post in H.
  assert (J (init_state cf i d)) as H0 by (split; [discriminate|reflexivity]). specialize (H H0).
  pose proof (parse_no_po cf fn true (init_state cf i d)) as Hpo.
  pose proof (parse_outcomes cf fn i d) as Hok.
  unfold po_parse in *. destruct (parse_member _ _ _ _) as [[?|[]|?| |] s]; simpl in *; try congruence.
  - destruct H as [H1 H2]. exists (cv_next (p_conv s)). rewrite disciplined_app, H2.
    unfold iconv_destroy. now rewrite close_disciplined.
  - destruct H as [H1 [n H2]]. exists (p_tr s), n. unfold iconv_destroy. rewrite H1. auto.
  - contradiction.
  - contradiction.
  - destruct u; try contradiction. congruence.
  - destruct H as [H1 H2]. rewrite app_nil_r. eauto.
  - destruct H as [H1 H2]. rewrite app_nil_r. eauto.
Qed.
