(** Exactly what becomes of every line of a complete file. *)
From Verif.Model Require Import Base Log PluralForms Dictionary IConv Stream PoParser.
From Verif.Spec Require Import ParserSpec PoSpec SoundSpec.
From Verif.Proofs Require Import BaseFacts DictProofs LexProofs ParserUnary DocLex ParserRel ParserSafe ParserFuel ParserLocal
  ParserCut ParserBlank ParserTerm ParserLinewise ParserMisc ParserSaid DocProofs DocLoop DocSound.
From Verif.Proofs Require DocTop.
From Verif.Spec Require Import DamageSpec.
From Verif.Proofs Require Import DocComplaint.
Local Open Scope list_scope.

Local Notation len l := (Z.of_nat (length l)).

(** ** Blank lines, continuation lines *)
Lemma pall_space_iff l : pall_space false l = Some true <-> white l.
Proof.
  split; [|apply pall_white]. induction l as [|c l IH]; cbn [pall_space]; [constructor|].
  unfold pctype. cbn [andb]. destruct (isspace c) eqn:E; [|discriminate]. intro H. constructor; [exact E|apply IH, H].
Qed.
Lemma pempty_lenient l : exists b, pempty false l = Some b.
Proof.
  assert (S : forall l, exists b, pall_space false l = Some b).
  { clear. induction l as [|c l [b E]]; cbn [pall_space]; [eauto|]. unfold pctype. cbn [andb]. destruct (isspace c); eauto. }
  unfold pempty. destruct l as [|c l]; [eauto|]. destruct (byte_eqb c c_hash); [|apply S]. destruct l; [eauto|]. unfold pctype. cbn [andb]. eauto.
Qed.
Lemma pempty_true l : one_line l -> pempty false l = Some true -> is_blank l.
Proof.
  intros H1 H. split; [exact H1|]. unfold pempty in H. destruct l as [|c l]; [left; constructor|]. destruct (byte_eqb c c_hash) eqn:E.
  - apply byte_eqb_eq in E. subst. destruct l as [|c1 l]; [auto|]. unfold pctype in H. cbn [andb] in H. injection H as H. right. right. eauto.
  - left. now apply pall_space_iff.
Qed.
Lemma pempty_false l : pempty false l = Some false -> ~ is_blank l.
Proof. intros H B. rewrite (pempty_blank false l B) in H. discriminate. Qed.
Lemma pquote_lenient l : forall i, exists q, pquote false i l = Some q.
Proof.
  induction l as [|c l IH]; intro i; cbn [pquote]; [eauto|]. destruct (byte_eqb c c_dq); [eauto|]. unfold pctype. cbn [andb]. destruct (isspace c); [apply IH|eauto].
Qed.
Lemma pquote_continues l : pquote false 0 l = Some None <-> ~ continues l.
Proof.
  split.
  - intros H (w & r & -> & Hw). rewrite (pquote_white false w 0 (c_dq :: r) Hw) in H. cbn [pquote] in H. rewrite byte_eqb_refl in H. discriminate.
  - intro H. destruct (pquote_lenient l 0) as [[j|] E]; [|exact E]. exfalso. apply H. apply pquote_inv in E as (w & r & -> & Hw & _). exists w, r. auto.
Qed.

Section Exact.
  Variable cf : config.
  Variable fn : bytes.
  Local Notation I := (cf_iconv cf).
  Local Notation P := (M (pst I)).
  Local Notation nd := (cf_ndebug cf).
  Local Notation pos := (pos cf []).
  Hypothesis Hst : cf_strict cf = false.
  Local Open Scope mon_scope.

  Lemma unlines_lines ls : Forall one_line ls -> lines_of (unlines ls) = ls.
  Proof.
    induction 1 as [|l ls H _ IH]; [reflexivity|]. cbn [unlines]. unfold lines_of. rewrite lines_from_app by exact H. cbn [app].
    now rewrite IH.
  Qed.
  Lemma pos_wf ls s : pos ls s -> wf cf s /\ rem cf s = ls /\ p_eof s = is_nil ls.
  Proof.
    intros (H1 & _ & H). destruct ls as [|l ls].
    - destruct H as (Hc & Hg & He). cbn [is_nil] in *. unfold wf, rem. rewrite He, Hc. repeat split; auto; [intros []|congruence].
    - destruct H as (Hc & Hi & He). cbn [is_nil]. unfold wf, rem. rewrite He, Hc, Hi. inversion H1; subst. cbn [stream_of is_good is_eof is_fail is_rest].
      repeat split; auto; try discriminate. f_equal. rewrite app_nil_r. now apply unlines_lines.
  Qed.
  Lemma pos_one ls s : pos ls s -> Forall one_line ls.
  Proof. intros [H _]. exact H. Qed.
  Lemma pos_hd ls s : pos ls s -> p_cur s = hd [] ls.
  Proof. apply pos_cur. Qed.
  Lemma hd_one ls : Forall one_line ls -> one_line (hd [] ls).
  Proof. destruct 1; [intros []|assumption]. Qed.

  (** ** Steps that read some lines *)
  Definition same (s t : pst I) : Prop :=
    p_big5 t = p_big5 s /\ p_conv t = p_conv s /\ d_charset (p_dict t) = d_charset (p_dict s).
  Definition conv_to (c c' : iconv I) : Prop := forall cs es, in_force cs es c -> in_force cs es c'.
  Definition frame (s s' : pst I) : Prop :=
    p_big5 s' = p_big5 s /\ p_calls s' = p_calls s /\ p_dict s' = p_dict s /\ conv_to (p_conv s) (p_conv s').
  Definition quiet (s s' : pst I) : Prop := exists evs, p_tr s' = p_tr s ++ evs /\ Forall remark evs.

  (** [m] returns [a]: it has read the lines [rd] *)
  Definition went {A} (m : P A) (ls : list bytes) (s : pst I) (a : A) (s' : pst I) (rd ls' : list bytes) : Prop :=
    ls = rd ++ ls' /\ pos ls' s' /\ p_line s' = (p_line s + len rd)%Z /\ quiet s s' /\
    (forall t more, same s t -> pos (rd ++ hd [] ls' :: more) t ->
       exists t', m t = (Ret a, t') /\ same s' t' /\ pos (hd [] ls' :: more) t').
  (** [m] finds a mistake: in the first line of [lse], after [pre] *)
  Definition erred {A} (m : P A) (ls : list bytes) (s s' : pst I) (pre lse sk ls' : list bytes) (msg : bytes) : Prop :=
    ls = pre ++ lse /\ tl lse = sk ++ ls' /\ pos ls' s' /\ p_line s' = (p_line s + len pre + 1 + len sk)%Z /\ skips sk ls' /\
    (exists rs, Forall remark rs /\ p_tr s' = p_tr s ++ rs ++ [mistake fn (p_line s + len pre) msg (hd [] lse)]) /\
    frame s s' /\
    (forall t more, same s t -> pos (pre ++ hd [] lse :: more) t -> exists t', m t = (Exn ExPo, t')).

  (** [V]: about the lines before the mistake, its line, and the text reported *)
  Definition post (keep : bool) (V : list bytes -> bytes -> bytes -> Prop) {A} (m : P A) (ls : list bytes) (s : pst I) : Prop :=
    match m s with
    | (Ret a, s') => (exists rd ls', went m ls s a s' rd ls') /\ (keep = true -> frame s s')
    | (Exn ExPo, s') => exists pre lse sk ls' msg, erred m ls s s' pre lse sk ls' msg /\ V pre (hd [] lse) msg
    | _ => True
    end.

  Lemma frame_refl s : frame s s.
  Proof. split; [reflexivity|]. split; [reflexivity|]. split; [reflexivity|]. intros cs es H. exact H. Qed.
  Lemma frame_trans s1 s2 s3 : frame s1 s2 -> frame s2 s3 -> frame s1 s3.
  Proof.
    intros (A1 & A2 & A3 & A4) (B1 & B2 & B3 & B4). split; [congruence|]. split; [congruence|]. split; [congruence|].
    intros cs es H. apply B4, A4, H.
  Qed.
  Lemma quiet_refl s : quiet s s.
  Proof. exists []. rewrite app_nil_r. auto. Qed.
  Lemma quiet_trans s1 s2 s3 : quiet s1 s2 -> quiet s2 s3 -> quiet s1 s3.
  Proof. intros (e1 & E1 & H1) (e2 & E2 & H2). exists (e1 ++ e2). rewrite E2, E1, app_assoc. split; [reflexivity|]. apply Forall_app. auto. Qed.

  Lemma hd_shift (rd ls : list bytes) more : exists more', rd ++ hd [] ls :: more = hd [] (rd ++ ls) :: more'.
  Proof. destruct rd as [|y rd]; cbn [app hd]; eauto. Qed.
  Lemma app_len (a b : list bytes) : len (a ++ b) = (len a + len b)%Z.
  Proof. rewrite app_length. lia. Qed.

  Lemma post_bind keep V A B (m : P A) (f : A -> P B) ls s : post true V m ls s ->
    (forall a s1 rd ls1, m s = (Ret a, s1) -> ls = rd ++ ls1 -> pos ls1 s1 -> frame s s1 -> post keep (fun pre => V (rd ++ pre)) (f a) ls1 s1) ->
    post keep V (mbind m f) ls s.
  Proof.
    intros Hm Hf. unfold post, mbind in *. destruct (m s) as [[a|[]|u| |] s1] eqn:E1; auto.
    - destruct Hm as [(rd & ls1 & H1 & H2 & H3 & H4 & H5) Hfr]. specialize (Hfr eq_refl). specialize (Hf a s1 rd ls1 eq_refl H1 H2 Hfr).
      destruct (f a s1) as [[b|[]|u| |] s2] eqn:E2; auto.
      + destruct Hf as [(rd2 & ls2 & G1 & G2 & G3 & G4 & G5) Gfr]. split.
        * exists (rd ++ rd2), ls2. split; [rewrite H1, G1, app_assoc; reflexivity|]. split; [exact G2|]. split; [rewrite G3, H3, app_len; lia|].
          split; [eapply quiet_trans; eassumption|]. intros t more St Pt. rewrite <- app_assoc in Pt.
          destruct (hd_shift rd2 ls2 more) as [more' Em]. rewrite <- G1 in Em. rewrite Em in Pt.
          destruct (H5 t more' St Pt) as (t1 & T1 & St1 & Pt1). rewrite <- Em in Pt1.
          destruct (G5 t1 more St1 Pt1) as (t2 & T2 & St2 & Pt2). exists t2. rewrite T1. auto.
        * intro K. eapply frame_trans; [exact Hfr|apply Gfr, K].
      + destruct Hf as (pre & lse & sk & ls' & msg & (G1 & G2 & G3 & G4 & G5 & G6 & G7 & G8) & HV).
        exists (rd ++ pre), lse, sk, ls', msg. split; [|exact HV]. split; [rewrite H1, G1, app_assoc; reflexivity|]. split; [exact G2|].
        split; [exact G3|]. split; [rewrite G4, H3, app_len; lia|]. split; [exact G5|]. split; [|split; [eapply frame_trans; eassumption|]].
        * destruct G6 as (rs & R1 & R2). destruct H4 as (e1 & R3 & R4). exists (e1 ++ rs). split; [apply Forall_app; auto|].
          rewrite R2, R3, H3, app_len. rewrite <- !app_assoc. replace (p_line s + len rd + len pre)%Z with (p_line s + (len rd + len pre))%Z by lia. reflexivity.
        * intros t more St Pt. rewrite <- app_assoc in Pt. destruct (hd_shift pre lse more) as [more' Em]. rewrite <- G1 in Em. rewrite Em in Pt.
          destruct (H5 t more' St Pt) as (t1 & T1 & St1 & Pt1). rewrite <- Em in Pt1.
          destruct (G8 t1 more St1 Pt1) as (t2 & T2). exists t2. rewrite T1. exact T2.
    - destruct Hm as (pre & lse & sk & ls' & msg & (G1 & G2 & G3 & G4 & G5 & G6 & G7 & G8) & HV). exists pre, lse, sk, ls', msg. split; [|exact HV].
      repeat (split; [assumption|]). intros t more St Pt. destruct (G8 t more St Pt) as (t2 & T2). exists t2. rewrite T2. reflexivity.
  Qed.

  (** a step that only looks at the current line, the BIG5 flag and the converter *)
  Lemma post_here keep V A (m : P A) ls s : pos ls s ->
    (forall a s', m s = (Ret a, s') -> pos ls s' /\ p_line s' = p_line s /\ quiet s s' /\ (keep = true -> frame s s') /\
       forall t, p_cur t = p_cur s -> same s t -> exists t', m t = (Ret a, t') /\ same s' t' /\ (forall ls, pos ls t -> pos ls t')) ->
    (forall s', m s <> (Exn ExPo, s')) -> post keep V m ls s.
  Proof.
    intros Hp H He. unfold post. destruct (m s) as [[a|[]|u| |] s1] eqn:E1; auto.
    2: destruct (He _ eq_refl).
    destruct (H a s1 eq_refl) as (H1 & H2 & H3 & H4 & H5). split; [|exact H4]. exists [], ls. split; [reflexivity|]. split; [exact H1|].
    split; [rewrite H2; cbn; lia|]. split; [exact H3|]. intros t more St Pt. cbn [app] in Pt.
    destruct (H5 t) as (t' & T1 & T2 & T3); [|exact St|].
    - rewrite (pos_hd _ _ Pt), (pos_hd _ _ Hp). reflexivity.
    - exists t'. auto.
  Qed.
  Lemma same_refl s : same s s.
  Proof. repeat split. Qed.
  Lemma post_ret keep V A (a : A) ls s : pos ls s -> post keep V (mret a) ls s.
  Proof.
    intro H. apply post_here; [exact H| |discriminate]. intros b s' E. injection E as <- <-. split; [exact H|]. split; [reflexivity|].
    split; [apply quiet_refl|]. split; [intros _; apply frame_refl|]. intros t _ St. exists t. auto.
  Qed.
  Lemma post_cur keep V A (g : bytes -> A) ls s : pos ls s -> post keep V (mget (fun s => g (p_cur s))) ls s.
  Proof.
    intro H. apply post_here; [exact H| |discriminate]. intros b s' E. injection E as <- <-. split; [exact H|]. split; [reflexivity|].
    split; [apply quiet_refl|]. split; [intros _; apply frame_refl|]. intros t Ht St. exists t. split; [|auto]. unfold mget. rewrite Ht. reflexivity.
  Qed.
  Lemma post_opt keep V A (m : P A) (g : bytes -> option A) ls s : (forall s, m s = run_opt cf (g (p_cur s)) s) -> pos ls s -> post keep V m ls s.
  Proof.
    intros Hm H. apply post_here; [exact H| |].
    - intros b s' E. rewrite Hm in E. destruct (g (p_cur s)) as [v|] eqn:Eg; inversion E; subst. split; [exact H|]. split; [reflexivity|].
      split; [apply quiet_refl|]. split; [intros _; apply frame_refl|]. intros t Ht St. exists t. split; [|auto]. rewrite Hm, Ht, Eg. reflexivity.
    - intros s' E. rewrite Hm in E. destruct (g (p_cur s)); discriminate.
  Qed.
  Lemma post_empty keep V ls s : pos ls s -> post keep V (is_empty_line cf) ls s.
  Proof. apply (post_opt keep V _ _ (fun c => pempty (cf_strict cf) c)). apply is_empty_line_eq. Qed.
  Lemma post_msgstr_n keep V ls s : pos ls s -> post keep V (is_msgstr_n cf) ls s.
  Proof. apply (post_opt keep V _ _ (fun c => pmsgstr_n (cf_strict cf) c)). apply is_msgstr_n_eq. Qed.
  Lemma remark_warning t : remark (EvLog (log_warning t)).
  Proof. left. discriminate. Qed.

  (** ** Rules *)
  Lemma post_bind_l keep V A B (m : P A) (f : A -> P B) ls s : post true V m ls s ->
    (forall a s1 rd ls1, m s = (Ret a, s1) -> ls = rd ++ ls1 -> pos ls1 s1 -> frame s s1 -> p_line s1 = (p_line s + len rd)%Z ->
       post keep (fun pre => V (rd ++ pre)) (f a) ls1 s1) ->
    post keep V (mbind m f) ls s.
  Proof.
    intros Hm Hf. apply post_bind; [exact Hm|]. intros a s1 rd ls1 E1 E2 H1 H2. apply Hf; auto.
    unfold post in Hm. rewrite E1 in Hm. destruct Hm as [(rd' & ls1' & G1 & G2 & G3 & _) _]. rewrite G3.
    assert (X : ls1' = ls1).
    { apply pos_wf in G2 as (_ & G2 & _). apply pos_wf in H1 as (_ & H1 & _). congruence. }
    subst ls1'. rewrite E2 in G1. apply app_inv_tail in G1. subst. reflexivity.
  Qed.
  (** a step that reads nothing *)
  Lemma post_bind0 keep V A B (m : P A) (f : A -> P B) ls s : post true V m ls s -> (forall a s1, m s = (Ret a, s1) -> p_line s1 = p_line s) ->
    (forall a s1, m s = (Ret a, s1) -> pos ls s1 -> frame s s1 -> post keep V (f a) ls s1) ->
    post keep V (mbind m f) ls s.
  Proof.
    intros Hm H0 Hf. apply post_bind_l; [exact Hm|]. intros a s1 rd ls1 E1 E2 H1 H2 H3. rewrite (H0 _ _ E1) in H3.
    assert (rd = []) as -> by (destruct rd; [reflexivity|cbn [length] in H3; lia]). cbn [app] in *. subst ls1. apply Hf; auto.
  Qed.
  Lemma post_mget keep V A B (g : bytes -> A) (f : A -> P B) ls s : pos ls s ->
    post keep V (f (g (hd [] ls))) ls s -> post keep V (mbind (mget (fun s => g (p_cur s))) f) ls s.
  Proof.
    intros Hp H. apply post_bind0; [now apply post_cur|intros a s1 E; injection E as _ <-; reflexivity|].
    intros a s1 E _ _. injection E as <- <-. rewrite (pos_hd _ _ Hp). exact H.
  Qed.
  Lemma post_prefix keep V B p (f : bool -> P B) ls s : pos ls s ->
    post keep V (f (starts_with p (hd [] ls))) ls s -> post keep V (mbind (prefix cf p) f) ls s.
  Proof. apply (post_mget keep V bool B (starts_with p)). Qed.
  Lemma post_run_opt keep V A B (m : P A) (g : bytes -> option A) (f : A -> P B) ls s :
    (forall s, m s = run_opt cf (g (p_cur s)) s) -> pos ls s ->
    (forall a, g (hd [] ls) = Some a -> post keep V (f a) ls s) -> post keep V (mbind m f) ls s.
  Proof.
    intros Hm Hp H. apply post_bind0; [now apply post_opt with (g := g)| |].
    - intros a s1 E. rewrite Hm in E. destruct (g (p_cur s)); inversion E; reflexivity.
    - intros a s1 E _ _. rewrite Hm, (pos_hd _ _ Hp) in E. destruct (g (hd [] ls)) as [b|]; inversion E; subst. now apply H.
  Qed.
  Lemma post_is_empty keep V B (f : bool -> P B) ls s : pos ls s ->
    (forall a, pempty false (hd [] ls) = Some a -> post keep V (f a) ls s) -> post keep V (mbind (is_empty_line cf) f) ls s.
  Proof. intros Hp H. apply (post_run_opt keep V _ _ _ (fun c => pempty (cf_strict cf) c)); [apply is_empty_line_eq|exact Hp|]. rewrite Hst. exact H. Qed.

  Lemma pos_next_tl ls s : pos ls s -> pos (tl ls) (nextst s).
  Proof. apply pos_tl. reflexivity. Qed.
  Lemma same_next s t : same s t -> same (nextst s) (nextst t).
  Proof. intros (H1 & H2 & H3). unfold same. destruct (fr_next cf s) as (A1 & A2 & _ & A4), (fr_next cf t) as (B1 & B2 & _ & B4). rewrite A1, A2, A4, B1, B2, B4. auto. Qed.
  Lemma nextst_line (s : pst I) : p_line (nextst s) = (p_line s + 1)%Z.
  Proof. unfold nextst. destruct (getline _ _) as [[? ?] ?]. reflexivity. Qed.
  Lemma nextst_tr (s : pst I) : p_tr (nextst s) = p_tr s.
  Proof. unfold nextst. destruct (getline _ _) as [[? ?] ?]. reflexivity. Qed.
  Lemma frame_next s : frame s (nextst s).
  Proof. destruct (fr_next cf s) as (A1 & A2 & A3 & A4). unfold frame, conv_to. rewrite A1, A2, A3, A4. auto. Qed.

  Lemma post_next keep V l ls s : pos (l :: ls) s -> post keep V (next_line cf) (l :: ls) s.
  Proof.
    intro H. unfold post. rewrite next_line_eq. split; [|intros _; apply frame_next]. exists [l], ls. split; [reflexivity|].
    split; [exact (pos_next_tl _ _ H)|]. split; [rewrite nextst_line; reflexivity|].
    split; [exists []; rewrite nextst_tr, app_nil_r; auto|]. intros t more St Pt. exists (nextst t). rewrite next_line_eq. split; [reflexivity|].
    split; [now apply same_next|]. exact (pos_next_tl _ _ Pt).
  Qed.
  Lemma post_next_bind keep V B (f : unit -> P B) l ls s : pos (l :: ls) s ->
    (pos ls (nextst s) -> post keep (fun pre => V (l :: pre)) (f tt) ls (nextst s)) -> post keep V (mbind (next_line cf) f) (l :: ls) s.
  Proof.
    intros H Hf. apply post_bind_l; [now apply post_next|]. intros a s1 rd ls1 E1 E2 H1 H2 H3. rewrite next_line_eq in E1. injection E1 as <- <-. rewrite nextst_line in H3.
    destruct rd as [|x rd]; [cbn in H3; lia|]. destruct rd; [|cbn [length] in H3; lia]. cbn [app] in E2. injection E2 as <- <-. apply Hf, H1.
  Qed.

  (** *** recovery *)
  Lemma recover_run f : forall ls s, pos ls s -> enough cf f s ->
    exists sk ls' s', recover cf f s = (Ret tt, s') /\ tl ls = sk ++ ls' /\ pos ls' s' /\ skips sk ls' /\
      p_line s' = (p_line s + 1 + len sk)%Z /\ p_tr s' = p_tr s /\ frame s s'.
  Proof.
    induction f as [|f IH]; intros ls s Hp He; [apply enough_pos in He; lia|]. cbn [recover]. unfold mbind at 1. rewrite next_line_eq, mget_bind.
    pose proof (pos_next_tl _ _ Hp) as Hp1. destruct (pos_wf _ _ Hp1) as (_ & _ & Heof). destruct (tl ls) as [|l ls1] eqn:El; cbn [is_nil] in Heof.
    - rewrite Heof. exists [], [], (nextst s). split; [reflexivity|]. split; [reflexivity|]. split; [exact Hp1|]. split; [split; [constructor|exact Logic.I]|].
      split; [rewrite nextst_line; cbn; lia|]. split; [apply nextst_tr|apply frame_next].
    - rewrite Heof. unfold mbind. rewrite is_empty_line_eq, Hst, (pos_hd _ _ Hp1). cbn [hd].
      destruct (pempty_lenient l) as [[] E]; rewrite E; cbn [run_opt]; unfold mret; cbv beta iota.
      + exists [], (l :: ls1), (nextst s). split; [reflexivity|]. split; [reflexivity|]. split; [exact Hp1|].
        split; [split; [constructor|apply pempty_true; [|exact E]; apply pos_one in Hp1; now inversion Hp1]|].
        split; [rewrite nextst_line; cbn; lia|]. split; [apply nextst_tr|apply frame_next].
      + destruct (IH (l :: ls1) (nextst s) Hp1) as (sk & ls' & s' & R1 & R2 & R3 & [R4 R4'] & R5 & R6 & R7).
        { apply enough_step; assumption. }
        exists (l :: sk), ls', s'. split; [exact R1|]. cbn [tl] in R2. split; [rewrite R2; reflexivity|]. split; [exact R3|].
        split; [split; [constructor; [now apply pempty_false|exact R4]|exact R4']|].
        split; [rewrite R5, nextst_line; cbn [length]; lia|]. split; [rewrite R6; apply nextst_tr|]. eapply frame_trans; [apply frame_next|exact R7].
  Qed.
  Lemma post_error keep (V : list bytes -> bytes -> bytes -> Prop) A m ls s : pos ls s -> V [] (hd [] ls) m -> post keep V (@error cf fn A m) ls s.
  Proof.
    intros Hp HV.
    assert (R : forall ls t, pos ls t -> exists sk ls' t', @error cf fn A m t = (Exn ExPo, t') /\ tl ls = sk ++ ls' /\ pos ls' t' /\ skips sk ls' /\
      p_line t' = (p_line t + 1 + len sk)%Z /\ p_tr t' = p_tr t ++ [mistake fn (p_line t) m (p_cur t)] /\ frame t t').
    { intros ls0 t Ht. unfold error. rewrite mget_bind. unfold emit. rewrite mmod_bind.
      set (t1 := st_tr t _).
      destruct (recover_run (S (S (length (is_rest (p_in t))))) ls0 t1 Ht (error_enough cf t _)) as (sk & ls' & t' & R1 & R2 & R3 & R4 & R5 & R6 & R7).
      exists sk, ls', t'. unfold mbind. rewrite R1. split; [reflexivity|]. auto 10. }
    destruct (R ls s Hp) as (sk & ls' & s' & R1 & R2 & R3 & R4 & R5 & R6 & R7). unfold post. rewrite R1.
    exists [], ls, sk, ls', m. split; [|exact HV]. split; [reflexivity|]. split; [exact R2|]. split; [exact R3|]. split; [cbn; lia|]. split; [exact R4|].
    split; [|split; [exact R7|]].
    - exists []. split; [constructor|]. rewrite R6, (pos_hd _ _ Hp). cbn. rewrite Z.add_0_r. reflexivity.
    - intros t more _ Pt. cbn [app] in Pt. destruct (R _ t Pt) as (? & ? & t' & T & _). eauto.
  Qed.

  (** *** scanners *)
  Lemma post_warning keep V w ls s : pos ls s -> post keep V (warning cf fn w) ls s.
  Proof.
    intro H. apply post_here; [exact H| |discriminate]. intros a s' E. rewrite warning_eq in E. injection E as _ <-. split; [exact H|]. split; [reflexivity|].
    split; [exists [EvLog (log_warning (fn ++ bs ":" ++ dec_Z (p_line s) ++ bs ": warning: " ++ w ++ bs ": " ++ p_cur s))]; split; [reflexivity|constructor; [apply remark_warning|constructor]]|]. split; [intros _; exact (frame_refl s)|].
    intros t _ St. exists (warned cf fn w t). rewrite warning_eq. destruct a. split; [reflexivity|]. split; [exact St|]. intros ls0 H0. exact H0.
  Qed.
  Lemma post_warn_bind keep V B w (f : unit -> P B) ls s : pos ls s ->
    (pos ls (warned cf fn w s) -> post keep V (f tt) ls (warned cf fn w s)) -> post keep V (mbind (warning cf fn w) f) ls s.
  Proof.
    intros H Hf. apply post_bind0; [now apply post_warning| |].
    - intros a s1 E. rewrite warning_eq in E. injection E as _ <-. reflexivity.
    - intros a s1 E H1 _. rewrite warning_eq in E. injection E as <- <-. now apply Hf.
  Qed.
  (** a step given by its effect on states that show the same line *)
  Lemma post_ext keep V A (m m' : P A) ls s : pos ls s ->
    (forall t, p_cur t = hd [] ls -> same s t -> m t = m' t) -> post keep V m' ls s -> post keep V m ls s.
  Proof.
    intros Hp X Y. unfold post, went, erred in *. rewrite (X s (pos_hd _ _ Hp) (same_refl s)). destruct (m' s) as [[a|[]|u| |] s1]; auto.
    - destruct Y as [(rd & ls' & Y1 & Y2 & Y3 & Y4 & Y5) Y6]. split; [|exact Y6]. exists rd, ls'. repeat (split; [assumption|]).
      intros t more St Pt. rewrite X; [now apply Y5| |exact St]. rewrite (pos_hd _ _ Pt), Y1. destruct rd; reflexivity.
    - destruct Y as (pre & lse & sk & ls' & msg & (Y1 & Y2 & Y3 & Y4 & Y5 & Y6 & Y7 & Y8) & HV). exists pre, lse, sk, ls', msg. split; [|exact HV]. repeat (split; [assumption|]).
      intros t more St Pt. rewrite X; [now apply Y8 with (more := more)| |exact St]. rewrite (pos_hd _ _ Pt), Y1. destruct pre; reflexivity.
  Qed.
  Lemma post_warns_bind keep V B ws (f : unit -> P B) ls : forall s, pos ls s ->
    (pos ls (warned_all cf fn ws s) -> post keep V (f tt) ls (warned_all cf fn ws s)) -> post keep V (mbind (warns cf fn ws) f) ls s.
  Proof.
    induction ws as [|w ws IH]; intros s H Hf.
    - cbn [warns]. apply Hf, H.
    - assert (X : forall t, mbind (warns cf fn (w :: ws)) f t = mbind (warning cf fn w) (fun _ => mbind (warns cf fn ws) f) t).
      { intro t. cbn [warns]. unfold mbind. rewrite warning_eq. reflexivity. }
      eapply post_ext; [exact H|intros t _ _; apply X|]. apply post_warn_bind; [exact H|]. intro H1. apply IH; [exact H1|exact Hf].
  Qed.
  Lemma post_lex keep (V : list bytes -> bytes -> bytes -> Prop) A B (m : P A) (g : bool -> bytes -> lexres A) (f : A -> P B) ls s :
    (forall s, m s = run_lex cf fn (g (p_big5 s) (p_cur s)) s) -> pos ls s ->
    (forall ws msg, g (p_big5 s) (hd [] ls) = LErr ws msg -> V [] (hd [] ls) msg) ->
    (forall ws a, g (p_big5 s) (hd [] ls) = LOk ws a -> pos ls (warned_all cf fn ws s) -> post keep V (f a) ls (warned_all cf fn ws s)) ->
    post keep V (mbind m f) ls s.
  Proof.
    intros Hm Hp HV Hf. set (r := g (p_big5 s) (hd [] ls)) in *.
    apply (post_ext keep V B _ (mbind (run_lex cf fn r) f)); [exact Hp| |].
    - intros t Ht (S1 & _). unfold mbind. rewrite Hm, S1, Ht. reflexivity.
    - destruct r as [ws a|ws msg|ws].
      + apply (post_ext keep V B _ (mbind (warns cf fn ws) (fun _ => f a))); [exact Hp| |].
        * intros t _ _. unfold run_lex, mbind. rewrite warns_eq. reflexivity.
        * apply post_warns_bind; [exact Hp|]. intro H1. now apply (Hf ws a).
      + apply (post_ext keep V B _ (mbind (warns cf fn ws) (fun _ => error cf fn msg))); [exact Hp| |].
        * intros t _ _. unfold run_lex, mbind. rewrite warns_eq.
          change (mbind (@error cf fn A msg) f (warned_all cf fn ws t) = error cf fn msg (warned_all cf fn ws t)).
          unfold error, mbind, mget, emit, mmod. destruct (recover cf _ _) as [[[]| | | | ] ?]; reflexivity.
        * apply post_warns_bind; [exact Hp|]. intro H1. apply post_error; [exact H1|]. exact (HV ws msg eq_refl).
      + unfold post. unfold mbind. rewrite run_lex_eq. exact Logic.I.
  Qed.

  (** *** literals *)
  Lemma frame_big5 s s' : frame s s' -> p_big5 s' = p_big5 s.
  Proof. intros [H _]. exact H. Qed.
  Lemma post_continuation f : forall (V : list bytes -> bytes -> bytes -> Prop) out l ls s, pos (l :: ls) s ->
    (forall more x msg, Forall (chunk_ok false (p_big5 s)) more -> continues x -> bad_more (p_big5 s) x msg -> V (l :: List.map chunk_text more) x msg) ->
    post true V (continuation cf fn f out) (l :: ls) s.
  Proof.
    induction f as [|f IH]; intros V out l ls s Hp HV; [exact Logic.I|]. cbn [continuation]. apply post_next_bind; [exact Hp|]. intro Hp1.
    apply (post_mget true _ _ _ (fun c => c)); [exact Hp1|].
    apply (post_ext true _ _ _ (mbind (find_quote cf 0 (hd [] ls)) (fun q => match q with
        | Some i => (if (i =? 1) && cf_pedantic cf then warning cf fn (bs "leading whitespace before string") else mret tt);;
            out' <- get_string_line cf fn out i;; continuation cf fn f out'
        | None => mret out end))); [exact Hp1|reflexivity|].
    apply (post_bind0 true).
    - apply (post_here true _ _ _ ls); [exact Hp1| |].
      + intros a s' E. rewrite find_quote_eq in E. destruct (pquote _ _ _) eqn:Eq; inversion E; subst. split; [exact Hp1|]. split; [reflexivity|].
        split; [apply quiet_refl|]. split; [intros _; apply frame_refl|]. intros t _ St. exists t. rewrite find_quote_eq, Eq. auto.
      + intros s'. rewrite find_quote_eq. destruct (pquote _ _ _); discriminate.
    - intros a s1. rewrite find_quote_eq. destruct (pquote _ _ _); intro E; inversion E; reflexivity.
    - intros q s1 E Hp2 _. rewrite find_quote_eq, Hst in E. destruct (pquote false 0 (hd [] ls)) as [q'|] eqn:Eq; inversion E; subst q' s1. clear E Hp2.
      destruct q as [i|]; [|now apply post_ret].
      destruct ls as [|l1 ls1]; [discriminate Eq|]. cbn [hd] in Eq.
      destruct (pquote_inv _ _ _ Eq) as (lead & r0 & Ec & Hlead & Hi). cbn [plus] in Hi.
      assert (B1 : p_big5 (nextst s) = p_big5 s) by apply fr_next.
      assert (W : forall s2, pos (l1 :: ls1) s2 -> p_big5 s2 = p_big5 s ->
        post true (fun pre => V (l :: pre)) (out' <- get_string_line cf fn out i;; continuation cf fn f out') (l1 :: ls1) s2).
      { intros s2 Hp2 B2. apply (post_lex true _ _ _ _ (fun b5 c => pline (cf_strict cf) b5 out i c)); [apply get_string_line_eq|exact Hp2| |].
        { intros ws msg Ep. cbn [hd] in *. apply (HV []); [constructor|exists lead, r0; auto|]. rewrite Hst, B2 in Ep. subst i.
          apply (pline_err _ out r0 l1 lead) in Ep; [|apply pos_one in Hp2; now inversion Hp2|exact Ec]. exists lead, (c_dq :: r0). auto. }
        intros ws v Ep Hp3. cbn [hd] in Ep. rewrite Hst in Ep.
        apply (pline_inv (p_big5 s2) out i lead l1 []) in Ep; [|apply pos_one in Hp2; now inversion Hp2| |cbn; exact Hi|exact Hlead].
        2: { cbn [app]. rewrite Hi. rewrite Ec at 2. rewrite skipn_app, skipn_all, Nat.sub_diag. exact Ec. }
        destruct Ep as (ck & Ec' & _ & Hv & Hck). cbn [app] in Ec'. apply IH; [exact Hp3|]. rewrite warned_big5, B2. intros more x msg Hm.
        rewrite Ec'. apply (HV (ck :: more) x msg). constructor; [rewrite <- B2; exact Hck|exact Hm]. }
      destruct (_ && _).
      + apply post_warn_bind; [exact Hp1|]. intro H1. apply W; [exact H1|]. exact B1.
      + apply (post_ext true _ _ _ (out' <- get_string_line cf fn out i;; continuation cf fn f out')); [exact Hp1|reflexivity|]. now apply W.
  Qed.
  Lemma post_get_string (V : list bytes -> bytes -> bytes -> Prop) k l ls s : pos (l :: ls) s -> k <= length l ->
    (forall msg, bad_after (p_big5 s) (skipn k l) msg -> V [] l msg) ->
    (forall lit x msg, lit_ok false (p_big5 s) lit -> continues x -> bad_more (p_big5 s) x msg -> V (lit_lines (firstn k l) lit) x msg) ->
    post true V (get_string cf fn k) (l :: ls) s.
  Proof.
    intros Hp Hk HV0 HV.
    apply (post_ext true _ _ _ (mbind (fun s => run_lex cf fn (pfirst (cf_strict cf) (cf_pedantic cf) (p_big5 s) k (p_cur s)) s) (continuation cf fn (cf_fuel cf)))); [exact Hp| |].
    - intros t _ _. rewrite get_string_eq. reflexivity.
    - apply (post_lex true _ _ _ _ (fun b5 c => pfirst (cf_strict cf) (cf_pedantic cf) b5 k c)); [reflexivity|exact Hp| |].
      { intros ws msg Ep. cbn [hd] in *. apply HV0. rewrite Hst in Ep. eapply pfirst_err; [|exact Hk|exact Ep]. apply pos_one in Hp. now inversion Hp. }
      intros ws v Ep Hp1. cbn [hd] in Ep. rewrite Hst in Ep. apply pfirst_inv in Ep; [|apply pos_one in Hp; now inversion Hp].
      destruct Ep as (ck & Hc & _ & Hck). apply post_continuation; [exact Hp1|]. rewrite warned_big5. intros more x msg Hm Hx.
      specialize (HV {| lt_head := ck; lt_more := more |} x msg). unfold lit_lines in HV. cbn [lt_head lt_more] in HV. rewrite <- Hc in HV. apply HV; [|exact Hx].
      unfold lit_ok. constructor; assumption.
  Qed.

  (** *** steps that read nothing *)
  Definition mild {A} (m : P A) : Prop := forall s, p_line (snd (m s)) = p_line s /\ quiet s (snd (m s)).
  Lemma mild_bind A B (m : P A) (f : A -> P B) : mild m -> (forall a, mild (f a)) -> mild (mbind m f).
  Proof.
    intros Hm Hf s. destruct (Hm s) as [M1 M2]. unfold mbind. destruct (m s) as [[a|?|?| |] s1]; cbn [snd] in *; auto.
    destruct (Hf a s1) as [F1 F2]. split; [congruence|eapply quiet_trans; eassumption].
  Qed.
  Lemma mild_ret A (a : A) : mild (mret a).
  Proof. intro s. split; [reflexivity|apply quiet_refl]. Qed.
  Lemma mild_get A (g : pst I -> A) : mild (mget g).
  Proof. intro s. split; [reflexivity|apply quiet_refl]. Qed.
  Lemma mild_fail A o : mild (@mfail (pst I) A o).
  Proof. intro s. split; [reflexivity|apply quiet_refl]. Qed.
  Lemma mild_warning w : mild (warning cf fn w).
  Proof.
    intro s. rewrite warning_eq. split; [reflexivity|].
    exists [EvLog (log_warning (fn ++ bs ":" ++ dec_Z (p_line s) ++ bs ": warning: " ++ w ++ bs ": " ++ p_cur s))].
    split; [reflexivity|constructor; [apply remark_warning|constructor]].
  Qed.
  Lemma mild_header_line l cs : mild (header_line cf fn l cs).
  Proof.
    unfold header_line. destruct (starts_with content_type l).
    - destruct (starts_with content_type_full l).
      + destruct (cf_strict cf && _); [apply mild_fail|apply mild_ret].
      + apply mild_bind; [apply mild_warning|intros _; apply mild_ret].
    - destruct (starts_with plural_forms_key l); [|apply mild_ret]. apply mild_bind.
      + intro s. unfold mlift. destruct (from_string _ _); (split; [reflexivity|apply quiet_refl]).
      + intro pf. apply mild_bind; [|intros _; apply mild_ret]. destruct (negb _); [apply mild_warning|]. apply mild_bind; [apply mild_get|intro d].
        apply mild_bind; [destruct (pf_valid _); [destruct (negb _); [apply mild_warning|apply mild_ret]|apply mild_ret]|].
        intros _ s. split; [reflexivity|exact (quiet_refl s)].
  Qed.
  Lemma mild_header_loop h : forall acc cs, mild (header_loop cf fn h acc cs).
  Proof.
    induction h as [|c h IH]; intros acc cs; cbn [header_loop]; [apply mild_ret|]. destruct (byte_eqb c c_lf); [|apply IH].
    apply mild_bind; [apply mild_header_line|intro; apply IH].
  Qed.
  Lemma remark_close {J : iconv_impl} (c : cdesc J) : Forall remark (close_events c).
  Proof. destruct c; repeat constructor. Qed.
  Lemma mild_parse_header h : mild (parse_header cf fn h).
  Proof.
    unfold parse_header. apply mild_bind; [apply mild_header_loop|intro cs]. apply mild_bind.
    - destruct (_ || _); [apply mild_bind; [apply mild_warning|intros; apply mild_ret]|]. destruct (bytes_eqb _ _); [|apply mild_ret].
      apply mild_bind; [|intros; apply mild_ret]. intro s. split; [reflexivity|exact (quiet_refl s)].
    - intro cs'. apply mild_bind; [apply mild_get|intros d s]. unfold do_set_charsets, set_charsets.
      destruct (_ && _); [split; [reflexivity|exists (close_events (cv_cd (p_conv s))); split; [reflexivity|apply remark_close]]|]. cbv zeta.
      destruct (bytes_eqb _ _); [split; [reflexivity|exists (close_events (cv_cd (p_conv s))); split; [reflexivity|apply remark_close]]|].
      destruct (ic_open _ _ _) as [st0|[? ?]].
      + split; [reflexivity|]. exists (close_events (cv_cd (p_conv s)) ++ [EvOpen (cv_next (p_conv s))]). split; [reflexivity|].
        apply Forall_app. split; [apply remark_close|repeat constructor].
      + split; [reflexivity|exists (close_events (cv_cd (p_conv s))); split; [reflexivity|apply remark_close]].
  Qed.
  Lemma convert_remarks ndb (c : iconv I) x : Forall remark (snd (convert ndb c x)).
  Proof.
    unfold convert. destruct (cv_cd c) as [| |id stt]; [constructor|constructor|].
    destruct (ic_conv I stt x (4 * length x)) as [[s' out] [e|]]; [|repeat constructor].
    assert (R : Forall remark [EvUse id; EvReset id; EvLog (log_error (iconv_text x))]).
    { constructor; [exact Logic.I|]. constructor; [exact Logic.I|]. constructor; [|constructor]. right. exists x. reflexivity. }
    destruct e; try destruct ndb; first [exact R|repeat constructor].
  Qed.
  Lemma pos_eq ls (s s' : pst I) : p_in s' = p_in s -> p_eof s' = p_eof s -> p_cur s' = p_cur s -> pos ls s -> pos ls s'.
  Proof. intros H1 H2 H3. unfold DocProofs.pos. rewrite H1, H2, H3. auto. Qed.

  Lemma post_convert V x ls s : pos ls s -> post true V (do_convert cf x) ls s.
  Proof.
    intro H. apply post_here; [exact H| |].
    - intros v s' E. unfold do_convert in E. pose proof (convert_remarks nd (p_conv s) x) as R. destruct (convert nd (p_conv s) x) as [[o c] ev] eqn:Ec.
      inversion E; subst o s'. clear E. cbn [snd] in R. split; [exact H|]. split; [reflexivity|]. split; [exists ev; auto|]. split.
      + intros _. split; [reflexivity|]. split; [reflexivity|]. split; [reflexivity|]. intros cs es F. cbn. eapply in_force_convert; eassumption.
      + intros t _ (S1 & S2 & S3). exists (st_tr (st_conv t c) (p_tr t ++ ev)). unfold do_convert. rewrite S2, Ec. split; [reflexivity|].
        split; [split; [exact S1|split; [reflexivity|exact S3]]|]. intros ls0 H0. exact H0.
    - intros s'. unfold do_convert. destruct (convert_cases cf nd (p_conv s) x) as [(v & c' & ev & Ec)|[(c' & ev & Ec)|(c' & ev & Ec)]]; rewrite Ec; discriminate.
  Qed.
  Lemma post_convert_bind keep V B x (f : bytes -> P B) ls s : pos ls s ->
    (forall v s1, do_convert cf x s = (Ret v, s1) -> pos ls s1 -> frame s s1 -> post keep V (f v) ls s1) -> post keep V (mbind (do_convert cf x) f) ls s.
  Proof.
    intros H Hf. apply post_bind0; [now apply post_convert| |exact Hf]. intros a s1 E. unfold do_convert in E.
    destruct (convert _ _ _) as [[o c] ev]. inversion E. reflexivity.
  Qed.

  Definition calm (s s' : pst I) : Prop :=
    p_in s' = p_in s /\ p_eof s' = p_eof s /\ p_cur s' = p_cur s /\ p_line s' = p_line s /\ p_big5 s' = p_big5 s /\ p_conv s' = p_conv s /\
    d_charset (p_dict s') = d_charset (p_dict s) /\ quiet s s'.
  Lemma calm_same s t s' t' : calm s s' -> calm t t' -> same s t -> same s' t'.
  Proof. intros (A1 & A2 & A3 & A4 & A5 & A6 & A7 & A8) (B1 & B2 & B3 & B4 & B5 & B6 & B7 & B8) (C1 & C2 & C3). unfold same. split; [congruence|]. split; congruence. Qed.
  Lemma post_tail V m ls s : (forall t, exists t', m t = (Ret tt, t') /\ calm t t') -> pos ls s -> post false V m ls s.
  Proof.
    intros Hm H. apply post_here; [exact H| |].
    - intros [] s' E. destruct (Hm s) as (s2 & E2 & C). rewrite E in E2. injection E2 as <-. pose proof C as (A1 & A2 & A3 & A4 & A5 & A6 & A7 & A8).
      split; [eapply pos_eq; [| | |exact H]; assumption|]. split; [exact A4|]. split; [exact A8|]. split; [discriminate|].
      intros t _ St. destruct (Hm t) as (t' & E3 & C3). exists t'. split; [exact E3|]. split; [eapply calm_same; eassumption|].
      destruct C3 as (B1 & B2 & B3 & _). intros ls0 H0. eapply pos_eq; [| | |exact H0]; assumption.
    - intros s' E. destruct (Hm s) as (s2 & E2 & _). congruence.
  Qed.
  Lemma add_remarks d op : Forall remark (List.map EvLog (snd (add_translation d op))).
  Proof.
    destruct op as [[?|] ? ?|[?|] ? ? ?]; cbn [add_translation]; unfold add_ctxt_singular, add_singular, add_ctxt_plural, add_plural;
      try destruct (put_singular _ _) as [? []]; try destruct (put_plural _ _) as [? []]; cbn [snd List.map]; repeat constructor; discriminate.
  Qed.
  Lemma dict_add_calm op s : exists s', dict_add cf op s = (Ret tt, s') /\ calm s s'.
  Proof.
    unfold dict_add. rewrite mget_bind. unfold emit. rewrite mmod_bind. unfold dict_call_, mmod. eexists. split; [reflexivity|].
    unfold calm. cbn [st_dict st_tr p_in p_eof p_cur p_line p_big5 p_conv p_dict]. repeat (split; [reflexivity|]).
    split; [cbn [apply_call]; apply add_charset|]. eexists. split; [reflexivity|apply add_remarks].
  Qed.
  Lemma calm_refl s : calm s s.
  Proof. repeat (split; [reflexivity|]). apply quiet_refl. Qed.
  Lemma calm_trans s1 s2 s3 : calm s1 s2 -> calm s2 s3 -> calm s1 s3.
  Proof.
    intros (A1 & A2 & A3 & A4 & A5 & A6 & A7 & A8) (B1 & B2 & B3 & B4 & B5 & B6 & B7 & B8).
    do 7 (split; [congruence|]). eapply quiet_trans; eassumption.
  Qed.
  Lemma calm_warned w s : calm s (warned cf fn w s).
  Proof.
    repeat (split; [reflexivity|]). exists [EvLog (log_warning (fn ++ bs ":" ++ dec_Z (p_line s) ++ bs ": warning: " ++ w ++ bs ": " ++ p_cur s))].
    split; [reflexivity|constructor; [apply remark_warning|constructor]].
  Qed.

  (** *** comments *)
  Lemma comments_lines f : forall b ls s r s', pos ls s -> comments cf f b s = (Ret r, s') ->
    exists cm ls', ls = cm ++ ls' /\ Forall is_comment cm /\ pos ls' s' /\ fr cf s s' /\ starts_with [c_hash] (hd [] ls') = false.
  Proof.
    induction f as [|f IH]; intros b ls s r s' Hp Hr; [discriminate|]. cbn [comments] in Hr. unfold prefix in Hr.
    rewrite mget_bind, (pos_hd _ _ Hp) in Hr. destruct (starts_with [c_hash] (hd [] ls)) eqn:Eh.
    - rewrite mget_bind in Hr. unfold mbind at 1 in Hr. rewrite next_line_eq in Hr.
      destruct ls as [|l ls]; [discriminate|]. cbn [hd] in Eh. apply (IH _ ls) in Hr; [|exact (pos_next_tl _ _ Hp)].
      destruct Hr as (cm & ls' & -> & Hc & Hp' & Fr & Hn). exists (l :: cm), ls'. split; [reflexivity|].
      split; [|split; [exact Hp'|split; [eapply fr_trans; [apply fr_next|exact Fr]|exact Hn]]]. constructor; [|exact Hc].
      apply starts_with_spec in Eh as [u ->]. exists u. split; [reflexivity|]. apply pos_one in Hp. inversion Hp as [|? ? H1 _]; subst.
      intro K. apply H1. right. exact K.
    - injection Hr as _ <-. exists [], ls. split; [reflexivity|]. split; [constructor|]. split; [exact Hp|]. split; [apply fr_refl|exact Eh].
  Qed.
  Lemma post_comments V f : forall b ls s, pos ls s -> post true V (comments cf f b) ls s.
  Proof.
    revert V. induction f as [|f IH]; intros V b ls s Hp; [exact Logic.I|]. cbn [comments]. apply post_prefix; [exact Hp|].
    destruct (starts_with [c_hash] (hd [] ls)) eqn:Eh; [|now apply post_ret].
    destruct ls as [|l ls]; [discriminate|]. apply (post_mget true V _ _ (fun c => c)); [exact Hp|]. cbv zeta. apply post_next_bind; [exact Hp|].
    intro H1. apply IH, H1.
  Qed.

  (** *** entries *)
  Lemma get_string_reads k l ls s v s1 rd ls1 : pos (l :: ls) s -> get_string cf fn k s = (Ret v, s1) -> l :: ls = rd ++ ls1 -> pos ls1 s1 ->
    exists lit, rd = lit_lines (firstn k l) lit /\ lit_value lit = v /\ lit_ok false (p_big5 s) lit.
  Proof.
    intros Hp E El Hp1. destruct (pos_wf _ _ Hp) as (Hw & Hr & He). destruct (pos_wf _ _ Hp1) as (_ & Hr1 & _).
    apply get_string_inv in E; [|exact Hst|exact Hw|exact He]. destruct E as (lit & T & V & Hl & _).
    rewrite Hr, Hr1, El, (pos_hd _ _ Hp) in T. apply app_inv_tail in T. exists lit. auto.
  Qed.
  Lemma starts_length k kw l : k = length kw -> starts_with kw l = true -> k <= length l.
  Proof. intros -> H. apply starts_with_spec in H as [u ->]. rewrite app_length. lia. Qed.
  Lemma put_ne v n x : vec_put v n x <> [].
  Proof. destruct n, v; discriminate. Qed.
  Lemma get_string_stops k s v s' : wf cf s -> p_eof s = false -> get_string cf fn k s = (Ret v, s') -> pquote false 0 (p_cur s') = Some None.
  Proof.
    intros Hw He Hr. rewrite get_string_eq in Hr. apply bind_ret in Hr as (a & s1 & H1 & H2). rewrite run_lex_eq in H1.
    destruct (pfirst _ _ _ _ _) as [ws x|ws m|ws]; [|destruct (error_not_ret _ _ _ _ _ _ _ H1)|discriminate]. injection H1 as <- <-.
    pose proof (lg_warned cf fn ws s) as L.
    apply continuation_inv in H2; [|exact Hst|eapply lg_wf; eassumption|destruct L as (_ & _ & -> & _); exact He].
    destruct H2 as (more & _ & _ & _ & _ & _ & Hq & _). exact Hq.
  Qed.
  Lemma get_string_rest k l ls s v s1 ls1 : pos (l :: ls) s -> get_string cf fn k s = (Ret v, s1) -> pos ls1 s1 -> ~ continues (hd [] ls1).
  Proof.
    intros Hp E Hp1. destruct (pos_wf _ _ Hp) as (Hw & _ & He). pose proof (get_string_stops _ _ _ _ Hw He E) as Q.
    rewrite (pos_hd _ _ Hp1) in Q. now apply pquote_continues.
  Qed.
  Definition row_fine (b5 : bool) (r : nat * literal) : Prop := fst r < 10 /\ lit_ok false b5 (snd r).
  (** what is wrong after the plural forms [rows] *)
  Definition bad_rows (b5 first : bool) (rows : list (nat * literal)) (x msg : bytes) : Prop :=
    (rows <> [] /\ continues x /\ bad_more b5 x msg) \/
    (~ continues x /\ ((first = true /\ rows = [] /\ is_blank x /\ msg = bs "expected 'msgstr[N] (0 <= N <= 9)'") \/ (~ is_blank x /\ bad_form b5 x msg))).
  Lemma post_loop f : forall (V : list bytes -> bytes -> bytes -> Prop) num ne ls s, pos ls s -> ~ continues (hd [] ls) ->
    (forall rows x msg, Forall (row_fine (p_big5 s)) rows -> bad_rows (p_big5 s) (is_nil num) rows x msg -> V (List.concat (List.map row_lines rows)) x msg) ->
    post true V (msgstr_loop cf fn f num ne) ls s.
  Proof.
    induction f as [|f IH]; intros V num ne ls s Hp Hnc HV; [exact Logic.I|]. cbn [msgstr_loop].
    assert (HV0 : forall x msg, bad_rows (p_big5 s) (is_nil num) [] x msg -> V [] x msg) by (intros x msg; apply (HV []); constructor).
    apply post_is_empty; [exact Hp|]. intros e Ee. destruct e.
    { destruct (is_nil num); [|now apply post_ret]. apply post_error; [exact Hp|]. apply HV0. right. split; [exact Hnc|]. left. repeat (split; [reflexivity|]).
      split; [|reflexivity]. apply pempty_true; [apply hd_one; eapply pos_one, Hp|exact Ee]. }
    pose proof (pempty_false _ Ee) as Nb.
    apply (post_run_opt true _ _ _ _ (fun c => pmsgstr_n (cf_strict cf) c)); [apply is_msgstr_n_eq|exact Hp|]. intros m Em. rewrite Hst in Em.
    destruct m.
    2: { apply post_error; [exact Hp|]. apply HV0. right. split; [exact Hnc|]. right. split; [exact Nb|]. right. split; [now apply form_false|reflexivity]. }
    apply (post_mget true V _ _ (fun c => c)); [exact Hp|]. cbv zeta.
    destruct ls as [|l ls]; [discriminate Ee|]. cbn [hd] in *. destruct (digit_row _ Em) as [Hrow Hn]. set (n := N.to_nat (code (nth 7 l c_nul) - 48)) in *.
    assert (K : forall lit, lit_lines (firstn 9 l) lit = row_lines (n, lit)) by (intro; unfold row_lines; cbn [fst snd]; now rewrite Hrow).
    destruct (form_true _ Em) as [Hform H9].
    apply post_bind.
    - apply post_get_string; [exact Hp|exact H9| |].
      + intros msg Hb. apply HV0. right. split; [exact Hnc|]. right. split; [exact Nb|]. left. exists (skipn 9 l). auto.
      + intros lit x msg Hl Hx Hb. rewrite K. specialize (HV [(n, lit)] x msg). cbn [List.map List.concat] in HV. rewrite app_nil_r in HV.
        apply HV; [constructor; [split; assumption|constructor]|]. left. split; [discriminate|auto].
    - intros ms s1 rd ls1 E El Hp1 Fr. destruct (get_string_reads _ _ _ _ _ _ _ _ Hp E El Hp1) as (lit & -> & <- & Hl). rewrite K.
      pose proof (get_string_rest _ _ _ _ _ _ _ Hp E Hp1) as Hnc1.
      apply post_convert_bind; [exact Hp1|]. intros v s2 E2 Hp2 Fr2. apply IH; [exact Hp2|exact Hnc1|]. intros rows x msg Hr Hb.
      rewrite (frame_big5 _ _ Fr2), (frame_big5 _ _ Fr) in Hr, Hb.
      apply (HV ((n, lit) :: rows)); [constructor; [split; assumption|exact Hr]|]. unfold bad_rows in *. destruct Hb as [(_ & Hb)|(H1 & [(X & _)|H2])].
      + left. split; [discriminate|exact Hb].
      + exfalso. assert (Z : vec_put num n v <> []) by apply put_ne. destruct (vec_put num n v); [congruence|discriminate].
      + right. auto.
  Qed.
  Definition bad_plural (b5 : bool) (rows : list (nat * literal)) (x msg : bytes) : Prop :=
    (continues x /\ bad_more b5 x msg) \/
    (~ continues x /\ ((rows = [] /\ is_blank x /\ msg = bs "expected 'msgstr[N] (0 <= N <= 9)'") \/ (~ is_blank x /\ bad_form b5 x msg))).
  Lemma post_plural (V : list bytes -> bytes -> bytes -> Prop) fz ctxt id l ls s : pos (l :: ls) s -> starts_with (bs "msgid_plural") l = true ->
    (forall msg, bad_after (p_big5 s) (skipn 12 l) msg -> V [] l msg) ->
    (forall p rows x msg, lit_ok false (p_big5 s) p -> Forall (row_fine (p_big5 s)) rows -> bad_plural (p_big5 s) rows x msg ->
       V (lit_lines (bs "msgid_plural") p ++ List.concat (List.map row_lines rows)) x msg) ->
    post false V (plural_entry cf fn true fz ctxt id) (l :: ls) s.
  Proof.
    intros Hp Hs HV0 HV. unfold plural_entry. pose proof (starts_firstn 12 (bs "msgid_plural") _ eq_refl Hs) as K.
    apply post_bind.
    - apply post_get_string; [exact Hp|exact (starts_length 12 (bs "msgid_plural") _ eq_refl Hs)|exact HV0|]. intros lit x msg Hl Hx Hb. rewrite K. specialize (HV lit [] x msg). cbn [List.map List.concat] in HV. rewrite app_nil_r in HV.
      apply HV; [exact Hl|constructor|]. left. auto.
    - intros ms s1 rd ls1 E El Hp1 Fr. destruct (get_string_reads _ _ _ _ _ _ _ _ Hp E El Hp1) as (lit & -> & <- & Hl). rewrite K.
      apply post_bind.
      + apply post_loop; [exact Hp1|exact (get_string_rest _ _ _ _ _ _ _ Hp E Hp1)|]. intros rows x msg Hr Hb. rewrite (frame_big5 _ _ Fr) in Hr, Hb. apply HV; [exact Hl|exact Hr|].
        destruct Hb as [(_ & Hb)|(H1 & [(_ & X)|H2])]; [left; exact Hb|right; auto|right; auto].
      + intros r s2 rd2 ls2 E2 El2 Hp2 Fr2. apply loop_ends_empty in E2. rewrite Hst, (pos_hd _ _ Hp2) in E2.
        apply post_is_empty; [exact Hp2|]. intros e Ee. rewrite E2 in Ee. injection Ee as <-. cbn [negb].
        apply post_tail; [|exact Hp2]. intro t. destruct (_ && _); [|exists t; split; [reflexivity|apply calm_refl]]. rewrite mget_bind.
        set (op := AddPlural ctxt id (lit_value lit) (fst r)).
        assert (W : forall t1, calm t t1 -> exists t', dict_add cf op t1 = (Ret tt, t') /\ calm t t').
        { intros t1 C. destruct (dict_add_calm op t1) as (t' & E' & C'). exists t'. split; [exact E'|eapply calm_trans; eassumption]. }
        unfold mbind. destruct (negb (pf_valid _)); [rewrite warning_eq; apply W, calm_warned|].
        destruct (negb _); [rewrite warning_eq; apply W, calm_warned|apply W, calm_refl].
  Qed.
  Lemma post_header V h ls s : pos ls s -> post false V (parse_header cf fn h) ls s.
  Proof.
    intro H. apply post_here; [exact H| |].
    - intros [] s' E. destruct (parse_header_run cf fn Hst h s) as (o & c' & ev & s2 & X1 & X2 & X3 & X4 & X5 & X6 & X7 & X8 & X9).
      rewrite E in X2. injection X2 as <- <-. split; [eapply pos_eq; [| | |exact H]; assumption|].
      pose proof (mild_parse_header h s) as [Y1 Y2]. rewrite E in Y1, Y2. split; [exact Y1|]. split; [exact Y2|]. split; [discriminate|].
      intros t _ (S1 & S2 & S3). destruct (parse_header_run cf fn Hst h t) as (o & c2 & ev2 & t' & Z1 & Z2 & Z3 & Z4 & Z5 & Z6 & Z7 & Z8 & Z9).
      rewrite S2, S3, X1 in Z1. injection Z1 as <- <- <-. exists t'. split; [exact Z2|]. split; [unfold same; split; [congruence|]; split; congruence|].
      intros ls0 H0. eapply pos_eq; [| | |exact H0]; assumption.
    - intros s' E. destruct (parse_header_run cf fn Hst h s) as (o & c' & ev & s2 & X1 & X2 & _). rewrite E in X2. injection X2 as <- _.
      unfold set_charsets in X1. cbn [andb] in X1. destruct (bytes_eqb _ _); [discriminate|]. destruct (ic_open _ _ _) as [?|[? ?]]; discriminate.
  Qed.
  Lemma post_singular (V : list bytes -> bytes -> bytes -> Prop) fz ctxt id l ls s : pos (l :: ls) s -> starts_with (bs "msgstr") l = true ->
    (forall msg, bad_after (p_big5 s) (skipn 6 l) msg -> V [] l msg) ->
    (forall m x msg, lit_ok false (p_big5 s) m -> continues x -> bad_more (p_big5 s) x msg -> V (lit_lines (bs "msgstr") m) x msg) ->
    post false V (singular_entry cf fn true fz ctxt id) (l :: ls) s.
  Proof.
    intros Hp Hs HV0 HV. unfold singular_entry. pose proof (starts_firstn 6 (bs "msgstr") _ eq_refl Hs) as K.
    apply post_bind.
    - apply post_get_string; [exact Hp|exact (starts_length 6 (bs "msgstr") _ eq_refl Hs)|exact HV0|]. intros lit x msg Hl. rewrite K. now apply HV.
    - intros ms s1 rd ls1 E El Hp1 Fr. destruct (is_nil id); [now apply post_header|]. destruct (_ && _); [|now apply post_ret].
      apply post_convert_bind; [exact Hp1|]. intros v s2 E2 Hp2 Fr2. apply post_tail; [apply dict_add_calm|exact Hp2].
  Qed.

  Definition ck0 : chunk := {| ck_lead := []; ck_body := []; ck_trail := [] |}.
  Definition lit0 : literal := {| lt_head := ck0; lt_more := [] |}.
  Lemma lit0_ok b5 : lit_ok false b5 lit0.
  Proof.
    constructor; [|constructor]. split; [constructor|]. split; [intros []|]. split; [constructor|]. split; [intros []|]. discriminate.
  Qed.
  Lemma entry_fine b5 oc i bd : opt_lit_ok false b5 oc -> lit_ok false b5 i -> body_ok false b5 bd ->
    entry_ok false b5 {| en_ctxt := oc; en_id := i; en_body := bd |}.
  Proof.
    intros H1 H2 H3. unfold entry_ok. cbn [en_ctxt en_id en_body]. split; [exact H1|]. split; [exact H2|]. split; [exact H3|].
    destruct (is_header _); [discriminate|exact Logic.I].
  Qed.
  Lemma said_more b5 pre x msg : stage_after pre <> AtStart -> continues x -> bad_more b5 x msg -> complaint b5 pre x msg.
  Proof. intros H1 H2 H3. left. auto. Qed.
  Lemma said_line b5 pre x msg st : stage_after pre = st -> (st = AtStart \/ ~ continues x) -> bad_line b5 st x msg -> complaint b5 pre x msg.
  Proof. intros H1 H2 H3. right. rewrite H1. auto. Qed.
  Section Comments.
  (** comments before the entry *)
  Variable cm : list bytes.
  Hypothesis Hcm : Forall is_comment cm.
  Lemma post_entry (V : list bytes -> bytes -> bytes -> Prop) fz l ls s : pos (l :: ls) s ->
    (forall e pre more x msg, entry_ok false (p_big5 s) e -> entry_lines e = pre ++ more -> complaint (p_big5 s) (cm ++ pre) x msg -> V pre x msg) ->
    post false V (entry cf fn true fz) (l :: ls) s.
  Proof.
    intros Hp HV. unfold entry.
    assert (F : forall oc i bd pre more x msg, opt_lit_ok false (p_big5 s) oc -> lit_ok false (p_big5 s) i -> body_ok false (p_big5 s) bd ->
      ctxt_lines oc ++ lit_lines (bs "msgid") i ++ body_lines bd = pre ++ more -> complaint (p_big5 s) (cm ++ pre) x msg -> V pre x msg).
    { intros oc i bd pre more x msg H1 H2 H3 H4. eapply HV; [exact (entry_fine _ _ _ _ H1 H2 H3)|exact H4]. }
    pose proof (lit0_ok (p_big5 s)) as L0.
    assert (HV0 : forall x msg, bad_line (p_big5 s) AtStart x msg -> V [] x msg).
    { intros x msg Hb. eapply (F None lit0 (PoStr lit0) [] _ x msg Logic.I L0 L0); [reflexivity|]. rewrite app_nil_r. eapply said_line; [now apply stage_comments|now left|exact Hb]. }
    apply post_prefix; [exact Hp|]. cbn [hd].
    (* from the msgid on *)
    assert (G : forall oc l1 ls1 s1 fin, opt_lit_ok false (p_big5 s) oc -> pos ls1 s1 -> hd [] ls1 = l1 -> p_big5 s1 = p_big5 s ->
      (forall msg, bad_id (p_big5 s) l1 msg -> complaint (p_big5 s) (cm ++ ctxt_lines oc) l1 msg) ->
      post false (fun pre => V (ctxt_lines oc ++ pre))
        (hi_ <- prefix cf (bs "msgid");; msgid <- (if hi_ then get_string cf fn 5 else error cf fn (bs "expected 'msgid'"));;
         hp <- prefix cf (bs "msgid_plural");;
         if hp then plural_entry cf fn true fz fin msgid
         else hs <- prefix cf (bs "msgstr");; if hs then singular_entry cf fn true fz fin msgid else error cf fn (bs "expected 'msgstr' or 'msgid_plural'")) ls1 s1).
    { intros oc l1 ls1 s1 fin Hoc Hp1 Hl1 B1 HC. apply post_prefix; [exact Hp1|]. rewrite Hl1.
      assert (HV1 : forall msg, bad_id (p_big5 s) l1 msg -> V (ctxt_lines oc ++ []) l1 msg).
      { intros msg Hb. apply (F oc lit0 (PoStr lit0) _ (lit_lines (bs "msgid") lit0 ++ body_lines (PoStr lit0)) l1 msg Hoc L0 L0); [now rewrite app_nil_r|]. rewrite app_nil_r. now apply HC. }
      unfold bad_id in HV1. destruct (starts_with (bs "msgid") l1) eqn:Em.
      2: { apply post_bind; [apply post_error; [exact Hp1|]; rewrite Hl1; now apply HV1|]. intros a s' rd ls' E. destruct (error_not_ret _ _ _ _ _ _ _ E). }
      destruct ls1 as [|l1' ls1]; [cbn [hd] in Hl1; subst l1; discriminate|]. cbn [hd] in Hl1. subst l1'.
      pose proof (starts_firstn 5 (bs "msgid") _ eq_refl Em) as K.
      apply post_bind.
      - apply post_get_string; [exact Hp1|exact (starts_length 5 (bs "msgid") _ eq_refl Em)|rewrite B1; exact HV1|]. intros lit x msg Hl Hx Hb. rewrite K. rewrite B1 in Hl, Hb.
        apply (F oc lit (PoStr lit0) _ (body_lines (PoStr lit0)) x msg Hoc Hl L0); [now rewrite <- app_assoc|].
        rewrite app_assoc. apply said_more; [rewrite (stage_id (p_big5 s)) by exact Hl; discriminate|exact Hx|exact Hb].
      - intros id s2 rd ls2 E El Hp2 Fr. pose proof (get_string_rest _ _ _ _ _ _ _ Hp1 E Hp2) as Hnc.
        destruct (get_string_reads _ _ _ _ _ _ _ _ Hp1 E El Hp2) as (lit & -> & <- & Hl). rewrite K. rewrite B1 in Hl.
        pose proof (frame_big5 _ _ Fr) as B2. rewrite B1 in B2.
        assert (HV2 : forall msg, bad_line (p_big5 s) AfterId (hd [] ls2) msg -> V (ctxt_lines oc ++ lit_lines (bs "msgid") lit ++ []) (hd [] ls2) msg).
        { intros msg Hb. apply (F oc lit (PoStr lit0) _ (body_lines (PoStr lit0)) _ _ Hoc Hl L0); [now rewrite app_nil_r, <- app_assoc|]. rewrite app_nil_r, app_assoc.
          eapply said_line; [apply (stage_id (p_big5 s)), Hl|now right|exact Hb]. }
        unfold bad_line in HV2.
        apply post_prefix; [exact Hp2|]. destruct (starts_with (bs "msgid_plural") (hd [] ls2)) eqn:Ep.
        + destruct ls2 as [|l2 ls2]; [discriminate|]. apply post_plural; [exact Hp2|exact Ep|rewrite B2; exact HV2|]. rewrite B2. intros p rows x msg Hpl Hr Hb.
          destruct rows as [|r rows].
          * cbn [List.map List.concat]. rewrite app_nil_r.
            assert (L1 : body_ok false (p_big5 s) (PoPlural p [(0, lit0)])).
            { split; [exact Hpl|]. split; [discriminate|]. constructor; [split; [cbn; lia|exact L0]|constructor]. }
            apply (F oc lit _ _ (row_lines (0, lit0)) x msg Hoc Hl L1); [cbn [body_lines List.map List.concat]; rewrite app_nil_r, <- !app_assoc; reflexivity|].
            rewrite !app_assoc. destruct Hb as [[H1 H2]|[H1 H2]].
            -- apply said_more; [rewrite (stage_plural (p_big5 s)) by exact Hpl; discriminate|exact H1|exact H2].
            -- eapply said_line; [apply (stage_plural (p_big5 s)), Hpl|now right|]. destruct H2 as [(_ & H2)|H2]; [left; exact H2|right; exact H2].
          * assert (L1 : body_ok false (p_big5 s) (PoPlural p (r :: rows))) by (split; [exact Hpl|split; [discriminate|exact Hr]]).
            apply (F oc lit _ _ [] x msg Hoc Hl L1); [cbn [body_lines]; now rewrite app_nil_r|].
            assert (St : stage_after (cm ++ ctxt_lines oc ++ lit_lines (bs "msgid") lit ++ lit_lines (bs "msgid_plural") p ++ List.concat (List.map row_lines (r :: rows))) = AfterForm).
            { destruct (@exists_last _ (r :: rows)) as (rs & [n lt] & X); [discriminate|]. rewrite X in Hr |- *. apply Forall_app in Hr as [_ Hr]. inversion Hr as [|? ? [_ Y] _]; subst.
              rewrite map_app, concat_app. cbn [List.map List.concat]. rewrite app_nil_r, !app_assoc. apply (stage_row (p_big5 s)). exact Y. }
            destruct Hb as [[H1 H2]|[H1 H2]].
            -- apply said_more; [rewrite St; discriminate|exact H1|exact H2].
            -- eapply said_line; [exact St|now right|]. destruct H2 as [(X & _)|[_ H2]]; [discriminate|exact H2].
        + apply post_prefix; [exact Hp2|]. destruct (starts_with (bs "msgstr") (hd [] ls2)) eqn:Es; [|apply post_error; [exact Hp2|now apply HV2]].
          destruct ls2 as [|l2 ls2]; [discriminate|]. apply post_singular; [exact Hp2|exact Es|rewrite B2; exact HV2|]. rewrite B2. intros m x msg Hm Hx Hb.
          apply (F oc lit (PoStr m) _ [] x msg Hoc Hl Hm); [now rewrite app_nil_r|]. cbn [body_lines]. rewrite !app_assoc.
          apply said_more; [rewrite (stage_str (p_big5 s)) by exact Hm; discriminate|exact Hx|exact Hb]. }
    destruct (starts_with (bs "msgctxt") l) eqn:Ec.
    - pose proof (starts_firstn 7 (bs "msgctxt") _ eq_refl Ec) as K.
      eapply post_ext; [exact Hp|intros t _ _|].
      { match goal with |- mbind (mbind ?m ?g) ?f t = _ => instantiate (1 := mbind m (fun c => f (Some c))) end.
        unfold mbind. destruct (get_string cf fn 7 t) as [[?|?|?| |] ?]; reflexivity. }
      apply post_bind.
      + apply post_get_string; [exact Hp|exact (starts_length 7 (bs "msgctxt") _ eq_refl Ec)|intros msg Hb; apply HV0; unfold bad_line; rewrite Ec; exact Hb|]. intros lit x msg Hl Hx Hb. rewrite K.
        apply (F (Some lit) lit0 (PoStr lit0) _ (lit_lines (bs "msgid") lit0 ++ body_lines (PoStr lit0)) x msg Hl L0 L0); [reflexivity|].
        apply said_more; [|exact Hx|exact Hb]. rewrite (stage_ctxt (p_big5 s)) by exact Hl. discriminate.
      + intros c s1 rd ls1 E El Hp1 Fr. pose proof (get_string_rest _ _ _ _ _ _ _ Hp E Hp1) as Hnc.
        destruct (get_string_reads _ _ _ _ _ _ _ _ Hp E El Hp1) as (lit & -> & <- & Hl). rewrite K.
        apply (G (Some lit) (hd [] ls1)); auto; [apply frame_big5, Fr|]. intros msg Hb. eapply said_line; [apply (stage_ctxt (p_big5 s)), Hl|now right|exact Hb].
    - eapply post_ext; [exact Hp|intros t _ _; reflexivity|]. apply (G None l (l :: ls) s None); auto; [exact Logic.I|].
      intros msg Hb. cbn [ctxt_lines]. rewrite app_nil_r. eapply said_line; [now apply stage_comments|now left|]. unfold bad_line. rewrite Ec. exact Hb.
  Qed.
  End Comments.

  (** ** What was read *)
  Lemma post_pos keep V A (m : P A) ls s a s1 : post keep V m ls s -> m s = (Ret a, s1) -> exists rd ls1, ls = rd ++ ls1 /\ pos ls1 s1.
  Proof. intros H E. unfold post in H. rewrite E in H. destruct H as [(rd & ls1 & H1 & H2 & _) _]. eauto. Qed.
  Lemma get_string_run k l ls s v s1 : pos (l :: ls) s -> k <= length l -> get_string cf fn k s = (Ret v, s1) ->
    exists lit ls1, l :: ls = lit_lines (firstn k l) lit ++ ls1 /\ pos ls1 s1 /\ lit_value lit = v /\ lit_ok false (p_big5 s) lit /\ fr cf s s1 /\
      ~ continues (hd [] ls1).
  Proof.
    intros Hp Hk E. destruct (post_pos _ _ _ _ _ _ _ _ (post_get_string (fun _ _ _ => True) k l ls s Hp Hk (fun _ _ => Logic.I) (fun _ _ _ _ _ _ => Logic.I)) E) as (rd & ls1 & El & Hp1).
    destruct (get_string_reads _ _ _ _ _ _ _ _ Hp E El Hp1) as (lit & -> & Hv & Hl). exists lit, ls1. split; [exact El|]. split; [exact Hp1|]. split; [exact Hv|].
    split; [exact Hl|]. destruct (pos_wf _ _ Hp) as (Hw & _ & He). pose proof (get_string_stops _ _ _ _ Hw He E) as Q. rewrite (pos_hd _ _ Hp1) in Q.
    apply get_string_inv in E; [|exact Hst|exact Hw|exact He]. destruct E as (lit' & _ & _ & _ & _ & Fr & _). split; [exact Fr|]. now apply pquote_continues.
  Qed.

  Section Meaning.
  Variable cs : bytes.
  (** [s'] is the state after the entry [e] *)
  Definition took (e : po_entry) (s s' : pst I) : Prop :=
    exists c' k, read_entry nd cs (p_conv s) e = (Ret tt, c', k) /\ p_calls s' = p_calls s ++ k /\
      p_big5 s' = big5_after (p_big5 s) e /\ d_charset (p_dict s') = cs /\
      (forall es, in_force cs es (p_conv s) -> in_force cs (es ++ [e]) (p_conv s')).

  Lemma singular_took fz oc i l ls s s2 s' : pos (l :: ls) s2 -> fr cf s s2 -> d_charset (p_dict s) = cs -> starts_with (bs "msgstr") l = true ->
    opt_lit_ok false (p_big5 s) oc -> lit_ok false (p_big5 s) i ->
    singular_entry cf fn true fz (opt_value oc) (lit_value i) s2 = (Ret tt, s') ->
    exists m ls', l :: ls = lit_lines (bs "msgstr") m ++ ls' /\ lit_ok false (p_big5 s) m /\ pos ls' s' /\ ~ continues (hd [] ls') /\
      took {| en_ctxt := oc; en_id := i; en_body := PoStr m |} s s'.
  Proof.
    intros Hp Fr Hcs Hs Hoc Hi E. unfold singular_entry in E. apply bind_ret in E as (ms & s3 & E3 & E).
    destruct (get_string_run _ _ _ _ _ _ Hp (starts_length 6 (bs "msgstr") _ eq_refl Hs) E3) as (m & ls' & El & Hp3 & <- & Hm & Fr3 & Hq).
    rewrite (starts_firstn 6 (bs "msgstr") _ eq_refl Hs) in El. pose proof (fr_trans _ _ _ _ Fr Fr3) as (G1 & G2 & G3 & G4).
    destruct Fr as (F1 & _). rewrite F1 in Hm. exists m, ls'. split; [exact El|]. split; [exact Hm|].
    set (e := {| en_ctxt := oc; en_id := i; en_body := PoStr m |}).
    destruct (is_nil (lit_value i)) eqn:Ei.
    - destruct (parse_header_run cf fn Hst (lit_value m) s3) as (o & c' & ev & s4 & X1 & X2 & X3 & X4 & X5 & X6 & X7 & X8 & X9).
      rewrite E in X2. injection X2 as <- <-. split; [eapply pos_eq; [| | |exact Hp3]; assumption|]. split; [exact Hq|].
      rewrite G2, G4, Hcs in X1.
      assert (Hh : is_header e = Some (lit_value m)) by (unfold is_header; cbn [en_body en_id e]; now rewrite Ei).
      eexists; exists (List.map CallPlural (hdr_plurals (lit_value m))). unfold read_entry. cbn [en_body en_id e]. rewrite Ei, X1, X6.
      split; [reflexivity|]. split; [rewrite X9, G3; reflexivity|]. split; [unfold big5_after; rewrite Hh, X7, G1; reflexivity|].
      split; [rewrite X8, G4; exact Hcs|]. intros es _. exact (in_force_set cf cs es e _ _ _ _ Hh X1).
    - assert (Hh : is_header e = None) by (unfold is_header; cbn [en_body en_id e]; now rewrite Ei).
      assert (IF : forall es (c : iconv I), in_force cs es c -> in_force cs (es ++ [e]) c).
      { intros es c X. unfold in_force. rewrite last_header_snoc, Hh. exact X. }
      assert (B5 : big5_after (p_big5 s) e = p_big5 s) by (unfold big5_after; now rewrite Hh).
      destruct (is_nil (lit_value m)) eqn:El2; cbn [negb andb orb] in E.
      + injection E as <-. split; [exact Hp3|]. split; [exact Hq|]. eexists; exists []. unfold read_entry. cbn [en_body en_id e]. rewrite Ei, El2, G2, G3, G4, app_nil_r, B5.
        split; [reflexivity|]. split; [reflexivity|]. split; [exact G1|]. split; [exact Hcs|]. intros es F. apply IF, F.
      + apply bind_ret in E as (v & s4 & E4 & E). unfold do_convert in E4. destruct (convert nd (p_conv s3) (lit_value m)) as [[o c'] ev] eqn:Ec.
        inversion E4; subst o s4. clear E4. rewrite G2 in Ec.
        destruct (dict_add_run cf (AddSingular (opt_value oc) (lit_value i) v) (st_tr (st_conv s3 c') (p_tr s3 ++ ev)))
          as (s5 & E5 & P1 & P2 & P3 & P4 & P5 & P6 & P7). rewrite E in E5. injection E5 as <-.
        split; [eapply pos_eq; [| | |exact Hp3]; assumption|]. split; [exact Hq|].
        eexists; exists [CallAdd (AddSingular (opt_value oc) (lit_value i) v)]. unfold read_entry. cbn [en_body en_id en_ctxt e]. rewrite Ei, El2, Ec, P4, P7, B5.
        split; [reflexivity|]. split; [cbn; rewrite G3; reflexivity|]. split; [rewrite P5; exact G1|]. split; [rewrite P6; cbn; rewrite G4; exact Hcs|].
        intros es F. cbn. apply IF. eapply in_force_convert; eassumption.
  Qed.

  Lemma plural_took fz oc i l ls s s2 s' : pos (l :: ls) s2 -> fr cf s s2 -> d_charset (p_dict s) = cs -> starts_with (bs "msgid_plural") l = true ->
    opt_lit_ok false (p_big5 s) oc -> lit_ok false (p_big5 s) i ->
    plural_entry cf fn true fz (opt_value oc) (lit_value i) s2 = (Ret tt, s') ->
    exists p rows ls', l :: ls = lit_lines (bs "msgid_plural") p ++ List.concat (List.map row_lines rows) ++ ls' /\
      body_ok false (p_big5 s) (PoPlural p rows) /\ pos ls' s' /\ is_blank (hd [] ls') /\
      took {| en_ctxt := oc; en_id := i; en_body := PoPlural p rows |} s s'.
  Proof.
    intros Hp Fr Hcs Hs Hoc Hi E. unfold plural_entry in E. apply bind_ret in E as (ms & s3 & E3 & E).
    destruct (get_string_run _ _ _ _ _ _ Hp (starts_length 12 (bs "msgid_plural") _ eq_refl Hs) E3) as (p & ls3 & El & Hp3 & <- & Hpl & Fr3 & Hnc3).
    rewrite (starts_firstn 12 (bs "msgid_plural") _ eq_refl Hs) in El. pose proof (fr_trans _ _ _ _ Fr Fr3) as (G1 & G2 & G3 & G4).
    destruct Fr as (F1 & _). rewrite F1 in Hpl.
    apply bind_ret in E as (r & s4 & E4 & E).
    destruct (post_pos _ _ _ _ _ _ _ _ (post_loop (cf_fuel cf) (fun _ _ _ => True) [] false ls3 s3 Hp3 Hnc3 (fun _ _ _ _ _ => Logic.I)) E4) as (rd & ls4 & El4 & Hp4).
    pose proof (loop_ends_empty _ _ _ _ _ _ _ _ E4) as He4. rewrite Hst, (pos_hd _ _ Hp4) in He4.
    destruct (pos_wf _ _ Hp3) as (Hw3 & Hr3 & Heof3). destruct (pos_wf _ _ Hp4) as (_ & Hr4 & _).
    apply msgstr_loop_inv in E4; [|exact Hst|exact Hw3|].
    2: { intro X. rewrite X in Heof3. destruct ls3; [|discriminate]. apply (pos_hd _ _ Hp3). }
    destruct E4 as (rows & vs & T2 & F & Cv & V & Ne & Hne & B & Kc & D & _). cbn [orb] in Ne. rewrite Hr3, Hr4 in T2.
    exists p, rows, ls4. split; [rewrite El, T2; reflexivity|].
    split; [split; [exact Hpl|]; split; [now apply Hne|]; rewrite G1 in F; exact F|].
    assert (Hb : is_blank (hd [] ls4)) by (apply pempty_true; [apply hd_one; eapply pos_one, Hp4|exact He4]).
    set (e := {| en_ctxt := oc; en_id := i; en_body := PoPlural p rows |}).
    assert (IF : forall es (c : iconv I), in_force cs es c -> in_force cs (es ++ [e]) c).
    { intros es c X. unfold in_force. rewrite last_header_snoc. cbn [is_header en_body e]. exact X. }
    rewrite G2 in Cv.
    assert (Hvs : vs <> []).
    { intro X. subst vs. specialize (Hne eq_refl). destruct rows as [|[n lt] rows]; [congruence|]. cbn [convert_rows] in Cv.
      destruct (convert _ _ _) as [[[?|?|?| |] ?] ?]; try discriminate Cv.
      destruct (convert_rows _ _ _) as [[?|?|?| |] ?]; discriminate Cv. }
    unfold mbind at 1 in E. rewrite is_empty_line_eq, Hst, (pos_hd _ _ Hp4), He4 in E. cbn [run_opt] in E. unfold mret at 1 in E. cbv beta iota in E. cbn [negb] in E.
    rewrite Ne in E. destruct (forallb (fun r => is_nil (lit_value (snd r))) rows) eqn:Ef; cbn [negb andb orb] in E.
    - injection E as <-. split; [exact Hp4|]. split; [exact Hb|]. eexists; exists []. unfold read_entry. cbn [en_body en_id e]. rewrite Cv, Ef, Kc, G3, app_nil_r.
      split; [reflexivity|]. split; [reflexivity|]. split; [rewrite B; exact G1|]. split; [rewrite D, G4; exact Hcs|]. intros es X. apply IF. eapply in_force_rows; eassumption.
    - rewrite mget_bind in E.
      assert (W : exists s5, lg cf s4 s5 /\ dict_add cf (AddPlural (opt_value oc) (lit_value i) (lit_value p) (fst r)) s5 = (Ret tt, s')).
      { unfold mbind at 1 in E. destruct (negb (pf_valid _)); [rewrite warning_eq in E; eexists; split; [|exact E]; exact (lg_warned cf fn [_] s4)|].
        destruct (negb (Z.eqb _ _)); [rewrite warning_eq in E; eexists; split; [|exact E]; exact (lg_warned cf fn [_] s4)|].
        exists s4. split; [exact (lg_warned cf fn [] s4)|exact E]. }
      clear E. destruct W as (s5 & ((L1 & L2 & L3 & L4) & L5 & L6 & L7) & E).
      destruct (dict_add_run cf (AddPlural (opt_value oc) (lit_value i) (lit_value p) (fst r)) s5) as (s6 & E6 & P1 & P2 & P3 & P4 & P5 & P6 & P7).
      rewrite E in E6. injection E6 as <-. split; [eapply pos_eq; [| | |exact Hp4]; congruence|]. split; [exact Hb|].
      rewrite V, put_all_forms in P7 by exact Hvs.
      eexists; exists [CallAdd (AddPlural (opt_value oc) (lit_value i) (lit_value p) (forms vs))]. unfold read_entry. cbn [en_body en_id en_ctxt e]. rewrite Cv, Ef, P4, P7, L3, Kc, G3, L2.
      split; [reflexivity|]. split; [reflexivity|]. split; [rewrite P5, L1, B; exact G1|]. split; [rewrite P6, L4, D, G4; exact Hcs|].
      intros es X. apply IF. eapply in_force_rows; eassumption.
  Qed.

  (** what may come after *)
  Definition after_entry (e : po_entry) (x : bytes) : Prop :=
    match en_body e with PoStr _ => ~ continues x | PoPlural _ _ => is_blank x end.
  Lemma entry_took fz l ls s s' : pos (l :: ls) s -> d_charset (p_dict s) = cs -> entry cf fn true fz s = (Ret tt, s') ->
    exists e ls', l :: ls = entry_lines e ++ ls' /\ entry_ok false (p_big5 s) e /\ pos ls' s' /\ after_entry e (hd [] ls') /\ took e s s'.
  Proof.
    intros Hp Hcs E. unfold entry, prefix in E. rewrite mget_bind, (pos_hd _ _ Hp) in E. cbn [hd] in E. apply bind_ret in E as (ctxt & s1 & E1 & E).
    assert (C : exists oc ls1, ctxt = opt_value oc /\ l :: ls = ctxt_lines oc ++ ls1 /\ pos ls1 s1 /\ opt_lit_ok false (p_big5 s) oc /\ fr cf s s1).
    { destruct (starts_with (bs "msgctxt") l) eqn:Ec.
      - apply bind_ret in E1 as (a & s1' & H1 & H2). injection H2 as <- <-.
        destruct (get_string_run _ _ _ _ _ _ Hp (starts_length 7 (bs "msgctxt") _ eq_refl Ec) H1) as (lit & ls1 & El & Hp1 & <- & Hl & Fr & _).
        rewrite (starts_firstn 7 (bs "msgctxt") _ eq_refl Ec) in El. exists (Some lit), ls1. auto.
      - injection E1 as <- <-. exists None, (l :: ls). split; [reflexivity|]. split; [reflexivity|]. split; [exact Hp|]. split; [exact Logic.I|apply fr_refl]. }
    destruct C as (oc & ls1 & -> & El1 & Hp1 & Hoc & Fr1). clear E1.
    rewrite mget_bind, (pos_hd _ _ Hp1) in E. apply bind_ret in E as (id & s2 & E2 & E).
    destruct (starts_with (bs "msgid") (hd [] ls1)) eqn:Em; [|destruct (error_not_ret _ _ _ _ _ _ _ E2)].
    destruct ls1 as [|l1 ls1]; [discriminate|]. cbn [hd] in Em.
    destruct (get_string_run _ _ _ _ _ _ Hp1 (starts_length 5 (bs "msgid") _ eq_refl Em) E2) as (i & ls2 & El2 & Hp2 & <- & Hi & Fr2 & _).
    rewrite (starts_firstn 5 (bs "msgid") _ eq_refl Em) in El2. assert (Fr : fr cf s s2) by (eapply fr_trans; eassumption).
    assert (Hli : lit_ok false (p_big5 s) i) by (destruct Fr1 as (<- & _); exact Hi).
    rewrite mget_bind, (pos_hd _ _ Hp2) in E. destruct (starts_with (bs "msgid_plural") (hd [] ls2)) eqn:Ep.
    - destruct ls2 as [|l2 ls2]; [discriminate|]. destruct (plural_took fz oc i l2 ls2 s s2 s' Hp2 Fr Hcs Ep Hoc Hli E) as (p & rows & ls' & El3 & Hb & Hp3 & Hbl & T).
      exists {| en_ctxt := oc; en_id := i; en_body := PoPlural p rows |}, ls'. split.
      { rewrite El1, El2, El3. unfold entry_lines. cbn [en_ctxt en_id en_body body_lines]. now rewrite <- !app_assoc. }
      split; [now apply entry_fine|]. auto.
    - rewrite mget_bind, (pos_hd _ _ Hp2) in E. destruct (starts_with (bs "msgstr") (hd [] ls2)) eqn:Es; [|destruct (error_not_ret _ _ _ _ _ _ _ E)].
      destruct ls2 as [|l2 ls2]; [discriminate|]. destruct (singular_took fz oc i l2 ls2 s s2 s' Hp2 Fr Hcs Es Hoc Hli E) as (m & ls' & El3 & Hm & Hp3 & Hq & T).
      exists {| en_ctxt := oc; en_id := i; en_body := PoStr m |}, ls'. split.
      { rewrite El1, El2, El3. unfold entry_lines. cbn [en_ctxt en_id en_body body_lines]. now rewrite <- !app_assoc. }
      split; [now apply entry_fine|]. auto.
  Qed.
  End Meaning.
  (** ** A block up to its separating line *)
  Definition front : P unit :=
    fz <- comments cf (cf_fuel cf) false;; e <- is_empty_line cf;; (if e then mret tt else entry cf fn true fz).
  Definition back : P unit :=
    e' <- is_empty_line cf;; (if e' then mret tt else error cf fn (bs "expected empty line"));; next_line cf.
  Lemma block_front s : block cf fn true s = mbind front (fun _ => back) s.
  Proof.
    unfold block, front, back, mbind. destruct (comments cf (cf_fuel cf) false s) as [[fz|?|?| |] s1]; try reflexivity.
    destruct (is_empty_line cf s1) as [[e|?|?| |] s2]; reflexivity.
  Qed.
  Lemma pos_inj ls ls' s : pos ls s -> pos ls' s -> ls = ls'.
  Proof. intros H H'. apply pos_wf in H as (_ & H & _). apply pos_wf in H' as (_ & H' & _). congruence. Qed.

  Lemma post_front ls s : pos ls s -> post false (fun pre x msg => unfinished (p_big5 s) pre /\ complaint (p_big5 s) pre x msg) front ls s.
  Proof.
    intro Hp. unfold front. apply post_bind; [now apply post_comments|]. intros fz s1 rd ls1 E El Hp1 Fr.
    destruct (comments_lines _ _ _ _ _ _ Hp E) as (cm & ls1' & El' & Hcm & Hp1' & _ & Hh).
    pose proof (pos_inj _ _ _ Hp1' Hp1). subst ls1'. rewrite El in El'. apply app_inv_tail in El'. subst cm.
    apply post_is_empty; [exact Hp1|]. intros e Ee. destruct e; [now apply post_ret|].
    destruct ls1 as [|l1 ls1]; [discriminate|]. apply (post_entry rd Hcm); [exact Hp1|]. intros e pre more x msg He Hl Hco.
    rewrite (frame_big5 _ _ Fr) in He, Hco. split; [|exact Hco].
    assert (N : exists y more', more ++ [[]] = y :: more') by (destruct more; cbn [app]; eauto). destruct N as (y & more' & N).
    exists {| bl_comments := rd; bl_entry := Some e |}, [], y, more'.
    split; [split; assumption|]. split; [split; [split; [intros []|left; constructor]|discriminate]|].
    unfold block_lines. cbn [bl_comments bl_entry]. rewrite Hl, <- !app_assoc, N. reflexivity.
  Qed.
  Lemma blank_white l : is_blank l -> starts_with [c_hash] l = false -> white l.
  Proof.
    intros [_ [H|[->|(c & l' & -> & _)]]] Hh; [exact H| |].
    - discriminate.
    - exfalso. apply not_true_iff_false in Hh. apply Hh. apply starts_with_spec. exists (c :: l'). reflexivity.
  Qed.
  Lemma front_took cs ls s s' : pos ls s -> d_charset (p_dict s) = cs -> front s = (Ret tt, s') ->
    exists b ls', ls = block_lines b ++ ls' /\ block_fine (p_big5 s) b /\ pos ls' s' /\
      match bl_entry b with
      | None => frame s s' /\ white (hd [] ls')
      | Some e => after_entry e (hd [] ls') /\ took cs e s s'
      end.
  Proof.
    intros Hp Hcs E. unfold front in E. apply bind_ret in E as (fz & s1 & E1 & E).
    destruct (comments_lines _ _ _ _ _ _ Hp E1) as (cm & ls1 & El & Hcm & Hp1 & Fr & Hh).
    apply bind_ret in E as (e & s2 & E2 & E). rewrite is_empty_line_eq, Hst, (pos_hd _ _ Hp1) in E2.
    destruct (pempty false (hd [] ls1)) as [e'|] eqn:Ee; [|discriminate]. injection E2 as -> <-. destruct e.
    - injection E as <-. exists {| bl_comments := cm; bl_entry := None |}, ls1. unfold block_lines. cbn [bl_comments bl_entry]. rewrite app_nil_r.
      split; [exact El|]. split; [split; [exact Hcm|exact Logic.I]|]. split; [exact Hp1|]. split.
      + destruct Fr as (F1 & F2 & F3 & F4). split; [exact F1|]. split; [exact F3|]. split; [exact F4|]. intros cs' es X. rewrite F2. exact X.
      + apply blank_white; [|exact Hh]. apply pempty_true; [apply hd_one; eapply pos_one, Hp1|exact Ee].
    - destruct ls1 as [|l1 ls1]; [discriminate|]. pose proof Fr as (F1 & F2 & F3 & F4).
      destruct (entry_took cs fz l1 ls1 s1 s' Hp1) as (e & ls' & El' & He & Hp' & Ha & T); [congruence|exact E|].
      exists {| bl_comments := cm; bl_entry := Some e |}, ls'. unfold block_lines. cbn [bl_comments bl_entry].
      split; [rewrite El, El'; apply app_assoc|]. rewrite F1 in He. split; [split; assumption|]. split; [exact Hp'|]. split; [exact Ha|].
      destruct T as (c' & k & T1 & T2 & T3 & T4 & T5). exists c', k. rewrite F2 in T1. rewrite F3 in T2. rewrite F1 in T3. rewrite F2 in T5. auto.
  Qed.

  Lemma front_runs b x more t : pos (block_lines b ++ x :: more) t -> block_fine (p_big5 t) b ->
    match bl_entry b with None => separator_ok b x | Some e => follows cf e x end -> fst (front t) <> Exn ExPo.
  Proof.
    intros Hp [Hc He] Hx. set (ls := match bl_entry b with Some e => entry_lines e | None => [] end ++ x :: more).
    assert (S : sees cf [] (bl_comments b ++ ls) (p_conv t) (p_big5 t) (d_charset (p_dict t)) (p_calls t) t).
    { split; [|auto]. unfold ls. unfold block_lines in Hp. rewrite <- app_assoc in Hp. exact Hp. }
    assert (Hn : starts_with [c_hash] (hd [] ls) = false).
    { unfold ls. destruct (bl_entry b) as [e|] eqn:Eb; [apply entry_not_hash|]. cbn [app hd]. now apply (blank_not_hash b). }
    pose proof (comments_block cf [] ls _ _ _ _ (bl_comments b) (cf_fuel cf) false t S Hc Hn) as C. unfold front. unfold mbind at 1.
    destruct (comments cf (cf_fuel cf) false t) as [o s1] eqn:Ec. destruct C as [C|(fz & C & H1)]; cbn [fst snd] in C; subst o; [discriminate|]. cbn [snd] in H1.
    unfold mbind. rewrite is_empty_line_eq, (sees_cur _ _ _ _ _ _ _ _ H1). unfold ls in *. destruct (bl_entry b) as [e|].
    - rewrite entry_not_empty. cbn [run_opt]. unfold mret at 1. cbv beta iota.
      assert (He' : entry_ok (cf_strict cf) (p_big5 t) e) by (rewrite Hst; exact He).
      pose proof (entry_follows_run cf fn e [] (x :: more) _ _ _ _ fz s1 H1 He') as R.
      assert (Hcl : clean (cf_strict cf) (d_charset (p_dict t))) by (unfold clean; rewrite Hst; discriminate).
      specialize (R Hcl Hx). intro X.
      pose proof (read_entry_outcome cf (d_charset (p_dict t)) (p_conv t) e) as No.
      destruct (read_entry nd (d_charset (p_dict t)) (p_conv t) e) as [[o1 c1] k1]. cbn [fst] in No.
      unfold entry_result, gets, fails, ok in R. destruct (entry cf fn true fz s1) as [o2 s2]. cbn [fst snd] in *. subst o2.
      destruct o1 as [a|ex|u| |]; destruct R as [R|[R _]]; try discriminate R. cbn [omap] in R. injection R as <-. now apply No.
    - cbn [app hd]. rewrite (pempty_blank _ x) by apply Hx. cbn [run_opt]. unfold mret. discriminate.
  Qed.

  (** a state like [s] that sees the lines [ls] *)
  Definition seeing (ls : list bytes) (s : pst I) : pst I :=
    {| p_in := stream_of (unlines (tl ls)); p_eof := false; p_big5 := p_big5 s; p_line := p_line s; p_cur := hd [] ls;
       p_conv := p_conv s; p_dict := p_dict s; p_tr := p_tr s; p_calls := p_calls s |}.
  Lemma seeing_pos l ls s : Forall one_line (l :: ls) -> pos (l :: ls) (seeing (l :: ls) s) /\ same s (seeing (l :: ls) s).
  Proof.
    intro H. split; [|repeat split]. split; [exact H|]. split; [intros []|]. cbn [seeing p_cur p_in p_eof hd tl]. rewrite app_nil_r. auto.
  Qed.

  Lemma erred_broken ls s s' pre lse sk ls' msg : erred front ls s s' pre lse sk ls' msg -> pos ls s -> unfinished (p_big5 s) pre ->
    ~ begins (p_big5 s) (pre ++ [hd [] lse]) /\
    (forall b, block_fine (p_big5 s) b -> singular b -> pre = block_lines b -> continues (hd [] lse)).
  Proof.
    intros (G1 & G2 & G3 & G4 & G5 & G6 & G7 & G8) Hp Hb. set (x := hd [] lse) in *.
    assert (Hx : one_line x).
    { unfold x. apply hd_one. apply pos_one in Hp. rewrite G1 in Hp. apply Forall_app in Hp. apply Hp. }
    assert (K : forall b more, Forall one_line (pre ++ x :: more) ->
      (exists y more', pre ++ x :: more = block_lines b ++ y :: more' /\ block_fine (p_big5 s) b /\
         match bl_entry b with None => separator_ok b y | Some e => follows cf e y end) -> False).
    { intros b more H1 (y & more' & E & Hf & Hs). destruct (seeing_pos (hd [] (pre ++ x :: more)) (tl (pre ++ x :: more)) s) as [T1 T2].
      { destruct pre; exact H1. }
      set (t := seeing _ s) in *. assert (T3 : hd [] (pre ++ x :: more) :: tl (pre ++ x :: more) = pre ++ x :: more) by (destruct pre; reflexivity).
      rewrite T3 in T1. destruct (G8 t more T2 T1) as (t' & Et). rewrite E in T1.
      apply (front_runs b y more' t T1 Hf Hs). rewrite Et. reflexivity. }
    split.
    - intros (b & sep & more & Hf & Hs & El). apply (K b more).
      + rewrite <- app_assoc in El. cbn [app] in El. rewrite <- El. apply Forall_app. split; [|constructor; [apply Hs|constructor]].
        apply good_one_lines. destruct Hf as [Hf1 Hf2]. exact (block_good false (p_big5 s) b Hf1 Hf2).
      + exists sep, []. split; [rewrite <- app_assoc in El; cbn [app] in El; symmetry; exact El|]. split; [exact Hf|].
        destruct (bl_entry b); [apply blank_follows, Hs|exact Hs].
    - intros b Hf (e & m & He & Hm) El. destruct (pquote_lenient x 0) as [[j|] E].
      + apply pquote_inv in E as (w & r & -> & Hw & _). exists w, r. auto.
      + exfalso. apply (K b []).
        * apply Forall_app. split; [|constructor; [exact Hx|constructor]]. rewrite El. apply good_one_lines. destruct Hf as [Hf1 Hf2]. exact (block_good false (p_big5 s) b Hf1 Hf2).
        * exists x, []. split; [rewrite El; reflexivity|]. split; [exact Hf|]. rewrite He. unfold follows. rewrite Hm. unfold stops. rewrite Hst. exact E.
  Qed.

  (** ** One turn of the loop *)
  Definition meant (cs : bytes) (sg : segment) (s s' : pst I) : Prop :=
    match seg_entries sg with
    | [] => frame s s'
    | e :: _ => took cs e s s'
    end.
  Lemma took_frame cs e s s1 s' : took cs e s s1 -> frame s1 s' -> took cs e s s'.
  Proof.
    intros (c' & k & T1 & T2 & T3 & T4 & T5) (F1 & F2 & F3 & F4). exists c', k. split; [exact T1|]. split; [congruence|]. split; [congruence|].
    split; [congruence|]. intros es X. apply F4, T5, X.
  Qed.
  Lemma skips_more sk ls' : skips sk ls' -> skips sk (ls' ++ [[]]).
  Proof. intros [H1 H2]. split; [exact H1|]. destruct ls'; [|exact H2]. cbn [app]. split; [intros []|left; constructor]. Qed.

  (** what was read: the lines of a segment, or the last lines and the empty line that
      the end of the file counts for *)
  Definition turn (cs : bytes) (ls : list bytes) (s s' : pst I) (sg : segment) (ls' : list bytes) (rest : list bytes) : Prop :=
    pos ls' s' /\ ls ++ [[]] = seg_lines sg ++ rest /\ (rest = [] /\ ls' = [] \/ rest = ls' ++ [[]]) /\
    p_line s' = (p_line s + len (seg_lines sg))%Z /\
    (exists evs, p_tr s' = p_tr s ++ evs /\ seg_said fn (p_line s) (p_big5 s) sg evs) /\
    seg_ok (p_big5 s) sg rest /\ meant cs sg s s'.
  Lemma turn_mistake (ls pre lse sk ls' : list bytes) : ls = pre ++ lse -> tl lse = sk ++ ls' ->
    exists rest, ls ++ [[]] = pre ++ hd [] lse :: sk ++ rest /\ (rest = [] /\ ls' = [] \/ rest = ls' ++ [[]]) /\ (skips sk ls' -> skips sk rest).
  Proof.
    intros -> H. destruct lse as [|x lse]; cbn [hd tl] in *.
    - destruct sk; [|discriminate]. cbn [app] in H. subst ls'. exists []. rewrite app_nil_r. cbn [app]. auto.
    - subst lse. exists (ls' ++ [[]]). rewrite <- !app_assoc. cbn [app]. rewrite <- !app_assoc. split; [reflexivity|]. split; [auto|apply skips_more].
  Qed.

  Lemma block_step cs ls s s' : pos ls s -> d_charset (p_dict s) = cs -> try_block cf fn true s = (Ret tt, s') ->
    exists sg ls' rest, turn cs ls s s' sg ls' rest /\ match sg with Broken _ _ _ => fst (front s) = Exn ExPo | _ => fst (front s) = Ret tt end.
  Proof.
    intros Hp Hcs E. unfold try_block in E. rewrite block_front in E. unfold mbind at 1 in E.
    pose proof (post_front ls s Hp) as PF. unfold post in PF. destruct (front s) as [[[]|[]|u| |] s1] eqn:E1; try discriminate.
    - (* the front part went well *)
      destruct PF as [(rd & ls1 & W1 & W2 & W3 & (ev1 & W4 & W4') & _) _].
      destruct (front_took cs ls s s1 Hp Hcs E1) as (b & ls1' & El & Hf & Hp1 & Hm). pose proof (pos_inj _ _ _ Hp1 W2). subst ls1'.
      rewrite W1 in El. apply app_inv_tail in El. subst rd.
      unfold back in E. unfold mbind at 1 in E. rewrite is_empty_line_eq, Hst, (pos_hd _ _ W2) in E.
      destruct (pempty_lenient (hd [] ls1)) as [e Ee]. rewrite Ee in E. cbn [run_opt] in E. unfold mret at 1 in E. cbv beta iota in E. destruct e.
      + (* a separating line *)
        unfold mbind at 1 in E. unfold mret at 1 in E. cbv beta iota in E. rewrite next_line_eq in E. injection E as <-.
        assert (Hb : is_blank (hd [] ls1)) by (apply pempty_true; [apply hd_one; eapply pos_one, W2|exact Ee]).
        assert (Hs : separator_ok b (hd [] ls1)) by (split; [exact Hb|intro X; rewrite X in Hm; apply Hm]).
        assert (M : meant cs (Whole b (hd [] ls1)) s (nextst s1)).
        { unfold meant. cbn [seg_entries]. destruct (bl_entry b) as [e|]; cbn [opt_list].
          - eapply took_frame; [apply Hm|apply frame_next].
          - eapply frame_trans; [apply Hm|apply frame_next]. }
        assert (EV : exists evs, p_tr (nextst s1) = p_tr s ++ evs /\ seg_said fn (p_line s) (p_big5 s) (Whole b (hd [] ls1)) evs).
        { exists ev1. rewrite nextst_tr. auto. }
        assert (LN : p_line (nextst s1) = (p_line s + len (seg_lines (Whole b (hd [] ls1))))%Z).
        { cbn [seg_lines]. rewrite nextst_line, W3, app_len. cbn [length]. lia. }
        pose proof (pos_next_tl _ _ W2) as Hp2.
        destruct ls1 as [|l1 ls1]; cbn [hd tl] in *.
        * exists (Whole b []), [], []. split; [|reflexivity]. split; [exact Hp2|]. split; [cbn [seg_lines]; rewrite W1, !app_nil_r; reflexivity|]. split; [auto|].
          split; [exact LN|]. split; [exact EV|]. split; [split; assumption|exact M].
        * exists (Whole b l1), ls1, (ls1 ++ [[]]). split; [|reflexivity]. split; [exact Hp2|]. split; [cbn [seg_lines]; rewrite W1, <- !app_assoc; reflexivity|]. split; [auto|].
          split; [exact LN|]. split; [exact EV|]. split; [split; assumption|exact M].
      + (* no separating line *)
        set (x := hd [] ls1) in *. pose proof (pempty_false _ Ee) as Nb.
        unfold error in E. unfold mbind at 1 in E. rewrite mget_bind in E. unfold emit in E. rewrite mmod_bind in E. set (t1 := st_tr s1 _) in E.
        destruct (recover_run (S (S (length (is_rest (p_in s1))))) ls1 t1 W2 (error_enough cf s1 _)) as (sk & ls' & s2 & Q1 & G2 & G3 & G5 & G4 & Q6 & G7).
        unfold mbind in E. rewrite Q1 in E. injection E as <-. change (p_line t1) with (p_line s1) in G4. change (frame s1 s2) in G7.
        assert (TR : p_tr s2 = p_tr s1 ++ [mistake fn (p_line s1) (bs "expected empty line") x]).
        { rewrite Q6. unfold t1. cbn [st_tr p_tr]. rewrite (pos_hd _ _ W2). reflexivity. }
        destruct (turn_mistake ls (block_lines b) ls1 sk ls' W1 G2) as (rest & T1 & T2 & T3).
        exists (Excess b x sk), ls', rest. split; [|reflexivity]. split; [exact G3|]. split; [cbn [seg_lines]; rewrite <- app_assoc; exact T1|]. split; [exact T2|].
        split; [cbn [seg_lines]; rewrite G4, W3, app_len; cbn [length]; lia|]. split; [|split].
        * exists (ev1 ++ [mistake fn (p_line s1) (bs "expected empty line") x]). rewrite TR, W4, <- app_assoc. split; [reflexivity|].
          exists ev1. rewrite W3. auto.
        * split; [exact Hf|].
          assert (Sg : singular b /\ ~ continues x).
          { destruct (bl_entry b) as [e|] eqn:Eb.
            - destruct Hm as [Ha _]. unfold after_entry in Ha. destruct (en_body e) as [m|p rows] eqn:Em; [|contradiction].
              split; [exists e, m; auto|exact Ha].
            - exfalso. apply Nb. split; [apply hd_one; eapply pos_one, W2|left; apply Hm]. }
          split; [apply Sg|]. split; [exact Nb|]. split; [apply Sg|]. apply T3, G5.
        * unfold meant. cbn [seg_entries]. destruct (bl_entry b) as [e|] eqn:Eb; cbn [opt_list].
          -- eapply took_frame; [apply Hm|exact G7].
          -- eapply frame_trans; [apply Hm|exact G7].
    - (* a mistake in the block *)
      injection E as <-. destruct PF as (pre & lse & sk & ls' & msg & Er & Hb & Hco). destruct (erred_broken _ _ _ _ _ _ _ _ Er Hp Hb) as [B1 B2].
      destruct Er as (G1 & G2 & G3 & G4 & G5 & (rs & R1 & R2) & G7 & _).
      destruct (turn_mistake ls pre lse sk ls' G1 G2) as (rest & T1 & T2 & T3).
      exists (Broken pre (hd [] lse) sk), ls', rest. split; [|reflexivity]. split; [exact G3|]. split; [cbn [seg_lines]; rewrite <- app_assoc; exact T1|]. split; [exact T2|].
      split; [cbn [seg_lines]; rewrite G4, app_len; cbn [length]; lia|]. split; [|split].
      + exists (rs ++ [mistake fn (p_line s + len pre) msg (hd [] lse)]). rewrite R2. split; [reflexivity|]. exists rs, msg. auto.
      + split; [exact Hb|]. split; [exact B1|]. split; [exact B2|]. apply T3, G5.
      + unfold meant. cbn [seg_entries]. exact G7.
  Qed.

  (** ** The loop *)
  Definition block0 : po_block := {| bl_comments := []; bl_entry := None |}.
  Lemma whole0 b5 fol : seg_ok b5 (Whole block0 []) fol.
  Proof. split; [split; [constructor|exact Logic.I]|]. split; [split; [intros []|left; constructor]|constructor]. Qed.
  Lemma meant_facts cs sg s s' : meant cs sg s s' -> d_charset (p_dict s) = cs ->
    d_charset (p_dict s') = cs /\ p_big5 s' = big5_end (p_big5 s) (seg_entries sg) /\
    forall es, in_force cs es (p_conv s) -> in_force cs (es ++ seg_entries sg) (p_conv s') /\
      exists ps, pieces_entries ps = seg_entries sg /\ p_calls s' = p_calls s ++ pieces_calls ps /\ @explained I nd cs es ps.
  Proof.
    intros M Hcs. unfold meant in M.
    assert (L : seg_entries sg = [] \/ exists e, seg_entries sg = [e]).
    { destruct sg as [b sp|b x sk|pre x sk]; cbn [seg_entries]; try destruct (bl_entry b); cbn [opt_list]; eauto. }
    destruct L as [L|[e L]]; rewrite L in *.
    - destruct M as (F1 & F2 & F3 & F4). split; [congruence|]. split; [exact F1|]. intros es X. rewrite app_nil_r. split; [apply F4, X|].
      exists []. split; [reflexivity|]. cbn [pieces_calls List.map List.concat]. rewrite app_nil_r. split; [exact F2|exact Logic.I].
    - destruct M as (c' & k & T1 & T2 & T3 & T4 & T5). split; [exact T4|]. split; [exact T3|]. intros es X. split; [apply T5, X|].
      exists [{| pf_skipped := []; pf_entry := e; pf_calls := k |}]. split; [reflexivity|]. unfold pieces_calls. cbn [List.map List.concat pf_calls].
      rewrite app_nil_r. split; [exact T2|]. cbn [explained pf_entry pf_calls]. split; [|exact Logic.I]. exists (p_conv s), (Ret tt), c'. auto.
  Qed.
  Lemma explained_app cs ps1 : forall es ps2, @explained I nd cs es ps1 -> @explained I nd cs (es ++ pieces_entries ps1) ps2 -> @explained I nd cs es (ps1 ++ ps2).
  Proof.
    induction ps1 as [|p ps1 IH]; intros es ps2 H1 H2; cbn [pieces_entries List.map app explained] in *; [rewrite app_nil_r in H2; exact H2|].
    split; [apply H1|]. apply IH; [apply H1|]. rewrite <- app_assoc. exact H2.
  Qed.
  Lemma pieces_calls_app a b : pieces_calls (a ++ b) = pieces_calls a ++ pieces_calls b.
  Proof. unfold pieces_calls. now rewrite map_app, concat_app. Qed.
  Lemma big5_end_app b5 a b : big5_end b5 (a ++ b) = big5_end (big5_end b5 a) b.
  Proof. unfold big5_end. apply fold_left_app. Qed.

  Lemma loop_exact cs f : forall ls s s' es, pos ls s -> d_charset (p_dict s) = cs -> in_force cs es (p_conv s) ->
    parse_loop cf fn true f s = (Ret tt, s') ->
    exists sgs ps evs, segs_lines sgs = ls ++ [[]] /\ segs_ok (p_big5 s) sgs /\ p_tr s' = p_tr s ++ evs /\ segs_said fn (p_line s) (p_big5 s) sgs evs /\
      pieces_entries ps = segs_entries sgs /\ p_calls s' = p_calls s ++ pieces_calls ps /\ @explained I nd cs es ps.
  Proof.
    induction f as [|f IH]; intros ls s s' es Hp Hcs Hf E; [discriminate|]. cbn [parse_loop] in E. rewrite mget_bind in E.
    destruct (pos_wf _ _ Hp) as (_ & _ & He). rewrite He in E. destruct ls as [|l ls]; cbn [is_nil] in E.
    - injection E as <-. exists [Whole block0 []], [], []. split; [reflexivity|]. split; [split; [apply whole0|exact Logic.I]|].
      rewrite app_nil_r. split; [reflexivity|]. split; [exists [], []; split; [reflexivity|split; constructor]|]. split; [reflexivity|].
      unfold pieces_calls. cbn [List.map List.concat]. rewrite app_nil_r. split; [reflexivity|exact Logic.I].
    - apply bind_ret in E as ([] & s1 & E1 & E). destruct (block_step cs _ _ _ Hp Hcs E1) as (sg & ls' & rest & (T1 & T2 & T3 & T4 & (ev1 & T5 & T6) & T7 & T8) & _).
      destruct (meant_facts _ _ _ _ T8 Hcs) as (M1 & M2 & M3). destruct (M3 es Hf) as (M4 & ps1 & M5 & M6 & M7).
      destruct T3 as [[-> ->]|T3].
      + destruct f as [|f]; [discriminate|]. cbn [parse_loop] in E. rewrite mget_bind in E. destruct (pos_wf _ _ T1) as (_ & _ & He1). rewrite He1 in E. cbn [is_nil] in E.
        injection E as <-. exists [sg], ps1, ev1. unfold segs_lines, segs_entries. cbn [List.map List.concat]. rewrite !app_nil_r. rewrite app_nil_r in T2.
        split; [symmetry; exact T2|]. split; [split; [exact T7|exact Logic.I]|]. split; [exact T5|].
        split; [exists ev1, []; rewrite app_nil_r; split; [reflexivity|split; [exact T6|constructor]]|]. auto.
      + subst rest. destruct (IH ls' s1 s' (es ++ seg_entries sg) T1 M1 M4 E) as (sgs & ps2 & ev2 & R1 & R2 & R3 & R4 & R5 & R6 & R7).
        exists (sg :: sgs), (ps1 ++ ps2), (ev1 ++ ev2). unfold segs_lines, segs_entries in *. cbn [List.map List.concat].
        split; [rewrite R1; symmetry; exact T2|]. split; [split; [unfold segs_lines; rewrite R1; exact T7|rewrite <- M2; exact R2]|].
        split; [rewrite R3, T5, app_assoc; reflexivity|]. split; [exists ev1, ev2; rewrite <- T4, <- M2; auto|].
        split; [unfold pieces_entries in *; rewrite map_app, M5, R5; reflexivity|]. split; [rewrite R6, M6, pieces_calls_app, app_assoc; reflexivity|].
        apply explained_app; [exact M7|]. rewrite M5. exact R7.
  Qed.
End Exact.

(** ** The whole file *)
Lemma complete_unlines b : complete b -> b = unlines (lines_of b) /\ Forall one_line (lines_of b).
Proof.
  intro H.
  assert (G : forall b acc, one_line acc -> Forall one_line (lines_from acc b)).
  { clear. induction b as [|c b IH]; intros acc Ha; cbn [lines_from].
    - destruct (is_nil acc); repeat constructor. exact Ha.
    - destruct (byte_eqb c c_lf) eqn:E; [constructor; [exact Ha|apply IH; intros []]|]. apply IH. unfold one_line. intro K. apply in_app_or in K as [K|[K|[]]]; [now apply Ha|].
      subst c. rewrite byte_eqb_refl in E. discriminate. }
  split; [|apply G; intros []]. unfold lines_of. destruct H as [->|(b' & ->)]; [reflexivity|].
  assert (L : forall b' acc, acc ++ b' ++ [c_lf] = unlines (lines_from acc (b' ++ [c_lf]))).
  { clear. induction b' as [|c b IH]; intro acc; cbn [app lines_from].
    - rewrite byte_eqb_refl. cbn [lines_from is_nil unlines]. reflexivity.
    - destruct (byte_eqb c c_lf) eqn:E; [|rewrite <- IH, <- app_assoc; reflexivity].
      apply byte_eqb_eq in E. subst c. cbn [unlines]. rewrite <- IH. reflexivity. }
  exact (L b' []).
Qed.

Lemma parse_exact cf fn b d : cf_strict cf = false -> complete b ->
  let r := po_parse cf fn (stream_of b) d in
  pr_outcome r = Ret tt ->
  exists sgs ps, segs_lines sgs = file_lines b ++ [[]] /\ segs_ok false sgs /\ segs_said fn 1 false sgs (pr_trace r) /\
    pieces_entries ps = segs_entries sgs /\ pr_calls r = pieces_calls ps /\ @explained (cf_iconv cf) (cf_ndebug cf) (d_charset d) [] ps.
Proof.
  intros Hst Hc. cbv zeta. unfold po_parse. destruct (parse_member cf fn true (init_state cf (stream_of b) d)) as [o s'] eqn:E. cbn [pr_outcome pr_trace pr_calls].
  intros ->. unfold parse_member in E. unfold mbind at 1 in E. rewrite next_line_eq in E. rewrite mmod_bind in E.
  set (s0 := init_state cf (stream_of b) d) in *. destruct (complete_unlines b Hc) as [Hb Ho].
  assert (P0 : pos cf [] ([] :: lines_of b) s0).
  { split; [constructor; [intros []|exact Ho]|]. split; [intros []|]. cbn. rewrite app_nil_r, <- Hb. auto. }
  pose proof (pos_next_tl cf _ _ P0) as P1. cbn [tl] in P1. set (s1 := nextst s0) in *. nx s0. fold s1 in Nd, Nc, Nv, Nt, Nb, Nl.
  assert (P2 : exists s2, s2 = (if starts_with bom (p_cur s1) then st_cur s1 (skipn 3 (p_cur s1)) else s1) /\ pos cf [] (file_lines b) s2 /\
    p_dict s2 = p_dict s0 /\ p_calls s2 = p_calls s0 /\ p_conv s2 = p_conv s0 /\ p_tr s2 = p_tr s0 /\ p_big5 s2 = p_big5 s0 /\ p_line s2 = 1%Z).
  { eexists. split; [reflexivity|]. assert (L1 : p_line s1 = 1%Z) by (unfold s1; rewrite nextst_line; reflexivity).
    split; [|destruct (starts_with bom (p_cur s1)); cbn; rewrite ?Nd, ?Nc, ?Nv, ?Nt, ?Nb, ?L1; repeat split].
    unfold file_lines, drop_bom. pose proof (pos_hd cf _ _ P1) as Hcur. destruct (lines_of b) as [|l ls]; cbn [hd] in Hcur; rewrite Hcur.
    - exact P1.
    - change (starts_with [chr 239; chr 187; chr 191] l) with (starts_with bom l). destruct (starts_with bom l); [|exact P1].
      destruct P1 as (A1 & A2 & A3 & A4 & A5). split; [inversion A1 as [|? ? X1 X2]; constructor; [now apply one_line_skipn|exact X2]|]. split; [exact A2|]. cbn. auto. }
  destruct P2 as (s2 & E2 & P2 & Q1 & Q2 & Q3 & Q4 & Q5 & Q6).
  destruct (loop_exact cf fn Hst (d_charset d) (cf_fuel cf) (file_lines b) s2 s' [] P2) as (sgs & ps & evs & R1 & R2 & R3 & R4 & R5 & R6 & R7);
    [rewrite Q1; reflexivity|rewrite Q3; reflexivity|rewrite E2; exact E|].
  exists sgs, ps. split; [exact R1|]. rewrite Q5 in R2. split; [exact R2|]. rewrite Q6, Q5 in R4. rewrite Q4 in R3. cbn [app] in R3. rewrite Q2 in R6. cbn [app] in R6.
  split; [|auto]. rewrite R3. cbn [finished].
  change (p_tr s0 ++ evs) with evs.
  assert (Hd : Forall remark (iconv_destroy (p_conv s'))) by (unfold iconv_destroy; apply remark_close).
  change (segs_said fn 1 false sgs evs) in R4.
  clear - R4 Hd. generalize dependent 1%Z. revert evs. generalize false. induction sgs as [|sg sgs IH]; intros b5 evs n H; cbn [segs_said] in *.
  - apply Forall_app. auto.
  - destruct H as (e1 & e2 & -> & H1 & H2). exists e1, (e2 ++ iconv_destroy (p_conv s')). rewrite <- app_assoc. auto.
Qed.
