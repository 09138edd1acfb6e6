(** Every dictionary call of a parse comes from an entry that stands in the file. *)
From Verif.Model Require Import Base Log PluralForms Dictionary IConv Stream PoParser.
From Verif.Spec Require Import ParserSpec PoSpec SoundSpec.
From Verif.Proofs Require Import BaseFacts DictProofs LexProofs ParserUnary DocLex ParserRel ParserSafe ParserFuel ParserLocal
  ParserCut ParserBlank ParserTerm ParserLinewise ParserMisc DocProofs DocLoop.
From Verif.Proofs Require DocTop.
Local Open Scope list_scope.

(** ** Lines *)
Lemma lines_from_app l : forall acc r, one_line l -> lines_from acc (l ++ c_lf :: r) = (acc ++ l) :: lines_of r.
Proof.
  induction l as [|c l IH]; intros acc r H; cbn [app lines_from].
  - rewrite byte_eqb_refl, app_nil_r. reflexivity.
  - destruct (byte_eqb c c_lf) eqn:E; [apply byte_eqb_eq in E; subst; exfalso; apply H; now left|].
    rewrite IH by (intro; apply H; now right). rewrite <- app_assoc. reflexivity.
Qed.
Lemma lines_from_last l : forall acc, one_line l -> lines_from acc l = if is_nil (acc ++ l) then [] else [acc ++ l].
Proof.
  induction l as [|c l IH]; intros acc H; cbn [lines_from].
  - rewrite app_nil_r. reflexivity.
  - destruct (byte_eqb c c_lf) eqn:E; [apply byte_eqb_eq in E; subst; exfalso; apply H; now left|].
    rewrite IH by (intro; apply H; now right). rewrite <- app_assoc. reflexivity.
Qed.
Lemma lines_from_one b : forall acc, one_line acc -> Forall one_line (lines_from acc b).
Proof.
  induction b as [|c b IH]; intros acc H; cbn [lines_from].
  - destruct (is_nil acc); repeat constructor; exact H.
  - destruct (byte_eqb c c_lf) eqn:E.
    + constructor; [exact H|]. apply IH. intros [].
    + apply IH. intro K. apply in_app_or in K as [K|[K|[]]]; [now apply H|]. subst. rewrite byte_eqb_refl in E. discriminate.
Qed.

(** ** What a successful scan saw *)
Lemma unescape_meaning c : unescape c = meaning_of c escapes.
Proof. unfold unescape, escapes. cbn [meaning_of]. reflexivity. Qed.
Lemma big5_lead_iff c : big5_lead c = true <-> is_lead c.
Proof. unfold big5_lead, is_lead. rewrite andb_true_iff, !N.leb_le. reflexivity. Qed.

Lemma pscan_inv b5 n : forall l i out ws r, length l <= n -> one_line l -> pscan b5 i l out = LOk ws r ->
  exists ps trail, l = List.concat (List.map piece_text ps) ++ c_dq :: trail /\
    snd r = out ++ List.concat (List.map piece_value ps) /\ Forall (piece_ok b5) ps.
Proof.
  induction n as [|n IH]; intros [|c l] i out ws r Hn Hl; cbn [length] in Hn; try lia; try (cbn [pscan]; discriminate).
  cbn [pscan]. assert (Hc : c <> c_lf) by (intro; subst; apply Hl; now left).
  assert (Hl' : one_line l) by (intro K; apply Hl; now right).
  destruct (byte_eqb c c_dq) eqn:Ed.
  { intro H. injection H as <- <-. apply byte_eqb_eq in Ed. subst c. exists [], l. cbn. rewrite app_nil_r. auto. }
  assert (Hd : c <> c_dq) by (intro; subst; rewrite byte_eqb_refl in Ed; discriminate).
  destruct (b5 && big5_lead c) eqn:E5.
  { destruct l as [|c1 l]; [discriminate|]. intro H. apply IH in H; [|cbn [length] in Hn; lia|intro K; apply Hl'; now right].
    destruct H as (ps & tr & -> & -> & F). apply andb_prop in E5 as [-> E5]. exists (Pair c c1 :: ps), tr. split; [reflexivity|].
    split; [cbn; rewrite <- app_assoc; reflexivity|]. constructor; [|exact F]. split; [reflexivity|]. split; [now apply big5_lead_iff|].
    intro; subst; apply Hl'; now left. }
  destruct (byte_eqb c c_bsl) eqn:Eb.
  { apply byte_eqb_eq in Eb. subst c. destruct l as [|c1 l]; [discriminate|]. cbn [length] in Hn.
    assert (Hl2 : one_line l) by (intro K; apply Hl'; now right).
    destruct (unescape c1) as [e|] eqn:Eu.
    - intro H. apply IH in H; [|lia|exact Hl2]. destruct H as (ps & tr & -> & -> & F). rewrite unescape_meaning in Eu.
      exists (Esc c1 :: ps), tr. split; [reflexivity|]. split; [cbn [List.map List.concat piece_value]; rewrite Eu, <- app_assoc; reflexivity|].
      constructor; [|exact F]. cbn [piece_ok]. rewrite Eu. discriminate.
    - intro H. destruct (pscan b5 (i + 2) l _) as [ws' a|ws' m|ws'] eqn:E; cbn [lwarn] in H; try discriminate. injection H as <- <-.
      apply IH in E; [|lia|exact Hl2]. destruct E as (ps & tr & -> & E & F). rewrite unescape_meaning in Eu.
      exists (Other c1 :: ps), tr. split; [reflexivity|]. split; [rewrite E; cbn; rewrite <- app_assoc; reflexivity|].
      constructor; [|exact F]. split; [exact Eu|]. intro; subst; apply Hl'; now left. }
  intro H. apply IH in H; [|lia|exact Hl']. destruct H as (ps & tr & -> & -> & F). exists (Raw c :: ps), tr. split; [reflexivity|].
  split; [cbn; rewrite <- app_assoc; reflexivity|]. constructor; [|exact F]. split; [exact Hd|].
  split; [intro; subst; rewrite byte_eqb_refl in Eb; discriminate|]. split; [exact Hc|]. intros -> K. cbn in E5. apply big5_lead_iff in K. congruence.
Qed.

Lemma one_line_app a b : one_line (a ++ b) <-> one_line a /\ one_line b.
Proof. unfold one_line. split; [intro H; split; intro K; apply H, in_or_app; auto|intros [H1 H2] K; apply in_app_or in K as [K|K]; auto]. Qed.
Lemma one_line_skipn k l : one_line l -> one_line (skipn k l).
Proof. intro H. rewrite <- (firstn_skipn k l) in H. now apply one_line_app in H. Qed.

(** a chunk at column [k] of a line, preceded by the white space between [j] and [k] *)
Lemma pline_inv b5 out k lead cur pre ws v : one_line cur -> cur = pre ++ lead ++ skipn k cur -> k = length pre + length lead ->
  white lead -> pline false b5 out k cur = LOk ws v ->
  exists ck, cur = pre ++ chunk_text ck /\ ck_lead ck = lead /\ v = out ++ chunk_value ck /\ chunk_ok false b5 ck.
Proof.
  intros Hc Hk Hlen Hw. unfold pline. destruct (Nat.leb_spec (length cur) (k + 1)); [discriminate|].
  destruct (byte_eqb (nth k cur c_nul) c_dq) eqn:Eq; cbn [negb]; [|discriminate]. apply byte_eqb_eq in Eq.
  destruct (pscan b5 (k + 1) (skipn (k + 1) cur) out) as [w1 r|w1 m|w1] eqn:E; cbn [lbind]; try discriminate.
  destruct (pgarbage false _) as [w2 u|w2 m|w2]; cbn [lbind]; try discriminate. intro H0. injection H0 as _ <-.
  apply (pscan_inv b5 _ _ _ _ _ _ (Nat.le_refl _)) in E; [|now apply one_line_skipn]. destruct E as (ps & tr & E & V & F).
  rewrite (skipn_cons_nth ascii c_nul k) in Hk by blia. replace (S k) with (k + 1) in Hk by lia. rewrite Eq, E in Hk.
  exists {| ck_lead := lead; ck_body := ps; ck_trail := tr |}. unfold chunk_text, chunk_value, chunk_ok. cbn [ck_lead ck_body ck_trail].
  split; [exact Hk|]. split; [reflexivity|]. split; [exact V|]. rewrite Hk in Hc. apply one_line_app in Hc as [_ Hc]. apply one_line_app in Hc as [H1 Hc].
  split; [exact Hw|]. split; [exact H1|]. split; [exact F|].
  change (c_dq :: List.concat (List.map piece_text ps) ++ c_dq :: tr) with ([c_dq] ++ List.concat (List.map piece_text ps) ++ [c_dq] ++ tr) in Hc.
  apply one_line_app in Hc as [_ Hc]. apply one_line_app in Hc as [_ Hc]. apply one_line_app in Hc as [_ Hc].
  split; [exact Hc|]. intro X. discriminate X.
Qed.

Lemma pquote_inv l : forall i j, pquote false i l = Some (Some j) ->
  exists lead r, l = lead ++ c_dq :: r /\ white lead /\ j = i + length lead.
Proof.
  induction l as [|c l IH]; intros i j; cbn [pquote]; [discriminate|]. destruct (byte_eqb c c_dq) eqn:E.
  - intro H. injection H as <-. apply byte_eqb_eq in E. subst. exists [], l. repeat split; [constructor|cbn; lia].
  - unfold pctype. cbn [andb]. destruct (isspace c) eqn:Es; [|discriminate]. intro H. apply IH in H as (lead & r & -> & Hw & ->).
    exists (c :: lead), r. split; [reflexivity|]. split; [constructor; assumption|]. cbn [length]. lia.
Qed.

Lemma pskip_inv b5 cur pre : forall l out lead ws v, one_line cur -> cur = pre ++ lead ++ l -> white lead ->
  pskip false b5 cur out (length pre + length lead) l = LOk ws v ->
  exists ck, cur = pre ++ chunk_text ck /\ v = out ++ chunk_value ck /\ chunk_ok false b5 ck.
Proof.
  induction l as [|c l IH]; intros out lead ws v Hc Hk Hw; cbn [pskip]; [discriminate|]. destruct (byte_eqb c c_dq) eqn:E.
  - intro H. apply (pline_inv b5 out _ lead cur pre) in H; auto.
    + destruct H as (ck & H1 & _ & H2 & H3). eauto.
    + rewrite Hk at 1. f_equal. f_equal. rewrite Hk, app_assoc, <- app_length, skipn_app, skipn_all, Nat.sub_diag. reflexivity.
  - unfold pctype. cbn [andb]. destruct (isspace c) eqn:Es; [|discriminate]. intro H.
    apply (IH out (lead ++ [c]) ws v Hc).
    + rewrite Hk, <- app_assoc. reflexivity.
    + apply Forall_app. split; [exact Hw|]. constructor; [exact Es|constructor].
    + rewrite app_length. cbn [length]. replace (length pre + (length lead + 1)) with (length pre + length lead + 1) by lia. exact H.
Qed.

Lemma pfirst_inv pd b5 k cur ws v : one_line cur -> pfirst false pd b5 k cur = LOk ws v ->
  exists ck, cur = firstn k cur ++ chunk_text ck /\ v = chunk_value ck /\ chunk_ok false b5 ck.
Proof.
  intros Hc. unfold pfirst. destruct (Nat.leb_spec (length cur) (k + 1)); [discriminate|].
  assert (Lk : length (firstn k cur) = k) by (rewrite firstn_length; lia).
  destruct (byte_eqb (nth k cur c_nul) c_sp && _) eqn:E.
  - apply andb_prop in E as [E _]. apply byte_eqb_eq in E. intro H0.
    apply (pline_inv b5 [] _ [c_sp] cur (firstn k cur)) in H0; auto.
    + destruct H0 as (ck & H1 & _ & H2 & H3). eauto.
    + rewrite <- (firstn_skipn k cur) at 1. f_equal. rewrite (skipn_cons_nth ascii c_nul k) by blia. rewrite E. replace (k + 1) with (S k) by lia. reflexivity.
    + repeat constructor.
  - cbv zeta. intro H0. assert (X : exists ws', pskip false b5 cur [] (length (firstn k cur) + length (@nil byte)) (skipn k cur) = LOk ws' v).
    { rewrite Lk. cbn [length]. rewrite Nat.add_0_r. destruct pd; [|eauto]. destruct (pskip _ _ _ _ _ _); cbn [lwarn] in H0; try discriminate. injection H0 as _ ->. eauto. }
    destruct X as [ws' X]. apply (pskip_inv b5 cur (firstn k cur)) in X; auto.
    + cbn [app]. symmetry. apply firstn_skipn.
    + constructor.
Qed.

(** ** Positions *)
Section Sound.
  Variable cf : config.
  Variable fn : bytes.
  Local Notation I := (cf_iconv cf).
  Local Notation P := (M (pst I)).
  Local Notation nd := (cf_ndebug cf).
  Hypothesis Hst : cf_strict cf = false.
  Local Open Scope mon_scope.

  Definition wf (s : pst I) : Prop := (p_eof s = true -> is_good (p_in s) = false) /\ one_line (p_cur s) /\ (is_good (p_in s) = true -> is_break (p_in s) = false).
  (** the lines from the current one on *)
  Definition rem (s : pst I) : list bytes :=
    if p_eof s then [] else p_cur s :: (if is_good (p_in s) then lines_of (is_rest (p_in s)) else []).

  Lemma step_facts (s : pst I) : wf s ->
    wf (nextst s) /\ rem (nextst s) = tl (rem s) /\
    (p_eof (nextst s) = true -> p_cur (nextst s) = [] \/ (is_good (p_in s) = false /\ p_cur (nextst s) = p_cur s)).
  Proof.
    intros (H1 & H2 & H3). unfold wf, rem, nextst. destruct (is_good (p_in s)) eqn:G.
    - assert (E : p_eof s = false) by (destruct (p_eof s); [specialize (H1 eq_refl); congruence|reflexivity]). rewrite E. cbn [tl].
      destruct (getline_good _ (p_cur s) (H3 eq_refl) G) as [[R ->]|[(l & r & R & Hl & ->)|[R [Hl ->]]]]; cbn; rewrite ?E.
      + rewrite R. split; [split; [reflexivity|split; [intros []|reflexivity]]|]. split; [reflexivity|auto].
      + rewrite R. change (lines_of (l ++ c_lf :: r)) with (lines_from [] (l ++ c_lf :: r)). rewrite lines_from_app by exact Hl. cbn [app].
        split; [split; [discriminate|split; [exact Hl|reflexivity]]|]. split; [reflexivity|discriminate].
      + unfold lines_of. rewrite lines_from_last by exact Hl. cbn [app].
        split; [split; [discriminate|split; [exact Hl|reflexivity]]|]. split; [|discriminate]. destruct (is_rest (p_in s)); [congruence|reflexivity].
    - rewrite (getline_bad _ _ G). cbn. unfold is_good. cbn [is_fail is_eof]. rewrite andb_false_r.
      split; [split; [reflexivity|split; [exact H2|discriminate]]|]. split; [destruct (p_eof s); reflexivity|auto].
  Qed.

  (** what reading leaves alone *)
  Definition fr (s s' : pst I) : Prop :=
    p_big5 s' = p_big5 s /\ p_conv s' = p_conv s /\ p_calls s' = p_calls s /\ p_dict s' = p_dict s.
  Lemma fr_refl s : fr s s.
  Proof. repeat split. Qed.
  Lemma fr_trans s1 s2 s3 : fr s1 s2 -> fr s2 s3 -> fr s1 s3.
  Proof. intros (A1 & A2 & A3 & A4) (B1 & B2 & B3 & B4). repeat split; congruence. Qed.
  Lemma fr_next s : fr s (nextst s).
  Proof. nx s. repeat split; assumption. Qed.
  (** only the log changes *)
  Definition lg (s s' : pst I) : Prop := fr s s' /\ p_in s' = p_in s /\ p_eof s' = p_eof s /\ p_cur s' = p_cur s.
  Lemma lg_warned ws : forall s, lg s (warned_all cf fn ws s).
  Proof.
    induction ws as [|w ws IH]; intro s; cbn [warned_all]; [repeat split|].
    destruct (IH (warned cf fn w s)) as ((A1 & A2 & A3 & A4) & A5 & A6 & A7). unfold lg, fr. rewrite A1, A2, A3, A4, A5, A6, A7. repeat split.
  Qed.
  Lemma lg_wf s s' : lg s s' -> wf s -> wf s'.
  Proof. intros (_ & A1 & A2 & A3). unfold wf. rewrite A1, A2, A3. auto. Qed.
  Lemma lg_rem s s' : lg s s' -> rem s' = rem s.
  Proof. intros (_ & A1 & A2 & A3). unfold rem. rewrite A1, A2, A3. reflexivity. Qed.

  Lemma error_not_ret A m s a s' : @error cf fn A m s <> (Ret a, s').
  Proof. unfold error, mbind, mget, emit, mmod. destruct (recover cf _ _) as [[[]| | | | ] s'']; discriminate. Qed.
  Lemma bind_ret A B (m : P A) (f : A -> P B) s b s' : mbind m f s = (Ret b, s') -> exists a s1, m s = (Ret a, s1) /\ f a s1 = (Ret b, s').
  Proof. unfold mbind. destruct (m s) as [[a|?|?| |] s1]; try discriminate. eauto. Qed.

  Lemma continuation_inv f : forall out s v s', wf s -> p_eof s = false -> continuation cf fn f out s = (Ret v, s') ->
    exists more, v = out ++ List.concat (List.map chunk_value more) /\
      tl (rem s) = List.map chunk_text more ++ rem s' /\ Forall (chunk_ok false (p_big5 s)) more /\ fr s s' /\ wf s' /\
      pquote false 0 (p_cur s') = Some None /\
      (p_eof s' = true -> p_cur s' = [] \/ (more = [] /\ is_good (p_in s) = false /\ p_cur s' = p_cur s)).
  Proof.
    induction f as [|f IH]; intros out s v s' Hw He Hr; [discriminate|]. pose proof Hr as Hr0.
    cbn [continuation] in Hr. unfold mbind at 1 in Hr. rewrite next_line_eq, mget_bind in Hr.
    destruct (step_facts s Hw) as (Hw1 & Hrem & Heof). set (s1 := nextst s) in *.
    unfold mbind at 1 in Hr. rewrite find_quote_eq, Hst in Hr. destruct (pquote false 0 (p_cur s1)) as [[i|]|] eqn:Eq; cbn [run_opt] in Hr; try unfold mret at 1 in Hr; cbv beta iota in Hr.
    3: discriminate.
    2: { injection Hr as <- <-. exists []. cbn [List.map List.concat app]. rewrite app_nil_r. split; [reflexivity|]. split; [now rewrite Hrem|].
         split; [constructor|]. split; [apply fr_next|]. split; [exact Hw1|]. split; [exact Eq|]. intro E. destruct (Heof E) as [X|[X Y]]; auto. }
    (* a continuation line *)
    assert (K : exists s2, lg s1 s2 /\ mbind (get_string_line cf fn out i) (continuation cf fn f) s2 = (Ret v, s')).
    { unfold mbind at 1 in Hr. destruct (_ && _).
      - rewrite warning_eq in Hr. eexists. split; [|exact Hr]. exact (lg_warned [_] s1).
      - unfold mret at 1 in Hr. cbv beta iota in Hr. exists s1. split; [exact (lg_warned [] s1)|exact Hr]. }
    clear Hr. destruct K as (s2 & L2 & Hr). apply bind_ret in Hr as (a & s3 & H1 & H2).
    rewrite get_string_line_eq, run_lex_eq, Hst in H1. pose proof L2 as ((B1 & B2 & B3 & B4) & B5 & B6 & B7). rewrite B1, B7 in H1.
    replace (p_big5 s1) with (p_big5 s) in * by (symmetry; apply fr_next).
    destruct (pline false (p_big5 s) out i (p_cur s1)) as [ws x|ws m|ws] eqn:Ep; [|destruct (error_not_ret _ _ _ _ _ H1)|discriminate].
    injection H1 as <- <-.
    destruct (pquote_inv _ _ _ Eq) as (lead & r0 & Ec & Hlead & Hi). cbn [plus] in Hi.
    (* the line was really read *)
    assert (E1 : p_eof s1 = false).
    { destruct (p_eof s1) eqn:E1; [|reflexivity]. exfalso. destruct (Heof eq_refl) as [X|[X Y]].
      - rewrite X in Ec. destruct lead; discriminate.
      - assert (S : fst (continuation cf fn (S f) out s) = OutOfFuel).
        { apply (stuck_continuation cf fn (S f) out i s X); rewrite Hst, <- Y; [exact Eq|].
          pose proof (pline_shape false (p_big5 s) i (p_cur s1) [] out) as Hs. rewrite Hs, Ep. reflexivity. }
        rewrite Hr0 in S. discriminate S. }
    apply (pline_inv (p_big5 s) out i lead (p_cur s1) []) in Ep; [|apply Hw1| |cbn; exact Hi|exact Hlead].
    2: { cbn [app]. rewrite Hi. rewrite Ec at 2. rewrite skipn_app, skipn_all, Nat.sub_diag. exact Ec. }
    destruct Ep as (ck & Ec' & _ & Hv & Hck). cbn [app] in Ec'.
    pose proof (lg_warned ws s2) as L3. set (s3 := warned_all cf fn ws s2) in *.
    assert (L : lg s1 s3).
    { destruct L2 as (A1 & A2 & A3 & A4), L3 as (C1 & C2 & C3 & C4). split; [eapply fr_trans; eassumption|]. rewrite C2, C3, C4. auto. }
    apply IH in H2; [|eapply lg_wf; eassumption|destruct L as (_ & _ & -> & _); exact E1].
    destruct H2 as (more & -> & T & F & Fr & Hw' & Hq & Hstk).
    assert (B : p_big5 s3 = p_big5 s) by (transitivity (p_big5 s1); [apply L|apply fr_next]).
    exists (ck :: more). cbn [List.map List.concat]. rewrite Hv, app_assoc. split; [reflexivity|].
    split.
    { rewrite <- Hrem. rewrite (lg_rem _ _ L) in T. unfold rem in T |- * at 1. rewrite E1 in *. cbn [tl] in T. rewrite T, Ec'. reflexivity. }
    split; [constructor; [exact Hck|rewrite <- B; exact F]|].
    split; [eapply fr_trans; [apply fr_next|]; eapply fr_trans; [apply L|exact Fr]|].
    split; [exact Hw'|]. split; [exact Hq|]. intro E'. destruct (Hstk E') as [X|(X & Y & Z)]; [auto|]. exfalso.
    destruct L as (_ & _ & _ & Lc). rewrite Lc, Ec' in Z.
    assert (Q : pquote false 0 (chunk_text ck) = Some (Some (length (ck_lead ck)))) by (apply (pquote_chunk false (p_big5 s)), Hck).
    rewrite Z in Hq. congruence.
  Qed.

  Lemma get_string_inv k s v s' : wf s -> p_eof s = false -> get_string cf fn k s = (Ret v, s') ->
    exists lit, rem s = lit_lines (firstn k (p_cur s)) lit ++ rem s' /\ lit_value lit = v /\ lit_ok false (p_big5 s) lit /\
      p_cur s = firstn k (p_cur s) ++ chunk_text (lt_head lit) /\ fr s s' /\ wf s' /\
      (p_eof s' = true -> p_cur s' = [] \/ (p_cur s' = p_cur s /\ rem s' = [] /\ is_good (p_in s) = false)) /\
      shape (pfirst (cf_strict cf) (cf_pedantic cf) (p_big5 s) k (p_cur s)) = 0.
  Proof.
    intros Hw He Hr. rewrite get_string_eq in Hr. apply bind_ret in Hr as (a & s1 & H1 & H2). rewrite run_lex_eq in H1.
    destruct (pfirst _ _ _ _ _) as [ws x|ws m|ws] eqn:Ep; [|destruct (error_not_ret _ _ _ _ _ H1)|discriminate]. injection H1 as <- <-.
    rewrite Hst in Ep. apply pfirst_inv in Ep; [|apply Hw]. destruct Ep as (ck & Hc & -> & Hck).
    pose proof (lg_warned ws s) as L. set (s1 := warned_all cf fn ws s) in *.
    apply continuation_inv in H2; [|eapply lg_wf; eassumption|destruct L as (_ & _ & -> & _); exact He].
    destruct H2 as (more & -> & T & F & Fr & Hw' & Hq & Hstk).
    exists {| lt_head := ck; lt_more := more |}. unfold lit_lines, lit_value, lit_ok. cbn [lt_head lt_more List.map List.concat].
    rewrite <- Hc. rewrite (lg_rem _ _ L) in T.
    split; [unfold rem in T |- * at 1; rewrite He in *; cbn [tl] in T; rewrite T; reflexivity|]. split; [reflexivity|].
    split; [constructor; [exact Hck|]; destruct L as ((<- & _) & _); exact F|]. split; [reflexivity|].
    split; [eapply fr_trans; [apply L|exact Fr]|]. split; [exact Hw'|]. split; [|reflexivity].
    intro E. destruct (Hstk E) as [X|(X & Y & Z)]; [auto|]. right. destruct L as (_ & L1 & _ & L3). rewrite L1 in Y. rewrite L3 in Z.
    split; [exact Z|]. split; [unfold rem; rewrite E; reflexivity|exact Y].
  Qed.

  Lemma comments_inv f : forall b s r s', wf s -> p_eof s = false -> comments cf f b s = (Ret r, s') ->
    wf s' /\ (p_eof s' = true -> p_cur s' = []).
  Proof.
    induction f as [|f IH]; intros b s r s' Hw He Hr; [discriminate|]. pose proof Hr as Hr0. cbn [comments] in Hr. unfold prefix in Hr.
    rewrite mget_bind in Hr. destruct (starts_with [c_hash] (p_cur s)) eqn:Eh.
    - rewrite mget_bind in Hr. unfold mbind at 1 in Hr. rewrite next_line_eq in Hr. destruct (step_facts s Hw) as (Hw1 & _ & Heof).
      destruct (p_eof (nextst s)) eqn:E1; [|eapply IH; eassumption].
      destruct (Heof eq_refl) as [X|[X Y]].
      + destruct f as [|f]; [discriminate|]. cbn [comments] in Hr. unfold prefix in Hr. rewrite mget_bind, X in Hr. cbn in Hr. injection Hr as _ <-. auto.
      + exfalso. pose proof (stuck_comments cf (S f) b s X Eh) as S. rewrite Hr0 in S. discriminate S.
    - injection Hr as _ <-. split; [exact Hw|]. congruence.
  Qed.

  Lemma digit_row cur : pmsgstr_n false cur = Some true ->
    let n := N.to_nat (code (nth 7 cur c_nul) - 48) in firstn 9 cur = bs "msgstr[" ++ [digit_of n; c_rbr] /\ n < 10.
  Proof.
    intro H. unfold pmsgstr_n in H. destruct (starts_with _ cur) eqn:E; cbn [andb] in H; [|discriminate].
    destruct (Nat.ltb_spec 8 (length cur)) as [L|L]; [|discriminate]. unfold pctype in H. cbn [andb] in H. injection H as H. apply andb_prop in H as [D R].
    apply byte_eqb_eq in R. apply starts_with_spec in E as [u ->]. destruct u as [|d [|r u]]; cbn [length app bs list_ascii_of_string] in L; try lia.
    cbn [app bs list_ascii_of_string nth] in D, R |- *. subst r. cbv zeta. cbn [firstn].
    unfold isdigit in D. apply andb_prop in D as [D1 D2]. apply N.leb_le in D1. apply N.leb_le in D2.
    split; [|lia]. unfold digit_of. do 7 f_equal. f_equal. rewrite N2Nat.id. replace (48 + (code d - 48))%N with (code d) by lia.
    unfold chr, code. symmetry. apply ascii_N_embedding.
  Qed.

  Lemma convert_ret_valid (c : iconv I) x v c' ev : convert nd c x = (Ret v, c', ev) -> cv_cd c' <> CdInvalid.
  Proof.
    unfold convert. destruct (cv_cd c) as [| |id stt] eqn:E; [intro H; inversion H; subst; congruence|discriminate|].
    destruct (ic_conv I stt x (4 * length x)) as [[s' out] [e|]]; [|intro H; inversion H; subst; discriminate].
    destruct e; try destruct nd; intro H; inversion H; subst; discriminate.
  Qed.

  Lemma msgstr_loop_inv f : forall num ne s r s', wf s -> (p_eof s = true -> p_cur s = []) ->
    msgstr_loop cf fn f num ne s = (Ret r, s') ->
    exists rows vs, rem s = List.concat (List.map row_lines rows) ++ rem s' /\
      Forall (fun r => fst r < 10 /\ lit_ok false (p_big5 s) (snd r)) rows /\
      convert_rows nd (p_conv s) rows = (Ret vs, p_conv s') /\ fst r = put_all num vs /\
      snd r = (ne || negb (forallb (fun r => is_nil (lit_value (snd r))) rows))%bool /\ (num = [] -> rows <> []) /\
      p_big5 s' = p_big5 s /\ p_calls s' = p_calls s /\ p_dict s' = p_dict s /\ wf s'.
  Proof.
    induction f as [|f IH]; intros num ne s r s' Hw He Hr; [discriminate|]. cbn [msgstr_loop] in Hr.
    unfold mbind at 1 in Hr. rewrite is_empty_line_eq in Hr. destruct (pempty _ _) as [[]|] eqn:Ee; cbn [run_opt] in Hr; try unfold mret at 1 in Hr; cbv beta iota in Hr.
    3: discriminate.
    - destruct num as [|x num]; cbn [is_nil] in Hr; [destruct (error_not_ret _ _ _ _ _ Hr)|]. injection Hr as <- <-.
      exists [], []. cbn. rewrite orb_false_r. repeat (split; [first [reflexivity|constructor|discriminate]|]). exact Hw.
    - unfold mbind at 1 in Hr. rewrite is_msgstr_n_eq in Hr. destruct (pmsgstr_n _ _) as [[]|] eqn:Em; cbn [run_opt] in Hr; try unfold mret at 1 in Hr; cbv beta iota in Hr.
      2: destruct (error_not_ret _ _ _ _ _ Hr).
      2: discriminate.
      rewrite mget_bind in Hr. cbv zeta in Hr.
      assert (E : p_eof s = false).
      { destruct (p_eof s); [|reflexivity]. rewrite (He eq_refl) in Ee. discriminate. }
      apply bind_ret in Hr as (ms & s1 & H1 & Hr). apply bind_ret in Hr as (v & s2 & H2 & Hr).
      apply get_string_inv in H1; [|exact Hw|exact E]. destruct H1 as (lit & T & <- & Hl & Hc & Fr & Hw1 & Hstk & Hsh).
      unfold do_convert in H2. destruct (convert nd (p_conv s1) (lit_value lit)) as [[o c'] ev] eqn:Ec. inversion H2; subst o s2. clear H2.
      set (s2 := st_tr (st_conv s1 c') (p_tr s1 ++ ev)) in *.
      pose proof Em as Em'. rewrite Hst in Em'. destruct (digit_row _ Em') as [Hrow Hn]. set (n := N.to_nat (code (nth 7 (p_cur s) c_nul) - 48)) in *.
      assert (Hstk' : p_eof s2 = true -> p_cur s2 = []).
      { intro E2. destruct (Hstk E2) as [X|(X & Y & Z)]; [exact X|]. exfalso.
        destruct (stuck_msgstr cf fn f (vec_put num n v) (ne || negb (is_nil (lit_value lit))) s2) as [S|(S & _)].
        - apply Hw1. exact E2.
        - cbn. rewrite X. exact Em.
        - cbn. rewrite X. destruct Fr as (-> & _). exact Hsh.
        - cbn. eapply convert_ret_valid, Ec.
        - rewrite Hr in S. discriminate S.
        - rewrite Hr in S. discriminate S. }
      apply IH in Hr; [|exact Hw1|exact Hstk']. destruct Hr as (rows & vs & T2 & F & Cv & V & Ne & _ & B & K & D & Hw').
      destruct Fr as (F1 & F2 & F3 & F4).
      exists ((n, lit) :: rows), ((n, v) :: vs). cbn [List.map List.concat].
      split. { rewrite T. unfold row_lines at 1. cbn [fst snd]. rewrite Hrow. change (rem s1) with (rem s2). rewrite T2, app_assoc. reflexivity. }
      split. { constructor; [split; [exact Hn|exact Hl]|]. change (p_big5 s2) with (p_big5 s1) in F. rewrite F1 in F. exact F. }
      split. { cbn [convert_rows]. rewrite <- F2, Ec. change (p_conv s2) with c' in Cv. rewrite Cv. reflexivity. }
      split. { rewrite V. reflexivity. }
      split. { rewrite Ne. cbn [forallb snd]. rewrite negb_andb, orb_assoc. reflexivity. }
      split; [discriminate|]. split; [rewrite B; exact F1|]. split; [rewrite K; exact F3|]. split; [rewrite D; exact F4|exact Hw'].
  Qed.

  (** ** Headers *)
  Definition hst (s0 : pst I) (k : list dict_call) (s : pst I) : Prop :=
    p_in s = p_in s0 /\ p_eof s = p_eof s0 /\ p_cur s = p_cur s0 /\ p_conv s = p_conv s0 /\ p_big5 s = p_big5 s0 /\
    d_charset (p_dict s) = d_charset (p_dict s0) /\ p_calls s = p_calls s0 ++ k.
  Lemma header_line_run line charset s0 k s : hst s0 k s -> exists s',
    header_line cf fn line charset s = (Ret (match after ct_full line with Some x => List.map toupper x | None => charset end), s') /\
    hst s0 (k ++ List.map CallPlural (hdr_plural line)) s'.
  Proof.
    intro H. unfold header_line, after, hdr_plural. change (bs "Plural-Forms:") with plural_forms_key.
    assert (E0 : k ++ List.map CallPlural [] = k) by apply app_nil_r.
    destruct (starts_with content_type line) eqn:E1.
    - rewrite (ct_not_plural _ E1). change content_type_full with ct_full.
      destruct (starts_with ct_full line) eqn:E2; rewrite E0.
      + rewrite Hst. cbn [andb]. eexists; split; [reflexivity|exact H].
      + unfold mbind. rewrite warning_eq. eexists; split; [reflexivity|exact H].
    - destruct (starts_with ct_full line) eqn:E2; [apply full_prefix in E2; congruence|].
      destruct (starts_with plural_forms_key line); [|rewrite E0; eexists; split; [reflexivity|exact H]].
      unfold mbind at 1, mlift. rewrite Hst.
      assert (F : exists p, from_string false line = Ret p) by (unfold from_string; cbn [andb]; destruct (assoc _ _); eauto).
      destruct F as [p ->]. cbv beta iota. unfold mbind at 1. destruct (pf_valid p) eqn:Ep; cbn [negb].
      2: { rewrite warning_eq. rewrite E0. eexists; split; [reflexivity|exact H]. }
      rewrite mget_bind. unfold mbind at 1.
      assert (W : forall s2, hst s0 k s2 -> exists s',
        (let (o, s') := dict_call_ cf (CallPlural p) s2 in
              match o with
              | Ret _ => mret charset s' | Exn e => (Exn e, s') | Ub u => (Ub u, s') | AssertFail => (AssertFail, s') | OutOfFuel => (OutOfFuel, s') end)
        = (Ret charset, s') /\ hst s0 (k ++ [CallPlural p]) s').
      { intros s2 (H1 & H2 & H3 & H4 & H5 & H6 & H7). unfold dict_call_, mmod. eexists. split; [reflexivity|]. unfold hst.
        cbn [st_dict p_in p_eof p_cur p_conv p_big5 p_dict p_calls]. repeat (split; [assumption|]). split; [|now rewrite H7, app_assoc].
        cbn [apply_call]. destruct (pf_valid (get_plural_forms (p_dict s2))); exact H6. }
      destruct (pf_valid (get_plural_forms (p_dict s))).
      + destruct (negb _); [rewrite warning_eq|]; apply W; exact H.
      + apply W. exact H.
  Qed.
  Lemma header_loop_run h : forall acc charset s0 k s, hst s0 k s -> exists s',
    header_loop cf fn h acc charset s =
      (Ret (match last_some (after ct_full) (hdr_lines_from acc h) with Some x => List.map toupper x | None => charset end), s') /\
    hst s0 (k ++ List.map CallPlural (List.concat (List.map hdr_plural (hdr_lines_from acc h)))) s'.
  Proof.
    induction h as [|x h IH]; intros acc charset s0 k s H; cbn [header_loop hdr_lines_from].
    - eexists; split; [reflexivity|]. cbn. rewrite app_nil_r. exact H.
    - destruct (byte_eqb x c_lf); [|apply IH, H]. cbn [last_some List.map List.concat].
      destruct (header_line_run acc charset s0 k s H) as (s1 & E1 & H1). unfold mbind. rewrite E1.
      destruct (IH [] (match after ct_full acc with Some x => List.map toupper x | None => charset end) s0 _ s1 H1) as (s2 & E2 & H2).
      exists s2. rewrite E2. split.
      + destruct (last_some (after ct_full) (hdr_lines_from [] h)); reflexivity.
      + rewrite map_app, app_assoc. exact H2.
  Qed.
  Lemma parse_header_run h s : exists o c' ev s',
    set_charsets false (p_conv s) (hdr_charset h) (d_charset (p_dict s)) = (o, c', ev) /\
    parse_header cf fn h s = (o, s') /\ p_in s' = p_in s /\ p_eof s' = p_eof s /\ p_cur s' = p_cur s /\
    p_conv s' = c' /\ p_big5 s' = (p_big5 s || bytes_eqb (hdr_charset h) (bs "BIG5"))%bool /\
    d_charset (p_dict s') = d_charset (p_dict s) /\ p_calls s' = p_calls s ++ List.map CallPlural (hdr_plurals h).
  Proof.
    destruct (set_charsets false (p_conv s) (hdr_charset h) (d_charset (p_dict s))) as [[o c'] ev] eqn:Es. exists o, c', ev.
    unfold parse_header.
    assert (H0 : hst s [] s) by (repeat split; now rewrite app_nil_r).
    destruct (header_loop_run h [] [] s [] s H0) as (s1 & E1 & H1). unfold mbind at 1. rewrite E1. clear E1 H0.
    fold (hdr_lines h) in *. fold (hdr_plurals h) in H1. cbn [app] in H1.
    set (x := match last_some (after ct_full) (hdr_lines h) with Some x => List.map toupper x | None => [] end).
    assert (X : hdr_charset h = if is_nil x || bytes_eqb x (bs "CHARSET") then bs "UTF-8" else x).
    { unfold hdr_charset. fold ct_full. unfold x. destruct (last_some _ _); reflexivity. }
    assert (G : exists s2, (if is_nil x || bytes_eqb x (bs "CHARSET") then
                   warning cf fn (bs "charset not specified for .po, fallback to utf-8");; mret (bs "UTF-8")
                 else if bytes_eqb x (bs "BIG5") then mmod (fun s => st_big5 s true);; mret x else mret x) s1 = (Ret (hdr_charset h), s2) /\
              hst (st_big5 s (p_big5 s || bytes_eqb (hdr_charset h) (bs "BIG5"))%bool) (List.map CallPlural (hdr_plurals h)) s2).
    { rewrite X. destruct (is_nil x || bytes_eqb x (bs "CHARSET")) eqn:E1.
      - unfold mbind. rewrite warning_eq. eexists; split; [reflexivity|]. change (bytes_eqb (bs "UTF-8") (bs "BIG5")) with false. rewrite orb_false_r. exact H1.
      - destruct (bytes_eqb x (bs "BIG5")).
        + unfold mbind, mmod. eexists; split; [reflexivity|]. rewrite orb_true_r. destruct H1 as (G1 & G2 & G3 & G4 & G5 & G6 & G7).
          unfold hst. cbn [st_big5 p_in p_eof p_cur p_conv p_big5 p_dict p_calls]. repeat (split; [assumption || reflexivity|]). assumption.
        + eexists; split; [reflexivity|]. rewrite orb_false_r. exact H1. }
    destruct G as (s2 & E2 & (G1 & G2 & G3 & G4 & G5 & G6 & G7)). unfold mbind at 1. rewrite E2, mget_bind.
    unfold do_set_charsets. unfold get_charset. rewrite Hst, G4, G6. cbn [st_big5 p_conv p_dict]. rewrite Es.
    eexists. split; [reflexivity|]. split; [reflexivity|]. cbn [st_tr st_conv p_in p_eof p_cur p_conv p_big5 p_dict p_calls].
    cbn [st_big5 p_in p_eof p_cur p_conv p_big5 p_dict p_calls] in *. auto 10.
  Qed.

  (** ** The converter in force *)
  Lemma in_force_convert cs es (c : iconv I) x o c' ev : convert nd c x = (o, c', ev) -> in_force cs es c -> in_force cs es c'.
  Proof.
    intros H F. unfold in_force in *. destruct (last_header es) as [from|].
    2: { rewrite (DocTop.convert_null nd c x F) in H. inversion H; subst. exact F. }
    cbv zeta in *. destruct (bytes_eqb _ _); [rewrite (DocTop.convert_null nd c x F) in H; inversion H; subst; exact F|].
    destruct F as (id & st0 & stt & F1 & F2 & F3). unfold convert in H. rewrite F3 in H.
    pose proof (rs_conv st0 stt x (4 * length x) F2) as R. destruct (ic_conv I stt x (4 * length x)) as [[st' out] err]. cbn [fst] in R.
    exists id, st0. destruct err as [e|].
    - destruct e; try destruct nd; inversion H; subst; cbn [cv_cd]; eexists; (split; [exact F1|]); (split; [|reflexivity]); try apply rs_reset; exact R.
    - inversion H; subst; cbn [cv_cd]. eauto.
  Qed.
  Lemma in_force_rows cs es rows : forall (c : iconv I) o c', convert_rows nd c rows = (o, c') -> in_force cs es c -> in_force cs es c'.
  Proof.
    induction rows as [|[n l] rows IH]; intros c o c' H F; cbn [convert_rows] in H; [inversion H; subst; exact F|].
    destruct (convert nd c (lit_value l)) as [[o1 c1] ev] eqn:E. pose proof (in_force_convert _ _ _ _ _ _ _ E F) as F1.
    destruct o1 as [v|?|?| |]; try (inversion H; subst; exact F1).
    destruct (convert_rows nd c1 rows) as [o2 c2] eqn:E2. pose proof (IH _ _ _ E2 F1) as F2. destruct o2; inversion H; subst; exact F2.
  Qed.
  Lemma last_header_snoc es e : last_header (es ++ [e]) = match is_header e with Some h => Some (hdr_charset h) | None => last_header es end.
  Proof.
    induction es as [|x es IH]; cbn [app last_header].
    - destruct (is_header e); reflexivity.
    - rewrite IH. destruct (is_header e); reflexivity.
  Qed.
  Lemma in_force_set cs es e h (c : iconv I) c' ev : is_header e = Some h ->
    set_charsets false c (hdr_charset h) cs = (Ret tt, c', ev) -> in_force cs (es ++ [e]) c'.
  Proof.
    intros Hh H. unfold in_force. rewrite last_header_snoc, Hh. unfold set_charsets in H. cbn [andb] in H. cbv zeta.
    destruct (bytes_eqb _ _); [inversion H; reflexivity|].
    destruct (ic_open I _ _) as [st0|[? ?]] eqn:E; [|discriminate]. inversion H; subst. exists (cv_next c), st0, st0. split; [reflexivity|]. split; [constructor|reflexivity].
  Qed.

  (** ** The invariant *)
  Variable all : list bytes.
  Variable cs : bytes.
  Definition told (s : pst I) (ps : list piece_of_file) : Prop :=
    entries_ok false false (pieces_entries ps) /\ p_calls s = pieces_calls ps /\ @explained I nd cs [] ps.
  Definition J (s : pst I) : Prop :=
    wf s /\ exists ps gap, all = pieces_lines ps ++ gap ++ rem s /\ told s ps /\
      p_big5 s = big5_end false (pieces_entries ps) /\ d_charset (p_dict s) = cs /\ in_force cs (pieces_entries ps) (p_conv s).
  Definition K (o : outcome unit) (s : pst I) : Prop :=
    exists ps rest, all = pieces_lines ps ++ rest /\ told s ps.
  Local Notation post := (post cf J K).
  Local Notation tri := (tri cf J K).

  Lemma J_K o s : J s -> K o s.
  Proof. intros (_ & ps & gap & H1 & H2 & _). exists ps, (gap ++ rem s). auto. Qed.
  Lemma J_next s : J s -> J (nextst s).
  Proof.
    intros (Hw & ps & gap & H1 & (H2a & H2b & H2c) & H3 & H4 & H5). destruct (step_facts s Hw) as (Hw1 & Hrem & _). split; [exact Hw1|].
    exists ps, (gap ++ firstn 1 (rem s)). unfold told. nx s. rewrite Nb, Nc, Nv, Nd, Hrem. split; [|auto].
    rewrite H1, <- app_assoc. do 2 f_equal. destruct (rem s); reflexivity.
  Qed.
  Lemma J_log s l : J s -> J (st_tr s (p_tr s ++ [EvLog l])).
  Proof. intro H. exact H. Qed.
  Lemma J_conv s t : J s -> post (do_convert cf t s).
  Proof.
    intro H. unfold do_convert. destruct (convert nd (p_conv s) t) as [[o c] ev] eqn:E.
    assert (H' : J (st_tr (st_conv s c) (p_tr s ++ ev))).
    { destruct H as (Hw & ps & gap & H1 & H2 & H3 & H4 & H5). split; [exact Hw|]. exists ps, gap. split; [exact H1|]. split; [exact H2|]. split; [exact H3|].
      split; [exact H4|]. cbn. eapply in_force_convert; eassumption. }
    destruct o as [v|[]|u| |]; cbn; try exact H'; apply J_K, H'.
  Qed.
  Lemma J_ub s : cf_strict cf = true -> J s -> K (Ub UbCtype) s.
  Proof. intros _ H. apply J_K, H. Qed.
  Lemma J_fuel s : J s -> K OutOfFuel s.
  Proof. apply J_K. Qed.

  Lemma t_get_string k : tri (get_string cf fn k).
  Proof. apply tri_get_string; [exact J_next|exact J_log|exact J_ub|exact J_fuel]. Qed.
  Lemma t_loop f v b : tri (msgstr_loop cf fn f v b).
  Proof. apply tri_msgstr_loop; [exact J_next|exact J_log|exact J_conv|exact J_ub|exact J_fuel]. Qed.
  Lemma t_comments f b : tri (comments cf f b).
  Proof. apply tri_comments; [exact J_next|exact J_fuel]. Qed.
  Lemma t_error A m : tri (@error cf fn A m).
  Proof. apply tri_error; [exact J_next|exact J_log|exact J_ub|exact J_fuel]. Qed.
  Lemma t_empty : tri (is_empty_line cf).
  Proof. apply tri_empty. exact J_ub. Qed.
  Lemma post_bind A B (m : P A) (f : A -> P B) s : post (m s) ->
    (forall a s', m s = (Ret a, s') -> J s' -> post (f a s')) -> post (mbind m f s).
  Proof.
    intros Hm Hf. unfold mbind, ParserUnary.post in *. destruct (m s) as [[a|[]|u| |] s'] eqn:E; cbn [omap] in *; auto.
    apply Hf; auto.
  Qed.

  Lemma entries_ok_snoc b5 es e : entries_ok false b5 es -> entry_ok false (big5_end b5 es) e -> entries_ok false b5 (es ++ [e]).
  Proof.
    revert b5. induction es as [|x es IH]; intros b5; cbn [app entries_ok]; [cbn; auto|].
    intros [H1 H2] H3. split; [exact H1|]. apply IH; [exact H2|exact H3].
  Qed.
  Lemma explained_snoc p ps : forall before, @explained I nd cs before ps ->
    (exists c o c', @in_force I cs (before ++ pieces_entries ps) c /\ read_entry nd cs c (pf_entry p) = (o, c', pf_calls p)) ->
    @explained I nd cs before (ps ++ [p]).
  Proof.
    induction ps as [|q ps IH]; intros before; cbn [app explained pieces_entries List.map].
    - rewrite app_nil_r. auto.
    - intros [H1 H2] H3. split; [exact H1|]. apply IH; [exact H2|]. rewrite <- app_assoc. exact H3.
  Qed.

  (** an entry has been read from state [s] to state [s'] *)
  Lemma add_piece s s' e o c' k : J s -> wf s' -> rem s = entry_lines e ++ rem s' -> entry_ok false (p_big5 s) e ->
    read_entry nd cs (p_conv s) e = (o, c', k) -> p_calls s' = p_calls s ++ k ->
    K o s' /\
    (p_big5 s' = big5_after (p_big5 s) e -> d_charset (p_dict s') = cs ->
     (forall es, in_force cs es (p_conv s) -> in_force cs (es ++ [e]) (p_conv s')) -> J s').
  Proof.
    intros (Hw & ps & gap & H1 & (H2a & H2b & H2c) & H3 & H4 & H5) Hw' Hr He Hre Hk.
    set (p := {| pf_skipped := gap; pf_entry := e; pf_calls := k |}).
    assert (A1 : all = pieces_lines (ps ++ [p]) ++ rem s').
    { rewrite H1, Hr. unfold pieces_lines. rewrite map_app, concat_app. cbn. rewrite app_nil_r, <- !app_assoc. reflexivity. }
    assert (A2 : pieces_entries (ps ++ [p]) = pieces_entries ps ++ [e]) by (unfold pieces_entries; rewrite map_app; reflexivity).
    assert (T : told s' (ps ++ [p])).
    { unfold told. rewrite A2. split; [apply entries_ok_snoc; [exact H2a|rewrite <- H3; exact He]|].
      split. { rewrite Hk, H2b. unfold pieces_calls. rewrite map_app, concat_app. cbn. rewrite app_nil_r. reflexivity. }
      apply explained_snoc; [exact H2c|]. cbn [app pf_entry pf_calls p]. eauto. }
    split.
    - exists (ps ++ [p]), (rem s'). auto.
    - intros B D F. split; [exact Hw'|]. exists (ps ++ [p]), []. cbn [app]. split; [exact A1|]. split; [exact T|]. rewrite A2.
      split; [|split; [exact D|auto]]. unfold big5_end. rewrite fold_left_app. cbn [fold_left]. fold (big5_end false (pieces_entries ps)). rewrite <- H3. exact B.
  Qed.
  Lemma J_charset s : J s -> d_charset (p_dict s) = cs.
  Proof. intros (_ & ps & gap & _ & _ & _ & H & _). exact H. Qed.
  Lemma J_wf s : J s -> wf s.
  Proof. intros [H _]. exact H. Qed.

  Lemma starts_firstn k kw l : k = length kw -> starts_with kw l = true -> firstn k l = kw.
  Proof. intros -> H. apply starts_with_spec in H as [u ->]. rewrite firstn_app, firstn_all, Nat.sub_diag. cbn. apply app_nil_r. Qed.

  Lemma dict_add_run op s : exists s', dict_add cf op s = (Ret tt, s') /\ p_in s' = p_in s /\ p_eof s' = p_eof s /\ p_cur s' = p_cur s /\
    p_conv s' = p_conv s /\ p_big5 s' = p_big5 s /\ d_charset (p_dict s') = d_charset (p_dict s) /\ p_calls s' = p_calls s ++ [CallAdd op].
  Proof.
    unfold dict_add. rewrite mget_bind. unfold emit. rewrite mmod_bind. unfold dict_call_, mmod. eexists. split; [reflexivity|].
    cbn [st_dict st_tr p_in p_eof p_cur p_conv p_big5 p_dict p_calls apply_call]. rewrite add_charset. auto 10.
  Qed.
  Lemma wf_same s s' : p_in s' = p_in s -> p_eof s' = p_eof s -> p_cur s' = p_cur s -> wf s -> wf s' /\ rem s' = rem s.
  Proof. intros A B C (H1 & H2 & H3). unfold wf, rem. rewrite A, B, C. auto. Qed.

  (** the singular branch, reached with everything up to the msgid read *)
  Lemma singular_post fz oc i s s2 : J s -> J s2 -> p_eof s2 = false -> starts_with (bs "msgstr") (p_cur s2) = true ->
    rem s = ctxt_lines oc ++ lit_lines (bs "msgid") i ++ rem s2 -> opt_lit_ok false (p_big5 s) oc -> lit_ok false (p_big5 s) i -> fr s s2 ->
    post (singular_entry cf fn true fz (opt_value oc) (lit_value i) s2).
  Proof.
    intros HJ HJ2 He Hs Hrem Hoc Hi Fr. unfold singular_entry. apply post_bind; [apply t_get_string, HJ2|].
    intros ms s3 H3 HJ3. apply get_string_inv in H3; [|apply J_wf, HJ2|exact He]. destruct H3 as (lit & T & <- & Hl & _ & Fr3 & Hw3 & _).
    rewrite (starts_firstn 6 (bs "msgstr") _ eq_refl Hs) in T.
    pose proof (fr_trans _ _ _ Fr Fr3) as Fr'. destruct Fr as (F1 & F2 & F3 & F4), Fr' as (G1 & G2 & G3 & G4).
    set (e := {| en_ctxt := oc; en_id := i; en_body := PoStr lit |}).
    assert (R : forall s', rem s' = rem s3 -> rem s = entry_lines e ++ rem s').
    { intros s' ->. rewrite Hrem, T. unfold entry_lines. cbn [en_ctxt en_id en_body e body_lines]. rewrite <- !app_assoc. reflexivity. }
    assert (Ok : entry_ok false (p_big5 s) e).
    { unfold entry_ok. cbn [en_ctxt en_id en_body e body_ok]. split; [exact Hoc|]. split; [exact Hi|]. rewrite <- F1. split; [exact Hl|].
      destruct (is_header e); [intro X; discriminate X|exact Logic.I]. }
    assert (Cs : d_charset (p_dict s3) = cs) by (apply J_charset, HJ3).
    destruct (is_nil (lit_value i)) eqn:Ei.
    - (* header *)
      destruct (parse_header_run (lit_value lit) s3) as (o & c' & ev & s' & E1 & E2 & P1 & P2 & P3 & P4 & P5 & P6 & P7). rewrite E2.
      destruct (wf_same _ _ P1 P2 P3 Hw3) as [Hw' Hr']. rewrite Cs, G2 in E1.
      assert (Hh : is_header e = Some (lit_value lit)) by (unfold is_header; cbn [en_body en_id e]; rewrite Ei; reflexivity).
      destruct (add_piece s s' e o c' (List.map CallPlural (hdr_plurals (lit_value lit))) HJ Hw' (R s' Hr') Ok) as [HK HJ'].
      + unfold read_entry. cbn [en_body en_id e]. rewrite Ei, E1. reflexivity.
      + rewrite P7, G3. reflexivity.
      + assert (B : p_big5 s' = big5_after (p_big5 s) e) by (unfold big5_after; rewrite Hh, P5, G1; reflexivity).
        destruct o as [[]|[]|u| |]; cbn; try exact HK.
        * apply HJ'; [exact B|rewrite P6; exact Cs|]. intros es F. rewrite P4. eapply in_force_set; [exact Hh|exact E1].
        * unfold set_charsets in E1. cbn [andb] in E1. destruct (bytes_eqb _ _); [discriminate|]. destruct (ic_open _ _ _) as [?|[? ?]]; discriminate.
    - assert (Hh : is_header e = None) by (unfold is_header; cbn [en_body en_id e]; rewrite Ei; reflexivity).
      assert (IF : forall es (c : iconv I), in_force cs es c -> in_force cs (es ++ [e]) c).
      { intros es c F. unfold in_force. rewrite last_header_snoc, Hh. exact F. }
      assert (B5 : big5_after (p_big5 s) e = p_big5 s) by (unfold big5_after; rewrite Hh; reflexivity).
      destruct (is_nil (lit_value lit)) eqn:El; cbn [negb andb orb].
      + destruct (add_piece s s3 e (Ret tt) (p_conv s) [] HJ Hw3 (R s3 eq_refl) Ok) as [_ HJ'].
        * unfold read_entry. cbn [en_body en_id e]. rewrite Ei, El. reflexivity.
        * rewrite G3, app_nil_r. reflexivity.
        * cbn. apply HJ'; [now rewrite B5|exact Cs|]. intros es F. rewrite G2. apply IF, F.
      + apply post_bind; [apply J_conv, HJ3|]. intros v s4 H4 HJ4. unfold do_convert in H4.
        destruct (convert nd (p_conv s3) (lit_value lit)) as [[o c'] ev] eqn:Ec. inversion H4; subst o s4. clear H4. rewrite G2 in Ec.
        destruct (dict_add_run (AddSingular (opt_value oc) (lit_value i) v) (st_tr (st_conv s3 c') (p_tr s3 ++ ev)))
          as (s' & E & P1 & P2 & P3 & P4 & P5 & P6 & P7). rewrite E. cbn.
        destruct (wf_same s3 s' P1 P2 P3 Hw3) as [Hw' Hr'].
        destruct (add_piece s s' e (Ret tt) c' [CallAdd (AddSingular (opt_value oc) (lit_value i) v)] HJ Hw' (R s' Hr') Ok) as [_ HJ'].
        * unfold read_entry. cbn [en_body en_id en_ctxt e]. rewrite Ei, El, Ec. reflexivity.
        * rewrite P7. cbn. rewrite G3. reflexivity.
        * apply HJ'; [rewrite B5, P5; exact G1|rewrite P6; exact Cs|]. intros es F. rewrite P4. cbn. apply IF. eapply in_force_convert; eassumption.
  Qed.

  Lemma plural_post fz oc i s s2 : J s -> J s2 -> p_eof s2 = false -> starts_with (bs "msgid_plural") (p_cur s2) = true ->
    rem s = ctxt_lines oc ++ lit_lines (bs "msgid") i ++ rem s2 -> opt_lit_ok false (p_big5 s) oc -> lit_ok false (p_big5 s) i -> fr s s2 ->
    post (plural_entry cf fn true fz (opt_value oc) (lit_value i) s2).
  Proof.
    intros HJ HJ2 He Hs Hrem Hoc Hi Fr. unfold plural_entry. apply post_bind; [apply t_get_string, HJ2|].
    intros ms s3 H3 HJ3. apply get_string_inv in H3; [|apply J_wf, HJ2|exact He]. destruct H3 as (lit & T & <- & Hl & Hc3 & Fr3 & Hw3 & Hstk & _).
    rewrite (starts_firstn 12 (bs "msgid_plural") _ eq_refl Hs) in T.
    pose proof (fr_trans _ _ _ Fr Fr3) as Fr'. destruct Fr as (F1 & F2 & F3 & F4), Fr' as (G1 & G2 & G3 & G4).
    apply post_bind; [apply t_loop, HJ3|]. intros r s4 H4 HJ4.
    destruct (starts_with (bs "msgid_plural") (p_cur s3)) eqn:Esp.
    { (* the loop cannot return from the unterminated msgid_plural line *)
      exfalso. destruct (cf_fuel cf) as [|f]; [discriminate|]. cbn [msgstr_loop] in H4. apply starts_with_spec in Esp as [u Esp].
      unfold mbind at 1 in H4. rewrite is_empty_line_eq, Hst, Esp in H4. cbn [bs list_ascii_of_string app] in H4.
      change (pempty false _) with (Some false) in H4. cbn [run_opt] in H4. unfold mret at 1 in H4. cbv beta iota in H4.
      unfold mbind at 1 in H4. rewrite is_msgstr_n_eq, Hst, Esp in H4. cbn [bs list_ascii_of_string app] in H4.
      change (pmsgstr_n false _) with (Some false) in H4. cbn [run_opt] in H4. unfold mret at 1 in H4. cbv beta iota in H4.
      exact (error_not_ret _ _ _ _ _ H4). }
    apply msgstr_loop_inv in H4; [|exact Hw3|].
    2: { intro E. destruct (Hstk E) as [X|(X & _)]; [exact X|]. congruence. }
    destruct H4 as (rows & vs & T2 & F & Cv & V & Ne & Hne & B & Kc & D & Hw4). cbn [orb] in Ne.
    set (e := {| en_ctxt := oc; en_id := i; en_body := PoPlural lit rows |}).
    assert (R : forall s', rem s' = rem s4 -> rem s = entry_lines e ++ rem s').
    { intros s' ->. rewrite Hrem, T, T2. unfold entry_lines. cbn [en_ctxt en_id en_body e body_lines]. rewrite <- !app_assoc. reflexivity. }
    assert (Ok : entry_ok false (p_big5 s) e).
    { unfold entry_ok. cbn [en_ctxt en_id en_body e body_ok is_header]. split; [exact Hoc|]. split; [exact Hi|]. split; [|exact Logic.I].
      split; [rewrite <- F1; exact Hl|]. split; [now apply Hne|]. rewrite G1 in F. exact F. }
    assert (IF : forall es (c : iconv I), in_force cs es c -> in_force cs (es ++ [e]) c).
    { intros es c X. unfold in_force. rewrite last_header_snoc. cbn [is_header en_body e]. exact X. }
    rewrite G2 in Cv.
    assert (Hvs : vs <> []).
    { intro E. subst vs. specialize (Hne eq_refl). destruct rows as [|[n l] rows]; [congruence|]. cbn [convert_rows] in Cv.
      destruct (convert _ _ _) as [[[?|?|?| |] ?] ?]; try discriminate Cv.
      destruct (convert_rows _ _ _) as [[?|?|?| |] ?]; discriminate Cv. }
    apply post_bind; [apply t_empty, HJ4|]. intros em s5 H5 HJ5.
    assert (E5 : s5 = s4). { rewrite is_empty_line_eq in H5. destruct (pempty _ _); inversion H5; reflexivity. } subst s5.
    destruct em; cbn [negb]; [|apply t_error, HJ4].
    rewrite Ne. destruct (forallb (fun r => is_nil (lit_value (snd r))) rows) eqn:Ef; cbn [negb andb].
    - destruct (add_piece s s4 e (Ret tt) (p_conv s4) [] HJ Hw4 (R s4 eq_refl) Ok) as [_ HJ'].
      + unfold read_entry. cbn [en_body en_id e]. rewrite Cv, Ef. reflexivity.
      + rewrite Kc, G3, app_nil_r. reflexivity.
      + cbn. apply HJ'; [rewrite B; exact G1|apply J_charset, HJ4|]. intros es X. apply IF. eapply in_force_rows; eassumption.
    - cbn [orb]. rewrite mget_bind.
      assert (W : forall s5, lg s4 s5 -> post (dict_add cf (AddPlural (opt_value oc) (lit_value i) (lit_value lit) (fst r)) s5)).
      { intros s5 ((L1 & L2 & L3 & L4) & L5 & L6 & L7).
        destruct (dict_add_run (AddPlural (opt_value oc) (lit_value i) (lit_value lit) (fst r)) s5) as (s' & E & P1 & P2 & P3 & P4 & P5 & P6 & P7).
        rewrite E. cbn. rewrite L5 in P1. rewrite L6 in P2. rewrite L7 in P3. destruct (wf_same s4 s' P1 P2 P3 Hw4) as [Hw' Hr'].
        rewrite V, put_all_forms in P7 by exact Hvs.
        destruct (add_piece s s' e (Ret tt) (p_conv s4) [CallAdd (AddPlural (opt_value oc) (lit_value i) (lit_value lit) (forms vs))] HJ Hw' (R s' Hr') Ok) as [_ HJ'].
        - unfold read_entry. cbn [en_body en_id en_ctxt e]. rewrite Cv, Ef. reflexivity.
        - rewrite P7, L3, Kc, G3. reflexivity.
        - apply HJ'; [rewrite P5, L1, B; exact G1|rewrite P6, L4; apply J_charset, HJ4|]. intros es X. rewrite P4, L2. apply IF. eapply in_force_rows; eassumption. }
      unfold mbind at 1. destruct (negb (pf_valid _)); [rewrite warning_eq; apply W; exact (lg_warned [_] s4)|].
      destruct (negb (Z.eqb _ _)); [rewrite warning_eq; apply W; exact (lg_warned [_] s4)|]. apply W. exact (lg_warned [] s4).
  Qed.

  Lemma entry_post fz s : J s -> p_eof s = false -> post (entry cf fn true fz s).
  Proof.
    intros HJ He. unfold entry, prefix. rewrite mget_bind.
    (* the context *)
    assert (C : post ((if starts_with (bs "msgctxt") (p_cur s) then c <- get_string cf fn 7;; mret (Some c) else mret None) s) /\
      forall ctxt s1, (if starts_with (bs "msgctxt") (p_cur s) then c <- get_string cf fn 7;; mret (Some c) else mret None) s = (Ret ctxt, s1) ->
        exists oc, ctxt = opt_value oc /\ rem s = ctxt_lines oc ++ rem s1 /\ opt_lit_ok false (p_big5 s) oc /\ fr s s1 /\ wf s1 /\
          (starts_with (bs "msgid") (p_cur s1) = true -> p_eof s1 = false)).
    { destruct (starts_with (bs "msgctxt") (p_cur s)) eqn:Ec.
      - split; [apply post_bind; [apply t_get_string, HJ|intros a s' _ HJ'; exact HJ']|].
        intros ctxt s1 H. apply bind_ret in H as (a & s1' & H1 & H2). injection H2 as <- <-.
        apply get_string_inv in H1; [|apply J_wf, HJ|exact He]. destruct H1 as (lit & T & <- & Hl & _ & Fr & Hw & Hstk & _).
        rewrite (starts_firstn 7 (bs "msgctxt") _ eq_refl Ec) in T. exists (Some lit). cbn [opt_value ctxt_lines opt_lit_ok]. split; [reflexivity|]. split; [exact T|].
        split; [exact Hl|]. split; [exact Fr|]. split; [exact Hw|]. intro Hm. destruct (p_eof s1') eqn:E1; [|reflexivity]. exfalso.
        destruct (Hstk eq_refl) as [X|(X & _)]; rewrite X in Hm; [discriminate|].
        apply starts_with_spec in Ec as [u Ec]. rewrite Ec in Hm. discriminate.
      - split; [exact HJ|]. intros ctxt s1 H. injection H as <- <-. exists None. split; [reflexivity|]. split; [reflexivity|]. split; [exact Logic.I|].
        split; [apply fr_refl|]. split; [apply J_wf, HJ|auto]. }
    destruct C as [C1 C2]. apply post_bind; [exact C1|]. intros ctxt s1 H1 HJ1. destruct (C2 _ _ H1) as (oc & -> & T1 & Hoc & Fr1 & Hw1 & Hm1). clear C1 C2 H1.
    rewrite mget_bind.
    (* the msgid *)
    destruct (starts_with (bs "msgid") (p_cur s1)) eqn:Em.
    2: { apply post_bind; [apply t_error, HJ1|]. intros a s' H. destruct (error_not_ret _ _ _ _ _ H). }
    specialize (Hm1 eq_refl). apply post_bind; [apply t_get_string, HJ1|]. intros id s2 H2 HJ2.
    apply get_string_inv in H2; [|exact Hw1|exact Hm1]. destruct H2 as (lit & T2 & <- & Hl & Hc2 & Fr2 & Hw2 & Hstk & _).
    rewrite (starts_firstn 5 (bs "msgid") _ eq_refl Em) in T2, Hc2.
    assert (Fr : fr s s2) by (eapply fr_trans; eassumption).
    assert (Hli : lit_ok false (p_big5 s) lit) by (destruct Fr1 as (<- & _); exact Hl).
    assert (T : rem s = ctxt_lines oc ++ lit_lines (bs "msgid") lit ++ rem s2) by (rewrite T1, T2; reflexivity).
    assert (S : p_eof s2 = true -> starts_with (bs "msgid_plural") (p_cur s2) = false /\ starts_with (bs "msgstr") (p_cur s2) = false).
    { intro E. destruct (Hstk E) as [X|(X & _)]; rewrite X; [split; reflexivity|]. rewrite Hc2. split; [|reflexivity].
      exact (id_not_plural false (p_big5 s) lit [] [] Hli). }
    rewrite mget_bind. destruct (starts_with (bs "msgid_plural") (p_cur s2)) eqn:Ep.
    - apply (plural_post fz oc lit s s2); auto. destruct (p_eof s2); [|reflexivity]. destruct (S eq_refl); discriminate.
    - rewrite mget_bind. destruct (starts_with (bs "msgstr") (p_cur s2)) eqn:Es; [|apply t_error, HJ2].
      apply (singular_post fz oc lit s s2); auto. destruct (p_eof s2); [|reflexivity]. destruct (S eq_refl); discriminate.
  Qed.

  Lemma block_post s : J s -> p_eof s = false -> post (block cf fn true s).
  Proof.
    intros HJ He. unfold block. apply post_bind; [apply t_comments, HJ|]. intros fz s1 H1 HJ1.
    destruct (comments_inv _ _ _ _ _ (J_wf _ HJ) He H1) as [Hw1 Hc1].
    apply post_bind; [apply t_empty, HJ1|]. intros e s2 H2 _.
    rewrite is_empty_line_eq in H2. destruct (pempty (cf_strict cf) (p_cur s1)) as [e'|] eqn:Ee; inversion H2; subst e' s2. clear H2.
    apply post_bind.
    - destruct e; [exact HJ1|]. apply entry_post; [exact HJ1|]. destruct (p_eof s1); [|reflexivity].
      rewrite (Hc1 eq_refl) in Ee. discriminate.
    - intros [] s2 _ HJ2. apply post_bind; [apply t_empty, HJ2|]. intros e' s3 _ HJ3.
      apply post_bind; [destruct e'; [exact HJ3|apply t_error, HJ3]|]. intros [] s4 _ HJ4. rewrite next_line_eq. apply J_next, HJ4.
  Qed.
  Lemma loop_post f : forall s, J s -> post (parse_loop cf fn true f s).
  Proof.
    induction f as [|f IH]; intros s HJ; cbn [parse_loop]; [apply J_K, HJ|]. rewrite mget_bind.
    destruct (p_eof s) eqn:E; [exact HJ|]. apply post_bind.
    - pose proof (block_post s HJ E) as H. unfold try_block, ParserUnary.post in *. destruct (block cf fn true s) as [[a|[]|u| |] s']; cbn [omap] in *; auto.
    - intros [] s' _ HJ'. apply IH, HJ'.
  Qed.
End Sound.

Lemma parse_sound cf fn b d : cf_strict cf = false ->
  let r := po_parse cf fn (stream_of b) d in
  exists ps rest, file_lines b = pieces_lines ps ++ rest /\ entries_ok false false (pieces_entries ps) /\
    pr_calls r = pieces_calls ps /\ @explained (cf_iconv cf) (cf_ndebug cf) (d_charset d) [] ps.
Proof.
  intro Hst. cbv zeta.
  assert (H : post cf (J cf (file_lines b) (d_charset d)) (K cf (file_lines b) (d_charset d)) (parse_member cf fn true (init_state cf (stream_of b) d))).
  { unfold parse_member. unfold mbind at 1. rewrite next_line_eq. rewrite mmod_bind. apply loop_post; [exact Hst|].
    set (s0 := init_state cf (stream_of b) d).
    assert (W0 : wf cf s0) by (split; [discriminate|split; [intros []|reflexivity]]).
    destruct (step_facts cf s0 W0) as ((W1 & W2 & W3) & R & _).
    assert (R0 : rem cf (nextst s0) = lines_of b) by (rewrite R; reflexivity).
    set (s1 := nextst s0) in *. nx s0. fold s1 in Nd, Nc, Nv, Nt, Nb, Nl.
    assert (C : (if starts_with bom (p_cur s1) then st_cur s1 (skipn 3 (p_cur s1)) else s1) = st_cur s1 (drop_bom (p_cur s1))).
    { unfold drop_bom. destruct (starts_with bom (p_cur s1)); [reflexivity|]. destruct s1; reflexivity. }
    rewrite C. split.
    - split; [exact W1|]. split; [|exact W3]. cbn. unfold drop_bom. destruct (starts_with _ _); [now apply (one_line_skipn 3)|exact W2].
    - exists [], []. split.
      + cbn [pieces_lines List.map List.concat app]. unfold file_lines. rewrite <- R0. unfold rem. cbn [st_cur st_line p_eof p_cur p_in].
        destruct (p_eof s1); reflexivity.
      + cbn [st_cur st_line p_big5 p_dict p_conv]. rewrite Nb, Nd, Nv. split; [|split; [reflexivity|split; reflexivity]].
        split; [exact Logic.I|]. split; [|exact Logic.I]. cbn [st_cur st_line p_calls]. rewrite Nc. reflexivity. }
  unfold po_parse. destruct (parse_member cf fn true (init_state cf (stream_of b) d)) as [o s]. cbn [pr_calls].
  assert (X : K cf (file_lines b) (d_charset d) (Ret tt) s).
  { destruct o as [a|[]|u| |]; cbn in H; try exact H; eapply J_K, H. }
  destruct X as (ps & rest & H1 & H2 & H3 & H4). exists ps, rest. auto.
Qed.

(** without conversions *)
Lemma in_force_own (I : iconv_impl) charset es (c : iconv I) : own_charset charset es -> in_force charset es c -> cv_cd c = CdNull.
Proof.
  intros Ho F. unfold in_force in F. destruct (last_header es) as [from|] eqn:E; [|exact F]. cbv zeta in F.
  assert (X : same_charset from charset).
  { clear F. revert E. induction es as [|e es IH]; cbn [last_header]; [discriminate|]. inversion Ho; subst.
    destruct (last_header es) as [h|]; [intro X; apply IH; auto|]. destruct (is_header e) as [h|]; [|discriminate]. intro X. injection X as <-. assumption. }
  unfold same_charset in X. rewrite X in F. rewrite bytes_eqb_refl in F. exact F.
Qed.
Lemma read_entry_null (I : iconv_impl) ndb charset (c : iconv I) e o c' k : cv_cd c = CdNull -> read_entry ndb charset c e = (o, c', k) -> k = entry_calls e.
Proof.
  intros Hn. unfold read_entry, entry_calls. destruct (en_body e) as [m|p rows].
  - destruct (is_nil (lit_value (en_id e))).
    + destruct (set_charsets _ _ _ _) as [[? ?] ?]. intro H. inversion H; reflexivity.
    + destruct (is_nil (lit_value m)); [intro H; inversion H; reflexivity|]. rewrite (DocTop.convert_null _ _ _ Hn). intro H. inversion H; reflexivity.
  - rewrite (DocTop.convert_rows_null _ _ _ Hn). destruct (forallb _ _); intro H; inversion H; reflexivity.
Qed.
Lemma explained_own (I : iconv_impl) ndb charset ps : forall before, own_charset charset (before ++ pieces_entries ps) ->
  @explained I ndb charset before ps -> pieces_calls ps = List.concat (List.map entry_calls (pieces_entries ps)).
Proof.
  induction ps as [|p ps IH]; intros before Ho H; [reflexivity|]. cbn [explained] in H. destruct H as [(c & o & c' & F & R) H].
  unfold pieces_calls, pieces_entries in *. cbn [List.map List.concat] in *.
  assert (Ho1 : own_charset charset before) by (apply Forall_app in Ho; apply Ho).
  rewrite (read_entry_null _ _ _ _ _ _ _ _ (in_force_own _ _ _ _ Ho1 F) R). f_equal.
  apply (IH (before ++ [pf_entry p])); [|exact H]. rewrite <- app_assoc. exact Ho.
Qed.
