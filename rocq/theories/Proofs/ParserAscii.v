(** Pure-ASCII input: strict and permissive ctype functions cannot be told apart. *)
From Verif.Model Require Import Base Log PluralForms Dictionary IConv Stream PoParser.
From Verif.Spec Require Import ParserSpec.
From Verif.Proofs Require Import BaseFacts DictProofs LexProofs ParserUnary ParserSafe.
Local Open Scope list_scope.

Definition asc (l : bytes) : Prop := existsb hi l = false.
Lemma asc_app a b : asc (a ++ b) <-> asc a /\ asc b.
Proof. unfold asc. rewrite existsb_app, orb_false_iff. reflexivity. Qed.
Lemma asc_cons c l : asc (c :: l) <-> hi c = false /\ asc l.
Proof. unfold asc. cbn [existsb]. rewrite orb_false_iff. reflexivity. Qed.
Lemma asc_skipn n l : asc l -> asc (skipn n l).
Proof. intro H. rewrite <- (firstn_skipn n l) in H. apply asc_app in H. tauto. Qed.
Lemma asc_nth n l : asc l -> hi (nth n l c_nul) = false.
Proof.
  intro H. destruct (nth_in_or_default n l c_nul) as [K|K]; [|rewrite K; reflexivity].
  destruct (hi (nth n l c_nul)) eqn:E; [|reflexivity]. exfalso.
  assert (X : existsb hi l = true) by (apply existsb_exists; eauto). unfold asc in H. congruence.
Qed.

Section Pure.
  Variable st : bool.
  Lemma pc_asc A (f : byte -> A) c : hi c = false -> pctype st f c = pctype false f c.
  Proof. intro H. unfold pctype. rewrite H, andb_false_r. reflexivity. Qed.
  Lemma pall_asc l : asc l -> pall_space st l = pall_space false l.
  Proof.
    induction l as [|c l IH]; intro H; [reflexivity|]. apply asc_cons in H as [Hc H]. cbn [pall_space].
    rewrite (pc_asc _ _ _ Hc), (IH H). reflexivity.
  Qed.
  Lemma pempty_asc l : asc l -> pempty st l = pempty false l.
  Proof.
    intro H. destruct l as [|c l]; [reflexivity|]. unfold pempty. destruct (byte_eqb c c_hash); [|now apply pall_asc].
    destruct l as [|c1 l]; [reflexivity|]. apply pc_asc. apply asc_cons in H as [_ H]. apply asc_cons in H. tauto.
  Qed.
  Lemma pgarbage_asc l : asc l -> pgarbage st l = pgarbage false l.
  Proof.
    induction l as [|c l IH]; intro H; [reflexivity|]. apply asc_cons in H as [Hc H]. cbn [pgarbage].
    rewrite (pc_asc _ _ _ Hc), (IH H). reflexivity.
  Qed.
  Definition good (r : lexres bytes) : Prop := match r with LOk _ a => asc a | _ => True end.
  Lemma unescape_asc c e : unescape c = Some e -> hi e = false.
  Proof.
    unfold unescape. repeat match goal with |- context[if ?b then _ else _] => destruct b end; intro H; inversion H; subst; reflexivity.
  Qed.
  Lemma pscan_asc b5 n : forall l i out, length l <= n -> asc l -> asc out ->
    match pscan b5 i l out with LOk _ a => asc (snd a) | _ => True end.
  Proof.
    induction n as [|n IH]; intros [|c l] i out H Hl Ho; cbn [length] in H; try exact Logic.I; try lia.
    apply asc_cons in Hl as [Hc Hl]. cbn [pscan]. destruct (byte_eqb c c_dq); [exact Ho|].
    assert (N : forall A (r : lexres (A * bytes)) w, match r with LOk _ a => asc (snd a) | _ => True end ->
              match lwarn w r with LOk _ a => asc (snd a) | _ => True end) by (intros A [] w; auto).
    destruct (b5 && big5_lead c).
    { destruct l as [|c1 l]; [exact Logic.I|]. apply asc_cons in Hl as [Hc1 Hl]. cbn [length] in H.
      apply IH; [lia|exact Hl|]. apply asc_app. split; [exact Ho|]. unfold asc. cbn. now rewrite Hc, Hc1. }
    destruct (byte_eqb c c_bsl).
    { destruct l as [|c1 l]; [exact Logic.I|]. apply asc_cons in Hl as [Hc1 Hl]. cbn [length] in H. destruct (unescape c1) eqn:Eu.
      - apply IH; [lia|exact Hl|]. apply asc_app. split; [exact Ho|]. unfold asc. cbn. now rewrite (unescape_asc _ _ Eu).
      - apply N, IH; [lia|exact Hl|]. apply asc_app. split; [exact Ho|]. unfold asc. cbn. now rewrite Hc, Hc1. }
    apply IH; [lia|exact Hl|]. apply asc_app. split; [exact Ho|]. unfold asc. cbn. now rewrite Hc.
  Qed.
  Lemma pline_asc b5 out skip cur : asc cur -> asc out ->
    pline st b5 out skip cur = pline false b5 out skip cur /\ good (pline st b5 out skip cur).
  Proof.
    intros Hc Ho. unfold pline. destruct (_ <=? _); [split; [reflexivity|exact Logic.I]|]. destruct (negb _); [split; [reflexivity|exact Logic.I]|].
    pose proof (pscan_asc b5 _ (skipn (skip + 1) cur) (skip + 1) out (Nat.le_refl _) (asc_skipn _ _ Hc) Ho) as K.
    destruct (pscan _ _ _ _) as [ws a|ws m|ws]; cbn [lbind]; [|split; [reflexivity|exact Logic.I]..].
    rewrite (pgarbage_asc _ (asc_skipn _ _ Hc)). split; [reflexivity|]. destruct (pgarbage _ _); cbn; auto.
  Qed.
  Lemma pskip_asc b5 cur : asc cur -> forall l out skip, asc l -> asc out ->
    pskip st b5 cur out skip l = pskip false b5 cur out skip l /\ good (pskip st b5 cur out skip l).
  Proof.
    intros Hc. induction l as [|c l IH]; intros out skip Hl Ho; cbn [pskip]; [split; [reflexivity|exact Logic.I]|].
    apply asc_cons in Hl as [Hc1 Hl]. destruct (byte_eqb c c_dq); [now apply pline_asc|].
    rewrite (pc_asc _ _ _ Hc1). destruct (pctype false isspace c) as [[]|]; try (split; [reflexivity|exact Logic.I]). now apply IH.
  Qed.
  Lemma pfirst_asc pd b5 skip cur : asc cur ->
    pfirst st pd b5 skip cur = pfirst false pd b5 skip cur /\ good (pfirst st pd b5 skip cur).
  Proof.
    intro Hc. unfold pfirst. destruct (_ <=? _); [split; [reflexivity|exact Logic.I]|]. destruct (_ && _); [now apply pline_asc|].
    destruct (pskip_asc b5 cur Hc (skipn skip cur) [] skip (asc_skipn _ _ Hc) eq_refl) as [E G]. cbv zeta.
    destruct pd; [|auto]. rewrite <- E. split; [reflexivity|]. destruct (pskip _ _ _ _ _ _); auto.
  Qed.
  Lemma pquote_asc l : asc l -> forall i, pquote st i l = pquote false i l.
  Proof.
    induction l as [|c l IH]; intros H i; [reflexivity|]. apply asc_cons in H as [Hc H]. cbn [pquote].
    rewrite (pc_asc _ _ _ Hc). destruct (byte_eqb c c_dq); [reflexivity|]. now rewrite (IH H).
  Qed.
  Lemma pmsgstr_n_asc l : asc l -> pmsgstr_n st l = pmsgstr_n false l.
  Proof. intro H. unfold pmsgstr_n. rewrite (pc_asc _ _ _ (asc_nth 7 l H)). reflexivity. Qed.
End Pure.

Section Ascii.
  Variables pd nd : bool.
  Variable fuel : nat.
  Variable I : iconv_impl.
  Variable fn : bytes.
  Definition cfs (st : bool) : config :=
    {| cf_pedantic := pd; cf_strict := st; cf_ndebug := nd; cf_fuel := fuel; cf_iconv := I |}.
  Local Notation P := (M (pst I)).

  Definition ok (s : pst I) : Prop := asc (is_rest (p_in s)) /\ asc (p_cur s) /\ asc (d_charset (p_dict s)).
  Definition agree {A} (Q : A -> Prop) (m m' : P A) : Prop :=
    forall s, ok s -> m s = m' s /\
      match m s with (Ret a, s') => Q a /\ ok s' | (Exn ExPo, s') => ok s' | _ => True end.
  Definition any {A} (a : A) : Prop := True.

  Lemma ag_bind A B (Q : A -> Prop) (R : B -> Prop) (m m' : P A) (f f' : A -> P B) :
    agree Q m m' -> (forall a, Q a -> agree R (f a) (f' a)) -> agree R (mbind m f) (mbind m' f').
  Proof.
    intros Hm Hf s Hs. destruct (Hm s Hs) as [E K]. unfold mbind. rewrite <- E.
    destruct (m s) as [[a|[]|u| |] s']; auto. destruct K as [Ha Hs']. apply (Hf a Ha s' Hs').
  Qed.
  Lemma ag_ret A (Q : A -> Prop) (a : A) : Q a -> agree Q (mret a) (mret a).
  Proof. intros H s Hs. split; [reflexivity|]. split; assumption. Qed.
  Lemma ag_get A (Q : A -> Prop) (f : pst I -> A) : (forall s, ok s -> Q (f s)) -> agree Q (mget f) (mget f).
  Proof. intros H s Hs. split; [reflexivity|]. split; auto. Qed.
  Lemma ag_fuel A (Q : A -> Prop) : agree Q (mfail OutOfFuel) (mfail OutOfFuel).
  Proof. intros s _. split; [reflexivity|exact Logic.I]. Qed.
  Lemma ag_weaken A (Q R : A -> Prop) (m m' : P A) : (forall a, Q a -> R a) -> agree Q m m' -> agree R m m'.
  Proof.
    intros H Hm s Hs. destruct (Hm s Hs) as [E K]. split; [exact E|]. destruct (m s) as [[a|[]|u| |] s']; auto. destruct K. auto.
  Qed.
  Lemma ok_next s : ok s -> ok (nextst s).
  Proof.
    intros (H1 & H2 & H3). unfold nextst. destruct (is_good (p_in s)) eqn:G.
    - destruct (getline_cases _ (p_cur s) G) as [(R & _ & ->)|[(l & r & R & _ & ->)|[(R & _ & _ & ->)|(_ & _ & ->)]]]; (split; [|split]); cbn; auto; try reflexivity.
      + rewrite R in H1. apply asc_app in H1 as [_ H1]. apply asc_cons in H1. tauto.
      + rewrite R in H1. apply asc_app in H1. tauto.
    - rewrite (getline_bad _ _ G). split; [|split]; cbn; auto.
  Qed.
  Lemma ag_next a b : agree any (next_line (cfs a)) (next_line (cfs b)).
  Proof. intros s Hs. split; [reflexivity|]. rewrite next_line_eq. split; [exact Logic.I|now apply ok_next]. Qed.
  Lemma ag_warning a b w : agree any (warning (cfs a) fn w) (warning (cfs b) fn w).
  Proof. intros s Hs. split; [reflexivity|]. rewrite warning_eq. split; [exact Logic.I|exact Hs]. Qed.
  Lemma ag_opt A a b (Q : A -> Prop) r r' : r = r' -> (forall x, r = Some x -> Q x) -> agree Q (run_opt (cfs a) r) (run_opt (cfs b) r').
  Proof. intros <- H s Hs. destruct r; split; auto; cbn; auto. Qed.
  Lemma ag_empty st : agree any (is_empty_line (cfs st)) (is_empty_line (cfs false)).
  Proof.
    intros s Hs. rewrite !is_empty_line_eq. apply ag_opt; [|intros; exact Logic.I|exact Hs]. apply (pempty_asc st), Hs.
  Qed.
  Lemma ag_msgstr_n st : agree any (is_msgstr_n (cfs st)) (is_msgstr_n (cfs false)).
  Proof.
    intros s Hs. rewrite !is_msgstr_n_eq. apply ag_opt; [|intros; exact Logic.I|exact Hs]. apply (pmsgstr_n_asc st), Hs.
  Qed.
  Lemma ag_recover st f : agree any (recover (cfs st) f) (recover (cfs false) f).
  Proof.
    induction f as [|f IH]; cbn [recover]; [apply ag_fuel|].
    eapply ag_bind; [apply ag_next|intros _ _]. eapply ag_bind; [apply (ag_get _ any); intros; exact Logic.I|intros [] _]; [now apply ag_ret|].
    eapply ag_bind; [apply ag_empty|intros [] _]; [now apply ag_ret|exact IH].
  Qed.
  Lemma ag_error st A (Q : A -> Prop) m : agree Q (error (cfs st) fn m) (error (cfs false) fn m).
  Proof.
    unfold error. intros s Hs. unfold mbind at 1 4, mget. cbv beta iota.
    revert s Hs. 
    assert (G : forall n w, agree Q (emit (cfs st) w ;; recover (cfs st) n ;; mfail (Exn ExPo))%mon (emit (cfs false) w ;; recover (cfs false) n ;; mfail (Exn ExPo))%mon).
    { intros n w. eapply (ag_bind _ _ any).
      - intros s Hs. split; [reflexivity|]. split; [exact Logic.I|exact Hs].
      - intros _ _. eapply ag_bind; [apply ag_recover|]. intros _ _ s Hs. split; [reflexivity|exact Hs]. }
    intros s Hs. apply G, Hs.
  Qed.
  Lemma ok_warned a ws : forall s, ok s -> ok (warned_all (cfs a) fn ws s).
  Proof. induction ws as [|w ws IH]; intros s Hs; cbn [warned_all]; [exact Hs|]. apply IH. exact Hs. Qed.
  Lemma warned_same a b ws : forall s, warned_all (cfs a) fn ws s = warned_all (cfs b) fn ws s.
  Proof. induction ws as [|w ws IH]; intro s; cbn [warned_all]; [reflexivity|]. apply IH. Qed.
  Lemma ag_lex st A (Q : A -> Prop) r r' : r = r' -> (match r with LOk _ a => Q a | _ => True end) ->
    agree Q (run_lex (cfs st) fn r) (run_lex (cfs false) fn r').
  Proof.
    intros <- H s Hs. rewrite !run_lex_eq. destruct r as [ws a|ws m|ws].
    - rewrite (warned_same st false). split; [reflexivity|]. split; [exact H|]. now apply ok_warned.
    - rewrite (warned_same st false). apply ag_error. now apply (ok_warned false).
    - rewrite (warned_same st false). split; [reflexivity|exact Logic.I].
  Qed.
  Lemma ag_get_string_line st out skip : asc out ->
    agree asc (get_string_line (cfs st) fn out skip) (get_string_line (cfs false) fn out skip).
  Proof.
    intros Ho s Hs. rewrite !get_string_line_eq. destruct (pline_asc st (p_big5 s) out skip (p_cur s) (proj1 (proj2 Hs)) Ho) as [E G].
    apply ag_lex; assumption.
  Qed.
  Lemma ag_continuation st f : forall out, asc out -> agree asc (continuation (cfs st) fn f out) (continuation (cfs false) fn f out).
  Proof.
    induction f as [|f IH]; intros out Ho; cbn [continuation]; [apply ag_fuel|].
    eapply ag_bind; [apply ag_next|intros _ _]. eapply (ag_bind _ _ asc); [apply ag_get; intros s Hs; apply Hs|intros cur Hc].
    eapply (ag_bind _ _ any); [|intros [i|] _; [|now apply ag_ret]].
    { intros s Hs. rewrite !find_quote_eq. apply ag_opt; [now apply pquote_asc|intros; exact Logic.I|exact Hs]. }
    eapply (ag_bind _ _ any); [cbn [cf_pedantic cfs]; destruct (_ && _); [apply ag_warning|now apply ag_ret]|intros _ _].
    eapply ag_bind; [now apply ag_get_string_line|exact IH].
  Qed.
  Lemma ag_get_string st skip : agree asc (get_string (cfs st) fn skip) (get_string (cfs false) fn skip).
  Proof.
    intros s Hs. rewrite !get_string_eq. revert s Hs.
    intros s Hs. destruct (pfirst_asc st pd (p_big5 s) skip (p_cur s) (proj1 (proj2 Hs))) as [E G].
    refine (ag_bind _ _ asc asc _ _ _ _ (ag_lex st _ asc _ _ E G) (fun a Ha => ag_continuation st fuel a Ha) s Hs).
  Qed.
  Lemma ag_call a b c : agree any (dict_call_ (cfs a) c) (dict_call_ (cfs b) c).
  Proof.
    intros s (H1 & H2 & H3). split; [reflexivity|]. split; [exact Logic.I|]. split; [exact H1|]. split; [exact H2|]. cbn.
    destruct c as [op|p]; cbn; [|destruct (pf_valid _); exact H3].
    pose proof (add_fields (p_dict s) op) as (_ & C & _). cbv zeta in C. rewrite C. exact H3.
  Qed.
  Lemma ag_add a b op : agree any (dict_add (cfs a) op) (dict_add (cfs b) op).
  Proof.
    unfold dict_add. eapply (ag_bind _ _ any); [apply ag_get; intros; exact Logic.I|intros d _].
    eapply (ag_bind _ _ any); [|intros _ _; apply ag_call]. intros s Hs. split; [reflexivity|]. split; [exact Logic.I|exact Hs].
  Qed.
  Lemma ag_convert a b t : agree any (do_convert (cfs a) t) (do_convert (cfs b) t).
  Proof.
    intros s Hs. split; [reflexivity|]. unfold do_convert. destruct (convert _ _ _) as [[o c] ev]. destruct o as [?|[]|?| |]; auto.
    split; [exact Logic.I|exact Hs].
  Qed.
  Lemma ag_set st from to : asc from -> asc to -> agree any (do_set_charsets (cfs st) from to) (do_set_charsets (cfs false) from to).
  Proof.
    intros H1 H2 s Hs. unfold do_set_charsets, set_charsets. cbn [cf_strict cfs]. unfold asc in H1, H2. rewrite H1, H2, andb_false_r. cbn [andb orb].
    split; [reflexivity|]. destruct (bytes_eqb _ _); [split; [exact Logic.I|exact Hs]|]. cbn [cf_iconv cfs]. destruct (ic_open _ _ _) as [?|[? ?]]; [split; [exact Logic.I|exact Hs]|exact Logic.I].
  Qed.
  Lemma asc_upper l : asc l -> asc (List.map toupper l).
  Proof.
    unfold asc. induction l as [|c l IH]; [reflexivity|]. cbn [existsb List.map]. intro H. apply orb_false_iff in H as [Hc H]. rewrite (IH H), orb_false_r.
    pose proof (forall_bytes (fun c => implb (negb (hi c)) (negb (hi (toupper c)))) eq_refl c) as K. cbv beta in K. rewrite Hc in K. cbn in K.
    now apply negb_true_iff in K.
  Qed.
  Lemma ag_header_line st l cs : asc l -> asc cs -> agree asc (header_line (cfs st) fn l cs) (header_line (cfs false) fn l cs).
  Proof.
    intros Hl Hc. unfold header_line. destruct (starts_with content_type l).
    - destruct (starts_with content_type_full l).
      + cbv zeta. assert (K : asc (skipn (length content_type_full) l)) by now apply asc_skipn. unfold asc in K at 1.
        rewrite K, !andb_false_r. apply ag_ret, asc_upper. exact K.
      + eapply ag_bind; [apply ag_warning|intros _ _; now apply ag_ret].
    - destruct (starts_with plural_forms_key l); [|now apply ag_ret].
      eapply (ag_bind _ _ any).
      + intros s Hs. unfold mlift. cbn [cf_strict cfs]. assert (E : from_string st l = from_string false l).
        { unfold from_string. unfold asc in Hl. rewrite Hl, andb_false_r. reflexivity. }
        rewrite E. split; [reflexivity|]. unfold from_string. cbn [andb]. destruct (assoc _ _); split; try exact Logic.I; exact Hs.
      + intros pf _. eapply (ag_bind _ _ any); [|intros _ _; now apply ag_ret].
        destruct (negb (pf_valid pf)); [apply ag_warning|]. eapply (ag_bind _ _ any); [apply ag_get; intros; exact Logic.I|intros d _].
        eapply (ag_bind _ _ any); [|intros _ _; apply ag_call].
        destruct (pf_valid _); [|now apply ag_ret]. destruct (negb _); [apply ag_warning|now apply ag_ret].
  Qed.
  Lemma ag_header_loop st h : forall acc cs, asc h -> asc acc -> asc cs ->
    agree asc (header_loop (cfs st) fn h acc cs) (header_loop (cfs false) fn h acc cs).
  Proof.
    induction h as [|c h IH]; intros acc cs Hh Ha Hc; cbn [header_loop]; [now apply ag_ret|].
    apply asc_cons in Hh as [Hc1 Hh]. destruct (byte_eqb c c_lf).
    - eapply ag_bind; [now apply ag_header_line|]. intros cs' Hcs'. now apply IH.
    - apply IH; auto. apply asc_app. split; [exact Ha|]. unfold asc. cbn. now rewrite Hc1.
  Qed.
  Lemma ag_parse_header st h : asc h -> agree any (parse_header (cfs st) fn h) (parse_header (cfs false) fn h).
  Proof.
    intro Hh. unfold parse_header. eapply ag_bind; [apply ag_header_loop; [exact Hh|reflexivity|reflexivity]|intros cs Hcs].
    eapply (ag_bind _ _ asc).
    - destruct (_ || _); [eapply ag_bind; [apply ag_warning|intros _ _; now apply ag_ret]|].
      destruct (bytes_eqb _ _); [|now apply ag_ret]. eapply (ag_bind _ _ any); [|intros _ _; now apply ag_ret].
      intros s Hs. split; [reflexivity|]. split; [exact Logic.I|exact Hs].
    - intros cs' Hcs'. intros s Hs. unfold mbind, mget. apply ag_set; [exact Hcs'|apply Hs|exact Hs].
  Qed.
  Lemma ag_comments st f : forall b, agree any (comments (cfs st) f b) (comments (cfs false) f b).
  Proof.
    induction f as [|f IH]; intro b; cbn [comments]; [apply ag_fuel|].
    eapply (ag_bind _ _ any); [apply ag_get; intros; exact Logic.I|intros [] _]; [|now apply ag_ret].
    eapply (ag_bind _ _ any); [apply ag_get; intros; exact Logic.I|intros cur _]. eapply ag_bind; [apply ag_next|intros _ _; apply IH].
  Qed.
  Lemma ag_msgstr_loop st f : forall v b, agree any (msgstr_loop (cfs st) fn f v b) (msgstr_loop (cfs false) fn f v b).
  Proof.
    induction f as [|f IH]; intros v b; cbn [msgstr_loop]; [apply ag_fuel|].
    eapply ag_bind; [apply ag_empty|intros [] _].
    - destruct (is_nil v); [apply ag_error|now apply ag_ret].
    - eapply ag_bind; [apply ag_msgstr_n|intros [] _]; [|apply ag_error].
      eapply (ag_bind _ _ any); [apply ag_get; intros; exact Logic.I|intros cur _]. eapply ag_bind; [apply ag_get_string|intros m _].
      eapply ag_bind; [apply ag_convert|intros; apply IH].
  Qed.
  Lemma ag_plural_entry st uf fz c id : agree any (plural_entry (cfs st) fn uf fz c id) (plural_entry (cfs false) fn uf fz c id).
  Proof.
    unfold plural_entry. eapply ag_bind; [apply ag_get_string|intros mp _].
    eapply ag_bind; [apply ag_msgstr_loop|intros r _]. eapply ag_bind; [apply ag_empty|intros [] _]; cbn [negb]; [|apply ag_error].
    destruct (_ && _); [|now apply ag_ret]. eapply (ag_bind _ _ any); [apply ag_get; intros; exact Logic.I|intros d _].
    eapply (ag_bind _ _ any); [|intros _ _; apply ag_add].
    destruct (negb _); [apply ag_warning|]. destruct (negb _); [apply ag_warning|now apply ag_ret].
  Qed.
  Lemma ag_singular_entry st uf fz c id : agree any (singular_entry (cfs st) fn uf fz c id) (singular_entry (cfs false) fn uf fz c id).
  Proof.
    unfold singular_entry. eapply ag_bind; [apply ag_get_string|intros ms Hms].
    destruct (is_nil id); [now apply ag_parse_header|]. destruct (_ && _); [|now apply ag_ret].
    eapply ag_bind; [apply ag_convert|intros; apply ag_add].
  Qed.
  Lemma ag_entry st uf fz : agree any (entry (cfs st) fn uf fz) (entry (cfs false) fn uf fz).
  Proof.
    unfold entry. unfold prefix. eapply (ag_bind _ _ any); [apply ag_get; intros; exact Logic.I|intros hc _].
    eapply (ag_bind _ _ any); [destruct hc; [eapply ag_bind; [apply ag_get_string|intros; now apply ag_ret]|now apply ag_ret]|intros c _].
    eapply (ag_bind _ _ any); [apply ag_get; intros; exact Logic.I|intros hm _].
    eapply (ag_bind _ _ any); [destruct hm; [eapply ag_weaken; [|apply ag_get_string]; intros; exact Logic.I|apply ag_error]|intros id _].
    eapply (ag_bind _ _ any); [apply ag_get; intros; exact Logic.I|intros [] _]; [apply ag_plural_entry|].
    eapply (ag_bind _ _ any); [apply ag_get; intros; exact Logic.I|intros [] _]; [apply ag_singular_entry|apply ag_error].
  Qed.
  Lemma ag_block st uf : agree any (block (cfs st) fn uf) (block (cfs false) fn uf).
  Proof.
    unfold block. eapply ag_bind; [apply ag_comments|intros fz _]. eapply ag_bind; [apply ag_empty|intros e _].
    eapply (ag_bind _ _ any); [destruct e; [now apply ag_ret|apply ag_entry]|intros _ _].
    eapply ag_bind; [apply ag_empty|intros e' _].
    eapply (ag_bind _ _ any); [destruct e'; [now apply ag_ret|apply ag_error]|intros _ _]. apply ag_next.
  Qed.
  Lemma ag_loop st uf f : agree any (parse_loop (cfs st) fn uf f) (parse_loop (cfs false) fn uf f).
  Proof.
    induction f as [|f IH]; cbn [parse_loop]; [apply ag_fuel|].
    eapply (ag_bind _ _ any); [apply ag_get; intros; exact Logic.I|intros [] _]; [now apply ag_ret|].
    eapply (ag_bind _ _ any); [|intros _ _; exact IH].
    intros s Hs. destruct (ag_block st uf s Hs) as [E K]. unfold try_block. rewrite <- E. split; [reflexivity|].
    destruct (block (cfs st) fn uf s) as [[a|[]|u| |] s']; auto. split; [exact Logic.I|exact K].
  Qed.
  Lemma ag_parse st uf : agree any (parse_member (cfs st) fn uf) (parse_member (cfs false) fn uf).
  Proof.
    unfold parse_member. eapply ag_bind; [apply ag_next|intros _ _]. eapply (ag_bind _ _ any); [|intros _ _; apply ag_loop].
    intros s (H1 & H2 & H3). split; [reflexivity|]. split; [exact Logic.I|]. match goal with |- context[if ?b then _ else _] => destruct b end; [|split; [exact H1|split; [exact H2|exact H3]]].
    split; [exact H1|]. split; [cbn; now apply (asc_skipn 3)|exact H3].
  Qed.
End Ascii.

(** the same configuration with permissive ctype functions *)
Lemma ascii_parse cf fn b d : asc b -> asc (d_charset d) ->
  po_parse cf fn (stream_of b) d = po_parse (set_strict cf false) fn (stream_of b) d.
Proof.
  intros Hb Hd. destruct cf as [pd st nd fuel I]. unfold po_parse, set_strict. cbn [cf_pedantic cf_ndebug cf_fuel cf_iconv].
  change {| cf_pedantic := pd; cf_strict := st; cf_ndebug := nd; cf_fuel := fuel; cf_iconv := I |} with (cfs pd nd fuel I st).
  change {| cf_pedantic := pd; cf_strict := false; cf_ndebug := nd; cf_fuel := fuel; cf_iconv := I |} with (cfs pd nd fuel I false).
  destruct (ag_parse pd nd fuel I fn st true (init_state (cfs pd nd fuel I st) (stream_of b) d)) as [E _].
  { split; [exact Hb|]. split; [reflexivity|exact Hd]. }
  unfold init_state in *. cbn [cf_iconv cfs] in *. rewrite E. reflexivity.
Qed.
