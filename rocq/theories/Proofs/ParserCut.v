(** Consequences of locality: independence from the dictionary, cut files, and
    blocks separated by two blank lines. *)
From Verif.Model Require Import Base Log PluralForms Dictionary IConv Stream PoParser.
From Verif.Spec Require Import ParserSpec.
From Verif.Proofs Require Import BaseFacts LexProofs ParserUnary ParserRel ParserSafe ParserFuel ParserLocal.
Local Open Scope list_scope.

Lemma adds_app a b : adds (a ++ b) = adds a ++ adds b.
Proof. induction a as [|[op|p] a IH]; simpl; rewrite ?IH; auto. Qed.

(** ** At most one addition per block *)
Section Count.
  Variable cf : config.
  Variable fn : bytes.
  Variable uf : bool.
  Local Notation I := (cf_iconv cf).
  Local Notation P := (M (pst I)).

  Definition quiet {A} (m : P A) : Prop := forall s, adds (p_calls (snd (m s))) = adds (p_calls s).
  Definition once {A} (m : P A) : Prop :=
    forall s, length (adds (p_calls (snd (m s)))) <= S (length (adds (p_calls s))).

  Lemma quiet_of_tri A (m : P A) :
    (forall a, tri cf (fun s => adds (p_calls s) = a) (fun _ s => adds (p_calls s) = a) m) -> quiet m.
  Proof.
    intros H s. specialize (H _ s eq_refl). unfold post in H. destruct (m s) as [[?|[]|?| |] s']; exact H.
  Qed.
  Lemma q_next a (s : pst I) : adds (p_calls s) = a -> adds (p_calls (nextst s)) = a.
  Proof. nx s. now rewrite Nc. Qed.
  Lemma q_plural a (s : pst I) p : adds (p_calls s) = a ->
    adds (p_calls (st_dict s (apply_call (p_dict s) (CallPlural p)) (p_calls s ++ [CallPlural p]))) = a.
  Proof. intro H. simpl. rewrite adds_app. simpl. now rewrite app_nil_r. Qed.
  Lemma q_conv a (s : pst I) t : adds (p_calls s) = a ->
    post cf (fun s => adds (p_calls s) = a) (fun _ s => adds (p_calls s) = a) (do_convert cf t s).
  Proof.
    intro H. unfold do_convert. destruct (convert _ _ _) as [[o c] ev]. destruct o as [?|[]|?| |]; exact H.
  Qed.
  Lemma q_set a (s : pst I) c d : adds (p_calls s) = a ->
    post cf (fun s => adds (p_calls s) = a) (fun _ s => adds (p_calls s) = a) (do_set_charsets cf c d s).
  Proof.
    intro H. unfold do_set_charsets. destruct (set_charsets _ _ _ _) as [[o c'] ev]. destruct o as [?|[]|?| |]; exact H.
  Qed.

  Ltac qt L := apply quiet_of_tri; intro a0;
    eapply L; try exact true;
    first [ now (intros; apply q_next; auto) | now (intros; apply q_conv; auto) | now (intros; apply q_set; auto)
          | now (intros; apply q_plural; auto) | now (intros; assumption) | now auto | idtac ].

  Lemma q_get_string k : quiet (get_string cf fn k). Proof. qt tri_get_string. Qed.
  Lemma q_error A m : quiet (@error cf fn A m). Proof. qt tri_error. Qed.
  Lemma q_warning m : quiet (warning cf fn m). Proof. qt tri_warning. Qed.
  Lemma q_empty : quiet (is_empty_line cf). Proof. qt tri_empty. Qed.
  Lemma q_nextl : quiet (next_line cf). Proof. qt tri_next. Qed.
  Lemma q_comments f b : quiet (comments cf f b). Proof. qt tri_comments. Qed.
  Lemma q_msgstr_loop f v b : quiet (msgstr_loop cf fn f v b). Proof. qt tri_msgstr_loop. Qed.
  Lemma q_header h : quiet (parse_header cf fn h). Proof. qt tri_parse_header. Qed.
  Lemma q_convert t : quiet (do_convert cf t). Proof. qt tri_convert. Qed.
  Lemma q_get A (g : pst I -> A) : quiet (mget g). Proof. intro s. reflexivity. Qed.
  Lemma q_ret A (a : A) : quiet (mret a). Proof. intro s. reflexivity. Qed.
  Lemma once_quiet A (m : P A) : quiet m -> once m.
  Proof. intros H s. rewrite H. lia. Qed.
  Lemma once_add op : once (dict_add cf op).
  Proof.
    intro s. unfold dict_add, mbind, mget, emit, mmod, dict_call_. simpl. rewrite adds_app, app_length. simpl. lia.
  Qed.
  Lemma q_bind A B (m : P A) (k : A -> P B) : quiet m -> (forall a, quiet (k a)) -> quiet (mbind m k).
  Proof.
    intros Hm Hk s. specialize (Hm s). unfold mbind. destruct (m s) as [[a|?|?| |] s']; simpl in *; auto.
    now rewrite Hk.
  Qed.
  Lemma once_l A B (m : P A) (k : A -> P B) : quiet m -> (forall a, once (k a)) -> once (mbind m k).
  Proof.
    intros Hm Hk s. specialize (Hm s). unfold mbind. destruct (m s) as [[a|?|?| |] s']; simpl in *; try (rewrite Hm; lia).
    rewrite <- Hm. apply Hk.
  Qed.
  Lemma once_r A B (m : P A) (k : A -> P B) : once m -> (forall a, quiet (k a)) -> once (mbind m k).
  Proof.
    intros Hm Hk s. specialize (Hm s). unfold mbind. destruct (m s) as [[a|?|?| |] s']; simpl in *; auto.
    now rewrite Hk.
  Qed.

  Lemma once_plural a b c : once (plural_entry cf fn uf a b c).
  Proof.
    unfold plural_entry. apply once_l; [apply q_get_string|intros mp]. apply once_l; [apply q_msgstr_loop|intros r].
    apply once_l; [apply q_empty|intros []]; cbn [negb]; [|apply once_quiet, q_error].
    destruct (_ && _); [|apply once_quiet, q_ret]. apply once_l; [apply q_get|intros d].
    apply once_l; [|intros; apply once_add].
    destruct (negb _); [apply q_warning|]. destruct (negb _); [apply q_warning|apply q_ret].
  Qed.
  Lemma once_singular a b c : once (singular_entry cf fn uf a b c).
  Proof.
    unfold singular_entry. apply once_l; [apply q_get_string|intros ms].
    destruct (is_nil c); [apply once_quiet, q_header|]. destruct (_ && _); [|apply once_quiet, q_ret].
    apply once_l; [apply q_convert|intros; apply once_add].
  Qed.
  Lemma once_entry a : once (entry cf fn uf a).
  Proof.
    unfold entry. apply once_l; [apply q_get|intros hc].
    apply once_l; [destruct hc; [apply q_bind; [apply q_get_string|intros; apply q_ret]|apply q_ret]|intros ctxt].
    apply once_l; [apply q_get|intros hm].
    apply once_l; [destruct hm; [apply q_get_string|apply q_error]|intros id].
    apply once_l; [apply q_get|intros []]; [apply once_plural|].
    apply once_l; [apply q_get|intros []]; [apply once_singular|apply once_quiet, q_error].
  Qed.
  Lemma once_block : once (block cf fn uf).
  Proof.
    unfold block. apply once_l; [apply q_comments|intros fz]. apply once_l; [apply q_empty|intros e].
    apply once_r; [destruct e; [apply once_quiet, q_ret|apply once_entry]|intros _].
    apply q_bind; [apply q_empty|intros e'].
    apply q_bind; [destruct e'; [apply q_ret|apply q_error]|intros _]. apply q_nextl.
  Qed.
  Lemma once_try : once (try_block cf fn uf).
  Proof.
    intro s. pose proof (once_block s) as H. unfold try_block.
    destruct (block cf fn uf s) as [[?|[]|?| |] s']; exact H.
  Qed.
End Count.

Lemma loop_eof cf fn uf g s : p_eof s = true -> snd (parse_loop cf fn uf g s) = s.
Proof. intro H. destruct g; [reflexivity|]. cbn [parse_loop]. rewrite mget_bind, H. reflexivity. Qed.

(** ** Independence from dictionary contents, pedantic mode and file name *)
Definition same_env (cf1 cf2 : config) (H : cf_iconv cf1 = cf_iconv cf2) : Prop :=
  cf_strict cf1 = cf_strict cf2 /\ cf_ndebug cf1 = cf_ndebug cf2.


Lemma Rloc_refl I tl (s : pst I) : (tl = [] -> True) -> forall c, p_calls s = c ++ [] ->
  tl = [] -> Rloc I tl c c 0 s s.
Proof.
  intros _ c Hc ->. unfold Rloc. repeat split; auto using cv_eqv_refl; try lia.
  exists []. auto.
Qed.

Lemma parse_independent cf b fn1 fn2 i d1 d2 n :
  d_charset d1 = d_charset d2 ->
  let r1 := po_parse (with_fuel cf n) fn1 i d1 in
  let r2 := po_parse (with_fuel (set_pedantic cf b) n) fn2 i d2 in
  pr_outcome r1 <> OutOfFuel ->
  pr_outcome r2 = pr_outcome r1 /\ pr_calls r2 = pr_calls r1 /\ pr_lines r2 = pr_lines r1.
Proof.
  intros Hd r1 r2 Hr. subst r1 r2. unfold po_parse in *.
  pose proof (loc_parse (cf_iconv cf) (cf_strict cf) (cf_ndebug cf) (cf_pedantic cf) b n n fn1 fn2
                (le_n n) [] [] [] 0%Z
                (init_state (with_fuel cf n) i d1) (init_state (with_fuel (set_pedantic cf b) n) i d2)) as L.
  assert (R0 : Rloc (cf_iconv cf) [] [] [] 0 (init_state (with_fuel cf n) i d1)
                 (init_state (with_fuel (set_pedantic cf b) n) i d2)).
  { unfold Rloc; simpl. repeat split; auto using cv_eqv_refl. exists []; auto. }
  specialize (L R0). clear R0.
  change (mkcf (cf_iconv cf) (cf_strict cf) (cf_ndebug cf) (cf_pedantic cf) n) with (with_fuel cf n) in L.
  change (mkcf (cf_iconv cf) (cf_strict cf) (cf_ndebug cf) b n) with (with_fuel (set_pedantic cf b) n) in L.
  destruct (parse_member (with_fuel cf n) fn1 true _) as [o1 s1].
  destruct (parse_member (with_fuel (set_pedantic cf b) n) fn2 true _) as [o2 s2].
  simpl in Hr |- *.
  destruct L as [[Ho (_ & _ & _ & _ & _ & Hl & (k & K1 & K2) & _)]|[[Ho _]|[Ht _]]]; simpl in *; try congruence.
  repeat split; try congruence; [|lia].
  destruct o1 as [[]|e|u| |], o2 as [[]|e'|u'| |]; simpl in Ho; try contradiction; congruence.
Qed.

Lemma parses_independent cf b fn1 fn2 i d1 d2 r1 :
  d_charset d1 = d_charset d2 ->
  parses_to cf fn1 i d1 r1 ->
  exists r2, parses_to (set_pedantic cf b) fn2 i d2 r2 /\
    pr_outcome r2 = pr_outcome r1 /\ pr_calls r2 = pr_calls r1 /\ pr_lines r2 = pr_lines r1.
Proof.
  intros Hd H. apply parses_to_elim in H as (n & <- & Hn).
  destruct (parse_independent cf b fn1 fn2 i d1 d2 n Hd Hn) as (Ho & Hc & Hl).
  eexists. split; [apply (parses_to_intro (set_pedantic cf b) fn2 i d2 n); rewrite Ho; exact Hn|]. auto.
Qed.

(** ** Cutting at a line boundary *)
Section Cut.
  Variable cf : config.
  Variable fn : bytes.
  Variable n : nat.
  Variable tl : bytes.
  Local Notation I := (cf_iconv cf).
  Local Notation cfn := (with_fuel cf n).

  Definition cutrel (s1 s2 : pst I) : Prop :=
    exists k x y, p_calls s1 = k ++ x /\ p_calls s2 = k ++ y /\ length (adds x) <= 1.

  Lemma Rloc_start c1 c2 (s1 s2 : pst I) dl : Rloc I tl c1 c2 dl s1 s2 ->
    Rloc I tl (p_calls s1) (p_calls s2) dl s1 s2.
  Proof.
    intros (H1 & H2 & H3 & H4 & H5 & H6 & _ & H8). repeat split; auto.
    exists []. rewrite !app_nil_r. auto.
  Qed.

  Lemma cut_loop g1 g2 : g1 <= g2 -> forall s1 s2 dl,
    Rloc I tl (p_calls s1) (p_calls s2) dl s1 s2 -> p_calls s1 = p_calls s2 ->
    fst (parse_loop cfn fn true g1 s1) <> OutOfFuel ->
    cutrel (snd (parse_loop cfn fn true g1 s1)) (snd (parse_loop cfn fn true g2 s2)).
  Proof.
    revert g2. induction g1 as [|g1 IH]; intros g2 Hg s1 s2 dl HR Hc Hn; [exfalso; apply Hn; reflexivity|].
    destruct g2 as [|g2]; [lia|]. cbn [parse_loop] in *. rewrite mget_bind in *.
    rewrite mget_bind.
    pose proof HR as (_ & He & _). cbn [cf_iconv with_fuel] in *. rewrite <- He.
    assert (C0 : cutrel s1 s2) by (exists (p_calls s1), [], []; rewrite !app_nil_r; simpl; auto).
    destruct (p_eof s1) eqn:Ee.
    { exact C0. }
    pose proof (loc_try I (cf_strict cf) (cf_ndebug cf) (cf_pedantic cf) (cf_pedantic cf) n n fn fn (le_n n)
                  tl (p_calls s1) (p_calls s2) dl s1 s2 HR) as L.
    change (mkcf (cf_iconv cf) (cf_strict cf) (cf_ndebug cf) (cf_pedantic cf) n) with cfn in L.
    unfold mbind in *.
    pose proof (once_try cfn fn true s1) as O1.
    assert (T1 : mono (try_block cfn fn true)) by mono.
    assert (T2 : mono (parse_loop cfn fn true g2)) by mono.
    specialize (T1 s2).
    destruct (try_block cfn fn true s1) as [o1 s1'] eqn:E1.
    destruct (try_block cfn fn true s2) as [o2 s2'] eqn:E2.
    simpl in T1, O1.
    destruct L as [[Ho HR']|[[Ho _]|(Ht & Hg1 & Hg2 & (k & x & y & X & Y))]]; simpl in *.
    - assert (Hc' : p_calls s1' = p_calls s2').
      { destruct HR' as (_ & _ & _ & _ & _ & _ & (k & K1 & K2) & _). congruence. }
      destruct o1 as [[]|e|u| |], o2 as [[]|e'|u'| |]; simpl in Ho; try contradiction;
        try solve [exists (p_calls s1'), [], []; rewrite !app_nil_r; simpl; auto].
      eapply IH; eauto; [lia|]. eapply Rloc_start; eauto.
    - exfalso. subst o1. apply Hn. reflexivity.
    - assert (C1 : forall s, ext s2' s -> cutrel s1' s).
      { intros s ([z Hz] & _). exists (p_calls s1 ++ k), x, (y ++ z). rewrite Hz, X, Y, Hc.
        rewrite <- !app_assoc. repeat split; auto.
        rewrite X in O1. rewrite !adds_app, !app_length in O1. lia. }
      match goal with |- cutrel (snd ?t) _ => assert (E1' : snd t = s1') end.
      { destruct o1 as [[]|e|u| |]; auto. exact (loop_eof cfn fn true g1 s1' Hg2). }
      rewrite E1'. apply C1. destruct o2 as [[]|e|u| |]; try exact (ext_refl _ s2'). apply T2.
  Qed.

  Lemma cut_parse i1 A d : i1 = stream_of A -> complete A ->
    fst (parse_member cfn fn true (init_state cfn i1 d)) <> OutOfFuel ->
    cutrel (snd (parse_member cfn fn true (init_state cfn i1 d)))
           (snd (parse_member cfn fn true (init_state cfn (stream_of (A ++ tl)) d))).
  Proof.
    intros -> HA. unfold parse_member. unfold mbind at 1 3 5. rewrite !next_line_eq.
    unfold mbind, mmod.
    set (s1 := init_state cfn (stream_of A) d). set (s2 := init_state cfn (stream_of (A ++ tl)) d).
    assert (R0 : Rloc I tl [] [] 0 s1 s2).
    { unfold Rloc; simpl. repeat split; auto using cv_eqv_refl; [exists []; auto|]. left. exists A. auto. }
    pose proof (Rloc_next I tl [] [] 0%Z _ _ R0) as [R1|E1].
    - intro Hn. pose proof R1 as (Hcur & _). cbn [cf_iconv with_fuel] in *. rewrite <- Hcur.
      destruct (starts_with bom (p_cur (nextst s1))).
      + eapply (cut_loop n n (le_n n) _ _ 0%Z); [| |exact Hn].
        * cbn [st_cur st_line p_calls]. nx s1. nx s2. rewrite Nc, Nc0.
          unfold Rloc in *. cbn [st_cur st_line p_cur p_eof p_big5 p_conv p_dict p_line p_calls p_in] in *.
          rewrite Hcur. tauto.
        * cbn [st_cur st_line p_calls]. nx s1. nx s2. rewrite Nc, Nc0. reflexivity.
      + eapply (cut_loop n n (le_n n) _ _ 0%Z); [| |exact Hn].
        * nx s1. nx s2. rewrite Nc, Nc0. exact R1.
        * nx s1. nx s2. rewrite Nc, Nc0. reflexivity.
    - destruct E1 as (_ & _ & He & _). intros Hn.
      set (s1' := if starts_with bom (p_cur (nextst s1)) then _ else _) in *.
      assert (E' : p_eof s1' = true) by (unfold s1'; destruct (starts_with _ _); exact He).
      assert (C' : p_calls s1' = []).
      { unfold s1'. destruct (starts_with _ _); cbn [st_cur st_line p_calls]; nx s1; rewrite Nc; reflexivity. }
      assert (Hs : snd (parse_loop cfn fn true (cf_fuel cfn) s1') = s1').
      { apply loop_eof. exact E'. }
      rewrite Hs. eexists [], [], _. split; [exact C'|split; [reflexivity|simpl; lia]].
  Qed.
End Cut.

Lemma parses_cut cf fn A Z d rA rW :
  complete A -> parses_to cf fn (stream_of A) d rA -> parses_to cf fn (stream_of (A ++ Z)) d rW ->
  exists k x y, pr_calls rA = k ++ x /\ pr_calls rW = k ++ y /\ length (adds x) <= 1.
Proof.
  intros HA (H1 & N1 & P1) (H2 & N2 & P2).
  specialize (P1 (max N1 N2) ltac:(lia)). specialize (P2 (max N1 N2) ltac:(lia)).
  rewrite <- P1 in H1 |- *. rewrite <- P2 in H2 |- *. clear P1 P2. set (n := max N1 N2) in *.
  pose proof (cut_parse cf fn n Z _ A d eq_refl HA) as C. unfold po_parse in *.
  destruct (parse_member (with_fuel cf n) fn true (init_state (with_fuel cf n) (stream_of A) d)) as [o1 s1].
  destruct (parse_member (with_fuel cf n) fn true (init_state (with_fuel cf n) (stream_of (A ++ Z)) d)) as [o2 s2].
  simpl in *. apply C. exact H1.
Qed.
