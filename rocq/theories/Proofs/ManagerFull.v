(** Transparency of the cache; safety of the outcomes. *)
From Verif.Model Require Import Base Log PluralForms Dictionary IConv Language Stream PoParser Manager.
From Verif.Spec Require Import DictSpec LangSpec ManagerSpec.
From Verif.Proofs Require Import BaseFacts DictProofs LangProofs ParserSafe ManagerLoad ManagerOwn ManagerGet ManagerStep.
From Coq Require Import Permutation.
Local Open Scope list_scope.

Section Full.
  Variable cf : config.
  Variable fs : file_system.
  Local Notation own := (own (cf_ndebug cf)).
  Local Notation load m l := (pload cf fs l (rev (m_path m)) (new_dictionary (m_charset m))).

  (** everything cached is what loading gives now *)
  Definition entry_full (m : manager) (l : language) (p : ptr) : Prop :=
    fst (fst (load m l)) = Ret tt /\
    exists d, heap_get (m_heap m) p = Some d /\
      (get_country l = [] -> d = snd (fst (load m l))) /\
      (get_country l <> [] -> exists b q, from_spec (cf_ndebug cf) (get_language l) [] [] = Ret b /\
         cache_find b (m_cache m) = Some q /\ d = add_fallback (snd (fst (load m l))) (Some q)).
  Definition full (m : manager) : Prop := forall l p, known l -> cache_find l (m_cache m) = Some p -> entry_full m l p.

  Lemma full_none m : m_cache m = [] -> full m.
  Proof. intros H l p _. rewrite H. discriminate. Qed.

  Lemma entry_grown m m' l p : own m -> grown m m' -> cache_find l (m_cache m) = Some p ->
    entry_full m l p -> entry_full m' l p.
  Proof.
    intros O G F (H1 & d & H2 & H3 & H4). unfold entry_full. rewrite (gr_path _ _ G), (gr_charset _ _ G).
    split; [exact H1|]. exists d. split.
    - rewrite (gr_heap _ _ G); [exact H2|]. apply (own_lt cf m p O).
      apply cache_find_in in F as (k & F & _). apply in_map_iff. exists (k, p). auto.
    - split; [exact H3|]. intro C. destruct (H4 C) as (b & q & B1 & B2 & B3). exists b, q.
      split; [exact B1|]. split; [eapply grown_find; eauto|exact B3].
  Qed.

  Lemma loaded_full m l : own m -> known l -> full m -> cache_find l (m_cache m) = None -> get_country l = [] ->
    fst (fst (load m l)) = Ret tt -> full (loaded cf fs m l).
  Proof.
    intros O K F N C R k p Kk Hk. destruct (lang_eqb k l) eqn:E.
    - apply lang_eqb_eq in E; auto. subst k. rewrite loaded_find in Hk by exact N. injection Hk as <-.
      split; [exact R|]. eexists. split; [apply loaded_get|]. split; [reflexivity|contradiction].
    - assert (Nk : k <> l) by (intro X; apply (lang_eqb_eq k l Kk K) in X; congruence).
      rewrite loaded_find_other in Hk by auto. apply (entry_grown m); auto using loaded_grown.
  Qed.
  Lemma leaf_full m l p : own m -> known l -> full m -> get_country l = [] -> leaf_outcome cf fs m l = Ret p ->
    full (leaf_state cf fs m l).
  Proof.
    intros O K F C. unfold leaf_outcome, leaf_state. destruct (asserts cf l); [discriminate|].
    destruct (cache_find l (m_cache m)) eqn:N; [intros _; exact F|]. intro R.
    apply loaded_full; auto. destruct (fst (fst (load m l))) as [[]|?|?| |]; try discriminate. reflexivity.
  Qed.
  Lemma get_full m l p : own m -> known l -> full m -> fst (get_state cf fs m l) = Ret p -> full (snd (get_state cf fs m l)).
  Proof.
    intros O K F. pose proof (get_inv cf fs m l O K) as (O' & G' & F'). unfold get_state in *.
    destruct (is_nil_spec _ (get_country l)) as [C|C]; [now apply leaf_full|].
    destruct (cache_find l (m_cache m)) as [p0|] eqn:N; [intros _; exact F|].
    destruct (fst (fst (load m l))) as [[]|e|u| |] eqn:E; try discriminate.
    destruct (base_of (cf_ndebug cf) l K C) as (b & B1 & B2 & B3 & B4). rewrite B1 in *. cbv zeta in *.
    destruct (leaf_outcome cf fs (loaded cf fs m l) (Some b)) as [q|e|u| |] eqn:Q; try discriminate.
    intros _. cbn [fst snd] in *.
    pose proof (loaded_own cf fs m l O K N) as O2. pose proof (loaded_grown cf fs m l) as G2.
    pose proof (leaf_find cf fs _ _ _ Q) as Fq.
    (* the rest of the cache *)
    intros k r Kk Hk. cbn [put upd_tr upd_heap m_cache] in Hk.
    destruct (lang_eqb k l) eqn:El.
    { apply lang_eqb_eq in El; auto. subst k.
      assert (r = m_next m) as ->.
      { specialize (F' (m_next m) eq_refl). cbn [put upd_tr upd_heap m_cache] in F'. congruence. }
      unfold entry_full. rewrite (gr_path _ _ G'), (gr_charset _ _ G'). split; [exact E|].
      eexists. split; [apply put_get|]. split; [contradiction|]. intros _. exists (Some b), q. auto. }
    assert (Nk : k <> l) by (intro X; apply (lang_eqb_eq k l Kk K) in X; congruence).
    destruct (lang_eqb k (Some b)) eqn:Eb.
    { apply lang_eqb_eq in Eb; auto. subst k. rewrite Fq in Hk. injection Hk as <-.
      unfold leaf_outcome in Q. destruct (asserts cf (Some b)); [discriminate|].
      rewrite loaded_find_other in Q by auto.
      destruct (cache_find (Some b) (m_cache m)) as [q'|] eqn:Nb.
      - injection Q as ->. apply (entry_grown m); auto.
      - unfold entry_full. rewrite (gr_path _ _ G'), (gr_charset _ _ G').
        change (load (loaded cf fs m l) (Some b)) with (load m (Some b)) in Q.
        destruct (fst (fst (load m (Some b)))) as [[]|e|u| |] eqn:Eb; try discriminate. injection Q as <-.
        split; [reflexivity|]. eexists. split.
        + unfold put; cbn [upd_tr upd_heap m_heap]. rewrite heap_get_set_other by (cbn; lia).
          unfold leaf_state. unfold asserts. cbn [is_none]. rewrite andb_false_r.
          rewrite loaded_find_other by auto. rewrite Nb. apply loaded_get.
        + split; [reflexivity|]. intro X. contradiction. }
    assert (Nkb : k <> Some b) by (intro X; apply (lang_eqb_eq k (Some b) Kk B2) in X; congruence).
    assert (Hk0 : cache_find k (m_cache m) = Some r).
    { unfold leaf_state, asserts in Hk. cbn [is_none] in Hk. rewrite andb_false_r in Hk.
      destruct (cache_find (Some b) (m_cache (loaded cf fs m l))).
      - now rewrite loaded_find_other in Hk by auto.
      - now rewrite !loaded_find_other in Hk by auto. }
    apply (entry_grown m); auto.
  Qed.

  Lemma cleared_full m m1 m2 : cleared m m1 -> m_cache m2 = m_cache m1 -> full m2.
  Proof. intros (_ & _ & _ & H & _) E. apply full_none. congruence. Qed.
  Lemma full_fields m m' : m_cache m' = m_cache m -> m_heap m' = m_heap m -> m_path m' = m_path m ->
    m_charset m' = m_charset m -> full m -> full m'.
  Proof. intros H1 H2 H3 H4 F l p. unfold entry_full. rewrite H1, H2, H3, H4. apply F. Qed.

  Lemma step_full op m out : own m -> client_op op -> full m -> fst (mstep cf fs op m) = Ret out -> full (snd (mstep cf fs op m)).
  Proof.
    intros O C F. destruct op as [l|c|b|p pr|p| |l| | |].
    - rewrite do_set_language. intros _. cbn [snd]. destruct (lang_eqb _ _); [exact F|now apply (full_fields m)].
    - destruct (do_set_charset cf fs c m O) as (m1 & H & O1 & ->). intros _. eapply cleared_full; [exact H|reflexivity].
    - destruct (do_set_use_fuzzy cf fs b m O) as (m1 & H & O1 & ->). intros _. eapply cleared_full; [exact H|reflexivity].
    - destruct (in_dec (list_eq_dec ascii_dec) p (m_path m)) as [H|H]; [now rewrite do_add_present|].
      destruct (do_add_directory cf fs p pr m O H) as (m1 & H1 & O1 & ->). intros _. eapply cleared_full; [exact H1|reflexivity].
    - destruct (in_dec (list_eq_dec ascii_dec) p (m_path m)) as [H|H]; [|now rewrite do_remove_absent].
      destruct (do_remove_directory cf fs p m O H) as (m1 & H1 & O1 & ->). intros _. eapply cleared_full; [exact H1|reflexivity].
    - rewrite do_get by apply (own_lang _ _ O). destruct (m_cur m); [intros _; exact F|].
      destruct (is_none (m_lang m)) eqn:E; [intros _; exact F|].
      pose proof (get_full m (m_lang m)) as G.
      destruct (get_state cf fs m (m_lang m)) as [[p|e|u| |] m']; cbn [fst snd] in *; try discriminate.
      intros _. apply (full_fields m'); auto. apply (G p); auto. apply (own_lang _ _ O).
    - rewrite do_get_lang by exact C. cbn [fst snd]. pose proof (get_full m l) as G.
      destruct (fst (get_state cf fs m l)) as [p|e|u| |] eqn:E; try discriminate. intros _. now apply (G p).
    - rewrite do_get_languages. intros _. exact F.
    - intros _; exact F.
    - intros _; exact F.
  Qed.

  Lemma session_full ops : forall m m', session cf fs m ops m' -> Forall client_op ops -> own m -> full m -> own m' /\ full m'.
  Proof.
    induction ops as [|op ops IH]; intros m m' S V O F; inversion S; subst; [auto|].
    inversion V; subst. pose proof (step_own cf fs op m O) as O1. pose proof (step_full op m out O) as F1.
    rewrite H2 in *. cbn [fst snd] in *. eapply IH; eauto.
  Qed.
  Lemma session_run ops : forall m m', session cf fs m ops m' -> m' = mrun cf (List.map (fun o => (fs, o)) ops) m.
  Proof.
    induction ops as [|op ops IH]; intros m m' S; inversion S; subst; [reflexivity|].
    cbn [List.map]. change (mrun cf ((fs, op) :: ?x) m) with (mrun cf x (snd (mstep cf fs op m))). rewrite H2. now apply IH.
  Qed.
End Full.

(** ** two managers with the same configuration *)
Lemma translate_in_nofb f h1 d1 h2 d2 es id : d_has_fallback d1 = false -> d_has_fallback d2 = false ->
  translate_in f h1 d1 es id = translate_in f h2 d2 es id.
Proof. intros H1 H2. destruct f; [reflexivity|]. cbn [translate_in]. now rewrite H1, H2. Qed.

Definition same_content (d1 d2 : dictionary) : Prop :=
  d_entries d1 = d_entries d2 /\ d_ctxt d1 = d_ctxt d2 /\ d_charset d1 = d_charset d2 /\ d_plural d1 = d_plural d2.

Lemma translate_in_fb f h1 d1 h2 d2 es id e1 e2 :
  d_has_fallback d1 = true -> d_has_fallback d2 = true -> links h1 d1 e1 -> links h2 d2 e2 ->
  d_has_fallback e1 = false -> d_has_fallback e2 = false -> d_entries e1 = d_entries e2 ->
  translate_in f h1 d1 es id = translate_in f h2 d2 es id.
Proof.
  intros H1 H2 (_ & p1 & L1 & G1) (_ & p2 & L2 & G2) N1 N2 E. destruct f; [reflexivity|]. cbn [translate_in].
  rewrite H1, H2, L1, L2, G1, G2, E. destruct (assoc id es) as [[|]|]; auto;
    now rewrite (translate_in_nofb f h1 e1 h2 e2).
Qed.

Lemma same_indist h1 d1 h2 d2 : same_content d1 d2 ->
  (forall f es id, translate_in f h1 d1 es id = translate_in f h2 d2 es id) -> indistinguishable h1 d1 h2 d2.
Proof.
  intros (E1 & E2 & E3 & E4) T. unfold indistinguishable, translate, translate_ctxt, translate_plural, translate_ctxt_plural,
    foreach, foreach_ctxt, get_charset, get_plural_forms, translate_plural_in.
  rewrite E1, E2, E3, E4. repeat split; auto.
  intros. destruct (assoc ctxt (d_ctxt d2)); auto.
Qed.

Lemma full_same cf fs m1 m2 l p1 p2 : known l -> own (cf_ndebug cf) m1 -> own (cf_ndebug cf) m2 ->
  full cf fs m1 -> full cf fs m2 -> m_path m1 = m_path m2 -> m_charset m1 = m_charset m2 ->
  cache_find l (m_cache m1) = Some p1 -> cache_find l (m_cache m2) = Some p2 ->
  exists d1 d2, heap_get (m_heap m1) p1 = Some d1 /\ heap_get (m_heap m2) p2 = Some d2 /\
    indistinguishable (m_heap m1) d1 (m_heap m2) d2.
Proof.
  intros K O1 O2 F1 F2 EP EC H1 H2.
  destruct (F1 l p1 K H1) as (R1 & d1 & G1 & A1 & B1). destruct (F2 l p2 K H2) as (R2 & d2 & G2 & A2 & B2).
  exists d1, d2. split; [exact G1|]. split; [exact G2|]. rewrite <- EP, <- EC in *.
  assert (NF : forall l', d_has_fallback (snd (fst (pload cf fs l' (rev (m_path m1)) (new_dictionary (m_charset m1))))) = false).
  { intro l'. destruct (kept_load cf fs l' (rev (m_path m1)) (new_dictionary (m_charset m1))) as (_ & -> & _). reflexivity. }
  destruct (is_nil_spec _ (get_country l)) as [C|C].
  - rewrite (A1 C), (A2 C). apply same_indist; [repeat split|]. intros. now apply translate_in_nofb.
  - destruct (B1 C) as (b & q1 & X1 & Y1 & Z1). destruct (B2 C) as (b' & q2 & X2 & Y2 & Z2).
    assert (b' = b) as -> by congruence.
    destruct (base_of (cf_ndebug cf) l K C) as (b0 & W1 & W2 & W3 & _). assert (b = Some b0) as -> by congruence.
    destruct (F1 (Some b0) q1 W2 Y1) as (_ & e1 & U1 & V1 & _). destruct (F2 (Some b0) q2 W2 Y2) as (_ & e2 & U2 & V2 & _).
    rewrite <- EP, <- EC in *. specialize (V1 W3). specialize (V2 W3).
    apply same_indist; [rewrite Z1, Z2; repeat split|]. intros f es id.
    apply (translate_in_fb f _ _ _ _ es id e1 e2); rewrite ?Z1, ?Z2; try reflexivity.
    + split; [reflexivity|]. exists q1. split; [reflexivity|exact U1].
    + split; [reflexivity|]. exists q2. split; [reflexivity|exact U2].
    + rewrite V1. apply NF.
    + rewrite V2. apply NF.
    + now rewrite V1, V2.
Qed.

(** whether get_dictionary returns depends on the configuration only *)
Definition loads_ok cf fs m l : Prop :=
  fst (fst (pload cf fs l (rev (m_path m)) (new_dictionary (m_charset m)))) = Ret tt.
Definition will_return cf fs m l : Prop :=
  asserts cf l = false /\ loads_ok cf fs m l /\
  (get_country l <> [] -> exists b, from_spec (cf_ndebug cf) (get_language l) [] [] = Ret b /\ loads_ok cf fs m b).
Lemma returns_iff cf fs m l : known l -> own (cf_ndebug cf) m -> full cf fs m ->
  ((exists p, fst (get_state cf fs m l) = Ret p) <-> will_return cf fs m l).
Proof.
  intros K O F. unfold will_return, get_state.
  assert (L : forall m b, known b -> own (cf_ndebug cf) m ->
     (forall p, cache_find b (m_cache m) = Some p -> loads_ok cf fs m b) ->
     get_country b = [] -> ((exists p, leaf_outcome cf fs m b = Ret p) <-> asserts cf b = false /\ loads_ok cf fs m b)).
  { clear. intros m b K O F C. unfold leaf_outcome, loads_ok. destruct (asserts cf b); [split; [intros [? ?]; discriminate|intros [? _]; discriminate]|].
    destruct (cache_find b (m_cache m)) as [p|] eqn:E.
    - split; [intros _|intros _; eauto]. split; [reflexivity|]. eapply F; eauto.
    - destruct (fst (fst (pload _ _ _ _ _))) as [[]|?|?| |]; cbn [omap]; split; try (intros [? ?]; discriminate); eauto. }
  destruct (is_nil_spec _ (get_country l)) as [C|C].
  { cbn [fst]. rewrite (L m l K O); [|intros p H; apply (F l p K H)|exact C].
    split; [intros [A B]; split; [exact A|split; [exact B|contradiction]]|tauto]. }
  assert (A : asserts cf l = false).
  { destruct l; [unfold asserts; cbn [is_none]; apply andb_false_r|]. exfalso. apply C. reflexivity. }
  destruct (base_of (cf_ndebug cf) l K C) as (b & B1 & B2 & B3 & B4). rewrite A, B1.
  assert (Ab : asserts cf (Some b) = false) by (unfold asserts; cbn [is_none]; apply andb_false_r).
  destruct (cache_find l (m_cache m)) as [p0|] eqn:N.
  { split; [intros _|intros _; cbn; eauto]. destruct (F l p0 K N) as (R & d & H1 & H2 & H3).
    split; [reflexivity|]. split; [exact R|]. intros _. exists (Some b). split; [reflexivity|].
    destruct (H3 C) as (b' & q & X & Y & _). rewrite B1 in X. injection X as <-. apply (F (Some b) q B2 Y). }
  unfold loads_ok at 1. destruct (fst (fst (pload _ _ _ _ _))) as [[]|?|?| |] eqn:E;
    try (split; [intros [? X]; cbn in X; discriminate|intros (_ & X & _); discriminate]).
  cbv zeta. pose proof (loaded_own cf fs m l O K N) as O2.
  pose proof (L (loaded cf fs m l) (Some b) B2 O2) as Lb.
  assert (X : forall p, cache_find (Some b) (m_cache (loaded cf fs m l)) = Some p -> loads_ok cf fs (loaded cf fs m l) (Some b)).
  { intros p H. rewrite loaded_find_other in H by auto. apply (F (Some b) p B2 H). }
  specialize (Lb X B3). change (loads_ok cf fs (loaded cf fs m l) (Some b)) with (loads_ok cf fs m (Some b)) in Lb.
  split.
  - intros [p H]. split; [reflexivity|]. split; [reflexivity|]. intros _. exists (Some b). split; [reflexivity|].
    apply Lb. destruct (leaf_outcome cf fs (loaded cf fs m l) (Some b)); try discriminate. eauto.
  - intros (_ & _ & H). destruct (H C) as (b' & X1 & X2). injection X1 as <-.
    destruct (proj2 Lb (conj Ab X2)) as [q Hq]. rewrite Hq. cbn. eauto.
Qed.
