(** The manager when anything may fail: what each call keeps. *)
From Verif.Model Require Import Base Log PluralForms Dictionary Memory IConv Language Stream PoParser Manager Tables Exhaustion.
From Verif.Spec Require Import DictSpec LangSpec MemorySpec ManagerSpec ExhaustionSpec.
From Verif.Proofs Require Import BaseFacts DictProofs LangProofs MemoryProofs ParserSafe ManagerLoad ManagerOwn ManagerGet ManagerStep ManagerContent ManagerSafe.
From Coq Require Import Permutation.
Local Open Scope list_scope.
Local Open Scope mon_scope.
Local Opaque from_spec languages from_env.

Lemma kept_changes l : forall d, kept d (fold_left apply_change l d).
Proof.
  induction l as [|c l IH]; intro d; [apply kept_refl|]. cbn [fold_left]. eapply kept_trans; [|apply IH].
  destruct c as [c|op g room told]; cbn [apply_change].
  - exact (kept_calls [c] d).
  - destruct (add_call g room told d op) as [[f d'] log] eqn:E. cbn [fst snd].
    pose proof (add_call_cases _ _ _ _ _ _ _ _ E) as H.
    assert (S : settings d' = settings d).
    { destruct H as (said & _ & H). cbn [ms_dict] in H. destruct f.
      - destruct H as [-> _]. rewrite add_is_put. apply settings_put.
      - apply H.
      - apply H. }
    unfold settings in S. injection S as S1 S2 S3 S4. repeat split; assumption.
Qed.

Section Puts.
  Variable cf : config.
  Variable lang_of_env base_lang : bytes -> outcome language.
  Variable fs : file_system.
  Variable E : env.
  (** the undefined behaviour that is not ours *)
  Variable P : ub -> Prop.
  Definition good {A} (o : outcome A) : Prop := match o with Ub u => P u | _ => True end.
  Hypothesis P_ctype : cf_strict cf = true -> P UbCtype.
  Hypothesis P_env : forall x, good (lang_of_env x).
  Hypothesis P_dir : forall p, good (fs_dir fs p).
  Hypothesis P_file : forall p, good (fs_file fs p).
  Hypothesis P_parse : forall n f i d, good (fst (fst (e_parse E n f i d))).

  Definition x_of (s : xstate) (m : manager) (n : nat) : xstate := {| x_m := m; x_leaks := x_leaks s; x_n := n |}.

  (** [f] changes nothing but dictionary [id] and the log *)
  Definition puts {A} (id : ptr) (f : M xstate A) : Prop :=
    forall s d, heap_get (m_heap (x_m s)) id = Some d ->
    exists d' t n, snd (f s) = x_of s (put (x_m s) id d' t) n /\ kept d d' /\ good (fst (f s)).

  Lemma same_put m id d : heap_get (m_heap m) id = Some d -> put m id d [] = m.
  Proof. intro H. rewrite (put_same _ _ _ _ H). apply upd_tr_nil. Qed.
  Lemma puts_ret A id (a : A) : puts id (mret a).
  Proof. intros s d H. exists d, [], (x_n s). cbn [mret fst snd]. rewrite (same_put _ _ _ H). split; [now destruct s|]. split; [apply kept_refl|exact I]. Qed.
  Lemma puts_fail A id (o : outcome False) : good o -> @puts A id (mfail o).
  Proof.
    intros G s d H. exists d, [], (x_n s). unfold mfail. cbn [fst snd]. rewrite (same_put _ _ _ H).
    split; [now destruct s|]. split; [apply kept_refl|]. destruct o; try exact I; [contradiction|exact G].
  Qed.
  Lemma puts_lift A id (o : outcome A) : good o -> puts id (mlift o).
  Proof.
    intros G s d H. exists d, [], (x_n s). unfold mlift. cbn [fst snd]. rewrite (same_put _ _ _ H).
    split; [now destruct s|]. split; [apply kept_refl|exact G].
  Qed.
  Lemma puts_bind A B id (f : M xstate A) (g : A -> M xstate B) : puts id f -> (forall a, puts id (g a)) -> puts id (mbind f g).
  Proof.
    intros F G s d H. destruct (F s d H) as (d1 & t1 & n1 & E1 & K1 & O1). unfold mbind.
    destruct (f s) as [o s1]. cbn [fst snd] in *. subst s1.
    destruct o as [a|e|u| |]; cbn [fst snd]; try (exists d1, t1, n1; auto; fail).
    destruct (G a (x_of s (put (x_m s) id d1 t1) n1) d1 (put_get _ _ _ _)) as (d2 & t2 & n2 & E2 & K2 & O2).
    exists d2, (t1 ++ t2), n2. rewrite E2. cbn [x_of x_m]. rewrite put_put. split; [reflexivity|]. split; [eapply kept_trans; eauto|exact O2].
  Qed.
  Lemma puts_ask id : puts id (ask E).
  Proof. intros s d H. exists d, [], (S (x_n s)). unfold ask. cbn [fst snd]. rewrite (same_put _ _ _ H). split; [reflexivity|]. split; [apply kept_refl|exact I]. Qed.
  Lemma puts_need id : puts id (need E).
  Proof. apply puts_bind; [apply puts_ask|]. intros []; [apply puts_ret|now apply puts_fail]. Qed.
  Lemma puts_get A id (f : xstate -> A) : puts id (mget f).
  Proof. intros s d H. exists d, [], (x_n s). unfold mget. cbn [fst snd]. rewrite (same_put _ _ _ H). split; [now destruct s|]. split; [apply kept_refl|exact I]. Qed.
  Lemma puts_emit id e : puts id (on_m (emit_m e)).
  Proof.
    intros s d H. exists d, e, (x_n s). unfold on_m, emit_m, mmod. cbn [fst snd]. rewrite (put_same _ _ _ _ H).
    split; [reflexivity|]. split; [apply kept_refl|exact I].
  Qed.
  Lemma puts_log id l : puts id (xlog E l).
  Proof.
    unfold xlog. apply puts_bind; [apply puts_need|intros _]. apply puts_bind; [apply puts_get|intro n].
    apply puts_bind; [apply puts_ask|intro g]. apply puts_bind; [apply puts_ask|intros []]; [apply puts_emit|now apply puts_fail].
  Qed.
  Lemma convert_good f : good (convertFilename2Language (cf_strict cf) f).
  Proof.
    unfold convertFilename2Language. destruct (substr f _ 3) as [suf|]; [|exact I].
    assert (U : forall x b, good (upcase_country (cf_strict cf) b x)).
    { induction x as [|c x IH]; intro b; cbn [upcase_country]; [exact I|]. destruct b.
      - destruct (cf_strict cf && hi c) eqn:F; [apply andb_prop in F as [F _]; now apply P_ctype|].
        destruct (negb (isalpha c)); [exact I|]. specialize (IH true). now destruct (upcase_country _ _ x).
      - match goal with |- context[upcase_country _ ?z x] => specialize (IH z); destruct (upcase_country (cf_strict cf) z x) end; auto. }
    destruct (if bytes_eqb suf dot_po then _ else _); [apply U|exact I].
  Qed.
  Lemma puts_consider lang best f id : puts id (xconsider cf lang_of_env E lang best f).
  Proof.
    unfold xconsider. destruct (has_suffix f dot_po); [|apply puts_ret].
    apply puts_bind; [apply puts_need|intros _]. apply puts_bind; [apply puts_lift, convert_good|intro stem].
    apply puts_bind; [apply puts_lift, P_env|intro po]. destruct (is_none po).
    - apply puts_bind; [apply puts_log|intros _]. apply puts_ret.
    - cbv zeta. destruct (_ <? _)%Z; [|apply puts_ret]. apply puts_bind; [apply puts_need|intros _]. apply puts_ret.
  Qed.
  Lemma puts_best lang id files : forall best, puts id (xbest_file cf lang_of_env E lang best files).
  Proof.
    induction files as [|f files IH]; intro best; cbn [xbest_file]; [apply puts_ret|].
    apply puts_bind; [apply puts_consider|exact IH].
  Qed.
  Lemma puts_parse id f i : puts id (xparse E id f i).
  Proof.
    intros s d H. unfold xparse. rewrite H. cbn [fst snd]. eexists _, _, _. split; [reflexivity|].
    split; [apply kept_changes|apply P_parse].
  Qed.
  Lemma puts_file id f : puts id (xfile fs E id f).
  Proof.
    set (body := need E;; i <- mlift (fs_file fs f);;
             match i with
             | None => xlog E (log_error (bs "error: failure opening: " ++ f))
             | Some i => xparse E id f i
             end).
    assert (B : puts id body).
    { apply puts_bind; [apply puts_need|intros _]. apply puts_bind; [apply puts_lift, P_file|].
      intros [i|]; [apply puts_parse|apply puts_log]. }
    intros s d H. destruct (B s d H) as (d1 & t1 & n1 & E1 & K1 & O1). unfold xfile. fold body.
    destruct (body s) as [o s1]. cbn [fst snd] in *. subst s1.
    destruct o as [a|e|u| |]; cbn [fst snd]; try (exists d1, t1, n1; auto; fail).
    destruct (is_std e); cbn [fst snd]; [|exists d1, t1, n1; auto].
    assert (H2 : puts id (xlog E (log_error (bs "error: failure parsing: " ++ f));; xlog E (log_error (what e)))).
    { apply puts_bind; [apply puts_log|intros _; apply puts_log]. }
    destruct (H2 (x_of s (put (x_m s) id d1 t1) n1) d1 (put_get _ _ _ _)) as (d2 & t2 & n2 & E2 & K2 & O2).
    exists d2, (t1 ++ t2), n2. rewrite E2. cbn [x_of x_m]. rewrite put_put. split; [reflexivity|]. split; [eapply kept_trans; eauto|exact O2].
  Qed.
  Lemma puts_dir lang id p : puts id (xdir cf lang_of_env fs E lang id p).
  Proof.
    unfold xdir. apply puts_bind; [apply puts_need|intros _]. apply puts_bind; [apply puts_lift, P_dir|intro files].
    apply puts_bind; [apply puts_best|intro best]. destruct (is_nil _); [apply puts_ret|].
    apply puts_bind; [apply puts_need|intros _]. apply puts_file.
  Qed.
  Lemma puts_dirs lang id ps : puts id (xdirs cf lang_of_env fs E lang id ps).
  Proof.
    induction ps as [|p ps IH]; cbn [xdirs]; [apply puts_ret|]. apply puts_bind; [apply puts_dir|intros _; exact IH].
  Qed.

  (** ** loading one language *)
  Definition front (l : language) : M xstate ptr :=
    need E;;
    id <- on_m (mget m_next);;
    xinsert E l;;
    path <- on_m (mget m_path);;
    xdirs cf lang_of_env fs E l id (rev path);;
    need E;;
    mret id.
  Definition tail (n : nat) (l : language) (id : ptr) : M xstate ptr :=
    if is_nil (get_country l) then mret id
    else
      base <- mlift (base_lang (get_language l));;
      fb <- xget_lang cf lang_of_env base_lang fs E n base;;
      on_m (set_fallback id fb);;
      mret id.
  Lemma xget_S n l s : (negb (cf_ndebug cf) && is_none l)%bool = false -> cache_find l (m_cache (x_m s)) = None ->
    xget_lang cf lang_of_env base_lang fs E (S n) l s = mbind (front l) (tail n l) s.
  Proof.
    intros A C. cbn [xget_lang]. rewrite A. unfold mbind at 1, on_m at 1, mget at 1. cbv beta iota zeta.
    replace (x_upd s (x_m s)) with s by now destruct s. rewrite C. unfold front.
    unfold mbind. destruct (need E s) as [[[]|?|?| |] s1]; try reflexivity.
    destruct (on_m (mget m_next) s1) as [[id|?|?| |] s2]; try reflexivity.
    destruct (xinsert E l s2) as [[[]|?|?| |] s3]; try reflexivity.
    destruct (on_m (mget m_path) s3) as [[path|?|?| |] s4]; try reflexivity.
    destruct (xdirs cf lang_of_env fs E l id (rev path) s4) as [[[]|?|?| |] s5]; try reflexivity.
    destruct (need E s5) as [[[]|?|?| |] s6]; reflexivity.
  Qed.

  Inductive front_result (l : language) (s : xstate) : outcome ptr * xstate -> Prop :=
  | fr_before n k : x_leaks s <= k -> k <= S (x_leaks s) ->
      front_result l s (Exn bad_alloc, {| x_m := x_m s; x_leaks := k; x_n := n |})
  | fr_loaded o d t n : kept (new_dictionary (m_charset (x_m s))) d -> good o ->
      (forall id, o = Ret id -> id = m_next (x_m s)) ->
      front_result l s (o, x_of s (put (alloc (x_m s) l) (m_next (x_m s)) d t) n).
  Lemma front_cases l s : front_result l s (front l s).
  Proof.
    unfold front. unfold mbind at 1, need at 1, ask at 1, mbind at 1. destruct (e_ok E (x_n s)).
    2:{ cbn [mfail x_leaks]. apply fr_before; lia. }
    unfold mret at 1. unfold mbind at 1, on_m at 1, mget at 1. cbn [x_m].
    unfold mbind at 1, xinsert at 1, mbind at 1, ask at 1. cbn [x_upd x_m x_leaks x_n]. destruct (e_ok E (S (x_n s))).
    2:{ cbn [x_m x_leaks x_n]. apply fr_before; lia. }
    unfold on_m at 1, mmod at 1. cbn [x_m]. cbv beta iota. unfold mbind at 1, on_m at 1, mget at 1. cbn [x_upd x_m x_leaks x_n].
    set (s1 := {| x_m := alloc (x_m s) l; x_leaks := x_leaks s; x_n := S (S (x_n s)) |}).
    assert (G : puts (m_next (x_m s)) (xdirs cf lang_of_env fs E l (m_next (x_m s)) (rev (m_path (alloc (x_m s) l)));; need E)).
    { apply puts_bind; [apply puts_dirs|intros _; apply puts_need]. }
    destruct (G s1 (new_dictionary (m_charset (x_m s))) (alloc_get (x_m s) l)) as (d & t & n & E1 & K & O). clear G.
    set (D := xdirs cf lang_of_env fs E l (m_next (x_m s)) (rev (m_path (alloc (x_m s) l)))) in *.
    assert (X : (D;; need E;; mret (m_next (x_m s))) s1 =
                (omap (fun _ => m_next (x_m s)) (fst ((D;; need E) s1)), snd ((D;; need E) s1))).
    { unfold mbind. destruct (D s1) as [[[]|?|?| |] s2]; try reflexivity.
      destruct (need E s2) as [[[]|?|?| |] s3]; reflexivity. }
    match goal with |- front_result _ _ (_ ?x) => change x with s1 end. rewrite X, E1. cbn [x_of]. subst s1. cbn [x_m x_leaks]. 
    refine (fr_loaded l s _ d t n K _ _).
    - destruct (fst _); cbn [omap]; auto.
    - intros id H. destruct (fst ((D;; need E) _)); cbn [omap] in H; congruence.
  Qed.
End Puts.

Section Get.
  Variable cf : config.
  Variable lang_of_env : bytes -> outcome language.
  Variable fs : file_system.
  Variable E : env.
  Variable P : ub -> Prop.
  Local Notation good := (good P).
  Hypothesis P_ctype : cf_strict cf = true -> P UbCtype.
  Hypothesis P_env : forall x, good (lang_of_env x).
  Hypothesis P_dir : forall p, good (fs_dir fs p).
  Hypothesis P_file : forall p, good (fs_file fs p).
  Hypothesis P_parse : forall n f i d, good (fst (fst (e_parse E n f i d))).
  Let base_lang := fun la => from_spec (cf_ndebug cf) la [] [].
  Local Notation own := (own (cf_ndebug cf)).
  Local Notation xg := (xget_lang cf lang_of_env base_lang fs E).

  Record got (l : language) (s : xstate) (o : outcome ptr) (s' : xstate) : Prop := {
    got_own : own (x_m s');
    got_grown : grown (x_m s) (x_m s');
    got_ref : forall p, o = Ret p -> cache_find l (m_cache (x_m s')) = Some p;
    got_good : good o;
    got_leak : x_leaks s' = x_leaks s \/ (o = Exn bad_alloc /\ x_leaks s' = S (x_leaks s));
    got_kept : forall e, o = Exn e ->
      x_m s' = x_m s \/
      exists p d, m_next (x_m s) <= p /\ cache_find l (m_cache (x_m s')) = Some p /\
                  heap_get (m_heap (x_m s')) p = Some d /\ d_has_fallback d = false }.

  Lemma alloc_put_grown m l d t : grown m (put (alloc m l) (m_next m) d t).
  Proof.
    constructor; try reflexivity.
    - exists [(l, m_next m)]. reflexivity.
    - intros p Hp. unfold put. cbn [upd_tr upd_heap m_heap]. rewrite heap_get_set_other by lia.
      cbn [alloc m_heap heap_get]. destruct (Nat.eqb_spec p (m_next m)); [lia|reflexivity].
    - cbn. lia.
    - eexists. reflexivity.
  Qed.
  Lemma alloc_put_own m l d t : own m -> known l -> cache_find l (m_cache m) = None -> kept (new_dictionary (m_charset m)) d ->
    own (put (alloc m l) (m_next m) d t).
  Proof.
    intros O K H Kd. apply (own_put cf (alloc m l) l (m_next m) (new_dictionary (m_charset m))); [now apply own_alloc| |apply alloc_get|exact Kd].
    cbn. apply in_or_app. right. now left.
  Qed.
  Lemma alloc_put_find m l d t : cache_find l (m_cache m) = None -> cache_find l (m_cache (put (alloc m l) (m_next m) d t)) = Some (m_next m).
  Proof. intro H. cbn. rewrite cache_find_app_none by exact H. cbn [cache_find]. now rewrite lang_eqb_refl. Qed.

  (** the cases that do not load *)
  Lemma got_same l s o : own (x_m s) -> good o -> (forall p, o = Ret p -> cache_find l (m_cache (x_m s)) = Some p) -> got l s o s.
  Proof. intros O G H. constructor; auto. apply grown_refl. Qed.

  Lemma got_leaf n l s : own (x_m s) -> known l -> get_country l = [] -> got l s (fst (xg (S n) l s)) (snd (xg (S n) l s)).
  Proof.
    intros O K C. destruct (negb (cf_ndebug cf) && is_none l) eqn:A.
    { cbn [xget_lang]. rewrite A. cbn [mfail fst snd]. apply got_same; [exact O|exact I|discriminate]. }
    destruct (cache_find l (m_cache (x_m s))) as [p|] eqn:F.
    { cbn [xget_lang]. rewrite A. unfold mbind, on_m, mget, mret. rewrite F. cbn [fst snd].
      replace (x_upd s (x_m s)) with s by now destruct s. apply got_same; [exact O|exact I|congruence]. }
    rewrite (xget_S cf lang_of_env base_lang fs E n l s A F). unfold mbind.
    destruct (front_cases cf lang_of_env fs E P P_ctype P_env P_dir P_file P_parse l s) as [n' k K1 K2|o d t n' Kd G H].
    - cbn [fst snd]. constructor; cbn [x_m x_leaks]; auto; [apply grown_refl|discriminate|exact I|].
      assert (k = x_leaks s \/ k = S (x_leaks s)) as [->| ->] by lia; auto.
    - unfold tail. rewrite C. cbn [is_nil].
      assert (X : got l s o (x_of s (put (alloc (x_m s) l) (m_next (x_m s)) d t) n')).
      { constructor; cbn [x_of x_m x_leaks]; auto.
        - now apply alloc_put_own.
        - apply alloc_put_grown.
        - intros p Hp. rewrite (H p Hp). now apply alloc_put_find.
        - intros e _. right. exists (m_next (x_m s)), d. split; [lia|]. split; [now apply alloc_put_find|].
          split; [apply put_get|]. destruct Kd as (_ & -> & _). reflexivity. }
      destruct o as [id|e|u| |]; exact X.
  Qed.

  Lemma got_any l s : own (x_m s) -> known l -> got l s (fst (xg depth0 l s)) (snd (xg depth0 l s)).
  Proof.
    intros O K. destruct (is_nil_spec _ (get_country l)) as [C|C]; [now apply got_leaf|]. unfold depth0.
    destruct (negb (cf_ndebug cf) && is_none l) eqn:A.
    { cbn [xget_lang]. rewrite A. cbn [mfail fst snd]. apply got_same; [exact O|exact I|discriminate]. }
    destruct (cache_find l (m_cache (x_m s))) as [p|] eqn:F.
    { cbn [xget_lang]. rewrite A. unfold mbind, on_m, mget, mret. rewrite F. cbn [fst snd].
      replace (x_upd s (x_m s)) with s by now destruct s. apply got_same; [exact O|exact I|congruence]. }
    rewrite (xget_S cf lang_of_env base_lang fs E 1 l s A F). unfold mbind at 1 2.
    destruct (front_cases cf lang_of_env fs E P P_ctype P_env P_dir P_file P_parse l s) as [n' k K1 K2|o d t n' Kd G H].
    { cbn [fst snd]. constructor; cbn [x_m x_leaks]; auto; [apply grown_refl|discriminate|exact I|].
      assert (k = x_leaks s \/ k = S (x_leaks s)) as [->| ->] by lia; auto. }
    set (s1 := x_of s (put (alloc (x_m s) l) (m_next (x_m s)) d t) n').
    assert (O1 : own (x_m s1)) by now apply alloc_put_own.
    assert (G1 : grown (x_m s) (x_m s1)) by apply alloc_put_grown.
    assert (F1 : cache_find l (m_cache (x_m s1)) = Some (m_next (x_m s))) by now apply alloc_put_find.
    assert (D1 : heap_get (m_heap (x_m s1)) (m_next (x_m s)) = Some d) by apply put_get.
    assert (B1 : d_has_fallback d = false) by (destruct Kd as (_ & -> & _); reflexivity).
    assert (L1 : x_leaks s1 = x_leaks s) by reflexivity.
    assert (N1 : m_next (x_m s1) = S (m_next (x_m s))) by reflexivity.
    assert (Fail : forall o', (forall p, o' <> Ret p) -> good o' -> got l s o' s1).
    { intros o' N Go. constructor; auto.
      - intros p Hp. now destruct (N p).
      - intros e _. right. exists (m_next (x_m s)), d. split; [lia|]. auto. }
    clearbody s1. destruct o as [id|e|u| |]; cbn [fst snd]; try (apply Fail; [discriminate|exact G]).
    pose proof (H id eq_refl) as ->.
    enough (X : forall o' s', tail cf lang_of_env base_lang fs E 1 l (m_next (x_m s)) s1 = (o', s') -> got l s o' s')
      by (destruct (tail cf lang_of_env base_lang fs E 1 l (m_next (x_m s)) s1); now apply X).
    intros o' s' T. unfold tail in T. destruct (is_nil_spec _ (get_country l)) as [C'|_]; [contradiction|].
    destruct (base_of (cf_ndebug cf) l K C) as (b & Eb & Kb & Cb & _). unfold mbind at 1, mlift in T. unfold base_lang at 1 in T. rewrite Eb in T.
    pose proof (got_leaf 0 (Some b) s1 O1 Kb Cb) as [Ob Gb Rb Goodb Lb Eb'].
    unfold mbind at 1 in T. destruct (xg 1 (Some b) s1) as [ob s2]. cbn [fst snd] in *.
    assert (D2 : heap_get (m_heap (x_m s2)) (m_next (x_m s)) = Some d).
    { rewrite (gr_heap _ _ Gb) by lia. exact D1. }
    assert (F2 : cache_find l (m_cache (x_m s2)) = Some (m_next (x_m s))) by (eapply grown_find; eauto).
    assert (G2 : grown (x_m s) (x_m s2)) by (eapply grown_trans; eauto).
    assert (Fail2 : forall o', (forall p, o' <> Ret p) -> good o' ->
      (x_leaks s2 = x_leaks s \/ o' = Exn bad_alloc /\ x_leaks s2 = S (x_leaks s)) -> got l s o' s2).
    { intros o1 N Go Le. constructor; auto.
      - intros p Hp. now destruct (N p).
      - intros e _. right. exists (m_next (x_m s)), d. split; [lia|]. auto. }
    destruct ob as [q|e|u| |]; try (injection T as <- <-; apply Fail2; [discriminate|exact Goodb|rewrite <- L1; destruct Lb as [Lb|[Lx Lb]]; [left; exact Lb|first [discriminate|right; split; [congruence|exact Lb]]]]).
    (* the fallback is set *)
    unfold mbind, on_m, set_fallback in T. rewrite D2 in T. unfold mret in T. injection T as <- <-.
    specialize (Rb q eq_refl).
    assert (I2 : In (l, m_next (x_m s)) (m_cache (x_m s2))) by (apply cache_find_In; auto; apply (own_known _ _ Ob)).
    set (m3 := upd_heap (x_m s2) (heap_set (m_heap (x_m s2)) (m_next (x_m s)) (add_fallback d (Some q)))).
    assert (M3 : m3 = put (x_m s2) (m_next (x_m s)) (add_fallback d (Some q)) []).
    { unfold m3, put. rewrite app_nil_r. now destruct (x_m s2). }
    constructor; cbn [x_upd x_m x_leaks].
    - change (own m3). rewrite M3. eapply own_fallback; eauto.
    - change (grown (x_m s) m3). rewrite M3. apply grown_put; [exact G2|lia].
    - intros p Hp. injection Hp as <-. exact F2.
    - exact I.
    - left. destruct Lb as [Lb|[Lb _]]; [congruence|discriminate].
    - discriminate.
  Qed.
End Get.
