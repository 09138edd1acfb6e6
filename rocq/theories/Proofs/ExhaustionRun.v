(** Whole calls and histories of a manager when anything may fail. *)
From Verif.Model Require Import Base Log PluralForms Dictionary Memory IConv Language Stream PoParser Manager Tables Exhaustion.
From Verif.Spec Require Import DictSpec LangSpec MemorySpec ManagerSpec ExhaustionSpec.
From Verif.Proofs Require Import BaseFacts DictProofs LangProofs MemoryProofs ParserSafe ManagerLoad ManagerOwn ManagerGet ManagerStep ManagerContent ManagerSafe ExhaustionProofs.
From Coq Require Import Permutation.
Local Open Scope list_scope.
Local Open Scope mon_scope.
Local Opaque from_spec languages from_env.

(** dictionaries and cache entries stay *)
Record survives (m m' : manager) : Prop := {
  sv_cache : exists c, m_cache m' = m_cache m ++ c;
  sv_heap : forall p, p < m_next m -> heap_get (m_heap m') p = heap_get (m_heap m) p;
  sv_next : m_next m <= m_next m' }.
Lemma survives_refl m : survives m m.
Proof. constructor; auto. exists []. now rewrite app_nil_r. Qed.
Lemma survives_trans a b c : survives a b -> survives b c -> survives a c.
Proof.
  intros [[c1 A1] A2 A3] [[c2 B1] B2 B3]. constructor.
  - exists (c1 ++ c2). now rewrite B1, A1, app_assoc.
  - intros p H. rewrite B2 by lia. now apply A2.
  - lia.
Qed.
Lemma grown_survives a b : grown a b -> survives a b.
Proof. intros [A1 _ _ _ _ _ _ _ A2 A3 _]. now constructor. Qed.
Lemma survives_find a b l p : survives a b -> cache_find l (m_cache a) = Some p -> cache_find l (m_cache b) = Some p.
Proof. intros [[c ->] _ _] H. now apply cache_find_app_some. Qed.

(** ** nothing but the number of requests and the log changes *)
Definition still {A} (f : M xstate A) : Prop := forall s, x_m (snd (f s)) = x_m s /\ x_leaks (snd (f s)) = x_leaks s.
Lemma still_bind A B (f : M xstate A) (g : A -> M xstate B) : still f -> (forall a, still (g a)) -> still (mbind f g).
Proof.
  intros F G s. unfold mbind. destruct (F s) as [F1 F2]. destruct (f s) as [o s1]. cbn [fst snd] in *.
  destruct o; cbn [snd]; auto. destruct (G a s1) as [G1 G2]. split; congruence.
Qed.
Lemma still_need E : still (need E).
Proof. intro s. unfold need, ask, mbind. destruct (e_ok E (x_n s)); split; reflexivity. Qed.
Lemma still_lift A (o : outcome A) : still (mlift o). Proof. intro s. split; reflexivity. Qed.
Lemma still_ret A (o : A) : still (mret o). Proof. intro s. split; reflexivity. Qed.
Lemma still_fail A (o : outcome False) : still (@mfail _ A o). Proof. intro s. split; reflexivity. Qed.
Lemma still_get A (f : manager -> A) : still (on_m (mget f)). Proof. intro s. split; reflexivity. Qed.
Lemma still_files le E files : forall acc, still (xlangs_files le E files acc).
Proof.
  induction files as [|f files IH]; intro acc; cbn [xlangs_files]; [apply still_ret|].
  destruct (has_suffix f dot_po); [|apply IH]. apply still_bind; [apply still_need|intros _].
  destruct (substr _ _ _); [|apply still_fail]. apply still_bind; [apply still_lift|intro; apply IH].
Qed.
Lemma still_dirs le fs E ps : forall acc, still (xlangs_dirs le fs E ps acc).
Proof.
  induction ps as [|p ps IH]; intro acc; cbn [xlangs_dirs]; [apply still_ret|].
  apply still_bind; [apply still_need|intros _]. apply still_bind; [apply still_lift|intro files].
  apply still_bind; [apply still_files|intro; apply IH].
Qed.

Section Step.
  Variable cf : config.
  Variable fs : file_system.
  Variable E : env.
  Variable P : ub -> Prop.
  Local Notation good := (good P).
  Hypothesis P_ctype : cf_strict cf = true -> P UbCtype.
  Hypothesis P_dir : forall p, good (fs_dir fs p).
  Hypothesis P_file : forall p, good (fs_file fs p).
  Hypothesis P_parse : forall n f i d, good (fst (fst (e_parse E n f i d))).
  Local Notation own := (own (cf_ndebug cf)).

  Lemma P_env x : good (from_env (cf_ndebug cf) x).
  Proof. destruct (from_env_total (cf_ndebug cf) x) as [l ->]. exact I. Qed.

  Record stepped (op : mop) (s : xstate) (o : outcome mout) (s' : xstate) : Prop := {
    st_own : own (x_m s');
    st_leak : x_leaks s' = x_leaks s \/ (o = Exn bad_alloc /\ x_leaks s' = S (x_leaks s));
    st_ref : forall p, o = Ret (OutRef (RefHeap p)) -> exists l, cache_find l (m_cache (x_m s')) = Some p;
    st_good : good o;
    st_keeps : keeps op -> survives (x_m s) (x_m s') }.

  Definition unitish (o : outcome mout) : Prop := forall p, o <> Ret (OutRef (RefHeap p)).
  (** set_charset and add_directory, once the cache is empty *)
  Lemma clearing (op : mop) s m1 (f : manager -> manager) : ~ keeps op -> own m1 -> (forall m, own m -> own (f m)) ->
    let r := mmap (fun _ => OutUnit) (need E;; on_m (mmod f)) (x_upd s m1) in stepped op s (fst r) (snd r).
  Proof.
    intros K O F. cbv zeta. unfold mmap, need, ask, mbind, on_m, mmod, mret, mfail. cbn [x_upd x_n x_m x_leaks].
    destruct (e_ok E (x_n s)); cbn [fst snd x_m x_leaks x_upd]; constructor; cbn [x_m x_leaks x_upd]; auto; try discriminate; try exact I; intro; contradiction.
  Qed.
  Lemma good_langs_files files : forall acc s, good (fst (xlangs_files (from_env (cf_ndebug cf)) E files acc s)).
  Proof.
    induction files as [|f files IH]; intros acc s; cbn [xlangs_files]; [exact I|]. destruct (has_suffix f dot_po); [|apply IH].
    unfold mbind at 1, need, ask, mbind at 1. destruct (e_ok E (x_n s)); [|exact I]. unfold mret at 1.
    destruct (substr _ _ _) as [st|]; [|exact I]. unfold mbind, mlift. pose proof (P_env st) as G. destruct (from_env _ st); cbn [fst]; auto.
  Qed.
  Lemma good_langs_dirs ps : forall acc s, good (fst (xlangs_dirs (from_env (cf_ndebug cf)) fs E ps acc s)).
  Proof.
    induction ps as [|p ps IH]; intros acc s; cbn [xlangs_dirs]; [exact I|].
    unfold mbind at 1, need, ask, mbind at 1. destruct (e_ok E (x_n s)); [|exact I]. unfold mret at 1.
    unfold mbind at 1, mlift. pose proof (P_dir p) as G. destruct (fs_dir fs p) as [files| | | |]; auto.
    unfold mbind. pose proof (good_langs_files files acc {| x_m := x_m s; x_leaks := x_leaks s; x_n := S (x_n s) |}) as G1.
    destruct (xlangs_files _ _ _ _ _) as [[acc'| | | |] s1]; cbn [fst] in *; auto.
  Qed.

  Definition xload (l : language) : M xstate ptr :=
    xget_lang cf (from_env (cf_ndebug cf)) (fun la => from_spec (cf_ndebug cf) la [] []) fs E depth0 l.
  Lemma xget_eq s : xcall cf fs E OpGetDictionary s =
    match m_cur (x_m s) with
    | Some p => (Ret (OutRef (RefHeap p)), s)
    | None =>
        if is_none (m_lang (x_m s)) then (Ret (OutRef RefEmpty), s)
        else match xload (m_lang (x_m s)) s with
             | (Ret p, s1) => (Ret (OutRef (RefHeap p)), x_upd s1 (upd_lang (x_m s1) (m_lang (x_m s1)) (Some p)))
             | (Exn e, s1) => (Exn e, s1) | (Ub u, s1) => (Ub u, s1)
             | (AssertFail, s1) => (AssertFail, s1) | (OutOfFuel, s1) => (OutOfFuel, s1)
             end
    end.
  Proof.
    unfold xcall, xstep, xget. fold (xload).
    unfold mmap. unfold mbind at 1 2. unfold on_m at 1, mget at 1.
    replace (x_upd s (x_m s)) with s by now destruct s.
    destruct (m_cur (x_m s)) as [p|]; [reflexivity|].
    unfold mbind at 1, on_m at 1, mget at 1. replace (x_upd s (x_m s)) with s by now destruct s.
    destruct (is_none (m_lang (x_m s))); [reflexivity|].
    unfold mbind at 1. fold (xload (m_lang (x_m s))). destruct (xload (m_lang (x_m s)) s) as [[p|e|u| |] s1]; reflexivity.
  Qed.

  Lemma step_any op s : own (x_m s) -> client_op op -> stepped op s (fst (xcall cf fs E op s)) (snd (xcall cf fs E op s)).
  Proof.
    intros O C.
    assert (Same : forall o s', x_m s' = x_m s -> x_leaks s' = x_leaks s -> unitish o -> good o -> stepped op s o s').
    { intros o s' H1 H2 U G. constructor; rewrite ?H1; auto.
      - intros p Hp. first [now destruct (U p)|now destruct (U (RefHeap p))].
      - intros _. apply survives_refl. }
    assert (Plain : forall o m', mstep cf fs op (x_m s) = (Ret o, m') -> (forall r, o <> OutRef r) ->
              (keeps op -> survives (x_m s) m') -> xcall cf fs E op s = on_m (mstep cf fs op) s ->
              stepped op s (fst (xcall cf fs E op s)) (snd (xcall cf fs E op s))).
    { intros o m' Eq U K ->. unfold on_m. pose proof (step_own cf fs op (x_m s) O C) as O'. rewrite Eq in *. cbn [fst snd] in *.
      constructor; cbn [x_upd x_m x_leaks]; auto; [|exact I]. intros p Hp. injection Hp as Hp. now destruct (U (RefHeap p)). }
    destruct op as [l|c|b|p pr|p| |l| | |].
    - eapply Plain; [apply do_set_language|discriminate| |reflexivity]. intros _. destruct (lang_eqb _ _); [apply survives_refl|].
      constructor; auto. exists []. now rewrite app_nil_r.
    - destruct (clear_ok cf (x_m s) O) as (m1 & R & _ & O1). unfold xcall, xstep, xset_charset.
      assert (X : mmap (fun _ : unit => OutUnit) (on_m clear_cache;; need E;; on_m (mmod (fun m => upd_charset m c))) s =
                  mmap (fun _ => OutUnit) (need E;; on_m (mmod (fun m => upd_charset m c))) (x_upd s m1)).
      { unfold mmap, mbind at 1 2. unfold on_m at 1. now rewrite R. }
      rewrite X. apply clearing; auto. intros m. apply own_upd_charset.
    - destruct (do_set_use_fuzzy cf fs b (x_m s) O) as (m1 & _ & _ & X). eapply Plain; [exact X|discriminate|contradiction|reflexivity].
    - unfold xcall, xstep, xadd_directory.
      assert (X : forall a (f g : M xstate unit) , mmap (fun _ : unit => OutUnit) (path <- on_m (mget m_path);; if existsb a path then f else g) s
                   = mmap (fun _ : unit => OutUnit) (if existsb a (m_path (x_m s)) then f else g) s).
      { intros a f g. unfold mmap, mbind at 1 2, on_m, mget. replace (x_upd s (x_m s)) with s by now destruct s. reflexivity. }
      rewrite X. clear X. destruct (existsb _ _) eqn:Ex.
      + apply Same; [reflexivity|reflexivity|discriminate|exact I].
      + destruct (clear_ok cf (x_m s) O) as (m1 & R & _ & O1).
        set (f := fun m => upd_path m (if pr then p :: m_path m else m_path m ++ [p])).
        assert (X : mmap (fun _ : unit => OutUnit) (on_m clear_cache;; need E;; on_m (mmod f)) s =
                    mmap (fun _ => OutUnit) (need E;; on_m (mmod f)) (x_upd s m1)).
        { unfold mmap, mbind at 1 2. unfold on_m at 1. now rewrite R. }
        rewrite X. apply clearing; auto. intros m. apply own_upd_path.
    - destruct (in_dec (list_eq_dec ascii_dec) p (m_path (x_m s))) as [H|H].
      + destruct (do_remove_directory cf fs p (x_m s) O H) as (m1 & _ & _ & X). eapply Plain; [exact X|discriminate|contradiction|reflexivity].
      + eapply Plain; [now apply do_remove_absent|discriminate|contradiction|reflexivity].
    - rewrite xget_eq. destruct (m_cur (x_m s)) as [p|] eqn:Cu.
      { cbn [fst snd]. constructor; auto; [|intros _; apply survives_refl].
        intros q Hq. injection Hq as <-. exists (m_lang (x_m s)). apply (own_cur _ _ O _ Cu). }
      destruct (is_none (m_lang (x_m s))) eqn:N.
      { cbn [fst snd]. apply Same; auto; try exact I; discriminate. }
      pose proof (got_any cf (from_env (cf_ndebug cf)) fs E P P_ctype P_env P_dir P_file P_parse (m_lang (x_m s)) s O (own_lang _ _ O)) as G.
      unfold xload. set (r := xget_lang _ _ _ _ _ _ _ s) in *. destruct r as [o s1]. cbn [fst snd] in G.
      destruct G as [Go Gg Gr Ggood Gl Gk].
      destruct o as [p|e|u| |]; cbn [fst snd]; try (constructor; auto; [destruct Gl as [Gl|[Gl1 Gl2]]; [now left|right; split; [congruence|exact Gl2]]|discriminate|intros _; now apply grown_survives]).
      cbn [fst snd x_upd x_m x_leaks]. specialize (Gr p eq_refl).
      constructor; cbn [x_m x_leaks].
      + apply own_upd_cur; [exact Go| |].
        * rewrite (gr_lang _ _ Gg). destruct (m_lang (x_m s)); [discriminate|discriminate N].
        * now rewrite (gr_lang _ _ Gg).
      + left. destruct Gl as [Gl|[Gl _]]; [exact Gl|discriminate].
      + intros q Hq. injection Hq as <-. exists (m_lang (x_m s)). exact Gr.
      + exact I.
      + intros _. apply grown_survives in Gg. destruct Gg. now constructor.
    - unfold xcall, xstep. pose proof (got_any cf (from_env (cf_ndebug cf)) fs E P P_ctype P_env P_dir P_file P_parse l s O C) as G.
      unfold mmap, mbind. set (r := xget_lang _ _ _ _ _ _ _ s) in *. destruct r as [o s1]. cbn [fst snd] in G.
      destruct G as [Go Gg Gr Ggood Gl Gk].
      destruct o as [p|e|u| |]; cbn [mret fst snd]; try (constructor; auto; [destruct Gl as [Gl|[Gl1 Gl2]]; [now left|right; split; [congruence|exact Gl2]]|discriminate|intros _; now apply grown_survives]).
      constructor; auto.
      + left. destruct Gl as [Gl|[Gl _]]; [exact Gl|discriminate].
      + intros q Hq. injection Hq as <-. exists l. now apply Gr.
      + intros _. now apply grown_survives.
    - unfold xcall, xstep. set (f := path <- on_m (mget m_path);; xlangs_dirs (from_env (cf_ndebug cf)) fs E path []).
      assert (St : still f). { apply still_bind; [apply still_get|]. intro. apply still_dirs. }
      assert (Gd : good (fst (f s))). { unfold f, mbind, on_m, mget. apply good_langs_dirs. }
      specialize (St s). clearbody f. unfold mmap, mbind. destruct (f s) as [o s1].
      cbn [fst snd] in *. destruct St as [S1 S2].
      destruct o; cbn [mret fst snd]; apply Same; auto; try (intros ? ?; discriminate); try exact I.
    - eapply Plain; [apply do_get_language|discriminate| |reflexivity]. intros _. apply survives_refl.
    - eapply Plain; [apply do_get_use_fuzzy|discriminate| |reflexivity]. intros _. apply survives_refl.
  Qed.
End Step.

(** ** when nothing fails *)
Section Tracks.
  Variable cf : config.
  Variable fs : file_system.
  Variable E : env.
  Hypothesis W : all_well cf E.
  Definition tracks {A} (f : M xstate A) (g : M manager A) : Prop :=
    forall s, fst (f s) = fst (g (x_m s)) /\ x_m (snd (f s)) = snd (g (x_m s)) /\ x_leaks (snd (f s)) = x_leaks s.
  Lemma tr_ret A (a : A) : tracks (mret a) (mret a). Proof. intro s. repeat split. Qed.
  Lemma tr_lift A (o : outcome A) : tracks (mlift o) (mlift o). Proof. intro s. repeat split. Qed.
  Lemma tr_fail A (o : outcome False) : tracks (@mfail _ A o) (mfail o). Proof. intro s. repeat split. Qed.
  Lemma tr_on A (g : M manager A) : tracks (on_m g) g.
  Proof. intro s. unfold on_m. now destruct (g (x_m s)). Qed.
  Lemma tr_bind A B (f : M xstate A) f' (g : A -> M xstate B) g' :
    tracks f f' -> (forall a, tracks (g a) (g' a)) -> tracks (mbind f g) (mbind f' g').
  Proof.
    intros F G s. unfold mbind. destruct (F s) as (F1 & F2 & F3). destruct (f s) as [o s1], (f' (x_m s)) as [o' m1]. cbn [fst snd] in *. subst o' m1.
    destruct o; cbn [fst snd]; auto. destruct (G a s1) as (G1 & G2 & G3). rewrite G1, G2, G3. auto.
  Qed.
  Lemma tr_step A B (f : M xstate B) (g : B -> M xstate A) g' (b : B) : (forall s, fst (f s) = Ret b /\ x_m (snd (f s)) = x_m s /\ x_leaks (snd (f s)) = x_leaks s) ->
    tracks (g b) g' -> tracks (mbind f g) g'.
  Proof.
    intros F G s. unfold mbind. destruct (F s) as (F1 & F2 & F3). destruct (f s) as [o s1]. cbn [fst snd] in *. subst o.
    destruct (G s1) as (G1 & G2 & G3). rewrite F2, F3 in *. auto.
  Qed.
  Lemma asked s : ask E s = (Ret true, {| x_m := x_m s; x_leaks := x_leaks s; x_n := S (x_n s) |}).
  Proof. unfold ask. destruct W as [-> _]. reflexivity. Qed.
  Lemma needed s : need E s = (Ret tt, {| x_m := x_m s; x_leaks := x_leaks s; x_n := S (x_n s) |}).
  Proof. unfold need, mbind. rewrite asked. reflexivity. Qed.
  Lemma tr_need A (f : M xstate A) f' : tracks f f' -> tracks (need E;; f) f'.
  Proof. intro F. apply (tr_step A unit _ _ _ tt); [|exact F]. intro s. rewrite needed. auto. Qed.
  Lemma tr_ask A (f : bool -> M xstate A) f' : tracks (f true) f' -> tracks (mbind (ask E) f) f'.
  Proof. intro F. apply (tr_step A bool _ _ _ true); [|exact F]. intro s. rewrite asked. auto. Qed.
  Lemma tr_log l : tracks (xlog E l) (emit_m [EvLog l]).
  Proof.
    intro s. assert (X : xlog E l s = (Ret tt, {| x_m := upd_tr (x_m s) (m_tr (x_m s) ++ [EvLog l]); x_leaks := x_leaks s; x_n := S (S (S (x_n s))) |})).
    { unfold xlog. unfold mbind at 1. rewrite needed. unfold mbind at 1, mget at 1. unfold mbind at 1. rewrite asked.
      unfold mbind. rewrite asked. unfold on_m, emit_m, mmod, x_upd. cbn [fst snd x_m x_leaks x_upd x_n].
      replace {| lg_level := lg_level l; lg_text := lg_text l |} with l by now destruct l. reflexivity. }
    rewrite X. repeat split.
  Qed.
  Lemma tr_consider l best f : tracks (xconsider cf (from_env (cf_ndebug cf)) E l best f) (consider cf l best f).
  Proof.
    unfold xconsider, consider. destruct (has_suffix f dot_po); [|apply tr_ret]. apply tr_need.
    apply tr_bind; [apply tr_lift|intro stem]. apply tr_bind; [apply tr_lift|intro po]. destruct (is_none po).
    - apply tr_bind; [apply tr_log|intros _; apply tr_ret].
    - cbv zeta. destruct (_ <? _)%Z; [|apply tr_ret]. apply tr_need, tr_ret.
  Qed.
  Lemma tr_best l files : forall best, tracks (xbest_file cf (from_env (cf_ndebug cf)) E l best files) (best_file cf l best files).
  Proof.
    induction files as [|f files IH]; intro best; cbn [xbest_file best_file]; [apply tr_ret|].
    apply tr_bind; [apply tr_consider|exact IH].
  Qed.
  Lemma upd_twice m a b : upd_tr (upd_tr m a) b = upd_tr m b. Proof. reflexivity. Qed.
  Lemma tr_logs a b : tracks (xlog E a;; xlog E b) (fun m => (Ret tt, upd_tr m (m_tr m ++ [EvLog a; EvLog b]))).
  Proof.
    assert (T : tracks (xlog E a;; xlog E b) (emit_m [EvLog a];; emit_m [EvLog b])) by (apply tr_bind; [apply tr_log|intros _; apply tr_log]).
    intro s. destruct (T s) as (T1 & T2 & T3). rewrite T1, T2, T3. cbn [fst snd]. unfold mbind, emit_m, mmod. cbn [fst snd upd_tr m_tr].
    rewrite upd_twice, <- app_assoc. auto.
  Qed.
  Lemma tr_file id f : tracks (xfile fs E id f) (load_file cf fs id f).
  Proof.
    intro s.
    enough (X : forall r, xfile fs E id f s = r -> fst r = fst (load_file cf fs id f (x_m s)) /\
       x_m (snd r) = snd (load_file cf fs id f (x_m s)) /\ x_leaks (snd r) = x_leaks s) by now apply X.
    intros r R. unfold xfile in R. unfold mbind at 1 in R. rewrite needed in R. unfold mbind at 1, mlift in R. unfold load_file.
    set (s1 := {| x_m := x_m s; x_leaks := x_leaks s; x_n := S (x_n s) |}).
    assert (F : forall e t, 
      let r := (xlog E (log_error (bs "error: failure parsing: " ++ f));; xlog E (log_error (what e))) t in
      fst r = Ret tt /\ x_m (snd r) = upd_tr (x_m t) (m_tr (x_m t) ++ [EvLog (log_error (bs "error: failure parsing: " ++ f)); EvLog (log_error (what e))]) /\
      x_leaks (snd r) = x_leaks t).
    { intros e t. destruct (tr_logs (log_error (bs "error: failure parsing: " ++ f)) (log_error (what e)) t) as (T1 & T2 & T3). auto. }
    fold s1 in R.
    destruct (fs_file fs f) as [[i|]|e|u| |]; try (subst r; cbn [fst snd]; now repeat split).
    - unfold xparse in R. change (x_m s1) with (x_m s) in R. destruct (heap_get (m_heap (x_m s)) id) as [d|]; [|subst r; cbn [fst snd]; now repeat split].
      destruct W as [_ Wp]. destruct (Wp (x_n s1) f i d) as (P1 & P2 & P3). rewrite P1, P2, P3 in R.
      destruct (pr_outcome (po_parse cf f i d)) as [[]|e|u| |]; try (subst r; cbn [fst snd]; now repeat split).
      destruct (is_std e); [|subst r; cbn [fst snd]; now repeat split].
      match type of R with (_ ;; _) ?t = _ => destruct (F e t) as (F1 & F2 & F3) end. rewrite R in F1, F2, F3.
      rewrite F1, F2, F3. now repeat split.
    - destruct (tr_log (log_error (bs "error: failure opening: " ++ f)) s1) as (T1 & T2 & T3).
      destruct (xlog E (log_error (bs "error: failure opening: " ++ f)) s1) as [o s2]. cbn [fst snd] in *. subst o. subst r.
      cbn [emit_m mmod fst snd]. rewrite T2, T3. now repeat split.
    - destruct (is_std e); [|subst r; cbn [fst snd]; now repeat split]. destruct (F e s1) as (F1 & F2 & F3). rewrite R in F1, F2, F3. rewrite F1, F2, F3. now repeat split.
  Qed.
  Lemma tr_dirs l id ps : tracks (xdirs cf (from_env (cf_ndebug cf)) fs E l id ps) (load_dirs cf fs l id ps).
  Proof.
    induction ps as [|p ps IH]; cbn [xdirs load_dirs]; [apply tr_ret|]. apply tr_bind; [|intros _; exact IH].
    unfold xdir, load_dir. apply tr_need. apply tr_bind; [apply tr_lift|intro files]. apply tr_bind; [apply tr_best|intro best].
    destruct (is_nil _); [apply tr_ret|]. apply tr_need, tr_file.
  Qed.
  Lemma tr_get n : forall l, tracks (xget_lang cf (from_env (cf_ndebug cf)) (fun la => from_spec (cf_ndebug cf) la [] []) fs E n l) (get_dictionary_lang cf fs n l).
  Proof.
    induction n as [|n IH]; intro l; cbn [xget_lang get_dictionary_lang]; [apply tr_fail|].
    destruct (_ && _)%bool; [apply tr_fail|]. apply tr_bind; [apply tr_on|intro c]. destruct (cache_find l c); [apply tr_ret|].
    apply tr_need. apply tr_bind; [apply tr_on|intro id]. apply tr_bind; [unfold xinsert; apply tr_ask, tr_on|intros _].
    apply tr_bind; [apply tr_on|intro path]. apply tr_bind; [apply tr_dirs|intros _]. apply tr_need.
    destruct (is_nil _); [apply tr_ret|]. apply tr_bind; [apply tr_lift|intro base].
    apply tr_bind; [apply IH|intro fb]. apply tr_bind; [apply tr_on|intros _; apply tr_ret].
  Qed.
  Lemma tr_ext A (f : M xstate A) g g' : tracks f g -> (forall m, g m = g' m) -> tracks f g'.
  Proof. intros F G s. rewrite <- G. apply F. Qed.
  Lemma obind_lift {S A B} (o : outcome A) (f : A -> outcome B) (s : S) : mlift (obind o f) s = mbind (mlift o) (fun a => mlift (f a)) s.
  Proof. unfold mbind, mlift. now destruct o. Qed.
  Lemma tr_langs_files files : forall acc, tracks (xlangs_files (from_env (cf_ndebug cf)) E files acc) (mlift (langs_of_files cf files acc)).
  Proof.
    induction files as [|f files IH]; intro acc; cbn [xlangs_files langs_of_files]; [apply tr_ret|].
    destruct (has_suffix f dot_po); [|apply IH]. apply tr_need. destruct (substr _ _ _) as [st|]; [|exact (tr_fail _ (Exn ExOutOfRange))].
    eapply tr_ext; [|intro; symmetry; apply obind_lift]. apply tr_bind; [apply tr_lift|]. intro. apply IH.
  Qed.
  Lemma tr_langs_dirs ps : forall acc, tracks (xlangs_dirs (from_env (cf_ndebug cf)) fs E ps acc) (mlift (langs_of_dirs cf fs ps acc)).
  Proof.
    induction ps as [|p ps IH]; intro acc; cbn [xlangs_dirs langs_of_dirs]; [apply tr_ret|]. apply tr_need.
    eapply tr_ext; [|intro; symmetry; apply obind_lift]. apply tr_bind; [apply tr_lift|]. intro files.
    eapply tr_ext; [|intro; symmetry; apply obind_lift]. apply tr_bind; [apply tr_langs_files|]. intro. apply IH.
  Qed.
  Lemma tr_call op : tracks (xcall cf fs E op) (mstep cf fs op).
  Proof.
    assert (Mm : forall A B (h : A -> B) f g, tracks f g -> tracks (mmap h f) (mmap h g)).
    { intros A B h f g T. apply tr_bind; [exact T|intro; apply tr_ret]. }
    destruct op as [l|c|b|p pr|p| |l| | |]; unfold xcall; cbn [xstep mstep]; try apply tr_on; apply Mm.
    - unfold xset_charset, set_charset. apply tr_bind; [apply tr_on|intros _]. apply tr_need, tr_on.
    - unfold xadd_directory, add_directory. apply tr_bind; [apply tr_on|intro path]. destruct (existsb _ _); [apply tr_ret|].
      apply tr_bind; [apply tr_on|intros _]. apply tr_need, tr_on.
    - unfold xget, get_dictionary. apply tr_bind; [apply tr_on|intros [p|]]; [apply tr_ret|].
      apply tr_bind; [apply tr_on|intro l]. destruct (is_none l); [apply tr_ret|].
      apply tr_bind; [apply tr_get|intro p]. apply tr_bind; [apply tr_on|intros _; apply tr_ret].
    - apply tr_get.
    - unfold get_languages. apply tr_bind; [apply tr_on|intro path]. apply tr_langs_dirs.
  Qed.
End Tracks.

(** ** histories *)
Definition any_ub : ub -> Prop := fun _ => True.
Lemma any_good A (o : outcome A) : good any_ub o. Proof. now destruct o. Qed.
Lemma step_free cf fs E op s : own (cf_ndebug cf) (x_m s) -> client_op op ->
  stepped cf any_ub op s (fst (xcall cf fs E op s)) (snd (xcall cf fs E op s)).
Proof. intros. apply step_any; auto; try (intros; apply any_good). exact (fun _ => I). Qed.
Lemma xrun_own cf ops : forall s, xvalid ops -> own (cf_ndebug cf) (x_m s) ->
  own (cf_ndebug cf) (x_m (xrun cf ops s)) /\ x_leaks (xrun cf ops s) <= x_leaks s + failures cf ops s.
Proof.
  induction ops as [|[[fs E] op] ops IH]; intros s V O; [cbn; split; [exact O|lia]|].
  inversion V as [|? ? C V']; subst. cbn [snd] in C. destruct (step_free cf fs E op s O C) as [O1 L1 _ _ _].
  change (xrun cf ((fs, E, op) :: ops) s) with (xrun cf ops (snd (xcall cf fs E op s))). cbn [failures].
  destruct (IH _ V' O1) as [O2 L2]. split; [exact O2|]. destruct L1 as [L1|[L0 L1]].
  - lia.
  - rewrite L0. rewrite L1 in L2. unfold bad_alloc. change (bytes_eqb (bs "std::bad_alloc") (bs "std::bad_alloc")) with true. cbv iota. lia.
Qed.
Lemma xrun_survives cf ops : forall s, xvalid ops -> Forall (fun o => keeps (snd o)) ops -> own (cf_ndebug cf) (x_m s) ->
  survives (x_m s) (x_m (xrun cf ops s)).
Proof.
  induction ops as [|[[fs E] op] ops IH]; intros s V K O; [apply survives_refl|].
  inversion V as [|? ? C V']; inversion K as [|? ? C' K']; subst. cbn [snd] in *. destruct (step_free cf fs E op s O C) as [O1 _ _ _ S1].
  eapply survives_trans; [now apply S1|]. now apply IH.
Qed.

(** ** when only the parser (or opening a file) fails *)
Section Rets.
  Variable cf : config.
  Variable fs : file_system.
  Variable E : env.
  Hypothesis E_ok : forall n, e_ok E n = true.
  Hypothesis cf_ok : cf_strict cf = false.
  Hypothesis dir_ok : forall p, exists files, fs_dir fs p = Ret files.
  Hypothesis file_ok : forall p, match fs_file fs p with Ret _ => True | Exn e => e <> ExPo | _ => False end.
  Hypothesis parse_ok : forall n f i d, match fst (fst (e_parse E n f i d)) with Ret _ => True | Exn e => e <> ExPo | _ => False end.
  Local Notation le := (from_env (cf_ndebug cf)).

  Definition rets {A} (id : ptr) (f : M xstate A) : Prop :=
    puts any_ub id f /\ forall s d, heap_get (m_heap (x_m s)) id = Some d -> exists a, fst (f s) = Ret a.
  Lemma rets_ret A id (a : A) : rets id (mret a).
  Proof. split; [apply puts_ret|]. intros s d _. exists a. reflexivity. Qed.
  Lemma rets_bind A B id (f : M xstate A) (g : A -> M xstate B) : rets id f -> (forall a, rets id (g a)) -> rets id (mbind f g).
  Proof.
    intros [F1 F2] G. split; [apply puts_bind; [exact F1|intro a; apply G]|]. intros s d H.
    destruct (F1 s d H) as (d1 & t1 & n1 & Q & _ & _). destruct (F2 s d H) as [a Ha]. unfold mbind.
    destruct (f s) as [o s1]. cbn [fst snd] in *. subst o s1. eapply (proj2 (G a)). cbn [x_of x_m]. apply put_get.
  Qed.
  Lemma rets_lift A id (a : A) o : o = Ret a -> rets id (mlift o).
  Proof. intros ->. apply rets_ret. Qed.
  Lemma rets_ask id : rets id (ask E).
  Proof. split; [apply puts_ask|]. intros s d _. exists (e_ok E (x_n s)). reflexivity. Qed.
  Lemma rets_need id : rets id (need E).
  Proof.
    split; [apply puts_need|]. intros s d _. exists tt. unfold need, mbind, ask. now rewrite E_ok.
  Qed.
  Lemma rets_log id l : rets id (xlog E l).
  Proof.
    split; [apply puts_log|]. intros s d _. exists tt. unfold xlog, need, mbind, ask, mget. rewrite E_ok. unfold mret. cbn [x_n]. now rewrite !E_ok.
  Qed.
  Lemma rets_consider l best f id : rets id (xconsider cf le E l best f).
  Proof.
    unfold xconsider. destruct (has_suffix f dot_po) eqn:S; [|apply rets_ret].
    apply rets_bind; [apply rets_need|intros _].
    assert (C : exists stem, convertFilename2Language (cf_strict cf) f = Ret stem).
    { pose proof (pconvert_total cf f S) as T. destruct (convertFilename2Language _ _) as [stem|?|?| |]; try contradiction; [eauto|].
      destruct T as [_ T]. congruence. }
    destruct C as [stem C]. apply rets_bind; [exact (rets_lift _ _ stem _ C)|intro st].
    destruct (from_env_total (cf_ndebug cf) st) as [po P]. apply rets_bind; [exact (rets_lift _ _ po _ P)|intro po'].
    destruct (is_none po').
    - apply rets_bind; [apply rets_log|intros _; apply rets_ret].
    - cbv zeta. destruct (_ <? _)%Z; [|apply rets_ret]. apply rets_bind; [apply rets_need|intros _; apply rets_ret].
  Qed.
  Lemma rets_best l id files : forall best, rets id (xbest_file cf le E l best files).
  Proof.
    induction files as [|f files IH]; intro best; cbn [xbest_file]; [apply rets_ret|].
    apply rets_bind; [apply rets_consider|exact IH].
  Qed.
  Lemma rets_file id f : rets id (xfile fs E id f).
  Proof.
    split; [apply puts_file; intros; apply any_good|]. intros s d H.
    enough (X : forall r, xfile fs E id f s = r -> exists a, fst r = Ret a) by now apply X.
    intros r R. unfold xfile in R. unfold mbind at 1, need, mbind at 1, ask in R. rewrite E_ok in R. unfold mret at 1 in R.
    unfold mbind at 1, mlift in R. set (s1 := {| x_m := x_m s; x_leaks := x_leaks s; x_n := S (x_n s) |}) in R.
    assert (F : forall e t, exists a, fst ((xlog E (log_error (bs "error: failure parsing: " ++ f));; xlog E (log_error (what e))) t) = Ret a).
    { intros e t. exists tt. unfold mbind, xlog, need, mbind, ask, mget, on_m, emit_m, mmod, mret. rewrite !E_ok. reflexivity. }
    assert (St : forall e, e <> ExPo -> is_std e = true) by (intros [| | |] Z; [now destruct Z|reflexivity..]).
    pose proof (file_ok f) as Q. destruct (fs_file fs f) as [[i|]|e|u| |]; try contradiction.
    - unfold xparse in R. change (x_m s1) with (x_m s) in R. rewrite H in R. pose proof (parse_ok (x_n s1) f i d) as Qp.
      destruct (fst (fst (e_parse E (x_n s1) f i d))) as [a|e|u| |]; try contradiction; [subst r; exists a; reflexivity|].
      rewrite (St e Qp) in R. subst r. apply F.
    - destruct (proj2 (rets_log id (log_error (bs "error: failure opening: " ++ f))) s1 d H) as [a Ha].
      destruct (xlog E _ s1) as [o s2]. cbn [fst] in Ha. subst o r. exists a. reflexivity.
    - rewrite (St e Q) in R. subst r. apply F.
  Qed.
  Lemma rets_dirs l id ps : rets id (xdirs cf le fs E l id ps).
  Proof.
    induction ps as [|p ps IH]; cbn [xdirs]; [apply rets_ret|]. apply rets_bind; [|intros _; exact IH].
    unfold xdir. apply rets_bind; [apply rets_need|intros _]. destruct (dir_ok p) as [files D].
    apply rets_bind; [exact (rets_lift _ _ files _ D)|intro fl]. apply rets_bind; [apply rets_best|intro best].
    destruct (is_nil _); [apply rets_ret|]. apply rets_bind; [apply rets_need|intros _; apply rets_file].
  Qed.
  Lemma front_rets l s : exists id, fst (front cf le fs E l s) = Ret id.
  Proof.
    unfold front. unfold mbind at 1, need at 1, ask at 1, mbind at 1. rewrite E_ok.
    unfold mret at 1. unfold mbind at 1, on_m at 1, mget at 1. cbn [x_m].
    unfold mbind at 1, xinsert at 1, mbind at 1, ask at 1. cbn [x_upd x_m x_leaks x_n]. rewrite E_ok.
    unfold on_m at 1, mmod at 1. cbn [x_m]. cbv beta iota. unfold mbind at 1, on_m at 1, mget at 1. cbn [x_upd x_m x_leaks x_n].
    assert (G : rets (m_next (x_m s)) (xdirs cf le fs E l (m_next (x_m s)) (rev (m_path (alloc (x_m s) l)));; need E;; mret (m_next (x_m s)))).
    { apply rets_bind; [apply rets_dirs|intros _]. apply rets_bind; [apply rets_need|intros _; apply rets_ret]. }
    eapply (proj2 G). cbn [x_m]. apply alloc_get.
  Qed.
  Lemma leaf_rets n l s : (negb (cf_ndebug cf) && is_none l)%bool = false -> get_country l = [] ->
    exists p, fst (xget_lang cf le (fun la => from_spec (cf_ndebug cf) la [] []) fs E (S n) l s) = Ret p.
  Proof.
    intros A C. destruct (cache_find l (m_cache (x_m s))) as [p|] eqn:F.
    - exists p. cbn [xget_lang]. rewrite A. unfold mbind, on_m, mget, mret. now rewrite F.
    - rewrite (xget_S cf le (fun la => from_spec (cf_ndebug cf) la [] []) fs E n l s A F). unfold mbind.
      destruct (front_rets l s) as [id H]. destruct (front cf le fs E l s) as [o s1]. cbn [fst] in H. subst o.
      unfold tail. rewrite C. cbn [is_nil]. exists id. reflexivity.
  Qed.
  Lemma xload_rets l s : own (cf_ndebug cf) (x_m s) -> known l -> l <> None -> exists p, fst (xload cf fs E l s) = Ret p.
  Proof.
    intros O K N.
    assert (A : (negb (cf_ndebug cf) && is_none l)%bool = false) by (destruct l; [apply andb_false_r|congruence]).
    unfold xload, depth0. destruct (is_nil_spec _ (get_country l)) as [C|C]; [now apply leaf_rets|].
    destruct (cache_find l (m_cache (x_m s))) as [p|] eqn:F.
    { exists p. cbn [xget_lang]. rewrite A. unfold mbind, on_m, mget, mret. now rewrite F. }
    rewrite (xget_S cf le (fun la => from_spec (cf_ndebug cf) la [] []) fs E 1 l s A F). unfold mbind at 1.
    destruct (front_rets l s) as [id H].
    assert (Fc : front_result any_ub l s (front cf le fs E l s)).
    { apply front_cases; intros; try apply any_good. exact I. }
    destruct Fc as [n' k K1 K2|o d t n' Kd G Hid]; cbn [fst] in H; [discriminate|]. subst o. rewrite (Hid id eq_refl).
    set (s1 := x_of s (put (alloc (x_m s) l) (m_next (x_m s)) d t) n').
    assert (O1 : own (cf_ndebug cf) (x_m s1)) by now apply alloc_put_own.
    assert (D1 : heap_get (m_heap (x_m s1)) (m_next (x_m s)) = Some d) by apply put_get.
    assert (N1 : m_next (x_m s1) = S (m_next (x_m s))) by reflexivity. clearbody s1.
    unfold tail. destruct (is_nil_spec _ (get_country l)) as [C'|_]; [contradiction|].
    destruct (base_of (cf_ndebug cf) l K C) as (b & Eb & Kb & Cb & _). unfold mbind at 1, mlift. rewrite Eb.
    assert (Gb : got cf any_ub (Some b) s1 (fst (xget_lang cf le (fun la => from_spec (cf_ndebug cf) la [] []) fs E 1 (Some b) s1))
                   (snd (xget_lang cf le (fun la => from_spec (cf_ndebug cf) la [] []) fs E 1 (Some b) s1))).
    { apply (got_leaf cf le fs E any_ub); auto; intros; try apply any_good. }
    destruct (leaf_rets 0 (Some b) s1 (andb_false_r _) Cb) as [q Hq].
    unfold mbind at 1. set (r := xget_lang _ _ _ _ _ _ _ s1) in *. destruct r as [ob s2]. cbn [fst snd] in *. subst ob.
    destruct Gb as [_ Gg _ _ _ _]. 
    unfold mbind, on_m, set_fallback. rewrite (gr_heap _ _ Gg) by lia. rewrite D1. unfold mret. cbn [fst]. eauto.
  Qed.
End Rets.
