(** Property C94: a DictionaryManager during whose calls memory, the file system or the parser
    may fail at any point. *)
From Coq Require Import Permutation.
From Verif.Model Require Import Base Log PluralForms Dictionary Memory IConv Language Stream PoParser Manager Tables Exhaustion.
From Verif.Spec Require Import DictSpec LangSpec IConvSpec ParserSpec ManagerSpec ExhaustionSpec.
From Verif.Proofs Require Import BaseFacts DictProofs LangProofs ParserSafe ManagerLoad ManagerOwn ManagerGet ManagerStep ManagerContent
  ManagerSafe ExhaustionProofs ExhaustionRun.
From Verif.Properties Require Import Parser Manager.
Local Open Scope list_scope.
Local Opaque from_spec languages from_env.

Lemma xlife cf cs ops : xvalid ops ->
  own (cf_ndebug cf) (x_m (xrun cf ops (xnew cs))) /\ x_leaks (xrun cf ops (xnew cs)) <= failures cf ops (xnew cs).
Proof. intro V. exact (xrun_own cf ops (xnew cs) V (own_new cf cs)). Qed.

(** C94. Whatever failed so far, each dictionary the manager holds is live or has been deleted,
    exactly once and not both; the current dictionary and all fallbacks are live; and no more
    dictionaries have been lost for ever than calls have thrown std::bad_alloc. *)
Theorem C94_ownership :
  forall (cf : config) (cs : bytes) (ops : list (file_system * env * mop)),
  xvalid ops ->
  let s := xrun cf ops (xnew cs) in
  let m := x_m s in
  Permutation (List.map fst (m_heap m) ++ m_freed m) (seq 0 (m_next m)) /\
  (forall p, m_cur m = Some p -> heap_get (m_heap m) p <> None) /\
  (forall p d, heap_get (m_heap m) p = Some d -> d_has_fallback d = true ->
     exists q, d_fallback d = Some q /\ heap_get (m_heap m) q <> None) /\
  x_leaks s <= failures cf ops (xnew cs).
Proof.
  intros cf cs ops V s m. destruct (xlife cf cs ops V) as [O L]. fold s in O, L. fold m in O. split; [|split; [|split; [|exact L]]].
  - eapply Permutation_trans; [|exact (own_perm _ _ O)]. apply Permutation_app_tail. exact (own_heap _ _ O).
  - intros p H. destruct (own_cur _ _ O p H) as [_ F]. destruct (own_found cf m _ p O F) as [d ->]. discriminate.
  - intros p d H B. assert (Lp : In p (List.map snd (m_cache m))).
    { apply (own_live cf m p O). now rewrite H. }
    apply in_map_iff in Lp as ((l & p') & E & I). cbn in E. subst p'.
    destruct (own_fb _ _ O l p d I H B) as (_ & b & q & _ & F & ->). exists q. split; [reflexivity|].
    destruct (own_found cf m _ q O F) as [e ->]. discriminate.
Qed.

(** A reference handed out is live. *)
Theorem C94_returned_references_are_live :
  forall (cf : config) (cs : bytes) (ops : list (file_system * env * mop)) (fs : file_system) (E : env) (op : mop) (r : dict_ref) (s' : xstate),
  xvalid ops -> client_op op ->
  xcall cf fs E op (xrun cf ops (xnew cs)) = (Ret (OutRef r), s') ->
  deref (x_m s') r <> None.
Proof.
  intros cf cs ops fs E op r s' V C X. destruct (xlife cf cs ops V) as [O _].
  pose proof (step_free cf fs E op _ O C) as T. rewrite X in T. cbn [fst snd] in T. destruct T as [O1 _ R _ _].
  destruct r as [|p]; [discriminate|]. destruct (R p eq_refl) as [l F]. cbn [deref].
  destruct (own_found cf _ l p O1 F) as [d ->]. discriminate.
Qed.

(** Destroying the manager at any time deletes all it holds, each dictionary once. *)
Theorem C94_destructor :
  forall (cf : config) (cs : bytes) (ops : list (file_system * env * mop)),
  xvalid ops ->
  let m := x_m (xrun cf ops (xnew cs)) in
  exists m', destroy_manager m = (Ret tt, m') /\ m_heap m' = [] /\ Permutation (m_freed m') (seq 0 (m_next m)) /\
    m_next m' = m_next m.
Proof.
  intros cf cs ops V m. destruct (xlife cf cs ops V) as [O _]. fold m in O.
  destruct (delete_all_ok (m_cache m) m (own_ptrs cf m O) (own_heap _ _ O)) as (m' & E & H & F & N & _).
  exists m'. split; [unfold destroy_manager, mbind, mget; exact E|]. split; [exact H|]. split; [|exact N].
  rewrite F. eapply Permutation_trans; [apply Permutation_app_comm|exact (own_perm _ _ O)].
Qed.

(** No call touches a dead dictionary or deletes one twice. *)
Theorem C94_no_memory_error :
  forall (cf : config) (cs : bytes) (ops : list (file_system * env * mop)) (fs : file_system) (E : env) (op : mop) (u : ub),
  xvalid ops -> client_op op -> decent cf fs E ->
  fst (xcall cf fs E op (xrun cf ops (xnew cs))) = Ub u -> u = UbCtype /\ cf_strict cf = true.
Proof.
  intros cf cs ops fs E op u V C [Wf Wp] X. destruct (xlife cf cs ops V) as [O _].
  set (P := fun u => u = UbCtype /\ cf_strict cf = true).
  assert (T : stepped cf P op (xrun cf ops (xnew cs)) (fst (xcall cf fs E op (xrun cf ops (xnew cs)))) (snd (xcall cf fs E op (xrun cf ops (xnew cs))))).
  { apply step_any; auto.
    - intro H. split; auto.
    - intro p. destruct (Wf p) as [W _]. unfold good. now destruct (fs_dir fs p).
    - intro p. destruct (Wf p) as [_ W]. unfold good. now destruct (fs_file fs p).
    - intros n f i d. unfold good. destruct (fst (fst (e_parse E n f i d))) eqn:Q; auto. exact (Wp n f i d _ Q). }
  destruct T as [_ _ _ G _]. rewrite X in G. exact G.
Qed.

(** When nothing fails, this is the manager of the other properties. *)
Theorem C94_nothing_fails :
  forall (cf : config) (fs : file_system) (E : env) (op : mop) (s : xstate),
  all_well cf E ->
  fst (xcall cf fs E op s) = fst (mstep cf fs op (x_m s)) /\
  x_m (snd (xcall cf fs E op s)) = snd (mstep cf fs op (x_m s)) /\
  x_leaks (snd (xcall cf fs E op s)) = x_leaks s.
Proof. intros cf fs E op s W. exact (tr_call cf fs E W op s). Qed.

(** Dictionaries that have been loaded are not affected by what fails later. *)
Theorem C94_loaded_dictionaries_survive :
  forall (cf : config) (cs : bytes) (ops later : list (file_system * env * mop)) (p : ptr) (d : dictionary),
  xvalid ops -> xvalid later -> Forall (fun o => keeps (snd o)) later ->
  heap_get (m_heap (x_m (xrun cf ops (xnew cs)))) p = Some d ->
  heap_get (m_heap (x_m (xrun cf later (xrun cf ops (xnew cs))))) p = Some d.
Proof.
  intros cf cs ops later p d V V2 K H. destruct (xlife cf cs ops V) as [O _].
  pose proof (xrun_survives cf later _ V2 K O) as [_ S _]. rewrite S; [exact H|].
  eapply own_lt; [exact O|]. apply (own_live cf); [exact O|]. congruence.
Qed.

(** What [xcall] does for get_dictionary(l) *)
Lemma xcall_lang cf fs E l s : xcall cf fs E (OpGetDictionaryLang l) s =
  (omap (fun p => OutRef (RefHeap p)) (fst (xload cf fs E l s)), snd (xload cf fs E l s)).
Proof.
  unfold xcall, xstep, mmap, mbind. fold (xload cf fs E l). destruct (xload cf fs E l s) as [[p|e|u| |] s1]; reflexivity.
Qed.
Lemma xload_cached cf fs E l p s : (negb (cf_ndebug cf) && is_none l)%bool = false -> cache_find l (m_cache (x_m s)) = Some p ->
  xload cf fs E l s = (Ret p, s).
Proof.
  intros A F. unfold xload, depth0. cbn [xget_lang]. rewrite A. unfold mbind, on_m, mget, mret. rewrite F. now destruct s.
Qed.

(** A get_dictionary(language) that throws has had no effect, or has left behind a dictionary
    without fallback, which every later get_dictionary(language) then returns without looking
    at any file, until a setting changes. *)
Theorem C94_failed_load :
  forall (cf : config) (cs : bytes) (ops : list (file_system * env * mop)) (fs : file_system) (E : env) (l : language) (e : exn) (s' : xstate),
  xvalid ops -> known l ->
  let s := xrun cf ops (xnew cs) in
  xcall cf fs E (OpGetDictionaryLang l) s = (Exn e, s') ->
  x_m s' = x_m s \/
  exists p d,
    heap_get (m_heap (x_m s)) p = None /\ heap_get (m_heap (x_m s')) p = Some d /\ d_has_fallback d = false /\
    forall (later : list (file_system * env * mop)) (fs2 : file_system) (E2 : env),
    xvalid later -> Forall (fun o => keeps (snd o)) later ->
    let s2 := xrun cf later s' in
    xcall cf fs2 E2 (OpGetDictionaryLang l) s2 = (Ret (OutRef (RefHeap p)), s2) /\
    heap_get (m_heap (x_m s2)) p = Some d.
Proof.
  intros cf cs ops fs E l e s' V K s X. destruct (xlife cf cs ops V) as [O _]. fold s in O. clearbody s.
  assert (A : (negb (cf_ndebug cf) && is_none l)%bool = false).
  { destruct (_ && _)%bool eqn:A; [|reflexivity]. exfalso. rewrite xcall_lang in X. unfold xload, depth0 in X. cbn [xget_lang] in X. rewrite A in X. discriminate. }
  assert (G : got cf any_ub l s (fst (xload cf fs E l s)) (snd (xload cf fs E l s))).
  { apply got_any; auto; try (intros; apply any_good). exact (fun _ => I). }
  rewrite xcall_lang in X. destruct (xload cf fs E l s) as [o s1]. cbn [fst snd] in *.
  assert (o = Exn e) as -> by (destruct o; cbn [omap] in X; congruence). injection X as <-.
  destruct G as [Go _ _ _ _ Gk]. destruct (Gk e eq_refl) as [H|(p & d & Hp & F & Hd & B)]; [now left|]. right. exists p, d.
  split.
  { destruct (heap_get (m_heap (x_m s)) p) eqn:Q; [|reflexivity]. exfalso.
    assert (p < m_next (x_m s)) by (eapply own_lt; [exact O|]; apply (own_live cf); [exact O|congruence]). lia. }
  split; [exact Hd|]. split; [exact B|]. intros later fs2 E2 V2 K2. cbv zeta. set (s2 := xrun cf later s1).
  pose proof (xrun_survives cf later s1 V2 K2 Go) as S. fold s2 in S.
  assert (F2 : cache_find l (m_cache (x_m s2)) = Some p) by (eapply survives_find; eauto).
  split.
  - rewrite xcall_lang. rewrite (xload_cached cf fs2 E2 l p s2 A F2). reflexivity.
  - destruct S as [_ Sh _]. rewrite Sh; [exact Hd|]. eapply own_lt; [exact Go|]. apply (own_live cf); [exact Go|congruence].
Qed.

(** That happens: for every language not loaded yet there is a moment at which memory can run
    out such that the language then has the empty dictionary; and another one such that a
    dictionary is lost for ever. *)
Theorem C94_a_translation_is_lost :
  forall (cf : config) (cs : bytes) (ops : list (file_system * env * mop)) (fs : file_system) (l : language),
  xvalid ops -> known l -> l <> None ->
  let s := xrun cf ops (xnew cs) in
  cache_find l (m_cache (x_m s)) = None ->
  exists E s' p,
    xcall cf fs E (OpGetDictionaryLang l) s = (Exn bad_alloc, s') /\
    heap_get (m_heap (x_m s')) p = Some (new_dictionary (m_charset (x_m s))) /\
    forall fs2 E2, xcall cf fs2 E2 (OpGetDictionaryLang l) s' = (Ret (OutRef (RefHeap p)), s').
Proof.
  intros cf cs ops fs l V K N s F. clearbody s.
  assert (A : (negb (cf_ndebug cf) && is_none l)%bool = false) by (destruct l; [apply andb_false_r|congruence]).
  set (E := {| e_ok := fun n => n <? S (S (x_n s)); e_cut := fun _ => 0; e_parse := fun _ _ _ _ => (Ret tt, [], []) |}).
  set (s' := {| x_m := alloc (x_m s) l; x_leaks := x_leaks s; x_n := S (S (S (x_n s))) |}).
  assert (Full : need E {| x_m := alloc (x_m s) l; x_leaks := x_leaks s; x_n := S (S (x_n s)) |} = (Exn bad_alloc, s')).
  { unfold need, mbind, ask. cbn [x_n]. replace (e_ok E (S (S (x_n s)))) with false; [reflexivity|].
    unfold E. cbn [e_ok]. symmetry. apply Nat.ltb_irrefl. }
  assert (X : xload cf fs E l s = (Exn bad_alloc, s')).
  { unfold xload, depth0. rewrite (xget_S cf (from_env (cf_ndebug cf)) (fun la => from_spec (cf_ndebug cf) la [] []) fs E 1 l s A F). unfold mbind at 1, front.
    unfold mbind at 1, need at 1, ask at 1, mbind at 1. replace (e_ok E (x_n s)) with true.
    2:{ unfold E. cbn [e_ok]. symmetry. apply Nat.ltb_lt. lia. }
    unfold mret at 1. unfold mbind at 1, on_m at 1, mget at 1. cbn [x_m].
    unfold mbind at 1, xinsert at 1, mbind at 1, ask at 1. cbn [x_upd x_m x_leaks x_n]. replace (e_ok E (S (x_n s))) with true.
    2:{ unfold E. cbn [e_ok]. symmetry. apply Nat.ltb_lt. lia. }
    unfold on_m at 1, mmod at 1. cbn [x_m]. cbv beta iota. unfold mbind at 1, on_m at 1, mget at 1. cbn [x_upd x_m x_leaks x_n].
    match goal with |- context[rev ?q] => destruct (rev q) as [|p ps] end; cbn [xdirs].
    - unfold mbind, mret. change {| x_m := alloc (x_m s) l; x_leaks := x_leaks s; x_n := S (S (x_n s)) |} with {| x_m := alloc (x_m s) l; x_leaks := x_leaks s; x_n := S (S (x_n s)) |} in Full.
      unfold x_upd. cbn [x_m x_leaks x_n]. rewrite Full. reflexivity.
    - unfold xdir, mbind. unfold x_upd. cbn [x_m x_leaks x_n]. rewrite Full. reflexivity. }
  exists E, s', (m_next (x_m s)). split; [rewrite xcall_lang, X; reflexivity|]. split; [apply alloc_get|].
  intros fs2 E2. rewrite xcall_lang. rewrite (xload_cached cf fs2 E2 l (m_next (x_m s)) s' A); [reflexivity|].
  cbn. rewrite cache_find_app_none by exact F. cbn [cache_find]. now rewrite lang_eqb_refl.
Qed.
Theorem C94_a_dictionary_is_leaked :
  forall (cf : config) (cs : bytes) (ops : list (file_system * env * mop)) (fs : file_system) (l : language),
  xvalid ops -> known l -> l <> None ->
  let s := xrun cf ops (xnew cs) in
  cache_find l (m_cache (x_m s)) = None ->
  exists E s',
    xcall cf fs E (OpGetDictionaryLang l) s = (Exn bad_alloc, s') /\ x_m s' = x_m s /\ x_leaks s' = S (x_leaks s).
Proof.
  intros cf cs ops fs l V K N s F. clearbody s.
  assert (A : (negb (cf_ndebug cf) && is_none l)%bool = false) by (destruct l; [apply andb_false_r|congruence]).
  set (E := {| e_ok := fun n => n <? S (x_n s); e_cut := fun _ => 0; e_parse := fun _ _ _ _ => (Ret tt, [], []) |}).
  exists E, {| x_m := x_m s; x_leaks := S (x_leaks s); x_n := S (S (x_n s)) |}. split; [|split; reflexivity].
  rewrite xcall_lang.
  assert (X : xload cf fs E l s = (Exn bad_alloc, {| x_m := x_m s; x_leaks := S (x_leaks s); x_n := S (S (x_n s)) |})).
  { unfold xload, depth0. rewrite (xget_S cf (from_env (cf_ndebug cf)) (fun la => from_spec (cf_ndebug cf) la [] []) fs E 1 l s A F). unfold mbind at 1, front.
    unfold mbind at 1, need at 1, ask at 1, mbind at 1. replace (e_ok E (x_n s)) with true.
    2:{ unfold E. cbn [e_ok]. symmetry. apply Nat.ltb_lt. lia. }
    unfold mret at 1. unfold mbind at 1, on_m at 1, mget at 1. cbn [x_m].
    unfold mbind at 1, xinsert at 1, mbind at 1, ask at 1. cbn [x_upd x_m x_leaks x_n]. replace (e_ok E (S (x_n s))) with false.
    2:{ unfold E. cbn [e_ok]. symmetry. apply Nat.ltb_irrefl. }
    reflexivity. }
  now rewrite X.
Qed.

(** And one at which the program is aborted: a warning has been written, and there is no memory to
    hand it to the application in the destructor of the log object. *)
Theorem C94_a_warning_aborts :
  forall (cf : config) (cs : bytes) (ops : list (file_system * env * mop)) (fs : file_system) (l : language)
         (path : list bytes) (dir f : bytes) (files : list bytes) (stem : bytes),
  xvalid ops -> known l -> l <> None ->
  let s := xrun cf ops (xnew cs) in
  cache_find l (m_cache (x_m s)) = None ->
  m_path (x_m s) = path ++ [dir] -> fs_dir fs dir = Ret (f :: files) -> has_suffix f (bs ".po") = true ->
  convertFilename2Language (cf_strict cf) f = Ret stem -> from_env (cf_ndebug cf) stem = Ret None ->
  exists E, fst (xcall cf fs E (OpGetDictionaryLang l) s) = AssertFail.
Proof.
  intros cf cs ops fs l path dir f files stem V K N s F Pa Di Su Cv Un. clearbody s.
  assert (A : (negb (cf_ndebug cf) && is_none l)%bool = false) by (destruct l; [apply andb_false_r|congruence]).
  set (E := {| e_ok := fun n => n <? 6 + x_n s; e_cut := fun _ => 0; e_parse := fun _ _ _ _ => (Ret tt, [], []) |}).
  exists E. rewrite xcall_lang. cbn [fst].
  assert (Ok : forall k, k < 6 -> e_ok E (k + x_n s) = true).
  { intros k Hk. unfold E. cbn [e_ok]. apply Nat.ltb_lt. lia. }
  assert (No : e_ok E (6 + x_n s) = false).
  { unfold E. cbn [e_ok]. apply Nat.ltb_irrefl. }
  assert (O0 : e_ok E (x_n s) = true) by (apply (Ok 0); lia).
  assert (O1 : e_ok E (S (x_n s)) = true) by (apply (Ok 1); lia).
  assert (O2 : e_ok E (S (S (x_n s))) = true) by (apply (Ok 2); lia).
  assert (O3 : e_ok E (S (S (S (x_n s)))) = true) by (apply (Ok 3); lia).
  assert (O4 : e_ok E (S (S (S (S (x_n s))))) = true) by (apply (Ok 4); lia).
  change (e_ok E (S (S (S (S (S (S (x_n s))))))) = false) in No.
  clearbody E.
  enough (X : fst (xload cf fs E l s) = AssertFail) by now rewrite X.
  unfold xload, depth0. rewrite (xget_S cf (from_env (cf_ndebug cf)) (fun la => from_spec (cf_ndebug cf) la [] []) fs E 1 l s A F). unfold mbind at 1, front.
  unfold mbind at 1, need at 1, ask at 1, mbind at 1. rewrite O0.
  unfold mret at 1. unfold mbind at 1, on_m at 1, mget at 1. cbn [x_m].
  unfold mbind at 1, xinsert at 1, mbind at 1, ask at 1. cbn [x_upd x_m x_leaks x_n]. rewrite O1.
  unfold on_m at 1, mmod at 1. cbn [x_m]. cbv beta iota. unfold mbind at 1, on_m at 1, mget at 1. cbn [x_upd x_m x_leaks x_n].
  change (m_path (alloc (x_m s) l)) with (m_path (x_m s)). rewrite Pa, rev_unit. cbn [xdirs].
  unfold mbind at 1. unfold mbind at 1. unfold xdir at 1.
  unfold mbind at 1, need at 1, mbind at 1, ask at 1. cbn [x_n x_upd]. rewrite O2. unfold mret at 1.
  unfold mbind at 1, mlift at 1. rewrite Di. unfold mbind at 1. cbn [xbest_file]. unfold mbind at 1. unfold xconsider at 1.
  change dot_po with (bs ".po"). rewrite Su.
  unfold mbind at 1, need at 1, mbind at 1, ask at 1. cbn [x_n x_m x_leaks]. rewrite O3. unfold mret at 1.
  unfold mbind at 1, mlift at 1. rewrite Cv. unfold mbind at 1, mlift at 1. rewrite Un. cbn [is_none].
  unfold mbind at 1, xlog at 1. unfold mbind at 1, need at 1, mbind at 1, ask at 1. cbn [x_n x_m x_leaks]. rewrite O4. unfold mret at 1.
  unfold mbind at 1, mget at 1. unfold mbind at 1, ask at 1. cbn [x_n x_m x_leaks]. unfold mbind at 1, ask at 1. cbn [x_n x_m x_leaks].
  rewrite No. reflexivity.
Qed.

(** set_charset and add_directory are not strongly exception safe: if they throw
    std::bad_alloc, all dictionaries are gone although the settings are as before. *)
Theorem C94_setters_lose_the_dictionaries :
  forall (cf : config) (cs : bytes) (ops : list (file_system * env * mop)) (fs : file_system) (E : env) (op : mop),
  xvalid ops ->
  let s := xrun cf ops (xnew cs) in
  match op with OpSetCharset _ => True | OpAddDirectory p _ => ~ In p (m_path (x_m s)) | _ => False end ->
  e_ok E (x_n s) = false ->
  exists s', xcall cf fs E op s = (Exn bad_alloc, s') /\
    (forall p, deref (x_m s') (RefHeap p) = None) /\
    m_charset (x_m s') = m_charset (x_m s) /\ m_path (x_m s') = m_path (x_m s) /\ m_lang (x_m s') = m_lang (x_m s) /\
    m_fuzzy (x_m s') = m_fuzzy (x_m s).
Proof.
  intros cf cs ops fs E op V s H B. destruct (xlife cf cs ops V) as [O _]. fold s in O. clearbody s.
  destruct (clear_ok cf (x_m s) O) as (m1 & R & (C1 & _ & _ & _ & _ & C2 & C3 & C4 & C5 & _) & O1).
  exists {| x_m := m1; x_leaks := x_leaks s; x_n := S (x_n s) |}. cbn [x_m]. split; [|cbn [deref]; rewrite C1; auto 10].
  destruct op as [l|c|b|p pr|p| |l| | |]; try contradiction; unfold xcall, xstep, mmap.
  - unfold mbind at 1, xset_charset. unfold mbind at 1, on_m at 1. rewrite R. unfold mbind, need, ask, mbind, x_upd. cbn [x_n x_m x_leaks].
    rewrite B. reflexivity.
  - unfold mbind at 1, xadd_directory. unfold mbind at 1, on_m at 1, mget at 1.
    replace (x_upd s (x_m s)) with s by now destruct s.
    destruct (existsb _ _) eqn:Ex; [apply existsb_in in Ex; contradiction|].
    unfold mbind at 1, on_m at 1. rewrite R. unfold mbind, need, ask, mbind, x_upd. cbn [x_n x_m x_leaks]. rewrite B. reflexivity.
Qed.

(** Whatever exception derived from std::exception the parser throws, std::bad_alloc included:
    get_dictionary(language) returns normally, with as much of the file as had been read. Only the log tells. *)
Theorem C94_parser_failures_are_not_reported :
  forall (cf : config) (cs : bytes) (ops : list (file_system * env * mop)) (fs : file_system) (E : env) (l : language),
  xvalid ops -> known l -> l <> None -> cf_strict cf = false ->
  (forall n, e_ok E n = true) ->
  (forall p, exists files, fs_dir fs p = Ret files) ->
  (forall p, match fs_file fs p with Ret _ => True | Exn e => e <> ExPo | _ => False end) ->
  (forall n f i d, match fst (fst (e_parse E n f i d)) with Ret _ => True | Exn e => e <> ExPo | _ => False end) ->
  exists p s', xcall cf fs E (OpGetDictionaryLang l) (xrun cf ops (xnew cs)) = (Ret (OutRef (RefHeap p)), s').
Proof.
  intros cf cs ops fs E l V K N C H1 H2 H3 H4. destruct (xlife cf cs ops V) as [O _].
  destruct (xload_rets cf fs E H1 C H2 H3 H4 l _ O K N) as [p H]. exists p. rewrite xcall_lang, H. eexists. reflexivity.
Qed.

(** If the table of languages is incomplete, Language::from_spec of the base may yield a language
    that is its own base (C93: Catalan of Valencia). A dictionary loaded for it is its own
    fallback, and translating a message it does not contain never ends. *)
Theorem C94_own_base :
  forall (cf : config) (of_env of_spec : bytes -> outcome language) (fs : file_system) (E : env) (l : language) (s s' : xstate) (p : ptr),
  get_country l <> [] -> of_spec (get_language l) = Ret l -> cache_find l (m_cache (x_m s)) = None ->
  xget_lang cf of_env of_spec fs E depth0 l s = (Ret p, s') ->
  exists d, heap_get (m_heap (x_m s')) p = Some d /\ d_has_fallback d = true /\ d_fallback d = Some p /\
  forall msgid, own_translation d msgid = None -> forall fuel, fst (translate fuel (m_heap (x_m s')) d msgid) = OutOfFuel.
Proof.
  intros cf oe os fs E l s s' p C B F X.
  assert (A : (negb (cf_ndebug cf) && is_none l)%bool = false).
  { destruct l as [x|]; [apply andb_false_r|]. exfalso. apply C. reflexivity. }
  unfold depth0 in X. rewrite (xget_S cf oe os fs E 1 l s A F) in X. unfold mbind at 1 in X.
  assert (Fc : front_result any_ub l s (front cf oe fs E l s)).
  { apply front_cases; intros; try apply any_good. exact Logic.I. }
  destruct Fc as [n' k K1 K2|o d t n' Kd G Hid]; [discriminate|]. destruct o as [id|e|u| |]; try discriminate.
  rewrite (Hid id eq_refl) in X. set (s1 := x_of s (put (alloc (x_m s) l) (m_next (x_m s)) d t) n') in X.
  assert (D1 : heap_get (m_heap (x_m s1)) (m_next (x_m s)) = Some d) by apply put_get.
  assert (F1 : cache_find l (m_cache (x_m s1)) = Some (m_next (x_m s))) by now apply alloc_put_find.
  clearbody s1. unfold tail in X. destruct (is_nil_spec _ (get_country l)) as [C'|_]; [contradiction|].
  unfold mbind at 1, mlift in X. rewrite B in X. unfold mbind at 1 in X.
  assert (Y : xget_lang cf oe os fs E 1 l s1 = (Ret (m_next (x_m s)), s1)).
  { cbn [xget_lang]. rewrite A. unfold mbind, on_m, mget, mret. rewrite F1. now destruct s1. }
  rewrite Y in X. unfold mbind, on_m, set_fallback in X. rewrite D1 in X. unfold mret in X. injection X as <- <-.
  set (d' := add_fallback d (Some (m_next (x_m s)))). exists d'. cbn [x_upd x_m upd_heap m_heap].
  assert (H : heap_get (heap_set (m_heap (x_m s1)) (m_next (x_m s)) d') (m_next (x_m s)) = Some d') by apply heap_get_set_same.
  split; [exact H|]. split; [reflexivity|]. split; [reflexivity|]. intros msgid N.
  refine (translate_cycle _ d' [] d' [d'] msgid (path_nil _ _) _ _ _); [|discriminate|intros x [<-|[]]; exact N].
  eapply path_cons; [|apply path_nil]. split; [reflexivity|]. exists (m_next (x_m s)). split; [reflexivity|exact H].
Qed.

Lemma short_well cf : all_well cf (short cf (fun _ => true)).
Proof.
  split; [reflexivity|]. intros n f i d r. split; [reflexivity|]. split; [|reflexivity].
  cbn [short e_parse fst snd]. fold r. destruct (parse_effects cf f i d) as [P _]. fold r in P. rewrite P. clear P.
  generalize (pr_calls r) as l. clear. intro l. revert d. induction l as [|c l IH]; intro d; [reflexivity|]. cbn [List.map fold_left apply_change]. apply IH.
Qed.

(** A history: German is lost when memory runs out while the directory is listed, a second manager call is leaking;
    after set_charset there is memory again, but the parser fails half-way through hi/de.po. *)
Definition xstormy : list (file_system * env * mop) :=
  [(ex_fs, short ex_run (fun _ => true), OpAddDirectory (bs "hi") false);
   (ex_fs, short ex_run (fun n => n <? 3), OpGetDictionaryLang de);
   (ex_fs, short ex_run (fun _ => true), OpGetDictionaryLang de);
   (ex_fs, short ex_run (fun n => n <? 5), OpGetDictionaryLang de_AT)].
Example C94_nonvacuous :
  let all := short ex_run (fun _ => true) in
  let s := xrun ex_run xstormy (xnew utf8) in
  xvalid xstormy /\ decent ex_run ex_fs all /\ all_well ex_run all /\
  fst (xcall ex_run ex_fs (short ex_run (fun n => n <? 3)) (OpGetDictionaryLang de) (xrun ex_run (firstn 1 xstormy) (xnew utf8))) = Exn bad_alloc /\
  (m_next (x_m s), List.map fst (m_heap (x_m s)), x_leaks s, failures ex_run xstormy (xnew utf8)) = (1, [0], 1, 2) /\
  heap_get (m_heap (x_m s)) 0 = Some (new_dictionary utf8) /\
  fst (xcall ex_run ex_fs all (OpGetDictionaryLang de) s) = Ret (OutRef (RefHeap 0)) /\
  let s2 := xrun ex_run [(ex_fs, all, OpSetCharset utf8); (ex_fs, all, OpGetDictionaryLang de)] s in
  option_map (fun d => length (d_entries d)) (heap_get (m_heap (x_m s2)) 1) = Some 2 /\
  let half := parser_short ex_run 1 (AddSingular None (bs "x") (bs "y")) in
  let s3 := xrun ex_run [(ex_fs, all, OpSetCharset utf8); (ex_fs, half, OpGetDictionaryLang de)] s in
  fst (xcall ex_run ex_fs half (OpGetDictionaryLang de) s3) = Ret (OutRef (RefHeap 1)) /\
  option_map (fun d => length (d_entries d)) (heap_get (m_heap (x_m s3)) 1) = Some 1.
Proof.
  cbv zeta. split; [unfold xvalid, xstormy; client|]. split.
  { split; [intro p; unfold ex_fs, unix_file_system; cbn [fs_dir fs_file]; split; [destruct (os_dir ex_os p)|]; exact Logic.I|].
    intros n f i d u H. cbn [short e_parse fst] in H. pose proof (parse_only ex_run f i d) as Q. rewrite H in Q. exact Q. }
  split; [apply short_well|]. vm_compute. repeat split.
Qed.
Example C94_abort_nonvacuous :
  let s := xrun ex_run [(ex_fs, short ex_run (fun _ => true), OpAddDirectory (bs "x") false)] (xnew utf8) in
  let fs := {| fs_dir := fun _ => Ret [bs "tlh_XX.po"; bs "de.po"]; fs_file := fun _ => Ret None |} in
  m_path (x_m s) = [] ++ [bs "x"] /\ cache_find de (m_cache (x_m s)) = None /\
  convertFilename2Language false (bs "tlh_XX.po") = Ret (bs "tlh_XX") /\ from_env false (bs "tlh_XX") = Ret None /\
  fst (xcall ex_run fs (short ex_run (fun n => n <? 7)) (OpGetDictionaryLang de) s) = AssertFail /\
  fst (xcall ex_run fs (short ex_run (fun _ => true)) (OpGetDictionaryLang de) s) = Ret (OutRef (RefHeap 0)).
Proof. vm_compute. repeat split. Qed.

Print Assumptions C94_ownership.
Print Assumptions C94_returned_references_are_live.
Print Assumptions C94_destructor.
Print Assumptions C94_no_memory_error.
Print Assumptions C94_nothing_fails.
Print Assumptions C94_loaded_dictionaries_survive.
Print Assumptions C94_failed_load.
Print Assumptions C94_a_translation_is_lost.
Print Assumptions C94_a_dictionary_is_leaked.
Print Assumptions C94_setters_lose_the_dictionaries.
Print Assumptions C94_parser_failures_are_not_reported.
Print Assumptions C94_own_base.
Print Assumptions C94_a_warning_aborts.
