(** Properties C47, C48, C56, C57 and the manager parts of C31 and C53: what holds
    over every history of calls on a DictionaryManager, exceptions included. *)
From Coq Require Import Permutation.
From Verif.Model Require Import Base Log PluralForms Dictionary IConv Language Stream PoParser Manager.
From Verif.Spec Require Import DictSpec LangSpec IConvSpec ParserSpec ManagerSpec.
From Verif.Proofs Require Import BaseFacts DictProofs LangProofs ParserSafe ParserFuel ParserMisc
  ManagerLoad ManagerOwn ManagerGet ManagerStep ManagerFull ManagerContent ManagerProps ManagerSafe.
From Verif.Properties Require Import Parser Manager.
Local Open Scope list_scope.

Lemma life cf cs ops : valid ops ->
  own (cf_ndebug cf) (mrun cf ops (new_manager cs)) /\ NoDup (m_path (mrun cf ops (new_manager cs))).
Proof. intro V. destruct (run_inv cf ops _ V (own_new cf cs) (NoDup_nil _)) as (O & ND & _). auto. Qed.

(** C47. Addresses 0 .. m_next-1 have been allocated. Each is either live or has been
    freed, exactly once and not both; the current dictionary and all fallbacks are
    live ... *)
Theorem C47_ownership :
  forall (cf : config) (cs : bytes) (ops : list (file_system * mop)),
  valid ops ->
  let m := mrun cf ops (new_manager cs) in
  Permutation (List.map fst (m_heap m) ++ m_freed m) (seq 0 (m_next m)) /\
  (forall p, m_cur m = Some p -> heap_get (m_heap m) p <> None) /\
  (forall p d, heap_get (m_heap m) p = Some d -> d_has_fallback d = true ->
     exists q, d_fallback d = Some q /\ heap_get (m_heap m) q <> None).
Proof.
  intros cf cs ops V m. destruct (life cf cs ops V) as [O ND]. fold m in O. split; [|split].
  - eapply Permutation_trans; [|exact (own_perm _ _ O)]. apply Permutation_app_tail. exact (own_heap _ _ O).
  - intros p H. destruct (own_cur _ _ O p H) as [_ F]. destruct (own_found cf m _ p O F) as [d ->]. discriminate.
  - intros p d H B. assert (L : In p (List.map snd (m_cache m))).
    { apply (own_live cf m p O). now rewrite H. }
    apply in_map_iff in L as ((l & p') & E & I). cbn in E. subst p'.
    destruct (own_fb _ _ O l p d I H B) as (_ & b & q & _ & F & ->). exists q. split; [reflexivity|].
    destruct (own_found cf m _ q O F) as [e ->]. discriminate.
Qed.

(** ... a reference handed out is live ... *)
Theorem C47_returned_references_are_live :
  forall (cf : config) (cs : bytes) (ops : list (file_system * mop)) (fs : file_system) (op : mop) (r : dict_ref) (m' : manager),
  valid ops -> client_op op ->
  mstep cf fs op (mrun cf ops (new_manager cs)) = (Ret (OutRef r), m') ->
  deref m' r <> None.
Proof.
  intros cf cs ops fs op r m' V C E. destruct (life cf cs ops V) as [O ND].
  set (m := mrun cf ops (new_manager cs)) in *. pose proof (step_own cf fs op m O C) as O'. rewrite E in O'. cbn [snd] in O'.
  destruct r as [|p]; [discriminate|]. cbn [deref].
  assert (F : exists l, cache_find l (m_cache m') = Some p).
  { destruct op as [l|c|b|q f|q| |l| | |]; cbn [client_op] in C.
    - rewrite do_set_language in E. discriminate.
    - destruct (do_set_charset cf fs c m O) as (m1 & _ & _ & X). rewrite X in E. discriminate.
    - destruct (do_set_use_fuzzy cf fs b m O) as (m1 & _ & _ & X). rewrite X in E. discriminate.
    - destruct (in_dec (list_eq_dec ascii_dec) q (m_path m)) as [I|N].
      + rewrite do_add_present in E by exact I. discriminate.
      + destruct (do_add_directory cf fs q f m O N) as (m1 & _ & _ & X). rewrite X in E. discriminate.
    - destruct (in_dec (list_eq_dec ascii_dec) q (m_path m)) as [I|N].
      + destruct (do_remove_directory cf fs q m O I) as (m1 & _ & _ & X). rewrite X in E. discriminate.
      + rewrite do_remove_absent in E by exact N. discriminate.
    - rewrite (do_get cf fs m (own_lang _ _ O)) in E. destruct (m_cur m) as [x|] eqn:Cu.
      + injection E as <- <-. exists (m_lang m). apply (own_cur _ _ O x Cu).
      + destruct (is_none (m_lang m)); [discriminate|]. destruct (get_inv cf fs m (m_lang m) O (own_lang _ _ O)) as (_ & G & F).
        destruct (get_state cf fs m (m_lang m)) as [[x|?|?| |] m1]; try discriminate. injection E as <- <-. cbn [fst snd] in *.
        exists (m_lang m). now apply F.
    - rewrite (do_get_lang cf fs l m C) in E. destruct (get_inv cf fs m l O C) as (_ & G & F).
      destruct (get_state cf fs m l) as [[x|?|?| |] m1]; cbn [fst snd omap] in *; try discriminate. injection E as <- <-.
      exists l. now apply F.
    - rewrite do_get_languages in E. destruct (langs_of_dirs cf fs (m_path m) []); discriminate.
    - rewrite do_get_language in E. discriminate.
    - rewrite do_get_use_fuzzy in E. discriminate. }
  destruct F as [l F]. destruct (own_found cf m' l p O' F) as [d ->]. discriminate.
Qed.

(** ... and the destructor frees what is left: in the end every allocated dictionary
    has been freed exactly once. *)
Theorem C47_destructor :
  forall (cf : config) (cs : bytes) (ops : list (file_system * mop)),
  valid ops ->
  let m := mrun cf ops (new_manager cs) in
  exists m', destroy_manager m = (Ret tt, m') /\ m_heap m' = [] /\ Permutation (m_freed m') (seq 0 (m_next m)) /\
    m_next m' = m_next m.
Proof.
  intros cf cs ops V m. destruct (life cf cs ops V) as [O ND]. fold m in O.
  destruct (delete_all_ok (m_cache m) m (own_ptrs cf m O) (own_heap _ _ O)) as (m' & E & H & F & N & _).
  exists m'. split; [unfold destroy_manager, mbind, mget; exact E|]. split; [exact H|]. split; [|exact N].
  rewrite F. eapply Permutation_trans; [apply Permutation_app_comm|exact (own_perm _ _ O)].
Qed.

(** No call ever touches a dead dictionary or deletes one twice: with file systems
    that do not themselves crash, the only undefined behaviour left is a ctype
    function applied to a negative char (C37). *)
Theorem C47_no_memory_error :
  forall (cf : config) (cs : bytes) (ops : list (file_system * mop)) (fs : file_system) (op : mop) (u : ub),
  valid ops -> client_op op -> well_behaved fs ->
  fst (mstep cf fs op (mrun cf ops (new_manager cs))) = Ub u -> u = UbCtype /\ cf_strict cf = true.
Proof.
  intros cf cs ops fs op u V C W E. destruct (life cf cs ops V) as [O _].
  pose proof (step_only cf fs W op _ O C) as H. rewrite E in H. exact H.
Qed.

(** a history with exceptions (directory "bad"), caching, fallbacks and clearing *)
Definition stormy : list (file_system * mop) :=
  List.map (fun o => (ex_fs, o))
    [OpAddDirectory (bs "lo") false; OpSetLanguage de_AT; OpGetDictionary; OpAddDirectory (bs "bad") false;
     OpGetDictionaryLang de; OpGetDictionary; OpRemoveDirectory (bs "bad"); OpAddDirectory (bs "hi") true;
     OpGetDictionaryLang de; OpGetDictionary].
Example C47_nonvacuous :
  valid stormy /\
  let m := mrun ex_run stormy (new_manager utf8) in
  (m_next m, m_freed m, List.map fst (m_heap m), m_cur m) = (6, [0; 1; 2; 3], [5; 4], Some 5) /\
  option_map d_fallback (heap_get (m_heap m) 5) = Some (Some 4) /\
  fst (mstep ex_run ex_fs (OpGetDictionaryLang de) (mrun ex_run (firstn 4 stormy) (new_manager utf8)))
  = Exn (ExFilesystem (bs "bad")).
Proof. split; [unfold valid, stormy; cbn [List.map]; client|]. vm_compute. auto. Qed.

(** C48. *)
Theorem C48_get_language :
  forall (cf : config) (cs : bytes) (ops : list (file_system * mop)) (fs : file_system),
  valid ops ->
  let m := mrun cf ops (new_manager cs) in
  mstep cf fs OpGetLanguage m = (Ret (OutLang (language_after None (List.map snd ops))), m).
Proof.
  intros cf cs ops fs V m. destruct (run_inv cf ops _ V (own_new cf cs) (NoDup_nil _)) as (_ & _ & _ & _ & L). fold m in L.
  rewrite do_get_language, L. reflexivity.
Qed.

(** get_dictionary(): the empty dictionary while no language is set ... *)
Theorem C48_no_language :
  forall (cf : config) (cs : bytes) (ops : list (file_system * mop)) (fs : file_system),
  valid ops -> language_after None (List.map snd ops) = None ->
  let m := mrun cf ops (new_manager cs) in
  mstep cf fs OpGetDictionary m = (Ret (OutRef RefEmpty), m) /\
  exists d, deref m RefEmpty = Some d /\ (forall k, lookup d k = None) /\ d_has_fallback d = false /\
            pf_valid (get_plural_forms d) = false.
Proof.
  intros cf cs ops fs V N m. destruct (run_inv cf ops _ V (own_new cf cs) (NoDup_nil _)) as (O & _ & _ & _ & L). fold m in O, L.
  cbn [m_lang new_manager] in L. rewrite N in L. split.
  - rewrite (do_get cf fs m (own_lang _ _ O)), L. destruct (m_cur m) as [p|] eqn:C; [|reflexivity].
    destruct (own_cur _ _ O p C) as [X _]. congruence.
  - exists (m_empty m). split; [reflexivity|]. rewrite (own_empty _ _ O). repeat split. intros [[c|] i]; reflexivity.
Qed.

(** ... and otherwise what get_dictionary(language) returns: same outcome, same
    dictionaries, same log. *)
Theorem C48_language_set :
  forall (cf : config) (cs : bytes) (ops : list (file_system * mop)) (fs : file_system) (l : language),
  valid ops -> language_after None (List.map snd ops) = l -> l <> None ->
  let m := mrun cf ops (new_manager cs) in
  let r := mstep cf fs OpGetDictionary m in
  let r' := mstep cf fs (OpGetDictionaryLang l) m in
  fst r = fst r' /\ m_heap (snd r) = m_heap (snd r') /\ m_cache (snd r) = m_cache (snd r') /\ m_tr (snd r) = m_tr (snd r').
Proof.
  intros cf cs ops fs l V E NN m r r'. destruct (run_inv cf ops _ V (own_new cf cs) (NoDup_nil _)) as (O & _ & _ & _ & L). fold m in O, L.
  cbn [m_lang new_manager] in L. rewrite E in L. pose proof (own_lang _ _ O) as K. rewrite L in K.
  subst r r'. rewrite (do_get cf fs m (own_lang _ _ O)), (do_get_lang cf fs l m K), L.
  destruct (m_cur m) as [p|] eqn:C.
  - destruct (own_cur _ _ O p C) as [_ F]. rewrite L in F.
    assert (G : get_state cf fs m l = (Ret p, m)).
    { unfold get_state, leaf_outcome, leaf_state, asserts. rewrite F. destruct l; [|contradiction]. cbn [is_none]. rewrite andb_false_r.
      now destruct (is_nil _). }
    rewrite G. auto.
  - destruct l as [s|]; [|contradiction]. cbn [is_none]. destruct (get_state cf fs m (Some s)) as [[] m1]; cbn; auto.
Qed.

Example C48_nonvacuous :
  language_after None (List.map snd stormy) = de_AT /\ de_AT <> None /\
  language_after None (List.map snd (firstn 1 stormy)) = None.
Proof. split; [reflexivity|]. split; [discriminate|reflexivity]. Qed.

(** C31 (manager). Histories that differ only in what set_use_fuzzy was told give
    the same results, dictionaries and logs; only get_use_fuzzy can tell. *)
Theorem C31_setting_has_no_effect :
  forall (cf : config) (cs : bytes) (ops ops' : list (file_system * mop)) (fs : file_system) (op : mop),
  Forall2 (fun x y => fst x = fst y /\ fuzzy_variant (snd x) (snd y)) ops ops' -> op <> OpGetUseFuzzy ->
  let r := mstep cf fs op (mrun cf ops (new_manager cs)) in
  let r' := mstep cf fs op (mrun cf ops' (new_manager cs)) in
  fst r = fst r' /\ m_heap (snd r) = m_heap (snd r') /\ m_tr (snd r) = m_tr (snd r').
Proof.
  intros cf cs ops ops' fs op F N r r'.
  destruct (step_alike cf fs op op _ _ (or_introl eq_refl) N (run_alike cf ops ops' _ _ F (eq_refl : alike (new_manager cs) (new_manager cs)))) as [A B].
  fold r r' in A, B. split; [exact A|]. unfold alike in B. destruct r as [o []], r' as [o' []]. cbn in *. injection B. intros; subst; auto.
Qed.
Theorem C31_get_use_fuzzy :
  forall (cf : config) (cs : bytes) (ops : list (file_system * mop)) (fs : file_system),
  valid ops ->
  fst (mstep cf fs OpGetUseFuzzy (mrun cf ops (new_manager cs))) = Ret (OutBool (fuzzy_after_all true (List.map snd ops))).
Proof.
  intros cf cs ops fs V. cbn. now rewrite (run_fuzzy cf ops _ V (own_new cf cs) (NoDup_nil _)).
Qed.
Example C31_manager_nonvacuous :
  let fuzzy := {| os_dir := fun _ => Some [bs "de.po"];
                  os_file := fun _ => Some (file [bs "#, fuzzy"; bs "msgid `a`"; bs "msgstr `A`"]) |} in
  let ops b := List.map (fun o => (unix_file_system fuzzy, o)) [OpSetUseFuzzy b; OpAddDirectory (bs "x") false] in
  Forall2 (fun x y => fst x = fst y /\ fuzzy_variant (snd x) (snd y)) (ops true) (ops false) /\
  exists m d, returns ex_run (unix_file_system fuzzy) (mrun ex_run (ops false) (new_manager utf8)) de m d /\
    lookup d (None, bs "a") = Some [bs "A"].
Proof.
  intros fuzzy ops. split.
  - subst ops. cbn [List.map]. apply Forall2_cons; [split; [reflexivity|right; exists true, false; split; reflexivity]|].
    apply Forall2_cons; [split; [reflexivity|now left]|apply Forall2_nil].
  - eexists. eexists. split; [eexists; split; vm_compute; reflexivity|]. vm_compute. reflexivity.
Qed.

(** C53 (manager). UnixFileSystem never reports a file that cannot be opened: the
    manager behaves, in every history, exactly as if it were an empty file. *)
Theorem C53_unreadable_is_empty :
  forall (cf : config) (o : os_state) (op : mop) (m : manager),
  1 <= cf_fuel cf ->
  mstep cf (unix_file_system o) op m = mstep cf (unix_file_system (blanked o)) op m.
Proof. intros. now apply blank_step. Qed.
Theorem C53_open_failure_never_reported :
  forall (o : os_state) (f : bytes), exists i, fs_file (unix_file_system o) f = Ret (Some i) /\
    (os_file o f = None -> is_good i = false).
Proof. intros. eexists. split; [reflexivity|]. now intros ->. Qed.

(** fr.po is listed in "lo" but cannot be opened: the dictionary is empty and nothing
    is logged *)
Example C53_manager_nonvacuous :
  os_file ex_os (bs "lo/fr.po") = None /\
  exists m d, returns ex_run ex_fs (fresh ex_run ex_fs utf8 [bs "lo"]) (lang (bs "fr")) m d /\
    d_entries d = [] /\ m_tr m = [] /\ m_heap m <> [].
Proof.
  split; [reflexivity|]. eexists. eexists. split; [eexists; split; vm_compute; reflexivity|]. vm_compute.
  repeat split. discriminate.
Qed.

(** C56. A reference from get_dictionary stays valid, and denotes the same unchanged
    dictionary, across any calls other than set_charset, set_use_fuzzy, add_directory
    of a new directory and remove_directory of a present one ... *)
Definition keeps_cache (path : list bytes) (op : mop) : bool :=
  match op with
  | OpSetCharset _ | OpSetUseFuzzy _ => false
  | OpAddDirectory p _ => if in_dec (list_eq_dec ascii_dec) p path then true else false
  | OpRemoveDirectory p => if in_dec (list_eq_dec ascii_dec) p path then false else true
  | _ => true
  end.
Theorem C56_references_stay_valid :
  forall (cf : config) (cs : bytes) (ops : list (file_system * mop)) (fs : file_system) (op : mop) (p : ptr) (d : dictionary),
  valid ops -> client_op op ->
  let m := mrun cf ops (new_manager cs) in
  keeps_cache (path_after [] (List.map snd ops)) op = true ->
  heap_get (m_heap m) p = Some d -> heap_get (m_heap (snd (mstep cf fs op m))) p = Some d.
Proof.
  intros cf cs ops fs op p d V C m KC H.
  destruct (run_inv cf ops _ V (own_new cf cs) (NoDup_nil _)) as (O & ND & P & _). fold m in O, ND, P. cbn [m_path new_manager] in P.
  rewrite <- P in KC.
  assert (Lt : p < m_next m). { apply (own_lt cf m p O). apply (own_live cf m p O). now rewrite H. }
  destruct op as [l|c|b|q f|q| |l| | |]; cbn [client_op keeps_cache] in *; try discriminate KC.
  - rewrite do_set_language. cbn [snd]. destruct (lang_eqb _ _); exact H.
  - destruct (in_dec _ q (m_path m)) as [I|]; [|discriminate]. rewrite do_add_present by exact I. exact H.
  - destruct (in_dec _ q (m_path m)) as [|I]; [discriminate|]. rewrite do_remove_absent by exact I. exact H.
  - rewrite (do_get cf fs m (own_lang _ _ O)). destruct (m_cur m); [exact H|]. destruct (is_none (m_lang m)); [exact H|].
    destruct (get_inv cf fs m (m_lang m) O (own_lang _ _ O)) as (_ & G & _).
    destruct (get_state cf fs m (m_lang m)) as [[] m1]; cbn [fst snd] in *; cbn [upd_lang m_heap]; now rewrite (gr_heap _ _ G p Lt).
  - rewrite (do_get_lang cf fs l m C). cbn [snd]. destruct (get_inv cf fs m l O C) as (_ & G & _). now rewrite (gr_heap _ _ G p Lt).
  - rewrite do_get_languages. exact H.
  - exact H.
  - exact H.
Qed.

(** ... and those calls leave every reference to a cached dictionary dangling. *)
Theorem C56_references_dangle_after_a_change :
  forall (cf : config) (cs : bytes) (ops : list (file_system * mop)) (fs : file_system) (op : mop) (p : ptr),
  valid ops -> client_op op ->
  let m := mrun cf ops (new_manager cs) in
  keeps_cache (path_after [] (List.map snd ops)) op = false ->
  heap_get (m_heap (snd (mstep cf fs op m))) p = None.
Proof.
  intros cf cs ops fs op p V C m KC.
  destruct (run_inv cf ops _ V (own_new cf cs) (NoDup_nil _)) as (O & ND & P & _). fold m in O, ND, P. cbn [m_path new_manager] in P.
  rewrite <- P in KC.
  assert (G : forall m1 m2, cleared m m1 -> m_heap m2 = m_heap m1 -> heap_get (m_heap m2) p = None).
  { intros m1 m2 (H & _) ->. now rewrite H. }
  destruct op as [l|c|b|q f|q| |l| | |]; cbn [client_op keeps_cache] in *; try discriminate KC.
  - destruct (do_set_charset cf fs c m O) as (m1 & Cl & _ & ->). now apply (G m1).
  - destruct (do_set_use_fuzzy cf fs b m O) as (m1 & Cl & _ & ->). now apply (G m1).
  - destruct (in_dec _ q (m_path m)) as [|I]; [discriminate|]. destruct (do_add_directory cf fs q f m O I) as (m1 & Cl & _ & ->). now apply (G m1).
  - destruct (in_dec _ q (m_path m)) as [I|]; [|discriminate]. destruct (do_remove_directory cf fs q m O I) as (m1 & Cl & _ & ->). now apply (G m1).
Qed.
Example C56_nonvacuous :
  let m := mrun ex_run stormy (new_manager utf8) in
  heap_get (m_heap m) 5 <> None /\
  keeps_cache (path_after [] (List.map snd stormy)) (OpSetLanguage de) = true /\
  keeps_cache (path_after [] (List.map snd stormy)) (OpAddDirectory (bs "hi") true) = true /\
  keeps_cache (path_after [] (List.map snd stormy)) (OpAddDirectory (bs "new") true) = false.
Proof. vm_compute. repeat split. discriminate. Qed.

(** C57. On any dictionary a manager holds, after any history, translate and
    translate_ctxt finish after at most one step to a fallback and never touch a dead
    dictionary. *)
Theorem C57_translation_is_safe :
  forall (cf : config) (cs : bytes) (ops : list (file_system * mop)) (p : ptr) (d : dictionary) (n : nat) (msgctxt msgid : bytes),
  valid ops ->
  let m := mrun cf ops (new_manager cs) in
  heap_get (m_heap m) p = Some d ->
  (exists t, fst (translate (S (S n)) (m_heap m) d msgid) = Ret t) /\
  (exists t, fst (translate_ctxt (S (S n)) (m_heap m) d msgctxt msgid) = Ret t).
Proof.
  intros cf cs ops p d n c id V m H. destruct (life cf cs ops V) as [O ND]. fold m in O.
  assert (FB : d_has_fallback d = true -> exists q e, d_fallback d = Some q /\ heap_get (m_heap m) q = Some e /\ d_has_fallback e = false).
  { intro B. assert (L : In p (List.map snd (m_cache m))) by (apply (own_live cf m p O); now rewrite H).
    apply in_map_iff in L as ((l & p') & E & I). cbn in E. subst p'.
    destruct (own_fb _ _ O l p d I H B) as (Co & b & q & Fs & F & Eq). destruct (own_found cf m _ q O F) as [e Ee]. exists q, e.
    split; [exact Eq|]. split; [exact Ee|].
    assert (Kl : known l) by (pose proof (own_known _ _ O) as KK; unfold keys_known in KK; rewrite Forall_forall in KK; exact (KK _ I)).
    destruct (base_of (cf_ndebug cf) l Kl Co) as (b' & Fs' & Ib & Cb & _). rewrite Fs in Fs'. injection Fs' as ->.
    destruct (d_has_fallback e) eqn:Be; [|reflexivity].
    pose proof (cache_find_In (Some b') _ q Ib (own_known _ _ O) F) as Iq.
    destruct (own_fb _ _ O _ _ _ Iq Ee Be) as (X & _). contradiction. }
  assert (T : forall es, exists t, fst (translate_in (S (S n)) (m_heap m) d es id) = Ret t).
  { intro es. cbn [translate_in]. destruct (d_has_fallback d).
    - destruct (FB eq_refl) as (q & e & -> & Ee & NB). rewrite Ee, NB.
      destruct (assoc id es) as [[|v r]|]; [|eexists; reflexivity|]; destruct (assoc id (d_entries e)) as [[|v' r']|]; eexists; reflexivity.
    - destruct (assoc id es) as [[|v r]|]; eexists; reflexivity. }
  split; [apply T|]. unfold translate_ctxt. destruct (assoc c (d_ctxt d)); [apply T|eexists; reflexivity].
Qed.
Example C57_nonvacuous :
  let m := mrun ex_run stormy (new_manager utf8) in
  exists d, heap_get (m_heap m) 5 = Some d /\ d_has_fallback d = true /\
    fst (translate 2 (m_heap m) d (bs "nowhere")) = Ret (bs "nowhere").
Proof. vm_compute. eexists. repeat split. Qed.

Print Assumptions C47_ownership.
Print Assumptions C47_returned_references_are_live.
Print Assumptions C47_destructor.
Print Assumptions C47_no_memory_error.
Print Assumptions C48_get_language.
Print Assumptions C48_no_language.
Print Assumptions C48_language_set.
Print Assumptions C31_setting_has_no_effect.
Print Assumptions C31_get_use_fuzzy.
Print Assumptions C53_unreadable_is_empty.
Print Assumptions C53_open_failure_never_reported.
Print Assumptions C56_references_stay_valid.
Print Assumptions C56_references_dangle_after_a_change.
Print Assumptions C57_translation_is_safe.
