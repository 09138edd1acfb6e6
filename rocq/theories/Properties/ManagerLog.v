(** Property C64: what loading a dictionary reads and logs. *)
From Verif.Model Require Import Base Log PluralForms Dictionary IConv Language Stream PoParser Manager.
From Verif.Spec Require Import DictSpec LangSpec ParserSpec ManagerSpec LoadSpec.
From Verif.Proofs Require Import BaseFacts DictProofs LangProofs ParserSafe ParserFuel
  ManagerLoad ManagerOwn ManagerGet ManagerStep ManagerFull ManagerContent ManagerProps ManagerLog.
From Verif.Properties Require Import Parser Manager ManagerLife.
Local Open Scope list_scope.

(** C64. The first get_dictionary(l) on a new manager reads the search path from the
    last directory to the first, for [l] and then, if [l] has a country, for the base
    language; its log is exactly what those readings log. *)
Theorem C64_loading :
  forall (cf : config) (fs : file_system) (cs : bytes) (path : list bytes) (l : language) (o : outcome mout) (m : manager),
  NoDup path -> known l ->
  mstep cf fs (OpGetDictionaryLang l) (fresh cf fs cs path) = (o, m) -> completed o ->
  exists x1 d1 t1, path_reads cf fs l (rev path) (new_dictionary cs) x1 d1 t1 /\
  match x1 with
  | Some e => o = Exn e /\ m_tr m = t1
  | None =>
      (get_country l = [] /\ gave o m d1 /\ m_tr m = t1) \/
      (get_country l <> [] /\ exists b, from_spec (cf_ndebug cf) (get_language l) [] [] = Ret (Some b) /\
       exists x2 d2 t2, path_reads cf fs (Some b) (rev path) (new_dictionary cs) x2 d2 t2 /\
         m_tr m = t1 ++ t2 /\ match x2 with Some e => o = Exn e | None => gave_over o m d1 d2 end)
  end.
Proof.
  intros cf fs cs path l o m ND K E F. destruct (fresh_state cf fs cs path ND) as (O & C & P & S & T & _).
  destruct (get_logs cf fs _ l o m O K E F) as [(p & X & _)|(_ & x1 & d1 & t1 & R1 & H)]; [rewrite C in X; discriminate X|].
  rewrite P, S in R1. exists x1, d1, t1. split; [exact R1|]. rewrite C, P, S, T in H. cbn [app] in H.
  destruct x1 as [e|]; [exact H|]. destruct H as [(H1 & H2 & H3)|(H1 & b & B & H)]; [left; auto|].
  right. split; [exact H1|]. exists b. split; [exact B|].
  destruct H as [(q & X & _)|(_ & x2 & d2 & t2 & R2 & T2 & G)]; [discriminate X|]. exists x2, d2, t2. auto.
Qed.

(** After any history: the call changes nothing, or reads the search path for [l], and
    perhaps then for the base language, and logs exactly that. *)
Theorem C64_any_time :
  forall (cf : config) (fs : file_system) (cs : bytes) (ops : list (file_system * mop)) (l : language) (o : outcome mout) (m' : manager),
  valid ops -> known l ->
  let m := mrun cf ops (new_manager cs) in
  let path := path_after [] (List.map snd ops) in
  let empty := new_dictionary (charset_after cs (List.map snd ops)) in
  mstep cf fs (OpGetDictionaryLang l) m = (o, m') -> completed o ->
  (m' = m /\ exists d, gave o m d) \/
  exists x1 d1 t1, path_reads cf fs l (rev path) empty x1 d1 t1 /\
  match x1 with
  | Some e => o = Exn e /\ m_tr m' = m_tr m ++ t1
  | None =>
      (get_country l = [] /\ gave o m' d1 /\ m_tr m' = m_tr m ++ t1) \/
      (get_country l <> [] /\ exists b, from_spec (cf_ndebug cf) (get_language l) [] [] = Ret (Some b) /\
        ((m_tr m' = m_tr m ++ t1 /\ exists d2, gave_over o m' d1 d2) \/
         (exists x2 d2 t2, path_reads cf fs (Some b) (rev path) empty x2 d2 t2 /\
           m_tr m' = m_tr m ++ t1 ++ t2 /\ match x2 with Some e => o = Exn e | None => gave_over o m' d1 d2 end)))
  end.
Proof.
  intros cf fs cs ops l o m' V K m path empty E F.
  destruct (run_inv cf ops _ V (own_new cf cs) (NoDup_nil _)) as (O & ND & P & S & _). fold m in O, ND, P, S.
  cbn [m_path m_charset new_manager] in P, S.
  destruct (get_logs cf fs m l o m' O K E F) as [(p & X & -> & ->)|(_ & x1 & d1 & t1 & R1 & H)].
  - left. split; [reflexivity|]. destruct (own_found cf m l p O X) as [d D]. exists d, p. auto.
  - right. exists x1, d1, t1. rewrite P, S in R1, H. fold path empty in R1, H. split; [exact R1|].
    destruct x1 as [e|]; [exact H|]. destruct H as [(H1 & H2 & H3)|(H1 & b & B & H)]; [left; auto|].
    right. split; [exact H1|]. exists b. split; [exact B|].
    destruct H as [(q & X & T & G & H)|(_ & x2 & d2 & t2 & R2 & T2 & G)].
    + left. split; [exact T|]. destruct (own_found cf m (Some b) q O X) as [d2 D2]. exists d2, q. split; [exact G|congruence].
    + right. exists x2, d2, t2. auto.
Qed.

(** Once get_dictionary(l) has returned, it returns the same reference and does and
    logs nothing, whatever happens to the files, until the settings change. *)
Lemma still_cached cf fs op m l p : own (cf_ndebug cf) m -> client_op op -> keeps_cache (m_path m) op = true ->
  cache_find l (m_cache m) = Some p -> cache_find l (m_cache (snd (mstep cf fs op m))) = Some p.
Proof.
  intros O C KC H. destruct op as [l'|c|b|q f|q| |l'| | |]; cbn [client_op keeps_cache] in *; try discriminate KC.
  - rewrite do_set_language. cbn [snd]. destruct (lang_eqb _ _); exact H.
  - destruct (in_dec _ q (m_path m)) as [I|]; [|discriminate]. rewrite do_add_present by exact I. exact H.
  - destruct (in_dec _ q (m_path m)) as [|I]; [discriminate|]. rewrite do_remove_absent by exact I. exact H.
  - rewrite (do_get cf fs m (own_lang _ _ O)). destruct (m_cur m); [exact H|]. destruct (is_none (m_lang m)); [exact H|].
    destruct (get_inv cf fs m (m_lang m) O (own_lang _ _ O)) as (_ & G & _).
    destruct (get_state cf fs m (m_lang m)) as [[] m1]; cbn [fst snd] in *; cbn [upd_lang m_cache]; now apply (grown_find m m1 l p G).
  - rewrite (do_get_lang cf fs l' m C). cbn [snd]. destruct (get_inv cf fs m l' O C) as (_ & G & _). now apply (grown_find m _ l p G).
  - rewrite do_get_languages. exact H.
  - exact H.
  - exact H.
Qed.
Lemma keeps_path path op : keeps_cache path op = true -> path_after path [op] = path.
Proof.
  destruct op; cbn [keeps_cache path_after]; auto; destruct (in_dec _ _ _); auto; try discriminate.
  intros _. now apply notin_remove.
Qed.
Theorem C64_loaded_once :
  forall (cf : config) (fs fs' : file_system) (cs : bytes) (ops later : list (file_system * mop)) (l : language)
         (r : mout) (m1 : manager),
  valid ops -> valid later -> known l ->
  mstep cf fs (OpGetDictionaryLang l) (mrun cf ops (new_manager cs)) = (Ret r, m1) ->
  Forall (fun o => keeps_cache (path_after [] (List.map snd ops)) (snd o) = true) later ->
  let m2 := mrun cf later m1 in
  mstep cf fs' (OpGetDictionaryLang l) m2 = (Ret r, m2).
Proof.
  intros cf fs fs' cs ops later l r m1 V VL K E KC. cbv zeta.
  destruct (run_inv cf ops _ V (own_new cf cs) (NoDup_nil _)) as (O & ND & P & _). cbn [m_path new_manager] in P. rewrite <- P in KC. clear P.
  remember (mrun cf ops (new_manager cs)) as m eqn:Em. clear Em.
  destruct (get_inv cf fs m l O K) as (O1 & G & L). rewrite (do_get_lang cf fs l m K) in E.
  assert (A : asserts cf l = false).
  { destruct (asserts cf l) eqn:A; [|reflexivity]. unfold asserts in A. destruct l; [cbn [is_none] in A; rewrite andb_false_r in A; discriminate|].
    unfold get_state, leaf_outcome in E. cbn [get_country is_nil] in E. unfold asserts in E. rewrite A in E. discriminate E. }
  destruct (get_state cf fs m l) as [[p|?|?| |] mx]; cbn [fst snd omap] in *; try discriminate E. injection E as <- ->.
  specialize (L p eq_refl).
  assert (NP : NoDup (m_path m1)) by (now rewrite (gr_path _ _ G)).
  rewrite <- (gr_path _ _ G) in KC. clear G O ND.
  revert m1 O1 L NP KC. induction later as [|[f op] later IH]; intros m1 O1 L NP KC.
  - cbn [mrun fold_left]. rewrite (do_get_lang cf fs' l m1 K). unfold get_state, leaf_outcome, leaf_state. rewrite A, L.
    now destruct (is_nil (get_country l)).
  - inversion KC as [|? ? K1 K2]; subst. inversion VL as [|? ? C1 C2]; subst. cbn [snd] in *.
    change (mrun cf ((f, op) :: later) m1) with (mrun cf later (snd (mstep cf f op m1))).
    pose proof (step_own cf f op m1 O1 C1) as O2.
    destruct (step_fields cf f op m1 O1 C1 NP) as (Pa & _ & _ & _ & NP2). rewrite (keeps_path _ _ K1) in Pa.
    apply IH; auto.
    + now apply still_cached.
    + now rewrite Pa.
Qed.

(** No other call loads or logs anything. *)
Theorem C64_other_calls_are_silent :
  forall (cf : config) (fs : file_system) (cs : bytes) (ops : list (file_system * mop)) (op : mop),
  valid ops -> client_op op ->
  match op with OpGetDictionary | OpGetDictionaryLang _ => False | _ => True end ->
  let m := mrun cf ops (new_manager cs) in m_tr (snd (mstep cf fs op m)) = m_tr m.
Proof.
  intros cf fs cs ops op V C S m.
  destruct (run_inv cf ops _ V (own_new cf cs) (NoDup_nil _)) as (O & ND & P & _). fold m in O.
  assert (Cl : forall m1, cleared m m1 -> m_tr m1 = m_tr m) by (unfold cleared; tauto).
  destruct op as [l|c|b|q f|q| |l| | |]; try contradiction S.
  - rewrite do_set_language. cbn [snd]. destruct (lang_eqb _ _); reflexivity.
  - destruct (do_set_charset cf fs c m O) as (m1 & H & _ & ->). exact (Cl _ H).
  - destruct (do_set_use_fuzzy cf fs b m O) as (m1 & H & _ & ->). exact (Cl _ H).
  - destruct (in_dec (list_eq_dec ascii_dec) q (m_path m)) as [I|I]; [now rewrite do_add_present|].
    destruct (do_add_directory cf fs q f m O I) as (m1 & H & _ & ->). exact (Cl _ H).
  - destruct (in_dec (list_eq_dec ascii_dec) q (m_path m)) as [I|I]; [|now rewrite do_remove_absent].
    destruct (do_remove_directory cf fs q m O I) as (m1 & H & _ & ->). exact (Cl _ H).
  - now rewrite do_get_languages.
  - reflexivity.
  - reflexivity.
Qed.

(** "hi" has a file of an unknown language and one whose opening throws, "lo" one that
    cannot be opened. *)
Definition log_fs : file_system := {|
  fs_dir := fun p => Ret (if bytes_eqb p (bs "hi") then [bs "zz.po"; bs "de.po"; bs "notes"] else [bs "de.po"]);
  fs_file := fun f => if bytes_eqb f (bs "hi/de.po") then Exn (ExRuntime (bs "no such device")) else Ret None |}.
Example C64_nonvacuous :
  (exists o m, mstep ex_run log_fs (OpGetDictionaryLang de) (fresh ex_run log_fs utf8 [bs "hi"; bs "lo"]) = (o, m) /\
    completed o /\ (exists d, gave o m d) /\
    m_tr m = [EvLog (log_error (bs "error: failure opening: lo/de.po"));
              EvLog (log_warning (bs "zz.po: warning: ignoring, unknown language"));
              EvLog (log_error (bs "error: failure parsing: hi/de.po"));
              EvLog (log_error (bs "no such device"))]) /\
  (exists o m, mstep ex_run ex_fs (OpGetDictionaryLang de_AT) (fresh ex_run ex_fs utf8 [bs "hi"; bs "lo"]) = (o, m) /\
    completed o /\ get_country de_AT <> [] /\ exists d1 d2, gave_over o m d1 d2 /\ lookup d1 (None, bs "a") = Some [bs "AA"] /\
      lookup d2 (None, bs "a") = Some [bs "A"]).
Proof.
  split.
  - eexists. eexists. split; [vm_compute; reflexivity|]. split; [exact Logic.I|].
    split; [eexists; eexists; split; vm_compute; reflexivity|]. vm_compute. reflexivity.
  - eexists. eexists. split; [vm_compute; reflexivity|]. split; [exact Logic.I|]. split; [vm_compute; discriminate|].
    match goal with |- exists d1 d2, gave_over (Ret (OutRef (RefHeap ?p))) ?m _ _ /\ _ =>
      let x := eval vm_compute in (heap_get (m_heap m) p) in let y := eval vm_compute in (heap_get (m_heap m) (S p)) in
      match x with Some ?d1 => match y with Some ?d2 => exists d1, d2 end end end.
    split; [eexists; split; [eexists; split; [reflexivity|vm_compute; reflexivity]|vm_compute; reflexivity]|].
    split; vm_compute; reflexivity.
Qed.

Print Assumptions C64_loading.
Print Assumptions C64_any_time.
Print Assumptions C64_loaded_once.
Print Assumptions C64_other_calls_are_silent.
