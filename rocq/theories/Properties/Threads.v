(** Properties C95 and C96: several threads and one manager. *)
From Verif.Model Require Import Base Log PluralForms Dictionary IConv Language Stream PoParser Manager Threads.
From Verif.Spec Require Import DictSpec LangSpec ParserSpec ManagerSpec ThreadsSpec.
From Verif.Proofs Require Import BaseFacts LangProofs ManagerLoad ManagerOwn ManagerGet ManagerStep ThreadsProofs ThreadsMore ThreadsBad ThreadsSet ThreadsHonest.
From Verif.Properties Require Import Parser Manager.
Local Open Scope list_scope.
Local Opaque from_spec from_env languages.

(** C95. The calls of this model, when no other thread takes a turn, are the calls of the
    sequential model: same answer, same dictionaries, same log. *)
Theorem C95_uninterrupted :
  forall (cf : config) (fs : file_system) (stack : nat) (m : manager) (q : request),
  fst (alone (rcall cf fs stack q) m) = quiet_answer cf fs stack m q /\
  match q with
  | GetDictionary => snd (alone (rcall cf fs stack q) m) = snd (mstep cf fs OpGetDictionary m)
  | GetDictionaryLang l => snd (alone (rcall cf fs stack q) m) = snd (mstep cf fs (OpGetDictionaryLang l) m)
  | Change s => snd (alone (rcall cf fs stack q) m) = snd (mstep cf fs (op_of s) m)
  | _ => same_but_log m (snd (alone (rcall cf fs stack q) m))
  end.
Proof.
  intros cf fs stack m q. split; [apply alone_answer|]. pose proof (alone_state cf fs stack q m) as H.
  destruct q; rewrite H; try (apply sbl_tr; apply sbl_refl); [| |reflexivity]; cbn [mstep]; unfold mmap, mbind.
  - destruct (get_dictionary cf fs m) as [[x|e|u| |] m']; reflexivity.
  - destruct (get_dictionary_lang cf fs depth0 l m) as [[x|e|u| |] m']; reflexivity.
Qed.

(** The accesses recorded are those made: whatever the threads do, settings included, an object
    changes (or a dictionary disappears) only in a turn that records a write to it. *)
Theorem C95_writes_are_recorded :
  forall (cf : config) (fs : file_system) (stack : nat) (cs : bytes) (ops : list (file_system * mop)),
  valid ops ->
  let m := mrun cf ops (new_manager cs) in
  forall (threads : list client) (sched : list nat) (n : nat) (o : object),
  let s := play cf fs stack sched (start threads m) in
  let s' := turn cf fs stack s n in
  ~ same_at o (s_man s) (s_man s') -> s_acc s' = s_acc s ++ [(n, Writes o)].
Proof.
  intros cf fs stack cs ops V m threads sched n o.
  destruct (run_inv cf ops _ V (own_new cf cs) (NoDup_nil _)) as (O & _). fold m in O.
  apply recorded. intros p H. destruct (heap_get (m_heap m) p) as [d|] eqn:E; [|congruence]. exact (live_lt cf m O p d E).
Qed.

(** Threads that ask only for what the manager has got already never write anything but log
    lines, whatever the schedule: there is no data race, every answer is the one a thread
    alone would get, and the manager is what it was. *)
Theorem C95_readers :
  forall (cf : config) (fs : file_system) (stack : nat) (cs : bytes) (ops : list (file_system * mop)),
  valid ops ->
  let m := mrun cf ops (new_manager cs) in
  forall (threads : list client) (sched : list nat),
  Forall (asks (ready_in m) (quiet_answer cf fs stack m)) threads ->
  let s := play cf fs stack sched (start threads m) in
  (forall n o, ~ In (n, Writes o) (s_acc s)) /\ ~ data_race (s_acc s) /\ same_but_log m (s_man s) /\
  (forall n q o, In (q, o) (answers s n) -> o = quiet_answer cf fs stack m q).
Proof.
  intros cf fs stack cs ops V m threads sched A s.
  destruct (run_inv cf ops _ V (own_new cf cs) (NoDup_nil _)) as (O & _). fold m in O.
  pose proof (readers_play cf fs stack m O sched threads A) as H. fold s in H.
  assert (W : forall n o, ~ In (n, Writes o) (s_acc s)).
  { intros n o X. destruct H as (_ & _ & H). destruct (H _ _ X) as (? & ? & _ & R). exact R. }
  split; [exact W|]. split.
  { intros (i & j & a & b & _ & H1 & H2 & C). destruct a as [oa|oa|]; [|exact (W _ _ H1)|exact C].
    destruct b as [ob|ob|]; [exact C|exact (W _ _ H2)|exact C]. }
  split; [exact (proj1 H)|]. intros n q o X. symmetry.
  exact (ok_answers (same_but_log m) (fun _ _ a _ => reading a) (fun _ => ready_in m) (fun _ q o => quiet_answer cf fs stack m q = o) s n q o H X).
Qed.

(** One of the threads may do more - but not change a setting -: load dictionaries, and look things up in them, while the
    others look things up in dictionaries that were there before. There is no data race, the
    others get the answers they would get alone, and so does the one that loads: its answers
    and the manager are those of a run in which the others never have a turn. *)
Theorem C95_one_loader :
  forall (cf : config) (fs : file_system) (stack : nat) (cs : bytes) (ops : list (file_system * mop)),
  valid ops ->
  let m := mrun cf ops (new_manager cs) in
  forall (threads : list client) (sched : list nat) (i : nat),
  (forall c, nth_error threads i = Some c -> always no_change c) ->
  (forall n c, nth_error threads n = Some c -> n <> i -> asks (lookup_in m) (quiet_answer cf fs stack m) c) ->
  let s := play cf fs stack sched (start threads m) in
  let s' := play cf fs stack (List.filter (Nat.eqb i) sched) (start threads m) in
  ~ data_race (s_acc s) /\
  (forall n q o, n <> i -> In (q, o) (answers s n) -> o = quiet_answer cf fs stack m q) /\
  answers s i = answers s' i /\ same_but_log (s_man s) (s_man s').
Proof.
  intros cf fs stack cs ops V m threads sched i B A s s'.
  destruct (run_inv cf ops _ V (own_new cf cs) (NoDup_nil _)) as (O & _). fold m in O.
  pose proof (loader_of_asks cf fs stack m i threads B A) as L.
  pose proof (in_step_play cf fs stack m O i sched _ _ (in_step_start cf fs stack m i threads L)) as H.
  fold s s' in H. destruct H as (H1 & H2 & H3 & _). split; [exact (no_race cf fs stack m O i s H1)|]. split.
  - intros n q o N X. destruct H1 as (_ & HT & _). unfold answers in X. destruct (nth_error (s_threads s) n) as [t|] eqn:E; [|destruct X].
    (* a looker's requests are lookups in dictionaries that were there *)
    assert (R : ready_in m q).
    { pose proof (looker_log cf fs stack m O i threads L sched n q o N) as Y. apply Y. unfold answers. fold s. now rewrite E. }
    exact (proj1 (HT _ _ E) _ _ X R).
  - split; [unfold answers; now rewrite H2|exact H3].
Qed.

(** Any number of threads may load (none changes a setting), if one grants that each access is atomic (C96): the
    requests for what was there before are still answered as if nobody else were running, the
    dictionaries that were there are never written to, and neither are the settings. *)
Theorem C95_undisturbed :
  forall (cf : config) (fs : file_system) (stack : nat) (cs : bytes) (ops : list (file_system * mop)),
  valid ops ->
  let m := mrun cf ops (new_manager cs) in
  forall (threads : list client) (sched : list nat), Forall (always no_change) threads ->
  let s := play cf fs stack sched (start threads m) in
  (forall n q o, In (q, o) (answers s n) -> ready_in m q -> o = quiet_answer cf fs stack m q) /\
  (forall n r, deref m r <> None -> ~ In (n, Writes (TheDict r)) (s_acc s)) /\
  (forall n, ~ In (n, Writes ThePath) (s_acc s) /\ ~ In (n, Writes TheCharset) (s_acc s)) /\
  (forall r d, deref m r = Some d -> deref (s_man s) r = Some d).
Proof.
  intros cf fs stack cs ops V m threads sched NC s.
  destruct (run_inv cf ops _ V (own_new cf cs) (NoDup_nil _)) as (O & _). fold m in O.
  pose proof (un_play cf fs stack m O sched threads NC) as H. fold s in H. split; [|split; [|split]].
  - intros n q o X R. exact (ok_answers _ _ _ (fun _ q o => ready_in m q -> o = quiet_answer cf fs stack m q) s n q o H X R).
  - intros n [|p] D X; destruct H as (_ & _ & H); destruct (H _ _ X) as (? & ? & _ & Y); cbn [permitted] in Y; [exact Y|].
    cbn [deref] in D. destruct (heap_get (m_heap m) p) as [d|] eqn:E; [|congruence]. pose proof (live_lt cf m O p d E). lia.
  - intro n. destruct H as (_ & _ & H). split; intro X; destruct (H _ _ X) as (? & ? & _ & Y); exact Y.
  - intros r d D. destruct H as (U & _). destruct U. destruct r; cbn [deref] in *; [congruence|auto].
Qed.

(** C96 (violation). Two threads that each call get_dictionary(l), one of them for a language the
    manager has not got, race for the map: in every execution in which both calls return. *)
Theorem C96_map_race :
  forall (cf : config) (fs : file_system) (stack : nat) (m : manager) (l0 l1 : language)
         (k0 k1 : outcome answer -> client) (sched : list nat),
  l0 <> None -> l1 <> None -> cache_find l0 (m_cache m) = None ->
  let s := play cf fs stack sched (start [Ask (GetDictionaryLang l0) k0; Ask (GetDictionaryLang l1) k1] m) in
  answers s 0 <> [] -> answers s 1 <> [] -> data_race (s_acc s).
Proof.
  intros cf fs stack m l0 l1 k0 k1 sched N0 N1 C s. apply (racing_race cf fs stack m l0 l1 k0 k1).
  apply racing_play; auto. apply racing_start.
Qed.

(** A call that changes a setting races with a call that reads it, in every execution in which both
    return: set_language (of another language) with get_dictionary() and with set_language;
    add_directory (of a new one) and remove_directory (of an old one) with get_languages,
    add_directory and remove_directory; set_charset and set_use_fuzzy with get_dictionary(l), for
    any l, cached or not, and with one another. *)
Theorem C96_settings_race :
  forall (cf : config) (fs : file_system) (stack : nat) (m : manager) (q0 q1 : request)
         (k0 k1 : outcome answer -> client) (sched : list nat),
  ((exists l, q0 = Change (SetLanguage l) /\ lang_eqb (m_lang m) l = false) /\
   (q1 = GetDictionary \/ exists l', q1 = Change (SetLanguage l'))) \/
  (((exists p pr, q0 = Change (AddDirectory p pr) /\ ~ In p (m_path m)) \/
    (exists p, q0 = Change (RemoveDirectory p) /\ In p (m_path m))) /\
   (q1 = GetLanguages \/ (exists p' pr', q1 = Change (AddDirectory p' pr')) \/ (exists p', q1 = Change (RemoveDirectory p')))) \/
  (((exists c, q0 = Change (SetCharset c)) \/ (exists b, q0 = Change (SetUseFuzzy b))) /\
   ((exists l, q1 = GetDictionaryLang l /\ l <> None) \/ (exists c, q1 = Change (SetCharset c)) \/
    (exists b, q1 = Change (SetUseFuzzy b)))) ->
  let s := play cf fs stack sched (start [Ask q0 k0; Ask q1 k1] m) in
  returned s 0 -> returned s 1 -> data_race (s_acc s).
Proof.
  intros cf fs stack m q0 q1 k0 k1 sched [[(l & -> & D) Q]|[[D Q]|[D Q]]].
  - now apply language_race.
  - now apply path_race.
  - now apply map_race.
Qed.

(** Even if each access were atomic, a thread could be handed the dictionary another one is still
    filling, and get every msgid back untranslated. *)
Theorem C96_unfinished_dictionary :
  forall (cf : config) (fs : file_system) (stack : nat) (m : manager) (l : language)
         (k0 : outcome answer -> client) (msgid : bytes),
  l <> None -> cache_find l (m_cache m) = None -> stack <> 0 ->
  let ask := Ask (GetDictionaryLang l) (fun o => match o with Ret (ADict r) => Ask (Translate r msgid) (fun _ => Stop) | _ => Stop end) in
  exists sched p, let s := play cf fs stack sched (start [Ask (GetDictionaryLang l) k0; ask] m) in
    answers s 1 = [(GetDictionaryLang l, Ret (ADict (RefHeap p))); (Translate (RefHeap p) msgid, Ret (AText msgid))] /\
    deref (s_man s) (RefHeap p) = Some (new_dictionary (m_charset m)) /\ answers s 0 = [].
Proof.
  intros cf fs stack m l k0 i N C St ask. destruct (unfinished cf fs stack l k0 i m N C St) as (sched & H).
  exists sched, (m_next m). exact H.
Qed.

(** And a dictionary could be lost: two threads ask for the same language, one is given the
    dictionary p, the other replaces p in the map by a dictionary of its own. However the
    threads go on, p is never in the map again, and it is there still when the manager has
    been destroyed. *)
Theorem C96_lost_dictionary :
  forall (cf : config) (fs : file_system) (stack : nat) (cs : bytes) (ops : list (file_system * mop)) (l : language)
         (k0 k1 : outcome answer -> client) (p : ptr) (m1 : manager),
  valid ops -> known l -> l <> None ->
  let m := mrun cf ops (new_manager cs) in
  cache_find l (m_cache m) = None ->
  mstep cf fs (OpGetDictionaryLang l) m = (Ret (OutRef (RefHeap p)), m1) ->
  exists sched, let s := play cf fs stack sched (start [Ask (GetDictionaryLang l) k0; Ask (GetDictionaryLang l) k1] m) in
    answers s 1 = [(GetDictionaryLang l, Ret (ADict (RefHeap p)))] /\
    forall more, let m' := s_man (play cf fs stack more s) in
      heap_get (m_heap m') p <> None /\ ~ In p (List.map snd (m_cache m')) /\
      heap_get (m_heap (snd (destroy_manager m'))) p <> None.
Proof.
  intros cf fs stack cs ops l k0 k1 p m1 V K N m C G.
  destruct (run_inv cf ops _ V (own_new cf cs) (NoDup_nil _)) as (O & _). fold m in O.
  assert (G' : get_dictionary_lang cf fs depth0 l m = (Ret p, m1)).
  { cbn [mstep] in G. unfold mmap, mbind in G. destruct (get_dictionary_lang cf fs depth0 l m) as [[x|e|u| |] m2]; try discriminate.
    unfold mret in G. now injection G as -> ->. }
  destruct (lost_forever cf fs stack l k0 k1 m p m1 O K N C G') as (sched & H1 & H2). exists sched. cbv zeta in *. split; [exact H1|].
  intro more. specialize (H2 more). destruct H2 as (_ & H2 & H3). split; [exact H2|]. split; [exact H3|].
  unfold destroy_manager. rewrite bind_get. now apply delete_all_lost.
Qed.

(** Five threads: one loads de_AT, whose base de is there, the others look things up in de, or
    ask which languages there are. *)
Definition ex_before : list (file_system * mop) :=
  [(ex_fs, OpAddDirectory (bs "hi") false); (ex_fs, OpGetDictionaryLang de); (ex_fs, OpSetLanguage de); (ex_fs, OpGetDictionary)].
Definition ex_threads : list client :=
  [Ask GetDictionary (fun o => match o with Ret (ADict r) => Ask (Translate r (bs "a")) (fun _ => Ask (TranslatePlural r (bs "b") (bs "bs") 1) (fun _ => Stop)) | _ => Stop end);
   Ask (GetDictionaryLang de_AT) (fun o => match o with Ret (ADict r) => Ask (Translate r (bs "b")) (fun _ => Stop) | _ => Stop end);
   Ask (TranslateCtxt (RefHeap 0) (bs "menu") (bs "a")) (fun _ => Stop);
   Ask (GetDictionaryLang de) (fun _ => Ask (Translate (RefHeap 0) (bs "x")) (fun _ => Stop));
   Ask GetLanguages (fun _ => Stop)].
Example C95_nonvacuous :
  let m := mrun ex_run ex_before (new_manager utf8) in
  Forall (always no_change) ex_threads /\ valid ex_before /\ ready_in m GetDictionary /\ lookup_in m (Translate (RefHeap 0) (bs "a")) /\
  (forall n c, nth_error [nth 1 ex_threads Stop; nth 0 ex_threads Stop; nth 2 ex_threads Stop; nth 4 ex_threads Stop] n = Some c -> n <> 0 ->
     asks (lookup_in m) (quiet_answer ex_run ex_fs 9 m) c) /\
  let s := play ex_run ex_fs 9 (flat_map (fun _ => [0; 1; 2; 3; 4]) (repeat tt 40)) (start ex_threads m) in
  answers s 0 = [(GetDictionary, Ret (ADict (RefHeap 0))); (Translate (RefHeap 0) (bs "a"), Ret (AText (bs "A")));
                 (TranslatePlural (RefHeap 0) (bs "b") (bs "bs") 1, Ret (AText (bs "B")))] /\
  answers s 1 = [(GetDictionaryLang de_AT, Ret (ADict (RefHeap 1))); (Translate (RefHeap 1) (bs "b"), Ret (AText (bs "B")))] /\
  answers s 2 = [(TranslateCtxt (RefHeap 0) (bs "menu") (bs "a"), Ret (AText (bs "a")))] /\
  length (answers s 3) = 2 /\ answers s 4 = [(GetLanguages, Ret (ALangs [de; de_AT]))].
Proof.
  cbv zeta. set (m := mrun ex_run ex_before (new_manager utf8)).
  assert (A : quiet_answer ex_run ex_fs 9 m GetDictionary = Ret (ADict (RefHeap 0))) by (vm_compute; reflexivity).
  split.
  { repeat (apply Forall_cons; [|]); [| | | | |apply Forall_nil]; cbn [always no_change]; (split; [exact Logic.I|]);
      try (intros [[]|e|u| |]); cbn [always no_change]; auto. }
  split; [unfold valid, ex_before; client|]. split; [left; vm_compute; discriminate|].
  split; [exists (RefHeap 0); split; [reflexivity|vm_compute; discriminate]|]. split.
  - intros [|[|[|[|n]]]] c E N; [congruence| | | |destruct n; discriminate]; injection E as <-.
    + split; [left; vm_compute; discriminate|]. rewrite A. cbn [asks lookup_in asked_of].
      repeat split; exists (RefHeap 0); (split; [reflexivity|vm_compute; discriminate]).
    + split; [exists (RefHeap 0); (split; [reflexivity|vm_compute; discriminate])|exact Logic.I].
    + split; exact Logic.I.
  - vm_compute. repeat split.
Qed.
Example C95_writes_nonvacuous :
  let m := mrun ex_run ex_before (new_manager utf8) in
  let s := play ex_run ex_fs 9 [0; 0] (start [Ask (Change (SetLanguage de_AT)) (fun _ => Stop)] m) in
  let s1 := play ex_run ex_fs 9 [0; 0; 0; 0] (start [Ask (Change (SetUseFuzzy false)) (fun _ => Stop)] m) in
  ~ same_at TheCurrent (s_man s) (s_man (turn ex_run ex_fs 9 s 0)) /\
  deref m (RefHeap 0) <> None /\ deref (s_man s1) (RefHeap 0) = None.
Proof.
  cbv zeta. split; [|split; [vm_compute; discriminate|vm_compute; reflexivity]].
  intros [H _]. revert H. vm_compute. discriminate.
Qed.
Example C96_nonvacuous :
  let ops := [(ex_fs, OpAddDirectory (bs "hi") false)] in
  let m := mrun ex_run ops (new_manager utf8) in
  valid ops /\ known de /\ de <> None /\ cache_find de (m_cache m) = None /\
  (exists m1, mstep ex_run ex_fs (OpGetDictionaryLang de) m = (Ret (OutRef (RefHeap 0)), m1) /\
              quiet_answer ex_run ex_fs 9 m1 (Translate (RefHeap 0) (bs "a")) = Ret (AText (bs "A"))) /\
  let s := play ex_run ex_fs 9 (repeat 0 40 ++ repeat 1 40)
             (start [Ask (GetDictionaryLang de) (fun _ => Stop); Ask (GetDictionaryLang de) (fun _ => Stop)] m) in
  answers s 0 <> [] /\ answers s 1 <> [] /\
  let race q := let s := play ex_run ex_fs 9 (repeat 0 40 ++ repeat 1 40) (start [Ask (fst q) (fun _ => Stop); Ask (snd q) (fun _ => Stop)] m) in
                returned s 0 /\ returned s 1 in
  lang_eqb (m_lang m) de = false /\ ~ In (bs "lo") (m_path m) /\ In (bs "hi") (m_path m) /\
  race (Change (SetLanguage de), GetDictionary) /\ race (Change (AddDirectory (bs "lo") true), GetLanguages) /\
  race (Change (RemoveDirectory (bs "hi")), GetLanguages) /\ race (Change (SetUseFuzzy true), GetDictionaryLang de_AT).
Proof.
  cbv zeta. split; [unfold valid; client|]. split; [exact de_known|]. split; [discriminate|]. split; [vm_compute; reflexivity|].
  split; [eexists; split; [vm_compute; reflexivity|vm_compute; reflexivity]|].
  split; [vm_compute; discriminate|]. split; [vm_compute; discriminate|]. split; [vm_compute; reflexivity|].
  split; [vm_compute; intros [X|[]]; discriminate X|]. split; [vm_compute; now left|].
  unfold returned. cbn [fst snd]. repeat split; do 3 eexists; vm_compute; reflexivity.
Qed.

Print Assumptions C95_uninterrupted.
Print Assumptions C95_readers.
Print Assumptions C95_one_loader.
Print Assumptions C95_undisturbed.
Print Assumptions C96_map_race.
Print Assumptions C96_unfinished_dictionary.
Print Assumptions C96_lost_dictionary.
Print Assumptions C96_settings_race.
Print Assumptions C95_writes_are_recorded.
