(** What goes wrong when two threads call get_dictionary. *)
From Verif.Model Require Import Base Log PluralForms Dictionary IConv Language Stream PoParser Manager Threads.
From Verif.Spec Require Import DictSpec LangSpec ManagerSpec ThreadsSpec.
From Verif.Proofs Require Import BaseFacts LangProofs ManagerLoad ManagerOwn ManagerGet ManagerStep ThreadsProofs.
Local Open Scope list_scope.
Local Opaque from_spec from_env languages.

Section Bad.
  Variable cf : config.
  Variable fs : file_system.
  Variable stack : nat.
  Local Notation turn := (turn cf fs stack).
  Local Notation play := (play cf fs stack).
  Local Notation rcall := (rcall cf fs stack).

  Definition as_ref (p : ptr) : answer := ADict (RefHeap p).
  (** get_dictionary(l) when the find has failed; when the dictionary has been made; when it has been inserted *)
  Definition missed (l : language) : res answer :=
    rmap as_ref (rbind (act (Reads TheCharset) make) (fun id => rbind (insert_step l id) (fun _ => after_insert cf fs 1 l id))).
  Definition made (l : language) (id : ptr) : res answer :=
    rmap as_ref (rbind (insert_step l id) (fun _ => after_insert cf fs 1 l id)).
  Definition inserted (l : language) (id : ptr) : res answer := rmap as_ref (after_insert cf fs 1 l id).
  Definition found (l : language) : res answer :=
    Tick (Reads TheMap) (fun m => (match cache_find l (m_cache m) with Some p => Fin (Ret (as_ref p)) | None => missed l end, m)).

  Lemma call_first l m : l <> None ->
    exists f, rcall (GetDictionaryLang l) = Tick (Reads TheMap) f /\
      f m = (match cache_find l (m_cache m) with Some p => Fin (Ret (as_ref p)) | None => missed l end, m).
  Proof.
    intro N. cbn [Threads.rcall]. unfold depth0. rewrite (rget_lang_S cf fs 1 l N).
    eexists. split; [reflexivity|]. cbn [mget]. destruct (cache_find l (m_cache m)); reflexivity.
  Qed.
  Lemma missed_step l m : exists f, missed l = Tick (Reads TheCharset) f /\ f m = (made l (m_next m), snd (make m)).
  Proof. eexists. split; [reflexivity|]. reflexivity. Qed.
  Lemma made_step l id m : exists f, made l id = Tick (Writes TheMap) f /\
    f m = (inserted l id, upd_cache m (cache_set l id (m_cache m))).
  Proof. eexists. split; [reflexivity|]. reflexivity. Qed.

  (** one turn *)
  Lemma turn_busy s n t q r k a f : nth_error (s_threads s) n = Some t -> th_now t = Busy q r k -> r = Tick a f ->
    turn s n = {| s_threads := put_nth n {| th_log := th_log t; th_now := Busy q (fst (f (s_man s))) k |} (s_threads s);
                  s_man := snd (f (s_man s)); s_acc := s_acc s ++ [(n, a)] |}.
  Proof. intros E N ->. unfold Threads.turn, thread_step. rewrite E, N. destruct (f (s_man s)); reflexivity. Qed.
  Lemma turn_ask s n t q k : nth_error (s_threads s) n = Some t -> th_now t = Idle (Ask q k) ->
    turn s n = {| s_threads := put_nth n {| th_log := th_log t; th_now := Busy q (rcall q) k |} (s_threads s);
                  s_man := s_man s; s_acc := s_acc s ++ [] |}.
  Proof. intros E N. unfold Threads.turn, thread_step. rewrite E, N. reflexivity. Qed.
  Lemma turn_end s n t q o k : nth_error (s_threads s) n = Some t -> th_now t = Busy q (Fin o) k ->
    turn s n = {| s_threads := put_nth n {| th_log := th_log t ++ [(q, o)]; th_now := Idle (k o) |} (s_threads s);
                  s_man := s_man s; s_acc := s_acc s ++ [] |}.
  Proof. intros E N. unfold Threads.turn, thread_step. rewrite E, N. reflexivity. Qed.
  Lemma put_twice {A} n (x y : A) l : put_nth n x (put_nth n y l) = put_nth n x l.
  Proof. revert n. induction l as [|z l IH]; intros [|n]; cbn; auto. now rewrite IH. Qed.

  Lemma play_app a b s : play (a ++ b) s = play b (play a s).
  Proof. apply fold_left_app. Qed.
  (** a call that is given all the turns *)
  Lemma play_alone q k n log r : forall s, nth_error (s_threads s) n = Some {| th_log := log; th_now := Busy q r k |} ->
    exists j, let s' := play (repeat n j) s in
      s_threads s' = put_nth n {| th_log := log; th_now := Busy q (Fin (fst (alone r (s_man s)))) k |} (s_threads s) /\
      s_man s' = snd (alone r (s_man s)).
  Proof.
    induction r as [o|a f IH] using res_ind'; intros s E.
    - exists 0. cbn [repeat Threads.play fold_left alone fst snd]. split; [|reflexivity]. clear -E.
      revert n E. induction (s_threads s) as [|t l IH]; intros [|n] E; cbn in *; try discriminate; [congruence|]. f_equal. now apply IH.
    - pose proof (turn_busy s n _ q (Tick a f) k a f E eq_refl eq_refl) as T. cbn [th_log] in T.
      specialize (IH (s_man s) (turn s n)). rewrite T in IH at 1. cbn [s_threads] in IH.
      rewrite (nth_put_same _ _ _ _ E) in IH. destruct (IH eq_refl) as (j & H1 & H2). exists (S j).
      cbn [repeat]. change (play (n :: repeat n j) s) with (play (repeat n j) (turn s n)). cbv zeta.
      rewrite H1, H2, T. cbn [s_threads s_man alone]. rewrite put_twice. destruct (f (s_man s)). auto.
  Qed.

  (** ** Two threads *)
  Lemma first_two q0 q1 k0 k1 m l0 : q0 = GetDictionaryLang l0 -> l0 <> None -> cache_find l0 (m_cache m) = None ->
    let s := play [0; 0] (start [Ask q0 k0; Ask q1 k1] m) in
    s_threads s = [{| th_log := []; th_now := Busy q0 (missed l0) k0 |}; start_thread (Ask q1 k1)] /\ s_man s = m.
  Proof.
    intros -> N C. set (s0 := start _ m). change (play [0; 0] s0) with (turn (turn s0 0) 0).
    pose proof (turn_ask s0 0 _ _ _ eq_refl eq_refl) as T. cbn [s0 start List.map put_nth s_threads s_man th_log start_thread s_acc app] in T.
    fold s0. change (Threads.turn cf fs stack) with turn in T. cbv zeta. rewrite T.
    destruct (call_first l0 m N) as (f & E & F). erewrite turn_busy; [|reflexivity|reflexivity|exact E].
    cbn [put_nth s_threads s_man th_log]. rewrite F, C. auto.
  Qed.
  Lemma next_two k0 m (l0 : language) q0 rest acc :
    let s := play [0; 0] {| s_threads := {| th_log := []; th_now := Busy q0 (missed l0) k0 |} :: rest; s_man := m; s_acc := acc |} in
    s_threads s = {| th_log := []; th_now := Busy q0 (inserted l0 (m_next m)) k0 |} :: rest /\
    s_man s = upd_cache (snd (make m)) (cache_set l0 (m_next m) (m_cache m)).
  Proof.
    set (s0 := {| s_threads := _; s_man := m; s_acc := acc |}). change (play [0; 0] s0) with (turn (turn s0 0) 0).
    destruct (missed_step l0 m) as (f & E & F).
    pose proof (turn_busy s0 0 _ _ _ _ _ _ eq_refl eq_refl E) as T. cbn [s0 put_nth s_threads s_man th_log] in T. rewrite F in T. cbn [fst snd] in T.
    cbv zeta. rewrite T.
    destruct (made_step l0 (m_next m) (snd (make m))) as (f2 & E2 & F2). erewrite turn_busy; [|reflexivity|reflexivity|exact E2].
    cbn [put_nth s_threads s_man th_log]. rewrite F2. auto.
  Qed.

  (** a whole call *)
  Lemma play_whole n log q k s : nth_error (s_threads s) n = Some {| th_log := log; th_now := Idle (Ask q k) |} ->
    exists j, let s' := play (repeat n j) s in
      s_threads s' = put_nth n {| th_log := log ++ [(q, quiet_answer cf fs stack (s_man s) q)];
                                  th_now := Idle (k (quiet_answer cf fs stack (s_man s) q)) |} (s_threads s) /\
      s_man s' = snd (alone (rcall q) (s_man s)).
  Proof.
    intro E. pose proof (turn_ask s n _ q k E eq_refl) as T. cbn [th_log] in T.
    destruct (play_alone q k n log (rcall q) (turn s n)) as (j & H1 & H2).
    { rewrite T. cbn [s_threads]. exact (nth_put_same _ _ _ _ E). }
    exists (S (j + 1)). cbn [repeat]. change (play (n :: repeat n (j + 1)) s) with (play (repeat n (j + 1)) (turn s n)).
    rewrite repeat_app, play_app. cbn [repeat]. change (play [n] ?x) with (turn x n). cbv zeta in *.
    assert (M : s_man (turn s n) = s_man s) by now rewrite T. rewrite M in H1, H2. rewrite (alone_answer cf fs stack q (s_man s)) in H1.
    assert (E2 : nth_error (s_threads (play (repeat n j) (turn s n))) n = Some {| th_log := log; th_now := Busy q (Fin (quiet_answer cf fs stack (s_man s) q)) k |}).
    { rewrite H1, T. cbn [s_threads]. rewrite put_twice. exact (nth_put_same _ _ _ _ E). }
    rewrite (turn_end _ _ _ _ _ _ E2 eq_refl). cbn [s_threads s_man th_log]. rewrite H1, H2, T. cbn [s_threads].
    rewrite !put_twice. auto.
  Qed.

  Lemma four_turns l k0 rest m : l <> None -> cache_find l (m_cache m) = None ->
    forall q1 k1, rest = [Ask q1 k1] ->
    let s := play [0; 0; 0; 0] (start (Ask (GetDictionaryLang l) k0 :: rest) m) in
    s_threads s = [{| th_log := []; th_now := Busy (GetDictionaryLang l) (inserted l (m_next m)) k0 |}; start_thread (Ask q1 k1)] /\
    s_man s = upd_cache (snd (make m)) (cache_set l (m_next m) (m_cache m)).
  Proof.
    intros N C q1 k1 ->. cbv zeta. change [0; 0; 0; 0] with ([0; 0] ++ [0; 0]). rewrite play_app.
    destruct (first_two (GetDictionaryLang l) q1 k0 k1 m l eq_refl N C) as [H1 H2].
    destruct (play [0; 0] (start [Ask (GetDictionaryLang l) k0; Ask q1 k1] m)) as [ts m' acc]. cbn [s_threads s_man] in H1, H2. subst ts m'.
    apply next_two.
  Qed.

  (** * The unfinished dictionary *)
  Lemma unfinished l k0 i m : l <> None -> cache_find l (m_cache m) = None -> stack <> 0 ->
    let ask := Ask (GetDictionaryLang l) (fun o => match o with Ret (ADict r) => Ask (Translate r i) (fun _ => Stop) | _ => Stop end) in
    exists sched, let s := play sched (start [Ask (GetDictionaryLang l) k0; ask] m) in
      answers s 1 = [(GetDictionaryLang l, Ret (ADict (RefHeap (m_next m)))); (Translate (RefHeap (m_next m)) i, Ret (AText i))] /\
      deref (s_man s) (RefHeap (m_next m)) = Some (new_dictionary (m_charset m)) /\
      answers s 0 = [].
  Proof.
    intros N C St ask. set (p := m_next m).
    destruct (four_turns l k0 [ask] m N C _ _ eq_refl) as [H1 H2]. cbv zeta in H1, H2.
    set (s4 := play [0; 0; 0; 0] _) in *. fold p in H1, H2. set (m4 := upd_cache _ _) in H2.
    assert (C4 : cache_find l (m_cache m4) = Some p).
    { unfold m4. cbn [m_cache upd_cache]. rewrite cache_set_find. now rewrite lang_eqb_refl. }
    assert (G : get_dictionary_lang cf fs depth0 l m4 = (Ret p, m4)).
    { unfold depth0. cbn [get_dictionary_lang]. assert (is_none l = false) as -> by (destruct l; [reflexivity|congruence]).
      rewrite Bool.andb_false_r, bind_get, C4. reflexivity. }
    assert (D4 : heap_get (m_heap m4) p = Some (new_dictionary (m_charset m))).
    { unfold m4. cbn [m_heap upd_cache make snd heap_get]. unfold p. now rewrite Nat.eqb_refl. }
    destruct (play_whole 1 [] (GetDictionaryLang l) _ s4 ltac:(rewrite H1; reflexivity)) as (j & H3 & H4). cbv zeta in H3, H4.
    set (s5 := play (repeat 1 j) s4) in *. rewrite H1 in H3. rewrite alone_state in H4. rewrite H2 in H3, H4. cbn [quiet_answer] in H3.
    rewrite G in H3, H4. cbn [snd] in H4. cbn [put_nth app omap fst] in H3.
    destruct (play_whole 1 [(GetDictionaryLang l, Ret (ADict (RefHeap p)))] (Translate (RefHeap p) i) (fun _ => Stop) s5
                ltac:(rewrite H3; reflexivity)) as (j2 & H5 & H6). cbv zeta in H5, H6.
    set (s6 := play (repeat 1 j2) s5) in *. rewrite alone_state in H6. rewrite H4 in H5, H6. rewrite H3 in H5.
    cbn [quiet_answer deref] in H5. rewrite D4 in H5. cbn [put_nth app] in H5.
    assert (T : fst (translate stack (m_heap m4) (new_dictionary (m_charset m)) i) = Ret i).
    { destruct stack; [congruence|]. reflexivity. }
    rewrite T in H5. cbn [omap] in H5.
    exists ([0; 0; 0; 0] ++ repeat 1 j ++ repeat 1 j2). cbv zeta. rewrite !play_app. fold s4. fold s5. fold s6.
    unfold answers. rewrite H5, H6. cbn [nth_error th_log]. split; [reflexivity|]. split; [exact D4|reflexivity].
  Qed.

  (** * The lost dictionary *)
  Definition lost (p : ptr) (m : manager) : Prop :=
    p < m_next m /\ heap_get (m_heap m) p <> None /\ ~ In p (List.map snd (m_cache m)).
  Lemma filter_out p q (h : heap) : q <> p -> heap_get h p <> None ->
    heap_get (List.filter (fun e => negb (Nat.eqb q (fst e))) h) p <> None.
  Proof.
    intros Nq H X. apply H. revert X. clear H.
    induction h as [|[x d'] h IHh]; [auto|]. cbn [List.filter fst heap_get].
    destruct (Nat.eqb_spec q x) as [<-|Nx]; cbn [negb].
    - destruct (Nat.eqb_spec p q); [congruence|exact IHh].
    - cbn [heap_get]. destruct (Nat.eqb_spec p x); [discriminate|exact IHh].
  Qed.
  Definition whatever (_ : manager) (_ : access) (_ : manager) : Prop := True.
  Lemma cache_set_snd l id c x : In x (List.map snd (cache_set l id c)) -> x = id \/ In x (List.map snd c).
  Proof.
    induction c as [|[k q] c IH]; cbn [cache_set List.map snd]; [intros [<-|[]]; now left|].
    destruct (lang_eqb l k); cbn [List.map snd]; intros [H|H].
    - now left.
    - right. now right.
    - right. now left.
    - destruct (IH H); [now left|right; now right].
  Qed.
  Lemma lost_make p m : lost p m -> lost p (snd (make m)).
  Proof.
    intros (H1 & H2 & H3). split; [|split]; cbn [make snd m_next m_heap m_cache]; [lia| |exact H3].
    cbn [heap_get]. destruct (Nat.eqb_spec p (m_next m)); [lia|exact H2].
  Qed.
  Lemma lost_heap p m id d : id <> p -> lost p m -> lost p (upd_heap m (heap_set (m_heap m) id d)).
  Proof.
    intros N (H1 & H2 & H3). split; [|split]; cbn [upd_heap m_next m_heap m_cache]; [exact H1| |exact H3]. now rewrite heap_get_set_other.
  Qed.
  Lemma lost_insert p m l id : id <> p -> lost p m -> lost p (upd_cache m (cache_set l id (m_cache m))).
  Proof.
    intros N (H1 & H2 & H3). split; [|split]; cbn [upd_cache m_next m_heap m_cache]; [exact H1|exact H2|].
    intro X. apply cache_set_snd in X. destruct X; [congruence|contradiction].
  Qed.
  Lemma lost_tr p m t : lost p m -> lost p (upd_tr m t). Proof. exact (fun H => H). Qed.
  Lemma lost_lang p m l c : lost p m -> lost p (upd_lang m l c). Proof. exact (fun H => H). Qed.
  Lemma lost_delete p m id : id <> p -> lost p m -> lost p (snd (delete id m)).
  Proof.
    intros N (H1 & H2 & H3). unfold delete. destruct (heap_get (m_heap m) id) as [d|]; [|repeat split; assumption].
    split; [|split]; cbn [snd m_next m_heap m_cache]; [exact H1| |exact H3]. now apply filter_out.
  Qed.
  Lemma lost_call p q : runs (lost p) whatever eps (rcall q).
  Proof.
    destruct (classify q) as [NC|(s & ->)].
    2: { cbn [rcall]. apply (runs_map _ _ _ eps); [|exact (fun _ _ => I)]. apply (runs_set (lost p) whatever (fun id => id <> p)).
         - intros; exact I.
         - intros m (_ & _ & H). apply Forall_forall. intros x X ->. contradiction.
         - intros m id N M. split; [exact I|now apply lost_delete].
         - intros m (H1 & H2 & _). split; [exact I|]. repeat split; auto.
         - intros m l c M. split; [exact I|now apply lost_lang].
         - intros m c M. split; [exact I|exact M].
         - intros m c M. split; [exact I|exact M].
         - intros m c M. split; [exact I|exact M]. }
    apply (runs_call_any cf fs (lost p) whatever) with (mine := fun id => id <> p) (missing := fun _ => True); auto.
    - intros. split; [exact I|now apply lost_tr].
    - intros; exact I.
    - intros m id d N M. split; [exact I|split; [exact I|now apply lost_heap]].
    - intros m M. split; [exact I|]. split; [now apply lost_make|]. destruct M. lia.
    - intros m l id M _ N. split; [exact I|now apply lost_insert].
    - intros. split; [exact I|now apply lost_lang].
  Qed.
  Lemma lost_inserted p l id : id <> p -> runs (lost p) whatever eps (inserted l id).
  Proof.
    intro N. apply (runs_map (lost p) whatever as_ref eps eps); [|exact (fun _ _ => I)].
    apply (runs_after_insert cf fs (lost p) whatever) with (mine := fun id => id <> p) (missing := fun _ => True); auto.
    - intros. split; [exact I|now apply lost_tr].
    - intros; exact I.
    - intros m i d Ni M. split; [exact I|split; [exact I|now apply lost_heap]].
    - intros m M. split; [exact I|]. split; [now apply lost_make|]. destruct M. lia.
    - intros m l' i M _ Ni. split; [exact I|now apply lost_insert].
  Qed.
  Lemma delete_all_lost p c : forall m, ~ In p (List.map snd c) -> heap_get (m_heap m) p <> None ->
    heap_get (m_heap (snd (delete_all c m))) p <> None.
  Proof.
    induction c as [|[k q] c IH]; intros m N H; [exact H|]. cbn [delete_all List.map snd] in *.
    unfold mbind. unfold delete at 1. destruct (heap_get (m_heap m) q) as [d|]; [|exact H].
    apply IH; [intro Y; apply N; now right|]. cbn [m_heap]. apply filter_out; [|exact H]. intros ->. apply N. now left.
  Qed.
  Lemma unlisted l id c p : NoDup (List.map snd c) -> cache_find l c = Some p -> id <> p -> ~ In p (List.map snd (cache_set l id c)).
  Proof.
    induction c as [|[k q] c IH]; cbn [cache_find cache_set List.map snd]; [discriminate|]. intros ND F Ne. inversion ND as [|? ? X Y]; subst.
    destruct (lang_eqb l k).
    - injection F as ->. cbn [List.map snd]. intros [H|H]; [congruence|contradiction].
    - cbn [List.map snd]. intros [H|H]; [|now apply (IH Y F Ne)]. subst q. apply X.
      apply cache_find_in in F. destruct F as (k' & F & _). apply in_map_iff. exists (k', p). auto.
  Qed.
  Lemma lost_forever l k0 k1 m p m1 : own (cf_ndebug cf) m -> known l -> l <> None -> cache_find l (m_cache m) = None ->
    get_dictionary_lang cf fs depth0 l m = (Ret p, m1) ->
    exists sched, let s := play sched (start [Ask (GetDictionaryLang l) k0; Ask (GetDictionaryLang l) k1] m) in
      answers s 1 = [(GetDictionaryLang l, Ret (ADict (RefHeap p)))] /\
      forall more, lost p (s_man (play more s)).
  Proof.
    intros O K N C G.
    rewrite (gd_eq cf fs l m K) in G.
    destruct (get_inv cf fs m l O K) as (O1 & _ & F1). rewrite G in O1, F1. cbn [fst snd] in O1, F1. specialize (F1 p eq_refl).
    destruct (first_two (GetDictionaryLang l) (GetDictionaryLang l) k0 k1 m l eq_refl N C) as [H1 H2]. cbv zeta in H1, H2.
    set (s2 := play [0; 0] _) in *.
    destruct (play_whole 1 [] (GetDictionaryLang l) k1 s2 ltac:(rewrite H1; reflexivity)) as (j & H3 & H4). cbv zeta in H3, H4.
    set (s3 := play (repeat 1 j) s2) in *. rewrite H1 in H3. rewrite alone_state in H4. rewrite H2 in H3, H4. cbn [quiet_answer] in H3.
    rewrite (gd_eq cf fs l m K), G in H3, H4. cbn [snd] in H4. cbn [put_nth app omap fst] in H3.
    assert (E3 : s3 = {| s_threads := s_threads s3; s_man := s_man s3; s_acc := s_acc s3 |}) by now destruct s3.
    rewrite H3, H4 in E3. set (acc3 := s_acc s3) in E3.
    pose proof (next_two k0 m1 l (GetDictionaryLang l) [{| th_log := [(GetDictionaryLang l, Ret (ADict (RefHeap p)))]; th_now := Idle (k1 (Ret (ADict (RefHeap p)))) |}] acc3) as [H5 H6].
    cbv zeta in H5, H6. set (s5 := play [0; 0] _) in H5, H6.
    exists ([0; 0] ++ repeat 1 j ++ [0; 0]). cbv zeta. rewrite !play_app. fold s2. fold s3. rewrite E3. fold s5. clearbody s5.
    assert (P : p < m_next m1) by (apply (own_lt cf m1 p O1); apply cache_find_in in F1; destruct F1 as (k & F1 & _); apply in_map_iff; exists (k, p); auto).
    assert (L : lost p (s_man s5)).
    { rewrite H6. split; [|split].
      - cbn [m_next upd_cache make snd]. lia.
      - cbn [m_heap upd_cache make snd heap_get]. destruct (Nat.eqb_spec p (m_next m1)); [lia|].
        destruct (own_found cf m1 l p O1 F1) as (d & ->). discriminate.
      - cbn [m_cache upd_cache make snd]. apply unlisted; [apply (own_ptrs cf m1 O1)|exact F1|lia]. }
    split; [unfold answers; rewrite H5; reflexivity|]. intro more.
    apply (play_ok cf fs stack (lost p) (fun _ => whatever) (fun _ _ => True) (fun _ _ => eps) (fun _ q _ => lost_call p q) more s5).
    split; [exact L|]. split.
    - rewrite H5. intros [|[|n]] t; cbn [nth_error]; intro X; try (destruct n; discriminate); injection X as <-;
        (split; [intros; exact I|]); cbn [th_now].
      + split; [apply lost_inserted; lia|intros; now apply follows_any].
      + now apply follows_any.
    - intros n a _. exists (s_man s5), (s_man s5). split; [exact L|exact I].
  Qed.

  (** * The race for the map *)
  Section Race.
    Variable m0 : manager.
    Variables l0 l1 : language.
    Variables k0 k1 : outcome answer -> client.
    Hypothesis N0 : l0 <> None.
    Hypothesis N1 : l1 <> None.
    Hypothesis C0 : cache_find l0 (m_cache m0) = None.

    Definition careful (m : manager) (a : access) (m' : manager) : Prop := a = Writes TheMap \/ m_cache m' = m_cache m.
    Lemma careful_call q : runs (fun _ => True) careful eps (rcall q).
    Proof.
      destruct (classify q) as [NC|(s & ->)].
      2: { cbn [rcall]. apply (runs_map _ _ _ eps); [|exact (fun _ _ => I)]. apply (runs_set (fun _ => True) careful (fun _ => True)); intros;
           repeat split; try exact I; try (now right); try (now left).
           - apply Forall_forall. auto.
           - right. unfold delete. destruct (heap_get (m_heap m) id); reflexivity. }
      apply (runs_call_any cf fs (fun _ => True) careful) with (mine := fun _ => True) (missing := fun _ => True); auto;
        intros; repeat split; try exact I; try (now right); now left.
    Qed.
    Definition wrote (acc : list (nat * access)) : Prop := exists k, In (k, Writes TheMap) acc.
    (** the thread has not got beyond its first access *)
    Definition early (t : thread) (l : language) (k : outcome answer -> client) : Prop :=
      th_log t = [] /\ (th_now t = Idle (Ask (GetDictionaryLang l) k) \/
                        th_now t = Busy (GetDictionaryLang l) (rcall (GetDictionaryLang l)) k).
    Definition earlyish (t : thread) (l : language) (k : outcome answer -> client) : Prop :=
      early t l k \/ (th_log t = [] /\ (th_now t = Busy (GetDictionaryLang l) (missed l) k \/
                                        exists id, th_now t = Busy (GetDictionaryLang l) (made l id) k)).
    Definition racing (s : system) : Prop :=
      system_ok (fun _ => True) (fun _ => careful) (fun _ _ => True) (fun _ _ => eps) s /\
      (m_cache (s_man s) = m_cache m0 \/ wrote (s_acc s)) /\
      (forall n a, In (n, a) (s_acc s) -> n = 0 \/ n = 1) /\
      exists t0 t1, s_threads s = [t0; t1] /\
        (early t0 l0 k0 \/ In (0, Reads TheMap) (s_acc s)) /\
        (early t1 l1 k1 \/ In (1, Reads TheMap) (s_acc s)) /\
        (earlyish t0 l0 k0 \/ wrote (s_acc s)).

    Lemma early_step (n : nat) l k t m acc : l <> None -> early t l k \/ In (n, Reads TheMap) acc ->
      match thread_step cf fs stack t m with (t', a, m') =>
        early t' l k \/ In (n, Reads TheMap) (acc ++ match a with Some a => [(n, a)] | None => [] end) end.
    Proof.
      intros N [[L [W|W]]|H].
      - unfold thread_step. rewrite W. left. split; [exact L|now right].
      - unfold thread_step. rewrite W. destruct (call_first l m N) as (f & -> & F). rewrite F. right. apply in_or_app. right. now left.
      - destruct (thread_step cf fs stack t m) as [[t' a] m']. right. apply in_or_app. now left.
    Qed.
    Lemma wrote_app acc (b : list (nat * access)) : wrote acc -> wrote (acc ++ b).
    Proof. intros (k & H). exists k. apply in_or_app. now left. Qed.
    Lemma earlyish_step (n : nat) t m acc : (m_cache m = m_cache m0 \/ wrote acc) -> earlyish t l0 k0 \/ wrote acc ->
      match thread_step cf fs stack t m with (t', a, m') =>
        earlyish t' l0 k0 \/ wrote (acc ++ match a with Some a => [(n, a)] | None => [] end) end.
    Proof.
      intros HC [H|H].
      2: { destruct (thread_step cf fs stack t m) as [[t' a] m']. right. now apply wrote_app. }
      destruct H as [[L [W|W]]|[L [W|(id & W)]]]; unfold thread_step; rewrite W.
      - left. left. split; [exact L|now right].
      - destruct (call_first l0 m N0) as (f & -> & F). rewrite F. destruct HC as [HC|HC]; [|right; now apply wrote_app].
        rewrite HC, C0. left. right. split; [exact L|]. now left.
      - destruct (missed_step l0 m) as (f & -> & F). rewrite F. left. right. split; [exact L|]. right. now exists (m_next m).
      - destruct (made_step l0 id m) as (f & -> & F). rewrite F. right. exists n. apply in_or_app. right. now left.
    Qed.
    Lemma racing_turn s n : racing s -> racing (turn s n).
    Proof.
      intros (H1 & H2 & H3 & t0 & t1 & HT & H4 & H5 & H6).
      split; [apply turn_ok; [intros k q _; apply careful_call|exact H1]|].
      destruct H1 as (_ & HR & _). unfold Threads.turn.
      destruct (nth_error (s_threads s) n) as [t|] eqn:E.
      2: { split; [exact H2|]. split; [exact H3|]. exists t0, t1. auto. }
      pose proof (thread_step_ok cf fs stack (fun _ => True) (fun _ => careful) (fun _ _ => True) (fun _ _ => eps) (fun _ q _ => careful_call q) n t (s_man s) (HR _ _ E) I) as X.
      assert (B : n = 0 /\ t = t0 \/ n = 1 /\ t = t1).
      { rewrite HT in E. destruct n as [|[|n]]; cbn in E; [injection E as <-; auto|injection E as <-; auto|destruct n; discriminate]. }
      pose proof (early_step 0 l0 k0 t0 (s_man s) (s_acc s) N0 H4) as Y0.
      pose proof (early_step 1 l1 k1 t1 (s_man s) (s_acc s) N1 H5) as Y1.
      pose proof (earlyish_step 0 t0 (s_man s) (s_acc s) H2 H6) as Y2.
      assert (Mono : forall x b, In x (s_acc s) -> In x (s_acc s ++ b)) by (intros; apply in_or_app; now left).
      destruct B as [[-> ->]|[-> ->]]; destruct (thread_step cf fs stack _ (s_man s)) as [[t' a] m']; cbn [s_man s_acc s_threads];
        destruct X as (_ & _ & X); (split; [|split]).
      - destruct a as [a|]; [|rewrite app_nil_r; subst m'; exact H2]. destruct X as [->|X]; [right; exists 0; apply in_or_app; right; now left|].
        destruct H2 as [H2|H2]; [left; congruence|right; now apply wrote_app].
      - intros n b Hb. apply in_app_or in Hb. destruct Hb as [Hb|Hb]; [now apply (H3 n b)|]. destruct a; [|destruct Hb].
        destruct Hb as [Hb|[]]. injection Hb as <- _. now left.
      - rewrite HT. cbn [put_nth]. exists t', t1. split; [reflexivity|]. split; [exact Y0|]. split; [|exact Y2].
        destruct H5; [now left|right; now apply Mono].
      - destruct a as [a|]; [|rewrite app_nil_r; subst m'; exact H2]. destruct X as [->|X]; [right; exists 1; apply in_or_app; right; now left|].
        destruct H2 as [H2|H2]; [left; congruence|right; now apply wrote_app].
      - intros n b Hb. apply in_app_or in Hb. destruct Hb as [Hb|Hb]; [now apply (H3 n b)|]. destruct a; [|destruct Hb].
        destruct Hb as [Hb|[]]. injection Hb as <- _. now right.
      - rewrite HT. cbn [put_nth]. exists t0, t'. split; [reflexivity|]. split; [destruct H4; [now left|right; now apply Mono]|].
        split; [exact Y1|]. destruct H6; [now left|right; now apply wrote_app].
    Qed.
    Lemma racing_play sched : forall s, racing s -> racing (play sched s).
    Proof. induction sched as [|n sched IH]; intros s H; [exact H|]. apply (IH (turn s n)). now apply racing_turn. Qed.
    Lemma racing_start : racing (start [Ask (GetDictionaryLang l0) k0; Ask (GetDictionaryLang l1) k1] m0).
    Proof.
      split; [apply start_ok; [exact I|intros; now apply follows_any]|]. split; [now left|]. split; [intros ? ? []|].
      eexists. eexists. split; [reflexivity|]. split; [left; split; [reflexivity|now left]|]. split; [left; split; [reflexivity|now left]|].
      left. left. split; [reflexivity|now left].
    Qed.
    Lemma racing_race s : racing s -> answers s 0 <> [] -> answers s 1 <> [] -> data_race (s_acc s).
    Proof.
      intros (_ & _ & H3 & t0 & t1 & HT & H4 & H5 & H6). unfold answers. rewrite HT. cbn [nth_error]. intros A0 A1.
      assert (R0 : In (0, Reads TheMap) (s_acc s)) by (destruct H4 as [[X _]|X]; [contradiction|exact X]).
      assert (R1 : In (1, Reads TheMap) (s_acc s)) by (destruct H5 as [[X _]|X]; [contradiction|exact X]).
      assert (W : wrote (s_acc s)) by (destruct H6 as [[[X _]|[X _]]|X]; [contradiction|contradiction|exact X]).
      destruct W as (k & W). destruct (H3 _ _ W) as [-> | ->].
      - exists 0, 1, (Writes TheMap), (Reads TheMap). split; [discriminate|]. split; [exact W|]. split; [exact R1|reflexivity].
      - exists 1, 0, (Writes TheMap), (Reads TheMap). split; [discriminate|]. split; [exact W|]. split; [exact R0|reflexivity].
    Qed.
  End Race.
End Bad.
