(** Interleaved calls: invariants over every schedule. *)
From Verif.Model Require Import Base Log PluralForms Dictionary IConv Language Stream PoParser Manager Threads.
From Verif.Spec Require Import DictSpec LangSpec ManagerSpec ThreadsSpec.
From Verif.Proofs Require Import BaseFacts LangProofs ParserSafe ManagerLoad ManagerOwn ManagerGet ManagerStep.
From Coq Require Import Permutation.
Local Open Scope list_scope.
Local Opaque from_spec from_env languages.

(** * Calls in progress *)
Fixpoint res_ind' {A} (P : res A -> Prop) (F : forall o, P (Fin o))
    (T : forall a f, (forall m, P (fst (f m))) -> P (Tick a f)) (r : res A) : P r :=
  match r with
  | Fin o => F o
  | Tick a f => T a f (fun m => match f m as x return P (fst x) with (r', m') => res_ind' P F T r' end)
  end.

Section Runs.
  Variable I : manager -> Prop.
  Variable R : manager -> access -> manager -> Prop.
  Fixpoint runs {A} (Q : outcome A -> Prop) (r : res A) : Prop :=
    match r with
    | Fin o => Q o
    | Tick a f => forall m, I m -> match f m with (r', m') => R m a m' /\ I m' /\ runs Q r' end
    end.
  Lemma runs_bind {A B} (P : outcome A -> Prop) (Q : outcome B -> Prop) r k :
    runs P r -> (forall o, P o -> runs Q (rbind (Fin o) k)) -> runs Q (rbind r k).
  Proof.
    induction r as [o|a f IH] using res_ind'; intros H K; [exact (K o H)|].
    cbn [rbind runs] in *. intros m M. specialize (H m M). specialize (IH m). destruct (f m) as [r' m'].
    destruct H as [H1 [H2 H3]]. auto.
  Qed.
  Lemma runs_act {A} (Q : outcome A -> Prop) a g :
    (forall m, I m -> R m a (snd (g m)) /\ I (snd (g m)) /\ Q (fst (g m))) -> runs Q (act a g).
  Proof. intros H m M. specialize (H m M). destruct (g m) as [o m']. exact H. Qed.
  Lemma runs_any {A} (P Q : outcome A -> Prop) r : runs P r -> (forall o, P o -> Q o) -> runs Q r.
  Proof.
    induction r as [o|a f IH] using res_ind'; intros H K; [exact (K o H)|].
    cbn [runs] in *. intros m M. specialize (H m M). specialize (IH m). destruct (f m) as [r' m'].
    destruct H as [H1 [H2 H3]]. auto.
  Qed.
  Lemma runs_map {A B} (g : A -> B) P (Q : outcome B -> Prop) r :
    runs P r -> (forall o, P o -> Q (omap g o)) -> runs Q (rmap g r).
  Proof.
    intros H K. apply (runs_bind P); [exact H|]. intros o Ho. specialize (K o Ho). destruct o; exact K.
  Qed.
End Runs.

Lemma alone_bind {A B} (r : res A) (k : A -> res B) m :
  alone (rbind r k) m = mbind (alone r) (fun a => alone (k a)) m.
Proof.
  revert m. induction r as [o|a f IH] using res_ind'; intro m; [destruct o; reflexivity|].
  cbn [rbind alone]. unfold mbind. cbn [alone]. specialize (IH m). destruct (f m) as [r' m']. exact (IH m').
Qed.
Lemma alone_act {A} a (g : M manager A) m : alone (act a g) m = g m.
Proof. unfold act. cbn [alone]. destruct (g m). reflexivity. Qed.

Lemma alone_act_bind {A B} a (g : M manager A) (k : A -> res B) m :
  alone (rbind (act a g) k) m = mbind g (fun x => alone (k x)) m.
Proof. rewrite alone_bind. unfold mbind. now rewrite alone_act. Qed.
Lemma bind_get {A B} (f : manager -> A) (k : A -> M manager B) m : mbind (mget f) k m = k (f m) m.
Proof. reflexivity. Qed.
Lemma bind_mod {B} (f : manager -> manager) (k : unit -> M manager B) m : mbind (mmod f) k m = k tt (f m).
Proof. reflexivity. Qed.

(** * Schedules *)
Lemma nth_put_same {A} n (x y : A) l : nth_error l n = Some y -> nth_error (put_nth n x l) n = Some x.
Proof. revert n. induction l as [|z l IH]; intros [|n]; cbn; try discriminate; auto. Qed.
Lemma nth_put_other {A} n k (x : A) l : n <> k -> nth_error (put_nth n x l) k = nth_error l k.
Proof. revert n k. induction l as [|z l IH]; intros [|n] [|k] H; cbn; auto; congruence. Qed.
Lemma nth_put_none {A} n (x : A) l : nth_error l n = None -> put_nth n x l = l.
Proof. revert n. induction l as [|z l IH]; intros [|n]; cbn; try discriminate; auto. intro H. now rewrite IH. Qed.

(** a thread all of whose requests satisfy P as long as the answers satisfy L *)
Fixpoint follows (P : request -> Prop) (L : request -> outcome answer -> Prop) (c : client) : Prop :=
  match c with
  | Stop => True
  | Ask q k => P q /\ forall o, L q o -> follows P L (k o)
  end.
Lemma asks_follows (P Q : request -> Prop) (L : request -> outcome answer -> Prop) a c :
  (forall q, P q -> Q q) -> (forall q o, P q -> L q o -> o = a q) -> asks P a c -> follows Q L c.
Proof.
  intros H K. induction c as [|q k IH]; [auto|]. intros [H1 H2]. split; [auto|]. intros o X.
  rewrite (K q o H1 X). now apply IH.
Qed.
Lemma always_follows (P Q : request -> Prop) (L : request -> outcome answer -> Prop) c :
  (forall q, P q -> Q q) -> always P c -> follows Q L c.
Proof. intro H. induction c as [|q k IH]; [auto|]. intros [H1 H2]. split; auto. Qed.
Lemma follows_any (L : request -> outcome answer -> Prop) (P : request -> Prop) : (forall q, P q) -> forall c, follows P L c.
Proof. intros H c. induction c as [|q k IH]; [exact Logic.I|]. split; auto. Qed.

Section Play.
  Variable cf : config.
  Variable fs : file_system.
  Variable stack : nat.
  Variable I : manager -> Prop.
  Variable R : nat -> manager -> access -> manager -> Prop.
  Variable P : nat -> request -> Prop.
  Variable L : nat -> request -> outcome answer -> Prop.
  Hypothesis Calls : forall n q, P n q -> runs I (R n) (L n q) (rcall cf fs stack q).

  Definition thread_ok (n : nat) (t : thread) : Prop :=
    (forall q o, In (q, o) (th_log t) -> L n q o) /\
    match th_now t with
    | Idle c => follows (P n) (L n) c
    | Busy q r k => runs I (R n) (L n q) r /\ forall o, L n q o -> follows (P n) (L n) (k o)
    end.
  Lemma thread_step_ok n t m : thread_ok n t -> I m ->
    match thread_step cf fs stack t m with (t', a, m') =>
      thread_ok n t' /\ I m' /\ match a with Some a => R n m a m' | None => m' = m end end.
  Proof.
    intros [HL HN] HI. unfold thread_step. destruct (th_now t) as [[|q k]|q [o|a f] k] eqn:E.
    - split; [split; [exact HL|rewrite E; exact HN]|auto].
    - destruct HN as [H1 H2]. split; [split; [exact HL|]|auto]. cbn [th_now]. split; [now apply Calls|exact H2].
    - destruct HN as [H1 H2]. split; [split|auto].
      + cbn [th_log]. intros q' o' X. apply in_app_or in X. destruct X as [X|[X|[]]]; [now apply HL|].
        injection X as <- <-. exact H1.
      + cbn [th_now]. now apply H2.
    - destruct HN as [H1 H2]. cbn [runs] in H1. specialize (H1 m HI). destruct (f m) as [r' m'].
      destruct H1 as [H1 [H3 H4]]. split; [split; [exact HL|split; [exact H4|exact H2]]|auto].
  Qed.
  Definition system_ok (s : system) : Prop :=
    I (s_man s) /\ (forall n t, nth_error (s_threads s) n = Some t -> thread_ok n t) /\
    (forall n a, In (n, a) (s_acc s) -> exists m m', I m /\ R n m a m').
  Lemma turn_ok s n : system_ok s -> system_ok (turn cf fs stack s n).
  Proof.
    intros [HI [HT HA]]. unfold turn. destruct (nth_error (s_threads s) n) as [t|] eqn:E; [|split; auto].
    pose proof (thread_step_ok n t (s_man s) (HT _ _ E) HI) as H.
    destruct (thread_step cf fs stack t (s_man s)) as [[t' a] m']. destruct H as [H1 [H2 H3]].
    split; [exact H2|]. cbn [s_threads s_acc]. split.
    - intros k t2 X. destruct (Nat.eq_dec n k) as [<-|N].
      + rewrite (nth_put_same _ _ _ _ E) in X. injection X as <-. exact H1.
      + rewrite nth_put_other in X by exact N. now apply HT.
    - intros k b X. apply in_app_or in X. destruct X as [X|X]; [now apply HA|].
      destruct a as [a|]; [|destruct X]. destruct X as [X|[]]. injection X as <- <-. eauto.
  Qed.
  Lemma start_ok cs m : I m -> (forall n c, nth_error cs n = Some c -> follows (P n) (L n) c) -> system_ok (start cs m).
  Proof.
    intros HI HC. split; [exact HI|]. cbn [start s_threads s_acc]. split; [|intros ? ? []].
    intros n t X. rewrite nth_error_map in X. destruct (nth_error cs n) as [c|] eqn:E; [|discriminate].
    injection X as <-. split; [intros ? ? []|]. cbn. now apply HC.
  Qed.
  Lemma play_ok sched s : system_ok s -> system_ok (play cf fs stack sched s).
  Proof. revert s. induction sched as [|n sched IH]; intros s H; [exact H|]. apply IH. now apply turn_ok. Qed.
  Lemma ok_answers s n q o : system_ok s -> In (q, o) (answers s n) -> L n q o.
  Proof.
    intros [_ [H _]]. unfold answers. destruct (nth_error (s_threads s) n) as [t|] eqn:E; [|intros []].
    intro X. exact (proj1 (H _ _ E) _ _ X).
  Qed.
End Play.

(** * A call that is not interrupted is the call of the sequential model *)
Section Alone.
  Variable cf : config.
  Variable fs : file_system.
  Variable stack : nat.

  Lemma cache_set_none l p c : cache_find l c = None -> cache_set l p c = c ++ [(l, p)].
  Proof.
    induction c as [|[k q] c IH]; cbn [cache_find cache_set app]; [reflexivity|].
    destruct (lang_eqb l k); [discriminate|]. intro H. now rewrite IH.
  Qed.
  Lemma alone_consider l b f m : alone (rconsider cf l b f) m = consider cf l b f m.
  Proof.
    unfold rconsider, consider. destruct (has_suffix f dot_po); [|reflexivity].
    rewrite alone_bind. unfold mbind at 1 3. cbn [alone]. unfold mlift at 1.
    destruct (convertFilename2Language _ _) as [s|e|u| |]; try reflexivity.
    rewrite alone_bind. unfold mbind at 1 2. cbn [alone]. unfold mlift at 1.
    destruct (from_env _ _) as [po|e|u| |]; try reflexivity.
    destruct (is_none po); reflexivity.
  Qed.
  Lemma alone_best l fs' : forall b m, alone (rbest_file cf l b fs') m = best_file cf l b fs' m.
  Proof.
    induction fs' as [|f fs' IH]; intros b m; [reflexivity|]. cbn [rbest_file best_file].
    rewrite alone_bind. unfold mbind. rewrite alone_consider. destruct (consider cf l b f m) as [[b'|e|u| |] m1]; auto.
  Qed.
  Lemma alone_calls id cs : forall d m, heap_get (m_heap m) id = Some d ->
    alone (rcalls id cs) m = (Ret tt, upd_heap m (heap_set (m_heap m) id (fold_left apply_call cs d))).
  Proof.
    induction cs as [|c cs IH]; intros d m H; cbn [rcalls].
    - cbn [alone rret fold_left]. f_equal. rewrite (heap_set_id _ _ _ H). now destruct m.
    - rewrite alone_bind. unfold mbind. rewrite alone_act. unfold change_dict. rewrite H.
      rewrite (IH (apply_call d c)) by apply heap_get_set_same. cbn [m_heap upd_heap fold_left].
      now rewrite heap_set_twice.
  Qed.
  Lemma alone_load_file id pf m : alone (rload_file cf fs id pf) m = load_file cf fs id pf m.
  Proof.
    unfold rload_file, load_file. destruct (fs_file fs pf) as [[i|]|e|u| |]; try reflexivity.
    - rewrite alone_bind. unfold mbind. rewrite alone_act. unfold look. cbn [deref].
      destruct (heap_get (m_heap m) id) as [d|] eqn:E; [|reflexivity].
      rewrite alone_bind. unfold mbind. rewrite (alone_calls _ _ d) by exact E.
      rewrite <- (proj1 (parse_effects cf pf i d)). set (r := po_parse cf pf i d).
      rewrite alone_bind. unfold mbind. rewrite alone_act. unfold emit_m, mmod. cbn [m_tr upd_heap].
      destruct (pr_outcome r) as [x|e|u| |]; try reflexivity. destruct (is_std e); reflexivity.
    - destruct (is_std e); reflexivity.
  Qed.
  Lemma alone_load_dir l id p m : alone (rload_dir cf fs l id p) m = load_dir cf fs l id p m.
  Proof.
    unfold rload_dir, load_dir. rewrite alone_bind. unfold mbind at 1 3. cbn [alone]. unfold mlift.
    destruct (fs_dir fs p) as [files|e|u| |]; try reflexivity.
    rewrite alone_bind. unfold mbind. rewrite alone_best. destruct (best_file _ _ _ _ m) as [[b|e|u| |] m1]; try reflexivity.
    destruct (is_nil (fst b)); [reflexivity|]. apply alone_load_file.
  Qed.
  Lemma alone_load_dirs l id ps : forall m, alone (rload_dirs cf fs l id ps) m = load_dirs cf fs l id ps m.
  Proof.
    induction ps as [|p ps IH]; intro m; [reflexivity|]. cbn [rload_dirs load_dirs]. rewrite alone_bind. unfold mbind.
    rewrite alone_load_dir. destruct (load_dir cf fs l id p m) as [[[]|e|u| |] m1]; auto.
  Qed.
  Lemma alone_get_lang dp : forall l m, alone (rget_lang cf fs dp l) m = get_dictionary_lang cf fs dp l m.
  Proof.
    induction dp as [|dp IH]; intros l m; [reflexivity|]. cbn [rget_lang get_dictionary_lang].
    destruct (negb (cf_ndebug cf) && is_none l); [reflexivity|].
    rewrite alone_act_bind, bind_get, bind_get.
    destruct (cache_find l (m_cache m)) as [p|] eqn:E; [reflexivity|].
    rewrite alone_act_bind. change (mbind make ?k m) with (k (m_next m) (snd (make m))). cbv beta.
    rewrite alone_act_bind, bind_mod. rewrite bind_get, bind_mod.
    replace (upd_cache _ _) with (alloc m l) by (unfold upd_cache, make, alloc; cbn; now rewrite (cache_set_none _ _ _ E)).
    rewrite alone_act_bind, bind_get, bind_get.
    rewrite alone_bind. unfold mbind at 1 2. rewrite alone_load_dirs.
    destruct (load_dirs cf fs l (m_next m) (rev (m_path (alloc m l))) (alloc m l)) as [[[]|e|u| |] m1]; try reflexivity.
    destruct (is_nil (get_country l)); [reflexivity|].
    rewrite alone_bind. unfold mbind at 1 2. cbn [alone]. unfold mlift.
    destruct (from_spec _ _ _ _) as [b|e|u| |]; try reflexivity.
    rewrite alone_bind. unfold mbind at 1 2. rewrite IH.
    destruct (get_dictionary_lang cf fs dp b m1) as [[fb|e|u| |] m2]; try reflexivity.
    rewrite alone_bind. unfold mbind. rewrite alone_act. destruct (set_fallback _ _ m2) as [[x|e|u| |] m3]; reflexivity.
  Qed.
  Lemma alone_get m : alone (rget cf fs) m = get_dictionary cf fs m.
  Proof.
    unfold rget, get_dictionary. rewrite alone_act_bind, bind_get, bind_get.
    destruct (m_cur m) as [p|]; [reflexivity|]. rewrite alone_act_bind, bind_get, bind_get.
    destruct (is_none (m_lang m)); [reflexivity|]. rewrite alone_bind. unfold mbind at 1 2. rewrite alone_get_lang.
    destruct (get_dictionary_lang cf fs depth0 (m_lang m) m) as [[p|e|u| |] m1]; reflexivity.
  Qed.
  Lemma alone_translate_in fuel : forall d es i m,
    alone (rtranslate_in fuel d es i) m =
      (fst (translate_in fuel (m_heap m) d es i),
       upd_tr m (m_tr m ++ List.map EvLog (snd (translate_in fuel (m_heap m) d es i)))).
  Proof.
    assert (Z : forall m, m = upd_tr m (m_tr m ++ [])) by (intro m; symmetry; apply upd_tr_nil).
    induction fuel as [|fuel IH]; intros d es i m; cbn [rtranslate_in translate_in].
    { cbn [alone fst snd List.map]. now rewrite <- Z. }
    assert (B : forall k : res bytes, alone (rbind (act Logs (emit_m [EvLog (log_info (bs "Couldn't translate: " ++ i))])) (fun _ => k)) m =
                  alone k (upd_tr m (m_tr m ++ [EvLog (log_info (bs "Couldn't translate: " ++ i))])))
      by (intro k; rewrite alone_bind; unfold mbind; now rewrite alone_act).
    assert (C : alone (rbind (act Logs (emit_m [EvLog (log_info (bs "Couldn't translate: " ++ i))])) (fun _ =>
                  if d_has_fallback d then
                    match d_fallback d with
                    | Some p => rbind (act (Reads (TheDict (RefHeap p))) (look (RefHeap p))) (fun fb => rtranslate_in fuel fb (d_entries fb) i)
                    | None => Fin (Ub UbPointer)
                    end
                  else rret i)) m =
                (let x := let l := [log_info (bs "Couldn't translate: " ++ i)] in
                   if d_has_fallback d then
                     match match d_fallback d with Some p => heap_get (m_heap m) p | None => None end with
                     | Some fb => let (r, l') := translate_in fuel (m_heap m) fb (d_entries fb) i in (r, l ++ l')
                     | None => (Ub UbPointer, l)
                     end
                   else (Ret i, l) in (fst x, upd_tr m (m_tr m ++ List.map EvLog (snd x))))).
    { rewrite B. cbv zeta. destruct (d_has_fallback d); [|reflexivity]. destruct (d_fallback d) as [p|]; [|reflexivity].
      rewrite alone_bind. unfold mbind. rewrite alone_act. unfold look. cbn [deref]. change (m_heap (upd_tr m ?t)) with (m_heap m).
      destruct (heap_get (m_heap m) p) as [fb|]; [|reflexivity]. rewrite IH. change (m_heap (upd_tr m ?t)) with (m_heap m).
      destruct (translate_in fuel (m_heap m) fb (d_entries fb) i) as [r l']. cbn [fst snd List.map app].
      unfold upd_tr. cbn [m_tr]. rewrite <- app_assoc. reflexivity. }
    destruct (assoc i es) as [[|v0 v]|]; [exact C| |exact C]. cbn [alone rret fst snd List.map]. now rewrite <- Z.
  Qed.
  Lemma alone_map {A B} (g : A -> B) r m : alone (rmap g r) m = (omap g (fst (alone r m)), snd (alone r m)).
  Proof. unfold rmap. rewrite alone_bind. unfold mbind. destruct (alone r m) as [[a|e|u| |] m']; reflexivity. Qed.
  Lemma alone_look r k m : alone (rlook r k) m =
    match deref m r with
    | Some d => (omap AText (fst (alone (k d) m)), snd (alone (k d) m))
    | None => (Ub UbPointer, m)
    end.
  Proof.
    unfold rlook. rewrite alone_map, alone_bind. unfold mbind. rewrite alone_act. unfold look.
    destruct (deref m r) as [d|]; reflexivity.
  Qed.

  Lemma alone_langs m : alone (rlangs cf fs) m = get_languages cf fs m.
  Proof. unfold rlangs, get_languages. rewrite alone_act_bind, !bind_get. reflexivity. Qed.
  Lemma alone_delete_all c : forall m, alone (rdelete_all c) m = delete_all c m.
  Proof.
    induction c as [|[k p] c IH]; intro m; [reflexivity|]. cbn [rdelete_all delete_all]. rewrite alone_act_bind.
    unfold mbind. destruct (delete p m) as [[x|e|u| |] m']; auto.
  Qed.
  Lemma alone_clear m : alone rclear m = clear_cache m.
  Proof.
    unfold rclear, clear_cache. rewrite alone_act_bind, !bind_get, alone_bind. unfold mbind at 1 2. rewrite alone_delete_all.
    destruct (delete_all (m_cache m) m) as [[x|e|u| |] m']; try reflexivity.
  Qed.
  Lemma alone_set s m : alone (rset s) m =
    match s with
    | SetLanguage l => set_language l m | SetCharset c => set_charset c m | SetUseFuzzy b => set_use_fuzzy b m
    | AddDirectory p pr => add_directory p pr m | RemoveDirectory p => remove_directory p m
    end.
  Proof.
    destruct s as [l|c|b|p pr|p]; cbn [rset].
    - rewrite alone_act_bind, bind_get. unfold set_language, mmod. destruct (negb (lang_eqb (m_lang m) l)); reflexivity.
    - unfold set_charset. rewrite alone_bind. unfold mbind. rewrite alone_clear. destruct (clear_cache m) as [[x|e|u| |] m']; reflexivity.
    - unfold set_use_fuzzy. rewrite alone_bind. unfold mbind. rewrite alone_clear. destruct (clear_cache m) as [[x|e|u| |] m']; reflexivity.
    - unfold add_directory. rewrite alone_act_bind, !bind_get. destruct (existsb (bytes_eqb p) (m_path m)); [reflexivity|].
      rewrite alone_bind. unfold mbind. rewrite alone_clear. destruct (clear_cache m) as [[x|e|u| |] m']; reflexivity.
    - unfold remove_directory. rewrite alone_act_bind, !bind_get. destruct (existsb (bytes_eqb p) (m_path m)); [|reflexivity].
      rewrite alone_bind. unfold mbind. rewrite alone_clear. destruct (clear_cache m) as [[x|e|u| |] m']; reflexivity.
  Qed.
  Lemma set_step s m : mstep cf fs (op_of s) m = (omap (fun _ => OutUnit) (fst (alone (rset s) m)), snd (alone (rset s) m)).
  Proof.
    rewrite alone_set. destruct s; cbn [op_of mstep]; unfold mmap, mbind;
      match goal with |- (let (_, _) := ?x in _) = _ => destruct x as [[y|e|u| |] m'] end; reflexivity.
  Qed.
  (** the state a lookup leaves behind: the same, but for the log *)
  Definition lookup_logs (m : manager) (q : request) : list log_stmt :=
    match asked_of q with
    | None => []
    | Some r =>
        match deref m r with
        | None => []
        | Some d =>
            match q with
            | GetDictionary | GetDictionaryLang _ | GetLanguages | Change _ => []
            | Translate _ i => snd (translate stack (m_heap m) d i)
            | TranslateCtxt _ c i => snd (translate_ctxt stack (m_heap m) d c i)
            | TranslatePlural _ i pl n => snd (translate_plural d i pl n)
            | TranslateCtxtPlural _ c i pl n => snd (translate_ctxt_plural d c i pl n)
            end
        end
    end.
  Lemma alone_answer q m : fst (alone (rcall cf fs stack q) m) = quiet_answer cf fs stack m q.
  Proof.
    destruct q as [|l|r i|r c i|r i pl n|r c i pl n| |s]; cbn [rcall quiet_answer].
    - now rewrite alone_map, alone_get.
    - now rewrite alone_map, alone_get_lang.
    - rewrite alone_look. destruct (deref m r) as [d|]; [|reflexivity]. now rewrite alone_translate_in.
    - rewrite alone_look. destruct (deref m r) as [d|]; [|reflexivity]. unfold translate_ctxt.
      destruct (assoc c (d_ctxt d)); [now rewrite alone_translate_in|reflexivity].
    - rewrite alone_look. destruct (deref m r) as [d|]; reflexivity.
    - rewrite alone_look. destruct (deref m r) as [d|]; reflexivity.
    - now rewrite alone_map, alone_langs.
    - rewrite alone_map, set_step. cbn [fst]. destruct (fst (alone (rset s) m)); reflexivity.
  Qed.
  Lemma alone_state q m : snd (alone (rcall cf fs stack q) m) =
    match q with
    | GetDictionary => snd (get_dictionary cf fs m)
    | GetDictionaryLang l => snd (get_dictionary_lang cf fs depth0 l m)
    | Change s => snd (mstep cf fs (op_of s) m)
    | _ => upd_tr m (m_tr m ++ List.map EvLog (lookup_logs m q))
    end.
  Proof.
    destruct q as [|l|r i|r c i|r i pl n|r c i pl n| |s]; cbn [rcall].
    - now rewrite alone_map, alone_get.
    - now rewrite alone_map, alone_get_lang.
    - rewrite alone_look. unfold lookup_logs. cbn [asked_of]. destruct (deref m r) as [d|]; [|symmetry; apply upd_tr_nil].
      now rewrite alone_translate_in.
    - rewrite alone_look. unfold lookup_logs. cbn [asked_of]. destruct (deref m r) as [d|]; [|symmetry; apply upd_tr_nil].
      unfold translate_ctxt. destruct (assoc c (d_ctxt d)); [now rewrite alone_translate_in|reflexivity].
    - rewrite alone_look. unfold lookup_logs. cbn [asked_of]. destruct (deref m r) as [d|]; [|symmetry; apply upd_tr_nil]. reflexivity.
    - rewrite alone_look. unfold lookup_logs. cbn [asked_of]. destruct (deref m r) as [d|]; [|symmetry; apply upd_tr_nil]. reflexivity.
    - rewrite alone_map, alone_langs. cbn [snd]. unfold lookup_logs. cbn [asked_of]. symmetry. apply upd_tr_nil.
    - rewrite alone_map, set_step. reflexivity.
  Qed.
End Alone.

(** * What other threads cannot disturb *)
Lemma lang_eqb_sym a b : lang_eqb a b = lang_eqb b a.
Proof. destruct a, b; cbn [lang_eqb]; auto using Nat.eqb_sym. Qed.
Lemma lang_eqb_trans a b c : lang_eqb a b = true -> lang_eqb b c = true -> lang_eqb a c = true.
Proof. destruct a, b, c; cbn [lang_eqb]; try discriminate; auto. rewrite !Nat.eqb_eq. congruence. Qed.
Lemma cache_set_find l p c l' :
  cache_find l' (cache_set l p c) = if lang_eqb l' l then Some p else cache_find l' c.
Proof.
  induction c as [|[k q] c IH]; cbn [cache_set cache_find].
  - destruct (lang_eqb l' l); reflexivity.
  - destruct (lang_eqb l k) eqn:E; cbn [cache_find].
    + destruct (lang_eqb l' k) eqn:E1, (lang_eqb l' l) eqn:E2; try reflexivity; exfalso.
      * rewrite lang_eqb_sym in E. rewrite (lang_eqb_trans _ _ _ E1 E) in E2. discriminate.
      * rewrite (lang_eqb_trans _ _ _ E2 E) in E1. discriminate.
    + destruct (lang_eqb l' k) eqn:E1; [|exact IH]. destruct (lang_eqb l' l) eqn:E2; [|reflexivity].
      exfalso. rewrite lang_eqb_sym in E2. rewrite (lang_eqb_trans _ _ _ E2 E1) in E. discriminate.
Qed.

Definition eps {A} : outcome A -> Prop := fun _ => True.

(** get_dictionary(l) in three parts *)
Definition insert_step (l : language) (id : ptr) : res unit :=
  act (Writes TheMap) (mmod (fun m => upd_cache m (cache_set l id (m_cache m)))).
Definition after_insert (cf : config) (fs : file_system) (dp : nat) (l : language) (id : ptr) : res ptr :=
  rbind (act (Reads ThePath) (mget m_path)) (fun path =>
  rbind (rload_dirs cf fs l id (rev path)) (fun _ =>
    if is_nil (get_country l) then rret id
    else rbind (Fin (from_spec (cf_ndebug cf) (get_language l) [] [])) (fun base =>
         rbind (rget_lang cf fs dp base) (fun fb =>
         rbind (act (Writes (TheDict (RefHeap id))) (set_fallback id fb)) (fun _ => rret id))))).
Lemma rget_lang_S cf fs dp l : l <> None ->
  rget_lang cf fs (S dp) l =
    rbind (act (Reads TheMap) (mget m_cache)) (fun c =>
      match cache_find l c with
      | Some p => rret p
      | None => rbind (act (Reads TheCharset) make) (fun id => rbind (insert_step l id) (fun _ => after_insert cf fs dp l id))
      end).
Proof. intro N. destruct l as [l|]; [|congruence]. cbn [rget_lang is_none]. now rewrite Bool.andb_false_r. Qed.

Section Loads.
  Variable cf : config.
  Variable fs : file_system.
  Variable I : manager -> Prop.
  Variable R : manager -> access -> manager -> Prop.
  Hypothesis ILog : forall m t, I m -> R m Logs (upd_tr m t) /\ I (upd_tr m t).
  Local Notation runs := (runs I R).

  Lemma runs_emit {A} (Q : outcome A -> Prop) e k : runs Q k -> runs Q (rbind (act Logs (emit_m e)) (fun _ => k)).
  Proof.
    intro H. apply (runs_bind I R (fun o => o = Ret tt)); [|intros o ->; exact H].
    apply runs_act. intros m M. cbn [emit_m mmod fst snd]. destruct (ILog m (m_tr m ++ e) M). auto.
  Qed.
  Lemma runs_fin {A B} (Q : outcome B -> Prop) (o : outcome A) k :
    (forall a, o = Ret a -> runs Q (k a)) -> (forall o', Q o') -> runs Q (rbind (Fin o) k).
  Proof. intros H HQ. destruct o; cbn [rbind]; [now apply H|apply HQ..]. Qed.

  Lemma runs_ret {A B} (Q : outcome B -> Prop) (a : A) k : runs Q (k a) -> runs Q (rbind (Fin (Ret a)) k).
  Proof. exact (fun H => H). Qed.
  Lemma runs_consider l b f : runs eps (rconsider cf l b f).
  Proof.
    unfold rconsider. destruct (has_suffix f dot_po); [|exact Logic.I].
    apply runs_fin; [|exact (fun _ => Logic.I)]. intros s _. apply runs_fin; [|exact (fun _ => Logic.I)]. intros po _.
    destruct (is_none po); [|exact Logic.I]. apply runs_emit. exact Logic.I.
  Qed.
  Lemma runs_best l files : forall b, runs eps (rbest_file cf l b files).
  Proof.
    induction files as [|f files IH]; intro b; [exact Logic.I|]. cbn [rbest_file].
    apply (runs_bind I R eps); [apply runs_consider|]. intros o _. apply runs_fin; [|exact (fun _ => Logic.I)]. intros a _. apply IH.
  Qed.
  Section Into.
    Variable id : ptr.
    Hypothesis IRead : forall m, I m -> R m (Reads (TheDict (RefHeap id))) m.
    Hypothesis IWrite : forall m d, I m ->
      R m (Writes (TheDict (RefHeap id))) m /\
      (heap_get (m_heap m) id <> None ->
       R m (Writes (TheDict (RefHeap id))) (upd_heap m (heap_set (m_heap m) id d)) /\ I (upd_heap m (heap_set (m_heap m) id d))).
    Lemma runs_change f : runs eps (act (Writes (TheDict (RefHeap id))) (change_dict id f)).
    Proof.
      apply runs_act. intros m M. unfold change_dict. destruct (heap_get (m_heap m) id) as [d|] eqn:Eh; cbn [fst snd].
      - destruct (IWrite m (f d) M) as (_ & H). destruct H as [H1 H2]; [congruence|]. split; [exact H1|split; [exact H2|exact Logic.I]].
      - destruct (IWrite m (new_dictionary []) M) as (H1 & _). split; [exact H1|split; [exact M|exact Logic.I]].
    Qed.
    Lemma runs_calls cs : runs eps (rcalls id cs).
    Proof.
      induction cs as [|c cs IH]; [exact Logic.I|]. cbn [rcalls]. apply (runs_bind I R eps); [apply runs_change|].
      intros o _. apply runs_fin; [intros a _; exact IH|exact (fun _ => Logic.I)].
    Qed.
    Lemma runs_load_file pf : runs eps (rload_file cf fs id pf).
    Proof.
      unfold rload_file.
      assert (F : forall e, runs eps (act Logs (emit_m e))).
      { intro e. apply runs_act. intros m M. cbn [emit_m mmod fst snd]. destruct (ILog m (m_tr m ++ e) M).
        split; [assumption|split; [assumption|exact Logic.I]]. }
      destruct (fs_file fs pf) as [[i|]|e|u| |]; try exact Logic.I; try apply F.
      - apply (runs_bind I R eps).
        + apply runs_act. intros m M. split; [now apply IRead|split; [exact M|exact Logic.I]].
        + intros o _. apply runs_fin; [|exact (fun _ => Logic.I)]. intros d _.
          apply (runs_bind I R eps); [apply runs_calls|]. intros o' _. apply runs_fin; [|exact (fun _ => Logic.I)]. intros x _.
          apply runs_emit. destruct (pr_outcome _) as [x'|e|u| |]; try exact Logic.I. destruct (is_std e); [apply F|exact Logic.I].
      - destruct (is_std e); [apply F|exact Logic.I].
    Qed.
    Lemma runs_load_dir l p : runs eps (rload_dir cf fs l id p).
    Proof.
      unfold rload_dir. apply runs_fin; [|exact (fun _ => Logic.I)]. intros files _.
      apply (runs_bind I R eps); [apply runs_best|]. intros o _. apply runs_fin; [|exact (fun _ => Logic.I)]. intros b _.
      destruct (is_nil (fst b)); [exact Logic.I|apply runs_load_file].
    Qed.
    Lemma runs_load_dirs l ps : runs eps (rload_dirs cf fs l id ps).
    Proof.
      induction ps as [|p ps IH]; [exact Logic.I|]. cbn [rload_dirs]. apply (runs_bind I R eps); [apply runs_load_dir|].
      intros o _. apply runs_fin; [intros a _; exact IH|exact (fun _ => Logic.I)].
    Qed.
    Lemma runs_fallback fb : runs eps (act (Writes (TheDict (RefHeap id))) (set_fallback id fb)).
    Proof.
      apply runs_act. intros m M. unfold set_fallback. destruct (heap_get (m_heap m) id) as [d|] eqn:Eh; cbn [fst snd].
      - destruct (IWrite m (add_fallback d (Some fb)) M) as (_ & H). destruct H as [H1 H2]; [congruence|]. split; [exact H1|split; [exact H2|exact Logic.I]].
      - destruct (IWrite m (new_dictionary []) M) as (H1 & _). split; [exact H1|split; [exact M|exact Logic.I]].
    Qed.
  End Into.

  (** which dictionaries calls in progress may write to, and which languages they may have found missing *)
  Variable mine : ptr -> Prop.
  Variable missing : language -> Prop.
  Hypothesis IRead : forall m o, I m -> R m (Reads o) m.
  Hypothesis IWrite : forall m id d, mine id -> I m ->
    R m (Writes (TheDict (RefHeap id))) m /\
    (heap_get (m_heap m) id <> None ->
     R m (Writes (TheDict (RefHeap id))) (upd_heap m (heap_set (m_heap m) id d)) /\ I (upd_heap m (heap_set (m_heap m) id d))).
  Hypothesis IMissing : forall m l, I m -> cache_find l (m_cache m) = None -> missing l.
  Hypothesis IMake : forall m, I m -> R m (Reads TheCharset) (snd (make m)) /\ I (snd (make m)) /\ mine (m_next m).
  Hypothesis IInsert : forall m l id, I m -> missing l -> mine id ->
    R m (Writes TheMap) (upd_cache m (cache_set l id (m_cache m))) /\ I (upd_cache m (cache_set l id (m_cache m))).

  (** the parts of get_dictionary(l), for any way to load the base language *)
  Lemma runs_finish l id (r : language -> res ptr) : mine id -> (forall b, runs eps (r b)) ->
    runs eps (rbind (Fin (from_spec (cf_ndebug cf) (get_language l) [] [])) (fun base =>
      rbind (r base) (fun fb => rbind (act (Writes (TheDict (RefHeap id))) (set_fallback id fb)) (fun _ => rret id)))).
  Proof.
    intros Hid Hr. apply runs_fin; [|exact (fun _ => Logic.I)]. intros b _.
    apply (runs_bind I R eps); [apply Hr|]. intros o3 _. apply runs_fin; [|exact (fun _ => Logic.I)]. intros fb _.
    apply (runs_bind I R eps).
    { apply runs_fallback. intros m d M; now apply IWrite. }
    intros o4 _. apply runs_fin; [|exact (fun _ => Logic.I)]. intros x4 _. exact Logic.I.
  Qed.
  Lemma runs_rest l id (k : res ptr) : mine id -> runs eps k ->
    runs eps (rbind (act (Reads ThePath) (mget m_path)) (fun path => rbind (rload_dirs cf fs l id (rev path)) (fun _ => k))).
  Proof.
    intros Hid Hk. apply (runs_bind I R eps).
    { apply runs_act. intros m M. split; [now apply IRead|]. split; [exact M|exact Logic.I]. }
    intros o' _. apply runs_fin; [|exact (fun _ => Logic.I)]. intros path _.
    apply (runs_bind I R eps).
    { apply runs_load_dirs; [intros m M; now apply IRead|intros m d M; now apply IWrite]. }
    intros o2 _. apply runs_fin; [|exact (fun _ => Logic.I)]. intros x2 _. exact Hk.
  Qed.
  Lemma runs_load l id (k : res ptr) : missing l -> mine id -> runs eps k ->
    runs eps (rbind (act (Writes TheMap) (mmod (fun m => upd_cache m (cache_set l id (m_cache m))))) (fun _ =>
      rbind (act (Reads ThePath) (mget m_path)) (fun path =>
      rbind (rload_dirs cf fs l id (rev path)) (fun _ => k)))).
  Proof.
    intros Hc Hid Hk. apply (runs_bind I R eps).
    { apply runs_act. intros m M. cbn [mmod fst snd]. destruct (IInsert m l id M Hc Hid) as [H1 H2].
      split; [exact H1|split; [exact H2|exact Logic.I]]. }
    intros o _. apply runs_fin; [|exact (fun _ => Logic.I)]. intros x _. now apply runs_rest.
  Qed.
  Lemma runs_find l (k : ptr -> res ptr) : (forall id, missing l -> mine id -> runs eps (k id)) ->
    runs eps (rbind (act (Reads TheMap) (mget m_cache)) (fun c =>
      match cache_find l c with
      | Some p => rret p
      | None => rbind (act (Reads TheCharset) make) k
      end)).
  Proof.
    intro Hk. apply (runs_bind I R (fun o => exists c, o = Ret c /\ (cache_find l c = None -> missing l))).
    { apply runs_act. intros m M. split; [now apply IRead|]. split; [exact M|]. cbn [mget fst].
      exists (m_cache m). split; [reflexivity|]. now apply IMissing. }
    intros o (c & -> & Hc). apply runs_ret. destruct (cache_find l c) as [p|]; [exact Logic.I|]. specialize (Hc eq_refl).
    apply (runs_bind I R (fun o => exists id, o = Ret id /\ mine id)).
    { apply runs_act. intros m M. destruct (IMake m M) as (H1 & H2 & H3). split; [exact H1|]. split; [exact H2|].
      exists (m_next m). auto. }
    intros o (id & -> & Hid). apply runs_ret. auto.
  Qed.
  Lemma runs_get_lang dp : forall l, runs eps (rget_lang cf fs dp l).
  Proof.
    induction dp as [|dp IH]; intro l; [exact Logic.I|]. cbn [rget_lang].
    destruct (negb (cf_ndebug cf) && is_none l); [exact Logic.I|].
    apply runs_find. intros id Hl Hid. apply runs_load; auto.
    destruct (is_nil (get_country l)); [exact Logic.I|]. now apply runs_finish.
  Qed.
  Lemma runs_after_insert dp l id : mine id -> runs eps (after_insert cf fs dp l id).
  Proof.
    intro Hid. unfold after_insert. apply runs_rest; [exact Hid|]. destruct (is_nil (get_country l)); [exact Logic.I|].
    apply runs_finish; [exact Hid|]. apply runs_get_lang.
  Qed.
  Hypothesis ICurrent : forall m p, I m -> (exists m1, I m1 /\ m_cur m1 = None) -> (exists m1, I m1 /\ m_lang m1 <> None) ->
    R m (Writes TheCurrent) (upd_lang m (m_lang m) (Some p)) /\ I (upd_lang m (m_lang m) (Some p)).
  Lemma runs_get_tail r : runs eps r -> (exists m1, I m1 /\ m_cur m1 = None) -> (exists m1, I m1 /\ m_lang m1 <> None) ->
    runs eps (rbind r (fun p => rbind (act (Writes TheCurrent) (mmod (fun m => upd_lang m (m_lang m) (Some p)))) (fun _ => rret (RefHeap p)))).
  Proof.
    intros Hr Hc Hl. apply (runs_bind I R eps); [exact Hr|]. intros o2 _. apply runs_fin; [|exact (fun _ => Logic.I)]. intros p _.
    apply (runs_bind I R eps).
    { apply runs_act. intros m M. cbn [mmod fst snd]. destruct (ICurrent m p M Hc Hl). split; [assumption|split; [assumption|exact Logic.I]]. }
    intros o4 _. apply runs_fin; [|exact (fun _ => Logic.I)]. intros x4 _. exact Logic.I.
  Qed.
  Lemma runs_get_rest (r : language -> res ptr) : (forall l, runs eps (r l)) -> (exists m1, I m1 /\ m_cur m1 = None) ->
    runs eps (rbind (act (Reads TheCurrent) (mget m_lang)) (fun l =>
      if is_none l then rret RefEmpty
      else rbind (r l) (fun p => rbind (act (Writes TheCurrent) (mmod (fun m => upd_lang m (m_lang m) (Some p)))) (fun _ => rret (RefHeap p))))).
  Proof.
    intros Hr Hc. apply (runs_bind I R (fun o => exists l, o = Ret l /\ (l <> None -> exists m1, I m1 /\ m_lang m1 <> None))).
    { apply runs_act. intros m M. split; [now apply IRead|]. split; [exact M|]. exists (m_lang m). split; [reflexivity|]. eauto. }
    intros o (l & -> & Hl). apply runs_ret.
    assert (Hn : is_none l = false -> l <> None) by (intros X ->; discriminate X).
    destruct (is_none l); [exact Logic.I|]. specialize (Hl (Hn eq_refl)). apply runs_get_tail; auto.
  Qed.
  Lemma runs_get : runs eps (rget cf fs).
  Proof.
    unfold rget. apply (runs_bind I R (fun o => exists c, o = Ret c /\ (c = None -> exists m1, I m1 /\ m_cur m1 = None))).
    { apply runs_act. intros m M. split; [now apply IRead|]. split; [exact M|]. exists (m_cur m). split; [reflexivity|]. eauto. }
    intros o (c & -> & Hc). apply runs_ret. destruct c as [p|]; [exact Logic.I|]. specialize (Hc eq_refl).
    exact (runs_get_rest (rget_lang cf fs depth0) (runs_get_lang depth0) Hc).
  Qed.

  (** lookups in any dictionary only read *)
  Lemma runs_translate_any fuel : forall d es i, runs eps (rtranslate_in fuel d es i).
  Proof.
    induction fuel as [|fuel IH]; intros d es i; [exact Logic.I|]. cbn [rtranslate_in].
    destruct (assoc i es) as [[|v0 v]|]; try exact Logic.I; apply runs_emit; (destruct (d_has_fallback d); [|exact Logic.I]);
      (destruct (d_fallback d) as [p|]; [|exact Logic.I]); apply (runs_bind I R eps);
      try (intros o _; apply runs_fin; [|exact (fun _ => Logic.I)]; intros fb _; apply IH);
      apply runs_act; intros m M; (split; [now apply IRead|]); (split; [exact M|exact Logic.I]).
  Qed.
  Lemma runs_look_any r k : (forall d, runs eps (k d)) -> runs eps (rlook r k).
  Proof.
    intro H. apply (runs_map I R _ eps); [|exact (fun _ _ => Logic.I)]. apply (runs_bind I R eps).
    - apply runs_act. intros m M. split; [now apply IRead|]. split; [exact M|exact Logic.I].
    - intros o _. apply runs_fin; [|exact (fun _ => Logic.I)]. intros d _. apply H.
  Qed.
  Lemma runs_logged_any x : runs eps (logged x).
  Proof. unfold logged. apply runs_emit. exact Logic.I. Qed.
  Lemma runs_call_any stack q : no_change q -> runs eps (rcall cf fs stack q).
  Proof.
    intro NC.
    destruct q as [|l|r i|r c i|r i pl n|r c i pl n| |s]; cbn [rcall].
    - apply (runs_map I R _ eps); [apply runs_get|exact (fun _ _ => Logic.I)].
    - apply (runs_map I R _ eps); [apply runs_get_lang|exact (fun _ _ => Logic.I)].
    - apply runs_look_any. intro d. apply runs_translate_any.
    - apply runs_look_any. intro d. destruct (assoc c (d_ctxt d)); [apply runs_translate_any|apply runs_logged_any].
    - apply runs_look_any. intro d. apply runs_logged_any.
    - apply runs_look_any. intro d. apply runs_logged_any.
    - apply (runs_map I R _ eps); [|exact (fun _ _ => Logic.I)]. apply (runs_bind I R eps).
      + apply runs_act. intros m M. split; [now apply IRead|]. split; [exact M|exact Logic.I].
      + intros o _. apply runs_fin; [|exact (fun _ => Logic.I)]. intros path _. exact Logic.I.
    - destruct NC.
  Qed.
End Loads.

Lemma classify q : no_change q \/ exists s, q = Change s.
Proof. destruct q; cbn [no_change]; auto. right. eexists. reflexivity. Qed.
(** changing a setting *)
Section Sets.
  Variable I : manager -> Prop.
  Variable R : manager -> access -> manager -> Prop.
  Variable mine : ptr -> Prop.
  Hypothesis IRead : forall m o, I m -> R m (Reads o) m.
  Hypothesis IList : forall m, I m -> Forall mine (List.map snd (m_cache m)).
  Hypothesis IDelete : forall m id, mine id -> I m -> R m (Writes (TheDict (RefHeap id))) (snd (delete id m)) /\ I (snd (delete id m)).
  Hypothesis IClear : forall m, I m -> R m (Writes TheMap) (upd_cache m []) /\ I (upd_cache m []).
  Hypothesis ISetLang : forall m l c, I m -> R m (Writes TheCurrent) (upd_lang m l c) /\ I (upd_lang m l c).
  Hypothesis ISetCharset : forall m c, I m -> R m (Writes TheCharset) (upd_charset m c) /\ I (upd_charset m c).
  Hypothesis ISetFuzzy : forall m c, I m -> R m (Writes TheFuzzy) (upd_fuzzy m c) /\ I (upd_fuzzy m c).
  Hypothesis ISetPath : forall m c, I m -> R m (Writes ThePath) (upd_path m c) /\ I (upd_path m c).
  Lemma runs_mod a f : (forall m, I m -> R m a (f m) /\ I (f m)) -> runs I R eps (act a (mmod f)).
  Proof. intro H. apply runs_act. intros m M. destruct (H m M). split; [assumption|split; [assumption|exact Logic.I]]. Qed.
  Lemma runs_seq {A B} (r : res A) (k : A -> res B) : runs I R eps r -> (forall a, runs I R eps (k a)) -> runs I R eps (rbind r k).
  Proof. intros H K. apply (runs_bind I R eps); [exact H|]. intros [a|e|u| |] _; try exact Logic.I. apply K. Qed.
  Lemma runs_delete_all c : Forall mine (List.map snd c) -> runs I R eps (rdelete_all c).
  Proof.
    induction c as [|[k p] c IH]; intro H; [exact Logic.I|]. cbn [rdelete_all List.map snd] in *. inversion H; subst.
    apply runs_seq; [|auto]. apply runs_act. intros m M. destruct (IDelete m p) as [X Y]; auto. split; [exact X|split; [exact Y|exact Logic.I]].
  Qed.
  Lemma runs_clear : runs I R eps rclear.
  Proof.
    unfold rclear. apply (runs_bind I R (fun o => exists c, o = Ret c /\ Forall mine (List.map snd c))).
    { apply runs_act. intros m M. split; [now apply IRead|]. split; [exact M|]. exists (m_cache m). split; [reflexivity|auto]. }
    intros o (c & -> & H). cbn [rbind]. apply runs_seq; [now apply runs_delete_all|]. intros _.
    apply runs_seq; [now apply runs_mod|]. intros _. apply runs_mod. auto.
  Qed.
  Lemma runs_read {A} o (f : manager -> A) : runs I R eps (act (Reads o) (mget f)).
  Proof. apply runs_act. intros m M. split; [now apply IRead|]. split; [exact M|exact Logic.I]. Qed.
  Lemma runs_set s : runs I R eps (rset s).
  Proof.
    destruct s as [l|c|b|p pr|p]; cbn [rset].
    - apply runs_seq; [apply runs_read|]. intro x. destruct (negb _); [apply runs_mod; auto|exact Logic.I].
    - apply runs_seq; [apply runs_clear|]. intros _. apply runs_mod; auto.
    - apply runs_seq; [apply runs_clear|]. intros _. apply runs_mod; auto.
    - apply runs_seq; [apply runs_read|]. intro x. destruct (existsb _ _); [exact Logic.I|].
      apply runs_seq; [apply runs_clear|]. intros _. apply runs_mod; auto.
    - apply runs_seq; [apply runs_read|]. intro x. destruct (existsb _ _); [|exact Logic.I].
      apply runs_seq; [apply runs_clear|]. intros _. apply runs_mod; auto.
  Qed.
End Sets.

(** lookups in dictionaries that were there *)
Section Lookups.
  Variable cf : config.
  Variable fs : file_system.
  Variable stack : nat.
  Variable m0 : manager.
  Hypothesis Closed : forall r d, deref m0 r = Some d -> d_has_fallback d = true ->
    exists p, d_fallback d = Some p /\ heap_get (m_heap m0) p <> None.
  Variable I : manager -> Prop.
  Variable R : manager -> access -> manager -> Prop.
  Hypothesis ILog : forall m t, I m -> R m Logs (upd_tr m t) /\ I (upd_tr m t).
  Hypothesis IDeref : forall m r d, I m -> deref m0 r = Some d -> deref m r = Some d /\ R m (Reads (TheDict r)) m.

  Lemma runs_translate fuel : forall r d es i, deref m0 r = Some d ->
    runs I R (eq (fst (translate_in fuel (m_heap m0) d es i))) (rtranslate_in fuel d es i).
  Proof.
    induction fuel as [|fuel IH]; intros r d es i D; [reflexivity|]. cbn [rtranslate_in translate_in].
    assert (X : runs I R (eq (fst (let l := [log_info (bs "Couldn't translate: " ++ i)] in
              if d_has_fallback d then
                match match d_fallback d with Some p => heap_get (m_heap m0) p | None => None end with
                | Some fb => let (r, l') := translate_in fuel (m_heap m0) fb (d_entries fb) i in (r, l ++ l')
                | None => (Ub UbPointer, l)
                end
              else (Ret i, l))))
              (if d_has_fallback d then
                match d_fallback d with
                | Some p => rbind (act (Reads (TheDict (RefHeap p))) (look (RefHeap p))) (fun fb => rtranslate_in fuel fb (d_entries fb) i)
                | None => Fin (Ub UbPointer)
                end
               else rret i)).
    { cbv zeta. destruct (d_has_fallback d) eqn:F; [|reflexivity]. destruct (Closed r d D F) as (p & -> & L).
      destruct (heap_get (m_heap m0) p) as [fb|] eqn:E; [|congruence].
      assert (Dp : deref m0 (RefHeap p) = Some fb) by exact E.
      apply (runs_bind I R (fun o => o = Ret fb)).
      - apply runs_act. intros m M. destruct (IDeref m _ _ M Dp) as [H1 H2]. unfold look. rewrite H1. cbn [fst snd]. auto.
      - intros o ->. cbn [rbind]. specialize (IH (RefHeap p) fb (d_entries fb) i Dp).
        destruct (translate_in fuel (m_heap m0) fb (d_entries fb) i) as [o l']. exact IH. }
    destruct (assoc i es) as [[|v0 v]|]; [|reflexivity|]; apply (runs_emit I R ILog); exact X.
  Qed.
  Lemma runs_look r d k (o : outcome bytes) : deref m0 r = Some d -> runs I R (eq o) (k d) -> runs I R (eq (omap AText o)) (rlook r k).
  Proof.
    intros D H. apply (runs_map I R _ (eq o)); [|intros o' <-; reflexivity].
    apply (runs_bind I R (fun o => o = Ret d)).
    - apply runs_act. intros m M. destruct (IDeref m _ _ M D) as [H1 H2]. unfold look. rewrite H1. cbn [fst snd]. auto.
    - intros o' ->. exact H.
  Qed.
  Lemma runs_logged x : runs I R (eq (Ret (fst x))) (logged x).
  Proof. unfold logged. apply (runs_emit I R ILog). reflexivity. Qed.
  Hypothesis IPath : forall m, I m -> m_path m = m_path m0 /\ R m (Reads ThePath) m.
  Hypothesis ICurRead : forall m, I m -> m_cur m0 <> None \/ m_lang m0 = None -> R m (Reads TheCurrent) m.
  Hypothesis ICur : forall m p, I m -> m_cur m0 = Some p -> m_cur m = Some p.
  Hypothesis ILang : forall m, I m -> m_cur m0 = None -> m_lang m0 = None -> m_cur m = None /\ m_lang m = None.
  Lemma runs_get_there : m_cur m0 <> None \/ m_lang m0 = None ->
    runs I R (eq (quiet_answer cf fs stack m0 GetDictionary)) (rcall cf fs stack GetDictionary).
  Proof.
    intro H. cbn [rcall quiet_answer]. apply (runs_map I R _ (eq (fst (get_dictionary cf fs m0)))); [|intros o <-; reflexivity].
    unfold rget, get_dictionary. rewrite bind_get.
    assert (RC : forall m, I m -> R m (Reads TheCurrent) m) by (intros m M; now apply ICurRead).
    destruct (m_cur m0) as [p|] eqn:E.
    - apply (runs_bind I R (fun o => o = Ret (Some p))).
      + apply runs_act. intros m M. cbn [mget fst snd]. rewrite (ICur m p M eq_refl). split; [now apply RC|]. auto.
      + intros o ->. reflexivity.
    - destruct H as [H|H]; [congruence|]. rewrite bind_get, H. cbn [is_none].
      apply (runs_bind I R (fun o => o = Ret None)).
      + apply runs_act. intros m M. cbn [mget fst snd]. rewrite (proj1 (ILang m M eq_refl H)). split; [now apply RC|]. auto.
      + intros o ->. cbn [rbind]. apply (runs_bind I R (fun o => o = Ret None)); [|intros o ->; reflexivity].
        apply runs_act. intros m M. cbn [mget fst snd]. rewrite (proj2 (ILang m M eq_refl H)). split; [now apply RC|]. auto.
  Qed.
  Lemma runs_lookup q : lookup_in m0 q -> runs I R (eq (quiet_answer cf fs stack m0 q)) (rcall cf fs stack q).
  Proof.
    destruct q as [|l|r i|r c i|r i pl n|r c i pl n| |s]; cbn [lookup_in asked_of]; intro X.
    1: now apply runs_get_there.
    1: contradiction.
    6: contradiction.
    5: { cbn [rcall quiet_answer]. apply (runs_map I R _ (eq (fst (get_languages cf fs m0)))); [|intros o <-; reflexivity].
      unfold rlangs. apply (runs_bind I R (fun o => o = Ret (m_path m0))).
      - apply runs_act. intros m M. cbn [mget fst snd]. destruct (IPath m M) as [-> H]. auto.
      - intros o ->. reflexivity. }
    all: destruct X as (r0 & A & N); injection A as <-;
      (destruct (deref m0 r) as [d|] eqn:D; [|congruence]); cbn [rcall quiet_answer]; rewrite D; apply (runs_look _ d); try exact D.
    - now apply (runs_translate stack r).
    - unfold translate_ctxt. destruct (assoc c (d_ctxt d)); [now apply (runs_translate stack r)|apply runs_logged].
    - apply (runs_logged (translate_plural d i pl n)).
    - apply (runs_logged (translate_ctxt_plural d c i pl n)).
  Qed.
  Hypothesis IRead : forall m o, I m -> R m (Reads o) m.
  Hypothesis ICache : forall m l p, I m -> cache_find l (m_cache m0) = Some p -> cache_find l (m_cache m) = Some p.
  Lemma runs_ready q : ready_in m0 q -> runs I R (eq (quiet_answer cf fs stack m0 q)) (rcall cf fs stack q).
  Proof.
    destruct q as [|l|r i|r c i|r i pl n|r c i pl n| |s]; cbn [ready_in]; try apply runs_lookup.
    intros (N & H). cbn [rcall quiet_answer].
    apply (runs_map I R _ (eq (fst (get_dictionary_lang cf fs depth0 l m0)))); [|intros o <-; reflexivity].
    unfold depth0. cbn [rget_lang get_dictionary_lang].
    assert (is_none l = false) as -> by (destruct l; [reflexivity|congruence]). rewrite Bool.andb_false_r. rewrite bind_get.
    destruct (cache_find l (m_cache m0)) as [p|] eqn:E; [|congruence].
    apply (runs_bind I R (fun o => exists c, o = Ret c /\ cache_find l c = Some p)).
    - apply runs_act. intros m M. cbn [mget fst snd]. split; [now apply IRead|]. split; [exact M|]. exists (m_cache m). split; [reflexivity|]. now apply ICache.
    - intros o (c & -> & Hc). cbn [rbind]. rewrite Hc. reflexivity.
  Qed.
End Lookups.

(** * Any number of threads, loading or not *)
Record undisturbed (m0 m : manager) : Prop := {
  un_heap : forall p d, heap_get (m_heap m0) p = Some d -> heap_get (m_heap m) p = Some d;
  un_next : m_next m0 <= m_next m;
  un_cache : forall l p, cache_find l (m_cache m0) = Some p -> cache_find l (m_cache m) = Some p;
  un_cur : forall p, m_cur m0 = Some p -> m_cur m = Some p;
  un_none : m_cur m0 = None -> m_lang m0 = None -> m_cur m = None;
  un_lang : m_lang m = m_lang m0;
  un_path : m_path m = m_path m0;
  un_charset : m_charset m = m_charset m0;
  un_fuzzy : m_fuzzy m = m_fuzzy m0;
  un_freed : m_freed m = m_freed m0;
  un_empty : m_empty m = m_empty m0 }.
(** the accesses threads make: they write to the map, to dictionaries that were not there at the
    beginning, and to the current dictionary if there was none, but a language was set *)
Definition permitted (m0 : manager) (a : access) : Prop :=
  match a with
  | Reads _ | Logs | Writes TheMap => True
  | Writes TheCurrent => m_cur m0 = None /\ m_lang m0 <> None
  | Writes (TheDict (RefHeap p)) => m_next m0 <= p
  | Writes _ => False
  end.

Section General.
  Variable cf : config.
  Variable fs : file_system.
  Variable stack : nat.
  Variable m0 : manager.
  Hypothesis Own : own (cf_ndebug cf) m0.

  Lemma live_lt p d : heap_get (m_heap m0) p = Some d -> p < m_next m0.
  Proof. intro H. apply (own_lt cf m0 p Own). apply (own_live cf m0 p Own). congruence. Qed.
  Lemma live_closed r d : deref m0 r = Some d -> d_has_fallback d = true ->
    exists p, d_fallback d = Some p /\ heap_get (m_heap m0) p <> None.
  Proof.
    destruct r as [|p]; cbn [deref].
    - intro H. injection H as <-. rewrite (own_empty _ _ Own). discriminate.
    - intros H F. assert (In p (List.map snd (m_cache m0))) as L by (apply (own_live cf m0 p Own); congruence).
      apply in_map_iff in L. destruct L as ([l q] & E & L). cbn in E. subst q.
      destruct (own_fb _ _ Own _ _ _ L H F) as (_ & b & q & _ & H1 & H2). exists q. split; [exact H2|].
      destruct (own_found cf m0 b q Own H1) as (d' & ->). discriminate.
  Qed.

  Lemma un_refl : undisturbed m0 m0.
  Proof. constructor; auto. Qed.
  Lemma un_call q : no_change q -> runs (undisturbed m0) (fun _ a _ => permitted m0 a)
    (fun o => ready_in m0 q -> o = quiet_answer cf fs stack m0 q) (rcall cf fs stack q).
  Proof.
    intro NC. assert (IL : forall m t, undisturbed m0 m -> permitted m0 Logs /\ undisturbed m0 (upd_tr m t))
      by (intros m t []; split; [exact I|]; constructor; auto).
    assert (Any : runs (undisturbed m0) (fun _ a _ => permitted m0 a) eps (rcall cf fs stack q)).
    { apply (runs_call_any cf fs (undisturbed m0) (fun _ a _ => permitted m0 a)) with
        (mine := fun p => m_next m0 <= p) (missing := fun l => cache_find l (m_cache m0) = None); auto.
      - intros; exact I.
      - intros m id d H []. cbn [permitted]. split; [exact H|split; [exact H|]]. constructor; auto. cbn [m_heap upd_heap].
        intros p d' X. rewrite heap_get_set_other; [auto|]. pose proof (live_lt _ _ X). lia.
      - intros m l [] H. destruct (cache_find l (m_cache m0)) as [p|] eqn:E; [|reflexivity]. rewrite (un_cache0 _ _ E) in H. discriminate.
      - intros m []. split; [exact I|]. split; [|exact un_next0]. constructor; auto; cbn [make snd m_heap m_next]; [|lia].
        intros p d X. cbn [heap_get]. pose proof (live_lt _ _ X). destruct (Nat.eqb_spec p (m_next m)); [lia|auto].
      - intros m l id [] Hl Hid. split; [exact I|]. constructor; auto. cbn [m_cache upd_cache]. intros l' p X. rewrite cache_set_find.
        destruct (lang_eqb l' l) eqn:E; [|auto]. exfalso.
        assert (cache_find l (m_cache m0) = cache_find l' (m_cache m0)) as Y; [|congruence]. clear -E.
        induction (m_cache m0) as [|[k q] c IH]; [reflexivity|]. cbn [cache_find].
        destruct (lang_eqb l k) eqn:E1, (lang_eqb l' k) eqn:E2; auto; exfalso.
        + rewrite (lang_eqb_trans _ _ _ E E1) in E2. discriminate.
        + rewrite lang_eqb_sym in E. rewrite (lang_eqb_trans _ _ _ E E2) in E1. discriminate.
      - intros m p [] (m1 & [] & C) (m2 & [] & C2). split.
        + cbn [permitted]. split; [|congruence]. destruct (m_cur m0) as [c|]; [|reflexivity]. rewrite (un_cur1 _ eq_refl) in C. discriminate.
        + constructor; auto; cbn [m_cur upd_lang].
          * intros c X. rewrite (un_cur1 _ X) in C. discriminate.
          * intros _ X. congruence. }
    assert (D : ready_in m0 q \/ ~ ready_in m0 q).
    { destruct q as [|l|r i|r c i|r i pl n|r c i pl n| |s]; cbn [ready_in lookup_in asked_of].
      1: { destruct (m_cur m0); [left; left; discriminate|]. destruct (m_lang m0); [right; intros [H|H]; congruence|auto]. }
      1: { destruct (cache_find l (m_cache m0)) as [p|] eqn:E; [|right; intros (_ & H); congruence].
           destruct l as [l|]; [|right; intros (H & _); congruence]. left. split; discriminate. }
      5: now left.
      5: destruct NC.
      all: destruct (deref m0 r) as [d|] eqn:E;
           [left; exists r; split; [reflexivity|congruence]|right; intros (r' & X & Y); injection X as <-; congruence]. }
    destruct D as [D|D].
    - eapply runs_any; [|intros o X _; symmetry; exact X].
      apply (runs_ready cf fs stack m0 live_closed (undisturbed m0) (fun _ a _ => permitted m0 a)); auto.
      + intros m r d [] X. split; [|exact I]. destruct r as [|p]; cbn [deref] in *; [congruence|auto].
      + intros m []. split; [exact un_path0|exact I].
      + intros; exact I.
      + intros m p []; auto.
      + intros m [] X Y. split; [auto|congruence].
      + intros; exact I.
      + intros m l p []; auto.
    - eapply runs_any; [exact Any|]. intros o _ X. contradiction.
  Qed.

  Lemma un_play sched cs : Forall (always no_change) cs ->
    system_ok (undisturbed m0) (fun _ _ a _ => permitted m0 a) (fun _ => no_change)
      (fun _ q o => ready_in m0 q -> o = quiet_answer cf fs stack m0 q) (play cf fs stack sched (start cs m0)).
  Proof.
    intro A. apply play_ok; [intros n q; apply un_call|]. apply start_ok; [apply un_refl|].
    intros n c E. apply nth_error_In in E. rewrite Forall_forall in A. apply (always_follows no_change); auto.
  Qed.
End General.
