(** Readers, and one thread that loads. *)
From Verif.Model Require Import Base Log PluralForms Dictionary IConv Language Stream PoParser Manager Threads.
From Verif.Spec Require Import DictSpec LangSpec ManagerSpec ThreadsSpec.
From Verif.Proofs Require Import BaseFacts LangProofs ManagerLoad ManagerOwn ManagerGet ManagerStep ThreadsProofs.
Local Open Scope list_scope.

Lemma sbl_refl m : same_but_log m m. Proof. reflexivity. Qed.
Lemma sbl_trans a b c : same_but_log a b -> same_but_log b c -> same_but_log a c.
Proof. unfold same_but_log. congruence. Qed.
Lemma sbl_sym a b : same_but_log a b -> same_but_log b a.
Proof. unfold same_but_log. congruence. Qed.
Lemma sbl_tr m m' t : same_but_log m m' -> same_but_log m (upd_tr m' t).
Proof. intro H. unfold same_but_log in *. rewrite H. reflexivity. Qed.
Lemma sbl_is m m' : same_but_log m m' -> m' = upd_tr m (m_tr m').
Proof. destruct m, m'. unfold same_but_log, upd_tr. cbn. intro H. injection H. intros. now subst. Qed.

(** * Readers *)
Section Readers.
  Variable cf : config.
  Variable fs : file_system.
  Variable stack : nat.
  Variable m0 : manager.
  Hypothesis Own : own (cf_ndebug cf) m0.
  Definition reading (a : access) : Prop := match a with Writes _ => False | _ => True end.
  Lemma readers_call q : ready_in m0 q ->
    runs (same_but_log m0) (fun _ a _ => reading a) (eq (quiet_answer cf fs stack m0 q)) (rcall cf fs stack q).
  Proof.
    intro H.
    apply (runs_ready cf fs stack m0 (live_closed cf m0 Own) (same_but_log m0) (fun _ a _ => reading a)); auto.
    - intros m t M. split; [exact I|now apply sbl_tr].
    - intros m r d M D. split; [|exact I]. rewrite (sbl_is _ _ M). exact D.
    - intros m M. split; [|exact I]. now rewrite (sbl_is _ _ M).
    - intros; exact I.
    - intros m p M X. rewrite (sbl_is _ _ M). exact X.
    - intros m M X Y. rewrite (sbl_is _ _ M). auto.
    - intros; exact I.
    - intros m l p M X. rewrite (sbl_is _ _ M). exact X.
  Qed.
  Lemma readers_play sched cs : Forall (asks (ready_in m0) (quiet_answer cf fs stack m0)) cs ->
    system_ok (same_but_log m0) (fun _ _ a _ => reading a) (fun _ => ready_in m0)
      (fun _ q o => quiet_answer cf fs stack m0 q = o) (play cf fs stack sched (start cs m0)).
  Proof.
    intro A. apply play_ok; [intros n q; apply readers_call|]. apply start_ok; [apply sbl_refl|].
    intros n c E. apply nth_error_In in E. rewrite Forall_forall in A.
    apply (asks_follows (ready_in m0) _ _ (quiet_answer cf fs stack m0)); [auto|intros q o _ <-; reflexivity|now apply A].
  Qed.
End Readers.

(** * What calls do does not depend on what has been logged *)
Fixpoint blind {A} (r : res A) : Prop :=
  match r with
  | Fin _ => True
  | Tick a f => forall m m', same_but_log m m' ->
      fst (f m) = fst (f m') /\ same_but_log (snd (f m)) (snd (f m')) /\ match f m with (r', _) => blind r' end
  end.
Lemma blind_bind {A B} (r : res A) (k : A -> res B) : blind r -> (forall a, blind (k a)) -> blind (rbind r k).
Proof.
  induction r as [o|a f IH] using res_ind'; intros H K; [destruct o; try exact I; apply K|].
  cbn [rbind blind] in *. intros m m' E. destruct (H m m' E) as (H1 & H2 & H3). specialize (IH m).
  destruct (f m) as [r1 m1], (f m') as [r2 m2]. cbn [fst snd] in *. subst r2. auto.
Qed.
Lemma blind_act {A} a (g : M manager A) :
  (forall m m', same_but_log m m' -> fst (g m) = fst (g m') /\ same_but_log (snd (g m)) (snd (g m'))) -> blind (act a g).
Proof.
  intros H m m' E. destruct (H m m' E) as [H1 H2]. destruct (g m) as [o1 m1], (g m') as [o2 m2]. cbn [fst snd] in *. subst.
  split; [reflexivity|]. split; [exact H2|exact I].
Qed.
Ltac by_log := let m := fresh "m" in let m' := fresh "m'" in let E := fresh "E" in
  intros m m' E; rewrite (sbl_is _ _ E); split; reflexivity.
Section Blind.
  Variable cf : config.
  Variable fs : file_system.
  Variable stack : nat.
  Lemma blind_emit e : blind (act Logs (emit_m e)).
  Proof. apply blind_act. by_log. Qed.
  Lemma blind_look a r : blind (act a (look r)).
  Proof. apply blind_act. intros m m' E. rewrite (sbl_is _ _ E). unfold look. destruct r; cbn [deref]; split; reflexivity. Qed.
  Lemma blind_change a id f : blind (act a (change_dict id f)).
  Proof.
    apply blind_act. intros m m' E. rewrite (sbl_is _ _ E). unfold change_dict. cbn [m_heap upd_tr].
    destruct (heap_get (m_heap m) id); split; reflexivity.
  Qed.
  Lemma blind_fallback a id fb : blind (act a (set_fallback id fb)).
  Proof.
    apply blind_act. intros m m' E. rewrite (sbl_is _ _ E). unfold set_fallback. cbn [m_heap upd_tr].
    destruct (heap_get (m_heap m) id); split; reflexivity.
  Qed.
  Lemma blind_consider l b f : blind (rconsider cf l b f).
  Proof.
    unfold rconsider. destruct (has_suffix f dot_po); [|exact I]. apply blind_bind; [exact I|]. intro s.
    apply blind_bind; [exact I|]. intro po. destruct (is_none po); [|exact I]. apply blind_bind; [apply blind_emit|]. intros _. exact I.
  Qed.
  Lemma blind_best l files : forall b, blind (rbest_file cf l b files).
  Proof.
    induction files as [|f files IH]; intro b; [exact I|]. cbn [rbest_file]. apply blind_bind; [apply blind_consider|exact IH].
  Qed.
  Lemma blind_calls id cs : blind (rcalls id cs).
  Proof. induction cs as [|c cs IH]; [exact I|]. cbn [rcalls]. apply blind_bind; [apply blind_change|intros _; exact IH]. Qed.
  Lemma blind_file id pf : blind (rload_file cf fs id pf).
  Proof.
    unfold rload_file. destruct (fs_file fs pf) as [[i|]|e|u| |]; try exact I; try apply blind_emit.
    - apply blind_bind; [apply blind_look|]. intro d. apply blind_bind; [apply blind_calls|]. intros _.
      apply blind_bind; [apply blind_emit|]. intros _. destruct (pr_outcome _) as [x|e|u| |]; try exact I.
      destruct (is_std e); [apply blind_emit|exact I].
    - destruct (is_std e); [apply blind_emit|exact I].
  Qed.
  Lemma blind_dirs l id ps : blind (rload_dirs cf fs l id ps).
  Proof.
    induction ps as [|p ps IH]; [exact I|]. cbn [rload_dirs]. apply blind_bind; [|intros _; exact IH].
    unfold rload_dir. apply blind_bind; [exact I|]. intro files. apply blind_bind; [apply blind_best|]. intro b.
    destruct (is_nil (fst b)); [exact I|apply blind_file].
  Qed.
  Lemma blind_get_lang dp : forall l, blind (rget_lang cf fs dp l).
  Proof.
    induction dp as [|dp IH]; intro l; [exact I|]. cbn [rget_lang]. destruct (negb (cf_ndebug cf) && is_none l); [exact I|].
    apply blind_bind; [apply blind_act; by_log|]. intro c. destruct (cache_find l c) as [p|]; [exact I|].
    apply blind_bind; [apply blind_act; by_log|]. intro id. apply blind_bind; [apply blind_act; by_log|]. intros _.
    apply blind_bind; [apply blind_act; by_log|]. intro path. apply blind_bind; [apply blind_dirs|]. intros _.
    destruct (is_nil (get_country l)); [exact I|]. apply blind_bind; [exact I|]. intro b. apply blind_bind; [apply IH|]. intro fb.
    apply blind_bind; [apply blind_fallback|]. intros _. exact I.
  Qed.
  Lemma blind_get : blind (rget cf fs).
  Proof.
    unfold rget. apply blind_bind; [apply blind_act; by_log|]. intro c. destruct c as [p|]; [exact I|].
    apply blind_bind; [apply blind_act; by_log|]. intro l. destruct (is_none l); [exact I|].
    apply blind_bind; [apply blind_get_lang|]. intro p. apply blind_bind; [apply blind_act; by_log|]. intros _. exact I.
  Qed.
  Lemma blind_translate fuel : forall d es i, blind (rtranslate_in fuel d es i).
  Proof.
    induction fuel as [|fuel IH]; intros d es i; [exact I|]. cbn [rtranslate_in].
    destruct (assoc i es) as [[|v0 v]|]; try exact I; (apply blind_bind; [apply blind_emit|]; intros _);
      (destruct (d_has_fallback d); [|exact I]); (destruct (d_fallback d); [|exact I]);
      (apply blind_bind; [apply blind_look|intro fb; apply IH]).
  Qed.
  Lemma blind_rlook r k : (forall d, blind (k d)) -> blind (rlook r k).
  Proof.
    intro H. apply blind_bind; [|intro; exact I]. apply blind_bind; [apply blind_look|exact H].
  Qed.
  Lemma blind_logged x : blind (logged x).
  Proof. apply blind_bind; [apply blind_emit|intro; exact I]. Qed.
  Lemma blind_delete a p : blind (act a (delete p)).
  Proof.
    apply blind_act. intros m m' E. rewrite (sbl_is _ _ E). unfold delete. cbn [m_heap upd_tr].
    destruct (heap_get (m_heap m) p); split; reflexivity.
  Qed.
  Lemma blind_clear : blind rclear.
  Proof.
    apply blind_bind; [apply blind_act; by_log|]. intro c. apply blind_bind.
    { induction c as [|[k p] c IH]; [exact I|]. cbn [rdelete_all]. apply blind_bind; [apply blind_delete|intros _; exact IH]. }
    intros _. apply blind_bind; [apply blind_act; by_log|]. intros _. apply blind_act; by_log.
  Qed.
  Lemma blind_set s : blind (rset s).
  Proof.
    destruct s as [l|c|b|p pr|p]; cbn [rset].
    - apply blind_bind; [apply blind_act; by_log|]. intro x. destruct (negb _); [apply blind_act; by_log|exact I].
    - apply blind_bind; [apply blind_clear|]. intros _. apply blind_act; by_log.
    - apply blind_bind; [apply blind_clear|]. intros _. apply blind_act; by_log.
    - apply blind_bind; [apply blind_act; by_log|]. intro x. destruct (existsb _ _); [exact I|].
      apply blind_bind; [apply blind_clear|]. intros _. apply blind_act; by_log.
    - apply blind_bind; [apply blind_act; by_log|]. intro x. destruct (existsb _ _); [|exact I].
      apply blind_bind; [apply blind_clear|]. intros _. apply blind_act; by_log.
  Qed.
  Lemma blind_call q : blind (rcall cf fs stack q).
  Proof.
    destruct q as [|l|r i|r c i|r i pl n|r c i pl n| |s]; cbn [rcall].
    - apply blind_bind; [apply blind_get|intro; exact I].
    - apply blind_bind; [apply blind_get_lang|intro; exact I].
    - apply blind_rlook. intro d. apply blind_translate.
    - apply blind_rlook. intro d. destruct (assoc c (d_ctxt d)); [apply blind_translate|apply blind_logged].
    - apply blind_rlook. intro d. apply blind_logged.
    - apply blind_rlook. intro d. apply blind_logged.
    - apply blind_bind; [|intro; exact I]. apply blind_bind; [apply blind_act; by_log|]. intro path. exact I.
    - apply blind_bind; [apply blind_set|intro; exact I].
  Qed.
End Blind.

(** * One thread that loads, any number that look up *)
Definition loads_or_looks (i : nat) (m0 : manager) (n : nat) (q : request) : Prop :=
  if Nat.eq_dec n i then no_change q else lookup_in m0 q.
Section OneLoader.
  Variable cf : config.
  Variable fs : file_system.
  Variable stack : nat.
  Variable m0 : manager.
  Hypothesis Own : own (cf_ndebug cf) m0.
  Variable i : nat.

  Definition looking (m : manager) (a : access) (m' : manager) : Prop :=
    (a = Logs \/ a = Reads ThePath \/ (a = Reads TheCurrent /\ (m_cur m0 <> None \/ m_lang m0 = None)) \/
     exists r, a = Reads (TheDict r) /\ deref m0 r <> None) /\ same_but_log m m'.
  Definition loader_step (n : nat) (m : manager) (a : access) (m' : manager) : Prop :=
    if Nat.eq_dec n i then permitted m0 a else looking m a m'.
  Definition loader_log (n : nat) (q : request) (o : outcome answer) : Prop :=
    ready_in m0 q -> o = quiet_answer cf fs stack m0 q.
  Lemma looker_call q : lookup_in m0 q ->
    runs (undisturbed m0) looking (fun o => ready_in m0 q -> o = quiet_answer cf fs stack m0 q) (rcall cf fs stack q).
  Proof.
    intro H. eapply runs_any; [|intros o X _; symmetry; exact X].
    apply (runs_lookup cf fs stack m0 (live_closed cf m0 Own) (undisturbed m0) looking); auto.
    - intros m t []. split; [split; [now left|now apply sbl_tr]|]. constructor; auto.
    - intros m r d [] D. split; [destruct r; cbn [deref] in *; [congruence|auto]|]. split; [|apply sbl_refl]. right. right. right. exists r. split; [reflexivity|congruence].
    - intros m U. split; [exact (un_path _ _ U)|]. split; [right; now left|apply sbl_refl].
    - intros m U X. split; [right; right; left; now split|apply sbl_refl].
    - intros m p []; auto.
    - intros m [] X Y. split; [auto|congruence].
  Qed.
  Lemma loader_call n q : loads_or_looks i m0 n q ->
    runs (undisturbed m0) (loader_step n) (loader_log n q) (rcall cf fs stack q).
  Proof.
    unfold loads_or_looks, loader_step, loader_log. destruct (Nat.eq_dec n i); intro H.
    - now apply un_call.
    - now apply looker_call.
  Qed.
  Definition loader_clients (cs : list client) : Prop :=
    forall n c, nth_error cs n = Some c -> follows (loads_or_looks i m0 n) (loader_log n) c.
  Lemma loader_play sched cs : loader_clients cs ->
    system_ok (undisturbed m0) loader_step (loads_or_looks i m0) loader_log (play cf fs stack sched (start cs m0)).
  Proof. intro A. apply play_ok; [exact loader_call|]. apply start_ok; [apply un_refl|exact A]. Qed.

  (** the loading thread by itself *)
  Definition in_step (s s' : system) : Prop :=
    system_ok (undisturbed m0) loader_step (loads_or_looks i m0) loader_log s /\
    nth_error (s_threads s) i = nth_error (s_threads s') i /\ same_but_log (s_man s) (s_man s') /\
    match nth_error (s_threads s) i with
    | Some t => match th_now t with Idle _ => True | Busy _ r _ => blind r end
    | None => True
    end.
  Lemma in_step_mine s s' : in_step s s' -> in_step (turn cf fs stack s i) (turn cf fs stack s' i).
  Proof.
    intros (H1 & H2 & H3 & H4). split; [now apply turn_ok; [exact loader_call|]|].
    unfold turn. rewrite <- H2. destruct (nth_error (s_threads s) i) as [t|] eqn:E.
    2: { rewrite E. auto. }
    unfold thread_step. destruct (th_now t) as [[|q k]|q [o|a f] k] eqn:N.
    - cbn [s_threads s_man]. rewrite (nth_put_same _ _ _ _ E). rewrite (nth_put_same i t t) by congruence. rewrite N. auto.
    - cbn [s_threads s_man]. rewrite (nth_put_same _ _ _ _ E), (nth_put_same i _ t) by congruence. cbn [th_now].
      split; [reflexivity|split; [exact H3|apply blind_call]].
    - cbn [s_threads s_man]. rewrite (nth_put_same _ _ _ _ E), (nth_put_same i _ t) by congruence. cbn [th_now]. auto.
    - cbn [blind] in H4. destruct (H4 (s_man s) (s_man s') H3) as (B1 & B2 & B3). destruct (f (s_man s)) as [r1 m1], (f (s_man s')) as [r2 m2].
      cbn [fst snd] in *. subst r2. cbn [s_threads s_man]. rewrite (nth_put_same _ _ _ _ E), (nth_put_same i _ t) by congruence.
      cbn [th_now]. auto.
  Qed.
  Lemma in_step_other s s' n : n <> i -> in_step s s' -> in_step (turn cf fs stack s n) s'.
  Proof.
    intros N (H1 & H2 & H3 & H4). split; [now apply turn_ok; [exact loader_call|]|].
    unfold turn. destruct (nth_error (s_threads s) n) as [t|] eqn:E; [|auto].
    destruct H1 as (HI & HT & HA). pose proof (thread_step_ok cf fs stack _ _ _ _ loader_call n t (s_man s) (HT _ _ E) HI) as X.
    destruct (thread_step cf fs stack t (s_man s)) as [[t' a] m']. destruct X as (_ & _ & X).
    cbn [s_threads s_man]. rewrite nth_put_other by exact N. split; [exact H2|]. split; [|exact H4].
    destruct a as [a|]; [|subst m'; exact H3]. unfold loader_step in X. destruct (Nat.eq_dec n i); [contradiction|].
    destruct X as [_ X]. exact (sbl_trans _ _ _ (sbl_sym _ _ X) H3).
  Qed.
  Lemma in_step_play sched : forall s s', in_step s s' ->
    in_step (play cf fs stack sched s) (play cf fs stack (List.filter (Nat.eqb i) sched) s').
  Proof.
    induction sched as [|n sched IH]; intros s s' H; [exact H|]. cbn [List.filter].
    change (play cf fs stack (n :: sched) s) with (play cf fs stack sched (turn cf fs stack s n)).
    destruct (Nat.eqb_spec i n) as [<-|N].
    - change (play cf fs stack (i :: ?l) s') with (play cf fs stack l (turn cf fs stack s' i)). apply IH. now apply in_step_mine.
    - apply IH. apply in_step_other; auto.
  Qed.
  Lemma in_step_start cs : loader_clients cs -> in_step (start cs m0) (start cs m0).
  Proof.
    intro A. split; [apply start_ok; [apply un_refl|exact A]|]. split; [reflexivity|]. split; [apply sbl_refl|].
    cbn [start s_threads]. rewrite nth_error_map. destruct (nth_error cs i); exact I.
  Qed.
  Lemma ready_lookup q : lookup_in m0 q -> ready_in m0 q.
  Proof. destruct q; auto. intros []. Qed.
  Lemma loader_of_asks cs : (forall c, nth_error cs i = Some c -> always no_change c) -> (forall n c, nth_error cs n = Some c -> n <> i -> asks (lookup_in m0) (quiet_answer cf fs stack m0) c) ->
    loader_clients cs.
  Proof.
    intros B A n c E. unfold loads_or_looks. destruct (Nat.eq_dec n i) as [->|N]; [apply (always_follows no_change); auto|].
    apply (asks_follows (lookup_in m0) _ _ (quiet_answer cf fs stack m0)); [auto| |now apply (A n c)].
    intros q o H X. apply X. now apply ready_lookup.
  Qed.
  (** the others only make lookups *)
  Lemma looker_log cs : loader_clients cs -> forall sched n q o, n <> i ->
    In (q, o) (answers (play cf fs stack sched (start cs m0)) n) -> ready_in m0 q.
  Proof.
    intros A sched n q o N X.
    assert (C : forall n q, loads_or_looks i m0 n q ->
      runs (undisturbed m0) (loader_step n) (fun o => loader_log n q o /\ loads_or_looks i m0 n q) (rcall cf fs stack q)).
    { intros k q' H. eapply runs_any; [exact (loader_call k q' H)|]. auto. }
    assert (S : system_ok (undisturbed m0) loader_step (loads_or_looks i m0) (fun n q o => loader_log n q o /\ loads_or_looks i m0 n q)
                  (play cf fs stack sched (start cs m0))).
    { apply play_ok; [exact C|]. apply start_ok; [apply un_refl|]. intros k c E. specialize (A k c E). clear -A.
      induction c as [|q' k' IH]; [exact I|]. destruct A as [A1 A2]. split; [exact A1|]. intros o' [X _]. auto. }
    pose proof (ok_answers _ _ _ (fun n q o => loader_log n q o /\ loads_or_looks i m0 n q) _ n q o S X) as [_ Y]. unfold loads_or_looks in Y.
    destruct (Nat.eq_dec n i); [contradiction|]. destruct q; try exact Y; destruct Y.
  Qed.
  Lemma no_race s : system_ok (undisturbed m0) loader_step (loads_or_looks i m0) loader_log s -> ~ data_race (s_acc s).
  Proof.
    intros (_ & _ & A) (j & k & a & b & N & H1 & H2 & C).
    destruct (A _ _ H1) as (m1 & m1' & _ & R1). destruct (A _ _ H2) as (m2 & m2' & _ & R2). unfold loader_step in *.
    assert (X : forall x, permitted m0 (Writes (TheDict x)) -> deref m0 x = None).
    { intros [|p]; cbn [permitted deref]; [intros []|]. intro L. destruct (heap_get (m_heap m0) p) as [d|] eqn:E; [|reflexivity].
      pose proof (live_lt cf m0 Own p d E). lia. }
    destruct (Nat.eq_dec j i) as [->|Nj], (Nat.eq_dec k i) as [->|Nk].
    - congruence.
    - destruct R2 as [[-> | [-> | [(-> & L) | (r & -> & L)]]] _]; destruct a as [o|o|]; cbn [conflict] in C; try contradiction; subst o; [exact R1|cbn [permitted] in R1; destruct R1, L; contradiction|now apply X in R1].
    - destruct R1 as [[-> | [-> | [(-> & L) | (r & -> & L)]]] _]; destruct b as [o|o|]; cbn [conflict] in C; try contradiction; subst o; [exact R2|cbn [permitted] in R2; destruct R2, L; contradiction|now apply X in R2].
    - destruct R1 as [[-> | [-> | [(-> & L) | (r & -> & L)]]] _], R2 as [[-> | [-> | [(-> & L') | (r' & -> & L')]]] _]; cbn [conflict] in C; contradiction.
  Qed.
End OneLoader.
