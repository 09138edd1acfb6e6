(** The accesses recorded are those that are made: what changes has been recorded as written. *)
From Verif.Model Require Import Base Log PluralForms Dictionary IConv Language Stream PoParser Manager Threads.
From Verif.Spec Require Import DictSpec LangSpec ManagerSpec ThreadsSpec.
From Verif.Proofs Require Import BaseFacts ManagerLoad ManagerOwn ManagerGet ManagerStep ThreadsProofs ThreadsBad.
Local Open Scope list_scope.
Local Opaque from_spec from_env languages.

Definition honest (m : manager) (a : access) (m' : manager) : Prop := forall o, a <> Writes o -> same_at o m m'.
Definition below (m : manager) : Prop := forall p, heap_get (m_heap m) p <> None -> p < m_next m.
Lemma same_refl o m : same_at o m m.
Proof. destruct o; cbn [same_at]; auto. Qed.
Lemma honest_refl m a : honest m a m.
Proof. intros o _. apply same_refl. Qed.
Lemma honest_write o m m' : (forall o', o' <> o -> same_at o' m m') -> honest m (Writes o) m'.
Proof. intros H o' N. apply H. congruence. Qed.
Lemma heap_set_live id d h p : heap_get (heap_set h id d) p <> None -> p = id \/ heap_get h p <> None.
Proof.
  destruct (Nat.eq_dec id p) as [->|N]; [now left|]. right. now rewrite <- (heap_get_set_other h id p d) by auto.
Qed.
Section Honest.
  Variable cf : config.
  Variable fs : file_system.
  Variable stack : nat.

  Lemma honest_set_heap m id d : heap_get (m_heap m) id <> None -> below m ->
    honest m (Writes (TheDict (RefHeap id))) (upd_heap m (heap_set (m_heap m) id d)) /\ below (upd_heap m (heap_set (m_heap m) id d)).
  Proof.
    intros L B. split.
    - apply honest_write. intros [| | | | |[|p]] N; cbn [same_at]; auto. intros _. cbn [deref m_heap upd_heap].
      apply heap_get_set_other. congruence.
    - intros p H. cbn [m_heap m_next upd_heap] in *. apply heap_set_live in H. destruct H as [->|H]; auto.
  Qed.
  Lemma honest_make m : below m -> honest m (Reads TheCharset) (snd (make m)) /\ below (snd (make m)).
  Proof.
    intro B. split.
    - intros [| | | | |[|p]] _; cbn [same_at]; auto. cbn [deref make snd m_heap heap_get]. intro H. apply B in H.
      destruct (Nat.eqb_spec p (m_next m)); [lia|reflexivity].
    - intros p. cbn [make snd m_heap m_next heap_get]. destruct (Nat.eqb_spec p (m_next m)); [lia|]. intro H. apply B in H. lia.
  Qed.
  Lemma honest_delete m id : below m -> honest m (Writes (TheDict (RefHeap id))) (snd (delete id m)) /\ below (snd (delete id m)).
  Proof.
    intro B. unfold delete. destruct (heap_get (m_heap m) id) as [d|] eqn:E; cbn [snd]; [|split; [apply honest_refl|exact B]].
    assert (F : forall p, p <> id -> heap_get (List.filter (fun e => negb (Nat.eqb id (fst e))) (m_heap m)) p = heap_get (m_heap m) p).
    { intros p N. clear -N. induction (m_heap m) as [|[x d'] h IH]; [reflexivity|]. cbn [List.filter fst heap_get].
      destruct (Nat.eqb_spec id x) as [<-|Nx]; cbn [negb].
      - destruct (Nat.eqb_spec p id); [contradiction|exact IH].
      - cbn [heap_get]. now rewrite IH. }
    split.
    - apply honest_write. intros [| | | | |[|p]] N; cbn [same_at]; auto. intros _. cbn [deref m_heap]. apply F. congruence.
    - intros p. cbn [m_heap m_next]. intro H. destruct (Nat.eq_dec p id) as [->|N]; [apply B; congruence|]. rewrite F in H by exact N. auto.
  Qed.
  Ltac one := intros; split; [apply honest_write; intros [| | | | |[|]] ?; cbn [same_at]; auto; congruence|auto].
  Lemma honest_call q : runs below honest eps (rcall cf fs stack q).
  Proof.
    destruct (classify q) as [NC|(s & ->)].
    - apply (runs_call_any cf fs below honest) with (mine := fun _ => True) (missing := fun _ => True); auto.
      + intros m t B. split; [|exact B]. intros [| | | | |[|]] _; cbn [same_at]; auto.
      + intros; apply honest_refl.
      + intros m id d _ B. split; [apply honest_refl|]. intro L. now apply honest_set_heap.
      + intros m B. destruct (honest_make m B). auto.
      + one.
      + one.
    - cbn [rcall]. apply (runs_map _ _ _ eps); [|exact (fun _ _ => Logic.I)].
      apply (runs_set below honest (fun _ => True)).
      + intros; apply honest_refl.
      + intros; apply Forall_forall; auto.
      + intros m id _ B. now apply honest_delete.
      + one.
      + one.
      + one.
      + one.
      + one.
  Qed.
  (** whatever the threads do, an object changes only in a turn that records that it is written to *)
  Lemma recorded threads m sched n o : below m ->
    let s := play cf fs stack sched (start threads m) in
    let s' := turn cf fs stack s n in
    ~ same_at o (s_man s) (s_man s') -> s_acc s' = s_acc s ++ [(n, Writes o)].
  Proof.
    intros B s s' H.
    assert (OK : system_ok below (fun _ => honest) (fun _ _ => True) (fun _ _ => eps) s).
    { apply play_ok; [intros k q _; apply honest_call|]. apply start_ok; [exact B|intros; now apply follows_any]. }
    destruct OK as (HI & HT & _). subst s'. unfold turn in *. destruct (nth_error (s_threads s) n) as [t|] eqn:E.
    2: { exfalso. apply H. apply same_refl. }
    pose proof (thread_step_ok cf fs stack below (fun _ => honest) (fun _ _ => True) (fun _ _ => eps)
      (fun _ q _ => honest_call q) n t (s_man s) (HT _ _ E) HI) as X.
    destruct (thread_step cf fs stack t (s_man s)) as [[t' a] m']. destruct X as (_ & _ & X). cbn [s_man s_acc] in *.
    destruct a as [a|]; [|subst m'; exfalso; apply H; apply same_refl].
    assert (D : a = Writes o \/ a <> Writes o).
    { destruct a as [x|x|]; try (right; discriminate).
      assert ({x = o} + {x <> o}) as [->|N] by (repeat decide equality). { now left. } right. congruence. }
    destruct D as [->|N]; [reflexivity|]. exfalso. apply H. exact (X o N).
  Qed.
End Honest.
