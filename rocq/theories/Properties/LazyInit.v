(** Property C52: the lazily filled static tables. *)
From Verif.Model Require Import Base PluralForms LanguageTable Language LazyInit.
From Verif.Proofs Require Import BaseFacts PluralProofs LangProofs.
Local Open Scope list_scope.

Section Proofs.
  Context {V : Type}.
  Implicit Types (rows tb : list (bytes * V)).

  Definition insert_all rows tb := fold_left (fun t kv => assoc_set (fst kv) (snd kv) t) rows tb.

  Lemma assoc_insert_all : forall rows tb k,
    NoDup (List.map fst rows) ->
    assoc k (insert_all rows tb) = match assoc k rows with Some v => Some v | None => assoc k tb end.
  Proof.
    induction rows as [|[k' v'] rows IH]; intros tb k ND; simpl; auto.
    inversion ND; subst. simpl. unfold insert_all in *. rewrite IH by auto.
    destruct (bytes_eqb_spec k k').
    - subst. simpl. rewrite assoc_set_same. destruct (assoc k' rows) eqn:E; auto.
      apply assoc_In in E. exfalso. apply H1. change k' with (fst (k', v)). now apply in_map.
    - simpl. destruct (assoc k rows); auto. now apply assoc_set_other.
  Qed.

  Lemma assoc_insert_all_again : forall rows0 rows tb k,
    NoDup (List.map fst rows0) -> (forall k v, In (k, v) rows -> assoc k rows0 = Some v) ->
    (forall k, assoc k tb = assoc k rows0) -> assoc k (insert_all rows tb) = assoc k rows0.
  Proof.
    intros rows0. induction rows as [|[k' v'] rows IH]; intros tb k ND Sub H; simpl; auto.
    unfold insert_all in *. simpl. apply IH; auto.
    - intros. apply Sub. now right.
    - intros k0. destruct (bytes_eqb_spec k0 k').
      + subst. rewrite assoc_set_same. symmetry. apply Sub. now left.
      + rewrite assoc_set_other; auto.
  Qed.

  Variable rows : list (bytes * V).

  Lemma run_fill : forall todo fuel key tb,
    length todo < fuel ->
    run_alone rows fuel {| th_key := key; th_pc := PcFill todo |} tb =
    ({| th_key := key; th_pc := PcDone (assoc key (insert_all todo tb)) |}, insert_all todo tb).
  Proof.
    induction todo as [|[k v] todo IH]; intros fuel key tb F.
    - destruct fuel; [lia|]. simpl. clear F. induction fuel; simpl; auto.
    - destruct fuel; [simpl in F; lia|]. simpl. rewrite IH by (simpl in F; lia). reflexivity.
  Qed.
End Proofs.

(** One thread alone: the first lookup, and any later one, finds exactly the
    registered value. *)
Theorem C52_single_thread_correct :
  forall (V : Type) (rows : list (bytes * V)) (key key2 : bytes) (fuel : nat),
  NoDup (List.map fst rows) -> rows <> [] -> S (length rows) < fuel ->
  exists tb tb',
    run_alone rows fuel {| th_key := key; th_pc := PcTest |} []
      = ({| th_key := key; th_pc := PcDone (assoc key rows) |}, tb) /\
    run_alone rows fuel {| th_key := key2; th_pc := PcTest |} tb
      = ({| th_key := key2; th_pc := PcDone (assoc key2 rows) |}, tb').
Proof.
  intros V rows key key2 fuel ND NE F. destruct fuel as [|fuel]; [lia|].
  assert (A : forall k, assoc k (insert_all rows []) = assoc k rows).
  { intros. rewrite assoc_insert_all by auto. now destruct (assoc k rows). }
  exists (insert_all rows []). exists (insert_all rows []). split; simpl.
  - rewrite run_fill by lia. now rewrite A.
  - assert (N : is_nil (insert_all rows []) = false).
    { destruct rows as [|[k v] r]; [easy|]. specialize (A k). simpl in A. rewrite bytes_eqb_refl in A.
      destruct (insert_all _ _); [discriminate|reflexivity]. }
    rewrite N. rewrite run_fill by (simpl; lia). simpl. now rewrite A.
Qed.

(** ** Any number of threads *)
Section Threads.
  Context {V : Type}.
  Variable rows : list (bytes * V).
  Notation thr := (@thread V).
  Notation tab := (list (bytes * V)).

  Lemma set_nth_same i (t : thr) ts : i < length ts -> nth_error (set_nth i t ts) i = Some t.
  Proof. revert i. induction ts as [|x ts IH]; intros [|i] H; cbn in *; try lia; [reflexivity|]. apply IH. lia. Qed.
  Lemma set_nth_other i j (t : thr) ts : i <> j -> nth_error (set_nth i t ts) j = nth_error ts j.
  Proof. revert i j. induction ts as [|x ts IH]; intros [|i] [|j] H; cbn; try reflexivity; [congruence|]. apply IH. congruence. Qed.

  (** Rule for schedules: what one step of one thread keeps, the run keeps; [P] is
      about a thread and the table, [Q] about the table. *)
  Lemma schedule_rule (P : bytes -> thr -> tab -> Prop) (Q : tab -> Prop) :
    (forall k t tb, Q tb -> P k t tb -> P k (fst (tstep rows t tb)) (snd (tstep rows t tb)) /\ Q (snd (tstep rows t tb))) ->
    (forall k k' t t' tb, Q tb -> P k t tb -> P k' t' tb -> P k' t' (snd (tstep rows t tb))) ->
    forall sched keys tb ts,
      Q tb -> length ts = length keys -> (forall i k t, nth_error keys i = Some k -> nth_error ts i = Some t -> P k t tb) ->
      forall ts' tb', fold_left (turn rows) sched (ts, tb) = (ts', tb') ->
      Q tb' /\ length ts' = length keys /\ (forall i k t, nth_error keys i = Some k -> nth_error ts' i = Some t -> P k t tb').
  Proof.
    intros S1 S2. induction sched as [|j sched IH]; intros keys tb ts HQ L HP ts' tb' E.
    - cbn in E. injection E as <- <-. auto.
    - cbn [fold_left] in E. unfold turn at 2 in E. cbn [fst snd] in E. destruct (nth_error ts j) as [t|] eqn:Et; [|apply (IH keys tb ts); auto].
      assert (Lj : j < length ts) by (apply nth_error_Some; congruence).
      destruct (nth_error keys j) as [kj|] eqn:Ek; [|apply nth_error_None in Ek; lia].
      pose proof (HP j kj t Ek Et) as Pt. destruct (S1 kj t tb HQ Pt) as [Pn Qn].
      pose proof (fun k' t' => S2 kj k' t t' tb HQ Pt) as Po.
      destruct (tstep rows t tb) as [t1 tb1]. cbn [fst snd] in *.
      revert E. apply IH; auto.
      + rewrite <- L. clear. revert j. induction ts as [|x ts IH]; intros [|j]; cbn; auto.
      + intros i k t' Ki Ti. destruct (Nat.eq_dec j i) as [<-|N].
        * rewrite set_nth_same in Ti by exact Lj. injection Ti as <-. congruence.
        * rewrite set_nth_other in Ti by exact N. eapply Po. eapply HP; eauto.
  Qed.

  Definition within (tb : tab) := forall k v, assoc k tb = Some v -> assoc k rows = Some v.
  Definition complete (tb : tab) := forall k, assoc k tb = assoc k rows.
  Definition holds (pre : list (bytes * V)) (tb : tab) := forall k v, In (k, v) pre -> assoc k tb = Some v.

  Hypothesis ND : NoDup (List.map fst rows).
  Hypothesis NE : rows <> [].

  Lemma split_rows pre k v todo : rows = pre ++ (k, v) :: todo -> assoc k rows = Some v.
  Proof. intro E. apply In_assoc; [exact ND|]. rewrite E. apply in_app_iff. right. now left. Qed.

  (** one step keeps the table within the rows and loses nothing *)
  Definition filling (t : thr) := exists pre todo, rows = pre ++ todo /\ th_pc t = PcFill todo.
  Definition sane (k : bytes) (t : thr) (tb : tab) : Prop :=
    th_key t = k /\
    match th_pc t with
    | PcTest => True
    | PcFill todo => (exists pre, rows = pre ++ todo /\ holds pre tb) \/ todo = [] /\ tb <> []
    | PcDone r => r = None \/ r = assoc k rows
    end.

  Lemma set_within tb k v : within tb -> assoc k rows = Some v -> within (assoc_set k v tb).
  Proof.
    intros W H k0 v0. destruct (bytes_eqb_spec k0 k) as [->|N]; [rewrite assoc_set_same; congruence|].
    rewrite assoc_set_other by exact N. apply W.
  Qed.
  Lemma set_grows tb k v : within tb -> assoc k rows = Some v -> forall k0 v0, assoc k0 tb = Some v0 -> assoc k0 (assoc_set k v tb) = Some v0.
  Proof.
    intros W H k0 v0 H0. destruct (bytes_eqb_spec k0 k) as [->|N]; [rewrite assoc_set_same; apply W in H0; congruence|].
    rewrite assoc_set_other; auto.
  Qed.
  Lemma set_not_nil {A} k (v : A) tb : assoc_set k v tb <> [].
  Proof. destruct tb as [|[k' v'] tb]; cbn; [discriminate|]. destruct (bytes_eqb k k'); discriminate. Qed.

  Lemma step_sane k t tb : within tb -> sane k t tb ->
    sane k (fst (tstep rows t tb)) (snd (tstep rows t tb)) /\ within (snd (tstep rows t tb)) /\
    (forall k0 v0, assoc k0 tb = Some v0 -> assoc k0 (snd (tstep rows t tb)) = Some v0) /\ (tb <> [] -> snd (tstep rows t tb) <> []).
  Proof.
    intros W [K S]. unfold tstep, sane. destruct (th_pc t) as [|[|[k' v'] todo]|r] eqn:P; cbn [fst snd th_key th_pc].
    - split; [|split; [exact W|split; auto]]. split; [exact K|]. destruct (is_nil_spec _ tb) as [->|N].
      + left. exists []. split; [reflexivity|]. intros ? ? [].
      + right. auto.
    - split; [|split; [exact W|split; auto]]. split; [exact K|]. rewrite K. destruct S as [(pre & E & H)|[_ N]].
      + right. rewrite app_nil_r in E. subst pre. destruct (assoc k rows) as [v|] eqn:A.
        * apply H. now apply assoc_In.
        * destruct (assoc k tb) as [v|] eqn:B; [|reflexivity]. apply W in B. congruence.
      + destruct (assoc k tb) as [v|] eqn:B; [right; symmetry; now apply W|now left].
    - destruct S as [(pre & E & H)|[? _]]; [|discriminate].
      assert (R : assoc k' rows = Some v') by (eapply split_rows; exact E).
      split; [|split; [now apply set_within|split; [now apply set_grows|intros _; apply set_not_nil]]].
      split; [exact K|]. left. exists (pre ++ [(k', v')]). split; [rewrite <- app_assoc; exact E|].
      intros k0 v0 I. apply in_app_iff in I as [I|[I|[]]].
      + apply set_grows; auto.
      + injection I as <- <-. apply assoc_set_same.
    - split; [|split; [exact W|split; auto]]. rewrite P. split; auto.
  Qed.
  Lemma sane_mono k t tb tb' : (forall k0 v0, assoc k0 tb = Some v0 -> assoc k0 tb' = Some v0) -> (tb <> [] -> tb' <> []) -> sane k t tb -> sane k t tb'.
  Proof.
    intros G N [K S]. split; [exact K|]. destruct (th_pc t) as [|todo|r]; auto.
    destruct S as [(pre & E & H)|[E H]]; [left; exists pre; split; [exact E|]; intros ? ? I; apply G, H, I|right; auto].
  Qed.
  Lemma callers_sane keys tb i k t : nth_error keys i = Some k -> nth_error (callers keys) i = Some t -> sane k t tb.
  Proof.
    intros K T. unfold callers in T. rewrite nth_error_map, K in T. injection T as <-. split; [reflexivity|exact Logic.I].
  Qed.

  Lemma run_sane keys tb sched ts' tb' : within tb -> run_schedule rows keys tb sched = (ts', tb') ->
    within tb' /\ length ts' = length keys /\ (forall i k t, nth_error keys i = Some k -> nth_error ts' i = Some t -> sane k t tb').
  Proof.
    intros W E. revert E. unfold run_schedule. apply (schedule_rule sane within); auto.
    - intros k t tb0 W0 S0. destruct (step_sane k t tb0 W0 S0) as (A & B & _). auto.
    - intros k k' t t' tb0 W0 S0 S1. destruct (step_sane k t tb0 W0 S0) as (_ & _ & C & D). now apply (sane_mono k' t' tb0).
    - unfold callers. apply map_length.
    - intros i k t K T. now apply (callers_sane keys tb i).
  Qed.

  (** somebody is filling, or nothing has happened yet, or the table is complete *)
  Definition someone (ts : list thr) (tb : tab) :=
    complete tb \/
    (exists i t todo pre, nth_error ts i = Some t /\ th_pc t = PcFill todo /\ rows = pre ++ todo /\ holds pre tb) \/
    (tb = [] /\ forall i t, nth_error ts i = Some t -> th_pc t = PcTest).

  Lemma complete_step tb k (v : V) : complete tb -> assoc k rows = Some v -> complete (assoc_set k v tb).
  Proof.
    intros C H k0. destruct (bytes_eqb_spec k0 k) as [->|N]; [now rewrite assoc_set_same|]. now rewrite assoc_set_other.
  Qed.
  Lemma all_held tb : within tb -> holds rows tb -> complete tb.
  Proof.
    intros W H k. destruct (assoc k rows) as [v|] eqn:A; [apply H; now apply assoc_In|].
    destruct (assoc k tb) eqn:B; [|reflexivity]. apply W in B. congruence.
  Qed.

  Lemma turn_someone keys ts tb i : within tb -> length ts = length keys ->
    (forall i k t, nth_error keys i = Some k -> nth_error ts i = Some t -> sane k t tb) ->
    someone ts tb -> someone (fst (turn rows (ts, tb) i)) (snd (turn rows (ts, tb) i)).
  Proof.
    intros W L HS H. unfold turn. cbn [fst snd]. destruct (nth_error ts i) as [t|] eqn:Et; [|exact H].
    assert (Li : i < length ts) by (apply nth_error_Some; congruence).
    destruct (nth_error keys i) as [k|] eqn:Ek; [|apply nth_error_None in Ek; lia].
    pose proof (HS i k t Ek Et) as S. pose proof (step_sane k t tb W S) as (S' & W' & G & Nn). destruct S as [K S].
    destruct H as [C|[(j & u & todo & pre & Uj & Pu & Er & Hp)|[-> All]]].
    - left. unfold tstep. destruct (th_pc t) as [|[|[k' v'] todo]|r]; cbn; auto.
      destruct S as [(pre & E & Hp)|[? _]]; [|discriminate]. apply complete_step; [exact C|]. eapply split_rows. exact E.
    - destruct (Nat.eq_dec i j) as [<-|N].
      + rewrite Et in Uj. injection Uj as <-. unfold tstep in *. rewrite Pu in *. destruct todo as [|[k' v'] todo]; cbn [fst snd] in *.
        * left. rewrite app_nil_r in Er. subst pre. now apply all_held.
        * right. left. eexists i, _, todo, (pre ++ [(k', v')]). rewrite set_nth_same by exact Li. split; [reflexivity|]. split; [reflexivity|].
          split; [rewrite <- app_assoc; exact Er|]. assert (R : assoc k' rows = Some v') by (eapply split_rows; exact Er).
          intros k0 v0 I. apply in_app_iff in I as [I|[I|[]]]; [apply set_grows; auto|injection I as <- <-; apply assoc_set_same].
      + right. left. destruct (tstep rows t tb) as [t1 tb1]. cbn [fst snd] in *. exists j, u, todo, pre. rewrite set_nth_other by exact N.
        split; [exact Uj|]. split; [exact Pu|]. split; [exact Er|]. intros k0 v0 I. apply G, Hp, I.
    - right. left. unfold tstep. rewrite (All i t Et). cbn [fst snd is_nil]. eexists i, _, rows, []. rewrite set_nth_same by exact Li.
      split; [reflexivity|]. split; [reflexivity|]. split; [reflexivity|]. intros ? ? [].
  Qed.

  Lemma run_someone keys sched : forall ts tb, within tb -> length ts = length keys ->
    (forall i k t, nth_error keys i = Some k -> nth_error ts i = Some t -> sane k t tb) -> someone ts tb ->
    forall ts' tb', fold_left (turn rows) sched (ts, tb) = (ts', tb') -> someone ts' tb'.
  Proof.
    induction sched as [|j sched IH]; intros ts tb W L HS H ts' tb' E; [cbn in E; now injection E as <- <-|].
    cbn [fold_left] in E. pose proof (turn_someone keys ts tb j W L HS H) as H1.
    assert (E1 : fold_left (turn rows) [j] (ts, tb) = turn rows (ts, tb) j) by reflexivity.
    destruct (turn rows (ts, tb) j) as [ts1 tb1] eqn:Et. cbn [fst snd] in H1.
    destruct (schedule_rule sane within) with (sched := [j]) (keys := keys) (tb := tb) (ts := ts) (ts' := ts1) (tb' := tb1) as (W1 & L1 & S1); auto.
    - intros k t tb0 W0 S0. destruct (step_sane k t tb0 W0 S0) as (A & B & _). auto.
    - intros k k' t t' tb0 W0 S0 S2. destruct (step_sane k t tb0 W0 S0) as (_ & _ & C & D). now apply (sane_mono k' t' tb0).
    - now apply (IH ts1 tb1 W1 L1 S1 H1).
  Qed.
End Threads.

(** Two or more threads: for any table with two different keys there is a schedule in
    which a thread misses a registered key. *)
Theorem C52_race_loses_registered_key :
  forall (V : Type) (k1 k2 ka : bytes) (v1 v2 : V) (rest : list (bytes * V)) (others : list bytes),
  k1 <> k2 ->
  let rows := (k1, v1) :: (k2, v2) :: rest in
  exists sched ts tb,
    run_schedule rows (ka :: k2 :: others) [] sched = (ts, tb) /\
    nth_error ts 1 = Some {| th_key := k2; th_pc := PcDone None |} /\
    assoc k2 rows = Some v2.
Proof.
  intros V k1 k2 ka v1 v2 rest others N rows.
  assert (E : bytes_eqb k2 k1 = false) by (apply bytes_eqb_neq; congruence).
  exists [0; 0; 1; 1]. do 2 eexists. split; [reflexivity|]. split.
  - simpl. rewrite E. reflexivity.
  - unfold rows. simpl. rewrite E. now rewrite bytes_eqb_refl.
Qed.

(** That is all that can go wrong, for any number of threads and any schedule: a
    finished lookup is right or misses the key - a wrong value is never returned -
    and the table never holds anything but registered rows. *)
Theorem C52_answers_right_or_missing :
  forall (V : Type) (rows : list (bytes * V)) (keys : list bytes) (sched : list nat) ts tb,
  NoDup (List.map fst rows) -> run_schedule rows keys [] sched = (ts, tb) ->
  length ts = length keys /\
  (forall i k, nth_error keys i = Some k -> exists t, nth_error ts i = Some t /\ th_key t = k /\
     forall r, th_pc t = PcDone r -> r = assoc k rows \/ r = None) /\
  (forall k v, assoc k tb = Some v -> assoc k rows = Some v).
Proof.
  intros V rows keys sched ts tb ND E.
  destruct (run_sane rows ND keys [] sched ts tb) as (W & L & S); [discriminate|exact E|].
  split; [exact L|]. split; [|exact W]. intros i k K.
  destruct (nth_error ts i) as [t|] eqn:T.
  - exists t. split; [reflexivity|]. destruct (S i k t K T) as [Kt P]. split; [exact Kt|]. intros r R. rewrite R in P. destruct P; auto.
  - apply nth_error_None in T. assert (i < length keys) by (apply nth_error_Some; congruence). lia.
Qed.

(** Whoever finds the table empty fills it and gets the right answer, whatever the
    others do in the meantime. *)
Theorem C52_filler_is_right :
  forall (V : Type) (rows : list (bytes * V)) (keys : list bytes) (s1 s2 : list nat) i k ts1 ts tb t,
  NoDup (List.map fst rows) -> rows <> [] ->
  nth_error keys i = Some k ->
  run_schedule rows keys [] s1 = (ts1, []) -> (exists t1, nth_error ts1 i = Some t1 /\ th_pc t1 = PcTest) ->
  run_schedule rows keys [] (s1 ++ i :: s2) = (ts, tb) -> nth_error ts i = Some t ->
  forall r, th_pc t = PcDone r -> r = assoc k rows.
Proof.
  intros V rows keys s1 s2 i k ts1 ts tb t ND NE K E1 (t1 & T1 & P1) E T.
  destruct (run_sane rows ND keys [] s1 ts1 []) as (W1 & L1 & S1); [discriminate|exact E1|].
  unfold run_schedule in *. rewrite fold_left_app, E1 in E. cbn [fold_left] in E.
  set (me := fun (n : nat) (key : bytes) (u : @thread V) (tb : list (bytes * V)) =>
        sane rows key u tb /\
        (n = i -> (exists pre todo, rows = pre ++ todo /\ th_pc u = PcFill todo /\ holds pre tb) \/ th_pc u = PcDone (assoc key rows))).
  assert (G : forall s2 ts0 tb0 ts tb, within rows tb0 -> length ts0 = length keys ->
     (forall n key u, nth_error keys n = Some key -> nth_error ts0 n = Some u -> me n key u tb0) ->
     fold_left (turn rows) s2 (ts0, tb0) = (ts, tb) -> forall u, nth_error ts i = Some u -> me i k u tb).
  { clear E E1 T1 P1 L1 S1 W1 ts1 t1 ts tb t T s2 s1.
    induction s2 as [|j s2 IH]; intros ts0 tb0 ts tb W L M E u U.
    - cbn in E. injection E as <- <-. now apply (M i k u).
    - cbn [fold_left] in E. unfold turn at 2 in E. cbn [fst snd] in E. destruct (nth_error ts0 j) as [t|] eqn:Et.
      2:{ exact (IH ts0 tb0 ts tb W L M E u U). }
      assert (Lj : j < length ts0) by (apply nth_error_Some; congruence).
      destruct (nth_error keys j) as [kj|] eqn:Ek; [|apply nth_error_None in Ek; lia].
      destruct (M j kj t Ek Et) as [Sj Mj]. destruct (step_sane rows ND kj t tb0 W Sj) as (S' & W' & Gr & Nn).
      assert (M' : j = i -> (exists pre todo, rows = pre ++ todo /\ th_pc (fst (tstep rows t tb0)) = PcFill todo /\ holds pre (snd (tstep rows t tb0)))
                            \/ th_pc (fst (tstep rows t tb0)) = PcDone (assoc kj rows)).
      { intros Hj. unfold tstep. destruct Sj as [Kj _]. destruct (Mj Hj) as [(pre & todo & Er & P & H)|P]; rewrite P.
        - destruct todo as [|[k' v'] todo]; cbn [fst snd th_pc].
          + right. rewrite Kj. f_equal. rewrite app_nil_r in Er. subst pre. now apply all_held.
          + left. exists (pre ++ [(k', v')]), todo. split; [rewrite <- app_assoc; exact Er|]. split; [reflexivity|].
            assert (R : assoc k' rows = Some v') by (eapply split_rows; [exact ND|exact Er]).
            intros k0 v0 I. apply in_app_iff in I as [I|[I|[]]]; [apply (set_grows rows); auto|injection I as <- <-; apply assoc_set_same].
        - right. exact P. }
      destruct (tstep rows t tb0) as [t' tb1]. cbn [fst snd] in *.
      refine (IH _ tb1 ts tb W' _ _ E u U).
      + rewrite <- L. clear. revert j. induction ts0 as [|x ts0 IH]; intros [|j]; cbn; auto.
      + intros n key w Kn Tn. destruct (Nat.eq_dec j n) as [<-|N].
        * rewrite set_nth_same in Tn by exact Lj. injection Tn as <-. assert (key = kj) as -> by congruence. split; auto.
        * rewrite set_nth_other in Tn by exact N. destruct (M n key w Kn Tn) as [Sn Mn]. split; [now apply (sane_mono rows key w tb0)|].
          intro Hn. destruct (Mn Hn) as [(pre & todo & Er & P & H)|P]; [left; exists pre, todo|right; exact P].
          split; [exact Er|]. split; [exact P|]. intros ? ? I. apply Gr, H, I. }
  assert (Li : i < length ts1) by (apply nth_error_Some; congruence).
  assert (M : me i k t tb).
  { unfold turn at 2 in E. cbn [fst snd] in E. rewrite T1 in E. unfold tstep in E. rewrite P1 in E. cbn [is_nil] in E.
    assert (HS : forall n key u, nth_error keys n = Some key -> nth_error (set_nth i {| th_key := th_key t1; th_pc := PcFill rows |} ts1) n = Some u -> me n key u []).
    { intros n key u Kn Un. destruct (Nat.eq_dec i n) as [<-|N].
      - rewrite set_nth_same in Un by exact Li. injection Un as <-. destruct (S1 i key t1 Kn T1) as [Kt _]. split.
        + split; [exact Kt|]. left. exists []. split; [reflexivity|]. intros ? ? [].
        + intros _. left. exists [], rows. split; [reflexivity|]. split; [reflexivity|]. intros ? ? [].
      - rewrite set_nth_other in Un by exact N. split; [now apply (S1 n)|]. intro H. congruence. }
    refine (G s2 _ [] ts tb W1 _ HS E t T).
    rewrite <- L1. clear. revert i. induction ts1 as [|x ts1 IH]; intros [|i]; cbn; auto. }
  destruct M as [_ M]. intros r R. destruct (M eq_refl) as [(pre & todo & _ & P & _)|P]; congruence.
Qed.

(** When everybody has finished, the table is complete. *)
Theorem C52_complete_in_the_end :
  forall (V : Type) (rows : list (bytes * V)) (keys : list bytes) (sched : list nat) ts tb,
  NoDup (List.map fst rows) -> rows <> [] -> keys <> [] ->
  run_schedule rows keys [] sched = (ts, tb) ->
  (forall t, In t ts -> exists r, th_pc t = PcDone r) ->
  forall k, assoc k tb = assoc k rows.
Proof.
  intros V rows keys sched ts tb ND NE NK E D.
  destruct (run_sane rows ND keys [] sched ts tb) as (W & L & S); [discriminate|exact E|].
  assert (H : someone rows ts tb).
  { revert E. unfold run_schedule. apply (run_someone rows ND keys).
    - discriminate.
    - unfold callers. apply map_length.
    - intros i k t K T. now apply (callers_sane rows keys [] i).
    - right. right. split; [reflexivity|]. intros i t T. unfold callers in T. rewrite nth_error_map in T.
      destruct (nth_error keys i); [|discriminate]. now injection T as <-. }
  destruct H as [C|[(i & t & todo & pre & T & P & _)|[_ All]]]; [exact C| |].
  - destruct (D t) as [r R]; [now apply nth_error_In in T|]. congruence.
  - destruct ts as [|t ts]; [destruct keys; [contradiction|discriminate]|]. destruct (D t) as [r R]; [now left|].
    pose proof (All 0 t eq_refl). congruence.
Qed.

(** Once the table is filled, no schedule can go wrong any more, and it is not
    changed again. *)
Theorem C52_safe_after_initialisation :
  forall (V : Type) (rows tb : list (bytes * V)) (keys : list bytes) (sched : list nat) ts tb',
  rows <> [] -> (forall k, assoc k tb = assoc k rows) ->
  run_schedule rows keys tb sched = (ts, tb') ->
  tb' = tb /\
  (forall i k, nth_error keys i = Some k -> exists t, nth_error ts i = Some t /\ th_key t = k /\
     forall r, th_pc t = PcDone r -> r = assoc k rows).
Proof.
  intros V rows tb keys sched ts tb' NE H E.
  assert (N : is_nil tb = false).
  { destruct rows as [|[k v] r]; [easy|]. specialize (H k). simpl in H. rewrite bytes_eqb_refl in H.
    destruct tb; [discriminate|reflexivity]. }
  set (P := fun (k : bytes) (t : @thread V) (x : list (bytes * V)) => th_key t = k /\
     (th_pc t = PcTest \/ th_pc t = PcFill [] \/ th_pc t = PcDone (assoc k rows))).
  destruct (schedule_rule rows P (fun x => x = tb)) with (sched := sched) (keys := keys) (tb := tb) (ts := @callers V keys) (ts' := ts) (tb' := tb') as (Q & L & S); auto.
  - intros k t x -> [K Pc]. unfold tstep, P. destruct Pc as [Pc|[Pc|Pc]]; rewrite Pc; cbn [fst snd th_key th_pc].
    + rewrite N. auto 6.
    + rewrite K, H. auto 6.
    + rewrite Pc. auto 6.
  - unfold callers. apply map_length.
  - intros i k t K T. unfold callers in T. rewrite nth_error_map, K in T. injection T as <-. split; [reflexivity|]. now left.
  - split; [exact Q|]. intros i k K. destruct (nth_error ts i) as [t|] eqn:T.
    + exists t. split; [reflexivity|]. destruct (S i k t K T) as [Kt Pc]. split; [exact Kt|]. intros r R. destruct Pc as [X|[X|X]]; congruence.
    + apply nth_error_None in T. assert (i < length keys) by (apply nth_error_Some; congruence). lia.
Qed.

(** The real tables have at least two distinct keys, and no duplicate keys. *)
Example C52_nonvacuous :
  NoDup (List.map fst plural_table) /\ NoDup (List.map fst aliases) /\
  (exists k1 v1 k2 v2 rest, plural_table = (k1, v1) :: (k2, v2) :: rest /\ k1 <> k2) /\
  (exists k1 v1 k2 v2 rest, aliases = (k1, v1) :: (k2, v2) :: rest /\ k1 <> k2).
Proof.
  split; [exact plural_table_nodup|]. split; [exact aliases_nodup|].
  split; do 5 eexists; split; try reflexivity; vm_compute; discriminate.
Qed.

(** Three threads on a small table: the first fills, the second looks too early, the
    third afterwards; at the end the table is complete. *)
Example C52_three_threads :
  let rows := [(bs "de", 1); (bs "fr", 2)] in
  exists ts tb, run_schedule rows [bs "fr"; bs "fr"; bs "fr"] [] [0; 0; 1; 1; 0; 0; 2; 7; 2] = (ts, tb) /\
    List.map th_pc ts = [PcDone (Some 2); PcDone None; PcDone (Some 2)] /\ assoc (bs "fr") tb = Some 2.
Proof. do 2 eexists. split; [reflexivity|]. split; reflexivity. Qed.

Print Assumptions C52_single_thread_correct.
Print Assumptions C52_race_loses_registered_key.
Print Assumptions C52_answers_right_or_missing.
Print Assumptions C52_filler_is_right.
Print Assumptions C52_complete_in_the_end.
Print Assumptions C52_safe_after_initialisation.
