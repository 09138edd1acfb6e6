(** Changing a setting while another thread reads it: a race in every execution. *)
From Verif.Model Require Import Base Log PluralForms Dictionary IConv Language Stream PoParser Manager Threads.
From Verif.Spec Require Import DictSpec LangSpec ManagerSpec ThreadsSpec.
From Verif.Proofs Require Import BaseFacts ManagerLoad ThreadsProofs.
Local Open Scope list_scope.
Local Opaque from_spec from_env languages.

(** every way the call can go, as long as the manager satisfies I, leads to the access a, or the call
    does not return *)
Fixpoint must {A} (I : manager -> Prop) (a : access) (r : res A) : Prop :=
  match r with
  | Fin o => forall x, o <> Ret x
  | Tick b f => b = a \/ forall m, I m -> match f m with (r', _) => must I a r' end
  end.
Lemma must_bind {A B} I a (r : res A) (k : A -> res B) : must I a r -> must I a (rbind r k).
Proof.
  induction r as [[x|e|u| |]|b f IH] using res_ind'; try (intros _ x; discriminate); [intro H; now destruct (H x)|].
  intros [H|H]; [now left|]. right. intros m M.
  specialize (IH m). specialize (H m M). destruct (f m) as [r' m']. auto.
Qed.
Lemma must_now {A B} I a (g : M manager A) (k : A -> res B) : must I a (rbind (act a g) k).
Proof. now left. Qed.
Lemma must_read {A B} (I : manager -> Prop) a b (f : manager -> A) (k : A -> res B) :
  (forall m, I m -> must I a (k (f m))) -> must I a (rbind (act b (mget f)) k).
Proof. intro H. right. intros m M. exact (H m M). Qed.
Lemma must_after {A B} I a (r : res A) (k : A -> res B) : (forall x, must I a (k x)) -> must I a (rbind r k).
Proof.
  intro H. induction r as [[x|e|u| |]|b f IH] using res_ind'; try (intro x; discriminate); [apply H|].
  right. intros m _. specialize (IH m). destruct (f m) as [r' m']. exact IH.
Qed.

Section Race.
  Variable cf : config.
  Variable fs : file_system.
  Variable stack : nat.
  Variable o : object.
  Variable I : manager -> Prop.
  (** calls change what I is about only by writing to o *)
  Definition minding (m : manager) (a : access) (m' : manager) : Prop := a = Writes o \/ (I m -> I m').
  Hypothesis Minding : forall q, runs (fun _ => True) minding eps (rcall cf fs stack q).
  Variables q0 q1 : request.
  Variables k0 k1 : outcome answer -> client.
  Hypothesis Reads0 : must (fun _ => True) (Reads o) (rcall cf fs stack q0).
  Hypothesis Writes0 : must I (Writes o) (rcall cf fs stack q0).
  Hypothesis Reads1 : must (fun _ => True) (Reads o) (rcall cf fs stack q1).

  Definition has_written (acc : list (nat * access)) : Prop := exists k, In (k, Writes o) acc.
  Definition gave_up (q : request) (t : thread) : Prop := exists x rest, th_log t = (q, x) :: rest /\ forall v, x <> Ret v.
  Lemma gave_up_step q t m : gave_up q t -> match thread_step cf fs stack t m with (t', _, _) => gave_up q t' end.
  Proof.
    intros (x & rest & L & N). unfold thread_step. destruct (th_now t) as [[|q' k]|q' [y|b f] k].
    - now exists x, rest.
    - now exists x, rest.
    - exists x, (rest ++ [(q', y)]). cbn [th_log]. now rewrite L.
    - destruct (f m). now exists x, rest.
  Qed.
  Definition under (J : manager -> Prop) (a : access) (q : request) (k : outcome answer -> client) (t : thread) : Prop :=
    gave_up q t \/ th_log t = [] /\ (th_now t = Idle (Ask q k) \/ exists r, th_now t = Busy q r k /\ must J a r).
  Lemma under_step J a q k t m : must J a (rcall cf fs stack q) -> J m -> under J a q k t ->
    match thread_step cf fs stack t m with (t', b, _) => under J a q k t' \/ b = Some a end.
  Proof.
    intros C M [G|[L [N|(r & N & H)]]].
    { pose proof (gave_up_step q t m G) as X. destruct (thread_step cf fs stack t m) as [[t' b] m']. left. now left. }
    all: unfold thread_step; rewrite N.
    - left. right. split; [exact L|]. right. eexists. split; [reflexivity|exact C].
    - destruct r as [x|b f].
      { left. left. exists x, []. cbn [th_log]. rewrite L. now split. }
      cbn [must] in H. destruct H as [->|H].
      + destruct (f m). now right.
      + specialize (H m M). destruct (f m) as [r' m']. left. right. split; [exact L|]. right. now exists r'.
  Qed.
  Definition in_race (s : system) : Prop :=
    system_ok (fun _ => True) (fun _ => minding) (fun _ _ => True) (fun _ _ => eps) s /\
    (I (s_man s) \/ has_written (s_acc s)) /\
    (forall n a, In (n, a) (s_acc s) -> n = 0 \/ n = 1) /\
    exists t0 t1, s_threads s = [t0; t1] /\
      (under (fun _ => True) (Reads o) q0 k0 t0 \/ In (0, Reads o) (s_acc s)) /\
      (under (fun _ => True) (Reads o) q1 k1 t1 \/ In (1, Reads o) (s_acc s)) /\
      (under I (Writes o) q0 k0 t0 \/ has_written (s_acc s)).
  Lemma in_race_turn s n : in_race s -> in_race (turn cf fs stack s n).
  Proof.
    intros (H1 & H2 & H3 & t0 & t1 & HT & H4 & H5 & H6).
    split; [apply turn_ok; [intros k q _; apply Minding|exact H1]|].
    destruct H1 as (_ & HR & _). unfold turn.
    destruct (nth_error (s_threads s) n) as [t|] eqn:E.
    2: { split; [exact H2|]. split; [exact H3|]. exists t0, t1. auto. }
    pose proof (thread_step_ok cf fs stack (fun _ => True) (fun _ => minding) (fun _ _ => True) (fun _ _ => eps)
      (fun _ q _ => Minding q) n t (s_man s) (HR _ _ E) Logic.I) as X.
    assert (B : n = 0 /\ t = t0 \/ n = 1 /\ t = t1).
    { rewrite HT in E. destruct n as [|[|n]]; cbn in E; [injection E as <-; auto|injection E as <-; auto|destruct n; discriminate]. }
    pose proof (under_step (fun _ => True) (Reads o) q0 k0 t0 (s_man s) Reads0 Logic.I) as Y0.
    pose proof (under_step (fun _ => True) (Reads o) q1 k1 t1 (s_man s) Reads1 Logic.I) as Y1.
    pose proof (under_step I (Writes o) q0 k0 t0 (s_man s) Writes0) as Y2.
    assert (Mono : forall x b, In x (s_acc s) -> In x (s_acc s ++ b)) by (intros; apply in_or_app; now left).
    assert (MonoW : forall b, has_written (s_acc s) -> has_written (s_acc s ++ b)) by (intros b (k & H); exists k; now apply Mono).
    assert (New : forall k a (b : option access), b = Some a -> In (k, a) (s_acc s ++ match b with Some b => [(k, b)] | None => [] end)).
    { intros k a b ->. apply in_or_app. right. now left. }
    destruct B as [[-> ->]|[-> ->]]; destruct (thread_step cf fs stack _ (s_man s)) as [[t' a] m']; cbn [s_man s_acc s_threads];
      destruct X as (_ & _ & X); (split; [|split]).
    - destruct a as [a|]; [|rewrite app_nil_r; subst m'; exact H2]. destruct X as [->|X]; [right; exists 0; now apply (New 0 _ (Some _))|].
      destruct H2 as [H2|H2]; [left; auto|right; auto].
    - intros n b Hb. apply in_app_or in Hb. destruct Hb as [Hb|Hb]; [now apply (H3 n b)|]. destruct a; [|destruct Hb].
      destruct Hb as [Hb|[]]. injection Hb as <- _. now left.
    - rewrite HT. cbn [put_nth]. exists t', t1. split; [reflexivity|]. split; [|split].
      + destruct H4 as [H4|H4]; [|right; now apply Mono]. destruct (Y0 H4) as [Y|Y]; [now left|right; now apply New].
      + destruct H5; [now left|right; now apply Mono].
      + destruct H6 as [H6|H6]; [|right; auto]. destruct H2 as [H2|H2]; [|right; auto].
        destruct (Y2 H2 H6) as [Y|Y]; [now left|right; exists 0; now apply New].
    - destruct a as [a|]; [|rewrite app_nil_r; subst m'; exact H2]. destruct X as [->|X]; [right; exists 1; now apply (New 1 _ (Some _))|].
      destruct H2 as [H2|H2]; [left; auto|right; auto].
    - intros n b Hb. apply in_app_or in Hb. destruct Hb as [Hb|Hb]; [now apply (H3 n b)|]. destruct a; [|destruct Hb].
      destruct Hb as [Hb|[]]. injection Hb as <- _. now right.
    - rewrite HT. cbn [put_nth]. exists t0, t'. split; [reflexivity|]. split; [|split].
      + destruct H4; [now left|right; now apply Mono].
      + destruct H5 as [H5|H5]; [|right; now apply Mono]. destruct (Y1 H5) as [Y|Y]; [now left|right; now apply New].
      + destruct H6; [now left|right; auto].
  Qed.
  Lemma in_race_play sched : forall s, in_race s -> in_race (play cf fs stack sched s).
  Proof. induction sched as [|n sched IH]; intros s H; [exact H|]. apply (IH (turn cf fs stack s n)). now apply in_race_turn. Qed.
  Lemma in_race_start m : I m -> in_race (start [Ask q0 k0; Ask q1 k1] m).
  Proof.
    intro M. split; [apply start_ok; [exact Logic.I|intros; now apply follows_any]|]. split; [now left|]. split; [intros ? ? []|].
    eexists. eexists. split; [reflexivity|]. split; [left; right; split; [reflexivity|now left]|]. split; [left; right; split; [reflexivity|now left]|].
    left. right. split; [reflexivity|now left].
  Qed.
  Lemma in_race_race s : in_race s -> returned s 0 -> returned s 1 -> data_race (s_acc s).
  Proof.
    intros (_ & _ & H3 & t0 & t1 & HT & H4 & H5 & H6). unfold returned, answers. rewrite HT. cbn [nth_error].
    intros (a0 & x0 & l0 & A0) (a1 & x1 & l1 & A1).
    assert (Z : forall J a q k t p x l, th_log t = (p, Ret x) :: l -> ~ under J a q k t).
    { intros J a q k t p x l E [(y & rest & L & N)|[L _]]; rewrite E in L; [|discriminate]. injection L as _ <- _. now apply (N x). }
    assert (R0 : In (0, Reads o) (s_acc s)) by (destruct H4 as [X|X]; [now apply (Z _ _ _ _ _ _ _ _ A0) in X|exact X]).
    assert (R1 : In (1, Reads o) (s_acc s)) by (destruct H5 as [X|X]; [now apply (Z _ _ _ _ _ _ _ _ A1) in X|exact X]).
    assert (W : has_written (s_acc s)) by (destruct H6 as [X|X]; [now apply (Z _ _ _ _ _ _ _ _ A0) in X|exact X]).
    destruct W as (k & W). destruct (H3 _ _ W) as [-> | ->].
    - exists 0, 1, (Writes o), (Reads o). split; [discriminate|]. split; [exact W|]. split; [exact R1|reflexivity].
    - exists 1, 0, (Writes o), (Reads o). split; [discriminate|]. split; [exact W|]. split; [exact R0|reflexivity].
  Qed.
End Race.

Section Settings.
  Variable cf : config.
  Variable fs : file_system.
  Variable stack : nat.

  Ltac at_once := intros; repeat split; try exact Logic.I; try (now right); try (now left).
  Lemma minding_lang l q : runs (fun _ => True) (minding TheCurrent (fun m => m_lang m = l)) eps (rcall cf fs stack q).
  Proof.
    destruct (classify q) as [NC|(s & ->)].
    - apply (runs_call_any cf fs (fun _ => True) (minding TheCurrent (fun m => m_lang m = l))) with (mine := fun _ => True) (missing := fun _ => True); auto; at_once.
    - cbn [rcall]. apply (runs_map _ _ _ eps); [|exact (fun _ _ => Logic.I)].
      apply (runs_set (fun _ => True) (minding TheCurrent (fun m => m_lang m = l)) (fun _ => True)); at_once.
      + apply Forall_forall. auto.
      + right. unfold delete. destruct (heap_get (m_heap m) id); auto.
  Qed.
  Lemma minding_path p q : runs (fun _ => True) (minding ThePath (fun m => m_path m = p)) eps (rcall cf fs stack q).
  Proof.
    destruct (classify q) as [NC|(s & ->)].
    - apply (runs_call_any cf fs (fun _ => True) (minding ThePath (fun m => m_path m = p))) with (mine := fun _ => True) (missing := fun _ => True); auto; at_once.
    - cbn [rcall]. apply (runs_map _ _ _ eps); [|exact (fun _ _ => Logic.I)].
      apply (runs_set (fun _ => True) (minding ThePath (fun m => m_path m = p)) (fun _ => True)); at_once.
      + apply Forall_forall. auto.
      + right. unfold delete. destruct (heap_get (m_heap m) id); auto.
  Qed.
  Lemma language_race m l q1 k0 k1 sched : lang_eqb (m_lang m) l = false ->
    q1 = GetDictionary \/ (exists l', q1 = Change (SetLanguage l')) ->
    let s := play cf fs stack sched (start [Ask (Change (SetLanguage l)) k0; Ask q1 k1] m) in
    returned s 0 -> returned s 1 -> data_race (s_acc s).
  Proof.
    intros D Q s. apply (in_race_race TheCurrent (fun x => m_lang x = m_lang m) (Change (SetLanguage l)) q1 k0 k1).
    apply in_race_play; [apply minding_lang| | | |now apply in_race_start].
    - apply must_bind. apply must_now.
    - apply must_bind. apply must_read. intros x ->. rewrite D. now left.
    - destruct Q as [->|(l' & ->)]; apply must_bind; apply must_now.
  Qed.
  Lemma path_race m q0 q1 k0 k1 sched :
    (exists p pr, q0 = Change (AddDirectory p pr) /\ ~ In p (m_path m)) \/ (exists p, q0 = Change (RemoveDirectory p) /\ In p (m_path m)) ->
    q1 = GetLanguages \/ (exists p' pr', q1 = Change (AddDirectory p' pr')) \/ (exists p', q1 = Change (RemoveDirectory p')) ->
    let s := play cf fs stack sched (start [Ask q0 k0; Ask q1 k1] m) in
    returned s 0 -> returned s 1 -> data_race (s_acc s).
  Proof.
    intros D Q s. apply (in_race_race ThePath (fun x => m_path x = m_path m) q0 q1 k0 k1).
    apply in_race_play; [apply minding_path| | | |now apply in_race_start].
    - destruct D as [(p & pr & -> & _)|(p & -> & _)]; apply must_bind; apply must_now.
    - destruct D as [(p & pr & -> & D)|(p & -> & D)]; apply must_bind; apply must_read; intros x ->.
      + destruct (existsb (bytes_eqb p) (m_path m)) eqn:E.
        * exfalso. apply D. apply existsb_exists in E. destruct E as (y & Y & E). apply bytes_eqb_eq in E. now subst.
        * apply must_after. intros _. now left.
      + destruct (existsb (bytes_eqb p) (m_path m)) eqn:E.
        * apply must_after. intros _. now left.
        * exfalso. apply Bool.not_true_iff_false in E. apply E. apply existsb_exists. exists p. split; [exact D|now apply bytes_eqb_eq].
    - destruct Q as [->|[(p' & pr' & ->)|(p' & ->)]]; apply must_bind; apply must_now.
  Qed.
  Lemma minding_map q : runs (fun _ => True) (minding TheMap (fun _ => True)) eps (rcall cf fs stack q).
  Proof.
    destruct (classify q) as [NC|(s & ->)].
    - apply (runs_call_any cf fs (fun _ => True) (minding TheMap (fun _ => True))) with (mine := fun _ => True) (missing := fun _ => True); auto; at_once.
    - cbn [rcall]. apply (runs_map _ _ _ eps); [|exact (fun _ _ => Logic.I)].
      apply (runs_set (fun _ => True) (minding TheMap (fun _ => True)) (fun _ => True)); at_once.
      apply Forall_forall. auto.
  Qed.
  Lemma map_race m q0 q1 k0 k1 sched :
    (exists c, q0 = Change (SetCharset c)) \/ (exists b, q0 = Change (SetUseFuzzy b)) ->
    (exists l, q1 = GetDictionaryLang l /\ l <> None) \/ (exists c, q1 = Change (SetCharset c)) \/ (exists b, q1 = Change (SetUseFuzzy b)) ->
    let s := play cf fs stack sched (start [Ask q0 k0; Ask q1 k1] m) in
    returned s 0 -> returned s 1 -> data_race (s_acc s).
  Proof.
    intros D Q s. apply (in_race_race TheMap (fun _ => True) q0 q1 k0 k1).
    apply in_race_play; [apply minding_map| | | |now apply in_race_start].
    - destruct D as [(c & ->)|(b & ->)]; apply must_bind; apply must_bind; apply must_now.
    - destruct D as [(c & ->)|(b & ->)]; apply must_bind; apply must_bind; apply must_after; intro x; apply must_after; intros _; now left.
    - destruct Q as [(l & -> & N)|[(c & ->)|(b & ->)]]; apply must_bind.
      + unfold depth0. rewrite rget_lang_S by exact N. apply must_now.
      + apply must_bind; apply must_now.
      + apply must_bind; apply must_now.
  Qed.
End Settings.
