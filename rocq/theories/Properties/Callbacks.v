(** Property C81: log callbacks that change the callbacks, and ones that throw. *)
From Verif.Model Require Import Base Log Callbacks.
From Verif.Spec Require Import LogSpec CallbackSpec.
From Verif.Proofs Require Import BaseFacts IConvProofs.
Local Open Scope list_scope.

Lemma latest_app l a b i : latest l (a ++ b) i = latest l b (latest l a i).
Proof. revert i. induction a as [|[l' cb] a IH]; intro i; cbn [app latest]; auto. Qed.

Lemma settings_latest sets : forall c past,
  (forall l, callback_of c l = latest l past (Some 0)) ->
  forall l, callback_of (fold_left apply_setting sets c) l = latest l (past ++ sets) (Some 0).
Proof.
  induction sets as [|[l' cb] sets IH]; intros c past H l; cbn [fold_left]; [now rewrite app_nil_r|].
  rewrite (IH (apply_setting c (SetCallback l' cb)) (past ++ [SetCallback l' cb])).
  - now rewrite <- app_assoc.
  - intro k. rewrite latest_app, <- (H k). destruct l', k; reflexivity.
Qed.

Lemma put_pieces pieces : forall o,
  fold_left log_put pieces o = {| lo_callback := lo_callback o; lo_out := lo_out o ++ concat pieces |}.
Proof.
  induction pieces as [|p ps IH]; intro o; cbn [fold_left concat]; [rewrite app_nil_r; now destruct o|].
  rewrite IH. unfold log_put; cbn [lo_callback lo_out]. now rewrite app_assoc.
Qed.

Lemma live_happens react ops : forall c past n, (forall l, callback_of c l = latest l past (Some 0)) ->
  happens react past n ops (snd (log_live react n c ops)) (match fst (log_live react n c ops) with Some _ => true | None => false end).
Proof.
  induction ops as [|op ops IH]; intros c past n H; cbn [log_live]; [constructor|].
  destruct op as [cb|cb|cb|l pieces].
  - constructor. apply IH. intro k. rewrite latest_app, <- (H k). destruct k; reflexivity.
  - constructor. apply IH. intro k. rewrite latest_app, <- (H k). destruct k; reflexivity.
  - constructor. apply IH. intro k. rewrite latest_app, <- (H k). destruct k; reflexivity.
  - unfold log_stmt_step. specialize (H l) as Hl. destruct (callback_of c l) as [cb|].
    + rewrite put_pieces. cbn [lo_callback lo_out log_new app log_destroy].
      destruct (react n cb (concat pieces)) as [sets|] eqn:R.
      * cbn [length]. rewrite Nat.add_1_r. pose proof (IH (fold_left apply_setting sets c) (past ++ sets) (S n) (settings_latest sets c past H)) as X.
        destruct (log_live react (S n) (fold_left apply_setting sets c) ops) as [r i']. cbn [fst snd app] in *.
        now apply happens_told with sets.
      * cbn [fst snd]. now apply happens_thrown.
    + cbn [length]. rewrite Nat.add_0_r. pose proof (IH c past n H) as X.
      destruct (log_live react n c ops) as [r i']. cbn [fst snd app] in *. now apply happens_silent.
Qed.

Lemma happens_fun react past n ops i b : happens react past n ops i b -> forall i' b', happens react past n ops i' b' -> i = i' /\ b = b'.
Proof.
  induction 1; intros i' b' H'; inversion H'; subst; try congruence; auto.
  - replace sets0 with sets in * by congruence. replace cb0 with cb in * by congruence.
    edestruct IHhappens as [-> ->]; [eassumption|]. auto.
  - replace cb0 with cb in * by congruence. auto.
Qed.

(** C81. Whatever the callbacks do: every statement of a level calls the callback set last
    for that level - by the program or by a callback - with its whole text, exactly once;
    what a callback sets counts from the next statement on; and the first callback that
    throws ends the program (no later statement is executed, nothing is caught). *)
Theorem C81_callbacks :
  forall (react : reactions) (ops : list log_op) (inv : list invocation) (running : bool),
  happens react [] 0 ops inv running <->
  snd (log_live react 0 log_default ops) = inv /\
  (match fst (log_live react 0 log_default ops) with Some _ => true | None => false end) = running.
Proof.
  intros react ops inv running.
  pose proof (live_happens react ops log_default [] 0 ltac:(intros []; reflexivity)) as H. split.
  - intro H'. destruct (happens_fun _ _ _ _ _ _ H _ _ H') as [A B]. auto.
  - intros [<- <-]. exact H.
Qed.

(** Callbacks that neither throw nor change callbacks: this is C51. *)
Theorem C81_plain_callbacks :
  forall (ops : list log_op),
  log_live (fun _ _ _ => Returns []) 0 log_default ops = (Some (fst (log_run log_default ops)), snd (log_run log_default ops)).
Proof.
  intro ops. generalize 0 as n, log_default as c. induction ops as [|op ops IH]; intros n c; [reflexivity|].
  destruct op as [cb|cb|cb|l pieces]; cbn [log_live log_run log_step fst].
  - rewrite IH. now destruct (log_run _ ops).
  - rewrite IH. now destruct (log_run _ ops).
  - rewrite IH. now destruct (log_run _ ops).
  - unfold log_stmt_step. destruct (callback_of c l) as [cb|]; cbn [fold_left]; rewrite IH; destruct (log_run c ops); reflexivity.
Qed.

(** An exception never reaches the caller of the library: the program ends instead, as soon
    as a statement is executed whose callback throws. *)
Theorem C81_violation_throwing_callback_terminates :
  forall (react : reactions) (before : list log_op) (l : level) (pieces : list bytes) (after : list log_op) (c : log_config) (cb : nat),
  fst (log_live react 0 log_default before) = Some c -> callback_of c l = Some cb ->
  (forall n, react n cb (concat pieces) = Throws) ->
  fst (log_live react 0 log_default (before ++ Stmt l pieces :: after)) = None /\
  snd (log_live react 0 log_default (before ++ Stmt l pieces :: after)) =
  snd (log_live react 0 log_default before) ++ [(cb, concat pieces)].
Proof.
  intros react before l pieces after c cb. generalize 0 at 1 2 3 4 as n, log_default as c0.
  induction before as [|op before IH]; intros n c0 E C T; cbn [app log_live] in *.
  - injection E as ->. unfold log_stmt_step. rewrite C, put_pieces. cbn [lo_callback lo_out log_new app]. rewrite T. auto.
  - destruct op as [x|x|x|l' ps]; try (now apply IH).
    destruct (log_stmt_step react n c0 l' ps) as [[c1|] i1]; [|discriminate E].
    specialize (IH (n + length i1) c1). destruct (log_live react (n + length i1) c1 before) as [r i2].
    destruct (log_live react (n + length i1) c1 (before ++ Stmt l pieces :: after)) as [r' i3]. cbn [fst snd] in *.
    destruct (IH E C T) as [-> ->]. split; [reflexivity|]. now rewrite app_assoc.
Qed.

(** Callback 5 silences itself after its first message and moves warnings to 6; 7 throws. *)
Definition ex_react : reactions := fun n cb t =>
  match cb with
  | 5 => Returns [SetCallback LInfo None; SetCallback LWarning (Some 6)]
  | 7 => Throws
  | _ => Returns []
  end.
Definition ex_log : list log_op :=
  [ SetInfo (Some 5); Stmt LWarning [bs "w1"]; Stmt LInfo [bs "a"; bs "b"]; Stmt LInfo [bs "lost"]; Stmt LWarning [bs "w2"] ].
Example C81_nonvacuous :
  happens ex_react [] 0 ex_log [(0, bs "w1"); (5, bs "ab"); (6, bs "w2")] true /\
  happens ex_react [] 0 (ex_log ++ [SetError (Some 7); Stmt LError [bs "x"]; Stmt LError [bs "y"]])
    [(0, bs "w1"); (5, bs "ab"); (6, bs "w2"); (7, bs "x")] false.
Proof. split; apply C81_callbacks; split; reflexivity. Qed.

Print Assumptions C81_callbacks.
Print Assumptions C81_plain_callbacks.
Print Assumptions C81_violation_throwing_callback_terminates.
