(** Property C98: log callbacks that look up messages themselves. *)
From Verif.Model Require Import Base Log PluralForms Dictionary Callbacks Nested.
From Verif.Spec Require Import DictSpec NestedSpec.
From Verif.Proofs Require Import BaseFacts DictProofs.
Local Open Scope list_scope.

Section Nested.
  Variable h : heap.
  Variable stack : nat.
  Variable body : nat -> bytes -> prog.
  Definition calls (n : nat) : nat -> bytes -> log_config -> outcome (log_config * list bytes) :=
    fun cb t c => match n with O => OutOfFuel | S n' => run h stack body n' (body cb t) c end.

  Lemma run_print : forall n t p c, run h stack body n (Print t p) c = omap (printed [t]) (run h stack body n p c).
  Proof. now intros [|n]. Qed.
  Lemma run_set : forall n s p c, run h stack body n (Set_ s p) c = run h stack body n p (apply_setting c s).
  Proof. now intros [|n]. Qed.
  Lemma run_look : forall n q k c, run h stack body n (Look q k) c =
    let (o, ls) := answer h stack q in
    obind (tell (calls n) ls c) (fun r => obind o (fun a => omap (printed (snd r)) (run h stack body n (k a) (fst r)))).
  Proof. now intros [|n]. Qed.
  Lemma run_done : forall n c, run h stack body n Done c = Ret (c, []).
  Proof. now intros [|n]. Qed.

  Scheme does_mind := Induction for does Sort Prop with told_mind := Induction for told Sort Prop.
  Lemma does_run : forall p c c' out, does h stack body p c c' out ->
    exists n, forall m, n <= m -> run h stack body m p c = Ret (c', out).
  Proof.
    apply (does_mind h stack body (fun p c c' out _ => exists n, forall m, n <= m -> run h stack body m p c = Ret (c', out))
                     (fun ls c c' out _ => exists n, forall m, n <= m -> tell (calls m) ls c = Ret (c', out))).
    - intro c. exists 0. intros m _. apply run_done.
    - intros t p c c' out _ (n & H). exists n. intros m L. rewrite run_print, (H m L). reflexivity.
    - intros s p c c' out _ (n & H). exists n. intros m L. rewrite run_set. now apply H.
    - intros q k a ls c c1 c2 o1 o2 E _ (n1 & H1) _ (n2 & H2). exists (n1 + n2). intros m L.
      rewrite run_look, E, (H1 m ltac:(lia)). cbn [obind fst snd]. rewrite (H2 m ltac:(lia)). reflexivity.
    - intro c. now exists 0.
    - intros l ls c c' out E _ (n & H). exists n. intros m L. cbn [tell]. rewrite E. cbn [obind fst snd]. rewrite (H m L). reflexivity.
    - intros l ls cb c c1 c2 o1 o2 E _ (n1 & H1) _ (n2 & H2). exists (S (n1 + n2)). intros m L. cbn [tell]. rewrite E.
      unfold calls at 1. destruct m as [|m]; [lia|]. rewrite (H1 m ltac:(lia)). cbn [obind fst snd]. rewrite (H2 (S m) ltac:(lia)). reflexivity.
  Qed.
  Lemma tell_told : forall n, (forall p c c' out, run h stack body n p c = Ret (c', out) -> does h stack body p c c' out) ->
    forall ls c c' out, tell (calls (S n)) ls c = Ret (c', out) -> told h stack body ls c c' out.
  Proof.
    intros n IH. induction ls as [|l ls IHl]; intros c c' out E; cbn [tell] in E.
    - injection E as <- <-. constructor.
    - destruct (callback_of c (lg_level l)) as [cb|] eqn:C.
      + cbn [calls] in E. destruct (run h stack body n (body cb (lg_text l)) c) as [[c1 o1]|e|u| |] eqn:R; cbn [obind fst snd] in E; try discriminate.
        destruct (tell (calls (S n)) ls c1) as [[c2 o2]|e|u| |] eqn:T; cbn [omap] in E; try discriminate. injection E as <- <-.
        eapply told_heard; eauto.
      + cbn [obind fst snd] in E. destruct (tell (calls (S n)) ls c) as [[c2 o2]|e|u| |] eqn:T; cbn [omap] in E; try discriminate. injection E as <- <-.
        cbn [fst snd app]. apply told_silent; auto.
  Qed.
  Lemma tell_told0 : forall ls c c' out, tell (calls 0) ls c = Ret (c', out) -> told h stack body ls c c' out.
  Proof.
    induction ls as [|l ls IHl]; intros c c' out E; cbn [tell] in E.
    - injection E as <- <-. constructor.
    - destruct (callback_of c (lg_level l)) as [cb|] eqn:C; [discriminate|].
      cbn [obind fst snd] in E. destruct (tell (calls 0) ls c) as [[c2 o2]|e|u| |] eqn:T; cbn [omap] in E; try discriminate. injection E as <- <-.
      cbn [fst snd app]. apply told_silent; auto.
  Qed.
  Lemma run_does : forall n p c c' out, run h stack body n p c = Ret (c', out) -> does h stack body p c c' out.
  Proof.
    induction n as [|n IH]; (induction p as [|t p IHp|s p IHp|q k IHp]; intros c c' out E;
      [rewrite run_done in E; injection E as <- <-; constructor
      |rewrite run_print in E; destruct (run h stack body _ p c) as [[c1 o1]|e|u| |] eqn:R; cbn [omap] in E; try discriminate;
       injection E as <- <-; constructor; auto
      |rewrite run_set in E; constructor; auto
      |rewrite run_look in E; destruct (answer h stack q) as [o ls] eqn:A;
       destruct (tell (calls _) ls c) as [[c1 o1]|e|u| |] eqn:T; cbn [obind fst snd] in E; try discriminate;
       destruct o as [a|e|u| |]; cbn [obind] in E; try discriminate;
       destruct (run h stack body _ (k a) c1) as [[c2 o2]|e|u| |] eqn:R; cbn [omap] in E; try discriminate; injection E as <- <-;
       eapply does_look; [exact A| |eauto]]).
    - now apply tell_told0.
    - now apply (tell_told n IH).
  Qed.
End Nested.

(** C98. The nested calls, as the model has them, are what one expects: a program ends in a state
    exactly if it does so with enough stack; then any greater stack will do. *)
Theorem C98_nested_calls :
  forall h stack body p c c' out,
  does h stack body p c c' out <-> exists n, forall m, n <= m -> run h stack body m p c = Ret (c', out).
Proof.
  intros. split; [apply does_run|]. intros (n & H). apply (run_does _ _ _ n), H. lia.
Qed.

(** A lookup of a message that is not there logs an info message first, and is answered with the
    dictionary's answer; a lookup of a destroyed dictionary is undefined. *)
Theorem C98_every_miss_logs :
  forall h stack q d, stack <> 0 -> heap_get h (asked_of q) = Some d -> lookup d (asked_for q) = None ->
  exists l ls, snd (answer h stack q) = l :: ls /\ lg_level l = LInfo.
Proof.
  intros h [|st] q d St G L; [congruence|].
  destruct q; cbn [asked_of asked_for] in *; unfold lookup in L; cbn [fst snd] in L; unfold answer; rewrite G.
  - unfold translate. cbn [translate_in]. rewrite L. destruct (d_has_fallback d).
    + destruct (match d_fallback d with Some p0 => heap_get h p0 | None => None end) as [fb|].
      * destruct (translate_in st h fb (d_entries fb) msgid). cbn [snd app]. eauto.
      * cbn [snd]. eauto.
    + cbn [snd]. eauto.
  - unfold translate_ctxt. destruct (assoc msgctxt (d_ctxt d)) as [es|]; [|cbn [snd]; eauto].
    cbn [translate_in]. rewrite L. destruct (d_has_fallback d).
    + destruct (match d_fallback d with Some p0 => heap_get h p0 | None => None end) as [fb|].
      * destruct (translate_in st h fb (d_entries fb) msgid). cbn [snd app]. eauto.
      * cbn [snd]. eauto.
    + cbn [snd]. eauto.
  - unfold translate_plural, translate_plural_in. rewrite L. cbn [snd]. eauto.
  - unfold translate_ctxt_plural, translate_plural_in. destruct (assoc msgctxt (d_ctxt d)) as [es|]; [rewrite L|]; cbn [snd]; eauto.
Qed.
Theorem C98_answers :
  forall h stack q d, heap_get h (asked_of q) = Some d ->
  answer h stack q =
    match q with
    | QTranslate _ i => translate stack h d i
    | QTranslateCtxt _ c i => translate_ctxt stack h d c i
    | QTranslatePlural _ i pl n => (Ret (fst (translate_plural d i pl n)), snd (translate_plural d i pl n))
    | QTranslateCtxtPlural _ c i pl n => (Ret (fst (translate_ctxt_plural d c i pl n)), snd (translate_ctxt_plural d c i pl n))
    end.
Proof. intros h st q d G. destruct q; cbn [asked_of] in G; unfold answer; rewrite G; try reflexivity; [destruct (translate_plural _ _ _ _)|destruct (translate_ctxt_plural _ _ _ _ _)]; reflexivity. Qed.
Theorem C98_destroyed :
  forall h stack body q k c n, heap_get h (asked_of q) = None -> run h stack body n (Look q k) c = Ub UbPointer.
Proof. intros h st body q k c n G. rewrite run_look. destruct q; cbn [asked_of] in G; unfold answer; rewrite G; reflexivity. Qed.
Print Assumptions C98_every_miss_logs.
Print Assumptions C98_answers.
Print Assumptions C98_destroyed.

(** (violation) An info callback that translates its own text with a message the dictionary lacks never comes
    back, however large the stack, once any lookup logs an info message: the lookup does not end. *)
Theorem C98_violation_unknown_message :
  forall h stack body (p : ptr) (d : dictionary) (msgid : bytes) (cb : nat) (k : bytes -> bytes -> prog) (c : log_config),
  heap_get h p = Some d -> lookup d (None, msgid) = None -> stack <> 0 ->
  (forall t, body cb t = Look (QTranslate p msgid) (k t)) -> lc_info c = Some cb ->
  forall q k' l ls, snd (answer h stack q) = l :: ls -> lg_level l = LInfo ->
  (forall n, run h stack body n (Look q k') c = OutOfFuel) /\ forall c' out, ~ does h stack body (Look q k') c c' out.
Proof.
  intros h stack body p d i cb k c G L St B C.
  assert (A : exists l ls, snd (answer h stack (QTranslate p i)) = l :: ls /\ lg_level l = LInfo).
  { unfold answer. rewrite G. destruct stack as [|s]; [congruence|]. unfold translate. cbn [translate_in].
    unfold lookup in L; cbn [fst snd] in L. rewrite L. destruct (d_has_fallback d).
    - destruct (match d_fallback d with Some p0 => heap_get h p0 | None => None end) as [fb|].
      + destruct (translate_in s h fb (d_entries fb) i). cbn [snd app]. eauto.
      + cbn [snd]. eauto.
    - cbn [snd]. eauto. }
  assert (D : forall n q k' l ls, snd (answer h stack q) = l :: ls -> lg_level l = LInfo -> run h stack body n (Look q k') c = OutOfFuel).
  { induction n as [|n IH]; intros q k' l ls E Lv; rewrite run_look; destruct (answer h stack q) as [o ls'] eqn:Aq; cbn [snd] in E; subst ls';
      cbn [tell]; rewrite Lv; cbn [callback_of]; rewrite C; cbn [calls]; [reflexivity|].
    rewrite B. destruct A as (l1 & ls1 & A1 & A2). now rewrite (IH _ _ _ _ A1 A2). }
  intros q k' l ls E Lv. split; [intro n; eapply D; eauto|]. intros c' out H. apply does_run in H as (n & H).
  specialize (H n (le_n n)). rewrite (D n q k' l ls E Lv) in H. discriminate.
Qed.

Lemma found_run : forall h stack body n p c, lookups (found h stack) p -> exists c' out, run h stack body n p c = Ret (c', out).
Proof.
  intros h stack body n. induction p as [|t p IH|s p IH|q k IH]; intros c H; cbn [lookups] in H.
  - rewrite run_done. eauto.
  - destruct (IH c H) as (c' & o & R). rewrite run_print, R. cbn [omap]. unfold printed. cbn [fst snd]. eauto.
  - rewrite run_set. now apply IH.
  - destruct H as ((a & F) & H). rewrite run_look, F. cbn [tell obind fst snd]. destruct (IH a c (H a)) as (c' & o & R). rewrite R.
    cbn [omap]. unfold printed. cbn [fst snd]. eauto.
Qed.
(** A lookup whose callbacks all end at depth n ends at depth S n. *)
Lemma tells_end : forall h stack body n, (forall cb t c, exists c' out, run h stack body n (body cb t) c = Ret (c', out)) ->
  forall ls c, exists c' out, tell (calls h stack body (S n)) ls c = Ret (c', out).
Proof.
  intros h stack body n B. induction ls as [|l ls IH]; intro c; cbn [tell]; [eauto|].
  destruct (callback_of c (lg_level l)) as [cb|].
  - cbn [calls]. destruct (B cb (lg_text l) c) as (c1 & o1 & R). rewrite R. cbn [obind fst snd]. destruct (IH c1) as (c2 & o2 & T). rewrite T.
    cbn [omap]. unfold printed. cbn [fst snd]. eauto.
  - cbn [obind fst snd]. destruct (IH c) as (c2 & o2 & T). rewrite T. cbn [omap]. unfold printed. cbn [fst snd]. eauto.
Qed.
Lemma ends_above : forall h stack body n, (forall cb t c, exists c' out, run h stack body n (body cb t) c = Ret (c', out)) ->
  forall p c, lookups (answered h stack) p -> exists c' out, run h stack body (S n) p c = Ret (c', out).
Proof.
  intros h stack body n B. induction p as [|t p IH|s p IH|q k IH]; intros c H; cbn [lookups] in H.
  - rewrite run_done. eauto.
  - destruct (IH c H) as (c' & o & R). rewrite run_print, R. cbn [omap]. unfold printed. cbn [fst snd]. eauto.
  - rewrite run_set. now apply IH.
  - destruct H as ((a & F) & H). rewrite run_look. destruct (answer h stack q) as [o ls]. cbn [fst] in F. subst o.
    destruct (tells_end h stack body n B ls c) as (c1 & o1 & T). rewrite T. cbn [obind fst snd].
    destruct (IH a c1 (H a)) as (c' & o & R). rewrite R. cbn [omap]. unfold printed. cbn [fst snd]. eauto.
Qed.

(** Callbacks that look up only messages that are there are harmless: every program whose lookups are
    answered ends. *)
Theorem C98_known_messages :
  forall h stack body, (forall cb t, lookups (found h stack) (body cb t)) ->
  forall p c, lookups (answered h stack) p -> exists c' out, does h stack body p c c' out.
Proof.
  intros h stack body B p c H. destruct (ends_above h stack body 0 (fun cb t c => found_run h stack body 0 _ c (B cb t)) p c H) as (c' & out & R).
  exists c', out. eapply run_does; eauto.
Qed.

Lemma muted_tell : forall call ls c, (forall l, callback_of c l = None) -> tell call ls c = Ret (c, []).
Proof. intros call. induction ls as [|l ls IH]; intros c H; cbn [tell]; [reflexivity|]. rewrite H. cbn [obind fst snd]. rewrite (IH c H). reflexivity. Qed.
Lemma installs_run : forall h stack body n p c, installs p -> exists c' out, run h stack body n p c = Ret (c', out).
Proof.
  intros h stack body n. induction p as [|t p IH|s p IH|q k IH]; intros c H; cbn [installs] in H.
  - rewrite run_done. eauto.
  - destruct (IH c H) as (c' & o & R). rewrite run_print, R. cbn [omap]. unfold printed. cbn [fst snd]. eauto.
  - rewrite run_set. now apply IH.
  - destruct H.
Qed.
Lemma muted_run : forall h stack body n p c, lookups (answered h stack) p -> looks_first p -> (forall l, callback_of c l = None) ->
  exists c' out, run h stack body n p c = Ret (c', out).
Proof.
  intros h stack body n. induction p as [|t p IH|s p IH|q k IH]; intros c H F N; cbn [lookups looks_first] in *.
  - rewrite run_done. eauto.
  - destruct (IH c H F N) as (c' & o & R). rewrite run_print, R. cbn [omap]. unfold printed. cbn [fst snd]. eauto.
  - rewrite run_set. destruct s as [l [cb|]]; [now apply installs_run|]. apply IH; auto. intro l'.
    pose proof (N LInfo) as N1. pose proof (N LWarning) as N2. pose proof (N LError) as N3. cbn [callback_of] in *.
    destruct l, l'; cbn [apply_setting log_step fst callback_of lc_info lc_warning lc_error]; auto.
  - destruct H as ((a & A) & H). rewrite run_look. destruct (answer h stack q) as [o ls]. cbn [fst] in A. subst o.
    rewrite muted_tell by assumption. cbn [obind fst snd]. destruct (IH a c (H a) (F a) N) as (c' & o & R). rewrite R.
    cbn [omap]. unfold printed. cbn [fst snd]. eauto.
Qed.

(** So are callbacks that switch logging off while they look things up, whatever they look up. *)
Theorem C98_switching_off :
  forall h stack body, (forall cb t, switches_off (body cb t) /\ lookups (answered h stack) (body cb t)) ->
  forall p c, lookups (answered h stack) p -> exists c' out, does h stack body p c c' out.
Proof.
  intros h stack body B p c H.
  assert (E : forall cb t c, exists c' out, run h stack body 0 (body cb t) c = Ret (c', out)).
  { intros cb t c0. destruct (B cb t) as ((r & E & F) & A). rewrite E in *. cbn [lookups] in A. rewrite !run_set. apply muted_run; auto.
    now intros []. }
  destruct (ends_above h stack body 0 E p c H) as (c' & out & R). exists c', out. eapply run_does; eauto.
Qed.

(** A callback that prints the translation of "Info" before the text: fine with a dictionary that has
    it, fatal with one that has not. *)
Definition prefixing (p : ptr) : nat -> bytes -> prog := fun _ t => Look (QTranslate p (bs "Info")) (fun a => Print (a ++ t) Done).
Definition careful (p : ptr) : nat -> bytes -> prog := fun cb t =>
  Set_ (SetCallback LInfo None) (Set_ (SetCallback LWarning None) (Set_ (SetCallback LError None)
    (Look (QTranslate p (bs "Info")) (fun a => Print (a ++ t) (Set_ (SetCallback LInfo (Some cb)) Done))))).
Example C98_nonvacuous :
  let d := new_dictionary utf8 in
  let d' := fst (add_translation d (AddSingular None (bs "Info") (bs "Meldung: "))) in
  let h := [(0, d); (1, d')] in
  let me := Look (QTranslate 0 (bs "x")) (fun a => Print a Done) in
  lookup d (None, bs "Info") = None /\ (exists l, snd (answer h 9 (QTranslate 0 (bs "x"))) = [l] /\ lg_level l = LInfo) /\
  (forall cb t, lookups (found h 9) (prefixing 1 cb t)) /\ lookups (answered h 9) me /\
  (forall cb t, switches_off (careful 0 cb t) /\ lookups (answered h 9) (careful 0 cb t)) /\
  run h 9 (prefixing 1) 5 me log_default = Ret (log_default, [bs "Meldung: Couldn't translate: x" ++ [c_lf]; bs "x"]) /\
  run h 9 (prefixing 0) 50 me log_default = OutOfFuel /\
  exists c, run h 9 (careful 0) 5 me log_default = Ret (c, [bs "InfoCouldn't translate: x" ++ [c_lf]; bs "x"]).
Proof.
  cbv zeta. split; [reflexivity|]. split; [eexists; vm_compute; auto|].
  split. { intros cb t. split; [eexists; vm_compute; reflexivity|intro; exact Logic.I]. }
  split. { split; [eexists; vm_compute; reflexivity|intro; exact Logic.I]. }
  split. { intros cb t. split; [eexists; split; [reflexivity|intro a; exact Logic.I]|]. cbn [careful lookups]. split; [eexists; vm_compute; reflexivity|intro; exact Logic.I]. }
  split; [vm_compute; reflexivity|]. split; [vm_compute; reflexivity|]. eexists. vm_compute. reflexivity.
Qed.

Print Assumptions C98_nested_calls.
Print Assumptions C98_violation_unknown_message.
Print Assumptions C98_known_messages.
Print Assumptions C98_switching_off.
