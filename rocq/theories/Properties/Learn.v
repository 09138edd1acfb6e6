(** Property C101: log callbacks that add translations to the dictionary that is logging. *)
From Coq Require Import Permutation.
From Verif.Model Require Import Base Log PluralForms Dictionary Enumerate Learn.
From Verif.Spec Require Import DictSpec EnumerateSpec LearnSpec.
From Verif.Proofs Require Import BaseFacts DictProofs EnumerateProofs LearnProofs.
Local Open Scope list_scope.

(** C101. Whatever the callbacks add, a lookup that returns answers as the dictionary was when it
    began; and the dictionary is then what the callbacks' own calls make of it. *)
Theorem C101_answers :
  forall (X : Type) place arrange (f : callbacks X) (d d' : dictionary) (q : question) (x x' : X) (a : bytes),
  answers place arrange f q x d a x' d' ->
  a = right_answer d q /\ exists ops, d' = add_all d ops.
Proof.
  intros X place arrange f d d' q x x' a (n & m & s & R & <- & <-). apply ask_right in R as (R & (ops & L)). eauto.
Qed.

(** An addition that returns has the last word: whatever a callback has stored under the key during
    the collision's warning (the old forms, say), the forms are the new ones. *)
Theorem C101_additions :
  forall (X : Type) place (f : callbacks X) (d d' : dictionary) (op : add_op) (x x' : X),
  added place f op x d x' d' ->
  (exists ops, d' = fst (add_translation (add_all d ops) op)) /\ has_last_word d' op.
Proof.
  intros X place f d d' op x x' (n & s & R & <- & <-).
  apply add_live_later in R as (ops & R); [|apply say_later]. cbn [b_dict idle] in R.
  rewrite R. split; [eauto|apply last_word].
Qed.

(** What happens is determined: by the program, the order of the messages in the maps and where
    insertions put them. *)
Theorem C101_determined :
  forall (X : Type) place arrange (f : callbacks X) (d d1 d2 : dictionary) (q : question) (x x1 x2 : X) (a1 a2 : bytes),
  answers place arrange f q x d a1 x1 d1 ->
  ~ lookup_undefined place arrange f q x d /\ ~ lookup_endless place arrange f q x d /\
  (answers place arrange f q x d a2 x2 d2 -> a1 = a2 /\ x1 = x2 /\ d1 = d2).
Proof.
  intros X place arrange f d d1 d2 q x x1 x2 a1 a2 (n & m & s & R & <- & <-).
  assert (More : forall n' m', ask X place arrange f n' m' q (idle X x d) <> OutOfFuel ->
                 ask X place arrange f n' m' q (idle X x d) = Ret (a1, s)).
  { intros n' m' F. rewrite <- (ask_more place arrange f n' (max n n') m' (max m m') q (idle X x d)); [|lia|lia|exact F].
    rewrite (ask_more place arrange f n (max n n') m (max m m') q (idle X x d)); [exact R|lia|lia|unfold fin; congruence]. }
  split; [|split].
  - intros (n' & m' & R'). rewrite More in R'; congruence.
  - intro E. rewrite E in R. discriminate R.
  - intros (n' & m' & s' & R' & <- & <-). rewrite More in R' by congruence. injection R' as <- <-. auto.
Qed.

(** Callbacks that leave the dictionary alone see exactly the messages of the plain lookup (the
    candidates in some order). *)
Lemma each_record : forall place n ls (s : busy (list (level * bytes))),
  each _ (say _ place recorder (S n)) ls s = Ret (with_x _ s (b_x s ++ List.map (fun l => (lg_level l, lg_text l)) ls)).
Proof.
  intros place n. induction ls as [|l ls IH]; cbn [each List.map]; intro s.
  - rewrite app_nil_r. now destruct s.
  - change (say _ place recorder (S n) l s) with (Ret (with_x _ s (b_x s ++ [(lg_level l, lg_text l)]))). cbn [obind].
    rewrite IH. unfold with_x; cbn [b_x b_dict b_at b_left b_valid b_n]. now rewrite <- app_assoc.
Qed.
Lemma candidates_record : forall place n l (s : busy (list (level * bytes))) m,
  b_left s = l -> b_valid s = true -> length l < m ->
  exists s', candidates _ place recorder (S n) m s = Ret s' /\ b_dict s' = b_dict s /\
    b_x s' = b_x s ++ List.map (fun k => (LInfo, (bs "'" ++ k ++ bs "'") ++ [c_lf])) l.
Proof.
  intros place n. induction l as [|k l IH]; intros s m L V M; (destruct m as [|m]; [cbn [length] in M; lia|]); cbn [candidates]; rewrite L.
  - eexists. split; [reflexivity|]. cbn [b_dict b_x List.map]. now rewrite app_nil_r.
  - match goal with |- context [say _ _ _ _ ?a ?t] => change (say _ place recorder (S n) a t) with (Ret (with_x _ t (b_x t ++ [(lg_level a, lg_text a)]))) end.
    cbn [obind with_x b_valid]. rewrite V.
    match goal with |- exists s', candidates _ _ _ _ _ ?t = _ /\ _ => destruct (IH t m) as (s' & R & D & E); [reflexivity|reflexivity|cbn [length] in M; lia|] end.
    exists s'. split; [exact R|]. split; [exact D|]. rewrite E. cbn [b_x List.map log_info lg_level lg_text]. cbn [with_x b_x]. now rewrite <- (app_assoc (b_x s)).
Qed.
Theorem C101_plain :
  forall place arrange (d : dictionary) (q : question),
  some_order arrange -> d_has_fallback d = false ->
  exists log, answers place arrange recorder q [] d (right_answer d q) log d /\
              Permutation log (List.map (fun l => (lg_level l, lg_text l)) (usual_log d q)).
Proof.
  intros place arrange d q A F.
  assert (S : forall l s, say _ place recorder 1 l s = Ret (with_x _ s (b_x s ++ [(lg_level l, lg_text l)]))) by reflexivity.
  enough (H : exists n m s a, ask _ place arrange recorder n m q (idle _ [] d) = Ret (a, s) /\ b_dict s = d /\
              Permutation (b_x s) (List.map (fun l => (lg_level l, lg_text l)) (usual_log d q))).
  { destruct H as (n & m & s & a & R & D & P). exists (b_x s). split; [|exact P]. exists n, m, s.
    pose proof R as R'. apply ask_right in R' as (-> & _). auto. }
  destruct q as [c i|c i pl num].
  - exists 1, 0. cbn [ask b_dict idle]. destruct (has_map d c) eqn:H.
    + unfold singular_in. cbn [b_dict idle]. rewrite S. cbn [omap obind].
      assert (U : usual_log d (Singular c i) = match assoc i (map_of d c) with Some (_ :: _) => [] | _ => [log_info (bs "Couldn't translate: " ++ i)] end).
      { destruct c as [c|]; cbn [usual_log]; unfold translate_ctxt, translate, map_of, ctxt_or_new in *.
        - unfold has_map, missing in H. destruct (assoc c (d_ctxt d)) as [es|]; [|discriminate H].
          cbn [translate_in]. rewrite F. destruct (assoc i es) as [[|]|]; try reflexivity.
        - cbn [translate_in]. rewrite F. now destruct (assoc i (d_entries d)) as [[|]|]. }
      rewrite U. destruct (assoc i (map_of d c)) as [[|v vs]|]; do 2 eexists; (split; [reflexivity|]); now split.
    + rewrite S. do 2 eexists. split; [reflexivity|]. split; [reflexivity|].
      destruct c as [c|]; [|discriminate H]. cbn [usual_log]. unfold translate_ctxt, has_map, missing in *. now destruct (assoc c (d_ctxt d)).
  - exists 1, (Datatypes.S (length (map_of d c))). cbn [ask b_dict idle]. destruct (has_map d c) eqn:H.
    + assert (U : usual_log d (Plural c i pl num) = snd (translate_plural_in d (map_of d c) i pl num)).
      { destruct c as [c|]; [|reflexivity]. cbn [usual_log]. unfold translate_ctxt_plural, has_map, missing, map_of, ctxt_or_new in *.
        now destruct (assoc c (d_ctxt d)). }
      rewrite U. clear U. unfold plural_in. cbn [b_dict idle]. unfold translate_plural_in at 2.
      destruct (assoc i (map_of d c)) as [v|] eqn:E.
      * unfold translate_plural_in. rewrite E.
        match goal with |- context [let (_, _) := ?o in _] => destruct o as [b ls] end.
        rewrite each_record. do 2 eexists. split; [reflexivity|]. now split.
      * rewrite S. cbn [obind]. rewrite S. cbn [obind].
        match goal with |- context [candidates _ _ _ _ ?m ?t] =>
          destruct (candidates_record place 0 (arrange 0 (List.map fst (map_of d c))) t m) as (s' & R & D & X) end;
          [reflexivity|reflexivity| |].
        { rewrite <- (Permutation_length (A 0 _)), map_length. lia. }
        rewrite R. do 2 eexists. split; [reflexivity|]. split; [exact D|]. rewrite X. cbn [b_x begin_at with_x idle app].
        cbn [snd List.map log_info lg_level lg_text]. do 2 apply perm_skip.
        eapply Permutation_trans; [apply Permutation_map, Permutation_sym, A|]. rewrite !map_map. apply Permutation_refl.
    + rewrite S. do 2 eexists. split; [reflexivity|]. split; [reflexivity|].
      destruct c as [c|]; [|discriminate H]. cbn [usual_log]. unfold translate_ctxt_plural, has_map, missing in *. now destruct (assoc c (d_ctxt d)).
Qed.

(** The candidates listed are the messages there are when the list is begun: those included that the
    callback has added when told that the message could not be translated. *)
Definition teacher (h : bytes -> list add_op) : callbacks (list bytes) :=
  fun lv => match lv with
  | LInfo => Some (fun t x d => (x ++ [t], if starts_with (bs "'") t then [] else h t))
  | _ => None end.
Lemma each_teacher : forall place h n ops x d,
  each _ (add_live _ place (say _ place (teacher h) n)) ops (idle _ x d) = Ret (idle _ x (add_all d ops)).
Proof.
  intros place h n. induction ops as [|op ops IH]; intros x d; [reflexivity|]. cbn [each].
  assert (E : add_live _ place (say _ place (teacher h) n) op (idle _ x d) = Ret (idle _ x (fst (add_translation d op)))).
  { unfold add_live. cbn [b_dict idle]. destruct (log_cases d op) as [L|(t & L)]; rewrite L; [reflexivity|].
    assert (C : collides d op) by (apply log_iff; congruence). destruct C as (old & C1 & C2 & _).
    cbn [each]. assert (W : say _ place (teacher h) n (log_warning t) (idle _ x d) = Ret (idle _ x d)) by now destruct n. rewrite W.
    cbn [obind]. rewrite found_lookup. cbn [b_dict idle]. rewrite C1. destruct old; [congruence|]. now destruct op. }
  rewrite E. cbn [obind]. apply IH.
Qed.
Lemma candidates_teacher : forall place h n l (s : busy (list bytes)) m,
  b_left s = l -> b_valid s = true -> length l < m ->
  exists s', candidates _ place (teacher h) (S n) m s = Ret s' /\ b_dict s' = b_dict s /\
    b_x s' = b_x s ++ List.map (fun k => (bs "'" ++ k ++ bs "'") ++ [c_lf]) l.
Proof.
  intros place h n. induction l as [|k l IH]; intros s m L V M; (destruct m as [|m]; [cbn [length] in M; lia|]); cbn [candidates]; rewrite L.
  - eexists. split; [reflexivity|]. cbn [b_dict b_x List.map]. now rewrite app_nil_r.
  - match goal with |- context [say _ _ _ _ ?a ?t] => change (say _ place (teacher h) (S n) a t) with (Ret (with_x _ t (b_x t ++ [lg_text a]))) end.
    cbn [obind with_x b_valid]. rewrite V.
    match goal with |- exists s', candidates _ _ _ _ _ ?t = _ /\ _ => destruct (IH t m) as (s' & R & D & E); [reflexivity|reflexivity|cbn [length] in M; lia|] end.
    exists s'. split; [exact R|]. split; [exact D|]. rewrite E. cbn [b_x List.map log_info lg_text]. cbn [with_x b_x]. now rewrite <- (app_assoc (b_x s)).
Qed.
Theorem C101_candidates :
  forall place arrange (h : bytes -> list add_op) (cs : bytes) (hist : list client_call) (c : option bytes) (i j pl : bytes) (num : Z),
  let d := run_history (new_dictionary cs) hist in
  let t1 := bs "Couldn't translate: " ++ i ++ [c_lf] in let t2 := bs "Candidates: " ++ [c_lf] in
  some_order arrange -> lookup d (c, i) = None -> lookup d (c, j) <> None ->
  exists listed,
    answers place arrange (teacher h) (Plural c i pl num) [] d (by_count i pl num)
            ([t1; t2] ++ List.map (fun k => DictSpec.quoted k ++ [c_lf]) listed) (add_all d (h t1 ++ h t2)) /\
    NoDup listed /\ (forall k, In k listed <-> lookup (add_all d (h t1 ++ h t2)) (c, k) <> None).
Proof.
  intros place arrange h cs hist c i j pl num d t1 t2 A L J.
  assert (W : dict_wf (add_all d (h t1 ++ h t2))).
  { assert (G : forall ops d0, dict_wf d0 -> dict_wf (add_all d0 ops)).
    { unfold add_all. induction ops; cbn [fold_left]; auto using add_wf. }
    apply G, run_history_wf, new_wf. }
  clearbody d.
  assert (HM : has_map d c = true).
  { destruct c as [c|]; [|reflexivity]. unfold has_map, missing. unfold lookup in J; cbn [fst snd] in J. now destruct (assoc c (d_ctxt d)). }
  assert (Say : forall t x0 d0, starts_with (bs "'") (t ++ [c_lf]) = false ->
            say _ place (teacher h) 1 (log_info t) (idle _ x0 d0) = Ret (idle _ (x0 ++ [t ++ [c_lf]]) (add_all d0 (h (t ++ [c_lf]))))).
  { intros t x0 d0 N. remember 0 as z. cbn [say log_info lg_level lg_text teacher]. rewrite N.
    change (with_x _ (idle _ x0 d0) (b_x (idle _ x0 d0) ++ [t ++ [c_lf]])) with (idle _ (x0 ++ [t ++ [c_lf]]) d0). apply each_teacher. }
  set (d' := add_all d (h t1 ++ h t2)) in *. set (listed := arrange 0 (List.map fst (map_of d' c))).
  exists listed. split; [|split].
  - exists 1, (S (length listed)). cbn [ask b_dict idle]. rewrite HM. unfold plural_in. cbn [b_dict idle]. rewrite map_of_lookup, L.
    change {| b_x := []; b_dict := d; b_at := None; b_left := []; b_valid := true; b_n := 0 |} with (idle (list bytes) [] d).
    rewrite Say by reflexivity. cbn [obind]. rewrite Say by reflexivity. cbn [obind].
    rewrite <- add_all_app. replace ((bs "Couldn't translate: " ++ i) ++ [c_lf]) with t1 by (unfold t1; now rewrite app_assoc). fold t2. fold d'.
    match goal with |- context [candidates _ _ _ _ ?m ?t] =>
      destruct (candidates_teacher place h 0 listed t m) as (s' & R & D & X) end; [reflexivity|reflexivity|lia|].
    rewrite R. exists s'. split; [reflexivity|]. split; [|exact D]. rewrite X. cbn [b_x begin_at idle app].
    unfold DictSpec.quoted. reflexivity.
  - unfold listed. apply (Permutation_NoDup (A 0 _)). destruct W as (W1 & W2 & W3). destruct c as [c|]; cbn [map_of]; [|exact W1].
    unfold ctxt_or_new. destruct (assoc c (d_ctxt d')) as [es|] eqn:E; [|constructor]. apply assoc_In in E. eauto.
  - intro k. rewrite <- map_of_lookup. split.
    + intros H N. apply assoc_None in N. apply N. now apply (Permutation_in _ (Permutation_sym (A 0 _))).
    + intro H. apply (Permutation_in _ (A 0 _)). destruct (in_dec bytes_eq_dec k (List.map fst (map_of d' c))) as [Y|Y]; auto. now apply assoc_None in Y.
Qed.

(** Every lookup returns, if the warning callback adds nothing and the info callback, while the
    candidates are listed, adds to messages only that are there. *)
Section Considerate.
  Context {X : Type}.
  Variable place : nat -> placing.
  Variable f : callbacks X.
  Hypothesis C : considerate f.

  Lemma warning_quiet : forall n t (s : busy X), exists x, say X place f (S n) (log_warning t) s = Ret (with_x X s x).
  Proof.
    intros n t s. cbn [say log_warning lg_level]. destruct (f LWarning) as [g|] eqn:E.
    - destruct C as (W & _). specialize (W g E (lg_text (log_warning t)) (b_x s) (b_dict s)).
      destruct (g _ _ _) as [x ops]. cbn [snd] in W. subst ops. exists x. reflexivity.
    - exists (b_x s). now destruct s.
  Qed.
  Lemma add_quiet : forall n op (s : busy X), exists s', add_live X place (say X place f (S n)) op s = Ret s' /\
    b_dict s' = fst (add_translation (b_dict s) op) /\
    (lookup (b_dict s) (op_key op) <> None -> b_valid s' = b_valid s /\ b_left s' = b_left s).
  Proof.
    intros n op s.
    assert (St : forall x, b_dict (store X place (with_x X s x) op) = fst (add_translation (b_dict s) op) /\
             (lookup (b_dict s) (op_key op) <> None -> b_valid (store X place (with_x X s x) op) = b_valid s /\ b_left (store X place (with_x X s x) op) = b_left s)).
    { intro x. split; [exact (store_dict place (with_x X s x) op)|]. intro L. unfold store. cbn [with_x b_at b_dict b_left b_valid b_x b_n].
      destruct (b_at s) as [c|]; [|auto]. destruct (same_map _ _) eqn:E; [|auto]. apply same_map_spec in E. subst c.
      rewrite target_key, missing_lookup. rewrite <- surjective_pairing. destruct (lookup _ _); [auto|congruence]. }
    unfold add_live. destruct (log_cases (b_dict s) op) as [L|(t & L)]; rewrite L.
    - exists (store X place s op). split; [reflexivity|]. specialize (St (b_x s)). now destruct s.
    - cbn [each]. destruct (warning_quiet n t s) as (x & R). rewrite R. cbn [obind].
      assert (K : collides (b_dict s) op) by (apply log_iff; congruence). destruct K as (old & L1 & L2 & _).
      exists (store X place (with_x X s x) op). split; [|apply St].
      cbn [with_x b_dict]. rewrite found_lookup, L1. destruct old; [congruence|]. now destruct op.
  Qed.
  Lemma each_quiet : forall n ops (s : busy X), exists s', each X (add_live X place (say X place f (S n))) ops s = Ret s' /\
    ((forall op, In op ops -> lookup (b_dict s) (op_key op) <> None) -> b_valid s' = b_valid s /\ b_left s' = b_left s).
  Proof.
    intros n. induction ops as [|op ops IH]; cbn [each]; intro s; [eauto|].
    destruct (add_quiet n op s) as (s1 & R & D & K). rewrite R. cbn [obind]. destruct (IH s1) as (s2 & R2 & K2).
    exists s2. split; [exact R2|]. intro H. destruct (K (H op (or_introl eq_refl))) as (V & L).
    destruct K2 as (V2 & L2); [|split; congruence]. intros o O. rewrite D. apply stored_add. left. apply H. now right.
  Qed.
  Lemma say_quiet : forall n l (s : busy X), exists s', say X place f (S (S n)) l s = Ret s' /\
    (lg_level l = LInfo -> (exists t, lg_text l = bs "'" ++ t) -> b_valid s' = b_valid s /\ b_left s' = b_left s).
  Proof.
    intros n l s. remember (S n) as n1. cbn [say]. destruct (f (lg_level l)) as [g|] eqn:E; [|eauto].
    destruct (g (lg_text l) (b_x s) (b_dict s)) as [x ops] eqn:G. subst n1. destruct (each_quiet n ops (with_x X s x)) as (s' & R & K).
    exists s'. split; [exact R|]. intros I (t & T). apply K. intros op O. rewrite I in E. destruct C as (_ & Cd).
    apply (Cd g E t (b_x s) (b_dict s)). rewrite <- T, G. exact O.
  Qed.
  Lemma candidates_quiet : forall l (s : busy X) m, b_left s = l -> b_valid s = true -> length l < m ->
    exists s', candidates X place f 2 m s = Ret s'.
  Proof.
    induction l as [|k l IH]; intros s m L V M; (destruct m as [|m]; [cbn [length] in M; lia|]); cbn [candidates]; rewrite L; [eauto|].
    match goal with |- context [say X place f 2 ?a ?t] => destruct (say_quiet 0 a t) as (s1 & R & K) end. rewrite R. cbn [obind].
    destruct K as (V1 & L1); [reflexivity|eexists; cbn [log_info lg_text]; rewrite <- app_assoc; reflexivity|].
    cbn [b_valid b_left] in V1, L1. rewrite V1, V. apply IH; [exact L1|congruence|cbn [length] in M; lia].
  Qed.
End Considerate.
Theorem C101_considerate :
  forall (X : Type) place arrange (f : callbacks X) (d : dictionary) (q : question) (x : X),
  considerate f -> exists x' d', answers place arrange f q x d (right_answer d q) x' d'.
Proof.
  intros X place arrange f d q x C.
  enough (H : exists n m a s, ask X place arrange f n m q (idle X x d) = Ret (a, s)).
  { destruct H as (n & m & a & s & R). pose proof R as R'. apply ask_right in R' as (-> & _). exists (b_x s), (b_dict s), n, m, s. auto. }
  assert (S : forall l s, exists s', say X place f 2 l s = Ret s').
  { intros l s. destruct (say_quiet place f C 0 l s) as (s' & R & _). eauto. }
  assert (O : forall l s (a : bytes), exists b s', omap (pair a) (say X place f 2 l s) = Ret (b, s')).
  { intros l s a. destruct (S l s) as (s' & R). rewrite R. eexists _, _. reflexivity. }
  exists 2. destruct q as [c i|c i pl num]; cbn [ask].
  - exists 0. destruct (has_map _ _); [|apply O]. unfold singular_in. destruct (assoc _ _) as [[|v vs]|]; try apply O. eexists _, _. reflexivity.
  - destruct (has_map _ _); [|exists 0; apply O]. unfold plural_in. destruct (assoc _ _) as [v|].
    + exists 0. destruct (translate_plural_in _ _ _ _ _) as [b ls]. generalize (idle X x d).
      assert (E : forall s, exists s', each X (say X place f 2) ls s = Ret s').
      { induction ls as [|l ls IH]; intro s; cbn [each]; [eauto|]. destruct (S l s) as (s1 & R). rewrite R. apply IH. }
      intro s. destruct (E s) as (s' & R). rewrite R. eexists _, _. reflexivity.
    + match goal with |- context [say X place f 2 ?l ?s] => destruct (S l s) as (s1 & R1) end. rewrite R1. cbn [obind].
      destruct (S (log_info (bs "Candidates: ")) s1) as (s2 & R2). rewrite R2. cbn [obind].
      exists (Datatypes.S (length (b_left (begin_at X arrange c s2)))).
      destruct (candidates_quiet place f C _ (begin_at X arrange c s2) (Datatypes.S (length (b_left (begin_at X arrange c s2)))) eq_refl eq_refl) as (s3 & R3); [lia|].
      rewrite R3. eexists _, _. reflexivity.
Qed.

(** Callbacks that learn a new message at each candidate: if the first insertion rehashes the map, the
    iterator is used though invalid; if each insertion puts the message ahead, the list of candidates
    has no end. *)
Theorem C101_violation_learning :
  forall (X : Type) place arrange (f : callbacks X) (d : dictionary) (c : option bytes) (i j pl : bytes) (num : Z) (x : X),
  some_order arrange -> learning f c -> lookup d (c, i) = None -> lookup d (c, j) <> None ->
  (place 0 = Rehash -> lookup_undefined place arrange f (Plural c i pl num) x d) /\
  ((forall n, place n = Ahead 0) -> lookup_endless place arrange f (Plural c i pl num) x d).
Proof.
  intros X place arrange f d c i j pl num x A (g & G & G1 & G2) L J.
  assert (HM : has_map d c = true).
  { destruct c as [c|]; [|reflexivity]. unfold has_map, missing. unfold lookup in J; cbn [fst snd] in J. now destruct (assoc c (d_ctxt d)). }
  assert (Enter : exists x2, forall n m, ask X place arrange f (S n) m (Plural c i pl num) (idle X x d) =
            omap (pair (english i pl num)) (candidates X place f (S n) m (begin_at X arrange c (idle X x2 d)))).
  { eexists. intros n m. cbn [ask b_dict idle]. rewrite HM. unfold plural_in. cbn [b_dict idle]. rewrite map_of_lookup, L.
    assert (Say : forall t x0, hd_error (t ++ [c_lf]) <> hd_error (bs "'") -> say X place f (S n) (log_info t) (idle X x0 d) = Ret (idle X (fst (g (t ++ [c_lf]) x0 d)) d)).
    { intros t x0 N. cbn [say log_info lg_level lg_text]. rewrite G. cbn [b_x b_dict idle]. pose proof (G2 (t ++ [c_lf]) x0 d N) as H.
      destruct (g _ _ _) as [x' ops]. cbn [snd] in H. subst ops. reflexivity. }
    change {| b_x := x; b_dict := d; b_at := None; b_left := []; b_valid := true; b_n := 0 |} with (idle X x d).
    rewrite Say by (intro N; vm_compute in N; discriminate N). cbn [obind]. rewrite Say by (intro N; vm_compute in N; discriminate N). reflexivity. }
  destruct Enter as (x2 & Enter).
  assert (NE : b_left (begin_at X arrange c (idle X x2 d)) <> []).
  { cbn [begin_at b_left idle b_dict b_n]. intro N. pose proof (A 0 (List.map fst (map_of d c))) as P. rewrite N in P.
    apply Permutation_sym, Permutation_nil in P. rewrite <- map_of_lookup in J. destruct (map_of d c); [now apply J|discriminate P]. }
  assert (Step : forall n k (s : busy X), b_at s = Some c -> exists s',
            say X place f (S n) (log_info (bs "'" ++ k ++ bs "'")) s = Ret s' /\ b_at s' = Some c /\
            b_n s' = S (b_n s) /\
            exists k', (b_left s', b_valid s') = (fst (inserted place k' (b_n s) (b_left s)), b_valid s && snd (inserted place k' (b_n s) (b_left s)))).
  { intros n k s At. remember (bs "'" ++ k ++ bs "'") as t. cbn [say log_info lg_level lg_text]. rewrite G.
    destruct (G1 ((k ++ bs "'") ++ [c_lf]) (b_x s) (b_dict s)) as (op & O & Oc & On).
    subst t. rewrite <- app_assoc. destruct (g _ _ _) as [x' ops]. cbn [snd] in O. subst ops. cbn [each]. unfold add_live.
    assert (Z : snd (add_translation (b_dict (with_x X s x')) op) = []).
    { destruct (log_cases (b_dict (with_x X s x')) op) as [E|(t & E)]; [exact E|].
      assert (K : collides (b_dict (with_x X s x')) op) by (apply log_iff; congruence).
      destruct K as (old & K & _). cbn [with_x b_dict] in K. congruence. }
    rewrite Z. cbn [obind]. eexists. split; [reflexivity|]. unfold store. cbn [with_x b_at b_dict b_left b_valid b_x b_n]. rewrite At.
    rewrite target_key, Oc. replace (same_map c c) with true by (symmetry; now apply same_map_spec).
    rewrite missing_lookup. replace (c, snd (op_key op)) with (op_key op) by (destruct (op_key op); cbn [fst snd] in *; congruence).
    rewrite On. cbn [andb]. destruct (inserted place (snd (op_key op)) (b_n s) (b_left s)) as [l ok] eqn:I. cbn [b_at b_n b_left b_valid].
    split; [reflexivity|]. split; [reflexivity|]. exists (snd (op_key op)). now rewrite I. }
  split.
  - intro P. exists 1, 1. rewrite Enter. cbn [candidates]. destruct (b_left (begin_at X arrange c (idle X x2 d))) as [|k rest]; [congruence|].
    match goal with |- context [say X place f 1 _ ?t] => destruct (Step 0 k t eq_refl) as (s' & R & _ & _ & k' & E) end.
    rewrite R. cbn [obind]. injection E as _ E. rewrite E. cbn [b_n begin_at idle]. unfold inserted. rewrite P. cbn [snd b_valid begin_at andb]. reflexivity.
  - intros P n m. destruct n as [|n].
    + cbn [ask b_dict idle]. rewrite HM. unfold plural_in. cbn [b_dict idle]. rewrite map_of_lookup, L. cbn [say log_info lg_level]. now rewrite G.
    + rewrite Enter. enough (E : forall s, b_at s = Some c -> b_left s <> [] -> b_valid s = true -> candidates X place f (S n) m s = OutOfFuel)
        by (rewrite E; [reflexivity|reflexivity|exact NE|reflexivity]).
      induction m as [|m IH]; intros s At N V; [reflexivity|]. cbn [candidates]. destruct (b_left s) as [|k rest]; [congruence|].
      match goal with |- context [say X place f _ _ ?t] => destruct (Step n k t At) as (s' & R & At' & _ & k' & E) end.
      rewrite R. cbn [obind]. injection E as E1 E2. cbn [b_n b_left b_valid] in E1, E2. unfold inserted in E1, E2. rewrite P in E1, E2. cbn [fst snd] in E1, E2.
      rewrite V in E2. cbn [andb] in E2. rewrite E2. apply IH; [exact At'|rewrite E1; discriminate|exact E2].
Qed.

(** A warning callback whose first call always overwrites something, too: no addition that collides ends. *)
Theorem C101_violation_insisting :
  forall (X : Type) place (f : callbacks X) g (d : dictionary),
  f LWarning = Some g ->
  (forall t x, exists op ops, snd (g t x d) = op :: ops /\ collides d op) ->
  forall (op : add_op) (x : X), collides d op -> addition_endless place f op x d.
Proof.
  intros X place f g d G G1 op x C n. unfold add_call.
  enough (H : forall n op (s : busy X), b_dict s = d -> collides d op -> add_live X place (say X place f n) op s = OutOfFuel)
    by (apply H; auto).
  clear n op x C. induction n as [|n IH]; intros op s D C; unfold add_live; rewrite D;
    destruct (log_one d op C) as (t & L); rewrite L; cbn [each say log_warning lg_level lg_text]; rewrite G; [reflexivity|].
  destruct (G1 (t ++ [c_lf]) (b_x s)) as (op' & ops & E & C'). rewrite D. destruct (g _ _ _) as [x' l]. cbn [snd] in E. subst l.
  cbn [each]. rewrite IH; auto.
Qed.

(** A warning callback that empties the forms of the message whose form 0 is about to be overwritten:
    vec[0] is then undefined. *)
Theorem C101_violation_emptied :
  forall (X : Type) place (f : callbacks X) g (d : dictionary) (c : option bytes) (i s v pl : bytes) (others : list bytes) (x x1 : X),
  f LWarning = Some g ->
  lookup d (c, i) = Some (v :: others) -> v <> s ->
  (forall t, g t x d = (x1, [AddPlural c i pl []])) -> (forall t, snd (g t x1 d) = []) ->
  addition_undefined place f (AddSingular c i s) x d.
Proof.
  intros X place f g d c i s v pl others x x1 G L N G1 G2. exists 2. unfold add_call.
  assert (C : collides d (AddSingular c i s)).
  { exists (v :: others). split; [exact L|]. split; [discriminate|]. cbn [new_forms]. congruence. }
  assert (C' : collides d (AddPlural c i pl [])).
  { exists (v :: others). split; [exact L|]. split; [discriminate|]. cbn [new_forms]. discriminate. }
  destruct (log_one d _ C) as (t & E), (log_one d _ C') as (t' & E').
  unfold add_live at 1. cbn [b_dict idle]. rewrite E. cbn [each]. remember 1 as one. cbn [say log_warning lg_level lg_text]. rewrite G.
  cbn [b_x b_dict idle]. rewrite G1. cbn [each]. unfold add_live at 1. cbn [b_dict with_x idle]. rewrite E'. cbn [each]. subst one.
  cbn [say log_warning lg_level lg_text]. rewrite G. cbn [b_x b_dict idle with_x]. specialize (G2 (t' ++ [c_lf])). destruct (g _ _ _) as [x2 l]. cbn [snd] in G2. subst l.
  cbn [each obind]. rewrite store_dict. cbn [b_dict with_x idle].
  rewrite found_lookup. change (op_key (AddSingular c i s)) with (op_key (AddPlural c i pl [])).
  rewrite (lookup_add_same d (AddPlural c i pl [])). reflexivity.
Qed.

(** an info callback that stores what could not be translated; a warning callback that puts the old
    form back; callbacks as in the violations *)
Definition ex_dict : dictionary := add_all (new_dictionary utf8) [AddSingular None (bs "a") (bs "A"); AddSingular None (bs "b") (bs "B")].
Definition noting : callbacks nat := fun lv => match lv return option (bytes -> _ -> dictionary -> _ * list add_op) with
  | LInfo => Some (fun t x d => if starts_with (bs "Couldn't") t then (S x, [AddSingular None (bs "b") (bs "seen"); AddSingular None (skipn 20 (removelast t)) (bs "?")]) else (x, []))
  | _ => None end.
Definition restoring : callbacks unit := fun lv => match lv return option (bytes -> _ -> dictionary -> _ * list add_op) with
  | LWarning => Some (fun t x d => (x, [AddSingular None (bs "a") (bs "A"); AddSingular None (bs "z") t])) | _ => None end.
Definition unused (c : option bytes) (d : dictionary) : bytes :=
  repeat (ascii_of_nat 120) (S (list_sum (List.map (fun kv => length (fst kv)) (map_of d c)))).
Definition learner (c : option bytes) : callbacks unit := fun lv => match lv return option (bytes -> _ -> dictionary -> _ * list add_op) with
  | LInfo => Some (fun t x d => (x, if starts_with (bs "'") t then [AddSingular c (unused c d) (bs "new")] else [])) | _ => None end.
Definition conflict : callbacks unit := fun lv => match lv return option (bytes -> _ -> dictionary -> _ * list add_op) with
  | LWarning => Some (fun t x d => (x, [AddSingular None (bs "a") (bs "CONFLICT")])) | _ => None end.
Definition eraser : callbacks bool := fun lv => match lv return option (bytes -> _ -> dictionary -> _ * list add_op) with
  | LWarning => Some (fun t (x : bool) d => (true, if x then [] else [AddPlural None (bs "a") [] []])) | _ => None end.

Lemma unused_missing : forall c d, lookup d (c, unused c d) = None.
Proof.
  intros c d. rewrite <- map_of_lookup. unfold unused.
  assert (H : forall (m : entries) n, list_sum (List.map (fun kv => length (fst kv)) m) < n -> assoc (repeat (ascii_of_nat 120) n) m = None).
  { induction m as [|[k v] m IH]; intros n L; [reflexivity|]. cbn [List.map list_sum fold_right fst assoc] in *.
    change (fold_right Nat.add 0 ?l) with (list_sum l) in L.
    destruct (bytes_eqb_spec (repeat (ascii_of_nat 120) n) k) as [E|_]; [rewrite <- E, repeat_length in L; lia|]. apply IH. lia. }
  apply H. lia.
Qed.
Lemma learner_learns : forall c, learning (learner c) c.
Proof.
  intro c. eexists. split; [reflexivity|]. split.
  - intros t x d. exists (AddSingular c (unused c d) (bs "new")). split; [reflexivity|]. split; [reflexivity|]. apply unused_missing.
  - intros [|b t] x d N; [reflexivity|]. cbn [snd]. destruct (starts_with (bs "'") (b :: t)) eqn:E; [|reflexivity].
    exfalso. apply N. cbn in E. destruct (byte_eqb b _) eqn:B; [|discriminate E]. apply byte_eqb_eq in B. now subst b.
Qed.

Example C101_nonvacuous :
  (* a lookup whose callback changes the dictionary: the answer is the old one *)
  considerate noting /\
  (exists d', answers (fun _ => Behind) (fun _ l => l) noting (Plural None (bs "c") (bs "cs") 2) 0 ex_dict (bs "cs") 1 d' /\
              lookup d' (None, bs "c") = Some [bs "?"] /\ lookup d' (None, bs "b") = Some [bs "seen"] /\ right_answer d' (Singular None (bs "c")) = bs "?") /\
  (* putting the old form back is in vain *)
  (exists d', added (fun _ => Behind) restoring (AddSingular None (bs "a") (bs "AA")) tt ex_dict tt d' /\
              lookup d' (None, bs "a") = Some [bs "AA"] /\ lookup d' (None, bs "z") <> None) /\
  (exists log, answers (fun _ => Behind) (fun _ l => l) recorder (Plural None (bs "c") (bs "cs") 2) [] ex_dict (bs "cs") log ex_dict /\ length log = 4) /\
  (exists log d', answers (fun _ => Behind) (fun _ l => rev l) (teacher (fun t => [AddSingular None t (bs "?")])) (Plural None (bs "c") (bs "cs") 2) [] ex_dict (bs "cs") log d' /\ length log = 6) /\
  lookup_undefined (fun _ => Rehash) (fun _ l => l) (learner None) (Plural None (bs "c") (bs "cs") 2) tt ex_dict /\
  lookup_endless (fun _ => Ahead 0) (fun _ l => l) (learner None) (Plural None (bs "c") (bs "cs") 2) tt ex_dict /\
  addition_endless (fun _ => Behind) conflict (AddSingular None (bs "b") (bs "BB")) tt ex_dict /\
  addition_undefined (fun _ => Behind) eraser (AddSingular None (bs "a") (bs "AA")) false ex_dict.
Proof.
  split; [|split; [|split; [|split; [|split; [|split; [|split; [|split]]]]]]].
  - split; [discriminate|]. intros g G t x d op O. injection G as <-. cbn in O. destruct O.
  - eexists. split; [exists 2, 9; eexists; split; [vm_compute; reflexivity|split; reflexivity]|]. vm_compute. auto.
  - eexists. split; [exists 3; eexists; split; [vm_compute; reflexivity|split; reflexivity]|]. vm_compute. split; [reflexivity|discriminate].
  - eexists. split; [exists 2, 9; eexists; split; [vm_compute; reflexivity|split; reflexivity]|]. reflexivity.
  - do 2 eexists. split; [exists 2, 9; eexists; split; [vm_compute; reflexivity|split; reflexivity]|]. reflexivity.
  - apply (C101_violation_learning unit (fun _ => Rehash) (fun _ l => l) (learner None) ex_dict None (bs "c") (bs "a") (bs "cs") 2 tt);
      [intros n l; apply Permutation_refl|apply learner_learns|reflexivity|discriminate|reflexivity].
  - apply (C101_violation_learning unit (fun _ => Ahead 0) (fun _ l => l) (learner None) ex_dict None (bs "c") (bs "a") (bs "cs") 2 tt);
      [intros n l; apply Permutation_refl|apply learner_learns|reflexivity|discriminate|reflexivity].
  - eapply C101_violation_insisting; [reflexivity| |].
    + intros t x. do 2 eexists. split; [reflexivity|]. exists [bs "A"]. split; [reflexivity|]. split; discriminate.
    + exists [bs "B"]. split; [reflexivity|]. split; discriminate.
  - eapply C101_violation_emptied with (x1 := true) (v := bs "A") (pl := []); [reflexivity|reflexivity|discriminate|reflexivity|reflexivity].
Qed.

Print Assumptions C101_answers.
Print Assumptions C101_additions.
Print Assumptions C101_determined.
Print Assumptions C101_plain.
Print Assumptions C101_candidates.
Print Assumptions C101_considerate.
Print Assumptions C101_violation_learning.
Print Assumptions C101_violation_insisting.
Print Assumptions C101_violation_emptied.
