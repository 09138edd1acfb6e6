(** Loading, as a function of the file system and the dictionary only. *)
From Verif.Model Require Import Base Log PluralForms Dictionary IConv Language Stream PoParser Manager.
From Verif.Spec Require Import DictSpec LangSpec ManagerSpec.
From Verif.Proofs Require Import BaseFacts DictProofs LangProofs ParserSafe ParserRel.
Local Open Scope list_scope.

(** ** heap *)
Lemma heap_get_set_same h p d : heap_get (heap_set h p d) p = Some d.
Proof.
  induction h as [|[q d'] h IH]; cbn [heap_set heap_get].
  - now rewrite Nat.eqb_refl.
  - destruct (Nat.eqb p q) eqn:E; cbn [heap_get]; rewrite E; auto.
Qed.
Lemma heap_get_set_other h p q d : p <> q -> heap_get (heap_set h p d) q = heap_get h q.
Proof.
  intro N. induction h as [|[r d'] h IH]; cbn [heap_set heap_get].
  - destruct (Nat.eqb_spec q p); congruence.
  - destruct (Nat.eqb_spec p r); cbn [heap_get]; destruct (Nat.eqb_spec q r); congruence.
Qed.
Lemma heap_set_id h p d : heap_get h p = Some d -> heap_set h p d = h.
Proof.
  induction h as [|[q d'] h IH]; cbn [heap_set heap_get]; [discriminate|].
  destruct (Nat.eqb_spec p q); [|intro H; now rewrite IH]. intro H; injection H as ->. now subst.
Qed.
Lemma heap_set_twice h p d d' : heap_set (heap_set h p d) p d' = heap_set h p d'.
Proof.
  induction h as [|[q e] h IH]; cbn [heap_set].
  - now rewrite Nat.eqb_refl.
  - destruct (Nat.eqb p q) eqn:E; cbn [heap_set]; rewrite E; [reflexivity|now rewrite IH].
Qed.
Lemma heap_set_keys h p d : heap_get h p <> None -> List.map fst (heap_set h p d) = List.map fst h.
Proof.
  induction h as [|[q e] h IH]; cbn [heap_set heap_get]; [congruence|].
  destruct (Nat.eqb p q); cbn [List.map fst]; [reflexivity|]. intro H. now rewrite IH.
Qed.
Lemma heap_get_keys h p : heap_get h p <> None <-> In p (List.map fst h).
Proof.
  induction h as [|[q e] h IH]; cbn [heap_get List.map fst In]; [tauto|].
  destruct (Nat.eqb_spec p q); [subst; intuition discriminate|]. rewrite IH. intuition congruence.
Qed.
Lemma heap_get_filter h p q :
  heap_get (List.filter (fun e => negb (Nat.eqb p (fst e))) h) q = if Nat.eqb p q then None else heap_get h q.
Proof.
  induction h as [|[r e] h IH]; cbn [List.filter heap_get fst]; [now destruct (Nat.eqb p q)|].
  destruct (Nat.eqb_spec p r); cbn [negb heap_get].
  - rewrite IH. subst. destruct (Nat.eqb_spec r q), (Nat.eqb_spec q r); congruence.
  - rewrite IH. destruct (Nat.eqb_spec p q), (Nat.eqb_spec q r); congruence.
Qed.

(** ** state update made by loading *)
Definition put (m : manager) (id : ptr) (d : dictionary) (tr : list event) : manager :=
  upd_tr (upd_heap m (heap_set (m_heap m) id d)) (m_tr m ++ tr).
Lemma put_put m id d tr d' tr' : put (put m id d tr) id d' tr' = put m id d' (tr ++ tr').
Proof. unfold put, upd_tr, upd_heap; cbn. now rewrite heap_set_twice, app_assoc. Qed.
Lemma put_same m id d tr : heap_get (m_heap m) id = Some d -> put m id d tr = upd_tr m (m_tr m ++ tr).
Proof. intro H. unfold put, upd_tr, upd_heap; cbn. now rewrite (heap_set_id _ _ _ H). Qed.
Lemma put_get m id d tr : heap_get (m_heap (put m id d tr)) id = Some d.
Proof. apply heap_get_set_same. Qed.

Section Load.
  Variable cf : config.
  Variable fs : file_system.

  (** the choice of a file *)
  Definition pconsider (lang : language) (best : bytes * Z) (f : bytes) : outcome (bytes * Z) * list event :=
    if has_suffix f dot_po then
      match obind (convertFilename2Language (cf_strict cf) f) (from_env (cf_ndebug cf)) with
      | Ret po => if is_none po
                  then (Ret best, [EvLog (log_warning (f ++ bs ": warning: ignoring, unknown language"))])
                  else (Ret (if (snd best <? lang_match lang po)%Z then (f, lang_match lang po) else best), [])
      | Exn e => (Exn e, []) | Ub u => (Ub u, []) | AssertFail => (AssertFail, []) | OutOfFuel => (OutOfFuel, [])
      end
    else (Ret best, []).
  Fixpoint pbest (lang : language) (best : bytes * Z) (files : list bytes) : outcome (bytes * Z) * list event :=
    match files with
    | [] => (Ret best, [])
    | f :: files' =>
        match pconsider lang best f with
        | (Ret b, t) => let (o, t') := pbest lang b files' in (o, t ++ t')
        | r => r
        end
    end.

  Lemma upd_tr_nil m : upd_tr m (m_tr m ++ []) = m.
  Proof. rewrite app_nil_r. now destruct m. Qed.
  Lemma upd_tr_tr m t t' : upd_tr (upd_tr m (m_tr m ++ t)) (m_tr (upd_tr m (m_tr m ++ t)) ++ t') = upd_tr m (m_tr m ++ t ++ t').
  Proof. unfold upd_tr; cbn. now rewrite app_assoc. Qed.

  Lemma consider_eq lang best f m : consider cf lang best f m =
    (fst (pconsider lang best f), upd_tr m (m_tr m ++ snd (pconsider lang best f))).
  Proof.
    unfold consider, pconsider. destruct (has_suffix f dot_po); [|cbn [fst snd]; now rewrite upd_tr_nil].
    unfold mbind at 1, mlift. destruct (convertFilename2Language _ _) as [stem|e|u| |]; cbn [obind fst snd]; try (now rewrite upd_tr_nil).
    unfold mbind at 1. destruct (from_env _ _) as [po|e|u| |]; cbn [fst snd]; try (now rewrite upd_tr_nil).
    destruct (is_none po); cbn [fst snd]; [reflexivity|now rewrite upd_tr_nil].
  Qed.
  Lemma best_eq lang files : forall best m, best_file cf lang best files m =
    (fst (pbest lang best files), upd_tr m (m_tr m ++ snd (pbest lang best files))).
  Proof.
    induction files as [|f files IH]; intros best m; cbn [best_file pbest].
    - cbn [fst snd]. now rewrite upd_tr_nil.
    - unfold mbind at 1. rewrite consider_eq. destruct (pconsider lang best f) as [[b|e|u| |] t]; cbn [fst snd]; try reflexivity.
      rewrite IH. destruct (pbest lang b files) as [o t']. cbn [fst snd]. now rewrite upd_tr_tr.
  Qed.

  (** loading one file *)
  Definition pfile (pofile : bytes) (d : dictionary) : outcome unit * dictionary * list event :=
    let failed e d t := (Ret tt, d, t ++ [EvLog (log_error (bs "error: failure parsing: " ++ pofile)); EvLog (log_error (what e))]) in
    match fs_file fs pofile with
    | Ret None => (Ret tt, d, [EvLog (log_error (bs "error: failure opening: " ++ pofile))])
    | Ret (Some i) =>
        let r := po_parse cf pofile i d in
        match pr_outcome r with
        | Exn e => if is_std e then failed e (pr_dict r) (pr_trace r) else (Exn e, pr_dict r, pr_trace r)
        | o => (o, pr_dict r, pr_trace r)
        end
    | Exn e => if is_std e then failed e d [] else (Exn e, d, [])
    | Ub u => (Ub u, d, [])
    | AssertFail => (AssertFail, d, [])
    | OutOfFuel => (OutOfFuel, d, [])
    end.
  Lemma file_eq id pofile d m : heap_get (m_heap m) id = Some d ->
    load_file cf fs id pofile m =
    (fst (fst (pfile pofile d)), put m id (snd (fst (pfile pofile d))) (snd (pfile pofile d))).
  Proof.
    intro H. unfold load_file, pfile. destruct (fs_file fs pofile) as [[i|]|e|u| |].
    - rewrite H. destruct (pr_outcome (po_parse cf pofile i d)) as [o|e|u| |]; try reflexivity.
      destruct (is_std e); [|reflexivity]. cbn [fst snd]. unfold put, upd_tr, upd_heap. cbn. now rewrite app_assoc.
    - cbn [fst snd]. now rewrite (put_same _ _ _ _ H).
    - destruct (is_std e); cbn [fst snd]; rewrite (put_same _ _ _ _ H); [reflexivity|now rewrite upd_tr_nil].
    - cbn [fst snd]. now rewrite (put_same _ _ _ _ H), upd_tr_nil.
    - cbn [fst snd]. now rewrite (put_same _ _ _ _ H), upd_tr_nil.
    - cbn [fst snd]. now rewrite (put_same _ _ _ _ H), upd_tr_nil.
  Qed.

  (** one directory *)
  Definition pdir (lang : language) (p : bytes) (d : dictionary) : outcome unit * dictionary * list event :=
    match fs_dir fs p with
    | Ret files =>
        match pbest lang ([], 0%Z) files with
        | (Ret b, t) => if is_nil (fst b) then (Ret tt, d, t)
                        else match pfile (p ++ bs "/" ++ fst b) d with (o, d', t') => (o, d', t ++ t') end
        | (Exn e, t) => (Exn e, d, t) | (Ub u, t) => (Ub u, d, t) | (AssertFail, t) => (AssertFail, d, t)
        | (OutOfFuel, t) => (OutOfFuel, d, t)
        end
    | Exn e => (Exn e, d, []) | Ub u => (Ub u, d, []) | AssertFail => (AssertFail, d, []) | OutOfFuel => (OutOfFuel, d, [])
    end.
  Lemma dir_eq lang id p d m : heap_get (m_heap m) id = Some d ->
    load_dir cf fs lang id p m =
    (fst (fst (pdir lang p d)), put m id (snd (fst (pdir lang p d))) (snd (pdir lang p d))).
  Proof.
    intro H. unfold load_dir, pdir. unfold mbind at 1, mlift.
    destruct (fs_dir fs p) as [files|e|u| |]; cbn [fst snd]; try (now rewrite (put_same _ _ _ _ H), upd_tr_nil).
    unfold mbind at 1. rewrite best_eq. destruct (pbest lang ([], 0%Z) files) as [[b|e|u| |] t]; cbn [fst snd];
      try (now rewrite (put_same _ _ _ _ H)).
    destruct (is_nil (fst b)); cbn [fst snd]; [now rewrite (put_same _ _ _ _ H)|].
    rewrite (file_eq id _ d (upd_tr m (m_tr m ++ t)) H).
    destruct (pfile (p ++ bs "/" ++ fst b) d) as [[o d'] t']. cbn [fst snd].
    unfold put, upd_tr, upd_heap. cbn. now rewrite app_assoc.
  Qed.

  (** the search path, in loading order *)
  Fixpoint pload (lang : language) (ps : list bytes) (d : dictionary) : outcome unit * dictionary * list event :=
    match ps with
    | [] => (Ret tt, d, [])
    | p :: ps' =>
        match pdir lang p d with
        | (Ret _, d', t) => match pload lang ps' d' with (o, d'', t') => (o, d'', t ++ t') end
        | r => r
        end
    end.
  Lemma load_eq lang id ps : forall d m, heap_get (m_heap m) id = Some d ->
    load_dirs cf fs lang id ps m =
    (fst (fst (pload lang ps d)), put m id (snd (fst (pload lang ps d))) (snd (pload lang ps d))).
  Proof.
    induction ps as [|p ps IH]; intros d m H; cbn [load_dirs pload].
    - cbn [fst snd]. now rewrite (put_same _ _ _ _ H), upd_tr_nil.
    - unfold mbind at 1. rewrite (dir_eq lang id p d m H).
      destruct (pdir lang p d) as [[[[]|e|u| |] d'] t]; cbn [fst snd]; try reflexivity.
      rewrite (IH d' _ (put_get m id d' t)). destruct (pload lang ps d') as [[o d''] t']. cbn [fst snd]. now rewrite put_put.
  Qed.

  (** what loading never touches *)
  Definition kept (d d' : dictionary) : Prop :=
    d_charset d' = d_charset d /\ d_has_fallback d' = d_has_fallback d /\ d_fallback d' = d_fallback d.
  Lemma kept_refl d : kept d d. Proof. repeat split. Qed.
  Lemma kept_trans a b c : kept a b -> kept b c -> kept a c.
  Proof. unfold kept. intuition congruence. Qed.
  Lemma kept_calls l : forall d, kept d (fold_left apply_call l d).
  Proof.
    induction l as [|c l IH]; intro d; [apply kept_refl|]. cbn [fold_left]. eapply kept_trans; [|apply IH].
    destruct c as [op|p]; cbn [apply_call].
    - destruct (add_fields d op) as (H1 & H2 & H3 & H4). repeat split; assumption.
    - destruct (pf_valid _); repeat split.
  Qed.
  Lemma kept_parse fn i d : kept d (pr_dict (po_parse cf fn i d)).
  Proof. destruct (parse_effects cf fn i d) as [-> _]. apply kept_calls. Qed.
  Lemma kept_file f d : kept d (snd (fst (pfile f d))).
  Proof.
    unfold pfile. destruct (fs_file fs f) as [[i|]|e|u| |]; try apply kept_refl.
    - pose proof (kept_parse f i d). destruct (pr_outcome _) as [o|e|u| |]; try exact H. destruct (is_std e); exact H.
    - destruct (is_std e); apply kept_refl.
  Qed.
  Lemma kept_dir lang p d : kept d (snd (fst (pdir lang p d))).
  Proof.
    unfold pdir. destruct (fs_dir fs p) as [files|e|u| |]; try apply kept_refl.
    destruct (pbest _ _ _) as [[b|e|u| |] t]; try apply kept_refl. destruct (is_nil _); [apply kept_refl|].
    pose proof (kept_file (p ++ bs "/" ++ fst b) d) as H. destruct (pfile _ _) as [[o d'] t']. exact H.
  Qed.
  Lemma kept_load lang ps : forall d, kept d (snd (fst (pload lang ps d))).
  Proof.
    induction ps as [|p ps IH]; intro d; cbn [pload]; [apply kept_refl|].
    pose proof (kept_dir lang p d) as H. destruct (pdir lang p d) as [[[[]|e|u| |] d'] t]; try exact H.
    cbn [fst snd] in H. specialize (IH d'). destruct (pload lang ps d') as [[o d''] t']. eapply kept_trans; eauto.
  Qed.
End Load.
