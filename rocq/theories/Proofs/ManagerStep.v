(** Every call of the public interface. *)
From Verif.Model Require Import Base Log PluralForms Dictionary IConv Language Stream PoParser Manager.
From Verif.Spec Require Import DictSpec LangSpec ManagerSpec.
From Verif.Proofs Require Import BaseFacts DictProofs LangProofs ParserSafe ManagerLoad ManagerOwn ManagerGet.
From Coq Require Import Permutation.
Local Open Scope list_scope.

Section Step.
  Variable cf : config.
  Variable fs : file_system.
  Local Notation own := (own (cf_ndebug cf)).
  Local Notation step := (mstep cf fs).

  Lemma own_upd_path m p : own m -> own (upd_path m p).
  Proof. intro O; destruct O; constructor; assumption. Qed.
  Lemma own_upd_charset m p : own m -> own (upd_charset m p).
  Proof. intro O; destruct O; constructor; assumption. Qed.
  Lemma own_upd_fuzzy m p : own m -> own (upd_fuzzy m p).
  Proof. intro O; destruct O; constructor; assumption. Qed.
  Lemma own_upd_lang m l : own m -> known l -> own (upd_lang m l None).
  Proof. intros O K; destruct O; constructor; try assumption. discriminate. Qed.
  Lemma own_upd_cur m p : own m -> m_lang m <> None -> cache_find (m_lang m) (m_cache m) = Some p ->
    own (upd_lang m (m_lang m) (Some p)).
  Proof. intros O K F; destruct O; constructor; try assumption. cbn. intros q H. injection H as <-. auto. Qed.

  (** what each call does *)
  Lemma do_set_language l m : step (OpSetLanguage l) m =
    (Ret OutUnit, if lang_eqb (m_lang m) l then m else upd_lang m l None).
  Proof. cbn. unfold mmap, mbind, set_language, mmod, mret. now destruct (lang_eqb (m_lang m) l). Qed.
  Lemma do_set_charset c m : own m -> exists m1, cleared m m1 /\ own m1 /\ step (OpSetCharset c) m = (Ret OutUnit, upd_charset m1 c).
  Proof.
    intro O. destruct (clear_ok cf m O) as (m1 & R & H & O1). exists m1. split; [exact H|]. split; [exact O1|].
    cbn. unfold mmap, mbind, set_charset, mbind. rewrite R. reflexivity.
  Qed.
  Lemma do_set_use_fuzzy c m : own m -> exists m1, cleared m m1 /\ own m1 /\ step (OpSetUseFuzzy c) m = (Ret OutUnit, upd_fuzzy m1 c).
  Proof.
    intro O. destruct (clear_ok cf m O) as (m1 & R & H & O1). exists m1. split; [exact H|]. split; [exact O1|].
    cbn. unfold mmap, mbind, set_use_fuzzy, mbind. rewrite R. reflexivity.
  Qed.
  Lemma existsb_in p (l : list bytes) : existsb (bytes_eqb p) l = true <-> In p l.
  Proof.
    rewrite existsb_exists. split.
    - intros (x & H & E). apply bytes_eqb_eq in E. now subst.
    - intro H. exists p. split; [exact H|apply bytes_eqb_refl].
  Qed.
  Lemma do_add_directory p front m : own m -> ~ In p (m_path m) ->
    exists m1, cleared m m1 /\ own m1 /\
      step (OpAddDirectory p front) m = (Ret OutUnit, upd_path m1 (if front then p :: m_path m else m_path m ++ [p])).
  Proof.
    intros O N. destruct (clear_ok cf m O) as (m1 & R & H & O1). exists m1. split; [exact H|]. split; [exact O1|].
    cbn. unfold mmap, mbind, add_directory, mbind, mget. destruct (existsb _ _) eqn:E; [apply existsb_in in E; contradiction|].
    rewrite R. unfold mmod. cbv beta iota. destruct H as (_ & _ & _ & _ & _ & -> & _). reflexivity.
  Qed.
  Lemma do_add_present p front m : In p (m_path m) -> step (OpAddDirectory p front) m = (Ret OutUnit, m).
  Proof.
    intro H. cbn. unfold mmap, mbind, add_directory, mbind, mget. apply existsb_in in H. now rewrite H.
  Qed.
  Lemma do_remove_directory p m : own m -> In p (m_path m) ->
    exists m1, cleared m m1 /\ own m1 /\
      step (OpRemoveDirectory p) m = (Ret OutUnit, upd_path m1 (erase p (m_path m))).
  Proof.
    intros O N. destruct (clear_ok cf m O) as (m1 & R & H & O1). exists m1. split; [exact H|]. split; [exact O1|].
    cbn. unfold mmap, mbind, remove_directory, mbind, mget. apply existsb_in in N. rewrite N.
    rewrite R. unfold mmod. cbv beta iota. destruct H as (_ & _ & _ & _ & _ & -> & _). reflexivity.
  Qed.
  Lemma do_remove_absent p m : ~ In p (m_path m) -> step (OpRemoveDirectory p) m = (Ret OutUnit, m).
  Proof.
    intro H. cbn. unfold mmap, mbind, remove_directory, mbind, mget. destruct (existsb _ _) eqn:E; [apply existsb_in in E; contradiction|reflexivity].
  Qed.
  Lemma do_get_lang l m : known l -> step (OpGetDictionaryLang l) m =
    (omap (fun p => OutRef (RefHeap p)) (fst (get_state cf fs m l)), snd (get_state cf fs m l)).
  Proof.
    intro K. cbn [mstep]. unfold mmap, mbind, mret. rewrite (gd_eq cf fs l m K).
    now destruct (get_state cf fs m l) as [[?|?|?| |] ?].
  Qed.
  Lemma do_get m : known (m_lang m) -> step OpGetDictionary m =
    match m_cur m with
    | Some p => (Ret (OutRef (RefHeap p)), m)
    | None => if is_none (m_lang m) then (Ret (OutRef RefEmpty), m)
              else match get_state cf fs m (m_lang m) with
                   | (Ret p, m') => (Ret (OutRef (RefHeap p)), upd_lang m' (m_lang m') (Some p))
                   | (Exn e, m') => (Exn e, m') | (Ub u, m') => (Ub u, m')
                   | (AssertFail, m') => (AssertFail, m') | (OutOfFuel, m') => (OutOfFuel, m')
                   end
    end.
  Proof.
    intro K. cbn [mstep]. unfold mmap, mbind, get_dictionary, mbind, mget, mret, mmod.
    destruct (m_cur m); [reflexivity|]. destruct (is_none (m_lang m)); [reflexivity|].
    rewrite (gd_eq cf fs _ m K). now destruct (get_state cf fs m (m_lang m)) as [[?|?|?| |] ?].
  Qed.
  Lemma do_get_languages m : step OpGetLanguages m = (omap OutLangs (langs_of_dirs cf fs (m_path m) []), m).
  Proof.
    cbn [mstep]. unfold mmap, mbind, get_languages, mbind, mget, mlift, mret.
    now destruct (langs_of_dirs cf fs (m_path m) []).
  Qed.
  Lemma do_get_language m : step OpGetLanguage m = (Ret (OutLang (m_lang m)), m). Proof. reflexivity. Qed.
  Lemma do_get_use_fuzzy m : step OpGetUseFuzzy m = (Ret (OutBool (m_fuzzy m)), m). Proof. reflexivity. Qed.

  Lemma step_own op m : own m -> client_op op -> own (snd (step op m)).
  Proof.
    intros O C. destruct op as [l|c|b|p pr|p| |l| | |].
    - rewrite do_set_language. cbn [snd]. destruct (lang_eqb _ _); [exact O|now apply own_upd_lang].
    - destruct (do_set_charset c m O) as (m1 & _ & O1 & ->). now apply own_upd_charset.
    - destruct (do_set_use_fuzzy b m O) as (m1 & _ & O1 & ->). now apply own_upd_fuzzy.
    - destruct (in_dec (list_eq_dec ascii_dec) p (m_path m)) as [H|H]; [now rewrite do_add_present|].
      destruct (do_add_directory p pr m O H) as (m1 & _ & O1 & ->). now apply own_upd_path.
    - destruct (in_dec (list_eq_dec ascii_dec) p (m_path m)) as [H|H]; [|now rewrite do_remove_absent].
      destruct (do_remove_directory p m O H) as (m1 & _ & O1 & ->). now apply own_upd_path.
    - rewrite do_get by apply (own_lang _ _ O). destruct (m_cur m); [exact O|].
      destruct (is_none (m_lang m)) eqn:E; [exact O|].
      destruct (get_inv cf fs m (m_lang m) O (own_lang _ _ O)) as (O1 & G & F).
      destruct (get_state cf fs m (m_lang m)) as [[p|e|u| |] m']; cbn [fst snd] in *; try exact O1.
      apply own_upd_cur; [exact O1| |].
      + rewrite (gr_lang _ _ G). destruct (m_lang m); [discriminate|discriminate E].
      + rewrite (gr_lang _ _ G). now apply F.
    - rewrite do_get_lang by exact C. apply get_inv; auto.
    - now rewrite do_get_languages.
    - exact O.
    - exact O.
  Qed.

  (** path, charset, language, fuzzy flag *)
  Lemma erase_remove p (l : list bytes) : NoDup l -> erase p l = remove (list_eq_dec ascii_dec) p l.
  Proof.
    induction l as [|x l IH]; cbn [erase remove]; intro N; [reflexivity|]. inversion N; subst.
    destruct (list_eq_dec ascii_dec p x) as [->|Hx].
    - rewrite bytes_eqb_refl. symmetry. now apply notin_remove.
    - destruct (bytes_eqb p x) eqn:E; [apply bytes_eqb_eq in E; contradiction|]. now rewrite IH.
  Qed.
  Definition fuzzy_after (b : bool) (op : mop) : bool := match op with OpSetUseFuzzy b' => b' | _ => b end.
  Lemma step_fields op m : own m -> client_op op -> NoDup (m_path m) ->
    let m' := snd (step op m) in
    m_path m' = path_after (m_path m) [op] /\ m_charset m' = charset_after (m_charset m) [op] /\
    m_lang m' = language_after (m_lang m) [op] /\ m_fuzzy m' = fuzzy_after (m_fuzzy m) op /\ NoDup (m_path m').
  Proof.
    intros O C N. destruct op as [l|c|b|p pr|p| |l| | |]; cbn [path_after charset_after language_after fuzzy_after].
    - rewrite do_set_language. cbn [snd]. destruct (lang_eqb _ _) eqn:E; [|cbn; auto].
      apply lang_eqb_eq in E; [auto|apply (own_lang _ _ O)|exact C].
    - destruct (do_set_charset c m O) as (m1 & (_ & _ & _ & _ & _ & H1 & H2 & H3 & H4 & _) & O1 & ->). cbn. rewrite H1. auto.
    - destruct (do_set_use_fuzzy b m O) as (m1 & (_ & _ & _ & _ & _ & H1 & H2 & H3 & H4 & _) & O1 & ->). cbn. rewrite H1. auto.
    - destruct (in_dec (list_eq_dec ascii_dec) p (m_path m)) as [H|H]; [rewrite do_add_present by exact H; cbn; auto|].
      destruct (do_add_directory p pr m O H) as (m1 & (_ & _ & _ & _ & _ & H1 & H2 & H3 & H4 & _) & O1 & ->). cbn.
      repeat split; auto. destruct pr; [constructor; assumption|].
      eapply Permutation_NoDup; [apply Permutation_cons_append|now constructor].
    - rewrite <- erase_remove by exact N.
      assert (Nr : NoDup (erase p (m_path m))).
      { rewrite erase_remove by exact N. clear - N. induction (m_path m) as [|x l IH]; cbn [remove]; [constructor|].
        inversion N; subst. destruct (list_eq_dec ascii_dec p x); [now apply IH|].
        constructor; [|now apply IH]. intro X. apply in_remove in X. tauto. }
      destruct (in_dec (list_eq_dec ascii_dec) p (m_path m)) as [H|H].
      + destruct (do_remove_directory p m O H) as (m1 & (_ & _ & _ & _ & _ & H1 & H2 & H3 & H4 & _) & O1 & ->). cbn. auto.
      + rewrite do_remove_absent by exact H. cbn. repeat split; auto.
        rewrite erase_remove by exact N. symmetry. now apply notin_remove.
    - rewrite do_get by apply (own_lang _ _ O). destruct (m_cur m); [cbn; auto|].
      destruct (is_none (m_lang m)) eqn:E; [cbn; auto|].
      destruct (get_inv cf fs m (m_lang m) O (own_lang _ _ O)) as (O1 & G & F).
      destruct (get_state cf fs m (m_lang m)) as [[p|e|u| |] m']; cbn [fst snd] in *; destruct G; cbn; repeat split; congruence.
    - rewrite do_get_lang by exact C. destruct (get_inv cf fs m l O C) as (O1 & G & F).
      cbn [snd]. destruct G; repeat split; congruence.
    - rewrite do_get_languages. cbn; auto.
    - cbn; auto.
    - cbn; auto.
  Qed.
End Step.

(** ** whole sessions *)
Lemma mrun_app cf a b m : mrun cf (a ++ b) m = mrun cf b (mrun cf a m).
Proof. unfold mrun. apply fold_left_app. Qed.
Lemma path_after_app a : forall p b, path_after p (a ++ b) = path_after (path_after p a) b.
Proof. induction a as [|[] a IH]; intros; cbn [path_after app]; auto. Qed.
Lemma charset_after_app a : forall p b, charset_after p (a ++ b) = charset_after (charset_after p a) b.
Proof. induction a as [|[] a IH]; intros; cbn [charset_after app]; auto. Qed.
Lemma language_after_app a : forall p b, language_after p (a ++ b) = language_after (language_after p a) b.
Proof. induction a as [|[] a IH]; intros; cbn [language_after app]; auto. Qed.

Lemma run_inv cf ops : forall m, valid ops -> own (cf_ndebug cf) m -> NoDup (m_path m) ->
  let m' := mrun cf ops m in
  own (cf_ndebug cf) m' /\ NoDup (m_path m') /\
  m_path m' = path_after (m_path m) (List.map snd ops) /\
  m_charset m' = charset_after (m_charset m) (List.map snd ops) /\
  m_lang m' = language_after (m_lang m) (List.map snd ops).
Proof.
  induction ops as [|[fs op] ops IH]; intros m V O N.
  - cbn. auto.
  - inversion V as [|? ? C V']; subst. cbn [snd] in C.
    destruct (step_fields cf fs op m O C N) as (F1 & F2 & F3 & _ & F5).
    pose proof (step_own cf fs op m O C) as O1.
    destruct (IH _ V' O1 F5) as (I1 & I2 & I3 & I4 & I5).
    change (mrun cf ((fs, op) :: ops) m) with (mrun cf ops (snd (mstep cf fs op m))).
    cbv zeta. split; [exact I1|]. split; [exact I2|].
    change (List.map snd ((fs, op) :: ops)) with ([op] ++ List.map snd ops).
    rewrite path_after_app, charset_after_app, language_after_app, <- F1, <- F2, <- F3. auto.
Qed.
