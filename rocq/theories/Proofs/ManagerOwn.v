(** Ownership: every dictionary the manager allocates is in its cache until it is
    deleted, once. *)
From Verif.Model Require Import Base Log PluralForms Dictionary IConv Language Stream PoParser Manager.
From Verif.Spec Require Import DictSpec LangSpec ManagerSpec.
From Verif.Proofs Require Import BaseFacts DictProofs LangProofs ManagerLoad.
From Coq Require Import Permutation.
Local Open Scope list_scope.

Lemma cache_find_in l c p : cache_find l c = Some p -> exists k, In (k, p) c /\ lang_eqb l k = true.
Proof.
  induction c as [|[k q] c IH]; cbn [cache_find]; [discriminate|]. destruct (lang_eqb l k) eqn:E.
  - intro H; injection H as ->. exists k. split; [now left|exact E].
  - intro H. destruct (IH H) as (k' & H1 & H2). exists k'. split; [now right|exact H2].
Qed.
Lemma NoDup_app_l A (a b : list A) : NoDup (a ++ b) -> NoDup a.
Proof.
  induction a as [|x a IH]; intro H; [constructor|]. cbn [app] in H. inversion H; subst.
  constructor; [|now apply IH]. intro X. apply H2, in_or_app. now left.
Qed.
Definition keys_known (c : list (language * ptr)) : Prop := Forall (fun e => known (fst e)) c.
Lemma cache_find_In l c p : known l -> keys_known c -> cache_find l c = Some p -> In (l, p) c.
Proof.
  intros Kl Kc H. destruct (cache_find_in _ _ _ H) as (k & H1 & H2).
  assert (known k). { unfold keys_known in Kc. rewrite Forall_forall in Kc. exact (Kc _ H1). }
  apply lang_eqb_eq in H2; auto. now subst.
Qed.
Lemma cache_find_app_some l c c' p : cache_find l c = Some p -> cache_find l (c ++ c') = Some p.
Proof. induction c as [|[k q] c IH]; cbn [cache_find app]; [discriminate|]. destruct (lang_eqb l k); auto. Qed.
Lemma cache_find_app_none l c c' : cache_find l c = None -> cache_find l (c ++ c') = cache_find l c'.
Proof. induction c as [|[k q] c IH]; cbn [cache_find app]; [reflexivity|]. destruct (lang_eqb l k); [discriminate|auto]. Qed.
Lemma lang_eqb_refl l : lang_eqb l l = true.
Proof. destruct l; cbn [lang_eqb]; [apply Nat.eqb_refl|reflexivity]. Qed.
Lemma cache_find_none l c : cache_find l c = None -> ~ In l (List.map fst c).
Proof.
  induction c as [|[k q] c IH]; cbn [cache_find List.map fst]; [intros _ []|].
  destruct (lang_eqb l k) eqn:E; [discriminate|]. intros H [->|H']; [|now apply IH].
  rewrite lang_eqb_refl in E. discriminate.
Qed.
Lemma In_cache_find l c p : known l -> keys_known c -> NoDup (List.map fst c) -> In (l, p) c -> cache_find l c = Some p.
Proof.
  intros Kl Kc. induction c as [|[k q] c IH]; cbn [List.map fst cache_find]; [intros _ []|].
  intro N. inversion N; subst. inversion Kc; subst. intros [H|H].
  - injection H as -> ->. now rewrite lang_eqb_refl.
  - destruct (lang_eqb l k) eqn:E; [|now apply IH]. apply lang_eqb_eq in E; auto. subst.
    exfalso. apply H1. apply in_map_iff. exists (k, p). auto.
Qed.

(** the dictionary of a language may only fall back on the cached dictionary of its
    country-less base *)
Definition fallback_ok (nd : bool) (c : list (language * ptr)) (l : language) (d : dictionary) : Prop :=
  d_has_fallback d = true ->
  get_country l <> [] /\
  exists b q, from_spec nd (get_language l) [] [] = Ret b /\ cache_find b c = Some q /\ d_fallback d = Some q.

Record own (nd : bool) (m : manager) : Prop := {
  own_known : keys_known (m_cache m);
  own_lang : known (m_lang m);
  own_keys : NoDup (List.map fst (m_cache m));
  own_perm : Permutation (List.map snd (m_cache m) ++ m_freed m) (seq 0 (m_next m));
  own_heap : Permutation (List.map fst (m_heap m)) (List.map snd (m_cache m));
  own_cur : forall p, m_cur m = Some p -> m_lang m <> None /\ cache_find (m_lang m) (m_cache m) = Some p;
  own_fb : forall l p d, In (l, p) (m_cache m) -> heap_get (m_heap m) p = Some d -> fallback_ok nd (m_cache m) l d;
  own_empty : m_empty m = new_dictionary utf8 }.

Section Own.
  Variable cf : config.
  Variable fs : file_system.
  Local Notation own := (own (cf_ndebug cf)).

  Lemma own_new cs : own (new_manager cs).
  Proof. constructor; cbn; try constructor; try discriminate; try intros ? ? ? []; auto. Qed.

  Lemma own_lt m p : own m -> In p (List.map snd (m_cache m)) -> p < m_next m.
  Proof.
    intros O H. assert (In p (seq 0 (m_next m))) as I.
    { eapply Permutation_in; [apply (own_perm _ _ O)|]. apply in_or_app. now left. }
    apply in_seq in I. lia.
  Qed.
  Lemma own_ptrs m : own m -> NoDup (List.map snd (m_cache m)).
  Proof.
    intro O. pose proof (Permutation_NoDup (Permutation_sym (own_perm _ _ O)) (seq_NoDup _ _)) as N.
    now apply NoDup_app_l in N.
  Qed.
  Lemma own_live m p : own m -> (heap_get (m_heap m) p <> None <-> In p (List.map snd (m_cache m))).
  Proof.
    intro O. rewrite heap_get_keys. split; apply Permutation_in; [|apply Permutation_sym]; apply (own_heap _ _ O).
  Qed.
  Lemma own_cached m l p : own m -> In (l, p) (m_cache m) -> exists d, heap_get (m_heap m) p = Some d.
  Proof.
    intros O H. assert (heap_get (m_heap m) p <> None) as N.
    { apply own_live; auto. apply in_map_iff. exists (l, p). auto. }
    destruct (heap_get (m_heap m) p); [eauto|congruence].
  Qed.
  Lemma own_found m l p : own m -> cache_find l (m_cache m) = Some p -> exists d, heap_get (m_heap m) p = Some d.
  Proof. intros O H. apply cache_find_in in H as (k & H & _). eapply own_cached; eauto. Qed.

  (** the elementary updates *)
  Lemma own_tr m t : own m -> own (upd_tr m t).
  Proof. intro O. destruct O. constructor; assumption. Qed.
  Lemma own_put m l id d d' t : own m -> In (l, id) (m_cache m) -> heap_get (m_heap m) id = Some d ->
    kept d d' -> own (put m id d' t).
  Proof.
    intros O I H (_ & K1 & K2). pose proof O as O'. destruct O. constructor; cbn; auto.
    - rewrite heap_set_keys by congruence. assumption.
    - intros l' p e Hin. destruct (Nat.eq_dec id p) as [<-|N].
      + rewrite heap_get_set_same. intro E; injection E as <-. specialize (own_fb0 l' id d Hin H).
        unfold fallback_ok in *. rewrite K1, K2. exact own_fb0.
      + rewrite heap_get_set_other by exact N. intro E. eapply own_fb0; eauto.
  Qed.
  Lemma own_alloc m l : own m -> known l -> cache_find l (m_cache m) = None -> own (alloc m l).
  Proof.
    intros O Kl H. pose proof O as O'. destruct O. constructor; cbn; auto.
    - apply Forall_app. split; [assumption|]. constructor; [exact Kl|constructor].
    - rewrite map_app. cbn [List.map fst]. eapply Permutation_NoDup; [apply Permutation_cons_append|].
      constructor; [now apply cache_find_none|assumption].
    - rewrite map_app. cbn [List.map snd]. rewrite <- app_assoc. cbn [app].
      transitivity (m_next m :: List.map snd (m_cache m) ++ m_freed m); [apply Permutation_sym, Permutation_middle|].
      change (0 :: seq 1 (m_next m)) with (seq 0 (S (m_next m))). rewrite seq_S. cbn [plus].
      etransitivity; [|apply Permutation_cons_append]. now constructor.
    - rewrite map_app. cbn [List.map snd fst]. etransitivity; [|apply Permutation_cons_append]. now constructor.
    - intros p Hp. destruct (own_cur0 p Hp) as [H1 H2]. split; [exact H1|]. now apply cache_find_app_some.
    - intros l' p d Hin. destruct (Nat.eqb_spec p (m_next m)) as [->|N].
      + intro E; injection E as <-. discriminate.
      + intros E F. assert (Hin' : In (l', p) (m_cache m)).
        { apply in_app_or in Hin as [Hin|[Hin|[]]]; [exact Hin|]. congruence. }
        destruct (own_fb0 l' p d Hin' E F) as (C & b & q & B1 & B2 & B3). split; [exact C|].
        exists b, q. split; [exact B1|]. split; [now apply cache_find_app_some|exact B3].
  Qed.
  Lemma own_fallback m l id d b q t : own m -> In (l, id) (m_cache m) -> heap_get (m_heap m) id = Some d ->
    get_country l <> [] -> from_spec (cf_ndebug cf) (get_language l) [] [] = Ret b -> cache_find b (m_cache m) = Some q ->
    own (put m id (add_fallback d (Some q)) t).
  Proof.
    intros O I H C B Q. pose proof O as O'. destruct O. constructor; cbn; auto.
    - rewrite heap_set_keys by congruence. assumption.
    - intros l' p e Hin. destruct (Nat.eq_dec id p) as [<-|N].
      + rewrite heap_get_set_same. intro E; injection E as <-. intros _.
        assert (l' = l) as ->.
        { pose proof (own_ptrs _ O') as Np. clear - I Hin Np. induction (m_cache m) as [|[k r] c IH]; [destruct I|].
          cbn [List.map snd] in Np. inversion Np as [|? ? N1 N2]; subst. destruct I as [I|I], Hin as [J|J].
          - congruence.
          - injection I as -> ->. exfalso. apply N1, in_map_iff. exists (l', id). auto.
          - injection J as -> ->. exfalso. apply N1, in_map_iff. exists (l, id). auto.
          - now apply IH. }
        split; [exact C|]. exists b, q. auto.
      + rewrite heap_get_set_other by exact N. intro E. eapply own_fb0; eauto.
  Qed.

  (** deleting everything *)
  Lemma delete_all_ok c : forall m, NoDup (List.map snd c) -> Permutation (List.map fst (m_heap m)) (List.map snd c) ->
    exists m', delete_all c m = (Ret tt, m') /\ m_heap m' = [] /\ m_freed m' = m_freed m ++ List.map snd c /\
      m_next m' = m_next m /\ m_cache m' = m_cache m /\ m_path m' = m_path m /\ m_charset m' = m_charset m /\
      m_fuzzy m' = m_fuzzy m /\ m_lang m' = m_lang m /\ m_cur m' = m_cur m /\ m_empty m' = m_empty m /\ m_tr m' = m_tr m.
  Proof.
    induction c as [|[l p] c IH]; intros m N P; cbn [delete_all].
    - exists m. cbn [List.map] in P. apply Permutation_sym, Permutation_nil in P. apply map_eq_nil in P.
      cbn [List.map]. rewrite app_nil_r. unfold mret. repeat split; auto.
    - cbn [List.map snd] in *. inversion N as [|? ? N1 N2]; subst.
      assert (L : heap_get (m_heap m) p <> None).
      { apply heap_get_keys. eapply Permutation_in; [apply Permutation_sym; exact P|now left]. }
      unfold mbind at 1, delete at 1. destruct (heap_get (m_heap m) p) as [d|] eqn:E; [|congruence].
      match goal with |- context[delete_all c ?x] => set (m1 := x) end.
      destruct (IH m1 N2) as (m' & R & H1 & H2 & H3).
      { subst m1. cbn [m_heap]. apply NoDup_Permutation.
        - assert (NoDup (List.map fst (m_heap m))) as Nh.
          { eapply Permutation_NoDup; [apply Permutation_sym; exact P|exact N]. }
          clear - Nh. induction (m_heap m) as [|[q e] h IHh]; cbn [List.filter List.map fst] in *; [constructor|].
          inversion Nh as [|? ? A B]; subst. destruct (negb (Nat.eqb p q)); [|now apply IHh].
          cbn [List.map fst]. constructor; [|now apply IHh].
          intro X. apply A. apply in_map_iff in X as ([q' e'] & X1 & X2). apply filter_In in X2 as [X2 _].
          apply in_map_iff. exists (q', e'). auto.
        - exact N2.
        - intro x. rewrite <- heap_get_keys, heap_get_filter. destruct (Nat.eqb_spec p x) as [->|Nx].
          + split; [congruence|]. intro X. contradiction.
          + rewrite heap_get_keys. split; intro X.
            * apply (Permutation_in _ P) in X. destruct X; [congruence|assumption].
            * eapply Permutation_in; [apply Permutation_sym; exact P|]. now right. }
      exists m'. split; [exact R|]. split; [exact H1|]. subst m1. cbn [m_freed] in H2. split; [|exact H3].
      rewrite H2, <- app_assoc. reflexivity.
  Qed.

  Definition cleared (m m' : manager) : Prop :=
    m_heap m' = [] /\ m_freed m' = m_freed m ++ List.map snd (m_cache m) /\ m_next m' = m_next m /\
    m_cache m' = [] /\ m_cur m' = None /\
    m_path m' = m_path m /\ m_charset m' = m_charset m /\ m_fuzzy m' = m_fuzzy m /\ m_lang m' = m_lang m /\
    m_empty m' = m_empty m /\ m_tr m' = m_tr m.
  Lemma clear_ok m : own m -> exists m', clear_cache m = (Ret tt, m') /\ cleared m m' /\ own m'.
  Proof.
    intro O. unfold clear_cache. unfold mbind at 1, mget.
    destruct (delete_all_ok (m_cache m) m (own_ptrs _ O) (own_heap _ _ O)) as (m' & R & H1 & H2 & H3 & H4 & H5 & H6 & H7 & H8 & H9 & H10 & H11).
    unfold mbind at 1. rewrite R. unfold mmod.
    eexists. split; [reflexivity|]. destruct O. split.
    - unfold cleared. cbn. repeat (split; [assumption || reflexivity|]). assumption.
    - constructor; cbn.
      + constructor.
      + now rewrite H8.
      + constructor.
      + rewrite H2, H3. etransitivity; [apply Permutation_app_comm|exact own_perm0].
      + rewrite H1. constructor.
      + discriminate.
      + intros ? ? ? [].
      + now rewrite H10.
  Qed.
  Lemma destroy_ok m : own m -> exists m', destroy_manager m = (Ret tt, m') /\ m_heap m' = [] /\
    Permutation (m_freed m') (seq 0 (m_next m')).
  Proof.
    intro O. unfold destroy_manager, mbind, mget.
    destruct (delete_all_ok (m_cache m) m (own_ptrs _ O) (own_heap _ _ O)) as (m' & R & H1 & H2 & H3 & _).
    exists m'. split; [exact R|]. split; [exact H1|]. rewrite H2, H3.
    etransitivity; [apply Permutation_app_comm|apply (own_perm _ _ O)].
  Qed.
End Own.
