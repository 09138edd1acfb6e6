(** get_dictionary(language). *)
From Verif.Model Require Import Base Log PluralForms Dictionary IConv Language Stream PoParser Manager.
From Verif.Spec Require Import DictSpec LangSpec ManagerSpec.
From Verif.Proofs Require Import BaseFacts DictProofs LangProofs ParserSafe ManagerLoad ManagerOwn.
From Coq Require Import Permutation.
Local Open Scope list_scope.

Lemma base_of nd l : known l -> get_country l <> [] ->
  exists b, from_spec nd (get_language l) [] [] = Ret (Some b) /\ In b languages /\ get_country (Some b) = [] /\
    Some b <> l.
Proof.
  intros K C. destruct l as [s|]; [|exfalso; apply C; reflexivity].
  destruct (base_language nd s K) as (b & B1 & B2 & B3 & _). exists b. repeat split; auto.
  intro E. rewrite <- E in C. congruence.
Qed.

Section Get.
  Variable cf : config.
  Variable fs : file_system.
  Local Notation own := (own (cf_ndebug cf)).
  Local Notation gd := (get_dictionary_lang cf fs).
  Local Notation load m l := (pload cf fs l (rev (m_path m)) (new_dictionary (m_charset m))).

  Record grown (m m' : manager) : Prop := {
    gr_cache : exists c, m_cache m' = m_cache m ++ c;
    gr_path : m_path m' = m_path m;
    gr_charset : m_charset m' = m_charset m;
    gr_fuzzy : m_fuzzy m' = m_fuzzy m;
    gr_lang : m_lang m' = m_lang m;
    gr_cur : m_cur m' = m_cur m;
    gr_empty : m_empty m' = m_empty m;
    gr_freed : m_freed m' = m_freed m;
    gr_heap : forall p, p < m_next m -> heap_get (m_heap m') p = heap_get (m_heap m) p;
    gr_next : m_next m <= m_next m';
    gr_tr : exists t, m_tr m' = m_tr m ++ t }.
  Lemma grown_refl m : grown m m.
  Proof. constructor; auto; exists []; now rewrite app_nil_r. Qed.
  Lemma grown_trans a b c : grown a b -> grown b c -> grown a c.
  Proof.
    intros A B. destruct A as [[c1 A1] A2 A3 A4 A5 A6 A7 A8 A9 A10 [t1 A11]], B as [[c2 B1] B2 B3 B4 B5 B6 B7 B8 B9 B10 [t2 B11]].
    constructor; try congruence.
    - exists (c1 ++ c2). rewrite B1, A1. now rewrite app_assoc.
    - intros p Hp. rewrite B9 by lia. apply A9, Hp.
    - lia.
    - exists (t1 ++ t2). rewrite B11, A11. now rewrite app_assoc.
  Qed.
  Lemma grown_put m m' id d t : grown m m' -> m_next m <= id -> grown m (put m' id d t).
  Proof.
    intros [[c A1] A2 A3 A4 A5 A6 A7 A8 A9 A10 [t1 A11]] H. constructor; cbn; auto.
    - exists c. exact A1.
    - intros p Hp. rewrite heap_get_set_other by lia. now apply A9.
    - exists (t1 ++ t). now rewrite A11, app_assoc.
  Qed.
  Lemma grown_find a b l p : grown a b -> cache_find l (m_cache a) = Some p -> cache_find l (m_cache b) = Some p.
  Proof. intros [[c ->] _ _ _ _ _ _ _ _ _ _] H. now apply cache_find_app_some. Qed.

  Lemma alloc_get m l : heap_get (m_heap (alloc m l)) (m_next m) = Some (new_dictionary (m_charset m)).
  Proof. cbn. now rewrite Nat.eqb_refl. Qed.

  (** the state after allocating and loading *)
  Definition loaded (m : manager) (l : language) : manager :=
    put (alloc m l) (m_next m) (snd (fst (load m l))) (snd (load m l)).

  Lemma loaded_grown m l : grown m (loaded m l).
  Proof.
    constructor; try reflexivity.
    - exists [(l, m_next m)]. reflexivity.
    - intros p Hp. unfold loaded, put. cbn [upd_tr upd_heap m_heap]. rewrite heap_get_set_other by lia.
      cbn [alloc m_heap heap_get]. destruct (Nat.eqb_spec p (m_next m)); [lia|reflexivity].
    - cbn. lia.
    - eexists. reflexivity.
  Qed.
  Lemma loaded_in m l : In (l, m_next m) (m_cache (loaded m l)).
  Proof. cbn. apply in_or_app. right. now left. Qed.
  Lemma loaded_get m l : heap_get (m_heap (loaded m l)) (m_next m) = Some (snd (fst (load m l))).
  Proof. apply put_get. Qed.
  Lemma loaded_own m l : own m -> known l -> cache_find l (m_cache m) = None -> own (loaded m l).
  Proof.
    intros O K H. apply (own_put cf (alloc m l) l (m_next m) (new_dictionary (m_charset m))).
    - now apply own_alloc.
    - cbn. apply in_or_app. right. now left.
    - apply alloc_get.
    - apply kept_load.
  Qed.
  Lemma loaded_find m l : cache_find l (m_cache m) = None -> cache_find l (m_cache (loaded m l)) = Some (m_next m).
  Proof. intro H. cbn. rewrite cache_find_app_none by exact H. cbn [cache_find]. now rewrite lang_eqb_refl. Qed.
  Lemma loaded_find_other m l l' : known l -> known l' -> l' <> l ->
    cache_find l' (m_cache (loaded m l)) = cache_find l' (m_cache m).
  Proof.
    intros K K' N. cbn. destruct (cache_find l' (m_cache m)) eqn:E; [now apply cache_find_app_some|].
    rewrite cache_find_app_none by exact E. cbn [cache_find]. destruct (lang_eqb l' l) eqn:F; [|reflexivity].
    apply lang_eqb_eq in F; auto. congruence.
  Qed.

  Definition asserts (l : language) : bool := negb (cf_ndebug cf) && is_none l.

  Lemma gd_assert n l m : asserts l = true -> gd (S n) l m = (AssertFail, m).
  Proof. unfold asserts. intro H. cbn [get_dictionary_lang]. now rewrite H. Qed.
  Lemma gd_cached n l m p : asserts l = false -> cache_find l (m_cache m) = Some p -> gd (S n) l m = (Ret p, m).
  Proof.
    unfold asserts. intros H C. cbn [get_dictionary_lang]. rewrite H. unfold mbind at 1, mget at 1. now rewrite C.
  Qed.

  Lemma gd_load n l m : asserts l = false -> cache_find l (m_cache m) = None ->
    gd (S n) l m =
    match fst (fst (load m l)) with
    | Ret _ =>
        if is_nil (get_country l) then (Ret (m_next m), loaded m l)
        else match from_spec (cf_ndebug cf) (get_language l) [] [] with
             | Ret b => match gd n b (loaded m l) with
                        | (Ret q, m3) => mbind (set_fallback (m_next m) q) (fun _ => mret (m_next m)) m3
                        | (Exn e, m3) => (Exn e, m3) | (Ub u, m3) => (Ub u, m3)
                        | (AssertFail, m3) => (AssertFail, m3) | (OutOfFuel, m3) => (OutOfFuel, m3)
                        end
             | Exn e => (Exn e, loaded m l) | Ub u => (Ub u, loaded m l)
             | AssertFail => (AssertFail, loaded m l) | OutOfFuel => (OutOfFuel, loaded m l)
             end
    | Exn e => (Exn e, loaded m l) | Ub u => (Ub u, loaded m l)
    | AssertFail => (AssertFail, loaded m l) | OutOfFuel => (OutOfFuel, loaded m l)
    end.
  Proof.
    unfold asserts. intros H C. cbn [get_dictionary_lang]. rewrite H. unfold mbind at 1, mget at 1. rewrite C.
    unfold mbind at 1, mget at 1. unfold mbind at 1, mmod at 1. unfold mbind at 1, mget at 1.
    unfold mbind at 1. cbn [alloc m_path]. rewrite (load_eq cf fs l (m_next m) _ _ _ (alloc_get m l)).
    fold (loaded m l). destruct (fst (fst (load m l))) as [[]|e|u| |]; try reflexivity.
    destruct (is_nil (get_country l)); [reflexivity|].
    unfold mbind at 1, mlift. destruct (from_spec _ _ _ _) as [b|e|u| |]; try reflexivity.
  Qed.

  (** a language without country *)
  Definition leaf_state (m : manager) (l : language) : manager :=
    if asserts l then m else match cache_find l (m_cache m) with Some _ => m | None => loaded m l end.
  Definition leaf_outcome (m : manager) (l : language) : outcome ptr :=
    if asserts l then AssertFail
    else match cache_find l (m_cache m) with
         | Some p => Ret p
         | None => omap (fun _ => m_next m) (fst (fst (load m l)))
         end.
  Lemma gd_leaf n l m : get_country l = [] -> gd (S n) l m = (leaf_outcome m l, leaf_state m l).
  Proof.
    intro C. unfold leaf_outcome, leaf_state. destruct (asserts l) eqn:A; [now apply gd_assert|].
    destruct (cache_find l (m_cache m)) as [p|] eqn:F; [now apply gd_cached|].
    rewrite gd_load by assumption. rewrite C. cbn [is_nil]. now destruct (fst (fst (load m l))).
  Qed.
  Lemma leaf_own m l : own m -> known l -> own (leaf_state m l).
  Proof.
    intros O K. unfold leaf_state. destruct (asserts l); [exact O|].
    destruct (cache_find l (m_cache m)) eqn:E; [exact O|now apply loaded_own].
  Qed.
  Lemma leaf_grown m l : grown m (leaf_state m l).
  Proof.
    unfold leaf_state. destruct (asserts l); [apply grown_refl|].
    destruct (cache_find l (m_cache m)); [apply grown_refl|apply loaded_grown].
  Qed.
  Lemma leaf_find m l p : leaf_outcome m l = Ret p -> cache_find l (m_cache (leaf_state m l)) = Some p.
  Proof.
    unfold leaf_outcome, leaf_state. destruct (asserts l); [discriminate|].
    destruct (cache_find l (m_cache m)) eqn:E; [congruence|].
    destruct (fst (fst (load m l))); try discriminate. intro H. injection H as <-. now apply loaded_find.
  Qed.

  (** any language *)
  Definition get_state (m : manager) (l : language) : outcome ptr * manager :=
    if is_nil (get_country l) then (leaf_outcome m l, leaf_state m l)
    else match cache_find l (m_cache m) with
         | Some p => (Ret p, m)
         | None =>
             match fst (fst (load m l)) with
             | Ret _ =>
                 match from_spec (cf_ndebug cf) (get_language l) [] [] with
                 | Ret b =>
                     let m2 := loaded m l in
                     match leaf_outcome m2 b with
                     | Ret q => (Ret (m_next m), put (leaf_state m2 b) (m_next m) (add_fallback (snd (fst (load m l))) (Some q)) [])
                     | Exn e => (Exn e, leaf_state m2 b) | Ub u => (Ub u, leaf_state m2 b)
                     | AssertFail => (AssertFail, leaf_state m2 b) | OutOfFuel => (OutOfFuel, leaf_state m2 b)
                     end
                 | _ => (AssertFail, m)
                 end
             | Exn e => (Exn e, loaded m l) | Ub u => (Ub u, loaded m l)
             | AssertFail => (AssertFail, loaded m l) | OutOfFuel => (OutOfFuel, loaded m l)
             end
         end.
  Lemma gd_eq l m : known l -> gd depth0 l m = get_state m l.
  Proof.
    intro K. unfold get_state, depth0. destruct (is_nil_spec _ (get_country l)) as [C|C]; [now apply gd_leaf|].
    assert (A : asserts l = false).
    { destruct l; [unfold asserts; cbn [is_none]; apply andb_false_r|]. exfalso. apply C. reflexivity. }
    destruct (cache_find l (m_cache m)) as [p|] eqn:F; [now apply gd_cached|].
    rewrite gd_load by assumption. destruct (base_of (cf_ndebug cf) l K C) as (b & B1 & B2 & B3 & B4). rewrite B1.
    destruct (fst (fst (load m l))) as [[]|e|u| |]; try reflexivity.
    destruct (is_nil_spec _ (get_country l)); [contradiction|].
    rewrite (gd_leaf 0 (Some b) (loaded m l) B3). cbv zeta.
    destruct (leaf_outcome (loaded m l) (Some b)) as [q|e|u| |]; try reflexivity.
    unfold mbind, set_fallback, mret.
    pose proof (leaf_grown (loaded m l) (Some b)) as G.
    rewrite (gr_heap _ _ G) by (cbn; lia). rewrite loaded_get. cbv beta iota.
    unfold put. f_equal. unfold upd_heap, upd_tr. cbn. now rewrite app_nil_r.
  Qed.

  Lemma get_inv m l : own m -> known l -> own (snd (get_state m l)) /\ grown m (snd (get_state m l)) /\
    forall p, fst (get_state m l) = Ret p -> cache_find l (m_cache (snd (get_state m l))) = Some p.
  Proof.
    intros O K. unfold get_state. destruct (is_nil_spec _ (get_country l)) as [C|C].
    { cbn [fst snd]. split; [now apply leaf_own|]. split; [apply leaf_grown|apply leaf_find]. }
    destruct (cache_find l (m_cache m)) as [p|] eqn:F.
    { cbn [fst snd]. split; [exact O|]. split; [apply grown_refl|congruence]. }
    destruct (base_of (cf_ndebug cf) l K C) as (b & B1 & B2 & B3 & B4). rewrite B1. cbv zeta.
    pose proof (loaded_own m l O K F) as O2. pose proof (loaded_grown m l) as G2. pose proof (loaded_find m l F) as F2.
    destruct (fst (fst (load m l))) as [[]|e|u| |] eqn:E; cbn [fst snd]; try (split; [exact O2|split; [exact G2|discriminate]]).
    pose proof (leaf_own (loaded m l) (Some b) O2 B2) as O3. pose proof (leaf_grown (loaded m l) (Some b)) as G3.
    pose proof (leaf_find (loaded m l) (Some b)) as L.
    destruct (leaf_outcome (loaded m l) (Some b)) as [q|e|u| |]; cbn [fst snd];
      try (split; [exact O3|split; [eapply grown_trans; eauto|discriminate]]).
    specialize (L q eq_refl).
    assert (I : In (l, m_next m) (m_cache (leaf_state (loaded m l) (Some b)))).
    { apply cache_find_In; auto; [apply (own_known _ _ O3)|]. eapply grown_find; eauto. }
    assert (Hg : heap_get (m_heap (leaf_state (loaded m l) (Some b))) (m_next m) = Some (snd (fst (load m l)))).
    { rewrite (gr_heap _ _ G3) by (cbn; lia). apply loaded_get. }
    split; [eapply own_fallback; eauto|]. split.
    - apply grown_put; [eapply grown_trans; eauto|lia].
    - intros p H. injection H as <-. cbn. eapply grown_find; eauto.
  Qed.
End Get.
