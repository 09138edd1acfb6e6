(** Properties C74, C75 and C76: programs that change the dictionaries they get from a
    DictionaryManager (add_translation, set_plural_forms, addFallback, POParser::parse). *)
From Coq Require Import Permutation Lia.
From Verif.Model Require Import Base Log PluralForms Dictionary IConv Language Stream PoParser Manager Client.
From Verif.Spec Require Import DictSpec LangSpec IConvSpec ParserSpec ManagerSpec ClientSpec.
From Verif.Proofs Require Import BaseFacts DictProofs LangProofs ParserSafe ParserFuel ParserMisc
  ManagerLoad ManagerOwn ManagerGet ManagerStep ManagerFull ManagerContent ManagerProps ManagerSafe ClientProofs.
From Verif.Properties Require Import Parser Manager ManagerLife.
Local Open Scope list_scope.

Lemma client_own cf cs ops : sound cf (new_manager cs) ops ->
  own (cf_ndebug cf) (mrun cf (calls_of ops) (new_manager cs)) /\ NoDup (m_path (mrun cf (calls_of ops) (new_manager cs))).
Proof. intro S. apply life. eapply sound_valid; exact S. Qed.

Lemma client_step cf cs ops fs op : sound cf (new_manager cs) ops ->
  let m0 := mrun cf (calls_of ops) (new_manager cs) in
  mstep cf fs op (crun cf ops (new_manager cs)) = (fst (mstep cf fs op m0), patched cf ops (snd (mstep cf fs op m0))).
Proof.
  intros S m0. destruct (crun_patched cf cs ops S) as [E N]. fold m0 in E, N. rewrite E.
  assert (C : com (fun p => changed cf (changes_to (RefHeap p) ops)) (changed cf (changes_to RefEmpty ops)) (mstep cf fs op) m0).
  { apply (comm_step cf _ _ (m_next m0)); [|lia]. intros p d Hp. now rewrite N by exact Hp. }
  exact (proj1 C).
Qed.

(** C74. Let a program make any calls on a manager and, in between, any changes to the
    dictionaries it got (never through a dangling reference). Then no call on the manager
    notices the changes: outcome and log are those of the same session without changes ... *)
Theorem C74_manager_does_not_notice :
  forall (cf : config) (cs : bytes) (ops : list (file_system * cop)) (fs : file_system) (op : mop),
  sound cf (new_manager cs) ops ->
  let m := crun cf ops (new_manager cs) in
  let m0 := mrun cf (calls_of ops) (new_manager cs) in
  fst (mstep cf fs op m) = fst (mstep cf fs op m0) /\ m_tr (snd (mstep cf fs op m)) = m_tr (snd (mstep cf fs op m0)).
Proof. intros cf cs ops fs op S m m0. unfold m. rewrite (client_step cf cs ops fs op S). split; reflexivity. Qed.

(** ... and no dictionary is touched by the manager after it has been loaded: every
    reference denotes what it would denote in the session without changes, with the changes
    made through it applied in order. *)
Theorem C74_changes_add_up :
  forall (cf : config) (cs : bytes) (ops : list (file_system * cop)) (r : dict_ref),
  sound cf (new_manager cs) ops ->
  let m := crun cf ops (new_manager cs) in
  let m0 := mrun cf (calls_of ops) (new_manager cs) in
  deref m r = option_map (changed cf (changes_to r ops)) (deref m0 r).
Proof. intros cf cs ops r S m m0. unfold m. rewrite (proj1 (crun_patched cf cs ops S)). apply patched_deref. Qed.

(** The change itself ends and logs as it would on a dictionary of the program's own with the
    same contents; the manager's log gets nothing, and the other dictionaries stay. *)
Theorem C74_change_is_the_call :
  forall (cf : config) (fs : file_system) (m : manager) (r : dict_ref) (c : change) (d : dictionary),
  deref m r = Some d ->
  let m' := snd (cstep cf fs (Change r c) m) in
  fst (cstep cf fs (Change r c) m) = omap (fun _ => (None, change_log cf c d)) (change_outcome cf c d) /\
  deref m' r = Some (changed_by cf c d) /\ m_tr m' = m_tr m /\
  forall r', same_ref r r' = false -> deref m' r' = deref m r'.
Proof.
  intros cf fs m r c d D. cbn [cstep]. rewrite D, do_change_eq. cbn [fst snd]. split; [reflexivity|].
  destruct r as [|p]; cbn [store].
  - split; [reflexivity|]. split; [reflexivity|]. intros [|q] H; [discriminate H|reflexivity].
  - cbn [deref upd_heap m_heap m_tr]. cbn [deref] in D. split; [|split; [reflexivity|]].
    + apply heap_get_set_same.
    + intros [|q] H; [reflexivity|]. cbn [same_ref] in H. cbn [deref]. apply heap_get_set_other. intros ->. rewrite Nat.eqb_refl in H. discriminate H.
Qed.

(** A change through a reference that dangles is undefined. *)
Theorem C74_change_through_a_dangling_reference :
  forall (cf : config) (fs : file_system) (m : manager) (r : dict_ref) (c : change),
  deref m r = None -> exists u, fst (cstep cf fs (Change r c) m) = Ub u.
Proof. intros cf fs m r c D. cbn [cstep]. rewrite D. now exists UbPointer. Qed.

(** what a call that keeps the cache leaves *)
Lemma keep_step cf fs op m : own (cf_ndebug cf) m -> client_op op -> keeps_cache (m_path m) op = true ->
  let m' := snd (mstep cf fs op m) in
  (exists c, m_cache m' = m_cache m ++ c) /\ m_path m' = m_path m /\ m_next m <= m_next m' /\
  (forall p, p < m_next m -> heap_get (m_heap m') p = heap_get (m_heap m) p).
Proof.
  intros O C KC m'.
  assert (Id : forall m1 : manager, m_cache m1 = m_cache m -> m_path m1 = m_path m -> m_next m1 = m_next m -> m_heap m1 = m_heap m ->
    (exists c, m_cache m1 = m_cache m ++ c) /\ m_path m1 = m_path m /\ m_next m <= m_next m1 /\
    (forall p, p < m_next m -> heap_get (m_heap m1) p = heap_get (m_heap m) p)).
  { intros m1 E1 E2 E3 E4. rewrite E1, E2, E3, E4. split; [exists []; now rewrite app_nil_r|]. split; [reflexivity|]. split; [lia|reflexivity]. }
  assert (Gr : forall m1 m2 : manager, grown m m1 -> m_cache m2 = m_cache m1 -> m_path m2 = m_path m1 -> m_next m2 = m_next m1 -> m_heap m2 = m_heap m1 ->
    (exists c, m_cache m2 = m_cache m ++ c) /\ m_path m2 = m_path m /\ m_next m <= m_next m2 /\
    (forall p, p < m_next m -> heap_get (m_heap m2) p = heap_get (m_heap m) p)).
  { intros m1 m2 G E1 E2 E3 E4. rewrite E1, E2, E3, E4. split; [exact (gr_cache _ _ G)|]. split; [exact (gr_path _ _ G)|]. split; [exact (gr_next _ _ G)|exact (gr_heap _ _ G)]. }
  subst m'. destruct op as [l|c|b|q f|q| |l| | |]; cbn [client_op keeps_cache] in *; try discriminate KC.
  - rewrite do_set_language. cbn [snd]. destruct (lang_eqb _ _); apply Id; reflexivity.
  - destruct (in_dec _ q (m_path m)) as [I|]; [|discriminate]. rewrite do_add_present by exact I. apply Id; reflexivity.
  - destruct (in_dec _ q (m_path m)) as [|I]; [discriminate|]. rewrite do_remove_absent by exact I. apply Id; reflexivity.
  - rewrite (do_get cf fs m (own_lang _ _ O)). destruct (m_cur m); [apply Id; reflexivity|]. destruct (is_none (m_lang m)); [apply Id; reflexivity|].
    destruct (get_inv cf fs m (m_lang m) O (own_lang _ _ O)) as (_ & G & _).
    destruct (get_state cf fs m (m_lang m)) as [[] m1]; cbn [fst snd] in *; (apply (Gr m1); [exact G|reflexivity..]).
  - rewrite (do_get_lang cf fs l m C). cbn [snd]. destruct (get_inv cf fs m l O C) as (_ & G & _). apply (Gr _ _ G); reflexivity.
  - rewrite do_get_languages. apply Id; reflexivity.
  - apply Id; reflexivity.
  - apply Id; reflexivity.
Qed.
Lemma clear_step cf fs op m : own (cf_ndebug cf) m -> client_op op -> keeps_cache (m_path m) op = false ->
  let m' := snd (mstep cf fs op m) in m_heap m' = [] /\ m_cache m' = [] /\ m_next m' = m_next m.
Proof.
  intros O C KC m'. subst m'. destruct op as [l|c|b|q f|q| |l| | |]; cbn [client_op keeps_cache] in *; try discriminate KC.
  - destruct (do_set_charset cf fs c m O) as (m1 & Cl & _ & ->). destruct Cl as (H1 & _ & H2 & H3 & _). auto.
  - destruct (do_set_use_fuzzy cf fs b m O) as (m1 & Cl & _ & ->). destruct Cl as (H1 & _ & H2 & H3 & _). auto.
  - destruct (in_dec _ q (m_path m)) as [|I]; [discriminate|]. destruct (do_add_directory cf fs q f m O I) as (m1 & Cl & _ & ->). destruct Cl as (H1 & _ & H2 & H3 & _). auto.
  - destruct (in_dec _ q (m_path m)) as [I|]; [|discriminate]. destruct (do_remove_directory cf fs q m O I) as (m1 & Cl & _ & ->). destruct Cl as (H1 & _ & H2 & H3 & _). auto.
Qed.

(** all manager calls of a session keep the cache *)
Definition keeping (path : list bytes) (ops : list (file_system * cop)) : Prop :=
  Forall (fun o => match snd o with CallManager op => keeps_cache path op = true | Change _ _ => True end) ops.

Lemma keep_run cf ops : forall m, own (cf_ndebug cf) m -> NoDup (m_path m) -> valid ops -> Forall (fun o => keeps_cache (m_path m) (snd o) = true) ops ->
  let m' := mrun cf ops m in
  own (cf_ndebug cf) m' /\ (exists c, m_cache m' = m_cache m ++ c) /\
  (forall p, p < m_next m -> heap_get (m_heap m') p = heap_get (m_heap m) p) /\ m_next m <= m_next m'.
Proof.
  induction ops as [|[fs op] ops IH]; intros m O ND V K.
  - cbn. split; [exact O|]. split; [exists []; now rewrite app_nil_r|]. split; [reflexivity|lia].
  - inversion V as [|? ? V1 V2]. inversion K as [|? ? K1 K2]. subst. cbn [snd] in *. destruct (keep_step cf fs op m O V1 K1) as ((c1 & E1) & P & L & H).
    pose proof (step_own cf fs op m O V1) as O1. set (m1 := snd (mstep cf fs op m)) in *. destruct (IH m1 O1) as (O2 & (c2 & E2) & H2 & L2); [now rewrite P|exact V2|now rewrite P|].
    change (mrun cf ((fs, op) :: ops) m) with (mrun cf ops m1). split; [exact O2|]. split; [exists (c1 ++ c2); now rewrite E2, E1, app_assoc|].
    split; [intros p Hp; rewrite H2 by lia; now apply H|lia].
Qed.

(** C75. Until the cache is cleared (set_charset, set_use_fuzzy, add_directory of a new
    directory, remove_directory of a present one), get_dictionary(l) keeps returning the same
    dictionary, with the changes made to it meanwhile, and logs nothing ... *)
Theorem C75_changes_last :
  forall (cf : config) (cs : bytes) (ops ops2 : list (file_system * cop)) (fs fs2 : file_system) (l : language) (p : ptr) (m1 : manager) (d : dictionary),
  sound cf (new_manager cs) (ops ++ (fs, CallManager (OpGetDictionaryLang l)) :: ops2) ->
  mstep cf fs (OpGetDictionaryLang l) (crun cf ops (new_manager cs)) = (Ret (OutRef (RefHeap p)), m1) ->
  deref m1 (RefHeap p) = Some d ->
  keeping (path_after [] (List.map snd (calls_of ops))) ops2 ->
  let m2 := crun cf ops2 m1 in
  mstep cf fs2 (OpGetDictionaryLang l) m2 = (Ret (OutRef (RefHeap p)), m2) /\
  deref m2 (RefHeap p) = Some (changed cf (changes_to (RefHeap p) ops2) d).
Proof.
  intros cf cs ops ops2 fs fs2 l p m1 d S E D K m2. set (g := (fs, CallManager (OpGetDictionaryLang l))) in *.
  change (g :: ops2) with ([g] ++ ops2) in S. rewrite app_assoc in S. pose proof (proj1 (proj1 (sound_app cf _ _ _) S)) as Sg. pose proof (proj1 (proj1 (sound_app cf _ _ _) Sg)) as S0.
  assert (Kl : known l) by (apply sound_app in Sg as [_ Sg]; exact (proj1 Sg)).
  destruct (crun_patched cf cs _ S) as [P2 _]. destruct (crun_patched cf cs _ Sg) as [P1 N1].
  assert (M1 : crun cf (ops ++ [g]) (new_manager cs) = m1).
  { rewrite crun_app. unfold crun at 1. cbn [fold_left g fst snd cstep]. now rewrite E. }
  assert (M2 : crun cf ((ops ++ [g]) ++ ops2) (new_manager cs) = m2) by (rewrite crun_app, M1; reflexivity).
  rewrite calls_app in P2. rewrite mrun_app in P2. set (m01 := mrun cf (calls_of (ops ++ [g])) (new_manager cs)) in *.
  destruct (client_own cf cs _ Sg) as [O1 ND1]. fold m01 in O1, ND1.
  assert (V : valid (calls_of ops2)) by (apply sound_app in S as [_ S]; eapply sound_valid; exact S).
  set (m0 := mrun cf (calls_of ops) (new_manager cs)) in *. destruct (client_own cf cs _ S0) as [O0 ND0]. fold m0 in O0, ND0.
  pose proof (sound_valid cf _ _ S0) as V0. destruct (run_inv cf _ (new_manager cs) V0 (own_new cf cs) (NoDup_nil _)) as (_ & _ & Pth & _). fold m0 in Pth. cbn [new_manager m_path] in Pth.
  assert (E01 : mstep cf fs (OpGetDictionaryLang l) m0 = (Ret (OutRef (RefHeap p)), m01)).
  { pose proof (client_step cf cs ops fs (OpGetDictionaryLang l) S0) as CS. cbv zeta in CS. rewrite E in CS. fold m0 in CS.
    unfold m01. rewrite calls_app, mrun_app. fold m0. change (mrun cf (calls_of [g]) m0) with (snd (mstep cf fs (OpGetDictionaryLang l) m0)).
    destruct (mstep cf fs (OpGetDictionaryLang l) m0) as [o x]. cbn [fst snd] in *. injection CS as <- _. reflexivity. }
  rewrite (do_get_lang cf fs l m0 Kl) in E01. destruct (get_inv cf fs m0 l O0 Kl) as (_ & G & Fd). destruct (get_state cf fs m0 l) as [o x] eqn:GS. cbn [fst snd] in *.
  destruct o as [p'|e|u| |]; cbn [omap] in E01; try discriminate E01. injection E01 as -> ->. specialize (Fd p eq_refl).
  assert (KK : Forall (fun o => keeps_cache (m_path m01) (snd o) = true) (calls_of ops2)).
  { rewrite (gr_path _ _ G), Pth. clear -K. unfold keeping in K. induction ops2 as [|[f2 [o|r c]] ops2 IH]; cbn [calls_of]; inversion K; subst; auto. }
  destruct (keep_run cf (calls_of ops2) m01 O1 ND1 V KK) as (O2 & (c & Ca) & Hp & L2). set (m02 := mrun cf (calls_of ops2) m01) in *.
  assert (F2 : cache_find l (m_cache m02) = Some p) by (rewrite Ca; now apply cache_find_app_some).
  assert (As : asserts cf l = false).
  { unfold asserts. destruct (negb (cf_ndebug cf) && is_none l) eqn:A; [|reflexivity]. exfalso.
    cbn [mstep] in E. unfold mmap, mbind, depth0 in E. rewrite (gd_assert cf fs 1 l _ A) in E. discriminate E. }
  split.
  - rewrite <- M2, P2. cbn [mstep]. unfold mmap, mbind, depth0, mret. rewrite (gd_cached cf fs2 1 l (patched cf ((ops ++ [g]) ++ ops2) m02) p As F2). reflexivity.
  - rewrite <- M2, P2. rewrite patched_deref, changes_app. rewrite <- M1, P1, patched_deref in D. fold m01 in D.
    assert (Lt : p < m_next m01). { apply (own_lt cf m01 p O1). destruct (own_found cf m01 l p O1 Fd) as [x X]. apply (own_live cf m01 p O1). now rewrite X. }
    cbn [deref] in *. rewrite (Hp p Lt). destruct (heap_get (m_heap m01) p) as [x|]; cbn [option_map] in *; [|discriminate D]. injection D as <-. now rewrite changed_app.
Qed.

(** ... and when it is cleared they are gone: the next get_dictionary(l) behaves as that of a
    new manager with the same charset and search path, on the files as they are then. *)
Theorem C75_changes_are_lost :
  forall (cf : config) (cs : bytes) (ops : list (file_system * cop)) (fs fs2 : file_system) (op : mop) (l : language) (m2 : manager) (d : dictionary),
  sound cf (new_manager cs) (ops ++ [(fs, CallManager op)]) -> known l ->
  keeps_cache (path_after [] (List.map snd (calls_of ops))) op = false ->
  let ops' := List.map snd (calls_of ops) ++ [op] in
  let m1 := crun cf (ops ++ [(fs, CallManager op)]) (new_manager cs) in
  returns cf fs2 m1 l m2 d ->
  exists new d', returns cf fs2 (fresh cf fs2 (charset_after cs ops') (path_after [] ops')) l new d' /\
    indistinguishable (m_heap m2) d (m_heap new) d'.
Proof.
  intros cf cs ops fs fs2 op l m2 d S K KC ops' m1 R. set (g := (fs, CallManager op)) in *. pose proof (proj1 (proj1 (sound_app cf _ _ _) S)) as S0.
  assert (C : client_op op) by (apply sound_app in S as [_ Sg]; exact (proj1 Sg)).
  destruct (client_own cf cs _ S0) as [O0 ND0]. destruct (client_own cf cs _ S) as [O1 ND1].
  pose proof (sound_valid cf _ _ S) as V1. pose proof (sound_valid cf _ _ S0) as V0.
  destruct (run_inv cf _ (new_manager cs) V0 (own_new cf cs) (NoDup_nil _)) as (_ & _ & P0 & _). cbn [new_manager m_path] in P0.
  destruct (run_inv cf _ (new_manager cs) V1 (own_new cf cs) (NoDup_nil _)) as (_ & _ & P1 & C1 & _). cbn [new_manager m_path m_charset] in P1, C1.
  assert (Xo : List.map snd (calls_of (ops ++ [g])) = ops') by (rewrite calls_app, map_app; reflexivity). rewrite Xo in P1, C1.
  set (m0 := mrun cf (calls_of ops) (new_manager cs)) in *. set (m01 := mrun cf (calls_of (ops ++ [g])) (new_manager cs)) in *.
  assert (E1 : m01 = snd (mstep cf fs op m0)) by (unfold m01; rewrite calls_app, mrun_app; reflexivity).
  rewrite <- P0 in KC. destruct (clear_step cf fs op m0 O0 C KC) as (H1 & H2 & H3). rewrite <- E1 in H1, H2, H3.
  destruct R as (p & R & D). pose proof (client_step cf cs _ fs2 (OpGetDictionaryLang l) S) as CS. cbv zeta in CS. fold m1 m01 in CS. rewrite R in CS.
  assert (R0 : returns cf fs2 m01 l (snd (mstep cf fs2 (OpGetDictionaryLang l) m01)) d /\ m_heap m2 = m_heap (snd (mstep cf fs2 (OpGetDictionaryLang l) m01))).
  { destruct (mstep cf fs2 (OpGetDictionaryLang l) m01) as [o m3] eqn:St. cbn [fst snd] in *. injection CS as Ho Hm. subst o m2.
    assert (Hh : patch_heap (fun p => changed cf (changes_to (RefHeap p) (ops ++ [g]))) (m_heap m3) = m_heap m3).
    { destruct (crun_patched cf cs _ S) as [_ N]. fold m01 in N. pose proof (get_inv cf fs2 m01 l O1 K) as (O3 & G & _). rewrite (do_get_lang cf fs2 l m01 K) in St.
      injection St as _ St. rewrite St in O3, G. rewrite <- (map_id (m_heap m3)) at 2. apply map_ext_in. intros [q e] Hq. cbn [fst snd]. rewrite N; [reflexivity|].
      destruct (le_lt_dec (m_next m01) q) as [L|L]; [exact L|]. exfalso. pose proof (gr_heap _ _ G q L) as X. rewrite H1 in X. cbn in X.
      assert (Y : heap_get (m_heap m3) q <> None) by (apply heap_get_keys; apply in_map_iff; exists (q, e); auto). contradiction. }
    split; [exists p; split; [exact St|]|exact Hh]. cbn [patched patch m_heap] in D. now rewrite Hh in D. }
  destruct R0 as [R0 Hh]. rewrite Hh.
  assert (ND : NoDup (path_after [] ops')) by (rewrite <- P1; exact ND1). destruct (fresh_state cf fs2 (charset_after cs ops') _ ND) as (Of & Cf & Pf & Sf & _).
  apply (same_settings cf fs2 m01 _ l _ d K O1 Of); [now apply full_none|now apply full_none|congruence|congruence|exact R0].
Qed.

Lemma calls_fallback l : forall d, d_has_fallback (fold_left apply_call l d) = d_has_fallback d /\ d_fallback (fold_left apply_call l d) = d_fallback d.
Proof.
  induction l as [|c l IH]; intro d; [auto|]. cbn [fold_left]. destruct (IH (apply_call d c)) as (-> & ->).
  destruct c as [op|p]; cbn [apply_call].
  - destruct op as [[?|] ? ?|[?|] ? ? ?]; simpl; unfold add_ctxt_singular, add_singular, add_ctxt_plural, add_plural;
      try destruct (put_singular _ _); try destruct (put_plural _ _); auto.
  - destruct (pf_valid _); auto.
Qed.
Lemma change_fallback cf c d : let d' := changed_by cf c d in
  match c with
  | ChFallback q => d_has_fallback d' = true /\ d_fallback d' = q
  | _ => d_has_fallback d' = d_has_fallback d /\ d_fallback d' = d_fallback d
  end.
Proof.
  destruct c as [op|p|q|f|f|fn i]; cbn [changed_by].
  - exact (calls_fallback [CallAdd op] d).
  - auto.
  - auto.
  - auto.
  - auto.
  - unfold po_parse. pose proof (member_effects cf fn true i d) as [E _]. destruct (parse_member cf fn true (init_state cf i d)) as [o s].
    cbn [pr_dict snd] in *. rewrite E. apply calls_fallback.
Qed.

(** C76. The dictionary get_dictionary() returns while no language is set is one member of
    the manager, and no call ever resets it: it holds every change made to it since the
    manager was created. *)
Theorem C76_empty_dictionary_is_never_reset :
  forall (cf : config) (cs : bytes) (ops : list (file_system * cop)),
  sound cf (new_manager cs) ops ->
  deref (crun cf ops (new_manager cs)) RefEmpty = Some (changed cf (changes_to RefEmpty ops) (new_dictionary (bs "UTF-8"))).
Proof.
  intros cf cs ops S. pose proof (C74_changes_add_up cf cs ops RefEmpty S) as E. cbv zeta in E. rewrite E. cbn [deref option_map].
  destruct (client_own cf cs ops S) as [O _]. now rewrite (own_empty _ _ O).
Qed.

(** The fallback of a cached dictionary is never dangling, whatever addFallback has been
    told (as long as its arguments were not dangling then) ... *)
Definition fb_live (m : manager) : Prop := forall p d q,
  heap_get (m_heap m) p = Some d -> d_has_fallback d = true -> d_fallback d = Some q -> heap_get (m_heap m) q <> None.

Theorem C76_cached_dictionaries_never_dangle :
  forall (cf : config) (cs : bytes) (ops : list (file_system * cop)) (p : ptr) (d : dictionary) (q : ptr),
  sound cf (new_manager cs) ops ->
  let m := crun cf ops (new_manager cs) in
  deref m (RefHeap p) = Some d -> d_has_fallback d = true -> d_fallback d = Some q -> deref m (RefHeap q) <> None.
Proof.
  intros cf cs ops p d q S m. revert p d q. change (fb_live m). subst m.
  induction ops as [|[fs op] ops IH] using rev_ind; [intros p d q H; discriminate H|].
  pose proof S as S'. apply sound_app in S as [S1 S2]. specialize (IH S1). destruct (crun_patched cf cs _ S1) as [E N]. destruct (crun_patched cf cs _ S') as [E' N'].
  destruct (client_own cf cs _ S1) as [O ND]. destruct (client_own cf cs _ S') as [O' ND'].
  set (m0 := mrun cf (calls_of ops) (new_manager cs)) in *. destruct op as [op|r c].
  - assert (M : mrun cf (calls_of (ops ++ [(fs, CallManager op)])) (new_manager cs) = snd (mstep cf fs op m0)) by (rewrite calls_app, mrun_app; reflexivity). rewrite M in E', N', O', ND'.
    destruct S2 as [C _]. rewrite E'. rewrite E in IH. intros p d q H1 H2 H3. change (deref (patched cf (ops ++ [(fs, CallManager op)]) (snd (mstep cf fs op m0))) (RefHeap q) <> None).
    change (deref (patched cf (ops ++ [(fs, CallManager op)]) (snd (mstep cf fs op m0))) (RefHeap p) = Some d) in H1. rewrite patched_deref in *.
    assert (X : forall r, changes_to r (ops ++ [(fs, CallManager op)]) = changes_to r ops) by (intro r; rewrite changes_app; apply app_nil_r). rewrite X in *.
    destruct (keeps_cache (m_path m0) op) eqn:KC.
    + destruct (keep_step cf fs op m0 O C KC) as (_ & _ & L & Hh). cbn [deref] in *.
      destruct (le_lt_dec (m_next m0) p) as [Lp|Lp].
      * rewrite (N p Lp) in H1. destruct (heap_get (m_heap (snd (mstep cf fs op m0))) p) as [x|] eqn:Hx; cbn [option_map changed fold_left] in H1; [|discriminate H1]. injection H1 as ->.
        pose proof (C47_ownership cf cs (calls_of (ops ++ [(fs, CallManager op)])) (sound_valid _ _ _ S')) as (_ & _ & F). rewrite M in F.
        destruct (F p d Hx H2) as (q' & Q1 & Q2). rewrite H3 in Q1. injection Q1 as <-.
        destruct (heap_get (m_heap (snd (mstep cf fs op m0))) q); [discriminate|contradiction].
      * rewrite (Hh p Lp) in H1. assert (H1' : heap_get (m_heap (patched cf ops m0)) p = Some d) by (cbn [patched patch m_heap]; rewrite patch_get; exact H1).
        pose proof (IH p d q H1' H2 H3) as Y. cbn [patched patch m_heap] in Y. rewrite patch_get in Y.
        assert (Y2 : heap_get (m_heap m0) q <> None) by (destruct (heap_get (m_heap m0) q); [discriminate|contradiction]).
        assert (Lq : q < m_next m0) by (apply (own_lt cf m0 q O); apply (own_live cf m0 q O); exact Y2). rewrite (Hh q Lq). exact Y.
    + destruct (clear_step cf fs op m0 O C KC) as (H & _). cbn [deref] in H1. rewrite H in H1. discriminate H1.
  - destruct S2 as [[D F] _]. unfold crun. rewrite fold_left_app. fold (crun cf ops (new_manager cs)). cbn [fold_left fst snd cstep]. set (m := crun cf ops (new_manager cs)) in *. clearbody m.
    destruct (deref m r) as [d0|] eqn:Dr; [|contradiction]. pose proof (change_fallback cf c d0) as CF. rewrite do_change_eq in *. set (d' := changed_by cf c d0) in *. cbn [fst snd] in *.
    destruct r as [|p0]; [exact IH|]. cbn [store deref] in *. intros p d q. cbn [upd_heap m_heap].
    assert (K : forall x, heap_get (m_heap m) x <> None -> heap_get (heap_set (m_heap m) p0 d') x <> None).
    { intros x Hx. destruct (Nat.eq_dec p0 x) as [->|Nx]; [rewrite heap_get_set_same; discriminate|now rewrite heap_get_set_other]. }
    destruct (Nat.eq_dec p0 p) as [->|Np].
    + rewrite heap_get_set_same. intros X; injection X as ->. intros H2 H3. apply K. destruct c as [op|pf|q0|f|f|fn i]; destruct CF as [C1 C2].
      * rewrite C1 in H2. rewrite C2 in H3. exact (IH p d0 q Dr H2 H3).
      * rewrite C1 in H2. rewrite C2 in H3. exact (IH p d0 q Dr H2 H3).
      * rewrite C2 in H3. rewrite H3 in F. exact F.
      * rewrite C1 in H2. rewrite C2 in H3. exact (IH p d0 q Dr H2 H3).
      * rewrite C1 in H2. rewrite C2 in H3. exact (IH p d0 q Dr H2 H3).
      * rewrite C1 in H2. rewrite C2 in H3. exact (IH p d0 q Dr H2 H3).
    + rewrite heap_get_set_other by exact Np. intros H1 H2 H3. apply K. exact (IH p d q H1 H2 H3).
Qed.

(** ... but that of the empty dictionary may be: if a program makes a cached dictionary its
    fallback, then after any call that clears the cache every lookup of a message it does not
    hold itself is undefined behaviour. *)
Theorem C76_fallback_of_the_empty_dictionary_dangles :
  forall (cf : config) (cs : bytes) (ops : list (file_system * cop)) (fs : file_system) (q : ptr) (op : mop) (n : nat) (msgid : bytes),
  let ops' := ops ++ [(fs, Change RefEmpty (ChFallback (Some q))); (fs, CallManager op)] in
  sound cf (new_manager cs) ops' ->
  keeps_cache (path_after [] (List.map snd (calls_of ops))) op = false ->
  let m := crun cf ops' (new_manager cs) in
  forall d, deref m RefEmpty = Some d -> lookup d (None, msgid) = None ->
  fst (translate (S n) (m_heap m) d msgid) = Ub UbPointer.
Proof.
  intros cf cs ops fs q op n id ops' S KC m d D L. pose proof (C76_empty_dictionary_is_never_reset cf cs ops' S) as E. fold m in E. rewrite D in E. injection E as E.
  unfold ops' in E. rewrite changes_app in E. cbn [changes_to same_ref] in E. rewrite changed_app in E. cbn [changed changed_by] in E.
  assert (Hh : m_heap m = []).
  { unfold m. rewrite (proj1 (crun_patched cf cs _ S)). cbn [patched patch m_heap]. unfold ops' at 2. rewrite calls_app. cbn [calls_of]. rewrite mrun_app.
    pose proof (proj1 (proj1 (sound_app cf _ _ _) S)) as S0. destruct (client_own cf cs _ S0) as [O _]. pose proof (sound_valid _ _ _ S0) as V0.
    destruct (run_inv cf _ (new_manager cs) V0 (own_new cf cs) (NoDup_nil _)) as (_ & _ & P0 & _). cbn [new_manager m_path] in P0. rewrite <- P0 in KC.
    assert (C : client_op op) by (apply sound_app in S as [_ Sg]; exact (proj1 (proj2 Sg))).
    change (mrun cf [(fs, op)] (mrun cf (calls_of ops) (new_manager cs))) with (snd (mstep cf fs op (mrun cf (calls_of ops) (new_manager cs)))).
    destruct (clear_step cf fs op _ O C KC) as (H & _). now rewrite H. }
  rewrite Hh. unfold translate. cbn [translate_in]. change (assoc id (d_entries d) = None) in L. rewrite L. subst d. reflexivity.
Qed.

(** Without addFallback every translation through any dictionary of the manager ends and is
    safe, whatever else the program does to the dictionaries. *)
Theorem C76_safe_without_addFallback :
  forall (cf : config) (cs : bytes) (ops : list (file_system * cop)) (r : dict_ref) (d : dictionary) (n : nat) (msgctxt msgid : bytes),
  sound cf (new_manager cs) ops -> Forall (fun o => forall r' q, snd o <> Change r' (ChFallback q)) ops ->
  let m := crun cf ops (new_manager cs) in
  deref m r = Some d ->
  (exists t, fst (translate (S (S n)) (m_heap m) d msgid) = Ret t) /\
  (exists t, fst (translate_ctxt (S (S n)) (m_heap m) d msgctxt msgid) = Ret t).
Proof.
  intros cf cs ops r d n c id S NF m D.
  assert (F : forall r x, d_has_fallback (changed cf (changes_to r ops) x) = d_has_fallback x /\ d_fallback (changed cf (changes_to r ops) x) = d_fallback x).
  { intro r'. clear S m D. induction ops as [|[fs [op|r2 ch]] ops IH]; intro x; inversion NF as [|? ? N1 N2]; subst; cbn [changes_to]; [auto|now apply IH|].
    destruct (same_ref r' r2); [|now apply IH]. change (changed cf (ch :: changes_to r' ops) x) with (changed cf (changes_to r' ops) (changed_by cf ch x)).
    destruct (IH N2 (changed_by cf ch x)) as (-> & ->). pose proof (change_fallback cf ch x) as CF.
    destruct ch as [a|pf|q|f|f|fn i]; [exact CF|exact CF| |exact CF|exact CF|exact CF]. exfalso. now apply (N1 r2 q). }
  pose proof (C74_changes_add_up cf cs ops) as E. fold m in E. cbv zeta in E. destruct (client_own cf cs ops S) as [O _]. set (m0 := mrun cf (calls_of ops) (new_manager cs)) in *.
  assert (FB : d_has_fallback d = true -> exists q e, d_fallback d = Some q /\ heap_get (m_heap m) q = Some e /\ d_has_fallback e = false).
  { intro B. rewrite (E r S) in D. destruct r as [|p].
    - cbn [deref option_map] in D. injection D as <-. rewrite (proj1 (F RefEmpty _)), (own_empty _ _ O) in B. discriminate B.
    - cbn [deref] in D. destruct (heap_get (m_heap m0) p) as [x|] eqn:H; cbn [option_map] in D; [|discriminate D]. injection D as <-. rewrite (proj1 (F _ x)) in B. rewrite (proj2 (F _ x)).
      assert (L : In p (List.map snd (m_cache m0))) by (apply (own_live cf m0 p O); now rewrite H).
      apply in_map_iff in L as ((l & p') & Ep & Ip). cbn in Ep. subst p'.
      destruct (own_fb _ _ O l p x Ip H B) as (Co & b & q & Fs & Fq & Eq). destruct (own_found cf m0 _ q O Fq) as [e Ee]. exists q, (changed cf (changes_to (RefHeap q) ops) e).
      split; [exact Eq|]. split; [change (deref m (RefHeap q) = Some (changed cf (changes_to (RefHeap q) ops) e)); rewrite (E (RefHeap q) S); cbn [deref]; now rewrite Ee|].
      rewrite (proj1 (F _ e)).
      assert (Kl : known l) by (pose proof (own_known _ _ O) as KK; unfold keys_known in KK; rewrite Forall_forall in KK; exact (KK _ Ip)).
      destruct (base_of (cf_ndebug cf) l Kl Co) as (b' & Fs' & Ib & Cb & _). rewrite Fs in Fs'. injection Fs' as ->.
      destruct (d_has_fallback e) eqn:Be; [|reflexivity].
      pose proof (cache_find_In (Some b') _ q Ib (own_known _ _ O) Fq) as Iq.
      destruct (own_fb _ _ O _ _ _ Iq Ee Be) as (X & _). contradiction. }
  assert (T : forall es, exists t, fst (translate_in (Datatypes.S (Datatypes.S n)) (m_heap m) d es id) = Ret t).
  { intro es. cbn [translate_in]. destruct (d_has_fallback d).
    - destruct (FB eq_refl) as (q & e & -> & Ee & NB). rewrite Ee, NB.
      destruct (assoc id es) as [[|v r']|]; [|eexists; reflexivity|]; destruct (assoc id (d_entries e)) as [[|v' r']|]; eexists; reflexivity.
    - destruct (assoc id es) as [[|v r']|]; eexists; reflexivity. }
  split; [apply T|]. unfold translate_ctxt. destruct (assoc c (d_ctxt d)); [apply T|eexists; reflexivity].
Qed.

(** A program that loads de_AT (and with it de), adds to both, reads another file into de,
    redirects the fallback of de_AT, and asks again. *)
Definition ex_session : list (file_system * cop) :=
  List.map (fun o => (ex_fs, o))
    [CallManager (OpAddDirectory (bs "lo") false); CallManager (OpGetDictionaryLang de_AT);
     Change (RefHeap 0) (ChAdd (AddSingular None (bs "x") (bs "XX")));
     Change (RefHeap 1) (ChParse (bs "my.po") (stream_of hi_de));
     CallManager (OpSetLanguage de_AT); CallManager OpGetDictionary;
     Change (RefHeap 0) (ChFallback (Some 1));
     Change RefEmpty (ChAdd (AddSingular None (bs "y") (bs "YY")))].
Lemma ex_session_sound : sound ex_run (new_manager utf8) ex_session.
Proof.
  assert (K : known de_AT) by exact de_AT_known. unfold ex_session. cbn [List.map sound]. unfold sound_change.
  repeat match goal with |- _ /\ _ => split end; try exact Logic.I; try exact K; vm_compute; discriminate.
Qed.
Example C74_nonvacuous :
  let m := crun ex_run ex_session (new_manager utf8) in
  let m0 := mrun ex_run (calls_of ex_session) (new_manager utf8) in
  sound ex_run (new_manager utf8) ex_session /\
  (exists d, deref m0 (RefHeap 1) = Some d /\ lookup d (None, bs "b") = Some [bs "BB"] /\ lookup d (None, bs "a") = None) /\
  (exists d, deref m (RefHeap 1) = Some d /\ lookup d (None, bs "b") = Some [bs "B"] /\ lookup d (None, bs "a") = Some [bs "A"]) /\
  fst (mstep ex_run ex_fs OpGetDictionary m) = Ret (OutRef (RefHeap 0)).
Proof.
  intros m m0. split; [exact ex_session_sound|]. split; [|split].
  - eexists. split; [vm_compute; reflexivity|split; vm_compute; reflexivity].
  - eexists. split; [vm_compute; reflexivity|split; vm_compute; reflexivity].
  - vm_compute. reflexivity.
Qed.
(** get_dictionary(de), after the load of de_AT that has put it into the cache *)
Example C75_nonvacuous :
  let ops := firstn 2 ex_session in
  let ops2 := skipn 2 ex_session in
  sound ex_run (new_manager utf8) (ops ++ (ex_fs, CallManager (OpGetDictionaryLang de)) :: ops2) /\
  (exists m1 d, mstep ex_run ex_fs (OpGetDictionaryLang de) (crun ex_run ops (new_manager utf8)) = (Ret (OutRef (RefHeap 1)), m1) /\
     deref m1 (RefHeap 1) = Some d /\ lookup d (None, bs "a") = None /\
     lookup (changed ex_run (changes_to (RefHeap 1) ops2) d) (None, bs "a") = Some [bs "A"]) /\
  keeping (path_after [] (List.map snd (calls_of ops))) ops2.
Proof.
  intros ops ops2. split; [|split].
  - assert (K : known de_AT) by exact de_AT_known. assert (K2 : known de) by exact de_known. unfold ops, ops2, ex_session. cbn [List.map firstn skipn app sound]. unfold sound_change.
    repeat match goal with |- _ /\ _ => split end; try exact Logic.I; try exact K; try exact K2; vm_compute; discriminate.
  - eexists _, _. split; [vm_compute; reflexivity|]. split; [vm_compute; reflexivity|]. split; vm_compute; reflexivity.
  - repeat constructor.
Qed.
Example C75_nonvacuous_lost :
  let op := OpSetCharset utf8 in
  sound ex_run (new_manager utf8) (ex_session ++ [(ex_fs, CallManager op)]) /\
  keeps_cache (path_after [] (List.map snd (calls_of ex_session))) op = false /\
  exists m2 d, returns ex_run ex_fs (crun ex_run (ex_session ++ [(ex_fs, CallManager op)]) (new_manager utf8)) de m2 d /\
    lookup d (None, bs "a") = None /\ lookup d (None, bs "b") = Some [bs "BB"].
Proof.
  intro op. split; [apply sound_app; split; [exact ex_session_sound|split; exact Logic.I]|]. split; [reflexivity|].
  unfold returns. eexists _, _. split; [eexists; split; vm_compute; reflexivity|]. split; vm_compute; reflexivity.
Qed.
Example C76_nonvacuous :
  let ops := ex_session ++ [(ex_fs, Change RefEmpty (ChFallback (Some 1))); (ex_fs, CallManager (OpSetUseFuzzy true))] in
  sound ex_run (new_manager utf8) ops /\
  (exists d, deref (crun ex_run ex_session (new_manager utf8)) (RefHeap 0) = Some d /\ d_has_fallback d = true /\ d_fallback d = Some 1) /\
  exists d, deref (crun ex_run ops (new_manager utf8)) RefEmpty = Some d /\ lookup d (None, bs "y") = Some [bs "YY"] /\ lookup d (None, bs "a") = None /\
    fst (translate 1 (m_heap (crun ex_run ops (new_manager utf8))) d (bs "a")) = Ub UbPointer.
Proof.
  intro ops. split; [|split].
  - apply sound_app. split; [exact ex_session_sound|]. split; [split; vm_compute; discriminate|split; exact Logic.I].
  - eexists. split; [vm_compute; reflexivity|split; vm_compute; reflexivity].
  - eexists. split; [vm_compute; reflexivity|]. split; [vm_compute; reflexivity|]. split; vm_compute; reflexivity.
Qed.
Example C76_nonvacuous_safe :
  let ops := firstn 4 ex_session in
  sound ex_run (new_manager utf8) ops /\ Forall (fun o => forall r' q, snd o <> Change r' (ChFallback q)) ops /\
  exists d, deref (crun ex_run ops (new_manager utf8)) (RefHeap 0) = Some d /\ d_has_fallback d = true.
Proof.
  intro ops. split; [|split].
  - pose proof ex_session_sound as X. rewrite <- (firstn_skipn 4 ex_session) in X. apply sound_app in X as [X _]. exact X.
  - repeat constructor; intros ? ? X; discriminate X.
  - eexists. split; vm_compute; reflexivity.
Qed.

Print Assumptions C74_manager_does_not_notice.
Print Assumptions C74_changes_add_up.
Print Assumptions C74_change_is_the_call.
Print Assumptions C74_change_through_a_dangling_reference.
Print Assumptions C75_changes_last.
Print Assumptions C75_changes_are_lost.
Print Assumptions C76_empty_dictionary_is_never_reset.
Print Assumptions C76_cached_dictionaries_never_dangle.
Print Assumptions C76_fallback_of_the_empty_dictionary_dangles.
Print Assumptions C76_safe_without_addFallback.
