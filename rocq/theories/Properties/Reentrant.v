(** Properties C87-C90: calls on a manager from inside its own file system and log
    callbacks, while it is loading a dictionary. *)
From Verif.Model Require Import Base Log PluralForms Dictionary IConv Language Stream PoParser Manager Reentrant.
From Verif.Spec Require Import DictSpec LangSpec ParserSpec ManagerSpec LoadSpec ReentrantSpec.
From Verif.Proofs Require Import BaseFacts DictProofs LangProofs ParserSafe ManagerLoad ManagerOwn ManagerGet ManagerStep
  ManagerProps ManagerLog ReentrantProofs ReentrantBad.
From Verif.Properties Require Import Parser Manager ManagerLife.
Local Open Scope list_scope.
Local Opaque from_spec languages.

(** C87. Application code that does nothing to the manager changes nothing, wherever it
    runs: the calls of this model are then those of the others. *)
Theorem C87_undisturbed :
  forall (cf : config) (fs : file_system) (cuts : nat -> list nat) (op : mop) (m : manager),
  let r := istep cf fs (fun _ _ x => x) cuts op (start_ist m) in
  (fst r, i_m (snd r)) = mstep cf fs op m.
Proof.
  intros cf fs cuts op m r. destruct (istep_quiet cf fs cuts op m) as [H1 H2]. unfold r.
  change (fun (_ : nat) (_ : point) (x : manager) => x) with quiet_env. rewrite H1, H2. now destruct (mstep cf fs op m).
Qed.

(** Application code that makes only calls that keep the cache - get_dictionary,
    get_languages, set_language, ... - as often as it likes and to any depth of nesting,
    deletes no dictionary, changes none that exists, and leaves every language with the
    dictionary it had. *)
Theorem C87_nested_calls_harmless :
  forall (cf : config) (cs : bytes) (ops : list (file_system * mop)) (m' : manager),
  valid ops -> plays cf harmless (mrun cf ops (new_manager cs)) m' ->
  let m := mrun cf ops (new_manager cs) in
  m_freed m' = m_freed m /\ m_path m' = m_path m /\ m_charset m' = m_charset m /\
  (forall l p, cache_find l (m_cache m) = Some p -> cache_find l (m_cache m') = Some p) /\
  (forall p d, heap_get (m_heap m) p = Some d -> heap_get (m_heap m') p = Some d).
Proof.
  intros cf cs ops m' V Pl m. destruct (plays_tame cf _ _ Pl) as [T1 T2 T3 T4 T5 T6]. fold m in T1, T2, T3, T4, T5, T6.
  destruct (run_inv cf ops _ V (own_new cf cs) (NoDup_nil _)) as (O & _). fold m in O.
  split; [exact T4|]. split; [exact T2|]. split; [exact T3|]. split.
  - destruct T1 as [e ->]. intros l p H. now apply cache_find_app_some.
  - intros p d H. rewrite T6; [exact H|]. apply (own_lt cf m p O), (own_live cf m p O). congruence.
Qed.

Lemma not_asserting cf (l : language) : l <> None -> negb (cf_ndebug cf) && is_none l = false.
Proof. destruct l; [now rewrite andb_false_r|contradiction]. Qed.
Lemma cached_get cf l m p : l <> None -> cache_find l (m_cache m) = Some p -> has_ready cf m l p.
Proof.
  intros N H fs. cbn [mstep]. unfold mmap, mbind at 1. unfold depth0. cbn [get_dictionary_lang]. rewrite (not_asserting cf l N).
  unfold mbind, mget. now rewrite H.
Qed.

Definition loaded_c (cf : config) (l : language) (d : dictionary) (m : manager) (p : ptr) : Prop :=
  (get_country l = [] /\ heap_get (m_heap m) p = Some d) \/
  (get_country l <> [] /\ exists b q, from_spec (cf_ndebug cf) (get_language l) [] [] = Ret (Some b) /\
     cache_find (Some b) (m_cache m) = Some q /\ heap_get (m_heap m) p = Some (add_fallback d (Some q))).
Lemma loaded_c_as cf l d m p : loaded_c cf l d m p -> loaded_as cf l d m p.
Proof.
  intros [H|(Co & b & q & B & F & G)]; [left; exact H|]. right. split; [exact Co|]. exists b, q. split; [exact B|].
  split; [apply cached_get; [discriminate|exact F]|exact G].
Qed.
Lemma content_returned cf fs env cuts a m l p s' :
  (forall n pt x, tame x (env n pt x)) -> (forall n pt x, arg_of a x = l -> arg_of a (env n pt x) = l) -> arg_of a m = l ->
  cache_find l (m_cache m) = None -> known l -> l <> None ->
  iget cf fs env cuts depth0 a (start_ist m) = (Ret p, s') ->
  exists d t, path_reads cf fs l (rev (m_path m)) (new_dictionary (m_charset m)) None d t /\
    cache_find l (m_cache (i_m s')) = Some p /\ loaded_c cf l d (i_m s') p /\
    (forall pt x, In (pt, x) (i_seen s') -> cache_find l (m_cache x) = Some p /\
       exists ds, heap_get (m_heap x) p = Some ds /\ later_calls (new_dictionary (m_charset m)) ds /\ later_calls ds d).
Proof.
  intros T K A C Kn N H.
  destruct (get_content cf fs env cuts T a l (start_ist m) (Ret p) s' _ K A H C (or_intror N) eq_refl) as ((new & Q & W) & F & G).
  cbn [start_ist i_m i_seen app] in *.
  pose proof (pload_reads cf fs l (rev (m_path m)) (new_dictionary (m_charset m))) as PR.
  destruct (pload cf fs l (rev (m_path m)) (new_dictionary (m_charset m))) as [[o1 d1] t1]. cbn [fst snd] in *.
  destruct o1 as [u|e|u| |]; try discriminate G; [|destruct G; discriminate].
  destruct (PR Logic.I) as (x & X & R). cbn [thrown] in X. subst x.
  exists d1, t1. split; [exact R|]. unfold finished_as in G.
  assert (Pid : p = m_next m /\ loaded_c cf l d1 (i_m s') p).
  { destruct (is_nil_spec _ (get_country l)) as [Co|Co].
    - destruct G as [G1 G2]. injection G1 as ->. split; [reflexivity|]. left. auto.
    - destruct (base_of (cf_ndebug cf) l Kn Co) as (b & B1 & B2 & B3 & B4). rewrite B1 in G.
      destruct G as (-> & q & G1 & G2). split; [reflexivity|]. right. split; [exact Co|]. exists b, q. auto. }
  destruct Pid as [-> LA]. split; [exact F|]. split; [exact LA|]. intros pt x Hx. rewrite Q in Hx.
  rewrite Forall_forall in W. exact (W _ Hx).
Qed.

(** If the application's code makes only such calls while get_dictionary(l) is loading,
    the call returns what it would have returned alone: the dictionary read from the
    search path, over the dictionary of the base language. At every point where the
    application's code runs, get_dictionary(l) already returns that very dictionary, at
    once, holding what has been read so far. *)
Theorem C87_reentrant_get :
  forall (cf : config) (fs : file_system) (env : nat -> point -> manager -> manager) (cuts : nat -> list nat)
         (m : manager) (l : language) (p : ptr) (s' : ist),
  (forall n pt x, plays cf harmless x (env n pt x)) ->
  cache_find l (m_cache m) = None -> known l -> l <> None ->
  istep cf fs env cuts (OpGetDictionaryLang l) (start_ist m) = (Ret (OutRef (RefHeap p)), s') ->
  exists d t, path_reads cf fs l (rev (m_path m)) (new_dictionary (m_charset m)) None d t /\
    has_ready cf (i_m s') l p /\ loaded_as cf l d (i_m s') p /\
    (forall pt x, In (pt, x) (i_seen s') -> has_ready cf x l p /\
       exists ds, heap_get (m_heap x) p = Some ds /\ later_calls (new_dictionary (m_charset m)) ds /\ later_calls ds d).
Proof.
  intros cf fs env cuts m l p s' E C Kn N H.
  assert (H' : iget cf fs env cuts depth0 (Given l) (start_ist m) = (Ret p, s')).
  { cbn [istep] in H. unfold mmap, mbind in H. destruct (iget cf fs env cuts depth0 (Given l) (start_ist m)) as [[q|?|?| |] s1]; try discriminate H.
    cbn [mret] in H. injection H as -> ->. reflexivity. }
  destruct (content_returned cf fs env cuts (Given l) m l p s') as (d & t & R & F & L & W); auto.
  { intros n pt x. apply (plays_tame cf), E. }
  exists d, t. split; [exact R|]. split; [now apply cached_get|]. split; [now apply loaded_c_as|].
  intros pt x Hx. destruct (W pt x Hx) as [W1 W2]. split; [now apply cached_get|exact W2].
Qed.

Lemma current_returns cf fs env cuts m p s' : m_cur m = None -> m_lang m <> None ->
  istep cf fs env cuts OpGetDictionary (start_ist m) = (Ret (OutRef (RefHeap p)), s') ->
  exists s1, iget cf fs env cuts depth0 Member (start_ist m) = (Ret p, s1) /\
    i_m s' = upd_lang (i_m s1) (m_lang (i_m s1)) (Some p) /\ i_seen s' = i_seen s1.
Proof.
  intros Cu N. cbn [istep]. unfold mmap, iget_dictionary, mbind, mget. cbv beta iota. change (i_m (start_ist m)) with m. rewrite Cu.
  cbv beta iota. change (i_m (start_ist m)) with m.
  assert (Z : is_none (m_lang m) = false) by (destruct (m_lang m); [reflexivity|contradiction]). rewrite Z.
  destruct (iget cf fs env cuts depth0 Member (start_ist m)) as [[q|?|?| |] s1]; try discriminate.
  unfold ilift, mmod, mret. intro H. injection H as -> <-. exists s1. auto.
Qed.

(** The same for get_dictionary(), as long as nobody changes the language meanwhile. *)
Theorem C87_reentrant_current :
  forall (cf : config) (fs : file_system) (env : nat -> point -> manager -> manager) (cuts : nat -> list nat)
         (m : manager) (l : language) (p : ptr) (s' : ist),
  (forall n pt x, plays cf harmless x (env n pt x) /\ m_lang (env n pt x) = m_lang x) ->
  m_cur m = None -> m_lang m = l ->
  cache_find l (m_cache m) = None -> known l -> l <> None ->
  istep cf fs env cuts OpGetDictionary (start_ist m) = (Ret (OutRef (RefHeap p)), s') ->
  exists d t, path_reads cf fs l (rev (m_path m)) (new_dictionary (m_charset m)) None d t /\
    has_ready cf (i_m s') l p /\ loaded_as cf l d (i_m s') p.
Proof.
  intros cf fs env cuts m l p s' E Cu L C Kn N H.
  destruct (current_returns cf fs env cuts m p s' Cu) as (s1 & H' & Q & _); [now rewrite L|exact H|].
  destruct (content_returned cf fs env cuts Member m l p s1) as (d & t & R & F & LA & _); auto.
  { intros n pt x. apply (plays_tame cf), E. }
  { intros n pt x A. cbn [arg_of] in *. rewrite (proj2 (E n pt x)). exact A. }
  exists d, t. split; [exact R|]. rewrite Q. split; [now apply cached_get|].
  apply loaded_c_as. exact LA.
Qed.

(** The hypotheses are met: while get_dictionary(de_AT) loads, the file system asks the same
    manager for its languages and for the German dictionary, and logging callbacks ask for
    the Austrian one; the parse of the second file is interrupted twice. *)
Definition busy (n : nat) (pt : point) (x : manager) : manager :=
  match pt with
  | AtDir _ => snd (mstep ex_run ex_fs (OpGetDictionaryLang de) (snd (mstep ex_run ex_fs OpGetLanguages x)))
  | AtMessage _ _ => snd (mstep ex_run ex_fs (OpGetDictionaryLang de_AT) x)
  | _ => x
  end.
Lemma plays_mstep cf (allowed : list bytes -> mop -> Prop) fs op x y : allowed (m_path x) op ->
  plays cf allowed (snd (mstep cf fs op x)) y -> plays cf allowed x y.
Proof.
  intros A H. apply (plays_call cf allowed x op fs (fun _ _ z => z) (fun _ => []) y A).
  - intros n pt z. apply plays_nothing.
  - pose proof (C87_undisturbed cf fs (fun _ => []) op x) as U. cbv zeta in U.
    apply (f_equal snd) in U. cbn [snd] in U. rewrite U. exact H.
Qed.
Definition ex_m := mrun ex_run (List.map (fun o => (ex_fs, o)) [OpAddDirectory (bs "hi") false; OpAddDirectory (bs "lo") false]) (new_manager utf8).
Example C87_nonvacuous :
  (forall n pt x, plays ex_run harmless x (busy n pt x)) /\
  cache_find de_AT (m_cache ex_m) = None /\ known de_AT /\ de_AT <> None /\
  let r := istep ex_run ex_fs busy (fun _ => [0; 1]) (OpGetDictionaryLang de_AT) (start_ist ex_m) in
  fst r = Ret (OutRef (RefHeap 0)) /\ i_n (snd r) = 8 /\
  (m_next (i_m (snd r)), List.map snd (m_cache (i_m (snd r)))) = (2, [0; 1]) /\
  option_map d_fallback (heap_get (m_heap (i_m (snd r))) 0) = Some (Some 1) /\
  List.map (fun x => option_map (fun d => length (d_entries d)) (heap_get (m_heap (snd x)) 0)) (i_seen (snd r))
  = [Some 0; Some 0; Some 0; Some 0; Some 2; Some 2; Some 2; Some 3].
Proof.
  split.
  { intros n pt x. destruct pt; cbn [busy]; try apply plays_nothing.
    - apply (plays_mstep _ _ ex_fs OpGetLanguages); [exact Logic.I|]. apply (plays_mstep _ _ ex_fs (OpGetDictionaryLang de)); [exact Logic.I|]. apply plays_nothing.
    - apply (plays_mstep _ _ ex_fs (OpGetDictionaryLang de_AT)); [exact Logic.I|]. apply plays_nothing. }
  split; [reflexivity|]. split; [exact de_AT_known|]. split; [discriminate|]. vm_compute. repeat split.
Qed.

(** C88 (violation). get_dictionary() hands its own current language on by reference. If
    the application's file system calls set_language(l2) from inside open_directory(p0),
    while get_dictionary() is loading l1, and does nothing else: the directories before
    p0 are read for l1, p0 and those after it for l2, into one dictionary. That mixture
    is what get_dictionary() returns, then and from then on, though get_language() says
    l2; and it is what get_dictionary(l1) returns as well. *)
Definition switching (cf : config) (fs : file_system) (p0 : bytes) (l2 : language) (_ : nat) (pt : point) (x : manager) : manager :=
  match pt with
  | AtDir q => if bytes_eqb q p0 then snd (mstep cf fs (OpSetLanguage l2) x) else x
  | _ => x
  end.
Lemma switching_tame cf fs p0 l2 n pt x : tame x (switching cf fs p0 l2 n pt x).
Proof.
  destruct pt; cbn [switching]; try apply tame_refl. destruct (bytes_eqb p p0); [|apply tame_refl].
  rewrite do_set_language. cbn [snd]. destruct (lang_eqb _ _); [apply tame_refl|apply tame_lang].
Qed.
Theorem C88_language_switched_while_loading :
  forall (cf : config) (fs : file_system) (cuts : nat -> list nat) (m : manager) (l1 l2 : language)
         (before : list bytes) (p0 : bytes) (after : list bytes) (p : ptr) (s' : ist),
  rev (m_path m) = before ++ p0 :: after -> ~ In p0 before ->
  known l1 -> l1 <> None -> known l2 -> get_country l2 = [] ->
  m_cur m = None -> m_lang m = l1 -> cache_find l1 (m_cache m) = None ->
  istep cf fs (switching cf fs p0 l2) cuts OpGetDictionary (start_ist m) = (Ret (OutRef (RefHeap p)), s') ->
  exists d1 t1 d2 t2,
    path_reads cf fs l1 before (new_dictionary (m_charset m)) None d1 t1 /\
    path_reads cf fs l2 (p0 :: after) d1 None d2 t2 /\
    heap_get (m_heap (i_m s')) p = Some d2 /\
    (forall fs', mstep cf fs' OpGetDictionary (i_m s') = (Ret (OutRef (RefHeap p)), i_m s')) /\
    (forall fs', mstep cf fs' OpGetLanguage (i_m s') = (Ret (OutLang l2), i_m s')) /\
    has_ready cf (i_m s') l1 p.
Proof.
  intros cf fs cuts m l1 l2 before p0 after p s' Rv NI Kn1 N1 Kn2 Co Cu L C H.
  destruct (current_returns cf fs (switching cf fs p0 l2) cuts m p s' Cu) as (s1 & H1 & Q & _); [now rewrite L|exact H|].
  pose proof (get_changed cf fs (switching cf fs p0 l2) cuts (switching_tame cf fs p0 l2) l1 l2 (start_ist m) (Ret p) s1 before p0 after) as G.
  cbn [start_ist i_m] in G. fold (start_ist m) in G.
  specialize (G (pload cf fs l1 before (new_dictionary (m_charset m)))).
  assert (G' := fun A B => G A B Co Rv NI L C (or_intror N1) H1 eq_refl). clear G.
  pose proof (pload_reads cf fs l1 before (new_dictionary (m_charset m))) as PR1.
  destruct (pload cf fs l1 before (new_dictionary (m_charset m))) as [[o1 d1] t1]. cbn [fst snd] in *.
  assert (A : forall n pt x, pt <> AtDir p0 -> m_lang (switching cf fs p0 l2 n pt x) = m_lang x).
  { intros n pt x X. destruct pt as [q| | | |]; cbn [switching]; try reflexivity. destruct (bytes_eqb q p0) eqn:B; [|reflexivity].
    apply bytes_eqb_eq in B. congruence. }
  assert (B : forall (n : nat) x, m_lang x = l1 \/ m_lang x = l2 -> m_lang (switching cf fs p0 l2 n (AtDir p0) x) = l2).
  { intros n x X. cbn [switching]. rewrite (proj2 (bytes_eqb_eq p0 p0) eq_refl), do_set_language. cbn [snd].
    destruct (lang_eqb (m_lang x) l2) eqn:Eq; [|reflexivity]. apply lang_eqb_eq in Eq; [exact Eq| |exact Kn2].
    destruct X as [->| ->]; assumption. }
  specialize (G' A B). destruct o1 as [u|e|u| |]; try (exfalso; exact (G' p eq_refl)).
  destruct (PR1 Logic.I) as (x1 & X1 & R1). cbn [thrown] in X1. subst x1.
  specialize (G' _ eq_refl). pose proof (pload_reads cf fs l2 (p0 :: after) d1) as PR2.
  destruct (pload cf fs l2 (p0 :: after) d1) as [[o2 d2] t2]. cbn [fst snd] in *.
  destruct o2 as [u2|e|w| |]; try (exfalso; exact (G' p eq_refl)).
  destruct (PR2 Logic.I) as (x2 & X2 & R2). cbn [thrown] in X2. subst x2.
  destruct G' as (G1 & G2 & G3 & G4). injection G1 as ->.
  exists d1, t1, d2, t2. split; [exact R1|]. split; [exact R2|]. rewrite Q. cbn [upd_lang m_heap]. split; [exact G2|].
  split; [intro fs'; reflexivity|]. split; [intro fs'; rewrite do_get_language; cbn [upd_lang m_lang]; now rewrite G4|].
  apply cached_get; [exact N1|exact G3].
Qed.
Example C88_nonvacuous :
  let m := snd (mstep ex_run ex_fs (OpSetLanguage de_AT) ex_m) in
  rev (m_path m) = [bs "lo"] ++ bs "hi" :: [] /\ ~ In (bs "hi") [bs "lo"] /\
  known de_AT /\ de_AT <> None /\ known de /\ get_country de = [] /\
  m_cur m = None /\ m_lang m = de_AT /\ cache_find de_AT (m_cache m) = None /\
  let r := istep ex_run ex_fs (switching ex_run ex_fs (bs "hi") de) (fun _ => []) OpGetDictionary (start_ist m) in
  fst r = Ret (OutRef (RefHeap 0)) /\
  option_map (fun d => (assoc (bs "a") (d_entries d), assoc (bs "c") (d_entries d), d_fallback d)) (heap_get (m_heap (i_m (snd r))) 0)
  = Some (Some [bs "A"], Some [bs "C"], None).
Proof.
  split; [reflexivity|]. split; [intros [H|[]]; discriminate H|]. split; [exact de_AT_known|]. split; [discriminate|].
  split; [exact de_known|]. split; [reflexivity|]. split; [reflexivity|]. split; [reflexivity|]. split; [reflexivity|].
  vm_compute. repeat split.
Qed.

(** C89. If, while get_dictionary(l) or get_dictionary() is loading, the application's
    code makes any calls at all, nested to any depth, and one of its runs leaves none of
    the dictionaries that were cached before it alive - as set_charset, set_use_fuzzy,
    add_directory of a new directory and remove_directory of a present one do -, then
    the call does not return a usable reference: if it returns, what it returns is
    already deleted; and get_dictionary() will go on returning it. *)
Theorem C89_clearing_calls :
  forall (cf : config) (fs : file_system) (op : mop) (m m' : manager) (p : ptr),
  match op with
  | OpSetCharset _ | OpSetUseFuzzy _ => True
  | OpAddDirectory q _ => ~ In q (m_path m)
  | OpRemoveDirectory q => In q (m_path m)
  | _ => False
  end ->
  mstep cf fs op m = (Ret OutUnit, m') -> In p (List.map snd (m_cache m)) -> heap_get (m_heap m') p = None.
Proof.
  intros cf fs op m m' p A H Hp.
  assert (Mm : forall (c : M manager unit), mmap (fun _ => OutUnit) c m = (Ret OutUnit, m') ->
            fst (c m) = Ret tt /\ snd (c m) = m').
  { intros c Hc. unfold mmap, mbind in Hc. destruct (c m) as [[[]|?|?| |] m1]; try discriminate Hc. cbn [mret] in Hc. injection Hc as ->. auto. }
  destruct op as [l|c|b|q f|q| |l| | |]; try contradiction; cbn [mstep] in H; apply Mm in H as [H1 H2]; subst m'.
  - apply (clearing_fate (set_charset c) (fun m => upd_charset m c)); [auto|reflexivity|exact H1|exact Hp].
  - apply (clearing_fate (set_use_fuzzy b) (fun m => upd_fuzzy m b)); [auto|reflexivity|exact H1|exact Hp].
  - revert H1. unfold add_directory, mget. unfold mbind at 1 3. destruct (existsb (bytes_eqb q) (m_path m)) eqn:E; [apply existsb_in in E; contradiction|].
    intro H1. apply (clearing_fate _ (fun m => upd_path m (if f then q :: m_path m else m_path m ++ [q])) m); [auto|reflexivity|exact H1|exact Hp].
  - revert H1. unfold remove_directory, mget. unfold mbind at 1 3. apply existsb_in in A. rewrite A.
    intro H1. apply (clearing_fate _ (fun m => upd_path m (erase q (m_path m))) m); [auto|reflexivity|exact H1|exact Hp].
Qed.
Theorem C89_cleared_while_loading :
  forall (cf : config) (fs : file_system) (env : nat -> point -> manager -> manager) (cuts : nat -> list nat)
         (m : manager) (op : mop) (l : language) (p : ptr) (s' : ist) (k : nat) (pt : point) (mk : manager),
  (op = OpGetDictionaryLang l \/ (op = OpGetDictionary /\ m_cur m = None /\ m_lang m = l /\ l <> None)) ->
  cache_find l (m_cache m) = None ->
  (forall n pt x, plays cf anything x (env n pt x)) ->
  istep cf fs env cuts op (start_ist m) = (Ret (OutRef (RefHeap p)), s') ->
  nth_error (i_seen s') k = Some (pt, mk) ->
  (forall q, In q (List.map snd (m_cache mk)) -> heap_get (m_heap (env k pt mk)) q = None) ->
  deref (i_m s') (RefHeap p) = None /\
  (op = OpGetDictionary -> forall fs', mstep cf fs' OpGetDictionary (i_m s') = (Ret (OutRef (RefHeap p)), i_m s')).
Proof.
  intros cf fs env cuts m op l p s' k pt mk Op C E H Hk W.
  assert (F : forall n pt x, fate x (env n pt x)) by (intros n pt0 x; apply (plays_fate cf), E).
  destruct Op as [->|(-> & Cu & L & N)].
  - assert (H' : iget cf fs env cuts depth0 (Given l) (start_ist m) = (Ret p, s')).
    { cbn [istep] in H. unfold mmap, mbind in H. destruct (iget cf fs env cuts depth0 (Given l) (start_ist m)) as [[q|?|?| |] s1]; try discriminate H.
      cbn [mret] in H. injection H as -> ->. reflexivity. }
    destruct (get_history cf fs env cuts (Given l) m p s' F C H') as [_ Hi]. split; [|discriminate].
    exact (killed_stays env p s' k pt mk Hi Hk W).
  - destruct (current_returns cf fs env cuts m p s' Cu) as (s1 & H1 & Q & Sn); [now rewrite L|exact H|].
    destruct (get_history cf fs env cuts Member m p s1 F) as [_ Hi]; [cbn [arg_of]; now rewrite L|exact H1|].
    rewrite Sn in Hk. pose proof (killed_stays env p s1 k pt mk Hi Hk W) as D.
    rewrite Q. split; [exact D|]. intros _ fs'. reflexivity.
Qed.
(** The German dictionary is asked for; the log callback that reports an unknown file calls
    set_use_fuzzy. *)
Definition odd_os : os_state := {| os_dir := fun p => if bytes_eqb p (bs "odd") then Some [bs "xx.po"] else None; os_file := fun _ => None |}.
Definition odd_fs : file_system := unix_file_system odd_os.
Definition adding (n : nat) (pt : point) (x : manager) : manager :=
  match pt with AtWarning _ => snd (mstep ex_run odd_fs (OpSetUseFuzzy false) x) | _ => x end.
Example C89_nonvacuous :
  let m := snd (mstep ex_run odd_fs (OpAddDirectory (bs "odd") false) (new_manager utf8)) in
  cache_find de (m_cache m) = None /\ (forall n pt x, plays ex_run anything x (adding n pt x)) /\
  let r := istep ex_run odd_fs adding (fun _ => []) (OpGetDictionaryLang de) (start_ist m) in
  fst r = Ret (OutRef (RefHeap 0)) /\
  (exists mk, nth_error (i_seen (snd r)) 1 = Some (AtWarning (bs "xx.po"), mk) /\ List.map snd (m_cache mk) = [0] /\
     forall q, In q (List.map snd (m_cache mk)) -> heap_get (m_heap (adding 1 (AtWarning (bs "xx.po")) mk)) q = None).
Proof.
  split; [reflexivity|]. split.
  { intros n pt x. destruct pt; cbn [adding]; try apply plays_nothing.
    apply (plays_mstep _ _ odd_fs (OpSetUseFuzzy false)); [exact Logic.I|]. apply plays_nothing. }
  split; [vm_compute; reflexivity|]. eexists. split; [vm_compute; reflexivity|]. split; [vm_compute; reflexivity|].
  intros q Hq. vm_compute in Hq. destruct Hq as [<-|[]]. vm_compute. reflexivity.
Qed.

(** C90. get_dictionary and get_languages walk over the search path while the
    application's code runs. If one of them returns, the search path is as it was when
    the call began - so a call during which the application's code adds a new directory,
    or removes one, and leaves it at that never returns: it is undefined, unless an
    exception ends it first. *)
Theorem C90_path_changed :
  forall (cf : config) (fs : file_system) (env : nat -> point -> manager -> manager) (cuts : nat -> list nat)
         (m : manager) (op : mop) (out : mout) (s' : ist),
  (op = OpGetDictionary \/ op = OpGetLanguages \/ exists l, op = OpGetDictionaryLang l) ->
  istep cf fs env cuts op (start_ist m) = (Ret out, s') -> m_path (i_m s') = m_path m.
Proof.
  intros cf fs env cuts m op out s' Op H. destruct Op as [->|[->|(l & ->)]]; cbn [istep] in H; apply mmap_ret in H as (x & H & _).
  - unfold iget_dictionary in H. apply bind_ret in H as (cur & s1 & H1 & H). injection H1 as <- <-.
    destruct (m_cur m) as [p|]; [injection H as _ <-; reflexivity|].
    apply bind_ret in H as (l & s2 & H2 & H). injection H2 as <- <-. destruct (is_none _); [injection H as _ <-; reflexivity|].
    apply bind_ret in H as (p & s3 & H3 & H). apply get_path in H3. apply bind_ret in H as (u & s4 & H4 & H). injection H as _ <-.
    unfold ilift, mmod in H4. injection H4 as _ <-. exact H3.
  - unfold iget_languages in H. apply bind_ret in H as (path & s1 & H1 & H). injection H1 as <- <-.
    apply langs_path in H; [exact (proj1 H)|reflexivity|reflexivity|]. intros [|k] pt mk Hk; discriminate Hk.
  - apply get_path in H. exact H.
Qed.
(** get_languages does not survive even one interruption that leaves the search path
    different. *)
Theorem C90_path_changed_while_listing :
  forall (cf : config) (fs : file_system) (env : nat -> point -> manager -> manager) (cuts : nat -> list nat)
         (m : manager) (out : mout) (s' : ist) (k : nat) (pt : point) (mk : manager),
  istep cf fs env cuts OpGetLanguages (start_ist m) = (Ret out, s') ->
  nth_error (i_seen s') k = Some (pt, mk) -> m_path (env k pt mk) = m_path m.
Proof.
  intros cf fs env cuts m out s' k pt mk H Hk. cbn [istep] in H; apply mmap_ret in H as (x & H & _).
  unfold iget_languages in H. apply bind_ret in H as (path & s1 & H1 & H). injection H1 as <- <-.
  apply langs_path in H; [exact (proj2 H k pt mk Hk)|reflexivity|reflexivity|]. intros [|j] q mj Hj; discriminate Hj.
Qed.
(** And if a run of the application's code leaves none of the cached dictionaries alive
    - as the calls of C89_clearing_calls do - inside open_file, the file then being
    opened, or in a log callback while the parser still has something to store, then the
    call is undefined there and then. *)
Theorem C90_deleted_before_use :
  forall (cf : config) (fs : file_system) (env : nat -> point -> manager -> manager) (cuts : nat -> list nat)
         (m : manager) (l : language) (o : outcome mout) (s' : ist) (k : nat) (pt : point) (mk : manager),
  (forall n pt x, plays cf anything x (env n pt x)) ->
  istep cf fs env cuts (OpGetDictionaryLang l) (start_ist m) = (o, s') ->
  nth_error (i_seen s') k = Some (pt, mk) ->
  (exists name, (pt = AtOpen name /\ exists i, fs_file fs name = Ret (Some i)) \/
                (exists more, pt = AtMessage name more /\ more > 0)) ->
  (forall q, In q (List.map snd (m_cache mk)) -> heap_get (m_heap (env k pt mk)) q = None) ->
  o = Ub UbPointer.
Proof.
  intros cf fs env cuts m l o s' k pt mk Pl H Hk N D. cbn [istep] in H. unfold mmap, mbind in H.
  destruct (iget cf fs env cuts depth0 (Given l) (start_ist m)) as [o1 s1] eqn:G.
  assert (Q : s1 = s') by (destruct o1; injection H; auto). subst s1.
  assert (X : o1 = Ub UbPointer).
  { refine (doomed cf fs env cuts (fun n q x => plays_fate cf _ _ (Pl n q x)) depth0 (Given l) m o1 s' k pt mk G Hk _ D).
    destruct N as (name & [(-> & i & F)|(more & -> & L)]); cbn [needed]; [now exists i|lia]. }
  subst o1. now injection H as <-.
Qed.
(** The open_file of the application's file system turns fuzzy entries on; a log callback
    does so in the middle of a file; and an open_directory adds a directory. *)
Definition careless (n : nat) (pt : point) (x : manager) : manager :=
  match pt with AtOpen _ => snd (mstep ex_run ex_fs (OpSetUseFuzzy false) x) | _ => x end.
Definition careless_log (n : nat) (pt : point) (x : manager) : manager :=
  match pt with AtMessage _ _ => snd (mstep ex_run ex_fs (OpSetUseFuzzy false) x) | _ => x end.
Definition careless_dir (n : nat) (pt : point) (x : manager) : manager :=
  match pt with AtDir _ => snd (mstep ex_run ex_fs (OpAddDirectory (bs "new") true) x) | _ => x end.
Example C90_nonvacuous :
  (forall n pt x, plays ex_run anything x (careless n pt x)) /\
  (forall n pt x, plays ex_run anything x (careless_log n pt x)) /\
  (let r := istep ex_run ex_fs careless (fun _ => []) (OpGetDictionaryLang de_AT) (start_ist ex_m) in
   fst r = Ub UbPointer /\
   exists mk i, nth_error (i_seen (snd r)) 1 = Some (AtOpen (bs "lo/de.po"), mk) /\ fs_file ex_fs (bs "lo/de.po") = Ret (Some i) /\
     List.map snd (m_cache mk) = [0] /\ heap_get (m_heap (careless 1 (AtOpen (bs "lo/de.po")) mk)) 0 = None) /\
  (let r := istep ex_run ex_fs careless_log (fun _ => [1]) (OpGetDictionaryLang de_AT) (start_ist ex_m) in
   fst r = Ub UbPointer /\ exists mk more, nth_error (i_seen (snd r)) 2 = Some (AtMessage (bs "lo/de.po") (S more), mk)) /\
  (let r := istep ex_run ex_fs careless_dir (fun _ => []) OpGetLanguages (start_ist ex_m) in
   fst r = Ub UbPointer) /\
  (let r := istep ex_run ex_fs (fun _ _ x => x) (fun _ => []) OpGetLanguages (start_ist ex_m) in
   (exists ls, fst r = Ret (OutLangs ls) /\ length ls = 3) /\ length (i_seen (snd r)) = 2).
Proof.
  split; [|split].
  { intros n pt x. destruct pt; cbn [careless]; try apply plays_nothing.
    apply (plays_mstep _ _ ex_fs (OpSetUseFuzzy false)); [exact Logic.I|]. apply plays_nothing. }
  { intros n pt x. destruct pt; cbn [careless_log]; try apply plays_nothing.
    apply (plays_mstep _ _ ex_fs (OpSetUseFuzzy false)); [exact Logic.I|]. apply plays_nothing. }
  split; [|split; [|split]].
  - cbv zeta. split; [vm_compute; reflexivity|]. eexists. eexists. split; [vm_compute; reflexivity|]. split; [vm_compute; reflexivity|].
    split; vm_compute; reflexivity.
  - cbv zeta. split; [vm_compute; reflexivity|]. eexists. eexists. vm_compute. reflexivity.
  - vm_compute. reflexivity.
  - cbv zeta. split; [eexists; split|]; vm_compute; reflexivity.
Qed.

Print Assumptions C87_undisturbed.
Print Assumptions C87_nested_calls_harmless.
Print Assumptions C87_reentrant_get.
Print Assumptions C87_reentrant_current.
Print Assumptions C88_language_switched_while_loading.
Print Assumptions C89_clearing_calls.
Print Assumptions C89_cleared_while_loading.
Print Assumptions C90_path_changed.
Print Assumptions C90_path_changed_while_listing.
Print Assumptions C90_deleted_before_use.
