(** Interrupted calls. *)
From Verif.Model Require Import Base Log PluralForms Dictionary IConv Language Stream PoParser Manager Reentrant.
From Verif.Spec Require Import DictSpec LangSpec ParserSpec ManagerSpec LoadSpec ReentrantSpec.
From Verif.Proofs Require Import BaseFacts DictProofs LangProofs ParserSafe ManagerLoad ManagerOwn ManagerGet ManagerStep.
Local Open Scope list_scope.

Lemma strs_eqb_refl l : strs_eqb l l = true.
Proof. induction l as [|x l IH]; [reflexivity|]. cbn [strs_eqb]. rewrite IH. now rewrite (proj2 (bytes_eqb_eq x x) eq_refl). Qed.

(** ** predicates kept by every step of a call *)
Definition pres {A} (P : ist -> Prop) (c : M ist A) : Prop := forall s, P s -> P (snd (c s)).
Lemma pres_bind {A B} P (c : M ist A) (f : A -> M ist B) : pres P c -> (forall x, pres P (f x)) -> pres P (mbind c f).
Proof.
  intros Hc Hf s Ps. unfold mbind. specialize (Hc s Ps). destruct (c s) as [[x|e|u| |] s']; cbn [snd] in *; try exact Hc.
  exact (Hf x s' Hc).
Qed.
Lemma pres_ret {A} P (x : A) : pres P (mret x). Proof. intros s Ps. exact Ps. Qed.
Lemma pres_fail {A} P o : pres P (@mfail ist A o). Proof. intros s Ps. exact Ps. Qed.
Lemma pres_mlift {A} P (o : outcome A) : pres P (mlift o). Proof. intros s Ps. exact Ps. Qed.
Lemma pres_get {A} P (f : ist -> A) : pres P (mget f). Proof. intros s Ps. exact Ps. Qed.

Section Pres.
  Variable cf : config.
  Variable fs : file_system.
  Variable env : nat -> point -> manager -> manager.
  Variable cuts : nat -> list nat.
  Variable P : ist -> Prop.
  Variable id : ptr.
  Hypothesis P_int : forall pt, pres P (interrupt env pt).
  Hypothesis P_emit : forall t, pres P (ilift (emit_m t)).
  Hypothesis P_write : forall cs, pres P (ilift (write_calls id cs)).

  Ltac go := repeat (first [apply pres_bind; [|intro] | apply pres_ret | apply pres_fail | apply pres_mlift | apply pres_get
                           | apply P_int | apply P_emit | apply P_write ]).
  Lemma pres_consider a b f : pres P (iconsider cf env a b f).
  Proof.
    unfold iconsider. destruct (has_suffix f dot_po); [|apply pres_ret]. apply pres_bind; [apply pres_mlift|intro].
    apply pres_bind; [apply pres_mlift|intro po]. destruct (is_none po); go.
  Qed.
  Lemma pres_best a files : forall b, pres P (ibest_file cf env a b files).
  Proof.
    induction files as [|f files IH]; intro b; cbn [ibest_file]; [apply pres_ret|].
    apply pres_bind; [apply pres_consider|apply IH].
  Qed.
  Lemma pres_writes name ks : forall cs, pres P (iwrites env id name ks cs).
  Proof.
    induction ks as [|k ks IH]; intro cs; cbn [iwrites]; [apply P_write|].
    apply pres_bind; [apply P_write|intro]. apply pres_bind; [apply P_int|intro]. apply IH.
  Qed.
  Lemma pres_failed name e : pres P (ifailed env name e).
  Proof. unfold ifailed. go. Qed.
  Lemma pres_file name : pres P (iload_file cf fs env cuts id name).
  Proof.
    unfold iload_file. apply pres_bind; [apply P_int|intro]. destruct (fs_file fs name) as [[i|]|e|u| |]; try apply pres_mlift.
    - apply pres_bind; [apply pres_get|intros [d|]]; [|apply pres_fail]. cbv zeta.
      apply pres_bind; [apply pres_get|intro n]. apply pres_bind; [apply pres_writes|intro].
      apply pres_bind; [apply P_emit|intro].
      destruct (pr_outcome _) as [o|e|u| |]; try apply pres_mlift. destruct (is_std e); [apply pres_failed|apply pres_mlift].
    - apply pres_bind; [apply P_emit|intro; apply P_int].
    - destruct (is_std e); [apply pres_failed|apply pres_mlift].
  Qed.
  Lemma pres_check path : pres P (icheck path).
  Proof. unfold icheck. apply pres_bind; [apply pres_get|intro q]. destruct (strs_eqb q path); [apply pres_ret|apply pres_fail]. Qed.
  Lemma pres_dir a path p : pres P (iload_dir cf fs env cuts a id path p).
  Proof.
    unfold iload_dir. apply pres_bind; [apply P_int|intro]. apply pres_bind; [apply pres_mlift|intro files].
    apply pres_bind; [apply pres_best|intro b]. apply pres_bind; [|intro; apply pres_check].
    destruct (is_nil (fst b)); [apply pres_ret|]. apply pres_bind; [apply pres_check|intro; apply pres_file].
  Qed.
  Lemma pres_dirs a path ps : pres P (iload_dirs cf fs env cuts a id path ps).
  Proof. induction ps as [|p ps IH]; cbn [iload_dirs]; [apply pres_ret|]. apply pres_bind; [apply pres_dir|intro; exact IH]. Qed.
  Lemma pres_langs path ps : forall acc, pres P (ilangs_of_dirs cf fs env path ps acc).
  Proof.
    induction ps as [|p ps IH]; intro acc; cbn [ilangs_of_dirs]; [apply pres_ret|].
    apply pres_bind; [apply P_int|intro]. apply pres_bind; [apply pres_mlift|intro]. apply pres_bind; [apply pres_mlift|intro].
    apply pres_bind; [apply pres_check|intro; apply IH].
  Qed.
End Pres.

(** ** code that leaves the cache alone *)
Record tame (m m' : manager) : Prop := {
  tm_cache : exists ext, m_cache m' = m_cache m ++ ext;
  tm_path : m_path m' = m_path m;
  tm_charset : m_charset m' = m_charset m;
  tm_freed : m_freed m' = m_freed m;
  tm_next : m_next m <= m_next m';
  tm_heap : forall p, p < m_next m -> heap_get (m_heap m') p = heap_get (m_heap m) p }.
Lemma tame_refl m : tame m m.
Proof. constructor; auto. exists []. now rewrite app_nil_r. Qed.
Lemma tame_trans a b c : tame a b -> tame b c -> tame a c.
Proof.
  intros [(e1 & H1) H2 H3 H4 H5 H6] [(e2 & G1) G2 G3 G4 G5 G6]. constructor; try congruence; try lia.
  - exists (e1 ++ e2). rewrite G1, H1. now rewrite app_assoc.
  - intros p L. rewrite G6 by lia. apply H6, L.
Qed.
Lemma tame_find a b l p : tame a b -> cache_find l (m_cache a) = Some p -> cache_find l (m_cache b) = Some p.
Proof. intros [(e & ->) _ _ _ _ _] H. now apply cache_find_app_some. Qed.

(** the same, but for one dictionary *)
Record tame_but (id : ptr) (m m' : manager) : Prop := {
  tb_cache : exists ext, m_cache m' = m_cache m ++ ext;
  tb_path : m_path m' = m_path m;
  tb_charset : m_charset m' = m_charset m;
  tb_freed : m_freed m' = m_freed m;
  tb_next : m_next m <= m_next m';
  tb_heap : forall p, p < m_next m -> p <> id -> heap_get (m_heap m') p = heap_get (m_heap m) p }.
Lemma but_refl id m : tame_but id m m.
Proof. constructor; auto. exists []. now rewrite app_nil_r. Qed.
Lemma but_tame id m m' : tame m m' -> tame_but id m m'.
Proof. intros [H1 H2 H3 H4 H5 H6]. constructor; auto. Qed.
Lemma but_trans id a b c : tame_but id a b -> tame_but id b c -> tame_but id a c.
Proof.
  intros [(e1 & H1) H2 H3 H4 H5 H6] [(e2 & G1) G2 G3 G4 G5 G6]. constructor; try congruence; try lia.
  - exists (e1 ++ e2). rewrite G1, H1. now rewrite app_assoc.
  - intros p L N. rewrite G6 by (auto; lia). apply H6; auto.
Qed.
Lemma but_find id a b l p : tame_but id a b -> cache_find l (m_cache a) = Some p -> cache_find l (m_cache b) = Some p.
Proof. intros [(e & ->) _ _ _ _ _] H. now apply cache_find_app_some. Qed.
Lemma but_set id m d : tame_but id m (upd_heap m (heap_set (m_heap m) id d)).
Proof.
  constructor; auto.
  - exists []. now rewrite app_nil_r.
  - intros p _ N. cbn [upd_heap m_heap]. apply heap_get_set_other. congruence.
Qed.
Lemma but_tr id m t : tame_but id m (upd_tr m t).
Proof. constructor; auto. exists []. now rewrite app_nil_r. Qed.
Lemma but_new m l m' : tame_but (m_next m) (alloc m l) m' -> tame m m'.
Proof.
  intros [(e & H1) H2 H3 H4 H5 H6]. cbn [alloc m_cache m_path m_charset m_freed m_next m_heap] in *. constructor; auto.
  - exists ([(l, m_next m)] ++ e). now rewrite H1, app_assoc.
  - lia.
  - intros p L. rewrite H6 by lia. cbn [heap_get]. destruct (Nat.eqb_spec p (m_next m)); [lia|reflexivity].
Qed.

Section Tame.
  Variable cf : config.
  Variable fs : file_system.
  Variable env : nat -> point -> manager -> manager.
  Variable cuts : nat -> list nat.
  Hypothesis E : forall n pt m, tame m (env n pt m).

  Lemma pres_but_int id m0 pt : pres (fun s => tame_but id m0 (i_m s)) (interrupt env pt).
  Proof. intros s H. cbn [interrupt snd i_m]. eapply but_trans; [exact H|]. apply but_tame, E. Qed.
  Lemma pres_but_emit id m0 t : pres (fun s => tame_but id m0 (i_m s)) (ilift (emit_m t)).
  Proof. intros s H. unfold ilift, emit_m, mmod. cbn [snd i_m]. eapply but_trans; [exact H|]. apply but_tr. Qed.
  Lemma pres_but_write id m0 cs : pres (fun s => tame_but id m0 (i_m s)) (ilift (write_calls id cs)).
  Proof.
    intros s H. unfold ilift, write_calls. destruct cs as [|c cs]; [exact H|].
    destruct (heap_get (m_heap (i_m s)) id) as [d|]; [|exact H]. cbn [snd i_m]. eapply but_trans; [exact H|]. apply but_set.
  Qed.
  Lemma iget_tame dp : forall a s, tame (i_m s) (i_m (snd (iget cf fs env cuts dp a s))).
  Proof.
    induction dp as [|dp IH]; intros a s; [apply tame_refl|]. cbn [iget].
    unfold mbind at 1, mget at 1. destruct (negb (cf_ndebug cf) && is_none (arg_lang a s)); [apply tame_refl|].
    unfold mbind at 1, mget at 1. destruct (cache_find (arg_lang a s) (m_cache (i_m s))) as [p|]; [apply tame_refl|].
    unfold mbind at 1, mget at 1. set (id := m_next (i_m s)). unfold mbind at 1.
    set (s1 := {| i_m := alloc (i_m s) (arg_lang a s); i_n := i_n s; i_seen := i_seen s |}).
    change (ilift (mmod (fun m => alloc m (arg_lang a s))) s) with (@Ret unit tt, s1). cbv iota beta.
    unfold mbind at 1, mget at 1. apply (but_new (i_m s) (arg_lang a s)). change (m_next (i_m s)) with id. change (alloc (i_m s) (arg_lang a s)) with (i_m s1).
    set (m1 := i_m s1). assert (H1 : tame_but id m1 (i_m s1)) by apply but_refl. clearbody m1. clearbody s1.
    match goal with |- tame_but id m1 (i_m (snd (?c s1))) => assert (PC : pres (fun s => tame_but id m1 (i_m s)) c); [|exact (PC s1 H1)] end.
    apply pres_bind; [apply pres_dirs; intros; [apply pres_but_int|apply pres_but_emit|apply pres_but_write]|intro].
    apply pres_bind; [apply pres_get|intro l2]. destruct (is_nil (get_country l2)); [apply pres_ret|].
    apply pres_bind; [apply pres_mlift|intro b]. apply pres_bind.
    - intros y Hy. cbn beta in *. eapply but_trans; [exact Hy|]. apply but_tame, IH.
    - intro fb. apply pres_bind; [|intro; apply pres_ret]. intros y Hy. cbn beta in *. unfold ilift, set_fallback.
      destruct (heap_get (m_heap (i_m y)) id); [|exact Hy]. cbn [snd i_m]. eapply but_trans; [exact Hy|]. apply but_set.
  Qed.
  Lemma tame_lang m l c : tame m (upd_lang m l c).
  Proof. constructor; auto. exists []. now rewrite app_nil_r. Qed.
  Lemma istep_tame op s : harmless (m_path (i_m s)) op -> tame (i_m s) (i_m (snd (istep cf fs env cuts op s))).
  Proof.
    assert (Mm : forall A B (f : A -> B) (c : M ist A) s, i_m (snd (mmap f c s)) = i_m (snd (c s))).
    { intros A B f c s0. unfold mmap, mbind. destruct (c s0) as [[]]; reflexivity. }
    assert (Ml : forall A (c : M manager A) s, i_m (snd (ilift c s)) = snd (c (i_m s))).
    { intros A c s0. unfold ilift. now destruct (c (i_m s0)). }
    intro H. destruct op as [l|c|b|q f|q| |l| | |]; cbn [harmless istep] in *; try contradiction.
    - rewrite Ml. rewrite do_set_language. cbn [snd]. destruct (lang_eqb _ _); [apply tame_refl|apply tame_lang].
    - rewrite Ml. rewrite do_add_present by exact H. apply tame_refl.
    - rewrite Ml. rewrite do_remove_absent by exact H. apply tame_refl.
    - rewrite Mm. unfold iget_dictionary. unfold mbind at 1, mget at 1. destruct (m_cur (i_m s)); [apply tame_refl|].
      unfold mbind at 1, mget at 1. destruct (is_none (m_lang (i_m s))); [apply tame_refl|].
      unfold mbind at 1. pose proof (iget_tame depth0 Member s) as T. destruct (iget cf fs env cuts depth0 Member s) as [[p|e|u| |] s1]; cbn [snd] in *; try exact T.
      cbn. eapply tame_trans; [exact T|]. apply tame_lang.
    - rewrite Mm. apply iget_tame.
    - rewrite Mm. unfold iget_languages. unfold mbind at 1, mget at 1.
      assert (PC : pres (fun s' => tame (i_m s) (i_m s')) (ilangs_of_dirs cf fs env (m_path (i_m s)) (m_path (i_m s)) [])).
      { apply pres_langs. intros pt x Hx. cbn [interrupt snd i_m]. eapply tame_trans; [exact Hx|apply E]. }
      apply PC, tame_refl.
    - rewrite Ml. apply tame_refl.
    - rewrite Ml. apply tame_refl.
  Qed.
End Tame.

Lemma plays_tame cf m m' : plays cf harmless m m' -> tame m m'.
Proof.
  intro H. induction H as [m|m op fs env cuts m2 A N IHN G IHG]; [apply tame_refl|].
  eapply tame_trans; [|exact IHG]. exact (istep_tame cf fs env cuts IHN op (start_ist m) A).
Qed.

(** ** without interruptions that change anything *)
Section Quiet.
  Variable cf : config.
  Variable fs : file_system.
  Variable cuts : nat -> list nat.
  Definition quiet_env : nat -> point -> manager -> manager := fun _ _ m => m.

  (** [c] does to the manager what [f] does, as long as [P] holds *)
  Variable P : manager -> Prop.
  Definition same_end {A} (r : outcome A * ist) (r' : outcome A * manager) : Prop :=
    fst r = fst r' /\ i_m (snd r) = snd r' /\ P (i_m (snd r)).
  Definition mimics {A} (c : M ist A) (f : M manager A) : Prop := forall s, P (i_m s) -> same_end (c s) (f (i_m s)).
  Lemma mim_bind {A B} (c : M ist A) f (k : A -> M ist B) g : mimics c f -> (forall x, mimics (k x) (g x)) ->
    mimics (mbind c k) (mbind f g).
  Proof.
    intros H G s Ps. destruct (H s Ps) as (H1 & H2 & H3). unfold mbind. destruct (c s) as [o s1], (f (i_m s)) as [o' m1]. cbn [fst snd] in *. subst o' m1.
    unfold same_end. destruct o as [x|e|u| |]; cbn [fst snd]; auto. exact (G x s1 H3).
  Qed.
  Lemma mim_lift {A} (f : M manager A) : (forall m, P m -> P (snd (f m))) -> mimics (ilift f) f.
  Proof. intros H s Ps. unfold ilift. specialize (H _ Ps). now destruct (f (i_m s)). Qed.
  Lemma mim_ret {A} (x : A) : mimics (mret x) (mret x). Proof. intro s. now split. Qed.
  Lemma mim_fail {A} o : mimics (@mfail ist A o) (mfail o). Proof. intro s. now split. Qed.
  Lemma mim_mlift {A} (o : outcome A) : mimics (mlift o) (mlift o). Proof. intro s. now split. Qed.
  Lemma mim_get {A} (f : manager -> A) : mimics (mget (fun s => f (i_m s))) (mget f). Proof. intro s. now split. Qed.
  Lemma mim_int {A} pt (c : M ist A) f : mimics c f -> mimics (mbind (interrupt quiet_env pt) (fun _ => c)) f.
  Proof. intros H s Ps. unfold mbind, interrupt. cbn [quiet_env]. exact (H {| i_m := i_m s; i_n := _; i_seen := _ |} Ps). Qed.
  Lemma mim_eq {A} (c : M ist A) f g : (forall m, P m -> f m = g m) -> mimics c f -> mimics c g.
  Proof. intros H G s Ps. rewrite <- (H _ Ps). now apply G. Qed.

  Variable path : list bytes.
  Variable lang : language.
  Hypothesis P_path : forall m, P m -> m_path m = path.
  Hypothesis P_lang : forall m, P m -> m_lang m = lang.
  Hypothesis P_tr : forall m t, P m -> P (upd_tr m t).
  Hypothesis P_heap : forall m h, P m -> P (upd_heap m h).
  Hypothesis P_alloc : forall m l, P m -> P (alloc m l).

  Lemma mim_int_end pt : mimics (interrupt quiet_env pt) (mret tt).
  Proof. intros s Ps. split; [reflexivity|]. split; [reflexivity|exact Ps]. Qed.
  Lemma mim_emit t : mimics (ilift (emit_m t)) (emit_m t).
  Proof. apply mim_lift. intros m Pm. exact (P_tr _ _ Pm). Qed.
  Lemma mim_check : mimics (icheck path) (mret tt).
  Proof.
    intros s Ps. unfold icheck, mbind, mget. rewrite (P_path _ Ps), strs_eqb_refl. split; [reflexivity|]. split; [reflexivity|exact Ps].
  Qed.

  Lemma mim_proj {A B} (g : manager -> B) v (k : B -> M ist A) k' : (forall m, P m -> g m = v) -> mimics (k v) (k' v) ->
    mimics (mbind (mget (fun s => g (i_m s))) k) (mbind (mget g) k').
  Proof. intros G H s Ps. unfold mbind, mget. rewrite (G _ Ps). exact (H s Ps). Qed.
  Lemma mim_path {A} (k : list bytes -> M ist A) k' : mimics (k path) (k' path) ->
    mimics (mbind (mget (fun s => m_path (i_m s))) k) (mbind (mget m_path) k').
  Proof. intros H s Ps. unfold mbind, mget. rewrite (P_path _ Ps). exact (H s Ps). Qed.

  Lemma write_live id cs m d : heap_get (m_heap m) id = Some d ->
    write_calls id cs m = (Ret tt, upd_heap m (heap_set (m_heap m) id (fold_left apply_call cs d))).
  Proof.
    intros H. unfold write_calls. destruct cs as [|c cs]; [|now rewrite H].
    cbn [fold_left]. rewrite (heap_set_id _ _ _ H). now destruct m.
  Qed.
  Lemma iwrites_quiet id name ks : forall cs s d, heap_get (m_heap (i_m s)) id = Some d ->
    fst (iwrites quiet_env id name ks cs s) = Ret tt /\
    i_m (snd (iwrites quiet_env id name ks cs s)) = upd_heap (i_m s) (heap_set (m_heap (i_m s)) id (fold_left apply_call cs d)).
  Proof.
    induction ks as [|k ks IH]; intros cs s d H; cbn [iwrites].
    - unfold ilift. rewrite (write_live id cs _ d H). now split.
    - set (s1 := {| i_m := upd_heap (i_m s) (heap_set (m_heap (i_m s)) id (fold_left apply_call (firstn k cs) d));
                    i_n := S (i_n s); i_seen := i_seen s ++ [(AtMessage name (length (skipn k cs)), upd_heap (i_m s) (heap_set (m_heap (i_m s)) id (fold_left apply_call (firstn k cs) d)))] |}).
      assert (Q : mbind (ilift (write_calls id (firstn k cs))) (fun _ => mbind (interrupt quiet_env (AtMessage name (length (skipn k cs)))) (fun _ => iwrites quiet_env id name ks (skipn k cs))) s
                  = iwrites quiet_env id name ks (skipn k cs) s1).
      { unfold mbind, ilift. rewrite (write_live id (firstn k cs) _ d H). reflexivity. }
      rewrite Q.
      assert (H1 : heap_get (m_heap (i_m s1)) id = Some (fold_left apply_call (firstn k cs) d)).
      { unfold s1. cbn [i_m upd_heap m_heap]. apply heap_get_set_same. }
      destruct (IH (skipn k cs) s1 _ H1) as [G1 G2]. split; [exact G1|]. rewrite G2.
      unfold s1. cbn [i_m upd_heap m_heap]. rewrite heap_set_twice, <- fold_left_app, firstn_skipn. reflexivity.
  Qed.

  Lemma mim_consider a b f : (forall s, P (i_m s) -> arg_lang a s = match a with Given l => l | Member => lang end) ->
    mimics (iconsider cf quiet_env a b f) (consider cf (match a with Given l => l | Member => lang end) b f).
  Proof.
    intro A. set (l := match a with Given l => l | Member => lang end) in *.
    unfold iconsider, consider. destruct (has_suffix f dot_po); [|apply mim_ret].
    apply mim_bind; [apply mim_mlift|intro stem]. apply mim_bind; [apply mim_mlift|intro po].
    destruct (is_none po).
    - apply mim_bind; [apply mim_emit|intro]. apply mim_int, mim_ret.
    - intros s Ps. unfold mbind at 1, mget. rewrite (A s Ps). cbv zeta. split; [reflexivity|]. split; [reflexivity|exact Ps].
  Qed.
  Lemma mim_best a files : (forall s, P (i_m s) -> arg_lang a s = match a with Given l => l | Member => lang end) -> forall b,
    mimics (ibest_file cf quiet_env a b files) (best_file cf (match a with Given l => l | Member => lang end) b files).
  Proof.
    intro A. induction files as [|f files IH]; intro b; cbn [ibest_file best_file]; [apply mim_ret|].
    apply mim_bind; [now apply mim_consider|intro; apply IH].
  Qed.
  Lemma mim_failed name e : mimics (ifailed quiet_env name e)
    (fun m => (Ret tt, upd_tr m (m_tr m ++ [EvLog (log_error (bs "error: failure parsing: " ++ name)); EvLog (log_error (what e))]))).
  Proof.
    intros s Ps. split; [reflexivity|]. split; [|exact (P_tr _ _ (P_tr _ _ Ps))].
    unfold ifailed, mbind, interrupt, ilift, emit_m, mmod. cbn [snd fst i_m i_n i_seen quiet_env upd_tr m_tr].
    unfold upd_tr. cbn [m_heap m_next m_freed m_cache m_path m_charset m_fuzzy m_lang m_cur m_empty m_tr]. rewrite <- app_assoc. reflexivity.
  Qed.
  Lemma mim_file id name : mimics (iload_file cf fs quiet_env cuts id name) (load_file cf fs id name).
  Proof.
    unfold iload_file. apply mim_int. unfold load_file. destruct (fs_file fs name) as [[i|]|e|u| |]; try (intros s Ps; split; [reflexivity|]; split; [reflexivity|exact Ps]).
    - intros s Ps. unfold mbind at 1, mget at 1. destruct (heap_get (m_heap (i_m s)) id) as [d|] eqn:H; [|split; [reflexivity|]; split; [reflexivity|exact Ps]].
      cbv zeta. set (r := po_parse cf name i d). unfold mbind at 1, mget at 1. unfold mbind at 1.
      destruct (iwrites_quiet id name (cuts (i_n s)) (pr_calls r) s d H) as [W1 W2].
      destruct (iwrites quiet_env id name (cuts (i_n s)) (pr_calls r) s) as [o s1]. cbn [fst snd] in W1, W2. subst o.
      pose proof (proj1 (parse_effects cf name i d)) as PE. fold r in PE. rewrite <- PE in W2. clear PE.
      assert (P1 : P (i_m s1)) by (rewrite W2; now apply P_heap).
      assert (Q : upd_tr (upd_heap (i_m s) (heap_set (m_heap (i_m s)) id (pr_dict r))) (m_tr (i_m s) ++ pr_trace r) = upd_tr (i_m s1) (m_tr (i_m s1) ++ pr_trace r))
        by (rewrite W2; reflexivity).
      rewrite Q. clear W2 Q H Ps. clearbody r.
      unfold mbind at 1. set (s2 := {| i_m := upd_tr (i_m s1) (m_tr (i_m s1) ++ pr_trace r); i_n := i_n s1; i_seen := i_seen s1 |}).
      change (ilift (emit_m (pr_trace r)) s1) with (@Ret unit tt, s2). cbv iota beta.
      change (upd_tr (i_m s1) (m_tr (i_m s1) ++ pr_trace r)) with (i_m s2).
      assert (P2 : P (i_m s2)) by (exact (P_tr _ _ P1)). clearbody s2.
      destruct (pr_outcome r) as [x|e|u| |]; try (split; [reflexivity|]; split; [reflexivity|exact P2]).
      destruct (is_std e); [exact (mim_failed name e s2 P2)|]. split; [reflexivity|]. split; [reflexivity|exact P2].
    - intros s Ps. split; [reflexivity|]. split; [reflexivity|]. exact (P_tr _ _ Ps).
    - destruct (is_std e); [apply mim_failed|]. intros s Ps. split; [reflexivity|]. split; [reflexivity|exact Ps].
  Qed.
  Lemma mim_dir a id p : (forall s, P (i_m s) -> arg_lang a s = match a with Given l => l | Member => lang end) ->
    mimics (iload_dir cf fs quiet_env cuts a id path p) (load_dir cf fs (match a with Given l => l | Member => lang end) id p).
  Proof.
    intro A. unfold iload_dir. apply mim_int. unfold load_dir. apply mim_bind; [apply mim_mlift|intro files].
    apply mim_bind; [now apply mim_best|intro b].
    apply (mim_eq _ (mbind (if is_nil (fst b) then mret tt else load_file cf fs id (p ++ bs "/" ++ fst b)) (fun _ => mret tt))).
    - intros m _. unfold mbind. destruct (is_nil (fst b)); [reflexivity|]. destruct (load_file _ _ _ _ _) as [[[]|?|?| |] ?]; reflexivity.
    - apply mim_bind; [|intro; apply mim_check]. destruct (is_nil (fst b)); [apply mim_ret|].
      intros s Ps. unfold mbind. destruct (mim_check s Ps) as (C1 & C2 & C3).
      destruct (icheck path s) as [o s1]. cbn [fst snd] in *. subst o. cbn [mret snd] in C2. rewrite <- C2. now apply mim_file.
  Qed.
  Lemma mim_dirs a id ps : (forall s, P (i_m s) -> arg_lang a s = match a with Given l => l | Member => lang end) ->
    mimics (iload_dirs cf fs quiet_env cuts a id path ps) (load_dirs cf fs (match a with Given l => l | Member => lang end) id ps).
  Proof.
    intro A. induction ps as [|p ps IH]; cbn [iload_dirs load_dirs]; [apply mim_ret|]. apply mim_bind; [now apply mim_dir|intro; exact IH].
  Qed.
  Lemma mim_iget dp : forall a, mimics (iget cf fs quiet_env cuts dp a) (get_dictionary_lang cf fs dp (match a with Given l => l | Member => lang end)).
  Proof.
    induction dp as [|dp IH]; intro a; [apply mim_fail|].
    assert (A : forall s, P (i_m s) -> arg_lang a s = match a with Given l => l | Member => lang end).
    { intros s Ps. destruct a; [reflexivity|]. exact (P_lang _ Ps). }
    cbn [iget get_dictionary_lang]. set (l := match a with Given l => l | Member => lang end) in *.
    intros s Ps. unfold mbind at 1, mget at 1. rewrite (A s Ps). revert s Ps.
    match goal with |- forall s, P (i_m s) -> same_end (?c s) (?f (i_m s)) => change (mimics c f) end.
    destruct (negb (cf_ndebug cf) && is_none l); [apply mim_fail|].
    apply mim_bind; [apply (mim_get m_cache)|intro c]. destruct (cache_find l c) as [q|]; [apply mim_ret|].
    apply mim_bind; [apply (mim_get m_next)|intro id]. apply mim_bind; [apply mim_lift; intros m Pm; exact (P_alloc _ _ Pm)|intro].
    apply mim_path.
    apply mim_bind; [now apply mim_dirs|intro].
    intros s Ps. unfold mbind at 1, mget at 1. rewrite (A s Ps). revert s Ps.
    match goal with |- forall s, P (i_m s) -> same_end (?c s) (?f (i_m s)) => change (mimics c f) end.
    destruct (is_nil (get_country l)); [apply mim_ret|].
    apply mim_bind; [apply mim_mlift|intro b]. apply mim_bind; [exact (IH (Given b))|intro fb].
    apply mim_bind; [|intro; apply mim_ret]. apply mim_lift. intros m Pm. unfold set_fallback.
    destruct (heap_get (m_heap m) id); [apply P_heap|]; exact Pm.
  Qed.
End Quiet.

Lemma istep_quiet cf fs cuts op m :
  fst (istep cf fs quiet_env cuts op (start_ist m)) = fst (mstep cf fs op m) /\
  i_m (snd (istep cf fs quiet_env cuts op (start_ist m))) = snd (mstep cf fs op m).
Proof.
  set (P := fun x : manager => m_path x = m_path m /\ m_lang x = m_lang m).
  assert (P0 : P (i_m (start_ist m))) by (split; reflexivity).
  assert (Z : mimics P (istep cf fs quiet_env cuts op) (mstep cf fs op) \/
              exists A (f : A -> mout) c g, istep cf fs quiet_env cuts op = mmap f c /\ mstep cf fs op = mmap f g /\ mimics P c g \/
              istep cf fs quiet_env cuts op = ilift (mstep cf fs op)).
  { assert (G : forall a, mimics P (iget cf fs quiet_env cuts depth0 a)
                   (get_dictionary_lang cf fs depth0 (match a with Given l => l | Member => m_lang m end))).
    { intro a. apply (mim_iget cf fs cuts P (m_path m) (m_lang m)); unfold P; cbn; intuition. }
    assert (GL : forall A B (f : A -> B) (c : M ist A) (g : M manager A), mimics P c g -> mimics P (mmap f c) (mmap f g)).
    { intros A B f c g H. unfold mmap. apply mim_bind; [exact H|intro; apply mim_ret]. }
    destruct op; try (right; exists unit, (fun _ => OutUnit), (mret tt), (mret tt); right; reflexivity).
    - left. apply GL. unfold iget_dictionary, get_dictionary.
      apply mim_bind; [apply (mim_get P m_cur)|intros [p|]]; [apply mim_ret|].
      apply (mim_proj P m_lang (m_lang m)); [intros x [_ H]; exact H|].
      destruct (is_none (m_lang m)); [apply mim_ret|]. apply mim_bind; [exact (G Member)|intro p].
      apply mim_bind; [|intro; apply mim_ret]. apply mim_lift. intros x Px. exact Px.
    - left. apply GL. exact (G (Given l)).
    - left. apply GL. unfold iget_languages, get_languages.
      apply (mim_path P (m_path m)); [intros x [H _]; exact H|].
      assert (L : forall ps acc, mimics P (ilangs_of_dirs cf fs quiet_env (m_path m) ps acc) (mlift (langs_of_dirs cf fs ps acc))).
      { induction ps as [|p ps IH]; intro acc; cbn [ilangs_of_dirs langs_of_dirs]; [apply mim_ret|].
        apply mim_int. intros s Ps. unfold mbind at 1, mlift at 1.
        destruct (fs_dir fs p) as [files|e|u| |]; cbn [obind]; try (split; [reflexivity|]; split; [reflexivity|exact Ps]).
        unfold mbind at 1, mlift at 1.
        destruct (langs_of_files cf files acc) as [acc'|e|u| |]; cbn [obind]; try (split; [reflexivity|]; split; [reflexivity|exact Ps]).
        unfold mbind. pose proof (mim_check P (m_path m) (fun x H => proj1 H) s Ps) as C. destruct (icheck (m_path m) s) as [o s1].
        destruct C as (C1 & C2 & C3). cbn [fst snd mret] in *. subst o. rewrite <- C2. exact (IH acc' s1 C3). }
      apply L. }
  destruct Z as [Z|(A & f & c & g & [(Z1 & Z2 & Z)|Z])].
  - destruct (Z _ P0) as (H1 & H2 & _). auto.
  - rewrite Z1, Z2. assert (GL : mimics P (mmap f c) (mmap f g)) by (unfold mmap; apply mim_bind; [exact Z|intro; apply mim_ret]).
    destruct (GL _ P0) as (H1 & H2 & _). auto.
  - rewrite Z. unfold ilift. destruct (mstep cf fs op (i_m (start_ist m))) as [o m1] eqn:E. change (i_m (start_ist m)) with m in E. rewrite E. auto.
Qed.

(** ** what is loaded *)
Lemma lc_refl d : later_calls d d. Proof. now exists []. Qed.
Lemma lc_trans a b c : later_calls a b -> later_calls b c -> later_calls a c.
Proof. intros (x & ->) (y & ->). exists (x ++ y). now rewrite fold_left_app. Qed.
Lemma lc_calls cs d : later_calls d (fold_left apply_call cs d). Proof. now exists cs. Qed.

(** from [s], where dictionary [id] is [d], to [s'], where it is [d'] *)
Definition arg_of (a : lang_arg) (m : manager) : language := match a with Given l => l | Member => m_lang m end.
Definition glimpse (id : ptr) (m : manager) (d d' : dictionary) (x : point * manager) : Prop :=
  tame_but id m (snd x) /\ exists ds, heap_get (m_heap (snd x)) id = Some ds /\ later_calls d ds /\ later_calls ds d'.
Record stage (id : ptr) (s s' : ist) (d d' : dictionary) : Prop := {
  st_but : tame_but id (i_m s) (i_m s');
  st_dict : heap_get (m_heap (i_m s')) id = Some d';
  st_later : later_calls d d';
  st_seen : exists new, i_seen s' = i_seen s ++ new /\ Forall (glimpse id (i_m s) d d') new }.
Lemma stage_refl id s d : heap_get (m_heap (i_m s)) id = Some d -> stage id s s d d.
Proof.
  intro H. constructor; [apply but_refl|exact H|apply lc_refl|]. exists []. rewrite app_nil_r. split; [reflexivity|constructor].
Qed.
Lemma stage_trans id s1 s2 s3 d1 d2 d3 : stage id s1 s2 d1 d2 -> stage id s2 s3 d2 d3 -> stage id s1 s3 d1 d3.
Proof.
  intros [A1 A2 A3 (n1 & A4 & A5)] [B1 B2 B3 (n2 & B4 & B5)].
  constructor; [eapply but_trans; eauto|exact B2|eapply lc_trans; eauto|].
  exists (n1 ++ n2). split; [now rewrite B4, A4, app_assoc|]. apply Forall_app. split.
  - eapply Forall_impl; [|exact A5]. intros x (T & ds & H1 & H2 & H3). split; [exact T|]. exists ds. split; [exact H1|]. split; [exact H2|]. eapply lc_trans; eauto.
  - eapply Forall_impl; [|exact B5]. intros x (T & ds & H1 & H2 & H3). split; [eapply but_trans; eauto|]. exists ds. split; [exact H1|].
    split; [eapply lc_trans; eauto|exact H3].
Qed.

Section Content.
  Variable cf : config.
  Variable fs : file_system.
  Variable env : nat -> point -> manager -> manager.
  Variable cuts : nat -> list nat.
  Hypothesis E : forall n pt m, tame m (env n pt m).
  Variable id : ptr.

  Definition holds (s : ist) (d : dictionary) : Prop := id < m_next (i_m s) /\ heap_get (m_heap (i_m s)) id = Some d.
  Lemma stage_holds s s' d d' : holds s d -> stage id s s' d d' -> holds s' d'.
  Proof. intros [H _] [B D _ _]. split; [|exact D]. pose proof (tb_next _ _ _ B). lia. Qed.

  Lemma stage_int pt s d : holds s d -> stage id s (snd (interrupt env pt s)) d d.
  Proof.
    intros [H1 H2]. cbn [interrupt snd]. constructor; cbn [i_m i_seen].
    - apply but_tame, E.
    - rewrite (tm_heap _ _ (E (i_n s) pt (i_m s)) id H1). exact H2.
    - apply lc_refl.
    - exists [(pt, i_m s)]. split; [reflexivity|]. constructor; [|constructor]. split; [apply but_refl|].
      exists d. split; [exact H2|]. split; apply lc_refl.
  Qed.
  Lemma stage_emit t s d : holds s d -> stage id s (snd (ilift (emit_m t) s)) d d.
  Proof.
    intros [H1 H2]. unfold ilift, emit_m, mmod. cbn [snd]. constructor; cbn [i_m i_seen]; [apply but_tr|exact H2|apply lc_refl|].
    exists []. rewrite app_nil_r. split; [reflexivity|constructor].
  Qed.
  Lemma write_ok cs s d : holds s d ->
    exists s', ilift (write_calls id cs) s = (Ret tt, s') /\ stage id s s' d (fold_left apply_call cs d) /\ m_lang (i_m s') = m_lang (i_m s).
  Proof.
    intros [H1 H2]. unfold ilift. rewrite (write_live id cs _ d H2). eexists. split; [reflexivity|]. split; [|reflexivity].
    constructor; cbn [i_m i_seen]; [apply but_set|apply heap_get_set_same|apply lc_calls|].
    exists []. rewrite app_nil_r. split; [reflexivity|constructor].
  Qed.

  (** the language in force *)
  Variable a : lang_arg.
  Variable l : language.
  Hypothesis K : forall n pt m, (forall q, pt <> AtDir q) -> arg_of a m = l -> arg_of a (env n pt m) = l.

  Lemma arg_eq s : arg_lang a s = arg_of a (i_m s). Proof. now destruct a. Qed.
  Lemma arg_int pt s : (forall q, pt <> AtDir q) -> arg_of a (i_m s) = l -> arg_of a (i_m (snd (interrupt env pt s))) = l.
  Proof. intros H G. now apply K. Qed.

  Lemma consider_ok b f s d : holds s d -> arg_of a (i_m s) = l ->
    exists s', iconsider cf env a b f s = (fst (pconsider cf l b f), s') /\ stage id s s' d d /\ arg_of a (i_m s') = l.
  Proof.
    intros H A. unfold iconsider, pconsider. destruct (has_suffix f dot_po).
    2:{ exists s. split; [reflexivity|]. split; [now apply stage_refl, H|exact A]. }
    unfold mbind at 1, mlift at 1. destruct (convertFilename2Language _ _) as [stem|e|u| |]; cbn [obind fst];
      try (exists s; split; [reflexivity|]; split; [now apply stage_refl, H|exact A]).
    unfold mbind at 1, mlift at 1. destruct (from_env _ _) as [po|e|u| |]; cbn [fst];
      try (exists s; split; [reflexivity|]; split; [now apply stage_refl, H|exact A]).
    destruct (is_none po); cbn [fst].
    - set (t := [EvLog (log_warning (f ++ bs ": warning: ignoring, unknown language"))]).
      pose proof (stage_emit t s d H) as S1. set (s1 := snd (ilift (emit_m t) s)) in *.
      assert (H1 : holds s1 d) by (eapply stage_holds; eauto).
      pose proof (stage_int (AtWarning f) s1 d H1) as S2.
      exists (snd (interrupt env (AtWarning f) s1)). split; [reflexivity|]. split; [eapply stage_trans; eauto|].
      apply arg_int; [discriminate|]. unfold s1. exact A.
    - unfold mbind, mget. rewrite arg_eq, A. exists s. split; [reflexivity|]. split; [now apply stage_refl, H|exact A].
  Qed.
  Lemma best_ok files : forall b s d, holds s d -> arg_of a (i_m s) = l ->
    exists s', ibest_file cf env a b files s = (fst (pbest cf l b files), s') /\ stage id s s' d d /\ arg_of a (i_m s') = l.
  Proof.
    induction files as [|f files IH]; intros b s d H A; cbn [ibest_file pbest].
    - exists s. split; [reflexivity|]. split; [now apply stage_refl, H|exact A].
    - destruct (consider_ok b f s d H A) as (s1 & C1 & S1 & A1). unfold mbind. rewrite C1.
      destruct (pconsider cf l b f) as [[b1|e|u| |] t1]; cbn [fst]; try (exists s1; solve [auto]).
      destruct (IH b1 s1 d (stage_holds _ _ _ _ H S1) A1) as (s2 & C2 & S2 & A2). rewrite C2.
      destruct (pbest cf l b1 files) as [o t2]. cbn [fst]. exists s2. split; [reflexivity|]. split; [eapply stage_trans; eauto|exact A2].
  Qed.
  Lemma writes_ok name ks : forall cs s d, holds s d -> arg_of a (i_m s) = l ->
    exists s', iwrites env id name ks cs s = (Ret tt, s') /\ stage id s s' d (fold_left apply_call cs d) /\ arg_of a (i_m s') = l.
  Proof.
    assert (AW : forall cs s s', ilift (write_calls id cs) s = (Ret tt, s') -> m_lang (i_m s') = m_lang (i_m s) -> arg_of a (i_m s) = l -> arg_of a (i_m s') = l).
    { intros cs s s' _ W G. destruct a; [exact G|]. cbn [arg_of] in *. congruence. }
    induction ks as [|k ks IH]; intros cs s d H A; cbn [iwrites].
    - destruct (write_ok cs s d H) as (s1 & W1 & S1 & L1). exists s1. split; [exact W1|]. split; [exact S1|]. eapply AW; eauto.
    - destruct (write_ok (firstn k cs) s d H) as (s1 & W1 & S1 & L1). unfold mbind. rewrite W1.
      assert (H1 := stage_holds _ _ _ _ H S1). assert (A1 : arg_of a (i_m s1) = l) by (eapply AW; eauto).
      pose proof (stage_int (AtMessage name (length (skipn k cs))) s1 _ H1) as S2.
      assert (A2 : arg_of a (i_m (snd (interrupt env (AtMessage name (length (skipn k cs))) s1))) = l) by (apply arg_int; [discriminate|exact A1]).
      change (interrupt env (AtMessage name (length (skipn k cs))) s1) with (@Ret unit tt, snd (interrupt env (AtMessage name (length (skipn k cs))) s1)). cbv iota beta.
      set (s2 := snd (interrupt env (AtMessage name (length (skipn k cs))) s1)) in *. clearbody s2.
      destruct (IH (skipn k cs) s2 _ (stage_holds _ _ _ _ H1 S2) A2) as (s3 & W3 & S3 & A3).
      exists s3. split; [exact W3|]. split; [|exact A3].
      replace (fold_left apply_call cs d) with (fold_left apply_call (skipn k cs) (fold_left apply_call (firstn k cs) d))
        by (now rewrite <- fold_left_app, firstn_skipn).
      eapply stage_trans; [exact S1|]. eapply stage_trans; eauto.
  Qed.
  Lemma emit_ok t s d : holds s d -> arg_of a (i_m s) = l ->
    exists s', ilift (emit_m t) s = (Ret tt, s') /\ stage id s s' d d /\ arg_of a (i_m s') = l.
  Proof. intros H A. exists (snd (ilift (emit_m t) s)). split; [reflexivity|]. split; [now apply stage_emit|exact A]. Qed.
  Lemma int_ok pt s d : (forall q, pt <> AtDir q) -> holds s d -> arg_of a (i_m s) = l ->
    exists s', interrupt env pt s = (Ret tt, s') /\ stage id s s' d d /\ arg_of a (i_m s') = l.
  Proof. intros N H A. exists (snd (interrupt env pt s)). split; [reflexivity|]. split; [now apply stage_int|now apply arg_int]. Qed.
  Lemma failed_ok name e s d : holds s d -> arg_of a (i_m s) = l ->
    exists s', ifailed env name e s = (Ret tt, s') /\ stage id s s' d d /\ arg_of a (i_m s') = l.
  Proof.
    intros H A. unfold ifailed.
    destruct (emit_ok [EvLog (log_error (bs "error: failure parsing: " ++ name))] s d H A) as (s1 & C1 & S1 & A1).
    unfold mbind at 1. rewrite C1. assert (H1 := stage_holds _ _ _ _ H S1).
    destruct (int_ok (AtError name) s1 d) as (s2 & C2 & S2 & A2); [discriminate|exact H1|exact A1|].
    unfold mbind at 1. rewrite C2. assert (H2 := stage_holds _ _ _ _ H1 S2).
    destruct (emit_ok [EvLog (log_error (what e))] s2 d H2 A2) as (s3 & C3 & S3 & A3).
    unfold mbind at 1. rewrite C3. assert (H3 := stage_holds _ _ _ _ H2 S3).
    destruct (int_ok (AtError name) s3 d) as (s4 & C4 & S4 & A4); [discriminate|exact H3|exact A3|].
    exists s4. split; [exact C4|]. split; [|exact A4].
    eapply stage_trans; [exact S1|]. eapply stage_trans; [exact S2|]. eapply stage_trans; eauto.
  Qed.
  Lemma file_ok name s d : holds s d -> arg_of a (i_m s) = l ->
    exists s', iload_file cf fs env cuts id name s = (fst (fst (pfile cf fs name d)), s') /\
      stage id s s' d (snd (fst (pfile cf fs name d))) /\ arg_of a (i_m s') = l.
  Proof.
    intros H A. unfold iload_file, pfile.
    destruct (int_ok (AtOpen name) s d) as (s1 & C1 & S1 & A1); [discriminate|exact H|exact A|].
    unfold mbind at 1. rewrite C1. assert (H1 := stage_holds _ _ _ _ H S1).
    destruct (fs_file fs name) as [[i|]|e|u| |]; cbn [fst snd];
      try (exists s1; split; [reflexivity|]; split; [exact S1|exact A1]).
    - unfold mbind at 1, mget at 1. rewrite (proj2 H1). cbv zeta. set (r := po_parse cf name i d).
      unfold mbind at 1, mget at 1.
      destruct (writes_ok name (cuts (i_n s1)) (pr_calls r) s1 d H1 A1) as (s2 & C2 & S2 & A2).
      pose proof (proj1 (parse_effects cf name i d)) as PE. fold r in PE. rewrite <- PE in S2. clear PE.
      unfold mbind at 1. rewrite C2. assert (H2 := stage_holds _ _ _ _ H1 S2).
      destruct (emit_ok (pr_trace r) s2 _ H2 A2) as (s3 & C3 & S3 & A3).
      unfold mbind at 1. rewrite C3. assert (H3 := stage_holds _ _ _ _ H2 S3).
      assert (S13 : stage id s s3 d (pr_dict r)) by (eapply stage_trans; [exact S1|]; eapply stage_trans; eauto).
      destruct (pr_outcome r) as [x|e|u| |]; cbn [fst snd]; try (exists s3; split; [reflexivity|]; split; [exact S13|exact A3]).
      destruct (is_std e); cbn [fst snd]; [|exists s3; split; [reflexivity|]; split; [exact S13|exact A3]].
      destruct (failed_ok name e s3 _ H3 A3) as (s4 & C4 & S4 & A4). exists s4. split; [exact C4|]. split; [eapply stage_trans; eauto|exact A4].
    - destruct (emit_ok [EvLog (log_error (bs "error: failure opening: " ++ name))] s1 d H1 A1) as (s2 & C2 & S2 & A2).
      unfold mbind at 1. rewrite C2. assert (H2 := stage_holds _ _ _ _ H1 S2).
      destruct (int_ok (AtError name) s2 d) as (s3 & C3 & S3 & A3); [discriminate|exact H2|exact A2|].
      exists s3. split; [exact C3|]. split; [|exact A3]. eapply stage_trans; [exact S1|]. eapply stage_trans; eauto.
    - destruct (is_std e); cbn [fst snd]; [|exists s1; split; [reflexivity|]; split; [exact S1|exact A1]].
      destruct (failed_ok name e s1 _ H1 A1) as (s4 & C4 & S4 & A4). exists s4. split; [exact C4|]. split; [eapply stage_trans; eauto|exact A4].
  Qed.
  Lemma check_ok path s : m_path (i_m s) = path -> icheck path s = (Ret tt, s).
  Proof. intro H. unfold icheck, mbind, mget. now rewrite H, strs_eqb_refl. Qed.

  (** the language is the one in force after open_directory has returned *)
  Lemma dir_ok path p s d : holds s d -> m_path (i_m s) = path ->
    arg_of a (i_m (snd (interrupt env (AtDir p) s))) = l ->
    exists s', iload_dir cf fs env cuts a id path p s = (fst (fst (pdir cf fs l p d)), s') /\
      stage id s s' d (snd (fst (pdir cf fs l p d))) /\ arg_of a (i_m s') = l.
  Proof.
    intros H Pa A. unfold iload_dir, pdir. pose proof (stage_int (AtDir p) s d H) as S1.
    unfold mbind at 1. change (interrupt env (AtDir p) s) with (@Ret unit tt, snd (interrupt env (AtDir p) s)). cbv iota beta.
    set (s1 := snd (interrupt env (AtDir p) s)) in *. clearbody s1. assert (H1 := stage_holds _ _ _ _ H S1).
    unfold mbind at 1, mlift at 1. destruct (fs_dir fs p) as [files|e|u| |]; cbn [fst snd];
      try (exists s1; split; [reflexivity|]; split; [exact S1|exact A]).
    destruct (best_ok files ([], 0%Z) s1 d H1 A) as (s2 & C2 & S2 & A2). unfold mbind at 1. rewrite C2.
    assert (H2 := stage_holds _ _ _ _ H1 S2). assert (S02 := stage_trans _ _ _ _ _ _ _ S1 S2).
    assert (P2 : m_path (i_m s2) = path) by (rewrite (tb_path _ _ _ (st_but _ _ _ _ _ S02)); exact Pa).
    destruct (pbest cf l ([], 0%Z) files) as [[b|e|u| |] t]; cbn [fst snd];
      try (exists s2; split; [reflexivity|]; split; [exact S02|exact A2]).
    destruct (is_nil (fst b)); cbn [fst snd].
    - unfold mbind at 1. cbn [mret]. rewrite (check_ok path s2 P2). exists s2. split; [reflexivity|]. split; [exact S02|exact A2].
    - unfold mbind at 1. unfold mbind at 1. rewrite (check_ok path s2 P2).
      destruct (file_ok (p ++ bs "/" ++ fst b) s2 d H2 A2) as (s3 & C3 & S3 & A3). rewrite C3.
      destruct (pfile cf fs (p ++ bs "/" ++ fst b) d) as [[o d'] t']. cbn [fst snd] in *.
      assert (S03 := stage_trans _ _ _ _ _ _ _ S02 S3).
      assert (P3 : m_path (i_m s3) = path) by (rewrite (tb_path _ _ _ (st_but _ _ _ _ _ S03)); exact Pa).
      destruct o as [[]|e|u| |]; try (exists s3; split; [reflexivity|]; split; [exact S03|exact A3]).
      rewrite (check_ok path s3 P3). exists s3. split; [reflexivity|]. split; [exact S03|exact A3].
  Qed.
  Lemma dirs_ok path ps : forall s d, holds s d -> m_path (i_m s) = path -> arg_of a (i_m s) = l ->
    (forall n q m, In q ps -> arg_of a m = l -> arg_of a (env n (AtDir q) m) = l) ->
    exists s', iload_dirs cf fs env cuts a id path ps s = (fst (fst (pload cf fs l ps d)), s') /\
      stage id s s' d (snd (fst (pload cf fs l ps d))) /\ arg_of a (i_m s') = l.
  Proof.
    induction ps as [|p ps IH]; intros s d H Pa A K2; cbn [iload_dirs pload].
    - exists s. split; [reflexivity|]. split; [now apply stage_refl, H|exact A].
    - destruct (dir_ok path p s d H Pa) as (s1 & C1 & S1 & A1); [apply K2; [now left|exact A]|].
      unfold mbind. rewrite C1. destruct (pdir cf fs l p d) as [[[[]|e|u| |] d1] t1]; cbn [fst snd] in *; try (exists s1; solve [auto]).
      destruct (IH s1 d1 (stage_holds _ _ _ _ H S1)) as (s2 & C2 & S2 & A2); [rewrite (tb_path _ _ _ (st_but _ _ _ _ _ S1)); exact Pa|exact A1| |].
      + intros n q m Hq. apply K2. now right.
      + rewrite C2. destruct (pload cf fs l ps d1) as [[o d2] t2]. cbn [fst snd] in *. exists s2. split; [reflexivity|].
        split; [eapply stage_trans; eauto|exact A2].
  Qed.
End Content.

(** ** the whole call *)
Lemma arg_same a s : arg_lang a s = arg_of a (i_m s). Proof. now destruct a. Qed.
Section Get.
  Variable cf : config.
  Variable fs : file_system.
  Variable env : nat -> point -> manager -> manager.
  Variable cuts : nat -> list nat.
  Hypothesis E : forall n pt m, tame m (env n pt m).

  Local Open Scope mon_scope.
  Definition ifinish (dp : nat) (a : lang_arg) (id : ptr) : M ist ptr :=
    lang2 <- mget (arg_lang a);;
    if is_nil (get_country lang2) then mret id
    else
      base <- mlift (from_spec (cf_ndebug cf) (get_language lang2) [] []);;
      fb <- iget cf fs env cuts dp (Given base);;
      ilift (set_fallback id fb);;
      mret id.
  Definition irest (dp : nat) (a : lang_arg) (id : ptr) (path : list bytes) : M ist ptr :=
    iload_dirs cf fs env cuts a id path (rev path);; ifinish dp a id.
  Definition allocated (s : ist) (l : language) : ist := {| i_m := alloc (i_m s) l; i_n := i_n s; i_seen := i_seen s |}.
  Lemma iget_eq dp a s : iget cf fs env cuts (S dp) a s =
    if negb (cf_ndebug cf) && is_none (arg_lang a s) then (AssertFail, s)
    else match cache_find (arg_lang a s) (m_cache (i_m s)) with
         | Some p => (Ret p, s)
         | None => irest dp a (m_next (i_m s)) (m_path (i_m s)) (allocated s (arg_lang a s))
         end.
  Proof.
    cbn [iget]. unfold mbind at 1, mget at 1. destruct (negb (cf_ndebug cf) && is_none (arg_lang a s)); [reflexivity|].
    unfold mbind at 1, mget at 1. now destruct (cache_find (arg_lang a s) (m_cache (i_m s))).
  Qed.

  Definition watched (R : manager -> manager -> Prop) (m0 : manager) (seen0 : list (point * manager)) (s : ist) : Prop :=
    R m0 (i_m s) /\ exists new, i_seen s = seen0 ++ new /\ Forall (fun x => R m0 (snd x)) new.
  Lemma watched_start (R : manager -> manager -> Prop) m0 s : R m0 (i_m s) -> watched R m0 (i_seen s) s.
  Proof. intro H. split; [exact H|]. exists []. rewrite app_nil_r. split; [reflexivity|constructor]. Qed.
  Lemma watched_int id m0 seen0 pt : pres (watched (tame_but id) m0 seen0) (interrupt env pt).
  Proof.
    intros s (H & new & Q & F). cbn [interrupt snd]. split; cbn [i_m i_seen].
    - eapply but_trans; [exact H|]. apply but_tame, E.
    - exists (new ++ [(pt, i_m s)]). split; [now rewrite Q, app_assoc|]. apply Forall_app. split; [exact F|]. constructor; [exact H|constructor].
  Qed.
  Lemma watched_lift {A} id m0 seen0 (f : M manager A) : (forall m, tame_but id m (snd (f m))) ->
    pres (watched (tame_but id) m0 seen0) (ilift f).
  Proof.
    intros T s (H & new & Q & F). unfold ilift. specialize (T (i_m s)). destruct (f (i_m s)) as [o m']. cbn [snd] in *.
    split; cbn [i_m i_seen]; [eapply but_trans; eauto|]. exists new. auto.
  Qed.
  Lemma write_but id cs m : tame_but id m (snd (write_calls id cs m)).
  Proof.
    unfold write_calls. destruct cs as [|c cs]; [apply but_refl|]. destruct (heap_get (m_heap m) id); [apply but_set|apply but_refl].
  Qed.
  Lemma fallback_but id fb m : tame_but id m (snd (set_fallback id fb m)).
  Proof. unfold set_fallback. destruct (heap_get (m_heap m) id); [apply but_set|apply but_refl]. Qed.

  Definition get_watched (dp : nat) : Prop := forall a s,
    watched tame (i_m s) (i_seen s) (snd (iget cf fs env cuts dp a s)).
  Lemma watched_trans id m0 seen0 s s' : watched (tame_but id) m0 seen0 s -> watched tame (i_m s) (i_seen s) s' ->
    watched (tame_but id) m0 seen0 s'.
  Proof.
    intros (H & n1 & Q & F) (H' & n2 & Q' & F'). split; [eapply but_trans; [exact H|]; now apply but_tame|].
    exists (n1 ++ n2). split; [now rewrite Q', Q, app_assoc|]. apply Forall_app. split; [exact F|].
    eapply Forall_impl; [|exact F']. intros x T. eapply but_trans; [exact H|]. now apply but_tame.
  Qed.
  Lemma finish_watched dp a id m0 seen0 : get_watched dp -> pres (watched (tame_but id) m0 seen0) (ifinish dp a id).
  Proof.
    intro G. unfold ifinish. apply pres_bind; [apply pres_get|intro l2]. destruct (is_nil (get_country l2)); [apply pres_ret|].
    apply pres_bind; [apply pres_mlift|intro b]. apply pres_bind.
    - intros s W. eapply watched_trans; [exact W|apply G].
    - intro fb. apply pres_bind; [|intro; apply pres_ret]. apply watched_lift. intro m. apply fallback_but.
  Qed.
  Lemma rest_watched dp a id path m0 seen0 : get_watched dp -> pres (watched (tame_but id) m0 seen0) (irest dp a id path).
  Proof.
    intro G. unfold irest. apply pres_bind; [|intro; now apply finish_watched]. apply pres_dirs.
    - intro pt. apply watched_int.
    - intro t. apply watched_lift. intro m. apply but_tr.
    - intro cs. apply watched_lift. intro m. apply write_but.
  Qed.
  Lemma watched_new s l s' : watched (tame_but (m_next (i_m s))) (alloc (i_m s) l) (i_seen s) s' -> watched tame (i_m s) (i_seen s) s'.
  Proof.
    intros (H & new & Q & F). split; [now apply but_new with l|]. exists new. split; [exact Q|].
    eapply Forall_impl; [|exact F]. intros x T. now apply but_new with l.
  Qed.
  Lemma get_is_watched dp : get_watched dp.
  Proof.
    induction dp as [|dp IH]; intros a s; [apply watched_start, tame_refl|]. rewrite iget_eq.
    destruct (negb (cf_ndebug cf) && is_none (arg_lang a s)); [apply watched_start, tame_refl|].
    destruct (cache_find (arg_lang a s) (m_cache (i_m s))) as [p|]; [apply watched_start, tame_refl|].
    apply (watched_new s (arg_lang a s)).
    exact (rest_watched dp a (m_next (i_m s)) (m_path (i_m s)) _ _ IH (allocated s (arg_lang a s)) (watched_start _ _ (allocated s (arg_lang a s)) (but_refl _ _))).
  Qed.

  (** what is being loaded is in the cache from the start *)
  Lemma alloc_find m l : cache_find l (m_cache m) = None -> cache_find l (m_cache (alloc m l)) = Some (m_next m).
  Proof. intro H. cbn [alloc m_cache]. rewrite cache_find_app_none by exact H. cbn [cache_find]. now rewrite lang_eqb_refl. Qed.
  Lemma rest_returns dp a id path s p s' : irest dp a id path s = (Ret p, s') -> p = id.
  Proof.
    assert (R : forall A (c : M ist A) k, (forall x s, match k x s with (Ret q, _) => q = id | _ => True end) ->
              forall s, match mbind c k s with (Ret q, _) => q = id | _ => True end).
    { intros A c k H t. unfold mbind. destruct (c t) as [[x|?|?| |] t']; auto. apply H. }
    assert (Z : forall t, match irest dp a id path t with (Ret q, _) => q = id | _ => True end).
    { unfold irest, ifinish. apply R. intros _. apply R. intros l2. destruct (is_nil (get_country l2)); [intro; reflexivity|].
      apply R. intro b. apply R. intro fb. apply R. intros _ t. reflexivity. }
    intro H. specialize (Z s). rewrite H in Z. exact Z.
  Qed.
  Lemma get_cached dp l s p s' : iget cf fs env cuts dp (Given l) s = (Ret p, s') -> cache_find l (m_cache (i_m s')) = Some p.
  Proof.
    destruct dp as [|dp]; [discriminate|]. rewrite iget_eq. cbn [arg_lang].
    destruct (negb (cf_ndebug cf) && is_none l); [discriminate|].
    destruct (cache_find l (m_cache (i_m s))) as [q|] eqn:C; [intro H; injection H as <- <-; exact C|].
    intro H. pose proof (rest_returns _ _ _ _ _ _ _ H) as ->.
    pose proof (rest_watched dp (Given l) (m_next (i_m s)) (m_path (i_m s)) _ _ (get_is_watched dp) (allocated s l) (watched_start _ _ (allocated s l) (but_refl _ _))) as (T & _).
    rewrite H in T. cbn [snd] in T. apply (but_find _ _ _ _ _ T). now apply alloc_find.
  Qed.

  (** content *)
  Definition sees (id : ptr) (l : language) (d0 d1 : dictionary) (x : point * manager) : Prop :=
    cache_find l (m_cache (snd x)) = Some id /\
    exists ds, heap_get (m_heap (snd x)) id = Some ds /\ later_calls d0 ds /\ later_calls ds d1.
  Definition finished_as (l : language) (id : ptr) (d1 : dictionary) (o : outcome ptr) (m : manager) : Prop :=
    if is_nil (get_country l) then o = Ret id /\ heap_get (m_heap m) id = Some d1
    else match from_spec (cf_ndebug cf) (get_language l) [] [] with
         | Ret b => match o with
                    | Ret p => p = id /\ exists q, cache_find b (m_cache m) = Some q /\
                                 heap_get (m_heap m) id = Some (add_fallback d1 (Some q))
                    | _ => True
                    end
         | _ => forall p, o <> Ret p
         end.
  Local Opaque from_spec languages iget.
  Lemma finish_content a l k id s2 d1 o s' : arg_of a (i_m s2) = l -> holds id s2 d1 -> cache_find k (m_cache (i_m s2)) = Some id ->
    ifinish 1 a id s2 = (o, s') ->
    (exists new, i_seen s' = i_seen s2 ++ new /\ Forall (sees id k d1 d1) new) /\
    cache_find k (m_cache (i_m s')) = Some id /\ finished_as l id d1 o (i_m s').
  Proof.
    intros A2 H2 F2 H. assert (N0 : exists new, i_seen s2 = i_seen s2 ++ new /\ Forall (sees id k d1 d1) new).
    { exists []. rewrite app_nil_r. split; [reflexivity|constructor]. }
    unfold ifinish in H. unfold mbind at 1, mget at 1 in H. rewrite (arg_same a), A2 in H. unfold finished_as.
    destruct (is_nil (get_country l)); [injection H as <- <-; split; [exact N0|]; split; [exact F2|]; split; [reflexivity|exact (proj2 H2)]|].
    unfold mbind at 1, mlift at 1 in H. destruct (from_spec _ _ _ _) as [b|e|w| |];
      try (injection H as <- <-; split; [exact N0|]; split; [exact F2|]; discriminate).
    unfold mbind at 1 in H. pose proof (get_is_watched 1 (Given b) s2) as (T3 & new3 & Q3 & W3). pose proof (get_cached 1 b s2) as GC.
    destruct (iget cf fs env cuts 1 (Given b) s2) as [o3 s3]. cbn [snd] in T3, Q3.
    assert (F3 : cache_find k (m_cache (i_m s3)) = Some id) by exact (tame_find _ _ _ _ T3 F2).
    assert (D3 : heap_get (m_heap (i_m s3)) id = Some d1) by (rewrite (tm_heap _ _ T3 id (proj1 H2)); exact (proj2 H2)).
    assert (Sn : exists new, i_seen s3 = i_seen s2 ++ new /\ Forall (sees id k d1 d1) new).
    { exists new3. split; [exact Q3|].
      eapply Forall_impl; [|exact W3]. intros x T. split; [exact (tame_find _ _ _ _ T F2)|]. exists d1.
      split; [rewrite (tm_heap _ _ T id (proj1 H2)); exact (proj2 H2)|]. split; apply lc_refl. }
    destruct o3 as [fb|e|w| |]; try (injection H as <- <-; split; [exact Sn|]; split; [exact F3|exact Logic.I]).
    unfold mbind, ilift, set_fallback in H. rewrite D3 in H. injection H as <- <-. cbn [i_seen i_m upd_heap m_cache m_heap].
    split; [exact Sn|]. split; [exact F3|]. split; [reflexivity|]. exists fb. split; [exact (GC fb s3 eq_refl)|]. apply heap_get_set_same.
  Qed.
  Lemma rest_content a l id path s1 d0 o s' r :
    (forall n pt m, arg_of a m = l -> arg_of a (env n pt m) = l) -> arg_of a (i_m s1) = l ->
    holds id s1 d0 -> m_path (i_m s1) = path -> cache_find l (m_cache (i_m s1)) = Some id ->
    pload cf fs l (rev path) d0 = r ->
    irest 1 a id path s1 = (o, s') ->
    (exists new, i_seen s' = i_seen s1 ++ new /\ Forall (sees id l d0 (snd (fst r))) new) /\
    cache_find l (m_cache (i_m s')) = Some id /\
    match fst (fst r) with
    | Ret _ => finished_as l id (snd (fst r)) o (i_m s')
    | Exn e => o = Exn e /\ heap_get (m_heap (i_m s')) id = Some (snd (fst r))
    | Ub u => o = Ub u | AssertFail => o = AssertFail | OutOfFuel => o = OutOfFuel
    end.
  Proof.
    intros K A1 H1 Pa F1 R H.
    destruct (dirs_ok cf fs env cuts E id a l (fun n pt m _ => K n pt m) path (rev path) s1 d0 H1 Pa A1
               (fun n q m _ => K n (AtDir q) m)) as (s2 & C2 & S2 & A2).
    rewrite R in C2, S2. clear R. destruct r as [[o1 d1] t1]. cbn [fst snd] in *.
    assert (H2 := stage_holds id s1 s2 d0 d1 H1 S2).
    destruct S2 as [B2 D2 L2 (new2 & Q2 & W2)].
    assert (F2 : cache_find l (m_cache (i_m s2)) = Some id) by exact (but_find _ _ _ _ _ B2 F1).
    assert (W2' : Forall (sees id l d0 d1) new2).
    { eapply Forall_impl; [|exact W2]. intros x (T & X). split; [exact (but_find _ _ _ _ _ T F1)|exact X]. }
    clear W2. unfold irest in H. unfold mbind at 1 in H. rewrite C2 in H.
    destruct o1 as [u|e|u| |]; try (injection H as <- <-; split; [exists new2; split; [exact Q2|exact W2']|]; split; [exact F2|]; auto; fail).
    destruct (finish_content a l l id s2 d1 o s' A2 H2 F2 H) as ((new3 & Q3 & W3) & F3 & Fin).
    split; [|split; [exact F3|exact Fin]]. exists (new2 ++ new3). split; [now rewrite Q3, Q2, app_assoc|].
    apply Forall_app. split; [exact W2'|]. eapply Forall_impl; [|exact W3].
    intros x (X1 & ds & X2 & X3 & X4). split; [exact X1|]. exists ds. split; [exact X2|]. split; [eapply lc_trans; eauto|exact X4].
  Qed.
  Lemma get_content a l s o s' r :
    (forall n pt m, arg_of a m = l -> arg_of a (env n pt m) = l) -> arg_of a (i_m s) = l ->
    iget cf fs env cuts depth0 a s = (o, s') ->
    cache_find l (m_cache (i_m s)) = None -> (cf_ndebug cf = true \/ l <> None) ->
    pload cf fs l (rev (m_path (i_m s))) (new_dictionary (m_charset (i_m s))) = r ->
    (exists new, i_seen s' = i_seen s ++ new /\
       Forall (sees (m_next (i_m s)) l (new_dictionary (m_charset (i_m s))) (snd (fst r))) new) /\
    cache_find l (m_cache (i_m s')) = Some (m_next (i_m s)) /\
    match fst (fst r) with
    | Ret _ => finished_as l (m_next (i_m s)) (snd (fst r)) o (i_m s')
    | Exn e => o = Exn e /\ heap_get (m_heap (i_m s')) (m_next (i_m s)) = Some (snd (fst r))
    | Ub u => o = Ub u | AssertFail => o = AssertFail | OutOfFuel => o = OutOfFuel
    end.
  Proof.
    intros K A H C ND R. unfold depth0 in H. rewrite iget_eq, (arg_same a), A, C in H.
    assert (AS : negb (cf_ndebug cf) && is_none l = false).
    { destruct ND as [->|N]; [reflexivity|]. destruct l; [now rewrite andb_false_r|contradiction]. }
    rewrite AS in H.
    apply (rest_content a l (m_next (i_m s)) (m_path (i_m s)) (allocated s l) (new_dictionary (m_charset (i_m s))) o s' r K); auto.
    - split; [cbn; lia|]. cbn. now rewrite Nat.eqb_refl.
    - now apply alloc_find.
  Qed.

  (** a language that changes inside the open_directory of one directory *)
  Lemma dirs_app a id path ps1 : forall ps2 s,
    iload_dirs cf fs env cuts a id path (ps1 ++ ps2) s =
    mbind (iload_dirs cf fs env cuts a id path ps1) (fun _ => iload_dirs cf fs env cuts a id path ps2) s.
  Proof.
    induction ps1 as [|p ps1 IH]; intros ps2 s; cbn [app iload_dirs]; [reflexivity|].
    unfold mbind at 1 2 3. destruct (iload_dir cf fs env cuts a id path p s) as [[u|e|u| |] s1]; try reflexivity. apply IH.
  Qed.
  Lemma get_changed l1 l2 s o s' ps1 p0 ps2 r1 :
    (forall n pt m, pt <> AtDir p0 -> m_lang (env n pt m) = m_lang m) ->
    (forall n m, m_lang m = l1 \/ m_lang m = l2 -> m_lang (env n (AtDir p0) m) = l2) ->
    get_country l2 = [] ->
    rev (m_path (i_m s)) = ps1 ++ p0 :: ps2 -> ~ In p0 ps1 ->
    m_lang (i_m s) = l1 ->
    cache_find l1 (m_cache (i_m s)) = None -> (cf_ndebug cf = true \/ l1 <> None) ->
    iget cf fs env cuts depth0 Member s = (o, s') ->
    pload cf fs l1 ps1 (new_dictionary (m_charset (i_m s))) = r1 ->
    match fst (fst r1) with
    | Ret _ =>
      forall r2, pload cf fs l2 (p0 :: ps2) (snd (fst r1)) = r2 ->
      match fst (fst r2) with
      | Ret _ => o = Ret (m_next (i_m s)) /\ heap_get (m_heap (i_m s')) (m_next (i_m s)) = Some (snd (fst r2)) /\
                 cache_find l1 (m_cache (i_m s')) = Some (m_next (i_m s)) /\ m_lang (i_m s') = l2
      | _ => forall p, o <> Ret p
      end
    | _ => forall p, o <> Ret p
    end.
  Proof.
    intros K1 K2 NC Rv NI L C ND H R1. unfold depth0 in H. rewrite iget_eq in H. cbn [arg_lang] in H. rewrite L, C in H.
    assert (AS : negb (cf_ndebug cf) && is_none l1 = false).
    { destruct ND as [->|N]; [reflexivity|]. destruct l1; [now rewrite andb_false_r|contradiction]. }
    rewrite AS in H. set (id := m_next (i_m s)) in *. set (d0 := new_dictionary (m_charset (i_m s))) in *.
    assert (H1 : holds id (allocated s l1) d0). { split; [unfold id; cbn; lia|]. cbn. fold id. now rewrite Nat.eqb_refl. }
    assert (F1 : cache_find l1 (m_cache (i_m (allocated s l1))) = Some id) by (now apply alloc_find).
    assert (A1 : arg_of Member (i_m (allocated s l1)) = l1) by exact L.
    assert (P1 : m_path (i_m (allocated s l1)) = m_path (i_m s)) by reflexivity.
    set (s1 := allocated s l1) in *. clearbody s1. set (path := m_path (i_m s)) in *. clearbody path.
    unfold irest in H. unfold mbind at 1 in H. rewrite Rv, dirs_app in H. unfold mbind at 1 in H.
    assert (Ka : forall l n pt m, (forall q, pt <> AtDir q) -> arg_of Member m = l -> arg_of Member (env n pt m) = l).
    { intros l n pt m N A. cbn [arg_of] in *. rewrite K1; [exact A|apply N]. }
    destruct (dirs_ok cf fs env cuts E id Member l1 (Ka l1) path ps1 s1 d0 H1 P1 A1) as (s2 & C2 & S2 & A2).
    { intros n q m Hq A. cbn [arg_of] in *. rewrite K1; [exact A|]. intro X. injection X as ->. contradiction. }
    rewrite R1 in C2, S2. rewrite C2 in H. clear C2 R1. destruct r1 as [[o1 d1] t1]. cbn [fst snd] in *.
    destruct o1 as [u|e|u| |]; try (injection H as <- <-; discriminate).
    intros r2 R2. cbn [iload_dirs] in H. unfold mbind at 1 in H.
    assert (H2 := stage_holds id s1 s2 d0 d1 H1 S2).
    assert (P2 : m_path (i_m s2) = path) by (rewrite (tb_path _ _ _ (st_but _ _ _ _ _ S2)); exact P1).
    destruct (dir_ok cf fs env cuts E id Member l2 (Ka l2) path p0 s2 d1 H2 P2) as (s3 & C3 & S3 & A3); [apply K2; left; exact A2|].
    rewrite C3 in H. clear C3. cbn [pload] in R2. destruct (pdir cf fs l2 p0 d1) as [[o3 d3] t3]. cbn [fst snd] in *.
    destruct o3 as [u3|e|w| |]; try (subst r2; cbn [fst snd]; injection H as <- <-; discriminate).
    assert (H3 := stage_holds id s2 s3 d1 d3 H2 S3).
    assert (P3 : m_path (i_m s3) = path) by (rewrite (tb_path _ _ _ (st_but _ _ _ _ _ S3)); exact P2).
    destruct (dirs_ok cf fs env cuts E id Member l2 (Ka l2) path ps2 s3 d3 H3 P3 A3) as (s4 & C4 & S4 & A4).
    { intros n q m Hq A. destruct (bytes_eq_dec q p0) as [->|N]; [apply K2; right; exact A|]. cbn [arg_of] in *. rewrite K1; [exact A|]. congruence. }
    rewrite C4 in H. clear C4. destruct (pload cf fs l2 ps2 d3) as [[o4 d4] t4]. cbn [fst snd] in *. subst r2. cbn [fst snd].
    destruct o4 as [u4|e|w| |]; try (injection H as <- <-; discriminate).
    assert (H4 := stage_holds id s3 s4 d3 d4 H3 S4).
    assert (F4 : cache_find l1 (m_cache (i_m s4)) = Some id).
    { apply (but_find _ _ _ _ _ (st_but _ _ _ _ _ S4)), (but_find _ _ _ _ _ (st_but _ _ _ _ _ S3)), (but_find _ _ _ _ _ (st_but _ _ _ _ _ S2)). exact F1. }
    unfold ifinish in H. unfold mbind at 1, mget at 1 in H. rewrite (arg_same Member), A4, NC in H. cbn [is_nil mret] in H.
    injection H as <- <-. split; [reflexivity|]. split; [exact (proj2 H4)|]. split; [exact F4|exact A4].
  Qed.
End Get.

(** ** what happens to a dictionary when the cache may be cleared *)
Definition in_cache (m : manager) (p : ptr) : Prop := In p (List.map snd (m_cache m)).
Definition dead (m : manager) (p : ptr) : Prop := heap_get (m_heap m) p = None.
Record fate (m m' : manager) : Prop := {
  ft_next : m_next m <= m_next m';
  ft_dead : forall p, p < m_next m -> dead m p -> dead m' p;
  ft_known : forall p, p < m_next m -> in_cache m p \/ dead m p -> in_cache m' p \/ dead m' p }.
Lemma fate_refl m : fate m m. Proof. constructor; auto. Qed.
Lemma fate_trans a b c : fate a b -> fate b c -> fate a c.
Proof.
  intros [A1 A2 A3] [B1 B2 B3]. constructor; [lia| |].
  - intros p L D. apply B2; [lia|]. now apply A2.
  - intros p L D. apply B3; [lia|]. now apply A3.
Qed.
Lemma fate_same m m' : m_next m' = m_next m -> m_heap m' = m_heap m -> m_cache m' = m_cache m -> fate m m'.
Proof. intros H1 H2 H3. constructor; unfold dead, in_cache; rewrite ?H1, ?H2, ?H3; auto. Qed.
Lemma fate_set m id d d' : heap_get (m_heap m) id = Some d -> fate m (upd_heap m (heap_set (m_heap m) id d')).
Proof.
  intro H. assert (D : forall p, dead m p -> dead (upd_heap m (heap_set (m_heap m) id d')) p).
  { intros p Dp. unfold dead in *. cbn [upd_heap m_heap]. rewrite heap_get_set_other; [exact Dp|]. congruence. }
  constructor; auto. intros p _ [I|Dp]; [left; exact I|right; now apply D].
Qed.
Lemma fate_alloc m l : fate m (alloc m l).
Proof.
  assert (D : forall p, p < m_next m -> dead m p -> dead (alloc m l) p).
  { intros p L Dp. unfold dead in *. cbn [alloc m_heap heap_get]. destruct (Nat.eqb_spec p (m_next m)); [lia|exact Dp]. }
  constructor; [cbn; lia|exact D|]. intros p L [I|Dp]; [left|right; now apply D].
  unfold in_cache in *. cbn [alloc m_cache]. rewrite map_app. apply in_or_app. now left.
Qed.
Lemma write_fate id cs m : fate m (snd (write_calls id cs m)).
Proof.
  unfold write_calls. destruct cs as [|c cs]; [apply fate_refl|]. destruct (heap_get (m_heap m) id) as [d|] eqn:H; [|apply fate_refl].
  cbn [snd]. eapply fate_set; eauto.
Qed.
Lemma fallback_fate id fb m : fate m (snd (set_fallback id fb m)).
Proof. unfold set_fallback. destruct (heap_get (m_heap m) id) as [d|] eqn:H; [|apply fate_refl]. cbn [snd]. eapply fate_set; eauto. Qed.

Lemma delete_all_fate c : forall m,
  m_next (snd (delete_all c m)) = m_next m /\ m_cache (snd (delete_all c m)) = m_cache m /\
  (forall p, dead m p -> dead (snd (delete_all c m)) p) /\
  (forall u, fst (delete_all c m) = Ret u -> forall p, In p (List.map snd c) -> dead (snd (delete_all c m)) p).
Proof.
  induction c as [|[l q] c IH]; intro m; cbn [delete_all].
  - split; [reflexivity|]. split; [reflexivity|]. split; [auto|]. intros _ _ p [].
  - unfold mbind, delete. destruct (heap_get (m_heap m) q) as [d|] eqn:H; cbn [fst snd].
    2:{ split; [reflexivity|]. split; [reflexivity|]. split; [auto|]. discriminate. }
    match goal with |- context [delete_all c ?x] => set (m1 := x) end.
    destruct (IH m1) as (I1 & I2 & I3 & I4).
    assert (D : forall p, heap_get (m_heap m1) p = if Nat.eqb q p then None else heap_get (m_heap m) p)
      by (intro p; unfold m1; cbn [m_heap]; apply heap_get_filter).
    destruct (delete_all c m1) as [o m2]. cbn [fst snd] in *. split; [exact I1|]. split; [exact I2|]. split.
    + intros p Dp. apply I3. unfold dead in *. rewrite D. now destruct (Nat.eqb q p).
    + intros u Ho p [<-|Hp]; [|now apply (I4 u Ho)]. apply I3. unfold dead. cbn [snd]. now rewrite D, Nat.eqb_refl.
Qed.
Lemma clear_fate m : fate m (snd (clear_cache m)) /\
  (fst (clear_cache m) = Ret tt -> forall p, in_cache m p -> dead (snd (clear_cache m)) p).
Proof.
  unfold clear_cache. unfold mbind, mget. destruct (delete_all_fate (m_cache m) m) as (I1 & I2 & I3 & I4).
  destruct (delete_all (m_cache m) m) as [[u|e|u| |] m1]; cbn [fst snd mmod] in *;
    try (split; [|discriminate]; constructor; [lia|intros p _; apply I3|intros p _ [I|D]; [left; unfold in_cache in *; now rewrite I2|right; now apply I3]]).
  assert (D : forall p, in_cache m p -> heap_get (m_heap m1) p = None) by (intros p Hp; exact (I4 u eq_refl p Hp)).
  split; [|intros _ p Hp; exact (D p Hp)]. constructor; cbn [m_next].
  - lia.
  - intros p _ Dp. exact (I3 p Dp).
  - intros p _ [I|Dp]; right; [exact (D p I)|exact (I3 p Dp)].
Qed.

(** the other calls *)
Lemma clearing_fate (c : M manager unit) (f : manager -> manager) m :
  (forall x, m_next (f x) = m_next x /\ m_heap (f x) = m_heap x /\ m_cache (f x) = m_cache x) ->
  c = mbind clear_cache (fun _ => mmod f) -> fate m (snd (c m)) /\
  (fst (c m) = Ret tt -> forall p, in_cache m p -> dead (snd (c m)) p).
Proof.
  intros F ->. destruct (clear_fate m) as [C1 C2]. unfold mbind. destruct (clear_cache m) as [[[]|e|u| |] m1]; cbn [fst snd mmod] in *;
    try (split; [exact C1|discriminate]).
  destruct (F m1) as (F1 & F2 & F3). split.
  - eapply fate_trans; [exact C1|]. now apply fate_same.
  - intros _ p Hp. unfold dead. rewrite F2. exact (C2 eq_refl p Hp).
Qed.

Section Fate.
  Variable cf : config.
  Variable fs : file_system.
  Variable env : nat -> point -> manager -> manager.
  Variable cuts : nat -> list nat.
  Variable P : ist -> Prop.
  Hypothesis P_int : forall pt, pres P (interrupt env pt).
  Hypothesis P_lift : forall A (f : M manager A), (forall m, fate m (snd (f m))) -> pres P (ilift f).

  Lemma fate_get dp : forall a, pres P (iget cf fs env cuts dp a).
  Proof.
    induction dp as [|dp IH]; intro a; [apply pres_fail|]. cbn [iget]. apply pres_bind; [apply pres_get|intro l].
    destruct (negb (cf_ndebug cf) && is_none l); [apply pres_fail|]. apply pres_bind; [apply pres_get|intro c].
    destruct (cache_find l c); [apply pres_ret|]. apply pres_bind; [apply pres_get|intro id].
    apply pres_bind; [apply P_lift; intro m; apply fate_alloc|intro]. apply pres_bind; [apply pres_get|intro path].
    apply pres_bind.
    - apply pres_dirs; [exact P_int|intro t; apply P_lift; intro m; now apply fate_same|intro cs; apply P_lift; intro m; apply write_fate].
    - intro. apply pres_bind; [apply pres_get|intro l2]. destruct (is_nil (get_country l2)); [apply pres_ret|].
      apply pres_bind; [apply pres_mlift|intro b]. apply pres_bind; [apply IH|intro fb].
      apply pres_bind; [apply P_lift; intro m; apply fallback_fate|intro; apply pres_ret].
  Qed.
  Lemma mm_snd {S A B} (f : A -> B) (c : M S A) s : snd (mmap f c s) = snd (c s).
  Proof. unfold mmap, mbind. now destruct (c s) as [[]]. Qed.
  Lemma plain_fate op m : match op with OpGetDictionary | OpGetDictionaryLang _ | OpGetLanguages => True | _ => fate m (snd (mstep cf fs op m)) end.
  Proof.
    destruct op as [l|c|b|q f|q| |l| | |]; try exact Logic.I; cbn [mstep]; rewrite mm_snd.
    - unfold set_language, mmod. cbn [snd]. destruct (negb _); [now apply fate_same|apply fate_refl].
    - apply (clearing_fate (set_charset c) (fun m => upd_charset m c)); [auto|reflexivity].
    - apply (clearing_fate (set_use_fuzzy b) (fun m => upd_fuzzy m b)); [auto|reflexivity].
    - unfold add_directory. unfold mbind at 1, mget. destruct (existsb (bytes_eqb q) (m_path m)); [apply fate_refl|].
      apply (clearing_fate _ (fun m => upd_path m (if f then q :: m_path m else m_path m ++ [q]))); [auto|reflexivity].
    - unfold remove_directory. unfold mbind at 1, mget. destruct (existsb (bytes_eqb q) (m_path m)); [|apply fate_refl].
      apply (clearing_fate _ (fun m => upd_path m (erase q (m_path m)))); [auto|reflexivity].
    - apply fate_refl.
    - apply fate_refl.
  Qed.
  Lemma fate_step op : pres P (istep cf fs env cuts op).
  Proof.
    assert (Mm : forall A B (f : A -> B) (c : M ist A), pres P c -> pres P (mmap f c)).
    { intros A B f c H. unfold mmap. apply pres_bind; [exact H|intro; apply pres_ret]. }
    destruct op as [l|c|b|q f|q| |l| | |]; cbn [istep].
    - apply P_lift. intro m. exact (plain_fate (OpSetLanguage l) m).
    - apply P_lift. intro m. exact (plain_fate (OpSetCharset c) m).
    - apply P_lift. intro m. exact (plain_fate (OpSetUseFuzzy b) m).
    - apply P_lift. intro m. exact (plain_fate (OpAddDirectory q f) m).
    - apply P_lift. intro m. exact (plain_fate (OpRemoveDirectory q) m).
    - apply Mm. unfold iget_dictionary. apply pres_bind; [apply pres_get|intros [p|]]; [apply pres_ret|].
      apply pres_bind; [apply pres_get|intro l]. destruct (is_none l); [apply pres_ret|].
      apply pres_bind; [apply fate_get|intro p]. apply pres_bind; [apply P_lift; intro m; now apply fate_same|intro; apply pres_ret].
    - apply Mm, fate_get.
    - apply Mm. unfold iget_languages. apply pres_bind; [apply pres_get|intro path]. apply pres_langs. exact P_int.
    - apply P_lift. intro m. exact (plain_fate OpGetLanguage m).
    - apply P_lift. intro m. exact (plain_fate OpGetUseFuzzy m).
  Qed.
End Fate.

Lemma plays_fate cf m m' : plays cf anything m m' -> fate m m'.
Proof.
  intro H. induction H as [m|m op fs env cuts m2 A N IHN G IHG]; [apply fate_refl|].
  eapply fate_trans; [|exact IHG].
  assert (PC : pres (fun s => fate m (i_m s)) (istep cf fs env cuts op)).
  { apply fate_step.
    - intros pt s H. cbn [interrupt snd i_m]. eapply fate_trans; [exact H|apply IHN].
    - intros X f F s H. unfold ilift. specialize (F (i_m s)). destruct (f (i_m s)) as [o m1]. cbn [snd i_m] in *. eapply fate_trans; eauto. }
  exact (PC (start_ist m) (fate_refl m)).
Qed.

(** the history of one dictionary during one call *)
Definition history (env : nat -> point -> manager -> manager) (id : ptr) (s : ist) : Prop :=
  i_n s = length (i_seen s) /\ id < m_next (i_m s) /\ (in_cache (i_m s) id \/ dead (i_m s) id) /\
  forall k pt mk, nth_error (i_seen s) k = Some (pt, mk) ->
    id < m_next mk /\ (in_cache mk id \/ dead mk id) /\ fate mk (env k pt mk) /\ fate (env k pt mk) (i_m s).
Lemma history_int env id pt : (forall n pt m, fate m (env n pt m)) -> pres (history env id) (interrupt env pt).
Proof.
  intros E s (H1 & H2 & H3 & H4). cbn [interrupt snd]. pose proof (E (i_n s) pt (i_m s)) as T.
  split; [cbn; rewrite app_length; cbn; lia|]. cbn [i_m i_seen i_n]. split; [pose proof (ft_next _ _ T); lia|].
  split; [now apply (ft_known _ _ T)|]. intros k pt' mk Hk.
  destruct (Nat.lt_ge_cases k (length (i_seen s))) as [L|L].
  - rewrite nth_error_app1 in Hk by exact L. destruct (H4 _ _ _ Hk) as (G1 & G2 & G3 & G4). split; [exact G1|]. split; [exact G2|].
    split; [exact G3|]. eapply fate_trans; eauto.
  - rewrite nth_error_app2 in Hk by exact L. destruct (k - length (i_seen s)) as [|j] eqn:Z; cbn [nth_error] in Hk.
    + injection Hk as <- <-. assert (k = i_n s) by lia. subst k. split; [exact H2|]. split; [exact H3|]. split; [apply E|apply fate_refl].
    + destruct j; discriminate Hk.
Qed.
Lemma history_lift env id A (f : M manager A) : (forall m, fate m (snd (f m))) -> pres (history env id) (ilift f).
Proof.
  intros F s (H1 & H2 & H3 & H4). unfold ilift. specialize (F (i_m s)). destruct (f (i_m s)) as [o m']. cbn [snd] in *.
  split; [exact H1|]. cbn [i_m i_seen]. split; [pose proof (ft_next _ _ F); lia|]. split; [now apply (ft_known _ _ F)|].
  intros k pt mk Hk. destruct (H4 _ _ _ Hk) as (G1 & G2 & G3 & G4). split; [exact G1|]. split; [exact G2|].
  split; [exact G3|]. eapply fate_trans; eauto.
Qed.
Lemma get_history cf fs env cuts a m p s' :
  (forall n pt x, fate x (env n pt x)) -> cache_find (arg_of a m) (m_cache m) = None ->
  iget cf fs env cuts depth0 a (start_ist m) = (Ret p, s') -> p = m_next m /\ history env p s'.
Proof.
  intros E C H. unfold depth0 in H. rewrite iget_eq in H. rewrite arg_same in H. cbn [start_ist i_m] in H. rewrite C in H.
  destruct (negb _ && _); [discriminate H|]. pose proof (rest_returns _ _ _ _ _ _ _ _ _ _ _ H) as ->. split; [reflexivity|].
  set (s1 := allocated (start_ist m) (arg_of a m)) in *.
  assert (H1 : history env (m_next m) s1).
  { split; [reflexivity|]. split; [cbn; lia|]. split; [left; unfold in_cache; cbn; rewrite map_app; apply in_or_app; right; now left|].
    intros k pt mk Hk. destruct k; discriminate Hk. }
  clearbody s1.
  assert (PC : pres (history env (m_next m)) (irest cf fs env cuts 1 a (m_next m) (m_path m))).
  { unfold irest, ifinish. pose proof (fun pt => history_int env (m_next m) pt E) as Hi.
    pose proof (fun A f F => history_lift env (m_next m) A f F) as Hl. apply pres_bind.
    - apply pres_dirs; [exact Hi|intro t; apply Hl; intro x; now apply fate_same|intro cs; apply Hl; intro x; apply write_fate].
    - intro. apply pres_bind; [apply pres_get|intro l2]. destruct (is_nil (get_country l2)); [apply pres_ret|].
      apply pres_bind; [apply pres_mlift|intro b]. apply pres_bind; [apply fate_get; assumption|intro fb].
      apply pres_bind; [apply Hl; intro y; apply fallback_fate|intro; apply pres_ret]. }
  specialize (PC s1 H1). rewrite H in PC. exact PC.
Qed.
Lemma killed_stays env id s k pt mk : history env id s -> nth_error (i_seen s) k = Some (pt, mk) ->
  (forall p, in_cache mk p -> dead (env k pt mk) p) -> dead (i_m s) id.
Proof.
  intros (_ & _ & _ & H) Hk W. destruct (H _ _ _ Hk) as (G1 & G2 & G3 & G4).
  apply (ft_dead _ _ G4); [pose proof (ft_next _ _ G3); lia|]. destruct G2 as [I|D]; [now apply W|now apply (ft_dead _ _ G3)].
Qed.
