(** Changes of dictionaries by the program and the manager's own work do not interfere. *)
From Coq Require Import Permutation Lia.
From Verif.Model Require Import Base Log PluralForms Dictionary IConv Language Stream PoParser Manager Client.
From Verif.Spec Require Import ManagerSpec ClientSpec.
From Verif.Proofs Require Import BaseFacts ManagerOwn ManagerLoad ManagerGet ManagerStep.
Local Open Scope list_scope.
Local Open Scope mon_scope.

Definition patch_heap (f : ptr -> dictionary -> dictionary) (h : heap) : heap :=
  List.map (fun e => (fst e, f (fst e) (snd e))) h.
Lemma patch_get f h p : heap_get (patch_heap f h) p = option_map (f p) (heap_get h p).
Proof. induction h as [|[q d] h IH]; [reflexivity|]. cbn. destruct (Nat.eqb_spec p q) as [->|N]; [reflexivity|exact IH]. Qed.
Lemma patch_set f h p d : f p d = d -> patch_heap f (heap_set h p d) = heap_set (patch_heap f h) p d.
Proof.
  intro E. induction h as [|[q d'] h IH]; cbn [heap_set patch_heap List.map fst snd]; [now rewrite E|].
  destruct (Nat.eqb_spec p q) as [->|N]; cbn [List.map fst snd]; [now rewrite E|]. f_equal. exact IH.
Qed.
Lemma patch_filter f h p :
  patch_heap f (List.filter (fun e => negb (Nat.eqb p (fst e))) h) = List.filter (fun e => negb (Nat.eqb p (fst e))) (patch_heap f h).
Proof. induction h as [|[q d] h IH]; [reflexivity|]. cbn. destruct (Nat.eqb p q); cbn; [exact IH|]. f_equal. exact IH. Qed.
Lemma patch_store f h p g :
  NoDup (List.map fst h) -> patch_heap (fun q d => if Nat.eqb p q then g (f q d) else f q d) h =
  match heap_get (patch_heap f h) p with Some d => heap_set (patch_heap f h) p (g d) | None => patch_heap f h end.
Proof.
  rewrite patch_get. induction h as [|[q d] h IH]; intro ND; [reflexivity|]. cbn [List.map fst] in ND. inversion ND as [|? ? N1 N2]. subst.
  cbn [heap_get patch_heap List.map fst snd]. destruct (Nat.eqb_spec p q) as [->|N].
  - cbn [option_map heap_set]. rewrite Nat.eqb_refl. f_equal. apply map_ext_in. intros [r e] H. cbn [fst snd].
    destruct (Nat.eqb_spec q r) as [->|]; [|reflexivity]. exfalso. apply N1. apply (in_map fst) in H. exact H.
  - unfold patch_heap in IH. rewrite (IH N2). destruct (heap_get h p) as [x|]; cbn [option_map]; [|reflexivity].
    cbn [heap_set]. destruct (Nat.eqb_spec p q); [contradiction|]. reflexivity.
Qed.

Section Patch.
  Variable cf : config.
  Variable f : ptr -> dictionary -> dictionary.
  Variable g : dictionary -> dictionary.
  Variable n0 : nat.
  Hypothesis Hf : forall p d, n0 <= p -> f p d = d.

  Definition patch (m : manager) : manager :=
    {| m_heap := patch_heap f (m_heap m); m_next := m_next m; m_freed := m_freed m; m_cache := m_cache m;
       m_path := m_path m; m_charset := m_charset m; m_fuzzy := m_fuzzy m; m_lang := m_lang m; m_cur := m_cur m;
       m_empty := g (m_empty m); m_tr := m_tr m |}.

  Definition com {A} (a : M manager A) (m : manager) : Prop :=
    a (patch m) = (fst (a m), patch (snd (a m))) /\ m_next m <= m_next (snd (a m)).
  Definition comm {A} (a : M manager A) : Prop := forall m, n0 <= m_next m -> com a m.

  Lemma com_bind {A B} (a : M manager A) (k : A -> M manager B) m :
    com a m -> (forall x m', a m = (Ret x, m') -> m_next m <= m_next m' -> com (k x) m') -> com (mbind a k) m.
  Proof.
    intros [H1 H2] H3. unfold com, mbind. rewrite H1. destruct (a m) as [[x|e|u| |] m'] eqn:E; cbn [fst snd] in *; auto.
    destruct (H3 x m' eq_refl H2) as [H4 H5]. rewrite H4. split; [reflexivity|lia].
  Qed.
  Lemma comm_bind {A B} (a : M manager A) (k : A -> M manager B) : comm a -> (forall x, comm (k x)) -> comm (mbind a k).
  Proof. intros H1 H2 m H. apply com_bind; [now apply H1|]. intros x m' _ L. apply H2. lia. Qed.
  Lemma com_get {A B} (s : manager -> A) (k : A -> M manager B) m : s (patch m) = s m -> com (k (s m)) m -> com (mbind (mget s) k) m.
  Proof. intros E H. apply com_bind; [split; [unfold mget; cbn; now rewrite E|cbn; lia]|]. intros x m' X _. injection X as <- <-. exact H. Qed.
  Lemma comm_get {A B} (s : manager -> A) (k : A -> M manager B) : (forall m, s (patch m) = s m) -> (forall x, comm (k x)) -> comm (mbind (mget s) k).
  Proof. intros E H m Hm. apply com_get; [apply E|now apply H]. Qed.
  Lemma comm_ret {A} (x : A) : comm (mret x).
  Proof. intros m H. split; [reflexivity|cbn; lia]. Qed.
  Lemma comm_lift {A} (o : outcome A) : comm (mlift o).
  Proof. intros m H. split; [reflexivity|cbn; lia]. Qed.
  Lemma comm_fail {A} o : comm (@mfail manager A o).
  Proof. intros m H. split; [reflexivity|cbn; lia]. Qed.
  Lemma comm_mod u : (forall m, n0 <= m_next m -> u (patch m) = patch (u m) /\ m_next m <= m_next (u m)) -> comm (mmod u).
  Proof. intros H m Hm. destruct (H m Hm) as [H1 H2]. split; [unfold mmod; cbn; now rewrite H1|exact H2]. Qed.

  Lemma comm_delete p : comm (delete p).
  Proof.
    intros m H. unfold com, delete. cbn [patch m_heap]. rewrite patch_get. destruct (heap_get (m_heap m) p); cbn [option_map fst snd]; [|split; [reflexivity|lia]].
    split; [|cbn; lia]. unfold patch. cbn [m_heap m_next m_freed m_cache m_path m_charset m_fuzzy m_lang m_cur m_empty m_tr]. now rewrite patch_filter.
  Qed.
  Lemma comm_delete_all c : comm (delete_all c).
  Proof. induction c as [|[l p] c IH]; cbn [delete_all]; [apply comm_ret|]. apply comm_bind; [apply comm_delete|intros _; exact IH]. Qed.
  Lemma comm_clear : comm clear_cache.
  Proof.
    unfold clear_cache. apply comm_get; [reflexivity|]. intro c. apply comm_bind; [apply comm_delete_all|]. intros _. apply comm_mod. intros m _. split; [reflexivity|cbn; lia].
  Qed.
  Lemma comm_emit ev : comm (emit_m ev).
  Proof. apply comm_mod. intros m _. split; [reflexivity|cbn; lia]. Qed.

  Variable fs : file_system.
  Lemma comm_consider l b fn : comm (consider cf l b fn).
  Proof.
    unfold consider. destruct (has_suffix fn dot_po); [|apply comm_ret]. apply comm_bind; [apply comm_lift|]. intro st. apply comm_bind; [apply comm_lift|]. intro po.
    destruct (is_none po); [|apply comm_ret]. apply comm_bind; [apply comm_emit|intros _; apply comm_ret].
  Qed.
  Lemma comm_best l fls : forall b, comm (best_file cf l b fls).
  Proof. induction fls as [|x fls IH]; intro b; cbn [best_file]; [apply comm_ret|]. apply comm_bind; [apply comm_consider|exact IH]. Qed.
  Lemma comm_load_file id po : n0 <= id -> comm (load_file cf fs id po).
  Proof.
    intros Hid m H. unfold com, load_file. destruct (fs_file fs po) as [[i|]|e|u| |]; try (split; [reflexivity|cbn; lia]).
    - cbn [patch m_heap]. rewrite patch_get. destruct (heap_get (m_heap m) id) as [d|]; cbn [option_map]; [|split; [reflexivity|cbn; lia]].
      rewrite (Hf id d Hid). set (r := po_parse cf po i d). clearbody r. cbv zeta.
      assert (E : upd_tr (upd_heap (patch m) (heap_set (patch_heap f (m_heap m)) id (pr_dict r))) (m_tr m ++ pr_trace r)
                  = patch (upd_tr (upd_heap m (heap_set (m_heap m) id (pr_dict r))) (m_tr m ++ pr_trace r))).
      { unfold patch. cbn [m_heap m_next m_freed m_cache m_path m_charset m_fuzzy m_lang m_cur m_empty m_tr upd_tr upd_heap alloc fst snd]. now rewrite (patch_set f) by (apply Hf; exact Hid). }
      change (upd_tr (upd_heap (patch m) (heap_set (patch_heap f (m_heap m)) id (pr_dict r))) (m_tr (patch m) ++ pr_trace r))
        with (upd_tr (upd_heap (patch m) (heap_set (patch_heap f (m_heap m)) id (pr_dict r))) (m_tr m ++ pr_trace r)).
      rewrite E. destruct (pr_outcome r) as [x|e|u| |]; try (split; [reflexivity|cbn; lia]). destruct (is_std e); split; try reflexivity; cbn; lia.
    - destruct (is_std e); split; try reflexivity; cbn; lia.
  Qed.
  Lemma comm_load_dir l id p : n0 <= id -> comm (load_dir cf fs l id p).
  Proof.
    intro H. unfold load_dir. apply comm_bind; [apply comm_lift|]. intro fl. apply comm_bind; [apply comm_best|]. intro b.
    destruct (is_nil (fst b)); [apply comm_ret|now apply comm_load_file].
  Qed.
  Lemma comm_load_dirs l id ps : n0 <= id -> comm (load_dirs cf fs l id ps).
  Proof. intro H. induction ps as [|p ps IH]; cbn [load_dirs]; [apply comm_ret|]. apply comm_bind; [now apply comm_load_dir|intros _; exact IH]. Qed.
  Lemma comm_set_fallback id fb : n0 <= id -> comm (set_fallback id fb).
  Proof.
    intros Hid m H. unfold com, set_fallback. cbn [patch m_heap]. rewrite patch_get. destruct (heap_get (m_heap m) id) as [d|]; cbn [option_map]; [|split; [reflexivity|cbn; lia]].
    rewrite (Hf id d Hid). split; [|cbn; lia]. unfold patch. cbn [m_heap m_next m_freed m_cache m_path m_charset m_fuzzy m_lang m_cur m_empty m_tr upd_tr upd_heap alloc fst snd]. now rewrite (patch_set f) by (apply Hf; exact Hid).
  Qed.
  Lemma comm_get_lang dp : forall l, comm (get_dictionary_lang cf fs dp l).
  Proof.
    induction dp as [|dp IH]; intro l; cbn [get_dictionary_lang]; [apply comm_fail|]. destruct (_ && _); [apply comm_fail|].
    apply comm_get; [reflexivity|]. intro c. destruct (cache_find l c); [apply comm_ret|]. intros m Hm. apply com_get; [reflexivity|].
    apply com_bind.
    - split; [|cbn; lia]. unfold mmod, patch. cbn [m_heap m_next m_freed m_cache m_path m_charset m_fuzzy m_lang m_cur m_empty m_tr upd_tr upd_heap alloc fst snd patch_heap List.map]. now rewrite Hf by exact Hm.
    - intros y1 m' E L. injection E as _ <-. apply com_get; [reflexivity|]. cbn [alloc m_path m_next] in *.
      apply com_bind; [apply comm_load_dirs; [exact Hm|cbn; lia]|]. intros y2 m'' _ L2. cbn [alloc m_next] in *.
      destruct (is_nil (get_country l)); [apply comm_ret; lia|].
      apply com_bind; [apply comm_lift; lia|]. intros b m3 _ L3. apply com_bind; [apply IH; lia|]. intros fb m4 _ L4.
      apply com_bind; [apply comm_set_fallback; [exact Hm|lia]|]. intros y5 m5 _ L5. apply comm_ret. lia.
  Qed.
  Lemma comm_mmap {A B} (h : A -> B) a : comm a -> comm (mmap h a).
  Proof. intro H. unfold mmap. apply comm_bind; [exact H|]. intro x. apply comm_ret. Qed.
  Lemma comm_step op : comm (mstep cf fs op).
  Proof.
    destruct op; cbn [mstep]; apply comm_mmap.
    - apply comm_mod. intros m _. cbn [patch m_lang]. destruct (negb _); split; try reflexivity; cbn; lia.
    - unfold set_charset. apply comm_bind; [apply comm_clear|]. intros _. apply comm_mod. intros m _. split; [reflexivity|cbn; lia].
    - unfold set_use_fuzzy. apply comm_bind; [apply comm_clear|]. intros _. apply comm_mod. intros m _. split; [reflexivity|cbn; lia].
    - unfold add_directory. apply comm_get; [reflexivity|]. intro ps. destruct (existsb _ _); [apply comm_ret|].
      apply comm_bind; [apply comm_clear|]. intros _. apply comm_mod. intros m _. split; [reflexivity|cbn; lia].
    - unfold remove_directory. apply comm_get; [reflexivity|]. intro ps. destruct (existsb _ _); [|apply comm_ret].
      apply comm_bind; [apply comm_clear|]. intros _. apply comm_mod. intros m _. split; [reflexivity|cbn; lia].
    - unfold get_dictionary. apply comm_get; [reflexivity|]. intros [p|]; [apply comm_ret|]. apply comm_get; [reflexivity|]. intro l.
      destruct (is_none l); [apply comm_ret|]. apply comm_bind; [apply comm_get_lang|]. intro p. apply comm_bind; [|intros _; apply comm_ret].
      apply comm_mod. intros m _. split; [reflexivity|cbn; lia].
    - apply comm_get_lang.
    - unfold get_languages. apply comm_get; [reflexivity|]. intro ps. apply comm_lift.
    - intros m H. split; [reflexivity|cbn; lia].
    - intros m H. split; [reflexivity|cbn; lia].
  Qed.
End Patch.

Lemma crun_app cf a b m : crun cf (a ++ b) m = crun cf b (crun cf a m).
Proof. unfold crun. apply fold_left_app. Qed.
Lemma sound_app cf a : forall b m, sound cf m (a ++ b) <-> sound cf m a /\ sound cf (crun cf a m) b.
Proof.
  induction a as [|[fs op] a IH]; intros b m; [cbn; tauto|]. cbn [app sound]. rewrite IH. cbn [crun fold_left fst snd]. unfold crun. tauto.
Qed.
Lemma calls_app a : forall b, calls_of (a ++ b) = calls_of a ++ calls_of b.
Proof. induction a as [|[fs [op|r c]] a IH]; intro b; cbn [app calls_of]; auto. now rewrite IH. Qed.
Lemma changes_app r a : forall b, changes_to r (a ++ b) = changes_to r a ++ changes_to r b.
Proof. induction a as [|[fs [op|r' c]] a IH]; intro b; cbn [app changes_to]; auto. destruct (same_ref r r'); cbn [app]; now rewrite IH. Qed.
Lemma changed_app cf a b d : changed cf (a ++ b) d = changed cf b (changed cf a d).
Proof. revert d. induction a as [|c a IH]; intro d; [reflexivity|]. apply IH. Qed.
Lemma do_change_eq cf c d : do_change cf c d = (change_outcome cf c d, changed_by cf c d, change_log cf c d).
Proof. destruct c; reflexivity. Qed.
Lemma same_ref_refl r : same_ref r r = true.
Proof. destruct r; [reflexivity|apply Nat.eqb_refl]. Qed.

Lemma sound_valid cf ops : forall m, sound cf m ops -> valid (calls_of ops).
Proof.
  induction ops as [|[fs [op|r c]] ops IH]; intros m H; cbn [calls_of sound] in *; [constructor| |]; destruct H as [H1 H2].
  - constructor; [exact H1|eapply IH; exact H2].
  - eapply IH; exact H2.
Qed.

(** the state of a session, from that of its calls alone *)
Definition patched (cf : config) (ops : list (file_system * cop)) (m : manager) : manager :=
  patch (fun p => changed cf (changes_to (RefHeap p) ops)) (changed cf (changes_to RefEmpty ops)) m.

Lemma patched_deref cf ops m r : deref (patched cf ops m) r = option_map (changed cf (changes_to r ops)) (deref m r).
Proof. destruct r as [|p]; [reflexivity|]. cbn. apply patch_get. Qed.

Lemma new_heap_nodup cf cs ops : valid ops -> let m := mrun cf ops (new_manager cs) in
  NoDup (List.map fst (m_heap m)) /\ (forall p, heap_get (m_heap m) p <> None -> p < m_next m).
Proof.
  intros V m. destruct (run_inv cf ops (new_manager cs) V (own_new cf cs) ltac:(constructor)) as (O & _). fold m in O. split.
  - eapply Permutation_NoDup; [apply Permutation_sym; exact (own_heap _ _ O)|]. exact (own_ptrs cf _ O).
  - intros p H. apply heap_get_keys in H. apply (own_lt cf m p O). eapply Permutation_in; [exact (own_heap _ _ O)|exact H].
Qed.

Lemma crun_patched cf cs ops : sound cf (new_manager cs) ops ->
  let m0 := mrun cf (calls_of ops) (new_manager cs) in
  crun cf ops (new_manager cs) = patched cf ops m0 /\ forall p, m_next m0 <= p -> changes_to (RefHeap p) ops = [].
Proof.
  induction ops as [|[fs op] ops IH] using rev_ind; intro S; [split; reflexivity|]. apply sound_app in S as [S1 S2]. destruct (IH S1) as [E N]. clear IH.
  pose proof (sound_valid cf _ _ S1) as V. rewrite crun_app, calls_app. cbn [sound] in S2. destruct S2 as [S2 _]. rewrite E in *.
  set (m0 := mrun cf (calls_of ops) (new_manager cs)) in *. unfold crun. cbn [fold_left fst snd]. destruct op as [op|r c]; cbn [cstep calls_of].
  - rewrite mrun_app. fold m0. cbn [mrun fold_left fst snd].
    assert (X : forall r, changes_to r (ops ++ [(fs, CallManager op)]) = changes_to r ops) by (intro r; rewrite changes_app; apply app_nil_r).
    assert (C : com (fun p => changed cf (changes_to (RefHeap p) ops)) (changed cf (changes_to RefEmpty ops)) (mstep cf fs op) m0).
    { apply (comm_step cf _ _ (m_next m0)); [|lia]. intros p d Hp. now rewrite N by exact Hp. }
    destruct C as [C1 C2]. unfold patched at 1. rewrite C1. split.
    + unfold patched. destruct (mstep cf fs op m0) as [o m1]. cbn [fst snd].
      unfold patch, patch_heap. f_equal; [|now rewrite X]. apply map_ext. intro e. now rewrite X.
    + intros p Hp. rewrite X. apply N. lia.
  - rewrite app_nil_r. fold m0. destruct S2 as [S2 S3]. destruct (deref (patched cf ops m0) r) as [d|] eqn:D; [|contradiction].
    rewrite do_change_eq. cbn [snd]. destruct (new_heap_nodup cf cs _ V) as [ND LT]. fold m0 in ND, LT. split.
    + unfold patched, store. destruct r as [|p].
      * cbn [deref] in D. injection D as D. unfold upd_empty, patch. cbn [m_heap m_next m_freed m_cache m_path m_charset m_fuzzy m_lang m_cur m_empty m_tr patched] in *.
        f_equal; [apply map_ext; intro e; rewrite changes_app; cbn [changes_to same_ref]; now rewrite app_nil_r|].
        rewrite changes_app. cbn [changes_to same_ref]. rewrite changed_app. cbn [changed]. unfold patched, patch in D. cbn [m_empty] in D. now rewrite D.
      * cbn [deref] in D. unfold upd_heap, patch. cbn [m_heap m_next m_freed m_cache m_path m_charset m_fuzzy m_lang m_cur m_empty m_tr patched].
        f_equal; [|rewrite changes_app; cbn [changes_to same_ref]; now rewrite app_nil_r].
        change (m_heap (patched cf ops m0)) with (patch_heap (fun p => changed cf (changes_to (RefHeap p) ops)) (m_heap m0)) in D.
        pose proof (patch_store (fun p => changed cf (changes_to (RefHeap p) ops)) (m_heap m0) p (changed_by cf c) ND) as PS.
        rewrite D in PS. rewrite <- PS. unfold patch_heap. apply map_ext. intros [q e]. cbn [fst snd]. f_equal.
        rewrite changes_app. cbn [changes_to same_ref]. rewrite (Nat.eqb_sym q p). destruct (Nat.eqb p q); [rewrite changed_app; reflexivity|now rewrite app_nil_r].
    + intros p Hp. rewrite changes_app, (N p Hp). cbn [changes_to app]. destruct r as [|q]; [reflexivity|]. cbn [same_ref].
      destruct (Nat.eqb_spec p q) as [->|]; [|reflexivity]. exfalso.
      assert (heap_get (m_heap m0) q <> None); [|specialize (LT q H); lia].
      cbn [deref] in D. change (m_heap (patched cf ops m0)) with (patch_heap (fun p => changed cf (changes_to (RefHeap p) ops)) (m_heap m0)) in D.
      rewrite patch_get in D. destruct (heap_get (m_heap m0) q); [discriminate|discriminate D].
Qed.
