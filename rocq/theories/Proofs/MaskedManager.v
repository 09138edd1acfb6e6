(** The manager on streams with exception masks runs in step with the one on streams without. *)
From Verif.Model Require Import Base Log PluralForms Dictionary IConv Language Stream PoParser Manager Masked MaskedManager.
From Verif.Spec Require Import DictSpec ParserSpec PoSpec ReadSpec MaskedSpec MaskedManagerSpec.
From Verif.Proofs Require Import BaseFacts DictProofs ParserSafe ParserFuel ParserUnary ParserCut ParserBreak MaskedLock MaskedProofs MaskedBlank.
Local Open Scope list_scope.

Section Lock.
  Variable cf : config.
  Variable fs : file_system.
  Variable mk : bytes -> mask.
  Variable Rd : dictionary -> dictionary -> Prop.
  Variable Rl : list event -> list event -> Prop.
  (** do the calls that run into an assertion or undefined behaviour matter? *)
  Variable all : bool.
  Hypothesis Rd_refl : forall d, Rd d d.
  Hypothesis Rd_fb : forall d d' p, Rd d d' -> Rd (add_fallback d p) (add_fallback d' p).
  Hypothesis Rl_app : forall t t' e, Rl t t' -> Rl (t ++ e) (t' ++ e).
  Definition tame {A} (o : outcome A) : Prop :=
    match o with Ret _ | Exn _ => True | OutOfFuel => False | _ => all = true end.
  (** what load_file makes of the end of a parse *)
  Definition seen (f : bytes) (o : outcome unit) : outcome unit * list event :=
    match o with
    | Exn e => if is_std e then (Ret tt, [EvLog (log_error (bs "error: failure parsing: " ++ f)); EvLog (log_error (what e))]) else (Exn e, [])
    | o => (o, [])
    end.
  Hypothesis file_ok : forall f i d d', fs_file fs f = Ret (Some i) -> Rd d d' ->
    let r := po_parse cf f i d in let r' := x_po_parse (mk f) cf f i d' in
    tame (pr_outcome r) ->
    Rd (pr_dict r) (pr_dict r') /\ fst (seen f (pr_outcome r')) = fst (seen f (pr_outcome r)) /\
    forall t t', Rl t t' -> Rl ((t ++ pr_trace r) ++ snd (seen f (pr_outcome r))) ((t' ++ pr_trace r') ++ snd (seen f (pr_outcome r'))).

  Definition on_entry (x y : ptr * dictionary) : Prop := fst x = fst y /\ Rd (snd x) (snd y).
  Definition rel (a b : manager) : Prop :=
    upd_tr (upd_heap a []) [] = upd_tr (upd_heap b []) [] /\ Forall2 on_entry (m_heap a) (m_heap b) /\ Rl (m_tr a) (m_tr b).
  Definition lock {A} (f g : M manager A) : Prop :=
    forall a b, rel a b -> tame (fst (f a)) -> fst (g b) = fst (f a) /\ rel (snd (f a)) (snd (g b)).

  Lemma lock_bind A B (f g : M manager A) (h k : A -> M manager B) : lock f g -> (forall a, lock (h a) (k a)) -> lock (mbind f h) (mbind g k).
  Proof.
    intros H K a b R. unfold mbind. specialize (H a b R). destruct (f a) as [o a'], (g b) as [o' b']. cbn [fst snd] in H.
    destruct o as [x|e|u| |]; cbn [fst snd]; intro T; (destruct H as [-> R']; [exact T || exact Logic.I|]); cbn [fst snd]; auto. apply K; auto.
  Qed.
  Lemma lock_ret A (x : A) : lock (mret x) (mret x). Proof. intros a b R _. auto. Qed.
  Lemma lock_fail A (o : outcome False) : lock (@mfail manager A o) (mfail o). Proof. intros a b R _. auto. Qed.
  Lemma lock_lift A (o : outcome A) : lock (mlift o) (mlift o). Proof. intros a b R _. auto. Qed.
  Lemma lock_get A (f : manager -> A) : (forall a b, rel a b -> f a = f b) -> lock (mget f) (mget f).
  Proof. intros H a b R _. cbn [mget fst snd]. rewrite (H a b R). auto. Qed.
  Lemma lock_mod F : (forall a b, rel a b -> rel (F a) (F b)) -> lock (mmod F) (mmod F).
  Proof. intros H a b R _. cbn [mmod fst snd]. auto. Qed.
  Lemma on_get h h' p : Forall2 on_entry h h' ->
    match heap_get h p, heap_get h' p with None, None => True | Some d, Some d' => Rd d d' | _, _ => False end.
  Proof.
    induction 1 as [|[q d] [q' d'] h h' [E Hd] H IH]; [exact Logic.I|]. cbn [fst snd] in *. subst q'. cbn [heap_get].
    destruct (Nat.eqb p q); [exact Hd|exact IH].
  Qed.
  Lemma on_set h h' p d d' : Forall2 on_entry h h' -> Rd d d' -> Forall2 on_entry (heap_set h p d) (heap_set h' p d').
  Proof.
    intros H Hd. induction H as [|[q x] [q' x'] h h' [E Hx] H IH]; cbn [heap_set]; [constructor; [split; [reflexivity|exact Hd]|constructor]|].
    cbn [fst snd] in *. subst q'. destruct (Nat.eqb p q); constructor; auto; split; auto.
  Qed.
  Lemma on_filter h h' p : Forall2 on_entry h h' ->
    Forall2 on_entry (List.filter (fun e => negb (Nat.eqb p (fst e))) h) (List.filter (fun e => negb (Nat.eqb p (fst e))) h').
  Proof.
    induction 1 as [|[q d] [q' d'] h h' [E Hd] H IH]; [constructor|]. cbn [fst snd] in *. subst q'. cbn [List.filter fst].
    destruct (negb (Nat.eqb p q)); [constructor; [split; auto|exact IH]|exact IH].
  Qed.
  (** to be used with [a] and [b] destructed *)
  Ltac open R := let E := fresh "E" in let H := fresh "H" in let T := fresh "T" in destruct R as (E & H & T);
    match type of E with upd_tr (upd_heap ?a _) _ = upd_tr (upd_heap ?b _) _ =>
      destruct a as [ha na fa ca pa cha fza la cua ea ta], b as [hb nb fb cb pb chb fzb lb cub eb tb] end;
    unfold upd_tr, upd_heap in E; cbn [m_heap m_next m_freed m_cache m_path m_charset m_fuzzy m_lang m_cur m_empty m_tr] in *;
    injection E as <- <- <- <- <- <- <- <- <-.
  Ltac fields := repeat split; cbn [upd_tr upd_heap upd_path upd_lang upd_charset upd_fuzzy alloc m_heap m_next m_freed m_cache m_path m_charset m_fuzzy m_lang m_cur m_empty m_tr]; auto.
  Lemma lock_emit e : lock (emit_m e) (emit_m e).
  Proof. apply lock_mod. intros a b R. open R. fields. Qed.
  Lemma lock_alloc l : lock (mmod (fun m => alloc m l)) (mmod (fun m => alloc m l)).
  Proof. apply lock_mod. intros a b R. open R. fields. constructor; [split; [reflexivity|apply Rd_refl]|exact H]. Qed.
  Lemma lock_delete p : lock (delete p) (delete p).
  Proof.
    intros a b R _. unfold delete. pose proof R as R0. open R. pose proof (on_get _ _ p H) as G.
    cbn [m_heap]. destruct (heap_get ha p), (heap_get hb p); try contradiction; cbn [fst snd]; (split; [reflexivity|]); [|exact R0].
    fields. now apply on_filter.
  Qed.
  Lemma lock_delete_all c : lock (delete_all c) (delete_all c).
  Proof. induction c as [|[k p] c IH]; cbn [delete_all]; [apply lock_ret|]. apply lock_bind; [apply lock_delete|intros _; exact IH]. Qed.
  Lemma lock_clear : lock clear_cache clear_cache.
  Proof.
    unfold clear_cache. apply lock_bind; [apply lock_get; intros a b R; open R; reflexivity|intro c].
    apply lock_bind; [apply lock_delete_all|intros _]. apply lock_mod. intros a b R. open R. fields.
  Qed.
  Lemma lock_set_fallback id q : lock (set_fallback id q) (set_fallback id q).
  Proof.
    intros a b R _. unfold set_fallback. pose proof R as R0. open R. pose proof (on_get _ _ id H) as G.
    cbn [m_heap]. destruct (heap_get ha id), (heap_get hb id); try contradiction; cbn [fst snd]; (split; [reflexivity|]); [|exact R0].
    fields. apply on_set; [exact H|]. now apply Rd_fb.
  Qed.
  Lemma lock_consider l best f : lock (consider cf l best f) (consider cf l best f).
  Proof.
    unfold consider. destruct (has_suffix f dot_po); [|apply lock_ret]. apply lock_bind; [apply lock_lift|intro s].
    apply lock_bind; [apply lock_lift|intro po]. destruct (is_none po); [|cbv zeta; apply lock_ret].
    apply lock_bind; [apply lock_emit|intros _; apply lock_ret].
  Qed.
  Lemma lock_best l files : forall best, lock (best_file cf l best files) (best_file cf l best files).
  Proof. induction files as [|f files IH]; intro best; cbn [best_file]; [apply lock_ret|]. apply lock_bind; [apply lock_consider|intro; apply IH]. Qed.
  Lemma rel_tr a b e e' : rel a b -> (Rl (m_tr a) (m_tr b) -> Rl (m_tr a ++ e) (m_tr b ++ e')) -> rel (upd_tr a (m_tr a ++ e)) (upd_tr b (m_tr b ++ e')).
  Proof. intros R K. open R. fields. Qed.
  Lemma lock_file id f : lock (load_file cf fs id f) (x_load_file cf fs mk id f).
  Proof.
    intros a b R. unfold load_file, x_load_file. pose proof R as R0. pose proof (fun i => file_ok f i) as F.
    destruct (fs_file fs f) as [[i|]|e|u| |] eqn:Ef; cbn [fst snd]; try (intros _; auto; fail).
    - specialize (fun d d' => F i d d' eq_refl). pose proof (on_get _ _ id (proj1 (proj2 R))) as G.
      destruct (heap_get (m_heap a) id) as [d|], (heap_get (m_heap b) id) as [d'|]; try contradiction; [|auto].
      specialize (F d d' G). cbv zeta in *. revert F. generalize (po_parse cf f i d), (x_po_parse (mk f) cf f i d'). intros r r' F.
      assert (X : forall (o : outcome unit) m, match o with Exn e => if is_std e then (Ret tt, upd_tr m (m_tr m ++ [EvLog (log_error (bs "error: failure parsing: " ++ f)); EvLog (log_error (what e))])) else (Exn e, m) | Ret u => (Ret u, m) | Ub u => (Ub u, m) | AssertFail => (AssertFail, m) | OutOfFuel => (OutOfFuel, m) end
         = (fst (seen f o), upd_tr m (m_tr m ++ snd (seen f o)))).
      { intros o m. unfold seen. destruct m, o as [|e|u| |]; cbn [fst snd]; try (unfold upd_tr; cbn; rewrite app_nil_r; reflexivity).
        destruct (is_std e); [reflexivity|]. unfold upd_tr; cbn; rewrite app_nil_r; reflexivity. }
      rewrite (X (pr_outcome r)), (X (pr_outcome r')). cbn [fst snd]. intro T.
      assert (T' : tame (pr_outcome r)).
      { revert T. unfold seen. destruct (pr_outcome r) as [|e|u| |]; cbn [fst]; auto. intros _. exact Logic.I. }
      destruct (F T') as (F1 & F2 & F3). split; [exact F2|].
      specialize (F3 _ _ (proj2 (proj2 R))). open R. fields; cbn [m_heap m_tr] in *; try (now apply on_set); exact F3.
    - intros _. split; [reflexivity|]. apply rel_tr; [exact R0|apply Rl_app].
    - intros _. destruct (is_std e); cbn [fst snd]; (split; [reflexivity|]); [|exact R0]. apply rel_tr; [exact R0|apply Rl_app].
  Qed.
  Lemma lock_dir l id p : lock (load_dir cf fs l id p) (x_load_dir cf fs mk l id p).
  Proof.
    unfold load_dir, x_load_dir. apply lock_bind; [apply lock_lift|intro files]. apply lock_bind; [apply lock_best|intro best].
    destruct (is_nil (fst best)); [apply lock_ret|apply lock_file].
  Qed.
  Lemma lock_dirs l id ps : lock (load_dirs cf fs l id ps) (x_load_dirs cf fs mk l id ps).
  Proof. induction ps as [|p ps IH]; cbn [load_dirs x_load_dirs]; [apply lock_ret|]. apply lock_bind; [apply lock_dir|intros; exact IH]. Qed.
  Lemma lock_gd n : forall l, lock (get_dictionary_lang cf fs n l) (x_get_dictionary_lang cf fs mk n l).
  Proof.
    induction n as [|n IH]; intro l; cbn [get_dictionary_lang x_get_dictionary_lang]; [apply lock_fail|].
    destruct (negb (cf_ndebug cf) && is_none l); [apply lock_fail|].
    apply lock_bind; [apply lock_get; intros a b R; open R; reflexivity|intro c]. destruct (cache_find l c); [apply lock_ret|].
    apply lock_bind; [apply lock_get; intros a b R; open R; reflexivity|intro id]. apply lock_bind; [apply lock_alloc|intros _].
    apply lock_bind; [apply lock_get; intros a b R; open R; reflexivity|intro path]. apply lock_bind; [apply lock_dirs|intros _].
    destruct (is_nil (get_country l)); [apply lock_ret|]. apply lock_bind; [apply lock_lift|intro base].
    apply lock_bind; [apply IH|intro fb]. apply lock_bind; [apply lock_set_fallback|intros _]. apply lock_ret.
  Qed.
  Lemma lock_get_dictionary : lock (get_dictionary cf fs) (x_get_dictionary cf fs mk).
  Proof.
    unfold get_dictionary, x_get_dictionary. apply lock_bind; [apply lock_get; intros a b R; open R; reflexivity|intros [p|]; [apply lock_ret|]].
    apply lock_bind; [apply lock_get; intros a b R; open R; reflexivity|intro l]. destruct (is_none l); [apply lock_ret|].
    apply lock_bind; [apply lock_gd|intro p]. apply lock_bind; [|intros _; apply lock_ret]. apply lock_mod. intros a b R. open R. fields.
  Qed.
  Lemma lock_step op : lock (mstep cf fs op) (x_mstep cf fs mk op).
  Proof.
    destruct op as [l|c|fz|p pr|p| |l| | |]; cbn [mstep x_mstep]; unfold mmap; (apply lock_bind; [|intro; apply lock_ret]).
    - unfold set_language. apply lock_mod. intros a b R. open R. cbn [m_lang]. destruct (negb _); fields.
    - unfold set_charset. apply lock_bind; [apply lock_clear|intros _]. apply lock_mod. intros a b R. open R. fields.
    - unfold set_use_fuzzy. apply lock_bind; [apply lock_clear|intros _]. apply lock_mod. intros a b R. open R. fields.
    - unfold add_directory. apply lock_bind; [apply lock_get; intros a b R; open R; reflexivity|intro path].
      destruct (existsb _ _); [apply lock_ret|]. apply lock_bind; [apply lock_clear|intros _]. apply lock_mod. intros a b R. open R. fields.
    - unfold remove_directory. apply lock_bind; [apply lock_get; intros a b R; open R; reflexivity|intro path].
      destruct (existsb _ _); [|apply lock_ret]. apply lock_bind; [apply lock_clear|intros _]. apply lock_mod. intros a b R. open R. fields.
    - apply lock_get_dictionary.
    - apply lock_gd.
    - unfold get_languages. apply lock_bind; [apply lock_get; intros a b R; open R; reflexivity|intro p]. apply lock_lift.
    - apply lock_get; intros a b R; open R; reflexivity.
    - apply lock_get; intros a b R; open R; reflexivity.
  Qed.
End Lock.
