(** Interrupted calls whose dictionary is deleted, or whose search path changes, under them. *)
From Verif.Model Require Import Base Log PluralForms Dictionary IConv Language Stream PoParser Manager Reentrant.
From Verif.Spec Require Import DictSpec LangSpec ParserSpec ManagerSpec LoadSpec ReentrantSpec.
From Verif.Proofs Require Import BaseFacts DictProofs LangProofs ParserSafe ManagerLoad ManagerOwn ManagerGet ManagerStep ReentrantProofs.
Local Open Scope list_scope.

(** ** the search path *)
Lemma strs_eqb_eq a : forall b, strs_eqb a b = true -> a = b.
Proof.
  induction a as [|x a IH]; intros [|y b]; cbn [strs_eqb]; try discriminate; [reflexivity|].
  intro H. apply andb_true_iff in H as [H1 H2]. apply bytes_eqb_eq in H1 as ->. now rewrite (IH b H2).
Qed.
Lemma check_path path s s' u : icheck path s = (Ret u, s') -> s' = s /\ m_path (i_m s) = path.
Proof.
  unfold icheck, mbind, mget. destruct (strs_eqb (m_path (i_m s)) path) eqn:E; [|discriminate]. intro H. injection H as <- <-.
  split; [reflexivity|]. now apply strs_eqb_eq.
Qed.
Lemma bind_ret {S A B} (c : M S A) (f : A -> M S B) s y s' : mbind c f s = (Ret y, s') -> exists x s1, c s = (Ret x, s1) /\ f x s1 = (Ret y, s').
Proof. unfold mbind. destruct (c s) as [[x|e|u| |] s1]; try discriminate. eauto. Qed.
Lemma mmap_ret {S A B} (f : A -> B) (c : M S A) s y s' : mmap f c s = (Ret y, s') -> exists x, c s = (Ret x, s') /\ y = f x.
Proof. intro H. apply bind_ret in H as (x & s1 & H1 & H2). injection H2 as <- <-. eauto. Qed.

Section Path.
  Variable cf : config.
  Variable fs : file_system.
  Variable env : nat -> point -> manager -> manager.
  Variable cuts : nat -> list nat.

  Lemma dirs_path a id path ps : forall s s' u, m_path (i_m s) = path ->
    iload_dirs cf fs env cuts a id path ps s = (Ret u, s') -> m_path (i_m s') = path.
  Proof.
    induction ps as [|p ps IH]; intros s s' u P H; cbn [iload_dirs] in H; [injection H as _ <-; exact P|].
    apply bind_ret in H as (x & s1 & H1 & H2). apply IH in H2; [exact H2|]. unfold iload_dir in H1.
    apply bind_ret in H1 as (y1 & t1 & _ & H1). apply bind_ret in H1 as (y2 & t2 & _ & H1). apply bind_ret in H1 as (y3 & t3 & _ & H1).
    apply bind_ret in H1 as (y4 & t4 & _ & H1). apply check_path in H1 as [-> H1]. exact H1.
  Qed.
  Lemma get_path dp : forall a s s' p, iget cf fs env cuts dp a s = (Ret p, s') -> m_path (i_m s') = m_path (i_m s).
  Proof.
    induction dp as [|dp IH]; intros a s s' p H; [discriminate H|]. rewrite iget_eq in H. destruct (negb _ && _); [discriminate H|].
    destruct (cache_find _ _); [injection H as _ <-; reflexivity|]. unfold irest in H. apply bind_ret in H as (u & s1 & H1 & H2).
    apply dirs_path in H1; [|reflexivity]. rewrite <- H1. clear H1. unfold ifinish in H2.
    apply bind_ret in H2 as (l2 & t1 & E1 & H2). injection E1 as _ <-. destruct (is_nil (get_country l2)); [injection H2 as _ <-; reflexivity|].
    apply bind_ret in H2 as (b & t2 & E2 & H2). unfold mlift in E2. injection E2 as _ <-.
    apply bind_ret in H2 as (fb & t3 & E3 & H2). apply IH in E3. rewrite <- E3.
    apply bind_ret in H2 as (x & t4 & E4 & H2). injection H2 as _ <-. unfold ilift, set_fallback in E4.
    destruct (heap_get (m_heap (i_m t3)) _) as [d|]; [|discriminate E4]. injection E4 as _ <-. reflexivity.
  Qed.
  Lemma langs_path path ps : forall acc s s' r, m_path (i_m s) = path -> i_n s = length (i_seen s) ->
    (forall k pt mk, nth_error (i_seen s) k = Some (pt, mk) -> m_path (env k pt mk) = path) ->
    ilangs_of_dirs cf fs env path ps acc s = (Ret r, s') ->
    m_path (i_m s') = path /\ forall k pt mk, nth_error (i_seen s') k = Some (pt, mk) -> m_path (env k pt mk) = path.
  Proof.
    induction ps as [|p ps IH]; intros acc s s' r P N S H; cbn [ilangs_of_dirs] in H; [injection H as _ <-; split; assumption|].
    apply bind_ret in H as (x & s1 & H1 & H). apply bind_ret in H as (files & s2 & H2 & H). injection H2 as _ <-.
    apply bind_ret in H as (acc' & s3 & H3 & H). injection H3 as _ <-. apply bind_ret in H as (y & s4 & H4 & H).
    apply check_path in H4 as [-> H4]. injection H1 as _ <-. cbn [i_m] in H4.
    apply IH in H; [exact H|exact H4|cbn; rewrite app_length; cbn; lia|].
    intros k pt mk Hk. cbn [i_seen] in Hk. destruct (Nat.lt_ge_cases k (length (i_seen s))) as [L|L].
    - rewrite nth_error_app1 in Hk by exact L. eapply S; eauto.
    - rewrite nth_error_app2 in Hk by exact L. destruct (k - length (i_seen s)) as [|j] eqn:Z; cbn [nth_error] in Hk.
      + injection Hk as <- <-. replace k with (i_n s) by lia. exact H4.
      + destruct j; discriminate Hk.
  Qed.
End Path.

(** ** a deleted dictionary *)
Section Doom.
  Variable cf : config.
  Variable fs : file_system.
  Variable env : nat -> point -> manager -> manager.
  Variable cuts : nat -> list nat.
  Hypothesis E : forall n pt m, fate m (env n pt m).

  (** the dictionary is going to be used *)
  Definition needed (pt : point) : Prop :=
    match pt with
    | AtOpen name => exists i, fs_file fs name = Ret (Some i)
    | AtMessage _ more => more <> 0
    | _ => False
    end.
  Definition dooms (k : nat) (pt : point) (mk : manager) : Prop := forall q, in_cache mk q -> dead (env k pt mk) q.
  Definition safe (s : ist) : Prop := forall k pt mk, nth_error (i_seen s) k = Some (pt, mk) -> needed pt -> ~ dooms k pt mk.
  Definition tracked (ids : ptr -> Prop) (s : ist) : Prop :=
    i_n s = length (i_seen s) /\ safe s /\ forall id, ids id -> id < m_next (i_m s) /\ (in_cache (i_m s) id \/ dead (i_m s) id).
  Definition keeps_or {A} (P : ist -> Prop) (c : M ist A) : Prop :=
    forall s, P s -> fst (c s) = Ub UbPointer \/ P (snd (c s)).
  Lemma keeps_bind {A B} P (c : M ist A) (f : A -> M ist B) : keeps_or P c -> (forall x, keeps_or P (f x)) -> keeps_or P (mbind c f).
  Proof.
    intros Hc Hf s Ps. unfold mbind. specialize (Hc s Ps). destruct (c s) as [[x|e|u| |] s']; cbn [fst snd] in *; try (destruct Hc as [Hc|Hc]; [now left|now right]).
    - destruct Hc as [Hc|Hc]; [discriminate|]. exact (Hf x s' Hc).
    - destruct Hc as [Hc|Hc]; [injection Hc as ->; now left|now right].
  Qed.
  Lemma keeps_pres {A} P (c : M ist A) : pres P c -> keeps_or P c.
  Proof. intros H s Ps. right. now apply H. Qed.

  Lemma nth_end (k n : nat) (A : Type) (l : list A) x y : n = length l -> nth_error (l ++ [x]) k = Some y -> nth_error l k = Some y \/ (k = n /\ y = x).
  Proof.
    intros N Hk. destruct (Nat.lt_ge_cases k (length l)) as [L|L].
    - rewrite nth_error_app1 in Hk by exact L. now left.
    - rewrite nth_error_app2 in Hk by exact L. destruct (k - length l) as [|j] eqn:Z; cbn [nth_error] in Hk; [|destruct j; discriminate Hk].
      injection Hk as <-. right. split; [lia|reflexivity].
  Qed.
  Lemma tracked_ids ids s m' : fate (i_m s) m' -> (forall id : ptr, ids id -> id < m_next (i_m s) /\ (in_cache (i_m s) id \/ dead (i_m s) id)) ->
    forall id, ids id -> id < m_next m' /\ (in_cache m' id \/ dead m' id).
  Proof.
    intros F H id I. destruct (H id I) as [H1 H2]. split; [pose proof (ft_next _ _ F); lia|]. now apply (ft_known _ _ F).
  Qed.
  (** an interruption *)
  Lemma tracked_int ids pt s : tracked ids s -> (needed pt -> ~ dooms (i_n s) pt (i_m s)) -> tracked ids (snd (interrupt env pt s)).
  Proof.
    intros (H1 & H2 & H3) N. cbn [interrupt snd]. split; [cbn; rewrite app_length; cbn; lia|]. split.
    - intros k pt' mk Hk. cbn [i_seen] in Hk. apply (nth_end k (i_n s)) in Hk; [|exact H1].
      destruct Hk as [Hk|[-> Q]]; [eapply H2; eauto|]. injection Q as -> ->. exact N.
    - cbn [i_m]. apply (tracked_ids ids s); [apply E|exact H3].
  Qed.
  Lemma tracked_idle ids pt : (~ needed pt) -> pres (tracked ids) (interrupt env pt).
  Proof. intros N s H. apply tracked_int; [exact H|]. intro C. contradiction. Qed.
  (** ... that leaves a tracked dictionary alive *)
  Lemma tracked_alive ids pt s id d : tracked ids s -> ids id -> heap_get (m_heap (env (i_n s) pt (i_m s))) id = Some d ->
    tracked ids (snd (interrupt env pt s)).
  Proof.
    intros T I H. apply tracked_int; [exact T|]. intros _ D. destruct T as (_ & _ & T). destruct (T id I) as [L [C|X]].
    - specialize (D id C). unfold dead in D. congruence.
    - pose proof (ft_dead _ _ (E (i_n s) pt (i_m s)) id L X) as Y. unfold dead in Y. congruence.
  Qed.
  Lemma tracked_lift ids {A} (f : M manager A) : (forall m, fate m (snd (f m))) -> pres (tracked ids) (ilift f).
  Proof.
    intros F s (H1 & H2 & H3). unfold ilift. specialize (F (i_m s)). destruct (f (i_m s)) as [o m']. cbn [snd] in *.
    split; [exact H1|]. split; [exact H2|]. cbn [i_m]. now apply (tracked_ids ids s).
  Qed.
  Lemma tracked_emit ids t : pres (tracked ids) (ilift (emit_m t)).
  Proof. apply tracked_lift. intro m. now apply fate_same. Qed.

  Section Load.
    Variable ids : ptr -> Prop.
    Variable id : ptr.
    Hypothesis I : ids id.

    Lemma doom_consider a b f : keeps_or (tracked ids) (iconsider cf env a b f).
    Proof.
      apply keeps_pres. unfold iconsider. destruct (has_suffix f dot_po); [|apply pres_ret]. apply pres_bind; [apply pres_mlift|intro].
      apply pres_bind; [apply pres_mlift|intro po]. destruct (is_none po).
      - apply pres_bind; [apply tracked_emit|intro]. apply pres_bind; [apply tracked_idle; intros []|intro]. apply pres_ret.
      - apply pres_bind; [apply pres_get|intro]. apply pres_ret.
    Qed.
    Lemma doom_best a files : forall b, keeps_or (tracked ids) (ibest_file cf env a b files).
    Proof.
      induction files as [|f files IH]; intro b; cbn [ibest_file]; [apply keeps_pres, pres_ret|].
      apply keeps_bind; [apply doom_consider|apply IH].
    Qed.
    Lemma write_dead cs m : cs <> [] -> dead m id -> write_calls id cs m = (Ub UbPointer, m).
    Proof. intros N D. unfold write_calls. destruct cs; [contradiction|]. now rewrite D. Qed.
    Lemma writes_dead name ks : forall cs s, cs <> [] -> id < m_next (i_m s) -> dead (i_m s) id -> fst (iwrites env id name ks cs s) = Ub UbPointer.
    Proof.
      induction ks as [|k ks IH]; intros cs s N L D; cbn [iwrites].
      - unfold ilift. now rewrite (write_dead cs _ N D).
      - unfold mbind at 1. unfold ilift at 1. destruct (firstn k cs) as [|c cs'] eqn:F.
        + cbn [write_calls]. unfold mbind. cbn [interrupt]. apply IH; cbn [i_m].
          * intro Z. apply N. rewrite <- (firstn_skipn k cs), F, Z. reflexivity.
          * eapply Nat.lt_le_trans; [exact L|apply ft_next, E].
          * apply (ft_dead _ _ (E _ _ _)); assumption.
        + rewrite write_dead; [reflexivity|discriminate|exact D].
    Qed.
    Lemma doom_writes name ks : forall cs, keeps_or (tracked ids) (iwrites env id name ks cs).
    Proof.
      induction ks as [|k ks IH]; intro cs; cbn [iwrites].
      - apply keeps_pres, tracked_lift. intro m. apply write_fate.
      - apply keeps_bind; [apply keeps_pres, tracked_lift; intro m; apply write_fate|]. intros _ s T. unfold mbind.
        change (interrupt env (AtMessage name (length (skipn k cs))) s) with (@Ret unit tt, snd (interrupt env (AtMessage name (length (skipn k cs))) s)).
        cbv iota beta. destruct (skipn k cs) as [|c cs'] eqn:F.
        + apply IH. apply tracked_idle; [|exact T]. cbn [needed length]. intro C. now apply C.
        + rewrite <- F. set (pt := AtMessage name (length (skipn k cs))).
          destruct (heap_get (m_heap (env (i_n s) pt (i_m s))) id) as [d|] eqn:H.
          * apply IH. eapply tracked_alive; eauto.
          * left. apply writes_dead; [congruence| |exact H]. cbn [interrupt snd i_m].
            pose proof (ft_next _ _ (E (i_n s) pt (i_m s))). destruct T as (_ & _ & T). destruct (T id I). lia.
    Qed.
    Lemma doom_failed name e : keeps_or (tracked ids) (ifailed env name e).
    Proof.
      apply keeps_pres. unfold ifailed. apply pres_bind; [apply tracked_emit|intro]. apply pres_bind; [apply tracked_idle; intros []|intro].
      apply pres_bind; [apply tracked_emit|intro]. apply tracked_idle; intros [].
    Qed.
    Lemma doom_file name : keeps_or (tracked ids) (iload_file cf fs env cuts id name).
    Proof.
      intros s T. unfold iload_file. unfold mbind at 1.
      change (interrupt env (AtOpen name) s) with (@Ret unit tt, snd (interrupt env (AtOpen name) s)). cbv iota beta.
      destruct (fs_file fs name) as [[i|]|e|u| |] eqn:F.
      - destruct (heap_get (m_heap (env (i_n s) (AtOpen name) (i_m s))) id) as [d|] eqn:H.
        + pose proof (tracked_alive ids (AtOpen name) s id d T I H) as T1. refine ((_ : keeps_or (tracked ids) _) _ T1).
          apply keeps_bind; [apply keeps_pres, pres_get|]. intros [d'|]; [|intros s9 _; now left]. cbv zeta.
          apply keeps_bind; [apply keeps_pres, pres_get|intro n]. apply keeps_bind; [apply doom_writes|intro].
          apply keeps_bind; [apply keeps_pres, tracked_emit|intro].
          destruct (pr_outcome _) as [o|e|u| |]; try apply keeps_pres, pres_mlift.
          destruct (is_std e); [apply doom_failed|apply keeps_pres, pres_mlift].
        + left. unfold mbind at 1, mget at 1. cbn [interrupt snd i_m]. rewrite H. reflexivity.
      - assert (T1 : tracked ids (snd (interrupt env (AtOpen name) s))) by (apply tracked_idle; [intros [i C]; congruence|exact T]).
        refine ((_ : keeps_or (tracked ids) _) _ T1). apply keeps_pres.
        apply pres_bind; [apply tracked_emit|intro]. apply tracked_idle; intros [].
      - assert (T1 : tracked ids (snd (interrupt env (AtOpen name) s))) by (apply tracked_idle; [intros [i C]; congruence|exact T]).
        refine ((_ : keeps_or (tracked ids) _) _ T1). destruct (is_std e); [apply doom_failed|apply keeps_pres, pres_mlift].
      - right. apply tracked_idle; [intros [i C]; congruence|exact T].
      - right. apply tracked_idle; [intros [i C]; congruence|exact T].
      - right. apply tracked_idle; [intros [i C]; congruence|exact T].
    Qed.
    Lemma doom_check path : keeps_or (tracked ids) (icheck path).
    Proof. apply keeps_pres, pres_check. Qed.
    Lemma doom_dir a path p : keeps_or (tracked ids) (iload_dir cf fs env cuts a id path p).
    Proof.
      unfold iload_dir. apply keeps_bind; [apply keeps_pres, tracked_idle; intros []|intro]. apply keeps_bind; [apply keeps_pres, pres_mlift|intro files].
      apply keeps_bind; [apply doom_best|intro b]. apply keeps_bind; [|intro; apply doom_check].
      destruct (is_nil (fst b)); [apply keeps_pres, pres_ret|]. apply keeps_bind; [apply doom_check|intro; apply doom_file].
    Qed.
    Lemma doom_dirs a path ps : keeps_or (tracked ids) (iload_dirs cf fs env cuts a id path ps).
    Proof.
      induction ps as [|p ps IH]; cbn [iload_dirs]; [apply keeps_pres, pres_ret|]. apply keeps_bind; [apply doom_dir|intro; exact IH].
    Qed.
  End Load.

  Lemma tracked_more ids s l : tracked ids s -> tracked (fun q => ids q \/ q = m_next (i_m s)) (allocated s l).
  Proof.
    intros (H1 & H2 & H3). split; [exact H1|]. split; [exact H2|]. cbn [allocated i_m]. intros q [Q| ->].
    - exact (tracked_ids ids s _ (fate_alloc (i_m s) l) H3 q Q).
    - split; [cbn; lia|]. left. unfold in_cache. cbn. rewrite map_app. apply in_or_app. right. now left.
  Qed.
  Lemma tracked_less (ids ids' : ptr -> Prop) s : (forall q, ids q -> ids' q) -> tracked ids' s -> tracked ids s.
  Proof. intros L (H1 & H2 & H3). split; [exact H1|]. split; [exact H2|]. intros q Q. apply H3, L, Q. Qed.
  Lemma doom_get dp : forall ids a, keeps_or (tracked ids) (iget cf fs env cuts dp a).
  Proof.
    induction dp as [|dp IH]; intros ids a; [apply keeps_pres, pres_fail|]. intros s T. rewrite iget_eq.
    destruct (negb _ && _); [now right|]. destruct (cache_find _ _); [now right|].
    set (ids' := fun q => ids q \/ q = m_next (i_m s)). set (id := m_next (i_m s)).
    assert (T1 : tracked ids' (allocated s (arg_lang a s))) by now apply tracked_more.
    assert (C : keeps_or (tracked ids') (irest cf fs env cuts dp a id (m_path (i_m s)))).
    { unfold irest, ifinish. apply keeps_bind; [apply doom_dirs; now right|intro]. apply keeps_bind; [apply keeps_pres, pres_get|intro l2].
      destruct (is_nil (get_country l2)); [apply keeps_pres, pres_ret|]. apply keeps_bind; [apply keeps_pres, pres_mlift|intro b].
      apply keeps_bind; [apply IH|intro fb]. apply keeps_bind; [apply keeps_pres, tracked_lift; intro m; apply fallback_fate|intro].
      apply keeps_pres, pres_ret. }
    destruct (C _ T1) as [C1|C1]; [now left|right]. eapply tracked_less; [|exact C1]. intros q Q. now left.
  Qed.
  Lemma start_tracked m : tracked (fun _ => False) (start_ist m).
  Proof. split; [reflexivity|]. split; [intros [|k] pt mk Hk; discriminate Hk|intros _ []]. Qed.
  Lemma doomed dp a m o s' k pt mk : iget cf fs env cuts dp a (start_ist m) = (o, s') ->
    nth_error (i_seen s') k = Some (pt, mk) -> needed pt -> dooms k pt mk -> o = Ub UbPointer.
  Proof.
    intros H Hk N D. destruct (doom_get dp _ a _ (start_tracked m)) as [C|C]; rewrite H in C; cbn [fst snd] in C; [exact C|].
    destruct C as (_ & C & _). exfalso. exact (C k pt mk Hk N D).
  Qed.
End Doom.
