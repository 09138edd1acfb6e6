(** Two managers that see the same directories listed in different orders run in step. *)
From Coq Require Import Permutation.
From Verif.Model Require Import Base Log PluralForms Dictionary IConv Language Stream PoParser Manager.
From Verif.Spec Require Import DictSpec LangSpec ParserSpec ManagerSpec LoadSpec OrderSpec.
From Verif.Proofs Require Import BaseFacts DictProofs LangProofs ManagerLoad ManagerOwn ManagerGet ManagerContent ManagerLog ManagerFiles.
Local Open Scope list_scope.

Lemma tidy_perm cf a b : Permutation a b -> tidy cf a -> tidy cf b.
Proof. intros P T f H. apply T. eapply Permutation_in; [apply Permutation_sym|]; eauto. Qed.

(** ** the set of languages *)
Lemma asc_unique a : forall b, Forall known a -> Forall known b -> asc a -> asc b -> (forall l, In l a <-> In l b) -> a = b.
Proof.
  induction a as [|x a IH]; intros [|y b] Ka Kb A B H.
  - reflexivity.
  - destruct (proj2 (H y)); now left.
  - destruct (proj1 (H x)); now left.
  - inversion Ka; inversion Kb; subst. destruct A as [Fa A], B as [Fb B]. rewrite Forall_forall in Fa, Fb.
    assert (x = y).
    { destruct (proj1 (H x)) as [E|E]; [now left|congruence|]. destruct (proj2 (H y)) as [E'|E']; [now left|congruence|].
      pose proof (lang_ltb_trans _ _ _ (Fa y E') (Fb x E)) as X. now rewrite lang_ltb_irrefl in X. }
    subst y. f_equal. apply IH; auto. intro l. specialize (H l). cbn [In] in H. split; intro I.
    + destruct (proj1 H (or_intror I)) as [->|]; [|assumption]. specialize (Fa l I). now rewrite lang_ltb_irrefl in Fa.
    + destruct (proj2 H (or_intror I)) as [->|]; [|assumption]. specialize (Fb l I). now rewrite lang_ltb_irrefl in Fb.
Qed.
Lemma langs_perm cf fs fs' ps : reordered fs fs' -> (forall p files, fs_dir fs p = Ret files -> tidy cf files) ->
  forall acc, Forall known acc -> asc acc -> langs_of_dirs cf fs' ps acc = langs_of_dirs cf fs ps acc.
Proof.
  intros [_ R] T. induction ps as [|p ps IH]; intros acc K A; [reflexivity|]. cbn [langs_of_dirs]. specialize (R p).
  destruct (fs_dir fs p) as [files|e|u| |] eqn:E; try (rewrite R; reflexivity). destruct R as (files' & -> & P). cbn [obind].
  destruct (langs_files cf files) with (acc := acc) as (r & -> & Kr & Ar & M); auto; [intros; apply (T p files E); assumption|].
  destruct (langs_files cf files') with (acc := acc) as (r' & -> & Kr' & Ar' & M'); auto.
  { intros f Hf. apply (T p files E). eapply Permutation_in; [apply Permutation_sym|]; eauto. }
  cbn [obind]. rewrite (asc_unique r' r Kr' Kr Ar' Ar); [apply IH; auto|]. intro l. rewrite M, M'.
  split; (intros [X|(f & X & Y)]; [now left|right; exists f; split; [|exact Y]]); [eapply Permutation_in; [apply Permutation_sym|]; eauto|eapply Permutation_in; eauto].
Qed.

(** ** the choice of a file *)
Lemma pconsider_tidy cf l best f : real_string f -> (cf_strict cf = true -> forall t, f = t ++ bs ".po" -> ~ stops_at_negative t) ->
  exists b t, pconsider cf l best f = (Ret b, t).
Proof.
  intros R S. unfold pconsider. destruct (has_suffix f dot_po) eqn:X; [|eauto]. apply suffix_split in X as (t & E).
  assert (L : 3 <= length f) by (rewrite E, app_length; change (length dot_po) with 3; lia).
  destruct (convert_spec (cf_strict cf) f R L) as (t' & St & ->).
  assert (t' = t) as ->. { destruct St as [E'|[N _]]; [rewrite E in E'; now apply app_inv_tail in E'|now destruct (N t)]. }
  destruct (upcase_spec (cf_strict cf) t) as [(r & -> & _)|(B1 & _ & B2)]; [|now destruct (S B1 t E)].
  cbn [obind]. destruct (from_env_total (cf_ndebug cf) r) as (po & ->). destruct (is_none po); eauto.
Qed.
Lemma pbest_tidy cf l files : tidy cf files -> forall best, exists b, pbest cf l best files = (Ret b, notes cf files).
Proof.
  intros T best. assert (exists b t, pbest cf l best files = (Ret b, t)) as (b & t & E).
  { revert best. induction files as [|f files IH]; intro best; cbn [pbest]; [eauto|].
    destruct (T f (or_introl eq_refl)) as [T1 T2]. destruct (pconsider_tidy cf l best f T1 T2) as (b1 & t1 & ->).
    destruct (IH (fun g H => T g (or_intror H)) b1) as (b & t & ->). eauto. }
  exists b. now rewrite E, (pbest_notes cf l files _ _ _ E).
Qed.
Lemma candidate_score cf l f : candidate cf l f <-> (0 < file_score cf l f)%Z.
Proof. rewrite file_score_pos. unfold candidate. split; intros (s & H1 & H2); eauto. Qed.
Lemma rating_score cf l f : rating cf l f = file_score cf l f.
Proof. unfold rating, file_score. now destruct (po_language cf f). Qed.
Lemma best_name cf l files b t : pbest cf l ([], 0%Z) files = (Ret b, t) ->
  (fst b = [] /\ forall f, ~ fits_best cf l files f) \/ fits_best cf l files (fst b).
Proof.
  intro E. destruct (pbest_ret cf l files _ _ _ E) as [[-> M]|(bf & f & af & -> & -> & A1 & A2 & A3)]; [cbn; lia| |].
  - left. split; [reflexivity|]. intros f (I & C & _). apply candidate_score in C. specialize (M f I). cbn [snd] in M. lia.
  - right. cbn [fst snd] in *. split; [apply in_or_app; right; now left|]. split; [now apply candidate_score|].
    intros g I. rewrite !rating_score. apply in_app_or in I as [I|[<-|I]]; [specialize (A2 g I); lia|lia|auto].
Qed.
Lemma fits_perm cf l a b f : Permutation a b -> fits_best cf l a f -> fits_best cf l b f.
Proof.
  intros P (I & C & H). split; [eapply Permutation_in; eauto|]. split; [exact C|]. intros g Ig. apply H.
  eapply Permutation_in; [apply Permutation_sym|]; eauto.
Qed.
Lemma best_perm cf l a b : Permutation a b -> tidy cf a -> decisive cf l a ->
  exists x y, pbest cf l ([], 0%Z) a = (Ret x, notes cf a) /\ pbest cf l ([], 0%Z) b = (Ret y, notes cf b) /\ fst x = fst y.
Proof.
  intros P T D. destruct (pbest_tidy cf l a T ([], 0%Z)) as (x & X). destruct (pbest_tidy cf l b (tidy_perm cf a b P T) ([], 0%Z)) as (y & Y).
  exists x, y. split; [exact X|]. split; [exact Y|].
  destruct (best_name cf l a x _ X) as [[Ex Nx]|Fx], (best_name cf l b y _ Y) as [[Ey Ny]|Fy].
  - congruence.
  - destruct (Nx (fst y)). apply (fits_perm cf l b a); [now apply Permutation_sym|exact Fy].
  - destruct (Ny (fst x)). now apply (fits_perm cf l a b).
  - apply D; [exact Fx|]. apply (fits_perm cf l b a); [now apply Permutation_sym|exact Fy].
Qed.
Lemma notes_perm cf a b : Permutation a b -> Permutation (notes cf a) (notes cf b).
Proof.
  intro P. unfold notes. rewrite <- !flat_map_concat_map. now apply Permutation_flat_map.
Qed.

Section Lock.
  Variable cf : config.
  Variables fs fs' : file_system.
  (** the languages that may be loaded *)
  Variable good : language -> Prop.
  Hypothesis R : reordered fs fs'.
  Hypothesis T : forall p files, fs_dir fs p = Ret files -> tidy cf files.
  Hypothesis D : forall l p files, good l -> fs_dir fs p = Ret files -> decisive cf l files.
  Hypothesis good_base : forall l b, good l -> from_spec (cf_ndebug cf) (get_language l) [] [] = Ret b -> good b.

  Definition rel (a b : manager) : Prop :=
    upd_tr a [] = upd_tr b [] /\ Permutation (m_tr a) (m_tr b) /\ (m_lang a <> None -> good (m_lang a)).
  Definition lock {A} (P : A -> Prop) (f g : M manager A) : Prop :=
    forall a b, rel a b -> fst (g b) = fst (f a) /\ rel (snd (f a)) (snd (g b)) /\ match fst (f a) with Ret x => P x | _ => True end.
  Definition any {A} (_ : A) : Prop := True.

  Lemma lock_bind A B (P : A -> Prop) (Q : B -> Prop) (f g : M manager A) (h k : A -> M manager B) :
    lock P f g -> (forall a, P a -> lock Q (h a) (k a)) -> lock Q (mbind f h) (mbind g k).
  Proof.
    intros H K a b E. unfold mbind. specialize (H a b E). destruct (f a) as [o a'], (g b) as [o' b']. cbn [fst snd] in H.
    destruct H as (-> & E' & Px). destruct o as [x|e|u| |]; cbn [fst snd]; auto. apply K; auto.
  Qed.
  Lemma lock_ret A (P : A -> Prop) (x : A) : P x -> lock P (mret x) (mret x). Proof. intros H a b E. auto. Qed.
  Lemma lock_fail A (P : A -> Prop) (o : outcome False) : lock P (@mfail manager A o) (mfail o).
  Proof. intros a b E. cbn. destruct o as [[]|?|?| |]; auto. Qed.
  Lemma lock_lift A (P : A -> Prop) (o : outcome A) : match o with Ret x => P x | _ => True end -> lock P (mlift o) (mlift o).
  Proof. intros H a b E. auto. Qed.
  Ltac open E := let X := fresh "X" in let H := fresh "H" in let G := fresh "G" in destruct E as (X & H & G);
    match type of X with upd_tr ?a _ = upd_tr ?b _ =>
      destruct a as [ha na fa ca pa cha fza la cua ea ta], b as [hb nb fb cb pb chb fzb lb cub eb tb] end;
    unfold upd_tr in X; cbn [m_heap m_next m_freed m_cache m_path m_charset m_fuzzy m_lang m_cur m_empty m_tr] in *;
    injection X as <- <- <- <- <- <- <- <- <- <-.
  Ltac fields := repeat split; cbn [upd_tr upd_heap upd_path upd_lang upd_charset upd_fuzzy alloc m_heap m_next m_freed m_cache m_path m_charset m_fuzzy m_lang m_cur m_empty m_tr]; auto.
  Lemma lock_get A (P : A -> Prop) (f : manager -> A) : (forall a b, rel a b -> f a = f b /\ P (f a)) -> lock P (mget f) (mget f).
  Proof. intros H a b E. cbn [mget fst snd]. destruct (H a b E) as [-> H2]. auto. Qed.
  Lemma lock_mod F : (forall a b, rel a b -> rel (F a) (F b)) -> lock any (mmod F) (mmod F).
  Proof. intros H a b E. cbn [mmod fst snd]. repeat split; auto; exact (H a b E) || exact (proj1 (H a b E)) || apply (H a b E). Qed.
  Lemma lock_delete p : lock any (delete p) (delete p).
  Proof.
    intros a b E. unfold delete. pose proof E as E0. open E. cbn [m_heap].
    destruct (heap_get ha p); cbn [fst snd]; (split; [reflexivity|]); (split; [|exact Logic.I]); [fields|exact E0].
  Qed.
  Lemma lock_delete_all c : lock any (delete_all c) (delete_all c).
  Proof. induction c as [|[k p] c IH]; cbn [delete_all]; [now apply lock_ret|]. eapply lock_bind; [apply lock_delete|intros _ _; exact IH]. Qed.
  Lemma lock_clear : lock any clear_cache clear_cache.
  Proof.
    unfold clear_cache. apply lock_bind with (P := any); [apply lock_get; intros a b E; open E; split; [reflexivity|exact Logic.I]|intros c _].
    eapply lock_bind; [apply lock_delete_all|intros _ _]. apply lock_mod. intros a b E. open E. fields.
  Qed.
  Lemma lock_set_fallback id q : lock any (set_fallback id q) (set_fallback id q).
  Proof.
    intros a b E. unfold set_fallback. pose proof E as E0. open E. cbn [m_heap].
    destruct (heap_get ha id); cbn [fst snd]; (split; [reflexivity|]); (split; [|exact Logic.I]); [fields|exact E0].
  Qed.
  Lemma rel_tr a b e e' : rel a b -> Permutation e e' -> rel (upd_tr a (m_tr a ++ e)) (upd_tr b (m_tr b ++ e')).
  Proof. intros E K. open E. fields. now apply Permutation_app. Qed.
  Lemma lock_file id f : lock any (load_file cf fs id f) (load_file cf fs' id f).
  Proof.
    intros a b E. unfold load_file. rewrite <- (proj1 R f). pose proof E as E0.
    destruct (fs_file fs f) as [[i|]|e|u| |]; cbn [fst snd].
    - open E. cbn [m_heap]. destruct (heap_get ha id) as [d|]; [|cbn [fst snd]; repeat split; auto; apply E0].
      destruct (pr_outcome (po_parse cf f i d)) as [x|e|u| |]; cbn [fst snd]; try (destruct (is_std e); cbn [fst snd]);
        (split; [reflexivity|]); (split; [|exact Logic.I || now destruct x || idtac]); fields;
        repeat apply Permutation_app; auto.
    - split; [reflexivity|]. split; [|exact Logic.I]. apply rel_tr; auto.
    - destruct (is_std e); cbn [fst snd]; (split; [reflexivity|]); (split; [|exact Logic.I]); [|exact E0]. apply rel_tr; auto.
    - auto.
    - auto.
    - auto.
  Qed.
  Lemma lock_dir l id p : good l -> lock any (load_dir cf fs l id p) (load_dir cf fs' l id p).
  Proof.
    intros Gl a b E. unfold load_dir, mbind, mlift. pose proof (proj2 R p) as Rp.
    destruct (fs_dir fs p) as [files|e|u| |] eqn:Dp; try (rewrite Rp; cbn [fst snd]; auto). destruct Rp as (files' & -> & P).
    rewrite !best_eq. destruct (best_perm cf l files files' P (T p files Dp) (D l p files Gl Dp)) as (x & y & -> & -> & Exy).
    cbn [fst snd]. pose proof (rel_tr a b _ _ E (notes_perm cf _ _ P)) as E'. rewrite <- Exy.
    destruct (is_nil (fst x)); [now apply lock_ret|]. now apply lock_file.
  Qed.
  Lemma lock_dirs l id ps : good l -> lock any (load_dirs cf fs l id ps) (load_dirs cf fs' l id ps).
  Proof. intro Gl. induction ps as [|p ps IH]; cbn [load_dirs]; [now apply lock_ret|]. eapply lock_bind; [now apply lock_dir|intros _ _; exact IH]. Qed.
  Lemma lock_gd n : forall l, good l -> lock any (get_dictionary_lang cf fs n l) (get_dictionary_lang cf fs' n l).
  Proof.
    induction n as [|n IH]; intros l Gl; cbn [get_dictionary_lang]; [apply lock_fail|].
    destruct (negb (cf_ndebug cf) && is_none l); [apply lock_fail|].
    apply lock_bind with (P := any); [apply lock_get; intros a b E; open E; split; [reflexivity|exact Logic.I]|intros c _].
    destruct (cache_find l c); [now apply lock_ret|].
    apply lock_bind with (P := any); [apply lock_get; intros a b E; open E; split; [reflexivity|exact Logic.I]|intros id _].
    eapply lock_bind; [apply lock_mod; intros a b E; open E; fields|intros _ _].
    apply lock_bind with (P := any); [apply lock_get; intros a b E; open E; split; [reflexivity|exact Logic.I]|intros path _].
    eapply lock_bind; [now apply lock_dirs|intros _ _].
    destruct (is_nil (get_country l)); [now apply lock_ret|].
    apply lock_bind with (P := good).
    { apply lock_lift. destruct (from_spec _ _ _ _) as [b|?|?| |] eqn:F; auto. exact (good_base l b Gl F). }
    intros base Gb. eapply lock_bind; [now apply IH|intros fb _]. eapply lock_bind; [apply lock_set_fallback|intros _ _]. now apply lock_ret.
  Qed.
  Lemma lock_get_dictionary : lock any (get_dictionary cf fs) (get_dictionary cf fs').
  Proof.
    unfold get_dictionary. apply lock_bind with (P := any); [apply lock_get; intros a b E; open E; split; [reflexivity|exact Logic.I]|intros [p|] _; [now apply lock_ret|]].
    apply lock_bind with (P := fun l => l <> None -> good l); [apply lock_get; intros a b E; open E; auto|intros l Gl].
    destruct l as [s|]; cbn [is_none]; [|now apply lock_ret]. specialize (Gl ltac:(discriminate)).
    eapply lock_bind; [now apply lock_gd|intros p _]. eapply lock_bind; [|intros _ _; now apply lock_ret]. apply lock_mod. intros a b E. open E. fields.
  Qed.
  Lemma lock_step op : (forall l, passed op l -> good l) -> lock any (mstep cf fs op) (mstep cf fs' op).
  Proof.
    intro Po. destruct op as [l|c|fz|p pr|p| |l| | |]; cbn [mstep]; unfold mmap; (apply lock_bind with (P := any); [|intros; now apply lock_ret]).
    - unfold set_language. apply lock_mod. intros a b E. open E. cbn [m_lang]. assert (good l) by (apply Po; now left). destruct (negb _); fields.
    - unfold set_charset. eapply lock_bind; [apply lock_clear|intros _ _]. apply lock_mod. intros a b E. open E. fields.
    - unfold set_use_fuzzy. eapply lock_bind; [apply lock_clear|intros _ _]. apply lock_mod. intros a b E. open E. fields.
    - unfold add_directory. apply lock_bind with (P := any); [apply lock_get; intros a b E; open E; split; [reflexivity|exact Logic.I]|intros path _].
      destruct (existsb _ _); [now apply lock_ret|]. eapply lock_bind; [apply lock_clear|intros _ _]. apply lock_mod. intros a b E. open E. fields.
    - unfold remove_directory. apply lock_bind with (P := any); [apply lock_get; intros a b E; open E; split; [reflexivity|exact Logic.I]|intros path _].
      destruct (existsb _ _); [|now apply lock_ret]. eapply lock_bind; [apply lock_clear|intros _ _]. apply lock_mod. intros a b E. open E. fields.
    - apply lock_get_dictionary.
    - apply lock_gd. apply Po. now right.
    - unfold get_languages. apply lock_bind with (P := any); [apply lock_get; intros a b E; open E; split; [reflexivity|exact Logic.I]|intros p _].
      rewrite (langs_perm cf fs fs' p R T []); [|constructor|exact Logic.I]. apply lock_lift. now destruct (langs_of_dirs _ _ _ _).
    - apply lock_get; intros a b E; open E; split; [reflexivity|exact Logic.I].
    - apply lock_get; intros a b E; open E; split; [reflexivity|exact Logic.I].
  Qed.
End Lock.
