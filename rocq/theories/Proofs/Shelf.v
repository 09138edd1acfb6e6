(** From files on a disk to the answers of a manager's dictionary. *)
From Verif.Model Require Import Base Log PluralForms Dictionary IConv Language Stream PoParser Manager.
From Verif.Spec Require Import DictSpec LangSpec ParserSpec PoSpec ManagerSpec LoadSpec ShelfSpec.
From Verif.Proofs Require Import BaseFacts DictProofs LangProofs ParserSafe ParserFuel ParserMisc ParserProper DocText DocTop
  ManagerLoad ManagerOwn ManagerGet ManagerStep ManagerFull ManagerContent ManagerProps ManagerSafe.
From Verif.Properties Require Import Document.
From Verif.Properties Require Full.
Local Open Scope list_scope.

(** ** text of a file *)
Lemma form0_new cs k : form0 (new_dictionary cs) k = None.
Proof. destruct k as [[c|] i]; reflexivity. Qed.
Lemma form0_plural d p k : form0 (apply_call d (CallPlural p)) k = form0 d k.
Proof. cbn [apply_call]. now destruct (pf_valid _). Qed.
Lemma form0_plurals ps : forall d k, form0 (fold_left apply_call (List.map CallPlural ps) d) k = form0 d k.
Proof.
  induction ps as [|p ps IH]; intros d k; [reflexivity|]. cbn [List.map fold_left]. rewrite IH. apply form0_plural.
Qed.
Lemma forms_cons rows : exists r, forms rows = form 0 rows :: r.
Proof. unfold forms. cbn [List.seq List.map]. eauto. Qed.
Lemma entry_form0 e d k : form0 d k = None ->
  form0 (fold_left apply_call (entry_calls e) d) k = if key_eq_dec (entry_key e) k then entry_text e else None.
Proof.
  intro H0.
  assert (Q : forall op t, op_key op = entry_key e ->
     match op with AddSingular _ _ s => t = s | AddPlural _ _ _ (f :: _) => t = f | _ => False end ->
     form0 (fold_left apply_call [CallAdd op] d) k = if key_eq_dec (entry_key e) k then Some t else None).
  { intros op t Ek Ht. cbn [fold_left apply_call]. rewrite form0_add by (destruct op as [|? ? ? []]; tauto). rewrite Ek.
    destruct (key_eq_dec k (entry_key e)) as [E|N], (key_eq_dec (entry_key e) k) as [E'|N']; try congruence.
    destruct op as [|? ? ? []]; now subst. }
  assert (Z : forall b : bool, (if b then None else None) = @None bytes) by (now intros []).
  unfold entry_calls, entry_text. destruct (en_body e) as [m|p rows].
  - destruct (is_nil (lit_value (en_id e))); cbn [orb].
    + rewrite form0_plurals, H0. now destruct (key_eq_dec _ _).
    + destruct (is_nil (lit_value m)); [cbn [fold_left]; rewrite H0; now destruct (key_eq_dec _ _)|].
      now apply Q.
  - destruct (forallb _ rows); [cbn [fold_left]; rewrite H0; now destruct (key_eq_dec _ _)|].
    apply Q; [reflexivity|]. destruct (forms_cons (List.map (fun r => (fst r, lit_value (snd r))) rows)) as [r ->]. reflexivity.
Qed.
Lemma file_form0 cs es k : Forall proper_call (List.concat (List.map entry_calls es)) ->
  form0 (fold_left apply_call (List.concat (List.map entry_calls es)) (new_dictionary cs)) k = file_text es k.
Proof.
  induction es as [|e es IH]; intro P; [apply form0_new|]. cbn [List.map List.concat] in *. apply Forall_app in P as [P1 P2].
  rewrite fold_left_app, (form0_calls _ _ (new_dictionary cs) k P2 (form0_new cs k)), (IH P2). cbn [file_text].
  destruct (file_text es k); [reflexivity|]. apply entry_form0, form0_new.
Qed.

(** ** contexts *)
Lemma assoc_set_none V (m : list (bytes * V)) k v x : assoc x (assoc_set k v m) = None <-> x <> k /\ assoc x m = None.
Proof.
  destruct (bytes_eqb_spec x k) as [->|N].
  - rewrite assoc_set_same. split; [discriminate|tauto].
  - rewrite assoc_set_other by auto. tauto.
Qed.
Lemma ctxt_add d op c : assoc c (d_ctxt (fst (add_translation d op))) = None <->
  fst (op_key op) <> Some c /\ assoc c (d_ctxt d) = None.
Proof.
  destruct op as [[x|] i s|[x|] i pl strs]; cbn [add_translation op_key fst];
    unfold add_ctxt_singular, add_singular, add_ctxt_plural, add_plural;
    match goal with |- context [let (_, _) := ?p in _] => destruct p end; cbn [fst set_ctxt set_entries d_ctxt];
    rewrite ?assoc_set_none; intuition congruence.
Qed.
Lemma ctxt_calls c l : forall d, assoc c (d_ctxt (fold_left apply_call l d)) = None <->
  (forall op, In op (adds l) -> fst (op_key op) <> Some c) /\ assoc c (d_ctxt d) = None.
Proof.
  induction l as [|[op|p] l IH]; intro d; cbn [fold_left adds apply_call In].
  - intuition.
  - rewrite IH, ctxt_add. split.
    + intros (H1 & H2 & H3). split; [|exact H3]. intros o [<-|Ho]; auto.
    + intros (H1 & H2). split; [|split]; auto.
  - rewrite IH. assert (E : d_ctxt (if pf_valid (get_plural_forms d) then d else set_plural_forms d p) = d_ctxt d) by (now destruct (pf_valid _)).
    now rewrite E.
Qed.
Lemma adds_app a b : adds (a ++ b) = adds a ++ adds b.
Proof. induction a as [|[] a IH]; cbn [adds app]; [reflexivity| |exact IH]. f_equal. exact IH. Qed.
Lemma plurals_app a b : plurals (a ++ b) = plurals a ++ plurals b.
Proof. induction a as [|[] a IH]; cbn [plurals app]; [reflexivity|exact IH|]. f_equal. exact IH. Qed.
Lemma adds_plurals ps : adds (List.map CallPlural ps) = [].
Proof. induction ps; auto. Qed.
Lemma entry_adds e op : In op (adds (entry_calls e)) -> op_key op = entry_key e /\ entry_text e <> None.
Proof.
  unfold entry_calls, entry_text. destruct (en_body e) as [m|p rows].
  - destruct (is_nil (lit_value (en_id e))); cbn [orb]; [rewrite adds_plurals; intros []|].
    destruct (is_nil (lit_value m)); [intros []|]. intros [<-|[]]. split; [reflexivity|discriminate].
  - destruct (forallb _ rows); [intros []|]. intros [<-|[]]. split; [reflexivity|discriminate].
Qed.
Lemma entry_adds_ex e : entry_text e <> None -> exists op, In op (adds (entry_calls e)) /\ op_key op = entry_key e.
Proof.
  unfold entry_calls, entry_text. destruct (en_body e) as [m|p rows].
  - destruct (is_nil (lit_value (en_id e))); cbn [orb]; [congruence|].
    destruct (is_nil (lit_value m)); [congruence|]. intros _. eexists. split; [now left|reflexivity].
  - destruct (forallb _ rows); [congruence|]. intros _. eexists. split; [now left|reflexivity].
Qed.
Lemma uses_context_spec c es : uses_context c es = true <->
  exists op, In op (adds (List.concat (List.map entry_calls es))) /\ fst (op_key op) = Some c.
Proof.
  unfold uses_context. induction es as [|e es IH]; cbn [existsb List.map List.concat adds].
  - split; [discriminate|intros (op & [] & _)].
  - rewrite orb_true_iff, IH, adds_app. split.
    + intros [H|(op & Ho & Hc)].
      * destruct (fst (entry_key e)) as [c'|] eqn:Ek; [|discriminate]. destruct (entry_text e) as [t|] eqn:Et; [|discriminate].
        destruct (bytes_eqb_spec c' c) as [->|]; [|discriminate].
        destruct (entry_adds_ex e) as (op & Ho & Eo); [now rewrite Et|]. exists op. split; [apply in_or_app; now left|now rewrite Eo].
      * exists op. split; [apply in_or_app; now right|exact Hc].
    + intros (op & Ho & Hc). apply in_app_or in Ho as [Ho|Ho]; [|right; eauto]. left.
      destruct (entry_adds e op Ho) as [Ek Et]. rewrite <- Ek, Hc. destruct (entry_text e); [|congruence].
      now destruct (bytes_eqb_spec c c).
Qed.

(** ** choice of the file *)
Lemma convert_clean cf f : clean (cf_strict cf) f -> has_suffix f dot_po = true ->
  exists r, convertFilename2Language (cf_strict cf) f = Ret r.
Proof.
  intros C H. pose proof (pconvert_total cf f H) as T. unfold convertFilename2Language in *.
  destruct (substr f (sub64 (size f) 3) 3) as [suf|]; [|contradiction].
  destruct (if bytes_eqb suf dot_po then substr f 0 (sub64 (size f) 3) else Some f) as [s|] eqn:E; [|contradiction].
  assert (Cs : clean (cf_strict cf) s).
  { intro S. specialize (C S). destruct (bytes_eqb suf dot_po); [|now injection E as <-].
    unfold substr in E. destruct (size f <? 0)%N; [discriminate|]. injection E as <-.
    clear -C. cbn [skipn N.to_nat]. remember (N.to_nat _) as n eqn:X. clear X.
    revert n. induction f as [|c f IH]; intros [|n]; cbn [firstn existsb] in *; auto.
    apply orb_false_iff in C as [C1 C2]. rewrite C1. now apply IH. }
  clear -Cs. assert (G : forall fd, exists r, upcase_country (cf_strict cf) fd s = Ret r); [|apply G].
  induction s as [|c s IH]; intro fd; cbn [upcase_country]; [eauto|].
  assert (Cc : cf_strict cf && hi c = false).
  { destruct (cf_strict cf); [|reflexivity]. specialize (Cs eq_refl). cbn [existsb] in Cs. now apply orb_false_iff in Cs. }
  assert (Ct : clean (cf_strict cf) s). { intro S. specialize (Cs S). cbn [existsb] in Cs. now apply orb_false_iff in Cs. }
  specialize (IH Ct). destruct fd.
  - rewrite Cc. destruct (negb (isalpha c)); [eauto|]. destruct (IH true) as [r ->]. cbn [omap]. eauto.
  - destruct (IH (byte_eqb c c_us)) as [r ->]. cbn [omap]. eauto.
Qed.
Lemma pbest_clean cf l files : Forall (clean (cf_strict cf)) files -> forall best, exists b t, pbest cf l best files = (Ret b, t).
Proof.
  induction 1 as [|f files C _ IH]; intro best; cbn [pbest]; [eauto|].
  assert (X : exists b t, pconsider cf l best f = (Ret b, t)).
  { unfold pconsider. destruct (has_suffix f dot_po) eqn:S; [|eauto]. destruct (convert_clean cf f C S) as [r ->]. cbn [obind].
    destruct (from_env_total (cf_ndebug cf) r) as [po ->]. destruct (is_none po); eauto. }
  destruct X as (b & t & ->). destruct (IH b) as (b' & t' & ->). eauto.
Qed.

Lemma cand_score cf l f : candidate cf l f <-> (0 < file_score cf l f)%Z.
Proof. rewrite file_score_pos. unfold candidate. split; intros (s & H1 & H2); eauto. Qed.
Lemma rating_score cf l f : rating cf l f = file_score cf l f.
Proof. unfold rating, file_score. now destruct (po_language cf f). Qed.
Lemma cand_nonempty cf l f : candidate cf l f -> is_nil f = false.
Proof. intros (s & H & _). destruct f; [discriminate H|reflexivity]. Qed.

Lemma split_unique (A : Type) (r : A -> Z) b f a : forall b' f' a',
  b ++ f :: a = b' ++ f' :: a' ->
  (forall g, In g b -> (r g < r f)%Z) -> (forall g, In g a -> (r g <= r f)%Z) ->
  (forall g, In g b' -> (r g < r f')%Z) -> (forall g, In g a' -> (r g <= r f')%Z) -> f = f'.
Proof.
  induction b as [|x b IH]; intros [|x' b'] f' a' E H1 H2 H3 H4; cbn [app] in E.
  - now injection E.
  - injection E as -> E. subst a. specialize (H2 f' (in_or_app _ _ _ (or_intror (in_eq _ _)))). specialize (H3 x' (in_eq _ _)). lia.
  - injection E as <- E. subst a'. specialize (H4 f (in_or_app _ _ _ (or_intror (in_eq _ _)))). specialize (H1 x (in_eq _ _)). lia.
  - injection E as <- E. eapply IH; eauto; intros; [apply H1|apply H3]; now right.
Qed.

Lemma best_is cf l before f after : Forall (clean (cf_strict cf)) (before ++ f :: after) -> candidate cf l f ->
  (forall g, In g before -> (rating cf l g < rating cf l f)%Z) ->
  (forall g, In g after -> (rating cf l g <= rating cf l f)%Z) ->
  exists t, pbest cf l ([], 0%Z) (before ++ f :: after) = (Ret (f, file_score cf l f), t).
Proof.
  intros Cl Ca H1 H2. destruct (pbest_clean cf l _ Cl ([], 0%Z)) as (b & t & E). exists t. rewrite E.
  destruct (pbest_ret cf l _ _ _ _ E) as [[-> M]|(bf & f' & af & Ef & -> & A1 & A2 & A3)]; [cbn; lia| |].
  - exfalso. apply cand_score in Ca. specialize (M f (in_or_app _ _ _ (or_intror (in_eq _ _)))). cbn [snd] in M. lia.
  - assert (f = f'); [|now subst].
    apply (split_unique _ (file_score cf l) before f after bf f' af Ef); auto; intros g Hg; [specialize (H1 g Hg)|specialize (H2 g Hg)];
      now rewrite !rating_score in *.
Qed.
Lemma best_none cf l files : Forall (clean (cf_strict cf)) files -> (forall f, In f files -> ~ candidate cf l f) ->
  exists t, pbest cf l ([], 0%Z) files = (Ret ([], 0%Z), t).
Proof.
  intros Cl N. destruct (pbest_clean cf l _ Cl ([], 0%Z)) as (b & t & E). exists t. rewrite E.
  destruct (pbest_ret cf l _ _ _ _ E) as [[-> M]|(bf & f' & af & -> & -> & A1 & A2 & A3)]; [cbn; lia|reflexivity|].
  exfalso. apply (N f'); [apply in_or_app; right; now left|]. now apply cand_score.
Qed.

(** ** a directory, then the search path *)
Section Disk.
  Variable cf : config.
  Variable o : os_state.
  Variable cs : bytes.
  Hypothesis cs_clean : clean (cf_strict cf) cs.
  Notation fs := (unix_file_system o).
  Notation cfn n := (with_fuel cf n).

  Definition dir_fine (n : nat) (l : language) (p : bytes) (es : list po_entry) : Prop :=
    fst (fst (pdir (cfn n) fs l p (new_dictionary cs))) = Ret tt /\
    dir_calls (cfn n) fs l cs p = List.concat (List.map entry_calls es).
  Lemma dir_holds l p es : holds cf o cs l p es -> exists N, forall n, N <= n -> dir_fine n l p es.
  Proof.
    intros [files D Cl N|before f after Doc D Cl Ca H1 H2 F Ok Own|before f after b sgs D Cl Ca H1 H2 F St Co Sl So Own|before f after D Cl Ca H1 H2 F].
    - exists 0. intros n _. unfold dir_fine, pdir, dir_calls. cbn [unix_file_system fs_dir]. rewrite D.
      destruct (best_none (cfn n) l files Cl N) as (t & ->). split; reflexivity.
    - destruct (C25_catalogue_read_back cf (p ++ bs "/" ++ f) Doc (new_dictionary cs) Ok cs_clean Own) as (r & P & O & C & _).
      destruct P as (_ & N & HN). exists N. intros n Hn. specialize (HN n Hn).
      unfold dir_fine, pdir, dir_calls. cbn [unix_file_system fs_dir]. rewrite D.
      destruct (best_is (cfn n) l before f after Cl Ca H1 H2) as (t & ->). cbn [fst]. rewrite (cand_nonempty cf l f Ca).
      unfold file_calls, pfile. cbn [unix_file_system fs_file]. rewrite F. rewrite HN, O. cbn [fst snd]. split; [reflexivity|exact C].
    - destruct (Full.C72_everything_about_a_file cf (p ++ bs "/" ++ f) b (new_dictionary cs) sgs St Co Sl So Own) as (r & P & O & C & _).
      destruct P as (_ & N & HN). exists N. intros n Hn. specialize (HN n Hn).
      unfold dir_fine, pdir, dir_calls. cbn [unix_file_system fs_dir]. rewrite D.
      destruct (best_is (cfn n) l before f after Cl Ca H1 H2) as (t & ->). cbn [fst]. rewrite (cand_nonempty cf l f Ca).
      unfold file_calls, pfile. cbn [unix_file_system fs_file]. rewrite F. rewrite HN, O. cbn [fst snd]. split; [reflexivity|exact C].
    - exists 1. intros n Hn. unfold dir_fine, pdir, dir_calls. cbn [unix_file_system fs_dir]. rewrite D.
      destruct (best_is (cfn n) l before f after Cl Ca H1 H2) as (t & ->). cbn [fst]. rewrite (cand_nonempty cf l f Ca).
      unfold file_calls, pfile. cbn [unix_file_system fs_file]. rewrite F.
      pose proof (failed_parse (cfn n) (p ++ bs "/" ++ f) (new_dictionary cs) Hn) as (E1 & E2 & E3). cbv zeta in E1. rewrite E1.
      split; [reflexivity|]. unfold po_parse. destruct n as [|n]; [lia|]. reflexivity.
  Qed.
  Lemma load_holds l ps own : (forall p, In p ps -> holds cf o cs l p (own p)) ->
    exists N, forall n, N <= n -> forall d, d_charset d = cs ->
      fst (fst (pload (cfn n) fs l ps d)) = Ret tt /\
      snd (fst (pload (cfn n) fs l ps d)) = fold_left apply_call (List.concat (List.map entry_calls (List.concat (List.map own ps)))) d /\
      forall p, In p ps -> Forall proper_call (List.concat (List.map entry_calls (own p))).
  Proof.
    intro H. assert (B : exists N, forall n, N <= n -> forall p, In p ps -> dir_fine n l p (own p)).
    { apply bound_for. intros p Hp. apply dir_holds. auto. }
    destruct B as [N B]. exists N. intros n Hn. specialize (B n Hn). clear H Hn.
    assert (Q : forall d, d_charset d = cs -> fst (fst (pload (cfn n) fs l ps d)) = Ret tt).
    { induction ps as [|p ps IH]; intros d Hd; cbn [pload]; [reflexivity|].
      destruct (B p (in_eq _ _)) as [B1 _].
      pose proof (pdir_outcome (cfn n) fs l p (new_dictionary cs) d (eq_sym Hd) B1) as X.
      pose proof (kept_dir (cfn n) fs l p d) as (K & _). destruct (pdir (cfn n) fs l p d) as [[oo d'] t]. cbn [fst snd] in *. subst oo.
      rewrite Hd in K. specialize (IH (fun q Hq => B q (or_intror Hq)) d' K). now destruct (pload (cfn n) fs l ps d') as [[oo d''] t']. }
    intros d Hd. specialize (Q d Hd). split; [exact Q|]. split.
    - destruct (pload (cfn n) fs l ps d) as [[oo d1] t1] eqn:E. cbn [fst snd] in *. subst oo. apply pload_calls in E. rewrite E, Hd. f_equal.
      clear -B. induction ps as [|p ps IH]; [reflexivity|]. cbn [List.map List.concat].
      rewrite map_app, concat_app, IH; [|intros q Hq; apply B; now right]. f_equal. exact (proj2 (B p (in_eq _ _))).
    - intros p Hp. destruct (B p Hp) as [_ <-]. apply proper_dir.
  Qed.
End Disk.

(** what a path of files gives *)
Lemma path_form0 cs own path k : (forall p, In p path -> Forall proper_call (List.concat (List.map entry_calls (own p)))) ->
  form0 (fold_left apply_call (path_calls own path) (new_dictionary cs)) k = path_text own path k.
Proof.
  unfold path_calls, path_text. induction path as [|p path IH]; intro P; [apply form0_new|].
  cbn [rev first_some]. rewrite map_app, concat_app. cbn [List.map List.concat]. rewrite app_nil_r, map_app, concat_app, fold_left_app.
  rewrite (form0_calls _ _ (new_dictionary cs) k (P p (in_eq _ _)) (form0_new cs k)), (file_form0 cs _ k (P p (in_eq _ _))).
  destruct (file_text (own p) k); [reflexivity|]. apply IH. intros q Hq. apply P. now right.
Qed.
Lemma path_ctxt cs own path c :
  assoc c (d_ctxt (fold_left apply_call (path_calls own path) (new_dictionary cs))) = None <->
  existsb (fun p => uses_context c (own p)) path = false.
Proof.
  rewrite ctxt_calls. cbn [new_dictionary d_ctxt assoc]. unfold path_calls.
  assert (E : existsb (fun p => uses_context c (own p)) path = uses_context c (List.concat (List.map own (rev path)))).
  { unfold uses_context. induction path as [|p path IH]; [reflexivity|]. cbn [existsb rev]. rewrite map_app, concat_app, existsb_app, <- IH.
    cbn [List.map List.concat]. rewrite app_nil_r. apply orb_comm. }
  rewrite E. pose proof (uses_context_spec c (List.concat (List.map own (rev path)))) as U.
  destruct (uses_context c _).
  - split; [|discriminate]. intros [H _]. destruct (proj1 U eq_refl) as (op & Ho & Hc). now destruct (H op Ho).
  - split; [reflexivity|]. intros _. split; [|reflexivity]. intros op Ho Hc. discriminate (proj2 U (ex_intro _ op (conj Ho Hc))).
Qed.
Lemma translate_ctxt_over n h d q e c id : d_has_fallback e = false -> heap_get h q = Some e ->
  fst (translate_ctxt (S (S n)) h (add_fallback d (Some q)) c id) =
  Ret (match form0 d (Some c, id) with
       | Some s => s
       | None => if assoc c (d_ctxt d) then match form0 e (None, id) with Some s => s | None => id end else id
       end).
Proof.
  intros H G. unfold translate_ctxt, form0, lookup. cbn [fst snd add_fallback d_ctxt].
  destruct (assoc c (d_ctxt d)) as [es|]; [|reflexivity].
  cbn [translate_in add_fallback d_has_fallback d_fallback]. rewrite G. cbn [translate_in]. rewrite H.
  destruct (assoc id es) as [[|v r]|]; try reflexivity;
    destruct (assoc id (d_entries e)) as [[|v' r']|]; reflexivity.
Qed.
