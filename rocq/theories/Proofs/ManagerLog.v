(** What loading logs. *)
From Verif.Model Require Import Base Log PluralForms Dictionary IConv Language Stream PoParser Manager.
From Verif.Spec Require Import DictSpec LangSpec ParserSpec ManagerSpec LoadSpec.
From Verif.Proofs Require Import BaseFacts DictProofs LangProofs ParserSafe ParserFuel ParserUnary
  ManagerLoad ManagerOwn ManagerGet ManagerStep ManagerFull ManagerContent ManagerProps.
Local Open Scope list_scope.

Lemma ends_po_suffix f : ends_po f = has_suffix f dot_po.
Proof.
  unfold ends_po, has_suffix. change (length dot_po) with 3. change (bs ".po") with dot_po.
  destruct (length f <? 3) eqn:E; [|reflexivity]. apply Nat.ltb_lt in E.
  replace (length f - 3) with 0 by lia. cbn [skipn]. destruct (bytes_eqb f dot_po) eqn:B; [|reflexivity].
  apply bytes_eqb_eq in B. subst f. cbn in E. lia.
Qed.

(** exceptions that reach the caller *)
Definition thrown {A} (o : outcome A) (x : option exn) : Prop :=
  match o with Ret _ => x = None | Exn e => x = Some e | _ => False end.

Lemma po_no_po cf fn i d : pr_outcome (po_parse cf fn i d) <> Exn ExPo.
Proof.
  unfold po_parse. pose proof (parse_no_po cf fn true (init_state cf i d)) as N.
  destruct (parse_member cf fn true (init_state cf i d)) as [o s]. exact N.
Qed.

Section Log.
  Variable cf : config.
  Variable fs : file_system.

  Lemma pconsider_note l best f b t : pconsider cf l best f = (Ret b, t) -> t = note cf f.
  Proof.
    unfold pconsider, note, po_language. rewrite ends_po_suffix. destruct (has_suffix f dot_po).
    - destruct (convertFilename2Language _ _) as [stem|?|?| |]; cbn [obind]; try discriminate.
      destruct (from_env _ _) as [[s|]|?|?| |]; cbn [is_none]; try discriminate; intro H; now injection H as _ <-.
    - intro H. now injection H as _ <-.
  Qed.
  Lemma pbest_notes l files : forall best b t, pbest cf l best files = (Ret b, t) -> t = notes cf files.
  Proof.
    induction files as [|f files IH]; intros best b t; cbn [pbest].
    - intro H. now injection H as _ <-.
    - destruct (pconsider cf l best f) as [[b1|?|?| |] t1] eqn:C; try discriminate.
      destruct (pbest cf l b1 files) as [o t2] eqn:B. intro H. injection H as -> <-.
      apply pconsider_note in C. apply IH in B. subst. reflexivity.
  Qed.

  Lemma describes_what e : describes e (what e).
  Proof. intros w ->. reflexivity. Qed.
  Lemma pfile_reads name d : completed (fst (fst (pfile cf fs name d))) ->
    exists x, thrown (fst (fst (pfile cf fs name d))) x /\
      file_reads cf fs name d x (snd (fst (pfile cf fs name d))) (snd (pfile cf fs name d)).
  Proof.
    unfold pfile. destruct (fs_file fs name) as [[i|]|e|u| |] eqn:F; cbn [fst snd completed]; try contradiction.
    - set (r := po_parse cf name i d). intro H.
      assert (PT : parses_to cf name i d r).
      { assert (N : pr_outcome (po_parse (with_fuel cf (cf_fuel cf)) name i d) <> OutOfFuel).
        { rewrite cf_eta. fold r. intro Z. rewrite Z in H. exact H. }
        pose proof (parses_to_intro cf name i d _ N) as P. rewrite cf_eta in P. exact P. }
      assert (Q : pr_outcome r <> Exn ExPo) by (unfold r; apply po_no_po).
      destruct (pr_outcome r) as [[]|e|u| |] eqn:E; cbn [fst snd completed] in *; try contradiction.
      + exists None. split; [reflexivity|]. now apply file_parsed with i.
      + assert (S : is_std e = true) by (destruct e; auto; congruence). rewrite S in *. cbn [fst snd].
        exists None. split; [reflexivity|]. apply (file_parse_throws cf fs name d i r e (what e)); auto. apply describes_what.
    - intros _. exists None. split; [reflexivity|]. now apply file_null.
    - destruct (is_std e) eqn:S; cbn [fst snd].
      + intros _. exists None. split; [reflexivity|]. apply (file_open_throws cf fs name d e (what e)); auto.
        * intros ->. discriminate S.
        * apply describes_what.
      + destruct e; try discriminate S. intros _. exists (Some ExPo). split; [reflexivity|]. now apply file_open_throws_po.
  Qed.

  Lemma cand_score l f : candidate cf l f <-> (0 < file_score cf l f)%Z.
  Proof. rewrite file_score_pos. unfold candidate. split; intros (s & H1 & H2); eauto. Qed.
  Lemma rating_score l f : rating cf l f = file_score cf l f.
  Proof. unfold rating, file_score. now destruct (po_language cf f). Qed.

  Lemma pdir_reads l p d : completed (fst (fst (pdir cf fs l p d))) ->
    exists x, thrown (fst (fst (pdir cf fs l p d))) x /\
      dir_reads cf fs l p d x (snd (fst (pdir cf fs l p d))) (snd (pdir cf fs l p d)).
  Proof.
    unfold pdir. destruct (fs_dir fs p) as [files|e|u| |] eqn:D; cbn [fst snd completed]; try contradiction.
    2:{ intros _. exists (Some e). split; [reflexivity|]. now apply dir_throws. }
    pose proof (pbest_outcome cf l files ([], 0%Z)) as PO.
    destruct (pbest cf l ([], 0%Z) files) as [[b|e|u| |] t] eqn:B; cbn [fst snd completed] in *; try contradiction.
    pose proof (pbest_notes l files _ _ _ B) as ->.
    destruct (pbest_ret cf l files _ _ _ B) as [[-> M]|(bf & f & af & -> & -> & A1 & A2 & A3)]; [cbn; lia| |].
    - cbn [fst is_nil snd completed]. intros _. exists None. split; [reflexivity|]. apply dir_none; [exact D|].
      intros f Hf C. apply cand_score in C. specialize (M f Hf). cbn [snd] in M. lia.
    - cbn [fst snd] in *.
      assert (Ne : is_nil f = false).
      { destruct f; [|reflexivity]. apply file_score_pos in A1 as (s & H & _). discriminate H. }
      rewrite Ne. pose proof (pfile_reads (p ++ bs "/" ++ f) d) as PF.
      destruct (pfile cf fs (p ++ bs "/" ++ f) d) as [[o d'] t']. cbn [fst snd] in *. intro H.
      destruct (PF H) as (x & T & R). exists x. split; [exact T|].
      apply (dir_best cf fs l p d bf f af x d' t'); auto.
      + now apply cand_score.
      + intros g Hg. rewrite !rating_score. now apply A2.
      + intros g Hg. rewrite !rating_score. now apply A3.
  Qed.

  Lemma pload_reads l ps : forall d, completed (fst (fst (pload cf fs l ps d))) ->
    exists x, thrown (fst (fst (pload cf fs l ps d))) x /\
      path_reads cf fs l ps d x (snd (fst (pload cf fs l ps d))) (snd (pload cf fs l ps d)).
  Proof.
    induction ps as [|p ps IH]; intro d; cbn [pload].
    - intros _. exists None. split; [reflexivity|]. apply path_nil.
    - pose proof (pdir_reads l p d) as PD. destruct (pdir cf fs l p d) as [[[[]|e|u| |] d'] t]; cbn [fst snd completed thrown] in *; try contradiction.
      + destruct (PD Logic.I) as (x & -> & R). specialize (IH d'). destruct (pload cf fs l ps d') as [[o d''] t'].
        cbn [fst snd] in *. intro H. destruct (IH H) as (y & T & R2). exists y. split; [exact T|]. eapply path_cons; eauto.
      + destruct (PD Logic.I) as (x & -> & R). intros _. exists (Some e). split; [reflexivity|]. now apply path_stop.
  Qed.

  (** what get_dictionary(l) does when nothing is cached for [l] *)
  Lemma get_logs m l o m' : own (cf_ndebug cf) m -> known l ->
    mstep cf fs (OpGetDictionaryLang l) m = (o, m') -> completed o ->
    (exists p, cache_find l (m_cache m) = Some p /\ o = Ret (OutRef (RefHeap p)) /\ m' = m) \/
    (cache_find l (m_cache m) = None /\ exists x1 d1 t1, 
       path_reads cf fs l (rev (m_path m)) (new_dictionary (m_charset m)) x1 d1 t1 /\
       match x1 with
       | Some e => o = Exn e /\ m_tr m' = m_tr m ++ t1
       | None =>
         (get_country l = [] /\ m_tr m' = m_tr m ++ t1 /\ gave o m' d1) \/
         (get_country l <> [] /\ exists b, from_spec (cf_ndebug cf) (get_language l) [] [] = Ret (Some b) /\
            ((exists q, cache_find (Some b) (m_cache m) = Some q /\ m_tr m' = m_tr m ++ t1 /\ gave o m' (add_fallback d1 (Some q)) /\
                heap_get (m_heap m') q = heap_get (m_heap m) q) \/
             (cache_find (Some b) (m_cache m) = None /\ exists x2 d2 t2,
                path_reads cf fs (Some b) (rev (m_path m)) (new_dictionary (m_charset m)) x2 d2 t2 /\
                m_tr m' = m_tr m ++ t1 ++ t2 /\
                match x2 with Some e => o = Exn e | None => gave_over o m' d1 d2 end)))
       end).
  Proof.
    intros O K E F. rewrite (do_get_lang cf fs l m K) in E. injection E as <- <-.
    unfold get_state in *. destruct (is_nil_spec _ (get_country l)) as [C|C].
    - cbn [fst snd] in *. unfold leaf_outcome, leaf_state in *. destruct (asserts cf l); [contradiction|].
      destruct (cache_find l (m_cache m)) as [p|] eqn:Fi; [left; exists p; auto|]. right. split; [reflexivity|].
      pose proof (pload_reads l (rev (m_path m)) (new_dictionary (m_charset m))) as PL.
      pose proof (loaded_get cf fs m l) as G.
      assert (T : m_tr (loaded cf fs m l) = m_tr m ++ snd (pload cf fs l (rev (m_path m)) (new_dictionary (m_charset m)))) by reflexivity.
      destruct (pload cf fs l (rev (m_path m)) (new_dictionary (m_charset m))) as [[[[]|e|u| |] d1] t1];
        cbn [fst snd omap completed thrown] in *; try contradiction; destruct (PL Logic.I) as (x & -> & R); clear PL.
      + exists None, d1, t1. split; [exact R|]. left. split; [exact C|]. split; [exact T|]. exists (m_next m). auto.
      + exists (Some e), d1, t1. auto.
    - destruct (cache_find l (m_cache m)) as [p|] eqn:Fi; [left; exists p; auto|]. right. split; [reflexivity|].
      pose proof (pload_reads l (rev (m_path m)) (new_dictionary (m_charset m))) as PL.
      pose proof (loaded_get cf fs m l) as G. pose proof (loaded_own cf fs m l O K Fi) as O2.
      pose proof (loaded_find_other cf fs m l) as FO.
      pose proof (loaded_grown cf fs m l) as G2.
      assert (T : m_tr (loaded cf fs m l) = m_tr m ++ snd (pload cf fs l (rev (m_path m)) (new_dictionary (m_charset m)))) by reflexivity.
      destruct (base_of (cf_ndebug cf) l K C) as (b & B1 & B2 & B3 & B4). rewrite B1 in *.
      destruct (pload cf fs l (rev (m_path m)) (new_dictionary (m_charset m))) as [[[[]|e|u| |] d1] t1];
        cbn [fst snd omap completed thrown] in *; try contradiction; destruct (PL Logic.I) as (x & -> & R); clear PL.
      2:{ exists (Some e), d1, t1. auto. }
      exists None, d1, t1. split; [exact R|]. right. split; [exact C|]. exists b. split; [reflexivity|].
      cbv zeta in *. unfold leaf_outcome, leaf_state in *. unfold asserts in *. cbn [is_none] in *. rewrite andb_false_r in *.
      rewrite (FO (Some b) K B2 B4) in *.
      destruct (cache_find (Some b) (m_cache m)) as [q|] eqn:Fb; cbn [fst snd omap] in *.
      + left. exists q. split; [reflexivity|].
        assert (Nq : q < m_next m).
        { destruct (own_found cf m (Some b) q O Fb) as [db Hb]. apply (own_lt cf m q O), (own_live cf m q O). congruence. }
        split.
        * unfold put. cbn [upd_tr upd_heap m_tr]. rewrite T, app_nil_r. reflexivity.
        * split; [exists (m_next m); split; [reflexivity|apply put_get]|].
          unfold put. cbn [upd_tr upd_heap m_heap]. rewrite heap_get_set_other by lia.
          now apply (gr_heap _ _ G2).
      + right. split; [reflexivity|].
        assert (Pa : m_path (loaded cf fs m l) = m_path m) by reflexivity.
        assert (Ch : m_charset (loaded cf fs m l) = m_charset m) by reflexivity.
        pose proof (pload_reads (Some b) (rev (m_path (loaded cf fs m l))) (new_dictionary (m_charset (loaded cf fs m l)))) as PL.
        set (m2 := loaded cf fs m l) in *.
        pose proof (loaded_get cf fs m2 (Some b)) as G3.
        assert (T3 : m_tr (loaded cf fs m2 (Some b)) = m_tr m2 ++ snd (pload cf fs (Some b) (rev (m_path m2)) (new_dictionary (m_charset m2)))) by reflexivity.
        rewrite Pa, Ch in *.
        destruct (pload cf fs (Some b) (rev (m_path m)) (new_dictionary (m_charset m))) as [[[[]|e|u| |] d2] t2];
          cbn [fst snd omap completed thrown] in *; try contradiction; destruct (PL Logic.I) as (x & -> & R2); clear PL.
        * exists None, d2, t2. split; [exact R2|]. split.
          -- unfold put. cbn [upd_tr upd_heap m_tr]. rewrite T3, T, app_nil_r. now rewrite app_assoc.
          -- exists (m_next m2). split; [exists (m_next m); split; [reflexivity|apply put_get]|].
             unfold put. cbn [upd_tr upd_heap m_heap]. rewrite heap_get_set_other by (unfold m2; cbn; lia). exact G3.
        * exists (Some e), d2, t2. split; [exact R2|]. split; [|reflexivity]. rewrite T3, T. now rewrite app_assoc.
  Qed.
End Log.
