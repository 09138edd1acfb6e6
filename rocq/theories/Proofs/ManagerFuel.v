(** DictionaryManager calls and the bound on the parser's loops. *)
From Verif.Model Require Import Base Log PluralForms Dictionary IConv Language Stream PoParser Manager.
From Verif.Spec Require Import DictSpec LangSpec ParserSpec PoSpec ManagerSpec LoadSpec.
From Verif.Proofs Require Import BaseFacts DictProofs LangProofs ParserSafe ParserFuel ParserUnary ParserTerm
  ManagerLoad ManagerOwn ManagerGet ManagerStep ManagerFull ManagerContent ManagerProps ManagerLog Shelf.
Local Open Scope list_scope.

(** ** larger bounds *)
Section Mono.
  Variable cf : config.
  Variable fs : file_system.
  Variables n1 n2 : nat.
  Hypothesis Hn : n1 <= n2.
  Local Notation P := (M manager).
  Local Notation cf1 := (with_fuel cf n1).
  Local Notation cf2 := (with_fuel cf n2).

  Definition gle {A} (a b : P A) : Prop := forall s, fst (a s) <> OutOfFuel -> b s = a s.
  Lemma gle_refl A (a : P A) : gle a a. Proof. intros s _. reflexivity. Qed.
  Lemma gle_bind A B (a1 a2 : P A) (k1 k2 : A -> P B) :
    gle a1 a2 -> (forall a, gle (k1 a) (k2 a)) -> gle (mbind a1 k1) (mbind a2 k2).
  Proof.
    intros Hm Hk s H. unfold mbind in *. specialize (Hm s).
    destruct (a1 s) as [[a|e|u| |] s'] eqn:E; try (rewrite Hm by discriminate; reflexivity).
    - rewrite Hm by discriminate. apply Hk, H.
    - exfalso. apply H. reflexivity.
  Qed.
  Lemma gle_fuel A (a : P A) : gle (mfail OutOfFuel) a.
  Proof. intros s H. exfalso. apply H. reflexivity. Qed.
  Lemma gle_map A B (f : A -> B) a1 a2 : gle a1 a2 -> gle (mmap f a1) (mmap f a2).
  Proof. intro H. apply gle_bind; [exact H|]. intro. apply gle_refl. Qed.

  Lemma gle_file id f : gle (load_file cf1 fs id f) (load_file cf2 fs id f).
  Proof.
    intros s H. unfold load_file in *. destruct (fs_file fs f) as [[i|]|e|u| |]; try reflexivity.
    destruct (heap_get (m_heap s) id) as [d|]; [|reflexivity].
    assert (E : po_parse cf2 f i d = po_parse cf1 f i d).
    { apply po_parse_fuel; [exact Hn|]. intro X. rewrite X in H. apply H. reflexivity. }
    rewrite E. reflexivity.
  Qed.
  Lemma gle_best l files : forall best, gle (best_file cf1 l best files) (best_file cf2 l best files).
  Proof.
    induction files as [|f files IH]; intro best; cbn [best_file]; [apply gle_refl|].
    apply gle_bind; [exact (gle_refl _ (consider cf l best f))|]. exact IH.
  Qed.
  Lemma gle_dir l id p : gle (load_dir cf1 fs l id p) (load_dir cf2 fs l id p).
  Proof.
    unfold load_dir. apply gle_bind; [apply gle_refl|intro files]. apply gle_bind; [apply gle_best|intro b].
    destruct (is_nil (fst b)); [apply gle_refl|apply gle_file].
  Qed.
  Lemma gle_dirs l id ps : gle (load_dirs cf1 fs l id ps) (load_dirs cf2 fs l id ps).
  Proof. induction ps as [|p ps IH]; cbn [load_dirs]; [apply gle_refl|]. apply gle_bind; [apply gle_dir|]. intro. exact IH. Qed.
  Lemma gle_get dp : forall l, gle (get_dictionary_lang cf1 fs dp l) (get_dictionary_lang cf2 fs dp l).
  Proof.
    induction dp as [|dp IH]; intro l; cbn [get_dictionary_lang]; [apply gle_refl|].
    change (cf_ndebug cf1) with (cf_ndebug cf). change (cf_ndebug cf2) with (cf_ndebug cf).
    destruct (negb (cf_ndebug cf) && is_none l); [apply gle_refl|]. apply gle_bind; [apply gle_refl|intro c].
    destruct (cache_find l c); [apply gle_refl|].
    apply gle_bind; [apply gle_refl|intro id]. apply gle_bind; [apply gle_refl|intro]. apply gle_bind; [apply gle_refl|intro path].
    apply gle_bind; [apply gle_dirs|intro]. destruct (is_nil (get_country l)); [apply gle_refl|].
    apply gle_bind; [apply gle_refl|intro b]. apply gle_bind; [apply IH|intro fb]. apply gle_refl.
  Qed.
  Lemma gle_get0 : gle (get_dictionary cf1 fs) (get_dictionary cf2 fs).
  Proof.
    unfold get_dictionary. apply gle_bind; [apply gle_refl|intros [p|]]; [apply gle_refl|].
    apply gle_bind; [apply gle_refl|intro l]. destruct (is_none l); [apply gle_refl|].
    apply gle_bind; [apply gle_get|intro]. apply gle_refl.
  Qed.
  Lemma gle_step op : gle (mstep cf1 fs op) (mstep cf2 fs op).
  Proof.
    destruct op as [l|c|b|p pr|p| |l| | |]; cbn [mstep];
      [apply gle_refl|apply gle_refl|apply gle_refl|apply gle_refl|apply gle_refl| | |apply gle_refl|apply gle_refl|apply gle_refl].
    - apply gle_map, gle_get0.
    - apply gle_map, gle_get.
  Qed.
End Mono.

Lemma mstep_fuel cf fs op m n1 n2 : n1 <= n2 -> fst (mstep (with_fuel cf n1) fs op m) <> OutOfFuel ->
  mstep (with_fuel cf n2) fs op m = mstep (with_fuel cf n1) fs op m.
Proof. intros H. exact (gle_step cf fs n1 n2 H op m). Qed.

(** the same for the pure loader *)
Lemma pload_fuel cf fs l ps d n1 n2 : n1 <= n2 -> fst (fst (pload (with_fuel cf n1) fs l ps d)) <> OutOfFuel ->
  pload (with_fuel cf n2) fs l ps d = pload (with_fuel cf n1) fs l ps d.
Proof.
  intro Hn. revert d. induction ps as [|p ps IH]; intros d H; cbn [pload] in *; [reflexivity|].
  assert (D : fst (fst (pdir (with_fuel cf n1) fs l p d)) <> OutOfFuel ->
    pdir (with_fuel cf n2) fs l p d = pdir (with_fuel cf n1) fs l p d).
  { unfold pdir. destruct (fs_dir fs p) as [files|e|u| |]; try reflexivity.
    assert (B : forall best, pbest (with_fuel cf n2) l best files = pbest (with_fuel cf n1) l best files).
    { reflexivity. }
    rewrite B. destruct (pbest (with_fuel cf n1) l ([], 0%Z) files) as [[b|e|u| |] t]; try reflexivity.
    destruct (is_nil (fst b)); [reflexivity|].
    assert (F : fst (fst (pfile (with_fuel cf n1) fs (p ++ bs "/" ++ fst b) d)) <> OutOfFuel ->
      pfile (with_fuel cf n2) fs (p ++ bs "/" ++ fst b) d = pfile (with_fuel cf n1) fs (p ++ bs "/" ++ fst b) d).
    { unfold pfile. destruct (fs_file fs (p ++ bs "/" ++ fst b)) as [[i|]|e|u| |]; try reflexivity. intro X.
      rewrite (po_parse_fuel cf (p ++ bs "/" ++ fst b) i d n1 n2 Hn); [reflexivity|]. intro Y. rewrite Y in X. apply X. reflexivity. }
    destruct (pfile (with_fuel cf n1) fs (p ++ bs "/" ++ fst b) d) as [[o d'] t'].
    intro X. cbn [fst] in *. rewrite F by exact X. reflexivity. }
  destruct (pdir (with_fuel cf n1) fs l p d) as [[[x|e|u| |] d'] t]; cbn [fst] in *;
    try (rewrite D by discriminate; reflexivity); [|exfalso; apply H; reflexivity].
  rewrite D by discriminate. specialize (IH d').
  destruct (pload (with_fuel cf n1) fs l ps d') as [[o d''] t']. cbn [fst] in *. now rewrite IH.
Qed.

(** ** which files are tried *)
Section Cps.
  Variable cf : config.
  Variable fs : file_system.
  Hypothesis WB : well_behaved fs.
  Local Notation cfn n := (with_fuel cf n).
  Variable G : Prop.
  Local Notation K P := ((P -> G) -> G).

  Lemma reads_cf n l p d x d' t : dir_reads (cfn n) fs l p d x d' t -> dir_reads cf fs l p d x d' t.
  Proof.
    intro H. inversion H as [e D|files D N|bf f af o d2 t2 D C A1 A2 F]; subst.
    - now apply dir_throws.
    - change (notes (cfn n) files) with (notes cf files). apply dir_none; auto.
    - change (notes (cfn n) (bf ++ f :: af)) with (notes cf (bf ++ f :: af)). apply dir_best; auto.
      inversion F as [F1|e w F1 F2 F3|F1|i r F1 F2 F3|i r e w F1 F2 F3 F4]; subst.
      + now apply file_null.
      + now apply (file_open_throws _ _ _ _ e).
      + now apply file_open_throws_po.
      + now apply (file_parsed _ _ _ _ i).
      + now apply (file_parse_throws _ _ _ _ i r e).
  Qed.

  Lemma dir_cps l p d :
    (forall bf f af i, fs_dir fs p = Ret (bf ++ f :: af) -> candidate cf l f ->
      (forall g, In g bf -> (rating cf l g < rating cf l f)%Z) ->
      (forall g, In g af -> (rating cf l g <= rating cf l f)%Z) ->
      fs_file fs (p ++ bs "/" ++ f) = Ret (Some i) ->
      K (exists n, pr_outcome (po_parse (cfn n) (p ++ bs "/" ++ f) i d) <> OutOfFuel)) ->
    K (exists n, fst (fst (pdir (cfn n) fs l p d)) <> OutOfFuel).
  Proof.
    intros H k. destruct (WB p) as [WD _]. unfold pdir in k. destruct (fs_dir fs p) as [files|e|u| |] eqn:D; try contradiction.
    2:{ apply k. exists 0. discriminate. }
    assert (B : forall n, pbest (cfn n) l ([], 0%Z) files = pbest cf l ([], 0%Z) files) by reflexivity.
    pose proof (pbest_outcome cf l files ([], 0%Z)) as PO.
    destruct (pbest cf l ([], 0%Z) files) as [[b|e|u| |] t] eqn:E; cbn [fst] in PO; try contradiction.
    2:{ apply k. exists 0. rewrite B. discriminate. }
    destruct (pbest_ret cf l files _ _ _ E) as [[-> M]|(bf & f & af & -> & -> & A1 & A2 & A3)]; [cbn; lia| |].
    { apply k. exists 0. rewrite B. discriminate. }
    cbn [fst snd] in *. assert (Ca : candidate cf l f) by now apply cand_score.
    assert (Ne : is_nil f = false) by (destruct Ca as (s & X & _); destruct f; [discriminate X|reflexivity]).
    destruct (WB (p ++ bs "/" ++ f)) as [_ WF].
    assert (KF : K (exists n, fst (fst (pfile (cfn n) fs (p ++ bs "/" ++ f) d)) <> OutOfFuel)).
    { intro k2. unfold pfile in k2. destruct (fs_file fs (p ++ bs "/" ++ f)) as [[i|]|e|u| |] eqn:F; try contradiction.
      - apply (H bf f af i eq_refl Ca).
        + intros g Hg. rewrite !rating_score. now apply A2.
        + intros g Hg. rewrite !rating_score. now apply A3.
        + exact F.
        + intros (n & X). apply k2. exists n. destruct (pr_outcome (po_parse (cfn n) (p ++ bs "/" ++ f) i d)) as [?|e|?| |]; try discriminate; [|contradiction].
          destruct (is_std e); discriminate.
      - apply k2. exists 0. discriminate.
      - apply k2. exists 0. destruct (is_std e); discriminate. }
    apply KF. intros (n & X). apply k. exists n. rewrite B. cbn [fst]. rewrite Ne.
    destruct (pfile (cfn n) fs (p ++ bs "/" ++ f) d) as [[o d'] t']. exact X.
  Qed.

  Lemma load_cps l ps : forall d,
    (forall name i d1, reaches cf fs l ps d name i d1 ->
      K (exists n, pr_outcome (po_parse (cfn n) name i d1) <> OutOfFuel)) ->
    K (exists n, fst (fst (pload (cfn n) fs l ps d)) <> OutOfFuel).
  Proof.
    induction ps as [|p ps IH]; intros d H k.
    - apply k. exists 0. discriminate.
    - apply (dir_cps l p d).
      + intros bf f af i D C A1 A2 F. apply (H _ i d). exists [], p, ps, [], bf, f, af. repeat split; auto. apply path_nil.
      + intros (n & X). pose proof (pdir_reads (cfn n) fs l p d) as PD.
        destruct (pdir (cfn n) fs l p d) as [[[[]|e|u| |] d'] t] eqn:E; cbn [fst snd completed thrown] in *; try contradiction;
          try (apply k; exists n; cbn [pload]; rewrite E; discriminate).
        destruct (PD Logic.I) as (x & -> & R). apply reads_cf in R. apply (IH d').
        * intros name i d1 (before & q & after & t1 & bf & f & af & -> & Q2 & Q). apply (H name i d1).
          exists (p :: before), q, after, (t ++ t1), bf, f, af. split; [reflexivity|]. split; [|exact Q]. eapply path_cons; eauto.
        * intros (n2 & Y). apply k. exists (max n n2). cbn [pload].
          assert (E2 : pdir (cfn (max n n2)) fs l p d = (Ret tt, d', t)).
          { pose proof (pload_fuel cf fs l [p] d n (max n n2)) as Z. cbn [pload] in Z. rewrite E in Z. cbn [fst] in Z.
            specialize (Z ltac:(lia) ltac:(discriminate)).
            destruct (pdir (cfn (max n n2)) fs l p d) as [[[[]|e|u| |] d2] t2]; cbn beta iota in Z; rewrite ?app_nil_r in Z; try discriminate Z. exact Z. }
          rewrite E2. pose proof (pload_fuel cf fs l ps d' n2 (max n n2) ltac:(lia) Y) as Z.
          destruct (pload (cfn n2) fs l ps d') as [[o2 d2] t2]. rewrite Z. exact Y.
  Qed.
End Cps.

(** ** get_dictionary *)
Section GetFuel.
  Variable cf : config.
  Variable fs : file_system.
  Local Notation cfn n := (with_fuel cf n).
  Local Notation ld n m l := (pload (cfn n) fs l (rev (m_path m)) (new_dictionary (m_charset m))).

  Lemma get_cps (G : Prop) m l : known l ->
    (((exists n, fst (fst (ld n m l)) <> OutOfFuel) -> G) -> G) ->
    (forall n d1 t1, ld n m l = (Ret tt, d1, t1) -> get_country l <> [] ->
      forall b, from_spec (cf_ndebug cf) (get_language l) [] [] = Ret (Some b) ->
      ((exists n, fst (fst (ld n m (Some b))) <> OutOfFuel) -> G) -> G) ->
    ((exists n, fst (get_state (cfn n) fs m l) <> OutOfFuel) -> G) -> G.
  Proof.
    intros Kn H1 H2 k. apply H1. intros (n & X). unfold get_state in k. destruct (is_nil_spec _ (get_country l)) as [C|C].
    - apply k. exists n. cbn [fst]. unfold leaf_outcome. destruct (asserts (cfn n) l); [discriminate|].
      destruct (cache_find l (m_cache m)); [discriminate|]. destruct (fst (fst (ld n m l))) as [[]|?|?| |]; try discriminate. contradiction.
    - destruct (cache_find l (m_cache m)) as [p|]; [apply k; exists 0; discriminate|].
      destruct (base_of (cf_ndebug cf) l Kn C) as (b & B1 & B2 & B3 & B4).
      destruct (ld n m l) as [[[[]|e|u| |] d1] t1] eqn:E; cbn [fst] in X; try contradiction;
        try (apply k; exists n; rewrite E; discriminate).
      apply (H2 n d1 t1 E C b B1). intros (n2 & Y). apply k. exists (max n n2).
      rewrite (pload_fuel cf fs l (rev (m_path m)) (new_dictionary (m_charset m)) n (max n n2)) by (lia || (rewrite E; discriminate)). rewrite E. cbn [fst].
      change (cf_ndebug (cfn (max n n2))) with (cf_ndebug cf). rewrite B1. cbv zeta.
      unfold leaf_outcome. destruct (asserts (cfn (max n n2)) (Some b)); [discriminate|].
      destruct (cache_find (Some b) _); [discriminate|].
      change (m_path (loaded (cfn (max n n2)) fs m l)) with (m_path m). change (m_charset (loaded (cfn (max n n2)) fs m l)) with (m_charset m).
      rewrite (pload_fuel cf fs (Some b) (rev (m_path m)) (new_dictionary (m_charset m)) n2 (max n n2)) by (lia || exact Y).
      destruct (fst (fst (ld n2 m (Some b)))) as [[]|?|?| |]; try discriminate. contradiction.
  Qed.

  Lemma ld_reads n m l d1 t1 : ld n m l = (Ret tt, d1, t1) ->
    exists t, path_reads cf fs l (rev (m_path m)) (new_dictionary (m_charset m)) None d1 t.
  Proof.
    intro E. destruct (pload_reads (cfn n) fs l (rev (m_path m)) (new_dictionary (m_charset m))) as (x & T & R); [rewrite E; exact Logic.I|].
    rewrite E in T, R. cbn [fst snd thrown] in *. subst x. exists t1. clear E.
    assert (Q : forall ps d x d' t, path_reads (cfn n) fs l ps d x d' t -> path_reads cf fs l ps d x d' t).
    { induction 1 as [d|p ps d d2 t2 o d3 t3 D _ IH|p ps d e d2 t2 D].
      - apply path_nil.
      - eapply path_cons; [eapply reads_cf; eauto|exact IH].
      - apply path_stop. eapply reads_cf; eauto. }
    now apply Q.
  Qed.

  (** conversely *)
  Lemma file_reads_pfile name d x d' t : file_reads cf fs name d x d' t -> x = None ->
    exists N, forall n, N <= n -> exists t', pfile (cfn n) fs name d = (Ret tt, d', t').
  Proof.
    intros H Hx. unfold pfile. destruct H as [F|e w F1 F2 _|F|i r F (P1 & N & P2) Ho|i r e w F (P1 & N & P2) Ho _].
    - exists 0. intros n _. rewrite F. eauto.
    - exists 0. intros n _. rewrite F1. destruct e; try contradiction; cbn [is_std]; eauto.
    - discriminate Hx.
    - exists N. intros n Hn. rewrite F, (P2 n Hn), Ho. eauto.
    - exists N. intros n Hn. rewrite F, (P2 n Hn), Ho.
      assert (Z : e <> ExPo). { intros ->. apply (po_no_po (cfn N) name i d). rewrite (P2 N (Nat.le_refl N)). exact Ho. }
      destruct e; try contradiction; cbn [is_std]; eauto.
  Qed.
  Hypothesis St : cf_strict cf = false.
  Lemma all_clean files : Forall (clean (cf_strict cf)) files.
  Proof. rewrite St. apply Forall_forall. intros f _ X. discriminate X. Qed.

  Lemma dir_reads_pdir l p d x d' t : dir_reads cf fs l p d x d' t -> x = None ->
    exists N, forall n, N <= n -> exists t', pdir (cfn n) fs l p d = (Ret tt, d', t').
  Proof.
    intros H Hx. unfold pdir. destruct H as [e D|files D No|bf f af o d2 t2 D Ca A1 A2 F].
    - discriminate Hx.
    - exists 0. intros n _. rewrite D. destruct (best_none cf l files (all_clean files) No) as [t E].
      change (pbest (cfn n) l ([], 0%Z) files) with (pbest cf l ([], 0%Z) files). rewrite E. cbn [fst is_nil]. eauto.
    - destruct (file_reads_pfile _ _ _ _ _ F Hx) as [N P]. exists N. intros n Hn. destruct (P n Hn) as [t' E']. rewrite D.
      destruct (best_is cf l bf f af (all_clean _) Ca A1 A2) as [t E].
      change (pbest (cfn n) l ([], 0%Z) (bf ++ f :: af)) with (pbest cf l ([], 0%Z) (bf ++ f :: af)). rewrite E. cbn [fst].
      rewrite (cand_nonempty cf l f Ca), E'. eauto.
  Qed.
  Lemma path_reads_pload l ps : forall d x d' t, path_reads cf fs l ps d x d' t -> x = None ->
    exists N, forall n, N <= n -> exists t', pload (cfn n) fs l ps d = (Ret tt, d', t').
  Proof.
    induction ps as [|p ps IH]; intros d x d' t H Hx; inversion H as [d0|p0 ps0 d0 d1 t1 o d2 t2 D R|p0 ps0 d0 e d1 t1 D]; subst.
    - exists 0. intros n _. exists []. reflexivity.
    - destruct (dir_reads_pdir _ _ _ _ _ _ D eq_refl) as [N1 P1]. destruct (IH _ _ _ _ R eq_refl) as [N2 P2].
      exists (max N1 N2). intros n Hn. destruct (P1 n ltac:(lia)) as [t1' E1]. destruct (P2 n ltac:(lia)) as [t2' E2].
      cbn [pload]. rewrite E1, E2. eauto.
    - discriminate.
  Qed.

  Lemma never_read_load l ps d : never_read cf fs l ps d -> forall n, fst (fst (pload (cfn n) fs l ps d)) = OutOfFuel.
  Proof.
    intros (name & i & d1 & (before & p & after & t1 & bf & f & af & -> & R & D & Ca & A1 & A2 & -> & F) & Dv) n.
    destruct (path_reads_pload _ _ _ _ _ _ R eq_refl) as [N P].
    assert (X : fst (fst (pload (cfn (max n N)) fs l (before ++ p :: after) d)) = OutOfFuel).
    { rewrite pload_app. destruct (P (max n N) ltac:(lia)) as [t' ->]. cbn [pload].
      assert (E : fst (fst (pdir (cfn (max n N)) fs l p d1)) = OutOfFuel).
      { unfold pdir. rewrite D. destruct (best_is cf l bf f af (all_clean _) Ca A1 A2) as [t E].
        change (pbest (cfn (max n N)) l ([], 0%Z) (bf ++ f :: af)) with (pbest cf l ([], 0%Z) (bf ++ f :: af)). rewrite E. cbn [fst].
        rewrite (cand_nonempty cf l f Ca). unfold pfile. rewrite F, (Dv (max n N)). reflexivity. }
      destruct (pdir (cfn (max n N)) fs l p d1) as [[o d2] t2]. cbn [fst] in E. subst o. reflexivity. }
    destruct (fst (fst (pload (cfn n) fs l (before ++ p :: after) d))) as [[]|?|?| |] eqn:Y; try reflexivity;
      exfalso; rewrite (pload_fuel cf fs l _ d n (max n N)), Y in X by (lia || (rewrite Y; discriminate)); discriminate X.
  Qed.
End GetFuel.

(** ** files that end well *)
Lemma ends_well_parsed cf name i d : ends_well i -> exists n, pr_outcome (po_parse (with_fuel cf n) name i d) <> OutOfFuel.
Proof.
  intro W. destruct (is_good i) eqn:G.
  - destruct W as [H|H]; [congruence|]. exists (length (is_rest i) + 4). now apply parse_terminates_any.
  - exists 1. rewrite (parse_failed_stream cf name i d 1 G) by lia. discriminate.
Qed.
