(** From invariants to client-level statements. *)
From Verif.Model Require Import Base Log PluralForms Dictionary IConv Language Stream PoParser Manager.
From Verif.Spec Require Import DictSpec LangSpec ParserSpec ManagerSpec.
From Verif.Proofs Require Import BaseFacts DictProofs LangProofs ParserSafe ParserFuel ParserMisc
  ManagerLoad ManagerOwn ManagerGet ManagerStep ManagerFull ManagerContent.
Local Open Scope list_scope.

Lemma fresh_app cf fs cs path p : fresh cf fs cs (path ++ [p]) = snd (mstep cf fs (OpAddDirectory p false) (fresh cf fs cs path)).
Proof. unfold fresh. rewrite map_app, mrun_app. reflexivity. Qed.

Lemma fresh_state cf fs cs path : NoDup path ->
  let m := fresh cf fs cs path in
  own (cf_ndebug cf) m /\ m_cache m = [] /\ m_path m = path /\ m_charset m = cs /\ m_tr m = [] /\ m_lang m = None /\ m_cur m = None /\ m_next m = 0.
Proof.
  induction path as [|p path IH] using rev_ind; intros ND m.
  - subst m. split; [apply own_new|repeat split].
  - apply NoDup_remove in ND. rewrite app_nil_r in ND. destruct ND as [ND NI]. destruct (IH ND) as (O & C & P & S & T & La & Cu & Nx).
    subst m. rewrite fresh_app. destruct (do_add_directory cf fs p false _ O) as (m1 & Cl & O1 & E); [now rewrite P|].
    rewrite E. cbn [snd]. destruct Cl as (H1 & H2 & H3 & H4 & H5 & H6 & H7 & H8 & H9 & H10 & H11).
    split; [now apply own_upd_path|]. cbn. rewrite P. repeat split; congruence.
Qed.

Lemma returns_get cf fs m l m' d : known l ->
  (returns cf fs m l m' d <->
   exists p, get_state cf fs m l = (Ret p, m') /\ heap_get (m_heap m') p = Some d).
Proof.
  intro K. unfold returns. rewrite (do_get_lang cf fs l m K). destruct (get_state cf fs m l) as [[q|e|u| |] m1]; cbn [fst snd omap].
  - split; intros (p & H & G).
    + injection H as -> ->. eauto.
    + injection H as -> ->. eauto.
  - split; intros (p & H & _); discriminate.
  - split; intros (p & H & _); discriminate.
  - split; intros (p & H & _); discriminate.
  - split; intros (p & H & _); discriminate.
Qed.

Lemma session_state cf fs cs ops m : session cf fs (new_manager cs) ops m -> Forall client_op ops ->
  own (cf_ndebug cf) m /\ full cf fs m /\ NoDup (m_path m) /\ m_path m = path_after [] ops /\
  m_charset m = charset_after cs ops /\ m_lang m = language_after None ops.
Proof.
  intros S C. destruct (session_full cf fs ops _ _ S C (own_new cf cs) (full_none cf fs (new_manager cs) eq_refl)) as [O F].
  pose proof (session_run cf fs ops _ _ S) as E.
  assert (V : valid (List.map (fun o => (fs, o)) ops)). { unfold valid. apply Forall_map. exact C. }
  destruct (run_inv cf _ _ V (own_new cf cs) (NoDup_nil _)) as (_ & ND & P & Ch & La).
  rewrite <- E, List.map_map in *. cbn [snd] in *. rewrite map_id in *. auto 10.
Qed.

Lemma get_returns cf fs m l : known l -> own (cf_ndebug cf) m -> full cf fs m ->
  (exists m' d, returns cf fs m l m' d) <-> will_return cf fs m l.
Proof.
  intros K O F. rewrite <- (returns_iff cf fs m l K O F). split.
  - intros (m' & d & R). apply returns_get in R as (p & E & _); [|exact K]. rewrite E. now exists p.
  - intros (p & E). destruct (get_state cf fs m l) as [o m'] eqn:G. cbn [fst] in E. subst o.
    destruct (get_inv cf fs m l O K) as (O' & _ & F'). rewrite G in *. cbn [fst snd] in *.
    destruct (own_found cf m' l p O' (F' p eq_refl)) as [d D]. exists m', d. apply returns_get; eauto.
Qed.

Lemma will_return_fields cf fs m m' l : m_path m = m_path m' -> m_charset m = m_charset m' ->
  will_return cf fs m l -> will_return cf fs m' l.
Proof. unfold will_return, loads_ok. intros -> ->. auto. Qed.

Lemma same_settings cf fs m1 m2 l m1' d1 : known l -> own (cf_ndebug cf) m1 -> own (cf_ndebug cf) m2 ->
  full cf fs m1 -> full cf fs m2 -> m_path m1 = m_path m2 -> m_charset m1 = m_charset m2 ->
  returns cf fs m1 l m1' d1 ->
  exists m2' d2, returns cf fs m2 l m2' d2 /\ indistinguishable (m_heap m1') d1 (m_heap m2') d2.
Proof.
  intros K O1 O2 F1 F2 P C R.
  assert (W2 : exists m2' d2, returns cf fs m2 l m2' d2).
  { apply (get_returns cf fs m2 l K O2 F2). apply (will_return_fields cf fs m1 m2 l P C). apply (get_returns cf fs m1 l K O1 F1). eauto. }
  destruct W2 as (m2' & d2 & R2). exists m2', d2. split; [exact R2|].
  apply returns_get in R as (p1 & E1 & D1); [|exact K]. apply returns_get in R2 as (p2 & E2 & D2); [|exact K].
  destruct (get_inv cf fs m1 l O1 K) as (O1' & G1 & L1). destruct (get_inv cf fs m2 l O2 K) as (O2' & G2 & L2).
  pose proof (get_full cf fs m1 l p1 O1 K F1) as X1. pose proof (get_full cf fs m2 l p2 O2 K F2) as X2.
  rewrite E1, E2 in *. cbn [fst snd] in *.
  destruct (full_same cf fs m1' m2' l p1 p2 K O1' O2' (X1 eq_refl) (X2 eq_refl)) as (e1 & e2 & H1 & H2 & I).
  - now rewrite (gr_path _ _ G1), (gr_path _ _ G2).
  - now rewrite (gr_charset _ _ G1), (gr_charset _ _ G2).
  - now apply L1.
  - now apply L2.
  - congruence.
Qed.

(** the dictionary returned, in terms of the pure loader *)
Lemma returned cf fs m l m' d : known l -> own (cf_ndebug cf) m -> full cf fs m -> returns cf fs m l m' d ->
  let ld x := pload cf fs x (rev (m_path m)) (new_dictionary (m_charset m)) in
  asserts cf l = false /\
  fst (fst (ld l)) = Ret tt /\
  (get_country l = [] -> d = snd (fst (ld l))) /\
  (get_country l <> [] -> exists b q, from_spec (cf_ndebug cf) (get_language l) [] [] = Ret (Some b) /\
     In b languages /\ get_country (Some b) = [] /\
     fst (fst (ld (Some b))) = Ret tt /\
     d = add_fallback (snd (fst (ld l))) (Some q) /\ heap_get (m_heap m') q = Some (snd (fst (ld (Some b))))).
Proof.
  intros K O F R. cbv zeta.
  assert (W : will_return cf fs m l). { apply (get_returns cf fs m l K O F). eauto. }
  apply returns_get in R as (p & E & D); [|exact K].
  destruct (get_inv cf fs m l O K) as (O' & G & L). pose proof (get_full cf fs m l p O K F) as X.
  rewrite E in *. cbn [fst snd] in *. specialize (L p eq_refl). specialize (X eq_refl).
  destruct (X l p K L) as (A & d' & D' & N & Y). rewrite D in D'. injection D' as <-.
  rewrite (gr_path _ _ G), (gr_charset _ _ G) in *.
  split; [exact (proj1 W)|]. split; [exact A|]. split; [exact N|]. intro C.
  destruct (Y C) as (b & q & B & FB & ->). destruct (base_of (cf_ndebug cf) l K C) as (b' & B' & I & Cb & _).
  rewrite B in B'. injection B' as ->. exists b', q.
  destruct (X (Some b') q I FB) as (A2 & d2 & D2 & N2 & _).
  rewrite (gr_path _ _ G), (gr_charset _ _ G) in *. specialize (N2 Cb). subst d2. auto 10.
Qed.
Lemma form0_fallback d q k : form0 (add_fallback d q) k = form0 d k.
Proof. reflexivity. Qed.

(** ** one directory at a time *)
Section Path.
  Variable cf : config.
  Variable fs : file_system.

  Lemma single_returns cs p l : known l -> asserts cf l = false ->
    fst (fst (pload cf fs l [p] (new_dictionary cs))) = Ret tt ->
    (get_country l <> [] -> forall b, from_spec (cf_ndebug cf) (get_language l) [] [] = Ret (Some b) ->
       fst (fst (pload cf fs (Some b) [p] (new_dictionary cs))) = Ret tt) ->
    exists m d, returns cf fs (fresh cf fs cs [p]) l m d /\
      d_entries d = d_entries (alone cf fs l cs p) /\ d_ctxt d = d_ctxt (alone cf fs l cs p) /\ d_plural d = d_plural (alone cf fs l cs p).
  Proof.
    intros K A L B. destruct (fresh_state cf fs cs [p]) as (O & C & P & S & _).
    { constructor; [intros []|constructor]. }
    assert (F : full cf fs (fresh cf fs cs [p])) by (now apply full_none).
    assert (W : will_return cf fs (fresh cf fs cs [p]) l).
    { unfold will_return, loads_ok. rewrite P, S. cbn [rev app]. split; [exact A|]. split; [exact L|]. intro Co.
      destruct (base_of (cf_ndebug cf) l K Co) as (b & E & _). exists (Some b). split; [exact E|]. now apply B. }
    apply (get_returns cf fs _ l K O F) in W as (m & d & R). exists m, d. split; [exact R|].
    destruct (returned cf fs _ l m d K O F R) as (_ & _ & N & Y). rewrite P, S in N, Y. cbn [rev app] in N, Y. unfold alone.
    destruct (get_country l) as [|c x] eqn:Co.
    - rewrite N by reflexivity. auto.
    - destruct Y as (b & q & _ & _ & _ & _ & -> & _); [discriminate|]. auto.
  Qed.

  (** the dictionaries of the single directories of a search path *)
  Lemma singles m l m' d : known l -> own (cf_ndebug cf) m -> full cf fs m -> returns cf fs m l m' d ->
    forall p, In p (m_path m) ->
    exists mp dp, returns cf fs (fresh cf fs (m_charset m) [p]) l mp dp /\
      d_entries dp = d_entries (alone cf fs l (m_charset m) p) /\ d_ctxt dp = d_ctxt (alone cf fs l (m_charset m) p) /\
      d_plural dp = d_plural (alone cf fs l (m_charset m) p).
  Proof.
    intros K O F R p I. destruct (returned cf fs m l m' d K O F R) as (A & L & _ & Y).
    apply single_returns; auto.
    - eapply pload_member; [exact L|]. now apply -> in_rev.
    - intros Co b E. destruct (Y Co) as (b' & q & E' & _ & _ & L' & _). rewrite E in E'. injection E' as <-.
      eapply pload_member; [exact L'|]. now apply -> in_rev.
  Qed.
  Lemma singles_fun m l m' d : known l -> own (cf_ndebug cf) m -> full cf fs m -> returns cf fs m l m' d ->
    exists single : bytes -> dictionary,
      (forall p, In p (m_path m) -> exists mp, returns cf fs (fresh cf fs (m_charset m) [p]) l mp (single p)) /\
      forall p, In p (m_path m) ->
        d_entries (single p) = d_entries (alone cf fs l (m_charset m) p) /\ d_ctxt (single p) = d_ctxt (alone cf fs l (m_charset m) p) /\
        d_plural (single p) = d_plural (alone cf fs l (m_charset m) p).
  Proof.
    intros K O F R.
    set (single := fun p => match mstep cf fs (OpGetDictionaryLang l) (fresh cf fs (m_charset m) [p]) with
                            | (Ret (OutRef (RefHeap q)), mp) => match heap_get (m_heap mp) q with Some x => x | None => d end
                            | _ => d end).
    exists single.
    assert (G : forall p, In p (m_path m) -> (exists mp, returns cf fs (fresh cf fs (m_charset m) [p]) l mp (single p)) /\
        d_entries (single p) = d_entries (alone cf fs l (m_charset m) p) /\ d_ctxt (single p) = d_ctxt (alone cf fs l (m_charset m) p) /\
        d_plural (single p) = d_plural (alone cf fs l (m_charset m) p)).
    { intros p I. destruct (singles m l m' d K O F R p I) as (mp & dp & Rp & X). pose proof Rp as (q & E & H).
      assert (E' : single p = dp) by (unfold single; now rewrite E, H). rewrite E'. eauto. }
    split; intros p I; apply (G p I).
  Qed.

  Lemma first_some_ext A B (f g : A -> option B) l : (forall a, In a l -> f a = g a) -> first_some f l = first_some g l.
  Proof.
    induction l as [|a l IH]; intro H; cbn [first_some]; [reflexivity|].
    rewrite (H a (or_introl eq_refl)), (IH (fun x Hx => H x (or_intror Hx))). reflexivity.
  Qed.
  Lemma form0_content d d' k : d_entries d = d_entries d' -> d_ctxt d = d_ctxt d' -> form0 d k = form0 d' k.
  Proof. intros E1 E2. unfold form0, lookup. now rewrite E1, E2. Qed.

  Lemma path_form0 m l m' d : known l -> own (cf_ndebug cf) m -> full cf fs m -> returns cf fs m l m' d ->
    forall k, form0 d k = first_some (fun p => form0 (alone cf fs l (m_charset m) p) k) (m_path m).
  Proof.
    intros K O F R k. destruct (returned cf fs m l m' d K O F R) as (A & L & N & Y).
    rewrite <- (form0_path cf fs l (m_charset m) (m_path m) k L).
    destruct (get_country l) as [|c x]; [now rewrite N|].
    destruct Y as (b & q & _ & _ & _ & _ & -> & _); [discriminate|]. reflexivity.
  Qed.
  Lemma path_plural m l m' d : known l -> own (cf_ndebug cf) m -> full cf fs m -> returns cf fs m l m' d ->
    forms_of d = first_some (fun p => forms_of (alone cf fs l (m_charset m) p)) (rev (m_path m)).
  Proof.
    intros K O F R. destruct (returned cf fs m l m' d K O F R) as (A & L & N & Y).
    rewrite <- (plural_path cf fs l (m_charset m) (m_path m) L).
    destruct (get_country l) as [|c x]; [now rewrite N|].
    destruct Y as (b & q & _ & _ & _ & _ & -> & _); [discriminate|]. reflexivity.
  Qed.

  Lemma load_no_fallback l ps cs : d_has_fallback (snd (fst (pload cf fs l ps (new_dictionary cs)))) = false.
  Proof. destruct (kept_load cf fs l ps (new_dictionary cs)) as (_ & H & _). now rewrite H. Qed.

  (** what translate answers *)
  Lemma translate_flat n h d id : d_has_fallback d = false ->
    fst (translate (S n) h d id) = Ret (match form0 d (None, id) with Some s => s | None => id end).
  Proof.
    intro H. unfold translate, form0, lookup. cbn [translate_in fst snd]. rewrite H.
    destruct (assoc id (d_entries d)) as [[|v r]|]; reflexivity.
  Qed.
  Lemma translate_ctxt_flat n h d c id : d_has_fallback d = false ->
    fst (translate_ctxt (S n) h d c id) = Ret (match form0 d (Some c, id) with Some s => s | None => id end).
  Proof.
    intro H. unfold translate_ctxt, form0, lookup. cbn [fst snd]. destruct (assoc c (d_ctxt d)) as [es|]; [|reflexivity].
    cbn [translate_in]. rewrite H. destruct (assoc id es) as [[|v r]|]; reflexivity.
  Qed.
  Lemma translate_over n h d q e id : d_has_fallback e = false -> heap_get h q = Some e ->
    fst (translate (S (S n)) h (add_fallback d (Some q)) id) =
    Ret (match form0 d (None, id) with Some s => s | None => match form0 e (None, id) with Some s => s | None => id end end).
  Proof.
    intros H G. unfold translate, form0, lookup. cbn [fst snd].
    cbn [translate_in add_fallback d_has_fallback d_fallback d_entries]. rewrite G. cbn [translate_in]. rewrite H.
    destruct (assoc id (d_entries d)) as [[|v r]|]; try reflexivity;
      destruct (assoc id (d_entries e)) as [[|v' r']|]; reflexivity.
  Qed.
End Path.

(** ** when loading cannot fail *)
Section Loads.
  Variable cf : config.
  Variable fs : file_system.
  Hypothesis lenient : cf_strict cf = false.

  (** a file that parses (or cannot be opened) in configuration [cf] *)
  Definition loadable (cs f : bytes) : Prop :=
    match fs_file fs f with
    | Ret None => True
    | Ret (Some i) => match pr_outcome (po_parse cf f i (new_dictionary cs)) with Ret _ => True | Exn e => is_std e = true | _ => False end
    | Exn e => is_std e = true
    | _ => False
    end.
  Lemma pfile_loads f d : loadable (d_charset d) f -> fst (fst (pfile cf fs f d)) = Ret tt.
  Proof.
    intro H. apply (pfile_outcome cf fs f (new_dictionary (d_charset d)) d eq_refl). unfold loadable in H. unfold pfile.
    destruct (fs_file fs f) as [[i|]|e|u| |]; try contradiction; [|reflexivity|now rewrite H].
    destruct (pr_outcome (po_parse cf f i _)) as [[]|e|u| |]; try contradiction; [reflexivity|now rewrite H].
  Qed.
  Lemma pdir_loads l p d files : fs_dir fs p = Ret files ->
    (forall f, In f files -> loadable (d_charset d) (p ++ bs "/" ++ f)) -> fst (fst (pdir cf fs l p d)) = Ret tt.
  Proof.
    intros D H. unfold pdir. rewrite D. pose proof (pbest_outcome cf l files ([], 0%Z)) as B.
    destruct (pbest cf l ([], 0%Z) files) as [[b|e|u| |] t] eqn:E; cbn [fst] in B; try contradiction;
      [|destruct B as [_ B]; congruence].
    destruct (pbest_ret cf l files _ _ _ E) as [[-> _]|(bf & f & af & -> & -> & _)]; [cbn; lia|reflexivity|].
    cbn [fst]. destruct (is_nil f); [reflexivity|].
    pose proof (pfile_loads (p ++ bs "/" ++ f) d (H f (in_or_app _ _ _ (or_intror (in_eq _ _))))) as F.
    destruct (pfile cf fs (p ++ bs "/" ++ f) d) as [[o d'] t']. exact F.
  Qed.
  Lemma pload_loads l ps : forall d,
    (forall p, In p ps -> exists files, fs_dir fs p = Ret files /\ forall f, In f files -> loadable (d_charset d) (p ++ bs "/" ++ f)) ->
    fst (fst (pload cf fs l ps d)) = Ret tt.
  Proof.
    induction ps as [|p ps IH]; intros d H; cbn [pload]; [reflexivity|].
    destruct (H p (or_introl eq_refl)) as (files & D & L). pose proof (pdir_loads l p d files D L) as X.
    pose proof (kept_dir cf fs l p d) as (K & _). destruct (pdir cf fs l p d) as [[o d'] t]. cbn [fst snd] in *. subst o.
    assert (Y : fst (fst (pload cf fs l ps d')) = Ret tt).
    { apply IH. intros q Hq. rewrite K. apply H. now right. }
    now destruct (pload cf fs l ps d') as [[o d''] t'].
  Qed.
End Loads.
Lemma fold_add_fuel cf n fs l : forall m,
  fold_left (fun m o => snd (mstep cf (fst o) (snd o) m)) (List.map (fun p => (fs, OpAddDirectory p false)) l) m =
  fold_left (fun m o => snd (mstep (with_fuel cf n) (fst o) (snd o) m)) (List.map (fun p => (fs, OpAddDirectory p false)) l) m.
Proof. induction l as [|p l IH]; intro m; [reflexivity|]. cbn [List.map fold_left]. apply IH. Qed.
Lemma fresh_fuel cf n fs cs path : fresh (with_fuel cf n) fs cs path = fresh cf fs cs path.
Proof. unfold fresh, mrun. symmetry. apply fold_add_fuel. Qed.
Lemma bound_for A (l : list A) (P : A -> nat -> Prop) : (forall a, In a l -> exists N, forall n, N <= n -> P a n) ->
  exists N, forall n, N <= n -> forall a, In a l -> P a n.
Proof.
  induction l as [|a l IH]; intro H; [exists 0; intros n _ a []|].
  destruct (H a (or_introl eq_refl)) as [N1 H1]. destruct IH as [N2 H2]; [intros; apply H; now right|].
  exists (N1 + N2). intros n Hn x [<-|Hx]; [apply H1; lia|apply H2; [lia|assumption]].
Qed.
