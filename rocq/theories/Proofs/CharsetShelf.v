(** From files in any charset on a disk to the answers of a manager's dictionary. *)
From Verif.Model Require Import Base Log PluralForms Dictionary IConv Language Stream PoParser Manager.
From Verif.Spec Require Import DictSpec LangSpec ParserSpec PoSpec ManagerSpec LoadSpec ShelfSpec CharsetSpec.
From Verif.Spec Require SoundSpec DamageSpec RunSpec.
From Verif.Proofs Require Import BaseFacts DictProofs LangProofs ParserSafe ParserFuel ParserMisc ParserProper DocText DocTop
  ManagerLoad ManagerOwn ManagerGet ManagerStep ManagerFull ManagerContent ManagerProps ManagerSafe Shelf Charsets.
From Verif.Properties Require Damage Run.
Local Open Scope list_scope.

(** ** the text, the contexts *)
Lemma said_form0 cs cls k : Forall proper_call cls ->
  form0 (fold_left apply_call cls (new_dictionary cs)) k = said_text cls k.
Proof.
  induction cls as [|c cls IH]; intro P; [apply form0_new|]. inversion P as [|? ? Pc Pr]; subst. cbn [said_text].
  change (c :: cls) with ([c] ++ cls). rewrite fold_left_app, (form0_calls _ _ (new_dictionary cs) k Pr (form0_new cs k)), (IH Pr).
  destruct (said_text cls k); [reflexivity|]. cbn [fold_left]. destruct c as [op|p].
  - cbn [apply_call]. rewrite form0_add by (destruct op as [|? ? ? []]; [exact Logic.I|cbn in Pc; lia|exact Logic.I]). rewrite form0_new.
    destruct (key_eq_dec k (op_key op)) as [E|N], (key_eq_dec (op_key op) k) as [E'|N']; try congruence.
    destruct op as [|? ? ? []]; reflexivity.
  - now rewrite form0_plural, form0_new.
Qed.
Lemma all_form0 cs own path k : (forall p, In p path -> Forall proper_call (own p)) ->
  form0 (fold_left apply_call (all_said own path) (new_dictionary cs)) k = first_said own path k.
Proof.
  unfold all_said, first_said. induction path as [|p path IH]; intro P; [apply form0_new|].
  cbn [rev first_some]. rewrite map_app, concat_app. cbn [List.map List.concat]. rewrite app_nil_r, fold_left_app.
  rewrite (form0_calls _ _ (new_dictionary cs) k (P p (in_eq _ _)) (form0_new cs k)), (said_form0 cs _ k (P p (in_eq _ _))).
  destruct (said_text (own p) k); [reflexivity|]. apply IH. intros q Hq. apply P. now right.
Qed.
Lemma said_context_spec c cls : said_context c cls = true <-> exists op, In op (adds cls) /\ fst (op_key op) = Some c.
Proof.
  unfold said_context. rewrite existsb_exists. split; intros (op & H1 & H2); exists op; (split; [exact H1|]).
  - destruct (fst (op_key op)) as [c'|]; [|discriminate]. destruct (bytes_eqb_spec c' c); congruence.
  - rewrite H2. now destruct (bytes_eqb_spec c c).
Qed.
Lemma all_ctxt cs own path c :
  assoc c (d_ctxt (fold_left apply_call (all_said own path) (new_dictionary cs))) = None <->
  existsb (fun p => said_context c (own p)) path = false.
Proof.
  rewrite ctxt_calls. cbn [new_dictionary d_ctxt assoc]. unfold all_said.
  assert (E : existsb (fun p => said_context c (own p)) path = said_context c (List.concat (List.map own (rev path)))).
  { unfold said_context. induction path as [|p path IH]; [reflexivity|]. cbn [existsb rev]. rewrite map_app, concat_app, adds_app, existsb_app, <- IH.
    cbn [List.map List.concat]. rewrite app_nil_r. apply orb_comm. }
  rewrite E. pose proof (said_context_spec c (List.concat (List.map own (rev path)))) as U.
  destruct (said_context c _).
  - split; [|discriminate]. intros [H _]. destruct (proj1 U eq_refl) as (op & Ho & Hc). now destruct (H op Ho).
  - split; [reflexivity|]. intros _. split; [|reflexivity]. intros op Ho Hc. discriminate (proj2 U (ex_intro _ op (conj Ho Hc))).
Qed.

(** ** a directory, then the search path *)
Section Disk.
  Variable cf : config.
  Variable T : translator.
  Variable o : os_state.
  Variable cs : bytes.
  Hypothesis Hst : cf_strict cf = false.
  Hypothesis Hs : serves (cf_iconv cf) T.
  Notation fs := (unix_file_system o).
  Notation cfn n := (with_fuel cf n).

  Lemma all_clean files : Forall (clean (cf_strict cf)) files.
  Proof. apply Forall_forall. intros f _ S. congruence. Qed.
  Definition dir_says (n : nat) (l : language) (p : bytes) (cls : list dict_call) : Prop :=
    fst (fst (pdir (cfn n) fs l p (new_dictionary cs))) = Ret tt /\ dir_calls (cfn n) fs l cs p = cls.
  Lemma says_dir l p cls : says cf T o cs l p cls -> exists N, forall n, N <= n -> dir_says n l p cls.
  Proof.
    intros [files D N|before f after D Ca H1 H2 F|before f after b sgs D Ca H1 H2 F Co Sl So].
    - exists 0. intros n _. unfold dir_says, pdir, dir_calls. cbn [unix_file_system fs_dir]. rewrite D.
      destruct (best_none (cfn n) l files (all_clean _) N) as (t & ->). split; reflexivity.
    - exists 1. intros n Hn. unfold dir_says, pdir, dir_calls. cbn [unix_file_system fs_dir]. rewrite D.
      destruct (best_is (cfn n) l before f after (all_clean _) Ca H1 H2) as (t & ->). cbn [fst]. rewrite (cand_nonempty cf l f Ca).
      unfold file_calls, pfile. cbn [unix_file_system fs_file]. rewrite F.
      pose proof (failed_parse (cfn n) (p ++ bs "/" ++ f) (new_dictionary cs) Hn) as (E1 & E2 & E3). cbv zeta in E1. rewrite E1.
      split; [reflexivity|]. unfold po_parse. destruct n as [|n]; [lia|]. reflexivity.
    - destruct (Run.C73_every_file_is_described b Co) as ([sgs' ms] & (S1 & S2 & S3) & _). cbn [fst snd] in *.
      destruct (Damage.C66_every_file_has_segments b Co) as (sg & _ & U).
      assert (E : sgs' = sgs). { transitivity sg; [symmetry; now apply U|now apply U]. } subst sgs'.
      destruct (Run.C73_what_a_parse_does cf (p ++ bs "/" ++ f) b (new_dictionary cs) sgs ms Hst Co Sl So S3) as (r & P & X1 & _ & X3 & _).
      destruct (segs_says (cf_iconv cf) T (p ++ bs "/" ++ f) (cf_pedantic cf) (cf_ndebug cf) sgs ms (new_dictionary cs) Hs S3) as [Y1 Y2].
      rewrite Y2 in X3. cbn [new_dictionary d_charset] in X3.
      destruct P as (_ & N & HN). exists N. intros n Hn. specialize (HN n Hn).
      unfold dir_says, pdir, dir_calls. cbn [unix_file_system fs_dir]. rewrite D.
      destruct (best_is (cfn n) l before f after (all_clean _) Ca H1 H2) as (t & ->). cbn [fst]. rewrite (cand_nonempty cf l f Ca).
      unfold file_calls, pfile. cbn [unix_file_system fs_file]. rewrite F, HN, X3. split; [|reflexivity].
      rewrite X1. destruct Y1 as [->|[m ->]]; reflexivity.
  Qed.
  Lemma load_says l ps own : (forall p, In p ps -> says cf T o cs l p (own p)) ->
    exists N, forall n, N <= n -> forall d, d_charset d = cs ->
      fst (fst (pload (cfn n) fs l ps d)) = Ret tt /\
      snd (fst (pload (cfn n) fs l ps d)) = fold_left apply_call (List.concat (List.map own ps)) d /\
      forall p, In p ps -> Forall proper_call (own p).
  Proof.
    intro H. assert (B : exists N, forall n, N <= n -> forall p, In p ps -> dir_says n l p (own p)).
    { apply bound_for. intros p Hp. apply says_dir. auto. }
    destruct B as [N B]. exists N. intros n Hn. specialize (B n Hn). clear H Hn.
    assert (Q : forall d, d_charset d = cs -> fst (fst (pload (cfn n) fs l ps d)) = Ret tt).
    { induction ps as [|p ps IH]; intros d Hd; cbn [pload]; [reflexivity|].
      destruct (B p (in_eq _ _)) as [B1 _].
      pose proof (pdir_outcome (cfn n) fs l p (new_dictionary cs) d (eq_sym Hd) B1) as X.
      pose proof (kept_dir (cfn n) fs l p d) as (K & _). destruct (pdir (cfn n) fs l p d) as [[oo d'] t]. cbn [fst snd] in *. subst oo.
      rewrite Hd in K. specialize (IH (fun q Hq => B q (or_intror Hq)) d' K). now destruct (pload (cfn n) fs l ps d') as [[oo d''] t']. }
    intros d Hd. specialize (Q d Hd). split; [exact Q|]. split.
    - destruct (pload (cfn n) fs l ps d) as [[oo d1] t1] eqn:E. cbn [fst snd] in *. subst oo. apply pload_calls in E. rewrite E, Hd. f_equal.
      clear -B. induction ps as [|p ps IH]; [reflexivity|]. cbn [List.map List.concat].
      rewrite IH; [|intros q Hq; apply B; now right]. f_equal. exact (proj2 (B p (in_eq _ _))).
    - intros p Hp. destruct (B p Hp) as [_ <-]. apply proper_dir.
  Qed.
End Disk.
