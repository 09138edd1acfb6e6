(** Ways a manager call can end; independence of the fuzzy setting; unreadable files. *)
From Verif.Model Require Import Base Log PluralForms Dictionary IConv Language Stream PoParser Manager.
From Verif.Spec Require Import DictSpec LangSpec ParserSpec ManagerSpec.
From Verif.Proofs Require Import BaseFacts DictProofs LangProofs ParserUnary ParserSafe ParserFuel ParserMisc
  ManagerLoad ManagerOwn ManagerGet ManagerStep ManagerContent.
Local Open Scope list_scope.

Section Safe.
  Variable cf : config.
  Variable fs : file_system.
  Hypothesis wb : well_behaved fs.

  Definition only_ctype {A} (o : outcome A) : Prop :=
    match o with Ub u => u = UbCtype /\ cf_strict cf = true | _ => True end.
  Lemma only_omap A B (f : A -> B) o : only_ctype o -> only_ctype (omap f o). Proof. destruct o; cbn; auto. Qed.

  Lemma parse_only fn i d : only_ctype (pr_outcome (po_parse cf fn i d)).
  Proof.
    pose proof (parse_outcomes cf fn i d) as H. unfold only_ctype.
    destruct (pr_outcome (po_parse cf fn i d)) as [|?|[]| |]; auto; try contradiction.
  Qed.
  Lemma pfile_only f d : only_ctype (fst (fst (pfile cf fs f d))).
  Proof.
    unfold pfile. pose proof (proj2 (wb f)) as W. destruct (fs_file fs f) as [[i|]|e|u| |]; try contradiction; cbn; auto.
    - pose proof (parse_only f i d) as P. destruct (pr_outcome (po_parse cf f i d)) as [|e|u| |]; cbn in *; auto.
      now destruct (is_std e).
    - now destruct (is_std e).
  Qed.
  Lemma pdir_only l p d : only_ctype (fst (fst (pdir cf fs l p d))).
  Proof.
    unfold pdir. pose proof (proj1 (wb p)) as W. destruct (fs_dir fs p) as [files|e|u| |]; try contradiction; [|exact Logic.I].
    pose proof (pbest_outcome cf l files ([], 0%Z)) as B.
    destruct (pbest cf l ([], 0%Z) files) as [[b|e|u| |] t]; cbn [fst] in *; try contradiction; [|exact B].
    destruct (is_nil (fst b)); [exact Logic.I|]. pose proof (pfile_only (p ++ bs "/" ++ fst b) d) as F.
    destruct (pfile cf fs (p ++ bs "/" ++ fst b) d) as [[o d'] t']. exact F.
  Qed.
  Lemma pload_only l ps : forall d, only_ctype (fst (fst (pload cf fs l ps d))).
  Proof.
    induction ps as [|p ps IH]; intro d; cbn [pload]; [exact Logic.I|].
    pose proof (pdir_only l p d) as D. destruct (pdir cf fs l p d) as [[[]  d'] t]; cbn [fst] in *; auto.
    specialize (IH d'). destruct (pload cf fs l ps d') as [[o d''] t']. exact IH.
  Qed.
  Lemma leaf_only m l : only_ctype (leaf_outcome cf fs m l).
  Proof.
    unfold leaf_outcome. destruct (asserts cf l); [exact Logic.I|]. destruct (cache_find l (m_cache m)); [exact Logic.I|].
    apply only_omap, pload_only.
  Qed.
  Lemma get_only m l : only_ctype (fst (get_state cf fs m l)).
  Proof.
    unfold get_state. destruct (is_nil (get_country l)); [apply leaf_only|]. destruct (cache_find l (m_cache m)); [exact Logic.I|].
    pose proof (pload_only l (rev (m_path m)) (new_dictionary (m_charset m))) as P.
    destruct (fst (fst (pload cf fs l (rev (m_path m)) (new_dictionary (m_charset m))))); cbn [fst] in *; auto.
    destruct (from_spec_total (cf_ndebug cf) (get_language l) [] []) as [b ->]. cbv zeta.
    pose proof (leaf_only (loaded cf fs m l) b) as L. destruct (leaf_outcome cf fs (loaded cf fs m l) b); cbn [fst]; auto.
  Qed.
  Lemma langs_files_only files : forall acc, only_ctype (langs_of_files cf files acc).
  Proof.
    induction files as [|f files IH]; intro acc; cbn [langs_of_files]; [exact Logic.I|]. destruct (has_suffix f dot_po); [|apply IH].
    destruct (substr f 0 (sub64 (size f) 3)) as [stem|]; [|exact Logic.I].
    destruct (from_env_total (cf_ndebug cf) stem) as [l ->]. apply IH.
  Qed.
  Lemma langs_dirs_only ps : forall acc, only_ctype (langs_of_dirs cf fs ps acc).
  Proof.
    induction ps as [|p ps IH]; intro acc; cbn [langs_of_dirs]; [exact Logic.I|].
    pose proof (proj1 (wb p)) as W. destruct (fs_dir fs p) as [files|e|u| |]; try contradiction; cbn [obind]; [|exact Logic.I].
    pose proof (langs_files_only files acc) as F. destruct (langs_of_files cf files acc); cbn [obind]; auto.
  Qed.
  Lemma step_only op m : own (cf_ndebug cf) m -> client_op op -> only_ctype (fst (mstep cf fs op m)).
  Proof.
    intros O C. destruct op as [l|c|b|p f|p| |l| | |]; cbn [client_op] in C.
    - rewrite do_set_language. exact Logic.I.
    - destruct (do_set_charset cf fs c m O) as (m1 & _ & _ & ->). exact Logic.I.
    - destruct (do_set_use_fuzzy cf fs b m O) as (m1 & _ & _ & ->). exact Logic.I.
    - destruct (in_dec (list_eq_dec ascii_dec) p (m_path m)) as [I|N].
      + rewrite do_add_present by exact I. exact Logic.I.
      + destruct (do_add_directory cf fs p f m O N) as (m1 & _ & _ & ->). exact Logic.I.
    - destruct (in_dec (list_eq_dec ascii_dec) p (m_path m)) as [I|N].
      + destruct (do_remove_directory cf fs p m O I) as (m1 & _ & _ & ->). exact Logic.I.
      + rewrite do_remove_absent by exact N. exact Logic.I.
    - rewrite (do_get cf fs m (own_lang _ _ O)). destruct (m_cur m); [exact Logic.I|]. destruct (is_none (m_lang m)); [exact Logic.I|].
      pose proof (get_only m (m_lang m)) as G. destruct (get_state cf fs m (m_lang m)) as [[] m']; cbn [fst] in *; auto.
    - rewrite (do_get_lang cf fs l m C). cbn [fst]. apply only_omap, get_only.
    - rewrite do_get_languages. cbn [fst]. apply only_omap, langs_dirs_only.
    - exact Logic.I.
    - exact Logic.I.
  Qed.
End Safe.

(** ** the fuzzy setting *)
Section Fuzzy.
  Variable cf : config.
  Variable fs : file_system.
  Definition blind {A} (f : M manager A) : Prop :=
    forall m b, f (upd_fuzzy m b) = (fst (f m), upd_fuzzy (snd (f m)) b).
  Lemma blind_ret A (a : A) : blind (mret a). Proof. intros m b. reflexivity. Qed.
  Lemma blind_lift A (o : outcome A) : blind (mlift o). Proof. intros m b. reflexivity. Qed.
  Lemma blind_bind A B (f : M manager A) (g : A -> M manager B) : blind f -> (forall a, blind (g a)) -> blind (mbind f g).
  Proof.
    intros F G m b. unfold mbind. rewrite F. destruct (f m) as [[a|e|u| |] m']; cbn [fst snd]; auto. apply G.
  Qed.
  Lemma blind_get A (f : manager -> A) : (forall m b, f (upd_fuzzy m b) = f m) -> blind (mget f).
  Proof. intros H m b. unfold mget. cbn [fst snd]. now rewrite H. Qed.
  Lemma blind_mod f : (forall m b, f (upd_fuzzy m b) = upd_fuzzy (f m) b) -> blind (mmod f).
  Proof. intros H m b. unfold mmod. cbn [fst snd]. now rewrite H. Qed.
  Lemma blind_delete_all c : blind (delete_all c).
  Proof.
    induction c as [|[k p] c IH]; cbn [delete_all]; [apply blind_ret|]. apply blind_bind; [|intro; exact IH].
    intros m b. unfold delete. cbn [upd_fuzzy m_heap]. now destruct (heap_get (m_heap m) p).
  Qed.
  Lemma blind_clear : blind clear_cache.
  Proof.
    unfold clear_cache. apply blind_bind; [now apply blind_get|intro c]. apply blind_bind; [apply blind_delete_all|intros _].
    now apply blind_mod.
  Qed.
  Lemma blind_consider l best f : blind (consider cf l best f).
  Proof. intros m b. rewrite !consider_eq. reflexivity. Qed.
  Lemma blind_best l files : forall best, blind (best_file cf l best files).
  Proof. intros best m b. rewrite !best_eq. reflexivity. Qed.
  Lemma blind_file id f : blind (load_file cf fs id f).
  Proof.
    intros m b. unfold load_file. cbn [upd_fuzzy m_heap m_tr]. destruct (fs_file fs f) as [[i|]|e|u| |]; try reflexivity.
    - destruct (heap_get (m_heap m) id) as [d|]; [|reflexivity].
      destruct (pr_outcome (po_parse cf f i d)) as [|e|u| |]; try reflexivity. now destruct (is_std e).
    - now destruct (is_std e).
  Qed.
  Lemma blind_dir l id p : blind (load_dir cf fs l id p).
  Proof.
    unfold load_dir. apply blind_bind; [apply blind_lift|intro files]. apply blind_bind; [apply blind_best|intro best].
    destruct (is_nil (fst best)); [apply blind_ret|apply blind_file].
  Qed.
  Lemma blind_dirs l id ps : blind (load_dirs cf fs l id ps).
  Proof. induction ps as [|p ps IH]; cbn [load_dirs]; [apply blind_ret|]. apply blind_bind; [apply blind_dir|intros; exact IH]. Qed.
  Lemma blind_set_fallback id q : blind (set_fallback id q).
  Proof. intros m b. unfold set_fallback. cbn [upd_fuzzy m_heap]. now destruct (heap_get (m_heap m) id). Qed.
  Lemma blind_gd n : forall l, blind (get_dictionary_lang cf fs n l).
  Proof.
    induction n as [|n IH]; intro l; cbn [get_dictionary_lang]; [intros m b; reflexivity|].
    destruct (negb (cf_ndebug cf) && is_none l); [intros m b; reflexivity|].
    apply blind_bind; [now apply blind_get|intro c]. destruct (cache_find l c); [apply blind_ret|].
    apply blind_bind; [now apply blind_get|intro id]. apply blind_bind; [now apply blind_mod|intros _].
    apply blind_bind; [now apply blind_get|intro path]. apply blind_bind; [apply blind_dirs|intros _].
    destruct (is_nil (get_country l)); [apply blind_ret|]. apply blind_bind; [apply blind_lift|intro base].
    apply blind_bind; [apply IH|intro fb]. apply blind_bind; [apply blind_set_fallback|intros _]. apply blind_ret.
  Qed.
  Lemma blind_get_dictionary : blind (get_dictionary cf fs).
  Proof.
    unfold get_dictionary. apply blind_bind; [now apply blind_get|intros [p|]; [apply blind_ret|]].
    apply blind_bind; [now apply blind_get|intro l]. destruct (is_none l); [apply blind_ret|].
    apply blind_bind; [apply blind_gd|intro p]. apply blind_bind; [now apply blind_mod|intros _]. apply blind_ret.
  Qed.
  Definition about_fuzzy (op : mop) : bool := match op with OpSetUseFuzzy _ | OpGetUseFuzzy => true | _ => false end.
  Lemma blind_step op : about_fuzzy op = false -> blind (mstep cf fs op).
  Proof.
    destruct op as [l|c|b|p f|p| |l| | |]; try discriminate; intros _; cbn [mstep]; unfold mmap;
      (apply blind_bind; [|intros; apply blind_ret]).
    - unfold set_language. apply blind_mod. intros m b. cbn [upd_fuzzy m_lang]. now destruct (negb (lang_eqb (m_lang m) l)).
    - unfold set_charset. apply blind_bind; [apply blind_clear|intros _]. now apply blind_mod.
    - unfold add_directory. apply blind_bind; [now apply blind_get|intro path]. destruct (existsb (bytes_eqb p) path); [apply blind_ret|].
      apply blind_bind; [apply blind_clear|intros _]. now apply blind_mod.
    - unfold remove_directory. apply blind_bind; [now apply blind_get|intro path]. destruct (existsb (bytes_eqb p) path); [|apply blind_ret].
      apply blind_bind; [apply blind_clear|intros _]. now apply blind_mod.
    - apply blind_get_dictionary.
    - apply blind_gd.
    - unfold get_languages. apply blind_bind; [now apply blind_get|intro]. apply blind_lift.
    - now apply blind_get.
  Qed.
  Lemma set_fuzzy_any a b m : exists m', mstep cf fs (OpSetUseFuzzy a) m = (fst (mstep cf fs (OpSetUseFuzzy b) m), m') /\
    upd_fuzzy m' true = upd_fuzzy (snd (mstep cf fs (OpSetUseFuzzy b) m)) true.
  Proof.
    cbn [mstep]. unfold mmap, set_use_fuzzy, mbind. destruct (clear_cache m) as [[[]|e|u| |] m1] eqn:E; cbn; eexists; split; reflexivity.
  Qed.
End Fuzzy.

Lemma set_fuzzy_step cf fs a m : mstep cf fs (OpSetUseFuzzy a) m =
  match clear_cache m with
  | (Ret _, m1) => (Ret OutUnit, upd_fuzzy m1 a)
  | (Exn e, m1) => (Exn e, m1) | (Ub u, m1) => (Ub u, m1) | (AssertFail, m1) => (AssertFail, m1) | (OutOfFuel, m1) => (OutOfFuel, m1)
  end.
Proof. cbn [mstep]. unfold mmap, set_use_fuzzy, mbind. destruct (clear_cache m) as [[[]|e|u| |] m1]; reflexivity. Qed.
Lemma upd_fuzzy_twice m a b : upd_fuzzy (upd_fuzzy m a) b = upd_fuzzy m b. Proof. reflexivity. Qed.

Lemma classic_get op : op = OpGetUseFuzzy \/ op <> OpGetUseFuzzy.
Proof. destruct op; auto; right; discriminate. Qed.

(** equal but for the fuzzy setting *)
Definition alike (m m' : manager) : Prop := upd_fuzzy m true = upd_fuzzy m' true.
Lemma blind_alike A (f : M manager A) m m' : blind f -> alike m m' -> fst (f m) = fst (f m') /\ alike (snd (f m)) (snd (f m')).
Proof.
  intros B H. pose proof (B m true) as E1. pose proof (B m' true) as E2. rewrite H in E1. rewrite E2 in E1.
  injection E1 as A1 A2. split; [congruence|]. unfold alike. congruence.
Qed.
Lemma step_alike cf fs op op' m m' : fuzzy_variant op op' -> op <> OpGetUseFuzzy -> alike m m' ->
  fst (mstep cf fs op m) = fst (mstep cf fs op' m') /\ alike (snd (mstep cf fs op m)) (snd (mstep cf fs op' m')).
Proof.
  intros V N H. assert (D : (op = op' /\ about_fuzzy op = false) \/ exists a b, op = OpSetUseFuzzy a /\ op' = OpSetUseFuzzy b).
  { destruct V as [<-|V]; [|now right]. destruct op; try (left; split; reflexivity); [right; eauto|congruence]. }
  destruct D as [[<- F]|(a & b & -> & ->)]; [apply blind_alike; [now apply blind_step|exact H]|].
  rewrite !set_fuzzy_step. destruct (blind_alike _ clear_cache m m' blind_clear H) as [E1 E2].
  destruct (clear_cache m) as [[[]|e|u| |] m1], (clear_cache m') as [[[]|e'|u'| |] m1']; cbn [fst snd] in *;
    try discriminate; split; try congruence; try exact E2.
Qed.
Lemma run_alike cf ops : forall ops' m m', Forall2 (fun x y => fst x = fst y /\ fuzzy_variant (snd x) (snd y)) ops ops' ->
  alike m m' -> alike (mrun cf ops m) (mrun cf ops' m').
Proof.
  induction ops as [|[fs op] ops IH]; intros ops' m m' F H; inversion F as [|? [fs' op'] ? ? [E V] F']; subst; [exact H|].
  cbn [fst snd] in *. subst fs'. unfold mrun. cbn [fold_left fst snd]. apply IH; [exact F'|].
  destruct (classic_get op) as [->|N].
  - destruct V as [<-|(a & b & X & _)]; [|discriminate]. exact H.
  - now apply step_alike.
Qed.

Lemma run_fuzzy cf ops : forall m, valid ops -> own (cf_ndebug cf) m -> NoDup (m_path m) ->
  m_fuzzy (mrun cf ops m) = fuzzy_after_all (m_fuzzy m) (List.map snd ops).
Proof.
  induction ops as [|[fs op] ops IH]; intros m V O ND; [reflexivity|]. inversion V as [|? ? C V']; subst. cbn [snd] in C.
  unfold mrun. cbn [fold_left fst snd List.map]. destruct (step_fields cf fs op m O C ND) as (_ & _ & _ & F & ND').
  change (m_fuzzy (mrun cf ops (snd (mstep cf fs op m))) = fuzzy_after_all (m_fuzzy m) (op :: List.map snd ops)).
  rewrite (IH _ V' (step_own cf fs op m O C) ND'), F. destruct op; reflexivity.
Qed.

(** ** unreadable files *)
Lemma empty_parse cf fn d : 1 <= cf_fuel cf -> let r := po_parse cf fn (stream_of []) d in
  pr_outcome r = Ret tt /\ pr_dict r = d /\ pr_trace r = [].
Proof. destruct cf as [? ? ? n ?]. cbn [cf_fuel]. intro H. destruct n as [|n]; [lia|]. repeat split. Qed.
Lemma failed_parse cf fn d : 1 <= cf_fuel cf -> let r := po_parse cf fn failed_stream d in
  pr_outcome r = Ret tt /\ pr_dict r = d /\ pr_trace r = [].
Proof. destruct cf as [? ? ? n ?]. cbn [cf_fuel]. intro H. destruct n as [|n]; [lia|]. repeat split. Qed.

Lemma bind_ext A B (f f' : M manager A) (g g' : A -> M manager B) m :
  f m = f' m -> (forall a m, g a m = g' a m) -> mbind f g m = mbind f' g' m.
Proof. intros E G. unfold mbind. rewrite E. destruct (f' m) as [[a|e|u| |] m']; auto. Qed.

(** two disks whose files parse alike *)
Section Reads.
  Variable cf : config.
  Variables fs fs' : file_system.
  Hypothesis same_dir : forall p, fs_dir fs p = fs_dir fs' p.
  Hypothesis same_file : forall f, fs_file fs f = fs_file fs' f \/
    exists i j, fs_file fs f = Ret (Some i) /\ fs_file fs' f = Ret (Some j) /\ forall d,
      pr_outcome (po_parse cf f i d) = pr_outcome (po_parse cf f j d) /\ pr_dict (po_parse cf f i d) = pr_dict (po_parse cf f j d) /\
      pr_trace (po_parse cf f i d) = pr_trace (po_parse cf f j d).

  Lemma reads_file id f m : load_file cf fs id f m = load_file cf fs' id f m.
  Proof.
    unfold load_file. destruct (same_file f) as [->|(i & j & -> & -> & H)]; [reflexivity|].
    destruct (heap_get (m_heap m) id) as [d|]; [|reflexivity]. destruct (H d) as (-> & -> & ->). reflexivity.
  Qed.
  Lemma reads_dir l id p m : load_dir cf fs l id p m = load_dir cf fs' l id p m.
  Proof.
    unfold load_dir. apply bind_ext; [unfold mlift; now rewrite same_dir|intros files m1]. apply bind_ext; [reflexivity|intros best m2].
    destruct (is_nil (fst best)); [reflexivity|apply reads_file].
  Qed.
  Lemma reads_dirs l id ps : forall m, load_dirs cf fs l id ps m = load_dirs cf fs' l id ps m.
  Proof.
    induction ps as [|p ps IH]; intro m; [reflexivity|]. cbn [load_dirs]. apply bind_ext; [apply reads_dir|intros; apply IH].
  Qed.
  Lemma reads_gd n : forall l m, get_dictionary_lang cf fs n l m = get_dictionary_lang cf fs' n l m.
  Proof.
    induction n as [|n IH]; intros l m; [reflexivity|]. cbn [get_dictionary_lang].
    destruct (negb (cf_ndebug cf) && is_none l); [reflexivity|].
    apply bind_ext; [reflexivity|intros c m1]. destruct (cache_find l c); [reflexivity|].
    apply bind_ext; [reflexivity|intros id m2]. apply bind_ext; [reflexivity|intros _ m3].
    apply bind_ext; [reflexivity|intros path m4]. apply bind_ext; [apply reads_dirs|intros _ m5].
    destruct (is_nil (get_country l)); [reflexivity|]. apply bind_ext; [reflexivity|intros base m6].
    apply bind_ext; [apply IH|reflexivity].
  Qed.
  Lemma reads_step op m : mstep cf fs op m = mstep cf fs' op m.
  Proof.
    assert (L : forall ps acc, langs_of_dirs cf fs ps acc = langs_of_dirs cf fs' ps acc).
    { induction ps as [|p ps IH]; intro acc; [reflexivity|]. cbn [langs_of_dirs]. rewrite same_dir. destruct (fs_dir fs' p) as [files|?|?| |]; try reflexivity.
      cbn [obind]. destruct (langs_of_files cf files acc) as [acc'|?|?| |]; try reflexivity. cbn [obind]. apply IH. }
    destruct op; try reflexivity; cbn [mstep]; unfold mmap; (apply bind_ext; [|reflexivity]).
    - unfold get_dictionary. apply bind_ext; [reflexivity|intros [p|] m1; [reflexivity|]]. apply bind_ext; [reflexivity|intros l m2].
      destruct (is_none l); [reflexivity|]. apply bind_ext; [apply reads_gd|reflexivity].
    - apply reads_gd.
    - unfold get_languages. apply bind_ext; [reflexivity|intros ps m1]. unfold mlift. now rewrite L.
  Qed.
End Reads.

Lemma blank_step cf o op m : 1 <= cf_fuel cf -> mstep cf (unix_file_system o) op m = mstep cf (unix_file_system (blanked o)) op m.
Proof.
  intro fuel. apply reads_step; [reflexivity|]. intro f. cbn [unix_file_system fs_file blanked os_file]. destruct (os_file o f) as [b|]; [left; reflexivity|].
  right. exists failed_stream, (stream_of []). split; [reflexivity|]. split; [reflexivity|]. intro d. split; [|split].
  all: destruct (empty_parse cf f d fuel) as (E1 & E2 & E3); destruct (failed_parse cf f d fuel) as (F1 & F2 & F3).
  - now rewrite E1, F1.
  - now rewrite E2, F2.
  - now rewrite E3, F3.
Qed.
