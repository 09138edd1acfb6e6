(** What ends up in a loaded dictionary. *)
From Verif.Model Require Import Base Log PluralForms Dictionary IConv Language Stream PoParser Manager.
From Verif.Spec Require Import DictSpec LangSpec ParserSpec ManagerSpec.
From Verif.Proofs Require Import BaseFacts DictProofs LangProofs ParserSafe ParserFuel ParserCut ParserMisc ParserProper
  ManagerLoad ManagerOwn ManagerGet.
Local Open Scope list_scope.

(** ** the choice of a file *)
Section Choice.
  Variable cf : config.
  Variable lang : language.

  Definition file_score (f : bytes) : Z :=
    if is_none (po_language cf f) then 0%Z else lang_match lang (po_language cf f).

  Lemma file_score_nonneg f : (0 <= file_score f)%Z.
  Proof. unfold file_score. destruct (is_none _); [lia|]. pose proof (lang_match_range lang (po_language cf f)). lia. Qed.
  Lemma file_score_pos f : (0 < file_score f)%Z <->
    exists s, po_language cf f = Some s /\ get_language lang = ls_language s.
  Proof.
    unfold file_score. destruct (po_language cf f) as [s|] eqn:E; cbn [is_none].
    - pose proof (lang_match_zero lang (Some s)) as Z. pose proof (lang_match_range lang (Some s)) as R.
      cbn [get_language] in Z. split.
      + intro H. exists s. split; [reflexivity|]. destruct (bytes_eq_dec (get_language lang) (ls_language s)) as [|N]; [assumption|].
        apply Z in N. lia.
      + intros (s' & H & E'). injection H as <-. destruct (Z.eq_dec (lang_match lang (Some s)) 0) as [H|H]; [|lia].
        apply Z in H. contradiction.
    - split; [lia|]. intros (s & H & _). discriminate.
  Qed.

  Lemma pconsider_ret best f b t : pconsider cf lang best f = (Ret b, t) ->
    (0 <= snd best)%Z -> b = if (snd best <? file_score f)%Z then (f, file_score f) else best.
  Proof.
    unfold pconsider, file_score, po_language. destruct (has_suffix f dot_po).
    - destruct (convertFilename2Language _ _) as [stem|?|?| |]; cbn [obind]; try discriminate.
      destruct (from_env _ _) as [po|?|?| |]; try discriminate.
      destruct (is_none po) eqn:E.
      + intros H Hb. injection H as <- <-. destruct (snd best <? 0)%Z eqn:L; [apply Z.ltb_lt in L; lia|reflexivity].
      + intros H _. injection H as <- <-. reflexivity.
    - intros H Hb. injection H as <- <-. cbn [is_none]. destruct (snd best <? 0)%Z eqn:L; [apply Z.ltb_lt in L; lia|reflexivity].
  Qed.

  Lemma pbest_ret files : forall best b t, pbest cf lang best files = (Ret b, t) -> (0 <= snd best)%Z ->
    (b = best /\ forall f, In f files -> (file_score f <= snd best)%Z) \/
    (exists before f after, files = before ++ f :: after /\ b = (f, file_score f) /\ (snd best < file_score f)%Z /\
       (forall g, In g before -> (file_score g < file_score f)%Z) /\
       (forall g, In g after -> (file_score g <= file_score f)%Z)).
  Proof.
    induction files as [|g files IH]; intros best b t; cbn [pbest].
    - intros H _. injection H as <- <-. left. split; [reflexivity|intros f []].
    - destruct (pconsider cf lang best g) as [[b1|e|u| |] t1] eqn:C; try discriminate.
      destruct (pbest cf lang b1 files) as [o t2] eqn:B. intros H Hb. injection H as -> <-.
      pose proof (pconsider_ret _ _ _ _ C Hb) as E.
      destruct (snd best <? file_score g)%Z eqn:L.
      + apply Z.ltb_lt in L. subst b1. destruct (IH _ _ _ B) as [[-> A]|(bf & f & af & -> & -> & A1 & A2 & A3)]; [cbn [snd]; lia| |].
        * right. exists [], g, files. repeat split; auto. intros ? [].
        * right. exists (g :: bf), f, af. cbn [snd] in A1. repeat split; auto; [lia|].
          intros h [<-|Hh]; [exact A1|now apply A2].
      + apply Z.ltb_ge in L. subst b1. destruct (IH _ _ _ B Hb) as [[-> A]|(bf & f & af & -> & -> & A1 & A2 & A3)].
        * left. split; [reflexivity|]. intros f [<-|Hf]; [exact L|now apply A].
        * right. exists (g :: bf), f, af. repeat split; auto. intros h [<-|Hh]; [lia|now apply A2].
  Qed.

  (** outcome of the choice *)
  Lemma pconvert_total f : has_suffix f dot_po = true ->
    match convertFilename2Language (cf_strict cf) f with Ret _ => True | Ub u => u = UbCtype /\ cf_strict cf = true | _ => False end.
  Proof.
    intro H. unfold convertFilename2Language.
    assert (L : 3 <= length f).
    { unfold has_suffix in H. change (length dot_po) with 3 in H. destruct (length f <? 3) eqn:E; [discriminate|].
      apply Nat.ltb_ge in E. exact E. }
    assert (S : (sub64 (size f) 3 <= size f)%N).
    { unfold sub64, size. assert (3 <= N.of_nat (length f))%N by lia. assert (Z : size_t_mod <> 0%N) by discriminate.
      generalize dependent size_t_mod. intros M Z.
      replace (N.of_nat (length f) + M - 3)%N with (N.of_nat (length f) - 3 + 1 * M)%N by lia.
      rewrite N.mod_add by exact Z. pose proof (N.mod_le (N.of_nat (length f) - 3) M Z). lia. }
    destruct (substr_some f (sub64 (size f) 3) 3 S) as [suf ->].
    destruct (if bytes_eqb suf dot_po then substr f 0 (sub64 (size f) 3) else Some f) as [s|] eqn:E.
    - clear. assert (G : forall fd, match upcase_country (cf_strict cf) fd s with Ret _ => True | Ub u => u = UbCtype /\ cf_strict cf = true | _ => False end).
      { induction s as [|c s IH]; intro fd; cbn [upcase_country]; [exact Logic.I|]. destruct fd.
        - destruct (cf_strict cf && hi c) eqn:E; [apply andb_prop in E; tauto|]. destruct (negb (isalpha c)); [exact Logic.I|].
          specialize (IH true). destruct (upcase_country _ _ s); cbn [omap]; auto.
        - specialize (IH (byte_eqb c c_us)). destruct (upcase_country _ _ s); cbn [omap]; auto. }
      apply G.
    - destruct (bytes_eqb suf dot_po); [|discriminate]. unfold substr in E. destruct (size f <? 0)%N eqn:Z; [|discriminate].
      apply N.ltb_lt in Z. lia.
  Qed.
  Lemma pbest_outcome files : forall best,
    match fst (pbest cf lang best files) with Ret _ => True | Ub u => u = UbCtype /\ cf_strict cf = true | _ => False end.
  Proof.
    induction files as [|f files IH]; intro best; cbn [pbest]; [exact Logic.I|].
    assert (C : match fst (pconsider cf lang best f) with Ret _ => True | Ub u => u = UbCtype /\ cf_strict cf = true | _ => False end).
    { unfold pconsider. destruct (has_suffix f dot_po) eqn:S; [|exact Logic.I]. pose proof (pconvert_total f S) as P.
      destruct (convertFilename2Language _ _) as [stem|?|?| |]; cbn [obind]; try contradiction; [|exact P].
      destruct (from_env_total (cf_ndebug cf) stem) as [po ->]. destruct (is_none po); exact Logic.I. }
    destruct (pconsider cf lang best f) as [[b|e|u| |] t]; cbn [fst] in C |- *; try contradiction; [|exact C].
    specialize (IH b). destruct (pbest cf lang b files) as [o t']. exact IH.
  Qed.
End Choice.

(** ** content *)
Lemma form0_add d op k : match op with AddPlural _ _ _ [] => False | _ => True end ->
  form0 (fst (add_translation d op)) k =
  if key_eq_dec k (op_key op)
  then match op with AddSingular _ _ s => Some s | AddPlural _ _ _ (f :: _) => Some f | _ => None end
  else form0 d k.
Proof.
  intro P. unfold form0. rewrite lookup_add. unfold spec_add, update. destruct (key_eq_dec k (op_key op)) as [->|N]; [|reflexivity].
  destruct op as [c i s|c i pl [|f r]]; cbn [new_forms]; [reflexivity|destruct P|reflexivity].
Qed.
Lemma form0_calls l d d0 k : Forall proper_call l ->
  form0 d0 k = None ->
  form0 (fold_left apply_call l d) k =
  match form0 (fold_left apply_call l d0) k with Some f => Some f | None => form0 d k end.
Proof.
  intros P H0. induction l as [|c l IH] using rev_ind; [cbn [fold_left]; now rewrite H0|].
  apply Forall_app in P as [P Pc]. inversion Pc as [|? ? Hc _]; subst. rewrite !fold_left_app. cbn [fold_left].
  specialize (IH P). destruct c as [op|p]; cbn [apply_call].
  - assert (Q : match op with AddPlural _ _ _ [] => False | _ => True end).
    { destruct op as [|c i pl [|]]; auto. cbn in Hc. lia. }
    rewrite !(form0_add _ op k Q). destruct (key_eq_dec k (op_key op)); [|exact IH].
    destruct op as [|c i pl [|]]; try reflexivity. destruct Q.
  - assert (E : forall x q, form0 (if pf_valid (get_plural_forms x) then x else set_plural_forms x q) k = form0 x k)
      by (intros; destruct (pf_valid _); reflexivity).
    rewrite !E. exact IH.
Qed.
Lemma plural_calls l d d0 : Forall proper_call l -> d_plural d0 = pf_none -> (pf_valid (d_plural d) = false -> d_plural d = pf_none) ->
  d_plural (fold_left apply_call l d) =
  if pf_valid (d_plural d) then d_plural d else d_plural (fold_left apply_call l d0).
Proof.
  intros P H0 HN.
  assert (S : Forall ParserUnary.sound_call l). { eapply Forall_impl; [|exact P]. intros [op|p]; cbn; auto. }
  destruct (pf_valid (d_plural d)) eqn:V.
  - exact (calls_plural_kept l d V).
  - pose proof (calls_plural_first l d V S) as A. pose proof (calls_plural_first l d0) as B.
    unfold get_plural_forms in *. rewrite A, B; auto; [|now rewrite H0]. rewrite H0, (HN eq_refl). reflexivity.
Qed.

Lemma cf_eta cf : with_fuel cf (cf_fuel cf) = cf. Proof. now destruct cf. Qed.
Lemma ped_eta cf n : with_fuel (set_pedantic cf (cf_pedantic cf)) n = with_fuel cf n. Proof. reflexivity. Qed.

Lemma parse_indep cf fn i d1 d2 : d_charset d1 = d_charset d2 -> pr_outcome (po_parse cf fn i d1) <> OutOfFuel ->
  pr_outcome (po_parse cf fn i d2) = pr_outcome (po_parse cf fn i d1) /\
  pr_calls (po_parse cf fn i d2) = pr_calls (po_parse cf fn i d1).
Proof.
  intros H N. rewrite <- (cf_eta cf) in *.
  destruct (parse_independent cf (cf_pedantic cf) fn fn i d1 d2 (cf_fuel cf) H N) as (A & B & _).
  rewrite ped_eta in *. auto.
Qed.

Section Content.
  Variable cf : config.
  Variable fs : file_system.

  (** what loading a file, a directory, a list of directories asks of a dictionary *)
  Definition file_calls (cs f : bytes) : list dict_call :=
    match fs_file fs f with Ret (Some i) => pr_calls (po_parse cf f i (new_dictionary cs)) | _ => [] end.
  Definition dir_calls (lang : language) (cs p : bytes) : list dict_call :=
    match fs_dir fs p with
    | Ret files => match fst (pbest cf lang ([], 0%Z) files) with
                   | Ret b => if is_nil (fst b) then [] else file_calls cs (p ++ bs "/" ++ fst b)
                   | _ => []
                   end
    | _ => []
    end.

  Lemma pfile_calls f d d1 t1 : pfile cf fs f d = (Ret tt, d1, t1) -> d1 = fold_left apply_call (file_calls (d_charset d) f) d.
  Proof.
    unfold pfile, file_calls. destruct (fs_file fs f) as [[i|]|e|u| |]; try discriminate.
    - intro H. assert (N : pr_outcome (po_parse cf f i d) <> OutOfFuel).
      { intro X. rewrite X in H. discriminate. }
      destruct (parse_indep cf f i d (new_dictionary (d_charset d)) eq_refl N) as [_ E]. rewrite E.
      destruct (parse_effects cf f i d) as [<- _].
      destruct (pr_outcome (po_parse cf f i d)) as [[]|e|u| |]; try discriminate; [congruence|]. destruct (is_std e); [congruence|discriminate].
    - intro H. now injection H as <- <-.
    - destruct (is_std e); [|discriminate]. intro H. now injection H as <- <-.
  Qed.
  Lemma pfile_outcome f d1 d2 : d_charset d1 = d_charset d2 -> fst (fst (pfile cf fs f d1)) = Ret tt -> fst (fst (pfile cf fs f d2)) = Ret tt.
  Proof.
    unfold pfile. intro C. destruct (fs_file fs f) as [[i|]|e|u| |]; try discriminate; auto.
    - intro H. assert (N : pr_outcome (po_parse cf f i d1) <> OutOfFuel).
      { intro X. rewrite X in H. discriminate. }
      destruct (parse_indep cf f i d1 d2 C N) as [E _]. rewrite E.
      destruct (pr_outcome (po_parse cf f i d1)) as [[]|e|u| |]; try discriminate; auto. now destruct (is_std e).
    - now destruct (is_std e).
  Qed.
  Lemma pdir_calls lang p d d1 t1 : pdir cf fs lang p d = (Ret tt, d1, t1) -> d1 = fold_left apply_call (dir_calls lang (d_charset d) p) d.
  Proof.
    unfold pdir, dir_calls. destruct (fs_dir fs p) as [files|e|u| |]; try discriminate.
    destruct (pbest _ _ _ _) as [[b|e|u| |] t]; cbn [fst]; try discriminate.
    destruct (is_nil (fst b)); [intro H; now injection H as <- <-|].
    destruct (pfile cf fs _ d) as [[o d'] t'] eqn:E. intro H. injection H as -> <- <-. eapply pfile_calls; eauto.
  Qed.
  Lemma pdir_outcome lang p d1 d2 : d_charset d1 = d_charset d2 -> fst (fst (pdir cf fs lang p d1)) = Ret tt -> fst (fst (pdir cf fs lang p d2)) = Ret tt.
  Proof.
    unfold pdir. intro C. destruct (fs_dir fs p) as [files|e|u| |]; try discriminate.
    destruct (pbest _ _ _ _) as [[b|e|u| |] t]; try discriminate.
    destruct (is_nil (fst b)); [auto|]. pose proof (pfile_outcome (p ++ bs "/" ++ fst b) d1 d2 C) as F.
    destruct (pfile cf fs _ d1) as [[o1 d1'] t1]. destruct (pfile cf fs _ d2) as [[o2 d2'] t2]. exact F.
  Qed.
  Lemma kept_charset d d' : kept d d' -> d_charset d' = d_charset d. Proof. intros [H _]. exact H. Qed.

  Lemma pload_calls lang ps : forall d d1 t1, pload cf fs lang ps d = (Ret tt, d1, t1) ->
    d1 = fold_left apply_call (List.concat (List.map (dir_calls lang (d_charset d)) ps)) d.
  Proof.
    induction ps as [|p ps IH]; intros d d1 t1; cbn [pload List.map List.concat]; [intro H; now injection H as <- <-|].
    destruct (pdir cf fs lang p d) as [[[[]|e|u| |] d'] t] eqn:E; try discriminate.
    destruct (pload cf fs lang ps d') as [[o d''] t'] eqn:L. intro H. injection H as -> <- <-.
    rewrite fold_left_app, <- (pdir_calls _ _ _ _ _ E). apply IH in L.
    pose proof (kept_dir cf fs lang p d) as K. rewrite E in K. cbn [fst snd] in K. now rewrite <- (kept_charset _ _ K).
  Qed.
  Lemma pload_outcome lang ps : forall d1 d2, d_charset d1 = d_charset d2 ->
    fst (fst (pload cf fs lang ps d1)) = Ret tt -> fst (fst (pload cf fs lang ps d2)) = Ret tt.
  Proof.
    induction ps as [|p ps IH]; intros d1 d2 C; cbn [pload]; [auto|].
    pose proof (pdir_outcome lang p d1 d2 C) as F. pose proof (kept_dir cf fs lang p d1) as K1. pose proof (kept_dir cf fs lang p d2) as K2.
    destruct (pdir cf fs lang p d1) as [[[[]|e|u| |] d1'] t]; try discriminate. specialize (F eq_refl).
    destruct (pdir cf fs lang p d2) as [[[[]|e|u| |] d2'] t2]; try discriminate F. cbn [fst snd] in *.
    specialize (IH d1' d2'). destruct K1 as [K1 _], K2 as [K2 _].
    destruct (pload cf fs lang ps d1') as [[o1 d1''] t1'], (pload cf fs lang ps d2') as [[o2 d2''] t2'].
    apply IH. congruence.
  Qed.
  Lemma pload_app lang a : forall b d, pload cf fs lang (a ++ b) d =
    match pload cf fs lang a d with
    | (Ret _, d', t) => match pload cf fs lang b d' with (o, d'', t') => (o, d'', t ++ t') end
    | r => r
    end.
  Proof.
    induction a as [|p a IH]; intros b d; cbn [pload app].
    - now destruct (pload cf fs lang b d) as [[o d'] t'].
    - destruct (pdir cf fs lang p d) as [[[[]|e|u| |] d'] t]; try reflexivity. rewrite IH.
      destruct (pload cf fs lang a d') as [[[[]|e|u| |] d''] t']; try reflexivity.
      destruct (pload cf fs lang b d'') as [[o d3] t3]. now rewrite app_assoc.
  Qed.
  Lemma proper_dir lang cs p : Forall proper_call (dir_calls lang cs p).
  Proof.
    unfold dir_calls, file_calls. destruct (fs_dir fs p); try constructor. destruct (fst (pbest _ _ _ _)); try constructor.
    destruct (is_nil _); [constructor|]. destruct (fs_file fs _) as [[i|]|?|?| |]; try constructor. apply parse_proper.
  Qed.

  Lemma pload_member lang ps : forall d, fst (fst (pload cf fs lang ps d)) = Ret tt ->
    forall p, In p ps -> fst (fst (pload cf fs lang [p] d)) = Ret tt.
  Proof.
    induction ps as [|x ps IH]; intros d H p [].
    - subst x. cbn [pload] in *. destruct (pdir cf fs lang p d) as [[[[]|e|u| |] d'] t]; try discriminate. reflexivity.
    - cbn [pload] in H. pose proof (kept_dir cf fs lang x d) as K.
      destruct (pdir cf fs lang x d) as [[[[]|e|u| |] d'] t]; try discriminate. cbn [fst snd] in K. destruct K as [K _].
      apply (pload_outcome lang [p] d' d K). apply IH; auto. now destruct (pload cf fs lang ps d') as [[o d''] t'].
  Qed.

  (** the dictionary of one directory, of the whole path *)
  Definition alone (lang : language) (cs p : bytes) : dictionary := snd (fst (pload cf fs lang [p] (new_dictionary cs))).
  Lemma alone_calls lang cs p : fst (fst (pload cf fs lang [p] (new_dictionary cs))) = Ret tt ->
    alone lang cs p = fold_left apply_call (dir_calls lang cs p) (new_dictionary cs).
  Proof.
    intro H. unfold alone. destruct (pload cf fs lang [p] (new_dictionary cs)) as [[o d] t] eqn:E. cbn [fst snd] in *. subst o.
    apply pload_calls in E. cbn [List.map List.concat new_dictionary d_charset] in E. now rewrite app_nil_r in E.
  Qed.
  Lemma form0_path lang cs path k : fst (fst (pload cf fs lang (rev path) (new_dictionary cs))) = Ret tt ->
    form0 (snd (fst (pload cf fs lang (rev path) (new_dictionary cs)))) k =
    first_some (fun p => form0 (alone lang cs p) k) path.
  Proof.
    induction path as [|p path IH]; [destruct k as [[c|] i]; reflexivity|]; cbn [rev first_some]. intro H.
    assert (A : fst (fst (pload cf fs lang [p] (new_dictionary cs))) = Ret tt).
    { eapply pload_member; [exact H|]. apply in_or_app. right. now left. }
    rewrite pload_app in *. destruct (pload cf fs lang (rev path) (new_dictionary cs)) as [[[[]|e|u| |] d'] t] eqn:E; try discriminate.
    cbn [fst snd] in IH. specialize (IH eq_refl). rewrite <- IH. clear IH.
    pose proof (kept_load cf fs lang (rev path) (new_dictionary cs)) as [K _]. rewrite E in K. cbn [fst snd d_charset new_dictionary] in K.
    destruct (pload cf fs lang [p] d') as [[o d''] t'] eqn:E'. cbn [fst snd] in *. subst o. apply pload_calls in E'.
    cbn [List.map List.concat] in E'. rewrite app_nil_r, K in E'. subst d''.
    rewrite (alone_calls lang cs p A). apply form0_calls; [apply proper_dir|destruct k as [[c|] i]; reflexivity].
  Qed.
  Definition forms_of (d : dictionary) : option plural_forms := if pf_valid (d_plural d) then Some (d_plural d) else None.
  Lemma plural_inv l : Forall proper_call l -> forall d, (pf_valid (d_plural d) = false -> d_plural d = pf_none) ->
    pf_valid (d_plural (fold_left apply_call l d)) = false -> d_plural (fold_left apply_call l d) = pf_none.
  Proof.
    intro P. induction l as [|c l IH] using rev_ind; intros d H; [exact H|]. apply Forall_app in P as [P Pc].
    inversion Pc; subst. rewrite fold_left_app. cbn [fold_left]. destruct c as [op|p]; cbn [apply_call].
    - destruct (add_fields (fold_left apply_call l d) op) as (-> & _). now apply IH.
    - unfold get_plural_forms. destruct (pf_valid (d_plural (fold_left apply_call l d))) eqn:V; [congruence|].
      cbn [set_plural_forms d_plural]. cbn in H2. congruence.
  Qed.
  Lemma plural_path lang cs path : fst (fst (pload cf fs lang (rev path) (new_dictionary cs))) = Ret tt ->
    forms_of (snd (fst (pload cf fs lang (rev path) (new_dictionary cs)))) =
    first_some (fun p => forms_of (alone lang cs p)) (rev path).
  Proof.
    intro H.
    assert (A : forall p, In p (rev path) -> fst (fst (pload cf fs lang [p] (new_dictionary cs))) = Ret tt) by (now apply pload_member).
    assert (G : forall ps d d1 t, (forall p, In p ps -> fst (fst (pload cf fs lang [p] (new_dictionary cs))) = Ret tt) ->
       d_charset d = cs -> (pf_valid (d_plural d) = false -> d_plural d = pf_none) ->
       pload cf fs lang ps d = (Ret tt, d1, t) ->
       forms_of d1 = match forms_of d with Some f => Some f | None => first_some (fun p => forms_of (alone lang cs p)) ps end).
    { clear. induction ps as [|p ps IH]; intros d d1 t A C V; cbn [pload first_some].
      - intro H. injection H as <- <-. now destruct (forms_of d).
      - destruct (pdir cf fs lang p d) as [[[[]|e|u| |] d'] t'] eqn:E; try discriminate.
        destruct (pload cf fs lang ps d') as [[o d''] t''] eqn:L. intro H. injection H as -> <- <-.
        pose proof (kept_dir cf fs lang p d) as [K _]. rewrite E in K. cbn [fst snd] in K. apply pdir_calls in E. rewrite C in *.
        assert (V' : pf_valid (d_plural d') = false -> d_plural d' = pf_none).
        { rewrite E. apply plural_inv; [apply proper_dir|exact V]. }
        rewrite (IH d' d'' t'' (fun p Hp => A p (or_intror Hp)) K V' L).
        rewrite (alone_calls lang cs p (A p (or_introl eq_refl))).
        pose proof (plural_calls (dir_calls lang cs p) d (new_dictionary cs) (proper_dir lang cs p) eq_refl V) as X. rewrite <- E in X.
        unfold forms_of. rewrite X. destruct (pf_valid (d_plural d)) eqn:W; rewrite ?W; [reflexivity|].
        destruct (pf_valid (d_plural (fold_left _ _ _))) eqn:W'; reflexivity. }
    destruct (pload cf fs lang (rev path) (new_dictionary cs)) as [[o d] t] eqn:E. cbn [fst snd] in *. subst o.
    rewrite (G (rev path) (new_dictionary cs) d t A eq_refl (fun _ => eq_refl) E). reflexivity.
  Qed.
End Content.
