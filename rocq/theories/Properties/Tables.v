(** Property C93: the library's static tables when memory runs out while they are filled. *)
From Verif.Model Require Import Base PluralForms LanguageTable Language Tables.
From Verif.Spec Require Import LangSpec TablesSpec.
From Verif.Proofs Require Import BaseFacts PluralProofs LangProofs MemoryProofs TablesProofs.
Local Open Scope list_scope.
Local Opaque languages.

(** C93. As long as no call has reported std::bad_alloc, every call answers what the complete
    tables say, or reports std::bad_alloc itself; and it does answer if it has memory. *)
Theorem C93_no_failure_yet :
  forall (strict nd : bool) (calls : list (luck * tcall)) (k : luck) (c : tcall),
  untroubled strict nd calls no_tables ->
  let r := fst (tcall_step strict nd k c (tables_after strict nd calls no_tables)) in
  (r = Exn bad_alloc \/ r = right_answer strict nd c) /\
  (plenty k -> r = right_answer strict nd c).
Proof.
  intros strict nd calls k c U r. 
  assert (W : whole (tables_after strict nd calls no_tables)).
  { apply after_whole; [split; [|split]; now left|exact U]. }
  pose proof (step_right strict nd k c _ W) as H. fold r in H. split; [exact H|]. intro P.
  destruct H as [H|H]; [|exact H]. destruct (step_plenty strict nd k c (tables_after strict nd calls no_tables) P H).
Qed.

(** After any calls with any failures: nothing of the language table is there, so that the
    next call fills it; or the first [n] rows are there - and possibly one language more, with
    no row - and it stays so in the life of the program, whatever memory there is: [from_spec]
    knows the rest of the languages no more, and on the one without rows it runs into
    its assertion. *)
Theorem C93_languages_after_failures :
  forall (strict nd : bool) (calls : list (luck * tcall)),
  let t := tables_after strict nd calls no_tables in
  tb_langs t = [] \/
  exists (n : nat) (blank : option bytes), n <= length languages /\
    forall (later : list (luck * tcall)) (k : luck) (la co mo : bytes),
    fst (from_spec_mem nd k la co mo (tables_after strict nd later t)) =
      if match blank with Some b => bytes_eqb la b | None => false end
      then (if nd then Ret None else AssertFail)
      else from_rows (firstn n languages) nd la co mo.
Proof.
  intros strict nd calls t. destruct (after_inv strict nd calls _ start_inv) as ([H|(n & blank & S)] & _); [now left|right].
  fold t in S. destruct S as (NN & L & A). exists n, blank. split; [exact L|]. intros later k la co mo.
  assert (E : tb_langs (tables_after strict nd later t) = tb_langs t) by now apply after_keeps.
  rewrite spec_keeps by now rewrite E. cbn [fst]. rewrite E. specialize (A la).
  destruct (match blank with Some b => bytes_eqb la b | None => false end); [now apply select_blank|now apply select_rows].
Qed.

(** The same for the names of languages: an alias beyond the first [n] is taken for a locale
    name itself, and one may be there with the empty string for its locale name. *)
Theorem C93_aliases_after_failures :
  forall (strict nd : bool) (calls : list (luck * tcall)),
  let t := tables_after strict nd calls no_tables in
  tb_aliases t = [] \/
  exists (n : nat) (blank : option bytes), n <= length aliases /\
    forall (later : list (luck * tcall)) (k : luck) (name : bytes),
    (strict && existsb hi name)%bool = false -> lk_before k = true ->
    let t' := tables_after strict nd later t in
    from_name_mem strict nd k name t' =
      from_env_mem nd k (match looked_up aliases n blank [] (List.map tolower name) with
                         | Some r => r | None => name end) t'.
Proof.
  intros strict nd calls t. destruct (after_inv strict nd calls _ start_inv) as (_ & [H|(n & blank & S)] & _); [now left|right].
  fold t in S. destruct S as (NN & L & A). exists n, blank. split; [exact L|]. intros later k name Hs Hb t'.
  assert (E : tb_aliases t' = tb_aliases t) by now apply after_keeps.
  unfold from_name_mem. destruct (fill_aliases (lk_aliases k) (tb_aliases t')) as [ok m] eqn:F.
  destruct (proj1 (fill_pairs_ok _ _ _ _ _ _ _ _ rows_a aliases_nodup F)) as [-> ->]; [now rewrite E|].
  rewrite Hs, Hb. cbn [andb]. rewrite E. rewrite (A (List.map tolower name)). rewrite <- E. now destruct t'.
Qed.

(** ... and for the plural rules. *)
Theorem C93_plural_rules_after_failures :
  forall (strict nd : bool) (calls : list (luck * tcall)),
  let t := tables_after strict nd calls no_tables in
  tb_plurals t = [] \/
  exists n : nat, n <= length plural_table /\
    forall (later : list (luck * tcall)) (k : luck) (s : bytes),
    (strict && existsb hi s)%bool = false -> lk_after k = true ->
    fst (from_string_mem strict k s (tables_after strict nd later t)) =
      Ret (match assoc (strip_spaces s) (firstn n plural_table) with Some p => p | None => pf_none end).
Proof.
  intros strict nd calls t. destruct (after_inv strict nd calls _ start_inv) as (_ & _ & [H|(n & S)]); [now left|right].
  fold t in S. destruct S as (NN & L & A). exists n. split; [exact L|]. intros later k s Hs Ha.
  set (t' := tables_after strict nd later t).
  assert (E : tb_plurals t' = tb_plurals t) by now apply after_keeps.
  unfold from_string_mem. destruct (fill_plurals (lk_plurals k) (tb_plurals t')) as [ok m] eqn:F.
  destruct (proj1 (fill_pairs_ok _ _ _ _ _ _ _ _ rows_p plural_table_nodup F)) as [-> ->]; [now rewrite E|].
  rewrite Hs, Ha. cbn [andb fst]. rewrite E. rewrite (A (strip_spaces s)). unfold looked_up.
  destruct (assoc _ (firstn n plural_table)); reflexivity.
Qed.

(** These are no idle fears: for every language but that of the first row, one call
    that runs out of memory makes it unknown for the life of the program ... *)
Definition luck_langs (n : nat) : luck :=
  {| lk_aliases := fun _ => true; lk_langs := fun i => i <? n; lk_plurals := fun _ => true; lk_before := true; lk_after := true |}.
Lemma code_absent s l1 l2 : languages = l1 ++ s :: l2 -> (forall x, In x l1 -> ls_language x <> ls_language s) ->
  nth_error languages (length l1) = Some s /\ firstn (length l1) languages = l1 /\
  assoc (ls_language s) (full ls_language [] (fun v s => v ++ [s]) (firstn (length l1) languages) []) = None.
Proof.
  intros E H. assert (F : firstn (length l1) languages = l1).
  { rewrite E. rewrite firstn_app, Nat.sub_diag, firstn_all. cbn [firstn]. now rewrite app_nil_r. }
  split; [rewrite E, nth_error_app2, Nat.sub_diag by lia; reflexivity|]. split; [exact F|]. rewrite F, lfull_assoc. unfold of_rows.
  assert (X : List.filter (fun x => bytes_eqb (ls_language x) (ls_language s)) l1 = []).
  { clear - H. induction l1 as [|x l1 IH]; [reflexivity|]. cbn [List.filter]. destruct (bytes_eqb_spec (ls_language x) (ls_language s)) as [X|_].
    - destruct (H x (or_introl eq_refl) X).
    - apply IH. intros y Hy. apply H. now right. }
  now rewrite X.
Qed.
Lemma first_row (s : language_spec) : In s languages -> exists s0 l1 l2, languages = l1 ++ s0 :: l2 /\ ls_language s0 = ls_language s /\
  (forall x, In x l1 -> ls_language x <> ls_language s0).
Proof.
  generalize languages. intros l H. induction l as [|x l IH]; [destruct H|].
  destruct (list_eq_dec Ascii.ascii_dec (ls_language x) (ls_language s)) as [E|N].
  - exists x, [], l. split; [reflexivity|]. split; [exact E|]. intros y [].
  - destruct H as [->|H]; [congruence|]. destruct (IH H) as (s0 & l1 & l2 & E1 & E2 & E3). exists s0, (x :: l1), l2.
    split; [now rewrite E1|]. split; [exact E2|]. intros y [<-|Hy]; [congruence|now apply E3].
Qed.
Lemma head_code s l1 l2 : languages = l1 ++ s :: l2 -> ls_language s <> hd [] (List.map ls_language languages) -> l1 <> [].
Proof. intros E N ->. cbn [app] in E. apply N. rewrite E. reflexivity. Qed.
Theorem C93_a_language_is_lost :
  forall (strict nd : bool) (s : language_spec),
  In s languages -> ls_language s <> hd [] (List.map ls_language languages) ->
  exists k : luck, forall (la0 co0 mo0 : bytes),
    fst (from_spec_mem nd k la0 co0 mo0 no_tables) = Exn bad_alloc /\
    forall (later : list (luck * tcall)) (k' : luck) (co mo : bytes),
    fst (from_spec_mem nd k' (ls_language s) co mo
           (tables_after strict nd later (snd (from_spec_mem nd k la0 co0 mo0 no_tables)))) = Ret None.
Proof.
  intros strict nd s Hs Hh. destruct (first_row s Hs) as (s0 & l1 & l2 & E & Ec & N). rewrite <- Ec in Hh |- *.
  destruct (code_absent s0 l1 l2 E N) as (H1 & H2 & H3). pose proof (head_code _ _ _ E Hh) as NE.
  exists (luck_langs (2 * length l1)). intros la0 co0 mo0.
  pose proof (fill_cut ls_language [] (fun v s => v ++ [s]) true (length l1) languages 0 [] s0 H1 (or_introl eq_refl)) as F.
  cbn [plus] in F. unfold from_spec_mem at 1 3, fill_langs, fill_if_empty. cbn [no_tables tb_langs is_nil luck_langs lk_langs].
  rewrite F. cbn [fst snd]. split; [reflexivity|]. intros later k' co mo.
  set (t := {| tb_langs := _; tb_aliases := _; tb_plurals := _ |}).
  assert (NN : tb_langs t <> []).
  { subst t. cbn [tb_langs]. intro X. apply full_nil in X as [X|X]; [destruct l1; [now apply NE|discriminate]|now apply rows_l]. }
  assert (E' : tb_langs (tables_after strict nd later t) = tb_langs t) by now apply after_keeps.
  rewrite spec_keeps by now rewrite E'. cbn [fst]. rewrite E'. subst t. cbn [tb_langs]. unfold select_spec. now rewrite H3.
Qed.

(** ... or makes the program abort whenever it is asked for (without assertions it is unknown
    then). *)
Theorem C93_a_language_becomes_fatal :
  forall (strict nd : bool) (s : language_spec),
  In s languages ->
  exists k : luck, forall (la0 co0 mo0 : bytes),
    fst (from_spec_mem nd k la0 co0 mo0 no_tables) = Exn bad_alloc /\
    forall (later : list (luck * tcall)) (k' : luck) (co mo : bytes),
    fst (from_spec_mem nd k' (ls_language s) co mo
           (tables_after strict nd later (snd (from_spec_mem nd k la0 co0 mo0 no_tables)))) =
    if nd then Ret None else AssertFail.
Proof.
  intros strict nd s Hs. destruct (first_row s Hs) as (s0 & l1 & l2 & E & Ec & N). rewrite <- Ec.
  destruct (code_absent s0 l1 l2 E N) as (H1 & H2 & H3).
  exists (luck_langs (S (2 * length l1))). intros la0 co0 mo0.
  pose proof (fill_blank ls_language [] (fun v s => v ++ [s]) true (length l1) languages 0 [] s0 H1 eq_refl H3) as F.
  cbn [plus] in F. unfold from_spec_mem at 1 3, fill_langs, fill_if_empty. cbn [no_tables tb_langs is_nil luck_langs lk_langs].
  rewrite F. cbn [fst snd]. split; [reflexivity|]. intros later k' co mo.
  set (t := {| tb_langs := _; tb_aliases := _; tb_plurals := _ |}).
  assert (NN : tb_langs t <> []) by (subst t; cbn [tb_langs]; apply assoc_set_nonnil).
  assert (E' : tb_langs (tables_after strict nd later t) = tb_langs t) by now apply after_keeps.
  rewrite spec_keeps by now rewrite E'. cbn [fst]. rewrite E'. subst t. cbn [tb_langs]. apply select_blank, assoc_set_same.
Qed.

(** Every alias can come to denote no language at all ... *)
Theorem C93_an_alias_is_lost :
  forall (strict nd : bool) (name locale : bytes),
  In (name, locale) aliases -> List.map tolower name = name -> (strict && existsb hi name)%bool = false ->
  exists k : luck, forall (name0 : bytes),
    fst (from_name_mem strict nd k name0 no_tables) = Exn bad_alloc /\
    forall (k' : luck), plenty k' ->
    fst (from_name_mem strict nd k' name (snd (from_name_mem strict nd k name0 no_tables))) = Ret None.
Proof.
  intros strict nd name locale I Lo Hs. apply in_split in I as (l1 & l2 & E).
  assert (F : firstn (length l1) aliases = l1).
  { rewrite E. rewrite firstn_app, Nat.sub_diag, firstn_all. cbn [firstn]. now rewrite app_nil_r. }
  assert (H1 : nth_error aliases (length l1) = Some (name, locale)) by (rewrite E, nth_error_app2, Nat.sub_diag by lia; reflexivity).
  assert (H3 : assoc name (full fst [] (fun (_ : bytes) (r : bytes * bytes) => snd r) (firstn (length l1) aliases) []) = None).
  { rewrite pfull_assoc by (rewrite firstn_map; apply NoDup_firstn, aliases_nodup). rewrite F. apply assoc_None.
    pose proof aliases_nodup as ND. rewrite E in ND. rewrite map_app in ND. cbn [List.map fst] in ND. apply NoDup_remove_2 in ND.
    intro X. apply ND, in_or_app. now left. }
  exists {| lk_aliases := fun i => i <? S (2 * length l1); lk_langs := fun _ => true; lk_plurals := fun _ => true;
            lk_before := true; lk_after := true |}. intro name0.
  pose proof (fill_blank fst [] (fun (_ : bytes) (r : bytes * bytes) => snd r) true (length l1) aliases 0 [] (name, locale) H1 eq_refl H3) as G.
  cbn [plus fst] in G. unfold from_name_mem at 1 3, fill_aliases, fill_if_empty. cbn [no_tables tb_aliases tb_langs tb_plurals is_nil lk_aliases].
  rewrite G. cbn [fst snd andb]. split; [reflexivity|]. intros k' P.
  set (t := {| tb_langs := _; tb_aliases := _; tb_plurals := _ |}).
  assert (NN : tb_aliases t <> []) by (subst t; cbn [tb_aliases]; apply assoc_set_nonnil).
  unfold from_name_mem. destruct (fill_aliases (lk_aliases k') (tb_aliases t)) as [ok m] eqn:Fa.
  destruct (proj1 (fill_pairs_ok _ _ _ _ _ _ _ _ rows_a aliases_nodup Fa) NN) as [-> ->].
  destruct P as (P1 & P2 & P3 & P4 & P5). rewrite Hs, P4. cbn [andb]. rewrite Lo.
  replace (assoc name (tb_aliases t)) with (Some (@nil Ascii.ascii)) by (symmetry; subst t; cbn [tb_aliases]; apply assoc_set_same).
  pose proof (env_right nd k' [] {| tb_langs := tb_langs t; tb_aliases := tb_aliases t; tb_plurals := tb_plurals t |} (or_introl eq_refl)) as H.
  destruct H as [H|H].
  - destruct (env_plenty nd k' [] _ (conj P1 (conj P2 (conj P3 (conj P4 P5)))) H).
  - cbv beta iota. rewrite H. destruct nd; vm_compute; reflexivity.
Qed.

(** ... and every plural rule but the first can be lost. *)
Theorem C93_a_plural_rule_is_lost :
  forall (strict nd : bool) (rule : bytes) (p : plural_forms),
  In (rule, p) plural_table -> rule <> hd [] (List.map fst plural_table) -> strip_spaces rule = rule ->
  (strict && existsb hi rule)%bool = false ->
  exists k : luck, forall (s0 : bytes),
    fst (from_string_mem strict k s0 no_tables) = Exn bad_alloc /\
    forall (later : list (luck * tcall)) (k' : luck), lk_after k' = true ->
    fst (from_string_mem strict k' rule
           (tables_after strict nd later (snd (from_string_mem strict k s0 no_tables)))) = Ret pf_none.
Proof.
  intros strict nd rule p I Nh Lo Hs. apply in_split in I as (l1 & l2 & E).
  assert (F : firstn (length l1) plural_table = l1).
  { rewrite E. rewrite firstn_app, Nat.sub_diag, firstn_all. cbn [firstn]. now rewrite app_nil_r. }
  assert (H1 : nth_error plural_table (length l1) = Some (rule, p)) by (rewrite E, nth_error_app2, Nat.sub_diag by lia; reflexivity).
  assert (H3 : assoc rule (full fst pf_none (fun (_ : plural_forms) (r : bytes * plural_forms) => snd r) (firstn (length l1) plural_table) []) = None).
  { rewrite pfull_assoc by (rewrite firstn_map; apply NoDup_firstn, plural_table_nodup). rewrite F. apply assoc_None.
    pose proof plural_table_nodup as ND. rewrite E in ND. rewrite map_app in ND. cbn [List.map fst] in ND. apply NoDup_remove_2 in ND.
    intro X. apply ND, in_or_app. now left. }
  exists {| lk_aliases := fun _ => true; lk_langs := fun _ => true; lk_plurals := fun i => i <? 2 * length l1;
            lk_before := true; lk_after := true |}. intro s0.
  pose proof (fill_cut fst pf_none (fun (_ : plural_forms) (r : bytes * plural_forms) => snd r) false (length l1) plural_table 0 [] (rule, p) H1 (or_intror H3)) as G.
  cbn [plus] in G. unfold from_string_mem at 1 3, fill_plurals, fill_if_empty. cbn [no_tables tb_aliases tb_langs tb_plurals is_nil lk_plurals].
  rewrite G. cbn [fst snd andb]. split; [reflexivity|]. intros later k' P.
  set (t := {| tb_langs := _; tb_aliases := _; tb_plurals := _ |}).
  assert (NN : tb_plurals t <> []).
  { subst t. cbn [tb_plurals]. intro X. apply full_nil in X as [X|X]; [|now apply rows_p].
    destruct l1; [|discriminate]. apply Nh. rewrite E. reflexivity. }
  assert (E' : tb_plurals (tables_after strict nd later t) = tb_plurals t) by now apply after_keeps.
  unfold from_string_mem. destruct (fill_plurals (lk_plurals k') (tb_plurals (tables_after strict nd later t))) as [ok m] eqn:Fa.
  destruct (proj1 (fill_pairs_ok _ _ _ _ _ _ _ _ rows_p plural_table_nodup Fa)) as [-> ->]; [now rewrite E'|].
  rewrite Hs, P, E', Lo. cbn [andb fst]. subst t. cbn [tb_plurals]. now rewrite H3.
Qed.

(** A language that is still known has its country-less base still, on which its
    dictionary falls back: the base of a language comes before it in the table ... *)
Theorem C93_the_base_is_not_lost :
  forall (n : nat) (nd : bool) (s : language_spec),
  In s (firstn n languages) -> ls_language s <> bs "ca" ->
  exists b : language_spec, from_rows (firstn n languages) nd (ls_language s) [] [] = Ret (Some b) /\
    get_country (Some b) = [] /\ get_modifier (Some b) = [] /\ ls_language b = ls_language s.
Proof.
  intros n nd s Hs Hca.
  assert (T : forallb (fun s => match List.filter (fun x => bytes_eqb (ls_language x) (ls_language s)) languages with
                                | b :: _ => is_nil (get_country (Some b)) && is_nil (get_modifier (Some b)) &&
                                            bytes_eqb (c_str (ls_language b)) (ls_language b) || bytes_eqb (ls_language s) (bs "ca")
                                | [] => false end) languages = true) by (vm_compute; reflexivity).
  rewrite forallb_forall in T. assert (Hl : In s languages) by (rewrite <- (firstn_skipn n languages); apply in_or_app; now left).
  specialize (T s Hl). rewrite <- (firstn_skipn n languages), filter_app in T.
  unfold from_rows. set (f := fun x => bytes_eqb (ls_language x) (ls_language s)) in *.
  assert (I : In s (List.filter f (firstn n languages))) by (apply filter_In; split; [exact Hs|apply bytes_eqb_refl]).
  assert (C : forall b, In b (List.filter f (firstn n languages)) -> ls_language b = ls_language s).
  { intros b Hb. apply filter_In in Hb as [_ Hb]. now apply bytes_eqb_eq in Hb. }
  destruct (List.filter f (firstn n languages)) as [|b l]; [destruct I|]. cbn [app] in T.
  apply orb_prop in T as [T|T]; [|apply bytes_eqb_eq in T; contradiction].
  apply andb_prop in T as [T T3]. apply andb_prop in T as [T1 T2]. apply bytes_eqb_eq in T3.
  destruct (is_nil_spec _ (get_country (Some b))) as [Co|]; [|discriminate].
  destruct (is_nil_spec _ (get_modifier (Some b))) as [Mo|]; [|discriminate].
  pose proof (C b (or_introl eq_refl)) as Cb.
  set (tmp := Some _). cbn [fold_left]. unfold best_step at 2.
  assert (M9 : lang_match (Some b) tmp = 9%Z).
  { apply lang_match_nine. subst tmp. rewrite <- Cb. cbn. split; [now rewrite T3|]. split; [exact Co|exact Mo]. }
  rewrite M9. cbn [snd Z.ltb Z.compare].
  assert (K : forall l, fold_left (best_step tmp) l (Some b, 9%Z) = (Some b, 9%Z)).
  { clear. induction l as [|x l IH]; [reflexivity|]. cbn [fold_left]. unfold best_step at 2. cbn [snd].
    pose proof (lang_match_range (Some x) tmp). destruct (Z.ltb_spec 9 (lang_match (Some x) tmp)); [lia|exact IH]. }
  rewrite K. cbn [fst]. exists b. auto.
Qed.

(** ... except for Catalan: a failure after its first row makes Catalan of Spain the base of
    Catalan of Spain, for the life of the program. (The dictionary a manager loads for it then
    is its own fallback, and an untranslated message sends the program into endless
    recursion.) *)
Theorem C93_catalan_becomes_its_own_base :
  forall (strict nd : bool),
  exists (k : luck) (s : language_spec), In s languages /\ str (Some s) = bs "ca_ES@valencia" /\
  get_country (Some s) <> [] /\
  forall la0 co0 mo0, fst (from_spec_mem nd k la0 co0 mo0 no_tables) = Exn bad_alloc /\
    forall (later : list (luck * tcall)) (k' : luck),
    fst (from_spec_mem nd k' (get_language (Some s)) [] []
           (tables_after strict nd later (snd (from_spec_mem nd k la0 co0 mo0 no_tables)))) = Ret (Some s).
Proof.
  intros strict nd. exists (luck_langs (2 * 28)).
  destruct (nth_error languages 27) as [s|] eqn:S; [|vm_compute in S; discriminate]. exists s.
  split; [apply nth_error_In in S; exact S|]. assert (S' : Some s = nth_error languages 27) by now symmetry.
  split; [rewrite S'; vm_compute; reflexivity|]. split; [rewrite S'; vm_compute; discriminate|]. intros la0 co0 mo0.
  destruct (nth_error languages 28) as [s1|] eqn:S1; [|vm_compute in S1; discriminate].
  pose proof (fill_cut ls_language [] (fun v s => v ++ [s]) true 28 languages 0 [] s1 S1 (or_introl eq_refl)) as F.
  change (0 + 2 * 28) with (2 * 28) in F.
  unfold from_spec_mem at 1 3, fill_langs, fill_if_empty. cbn [no_tables tb_langs is_nil luck_langs lk_langs].
  rewrite F. cbn [fst snd]. split; [reflexivity|]. intros later k'.
  set (t := {| tb_langs := _; tb_aliases := _; tb_plurals := _ |}).
  assert (NN : tb_langs t <> []).
  { subst t. cbn [tb_langs]. intro X. apply full_nil in X as [X|X]; [discriminate|now apply rows_l]. }
  assert (E' : tb_langs (tables_after strict nd later t) = tb_langs t) by now apply after_keeps.
  rewrite spec_keeps by now rewrite E'. cbn [fst]. rewrite E'. subst t. cbn [tb_langs].
  rewrite (select_rows nd _ (firstn 28 languages)) by apply lfull_assoc.
  rewrite S'. destruct nd; vm_compute; reflexivity.
Qed.

(** A program that sets a language by name while memory is short: the table gets ten
    of its rows, the call throws; then there is memory again, but German stays unknown, and
    a plural rule is lost after a failure of its own. *)
Example C93_nonvacuous :
  let k := luck_langs 20 in
  let none := {| lk_aliases := fun _ => true; lk_langs := fun _ => true; lk_plurals := fun i => i <? 4; lk_before := true; lk_after := true |} in
  let t := tables_after false false [(k, CallEnv (bs "de_AT")); (none, CallPlural (bs "Plural-Forms: nplurals=2; plural=n != 1;"))] no_tables in
  length languages = 241 /\
  length (tb_langs t) = 4 /\ length (tb_plurals t) = 2 /\
  fst (tcall_step false false k (CallEnv (bs "de_AT")) no_tables) = Exn bad_alloc /\
  fst (tcall_step false false (luck_langs 100) (CallEnv (bs "de_AT")) t) = Ret (AnsLang None) /\
  match right_answer false false (CallEnv (bs "de_AT")) with Ret (AnsLang (Some _)) => True | _ => False end /\
  fst (tcall_step false false (luck_langs 100) (CallPlural (bs "Plural-Forms: nplurals=2; plural=n != 1;")) t) = Ret (AnsPlural pf_none) /\
  right_answer false false (CallPlural (bs "Plural-Forms: nplurals=2; plural=n != 1;")) <> Ret (AnsPlural pf_none) /\
  fst (tcall_step false false (luck_langs 100) (CallSpec (bs "de") [] [])
         (snd (tcall_step false false (luck_langs 1) (CallSpec (bs "de") [] []) no_tables))) = Ret (AnsLang None) /\
  fst (tcall_step false false (luck_langs 100) (CallSpec (ls_language (hd (Build_language_spec 0 [] None None [] None) languages)) [] [])
         (snd (tcall_step false false (luck_langs 1) (CallSpec (bs "de") [] []) no_tables))) = AssertFail.
Proof. vm_compute. repeat split. discriminate. Qed.

(** The hypotheses on aliases and plural rules hold of all rows but the five aliases with a
    capital letter, which are never found (on platforms whose ctype functions take any char). *)
Example C93_rows_nonvacuous :
  length (List.filter (fun r => bytes_eqb (List.map tolower (fst r)) (fst r)) aliases) = 42 /\
  forallb (fun r => bytes_eqb (strip_spaces (fst r)) (fst r) && negb (existsb hi (fst r))) plural_table = true /\
  length aliases = 47 /\ length plural_table = 25 /\
  plenty (Build_luck (fun _ => true) (fun _ => true) (fun _ => true) true true).
Proof. vm_compute. repeat split; reflexivity. Qed.

Print Assumptions C93_no_failure_yet.
Print Assumptions C93_languages_after_failures.
Print Assumptions C93_aliases_after_failures.
Print Assumptions C93_plural_rules_after_failures.
Print Assumptions C93_a_language_is_lost.
Print Assumptions C93_a_language_becomes_fatal.
Print Assumptions C93_an_alias_is_lost.
Print Assumptions C93_a_plural_rule_is_lost.
Print Assumptions C93_the_base_is_not_lost.
Print Assumptions C93_catalan_becomes_its_own_base.
