(** Properties C49 and C50: file names and languages. *)
From Verif.Model Require Import Base Log PluralForms Dictionary IConv Language Stream PoParser Manager.
From Verif.Spec Require Import DictSpec LangSpec IConvSpec ParserSpec ManagerSpec.
From Verif.Proofs Require Import BaseFacts DictProofs LangProofs ManagerOwn ManagerGet ManagerStep ManagerFiles.
From Verif.Properties Require Import Parser Manager.
Local Open Scope list_scope.

(** C49. If all directories can be listed, get_languages returns a set (sorted, no
    duplicates): exactly the from_env(stem) of the files stem.po. It does not change
    the manager. *)
Theorem C49_languages_of_the_files :
  forall (cf : config) (fs : file_system) (m : manager),
  (forall p, In p (m_path m) -> exists files, fs_dir fs p = Ret files /\ forall f, In f files -> real_string f) ->
  exists ls, mstep cf fs OpGetLanguages m = (Ret (OutLangs ls), m) /\
    (forall i j a b, i < j -> nth_error ls i = Some a -> nth_error ls j = Some b -> lang_ltb a b = true) /\ NoDup ls /\
    forall l, In l ls <->
      exists p files stem, In p (m_path m) /\ fs_dir fs p = Ret files /\ In (stem ++ bs ".po") files /\
        from_env (cf_ndebug cf) stem = Ret l.
Proof.
  intros cf fs m H. destruct (langs_dirs cf fs (m_path m) [] (Forall_nil _) Logic.I) as (r & E & Kr & A & M).
  - intros p files Hp D f Hf. destruct (H p Hp) as (files' & D' & R). rewrite D in D'. injection D' as <-. auto.
  - intros p Hp. destruct (H p Hp) as (files & D & _). eauto.
  - exists r. rewrite do_get_languages, E. split; [reflexivity|]. split; [exact (asc_ordered r A)|]. split.
    + clear -A. induction r as [|x r IH]; [constructor|]. destruct A as [F A]. constructor; [|now apply IH].
      intro I. rewrite Forall_forall in F. specialize (F x I). now rewrite lang_ltb_irrefl in F.
    + intro l. rewrite M. split.
      * intros [[]|(p & files & f & Hp & D & Hf & (t & -> & El))]. exists p, files, t. auto.
      * intros (p & files & t & Hp & D & Hf & El). right. exists p, files, (t ++ dot_po). repeat split; auto. now exists t.
Qed.

(** If a directory cannot be listed, its exception escapes and nothing changes. *)
Theorem C49_unreadable_directory :
  forall (cf : config) (fs : file_system) (m : manager) (pre post : list bytes) (p : bytes) (e : exn),
  m_path m = pre ++ p :: post ->
  (forall x, In x pre -> exists files, fs_dir fs x = Ret files /\ forall f, In f files -> real_string f) ->
  fs_dir fs p = Exn e ->
  mstep cf fs OpGetLanguages m = (Exn e, m).
Proof.
  intros cf fs m pre post p e P H E. rewrite do_get_languages, P, (langs_fail cf fs pre p post e [] H E). reflexivity.
Qed.

(** Violation 1: any .po file whose name is not a known language puts the undefined
    language into the set, and with asserts enabled get_dictionary aborts on it. *)
Theorem C49_undefined_language_is_listed :
  forall (cf : config) (fs : file_system) (m : manager) (p stem : bytes) (files : list bytes),
  (forall p, In p (m_path m) -> exists files, fs_dir fs p = Ret files /\ forall f, In f files -> real_string f) ->
  In p (m_path m) -> fs_dir fs p = Ret files -> In (stem ++ bs ".po") files ->
  from_env (cf_ndebug cf) stem = Ret None ->
  (exists ls, mstep cf fs OpGetLanguages m = (Ret (OutLangs ls), m) /\ In None ls) /\
  (cf_ndebug cf = false -> mstep cf fs (OpGetDictionaryLang None) m = (AssertFail, m)).
Proof.
  intros cf fs m p stem files H Hp D I E. split.
  - destruct (C49_languages_of_the_files cf fs m H) as (ls & S & _ & _ & M). exists ls. split; [exact S|]. apply M. eauto 10.
  - intro N. rewrite (do_get_lang cf fs None m Logic.I). unfold get_state, leaf_outcome, leaf_state, asserts. rewrite N. reflexivity.
Qed.

(** Violation 2: for every language of the table with a country and no modifier, a
    file named after it with the country in lower case (zh_tw.po) is the one
    get_dictionary takes for that language, but get_languages lists another one. *)
Theorem C49_lower_case_country :
  forall (cf : config) (s : language_spec),
  In s languages -> get_country (Some s) <> [] -> get_modifier (Some s) = [] ->
  let stem := get_language (Some s) ++ bs "_" ++ List.map tolower (get_country (Some s)) in
  po_language cf (stem ++ bs ".po") = Some s /\
  exists l, from_env (cf_ndebug cf) stem = Ret l /\ l <> Some s.
Proof.
  intros cf s I Co Mo stem.
  assert (H : forall st nd, let cf := {| cf_pedantic := true; cf_strict := st; cf_ndebug := nd; cf_fuel := 0; cf_iconv := ex_iconv |} in
     forallb (fun s => let stem := get_language (Some s) ++ bs "_" ++ List.map tolower (get_country (Some s)) in
       is_nil (get_country (Some s)) || negb (is_nil (get_modifier (Some s))) ||
       lang_eqb (po_language cf (stem ++ bs ".po")) (Some s) &&
       match from_env nd stem with Ret l => negb (lang_eqb l (Some s)) | _ => false end) languages = true)
    by (intros [] []; vm_compute; reflexivity).
  specialize (H (cf_strict cf) (cf_ndebug cf)). cbv zeta in H. rewrite forallb_forall in H. specialize (H s I). fold stem in H.
  destruct (get_country (Some s)) as [|c x]; [contradiction|]. rewrite Mo in H. cbn [is_nil negb orb] in H.
  apply andb_true_iff in H as [H1 H2].
  match type of H1 with lang_eqb (po_language ?c _) _ = true =>
    assert (E : po_language cf (stem ++ bs ".po") = po_language c (stem ++ bs ".po")) by reflexivity end.
  rewrite <- E in H1. split.
  - assert (K : known (po_language cf (stem ++ bs ".po"))).
    { unfold po_language. destruct (has_suffix _ _); [|exact Logic.I]. destruct (convertFilename2Language _ _) as [t|?|?| |]; try exact Logic.I.
      destruct (from_env (cf_ndebug cf) t) as [l|?|?| |] eqn:F; try exact Logic.I. now apply from_env_known in F. }
    now apply (lang_eqb_eq _ (Some s) K I).
  - destruct (from_env (cf_ndebug cf) stem) as [l|?|?| |]; try discriminate H2. exists l. split; [reflexivity|]. intros ->.
    now rewrite lang_eqb_refl in H2.
Qed.

Example C49_nonvacuous :
  from_env false (bs "klingon") = Ret None /\
  fst (mstep ex_cf {| fs_dir := fun _ => Ret [bs "de.po"; bs "klingon.po"; bs "x"; bs "zh_tw.po"]; fs_file := fun _ => Ret None |}
         OpGetLanguages (fresh ex_cf ex_fs utf8 [bs "d"]))
  = Ret (OutLangs [None; lang (bs "de"); lang (bs "zh")]) /\
  po_language ex_cf (bs "zh_tw.po") = lang (bs "zh_TW") /\
  List.map (fun s => str (Some s)) (List.filter (fun s => negb (is_nil (get_country (Some s))) && is_nil (get_modifier (Some s))) (firstn 12 languages))
  = [bs "af_ZA"; bs "ar_AR"; bs "ar_OM"; bs "ar_SA"; bs "ar_SY"; bs "ar_TN"].
Proof. vm_compute. repeat split. Qed.

(** C50. convertFilename2Language on names that fit in memory. *)
Theorem C50_conversion :
  forall (strict : bool) (s : bytes), real_string s -> 3 <= length s ->
  exists t, stripped s t /\
  ((exists r, convertFilename2Language strict s = Ret r /\ country_upper t r) \/
   (strict = true /\ convertFilename2Language strict s = Ub UbCtype /\ stops_at_negative t)).
Proof.
  intros strict s R L. destruct (convert_spec strict s R L) as (t & S & ->). exists t. split; [exact S|]. apply upcase_spec.
Qed.
Theorem C50_throws_iff_short :
  forall (strict : bool) (s : bytes), real_string s ->
  (convertFilename2Language strict s = Exn ExOutOfRange <-> length s < 3).
Proof.
  intros strict s R. split; [|apply convert_short]. intro E. destruct (Nat.lt_ge_cases (length s) 3) as [|L]; [assumption|].
  destruct (C50_conversion strict s R L) as (t & _ & [(r & X & _)|(_ & X & _)]); congruence.
Qed.
(** the specification determines the result *)
Theorem C50_result_unique :
  forall s t t' r r', stripped s t -> stripped s t' -> country_upper t r -> country_upper t' r' -> r = r'.
Proof.
  assert (U : forall c c1 c2, upper_of c c1 -> upper_of c c2 -> c1 = c2).
  { intros c c1 c2 [[H1 E1]|[H1 E1]] [[H2 E2]|[H2 E2]]; try (exfalso; lia); [|congruence].
    rewrite <- (ascii_N_embedding c1), <- (ascii_N_embedding c2). unfold code in *. congruence. }
  assert (U2 : forall b b1 b2, Forall2 upper_of b b1 -> Forall2 upper_of b b2 -> b1 = b2).
  { induction b; intros b1 b2 H1 H2; inversion H1; inversion H2; subst; [reflexivity|]. f_equal; eauto. }
  assert (P : forall (x : byte) (a a' u u' : bytes), ~ In x a -> ~ In x a' -> a ++ x :: u = a' ++ x :: u' -> a = a' /\ u = u').
  { intro x. induction a as [|y a IH]; intros [|y' a'] u u' N N' E; cbn [app] in E; [|injection E as E1 E2..].
    - injection E as E. auto.
    - subst. exfalso. apply N'. now left.
    - subst. exfalso. apply N. now left.
    - subst. destruct (IH a' u u') as [-> ->]; auto; intro; [apply N|apply N']; now right. }
  assert (Q : forall b b' c c', b ++ c = b' ++ c' -> Forall letter b -> Forall letter b' ->
     match c with [] => True | x :: _ => ~ letter x end -> match c' with [] => True | x :: _ => ~ letter x end -> b = b' /\ c = c').
  { induction b as [|x b IH]; intros [|y b'] c c' E L L' N N'; cbn [app] in E.
    - auto.
    - subst c. inversion L'; subst. contradiction.
    - subst c'. inversion L; subst. contradiction.
    - injection E as <- E. inversion L; inversion L'; subst. destruct (IH b' c c') as [-> ->]; auto. }
  intros s t t' r r' S S' C C'.
  assert (t = t').
  { destruct S as [S|[N S]], S' as [S'|[N' S']].
    - rewrite S in S'. now apply app_inv_tail in S'.
    - exfalso. now apply (N' t).
    - exfalso. now apply (N t').
    - congruence. }
  subst t'. destruct C as [[N ->]|(a & b & b1 & c & -> & -> & A & L & F & Nc)], C' as [[N' ->]|(a' & b' & b1' & c' & E' & -> & A' & L' & F' & Nc')].
  - reflexivity.
  - exfalso. apply N. rewrite E'. apply in_or_app. right. now left.
  - exfalso. apply N'. apply in_or_app. right. now left.
  - apply P in E' as [<- E']; auto. apply Q in E' as [<- <-]; auto. now rewrite (U2 _ _ _ F F').
Qed.
(** The language a file name stands for when dictionaries are loaded (the vocabulary of
    C43-C46 and C64): none if the name does not end in .po, else from_env of the converted
    rest. *)
Theorem C50_file_language :
  forall (cf : config) (f : bytes), real_string f ->
  ((forall t, f <> t ++ bs ".po") -> po_language cf f = None) /\
  (forall t r, f = t ++ bs ".po" -> country_upper t r -> ~ (cf_strict cf = true /\ stops_at_negative t) ->
     from_env (cf_ndebug cf) r = Ret (po_language cf f)).
Proof.
  intros cf f R. split.
  - intro N. unfold po_language. destruct (has_suffix f dot_po) eqn:S; [|reflexivity].
    apply suffix_split in S as (t & E). destruct (N t E).
  - intros t r E C Nn. unfold po_language. rewrite (proj2 (suffix_split f)) by now exists t.
    assert (L : 3 <= length f) by (rewrite E, app_length; change (length (bs ".po")) with 3; lia).
    assert (St : stripped f t) by now left.
    destruct (C50_conversion (cf_strict cf) f R L) as (t' & St' & [(r' & -> & C')|(S & _ & B)]).
    + rewrite (C50_result_unique f t t' r r' St St' C C'). destruct (from_env_total (cf_ndebug cf) r') as (l & ->). reflexivity.
    + exfalso. apply Nn. split; [exact S|]. destruct St' as [E'|[N' _]]; [|now destruct (N' t)].
      rewrite E in E'. apply app_inv_tail in E'. now subst.
Qed.
Example C50_nonvacuous :
  convertFilename2Language true (bs "sr_rs.utf-8@latin_x.po") = Ret (bs "sr_RS.utf-8@latin_x") /\
  convertFilename2Language true (bs "de") = Exn ExOutOfRange /\
  convertFilename2Language true (bs "pt_br") = Ret (bs "pt_BR") /\
  convertFilename2Language true (bs "de_" ++ [chr 233] ++ bs ".po") = Ub UbCtype /\
  convertFilename2Language false (bs "de_" ++ [chr 233] ++ bs ".po") = Ret (bs "de_" ++ [chr 233]).
Proof. vm_compute. repeat split. Qed.

Print Assumptions C49_languages_of_the_files.
Print Assumptions C49_unreadable_directory.
Print Assumptions C49_undefined_language_is_listed.
Print Assumptions C49_lower_case_country.
Print Assumptions C50_conversion.
Print Assumptions C50_throws_iff_short.
Print Assumptions C50_result_unique.
Print Assumptions C50_file_language.
