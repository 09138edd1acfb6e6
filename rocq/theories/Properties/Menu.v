(** Property C104: the language menu - what get_languages offers is what get_dictionary serves. *)
From Verif.Model Require Import Base Log PluralForms Dictionary IConv Language Stream PoParser Manager.
From Verif.Spec Require Import DictSpec LangSpec ParserSpec ManagerSpec LoadSpec.
From Verif.Proofs Require Import BaseFacts LangProofs ManagerLoad ManagerFiles LangMenu.
From Verif.Properties Require Import Parser Manager ManagerFiles ManagerLog.
Local Open Scope list_scope.

(** All directories of [path] can be listed, their file names fit in memory and, if the
    checks of <cctype> are on, contain no country that stops at a byte above 127 (that call
    is undefined, C50). *)
Definition listable (cf : config) (fs : file_system) (path : list bytes) : Prop :=
  forall p, In p path -> exists files, fs_dir fs p = Ret files /\
    forall f, In f files -> real_string f /\ (cf_strict cf = true -> forall t, f = t ++ bs ".po" -> ~ stops_at_negative t).
(** [ls] has a language, not the undefined one, with the language code of [l]. *)
Definition on_menu (ls : list language) (l : language) : Prop :=
  exists l', In l' ls /\ l' <> None /\ get_language l' = get_language l.

Lemma menu_file cf t l : real_string (t ++ bs ".po") -> (cf_strict cf = true -> ~ stops_at_negative t) ->
  from_env (cf_ndebug cf) t = Ret l ->
  (l = None <-> po_language cf (t ++ bs ".po") = None) /\ get_language l = get_language (po_language cf (t ++ bs ".po")).
Proof.
  intros R S H.
  assert (L : 3 <= length (t ++ bs ".po")) by (rewrite app_length; change (length (bs ".po")) with 3; lia).
  assert (Rt : real_string t) by (unfold real_string, size in *; rewrite app_length in R; lia).
  assert (exists r, country_upper t r) as (r & C).
  { destruct (C50_conversion (cf_strict cf) _ R L) as (t' & St & X).
    assert (t' = t) as ->. { destruct St as [E|[N _]]; [symmetry; now apply app_inv_tail in E|now destruct (N t)]. }
    destruct X as [(r & _ & C)|(E & _ & B)]; [eauto|]. now destruct (S E). }
  apply (same_code (cf_ndebug cf) t r l _ Rt C H). apply (proj2 (C50_file_language cf _ R) t r eq_refl C). tauto.
Qed.

(** C104. The languages of the menu, by their codes, are exactly those for which loading
    finds a file. *)
Theorem C104_menu_is_what_loads :
  forall (cf : config) (fs : file_system) (m : manager), listable cf fs (m_path m) ->
  exists ls, mstep cf fs OpGetLanguages m = (Ret (OutLangs ls), m) /\
    forall l, known l -> l <> None ->
      (on_menu ls l <-> exists p files f, In p (m_path m) /\ fs_dir fs p = Ret files /\ In f files /\ candidate cf l f).
Proof.
  intros cf fs m H. destruct (C49_languages_of_the_files cf fs m) as (ls & S & _ & _ & M).
  { intros p Hp. destruct (H p Hp) as (files & D & F). exists files. split; [exact D|]. intros f Hf. apply (F f Hf). }
  exists ls. split; [exact S|]. intros l K N. split.
  - intros (l' & I & N' & E). apply M in I as (p & files & t & Hp & D & Hf & El). exists p, files, (t ++ bs ".po").
    repeat (split; [assumption|]). destruct (H p Hp) as (files' & D' & F). rewrite D in D'. injection D' as <-.
    destruct (F _ Hf) as [R St]. destruct (menu_file cf t l' R (fun e => St e t eq_refl) El) as [X Y].
    unfold candidate. destruct (po_language cf (t ++ bs ".po")) as [s|]; [|destruct N'; now apply X]. exists s. split; [reflexivity|].
    change (ls_language s) with (get_language (Some s)). congruence.
  - intros (p & files & f & Hp & D & Hf & (s & Es & Ec)).
    destruct (H p Hp) as (files' & D' & F). rewrite D in D'. injection D' as <-. destruct (F _ Hf) as [R St].
    assert (exists t, f = t ++ bs ".po") as (t & ->).
    { unfold po_language in Es. destruct (has_suffix f dot_po) eqn:Su; [|discriminate]. now apply suffix_split in Su. }
    destruct (from_env_total (cf_ndebug cf) t) as (l' & El).
    destruct (menu_file cf t l' R (fun e => St e t eq_refl) El) as [X Y]. rewrite Es in X, Y.
    exists l'. split; [apply M; eauto 10|]. split; [intro E; apply X in E; discriminate|]. now rewrite Y.
Qed.

(** A language that is not on the menu has no translations at all: loading it opens no file
    and gives an empty dictionary, with an empty fallback if it has a country. *)
Theorem C104_not_on_the_menu :
  forall (cf : config) (fs : file_system) (cs : bytes) (path : list bytes) (l : language) (ls : list language)
    (o : outcome mout) (m : manager),
  NoDup path -> listable cf fs path -> known l -> l <> None ->
  fst (mstep cf fs OpGetLanguages (fresh cf fs cs path)) = Ret (OutLangs ls) -> ~ on_menu ls l ->
  mstep cf fs (OpGetDictionaryLang l) (fresh cf fs cs path) = (o, m) -> completed o ->
  let e := new_dictionary cs in
  (get_country l = [] /\ gave o m e \/ get_country l <> [] /\ gave_over o m e e) /\
  forall ev, In ev (m_tr m) -> exists p files f, In p path /\ fs_dir fs p = Ret files /\ In f files /\
    po_language cf f = None /\ ev = EvLog (log_warning (f ++ bs ": warning: ignoring, unknown language")).
Proof.
  intros cf fs cs path l ls o m ND Li K N G M E Co e.
  assert (P : m_path (fresh cf fs cs path) = path) by now destruct (ManagerProps.fresh_state cf fs cs path ND) as (_ & _ & -> & _).
  destruct (C104_menu_is_what_loads cf fs (fresh cf fs cs path)) as (ls' & G' & Mn); [now rewrite P|].
  rewrite G' in G. cbn [fst] in G. injection G as ->. rewrite P in Mn.
  assert (Z : forall l', known l' -> l' <> None -> get_language l' = get_language l -> forall ps d x d' t, (forall p, In p ps -> In p path) ->
     path_reads cf fs l' ps d x d' t -> x = None /\ d' = d /\
     forall ev, In ev t -> exists p files f, In p path /\ fs_dir fs p = Ret files /\ In f files /\
       po_language cf f = None /\ ev = EvLog (log_warning (f ++ bs ": warning: ignoring, unknown language"))).
  { intros l' K' N' El.
    assert (No : forall p files f, In p path -> fs_dir fs p = Ret files -> In f files -> ~ candidate cf l' f).
    { intros p files f Hp D Hf (s & Es & Ec). apply M. apply Mn; [assumption..|]. exists p, files, f. repeat (split; [assumption|]).
      exists s. split; [exact Es|]. congruence. }
    assert (Zd : forall p d x d' t, In p path -> dir_reads cf fs l' p d x d' t -> x = None /\ d' = d /\
       forall ev, In ev t -> exists p files f, In p path /\ fs_dir fs p = Ret files /\ In f files /\
         po_language cf f = None /\ ev = EvLog (log_warning (f ++ bs ": warning: ignoring, unknown language"))).
    { intros p d x d' t Hp X. destruct X as [ex D|files D _|bf f af x d' t D C _ _ _].
      - destruct (Li p Hp) as (files & D' & _). congruence.
      - split; [reflexivity|]. split; [reflexivity|]. intros ev I. unfold notes in I. apply in_concat in I as (n & In1 & In2).
        apply in_map_iff in In1 as (f & <- & If). unfold note in In2.
        destruct (ends_po f); [|destruct In2]. destruct (po_language cf f) eqn:Pf; [destruct In2|]. destruct In2 as [<-|[]]. eauto 10.
      - exfalso. apply (No p _ f Hp D); [|exact C]. apply in_or_app. right. now left. }
    induction ps as [|p ps IH]; intros d x d' t Ps X; inversion X; subst.
    - split; [reflexivity|]. split; [reflexivity|]. intros ? [].
    - match goal with A : dir_reads _ _ _ _ _ _ _ _, B : path_reads _ _ _ _ _ _ _ _ |- _ =>
        apply Zd in A as (_ & -> & T1); [|apply Ps; now left]; apply IH in B as (-> & -> & T2); [|intros; apply Ps; now right] end.
      split; [reflexivity|]. split; [reflexivity|]. intros ev I. apply in_app_or in I as [I|I]; auto.
    - match goal with A : dir_reads _ _ _ _ _ _ _ _ |- _ => apply Zd in A as (A & _); [discriminate|apply Ps; now left] end. }
  destruct (C64_loading cf fs cs path l o m ND K E Co) as (x1 & d1 & t1 & R1 & X).
  apply (Z l K N eq_refl) in R1 as (-> & -> & T1); [|intros; now apply in_rev].
  destruct X as [(C & Ga & T)|(C & b & B & x2 & d2 & t2 & R2 & T & Y)].
  - split; [now left|]. now rewrite T.
  - assert (Lb : known (Some b) /\ get_language (Some b) = get_language l).
    { destruct (from_spec_cases (cf_ndebug cf) (get_language l) [] []) as [[X _]|(u1 & s & u2 & X & La & Es & _)]; rewrite B in X; [discriminate|].
      injection X as ->. split; [|exact Es]. cbn [known]. rewrite La. apply in_or_app. right. now left. }
    apply (Z (Some b) (proj1 Lb) ltac:(discriminate) (proj2 Lb)) in R2 as (-> & -> & T2); [|intros; now apply in_rev].
    split; [now right|]. rewrite T. intros ev I. apply in_app_or in I as [I|I]; auto.
Qed.

(** A file named after a language of the table stands for that language ... *)
Theorem C104_own_name :
  forall (cf : config) (s : language_spec), In s languages -> po_language cf (str (Some s) ++ bs ".po") = Some s.
Proof.
  intros cf s I.
  assert (H : forall st nd, let cf := {| cf_pedantic := true; cf_strict := st; cf_ndebug := nd; cf_fuel := 0; cf_iconv := ex_iconv |} in
     forallb (fun s => lang_eqb (po_language cf (str (Some s) ++ bs ".po")) (Some s)) languages = true)
    by (intros [] []; vm_compute; reflexivity).
  specialize (H (cf_strict cf) (cf_ndebug cf)). cbv zeta in H. rewrite forallb_forall in H. specialize (H s I).
  match type of H with lang_eqb (po_language ?c _) _ = true =>
    assert (E : po_language cf (str (Some s) ++ bs ".po") = po_language c (str (Some s) ++ bs ".po")) by reflexivity end.
  rewrite <- E in H.
  assert (K : known (po_language cf (str (Some s) ++ bs ".po"))).
  { unfold po_language. destruct (has_suffix _ _); [|exact Logic.I]. destruct (convertFilename2Language _ _) as [t|?|?| |]; try exact Logic.I.
    destruct (from_env (cf_ndebug cf) t) as [l|?|?| |] eqn:F; try exact Logic.I. now apply from_env_known in F. }
  now apply (lang_eqb_eq _ (Some s) K I).
Qed.

(** ... and of the files of a directory that stand for exactly the language asked for, the
    first is the one loaded, whatever other files there are. *)
Theorem C104_exact_file_wins :
  forall (cf : config) (fs : file_system) (cs p g : bytes) (files : list bytes) (s : language_spec) (m : manager) (d : dictionary),
  In s languages -> fs_dir fs p = Ret files -> In g files -> po_language cf g = Some s ->
  returns cf fs (fresh cf fs cs [p]) (Some s) m d ->
  exists before f after, files = before ++ f :: after /\ po_language cf f = Some s /\
    (forall h, In h before -> po_language cf h <> Some s) /\
    let name := p ++ bs "/" ++ f in
    match fs_file fs name with
    | Ret (Some i) => exists r, parses_to cf name i (new_dictionary cs) r /\
                        (forall k, lookup d k = lookup (pr_dict r) k) /\ get_plural_forms d = get_plural_forms (pr_dict r)
    | _ => forall k, lookup d k = None
    end.
Proof.
  intros cf fs cs p g files s m d I D Ig Eg R.
  destruct (C46_best_file cf fs cs p (Some s) m d I R) as (files' & D' & H). rewrite D in D'. injection D' as <-.
  assert (Rs : lang_match (Some s) (Some s) = 9%Z) by (now apply lang_match_nine).
  destruct H as [(H & _)|(bf & f & af & E & C & H1 & H2 & L)].
  - exfalso. apply (H g Ig). exists s. split; [exact Eg|reflexivity].
  - exists bf, f, af. split; [exact E|].
    assert (Pf : po_language cf f = Some s).
    { destruct C as (s' & Es & _). rewrite Es in H1, H2.
      assert (N : lang_match (Some s) (Some s') = 9%Z).
      { pose proof (lang_match_range (Some s) (Some s')). subst files. apply in_app_or in Ig as [Ig|[<-|Ig]].
        - specialize (H1 g Ig). rewrite Eg, Rs in H1. lia.
        - rewrite Eg in Es. injection Es as <-. exact Rs.
        - specialize (H2 g Ig). rewrite Eg, Rs in H2. lia. }
      apply lang_match_nine in N as (N1 & N2 & N3).
      assert (I' : In s' languages).
      { assert (K : known (po_language cf f)); [|now rewrite Es in K]. unfold po_language.
        destruct (has_suffix _ _); [|exact Logic.I]. destruct (convertFilename2Language _ _) as [t|?|?| |]; try exact Logic.I.
        destruct (from_env (cf_ndebug cf) t) as [l|?|?| |] eqn:F; try exact Logic.I. now apply from_env_known in F. }
      pose proof (spec_roundtrip true s I) as X. rewrite N1, N2, N3, (spec_roundtrip true s' I') in X. now injection X as ->. }
    split; [exact Pf|]. split; [|exact L]. intros h Hh Eh. specialize (H1 h Hh). rewrite Eh, Pf in H1. lia.
Qed.

(** So a client that takes its language from the environment gets the file named after the
    locale, codeset and modifier included, or one listed before it that stands for the same
    language - unless the country is in lower case (C105). *)
Theorem C104_file_of_the_locale :
  forall (cf : config) (fs : file_system) (cs p e : bytes) (files : list bytes) (s : language_spec) (m : manager) (d : dictionary),
  real_string (e ++ bs ".po") -> country_upper e e -> (cf_strict cf = true -> ~ stops_at_negative e) ->
  from_env (cf_ndebug cf) e = Ret (Some s) ->
  fs_dir fs p = Ret files -> In (e ++ bs ".po") files ->
  returns cf fs (fresh cf fs cs [p]) (Some s) m d ->
  exists before f after, files = before ++ f :: after /\ po_language cf f = Some s /\
    (forall h, In h before -> po_language cf h <> Some s /\ h <> e ++ bs ".po") /\
    let name := p ++ bs "/" ++ f in
    match fs_file fs name with
    | Ret (Some i) => exists r, parses_to cf name i (new_dictionary cs) r /\
                        (forall k, lookup d k = lookup (pr_dict r) k) /\ get_plural_forms d = get_plural_forms (pr_dict r)
    | _ => forall k, lookup d k = None
    end.
Proof.
  intros cf fs cs p e files s m d R C S E D I Re.
  assert (P : po_language cf (e ++ bs ".po") = Some s).
  { assert (X : from_env (cf_ndebug cf) e = Ret (po_language cf (e ++ bs ".po"))).
    { apply (proj2 (C50_file_language cf _ R) e e eq_refl C). intros [X Y]. exact (S X Y). }
    congruence. }
  assert (K : In s languages) by (apply (from_env_known _ _ _ E)).
  destruct (C104_exact_file_wins cf fs cs p _ files s m d K D I P Re) as (bf & f & af & H1 & H2 & H3 & H4).
  exists bf, f, af. split; [exact H1|]. split; [exact H2|]. split; [|exact H4]. intros h Hh. split; [now apply H3|]. intros ->. now apply (H3 _ Hh).
Qed.
Example C104_file_of_the_locale_nonvacuous :
  country_upper (bs "de_AT.UTF-8@euro") (bs "de_AT.UTF-8@euro") /\ from_env true (bs "de_AT.UTF-8@euro") = Ret (lang (bs "de_AT")) /\
  lang (bs "de_AT") <> None /\
  exists m d, returns ex_run {| fs_dir := fun _ => Ret [bs "de.po"; bs "de_AT.UTF-8@euro.po"]; fs_file := fs_file ex_fs |}
    (fresh ex_run {| fs_dir := fun _ => Ret [bs "de.po"; bs "de_AT.UTF-8@euro.po"]; fs_file := fs_file ex_fs |} utf8 [bs "lo"]) (lang (bs "de_AT")) m d.
Proof.
  split; [|split; [vm_compute; reflexivity|split; [vm_compute; discriminate|eexists; eexists; eexists; split; vm_compute; reflexivity]]].
  right. exists (bs "de"), (bs "AT"), (bs "AT"), (bs ".UTF-8@euro"). split; [reflexivity|]. split; [reflexivity|].
  split; [vm_compute; intuition discriminate|]. split.
  - repeat (constructor; [left; vm_compute; split; discriminate|]). constructor.
  - split; [repeat (constructor; [right; split; [vm_compute; split; discriminate|reflexivity]|]); constructor|]. vm_compute. intuition discriminate.
Qed.

(** The entries of the menu can be told apart, and found again, by str() ... *)
Theorem C104_str_identifies :
  forall (cf : config) (fs : file_system) (m : manager), listable cf fs (m_path m) ->
  exists ls, mstep cf fs OpGetLanguages m = (Ret (OutLangs ls), m) /\
    NoDup (List.map str ls) /\ forall l, In l ls -> from_env (cf_ndebug cf) (str l) = Ret l.
Proof.
  intros cf fs m H. destruct (C49_languages_of_the_files cf fs m) as (ls & S & _ & ND & M).
  { intros p Hp. destruct (H p Hp) as (files & D & F). exists files. split; [exact D|]. intros f Hf. apply (F f Hf). }
  assert (K : forall l, In l ls -> known l).
  { intros l I. apply M in I as (p & files & t & _ & _ & _ & El). now apply from_env_known in El. }
  exists ls. split; [exact S|]. split; [|intros l I; apply env_roundtrip; auto].
  clear -ND K. induction ND as [|l ls N ND IH]; [constructor|]. cbn [List.map]. constructor.
  - intro I. apply in_map_iff in I as (l' & E & I). apply str_inj in E; [|apply K; now right|apply K; now left]. subst. contradiction.
  - apply IH. intros. apply K. now right.
Qed.

(** ... but (violation) not by get_name(): two files can put two languages of one name on it. *)
Definition two_names : file_system := {| fs_dir := fun _ => Ret [bs "be.po"; bs "be@latin.po"]; fs_file := fun _ => Ret None |}.
Theorem C104_names_can_coincide :
  forall (cf : config) (cs p : bytes), exists a b,
    fst (mstep cf two_names OpGetLanguages (fresh cf two_names cs [p])) = Ret (OutLangs [a; b]) /\
    a <> b /\ get_name a = bs "Belarusian" /\ get_name b = bs "Belarusian".
Proof.
  intros cf cs p. exists (lang (bs "be")), (lang (bs "be@latin")). split; [|vm_compute; repeat split; discriminate].
  destruct cf as [a b [] d e]; vm_compute; reflexivity.
Qed.

Lemma lang_known e : known (lang e).
Proof. unfold lang. destruct (from_env false e) eqn:E; try exact Logic.I. now apply from_env_known in E. Qed.

(** directories with the files of three languages, one in lower case and one unknown *)
Definition menu_fs : file_system := {|
  fs_dir := fun p => Ret (if bytes_eqb p (bs "hi") then [bs "de.po"; bs "klingon.po"; bs "de_AT.po"] else [bs "README"; bs "zh_tw.po"; bs "de_AT.UTF-8.po"]);
  fs_file := fs_file ex_fs |}.
Example C104_nonvacuous :
  (forall cf, listable cf menu_fs [bs "hi"; bs "lo"]) /\
  let ls := [None; lang (bs "de"); lang (bs "de_AT"); lang (bs "zh")] in
  fst (mstep ex_run menu_fs OpGetLanguages (fresh ex_run menu_fs utf8 [bs "hi"; bs "lo"])) = Ret (OutLangs ls) /\
  on_menu ls (lang (bs "zh_CN")) /\ ~ on_menu ls (lang (bs "fr_CA")) /\ known (lang (bs "fr_CA")) /\ lang (bs "fr_CA") <> None /\
  (exists o m, mstep ex_run menu_fs (OpGetDictionaryLang (lang (bs "fr_CA"))) (fresh ex_run menu_fs utf8 [bs "hi"; bs "lo"]) = (o, m) /\
     completed o /\ List.length (m_tr m) = 2) /\
  (exists s m d, In s languages /\ Some s = lang (bs "de_AT") /\ returns ex_run menu_fs (fresh ex_run menu_fs utf8 [bs "hi"]) (Some s) m d).
Proof.
  split.
  - intros cf p _. eexists. split; [reflexivity|]. intros f Hf. split.
    + destruct (bytes_eqb p (bs "hi")); repeat (destruct Hf as [<-|Hf]; [vm_compute; reflexivity|]); destruct Hf.
    + intros _ t Ef (a & b & x & c & Et & _ & _ & _ & B).
      assert (Ix : In x f) by (rewrite Ef, Et; apply in_or_app; left; apply in_or_app; right; right; apply in_or_app; right; now left).
      assert (A : forallb (fun x => (code x <? 128)%N) f = true)
        by (clear -Hf; destruct (bytes_eqb p (bs "hi")); repeat (destruct Hf as [<-|Hf]; [vm_compute; reflexivity|]); destruct Hf).
      rewrite forallb_forall in A. specialize (A x Ix). apply N.ltb_lt in A. lia.
  - split; [vm_compute; reflexivity|]. split; [exists (lang (bs "zh")); split; [right; right; right; now left|]; split; [vm_compute; discriminate|vm_compute; reflexivity]|].
    split. { intros (l' & I & N & E). repeat (destruct I as [<-|I]; [vm_compute in E; try discriminate E; now apply N|]). destruct I. }
    split; [apply lang_known|]. split; [vm_compute; discriminate|]. split.
    + eexists. eexists. split; [vm_compute; reflexivity|]. split; [exact Logic.I|vm_compute; reflexivity].
    + assert (K : known (lang (bs "de_AT"))) by apply lang_known.
      assert (N : lang (bs "de_AT") <> None) by (vm_compute; discriminate).
      assert (R : exists m d, returns ex_run menu_fs (fresh ex_run menu_fs utf8 [bs "hi"]) (lang (bs "de_AT")) m d).
      { eexists. eexists. eexists. split; vm_compute; reflexivity. }
      destruct R as (m & d & R). clear -K N R. destruct (lang (bs "de_AT")) as [s|]; [|now destruct N].
      exists s, m, d. split; [exact K|]. split; [reflexivity|exact R].
Qed.

Print Assumptions C104_menu_is_what_loads.
Print Assumptions C104_not_on_the_menu.
Print Assumptions C104_own_name.
Print Assumptions C104_exact_file_wins.
Print Assumptions C104_file_of_the_locale.
Print Assumptions C104_str_identifies.
Print Assumptions C104_names_can_coincide.
