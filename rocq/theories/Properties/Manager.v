(** Properties C42-C50 and the manager parts of C31 and C53: class DictionaryManager. *)
From Verif.Model Require Import Base Log PluralForms Dictionary IConv Language Stream PoParser Manager.
From Verif.Spec Require Import DictSpec LangSpec IConvSpec ParserSpec ManagerSpec.
From Verif.Proofs Require Import BaseFacts DictProofs LangProofs ParserSafe ParserFuel ParserMisc
  ManagerLoad ManagerOwn ManagerGet ManagerStep ManagerFull ManagerContent ManagerProps.
From Verif.Properties Require Import Parser.
Local Open Scope list_scope.

(** A file system for the examples: "hi" has de.po and de_AT.po, "lo" has de.po and
    a file that is not a catalogue, "bad" cannot be listed. *)
Definition ex_run : config := with_fuel ex_cf 60.
Definition hi_de := file [bs "msgid `a`"; bs "msgstr `A`"; bs ""; bs "msgid `b`"; bs "msgstr `B`"].
Definition hi_at := file [bs "msgid `a`"; bs "msgstr `AA`"].
Definition lo_de := file [bs "msgid ``"; bs "msgstr `Plural-Forms: nplurals=2; plural=(n != 1);\n`"; bs "";
  bs "msgid `b`"; bs "msgstr `BB`"; bs ""; bs "msgid `c`"; bs "msgstr `C`"].
Definition ex_os : os_state := {|
  os_dir := fun p => if bytes_eqb p (bs "hi") then Some [bs "de.po"; bs "de_AT.po"; bs "README"]
                     else if bytes_eqb p (bs "lo") then Some [bs "notes.txt"; bs "fr.po"; bs "de.po"]
                     else None;
  os_file := fun f => if bytes_eqb f (bs "hi/de.po") then Some hi_de
                      else if bytes_eqb f (bs "hi/de_AT.po") then Some hi_at
                      else if bytes_eqb f (bs "lo/de.po") then Some lo_de else None |}.
Definition ex_fs : file_system := unix_file_system ex_os.
Definition lang (e : bytes) : language := match from_env false e with Ret l => l | _ => None end.
Definition de : language := Eval vm_compute in lang (bs "de").
Definition de_AT : language := Eval vm_compute in lang (bs "de_AT").
Lemma de_known : known de. Proof. apply (from_env_known false (bs "de")). now vm_compute. Qed.
Lemma de_AT_known : known de_AT. Proof. apply (from_env_known false (bs "de_AT")). now vm_compute. Qed.

Ltac client :=
  repeat match goal with x := _ |- _ => subst x end;
  repeat (apply Forall_cons;
    [cbn [client_op snd]; match goal with |- True => exact Logic.I | |- known de => exact de_known | |- known de_AT => exact de_AT_known end|]);
  apply Forall_nil.

(** C42. After any calls that returned, on a manager whose files do not change,
    get_dictionary(l) returns exactly when it would on a new manager with the same
    search path and charset, and no client can tell the two dictionaries apart. *)
Theorem C42_cache_transparent :
  forall (cf : config) (fs : file_system) (cs : bytes) (ops : list mop) (m : manager) (l : language),
  Forall client_op ops -> known l -> session cf fs (new_manager cs) ops m ->
  let new := fresh cf fs (charset_after cs ops) (path_after [] ops) in
  (forall m' d, returns cf fs m l m' d ->
     exists new' d', returns cf fs new l new' d' /\ indistinguishable (m_heap m') d (m_heap new') d') /\
  (forall new' d', returns cf fs new l new' d' ->
     exists m' d, returns cf fs m l m' d /\ indistinguishable (m_heap m') d (m_heap new') d').
Proof.
  intros cf fs cs ops m l C K S new. destruct (session_state cf fs cs ops m S C) as (O & F & ND & P & Ch & _).
  rewrite P in ND. destruct (fresh_state cf fs (charset_after cs ops) _ ND) as (O' & Ca & P' & Ch' & _). fold new in O', Ca, P', Ch'.
  assert (F' : full cf fs new) by (now apply full_none). split.
  - intros m' d R. apply (same_settings cf fs m new l m' d); auto; congruence.
  - intros m' d R. destruct (same_settings cf fs new m l m' d) as (m2 & d2 & R2 & I); auto; try congruence.
    exists m2, d2. split; [exact R2|]. unfold indistinguishable in *.
    destruct I as (I1 & I2 & I3 & I4 & I5 & I6 & I7 & I8). repeat split; intros; symmetry; auto.
Qed.

(** It does return when the directories can be listed and every file in them either
    cannot be opened or parses to an end. *)
Theorem C42_returns_when_readable :
  forall (cf : config) (fs : file_system) (cs : bytes) (path : list bytes) (l : language),
  cf_strict cf = false -> NoDup path -> known l -> l <> None ->
  (forall p, In p path -> exists files, fs_dir fs p = Ret files /\
     forall f, In f files ->
       match fs_file fs (p ++ bs "/" ++ f) with
       | Ret None => True
       | Ret (Some i) => exists r, parses_to cf (p ++ bs "/" ++ f) i (new_dictionary cs) r /\
                           match pr_outcome r with Ret _ | Exn _ => True | _ => False end
       | Exn e => e <> ExPo
       | _ => False
       end) ->
  exists N, forall n, N <= n ->
    exists m d, returns (with_fuel cf n) fs (fresh (with_fuel cf n) fs cs path) l m d.
Proof.
  intros cf fs cs path l St ND K NN H.
  assert (L : exists N, forall n, N <= n -> forall p, In p path ->
            exists files, fs_dir fs p = Ret files /\ forall f, In f files -> loadable (with_fuel cf n) fs cs (p ++ bs "/" ++ f)).
  { apply bound_for. intros p Hp. destruct (H p Hp) as (files & D & Hf).
    assert (G : exists N, forall n, N <= n -> forall f, In f files -> loadable (with_fuel cf n) fs cs (p ++ bs "/" ++ f)).
    { apply bound_for. intros f If. specialize (Hf f If). unfold loadable.
      destruct (fs_file fs (p ++ bs "/" ++ f)) as [[i|]|e|u| |]; try contradiction.
      - destruct Hf as (r & Pr & Ho). pose proof (C21_parse_outcomes _ _ _ _ _ Pr) as Out. destruct Pr as (_ & N & HN). exists N. intros n Hn. rewrite (HN n Hn).
        destruct (pr_outcome r) as [|[]|u| |]; try contradiction; reflexivity.
      - exists 0. reflexivity.
      - exists 0. intros. destruct e; try reflexivity. now contradiction Hf. }
    destruct G as [N G]. exists N. intros n Hn. exists files. split; [exact D|]. now apply G. }
  destruct L as [N L]. exists N. intros n Hn. specialize (L n Hn).
  destruct (fresh_state (with_fuel cf n) fs cs path ND) as (O & Ca & P & Ch & _).
  apply get_returns; [exact K|exact O|now apply full_none|].
  assert (Q : forall x, loads_ok (with_fuel cf n) fs (fresh (with_fuel cf n) fs cs path) x).
  { intro x. unfold loads_ok. apply pload_loads; [exact St|]. rewrite P, Ch. intros p Hp. apply L. now apply in_rev. }
  split; [|split; [apply Q|]].
  - unfold asserts. destruct l; [|contradiction]. now rewrite andb_comm.
  - intro Co. destruct (base_of (cf_ndebug (with_fuel cf n)) l K Co) as (b & E & _). exists (Some b). split; [exact E|apply Q].
Qed.

(** a history with every kind of change, after which two directories have been merged *)
Example C42_nonvacuous :
  let ops := [OpAddDirectory (bs "lo") false; OpSetLanguage de_AT; OpGetDictionary; OpGetDictionaryLang de;
              OpGetLanguages; OpSetCharset (bs "UTF-8"); OpSetUseFuzzy false;
              OpAddDirectory (bs "hi") true; OpGetDictionaryLang de_AT; OpAddDirectory (bs "other") false;
              OpRemoveDirectory (bs "other"); OpGetDictionary] in
  Forall client_op ops /\ path_after [] ops = [bs "hi"; bs "lo"] /\
  exists m, session ex_run ex_fs (new_manager (bs "x")) ops m /\
  exists m' d, returns ex_run ex_fs m de_AT m' d /\
    List.map (fun i => fst (translate 2 (m_heap m') d i)) [bs "a"; bs "b"; bs "c"; bs "d"]
    = [Ret (bs "AA"); Ret (bs "BB"); Ret (bs "C"); Ret (bs "d")].
Proof.
  intro ops. split; [client|]. split; [vm_compute; reflexivity|].
  eexists. split.
  - repeat (eapply session_cons; [vm_compute; reflexivity|]). apply session_nil.
  - eexists. eexists. split; [eexists; split; vm_compute; reflexivity|]. vm_compute. reflexivity.
Qed.

(** C43 (violation). If a directory of the search path cannot be listed,
    get_dictionary throws; but asked again it returns a dictionary with what the
    directories after the bad one contributed, without fallback, even if by then
    everything can be read. *)
Theorem C43_half_loaded_dictionary_is_cached :
  forall (cf : config) (fs fs' : file_system) (cs : bytes) (pre post : list bytes) (bad : bytes) (e : exn)
         (l : language) (m1 : manager) (d1 : dictionary),
  NoDup (pre ++ bad :: post) -> known l -> fs_dir fs bad = Exn e ->
  returns cf fs (fresh cf fs cs post) l m1 d1 ->
  exists m,
    mstep cf fs (OpGetDictionaryLang l) (fresh cf fs cs (pre ++ bad :: post)) = (Exn e, m) /\
    exists d, returns cf fs' m l m d /\
      (forall k, lookup d k = lookup d1 k) /\ get_plural_forms d = get_plural_forms d1 /\ d_has_fallback d = false.
Proof.
  intros cf fs fs' cs pre post bad e l m1 d1 ND K B R.
  assert (ND' : NoDup post). { apply NoDup_remove_1 in ND. clear -ND. induction pre; cbn in ND; [exact ND|inversion ND; auto]. }
  destruct (fresh_state cf fs cs post ND') as (O1 & C1 & P1 & S1 & _).
  destruct (returned cf fs _ l m1 d1 K O1 (full_none cf fs _ C1) R) as (A & L & N & Y). rewrite P1, S1 in *.
  destruct (fresh_state cf fs cs _ ND) as (O & C & P & S & _).
  set (m0 := fresh cf fs cs (pre ++ bad :: post)) in *.
  assert (E : pload cf fs l (rev (m_path m0)) (new_dictionary (m_charset m0)) =
              (Exn e, snd (fst (pload cf fs l (rev post) (new_dictionary cs))), snd (pload cf fs l (rev post) (new_dictionary cs)))).
  { rewrite P, S, rev_app_distr. cbn [rev]. rewrite <- app_assoc, pload_app.
    destruct (pload cf fs l (rev post) (new_dictionary cs)) as [[[[]|x|u| |] dd] t]; try discriminate L. cbn [fst snd].
    cbn [app pload]. unfold pdir. rewrite B. now rewrite app_nil_r. }
  assert (NF : cache_find l (m_cache m0) = None) by (now rewrite C).
  assert (G : get_state cf fs m0 l = (Exn e, loaded cf fs m0 l)).
  { unfold get_state, leaf_outcome, leaf_state. rewrite A, NF, E. now destruct (is_nil (get_country l)). }
  exists (loaded cf fs m0 l). rewrite (do_get_lang cf fs l m0 K), G. split; [reflexivity|].
  exists (snd (fst (pload cf fs l (rev post) (new_dictionary cs)))). split.
  - apply returns_get; [exact K|]. exists (m_next m0). split.
    + pose proof (loaded_find cf fs m0 l NF) as LF. unfold get_state, leaf_outcome, leaf_state. rewrite A, LF.
      now destruct (is_nil (get_country l)).
    + rewrite (loaded_get cf fs m0 l). now rewrite E.
  - assert (D : d1 = snd (fst (pload cf fs l (rev post) (new_dictionary cs))) \/
                exists q, d1 = add_fallback (snd (fst (pload cf fs l (rev post) (new_dictionary cs)))) q).
    { destruct (get_country l) as [|c x]; [left; now apply N|]. destruct Y as (b & q & _ & _ & _ & _ & -> & _); [discriminate|]. eauto. }
    split; [|split; [|apply load_no_fallback]]; [intro k|]; destruct D as [->|[q ->]]; reflexivity.
Qed.

(** here the second call loses the translation of "a" (in "hi") and, for want of the
    fallback, that of everything only "de" has *)
Example C43_nonvacuous :
  NoDup ([bs "hi"] ++ bs "bad" :: [bs "lo"]) /\ fs_dir ex_fs (bs "bad") = Exn (ExFilesystem (bs "bad")) /\
  exists m1 d1, returns ex_run ex_fs (fresh ex_run ex_fs utf8 [bs "lo"]) de_AT m1 d1 /\
    lookup d1 (None, bs "a") = None /\ lookup d1 (None, bs "b") = Some [bs "BB"] /\ d_has_fallback d1 = true.
Proof.
  split; [repeat constructor; cbn; intuition discriminate|]. split; [reflexivity|].
  eexists. eexists. split; [eexists; split; vm_compute; reflexivity|]. vm_compute. auto.
Qed.

(** C44. For every key (optional context, msgid), the translation used is the one of
    the first directory of the search path that has one: [single p] is the dictionary
    of a manager that has only directory [p]. *)
Theorem C44_first_directory_wins :
  forall (cf : config) (fs : file_system) (cs : bytes) (ops : list mop) (m m' : manager) (l : language) (d : dictionary),
  Forall client_op ops -> known l -> session cf fs (new_manager cs) ops m -> returns cf fs m l m' d ->
  exists single : bytes -> dictionary,
    (forall p, In p (path_after [] ops) ->
       exists mp, returns cf fs (fresh cf fs (charset_after cs ops) [p]) l mp (single p)) /\
    forall k : key, form0 d k = first_some (fun p => form0 (single p) k) (path_after [] ops).
Proof.
  intros cf fs cs ops m m' l d C K S R. destruct (session_state cf fs cs ops m S C) as (O & F & ND & P & Ch & _).
  destruct (singles_fun cf fs m l m' d K O F R) as (single & H1 & H2). exists single. rewrite <- P, <- Ch. split; [exact H1|].
  intro k. rewrite (path_form0 cf fs m l m' d K O F R k). apply first_some_ext. intros p Hp. destruct (H2 p Hp) as (E1 & E2 & _).
  symmetry. now apply form0_content.
Qed.

(** What translate then answers: the translation from the first directory that has
    one for [l]; failing that, for a language with a country, the same for the
    language without it; failing that the msgid. *)
Theorem C44_translate :
  forall (cf : config) (fs : file_system) (cs : bytes) (ops : list mop) (m m' : manager) (l : language) (d : dictionary)
         (n : nat) (msgid : bytes),
  Forall client_op ops -> known l -> session cf fs (new_manager cs) ops m -> returns cf fs m l m' d ->
  (get_country l = [] ->
   fst (translate (S (S n)) (m_heap m') d msgid) =
   Ret (match form0 d (None, msgid) with Some t => t | None => msgid end)) /\
  (get_country l <> [] ->
   exists b mb db, from_spec (cf_ndebug cf) (get_language l) [] [] = Ret b /\ returns cf fs m b mb db /\
   fst (translate (S (S n)) (m_heap m') d msgid) =
   Ret (match form0 d (None, msgid) with
        | Some t => t
        | None => match form0 db (None, msgid) with Some t => t | None => msgid end
        end)).
Proof.
  intros cf fs cs ops m m' l d n msgid C K S R. destruct (session_state cf fs cs ops m S C) as (O & F & _).
  destruct (returned cf fs m l m' d K O F R) as (A & L & N & Y). split.
  - intro Co. apply translate_flat. rewrite (N Co). apply load_no_fallback.
  - intro Co. destruct (Y Co) as (b & q & E & I & Cb & Lb & -> & Hq).
    assert (W : will_return cf fs m (Some b)).
    { split; [unfold asserts; cbn [is_none]; apply andb_false_r|]. split; [exact Lb|]. intro X. now rewrite Cb in X. }
    apply (get_returns cf fs m (Some b) I O F) in W as (mb & db & Rb). exists (Some b), mb, db. split; [exact E|]. split; [exact Rb|].
    destruct (returned cf fs m (Some b) mb db I O F Rb) as (_ & _ & Nb & _). rewrite (Nb Cb).
    rewrite form0_fallback. apply translate_over; [apply load_no_fallback|exact Hq].
Qed.

(** The search path is a list without duplicates that add_directory extends at the
    end (at the front with precedence) and remove_directory shrinks; no other call
    changes it. *)
Theorem C44_search_path :
  forall (cf : config) (cs : bytes) (ops : list (file_system * mop)),
  valid ops ->
  let m := mrun cf ops (new_manager cs) in
  m_path m = path_after [] (List.map snd ops) /\ NoDup (m_path m).
Proof.
  intros cf cs ops V m. destruct (run_inv cf ops _ V (own_new cf cs) (NoDup_nil _)) as (_ & ND & P & _). auto.
Qed.

Example C44_nonvacuous :
  path_after [] [OpAddDirectory (bs "lo") false; OpAddDirectory (bs "x") false; OpAddDirectory (bs "hi") true;
                 OpAddDirectory (bs "lo") true; OpRemoveDirectory (bs "x")] = [bs "hi"; bs "lo"] /\
  exists m d, returns ex_run ex_fs (fresh ex_run ex_fs utf8 [bs "hi"; bs "lo"]) de m d /\
    List.map (fun i => form0 d (None, i)) [bs "a"; bs "b"; bs "c"; bs "d"] =
    [Some (bs "A"); Some (bs "B"); Some (bs "C"); None].
Proof. split; [reflexivity|]. eexists. eexists. split; [eexists; split; vm_compute; reflexivity|]. vm_compute. auto. Qed.

(** C45 (violation). The plural rules, unlike the translations, are those of the last
    directory of the search path that declares any. *)
Theorem C45_last_directory_sets_plural_forms :
  forall (cf : config) (fs : file_system) (cs : bytes) (ops : list mop) (m m' : manager) (l : language) (d : dictionary),
  Forall client_op ops -> known l -> session cf fs (new_manager cs) ops m -> returns cf fs m l m' d ->
  exists single : bytes -> dictionary,
    (forall p, In p (path_after [] ops) ->
       exists mp, returns cf fs (fresh cf fs (charset_after cs ops) [p]) l mp (single p)) /\
    let declared x := if pf_valid (get_plural_forms x) then Some (get_plural_forms x) else None in
    declared d = first_some (fun p => declared (single p)) (rev (path_after [] ops)).
Proof.
  intros cf fs cs ops m m' l d C K S R. destruct (session_state cf fs cs ops m S C) as (O & F & ND & P & Ch & _).
  destruct (singles_fun cf fs m l m' d K O F R) as (single & H1 & H2). exists single. rewrite <- P, <- Ch. split; [exact H1|].
  intro declared. change (declared d) with (forms_of d). rewrite (path_plural cf fs m l m' d K O F R). apply first_some_ext.
  intros p Hp. apply in_rev in Hp. destruct (H2 p Hp) as (_ & _ & E). unfold declared, get_plural_forms, forms_of. now rewrite E.
Qed.

(** two directories that declare different rules: the second one's are used *)
Definition decl (n : bytes) : bytes := q (bs "msgid ``") ++ c_lf :: q (bs "msgstr `Plural-Forms: ") ++ n ++ q (bs "\n`") ++ [c_lf].
Definition two_rules : file_system := {|
  fs_dir := fun _ => Ret [bs "de.po"];
  fs_file := fun f => Ret (Some (stream_of (decl (if bytes_eqb f (bs "hi/de.po")
                     then bs "nplurals=2; plural=(n>1);" else bs "nplurals=2; plural=(n!=1);")))) |}.
Example C45_nonvacuous :
  exists m d, returns ex_run two_rules (fresh ex_run two_rules utf8 [bs "hi"; bs "lo"]) de m d /\
    get_plural (get_plural_forms d) 0 = 1%Z /\
  exists m1 d1, returns ex_run two_rules (fresh ex_run two_rules utf8 [bs "hi"]) de m1 d1 /\
    get_plural (get_plural_forms d1) 0 = 0%Z /\ pf_valid (get_plural_forms d1) = true.
Proof.
  eexists. eexists. split; [eexists; split; vm_compute; reflexivity|]. split; [vm_compute; reflexivity|].
  eexists. eexists. split; [eexists; split; vm_compute; reflexivity|]. vm_compute. auto.
Qed.

(** C46. In a directory the first file with the best score is loaded; no file is
    loaded iff no .po file's language code is the requested one. *)
Theorem C46_best_file :
  forall (cf : config) (fs : file_system) (cs p : bytes) (l : language) (m : manager) (d : dictionary),
  known l -> returns cf fs (fresh cf fs cs [p]) l m d ->
  exists files, fs_dir fs p = Ret files /\
  let candidate f := exists s, po_language cf f = Some s /\ ls_language s = get_language l in
  let rating f := match po_language cf f with Some s => lang_match l (Some s) | None => 0%Z end in
  (((forall f, In f files -> ~ candidate f) /\ forall k, lookup d k = None) \/
   (exists before f after, files = before ++ f :: after /\ candidate f /\
      (forall g, In g before -> (rating g < rating f)%Z) /\ (forall g, In g after -> (rating g <= rating f)%Z) /\
      let name := p ++ bs "/" ++ f in
      match fs_file fs name with
      | Ret (Some i) => exists r, parses_to cf name i (new_dictionary cs) r /\
                          (forall k, lookup d k = lookup (pr_dict r) k) /\ get_plural_forms d = get_plural_forms (pr_dict r)
      | _ => forall k, lookup d k = None
      end)).
Proof.
  intros cf fs cs p l m d K R.
  destruct (fresh_state cf fs cs [p]) as (O & C & P & S & _). { constructor; [intros []|constructor]. }
  destruct (returned cf fs _ l m d K O (full_none cf fs _ C) R) as (A & L & N & Y). rewrite P, S in L, N, Y. cbn [rev app] in L, N, Y.
  set (X := pload cf fs l [p] (new_dictionary cs)) in *.
  assert (Lk : forall k, lookup d k = lookup (snd (fst X)) k).
  { intro k. destruct (get_country l) as [|c x]; [now rewrite N|]. destruct Y as (b & q & _ & _ & _ & _ & -> & _); [discriminate|]. reflexivity. }
  assert (Pl : get_plural_forms d = get_plural_forms (snd (fst X))).
  { destruct (get_country l) as [|c x]; [now rewrite N|]. destruct Y as (b & q & _ & _ & _ & _ & -> & _); [discriminate|]. reflexivity. }
  assert (E0 : forall k, lookup (new_dictionary cs) k = None) by (intros [[c|] i]; reflexivity).
  clear N Y R A. subst X. cbn [pload] in L, Lk, Pl. unfold pdir in L, Lk, Pl.
  destruct (fs_dir fs p) as [files|e|u| |]; try discriminate L. exists files. split; [reflexivity|]. intros candidate rating.
  destruct (pbest cf l ([], 0%Z) files) as [[b|e|u| |] t] eqn:Eb; try discriminate L.
  assert (Cand : forall f, candidate f <-> (0 < file_score cf l f)%Z).
  { intro f. rewrite file_score_pos. unfold candidate. split; intros (s & H1 & H2); eauto. }
  assert (Rat : forall f, rating f = file_score cf l f).
  { intro f. unfold rating, file_score. now destruct (po_language cf f). }
  destruct (pbest_ret cf l files _ _ _ Eb) as [[-> M]|(bf & f & af & -> & -> & A1 & A2 & A3)]; [cbn; lia| |].
  - left. split.
    + intros f Hf Hc. apply Cand in Hc. specialize (M f Hf). cbn [snd] in M. lia.
    + intro k. rewrite Lk. cbn [fst is_nil snd]. apply E0.
  - right. exists bf, f, af. split; [reflexivity|]. cbn [snd] in A1. split; [now apply Cand|].
    split; [intros g Hg; rewrite !Rat; now apply A2|]. split; [intros g Hg; rewrite !Rat; now apply A3|].
    cbn [fst] in L, Lk, Pl.
    assert (Ne : is_nil f = false).
    { destruct f; [|reflexivity]. apply file_score_pos in A1 as (s & H & _). discriminate H. }
    rewrite Ne in L, Lk, Pl. intro name. fold name in L, Lk, Pl. unfold pfile in L, Lk, Pl.
    destruct (fs_file fs name) as [[i|]|e|u| |]; try discriminate L.
    + assert (NF : pr_outcome (po_parse cf name i (new_dictionary cs)) <> OutOfFuel).
      { intro Z. rewrite Z in L. discriminate. }
      exists (po_parse cf name i (new_dictionary cs)). split.
      * rewrite <- (cf_eta cf) in NF. pose proof (parses_to_intro cf name i (new_dictionary cs) _ NF) as H. rewrite cf_eta in H. exact H.
      * destruct (pr_outcome (po_parse cf name i (new_dictionary cs))) as [[]|e|u| |]; try discriminate L; [auto|].
        destruct (is_std e); [auto|discriminate L].
    + intro k. rewrite Lk. apply E0.
    + destruct (is_std e); [|discriminate L]. intro k. rewrite Lk. apply E0.
Qed.

Example C46_nonvacuous :
  (exists s, po_language ex_run (bs "de_AT.po") = Some s /\ ls_language s = get_language de_AT /\ lang_match de_AT (Some s) = 9%Z) /\
  (exists s, po_language ex_run (bs "de.po") = Some s /\ ls_language s = get_language de_AT /\ lang_match de_AT (Some s) = 7%Z) /\
  po_language ex_run (bs "README") = None /\
  exists m d, returns ex_run ex_fs (fresh ex_run ex_fs utf8 [bs "hi"]) de_AT m d /\ lookup d (None, bs "a") = Some [bs "AA"].
Proof.
  split; [eexists; split; [vm_compute; reflexivity|vm_compute; auto]|].
  split; [eexists; split; [vm_compute; reflexivity|vm_compute; auto]|].
  split; [vm_compute; reflexivity|]. eexists. eexists. split; [eexists; split; vm_compute; reflexivity|]. vm_compute. auto.
Qed.

(** C58 (violation). The preferred directory [hi] has one .po file, for the requested
    language, whose only entries for key [k] are singular and leave it with
    translation [s]; the other directory [lo] has forms [x :: rest] for [k]. The
    merged entry is [s :: rest]. *)
Theorem C58_forms_are_mixed :
  forall (cf : config) (fs : file_system) (cs hi lo f : bytes) (l : language) (i : istream) (r : parse_result)
         (k : key) (s x : bytes) (rest : list bytes) (m1 m2 : manager) (d1 d2 : dictionary),
  hi <> lo -> known l -> l <> None ->
  fs_dir fs hi = Ret [f] -> po_language cf f = l ->
  fs_file fs (hi ++ bs "/" ++ f) = Ret (Some i) ->
  parses_to cf (hi ++ bs "/" ++ f) i (new_dictionary cs) r ->
  (forall op, In op (adds (pr_calls r)) -> op_key op = k -> exists t, op = AddSingular (fst k) (snd k) t) ->
  lookup (pr_dict r) k = Some [s] ->
  returns cf fs (fresh cf fs cs [lo]) l m1 d1 -> lookup d1 k = Some (x :: rest) ->
  returns cf fs (fresh cf fs cs [hi; lo]) l m2 d2 ->
  lookup d2 k = Some (s :: rest).
Proof.
  intros cf fs cs hi lo f l i r k s x rest m1 m2 d1 d2 Ne K NN D Pl Fi Pr Sing Lr R1 L1 R2.
  assert (N1 : NoDup [lo]) by (constructor; [intros []|constructor]).
  assert (N2 : NoDup [hi; lo]) by (constructor; [intros [E|[]]; congruence|exact N1]).
  destruct (fresh_state cf fs cs [lo] N1) as (O1 & C1 & P1 & S1 & _).
  destruct (fresh_state cf fs cs [hi; lo] N2) as (O2 & C2 & P2 & S2 & _).
  destruct (returned cf fs _ l m1 d1 K O1 (full_none cf fs _ C1) R1) as (_ & A1 & X1 & Y1).
  destruct (returned cf fs _ l m2 d2 K O2 (full_none cf fs _ C2) R2) as (_ & A2 & X2 & Y2).
  rewrite P1, S1 in *. rewrite P2, S2 in *. cbn [rev app] in *.
  assert (E1 : lookup (snd (fst (pload cf fs l [lo] (new_dictionary cs)))) k = Some (x :: rest)).
  { rewrite <- L1. destruct (get_country l) as [|c y]; [now rewrite X1|]. destruct Y1 as (b & q & _ & _ & _ & _ & -> & _); [discriminate|]. reflexivity. }
  assert (E2 : lookup d2 k = lookup (snd (fst (pload cf fs l [lo; hi] (new_dictionary cs)))) k).
  { destruct (get_country l) as [|c y]; [now rewrite X2|]. destruct Y2 as (b & q & _ & _ & _ & _ & -> & _); [discriminate|]. reflexivity. }
  rewrite E2. clear E2 X1 Y1 X2 Y2 R1 R2.
  change [lo; hi] with ([lo] ++ [hi]) in *. rewrite pload_app in *.
  pose proof (kept_load cf fs l [lo] (new_dictionary cs)) as (Kc & _).
  destruct (pload cf fs l [lo] (new_dictionary cs)) as [[[[]|e|u| |] dd] t] eqn:E; try discriminate A1. cbn [fst snd] in *.
  pose proof (pload_outcome cf fs l [hi] dd (new_dictionary cs) Kc) as A4.
  destruct (pload cf fs l [hi] dd) as [[o d3] t3] eqn:E3. cbn [fst snd] in *. subst o. specialize (A4 eq_refl). apply pload_calls in E3.
  cbn [List.map List.concat] in E3. rewrite app_nil_r, Kc in E3. cbn [new_dictionary d_charset] in E3. subst d3.
  assert (DC : dir_calls cf fs l cs hi = pr_calls r).
  { unfold dir_calls. rewrite D. cbn [pbest]. unfold pconsider. unfold po_language in Pl.
    destruct (has_suffix f dot_po) eqn:Suf; [|congruence].
    destruct (convertFilename2Language (cf_strict cf) f) as [stem|?|?| |] eqn:Cv; try congruence. cbn [obind].
    destruct (from_env (cf_ndebug cf) stem) as [po|?|?| |] eqn:Fe; try congruence. subst po.
    assert (NP : is_none l = false) by (now destruct l). rewrite NP. cbn [snd].
    assert (M9 : lang_match l l = 9%Z) by (apply lang_match_nine; auto). rewrite M9. cbn [Z.ltb Z.compare fst].
    assert (Nf : is_nil f = false) by (destruct f; [discriminate Suf|reflexivity]). rewrite Nf.
    unfold file_calls. rewrite Fi.
    assert (Fin : pr_outcome (po_parse cf (hi ++ bs "/" ++ f) i (new_dictionary cs)) <> OutOfFuel).
    { intro Z. cbn [pload] in A4. unfold pdir in A4. rewrite D in A4. cbn [pbest] in A4. unfold pconsider in A4. rewrite Suf, Cv in A4.
      cbn [obind] in A4. rewrite Fe, NP in A4. cbn [snd] in A4. rewrite M9 in A4. cbn [Z.ltb Z.compare fst] in A4. rewrite Nf in A4.
      unfold pfile in A4. rewrite Fi, Z in A4. discriminate A4. }
    rewrite <- (cf_eta cf) in Fin. pose proof (parses_to_large cf _ _ _ _ _ Pr Fin) as Q. rewrite cf_eta in Q. now rewrite Q. }
  rewrite DC. destruct (C21_effects_are_dictionary_calls _ _ _ _ _ Pr) as [Eff _]. rewrite Eff in Lr.
  assert (G : (lookup (fold_left apply_call (pr_calls r) (new_dictionary cs)) k = None /\ lookup (fold_left apply_call (pr_calls r) dd) k = Some (x :: rest)) \/
              exists t, lookup (fold_left apply_call (pr_calls r) (new_dictionary cs)) k = Some [t] /\
                        lookup (fold_left apply_call (pr_calls r) dd) k = Some (t :: rest)).
  { clear -Sing E1. induction (pr_calls r) as [|c cl IH] using rev_ind.
    - left. split; [destruct k as [[|] ]; reflexivity|exact E1].
    - assert (Ad : adds (cl ++ [c]) = adds cl ++ adds [c]).
      { clear. induction cl as [|[] cl IH]; cbn [adds app]; [reflexivity| |exact IH]. f_equal. exact IH. }
      rewrite Ad in Sing. specialize (IH (fun op Ho => Sing op (in_or_app _ _ _ (or_introl Ho)))).
      rewrite !fold_left_app. cbn [fold_left]. destruct c as [op|p]; cbn [apply_call].
      + rewrite !lookup_add. unfold spec_add, update. destruct (key_eq_dec k (op_key op)) as [Ek|]; [|exact IH].
        destruct (Sing op) as [t ->]; [apply in_or_app; right; now left|now symmetry|].
        cbn [op_key new_forms] in *. rewrite <- Ek. right. exists t.
        destruct IH as [[-> ->]|(t' & -> & ->)]; auto.
      + assert (Q : forall y z, lookup (if pf_valid (get_plural_forms y) then y else set_plural_forms y z) k = lookup y k)
          by (intros; destruct (pf_valid _); reflexivity).
        rewrite !Q. exact IH. }
  destruct G as [[X _]|(t' & X & Y)]; rewrite Lr in X; [discriminate|]. injection X as <-. exact Y.
Qed.

Definition mix_os : os_state := {|
  os_dir := fun p => Some [bs "de.po"];
  os_file := fun f => Some (if bytes_eqb f (bs "hi/de.po") then file [bs "msgid `day`"; bs "msgstr `Tag`"]
    else file [bs "msgid `day`"; bs "msgid_plural `days`"; bs "msgstr[0] `Werktag`"; bs "msgstr[1] `Werktage`"]) |}.
Example C58_nonvacuous :
  let fs := unix_file_system mix_os in
  let i := stream_of (file [bs "msgid `day`"; bs "msgstr `Tag`"]) in
  let k := (None, bs "day") in
  fs_dir fs (bs "hi") = Ret [bs "de.po"] /\ po_language ex_run (bs "de.po") = de /\ fs_file fs (bs "hi/de.po") = Ret (Some i) /\
  (exists r, parses_to ex_run (bs "hi/de.po") i (new_dictionary utf8) r /\ adds (pr_calls r) = [AddSingular None (bs "day") (bs "Tag")] /\
     lookup (pr_dict r) k = Some [bs "Tag"]) /\
  (exists m d, returns ex_run fs (fresh ex_run fs utf8 [bs "lo"]) de m d /\ lookup d k = Some [bs "Werktag"; bs "Werktage"]) /\
  (exists m d, returns ex_run fs (fresh ex_run fs utf8 [bs "hi"; bs "lo"]) de m d /\ lookup d k = Some [bs "Tag"; bs "Werktage"]).
Proof.
  cbv zeta. split; [reflexivity|]. split; [vm_compute; reflexivity|]. split; [reflexivity|]. split; [|split].
  - eexists. split; [apply (finishes_intro ex_run _ _ _ 20); vm_compute; exact Logic.I|]. vm_compute. auto.
  - eexists. eexists. split; [eexists; split; vm_compute; reflexivity|]. vm_compute. reflexivity.
  - eexists. eexists. split; [eexists; split; vm_compute; reflexivity|]. vm_compute. reflexivity.
Qed.

Print Assumptions C42_cache_transparent.
Print Assumptions C42_returns_when_readable.
Print Assumptions C43_half_loaded_dictionary_is_cached.
Print Assumptions C44_first_directory_wins.
Print Assumptions C44_translate.
Print Assumptions C44_search_path.
Print Assumptions C45_last_directory_sets_plural_forms.
Print Assumptions C46_best_file.
Print Assumptions C58_forms_are_mixed.
