(** Property C70: from the files on the disk to the answers a client gets. *)
From Verif.Model Require Import Base Log PluralForms Dictionary IConv Language Stream PoParser Manager.
From Verif.Spec Require Import DictSpec LangSpec ParserSpec PoSpec ManagerSpec LoadSpec ShelfSpec.
From Verif.Proofs Require Import BaseFacts DictProofs LangProofs ParserUnary ParserFuel ParserMisc DocText
  ManagerLoad ManagerOwn ManagerGet ManagerStep ManagerFull ManagerContent ManagerProps ManagerFiles Shelf.
From Verif.Properties Require Import Parser Document Manager.
From Verif.Properties Require Damage.
Local Open Scope list_scope.

Lemma proper_sound c : proper_call c -> sound_call c.
Proof. destruct c as [op|p]; cbn; auto. Qed.

(** C70. The default file system over a disk on which every directory of the search
    path can be listed and holds well-formed files (in the manager's charset) for the
    language and, if it has a country, for the language without it. After any calls
    that returned, get_dictionary(l) returns a dictionary that answers with the texts
    in the files. *)
Theorem C70_answers_are_the_texts_in_the_files :
  forall (cf : config) (o : os_state) (cs : bytes) (path : list bytes) (l : language)
         (own base : bytes -> list po_entry),
  known l -> l <> None -> clean (cf_strict cf) cs ->
  (forall p, In p path -> holds cf o cs l p (own p)) ->
  (if is_nil (get_country l) then forall p, base p = []
   else exists b, from_spec (cf_ndebug cf) (get_language l) [] [] = Ret b /\ forall p, In p path -> holds cf o cs b p (base p)) ->
  exists N, forall n, N <= n ->
  let run := with_fuel cf n in let fs := unix_file_system o in
  forall (cs0 : bytes) (ops : list mop) (m : manager),
  Forall client_op ops -> session run fs (new_manager cs0) ops m ->
  path_after [] ops = path -> charset_after cs0 ops = cs ->
  exists m' d, returns run fs m l m' d /\
  (forall depth msgid,
     fst (translate (S (S depth)) (m_heap m') d msgid) =
     Ret (or_else (path_text own path (None, msgid)) (or_else (path_text base path (None, msgid)) msgid))) /\
  (forall depth c msgid,
     fst (translate_ctxt (S (S depth)) (m_heap m') d c msgid) =
     Ret (or_else (path_text own path (Some c, msgid))
            (if existsb (fun p => uses_context c (own p)) path
             then or_else (path_text base path (None, msgid)) msgid else msgid))) /\
  let forms := fold_left spec_add (adds (path_calls own path)) (fun _ => None) in
  let rule := hd pf_none (plurals (path_calls own path)) in
  (forall msgid pl num, fst (translate_plural d msgid pl num) = spec_translate_plural forms rule (None, msgid) pl num) /\
  (forall c msgid pl num, fst (translate_ctxt_plural d c msgid pl num) = spec_translate_plural forms rule (Some c, msgid) pl num).
Proof.
  intros cf o cs path l own base K NN Cl H HB.
  destruct (load_holds cf o cs Cl l (rev path) own) as [N1 L1]. { intros p Hp. apply H. now apply in_rev. }
  assert (B : exists N2, forall n, N2 <= n -> get_country l <> [] ->
     exists b, from_spec (cf_ndebug cf) (get_language l) [] [] = Ret b /\
       fst (fst (pload (with_fuel cf n) (unix_file_system o) b (rev path) (new_dictionary cs))) = Ret tt /\
       snd (fst (pload (with_fuel cf n) (unix_file_system o) b (rev path) (new_dictionary cs))) =
         fold_left apply_call (path_calls base path) (new_dictionary cs) /\
       forall p, In p path -> Forall proper_call (List.concat (List.map entry_calls (base p)))).
  { destruct (is_nil (get_country l)) eqn:E.
    - exists 0. intros n _ C. destruct (get_country l); [contradiction|discriminate E].
    - destruct HB as (b & Eb & Hb). destruct (load_holds cf o cs Cl b (rev path) base) as [N2 L2].
      { intros p Hp. apply Hb. now apply in_rev. }
      exists N2. intros n Hn _. exists b. split; [exact Eb|]. destruct (L2 n Hn (new_dictionary cs) eq_refl) as (X1 & X2 & X3).
      split; [exact X1|]. split; [exact X2|]. intros p Hp. apply X3. now apply in_rev in Hp. }
  destruct B as [N2 L2]. exists (Nat.max N1 N2). intros n Hn run fs cs0 ops m Co S P C.
  destruct (L1 n ltac:(lia) (new_dictionary cs) eq_refl) as (A1 & A2 & A3). specialize (L2 n ltac:(lia)). fold run fs in A1, A2, L2.
  fold (path_calls own path) in A2.
  assert (A4 : forall p, In p path -> Forall proper_call (List.concat (List.map entry_calls (own p)))).
  { intros p Hp. apply A3. now apply in_rev in Hp. }
  destruct (session_state run fs cs0 ops m S Co) as (O & F & _ & Pm & Cm & _). rewrite P in Pm. rewrite C in Cm.
  assert (R : exists m' d, returns run fs m l m' d).
  { apply get_returns; auto. split; [unfold asserts; destruct l; [cbn [is_none]; apply andb_false_r|contradiction]|].
    unfold loads_ok. rewrite Pm, Cm. split; [exact A1|]. intro X. destruct (L2 X) as (b & Eb & B1 & _). exists b. auto. }
  destruct R as (m' & d & R). exists m', d. split; [exact R|].
  destruct (returned run fs m l m' d K O F R) as (_ & _ & Nc & Yc). rewrite Pm, Cm, A2 in Nc, Yc.
  set (D := fold_left apply_call (path_calls own path) (new_dictionary cs)) in *.
  assert (D0 : forall k, form0 D k = path_text own path k) by (intro k; now apply path_form0).
  assert (Dn : d_has_fallback D = false) by (unfold D; now rewrite (proj1 (calls_fields _ _))).
  assert (Dl : forall k, lookup D k = fold_left spec_add (adds (path_calls own path)) (fun _ => None) k).
  { intro k. unfold D. rewrite calls_lookup.
    assert (Ext : forall ops m m', (forall k, m k = m' k) -> forall k, fold_left spec_add ops m k = fold_left spec_add ops m' k).
    { clear. induction ops as [|op ops IH]; intros m m' H k; cbn [fold_left]; [apply H|]. apply IH. intro k'. unfold spec_add, update.
      rewrite H. destruct (key_eq_dec _ _); auto. }
    apply Ext. intros [[c|] i]; reflexivity. }
  assert (Dp : d_plural D = hd pf_none (plurals (path_calls own path))).
  { unfold D. rewrite calls_plural.
    - cbn [new_dictionary d_plural]. change (pf_valid pf_none) with false. cbv iota. now destruct (plurals _).
    - unfold path_calls. clear -A4. apply Forall_forall. intros c Hc. apply in_concat in Hc as (x & Hx & Hc).
      apply in_map_iff in Hx as (e & <- & He). apply in_concat in He as (z & Hz & He). apply in_map_iff in Hz as (y & <- & Hy).
      rewrite <- in_rev in Hy. specialize (A4 y Hy). rewrite Forall_forall in A4. apply proper_sound, A4. apply in_concat.
      exists (entry_calls e). split; [|exact Hc]. now apply in_map. }
  assert (Pl : forall d', lookup d' = lookup D -> d_plural d' = d_plural D ->
     (forall msgid pl num, fst (translate_plural d' msgid pl num) = spec_translate_plural (fold_left spec_add (adds (path_calls own path)) (fun _ => None)) (hd pf_none (plurals (path_calls own path))) (None, msgid) pl num) /\
     (forall c msgid pl num, fst (translate_ctxt_plural d' c msgid pl num) = spec_translate_plural (fold_left spec_add (adds (path_calls own path)) (fun _ => None)) (hd pf_none (plurals (path_calls own path))) (Some c, msgid) pl num)).
  { intros d' E1 E2. split; intros; [rewrite translate_plural_spec|rewrite translate_ctxt_plural_spec]; rewrite E1, E2, Dp;
      apply spec_translate_plural_ext, Dl. }
  assert (Ctx : forall c, existsb (fun p => uses_context c (own p)) path = if assoc c (d_ctxt D) then true else false).
  { intro c. pose proof (path_ctxt cs own path c) as X. fold D in X. destruct (assoc c (d_ctxt D)).
    - destruct (existsb _ path); [reflexivity|]. discriminate (proj2 X eq_refl).
    - now apply X. }
  destruct (is_nil (get_country l)) eqn:Z.
  - assert (Ec : get_country l = []) by (now destruct (get_country l)). rewrite (Nc Ec).
    assert (Bn : forall k, path_text base path k = None).
    { intro k. unfold path_text. clear -HB. induction path as [|p path IH]; [reflexivity|]. cbn [first_some]. rewrite HB. exact IH. }
    split; [|split; [|now apply Pl]].
    + intros depth msgid. rewrite translate_flat by exact Dn. rewrite D0, Bn. cbn [or_else]. now destruct (path_text own path _).
    + intros depth c msgid. rewrite translate_ctxt_flat by exact Dn. rewrite D0, Bn. cbn [or_else].
      destruct (path_text own path _); [reflexivity|]. now destruct (existsb _ path).
  - assert (Ec : get_country l <> []) by (intro X; now rewrite X in Z).
    destruct (Yc Ec) as (b & q & Eb & Ib & Cb & _ & -> & Hq). destruct (L2 Ec) as (b' & Eb' & B1 & B2 & B3).
    change (cf_ndebug run) with (cf_ndebug cf) in Eb. rewrite Eb in Eb'. injection Eb' as <-. rewrite B2 in Hq.
    set (E := fold_left apply_call (path_calls base path) (new_dictionary cs)) in *.
    assert (E0 : forall k, form0 E k = path_text base path k) by (intro k; now apply path_form0).
    assert (En : d_has_fallback E = false) by (unfold E; now rewrite (proj1 (calls_fields _ _))).
    split; [|split; [|now apply Pl]].
    + intros depth msgid. rewrite (translate_over depth (m_heap m') D q E msgid En Hq), D0, E0. unfold or_else.
      now destruct (path_text own path _).
    + intros depth c msgid. rewrite (translate_ctxt_over depth (m_heap m') D q E c msgid En Hq), D0, E0, Ctx. unfold or_else.
      destruct (path_text own path _); [reflexivity|]. now destruct (assoc c (d_ctxt D)).
Qed.

(** What a directory holds need not be well formed: on every platform whose ctype functions
    take any char, a directory that can be listed and whose files end in a newline (and are
    in the charset [cs]) holds some list of entries, whatever is in the files, so that
    C70_answers_are_the_texts_in_the_files applies. *)
Theorem C70_every_directory_holds_something :
  forall (cf : config) (o : os_state) (cs : bytes) (l : language) (p : bytes) (files : list bytes),
  cf_strict cf = false -> os_dir o p = Some files ->
  (forall f b, In f files -> os_file o (p ++ bs "/" ++ f) = Some b ->
     complete b /\
     forall sgs, DamageSpec.segs_lines sgs = SoundSpec.file_lines b ++ [[]] -> DamageSpec.segs_ok false sgs ->
       own_charset cs (DamageSpec.segs_entries sgs)) ->
  exists es, holds cf o cs l p es.
Proof.
  intros cf o cs l p files St D H.
  assert (Cl : Forall (clean (cf_strict cf)) files) by (apply Forall_forall; intros f _ S; congruence).
  destruct (pbest_clean cf l files Cl ([], 0%Z)) as (b & t & E).
  destruct (pbest_ret cf l _ _ _ _ E) as [[-> M]|(bf & f & af & Ef & -> & A1 & A2 & A3)]; [cbn; lia| |].
  - exists []. apply (holds_nothing cf o cs l p files D Cl). intros f Hf Ca. apply cand_score in Ca. specialize (M f Hf). cbn [snd] in M. lia.
  - subst files. assert (Ca : candidate cf l f) by (now apply cand_score).
    assert (B1 : forall g, In g bf -> (rating cf l g < rating cf l f)%Z) by (intros g Hg; rewrite !rating_score; now apply A2).
    assert (B2 : forall g, In g af -> (rating cf l g <= rating cf l f)%Z) by (intros g Hg; rewrite !rating_score; now apply A3).
    destruct (os_file o (p ++ bs "/" ++ f)) as [b|] eqn:F.
    + destruct (H f b) as [Co Own]; [apply in_or_app; right; now left|exact F|].
      destruct (Damage.C66_every_file_has_segments b Co) as (sgs & [S1 S2] & _).
      exists (DamageSpec.segs_entries sgs). exact (holds_damaged cf o cs l p bf f af b sgs D Cl Ca B1 B2 F St Co S1 S2 (Own sgs S1 S2)).
    + exists []. exact (holds_unreadable cf o cs l p bf f af D Cl Ca B1 B2 F).
Qed.

(** A directory that cannot be opened: with the default file system both
    get_dictionary(l) and get_languages throw std::filesystem::filesystem_error. *)
Theorem C70_missing_directory :
  forall (cf : config) (o : os_state) (cs : bytes) (pre post : list bytes) (p : bytes) (l : language)
         (own : bytes -> list po_entry),
  NoDup (pre ++ p :: post) -> known l -> l <> None -> clean (cf_strict cf) cs -> os_dir o p = None ->
  (forall x, In x post -> holds cf o cs l x (own x)) ->
  (forall x, In x pre -> exists files, os_dir o x = Some files /\ forall f, In f files -> real_string f) ->
  exists N, forall n, N <= n ->
  let run := with_fuel cf n in let fs := unix_file_system o in
  let m := fresh run fs cs (pre ++ p :: post) in
  fst (mstep run fs (OpGetDictionaryLang l) m) = Exn (ExFilesystem p) /\
  fst (mstep run fs OpGetLanguages m) = Exn (ExFilesystem p).
Proof.
  intros cf o cs pre post p l own ND K NN Cl D H HP.
  destruct (load_holds cf o cs Cl l (rev post) own) as [N L]. { intros x Hx. apply H. now apply in_rev. }
  exists N. intros n Hn run fs m. destruct (L n Hn (new_dictionary cs) eq_refl) as (A & _ & _). fold run fs in A.
  destruct (fresh_state run fs cs _ ND) as (O & C & P & S & _). fold m in O, C, P, S.
  assert (E : fst (fst (pload run fs l (rev (m_path m)) (new_dictionary (m_charset m)))) = Exn (ExFilesystem p)).
  { rewrite P, S, rev_app_distr. cbn [rev]. rewrite <- app_assoc, pload_app.
    destruct (pload run fs l (rev post) (new_dictionary cs)) as [[[[]|x|u| |] dd] t]; try discriminate A.
    cbn [app pload]. unfold pdir. cbn [fs unix_file_system fs_dir]. rewrite D. reflexivity. }
  split.
  - rewrite (do_get_lang run fs l m K). unfold get_state, leaf_outcome, leaf_state. rewrite C. cbn [cache_find].
    assert (As : asserts run l = false) by (unfold asserts; destruct l; [cbn [is_none]; apply andb_false_r|contradiction]). rewrite As.
    destruct (pload run fs l (rev (m_path m)) (new_dictionary (m_charset m))) as [[oo dd] t] eqn:X. cbn [fst] in E. subst oo.
    now destruct (is_nil (get_country l)).
  - rewrite do_get_languages, P.
    assert (E2 : fs_dir fs p = Exn (ExFilesystem p)) by (cbn [fs unix_file_system fs_dir]; now rewrite D).
    rewrite (langs_fail run fs pre p post (ExFilesystem p) []); [reflexivity| |exact E2].
    intros x Hx. destruct (HP x Hx) as (files & Ef & Hf). exists files. split; [|exact Hf]. cbn [fs unix_file_system fs_dir]. now rewrite Ef.
Qed.

(** "hi" has a file for de_AT and one for de, "lo" one for de (used for both languages)
    with a header, a contextual plural entry, an untranslated entry; "none" does not exist. *)
Definition one (es : list po_entry) : document :=
  {| dc_blocks := List.map (fun e => ({| bl_comments := []; bl_entry := Some e |}, [])) es; dc_last := {| bl_comments := []; bl_entry := None |} |}.
Definition shelf_at := one [entry_of (bs "a") (bs "AA"); entry_of (bs "b") (bs "B"); entry_of (bs "b") (bs "BB")].
Definition shelf_de := one [entry_of (bs "a") (bs "A"); entry_of (bs "c") (bs "C")].
Definition shelf : os_state := {|
  os_dir := fun p => if bytes_eqb p (bs "hi") then Some [bs "de.po"; bs "README"; bs "de_AT.po"; bs "fr.po"]
                     else if bytes_eqb p (bs "lo") then Some [bs "de.po"] else None;
  os_file := fun f => if bytes_eqb f (bs "hi/de.po") then Some (doc_text shelf_de)
                      else if bytes_eqb f (bs "hi/de_AT.po") then Some (doc_text shelf_at)
                      else if bytes_eqb f (bs "lo/de.po") then Some (doc_text ex_doc) else None |}.
Lemma one_ok strict es : entries_ok strict false es -> doc_ok strict (one es).
Proof.
  intro H. split; [|split; [constructor|]].
  - apply Forall_map, Forall_forall. intros e _. split; [constructor|]. split; [exact blank_nil|discriminate].
  - assert (E : doc_entries (one es) = es); [|now rewrite E].
    unfold doc_entries, one. cbn [dc_blocks dc_last bl_entry opt_list]. rewrite app_nil_r. unfold blocks_entries. rewrite map_map. cbn [fst bl_entry opt_list].
    clear H. induction es as [|e es IH]; [reflexivity|]. cbn [List.map List.concat app]. now rewrite IH.
Qed.
Example C70_nonvacuous :
  let own p := if bytes_eqb p (bs "hi") then doc_entries shelf_at else doc_entries ex_doc in
  let base p := if bytes_eqb p (bs "hi") then doc_entries shelf_de else doc_entries ex_doc in
  let path := [bs "hi"; bs "lo"] in
  (forall p, In p path -> holds ex_cf shelf utf8 de_AT p (own p)) /\
  from_spec (cf_ndebug ex_cf) (get_language de_AT) [] [] = Ret de /\
  (forall p, In p path -> holds ex_cf shelf utf8 de p (base p)) /\
  (exists m', session ex_run (unix_file_system shelf) (new_manager (bs "x"))
     [OpAddDirectory (bs "lo") false; OpSetCharset utf8; OpSetLanguage de; OpGetDictionary; OpAddDirectory (bs "hi") true] m') /\
  List.map (fun i => (path_text own path (None, i), path_text base path (None, i))) [bs "a"; bs "b"; bs "c"; bs "untranslated"]
  = [(Some (bs "AA"), Some (bs "A")); (Some (bs "BB"), None); (None, Some (bs "C")); (None, None)] /\
  path_text own path (Some (bs "menu"), bs "file") = Some (bs "Datei") /\
  existsb (fun p => uses_context (bs "menu") (own p)) path = true /\
  get_nplural (hd pf_none (plurals (path_calls own path))) = 2%Z /\
  os_dir shelf (bs "none") = None.
Proof.
  assert (K1 : doc_ok (cf_strict ex_cf) shelf_at).
  { apply one_ok. cbn [entries_ok]. repeat (split; [now apply entry_of_ok|]). exact Logic.I. }
  assert (K2 : doc_ok (cf_strict ex_cf) shelf_de).
  { apply one_ok. cbn [entries_ok]. repeat (split; [now apply entry_of_ok|]). exact Logic.I. }
  assert (O1 : own_charset utf8 (doc_entries shelf_at)) by (repeat constructor).
  assert (O2 : own_charset utf8 (doc_entries shelf_de)) by (repeat constructor).
  assert (O3 : own_charset utf8 (doc_entries ex_doc)) by (repeat constructor).
  assert (Cn : forall fs, forallb (fun f => negb (existsb hi f)) fs = true -> Forall (clean (cf_strict ex_cf)) fs).
  { intros fs Hf. apply Forall_forall. intros f If _. rewrite forallb_forall in Hf. specialize (Hf f If). now destruct (existsb hi f). }
  intros own base path. split; [|split; [vm_compute; reflexivity|split; [|split; [|vm_compute; auto 10]]]].
  - intros p [<-|[<-|[]]].
    + apply (holds_file ex_cf shelf utf8 de_AT _ [bs "de.po"; bs "README"] (bs "de_AT.po") [bs "fr.po"] shelf_at); auto.
      * eexists. split; vm_compute; reflexivity.
      * intros g [<-|[<-|[]]]; vm_compute; reflexivity.
      * intros g [<-|[]]; vm_compute; discriminate.
    + apply (holds_file ex_cf shelf utf8 de_AT _ [] (bs "de.po") [] ex_doc); auto.
      * eexists. split; vm_compute; reflexivity.
      * intros g [].
      * intros g [].
      * apply ex_doc_ok.
  - intros p [<-|[<-|[]]].
    + apply (holds_file ex_cf shelf utf8 de _ [] (bs "de.po") [bs "README"; bs "de_AT.po"; bs "fr.po"] shelf_de); auto.
      * eexists. split; vm_compute; reflexivity.
      * intros g [].
      * intros g [<-|[<-|[<-|[]]]]; vm_compute; discriminate.
    + apply (holds_file ex_cf shelf utf8 de _ [] (bs "de.po") [] ex_doc); auto.
      * eexists. split; vm_compute; reflexivity.
      * intros g [].
      * intros g [].
      * apply ex_doc_ok.
  - eexists. repeat (eapply session_cons; [vm_compute; reflexivity|]). apply session_nil.
Qed.
(** A directory whose only file for the language is damaged: the entries around the damage count. *)
Definition damaged_shelf : os_state := {|
  os_dir := fun p => if bytes_eqb p (bs "hi") then Some [bs "de.po"; bs "notes.txt"] else None;
  os_file := fun f => if bytes_eqb f (bs "hi/de.po") then Some Damage.ex_damaged else None |}.
Example C70_nonvacuous_damaged :
  holds ex_cf damaged_shelf utf8 de (bs "hi") (DamageSpec.segs_entries Damage.ex_segs) /\
  List.map (fun i => file_text (DamageSpec.segs_entries Damage.ex_segs) (None, i)) [bs "a"; bs "b"; bs "junk"] =
    [Some (bs "A"); Some (bs "B"); None].
Proof.
  split; [|vm_compute; reflexivity].
  apply (holds_damaged ex_cf damaged_shelf utf8 de (bs "hi") [] (bs "de.po") [bs "notes.txt"] Damage.ex_damaged Damage.ex_segs).
  - vm_compute. reflexivity.
  - apply Forall_forall. intros f _ S. discriminate S.
  - eexists. split; vm_compute; reflexivity.
  - intros g [].
  - intros g [<-|[]]. vm_compute. discriminate.
  - vm_compute. reflexivity.
  - reflexivity.
  - right. exists (removelast Damage.ex_damaged). vm_compute. reflexivity.
  - vm_compute. reflexivity.
  - exact Damage.ex_segs_ok.
  - repeat constructor.
Qed.
Print Assumptions C70_answers_are_the_texts_in_the_files.
Print Assumptions C70_every_directory_holds_something.
Print Assumptions C70_missing_directory.
