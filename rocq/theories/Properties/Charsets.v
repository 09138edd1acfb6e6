(** Property C82: from files in any character set on the disk to the answers a client gets. *)
From Verif.Model Require Import Base Log PluralForms Dictionary IConv Language Stream PoParser Manager.
From Verif.Spec Require Import DictSpec LangSpec ParserSpec PoSpec ManagerSpec LoadSpec ShelfSpec IConvSpec CharsetSpec.
From Verif.Proofs Require Import BaseFacts DictProofs LangProofs ParserUnary ParserFuel ParserMisc DocText IConvProofs
  ManagerLoad ManagerOwn ManagerGet ManagerStep ManagerFull ManagerContent ManagerProps ManagerFiles Shelf Charsets CharsetShelf.
From Verif.Properties Require Import LogIConv Parser Document Manager.
From Verif.Proofs Require DocUnique.
From Verif.Properties Require Damage EndToEnd.
Local Open Scope list_scope.

(** C82. The default file system over a disk; iconv(3) converts texts as [T] says. Every
    directory of the search path can be listed, and [own p] ([base p]) is what the file in
    directory [p] for the language (for the language without its country) says in the
    manager's charset, its texts converted from the charset that the header names. After any
    calls that returned, get_dictionary(l) returns a dictionary that answers with these texts. *)
Theorem C82_answers_are_the_converted_texts :
  forall (cf : config) (T : translator) (o : os_state) (cs : bytes) (path : list bytes) (l : language)
         (own base : bytes -> list dict_call),
  cf_strict cf = false -> serves (cf_iconv cf) T -> known l -> l <> None ->
  (forall p, In p path -> says cf T o cs l p (own p)) ->
  (if is_nil (get_country l) then forall p, base p = []
   else exists b, from_spec (cf_ndebug cf) (get_language l) [] [] = Ret b /\ forall p, In p path -> says cf T o cs b p (base p)) ->
  exists N, forall n, N <= n ->
  let run := with_fuel cf n in let fs := unix_file_system o in
  forall (cs0 : bytes) (ops : list mop) (m : manager),
  Forall client_op ops -> session run fs (new_manager cs0) ops m ->
  path_after [] ops = path -> charset_after cs0 ops = cs ->
  exists m' d, returns run fs m l m' d /\
  (forall depth msgid,
     fst (translate (S (S depth)) (m_heap m') d msgid) =
     Ret (or_else (first_said own path (None, msgid)) (or_else (first_said base path (None, msgid)) msgid))) /\
  (forall depth c msgid,
     fst (translate_ctxt (S (S depth)) (m_heap m') d c msgid) =
     Ret (or_else (first_said own path (Some c, msgid))
            (if existsb (fun p => said_context c (own p)) path
             then or_else (first_said base path (None, msgid)) msgid else msgid))) /\
  let forms := fold_left spec_add (adds (all_said own path)) (fun _ => None) in
  let rule := hd pf_none (plurals (all_said own path)) in
  (forall msgid pl num, fst (translate_plural d msgid pl num) = spec_translate_plural forms rule (None, msgid) pl num) /\
  (forall c msgid pl num, fst (translate_ctxt_plural d c msgid pl num) = spec_translate_plural forms rule (Some c, msgid) pl num).
Proof.
  intros cf T o cs path l own base St Sv K NN H HB.
  destruct (load_says cf T o cs St Sv l (rev path) own) as [N1 L1]. { intros p Hp. apply H. now apply in_rev. }
  assert (B : exists N2, forall n, N2 <= n -> get_country l <> [] ->
     exists b, from_spec (cf_ndebug cf) (get_language l) [] [] = Ret b /\
       fst (fst (pload (with_fuel cf n) (unix_file_system o) b (rev path) (new_dictionary cs))) = Ret tt /\
       snd (fst (pload (with_fuel cf n) (unix_file_system o) b (rev path) (new_dictionary cs))) =
         fold_left apply_call (all_said base path) (new_dictionary cs) /\
       forall p, In p path -> Forall proper_call (base p)).
  { destruct (is_nil (get_country l)) eqn:E.
    - exists 0. intros n _ C. destruct (get_country l); [contradiction|discriminate E].
    - destruct HB as (b & Eb & Hb). destruct (load_says cf T o cs St Sv b (rev path) base) as [N2 L2].
      { intros p Hp. apply Hb. now apply in_rev. }
      exists N2. intros n Hn _. exists b. split; [exact Eb|]. destruct (L2 n Hn (new_dictionary cs) eq_refl) as (X1 & X2 & X3).
      split; [exact X1|]. split; [exact X2|]. intros p Hp. apply X3. now apply in_rev in Hp. }
  destruct B as [N2 L2]. exists (Nat.max N1 N2). intros n Hn run fs cs0 ops m Co S P C.
  destruct (L1 n ltac:(lia) (new_dictionary cs) eq_refl) as (A1 & A2 & A3). specialize (L2 n ltac:(lia)). fold run fs in A1, A2, L2.
  fold (all_said own path) in A2.
  assert (A4 : forall p, In p path -> Forall proper_call (own p)).
  { intros p Hp. apply A3. now apply in_rev in Hp. }
  destruct (session_state run fs cs0 ops m S Co) as (O & F & _ & Pm & Cm & _). rewrite P in Pm. rewrite C in Cm.
  assert (R : exists m' d, returns run fs m l m' d).
  { apply get_returns; auto. split; [unfold asserts; destruct l; [cbn [is_none]; apply andb_false_r|contradiction]|].
    unfold loads_ok. rewrite Pm, Cm. split; [exact A1|]. intro X. destruct (L2 X) as (b & Eb & B1 & _). exists b. auto. }
  destruct R as (m' & d & R). exists m', d. split; [exact R|].
  destruct (returned run fs m l m' d K O F R) as (_ & _ & Nc & Yc). rewrite Pm, Cm, A2 in Nc, Yc.
  set (D := fold_left apply_call (all_said own path) (new_dictionary cs)) in *.
  assert (D0 : forall k, form0 D k = first_said own path k) by (intro k; now apply all_form0).
  assert (Dn : d_has_fallback D = false) by (unfold D; now rewrite (proj1 (calls_fields _ _))).
  assert (Dl : forall k, lookup D k = fold_left spec_add (adds (all_said own path)) (fun _ => None) k).
  { intro k. unfold D. rewrite calls_lookup.
    assert (Ext : forall ops m m', (forall k, m k = m' k) -> forall k, fold_left spec_add ops m k = fold_left spec_add ops m' k).
    { clear. induction ops as [|op ops IH]; intros m m' H k; cbn [fold_left]; [apply H|]. apply IH. intro k'. unfold spec_add, update.
      rewrite H. destruct (key_eq_dec _ _); auto. }
    apply Ext. intros [[c|] i]; reflexivity. }
  assert (Dp : d_plural D = hd pf_none (plurals (all_said own path))).
  { unfold D. rewrite calls_plural.
    - cbn [new_dictionary d_plural]. change (pf_valid pf_none) with false. cbv iota. now destruct (plurals _).
    - unfold all_said. clear -A4. apply Forall_forall. intros c Hc. apply in_concat in Hc as (x & Hx & Hc).
      apply in_map_iff in Hx as (y & <- & Hy). rewrite <- in_rev in Hy. specialize (A4 y Hy). rewrite Forall_forall in A4. apply EndToEnd.proper_sound, A4, Hc. }
  assert (Pl : forall d', lookup d' = lookup D -> d_plural d' = d_plural D ->
     (forall msgid pl num, fst (translate_plural d' msgid pl num) = spec_translate_plural (fold_left spec_add (adds (all_said own path)) (fun _ => None)) (hd pf_none (plurals (all_said own path))) (None, msgid) pl num) /\
     (forall c msgid pl num, fst (translate_ctxt_plural d' c msgid pl num) = spec_translate_plural (fold_left spec_add (adds (all_said own path)) (fun _ => None)) (hd pf_none (plurals (all_said own path))) (Some c, msgid) pl num)).
  { intros d' E1 E2. split; intros; [rewrite translate_plural_spec|rewrite translate_ctxt_plural_spec]; rewrite E1, E2, Dp;
      apply spec_translate_plural_ext, Dl. }
  assert (Ctx : forall c, existsb (fun p => said_context c (own p)) path = if assoc c (d_ctxt D) then true else false).
  { intro c. pose proof (all_ctxt cs own path c) as X. fold D in X. destruct (assoc c (d_ctxt D)).
    - destruct (existsb _ path); [reflexivity|]. discriminate (proj2 X eq_refl).
    - now apply X. }
  destruct (is_nil (get_country l)) eqn:Z.
  - assert (Ec : get_country l = []) by (now destruct (get_country l)). rewrite (Nc Ec).
    assert (Bn : forall k, first_said base path k = None).
    { intro k. unfold first_said. clear -HB. induction path as [|p path IH]; [reflexivity|]. cbn [first_some]. rewrite HB. exact IH. }
    split; [|split; [|now apply Pl]].
    + intros depth msgid. rewrite translate_flat by exact Dn. rewrite D0, Bn. cbn [or_else]. now destruct (first_said own path _).
    + intros depth c msgid. rewrite translate_ctxt_flat by exact Dn. rewrite D0, Bn. cbn [or_else].
      destruct (first_said own path _); [reflexivity|]. now destruct (existsb _ path).
  - assert (Ec : get_country l <> []) by (intro X; now rewrite X in Z).
    destruct (Yc Ec) as (b & q & Eb & Ib & Cb & _ & -> & Hq). destruct (L2 Ec) as (b' & Eb' & B1 & B2 & B3).
    change (cf_ndebug run) with (cf_ndebug cf) in Eb. rewrite Eb in Eb'. injection Eb' as <-. rewrite B2 in Hq.
    set (E := fold_left apply_call (all_said base path) (new_dictionary cs)) in *.
    assert (E0 : forall k, form0 E k = first_said base path k) by (intro k; now apply all_form0).
    assert (En : d_has_fallback E = false) by (unfold E; now rewrite (proj1 (calls_fields _ _))).
    split; [|split; [|now apply Pl]].
    + intros depth msgid. rewrite (translate_over depth (m_heap m') D q E msgid En Hq), D0, E0. unfold or_else.
      now destruct (first_said own path _).
    + intros depth c msgid. rewrite (translate_ctxt_over depth (m_heap m') D q E c msgid En Hq), D0, E0, Ctx. unfold or_else.
      destruct (first_said own path _); [reflexivity|]. now destruct (assoc c (d_ctxt D)).
Qed.
Print Assumptions C82_answers_are_the_converted_texts.

(** Every directory that can be listed, whose .po files can be read to a final newline or not
    at all, says exactly one thing, whatever is in the files. *)
Theorem C82_every_directory_says_one_thing :
  forall (cf : config) (T : translator) (o : os_state) (to : bytes) (l : language) (p : bytes) (files : list bytes),
  cf_strict cf = false -> os_dir o p = Some files ->
  (forall f b, In f files -> os_file o (p ++ bs "/" ++ f) = Some b -> complete b) ->
  exists! calls, says cf T o to l p calls.
Proof.
  intros cf T o to l p files St D H.
  assert (Cl : Forall (clean (cf_strict cf)) files) by (apply Forall_forall; intros f _ S; congruence).
  assert (U : forall bf f af bf' f' af', os_dir o p = Some (bf ++ f :: af) -> os_dir o p = Some (bf' ++ f' :: af') ->
     (forall g, In g bf -> (rating cf l g < rating cf l f)%Z) -> (forall g, In g af -> (rating cf l g <= rating cf l f)%Z) ->
     (forall g, In g bf' -> (rating cf l g < rating cf l f')%Z) -> (forall g, In g af' -> (rating cf l g <= rating cf l f')%Z) -> f = f').
  { intros bf f af bf' f' af' E1 E2 H1 H2 H3 H4. rewrite E1 in E2. injection E2 as E. exact (split_unique _ (rating cf l) bf f af bf' f' af' E H1 H2 H3 H4). }
  destruct (pbest_clean cf l files Cl ([], 0%Z)) as (b & t & E).
  destruct (pbest_ret cf l _ _ _ _ E) as [[-> M]|(bf & f & af & Ef & -> & A1 & A2 & A3)]; [cbn; lia| |].
  - assert (N : forall f, In f files -> ~ candidate cf l f) by (intros f Hf Ca; apply cand_score in Ca; specialize (M f Hf); cbn [snd] in M; lia).
    exists []. split; [exact (says_nothing cf T o to l p files D N)|].
    assert (X : forall bf f af, os_dir o p = Some (bf ++ f :: af) -> candidate cf l f -> False).
    { intros bf f af E1 Ca. rewrite D in E1. injection E1 as ->. apply (N f); [apply in_or_app; right; now left|exact Ca]. }
    intros c [fl D' N'|bf f af D' Ca H1 H2 F|bf f af b sgs D' Ca H1 H2 F Co Sl So]; [reflexivity|destruct (X _ _ _ D' Ca)|destruct (X _ _ _ D' Ca)].
  - subst files. assert (Ca : candidate cf l f) by (now apply cand_score).
    assert (B1 : forall g, In g bf -> (rating cf l g < rating cf l f)%Z) by (intros g Hg; rewrite !rating_score; now apply A2).
    assert (B2 : forall g, In g af -> (rating cf l g <= rating cf l f)%Z) by (intros g Hg; rewrite !rating_score; now apply A3).
    assert (X : forall fl, os_dir o p = Some fl -> (forall f, In f fl -> ~ candidate cf l f) -> False).
    { intros fl D' N'. rewrite D in D'. injection D' as <-. apply (N' f); [apply in_or_app; right; now left|exact Ca]. }
    destruct (os_file o (p ++ bs "/" ++ f)) as [b|] eqn:F.
    + assert (Co : complete b) by (apply (H f b); [apply in_or_app; right; now left|exact F]).
      destruct (Damage.C66_every_file_has_segments b Co) as (sgs & [S1 S2] & Un).
      eexists. split; [exact (says_file cf T o to l p bf f af b sgs D Ca B1 B2 F Co S1 S2)|].
      intros c [fl D' N'|bf' f' af' D' Ca' H1 H2 F'|bf' f' af' b' sgs' D' Ca' H1 H2 F' Co' Sl So]; [destruct (X fl D' N')| |];
        rewrite (U _ _ _ _ _ _ D D' B1 B2 H1 H2) in F; rewrite F in F'; [discriminate F'|].
      injection F' as <-. now rewrite (Un sgs' (conj Sl So)).
    + exists []. split; [exact (says_unreadable cf T o to l p bf f af D Ca B1 B2 F)|].
      intros c [fl D' N'|bf' f' af' D' Ca' H1 H2 F'|bf' f' af' b' sgs' D' Ca' H1 H2 F' Co' Sl So]; [reflexivity|reflexivity|].
      rewrite (U _ _ _ _ _ _ D D' B1 B2 H1 H2) in F. rewrite F in F'. discriminate F'.
Qed.
Print Assumptions C82_every_directory_says_one_thing.

(** The promise is kept by every iconv(3) that offers stateless conversions which make at
    most four bytes of each byte: a text becomes the conversion of its longest valid prefix. *)
Definition iconv_table (tab : bytes -> bytes -> option stepper) : iconv_impl := {|
  ic_state := stepper;
  ic_open := fun to from => match tab from to with Some step => inl step | None => inr (EINVAL, []) end;
  ic_conv := fun step text cap => (step, fst (conv_loop step (length text) text [] cap), snd (conv_loop step (length text) text [] cap));
  ic_reset := fun step => step |}.
Theorem C82_stateless_converters_serve :
  forall tab : bytes -> bytes -> option stepper,
  (forall from to step, tab from to = Some step -> stepper_ok step) ->
  serves (iconv_table tab) (fun from to => match tab from to with
                                           | Some step => Some (fun text => fst (conversion step text))
                                           | None => None
                                           end).
Proof.
  intros tab H. exists (fun from to step => tab from to = Some step). split.
  - intros from to. cbn [iconv_table ic_open]. destruct (tab from to) as [step|]; eauto.
  - intros from to f st text E R. rewrite R in E. injection E as <-. cbn [iconv_table ic_conv ic_state ic_reset].
    pose proof (conv_loop_ok st (H _ _ _ R) (length text) text [] (4 * length text)) as X.
    rewrite X by lia. cbn [fst snd app]. eexists _, _. split; [reflexivity|]. now destruct (snd (converted _ _ _)).
Qed.
Print Assumptions C82_stateless_converters_serve.

(** A disk with a Latin-1 file for de and, for de_AT, one in a charset that is not on offer:
    of the latter only what comes before the header counts. *)
Definition ex_tab (from to : bytes) : option stepper :=
  if bytes_eqb from (bs "ISO-8859-1") && bytes_eqb to (bs "UTF-8") then Some latin1_to_utf8 else None.
Definition ex_T : translator := fun from to =>
  match ex_tab from to with Some step => Some (fun text => fst (conversion step text)) | None => None end.
Definition tab_cf : config := {| cf_pedantic := true; cf_strict := false; cf_ndebug := false; cf_fuel := 0; cf_iconv := iconv_table ex_tab |}.
Definition header_in (charset : bytes) : po_block :=
  {| bl_comments := []; bl_entry := Some {| en_ctxt := None; en_id := rl []; en_body := PoStr
     {| lt_head := {| ck_lead := [c_sp]; ck_body := List.map Raw (bs "Content-Type: text/plain; charset=" ++ charset) ++ [Esc (chr 110)]; ck_trail := [] |}; lt_more := [] |} |} |}.
Definition latin_de : bytes := file [bs "msgid ``"; bs "msgstr `Content-Type: text/plain; charset=iso-8859-1\n`"; bs ""; bs "msgid `a`"; bs "msgstr `" ++ [chr 228] ++ bs "`"].
Definition klingon_at : bytes := file [bs "msgid `b`"; bs "msgstr `B`"; bs ""; bs "msgid ``"; bs "msgstr `Content-Type: text/plain; charset=KLINGON\n`"; bs ""; bs "msgid `a`"; bs "msgstr `" ++ [chr 228] ++ bs "`"].
Definition foreign_shelf : os_state := {|
  os_dir := fun p => if bytes_eqb p (bs "hi") then Some [bs "de.po"; bs "de_AT.po"] else None;
  os_file := fun f => if bytes_eqb f (bs "hi/de.po") then Some latin_de
                      else if bytes_eqb f (bs "hi/de_AT.po") then Some klingon_at else None |}.
Definition latin_segs : list DamageSpec.segment := [DamageSpec.Whole (header_in (bs "iso-8859-1")) []; DamageSpec.Whole (Damage.ex_block (bs "a") [chr 228]) []].
Definition klingon_segs : list DamageSpec.segment :=
  [DamageSpec.Whole (Damage.ex_block (bs "b") (bs "B")) []; DamageSpec.Whole (header_in (bs "KLINGON")) []; DamageSpec.Whole (Damage.ex_block (bs "a") [chr 228]) []].
Lemma header_in_ok cs rest : forallb plain_char (bs "Content-Type: text/plain; charset=" ++ cs) = true ->
  DamageSpec.seg_ok false (DamageSpec.Whole (header_in cs) []) rest.
Proof.
  intro H. split; [split; [constructor|]|apply DocUnique.nil_separator]. cbn [header_in bl_entry]. split; [exact Logic.I|]. split; [now apply rl_ok|].
  split; [|intro X; discriminate X].
  constructor; [|constructor]. split; [repeat constructor|]. split; [intros [E|[]]; discriminate|]. split; [|split; [intros []|intro X; discriminate X]].
  apply Forall_app. split; [|constructor; [discriminate|constructor]]. apply Forall_map, Forall_forall. intros c Hc. apply plain_char_raw.
  revert c Hc. now apply forallb_forall.
Qed.
Lemma block_in_ok i s rest : forallb plain_char i = true -> forallb plain_char s = true -> i <> [] -> DamageSpec.seg_ok false (DamageSpec.Whole (Damage.ex_block i s) []) rest.
Proof. intros H1 H2 H3. split; [now apply Damage.ex_block_fine|apply DocUnique.nil_separator]. Qed.
Example C82_nonvacuous :
  let own p := file_says ex_T utf8 (fun text => text) (DamageSpec.segs_entries klingon_segs) in
  let base p := file_says ex_T utf8 (fun text => text) (DamageSpec.segs_entries latin_segs) in
  let path := [bs "hi"] in
  cf_strict tab_cf = false /\ serves (cf_iconv tab_cf) ex_T /\
  (forall p, In p path -> says tab_cf ex_T foreign_shelf utf8 de_AT p (own p)) /\
  from_spec (cf_ndebug tab_cf) (get_language de_AT) [] [] = Ret de /\
  (forall p, In p path -> says tab_cf ex_T foreign_shelf utf8 de p (base p)) /\
  (exists m', session (with_fuel tab_cf 60) (unix_file_system foreign_shelf) (new_manager utf8)
     [OpSetLanguage de; OpAddDirectory (bs "hi") true; OpGetDictionary] m') /\
  own (bs "hi") = [CallAdd (AddSingular None (bs "b") (bs "B"))] /\
  base (bs "hi") = [CallAdd (AddSingular None (bs "a") [chr 195; chr 164])] /\
  (first_said own path (None, bs "a"), first_said base path (None, bs "a"), first_said own path (None, bs "b")) =
  (None, Some [chr 195; chr 164], Some (bs "B")).
Proof.
  intros own base path. split; [reflexivity|]. split.
  { apply C82_stateless_converters_serve. intros from to step. unfold ex_tab. destruct (_ && _); [|discriminate]. intro E. injection E as <-. apply C39_nonvacuous. }
  split; [|split; [vm_compute; reflexivity|split; [|split; [|split; [|split]]]]]; try (vm_compute; reflexivity).
  - intros p [<-|[]].
    apply (says_file tab_cf ex_T foreign_shelf utf8 de_AT (bs "hi") [bs "de.po"] (bs "de_AT.po") [] klingon_at klingon_segs).
    + reflexivity.
    + eexists. split; vm_compute; reflexivity.
    + intros g [<-|[]]; vm_compute; reflexivity.
    + intros g [].
    + reflexivity.
    + right. exists (removelast klingon_at). vm_compute. reflexivity.
    + vm_compute. reflexivity.
    + split; [now apply block_in_ok|]. split; [now apply header_in_ok|]. split; [now apply block_in_ok|exact Logic.I].
  - intros p [<-|[]].
    apply (says_file tab_cf ex_T foreign_shelf utf8 de (bs "hi") [] (bs "de.po") [bs "de_AT.po"] latin_de latin_segs).
    + reflexivity.
    + eexists. split; vm_compute; reflexivity.
    + intros g [].
    + intros g [<-|[]]; vm_compute; discriminate.
    + reflexivity.
    + right. exists (removelast latin_de). vm_compute. reflexivity.
    + vm_compute. reflexivity.
    + split; [now apply header_in_ok|]. split; [now apply block_in_ok|exact Logic.I].
  - eexists. repeat (eapply session_cons; [vm_compute; reflexivity|]). apply session_nil.
Qed.
