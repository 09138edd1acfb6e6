(** Properties of POParser::parse on written PO documents: C23, C24, C25, C28, C34,
    C35, C55. The documents and their meaning are defined in Spec/PoSpec.v. *)
From Verif.Model Require Import Base Log PluralForms Dictionary IConv Stream PoParser.
From Verif.Spec Require Import DictSpec IConvSpec ParserSpec.
From Verif.Proofs Require Import BaseFacts PluralProofs DictProofs LexProofs ParserUnary DocLex ParserRel ParserSafe ParserFuel ParserLocal
  ParserCut ParserBlank ParserTerm ParserLinewise ParserMisc DocProofs DocLoop DocTop DocEnd DocDamage DocText ParserAscii DocUb.
From Verif.Spec Require Import PoSpec.
From Verif.Properties Require Import Parser.
Local Open Scope list_scope.

(** One-line literals of plain characters, for the examples. *)
Definition rl (s : bytes) : literal :=
  {| lt_head := {| ck_lead := [c_sp]; ck_body := List.map Raw s; ck_trail := [] |}; lt_more := [] |}.
Definition plain_char (c : byte) : bool :=
  negb (byte_eqb c c_dq) && negb (byte_eqb c c_bsl) && negb (byte_eqb c c_lf).
Lemma plain_char_raw c : plain_char c = true -> piece_ok false (Raw c).
Proof.
  unfold plain_char. intro H. apply andb_true_iff in H as [H H3]. apply andb_true_iff in H as [H1 H2].
  apply negb_true_iff in H1, H2, H3. cbn.
  repeat split; try (intros ->; rewrite byte_eqb_refl in *; discriminate). discriminate.
Qed.
Lemma rl_ok strict s : forallb plain_char s = true -> lit_ok strict false (rl s).
Proof.
  intro H. constructor; [|constructor]. split; [repeat constructor|]. split; [intros [E|[]]; discriminate|].
  split; [|split; [intros []|intros _; reflexivity]]. cbn. apply Forall_map. rewrite forallb_forall in H.
  apply Forall_forall. intros c Hc. now apply plain_char_raw, H.
Qed.
Definition entry_of (i s : bytes) : po_entry := {| en_ctxt := None; en_id := rl i; en_body := PoStr (rl s) |}.
Lemma entry_of_ok strict i s : forallb plain_char i = true -> forallb plain_char s = true -> i <> [] ->
  entry_ok strict false (entry_of i s).
Proof.
  intros H1 H2 H3. split; [exact Logic.I|]. split; [now apply rl_ok|]. split; [now apply rl_ok|].
  unfold is_header, entry_of. cbn. unfold lit_value. cbn. unfold chunk_value. cbn. destruct i; [congruence|exact Logic.I].
Qed.

(** C24. A file with one entry, its strings spelled in any way: any choice between
    raw characters and escapes, any splitting into quoted lines, any white space
    around the quotes. The values come back, and the dictionary answers with them. *)
Theorem C24_literals_round_trip :
  forall (cf : config) (fn : bytes) (d : dictionary) (ctxt : option bytes) (msgid msgstr : bytes)
         (ctxt_ls msgid_ls msgstr_ls : list bytes),
  opt_spelled ctxt ctxt_ls -> spelled (bs "msgid") msgid msgid_ls -> spelled (bs "msgstr") msgstr msgstr_ls ->
  msgid <> [] -> msgstr <> [] -> clean (cf_strict cf) (d_charset d) ->
  exists r, parses_to cf fn (stream_of (unlines (ctxt_ls ++ msgid_ls ++ msgstr_ls))) d r /\
    pr_outcome r = Ret tt /\ pr_calls r = [CallAdd (AddSingular ctxt msgid msgstr)] /\
    forall fuel h,
      match ctxt with
      | None => fst (translate (S fuel) h (pr_dict r) msgid) = Ret msgstr
      | Some c => fst (translate_ctxt (S fuel) h (pr_dict r) c msgid) = Ret msgstr
      end.
Proof.
  intros cf fn d o i m l1 l2 l3 S1 S2 S3 Hi Hm Hcs.
  destruct (opt_spelled_literal (cf_strict cf) _ _ S1) as (a1 & E1 & V1 & K1).
  destruct (spelled_literal (cf_strict cf) _ _ _ S2) as (a2 & E2 & V2 & K2).
  destruct (spelled_literal (cf_strict cf) _ _ _ S3) as (a3 & E3 & V3 & K3).
  set (e := {| en_ctxt := a1; en_id := a2; en_body := PoStr a3 |}).
  assert (Hh : is_header e = None). { unfold is_header. cbn [en_body en_id e]. rewrite V2, (non_nil i Hi). reflexivity. }
  assert (Hok : doc_ok (cf_strict cf) (lone e)).
  { apply lone_ok. unfold entry_ok. rewrite Hh. cbn [en_ctxt en_id en_body e body_ok]. auto. }
  assert (Ht : doc_text (lone e) = unlines (l1 ++ l2 ++ l3)).
  { rewrite lone_text. unfold entry_lines. cbn [en_ctxt en_id en_body e body_lines]. now rewrite E1, E2, E3. }
  destruct (doc_terminates cf fn (lone e) d) as (r & P). exists r.
  pose proof (parse_doc cf fn (lone e) d r Hok Hcs P) as [O C]. rewrite Ht in P.
  destruct (read_entries_plain (cf_ndebug cf) (d_charset d) (doc_entries (lone e)) (iconv_new (cf_iconv cf)) eq_refl) as (c' & R & _).
  { constructor; [rewrite Hh; exact Logic.I|constructor]. }
  rewrite R in O, C. cbn [fst snd] in O, C.
  assert (C' : pr_calls r = [CallAdd (AddSingular o i m)]).
  { rewrite C. cbn [doc_entries blocks_entries lone dc_blocks dc_last bl_entry opt_list List.map List.concat app]. unfold entry_calls. cbn [en_body en_id en_ctxt e]. rewrite V1, V2, V3, (non_nil i Hi), (non_nil m Hm). reflexivity. }
  split; [exact P|]. split; [exact O|]. split; [exact C'|]. intros fuel h.
  assert (L : exists rest, lookup (pr_dict r) (o, i) = Some (m :: rest)).
  { rewrite (proj1 (parses_to_effects _ _ _ _ _ P)), C', calls_lookup. cbn. unfold spec_add, update, op_key.
    destruct (key_eq_dec (o, i) (o, i)) as [_|N]; [|congruence]. cbn [new_forms]. eauto. }
  destruct L as [rest L]. destruct o as [c|]; [eapply found_translate_ctxt|eapply found_translate]; exact L.
Qed.

(** The same for plural entries: every msgstr[n] comes back as form n. *)
Theorem C24_plural_literals_round_trip :
  forall (cf : config) (fn : bytes) (d : dictionary) (ctxt : option bytes) (msgid msgid_plural : bytes)
         (rows : list (nat * bytes)) (ctxt_ls msgid_ls plural_ls : list bytes) (rows_ls : list (list bytes)),
  opt_spelled ctxt ctxt_ls -> spelled (bs "msgid") msgid msgid_ls ->
  spelled (bs "msgid_plural") msgid_plural plural_ls ->
  Forall2 (fun r ls => spelled (bs "msgstr[" ++ [digit_of (fst r); c_rbr]) (snd r) ls) rows rows_ls ->
  Forall (fun r => fst r < 10) rows -> Exists (fun r => snd r <> []) rows ->
  clean (cf_strict cf) (d_charset d) ->
  exists r, parses_to cf fn (stream_of (unlines (ctxt_ls ++ msgid_ls ++ plural_ls ++ List.concat rows_ls))) d r /\
    pr_outcome r = Ret tt /\ pr_calls r = [CallAdd (AddPlural ctxt msgid msgid_plural (forms rows))].
Proof.
  intros cf fn d o i p rows l1 l2 l3 l4 S1 S2 S3 S4 Hn Hne Hcs.
  destruct (opt_spelled_literal (cf_strict cf) _ _ S1) as (a1 & E1 & V1 & K1).
  destruct (spelled_literal (cf_strict cf) _ _ _ S2) as (a2 & E2 & V2 & K2).
  destruct (spelled_literal (cf_strict cf) _ _ _ S3) as (a3 & E3 & V3 & K3).
  destruct (spelled_rows (cf_strict cf) _ _ S4) as (a4 & E4 & V4 & K4).
  set (e := {| en_ctxt := a1; en_id := a2; en_body := PoPlural a3 a4 |}).
  assert (Hh : is_header e = None) by reflexivity.
  assert (Hok : doc_ok (cf_strict cf) (lone e)).
  { apply lone_ok. unfold entry_ok. rewrite Hh. cbn [en_ctxt en_id en_body e body_ok]. split; [exact K1|]. split; [exact K2|]. split; [|exact Logic.I].
    split; [exact K3|]. split. { intros ->. cbn in V4. subst rows. inversion Hne. }
    rewrite <- V4, Forall_map in Hn. cbn [fst] in Hn. rewrite Forall_forall in *. intros x Hx. split; [now apply Hn|now apply K4]. }
  assert (Ht : doc_text (lone e) = unlines (l1 ++ l2 ++ l3 ++ List.concat l4)).
  { rewrite lone_text. unfold entry_lines. cbn [en_ctxt en_id en_body e body_lines]. now rewrite E1, E2, E3, E4. }
  destruct (doc_terminates cf fn (lone e) d) as (r & P). exists r.
  pose proof (parse_doc cf fn (lone e) d r Hok Hcs P) as [O C]. rewrite Ht in P.
  destruct (read_entries_plain (cf_ndebug cf) (d_charset d) (doc_entries (lone e)) (iconv_new (cf_iconv cf)) eq_refl) as (c' & R & _).
  { constructor; [rewrite Hh; exact Logic.I|constructor]. }
  rewrite R in O, C. cbn [fst snd] in O, C. split; [exact P|]. split; [exact O|].
  rewrite C. cbn [doc_entries blocks_entries lone dc_blocks dc_last bl_entry opt_list List.map List.concat app].
  unfold entry_calls. cbn [en_body en_id en_ctxt e]. rewrite V1, V2, V3, V4.
  assert (Hf : forallb (fun r => is_nil (lit_value (snd r))) a4 = false).
  { apply not_true_iff_false. intro K. rewrite forallb_forall in K. apply Exists_exists in Hne as (x & Hx & Hv).
    rewrite <- V4 in Hx. apply in_map_iff in Hx as (y & <- & Hy). cbn [snd] in Hv. specialize (K y Hy). cbv beta in K.
    destruct (lit_value (snd y)); [congruence|discriminate]. }
  rewrite Hf. reflexivity.
Qed.

(** Nothing is excluded: every byte string can be spelled, in particular on one line. *)
Theorem C24_every_string_can_be_spelled :
  forall keyword v, exists t, spelled keyword v [keyword ++ [c_sp; c_dq] ++ t ++ [c_dq]].
Proof.
  intros kw v. exists (escape v). exists [v], ([c_sp] ++ c_dq :: escape v ++ c_dq :: []), [].
  cbn [List.concat]. rewrite app_nil_r. split; [reflexivity|]. split; [|reflexivity].
  apply (q_cons v (escape v) [c_sp] []); [apply escape_written|repeat constructor|intros [E|[]]; discriminate|constructor|intros []|constructor].
Qed.

(** A string of quotes, backslashes, newlines, NUL and a high byte over two lines. *)
Definition ex_v1 : bytes := [c_dq; c_bsl; chr 200].
Definition ex_v2 : bytes := [c_lf; chr 0; chr 9; c_bsl].
Example C24_nonvacuous :
  spelled (bs "msgid") (ex_v1 ++ ex_v2)
    [bs "msgid " ++ c_dq :: escape ex_v1 ++ [c_dq; c_sp]; [chr 9; c_sp; c_dq] ++ escape ex_v2 ++ [c_dq]] /\
  spelled (bs "msgstr") (bs "x") [q (bs "msgstr``"); q (bs "`x`")].
Proof.
  split.
  - exists [ex_v1; ex_v2], ([c_sp] ++ c_dq :: escape ex_v1 ++ c_dq :: [c_sp]), [[chr 9; c_sp] ++ c_dq :: escape ex_v2 ++ c_dq :: []].
    split; [reflexivity|]. split; [|reflexivity].
    apply (q_cons ex_v1 _ [c_sp] [c_sp]); [apply escape_written|repeat constructor|intros [E|[]]; discriminate|repeat constructor|intros [E|[]]; discriminate|].
    apply (q_cons ex_v2 _ [chr 9; c_sp] []); [apply escape_written|repeat constructor|intros [E|[E|[]]]; discriminate|constructor|intros []|constructor].
  - exists [[]; bs "x"], (c_dq :: [c_dq]), [c_dq :: bs "x" ++ [c_dq]].
    split; [reflexivity|]. split; [|reflexivity].
    apply (q_cons [] [] [] []); [constructor|constructor|intros []|constructor|intros []|].
    apply (q_cons (bs "x") (bs "x") [] []); [|constructor|intros []|constructor|intros []|constructor].
    apply w_raw; try discriminate. constructor.
Qed.

(** C25. Any well-formed document (Spec/PoSpec.v): parsing always finishes, and what
    it does is the meaning of the document: its entries one after the other, each
    converted by the charset converter that its latest header set up. *)
Theorem C25_document_is_read_as_written :
  forall (cf : config) (fn : bytes) (D : document) (d : dictionary),
  doc_ok (cf_strict cf) D -> clean (cf_strict cf) (d_charset d) ->
  exists r, parses_to cf fn (stream_of (doc_text D)) d r /\
    let m := read_entries (cf_ndebug cf) (d_charset d) (iconv_new (cf_iconv cf)) (doc_entries D) in
    pr_outcome r = fst (fst m) /\ pr_calls r = snd m.
Proof.
  intros cf fn D d HD Hcs. destruct (doc_terminates cf fn D d) as (r & P). exists r. split; [exact P|].
  exact (parse_doc cf fn D d r HD Hcs P).
Qed.

(** If its headers, if any, name the dictionary's charset, no converter is involved:
    the dictionary afterwards is the old one updated with the entries in order. *)
Theorem C25_catalogue_read_back :
  forall (cf : config) (fn : bytes) (D : document) (d : dictionary),
  doc_ok (cf_strict cf) D -> clean (cf_strict cf) (d_charset d) -> own_charset (d_charset d) (doc_entries D) ->
  let calls := List.concat (List.map entry_calls (doc_entries D)) in
  let m := fold_left spec_add (adds calls) (lookup d) in
  let p := if pf_valid (get_plural_forms d) then get_plural_forms d
           else match plurals calls with p :: _ => p | [] => get_plural_forms d end in
  exists r, parses_to cf fn (stream_of (doc_text D)) d r /\
    pr_outcome r = Ret tt /\ pr_calls r = calls /\
    (forall k, lookup (pr_dict r) k = m k) /\
    (forall msgid pl n, fst (translate_plural (pr_dict r) msgid pl n) = spec_translate_plural m p (None, msgid) pl n) /\
    (forall c msgid pl n,
       fst (translate_ctxt_plural (pr_dict r) c msgid pl n) = spec_translate_plural m p (Some c, msgid) pl n) /\
    (d_has_fallback d = false -> forall fuel h,
       (forall msgid, fst (translate (S fuel) h (pr_dict r) msgid) = Ret (spec_translate m (None, msgid))) /\
       (forall c msgid, fst (translate_ctxt (S fuel) h (pr_dict r) c msgid) = Ret (spec_translate m (Some c, msgid)))).
Proof.
  intros cf fn D d HD Hcs Ho calls m p.
  destruct (doc_terminates cf fn D d) as (r & P). exists r.
  pose proof (parse_doc cf fn D d r HD Hcs P) as [O C].
  destruct (read_entries_plain (cf_ndebug cf) (d_charset d) (doc_entries D) (iconv_new (cf_iconv cf)) eq_refl Ho) as (c' & R & _).
  rewrite R in O, C. cbn [fst snd] in O, C. fold calls in C.
  destruct (parses_to_effects _ _ _ _ _ P) as [E S]. rewrite C in E, S.
  assert (L : forall k, lookup (pr_dict r) k = m k) by (intro k; rewrite E; apply calls_lookup).
  assert (Pl : d_plural (pr_dict r) = p) by (rewrite E; now apply calls_plural).
  split; [exact P|]. split; [exact O|]. split; [exact C|]. split; [exact L|]. split; [|split].
  - intros. rewrite translate_plural_spec, Pl. unfold spec_translate_plural. now rewrite L.
  - intros. rewrite translate_ctxt_plural_spec, Pl. unfold spec_translate_plural. now rewrite L.
  - intros Hf fuel h.
    assert (Hf' : d_has_fallback (pr_dict r) = false) by (rewrite E; now rewrite (proj1 (calls_fields calls d))).
    split; intros; [rewrite translate_nofb_spec|rewrite translate_ctxt_nofb_spec]; try exact Hf'; f_equal; now apply spec_translate_ext.
Qed.

(** Entries without any translation leave no trace. *)
Theorem C25_untranslated_entries_add_nothing :
  forall e, lit_value (en_id e) <> [] ->
  (match en_body e with
   | PoStr m => lit_value m = []
   | PoPlural _ rows => Forall (fun r => lit_value (snd r) = []) rows
   end) -> entry_calls e = [].
Proof.
  intros e Hi H. unfold entry_calls. destruct (en_body e) as [m|p rows].
  - rewrite (non_nil _ Hi), H. reflexivity.
  - assert (E : forallb (fun r => is_nil (lit_value (snd r))) rows = true).
    { rewrite forallb_forall. rewrite Forall_forall in H. intros x Hx. rewrite (H x Hx). reflexivity. }
    now rewrite E.
Qed.

(** A document with comments, a header, a contextual and a plural entry, and an
    untranslated one. *)
Definition ex_hdr : po_entry :=
  {| en_ctxt := None; en_id := rl [];
     en_body := PoStr {| lt_head := {| ck_lead := [c_sp]; ck_body := []; ck_trail := [] |};
       lt_more := [{| ck_lead := []; ck_body := List.map Raw (bs "Content-Type: text/plain; charset=utf-8") ++ [Esc (chr 110)]; ck_trail := bs " x" |};
                   {| ck_lead := bs " "; ck_body := List.map Raw (bs "Plural-Forms: nplurals=2; plural=(n != 1);") ++ [Esc (chr 110)]; ck_trail := [] |}] |} |}.
Definition ex_plural : po_entry :=
  {| en_ctxt := Some (rl (bs "menu")); en_id := rl (bs "file");
     en_body := PoPlural (rl (bs "files")) [(1, rl (bs "Dateien")); (0, rl (bs "Datei"))] |}.
Definition ex_doc : document :=
  {| dc_blocks := [({| bl_comments := [bs "# Title"; bs "#, fuzzy"]; bl_entry := Some ex_hdr |}, bs "");
                   ({| bl_comments := [bs "#: a.c:1"]; bl_entry := Some ex_plural |}, bs "# note");
                   ({| bl_comments := []; bl_entry := None |}, bs "  ")];
     dc_last := {| bl_comments := []; bl_entry := Some (entry_of (bs "untranslated") []) |} |}.
Lemma one_line_b l : forallb (fun c => negb (byte_eqb c c_lf)) l = true -> one_line l.
Proof. intros H Hin. rewrite forallb_forall in H. specialize (H _ Hin). rewrite byte_eqb_refl in H. discriminate. Qed.
Lemma ex_hdr_ok strict : entry_ok strict false ex_hdr.
Proof.
  assert (N : piece_ok false (Esc (chr 110))) by (vm_compute; discriminate).
  assert (R : forall l, forallb plain_char l = true -> Forall (piece_ok false) (List.map Raw l ++ [Esc (chr 110)])).
  { intros l Hl. apply Forall_app. split; [|repeat constructor; exact N]. apply Forall_map. rewrite forallb_forall in Hl.
    apply Forall_forall. intros c Hc. now apply plain_char_raw, Hl. }
  split; [exact Logic.I|]. split; [now apply rl_ok|]. split; [|intros _; vm_compute; reflexivity].
  repeat apply Forall_cons; try apply Forall_nil; (split; [repeat constructor|]); (split; [now apply one_line_b|]);
    (split; [first [apply Forall_nil | apply R; reflexivity]|]); (split; [now apply one_line_b|]); intros _; reflexivity.
Qed.
Lemma ex_plural_ok strict : entry_ok strict false ex_plural.
Proof.
  split; [now apply rl_ok|]. split; [now apply rl_ok|]. split; [|exact Logic.I]. split; [now apply rl_ok|].
  split; [discriminate|]. apply Forall_cons; [|apply Forall_cons; [|apply Forall_nil]]; (split; [cbn; lia|now apply rl_ok]).
Qed.
Lemma comment_line l : forallb (fun c => negb (byte_eqb c c_lf)) l = true -> is_comment (c_hash :: l).
Proof.
  intro H. exists l. split; [reflexivity|now apply one_line_b].
Qed.
Lemma ex_doc_ok strict : doc_ok strict ex_doc.
Proof.
  split; [|split; [constructor|]].
  - repeat apply Forall_cons; try apply Forall_nil; (split; [repeat apply Forall_cons; try apply Forall_nil; now apply comment_line|]).
    + split; [exact blank_nil|intro E; discriminate E].
    + split; [|intro E; discriminate E]. split; [now apply one_line_b|]. right. right. exists c_sp, (bs "note"). split; reflexivity.
    + split; [|repeat constructor]. split; [now apply one_line_b|]. left. repeat constructor.
  - split; [apply ex_hdr_ok|]. change (big5_after false ex_hdr) with false. split; [apply ex_plural_ok|].
    change (big5_after false ex_plural) with false. split; [now apply entry_of_ok|exact Logic.I].
Qed.
Example C25_nonvacuous :
  doc_ok true ex_doc /\ own_charset (d_charset ex_d) (doc_entries ex_doc) /\
  (exists pf, List.concat (List.map entry_calls (doc_entries ex_doc))
     = [CallPlural pf; CallAdd (AddPlural (Some (bs "menu")) (bs "file") (bs "files") [bs "Datei"; bs "Dateien"])]) /\
  doc_text ex_doc = file
    [bs "# Title"; bs "#, fuzzy"; bs "msgid ``"; bs "msgstr ``"; bs "`Content-Type: text/plain; charset=utf-8\n` x";
     bs " `Plural-Forms: nplurals=2; plural=(n != 1);\n`"; bs ""; bs "#: a.c:1"; bs "msgctxt `menu`"; bs "msgid `file`";
     bs "msgid_plural `files`"; bs "msgstr[1] `Dateien`"; bs "msgstr[0] `Datei`"; bs "# note"; bs "  ";
     bs "msgid `untranslated`"; bs "msgstr ``"].
Proof.
  split; [apply ex_doc_ok|]. split; [|split].
  - repeat constructor.
  - eexists. vm_compute. reflexivity.
  - vm_compute. reflexivity.
Qed.

(** C34. A header (the msgstr of the empty msgid), spelled in any way, whose value is
    [h]. [hdr_charset h] is the charset it names: what follows
    'Content-Type: text/plain; charset=' on the last such newline-terminated line,
    upper-cased; UTF-8 if there is none, or it is empty or CHARSET. The converter
    requested from iconv is exactly from that charset to the dictionary's, and none is
    requested if they agree. *)
Lemma header_entry strict id_ls h_ls h :
  spelled (bs "msgid") [] id_ls -> spelled (bs "msgstr") h h_ls -> clean strict h ->
  exists e, entry_lines e = id_ls ++ h_ls /\ is_header e = Some h /\ entry_ok strict false e /\
    (forall I nd cs (c : iconv I), read_entry nd cs c e =
      let '(o, c', _) := set_charsets false c (hdr_charset h) cs in (o, c', List.map CallPlural (hdr_plurals h))) /\
    entry_calls e = List.map CallPlural (hdr_plurals h).
Proof.
  intros S2 S3 Hc.
  destruct (spelled_literal strict _ _ _ S2) as (a2 & E2 & V2 & K2).
  destruct (spelled_literal strict _ _ _ S3) as (a3 & E3 & V3 & K3).
  exists {| en_ctxt := None; en_id := a2; en_body := PoStr a3 |}.
  assert (Hh : is_header {| en_ctxt := None; en_id := a2; en_body := PoStr a3 |} = Some h).
  { unfold is_header. cbn [en_body en_id]. rewrite V2, V3. reflexivity. }
  split. { unfold entry_lines. cbn [en_ctxt en_id en_body ctxt_lines body_lines app]. now rewrite E2, E3. }
  split; [exact Hh|]. split.
  { unfold entry_ok. rewrite Hh. cbn [en_ctxt en_id en_body body_ok]. auto. }
  split.
  - intros I nd cs c. unfold read_entry. cbn [en_body en_id]. rewrite V2, V3. reflexivity.
  - unfold entry_calls. cbn [en_body en_id]. rewrite V2, V3. reflexivity.
Qed.
Theorem C34_header_selects_the_converter :
  forall (cf : config) (fn : bytes) (d : dictionary) (h : bytes) (id_ls h_ls : list bytes),
  spelled (bs "msgid") [] id_ls -> spelled (bs "msgstr") h h_ls ->
  clean (cf_strict cf) h -> clean (cf_strict cf) (d_charset d) ->
  let from := List.map toupper (hdr_charset h) in let to := List.map toupper (d_charset d) in
  exists r, parses_to cf fn (stream_of (unlines (id_ls ++ h_ls))) d r /\
    pr_calls r = List.map CallPlural (hdr_plurals h) /\
    (to = from -> pr_outcome r = Ret tt) /\
    (to <> from -> match ic_open (cf_iconv cf) (c_str to) (c_str from) with
                   | inl _ => pr_outcome r = Ret tt
                   | inr (e, text) => pr_outcome r = Exn (ExRuntime (cannot_convert from to e text))
                   end).
Proof.
  intros cf fn d h l1 l2 S1 S2 Hc Hcs from to.
  destruct (header_entry _ _ _ _ S1 S2 Hc) as (e & El & Hh & He & Hr & _).
  destruct (doc_terminates cf fn (lone e) d) as (r & P). exists r.
  pose proof (parse_doc cf fn (lone e) d r (lone_ok _ _ He) Hcs P) as [O C].
  rewrite lone_text, El in P. split; [exact P|].
  cbn [doc_entries blocks_entries lone dc_blocks dc_last bl_entry opt_list List.map List.concat app read_entries] in O, C.
  rewrite Hr in O, C. clear Hr. unfold set_charsets in O, C. cbn [andb] in O, C. fold from to in O, C.
  destruct (bytes_eqb to from) eqn:E.
  - apply bytes_eqb_eq in E. cbn [fst snd] in O, C. rewrite app_nil_r in C. split; [exact C|]. split; [auto|congruence].
  - destruct (ic_open _ _ _) as [st|[e1 t1]]; cbn [fst snd] in O, C; rewrite ?app_nil_r in C; (split; [exact C|]); (split; [|]).
    + auto.
    + auto.
    + intro K. rewrite K, bytes_eqb_refl in E. discriminate.
    + intros _. rewrite O. unfold cannot_convert. destruct e1; reflexivity.
Qed.

(** A translation after the header is passed through exactly that converter. *)
Theorem C34_translations_are_converted :
  forall (cf : config) (fn : bytes) (d : dictionary) (h msgid msgstr : bytes) (id_ls h_ls msgid_ls msgstr_ls : list bytes),
  spelled (bs "msgid") [] id_ls -> spelled (bs "msgstr") h h_ls ->
  clean (cf_strict cf) h -> clean (cf_strict cf) (d_charset d) ->
  spelled (bs "msgid") msgid msgid_ls -> spelled (bs "msgstr") msgstr msgstr_ls -> msgid <> [] -> msgstr <> [] ->
  hdr_charset h <> bs "BIG5" ->
  let from := List.map toupper (hdr_charset h) in let to := List.map toupper (d_charset d) in
  let f := unlines (id_ls ++ h_ls ++ [] :: msgid_ls ++ msgstr_ls) in
  let added v := List.map CallPlural (hdr_plurals h) ++ [CallAdd (AddSingular None msgid v)] in
  exists r, parses_to cf fn (stream_of f) d r /\
    (to = from -> pr_outcome r = Ret tt /\ pr_calls r = added msgstr) /\
    (forall st st' out err, to <> from -> ic_open (cf_iconv cf) (c_str to) (c_str from) = inl st ->
       ic_conv (cf_iconv cf) st msgstr (4 * length msgstr) = (st', out, err) ->
       err = None \/ err = Some EILSEQ \/ err = Some EINVAL ->
       pr_outcome r = Ret tt /\ pr_calls r = added out).
Proof.
  intros cf fn d h i m l1 l2 l3 l4 S1 S2 Hc Hcs S3 S4 Hi Hm H5 from to f added.
  destruct (header_entry _ _ _ _ S1 S2 Hc) as (e & El & Hh & He & Hr & _).
  destruct (spelled_literal (cf_strict cf) _ _ _ S3) as (a3 & E3 & V3 & K3).
  destruct (spelled_literal (cf_strict cf) _ _ _ S4) as (a4 & E4 & V4 & K4).
  set (e2 := {| en_ctxt := None; en_id := a3; en_body := PoStr a4 |}).
  assert (Hh2 : is_header e2 = None). { unfold is_header. cbn [en_body en_id e2]. rewrite V3, (non_nil i Hi). reflexivity. }
  assert (B5 : big5_after false e = false).
  { unfold big5_after. rewrite Hh. cbn [orb]. apply not_true_iff_false. intro K. apply bytes_eqb_eq in K. contradiction. }
  assert (He2 : entry_ok (cf_strict cf) (big5_after false e) e2).
  { rewrite B5. unfold entry_ok. rewrite Hh2. cbn [en_ctxt en_id en_body e2 body_ok]. auto. }
  assert (El2 : entry_lines e2 = l3 ++ l4).
  { unfold entry_lines. cbn [en_ctxt en_id en_body e2 ctxt_lines body_lines app]. now rewrite E3, E4. }
  destruct (doc_terminates cf fn (two e e2) d) as (r & P). exists r.
  pose proof (parse_doc cf fn (two e e2) d r (two_ok _ _ _ He He2) Hcs P) as [O C].
  rewrite two_text, El, El2, <- app_assoc in P. split; [exact P|].
  cbn [doc_entries blocks_entries two fst dc_blocks dc_last bl_entry opt_list List.map List.concat app read_entries] in O, C.
  rewrite Hr in O, C. clear Hr. unfold set_charsets in O, C. cbn [andb] in O, C. fold from to in O, C.
  assert (Rd : forall (c : iconv (cf_iconv cf)) v c' ev, convert (cf_ndebug cf) c m = (Ret v, c', ev) ->
    read_entry (cf_ndebug cf) (d_charset d) c e2 = (Ret tt, c', [CallAdd (AddSingular None i v)])).
  { intros c v c' ev Hv. unfold read_entry. cbn [en_body en_id en_ctxt e2]. rewrite V3, V4, (non_nil i Hi), (non_nil m Hm), Hv. reflexivity. }
  split.
  - intro E. rewrite E, bytes_eqb_refl in O, C.
    set (c0 := {| cv_to := from; cv_from := from; cv_cd := CdNull; cv_next := cv_next (iconv_new (cf_iconv cf)) |}) in *.
    rewrite (Rd c0 m c0 [] (convert_null _ c0 m eq_refl)) in O, C. cbn [fst snd] in O, C. rewrite app_nil_r in C. auto.
  - intros st st' out err N Ho Hv Hx.
    assert (E : bytes_eqb to from = false). { apply not_true_iff_false. intro K. apply bytes_eqb_eq in K. contradiction. }
    rewrite E, Ho in O, C. cbv beta iota in O, C.
    set (c1 := {| cv_to := to; cv_from := from; cv_cd := CdOpen (cv_next (iconv_new (cf_iconv cf))) st; cv_next := S (cv_next (iconv_new (cf_iconv cf))) |}) in *.
    assert (Q : exists c' ev, convert (cf_ndebug cf) c1 m = (Ret out, c', ev)).
    { unfold convert. cbn [cv_cd c1]. rewrite Hv. destruct Hx as [->|[->| ->]]; do 2 eexists; reflexivity. }
    destruct Q as (c' & ev & Q). rewrite (Rd _ _ _ _ Q) in O, C. cbn [fst snd] in O, C. rewrite app_nil_r in C. auto.
Qed.

Example C34_nonvacuous :
  hdr_charset (bs "") = bs "UTF-8" /\
  hdr_charset (bs "A: b" ++ [c_lf] ++ bs "Content-Type: text/plain; charset=" ++ [c_lf]) = bs "UTF-8" /\
  hdr_charset (bs "Content-Type: text/plain; charset=charset" ++ [c_lf]) = bs "UTF-8" /\
  hdr_charset (bs "Content-Type: text/plain; charset=koi8-r" ++ [c_lf]) = bs "KOI8-R" /\
  hdr_charset (bs "Content-Type: text/plain; charset=a" ++ [c_lf] ++ bs "Content-Type: text/html" ++ [c_lf] ++
               bs "Content-Type: text/plain; charset=iso-8859-1" ++ [c_lf] ++ bs "Content-Type: text/plain; charset=cut")
    = bs "ISO-8859-1" /\
  spelled (bs "msgid") [] [q (bs "msgid ``")] /\
  (exists ls, spelled (bs "msgstr") (bs "Content-Type: text/plain; charset=koi8-r" ++ [c_lf]) ls).
Proof.
  repeat (split; [vm_compute; reflexivity|]). split.
  - exists [[]], [c_sp; c_dq; c_dq], []. split; [reflexivity|]. split; [|reflexivity].
    apply (q_cons [] [] [c_sp] []); [constructor|repeat constructor|intros [E|[]]; discriminate|constructor|intros []|constructor].
  - destruct (C24_every_string_can_be_spelled (bs "msgstr") (bs "Content-Type: text/plain; charset=koi8-r" ++ [c_lf])) as [t H].
    eauto.
Qed.

(** C35. After a header that declares BIG5, double-byte characters are copied as they
    are, whatever their second byte is (here with a BIG5 dictionary, so that no
    conversion hides the effect). *)
Lemma big5_pieces v : big5_chars v ->
  exists ps, List.concat (List.map piece_text ps) = v /\ List.concat (List.map piece_value ps) = v /\ Forall (piece_ok true) ps.
Proof.
  induction 1 as [|c v H1 H2 H3 H4 _ (ps & E1 & E2 & F)|a b v H1 H2 _ (ps & E1 & E2 & F)].
  - exists []. repeat split; constructor.
  - exists (Raw c :: ps). cbn [List.map List.concat piece_text piece_value app]. rewrite E1, E2. split; [reflexivity|]. split; [reflexivity|].
    constructor; [|exact F]. split; [exact H1|]. split; [exact H2|]. split; [exact H3|auto].
  - exists (Pair a b :: ps). cbn [List.map List.concat piece_text piece_value app]. rewrite E1, E2. split; [reflexivity|]. split; [reflexivity|].
    constructor; [|exact F]. split; [reflexivity|]. split; [exact H1|exact H2].
Qed.
Definition raw_line (keyword v : bytes) : bytes := keyword ++ [c_sp; c_dq] ++ v ++ [c_dq].
Lemma big5_literal strict kw v : big5_chars v -> exists l, lit_lines kw l = [raw_line kw v] /\ lit_value l = v /\ lit_ok strict true l.
Proof.
  intro H. destruct (big5_pieces v H) as (ps & E1 & E2 & F).
  exists {| lt_head := {| ck_lead := [c_sp]; ck_body := ps; ck_trail := [] |}; lt_more := [] |}.
  unfold lit_lines, lit_value, lit_ok. cbn [lt_head lt_more List.map List.concat]. unfold chunk_text, chunk_value. cbn [ck_lead ck_body ck_trail].
  rewrite E1, E2, app_nil_r. split; [reflexivity|]. split; [reflexivity|]. constructor; [|constructor].
  split; [repeat constructor|]. split; [intros [E|[]]; discriminate|]. split; [exact F|]. split; [intros []|intros _; reflexivity].
Qed.
Theorem C35_big5_characters_pass_through :
  forall (cf : config) (fn : bytes) (d : dictionary) (h msgid msgstr : bytes) (id_ls h_ls : list bytes),
  spelled (bs "msgid") [] id_ls -> spelled (bs "msgstr") h h_ls -> clean (cf_strict cf) h ->
  hdr_charset h = bs "BIG5" -> same_charset (d_charset d) (bs "BIG5") -> clean (cf_strict cf) (d_charset d) ->
  big5_chars msgid -> big5_chars msgstr -> msgid <> [] -> msgstr <> [] ->
  let f := unlines (id_ls ++ h_ls ++ [[]; raw_line (bs "msgid") msgid; raw_line (bs "msgstr") msgstr]) in
  exists r, parses_to cf fn (stream_of f) d r /\ pr_outcome r = Ret tt /\
    pr_calls r = List.map CallPlural (hdr_plurals h) ++ [CallAdd (AddSingular None msgid msgstr)].
Proof.
  intros cf fn d h i m l1 l2 S1 S2 Hc Hb5 Hsame Hcs Hi5 Hm5 Hi Hm f.
  destruct (header_entry _ _ _ _ S1 S2 Hc) as (e & El & Hh & He & _ & Hcalls).
  destruct (big5_literal (cf_strict cf) (bs "msgid") i Hi5) as (a3 & E3 & V3 & K3).
  destruct (big5_literal (cf_strict cf) (bs "msgstr") m Hm5) as (a4 & E4 & V4 & K4).
  set (e2 := {| en_ctxt := None; en_id := a3; en_body := PoStr a4 |}).
  assert (Hh2 : is_header e2 = None). { unfold is_header. cbn [en_body en_id e2]. rewrite V3, (non_nil i Hi). reflexivity. }
  assert (B5 : big5_after false e = true). { unfold big5_after. rewrite Hh, Hb5. reflexivity. }
  assert (He2 : entry_ok (cf_strict cf) (big5_after false e) e2).
  { rewrite B5. unfold entry_ok. rewrite Hh2. cbn [en_ctxt en_id en_body e2 body_ok]. auto. }
  assert (El2 : entry_lines e2 = [raw_line (bs "msgid") i; raw_line (bs "msgstr") m]).
  { unfold entry_lines. cbn [en_ctxt en_id en_body e2 ctxt_lines body_lines app]. now rewrite E3, E4. }
  destruct (doc_terminates cf fn (two e e2) d) as (r & P). exists r.
  pose proof (parse_doc cf fn (two e e2) d r (two_ok _ _ _ He He2) Hcs P) as [O C].
  rewrite two_text, El, El2, <- app_assoc in P. split; [exact P|].
  destruct (read_entries_plain (cf_ndebug cf) (d_charset d) (doc_entries (two e e2)) (iconv_new (cf_iconv cf)) eq_refl) as (c' & R & _).
  { apply Forall_cons; [|apply Forall_cons; [|apply Forall_nil]]; [rewrite Hh, Hb5; unfold same_charset in *; now rewrite Hsame|rewrite Hh2; exact Logic.I]. }
  rewrite R in O, C. cbn [fst snd] in O, C. split; [exact O|]. rewrite C.
  cbn [doc_entries blocks_entries two fst dc_blocks dc_last bl_entry opt_list List.map List.concat app]. rewrite Hcalls, app_nil_r. f_equal.
  unfold entry_calls. cbn [en_body en_id en_ctxt e2]. rewrite V3, V4, (non_nil i Hi), (non_nil m Hm). reflexivity.
Qed.

(** 0xA55C is a BIG5 character whose second byte is a backslash, 0xA522 has a quote. *)
Example C35_nonvacuous :
  big5_chars [chr 165; c_bsl; chr 110; chr 165; c_dq; chr 65] /\
  hdr_charset (bs "Content-Type: text/plain; charset=big5" ++ [c_lf]) = bs "BIG5" /\
  same_charset (bs "Big5") (bs "BIG5") /\
  (* without the header the backslash is taken for an escape *)
  exists r, parses_to ex_cf (bs "f.po") (stream_of (unlines
      [raw_line (bs "msgid") (bs "x"); raw_line (bs "msgstr") [chr 165; c_bsl; chr 110]])) ex_d r /\
    pr_calls r = [CallAdd (AddSingular None (bs "x") [chr 165; c_lf])].
Proof.
  split; [|split; [vm_compute; reflexivity|split; [vm_compute; reflexivity|]]].
  - apply b5_two; [vm_compute; split; discriminate|discriminate|]. apply b5_one; try discriminate; [vm_compute; intros [K _]; apply K; reflexivity|].
    apply b5_two; [vm_compute; split; discriminate|discriminate|]. apply b5_one; try discriminate; [vm_compute; intros [K _]; apply K; reflexivity|]. constructor.
  - eexists. split; [apply (finishes_intro ex_cf _ _ _ 20); vm_compute; exact Logic.I|]. vm_compute. reflexivity.
Qed.

(** C28. A damaged entry [x] (context only; msgid only; msgid and msgid_plural only)
    ended by a blank line, in any document: the good entry [e] after it is lost.
    Without the damaged entry it would have been added. *)
Theorem C28_next_entry_is_swallowed :
  forall (cf : config) (fn : bytes) (d : dictionary) (B : list (po_block * bytes)) (cm : list bytes)
         (x : damaged) (sep : bytes) (vcm : list bytes) (e : po_entry) (sep2 : bytes) (D : document),
  let strict := cf_strict cf in let b5 := big5_end false (blocks_entries B) in
  Forall block_ok B -> Forall is_comment cm -> damaged_ok strict b5 x -> is_blank sep ->
  Forall (solid_comment strict) vcm -> entry_ok strict b5 e -> is_header e = None ->
  white sep2 -> one_line sep2 ->
  Forall block_ok (dc_blocks D) -> Forall is_comment (bl_comments (dc_last D)) ->
  entries_ok strict false (blocks_entries B ++ doc_entries D) ->
  own_charset (d_charset d) (blocks_entries B ++ doc_entries D) -> clean strict (d_charset d) ->
  let damaged_file := unlines (blocks_lines B ++ cm ++ damaged_lines x ++ sep :: vcm ++ entry_lines e ++ sep2 :: doc_lines D) in
  let intact_file := unlines (blocks_lines B ++ vcm ++ entry_lines e ++ sep2 :: doc_lines D) in
  let before := List.concat (List.map entry_calls (blocks_entries B)) in
  let behind := List.concat (List.map entry_calls (doc_entries D)) in
  (exists r, parses_to cf fn (stream_of damaged_file) d r /\ pr_outcome r = Ret tt /\
     pr_calls r = before ++ behind) /\
  (exists r, parses_to cf fn (stream_of intact_file) d r /\ pr_outcome r = Ret tt /\
     pr_calls r = before ++ entry_calls e ++ behind).
Proof.
  intros cf fn d B cm x sep vcm e sep2 D strict b5 HB Hcm Hx Hsep Hvc He Hh Hw Ho1 HD1 HD2 Hes Hown Hcs F1 F2 before behind.
  assert (Hb2 : is_blank sep2) by (split; [exact Ho1|now left]).
  split.
  - set (D' := {| dc_blocks := ({| bl_comments := []; bl_entry := None |}, sep2) :: dc_blocks D; dc_last := dc_last D |}).
    assert (El : doc_lines D' = sep2 :: doc_lines D) by reflexivity.
    assert (Ee : doc_entries D' = doc_entries D) by reflexivity.
    assert (Te : exists r, parses_to cf fn (stream_of F1) d r) by apply complete_terminates, unlines_complete.
    destruct Te as (r & P). exists r. split; [exact P|].
    assert (H : pr_outcome r = Ret tt /\ pr_calls r = List.concat (List.map entry_calls (blocks_entries B ++ doc_entries D))).
    { destruct (read_entries_plain (cf_ndebug cf) (d_charset d) (blocks_entries B ++ doc_entries D) (iconv_new (cf_iconv cf)) eq_refl Hown) as (c' & R & _).
      pose proof (parse_damaged cf fn B cm x sep vcm e D' d r HB Hcm Hx Hsep Hvc He) as K.
      rewrite El, Ee in K. cbv zeta in K. rewrite R in K. apply K; auto.
      apply Forall_cons; [|exact HD1]. split; [constructor|]. split; [exact Hb2|auto]. }
    rewrite map_app, concat_app in H. exact H.
  - set (D' := {| dc_blocks := B ++ ({| bl_comments := vcm; bl_entry := Some e |}, sep2) :: dc_blocks D; dc_last := dc_last D |}).
    assert (El : doc_lines D' = blocks_lines B ++ vcm ++ entry_lines e ++ sep2 :: doc_lines D).
    { unfold doc_lines. cbn [dc_blocks dc_last D']. rewrite map_app, concat_app. cbn [List.map List.concat fst snd].
      unfold block_lines at 2. cbn [bl_comments bl_entry]. unfold blocks_lines. rewrite <- !app_assoc. reflexivity. }
    assert (Ee : doc_entries D' = blocks_entries B ++ e :: doc_entries D).
    { unfold doc_entries, blocks_entries. cbn [dc_blocks dc_last D']. rewrite map_app, concat_app, <- app_assoc. reflexivity. }
    assert (HD : doc_ok strict D').
    { split; [|split; [exact HD2|]].
      - apply Forall_app. split; [exact HB|]. apply Forall_cons; [|exact HD1]. split; [|split; [exact Hb2|intro K; discriminate K]].
        eapply Forall_impl; [|exact Hvc]. intros l (y & l' & -> & O & _). exists (y :: l'). auto.
      - rewrite Ee. apply entries_ok_app in Hes as [He1 He2]. apply entries_ok_app. split; [exact He1|]. split; [exact He|].
        assert (K : big5_after b5 e = b5) by (unfold big5_after; now rewrite Hh). fold b5. rewrite K. exact He2. }
    assert (Hown' : own_charset (d_charset d) (doc_entries D')).
    { rewrite Ee. apply Forall_app in Hown as [O1 O2]. apply Forall_app. split; [exact O1|]. constructor; [rewrite Hh; exact Logic.I|exact O2]. }
    destruct (C25_catalogue_read_back cf fn D' d HD Hcs Hown') as (r & P & O & C & _). exists r.
    unfold doc_text in P. rewrite El in P. split; [exact P|]. split; [exact O|]. rewrite C, Ee, map_app, concat_app. reflexivity.
Qed.

Example C28_nonvacuous :
  damaged_ok true false (NoStr None (rl (bs "forgotten"))) /\ entry_ok true false (entry_of (bs "a") (bs "A")) /\
  solid_comment true (bs "#: x.c") /\
  exists r, parses_to ex_cf (bs "f.po") (stream_of (file
      [bs "msgid `forgotten`"; bs ""; bs "#: x.c"; bs "msgid `a`"; bs "msgstr `A`"; bs ""; bs "msgid `b`"; bs "msgstr `B`"])) ex_d r /\
    pr_calls r = [CallAdd (AddSingular None (bs "b") (bs "B"))].
Proof.
  split; [split; [exact Logic.I|now apply rl_ok]|]. split; [now apply entry_of_ok|]. split.
  - exists ":"%char, (bs " x.c"). split; [reflexivity|]. split; [now apply one_line_b|]. split; [reflexivity|]. intros _. reflexivity.
  - eexists. split; [apply (finishes_intro ex_cf _ _ _ 30); vm_compute; exact Logic.I|]. vm_compute. reflexivity.
Qed.

(** C23. [b] is a well-formed document minus its last newline, and its last line is a
    comment that begins a block, a msgstr[N] line or its continuation, or a
    continuation line of a msgstr: parsing it never ends. First for documents that
    need no conversion; then for builds without assertions, where conversions that
    could be set up cannot fail. *)
Theorem C23_parse_never_returns :
  forall (cf : config) (fn : bytes) (D : document) (b : bytes) (d : dictionary),
  doc_ok (cf_strict cf) D -> clean (cf_strict cf) (d_charset d) -> own_charset (d_charset d) (doc_entries D) ->
  unterminated_hangs (dc_last D) -> doc_text D = b ++ [c_lf] ->
  diverges cf fn (stream_of b) d.
Proof.
  intros cf fn D b d HD Hcs Ho Hu Hb. unfold doc_entries in Ho. apply Forall_app in Ho as [Ho _].
  destruct (read_entries_plain (cf_ndebug cf) (d_charset d) (blocks_entries (dc_blocks D)) (iconv_new (cf_iconv cf)) eq_refl Ho) as (c' & R & N).
  eapply doc_diverges; eauto. split; [congruence|auto].
Qed.
Theorem C23_parse_never_returns_after_conversions :
  forall (cf : config) (fn : bytes) (D : document) (b : bytes) (d : dictionary),
  cf_ndebug cf = true ->
  doc_ok (cf_strict cf) D -> clean (cf_strict cf) (d_charset d) ->
  fst (fst (read_entries true (d_charset d) (iconv_new (cf_iconv cf)) (blocks_entries (dc_blocks D)))) = Ret tt ->
  unterminated_hangs (dc_last D) -> doc_text D = b ++ [c_lf] ->
  diverges cf fn (stream_of b) d.
Proof.
  intros cf fn D b d Hnd HD Hcs Hr Hu Hb.
  destruct (read_entries true (d_charset d) (iconv_new (cf_iconv cf)) (blocks_entries (dc_blocks D))) as [[o c'] calls] eqn:R.
  cbn [fst] in Hr. subst o.
  eapply doc_diverges; eauto; rewrite Hnd; [exact R|]. split; [|now left].
  eapply read_entries_valid; [|exact R]. discriminate.
Qed.

Definition ex_hang_comment : document :=
  {| dc_blocks := [({| bl_comments := []; bl_entry := Some (entry_of (bs "a") (bs "A")) |}, [])];
     dc_last := {| bl_comments := [bs "#~ old"]; bl_entry := None |} |}.
Definition ex_hang_plural : document :=
  {| dc_blocks := []; dc_last := {| bl_comments := []; bl_entry := Some ex_plural |} |}.
Example C23_nonvacuous :
  (doc_ok true ex_hang_comment /\ own_charset (bs "UTF-8") (doc_entries ex_hang_comment) /\
   unterminated_hangs (dc_last ex_hang_comment) /\
   doc_text ex_hang_comment = q (bs "msgid `a`") ++ c_lf :: q (bs "msgstr `A`") ++ c_lf :: c_lf :: bs "#~ old" ++ [c_lf]) /\
  (doc_ok true ex_hang_plural /\ unterminated_hangs (dc_last ex_hang_plural)) /\
  (* the continuation line of a header *)
  (doc_ok true (lone ex_hdr) /\ unterminated_hangs (dc_last (lone ex_hdr))).
Proof.
  split; [|split].
  - split; [|split; [repeat constructor|split; [discriminate|vm_compute; reflexivity]]].
    split; [|split].
    + apply Forall_cons; [|apply Forall_nil]. split; [constructor|]. split; [exact blank_nil|intro E; discriminate E].
    + apply Forall_cons; [now apply comment_line|apply Forall_nil].
    + split; [now apply entry_of_ok|exact Logic.I].
  - split; [apply lone_ok, ex_plural_ok|exact Logic.I].
  - split; [apply lone_ok, ex_hdr_ok|discriminate].
Qed.

(** C55. If instead the last line is the only line of a msgstr, the missing newline does no
    harm: parsing finishes with the same outcome and the same dictionary calls as with
    the newline. *)
Theorem C55_missing_newline_after_msgstr_is_harmless :
  forall (cf : config) (fn : bytes) (D : document) (b : bytes) (d : dictionary),
  doc_ok (cf_strict cf) D -> clean (cf_strict cf) (d_charset d) ->
  one_line_msgstr (dc_last D) -> doc_text D = b ++ [c_lf] ->
  exists r r', parses_to cf fn (stream_of b) d r /\ parses_to cf fn (stream_of (b ++ [c_lf])) d r' /\
    pr_outcome r = pr_outcome r' /\ pr_calls r = pr_calls r' /\ pr_dict r = pr_dict r'.
Proof.
  intros cf fn D b d HD Hcs Hu Hb. unfold one_line_msgstr in Hu.
  destruct (bl_entry (dc_last D)) as [e|] eqn:Ee; [|contradiction]. destruct (en_body e) as [m|] eqn:Em; [|contradiction].
  destruct (end_one_line_terminates cf fn D e m b d HD Ee Em Hu Hb) as (r & P).
  destruct (doc_terminates cf fn D d) as (r' & P'). exists r, r'. rewrite <- Hb. split; [exact P|]. split; [exact P'|].
  destruct (end_parse_one_line cf fn D e m b d r HD Hcs Ee Em Hu Hb P) as [O C].
  destruct (parse_doc cf fn D d r' HD Hcs P') as [O' C'].
  split; [congruence|]. assert (K : pr_calls r = pr_calls r') by congruence. split; [exact K|].
  rewrite (proj1 (parses_to_effects _ _ _ _ _ P)), (proj1 (parses_to_effects _ _ _ _ _ P')). now rewrite K.
Qed.

Example C55_nonvacuous :
  doc_ok true ex_doc /\ one_line_msgstr (dc_last ex_doc) /\ exists b, doc_text ex_doc = b ++ [c_lf].
Proof.
  split; [apply ex_doc_ok|]. split; [reflexivity|]. exists (removelast (doc_text ex_doc)). vm_compute. reflexivity.
Qed.

(** C37. Where the ctype functions are undefined for negative chars. For an ASCII file
    (and dictionary charset) that makes no difference at all: every observable of the
    parse is the same as with permissive ctype functions; in particular nothing is
    undefined. *)
Theorem C37_ascii_files_are_safe :
  forall (cf : config) (fn b : bytes) (d : dictionary),
  existsb hi b = false -> existsb hi (d_charset d) = false ->
  (forall r, parses_to cf fn (stream_of b) d r <-> parses_to (set_strict cf false) fn (stream_of b) d r) /\
  (forall n, pr_outcome (po_parse (with_fuel cf n) fn (stream_of b) d) <> Ub UbCtype).
Proof.
  intros cf fn b d Hb Hd.
  assert (E : forall n, po_parse (with_fuel cf n) fn (stream_of b) d = po_parse (with_fuel (set_strict cf false) n) fn (stream_of b) d).
  { intro n. exact (ascii_parse (with_fuel cf n) fn b d Hb Hd). }
  split.
  - intro r. unfold parses_to. split; intros [H [N K]]; (split; [exact H|]); exists N; intros n Hn; specialize (K n Hn); rewrite E in *; exact K.
  - intros n H. rewrite E in H. apply C21_no_ub_while_running in H as [_ H]. discriminate.
Qed.

(** But a line that begins with a non-ASCII character where an entry is expected (after
    any well-formed blocks) makes the behaviour undefined. *)
Theorem C37_non_ascii_line_is_undefined :
  forall (cf : config) (fn : bytes) (d : dictionary) (B : list (po_block * bytes)) (w : bytes) (c : byte) (l : bytes) (ls : list bytes),
  cf_strict cf = true -> Forall block_ok B -> entries_ok true false (blocks_entries B) ->
  clean true (d_charset d) -> own_charset (d_charset d) (blocks_entries B) ->
  white w -> hi c = true -> Forall one_line ((w ++ c :: l) :: ls) -> starts_with bom (c :: l) = false ->
  exists r, parses_to cf fn (stream_of (unlines (blocks_lines B ++ (w ++ c :: l) :: ls))) d r /\
    pr_outcome r = Ub UbCtype.
Proof.
  intros cf fn d B w c l ls Hs HB He Hcs Ho Hw Hc Hls Hbom.
  destruct (read_entries_plain (cf_ndebug cf) (d_charset d) (blocks_entries B) (iconv_new (cf_iconv cf)) eq_refl Ho) as (cv & R & _).
  destruct (parse_ub cf fn B w c l ls d cv _ Hs HB He Hcs R Hw Hc Hls Hbom) as (r & P & O & _). eauto.
Qed.

Example C37_nonvacuous :
  existsb hi (doc_text ex_doc) = false /\ length (doc_text ex_doc) = 268 /\
  Forall block_ok (dc_blocks ex_doc) /\ entries_ok true false (blocks_entries (dc_blocks ex_doc)) /\
  hi (chr 228) = true /\ Forall one_line [[c_sp] ++ chr 228 :: bs "hnlich"] /\ starts_with bom (chr 228 :: bs "hnlich") = false.
Proof.
  split; [vm_compute; reflexivity|]. split; [vm_compute; reflexivity|].
  destruct (ex_doc_ok true) as (H1 & H2 & H3). split; [exact H1|]. split; [unfold doc_entries in H3; apply entries_ok_app in H3; apply H3|].
  split; [reflexivity|]. split; [|reflexivity]. apply Forall_cons; [now apply one_line_b|apply Forall_nil].
Qed.

Print Assumptions C24_literals_round_trip.
Print Assumptions C24_plural_literals_round_trip.
Print Assumptions C24_every_string_can_be_spelled.
Print Assumptions C25_document_is_read_as_written.
Print Assumptions C25_catalogue_read_back.
Print Assumptions C25_untranslated_entries_add_nothing.
Print Assumptions C34_header_selects_the_converter.
Print Assumptions C34_translations_are_converted.
Print Assumptions C35_big5_characters_pass_through.
Print Assumptions C28_next_entry_is_swallowed.
Print Assumptions C23_parse_never_returns.
Print Assumptions C23_parse_never_returns_after_conversions.
Print Assumptions C55_missing_newline_after_msgstr_is_harmless.
Print Assumptions C37_ascii_files_are_safe.
Print Assumptions C37_non_ascii_line_is_undefined.
