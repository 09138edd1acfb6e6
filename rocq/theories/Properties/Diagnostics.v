(** C60: what POParser::parse logs. The expected log is defined in Spec/DiagSpec.v. *)
From Verif.Model Require Import Base Log PluralForms Dictionary IConv Stream PoParser.
From Verif.Spec Require Import DictSpec IConvSpec ParserSpec.
From Verif.Proofs Require Import BaseFacts DictProofs LexProofs ParserUnary ParserRel ParserSafe ParserFuel ParserLocal
  ParserBlank ParserTerm DocText DocTop DocLog ParserLines ParserSaid ParserPedantic.
From Verif.Spec Require Import PoSpec DiagSpec.
From Verif.Properties Require Import Parser Document.
Local Open Scope list_scope.

(** C60. The log of a well-formed document that needs no conversion, message by message
    (in either pedantic mode, into any dictionary). *)
Theorem C60_exact_log :
  forall (cf : config) (fn : bytes) (D : document) (d : dictionary),
  doc_ok (cf_strict cf) D -> clean (cf_strict cf) (d_charset d) -> own_charset (d_charset d) (doc_entries D) ->
  exists r, parses_to cf fn (stream_of (doc_text D)) d r /\
    pr_outcome r = Ret tt /\ pr_trace r = doc_log fn (cf_pedantic cf) d D.
Proof.
  intros cf fn D d HD Hcs Ho. destruct (C25_catalogue_read_back cf fn D d HD Hcs Ho) as (r & P & O & _).
  exists r. split; [exact P|]. split; [exact O|]. eapply parse_doc_log; eassumption.
Qed.

(** Tidy documents are read in silence. *)
Lemma tidy_string_notes ck : tidy_string ck -> string_notes ck = [].
Proof.
  intros [H1 H2]. unfold string_notes, trail_notes.
  assert (E : List.concat (List.map piece_notes (ck_body ck)) = []).
  { induction H1 as [|p ps Hp _ IH]; [reflexivity|]. cbn [List.map List.concat]. rewrite IH. destruct p; try reflexivity. destruct Hp. }
  rewrite E. assert (F : forallb isspace (ck_trail ck) = true) by (apply forallb_forall; apply Forall_forall; exact H2).
  rewrite F. reflexivity.
Qed.
Lemma tidy_more fn pd cks : Forall (fun ck => length (ck_lead ck) <> 1 /\ tidy_string ck) cks -> forall n, more_log fn pd n cks = [].
Proof.
  induction 1 as [|ck cks [H1 H2] _ IH]; intro n; [reflexivity|]. cbn [more_log]. unfold more_notes.
  rewrite (tidy_string_notes _ H2), IH. apply Nat.eqb_neq in H1. rewrite H1, andb_false_r. reflexivity.
Qed.
Lemma tidy_lit_log fn pd n kw l : tidy_lit l -> lit_log fn pd n kw l = [].
Proof.
  intros (H1 & H2 & H3). unfold lit_log, head_notes. rewrite (tidy_more _ _ _ H3), (tidy_string_notes _ H2), H1, bytes_eqb_refl, andb_false_r.
  reflexivity.
Qed.
Lemma tidy_rows_log fn pd rows : Forall (fun r : nat * literal => tidy_lit (snd r)) rows -> forall n, rows_log fn pd n rows = [].
Proof. induction 1 as [|r rows H _ IH]; intro n; [reflexivity|]. cbn [rows_log]. rewrite (tidy_lit_log _ _ _ _ _ H), IH. reflexivity. Qed.

Lemma tidy_entry_log fn pd n next d e : tidy_entry d e -> entry_log fn pd n next d e = [].
Proof.
  intros [(T1 & T2 & T3) H]. unfold entry_log. cbv zeta.
  assert (E1 : forall m, ctxt_log fn pd m (en_ctxt e) = []).
  { intro m. unfold ctxt_log. destruct (en_ctxt e); [now apply tidy_lit_log|reflexivity]. }
  assert (E3 : forall m, body_log fn pd m (en_body e) = []).
  { intro m. unfold body_log. destruct (en_body e); [now apply tidy_lit_log|]. destruct T3 as [T3 T4].
    rewrite (tidy_lit_log _ _ _ _ _ T3), (tidy_rows_log _ _ _ T4). reflexivity. }
  rewrite E1, (tidy_lit_log _ _ _ _ _ T2), E3. cbn [app]. unfold closing_log, is_header, entry_calls in *. clear E1 E3 T1 T2 T3.
  destruct (en_body e) as [m|p rows].
  - destruct (is_nil (lit_value (en_id e))).
    + destruct H as [-> ->]. reflexivity.
    + destruct (is_nil (lit_value m)); [reflexivity|]. destruct H as [H|[H _]]; [discriminate|].
      cbn [adds List.map List.concat]. unfold add_log_of, op_key. rewrite H. reflexivity.
  - destruct (forallb _ rows); [reflexivity|]. destruct H as [H|(H & Hv & Hn)]; [discriminate|].
    cbn [adds List.map List.concat is_nil]. unfold add_log_of, op_key. rewrite H. unfold count_notes. rewrite Hv, Hn, Z.eqb_refl. reflexivity.
Qed.

Lemma tidy_entries_app d a b : tidy_entries d (a ++ b) <-> tidy_entries d a /\ tidy_entries (entries_dict d a) b.
Proof.
  revert d. induction a as [|e a IH]; intro d; cbn [app tidy_entries]; [tauto|]. rewrite IH.
  replace (entries_dict (entries_dict d [e]) a) with (entries_dict d (e :: a)) by (apply (entries_dict_app d [e] a)). tauto.
Qed.
Lemma tidy_block_log fn pd n next d b : tidy_entries d (opt_list (bl_entry b)) -> block_log fn pd n next d b = [].
Proof. unfold block_log. destruct (bl_entry b); [|reflexivity]. intros [H _]. now apply tidy_entry_log. Qed.
Lemma tidy_blocks_log fn pd bl : forall n d, tidy_entries d (blocks_entries bl) -> blocks_log fn pd n d bl = [].
Proof.
  induction bl as [|[b sep] bl IH]; intros n d H; [reflexivity|]. unfold blocks_entries in H. cbn [List.map List.concat fst] in H.
  apply tidy_entries_app in H as [H1 H2]. cbn [blocks_log]. rewrite (tidy_block_log _ _ _ _ _ _ H1). apply IH. exact H2.
Qed.

Theorem C60_tidy_documents_are_silent :
  forall (cf : config) (fn : bytes) (D : document) (d : dictionary),
  doc_ok (cf_strict cf) D -> clean (cf_strict cf) (d_charset d) -> own_charset (d_charset d) (doc_entries D) ->
  tidy_entries d (doc_entries D) ->
  exists r, parses_to cf fn (stream_of (doc_text D)) d r /\ pr_outcome r = Ret tt /\ pr_trace r = [].
Proof.
  intros cf fn D d HD Hcs Ho T. destruct (C60_exact_log cf fn D d HD Hcs Ho) as (r & P & O & L). exists r.
  split; [exact P|]. split; [exact O|]. rewrite L. unfold doc_log, doc_entries in *. apply tidy_entries_app in T as [T1 T2].
  rewrite (tidy_blocks_log _ _ _ _ _ T1), (tidy_block_log _ _ _ _ _ _ T2). reflexivity.
Qed.

(** The document of C25 is irregular in one place only; a document with many irregularities. *)
Definition ex_messy : document :=
  {| dc_blocks := [({| bl_comments := [bs "# x"];
                       bl_entry := Some {| en_ctxt := None; en_id := rl [];
                         en_body := PoStr {| lt_head := {| ck_lead := []; ck_body := []; ck_trail := [] |};
                           lt_more := [{| ck_lead := [c_sp]; ck_body := List.map Raw (bs "Content-Type: x") ++ [Esc (chr 110)]; ck_trail := [] |};
                                       {| ck_lead := []; ck_body := List.map Raw (bs "Plural-Forms: y") ++ [Esc (chr 110)]; ck_trail := [] |}] |} |} |}, bs "#");
                   ({| bl_comments := []; bl_entry := Some (entry_of (bs "a") (bs "A")) |}, []);
                   ({| bl_comments := []; bl_entry := Some (entry_of (bs "a") (bs "B")) |}, [])];
     dc_last := {| bl_comments := [];
                   bl_entry := Some {| en_ctxt := None; en_id := rl (bs "f");
                     en_body := PoPlural (rl (bs "fs")) [(0, {| lt_head := {| ck_lead := [c_sp]; ck_body := [Other "q"%char]; ck_trail := bs " z" |}; lt_more := [] |})] |} |} |}.
Definition texts_of (tr : list event) : list bytes :=
  List.concat (List.map (fun e => match e with EvLog l => [lg_text l] | _ => [] end) tr).
Lemma ex_messy_ok strict : doc_ok strict ex_messy.
Proof.
  assert (N : piece_ok false (Esc (chr 110))) by (vm_compute; discriminate).
  assert (R : forall l, forallb plain_char l = true -> Forall (piece_ok false) (List.map Raw l ++ [Esc (chr 110)])).
  { intros l Hl. apply Forall_app. split; [|repeat constructor; exact N]. apply Forall_map. rewrite forallb_forall in Hl.
    apply Forall_forall. intros c Hc. now apply plain_char_raw, Hl. }
  split; [|split; [constructor|]].
  - repeat apply Forall_cons; try apply Forall_nil; (split; [repeat apply Forall_cons; try apply Forall_nil; now apply comment_line|]);
      (split; [|intro E; discriminate E]); try exact blank_nil.
    split; [now apply one_line_b|]. right. left. reflexivity.
  - split; [|change (big5_after _ _) with false; split; [now apply entry_of_ok|]].
    + split; [exact Logic.I|]. split; [now apply rl_ok|]. split; [|intros _; vm_compute; reflexivity].
      repeat apply Forall_cons; try apply Forall_nil; (split; [repeat constructor|]); (split; [now apply one_line_b|]);
        (split; [first [apply Forall_nil | apply R; reflexivity]|]); (split; [now apply one_line_b|]); intros _; reflexivity.
    + change (big5_after _ _) with false. split; [now apply entry_of_ok|]. change (big5_after _ _) with false. split; [|exact Logic.I].
      split; [exact Logic.I|]. split; [now apply rl_ok|]. split; [|exact Logic.I]. split; [now apply rl_ok|].
      split; [discriminate|]. apply Forall_cons; [|apply Forall_nil]. split; [cbn; lia|].
      repeat apply Forall_cons; try apply Forall_nil. split; [repeat constructor|]. split; [now apply one_line_b|].
      split; [|split; [now apply one_line_b|intros _; reflexivity]]. repeat constructor. discriminate.
Qed.
Lemma rl_tidy s : tidy_lit (rl s).
Proof.
  split; [reflexivity|]. split; [|constructor]. split; [|constructor]. cbn. apply Forall_map, Forall_forall. intros; exact Logic.I.
Qed.
Example C60_nonvacuous :
  doc_ok true ex_messy /\ own_charset (bs "UTF-8") (doc_entries ex_messy) /\
  (let r := po_parse (with_fuel (set_pedantic ex_cf true) 60) (bs "f.po") (stream_of (doc_text ex_messy)) ex_d in
   pr_trace r = doc_log (bs "f.po") true ex_d ex_messy /\
   texts_of (pr_trace r) = List.map (fun l => q l ++ [c_lf])
     [bs "f.po:3: warning: keyword and string must be seperated by a single space: msgstr``";
      bs "f.po:4: warning: leading whitespace before string:  `Content-Type: x\n`";
      bs "f.po:6: warning: malformed Content-Type header: #";
      bs "f.po:6: warning: unknown Plural-Forms given: #";
      bs "f.po:6: warning: charset not specified for .po, fallback to utf-8: #";
      bs "collision in add_translation: 'a' -> 'B' vs 'A'";
      bs "f.po:15: warning: unhandled escape '\q': msgstr[0] `\q` z";
      bs "f.po:15: warning: unexpected garbage after string ignoren: msgstr[0] `\q` z";
      bs "f.po:16: warning: msgstr[N] seen, but no Plural-Forms given: "]) /\
  (tidy_entries ex_d [entry_of (bs "a") (bs "A"); entry_of (bs "b") (bs "B")]).
Proof.
  split; [apply ex_messy_ok|]. split; [repeat constructor|]. split; [split; vm_compute; reflexivity|].
  split; [|split; [|exact Logic.I]]; (split; [split; [exact Logic.I|split; apply rl_tidy]|]); right; (split; [vm_compute; reflexivity|exact Logic.I]).
Qed.

Print Assumptions C60_exact_log.
Print Assumptions C60_tidy_documents_are_silent.

(** C63. Any file at all: every line of the log is one of the diagnostics of
    Spec/DiagSpec.v and quotes the line of the file whose number it gives, or reports a
    collision caused by an addition of this parse, or an invalid multibyte sequence;
    and line numbers do not go far beyond the end. *)
Theorem C63_diagnostics_quote_their_line :
  forall (cf : config) (fn b : bytes) (d : dictionary) (r : parse_result),
  parses_to cf fn (stream_of b) d r ->
  (forall l, In (EvLog l) (pr_trace r) -> diagnostic fn b (pr_lines r) (adds (pr_calls r)) l) /\
  (finished (pr_outcome r) = true -> (pr_lines r <= Z.of_nat (line_count b) + 17)%Z).
Proof.
  intros cf fn b d r H. split; [|intro F; eapply lines_bound; eauto]. destruct H as (_ & N & H).
  rewrite <- (H N (le_n N)). intro l. apply parse_told.
Qed.

(** A damaged file: three errors and a warning; and a one-line file without final
    newline, whose only line is reported as line 2. *)
Example C63_nonvacuous :
  texts_of (pr_trace (po_parse (with_fuel ex_cf 60) (bs "f.po") (stream_of (bom ++ file
      [bs "msgstr `a`"; bs "msgid `b`"; bs ""; bs "msgid `c"; bs ""; bs "msgid `d`"; bs "msgstr `\d`"; bs "junk"])) ex_d))
  = List.map (fun l => q l ++ [c_lf])
    [bs "f.po:1: error: expected 'msgid': msgstr `a`"; bs "f.po:4: error: unexpected end of string: msgid `c";
     bs "f.po:7: warning: unhandled escape '\d': msgstr `\d`"; bs "f.po:8: error: expected empty line: junk"] /\
  texts_of (pr_trace (po_parse (with_fuel ex_cf 60) (bs "f.po") (stream_of (q (bs "msgid `x`"))) ex_d))
  = [q (bs "f.po:2: error: expected 'msgstr' or 'msgid_plural': msgid `x`") ++ [c_lf]] /\
  line_no (q (bs "msgid `x`")) 2 = q (bs "msgid `x`") /\
  line_no (bom ++ file [bs "a"; bs "b"]) 1 = bs "a" /\ line_no (file [bs "a"; bs "b"]) 2 = bs "b" /\ line_no (file [bs "a"; bs "b"]) 9 = [].
Proof. repeat split; vm_compute; reflexivity. Qed.

Print Assumptions C63_diagnostics_quote_their_line.

(** C65. Pedantic mode only adds warnings: whatever the file, the two modes give the same
    outcome, dictionary, dictionary calls and lines read, and the events of the normal
    mode are those of pedantic mode without some of its two extra warnings. This also holds
    for runs cut off after any number of steps. *)
Theorem C65_pedantic_only_adds_warnings :
  forall (cf : config) (fn : bytes) (i : istream) (d : dictionary) (n : nat),
  let on := po_parse (set_pedantic (with_fuel cf n) true) fn i d in
  let off := po_parse (set_pedantic (with_fuel cf n) false) fn i d in
  pr_outcome off = pr_outcome on /\ pr_dict off = pr_dict on /\ pr_calls off = pr_calls on /\ pr_lines off = pr_lines on /\
  thins (pedantic_warning fn) (pr_trace on) (pr_trace off).
Proof. intros [pd strict nd f I] fn i d n. exact (parse_lock I strict nd n fn i d). Qed.

Example C65_nonvacuous :
  let f := stream_of (file [bs "msgid  `a`"; bs "msgstr `\q`"; bs " `b`"; bs "junk"]) in
  let on := po_parse (set_pedantic (with_fuel ex_cf 60) true) (bs "f.po") f ex_d in
  let off := po_parse (set_pedantic (with_fuel ex_cf 60) false) (bs "f.po") f ex_d in
  pr_outcome on = Ret tt /\ pr_calls on = [CallAdd (AddSingular None (bs "a") (bs "\qb"))] /\
  texts_of (pr_trace off) = List.map (fun l => q l ++ [c_lf])
    [bs "f.po:2: warning: unhandled escape '\q': msgstr `\q`"; bs "f.po:4: error: expected empty line: junk"] /\
  texts_of (pr_trace on) = List.map (fun l => q l ++ [c_lf])
    [bs "f.po:1: warning: keyword and string must be seperated by a single space: msgid  `a`";
     bs "f.po:2: warning: unhandled escape '\q': msgstr `\q`";
     bs "f.po:3: warning: leading whitespace before string:  `b`";
     bs "f.po:4: error: expected empty line: junk"].
Proof. repeat split; vm_compute; reflexivity. Qed.

Print Assumptions C65_pedantic_only_adds_warnings.
