(** Properties of POParser::parse on arbitrary files: C59 (every addition comes from an
    entry of the file) and the general form of C37. The vocabulary is in
    Spec/SoundSpec.v and Spec/PoSpec.v. *)
From Verif.Model Require Import Base Log PluralForms Dictionary IConv Stream PoParser.
From Verif.Spec Require Import DictSpec IConvSpec ParserSpec.
From Verif.Proofs Require Import BaseFacts DictProofs LexProofs ParserUnary ParserRel ParserSafe ParserFuel ParserLocal
  ParserBlank ParserTerm DocText ParserAscii ParserStrict DocSound.
From Verif.Spec Require Import PoSpec SoundSpec.
From Verif.Properties Require Import Parser Document.
Local Open Scope list_scope.

(** C59. Whatever bytes the file consists of, its lines can be cut into skipped lines
    and entries, written out with the very lines that stand in the file, such that the
    parse's dictionary calls are exactly those the entries mean, in that order, with the
    converter the headers before them set up. (A run that is undefined because of C37 is
    excluded.) *)
Theorem C59_every_call_comes_from_an_entry :
  forall (cf : config) (fn b : bytes) (d : dictionary) (n : nat),
  let r := po_parse (with_fuel cf n) fn (stream_of b) d in
  pr_outcome r <> Ub UbCtype ->
  exists (ps : list piece_of_file) (rest : list bytes),
    file_lines b = pieces_lines ps ++ rest /\
    entries_ok false false (pieces_entries ps) /\
    pr_calls r = pieces_calls ps /\
    @explained (cf_iconv cf) (cf_ndebug cf) (d_charset d) [] ps.
Proof.
  intros cf fn b d n r H. unfold r in *.
  destruct (strict_or_ub (with_fuel cf n) fn (stream_of b) d) as [E|E]; [contradiction|]. rewrite E.
  exact (parse_sound (set_strict (with_fuel cf n) false) fn b d eq_refl).
Qed.

(** Without headers that name another charset, that is what the entries say literally. *)
Theorem C59_every_call_is_literal :
  forall (cf : config) (fn b : bytes) (d : dictionary) (n : nat),
  let r := po_parse (with_fuel cf n) fn (stream_of b) d in
  pr_outcome r <> Ub UbCtype ->
  exists (ps : list piece_of_file) (rest : list bytes),
    file_lines b = pieces_lines ps ++ rest /\
    entries_ok false false (pieces_entries ps) /\
    (own_charset (d_charset d) (pieces_entries ps) ->
     pr_calls r = List.concat (List.map entry_calls (pieces_entries ps))).
Proof.
  intros cf fn b d n r H. destruct (C59_every_call_comes_from_an_entry cf fn b d n H) as (ps & rest & H1 & H2 & H3 & H4).
  exists ps, rest. split; [exact H1|]. split; [exact H2|]. intro Ho. unfold r. rewrite H3.
  eapply (explained_own _ _ _ _ []); [exact Ho|exact H4].
Qed.

(** So nothing is made up: if after a parse some message is translated differently from
    before, then the file contains an entry for exactly that message, context included. *)
Definition entry_key (e : po_entry) : key := (opt_value (en_ctxt e), lit_value (en_id e)).

Lemma read_entry_keys (I : iconv_impl) ndb charset (c : iconv I) e o c' calls :
  read_entry ndb charset c e = (o, c', calls) -> Forall (fun op => op_key op = entry_key e) (adds calls).
Proof.
  unfold read_entry. destruct (en_body e) as [m|p rows].
  - destruct (is_nil (lit_value (en_id e))).
    + destruct (set_charsets _ _ _ _) as [[o1 c1] t1]. intro E. injection E as _ _ <-.
      induction (hdr_plurals (lit_value m)); cbn; auto.
    + destruct (is_nil (lit_value m)); [intro E; injection E as _ _ <-; constructor|].
      destruct (convert ndb c (lit_value m)) as [[o1 c1] t1]. destruct o1; intro E; injection E as _ _ <-; cbn [adds]; repeat constructor.
  - destruct (convert_rows _ _ _) as [o1 c1]. destruct o1; intro E; injection E as _ _ <-; try constructor.
    destruct (forallb _ rows); cbn [adds]; repeat constructor.
Qed.

Lemma adds_app a b : adds (a ++ b) = adds a ++ adds b.
Proof. induction a as [|[op|p] a IH]; cbn; [reflexivity|now rewrite IH|exact IH]. Qed.

Lemma explained_keys (I : iconv_impl) ndb charset ps : forall before, @explained I ndb charset before ps ->
  forall op, In op (adds (pieces_calls ps)) -> exists e, In e (pieces_entries ps) /\ op_key op = entry_key e.
Proof.
  induction ps as [|p ps IH]; intros before H op Hin; [destruct Hin|].
  cbn [explained] in H. destruct H as [(c & o & c' & _ & R) H].
  unfold pieces_calls in Hin. cbn [List.map List.concat] in Hin. rewrite adds_app in Hin. apply in_app_or in Hin as [Hin|Hin].
  - apply read_entry_keys in R. rewrite Forall_forall in R. exists (pf_entry p). split; [now left|]. now apply R.
  - destruct (IH _ H op Hin) as (e & He & E). exists e. split; [now right|exact E].
Qed.

Lemma untouched_key ops k : forall m, (forall op, In op ops -> op_key op <> k) -> fold_left spec_add ops m k = m k.
Proof.
  induction ops as [|op ops IH]; intros m H; [reflexivity|]. cbn [fold_left]. rewrite IH by (intros; apply H; now right).
  unfold spec_add, update. destruct (key_eq_dec k (op_key op)) as [E|E]; [|reflexivity].
  exfalso. apply (H op); [now left|now symmetry].
Qed.

Theorem C59_nothing_is_made_up :
  forall (cf : config) (fn b : bytes) (d : dictionary) (n : nat),
  let r := po_parse (with_fuel cf n) fn (stream_of b) d in
  pr_outcome r <> Ub UbCtype ->
  exists (ps : list piece_of_file) (rest : list bytes),
    file_lines b = pieces_lines ps ++ rest /\
    entries_ok false false (pieces_entries ps) /\
    forall k, lookup (pr_dict r) k <> lookup d k -> exists e, In e (pieces_entries ps) /\ entry_key e = k.
Proof.
  intros cf fn b d n r H. destruct (C59_every_call_comes_from_an_entry cf fn b d n H) as (ps & rest & H1 & H2 & H3 & H4).
  exists ps, rest. split; [exact H1|]. split; [exact H2|]. intros k Hk.
  destruct (List.existsb (fun e => if key_eq_dec (entry_key e) k then true else false) (pieces_entries ps)) eqn:Ex.
  - apply existsb_exists in Ex as (e & He & E). exists e. split; [exact He|]. destruct (key_eq_dec _ _); [assumption|discriminate].
  - exfalso. apply Hk. unfold r. rewrite (proj1 (parse_effects _ _ _ _)), calls_lookup. apply untouched_key.
    intros op Hop E. rewrite H3 in Hop. destruct (explained_keys _ _ _ _ _ H4 op Hop) as (e & He & Ek).
    assert (Et : List.existsb (fun e => if key_eq_dec (entry_key e) k then true else false) (pieces_entries ps) = true).
    { apply existsb_exists. exists e. split; [exact He|]. destruct (key_eq_dec _ _); [reflexivity|congruence]. }
    congruence.
Qed.

(** A file with an error, an entry and trailing garbage: one entry is found. *)
Definition ex_bad : bytes := file
  [bs "msgid x`"; bs "lost"; bs ""; bs "msgid `a`"; bs "msgstr `A`"; bs "junk"; bs "msgid `b`"; bs "msgstr"].
Example C59_nonvacuous :
  let r := po_parse (with_fuel ex_cf 40) (bs "f.po") (stream_of ex_bad) ex_d in
  pr_outcome r <> Ub UbCtype /\
  pr_calls r = [CallAdd (AddSingular None (bs "a") (bs "A"))] /\
  (exists e, entry_ok false false e /\ entry_calls e = pr_calls r /\ entry_key e = (None, bs "a") /\
     file_lines ex_bad = firstn 3 (file_lines ex_bad) ++ entry_lines e ++ skipn 5 (file_lines ex_bad)) /\
  lookup (pr_dict r) (None, bs "a") <> lookup ex_d (None, bs "a").
Proof.
  split; [vm_compute; discriminate|]. split; [vm_compute; reflexivity|]. split; [|vm_compute; discriminate].
  exists (entry_of (bs "a") (bs "A")). split; [now apply entry_of_ok|].
  split; [vm_compute; reflexivity|]. split; vm_compute; reflexivity.
Qed.

(** C37. In general: on a platform where the ctype functions are undefined for negative
    chars, a parse either is undefined or is, in every observable, the parse of a
    platform where they are defined. *)
Theorem C37_undefined_or_the_same :
  forall (cf : config) (fn : bytes) (i : istream) (d : dictionary),
  pr_outcome (po_parse cf fn i d) = Ub UbCtype \/ po_parse cf fn i d = po_parse (set_strict cf false) fn i d.
Proof. exact strict_or_ub. Qed.
Example C37_both_cases_occur :
  let umlaut := chr 228 :: nil in
  let strict := set_strict ex_cf true in
  let b1 := file [bs "msgid `a`"; bs "msgstr `" ++ umlaut ++ bs "`"] in
  let b2 := file [umlaut] in
  let run c b := po_parse (with_fuel c 40) (bs "f.po") (stream_of b) ex_d in
  (pr_outcome (run strict b1) = Ret tt /\ pr_calls (run strict b1) = [CallAdd (AddSingular None (bs "a") umlaut)] /\
   run strict b1 = run ex_cf b1) /\
  (pr_outcome (run strict b2) = Ub UbCtype /\ pr_outcome (run ex_cf b2) = Ret tt).
Proof. vm_compute. repeat split. Qed.

Print Assumptions C59_every_call_comes_from_an_entry.
Print Assumptions C59_every_call_is_literal.
Print Assumptions C59_nothing_is_made_up.
Print Assumptions C37_undefined_or_the_same.
