(** Streams with an exception mask: C102. [masked_parses_to mk cf fn i d r] is POParser::parse(fn, i, d)
    after i.exceptions(mk); the vocabulary is in Spec/MaskedSpec.v. Streams without a mask are what
    the other theorems are about ([parses_to]). *)
From Verif.Model Require Import Base Log PluralForms Dictionary IConv Stream PoParser Masked.
From Verif.Spec Require Import IConvSpec ParserSpec PoSpec ReadSpec MaskedSpec.
From Verif.Proofs Require Import BaseFacts ParserFuel ParserBreak MaskedLock MaskedFuel MaskedProofs MaskedBlank.
From Verif.Properties Require Import Parser.
Local Open Scope list_scope.

(** C102. Whatever the mask and the stream: a parse that ends without a mask ends with it, and with
    the same result, or with the stream's exception after the first part of the same work. *)
Theorem C102_cut_short :
  forall (mk : mask) (cf : config) (fn : bytes) (i : istream) (d : dictionary) (r : parse_result),
  parses_to cf fn i d r ->
  exists r', masked_parses_to mk cf fn i d r' /\ (r' = r \/ (io_thrown r' /\ cut_short r' r)).
Proof.
  intros mk cf fn i d r H. apply parses_to_elim in H as (n & <- & H).
  pose proof (po_cut mk (with_fuel cf n) fn i d) as C. cbv zeta in C.
  exists (x_po_parse mk (with_fuel cf n) fn i d). split; [|exact C].
  apply masked_intro. destruct C as [C|(C & _)]; [now rewrite C|]. unfold io_thrown in C. rewrite C. discriminate.
Qed.
Theorem C102_one_result :
  forall (mk : mask) (cf : config) (fn : bytes) (i : istream) (d : dictionary) (r1 r2 : parse_result),
  masked_parses_to mk cf fn i d r1 -> masked_parses_to mk cf fn i d r2 -> r1 = r2.
Proof. exact masked_fun. Qed.

(** The exception leaves no iconv descriptor behind: each is used properly and closed once. *)
Theorem C102_descriptors_closed :
  forall (mk : mask) (cf : config) (fn : bytes) (i : istream) (d : dictionary) (r : parse_result),
  masked_parses_to mk cf fn i d r -> io_thrown r ->
  exists n, disciplined None 0 (pr_trace r) = Some (None, n).
Proof. intros mk cf fn i d r (_ & N & H). rewrite <- (H N (le_n _)). apply po_shut. Qed.

(** exceptions(badbit): no difference while reading works ... *)
Theorem C102_badbit_harmless :
  forall (cf : config) (fn : bytes) (i : istream) (d : dictionary) (r : parse_result),
  is_break i = false ->
  masked_parses_to badbit cf fn i d r <-> parses_to cf fn i d r.
Proof.
  intros cf fn i d r B. unfold masked_parses_to, parses_to. split; intros (F & N & H); (split; [exact F|]); exists N; intros n L;
    [rewrite <- (po_equal badbit (with_fuel cf n) fn i d eq_refl eq_refl B)|rewrite (po_equal badbit (with_fuel cf n) fn i d eq_refl eq_refl B)]; now apply H.
Qed.
(** ... and a read error is never taken for the end of the file: the parse ends - even where it hangs
    without the mask - and does not return. *)
Theorem C102_read_error_reported :
  forall (mk : mask) (cf : config) (fn b : bytes) (d : dictionary),
  mk_bad mk = true ->
  exists r, masked_parses_to mk cf fn (broken_after b) d r /\ pr_outcome r <> Ret tt /\
    (io_thrown r \/ parses_to cf fn (broken_after b) d r).
Proof.
  intros mk cf fn b d M. pose (n := length b).
  assert (Ar : armed mk (with_fuel cf n) (init_state (with_fuel cf n) (broken_after b) d)) by (split; [reflexivity|]; left; auto).
  destruct (po_stops mk (with_fuel cf n) fn (broken_after b) d Ar) as (NR & NF).
  specialize (NF (le_n _)). exists (x_po_parse mk (with_fuel cf n) fn (broken_after b) d).
  split; [apply masked_intro; exact NF|]. split; [apply NR|].
  destruct (po_cut mk (with_fuel cf n) fn (broken_after b) d) as [E|(E & _)]; [right|left; exact E].
  rewrite E. apply parses_to_intro. now rewrite <- E.
Qed.
(** exceptions(failbit) or exceptions(eofbit): the parser meets the end of every file with the
    exception, however well-formed the file is; no parse returns (and none hangs). *)
Theorem C102_failbit_eofbit_never_return :
  forall (mk : mask) (cf : config) (fn b : bytes) (d : dictionary),
  mk_fail mk = true \/ mk_eof mk = true ->
  exists r, masked_parses_to mk cf fn (stream_of b) d r /\ pr_outcome r <> Ret tt /\
    (io_thrown r \/ parses_to cf fn (stream_of b) d r).
Proof.
  intros mk cf fn b d M. pose (n := length b).
  assert (Ar : armed mk (with_fuel cf n) (init_state (with_fuel cf n) (stream_of b) d)).
  { split; [reflexivity|]. right. destruct M as [M|M]; [right|left]; auto. }
  destruct (po_stops mk (with_fuel cf n) fn (stream_of b) d Ar) as (NR & NF).
  specialize (NF (le_n _)). exists (x_po_parse mk (with_fuel cf n) fn (stream_of b) d).
  split; [apply masked_intro; exact NF|]. split; [apply NR|].
  destruct (po_cut mk (with_fuel cf n) fn (stream_of b) d) as [E|(E & _)]; [right|left; exact E].
  rewrite E. apply parses_to_intro. now rewrite <- E.
Qed.
(** So, where the parse without the mask returns, the one with it ends with the exception. *)
Theorem C102_failbit_eofbit_throw :
  forall (mk : mask) (cf : config) (fn b : bytes) (d : dictionary) (r : parse_result),
  mk_fail mk = true \/ mk_eof mk = true ->
  parses_to cf fn (stream_of b) d r -> pr_outcome r = Ret tt ->
  exists r', masked_parses_to mk cf fn (stream_of b) d r' /\ io_thrown r' /\ cut_short r' r.
Proof.
  intros mk cf fn b d r M H E. destruct (C102_failbit_eofbit_never_return mk cf fn b d M) as (r1 & H1 & N & _).
  destruct (C102_cut_short mk cf fn _ d r H) as (r' & H' & [-> | D]); [|exists r'; auto].
  rewrite (masked_fun _ _ _ _ _ _ _ H1 H') in N. contradiction.
Qed.

(** Nothing is lost by the exception if the file ends in a blank line, whether or not reading fails
    behind it: the dictionary, the messages and the calls are those of the parse without the mask. *)
Theorem C102_blank_line_at_the_end :
  forall (mk : mask) (cf : config) (fn b l : bytes) (i : istream) (d : dictionary) (r : parse_result),
  between_blocks b -> one_line l ->
  i = stream_of b \/ i = broken_after (b ++ l) ->
  parses_to cf fn i d r ->
  exists r', masked_parses_to mk cf fn i d r' /\
    pr_dict r' = pr_dict r /\ pr_trace r' = pr_trace r /\ pr_calls r' = pr_calls r /\
    (pr_outcome r' = pr_outcome r \/ (io_thrown r' /\ pr_outcome r = Ret tt)).
Proof.
  intros mk cf fn b l i d r Hb Hl Hi H. apply parses_to_elim in H as (n & <- & H).
  assert (T : tail_ok b []) by (destruct Hb as [-> |(p & w & -> & Hp & Hw & Hw')]; [left; split; [reflexivity|constructor]|right; exists p, w; auto]).
  assert (HQ : Q (with_fuel cf n) (init_state (with_fuel cf n) i d)).
  { destruct Hi as [-> | ->]; [exists b, []|exists b, l]; cbn [init_state p_in p_cur p_eof stream_of broken_after is_rest is_eof is_fail is_break].
    - rewrite app_nil_r. split; [reflexivity|]. split; [intros []|]. split; [exact T|]. auto.
    - split; [reflexivity|]. split; [exact Hl|]. split; [exact T|]. auto. }
  pose proof (po_blank mk (with_fuel cf n) fn i d HQ) as X. cbv zeta in X. specialize (X H).
  exists (x_po_parse mk (with_fuel cf n) fn i d). destruct X as [X|(X & E & D & T' & C)].
  - split; [apply masked_intro; now rewrite X|]. rewrite X. auto 10.
  - split; [apply masked_intro; unfold io_thrown in X; rewrite X; discriminate|]. auto 10.
Qed.

(** Two entries, without a blank line at the end: the parser gets the second one in the absence of a
    mask, and not if failbit or eofbit is masked; a blank line at the end is enough for failbit. And
    the file on which the parser hangs (C23). *)
Definition two_entries : bytes := file [bs "msgid `a`"; bs "msgstr `A`"; bs ""; bs "msgid `b`"; bs "msgstr `B`"].
Definition two_entries_blank : bytes := file [bs "msgid `a`"; bs "msgstr `A`"; bs ""; bs "msgid `b`"; bs "msgstr `B`"; bs ""].
Definition stuck : bytes := file [bs "msgid `x`"] ++ q (bs "  `x`").
Definition latin : bytes := file [bs "msgid ``"; bs "msgstr `Content-Type: text/plain; charset=LATIN1\n`"; bs ""; bs "msgid `a`"; bs "msgstr `A`"].
Definition first_add : list dict_call := [CallAdd (AddSingular None (bs "a") (bs "A"))].
Definition both_adds : list dict_call := first_add ++ [CallAdd (AddSingular None (bs "b") (bs "B"))].
Example C102_nonvacuous :
  (exists r, parses_to ex_cf (bs "f.po") (stream_of two_entries) ex_d r /\ pr_outcome r = Ret tt /\ pr_calls r = both_adds) /\
  (exists r, masked_parses_to failbit ex_cf (bs "f.po") (stream_of two_entries) ex_d r /\ io_thrown r /\ pr_calls r = first_add) /\
  (exists r, masked_parses_to eofbit ex_cf (bs "f.po") (stream_of two_entries) ex_d r /\ io_thrown r /\ pr_calls r = first_add) /\
  (exists r, masked_parses_to failbit ex_cf (bs "f.po") (stream_of two_entries_blank) ex_d r /\ io_thrown r /\ pr_calls r = both_adds) /\
  (exists r, masked_parses_to badbit ex_cf (bs "f.po") (stream_of two_entries) ex_d r /\ pr_outcome r = Ret tt /\ pr_calls r = both_adds) /\
  (exists r, masked_parses_to badbit ex_cf (bs "f.po") (broken_after two_entries) ex_d r /\ io_thrown r /\ pr_calls r = first_add) /\
  between_blocks two_entries_blank /\
  hangs_on (last_line (drop_bom stuck)) = true /\
  (exists r, masked_parses_to failbit ex_cf (bs "f.po") (stream_of stuck) ex_d r /\ io_thrown r) /\
  (** one descriptor opened, and closed *)
  (exists r, masked_parses_to failbit ex_cf (bs "f.po") (stream_of latin) ex_d r /\ io_thrown r /\ disciplined None 0 (pr_trace r) = Some (None, 1)).
Proof.
  assert (P : forall i r, po_parse (with_fuel ex_cf 60) (bs "f.po") i ex_d = r -> pr_outcome r <> OutOfFuel -> parses_to ex_cf (bs "f.po") i ex_d r)
    by (intros i r <- F; now apply parses_to_intro).
  assert (X : forall mk i r, x_po_parse mk (with_fuel ex_cf 60) (bs "f.po") i ex_d = r -> pr_outcome r <> OutOfFuel -> masked_parses_to mk ex_cf (bs "f.po") i ex_d r)
    by (intros mk i r <- F; now apply masked_intro).
  split; [eexists; split; [eapply P; [vm_compute; reflexivity|discriminate]|split; vm_compute; reflexivity]|].
  split; [eexists; split; [eapply X; [vm_compute; reflexivity|discriminate]|split; vm_compute; reflexivity]|].
  split; [eexists; split; [eapply X; [vm_compute; reflexivity|discriminate]|split; vm_compute; reflexivity]|].
  split; [eexists; split; [eapply X; [vm_compute; reflexivity|discriminate]|split; vm_compute; reflexivity]|].
  split; [eexists; split; [eapply X; [vm_compute; reflexivity|discriminate]|split; vm_compute; reflexivity]|].
  split; [eexists; split; [eapply X; [vm_compute; reflexivity|discriminate]|split; vm_compute; reflexivity]|].
  split; [right; exists two_entries, []; split; [vm_compute; reflexivity|]; split; [right; exists (removelast two_entries); vm_compute; reflexivity|]; split; [constructor|intros []]|].
  split; [vm_compute; reflexivity|].
  split; [eexists; split; [eapply X; [vm_compute; reflexivity|discriminate]|vm_compute; reflexivity]|].
  eexists; split; [eapply X; [vm_compute; reflexivity|discriminate]|split; vm_compute; reflexivity].
Qed.
Print Assumptions C102_cut_short.
Print Assumptions C102_one_result.
Print Assumptions C102_descriptors_closed.
Print Assumptions C102_badbit_harmless.
Print Assumptions C102_read_error_reported.
Print Assumptions C102_failbit_eofbit_never_return.
Print Assumptions C102_failbit_eofbit_throw.
Print Assumptions C102_blank_line_at_the_end.
