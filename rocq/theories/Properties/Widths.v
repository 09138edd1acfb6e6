(** Property C100: the parser with the integer types it has. *)
From Verif.Model Require Import Base Log PluralForms Dictionary IConv Stream PoParser Widths.
From Verif.Spec Require Import IConvSpec PoSpec ParserSpec WidthsSpec.
From Verif.Proofs Require Import BaseFacts LexProofs ParserUnary ParserRel ParserFuel ParserTerm ParserLines ParserLinewise.
From Verif.Proofs Require Import WidthsProofs WidthsLower.
From Verif.Properties Require Import Parser Document.
Local Open Scope list_scope.

(** Files without a line of 4 GiB: as long as the line numbers fit an int, the widths
    make no difference to anything ... *)
Theorem C100_exact :
  forall (cf : config) (fn b : bytes) (d : dictionary) (r : parse_result),
  short_lines b -> parses_to cf fn (stream_of b) d r -> (pr_lines r <= 2147483647)%Z ->
  w_parses_to cf fn (stream_of b) d r.
Proof.
  intros cf fn b d r S (H & N & HN) L. split; [exact H|]. exists N. intros n Hn.
  pose proof (widths_exact (with_fuel cf n) fn b d S) as X. cbv zeta in X. rewrite (HN n Hn) in X. apply X, L.
Qed.
Print Assumptions C100_exact.

(** ... and if they do not, the counter overflows. *)
Theorem C100_overflow :
  forall (cf : config) (fn b : bytes) (d : dictionary) (r : parse_result),
  short_lines b -> parses_to cf fn (stream_of b) d r -> (2147483647 < pr_lines r)%Z ->
  w_overflows cf fn (stream_of b) d.
Proof.
  intros cf fn b d r S (H & N & HN) L. exists N. intros n Hn.
  pose proof (widths_exact (with_fuel cf n) fn b d S) as X. cbv zeta in X. rewrite (HN n Hn) in X. apply X, L.
Qed.
Print Assumptions C100_overflow.

(** So no file of less than 2 GiB - 18 bytes is read differently. *)
Theorem C100_small_files :
  forall (cf : config) (fn b : bytes) (d : dictionary) (r : parse_result),
  (Z.of_nat (length b) <= 2147483629)%Z -> parses_to cf fn (stream_of b) d r -> finished (pr_outcome r) = true ->
  w_parses_to cf fn (stream_of b) d r.
Proof.
  intros cf fn b d r L H F. apply C100_exact; [|exact H|exact (C36_no_overflow cf fn b d r H F L)].
  intros pre line post E _. rewrite E, !app_length in L. lia.
Qed.
Print Assumptions C100_small_files.

(** Every file of 2^31 - 1 lines or more that would be parsed to its end overflows the counter, *)
Theorem C100_violation_many_lines :
  forall (cf : config) (fn b : bytes) (d : dictionary) (r : parse_result),
  short_lines b -> (2147483647 <= Z.of_nat (newlines b))%Z ->
  parses_to cf fn (stream_of b) d r -> pr_outcome r = Ret tt -> w_overflows cf fn (stream_of b) d.
Proof.
  intros cf fn b d r S L P O. apply (C100_overflow cf fn b d r S P).
  destruct (parses_to_elim _ _ _ _ _ P) as (n & E & _). rewrite <- E in *. unfold po_parse in *.
  pose proof (lines_lower (with_fuel cf n) fn (stream_of b) d tt eq_refl) as X.
  destruct (parse_member (with_fuel cf n) fn true (init_state (with_fuel cf n) (stream_of b) d)) as [o s].
  cbn [pr_outcome pr_lines fst snd stream_of is_rest] in *. specialize (X O). lia.
Qed.
Print Assumptions C100_violation_many_lines.

(** and so does, however small it is, every file whose parse would otherwise never end (C23). *)
Theorem C100_violation_hangs_overflow :
  forall (cf : config) (fn b : bytes) (d : dictionary),
  short_lines b -> diverges cf fn (stream_of b) d -> w_overflows cf fn (stream_of b) d.
Proof.
  intros cf fn b d S D. exists (Z.to_nat 2147483647). intros n Hn.
  pose proof (widths_exact (with_fuel cf n) fn b d S) as [_ X]. apply X. specialize (D n). clear X. unfold po_parse in *.
  pose proof (lines_climb (with_fuel cf n) fn (stream_of b) d) as X.
  destruct (parse_member (with_fuel cf n) fn true (init_state (with_fuel cf n) (stream_of b) d)) as [o s].
  cbn [pr_outcome pr_lines fst snd cf_fuel with_fuel] in *. specialize (X D). unfold INT_MAX. lia.
Qed.
Print Assumptions C100_violation_hangs_overflow.

(** Blank lines are enough: *)
Lemma blank_block cf fn (s : pst (cf_iconv cf)) : 0 < cf_fuel cf -> p_cur s = [] ->
  try_block cf fn true s = (Ret tt, nextst s).
Proof.
  intros F C. assert (E : is_empty_line cf s = (Ret true, s)) by (rewrite is_empty_line_eq, C; reflexivity).
  assert (H : comments cf (cf_fuel cf) false s = (Ret false, s)).
  { destruct (cf_fuel cf) as [|f]; [lia|]. cbn [comments]. unfold prefix, mbind, mget. rewrite C. reflexivity. }
  unfold try_block, block. unfold mbind at 1. rewrite H. unfold mbind at 1. rewrite E. unfold mbind at 1, mret at 1.
  unfold mbind at 1. rewrite E. unfold mbind at 1, mret at 1. rewrite next_line_eq. reflexivity.
Qed.
Lemma blank_loop cf fn k : forall g (s : pst (cf_iconv cf)), 0 < cf_fuel cf -> p_cur s = [] -> p_eof s = false ->
  p_in s = stream_of (repeat c_lf k) -> k + 1 < g -> fst (parse_loop cf fn true g s) = Ret tt.
Proof.
  induction k as [|k IH]; intros g s F C E R G; (destruct g as [|g]; [lia|]); cbn [parse_loop];
    rewrite mget_bind, E; unfold mbind; rewrite (blank_block cf fn s F C); unfold nextst; rewrite R.
  - destruct g as [|g]; [lia|]. cbn [parse_loop]. unfold mbind, mget. reflexivity.
  - cbn [repeat]. rewrite (getline_line [] (repeat c_lf k)) by (intros []). apply IH; auto; lia.
Qed.
Theorem C100_violation_blank_lines :
  forall (cf : config) (fn : bytes) (d : dictionary) (k : nat),
  (2147483647 <= Z.of_nat k)%Z -> w_overflows cf fn (stream_of (repeat c_lf k)) d.
Proof.
  intros cf fn d k K.
  assert (N : newlines (repeat c_lf k) = k) by (clear; induction k as [|k IH]; [reflexivity|]; cbn [repeat newlines]; rewrite byte_eqb_refl, IH; reflexivity).
  assert (SL : short_lines (repeat c_lf k)).
  { intros pre line post E Nl. destruct line as [|c line]; [cbn; lia|]. exfalso. apply Nl. left.
    apply (repeat_spec k c_lf). rewrite E. apply in_or_app. right. left. reflexivity. }
  assert (O : pr_outcome (po_parse (with_fuel cf (k + 2)) fn (stream_of (repeat c_lf k)) d) = Ret tt).
  { unfold po_parse. enough (X : fst (parse_member (with_fuel cf (k + 2)) fn true (init_state (with_fuel cf (k + 2)) (stream_of (repeat c_lf k)) d)) = Ret tt).
    { destruct (parse_member _ _ _ _) as [o s]. exact X. }
    unfold parse_member. unfold mbind at 1. rewrite next_line_eq. unfold mbind, mmod, nextst. cbn [init_state p_in p_cur].
    destruct k as [|k]; [lia|]. cbn [repeat]. rewrite (getline_line [] (repeat c_lf k)) by (intros []). cbn [st_line p_cur starts_with bom].
    apply (blank_loop (with_fuel cf (S k + 2)) fn k); cbn [cf_fuel with_fuel st_line p_cur p_eof p_in init_state]; auto; lia. }
  apply (C100_violation_many_lines cf fn _ d (po_parse (with_fuel cf (k + 2)) fn (stream_of (repeat c_lf k)) d)); auto.
  - rewrite N. exact K.
  - apply parses_to_intro. rewrite O. discriminate.
Qed.
Print Assumptions C100_violation_blank_lines.

(** A line of 2^32 bytes or a few more: its length, cast to unsigned int, looks like that
    of a line too short to hold a string. The entry is rejected; a parser that compares
    the real length reads it. *)
Lemma long_line cf fn (first more : bytes) d :
  ~ In c_lf (bs "msgid" ++ first) -> ~ In c_lf (bs "msgstr" ++ more) ->
  as_unsigned (length (bs "msgid" ++ first)) <= 6 ->
  w_parses_to cf fn (stream_of (unlines [bs "msgid" ++ first; bs "msgstr" ++ more])) d
    {| pr_outcome := Ret tt; pr_dict := d;
       pr_trace := [EvLog (log_error (fn ++ bs ":1: error: unexpected end of line: msgid" ++ first))];
       pr_calls := []; pr_lines := 3%Z |}.
Proof.
  intros N1 N2 L. split; [discriminate|]. exists 2. intros n Hn. destruct n as [|[|g]]; [lia..|].
  set (cf' := with_fuel cf _). set (l1 := bs "msgid" ++ first) in *. set (l2 := bs "msgstr" ++ more) in *.
  change (unlines [l1; l2]) with (l1 ++ c_lf :: l2 ++ [c_lf]).
  (* the first line *)
  set (s0 := init_state cf' (stream_of (l1 ++ c_lf :: l2 ++ [c_lf])) d).
  assert (E1 : w_next_line cf' s0 = (Ret tt, st_line s0 (stream_of (l2 ++ [c_lf])) l1 false 1%Z)).
  { unfold w_next_line. rewrite mget_bind. change (INT_MAX <=? p_line s0)%Z with false. cbv iota. rewrite next_line_eq. unfold nextst, s0.
    cbn [init_state p_in p_cur]. rewrite (getline_line l1 (l2 ++ [c_lf]) [] N1). reflexivity. }
  set (s1 := st_line s0 (stream_of (l2 ++ [c_lf])) l1 false 1%Z) in *.
  set (ev := EvLog (log_error (fn ++ bs ":1: error: unexpected end of line: msgid" ++ first))).
  set (s2 := st_line (st_tr s1 [ev]) (stream_of []) l2 false 2%Z).
  set (s3 := st_line s2 {| is_rest := []; is_eof := true; is_fail := true; is_break := false |} [] true 3%Z).
  assert (C1 : p_cur s1 = l1) by reflexivity.
  assert (Er : forall A, w_error cf' fn (A := A) (bs "unexpected end of line") s1 = (Exn ExPo, s3)).
  { intro A. unfold w_error. rewrite mget_bind. unfold mbind at 1, emit, mmod.
    change (p_tr s1 ++ _) with ([EvLog (log_error (fn ++ bs ":" ++ dec_Z 1 ++ bs ": error: " ++ bs "unexpected end of line" ++ bs ": " ++ l1))]).
    change (length (is_rest (p_in s1))) with (length (l2 ++ [c_lf])).
    replace [EvLog (log_error (fn ++ bs ":" ++ dec_Z 1 ++ bs ": error: " ++ bs "unexpected end of line" ++ bs ": " ++ l1))] with [ev] by reflexivity.
    assert (R1 : w_next_line cf' (st_tr s1 [ev]) = (Ret tt, s2)).
    { unfold w_next_line. rewrite mget_bind. change (INT_MAX <=? p_line (st_tr s1 [ev]))%Z with false. cbv iota. rewrite next_line_eq. unfold nextst.
      cbn [st_tr st_line p_in p_cur s1]. rewrite (getline_line l2 [] l1 N2). reflexivity. }
    assert (Q : pempty (cf_strict cf') l2 = Some false).
    { unfold l2, pempty. change (bs "msgstr" ++ more) with (chr 109 :: bs "sgstr" ++ more).
      change (byte_eqb (chr 109) c_hash) with false. cbv iota. cbn [pall_space]. unfold pctype.
      change (hi (chr 109)) with false. destruct (cf_strict cf'); reflexivity. }
    assert (R2 : w_next_line cf' s2 = (Ret tt, s3)) by reflexivity.
    assert (Rec : forall m, w_recover cf' (S (S m)) (st_tr s1 [ev]) = (Ret tt, s3)).
    { intro m. cbn [w_recover]. unfold mbind at 1. rewrite R1. rewrite mget_bind. change (p_eof s2) with false. cbv iota.
      unfold mbind at 1. rewrite is_empty_line_eq. change (p_cur s2) with l2. rewrite Q. cbn [run_opt]. unfold mret at 1. cbv beta iota.
      unfold mbind at 1. rewrite R2. rewrite mget_bind. change (p_eof s3) with true. reflexivity. }
    unfold mbind. rewrite Rec. reflexivity. }
  assert (Hc : w_comments cf' (cf_fuel cf') false s1 = (Ret false, s1)) by reflexivity.
  assert (He : is_empty_line cf' s1 = (Ret false, s1)).
  { rewrite is_empty_line_eq. change (p_cur s1) with l1.
    assert (Q : pempty (cf_strict cf') l1 = Some false).
    { unfold l1, pempty. change (bs "msgid" ++ first) with (chr 109 :: bs "sgid" ++ first).
      change (byte_eqb (chr 109) c_hash) with false. cbv iota. cbn [pall_space]. unfold pctype.
      change (hi (chr 109)) with false. destruct (cf_strict cf'); reflexivity. }
    rewrite Q. reflexivity. }
  assert (Hg : w_get_string cf' fn 5 s1 = (Exn ExPo, s3)).
  { unfold w_get_string. rewrite mget_bind. change (p_cur s1) with l1.
    apply Nat.leb_le in L. change (5 + 1) with 6. rewrite L. apply Er. }
  assert (Hn' : w_entry cf' fn true false s1 = (Exn ExPo, s3)).
  { unfold w_entry, prefix. rewrite mget_bind. change (starts_with (bs "msgctxt") (p_cur s1)) with false. cbv iota.
    unfold mbind at 1, mret at 1. rewrite mget_bind. change (starts_with (bs "msgid") (p_cur s1)) with true. cbv iota.
    unfold mbind at 1. rewrite Hg. reflexivity. }
  assert (Ht : w_try_block cf' fn true s1 = (Ret tt, s3)).
  { unfold w_try_block, w_block. unfold mbind at 1. rewrite Hc. unfold mbind at 1. rewrite He. unfold mbind at 1. rewrite Hn'. reflexivity. }
  assert (Hp : w_parse_member cf' fn true s0 = (Ret tt, s3)).
  { unfold w_parse_member. unfold mbind at 1. rewrite E1. unfold mbind at 1, mmod.
    change (starts_with bom (p_cur s1)) with false. cbv iota. change (cf_fuel cf') with (S (S g)). cbn [w_parse_loop].
    rewrite mget_bind. change (p_eof s1) with false. cbv iota. unfold mbind at 1. rewrite Ht.
    rewrite mget_bind. change (p_eof s3) with true. reflexivity. }
  unfold w_po_parse. fold s0. rewrite Hp. reflexivity.
Qed.

Theorem C100_violation_long_line :
  forall (cf : config) (fn : bytes) (d : dictionary) (msgid msgstr first more : bytes),
  spelled (bs "msgid") msgid [bs "msgid" ++ first] -> spelled (bs "msgstr") msgstr [bs "msgstr" ++ more] ->
  msgid <> [] -> msgstr <> [] -> clean (cf_strict cf) (d_charset d) ->
  ~ In c_lf first -> ~ In c_lf more ->
  (Z.of_nat (length (bs "msgid" ++ first)) mod 4294967296 <= 6)%Z ->
  let b := unlines [bs "msgid" ++ first; bs "msgstr" ++ more] in
  (exists r, parses_to cf fn (stream_of b) d r /\ pr_outcome r = Ret tt /\
     pr_calls r = [CallAdd (AddSingular None msgid msgstr)]) /\
  (exists r, w_parses_to cf fn (stream_of b) d r /\ pr_outcome r = Ret tt /\ pr_calls r = [] /\ pr_dict r = d /\
     pr_trace r = [EvLog (log_error (fn ++ bs ":1: error: unexpected end of line: msgid" ++ first))]).
Proof.
  intros cf fn d msgid msgstr first more S1 S2 M1 M2 C N1 N2 L b. split.
  - destruct (C24_literals_round_trip cf fn d None msgid msgstr [] _ _ eq_refl S1 S2 M1 M2 C) as (r & P & O & K & _).
    exists r. split; [exact P|]. split; [exact O|exact K].
  - eexists. split; [apply long_line|repeat split].
    + intro X. apply in_app_or in X as [X|X]; [|auto]. revert X. vm_compute. intuition discriminate.
    + intro X. apply in_app_or in X as [X|X]; [|auto]. revert X. vm_compute. intuition discriminate.
    + unfold as_unsigned. lia.
Qed.
Print Assumptions C100_violation_long_line.

(** Such a line exists: a msgid of 2^32 - 8 letters. *)
Lemma spelled_plain kw k : spelled kw (repeat (chr 120) k) [kw ++ c_sp :: c_dq :: repeat (chr 120) k ++ [c_dq]].
Proof.
  destruct (C24_every_string_can_be_spelled kw (repeat (chr 120) k)) as [t _].
  exists [repeat (chr 120) k], (c_sp :: c_dq :: repeat (chr 120) k ++ [c_dq]), [].
  cbn [List.concat]. rewrite app_nil_r. split; [reflexivity|]. split; [|reflexivity].
  apply (q_cons (repeat (chr 120) k) (repeat (chr 120) k) [c_sp] []).
  - clear t. induction k as [|k IH]; [constructor|]. cbn [repeat]. constructor; [discriminate..|exact IH].
  - repeat constructor.
  - intros [E|[]]; discriminate.
  - constructor.
  - intros [].
  - constructor.
Qed.
Example C100_nonvacuous_long_line :
  forall k : nat, Z.of_nat k = 4294967288%Z ->
  let first := c_sp :: c_dq :: repeat (chr 120) k ++ [c_dq] in let more := bs " " ++ [c_dq] ++ bs "x" ++ [c_dq] in
  spelled (bs "msgid") (repeat (chr 120) k) [bs "msgid" ++ first] /\ spelled (bs "msgstr") (bs "x") [bs "msgstr" ++ more] /\
  repeat (chr 120) k <> [] /\ ~ In c_lf first /\ ~ In c_lf more /\
  (Z.of_nat (length (bs "msgid" ++ first)) mod 4294967296 = 0)%Z.
Proof.
  intros k K first more. split; [apply spelled_plain|]. split; [apply (spelled_plain (bs "msgstr") 1)|].
  assert (P : 0 < k) by lia.
  split; [destruct k; [lia|discriminate]|]. split.
  - intros [E|[E|E]]; [discriminate..|]. apply in_app_or in E as [E|[E|[]]]; [|discriminate]. apply repeat_spec in E. discriminate.
  - split; [vm_compute; intuition discriminate|]. unfold first. rewrite app_length. cbn [length]. rewrite app_length, repeat_length. cbn [length].
    change (length (bs "msgid")) with 5. replace (Z.of_nat (5 + S (S (k + 1)))) with 4294967296%Z by lia. reflexivity.
Qed.

Lemma short_short b : length b <= 1000 -> short_lines b.
Proof. intros L pre line post E _. rewrite E, !app_length in L. lia. Qed.

(** The other hypotheses are met by ordinary files: *)
Example C100_nonvacuous :
  let b := file [bs "msgid `a`"; bs "msgstr `A`"] in
  short_lines b /\ exists r, parses_to ex_cf (bs "f.po") (stream_of b) ex_d r /\ pr_outcome r = Ret tt /\ pr_lines r = 4%Z /\
    pr_calls r = [CallAdd (AddSingular None (bs "a") (bs "A"))] /\ newlines b = 2.
Proof.
  cbv zeta. split.
  - apply short_short. vm_compute. lia.
  - eexists. split; [apply (finishes_intro ex_cf (bs "f.po") _ _ 20); vm_compute; exact Logic.I|]. vm_compute. auto.
Qed.
Example C100_nonvacuous_hang :
  let b := q (bs "msgid `a`") ++ c_lf :: q (bs "msgstr `A`") ++ c_lf :: c_lf :: bs "#~ old" in
  short_lines b /\ diverges strict_cf (bs "f.po") (stream_of b) ex_d.
Proof.
  cbv zeta. split.
  - apply short_short. vm_compute. lia.
  - destruct C23_nonvacuous as [(H1 & H2 & H3 & H4) _].
    refine (C23_parse_never_returns strict_cf (bs "f.po") ex_hang_comment _ ex_d _ _ H2 H3 _).
    + exact H1.
    + vm_compute. intuition discriminate.
    + rewrite H4. reflexivity.
Qed.
