(** Files with mistakes: which lines are lost, and what is said about them. Vocabulary for
    statements about arbitrary complete files (every line ended by a newline). *)
From Verif.Model Require Import Base Log PluralForms Dictionary IConv Stream PoParser.
From Verif.Spec Require Import ParserSpec PoSpec SoundSpec.
Local Open Scope list_scope.

(** ** Well-formed blocks *)
Definition block_fine (big5 : bool) (b : po_block) : Prop :=
  Forall is_comment (bl_comments b) /\ match bl_entry b with Some e => entry_ok false big5 e | None => True end.
(** the lines [ls] are the beginning of a well-formed block with its separating line *)
Definition begins (big5 : bool) (ls : list bytes) : Prop :=
  exists b sep more, block_fine big5 b /\ separator_ok b sep /\ block_lines b ++ [sep] = ls ++ more.
(** ... and there are lines to come *)
Definition unfinished (big5 : bool) (ls : list bytes) : Prop :=
  exists b sep l more, block_fine big5 b /\ separator_ok b sep /\ block_lines b ++ [sep] = ls ++ l :: more.
(** the block has an entry without plural forms *)
Definition singular (b : po_block) : Prop :=
  exists e m, bl_entry b = Some e /\ en_body e = PoStr m.
(** a line that continues a string: white space and a quote *)
Definition continues (l : bytes) : Prop := exists w r, l = w ++ c_dq :: r /\ white w.

(** ** A file is a sequence of segments *)
Inductive segment :=
| Whole (b : po_block) (sep : bytes)                            (* a block and its separating line *)
| Excess (b : po_block) (x : bytes) (skipped : list bytes)      (* a block, and a line [x] that should separate but does not *)
| Broken (pre : list bytes) (x : bytes) (skipped : list bytes). (* no block: the mistake is in line [x] *)
Definition seg_lines (sg : segment) : list bytes :=
  match sg with
  | Whole b sep => block_lines b ++ [sep]
  | Excess b x sk => block_lines b ++ x :: sk
  | Broken pre x sk => pre ++ x :: sk
  end.
Definition segs_lines (sgs : list segment) : list bytes := List.concat (List.map seg_lines sgs).
(** the entries that are read *)
Definition seg_entries (sg : segment) : list po_entry :=
  match sg with
  | Whole b _ | Excess b _ _ => opt_list (bl_entry b)
  | Broken _ _ _ => []
  end.
Definition segs_entries (sgs : list segment) : list po_entry := List.concat (List.map seg_entries sgs).

(** After a mistake everything is skipped up to the next blank line, which begins the
    next segment. *)
Definition skips (sk following : list bytes) : Prop :=
  Forall (fun l => ~ is_blank l) sk /\ match following with l :: _ => is_blank l | [] => True end.
(** A segment is [Broken] at the first line that no well-formed block can have there. *)
Definition seg_ok (big5 : bool) (sg : segment) (following : list bytes) : Prop :=
  match sg with
  | Whole b sep => block_fine big5 b /\ separator_ok b sep
  | Excess b x sk => block_fine big5 b /\ singular b /\ ~ is_blank x /\ ~ continues x /\ skips sk following
  | Broken pre x sk =>
      unfinished big5 pre /\ ~ begins big5 (pre ++ [x]) /\
      (forall b, block_fine big5 b -> singular b -> pre = block_lines b -> continues x) /\
      skips sk following
  end.
Fixpoint segs_ok (big5 : bool) (sgs : list segment) : Prop :=
  match sgs with
  | [] => True
  | sg :: sgs' => seg_ok big5 sg (segs_lines sgs') /\ segs_ok (big5_end big5 (seg_entries sg)) sgs'
  end.

(** ** What is wrong with a line *)
(** Where in an entry we are: given by the keyword of the last line that has one. *)
Fixpoint after_space (l : bytes) : bytes :=
  match l with c :: l' => if isspace c then after_space l' else l | [] => [] end.
Definition has_keyword (l : bytes) : bool := negb (starts_with [c_dq] (after_space l)).
Inductive stage := AtStart | AfterCtxt | AfterId | AfterPlural | AfterForm | AfterStr.
Definition stage_of (l : bytes) : stage :=
  if starts_with (bs "msgctxt") l then AfterCtxt
  else if starts_with (bs "msgid_plural") l then AfterPlural
  else if starts_with (bs "msgid") l then AfterId
  else if starts_with (bs "msgstr[") l then AfterForm
  else if starts_with (bs "msgstr") l then AfterStr
  else AtStart.
Definition stage_after (ls : list bytes) : stage :=
  match rev (List.filter has_keyword ls) with l :: _ => stage_of l | [] => AtStart end.

(** the text behind an opening quote has no closing one *)
Inductive unclosed (big5 : bool) : bytes -> bytes -> Prop :=
| uc_end ps : Forall (piece_ok big5) ps ->
    unclosed big5 (List.concat (List.map piece_text ps)) (bs "unexpected end of string")
| uc_backslash ps : Forall (piece_ok big5) ps ->
    unclosed big5 (List.concat (List.map piece_text ps) ++ [c_bsl]) (bs "unexpected end of string in handling '\'")
| uc_lead ps c : big5 = true -> Forall (piece_ok big5) ps -> is_lead c ->
    unclosed big5 (List.concat (List.map piece_text ps) ++ [c]) (bs "invalid big5 encoding").
(** mistakes in a string, from its opening quote on *)
Definition bad_string (big5 : bool) (t msg : bytes) : Prop :=
  t = [c_dq] /\ msg = bs "unexpected end of line" \/
  exists body, body <> [] /\ t = c_dq :: body /\ unclosed big5 body msg.
(** ... in a line that continues one *)
Definition bad_more (big5 : bool) (x msg : bytes) : Prop :=
  exists w t, x = w ++ t /\ white w /\ bad_string big5 t msg.
(** ... in the text behind a keyword *)
Definition bad_after (big5 : bool) (t msg : bytes) : Prop :=
  (length t <= 1 \/ white t) /\ msg = bs "unexpected end of line" \/
  1 < length t /\
  ((exists w c r, t = w ++ c :: r /\ white w /\ isspace c = false /\ c <> c_dq /\
      msg = bs "string must start with '" ++ [c_dq] ++ bs "'") \/
   bad_more big5 t msg).

(** the line [x] where a msgid is expected *)
Definition bad_id (big5 : bool) (x msg : bytes) : Prop :=
  if starts_with (bs "msgid") x then bad_after big5 (skipn 5 x) msg else msg = bs "expected 'msgid'".
(** ... where a msgstr[N] is expected *)
Definition is_form (x rest : bytes) : Prop := exists n, n < 10 /\ x = bs "msgstr[" ++ [digit_of n; c_rbr] ++ rest.
Definition bad_form (big5 : bool) (x msg : bytes) : Prop :=
  (exists rest, is_form x rest /\ bad_after big5 rest msg) \/
  (forall rest, ~ is_form x rest) /\ msg = bs "expected 'msgstr[N]'".
Definition bad_line (big5 : bool) (st : stage) (x msg : bytes) : Prop :=
  match st with
  | AtStart => if starts_with (bs "msgctxt") x then bad_after big5 (skipn 7 x) msg else bad_id big5 x msg
  | AfterCtxt => bad_id big5 x msg
  | AfterId =>
      if starts_with (bs "msgid_plural") x then bad_after big5 (skipn 12 x) msg
      else if starts_with (bs "msgstr") x then bad_after big5 (skipn 6 x) msg
      else msg = bs "expected 'msgstr' or 'msgid_plural'"
  | AfterPlural =>
      is_blank x /\ msg = bs "expected 'msgstr[N] (0 <= N <= 9)'" \/ ~ is_blank x /\ bad_form big5 x msg
  | AfterForm => bad_form big5 x msg
  | AfterStr => False
  end.
(** after the lines [pre] of a block, [x] is reported with the text [msg] *)
Definition complaint (big5 : bool) (pre : list bytes) (x msg : bytes) : Prop :=
  (stage_after pre <> AtStart /\ continues x /\ bad_more big5 x msg) \/
  ((stage_after pre = AtStart \/ ~ continues x) /\ bad_line big5 (stage_after pre) x msg).

(** ** The log *)
Definition iconv_text (text : bytes) : bytes :=
  bs "error: tinygettext:iconv: invalid multibyte sequence in:  " ++ [c_dq] ++ text ++ [c_dq].
(** anything but the report of a mistake in the file: warnings, conversions, and the
    converter's own complaint *)
Definition remark (e : event) : Prop :=
  match e with
  | EvLog l => lg_level l <> LError \/ exists text, l = log_error (iconv_text text)
  | _ => True
  end.
Definition mistake (fn : bytes) (n : Z) (msg line : bytes) : event :=
  EvLog (log_error (fn ++ bs ":" ++ dec_Z n ++ bs ": error: " ++ msg ++ bs ": " ++ line)).
(** [n]: number of the segment's first line *)
Definition seg_said (fn : bytes) (n : Z) (big5 : bool) (sg : segment) (evs : list event) : Prop :=
  match sg with
  | Whole _ _ => Forall remark evs
  | Excess b x _ => exists rs, Forall remark rs /\
      evs = rs ++ [mistake fn (n + Z.of_nat (length (block_lines b))) (bs "expected empty line") x]
  | Broken pre x _ => exists rs msg, Forall remark rs /\ complaint big5 pre x msg /\
      evs = rs ++ [mistake fn (n + Z.of_nat (length pre)) msg x]
  end.
Fixpoint segs_said (fn : bytes) (n : Z) (big5 : bool) (sgs : list segment) (evs : list event) : Prop :=
  match sgs with
  | [] => Forall remark evs
  | sg :: sgs' => exists e1 e2, evs = e1 ++ e2 /\ seg_said fn n big5 sg e1 /\
      segs_said fn (n + Z.of_nat (length (seg_lines sg))) (big5_end big5 (seg_entries sg)) sgs' e2
  end.

(** ** The mistakes reported, in order *)
(** number of the line, what is wrong, and the line itself *)
Definition report : Type := Z * bytes * bytes.
Fixpoint reports (fn : bytes) (ms : list report) (evs : list event) : Prop :=
  match ms with
  | [] => Forall remark evs
  | (n, msg, line) :: ms' => exists rs rest, evs = rs ++ mistake fn n msg line :: rest /\ Forall remark rs /\ reports fn ms' rest
  end.
(** the numbers increase, and the line quoted is the one with that number in the file (or
    empty: the file has ended) *)
Fixpoint in_file (ls : list bytes) (after : Z) (ms : list report) : Prop :=
  match ms with
  | [] => True
  | (n, _, line) :: ms' => (after < n <= Z.of_nat (length ls) + 1)%Z /\ nth (Z.to_nat n - 1) ls [] = line /\ in_file ls n ms'
  end.

(** ** Files whose last line is not ended by a newline *)
(** a line that the reader takes once more if it cannot get past it *)
Definition sticky (x : bytes) : Prop := is_comment x \/ continues x \/ exists rest, is_form x rest.
(** [sg] is the last segment of a file: apart from the empty line that the end of the file
    counts for it has a last line, and that line is sticky *)
Definition stuck (sg : segment) : Prop := exists ini x, seg_lines sg = ini ++ [x; []] /\ sticky x.
Definition warning_at (fn : bytes) (n : Z) (w line : bytes) : event :=
  EvLog (log_warning (fn ++ bs ":" ++ dec_Z n ++ bs ": warning: " ++ w ++ bs ": " ++ line)).
(** a warning that quotes the line [x] instead of an empty one *)
Definition requoted (fn : bytes) (n : Z) (x : bytes) (e e' : event) : Prop :=
  e' = e \/ exists w, e = warning_at fn n w [] /\ e' = warning_at fn n w x.
Definition reworded (msg : bytes) : bytes :=
  if bytes_eqb msg (bs "expected 'msgstr[N] (0 <= N <= 9)'") then bs "expected 'msgstr[N]'" else msg.
(** How the log of a file without the last newline differs from the one with it: [x] is the
    last line, [n] the number of the line behind it, [sg] the last segment. *)
Definition log_differs (fn : bytes) (n : Z) (x : bytes) (sg : segment) (with_ without : list event) : Prop :=
  (seg_lines sg = [[]] -> without = with_) /\
  (seg_lines sg <> [[]] ->
   match sg with
   | Whole _ _ => exists a a' close, with_ = a ++ close /\ Forall2 (requoted fn n x) a a' /\
       without = a' ++ mistake fn n (bs "expected empty line") x :: close
   | Excess _ _ _ => False
   | Broken _ _ _ => exists a msg close, with_ = a ++ mistake fn n msg [] :: close /\
       without = a ++ mistake fn n (reworded msg) x :: close
   end).
