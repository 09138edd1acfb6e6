(** The whole log of a parse of an arbitrary complete file that is in the dictionary's own
    character set: what is noted about every line, well-formed or not. *)
From Verif.Model Require Import Base Log PluralForms Dictionary IConv Stream PoParser.
From Verif.Spec Require Import DictSpec ParserSpec PoSpec SoundSpec DamageSpec.
From Verif.Spec Require DiagSpec.
Local Open Scope list_scope.

(** ** One line *)
(** the text behind an opening quote, closed or not *)
Fixpoint scan_notes (big5 : bool) (t : bytes) : list bytes :=
  match t with
  | [] => []
  | c :: t1 =>
      if byte_eqb c c_dq then DiagSpec.trail_notes t1
      else if big5 && ((129 <=? code c) && (code c <=? 254))%N then
        match t1 with [] => [] | _ :: t2 => scan_notes big5 t2 end
      else if byte_eqb c c_bsl then
        match t1 with
        | [] => []
        | c1 :: t2 => match meaning_of c1 escapes with
                      | Some _ => []
                      | None => [bs "unhandled escape '\" ++ [c1] ++ bs "'"]
                      end ++ scan_notes big5 t2
        end
      else scan_notes big5 t1
  end.
Definition quoted_notes (big5 : bool) (t : bytes) : list bytes :=
  match after_space t with c :: r => if byte_eqb c c_dq then scan_notes big5 r else [] | [] => [] end.
(** the text behind a keyword *)
Definition keyword_notes (pedantic big5 : bool) (t : bytes) : list bytes :=
  if length t <=? 1 then []
  else (if pedantic && negb (starts_with [c_sp; c_dq] t)
        then [bs "keyword and string must be seperated by a single space"] else []) ++ quoted_notes big5 t.
(** a line that continues a string *)
Definition continued_notes (pedantic big5 : bool) (l : bytes) : list bytes :=
  (if pedantic && (length l - length (after_space l) =? 1) then [bs "leading whitespace before string"] else []) ++
  quoted_notes big5 l.
(** the length of the keyword of [l], if it is one that may come next *)
Definition numbered (l : bytes) : bool :=
  starts_with (bs "msgstr[") l && isdigit (nth 7 l c_nul) && byte_eqb (nth 8 l c_nul) c_rbr.
Definition keyword_in (st : stage) (l : bytes) : option nat :=
  match st with
  | AtStart => if starts_with (bs "msgctxt") l then Some 7 else if starts_with (bs "msgid") l then Some 5 else None
  | AfterCtxt => if starts_with (bs "msgid") l then Some 5 else None
  | AfterId => if starts_with (bs "msgid_plural") l then Some 12 else if starts_with (bs "msgstr") l then Some 6 else None
  | AfterPlural | AfterForm => if numbered l then Some 9 else None
  | AfterStr => None
  end.
(** [before]: the lines of the block before [l] *)
Definition line_notes (pedantic big5 : bool) (before : list bytes) (l : bytes) : list bytes :=
  if has_keyword l then
    match keyword_in (stage_after before) l with
    | Some k => keyword_notes pedantic big5 (skipn k l)
    | None => []
    end
  else match stage_after before with
       | AtStart => []
       | _ => continued_notes pedantic big5 l
       end.

(** ** Segments *)
Section Log.
  Variable fn : bytes.
  Variable pedantic : bool.
  Fixpoint lines_log (big5 : bool) (n : Z) (before ls : list bytes) : list event :=
    match ls with
    | [] => []
    | l :: ls' => List.map (DiagSpec.reported fn n l) (line_notes pedantic big5 before l) ++ lines_log big5 (n + 1) (before ++ [l]) ls'
    end.
  (** [n]: number of the first line; [d]: the dictionary so far *)
  Definition seg_log (n : Z) (big5 : bool) (d : dictionary) (sg : segment) (evs : list event) : Prop :=
    match sg with
    | Whole b sep => evs = DiagSpec.block_log fn pedantic n sep d b
    | Excess b x _ =>
        evs = DiagSpec.block_log fn pedantic n x d b ++
              [mistake fn (n + Z.of_nat (length (block_lines b))) (bs "expected empty line") x]
    | Broken pre x _ => exists msg, complaint big5 pre x msg /\
        evs = lines_log big5 n [] (pre ++ [x]) ++ [mistake fn (n + Z.of_nat (length pre)) msg x]
    end.
  Fixpoint segs_log (n : Z) (big5 : bool) (d : dictionary) (sgs : list segment) (evs : list event) : Prop :=
    match sgs with
    | [] => evs = []
    | sg :: sgs' => exists e1 e2, evs = e1 ++ e2 /\ seg_log n big5 d sg e1 /\
        segs_log (n + Z.of_nat (length (seg_lines sg))) (big5_end big5 (seg_entries sg))
          (DiagSpec.entries_dict d (seg_entries sg)) sgs' e2
    end.
End Log.
